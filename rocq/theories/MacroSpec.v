(** What the properties C22-C28 say, independently of the model's algorithms. *)
From Coq Require Import Ascii String Bool Arith List.
Import ListNotations.
From Verif Require Import PyBase PyStr MacroModel.

(** A text cut into pieces: words, string literals and what is between them. *)
Inductive piece := PGap (s : str) | PWord (w : str) | PStr (s : str).
Definition piece_text (p : piece) : str :=
  match p with PGap s => s | PWord w => w | PStr s => s end.
Definition text (ps : list piece) : str := concat (map piece_text ps).
(** The text with each word [w] replaced by [f w]. *)
Definition subst (f : str -> str) (ps : list piece) : str :=
  concat (map (fun p => match p with PWord w => f w | p => piece_text p end) ps).

Definition word (w : str) : Prop := w <> [] /\ forall c, In c w -> is_word c = true.
Definition no_word (s : str) : Prop := forall c, In c s -> is_word c = false.
(** Two words never touch: words are maximal. *)
Fixpoint maximal (ps : list piece) : Prop :=
  match ps with
  | PWord _ :: (PWord _ :: _) as r => False
  | _ :: r => maximal r
  | [] => True
  end.

(** Cutting into words and gaps only. *)
Definition words_of (s : str) (ps : list piece) : Prop :=
  s = text ps /\ maximal ps
  /\ forall p, In p ps ->
     match p with PGap g => g <> [] /\ no_word g | PWord w => word w | PStr _ => False end.

(** There is no pair of double quotes in [s], hence no string literal. *)
Definition no_literal (s : str) : Prop :=
  forall a b, s = a ++ dquote :: b -> ~ In dquote b.

(** The inside of a string literal: characters other than quote and backslash, and
    backslashes followed by a character other than a backslash. *)
Inductive lit_body : str -> Prop :=
| lb_nil : lit_body []
| lb_char c s : c <> dquote -> c <> bslash -> lit_body s -> lit_body (c :: s)
| lb_esc c s : c <> bslash -> lit_body s -> lit_body (bslash :: c :: s).

(** Cutting into words, gaps and string literals. *)
Definition code_of (s : str) (ps : list piece) : Prop :=
  s = text ps /\ maximal ps
  /\ forall p, In p ps ->
     match p with
     | PGap g => g <> [] /\ no_word g /\ ~ In dquote g
     | PWord w => word w
     | PStr l => exists b, l = dquote :: b ++ [dquote] /\ lit_body b
     end.

Definition free_of (cs : list ascii) (s : str) : Prop := forall c, In c cs -> ~ In c s.

(** Object-like replacement of a word. *)
Definition replaced (m : dict str str) (w : str) : str :=
  match dget m w with Some v => v | None => w end.
(** A parameter replaced by its argument. *)
Definition bound (params args : list str) (w : str) : str :=
  replaced (combine params args) w.

(** ** C expansion of object-like macros
    [cexp m hidden s o]: the text [s] expands to [o] under the definitions [m], the names
    in [hidden] being replaced at the moment (a name is not replaced inside its own
    replacement). *)
Inductive cexp (m : str -> option str) : list str -> str -> str -> Prop :=
| cexp_text hidden s ps os :
    words_of s ps -> cexps m hidden ps os -> cexp m hidden s (concat os)
with cexps (m : str -> option str) : list str -> list piece -> list str -> Prop :=
| cexps_nil hidden : cexps m hidden [] []
| cexps_gap hidden g ps os : cexps m hidden ps os -> cexps m hidden (PGap g :: ps) (g :: os)
| cexps_plain hidden w ps os :
    m w = None \/ In w hidden -> cexps m hidden ps os ->
    cexps m hidden (PWord w :: ps) (w :: os)
| cexps_macro hidden w body o ps os :
    m w = Some body -> ~ In w hidden -> cexp m (w :: hidden) body o ->
    cexps m hidden ps os -> cexps m hidden (PWord w :: ps) (o :: os).

(** ** Definitions *)
Definition ident (w : str) : Prop :=
  match w with
  | [] => False
  | c :: r => is_idstart c = true /\ forall d, In d r -> is_idchar d = true
  end.
Definition blanks (s : str) : Prop := forall c, In c s -> c = sp.
(** [name_list s l r]: [s] is the list [l] of names, separated by commas and closed by a
    parenthesis, followed by [r]. *)
Inductive name_list : str -> list str -> str -> Prop :=
| nl_last b n b' r :
    blanks b -> ident n -> blanks b' -> name_list (b ++ n ++ b' ++ ")"%char :: r) [n] r
| nl_more b n b' s l r :
    blanks b -> ident n -> blanks b' -> name_list s l r ->
    name_list (b ++ n ++ b' ++ ","%char :: s) (n :: l) r.
(** The text begins with a parenthesised list of names. *)
Definition begins_with_names (s : str) (l : list str) (r : str) : Prop :=
  exists b s', s = b ++ "("%char :: s' /\ blanks b /\ name_list s' l r.
(** Text on one line without tabs. *)
Definition plain_line (s : str) : Prop := free_of [tab; nl; cr] s.
Definition quotes : list ascii := [dquote; squote].

(** Definitions without parentheses, quotes and line breaks, and with a text. *)
Definition simple_body (s : str) : Prop :=
  free_of ["("; dquote; squote; tab; nl; cr]%char s /\ strip s <> [].
(** The texts of a list of definitions [(name, text)]. *)
Definition bodies (defs : list (str * str)) (w : str) : option str :=
  option_map strip (dget defs w).
(** No text mentions a name that is defined by the same line or by a later one. *)
Definition defined_first (defs : list (str * str)) : Prop :=
  forall before n rest after ps w,
    defs = before ++ (n, rest) :: after -> words_of rest ps -> In (PWord w) ps ->
    ~ In w (n :: map fst after).

(** [w] is one of the words of [s]: it cannot be extended to the left or to the right. *)
Definition name_in (w s : str) : Prop :=
  exists a b, s = a ++ w ++ b /\ word w
    /\ (forall c b', b = c :: b' -> is_word c = false)
    /\ (forall c a', a = a' ++ [c] -> is_word c = false).
