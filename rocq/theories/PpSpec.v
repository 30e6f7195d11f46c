(** What the properties C19-C21 and C29-C38 say, independently of the model's stacks and
    scanners. *)
From Coq Require Import Ascii String Bool Arith ZArith List.
Import ListNotations.
From Verif Require Import PyBase PyStr PyExpr MacroModel MacroSpec PpModel.

(** ** Lines *)
(** The directive of a line, empty for ordinary lines. *)
Definition dname (l : str) : str := match directive l with Some (d, _) => d | None => [] end.
Definition opens (l : str) : Prop := In (dname l) [$"if"; $"ifdef"; $"ifndef"].
Definition conditional (l : str) : Prop :=
  In (dname l) [$"if"; $"ifdef"; $"ifndef"; $"elif"; $"else"; $"endif"].
(** A definition or removal without a name. *)
Definition nameless (l : str) : Prop :=
  exists d r, directive l = Some (d, r) /\ In d [$"define"; $"undef"] /\ macro_name r = None.

(** ** Structured files (C19) *)
Inductive block :=
| BNil
| BLine (l : str) (b : block)
| BCond (l : str) (body : block) (t : branches) (rest : block)
with branches :=
| REnd (l : str)
| RElse (l : str) (body : block) (e : str)
| RElif (l : str) (body : block) (t : branches).

(** The text of a structured file. *)
Fixpoint lines (b : block) : list str :=
  match b with
  | BNil => []
  | BLine l b => l :: lines b
  | BCond l body t rest => l :: lines body ++ blines t ++ lines rest
  end
with blines (t : branches) : list str :=
  match t with
  | REnd l => [l]
  | RElse l body e => l :: lines body ++ [e]
  | RElif l body t => l :: lines body ++ blines t
  end.

Fixpoint well_formed (b : block) : Prop :=
  match b with
  | BNil => True
  | BLine l b => ~ conditional l /\ ~ nameless l /\ well_formed b
  | BCond l body t rest => opens l /\ well_formed body /\ bwell_formed t /\ well_formed rest
  end
with bwell_formed (t : branches) : Prop :=
  match t with
  | REnd l => dname l = $"endif"
  | RElse l body e => dname l = $"else" /\ well_formed body /\ dname e = $"endif"
  | RElif l body t => dname l = $"elif" /\ well_formed body /\ bwell_formed t
  end.

Section Exec.
  Context (fo : str -> list str -> option str) (ext : str -> bool).

  (** The condition of an #if, #ifdef, #ifndef or #elif line under the macros [t]. *)
  Definition holds (t : mtab) (l : str) : bool :=
    match directive l with
    | None => false
    | Some (d, rest) =>
        let text := if eqb d $"ifdef" then $"defined " ++ rest
                    else if eqb d $"ifndef" then $"!defined " ++ rest else rest in
        match condition fo t text with Ok c => eval_pp ext c | Err _ => false end
    end.

  (** C's reading: the first branch that holds is processed, in place of the whole
      conditional; the other ones are not looked at. *)
  Fixpoint exec (s : pst) (b : block) : res pst :=
    match b with
    | BNil => Ok s
    | BLine l b => do s' <- line_step fo ext 0 s l; exec s' b
    | BCond l body t rest =>
        do s' <- (if holds (tab s) l then exec s body else bexec s t);
        exec s' rest
    end
  with bexec (s : pst) (t : branches) : res pst :=
    match t with
    | REnd _ => Ok s
    | RElse _ body _ => exec s body
    | RElif l body t => if holds (tab s) l then exec s body else bexec s t
    end.
End Exec.

(** What is compared: the macros, the packing stack, the packings set, and the text; blank
    lines and line numbers are left out. *)
Definition same_effect (s s' : pst) : Prop :=
  tab s = tab s' /\ pstack s = pstack s' /\ map snd (plist s) = map snd (plist s')
  /\ filter (fun l => negb (eqb l [])) (outp s) = filter (fun l => negb (eqb l [])) (outp s').
Definition same_result (r r' : res pst) : Prop :=
  match r, r' with
  | Ok s, Ok s' => same_effect s s'
  | Err e, Err e' => e = e'
  | _, _ => False
  end.

(** ** Skipped regions (C20) and nesting (C21) *)
(** Nothing has changed but for added blank lines. *)
Definition quiet (s s' : pst) : Prop :=
  tab s' = tab s /\ ift s' = ift s /\ ifh s' = ifh s /\ pstack s' = pstack s /\ plist s' = plist s
  /\ exists n, outp s' = outp s ++ repeat [] n.

(** The nesting depth after some lines, counted from [n]; None if a line has no matching
    #if. *)
Fixpoint depth (n : nat) (ls : list str) : option nat :=
  match ls with
  | [] => Some n
  | l :: r =>
      let d := dname l in
      if eqb d $"if" || eqb d $"ifdef" || eqb d $"ifndef" then depth (S n) r
      else if eqb d $"endif" then match n with O => None | S n' => depth n' r end
      else if eqb d $"elif" || eqb d $"else" then match n with O => None | S _ => depth n r end
      else depth n r
  end.
(** A balanced region: every directive in it matches one in it. *)
Definition balanced (ls : list str) : Prop := depth 0 ls = Some 0.
(** Some #elif, #else or #endif has no matching #if. *)
Definition unmatched (ls : list str) : Prop := depth 0 ls = None.

(** ** Directive lines (C29-C32) *)
(** A line with the directive [d] (letters) followed by [rest]. *)
Definition written (d rest l : str) : Prop :=
  exists a b, l = a ++ "#"%char :: b ++ d ++ rest
    /\ forallb is_space a = true /\ forallb is_space b = true
    /\ forall c r, rest = c :: r -> is_alpha c = false.
(** The line is a definition of [n]. *)
Definition defines (n l : str) : Prop :=
  exists r r', directive l = Some ($"define", r) /\ macro_name r = Some (n, r').
