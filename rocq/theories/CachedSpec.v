(** What C91 says: headers whose definitions survive the way through a cache file. *)
From Coq Require Import Ascii String Bool Arith ZArith List.
Import ListNotations.
From Verif Require Import PyBase PyStr PyExpr MacroModel TypeModel StoreModel StoreSpec DeclModel.
From Verif Require Import PpModel PpSpec TextSpec FileModel.
From Verif Require Import ConstSpec.
From Verif Require MacroSpec LinkModel LibModel ConstModel.

(** [text] consists of code, comments and literals, all of them complete. *)
Definition readable (text : str) : Prop := exists ps, text = parts_text ps /\ reads_as ps.
(** The line [l] is the directive [#undef n]. *)
Definition undefining (n l : str) : Prop :=
  exists g rest, directive l = Some ($"undef", g ++ n ++ rest) /\ forallb is_space g = true
    /\ MacroSpec.ident n /\ forall c r, rest = c :: r -> is_idchar c = false.
(** [text], without comments and with continued lines joined, has such a line. *)
Definition undefines_macro (n text : str) : Prop :=
  exists ps segs l, text = parts_text ps /\ reads_as ps
    /\ without_comments ps = join continuation segs /\ segs <> []
    /\ Forall (fun s => ~ occurs continuation s) segs
    /\ In l (split_on nl (concat segs)) /\ undefining n l.
(** No header undefines a macro that comes from outside ([M]) or from a header before it. *)
Fixpoint separate (M : str -> Prop) (texts : list str) : Prop :=
  match texts with
  | [] => True
  | t :: r => readable t /\ (forall n, undefines_macro n t -> ~ M n)
              /\ separate (fun n => M n \/ defines_macro n t) r
  end.
(** The macros among the definitions given by keyword. *)
Definition given_macro {V} (kw : dict str (dict str V)) (n : str) : Prop :=
  exists d, In ($"macros", d) kw /\ In n (keys d).
(** The file [path] has the text [t], after the replacements [rs]. *)
Definition has_text (sub : str -> str -> str -> str) (contents : str -> option str) (rs : list (str * str)) (path t : str) : Prop :=
  exists raw, contents path = Some raw /\ t = fold_left (fun t r => sub (fst r) (snd r) t) rs raw.
(** The same definitions: the same names in the same order, with equal values, and for each file the
    same names with equal values. *)
Definition same_definitions {V} (s s' : store V) : Prop :=
  (forall k, defs s k = defs s' k) /\ (forall f k n, defined_in s f k n = defined_in s' f k n).
(** The same library: the types, signatures and functions made of the definitions are the same, and so is
    every access to an attribute, after any accesses. *)
Definition same_library_of (s s' : store entry) : Prop :=
  (forall cf table win, LinkModel.load cf table win s = LinkModel.load cf table win s')
  /\ forall show prefix build l a,
       let h := ConstModel.library_of show prefix build s in let h' := ConstModel.library_of show prefix build s' in
       fst (LibModel.do_access h a (LibModel.accesses h l LibModel.no_cache)) = fst (LibModel.do_access h' a (LibModel.accesses h' l LibModel.no_cache)).
