(** What the properties on several headers say. *)
From Coq Require Import Ascii String Bool Arith ZArith List.
Import ListNotations.
From Verif Require Import PyBase PyStr PyExpr MacroModel TypeModel StoreModel DeclModel EvalModel.
From Verif Require GramModel GramSpec RunSpec.
From Verif Require Import MacroSpec PpModel PpSpec TextSpec ExprSpec FileModel FileSpec.

(** A header: its path, its text, the lines C's preprocessor gives, the declarations on them and
    the macros that are defined at its end. *)
Record source := { f_path : str; f_text : str; f_out : list str; f_decls : list GramModel.gtop; f_macros : cmac }.
(** The text the declarations are read from. *)
Definition f_code (f : source) : str := join [nl] (f_out f).

(** The headers are translated one after the other, as if they were one text: each starts with
    the macros of the ones before it. *)
Fixpoint program (base mods : list str) (m : cmac) (fs : list source) : Prop :=
  match fs with
  | [] => True
  | f :: r =>
      translated m (f_text f) (f_out f) (f_macros f)
      /\ RunSpec.header base mods None (f_decls f) (f_code f)
      /\ Forall RunSpec.harmless (f_decls f)
      /\ program base mods (f_macros f) r
  end.
(** The tables [s'] come from [s] by reading the declarations of each header in turn, under its
    path; in between only macros and their values change, and the macros are those of C. *)
Fixpoint read_all (ev : dict str pobj -> str -> res pobj) (base mods : list str)
  (s : store entry) (fs : list source) (s' : store entry) : Prop :=
  match fs with
  | [] => s' = s
  | f :: r =>
      exists s1 s2, same_declarations s s1 /\ stands_for (macros_of s1) (f_macros f)
        /\ GramModel.parse_file ev base mods [] s1 (Some (f_path f)) (f_code f) = Some (s2, None)
        /\ read_all ev base mods s2 r s'
  end.
(** The path of the header [h]: itself if it is a file, else what the search finds. *)
Definition resolves (contents : str -> option str) (find : str -> option str) (h path : str) : Prop :=
  match contents h with Some _ => path = h | None => find h = Some path end.
(** The text of the header on disk, after the replacements, the first one first. *)
Definition on_disk (sub : str -> str -> str -> str) (contents : str -> option str) (rs : list (str * str)) (f : source) : Prop :=
  exists raw, contents (f_path f) = Some raw /\ f_text f = fold_left (fun t r => sub (fst r) (snd r) t) rs raw.

(** ** Guards *)
(** But for comments and blank lines, [text] is one region that is skipped when [x] is defined;
    its conditionals are closed, and its definitions have names. *)
Definition guarded (x text : str) : Prop :=
  exists ps segs b1 l body e b2, text = parts_text ps /\ reads_as ps
    /\ without_comments ps = join continuation segs /\ segs <> []
    /\ Forall (fun s => ~ occurs continuation s) segs
    /\ split_on nl (concat segs) = b1 ++ (l :: lines body ++ [e]) ++ b2 /\ Forall gap b1 /\ Forall gap b2
    /\ ident x /\ opens l /\ tests x false l /\ well_formed body /\ dname e = $"endif".

(** ** Search *)
(** [l] is the line number [i] of the text [t], counted from 0. *)
Definition line_of (t : str) (i : nat) (l : str) : Prop := nth_error (split_on nl t) i = Some l.
