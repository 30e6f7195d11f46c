(** What C88 says about a list of headers and the libraries loaded with them. *)
From Coq Require Import Ascii String Bool Arith ZArith List.
Import ListNotations.
From Verif Require Import PyBase PyStr PyExpr MacroModel TypeModel StoreModel DeclModel.
From Verif Require GramModel GramSpec RunSpec.
From Verif Require Import MacroSpec PpModel PpSpec TextSpec FileModel FileSpec PackedSpec.

(** A header: its path, its text, what becomes of its lines, its declarations and the macros that are
    defined at its end. *)
Record unit := { u_path : str; u_text : str; u_lines : list event; u_decls : list GramModel.gtop; u_macros : cmac }.
(** The headers one after the other, each with the macros of the ones before it, and with packing as
    in C81. *)
Fixpoint units (base mods : list str) (m : cmac) (us : list unit) : Prop :=
  match us with
  | [] => True
  | f :: r =>
      traced_text m (u_text f) (u_lines f) (u_macros f)
      /\ disciplined initial None (ops (u_lines f))
      /\ grouped base mods initial (u_lines f) (u_decls f)
      /\ aligned (u_lines f)
      /\ Forall RunSpec.harmless (u_decls f)
      /\ units base mods (u_macros f) r
  end.
(** The text of a header on disk, after the replacements, the first one first. *)
Definition stored (sub : str -> str -> str -> str) (contents : str -> option str) (rs : list (str * str)) (f : unit) : Prop :=
  exists raw, contents (u_path f) = Some raw /\ u_text f = fold_left (fun t r => sub (fst r) (snd r) t) rs raw.
(** The tables [s'] come from [s] by taking the declarations of the headers in turn, each under the path of
    its header; in between only macros and their values change, and the macros are those of C. *)
Fixpoint taken (ev : dict str pobj -> str -> res pobj) (s : store entry) (us : list unit) (s' : store entry) : Prop :=
  match us with
  | [] => s' = s
  | f :: r =>
      exists s1, same_declarations s s1 /\ stands_for (macros_of s1) (u_macros f)
        /\ taken ev (fst (GramModel.run_tops ev (set_cur s1 (Some (u_path f))) (u_decls f))) r s'
  end.
(** Structures and unions as C82 and C83 tell them apart. *)
Definition is_union (c : comp) : bool := match c with CStruct => false | CUnion => true end.
