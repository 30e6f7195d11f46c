(** Proofs for C84: from the text of a header to the types of a call. *)
From Coq Require Import Ascii String Bool Arith ZArith Lia List.
Import ListNotations.
From Verif Require Import PyBase PyStr PyExpr TypeModel InitModel StoreModel StoreSpec PpModel DeclModel DeclSpec GramModel GramSpec RunSpec GramRun.
From Verif Require Import CtModel LinkModel LinkSpec LinkCall LinkTags.

Theorem header_call ev base mods pack l s path text ds1 g ds2 :
  good_config base mods -> (forall n, packing_at l n = pack) ->
  header base mods pack (ds1 ++ g :: ds2) text -> Forall harmless (ds1 ++ g :: ds2) -> typed_values s -> tagged s ->
  let tables x := fst (run_tops ev (set_cur s path) (ds1 ++ x)) in
  known_spec ev (tables []) (spec_part g) -> plain_decls g -> stays g ds2 -> is_typedef g = false ->
  exists s' b, parse_file ev base mods l s path text = Some (s', None)
    /\ denotes ev (tables []) s' (spec_part g) b
    /\ forall l1 d l2 n q args r, decls_part g = l1 ++ d :: l2 -> c_name (tree d) = Some n ->
       every c_syntax (tree d) = true -> no_conv_name (tree d) = true ->
       Forall (fun g' => ~ In (Some n) (declared_names g')) ds2 ->
       c_type (eval_text ev (tables [up_to g l1])) (tree d) (DeclSpec.base_type b) = TFun q args r ->
       forall cf table win D, closed cf table s' D -> usual_table table ->
       representable cf table s' D r -> ~ In (LinkSpec.base_name r) convention_names ->
       (exists cl cs, all_represented cf table s' D cl (parameters args) cs) ->
       let L := load cf table win s' in
       forall st, ready (l_heap L) st ->
       exists sig fuel c cs st', dget (l_functions L) n = Some sig
         /\ (forall f, fuel <= f -> wrap_types (l_env L) f sig st = (Ok (c, cs), st'))
         /\ represents cf table s' D (classes st') r c /\ all_represented cf table s' D (classes st') (parameters args) cs
         /\ grown cf table s' D st st'.
Proof.
  intros GC PK HD HL TV TG tables KS PD SY NT.
  destruct (declaration_recorded ev base mods pack l s path text ds1 g ds2 GC PK HD HL TV KS PD SY) as (s' & b & E & DE & AL).
  exists s', b. split; [exact E|]. split; [exact DE|]. intros l1 d l2 n q args r ED EN C1 C2 F CT cf table win D CL UT RR NC RA L st SH.
  pose proof (header_tagged ev base mods pack l _ text s path s' None GC PK HD E TG) as TS.
  specialize (AL l1 d l2 n ED EN C1 C2 F). unfold tables in CT. cbv beta zeta in AL. rewrite CT in AL.
  assert (X : exists u, defined s' Functions n = Some (EFun u) /\ read_function u = Some (TFun q args r)).
  { destruct g as [t x|t x i|t x]; [discriminate NT|exact AL|exact (AL eq_refl)]. }
  destruct X as (u & DF & RF). exact (call_types cf table win s' D CL TS UT n u q args r st DF RF RR NC RA SH).
Qed.
