(** Proofs for C97: the libraries of headers. *)
From Coq Require Import Ascii String Bool Arith ZArith Lia List.
Import ListNotations.
From Verif Require Import PyBase PyBaseFacts PyStr PyStrFacts PyExpr TypeModel InitModel StoreModel StoreSpec StoreProofs.
From Verif Require Import MacroModel MacroSpec PpModel PpSpec TextSpec TextProofs DeclModel DeclSpec DeclStore DeclVars GramModel GramSpec RunSpec GramRun.
From Verif Require Import FileModel FileSpec FileProofs FileTables FileWhole FilesSpec FilesProofs PackedSpec PackedProofs PackedWhole ChainSpec.
From Verif Require Import CtModel LinkModel LinkSpec LinkCall LinkTags ChainProofs ObjModel InvokeModel InvokeSpec ObjSpec ObjProofs ObjChain HelpModel HelpSpec HelpProofs.
From Verif Require CtSpec LibModel.

Lemma units_help fo ext ev base mods sub contents find rs headers s m us : good_config base mods ->
  macro_tables s -> stands_for (macros_of s) m -> typed_values s -> tagged s -> enum_tagged s ->
  Forall2 (resolves contents find) headers (map u_path us) -> Forall (stored sub contents rs) us -> NoDup (map u_path us) ->
  units base mods m us ->
  exists p, parse_headers fo ext ev base mods sub contents find rs headers s = Some (Ok p)
    /\ forall cf table win D prefix exports takes sets, closed cf table (p_store p) D -> usual_table table -> no_clash (p_store p) prefix ->
       helpers cf table win (p_store p) D prefix exports takes sets.
Proof.
  intros GC MT ST TV TG EG RE OD ND PR.
  destruct (read_units fo ext ev base mods sub contents find rs headers s m us GC MT ST TV TG RE OD ND PR) as (p & E & _ & TP & _).
  destruct (read_taken fo ext ev base mods sub contents find rs headers s m us GC MT ST TV RE OD ND PR) as (p' & E' & TK). assert (p' = p) by congruence. subst p'. clear E'.
  assert (EP : enum_tagged (p_store p)).
  { apply (taken_etag ev us s (p_store p)); [|exact TK|exact EG]. pose proof (units_names base mods us m PR) as UN.
    eapply Forall_impl; [|exact UN]. intros f X. apply X. }
  exists p. split; [exact E|]. intros cf table win D prefix exports takes sets CL UT NC. exact (helpers_ok cf table win (p_store p) D prefix exports takes sets CL TP EP UT NC).
Qed.
