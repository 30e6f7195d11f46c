(** Proofs for C95: from the texts of headers to calls. *)
From Coq Require Import Ascii String Bool Arith ZArith Lia List.
Import ListNotations.
From Verif Require Import PyBase PyBaseFacts PyStr PyStrFacts PyExpr TypeModel InitModel StoreModel StoreSpec StoreProofs.
From Verif Require Import MacroModel MacroSpec PpModel PpSpec TextSpec TextProofs DeclModel DeclSpec DeclStore DeclVars GramModel GramSpec RunSpec GramRun.
From Verif Require Import FileModel FileSpec FileProofs FileTables FileWhole FilesSpec FilesProofs PackedSpec PackedProofs PackedWhole ChainSpec.
From Verif Require Import CtModel LinkModel LinkSpec LinkCall LinkTags ChainProofs ObjModel ObjSpec ObjProofs.
From Verif Require CtSpec LibModel.

From Verif Require Import ObjChain InvokeModel InvokeSpec InvokeProofs.

Section Library.
  Context (fo : str -> list str -> option str) (ext : str -> bool) (ev : dict str pobj -> str -> res pobj) (base mods : list str).
  Context (sub : str -> str -> str -> str) (contents find : str -> option str) (rs : list (str * str)).
  Notation later := (flat_map u_decls).
  Lemma units_invoke headers s m us : good_config base mods ->
    macro_tables s -> stands_for (macros_of s) m -> typed_values s -> tagged s -> enum_tagged s ->
    Forall2 (resolves contents find) headers (map u_path us) -> Forall (stored sub contents rs) us -> NoDup (map u_path us) ->
    units base mods m us ->
    exists p, parse_headers fo ext ev base mods sub contents find rs headers s = Some (Ok p)
      /\ forall us1 f us2 ds1 g ds2, us = us1 ++ f :: us2 -> u_decls f = ds1 ++ g :: ds2 ->
         exists s0 s1, taken ev s us1 s0 /\ same_declarations s0 s1 /\ stands_for (macros_of s1) (u_macros f)
           /\ let tables x := fst (run_tops ev (set_cur s1 (Some (u_path f))) (ds1 ++ x)) in
              known_spec ev (tables []) (spec_part g) -> plain_decls g -> stays g (ds2 ++ later us2) ->
              exists b, denotes ev (tables []) (p_store p) (spec_part g) b
                /\ forall cf table win D prefix exports takes, closed cf table (p_store p) D -> usual_table table -> no_clash (p_store p) prefix ->
                   forall l1 d l2 n q args r a, is_typedef g = false -> decls_part g = l1 ++ d :: l2 -> c_name (tree d) = Some n ->
                     every c_syntax (tree d) = true -> no_conv_name (tree d) = true ->
                     Forall (fun g' => ~ In (Some n) (declared_names g')) (ds2 ++ later us2) ->
                     c_type (eval_text ev (tables [up_to g l1])) (tree d) (DeclSpec.base_type b) = TFun q args r ->
                     exports n = true -> about cf table (p_store p) D prefix a Functions n ->
                     callable cf table win (p_store p) D prefix exports takes a n (parameters args) r.
  Proof.
    intros GC MT ST TV TG EG RE OD ND PR.
    destruct (read_units fo ext ev base mods sub contents find rs headers s m us GC MT ST TV TG RE OD ND PR) as (p & E & _ & TP & ALL).
    destruct (read_taken fo ext ev base mods sub contents find rs headers s m us GC MT ST TV RE OD ND PR) as (p' & E' & TK). assert (p' = p) by congruence. subst p'. clear E'.
    assert (EP : enum_tagged (p_store p)).
    { apply (taken_etag ev us s (p_store p)); [|exact TK|exact EG]. pose proof (units_names base mods us m PR) as UN.
      eapply Forall_impl; [|exact UN]. intros f X. apply X. }
    exists p. split; [exact E|].
    intros us1 f us2 ds1 g ds2 EU ED. destruct (ALL us1 f us2 ds1 g ds2 EU ED) as (s0 & s1 & T1 & SD & SF & R).
    exists s0, s1. split; [exact T1|]. split; [exact SD|]. split; [exact SF|]. cbv zeta in *. intros KS PD SY.
    destruct (R KS PD SY) as (b & DE & AL). exists b. split; [exact DE|].
    intros cf table win D prefix exports takes CL UT NC l1 d l2 n q args r a NT DP N CS NV F CT EX AB. specialize (AL l1 d l2 n DP N CS NV F). rewrite CT in AL.
    assert (X : exists u, defined (p_store p) Functions n = Some (EFun u) /\ read_function u = Some (TFun q args r)).
    { destruct g as [t x|t x i|t x]; [discriminate NT|exact AL|exact (AL eq_refl)]. }
    destruct X as (u & DF & RF).
    apply (function_calls cf table win (p_store p) D prefix exports takes CL TP EP UT NC); [exact AB|exact EX|].
    assert (SE : settled cf table (p_store p) D Functions n).
    { destruct a as [name|k' n']; cbn [about] in AB; [|destruct AB as (_ & _ & _ & SE); exact SE].
      destruct AB as (SE & FD). apply SE. destruct FD as (_ & (b1 & a1 & EC & _) & _). rewrite EC. apply in_or_app. right. left. reflexivity. }
    destruct SE as (args' & r' & SG); [congruence|]. pose proof SG as (u' & q' & DF' & RF' & _). rewrite DF in DF'. injection DF' as <-. rewrite RF in RF'. injection RF' as <- <- <-. exact SG.
  Qed.
End Library.
