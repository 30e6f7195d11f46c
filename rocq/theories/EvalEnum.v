(** Lemmas on the values of enumerators and variables in terms of C values (C41, C45). *)
From Coq Require Import Ascii String Bool Arith ZArith Lia List.
Import ListNotations.
From Verif Require Import PyBase PyBaseFacts PyStr PyStrFacts PyExpr TypeModel StoreModel StoreSpec StoreProofs.
From Verif Require Import DeclModel DeclSpec DeclProofs DeclStore DeclVars EvalModel EvalSpec EvalProofs.

Section Values.
  Context (fund mods : list str) (visible : str -> bool) (ext : dict str pobj -> str -> res pobj).

  Lemma agrees_set env known n v z : agrees env known -> as_int v = Some z ->
    agrees (dset env n (ONum v)) (dset known n z).
  Proof.
    intros A V w x D. rewrite dget_dset in D. rewrite dget_dset. destruct (eqb w n); [|exact (A w x D)].
    injection D as <-. exists v. auto.
  Qed.
  Lemma plus_one_int v z : as_int v = Some z ->
    exists v', plus_one (ONum v) = Ok (ONum v') /\ as_int v' = Some (z + 1)%Z.
  Proof.
    destruct v as [x|b|n d]; cbn [as_int]; intros E; try discriminate; injection E as <-;
      eexists; (split; [reflexivity|reflexivity]).
  Qed.
  Lemma c_enum_counts known i l zs : c_enum (c_const fund mods) known i l zs ->
    forall env v, agrees env known -> as_int v = Some i ->
    exists vs, counts (c_eval fund mods visible ext) env (ONum v) l vs
      /\ Forall2 (fun x y => fst x = fst y /\ exists w, snd x = ONum w /\ as_int w = Some (snd y)) vs zs.
  Proof.
    induction 1 as [known i|known i n l zs _ IH|known i n e z l zs C _ IH]; intros env v A V.
    - exists []. split; constructor.
    - destruct (plus_one_int v i V) as (v' & P & V').
      destruct (IH _ v' (agrees_set env known n v i A V) V') as (vs & Q & R).
      exists ((n, ONum v) :: vs). split; [econstructor; eassumption|]. constructor; [|exact R]. cbn. eauto.
    - destruct (c_eval_const fund mods visible ext env known e z C A) as (w & E & W).
      destruct (plus_one_int w z W) as (w' & P & W').
      destruct (IH _ w' (agrees_set env known n w z A W) W') as (vs & Q & R).
      exists ((n, ONum w) :: vs). split; [econstructor; eassumption|]. constructor; [|exact R]. cbn. eauto.
  Qed.

  Lemma enum_c_values s n l zs known :
    typed_values s -> agrees (values s) known -> NoDup (map fst l) -> defined s Enums n = None ->
    c_enum (c_const fund mods) known 0 l zs ->
    exists s' vs, process_enum (c_eval fund mods visible ext) s (Some n) l = (s', Some (tag_name $"enum" n))
      /\ defined s' Enums n = Some (EEnum vs)
      /\ Forall2 (fun x y => fst x = fst y /\ exists w, snd x = ONum w /\ as_int w = Some (snd y)) vs zs
      /\ forall m v, In (m, v) vs -> defined s' Values m = Some (EVal v).
  Proof.
    intros T A ND D C.
    destruct (c_enum_counts known 0 l zs C (values s) (VInt 0) A eq_refl) as (vs & Q & R).
    pose proof (process_enum_named (c_eval fund mods visible ext) s n l T ND D) as P.
    destruct (process_enum (c_eval fund mods visible ext) s (Some n) l) as [s' [r|]].
    - destruct P as (-> & vs' & Q' & E & _ & V). exists s', vs'. split; [reflexivity|]. split; [exact E|].
      split; [|exact V].
      assert (vs' = vs) as ->; [|exact R].
      clear - Q Q'. revert vs' Q'. induction Q as [|env i n l v vs P Q IH|env i n e l w v vs E P Q IH]; intros vs' Q'.
      + inversion Q'. reflexivity.
      + inversion Q'; subst. f_equal. apply IH. congruence.
      + inversion Q'; subst.
        match goal with X : c_eval _ _ _ _ env e = Ok ?w' |- _ => assert (w' = w) by congruence; subst w' end.
        f_equal. apply IH.
        match goal with X : plus_one w = Ok ?v' |- _ => assert (v' = v) by congruence; subst v' end. assumption.
    - destruct P as [P _]. exfalso. exact (P vs Q).
  Qed.
End Values.

Lemma variable_c_value fund mods visible ext s b l1 d n text z known :
  let ev := c_eval fund mods visible ext in
  let l := l1 ++ [d] in
  Forall (fun d => every no_bare_conv d = true /\ c_name d <> None) l -> NoDup (names_of l) ->
  c_name d = Some n -> every c_syntax d = true -> no_conv_name d = true ->
  is_function (c_type (eval_text ev (process_variable ev s b l1 (IVal text))) d (base_type b)) = false ->
  agrees (values s) known -> c_const fund mods known text z ->
  exists v, defined (process_variable ev s b l (IVal text)) Values n = Some (EVal (ONum v)) /\ as_int v = Some z.
Proof.
  intros ev l F ND N CS NC NF A C.
  destruct (variable_value ev s b (IVal text) l1 d [] n F ND N CS NC (or_introl eq_refl) NF) as (_ & V).
  destruct (c_eval_const fund mods visible ext (values s) known text z C A) as (v & E & Z).
  exists v. split; [|exact Z]. unfold l. rewrite V. cbn [own_init eval_init]. unfold eval_text. fold ev in E. rewrite E. reflexivity.
Qed.
