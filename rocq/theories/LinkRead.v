(** Proofs for C82 and C83: reading types and following typedefs. *)
From Coq Require Import Ascii String Bool Arith ZArith Lia List.
Import ListNotations.
From Verif Require Import PyBase PyBaseFacts PyStr PyStrFacts PyExpr TypeModel InitModel StoreModel StoreSpec DeclModel DeclSpec CtModel LinkModel LinkSpec LinkProofs.
From Verif Require TypeSpec TypeProofs CtSpec.

Definition filld (h : heap) (d : rdecl) : adecl :=
  match d with
  | DStr x => DStr x
  | DArr a => DArr (content h a)
  | DFun args => DFun (map (fun a => (fst (fst a), fill h (snd (fst a)), snd a)) args)
  end.
Lemma fill_eq h s ds qs : fill h (CT s ds qs) = CT match s with SName n => SName n | SType u => SType (fill h u) end (map (filld h) ds) qs.
Proof. reflexivity. Qed.

(** ** Reading, one modifier at a time *)
Definition wrapd (d : adecl) (q : qual) (t : cty) : option cty :=
  match d, q with
  | DArr [n], Some q => Some (TArr q n t)
  | DFun args, Some q => match read_args read_type args with Some l => Some (TFun q l t) | None => None end
  | DStr s, Some q => if eqb s $"*" then Some (TPtr q t) else if eqb s $"&" then Some (TRef q t) else None
  | DStr s, None => Some (TConv s t)
  | _, _ => None
  end.
Fixpoint build (ds : list adecl) (qs : list qual) (t : cty) : option cty :=
  match ds, qs with
  | [], [] => Some t
  | d :: ds', q :: qs' => match wrapd d q t with Some t' => build ds' qs' t' | None => None end
  | _, _ => None
  end.
Lemma build_snoc ds : forall qs t d q, length qs = length ds ->
  build (ds ++ [d]) (qs ++ [q]) t = match build ds qs t with Some u => wrapd d q u | None => None end.
Proof.
  induction ds as [|x ds IH]; intros [|y qs] t d q L; try discriminate L.
  - cbn [app build]. now destruct (wrapd d q t).
  - cbn [app build]. destruct (wrapd x y t) as [t'|]; [|reflexivity]. apply IH. now injection L.
Qed.
Lemma build_length ds : forall qs t u, build ds qs t = Some u -> length qs = length ds.
Proof.
  induction ds as [|d ds IH]; intros [|q qs] t u B; try discriminate B; [reflexivity|]. cbn [build] in B.
  destruct (wrapd d q t) as [t'|]; [|discriminate]. cbn [length]. f_equal. eauto.
Qed.
Lemma build_app ds1 : forall qs1 ds2 qs2 t, length qs1 = length ds1 ->
  build (ds1 ++ ds2) (qs1 ++ qs2) t = match build ds1 qs1 t with Some u => build ds2 qs2 u | None => None end.
Proof.
  induction ds1 as [|x ds IH]; intros [|y qs] ds2 qs2 t L; try discriminate L; [reflexivity|].
  cbn [app build]. destruct (wrapd x y t) as [t'|]; [|reflexivity]. apply IH. now injection L.
Qed.

(** No calling convention, no array of arrays, as far as the outside is concerned. *)
Fixpoint noconv (t : cty) : bool :=
  match t with
  | TBase _ _ => true
  | TPtr _ t | TRef _ t | TArr _ _ t | TFun _ _ t => noconv t
  | TConv _ _ => false
  end.
Fixpoint flat (t : cty) : bool :=
  match t with
  | TBase _ _ => true
  | TArr _ _ t => negb (is_array t) && flat t
  | TPtr _ t | TRef _ t | TFun _ _ t | TConv _ t => flat t
  end.
Lemma flat_close run t : flat (close_run run t) = true -> flat t = true.
Proof.
  induction run as [|x run IH]; [auto|]. cbn [close_run fold_right flat]. intros F. apply andb_true_iff in F. apply IH. apply F.
Qed.
Lemma read_build ds : forall qs t run r run', read_decls read_type ds qs t run = Some (r, run') -> flat (close_run run' r) = true ->
  flat (close_run run t) = true /\ build ds qs (close_run run t) = Some (close_run run' r).
Proof.
  induction ds as [|d ds IH]; intros qs t run r run' R F.
  - destruct qs; [|discriminate R]. injection R as -> ->. split; [exact F|reflexivity].
  - destruct qs as [|q qs]; [discriminate R|]. cbn [read_decls build] in *. destruct d as [x|x|args].
    + destruct q as [q|].
      * unfold wrapd. destruct (eqb x $"*").
        { destruct (IH _ _ _ _ _ R F) as (F1 & B). cbn [close_run fold_right flat] in F1, B. auto. }
        destruct (eqb x $"&"); [|discriminate R].
        destruct (IH _ _ _ _ _ R F) as (F1 & B). cbn [close_run fold_right flat] in F1, B. auto.
      * destruct (IH _ _ _ _ _ R F) as (F1 & B). cbn [close_run fold_right flat] in F1, B. auto.
    + destruct x as [|n [|n' x]]; [discriminate R| |discriminate R]. destruct q as [q|]; [|discriminate R].
      destruct (IH _ _ _ _ _ R F) as (F1 & B). unfold close_run in F1, B. rewrite fold_right_app in F1, B. cbn [fold_right fst snd] in F1, B.
      fold (close_run run (TArr q n t)) in F1, B. cbn [wrapd].
      destruct run as [|y run].
      * split; [eapply flat_close with (run := [(q, n)]); exact F1|exact B].
      * exfalso. clear -F1. assert (A : is_array (close_run run (TArr q n t)) = true) by (destruct run; reflexivity).
        cbn [close_run fold_right flat] in F1. fold (close_run run (TArr q n t)) in F1. rewrite A in F1. discriminate F1.
    + destruct q as [q|]; [|discriminate R]. cbn [wrapd]. destruct (read_args read_type args) as [l|]; [|discriminate R].
      destruct (IH _ _ _ _ _ R F) as (F1 & B). cbn [close_run fold_right flat] in F1, B. auto.
Qed.
(** A type that is read. *)
Lemma read_shape t ty : read_type t = Some ty -> flat ty = true ->
  exists n ds q qs, t = CT (SName n) ds (Some q :: qs) /\ build ds qs (TBase q n) = Some ty.
Proof.
  intros R F. destruct t as [[n|u] ds [|[q|] qs]]; try discriminate R. cbn [read_type] in R.
  destruct (read_decls read_type ds qs (TBase q n) []) as [[u run]|] eqn:E; [|discriminate]. injection R as <-.
  exists n, ds, q, qs. split; [reflexivity|]. apply (read_build _ _ _ _ _ _ E F).
Qed.
Lemma wrapd_base d q t u : wrapd d q t = Some u -> base_name u = base_name t.
Proof.
  destruct d as [x|[|n [|n' x]]|args], q as [q|]; cbn [wrapd]; try discriminate; try (intros E; injection E as <-; reflexivity).
  - destruct (eqb x $"*"); [intros E; injection E as <-; reflexivity|]. destruct (eqb x $"&"); [|discriminate]. intros E; injection E as <-; reflexivity.
  - destruct (read_args read_type args); [|discriminate]. intros E; injection E as <-; reflexivity.
Qed.
Lemma build_base ds : forall qs t u, build ds qs t = Some u -> base_name u = base_name t.
Proof.
  induction ds as [|d ds IH]; intros [|q qs] t u B; try discriminate B; cbn [build] in B; [injection B as ->; reflexivity|].
  destruct (wrapd d q t) as [t'|] eqn:W; [|discriminate]. rewrite (IH _ _ _ B). eapply wrapd_base. exact W.
Qed.
Lemma wrapd_put d q t u b : wrapd d q t = Some u -> wrapd d q (put_base t b) = Some (put_base u b).
Proof.
  destruct d as [x|[|n [|n' x]]|args], q as [q|]; cbn [wrapd]; try discriminate; try (intros E; injection E as <-; reflexivity).
  - destruct (eqb x $"*"); [intros E; injection E as <-; reflexivity|]. destruct (eqb x $"&"); [|discriminate]. intros E; injection E as <-; reflexivity.
  - destruct (read_args read_type args); [|discriminate]. intros E; injection E as <-; reflexivity.
Qed.
Lemma build_put ds : forall qs t u b, build ds qs t = Some u -> build ds qs (put_base t b) = Some (put_base u b).
Proof.
  induction ds as [|d ds IH]; intros [|q qs] t u b B; try discriminate B; cbn [build] in *; [injection B as ->; reflexivity|].
  destruct (wrapd d q t) as [t'|] eqn:W; [|discriminate]. rewrite (wrapd_put _ _ _ _ b W). now apply IH.
Qed.
Lemma wrapd_noconv d q t u : wrapd d q t = Some u -> noconv u = true -> noconv t = true /\ q <> None.
Proof.
  destruct d as [x|[|n [|n' x]]|args], q as [q|]; cbn [wrapd]; try discriminate;
    try (intros E; injection E as <-; cbn [noconv]; split; [assumption|discriminate]).
  - destruct (eqb x $"*"); [intros E; injection E as <-; cbn [noconv]; split; [assumption|discriminate]|].
    destruct (eqb x $"&"); [|discriminate]. intros E; injection E as <-; cbn [noconv]; split; [assumption|discriminate].
  - intros E. injection E as <-. discriminate.
  - destruct (read_args read_type args); [|discriminate]. intros E; injection E as <-; cbn [noconv]; split; [assumption|discriminate].
Qed.
Lemma build_noconv ds : forall qs t u, build ds qs t = Some u -> noconv u = true -> noconv t = true /\ Forall (fun q => q <> None) qs.
Proof.
  induction ds as [|d ds IH]; intros [|q qs] t u B N; try discriminate B; cbn [build] in B.
  - injection B as ->. split; [exact N|constructor].
  - destruct (wrapd d q t) as [t'|] eqn:W; [|discriminate]. destruct (IH _ _ _ B N) as (N1 & F).
    destruct (wrapd_noconv _ _ _ _ W N1) as (N2 & Q). split; [exact N2|constructor; assumption].
Qed.
Lemma wrapd_qualify d a b t u : wrapd d (Some a) t = Some u -> wrapd d (Some (a ++ b)) t = Some (qualify b u).
Proof.
  destruct d as [x|[|n [|n' x]]|args]; cbn [wrapd]; try discriminate; try (intros E; injection E as <-; reflexivity).
  - destruct (eqb x $"*"); [intros E; injection E as <-; reflexivity|]. destruct (eqb x $"&"); [|discriminate]. intros E; injection E as <-; reflexivity.
  - destruct (read_args read_type args); [|discriminate]. intros E; injection E as <-; reflexivity.
Qed.
Lemma flat_qualify q b : flat (qualify q b) = flat b /\ is_array (qualify q b) = is_array b.
Proof. induction b as [p s|p t [IH IHa]|p t [IH IHa]|p n t [IH IHa]|p l t [IH IHa]|c t [IH IHa]]; cbn; auto. Qed.
Lemma noconv_qualify q b : noconv (qualify q b) = noconv b.
Proof. induction b; cbn; auto. Qed.
Lemma flat_put t b : flat (put_base t b) = true -> flat t = true /\ flat b = true.
Proof.
  induction t as [q s|q t IH|q t IH|q n t IH|q l t IH|c t IH]; cbn [put_base flat]; auto.
  - intros F. rewrite (proj1 (flat_qualify q b)) in F. auto.
  - intros F. apply andb_true_iff in F. destruct F as [A F]. destruct (IH F) as [F1 F2]. rewrite F1, F2. split; [|reflexivity].
    rewrite andb_true_r. destruct t; try reflexivity. discriminate A.
Qed.
Lemma noconv_put t b : noconv (put_base t b) = true -> noconv t = true /\ noconv b = true.
Proof. induction t as [q s|q t IH|q t IH|q n t IH|q l t IH|c t IH]; cbn [put_base noconv]; auto; try discriminate. rewrite noconv_qualify. auto. Qed.
Lemma destruct_last {A} (l : list A) : l = [] \/ exists x l', l = l' ++ [x].
Proof. destruct l as [|y l]; [now left|]. right. destruct (exists_last (l := y :: l)) as (l' & x & E); [discriminate|]. eauto. Qed.

(** Merging a typedef and its user. *)
Lemma merge_build pds q pqs n bt ds q0 qs s ty :
  build pds pqs (TBase q n) = Some bt -> noconv bt = true -> build ds qs (TBase q0 s) = Some ty ->
  exists q' qs', merge_quals (Some q :: pqs) (Some q0 :: qs) = Ok (Some q' :: qs') /\ length qs' = length (pds ++ ds)
    /\ build (pds ++ ds) qs' (TBase q' n) = Some (put_base ty bt).
Proof.
  intros B1 N B2. pose proof (build_length _ _ _ _ B1) as L1. pose proof (build_length _ _ _ _ B2) as L2.
  destruct (build_noconv _ _ _ _ B1 N) as (_ & FQ). unfold merge_quals.
  pose proof (build_put _ _ _ _ bt B2) as B3. cbn [put_base] in B3.
  destruct (destruct_last pqs) as [->|(qx & pqs' & ->)].
  - destruct pds; [|discriminate L1]. cbn [build] in B1. injection B1 as <-. exists (q ++ q0), qs. split; [reflexivity|]. split; [exact L2|exact B3].
  - apply Forall_app in FQ. destruct FQ as [_ FQ]. inversion FQ as [|x y QX _]; subst. destruct qx as [a|]; [|now destruct QX]. clear QX FQ.
    change (Some q :: pqs' ++ [Some a]) with ((Some q :: pqs') ++ [Some a]). rewrite rev_app_distr. cbn [rev app].
    rewrite rev_app_distr, rev_involutive. cbn [rev app].
    destruct (destruct_last pds) as [->|(d & pds' & ->)]; [rewrite app_length in L1; cbn in L1; lia|].
    rewrite !app_length in L1. cbn [length] in L1. assert (L3 : length pqs' = length pds') by lia.
    rewrite build_snoc in B1 by exact L3. destruct (build pds' pqs' (TBase q n)) as [u|] eqn:B4; [|discriminate].
    exists q, (pqs' ++ Some (a ++ q0) :: qs). split; [reflexivity|]. split; [rewrite !app_length; cbn [length]; lia|].
    rewrite <- app_assoc. cbn [app]. rewrite build_app by exact L3. rewrite B4. cbn [build]. rewrite (wrapd_qualify _ _ _ _ _ B1). exact B3.
Qed.

(** ** Following typedefs *)
Lemma flat_expanded cf s ty ty' : expanded cf s ty ty' -> flat ty' = true -> noconv ty' = true -> flat ty = true /\ noconv ty = true.
Proof.
  induction 1 as [t F|t b t' NF T X IH]; intros Fl N; [auto|]. destruct (IH Fl N) as [F1 N1].
  split; [apply (flat_put _ _ F1)|apply (noconv_put _ _ N1)].
Qed.
Section Follow.
  Context (s : store entry) (e : cenv) (h : heap) (LK : linked s e h).
  Lemma typedef_entry n b : typedef_of s n = Some b -> flat b = true ->
    exists n1 pds q pqs, dget (e_types e) n = Some (TyE (CT (SName n1) pds (Some q :: pqs))) /\ build (map (filld h) pds) pqs (TBase q n1) = Some b.
  Proof.
    unfold typedef_of. intros T F. destruct (defined s Types n) as [[u| | | | | | |]|] eqn:D; try discriminate T.
    destruct (lk_types _ _ _ LK n u D) as (t & G & E). destruct (read_shape u b T F) as (n1 & ds & q & qs & -> & B).
    destruct t as [[m|v] pds pqs]; rewrite fill_eq in E; [|discriminate]. injection E as -> E2 ->. subst ds. exists n1, pds, q, qs. auto.
  Qed.
  Lemma expanded_step n ds q qs t b : build (map (filld h) ds) qs (TBase q n) = Some t -> typedef_of s (base_name t) = Some b ->
    flat (put_base t b) = true -> noconv (put_base t b) = true ->
    exists n1 pds q1 pqs q' qs', dget (e_types e) n = Some (TyE (CT (SName n1) pds (Some q1 :: pqs)))
      /\ TypeProofs.good_quals (CT (SName n1) pds (Some q1 :: pqs))
      /\ merge_quals (Some q1 :: pqs) (Some q :: qs) = Ok (Some q' :: qs') /\ length qs' = length (pds ++ ds)
      /\ build (map (filld h) (pds ++ ds)) qs' (TBase q' n1) = Some (put_base t b).
  Proof.
    intros B T F N. pose proof (build_base _ _ _ _ B) as BN. cbn [base_name] in BN. rewrite BN in T.
    destruct (flat_put _ _ F) as [_ Fb]. destruct (noconv_put _ _ N) as [_ Nb].
    destruct (typedef_entry n b T Fb) as (n1 & pds & q1 & pqs & G & B1).
    destruct (merge_build _ _ _ _ _ _ _ _ _ _ B1 Nb B) as (q' & qs' & M & L & B2).
    exists n1, pds, q1, pqs, q', qs'. split; [exact G|]. split.
    { pose proof (build_length _ _ _ _ B1) as L1. rewrite map_length in L1. destruct (build_noconv _ _ _ _ B1 Nb) as (_ & FQ).
      split; [unfold TypeProofs.wf; cbn [t_quals t_decls length]; now rewrite L1|]. cbn [t_quals]. constructor; [discriminate|exact FQ]. }
    split; [exact M|]. rewrite map_app. split; [|exact B2]. rewrite app_length, !map_length in L. now rewrite app_length.
  Qed.
  Lemma expanded_chain t t' : expanded (e_conf e) s t t' -> flat t' = true -> noconv t' = true ->
    forall n ds q qs, build (map (filld h) ds) qs (TBase q n) = Some t ->
    exists path b, TypeSpec.chain (e_conf e) (TypeSpec.typedefs (e_types e)) n path b /\ Forall TypeProofs.good_quals path.
  Proof.
    induction 1 as [t F|t b t' NF T X IH]; intros Fl N n ds q qs B.
    - exists [], n. split; [|constructor]. constructor. pose proof (build_base _ _ _ _ B) as E. cbn [base_name] in E. now rewrite <- E.
    - destruct (flat_expanded _ _ _ _ X Fl N) as [F1 N1].
      destruct (expanded_step n ds q qs t b B T F1 N1) as (n1 & pds & q1 & pqs & q' & qs' & G & GQ & _ & _ & B2).
      destruct (IH Fl N _ _ _ _ B2) as (path & bb & C & FP). exists (CT (SName n1) pds (Some q1 :: pqs) :: path), bb.
      split; [|constructor; assumption]. constructor; [|unfold TypeSpec.typedefs; now rewrite G|exact C].
      pose proof (build_base _ _ _ _ B) as E. cbn [base_name] in E. now rewrite <- E.
  Qed.
  Lemma expanded_result t t' : expanded (e_conf e) s t t' -> flat t' = true -> noconv t' = true ->
    forall n ds q qs fuel used r, build (map (filld h) ds) qs (TBase q n) = Some t ->
    eval_fuel (e_conf e) (e_types e) fuel used (CT (SName n) ds (Some q :: qs)) = Ok r ->
    exists b ds' q' qs', r = CT (SName (canon b)) ds' (Some q' :: qs') /\ build (map (filld h) ds') qs' (TBase q' b) = Some t'.
  Proof.
    induction 1 as [t F|t b t' NF T X IH]; intros Fl N n ds q qs fuel used r B E;
      pose proof (build_base _ _ _ _ B) as BN; cbn [base_name] in BN.
    - rewrite BN in F. apply TypeProofs.is_fund_iff in F.
      assert (E' : mk_type (SName (canon n)) ds (Some q :: qs) = Ok r) by (destruct fuel; cbn [eval_fuel] in E; rewrite F in E; exact E).
      apply TypeProofs.mk_type_ok in E'; [|discriminate]. destruct E' as [-> _]. exists n, ds, q, qs. auto.
    - destruct (flat_expanded _ _ _ _ X Fl N) as [F1 N1].
      destruct (expanded_step n ds q qs t b B T F1 N1) as (n1 & pds & q1 & pqs & q' & qs' & G & GQ & M & L & B2).
      rewrite BN, <- TypeProofs.is_fund_iff in NF. destruct (is_fund (e_conf e) n) eqn:FU; [congruence|].
      destruct fuel as [|f]; cbn [eval_fuel] in E; rewrite FU in E; (destruct (mem n used); [discriminate|]); rewrite G in E; [discriminate|].
      rewrite M in E. cbn [bind] in E. rewrite TypeProofs.mk_type_wf in E by (cbn [length]; now rewrite L). cbn [bind] in E.
      exact (IH Fl N _ _ _ _ _ _ _ B2 E).
  Qed.
  Lemma eval_expanded t t' n ds q qs : expanded (e_conf e) s t t' -> flat t' = true -> noconv t' = true ->
    build (map (filld h) ds) qs (TBase q n) = Some t ->
    exists b ds' q' qs', eval_type (e_conf e) (e_types e) (CT (SName n) ds (Some q :: qs)) = Ok (CT (SName (canon b)) ds' (Some q' :: qs'))
      /\ build (map (filld h) ds') qs' (TBase q' b) = Some t'.
  Proof.
    intros X Fl N B. destruct (expanded_chain t t' X Fl N n ds q qs B) as (path & bb & C & FP).
    destruct (flat_expanded _ _ _ _ X Fl N) as [F1 N1]. destruct (build_noconv _ _ _ _ B N1) as (_ & FQ).
    pose proof (build_length _ _ _ _ B) as L. rewrite map_length in L.
    destruct (TypeProofs.eval_type_complete (e_conf e) (e_types e) n path bb ds (Some q :: qs) C FP) as (r & E).
    { split; [unfold TypeProofs.wf; cbn [t_quals t_decls length]; now rewrite L|]. cbn [t_quals]. constructor; [discriminate|exact FQ]. }
    destruct (expanded_result t t' X Fl N n ds q qs _ _ r B E) as (b & ds' & q' & qs' & -> & B'). exists b, ds', q', qs'. auto.
  Qed.
End Follow.
