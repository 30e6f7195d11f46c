(** Proofs for C58-C60: fields and arrays. *)
From Coq Require Import Ascii String Bool Arith ZArith Lia List.
Import ListNotations.
From Verif Require Import PyBase PyBaseFacts PyStr PyStrFacts PyExpr TypeModel TypeProofs InitModel StoreModel DeclModel DeclStore CtModel CtSpec CtProofs CtOne.

(** ** The class just built *)
Lemma make_fields_names rec : forall ms names st fs st', length names = length ms ->
  make_fields rec names ms st = (Ok fs, st') -> map fd_name fs = names /\ map fd_width fs = map width_of ms.
Proof.
  induction ms as [|m ms IH]; intros names st fs st' L E; destruct names as [|n names]; try discriminate L; cbn [make_fields] in E.
  - injection E as <- <-. split; reflexivity.
  - unfold mbind in E. destruct (rec (sm_type m) st) as [[t|] st1]; [|discriminate].
    destruct (make_fields rec names ms st1) as [[fs'|] st2] eqn:F; [|discriminate]. injection E as <- <-.
    destruct (IH names st1 fs' st2 ltac:(cbn in L; lia) F) as (N & W). cbn [map fd_name fd_width]. rewrite N, W. split; reflexivity.
Qed.
Lemma built_class e : tags_known e -> forall fuel u n st i st',
  dmem (e_comps e u) n = true -> dget (st_structs st) n = None -> get_struct e fuel u n st = (Ok i, st') ->
  exists d fs k, dget (e_comps e u) n = Some d /\ nth_error (st_classes st') i = Some k /\ k_fields k = Some fs
    /\ k_union k = u /\ k_pack k = sd_pack d /\ name_members [] (sd_members d) = Ok (map fd_name fs, k_anon k)
    /\ map fd_width fs = map width_of (sd_members d).
Proof.
  intros T fuel u n st i st' K D E. unfold get_struct, get_struct_with in E. rewrite D in E.
  rewrite (resolve_known _ _ _ K) in E. destruct (dget (e_comps e u) n) as [d|] eqn:C; [|discriminate].
  destruct (name_members [] (sd_members d)) as [[names anon]|] eqn:NM; [|discriminate].
  set (k := {| k_union := u; k_pack := sd_pack d; k_anon := anon; k_fields := None |}) in E.
  set (st1 := {| st_heap := _; st_structs := dset _ _ _; st_classes := _ |}) in E.
  pose proof (goes_make_fields (get_type e fuel true) (goes_get_type e T fuel true) (sd_members d) names st1) as G.
  unfold mbind in E. destruct (make_fields _ names (sd_members d) st1) as [[fs|x] st3] eqn:MF; [|discriminate]. cbn [snd] in G.
  unfold assign_fields in E. destruct (anon_ok _ _ fs); [|discriminate]. cbn [st_structs] in E.
  assert (D3 : dget (st_structs st3) n = Some (length (st_classes st))).
  { apply G. cbn [st1 st_structs]. apply dget_dset_same. }
  rewrite D3 in E. injection E as <- <-. cbn [st_classes].
  assert (L : length (st_classes st) < length (st_classes st3)).
  { destruct G as (_ & G & _). cbn [st1 st_classes] in G. rewrite app_length in G. cbn in G. lia. }
  destruct (make_fields_names _ _ _ _ _ _ (name_members_length _ _ _ _ NM) MF) as [FN FW].
  exists d, fs, {| k_union := u; k_pack := sd_pack d; k_anon := anon; k_fields := Some fs |}.
  split; [reflexivity|]. rewrite nth_set_class, Nat.eqb_refl.
  destruct (Nat.ltb_spec (length (st_classes st)) (length (st_classes st3))); [|lia].
  repeat split; [|exact FW]. cbn [k_anon]. now rewrite FN.
Qed.

(** ** C58 *)
Lemma plain_fields e : tags_known e -> forall fuel u n st i st',
  dmem (e_comps e u) n = true -> dget (st_structs st) n = None -> get_struct e fuel u n st = (Ok i, st') ->
  exists d fs k, dget (e_comps e u) n = Some d /\ nth_error (st_classes st') i = Some k /\ k_fields k = Some fs
    /\ Forall2 (fun m f => (sm_val m = ONone -> fd_width f = None) /\ (sm_val m <> ONone -> fd_width f = Some (sm_val m)))
         (sd_members d) fs.
Proof.
  intros T fuel u n st i st' K D E.
  destruct (built_class e T fuel u n st i st' K D E) as (d & fs & k & C & N & F & _ & _ & _ & W).
  exists d, fs, k. repeat (split; [assumption|]). clear - W. revert fs W.
  generalize (sd_members d). induction l as [|m ms IH]; intros fs W; destruct fs as [|f fs]; try discriminate W; constructor.
  - cbn [map] in W. assert (W0 : fd_width f = width_of m) by congruence. rewrite W0. unfold width_of.
    split; intros V; [now rewrite V|]. destruct (sm_val m); try reflexivity. now destruct V.
  - apply IH. cbn [map] in W. congruence.
Qed.

(** ** C59 *)
Lemma fresh_reserved before n : fresh $"anon_member" (map (fun x : str => (x, tt)) before) = Ok n -> reserved n /\ ~ In n before.
Proof.
  intros F. unfold fresh in F. pose proof (fresh_from_spec (S (length (map (fun x : str => (x, tt)) before))) 0 $"anon_member" (map (fun x : str => (x, tt)) before)) as X.
  rewrite F in X. destruct X as (NM & k & _ & E & _). split; [exists k; exact E|]. intros I.
  assert (Y : dmem (map (fun x : str => (x, tt)) before) n = true).
  { apply dmem_In. unfold keys. rewrite map_map. cbn [fst]. now rewrite map_id. }
  congruence.
Qed.
Lemma no_clash_tl m ms : no_clash (m :: ms) -> no_clash ms.
Proof. intros N l1 x l2 n E. apply (N (m :: l1) x l2 n). now rewrite E. Qed.
Lemma names_distinct : forall ms before names anon,
  name_members before ms = Ok (names, anon) -> no_clash ms ->
  NoDup (declared_names ms) -> NoDup before -> (forall n, In n before -> ~ In n (declared_names ms)) ->
  NoDup (before ++ names).
Proof.
  induction ms as [|m ms IH]; intros before names anon E NC ND NB DJ; cbn [name_members] in E.
  - injection E as <- _. now rewrite app_nil_r.
  - unfold declared_names in ND, DJ. cbn [flat_map] in ND, DJ. fold (declared_names ms) in ND, DJ.
    destruct (sm_name m) as [n|] eqn:Nm; cbn [app] in ND, DJ.
    + destruct (name_members (before ++ [n]) ms) as [[x y]|] eqn:R; [|discriminate]. cbn [bind fst snd] in E. injection E as <- _.
      replace (before ++ n :: x) with ((before ++ [n]) ++ x) by now rewrite <- app_assoc.
      inversion ND as [|? ? NI ND']; subst. eapply IH; eauto.
      * eapply no_clash_tl; eauto.
      * assert (NIb : ~ In n before) by (intros I; apply (DJ n I); now left).
        now apply NoDup_snoc.
      * intros k Ik. apply in_app_iff in Ik. destruct Ik as [Ik|[<-|[]]]; [|exact NI]. intros X. apply (DJ k Ik). now right.
    + destruct (fresh _ _) as [n|] eqn:F; [|discriminate]. cbn [bind] in E.
      destruct (name_members (before ++ [n]) ms) as [[x y]|] eqn:R; [|discriminate]. cbn [bind fst snd] in E. injection E as <- _.
      apply fresh_reserved in F. destruct F as [RS NIb].
      replace (before ++ n :: x) with ((before ++ [n]) ++ x) by now rewrite <- app_assoc.
      eapply IH; eauto.
      * eapply no_clash_tl; eauto.
      * now apply NoDup_snoc.
      * intros k Ik. apply in_app_iff in Ik. destruct Ik as [Ik|[<-|[]]]; [now apply DJ|].
        intros X. exact (NC [] m ms n eq_refl Nm X RS).
Qed.
Lemma names_kept : forall ms before fs anon,
  name_members before ms = Ok (map fd_name fs, anon) ->
  Forall2 (fun m f => match sm_name m with Some n => fd_name f = n | None => reserved (fd_name f) /\ In (fd_name f) anon end) ms fs.
Proof.
  induction ms as [|m ms IH]; intros before fs anon E; cbn [name_members] in E.
  - injection E as E _. destruct fs; [constructor|discriminate].
  - destruct (sm_name m) as [n|] eqn:Nm.
    + destruct (name_members (before ++ [n]) ms) as [[x y]|] eqn:R; [|discriminate]. cbn [bind fst snd] in E.
      destruct fs as [|f fs]; [discriminate|]. injection E as E1 E2 <-. subst x. constructor; [now rewrite Nm|]. eapply IH; exact R.
    + destruct (fresh _ _) as [n|] eqn:F; [|discriminate]. cbn [bind] in E.
      destruct (name_members (before ++ [n]) ms) as [[x y]|] eqn:R; [|discriminate]. cbn [bind fst snd] in E.
      destruct fs as [|f fs]; [discriminate|]. injection E as E1 E2 <-. subst x. apply fresh_reserved in F. destruct F as [RS _].
      constructor.
      * rewrite Nm, <- E1. split; [exact RS|now left].
      * eapply Forall2_impl; [|eapply IH; exact R]. cbn beta. intros a b H. destruct (sm_name a); [exact H|].
        destruct H. split; [assumption|now right].
Qed.
Lemma field_names e : tags_known e -> forall fuel u n st i st',
  dmem (e_comps e u) n = true -> dget (st_structs st) n = None -> get_struct e fuel u n st = (Ok i, st') ->
  exists d fs k, dget (e_comps e u) n = Some d /\ nth_error (st_classes st') i = Some k /\ k_fields k = Some fs
    /\ Forall2 (fun m f => match sm_name m with Some x => fd_name f = x | None => In (fd_name f) (k_anon k) end) (sd_members d) fs
    /\ (NoDup (declared_names (sd_members d)) -> no_clash (sd_members d) -> NoDup (map fd_name fs)).
Proof.
  intros T fuel u n st i st' K D E.
  destruct (built_class e T fuel u n st i st' K D E) as (d & fs & k & C & N & F & _ & _ & NM & _).
  exists d, fs, k. repeat (split; [assumption|]). split.
  - eapply Forall2_impl; [|eapply names_kept; exact NM]. cbn beta. intros a b H. destruct (sm_name a); [exact H|apply H].
  - intros ND NC. apply (names_distinct _ [] _ _ NM NC ND); [constructor|intros x []].
Qed.

(** ** C60 *)
Lemma times_int c n : c <> PVoid -> (0 <= n)%Z -> times c (ONum (VInt n)) = Ok (PArr c n).
Proof.
  intros NV L. unfold times. destruct (Z.ltb_spec n 0); [lia|]. destruct c; try reflexivity. now destruct NV.
Qed.
Lemma times_all_app c l1 l2 : times_all c (l1 ++ l2) = do x <- times_all c l1; times_all x l2.
Proof.
  revert c. induction l1 as [|d l1 IH]; intros c; [reflexivity|]. cbn [times_all app].
  destruct (times c d); cbn [bind]; [apply IH|reflexivity].
Qed.
Lemma times_all_ok c ns : c <> PVoid -> Forall (fun n => 0 <= n)%Z ns ->
  times_all c (rev (map (fun n => ONum (VInt n)) ns)) = Ok (nested ns c).
Proof.
  intros NV F. induction F as [|n ns L F IH]; [reflexivity|]. cbn [map rev]. rewrite times_all_app, IH. cbn [bind times_all].
  rewrite times_int; [reflexivity| |exact L]. destruct ns; [exact NV|discriminate].
Qed.
Lemma elements_nested : forall ns c is, length is = length ns ->
  (element (nested ns c) is = Some c <-> Forall2 (fun i n => 0 <= i < n)%Z is ns)
  /\ (element (nested ns c) is = None <-> ~ Forall2 (fun i n => 0 <= i < n)%Z is ns).
Proof.
  induction ns as [|n ns IH]; intros c is L; destruct is as [|i is]; try discriminate L.
  - assert (N : Forall2 (fun i n => 0 <= i < n)%Z [] []) by apply Forall2_nil. split; split; try (intros X; discriminate X); intros X; try exact N; try reflexivity. now destruct X.
  - cbn [element nested fold_right]. fold (nested ns c). destruct (IH c is ltac:(cbn in L; lia)) as [A B].
    destruct (Z.leb_spec 0 i) as [L0|L0], (Z.ltb_spec i n) as [L1|L1]; cbn [andb].
    + rewrite A, B. split; split.
      * intros F. constructor; [lia|exact F].
      * intros F. now inversion F.
      * intros N F. apply N. now inversion F.
      * intros N F. apply N. constructor; [lia|exact F].
    + assert (NF : ~ Forall2 (fun i n => 0 <= i < n)%Z (i :: is) (n :: ns)) by (intros F; inversion F; subst; lia).
      split; split; try discriminate; auto. intros F. now destruct NF.
    + assert (NF : ~ Forall2 (fun i n => 0 <= i < n)%Z (i :: is) (n :: ns)) by (intros F; inversion F; subst; lia).
      split; split; try discriminate; auto. intros F. now destruct NF.
    + assert (NF : ~ Forall2 (fun i n => 0 <= i < n)%Z (i :: is) (n :: ns)) by (intros F; inversion F; subst; lia).
      split; split; try discriminate; auto. intros F. now destruct NF.
Qed.
Lemma array_ok c ns : c <> PVoid -> Forall (fun n => 0 <= n)%Z ns ->
  get_array c (STuple (map (fun n => ONum (VInt n)) ns)) = Ok (nested ns c)
  /\ (forall n, ns = [n] -> get_array c (SInt (ONum (VInt n))) = Ok (nested ns c)).
Proof.
  intros NV F. unfold get_array. split; [now apply times_all_ok|]. intros n ->. exact (times_all_ok c [n] NV F).
Qed.
Lemma array_built c ns : c <> PVoid -> Forall (fun n => 0 <= n)%Z ns ->
  exists t, get_array c (STuple (map (fun n => ONum (VInt n)) ns)) = Ok t
  /\ (forall n, ns = [n] -> get_array c (SInt (ONum (VInt n))) = Ok t)
  /\ t = nested ns c
  /\ forall is, length is = length ns ->
       (element t is = Some c <-> Forall2 (fun i n => 0 <= i < n)%Z is ns)
       /\ (element t is = None <-> ~ Forall2 (fun i n => 0 <= i < n)%Z is ns).
Proof.
  intros NV F. destruct (array_ok c ns NV F) as [A B]. exists (nested ns c). repeat (split; [assumption || reflexivity|]).
  intros is L. now apply elements_nested.
Qed.
