(** A parser that loads a cache has the same tables as the one that wrote it, with the
    entries in the same order. *)
From Coq Require Import Ascii String Bool Arith ZArith Lia List.
Import ListNotations.
From Verif Require Import PyBase PyBaseFacts PyStr PyStrFacts StoreModel StoreSpec StoreProofs.

Section Merge.
  Context {V : Type}.
  Implicit Types (m : dict str V).
  Definition merge m (t : dict str V) : dict str V := fold_left (fun d e => dset d (fst e) (snd e)) t m.
  Lemma dset_swap m n v k x : In n (keys m) -> n <> k -> dset (dset m k x) n v = dset (dset m n v) k x.
  Proof.
    induction m as [|[a b] m IH]; intros I N; [destruct I|]. cbn [dset].
    destruct (eqb_spec k a) as [->|NK].
    - apply eqb_false in N as N'. cbn [dset]. rewrite N'. cbn [dset]. rewrite eqb_refl. reflexivity.
    - cbn [dset]. destruct (eqb_spec n a) as [->|NN].
      + cbn [dset]. apply eqb_false in NK. rewrite NK. reflexivity.
      + cbn [dset]. apply eqb_false in NK. rewrite NK. f_equal. apply IH; [|exact N]. destruct I as [I|I]; [cbn in I; congruence|exact I].
  Qed.
  Lemma dset_twice m n v x : dset (dset m n x) n v = dset m n v.
  Proof.
    induction m as [|[a b] m IH]; cbn [dset]; [rewrite eqb_refl; reflexivity|].
    destruct (eqb n a) eqn:E; cbn [dset]; rewrite E; [reflexivity|f_equal; exact IH].
  Qed.
  Lemma dset_has m n v : In n (keys (dset m n v)).
  Proof. apply dget_keys. exists v. apply dget_dset_same. Qed.
  Lemma dset_keeps m n v a : In a (keys m) -> In a (keys (dset m n v)).
  Proof. intros I. rewrite keys_dset. destruct (dmem m n); [exact I|apply in_or_app; left; exact I]. Qed.
  Lemma merge_later (t : dict str V) : forall m n v, In n (keys m) -> ~ In n (keys t) -> dset (merge m t) n v = merge (dset m n v) t.
  Proof.
    induction t as [|[k x] t IH]; intros m n v I N; [reflexivity|]. change (merge m ((k, x) :: t)) with (merge (dset m k x) t).
    change (merge (dset m n v) ((k, x) :: t)) with (merge (dset (dset m n v) k x) t).
    rewrite IH; [|apply dset_keeps; exact I|intros J; apply N; right; exact J]. f_equal. apply dset_swap; [exact I|]. intros ->. apply N. left. reflexivity.
  Qed.
  Lemma merge_dset t : forall m n v, NoDup (keys t) -> merge m (dset t n v) = dset (merge m t) n v.
  Proof.
    induction t as [|[k x] t IH]; intros m n v ND; [reflexivity|]. inversion ND as [|? ? NI ND']; subst. cbn [dset].
    destruct (eqb_spec n k) as [->|N].
    - change (merge m ((k, v) :: t)) with (merge (dset m k v) t). change (merge m ((k, x) :: t)) with (merge (dset m k x) t).
      rewrite merge_later; [|apply dset_has|exact NI]. rewrite dset_twice. reflexivity.
    - exact (IH (dset m k x) n v ND').
  Qed.
  Lemma ddel_dset m n k x : n <> k -> ddel (dset m k x) n = dset (ddel m n) k x.
  Proof.
    intros N. induction m as [|[a b] m IH]; cbn [dset ddel].
    - apply eqb_false in N. rewrite N. reflexivity.
    - destruct (eqb_spec k a) as [->|NK].
      + apply eqb_false in N. cbn [ddel]. rewrite N. cbn [dset]. rewrite eqb_refl. reflexivity.
      + cbn [ddel]. destruct (eqb n a) eqn:E; [reflexivity|]. cbn [dset]. apply eqb_false in NK. rewrite NK. f_equal. exact IH.
  Qed.
  Lemma ddel_fresh m n x : ~ In n (keys m) -> ddel (dset m n x) n = m.
  Proof.
    induction m as [|[a b] m IH]; intros N; cbn [dset ddel]; [rewrite eqb_refl; reflexivity|].
    destruct (eqb_spec n a) as [->|NA]; [exfalso; apply N; left; reflexivity|]. cbn [ddel]. apply eqb_false in NA. rewrite NA. f_equal.
    apply IH. intros I. apply N. right. exact I.
  Qed.
  Lemma ddel_absent m n : ~ In n (keys m) -> ddel m n = m.
  Proof.
    induction m as [|[a b] m IH]; intros N; [reflexivity|]. cbn [ddel]. destruct (eqb_spec n a) as [->|NA]; [exfalso; apply N; left; reflexivity|].
    f_equal. apply IH. intros I. apply N. right. exact I.
  Qed.
  Lemma merge_ddel_later t : forall m n, ~ In n (keys t) -> ddel (merge m t) n = merge (ddel m n) t.
  Proof.
    induction t as [|[k x] t IH]; intros m n N; [reflexivity|]. change (merge m ((k, x) :: t)) with (merge (dset m k x) t).
    change (merge (ddel m n) ((k, x) :: t)) with (merge (dset (ddel m n) k x) t).
    rewrite IH by (intros J; apply N; right; exact J). f_equal. apply ddel_dset. intros ->. apply N. left. reflexivity.
  Qed.
  Lemma merge_ddel t : forall m n, NoDup (keys t) -> ~ In n (keys m) -> ddel (merge m t) n = merge m (ddel t n).
  Proof.
    induction t as [|[k x] t IH]; intros m n ND N; [apply ddel_absent; exact N|]. inversion ND as [|? ? NI ND']; subst. cbn [ddel].
    destruct (eqb_spec n k) as [->|NK].
    - change (merge m ((k, x) :: t)) with (merge (dset m k x) t). rewrite merge_ddel_later by exact NI. rewrite ddel_fresh by exact N. reflexivity.
    - refine (IH (dset m k x) n ND' _). intros I. apply N. rewrite keys_dset in I. destruct (dmem m k); [exact I|]. apply in_app_or in I.
      destruct I as [I|[I|[]]]; [exact I|congruence].
  Qed.
  Lemma merge_same t : forall m, (forall n v, In (n, v) t -> dget m n = Some v) -> merge m t = m.
  Proof.
    induction t as [|[k x] t IH]; intros m F; [reflexivity|]. change (merge m ((k, x) :: t)) with (merge (dset m k x) t).
    rewrite (dset_same_value m k x) by (apply F; left; reflexivity). apply IH. intros n v I. apply F. right. exact I.
  Qed.
  Lemma merge_self t : forall m, NoDup (keys (m ++ t)) -> merge m t = m ++ t.
  Proof.
    induction t as [|[k x] t IH]; intros m ND; [rewrite app_nil_r; reflexivity|]. change (merge m ((k, x) :: t)) with (merge (dset m k x) t).
    rewrite dset_fresh.
    - rewrite IH; rewrite <- app_assoc; [reflexivity|exact ND].
    - unfold keys in ND. rewrite map_app in ND. apply NoDup_remove_2 in ND. intros I. apply ND. apply in_or_app. left. exact I.
  Qed.
  Lemma merge_keys t : forall m n, In n (keys (merge m t)) -> In n (keys m) \/ In n (keys t).
  Proof.
    induction t as [|[k x] t IH]; intros m n I; [left; exact I|]. change (merge m ((k, x) :: t)) with (merge (dset m k x) t) in I.
    apply IH in I. destruct I as [I|I]; [|right; right; exact I]. rewrite keys_dset in I. destruct (dmem m k); [left; exact I|].
    apply in_app_or in I. destruct I as [I|[I|[]]]; [left; exact I|right; left; exact I].
  Qed.

  (** ** Files *)
  Definition merge_files (fd : dict (option str) (tables V)) (k : kind) (m : dict str V) : dict str V :=
    fold_left (fun m p => merge m (snd p k)) fd m.
  Lemma merge_files_app a b k m : merge_files (a ++ b) k m = merge_files b k (merge_files a k m).
  Proof. apply fold_left_app. Qed.
  Lemma merge_files_keys fd k : forall m n, In n (keys (merge_files fd k m)) -> In n (keys m) \/ exists f (t : tables V), In (f, t) fd /\ In n (keys (t k)).
  Proof.
    induction fd as [|[f t] fd IH]; intros m n I; [left; exact I|]. cbn [merge_files fold_left snd] in I. apply IH in I. destruct I as [I|(g & u & I1 & I2)].
    - apply merge_keys in I. destruct I as [I|I]; [left; exact I|]. right. exists f, t. split; [left; reflexivity|exact I].
    - right. exists g, u. split; [right; exact I1|exact I2].
  Qed.
  Definition ordered (s : store V) : Prop := forall k, defs s k = merge_files (fdefs s) k [].

  Lemma ordered_add s k n v : wfs s -> cur_last s -> ordered s -> ordered (add_def s k n v).
  Proof.
    intros W (a & N & E) O k'. specialize (O k'). unfold add_def. cbn [defs fdefs]. rewrite upd_get. unfold file_tables.
    destruct W as (_ & _ & W3 & _). destruct E as [E|[t E]]; rewrite E in *.
    - rewrite (dset_fresh a) by exact N. pose proof (proj2 (dget_None a _) N) as G. rewrite G. rewrite merge_files_app. cbn [merge_files fold_left snd].
      rewrite upd_get. destruct (eqb_spec k' k) as [->|NK]; [|exact O]. rewrite O. reflexivity.
    - rewrite (dset_last a), (dget_last a) by exact N. rewrite merge_files_app in *. cbn [merge_files fold_left snd] in *. rewrite upd_get.
      destruct (eqb_spec k' k) as [->|NK]; [|exact O]. rewrite O. symmetry. apply merge_dset.
      apply (W3 (base_name (cur s)) t). apply in_or_app. right. left. reflexivity.
  Qed.
  Lemma ordered_rem s k n : wfs s -> cur_last s -> consistent s -> ordered s ->
    (forall f, f <> base_name (cur s) -> defined_in s f k n = None) -> ordered (fst (rem_def s k n)).
  Proof.
    intros W (a & N & E) C O L k'. specialize (O k'). pose proof (C k n) as CK.
    pose proof W as (W1 & W2 & W3 & W4).
    assert (NA : forall f t, In (f, t) a -> dget (t k) n = None).
    { intros f t I. assert (F : f <> base_name (cur s)).
      { intros ->. apply N. apply in_map_iff. exists (base_name (cur s), t). auto. }
      specialize (L f F). unfold defined_in in L.
      assert (IF : In (f, t) (fdefs s)).
      { destruct E as [E|[u E]]; rewrite E; [exact I|apply in_or_app; left; exact I]. }
      rewrite (NoDup_dget _ _ _ W2 IF) in L. exact L. }
    assert (LA : lastf a k n None = None) by (apply lastf_none; exact NA).
    unfold rem_def, dmem. unfold defined in CK.
    destruct (dget (defs s k) n) as [v|] eqn:D; cbn [fst]; [|exact O].
    destruct E as [E|[t E]]; rewrite E in *; [exfalso; rewrite LA in CK; discriminate|].
    rewrite (dget_last a) by exact N. rewrite lastf_app, LA in CK. cbn [lastf] in CK.
    destruct (dget (t k) n) as [w|] eqn:T; [|discriminate]. cbn [fst fdefs defs].
    rewrite (dset_last a) by exact N. rewrite merge_files_app in *. cbn [merge_files fold_left snd] in *. rewrite !upd_get.
    destruct (eqb_spec k' k) as [->|NK]; [|exact O]. rewrite O. apply merge_ddel.
    - apply (W3 (base_name (cur s)) t). apply in_or_app. right. left. reflexivity.
    - intros I. apply merge_files_keys in I. destruct I as [[]|(f & u & I1 & I2)].
      apply NA in I1. apply dget_keys in I2. destruct I2 as [x I2]. congruence.
  Qed.

  Lemma ordered_run h : forall s seen past,
    wfs s -> cur_last s -> consistent s -> ordered s ->
    incl (keys (fdefs s)) (base_name (cur s) :: seen) ->
    (forall f k n v, defined_in s f k n = Some v -> exists w, In (f, k, n, w) past) ->
    one_pass seen (base_name (cur s)) h -> local_removals past (base_name (cur s)) h ->
    ordered (run s h).
  Proof.
    induction h as [|o h IH]; intros s seen past W CL C OR K P OP LR; [exact OR|].
    destruct o as [k n v|k n|g]; cbn [one_pass local_removals] in OP, LR.
    - change (run s (Add k n v :: h)) with (run (add_def s k n v) h).
      apply (IH (add_def s k n v) seen (past ++ [(base_name (cur s), k, n, v)])).
      + apply wfs_add; exact W.
      + apply cur_last_add; exact CL.
      + apply consistent_add; assumption.
      + apply ordered_add; assumption.
      + intros f I. apply keys_fdefs_add in I. destruct I as [<-|I]; [left; reflexivity|apply K; exact I].
      + intros f k' n' v' D. rewrite defined_in_add in D.
        destruct (eqb f (base_name (cur s)) && (eqb k' k && eqb n' n)) eqn:EQ.
        * rewrite !andb_true_iff in EQ. destruct EQ as (E1 & E2 & E3).
          apply eqb_eq in E1, E2, E3. subst. injection D as <-. exists v.
          apply in_or_app. right. left. reflexivity.
        * destruct (P _ _ _ _ D) as [w I]. exists w. apply in_or_app. left. exact I.
      + exact OP.
      + exact LR.
    - change (run s (Rem k n :: h)) with (run (fst (rem_def s k n)) h).
      destruct LR as [L1 L2].
      assert (NL : forall f, f <> base_name (cur s) -> defined_in s f k n = None).
      { intros f NF. destruct (defined_in s f k n) as [v|] eqn:D; [|reflexivity].
        destruct (P _ _ _ _ D) as [w I]. exfalso. apply NF. eapply L1. exact I. }
      apply (IH (fst (rem_def s k n)) seen past).
      + apply wfs_rem; exact W.
      + apply cur_last_rem; exact CL.
      + apply consistent_rem; assumption.
      + apply ordered_rem; assumption.
      + rewrite keys_fdefs_rem, cur_rem. exact K.
      + intros f k' n' v' D. rewrite defined_in_rem in D by exact W.
        destruct (_ && _ && _); [discriminate|]. eapply P. exact D.
      + rewrite cur_rem. exact OP.
      + rewrite cur_rem. exact L2.
    - change (run s (Switch g :: h)) with (run (set_cur s g) h). destruct OP as [O1 O2].
      fold (base_name g) in O1, O2, LR.
      assert (CL' : cur_last (set_cur s g)).
      { destruct O1 as [E|NI].
        - destruct CL as (a & N & X). exists a. cbn [set_cur cur fdefs]. rewrite E. auto.
        - exists (fdefs s). cbn [set_cur cur fdefs]. split; [|left; reflexivity].
          intros I. apply NI. apply K. exact I. }
      destruct (eqb_spec (base_name g) (base_name (cur s))) as [E|NE].
      + apply (IH (set_cur s g) seen past); try assumption. cbn [set_cur cur fdefs]. rewrite E. exact K.
      + apply (IH (set_cur s g) (base_name (cur s) :: seen) past); try assumption.
        intros f I. right. apply K. exact I.
  Qed.

  (** The tables of files that have been left stay as they are. *)
  Lemma dset_behind {A} (a r : dict (option str) A) b v : ~ In b (keys a) -> dset (a ++ r) b v = a ++ dset r b v.
  Proof.
    induction a as [|[k x] a IH]; intros N; [reflexivity|]. cbn [app dset]. destruct (eqb_spec b k) as [->|NE]; [exfalso; apply N; left; reflexivity|].
    f_equal. apply IH. intros I. apply N. right. exact I.
  Qed.
  Lemma prefix_run a h : forall (s : store V) r seen, fdefs s = a ++ r -> incl (keys a) seen -> ~ In (base_name (cur s)) (keys a) ->
    one_pass seen (base_name (cur s)) h -> exists r', fdefs (run s h) = a ++ r'.
  Proof.
    induction h as [|o h IH]; intros s r seen E K N OP; [exists r; exact E|].
    destruct o as [k n v|k n|g]; cbn [one_pass] in OP.
    - change (run s (Add k n v :: h)) with (run (add_def s k n v) h). eapply IH; [|exact K|exact N|exact OP].
      cbn [add_def fdefs]. rewrite E. apply dset_behind. exact N.
    - change (run s (Rem k n :: h)) with (run (fst (rem_def s k n)) h).
      assert (X : exists r', fdefs (fst (rem_def s k n)) = a ++ r').
      { unfold rem_def. destruct (dmem _ _); [|exists r; exact E]. destruct (dget (fdefs s) _) as [t|]; [|exists r; exact E].
        destruct (dmem _ _); [|exists r; exact E]. cbn [fst fdefs]. rewrite E, dset_behind by exact N. eauto. }
      destruct X as [r' X]. eapply IH; [exact X|exact K|rewrite cur_rem; exact N|rewrite cur_rem; exact OP].
    - change (run s (Switch g :: h)) with (run (set_cur s g) h). destruct OP as [O1 O2]. fold (base_name g) in O1, O2.
      destruct (eqb_spec (base_name g) (base_name (cur s))) as [EQ|NE].
      + eapply IH; [exact E|exact K|cbn [set_cur cur]; rewrite EQ; exact N|exact O2].
      + eapply (IH (set_cur s g) r (base_name (cur s) :: seen)); [exact E|intros x X; right; apply K; exact X| |exact O2].
        cbn [set_cur cur]. intros I. destruct O1 as [O1|O1]; [contradiction|]. apply O1. right. apply K. exact I.
  Qed.

  (** ** Importing *)
  Lemma add_all_defs t k : forall (s : store V) k', defs (fold_left (fun s p => add_def s k (fst p) (snd p)) t s) k' = if eqb k' k then merge (defs s k') t else defs s k'.
  Proof.
    induction t as [|[n v] t IH]; intros s k'; [destruct (eqb k' k); reflexivity|]. cbn [fold_left fst snd]. rewrite IH. cbn [add_def defs]. rewrite upd_get.
    destruct (eqb_spec k' k) as [->|N]; reflexivity.
  Qed.
  Lemma import_kinds_defs (u : tables V) ks : forall s : store V, NoDup ks ->
    exists s', import_kinds s ks (map (fun k => (k, u k)) all_kinds) = (s', None) /\ forall k, defs s' k = if mem k ks then merge (defs s k) (u k) else defs s k.
  Proof.
    induction ks as [|k ks IH]; intros s ND; [exists s; split; [reflexivity|intros k; reflexivity]|]. inversion ND as [|? ? NI ND']; subst. cbn [import_kinds].
    rewrite to_data_get. destruct (IH (fold_left (fun s p => add_def s k (fst p) (snd p)) (u k) s) ND') as (s' & E & D). exists s'. split; [exact E|].
    intros k'. rewrite D, add_all_defs. unfold mem. cbn [existsb]. destruct (eqb_spec k' k) as [->|NE]; cbn [orb]; [|reflexivity].
    destruct (existsb (eqb k) ks) eqn:M; [|reflexivity]. exfalso. apply NI. apply (mem_In (K := kind)). exact M.
  Qed.
  Lemma import_dict_defs fd : forall s : store V, exists s', import_dict s (to_data fd) = (s', None) /\ forall k, defs s' k = merge_files fd k (defs s k).
  Proof.
    induction fd as [|[f u] fd IH]; intros s; [exists s; split; [reflexivity|intros k; reflexivity]|]. cbn [to_data map import_dict fst snd].
    destruct (import_kinds_defs u all_kinds (set_cur s f) all_kinds_NoDup) as (s1 & E1 & D1). rewrite E1. destruct (IH s1) as (s' & E & D). exists s'.
    split; [exact E|]. intros k. rewrite D, D1. cbn [merge_files fold_left snd set_cur defs].
    rewrite (proj2 (mem_In (K := kind) k all_kinds) (all_kinds_complete k)). reflexivity.
  Qed.

  Lemma cache_same_tables (kw : list (op V)) f h :
    (forall o, In o kw -> exists k n v, o = Add k n v) ->
    one_pass [] None (Switch (Some f) :: h) ->
    local_removals [] None (kw ++ Switch (Some f) :: h) ->
    let s0 := run init_store kw in
    let s := run s0 (Switch (Some f) :: h) in
    forall k : kind, defs (fst (import_dict s0 (to_data (fdefs s)))) k = defs s k.
  Proof.
    intros A OP LR s0 s k. destruct (import_dict_defs (fdefs s) s0) as (s' & E & D). rewrite E. cbn [fst]. rewrite D.
    assert (OPk : one_pass [] None (kw ++ [])) by (apply one_pass_adds; [exact A|exact I]).
    assert (LRk : local_removals [] None (kw ++ [])) by (apply local_removals_adds; [exact A|exact I]).
    rewrite app_nil_r in OPk, LRk.
    assert (O0 : ordered s0).
    { apply (ordered_run kw init_store [] []); [apply wfs_init|exists []; cbn; auto|intros a b; reflexivity|intros a; reflexivity|intros x []|intros g a b w X; discriminate|exact OPk|exact LRk]. }
    assert (OS : ordered s).
    { unfold s, s0. rewrite <- run_app. apply (ordered_run _ init_store [] []); [apply wfs_init|exists []; cbn; auto|intros a b; reflexivity|intros a; reflexivity|intros x []|intros g a b w X; discriminate| |exact LR].
      apply one_pass_adds; [exact A|exact OP]. }
    destruct (run_adds_keys kw init_store A) as [C0 K0]. fold s0 in C0, K0. cbn in C0.
    assert (W0 : wfs s0) by apply wfs_reach.
    destruct (prefix_run (fdefs s0) h (set_cur s0 (Some f)) [] [None]) as [r R].
    { rewrite app_nil_r. reflexivity. }
    { intros x X. apply K0 in X. destruct X as [<-|[]]. left. reflexivity. }
    { cbn [set_cur cur]. intros X. apply K0 in X. destruct X as [X|[]]. discriminate X. }
    { cbn [one_pass] in OP. destruct OP as [_ OP]. destruct (eqb_spec (option_map basename (Some f)) None) as [X|X]; [discriminate X|exact OP]. }
    change (run (set_cur s0 (Some f)) h) with s in R. rewrite (OS k), R, !merge_files_app. f_equal.
    rewrite (O0 k). destruct (fdefs s0) as [|[g u] [|x l]] eqn:F.
    - reflexivity.
    - cbn [merge_files fold_left snd]. destruct W0 as (_ & _ & W3 & _). assert (ND : NoDup (keys (u k))) by (apply (W3 g u); rewrite F; left; reflexivity).
      rewrite (merge_self (u k) []) by exact ND. cbn [app]. apply merge_same. intros n v X. apply NoDup_dget; assumption.
    - exfalso. destruct W0 as (_ & W2 & _). rewrite F in W2. assert (G : g = None) by (destruct (K0 g (or_introl eq_refl)) as [G|[]]; symmetry; exact G).
      assert (G2 : fst x = None) by (destruct (K0 (fst x) (or_intror (or_introl eq_refl))) as [G2|[]]; symmetry; exact G2). inversion W2 as [|? ? NI _]; subst. apply NI. left. exact G2.
  Qed.
End Merge.
