(** Proofs about the definition tables and the cache. *)
From Coq Require Import Ascii String Bool Arith ZArith Lia List.
Import ListNotations.
From Verif Require Import PyBase PyBaseFacts PyStr PyStrFacts StoreModel StoreSpec.

Lemma all_kinds_complete k : In k all_kinds.
Proof. destruct k; simpl; tauto. Qed.
Lemma all_kinds_NoDup : NoDup all_kinds.
Proof.
  unfold all_kinds. repeat constructor; simpl; intuition discriminate.
Qed.

Section Store.
  Context {V : Type}.
  Implicit Types (s : store V) (h : list (op V)) (l : list (@addition V)).

  Definition upd_get (t : tables V) k d k' : upd t k d k' = if eqb k' k then d else t k'.
  Proof. reflexivity. Qed.

  Lemma defined_add s k n v k' n' :
    defined (add_def s k n v) k' n'
    = if eqb k' k && eqb n' n then Some v else defined s k' n'.
  Proof.
    unfold defined, add_def. cbn [defs]. rewrite upd_get.
    destruct (eqb_spec k' k) as [->|N]; [|reflexivity].
    rewrite dget_dset. reflexivity.
  Qed.

  Lemma defined_in_add s k n v f k' n' :
    defined_in (add_def s k n v) f k' n'
    = if eqb f (base_name (cur s)) && (eqb k' k && eqb n' n) then Some v
      else defined_in s f k' n'.
  Proof.
    unfold defined_in, add_def. cbn [fdefs]. rewrite dget_dset.
    destruct (eqb_spec f (base_name (cur s))) as [->|N]; [|reflexivity].
    rewrite upd_get. unfold file_tables. cbn [andb].
    destruct (eqb_spec k' k) as [->|N].
    - rewrite dget_dset. cbn [andb].
      destruct (eqb n' n); [reflexivity|].
      destruct (dget (fdefs s) (base_name (cur s))); reflexivity.
    - cbn [andb]. destruct (dget (fdefs s) (base_name (cur s))); reflexivity.
  Qed.

  (** ** Last value *)
  Definition lastv (p : addition -> bool) l (d : option V) : option V :=
    fold_left (fun acc e => if p e then Some (snd e) else acc) l d.

  Lemma lastv_app p l l' d : lastv p (l ++ l') d = lastv p l' (lastv p l d).
  Proof. apply fold_left_app. Qed.

  Lemma lastv_cons p e l d : lastv p (e :: l) d = lastv p l (if p e then Some (snd e) else d).
  Proof. reflexivity. Qed.

  Lemma lastv_none p l d : (forall e, In e l -> p e = false) -> lastv p l d = d.
  Proof.
    revert d. induction l as [|e l IH]; intros d H; [reflexivity|].
    cbn. rewrite (H e (or_introl eq_refl)). apply IH. intros x I. apply H. right. exact I.
  Qed.

  Lemma lastv_split p l d :
    (exists a e b, l = a ++ e :: b /\ p e = true /\ (forall x, In x b -> p x = false)
                   /\ lastv p l d = Some (snd e))
    \/ ((forall e, In e l -> p e = false) /\ lastv p l d = d).
  Proof.
    revert d. induction l as [|e l IH]; intros d.
    - right. split; [intros x []|reflexivity].
    - cbn. destruct (IH (if p e then Some (snd e) else d)) as [(a & x & b & -> & P & N & E)|[N E]].
      + left. exists (e :: a), x, b. auto.
      + destruct (p e) eqn:PE.
        * left. exists [], e, l. auto.
        * right. split; [intros x [<-|I]; auto|exact E].
  Qed.

  Lemma lastv_latest p (P : addition -> Prop) l v :
    (forall e, p e = true <-> P e) ->
    (lastv p l None = Some v <-> latest P l v).
  Proof.
    intros PP. split.
    - intros E. destruct (lastv_split p l None) as [(a & [[[f k] n] w] & b & -> & Q & N & E')|[N E']].
      + rewrite E in E'. injection E' as ->. exists a, f, k, n, b. split; [reflexivity|].
        split; [apply PP; exact Q|]. intros e I C. apply PP in C. rewrite N in C by exact I.
        discriminate.
      + congruence.
    - intros (a & f & k & n & b & -> & Q & N). rewrite lastv_app. cbn.
      apply PP in Q. rewrite Q. apply lastv_none. intros e I.
      destruct (p e) eqn:PE; [|reflexivity]. apply PP in PE. exfalso. exact (N e I PE).
  Qed.

  Lemma latest_In P l v : latest P l v -> exists f k n, In (f, k, n, v) l /\ P (f, k, n, v).
  Proof.
    intros (a & f & k & n & b & -> & Q & _). exists f, k, n. split; [|exact Q].
    apply in_or_app. right. left. reflexivity.
  Qed.

  Lemma latest_exists (p : addition -> bool) P l e :
    (forall e, p e = true <-> P e) -> In e l -> P e -> exists v, latest P l v.
  Proof.
    intros PP I Q. destruct (lastv_split p l None) as [(a & x & b & E1 & E2 & E3 & E4)|[N _]].
    - exists (snd x). apply (lastv_latest p P l (snd x) PP). exact E4.
    - apply PP in Q. rewrite N in Q by exact I. discriminate.
  Qed.

  Definition p_names (k : kind) (n : str) (e : @addition V) : bool :=
    match e with (_, k', n', _) => eqb k k' && eqb n n' end.
  Definition p_names_in (f : option str) (k : kind) (n : str) (e : @addition V) : bool :=
    match e with (f', k', n', _) => eqb f f' && (eqb k k' && eqb n n') end.
  Lemma p_names_iff k n e : p_names k n e = true <-> names k n e.
  Proof.
    destruct e as [[[f k'] n'] v]. cbn [p_names names]. rewrite andb_true_iff. split.
    - intros [E1 E2]. apply eqb_eq in E1, E2. auto.
    - intros [-> ->]. split; apply eqb_refl.
  Qed.
  Lemma p_names_in_iff f k n e : p_names_in f k n e = true <-> names_in f k n e.
  Proof.
    destruct e as [[[f' k'] n'] v]. cbn [p_names_in names_in]. rewrite !andb_true_iff. split.
    - intros (E1 & E2 & E3). apply eqb_eq in E1, E2, E3. auto.
    - intros (-> & -> & ->). repeat split; apply eqb_refl.
  Qed.

  (** ** Histories without removals *)
  Lemma run_defined s h k n :
    no_removal h ->
    defined (run s h) k n = lastv (p_names k n) (additions (base_name (cur s)) h) (defined s k n).
  Proof.
    revert s. induction h as [|o h IH]; intros s NR; [reflexivity|].
    assert (NR' : no_removal h) by (intros a b I; apply (NR a b); right; exact I).
    destruct o as [k' n' v|k' n'|f].
    - change (run s (Add k' n' v :: h)) with (run (add_def s k' n' v) h).
      rewrite IH by exact NR'. rewrite defined_add. reflexivity.
    - exfalso. apply (NR k' n'). left. reflexivity.
    - change (run s (Switch f :: h)) with (run (set_cur s f) h).
      rewrite IH by exact NR'. reflexivity.
  Qed.

  Lemma run_defined_in s h f k n :
    no_removal h ->
    defined_in (run s h) f k n
    = lastv (p_names_in f k n) (additions (base_name (cur s)) h) (defined_in s f k n).
  Proof.
    revert s. induction h as [|o h IH]; intros s NR; [reflexivity|].
    assert (NR' : no_removal h) by (intros a b I; apply (NR a b); right; exact I).
    destruct o as [k' n' v|k' n'|g].
    - change (run s (Add k' n' v :: h)) with (run (add_def s k' n' v) h).
      rewrite IH by exact NR'. rewrite defined_in_add. reflexivity.
    - exfalso. apply (NR k' n'). left. reflexivity.
    - change (run s (Switch g :: h)) with (run (set_cur s g) h).
      rewrite IH by exact NR'. reflexivity.
  Qed.

  Lemma history_tables h :
    no_removal h ->
    (forall k n v, defined (run init_store h) k n = Some v
                   <-> latest (names k n) (additions None h) v)
    /\ (forall f k n v, defined_in (run init_store h) f k n = Some v
                        <-> latest (names_in f k n) (additions None h) v)
    /\ (forall k n, (exists v, defined (run init_store h) k n = Some v)
                    <-> exists f v, defined_in (run init_store h) f k n = Some v).
  Proof.
    intros NR.
    assert (G : forall k n v, defined (run init_store h) k n = Some v
                   <-> latest (names k n) (additions None h) v).
    { intros k n v. rewrite run_defined by exact NR. apply lastv_latest. apply p_names_iff. }
    assert (F : forall f k n v, defined_in (run init_store h) f k n = Some v
                        <-> latest (names_in f k n) (additions None h) v).
    { intros f k n v. rewrite run_defined_in by exact NR. apply lastv_latest. apply p_names_in_iff. }
    split; [exact G|]. split; [exact F|]. intros k n. split.
    - intros [v E]. apply G in E. destruct (latest_In _ _ _ E) as (f & k' & n' & I & Q).
      destruct Q as [-> ->].
      destruct (latest_exists (p_names_in f k n) (names_in f k n) _ _ (p_names_in_iff f k n) I)
        as [w L]; [simpl; auto|]. exists f, w. apply F. exact L.
    - intros (f & v & E). apply F in E. destruct (latest_In _ _ _ E) as (f' & k' & n' & I & Q).
      destruct Q as (-> & -> & ->).
      destruct (latest_exists (p_names k n) (names k n) _ _ (p_names_iff k n) I)
        as [w L]; [simpl; auto|]. exists w. apply G. exact L.
  Qed.

  (** ** Well formed states *)
  Definition wfs s : Prop :=
    (forall k, NoDup (keys (defs s k)))
    /\ NoDup (keys (fdefs s))
    /\ (forall f t, In (f, t) (fdefs s) -> forall k, NoDup (keys (t k)))
    /\ (forall f, In f (keys (fdefs s)) -> base_name f = f).

  Lemma wfs_init : wfs init_store.
  Proof.
    split; [intros k; constructor|]. split; [constructor|]. split; [intros f t []|intros f []].
  Qed.

  Lemma base_name_idem c : base_name (base_name c) = base_name c.
  Proof. destruct c; simpl; [|reflexivity]. rewrite basename_idem. reflexivity. Qed.

  Lemma In_dset {K A} `{Eqb K} (d : dict K A) k v x y :
    In (x, y) (dset d k v) -> (x = k /\ y = v) \/ (In (x, y) d).
  Proof.
    induction d as [|[k' v'] d IH]; simpl.
    - intros [E|[]]. injection E as -> ->. auto.
    - destruct (eqb_spec k k') as [->|N]; simpl.
      + intros [E|I]; [injection E as -> ->; auto|auto].
      + intros [E|I]; [auto|]. destruct (IH I); auto.
  Qed.

  Lemma wfs_file_tables s f k : wfs s -> NoDup (keys (file_tables s f k)).
  Proof.
    intros (_ & _ & W & _). unfold file_tables. destruct (dget (fdefs s) f) eqn:E.
    - apply dget_In in E. eapply W. exact E.
    - constructor.
  Qed.

  Lemma wfs_add s k n v : wfs s -> wfs (add_def s k n v).
  Proof.
    intros W. pose proof (wfs_file_tables s (base_name (cur s))) as FT.
    destruct W as (W1 & W2 & W3 & W4). unfold add_def.
    split; [|split; [|split]]; cbn [defs fdefs].
    - intros k'. rewrite upd_get. destruct (eqb k' k); [apply NoDup_dset|]; apply W1.
    - apply NoDup_dset. exact W2.
    - intros f t I k'. apply In_dset in I. destruct I as [[-> ->]|I]; [|eapply W3; exact I].
      rewrite upd_get. destruct (eqb k' k); [apply NoDup_dset|]; apply FT; repeat split; auto.
    - intros f I. rewrite keys_dset in I. destruct (dmem _ _); auto.
      apply in_app_or in I. destruct I as [I|[<-|[]]]; auto. apply base_name_idem.
  Qed.

  Lemma wfs_rem s k n : wfs s -> wfs (fst (rem_def s k n)).
  Proof.
    intros W. pose proof W as W'. destruct W as (W1 & W2 & W3 & W4). unfold rem_def.
    assert (D : forall k', NoDup (keys (upd (defs s) k (ddel (defs s k) n) k'))).
    { intros k'. rewrite upd_get. destruct (eqb k' k); [apply NoDup_ddel|]; apply W1. }
    destruct (dmem (defs s k) n); [|exact W'].
    destruct (dget (fdefs s) (base_name (cur s))) as [t|] eqn:E.
    - destruct (dmem (t k) n); cbn [fst].
      + split; [exact D|]. split; [apply NoDup_dset; exact W2|]. cbn [fdefs]. split.
        * intros f t' I k'. apply In_dset in I. destruct I as [[-> ->]|I]; [|eapply W3; exact I].
          apply dget_In in E. rewrite upd_get.
          destruct (eqb k' k); [apply NoDup_ddel|]; eapply W3; exact E.
        * intros f I. rewrite keys_dset in I. unfold dmem in I. rewrite E in I. auto.
      + split; [exact D|]. split; [exact W2|]. split; assumption.
    - split; [exact D|]. split; [exact W2|]. split; assumption.
  Qed.

  Lemma wfs_run s h : wfs s -> wfs (run s h).
  Proof.
    revert s. induction h as [|o h IH]; intros s W; [exact W|]. apply IH.
    destruct o as [k n v|k n|f]; simpl.
    - apply wfs_add. exact W.
    - apply wfs_rem. exact W.
    - exact W.
  Qed.

  Lemma wfs_reach h : wfs (run init_store h).
  Proof. apply wfs_run. apply wfs_init. Qed.

  (** ** Removal *)
  Lemma defined_rem s k n k' n' :
    wfs s ->
    defined (fst (rem_def s k n)) k' n'
    = if eqb k' k && eqb n' n then None else defined s k' n'.
  Proof.
    intros (W1 & _). unfold rem_def, defined.
    assert (D : dget (upd (defs s) k (ddel (defs s k) n) k') n'
                = if eqb k' k && eqb n' n then None else dget (defs s k') n').
    { rewrite upd_get. destruct (eqb_spec k' k) as [->|N]; [|reflexivity]. cbn [andb].
      destruct (eqb_spec n' n) as [->|N].
      - apply dget_ddel_same. apply W1.
      - apply dget_ddel_other. exact N. }
    destruct (dmem (defs s k) n) eqn:M.
    - destruct (dget (fdefs s) (base_name (cur s))) as [t|]; [|exact D].
      destruct (dmem (t k) n); exact D.
    - destruct (eqb_spec k' k) as [->|N]; [|reflexivity]. cbn [andb].
      destruct (eqb_spec n' n) as [->|N]; [|reflexivity].
      unfold dmem in M. cbn [fst]. destruct (dget (defs s k) n); [discriminate|reflexivity].
  Qed.

  Lemma defined_in_rem s k n f k' n' :
    wfs s ->
    defined_in (fst (rem_def s k n)) f k' n'
    = if eqb f (base_name (cur s)) && (eqb k' k && eqb n' n) && dmem (defs s k) n then None
      else defined_in s f k' n'.
  Proof.
    intros (W1 & W2 & W3 & W4). unfold rem_def, defined_in.
    destruct (dmem (defs s k) n) eqn:M.
    2:{ rewrite andb_false_r. reflexivity. }
    rewrite andb_true_r.
    destruct (dget (fdefs s) (base_name (cur s))) as [t|] eqn:E.
    - destruct (dmem (t k) n) eqn:M2; cbn [fst fdefs].
      + rewrite dget_dset. destruct (eqb_spec f (base_name (cur s))) as [->|N]; [|reflexivity].
        rewrite upd_get, E. cbn [andb]. destruct (eqb_spec k' k) as [->|N]; [|reflexivity].
        cbn [andb]. destruct (eqb_spec n' n) as [->|N].
        * apply dget_ddel_same. apply dget_In in E. eapply W3. exact E.
        * apply dget_ddel_other. exact N.
      + destruct (eqb_spec f (base_name (cur s))) as [->|N]; [|reflexivity].
        cbn [andb]. destruct (eqb_spec k' k) as [->|N]; [|reflexivity].
        cbn [andb]. destruct (eqb_spec n' n) as [->|N]; [|reflexivity].
        rewrite E. unfold dmem in M2. destruct (dget (t k) n); [discriminate|reflexivity].
    - cbn [fst fdefs]. destruct (eqb_spec f (base_name (cur s))) as [->|N]; [|reflexivity].
      rewrite E. destruct (_ && _); reflexivity.
  Qed.

  Lemma dmem_defined s k n : dmem (defs s k) n = true <-> exists v, defined s k n = Some v.
  Proof.
    unfold dmem, defined. destruct (dget (defs s k) n) as [v|]; split; intro X; try discriminate;
      try reflexivity; eauto. destruct X as [v E]. discriminate.
  Qed.

  Lemma removal h k n :
    let s := run init_store h in let s' := fst (rem_def s k n) in
    defined s' k n = None
    /\ (forall k' n', (k', n') <> (k, n) -> defined s' k' n' = defined s k' n')
    /\ ((exists v, defined s k n = Some v) -> defined_in s' (base_name (cur s)) k n = None)
    /\ (forall f k' n', (f, k', n') <> (base_name (cur s), k, n) ->
          defined_in s' f k' n' = defined_in s f k' n')
    /\ ((exists v, defined s k n = Some v) ->
        (forall f, f <> base_name (cur s) -> defined_in s f k n = None) ->
        forall f, defined_in s' f k n = None).
  Proof.
    intros s s'. pose proof (wfs_reach h) as W. fold s in W. unfold s'.
    assert (A3 : (exists v, defined s k n = Some v) ->
                 defined_in (fst (rem_def s k n)) (base_name (cur s)) k n = None).
    { intros D. rewrite defined_in_rem by exact W. rewrite !eqb_refl.
      apply dmem_defined in D. rewrite D. reflexivity. }
    assert (A4 : forall f k' n', (f, k', n') <> (base_name (cur s), k, n) ->
          defined_in (fst (rem_def s k n)) f k' n' = defined_in s f k' n').
    { intros f k' n' N. rewrite defined_in_rem by exact W.
      destruct (eqb_spec f (base_name (cur s))) as [->|N1]; [|reflexivity].
      destruct (eqb_spec k' k) as [->|N1]; [|reflexivity].
      destruct (eqb_spec n' n) as [->|N1]; [|reflexivity]. congruence. }
    repeat split; auto.
    - rewrite defined_rem by exact W. rewrite !eqb_refl. reflexivity.
    - intros k' n' N. rewrite defined_rem by exact W.
      destruct (eqb_spec k' k) as [->|N1]; [|reflexivity].
      destruct (eqb_spec n' n) as [->|N1]; [|reflexivity]. congruence.
    - intros D O f. destruct (eqb_spec f (base_name (cur s))) as [->|N]; [auto|].
      rewrite A4 by congruence. auto.
  Qed.

  (** ** find *)
  Lemma find_table {B} (p : str -> bool) (mk : str -> B) (d : dict str V) x :
    In x (flat_map (fun e => if p (fst e) then [mk (fst e)] else []) d)
    <-> exists n, In n (keys d) /\ p n = true /\ x = mk n.
  Proof.
    rewrite in_flat_map. split.
    - intros ([n v] & I & J). simpl in J. destruct (p n) eqn:P; [|destruct J].
      destruct J as [<-|[]]. exists n. split; [|auto].
      apply in_map_iff. exists (n, v). auto.
    - intros (n & I & P & ->). apply in_map_iff in I. destruct I as ([n' v] & E & I).
      simpl in E. subst n'. exists (n, v). split; [exact I|]. simpl. rewrite P. left. reflexivity.
  Qed.

  Lemma In_keys_dget {K A} `{Eqb K} (d : dict K A) k : In k (keys d) <-> exists v, dget d k = Some v.
  Proof. symmetry. apply dget_keys. Qed.

  Lemma find_pat_In s p f k n :
    wfs s ->
    (In (f, k, n) (find_pat s p) <-> p n = true /\ exists v, defined_in s f k n = Some v).
  Proof.
    intros (W1 & W2 & W3 & W4). unfold find_pat. rewrite in_flat_map. split.
    - intros ([g t] & I & J). rewrite in_flat_map in J. destruct J as (k' & _ & J).
      apply (find_table p (fun m => (g, k', m))) in J.
      destruct J as (m & M & P & E). injection E as -> -> ->. split; [exact P|].
      apply In_keys_dget in M. unfold defined_in. rewrite (NoDup_dget _ _ _ W2 I). exact M.
    - intros (P & v & D). unfold defined_in in D. destruct (dget (fdefs s) f) as [t|] eqn:E; [|discriminate].
      exists (f, t). split; [apply dget_In; exact E|]. rewrite in_flat_map.
      exists k. split; [apply all_kinds_complete|].
      apply (find_table p (fun m => (f, k, m))). exists n. split; [|auto].
      apply In_keys_dget. eauto.
  Qed.

  Lemma NoDup_flat_map {A B C} (g : A -> list B) (key : A -> C) (kb : B -> C) (l : list A) :
    NoDup (map key l) -> (forall a, In a l -> NoDup (g a)) ->
    (forall a b, In b (g a) -> kb b = key a) -> NoDup (flat_map g l).
  Proof.
    induction l as [|a l IH]; intros ND NG KB; simpl; [constructor|].
    simpl in ND. inversion ND; subst.
    assert (NoDup (flat_map g l)) by (apply IH; auto; intros; apply NG; right; auto).
    assert (NA : NoDup (g a)) by (apply NG; left; reflexivity).
    assert (DJ : forall b, In b (g a) -> ~ In b (flat_map g l)).
    { intros b I J. apply in_flat_map in J. destruct J as (a' & I' & J).
      apply H1. rewrite <- (KB _ _ I), (KB _ _ J). apply in_map. exact I'. }
    clear - NA H DJ. induction (g a) as [|b r IHr]; simpl; [exact H|].
    inversion NA; subst. constructor.
    - rewrite in_app_iff. intros [I|I]; [contradiction|].
      apply (DJ b); [left; reflexivity|exact I].
    - apply IHr; auto. intros x I. apply DJ. right. exact I.
  Qed.

  Lemma find_pat_NoDup s p : wfs s -> NoDup (find_pat s p).
  Proof.
    intros (W1 & W2 & W3 & W4). unfold find_pat.
    apply (NoDup_flat_map _ fst (fun b => fst (fst b))).
    - exact W2.
    - intros [f t] I. apply (NoDup_flat_map _ (fun k => k) (fun b => snd (fst b))).
      + rewrite map_id. apply all_kinds_NoDup.
      + intros k _. apply (NoDup_flat_map _ fst (fun b => snd b)).
        * eapply W3. exact I.
        * intros [n v] _. simpl. destruct (p n); repeat constructor. intros [].
        * intros [n v] b J. simpl in J. destruct (p n); [|destruct J]. destruct J as [<-|[]]. reflexivity.
      + intros k b J. apply (find_table p (fun m => (f, k, m))) in J.
        destruct J as (m & _ & _ & ->). reflexivity.
    - intros [f t] b J. rewrite in_flat_map in J. destruct J as (k & _ & J).
      apply (find_table p (fun m => (f, k, m))) in J. destruct J as (m & _ & _ & ->). reflexivity.
  Qed.

  Lemma find_name_pat s name :
    find_name s name = map fst (find_pat s (fun n => eqb n name)).
  Proof.
    unfold find_name, find_pat.
    induction (fdefs s) as [|[f t] fd IH]; [reflexivity|]. cbn [flat_map]. rewrite map_app, <- IH.
    f_equal. cbn [fst snd]. clear.
    induction all_kinds as [|k ks IH]; [reflexivity|]. cbn [flat_map]. rewrite map_app, <- IH.
    f_equal. induction (t k) as [|[n v] d IH']; [reflexivity|]. cbn [flat_map]. rewrite map_app, <- IH'.
    f_equal. cbn [fst]. destruct (eqb n name); reflexivity.
  Qed.

  Lemma find_name_In s name f k :
    wfs s -> (In (f, k) (find_name s name) <-> exists v, defined_in s f k name = Some v).
  Proof.
    intros W. rewrite find_name_pat, in_map_iff. split.
    - intros ([[f' k'] n] & E & I). simpl in E. injection E as -> ->.
      apply find_pat_In in I; auto. destruct I as [P D]. apply eqb_eq in P. subst. exact D.
    - intros D. exists (f, k, name). split; [reflexivity|]. apply find_pat_In; auto.
      split; [apply eqb_refl|exact D].
  Qed.

  Lemma find_name_NoDup s name : wfs s -> NoDup (find_name s name).
  Proof.
    intros W. rewrite find_name_pat. pose proof (find_pat_NoDup s (fun n => eqb n name) W) as ND.
    assert (A : forall x, In x (find_pat s (fun n => eqb n name)) -> snd x = name).
    { intros [[f k] n] I. apply find_pat_In in I; auto. destruct I as [P _]. apply eqb_eq in P. exact P. }
    induction (find_pat s (fun n => eqb n name)) as [|x l IH]; simpl; [constructor|].
    inversion ND; subst. constructor.
    - intros I. apply in_map_iff in I. destruct I as (y & E & I). apply H1.
      assert (x = y) as ->; [|exact I].
      destruct x as [x1 x2], y as [y1 y2]. simpl in E. subst y1. f_equal.
      pose proof (A (x1, y2) (or_intror I)). pose proof (A (x1, x2) (or_introl eq_refl)). simpl in *. congruence.
    - apply IH; auto. intros y I. apply A. right. exact I.
  Qed.

  (** ** Importing *)
  Definition import_ops (d : fdata V) : list (op V) :=
    flat_map (fun p => Switch (fst p) :: flat_map (fun k =>
        map (fun e => Add k (fst e) (snd e))
            (match dget (snd p) k with Some t => t | None => [] end)) all_kinds) d.

  Lemma run_app s h h' : run s (h ++ h') = run (run s h) h'.
  Proof. apply fold_left_app. Qed.

  Lemma import_adds k (t : dict str V) s :
    fold_left (fun s p => add_def s k (fst p) (snd p)) t s
    = run s (map (fun e => Add k (fst e) (snd e)) t).
  Proof. revert s. induction t as [|e t IH]; intros s; [reflexivity|]. apply IH. Qed.

  Lemma import_kinds_run s ks d :
    (forall k, dget d k <> None) ->
    import_kinds s ks d
    = (run s (flat_map (fun k => map (fun e => Add k (fst e) (snd e))
                 (match dget d k with Some t => t | None => [] end)) ks), None).
  Proof.
    intros C. revert s. induction ks as [|k ks IH]; intros s; [reflexivity|].
    cbn [import_kinds flat_map]. rewrite run_app.
    destruct (dget d k) as [t|] eqn:E; [|exfalso; exact (C k E)].
    rewrite import_adds. apply IH.
  Qed.

  Lemma import_dict_run s d :
    complete d -> import_dict s d = (run s (import_ops d), None).
  Proof.
    revert s. induction d as [|[f t] d IH]; intros s C; [reflexivity|].
    cbn [import_dict import_ops flat_map]. rewrite run_app.
    rewrite import_kinds_run by (apply (C f t); left; reflexivity).
    rewrite IH by (intros f' t' I; apply (C f' t'); right; exact I). reflexivity.
  Qed.

  Lemma import_ops_no_removal d : no_removal (import_ops d).
  Proof.
    intros k n I. unfold import_ops in I. apply in_flat_map in I. destruct I as ([f t] & _ & I).
    destruct I as [E|I]; [discriminate|]. apply in_flat_map in I. destruct I as (k' & _ & I).
    apply in_map_iff in I. destruct I as (e & E & _). discriminate.
  Qed.

  Lemma additions_adds c h h' :
    (forall o, In o h -> exists k n v, o = Add k n v) ->
    additions c (h ++ h') = additions c h ++ additions c h'.
  Proof.
    induction h as [|o h IH]; intros A; [reflexivity|].
    destruct (A o (or_introl eq_refl)) as (k & n & v & ->). simpl. f_equal. apply IH.
    intros x I. apply A. right. exact I.
  Qed.

  Lemma additions_map c k (t : dict str V) :
    additions c (map (fun e => Add k (fst e) (snd e)) t) = map (fun e => (c, k, fst e, snd e)) t.
  Proof. induction t as [|e t IH]; [reflexivity|]. simpl. f_equal. exact IH. Qed.

  Lemma additions_kinds c (g : kind -> dict str V) ks :
    additions c (flat_map (fun k => map (fun e => Add k (fst e) (snd e)) (g k)) ks)
    = flat_map (fun k => map (fun e => (c, k, fst e, snd e)) (g k)) ks.
  Proof.
    induction ks as [|k ks IH]; [reflexivity|]. cbn [flat_map].
    rewrite additions_adds.
    - rewrite additions_map, IH. reflexivity.
    - intros o I. apply in_map_iff in I. destruct I as (e & <- & _). eauto.
  Qed.

  Lemma additions_switch c f h h' :
    (forall o, In o h -> exists k n v, o = Add k n v) ->
    (match h' with [] => True | o :: _ => exists g, o = Switch g end) ->
    additions c (Switch f :: h ++ h') = additions (base_name f) h ++ additions c h'.
  Proof.
    intros A S. simpl. rewrite additions_adds by exact A. f_equal.
    destruct h' as [|o h']; [reflexivity|]. destruct S as [g ->]. reflexivity.
  Qed.

  Lemma additions_import c d : additions c (import_ops d) = listed d.
  Proof.
    revert c. induction d as [|[f t] d IH]; intros c; [reflexivity|].
    change (import_ops ((f, t) :: d))
      with (Switch f :: flat_map (fun k =>
              map (fun e => Add k (fst e) (snd e))
                  (match dget t k with Some t => t | None => [] end)) all_kinds ++ import_ops d).
    rewrite additions_switch.
    - rewrite (additions_kinds _ (fun k => match dget t k with Some t => t | None => [] end)).
      rewrite IH. reflexivity.
    - intros o I. apply in_flat_map in I. destruct I as (k & _ & I).
      apply in_map_iff in I. destruct I as (e & <- & _). eauto.
    - destruct d as [|[g u] d]; simpl; [exact Logic.I|eauto].
  Qed.

  Lemma import_effect s d :
    complete d ->
    snd (import_dict s d) = None
    /\ (forall k n, defined (fst (import_dict s d)) k n = lastv (p_names k n) (listed d) (defined s k n))
    /\ (forall f k n, defined_in (fst (import_dict s d)) f k n
                      = lastv (p_names_in f k n) (listed d) (defined_in s f k n)).
  Proof.
    intros C. rewrite import_dict_run by exact C. cbn [fst snd].
    split; [reflexivity|]. split; intros.
    - rewrite run_defined by apply import_ops_no_removal. rewrite additions_import. reflexivity.
    - rewrite run_defined_in by apply import_ops_no_removal. rewrite additions_import. reflexivity.
  Qed.

  Lemma lastv_idem p l d : lastv p l (lastv p l d) = lastv p l d.
  Proof.
    destruct (lastv_split p l d) as [(a & e & b & E1 & E2 & E3 & E4)|[N E]].
    - destruct (lastv_split p l (lastv p l d)) as [(a' & e' & b' & E1' & E2' & E3' & E4')|[N' E']].
      + rewrite E4', E4. rewrite E1 in E1'.
        f_equal. clear E4 E4' E1. revert a' E1'. induction a as [|x a IH]; intros [|y a'] E1'; simpl in E1'.
        * injection E1' as -> _. reflexivity.
        * injection E1' as -> ->. rewrite E3 in E2'; [discriminate|]. apply in_or_app. right. left. reflexivity.
        * injection E1' as -> E1'. rewrite E3' in E2; [discriminate|]. rewrite <- E1'. apply in_or_app. right. left. reflexivity.
        * injection E1' as -> E1'. eapply IH. exact E1'.
      + exact E'.
    - rewrite E. exact E.
  Qed.

  Lemma import_twice s d :
    complete d ->
    let s1 := fst (import_dict s d) in let s2 := fst (import_dict s1 d) in
    snd (import_dict s d) = None /\ snd (import_dict s1 d) = None
    /\ (forall k n, defined s2 k n = defined s1 k n)
    /\ (forall f k n, defined_in s2 f k n = defined_in s1 f k n)
    /\ (forall k n v, latest (names k n) (listed d) v -> defined s1 k n = Some v)
    /\ (forall f k n v, latest (names_in f k n) (listed d) v -> defined_in s1 f k n = Some v)
    /\ (forall k n, (forall e, In e (listed d) -> ~ names k n e) -> defined s1 k n = defined s k n)
    /\ (forall f k n, (forall e, In e (listed d) -> ~ names_in f k n e) ->
                      defined_in s1 f k n = defined_in s f k n).
  Proof.
    intros C s1 s2. destruct (import_effect s d C) as (A1 & A2 & A3).
    destruct (import_effect s1 d C) as (B1 & B2 & B3). fold s1 in A2, A3. fold s2 in B2, B3.
    split; [exact A1|]. split; [exact B1|].
    split; [intros; rewrite B2, A2; apply lastv_idem|].
    split; [intros; rewrite B3, A3; apply lastv_idem|].
    split. { intros k n v (a & f & k' & n' & b & E & Q & N). rewrite A2, E, lastv_app. cbn.
      change (p_names k n (f, k', n', v)) with (p_names k n (f, k', n', v)).
      pose proof (proj2 (p_names_iff k n (f, k', n', v)) Q) as Q'. cbn in Q'. rewrite Q'.
      apply lastv_none. intros e I. destruct (p_names k n e) eqn:P; [|reflexivity].
      apply p_names_iff in P. exfalso. exact (N e I P). }
    split. { intros g k n v (a & f & k' & n' & b & E & Q & N). rewrite A3, E, lastv_app. cbn.
      pose proof (proj2 (p_names_in_iff g k n (f, k', n', v)) Q) as Q'. cbn in Q'. rewrite Q'.
      apply lastv_none. intros e I. destruct (p_names_in g k n e) eqn:P; [|reflexivity].
      apply p_names_in_iff in P. exfalso. exact (N e I P). }
    split.
    - intros k n N. rewrite A2. apply lastv_none. intros e I.
      destruct (p_names k n e) eqn:P; [|reflexivity]. apply p_names_iff in P. exfalso. exact (N e I P).
    - intros f k n N. rewrite A3. apply lastv_none. intros e I.
      destruct (p_names_in f k n e) eqn:P; [|reflexivity]. apply p_names_in_iff in P. exfalso. exact (N e I P).
  Qed.

  (** ** Importing the tables of another parser *)
  Lemma complete_to_data fd : complete (to_data fd : fdata V).
  Proof.
    intros f t I k. unfold to_data in I. apply in_map_iff in I. destruct I as ([g u] & E & I).
    injection E as <- <-. destruct k; discriminate.
  Qed.

  Lemma to_data_get (u : tables V) k :
    dget (map (fun k => (k, u k)) all_kinds) k = Some (u k).
  Proof. destruct k; reflexivity. Qed.

  (** The value in the last file (in the order of [file_defs]) that has one. *)
  Fixpoint lastf (fd : dict (option str) (tables V)) k n (d : option V) : option V :=
    match fd with
    | [] => d
    | (_, t) :: r => lastf r k n (match dget (t k) n with Some v => Some v | None => d end)
    end.

  Definition wff (fd : dict (option str) (tables V)) : Prop :=
    NoDup (keys fd) /\ (forall f t, In (f, t) fd -> forall k, NoDup (keys (t k)))
    /\ (forall f, In f (keys fd) -> base_name f = f).

  Lemma lastv_table (p : @addition V -> bool) b k (t : dict str V) n d :
    NoDup (keys t) ->
    (forall m v, p (b, k, m, v) = eqb n m) ->
    lastv p (map (fun e => (b, k, fst e, snd e)) t) d
    = match dget t n with Some v => Some v | None => d end.
  Proof.
    intros ND P. revert d. induction t as [|[m v] t IH]; intros d; [reflexivity|].
    simpl in ND. inversion ND; subst. cbn [map fst snd dget].
    rewrite lastv_cons, P. destruct (eqb_spec n m) as [->|N].
    - apply lastv_none. intros e I. apply in_map_iff in I. destruct I as ([m' v'] & <- & I).
      cbn [fst snd]. rewrite P. apply eqb_false. intros ->. apply H1. apply in_map_iff.
      exists (m', v'). auto.
    - apply IH. exact H2.
  Qed.

  Lemma lastv_kinds (p : @addition V -> bool) b (t : tables V) k n d :
    (forall k, NoDup (keys (t k))) ->
    (forall k' m v, p (b, k', m, v) = eqb k k' && eqb n m) ->
    lastv p (flat_map (fun k => map (fun e => (b, k, fst e, snd e)) (t k)) all_kinds) d
    = match dget (t k) n with Some v => Some v | None => d end.
  Proof.
    intros ND P.
    assert (NO : forall k' d, k <> k' -> lastv p (map (fun e => (b, k', fst e, snd e)) (t k')) d = d).
    { intros k' d' N. apply lastv_none. intros e I. apply in_map_iff in I.
      destruct I as (x & <- & _). rewrite P. apply eqb_false in N. rewrite N. reflexivity. }
    assert (YES : forall d, lastv p (map (fun e => (b, k, fst e, snd e)) (t k)) d
                            = match dget (t k) n with Some v => Some v | None => d end).
    { intros d'. apply lastv_table; auto. intros. rewrite P, eqb_refl. reflexivity. }
    unfold all_kinds. cbn [flat_map]. rewrite !lastv_app.
    destruct k; repeat (first [rewrite YES | rewrite NO by discriminate]); reflexivity.
  Qed.

  Lemma listed_cons f (t : tables V) fd :
    base_name f = f ->
    listed (to_data ((f, t) :: fd))
    = flat_map (fun k => map (fun e => (f, k, fst e, snd e)) (t k)) all_kinds ++ listed (to_data fd).
  Proof.
    intros B. unfold listed, to_data. cbn [map flat_map fst snd]. f_equal.
    unfold base_name in B. rewrite B. reflexivity.
  Qed.

  Lemma lastv_listed fd k n d :
    wff fd -> lastv (p_names k n) (listed (to_data fd)) d = lastf fd k n d.
  Proof.
    revert d. induction fd as [|[f t] fd IH]; intros d (W1 & W2 & W3); [reflexivity|].
    rewrite listed_cons by (apply W3; left; reflexivity). rewrite lastv_app. cbn [lastf].
    rewrite (lastv_kinds _ f t k n); [|apply (W2 f); left; reflexivity|reflexivity].
    apply IH. simpl in W1. inversion W1; subst.
    split; [assumption|]. split; intros; [eapply W2; right; eassumption|apply W3; right; assumption].
  Qed.

  Lemma lastv_listed_in fd f k n d :
    wff fd -> lastv (p_names_in f k n) (listed (to_data fd)) d
              = match dget fd f with
                | Some t => match dget (t k) n with Some v => Some v | None => d end
                | None => d end.
  Proof.
    revert d. induction fd as [|[g t] fd IH]; intros d (W1 & W2 & W3); [reflexivity|].
    rewrite listed_cons by (apply W3; left; reflexivity). rewrite lastv_app. cbn [dget].
    simpl in W1. inversion W1; subst.
    assert (WF : wff fd).
    { split; [assumption|]. split; intros; [eapply W2; right; eassumption|apply W3; right; assumption]. }
    destruct (eqb_spec f g) as [->|N].
    - rewrite (lastv_kinds _ g t k n); [|apply (W2 g); left; reflexivity|].
      2:{ intros. cbn [p_names_in]. rewrite eqb_refl. reflexivity. }
      rewrite IH by exact WF. apply dget_None in H1. rewrite H1. reflexivity.
    - rewrite (lastv_none _ (flat_map _ all_kinds)).
      + apply IH. exact WF.
      + intros e I. apply in_flat_map in I. destruct I as (k' & _ & I). apply in_map_iff in I.
        destruct I as (x & <- & _). cbn [p_names_in]. apply eqb_false in N. rewrite N. reflexivity.
  Qed.

  Lemma wfs_wff s : wfs s -> wff (fdefs s).
  Proof. intros (_ & A & B & C). split; [exact A|]. split; assumption. Qed.

  Lemma import_tables s0 s :
    wfs s ->
    snd (import_dict s0 (to_data (fdefs s))) = None
    /\ (forall k n, defined (fst (import_dict s0 (to_data (fdefs s)))) k n
                    = lastf (fdefs s) k n (defined s0 k n))
    /\ (forall f k n, defined_in (fst (import_dict s0 (to_data (fdefs s)))) f k n
                    = match defined_in s f k n with Some v => Some v | None => defined_in s0 f k n end).
  Proof.
    intros W. apply wfs_wff in W. destruct (import_effect s0 _ (complete_to_data (fdefs s))) as (A & B & C).
    split; [exact A|]. split; intros.
    - rewrite B. apply lastv_listed. exact W.
    - rewrite C, lastv_listed_in by exact W. unfold defined_in.
      destruct (dget (fdefs s) f); reflexivity.
  Qed.

  Lemma lastf_default fd k n d :
    lastf fd k n d = match lastf fd k n None with Some v => Some v | None => d end.
  Proof.
    revert d. induction fd as [|[f t] fd IH]; intros d; [reflexivity|]. cbn [lastf].
    destruct (dget (t k) n) as [v|]; [|apply IH].
    rewrite (IH (Some v)). destruct (lastf fd k n None); reflexivity.
  Qed.

  Lemma lastf_app fd fd' k n d : lastf (fd ++ fd') k n d = lastf fd' k n (lastf fd k n d).
  Proof. revert d. induction fd as [|[f t] fd IH]; intros d; [reflexivity|]. apply IH. Qed.

  Lemma lastf_none fd k n d :
    (forall f t, In (f, t) fd -> dget (t k) n = None) -> lastf fd k n d = d.
  Proof.
    revert d. induction fd as [|[f t] fd IH]; intros d H; [reflexivity|]. cbn [lastf].
    rewrite (H f t) by (left; reflexivity). apply IH. intros g u I. apply (H g u). right. exact I.
  Qed.

  (** ** One pass over the files *)
  Definition consistent s : Prop := forall k n, defined s k n = lastf (fdefs s) k n None.

  (** The current file is the last one with tables, or has none yet. *)
  Definition cur_last s : Prop :=
    exists a, ~ In (base_name (cur s)) (keys a)
              /\ (fdefs s = a \/ exists t, fdefs s = a ++ [(base_name (cur s), t)]).

  Lemma dset_fresh {K A} `{Eqb K} (d : dict K A) k v : ~ In k (keys d) -> dset d k v = d ++ [(k, v)].
  Proof.
    induction d as [|[k' v'] d IH]; intros N; [reflexivity|]. simpl in *.
    destruct (eqb_spec k k') as [->|NE]; [exfalso; auto|]. f_equal. apply IH. tauto.
  Qed.
  Lemma dset_last {K A} `{Eqb K} (d : dict K A) k v w :
    ~ In k (keys d) -> dset (d ++ [(k, v)]) k w = d ++ [(k, w)].
  Proof.
    induction d as [|[k' v'] d IH]; intros N.
    - simpl. rewrite eqb_refl. reflexivity.
    - simpl in *. destruct (eqb_spec k k') as [->|NE]; [exfalso; auto|]. f_equal. apply IH. tauto.
  Qed.
  Lemma dget_last {K A} `{Eqb K} (d : dict K A) k v :
    ~ In k (keys d) -> dget (d ++ [(k, v)]) k = Some v.
  Proof.
    induction d as [|[k' v'] d IH]; intros N.
    - simpl. rewrite eqb_refl. reflexivity.
    - simpl in *. destruct (eqb_spec k k') as [->|NE]; [exfalso; auto|]. apply IH. tauto.
  Qed.

  Lemma cur_last_add s k n v : cur_last s -> cur_last (add_def s k n v).
  Proof.
    intros (a & N & E). exists a. unfold add_def. cbn [cur fdefs]. split; [exact N|]. right.
    destruct E as [E|[t E]]; rewrite E.
    - rewrite dset_fresh by exact N. eauto.
    - rewrite dset_last by exact N. eauto.
  Qed.

  Lemma consistent_add s k n v : cur_last s -> consistent s -> consistent (add_def s k n v).
  Proof.
    intros (a & N & E) C k' n'. rewrite defined_add. specialize (C k' n').
    unfold add_def. cbn [fdefs]. unfold file_tables. destruct E as [E|[t E]]; rewrite E in *.
    - rewrite dset_fresh by exact N. pose proof (proj2 (dget_None a _) N) as G. rewrite G.
      rewrite lastf_app. cbn [lastf]. rewrite upd_get.
      destruct (eqb k' k); cbn [andb]; [|exact C].
      cbn [no_tables]. rewrite dget_dset. destruct (eqb n' n); [reflexivity|exact C].
    - rewrite dset_last, dget_last by exact N.
      rewrite lastf_app in *. cbn [lastf] in *. rewrite upd_get.
      destruct (eqb_spec k' k) as [->|NK]; cbn [andb]; [|exact C].
      rewrite dget_dset. destruct (eqb n' n); [reflexivity|exact C].
  Qed.

  Lemma cur_last_rem s k n : cur_last s -> cur_last (fst (rem_def s k n)).
  Proof.
    intros (a & N & E). unfold rem_def. destruct (dmem (defs s k) n).
    2:{ exists a. auto. }
    destruct (dget (fdefs s) (base_name (cur s))) as [t|] eqn:G.
    2:{ exists a. auto. }
    destruct (dmem (t k) n); cbn [fst].
    2:{ exists a. auto. }
    exists a. cbn [cur fdefs]. split; [exact N|]. right. destruct E as [E|[u E]]; rewrite E in *.
    - apply dget_None in N. congruence.
    - rewrite dset_last by exact N. eauto.
  Qed.

  Lemma consistent_rem s k n :
    wfs s -> cur_last s -> consistent s ->
    (forall f, f <> base_name (cur s) -> defined_in s f k n = None) ->
    consistent (fst (rem_def s k n)).
  Proof.
    intros W (a & N & E) C O k' n'. rewrite defined_rem by exact W.
    pose proof (C k n) as CK. specialize (C k' n').
    pose proof W as (W1 & W2 & W3 & W4).
    assert (NA : forall f t, In (f, t) a -> dget (t k) n = None).
    { intros f t I. assert (F : f <> base_name (cur s)).
      { intros ->. apply N. apply in_map_iff. exists (base_name (cur s), t). auto. }
      specialize (O f F). unfold defined_in in O.
      assert (IF : In (f, t) (fdefs s)).
      { destruct E as [E|[u E]]; rewrite E; [exact I|apply in_or_app; left; exact I]. }
      rewrite (NoDup_dget _ _ _ W2 IF) in O. exact O. }
    assert (LA : lastf a k n None = None) by (apply lastf_none; exact NA).
    unfold rem_def, dmem. unfold defined in CK.
    destruct (dget (defs s k) n) as [v|] eqn:D; cbn [fst].
    2:{ destruct (eqb_spec k' k) as [->|NK]; [|exact C].
        destruct (eqb_spec n' n) as [->|NN]; [|exact C]. cbn [andb]. rewrite <- CK. reflexivity. }
    destruct E as [E|[t E]]; rewrite E in *.
    { exfalso. rewrite LA in CK. discriminate. }
    rewrite dget_last by exact N. rewrite lastf_app, LA in CK. cbn [lastf] in CK.
    destruct (dget (t k) n) as [w|] eqn:T; [|discriminate]. cbn [fst fdefs].
    rewrite dset_last by exact N. rewrite lastf_app in *. cbn [lastf] in *. rewrite upd_get.
    destruct (eqb_spec k' k) as [->|NK]; cbn [andb]; [|exact C].
    destruct (eqb_spec n' n) as [->|NN].
    - rewrite dget_ddel_same, LA; [reflexivity|]. apply (W3 (base_name (cur s)) t).
      apply in_or_app. right. left. reflexivity.
    - rewrite dget_ddel_other by exact NN. exact C.
  Qed.

  Lemma cur_rem s k n : cur (fst (rem_def s k n)) = cur s.
  Proof.
    unfold rem_def. destruct (dmem _ _); [|reflexivity]. destruct (dget _ _); [|reflexivity].
    destruct (dmem _ _); reflexivity.
  Qed.

  Lemma keys_fdefs_add s k n v :
    incl (keys (fdefs (add_def s k n v))) (base_name (cur s) :: keys (fdefs s)).
  Proof.
    intros f I. unfold add_def in I. cbn [fdefs] in I. rewrite keys_dset in I.
    destruct (dmem _ _); [right; exact I|]. apply in_app_or in I.
    destruct I as [I|[<-|[]]]; [right; exact I|left; reflexivity].
  Qed.

  Lemma keys_fdefs_rem s k n : keys (fdefs (fst (rem_def s k n))) = keys (fdefs s).
  Proof.
    unfold rem_def. destruct (dmem _ _); [|reflexivity].
    destruct (dget (fdefs s) _) eqn:G; [|reflexivity].
    destruct (dmem _ _); [|reflexivity]. cbn [fst fdefs]. rewrite keys_dset.
    unfold dmem. rewrite G. reflexivity.
  Qed.

  Lemma one_pass_run h : forall s seen past,
    wfs s -> cur_last s -> consistent s ->
    incl (keys (fdefs s)) (base_name (cur s) :: seen) ->
    (forall f k n v, defined_in s f k n = Some v -> exists w, In (f, k, n, w) past) ->
    one_pass seen (base_name (cur s)) h -> local_removals past (base_name (cur s)) h ->
    consistent (run s h) /\
    (forall f k n v, f <> base_name (cur s) -> In f seen -> 
        defined_in s f k n = Some v -> defined_in (run s h) f k n = Some v).
  Proof.
    induction h as [|o h IH]; intros s seen past W CL C K P OP LR.
    { split; [exact C|auto]. }
    destruct o as [k n v|k n|g]; cbn [one_pass local_removals] in OP, LR.
    - change (run s (Add k n v :: h)) with (run (add_def s k n v) h).
      destruct (IH (add_def s k n v) seen (past ++ [(base_name (cur s), k, n, v)])) as [A B].
      + apply wfs_add; exact W.
      + apply cur_last_add; exact CL.
      + apply consistent_add; assumption.
      + intros f I. apply keys_fdefs_add in I. destruct I as [<-|I]; [left; reflexivity|apply K; exact I].
      + intros f k' n' v' D. rewrite defined_in_add in D.
        destruct (eqb f (base_name (cur s)) && (eqb k' k && eqb n' n)) eqn:EQ.
        * rewrite !andb_true_iff in EQ. destruct EQ as (E1 & E2 & E3).
          apply eqb_eq in E1, E2, E3. subst. injection D as <-. exists v.
          apply in_or_app. right. left. reflexivity.
        * destruct (P _ _ _ _ D) as [w I]. exists w. apply in_or_app. left. exact I.
      + exact OP.
      + exact LR.
      + split; [exact A|]. intros f k' n' v' NF IF D. apply B; [exact NF|exact IF|].
        rewrite defined_in_add. apply eqb_false in NF. rewrite NF. exact D.
    - change (run s (Rem k n :: h)) with (run (fst (rem_def s k n)) h).
      destruct LR as [L1 L2].
      destruct (IH (fst (rem_def s k n)) seen past) as [A B].
      + apply wfs_rem; exact W.
      + apply cur_last_rem; exact CL.
      + apply consistent_rem; try assumption. intros f NF.
        destruct (defined_in s f k n) as [v|] eqn:D; [|reflexivity].
        destruct (P _ _ _ _ D) as [w I]. exfalso. apply NF. eapply L1. exact I.
      + rewrite keys_fdefs_rem, cur_rem. exact K.
      + intros f k' n' v' D. rewrite defined_in_rem in D by exact W.
        destruct (_ && _ && _); [discriminate|]. eapply P. exact D.
      + rewrite cur_rem. exact OP.
      + rewrite cur_rem. exact L2.
      + rewrite cur_rem in B. split; [exact A|]. intros f k' n' v' NF IF D. apply B; [exact NF|exact IF|].
        rewrite defined_in_rem by exact W. apply eqb_false in NF. rewrite NF. exact D.
    - change (run s (Switch g :: h)) with (run (set_cur s g) h). destruct OP as [O1 O2].
      fold (base_name g) in O1, O2, LR.
      assert (CL' : cur_last (set_cur s g)).
      { destruct O1 as [E|NI].
        - destruct CL as (a & N & X). exists a. cbn [set_cur cur fdefs]. rewrite E. auto.
        - exists (fdefs s). cbn [set_cur cur fdefs]. split; [|left; reflexivity].
          intros I. apply NI. apply K. exact I. }
      destruct (eqb_spec (base_name g) (base_name (cur s))) as [E|NE].
      + destruct (IH (set_cur s g) seen past) as [A B]; try assumption.
        * cbn [set_cur cur fdefs]. rewrite E. exact K.
        * split; [exact A|]. intros f k n v NF IF D. apply B; [|exact IF|exact D].
          cbn [set_cur cur]. rewrite E. exact NF.
      + destruct (IH (set_cur s g) (base_name (cur s) :: seen) past) as [A B]; try assumption.
        * intros f I. right. apply K. exact I.
        * split; [exact A|]. intros f k n v NF IF D. apply B; [|right; exact IF|exact D].
          cbn [set_cur cur]. intros ->. destruct O1 as [O1|O1]; [contradiction|].
          apply O1. right. exact IF.
  Qed.

  (** ** copy_from *)
  Lemma keys_run h : forall s,
    no_removal h ->
    keys (fdefs (run s h)) = first_seen (keys (fdefs s)) (additions (base_name (cur s)) h).
  Proof.
    induction h as [|o h IH]; intros s NR; [reflexivity|].
    assert (NR' : no_removal h) by (intros a b I; apply (NR a b); right; exact I).
    destruct o as [k n v|k n|g].
    - change (run s (Add k n v :: h)) with (run (add_def s k n v) h). rewrite IH by exact NR'.
      cbn [additions first_seen]. f_equal. unfold add_def. cbn [fdefs]. rewrite keys_dset.
      destruct (dmem (fdefs s) (base_name (cur s))) eqn:M.
      + apply dmem_In in M. apply mem_In in M. rewrite M. reflexivity.
      + assert (N : ~ In (base_name (cur s)) (keys (fdefs s))).
        { rewrite <- dmem_In, M. discriminate. }
        apply mem_not_In in N. rewrite N. reflexivity.
    - exfalso. apply (NR k n). left. reflexivity.
    - change (run s (Switch g :: h)) with (run (set_cur s g) h). rewrite IH by exact NR'. reflexivity.
  Qed.

  Lemma before_NoDup {A} (x y : A) a c : NoDup (a ++ y :: c) -> before x y (a ++ y :: c) -> ~ In x c.
  Proof.
    intros ND (p & q & r & E) I.
    assert (a = p ++ x :: q /\ c = r) as [-> ->].
    { replace (p ++ x :: q ++ y :: r) with ((p ++ x :: q) ++ y :: r) in E
        by (rewrite <- app_assoc; reflexivity).
      remember (p ++ x :: q) as a' eqn:Ha. clear Ha I p q x.
      revert a' E. induction a as [|z a IH]; intros [|z' a'] E; simpl in *.
      - injection E as ->. auto.
      - injection E as E1 E2. exfalso. subst z'. apply NoDup_cons_iff in ND. apply (proj1 ND).
        rewrite E2. apply in_or_app. right. left. reflexivity.
      - injection E as E1 E2. exfalso. subst z. apply NoDup_cons_iff in ND. apply (proj1 ND).
        apply in_or_app. right. left. reflexivity.
      - injection E as E1 E2. apply NoDup_cons_iff in ND. destruct (IH (proj2 ND) _ E2) as [-> ->].
        subst. auto. }
    rewrite <- app_assoc in ND. apply NoDup_remove_2 in ND. apply ND.
    apply in_or_app. right. apply (in_or_app q). right. right. exact I.
  Qed.

  Lemma copy_values h k n :
    no_removal h -> last_is_newest (additions None h) k n ->
    lastf (fdefs (run init_store h)) k n None = defined (run init_store h) k n.
  Proof.
    intros NR LN. destruct (history_tables h NR) as (G & F & EQ).
    pose proof (wfs_reach h) as (W1 & W2 & W3 & W4).
    pose proof (keys_run h init_store NR) as KR. cbn [init_store cur base_name option_map fdefs keys map] in KR.
    remember (run init_store h) as s eqn:Hs.
    destruct (defined s k n) as [v|] eqn:D.
    - pose proof (proj1 (G k n v) D) as L.
      destruct L as (a & f & k' & n' & b & E & [-> ->] & N).
      assert (DF : defined_in s f k n = Some v).
      { apply F. exists a, f, k, n, b. split; [exact E|]. split; [simpl; auto|].
        intros e I C. apply (N e I). destruct e as [[[f' k''] n''] w]. simpl in *. tauto. }
      unfold defined_in in DF. destruct (dget (fdefs s) f) as [t|] eqn:GF; [|discriminate].
      apply dget_In in GF. apply in_split in GF. destruct GF as (fa & fb & EF).
      rewrite EF, lastf_app. cbn [lastf]. rewrite DF. apply lastf_none.
      intros g u I. destruct (dget (u k) n) as [w|] eqn:DU; [|reflexivity]. exfalso.
      assert (IG : In (g, u) (fdefs s)) by (rewrite EF; apply in_or_app; right; right; exact I).
      assert (DG : defined_in s g k n = Some w).
      { unfold defined_in. rewrite (NoDup_dget _ _ _ W2 IG). exact DU. }
      apply F in DG. destruct (latest_In _ _ _ DG) as (g' & k' & n' & IA & (-> & -> & ->)).
      assert (KE : keys (fdefs s) = keys fa ++ f :: keys fb).
      { rewrite EF. unfold keys. rewrite map_app. reflexivity. }
      assert (IK : In g (keys fb)) by (apply in_map_iff; exists (g, u); auto).
      rewrite KE in W2.
      destruct (LN a f v b E N g w IA) as [->|B].
      + apply NoDup_remove_2 in W2. apply W2. apply in_or_app. right. exact IK.
      + rewrite <- KR, KE in B. exact (before_NoDup _ _ _ _ W2 B IK).
    - apply lastf_none. intros f t I. destruct (dget (t k) n) as [v|] eqn:DT; [|reflexivity].
      exfalso. assert (X : exists v, defined s k n = Some v).
      { apply EQ. exists f, v. unfold defined_in. rewrite (NoDup_dget _ _ _ W2 I). exact DT. }
      destruct X as [w X]. congruence.
  Qed.

  Lemma copy_from h :
    let s := run init_store h in
    let r := import_dict init_store (to_data (fdefs s)) in
    snd r = None
    /\ (forall f k n, defined_in (fst r) f k n = defined_in s f k n)
    /\ (no_removal h -> forall k n, last_is_newest (additions None h) k n ->
           defined (fst r) k n = defined s k n).
  Proof.
    intros s r. destruct (import_tables init_store s (wfs_reach h)) as (A & B & C).
    fold r in A, B, C. split; [exact A|]. split.
    - intros f k n. rewrite C. destruct (defined_in s f k n); reflexivity.
    - intros NR k n LN. rewrite B. apply copy_values; assumption.
  Qed.

  Lemma copy_one_pass h :
    one_pass [] None h -> local_removals [] None h ->
    let s := run init_store h in
    let r := import_dict init_store (to_data (fdefs s)) in
    snd r = None
    /\ (forall k n, defined (fst r) k n = defined s k n)
    /\ (forall f k n, defined_in (fst r) f k n = defined_in s f k n).
  Proof.
    intros OP LR s r. destruct (import_tables init_store s (wfs_reach h)) as (A & B & C).
    fold r in A, B, C. split; [exact A|]. split.
    - intros k n. rewrite B.
      destruct (one_pass_run h init_store [] []) as [X _].
      + apply wfs_init.
      + exists []. cbn. auto.
      + intros x y. reflexivity.
      + intros x [].
      + intros g x y v D. discriminate.
      + exact OP.
      + exact LR.
      + symmetry. apply X.
    - intros f k n. rewrite C. destruct (defined_in s f k n); reflexivity.
  Qed.

  (** ** Reading a cache back *)
  Lemma lastf_some s f k n v d : wfs s -> defined_in s f k n = Some v -> lastf (fdefs s) k n d = lastf (fdefs s) k n None.
  Proof.
    intros (_ & W2 & _) D. unfold defined_in in D. destruct (dget (fdefs s) f) as [t|] eqn:G; [|discriminate].
    apply dget_In in G. apply in_split in G. destruct G as (a & b & ->).
    rewrite !lastf_app. cbn [lastf]. rewrite D. reflexivity.
  Qed.

  Lemma run_adds_keys kw s :
    (forall o, In o kw -> exists k n v, o = Add k n v) ->
    cur (run s kw) = cur s /\ incl (keys (fdefs (run s kw))) (base_name (cur s) :: keys (fdefs s)).
  Proof.
    revert s. induction kw as [|o kw IH]; intros s A.
    - split; [reflexivity|]. intros x I. right. exact I.
    - destruct (A o (or_introl eq_refl)) as (k & n & v & ->).
      change (run s (Add k n v :: kw)) with (run (add_def s k n v) kw).
      destruct (IH (add_def s k n v)) as [E I]; [intros x X; apply A; right; exact X|].
      split; [exact E|]. intros x X. apply I in X. cbn [add_def cur] in X.
      destruct X as [<-|X]; [left; reflexivity|]. apply keys_fdefs_add in X. exact X.
  Qed.

  Lemma one_pass_adds seen c kw h :
    (forall o, In o kw -> exists k n v, o = Add k n v) ->
    one_pass seen c (kw ++ h) <-> one_pass seen c h.
  Proof.
    induction kw as [|o kw IH]; intros A; [reflexivity|].
    destruct (A o (or_introl eq_refl)) as (k & n & v & ->). cbn [app one_pass]. apply IH.
    intros x X. apply A. right. exact X.
  Qed.
  Lemma local_removals_adds past c kw h :
    (forall o, In o kw -> exists k n v, o = Add k n v) ->
    local_removals past c (kw ++ h) <-> local_removals (past ++ additions c kw) c h.
  Proof.
    revert past. induction kw as [|o kw IH]; intros past A.
    - rewrite app_nil_r. reflexivity.
    - destruct (A o (or_introl eq_refl)) as (k & n & v & ->). cbn [app local_removals additions].
      rewrite IH by (intros x X; apply A; right; exact X). rewrite <- app_assoc. reflexivity.
  Qed.

  Lemma defined_in_keys s f k n v : defined_in s f k n = Some v -> In f (keys (fdefs s)).
  Proof.
    unfold defined_in. destruct (dget (fdefs s) f) as [t|] eqn:G; [|discriminate]. intros _.
    apply dget_keys. eauto.
  Qed.

  Lemma cache_roundtrip kw f h :
    (forall o, In o kw -> exists k n v, o = Add k n v) ->
    one_pass [] None (Switch (Some f) :: h) ->
    local_removals [] None (kw ++ Switch (Some f) :: h) ->
    let s0 := run init_store kw in
    let s := run s0 (Switch (Some f) :: h) in
    let r := import_dict s0 (to_data (fdefs s)) in
    snd r = None
    /\ (forall k n, defined (fst r) k n = defined s k n)
    /\ (forall g k n, defined_in (fst r) g k n = defined_in s g k n).
  Proof.
    intros A OP LR s0 s r.
    assert (NRkw : no_removal kw).
    { intros k n I. destruct (A _ I) as (k' & n' & v & E). discriminate. }
    assert (W : wfs s).
    { unfold s, s0. rewrite <- run_app. apply wfs_reach. }
    assert (W0 : wfs s0) by apply wfs_reach.
    destruct (import_tables s0 s W) as (I1 & I2 & I3). fold r in I1, I2, I3.
    destruct (run_adds_keys kw init_store A) as [C0 K0]. fold s0 in C0, K0. cbn in C0.
    assert (CONS : consistent s).
    { destruct (one_pass_run (kw ++ Switch (Some f) :: h) init_store [] []) as [X _].
      - apply wfs_init.
      - exists []. cbn. auto.
      - intros k n. reflexivity.
      - intros x [].
      - intros g k n v D. discriminate.
      - apply one_pass_adds; assumption.
      - exact LR.
      - rewrite run_app in X. exact X. }
    assert (PRES : forall k n v, defined_in s0 None k n = Some v -> defined_in s None k n = Some v).
    { intros k n v D. unfold s. change (run s0 (Switch (Some f) :: h)) with (run (set_cur s0 (Some f)) h).
      destruct (one_pass_run h (set_cur s0 (Some f)) [None] (additions None kw)) as [_ X].
      - exact W0.
      - exists (fdefs s0). cbn [set_cur cur fdefs]. split; [|left; reflexivity].
        intros I. apply K0 in I. destruct I as [I|[]]. discriminate.
      - cbn [set_cur]. intros k' n'. cbn [fdefs]. unfold defined. cbn [defs].
        destruct (one_pass_run kw init_store [] []) as [Y _].
        + apply wfs_init.
        + exists []. cbn. auto.
        + intros a b. reflexivity.
        + intros x [].
        + intros g a b w E. discriminate.
        + rewrite <- (app_nil_r kw). apply one_pass_adds; [exact A|exact I].
        + apply (local_removals_adds [] None kw []) in A as L. rewrite app_nil_r in L. apply L. exact I.
        + apply Y.
      - intros x X. apply K0 in X. destruct X as [<-|[]]. right. left. reflexivity.
      - intros g k' n' v' D'. apply (history_tables kw NRkw) in D'.
        destruct (latest_In _ _ _ D') as (g' & a & b & IA & (-> & -> & ->)). eauto.
      - cbn [one_pass] in OP. destruct OP as [_ OP].
        destruct (eqb_spec (option_map basename (Some f)) None) as [E|E]; [discriminate|exact OP].
      - apply local_removals_adds in LR; [|exact A]. exact LR.
      - apply X; [discriminate|left; reflexivity|exact D]. }
    assert (ONLY : forall g k n v, defined_in s0 g k n = Some v -> g = None).
    { intros g k n v D. apply defined_in_keys in D. apply K0 in D. destruct D as [<-|[]]. reflexivity. }
    split; [exact I1|]. split.
    - intros k n. rewrite I2, (CONS k n). destruct (defined s0 k n) as [v|] eqn:D; [|reflexivity].
      destruct (history_tables kw NRkw) as (_ & _ & EQ). fold s0 in EQ.
      destruct (proj1 (EQ k n)) as (g & w & DG); [eauto|].
      pose proof (ONLY _ _ _ _ DG) as ->. eapply lastf_some; [exact W|]. apply PRES. exact DG.
    - intros g k n. rewrite I3. destruct (defined_in s g k n) as [v|] eqn:D; [reflexivity|].
      destruct (defined_in s0 g k n) as [v|] eqn:D0; [|reflexivity].
      pose proof (ONLY _ _ _ _ D0) as ->. apply PRES in D0. congruence.
  Qed.

  (** ** Validity of a cache *)
  Context (veq : V -> V -> bool).
  (** ** Options *)
  Lemma dict_eqb_iff {A K} `{Eqb K} (eq : A -> A -> bool) (a b : dict K A) :
    NoDup (keys a) -> NoDup (keys b) ->
    (dict_eqb eq a b = true <-> same_map (fun x y => eq x y = true) a b).
  Proof.
    intros NA NB. unfold dict_eqb. rewrite andb_true_iff, forallb_forall, Nat.eqb_eq. split.
    - intros [L F] k. destruct (dget a k) as [x|] eqn:GA.
      + apply dget_In in GA. specialize (F _ GA). cbn [fst snd] in F. destruct (dget b k); [exact F|discriminate].
      + destruct (dget b k) as [y|] eqn:GB; [|exact I].
        assert (IA : incl (keys a) (keys b)).
        { intros x X. apply dget_keys in X. destruct X as [v X]. apply dget_In in X. specialize (F _ X).
          cbn [fst snd] in F. destruct (dget b x) eqn:GX; [|discriminate]. apply dget_keys. eauto. }
        assert (IB : incl (keys b) (keys a)).
        { apply NoDup_length_incl; auto. unfold keys. rewrite !map_length. lia. }
        apply dget_None in GA. apply GA. apply IB. apply dget_keys. eauto.
    - intros S. split.
      + assert (I1 : incl (keys a) (keys b)).
        { intros x X. apply dget_keys in X. destruct X as [v X]. specialize (S x). rewrite X in S.
          destruct (dget b x) eqn:GX; [|destruct S]. apply dget_keys. eauto. }
        assert (I2 : incl (keys b) (keys a)).
        { intros x X. apply dget_keys in X. destruct X as [v X]. specialize (S x). rewrite X in S.
          destruct (dget a x) eqn:GX; [|destruct S]. apply dget_keys. eauto. }
        pose proof (NoDup_incl_length NA I1). pose proof (NoDup_incl_length NB I2).
        unfold keys in *. rewrite !map_length in *. lia.
      + intros [k x] I. cbn [fst snd]. specialize (S k). rewrite (NoDup_dget _ _ _ NA I) in S.
        destruct (dget b k); [exact S|destruct S].
  Qed.


  Lemma same_map_impl {K A} `{Eqb K} (R S : A -> A -> Prop) (a b : dict K A) :
    (forall k x y, In (k, x) a -> In (k, y) b -> R x y -> S x y) -> same_map R a b -> same_map S a b.
  Proof.
    intros I M k. specialize (M k). destruct (dget a k) eqn:GA, (dget b k) eqn:GB; auto.
    apply dget_In in GA, GB. eapply I; eauto.
  Qed.

  Lemma same_replace_iff (a b : option (dict str str)) :
    (forall d, a = Some d -> NoDup (keys d)) -> (forall d, b = Some d -> NoDup (keys d)) ->
    (option_eqb (dict_eqb eqb) a b = true <-> same_replace a b).
  Proof.
    intros NA NB. unfold same_replace, option_eqb. destruct a as [x|], b as [y|].
    - rewrite dict_eqb_iff by auto. split; apply same_map_impl; intros k u v _ _ E.
      + apply eqb_eq. exact E.
      + subst. apply eqb_refl.
    - split; [discriminate|intros []].
    - split; [discriminate|intros []].
    - tauto.
  Qed.

  Lemma opts_eqb_iff a b : wf_opts a -> wf_opts b -> (opts_eqb veq a b = true <-> same_opts veq a b).
  Proof.
    intros (A1 & A2 & A3 & A4) (B1 & B2 & B3 & B4). unfold opts_eqb, same_opts.
    rewrite !andb_true_iff, !dict_eqb_iff by assumption. rewrite (eqb_true (o_files a)).
    split.
    - intros [[K F] R]. split; [|split; [exact F|]].
      + revert K. apply same_map_impl. intros k x y IX IY E. apply dict_eqb_iff in E; eauto.
      + revert R. apply same_map_impl. intros k x y IX IY E. apply same_replace_iff in E; auto;
          intros d ->; eauto.
    - intros (K & F & R). split; [split; [|exact F]|].
      + revert K. apply same_map_impl. intros k x y IX IY E. apply dict_eqb_iff; eauto.
      + revert R. apply same_map_impl. intros k x y IX IY E. apply same_replace_iff; auto;
          intros d ->; eauto.
  Qed.

  (** ** Loading *)

  Lemma times_ok (fs : fsys V) c files :
    existsb (fun f => isfile fs f && (mtime fs c <? mtime fs f)%Z) files = false
    <-> forall f, In f files -> isfile fs f = true -> (mtime fs f <= mtime fs c)%Z.
  Proof.
    split.
    - intros E f I F. destruct (Z_le_gt_dec (mtime fs f) (mtime fs c)) as [L|G]; [exact L|].
      assert (X : existsb (fun f => isfile fs f && (mtime fs c <? mtime fs f)%Z) files = true).
      { apply existsb_exists. exists f. rewrite F. cbn [andb]. split; [exact I|]. apply Z.ltb_lt. lia. }
      congruence.
    - intros H. destruct (existsb _ files) eqn:E; [|reflexivity]. apply existsb_exists in E.
      destruct E as (f & I & E). apply andb_true_iff in E. destruct E as [F L].
      apply Z.ltb_lt in L. specialize (H f I F). lia.
  Qed.

  Lemma load_cache_valid (fs : fsys V) moddir files o cf s s' :
    wf_opts o -> wf_disk fs ->
    load_cache veq fs moddir files o true cf s = (s', true) ->
    exists c p d, cache_at fs moddir cf c /\ unpickle fs c = Some p
      /\ valid_cache veq fs files o c p /\ p_defs p = Some d /\ import_dict s d = (s', None).
  Proof.
    intros WO WD. unfold load_cache.
    assert (FOUND : forall c, (if isfile fs cf then Some cf
               else if isfile fs (path_join (path_join moddir $"headers") cf)
                    then Some (path_join (path_join moddir $"headers") cf) else None) = Some c ->
              cache_at fs moddir cf c).
    { intros c. destruct (isfile fs cf) eqn:F1.
      - intros E. injection E as <-. split; auto.
      - destruct (isfile fs (path_join _ cf)) eqn:F2; [|discriminate].
        intros E. injection E as <-. split; auto. }
    cbv zeta. destruct (if isfile fs cf then _ else _) as [c|]; [|discriminate].
    specialize (FOUND c eq_refl). cbn [andb].
    destruct (existsb _ files) eqn:EX; [discriminate|].
    pose proof (proj1 (times_ok fs c files) EX) as TM.
    destruct (unpickle fs c) as [p|] eqn:U; [|discriminate].
    destruct (p_opts p) as [po|] eqn:PO; [|discriminate].
    destruct (opts_eqb veq po o) eqn:OE; [|discriminate].
    destruct (p_version p) as [[v|]|] eqn:PV; try discriminate.
    destruct (v <? cache_version)%Z eqn:VL; [discriminate|]. cbn [negb].
    destruct (p_defs p) as [d|] eqn:PD; [|discriminate].
    destruct (import_dict s d) as [s1 [e|]] eqn:IM; [discriminate|].
    intros E. injection E as <-. exists c, p, d.
    split; [exact FOUND|]. split; [exact U|]. split; [|split; [exact PD|exact IM]].
    split; [exact TM|]. split.
    - exists po. split; [exact PO|]. apply opts_eqb_iff; eauto.
    - exists v. split; [exact PV|]. apply Z.ltb_ge in VL. exact VL.
  Qed.

  Lemma cache_at_unique (fs : fsys V) moddir cf c :
    cache_at fs moddir cf c ->
    (if isfile fs cf then Some cf
     else if isfile fs (path_join (path_join moddir $"headers") cf)
          then Some (path_join (path_join moddir $"headers") cf) else @None str) = Some c.
  Proof.
    intros (F & [->|[F0 ->]]).
    - rewrite F. reflexivity.
    - rewrite F0, F. reflexivity.
  Qed.

  Lemma load_cache_invalid (fs : fsys V) moddir files o cf s c p :
    wf_opts o -> wf_disk fs ->
    cache_at fs moddir cf c -> unpickle fs c = Some p -> ~ valid_cache veq fs files o c p ->
    load_cache veq fs moddir files o true cf s = (s, false).
  Proof.
    intros WO WD CA U NV. unfold load_cache. cbv zeta. rewrite (cache_at_unique _ _ _ _ CA). cbn [andb].
    destruct (existsb _ files) eqn:EX; [reflexivity|].
    pose proof (proj1 (times_ok fs c files) EX) as TM. rewrite U.
    destruct (p_opts p) as [po|] eqn:PO; [|reflexivity].
    destruct (opts_eqb veq po o) eqn:OE; [|reflexivity].
    destruct (p_version p) as [[v|]|] eqn:PV; try reflexivity.
    destruct (v <? cache_version)%Z eqn:VL; [reflexivity|]. exfalso. apply NV.
    split; [exact TM|].
    split; [exists po; split; [exact PO|apply opts_eqb_iff; eauto]|]. exists v. split; [exact PV|]. apply Z.ltb_ge in VL. exact VL.
  Qed.

  Lemma load_cache_accepts (fs : fsys V) moddir files o cf s c p d (check : bool) :
    wf_opts o -> wf_disk fs ->
    cache_at fs moddir cf c -> unpickle fs c = Some p ->
    (check = true -> valid_cache veq fs files o c p) ->
    p_defs p = Some d -> complete d ->
    load_cache veq fs moddir files o check cf s = (fst (import_dict s d), true).
  Proof.
    intros WO WD CA U VC PD CD. unfold load_cache. cbv zeta. rewrite (cache_at_unique _ _ _ _ CA).
    rewrite U, PD. pose proof (import_dict_run s d CD) as IM.
    destruct (import_dict s d) as [s1 e] eqn:E. injection IM as -> ->. cbn [fst].
    destruct check; cbn [andb]; [|reflexivity].
    destruct (VC eq_refl) as (TM & (po & PO & OE) & (v & PV & VL)).
    apply opts_eqb_iff in OE; [|eauto|exact WO].
    apply times_ok in TM. rewrite TM, PO, OE, PV. apply Z.ltb_ge in VL.
    unfold cache_version. rewrite VL. reflexivity.
  Qed.

  Lemma load_cache_missing (fs : fsys V) moddir files o check cf s :
    (forall c, ~ cache_at fs moddir cf c) ->
    load_cache veq fs moddir files o check cf s = (s, false).
  Proof.
    intros N. unfold load_cache. cbv zeta.
    destruct (isfile fs cf) eqn:F1.
    - exfalso. apply (N cf). split; auto.
    - destruct (isfile fs (path_join (path_join moddir $"headers") cf)) eqn:F2; [|reflexivity].
      exfalso. eapply N. split; [exact F2|]. right. auto.
  Qed.

  Lemma load_cache_failed (fs : fsys V) moddir files o check cf s s' :
    (forall c p d, cache_at fs moddir cf c -> unpickle fs c = Some p -> p_defs p = Some d -> complete d) ->
    load_cache veq fs moddir files o check cf s = (s', false) -> s' = s.
  Proof.
    intros CD. unfold load_cache. cbv zeta.
    destruct (if isfile fs cf then Some cf
     else if isfile fs (path_join (path_join moddir $"headers") cf)
          then Some (path_join (path_join moddir $"headers") cf) else None) as [c|] eqn:FO.
    2:{ intros E. congruence. }
    assert (CA : cache_at fs moddir cf c).
    { destruct (isfile fs cf) eqn:F1.
      - injection FO as <-. split; auto.
      - destruct (isfile fs (path_join _ cf)) eqn:F2; [|discriminate].
        injection FO as <-. split; auto. }
    destruct (check && _); [congruence|].
    destruct (unpickle fs c) as [p|] eqn:U; [|congruence].
    destruct (if check then _ else true); [|congruence].
    destruct (p_defs p) as [d|] eqn:PD; [|congruence].
    rewrite import_dict_run by (eapply CD; eauto). congruence.
  Qed.

  Lemma cache_reload (fs : fsys V) moddir files o o' cf c kw f h (check : bool) :
    (forall x, In x kw -> exists k n v, x = Add k n v) ->
    one_pass [] None (Switch (Some f) :: h) ->
    local_removals [] None (kw ++ Switch (Some f) :: h) ->
    let s0 := run init_store kw in
    let writer := run s0 (Switch (Some f) :: h) in
    wf_opts o' -> wf_disk fs ->
    cache_at fs moddir cf c -> unpickle fs c = Some (write_cache o writer) ->
    (check = true -> same_opts veq o o'
       /\ forall f, In f files -> isfile fs f = true -> (mtime fs f <= mtime fs c)%Z) ->
    exists reader,
      load_cache veq fs moddir files o' check cf s0 = (reader, true)
      /\ (forall k n, defined reader k n = defined writer k n)
      /\ (forall g k n, defined_in reader g k n = defined_in writer g k n).
  Proof.
    intros A OP LR s0 writer WO WD CA U CH.
    destruct (cache_roundtrip kw f h A OP LR) as (_ & R2 & R3).
    eexists. split; [|split; [exact R2|exact R3]].
    apply (load_cache_accepts fs moddir files o' cf s0 c (write_cache o writer));
      [exact WO|exact WD|exact CA|exact U| |reflexivity|apply complete_to_data].
    - intros C. destruct (CH C) as [SO TM]. split; [exact TM|]. split.
      + exists o. split; [reflexivity|exact SO].
      + exists 2%Z. split; [reflexivity|]. lia.
  Qed.

  Lemma cache_processed (fs1 fs : fsys V) md1 moddir fl1 files o o' cf1 cf c kw f h (ck1 check : bool) parse' writer p :
    (forall x, In x kw -> exists k n v, x = Add k n v) ->
    one_pass [] None (Switch (Some f) :: h) ->
    local_removals [] None (kw ++ Switch (Some f) :: h) ->
    let s0 := run init_store kw in
    let parse := fun s => run s (Switch (Some f) :: h) in
    load_cache veq fs1 md1 fl1 o ck1 cf1 s0 = (s0, false) ->
    process_all veq parse fs1 md1 fl1 o (Some cf1) ck1 s0 = (writer, Some p) ->
    wf_opts o' -> wf_disk fs ->
    cache_at fs moddir cf c -> unpickle fs c = Some p ->
    (check = true -> same_opts veq o o'
       /\ forall f, In f files -> isfile fs f = true -> (mtime fs f <= mtime fs c)%Z) ->
    writer = parse s0
    /\ exists reader,
      process_all veq parse' fs moddir files o' (Some cf) check s0 = (reader, None)
      /\ (forall k n, defined reader k n = defined writer k n)
      /\ (forall g k n, defined_in reader g k n = defined_in writer g k n).
  Proof.
    intros A OP LR s0 parse NL PA WO WD CA U CH. unfold process_all in PA. rewrite NL in PA.
    injection PA as E1 E2. split; [symmetry; exact E1|].
    destruct (cache_reload fs moddir files o o' cf c kw f h check A OP LR WO WD CA) as (reader & L & D & DI).
    - rewrite U, <- E2. reflexivity.
    - exact CH.
    - exists reader. split; [|subst writer; split; [exact D|exact DI]].
      unfold process_all. fold s0 in L. rewrite L. reflexivity.
  Qed.

  Lemma ctor_copy (a : ctor_args V) h :
    a_kw a = [] -> a_copy a = [run init_store h] ->
    let s := run init_store h in
    exists r, ctor a = Ok r
      /\ (forall f k n, defined_in r f k n = defined_in s f k n)
      /\ (no_removal h -> forall k n, last_is_newest (additions None h) k n -> defined r k n = defined s k n).
  Proof.
    intros K C s. destruct (copy_from h) as (A & B & D). unfold ctor. rewrite K, C. cbn [add_kw bind copy_all].
    fold s in A, B, D |- *. destruct (import_dict init_store (to_data (fdefs s))) as [r e]. cbn [fst snd] in A, B, D.
    subst e. exists r. split; [reflexivity|]. split; [exact B|exact D].
  Qed.
  Lemma ctor_copy_one_pass (a : ctor_args V) h :
    a_kw a = [] -> a_copy a = [run init_store h] ->
    one_pass [] None h -> local_removals [] None h ->
    let s := run init_store h in
    exists r, ctor a = Ok r
      /\ (forall k n, defined r k n = defined s k n)
      /\ (forall f k n, defined_in r f k n = defined_in s f k n).
  Proof.
    intros K C OP LR s. destruct (copy_one_pass h OP LR) as (A & B & D). unfold ctor. rewrite K, C. cbn [add_kw bind copy_all].
    fold s in A, B, D |- *. destruct (import_dict init_store (to_data (fdefs s))) as [r e]. cbn [fst snd] in A, B, D.
    subst e. exists r. split; [reflexivity|]. split; [exact B|exact D].
  Qed.

  Lemma kind_of_name t k : kind_of t = Some k <-> kind_name k = t.
  Proof.
    unfold kind_of. split.
    - intros F. apply find_some in F. destruct F as [_ F]. apply eqb_eq in F. exact F.
    - intros <-. destruct k; reflexivity.
  Qed.
  Lemma add_names k d : forall s, NoDup (keys d) ->
    let s' := fold_left (fun s p => add_def s k (fst p) (snd p)) d s in
    forall k' n, defined s' k' n
      = if eqb k' k then match dget d n with Some v => Some v | None => defined s k' n end else defined s k' n.
  Proof.
    induction d as [|[m v] d IH]; intros s ND s' k' n; cbn [fold_left] in s'.
    - cbn [dget]. destruct (eqb k' k); reflexivity.
    - inversion ND as [|? ? N ND']; subst. unfold s'. rewrite (IH _ ND'). cbn [fst snd]. rewrite defined_add.
      cbn [dget]. destruct (eqb_spec k' k) as [->|NE].
      + cbn [andb]. destruct (eqb_spec n m) as [->|NM].
        * assert (D : dget d m = None) by (apply dget_None; exact N). rewrite D. reflexivity.
        * reflexivity.
      + reflexivity.
  Qed.
  Lemma add_kw_defined kw : forall s, NoDup (keys kw) -> (forall t d, In (t, d) kw -> NoDup (keys d)) ->
    (forall t d, In (t, d) kw -> d <> [] -> exists k, kind_name k = t) ->
    exists s', add_kw s kw = Ok s'
      /\ forall k n, defined s' k n
         = match dget kw (kind_name k) with
           | Some d => match dget d n with Some v => Some v | None => defined s k n end
           | None => defined s k n
           end.
  Proof.
    induction kw as [|[t d] kw IH]; intros s ND NDs KN; cbn [add_kw].
    - exists s. split; [reflexivity|]. reflexivity.
    - inversion ND as [|? ? N ND']; subst.
      assert (A1 : forall t d, In (t, d) kw -> NoDup (keys d)) by (intros; eapply NDs; right; eauto).
      assert (A2 : forall t d, In (t, d) kw -> d <> [] -> exists k, kind_name k = t) by (intros; eapply KN; eauto; right; eauto).
      destruct (kind_of t) as [k0|] eqn:KO.
      + apply kind_of_name in KO. subst t.
        destruct (IH (fold_left (fun s p => add_def s k0 (fst p) (snd p)) d s) ND' A1 A2) as (s' & E & D).
        exists s'. split; [exact E|]. intros k n. rewrite D.
        rewrite (add_names k0 d s (NDs _ _ (or_introl eq_refl))). cbn [dget].
        destruct (eqb_spec (kind_name k) (kind_name k0)) as [EK|NE].
        * assert (k = k0) as -> by (apply (f_equal kind_of) in EK; destruct k, k0; try reflexivity; discriminate EK).
          assert (X : dget kw (kind_name k0) = None) by (apply dget_None; exact N).
          rewrite X, eqb_refl. destruct (dget d n); reflexivity.
        * assert (X : eqb k k0 = false) by (destruct (eqb_spec k k0) as [->|]; [congruence|reflexivity]).
          rewrite X. reflexivity.
      + destruct d as [|x d].
        * destruct (IH s ND' A1 A2) as (s' & E & D). exists s'. split; [exact E|]. intros k n. rewrite D. cbn [dget].
          destruct (eqb_spec (kind_name k) t) as [<-|]; [|reflexivity].
          exfalso. assert (KO' : kind_of (kind_name k) = Some k) by (apply kind_of_name; reflexivity). congruence.
        * exfalso. destruct (KN t (x :: d) (or_introl eq_refl)) as (k & E); [discriminate|].
          apply kind_of_name in E. congruence.
  Qed.
  Lemma ctor_keywords (a : ctor_args V) :
    a_copy a = [] -> NoDup (keys (a_kw a)) -> (forall t d, In (t, d) (a_kw a) -> NoDup (keys d)) ->
    ((forall t d, In (t, d) (a_kw a) -> d <> [] -> exists k, kind_name k = t) ->
     exists s, ctor a = Ok s
       /\ forall k n, defined s k n = match dget (a_kw a) (kind_name k) with Some d => dget d n | None => None end)
    /\ (forall t d, In (t, d) (a_kw a) -> d <> [] -> (forall k, kind_name k <> t) -> ctor a = Err KeyError).
  Proof.
    intros C ND NDs. unfold ctor. rewrite C. split.
    - intros KN. destruct (add_kw_defined (a_kw a) init_store ND NDs KN) as (s & E & D).
      exists s. rewrite E. split; [reflexivity|]. intros k n. rewrite D.
      destruct (dget (a_kw a) (kind_name k)) as [d|]; [|reflexivity]. destruct (dget d n); reflexivity.
    - intros t d I NE U. clear ND NDs. generalize (@init_store V). induction (a_kw a) as [|[t' d'] kw IH]; intros s; [destruct I|].
      cbn [add_kw]. destruct I as [I|I].
      + injection I as -> ->. destruct (kind_of t) as [k|] eqn:K; [apply kind_of_name in K; destruct (U _ K)|].
        destruct d; [congruence|]. reflexivity.
      + destruct (kind_of t') as [k|]; [apply IH; exact I|]. destruct d'; [apply IH; exact I|reflexivity].
  Qed.

  Lemma replace_dict r fs : forall d,
    (forall n, dget (fold_left (fun d f => dset d (basename f) r) fs d) n
               = if existsb (fun f => eqb n (basename f)) fs then Some r
                 else dget d n : option (option (dict str str)))
    /\ (NoDup (keys d) -> NoDup (keys (fold_left (fun d f => dset d (basename f) r) fs d))).
  Proof.
    induction fs as [|f fs IH]; intros d; [split; [reflexivity|auto]|]. cbn [fold_left existsb].
    destruct (IH (dset d (basename f) r)) as [A B]. split.
    - intros n. rewrite A, dget_dset. destruct (existsb _ fs); [rewrite orb_true_r; reflexivity|].
      rewrite orb_false_r. reflexivity.
    - intros ND. apply B. apply NoDup_dset. exact ND.
  Qed.


  Lemma ctor_opts_eq (a b : ctor_args V) :
    NoDup (keys (a_kw a)) -> NoDup (keys (a_kw b)) ->
    (forall k d, In (k, d) (a_kw a ++ a_kw b) -> NoDup (keys d)) ->
    (forall d, a_replace a = Some d \/ a_replace b = Some d -> NoDup (keys d)) ->
    (opts_eqb veq (ctor_opts a) (ctor_opts b) = true
     <-> same_map (same_map (fun x y => veq x y = true)) (a_kw a) (a_kw b)
         /\ map basename (a_files a) = map basename (a_files b)
         /\ (a_files a <> [] -> same_replace (a_replace a) (a_replace b))).
  Proof.
    intros N1 N2 N3 N4.
    destruct (replace_dict (a_replace a) (a_files a) []) as [RA NA].
    destruct (replace_dict (a_replace b) (a_files b) []) as [RB NB].
    assert (W : forall c, c = a \/ c = b -> wf_opts (ctor_opts c)).
    { intros c C. split; [destruct C as [->| ->]; assumption|].
      destruct (replace_dict (a_replace c) (a_files c) []) as [RC NC].
      assert (NDC : NoDup (keys (o_replace (ctor_opts c)))) by (apply NC; constructor).
      split; [exact NDC|]. split.
      - intros k d I. apply (N3 k). apply in_or_app. destruct C as [->| ->]; auto.
      - intros k d I. apply (NoDup_dget _ _ _ NDC) in I. cbn [ctor_opts o_replace] in I.
        rewrite RC in I. destruct (existsb _ (a_files c)); [|discriminate].
        apply N4. destruct C as [->| ->]; [left|right]; congruence. }
    rewrite opts_eqb_iff by (apply W; auto). unfold same_opts. cbn [ctor_opts o_kw o_files o_replace].
    assert (EX : forall fs n, existsb (fun f => eqb n (basename f)) fs = mem n (map basename fs)).
    { intros fs n. unfold mem. induction fs as [|f fs IH]; [reflexivity|]. cbn [map existsb]. rewrite IH. reflexivity. }
    split.
    - intros (K & F & R). split; [exact K|]. split; [exact F|].
      intros NE. destruct (a_files a) as [|f fs] eqn:FA; [congruence|].
      specialize (R (basename f)). rewrite RA, RB, !EX in R.
      rewrite <- F in R. assert (M : mem (basename f) (map basename (f :: fs)) = true)
        by (apply mem_In; left; reflexivity). rewrite M in R. exact R.
    - intros (K & F & R). split; [exact K|]. split; [exact F|].
      intros n. rewrite RA, RB, !EX, <- F. destruct (mem n (map basename (a_files a))) eqn:M; [|exact I].
      apply R. intros NIL. rewrite NIL in M. discriminate.
  Qed.
End Store.
