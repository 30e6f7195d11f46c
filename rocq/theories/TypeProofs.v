(** Proofs about [Type]: resolution of typedefs, fundamental types, equality. *)
From Coq Require Import Ascii String Bool Arith ZArith Lia List.
Import ListNotations.
From Verif Require Import PyBase PyBaseFacts PyStr PyStrFacts TypeModel TypeSpec WordFacts.

(** * Fundamental types *)

Lemma word_iff cf w : In w (type_words cf) <-> known_word cf w.
Proof.
  assert (X : forall (l k : list str), forallb (fun x => mem x k) l = true -> In w l -> In w k).
  { intros l k F J. rewrite forallb_forall in F. apply mem_In. apply F. exact J. }
  unfold type_words, known_word. rewrite !in_app_iff. unfold num_types. rewrite !in_app_iff. split.
  - intros [[I|[I|I]]|[I|[I|[I|I]]]].
    + left. revert I. apply X. vm_compute. reflexivity.
    + right. left. destruct (py312 cf); [|destruct I]. destruct I as [<-|[]]. split; reflexivity.
    + right. right. left. destruct (win32 cf); [|destruct I]. destruct I as [<-|[]]. split; reflexivity.
    + left. revert I. apply X. vm_compute. reflexivity.
    + left. revert I. apply X. vm_compute. reflexivity.
    + left. revert I. apply X. vm_compute. reflexivity.
    + right. right. right. exact I.
  - intros [I|[[E ->]|[[E ->]|I]]].
    + assert (J : In w ([$"int"; $"float"; $"double"; $"int8_t"; $"uint8_t"; $"int16_t"; $"uint16_t";
         $"int32_t"; $"uint32_t"; $"int64_t"; $"uint64_t"; $"size_t"; $"ssize_t"] ++ nonnum_types ++ size_modifiers ++ sign_modifiers)).
      { revert I. apply X. vm_compute. reflexivity. }
      rewrite !in_app_iff in J. destruct J as [J|[J|[J|J]]].
      * left. left. exact J.
      * right. left. exact J.
      * right. right. left. exact J.
      * right. right. right. left. exact J.
    + left. right. left. rewrite E. left. reflexivity.
    + left. right. right. rewrite E. left. reflexivity.
    + right. right. right. right. exact I.
Qed.

Lemma is_fund_iff cf s : is_fund cf s = true <-> fundamental cf s.
Proof.
  unfold is_fund, fundamental, tag_prefixes.
  destruct (starts_with $"struct " s) eqn:E1;
  [|destruct (starts_with $"union " s) eqn:E2; [|destruct (starts_with $"enum " s) eqn:E3]];
  cbv [orb].
  - split; auto. intros _. left. apply starts_with_iff in E1. destruct E1 as [r ->].
    exists $"struct ", r. split; [left|]; reflexivity.
  - split; auto. intros _. left. apply starts_with_iff in E2. destruct E2 as [r ->].
    exists $"union ", r. split; [right; left|]; reflexivity.
  - split; auto. intros _. left. apply starts_with_iff in E3. destruct E3 as [r ->].
    exists $"enum ", r. split; [right; right; left|]; reflexivity.
  - rewrite forallb_forall. split.
    + intros F. right. intros w W. apply is_word_of_split in W. apply word_iff, mem_In. auto.
    + intros [(p & r & I & ->)|F] w W.
      * exfalso. simpl in I. destruct I as [<-|[<-|[<-|[]]]].
        -- rewrite starts_with_app in E1. discriminate.
        -- rewrite starts_with_app in E2. discriminate.
        -- rewrite starts_with_app in E3. discriminate.
      * apply mem_In, word_iff. apply F. apply is_word_of_split. exact W.
Qed.

Lemma is_fund_dec cf s : {fundamental cf s} + {~ fundamental cf s}.
Proof.
  destruct (is_fund cf s) eqn:E.
  - left. apply is_fund_iff. exact E.
  - right. rewrite <- is_fund_iff. congruence.
Qed.

(** Whitespace between words is irrelevant. *)
Lemma split_ws_join sep ws :
  sep <> [] -> forallb is_space sep = true ->
  (forall w, In w ws -> w <> [] /\ forallb nonspace w = true) ->
  split_ws (join sep ws) = ws.
Proof.
  intros NE F W. induction ws as [|w ws IH]; [reflexivity|].
  destruct (W w (or_introl eq_refl)) as [NEw Fw].
  assert (IHW : split_ws (join sep ws) = ws) by (apply IH; intros; apply W; right; auto).
  destruct ws as [|w' ws].
  - simpl. rewrite <- (app_nil_r w) at 1. rewrite split_ws_run; auto.
  - rewrite join_cons by discriminate. rewrite split_ws_run; auto.
    + rewrite split_ws_lead by exact F. rewrite IHW. reflexivity.
    + destruct sep; [congruence|]. simpl in *. apply andb_true_iff in F.
      unfold nonspace. rewrite (proj1 F). reflexivity.
Qed.

(** * Resolution terminates *)

Section Resolve.
  Context {A : Type} (cf : tconf) (m : dict str (tentry A)).

  Local Notation tab_of := (typedefs m).

  Lemma mk_type_not_fuel (s : tspec A) ds qs : mk_type s ds qs <> Err OutOfFuel.
  Proof. unfold mk_type. destruct (_ =? _); discriminate. Qed.

  Lemma merge_not_fuel pq sq : merge_quals pq sq <> Err OutOfFuel.
  Proof.
    unfold merge_quals. destruct (rev pq) as [|[a|] r]; try discriminate;
      destruct sq as [|[b|] s]; discriminate.
  Qed.

  Lemma NoDup_snoc (l : list str) x : NoDup l -> ~ In x l -> NoDup (l ++ [x]).
  Proof.
    intros ND N.
    induction l as [|y l IH]; simpl.
    - repeat constructor. intros [].
    - inversion ND; subst. constructor.
      + rewrite in_app_iff. simpl. intros [I|[I|[]]]; subst; auto. apply N. left. reflexivity.
      + apply IH; auto. intros I. apply N. right. exact I.
  Qed.

  Lemma eval_fuel_enough fuel used t :
    NoDup used -> incl used (keys m) -> length m <= fuel + length used ->
    eval_fuel cf m fuel used t <> Err OutOfFuel.
  Proof.
    revert used t. induction fuel as [|f IH]; intros used [[s|t0] ds qs] ND IN L; simpl;
      try discriminate.
    - destruct (is_fund cf s); [apply mk_type_not_fuel|].
      destruct (mem s used) eqn:MU; [discriminate|].
      destruct (dget m s) as [[[ps pds pqs]|]|] eqn:G; try discriminate.
      exfalso. apply mem_not_In in MU.
      assert (NoDup (used ++ [s])) by (apply NoDup_snoc; auto).
      assert (incl (used ++ [s]) (keys m)).
      { intros x I. apply in_app_or in I. destruct I as [I|[<-|[]]]; auto.
        apply dget_keys. eauto. }
      assert (LL : length (used ++ [s]) <= length (keys m)) by (apply NoDup_incl_length; auto).
      rewrite app_length in LL. simpl in LL. unfold keys in LL. rewrite map_length in LL. lia.
    - destruct (is_fund cf s); [apply mk_type_not_fuel|].
      destruct (mem s used) eqn:MU; [discriminate|].
      destruct (dget m s) as [[[ps pds pqs]|]|] eqn:G; try discriminate.
      destruct (merge_quals pqs qs) as [qs'|e] eqn:MQ; simpl.
      2:{ intros E. injection E as ->. apply (merge_not_fuel _ _ MQ). }
      destruct (mk_type ps (pds ++ ds) qs') as [t'|e] eqn:MT; simpl.
      2:{ intros E. injection E as ->. apply (mk_type_not_fuel _ _ _ MT). }
      apply mem_not_In in MU. apply IH.
      + apply NoDup_snoc; auto.
      + intros x I. apply in_app_or in I. destruct I as [I|[<-|[]]]; auto.
        apply dget_keys. eauto.
      + rewrite app_length. simpl. lia.
  Qed.

  Lemma eval_fuel_mono k fuel used t :
    eval_fuel cf m fuel used t <> Err OutOfFuel ->
    eval_fuel cf m (fuel + k) used t = eval_fuel cf m fuel used t.
  Proof.
    revert used t. induction fuel as [|f IH]; intros used [[s|t0] ds qs] H; simpl in *.
    - destruct k; simpl; [reflexivity|]. destruct (is_fund cf s); [reflexivity|].
      destruct (mem s used); [reflexivity|].
      destruct (dget m s) as [[[ps pds pqs]|]|]; try reflexivity. congruence.
    - destruct k; reflexivity.
    - destruct (is_fund cf s); [reflexivity|].
      destruct (mem s used); [reflexivity|].
      destruct (dget m s) as [[[ps pds pqs]|]|]; try reflexivity.
      destruct (merge_quals pqs qs) as [qs'|e]; simpl in *; [|reflexivity].
      destruct (mk_type ps (pds ++ ds) qs') as [t'|e]; simpl in *; [|reflexivity].
      apply IH. exact H.
    - reflexivity.
  Qed.

  Lemma eval_type_not_fuel t : eval_type cf m t <> Err OutOfFuel.
  Proof.
    unfold eval_type. apply eval_fuel_enough.
    - constructor.
    - intros x [].
    - simpl. lia.
  Qed.

  Lemma eval_type_stable t k : eval_fuel cf m (length m + k) [] t = eval_type cf m t.
  Proof. apply eval_fuel_mono. apply eval_type_not_fuel. Qed.

  Lemma eval_any_fuel fuel t r :
    eval_fuel cf m fuel [] t = r -> r <> Err OutOfFuel -> eval_type cf m t = r.
  Proof.
    intros E N. rewrite <- (eval_type_stable t fuel). rewrite Nat.add_comm.
    rewrite eval_fuel_mono; congruence.
  Qed.

  (** * Soundness *)

  Definition wf (t : ctype A) : Prop := length (t_quals t) = 1 + length (t_decls t).

  Lemma mk_type_ok (s : tspec A) ds qs t :
    mk_type s ds qs = Ok t -> qs <> [] -> t = CT s ds qs /\ wf t.
  Proof.
    unfold mk_type. destruct qs as [|q qs]; [congruence|]. simpl.
    destruct (_ =? _) eqn:L; intros E _; [|discriminate E].
    injection E as <-. split; auto. apply Nat.eqb_eq in L. unfold wf. simpl. f_equal. exact L.
  Qed.

  Lemma mk_type_wf (s : tspec A) ds qs :
    length qs = 1 + length ds -> mk_type s ds qs = Ok (CT s ds qs).
  Proof.
    intros L. unfold mk_type. destruct qs as [|q qs]; [discriminate|].
    rewrite L, Nat.eqb_refl. reflexivity.
  Qed.

  Definition lv (q : qual) : list str := match q with Some l => l | None => [] end.

  Lemma merge_quals_ok (pq sq q : list qual) :
    merge_quals pq sq = Ok q -> map lv q = glue (map lv pq) (map lv sq) /\ q <> [].
  Proof.
    unfold merge_quals, glue. destruct (rev pq) as [|[a|] ri] eqn:E; [discriminate| |].
    - destruct sq as [|[b|] r]; try discriminate. intros X. injection X as <-.
      assert (pq = rev ri ++ [Some a]) as ->.
      { rewrite <- (rev_involutive pq), E. reflexivity. }
      split.
      + rewrite !map_app. simpl. rewrite removelast_last, last_last. reflexivity.
      + destruct (rev ri); discriminate.
    - destruct sq as [|[b|] r]; discriminate.
  Qed.

  Lemma eval_sound fuel used t r :
    wf t -> eval_fuel cf m fuel used t = Ok r ->
    exists s path b,
      t_spec t = SName s /\ chain cf tab_of s path b
      /\ t_spec r = SName (canon b)
      /\ t_decls r = chain_decls path ++ t_decls t
      /\ levels r = glue_all path t
      /\ wf r.
  Proof.
    revert used t. induction fuel as [|f IH]; intros used [[s|t0] ds qs] W E; simpl in E;
      try discriminate.
    - destruct (is_fund cf s) eqn:F.
      + apply is_fund_iff in F. rewrite mk_type_wf in E by exact W. injection E as <-.
        exists s, [], s. repeat split; auto. constructor. exact F.
      + destruct (mem s used); [discriminate|].
        destruct (dget m s) as [[[ps pds pqs]|]|]; discriminate.
    - destruct (is_fund cf s) eqn:F.
      + apply is_fund_iff in F. rewrite mk_type_wf in E by exact W. injection E as <-.
        exists s, [], s. repeat split; auto. constructor. exact F.
      + destruct (mem s used); [discriminate|].
        destruct (dget m s) as [[[ps pds pqs]|]|] eqn:G; try discriminate.
        destruct (merge_quals pqs qs) as [qs'|e] eqn:MQ; simpl in E; [|discriminate].
        destruct (mk_type ps (pds ++ ds) qs') as [t'|e] eqn:MT; simpl in E; [|discriminate].
        destruct (merge_quals_ok _ _ _ MQ) as [ML NE].
        destruct (mk_type_ok _ _ _ _ MT NE) as [-> W'].
        destruct (IH _ _ W' E) as (n & path & b & S1 & C & S2 & D & Q & WR).
        simpl in S1, D. subst ps.
        exists s, (CT (SName n) pds pqs :: path), b. repeat split; auto.
        * constructor; auto.
          -- rewrite <- is_fund_iff. congruence.
          -- unfold typedefs. rewrite G. reflexivity.
        * rewrite D. unfold chain_decls. simpl. rewrite flat_map_app. simpl.
          rewrite app_nil_r, <- app_assoc. reflexivity.
        * rewrite Q. unfold glue_all. simpl. f_equal. unfold levels. simpl. exact ML.
  Qed.

  (** * Chains are deterministic *)

  Lemma chain_det s p b : chain cf tab_of s p b ->
    forall p' b', chain cf tab_of s p' b' -> p' = p /\ b' = b.
  Proof.
    induction 1 as [s F|s n ds qs path b NF T C IH]; intros p' b' C'; inversion C'; subst.
    - auto.
    - contradiction.
    - contradiction.
    - match goal with
      | [ H1 : tab_of s = Some _, H2 : tab_of s = Some _ |- _ ] =>
          rewrite H1 in H2; injection H2 as -> -> ->
      end.
      match goal with [ H : chain _ _ _ path0 b' |- _ ] => destruct (IH _ _ H) as [-> ->] end.
      auto.
  Qed.

  Lemma chain_meets s p b x :
    chain cf tab_of s p b -> meets cf tab_of s x ->
    exists p', chain cf tab_of x p' b /\ length p' <= length p.
  Proof.
    intros C M. revert p C. induction M as [s|s n x L M IH]; intros p C.
    - exists p. auto.
    - destruct L as (NF & ds & qs & T). inversion C; subst; [contradiction|].
      match goal with [ H : tab_of s = Some _ |- _ ] =>
        rewrite T in H; injection H as <- <- <- end.
      destruct (IH _ H1) as (p' & C' & L). exists p'. split; auto. simpl. lia.
  Qed.

  Lemma chain_step_not_back s n ds qs path b :
    ~ fundamental cf s -> tab_of s = Some (CT (SName n) ds qs) ->
    chain cf tab_of n path b -> ~ meets cf tab_of n s.
  Proof.
    intros NF T C M. destruct (chain_meets _ _ _ _ C M) as (p' & C' & L).
    assert (C2 : chain cf tab_of s (CT (SName n) ds qs :: path) b) by (constructor; auto).
    destruct (chain_det _ _ _ C2 _ _ C') as [-> _]. simpl in L. lia.
  Qed.

  Lemma merge_quals_some (pq sq : list qual) :
    pq <> [] -> sq <> [] -> last pq None <> None -> hd None sq <> None ->
    exists q, merge_quals pq sq = Ok q /\ length q = length pq + length sq - 1
      /\ (Forall (fun q => q <> None) pq -> Forall (fun q => q <> None) sq ->
          Forall (fun q => q <> None) q).
  Proof.
    intros N1 N2 L1 H2. unfold merge_quals.
    destruct (rev pq) as [|a ri] eqn:E.
    { exfalso. apply N1. rewrite <- (rev_involutive pq), E. reflexivity. }
    assert (pq = rev ri ++ [a]) as EP.
    { rewrite <- (rev_involutive pq), E. reflexivity. }
    rewrite EP, last_last in L1. destruct a as [a|]; [|congruence].
    destruct sq as [|[b|] r]; try (simpl in H2; congruence).
    eexists. split; [reflexivity|]. split.
    - rewrite EP, !app_length. simpl. lia.
    - rewrite EP. intros F1 F2. apply Forall_app in F1. destruct F1 as [F1 _].
      inversion F2; subst. apply Forall_app. split; auto. constructor; auto. discriminate.
  Qed.

  Definition good_quals (t : ctype A) : Prop :=
    wf t /\ Forall (fun q => q <> None) (t_quals t).

  Lemma good_quals_last t : good_quals t -> t_quals t <> [] /\ last (t_quals t) None <> None
                                         /\ hd None (t_quals t) <> None.
  Proof.
    intros [W F]. unfold wf in W. destruct (t_quals t) as [|q qs]; [discriminate|].
    split; [discriminate|]. rewrite Forall_forall in F. split.
    - apply F. clear. revert q. induction qs as [|q' qs IH]; intros q.
      + left. reflexivity.
      + right. simpl in *. apply IH.
    - apply F. left. reflexivity.
  Qed.

  (** * Completeness *)
  Lemma eval_complete s path b :
    chain cf tab_of s path b -> Forall good_quals path ->
    forall ds qs used fuel,
      good_quals (CT (SName s) ds qs) ->
      (forall x, meets cf tab_of s x -> ~ In x used) ->
      length path <= fuel ->
      exists r, eval_fuel cf m fuel used (CT (SName s) ds qs) = Ok r.
  Proof.
    induction 1 as [s F|s n pds pqs path b NF T C IH]; intros G ds qs used fuel GT NU L.
    - exists (CT (SName (canon s)) ds qs). apply is_fund_iff in F.
      destruct fuel; simpl; rewrite F; apply mk_type_wf; apply GT.
    - inversion G as [|? ? G1 G2]; subst. destruct fuel as [|f]; [simpl in L; lia|]. simpl.
      rewrite <- is_fund_iff in NF. destruct (is_fund cf s) eqn:FU; [congruence|].
      assert (MU : mem s used = false) by (apply mem_not_In; apply NU; constructor).
      rewrite MU. pose proof T as T0. unfold typedefs in T.
      destruct (dget m s) as [[t|]|] eqn:DG; try discriminate. injection T as ->.
      destruct (good_quals_last _ G1) as (A1 & A2 & A3).
      destruct (good_quals_last _ GT) as (B1 & B2 & B3). simpl in *.
      destruct (merge_quals_some pqs qs A1 B1 A2 B3) as (q & MQ & LQ & FQ).
      rewrite MQ. simpl.
      assert (WQ : length q = 1 + length (pds ++ ds)).
      { rewrite LQ, app_length. destruct G1 as [W1 _], GT as [W2 _].
        unfold wf in W1, W2. simpl in W1, W2. lia. }
      rewrite mk_type_wf by exact WQ. simpl.
      apply IH; auto.
      + split; [exact WQ|]. simpl. apply FQ; [apply G1|apply GT].
      + intros x M I. apply in_app_or in I. destruct I as [I|[<-|[]]].
        * apply (NU x); auto. apply meets_next with (n := n); auto.
          split; [rewrite <- is_fund_iff; congruence|]. eauto.
        * revert M. apply chain_step_not_back with (ds := pds) (qs := pqs) (path := path) (b := b);
            auto. rewrite <- is_fund_iff. congruence.
      + lia.
  Qed.

  Lemma eval_type_complete s path b ds qs :
    chain cf tab_of s path b -> Forall good_quals path ->
    good_quals (CT (SName s) ds qs) ->
    exists r, eval_type cf m (CT (SName s) ds qs) = Ok r.
  Proof.
    intros C G GT.
    destruct (eval_complete _ _ _ C G ds qs [] (length path) GT) as [r E]; auto.
    exists r. apply eval_any_fuel with (fuel := length path); auto. discriminate.
  Qed.

  Lemma merge_quals_good pq sq q :
    merge_quals pq sq = Ok q ->
    Forall (fun q => q <> None) pq -> Forall (fun q => q <> None) sq ->
    Forall (fun q => q <> None) q.
  Proof.
    unfold merge_quals. intros E F1 F2. destruct (rev pq) as [|[a|] ri] eqn:R; try discriminate.
    - destruct sq as [|[b|] r]; try discriminate. injection E as <-.
      assert (pq = rev ri ++ [Some a]) as ->.
      { rewrite <- (rev_involutive pq), R. reflexivity. }
      apply Forall_app in F1. destruct F1 as [F1 _]. inversion F2; subst.
      apply Forall_app. split; auto. constructor; auto. discriminate.
    - destruct sq as [|[b|] r]; discriminate.
  Qed.

  Lemma eval_good fuel used t r :
    (forall k t, dget m k = Some (TyE t) -> good_quals t) ->
    good_quals t -> eval_fuel cf m fuel used t = Ok r -> good_quals r.
  Proof.
    intros TA. revert used t. induction fuel as [|f IH]; intros used [[s|t0] ds qs] G E; simpl in E;
      try discriminate.
    - destruct (is_fund cf s).
      + rewrite mk_type_wf in E by apply G. injection E as <-. exact G.
      + destruct (mem s used); [discriminate|].
        destruct (dget m s) as [[[ps pds pqs]|]|]; discriminate.
    - destruct (is_fund cf s).
      + rewrite mk_type_wf in E by apply G. injection E as <-. exact G.
      + destruct (mem s used); [discriminate|].
        destruct (dget m s) as [[[ps pds pqs]|]|] eqn:D; try discriminate.
        destruct (merge_quals pqs qs) as [qs'|e] eqn:MQ; simpl in E; [|discriminate].
        destruct (mk_type ps (pds ++ ds) qs') as [t'|e] eqn:MT; simpl in E; [|discriminate].
        destruct (merge_quals_ok _ _ _ MQ) as [_ NE].
        destruct (mk_type_ok _ _ _ _ MT NE) as [-> W'].
        apply IH in E; auto. split; auto. simpl.
        apply (merge_quals_good _ _ _ MQ); [apply (TA s _ D)|apply G].
  Qed.

  Lemma levels_inj (p q : list qual) :
    Forall (fun q => q <> None) p -> Forall (fun q => q <> None) q ->
    map lv p = map lv q -> p = q.
  Proof.
    revert q. induction p as [|a p IH]; intros [|b q] F1 F2 E; try discriminate; auto.
    inversion F1; inversion F2; subst. simpl in E. injection E as E1 E2.
    f_equal; auto. destruct a, b; simpl in *; congruence.
  Qed.

  Lemma chain_good s path b :
    (forall k t, dget m k = Some (TyE t) -> good_quals t) ->
    chain cf tab_of s path b -> Forall good_quals path.
  Proof.
    intros TA. induction 1 as [|s n ds qs path b NF T C IH]; constructor; auto.
    unfold typedefs in T. destruct (dget m s) as [[t|]|] eqn:D; try discriminate.
    injection T as ->. eapply TA. exact D.
  Qed.

  Lemma eval_type_chain s ds qs r :
    (forall k t, dget m k = Some (TyE t) -> good_quals t) ->
    good_quals (CT (SName s) ds qs) ->
    (eval_type cf m (CT (SName s) ds qs) = Ok r <->
     exists path b, chain cf tab_of s path b
      /\ t_spec r = SName (canon b)
      /\ t_decls r = chain_decls path ++ ds
      /\ levels r = glue_all path (CT (SName s) ds qs)
      /\ good_quals r).
  Proof.
    intros TA G. split.
    - intros E. destruct (eval_sound _ _ _ _ (proj1 G) E) as (s' & path & b & S1 & C & S2 & D & Q & WR).
      injection S1 as <-. exists path, b. do 4 (split; [assumption|]).
      exact (eval_good (length m) [] _ _ TA G E).
    - intros (path & b & C & S & D & Q & GR).
      destruct (eval_type_complete _ _ _ ds qs C (chain_good _ _ _ TA C) G) as [r' E].
      rewrite E. f_equal.
      destruct (eval_sound _ _ _ _ (proj1 G) E) as (s' & path' & b' & S1 & C' & S2 & D' & Q' & WR).
      injection S1 as <-. destruct (chain_det _ _ _ C _ _ C') as [-> ->].
      assert (GR' : good_quals r') by exact (eval_good (length m) [] _ _ TA G E).
      destruct r as [a1 a2 a3], r' as [b1 b2 b3]. simpl in *. subst.
      f_equal. apply levels_inj; [apply GR'|apply GR|]. unfold levels in Q, Q'. simpl in Q, Q'.
      unfold lv. congruence.
  Qed.

  (** * DefinitionError *)
  Lemma meets_snoc s x n : meets cf tab_of s x -> leads cf tab_of x n -> meets cf tab_of s n.
  Proof.
    induction 1 as [s|s k x L M IH]; intros LX.
    - apply meets_next with (n := n); auto. constructor.
    - apply meets_next with (n := k); auto.
  Qed.

  Lemma eval_deferr_sound s0 fuel used t s :
    t_spec t = SName s -> wf t ->
    meets cf tab_of s0 s ->
    (forall u, In u used -> exists n, leads cf tab_of u n /\ meets cf tab_of n s
                                      /\ meets cf tab_of s0 u) ->
    (forall k e, dget m k = Some e -> exists n ds qs, e = TyE (CT (SName n) ds qs)) ->
    eval_fuel cf m fuel used t = Err DefinitionError ->
    circular cf tab_of s0 \/ dangling cf tab_of s0.
  Proof.
    revert used t s. induction fuel as [|f IH]; intros used [sp ds qs] s S W M U TA E;
      simpl in S; subst sp; simpl in E.
    - destruct (is_fund cf s) eqn:F.
      { rewrite mk_type_wf in E by exact W. discriminate. }
      assert (NF : ~ fundamental cf s) by (rewrite <- is_fund_iff; congruence).
      destruct (mem s used) eqn:MU.
      + apply mem_In in MU. destruct (U _ MU) as (n & L & MM & M0).
        left. exists s, n. auto.
      + destruct (dget m s) as [e|] eqn:G.
        * destruct (TA _ _ G) as (n & ds' & qs' & ->). discriminate.
        * right. exists s. split; auto. split; auto. unfold typedefs. rewrite G. reflexivity.
    - destruct (is_fund cf s) eqn:F.
      { rewrite mk_type_wf in E by exact W. discriminate. }
      assert (NF : ~ fundamental cf s) by (rewrite <- is_fund_iff; congruence).
      destruct (mem s used) eqn:MU.
      + apply mem_In in MU. destruct (U _ MU) as (n & L & MM & M0).
        left. exists s, n. auto.
      + destruct (dget m s) as [e|] eqn:G.
        * destruct (TA _ _ G) as (n & ds' & qs' & ->).
          destruct (merge_quals qs' qs) as [q|e] eqn:MQ; simpl in E.
          2:{ injection E as ->. unfold merge_quals in MQ.
              destruct (rev qs') as [|[a|] ri]; try discriminate;
                destruct qs as [|[b|] r]; discriminate. }
          destruct (merge_quals_ok _ _ _ MQ) as [_ NE].
          destruct (mk_type (SName n) (ds' ++ ds) q) as [t'|e] eqn:MT; simpl in E.
          2:{ injection E as ->. unfold mk_type in MT. destruct (_ =? _); discriminate. }
          destruct (mk_type_ok _ _ _ _ MT NE) as [-> W'].
          assert (LD : leads cf tab_of s n).
          { split; auto. exists ds', qs'. unfold typedefs. rewrite G. reflexivity. }
          refine (IH _ (CT (SName n) _ _) n eq_refl W' _ _ TA E).
          -- eapply meets_snoc; eauto.
          -- intros u I. apply in_app_or in I. destruct I as [I|[<-|[]]].
             ++ destruct (U _ I) as (k & L1 & M1 & M2). exists k. split; [exact L1|]. split; [|exact M2].
                eapply meets_snoc; eauto.
             ++ exists n. split; [exact LD|]. split; [constructor|exact M].
        * right. exists s. split; auto. split; auto. unfold typedefs. rewrite G. reflexivity.
  Qed.

  Lemma eval_outcome fuel used t s :
    t_spec t = SName s -> good_quals t ->
    (forall k e, dget m k = Some e ->
       exists n ds qs, e = TyE (CT (SName n) ds qs) /\ good_quals (CT (SName n) ds qs)) ->
    (exists r, eval_fuel cf m fuel used t = Ok r)
    \/ eval_fuel cf m fuel used t = Err DefinitionError
    \/ eval_fuel cf m fuel used t = Err OutOfFuel.
  Proof.
    intros S G TA. revert used t s S G.
    induction fuel as [|f IH]; intros used [sp ds qs] s S G; simpl in S; subst sp; simpl.
    - destruct (is_fund cf s).
      { rewrite mk_type_wf by apply G. eauto. }
      destruct (mem s used); auto.
      destruct (dget m s) as [e|] eqn:D; auto.
      destruct (TA _ _ D) as (n & ds' & qs' & -> & G'). auto.
    - destruct (is_fund cf s).
      { rewrite mk_type_wf by apply G. eauto. }
      destruct (mem s used); auto.
      destruct (dget m s) as [e|] eqn:D; auto.
      destruct (TA _ _ D) as (n & ds' & qs' & -> & G').
      destruct (good_quals_last _ G') as (A1 & A2 & A3).
      destruct (good_quals_last _ G) as (B1 & B2 & B3). simpl in *.
      destruct (merge_quals_some qs' qs A1 B1 A2 B3) as (q & MQ & LQ & FQ).
      rewrite MQ. simpl.
      assert (WQ : length q = 1 + length (ds' ++ ds)).
      { rewrite LQ, app_length. destruct G as [W1 _], G' as [W2 _].
        unfold wf in W1, W2. simpl in W1, W2. lia. }
      rewrite mk_type_wf by exact WQ. simpl. apply (IH _ _ n); auto.
      split; [exact WQ|]. simpl. apply FQ; [apply G'|apply G].
  Qed.

  Lemma chain_not_circular s p b : chain cf tab_of s p b -> ~ circular cf tab_of s.
  Proof.
    intros C (x & n & M & L & MB). destruct (chain_meets _ _ _ _ C M) as (p' & C' & _).
    destruct L as (NF & ds & qs & T). inversion C'; subst; [contradiction|].
    match goal with [ H : tab_of x = Some _ |- _ ] => rewrite T in H; injection H as <- <- <- end.
    eapply chain_step_not_back; eauto.
  Qed.

  Lemma chain_not_dangling s p b : chain cf tab_of s p b -> ~ dangling cf tab_of s.
  Proof.
    intros C (x & M & NF & N). destruct (chain_meets _ _ _ _ C M) as (p' & C' & _).
    inversion C'; subst; [contradiction|]. congruence.
  Qed.
End Resolve.

(** * Qualifiers *)
Lemma concat_glue a b :
  a <> [] -> b <> [] -> concat (glue a b) = concat a ++ concat b.
Proof.
  intros NA NB. unfold glue. rewrite !concat_app. simpl. rewrite app_nil_r.
  rewrite (app_removelast_last [] NA) at 3. rewrite concat_app. simpl. rewrite app_nil_r.
  destruct b as [|x b]; [congruence|]. simpl. rewrite <- !app_assoc. reflexivity.
Qed.

Lemma glue_nonempty a b : glue a b <> [].
Proof. unfold glue. destruct (removelast a); discriminate. Qed.

Lemma fold_glue_concat {A} (path : list (ctype A)) q :
  q <> [] -> Forall (fun t => t_quals t <> []) path ->
  concat (fold_left (fun q pt => glue (levels pt) q) path q)
  = flat_map (fun t => concat (levels t)) (rev path) ++ concat q.
Proof.
  revert q. induction path as [|pt path IH]; intros q NQ F; simpl; [reflexivity|].
  inversion F as [|? ? F1 F2]; subst. rewrite IH by (auto using glue_nonempty).
  rewrite concat_glue; auto.
  - rewrite flat_map_app. simpl. rewrite app_nil_r, app_assoc. reflexivity.
  - unfold levels. destruct (t_quals pt); [congruence|discriminate].
Qed.

(** * Resolving twice *)
Lemma rm_signed_word_in prevw w r :
  prevw = true -> forallb is_word w = true -> nonword_head r = true ->
  rm_signed 0 prevw (w ++ r) = w ++ rm_signed 0 (match w with [] => prevw | _ => true end) r.
Proof.
  intros ->. revert r. induction w as [|c w IH]; intros r F N; [reflexivity|].
  simpl in F. apply andb_true_iff in F. destruct F as [F1 F2].
  change ((c :: w) ++ r) with (c :: (w ++ r)). cbn [rm_signed negb andb].
  rewrite F1, IH by auto. destruct w; reflexivity.
Qed.

Lemma starts_signed_nonword c r :
  is_word c = false -> starts_with $"signed" (c :: r) = false.
Proof.
  intros N. change $"signed" with ("s"%char :: $"igned"). cbn [starts_with].
  destruct (cheq "s" c) eqn:E; [|reflexivity].
  apply cheq_true in E. subst c. vm_compute in N. discriminate.
Qed.

Lemma rm_signed_prev_irrelevant a b r :
  nonword_head r = true -> rm_signed 0 a r = rm_signed 0 b r.
Proof.
  destruct r as [|c r]; [reflexivity|]. intros N. cbn [nonword_head] in N.
  apply negb_true_iff in N. cbn [rm_signed].
  rewrite starts_signed_nonword by exact N. rewrite !andb_false_r. reflexivity.
Qed.

Lemma rm_signed_skip k p s : k <= length s -> rm_signed k p s = rm_signed 0 (match k with O => p | S j => is_word (nth j s sp) end) (skipn k s).
Proof.
  revert p s. induction k as [|k IH]; intros p s L; [reflexivity|].
  destruct s as [|c s]; simpl in L; [lia|]. simpl. rewrite IH by lia.
  destruct k; reflexivity.
Qed.

Lemma starts_with_split p w r :
  forallb is_word p = true -> forallb is_word w = true -> nonword_head r = true ->
  starts_with p (w ++ r) && nonword_head (skipn (length p) (w ++ r)) = eqb w p.
Proof.
  intros FP FW N. destruct (eqb_spec w p) as [->|NE].
  - rewrite starts_with_app, skipn_app, Nat.sub_diag, skipn_all. simpl. exact N.
  - destruct (starts_with p (w ++ r)) eqn:S; [|reflexivity]. simpl.
    apply starts_with_iff in S. destruct S as [x S]. rewrite S, skipn_app, Nat.sub_diag, skipn_all.
    simpl. revert p FP NE S. induction w as [|c w IH]; intros p FP NE S.
    + destruct p as [|d p]; [congruence|]. simpl in S. subst r. simpl in *.
      apply andb_true_iff in FP. destruct FP as [FP _]. rewrite FP in N. discriminate.
    + simpl in FW. apply andb_true_iff in FW. destruct FW as [FC FW].
      destruct p as [|d p].
      * simpl in S. subst x. simpl. rewrite FC. reflexivity.
      * simpl in S. injection S as -> S. simpl in FP. apply andb_true_iff in FP.
        apply (IH FW p (proj2 FP)); auto. congruence.
Qed.

Lemma rm_signed_run w r :
  w <> [] -> forallb is_word w = true -> head_not is_word r = true ->
  rm_signed 0 false (w ++ r) = (if eqb w $"signed" then [] else w) ++ rm_signed 0 false r.
Proof.
  intros NE F N. destruct w as [|c w]; [congruence|].
  pose proof (starts_with_split $"signed" (c :: w) r eq_refl F N) as SS.
  change (length $"signed") with 6 in SS.
  change ((c :: w) ++ r) with (c :: (w ++ r)) in *.
  cbn [rm_signed negb]. rewrite andb_true_l. rewrite SS.
  simpl in F. apply andb_true_iff in F. destruct F as [F1 F2].
  destruct (eqb_spec (c :: w) $"signed") as [E|NE2].
  - injection E as -> ->.
    rewrite rm_signed_skip by (rewrite app_length; simpl; lia).
    change (skipn 5 ($"igned" ++ r)) with r.
    apply rm_signed_prev_irrelevant. exact N.
  - rewrite F1. rewrite rm_signed_word_in by auto. simpl. f_equal. f_equal.
    apply rm_signed_prev_irrelevant. exact N.
Qed.

Lemma rm_signed_nonword c r :
  is_word c = false -> rm_signed 0 false (c :: r) = c :: rm_signed 0 false r.
Proof.
  intros N. cbn [rm_signed]. rewrite N.
  rewrite starts_signed_nonword by exact N. reflexivity.
Qed.

Lemma rm_signed_head s : head_not is_word s = true -> head_not is_word (rm_signed 0 false s) = true.
Proof.
  destruct s as [|c s]; [auto|]. simpl head_not at 1. intros N.
  apply negb_true_iff in N. rewrite rm_signed_nonword by exact N. simpl. rewrite N. reflexivity.
Qed.

Lemma rm_signed_idem s : rm_signed 0 false (rm_signed 0 false s) = rm_signed 0 false s.
Proof.
  induction s as [|c r E IH|w r NE F HN IH] using (run_ind is_word).
  - reflexivity.
  - rewrite rm_signed_nonword by exact E. rewrite rm_signed_nonword by exact E. congruence.
  - rewrite rm_signed_run by auto.
    destruct (eqb w $"signed") eqn:EQ; cbn [app]; auto.
    rewrite rm_signed_run; auto using rm_signed_head. rewrite EQ, IH. reflexivity.
Qed.

(** Leading and trailing blanks do not matter to the removal. *)
Lemma rm_signed_lead a s :
  forallb is_space a = true -> rm_signed 0 false (a ++ s) = a ++ rm_signed 0 false s.
Proof.
  induction a as [|c a IH]; cbn [app]; intros F; [reflexivity|].
  simpl in F. apply andb_true_iff in F. destruct F as [F1 F2].
  rewrite rm_signed_nonword by (apply space_not_word; exact F1). rewrite IH; auto.
Qed.

Lemma rm_signed_trail s b :
  forallb is_space b = true -> rm_signed 0 false (s ++ b) = rm_signed 0 false s ++ b.
Proof.
  intros F. assert (RB : rm_signed 0 false b = b).
  { rewrite <- (app_nil_r b) at 1. rewrite rm_signed_lead by exact F. simpl. apply app_nil_r. }
  assert (HB : head_not is_word b = true).
  { destruct b as [|c b]; simpl; auto. simpl in F. apply andb_true_iff in F.
    rewrite (space_not_word c) by apply F. reflexivity. }
  induction s as [|c r E IH|w r NE FW HN IH] using (run_ind is_word).
  - exact RB.
  - cbn [app]. rewrite !rm_signed_nonword by exact E. rewrite IH. reflexivity.
  - assert (HR : head_not is_word (r ++ b) = true) by (destruct r; [exact HB|exact HN]).
    rewrite <- app_assoc. rewrite (rm_signed_run w (r ++ b)), (rm_signed_run w r) by auto.
    rewrite IH, app_assoc. reflexivity.
Qed.

Lemma rm_signed_strip s : rm_signed 0 false s = s -> rm_signed 0 false (strip s) = strip s.
Proof.
  intros E. unfold strip.
  destruct (lstrip_spec s) as (a & E1 & F1).
  destruct (rstrip_spec (lstrip s)) as (b & E2 & F2).
  set (l := lstrip s) in *. set (x := rstrip l) in *. clearbody x. subst l.
  rewrite E1, E2 in E. rewrite rm_signed_lead, rm_signed_trail in E by auto.
  apply app_inv_head in E. apply app_inv_tail in E. exact E.
Qed.

Lemma canon_idem s : canon (canon s) = canon s.
Proof.
  unfold canon. rewrite rm_signed_strip by apply rm_signed_idem. apply strip_idem.
Qed.

(** Words of a text made of identifiers only. *)
Lemma rm_signed_words s :
  (forall w, In w (split_ws s) -> forallb is_word w = true) ->
  split_ws (rm_signed 0 false s) = filter (fun w => negb (eqb w $"signed")) (split_ws s).
Proof.
  intros W. induction s as [|c r E IH|w r NE F HN IH] using (run_ind nonspace).
  - reflexivity.
  - unfold nonspace in E. apply negb_false_iff in E.
    rewrite rm_signed_nonword by (apply space_not_word; exact E).
    rewrite !split_ws_space in * by exact E. auto.
  - rewrite split_ws_run in * by auto.
    assert (FW : forallb is_word w = true) by (apply W; left; reflexivity).
    assert (HW : head_not is_word r = true).
    { destruct r as [|c r]; simpl in *; auto. unfold nonspace in HN.
      rewrite negb_involutive in HN. rewrite space_not_word by exact HN. reflexivity. }
    rewrite rm_signed_run by auto.
    assert (HS : head_not nonspace (rm_signed 0 false r) = true).
    { destruct r as [|c r]; simpl in HN; [reflexivity|]. unfold nonspace in HN.
      rewrite negb_involutive in HN. rewrite rm_signed_nonword by (apply space_not_word; exact HN).
      simpl. unfold nonspace. rewrite HN. reflexivity. }
    assert (IH' : split_ws (rm_signed 0 false r) = filter (fun w => negb (eqb w $"signed")) (split_ws r)).
    { apply IH. intros v I. apply W. right. exact I. }
    cbn [filter]. destruct (eqb w $"signed"); cbn [negb app].
    + exact IH'.
    + rewrite split_ws_run by auto. rewrite IH'. reflexivity.
Qed.

Lemma identifier_word w : identifier w -> w <> [] /\ forallb is_word w = true.
Proof.
  destruct w as [|c w]; simpl; [contradiction|]. intros [E F]. split; [discriminate|].
  apply andb_true_iff. split.
  - apply idchar_word, idstart_idchar. exact E.
  - rewrite forallb_forall in *. intros x I. apply idchar_word. auto.
Qed.

Lemma type_words_plain cf w :
  plain_conf cf -> In w (type_words cf) -> forallb is_word w = true.
Proof.
  intros P I. unfold type_words in I. rewrite !in_app_iff in I.
  assert (X : forall l, forallb (forallb is_word) l = true -> In w l -> forallb is_word w = true).
  { intros l F J. rewrite forallb_forall in F. auto. }
  destruct I as [I|[I|[I|[I|I]]]].
  - unfold num_types in I. rewrite !in_app_iff in I. destruct I as [I|[I|I]].
    + revert I. apply X. reflexivity.
    + destruct (py312 cf); revert I; apply X; reflexivity.
    + destruct (win32 cf); revert I; apply X; reflexivity.
  - revert I. apply X. reflexivity.
  - revert I. apply X. reflexivity.
  - revert I. apply X. reflexivity.
  - apply identifier_word. apply P. exact I.
Qed.

Lemma rm_signed_tag p r :
  In p tag_prefixes -> rm_signed 0 false (p ++ r) = p ++ rm_signed 0 false r.
Proof.
  intros I.
  assert (E : exists w, p = w ++ [sp] /\ w <> [] /\ forallb is_word w = true
                        /\ eqb w $"signed" = false).
  { unfold tag_prefixes in I. cbn [In] in I. destruct I as [<-|[<-|[<-|[]]]].
    - exists $"struct". repeat split; discriminate.
    - exists $"union". repeat split; discriminate.
    - exists $"enum". repeat split; discriminate. }
  destruct E as (w & -> & NE & F & NS). rewrite <- !app_assoc.
  rewrite rm_signed_run; [|exact NE|exact F|reflexivity]. rewrite NS.
  cbn [app]. rewrite rm_signed_nonword by reflexivity. reflexivity.
Qed.

Lemma canon_fund cf s : plain_conf cf -> c_like s -> fundamental cf s -> fundamental cf (canon s).
Proof.
  intros P CL [(p & r & I & ->)|F].
  - destruct (CL p r I eq_refl) as [ID NS]. left. exists p, r. split; auto.
    destruct (identifier_word _ ID) as [NE FW]. unfold canon.
    assert (R : rm_signed 0 false r = r).
    { rewrite <- (app_nil_r r) at 1. rewrite rm_signed_run by auto.
      destruct (eqb_spec r $"signed"); [congruence|]. simpl. apply app_nil_r. }
    assert (RR : rm_signed 0 false (p ++ r) = p ++ r).
    { rewrite rm_signed_tag by exact I. rewrite R. reflexivity. }
    rewrite RR. apply strip_id.
    + unfold tag_prefixes in I. cbn [In] in I. destruct I as [<-|[<-|[<-|[]]]]; reflexivity.
    + rewrite rev_app_distr. destruct (rev r) as [|c q] eqn:E.
      * apply (f_equal (@rev _)) in E. rewrite rev_involutive in E. simpl in E. congruence.
      * simpl. rewrite word_not_space; auto. rewrite forallb_forall in FW. apply FW.
        apply in_rev. rewrite E. left. reflexivity.
  - right. intros w W. apply is_word_of_split in W. unfold canon in W. rewrite split_ws_strip in W.
    rewrite rm_signed_words in W.
    + apply filter_In in W. apply F. apply is_word_of_split. apply W.
    + intros v J. apply type_words_plain with (cf := cf); auto. apply word_iff, F.
      apply is_word_of_split. exact J.
Qed.

Lemma eval_idem {A} cf (m m' : dict str (tentry A)) t r :
  plain_conf cf -> wf t ->
  (forall s, t_spec t = SName s -> c_like s) ->
  (forall k n ds qs, dget m k = Some (TyE (CT (SName n) ds qs)) -> c_like n) ->
  eval_type cf m t = Ok r -> eval_type cf m' r = Ok r.
Proof.
  intros P W CT CM E.
  destruct (eval_sound cf m _ _ _ _ W E) as (s & path & b & S1 & C & S2 & D & Q & WR).
  assert (CB : fundamental cf b /\ c_like b).
  { clear - C CT CM S1. specialize (CT s S1). clear S1.
    induction C as [s F|s n ds qs path b NF T C IH]; auto.
    apply IH. unfold typedefs in T. destruct (dget m s) as [[t'|]|] eqn:G; try discriminate.
    injection T as ->. eapply CM. exact G. }
  destruct CB as [FB CB].
  destruct r as [sp ds qs]. simpl in S2, D, Q. subst sp. unfold eval_type.
  assert (FC : is_fund cf (canon b) = true) by (apply is_fund_iff; apply canon_fund; auto).
  destruct (length m'); simpl; rewrite FC, canon_idem; apply mk_type_wf; exact WR.
Qed.

(** * Compatibility hack *)
Lemma add_hack_nonfun {A} (t : ctype A) :
  (forall args, last (t_decls t) (DStr []) <> DFun args) -> add_hack t = t.
Proof.
  destruct t as [s ds qs]. simpl. intros N. destruct (rev ds) as [|d rds] eqn:E; auto.
  assert (ds = rev rds ++ [d]) as ->.
  { rewrite <- (rev_involutive ds), E. reflexivity. }
  rewrite last_last in N. destruct d; auto. exfalso. eapply N. reflexivity.
Qed.

Lemma remove_add_hack {A} (t : ctype A) s args ds :
  t_spec t = SName s -> t_decls t = ds ++ [DFun args] -> wf t ->
  t_spec (remove_hack (add_hack t)) = t_spec t
  /\ t_decls (remove_hack (add_hack t)) = t_decls t
  /\ (Forall (fun q => q = Some []) (t_quals t) -> remove_hack (add_hack t) = t).
Proof.
  destruct t as [sp d qs]. simpl. intros -> -> W. rewrite rev_app_distr. simpl.
  rewrite rev_involutive. repeat split; auto. intros F. f_equal.
  unfold wf in W. cbn [t_quals t_decls] in W.
  change (repeat (@Some (list str) []) (1 + length (ds ++ [DFun args])) = qs).
  rewrite <- W. clear W.
  induction qs as [|q qs IH]; [reflexivity|]. inversion F; subst. simpl. f_equal. auto.
Qed.

(** * Equality *)
Section PyInd.
  Context (P : pyo -> Prop)
    (Hs : forall s, P (PStr s)) (Hn : P PNone) (Hi : forall z, P (PInt z))
    (Hl : forall l, Forall P l -> P (PList l))
    (Ht : forall l, Forall P l -> P (PTuple l))
    (Hy : forall l q, Forall P l -> P (PType l q)).
  Fixpoint pyo_ind' (o : pyo) : P o :=
    let fix go (l : list pyo) : Forall P l :=
        match l with [] => Forall_nil P | x :: r => Forall_cons x (pyo_ind' x) (go r) end in
    match o with
    | PStr s => Hs s
    | PNone => Hn
    | PInt z => Hi z
    | PList l => Hl l (go l)
    | PTuple l => Ht l (go l)
    | PType l q => Hy l q (go l)
    end.
End PyInd.

Fixpoint py_all (l m : list pyo) : bool :=
  match l, m with
  | [], [] => true
  | x :: l', y :: m' => py_eq x y && py_all l' m'
  | _, _ => false
  end.

Lemma py_eq_unfold a b :
  py_eq a b =
  match a, b with
  | PStr s, PStr t => eqb s t
  | PNone, PNone => true
  | PInt x, PInt y => Z.eqb x y
  | PList l, PList m => py_all l m
  | PTuple l, PTuple m => py_all l m
  | PTuple l, PType m _ => py_all l m
  | PType l _, PTuple m => py_all l m
  | PType l p, PType m q => if eqb p q then py_all l m else false
  | _, _ => false
  end.
Proof.
  assert (G : forall l m,
    (fix all (l m : list pyo) {struct l} : bool :=
      match l, m with
      | [], [] => true
      | x :: l', y :: m' => py_eq x y && all l' m'
      | _, _ => false
      end) l m = py_all l m).
  { intros l m. reflexivity. }
  destruct a, b; simpl; auto; rewrite ?G; reflexivity.
Qed.

Lemma py_eq_refl a : py_eq a a = true.
Proof.
  assert (G : forall l, Forall (fun a => py_eq a a = true) l -> py_all l l = true).
  { induction 1; simpl; auto. rewrite H, IHForall. reflexivity. }
  induction a using pyo_ind'; rewrite py_eq_unfold; auto.
  - apply eqb_refl.
  - apply Z.eqb_refl.
  - rewrite eqb_refl. auto.
Qed.

Lemma py_eq_sym a b : py_eq a b = py_eq b a.
Proof.
  assert (G : forall l, Forall (fun a => forall b, py_eq a b = py_eq b a) l ->
                        forall m, py_all l m = py_all m l).
  { induction 1; destruct m; simpl; auto. rewrite H, IHForall. reflexivity. }
  revert b. induction a using pyo_ind'; intros b; rewrite (py_eq_unfold b); destruct b;
    rewrite py_eq_unfold; auto.
  - apply eqb_sym.
  - apply Z.eqb_sym.
  - rewrite eqb_sym. destruct (eqb _ _); auto.
Qed.

Lemma py_all_eq (P : pyo -> Prop) l :
  Forall (fun a => forall b, P b -> py_eq a b = true -> a = b) l ->
  forall m, Forall P m -> py_all l m = true -> l = m.
Proof.
  induction 1 as [|a l H F IH]; intros [|b m] FM E; try discriminate; [reflexivity|].
  cbn [py_all] in E. apply andb_true_iff in E. destruct E as [E1 E2].
  inversion FM; subst. f_equal; auto.
Qed.

Lemma kinded_eq a :
  forall k b, kinded k a -> kinded k b -> py_eq a b = true -> a = b.
Proof.
  assert (IS : forall k b, kinded k b ->
            (k = KType -> exists l q, b = PType l q /\ kinded KType (PType l q))).
  { intros k b K ->. inversion K; subst. eauto. }
  induction a as [s| |z|l IH|l IH|l q IH] using pyo_ind'; intros k b Ka Kb E;
    rewrite py_eq_unfold in E; destruct b; try discriminate; auto.
  - apply eqb_eq in E. congruence.
  - apply Z.eqb_eq in E. congruence.
  - f_equal. inversion Ka as [| |l1 F1| | | | | | |]; subst; try (match goal with
      [ H : kinded KType (PList _) |- _ ] => inversion H end).
    inversion Kb as [| |l2 F2| | | | | | |]; subst.
    apply (py_all_eq (kinded KAtom)) in E; auto.
    rewrite Forall_forall in *. intros x I y Ky. apply (IH x I KAtom); auto.
  - f_equal. inversion Ka as [| | |l1 F1|n t d Kn Kt Kd| | | | |]; subst;
      try (match goal with [ H : kinded KType (PTuple _) |- _ ] => inversion H end).
    + inversion Kb as [| | |l2 F2| | | | | |]; subst.
      apply (py_all_eq (kinded KArg)) in E; auto.
      rewrite Forall_forall in *. intros x I y Ky. apply (IH x I KArg); auto.
    + inversion Kb as [| | | |n' t' d' Kn' Kt' Kd'| | | | |]; subst.
      cbn [py_all] in E. repeat rewrite andb_true_iff in E. destruct E as (E1 & E2 & E3 & _).
      inversion IH as [|? ? I1 IH1]; subst. inversion IH1 as [|? ? I2 IH2]; subst.
      inversion IH2 as [|? ? I3 IH3]; subst.
      rewrite (I1 _ _ Kn Kn' E1), (I2 _ _ Kt Kt' E2), (I3 _ _ Kd Kd' E3). reflexivity.
  - exfalso. inversion Ka; subst; try (match goal with [ H : kinded KType (PTuple _) |- _ ] => inversion H end);
    inversion Kb.
  - exfalso. inversion Ka; subst; inversion Kb; subst;
      match goal with [ H : kinded KType (PTuple _) |- _ ] => inversion H end.
  - destruct (eqb q quals) eqn:EQ; [|discriminate]. apply eqb_eq in EQ. subst quals.
    assert (KA : kinded KType (PType l q)) by (inversion Ka; subst; auto).
    assert (KB : kinded KType (PType l0 q)) by (inversion Kb; subst; auto).
    clear Ka Kb. f_equal. inversion KA as [| | | | |b1 d1 q1 B1 F1| | | |]; subst.
    inversion KB as [| | | | |b2 d2 q2 B2 F2| | | |]; subst.
    cbn [py_all] in E. apply andb_true_iff in E. destruct E as [E1 E2].
    inversion IH as [|? ? I1 IH1]; subst. rewrite (I1 _ _ B1 B2 E1). f_equal.
    apply (py_all_eq (kinded KDecl)) in E2; auto.
    rewrite Forall_forall in *. intros x I y Ky. apply (IH1 x I KDecl); auto.
Qed.

(** * Whitespace between the words of a base *)
Lemma starts_tag t w rest :
  forallb nonspace t = true -> forallb nonspace w = true ->
  starts_with (t ++ [sp]) (w ++ sp :: rest) = eqb w t.
Proof.
  revert w. induction t as [|c t IH]; intros [|d w] FT FW; try reflexivity.
  - cbn [app starts_with]. simpl in FW. apply andb_true_iff in FW. destruct FW as [FW _].
    destruct (cheq_spec sp d) as [<-|N]; [discriminate|reflexivity].
  - cbn [app starts_with]. simpl in FT. apply andb_true_iff in FT. destruct FT as [FT _].
    destruct (cheq_spec c sp) as [->|N]; [discriminate|reflexivity].
  - cbn [app starts_with]. simpl in FT, FW. apply andb_true_iff in FT, FW.
    rewrite IH by tauto. destruct (cheq_spec c d) as [->|N]; cbn [andb].
    + destruct (eqb_spec w t) as [->|N]; symmetry; [apply eqb_refl|apply eqb_false; congruence].
    + symmetry. apply eqb_false. congruence.
Qed.

Lemma starts_tag_single t w :
  forallb nonspace w = true -> starts_with (t ++ [sp]) w = false.
Proof.
  intros F. destruct (starts_with (t ++ [sp]) w) eqn:E; [|reflexivity].
  apply starts_with_iff in E. destruct E as [r ->]. rewrite !forallb_app in F. simpl in F.
  rewrite andb_false_r in F. discriminate.
Qed.

Lemma starts_tag_join t n ws :
  forallb nonspace t = true -> t <> [] ->
  (forall w, In w ws -> w <> [] /\ forallb nonspace w = true) ->
  starts_with (t ++ [sp]) (join (repeat sp (S n)) ws)
  = match ws with w :: _ :: _ => eqb w t | _ => false end.
Proof.
  intros FT NE W. destruct ws as [|w [|w' ws]].
  - destruct t; [congruence|reflexivity].
  - apply starts_tag_single. apply W. left. reflexivity.
  - rewrite join_cons by discriminate. cbn [repeat app].
    apply starts_tag; auto. apply W. left. reflexivity.
Qed.

Lemma is_fund_spacing cf n ws :
  (forall w, In w ws -> w <> [] /\ forallb nonspace w = true) ->
  is_fund cf (join (repeat sp (S n)) ws) = is_fund cf (join [sp] ws).
Proof.
  intros W. unfold is_fund.
  assert (ST : forall t, forallb nonspace t = true -> t <> [] ->
     starts_with (t ++ [sp]) (join (repeat sp (S n)) ws)
     = starts_with (t ++ [sp]) (join [sp] ws)).
  { intros t F NE. rewrite starts_tag_join by auto.
    change [sp] with (repeat sp 1) at 2. rewrite starts_tag_join by auto. reflexivity. }
  change $"struct " with ($"struct" ++ [sp]). change $"union " with ($"union" ++ [sp]).
  change $"enum " with ($"enum" ++ [sp]).
  rewrite !ST by (reflexivity || discriminate).
  assert (F : forallb is_space (repeat sp (S n)) = true).
  { clear. induction n as [|n IH]; [reflexivity|]. exact IH. }
  rewrite !split_ws_join; auto; discriminate.
Qed.

(** * Statements of the properties *)
Lemma eval_type_deferr {A} cf (m : dict str (tentry A)) s ds qs :
  (forall k e, dget m k = Some e ->
     exists n ds qs, e = TyE (CT (SName n) ds qs) /\ qual_ok (CT (SName n) ds qs)) ->
  qual_ok (CT (SName s) ds qs) ->
  (eval_type cf m (CT (SName s) ds qs) = Err DefinitionError
   <-> circular cf (typedefs m) s \/ dangling cf (typedefs m) s)
  /\ ((exists r, eval_type cf m (CT (SName s) ds qs) = Ok r)
      \/ eval_type cf m (CT (SName s) ds qs) = Err DefinitionError).
Proof.
  intros TA Q.
  assert (OUT : (exists r, eval_type cf m (CT (SName s) ds qs) = Ok r)
      \/ eval_type cf m (CT (SName s) ds qs) = Err DefinitionError).
  { destruct (eval_outcome cf m (length m) [] (CT (SName s) ds qs) s eq_refl Q TA) as [O|[O|O]];
      auto. exfalso. exact (eval_type_not_fuel cf m _ O). }
  split; [|exact OUT]. split.
  - intros E. refine (eval_deferr_sound cf m s (length m) [] (CT (SName s) ds qs) s eq_refl (proj1 Q) _ _ _ E).
    + constructor.
    + intros u [].
    + intros k e D. destruct (TA k e D) as (n & ds' & qs' & -> & _). eauto.
  - intros CD. destruct OUT as [[r E]|E]; auto. exfalso.
    destruct (eval_sound cf m _ _ _ _ (proj1 Q) E) as (s' & path & b & S1 & C & _).
    injection S1 as <-. destruct CD as [CD|CD].
    + exact (chain_not_circular cf m _ _ _ C CD).
    + exact (chain_not_dangling cf m _ _ _ C CD).
Qed.

Lemma eval_type_quals {A} cf (m : dict str (tentry A)) t r :
  (forall k t, dget m k = Some (TyE t) -> qual_ok t) -> qual_ok t ->
  eval_type cf m t = Ok r ->
  exists s path b, t_spec t = SName s /\ chain cf (typedefs m) s path b
    /\ levels r = glue_all path t
    /\ concat (levels r) = flat_map (fun t => concat (levels t)) (rev path) ++ concat (levels t)
    /\ length (levels r) = 1 + length (t_decls r).
Proof.
  intros TA Q E.
  destruct (eval_sound cf m _ _ _ _ (proj1 Q) E) as (s & path & b & S1 & C & _ & _ & L & W).
  exists s, path, b. split; [exact S1|]. split; [exact C|]. split; [exact L|]. split.
  - rewrite L. unfold glue_all. apply fold_glue_concat.
    + destruct Q as [Q _]. unfold levels. destruct (t_quals t); [discriminate Q|discriminate].
    + eapply Forall_impl; [|exact (chain_good cf m _ _ _ TA C)].
      intros a [W' _]. unfold wf in W'. intros Z. rewrite Z in W'. discriminate.
  - unfold levels. rewrite map_length. exact W.
Qed.

Lemma canon_words cf b :
  plain_conf cf -> (forall w, is_word_of w b -> In w (type_words cf)) ->
  split_ws (canon b) = filter (fun w => negb (eqb w $"signed")) (split_ws b).
Proof.
  intros P F. unfold canon. rewrite split_ws_strip. apply rm_signed_words.
  intros w I. apply (type_words_plain cf); auto. apply F. apply is_word_of_split. exact I.
Qed.

Lemma canon_tag p r : In p tag_prefixes -> identifier r -> r <> $"signed" -> canon (p ++ r) = p ++ r.
Proof.
  intros I ID NS. destruct (identifier_word _ ID) as [NE FW]. unfold canon.
  assert (R : rm_signed 0 false r = r).
  { rewrite <- (app_nil_r r) at 1. rewrite rm_signed_run by auto.
    destruct (eqb_spec r $"signed"); [congruence|]. simpl. apply app_nil_r. }
  rewrite rm_signed_tag by exact I. rewrite R. apply strip_id.
  - unfold tag_prefixes in I. cbn [In] in I. destruct I as [<-|[<-|[<-|[]]]]; reflexivity.
  - rewrite rev_app_distr. destruct (rev r) as [|c q] eqn:E.
    + apply (f_equal (@rev _)) in E. rewrite rev_involutive in E. simpl in E. congruence.
    + simpl. rewrite word_not_space; auto. rewrite forallb_forall in FW. apply FW.
      apply in_rev. rewrite E. left. reflexivity.
Qed.

Lemma type_ne_tuple l q o :
  (exists l', o = PTuple l' \/ exists q', o = PType l' q') ->
  type_ne l q o = negb (py_eq (PType l q) o).
Proof. intros (l' & [->|(q' & ->)]); reflexivity. Qed.

Lemma remove_hack_named {A} (t : ctype A) s : t_spec t = SName s -> remove_hack t = t.
Proof. destruct t as [sp ds qs]. simpl. intros ->. reflexivity. Qed.
