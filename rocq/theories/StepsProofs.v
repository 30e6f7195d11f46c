(** Reading headers in steps. *)
From Coq Require Import Ascii String Bool Arith ZArith Lia List.
Import ListNotations.
From Verif Require Import PyBase PyBaseFacts PyStr PyExpr MacroModel TypeModel StoreModel StoreSpec StoreProofs DeclModel EvalModel.
From Verif Require Import GramModel PpModel FileModel FilesSpec CachedModel CachedSpec CachedOrder CachedProofs StepsSpec StepsLike.
From Verif Require Import ConstSpec.
From Verif Require FilesProofs.

Local Notation run := StoreModel.run.

(** ** Histories that begin with an import *)
Section Import.
  Context {V : Type}.
  Lemma adds_of (d : dict kind (dict str V)) ks o : In o (flat_map (fun k => map (fun e => Add k (fst e) (snd e)) (match dget d k with Some t => t | None => [] end)) ks) ->
    exists k n v, o = Add k n v.
  Proof. intros I1. apply in_flat_map in I1. destruct I1 as (k & _ & I1). apply in_map_iff in I1. destruct I1 as (e & <- & _). eauto. Qed.
  Lemma one_pass_import (d : fdata V) h : forall seen c, NoDup (c :: seen ++ keys d) -> (forall f, In f (keys d) -> base_name f = f) ->
    (forall seen' c', incl (c' :: seen') (c :: seen ++ keys d) -> one_pass seen' c' h) -> one_pass seen c (import_ops d ++ h).
  Proof.
    induction d as [|[f t] d IH]; intros seen c ND B H.
    - apply H. rewrite app_nil_r. apply incl_refl.
    - change (import_ops ((f, t) :: d)) with ((Switch f :: flat_map (fun k => map (fun e => Add k (fst e) (snd e)) (match dget t k with Some t => t | None => [] end)) all_kinds) ++ import_ops d).
      rewrite <- app_assoc. cbn [app one_pass]. cbv zeta. fold (base_name f). rewrite (B f (or_introl eq_refl)). cbn [keys map fst] in *.
      assert (NF : ~ In f (c :: seen)).
      { change (c :: seen ++ f :: map fst d) with ((c :: seen) ++ f :: map fst d) in ND. apply NoDup_remove_2 in ND. intros I1. apply ND. apply in_or_app. left. exact I1. }
      split; [right; exact NF|]. destruct (eqb_spec f c) as [->|_]; [exfalso; apply NF; left; reflexivity|].
      apply one_pass_adds; [intros o; apply adds_of|]. apply IH.
      + change (c :: seen ++ f :: map fst d) with ((c :: seen) ++ f :: map fst d) in ND. apply NoDup_remove in ND. destruct ND as [N1 N2]. constructor; [exact N2|exact N1].
      + intros g I1. apply B. right. exact I1.
      + intros s' c' I1. apply H. intros x X. apply I1 in X. cbn [In] in X |- *. rewrite in_app_iff in X |- *. cbn [In] in X |- *. clear - X. tauto.
  Qed.
  Lemma removals_free (a h : list (op V)) : no_removal a -> forall past c, (forall c', local_removals (past ++ additions c a) c' h) -> local_removals past c (a ++ h).
  Proof.
    induction a as [|o a IH]; intros N past c H; [specialize (H c); cbn [additions] in H; rewrite app_nil_r in H; exact H|].
    assert (N' : no_removal a) by (intros k n I1; apply (N k n); right; exact I1). destruct o as [k n v|k n|f]; cbn [app local_removals additions] in *.
    - apply (IH N'). intros c'. rewrite <- app_assoc. apply H.
    - exfalso. apply (N k n). left. reflexivity.
    - apply (IH N'). exact H.
  Qed.
  Lemma ordered_init h c : base_name c = c -> one_pass [] c h -> local_removals [] c h -> ordered (run (set_cur init_store c : store V) h).
  Proof.
    intros B OP LR. apply (ordered_run h (set_cur init_store c) [] []);
      [apply wfs_init|exists []; cbn; auto|intros a b; reflexivity|intros a; reflexivity|intros x []|intros g a b w X; discriminate| |]; cbn [set_cur cur]; rewrite B; assumption.
  Qed.
  (** *** What a history leaves in the tables. *)
  Definition op_ok (K : option str -> Prop) (M : str -> Prop) (o : op V) : Prop :=
    match o with Add k n _ => k = Macros -> M n | Rem _ _ => True | Switch f => K (base_name f) end.
  Lemma run_bounds K M h : Forall (op_ok K M) h -> forall s : store V, wfs s -> K (base_name (cur s)) -> (forall f, In f (keys (fdefs s)) -> K f) ->
    (forall f n v, defined_in s f Macros n = Some v -> M n) ->
    (forall f, In f (keys (fdefs (run s h))) -> K f) /\ (forall f n v, defined_in (run s h) f Macros n = Some v -> M n).
  Proof.
    induction 1 as [|o h OK _ IH]; intros s W KC KF MF; [split; assumption|]. destruct o as [k n v|k n|f]; cbn [op_ok] in OK.
    - change (run s (Add k n v :: h)) with (run (add_def s k n v) h). apply IH; [apply wfs_add; exact W|exact KC| |].
      + intros f I1. apply keys_fdefs_add in I1. destruct I1 as [<-|I1]; [exact KC|apply KF; exact I1].
      + intros f m x D. rewrite defined_in_add in D. destruct (eqb f (base_name (cur s)) && (eqb Macros k && eqb m n)) eqn:E; [|exact (MF _ _ _ D)].
        rewrite !andb_true_iff in E. destruct E as (_ & E1 & E2). apply eqb_eq in E1, E2. subst m. apply OK. symmetry. exact E1.
    - change (run s (Rem k n :: h)) with (run (fst (rem_def s k n)) h). apply IH; [apply wfs_rem; exact W|rewrite cur_rem; exact KC|rewrite keys_fdefs_rem; exact KF|].
      intros f m x D. rewrite defined_in_rem in D by exact W. destruct (_ && _ && _); [discriminate D|]. exact (MF _ _ _ D).
    - change (run s (Switch f :: h)) with (run (set_cur s f) h). apply IH; [exact W|exact OK|exact KF|exact MF].
  Qed.
  Lemma imported s : wfs s -> forall g k n v, In (g, k, n, v) (listed (to_data (fdefs s)) : list (@addition V)) -> defined_in s g k n = Some v.
  Proof.
    intros (_ & W2 & W3 & W4) g k n v I1. unfold listed, to_data in I1. apply in_flat_map in I1. destruct I1 as ([f t] & I1 & I2).
    apply in_map_iff in I1. destruct I1 as ([f' u] & E & I1). assert (E1 : f' = f) by exact (f_equal fst E). assert (E2 : map (fun k => (k, u k)) all_kinds = t) by exact (f_equal snd E). subst f t. clear E. cbn [fst snd] in I2. apply in_flat_map in I2. destruct I2 as (k' & _ & I2).
    cbv beta in I2. rewrite (to_data_get u) in I2. apply in_map_iff in I2. destruct I2 as ([m x] & E & I2). cbn [fst snd] in E.
    assert (G : option_map basename f' = f') by (apply W4; apply (in_map fst) in I1; exact I1). rewrite G in E. injection E as <- <- <- <-.
    unfold defined_in. rewrite (NoDup_dget _ _ _ W2 I1). apply NoDup_dget; [apply (W3 f' u I1)|exact I2].
  Qed.
End Import.

(** ** The tables of the parsers in a chain *)
(** Their files are those read so far, their macros those given or defined so far. *)
Definition chained (K : option str -> Prop) (M : str -> Prop) (s : store entry) : Prop :=
  wfs s /\ ordered s /\ (forall f, In f (keys (fdefs s)) -> K f) /\ (forall f n v, defined_in s f Macros n = Some v -> M n).
Definition so_far (l : list (str * str)) (f : option str) : Prop := f = None \/ exists x, In x l /\ f = Some (basename (fst x)).
Definition macros_so_far (kw : dict str (dict str entry)) (l : list (str * str)) (n : str) : Prop :=
  given_macro kw n \/ exists x, In x l /\ defines_macro n (snd x).

Lemma files_ok (K : option str -> Prop) (M : str -> Prop) l : forall H, files_op l H -> (forall x, In x l -> K (Some (basename (fst x)))) ->
  (forall x n, In x l -> defines_macro n (snd x) -> M n) -> Forall (op_ok K M) H.
Proof.
  induction l as [|[f t] l IH]; intros H FO HK HM; cbn [files_op] in FO; [subst H; constructor|]. destruct FO as (h & H' & -> & B & FO).
  constructor; [exact (HK _ (or_introl eq_refl))|]. apply Forall_app. split.
  - eapply Forall_impl; [|exact B]. intros o [(k & n & v & -> & D)|[(n & -> & _)| ->]]; cbn [op_ok].
    + intros E. apply (HM (f, t) n (or_introl eq_refl)). exact (D E).
    + exact Logic.I.
    + exact (HK _ (or_introl eq_refl)).
  - apply IH; [exact FO|intros x I1; apply HK; right; exact I1|intros x n I1; apply HM; right; exact I1].
Qed.
Lemma separate_impl (texts : list str) : forall M M' : str -> Prop, (forall n, M' n -> M n) -> separate M texts -> separate M' texts.
Proof.
  induction texts as [|t r IH]; intros M M' I1 S1; [exact Logic.I|]. destruct S1 as (R & U & S1). split; [exact R|]. split; [intros n X Y; exact (U n X (I1 n Y))|].
  apply (IH (fun n => M n \/ defines_macro n t)); [|exact S1]. intros n [X|X]; [left; apply I1; exact X|right; exact X].
Qed.
Lemma separate_app a b : forall M, separate M (a ++ b) -> separate M a /\ separate (fun n => M n \/ exists t, In t a /\ defines_macro n t) b.
Proof.
  induction a as [|t a IH]; intros M S1.
  - split; [exact Logic.I|]. apply (separate_impl b M); [|exact S1]. intros n [X|(t & [] & _)]. exact X.
  - cbn [app separate] in S1. destruct S1 as (R & U & S1). destruct (IH _ S1) as [S2 S3]. split; [split; [exact R|]; split; [exact U|exact S2]|].
    apply (separate_impl b (fun n => (M n \/ defines_macro n t) \/ exists u, In u a /\ defines_macro n u)); [|exact S3].
    intros n [X|(u & [<-|I1] & X)]; [auto|auto|right; exists u; auto].
Qed.
Lemma chained_first kw l ops H (s0 : store entry) : s0 = run init_store ops -> (forall o, In o ops -> exists k n v, o = Add k n v) ->
  (forall g n v, In (g, Macros, n, v) (additions None ops) -> given_macro kw n) -> files_op l H ->
  NoDup (map (fun x => basename (fst x)) l) -> separate (given_macro kw) (map snd l) -> chained (so_far l) (macros_so_far kw l) (run s0 H).
Proof.
  intros -> AO GM FO NB SP. rewrite <- run_app.
  assert (A : forall o n v, In o ops -> o = Add Macros n v -> given_macro kw n).
  { intros o n v I1 ->. apply (GM None n v). clear - I1 AO. induction ops as [|x ops IH]; [destruct I1|].
    destruct (AO x (or_introl eq_refl)) as (k' & n' & v' & ->). cbn [additions]. destruct I1 as [E|I1]; [injection E as -> -> ->; left; reflexivity|right].
    apply IH; [intros o I2; apply AO; right; exact I2|exact I1]. }
  split; [apply wfs_reach|]. split.
  - apply (ordered_init (ops ++ H) None eq_refl).
    + apply one_pass_adds; [exact AO|]. apply (one_pass_files l H [] None FO NB). intros x _ [X|[]]. discriminate X.
    + apply local_removals_adds; [exact AO|]. exact (removals_files l (given_macro kw) H _ None FO SP GM).
  - apply run_bounds; [|apply wfs_init|left; reflexivity|intros f []|intros f n v X; discriminate X]. apply Forall_app. split.
    + apply Forall_forall. intros o I1. destruct (AO o I1) as (k & n & v & ->). cbn [op_ok]. intros ->. left. exact (A _ n v I1 eq_refl).
    + apply (files_ok _ _ l H FO); [intros x I1; right; exists x; auto|intros x n I1 D; right; exists x; auto].
Qed.
(** The tables loaded from the cache file of a first parser. *)
Lemma chained_loaded kw l ops H (s0 : store entry) : s0 = run init_store ops -> (forall o, In o ops -> exists k n v, o = Add k n v) ->
  (forall g n v, In (g, Macros, n, v) (additions None ops) -> given_macro kw n) -> files_op l H -> l <> [] ->
  NoDup (map (fun x => basename (fst x)) l) -> separate (given_macro kw) (map snd l) ->
  let s := run s0 H in let s1 := fst (import_dict s0 (to_data (fdefs s))) in
  same_definitions s1 s /\ chained (so_far l) (macros_so_far kw l) s1.
Proof.
  intros ES AO GM FO NE NB SP s s1. pose proof (chained_first kw l ops H s0 ES AO GM FO NB SP) as (W & OR & KF & MF). fold s in W, OR, KF, MF.
  assert (OP : one_pass [] None H) by (apply (one_pass_files l H [] None FO NB); intros x _ [X|[]]; discriminate X).
  assert (LR : local_removals [] None (ops ++ H)) by (apply local_removals_adds; [exact AO|]; exact (removals_files l (given_macro kw) H _ None FO SP GM)).
  destruct l as [|[f t] l]; [contradiction|]. pose proof FO as FO'. cbn [files_op] in FO'. destruct FO' as (h & H' & EH & _ & _).
  rewrite EH in OP, LR. pose proof (cache_same_tables ops f (h ++ H') AO OP LR) as CS. destruct (cache_roundtrip ops f (h ++ H') AO OP LR) as (_ & _ & CR).
  cbv zeta in CS, CR. rewrite <- ES, <- EH in CS, CR. fold s in CS, CR. fold s1 in CS, CR. split; [split; [exact CS|exact CR]|].
  assert (W1 : wfs s1) by (unfold s1; rewrite import_dict_run by apply complete_to_data; cbn [fst]; apply wfs_run; rewrite ES; apply wfs_reach).
  destruct (run_adds_keys ops init_store AO) as [C0 K0]. rewrite <- ES in C0, K0. cbn in C0.
  assert (K0' : forall x, In x (keys (fdefs s0)) -> x = None) by (intros x X; apply K0 in X; destruct X as [X|[]]; symmetry; exact X).
  split; [exact W1|]. split; [|split].
  - destruct (prefix_run (fdefs s0) (h ++ H') (set_cur s0 (Some f)) [] [None]) as [r R].
    { rewrite app_nil_r. reflexivity. }
    { intros x X. rewrite (K0' x X). left. reflexivity. }
    { cbn [set_cur cur]. intros X. apply K0' in X. discriminate X. }
    { cbn [one_pass] in OP. destruct OP as [_ OP]. destruct (eqb_spec (option_map basename (Some f)) None) as [X|X]; [discriminate X|exact OP]. }
    assert (RS : fdefs s = fdefs s0 ++ r) by (unfold s; rewrite EH; exact R). clear R.
    assert (NR : ~ In None (keys r)).
    { destruct (fdefs s0) as [|[g u] r0] eqn:F.
      - cbn [app] in RS. rewrite <- RS. intros X.
        assert (Q : (forall g, In g (keys (fdefs (run (set_cur s0 (Some f)) (h ++ H')))) -> g <> None)
                    /\ (forall g n v, defined_in (run (set_cur s0 (Some f)) (h ++ H')) g Macros n = Some v -> True)).
        { apply (run_bounds (fun g => g <> None) (fun _ => True)); [|rewrite ES; apply wfs_reach|discriminate| |intros; exact Logic.I].
          - assert (FK : Forall (op_ok (fun g => g <> None) (fun _ => True)) H) by (apply (files_ok _ _ _ H FO); [discriminate|intros; exact Logic.I]).
            rewrite EH in FK. inversion FK; assumption.
          - cbn [set_cur fdefs]. rewrite F. intros g []. }
        destruct Q as [Q _]. apply (Q None); [|reflexivity]. unfold s in X. rewrite EH in X. exact X.
      - assert (G : g = None) by (apply K0'; left; reflexivity). subst g. destruct W as (_ & W2 & _). rewrite RS in W2. cbn [app keys map fst] in W2.
        inversion W2 as [|? ? NI _]; subst. intros X. apply NI. rewrite map_app. apply in_or_app. right. exact X. }
    assert (WK : NoDup (keys (fdefs s)) /\ forall g, In g (keys (fdefs s)) -> base_name g = g) by (destruct W as (_ & W2 & _ & W4); split; assumption).
    destruct WK as [W2 W4]. unfold s1. rewrite import_dict_run by apply complete_to_data. cbn [fst]. rewrite ES. rewrite <- run_app.
    assert (KD : forall x : dict (option str) (tables entry), keys (to_data x) = keys x) by (intros x; unfold keys, to_data; rewrite map_map; reflexivity).
    change (ordered (run (set_cur init_store None : store entry) (ops ++ import_ops (to_data (fdefs s))))).
    apply ordered_init; [reflexivity| |].
    + apply one_pass_adds; [exact AO|]. destruct (fdefs s0) as [|[g u] r0] eqn:F.
      * cbn [app] in RS. rewrite <- (app_nil_r (import_ops _)). apply one_pass_import; [|rewrite KD; exact W4|intros; exact Logic.I].
        cbn [app]. rewrite KD. constructor; [rewrite RS; exact NR|exact W2].
      * assert (G : g = None) by (apply K0'; left; reflexivity). subst g.
        assert (R0 : r0 = []).
        { destruct r0 as [|[g v] r0]; [reflexivity|]. assert (G : g = None) by (apply K0'; right; left; reflexivity). subst g. rewrite RS in W2. cbn in W2.
          inversion W2 as [|? ? NI _]; subst. destruct NI. left. reflexivity. }
        subst r0. rewrite RS in *. cbn [app] in *.
        set (d := map (fun k => (k, u k)) all_kinds).
        change (import_ops (to_data ((None, u) :: r))) with ((Switch None :: flat_map (fun k => map (fun e => Add k (fst e) (snd e)) (match dget d k with Some t => t | None => [] end)) all_kinds) ++ import_ops (to_data r)).
        cbn [app one_pass option_map]. cbv zeta. split; [left; reflexivity|]. rewrite eqb_refl. apply one_pass_adds; [intros o; apply adds_of|].
        rewrite <- (app_nil_r (import_ops _)). apply one_pass_import; [|rewrite KD; intros g X; apply W4; right; exact X|intros; exact Logic.I].
        cbn [app]. rewrite KD. exact W2.
    + rewrite <- (app_nil_r (ops ++ _)). apply removals_free; [|intros; exact Logic.I]. intros k n X. apply in_app_or in X. destruct X as [X|X].
      * destruct (AO _ X) as (k' & n' & v' & E). discriminate E.
      * exact (import_ops_no_removal _ k n X).
  - intros g X. unfold s1 in X. rewrite import_dict_run in X by apply complete_to_data. cbn [fst] in X.
    assert (Q : (forall g, In g (keys (fdefs (run s0 (import_ops (to_data (fdefs s)))))) -> so_far ((f, t) :: l) g)
                /\ (forall g n v, defined_in (run s0 (import_ops (to_data (fdefs s)))) g Macros n = Some v -> True)).
    { apply (run_bounds (so_far ((f, t) :: l)) (fun _ => True)); [|rewrite ES; apply wfs_reach|rewrite C0; left; reflexivity|intros x I1; left; exact (K0' x I1)|intros; exact Logic.I].
      apply Forall_forall. intros o I1. unfold import_ops in I1. apply in_flat_map in I1. destruct I1 as ([f1 t1] & I1 & I2).
      unfold to_data in I1. apply in_map_iff in I1. destruct I1 as ([f2 u] & E & I1). assert (E1 : f2 = f1) by exact (f_equal fst E). subst f1. clear E.
      destruct I2 as [<-|I2]; [|apply adds_of in I2; destruct I2 as (k & n & v & ->); intros _; exact Logic.I].
      cbn [op_ok fst]. apply (in_map fst) in I1. destruct W as (_ & _ & _ & W4). rewrite (W4 f2 I1). apply KF. exact I1. }
    apply Q. exact X.
  - intros g n v D. rewrite CR in D. exact (MF g n v D).
Qed.
Lemma chained_next kw done l H (s : store entry) : chained (so_far done) (macros_so_far kw done) s -> files_op l H ->
  NoDup (map (fun x => basename (fst x)) (done ++ l)) -> separate (macros_so_far kw done) (map snd l) ->
  let s1 := run init_store (import_ops (to_data (fdefs s))) in
  same_definitions s1 s /\ chained (so_far (done ++ l)) (macros_so_far kw (done ++ l)) (run s1 H).
Proof.
  intros (W & OR & KF & MF) FO NB SP s1. pose proof W as (_ & W2 & _ & W4).
  assert (KD : keys (to_data (fdefs s)) = keys (fdefs s)) by (unfold keys, to_data; rewrite map_map; reflexivity).
  split.
  { pose proof (import_dict_run init_store (to_data (fdefs s)) (complete_to_data (fdefs s))) as ID. destruct (import_tables init_store s W) as (_ & _ & T).
    destruct (import_dict_defs (fdefs s) init_store) as (s' & E & D). rewrite ID in E, T. cbn [fst] in T. assert (ES : s1 = s') by exact (f_equal fst E). rewrite <- ES in D. clear E ES s'. split.
    - intros k. rewrite D, OR. reflexivity.
    - intros f k n. unfold s1. rewrite T. destruct (defined_in s f k n); reflexivity. }
  unfold s1. rewrite <- run_app. split; [apply wfs_reach|]. split.
  - assert (FR : forall x, In x l -> forall f, In f (None :: keys (fdefs s)) -> f <> Some (basename (fst x))).
    { intros x I1 f I2. assert (SF : so_far done f) by (destruct I2 as [<-|I2]; [left; reflexivity|apply KF; exact I2]). destruct SF as [->|(y & I3 & ->)]; [discriminate|].
      intros E. injection E as E. rewrite map_app in NB. apply (in_map (fun x => basename (fst x))) in I1, I3. cbn beta in I1, I3. rewrite <- E in I1.
      revert I1 I3 NB. generalize (map (fun x : str * str => basename (fst x)) done) (map (fun x : str * str => basename (fst x)) l) (basename (fst y)). clear.
      intros a b z I1 I2 ND. apply in_split in I1. destruct I1 as (b1 & b2 & ->). rewrite app_assoc in ND. apply NoDup_remove_2 in ND. apply ND.
      apply in_or_app. left. apply in_or_app. left. exact I2. }
    assert (NL : NoDup (map (fun x => basename (fst x)) l)).
    { rewrite map_app in NB. revert NB. generalize (map (fun x : str * str => basename (fst x)) done). clear.
      induction l0 as [|x a IH]; intros ND; [exact ND|]. inversion ND; subst. apply IH. assumption. }
    assert (LR : forall c, local_removals [] c (import_ops (to_data (fdefs s)) ++ H)).
    { intros c. apply removals_free; [apply import_ops_no_removal|]. intros c'. rewrite additions_import. cbn [app].
      apply (removals_files l (macros_so_far kw done) H _ c' FO SP). intros g n v I1. apply (MF g n v). apply (imported s W). exact I1. }
    destruct (fdefs s) as [|[f t] fd] eqn:FD.
    + apply (ordered_init H None eq_refl); [|apply (LR None)]. apply (one_pass_files l H [] None FO NL). intros x I1 [X|[]]. apply (FR x I1 None); [left; reflexivity|exact X].
    + cbn [keys map fst] in W2, W4, KD. assert (BF : base_name f = f) by (apply W4; left; reflexivity).
      change (ordered (run (set_cur init_store f : store entry) (import_ops (to_data ((f, t) :: fd)) ++ H))). apply ordered_init; [exact BF| |apply LR].
      set (d := map (fun k => (k, t k)) all_kinds).
      change (import_ops (to_data ((f, t) :: fd))) with ((Switch f :: flat_map (fun k => map (fun e => Add k (fst e) (snd e)) (match dget d k with Some t => t | None => [] end)) all_kinds) ++ import_ops (to_data fd)).
      rewrite <- app_assoc. cbn [app one_pass]. cbv zeta. fold (base_name f). rewrite BF, eqb_refl.
      split; [left; reflexivity|]. apply one_pass_adds; [intros o; apply adds_of|].
      assert (KD' : keys (to_data fd) = map fst fd) by (unfold keys, to_data; rewrite map_map; reflexivity).
      apply (one_pass_import (to_data fd) H [] f).
      * cbn [app]. rewrite KD'. exact W2.
      * intros g I1. rewrite KD' in I1. apply W4. right. exact I1.
      * intros s' c' I1. cbn [app] in I1. rewrite KD' in I1. apply (one_pass_files l H s' c' FO NL). intros x I2 I3. apply (FR x I2 (Some (basename (fst x)))); [|reflexivity].
        right. apply I1. exact I3.
  - apply run_bounds; [|apply wfs_init|left; reflexivity|intros f []|intros f n v X; discriminate X]. apply Forall_app. split.
    + apply Forall_forall. intros o I1. unfold import_ops in I1. apply in_flat_map in I1. destruct I1 as ([f t] & I1 & I2).
      unfold to_data in I1. apply in_map_iff in I1. destruct I1 as ([f' u] & E & I1). assert (E1 : f' = f) by exact (f_equal fst E). assert (E2 : map (fun k => (k, u k)) all_kinds = t) by exact (f_equal snd E). subst f t. clear E. cbn [fst snd] in I2.
      assert (K1 : so_far (done ++ l) f').
      { apply (in_map fst) in I1. destruct (KF f' I1) as [->|(y & I3 & ->)]; [left; reflexivity|]. right. exists y. split; [apply in_or_app; left; exact I3|reflexivity]. }
      destruct I2 as [<-|I2].
      * cbn [op_ok]. rewrite W4; [exact K1|]. apply (in_map fst) in I1. exact I1.
      * apply in_flat_map in I2. destruct I2 as (k & _ & I2). cbv beta in I2. rewrite (to_data_get u) in I2. apply in_map_iff in I2. destruct I2 as ([n v] & <- & I2). cbn [op_ok fst snd].
        intros ->. assert (D : defined_in s f' Macros n = Some v).
        { unfold defined_in. rewrite (NoDup_dget _ _ _ W2 I1). apply NoDup_dget; [|exact I2]. destruct W as (_ & _ & W3 & _). apply (W3 f' u I1). }
        destruct (MF _ _ _ D) as [X|(y & I3 & X)]; [left; exact X|]. right. exists y. split; [apply in_or_app; left; exact I3|exact X].
    + apply (files_ok _ _ l H FO); [intros x I1; right; exists x; split; [apply in_or_app; right; exact I1|reflexivity]|].
      intros x n I1 D. right. exists x. split; [apply in_or_app; right; exact I1|exact D].
Qed.

(** ** The constructor *)
Section Open.
  Context (fo : str -> list str -> option str) (ext : str -> bool) (ev : dict str pobj -> str -> res pobj) (base mods : list str)
          (veq : entry -> entry -> bool) (sub : str -> str -> str -> str) (contents : str -> option str) (find : str -> option str)
          (replace : option (dict str str)).
  Definition loaded (l : list (str * str)) (s : store entry) : parser :=
    {| p_files := p_files (fold_left (load_file sub contents (repl replace)) (map fst l) (new_parser init_store)); p_order := map fst l; p_store := s |}.
  Definition read_all (s : store entry) (l : list (str * str)) := process_files fo ext ev base mods (loaded l s) (map fst l).
  Definition ended (x : option (res parser)) : option (res (parser * option (pickled entry))) :=
    match x with Some (Ok p) => Some (Ok (p, None)) | Some (Err e) => Some (Err e) | None => None end.
  Definition texts_ok (l : list (str * str)) : Prop := forall f t, In (f, t) l -> has_text sub contents (repl replace) f t.
  Lemma texts_exist l : texts_ok l -> forall f, In f (map fst l) -> contents f <> None.
  Proof. intros HL f I1. apply in_map_iff in I1. destruct I1 as ([g t] & <- & I1). destruct (HL g t I1) as (raw & C & _). cbn [fst]. congruence. Qed.
  Lemma loaded_text l s : texts_ok l -> forall f t, In (f, t) l -> dget (p_files (loaded l s)) f = Some (Some t).
  Proof.
    intros HL f t I1. destruct (FilesProofs.load_all sub contents (repl replace) (map fst l) (new_parser init_store) (texts_exist l HL)) as (_ & _ & L3 & _).
    cbv zeta in L3. cbn [loaded p_files]. rewrite L3 by (apply (in_map fst) in I1; exact I1). destruct (HL f t I1) as (raw & -> & ->). reflexivity.
  Qed.
  Lemma open_read fs md hs copy enc kw check l : Forall2 (resolves contents find) hs (map fst l) -> texts_ok l ->
    open_headers fo ext ev base mods veq sub contents find fs md hs copy replace enc kw None check =
    match (do s <- add_kw init_store kw; copy_all s copy) with Err e => Some (Err e) | Ok s => ended (read_all s l) end.
  Proof.
    intros RE HL. unfold open_headers. rewrite (FilesProofs.find_all contents find hs (map fst l) RE). cbv zeta.
    destruct (FilesProofs.load_all sub contents (repl replace) (map fst l) (new_parser init_store) (texts_exist l HL)) as (L1 & _ & _).
    unfold repl in L1. cbn [new_parser p_order app] in L1. cbv zeta in L1. rewrite L1. unfold ctor. cbn [a_kw a_copy].
    destruct (do s <- add_kw init_store kw; copy_all s copy) as [s|e]; [|reflexivity]. unfold process_all_cached, FileModel.process_all. cbn [p_order].
    unfold ended, read_all, loaded, repl. destruct (process_files _ _ _ _ _ _ _) as [[p|e]|]; reflexivity.
  Qed.
  Lemma open_missing fs md hs enc kw cf check l : Forall2 (resolves contents find) hs (map fst l) -> texts_ok l -> (forall c, ~ cache_at fs md cf c) ->
    forall w pk, open_headers fo ext ev base mods veq sub contents find fs md hs [] replace enc kw (Some cf) check = Some (Ok (w, Some pk)) ->
    exists s0, add_kw init_store kw = Ok s0 /\ read_all s0 l = Some (Ok w) /\ exists o, pk = write_cache o (p_store w).
  Proof.
    intros RE HL NC w pk E. unfold open_headers in E. rewrite (FilesProofs.find_all contents find hs (map fst l) RE) in E. cbv zeta in E.
    destruct (FilesProofs.load_all sub contents (repl replace) (map fst l) (new_parser init_store) (texts_exist l HL)) as (L1 & _ & _).
    unfold repl in L1. cbn [new_parser p_order app] in L1. cbv zeta in L1. rewrite L1 in E. unfold ctor in E. cbn [a_kw a_copy] in E.
    destruct (add_kw init_store kw) as [s0|e]; [|discriminate E]. cbn [bind copy_all] in E. unfold process_all_cached in E. cbn [p_order p_store p_files] in E.
    rewrite (load_cache_missing veq fs md _ _ check cf s0 NC) in E. cbv zeta in E. unfold FileModel.process_all in E. cbn [p_order] in E.
    exists s0. split; [reflexivity|]. unfold read_all, loaded, repl. destruct (process_files _ _ _ _ _ _ _) as [[p|e]|]; [|discriminate E|discriminate E].
    assert (p = w) by congruence. subst p. split; [reflexivity|]. eexists. symmetry. assert (X : forall a b : pickled entry, Some (Ok (w, Some a)) = Some (Ok (w, Some b)) -> a = b) by congruence.
    exact (X _ _ E).
  Qed.
  Lemma load_at (fs : fsys entry) md files o check cf c pk s : cache_at fs md cf c -> unpickle fs c = Some pk ->
    forall s', load_cache veq fs md files o check cf s = (s', true) -> exists d, p_defs pk = Some d /\ s' = fst (import_dict s d).
  Proof.
    intros (F & CA) UP s' E. unfold load_cache in E. cbv zeta in E.
    assert (FD : (if isfile fs cf then Some cf else if isfile fs (path_join (path_join md $"headers") cf) then Some (path_join (path_join md $"headers") cf) else None) = Some c).
    { destruct CA as [->|[N ->]]; [rewrite F; reflexivity|]. rewrite N, F. reflexivity. }
    rewrite FD in E. destruct (check && _); [discriminate E|]. rewrite UP in E.
    destruct (if check then _ else true); [|discriminate E]. destruct (p_defs pk) as [d|]; [|discriminate E]. exists d. split; [reflexivity|].
    destruct (import_dict s d) as [s2 [e|]]; [discriminate E|]. cbn [fst]. congruence.
  Qed.
  Lemma open_hit fs md hs enc kw cf c pk check l : Forall2 (resolves contents find) hs (map fst l) -> texts_ok l -> cache_at fs md cf c -> unpickle fs c = Some pk ->
    forall p, open_headers fo ext ev base mods veq sub contents find fs md hs [] replace enc kw (Some cf) check = Some (Ok (p, None)) ->
    exists s0 d, add_kw init_store kw = Ok s0 /\ p_defs pk = Some d /\ p_store p = fst (import_dict s0 d).
  Proof.
    intros RE HL CA UP p E. unfold open_headers in E. rewrite (FilesProofs.find_all contents find hs (map fst l) RE) in E. cbv zeta in E.
    unfold ctor in E. cbn [a_kw a_copy] in E.
    destruct (add_kw init_store kw) as [s0|e]; [|discriminate E]. cbn [bind copy_all] in E. unfold process_all_cached in E. cbn [p_order p_store p_files] in E.
    destruct (load_cache veq fs md _ _ check cf s0) as [s' hit] eqn:LC. destruct hit.
    - destruct (load_at fs md _ _ check cf c pk s0 CA UP s' LC) as (d & PD & ->). exists s0, d. split; [reflexivity|]. split; [exact PD|].
      match type of E with Some (Ok (?q, None)) = _ => assert (X : q = p) by congruence end. rewrite <- X. reflexivity.
    - destruct (FileModel.process_all _ _ _ _ _ _) as [[q|e]|]; discriminate E.
  Qed.
  Lemma copy_import (s : store entry) : (do s0 <- add_kw init_store []; copy_all s0 [s]) = Ok (run init_store (import_ops (to_data (fdefs s)))).
  Proof. cbn [add_kw bind copy_all]. rewrite import_dict_run by apply complete_to_data. reflexivity. Qed.
  Lemma read_reach s l p : texts_ok l -> NoDup (map fst l) -> Forall readable (map snd l) -> read_all s l = Some (Ok p) ->
    exists H, p_store p = run s H /\ files_op l H.
  Proof.
    intros HL ND R E. apply (files_reach fo ext ev base mods l (loaded l s) p ND (loaded_text l s HL)); [rewrite Forall_map in R; exact R|exact E].
  Qed.
  (** Reading [a] and then [b], from tables with the same definitions, is reading all of them. *)
  Lemma read_split s a b r s1 : wfs s -> wfs s1 -> texts_ok (a ++ b) -> NoDup (map fst (a ++ b)) -> read_all s a = Some (Ok r) ->
    wfs (p_store r) -> same_definitions s1 (p_store r) ->
    both (fun p p' => wfs (p_store p) /\ wfs (p_store p') /\ same_definitions (p_store p) (p_store p')) (read_all s1 b) (read_all s (a ++ b)).
  Proof.
    intros W W1 HL ND E WR SD. unfold read_all at 2. rewrite (map_app fst a b), files_app. rewrite map_app in ND.
    assert (HA : texts_ok a) by (intros f t I1; apply HL; apply in_or_app; left; exact I1).
    assert (HB : texts_ok b) by (intros f t I1; apply HL; apply in_or_app; right; exact I1).
    pose proof (files_like fo ext ev base mods (map fst a) (loaded a s) (loaded (a ++ b) s) W W (conj (fun k => eq_refl) (fun f k n => eq_refl))) as FL.
    assert (FE : forall f, In f (map fst a) -> dget (p_files (loaded a s)) f = dget (p_files (loaded (a ++ b) s)) f).
    { intros f I1. apply in_map_iff in I1. destruct I1 as ([g t] & <- & I1). cbn [fst]. rewrite (loaded_text a s HA g t I1).
      symmetry. apply (loaded_text (a ++ b) s HL g t). apply in_or_app. left. exact I1. }
    specialize (FL FE). unfold read_all in E. rewrite E in FL. destruct (process_files fo ext ev base mods (loaded (a ++ b) s) (map fst a)) as [[r'|e]|] eqn:E'; cbn [both] in FL; [|contradiction|contradiction].
    destruct FL as (_ & WR' & D1 & D2). apply (files_like fo ext ev base mods (map fst b) (loaded b s1) r'); [exact W1|exact WR'| |].
    - destruct SD as [S1 S2]. split; [intros k; cbn [loaded p_store]; rewrite S1; apply D1|intros f k n; cbn [loaded p_store]; rewrite S2; apply D2].
    - intros f I1. assert (NA : ~ In f (map fst a)).
      { intros I2. apply in_split in I1. destruct I1 as (b1 & b2 & EB). rewrite EB, app_assoc in ND. apply NoDup_remove_2 in ND. apply ND.
        apply in_or_app. left. apply in_or_app. left. exact I2. }
      rewrite (files_kept fo ext ev base mods (map fst a) _ _ E' f NA). apply in_map_iff in I1. destruct I1 as ([g t] & <- & I1). cbn [fst].
      rewrite (loaded_text b s1 HB g t I1). symmetry. apply (loaded_text (a ++ b) s HL g t). apply in_or_app. right. exact I1.
  Qed.

  Lemma pairs_split (l : list (str * str)) (hs1 hs2 : list str) : Forall2 (resolves contents find) (hs1 ++ hs2) (map fst l) ->
    exists a b, l = a ++ b /\ Forall2 (resolves contents find) hs1 (map fst a) /\ Forall2 (resolves contents find) hs2 (map fst b).
  Proof.
    intros F. revert l F. induction hs1 as [|h hs1 IH]; intros l F; [exists [], l; split; [reflexivity|]; split; [constructor|exact F]|].
    destruct l as [|x l]; [inversion F|]. cbn [app map] in F. inversion F as [|? ? ? ? R F']; subst. destruct (IH l F') as (a & b & -> & FA & FB).
    exists (x :: a), b. split; [reflexivity|]. split; [constructor; assumption|exact FB].
  Qed.
  Lemma separate_done kw a b : separate (given_macro kw) (map snd (a ++ b)) -> separate (given_macro kw) (map snd a) /\ separate (macros_so_far kw a) (map snd b).
  Proof.
    intros SP. rewrite map_app in SP. apply separate_app in SP. destruct SP as [S1 S2]. split; [exact S1|]. eapply separate_impl; [|exact S2].
    intros n [X|(x & I1 & X)]; [left; exact X|right]. exists (snd x). split; [apply in_map; exact I1|exact X].
  Qed.
  Lemma base_paths (l : list (str * str)) : NoDup (map (fun x => basename (fst x)) l) -> NoDup (map fst l).
  Proof. intros N. apply (NoDup_map_inv basename). rewrite map_map. exact N. Qed.
  Lemma NoDup_left {A} (a b : list A) : NoDup (a ++ b) -> NoDup a /\ NoDup b.
  Proof.
    induction a as [|x a IH]; intros N; [split; [constructor|exact N]|]. inversion N as [|? ? N1 N2]; subst. destruct (IH N2) as [N3 N4]. split; [|exact N4].
    constructor; [|exact N3]. intros I1. apply N1. apply in_or_app. left. exact I1.
  Qed.

  Notation stepwise_ := (stepwise fo ext ev base mods veq sub contents find replace).
  (** The last parser of a chain and the single parser with all the headers. *)
  Lemma chain kw hss w : stepwise_ kw hss w -> forall l, Forall2 (resolves contents find) (concat hss) (map fst l) -> texts_ok l ->
    NoDup (map (fun x => basename (fst x)) l) -> separate (given_macro kw) (map snd l) ->
    chained (so_far l) (macros_so_far kw l) (p_store w)
    /\ exists s0 r, add_kw init_store kw = Ok s0 /\ wfs s0 /\ read_all s0 l = Some (Ok r) /\ wfs (p_store r) /\ same_definitions (p_store w) (p_store r).
  Proof.
    induction 1 as [fs md hs enc ck p E|fs md hs enc ck cf pk p NC E|fs md hs enc ck cf c pk p fs0 md0 enc0 ck0 cf0 w HN NC E0 CA UP E|hss w fs md hs enc ck p SW IH E]; intros l RE HL NB SP.
    - cbn [concat] in RE. rewrite app_nil_r in RE. rewrite (open_read fs md hs [] enc kw ck l RE HL) in E.
      destruct (add_kw init_store kw) as [s0|e] eqn:AK; [|discriminate E]. cbn [bind copy_all] in E.
      destruct (read_all s0 l) as [[r|e]|] eqn:RA; [|discriminate E|discriminate E]. cbn [ended] in E. assert (p = r) by congruence. subst r.
      destruct (add_kw_ops kw init_store s0 AK) as (ops & ES & AO & GM).
      destruct (read_reach s0 l p HL (base_paths l NB) (separate_readable _ _ SP) RA) as (H & EW & FO).
      pose proof (chained_first kw l ops H s0 ES AO GM FO NB SP) as CH. rewrite <- EW in CH. split; [exact CH|].
      exists s0, p. split; [reflexivity|]. split; [rewrite ES; apply wfs_reach|]. split; [exact RA|]. split; [apply CH|]. split; reflexivity.
    - cbn [concat] in RE. rewrite app_nil_r in RE. destruct (open_missing fs md hs enc kw cf ck l RE HL NC p pk E) as (s0 & AK & RA & _).
      destruct (add_kw_ops kw init_store s0 AK) as (ops & ES & AO & GM).
      destruct (read_reach s0 l p HL (base_paths l NB) (separate_readable _ _ SP) RA) as (H & EW & FO).
      pose proof (chained_first kw l ops H s0 ES AO GM FO NB SP) as CH. rewrite <- EW in CH. split; [exact CH|].
      exists s0, p. split; [exact AK|]. split; [rewrite ES; apply wfs_reach|]. split; [exact RA|]. split; [apply CH|]. split; reflexivity.
    - cbn [concat] in RE. rewrite app_nil_r in RE. destruct (open_missing fs0 md0 hs enc0 kw cf0 ck0 l RE HL NC w pk E0) as (s0 & AK & RA & o & ->).
      destruct (open_hit fs md hs enc kw cf c _ ck l RE HL CA UP p E) as (s0' & d & AK' & PD & EP). assert (s0' = s0) by congruence. subst s0'.
      cbn [write_cache p_defs] in PD. assert (ED : d = to_data (fdefs (p_store w))) by congruence. subst d. clear PD.
      assert (LN : l <> []) by (intros ->; inversion RE; subst; contradiction).
      destruct (add_kw_ops kw init_store s0 AK) as (ops & ES & AO & GM).
      destruct (read_reach s0 l w HL (base_paths l NB) (separate_readable _ _ SP) RA) as (H & EW & FO).
      destruct (chained_loaded kw l ops H s0 ES AO GM FO LN NB SP) as [S1 CH]. cbv zeta in S1, CH. rewrite <- EW, <- EP in S1, CH. split; [exact CH|].
      exists s0, w. split; [exact AK|]. split; [rewrite ES; apply wfs_reach|]. split; [exact RA|].
      pose proof (chained_first kw l ops H s0 ES AO GM FO NB SP) as CW. rewrite <- EW in CW. split; [apply CW|exact S1].
    - rewrite concat_app in RE. cbn [concat] in RE. rewrite app_nil_r in RE. destruct (pairs_split l _ _ RE) as (a & b & -> & RA & RB). clear RE.
      assert (HA : texts_ok a) by (intros f t I1; apply HL; apply in_or_app; left; exact I1).
      assert (HB : texts_ok b) by (intros f t I1; apply HL; apply in_or_app; right; exact I1).
      destruct (separate_done kw a b SP) as [SA SB]. pose proof NB as NB'. rewrite map_app in NB'. apply NoDup_left in NB'. destruct NB' as [NA NBb].
      destruct (IH a RA HA NA SA) as (CH & s0 & r & AK & W0 & RD & WR & SD). clear IH.
      rewrite (open_read fs md hs [p_store w] enc [] ck b RB HB), copy_import in E.
      destruct (read_all _ b) as [[q|e]|] eqn:RB2; [|discriminate E|discriminate E]. cbn [ended] in E. assert (q = p) by congruence. subst q.
      destruct (read_reach _ b p HB (base_paths b NBb) (separate_readable _ _ SB) RB2) as (H & EW & FO).
      destruct (chained_next kw a b H (p_store w) CH FO NB SB) as [S1 CH2]. cbv zeta in S1, CH2. rewrite <- EW in CH2. split; [exact CH2|].
      assert (SD1 : same_definitions (run init_store (import_ops (to_data (fdefs (p_store w))))) (p_store r)).
      { destruct S1 as [X1 X2], SD as [Y1 Y2]. split; [intros k; rewrite X1; apply Y1|intros f k n; rewrite X2; apply Y2]. }
      pose proof (read_split s0 a b r _ W0 (wfs_reach _) HL (base_paths _ NB) RD WR SD1) as BO. rewrite RB2 in BO.
      destruct (read_all s0 (a ++ b)) as [[r'|e]|] eqn:RW; cbn [both] in BO; [|contradiction|contradiction].
      exists s0, r'. split; [exact AK|]. split; [exact W0|]. split; [exact RW|]. destruct BO as (_ & B2 & B3). split; [exact B2|exact B3].
  Qed.

  Lemma steps_whole kw hss w paths texts fs md enc (ck : bool) : stepwise_ kw hss w -> Forall2 (resolves contents find) (concat hss) paths ->
    Forall2 (has_text sub contents (repl replace)) paths texts -> NoDup (map basename paths) -> separate (given_macro kw) texts ->
    exists r, open_headers fo ext ev base mods veq sub contents find fs md (concat hss) [] replace enc kw None ck = Some (Ok (r, None))
      /\ same_definitions (p_store w) (p_store r) /\ same_library_of (p_store w) (p_store r).
  Proof.
    intros SW RE HT NB SP. destruct (texts_pairs sub contents _ _ _ HT) as (l & EP & ET & HL). rewrite <- EP in RE, NB. rewrite <- ET in SP. rewrite map_map in NB.
    destruct (chain kw hss w SW l RE HL NB SP) as (_ & s0 & r & AK & _ & RA & _ & SD). exists r.
    rewrite (open_read fs md _ [] enc kw ck l RE HL), AK. cbn [bind copy_all]. rewrite RA. split; [reflexivity|]. split; [exact SD|apply same_library; exact SD].
  Qed.
  Lemma steps_next kw hss w hs paths texts fs md enc (ck : bool) fs' md' enc' (ck' : bool) : stepwise_ kw hss w ->
    Forall2 (resolves contents find) (concat hss ++ hs) paths ->
    Forall2 (has_text sub contents (repl replace)) paths texts -> NoDup (map basename paths) -> separate (given_macro kw) texts ->
    let whole := open_headers fo ext ev base mods veq sub contents find fs md (concat hss ++ hs) [] replace enc kw None ck in
    match open_headers fo ext ev base mods veq sub contents find fs' md' hs [p_store w] replace enc' [] None ck' with
    | None => whole = None
    | Some (Err e) => whole = Some (Err e)
    | Some (Ok (p, _)) => exists r, whole = Some (Ok (r, None)) /\ same_definitions (p_store p) (p_store r) /\ same_library_of (p_store p) (p_store r)
    end.
  Proof.
    intros SW RE HT NB SP whole. destruct (texts_pairs sub contents _ _ _ HT) as (l & EP & ET & HL). rewrite <- EP in RE, NB. rewrite <- ET in SP. rewrite map_map in NB.
    assert (EW : whole = match (do s <- add_kw init_store kw; copy_all s []) with Err e => Some (Err e) | Ok s => ended (read_all s l) end)
      by (unfold whole; apply open_read; assumption). clearbody whole.
    destruct (pairs_split l _ _ RE) as (a & b & -> & RA & RB). clear RE.
    assert (HA : texts_ok a) by (intros f t I1; apply HL; apply in_or_app; left; exact I1).
    assert (HB : texts_ok b) by (intros f t I1; apply HL; apply in_or_app; right; exact I1).
    destruct (separate_done kw a b SP) as [SA SB]. pose proof NB as NB'. rewrite map_app in NB'. apply NoDup_left in NB'. destruct NB' as [NA NBb].
    destruct (chain kw hss w SW a RA HA NA SA) as (CH & s0 & r & AK & W0 & RD & WR & SD). rewrite AK in EW. cbn [bind copy_all] in EW.
    rewrite (open_read fs' md' hs [p_store w] enc' [] ck' b RB HB), copy_import.
    assert (S1 : same_definitions (run init_store (import_ops (to_data (fdefs (p_store w))))) (p_store w)).
    { assert (N0 : NoDup (map (fun x : str * str => basename (fst x)) (a ++ []))) by (rewrite app_nil_r; exact NA).
      apply (chained_next kw a [] [] (p_store w) CH eq_refl N0 Logic.I). }
    assert (SD1 : same_definitions (run init_store (import_ops (to_data (fdefs (p_store w))))) (p_store r)).
    { destruct S1 as [X1 X2], SD as [Y1 Y2]. split; [intros k; rewrite X1; apply Y1|intros f k n; rewrite X2; apply Y2]. }
    pose proof (read_split s0 a b r _ W0 (wfs_reach _) HL (base_paths _ NB) RD WR SD1) as BO.
    destruct (read_all _ b) as [[q|e]|], (read_all s0 (a ++ b)) as [[r'|e']|]; cbn [both] in BO; try contradiction; cbn [ended] in EW |- *.
    - exists r'. split; [exact EW|]. destruct BO as (_ & _ & B3). split; [exact B3|apply same_library; exact B3].
    - rewrite EW, BO. reflexivity.
    - exact EW.
  Qed.
End Open.
