(** Proofs for C51-C54. *)
From Coq Require Import Ascii String Bool Arith ZArith Lia List.
Import ListNotations.
From Verif Require Import PyBase PyBaseFacts PyStr PyStrFacts TypeModel FunModel FunSpec.

Lemma nth_set_same {A} (l : list A) i x : i < length l -> nth_error (set_nth l i x) i = Some x.
Proof.
  revert i. induction l as [|y l IH]; intros i L; cbn in L; [lia|]. destruct i; cbn; [reflexivity|].
  apply IH. lia.
Qed.
Lemma nth_set_other {A} (l : list A) i j x : i <> j -> nth_error (set_nth l i x) j = nth_error l j.
Proof.
  revert i j. induction l as [|y l IH]; intros i j N; [destruct i, j; reflexivity|].
  destruct i, j; cbn; try reflexivity; try congruence. apply IH. congruence.
Qed.
Lemma length_set {A} (l : list A) i x : length (set_nth l i x) = length l.
Proof. revert i. induction l as [|y l IH]; intros i; destruct i; cbn; auto. Qed.

(** ** Keywords *)
Lemma last_index_spec ps k n i :
  last_index ps k n = Some i <->
  n <= i /\ (exists p, nth_error ps (i - n) = Some p /\ p_name p = Some k)
  /\ (forall j p, i < j -> nth_error ps (j - n) = Some p -> p_name p <> Some k).
Proof.
  revert n i. induction ps as [|p ps IH]; intros n i; cbn [last_index].
  - split; [discriminate|]. intros (_ & (q & E & _) & _). destruct (i - n); discriminate.
  - destruct (last_index ps k (S n)) as [j|] eqn:L.
    + apply IH in L. destruct L as (G & (q & Q & K) & N). split.
      * intros E. injection E as <-. split; [lia|]. split.
        -- exists q. split; [|exact K]. replace (j - n) with (S (j - S n)) by lia. exact Q.
        -- intros j' q' L'. replace (j' - n) with (S (j' - S n)) by lia. cbn [nth_error]. apply N. exact L'.
      * intros (G' & (q' & Q' & K') & N'). f_equal.
        destruct (Nat.lt_trichotomy i j) as [X|[X|X]]; [|exact (eq_sym X)|].
        -- exfalso. apply (N' j q X); [|exact K]. replace (j - n) with (S (j - S n)) by lia. exact Q.
        -- exfalso. replace (i - n) with (S (i - S n)) in Q' by lia. exact (N i q' X Q' K').
    + assert (NO : forall j q, S n <= j -> nth_error ps (j - S n) = Some q -> p_name q <> Some k).
      { intros j q G Q K. assert (X : exists m, S n <= m /\ (exists q', nth_error ps (m - S n) = Some q' /\ p_name q' = Some k)
            /\ forall j' q', m < j' -> nth_error ps (j' - S n) = Some q' -> p_name q' <> Some k).
        { clear L IH. set (d := length ps - (j - S n)). assert (D : length ps - (j - S n) <= d) by lia.
          clearbody d. revert j q G Q K D. induction d as [|d IHd]; intros j q G Q K D.
          - assert (j - S n < length ps) by (apply nth_error_Some; congruence). lia.
          - destruct (existsb (fun q' => eqb (p_name q') (Some k)) (skipn (S (j - S n)) ps)) eqn:E.
            + apply existsb_exists in E. destruct E as (q' & I & E). apply eqb_eq in E.
              apply In_nth_error in I. destruct I as [t T].
              assert (T' : nth_error ps (S (j - S n) + t) = Some q').
              { clear - T. revert T. generalize (S (j - S n)). intros a. revert ps.
                induction a as [|a IHa]; intros ps T; [exact T|]. destruct ps; [destruct t; discriminate|].
                cbn in *. apply IHa. exact T. }
              apply (IHd (j + S t) q'); [lia| |exact E|].
              * replace (j + S t - S n) with (S (j - S n) + t) by lia. exact T'.
              * assert (j - S n < length ps) by (apply nth_error_Some; congruence). lia.
            + exists j. split; [exact G|]. split; [eauto|]. intros j' q' L' Q' K'.
              assert (I : In q' (skipn (S (j - S n)) ps)).
              { clear - L' Q' G. replace (j' - S n) with (S (j - S n) + (j' - S j)) in Q' by lia.
                revert Q'. generalize (S (j - S n)). intros a. revert ps.
                induction a as [|a IHa]; intros ps Q'; [eapply nth_error_In; exact Q'|].
                destruct ps; [discriminate|]. cbn in *. apply IHa. exact Q'. }
              assert (E' : existsb (fun q' => eqb (p_name q') (Some k)) (skipn (S (j - S n)) ps) = true).
              { apply existsb_exists. exists q'. split; [exact I|]. rewrite K'. apply eqb_refl. }
              congruence. }
        destruct X as (m & X). apply IH in X. congruence. }
      destruct (eqb_spec (p_name p) (Some k)) as [E|E].
      * split.
        -- intros X. injection X as <-. split; [lia|]. rewrite Nat.sub_diag. split; [exists p; auto|].
           intros j q L'. replace (j - n) with (S (j - S n)) by lia. cbn. apply NO. lia.
        -- intros (G & (q & Q & K) & N). f_equal. destruct (Nat.eq_dec i n) as [->|X]; [reflexivity|].
           exfalso. replace (i - n) with (S (i - S n)) in Q by lia. exact (NO i q ltac:(lia) Q K).
      * split; [discriminate|]. intros (G & (q & Q & K) & N). exfalso.
        destruct (Nat.eq_dec i n) as [->|X].
        -- rewrite Nat.sub_diag in Q. cbn in Q. congruence.
        -- replace (i - n) with (S (i - S n)) in Q by lia. exact (NO i q ltac:(lia) Q K).
Qed.
Lemma last_index_names f k i : last_index (f_params f) k 0 = Some i <-> names_param f k i.
Proof.
  rewrite last_index_spec. unfold names_param. rewrite Nat.sub_0_r. split.
  - intros (_ & E & N). split; [exact E|]. intros j p L. rewrite <- (Nat.sub_0_r j) at 1. now apply N.
  - intros (E & N). split; [lia|]. split; [exact E|]. intros j p L. rewrite Nat.sub_0_r. now apply N.
Qed.
Lemma last_index_unknown f k : last_index (f_params f) k 0 = None <-> unknown f k.
Proof.
  split.
  - intros E j p Q K.
    assert (X : forall ps n, last_index ps k n = None -> forall p, In p ps -> p_name p <> Some k).
    { induction ps as [|q ps IH]; intros n H x I; [destruct I|]. cbn [last_index] in H.
      destruct (last_index ps k (S n)) eqn:L; [discriminate|].
      destruct (eqb_spec (p_name q) (Some k)) as [|N]; [discriminate|].
      destruct I as [<-|I]; [exact N|]. eapply IH; eauto. }
    exact (X _ _ E p (nth_error_In _ _ Q) K).
  - intros U. destruct (last_index (f_params f) k 0) as [i|] eqn:L; [|reflexivity].
    apply last_index_names in L. destruct L as [(p & Q & K) _]. destruct (U i p Q K).
Qed.
Lemma names_param_key f k k' i : names_param f k i -> names_param f k' i -> k = k'.
Proof. intros [(p & Q & K) _] [(p' & Q' & K') _]. congruence. Qed.
Lemma names_param_pos f k i j : names_param f k i -> names_param f k j -> i = j.
Proof. intros A B. apply last_index_names in A, B. congruence. Qed.

Lemma keywords_spec f kwargs l l' :
  NoDup (map fst kwargs) -> keywords f kwargs l = Ok l' ->
  (forall k v i, In (k, v) kwargs -> names_param f k i -> nth_error l' i = Some (of_py v))
  /\ (forall i, (forall k v, In (k, v) kwargs -> ~ names_param f k i) ->
       nth_error l' i = nth_error l i
       \/ (nth_error l i = None /\ (nth_error l' i = None \/ nth_error l' i = Some Absent)))
  /\ (forall k v, In (k, v) kwargs -> exists i, names_param f k i).
Proof.
  revert l. induction kwargs as [|[k v] kw IH]; intros l ND E; cbn [keywords] in E.
  - injection E as <-. repeat split; auto; intros; contradiction.
  - destruct (last_index (f_params f) k 0) as [i|] eqn:L; [|discriminate].
    apply last_index_names in L. cbn [map fst] in ND. inversion ND as [|? ? NI ND']; subst.
    set (l1 := if length l <=? i then l ++ repeat Absent (i - length l + 1) else l) in *.
    assert (LL : i < length l1).
    { unfold l1. destruct (Nat.leb_spec (length l) i); [|lia]. rewrite app_length, repeat_length. lia. }
    assert (L1 : forall j, nth_error l1 j = nth_error l j
                 \/ (nth_error l j = None /\ (nth_error l1 j = None \/ nth_error l1 j = Some Absent))).
    { intros j. unfold l1. destruct (Nat.leb_spec (length l) i); [|auto].
      destruct (Nat.lt_ge_cases j (length l)) as [X|X].
      - left. now rewrite nth_error_app1.
      - right. split; [now apply nth_error_None|]. rewrite nth_error_app2 by lia.
        destruct (Nat.lt_ge_cases (j - length l) (i - length l + 1)) as [Y|Y].
        + right. now apply nth_error_repeat.
        + left. apply nth_error_None. rewrite repeat_length. exact Y. }
    destruct (IH _ ND' E) as (A & B & C).
    assert (NK : forall k' v', In (k', v') kw -> ~ names_param f k' i).
    { intros k' v' I' N. assert (k' = k) by exact (names_param_key _ _ _ _ N L). subst k'.
      apply NI. apply in_map_iff. exists (k, v'). auto. }
    split; [|split].
    + intros k' v' j [X|I'] N.
      * injection X as <- <-. assert (j = i) by exact (names_param_pos _ _ _ _ N L). subst j.
        destruct (B i NK) as [X|[X _]].
        -- rewrite X. now apply nth_set_same.
        -- rewrite nth_set_same in X by exact LL. discriminate.
      * exact (A k' v' j I' N).
    + intros j NJ. assert (NE : i <> j).
      { intros ->. apply (NJ k v); [now left|exact L]. }
      assert (NJ' : forall k v, In (k, v) kw -> ~ names_param f k j) by (intros; apply (NJ k0 v0); now right).
      destruct (B j NJ') as [X|[X Y]]; rewrite nth_set_other in X by exact NE.
      * rewrite X. apply L1.
      * destruct (L1 j) as [Z|[Z _]]; [rewrite Z in X; auto|auto].
    + intros k' v' [X|I']; [injection X as <- <-; eauto|eauto].
Qed.
Lemma keywords_unknown f kwargs l k v : In (k, v) kwargs -> unknown f k -> keywords f kwargs l = Err TypeError.
Proof.
  revert l. induction kwargs as [|[k' v'] kw IH]; intros l I U; [destruct I|]. cbn [keywords].
  destruct (last_index (f_params f) k' 0) as [i|] eqn:L; [|reflexivity].
  destruct I as [X|I].
  - injection X as -> ->. apply last_index_unknown in U. congruence.
  - now apply IH.
Qed.
Lemma keywords_Err f kwargs l e : keywords f kwargs l = Err e -> e = TypeError.
Proof.
  revert l. induction kwargs as [|[k' v'] kw IH]; intros l E; cbn [keywords] in E; [discriminate|].
  destruct (last_index (f_params f) k' 0); [eauto|congruence].
Qed.
Lemma positional_nth f args i :
  (forall v, nth_error args i = Some v -> nth_error (positional f args) i = Some (of_py v))
  /\ (nth_error args i = None -> nth_error (positional f args) i = None \/ nth_error (positional f args) i = Some Absent).
Proof.
  unfold positional. set (n := length (filter _ (f_params f))). split.
  - intros v E. rewrite nth_error_app1 by (rewrite map_length; apply nth_error_Some; congruence).
    now apply map_nth_error.
  - intros E. apply nth_error_None in E. rewrite nth_error_app2 by (rewrite map_length; exact E).
    rewrite map_length. destruct (Nat.lt_ge_cases (i - length args) (n - length args)) as [Y|Y].
    + right. now apply nth_error_repeat.
    + left. apply nth_error_None. rewrite repeat_length. exact Y.
Qed.

(** The argument list before missing arguments are filled in. *)
Lemma given_slot f args kwargs l i v :
  NoDup (map fst kwargs) -> keywords f kwargs (positional f args) = Ok l ->
  gives f args kwargs i v -> nth_error l i = Some (of_py v).
Proof.
  intros ND E G. destruct (keywords_spec _ _ _ _ ND E) as (A & B & _).
  destruct G as [(k & I & N)|[P N]]; [exact (A k v i I N)|].
  destruct (positional_nth f args i) as [X _]. specialize (X v P).
  destruct (B i N) as [Y|[Y _]]; congruence.
Qed.
Lemma absent_slot f args kwargs l i :
  NoDup (map fst kwargs) -> keywords f kwargs (positional f args) = Ok l ->
  gives_nothing f args kwargs i -> nth_error l i = None \/ nth_error l i = Some Absent.
Proof.
  intros ND E [P N]. destruct (keywords_spec _ _ _ _ ND E) as (A & B & _).
  destruct (positional_nth f args i) as [_ X]. specialize (X P).
  destruct (B i N) as [Y|[_ Y]]; [rewrite Y; exact X|exact Y].
Qed.
(** Each position is given or not. *)
Lemma gives_cases f args kwargs i :
  (exists v, gives f args kwargs i v) \/ gives_nothing f args kwargs i.
Proof.
  assert (D : (exists k v, In (k, v) kwargs /\ names_param f k i)
              \/ (forall k v, In (k, v) kwargs -> ~ names_param f k i)).
  { induction kwargs as [|[k v] kw IH]; [right; intros k v []|].
    destruct (last_index (f_params f) k 0) as [j|] eqn:L.
    - destruct (Nat.eq_dec j i) as [->|N].
      + left. exists k, v. split; [now left|now apply last_index_names].
      + destruct IH as [(k' & v' & I & M)|IH]; [left; exists k', v'; split; [now right|exact M]|].
        right. intros k' v' [X|I]; [|eauto]. injection X as <- <-. intros M. apply last_index_names in M. congruence.
    - destruct IH as [(k' & v' & I & M)|IH]; [left; exists k', v'; split; [now right|exact M]|].
      right. intros k' v' [X|I]; [|eauto]. injection X as <- <-. intros M. apply last_index_names in M. congruence. }
  destruct D as [(k & v & I & N)|N].
  - left. exists v. left. eauto.
  - destruct (nth_error args i) as [v|] eqn:A; [left; exists v; right; auto|right; split; auto].
Qed.

(** Nothing but None, Null and objects of the caller stands in the list. *)
Definition raw (s : slot) : Prop := match s with NullPtr _ | AutoPtr _ => False | _ => True end.
Lemma raw_keywords f kwargs l l' : Forall raw l -> keywords f kwargs l = Ok l' -> Forall raw l'.
Proof.
  revert l. induction kwargs as [|[k v] kw IH]; intros l R E; cbn [keywords] in E; [congruence|].
  destruct (last_index (f_params f) k 0) as [i|]; [|discriminate]. eapply IH; [|exact E].
  assert (R1 : Forall raw (if length l <=? i then l ++ repeat Absent (i - length l + 1) else l)).
  { destruct (length l <=? i); [|exact R]. apply Forall_app. split; [exact R|].
    apply Forall_forall. intros x X. apply repeat_spec in X. subst. exact Logic.I. }
  revert R1. generalize (if length l <=? i then l ++ repeat Absent (i - length l + 1) else l). clear.
  intros l. revert i. induction l as [|y l IH]; intros i R; [destruct i; constructor|].
  inversion R; subst. destruct i; cbn [set_nth]; constructor; auto. destruct v; exact Logic.I.
Qed.
Lemma raw_positional f args : Forall raw (positional f args).
Proof.
  unfold positional. apply Forall_app. split.
  - apply Forall_forall. intros x X. apply in_map_iff in X. destruct X as (v & <- & _). destruct v; exact Logic.I.
  - apply Forall_forall. intros x X. apply repeat_spec in X. subst. exact Logic.I.
Qed.

(** ** Filling in *)
Lemma fill_Ok b f n l l' : fill b f n l = Ok l' ->
  length l' = length l
  /\ forall i s, nth_error l i = Some s -> exists s', nth_error l' i = Some s' /\ fill_one b f (n + i) s = Ok s'.
Proof.
  revert n l'. induction l as [|x l IH]; intros n l' E; cbn [fill] in E.
  - injection E as <-. split; [reflexivity|]. intros i s X. destruct i; discriminate.
  - destruct (fill_one b f n x) as [x'|] eqn:F; cbn [bind] in E; [|discriminate].
    destruct (fill b f (S n) l) as [r'|] eqn:R; cbn [bind] in E; [|discriminate]. injection E as <-.
    destruct (IH _ _ R) as [L A]. split; [cbn; congruence|]. intros i s X. destruct i as [|i]; cbn in X.
    + injection X as <-. exists x'. rewrite Nat.add_0_r. auto.
    + destruct (A i s X) as (s' & S1 & S2). exists s'. split; [exact S1|].
      replace (n + S i) with (S n + i) by lia. exact S2.
Qed.
Lemma fill_Err b f n l e : fill b f n l = Err e ->
  exists i s, nth_error l i = Some s /\ fill_one b f (n + i) s = Err e.
Proof.
  revert n. induction l as [|x l IH]; intros n E; cbn [fill] in E; [discriminate|].
  destruct (fill_one b f n x) as [x'|] eqn:F; cbn [bind] in E.
  - destruct (fill b f (S n) l) as [r'|] eqn:R; cbn [bind] in E; [discriminate|]. injection E as ->.
    destruct (IH _ R) as (i & s & N & X). exists (S i), s. split; [exact N|].
    replace (n + S i) with (S n + i) by lia. exact X.
  - injection E as ->. exists 0, x. rewrite Nat.add_0_r. auto.
Qed.
(** The first bad argument decides. *)
Lemma fill_first b f n l e i s : nth_error l i = Some s -> fill_one b f (n + i) s = Err e ->
  exists j t e', j <= i /\ nth_error l j = Some t /\ fill_one b f (n + j) t = Err e' /\ fill b f n l = Err e'.
Proof.
  revert n i. induction l as [|x l IH]; intros n i N E; [destruct i; discriminate|]. cbn [fill].
  destruct (fill_one b f n x) as [x'|e'] eqn:F; cbn [bind].
  - destruct i as [|i]; cbn in N.
    + injection N as ->. rewrite Nat.add_0_r in E. congruence.
    + replace (n + S i) with (S n + i) in E by lia.
      destruct (IH (S n) i N E) as (j & t & e' & L & Nj & Fj & R). rewrite R. cbn [bind].
      exists (S j), t, e'. repeat split; auto; [lia|]. replace (n + S j) with (S n + j) by lia. exact Fj.
  - exists 0, x, e'. rewrite Nat.add_0_r. repeat split; auto. lia.
Qed.

Lemma fill_one_given b f i id s' : fill_one b f i (Given id) = Ok s' -> s' = Given id.
Proof. cbn. congruence. Qed.
Lemma fill_one_null b f i s' : fill_one b f i Null = Ok s' ->
  exists p, nth_error (f_params f) i = Some p /\ s' = NullPtr (p_type p).
Proof.
  cbn [fill_one]. destruct (nth_error (f_params f) i) as [p|]; [|discriminate].
  destruct (eval_type _ _ _) as [t|[]]; cbn [bind]; try discriminate.
  destruct (length (t_decls t) <? 1); [discriminate|].
  destruct (b_null b (p_type p)) as [[]|[]]; cbn [bind]; try discriminate.
  intros E. injection E as <-. eauto.
Qed.
Lemma fill_one_absent b f i s' : fill_one b f i Absent = Ok s' ->
  exists p, nth_error (f_params f) i = Some p /\ s' = AutoPtr (p_type p).
Proof.
  cbn [fill_one]. destruct (nth_error (f_params f) i) as [p|]; [|discriminate].
  destruct (eval_type _ _ _) as [t|[]]; cbn [bind]; try discriminate.
  destruct (assert_pointer t) as [[]|[]]; cbn [bind]; try discriminate.
  destruct (b_pointer b (p_type p)) as [[]|[]]; cbn [bind]; try discriminate.
  intros E. injection E as <-. eauto.
Qed.

(** ** C51 *)
Lemma call_called b f args kwargs l g : call b f args kwargs = Called l g ->
  exists l0, keywords f kwargs (positional f args) = Ok l0 /\ fill b f 0 l0 = Ok l
    /\ f_lock f = false /\ length (f_params f) <= length l /\ g = guessed_from 0 l.
Proof.
  unfold call. destruct (keywords _ _ _) as [l0|]; [|discriminate].
  destruct (fill b f 0 l0) as [l'|] eqn:F; [|discriminate].
  destruct (f_lock f); [discriminate|]. destruct (Nat.ltb_spec (length l') (length (f_params f))); [discriminate|].
  intros E. injection E as <- <-. exists l0. auto.
Qed.

Lemma args_delivered b f args kwargs l g :
  NoDup (map fst kwargs) -> call b f args kwargs = Called l g ->
  (forall k v, In (k, v) kwargs -> exists i s, names_param f k i /\ nth_error l i = Some s /\ receives f i v s)
  /\ (forall i v, nth_error args i = Some v -> (forall k w, In (k, w) kwargs -> ~ names_param f k i) ->
      exists s, nth_error l i = Some s /\ receives f i v s)
  /\ (forall i p, nth_error (f_params f) i = Some p -> exists s, nth_error l i = Some s /\ has_arg p s).
Proof.
  intros ND C. destruct (call_called _ _ _ _ _ _ C) as (l0 & K & F & _ & LE & _).
  destruct (fill_Ok _ _ _ _ _ F) as [LL FI].
  assert (G : forall i v, gives f args kwargs i v -> exists s, nth_error l i = Some s /\ receives f i v s).
  { intros i v GV. pose proof (given_slot _ _ _ _ _ _ ND K GV) as N0.
    destruct (FI _ _ N0) as (s & N & FO). exists s. split; [exact N|]. destruct v as [|id]; cbn [of_py receives] in *.
    - now apply fill_one_null in FO.
    - now apply fill_one_given in FO. }
  split; [|split].
  - intros k v I. destruct (keywords_spec _ _ _ _ ND K) as (_ & _ & EX). destruct (EX k v I) as [i N].
    destruct (G i v) as (s & Ns & R); [left; eauto|]. exists i, s. auto.
  - intros i v A N. apply G. right. auto.
  - intros i p P. destruct (nth_error l i) as [s|] eqn:N.
    + exists s. split; [reflexivity|].
      assert (N0 : exists s0, nth_error l0 i = Some s0).
      { destruct (nth_error l0 i) as [s0|] eqn:X; [eauto|]. apply nth_error_None in X. rewrite <- LL in X.
        apply nth_error_None in X. congruence. }
      destruct N0 as [s0 N0]. destruct (FI _ _ N0) as (s1 & N1 & FO). assert (s1 = s) by congruence. subst s1.
      cbn [Nat.add] in FO.
      assert (R0 : raw s0).
      { pose proof (raw_keywords _ _ _ _ (raw_positional f args) K) as R. rewrite Forall_forall in R.
        apply R. eapply nth_error_In. exact N0. }
      destruct s0; try destruct R0.
      * apply fill_one_absent in FO. destruct FO as (p' & P' & ->). right. right. congruence.
      * apply fill_one_null in FO. destruct FO as (p' & P' & ->). right. left. congruence.
      * apply fill_one_given in FO. subst. left. eauto.
    + exfalso. apply nth_error_None in N. assert (i < length (f_params f)) by (apply nth_error_Some; congruence). lia.
Qed.

(** ** C52 *)
Lemma wrap_params b lock sig f : wrap b lock sig = Ok f ->
  f_lock f = lock /\ forall p, In p (f_params f) -> b_type b (p_type p) = Ok tt.
Proof.
  unfold wrap. destruct sig as [[s|ret] [|[| |params] [|]] q]; try discriminate.
  destruct (elem_of _ ret || elem_of _ ret); [discriminate|].
  destruct (b_type b ret) as [[]|]; cbn [bind]; [|discriminate].
  set (ps := filter _ params). intros E.
  assert (M : forall qs r, mapM (fun p => b_type b (p_type p)) qs = Ok r ->
              forall p, In p qs -> b_type b (p_type p) = Ok tt).
  { induction qs as [|x qs IH]; intros r H p I; [destruct I|]. cbn [mapM] in H.
    destruct (b_type b (p_type x)) as [[]|] eqn:T; [|discriminate].
    destruct (mapM (fun p => b_type b (p_type p)) qs) as [ys|] eqn:Y; [|discriminate].
    destruct I as [<-|I]; [exact T|]. exact (IH ys eq_refl p I). }
  destruct (mapM (fun p => b_type b (p_type p)) ps) as [r|] eqn:P; cbn [bind] in E; [|discriminate].
  injection E as <-. cbn [f_lock f_params]. split; [reflexivity|]. exact (M ps r P).
Qed.

(** At the position of a parameter the only exception is TypeError. *)
Lemma fill_one_param_err b lock sig f i s e : reliable b -> wrap b lock sig = Ok f -> raw s ->
  i < length (f_params f) -> fill_one b f i s = Err e -> e = TypeError.
Proof.
  intros RB W R L E. destruct (nth_error (f_params f) i) as [p|] eqn:P;
    [|apply nth_error_None in P; lia].
  destruct (wrap_params _ _ _ _ W) as [_ BT]. specialize (BT p (nth_error_In _ _ P)).
  destruct (RB _ BT) as ((t & T) & NL & PT).
  destruct s; cbn [fill_one] in E; try discriminate; rewrite P, T in E; cbn [bind] in E.
  - rewrite PT in E. unfold assert_pointer in E.
    destruct ((1 <=? length (t_decls t)) && (length (t_decls t) <=? 2)); cbn [bind] in E; [|congruence].
    destruct (forallb hashable (t_decls t)); cbn [bind] in E; [|congruence].
    destruct (forallb is_star (t_decls t)); cbn [bind] in E; congruence.
  - rewrite NL in E. destruct (length (t_decls t) <? 1); cbn [bind] in E; congruence.
Qed.

Lemma bad_slot b lock sig f l i s e :
  reliable b -> wrap b lock sig = Ok f -> Forall raw l -> i < length (f_params f) ->
  nth_error l i = Some s -> fill_one b f i s = Err e -> fill b f 0 l = Err TypeError.
Proof.
  intros RB W R L N F. destruct (fill_first b f 0 l e i s N F) as (j & t & e' & LE & Nj & Fj & X).
  cbn [Nat.add] in Fj. rewrite X. f_equal.
  apply (fill_one_param_err b lock sig f j t e' RB W); [|lia|exact Fj].
  rewrite Forall_forall in R. apply R. eapply nth_error_In. exact Nj.
Qed.

Lemma unknown_refused b f args kwargs k v :
  In (k, v) kwargs -> unknown f k -> call b f args kwargs = Refused TypeError.
Proof. intros I U. unfold call. now rewrite (keywords_unknown f kwargs _ k v I U). Qed.

Lemma null_refused b lock sig f args kwargs i p :
  reliable b -> wrap b lock sig = Ok f -> NoDup (map fst kwargs) ->
  nth_error (f_params f) i = Some p -> not_pointer b p -> gives f args kwargs i PNone ->
  call b f args kwargs = Refused TypeError.
Proof.
  intros RB W ND P (s & q & T) G. unfold call.
  destruct (keywords f kwargs (positional f args)) as [l|e] eqn:K; [|now rewrite (keywords_Err _ _ _ _ K)].
  pose proof (given_slot _ _ _ _ _ _ ND K G) as N. cbn [of_py] in N.
  rewrite (bad_slot b lock sig f l i Null TypeError RB W); auto.
  - eapply raw_keywords; [apply raw_positional|exact K].
  - apply nth_error_Some. congruence.
  - cbn [fill_one]. rewrite P, T. reflexivity.
Qed.

Lemma missing_refused b lock sig f args kwargs i p :
  reliable b -> wrap b lock sig = Ok f -> NoDup (map fst kwargs) ->
  nth_error (f_params f) i = Some p -> not_pointer b p -> gives_nothing f args kwargs i ->
  exists e, call b f args kwargs = Refused e /\ (lock = false -> e = TypeError).
Proof.
  intros RB W ND P (s & q & T) G. unfold call.
  destruct (keywords f kwargs (positional f args)) as [l|e] eqn:K;
    [|rewrite (keywords_Err _ _ _ _ K); eauto].
  assert (R : Forall raw l) by (eapply raw_keywords; [apply raw_positional|exact K]).
  assert (L : i < length (f_params f)) by (apply nth_error_Some; congruence).
  destruct (absent_slot _ _ _ _ _ ND K G) as [N|N].
  - destruct (fill b f 0 l) as [l'|e] eqn:F.
    + destruct (fill_Ok _ _ _ _ _ F) as [LL _]. destruct (wrap_params _ _ _ _ W) as [-> _].
      destruct lock; [eexists; split; [reflexivity|discriminate]|].
      apply nth_error_None in N. destruct (Nat.ltb_spec (length l') (length (f_params f))); [eauto|lia].
    + apply fill_Err in F. destruct F as (j & t & Nj & Fj). cbn [Nat.add] in Fj.
      assert (j < length l) by (apply nth_error_Some; congruence). apply nth_error_None in N.
      assert (e = TypeError).
      { apply (fill_one_param_err b lock sig f j t e RB W); [|lia|exact Fj].
        rewrite Forall_forall in R. apply R. eapply nth_error_In. exact Nj. }
      subst. eauto.
  - rewrite (bad_slot b lock sig f l i Absent TypeError RB W); auto; [eauto|].
    cbn [fill_one]. rewrite P, T. reflexivity.
Qed.

(** ** C54 *)
Lemma no_elem s ret : ~ mentions ret s -> elem_of s ret = false.
Proof.
  intros N. unfold elem_of. apply orb_false_iff. split.
  - destruct (t_spec ret) as [x|] eqn:E; [|reflexivity]. destruct (eqb_spec s x) as [->|]; [|reflexivity]. exfalso. apply N. left. exact E.
  - apply not_true_is_false. intros X. apply existsb_exists in X. destruct X as ([x| |] & I1 & E); try discriminate E. apply eqb_eq in E. subst x. apply N. right. exact I1.
Qed.
Lemma wrap_ok b ret params q :
  ~ mentions ret $"__stdcall" -> ~ mentions ret $"__cdecl" ->
  b_type b ret = Ok tt -> (forall p, In p params -> ~ void_param p -> b_type b (p_type p) = Ok tt) ->
  forall lock, exists f, wrap b lock (signature ret params q) = Ok f /\ f_lock f = lock
    /\ f_ret f = ret /\ wraps params f.
Proof.
  intros S C R P lock. unfold wrap, signature. rewrite (no_elem _ _ S), (no_elem _ _ C), R. cbn [orb bind].
  assert (M : forall qs, (forall p, In p qs -> b_type b (p_type p) = Ok tt) ->
              exists r, mapM (fun p => b_type b (p_type p)) qs = Ok r).
  { induction qs as [|x qs IH]; intros H; [exists []; reflexivity|]. cbn [mapM].
    rewrite (H x (or_introl eq_refl)). destruct IH as [r ->]; [intros p I; apply H; now right|]. eexists. reflexivity. }
  destruct (M (filter (fun p => negb (is_void (p_type p))) params)) as [r E].
  { intros p I. apply filter_In in I. destruct I as [I V]. apply P; [exact I|].
    intros [q' X]. rewrite X in V. discriminate V. }
  rewrite E. cbn [bind]. eexists. split; [reflexivity|]. split; [reflexivity|]. split; [reflexivity|].
  split; cbn [f_params].
  - intros F. clear - F. induction F as [|p l N F IH]; [reflexivity|]. cbn [filter].
    destruct (is_void (p_type p)) eqn:V; cbn [negb]; [|now rewrite IH].
    exfalso. apply N. unfold is_void in V. destruct (p_type p) as [[s|s] [|d ds] q'] eqn:T; try discriminate V.
    apply eqb_eq in V. subst s. exists q'. exact T.
  - intros p -> [q' V]. cbn [filter]. rewrite V. reflexivity.
Qed.

Lemma fill_given b f n l : Forall (fun s => exists id, s = Given id) l -> fill b f n l = Ok l.
Proof.
  revert n. induction l as [|x l IH]; intros n F; [reflexivity|]. inversion F as [|? ? [id ->] F']; subst.
  cbn [fill fill_one bind]. now rewrite (IH (S n) F').
Qed.
Lemma filter_shorter {A} (h : A -> bool) l : length (filter h l) <= length l.
Proof. induction l as [|x l IH]; [auto|]. cbn. destruct (h x); cbn; lia. Qed.
Lemma call_ok b f args kwargs :
  f_lock f = false -> NoDup (map fst kwargs) ->
  (forall k v, In (k, v) kwargs -> ~ unknown f k) ->
  (forall i, i < length (f_params f) -> exists id, gives f args kwargs i (PVal id)) ->
  length args <= length (f_params f) ->
  exists l, call b f args kwargs = Called l [] /\ length l = length (f_params f).
Proof.
  intros LK ND KN GV LA. unfold call.
  assert (K : exists l, keywords f kwargs (positional f args) = Ok l /\ length l <= length (f_params f)).
  { assert (L0 : length (positional f args) <= length (f_params f)).
    { unfold positional. rewrite app_length, map_length, repeat_length.
      pose proof (filter_shorter (fun p => match p_default p with None => true | _ => false end) (f_params f)). lia. }
    revert L0. generalize (positional f args). clear GV ND. induction kwargs as [|[k v] kw IH]; intros l L0; cbn [keywords].
    - eauto.
    - destruct (last_index (f_params f) k 0) as [i|] eqn:X.
      + apply IH.
        * intros k' v' I. apply (KN k' v'). now right.
        * rewrite length_set. apply last_index_names in X. destruct X as [(p & P & _) _].
          assert (i < length (f_params f)) by (apply nth_error_Some; congruence).
          destruct (Nat.leb_spec (length l) i); [|exact L0]. rewrite app_length, repeat_length. lia.
      + exfalso. apply (KN k v); [now left|]. now apply last_index_unknown. }
  destruct K as (l & K & LL). rewrite K.
  assert (G : Forall (fun s => exists id, s = Given id) l).
  { apply Forall_forall. intros s I. apply In_nth_error in I. destruct I as [i N].
    assert (i < length l) by (apply nth_error_Some; congruence).
    destruct (GV i ltac:(lia)) as [id G]. pose proof (given_slot _ _ _ _ _ _ ND K G) as X. exists id. cbn in X. congruence. }
  rewrite (fill_given b f 0 l G), LK.
  assert (LE : length (f_params f) <= length l).
  { destruct (Nat.lt_ge_cases (length l) (length (f_params f))) as [X|X]; [|exact X]. exfalso.
    destruct (GV (length l) X) as [id G']. pose proof (given_slot _ _ _ _ _ _ ND K G') as Y.
    assert (length l < length l) by (apply nth_error_Some; congruence). lia. }
  destruct (Nat.ltb_spec (length l) (length (f_params f))); [lia|]. exists l. split; [|lia]. f_equal.
  clear - G. generalize 0. induction G as [|x l [id ->] G IH]; intros n; [reflexivity|]. cbn. apply IH.
Qed.

(** ** C53 *)
Lemma guessed_In n l j : In j (guessed_from n l) <-> exists i t, j = n + i /\ nth_error l i = Some (AutoPtr t).
Proof.
  revert n. induction l as [|x l IH]; intros n; cbn [guessed_from].
  - split; [intros []|]. intros (i & t & _ & E). destruct i; discriminate.
  - assert (X : In j (guessed_from (S n) l) <-> exists i t, j = n + S i /\ nth_error l i = Some (AutoPtr t)).
    { rewrite IH. split; intros (i & t & E & N); exists i, t; split; auto; lia. }
    assert (Y : forall P : Prop, (P <-> j = n /\ exists t, x = AutoPtr t) ->
      ((P \/ In j (guessed_from (S n) l)) <-> exists i t, j = n + i /\ nth_error (x :: l) i = Some (AutoPtr t))).
    { intros P HP. rewrite HP, X. split.
      - intros [[-> [t ->]]|(i & t & E & N)]; [exists 0, t; split; [lia|reflexivity]|exists (S i), t; auto].
      - intros (i & t & E & N). destruct i as [|i]; cbn in N.
        + left. injection N as ->. split; [lia|eauto].
        + right. exists i, t. auto. }
    destruct x as [| |id|t|t]; try (rewrite <- (Y False); [tauto|split; [intros []|intros [_ [t' E]]; discriminate E]]).
    cbn [In]. apply Y. split; [intros <-; eauto|intros [-> _]; reflexivity].
Qed.
Lemma in_guessed_spec f l i s : nth_error l i = Some s ->
  in_guessed (result_of f l (guessed_from 0 l)) (Z.of_nat i) = is_auto s.
Proof.
  intros N. unfold in_guessed. cbn [result_of r_guessed]. apply eq_true_iff_eq. rewrite existsb_exists. split.
  - intros (g & I & E). apply Z.eqb_eq in E. apply Nat2Z.inj in E. subst g. apply guessed_In in I.
    destruct I as (j & t & -> & Nj). cbn in N. rewrite N in Nj. injection Nj as ->. reflexivity.
  - intros A. exists i. split; [|apply Z.eqb_refl]. apply guessed_In. destruct s; try discriminate.
    exists i, t. auto.
Qed.
Lemma py_index_nat len i : py_index len (Z.of_nat i) = if i <? len then Some i else None.
Proof.
  unfold py_index. destruct (Z.leb_spec 0 (Z.of_nat i)); [|lia].
  destruct (Z.ltb_spec (Z.of_nat i) (Z.of_nat len)), (Nat.ltb_spec i len); try lia; [|reflexivity].
  now rewrite Nat2Z.id.
Qed.
Lemma get_int f l i : let r := result_of f l (guessed_from 0 l) in
  get_item r (Int (Z.of_nat i)) = match nth_error l i with Some s => Ok (show s) | None => Err IndexError end.
Proof.
  intros r. unfold get_item. cbn [bind]. rewrite py_index_nat. change (r_args r) with l.
  destruct (Nat.ltb_spec i (length l)) as [L|L].
  - destruct (nth_error l i) as [s|] eqn:N; [|apply nth_error_None in N; lia].
    unfold r. rewrite (in_guessed_spec f l i s N). destruct s; reflexivity.
  - apply nth_error_None in L. now rewrite L.
Qed.
Lemma find_arg_spec ps k n : distinct_names ps ->
  (forall i p, nth_error ps i = Some p -> p_name p = Some k -> find_arg ps k n = Ok (n + i))
  /\ ((forall i p, nth_error ps i = Some p -> p_name p <> Some k) -> find_arg ps k n = Err KeyError).
Proof.
  revert n. induction ps as [|x ps IH]; intros n D; split.
  - intros i p N. destruct i; discriminate.
  - reflexivity.
  - intros i p N K. cbn [find_arg]. destruct (eqb_spec (p_name x) (Some k)) as [E|E].
    + rewrite (D i 0 p x k N eq_refl K E), Nat.add_0_r. reflexivity.
    + destruct i as [|i]; cbn in N; [congruence|].
      assert (D' : distinct_names ps).
      { intros a b p' q' k' A B C C'. pose proof (D (S a) (S b) p' q' k' A B C C'). lia. }
      rewrite (proj1 (IH (S n) D') i p N K). f_equal. lia.
  - intros NK. cbn [find_arg]. destruct (eqb_spec (p_name x) (Some k)) as [E|E].
    + destruct (NK 0 x eq_refl E).
    + assert (D' : distinct_names ps).
      { intros a b p' q' k' A B C C'. pose proof (D (S a) (S b) p' q' k' A B C C'). lia. }
      apply (IH (S n) D'). intros i p N. exact (NK (S i) p N).
Qed.
Lemma mapM_map_ok {A B} (f : A -> res B) (g : A -> B) l :
  (forall x, In x l -> f x = Ok (g x)) -> mapM f l = Ok (map g l).
Proof.
  induction l as [|x l IH]; intros H; [reflexivity|]. cbn [mapM map]. rewrite (H x (or_introl eq_refl)).
  rewrite IH; [reflexivity|]. intros y I. apply H. now right.
Qed.
Lemma iterate_ok f l : let r := result_of f l (guessed_from 0 l) in iterate r = Ok (map show l).
Proof.
  intros r. unfold iterate. change (r_args r) with l.
  assert (X : forall m n, n + length m = length l -> skipn n l = m ->
     mapM (fun i => get_item r (Int (Z.of_nat i))) (seq n (length m)) = Ok (map show m)).
  { induction m as [|x m IH]; intros n L SK; [reflexivity|]. cbn [length seq mapM map].
    assert (N : nth_error l n = Some x).
    { rewrite <- (Nat.add_0_r n). clear - SK. revert l SK. induction n as [|n IH]; intros l SK; [cbn in SK; now subst|].
      destruct l; [discriminate|]. cbn in *. now apply IH. }
    unfold r at 1. rewrite get_int, N.
    assert (SK' : skipn (S n) l = m).
    { clear - SK. revert l SK. induction n as [|n IH]; intros l SK; [cbn in SK; subst; reflexivity|].
      destruct l; [discriminate|]. cbn in *. now apply IH. }
    rewrite (IH (S n)); [reflexivity| |exact SK']. cbn in L. lia. }
  apply (X l 0); reflexivity.
Qed.
Lemma auto_ok f l : let r := result_of f l (guessed_from 0 l) in auto r = Ok (map Deref (filter is_auto l)).
Proof.
  intros r. unfold auto. change (r_guessed r) with (guessed_from 0 l).
  assert (X : forall m n, skipn n l = m ->
     mapM (fun g => get_item r (Int (Z.of_nat g))) (guessed_from n m) = Ok (map Deref (filter is_auto m))).
  { induction m as [|x m IH]; intros n SK; [reflexivity|]. cbn [guessed_from filter is_auto].
    assert (N : nth_error l n = Some x).
    { clear - SK. revert l SK. induction n as [|n IH]; intros l SK; [cbn in SK; now subst|].
      destruct l; [discriminate|]. cbn in *. now apply IH. }
    assert (SK' : skipn (S n) l = m).
    { clear - SK. revert l SK. induction n as [|n IH]; intros l SK; [cbn in SK; subst; reflexivity|].
      destruct l; [discriminate|]. cbn in *. now apply IH. }
    specialize (IH (S n) SK').
    destruct x; cbn [is_auto]; try exact IH. cbn [mapM map]. unfold r at 1. rewrite get_int, N, IH. reflexivity. }
  apply (X l 0). reflexivity.
Qed.

Lemma set_get f l i v r' : let r := result_of f l (guessed_from 0 l) in
  set_item r (Int (Z.of_nat i)) v = Ok r' ->
  (forall s, nth_error l i = Some s -> ~ automatic s -> get_item r' (Int (Z.of_nat i)) = Ok (Plain v))
  /\ (forall j, j <> i -> get_item r' (Int (Z.of_nat j)) = get_item r (Int (Z.of_nat j))).
Proof.
  intros r. unfold set_item. cbn [bind]. rewrite py_index_nat. cbn [r result_of r_args].
  destruct (Nat.ltb_spec i (length l)) as [L|L]; [|discriminate]. intros E. injection E as <-.
  split.
  - intros s N NA. unfold get_item. cbn [bind]. rewrite py_index_nat. cbn [r_args]. rewrite length_set.
    destruct (Nat.ltb_spec i (length l)); [|lia]. rewrite nth_set_same by exact L.
    pose proof (in_guessed_spec f l i s N) as G. unfold in_guessed in *. cbn [r_guessed result_of] in *. rewrite G.
    destruct s; try reflexivity. exfalso. apply NA. now exists t.
  - intros j NE. unfold get_item. cbn [bind]. rewrite !py_index_nat. cbn [r_args]. change (r_args r) with l. rewrite length_set.
    destruct (j <? length l); [|reflexivity]. rewrite nth_set_other by congruence. reflexivity.
Qed.

Lemma results b f args kwargs l g :
  call b f args kwargs = Called l g -> distinct_names (f_params f) ->
  let r := result_of f l g in
  (forall i p k, nth_error (f_params f) i = Some p -> p_name p = Some k ->
      exists s, nth_error l i = Some s /\ get_item r (Name k) = Ok (show s) /\ get_item r (Int (Z.of_nat i)) = Ok (show s))
  /\ (forall k, unknown f k -> get_item r (Name k) = Err KeyError)
  /\ (forall i, get_item r (Int (Z.of_nat i)) = match nth_error l i with Some s => Ok (show s) | None => Err IndexError end)
  /\ iterate r = Ok (map show l)
  /\ auto r = Ok (map Deref (filter is_auto l))
  /\ (forall i v r', set_item r (Int (Z.of_nat i)) v = Ok r' ->
        (forall s, nth_error l i = Some s -> ~ automatic s -> get_item r' (Int (Z.of_nat i)) = Ok (Plain v))
        /\ (forall j, j <> i -> get_item r' (Int (Z.of_nat j)) = get_item r (Int (Z.of_nat j)))).
Proof.
  intros C D r. destruct (call_called _ _ _ _ _ _ C) as (l0 & _ & _ & _ & LE & ->).
  split; [|split; [|split; [|split; [|split]]]].
  - intros i p k N K. destruct (nth_error l i) as [s|] eqn:S.
    + exists s. split; [reflexivity|]. pose proof (get_int f l i) as G. cbn zeta in G. rewrite S in G.
      split; [|exact G]. rewrite <- G. unfold get_item. change (r_params r) with (f_params f).
      rewrite (proj1 (find_arg_spec _ k 0 D) i p N K). reflexivity.
    + exfalso. apply nth_error_None in S. assert (i < length (f_params f)) by (apply nth_error_Some; congruence). lia.
  - intros k U. unfold get_item. change (r_params r) with (f_params f).
    rewrite (proj2 (find_arg_spec _ k 0 D)); [reflexivity|]. intros i p N. exact (U i p N).
  - intros i. apply get_int.
  - apply iterate_ok.
  - apply auto_ok.
  - intros i v r'. apply set_get.
Qed.
