(** Runs, words, and [str.split()]. *)
From Coq Require Import Ascii String Bool Arith Lia List.
Import ListNotations.
From Verif Require Import PyBase PyBaseFacts PyStr PyStrFacts TypeModel TypeSpec.

Definition head_not (p : ascii -> bool) (s : str) : bool :=
  match s with [] => true | c :: _ => negb (p c) end.

(** Induction on the decomposition of a text into maximal [p]-runs and other
    characters. *)
Lemma run_ind (p : ascii -> bool) (P : str -> Prop) :
  P [] ->
  (forall c r, p c = false -> P r -> P (c :: r)) ->
  (forall w r, w <> [] -> forallb p w = true -> head_not p r = true -> P r -> P (w ++ r)) ->
  forall s, P s.
Proof.
  intros H0 H1 H2 s.
  assert (G : forall n s, length s <= n -> P s).
  { clear s. induction n as [|n IH]; intros s L.
    - destruct s; [exact H0 | simpl in L; lia].
    - destruct s as [|c r]; [exact H0|]. simpl in L.
      destruct (p c) eqn:E.
      + pose proof (span_app p (c :: r)) as S1.
        pose proof (span_all p (c :: r)) as S2.
        pose proof (span_head p (c :: r)) as S3.
        destruct (span p (c :: r)) as [a b] eqn:SP. simpl in S2, S3.
        assert (NE : a <> []).
        { simpl in SP. rewrite E in SP. destruct (span p r). injection SP as <- _.
          discriminate. }
        rewrite S1. apply H2; auto.
        * destruct b as [|d b]; simpl; auto. rewrite (S3 d b eq_refl). reflexivity.
        * apply IH. assert (LL : length (c :: r) = length (a ++ b)) by (rewrite <- S1; reflexivity).
          rewrite app_length in LL. simpl in LL. destruct a; [congruence|]. simpl in LL. lia.
      + apply H1; auto. apply IH. lia. }
  apply (G (length s)). lia.
Qed.

Definition nonspace (c : ascii) : bool := negb (is_space c).

Lemma split_ws_nil : split_ws [] = [].
Proof. reflexivity. Qed.

Lemma split_ws_space c r : is_space c = true -> split_ws (c :: r) = split_ws r.
Proof. unfold split_ws. simpl. intros ->. reflexivity. Qed.

Lemma split_ws_aux_run w r cur :
  forallb nonspace w = true ->
  split_ws_aux cur (w ++ r) = split_ws_aux (rev w ++ cur) r.
Proof.
  revert cur. induction w as [|c w IH]; simpl; intros cur F; auto.
  apply andb_true_iff in F. destruct F as [F1 F2]. unfold nonspace in F1.
  apply negb_true_iff in F1. rewrite F1, IH by exact F2.
  rewrite <- app_assoc. reflexivity.
Qed.

Lemma split_ws_run w r :
  w <> [] -> forallb nonspace w = true -> head_not nonspace r = true ->
  split_ws (w ++ r) = w :: split_ws r.
Proof.
  intros NE F HN. unfold split_ws. rewrite split_ws_aux_run by exact F.
  rewrite app_nil_r.
  assert (RN : rev w <> []).
  { intros E. apply NE. rewrite <- (rev_involutive w), E. reflexivity. }
  destruct r as [|c r]; simpl.
  - destruct (rev w) eqn:E; [congruence|]. rewrite <- E, rev_involutive. reflexivity.
  - simpl in HN. unfold nonspace in HN. rewrite negb_involutive in HN. rewrite HN.
    destruct (rev w) eqn:E; [congruence|]. rewrite <- E, rev_involutive. reflexivity.
Qed.

Lemma split_ws_words s w :
  In w (split_ws s) -> w <> [] /\ forallb nonspace w = true.
Proof.
  revert w. induction s as [|c r E IH|v r NE F HN IH] using (run_ind nonspace); intros w I.
  - contradiction.
  - rewrite split_ws_space in I; auto. unfold nonspace in E.
    apply negb_false_iff in E. exact E.
  - rewrite split_ws_run in I; auto. destruct I as [<-|I]; auto.
Qed.

Lemma split_ws_app_space a c b :
  is_space c = true -> split_ws (a ++ c :: b) = split_ws a ++ split_ws b.
Proof.
  intros SC. induction a as [|d r E IH|w r NE F HN IH] using (run_ind nonspace).
  - simpl. apply split_ws_space. exact SC.
  - unfold nonspace in E. apply negb_false_iff in E. simpl.
    rewrite !split_ws_space by exact E. exact IH.
  - rewrite <- app_assoc. rewrite (split_ws_run w (r ++ c :: b)); auto.
    + rewrite IH, (split_ws_run w r) by auto. reflexivity.
    + destruct r; simpl in *; auto. unfold nonspace. rewrite SC. reflexivity.
Qed.

Lemma split_ws_all_space a : forallb is_space a = true -> split_ws a = [].
Proof.
  induction a as [|c a IH]; simpl; intros F; [reflexivity|].
  apply andb_true_iff in F. destruct F as [F1 F2]. rewrite split_ws_space; auto.
Qed.

Lemma split_ws_lead a b : forallb is_space a = true -> split_ws (a ++ b) = split_ws b.
Proof.
  induction a as [|c a IH]; simpl; intros F; [reflexivity|].
  apply andb_true_iff in F. destruct F as [F1 F2]. rewrite split_ws_space; auto.
Qed.

Lemma split_ws_trail a b : forallb is_space b = true -> split_ws (a ++ b) = split_ws a.
Proof.
  intros F. destruct b as [|c b]; [rewrite app_nil_r; reflexivity|].
  simpl in F. apply andb_true_iff in F. destruct F as [F1 F2].
  rewrite split_ws_app_space by exact F1. rewrite (split_ws_all_space b F2).
  apply app_nil_r.
Qed.

Lemma rstrip_spec s : exists b, s = rstrip s ++ b /\ forallb is_space b = true.
Proof.
  unfold rstrip. destruct (drop_while_suffix is_space (rev s)) as (a & E & F).
  exists (rev a). split.
  - rewrite <- rev_app_distr, <- E, rev_involutive. reflexivity.
  - rewrite forallb_forall in *. intros x I. apply F. apply in_rev. exact I.
Qed.

Lemma lstrip_spec s : exists a, s = a ++ lstrip s /\ forallb is_space a = true.
Proof.
  unfold lstrip. destruct (drop_while_suffix is_space s) as (a & E & F). eauto.
Qed.

Lemma split_ws_strip s : split_ws (strip s) = split_ws s.
Proof.
  unfold strip. destruct (lstrip_spec s) as (a & E & F).
  destruct (rstrip_spec (lstrip s)) as (b & E' & F').
  rewrite E at 2. rewrite split_ws_lead by exact F.
  rewrite E' at 2. rewrite split_ws_trail by exact F'. reflexivity.
Qed.

Lemma rstrip_last s c : last (rstrip s) c <> c -> is_space (last (rstrip s) c) = false.
Proof.
  unfold rstrip. destruct (drop_while is_space (rev s)) as [|d r] eqn:E; simpl.
  - congruence.
  - rewrite last_last. intros _. apply (drop_while_head _ _ _ _ E).
Qed.

Lemma lstrip_nonspace s : head_not is_space s = true -> lstrip s = s.
Proof. intros H. unfold lstrip. apply drop_while_none. exact H. Qed.

Lemma rstrip_nonspace s : head_not is_space (rev s) = true -> rstrip s = s.
Proof.
  intros H. unfold rstrip. rewrite drop_while_none by exact H. apply rev_involutive.
Qed.

Lemma head_not_lstrip s : head_not is_space (lstrip s) = true.
Proof.
  unfold lstrip. destruct (drop_while is_space s) as [|c r] eqn:E; simpl; auto.
  rewrite (drop_while_head _ _ _ _ E). reflexivity.
Qed.

Lemma head_not_rstrip s : head_not is_space (rev (rstrip s)) = true.
Proof.
  unfold rstrip. rewrite rev_involutive.
  destruct (drop_while is_space (rev s)) as [|c r] eqn:E; simpl; auto.
  rewrite (drop_while_head _ _ _ _ E). reflexivity.
Qed.

Lemma rstrip_head s : head_not is_space s = true -> head_not is_space (rstrip s) = true.
Proof.
  destruct (rstrip_spec s) as (b & E & F). destruct (rstrip s) as [|c r]; auto.
  rewrite E at 1. simpl. auto.
Qed.

Lemma strip_trim s :
  head_not is_space (strip s) = true /\ head_not is_space (rev (strip s)) = true.
Proof.
  unfold strip. split.
  - apply rstrip_head. apply head_not_lstrip.
  - apply head_not_rstrip.
Qed.

Lemma strip_id s :
  head_not is_space s = true -> head_not is_space (rev s) = true -> strip s = s.
Proof.
  intros A B. unfold strip. rewrite lstrip_nonspace by exact A.
  apply rstrip_nonspace. exact B.
Qed.

Lemma strip_idem s : strip (strip s) = strip s.
Proof. apply strip_id; apply strip_trim. Qed.

(** [str.split()] yields exactly the words of the text. *)
Lemma is_word_of_split w s : is_word_of w s <-> In w (split_ws s).
Proof.
  split.
  - intros (a & b & -> & NE & NS & BA & BB).
    assert (F : forallb nonspace w = true).
    { apply forallb_forall. intros x I. unfold nonspace. rewrite NS; auto. }
    assert (IB : In w (split_ws (w ++ b))).
    { rewrite split_ws_run; auto.
      - left. reflexivity.
      - destruct b as [|c b]; simpl in *; auto. unfold nonspace. rewrite BB. reflexivity. }
    destruct (rev a) as [|c ra] eqn:E.
    + apply (f_equal (@rev _)) in E. rewrite rev_involutive in E. subst. exact IB.
    + apply (f_equal (@rev _)) in E. rewrite rev_involutive in E. simpl in E. subst.
      simpl in BA. rewrite <- app_assoc. simpl. rewrite split_ws_app_space by exact BA.
      apply in_or_app. right. exact IB.
  - induction s as [|c r E IH|v r NE F HN IH] using (run_ind nonspace).
    + contradiction.
    + unfold nonspace in E. apply negb_false_iff in E. rewrite split_ws_space by exact E.
      intros I. destruct (IH I) as (a & b & -> & NE & NS & BA & BB).
      exists (c :: a), b. repeat split; auto. simpl.
      destruct (rev a); simpl in *; auto.
    + rewrite split_ws_run; auto. intros [<-|I].
      * exists [], r. repeat split; auto.
        -- intros c I. rewrite forallb_forall in F. specialize (F c I).
           unfold nonspace in F. apply negb_true_iff. exact F.
        -- simpl. destruct r as [|c r]; simpl in *; auto. unfold nonspace in HN.
           rewrite negb_involutive in HN. exact HN.
      * destruct (IH I) as (a & b & -> & NE' & NS & BA & BB).
        exists (v ++ a), b. rewrite <- !app_assoc. repeat split; auto.
        rewrite rev_app_distr. destruct a as [|c a]; [|].
        -- (* w would start right after v *)
           exfalso. destruct w as [|d w]; [congruence|]. simpl in HN.
           unfold nonspace in HN. rewrite negb_involutive in HN.
           rewrite (NS d) in HN by (left; reflexivity). discriminate.
        -- destruct (rev (c :: a)) eqn:E; simpl in *; auto.
           destruct (rev a); discriminate.
Qed.
