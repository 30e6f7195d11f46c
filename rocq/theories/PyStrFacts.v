(** Facts about the Python string primitives. *)
From Coq Require Import Ascii String Bool Arith Lia List.
Import ListNotations.
From Verif Require Import PyBase PyBaseFacts PyStr.

Lemma cheq_true c d : cheq c d = true <-> c = d.
Proof. apply Ascii.eqb_eq. Qed.
Lemma cheq_refl c : cheq c c = true.
Proof. apply cheq_true. reflexivity. Qed.
Lemma cheq_false c d : cheq c d = false <-> c <> d.
Proof. apply Ascii.eqb_neq. Qed.
Lemma cheq_spec c d : reflect (c = d) (cheq c d).
Proof. apply Ascii.eqb_spec. Qed.

(** Exhaustive check over the 256 characters. *)
Lemma ascii_all (P : ascii -> bool) :
  forallb P (map ascii_of_nat (seq 0 256)) = true -> forall c, P c = true.
Proof.
  intros A c. rewrite forallb_forall in A. apply A.
  apply in_map_iff. exists (nat_of_ascii c). split.
  - apply ascii_nat_embedding.
  - apply in_seq. pose proof (nat_ascii_bounded c). lia.
Qed.

Lemma word_not_space c : is_word c = true -> is_space c = false.
Proof.
  intros E. apply negb_true_iff.
  pose proof (ascii_all (fun c => negb (is_word c) || negb (is_space c)) eq_refl c) as A.
  simpl in A. rewrite E in A. exact A.
Qed.

Lemma space_not_word c : is_space c = true -> is_word c = false.
Proof.
  intros E. destruct (is_word c) eqn:W; auto.
  apply word_not_space in W. congruence.
Qed.

Lemma idchar_word c : is_idchar c = true -> is_word c = true.
Proof. unfold is_word. intros ->. reflexivity. Qed.

Lemma idstart_idchar c : is_idstart c = true -> is_idchar c = true.
Proof.
  unfold is_idstart, is_idchar, is_alnum. intros E.
  apply orb_true_iff in E. destruct E as [E|E]; rewrite E; simpl; auto.
  apply orb_true_r.
Qed.

Lemma span_app p s : let (a, b) := span p s in s = a ++ b.
Proof.
  induction s as [|c s IH]; simpl; [reflexivity|].
  destruct (p c); [|reflexivity].
  destruct (span p s) as [a b]. simpl. congruence.
Qed.

Lemma span_all p s : forallb p (fst (span p s)) = true.
Proof.
  induction s as [|c s IH]; simpl; [reflexivity|].
  destruct (p c) eqn:E; [|reflexivity].
  destruct (span p s) as [a b]. simpl in *. rewrite E. exact IH.
Qed.

Lemma span_head p s c r : snd (span p s) = c :: r -> p c = false.
Proof.
  induction s as [|d s IH]; simpl; [discriminate|].
  destruct (p d) eqn:E.
  - destruct (span p s) as [a b]. exact IH.
  - simpl. intros X. injection X as -> ->. exact E.
Qed.

Lemma span_app_all p a b :
  forallb p a = true ->
  (match b with [] => true | c :: _ => negb (p c) end = true) ->
  span p (a ++ b) = (a, b).
Proof.
  induction a as [|c a IH]; simpl; intros A B.
  - destruct b as [|d b]; simpl; auto.
    apply negb_true_iff in B. rewrite B. reflexivity.
  - apply andb_true_iff in A. destruct A as [A1 A2]. rewrite A1.
    rewrite (IH A2 B). reflexivity.
Qed.

Lemma drop_while_app_all p a b :
  forallb p a = true -> drop_while p (a ++ b) = drop_while p b.
Proof.
  induction a as [|c a IH]; simpl; intros A; auto.
  apply andb_true_iff in A. destruct A as [A1 A2]. rewrite A1. auto.
Qed.

Lemma drop_while_head p s c r : drop_while p s = c :: r -> p c = false.
Proof.
  induction s as [|d s IH]; simpl; [discriminate|].
  destruct (p d) eqn:E; auto.
  intros X. injection X as -> ->. exact E.
Qed.

Lemma drop_while_idem p s : drop_while p (drop_while p s) = drop_while p s.
Proof.
  destruct (drop_while p s) as [|c r] eqn:E; simpl; auto.
  rewrite (drop_while_head _ _ _ _ E). reflexivity.
Qed.

Lemma drop_while_none p s :
  match s with [] => true | c :: _ => negb (p c) end = true -> drop_while p s = s.
Proof.
  destruct s as [|c s]; simpl; auto. intros E.
  apply negb_true_iff in E. rewrite E. reflexivity.
Qed.

Lemma drop_while_suffix p s : exists a, s = a ++ drop_while p s /\ forallb p a = true.
Proof.
  induction s as [|c s (a & E & F)]; simpl.
  - exists []. auto.
  - destruct (p c) eqn:P.
    + exists (c :: a). simpl. rewrite P, F. split; [f_equal; exact E | reflexivity].
    + exists []. auto.
Qed.

Lemma seqb_eq (a b : str) : eqb a b = true <-> a = b.
Proof. apply eqb_true. Qed.

Lemma starts_with_app p s : starts_with p (p ++ s) = true.
Proof. induction p; simpl; auto. rewrite cheq_refl. auto. Qed.

Lemma starts_with_iff p s : starts_with p s = true <-> exists r, s = p ++ r.
Proof.
  revert s. induction p as [|c p IH]; simpl; intros s.
  - split; auto. intros _. exists s. reflexivity.
  - destruct s as [|d s].
    + split; [discriminate|]. intros [r E]. discriminate.
    + rewrite andb_true_iff, cheq_true, IH. split.
      * intros [-> [r ->]]. exists r. reflexivity.
      * intros [r E]. injection E as -> ->. split; auto. exists r. reflexivity.
Qed.

Lemma strip_prefix_iff p s r : strip_prefix p s = Some r <-> s = p ++ r.
Proof.
  revert s. induction p as [|c p IH]; simpl; intros s.
  - split; congruence.
  - destruct s as [|d s].
    + split; discriminate.
    + destruct (cheq_spec c d) as [->|N].
      * rewrite IH. split; congruence.
      * split; [discriminate|]. intros E. injection E as -> _. congruence.
Qed.

Lemma split_first_iff sep s a b :
  split_first sep s = Some (a, b) <-> s = a ++ sep :: b /\ ~ In sep a.
Proof.
  revert a b. induction s as [|c s IH]; simpl; intros a b.
  - split; [discriminate|]. intros [E _]. destruct a; discriminate.
  - destruct (cheq_spec c sep) as [->|N].
    + split.
      * intros E. injection E as <- <-. split; auto.
      * intros [E NI]. destruct a as [|x a].
        -- simpl in E. injection E as ->. reflexivity.
        -- simpl in E. injection E as -> ->. exfalso. apply NI. left. reflexivity.
    + destruct (split_first sep s) as [[x y]|] eqn:E.
      * split.
        -- intros X. injection X as <- <-.
           destruct (IH x y) as [I _]. destruct (I eq_refl) as [-> NI].
           split; auto. simpl. intros [Y|Y]; auto.
        -- intros [X NI]. destruct a as [|z a].
           ++ simpl in X. congruence.
           ++ simpl in X. injection X as -> ->.
              destruct (IH a b) as [_ I].
              assert (Y : Some (x, y) = Some (a, b)).
              { apply I. split; auto. intros J. apply NI. right. exact J. }
              injection Y as -> ->. reflexivity.
      * split; [discriminate|]. intros [X NI]. destruct a as [|z a].
        -- simpl in X. congruence.
        -- simpl in X. injection X as -> ->.
           destruct (IH a b) as [_ I].
           assert (Y : None = Some (a, b)).
           { apply I. split; auto. intros J. apply NI. right. exact J. }
           discriminate.
Qed.

Lemma split_first_None sep s : split_first sep s = None <-> ~ In sep s.
Proof.
  split.
  - intros E I. apply in_split in I. revert E.
    induction s as [|c s IH]; simpl.
    + destruct I as (l1 & l2 & E). destruct l1; discriminate.
    + destruct (cheq_spec c sep) as [->|N]; [discriminate|].
      destruct (split_first sep s) as [[x y]|]; [discriminate|].
      intros _. destruct I as (l1 & l2 & E). destruct l1 as [|z l1]; simpl in E.
      * congruence.
      * injection E as _ E. apply IH; auto. exists l1, l2. exact E.
  - intros N. destruct (split_first sep s) as [[a b]|] eqn:E; auto.
    apply split_first_iff in E. destruct E as [-> _]. exfalso. apply N.
    apply in_or_app. right. left. reflexivity.
Qed.

Lemma split_on_nonempty sep s : split_on sep s <> [].
Proof.
  induction s as [|c s IH]; simpl; [discriminate|].
  destruct (cheq c sep); [discriminate|].
  destruct (split_on sep s); discriminate.
Qed.

Lemma join_cons sep w ws : ws <> [] -> join sep (w :: ws) = w ++ sep ++ join sep ws.
Proof. destruct ws; [congruence|reflexivity]. Qed.

Lemma join_split_on sep s : join [sep] (split_on sep s) = s.
Proof.
  induction s as [|c s IH]; simpl; [reflexivity|].
  destruct (cheq_spec c sep) as [->|N].
  - rewrite join_cons by apply split_on_nonempty. rewrite IH. reflexivity.
  - destruct (split_on sep s) as [|w ws] eqn:E.
    + exfalso. eapply split_on_nonempty. exact E.
    + destruct ws as [|w' ws].
      * simpl in *. congruence.
      * rewrite join_cons in * by discriminate. simpl. simpl in IH. rewrite IH. reflexivity.
Qed.

Lemma split_on_no_sep sep s w : In w (split_on sep s) -> ~ In sep w.
Proof.
  revert w. induction s as [|c s IH]; simpl; intros w I.
  - destruct I as [<-|[]]. auto.
  - destruct (cheq_spec c sep) as [->|N].
    + destruct I as [<-|I]; auto.
    + destruct (split_on sep s) as [|v vs] eqn:E.
      * destruct I as [<-|[]]. simpl. intros [X|[]]. congruence.
      * destruct I as [<-|I].
        -- simpl. intros [X|X]; [congruence|]. apply (IH v); auto. left. reflexivity.
        -- apply (IH w). right. exact I.
Qed.

Lemma split_on_single sep s : ~ In sep s -> split_on sep s = [s].
Proof.
  induction s as [|c s IH]; simpl; intros N; [reflexivity|].
  destruct (cheq_spec c sep) as [->|N'].
  - exfalso. apply N. left. reflexivity.
  - rewrite IH; auto.
Qed.

Lemma split_on_app sep a b :
  ~ In sep a -> split_on sep (a ++ sep :: b) = a :: split_on sep b.
Proof.
  induction a as [|c a IH]; simpl; intros N.
  - rewrite cheq_refl. reflexivity.
  - destruct (cheq_spec c sep) as [->|N'].
    + exfalso. apply N. left. reflexivity.
    + rewrite IH; auto.
Qed.

Lemma split_on_join sep ws :
  ws <> [] -> (forall w, In w ws -> ~ In sep w) -> split_on sep (join [sep] ws) = ws.
Proof.
  induction ws as [|w ws IH]; intros NE N; [congruence|].
  destruct ws as [|w' ws].
  - simpl. apply split_on_single. apply N. left. reflexivity.
  - rewrite join_cons by discriminate. simpl app.
    rewrite split_on_app by (apply N; left; reflexivity).
    f_equal. apply IH; [discriminate|]. intros v I. apply N. right. exact I.
Qed.

Lemma but_last_last1 s : but_last s ++ last1 s = s.
Proof.
  unfold but_last, last1. induction s as [|c s IH] using rev_ind; simpl; [reflexivity|].
  rewrite rev_app_distr. simpl. rewrite removelast_last. reflexivity.
Qed.

Lemma last1_length s : length (last1 s) <= 1.
Proof. unfold last1. destruct (rev s); simpl; lia. Qed.

Lemma basename_aux_noslash cur s :
  ~ In "/"%char s -> basename_aux cur s = rev cur ++ s.
Proof.
  revert cur. induction s as [|c s IH]; simpl; intros cur N.
  - rewrite app_nil_r. reflexivity.
  - destruct (cheq_spec c "/") as [->|N'].
    + exfalso. apply N. left. reflexivity.
    + rewrite IH by auto. simpl. rewrite <- app_assoc. reflexivity.
Qed.

Lemma basename_noslash_aux cur s : ~ In "/"%char cur -> ~ In "/"%char (basename_aux cur s).
Proof.
  revert cur. induction s as [|c s IH]; simpl; intros cur N.
  - rewrite <- in_rev. exact N.
  - destruct (cheq_spec c "/") as [->|N'].
    + apply IH. auto.
    + apply IH. simpl. intros [X|X]; auto.
Qed.

Lemma basename_noslash s : ~ In "/"%char (basename s).
Proof. apply basename_noslash_aux. auto. Qed.

Lemma basename_idem s : basename (basename s) = basename s.
Proof.
  unfold basename at 1. rewrite basename_aux_noslash by apply basename_noslash. reflexivity.
Qed.
