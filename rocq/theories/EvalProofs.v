(** Proofs about the evaluation of constant expressions. *)
From Coq Require Import Ascii String Bool Arith NArith ZArith Lia List.
Import ListNotations.
From Verif Require Import PyBase PyBaseFacts PyStr PyStrFacts TypeModel TypeSpec WordFacts.
From Verif Require Import MacroModel MacroSpec MacroProofs MacroDefProofs PyExpr PpModel PpSpec ExprSpec ExprProofs ExprText.
From Verif Require Import DeclModel EvalModel EvalSpec.

(** ** Decimal digits *)
Lemma digit_char r : r < 10 -> is_digit (ascii_of_nat (48 + r)) = true /\ digit_val (ascii_of_nat (48 + r)) = r.
Proof. intros L. do 10 (destruct r as [|r]; [split; reflexivity|]). lia. Qed.
Lemma zval_snoc d c : zval (d ++ [c]) = (10 * zval d + Z.of_nat (digit_val c))%Z.
Proof. unfold zval. rewrite fold_left_app. reflexivity. Qed.
Lemma size_div n : (n / 10 <> 0)%N -> (N.size_nat (n / 10) < N.size_nat n)%nat.
Proof.
  intros NZ.
  assert (L : (n / 10 <= N.div2 n)%N).
  { rewrite N.div2_div. apply N.div_le_compat_l. lia. }
  assert (M : forall a b, (a <= b)%N -> N.size_nat a <= N.size_nat b).
  { clear. intros a b H. 
    assert (E : forall x, N.size_nat x = N.to_nat (N.size x)).
    { intros [|p]; [reflexivity|]. cbn [N.size_nat N.size N.to_nat]. induction p; cbn [Pos.size_nat Pos.size]; try lia; rewrite Pos2Nat.inj_succ; lia. }
    rewrite !E. destruct (N.eq_dec a 0) as [->|NA]; [cbn; lia|].
    assert (B : b <> 0%N) by lia.
    rewrite !N.size_log2 by assumption. pose proof (N.log2_le_mono a b H). lia. }
  assert (D : n <> 0%N) by (intros ->; apply NZ; reflexivity).
  pose proof (M _ _ L) as H1.
  assert (H2 : N.size_nat (N.div2 n) < N.size_nat n).
  { destruct n as [|p]; [congruence|]. destruct p; cbn [N.div2 N.size_nat Pos.size_nat]; lia. }
  lia.
Qed.
Lemma ndec_ok f : forall n, N.size_nat n < f ->
  zval (ndec f n) = Z.of_N n /\ forallb is_digit (ndec f n) = true /\ ndec f n <> []
  /\ (n <> 0%N -> forall c r, ndec f n = c :: r -> c <> "0"%char).
Proof.
  induction f as [|f IH]; intros n L; [lia|].
  cbn [ndec]. pose proof (N.div_eucl_spec n 10) as E.
  assert (Q : fst (N.div_eucl n 10) = (n / 10)%N) by reflexivity.
  assert (R : snd (N.div_eucl n 10) = (n mod 10)%N) by reflexivity.
  destruct (N.div_eucl n 10) as [q r]. cbn [fst snd] in Q, R.
  assert (RL : (r < 10)%N) by (subst r; apply N.mod_lt; lia).
  destruct (digit_char (N.to_nat r)) as [DD DV]; [lia|].
  set (ch := ascii_of_nat (48 + N.to_nat r)) in *. clearbody ch.
  destruct (N.eqb_spec q 0) as [Z|NZ].
  - cbn [app]. subst q. split; [unfold zval; cbn [fold_left]; rewrite DV; lia|].
    split; [cbn [forallb]; rewrite DD; reflexivity|]. split; [discriminate|].
    intros N0 c x X. injection X as <- _. intros EQ.
    assert (r <> 0%N) by lia.
    rewrite EQ in DV. cbn in DV. lia.
  - destruct (IH q) as (V & F & NE & H0).
    { subst q. pose proof (size_div n NZ). lia. }
    rewrite zval_snoc, V, DV. split; [lia|].
    split; [rewrite forallb_app; cbn [forallb]; rewrite F, DD; reflexivity|].
    split; [intros X; apply app_eq_nil in X; destruct X; discriminate|].
    intros _ c x X. destruct (ndec f q) as [|c0 x0] eqn:ED; [congruence|]. cbn [app] in X. injection X as <- _.
    apply (H0 NZ c0 x0 eq_refl).
Qed.
Lemma zdec_ok z : (0 <= z)%Z -> zval (zdec z) = z /\ number (zdec z).
Proof.
  intros P. unfold zdec. destruct (ndec_ok (S (N.size_nat (Z.to_N z))) (Z.to_N z)) as (V & F & NE & H); [lia|].
  split; [rewrite V; lia|]. split; [exact F|].
  destruct (Z.eq_dec z 0) as [->|NZ]; [reflexivity|].
  destruct (ndec _ _) as [|c r] eqn:E; [congruence|]. cbn [good_digits].
  replace (cheq c "0") with false; [reflexivity|].
  symmetry. apply cheq_false. apply (H ltac:(lia) c r eq_refl).
Qed.

(** ** Numbers in texts *)
(** [seen]: a digit has been met in the current word. *)
Fixpoint clean (seen : bool) (s : str) : bool :=
  match s with
  | [] => true
  | c :: r => if is_word c then negb (seen && is_suffix c) && clean (seen || is_digit c) r
              else clean false r
  end.
Lemma suffix_word c : is_suffix c = true -> is_word c = true.
Proof. ascii_cases c; cbv; intros H; try discriminate; reflexivity. Qed.
Lemma hex_word c : is_hex c = true -> is_word c = true.
Proof. ascii_cases c; cbv; intros H; try discriminate; reflexivity. Qed.
Lemma clean_run b s r : clean b (s ++ r) = true -> forallb is_word s = true ->
  clean (b || existsb is_digit s) r = true.
Proof.
  revert b. induction s as [|c s IH]; intros b C F; [cbn in *; rewrite orb_false_r; exact C|].
  cbn [app clean forallb existsb] in *. apply andb_true_iff in F. destruct F as [W F]. rewrite W in C.
  apply andb_true_iff in C. destruct C as [_ C]. rewrite orb_assoc. apply IH; assumption.
Qed.
Lemma clean_head r : clean true r = true -> span is_suffix r = ([], r).
Proof.
  destruct r as [|c r]; [reflexivity|]. cbn [clean span]. destruct (is_suffix c) eqn:S; [|reflexivity].
  rewrite (suffix_word c S). cbn [andb negb]. discriminate.
Qed.
Lemma clean_tail b c r : clean b (c :: r) = true -> exists b', clean b' r = true.
Proof.
  cbn [clean]. destruct (is_word c); [|eauto]. intros H. apply andb_true_iff in H. exists (b || is_digit c). tauto.
Qed.
Lemma clean_tails a : forall b t, clean b (a ++ t) = true -> exists b', clean b' t = true.
Proof.
  induction a as [|c a IH]; intros b t H; [eauto|]. cbn [app] in H. apply clean_tail in H.
  destruct H as [b' H]. apply (IH b' t H).
Qed.
Lemma digit_word c : is_digit c = true -> is_word c = true.
Proof. intros D. destruct (digit_facts c D) as (W & _). exact W. Qed.

Lemma digits1_app s d x : digits1 s = Some (d, x) -> s = d ++ x /\ forallb is_digit d = true /\ d <> [].
Proof.
  unfold digits1. pose proof (span_app is_digit s) as A. pose proof (span_all is_digit s) as B.
  destruct (span is_digit s) as [[|c d'] r]; [discriminate|].
  intros E. injection E as <- <-. split; [exact A|]. split; [exact B|discriminate].
Qed.
Lemma exponent_app s e x : exponent s = Some (e, x) -> s = e ++ x.
Proof.
  destruct s as [|c r]; [discriminate|]. cbn [exponent]. destruct (is_exp c); [|discriminate].
  destruct r as [|g r]; [discriminate|]. destruct (is_sign g).
  - destruct (digits1 r) as [[d y]|] eqn:D; [|discriminate]. intros E. injection E as <- <-.
    apply digits1_app in D. destruct D as (-> & _). reflexivity.
  - destruct (digits1 (g :: r)) as [[d y]|] eqn:D; [|discriminate]. intros E. injection E as <- <-.
    apply digits1_app in D. destruct D as (D & _). rewrite D. reflexivity.
Qed.
Lemma mantissa_app s m p x : mantissa s = Some (m, p, x) -> s = m ++ x.
Proof.
  destruct s as [|c r]; [discriminate|]. cbn [mantissa]. destruct (is_digit c).
  - destruct r as [|q r]; [intros E; injection E as <- <- <-; reflexivity|].
    destruct (cheq q ".").
    + pose proof (span_app is_digit r) as A. destruct (span is_digit r) as [d y].
      intros E. injection E as <- <- <-. rewrite A. reflexivity.
    + intros E. injection E as <- <- <-. reflexivity.
  - destruct (cheq c "."); [|discriminate]. destruct (digits1 r) as [[d y]|] eqn:D; [|discriminate].
    intros E. injection E as <- <- <-. apply digits1_app in D. destruct D as (-> & _). reflexivity.
Qed.
Lemma floating_app s n x : floating s = Some (n, x) -> s = n ++ x.
Proof.
  unfold floating. destruct (mantissa s) as [[[m p] r]|] eqn:M; [|discriminate]. apply mantissa_app in M.
  destruct (exponent r) as [[e y]|] eqn:E.
  - intros H. injection H as <- <-. apply exponent_app in E. rewrite M, E, app_assoc. reflexivity.
  - destruct p; [|discriminate]. intros H. injection H as <- <-. exact M.
Qed.
Lemma digits_digit d : forallb is_digit d = true -> d <> [] -> existsb is_digit d = true.
Proof. destruct d as [|c d]; [congruence|]. cbn. intros H _. apply andb_true_iff in H. destruct H as [-> _]. reflexivity. Qed.
Lemma forallb_imp {A} (p q : A -> bool) l : (forall x, p x = true -> q x = true) -> forallb p l = true -> forallb q l = true.
Proof. intros I H. rewrite forallb_forall in *. auto. Qed.
Lemma number_at_app b s n x : clean b s = true -> number_at s = Some (n, x) -> s = n ++ x.
Proof.
  intros C. unfold number_at.
  assert (exists g s1, (match s with c :: r => if is_sign c then ([c], r) else ([], s) | [] => ([], s) end) = (g, s1) /\ s = g ++ s1)
    as (g & s1 & -> & ES).
  { destruct s as [|c r]; [exists [], []; auto|]. destruct (is_sign c); [exists [c], r|exists [], (c :: r)]; auto. }
  pose proof (span_app is_space s1) as B. destruct (span is_space s1) as [w s2].
  destruct (clean_tails (g ++ w) b s2) as [b' C']; [rewrite <- app_assoc, <- B, <- ES; exact C|].
  destruct (floating s2) as [[n0 x0]|] eqn:F.
  - intros E. injection E as <- <-. apply floating_app in F. rewrite ES, B, F, !app_assoc. reflexivity.
  - destruct (hexint s2) as [[n0 x0]|] eqn:H.
    + intros E. injection E as <- <-. rewrite ES, B. clear F. destruct s2 as [|z [|y r]]; try discriminate.
      cbn [hexint] in H. destruct (cheq z "0" && _) eqn:Z; [|discriminate].
      apply andb_true_iff in Z. destruct Z as [Z Y]. apply cheq_true in Z. subst z.
      assert (WY : is_word y = true).
      { apply orb_true_iff in Y. destruct Y as [Y|Y]; apply cheq_true in Y; subst y; reflexivity. }
      pose proof (span_app is_hex r) as HA. pose proof (span_all is_hex r) as HF.
      destruct (span is_hex r) as [[|h0 h] r'] eqn:SH; [discriminate|]. cbn [fst] in HF.
      assert (CR : clean true r' = true).
      { assert (EQ : "0"%char :: y :: r = ("0"%char :: y :: h0 :: h) ++ r') by (cbn [app]; f_equal; f_equal; exact HA).
        rewrite EQ in C'. apply clean_run in C'.
        - cbn [existsb] in C'. change (is_digit "0") with true in C'. cbn [orb] in C'. rewrite orb_true_r in C'. exact C'.
        - cbn [forallb]. change (is_word "0") with true. rewrite WY. cbn [andb].
          apply (forallb_imp _ _ _ hex_word) in HF. exact HF. }
      rewrite (clean_head r' CR) in H. cbn [snd] in H. injection H as <- <-.
      rewrite HA, !app_assoc. rewrite <- !app_assoc. reflexivity.
    + destruct (decint s2) as [[n0 x0]|] eqn:D; [|discriminate].
      intros E. injection E as <- <-. rewrite ES, B. unfold decint in D.
      destruct (digits1 s2) as [[d r]|] eqn:DD; [|discriminate]. apply digits1_app in DD. destruct DD as (A & FD & NE).
      assert (CR : clean true r = true).
      { rewrite A in C'. apply clean_run in C'; [|apply (forallb_imp _ _ _ digit_word); exact FD].
        rewrite (digits_digit d FD NE), orb_true_r in C'. exact C'. }
      rewrite (clean_head r CR) in D. injection D as <- <-. rewrite A, !app_assoc. reflexivity.
Qed.
Lemma number_at_nonempty s n x : number_at s = Some (n, x) -> n <> [].
Proof.
  unfold number_at.
  destruct (match s with c :: r => if is_sign c then ([c], r) else ([], s) | [] => ([], s) end) as [g s1].
  destruct (span is_space s1) as [w s2].
  assert (N : forall n0, n0 <> [] -> g ++ w ++ n0 <> []).
  { intros n0 H X. apply app_eq_nil in X. destruct X as [_ X]. apply app_eq_nil in X. destruct X. congruence. }
  destruct (floating s2) as [[n0 x0]|] eqn:F.
  - intros E. injection E as <- _. apply N. unfold floating in F.
    destruct (mantissa s2) as [[[m p] r]|] eqn:M; [|discriminate].
    assert (NM : m <> []).
    { destruct s2 as [|c s2]; [discriminate|]. cbn [mantissa] in M. destruct (is_digit c).
      - destruct s2 as [|q s2]; [injection M as <- _ _; discriminate|].
        destruct (cheq q "."); [destruct (span is_digit s2)|]; injection M as <- _ _; discriminate.
      - destruct (cheq c "."); [|discriminate]. destruct (digits1 s2) as [[]|]; [|discriminate].
        injection M as <- _ _. discriminate. }
    destruct (exponent r) as [[e y]|].
    + injection F as <- _. intros X. apply app_eq_nil in X. destruct X. congruence.
    + destruct p; [|discriminate]. injection F as <- _. exact NM.
  - destruct (hexint s2) as [[n0 x0]|] eqn:H.
    + intros E. injection E as <- _. apply N. destruct s2 as [|z [|y r]]; try discriminate. cbn [hexint] in H.
      destruct (cheq z "0" && _); [|discriminate]. destruct (span is_hex r) as [[|]]; [discriminate|].
      injection H as <- _. discriminate.
    + destruct (decint s2) as [[n0 x0]|] eqn:D; [|discriminate]. intros E. injection E as <- _. apply N.
      unfold decint in D. destruct (digits1 s2) as [[d r]|] eqn:DD; [|discriminate]. apply digits1_app in DD.
      injection D as <- _. tauto.
Qed.

Section Scan.
  Context (fund mods : list str).

  (** A text the scan leaves as it is. *)
  Lemma transform_id f : forall s b, length s < f -> clean b s = true ->
    (forall a t c r, s = a ++ t -> t = c :: r -> c <> dquote /\ c <> squote /\ (c = "("%char -> cast_at fund mods r = NoCast)) ->
    transform fund mods f s = Some s.
  Proof.
    induction f as [|f IH]; intros s b L C H; [lia|].
    destruct s as [|c r]; [reflexivity|]. cbn [transform]. cbn [length] in L.
    destruct (H [] (c :: r) c r eq_refl eq_refl) as (Q1 & Q2 & Q3).
    assert (STEP : transform fund mods f r = Some r).
    { destruct (clean_tail b c r C) as [b' C']. apply (IH r b'); [lia|exact C'|].
      intros a t c' r' E. apply (H (c :: a)). rewrite E. reflexivity. }
    destruct (is_space c); [rewrite STEP; reflexivity|].
    replace (cheq c dquote) with false by (symmetry; apply cheq_false; exact Q1).
    replace (cheq c squote) with false by (symmetry; apply cheq_false; exact Q2). cbn [orb].
    destruct (number_at (c :: r)) as [[n x]|] eqn:N.
    - pose proof (number_at_nonempty _ _ _ N) as NE. apply (number_at_app b) in N; [|exact C].
      assert (S : transform fund mods f x = Some x).
      { destruct (clean_tails n b x) as [b' C']; [rewrite <- N; exact C|]. apply (IH x b'); [|exact C'|].
        - apply (f_equal (@length _)) in N. rewrite app_length in N. cbn [length] in N.
          destruct n; [congruence|]. cbn [length] in N. lia.
        - intros a t c' r' E. apply (H (n ++ a)). rewrite N, E, app_assoc. reflexivity. }
      rewrite S. cbn [option_map]. rewrite N. reflexivity.
    - destruct (cheq_spec c "(") as [E|]; [rewrite (Q3 E)|]; rewrite STEP; reflexivity.
  Qed.
End Scan.

(** ** Shapes of token lists *)
(** What may follow: an operand, an operand right after a parenthesis, an operator, an operator
    after a parenthesis and a name. *)
Inductive wstate := WOperand | WOpened | WOperator | WLone.
Fixpoint wf (st : wstate) (ts : list ctok) : bool :=
  match st with
  | WOperand =>
      match ts with
      | TNum _ :: r | TId _ :: r => wf WOperator r
      | TOpen :: r => wf WOpened r
      | TBin OSub :: r | TBin OAdd :: r | TInv :: r => wf WOperand r
      | _ => false
      end
  | WOpened =>
      match ts with
      | TId _ :: r => wf WLone r
      | TNum _ :: r => wf WOperator r
      | TOpen :: r => wf WOpened r
      | TBin OSub :: r | TBin OAdd :: r | TInv :: r => wf WOperand r
      | _ => false
      end
  | WOperator =>
      match ts with
      | [] => true
      | TBin _ :: r | TRel _ :: r => wf WOperand r
      | TClose :: r => wf WOperator r
      | _ => false
      end
  | WLone =>
      match ts with
      | [] => true
      | TBin _ :: r | TRel _ :: r => wf WOperand r
      | _ => false
      end
  end.
Definition is_name (e : cx) : bool := match e with CId _ => true | _ => false end.
Lemma forallb_app_inv {A} (p : A -> bool) a b : forallb p (a ++ b) = true -> forallb p a = true /\ forallb p b = true.
Proof. rewrite forallb_app. intros H. apply andb_true_iff in H. exact H. Qed.
Lemma wf_toks e : no_lone e = true -> forallb value_tok (toks e) = true -> forall rest,
  wf WOperator rest = true ->
  wf WOperand (toks e ++ rest) = true
  /\ ((is_name e = true -> wf WLone rest = true) -> wf WOpened (toks e ++ rest) = true).
Proof.
  induction e as [d|w|w|a IH|a IH|a IH|a IH|o a IHa b IHb|o a IHa b IHb|a IHa b IHb|a IHa b IHb|a IH];
    intros NL F rest W.
  - cbn. auto.
  - cbn. auto.
  - discriminate.
  - discriminate.
  - cbn [toks app wf]. destruct (IH NL F rest W) as [H _]. auto.
  - cbn [toks app wf]. destruct (IH NL F rest W) as [H _]. auto.
  - cbn [toks app wf]. destruct (IH NL F rest W) as [H _]. auto.
  - cbn [toks no_lone] in *. apply andb_true_iff in NL. destruct NL as [NA NB].
    apply forallb_app_inv in F. destruct F as [FA FB]. cbn [forallb] in FB. apply andb_true_iff in FB. destruct FB as [_ FB].
    rewrite <- app_assoc. cbn [app]. destruct (IHb NB FB rest W) as [HB _].
    destruct (IHa NA FA (TBin o :: toks b ++ rest) HB) as [H1 H2]. split; [exact H1|].
    intros _. apply H2. intros _. exact HB.
  - cbn [toks no_lone] in *. apply andb_true_iff in NL. destruct NL as [NA NB].
    apply forallb_app_inv in F. destruct F as [FA FB]. cbn [forallb] in FB. apply andb_true_iff in FB. destruct FB as [_ FB].
    rewrite <- app_assoc. cbn [app]. destruct (IHb NB FB rest W) as [HB _].
    destruct (IHa NA FA (TRel o :: toks b ++ rest) HB) as [H1 H2]. split; [exact H1|].
    intros _. apply H2. intros _. exact HB.
  - cbn [toks] in F. apply forallb_app_inv in F. destruct F as [_ F]. discriminate.
  - cbn [toks] in F. apply forallb_app_inv in F. destruct F as [_ F]. discriminate.
  - cbn [toks forallb] in F. apply andb_true_iff in F. destruct F as [_ F]. apply forallb_app_inv in F. destruct F as [F _].
    assert (NL' : no_lone a = true /\ is_name a = false) by (destruct a; try discriminate NL; auto).
    destruct NL' as [NL' NN].
    destruct (IH NL' F (TClose :: rest) W) as [_ H].
    assert (H' : wf WOpened (toks a ++ TClose :: rest) = true) by (apply H; congruence).
    cbn [toks app]. rewrite <- app_assoc. cbn [app wf]. auto.
Qed.

(** The tokens and blanks of a text. *)
Lemma op_not_blank c : op_char c = true -> (cheq c sp || cheq c PyStr.tab || cheq c nl || cheq c cr) = false.
Proof. ascii_cases c; cbv; intros H; try discriminate; reflexivity. Qed.
Lemma word_not_blank c : is_word c = true -> (cheq c sp || cheq c PyStr.tab || cheq c nl || cheq c cr) = false.
Proof. ascii_cases c; cbv; intros H; try discriminate; reflexivity. Qed.
Lemma tok_head k s : tok_text k s -> value_tok k = true ->
  exists c x, s = c :: x /\
    match k with
    | TNum _ => is_digit c = true /\ forallb is_digit s = true
    | TId w => s = w /\ is_idstart c = true /\ forallb is_idchar s = true
    | _ => op_char c = true /\ forallb op_char s = true
    end.
Proof.
  intros T V. destruct (op_tok k) eqn:O.
  - destruct (op_text k s O T) as [NE F]. destruct s as [|c x]; [congruence|]. exists c, x. split; [reflexivity|].
    assert (Fc : op_char c = true) by (cbn in F; apply andb_true_iff in F; tauto).
    destruct k; try discriminate O; auto.
  - inversion T as [d N|w I N|g w I G NE|g g' g'' w I G G' G''| | | | | | | |]; subst; try discriminate.
    + destruct N as [F G]. destruct s as [|c x]; [discriminate|]. exists c, x. split; [reflexivity|]. split; [|exact F].
      cbn in F. apply andb_true_iff in F. tauto.
    + destruct s as [|c x]; [destruct I|]. exists c, x. split; [reflexivity|]. destruct I as [I J]. split; [reflexivity|].
      split; [exact I|]. cbn [forallb]. rewrite (idstart_idchar c I). apply forallb_forall. exact J.
Qed.
Lemma skip_spelled ts s : spells ts s -> forallb value_tok ts = true ->
  match ts with
  | [] => skip_blank s = []
  | k :: ts' => exists c x r, skip_blank s = (c :: x) ++ r /\ tok_text k (c :: x)
      /\ (forall d r', r = d :: r' -> apart k d) /\ spells ts' r /\ length ((c :: x) ++ r) <= length s
  end.
Proof.
  assert (GB : forall g x, gap g -> skip_blank (g ++ x) = skip_blank x).
  { intros g x G. unfold skip_blank. apply drop_while_app_all. apply forallb_forall. intros c I.
    destruct (G c I) as [->| ->]; reflexivity. }
  intros H V. inversion H as [g G|g k x ts' r G T A H' E1 E2]; subst.
  - rewrite <- (app_nil_r s), GB by exact G. reflexivity.
  - cbn [forallb] in V. apply andb_true_iff in V. destruct V as [Vk _].
    destruct (tok_head k x T Vk) as (c & y & -> & K). exists c, y, r. rewrite GB by exact G. split.
    + unfold skip_blank. cbn [app drop_while].
      assert (B : (cheq c sp || cheq c PyStr.tab || cheq c nl || cheq c cr) = false).
      { destruct k; try discriminate Vk; try (apply op_not_blank; tauto); apply word_not_blank.
        - apply digit_word. tauto.
        - apply idchar_word, idstart_idchar. tauto. }
      rewrite B. reflexivity.
    + split; [exact T|]. split; [exact A|]. split; [exact H'|]. rewrite !app_length. lia.
Qed.

Definition head_free (c : ascii) (s : str) : Prop := forall d r, s = d :: r -> cheq d c = false.
Lemma op_heads k c x : tok_text k (c :: x) -> value_tok k = true ->
  cheq c dquote = false /\ cheq c squote = false /\ cheq c "[" = false /\ cheq c "$" = false /\ cheq c "," = false
  /\ (cheq c "(" = true -> k = TOpen /\ x = []) /\ (cheq c ")" = true -> k = TClose)
  /\ (cheq c "*" = true -> k = TBin OMul /\ x = []) /\ (cheq c "&" = true -> k = TBin OAnd /\ x = [])
  /\ (cheq c "=" = true -> exists x', x = "="%char :: x').
Proof.
  intros T V. destruct (op_tok k) eqn:O.
  - inversion T as [| | | | | | | | | |o NO|o]; subst; try discriminate O; try discriminate V;
      try (repeat split; try reflexivity; discriminate).
    + destruct o; try congruence; cbn in *; match goal with H : _ = c :: x |- _ => injection H as <- <- end;
        repeat split; try reflexivity; try discriminate.
    + destruct o; cbn in *; match goal with H : _ = c :: x |- _ => injection H as <- <- end;
        repeat split; try reflexivity; try discriminate; intros _; eexists; reflexivity.
  - destruct (tok_head k (c :: x) T V) as (c' & x' & E & K). injection E as <- <-.
    assert (W : is_word c = true).
    { destruct k; try discriminate O; try discriminate V; [apply digit_word; tauto|apply idchar_word, idstart_idchar; tauto]. }
    assert (N : forall d, is_word d = false -> cheq c d = false).
    { intros d D. apply cheq_false. congruence. }
    do 5 (split; [apply N; reflexivity|]).
    do 4 (split; [intros X; rewrite N in X by reflexivity; discriminate|]).
    intros X; rewrite N in X by reflexivity; discriminate.
Qed.

Section Casts.
  Context (fund mods : list str).
  Definition name_ok (k : ctok) : bool :=
    match k with TId w => negb (odd_word mods w) && negb (mem w fund) | _ => true end.

  Lemma word_span w r : forallb is_idchar w = true -> (forall d r', r = d :: r' -> apart (TId w) d) ->
    span is_word (w ++ r) = (w, r).
  Proof.
    intros F A. apply span_run; [apply (forallb_imp _ _ _ idchar_word); exact F|].
    apply (head_apart (TId w)); [exact A|]. intros c AP. apply (apart_word (TId w)) in AP; [tauto|reflexivity].
  Qed.
  Lemma guard k y x r : tok_text k (y :: x) -> value_tok k = true -> name_ok k = true ->
    (forall d r', r = d :: r' -> apart k d) ->
    is_word y && negb (is_digit y) && odd_word mods (fst (span is_word ((y :: x) ++ r))) = false.
  Proof.
    intros T V N A. destruct (tok_head k (y :: x) T V) as (c' & x' & E & K). injection E as <- <-.
    destruct k as [d|w|w| | | | | | |o|o]; try discriminate V;
      try (destruct K as [K _]; destruct (op_char_facts y K) as (-> & _); reflexivity).
    - destruct K as [-> _]. rewrite andb_false_r. reflexivity.
    - destruct K as (E & I & F). subst w. rewrite word_span by assumption. cbn [fst].
      cbn [name_ok] in N. apply andb_true_iff in N. destruct N as [N _]. apply negb_true_iff in N. rewrite N.
      apply andb_false_r.
  Qed.

  Definition good (ts : list ctok) : Prop := forallb value_tok ts = true /\ forallb name_ok ts = true.
  Lemma good_cons k ts : good (k :: ts) -> value_tok k = true /\ name_ok k = true /\ good ts.
  Proof. intros [A B]. cbn [forallb] in *. apply andb_true_iff in A, B. unfold good. tauto. Qed.

  (** No text of this shape is a type name followed by a closing parenthesis. *)
  Definition no_close (ts : list ctok) : Prop := match ts with TClose :: _ => False | _ => True end.
  Lemma wf_operand_close ts : wf WOperand ts = true -> no_close ts /\ ts <> [].
  Proof. destruct ts as [|[] ts]; cbn; intros H; try discriminate; split; try exact I; discriminate. Qed.

  Definition tn_spec (f : nat) : Prop := forall s ts, spells ts s -> good ts -> wf WOpened ts = true -> 2 * length s < f ->
    type_name fund mods f s = NoCast
    \/ exists r ts', type_name fund mods f s = Cast r /\ spells ts' r /\ good ts' /\ no_close ts'.
  Definition ta_spec (f : nat) : Prop := forall s ts, spells ts s -> good ts -> wf WOpened ts = true -> 2 * length s + 2 < f ->
    type_args fund mods f s = NoCast.

  Lemma args_of_name f : tn_spec f -> ta_spec (S (S f)).
  Proof.
    intros TN s ts Sp G W L. change (type_args fund mods (S (S f)) s) with (args_body (type_more fund mods (S f)) s). unfold args_body.
    assert (Q : type_more fund mods (S f) s = NoCast).
    { change (type_more fund mods (S f) s) with (more_body (type_name fund mods f) (type_more fund mods f) s). unfold more_body.
      destruct (TN s ts Sp G W ltac:(lia)) as [->|(r & ts' & -> & Sr & Gr & NC)]; [reflexivity|].
      pose proof (skip_spelled ts' r Sr (proj1 Gr)) as K. destruct ts' as [|k ts']; [rewrite K; reflexivity|].
      destruct K as (c & x & r' & -> & T & A & S' & _). destruct (good_cons _ _ Gr) as (V & N & _).
      destruct (op_heads k c x T V) as (H1 & H2 & _ & _ & H5 & _ & H7 & _ & _ & H10).
      cbn [app]. destruct (cheq c ")") eqn:C; [rewrite (H7 eq_refl) in NC; destruct NC|].
      rewrite H5, H1, H2. cbn [orb]. destruct (cheq c "="); [|reflexivity].
      destruct (H10 eq_refl) as (x' & ->). reflexivity. }
    pose proof (skip_spelled ts s Sp (proj1 G)) as K. destruct ts as [|k ts]; [rewrite K; reflexivity|].
    destruct K as (c & x & r' & -> & T & A & S' & _). destruct (good_cons _ _ G) as (V & N & _).
    destruct (op_heads k c x T V) as (H1 & H2 & _ & _ & H5 & _ & H7 & _ & _ & H10).
    cbn [app]. destruct (cheq c ")") eqn:C; [rewrite (H7 eq_refl) in W; discriminate|].
    rewrite H1, H2. cbn [orb]. exact Q.
  Qed.

  (** What follows a star or an ampersand, or nothing of the kind. *)
  Lemma name_tail f r3 ts : ta_spec f -> spells ts r3 -> good ts -> wf WOperand ts = true -> 2 * length r3 + 2 < f ->
    match skip_blank r3 with
    | z :: r4 =>
        if cheq z "(" then
          match type_args fund mods f r4 with
          | NoCast => Cast r3
          | Cast r5 =>
              match skip_blank r5 with
              | q :: _ => if cheq q "[" || cheq q dquote || cheq q squote then Unknown else Cast r5
              | [] => Cast r5
              end
          | Unknown => Unknown
          end
        else if cheq z "[" || cheq z dquote || cheq z squote then Unknown
        else Cast r3
    | [] => Cast r3
    end = Cast r3.
  Proof.
    intros TA Sp G W L. pose proof (skip_spelled ts r3 Sp (proj1 G)) as K.
    destruct ts as [|k ts]; [discriminate|]. destruct K as (c & x & r' & -> & T & A & S' & LL).
    destruct (good_cons _ _ G) as (V & N & G'). destruct (op_heads k c x T V) as (H1 & H2 & H3 & _ & _ & H6 & _).
    cbn [app]. destruct (cheq c "(") eqn:C.
    - destruct (H6 eq_refl) as [-> ->]. cbn [app]. rewrite (TA r' ts S' G'); [reflexivity|exact W|].
      cbn in LL. lia.
    - rewrite H1, H2, H3. reflexivity.
  Qed.

  Lemma type_name_spec f : tn_spec f /\ ta_spec f.
  Proof.
    assert (IND : forall f, (tn_spec f /\ ta_spec f) /\ (tn_spec (S f) /\ ta_spec (S f)) /\ (tn_spec (S (S f)) /\ ta_spec (S (S f)))).
    2:{ destruct (IND f) as [H _]. exact H. }
    assert (STEP : forall f, ta_spec f -> tn_spec (S f)).
    { clear f. intros f TA s ts Sp G W L. change (type_name fund mods (S f) s) with (name_body fund mods (type_args fund mods f) f s). unfold name_body.
      pose proof (skip_spelled ts s Sp (proj1 G)) as K. destruct ts as [|k ts]; [discriminate|].
      destruct K as (c & x & r & K & T & A & S' & LL). rewrite K. cbn [app].
      destruct (good_cons _ _ G) as (V & N & G'). destruct (op_heads k c x T V) as (H1 & H2 & _).
      destruct (tok_head k (c :: x) T V) as (c' & x' & E & KK). injection E as <- <-.
      destruct k as [d|w|w| | | | | | |o|o]; try discriminate V;
        try (destruct KK as [KK _]; destruct (op_char_facts c KK) as (-> & _); rewrite H1, H2; left; reflexivity).
      { destruct KK as [KK _]. rewrite KK, andb_false_r, H1, H2. left. reflexivity. }
      destruct KK as (EW & I & F). destruct (idstart_facts c I) as (WC & _ & _ & DC & _). rewrite WC, DC. cbn [negb andb].
      change (c :: x ++ r) with ((c :: x) ++ r). subst w. rewrite word_span by assumption.
      cbn [name_ok] in N. apply andb_true_iff in N. destruct N as [N1 N2]. apply negb_true_iff in N1, N2.
      rewrite N1, N2. right.
      assert (L1 : S (length r) <= length s) by (cbn [app length] in LL; rewrite app_length in LL; lia).
      clear K LL. cbn [wf] in W.
      pose proof (skip_spelled ts r S' (proj1 G')) as K. destruct ts as [|k ts].
      { rewrite K. exists r, []. split; [reflexivity|]. split; [exact S'|]. split; [exact G'|exact Logic.I]. }
      destruct K as (c1 & x1 & r1 & K & T1 & A1 & S1 & L2). destruct (good_cons _ _ G') as (V1 & N3 & G1).
      rewrite K. cbn [app]. change (c1 :: x1 ++ r1) with ((c1 :: x1) ++ r1).
      rewrite (guard k c1 x1 r1 T1 V1 N3 A1).
      destruct (op_heads k c1 x1 T1 V1) as (_ & _ & _ & H4 & _ & _ & _ & H8 & H9 & _). rewrite H4. cbn [orb].
      cbn [app length] in L2.
      destruct (cheq c1 "*") eqn:STAR.
      - (* a star *)
        destruct (H8 eq_refl) as [-> ->]. cbn [app] in *. cbn [wf] in W.
        assert (SS : skip_stars f r = r1).
        { destruct f as [|f]; [lia|]. cbn [skip_stars]. rewrite K. rewrite STAR. destruct f as [|f]; [reflexivity|]. cbn [skip_stars].
          pose proof (skip_spelled ts r1 S1 (proj1 G1)) as KN. destruct ts as [|k2 ts]; [rewrite KN; reflexivity|].
          destruct KN as (c2 & x2 & r2 & -> & T2 & A2 & S2 & L3). cbn [app].
          destruct (good_cons _ _ G1) as (V2 & _). destruct (op_heads k2 c2 x2 T2 V2) as (_ & _ & _ & _ & _ & _ & _ & H8' & _).
          destruct (cheq c2 "*"); [|reflexivity]. destruct (H8' eq_refl) as [-> _]. discriminate. }
        rewrite SS. exists r1, ts.
        pose proof (skip_spelled ts r1 S1 (proj1 G1)) as KN. destruct ts as [|k2 ts]; [discriminate|].
        destruct KN as (c2 & x2 & r2 & KN & T2 & A2 & S2 & L3).
        destruct (good_cons _ _ G1) as (V2 & N4 & G2). destruct (op_heads k2 c2 x2 T2 V2) as (_ & _ & _ & _ & _ & _ & _ & _ & H9' & _).
        assert (NA : cheq c2 "&" = false).
        { destruct (cheq c2 "&"); [|reflexivity]. destruct (H9' eq_refl) as [-> _]. discriminate. }
        pose proof (name_tail f r1 (k2 :: ts) TA S1 G1 W ltac:(lia)) as NT.
        rewrite KN in NT |- *. cbn [app] in *. change (c2 :: x2 ++ r2) with ((c2 :: x2) ++ r2).
        rewrite (guard k2 c2 x2 r2 T2 V2 N4 A2), NA. rewrite KN. cbn [app].
        rewrite NT. split; [reflexivity|]. split; [exact S1|]. split; [exact G1|]. apply (wf_operand_close _ W).
      - assert (SS : skip_stars f r = r).
        { destruct f as [|f]; [reflexivity|]. cbn [skip_stars]. rewrite K. cbn [app]. rewrite STAR. reflexivity. }
        rewrite SS, K. cbn [app]. change (c1 :: x1 ++ r1) with ((c1 :: x1) ++ r1). rewrite (guard k c1 x1 r1 T1 V1 N3 A1).
        destruct (cheq c1 "&") eqn:AMP.
        + destruct (H9 eq_refl) as [-> ->]. cbn [app tl] in *. cbn [wf] in W.
          exists r1, ts. rewrite (name_tail f r1 ts TA S1 G1 W) by lia.
          split; [reflexivity|]. split; [exact S1|]. split; [exact G1|]. apply (wf_operand_close _ W).
        + exists r, (k :: ts). rewrite K. cbn [app].
          destruct (op_heads k c1 x1 T1 V1) as (B1 & B2 & B3 & _ & _ & B6 & _).
          destruct (cheq c1 "(") eqn:OP; [destruct (B6 eq_refl) as [-> _]; discriminate|].
          rewrite B1, B2, B3. cbn [orb]. split; [reflexivity|]. split; [exact S'|]. split; [exact G'|].
          destruct k; try exact Logic.I. discriminate. }
    assert (T0 : tn_spec 0) by (intros s ts _ _ _ L; lia).
    assert (A0 : ta_spec 0) by (intros s ts _ _ _ L; lia).
    assert (A1 : ta_spec 1) by (intros s ts _ _ _ L; lia).
    clear f. induction f as [|f (I0 & I1 & I2)].
    - assert (T1 : tn_spec 1) by (apply STEP; exact A0). assert (T2 : tn_spec 2) by (apply STEP; exact A1).
      assert (A2 : ta_spec 2) by (apply args_of_name; exact T0). auto.
    - split; [exact I1|]. split; [exact I2|]. split; [apply STEP; apply I2|apply args_of_name; apply I1].
  Qed.

  Lemma no_cast s ts : spells ts s -> good ts -> wf WOpened ts = true -> cast_at fund mods s = NoCast.
  Proof.
    intros Sp G W. unfold cast_at.
    destruct (proj1 (type_name_spec (S (length s + length s))) s ts Sp G W) as [->|(r & ts' & -> & Sr & Gr & NC)];
      [lia|reflexivity|].
    pose proof (skip_spelled ts' r Sr (proj1 Gr)) as K. destruct ts' as [|k ts']; [rewrite K; reflexivity|].
    destruct K as (c & x & r' & -> & T & A & S' & _). destruct (good_cons _ _ Gr) as (V & N & _).
    destruct (op_heads k c x T V) as (H1 & H2 & _ & _ & H5 & _ & H7 & _ & _ & H10).
    cbn [app]. destruct (cheq c ")") eqn:C; [rewrite (H7 eq_refl) in NC; destruct NC|].
    rewrite H1, H2. reflexivity.
  Qed.
End Casts.

(** ** Texts of expressions *)
Lemma clean_app b w r : forallb is_word w = true ->
  clean b (w ++ r) = clean b w && clean (b || existsb is_digit w) r.
Proof.
  revert b. induction w as [|c w IH]; intros b F; [cbn; rewrite orb_false_r; reflexivity|].
  cbn [app clean existsb forallb] in *. apply andb_true_iff in F. destruct F as [W F]. rewrite W, IH by exact F.
  rewrite orb_assoc, andb_assoc. reflexivity.
Qed.
Lemma clean_restart b r : head_not is_word r = true -> clean b r = clean false r.
Proof. destruct r as [|c r]; [reflexivity|]. cbn. destruct (is_word c); [discriminate|reflexivity]. Qed.
Lemma clean_skip g r : (forall c, In c g -> is_word c = false) -> clean false (g ++ r) = clean false r.
Proof.
  induction g as [|c g IH]; intros H; [reflexivity|]. cbn [app clean]. rewrite (H c (or_introl eq_refl)).
  apply IH. intros x J. apply H. right. exact J.
Qed.
Lemma clean_name w : no_suffix w -> forallb is_word w = true -> clean false w = true.
Proof.
  assert (G : forall w b, (b = true -> ~ In "U"%char w /\ ~ In "L"%char w) -> no_suffix w ->
              forallb is_word w = true -> clean b w = true).
  { clear. induction w as [|c w IH]; intros b H N F; [reflexivity|]. cbn [clean forallb] in *.
    apply andb_true_iff in F. destruct F as [W F]. rewrite W. apply andb_true_iff. split.
    - destruct b; [|reflexivity]. destruct (H eq_refl) as [U L]. unfold is_suffix.
      destruct (cheq_spec c "U") as [->|_]; [exfalso; apply U; left; reflexivity|].
      destruct (cheq_spec c "L") as [->|_]; [exfalso; apply L; left; reflexivity|]. reflexivity.
    - apply IH; [| |exact F].
      + intros E. apply orb_true_iff in E. destruct E as [E|E].
        * destruct (H E) as [U L]. split; intros J; [apply U|apply L]; right; exact J.
        * exact (N [] c w eq_refl E).
      + intros a d b' E D. apply (N (c :: a) d b'); [rewrite E; reflexivity|exact D]. }
  intros N F. apply (G w false); [discriminate|exact N|exact F].
Qed.

Lemma clean_spelled ts s : spells ts s -> forallb value_tok ts = true ->
  (forall w, In (TId w) ts -> no_suffix w) -> clean false s = true.
Proof.
  induction 1 as [g G|g k s ts r G T A H IH]; intros V N.
  - rewrite <- (app_nil_r g), clean_skip; [reflexivity|]. intros c J. destruct (gap_char c (G c J)) as (W & _). exact W.
  - cbn [forallb] in V. apply andb_true_iff in V. destruct V as [Vk V].
    rewrite clean_skip by (intros c J; destruct (gap_char c (G c J)) as (W & _); exact W).
    assert (R : clean false r = true) by (apply IH; [exact V|]; intros w J; apply N; right; exact J).
    destruct (tok_head k s T Vk) as (c & x & E & K). destruct (op_tok k) eqn:O.
    + rewrite clean_skip; [exact R|]. intros d J.
      assert (F : forallb op_char s = true) by (destruct k; try discriminate O; try discriminate Vk; tauto).
      rewrite forallb_forall in F. destruct (op_char_facts d (F d J)) as (W & _). exact W.
    + assert (HW : head_not is_word r = true).
      { apply (head_apart k); [exact A|]. intros d AP. apply (apart_word k) in AP; [tauto|exact O]. }
      destruct k as [d|w|w| | | | | | |o|o]; try discriminate O; try discriminate Vk.
      * destruct K as [_ F]. rewrite clean_app by (apply (forallb_imp _ _ _ digit_word); exact F).
        rewrite (clean_restart _ r HW), R, andb_true_r. clear - F.
        assert (Q : forall b, clean b s = true).
        { induction s as [|y s IH]; intros b; [reflexivity|]. cbn [forallb clean] in *. apply andb_true_iff in F. destruct F as [D F].
          rewrite (digit_word y D), IH by exact F. rewrite andb_true_r.
          replace (is_suffix y) with false; [rewrite andb_false_r; reflexivity|].
          clear - D. ascii_cases y; cbv in *; try discriminate; reflexivity. }
        apply Q.
      * destruct K as (-> & _ & F). assert (FW := forallb_imp _ _ _ idchar_word F).
        rewrite clean_app by exact FW. rewrite (clean_restart _ r HW), R, andb_true_r.
        apply clean_name; [|exact FW]. apply N. left. reflexivity.
Qed.

Lemma wf_tail k ts st : wf st (k :: ts) = true -> exists st', wf st' ts = true /\ (k = TOpen -> st' = WOpened).
Proof.
  destruct st, k; cbn [wf]; try discriminate; intros H; try (eexists; split; [exact H|intros; try discriminate; reflexivity]);
    destruct o; try discriminate; eexists; (split; [exact H|intros; discriminate]).
Qed.
Lemma in_app_split {A} (p q a x : list A) c : p ++ q = a ++ c :: x ->
  (exists p2, p = a ++ c :: p2 /\ x = p2 ++ q) \/ (exists a2, a = p ++ a2 /\ q = a2 ++ c :: x).
Proof.
  revert a. induction p as [|y p IH]; intros a E; [right; exists a; auto|].
  destruct a as [|z a]; cbn [app] in E; injection E as <- E.
  - left. exists p. auto.
  - destruct (IH a E) as [(p2 & -> & ->)|(a2 & -> & ->)]; [left; exists p2; auto|right; exists a2; auto].
Qed.
Lemma open_tails fund mods ts s : spells ts s -> forall st, good fund mods ts -> wf st ts = true ->
  forall a x, s = a ++ "("%char :: x -> exists ts', spells ts' x /\ good fund mods ts' /\ wf WOpened ts' = true.
Proof.
  induction 1 as [g G|g k s ts r G T A H IH]; intros st GD W a x E.
  - exfalso. assert (J : In "("%char g) by (rewrite E; apply in_or_app; right; left; reflexivity).
    destruct (G _ J) as [X|X]; discriminate.
  - destruct (good_cons _ _ _ _ GD) as (Vk & Nk & GD'). destruct (wf_tail k ts st W) as (st' & W' & WO).
    apply in_app_split in E. destruct E as [(p2 & E & _)|(a2 & -> & E)].
    { exfalso. assert (J : In "("%char g) by (rewrite E; apply in_or_app; right; left; reflexivity).
      destruct (G _ J) as [X|X]; discriminate. }
    apply in_app_split in E. destruct E as [(p2 & E & ->)|(a3 & -> & E)]; [|exact (IH st' GD' W' a3 x E)].
    assert (J : In "("%char s) by (rewrite E; apply in_or_app; right; left; reflexivity).
    assert (KO : k = TOpen).
    { clear E. destruct (tok_head k s T Vk) as (c & y & ES & K).
      destruct k as [d|w|w| | | | | | |o|o]; try discriminate Vk; try reflexivity; clear ES.
      - destruct K as [_ F]. rewrite forallb_forall in F. specialize (F _ J). discriminate.
      - destruct K as (_ & _ & F). rewrite forallb_forall in F. specialize (F _ J). discriminate.
      - inversion T; subst. cbn in J. destruct J as [J|[]]. discriminate.
      - inversion T; subst. cbn in J. destruct J as [J|[]]. discriminate.
      - inversion T; subst. destruct o; cbn in J; repeat (destruct J as [J|J]; [discriminate|]); destruct J.
      - inversion T; subst. destruct o; cbn in J; repeat (destruct J as [J|J]; [discriminate|]); destruct J. }
    subst k. assert (ES : s = $"(") by (inversion T; reflexivity). rewrite ES in E.
    assert (p2 = []).
    { apply (f_equal (@length _)) in E. rewrite app_length in E. cbn in E. destruct p2; [reflexivity|]. cbn in E. lia. }
    subst p2. exists ts. rewrite (WO eq_refl) in W'. auto.
Qed.
Lemma spelled_chars ts s : spells ts s -> forallb value_tok ts = true -> forall c, In c s -> c <> dquote /\ c <> squote.
Proof.
  induction 1 as [g G|g k s ts r G T A H IH]; intros V c J.
  - destruct (G c J) as [->| ->]; split; discriminate.
  - cbn [forallb] in V. apply andb_true_iff in V. destruct V as [Vk V].
    apply in_app_or in J. destruct J as [J|J]; [destruct (G c J) as [->| ->]; split; discriminate|].
    apply in_app_or in J. destruct J as [J|J]; [|exact (IH V c J)].
    destruct (tok_head k s T Vk) as (c0 & y & ES & K).
    assert (F : is_word c = true \/ op_char c = true).
    { destruct k as [d|w|w| | | | | | |o|o]; try discriminate Vk;
        try (right; destruct K as [_ F]; rewrite forallb_forall in F; exact (F c J)).
      - left. destruct K as [_ F]. rewrite forallb_forall in F. apply digit_word. auto.
      - left. destruct K as (_ & _ & F). rewrite forallb_forall in F. apply idchar_word. auto. }
    split; intros ->; destruct F as [F|F]; discriminate.
Qed.

(** Without the blanks around it. *)
Lemma tok_trimmed k s : tok_text k s -> value_tok k = true -> head_not is_space s = true /\ head_not is_space (rev s) = true.
Proof.
  intros T V. destruct (tok_head k s T V) as (c & y & ES & K).
  assert (F : forall d, In d s -> is_space d = false).
  { intros d J. destruct k as [n|w|w| | | | | | |o|o]; try discriminate V;
      try (destruct K as [_ F]; rewrite forallb_forall in F; destruct (op_char_facts d (F d J)) as (_ & X & _); exact X).
    - destruct K as [_ F]. rewrite forallb_forall in F. apply word_not_space, digit_word. auto.
    - destruct K as (_ & _ & F). rewrite forallb_forall in F. apply word_not_space, idchar_word. auto. }
  split.
  - rewrite ES. cbn. rewrite (F c); [reflexivity|]. rewrite ES. left. reflexivity.
  - destruct (rev s) as [|d x] eqn:R; [reflexivity|]. cbn. rewrite (F d); [reflexivity|]. apply in_rev. rewrite R. left. reflexivity.
Qed.
Lemma head_rev_app (p : ascii -> bool) (a b : str) : b <> [] -> head_not p (rev b) = true -> head_not p (rev (a ++ b)) = true.
Proof.
  intros NE H. rewrite rev_app_distr. destruct (rev b) as [|c x] eqn:R; [|exact H].
  apply (f_equal (@rev _)) in R. rewrite rev_involutive in R. cbn in R. congruence.
Qed.
Lemma spelled_end ts s : spells ts s -> forallb value_tok ts = true ->
  exists s' b, s = s' ++ b /\ gap b /\ spells ts s' /\ (ts = [] -> s' = [])
    /\ (ts <> [] -> s' <> [] /\ head_not is_space (rev s') = true).
Proof.
  induction 1 as [g G|g k s ts r G T A H IH]; intros V.
  - exists [], g. split; [reflexivity|]. split; [exact G|]. split; [constructor; intros c []|]. split; [auto|congruence].
  - cbn [forallb] in V. apply andb_true_iff in V. destruct V as [Vk V]. destruct (IH V) as (r' & b & -> & B & S' & E0 & E1).
    exists (g ++ s ++ r'), b. split; [rewrite <- !app_assoc; reflexivity|]. split; [exact B|].
    pose proof (tok_nonempty k s T) as NE. split.
    { constructor; auto. intros c x ->. apply (A c (x ++ b)). reflexivity. }
    split; [discriminate|]. intros _. split.
    { intros X. apply app_eq_nil in X. destruct X as [_ X]. apply app_eq_nil in X. destruct X. congruence. }
    destruct ts as [|k' ts].
    + rewrite (E0 eq_refl), app_nil_r. apply head_rev_app; [exact NE|]. apply (tok_trimmed k s T Vk).
    + destruct (E1 ltac:(discriminate)) as [N1 N2]. rewrite app_assoc. apply head_rev_app; assumption.
Qed.
Lemma strip_spelled ts s : spells ts s -> forallb value_tok ts = true -> ts <> [] ->
  spells ts (strip s) /\ trimmed (strip s).
Proof.
  intros H V NE. destruct (spelled_end ts s H V) as (s' & b & -> & B & S' & _ & E1).
  destruct (E1 NE) as [N1 N2]. inversion S' as [|g k x ts' r G T A H' EQ1 EQ2]; subst; [congruence|].
  assert (SP : forall l, gap l -> forallb is_space l = true).
  { intros l GL. apply forallb_forall. intros c J. destruct (gap_char c (GL c J)) as (_ & X & _). exact X. }
  assert (Vk : value_tok k = true) by (cbn [forallb] in V; apply andb_true_iff in V; tauto).
  pose proof (tok_nonempty k x T) as NX.
  assert (TR : trimmed (x ++ r)).
  { split; [intros X; apply app_eq_nil in X; destruct X; congruence|]. split.
    - apply head_not_app; [exact NX|]. apply (tok_trimmed k x T Vk).
    - rewrite rev_app_distr in N2. destruct (rev (x ++ r)) as [|c y] eqn:R; [reflexivity|].
      cbn [app] in N2. exact N2. }
  assert (E : strip ((g ++ x ++ r) ++ b) = x ++ r).
  { rewrite <- app_assoc. apply strip_trimmed; auto. }
  rewrite E. split; [|exact TR]. change (x ++ r) with ([] ++ x ++ r). constructor; auto. intros c [].
Qed.

(** The scan leaves the text of an expression as it is. *)
Lemma transform_spelled fund mods ts s :
  spells ts s -> good fund mods ts -> wf WOperand ts = true -> (forall w, In (TId w) ts -> no_suffix w) ->
  transform fund mods (S (length s)) s = Some s.
Proof.
  intros H G W N. apply (transform_id fund mods _ s false); [lia|apply (clean_spelled ts); auto; apply G|].
  intros a t c r E ->. assert (J : In c s) by (rewrite E; apply in_or_app; right; left; reflexivity).
  destruct (spelled_chars ts s H (proj1 G) c J) as [Q1 Q2]. split; [exact Q1|]. split; [exact Q2|].
  intros ->. destruct (open_tails fund mods ts s H WOperand G W a r E) as (ts' & H' & G' & W').
  apply (no_cast fund mods r ts' H' G' W').
Qed.

(** ** Tokens with names *)
Definition etk (val : str -> Z) (k : ctok) : list ptok :=
  match k with TId w => ztoks (val w) | k => [ptk k] end.
Definition next_toks (k : list ptok) (r : option (res (list ptok))) : option (res (list ptok)) :=
  match r with Some (Ok l) => Some (Ok (k ++ l)) | x => x end.
Lemma hex_digit_first x : cheq x "x" = true \/ cheq x "X" = true -> is_word x = true.
Proof. intros [E|E]; apply cheq_true in E; subst; reflexivity. Qed.

Section Lex.
  Context (env : dict str pobj).
  Lemma elex_gap g : forall f x, gap g -> length (g ++ x) < f ->
    exists f', length x < f' /\ lex_env env f (g ++ x) = lex_env env f' x.
  Proof.
    induction g as [|c g IH]; intros f x G L; [exists f; auto|].
    destruct f as [|f]; [lia|]. cbn [app lex_env].
    assert (E : cheq c sp || cheq c PyStr.tab = true) by (destruct (G c (or_introl eq_refl)) as [->| ->]; reflexivity).
    rewrite E. apply IH; [intros y I; apply G; right; exact I|cbn in L; lia].
  Qed.
  Lemma elex_num f d x : number d -> head_not (fun c => is_word c || cheq c ".") x = true -> length (d ++ x) < f ->
    exists f', length x < f' /\ lex_env env f (d ++ x) = next_toks [KNum d] (lex_env env f' x).
  Proof.
    intros [F GD] H L. destruct d as [|c d]; [discriminate|]. destruct f as [|f]; [lia|]. exists f.
    split; [cbn in L; rewrite app_length in L; lia|].
    cbn [app lex_env]. assert (DC : is_digit c = true) by (cbn in F; apply andb_true_iff in F; tauto).
    destruct (digit_facts c DC) as (_ & _ & _ & _ & _ & _ & B1 & B2). rewrite B1, B2, DC. cbn [orb].
    change (c :: d ++ x) with ((c :: d) ++ x).
    rewrite span_run; [|exact F|].
    - unfold number_end. destruct x as [|y x]; [rewrite GD; reflexivity|]. cbn in H. apply negb_true_iff in H.
      replace (cheq y "x" || cheq y "X") with false.
      + rewrite andb_false_r, H, GD. replace (is_lsuffix y) with false; [reflexivity|].
        clear - H. ascii_cases y; cbv in *; try discriminate; reflexivity.
      + destruct (cheq y "x") eqn:X1; [rewrite (hex_digit_first y) in H by auto; discriminate|].
        destruct (cheq y "X") eqn:X2; [rewrite (hex_digit_first y) in H by auto; discriminate|]. reflexivity.
    - destruct x as [|y x]; [reflexivity|]. cbn in *. destruct (is_digit y) eqn:DY; [|reflexivity].
      destruct (digit_facts y DY) as (W & _). rewrite W in H. discriminate.
  Qed.
  Lemma elex_op f s k x :
    s <> [] -> forallb op_char s = true -> operator operators (s ++ x) = Some (k, x) -> length (s ++ x) < f ->
    exists f', length x < f' /\ lex_env env f (s ++ x) = next_toks [k] (lex_env env f' x).
  Proof.
    intros NE F O L. destruct s as [|c s]; [congruence|]. destruct f as [|f]; [lia|]. exists f.
    split; [cbn in L; rewrite app_length in L; lia|].
    cbn [app lex_env]. cbn in F. apply andb_true_iff in F. destruct F as [F _].
    destruct (op_char_facts c F) as (W & _ & _ & _ & D & _ & _ & B1 & B2). rewrite B1, B2, D, W. cbn [orb].
    change (c :: s ++ x) with ((c :: s) ++ x). rewrite O. reflexivity.
  Qed.
  Lemma elex_name f w v z x :
    ident w -> ~ In w py_keywords -> dget env w = Some (ONum v) -> as_int v = Some z ->
    head_not is_word x = true -> length (w ++ x) < f ->
    exists f', length x < f' /\ lex_env env f (w ++ x) = next_toks (ztoks z) (lex_env env f' x).
  Proof.
    intros I NK D V H L. assert (F : forallb is_idchar w = true).
    { destruct w as [|c w]; [destruct I|]. destruct I as [I J]. cbn [forallb]. rewrite (idstart_idchar c I).
      apply forallb_forall. exact J. }
    destruct w as [|c w]; [destruct I|]. destruct f as [|f]; [lia|]. exists f.
    split; [cbn in L; rewrite app_length in L; lia|].
    cbn [app lex_env]. destruct I as [I _]. destruct (idstart_facts c I) as (W & _ & _ & DC & _ & B1 & B2).
    rewrite B1, B2, DC, W. cbn [orb]. change (c :: w ++ x) with ((c :: w) ++ x).
    rewrite span_run; [|apply (forallb_imp _ _ _ idchar_word); exact F|exact H].
    assert (NE : forall y, In y py_keywords -> eqb (c :: w) y = false).
    { intros y J. destruct (eqb_spec (c :: w) y) as [E|]; [|reflexivity]. rewrite <- E in J. contradiction. }
    rewrite (NE $"not") by (cbn; tauto). rewrite (NE $"and") by (cbn; tauto). rewrite (NE $"or") by (cbn; tauto).
    replace (mem (c :: w) py_keywords) with false.
    2:{ symmetry. apply not_true_iff_false. intros M. apply mem_In in M. contradiction. }
    rewrite F. cbn [negb orb]. rewrite D. unfold vtoks. rewrite V. reflexivity.
  Qed.

  Lemma elex_spelled val ts s : spells ts s -> forallb value_tok ts = true -> ~ In (TRel CNe) ts ->
    (forall w, In (TId w) ts -> ~ In w py_keywords /\ exists v, dget env w = Some (ONum v) /\ as_int v = Some (val w)) ->
    forall f, length s < f -> lex_env env f s = Some (Ok (flat_map (etk val) ts)).
  Proof.
    induction 1 as [g G|g k s ts r G T A H IH]; intros V NN N f L.
    - destruct (elex_gap g f [] G) as (f' & L' & E); [rewrite app_nil_r; exact L|]. rewrite app_nil_r in E. rewrite E.
      destruct f'; [cbn in L'; lia|reflexivity].
    - cbn [forallb] in V. apply andb_true_iff in V. destruct V as [Vk V].
      destruct (elex_gap g f (s ++ r) G L) as (f1 & L1 & E). rewrite E. clear E L f.
      assert (NEXT : forall f2, length r < f2 ->
                next_toks (etk val k) (lex_env env f2 r) = Some (Ok (flat_map (etk val) (k :: ts)))).
      { intros f2 L2. rewrite IH; [reflexivity|exact V| |exact (fun w J => N w (or_intror J))|exact L2].
        intros J. apply NN. right. exact J. }
      destruct (op_tok k) eqn:O.
      + destruct (op_text k s O T) as [NE FO].
        assert (OP : operator operators (s ++ r) = Some (ptk k, r)).
        { inversion T as [d Nn|w I Nn|gg w I GG NEE|gg g' g'' w I GG G' G''| | | | | | |o NO|o]; subst;
            try discriminate O; try discriminate Vk; try reflexivity.
          - apply op_bin; auto. intros c x' EX. apply (apart_free_bin o c); [apply (A c x' EX)|left; reflexivity].
          - apply op_rel; [intros ->; apply NN; left; reflexivity|].
            intros c x' EX. apply (apart_free_rel o c); [apply (A c x' EX)|left; reflexivity]. }
        destruct (elex_op f1 s (ptk k) r NE FO OP L1) as (f2 & L2 & E). rewrite E.
        replace [ptk k] with (etk val k) by (destruct k; try discriminate O; reflexivity). apply NEXT. exact L2.
      + assert (HW : head_not is_word r = true).
        { apply (head_apart k); [exact A|]. intros d AP. apply (apart_word k) in AP; [tauto|exact O]. }
        inversion T as [d Nn|w I Nn|gg w I GG NEE|gg g' g'' w I GG G' G''| | | | | | |o NO|o]; subst; try discriminate O; try discriminate Vk.
        * destruct (elex_num f1 s r Nn) as (f2 & L2 & E); [|exact L1|].
          -- apply (head_apart (TNum s)); [exact A|]. intros d AP. apply (apart_word (TNum s)) in AP; [|reflexivity].
             destruct AP as (W & _ & D). rewrite W. cbn [orb]. apply cheq_false. exact D.
          -- rewrite E. apply (NEXT f2 L2).
        * destruct (N s (or_introl eq_refl)) as (NK & v & D & AV).
          destruct (elex_name f1 s v (val s) r I NK D AV HW L1) as (f2 & L2 & E). rewrite E. apply (NEXT f2 L2).
  Qed.
End Lex.

(** ** Values in place of names *)
Lemma put_toks val e : map ptk (toks (put val e)) = flat_map (etk val) (toks e).
Proof.
  induction e as [d|w|w|a IH|a IH|a IH|a IH|o a IHa b IHb|o a IHa b IHb|a IHa b IHb|a IHa b IHb|a IH];
    cbn [put toks map flat_map etk app]; rewrite ?map_app, ?flat_map_app; cbn [map flat_map etk app];
    rewrite ?app_nil_r; try congruence.
  unfold zlit, ztoks. destruct (val w <? 0)%Z; reflexivity.
Qed.
Lemma put_level val e : level e <= level (put val e).
Proof. destruct e; cbn; try lia. unfold zlit. destruct (val w <? 0)%Z; cbn; lia. Qed.
Lemma put_grammatical val e : grammatical e -> grammatical (put val e).
Proof.
  induction e as [d|w|w|a IH|a IH|a IH|a IH|o a IHa b IHb|o a IHa b IHb|a IHa b IHb|a IHa b IHb|a IH];
    cbn [put grammatical]; intros G; auto;
    try (destruct G; pose proof (put_level val a); split; [lia|auto]; fail);
    try (destruct G as (L1 & L2 & Ga & Gb); pose proof (put_level val a); pose proof (put_level val b); repeat split; auto; lia; fail).
  - unfold zlit. destruct (val w <? 0)%Z; cbn; auto.
  - destruct G as (L1 & Ga & Gb). pose proof (put_level val a). repeat split; auto. lia.
Qed.
Lemma value_exact e : forallb value_tok (toks e) = true -> forall val, exact (put val e).
Proof.
  induction e as [d|w|w|a IH|a IH|a IH|a IH|o a IHa b IHb|o a IHa b IHb|a IHa b IHb|a IHa b IHb|a IH];
    intros F val; cbn [put exact]; auto.
  - unfold zlit. destruct (val w <? 0)%Z; exact I.
  - cbn [toks] in F. apply forallb_app_inv in F. destruct F as [_ F]. discriminate.
  - cbn [toks] in F. apply forallb_app_inv in F. destruct F as [_ F]. discriminate.
  - apply IH. cbn [toks forallb] in F. apply andb_true_iff in F. destruct F as [_ F]. apply forallb_app_inv in F. tauto.
Qed.
Lemma put_rel val e o : In (TRel o) (toks e) -> In (TRel o) (toks (put val e)).
Proof.
  induction e as [d|w|w|a IH|a IH|a IH|a IH|p a IHa b IHb|p a IHa b IHb|a IHa b IHb|a IHa b IHb|a IH];
    cbn [put toks]; intros J; auto;
    try (destruct J as [J|J]; [discriminate|right; auto]);
    try (apply in_app_or in J; apply in_or_app; destruct J as [J|[J|J]]; [left; auto|right; left; exact J|right; right; auto]).
  destruct J as [J|[]]. discriminate.
Qed.
Lemma toks_single e w : toks e = [TId w] -> e = CId w.
Proof.
  pose proof toks_nonempty as NE.
  destruct e as [d|w'|w'|a|a|a|a|o a b|o a b|a b|a b|a]; cbn [toks]; intros H; try discriminate; try (injection H as <-; reflexivity);
    specialize (NE a); destruct (toks a) as [|k l]; try congruence; cbn [app] in H; injection H as _ H;
    try discriminate; destruct l; discriminate.
Qed.
Lemma zlit_value z x : cvalue (zlit z) = Some x -> x = z.
Proof.
  unfold zlit. destruct (Z.ltb_spec z 0) as [L|L]; cbn [cvalue]; intros E.
  - destruct (fit (zval (zdec (- z)))) as [y|] eqn:Y; [|discriminate]. apply fit_some in Y, E.
    destruct (zdec_ok (- z) ltac:(lia)) as [V _]. lia.
  - apply fit_some in E. destruct (zdec_ok z L) as [V _]. lia.
Qed.

(** ** The value of a text *)
Lemma value_name_ok fund mods w : ident w -> value_name fund mods w -> name_ok fund mods (TId w) = true.
Proof.
  intros I (_ & NF & _ & NO & NM & NU). cbn [name_ok]. apply andb_true_iff. split; apply negb_true_iff.
  - unfold odd_word.
    replace (mem w _) with false by (symmetry; apply not_true_iff_false; intros M; apply mem_In in M; contradiction).
    replace (mem w mods) with false by (symmetry; apply not_true_iff_false; intros M; apply mem_In in M; contradiction).
    rewrite NU. cbn [orb]. apply negb_false_iff. destruct w as [|c w]; [destruct I|]. destruct I as [I J].
    cbn [forallb]. rewrite (idstart_idchar c I). apply forallb_forall. exact J.
  - apply not_true_iff_false. intros M. apply mem_In in M. contradiction.
Qed.
Lemma spelled_ident ts s w : spells ts s -> In (TId w) ts -> ident w.
Proof.
  induction 1 as [g G|g k s ts r G T A H IH]; intros J; [destruct J|].
  destruct J as [->|J]; [|auto]. inversion T; subst. assumption.
Qed.
Lemma lone_spelled ts s w : spells ts s -> forallb value_tok ts = true -> trimmed s -> lone_name s = Some w -> ts = [TId w] /\ s = w.
Proof.
  intros H V TR L. unfold lone_name in L.
  assert (ST : strip s = s).
  { pose proof (strip_trimmed [] s [] eq_refl eq_refl TR) as X. rewrite app_nil_r in X. exact X. }
  rewrite ST in L. destruct s as [|c s]; [discriminate|].
  destruct (is_idstart c && forallb is_idchar s && _) eqn:B; [|discriminate]. injection L as <-.
  apply andb_true_iff in B. destruct B as [B _]. apply andb_true_iff in B. destruct B as [B1 B2].
  destruct ts as [|k ts].
  { inversion H as [g G|]; subst. destruct (G c (or_introl eq_refl)) as [->| ->]; discriminate. }
  cbn [forallb] in V. apply andb_true_iff in V. destruct V as [Vk V].
  inversion H as [|g k' x ts' r G T A H' E1 E2]; subst.
  destruct g as [|c0 g].
  2:{ cbn [app] in E2. injection E2 as -> _. destruct (G c (or_introl eq_refl)) as [->| ->]; discriminate. }
  cbn [app] in E2. destruct (tok_head k x T Vk) as (c1 & y & -> & K). cbn [app] in E2. injection E2 as -> E2.
  assert (exists w, k = TId w /\ w = c :: y) as (w & -> & ->).
  { destruct (idstart_facts c B1) as (_ & _ & _ & DC & OC & _).
    destruct k; try discriminate Vk; try (destruct K as [K _]; congruence). exists w. split; [reflexivity|]. symmetry. apply K. }
  destruct r as [|d r].
  - rewrite app_nil_r in E2. subst y. split; [|reflexivity]. inversion H' as [|g k' x ts' r G' T' A' H2 E1' E2']; subst; [cbn [app]; rewrite app_nil_r; reflexivity|].
    exfalso. apply app_eq_nil in E2'. destruct E2' as [_ E2']. apply app_eq_nil in E2'. destruct E2' as [E2' _].
    apply (tok_nonempty _ _ T'). exact E2'.
  - exfalso. assert (W : is_idchar d = true).
    { rewrite <- E2 in B2. rewrite forallb_app in B2. apply andb_true_iff in B2. destruct B2 as [_ B2]. cbn in B2.
      apply andb_true_iff in B2. tauto. }
    specialize (A d r eq_refl). apply (apart_word (TId (c :: y))) in A; [|reflexivity].
    rewrite (idchar_word d W) in A. destruct A. discriminate.
Qed.

Theorem c_eval_const fund mods visible ext env known text z :
  c_const fund mods known text z -> agrees env known ->
  exists v, c_eval fund mods visible ext env text = Ok (ONum v) /\ as_int v = Some z.
Proof.
  intros (e & (Sp & G & KN & C) & (V & NL & VN & P)) AG. set (val := val_of known) in *.
  assert (N : forall w, In w (ids e) -> value_name fund mods w
                /\ exists v, dget env w = Some (ONum v) /\ as_int v = Some (val w)).
  { intros w J. split; [exact (VN w J)|]. destruct (KN w J) as (x & D). destruct (AG w x D) as (v & D' & A).
    exists v. split; [exact D'|]. unfold val, val_of. rewrite D. exact A. }
  clearbody val. clear KN VN AG.
  destruct (strip_spelled _ _ Sp V (toks_nonempty e)) as [S1 TR].
  assert (NV : forall w, In (TId w) (toks e) -> value_name fund mods w
                 /\ exists v, dget env w = Some (ONum v) /\ as_int v = Some (val w)).
  { intros w J. apply N. apply ids_in. exact J. }
  assert (GD : good fund mods (toks e)).
  { split; [exact V|]. apply forallb_forall. intros k J. destruct k; try reflexivity.
    apply value_name_ok; [exact (spelled_ident _ _ _ S1 J)|]. apply NV. exact J. }
  assert (W : wf WOperand (toks e) = true).
  { destruct (wf_toks e NL V [] eq_refl) as [X _]. rewrite app_nil_r in X. exact X. }
  unfold c_eval. rewrite (transform_spelled fund mods (toks e) (strip text) S1 GD W).
  2:{ intros w J. destruct (NV w J) as [X _]. apply X. }
  set (s := strip text) in *. clearbody s.
  assert (NE : s <> []) by apply TR.
  assert (PE : exists v, py_eval_env visible env s = Some (Ok (ONum v)) /\ as_int v = Some z).
  2:{ destruct PE as (v & PE & AV). exists v. split; [|exact AV].
      destruct s as [|c s]; [congruence|]. rewrite PE. reflexivity. }
  unfold py_eval_env. destruct (lone_name s) as [w|] eqn:L.
  - destruct (lone_spelled _ _ _ S1 V TR L) as [E _]. apply toks_single in E. subst e.
    destruct (NV w (or_introl eq_refl)) as [_ (v & D & AV)]. rewrite D. exists v. split; [reflexivity|].
    cbn [put] in C. apply zlit_value in C. congruence.
  - assert (NNE : ~ In (TRel CNe) (toks e)).
    { intros J. apply (plain_tok _ P). apply put_rel. exact J. }
    rewrite (elex_spelled env val (toks e) s S1 V NNE); [|intros w J; destruct (NV w J) as [X Y]; split; [apply X|exact Y]|lia].
    rewrite <- put_toks. pose proof (parse_expr (put val e) (put_grammatical val e G) P) as PX. unfold pts in PX.
    destruct (value_agrees _ (put_grammatical val e G) P z C) as (v & V1 & _ & V3).
    specialize (V3 (value_exact e V val)).
    pose proof (toks_nonempty (put val e)) as TN.
    destruct (map ptk (toks (put val e))) as [|k l] eqn:EM; [destruct (toks (put val e)); [congruence|discriminate]|].
    rewrite PX, V1. exists v. auto.
Qed.

(** ** Literals *)
Lemma trimmed_words s : s <> [] -> forallb is_word s = true -> trimmed s.
Proof.
  intros NE F. rewrite forallb_forall in F. split; [exact NE|]. split.
  - destruct s as [|c s]; [congruence|]. cbn. rewrite (word_not_space c); [reflexivity|]. apply F. left. reflexivity.
  - destruct (rev s) as [|c x] eqn:R; [reflexivity|]. cbn. rewrite (word_not_space c); [reflexivity|].
    apply F. apply in_rev. rewrite R. left. reflexivity.
Qed.
Lemma strip_words s : forallb is_word s = true -> strip s = s.
Proof.
  intros F. destruct s as [|c s]; [reflexivity|].
  pose proof (strip_trimmed [] (c :: s) [] eq_refl eq_refl) as X. rewrite app_nil_r in X. apply X.
  apply trimmed_words; [discriminate|exact F].
Qed.
Lemma span_whole p s : forallb p s = true -> span p s = (s, []).
Proof. intros F. pose proof (span_run p s [] F eq_refl) as H. rewrite app_nil_r in H. exact H. Qed.
Lemma digit_sign c : is_digit c = true -> is_sign c = false /\ is_space c = false /\ is_exp c = false /\ cheq c "." = false
  /\ (cheq c "x" || cheq c "X") = false /\ cheq c dquote = false /\ cheq c squote = false.
Proof. ascii_cases c; cbv; intros H; try discriminate; repeat split; reflexivity. Qed.
Lemma suffix_facts c : is_suffix c = true -> is_digit c = false /\ is_exp c = false /\ cheq c "." = false
  /\ (cheq c "x" || cheq c "X") = false /\ is_hex c = false.
Proof. ascii_cases c; cbv; intros H; try discriminate; repeat split; reflexivity. Qed.

Lemma eval_decimal fund mods visible ext env d u :
  number d -> forallb is_suffix u = true ->
  c_eval fund mods visible ext env (d ++ u) = Ok (ONum (VInt (zval d))).
Proof.
  intros [F G] U. assert (NU : number d) by (split; assumption).
  assert (FW : forallb is_word (d ++ u) = true).
  { rewrite forallb_app, (forallb_imp _ _ _ digit_word F), (forallb_imp _ _ _ suffix_word U). reflexivity. }
  unfold c_eval. rewrite (strip_words _ FW).
  destruct d as [|c d]; [discriminate|].
  assert (DC : is_digit c = true) by (cbn in F; apply andb_true_iff in F; tauto).
  destruct (digit_sign c DC) as (SG & SPC & EX & DOT & XX & Q1 & Q2).
  assert (HU : head_not is_digit u = true).
  { destruct u as [|x u]; [reflexivity|]. cbn in *. apply andb_true_iff in U. destruct U as [U _].
    destruct (suffix_facts x U) as (-> & _). reflexivity. }
  assert (NX : forall x r, d ++ u = x :: r -> is_exp x = false /\ cheq x "." = false /\ (cheq x "x" || cheq x "X") = false).
  { intros x r E. destruct d as [|y d]; cbn [app] in E.
    - subst u. cbn in U. apply andb_true_iff in U. destruct U as [U _]. destruct (suffix_facts x U) as (_ & A & B & C & _). auto.
    - injection E as -> E. cbn in F. apply andb_true_iff in F. destruct F as [_ F]. apply andb_true_iff in F. destruct F as [F _].
      destruct (digit_sign x F) as (_ & _ & A & B & C & _). auto. }
  assert (NA : number_at ((c :: d) ++ u) = Some (c :: d, [])).
  { unfold number_at. cbn [app]. rewrite SG. cbn [span]. rewrite SPC.
    assert (FL : floating (c :: d ++ u) = None).
    { unfold floating, mantissa. rewrite DC. destruct (d ++ u) as [|x r] eqn:E; [reflexivity|].
      destruct (NX x r eq_refl) as (A & B & _). rewrite B. cbn [exponent]. rewrite A. reflexivity. }
    rewrite FL.
    assert (HX : hexint (c :: d ++ u) = None).
    { unfold hexint. destruct (d ++ u) as [|x r] eqn:E; [reflexivity|]. destruct (NX x r eq_refl) as (_ & _ & B).
      rewrite B, andb_false_r. reflexivity. }
    rewrite HX. unfold decint, digits1. change (c :: d ++ u) with ((c :: d) ++ u). rewrite (span_run _ _ _ F HU).
    rewrite (span_whole _ _ U). reflexivity. }
  assert (TR : transform fund mods (S (length ((c :: d) ++ u))) ((c :: d) ++ u) = Some (c :: d)).
  { change ((c :: d) ++ u) with (c :: (d ++ u)) in *. cbn [transform].
    rewrite SPC, Q1, Q2. cbn [orb]. rewrite NA. cbn [length app transform option_map]. rewrite app_nil_r. reflexivity. }
  rewrite TR. unfold py_eval_env.
  assert (LN : lone_name (c :: d) = None).
  { unfold lone_name. rewrite strip_words by (apply (forallb_imp _ _ _ digit_word); exact F).
    destruct (digit_facts c DC) as (_ & _ & _ & -> & _). reflexivity. }
  rewrite LN.
  destruct (elex_num env (S (length (c :: d))) (c :: d) [] NU eq_refl) as (f' & L' & E); [rewrite app_nil_r; lia|].
  rewrite app_nil_r in E. rewrite E. destruct f' as [|f']; [lia|]. reflexivity.
Qed.

Lemma eval_hex fund mods visible ext env x h u :
  x = "x"%char \/ x = "X"%char -> h <> [] -> forallb is_hex h = true -> forallb is_suffix u = true ->
  c_eval fund mods visible ext env ("0"%char :: x :: h ++ u) = Ok (ONum (VInt (hexval h))).
Proof.
  intros X NE F U.
  assert (XX : (cheq x "x" || cheq x "X") = true) by (destruct X as [->| ->]; reflexivity).
  assert (WX : is_word x = true) by (destruct X as [->| ->]; reflexivity).
  assert (FW : forallb is_word ("0"%char :: x :: h ++ u) = true).
  { cbn [forallb]. rewrite WX, forallb_app, (forallb_imp _ _ _ hex_word F), (forallb_imp _ _ _ suffix_word U). reflexivity. }
  assert (FH : forallb is_word ("0"%char :: x :: h) = true).
  { cbn [forallb]. rewrite WX, (forallb_imp _ _ _ hex_word F). reflexivity. }
  assert (HU : head_not is_hex u = true).
  { destruct u as [|y u]; [reflexivity|]. cbn in *. apply andb_true_iff in U. destruct U as [U _].
    destruct (suffix_facts y U) as (_ & _ & _ & _ & ->). reflexivity. }
  unfold c_eval. rewrite (strip_words _ FW).
  assert (NA : number_at ("0"%char :: x :: h ++ u) = Some ("0"%char :: x :: h, [])).
  { unfold number_at. change (is_sign "0") with false. cbn iota. cbn [span]. change (is_space "0") with false. cbn iota.
    assert (FL : floating ("0"%char :: x :: h ++ u) = None) by (destruct X as [->| ->]; reflexivity).
    rewrite FL. unfold hexint. change (cheq "0" "0") with true. rewrite XX. cbn [andb].
    rewrite (span_run _ _ _ F HU). destruct h as [|h0 h]; [congruence|]. rewrite (span_whole _ _ U). reflexivity. }
  assert (TR : transform fund mods (S (length ("0"%char :: x :: h ++ u))) ("0"%char :: x :: h ++ u) = Some ("0"%char :: x :: h)).
  { cbn [transform]. change (is_space "0") with false. change (cheq "0" dquote || cheq "0" squote) with false. cbn iota.
    rewrite NA. cbn [length transform option_map]. rewrite app_nil_r. reflexivity. }
  rewrite TR. unfold py_eval_env.
  assert (LN : lone_name ("0"%char :: x :: h) = None).
  { unfold lone_name. rewrite (strip_words _ FH). reflexivity. }
  rewrite LN.
  assert (LX : lex_env env (S (length ("0"%char :: x :: h))) ("0"%char :: x :: h) = Some (Ok (ztoks (hexval h)))).
  { cbn [lex_env]. change (cheq "0" sp || cheq "0" PyStr.tab) with false. change (is_digit "0") with true. cbn iota.
    assert (SD : span is_digit ("0"%char :: x :: h) = ($"0", x :: h)) by (destruct X as [->| ->]; reflexivity).
    rewrite SD. change (eqb $"0" $"0") with true. rewrite XX. cbn [andb]. rewrite (span_whole _ _ F).
    destruct h as [|h0 h]; [congruence|]. cbn [number_end length lex_env]. rewrite app_nil_r. reflexivity. }
  rewrite LX. unfold ztoks.
  assert (NN : (0 <= hexval h)%Z).
  { unfold hexval. assert (Q : forall l v, (0 <= v)%Z -> (0 <= fold_left (fun v c => (16 * v + Z.of_nat (if is_digit c then code c - 48
                                              else if between 65 70 c then code c - 55
                                              else code c - 87))%Z) l v)%Z).
    { induction l as [|c l IH]; intros v V; cbn [fold_left]; [exact V|]. apply IH. lia. }
    apply Q. lia. }
  replace (hexval h <? 0)%Z with false by (symmetry; apply Z.ltb_ge; exact NN).
  destruct (zdec_ok (hexval h) NN) as [ZV _]. set (dg := zdec (hexval h)) in *. clearbody dg.
  change (Ok (ONum (VInt (zval dg))) = Ok (ONum (VInt (hexval h)))). rewrite ZV. reflexivity.
Qed.
