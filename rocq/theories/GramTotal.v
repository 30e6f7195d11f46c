(** The grammar reads every text to its end: no recursion is cut off. *)
From Coq Require Import Ascii String Bool Arith ZArith Lia List.
Import ListNotations.
From Verif Require Import PyBase PyBaseFacts PyStr PyStrFacts MacroModel MacroDefProofs PpModel DeclModel EvalModel
  GramModel GramLex.

(** The result of reading a text of length [n]: not cut off, and a match takes [k] characters or
    more. *)
Definition ends {A} (r : pres A) (n k : nat) : Prop :=
  match r with POk _ q => k + length (snd q) <= n | PNo => True | POut => False end.

Lemma ends_weaken {A} (r : pres A) n k k' : ends r n k -> k' <= k -> ends r n k'.
Proof. destruct r; cbn; auto. intros. lia. Qed.
Lemma ends_ret {A} (a : A) (q : pos) : ends (POk a q) (length (snd q)) 0.
Proof. cbn. lia. Qed.
Lemma ends_bind {A B} (e : pres A) (K : A -> pos -> pres B) n k1 k2 k :
  ends e n k1 -> (forall a q, k1 + length (snd q) <= n -> ends (K a q) (length (snd q)) k2) ->
  k <= k1 + k2 -> ends (pbind e K) n k.
Proof.
  destruct e as [a q| |]; cbn; auto. intros H HK L. specialize (HK a q H). destruct (K a q); cbn in *; auto. lia.
Qed.
Lemma ends_alt {A} (e k : pres A) n m : ends e n m -> ends k n m ->
  ends (match e with POk a p => POk a p | PNo => k | POut => POut end) n m.
Proof. destruct e; cbn; auto. Qed.
Lemma ends_opt {A} (e : pos -> pres A) p k : ends (e p) (length (snd p)) k -> ends (popt e p) (length (snd p)) 0.
Proof. unfold popt. destruct (e p); cbn; auto. intros. lia. Qed.
Lemma ends_many {A} (e : pos -> pres A) n p :
  (forall q, length (snd q) < n -> ends (e q) (length (snd q)) 1) -> length (snd p) < n ->
  ends (many e p) (length (snd p)) 0.
Proof.
  intros H L. unfold many. assert (LF : length (snd p) < S (length (snd p))) by lia. revert LF.
  generalize (S (length (snd p))) as f. intros f. revert p L. induction f as [|f IH]; intros p L LF; [lia|].
  cbn [many_n]. specialize (H p L). destruct (e p) as [a q| |]; cbn [ends] in H.
  - specialize (IH q ltac:(lia) ltac:(lia)). destruct (many_n f e q); cbn in *; auto. lia.
  - cbn. lia.
  - contradiction.
Qed.
Lemma ends_many1 {A} (e : pos -> pres A) n p :
  (forall q, length (snd q) < n -> ends (e q) (length (snd q)) 1) -> length (snd p) < n ->
  ends (many1 e p) (length (snd p)) 1.
Proof.
  intros H L. unfold many1. eapply ends_bind; [apply (H p L)|intros a q Lq|apply Nat.le_refl].
  eapply ends_bind; [apply (ends_many e n); [exact H|lia]|intros l q' Lq'; apply ends_ret|apply Nat.le_refl].
Qed.

Lemma skip_short p : length (snd (skip p)) <= length (snd p).
Proof.
  unfold skip. generalize (fst p) as c. generalize (snd p) as s. clear p. induction s as [|d r IH]; intros c; cbn [skip_from].
  - cbn. lia.
  - destruct (is_ppws d); [specialize (IH d)|]; cbn [snd length] in *; lia.
Qed.
Lemma ends_skip {A} (r : pres A) p k : ends r (length (snd (skip p))) k -> ends r (length (snd p)) k.
Proof. pose proof (skip_short p). destruct r; cbn; auto. intros. lia. Qed.
Lemma ends_lit x p : ends (lit x p) (length (snd p)) (length x).
Proof.
  unfold lit. apply ends_skip. destruct (strip_prefix x (snd (skip p))) as [r|] eqn:E; cbn; auto.
  apply strip_prefix_iff in E. rewrite E, app_length. lia.
Qed.
Lemma ignorables_short f s : length (skip_ignorables f s) <= length s.
Proof. destruct (skip_ignorables_suffix f s) as (a & E). rewrite E at 2. rewrite app_length. lia. Qed.
Lemma ends_delim x p : ends (delim x p) (length (snd p)) (length x).
Proof.
  unfold delim. set (q := upto p _). assert (L : length (snd q) <= length (snd p)) by apply ignorables_short.
  pose proof (ends_lit x q) as H. destruct (lit x q); cbn in *; auto. lia.
Qed.
Lemma span_len f s : length (snd (span f s)) + length (fst (span f s)) = length s.
Proof. pose proof (span_app f s) as H. destruct (span f s) as [a b]. cbn [fst snd]. rewrite H, app_length. lia. Qed.
Lemma ends_kwl l p : ends (kwl l p) (length (snd p)) 0.
Proof.
  unfold kwl. apply ends_skip. pose proof (span_len is_word (snd (skip p))) as L. destruct (span is_word (snd (skip p))) as [w r].
  cbn [fst snd] in L. destruct (_ && _); cbn; auto. lia.
Qed.
Lemma ends_kwl1 l p : ~ In [] l -> ends (kwl l p) (length (snd p)) 1.
Proof.
  intros N. unfold kwl. apply ends_skip. pose proof (span_len is_word (snd (skip p))) as L. destruct (span is_word (snd (skip p))) as [w r].
  cbn [fst snd] in L. destruct (negb _); cbn [andb]; [|exact Logic.I]. destruct (mem w l) eqn:M; cbn; auto.
  apply mem_str in M. destruct w as [|c w]; [contradiction|]. cbn [length] in L. lia.
Qed.
Lemma ends_keyword w p : w <> [] -> ends (keyword w p) (length (snd p)) 1.
Proof.
  intros N. unfold keyword. apply ends_skip. pose proof (span_len is_kwchar (snd (skip p))) as L. destruct (span is_kwchar (snd (skip p))) as [v r].
  cbn [fst snd] in L. destruct (negb _); cbn [andb]; [|exact Logic.I]. destruct (eqb v w) eqn:M; cbn; auto.
  apply eqb_eq in M. subst v. destruct w as [|c w]; [congruence|]. cbn [length] in L. lia.
Qed.
Lemma ends_one_of two one p : ~ In [] (two ++ one) -> ends (one_of two one p) (length (snd p)) 1.
Proof.
  intros N. unfold one_of. apply ends_skip. destruct (find _ _) as [x|] eqn:F; [|exact Logic.I]. apply find_some in F. destruct F as [I S].
  cbn [ends upto snd]. apply starts_with_iff in S. destruct S as [r S]. rewrite S. rewrite skipn_length, app_length.
  destruct x as [|c x]; [contradiction|]. cbn [length]. lia.
Qed.
Lemma qs_len f : forall q s a b, qs_body f q s = Some (a, b) -> length b < length s.
Proof.
  induction f as [|f IH]; intros q s a b E; [discriminate|]. cbn [qs_body] in E.
  destruct s as [|c r]; [discriminate|]. destruct (cheq c q).
  - destruct r as [|d r']; [injection E as <- <-; cbn; lia|]. destruct (cheq d q); [|injection E as <- <-; cbn; lia].
    destruct (qs_body f q r') as [[x y]|] eqn:R; [|discriminate]. injection E as <- <-. apply IH in R. cbn. lia.
  - destruct (cheq c bslash).
    + destruct r as [|d r']; [discriminate|]. destruct (cheq d "x").
      * pose proof (span_len MacroModel.is_hex r') as SP. destruct (span MacroModel.is_hex r') as [h r'']. destruct h as [|h0 h]; [discriminate|].
        destruct (qs_body f q r'') as [[x y]|] eqn:R; [|discriminate]. injection E as <- <-. apply IH in R. cbn in *. lia.
      * destruct (qs_body f q r') as [[x y]|] eqn:R; [|discriminate]. injection E as <- <-. apply IH in R. cbn. lia.
    + destruct (cheq c nl || cheq c cr); [discriminate|].
      destruct (qs_body f q r) as [[x y]|] eqn:R; [|discriminate]. injection E as <- <-. apply IH in R. cbn. lia.
Qed.
Lemma quoted_len s a b : quoted_string s = Some (a, b) -> length b < length s.
Proof.
  unfold quoted_string. destruct s as [|c r]; [discriminate|]. destruct (_ || _); [|discriminate].
  destruct (qs_body _ c r) as [[x y]|] eqn:R; [|discriminate]. intros E. injection E as <- <-. apply qs_len in R. cbn. lia.
Qed.
Lemma nested_len o c f : forall d s r, nested_body f o c d s = Some r -> length r < length s.
Proof.
  induction f as [|f IH]; intros d s r E; [discriminate|]. cbn [nested_body] in E.
  destruct (quoted_string s) as [[a b]|] eqn:Q.
  - apply quoted_len in Q. apply IH in E. lia.
  - destruct s as [|x y]; [discriminate|]. destruct (cheq x o); [apply IH in E; cbn; lia|].
    destruct (cheq x c); [|apply IH in E; cbn; lia]. destruct d as [|d]; [injection E as <-; cbn; lia|apply IH in E; cbn; lia].
Qed.
Lemma ends_nested o c p : ends (nested o c p) (length (snd p)) 1.
Proof.
  unfold nested. apply ends_skip. destruct (snd (skip p)) as [|d r]; [exact Logic.I|]. destruct (cheq d o); [|exact Logic.I].
  destruct (nested_body _ o c 0 r) as [r'|] eqn:E; [|exact Logic.I]. apply nested_len in E. cbn [ends upto snd length]. lia.
Qed.
Lemma digits1_len s a b : digits1 s = Some (a, b) -> length b < length s.
Proof.
  unfold digits1. pose proof (span_len is_digit s) as L. destruct (span is_digit s) as [d r]. destruct d as [|c d]; [discriminate|].
  intros E. injection E as <- <-. cbn [fst snd length] in L. lia.
Qed.
Lemma hexint_len s a b : hexint s = Some (a, b) -> length b < length s.
Proof.
  unfold hexint. destruct s as [|z [|x r]]; try discriminate. destruct (_ && _); [|discriminate].
  pose proof (span_len is_hex r) as L. destruct (span is_hex r) as [h r']. destruct h as [|h0 h]; [discriminate|].
  intros E. injection E as <- <-. pose proof (span_len is_suffix r') as L'. cbn [fst snd length] in *. lia.
Qed.
Lemma decint_len s a b : decint s = Some (a, b) -> length b < length s.
Proof.
  unfold decint. destruct (digits1 s) as [[d r]|] eqn:E; [|discriminate]. apply digits1_len in E.
  intros H. injection H as <- <-. pose proof (span_len is_suffix r). lia.
Qed.
Lemma exponent_len s a b : exponent s = Some (a, b) -> length b < length s.
Proof.
  unfold exponent. destruct s as [|e r]; [discriminate|]. destruct (is_exp e); [|discriminate]. destruct r as [|g r']; [discriminate|].
  destruct (is_sign g).
  - destruct (digits1 r') as [[d x]|] eqn:E; [|discriminate]. apply digits1_len in E. intros H. injection H as <- <-. cbn. lia.
  - destruct (digits1 (g :: r')) as [[d x]|] eqn:E; [|discriminate]. apply digits1_len in E. intros H. injection H as <- <-. cbn in *. lia.
Qed.
Lemma floating_len s a b : floating s = Some (a, b) -> length b < length s.
Proof.
  unfold floating. assert (M : forall m p r, mantissa s = Some (m, p, r) -> length r < length s).
  { intros m p r. unfold mantissa. destruct s as [|c t]; [discriminate|]. destruct (is_digit c).
    - destruct t as [|x t]; [intros E; injection E as <- <- <-; cbn; lia|]. destruct (cheq x ".").
      + pose proof (span_len is_digit t) as L. destruct (span is_digit t) as [d y]. intros E. injection E as <- <- <-. cbn in *. lia.
      + intros E. injection E as <- <- <-. cbn. lia.
    - destruct (cheq c "."); [|discriminate]. destruct (digits1 t) as [[d x]|] eqn:E; [|discriminate]. apply digits1_len in E.
      intros H. injection H as <- <- <-. cbn. lia. }
  destruct (mantissa s) as [[[m p] r]|]; [|discriminate]. specialize (M _ _ _ eq_refl).
  destruct (exponent r) as [[e x]|] eqn:E.
  - apply exponent_len in E. intros H. injection H as <- <-. lia.
  - destruct p; [|discriminate]. intros H. injection H as <- <-. exact M.
Qed.
Lemma ends_number p : ends (number p) (length (snd p)) 0.
Proof.
  unfold number. apply ends_skip. generalize (skip p). intros q. destruct (number_at (snd q)) as [[t r]|] eqn:E; [|exact Logic.I].
  cbn [ends upto snd]. unfold number_at in E.
  assert (H : exists g s1, (let (g, s1) := match snd q with c :: r => if is_sign c then ([c], r) else ([], snd q) | [] => ([], snd q) end in (g, s1)) = (g, s1) /\ length s1 <= length (snd q)).
  { destruct (snd q) as [|c x]; [do 2 eexists; split; [reflexivity|lia]|]. destruct (is_sign c); do 2 eexists; (split; [reflexivity|cbn; lia]). }
  destruct H as (g & s1 & E1 & L1). destruct (match snd q with c :: r => if is_sign c then ([c], r) else ([], snd q) | [] => ([], snd q) end) as [g' s1'].
  injection E1 as -> ->. pose proof (span_len is_space s1) as L2. destruct (span is_space s1) as [b s2]. cbn [fst snd] in L2.
  assert (L3 : forall n x, match floating s2 with Some p => Some p | None => match hexint s2 with Some p => Some p | None => decint s2 end end = Some (n, x) -> length x < length s2).
  { intros n x. destruct (floating s2) as [[n' x']|] eqn:F; [intros H; injection H as <- <-; apply (floating_len _ _ _ F)|].
    destruct (hexint s2) as [[n' x']|] eqn:F2; [intros H; injection H as <- <-; apply (hexint_len _ _ _ F2)|apply decint_len]. }
  destruct (match floating s2 with Some p => Some p | None => match hexint s2 with Some p => Some p | None => decint s2 end end) as [[n x]|]; [|discriminate].
  injection E as <- <-. specialize (L3 _ _ eq_refl). lia.
Qed.
Lemma ends_quoted p : ends (quoted p) (length (snd p)) 0.
Proof.
  unfold quoted. apply ends_skip. destruct (quoted_string _) as [[t r]|] eqn:E; [|exact Logic.I]. apply quoted_len in E. cbn. lia.
Qed.
Lemma ends_integer p : ends (integer p) (length (snd p)) 0.
Proof.
  unfold integer. apply ends_skip. generalize (skip p). intros q.
  assert (H : exists g s1, match snd q with c :: r => if is_sign c then ([c], r) else ([], snd q) | [] => ([], []) end = (g, s1) /\ length s1 <= length (snd q)).
  { destruct (snd q) as [|c x]; [do 2 eexists; split; [reflexivity|lia]|]. destruct (is_sign c); do 2 eexists; (split; [reflexivity|cbn; lia]). }
  destruct H as (g & s1 & -> & L1). pose proof (span_len is_space s1) as L2. destruct (span is_space s1) as [b s2]. cbn [fst snd] in L2.
  assert (L3 : forall n x, match hexint s2 with Some p => Some p | None => decint s2 end = Some (n, x) -> length x < length s2).
  { intros n x. destruct (hexint s2) as [[n' x']|] eqn:F2; [intros H; injection H as <- <-; apply (hexint_len _ _ _ F2)|apply decint_len]. }
  destruct (match hexint s2 with Some p => Some p | None => decint s2 end) as [[n x]|]; [|exact Logic.I].
  specialize (L3 _ _ eq_refl). cbn. lia.
Qed.

Section Rules.
  Context (base mods : list str) (pk : str -> option Z) (NB : ~ In [] base) (NM : ~ In [] mods).

  Lemma ends_ident p : ends (ident base p) (length (snd p)) 1.
  Proof.
    unfold ident. apply ends_skip. destruct (snd (skip p)) as [|c r]; [exact Logic.I|]. destruct (_ && _); [|exact Logic.I].
    pose proof (ends_kwl (keywords base) (skip p)) as K. destruct (kwl (keywords base) (skip p)); [exact Logic.I| |contradiction].
    destruct (is_idstart c); [|exact Logic.I]. pose proof (span_len is_kwchar r) as L. destruct (span is_kwchar r) as [w r'].
    cbn [ends upto snd fst length] in *. lia.
  Qed.
  Lemma ends_under2 p : ends (under2 base p) (length (snd p)) 1.
  Proof.
    unfold under2. apply ends_skip. destruct (snd (skip p)) as [|c r]; [exact Logic.I|]. destruct (_ && _); [|exact Logic.I].
    pose proof (ends_kwl (keywords base) (skip p)) as K. destruct (kwl (keywords base) (skip p)); [exact Logic.I| |contradiction].
    destruct (strip_prefix $"__" (c :: r)) as [r1|] eqn:E; [|exact Logic.I]. apply strip_prefix_iff in E.
    destruct (drop_while_suffix is_ppws r1) as (a & E1 & _). destruct (drop_while is_ppws r1) as [|d r']; [exact Logic.I|].
    destruct (is_alnum d); [|exact Logic.I]. pose proof (span_len is_kwchar r') as L. cbn [ends upto snd]. rewrite E, E1.
    rewrite !app_length. cbn [length list_ascii_of_string]. lia.
  Qed.
  Lemma lit_eats x p k : k <= length x -> ends (lit x p) (length (snd p)) k.
  Proof. apply ends_weaken. apply ends_lit. Qed.
  Lemma delim_eats x p k : k <= length x -> ends (delim x p) (length (snd p)) k.
  Proof. apply ends_weaken. apply ends_delim. Qed.
  Lemma ends_qualifier p : ends (qualifier base p) (length (snd p)) 1.
  Proof.
    unfold qualifier. apply ends_alt.
    - eapply (ends_bind _ _ _ 1 0); [apply ends_under2|intros u q L|lia].
      eapply (ends_bind _ _ _ 0 0); [eapply ends_opt; apply ends_nested|intros n q' L'; apply ends_ret|lia].
    - eapply (ends_bind _ _ _ 1 0); [apply ends_kwl1; intros I; apply mem_str in I; discriminate|intros w q L; apply ends_ret|lia].
  Qed.
  Lemma ends_quals p : ends (quals base p) (length (snd p)) 0.
  Proof.
    unfold quals. eapply (ends_bind _ _ _ 0 0); [eapply ends_many; [intros q _; apply ends_qualifier|apply Nat.lt_succ_diag_r]|intros l q L; apply ends_ret|lia].
  Qed.
  Lemma ends_extra p : ends (extra mods p) (length (snd p)) 0.
  Proof.
    unfold extra. eapply (ends_bind _ _ _ 0 0); [eapply ends_many; [intros q _|apply Nat.lt_succ_diag_r]|intros l q L; apply ends_ret|lia].
    eapply (ends_bind _ _ _ 1 0); [apply ends_kwl1; exact NM|intros w q' L; eapply ends_opt; apply ends_nested|lia].
  Qed.
  Lemma ends_delimited {A} (e : pos -> pres A) n k p :
    (forall q, length (snd q) < n -> ends (e q) (length (snd q)) k) -> length (snd p) < n ->
    ends (delimited e p) (length (snd p)) k.
  Proof.
    intros H L. unfold delimited. eapply (ends_bind _ _ _ k 0); [apply (H p L)|intros a q Lq|lia].
    eapply (ends_bind _ _ _ 0 0); [eapply (ends_many _ n); [intros q' Lq'|lia]|intros l q' Lq'; apply ends_ret|lia].
    eapply (ends_bind _ _ _ 1 0); [apply lit_eats; cbn; lia|intros u q2 L2|lia]. eapply ends_weaken; [apply H; lia|lia].
  Qed.

  Section Expr.
    Context (E : pos -> pres str) (n : nat) (HE : forall q, length (snd q) < n -> ends (E q) (length (snd q)) 0).
    Lemma ends_index p : length (snd p) < S n -> ends (index E p) (length (snd p)) 1.
    Proof.
      intros L. unfold index. eapply (ends_bind _ _ _ 1 0); [apply lit_eats; cbn; lia|intros o q1 L1|lia].
      eapply (ends_bind _ _ _ 0 0); [apply HE; lia|intros e q2 L2|lia].
      eapply (ends_bind _ _ _ 0 0); [apply lit_eats; lia|intros c q3 L3; apply ends_ret|lia].
    Qed.
    Lemma ends_primary p : length (snd p) < S n -> ends (primary base E p) (length (snd p)) 0.
    Proof.
      intros L. unfold primary. apply ends_alt; [|apply ends_alt; [|apply ends_alt; [|apply ends_alt; [|apply ends_alt]]]].
      - unfold call. eapply (ends_bind _ _ _ 1 0); [apply ends_ident|intros i q1 L1|lia].
        eapply (ends_bind _ _ _ 0 0); [apply lit_eats; lia|intros o q2 L2|lia].
        eapply (ends_bind _ _ _ 0 0); [eapply ends_opt; apply (ends_delimited E n 0); [exact HE|lia]|intros a q3 L3|lia].
        eapply (ends_bind _ _ _ 0 0); [apply lit_eats; lia|intros c q4 L4; apply ends_ret|lia].
      - unfold indexed. eapply (ends_bind _ _ _ 0 0); [eapply ends_weaken; [apply ends_ident|lia]|intros i q1 L1|lia].
        eapply (ends_bind _ _ _ 0 0); [eapply ends_weaken; [apply (ends_many1 _ (S n)); [apply ends_index|lia]|lia]|intros l q2 L2; apply ends_ret|lia].
      - unfold one. eapply (ends_bind _ _ _ 0 0); [eapply ends_weaken; [apply ends_ident|lia]|intros i q1 L1; apply ends_ret|lia].
      - unfold one. eapply (ends_bind _ _ _ 0 0); [apply ends_number|intros i q1 L1; apply ends_ret|lia].
      - unfold one. eapply (ends_bind _ _ _ 0 0); [apply ends_quoted|intros i q1 L1; apply ends_ret|lia].
      - unfold parens. eapply (ends_bind _ _ _ 1 0); [apply lit_eats; cbn; lia|intros o q1 L1|lia].
        eapply (ends_bind _ _ _ 0 0); [apply HE; lia|intros e q2 L2|lia].
        eapply (ends_bind _ _ _ 0 0); [apply lit_eats; lia|intros c q3 L3; apply ends_ret|lia].
    Qed.
    Lemma ends_ops two ones p : ~ In [] (two ++ ones) -> ends (many (one_of two ones) p) (length (snd p)) 0.
    Proof. intros N. eapply ends_many; [intros q _; apply ends_one_of; exact N|apply Nat.lt_succ_diag_r]. Qed.
    Lemma ends_atom p : length (snd p) < S n -> ends (atom base E p) (length (snd p)) 0.
    Proof.
      intros L. unfold atom. apply ends_alt.
      - unfold cast_atom. eapply (ends_bind _ _ _ 0 0); [apply ends_ops; intros I; apply mem_str in I; discriminate|intros u q1 L1|lia].
        eapply (ends_bind _ _ _ 0 0); [apply ends_opt with (k := 0)|intros c q2 L2|lia].
        { unfold cast. eapply (ends_bind _ _ _ 0 0); [apply lit_eats; lia|intros o q2 L2|lia].
          eapply (ends_bind _ _ _ 0 0); [eapply ends_weaken; [apply ends_ident|lia]|intros i q3 L3|lia].
          eapply (ends_bind _ _ _ 0 0); [apply lit_eats; lia|intros c q4 L4; apply ends_ret|lia]. }
        eapply (ends_bind _ _ _ 0 0); [apply ends_primary; lia|intros e q3 L3|lia].
        eapply (ends_bind _ _ _ 0 0); [apply ends_ops; intros I; apply mem_str in I; discriminate|intros v q4 L4; apply ends_ret|lia].
      - unfold uncast_atom. eapply (ends_bind _ _ _ 0 0); [apply ends_ops; intros I; apply mem_str in I; discriminate|intros u q1 L1|lia].
        eapply (ends_bind _ _ _ 0 0); [apply ends_primary; lia|intros e q3 L3|lia].
        eapply (ends_bind _ _ _ 0 0); [apply ends_ops; intros I; apply mem_str in I; discriminate|intros v q4 L4; apply ends_ret|lia].
    Qed.
    Lemma ends_expr_body p : length (snd p) < S n -> ends (expr_body base E p) (length (snd p)) 0.
    Proof.
      intros L. unfold expr_body. eapply (ends_bind _ _ _ 0 0); [apply ends_atom; exact L|intros a q1 L1|lia].
      eapply (ends_bind _ _ _ 0 0); [eapply (ends_many _ (S n)); [intros q Lq|lia]|intros l q2 L2; apply ends_ret|lia].
      eapply (ends_bind _ _ _ 1 0); [apply ends_one_of; intros I; apply mem_str in I; discriminate|intros o q2 L2|lia].
      eapply (ends_bind _ _ _ 0 0); [apply ends_atom; lia|intros b q3 L3; apply ends_ret|lia].
    Qed.
  End Expr.
  Lemma ends_expr f : forall p, length (snd p) < f -> ends (expr base f p) (length (snd p)) 0.
  Proof. induction f as [|f IH]; intros p L; [lia|]. cbn [expr]. apply (ends_expr_body _ f IH). exact L. Qed.
  Lemma ends_expression p : ends (expression base p) (length (snd p)) 0.
  Proof. apply ends_expr. lia. Qed.
  Lemma ends_default p : ends (default base p) (length (snd p)) 0.
  Proof.
    unfold default. apply ends_opt with (k := 0).
    eapply (ends_bind _ _ _ 0 0); [apply lit_eats; lia|intros u q1 L1; apply ends_expression|lia].
  Qed.
  Lemma ends_array p : ends (array base p) (length (snd p)) 1.
  Proof.
    unfold array. eapply (ends_bind _ _ _ 1 0); [apply lit_eats; cbn; lia|intros u q1 L1|lia].
    eapply (ends_bind _ _ _ 0 0); [eapply ends_opt; apply ends_expression|intros e q2 L2|lia].
    eapply (ends_bind _ _ _ 0 0); [apply delim_eats; lia|intros c q3 L3; apply ends_ret|lia].
  Qed.
  Lemma ends_enumerator p : ends (enumerator base p) (length (snd p)) 0.
  Proof.
    unfold enumerator. eapply (ends_bind _ _ _ 0 0); [eapply ends_weaken; [apply ends_ident|lia]|intros n q1 L1|lia].
    eapply (ends_bind _ _ _ 0 0); [apply ends_default|intros v q2 L2; apply ends_ret|lia].
  Qed.
  Lemma ends_enum p : ends (enum_type base p) (length (snd p)) 1.
  Proof.
    unfold enum_type. eapply (ends_bind _ _ _ 1 0); [apply ends_keyword; discriminate|intros u q1 L1|lia]. apply ends_alt.
    - eapply (ends_bind _ _ _ 0 0); [eapply ends_opt; apply ends_ident|intros n q2 L2|lia].
      eapply (ends_bind _ _ _ 0 0); [apply delim_eats; lia|intros c q3 L3|lia].
      eapply (ends_bind _ _ _ 0 0); [eapply (ends_delimited _ _ 0); [intros q _; apply ends_enumerator|apply Nat.lt_succ_diag_r]|intros l q4 L4|lia].
      eapply (ends_bind _ _ _ 0 0); [eapply ends_opt; apply ends_delim|intros c' q5 L5|lia].
      eapply (ends_bind _ _ _ 0 0); [apply delim_eats; lia|intros c3 q6 L6; apply ends_ret|lia].
    - eapply (ends_bind _ _ _ 0 0); [eapply ends_weaken; [apply ends_ident|lia]|intros n q2 L2; apply ends_ret|lia].
  Qed.
  Lemma fund_nonempty : ~ In [] (modifiers ++ base).
  Proof. intros I. apply in_app_iff in I. destruct I as [I|I]; [|contradiction]. apply mem_str in I. discriminate. Qed.
  Lemma ends_fund p : ends (fund_type base p) (length (snd p)) 1.
  Proof.
    unfold fund_type. eapply (ends_bind _ _ _ 1 0); [eapply ends_many1; [intros q _; apply ends_kwl1; apply fund_nonempty|apply Nat.lt_succ_diag_r]|intros l q L; apply ends_ret|lia].
  Qed.
  Lemma ends_named p : ends (named_type base p) (length (snd p)) 1.
  Proof.
    unfold named_type. eapply (ends_bind _ _ _ 0 1); [eapply ends_opt; apply ends_kwl|intros m q1 L1|lia].
    eapply (ends_bind _ _ _ 1 0); [apply ends_ident|intros n q2 L2; apply ends_ret|lia].
  Qed.

  Section Bodies.
    Context (R : rules) (n : nat)
      (HS : forall q, length (snd q) < n -> ends (r_spec R q) (length (snd q)) 1)
      (HD : forall q, length (snd q) < n -> ends (r_decl R q) (length (snd q)) 0)
      (HA : forall q, length (snd q) < n -> ends (r_abstract R q) (length (snd q)) 0).
    Lemma ends_stars p : ends (many (star base) p) (length (snd p)) 0.
    Proof.
      eapply ends_many; [intros q _|apply Nat.lt_succ_diag_r]. unfold star.
      eapply (ends_bind _ _ _ 1 0); [apply lit_eats; cbn; lia|intros u q1 L1; apply ends_quals|lia].
    Qed.
    Lemma ends_arrays p : ends (many (array base) p) (length (snd p)) 0.
    Proof. eapply ends_many; [intros q _; apply ends_array|apply Nat.lt_succ_diag_r]. Qed.
    Lemma ends_args d p : (forall q, length (snd q) < n -> ends (d q) (length (snd q)) 0) -> length (snd p) < S n ->
      ends (args base R d p) (length (snd p)) 0.
    Proof.
      intros H L. unfold args. eapply (ends_bind _ _ _ 1 0); [apply lit_eats; cbn; lia|intros u q1 L1|lia].
      eapply (ends_bind _ _ _ 0 0); [eapply ends_opt; eapply (ends_delimited _ n 0); [intros q Lq|lia]|intros l q2 L2|lia].
      - unfold arg. eapply (ends_bind _ _ _ 0 0); [eapply ends_weaken; [apply HS; exact Lq|lia]|intros t q2 L2|lia].
        eapply (ends_bind _ _ _ 0 0); [apply H; lia|intros x q3 L3|lia].
        eapply (ends_bind _ _ _ 0 0); [apply ends_default|intros v q4 L4; apply ends_ret|lia].
      - eapply (ends_bind _ _ _ 0 0); [apply delim_eats; lia|intros c q3 L3; apply ends_ret|lia].
    Qed.
    Lemma ends_abstract p : length (snd p) < S n -> ends (abstract_body base R p) (length (snd p)) 0.
    Proof.
      intros L. unfold abstract_body. eapply (ends_bind _ _ _ 0 0); [apply ends_quals|intros fq q1 L1|lia].
      eapply (ends_bind _ _ _ 0 0); [apply ends_stars|intros ps q2 L2|lia].
      eapply (ends_bind _ _ _ 0 0); [eapply ends_opt; apply ends_lit|intros r q3 L3|lia].
      eapply (ends_bind _ _ _ 0 0); [eapply ends_opt; apply ends_args; [exact HA|lia]|intros a q4 L4|lia].
      eapply (ends_bind _ _ _ 0 0); [apply ends_arrays|intros ar q5 L5; apply ends_ret|lia].
    Qed.
    Lemma ends_decl p : length (snd p) < S n -> ends (decl_body base R p) (length (snd p)) 0.
    Proof.
      intros L. unfold decl_body. eapply (ends_bind _ _ _ 0 0); [apply ends_quals|intros fq q1 L1|lia].
      eapply (ends_bind _ _ _ 0 0); [|intros cc q2 L2|lia].
      { unfold call_conv. apply ends_opt with (k := 1). apply ends_alt; apply ends_keyword; discriminate. }
      eapply (ends_bind _ _ _ 0 0); [apply ends_stars|intros ps q3 L3|lia].
      eapply (ends_bind _ _ _ 0 0); [|intros c q4 L4|lia].
      { unfold core. apply ends_alt.
        - eapply (ends_bind _ _ _ 0 0); [eapply ends_opt; apply ends_lit|intros r q4 L4|lia].
          eapply (ends_bind _ _ _ 0 0); [eapply ends_weaken; [apply ends_ident|lia]|intros m q5 L5; apply ends_ret|lia].
        - eapply (ends_bind _ _ _ 1 0); [apply lit_eats; cbn; lia|intros u q4 L4|lia].
          eapply (ends_bind _ _ _ 0 0); [apply HD; lia|intros d q5 L5|lia].
          eapply (ends_bind _ _ _ 0 0); [apply delim_eats; lia|intros c q6 L6; apply ends_ret|lia]. }
      eapply (ends_bind _ _ _ 0 0); [eapply ends_opt; apply ends_args; [intros q Lq; apply ends_alt; [apply HD|apply HA]; exact Lq|lia]|intros a q5 L5|lia].
      eapply (ends_bind _ _ _ 0 0); [apply ends_arrays|intros ar q6 L6; apply ends_ret|lia].
    Qed.
    Lemma ends_decls p : length (snd p) < n -> ends (delimited (r_decl R) p) (length (snd p)) 0.
    Proof. intros L. apply (ends_delimited _ n 0); assumption. Qed.
    Lemma ends_init p : ends (initialiser base p) (length (snd p)) 0.
    Proof.
      unfold initialiser. eapply (ends_bind _ _ _ 0 0); [apply lit_eats; lia|intros u q1 L1|lia]. apply ends_alt.
      - eapply (ends_bind _ _ _ 0 0); [apply ends_expression|intros e q2 L2; apply ends_ret|lia].
      - eapply (ends_bind _ _ _ 0 0); [apply lit_eats; lia|intros u' q2 L2|lia].
        eapply (ends_bind _ _ _ 0 0); [eapply (ends_delimited _ _ 0); [intros q _; apply ends_expression|apply Nat.lt_succ_diag_r]|intros l q3 L3|lia].
        eapply (ends_bind _ _ _ 0 0); [apply delim_eats; lia|intros c q4 L4; apply ends_ret|lia].
    Qed.
    Lemma ends_variable p : length (snd p) < n -> ends (variable base R p) (length (snd p)) 1.
    Proof.
      intros L. unfold variable. eapply (ends_bind _ _ _ 0 1); [eapply ends_opt; apply ends_kwl|intros u q1 L1|lia].
      eapply (ends_bind _ _ _ 1 0); [apply HS; lia|intros t q2 L2|lia].
      eapply (ends_bind _ _ _ 0 0); [eapply ends_opt; apply ends_decls; lia|intros l q3 L3|lia].
      eapply (ends_bind _ _ _ 0 0); [eapply ends_opt; apply ends_init|intros i q4 L4|lia].
      eapply (ends_bind _ _ _ 0 0); [apply delim_eats; lia|intros c q5 L5; apply ends_ret|lia].
    Qed.
    Lemma ends_member p : length (snd p) < n -> ends (member_rule base R p) (length (snd p)) 1.
    Proof.
      intros L. unfold member_rule. apply ends_alt; [apply ends_variable; exact L|apply ends_alt].
      - unfold bit_field. eapply (ends_bind _ _ _ 1 0); [apply HS; exact L|intros t q2 L2|lia].
        eapply (ends_bind _ _ _ 0 0); [eapply ends_opt; apply ends_decls; lia|intros l q3 L3|lia].
        eapply (ends_bind _ _ _ 0 0); [apply delim_eats; lia|intros c q4 L4|lia].
        eapply (ends_bind _ _ _ 0 0); [apply ends_integer|intros b q5 L5|lia].
        eapply (ends_bind _ _ _ 0 0); [apply delim_eats; lia|intros c' q6 L6; apply ends_ret|lia].
      - unfold method. apply ends_alt.
        + eapply (ends_bind _ _ _ 1 0); [apply HS; exact L|intros t q2 L2|lia].
          eapply (ends_bind _ _ _ 0 0); [apply HD; lia|intros d q3 L3|lia].
          eapply (ends_bind _ _ _ 0 0); [eapply ends_weaken; [apply ends_nested|lia]|intros b q4 L4; apply ends_ret|lia].
        + eapply (ends_bind _ _ _ 0 1); [apply HD; exact L|intros d q3 L3|lia].
          eapply (ends_bind _ _ _ 1 0); [apply ends_nested|intros b q4 L4; apply ends_ret|lia].
    Qed.
    Lemma ends_struct p : length (snd p) < S n -> ends (struct_type base pk R p) (length (snd p)) 1.
    Proof.
      intros L. unfold struct_type. eapply (ends_bind _ _ _ 1 0); [apply ends_alt; apply ends_keyword; discriminate|intros k q1 L1|lia].
      cbv zeta. apply ends_alt.
      - eapply (ends_bind _ _ _ 0 0); [eapply ends_opt; apply ends_ident|intros m q2 L2|lia].
        eapply (ends_bind _ _ _ 0 0); [apply delim_eats; lia|intros c q3 L3|lia].
        eapply (ends_bind _ _ _ 0 0); [eapply ends_weaken; [apply (ends_many1 _ n); [apply ends_member|lia]|lia]|intros l q4 L4|lia].
        eapply (ends_bind _ _ _ 0 0); [apply delim_eats; lia|intros c' q5 L5; apply ends_ret|lia].
      - eapply (ends_bind _ _ _ 0 0); [eapply ends_weaken; [apply ends_ident|lia]|intros m q2 L2; apply ends_ret|lia].
    Qed.
    Lemma ends_spec p : length (snd p) < S n -> ends (spec_body base mods pk R p) (length (snd p)) 1.
    Proof.
      intros L. unfold spec_body. eapply (ends_bind _ _ _ 0 1); [apply ends_quals|intros qs q1 L1|lia].
      eapply (ends_bind _ _ _ 1 0); [|intros m q2 L2|lia].
      { apply ends_alt; [apply ends_fund|apply ends_alt; [apply ends_named|apply ends_alt; [apply ends_struct; lia|apply ends_enum]]]. }
      eapply (ends_bind _ _ _ 0 0); [apply ends_extra|intros u q3 L3; apply ends_ret|lia].
    Qed.
  End Bodies.
  Lemma ends_rules n : forall q, length (snd q) < n ->
    ends (r_spec (rules_n base mods pk n) q) (length (snd q)) 1
    /\ ends (r_decl (rules_n base mods pk n) q) (length (snd q)) 0
    /\ ends (r_abstract (rules_n base mods pk n) q) (length (snd q)) 0.
  Proof.
    induction n as [|n IH]; intros q L; [lia|]. cbn [rules_n r_spec r_decl r_abstract].
    split; [apply (ends_spec _ n)|split; [apply (ends_decl _ n)|apply (ends_abstract _ n)]]; try exact L; intros p Lp; apply (IH p Lp).
  Qed.
  Lemma ends_top p : ends (top_at base mods pk p) (length (snd p)) 1.
  Proof.
    unfold top_at. set (n := S (length (snd p))). assert (L : length (snd p) < n) by (unfold n; lia).
    assert (HR := ends_rules n). generalize dependent (rules_n base mods pk n). intros R HR.
    assert (HS : forall q, length (snd q) < n -> ends (r_spec R q) (length (snd q)) 1) by (intros q Lq; apply (HR q Lq)).
    assert (HD : forall q, length (snd q) < n -> ends (r_decl R q) (length (snd q)) 0) by (intros q Lq; apply (HR q Lq)).
    unfold top. apply ends_alt; [|apply ends_alt].
    - eapply (ends_bind _ _ _ 1 0); [apply ends_keyword; discriminate|intros u q1 L1|lia].
      eapply (ends_bind _ _ _ 0 0); [eapply ends_weaken; [apply HS; lia|lia]|intros t q2 L2|lia].
      eapply (ends_bind _ _ _ 0 0); [apply (ends_decls R n HD); lia|intros l q3 L3|lia].
      eapply (ends_bind _ _ _ 0 0); [apply delim_eats; lia|intros c q4 L4; apply ends_ret|lia].
    - eapply (ends_bind _ _ _ 1 0); [apply (ends_variable R n HS HD p L)|intros v q1 L1|lia]. destruct v; [apply ends_ret|exact Logic.I].
    - eapply (ends_bind _ _ _ 0 1); [eapply ends_opt; apply ends_kwl|intros u q1 L1|lia].
      eapply (ends_bind _ _ _ 1 0); [apply HS; lia|intros t q2 L2|lia].
      eapply (ends_bind _ _ _ 0 0); [apply HD; lia|intros d q3 L3|lia].
      eapply (ends_bind _ _ _ 0 0); [eapply ends_weaken; [apply ends_nested|lia]|intros b q4 L4; apply ends_ret|lia].
  Qed.
  Lemma scan_total f : forall p, length (snd p) < f -> scan_n base mods pk f p <> None.
  Proof.
    induction f as [|f IH]; intros p L; [lia|]. cbn [scan_n]. pose proof (skip_short p) as SK. pose proof (ends_top (skip p)) as T.
    destruct (top_at base mods pk (skip p)) as [g q| |]; cbn [ends] in T; [| |contradiction].
    - specialize (IH q ltac:(lia)). destruct (scan_n base mods pk f q); congruence.
    - destruct (snd (skip p)) as [|c r]; [discriminate|]. apply IH. cbn [snd length] in *. lia.
  Qed.
  Lemma scan_text_total s : scan_text base mods pk s <> None.
  Proof. apply scan_total. cbn. lia. Qed.
End Rules.
Theorem parse_defs_total base mods l text : ~ In [] base -> ~ In [] mods -> parse_defs base mods l text <> None.
Proof. intros NB NM. unfold parse_defs. apply scan_text_total; assumption. Qed.
