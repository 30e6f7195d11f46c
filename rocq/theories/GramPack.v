(** Where the grammar looks up the packing of a structure: at the keywords of the text it
    reads. *)
From Coq Require Import Ascii String Bool Arith ZArith Lia List.
Import ListNotations.
From Verif Require Import PyBase PyBaseFacts PyStr PyStrFacts MacroModel MacroDefProofs PpModel DeclModel EvalModel
  GramModel GramLex GramTotal.

(** ** Matches end inside the text *)
Definition ends_text (s r : str) : Prop := exists a, s = a ++ r.
Lemma et_refl s : ends_text s s.
Proof. exists []. reflexivity. Qed.
Lemma et_trans a b c : ends_text a b -> ends_text b c -> ends_text a c.
Proof. intros [x ->] [y ->]. exists (x ++ y). rewrite app_assoc. reflexivity. Qed.
Lemma et_cons c s r : ends_text s r -> ends_text (c :: s) r.
Proof. intros [x ->]. exists (c :: x). reflexivity. Qed.
Lemma et_len s r : ends_text s r -> length r <= length s.
Proof. intros [x ->]. rewrite app_length. lia. Qed.
Lemma et_skip p : ends_text (snd p) (snd (skip p)).
Proof. rewrite skip_snd. destruct (drop_while_suffix is_ppws (snd p)) as (a & E & _). exists a. exact E. Qed.
Lemma et_span f s : ends_text s (snd (span f s)).
Proof. pose proof (span_app f s) as H. destruct (span f s) as [a b]. exists a. exact H. Qed.

Definition inside {A} (r : pres A) (s : str) : Prop := match r with POk _ q => ends_text s (snd q) | _ => True end.
Lemma in_weaken {A} (r : pres A) s s' : ends_text s s' -> inside r s' -> inside r s.
Proof. destruct r; cbn; auto. intros H1 H2. exact (et_trans _ _ _ H1 H2). Qed.
Lemma in_bind {A B} (e : pres A) (K : A -> pos -> pres B) s : inside e s ->
  (forall a q, inside (K a q) (snd q)) -> inside (pbind e K) s.
Proof. destruct e as [a q| |]; cbn; auto. intros H HK. apply (in_weaken _ _ _ H). apply HK. Qed.
Lemma in_ret {A} (a : A) q : inside (POk a q) (snd q).
Proof. apply et_refl. Qed.
Lemma in_alt {A} (e k : pres A) s : inside e s -> inside k s ->
  inside (match e with POk a p => POk a p | PNo => k | POut => POut end) s.
Proof. destruct e; cbn; auto. Qed.
Lemma in_opt {A} (e : pos -> pres A) p : inside (e p) (snd p) -> inside (popt e p) (snd p).
Proof. unfold popt. destruct (e p); cbn; auto. intros _. apply et_refl. Qed.
Lemma in_many {A} (e : pos -> pres A) p : (forall q, inside (e q) (snd q)) -> inside (many e p) (snd p).
Proof.
  intros H. unfold many. generalize (S (length (snd p))) as f. intros f. revert p. induction f as [|f IH]; intros p; [exact Logic.I|].
  cbn [many_n]. specialize (H p). destruct (e p) as [a q| |]; cbn [inside] in H; [|apply et_refl|exact Logic.I].
  apply (in_weaken _ _ _ H). specialize (IH q). destruct (many_n f e q); exact IH.
Qed.
Lemma in_many1 {A} (e : pos -> pres A) p : (forall q, inside (e q) (snd q)) -> inside (many1 e p) (snd p).
Proof. intros H. unfold many1. apply in_bind; [apply H|]. intros a q. apply in_bind; [apply in_many; exact H|]. intros l q'. apply in_ret. Qed.
Lemma in_lit x p : inside (lit x p) (snd p).
Proof.
  unfold lit. apply (in_weaken _ _ _ (et_skip p)). destruct (strip_prefix x (snd (skip p))) as [r|] eqn:E; [|exact Logic.I].
  apply strip_prefix_iff in E. exists x. exact E.
Qed.
Lemma in_delim x p : inside (delim x p) (snd p).
Proof.
  unfold delim. set (q := upto p _). apply (in_weaken _ _ (snd q)); [|apply in_lit].
  destruct (skip_ignorables_suffix (length (snd p)) (snd p)) as (a & E). exists a. exact E.
Qed.
Lemma in_delimited {A} (e : pos -> pres A) p : (forall q, inside (e q) (snd q)) -> inside (delimited e p) (snd p).
Proof.
  intros H. unfold delimited. apply in_bind; [apply H|]. intros a q.
  apply in_bind; [apply in_many; intros q1; apply in_bind; [apply in_lit|intros u q2; apply H]|]. intros l q'. apply in_ret.
Qed.
Lemma in_kwl l p : inside (kwl l p) (snd p).
Proof.
  unfold kwl. apply (in_weaken _ _ _ (et_skip p)). pose proof (et_span is_word (snd (skip p))) as E.
  destruct (span is_word (snd (skip p))) as [w r]. destruct (_ && _); [exact E|exact Logic.I].
Qed.
Lemma in_keyword w p : inside (keyword w p) (snd p).
Proof.
  unfold keyword. apply (in_weaken _ _ _ (et_skip p)). pose proof (et_span is_kwchar (snd (skip p))) as E.
  destruct (span is_kwchar (snd (skip p))) as [v r]. destruct (_ && _); [exact E|exact Logic.I].
Qed.
Lemma et_skipn n (s : str) : ends_text s (skipn n s).
Proof. exists (firstn n s). symmetry. apply firstn_skipn. Qed.
Lemma in_one_of two one p : inside (one_of two one p) (snd p).
Proof.
  unfold one_of. apply (in_weaken _ _ _ (et_skip p)). destruct (find _ _) as [x|]; [|exact Logic.I]. apply et_skipn.
Qed.
Lemma qs_body_end f : forall q s a b, qs_body f q s = Some (a, b) -> ends_text s b.
Proof.
  induction f as [|f IH]; intros q s a b E; [discriminate|]. cbn [qs_body] in E.
  destruct s as [|c r]; [discriminate|]. destruct (cheq c q).
  - destruct r as [|d r']; [injection E as <- <-; exists [c]; reflexivity|]. destruct (cheq d q); [|injection E as <- <-; exists [c]; reflexivity].
    destruct (qs_body f q r') as [[x y]|] eqn:R; [|discriminate]. injection E as <- <-. do 2 apply et_cons. apply (IH _ _ _ _ R).
  - destruct (cheq c bslash).
    + destruct r as [|d r']; [discriminate|]. destruct (cheq d "x").
      * pose proof (et_span MacroModel.is_hex r') as SP. destruct (span MacroModel.is_hex r') as [h r'']. destruct h as [|h0 h]; [discriminate|].
        destruct (qs_body f q r'') as [[x y]|] eqn:R; [|discriminate]. injection E as <- <-. do 2 apply et_cons. exact (et_trans _ _ _ SP (IH _ _ _ _ R)).
      * destruct (qs_body f q r') as [[x y]|] eqn:R; [|discriminate]. injection E as <- <-. do 2 apply et_cons. apply (IH _ _ _ _ R).
    + destruct (cheq c nl || cheq c cr); [discriminate|].
      destruct (qs_body f q r) as [[x y]|] eqn:R; [|discriminate]. injection E as <- <-. apply et_cons. apply (IH _ _ _ _ R).
Qed.
Lemma quoted_end s a b : quoted_string s = Some (a, b) -> ends_text s b.
Proof.
  unfold quoted_string. destruct s as [|c r]; [discriminate|]. destruct (_ || _); [|discriminate].
  destruct (qs_body _ c r) as [[x y]|] eqn:R; [|discriminate]. intros E. injection E as <- <-. apply et_cons. apply (qs_body_end _ _ _ _ _ R).
Qed.
Lemma nested_end o c f : forall d s r, nested_body f o c d s = Some r -> ends_text s r.
Proof.
  induction f as [|f IH]; intros d s r E; [discriminate|]. cbn [nested_body] in E.
  destruct (quoted_string s) as [[a b]|] eqn:Q.
  - apply quoted_end in Q. exact (et_trans _ _ _ Q (IH _ _ _ E)).
  - destruct s as [|x y]; [discriminate|]. destruct (cheq x o); [apply et_cons; apply (IH _ _ _ E)|].
    destruct (cheq x c); [|apply et_cons; apply (IH _ _ _ E)]. destruct d as [|d]; [injection E as <-; exists [x]; reflexivity|apply et_cons; apply (IH _ _ _ E)].
Qed.
Lemma in_nested o c p : inside (nested o c p) (snd p).
Proof.
  unfold nested. apply (in_weaken _ _ _ (et_skip p)). destruct (snd (skip p)) as [|d r]; [exact Logic.I|]. destruct (cheq d o); [|exact Logic.I].
  destruct (nested_body _ o c 0 r) as [r'|] eqn:E; [|exact Logic.I]. apply et_cons. apply (nested_end _ _ _ _ _ _ E).
Qed.
Lemma digits1_end s a b : digits1 s = Some (a, b) -> ends_text s b.
Proof.
  unfold digits1. pose proof (et_span is_digit s) as L. destruct (span is_digit s) as [d r]. destruct d as [|c d]; [discriminate|].
  intros E. injection E as <- <-. exact L.
Qed.
Lemma hexint_end s a b : hexint s = Some (a, b) -> ends_text s b.
Proof.
  unfold hexint. destruct s as [|z [|x r]]; try discriminate. destruct (_ && _); [|discriminate].
  pose proof (et_span is_hex r) as L. destruct (span is_hex r) as [h r']. destruct h as [|h0 h]; [discriminate|].
  intros E. injection E as <- <-. do 2 apply et_cons. apply (et_trans _ _ _ L). apply et_span.
Qed.
Lemma decint_end s a b : decint s = Some (a, b) -> ends_text s b.
Proof.
  unfold decint. destruct (digits1 s) as [[d r]|] eqn:E; [|discriminate]. apply digits1_end in E.
  intros H. injection H as <- <-. apply (et_trans _ _ _ E). apply et_span.
Qed.
Lemma exponent_end s a b : exponent s = Some (a, b) -> ends_text s b.
Proof.
  unfold exponent. destruct s as [|e r]; [discriminate|]. destruct (is_exp e); [|discriminate]. destruct r as [|g r']; [discriminate|].
  destruct (is_sign g).
  - destruct (digits1 r') as [[d x]|] eqn:E; [|discriminate]. apply digits1_end in E. intros H. injection H as <- <-. do 2 apply et_cons. exact E.
  - destruct (digits1 (g :: r')) as [[d x]|] eqn:E; [|discriminate]. apply digits1_end in E. intros H. injection H as <- <-. apply et_cons. exact E.
Qed.
Lemma floating_end s a b : floating s = Some (a, b) -> ends_text s b.
Proof.
  unfold floating. assert (M : forall m p r, mantissa s = Some (m, p, r) -> ends_text s r).
  { intros m p r. unfold mantissa. destruct s as [|c t]; [discriminate|]. destruct (is_digit c).
    - destruct t as [|x t]; [intros E; injection E as <- <- <-; exists [c]; reflexivity|]. destruct (cheq x ".").
      + pose proof (et_span is_digit t) as L. destruct (span is_digit t) as [d y]. intros E. injection E as <- <- <-. do 2 apply et_cons. exact L.
      + intros E. injection E as <- <- <-. exists [c]. reflexivity.
    - destruct (cheq c "."); [|discriminate]. destruct (digits1 t) as [[d x]|] eqn:E; [|discriminate]. apply digits1_end in E.
      intros H. injection H as <- <- <-. apply et_cons. exact E. }
  destruct (mantissa s) as [[[m p] r]|]; [|discriminate]. specialize (M _ _ _ eq_refl).
  destruct (exponent r) as [[e x]|] eqn:E.
  - apply exponent_end in E. intros H. injection H as <- <-. exact (et_trans _ _ _ M E).
  - destruct p; [|discriminate]. intros H. injection H as <- <-. exact M.
Qed.
Lemma in_number p : inside (number p) (snd p).
Proof.
  unfold number. apply (in_weaken _ _ _ (et_skip p)). generalize (skip p). intros q. destruct (number_at (snd q)) as [[t r]|] eqn:E; [|exact Logic.I].
  cbn [inside upto snd]. unfold number_at in E.
  assert (H : exists g s1, match snd q with c :: r => if is_sign c then ([c], r) else ([], snd q) | [] => ([], snd q) end = (g, s1) /\ ends_text (snd q) s1).
  { destruct (snd q) as [|c x]; [do 2 eexists; split; [reflexivity|apply et_refl]|]. destruct (is_sign c); do 2 eexists; (split; [reflexivity|first [apply et_refl|exists [c]; reflexivity]]). }
  destruct H as (g & s1 & E1 & L1). rewrite E1 in E. pose proof (et_span is_space s1) as L2. destruct (span is_space s1) as [b s2]. cbn [snd] in L2.
  assert (L3 : forall n x, match floating s2 with Some p => Some p | None => match hexint s2 with Some p => Some p | None => decint s2 end end = Some (n, x) -> ends_text s2 x).
  { intros n x. destruct (floating s2) as [[n' x']|] eqn:F; [intros H; injection H as <- <-; apply (floating_end _ _ _ F)|].
    destruct (hexint s2) as [[n' x']|] eqn:F2; [intros H; injection H as <- <-; apply (hexint_end _ _ _ F2)|apply decint_end]. }
  destruct (match floating s2 with Some p => Some p | None => match hexint s2 with Some p => Some p | None => decint s2 end end) as [[n x]|]; [|discriminate].
  injection E as <- <-. exact (et_trans _ _ _ L1 (et_trans _ _ _ L2 (L3 _ _ eq_refl))).
Qed.
Lemma in_quoted p : inside (quoted p) (snd p).
Proof.
  unfold quoted. apply (in_weaken _ _ _ (et_skip p)). destruct (quoted_string _) as [[t r]|] eqn:E; [|exact Logic.I]. apply (quoted_end _ _ _ E).
Qed.
Lemma in_integer p : inside (integer p) (snd p).
Proof.
  unfold integer. apply (in_weaken _ _ _ (et_skip p)). generalize (skip p). intros q.
  assert (H : exists g s1, match snd q with c :: r => if is_sign c then ([c], r) else ([], snd q) | [] => ([], []) end = (g, s1) /\ ends_text (snd q) s1).
  { destruct (snd q) as [|c x]; [do 2 eexists; split; [reflexivity|apply et_refl]|]. destruct (is_sign c); do 2 eexists; (split; [reflexivity|first [apply et_refl|exists [c]; reflexivity]]). }
  destruct H as (g & s1 & -> & L1). pose proof (et_span is_space s1) as L2. destruct (span is_space s1) as [b s2]. cbn [snd] in L2.
  assert (L3 : forall n x, match hexint s2 with Some p => Some p | None => decint s2 end = Some (n, x) -> ends_text s2 x).
  { intros n x. destruct (hexint s2) as [[n' x']|] eqn:F2; [intros H; injection H as <- <-; apply (hexint_end _ _ _ F2)|apply decint_end]. }
  destruct (match hexint s2 with Some p => Some p | None => decint s2 end) as [[n x]|]; [|exact Logic.I].
  exact (et_trans _ _ _ L1 (et_trans _ _ _ L2 (L3 _ _ eq_refl))).
Qed.

Ltac inside_step :=
  first [apply in_bind; [|let a := fresh "a" in let q := fresh "q" in intros a q]
        |apply in_ret|apply in_alt|apply in_opt|apply in_many; intros ?q|apply in_many1; intros ?q
        |apply in_delimited; intros ?q|apply in_lit|apply in_delim|apply in_kwl|apply in_keyword|apply in_nested
        |apply in_number|apply in_quoted|apply in_integer|apply in_one_of].

Section Rules.
  Context (base mods : list str).
  Lemma in_ident p : inside (ident base p) (snd p).
  Proof.
    unfold ident. apply (in_weaken _ _ _ (et_skip p)). destruct (snd (skip p)) as [|c r]; [exact Logic.I|]. destruct (_ && _); [|exact Logic.I].
    destruct (kwl (keywords base) (skip p)); [exact Logic.I| |exact Logic.I].
    destruct (is_idstart c); [|exact Logic.I]. pose proof (et_span is_kwchar r) as L. destruct (span is_kwchar r) as [w r'].
    apply et_cons. exact L.
  Qed.
  Lemma in_under2 p : inside (under2 base p) (snd p).
  Proof.
    unfold under2. apply (in_weaken _ _ _ (et_skip p)). destruct (snd (skip p)) as [|c r]; [exact Logic.I|]. destruct (_ && _); [|exact Logic.I].
    destruct (kwl (keywords base) (skip p)); [exact Logic.I| |exact Logic.I].
    destruct (strip_prefix $"__" (c :: r)) as [r1|] eqn:E; [|exact Logic.I]. apply strip_prefix_iff in E.
    destruct (drop_while_suffix is_ppws r1) as (a & E1 & _). destruct (drop_while is_ppws r1) as [|d r']; [exact Logic.I|].
    destruct (is_alnum d); [|exact Logic.I]. cbn [inside upto snd]. rewrite E, E1.
    apply (et_trans _ (d :: r')); [exists ($"__" ++ a); rewrite app_assoc; reflexivity|]. apply et_cons. apply et_span.
  Qed.
  Lemma in_quals p : inside (quals base p) (snd p).
  Proof. unfold quals, qualifier. repeat first [apply in_under2|inside_step]. Qed.
  Lemma in_extra p : inside (extra mods p) (snd p).
  Proof. unfold extra. repeat inside_step. Qed.
  Lemma in_expr f : forall p, inside (expr base f p) (snd p).
  Proof.
    induction f as [|f IH]; intros p; [exact Logic.I|]. cbn [expr]. unfold expr_body, atom, cast_atom, uncast_atom, uni_left_operator, uni_right_operator, bi_operator, cast, primary, parens, one, indexed, call, index.
    repeat first [apply IH|apply in_ident|inside_step].
  Qed.
  Lemma in_expression p : inside (expression base p) (snd p).
  Proof. apply in_expr. Qed.
  Lemma in_default p : inside (default base p) (snd p).
  Proof. unfold default. repeat first [apply in_expression|inside_step]. Qed.
  Lemma in_array p : inside (array base p) (snd p).
  Proof. unfold array. repeat first [apply in_expression|inside_step]. Qed.
  Lemma in_enum p : inside (enum_type base p) (snd p).
  Proof. unfold enum_type, enumerator. repeat first [apply in_default|apply in_ident|inside_step]. Qed.
  Lemma in_fund p : inside (fund_type base p) (snd p).
  Proof. unfold fund_type. repeat inside_step. Qed.
  Lemma in_named p : inside (named_type base p) (snd p).
  Proof. unfold named_type. repeat first [apply in_ident|inside_step]. Qed.
  Lemma in_star p : inside (star base p) (snd p).
  Proof. unfold star. repeat first [apply in_quals|inside_step]. Qed.
  Lemma in_init p : inside (initialiser base p) (snd p).
  Proof. unfold initialiser. repeat first [apply in_expression|inside_step]. Qed.
  Lemma in_call_conv p : inside (call_conv p) (snd p).
  Proof. unfold call_conv. repeat inside_step. Qed.
End Rules.

(** ** Two ways to look up the packing *)
Definition keyed (r : str) : Prop := starts_with $"struct" r = true \/ starts_with $"union" r = true.
Section Two.
  Context (pk1 pk2 : str -> option Z).
  (** The two agree on the keywords between [s] and the position [q]. *)
  Definition agree (s : str) (q : pos) : Prop :=
    forall r, ends_text s r -> length (snd q) < length r -> keyed r -> pk1 r = pk2 r.
  Definition same {A} (H : Prop) (s : str) (m m' : pres A) : Prop :=
    match m, m' with
    | POk a q, POk a' q' => q = q' /\ ends_text s (snd q) /\ (H -> agree s q -> a = a')
    | PNo, PNo | POut, POut => True
    | _, _ => False
    end.
  Lemma same_refl {A} H s (m : pres A) : inside m s -> same H s m m.
  Proof. destruct m; cbn; auto. Qed.
  Lemma same_true {A} H s (m m' : pres A) : same True s m m' -> same H s m m'.
  Proof. destruct m, m'; cbn; auto. intros (E & I1 & K). auto. Qed.
  Lemma same_bind {A B} (H : Prop) s (m m' : pres A) (K K' : A -> pos -> pres B) : same H s m m' ->
    (forall a a' q, m = POk a q -> (H /\ agree s q -> a = a') -> same (H /\ agree s q) (snd q) (K a q) (K' a' q)) ->
    same H s (pbind m K) (pbind m' K').
  Proof.
    destruct m as [a q| |], m' as [a' q'| |]; cbn [pbind]; try contradiction; try (intros; exact Logic.I).
    intros (<- & I1 & E) HK. specialize (HK a a' q eq_refl). cbn [same] in HK.
    destruct (K a q) as [b q2| |], (K' a' q) as [b' q2'| |]; cbn [same] in *; try (apply HK; tauto).
    destruct HK as (<- & I2 & E2); [tauto|]. split; [reflexivity|]. split; [exact (et_trans _ _ _ I1 I2)|]. intros h AG.
    apply E2.
    - split; [exact h|]. intros r R L KR. apply AG; [exact R|pose proof (et_len _ _ I2); lia|exact KR].
    - intros r R L KR. apply AG; [exact (et_trans _ _ _ I1 R)|exact L|exact KR].
  Qed.
  Lemma same_ret {A} (H : Prop) (a a' : A) q : (H -> a = a') -> same H (snd q) (POk a q) (POk a' q).
  Proof. intros E. cbn. split; [reflexivity|]. split; [apply et_refl|auto]. Qed.
  Lemma same_alt {A} H s (e k e' k' : pres A) : same H s e e' -> same H s k k' ->
    same H s (match e with POk a p => POk a p | PNo => k | POut => POut end) (match e' with POk a p => POk a p | PNo => k' | POut => POut end).
  Proof. destruct e, e'; cbn; auto; contradiction. Qed.
  Lemma same_opt {A} H (e e' : pos -> pres A) p : same H (snd p) (e p) (e' p) -> same H (snd p) (popt e p) (popt e' p).
  Proof.
    unfold popt. destruct (e p), (e' p); cbn; auto; try contradiction.
    - intros (E & I1 & K). split; [exact E|]. split; [exact I1|]. intros h AG. rewrite (K h AG). reflexivity.
    - intros _. split; [reflexivity|]. split; [apply et_refl|reflexivity].
  Qed.
  Ltac eqs := match goal with |- _ -> _ = _ => let h := fresh in intros h; repeat match goal with
      | E : (?X -> ?a = ?b) |- _ => let E1 := fresh in assert (E1 : a = b) by (apply E; tauto); clear E; first [subst a|subst b|rewrite E1 in *; clear E1] end; reflexivity end.
  Lemma same_many {A} H (e e' : pos -> pres A) p : (forall q, same True (snd q) (e q) (e' q)) ->
    same H (snd p) (many e p) (many e' p).
  Proof.
    intros HE. unfold many. generalize (S (length (snd p))) as f. intros f. revert H p. induction f as [|f IH]; intros H p; [exact Logic.I|].
    cbn [many_n]. pose proof (same_true H _ _ _ (HE p)) as S1.
    assert (S2 : same H (snd p) (pbind (e p) (fun a q => get (l, q') <- many_n f e q; POk (a :: l) q'))
                                (pbind (e' p) (fun a q => get (l, q') <- many_n f e' q; POk (a :: l) q'))).
    { apply same_bind; [exact S1|]. intros a a' q _ E. apply same_bind; [apply IH|]. intros l l' q' _ E'. apply same_ret. eqs. }
    destruct (e p) as [a q| |], (e' p) as [a' q'| |]; try contradiction; cbn [pbind] in S2.
    - exact S2.
    - cbn. split; [reflexivity|]. split; [apply et_refl|reflexivity].
    - exact Logic.I.
  Qed.
  Lemma same_many1 {A} H (e e' : pos -> pres A) p : (forall q, same True (snd q) (e q) (e' q)) ->
    same H (snd p) (many1 e p) (many1 e' p).
  Proof.
    intros HE. unfold many1. apply same_bind; [apply same_true; apply HE|]. intros a a' q _ E.
    apply same_bind; [apply same_many; exact HE|]. intros l l' q' _ E'. apply same_ret. eqs.
  Qed.
  Lemma same_delimited {A} H (e e' : pos -> pres A) p : (forall q, same True (snd q) (e q) (e' q)) ->
    same H (snd p) (delimited e p) (delimited e' p).
  Proof.
    intros HE. unfold delimited. apply same_bind; [apply same_true; apply HE|]. intros a a' q _ E.
    apply same_bind.
    - apply same_many. intros q1. apply same_bind; [apply same_refl; apply in_lit|]. intros u u' q2 _ E'. apply same_true. apply HE.
    - intros l l' q' _ E'. apply same_ret. eqs.
  Qed.

  Context (base mods : list str).
  Ltac lex := apply same_refl; first [apply in_lit|apply in_delim|apply in_kwl|apply in_keyword|apply in_nested|apply in_integer
    |apply in_ident|apply in_quals|apply in_extra|apply in_expression|apply in_default|apply in_enum|apply in_fund|apply in_named
    |apply in_init|apply in_call_conv|apply in_many; intros; first [apply in_star|apply in_array]|apply in_opt; first [apply in_lit|apply in_kwl|apply in_ident|apply in_init]].
  Ltac step := apply same_bind; [first [lex|idtac]|let a := fresh "a" in let a' := fresh "a'" in let q := fresh "q" in let M := fresh "M" in let E := fresh "E" in intros a a' q M E].
  Section Bodies.
    Context (R R' : rules)
      (HS : forall q, same True (snd q) (r_spec R q) (r_spec R' q))
      (HD : forall q, same True (snd q) (r_decl R q) (r_decl R' q))
      (HA : forall q, same True (snd q) (r_abstract R q) (r_abstract R' q)).
    Lemma same_args H d d' p : (forall q, same True (snd q) (d q) (d' q)) -> same H (snd p) (args base R d p) (args base R' d' p).
    Proof.
      intros Hd. unfold args. step. step.
      - apply same_opt. apply same_delimited. intros q1. unfold arg. step; [apply HS|]. step; [apply same_true; apply Hd|]. step. apply same_ret. eqs.
      - step. apply same_ret. eqs.
    Qed.
    Lemma same_abstract p : same True (snd p) (abstract_body base R p) (abstract_body base R' p).
    Proof.
      unfold abstract_body. step. step. step. step; [apply same_opt; apply same_args; exact HA|]. step. apply same_ret. eqs.
    Qed.
    Lemma same_decl p : same True (snd p) (decl_body base R p) (decl_body base R' p).
    Proof.
      unfold decl_body. step. step. step. step.
      - unfold core. apply same_alt.
        + step. step. apply same_ret. eqs.
        + step. step; [apply same_true; apply HD|]. step. apply same_ret. eqs.
      - step; [apply same_opt; apply same_args; intros q3; apply same_alt; [apply HD|apply HA]|]. step. apply same_ret. eqs.
    Qed.
    Lemma same_variable p : same True (snd p) (variable base R p) (variable base R' p).
    Proof.
      unfold variable. step. step; [apply same_true; apply HS|]. step; [apply same_opt; apply same_delimited; exact HD|].
      step. step. apply same_ret. eqs.
    Qed.
    Lemma same_member p : same True (snd p) (member_rule base R p) (member_rule base R' p).
    Proof.
      unfold member_rule. apply same_alt; [apply same_variable|apply same_alt].
      - unfold bit_field. step; [apply HS|]. step; [apply same_opt; apply same_delimited; exact HD|]. step. step. step. apply same_ret. eqs.
      - unfold method. apply same_alt.
        + step; [apply HS|]. step; [apply same_true; apply HD|]. step. apply same_ret. reflexivity.
        + step; [apply HD|]. step. apply same_ret. reflexivity.
    Qed.
    Lemma keyword_keyed w p a q : w <> [] -> (w = $"struct" \/ w = $"union") -> keyword w p = POk a q ->
      keyed (snd (skip p)) /\ length (snd q) < length (snd (skip p)).
    Proof.
      intros NE W E. split.
      - unfold keyword in E. pose proof (span_app is_kwchar (snd (skip p))) as SA. destruct (span is_kwchar (snd (skip p))) as [v r] eqn:SP.
        destruct (negb _); [|discriminate]. cbn [andb] in E. destruct (eqb v w) eqn:EV; [|discriminate]. apply eqb_eq in EV. subst v.
        assert (SW : starts_with w (snd (skip p)) = true) by (apply starts_with_iff; exists r; exact SA).
        destruct W as [->| ->]; [left|right]; exact SW.
      - pose proof (ends_keyword w (skip p) NE) as L. unfold keyword in L. rewrite skip_idem in L. unfold keyword in E. rewrite E in L. cbn [ends] in L. lia.
    Qed.
    Lemma same_struct p : same True (snd p) (struct_type base pk1 R p) (struct_type base pk2 R' p).
    Proof.
      unfold struct_type. apply same_bind; [apply same_alt; lex|]. intros k k' q M E. cbv zeta.
      assert (PK : True /\ agree (snd p) q -> pk1 (snd (skip p)) = pk2 (snd (skip p))).
      { assert (X : keyed (snd (skip p)) /\ length (snd q) < length (snd (skip p))).
        { destruct (keyword $"struct" p) as [u v| |] eqn:K1.
          - injection M as <- <-. apply (keyword_keyed $"struct" p u v); [discriminate|left; reflexivity|exact K1].
          - apply (keyword_keyed $"union" p k q); [discriminate|right; reflexivity|exact M].
          - discriminate M. }
        intros [_ AG]. apply AG; [apply et_skip|apply X|apply X]. }
      apply same_alt.
      - step. step. step; [apply same_many1; apply same_member|]. step. apply same_ret. eqs.
      - step. apply same_ret. eqs.
    Qed.
    Lemma same_spec p : same True (snd p) (spec_body base mods pk1 R p) (spec_body base mods pk2 R' p).
    Proof.
      unfold spec_body. step. step.
      - apply same_alt; [lex|apply same_alt; [lex|apply same_alt; [apply same_true; apply same_struct|lex]]].
      - step. apply same_ret. eqs.
    Qed.
    Lemma variable_line (X : rules) p v q : variable base X p = POk v q -> exists t l i, v = GLine t l i None.
    Proof.
      unfold variable. intros E. destruct (popt (kwl storage_classes) p) as [u q1| |]; try discriminate E. cbn [pbind] in E.
      destruct (r_spec X q1) as [t q2| |]; try discriminate E. cbn [pbind] in E. destruct (popt (delimited (r_decl X)) q2) as [l q3| |]; try discriminate E.
      cbn [pbind] in E. destruct (popt (initialiser base) q3) as [i q4| |]; try discriminate E. cbn [pbind] in E.
      destruct (delim $";" q4) as [c q5| |]; try discriminate E. cbn [pbind] in E. injection E as <- _. eauto.
    Qed.
    Lemma same_top p : same True (snd p) (top base R p) (top base R' p).
    Proof.
      unfold top. apply same_alt; [|apply same_alt].
      - step. step; [apply same_true; apply HS|]. step; [apply same_delimited; exact HD|]. step. apply same_ret. eqs.
      - pose proof (same_variable p) as SV. pose proof (variable_line R p) as L. pose proof (variable_line R' p) as L'.
        destruct (variable base R p) as [v q| |], (variable base R' p) as [v' q'| |]; try contradiction; try exact Logic.I.
        destruct (L _ _ eq_refl) as (t & l & i & ->). destruct (L' _ _ eq_refl) as (t' & l' & i' & ->).
        destruct SV as (<- & I1 & E). cbn [pbind same]. split; [reflexivity|]. split; [exact I1|]. intros h AG. specialize (E h AG). injection E as -> -> ->. reflexivity.
      - step. step; [apply same_true; apply HS|]. step; [apply same_true; apply HD|]. step. apply same_ret. eqs.
    Qed.
  End Bodies.
  Lemma same_rules n : (forall q, same True (snd q) (r_spec (rules_n base mods pk1 n) q) (r_spec (rules_n base mods pk2 n) q))
    /\ (forall q, same True (snd q) (r_decl (rules_n base mods pk1 n) q) (r_decl (rules_n base mods pk2 n) q))
    /\ (forall q, same True (snd q) (r_abstract (rules_n base mods pk1 n) q) (r_abstract (rules_n base mods pk2 n) q)).
  Proof.
    induction n as [|n (IS & ID & IA)]; [split; [|split]; intros q; exact Logic.I|]. cbn [rules_n r_spec r_decl r_abstract].
    split; [apply same_spec|split; [apply same_decl|apply same_abstract]]; assumption.
  Qed.
  Theorem same_top_at p : same True (snd p) (top_at base mods pk1 p) (top_at base mods pk2 p).
  Proof. unfold top_at. destruct (same_rules (S (length (snd p)))) as (A & B & _). apply same_top; assumption. Qed.
  (** A declaration is read in the same way when the two agree on its keywords. *)
  Lemma top_at_agrees p g q : top_at base mods pk2 p = POk g q -> agree (snd p) q -> top_at base mods pk1 p = POk g q /\ ends_text (snd p) (snd q).
  Proof.
    intros E AG. pose proof (same_top_at p) as S1. rewrite E in S1. destruct (top_at base mods pk1 p) as [g' q'| |]; try contradiction.
    destruct S1 as (-> & I1 & K). rewrite (K Logic.I AG). auto.
  Qed.
  Lemma top_at_no p : top_at base mods pk2 p = PNo -> top_at base mods pk1 p = PNo.
  Proof. intros E. pose proof (same_top_at p) as S1. rewrite E in S1. destruct (top_at base mods pk1 p); try contradiction; reflexivity. Qed.
End Two.
