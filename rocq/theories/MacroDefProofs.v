(** Proofs about macro definitions. *)
From Coq Require Import Ascii String Bool Arith ZArith Lia List.
Import ListNotations.
From Verif Require Import PyBase PyBaseFacts PyStr PyStrFacts TypeModel TypeSpec WordFacts.
From Verif Require Import MacroModel MacroSpec MacroProofs.

Lemma free_app cs a b : free_of cs (a ++ b) <-> free_of cs a /\ free_of cs b.
Proof.
  split.
  - intros F. split; intros c I J; apply (F c I); apply in_or_app; auto.
  - intros [A B] c I J. apply in_app_or in J. destruct J as [J|J]; [apply (A c I J)|apply (B c I J)].
Qed.
Lemma free_cons cs x a : free_of cs (x :: a) <-> ~ In x cs /\ free_of cs a.
Proof.
  split.
  - intros F. split.
    + intros I. apply (F x I). left. reflexivity.
    + intros c I J. apply (F c I). right. exact J.
  - intros [A B] c I [->|J]; [exact (A I)|exact (B c I J)].
Qed.
Lemma free_nil cs : free_of cs [].
Proof. intros c _ []. Qed.

Lemma expandtabs_aux_id s : ~ In tab s -> forall k, expandtabs_aux k s = s.
Proof.
  induction s as [|c s IH]; intros N k; [reflexivity|]. cbn [expandtabs_aux].
  assert (N' : ~ In tab s) by (intros I; apply N; right; exact I).
  assert (C : cheq c tab = false) by (apply cheq_false; intros ->; apply N; left; reflexivity).
  rewrite C. destruct (cheq c nl || cheq c cr); rewrite IH by exact N'; reflexivity.
Qed.
Lemma expandtabs_id s : ~ In tab s -> expandtabs s = s.
Proof. intros N. apply expandtabs_aux_id. exact N. Qed.

Lemma idchar_not_ppws c : is_idchar c = true -> is_ppws c = false.
Proof.
  intros W. destruct (is_ppws c) eqn:E; [|reflexivity]. exfalso. unfold is_ppws in E.
  repeat (apply orb_true_iff in E; destruct E as [E|E]); apply cheq_true in E; subst c;
    vm_compute in W; discriminate.
Qed.
Lemma idchar_not_blank c : is_idchar c = true -> is_blank c = false.
Proof.
  intros W. apply idchar_not_ppws in W. unfold is_ppws in W. unfold is_blank.
  destruct (cheq c sp), (cheq c tab); try discriminate; reflexivity.
Qed.
Lemma ppws_space c : is_ppws c = true -> is_space c = true.
Proof.
  intros E. unfold is_ppws in E.
  repeat (apply orb_true_iff in E; destruct E as [E|E]); apply cheq_true in E; subst c; reflexivity.
Qed.

Lemma ident_idchars n : ident n -> n <> [] /\ forallb is_idchar n = true.
Proof.
  destruct n as [|c n]; [intros []|]. intros [A B]. split; [discriminate|]. cbn.
  rewrite (idstart_idchar _ A). cbn. apply forallb_forall. exact B.
Qed.
Lemma ident_word n : ident n -> word n.
Proof.
  intros I. apply ident_idchars in I. destruct I as [NE F]. split; [exact NE|].
  intros c J. apply idchar_word. rewrite forallb_forall in F. apply F. exact J.
Qed.

Lemma pp_name_ident b n r :
  blanks b -> ident n -> head_not is_idchar r = true -> pp_name (b ++ n ++ r) = Some (n, r).
Proof.
  intros B I H. unfold pp_name.
  rewrite drop_while_app_all.
  2:{ apply forallb_forall. intros c J. rewrite (B c J). reflexivity. }
  pose proof (ident_idchars n I) as [_ FI].
  destruct n as [|c n]; [destruct I|]. destruct I as [S1 S2].
  cbn [app drop_while]. rewrite (idchar_not_blank c) by (apply idstart_idchar; exact S1).
  rewrite S1. cbn in FI. apply andb_true_iff in FI. destruct FI as [_ FI].
  rewrite (span_run is_idchar n r FI H). reflexivity.
Qed.

Lemma pp_name_sound s n r :
  ~ In tab s -> pp_name s = Some (n, r) ->
  exists b, s = b ++ n ++ r /\ blanks b /\ ident n /\ head_not is_idchar r = true.
Proof.
  intros NT E. unfold pp_name in E. destruct (drop_while_suffix is_blank s) as (b & S1 & F).
  destruct (drop_while is_blank s) as [|c x] eqn:D; [discriminate|].
  destruct (is_idstart c) eqn:IC; [|discriminate].
  pose proof (span_app is_idchar x) as SA. pose proof (span_all is_idchar x) as SB.
  pose proof (span_head is_idchar x) as SC. destruct (span is_idchar x) as [u v]. cbn [fst snd] in *.
  injection E as <- <-. exists b. split; [rewrite S1, SA; reflexivity|]. split; [|split].
  - intros d J. rewrite forallb_forall in F. specialize (F d J). unfold is_blank in F.
    apply orb_true_iff in F. destruct F as [F|F]; apply cheq_true in F; [exact F|]. subst d.
    exfalso. apply NT. rewrite S1. apply in_or_app. left. exact J.
  - split; [exact IC|]. rewrite forallb_forall in SB. exact SB.
  - destruct v as [|d v]; [reflexivity|]. cbn. rewrite (SC d v eq_refl). reflexivity.
Qed.

Lemma skip_ignorables_id f s : free_of quotes s -> skip_ignorables f s = s.
Proof.
  intros F. destruct f as [|f]; [reflexivity|]. cbn [skip_ignorables].
  destruct (drop_while_suffix is_ppws s) as (a & E & _).
  assert (Q : quoted_string (drop_while is_ppws s) = None).
  { rewrite E in F. apply free_app in F. destruct F as [_ F]. unfold quoted_string.
    destruct (drop_while is_ppws s) as [|c r]; [reflexivity|]. apply free_cons in F. destruct F as [N _].
    destruct (cheq_spec c dquote) as [->|]; [exfalso; apply N; left; reflexivity|].
    destruct (cheq_spec c squote) as [->|]; [exfalso; apply N; right; left; reflexivity|]. reflexivity. }
  rewrite Q. reflexivity.
Qed.

Lemma blanks_ppws b : blanks b -> forallb is_ppws b = true.
Proof. intros B. apply forallb_forall. intros c I. rewrite (B c I). reflexivity. Qed.

Lemma skip_ignorables_here f p b r :
  is_ppws p = false -> ~ In p quotes -> blanks b -> skip_ignorables f (b ++ p :: r) = b ++ p :: r.
Proof.
  intros NP NQ B. destruct f as [|f]; [reflexivity|]. cbn [skip_ignorables].
  rewrite drop_while_app_all by (apply blanks_ppws; exact B). cbn [drop_while]. rewrite NP.
  assert (Q : quoted_string (p :: r) = None).
  { unfold quoted_string.
    destruct (cheq_spec p dquote) as [->|]; [exfalso; apply NQ; left; reflexivity|].
    destruct (cheq_spec p squote) as [->|]; [exfalso; apply NQ; right; left; reflexivity|]. reflexivity. }
  rewrite Q. reflexivity.
Qed.

Lemma paren_here p b r :
  is_ppws p = false -> ~ In p quotes -> blanks b -> paren p (b ++ p :: r) = Some r.
Proof.
  intros NP F B. unfold paren. rewrite skip_ignorables_here by auto.
  rewrite drop_while_app_all by (apply blanks_ppws; exact B). cbn [drop_while]. rewrite NP, cheq_refl. reflexivity.
Qed.
Lemma open_not_quote : ~ In "("%char quotes.
Proof. intros [E|[E|[]]]; discriminate. Qed.
Lemma close_not_quote : ~ In ")"%char quotes.
Proof. intros [E|[E|[]]]; discriminate. Qed.

Lemma paren_sound p s r :
  free_of quotes s -> plain_line s -> paren p s = Some r -> exists b, s = b ++ p :: r /\ blanks b.
Proof.
  intros F PL E. unfold paren in E. rewrite skip_ignorables_id in E by exact F.
  destruct (drop_while_suffix is_ppws s) as (b & S1 & FB).
  destruct (drop_while is_ppws s) as [|c x]; [discriminate|].
  destruct (cheq_spec c p) as [->|]; [|discriminate]. injection E as ->. exists b. split; [exact S1|].
  intros d J. rewrite forallb_forall in FB. specialize (FB d J). unfold is_ppws in FB.
  assert (N : ~ In d [tab; nl; cr]).
  { intros I. apply (PL d I). rewrite S1. apply in_or_app. left. exact J. }
  repeat (apply orb_true_iff in FB; destruct FB as [FB|FB]); apply cheq_true in FB; auto;
    exfalso; apply N; cbn; auto.
Qed.

Lemma skip_ignorables_suffix f s : exists a, s = a ++ skip_ignorables f s.
Proof.
  assert (QB : forall f q s a b, qs_body f q s = Some (a, b) -> s = a ++ b).
  { clear. induction f as [|f IH]; intros q s a b E; [discriminate|]. cbn [qs_body] in E.
    destruct s as [|c r]; [discriminate|].
    destruct (cheq c q).
    - destruct r as [|d r']; [injection E as <- <-; reflexivity|].
      destruct (cheq d q); [|injection E as <- <-; reflexivity].
      destruct (qs_body f q r') as [[x y]|] eqn:R; [|discriminate]. injection E as <- <-.
      apply IH in R. rewrite R. reflexivity.
    - destruct (cheq c bslash).
      + destruct r as [|d r']; [discriminate|]. destruct (cheq d "x").
        * pose proof (span_app is_hex r') as SP. destruct (span is_hex r') as [h r'']. destruct h as [|h0 h]; [discriminate|].
          destruct (qs_body f q r'') as [[x y]|] eqn:R; [|discriminate]. injection E as <- <-.
          apply IH in R. rewrite SP, R. cbn. rewrite <- app_assoc. reflexivity.
        * destruct (qs_body f q r') as [[x y]|] eqn:R; [|discriminate]. injection E as <- <-.
          apply IH in R. rewrite R. reflexivity.
      + destruct (cheq c nl || cheq c cr); [discriminate|].
        destruct (qs_body f q r) as [[x y]|] eqn:R; [|discriminate]. injection E as <- <-.
        apply IH in R. rewrite R. reflexivity. }
  revert s. induction f as [|f IH]; intros s; [exists []; reflexivity|]. cbn [skip_ignorables].
  destruct (quoted_string (drop_while is_ppws s)) as [[q r]|] eqn:Q; [|exists []; reflexivity].
  destruct (IH r) as [a E]. destruct (drop_while_suffix is_ppws s) as (b & S1 & _).
  unfold quoted_string in Q. destruct (drop_while is_ppws s) as [|c x]; [discriminate|].
  destruct (cheq c dquote || cheq c squote); [|discriminate].
  destruct (qs_body _ c x) as [[y z]|] eqn:R; [|discriminate]. injection Q as <- <-.
  apply QB in R. exists (b ++ c :: y ++ a). rewrite S1, R. rewrite E at 1.
  rewrite <- !app_assoc. cbn. rewrite <- app_assoc. reflexivity.
Qed.

Lemma paren_absent p s : ~ In p s -> paren p s = None.
Proof.
  intros N. unfold paren. destruct (skip_ignorables_suffix (length s) s) as [a E].
  destruct (drop_while_suffix is_ppws (skip_ignorables (length s) s)) as (b & E' & _).
  destruct (drop_while is_ppws _) as [|c r]; [reflexivity|]. destruct (cheq_spec c p) as [->|]; [|reflexivity].
  exfalso. apply N. rewrite E, E'. apply in_or_app. right. apply in_or_app. right. left. reflexivity.
Qed.

Lemma blanks_head_not b c r : blanks b -> is_idchar c = false -> head_not is_idchar (b ++ c :: r) = true.
Proof.
  intros B C. destruct b as [|d b]; cbn; [rewrite C; reflexivity|].
  rewrite (B d (or_introl eq_refl)). reflexivity.
Qed.

(** The rest of a name list after its first name. *)
Inductive more : str -> list str -> str -> Prop :=
| more_end b r : blanks b -> more (b ++ ")"%char :: r) [] r
| more_cons b s l r : blanks b -> name_list s l r -> more (b ++ ","%char :: s) l r.

Lemma name_list_more s l r : name_list s l r ->
  exists b n s' l', s = b ++ n ++ s' /\ l = n :: l' /\ blanks b /\ ident n /\ more s' l' r
                    /\ head_not is_idchar s' = true.
Proof.
  intros [b n b' r' B I B'|b n b' s' l' r' B I B' N].
  - exists b, n, (b' ++ ")"%char :: r'), []. split; [reflexivity|]. split; [reflexivity|]. split; [exact B|]. split; [exact I|]. split; [constructor; auto|].
    apply blanks_head_not; auto.
  - exists b, n, (b' ++ ","%char :: s'), l'. split; [reflexivity|]. split; [reflexivity|]. split; [exact B|]. split; [exact I|]. split; [econstructor; eauto|].
    apply blanks_head_not; auto.
Qed.

Lemma drop_blanks b c r : blanks b -> is_ppws c = false -> drop_while is_ppws (b ++ c :: r) = c :: r.
Proof.
  intros B C. rewrite drop_while_app_all by (apply blanks_ppws; exact B). cbn. rewrite C. reflexivity.
Qed.

Lemma pp_names_more : forall f s l r,
  more s l r -> length s <= f ->
  exists e, pp_names f s = (l, e) /\ paren ")" e = Some r.
Proof.
  induction f as [|f IH]; intros s l r M L.
  - destruct M as [b r B|b s l r B N]; rewrite app_length in L; cbn in L; lia.
  - destruct M as [b r B|b s l r B N]; cbn [pp_names]; rewrite drop_blanks by (auto; reflexivity).
    + change (cheq ")" ",") with false. exists (b ++ ")"%char :: r). split; [reflexivity|].
      apply paren_here; auto. exact close_not_quote.
    + rewrite cheq_refl. destruct (name_list_more _ _ _ N) as (b2 & n & s' & l' & -> & -> & B2 & I & M' & H).
      rewrite pp_name_ident by auto.
      destruct (IH s' l' r M') as (e & P & E).
      { rewrite app_length in L. cbn [length] in L. rewrite !app_length in L. lia. }
      rewrite P. exists e. auto.
Qed.

Lemma blanks_blank b : blanks b -> forallb is_blank b = true.
Proof. intros B. apply forallb_forall. intros c I. rewrite (B c I). reflexivity. Qed.
Lemma pp_name_ppws b n r :
  blanks b -> ident n -> head_not is_idchar r = true ->
  pp_name (drop_while is_ppws (b ++ n ++ r)) = Some (n, r).
Proof.
  intros B I H. rewrite drop_while_app_all by (apply blanks_ppws; exact B).
  destruct n as [|c n]; [destruct I|]. cbn [app drop_while].
  assert (W : is_ppws c = false).
  { destruct I as [S _]. apply idstart_idchar in S. destruct (is_ppws c) eqn:E; [|reflexivity].
    unfold is_ppws in E. repeat (apply orb_true_iff in E; destruct E as [E|E]); apply cheq_true in E; subst c; discriminate. }
  rewrite W. exact (pp_name_ident [] (c :: n) r (fun d (J : In d []) => match J with end) I H).
Qed.

Lemma pp_args_complete s l r : begins_with_names s l r -> pp_args s = Some (l, r).
Proof.
  intros (b & s' & -> & B & N). unfold pp_args. rewrite drop_while_app_all by (apply blanks_blank; exact B).
  cbn [drop_while]. change (is_blank "(") with false. cbn [open_at]. rewrite cheq_refl.
  destruct (name_list_more _ _ _ N) as (b2 & n & s2 & l' & -> & -> & B2 & I & M & H).
  rewrite pp_name_ppws by auto.
  destruct (pp_names_more (length s2) s2 l' r M (le_n _)) as (e & P & E). rewrite P, E. reflexivity.
Qed.

Lemma pp_names_sound : forall f s l e r,
  pp_names f s = (l, e) -> paren ")" e = Some r -> free_of quotes s -> plain_line s -> more s l r.
Proof.
  induction f as [|f IH]; intros s l e r P E F PL.
  - injection P as <- <-. destruct (paren_sound _ _ _ F PL E) as (b & -> & B). constructor. exact B.
  - assert (STOP : (l, e) = ([], s) -> more s l r).
    { intros X. injection X as -> ->. destruct (paren_sound _ _ _ F PL E) as (b & -> & B). constructor. exact B. }
    cbn [pp_names] in P. destruct (drop_while_suffix is_ppws s) as (b & S1 & FB).
    destruct (drop_while is_ppws s) as [|c x]; [apply STOP; auto|].
    destruct (cheq_spec c ",") as [->|]; [|apply STOP; auto].
    destruct (pp_name x) as [[n y]|] eqn:PN; [|apply STOP; auto].
    destruct (pp_names f y) as [l' e'] eqn:PR. injection P as <- <-.
    assert (B : blanks b).
    { intros d J. rewrite forallb_forall in FB. specialize (FB d J). unfold is_ppws in FB.
      assert (N : ~ In d [tab; nl; cr]).
      { intros I. apply (PL d I). rewrite S1. apply in_or_app. left. exact J. }
      repeat (apply orb_true_iff in FB; destruct FB as [FB|FB]); apply cheq_true in FB; auto;
        exfalso; apply N; cbn; auto. }
    rewrite S1 in F, PL |- *. constructor; [exact B|].
    apply free_app in F. destruct F as [_ F]. apply free_cons in F. destruct F as [_ F].
    apply free_app in PL. destruct PL as [_ PL]. apply free_cons in PL. destruct PL as [_ PL].
    assert (NT : ~ In tab x) by (intros I; apply (PL tab); [left; reflexivity|exact I]).
    destruct (pp_name_sound x n y NT PN) as (b2 & -> & B2 & I & H).
    apply free_app in F. destruct F as [_ F]. apply free_app in F. destruct F as [_ F].
    apply free_app in PL. destruct PL as [_ PL]. apply free_app in PL. destruct PL as [_ PL].
    specialize (IH y l' e' r PR E F PL). destruct IH as [b3 r' B3|b3 s' l'' r' B3 N].
    + constructor; auto.
    + apply nl_more; auto.
Qed.

Lemma pp_args_sound s l r :
  free_of quotes s -> plain_line s -> pp_args s = Some (l, r) -> begins_with_names s l r.
Proof.
  intros F PL E. unfold pp_args in E. destruct (drop_while_suffix is_blank s) as (b & S1 & FB).
  destruct (drop_while is_blank s) as [|c x]; [discriminate|]. cbn [open_at] in E.
  destruct (cheq_spec c "(") as [->|]; [|discriminate].
  assert (B : blanks b).
  { intros d J. rewrite forallb_forall in FB. specialize (FB d J). unfold is_blank in FB.
    apply orb_true_iff in FB. destruct FB as [FB|FB]; apply cheq_true in FB; [exact FB|]. subst d.
    exfalso. apply (PL tab); [left; reflexivity|]. rewrite S1. apply in_or_app. left. exact J. }
  subst s.
  destruct (pp_name (drop_while is_ppws x)) as [[n y]|] eqn:PN; [|discriminate].
  destruct (pp_names (length y) y) as [l' e] eqn:PR. destruct (paren ")" e) as [z|] eqn:PE; [|discriminate].
  injection E as <- <-. exists b, x. split; [reflexivity|]. split; [exact B|].
  apply free_app in F. destruct F as [_ F]. apply free_cons in F. destruct F as [_ F].
  apply free_app in PL. destruct PL as [_ PL]. apply free_cons in PL. destruct PL as [_ PL].
  assert (PNX : pp_name x = Some (n, y)).
  { rewrite <- PN. unfold pp_name. f_equal. clear -PL. induction x as [|c x IH]; [reflexivity|].
    apply free_cons in PL. destruct PL as [N PL]. specialize (IH PL). cbn [drop_while].
    destruct (is_ppws c) eqn:W.
    - assert (BC : is_blank c = true).
      { unfold is_ppws in W. unfold is_blank. destruct (cheq c sp); [reflexivity|]. destruct (cheq c tab); [reflexivity|].
        exfalso. apply N. cbn [orb] in W. apply orb_true_iff in W. destruct W as [W|W]; apply cheq_true in W; subst; cbn; auto. }
      rewrite BC. exact IH.
    - destruct (is_blank c) eqn:BC; [|cbn [drop_while]; rewrite BC; reflexivity].
      unfold is_blank in BC. unfold is_ppws in W. destruct (cheq c sp); [discriminate|]. destruct (cheq c tab); discriminate. }
  clear PN. rename PNX into PN.
  assert (NT : ~ In tab x) by (intros I; apply (PL tab); [left; reflexivity|exact I]).
  destruct (pp_name_sound x n y NT PN) as (b2 & -> & B2 & I & H).
  apply free_app in F. destruct F as [_ F]. apply free_app in F. destruct F as [_ F].
  apply free_app in PL. destruct PL as [_ PL]. apply free_app in PL. destruct PL as [_ PL].
  destruct (pp_names_sound _ _ _ _ _ PR PE F PL) as [b3 r' B3|b3 s' l'' r' B3 N].
  - constructor; auto.
  - apply nl_more; auto.
Qed.

Lemma lstrip_drop q s : (forall c, q c = true -> is_space c = true) -> lstrip (drop_while q s) = lstrip s.
Proof.
  intros Q. unfold lstrip. induction s as [|c s IH]; [reflexivity|]. cbn [drop_while].
  destruct (q c) eqn:E; [|reflexivity]. rewrite (Q c E). exact IH.
Qed.
Lemma pp_value_strip s : ~ In nl s -> strip (pp_value s) = strip s.
Proof.
  intros N. unfold pp_value.
  assert (A : forall x, ~ In nl x -> span (fun c => negb (cheq c nl)) x = (x, [])).
  { induction x as [|c x IH]; intros NX; [reflexivity|]. cbn [span].
    assert (C : cheq c nl = false) by (apply cheq_false; intros ->; apply NX; left; reflexivity).
    rewrite C. cbn [negb]. rewrite IH; [reflexivity|]. intros I. apply NX. right. exact I. }
  rewrite A; cbn [fst].
  - unfold strip. rewrite lstrip_drop; [reflexivity|exact ppws_space].
  - intros I. apply N. destruct (drop_while_suffix is_ppws s) as (a & E & _). rewrite E.
    apply in_or_app. right. exact I.
Qed.
Lemma strip_blanks b s : forallb is_space b = true -> strip (b ++ s) = strip s.
Proof. intros F. unfold strip, lstrip. rewrite drop_while_app_all by exact F. reflexivity. Qed.

Lemma plain_parts s : plain_line s -> ~ In tab s /\ ~ In nl s.
Proof. intros P. split; apply P; cbn; auto. Qed.

Lemma pp_define_text name rest :
  ident name -> plain_line rest ->
  pp_define (name ++ sp :: rest)
  = match pp_args (sp :: rest) with
    | Some (l, r) => Some (name, Some l, strip (pp_value r))
    | None => Some (name, None, strip rest)
    end.
Proof.
  intros I P. destruct (plain_parts _ P) as [NT NN]. unfold pp_define.
  rewrite expandtabs_id.
  2:{ intros J. apply in_app_or in J. destruct J as [J|[J|J]]; [|discriminate|exact (NT J)].
      destruct (ident_idchars _ I) as [_ F]. rewrite forallb_forall in F. specialize (F _ J). discriminate F. }
  rewrite <- (app_nil_l (name ++ sp :: rest)), (pp_name_ident [] name (sp :: rest)); auto.
  2:{ intros c []. }
  destruct (pp_args (sp :: rest)) as [[l r]|]; [reflexivity|].
  rewrite pp_value_strip; [reflexivity|]. intros [E|J]; [discriminate|exact (NN J)].
Qed.

Lemma pp_args_none rest :
  plain_line rest ->
  (forall b x, blanks b -> rest <> b ++ "("%char :: x) \/ (free_of quotes rest /\ forall l r, ~ begins_with_names rest l r) ->
  pp_args (sp :: rest) = None.
Proof.
  intros P [N|[Q N]].
  - unfold pp_args. cbn [drop_while]. change (is_blank sp) with true.
    destruct (drop_while_suffix is_blank rest) as (b & S1 & FB).
    destruct (drop_while is_blank rest) as [|c x]; [reflexivity|]. cbn [open_at].
    destruct (cheq_spec c "(") as [->|]; [|reflexivity]. exfalso. apply (N b x); [|exact S1].
    intros d J. rewrite forallb_forall in FB. specialize (FB d J). unfold is_blank in FB.
    apply orb_true_iff in FB. destruct FB as [FB|FB]; apply cheq_true in FB; [exact FB|]. subst d.
    exfalso. apply (P tab); [left; reflexivity|]. rewrite S1. apply in_or_app. left. exact J.
  - assert (Q' : free_of quotes (sp :: rest)).
    { apply free_cons. split; [|exact Q]. intros [E|[E|[]]]; discriminate. }
    assert (P' : plain_line (sp :: rest)).
    { apply free_cons. split; [|exact P]. intros [E|[E|[E|[]]]]; discriminate. }
    destruct (pp_args (sp :: rest)) as [[l r]|] eqn:E; [|reflexivity]. exfalso.
    apply pp_args_sound in E; auto. destruct E as (b & s' & E & B & NL).
    destruct b as [|c b]; [discriminate|]. injection E as E1 E2. apply (N l r). exists b, s'. split; [exact E2|].
    split; [|exact NL]. intros d I. apply B. right. exact I.
Qed.

Lemma define_object t name rest :
  ident name -> plain_line rest ->
  (forall b x, blanks b -> rest <> b ++ "("%char :: x) \/ (free_of quotes rest /\ forall l r, ~ begins_with_names rest l r) ->
  dget (fnmacros t) (strip rest) = None ->
  define t name rest = {| macros := dset (macros t) name (strip rest); fnmacros := fnmacros t |}.
Proof.
  intros I P A N. unfold define. rewrite pp_define_text by auto. rewrite pp_args_none by auto.
  unfold process_macro_defn. rewrite N. reflexivity.
Qed.

Lemma define_function t name rest l body :
  ident name -> plain_line rest -> begins_with_names rest l body ->
  dget (fnmacros t) (strip body) = None ->
  define t name rest
  = {| macros := macros t; fnmacros := dset (fnmacros t) name (compile_fn_macro (strip body) l) |}.
Proof.
  intros I P B N. unfold define. rewrite pp_define_text by auto.
  assert (B' : begins_with_names (sp :: rest) l body).
  { destruct B as (b & s' & -> & BB & NL). exists (sp :: b), s'. split; [reflexivity|]. split; [|exact NL].
    intros c [<-|J]; [reflexivity|apply BB; exact J]. }
  rewrite (pp_args_complete (sp :: rest) l body B').
  rewrite pp_value_strip.
  - unfold process_macro_defn. rewrite N. reflexivity.
  - destruct (plain_parts _ P) as [_ NN]. intros J. apply NN. clear - B J.
    destruct B as (b & s' & -> & _ & NL). apply in_or_app. right. right.
    induction NL as [b1 n b2 r B1 I1 B2|b1 n b2 s l r B1 I1 B2 NL IH].
    + apply in_or_app. right. apply in_or_app. right. apply in_or_app. right. right. exact J.
    + apply in_or_app. right. apply in_or_app. right. apply in_or_app. right. right. apply IH. exact J.
Qed.

(** ** Sequences of definitions *)
Definition trimmed (s : str) : Prop :=
  s <> [] /\ head_not is_space s = true /\ head_not is_space (rev s) = true.

Lemma strip_parts s : exists a b,
  s = a ++ strip s ++ b /\ forallb is_space a = true /\ forallb is_space b = true.
Proof.
  unfold strip. destruct (lstrip_spec s) as (a & E & F).
  destruct (rstrip_spec (lstrip s)) as (b & E' & F'). exists a, b. split; [|auto].
  rewrite E at 1. rewrite E' at 1. reflexivity.
Qed.

Lemma strip_trimmed a s b :
  forallb is_space a = true -> forallb is_space b = true -> trimmed s -> strip (a ++ s ++ b) = s.
Proof.
  intros A B (NE & H & T). rewrite strip_blanks by exact A. unfold strip.
  rewrite lstrip_nonspace.
  - unfold rstrip. rewrite rev_app_distr, drop_while_app_all.
    + rewrite drop_while_none by exact T. apply rev_involutive.
    + apply forallb_forall. intros c I. apply in_rev in I. rewrite forallb_forall in B. apply B. exact I.
  - destruct s as [|c s]; [congruence|]. exact H.
Qed.

Lemma head_not_app p (a b : str) : a <> [] -> head_not p a = true -> head_not p (a ++ b) = true.
Proof. destruct a as [|c a]; [congruence|auto]. Qed.
Lemma head_not_app_inv p (a b : str) : a <> [] -> head_not p (a ++ b) = true -> head_not p a = true.
Proof. destruct a as [|c a]; [congruence|auto]. Qed.

Lemma word_trimmed w : word w -> trimmed w.
Proof.
  intros [NE F]. split; [exact NE|]. split.
  - destruct w as [|c w]; [congruence|]. cbn. rewrite (word_not_space c); [reflexivity|apply F; left; reflexivity].
  - destruct (rev w) as [|c x] eqn:E; [reflexivity|]. cbn. rewrite (word_not_space c); [reflexivity|].
    apply F. apply in_rev. rewrite E. left. reflexivity.
Qed.

Lemma space_no_word a : forallb is_space a = true -> no_word a.
Proof. intros F c I. apply space_not_word. rewrite forallb_forall in F. apply F. exact I. Qed.

Lemma maximal_app_gap ps g : maximal ps -> maximal (ps ++ [PGap g]).
Proof.
  induction ps as [|p ps IH]; [intros _; exact I|]. intros M.
  destruct p; cbn in M |- *; try (apply IH; exact M).
  destruct ps as [|[]]; cbn in M |- *; auto.
Qed.

Lemma text_app a b : text (a ++ b) = text a ++ text b.
Proof. unfold text. rewrite map_app, concat_app. reflexivity. Qed.
Lemma subst_app f a b : subst f (a ++ b) = subst f a ++ subst f b.
Proof. unfold subst. rewrite map_app, concat_app. reflexivity. Qed.

Lemma words_of_around a s b ps :
  no_word a -> no_word b -> words_of s ps ->
  exists l r, words_of (a ++ s ++ b) (l ++ ps ++ r)
    /\ (forall f, subst f l = a) /\ (forall f, subst f r = b)
    /\ (forall w, ~ In (PWord w) l) /\ (forall w, ~ In (PWord w) r).
Proof.
  intros A B (T & M & F).
  exists (match a with [] => [] | _ => [PGap a] end), (match b with [] => [] | _ => [PGap b] end).
  assert (SA : forall f, subst f (match a with [] => [] | _ => [PGap a] end) = a).
  { intros f. destruct a as [|c a]; [reflexivity|]. unfold subst. cbn. rewrite app_nil_r. reflexivity. }
  assert (SB : forall f, subst f (match b with [] => [] | _ => [PGap b] end) = b).
  { intros f. destruct b as [|c b]; [reflexivity|]. unfold subst. cbn. rewrite app_nil_r. reflexivity. }
  split; [|split; [exact SA|split; [exact SB|split]]].
  - split; [|split].
    + rewrite !text_app, <- T. f_equal; [|f_equal].
      * destruct a as [|c a]; [reflexivity|]. unfold text. cbn. rewrite app_nil_r. reflexivity.
      * destruct b as [|c b]; [reflexivity|]. unfold text. cbn. rewrite app_nil_r. reflexivity.
    + assert (MB : maximal (ps ++ match b with [] => [] | _ => [PGap b] end)).
      { destruct b; [rewrite app_nil_r; exact M|]. apply maximal_app_gap. exact M. }
      destruct a; exact MB.
    + intros p I. apply in_app_or in I. destruct I as [I|I]; [|apply in_app_or in I; destruct I as [I|I]].
      * destruct a as [|c a]; [destruct I|]. destruct I as [<-|[]]. split; [discriminate|exact A].
      * apply F. exact I.
      * destruct b as [|c b]; [destruct I|]. destruct I as [<-|[]]. split; [discriminate|exact B].
  - intros w I. destruct a; [destruct I|]. destruct I as [I|[]]. discriminate.
  - intros w I. destruct b; [destruct I|]. destruct I as [I|[]]. discriminate.
Qed.

Definition img (f : str -> str) (p : piece) : str :=
  match p with PWord w => f w | p => piece_text p end.

Lemma subst_trimmed f s ps :
  words_of s ps -> trimmed s -> (forall w, word w -> trimmed (f w)) -> trimmed (subst f ps).
Proof.
  intros (T & M & F) (NE & H & R) FW.
  assert (P1 : forall p, In p ps -> img f p <> [] /\ piece_text p <> []).
  { intros p I. specialize (F p I). destruct p as [g|w|l]; cbn.
    - split; apply F.
    - split; [apply FW; exact F|apply F].
    - destruct F. }
  destruct ps as [|p ps]; [exfalso; apply NE; exact T|].
  split; [|split].
  - rewrite subst_cons. fold (img f p). destruct (P1 p (or_introl eq_refl)) as [P _].
    destruct (img f p); [congruence|discriminate].
  - rewrite subst_cons. fold (img f p). destruct (P1 p (or_introl eq_refl)) as [P P'].
    apply head_not_app; [exact P|]. specialize (F p (or_introl eq_refl)). rewrite T, text_cons in H.
    apply head_not_app_inv in H; [|exact P']. destruct p as [g|w|l]; [exact H|apply FW; exact F|exact H].
  - destruct (exists_last (l:=p :: ps)) as (qs & q & E); [discriminate|]. rewrite E in *.
    assert (I : In q (qs ++ [q])) by (apply in_or_app; right; left; reflexivity).
    destruct (P1 q I) as [P P']. specialize (F q I).
    assert (NR : forall x : str, x <> [] -> rev x <> []).
    { intros x N E1. apply N. apply (f_equal (@rev _)) in E1. rewrite rev_involutive in E1. exact E1. }
    rewrite subst_app, rev_app_distr. unfold subst at 1. cbn [map concat]. fold (img f q). rewrite app_nil_r.
    apply head_not_app; [apply NR; exact P|]. rewrite T, text_app, rev_app_distr in R.
    unfold text at 1 in R. cbn [map concat] in R. rewrite app_nil_r in R.
    apply head_not_app_inv in R; [|apply NR; exact P'].
    destruct q as [g|w|l]; [exact R|apply FW; exact F|exact R].
Qed.

Lemma subst_free cs f s ps :
  words_of s ps -> free_of cs s -> (forall w, In (PWord w) ps -> free_of cs w -> free_of cs (f w)) ->
  free_of cs (subst f ps).
Proof.
  intros (T & _ & _) FS FF. subst s. induction ps as [|p ps IH]; [apply free_nil|].
  rewrite text_cons in FS. apply free_app in FS. destruct FS as [F1 F2]. rewrite subst_cons. apply free_app.
  split.
  - destruct p as [g|w|l]; [exact F1| |exact F1]. apply FF; [left; reflexivity|exact F1].
  - apply IH; [exact F2|]. intros w I. apply FF. right. exact I.
Qed.

Section Seq.
  Context (fo : str -> list str -> option str).
  Local Notation xm := (xm fo).

  (** Values of the macros defined by [before], with respect to the texts [m]. *)
  Definition vals (m : str -> option str) (t : mtab) (before : list (str * str)) : Prop :=
    fnmacros t = []
    /\ (forall w, dget (macros t) w <> None <-> In w (map fst before))
    /\ (forall w v, dget (macros t) w = Some v ->
          trimmed v /\ free_of ["("; tab; nl; cr]%char v
          /\ exists b1 rest b2, before = b1 ++ (w, rest) :: b2 /\ ~ In w (map fst b1)
             /\ m w = Some (strip rest)
             /\ forall H, (forall x, In x (map fst b1) -> ~ In x H) -> cexp m H (strip rest) v).

  Lemma define_step m t (before : list (str * str)) n rest (after : list (str * str)) :
    vals m t before ->
    m n = Some (strip rest) ->
    NoDup (map fst before ++ n :: map fst after) ->
    (forall w, m w <> None -> In w (map fst before ++ n :: map fst after)) ->
    ident n -> simple_body rest ->
    (forall ps w, words_of rest ps -> In (PWord w) ps -> ~ In w (n :: map fst after)) ->
    exists t', define_line fo t n rest = Ok t' /\ vals m t' (before ++ [(n, rest)]).
  Proof.
    intros (NF & KM & VM) MN ND DM IN [FR NB] DF.
    destruct (strip_parts rest) as (a & b & ER & SA & SB).
    destruct (words_exist (strip rest)) as [ps W].
    assert (FN : free_of ["("; tab; nl; cr]%char rest).
    { intros c I. apply FR. destruct I as [<-|[<-|[<-|[<-|[]]]]]; cbn; auto 10. }
    assert (TR : trimmed (strip rest)) by (split; [exact NB|apply strip_trim]).
    destruct (words_of_around a (strip rest) b ps (space_no_word a SA) (space_no_word b SB) W)
      as (l & r & WR & SL & SR & NL & NR). rewrite <- ER in WR.
    set (v := subst (replaced (macros t)) ps).
    assert (XR : xm t rest = a ++ v ++ b).
    { pose proof WR as (TW & _ & _).
      rewrite TW, xm_words.
      - rewrite !subst_app, SL, SR. reflexivity.
      - rewrite <- TW. exact WR.
      - rewrite <- TW. intros x y E. exfalso. apply (FR dquote); [cbn; auto|]. rewrite E.
        apply in_or_app. right. left. reflexivity.
      - intros w _. left. rewrite NF. reflexivity. }
    assert (RV : forall w x, dget (macros t) w = x -> replaced (macros t) w = match x with Some v => v | None => w end).
    { intros w x E. unfold replaced. rewrite E. reflexivity. }
    assert (TV : trimmed v).
    { apply (subst_trimmed _ (strip rest)); auto. intros w IW. destruct (dget (macros t) w) as [x|] eqn:E;
        rewrite (RV _ _ E).
      - apply (VM w x E).
      - apply word_trimmed. exact IW. }
    assert (FV : free_of ["("; tab; nl; cr]%char (a ++ v ++ b)).
    { rewrite ER in FN. apply free_app in FN. destruct FN as [F1 F2]. apply free_app in F2. destruct F2 as [F2 F3].
      apply free_app. split; [exact F1|]. apply free_app. split; [|exact F3].
      apply (subst_free _ _ (strip rest)); auto. intros w _ FW. destruct (dget (macros t) w) as [x|] eqn:E;
        rewrite (RV _ _ E).
      - apply (VM w x E).
      - exact FW. }
    assert (SV : strip (a ++ v ++ b) = v) by (apply strip_trimmed; auto).
    unfold define_line. rewrite expand_macros_ok, XR. cbn [bind].
    rewrite define_object.
    2: exact IN.
    2:{ intros c I. apply FV. destruct I as [<-|[<-|[<-|[]]]]; cbn; auto. }
    2:{ left. intros b0 x0 _ E0. apply (FV "("%char); [left; reflexivity|]. rewrite E0. apply in_or_app. right. left. reflexivity. }
    2:{ rewrite NF. reflexivity. }
    rewrite SV. eexists. split; [reflexivity|].
    assert (NBF : ~ In n (map fst before)).
    { apply NoDup_remove_2 in ND. intros I. apply ND. apply in_or_app. left. exact I. }
    split; [exact NF|]. split; cbn [macros fnmacros].
    - intros w. rewrite map_app, in_app_iff. cbn [map In]. rewrite dget_dset.
      destruct (eqb_spec w n) as [->|NW].
      + split; [intros _; right; left; reflexivity|intros _; discriminate].
      + rewrite KM. split; [auto|]. intros [I|[E|[]]]; [exact I|exfalso; apply NW; symmetry; exact E].
    - intros w x. rewrite dget_dset. destruct (eqb_spec w n) as [->|NW].
      + intros E. injection E as <-. split; [exact TV|]. split.
        { apply free_app in FV. destruct FV as [_ FV]. apply free_app in FV. apply FV. }
        exists before, rest, []. split; [reflexivity|]. split; [exact NBF|]. split; [exact MN|].
        intros H DH.
        assert (CE : exists os, cexps m H ps os /\ concat os = v).
        { subst v. assert (KW : forall w, In (PWord w) ps -> ~ In w (n :: map fst after)).
          { intros w I. apply (DF _ _ WR). apply in_or_app. right. apply in_or_app. left. exact I. }
          destruct W as (_ & _ & NS). revert NS KW. clear - KM VM DH DM. induction ps as [|p ps IH]; intros NS KW.
          { exists []. split; [constructor|reflexivity]. }
          destruct IH as (os & C & E).
          { intros q I. apply NS. right. exact I. }
          { intros w I. apply KW. right. exact I. }
          rewrite subst_cons. destruct p as [g|w|l].
          - exists (g :: os). split; [constructor; exact C|]. cbn. rewrite E. reflexivity.
          - destruct (dget (macros t) w) as [x|] eqn:D.
            + exists (x :: os). split.
              * destruct (VM w x D) as (_ & _ & b1 & rw & b2 & EB & N1 & MW & CW).
                assert (IW : In w (map fst before)).
                { rewrite EB, map_app. apply in_or_app. right. left. reflexivity. }
                apply (cexps_macro m H w (strip rw)); auto.
                apply CW. intros y I [<-|J]; [exact (N1 I)|]. apply (DH y); [|exact J].
                rewrite EB, map_app. apply in_or_app. left. exact I.
              * cbn. unfold replaced. rewrite D, E. reflexivity.
            + exists (w :: os). split.
              * apply cexps_plain; [|exact C]. left. destruct (m w) eqn:MW; [|reflexivity]. exfalso.
                assert (I : In w (map fst before ++ n :: map fst after)) by (apply DM; congruence).
                apply in_app_or in I. destruct I as [I|I].
                -- apply KM in I. apply I. exact D.
                -- apply (KW w); [left; reflexivity|exact I].
              * cbn. unfold replaced. rewrite D, E. reflexivity.
          - destruct (NS (PStr l) (or_introl eq_refl)). }
        destruct CE as (os & C & <-). econstructor; [exact W|exact C].
      + intros E. destruct (VM w x E) as (A1 & A2 & b1 & rw & b2 & EB & N1 & MW & CW).
        split; [exact A1|]. split; [exact A2|]. exists b1, rw, (b2 ++ [(n, rest)]). split.
        { rewrite EB, <- app_assoc. reflexivity. }
        auto.
  Qed.

  Lemma define_all m : forall after t before,
    vals m t before ->
    (forall w r, In (w, r) after -> m w = Some (strip r)) ->
    NoDup (map fst (before ++ after)) ->
    (forall w, m w <> None -> In w (map fst (before ++ after))) ->
    (forall w r, In (w, r) after -> ident w /\ simple_body r) ->
    defined_first (before ++ after) ->
    exists t', define_lines fo t after = Ok t' /\ vals m t' (before ++ after).
  Proof.
    induction after as [|[n rest] after IH]; intros t before V MA ND DM OKS DF.
    - exists t. rewrite app_nil_r. split; [reflexivity|exact V].
    - cbn [define_lines].
      destruct (OKS n rest (or_introl eq_refl)) as [IN SB].
      destruct (define_step m t before n rest after V) as (t' & E & V').
      + apply MA. left. reflexivity.
      + rewrite map_app in ND. exact ND.
      + intros w N. apply DM in N. rewrite map_app in N. exact N.
      + exact IN.
      + exact SB.
      + intros ps w W I. apply (DF before n rest after ps w eq_refl W I).
      + rewrite E. cbn [bind].
        assert (EA : before ++ (n, rest) :: after = (before ++ [(n, rest)]) ++ after)
          by (rewrite <- app_assoc; reflexivity).
        rewrite EA in *.
        apply IH; auto.
        * intros w r I. apply MA. right. exact I.
        * intros w r I. apply OKS. right. exact I.
  Qed.

  Lemma define_first defs :
    NoDup (map fst defs) -> (forall n rest, In (n, rest) defs -> ident n /\ simple_body rest) ->
    defined_first defs ->
    exists t, define_lines fo {| macros := []; fnmacros := [] |} defs = Ok t
      /\ forall n, In n (map fst defs) ->
         exists o, cexp (bodies defs) [] n o /\ expand_macros fo t n = Ok o.
  Proof.
    intros ND OKS DF.
    destruct (define_all (bodies defs) defs {| macros := []; fnmacros := [] |} []) as (t & E & V).
    - split; [reflexivity|]. split.
      + intros w. split; [intros N; exfalso; apply N; reflexivity|intros []].
      + intros w v N. discriminate.
    - intros w r I. unfold bodies. rewrite (NoDup_dget defs w r ND I). reflexivity.
    - exact ND.
    - intros w N. unfold bodies in N. destruct (dget defs w) as [r|] eqn:D; [|exfalso; apply N; reflexivity].
      apply dget_keys. exists r. exact D.
    - exact OKS.
    - exact DF.
    - exists t. split; [exact E|]. intros n I. destruct V as (NF & KM & VM). cbn [app] in *.
      pose proof I as I'. apply KM in I'. destruct (dget (macros t) n) as [v|] eqn:D; [|congruence].
      destruct (VM n v D) as (_ & _ & b1 & rest & b2 & EB & N1 & MW & CW).
      assert (IN : In (n, rest) defs) by (rewrite EB; apply in_or_app; right; left; reflexivity).
      destruct (OKS n rest IN) as [IDN _].
      assert (W : words_of n [PWord n]).
      { split; [unfold text; cbn; rewrite app_nil_r; reflexivity|]. split; [exact Logic.I|].
        intros p [<-|[]]. apply ident_word. exact IDN. }
      exists v. split.
      + replace v with (concat [v]) by (cbn; apply app_nil_r). apply (cexp_text _ _ n [PWord n]); [exact W|].
        apply (cexps_macro _ _ _ (strip rest)); [exact MW|intros []| |constructor].
        apply CW. intros x IX [<-|[]]. exact (N1 IX).
      + rewrite expand_macros_ok. f_equal. destruct W as (TW & WM & WF). rewrite TW at 1. rewrite xm_words.
        * unfold subst. cbn. unfold replaced. rewrite D. apply app_nil_r.
        * rewrite <- TW. split; [exact TW|auto].
        * rewrite <- TW. intros x y EQ _. apply ident_word in IDN. destruct IDN as [_ F].
          specialize (F dquote). rewrite EQ in F. discriminate F. apply in_or_app. right. left. reflexivity.
        * intros w _. left. rewrite NF. reflexivity.
  Qed.
End Seq.

(** ** Whole lines *)
Lemma name_in_intro w s a b :
  s = a ++ w ++ b -> word w -> head_not is_word b = true -> head_not is_word (rev a) = true -> name_in w s.
Proof.
  intros E W H1 H2. exists a, b. split; [exact E|]. split; [exact W|]. split.
  - intros c b' ->. cbn in H1. destruct (is_word c); [discriminate|reflexivity].
  - intros c a' ->. rewrite rev_app_distr in H2. cbn in H2. destruct (is_word c); [discriminate|reflexivity].
Qed.
Lemma words_of_name_in s ps w : words_of s ps -> In (PWord w) ps -> name_in w s.
Proof.
  intros W I. apply in_split in I. destruct I as (l & r & ->).
  assert (WW : word w).
  { destruct W as (_ & _ & F). apply (F (PWord w)). apply in_or_app. right. left. reflexivity. }
  destruct W as (T & M & F). apply (name_in_intro w s (text l) (text r)); [|exact WW| |].
  - rewrite T, text_app, text_cons. reflexivity.
  - assert (MR : maximal (PWord w :: r)).
    { clear - M. induction l as [|p l IH]; [exact M|]. apply IH.
      destruct p as [g|v|x]; [exact M| |exact M]. cbn in M. destruct (l ++ PWord w :: r) as [|[]]; auto. destruct M. }
    apply (words_of_next w r). split; [reflexivity|]. split; [exact MR|]. intros p I. apply F.
    apply in_or_app. right. exact I.
  - destruct l as [|x l] using rev_ind; [reflexivity|]. clear IHl.
    assert (Fx : In x ((l ++ [x]) ++ PWord w :: r)) by (apply in_or_app; left; apply in_or_app; right; left; reflexivity).
    specialize (F x Fx). rewrite text_app. unfold text at 2. cbn [map concat]. rewrite app_nil_r, rev_app_distr.
    destruct x as [g|v|y]; [| |destruct F].
    + destruct F as [NE NW]. cbn [piece_text]. destruct (rev g) as [|c z] eqn:E.
      * exfalso. apply NE. apply (f_equal (@rev _)) in E. rewrite rev_involutive in E. exact E.
      * cbn. rewrite NW; [reflexivity|]. apply in_rev. rewrite E. left. reflexivity.
    + exfalso. clear - M. induction l as [|p l IH]; [exact M|]. apply IH. cbn in M.
      destruct p as [g|u|x]; [exact M| |exact M]. destruct l as [|[]]; cbn in M |- *; auto; destruct M.
Qed.

Lemma name_in_literal w a b : name_in w a -> name_in w (a ++ dquote :: b).
Proof.
  intros (x & y & E & W & H1 & H2). exists x, (y ++ dquote :: b). split; [rewrite E, <- !app_assoc; reflexivity|].
  split; [exact W|]. split; [|exact H2].
  intros c b' EQ. destruct y as [|d y]; injection EQ as <- _; [reflexivity|]. apply (H1 d y eq_refl).
Qed.

Lemma find_literal line : ~ no_literal line \/ no_literal line.
Proof.
  induction line as [|c r IH].
  - right. intros a b E. destruct a; discriminate.
  - destruct (in_dec ascii_dec dquote r) as [I|N].
    + destruct (cheq_spec c dquote) as [->|NC].
      * left. intros L. apply (L [] r eq_refl). exact I.
      * destruct IH as [IH|IH].
        -- left. intros L. apply IH. apply (no_literal_tail c). exact L.
        -- right. intros a b E J. destruct a as [|d a]; [injection E as E1 E2; congruence|].
           injection E as -> E. apply (IH a b E J).
    + right. intros a b E J. apply N. destruct a as [|d a]; injection E as E1 E2; rewrite E2.
      * exact J.
      * apply in_or_app. right. left. reflexivity.
Qed.

Section Lines.
  Context (fo : str -> list str -> option str).
  Local Notation xm := (xm fo).

  Lemma xm_unknown t line :
    (forall w, name_in w line -> dget (macros t) w = None /\ dget (fnmacros t) w = None) ->
    no_literal line \/ (forall a c, line = a ++ [c] -> dget (macros t) [c] = None) ->
    xm t line = line.
  Proof.
    intros U L. destruct (find_literal line) as [NL|NL].
    - destruct L as [L|L]; [contradiction|].
      destruct (split_first dquote line) as [[a b]|] eqn:S.
      + apply split_first_iff in S. destruct S as [E NA]. destruct (in_dec ascii_dec dquote b) as [I|I].
        * destruct (words_exist a) as [ps W]. pose proof (proj1 W) as T.
          rewrite E, T. rewrite (xm_before_literal fo t ps b); auto.
          -- rewrite subst_id.
             ++ f_equal. f_equal. assert (NB : b <> []) by (intros ->; destruct I).
                rewrite <- (but_last_last1 b) at 3. f_equal.
                assert (LB : exists c, last1 b = [c]).
                { unfold last1. destruct (rev b) as [|c x] eqn:R; [|eauto].
                  exfalso. apply NB. apply (f_equal (@rev _)) in R. rewrite rev_involutive in R. exact R. }
                destruct LB as [c LB]. rewrite LB, xm_char. unfold replaced.
                rewrite (L (a ++ dquote :: but_last b) c); [destruct (is_word c); reflexivity|].
                rewrite E. rewrite <- (but_last_last1 b) at 1. rewrite LB, <- app_assoc. reflexivity.
             ++ intros w J. unfold replaced. destruct (U w) as [-> _]; [|reflexivity].
                rewrite E. apply name_in_literal. apply (words_of_name_in _ ps); auto.
          -- rewrite <- T. exact W.
          -- rewrite <- T. exact NA.
          -- intros w J. left. apply U. rewrite E. apply name_in_literal. apply (words_of_name_in _ ps); auto.
        * exfalso. apply NL. intros x y E2 J. rewrite E in E2. clear - NA I E2 J.
          revert a NA E2. induction x as [|c x IH]; intros a NA E2.
          -- destruct a as [|d a]; [injection E2 as E3; subst; auto|]. injection E2 as E3 E4. apply NA. left. exact E3.
          -- destruct a as [|d a]; injection E2 as E3 E4.
             ++ apply I. rewrite E4. apply in_or_app. right. left. reflexivity.
             ++ apply (IH a); [intros K; apply NA; right; exact K|exact E4].
      + apply split_first_None in S. exfalso. apply NL. intros x y E J. apply S. rewrite E. apply in_or_app.
        right. left. reflexivity.
    - destruct (words_exist line) as [ps W]. apply (xm_verbatim fo t line ps W NL).
      intros w I. apply U. apply (words_of_name_in _ ps); auto.
  Qed.

  Lemma xm_around_literal t before after ps body :
    words_of before ps -> ~ In dquote before -> lit_body body ->
    (forall w, name_in w before -> dget (fnmacros t) w = None \/ dget (macros t) w <> None) ->
    xm t (before ++ dquote :: body ++ dquote :: after)
    = subst (replaced (macros t)) ps ++ dquote :: body ++ dquote :: but_last after ++ xm t (last1 after).
  Proof.
    intros W NB LB F. pose proof (proj1 W) as T. rewrite T at 1.
    rewrite (xm_before_literal fo t ps (body ++ dquote :: after)).
    - f_equal. f_equal.
      destruct (exists_last (l:=dquote :: after)) as (z & c & E); [discriminate|].
      assert (E' : body ++ dquote :: after = (body ++ z) ++ [c]) by (rewrite <- app_assoc, <- E; reflexivity).
      assert (BL : forall x (d : ascii), but_last (x ++ [d]) = x).
      { intros x d. unfold but_last. apply removelast_last. }
      assert (L1 : forall x (d : ascii), last1 (x ++ [d]) = [d]).
      { intros x d. unfold last1. rewrite rev_app_distr. reflexivity. }
      rewrite E', BL, L1. destruct z as [|d z].
      + injection E as <- ->. cbn [but_last removelast last1 rev app]. rewrite xm_nil, app_nil_r. rewrite xm_char.
        reflexivity.
      + injection E as <- ->. rewrite BL, L1, <- app_assoc. reflexivity.
    - rewrite <- T. exact W.
    - rewrite <- T. exact NB.
    - apply in_or_app. right. left. reflexivity.
    - intros w I. apply F. apply (words_of_name_in _ ps); auto.
  Qed.

  Lemma params_begin params body :
    params <> [] -> (forall p, In p params -> ident p) ->
    name_list (join [","%char] params ++ ")"%char :: body) params body.
  Proof.
    intros NE F. induction params as [|p l IH]; [congruence|]. destruct l as [|q l].
    - cbn. apply (nl_last [] p [] body); [intros c []|apply F; left; reflexivity|intros c []].
    - change (join [","%char] (p :: q :: l)) with (p ++ ","%char :: join [","%char] (q :: l)).
      rewrite <- app_assoc. cbn [app].
      apply (nl_more [] p [] (join [","%char] (q :: l) ++ ")"%char :: body)).
      + intros c [].
      + apply F; left; reflexivity.
      + intros c [].
      + apply IH; [discriminate|]. intros x I. apply F. right. exact I.
  Qed.

  Lemma Forall2_xm t args args' :
    Forall2 (fun a a' => expand_macros fo t (strip a) = Ok a') args args' ->
    args' = map (fun a => xm t (strip a)) args.
  Proof.
    induction 1 as [|a a' l l' E _ IH]; [reflexivity|]. cbn. rewrite <- IH. f_equal.
    rewrite expand_macros_ok in E. injection E as <-. reflexivity.
  Qed.

  Lemma define_fn_line t name params body :
    ident name -> params <> [] -> (forall p, In p params -> ident p) -> plain_line body ->
    dget (fnmacros t) (strip body) = None ->
    define t name ("("%char :: join [","%char] params ++ ")"%char :: body)
    = {| macros := macros t; fnmacros := dset (fnmacros t) name (compile_fn_macro (strip body) params) |}.
  Proof.
    intros IN NE IP PB NA. apply define_function; auto.
    - intros c I. assert (K : free_of [tab; nl; cr] ("("%char :: join [","%char] params ++ ")"%char :: body)).
      { apply free_cons. split; [intros [E|[E|[E|[]]]]; discriminate|]. apply free_app. split.
        - intros d ID. apply join_free.
          + intros p J K. destruct (ident_idchars p (IP p J)) as [_ FI]. rewrite forallb_forall in FI.
            specialize (FI d K). destruct ID as [<-|[<-|[<-|[]]]]; discriminate FI.
          + intros [E|[]]. subst d. destruct ID as [E|[E|[E|[]]]]; discriminate.
        - apply free_cons. split; [intros [E|[E|[E|[]]]]; discriminate|exact PB]. }
      apply K. exact I.
    - exists [], (join [","%char] params ++ ")"%char :: body). split; [reflexivity|]. split; [intros c []|].
      apply params_begin; auto.
  Qed.

  Lemma fn_call t name params body ps args args' gap rest rest' :
    let rhs := "("%char :: join [","%char] params ++ ")"%char :: body in
    let t' := define t name rhs in
    ident name -> params <> [] -> (forall p, In p params -> ident p) -> plain_line body ->
    dget (macros t) name = None -> dget (fnmacros t) (strip body) = None ->
    expand_macros fo t rhs = Ok rhs ->
    code_of (strip body) ps -> free_of ["{"; "}"]%char (strip body) ->
    blanks gap -> length args = length params ->
    (forall a, In a args -> free_of ["("; ")"; ","]%char a) ->
    Forall2 (fun a a' => expand_macros fo t' (strip a) = Ok a') args args' ->
    expand_macros fo t' rest = Ok rest' ->
    define_line fo t name rhs = Ok t'
    /\ expand_macros fo t' (name ++ gap ++ "("%char :: join [","%char] args ++ ")"%char :: rest)
       = Ok (subst (bound params args') ps ++ rest').
  Proof.
    intros rhs t' IN NE IP PB NM NA ER C B G L FA F2 RR.
    assert (D : t' = {| macros := macros t; fnmacros := dset (fnmacros t) name (compile_fn_macro (strip body) params) |}).
    { apply define_fn_line; auto. }
    split; [unfold define_line; rewrite ER; reflexivity|].
    rewrite expand_macros_ok. f_equal. rewrite expand_macros_ok in RR. injection RR as <-.
    rewrite (Forall2_xm _ _ _ F2).
    rewrite (xm_call fo t' name _ (ident_word _ IN)) with (d := compile_fn_macro (strip body) params).
    - rewrite call_fn with (ps := ps); auto.
      + intros ->. destruct params; [congruence|discriminate].
      + intros c I J. rewrite (G c J) in I. destruct I as [E|[E|[]]]; discriminate.
    - destruct gap as [|c gap]; [reflexivity|]. cbn. rewrite (G c (or_introl eq_refl)). reflexivity.
    - rewrite D. exact NM.
    - rewrite D. cbn. apply dget_dset_same.
  Qed.

  Lemma fn_call_faulty t name params body ps r :
    let rhs := "("%char :: join [","%char] params ++ ")"%char :: body in
    let t' := define t name rhs in
    ident name -> params <> [] -> (forall p, In p params -> ident p) -> NoDup params -> plain_line body ->
    dget (macros t) name = None -> dget (fnmacros t) (strip body) = None ->
    expand_macros fo t rhs = Ok rhs ->
    code_of (strip body) ps ->
    head_not is_word r = true ->
    (~ In ")"%char r)
    \/ (exists a b, r = a ++ ")"%char :: b /\ free_of ["("; ")"]%char a)
    \/ (exists gap args rest i w,
          r = gap ++ "("%char :: join [","%char] args ++ ")"%char :: rest
          /\ blanks gap /\ args <> [] /\ (forall a, In a args -> free_of ["("; ")"; ","]%char a)
          /\ length args <= i /\ nth_error params i = Some w /\ In (PWord w) ps) ->
    exists r', expand_macros fo t' r = Ok r' /\ expand_macros fo t' (name ++ r) = Ok (name ++ r').
  Proof.
    intros rhs t' IN NE IP ND PB NM NA ER C H Q.
    assert (D : t' = {| macros := macros t; fnmacros := dset (fnmacros t) name (compile_fn_macro (strip body) params) |}).
    { apply define_fn_line; auto. }
    exists (xm t' r). split; [apply expand_macros_ok|]. rewrite expand_macros_ok. f_equal.
    rewrite (xm_call fo t' name r (ident_word _ IN) H) with (d := compile_fn_macro (strip body) params).
    - assert (CE : exists e, call fo t' (compile_fn_macro (strip body) params) r = Err e).
      { destruct Q as [Q|[(a & b & -> & F)|(gap & args & rest & i & w & -> & G & NA' & FA & LI & NP & IW)]].
        - rewrite call_no_close by exact Q. eauto.
        - rewrite call_no_open by exact F. eauto.
        - rewrite call_too_few with (ps := ps) (i := i) (w := w); auto; [eauto|].
          intros c I J. rewrite (G c J) in I. destruct I as [E|[E|[]]]; discriminate. }
      destruct CE as [e ->]. reflexivity.
    - rewrite D. exact NM.
    - rewrite D. cbn. apply dget_dset_same.
  Qed.
End Lines.

(** ** Statements in terms of [expand_macros] *)
Section Statements.
  Context (fo : str -> list str -> option str).
  Lemma xm_line t line ps :
    words_of line ps -> no_literal line ->
    (forall w, In (PWord w) ps -> dget (fnmacros t) w = None \/ dget (macros t) w <> None) ->
    xm fo t line = subst (replaced (macros t)) ps.
  Proof.
    intros W L F. pose proof (proj1 W) as T. rewrite T. apply xm_words; rewrite <- ?T; auto.
  Qed.

  Lemma literal_line t before after body ps :
    words_of before ps -> ~ In dquote before -> lit_body body ->
    (forall w, name_in w before -> dget (fnmacros t) w = None \/ dget (macros t) w <> None) ->
    exists before' last',
      expand_macros fo t before = Ok before'
      /\ expand_macros fo t (last1 after) = Ok last'
      /\ expand_macros fo t (before ++ dquote :: body ++ dquote :: after)
         = Ok (before' ++ dquote :: body ++ dquote :: but_last after ++ last').
  Proof.
    intros W NB LB F. exists (xm fo t before), (xm fo t (last1 after)). split; [apply expand_macros_ok|].
    split; [apply expand_macros_ok|]. rewrite expand_macros_ok. f_equal.
    rewrite (xm_around_literal fo t before after ps body W NB LB F). f_equal. symmetry. apply xm_line.
    - exact W.
    - intros a b E _. apply NB. rewrite E. apply in_or_app. right. left. reflexivity.
    - intros w I. apply F. apply (words_of_name_in _ ps); auto.
  Qed.

  Lemma faulty_line t name params body ps r :
    let rhs := "("%char :: join [","%char] params ++ ")"%char :: body in
    let t' := define t name rhs in
    ident name -> params <> [] -> (forall p, In p params -> ident p) -> NoDup params -> plain_line body ->
    dget (macros t) name = None -> dget (fnmacros t) (strip body) = None ->
    expand_macros fo t rhs = Ok rhs ->
    code_of (strip body) ps ->
    (forall c r', r = c :: r' -> is_word c = false) ->
    (~ In ")"%char r)
    \/ (exists a b, r = a ++ ")"%char :: b /\ free_of ["("; ")"]%char a)
    \/ (exists gap args rest i w,
          r = gap ++ "("%char :: join [","%char] args ++ ")"%char :: rest
          /\ blanks gap /\ args <> [] /\ (forall a, In a args -> free_of ["("; ")"; ","]%char a)
          /\ length args <= i /\ nth_error params i = Some w /\ In (PWord w) ps) ->
    exists r', expand_macros fo t' r = Ok r' /\ expand_macros fo t' (name ++ r) = Ok (name ++ r').
  Proof.
    intros rhs t' IN NE IP ND PB NM NA ER C H Q.
    apply (fn_call_faulty fo t name params body ps r); auto.
    destruct r as [|c r]; [reflexivity|]. cbn. rewrite (H c r eq_refl). reflexivity.
  Qed.

  Lemma definition_line t name rest r :
    ident name -> expand_macros fo t rest = Ok r -> plain_line r ->
    (((forall b x, blanks b -> r <> b ++ "("%char :: x) \/ (free_of quotes r /\ forall l b, ~ begins_with_names r l b)) ->
     dget (fnmacros t) (strip r) = None ->
     exists t', define_line fo t name rest = Ok t'
       /\ dget (macros t') name = Some (strip r)
       /\ (forall n, n <> name -> dget (macros t') n = dget (macros t) n)
       /\ fnmacros t' = fnmacros t)
    /\ (forall l b, begins_with_names r l b -> dget (fnmacros t) (strip b) = None ->
        exists t', define_line fo t name rest = Ok t'
          /\ macros t' = macros t
          /\ (exists d, dget (fnmacros t') name = Some d)
          /\ forall n, n <> name -> dget (fnmacros t') n = dget (fnmacros t) n).
  Proof.
    intros IN E P. unfold define_line. rewrite E. cbn [bind]. split.
    - intros A N. rewrite define_object by auto. eexists. split; [reflexivity|]. cbn [macros fnmacros].
      split; [apply dget_dset_same|]. split; [|reflexivity]. intros n NN. apply dget_dset_other. exact NN.
    - intros l b B N. rewrite (define_function t name r l b) by auto. eexists. split; [reflexivity|].
      cbn [macros fnmacros]. split; [reflexivity|]. split; [eexists; apply dget_dset_same|].
      intros n NN. apply dget_dset_other. exact NN.
  Qed.
End Statements.

(** The words of a given text, for the examples. *)
Definition names_list (s : str) : list str :=
  flat_map (fun i =>
    flat_map (fun j =>
      let w := firstn j (skipn i s) in
      if forallb is_word w && negb (Nat.eqb (length w) 0)
         && head_not is_word (skipn j (skipn i s)) && head_not is_word (rev (firstn i s))
      then [w] else []) (seq 0 (S (length s)))) (seq 0 (S (length s))).
Lemma name_in_list w s : name_in w s -> In w (names_list s).
Proof.
  intros (a & b & -> & (NE & W) & H1 & H2). unfold names_list. apply in_flat_map. exists (length a).
  rewrite !app_length. split; [apply in_seq; lia|]. apply in_flat_map. exists (length w).
  split; [apply in_seq; lia|].
  rewrite (skipn_app (length a)), skipn_all, Nat.sub_diag. cbn [app]. change (skipn 0 (w ++ b)) with (w ++ b).
  rewrite firstn_app, firstn_all, Nat.sub_diag, firstn_O, app_nil_r.
  rewrite skipn_app, skipn_all, Nat.sub_diag. cbn [app]. change (skipn 0 b) with b.
  rewrite (firstn_app (length a)), firstn_all, Nat.sub_diag, firstn_O, app_nil_r.
  assert (F1 : forallb is_word w = true) by (apply forallb_forall; exact W). rewrite F1.
  assert (F2 : Nat.eqb (length w) 0 = false).
  { apply Nat.eqb_neq. destruct w; [congruence|discriminate]. }
  rewrite F2.
  assert (F3 : head_not is_word b = true).
  { destruct b as [|c b]; [reflexivity|]. cbn. rewrite (H1 c b eq_refl). reflexivity. }
  rewrite F3.
  assert (F4 : head_not is_word (rev a) = true).
  { destruct (rev a) as [|c x] eqn:E; [reflexivity|]. cbn. rewrite (H2 c (rev x)); [reflexivity|].
    apply (f_equal (@rev _)) in E. rewrite rev_involutive in E. rewrite E. reflexivity. }
  rewrite F4. left. reflexivity.
Qed.
