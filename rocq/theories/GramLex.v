(** Reading single tokens of a text in any layout. *)
From Coq Require Import Ascii String Bool Arith ZArith Lia List.
Import ListNotations.
From Verif Require Import PyBase PyBaseFacts PyStr PyStrFacts MacroModel PpModel DeclModel EvalModel
  GramModel GramSpec.

Ltac by_chars P := let A := fresh in pose proof (ascii_all P eq_refl) as A; cbv beta in A; clear -A.

Lemma is_ws_pp c : is_ws c = is_ppws c.
Proof.
  pose proof (ascii_all (fun c => Bool.eqb (is_ws c) (is_ppws c)) eq_refl c) as A. cbv beta in A.
  apply Bool.eqb_prop in A. exact A.
Qed.
Lemma kwchar_not_ws c : is_kwchar c = true -> is_ppws c = false.
Proof.
  intros E. pose proof (ascii_all (fun c => negb (is_kwchar c) || negb (is_ppws c)) eq_refl c) as A.
  cbv beta in A. rewrite E in A. apply negb_true_iff. exact A.
Qed.
Lemma ws_not_kwchar c : is_ppws c = true -> is_kwchar c = false.
Proof. intros E. destruct (is_kwchar c) eqn:K; [apply kwchar_not_ws in K; congruence|reflexivity]. Qed.
Lemma ws_not_word c : is_ppws c = true -> is_word c = false.
Proof.
  intros E. pose proof (ascii_all (fun c => negb (is_ppws c) || negb (is_word c)) eq_refl c) as A.
  cbv beta in A. rewrite E in A. apply negb_true_iff. exact A.
Qed.
Lemma idchar_kw c : is_idchar c = true -> is_kwchar c = true.
Proof. unfold is_kwchar. intros ->. reflexivity. Qed.
Lemma digit_idchar c : is_digit c = true -> is_idchar c = true.
Proof. unfold is_idchar, is_alnum. intros ->. rewrite orb_true_r. reflexivity. Qed.
Lemma hex_idchar c : is_hexdigit c = true -> is_idchar c = true.
Proof.
  intros E. pose proof (ascii_all (fun c => negb (is_hexdigit c) || is_idchar c) eq_refl c) as A.
  cbv beta in A. rewrite E in A. exact A.
Qed.
Lemma suffix_idchar c : is_suffix_char c = true -> is_idchar c = true.
Proof.
  intros E. pose proof (ascii_all (fun c => negb (is_suffix_char c) || is_idchar c) eq_refl c) as A.
  cbv beta in A. rewrite E in A. exact A.
Qed.

(** ** Heads of tokens *)
Definition punct_heads : list ascii := map (hd sp) puncts.
Definition sym (d : ascii) : bool := mem d punct_heads || is_quote d.
Lemma sym_char d : sym d = true -> is_word d = false /\ is_kwchar d = false /\ is_ppws d = false /\ is_digit d = false.
Proof.
  intros E.
  pose proof (ascii_all (fun d => negb (sym d) || (negb (is_word d) && negb (is_kwchar d) && negb (is_ppws d) && negb (is_digit d))) eq_refl d) as A.
  cbv beta in A. rewrite E in A. cbn [negb orb] in A. rewrite !andb_true_iff, !negb_true_iff in A. tauto.
Qed.
Lemma mem_In (d : ascii) l : mem d l = true <-> In d l.
Proof.
  unfold mem. rewrite existsb_exists. split.
  - intros (x & I & E). apply eqb_eq in E. subst. exact I.
  - intros I. exists d. split; [exact I|apply eqb_refl].
Qed.

Definition alpha_tok (t : str) : Prop := t <> [] /\ forallb is_idchar t = true.
Lemma word_alpha t : word t -> alpha_tok t.
Proof.
  destruct t as [|c r]; [intros []|]. intros [A B]. split; [discriminate|]. cbn [forallb].
  rewrite (idstart_idchar c A). exact B.
Qed.
Lemma forallb_imp (p q : ascii -> bool) s : (forall c, p c = true -> q c = true) -> forallb p s = true -> forallb q s = true.
Proof.
  intros H F. apply forallb_forall. intros c I. apply H. rewrite forallb_forall in F. auto.
Qed.
Lemma num_alpha t v : num t v -> alpha_tok t /\ exists d r, t = d :: r /\ is_digit d = true.
Proof.
  intros [D (u & U & ->)]. apply (forallb_imp _ _ _ suffix_idchar) in U.
  destruct D as [[N F]|(x & h & X & N & F & ->)].
  - assert (F' := forallb_imp _ _ _ digit_idchar F). split.
    + split; [destruct v; [congruence|discriminate]|]. rewrite forallb_app, F', U. reflexivity.
    + destruct v as [|d r]; [congruence|]. exists d, (r ++ u). split; [reflexivity|].
      cbn [forallb] in F. apply andb_true_iff in F. apply F.
  - assert (F' := forallb_imp _ _ _ hex_idchar F). split.
    + split; [discriminate|]. cbn [app forallb]. rewrite forallb_app, F', U.
      destruct X as [->| ->]; reflexivity.
    + exists "0"%char, (x :: h ++ u). split; reflexivity.
Qed.
Lemma token_cases t : token t ->
  alpha_tok t \/ exists d r, t = d :: r /\ sym d = true.
Proof.
  intros [W|[(v & N)|[P|[L|B]]]].
  - left. apply word_alpha. exact W.
  - left. apply (num_alpha t v N).
  - right. destruct t as [|d r]; [cbn in P; repeat (destruct P as [P|P]; [discriminate P|]); destruct P|].
    exists d, r. split; [reflexivity|]. unfold sym. apply orb_true_iff. left. apply mem_In.
    unfold punct_heads. apply (in_map (hd sp)) in P. exact P.
  - right. destruct L as (q & b & Q & -> & _). exists q, (b ++ [q]). split; [reflexivity|]. unfold sym.
    rewrite Q. apply orb_true_r.
  - right. destruct B as (b & _ & ->). exists "{"%char, (b ++ $"}"). split; reflexivity.
Qed.
Lemma alpha_head d r : alpha_tok (d :: r) -> is_idchar d = true.
Proof. intros [_ F]. cbn [forallb] in F. apply andb_true_iff in F. apply F. Qed.
Lemma token_head t : token t -> exists d r, t = d :: r /\ is_ppws d = false /\ (is_idchar d = true \/ sym d = true).
Proof.
  intros T. destruct (token_cases t T) as [A|(d & r & -> & S1)].
  - destruct t as [|d r]; [destruct A; congruence|]. exists d, r. split; [reflexivity|].
    apply alpha_head in A. split; [apply kwchar_not_ws; apply idchar_kw; exact A|auto].
  - exists d, r. split; [reflexivity|]. split; [apply (sym_char d S1)|auto].
Qed.

(** Characters that can stand before a token. *)
Definition prev_ok (c : ascii) : Prop := is_kwchar c = false -> is_word c = false.
Lemma prev_ws c : is_ppws c = true -> prev_ok c.
Proof. intros W _. apply ws_not_word. exact W. Qed.
Lemma prev_idchar c : is_idchar c = true -> prev_ok c.
Proof. intros W K. apply idchar_kw in W. congruence. Qed.
Lemma last_default {A} (l : list A) a b : l <> [] -> last l a = last l b.
Proof.
  induction l as [|x l IH]; [congruence|]. intros _. destruct l as [|y l]; [reflexivity|].
  cbn [last]. apply IH. discriminate.
Qed.
Lemma last_in {A} (l : list A) a : l <> [] -> In (last l a) l.
Proof.
  induction l as [|x l IH]; [congruence|]. intros _. destruct l as [|y l]; [left; reflexivity|].
  right. apply IH. discriminate.
Qed.
Lemma last_snoc {A} (l : list A) x a : last (l ++ [x]) a = x.
Proof. induction l as [|y l IH]; [reflexivity|]. cbn [app last]. rewrite IH. destruct (l ++ [x]) eqn:E; [destruct l; discriminate|reflexivity]. Qed.
Lemma prev_token t c : token t -> prev_ok (last t c).
Proof.
  intros [W|[(v & N)|[P|[L|B]]]].
  - apply word_alpha in W. destruct W as [N F]. apply prev_idchar. rewrite forallb_forall in F. apply F. apply last_in. exact N.
  - apply num_alpha in N. destruct N as [[N F] _]. apply prev_idchar. rewrite forallb_forall in F. apply F. apply last_in. exact N.
  - assert (Q : forallb (fun t => match t with [] => false | _ => negb (is_word (last t sp)) end) puncts = true) by reflexivity.
    rewrite forallb_forall in Q. specialize (Q t P). destruct t as [|d r]; [discriminate|].
    apply negb_true_iff in Q. intros _. rewrite (last_default _ c sp) by discriminate. exact Q.
  - destruct L as (q & b & Q & -> & _). change (q :: b ++ [q]) with ((q :: b) ++ [q]). rewrite last_snoc.
    intros _. unfold is_quote in Q. apply orb_true_iff in Q. destruct Q as [Q|Q]; apply cheq_true in Q; subst q; reflexivity.
  - destruct B as (b & _ & ->). change ("{"%char :: b ++ $"}") with (("{"%char :: b) ++ ["}"%char]). rewrite last_snoc.
    intros _. reflexivity.
Qed.

(** ** Positions *)
Definition view (p : pos) (ts : list str) : Prop := lay (fst p) ts (snd p) /\ prev_ok (fst p).
Definition sep_from (c : ascii) (t : str) : Prop :=
  match t with d :: _ => glue c d = false | [] => False end.

Lemma skip_from_ws b : forall c s, forallb is_ppws b = true ->
  match s with d :: _ => is_ppws d = false | [] => True end ->
  skip_from c (b ++ s) = (last b c, s).
Proof.
  induction b as [|e b IH]; intros c s B H; cbn [app].
  - destruct s as [|d s]; cbn [skip_from last]; [reflexivity|]. rewrite H. reflexivity.
  - cbn [forallb] in B. apply andb_true_iff in B. destruct B as [E B]. cbn [skip_from]. rewrite E.
    rewrite IH by assumption. destruct b as [|x b]; [reflexivity|]. f_equal.
    clear. cbn [last]. revert x. induction b as [|y b IH]; intros x; cbn [last]; [reflexivity|]. apply IH.
Qed.
Lemma glue_ws c d : is_ppws c = true -> glue c d = false.
Proof.
  intros W. unfold glue. rewrite (ws_not_kwchar c W). cbn [andb orb].
  assert (Q : is_quote c = false /\ mem [c; d] ops2 = false).
  { unfold is_ppws in W. repeat (apply orb_true_iff in W; destruct W as [W|W]); apply cheq_true in W; subst c;
      (split; [reflexivity|]); reflexivity. }
  destruct Q as [-> ->]. reflexivity.
Qed.

Lemma view_tok p t ts : view p (t :: ts) ->
  exists c s, skip p = (c, t ++ s) /\ token t /\ sep_from c t /\ prev_ok c /\ view (last t c, s) ts
    /\ 1 + length s <= length (snd p).
Proof.
  unfold view. destruct p as [c0 s0]. cbn [fst snd]. intros [L PO]. inversion L as [|c b t' d r ts' s B T E G L']; subst.
  apply (forallb_imp is_ws is_ppws) in B; [|intros x X; rewrite <- is_ws_pp; exact X].
  destruct (token_head _ T) as (d' & r' & E & W & _). injection E as <- <-.
  assert (BW : b <> [] -> is_ppws (last b c0) = true).
  { intros N. rewrite forallb_forall in B. apply B. apply last_in. exact N. }
  exists (last b c0), s. split; [|split; [exact T|split; [|split; [|split]]]].
  - unfold skip. cbn [fst snd app]. apply skip_from_ws; [exact B|exact W].
  - cbn [sep_from]. destruct b as [|x b]; [apply G; reflexivity|]. apply glue_ws. apply BW. discriminate.
  - destruct b as [|x b]; [exact PO|]. apply prev_ws. apply BW. discriminate.
  - cbn [fst snd]. split; [|apply prev_token; exact T]. rewrite (last_default _ _ c0) by discriminate. exact L'.
  - rewrite app_length. cbn [app length]. rewrite app_length. lia.
Qed.

Lemma lay_next c ts s : lay c ts s ->
  match s with
  | [] => True
  | d :: _ => is_ppws d = true \/ (glue c d = false /\ (is_idchar d = true \/ sym d = true))
  end.
Proof.
  intros L. inversion L as [c' b B|c' b t d r ts' s' B T E G L']; subst.
  - destruct s as [|d b]; [exact I|]. cbn [forallb] in B. apply andb_true_iff in B. left. rewrite <- is_ws_pp. apply B.
  - destruct b as [|x b]; cbn [app].
    + right. split; [apply G; reflexivity|]. destruct (token_head _ T) as (d' & r' & E & _ & H).
      injection E as <- <-. exact H.
    + cbn [forallb] in B. apply andb_true_iff in B. left. rewrite <- is_ws_pp. apply B.
Qed.
(** Behind a word or number there is no character that could continue it. *)
Lemma next_not_word c ts s : is_kwchar c = true -> lay c ts s ->
  match s with [] => True | d :: _ => is_kwchar d = false /\ is_word d = false /\ d <> "."%char end.
Proof.
  intros K L. apply lay_next in L. destruct s as [|d s]; [exact I|].
  destruct L as [W|[G H]].
  - split; [apply ws_not_kwchar; exact W|]. split; [apply ws_not_word; exact W|]. intros ->. discriminate.
  - unfold glue in G. rewrite K in G. cbn [andb] in G. apply orb_false_iff in G. destruct G as [G _].
    apply orb_false_iff in G. destruct G as [G _]. split; [exact G|].
    destruct H as [H|H]; [apply idchar_kw in H; congruence|].
    split; [apply (sym_char d H)|]. intros ->. discriminate.
Qed.
Lemma alpha_last t c : alpha_tok t -> is_kwchar (last t c) = true.
Proof.
  intros [N F]. apply idchar_kw. rewrite forallb_forall in F. apply F. apply last_in. exact N.
Qed.

Lemma upto_app c t s : t <> [] -> upto (c, t ++ s) s = (last t c, s).
Proof.
  intros N. unfold upto. cbn [fst snd]. rewrite app_length.
  replace (length t + length s - length s) with (length t) by lia.
  rewrite firstn_app, firstn_all, Nat.sub_diag. cbn [firstn]. rewrite app_nil_r. reflexivity.
Qed.
Lemma upto_self p : upto p (snd p) = p.
Proof. unfold upto. rewrite Nat.sub_diag. destruct p. reflexivity. Qed.
Lemma skip_idem p : skip (skip p) = skip p.
Proof.
  destruct p as [c s]. unfold skip at 2 3. cbn [fst snd]. revert c. induction s as [|d s IH]; intros c; cbn [skip_from]; [reflexivity|].
  destruct (is_ppws d) eqn:W; [apply IH|]. unfold skip. cbn [fst snd skip_from]. rewrite W. reflexivity.
Qed.

(** Reading [a] from [p], using [k] tokens and leaving [rest]. *)
Definition reads {A} (r : pres A) (p : pos) (a : A) (k : nat) (rest : list str) : Prop :=
  exists q, r = POk a q /\ view q rest /\ k + length (snd q) <= length (snd p).

(** ** Words *)
Lemma span_word_alpha (f : ascii -> bool) c t s ts : alpha_tok t -> (forall d, is_idchar d = true -> f d = true) ->
  (forall d, is_kwchar d = false -> is_word d = false -> f d = false) ->
  lay (last t c) ts s -> span f (t ++ s) = (t, s).
Proof.
  intros A F1 F2 L. assert (K := alpha_last t c A). destruct A as [N F]. apply span_app_all.
  - apply (forallb_imp _ _ _ F1 F).
  - pose proof (next_not_word _ _ _ K L) as H. destruct s as [|d s]; [reflexivity|]. destruct H as (H1 & H2 & _).
    rewrite F2; auto.
Qed.
Lemma prev_not_word c d r : sep_from c (d :: r) -> is_idchar d = true -> is_kwchar c = false.
Proof.
  cbn [sep_from]. intros G I. unfold glue in G. rewrite (idchar_kw d I), andb_true_r in G.
  apply orb_false_iff in G. destruct G as [G _]. apply orb_false_iff in G. apply G.
Qed.
Lemma prev_alpha c t : sep_from c t -> alpha_tok t -> prev_ok c -> is_kwchar c = false /\ is_word c = false.
Proof.
  intros G A P. destruct t as [|d r]; [destruct A; congruence|]. assert (K := prev_not_word c d r G (alpha_head d r A)).
  split; [exact K|apply P; exact K].
Qed.
Lemma view_end p : view p [] -> snd (skip p) = [].
Proof.
  intros [L _]. destruct p as [c s]. cbn [fst snd] in L. inversion L as [c' b B|]; subst.
  apply (forallb_imp is_ws is_ppws) in B; [|intros x X; rewrite <- is_ws_pp; exact X].
  unfold skip. cbn [fst snd]. replace s with (s ++ []) by apply app_nil_r. rewrite skip_from_ws; auto.
Qed.

Lemma kwl_alpha l p t ts : view p (t :: ts) -> alpha_tok t ->
  if mem t l then reads (kwl l p) p t 1 ts else kwl l p = PNo.
Proof.
  intros V A. destruct (view_tok p t ts V) as (c & s & E & T & G & PO & L & LE).
  destruct (prev_alpha c t G A PO) as [_ NW]. unfold kwl. rewrite E. cbn [fst snd].
  rewrite (span_word_alpha is_word c t s ts); auto using idchar_word; [|apply L].
  rewrite NW. cbn [negb andb]. destruct (mem t l); [|reflexivity].
  exists (last t c, s). rewrite upto_app by apply A. split; [reflexivity|]. split; [exact L|]. exact LE.
Qed.
Definition sym_tok (t : str) : Prop := exists d r, t = d :: r /\ sym d = true.
Lemma span_sym f d r : f d = false -> span f (d :: r) = ([], d :: r).
Proof. intros E. cbn [span]. rewrite E. reflexivity. Qed.
Lemma kwl_sym l p t ts : view p (t :: ts) -> sym_tok t -> ~ In [] l -> kwl l p = PNo.
Proof.
  intros V (d & r & -> & S1) N. destruct (view_tok p _ ts V) as (c & s & E & _).
  unfold kwl. rewrite E. cbn [fst snd app]. rewrite span_sym by apply (sym_char d S1).
  destruct (mem [] l) eqn:M; [|rewrite andb_false_r; reflexivity].
  exfalso. apply N. unfold mem in M. rewrite existsb_exists in M. destruct M as (x & I & Q). apply eqb_eq in Q. subst. exact I.
Qed.
Lemma kwl_end l p : view p [] -> ~ In [] l -> kwl l p = PNo.
Proof.
  intros V N. unfold kwl. rewrite (view_end p V). cbn [span].
  destruct (mem [] l) eqn:M; [|rewrite andb_false_r; reflexivity].
  exfalso. apply N. unfold mem in M. rewrite existsb_exists in M. destruct M as (x & I & Q). apply eqb_eq in Q. subst. exact I.
Qed.
Lemma mem_str (t : str) l : mem t l = true <-> In t l.
Proof.
  unfold mem. rewrite existsb_exists. split.
  - intros (x & I & E). apply eqb_eq in E. subst. exact I.
  - intros I. exists t. split; [exact I|apply eqb_refl].
Qed.
Lemma mem_str_false (t : str) l : ~ In t l -> mem t l = false.
Proof. intros N. destruct (mem t l) eqn:E; [apply mem_str in E; contradiction|reflexivity]. Qed.
Lemma kwl_yes l p t ts : view p (t :: ts) -> word t -> In t l -> reads (kwl l p) p t 1 ts.
Proof.
  intros V W I. pose proof (kwl_alpha l p t ts V (word_alpha t W)) as H. apply mem_str in I. rewrite I in H. exact H.
Qed.
Lemma view_head p t ts : view p (t :: ts) -> token t.
Proof. intros V. destruct (view_tok p t ts V) as (c & s & _ & T & _). exact T. Qed.
(** The first token, if there is one. *)
Definition first (ts : list str) (P : str -> Prop) : Prop := match ts with t :: _ => P t | [] => True end.
Lemma kwl_no l p ts : view p ts -> ~ In [] l -> first ts (fun t => ~ In t l) -> kwl l p = PNo.
Proof.
  intros V N F. destruct ts as [|t ts]; [apply kwl_end; assumption|]. cbn [first] in F.
  destruct (token_cases t (view_head p t ts V)) as [A|S1].
  - pose proof (kwl_alpha l p t ts V A) as H. rewrite mem_str_false in H by exact F. exact H.
  - apply (kwl_sym l p t ts V); assumption.
Qed.

(** ** Keywords and identifiers *)
Lemma keyword_yes w p ts : view p (w :: ts) -> word w -> reads (keyword w p) p w 1 ts.
Proof.
  intros V W. assert (A := word_alpha w W). destruct (view_tok p w ts V) as (c & s & E & T & G & PO & L & LE).
  destruct (prev_alpha c w G A PO) as [K _]. unfold keyword. rewrite E. cbn [fst snd].
  rewrite (span_word_alpha is_kwchar c w s ts); auto using idchar_kw; [|apply L].
  rewrite K, eqb_refl. cbn [negb andb].
  exists (last w c, s). rewrite upto_app by apply A. split; [reflexivity|]. split; [exact L|exact LE].
Qed.
Lemma keyword_no w p ts : view p ts -> w <> [] -> first ts (fun t => t <> w) -> keyword w p = PNo.
Proof.
  intros V N F. assert (NE : forall b, b && eqb [] w = false).
  { intros b. destruct (eqb_spec [] w); [congruence|]. apply andb_false_r. }
  unfold keyword. destruct ts as [|t ts].
  { rewrite (view_end p V). cbn [span]. rewrite NE. reflexivity. }
  cbn [first] in F. destruct (view_tok p t ts V) as (c & s & E & T & G & PO & L & LE). rewrite E. cbn [fst snd].
  destruct (token_cases t T) as [A|(d & r & -> & S1)].
  - rewrite (span_word_alpha is_kwchar c t s ts); auto using idchar_kw; [|apply L].
    destruct (eqb_spec t w); [contradiction|]. rewrite andb_false_r. reflexivity.
  - cbn [app]. rewrite span_sym by apply (sym_char d S1). rewrite NE. reflexivity.
Qed.

(** ** Literals *)
Lemma lit_yes x p ts : view p (x :: ts) -> reads (lit x p) p x 1 ts.
Proof.
  intros V. destruct (view_tok p x ts V) as (c & s & E & T & G & PO & L & LE). unfold lit. rewrite E. cbn [fst snd].
  destruct (strip_prefix x (x ++ s)) as [r|] eqn:SP.
  - apply strip_prefix_iff in SP. apply app_inv_head in SP. subst r.
    exists (last x c, s). rewrite upto_app; [auto|]. destruct (token_head x T) as (d & r & -> & _). discriminate.
  - assert (Q : strip_prefix x (x ++ s) = Some s) by (apply strip_prefix_iff; reflexivity). congruence.
Qed.
Definition starts (d : ascii) (t : str) : Prop := exists r, t = d :: r.
Lemma lit_no d x p ts : view p ts -> first ts (fun t => ~ starts d t) -> lit (d :: x) p = PNo.
Proof.
  intros V F. unfold lit. destruct ts as [|t ts]; [rewrite (view_end p V); reflexivity|]. cbn [first] in F.
  destruct (view_tok p t ts V) as (c & s & E & T & _). rewrite E. cbn [fst snd].
  destruct (token_head t T) as (e & r & -> & _). cbn [app].
  destruct (strip_prefix (d :: x) (e :: r ++ s)) as [y|] eqn:SP; [|reflexivity].
  apply strip_prefix_iff in SP. injection SP as -> _. exfalso. apply F. exists r. reflexivity.
Qed.
Lemma skip_snd p : snd (skip p) = drop_while is_ppws (snd p).
Proof.
  destruct p as [c s]. unfold skip. cbn [fst snd]. revert c. induction s as [|d s IH]; intros c; cbn [skip_from drop_while]; [reflexivity|].
  destruct (is_ppws d); [apply IH|reflexivity].
Qed.
Lemma quoted_head d r : is_quote d = false -> quoted_string (d :: r) = None.
Proof. unfold quoted_string, is_quote. intros ->. reflexivity. Qed.
Definition no_quote (t : str) : Prop := match t with d :: _ => is_quote d = false | [] => True end.
Lemma delim_lit x p ts : view p ts -> first ts no_quote -> delim x p = lit x p.
Proof.
  intros V F. unfold delim.
  assert (Q : quoted_string (drop_while is_ppws (snd p)) = None).
  { rewrite <- skip_snd. destruct ts as [|t ts]; [rewrite (view_end p V); reflexivity|]. cbn [first] in F.
    destruct (view_tok p t ts V) as (c & s & E & T & _). rewrite E. cbn [snd].
    destruct (token_head t T) as (e & r & -> & _). apply quoted_head. exact F. }
  replace (skip_ignorables (length (snd p)) (snd p)) with (snd p); [rewrite upto_self; reflexivity|].
  destruct (length (snd p)); cbn [skip_ignorables]; [reflexivity|]. rewrite Q. reflexivity.
Qed.
Lemma delim_yes d x p ts : view p ((d :: x) :: ts) -> is_quote d = false -> reads (delim (d :: x) p) p (d :: x) 1 ts.
Proof. intros V Q. rewrite (delim_lit _ _ _ V); [|exact Q]. apply lit_yes. exact V. Qed.
Lemma delim_no d x p ts : view p ts -> first ts no_quote -> first ts (fun t => ~ starts d t) -> delim (d :: x) p = PNo.
Proof. intros V Q F. rewrite (delim_lit _ _ _ V Q). apply (lit_no d x p ts); assumption. Qed.

(** ** Identifiers *)
Lemma kwl_skip l p : kwl l (skip p) = kwl l p.
Proof. unfold kwl. rewrite skip_idem. reflexivity. Qed.
Lemma word_dec t : word t \/ ~ word t.
Proof.
  destruct t as [|c r]; [right; auto|]. cbn [word].
  destruct (is_idstart c), (forallb is_idchar r); [left; auto|right|right|right]; intros [A B]; discriminate.
Qed.
Section Ident.
  Context (base : list str) (NB : ~ In [] (keywords base)).
  Lemma ident_yes p n ts : view p (n :: ts) -> word n -> ~ In n (keywords base) -> reads (ident base p) p n 1 ts.
  Proof.
    intros V W N. assert (A := word_alpha n W). assert (KN : kwl (keywords base) p = PNo) by (apply (kwl_no _ _ (n :: ts)); auto).
    destruct (view_tok p n ts V) as (c & s & E & T & G & PO & L & LE). unfold ident. rewrite kwl_skip, KN, E. cbn [fst snd].
    destruct (prev_alpha c n G A PO) as [K _]. destruct n as [|d r]; [destruct W|]. destruct W as [W1 W2].
    cbn [app]. rewrite K, (idchar_kw d (idstart_idchar d W1)), W1. cbn [negb andb].
    rewrite (span_app_all is_kwchar r s).
    - exists (last (d :: r) c, s). change (d :: r ++ s) with ((d :: r) ++ s). rewrite upto_app by discriminate. auto.
    - apply (forallb_imp _ _ _ idchar_kw W2).
    - pose proof (next_not_word _ _ _ (alpha_last _ c A) (proj1 L)) as H. destruct s as [|e s]; [reflexivity|]. cbn [fst snd] in H.
      destruct H as [-> _]. reflexivity.
  Qed.
  Lemma ident_no p ts : view p ts -> first ts (fun t => ~ word t \/ In t (keywords base)) -> ident base p = PNo.
  Proof.
    intros V F. unfold ident. destruct ts as [|t ts]; [rewrite (view_end p V); reflexivity|]. cbn [first] in F.
    rewrite kwl_skip. destruct (view_tok p t ts V) as (c & s & E & T & G & PO & L & LE). rewrite E. cbn [fst snd].
    destruct (token_cases t T) as [A|(d & r & -> & S1)].
    - pose proof (kwl_alpha (keywords base) p t ts V A) as H. destruct t as [|d r]; [destruct A; congruence|]. cbn [app].
      destruct (mem (d :: r) (keywords base)) eqn:M.
      + destruct H as (q & -> & _). destruct (_ && _); reflexivity.
      + rewrite H. destruct (is_idstart d) eqn:I; [|destruct (_ && _); reflexivity]. exfalso. destruct F as [F|F].
        * apply F. split; [exact I|]. destruct A as [_ A]. cbn [forallb] in A. apply andb_true_iff in A. apply A.
        * apply mem_str in F. congruence.
    - cbn [app]. destruct (sym_char d S1) as (_ & -> & _). rewrite andb_false_r. reflexivity.
  Qed.
  Lemma under2_no p ts : view p ts -> first ts (fun t => In t (keywords base) \/ starts_with $"__" t = false) -> under2 base p = PNo.
  Proof.
    intros V F. unfold under2. destruct ts as [|t ts]; [rewrite (view_end p V); reflexivity|]. cbn [first] in F.
    rewrite kwl_skip. destruct (view_tok p t ts V) as (c & s & E & T & G & PO & L & LE). rewrite E. cbn [fst snd].
    destruct (token_cases t T) as [A|(d & r & -> & S1)].
    - pose proof (kwl_alpha (keywords base) p t ts V A) as H.
      destruct (mem t (keywords base)) eqn:M.
      + destruct H as (q & -> & _). destruct (t ++ s); [reflexivity|]. destruct (_ && _); reflexivity.
      + rewrite H. destruct F as [F|F]; [apply mem_str in F; congruence|].
        assert (SP : strip_prefix $"__" (t ++ s) = None).
        { destruct (strip_prefix $"__" (t ++ s)) as [y|] eqn:SP; [|reflexivity]. exfalso.
          apply strip_prefix_iff in SP. destruct t as [|a t]; [destruct A; congruence|]. destruct t as [|b t].
          - cbn [app] in SP. injection SP as -> SP. pose proof (next_not_word _ _ _ (alpha_last _ c A) (proj1 L)) as N.
            cbn [fst snd] in N. rewrite SP in N. destruct N as [N _]. discriminate N.
          - cbn [app] in SP. injection SP as -> -> _. discriminate F. }
        rewrite SP. destruct (t ++ s); [reflexivity|]. destruct (_ && _); reflexivity.
    - cbn [app]. destruct (sym_char d S1) as (_ & -> & _). rewrite andb_false_r. reflexivity.
  Qed.
End Ident.

(** ** Operators *)
Definition one_ok (x : str) : bool :=
  match x with [] => false | [d] => negb (is_idchar d) | _ => forallb is_idchar x end.
Lemma ops2_head x y s : In x ops2 -> x = y :: s -> is_idchar y = false /\ is_quote y = false /\ cheq y "{" = false.
Proof.
  intros I ->. assert (Q : forallb (fun x => match x with y :: _ => negb (is_idchar y) && negb (is_quote y) && negb (cheq y "{") | [] => false end) ops2 = true) by reflexivity.
  rewrite forallb_forall in Q. specialize (Q _ I). cbv beta iota in Q. rewrite !andb_true_iff, !negb_true_iff in Q. tauto.
Qed.
Lemma ops2_pair x : In x ops2 -> exists d e, x = [d; e].
Proof.
  intros I. assert (Q : forallb (fun x => match x with [_; _] => true | _ => false end) ops2 = true) by reflexivity.
  rewrite forallb_forall in Q. specialize (Q _ I). destruct x as [|d [|e [|]]]; try discriminate. exists d, e. reflexivity.
Qed.
Lemma ops2_ws d e : In [d; e] ops2 -> is_ppws e = false.
Proof.
  intros I. assert (Q : forallb (fun x => match x with [_; e] => negb (is_ppws e) | _ => false end) ops2 = true) by reflexivity.
  rewrite forallb_forall in Q. specialize (Q _ I). apply negb_true_iff. exact Q.
Qed.
(** A two-character operator at the beginning of the text is the first token. *)
Lemma op2_token p t ts c s x : view p (t :: ts) -> skip p = (c, t ++ s) -> token t -> view (last t c, s) ts ->
  In x ops2 -> starts_with x (t ++ s) = true -> x = t.
Proof.
  intros V E T L I H. destruct (ops2_pair x I) as (d & e & ->). apply starts_with_iff in H. destruct H as (y & H).
  destruct (ops2_head _ d [e] I eq_refl) as (H1 & H2 & H3).
  assert (CS : alpha_tok t \/ In t puncts \/ literal t \/ fun_body t).
  { destruct T as [W|[(v & N)|T]]; [left; apply word_alpha; exact W|left; apply (num_alpha t v N)|right; exact T]. }
  destruct CS as [A|[P|[(q & b & Q & -> & _)|(b & _ & ->)]]].
  - destruct t as [|a t]; [destruct A; congruence|]. cbn [app] in H. injection H as -> _. apply alpha_head in A. congruence.
  - destruct t as [|a t]; [destruct (token_head [] T) as (? & ? & ? & _); discriminate|]. cbn [app] in H. injection H as -> H. destruct t as [|b t].
    + exfalso. cbn [app] in H. subst s. destruct L as [L _]. apply lay_next in L. cbn [fst snd last] in L.
      destruct L as [W|[G _]]; [rewrite (ops2_ws d e I) in W; discriminate|].
      unfold glue in G. apply mem_str in I. rewrite I, orb_true_r in G. discriminate.
    + cbn [app] in H. injection H as -> _. f_equal. f_equal.
      assert (Q : forallb (fun x => length x <=? 2) puncts = true) by reflexivity. rewrite forallb_forall in Q.
      specialize (Q _ P). apply Nat.leb_le in Q. cbn [length] in Q. destruct t; [reflexivity|cbn [length] in Q; lia].
  - cbn [app] in H. injection H as -> _. congruence.
  - cbn [app] in H. injection H as <- _. discriminate H3.
Qed.
Lemma find_app {A} (f : A -> bool) a b : find f (a ++ b) = match find f a with Some x => Some x | None => find f b end.
Proof. induction a as [|x a IH]; [reflexivity|]. cbn [app find]. destruct (f x); [reflexivity|exact IH]. Qed.
Lemma one_of_yes two one p t ts : forallb (fun x => mem x ops2) two = true -> forallb one_ok one = true ->
  view p (t :: ts) -> In t puncts -> In t (two ++ one) -> reads (one_of two one p) p t 1 ts.
Proof.
  intros H2 H1 V P I. destruct (view_tok p t ts V) as (c & s & E & T & G & PO & L & LE).
  assert (F : find (fun x => starts_with x (t ++ s)) (two ++ one) = Some t).
  { rewrite forallb_forall in H2, H1. rewrite find_app.
    destruct (find (fun x => starts_with x (t ++ s)) two) as [x|] eqn:F2.
    - apply find_some in F2. destruct F2 as [X F2]. f_equal. apply (op2_token p t ts c s x); auto. apply mem_str. apply H2. exact X.
    - destruct (find (fun x => starts_with x (t ++ s)) one) as [x|] eqn:F1.
      + apply find_some in F1. destruct F1 as [X F1]. f_equal.
        apply starts_with_iff in F1. destruct F1 as (y & F1).
        apply in_app_iff in I. destruct I as [I|I].
        { exfalso. pose proof (find_none _ _ F2 t I) as Z. cbv beta in Z. rewrite starts_with_app in Z. discriminate. }
        assert (HX := H1 _ X). assert (HT := H1 _ I).
        assert (Q : forallb (fun t => match t with d :: _ => negb (is_idchar d) | [] => false end) puncts = true) by reflexivity.
        rewrite forallb_forall in Q. specialize (Q t P). destruct t as [|d t]; [discriminate|]. apply negb_true_iff in Q.
        destruct x as [|e x]; [discriminate|]. cbn [app] in F1. injection F1 as -> F1.
        assert (SG : forall z, one_ok (e :: z) = true -> z = []).
        { intros [|f z] Z; [reflexivity|]. cbn [one_ok forallb] in Z. rewrite Q in Z. discriminate. }
        rewrite (SG _ HX), (SG _ HT). reflexivity.
      + exfalso. apply in_app_iff in I. destruct I as [I|I].
        * pose proof (find_none _ _ F2 t I) as Z. cbv beta in Z. rewrite starts_with_app in Z. discriminate.
        * pose proof (find_none _ _ F1 t I) as Z. cbv beta in Z. rewrite starts_with_app in Z. discriminate. }
  unfold one_of. rewrite E. cbn [fst snd]. rewrite F. exists (last t c, s).
  rewrite skipn_app, skipn_all, Nat.sub_diag. cbn [app skipn]. rewrite upto_app; [auto|].
  destruct (token_head t T) as (d & r & -> & _). discriminate.
Qed.
Lemma one_of_no two one p ts : forallb (fun x => mem x ops2) two = true -> forallb one_ok one = true ->
  view p ts -> first ts (fun t => ~ In t two /\ forall x, In x one -> starts_with x t = false) ->
  one_of two one p = PNo.
Proof.
  intros H2 H1 V F. unfold one_of. rewrite forallb_forall in H2, H1. destruct ts as [|t ts].
  { rewrite (view_end p V). destruct (find _ _) as [x|] eqn:K; [|reflexivity]. exfalso. apply find_some in K. destruct K as [I K].
    apply in_app_iff in I. destruct I as [I|I].
    - apply H2 in I. apply mem_str in I. destruct (ops2_pair x I) as (d & e & ->). discriminate.
    - apply H1 in I. destruct x; discriminate. }
  cbn [first] in F. destruct F as [N2 N1]. destruct (view_tok p t ts V) as (c & s & E & T & G & PO & L & LE).
  rewrite E. cbn [fst snd]. destruct (find _ _) as [x|] eqn:K; [|reflexivity]. exfalso. apply find_some in K. destruct K as [I K].
  apply in_app_iff in I. destruct I as [I|I].
  - apply N2. rewrite <- (op2_token p t ts c s x V E T L); [exact I| |exact K]. apply mem_str. apply H2. exact I.
  - assert (H := H1 x I). assert (N := N1 x I). apply starts_with_iff in K. destruct K as (y & K).
    destruct (token_cases t T) as [A|(d & r & -> & S1)].
    + pose proof (next_not_word _ _ _ (alpha_last _ c A) (proj1 L)) as NX. cbn [fst snd] in NX.
      assert (AX : forallb is_idchar x = true).
      { destruct x as [|a [|b x]]; [discriminate| |exact H]. destruct t as [|a' t]; [destruct A; congruence|].
        cbn [app] in K. injection K as <- K. apply alpha_head in A. cbn [forallb]. rewrite A. reflexivity. }
      clear -AX N K NX A. destruct A as [_ A]. revert t N K A. induction x as [|a x IH]; intros t N K A.
      * discriminate N.
      * cbn [forallb] in AX. apply andb_true_iff in AX. destruct AX as [A1 AX]. destruct t as [|b t].
        -- cbn [app] in K. subst s. destruct NX as [NX _]. apply idchar_kw in A1. congruence.
        -- cbn [app] in K. injection K as -> K. cbn [forallb] in A. apply andb_true_iff in A. destruct A as [_ A].
           assert (N' : starts_with x t = false). { cbn [starts_with] in N. rewrite cheq_refl in N. exact N. }
           exact (IH AX t N' K A).
    + destruct x as [|a x]; [discriminate|]. cbn [app] in K. injection K as -> K. destruct x as [|b x].
      * cbn [starts_with] in N. rewrite cheq_refl in N. discriminate N.
      * cbn [one_ok forallb] in H. apply andb_true_iff in H. destruct H as [H _]. apply idchar_kw in H.
        destruct (sym_char a S1) as (_ & Z & _). congruence.
Qed.

(** ** Numbers *)
Definition ends (s : str) : Prop := match s with [] => True | d :: _ => is_kwchar d = false /\ d <> "."%char end.
Lemma ends_head (f : ascii -> bool) s : (forall c, f c = true -> is_kwchar c = true) -> ends s ->
  match s with [] => True | d :: _ => f d = false end.
Proof.
  intros F H. destruct s as [|d s]; [exact I|]. destruct H as [H _]. destruct (f d) eqn:E; [apply F in E; congruence|reflexivity].
Qed.
Lemma span_stop (f : ascii -> bool) a s : forallb f a = true -> match s with [] => True | d :: _ => f d = false end ->
  span f (a ++ s) = (a, s).
Proof. intros A H. apply span_app_all; [exact A|]. destruct s as [|d s]; [reflexivity|]. rewrite H. reflexivity. Qed.
Lemma suffix_stop (f : ascii -> bool) u s : (forall c, is_suffix_char c = true -> f c = false) ->
  (forall c, f c = true -> is_kwchar c = true) -> forallb is_suffix_char u = true -> ends s ->
  match u ++ s with [] => True | d :: _ => f d = false end.
Proof.
  intros F1 F2 U H. destruct u as [|c u]; [apply (ends_head f s F2 H)|]. cbn [app forallb] in *.
  apply andb_true_iff in U. apply F1. apply U.
Qed.
Lemma suffix_facts c : is_suffix_char c = true -> is_digit c = false /\ EvalModel.is_hex c = false /\ is_exp c = false
  /\ c <> "."%char /\ c <> "x"%char /\ c <> "X"%char.
Proof.
  unfold is_suffix_char. intros E. apply orb_true_iff in E. destruct E as [E|E]; apply cheq_true in E; subst c;
    repeat split; try reflexivity; discriminate.
Qed.
Lemma digit_facts c : is_digit c = true -> is_sign c = false /\ is_space c = false /\ is_exp c = false
  /\ c <> "."%char /\ c <> "x"%char /\ c <> "X"%char /\ is_idstart c = false.
Proof.
  intros E. pose proof (ascii_all (fun c => negb (is_digit c) || (negb (is_sign c) && negb (is_space c) && negb (is_exp c)
    && negb (cheq c ".") && negb (cheq c "x") && negb (cheq c "X") && negb (is_idstart c))) eq_refl c) as A.
  cbv beta in A. rewrite E in A. cbn [negb orb] in A. rewrite !andb_true_iff, !negb_true_iff, !cheq_false in A. tauto.
Qed.
Lemma exp_kw c : is_exp c = true -> is_kwchar c = true.
Proof.
  intros E. pose proof (ascii_all (fun c => negb (is_exp c) || is_kwchar c) eq_refl c) as A. cbv beta in A. rewrite E in A. exact A.
Qed.
Lemma num_int t v s : num t v -> ends s ->
  match hexint (t ++ s) with Some x => Some x | None => decint (t ++ s) end = Some (v, s).
Proof.
  intros [D (u & U & ->)] H.
  assert (SX : span is_suffix (u ++ s) = (u, s)).
  { apply span_stop; [exact U|]. apply (ends_head is_suffix s); [|exact H]. intros c C. apply idchar_kw, suffix_idchar. exact C. }
  rewrite <- app_assoc. destruct D as [[N F]|(x & h & X & N & F & ->)].
  - assert (HX : hexint (v ++ u ++ s) = None).
    { destruct v as [|z v]; [congruence|]. cbn [app hexint]. cbn [forallb] in F. apply andb_true_iff in F. destruct F as [_ F].
      assert (Z : match v ++ u ++ s with [] => True | d :: _ => d <> "x"%char /\ d <> "X"%char end).
      { destruct v as [|a v]; cbn [app].
        - destruct u as [|b u]; cbn [app].
          + destruct s as [|d s]; [exact I|]. destruct H as [H _]. split; intros ->; discriminate.
          + cbn [forallb] in U. apply andb_true_iff in U. destruct U as [U _]. apply suffix_facts in U. tauto.
        - cbn [forallb] in F. apply andb_true_iff in F. destruct F as [F _]. apply digit_facts in F. tauto. }
      destruct (v ++ u ++ s) as [|d r]; [reflexivity|]. destruct Z as [Z1 Z2]. apply cheq_false in Z1, Z2. rewrite Z1, Z2.
      rewrite andb_false_r. reflexivity. }
    rewrite HX. unfold decint, digits1. rewrite (span_stop is_digit v (u ++ s)); [|exact F|].
    + destruct v as [|a v]; [congruence|]. rewrite SX. reflexivity.
    + apply suffix_stop; auto; [intros c C; apply suffix_facts in C; tauto|]. intros c C. apply idchar_kw, digit_idchar. exact C.
  - cbn [app hexint]. assert (XX : cheq "0" "0" && (cheq x "x" || cheq x "X") = true) by (destruct X as [->| ->]; reflexivity).
    rewrite XX. rewrite (span_stop EvalModel.is_hex h (u ++ s)); [|exact F|].
    + destruct h as [|a h]; [congruence|]. rewrite SX. reflexivity.
    + apply suffix_stop; auto; [intros c C; apply suffix_facts in C; tauto|]. intros c C. apply idchar_kw, hex_idchar. exact C.
Qed.
Lemma num_not_floating t v s : num t v -> ends s -> floating (t ++ s) = None.
Proof.
  intros N H. destruct (num_alpha t v N) as [_ (d & r & -> & D)]. unfold floating. cbn [app mantissa]. rewrite D.
  assert (Z : match r ++ s with [] => True | c :: _ => c <> "."%char /\ is_exp c = false end).
  { assert (ZS : match s with [] => True | c :: _ => c <> "."%char /\ is_exp c = false end).
    { destruct s as [|c s]; [exact I|]. destruct H as [H1 H2]. split; [exact H2|]. destruct (is_exp c) eqn:E; [apply exp_kw in E; congruence|reflexivity]. }
    destruct r as [|c r]; [exact ZS|]. cbn [app].
    destruct N as [[[N1 F]|(x & h & X & N1 & F & ->)] (u & U & E)].
    - destruct v as [|a v]; [congruence|]. cbn [app] in E. injection E as <- E. cbn [forallb] in F. apply andb_true_iff in F. destruct F as [_ F].
      destruct v as [|b v].
      + cbn [app] in E. subst u. cbn [forallb] in U. apply andb_true_iff in U. destruct U as [U _]. apply suffix_facts in U. tauto.
      + cbn [app] in E. injection E as -> _. cbn [forallb] in F. apply andb_true_iff in F. destruct F as [F _]. apply digit_facts in F. tauto.
    - cbn [app] in E. injection E as _ -> _. destruct X as [->| ->]; (split; [discriminate|reflexivity]). }
  destruct (r ++ s) as [|c x]; [reflexivity|]. destruct Z as [Z1 Z2]. apply cheq_false in Z1. rewrite Z1. cbn [exponent].
  rewrite Z2. reflexivity.
Qed.
Lemma view_ends p c t s ts : alpha_tok t -> skip p = (c, t ++ s) -> view (last t c, s) ts -> ends s.
Proof.
  intros A E [L _]. pose proof (next_not_word _ _ _ (alpha_last t c A) L) as H. cbn [fst snd] in H.
  destruct s as [|d s]; [exact I|]. unfold ends. tauto.
Qed.
Lemma number_yes p t v ts : view p (t :: ts) -> num t v -> reads (number p) p v 1 ts.
Proof.
  intros V N. destruct (num_alpha t v N) as [A (d & r & ET & D)].
  destruct (view_tok p t ts V) as (c & s & E & T & G & PO & L & LE). assert (H := view_ends p c t s ts A E L).
  pose proof (num_int t v s N H) as NI. pose proof (num_not_floating t v s N H) as NF.
  unfold number, number_at. rewrite E. cbn [fst snd]. rewrite ET in *. cbn [app] in *. destruct (digit_facts d D) as (D1 & D2 & _).
  rewrite D1. rewrite span_sym by exact D2. rewrite NF, NI. exists (last (d :: r) c, s). cbn [app].
  change (d :: r ++ s) with ((d :: r) ++ s). rewrite upto_app by discriminate. auto.
Qed.
Lemma integer_yes p t v ts : view p (t :: ts) -> num t v -> reads (integer p) p v 1 ts.
Proof.
  intros V N. destruct (num_alpha t v N) as [A (d & r & ET & D)].
  destruct (view_tok p t ts V) as (c & s & E & T & G & PO & L & LE). assert (H := view_ends p c t s ts A E L).
  pose proof (num_int t v s N H) as NI.
  unfold integer. rewrite E. cbn [fst snd]. rewrite ET in *. cbn [app] in *. destruct (digit_facts d D) as (D1 & D2 & _).
  rewrite D1. rewrite span_sym by exact D2. rewrite NI. exists (last (d :: r) c, s). cbn [app].
  change (d :: r ++ s) with ((d :: r) ++ s). rewrite upto_app by discriminate. auto.
Qed.
(** Tokens no number begins with. *)
Definition num_head (c : ascii) : bool := is_digit c || is_sign c || cheq c ".".
Lemma number_no p ts : view p ts -> first ts (fun t => match t with d :: _ => num_head d = false | [] => True end) -> number p = PNo.
Proof.
  intros V F. unfold number. destruct ts as [|t ts]; [rewrite (view_end p V); reflexivity|]. cbn [first] in F.
  destruct (view_tok p t ts V) as (c & s & E & T & G & PO & L & LE). rewrite E. cbn [fst snd].
  destruct (token_head t T) as (d & r & -> & W & SY). unfold num_head in F. rewrite !orb_false_iff in F. destruct F as [[F1 F2] F3].
  unfold number_at. cbn [app]. rewrite F2.
  assert (SPC : is_space d = false).
  { destruct SY as [SY|SY].
    - apply word_not_space. apply idchar_word. exact SY.
    - pose proof (ascii_all (fun d => negb (sym d) || negb (is_space d)) eq_refl d) as Q. cbv beta in Q. rewrite SY in Q. apply negb_true_iff. exact Q. }
  rewrite span_sym by exact SPC. unfold floating, mantissa. rewrite F1, F3.
  assert (Z : cheq d "0" = false). { apply cheq_false. intros ->. discriminate. }
  assert (HX : hexint (d :: r ++ s) = None). { cbn [hexint]. rewrite Z. cbn [andb]. destruct (r ++ s); reflexivity. }
  rewrite HX. unfold decint, digits1. rewrite span_sym by exact F1. reflexivity.
Qed.

(** ** Quoted strings and nested braces *)
Lemma qs_plain q b : forall s f, length b < f -> is_quote q = true ->
  (forall c, In c b -> c <> q /\ c <> bslash /\ c <> nl /\ c <> cr) -> match s with d :: _ => d <> q | [] => True end ->
  qs_body f q (b ++ q :: s) = Some (b ++ [q], s).
Proof.
  induction b as [|c b IH]; intros s f LF Q H N; (destruct f as [|f]; [cbn [length] in LF; lia|]); cbn [app qs_body].
  - rewrite cheq_refl. destruct s as [|d s]; [reflexivity|]. apply cheq_false in N. rewrite N. reflexivity.
  - destruct (H c (or_introl eq_refl)) as (H1 & H2 & H3 & H4). apply cheq_false in H1, H2, H3, H4. rewrite H1, H2, H3, H4. cbn [orb].
    rewrite IH; [reflexivity|cbn [length] in LF; lia|exact Q|intros x X; apply H; right; exact X|exact N].
Qed.
Lemma quoted_literal t s : literal t -> match s with d :: _ => is_quote d = false | [] => True end ->
  quoted_string (t ++ s) = Some (t, s).
Proof.
  intros (q & b & Q & -> & H) N. cbn [app]. rewrite <- app_assoc. cbn [app]. unfold quoted_string. fold (is_quote q). rewrite Q.
  rewrite (qs_plain q b s); [reflexivity| |exact Q|exact H|].
  - rewrite app_length. cbn [length]. lia.
  - destruct s as [|d s]; [exact I|]. intros ->. congruence.
Qed.
Lemma literal_last t c : literal t -> is_quote (last t c) = true.
Proof. intros (q & b & Q & -> & _). change (q :: b ++ [q]) with ((q :: b) ++ [q]). rewrite last_snoc. exact Q. Qed.
Lemma quoted_yes p t ts : view p (t :: ts) -> literal t -> reads (quoted p) p t 1 ts.
Proof.
  intros V Q. destruct (view_tok p t ts V) as (c & s & E & T & G & PO & L & LE). unfold quoted. rewrite E. cbn [fst snd].
  rewrite quoted_literal; [|exact Q|].
  - exists (last t c, s). rewrite upto_app; [auto|]. destruct (token_head t T) as (d & r & -> & _). discriminate.
  - destruct L as [L _]. apply lay_next in L. cbn [fst snd] in L. destruct s as [|d s]; [exact I|]. destruct L as [W|[GL _]].
    + unfold is_ppws in W. repeat (apply orb_true_iff in W; destruct W as [W|W]); apply cheq_true in W; subst d; reflexivity.
    + unfold glue in GL. rewrite (literal_last t c Q) in GL. apply orb_false_iff in GL. destruct GL as [_ GL]. exact GL.
Qed.
Lemma quoted_no p ts : view p ts -> first ts no_quote -> quoted p = PNo.
Proof.
  intros V F. unfold quoted. destruct ts as [|t ts]; [rewrite (view_end p V); reflexivity|]. cbn [first] in F.
  destruct (view_tok p t ts V) as (c & s & E & T & _). rewrite E. cbn [fst snd].
  destruct (token_head t T) as (e & r & -> & _). cbn [app]. rewrite quoted_head by exact F. reflexivity.
Qed.

Lemma nested_balanced b : balanced b -> forall f n s, length b + length s < f ->
  match s with d :: _ => is_quote d = false | [] => True end ->
  exists f', length s < f' /\ nested_body f "{" "}" n (b ++ s) = nested_body f' "{" "}" n s.
Proof.
  induction 1 as [|c b Q N1 N2 B IH|q b Q B IH HH|a b B1 IH1 B2 IH2]; intros f n s LF NS.
  - exists f. split; [exact LF|reflexivity].
  - destruct f as [|f]; [cbn [length] in LF; lia|]. cbn [app nested_body length] in *. rewrite (quoted_head c (b ++ s) Q).
    apply cheq_false in N1, N2. rewrite N1, N2. apply IH; [lia|exact NS].
  - destruct f as [|f]; [lia|]. rewrite <- app_assoc. cbn [nested_body]. rewrite app_length in LF.
    rewrite quoted_literal; [|exact Q|].
    + apply IH; [|exact NS]. destruct Q as (x & y & _ & -> & _). cbn [length] in LF. lia.
    + destruct b as [|c b]; [exact NS|]. cbn [app]. apply (HH c b). reflexivity.
  - destruct f as [|f]; [lia|]. cbn [app nested_body]. cbn [length] in LF. rewrite app_length in LF. cbn [length] in LF.
    rewrite <- app_assoc. cbn [app].
    rewrite (quoted_head "{" _ eq_refl). rewrite cheq_refl.
    destruct (IH1 f (S n) ("}"%char :: b ++ s)) as (f1 & L1 & ->); [cbn [length]; rewrite app_length; lia|reflexivity|].
    destruct f1 as [|f1]; [lia|]. cbn [length] in L1. rewrite app_length in L1. cbn [nested_body].
    rewrite (quoted_head "}" _ eq_refl). change (cheq "}" "{") with false. rewrite cheq_refl. cbv iota.
    apply IH2; [lia|exact NS].
Qed.
Lemma nested_yes p t ts : view p (t :: ts) -> fun_body t -> reads (nested "{" "}" p) p t 1 ts.
Proof.
  intros V (b & B & ->). destruct (view_tok p _ ts V) as (c & s & E & T & G & PO & L & LE).
  unfold nested. rewrite E. cbn [fst snd app]. rewrite cheq_refl. rewrite <- app_assoc. change ($"}" ++ s) with ("}"%char :: s).
  destruct (nested_balanced b B (S (length (b ++ "}"%char :: s))) 0 ("}"%char :: s)) as (f & LF & ->);
    [rewrite app_length; lia|reflexivity|].
  destruct f as [|f]; [lia|]. cbn [nested_body]. rewrite (quoted_head "}" _ eq_refl). change (cheq "}" "{") with false. rewrite cheq_refl.
  cbv iota. exists (last ("{"%char :: b ++ $"}") c, s).
  assert (EQ : "{"%char :: b ++ "}"%char :: s = ("{"%char :: b ++ $"}") ++ s) by (cbn [app]; rewrite <- app_assoc; reflexivity).
  rewrite EQ. rewrite upto_app by discriminate. split; [|auto]. f_equal.
  rewrite app_length. replace (length ("{"%char :: b ++ $"}") + length s - length s) with (length ("{"%char :: b ++ $"}")) by lia.
  rewrite firstn_app, firstn_all, Nat.sub_diag. cbn [firstn]. apply app_nil_r.
Qed.
Lemma nested_no p ts : view p ts -> first ts (fun t => ~ starts "{" t) -> nested "{" "}" p = PNo.
Proof.
  intros V F. unfold nested. destruct ts as [|t ts]; [rewrite (view_end p V); reflexivity|]. cbn [first] in F.
  destruct (view_tok p t ts V) as (c & s & E & T & _). rewrite E. cbn [fst snd].
  destruct (token_head t T) as (e & r & -> & _). cbn [app]. destruct (cheq_spec e "{") as [->|]; [|reflexivity].
  exfalso. apply F. exists r. reflexivity.
Qed.

(** ** Nested parentheses *)
Lemma nested_plain n b : forall f s, forallb (fun c => negb (is_quote c || cheq c "(" || cheq c ")")) b = true -> length (b ++ s) < f ->
  exists f', length s < f' /\ nested_body f "(" ")" n (b ++ s) = nested_body f' "(" ")" n s.
Proof.
  induction b as [|c b IH]; intros f s H L; [exists f; auto|]. cbn [forallb] in H. apply andb_true_iff in H. destruct H as [H HB].
  apply negb_true_iff in H. apply orb_false_iff in H. destruct H as [H H3]. apply orb_false_iff in H. destruct H as [H1 H2].
  destruct f as [|f]; [lia|]. cbn [app nested_body length] in *. rewrite (quoted_head c (b ++ s) H1). rewrite H2, H3. apply IH; [exact HB|lia].
Qed.
Lemma plain_chars t : token t -> ~ literal t -> ~ fun_body t -> t <> $"(" -> t <> $")" ->
  forallb (fun c => negb (is_quote c || cheq c "(" || cheq c ")")) t = true.
Proof.
  intros T NL NB N1 N2.
  assert (A : alpha_tok t -> forallb (fun c => negb (is_quote c || cheq c "(" || cheq c ")")) t = true).
  { intros (_ & H). revert H. apply forallb_imp. intros c.
    pose proof (ascii_all (fun c => negb (is_idchar c) || negb (is_quote c || cheq c "(" || cheq c ")")) eq_refl c) as Q. cbv beta in Q.
    intros W. rewrite W in Q. exact Q. }
  destruct T as [W|[(v & N)|[I1|[L|B]]]]; [apply A; apply word_alpha; exact W|apply A; apply (num_alpha t v N)| |contradiction|contradiction].
  assert (Z : forallb (fun t => eqb t $"(" || eqb t $")" || forallb (fun c => negb (is_quote c || cheq c "(" || cheq c ")")) t) puncts = true) by (vm_compute; reflexivity).
  rewrite forallb_forall in Z. specialize (Z t I1). apply orb_true_iff in Z. destruct Z as [Z|Z]; [|exact Z].
  apply orb_true_iff in Z. destruct Z as [Z|Z]; apply eqb_eq in Z; contradiction.
Qed.
Lemma ws_plain b : forallb is_ws b = true -> forallb (fun c => negb (is_quote c || cheq c "(" || cheq c ")")) b = true.
Proof.
  apply forallb_imp. intros c. pose proof (ascii_all (fun c => negb (is_ws c) || negb (is_quote c || cheq c "(" || cheq c ")")) eq_refl c) as Q.
  cbv beta in Q. intros W. rewrite W in Q. exact Q.
Qed.
Lemma literal_dec t : token t -> literal t \/ ~ literal t.
Proof.
  intros T. destruct (token_head t T) as (d & r & -> & _).
  destruct T as [W|[(v & N)|[I1|[L|B]]]]; [| | |left; exact L|]; right; intros (q & b & Q & E & _).
  - injection E as -> _. destruct W as [W _]. pose proof (ascii_all (fun c => negb (is_idstart c) || negb (is_quote c)) eq_refl q) as Z.
    cbv beta in Z. rewrite W, Q in Z. discriminate Z.
  - injection E as -> _. destruct (num_alpha _ v N) as [_ (e & r' & E & D)]. injection E as <- _.
    pose proof (ascii_all (fun c => negb (is_digit c) || negb (is_quote c)) eq_refl q) as Z. cbv beta in Z. rewrite D, Q in Z. discriminate Z.
  - injection E as -> _. assert (Z : forallb (fun t => match t with c :: _ => negb (is_quote c) | [] => true end) puncts = true) by (vm_compute; reflexivity).
    rewrite forallb_forall in Z. specialize (Z _ I1). cbv beta iota in Z. rewrite Q in Z. discriminate Z.
  - injection E as -> _. destruct B as (b' & _ & E'). injection E' as -> _. discriminate Q.
Qed.
Lemma group_nested ts : group ts -> forall rest c s f n, lay c (ts ++ rest) s -> length s < f ->
  exists f' c' s' pre, s = pre ++ s' /\ lay c' rest s' /\ length s' < f' /\ length ts + length s' <= length s
    /\ nested_body f "(" ")" n s = nested_body f' "(" ")" n s'.
Proof.
  induction 1 as [|t ts N1 N2 NB G IH|a ts G1 IH1 G2 IH2]; intros rest c s f n L LF.
  - exists f, c, s, []. auto.
  - cbn [app] in L. inversion L as [|c0 b t0 d r ts0 s0 B T E GL L']; subst.
    destruct (nested_plain n b f ((d :: r) ++ s0) (ws_plain b B) LF) as (f1 & LF1 & ->).
    assert (K : exists f2, length s0 < f2 /\ nested_body f1 "(" ")" n ((d :: r) ++ s0) = nested_body f2 "(" ")" n s0).
    { destruct (literal_dec _ T) as [Q|NQ].
      - destruct f1 as [|f1]; [lia|]. cbn [nested_body]. rewrite quoted_literal; [|exact Q|].
        + exists f1. split; [|reflexivity]. rewrite app_length in LF1. cbn [length] in LF1. lia.
        + apply lay_next in L'. destruct s0 as [|e s0]; [exact Logic.I|]. destruct L' as [W|[GL' _]].
          * unfold is_ppws in W. repeat (apply orb_true_iff in W; destruct W as [W|W]); apply cheq_true in W; subst e; reflexivity.
          * unfold glue in GL'. rewrite (literal_last (d :: r) c Q) in GL'. apply orb_false_iff in GL'. destruct GL' as [_ GL']. exact GL'.
      - apply nested_plain; [apply plain_chars; assumption|exact LF1]. }
    destruct K as (f2 & LF2 & ->). destruct (IH rest _ s0 f2 n L' LF2) as (f' & c' & s' & pre & -> & K1 & K2 & K3 & ->).
    exists f', c', s', (b ++ (d :: r) ++ pre). split; [rewrite <- !app_assoc; reflexivity|]. split; [exact K1|]. split; [exact K2|]. split; [|reflexivity].
    rewrite !app_length in *. cbn [length]. lia.
  - cbn [app] in L. rewrite <- app_assoc in L. cbn [app] in L. inversion L as [|c0 b t0 d r ts0 s0 B T E GL L']; subst. injection E as <- <-.
    destruct (nested_plain n b f ("("%char :: s0) (ws_plain b B) LF) as (f1 & LF1 & EQ1).
    change (["("%char] ++ s0) with ("("%char :: s0). rewrite EQ1.
    destruct f1 as [|f1]; [lia|]. cbn [nested_body]. rewrite (quoted_head "(" s0 eq_refl). rewrite cheq_refl. cbn [length] in LF1.
    destruct (IH1 ($")" :: ts ++ rest) _ s0 f1 (S n) L') as (f2 & c2 & s2 & pre & -> & L2 & LF2 & LE2 & ->); [lia|].
    inversion L2 as [|c3 b2 t2 d2 r2 ts2 s3 B2 T2 E2 GL2 L3]; subst. injection E2 as <- <-.
    destruct (nested_plain (S n) b2 f2 (")"%char :: s3) (ws_plain b2 B2) LF2) as (f3 & LF3 & EQ3).
    change ([")"%char] ++ s3) with (")"%char :: s3) in *. rewrite EQ3.
    destruct f3 as [|f3]; [lia|]. cbn [nested_body]. rewrite (quoted_head ")" s3 eq_refl). change (cheq ")" "(") with false. rewrite cheq_refl. cbv iota.
    cbn [length] in LF3. destruct (IH2 rest _ s3 f3 n L3) as (f' & c' & s' & pre' & -> & K1 & K2 & K3 & ->); [lia|].
    exists f', c', s', (b ++ $"(" ++ pre ++ b2 ++ $")" ++ pre'). split; [rewrite <- !app_assoc; reflexivity|]. split; [exact K1|]. split; [exact K2|]. split; [|reflexivity].
    repeat (rewrite !app_length in * || cbn [length] in * ). lia.
Qed.
Lemma nested_group p a rest : view p ($"(" :: a ++ $")" :: rest) -> group a ->
  exists x, reads (nested "(" ")" p) p x (2 + length a) rest.
Proof.
  intros V G. destruct (view_tok p _ _ V) as (c & s & E & T & GL & PO & L & LE).
  assert (E' : skip p = (c, "("%char :: s)) by exact E. unfold nested. rewrite E'. cbn [fst snd]. rewrite cheq_refl.
  destruct L as [L _]. cbn [fst snd] in L.
  destruct (group_nested a G ($")" :: rest) _ s (S (length s)) 0 L) as (f & c2 & s2 & pre & -> & L2 & LF2 & LE2 & ->); [lia|].
  inversion L2 as [|c3 b2 t2 d2 r2 ts2 s3 B2 T2 E2 GL2 L3]; subst. injection E2 as <- <-.
  destruct (nested_plain 0 b2 f (")"%char :: s3) (ws_plain b2 B2) LF2) as (f3 & LF3 & EQ3).
  change ([")"%char] ++ s3) with (")"%char :: s3) in *. rewrite EQ3.
  destruct f3 as [|f3]; [lia|]. cbn [nested_body]. rewrite (quoted_head ")" s3 eq_refl). change (cheq ")" "(") with false. rewrite cheq_refl. cbv iota.
  exists (firstn (length ("("%char :: pre ++ b2 ++ ")"%char :: s3) - length s3) ("("%char :: pre ++ b2 ++ ")"%char :: s3)).
  exists (")"%char, s3). assert (EQ : "("%char :: pre ++ b2 ++ ")"%char :: s3 = ("("%char :: pre ++ b2 ++ $")") ++ s3).
  { cbn [app]. rewrite <- !app_assoc. reflexivity. }
  split; [f_equal; rewrite EQ, upto_app by discriminate; f_equal|].
  - change ("("%char :: pre ++ b2 ++ $")") with (("("%char :: pre) ++ b2 ++ [")"%char]). rewrite app_assoc. apply last_snoc.
  - split; [split; [exact L3|intros _; reflexivity]|]. cbn [snd]. repeat (rewrite !app_length in * || cbn [length] in * ). lia.
Qed.
Lemma paren_no p ts : view p ts -> first ts (fun t => t <> $"(") -> nested "(" ")" p = PNo.
Proof.
  intros V F. unfold nested. destruct ts as [|t ts]; [rewrite (view_end p V); reflexivity|]. cbn [first] in F.
  destruct (view_tok p t ts V) as (c & s & E & T & _). rewrite E. cbn [fst snd].
  destruct (token_head t T) as (e & r & -> & _). cbn [app]. destruct (cheq_spec e "(") as [->|]; [|reflexivity].
  exfalso. destruct T as [W|[(v & N)|[I1|[L|B]]]].
  - destruct W as [W _]. discriminate W.
  - destruct (num_alpha _ v N) as [_ (x & y & E1 & D)]. injection E1 as <- _. discriminate D.
  - assert (Z : forallb (fun t => negb (match t with c :: _ => cheq c "(" | [] => false end) || eqb t $"(") puncts = true) by (vm_compute; reflexivity).
    rewrite forallb_forall in Z. specialize (Z _ I1). cbv beta iota in Z. rewrite cheq_refl in Z. apply F. apply eqb_eq. exact Z.
  - destruct L as (q & b & Q & E1 & _). injection E1 as <- _. discriminate Q.
  - destruct B as (b & _ & E1). discriminate E1.
Qed.
