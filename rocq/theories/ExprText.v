(** Proofs about the text of conditions: [defined], expansion, translation and tokens. *)
From Coq Require Import Ascii String Bool Arith ZArith Lia List.
Import ListNotations.
From Verif Require Import PyBase PyBaseFacts PyStr PyStrFacts TypeModel TypeSpec WordFacts.
From Verif Require Import MacroModel MacroSpec MacroProofs MacroDefProofs PyExpr PpModel PpSpec ExprSpec ExprProofs.

Ltac ascii_cases c := destruct c as [[] [] [] [] [] [] [] []].

(** ** Characters *)
Definition op_char (c : ascii) : bool :=
  existsb (fun x => cheq c x) ["!"; "&"; "|"; "~"; "("; ")"; "^"; "<"; ">"; "+"; "-"; "*"; "/"; "%"; "="]%char.
Lemma op_char_facts c : op_char c = true ->
  is_word c = false /\ is_space c = false /\ c <> dquote /\ is_kwchar c = false /\ is_digit c = false /\ is_idstart c = false
  /\ c <> "d"%char /\ cheq c sp = false /\ cheq c PyStr.tab = false.
Proof. ascii_cases c; cbv; intros H; try discriminate; repeat split; discriminate. Qed.
Lemma digit_facts c : is_digit c = true ->
  is_word c = true /\ is_space c = false /\ c <> dquote /\ is_idstart c = false /\ op_char c = false /\ c <> "d"%char
  /\ cheq c sp = false /\ cheq c PyStr.tab = false.
Proof. ascii_cases c; cbv; intros H; try discriminate; repeat split; discriminate. Qed.
Lemma idstart_facts c : is_idstart c = true ->
  is_word c = true /\ is_space c = false /\ is_kwchar c = true /\ is_digit c = false /\ op_char c = false
  /\ cheq c sp = false /\ cheq c PyStr.tab = false.
Proof. ascii_cases c; cbv; intros H; try discriminate; repeat split; discriminate. Qed.
Lemma idchar_kwchar c : is_idchar c = true -> is_kwchar c = true.
Proof. unfold is_kwchar. intros ->. reflexivity. Qed.
Lemma gap_char c : c = sp \/ c = PyStr.tab ->
  is_word c = false /\ is_space c = true /\ c <> dquote /\ is_kwchar c = false /\ is_digit c = false /\ is_idstart c = false
  /\ op_char c = false /\ c <> "d"%char /\ is_ppws c = true.
Proof. intros [->| ->]; cbv; repeat split; discriminate. Qed.
Lemma word_kwchar c : is_word c = false -> c <> "$"%char -> is_kwchar c = false.
Proof. ascii_cases c; cbv; intros H N; try discriminate; try reflexivity; congruence. Qed.

Definition op_tok (k : ctok) : bool :=
  match k with TNum _ | TId _ | TDefined _ => false | _ => true end.
Lemma op_text k s : op_tok k = true -> tok_text k s -> s <> [] /\ forallb op_char s = true.
Proof.
  intros O T. inversion T; subst; try discriminate; try (split; [discriminate|reflexivity]).
  - destruct o; split; try discriminate; reflexivity.
  - destruct o; split; try discriminate; reflexivity.
Qed.

Lemma tok_nonempty k s : tok_text k s -> s <> [].
Proof.
  intros T. destruct (op_tok k) eqn:O; [destruct (op_text k s O T); assumption|].
  inversion T as [d N|w I N|g w I G NE|g g' g'' w I G G' G''| | | | | | | |]; subst; try discriminate.
  - destruct N as [_ Q]. destruct s; discriminate.
  - intros ->. destruct I.
Qed.

(** ** Spelling *)
Lemma spells_gap g ts s : gap g -> spells ts s -> spells ts (g ++ s).
Proof.
  intros G H. inversion H; subst.
  - constructor. intros c I. apply in_app_or in I. destruct I; auto.
  - rewrite app_assoc. constructor; auto. intros c I. apply in_app_or in I. destruct I; auto.
Qed.
Lemma apart_gap k c : c = sp \/ c = PyStr.tab -> apart k c.
Proof.
  intros G. destruct k; cbn; auto; destruct G as [-> | ->]; try (split; [reflexivity|]);
    try discriminate; try (intros I; repeat (destruct I as [I|I]; [discriminate|]); destruct I).
  - split; [|destruct o; discriminate]. intros I. repeat (destruct I as [I|I]; [discriminate|]). destruct I.
  - split; [|destruct o; discriminate]. intros I. repeat (destruct I as [I|I]; [discriminate|]). destruct I.
Qed.
(** A digit or an opening parenthesis in place of an identifier. *)
Definition stands_for (c c' : ascii) : Prop :=
  c' = c \/ (is_idstart c = true /\ (is_digit c' = true \/ c' = "("%char)).
Lemma apart_sub k c c' : apart k c -> stands_for c c' -> apart k c'.
Proof.
  intros A [->|[I D]]; [exact A|]. pose proof (idstart_facts c I) as (W & _).
  destruct k; cbn in *; auto; try (destruct A; congruence).
  - destruct D as [D|D]; [|subst; discriminate]. intros ->. discriminate.
  - split.
    + intros J. repeat (destruct J as [J|J]; [subst c'; destruct D; discriminate|]). destruct J.
    + intros E. destruct o; cbn in E; try discriminate; injection E as <-; destruct D; discriminate.
  - intros J. repeat (destruct J as [J|J]; [subst c'; destruct D; discriminate|]). destruct J.
Qed.

Lemma spells_app ts1 v ts2 x :
  spells ts1 v -> spells ts2 x ->
  (forall k l c x', ts1 = l ++ [k] -> x = c :: x' -> apart k c) ->
  spells (ts1 ++ ts2) (v ++ x).
Proof.
  intros H1 H2. induction H1 as [g G|g k s ts r G T A H IH]; intros L.
  - apply spells_gap; assumption.
  - rewrite <- !app_assoc. cbn [app]. constructor; auto.
    + intros c r' E. destruct r as [|d r].
      * cbn in E. destruct ts as [|k' ts].
        -- apply (L k [] c r'); auto.
        -- exfalso. inversion H as [|g0 k0 s0 ts0 r0 G0 T0 A0 H0 E1 E2]. subst. apply tok_nonempty in T0.
           apply app_eq_nil in E2. destruct E2 as [_ E2]. apply app_eq_nil in E2. destruct E2. congruence.
      * cbn in E. injection E as <- E. exact (A d r eq_refl).
    + apply IH. intros k' l c x' E1 E2. apply (L k' (k :: l) c x'); [|exact E2]. rewrite E1. reflexivity.
Qed.

(** ** [defined] *)
Definition dres (t : mtab) (k : ctok) : ctok :=
  match k with TDefined w => TNum (if is_defined t w then $"1" else $"0") | k => k end.

Lemma rd_other f t prev c r :
  c <> "d"%char -> rewrite_defined (S f) t prev (c :: r) = c :: rewrite_defined f t (Some c) r.
Proof.
  intros N. cbn [rewrite_defined]. destruct (match prev with Some p => is_kwchar p | None => false end); [reflexivity|].
  replace (strip_prefix $"defined" (c :: r)) with (@None str); [reflexivity|].
  cbn [list_ascii_of_string strip_prefix]. destruct (cheq_spec "d"%char c) as [E|]; [congruence|reflexivity].
Qed.
Lemma rd_kw f t p c r :
  is_kwchar p = true -> rewrite_defined (S f) t (Some p) (c :: r) = c :: rewrite_defined f t (Some c) r.
Proof. intros K. cbn [rewrite_defined]. rewrite K. reflexivity. Qed.

Lemma rd_run f t s : forall prev r,
  (forall c, In c s -> c <> "d"%char) -> s <> [] -> length (s ++ r) <= f ->
  exists f', length r <= f' /\
  rewrite_defined f t prev (s ++ r) = s ++ rewrite_defined f' t (Some (last s sp)) r.
Proof.
  revert f. induction s as [|c s IH]; intros f prev r N NE L; [congruence|].
  destruct f as [|f]; [cbn in L; lia|]. cbn [app]. rewrite rd_other by (apply N; left; reflexivity).
  destruct s as [|d s].
  - exists f. cbn in L. split; [lia|reflexivity].
  - destruct (IH f (Some c) r) as (f' & L' & E); [intros x I; apply N; right; exact I|discriminate|cbn in *; lia|].
    exists f'. split; [exact L'|]. rewrite E. reflexivity.
Qed.
Lemma rd_ident_tail f t s : forall p r,
  is_kwchar p = true -> (forall c, In c s -> is_kwchar c = true) -> length (s ++ r) <= f ->
  exists f', length r <= f' /\
  rewrite_defined f t (Some p) (s ++ r) = s ++ rewrite_defined f' t (Some (last s p)) r
  /\ is_kwchar (last s p) = true.
Proof.
  revert f. induction s as [|c s IH]; intros f p r K N L.
  - exists f. auto.
  - destruct f as [|f]; [cbn in L; lia|]. cbn [app]. rewrite rd_kw by exact K.
    destruct (IH f c r) as (f' & L' & E & K'); [apply N; left; reflexivity|intros x I; apply N; right; exact I|cbn in *; lia|].
    exists f'. split; [exact L'|]. rewrite E.
    replace (last (c :: s) p) with (last s c); [auto|].
    destruct s as [|d s]; [reflexivity|]. cbn [last]. clear. revert d. induction s as [|e s IH]; intros d; [reflexivity|].
    cbn [last]. apply IH.
Qed.

(** The character before a token does not make it part of a word. *)
Definition okprev (prev : option ascii) (s : str) : Prop :=
  forall p c s', prev = Some p -> s = c :: s' -> is_kwchar p = true -> is_kwchar c = false.
Definition sub_head (s s' : str) : Prop :=
  match s, s' with [], [] => True | c :: _, c' :: _ => stands_for c c' | _, _ => False end.

Lemma strip_prefix_ident w r :
  ident w -> w <> $"defined" -> head_not is_kwchar r = true ->
  forall a, strip_prefix $"defined" (w ++ r) = Some a -> exists x a', a = x :: a' /\ is_kwchar x = true.
Proof.
  intros I N H a E. apply strip_prefix_iff in E. apply ident_idchars in I. destruct I as [NE F].
  rewrite forallb_forall in F.
  assert (G : forall p : str, (forall c, In c p -> is_kwchar c = true) -> w <> p -> w ++ r = p ++ a ->
              exists x a', a = x :: a' /\ is_kwchar x = true).
  { clear E N NE. revert a r H F. induction w as [|c w IH]; intros a r H F p K N E.
    - destruct p as [|x p]; [congruence|]. cbn in E. subst r. cbn in H.
      rewrite (K x (or_introl eq_refl)) in H. discriminate.
    - destruct p as [|x p].
      + cbn in E. exists c, (w ++ r). split; [congruence|]. apply idchar_kwchar. apply F. left. reflexivity.
      + cbn in E. injection E as <- E. apply (IH a r H) with (p := p); auto.
        * intros y J. apply F. right. exact J.
        * intros y J. apply K. right. exact J.
        * congruence. }
  apply (G $"defined"); auto. intros c J.
  cbn in J. repeat (destruct J as [<-|J]; [reflexivity|]). destruct J.
Qed.

Lemma head_apart k (r : str) (p : ascii -> bool) :
  (forall c r', r = c :: r' -> apart k c) -> (forall c, apart k c -> p c = false) -> head_not p r = true.
Proof. intros A P. destruct r as [|c r]; [reflexivity|]. cbn. rewrite (P c (A c r eq_refl)). reflexivity. Qed.
Lemma apart_word k c : op_tok k = false -> apart k c -> is_word c = false /\ is_kwchar c = false /\ c <> "."%char.
Proof.
  intros O A. assert (X : is_word c = false /\ ~ In c ["."; "$"]%char) by (destruct k; try discriminate; exact A).
  destruct X as [W N]. split; [exact W|]. split.
  - apply word_kwchar; [exact W|]. intros ->. apply N. right. left. reflexivity.
  - intros ->. apply N. left. reflexivity.
Qed.

(** What follows [defined]. *)
Lemma defined_arg_plain g w r :
  ident w -> gap g -> g <> [] -> head_not is_idchar r = true -> defined_arg (g ++ w ++ r) = Some (w, r).
Proof.
  intros I G NE H. unfold defined_arg. unfold pp_name. rewrite drop_while_app_all.
  2:{ apply forallb_forall. intros c J. specialize (G c J). unfold is_blank. destruct G as [->| ->]; reflexivity. }
  pose proof (pp_name_ident [] w r) as P. cbn [app] in P. unfold pp_name in P. rewrite P; auto. intros c [].
Qed.
Lemma defined_arg_paren g g' g'' w r :
  ident w -> blanks g -> blanks g' -> blanks g'' ->
  defined_arg (g ++ "("%char :: g' ++ w ++ g'' ++ ")"%char :: r) = Some (w, r).
Proof.
  intros I G G' G''. unfold defined_arg.
  replace (pp_name (g ++ "("%char :: g' ++ w ++ g'' ++ ")"%char :: r)) with (@None (str * str)).
  2:{ unfold pp_name. rewrite drop_while_app_all by (apply blanks_blank; exact G). reflexivity. }
  rewrite drop_while_app_all by (apply blanks_ppws; exact G).
  cbn [drop_while]. change (is_ppws "(") with false. cbn [open_at]. rewrite cheq_refl.
  rewrite pp_name_ident; auto.
  - rewrite paren_here; auto using close_not_quote.
  - apply blanks_head_not; auto.
Qed.

Lemma rd_defined f t prev a r w :
  (match prev with Some p => is_kwchar p | None => false end) = false ->
  head_not is_kwchar (a ++ r) = true -> defined_arg (a ++ r) = Some (w, r) ->
  rewrite_defined (S f) t prev ($"defined" ++ a ++ r) =
    (if is_defined t w then "1"%char else "0"%char)
    :: rewrite_defined f t (hd_error (rev ($"defined" ++ a))) r.
Proof.
  intros K H D.
  change ($"defined" ++ a ++ r) with ("d"%char :: $"efined" ++ a ++ r).
  cbn [rewrite_defined]. rewrite K.
  change ("d"%char :: $"efined" ++ a ++ r) with ($"defined" ++ a ++ r).
  replace (strip_prefix $"defined" ($"defined" ++ a ++ r)) with (Some (a ++ r))
    by (symmetry; apply strip_prefix_iff; reflexivity).
  replace (match a ++ r with x :: _ => is_kwchar x | [] => false end) with false.
  2:{ destruct (a ++ r) as [|x y]; [reflexivity|]. cbn in H. apply negb_true_iff in H. auto. }
  rewrite D. do 2 f_equal. f_equal. f_equal.
  rewrite app_assoc, app_length. replace (length ($"defined" ++ a) + length r - length r) with (length ($"defined" ++ a)) by lia.
  rewrite firstn_app, firstn_all, Nat.sub_diag. cbn [firstn]. rewrite app_nil_r. reflexivity.
Qed.

Lemma hd_rev_snoc {A} (l : list A) x : hd_error (rev (l ++ [x])) = Some x.
Proof. rewrite rev_app_distr. reflexivity. Qed.

Lemma rewrite_spelled t ts s : spells ts s -> forall f prev,
  length s <= f -> okprev prev s ->
  spells (map (dres t) ts) (rewrite_defined f t prev s) /\ sub_head s (rewrite_defined f t prev s).
Proof.
  induction 1 as [g G|g k s ts r G T A H IH]; intros f prev L O.
  - assert (E : rewrite_defined f t prev g = g).
    { destruct g as [|c g]; [destruct f; reflexivity|].
      destruct (rd_run f t (c :: g) prev []) as (f' & _ & E).
      - intros x I. apply (gap_char x). apply G. exact I.
      - discriminate.
      - rewrite app_nil_r. exact L.
      - rewrite app_nil_r in E. rewrite E. destruct f'; cbn; rewrite app_nil_r; reflexivity. }
    rewrite E. split; [constructor; exact G|]. destruct g; cbn; auto. left. reflexivity.
  - (* the gap *)
    assert (GG : exists f' prev', length (s ++ r) <= f' /\ okprev prev' (s ++ r)
              /\ rewrite_defined f t prev (g ++ s ++ r) = g ++ rewrite_defined f' t prev' (s ++ r)).
    { destruct g as [|c g]; [exists f, prev; auto|].
      destruct (rd_run f t (c :: g) prev (s ++ r)) as (f' & L' & E).
      - intros x I. apply (gap_char x). apply G. exact I.
      - discriminate.
      - exact L.
      - exists f', (Some (last (c :: g) sp)). split; [exact L'|]. split; [|exact E].
        intros p x s' P _ K. assert (PE : p = last (c :: g) sp) by congruence. rewrite PE in K.
        assert (J : In (last (c :: g) sp) (c :: g)).
        { destruct (exists_last (l := c :: g)) as (l & x' & EQ); [discriminate|]. rewrite EQ, last_last.
          apply in_or_app. right. left. reflexivity. }
        destruct (gap_char _ (G _ J)) as (_ & _ & _ & K' & _). rewrite K' in K. discriminate. }
    destruct GG as (f1 & prev1 & L1 & O1 & ->). clear L O f prev.
    cut (exists s' r', rewrite_defined f1 t prev1 (s ++ r) = s' ++ r' /\ tok_text (dres t k) s'
          /\ sub_head s s' /\ s' <> [] /\ spells (map (dres t) ts) r' /\ sub_head r r').
    { intros (s' & r' & -> & T' & SH & NE & S' & SH'). split.
      - cbn [map]. constructor; auto. intros c' x E. subst r'. destruct r as [|c r]; [destruct SH'|].
        assert (A' := A c r eq_refl).
        assert (A2 : apart k c') by (eapply apart_sub; [exact A'|exact SH']).
        destruct k; exact A2.
      - destruct g as [|c g]; [|left; reflexivity]. cbn [app].
        destruct s' as [|c' s']; [congruence|]. destruct s as [|c s]; [destruct SH|]. exact SH. }
    destruct (op_tok k) eqn:OK.
    + destruct (op_text k s OK T) as [NE FO]. rewrite forallb_forall in FO.
      destruct (rd_run f1 t s prev1 r) as (f' & L' & E); auto.
      { intros c I. apply op_char_facts. apply FO. exact I. }
      exists s, (rewrite_defined f' t (Some (last s sp)) r). split; [exact E|].
      assert (DK : dres t k = k) by (destruct k; try discriminate; reflexivity).
      rewrite DK. split; [exact T|]. split; [destruct s; cbn; auto; left; reflexivity|]. split; [exact NE|].
      apply IH; auto. intros p c s' P _ K. injection P as <-.
      assert (J : In (last s sp) s).
      { destruct (exists_last NE) as (l & x' & EQ). rewrite EQ, last_last. apply in_or_app. right. left. reflexivity. }
      pose proof (op_char_facts _ (FO _ J)) as (_ & _ & _ & K' & _). congruence.
    + assert (HR : head_not is_kwchar r = true).
      { apply (head_apart k); auto. intros c X. apply (apart_word k); auto. }
      assert (OKR : forall p, okprev p r).
      { intros p q c s' _ E _. subst r. cbn in HR. apply negb_true_iff in HR. exact HR. }
      assert (HI : head_not is_idchar r = true).
      { destruct r as [|c r]; [reflexivity|]. cbn in *. destruct (is_idchar c) eqn:IC; [|reflexivity].
        rewrite (idchar_kwchar c IC) in HR. discriminate. }
      inversion T; subst; try discriminate.
      * (* number *)
        destruct H0 as [F GD].
        assert (NE : s <> []) by (intros ->; discriminate).
        destruct (rd_run f1 t s prev1 r) as (f' & L' & E); auto.
        { intros c I. rewrite forallb_forall in F. apply digit_facts. apply F. exact I. }
        exists s, (rewrite_defined f' t (Some (last s sp)) r). split; [exact E|]. cbn [dres].
        split; [exact T|]. split; [destruct s; cbn; auto; left; reflexivity|]. split; [exact NE|].
        apply IH; auto.
      * (* identifier *)
        assert (I := H0). pose proof (ident_idchars s H0) as [NE F]. destruct s as [|c s]; [congruence|].
        destruct f1 as [|f1]; [cbn in L1; lia|].
        rewrite forallb_forall in F.
        assert (E1 : rewrite_defined (S f1) t prev1 (c :: s ++ r) = c :: rewrite_defined f1 t (Some c) (s ++ r)).
        { cbn [rewrite_defined].
          destruct (match prev1 with Some p => is_kwchar p | None => false end) eqn:KP; [reflexivity|].
          destruct (strip_prefix $"defined" (c :: s ++ r)) as [a|] eqn:SP; [|reflexivity].
          destruct (strip_prefix_ident (c :: s) r I H1 HR a SP) as (x & a' & -> & KX). rewrite KX. reflexivity. }
        destruct (rd_ident_tail f1 t s c r) as (f' & L' & E & _).
        { apply idchar_kwchar. apply F. left. reflexivity. }
        { intros x J. apply idchar_kwchar. apply F. right. exact J. }
        { cbn in L1. lia. }
        exists (c :: s), (rewrite_defined f' t (Some (last s c)) r).
        split; [cbn [app]; rewrite E1, E; reflexivity|]. cbn [dres]. split; [exact T|].
        split; [left; reflexivity|]. split; [discriminate|]. apply IH; auto.
      * (* defined w *)
        destruct f1 as [|f1]; [cbn in L1; lia|]. rewrite <- !app_assoc.
        assert (KP : (match prev1 with Some p => is_kwchar p | None => false end) = false).
        { destruct prev1 as [p|]; [|reflexivity]. destruct (is_kwchar p) eqn:KP; [|reflexivity].
          assert (X := O1 p "d"%char _ eq_refl eq_refl KP). discriminate. }
        pose proof (rd_defined f1 t prev1 (g0 ++ w) r w) as E. rewrite <- !app_assoc in E. rewrite E; auto.
        2:{ destruct g0 as [|c g0]; [congruence|]. cbn. destruct (gap_char c (H1 c (or_introl eq_refl))) as (_ & _ & _ & K & _).
            rewrite K. reflexivity. }
        2:{ apply defined_arg_plain; auto. }
        exists [if is_defined t w then "1"%char else "0"%char], (rewrite_defined f1 t (hd_error (rev ($"defined" ++ g0 ++ w))) r).
        split; [reflexivity|]. cbn [dres].
        split; [destruct (is_defined t w); constructor; split; reflexivity|].
        split; [right; split; [reflexivity|]; left; destruct (is_defined t w); reflexivity|]. split; [discriminate|].
        apply IH; auto. cbn in L1. rewrite !app_length in L1. lia.
      * (* defined (w) *)
        destruct f1 as [|f1]; [cbn in L1; lia|].
        assert (KP : (match prev1 with Some p => is_kwchar p | None => false end) = false).
        { destruct prev1 as [p|]; [|reflexivity]. destruct (is_kwchar p) eqn:KP; [|reflexivity].
          assert (X := O1 p "d"%char _ eq_refl eq_refl KP). discriminate. }
        set (a := g0 ++ "("%char :: g' ++ w ++ g'' ++ [")"%char]) in *.
        rewrite <- app_assoc.
        rewrite (rd_defined f1 t prev1 a r w); auto.
        2:{ unfold a. destruct g0 as [|c g0]; [reflexivity|]. cbn. rewrite (H1 c (or_introl eq_refl)). reflexivity. }
        2:{ unfold a. rewrite <- app_assoc. cbn [app]. rewrite <- !app_assoc. cbn [app]. apply defined_arg_paren; auto. }
        exists [if is_defined t w then "1"%char else "0"%char], (rewrite_defined f1 t (hd_error (rev ($"defined" ++ a))) r).
        split; [reflexivity|]. cbn [dres].
        split; [destruct (is_defined t w); constructor; split; reflexivity|].
        split; [right; split; [reflexivity|]; left; destruct (is_defined t w); reflexivity|]. split; [discriminate|].
        apply IH; auto. cbn in L1. rewrite !app_length in L1. lia.
Qed.

(** ** Expansion *)
Definition mres (t : mtab) (m : str -> cx) (k : ctok) : list ctok :=
  match k with
  | TId w => match dget (macros t) w with Some _ => toks (m w) | None => [k] end
  | k => [k]
  end.
Definition tok_readable (t : mtab) (m : str -> cx) (k : ctok) : Prop :=
  match k with
  | TId w =>
      dget (fnmacros t) w = None
      /\ forall v, dget (macros t) w = Some v -> closed (m w) /\ spells (toks (m w)) v /\ strip v = v
  | TDefined _ => False
  | _ => True
  end.

Lemma toks_nonempty e : toks e <> [].
Proof.
  destruct e; cbn; try discriminate; intros E; apply app_eq_nil in E; destruct E; discriminate.
Qed.

Lemma spelled_head k ts v : spells (k :: ts) v -> strip v = v ->
  exists s r, v = s ++ r /\ tok_text k s.
Proof.
  intros S ST. inversion S as [|g k0 s ts0 r G T A H E1 E2]. subst. exists s, r. split; [|exact T].
  assert (NE := tok_nonempty k s T).
  assert (HS : head_not is_space (g ++ s ++ r) = true).
  { rewrite <- ST. unfold strip. apply rstrip_head. apply head_not_lstrip. }
  destruct g as [|c g]; [reflexivity|]. cbn in HS. destruct (gap_char c (G c (or_introl eq_refl))) as (_ & W & _).
  rewrite W in HS. discriminate.
Qed.
Lemma closed_head e v : closed e -> spells (toks e) v -> strip v = v ->
  exists c v', v = c :: v' /\ (is_digit c = true \/ c = "("%char).
Proof.
  intros C S ST. destruct e; try contradiction; cbn [toks] in S.
  - destruct (spelled_head _ _ _ S ST) as (s & r & -> & T). inversion T; subst. destruct H0 as [F GD].
    destruct s as [|c s]; [discriminate|]. exists c, (s ++ r). split; [reflexivity|]. left.
    cbn in F. apply andb_true_iff in F. tauto.
  - destruct (spelled_head _ _ _ S ST) as (s & r & -> & T). inversion T; subst. eexists _, r. split; [reflexivity|]. auto.
Qed.
Lemma closed_last e k l c : closed e -> toks e = l ++ [k] -> is_word c = false -> ~ In c ["."; "$"]%char -> apart k c.
Proof.
  intros C E W N. destruct e; try contradiction; cbn [toks] in E.
  - change [TNum d] with ([] ++ [TNum d]) in E. apply app_inj_tail in E. destruct E as [_ <-]. split; assumption.
  - change (TOpen :: toks e ++ [TClose]) with ((TOpen :: toks e) ++ [TClose]) in E.
    apply app_inj_tail in E. destruct E as [_ <-]. exact I.
Qed.

Section Text.
  Context (fo : str -> list str -> option str).

  Lemma xm_run t s r : (forall c, In c s -> is_word c = false /\ c <> dquote) -> xm fo t (s ++ r) = s ++ xm fo t r.
  Proof.
    induction s as [|c s IH]; intros H; [reflexivity|]. cbn [app]. destruct (H c (or_introl eq_refl)) as [W D].
    rewrite xm_gap; [|exact W|left; exact D]. rewrite IH; [reflexivity|]. intros x I. apply H. right. exact I.
  Qed.

  Lemma expand_spelled t m ts s : names_ident t -> spells ts s ->
    (forall k, In k ts -> tok_readable t m k) ->
    spells (flat_map (mres t m) ts) (xm fo t s) /\ sub_head s (xm fo t s).
  Proof.
    intros NI. induction 1 as [g G|g k s ts r G T A H IH]; intros R.
    - assert (E : xm fo t g = g).
      { rewrite <- (app_nil_r g) at 1. rewrite xm_run, xm_nil, app_nil_r; [reflexivity|].
        intros c I. destruct (gap_char c (G c I)) as (W & _ & D & _). auto. }
      rewrite E. split; [constructor; exact G|]. destruct g; cbn; auto. left. reflexivity.
    - rewrite xm_run by (intros c I; destruct (gap_char c (G c I)) as (W & _ & D & _); auto).
      destruct IH as [IS IH]; [intros k' I; apply R; right; exact I|].
      cut (exists s', xm fo t (s ++ r) = s' ++ xm fo t r /\ sub_head s s' /\ s' <> []
             /\ spells (mres t m k) s'
             /\ forall k' l c x', mres t m k = l ++ [k'] -> xm fo t r = c :: x' -> apart k' c).
      { intros (s' & -> & SH & NE & S' & AP). split.
        - cbn [flat_map]. apply spells_gap; [exact G|]. apply spells_app; auto.
        - destruct g as [|c g]; [|left; reflexivity]. cbn [app]. destruct s' as [|c' s']; [congruence|].
          destruct s as [|c s]; [destruct SH|]. exact SH. }
      assert (AX : forall c x', xm fo t r = c :: x' -> apart k c).
      { intros c x' E. rewrite E in IH. destruct r as [|d r]; [destruct IH|].
        eapply apart_sub; [exact (A d r eq_refl)|exact IH]. }
      assert (SELF : mres t m k = [k] -> xm fo t (s ++ r) = s ++ xm fo t r ->
         exists s', xm fo t (s ++ r) = s' ++ xm fo t r /\ sub_head s s' /\ s' <> []
             /\ spells (mres t m k) s'
             /\ forall k' l c x', mres t m k = l ++ [k'] -> xm fo t r = c :: x' -> apart k' c).
      { intros M E. exists s. split; [exact E|]. split; [destruct s; cbn; auto; left; reflexivity|].
        split; [apply (tok_nonempty k s T)|]. rewrite M. split.
        - rewrite <- (app_nil_r s). rewrite <- (app_nil_l (s ++ [])).
          constructor; [intros c []|exact T|discriminate|constructor; intros c []].
        - intros k' l c x' E1 E2. change [k] with ([] ++ [k]) in E1. apply app_inj_tail in E1. destruct E1 as [_ <-].
          eapply AX; eauto. }
      assert (Rk := R k (or_introl eq_refl)).
      destruct (op_tok k) eqn:OK.
      + destruct (op_text k s OK T) as [NE FO]. rewrite forallb_forall in FO.
        apply SELF; [destruct k; try discriminate; reflexivity|]. apply xm_run. intros c I.
        pose proof (op_char_facts c (FO c I)) as (W & _ & D & _). auto.
      + assert (HW : head_not is_word r = true).
        { apply (head_apart k); auto. intros c X. apply (apart_word k); auto. }
        inversion T; subst; try discriminate; try contradiction.
        * destruct H0 as [F GD].
          assert (WD : word s).
          { split; [intros ->; discriminate|]. intros c I. rewrite forallb_forall in F. apply digit_facts. auto. }
          assert (NID : ~ ident s).
          { intros I. destruct s as [|c s]; [destruct I|]. destruct I as [I _]. cbn in F. apply andb_true_iff in F.
            destruct F as [F _]. destruct (digit_facts c F) as (_ & _ & _ & X & _). congruence. }
          assert (N1 : dget (macros t) s = None).
          { destruct (dget (macros t) s) eqn:D; [|reflexivity]. exfalso. apply NID. apply NI. left. unfold dmem. rewrite D. reflexivity. }
          assert (N2 : dget (fnmacros t) s = None).
          { destruct (dget (fnmacros t) s) eqn:D; [|reflexivity]. exfalso. apply NID. apply NI. right. unfold dmem. rewrite D. reflexivity. }
          apply SELF; [reflexivity|]. rewrite xm_word by assumption. rewrite N1, N2. reflexivity.
        * destruct Rk as [N2 V].
          destruct (dget (macros t) s) as [v|] eqn:D.
          -- destruct (V v eq_refl) as (C & S & ST).
             exists v. split; [rewrite xm_word by (auto using ident_word); rewrite D; reflexivity|].
             destruct (closed_head _ _ C S ST) as (c & v' & -> & CH).
             split. { destruct s as [|x s]; [destruct H0|]. right. split; [apply H0|exact CH]. }
             split; [discriminate|]. cbn [mres]. rewrite D. split; [exact S|].
             intros k' l c' x' E1 E2. specialize (AX c' x' E2). destruct AX as [AX1 AX2].
             eapply closed_last; eauto.
          -- apply SELF; [cbn [mres]; rewrite D; reflexivity|].
             rewrite xm_word by (auto using ident_word). rewrite D, N2. reflexivity.
  Qed.
End Text.

(** ** Translation *)
Lemma tl_char f c r :
  cheq c "!" = false -> is_idstart c = false ->
  (c = "&"%char \/ c = "|"%char -> forall r', r <> c :: r') ->
  translate (S f) (c :: r) = c :: translate f r.
Proof.
  intros N I D. cbn [translate]. rewrite N, I.
  assert (A1 : strip_prefix $"&&" (c :: r) = None).
  { cbn [list_ascii_of_string strip_prefix]. destruct (cheq_spec "&"%char c) as [<-|]; [|reflexivity].
    destruct r as [|d r]; [reflexivity|]. destruct (cheq_spec "&"%char d) as [<-|]; [|reflexivity].
    exfalso. exact (D (or_introl eq_refl) r eq_refl). }
  assert (A2 : strip_prefix $"||" (c :: r) = None).
  { cbn [list_ascii_of_string strip_prefix]. destruct (cheq_spec "|"%char c) as [<-|]; [|reflexivity].
    destruct r as [|d r]; [reflexivity|]. destruct (cheq_spec "|"%char d) as [<-|]; [|reflexivity].
    exfalso. exact (D (or_intror eq_refl) r eq_refl). }
  rewrite A1, A2. reflexivity.
Qed.
Lemma tl_run s : forall f r,
  (forall c, In c s -> cheq c "!" = false /\ is_idstart c = false /\ c <> "&"%char /\ c <> "|"%char) ->
  length (s ++ r) <= f -> exists f', length r <= f' /\ translate f (s ++ r) = s ++ translate f' r.
Proof.
  induction s as [|c s IH]; intros f r H L; [exists f; auto|].
  destruct f as [|f]; [cbn in L; lia|]. destruct (H c (or_introl eq_refl)) as (H1 & H2 & H3 & H4).
  cbn [app]. rewrite tl_char by (auto; intros [E|E]; congruence).
  destruct (IH f r) as (f' & L' & E); [intros x I; apply H; right; exact I|cbn in L; lia|].
  exists f'. split; [exact L'|]. rewrite E. reflexivity.
Qed.
Definition tl_sub (c c' : ascii) : Prop := c' = c \/ c' = sp \/ (is_idstart c = true /\ c' = "0"%char).
Lemma tl_head f c r : exists c' x, translate (S f) (c :: r) = c' :: x /\ tl_sub c c'.
Proof.
  cbn [translate]. destruct (cheq c "!"); [eexists _, _; split; [reflexivity|]; right; left; reflexivity|].
  destruct (strip_prefix $"&&" (c :: r)); [eexists _, _; split; [reflexivity|]; right; left; reflexivity|].
  destruct (strip_prefix $"||" (c :: r)); [eexists _, _; split; [reflexivity|]; right; left; reflexivity|].
  destruct (is_idstart c) eqn:I; eexists _, _; (split; [reflexivity|]); [right; right|left]; auto.
Qed.
Lemma tl_chars : forall f s c, In c (translate f s) -> In c s \/ In c $" not and or 0".
Proof.
  induction f as [|f IH]; intros s c I; [left; exact I|]. destruct s as [|d r]; [destruct I|]. cbn [translate] in I.
  assert (STEP : forall p r', In c ($p ++ translate f r') -> (forall x, In x $p -> In x $" not and or 0") ->
                 (forall x, In x r' -> In x (d :: r)) -> In c (d :: r) \/ In c $" not and or 0").
  { intros p r' J P S. apply in_app_or in J. destruct J as [J|J]; [right; apply P; exact J|].
    apply IH in J. destruct J as [J|J]; [left; apply S; exact J|right; exact J]. }
  destruct (cheq d "!").
  { apply (STEP " not "%string r I); [|intros x J; right; exact J].
    intros x J. cbn in J. repeat (destruct J as [<-|J]; [cbn; tauto|]). destruct J. }
  destruct (strip_prefix $"&&" (d :: r)) as [r'|] eqn:E1.
  { apply strip_prefix_iff in E1. rewrite E1. rewrite E1 in STEP. apply (STEP " and "%string r' I).
    - intros x J. cbn in J. repeat (destruct J as [<-|J]; [cbn; tauto|]). destruct J.
    - intros x J. apply in_or_app. right. exact J. }
  destruct (strip_prefix $"||" (d :: r)) as [r'|] eqn:E2.
  { apply strip_prefix_iff in E2. rewrite E2. rewrite E2 in STEP. apply (STEP " or "%string r' I).
    - intros x J. cbn in J. repeat (destruct J as [<-|J]; [cbn; tauto|]). destruct J.
    - intros x J. apply in_or_app. right. exact J. }
  destruct (is_idstart d).
  - apply (STEP "0"%string _ I).
    + intros x J. cbn in J. repeat (destruct J as [<-|J]; [cbn; tauto|]). destruct J.
    + intros x J. right. pose proof (span_app is_idchar r) as SP. destruct (span is_idchar r) as [a b]. cbn in J.
      rewrite SP. apply in_or_app. right. exact J.
  - destruct I as [<-|I]; [left; left; reflexivity|]. apply IH in I. destruct I as [I|I]; [left; right; exact I|right; exact I].
Qed.

(** ** Tokens *)
Lemma lex_gap g : forall f x, gap g -> length (g ++ x) < f -> exists f', length x < f' /\ py_lex f (g ++ x) = py_lex f' x.
Proof.
  induction g as [|c g IH]; intros f x G L; [exists f; auto|].
  destruct f as [|f]; [lia|]. cbn [app py_lex].
  assert (E : cheq c sp || cheq c PyStr.tab = true) by (destruct (G c (or_introl eq_refl)) as [->| ->]; reflexivity).
  rewrite E. apply IH; [intros y I; apply G; right; exact I|cbn in L; lia].
Qed.
Lemma lex_num f d x : number d -> head_not (fun c => is_word c || cheq c ".") x = true -> length (d ++ x) < f ->
  exists f', length x < f' /\ py_lex f (d ++ x) = option_map (cons (KNum d)) (py_lex f' x).
Proof.
  intros [F GD] H L. destruct d as [|c d]; [discriminate|]. destruct f as [|f]; [lia|]. exists f.
  split; [cbn in L; rewrite app_length in L; lia|].
  cbn [app py_lex]. assert (DC : is_digit c = true) by (cbn in F; apply andb_true_iff in F; tauto).
  destruct (digit_facts c DC) as (_ & _ & _ & _ & _ & _ & B1 & B2). rewrite B1, B2, DC. cbn [orb].
  change (c :: d ++ x) with ((c :: d) ++ x).
  rewrite span_run; [|exact F|].
  - destruct x as [|y x]; [rewrite GD; reflexivity|]. cbn in H. apply negb_true_iff in H. rewrite H, GD. reflexivity.
  - destruct x as [|y x]; [reflexivity|]. cbn in *. destruct (is_digit y) eqn:DY; [|reflexivity].
    destruct (digit_facts y DY) as (W & _). rewrite W in H. discriminate.
Qed.
Lemma lex_word f w k x :
  In (w, k) [($"not", KNot); ($"and", KAnd); ($"or", KOr)] -> length (w ++ sp :: x) < f ->
  exists f', length x < f' /\ py_lex f (w ++ sp :: x) = option_map (cons k) (py_lex f' x).
Proof.
  intros I L. destruct f as [|f]; [lia|].
  assert (E : py_lex (S f) (w ++ sp :: x) = option_map (cons k) (py_lex f (sp :: x))).
  { destruct I as [E|[E|[E|[]]]]; injection E as <- <-; reflexivity. }
  rewrite E. destruct f as [|f].
  { exfalso. destruct I as [X|[X|[X|[]]]]; injection X as <- <-; cbn in L; lia. }
  exists f. split; [|reflexivity].
  destruct I as [X|[X|[X|[]]]]; injection X as <- <-; cbn in L; lia.
Qed.
Lemma lex_op f s k x :
  s <> [] -> forallb op_char s = true -> operator operators (s ++ x) = Some (k, x) -> length (s ++ x) < f ->
  exists f', length x < f' /\ py_lex f (s ++ x) = option_map (cons k) (py_lex f' x).
Proof.
  intros NE F O L. destruct s as [|c s]; [congruence|]. destruct f as [|f]; [lia|]. exists f.
  split; [cbn in L; rewrite app_length in L; lia|].
  cbn [app py_lex]. cbn in F. apply andb_true_iff in F. destruct F as [F _].
  destruct (op_char_facts c F) as (W & _ & _ & _ & D & _ & _ & B1 & B2). rewrite B1, B2, D, W. cbn [orb].
  change (c :: s ++ x) with ((c :: s) ++ x). rewrite O. reflexivity.
Qed.

(** An operator followed by a character that does not extend it. *)
Definition free_next (s : str) (c : ascii) : bool :=
  negb (existsb (fun x => cheq c x) ["="; "<"; ">"; "&"; "|"; "*"; "/"]%char)
  && negb (eqb s [c]).
Definition free_next2 (c : ascii) : bool := negb (existsb (fun x => cheq c x) ["="; "<"; ">"]%char).
Lemma op_bin o x : o <> OFloor -> o <> ODiv \/ True ->
  (forall c x', x = c :: x' -> free_next (bop_text o) c = true) ->
  operator operators (bop_text o ++ x) = Some (KBin o, x).
Proof.
  intros NF _ H. destruct x as [|c x]; [destruct o; try reflexivity; congruence|].
  specialize (H c x eq_refl). destruct o; try congruence;
    ascii_cases c; try reflexivity; exfalso; cbv in H; discriminate.
Qed.
Lemma op_rel o x : o <> CNe ->
  (forall c x', x = c :: x' -> free_next2 c = true) ->
  operator operators (cop_text o ++ x) = Some (KCmp o, x).
Proof.
  intros NF H. destruct x as [|c x]; [destruct o; try reflexivity; congruence|].
  specialize (H c x eq_refl). destruct o; try congruence;
    ascii_cases c; try reflexivity; exfalso; cbv in H; discriminate.
Qed.

Lemma apart_free_bin o c c' : apart (TBin o) c -> tl_sub c c' -> free_next (bop_text o) c' = true.
Proof.
  intros [N B] [->|[->|[I ->]]].
  - unfold free_next. apply andb_true_iff. split.
    + apply negb_true_iff. destruct (existsb _ _) eqn:X; [|reflexivity]. exfalso. apply N.
      apply existsb_exists in X. destruct X as (y & J & E). apply cheq_true in E. subst y. exact J.
    + apply negb_true_iff. destruct (eqb (bop_text o) [c]) eqn:X; [|reflexivity]. apply eqb_eq in X. congruence.
  - destruct o; reflexivity.
  - destruct o; reflexivity.
Qed.
Lemma apart_free_rel o c c' : apart (TRel o) c -> tl_sub c c' -> free_next2 c' = true.
Proof.
  intros N [->|[->|[I ->]]]; try reflexivity.
  unfold free_next2. apply negb_true_iff. destruct (existsb _ _) eqn:X; [|reflexivity]. exfalso. apply N.
  apply existsb_exists in X. destruct X as (y & J & E). apply cheq_true in E. subst y. exact J.
Qed.

Definition readable_tok (k : ctok) : Prop :=
  match k with TDefined _ | TRel CNe => False | _ => True end.

Lemma digit_tl c : is_digit c = true -> cheq c "!" = false /\ is_idstart c = false /\ c <> "&"%char /\ c <> "|"%char.
Proof. ascii_cases c; cbv; intros H; try discriminate; repeat split; discriminate. Qed.

Lemma lex_spelled ts s : spells ts s -> (forall k, In k ts -> readable_tok k) ->
  forall f g, length s <= f -> length (translate f s) < g -> py_lex g (translate f s) = Some (map ptk ts).
Proof.
  induction 1 as [gp G|gp k s ts r G T A H IH]; intros R f g LF LG.
  - destruct (tl_run gp f []) as (f' & _ & E).
    { intros c I. destruct (G c I) as [->| ->]; repeat split; try reflexivity; discriminate. }
    { rewrite app_nil_r. exact LF. }
    assert (TN : translate f' [] = []) by (destruct f'; reflexivity).
    rewrite app_nil_r, TN, app_nil_r in E. rewrite E in *.
    destruct (lex_gap gp g [] G) as (g' & L' & E2); [rewrite app_nil_r; exact LG|]. rewrite app_nil_r in E2. rewrite E2.
    destruct g'; [cbn in L'; lia|reflexivity].
  - destruct (tl_run gp f (s ++ r)) as (f1 & LF1 & E).
    { intros c I. destruct (G c I) as [->| ->]; repeat split; try reflexivity; discriminate. }
    { exact LF. }
    rewrite E in *. clear E LF.
    destruct (lex_gap gp g _ G LG) as (g1 & LG1 & E). rewrite E. clear E LG g.
    assert (IH' := IH (fun k' I => R k' (or_intror I))). clear IH.
    assert (NEXT : forall f2 g2, length r <= f2 -> length (translate f2 r) < g2 ->
              option_map (cons (ptk k)) (py_lex g2 (translate f2 r)) = Some (map ptk (k :: ts))).
    { intros f2 g2 L1 L2. rewrite (IH' f2 g2 L1 L2). reflexivity. }
    assert (HEAD : forall f2 c' x', length r <= f2 -> translate f2 r = c' :: x' -> exists c, apart k c /\ tl_sub c c').
    { intros f2 c' x' L E. destruct r as [|c r]; [destruct f2; discriminate|]. destruct f2 as [|f2]; [cbn in L; lia|].
      destruct (tl_head f2 c r) as (c2 & x2 & E2 & S2). rewrite E2 in E. injection E as <- _.
      exists c. split; [apply (A c r eq_refl)|exact S2]. }
    assert (Rk := R k (or_introl eq_refl)).
    assert (WHEAD : op_tok k = false -> forall f2, length r <= f2 ->
                    head_not (fun c => is_word c || cheq c ".") (translate f2 r) = true).
    { intros O f2 L. destruct (translate f2 r) as [|c' x'] eqn:E; [reflexivity|].
      destruct (HEAD f2 c' x' L E) as (c & AP & S). apply (apart_word k) in AP; [|exact O]. destruct AP as (W & _ & D).
      cbn. destruct S as [->|[->|[I ->]]].
      - rewrite W. destruct (cheq_spec c "."); [congruence|reflexivity].
      - reflexivity.
      - destruct (idstart_facts c I) as (W' & _). congruence. }
    inversion T as [d N|w I N|gg w I GG NE|gg g' g'' w I GG G' G''| | | | | | |o NO|o]; subst; try contradiction.
    + (* number *)
      destruct (tl_run s f1 r) as (f2 & L2 & E).
      { intros c I. destruct N as [F _]. rewrite forallb_forall in F. apply digit_tl. auto. }
      { exact LF1. }
      rewrite E in *. destruct (lex_num g1 s (translate f2 r) N) as (g2 & LG2 & E2); auto.
      rewrite E2. apply NEXT; auto.
    + (* identifier *)
      assert (E : translate f1 (s ++ r) = "0"%char :: translate (Nat.pred f1) r).
      { assert (I' := I). destruct s as [|c s]; [destruct I|]. destruct f1 as [|f1]; [cbn in LF1; lia|].
        cbn [app translate Nat.pred]. destruct I as [IS IC]. destruct (idstart_facts c IS) as (_ & _ & _ & _ & OC & _).
        replace (cheq c "!") with false by (symmetry; destruct (cheq_spec c "!"); [subst; discriminate|reflexivity]).
        replace (strip_prefix $"&&" (c :: s ++ r)) with (@None str).
        2:{ cbn [list_ascii_of_string strip_prefix]. destruct (cheq_spec "&"%char c) as [<-|]; [discriminate|reflexivity]. }
        replace (strip_prefix $"||" (c :: s ++ r)) with (@None str).
        2:{ cbn [list_ascii_of_string strip_prefix]. destruct (cheq_spec "|"%char c) as [<-|]; [discriminate|reflexivity]. }
        rewrite IS. rewrite span_run; [reflexivity| |].
        - apply forallb_forall. exact IC.
        - apply (head_apart (TId (c :: s))); auto. intros x AP. apply (apart_word (TId (c :: s))) in AP; [|reflexivity].
          destruct AP as (_ & K & _). destruct (is_idchar x) eqn:IX; [|reflexivity]. rewrite (idchar_kwchar x IX) in K. discriminate. }
      assert (LP : length r <= Nat.pred f1).
      { destruct s as [|c s]; [destruct I|]. cbn in LF1. rewrite app_length in LF1. lia. }
      rewrite E in *. destruct (lex_num g1 $"0" (translate (Nat.pred f1) r)) as (g2 & LG2 & E2); auto.
      { split; reflexivity. }
      change ("0"%char :: translate (Nat.pred f1) r) with ($"0" ++ translate (Nat.pred f1) r).
      rewrite E2. apply NEXT; auto.
    + (* ! *)
      destruct f1 as [|f1]; [cbn in LF1; lia|].
      change (translate (S f1) ($"!" ++ r)) with ($" not " ++ translate f1 r) in *.
      destruct g1 as [|g1]; [lia|].
      change (py_lex (S g1) ($" not " ++ translate f1 r)) with (py_lex g1 ($"not" ++ sp :: translate f1 r)).
      destruct (lex_word g1 $"not" KNot (translate f1 r)) as (g2 & L2 & ->); [cbn; auto|cbn in *; lia|].
      apply NEXT; [cbn in LF1; lia|exact L2].
    + (* && *)
      destruct f1 as [|f1]; [cbn in LF1; lia|].
      change (translate (S f1) ($"&&" ++ r)) with ($" and " ++ translate f1 r) in *.
      destruct g1 as [|g1]; [lia|].
      change (py_lex (S g1) ($" and " ++ translate f1 r)) with (py_lex g1 ($"and" ++ sp :: translate f1 r)).
      destruct (lex_word g1 $"and" KAnd (translate f1 r)) as (g2 & L2 & ->); [cbn; auto|cbn in *; lia|].
      apply NEXT; [cbn in LF1; lia|exact L2].
    + (* || *)
      destruct f1 as [|f1]; [cbn in LF1; lia|].
      change (translate (S f1) ($"||" ++ r)) with ($" or " ++ translate f1 r) in *.
      destruct g1 as [|g1]; [lia|].
      change (py_lex (S g1) ($" or " ++ translate f1 r)) with (py_lex g1 ($"or" ++ sp :: translate f1 r)).
      destruct (lex_word g1 $"or" KOr (translate f1 r)) as (g2 & L2 & ->); [cbn; auto|cbn in *; lia|].
      apply NEXT; [cbn in LF1; lia|exact L2].
    + (* ~ *)
      destruct (tl_run $"~" f1 r) as (f2 & L2 & E); [|exact LF1|].
      { intros c [<-|[]]; repeat split; try reflexivity; discriminate. }
      rewrite E in *. destruct (lex_op g1 $"~" KTilde (translate f2 r)) as (g2 & LG2 & E2); auto; [discriminate|].
      rewrite E2. apply NEXT; auto.
    + (* ( *)
      destruct (tl_run $"(" f1 r) as (f2 & L2 & E); [|exact LF1|].
      { intros c [<-|[]]; repeat split; try reflexivity; discriminate. }
      rewrite E in *. destruct (lex_op g1 $"(" KOpen (translate f2 r)) as (g2 & LG2 & E2); auto; [discriminate|].
      rewrite E2. apply NEXT; auto.
    + (* ) *)
      destruct (tl_run $")" f1 r) as (f2 & L2 & E); [|exact LF1|].
      { intros c [<-|[]]; repeat split; try reflexivity; discriminate. }
      rewrite E in *. destruct (lex_op g1 $")" KClose (translate f2 r)) as (g2 & LG2 & E2); auto; [discriminate|].
      rewrite E2. apply NEXT; auto.
    + (* binary operators *)
      assert (X : exists f2, length r <= f2 /\ translate f1 (bop_text o ++ r) = bop_text o ++ translate f2 r).
      { destruct o; try (apply tl_run; [|exact LF1]; intros c I; cbn in I;
          repeat (destruct I as [<-|I]; [repeat split; try reflexivity; discriminate|]); solve [destruct I]).
        - destruct f1 as [|f1]; [cbn in LF1; lia|]. exists f1. split; [cbn in LF1; lia|].
          apply tl_char; auto. intros _ r' ->. destruct (A "|"%char r' eq_refl) as [A1 _]. apply A1. cbn. tauto.
        - destruct f1 as [|f1]; [cbn in LF1; lia|]. exists f1. split; [cbn in LF1; lia|].
          apply tl_char; auto. intros _ r' ->. destruct (A "&"%char r' eq_refl) as [A1 _]. apply A1. cbn. tauto. }
      destruct X as (f2 & L2 & E). rewrite E in *.
      destruct (op_text (TBin o) (bop_text o) eq_refl T) as [NE FO].
      destruct (lex_op g1 (bop_text o) (KBin o) (translate f2 r)) as (g2 & LG2 & E2); auto.
      { apply op_bin; auto. intros c' x' EX. destruct (HEAD f2 c' x' L2 EX) as (c & AP & S). eapply apart_free_bin; eauto. }
      rewrite E2. apply NEXT; auto.
    + (* comparisons *)
      assert (NO : o <> CNe) by (intros ->; exact Rk).
      destruct (tl_run (cop_text o) f1 r) as (f2 & L2 & E); [|exact LF1|].
      { intros c I. destruct o; try congruence; cbn in I;
          repeat (destruct I as [<-|I]; [repeat split; try reflexivity; discriminate|]); destruct I. }
      rewrite E in *.
      destruct (op_text (TRel o) (cop_text o) eq_refl T) as [NE FO].
      destruct (lex_op g1 (cop_text o) (KCmp o) (translate f2 r)) as (g2 & LG2 & E2); auto.
      { apply op_rel; auto. intros c' x' EX. destruct (HEAD f2 c' x' L2 EX) as (c & AP & S). eapply apart_free_rel; eauto. }
      rewrite E2. apply NEXT; auto.
Qed.

(** ** Stripping *)
Lemma strip_prefix_trail o b : forall x : str, (forall c, In c o -> ~ (c = sp \/ c = PyStr.tab)) -> gap b ->
  strip_prefix o (x ++ b) = option_map (fun r => r ++ b) (strip_prefix o x).
Proof.
  induction o as [|c o IH]; intros x N G; [destruct x; reflexivity|].
  destruct x as [|d x].
  - cbn [app option_map]. destruct b as [|d b]; [reflexivity|]. cbn [strip_prefix].
    destruct (cheq_spec c d) as [->|]; [|reflexivity]. exfalso. apply (N d (or_introl eq_refl)). apply G. left. reflexivity.
  - cbn [app strip_prefix]. destruct (cheq c d); [|reflexivity]. apply IH; auto. intros y I. apply N. right. exact I.
Qed.
Lemma operator_trail b : gap b -> forall x ops,
  (forall o k, In (o, k) ops -> forall c, In c o -> ~ (c = sp \/ c = PyStr.tab)) ->
  operator ops (x ++ b) = option_map (fun p => (fst p, snd p ++ b)) (operator ops x).
Proof.
  intros G x. induction ops as [|[o k] ops IH]; intros N; [reflexivity|].
  cbn [operator]. rewrite strip_prefix_trail; [|apply (N o k); left; reflexivity|exact G].
  destruct (strip_prefix o x) as [r|]; cbn [option_map]; [destruct k; reflexivity|].
  apply IH. intros o' k' I. apply (N o' k'). right. exact I.
Qed.
Lemma operators_dense o k : In (o, k) operators -> forall c, In c o -> ~ (c = sp \/ c = PyStr.tab).
Proof.
  intros I. unfold operators in I.
  repeat (destruct I as [I|I]; [injection I as <- _; intros c J;
    repeat (destruct J as [<-|J]; [intros [X|X]; discriminate|]); destruct J|]).
  destruct I.
Qed.
Lemma span_trail p b : forall x, (forall c, In c b -> p c = false) ->
  span p (x ++ b) = (fst (span p x), snd (span p x) ++ b).
Proof.
  induction x as [|c x IH]; intros H.
  - cbn [app span fst snd]. destruct b as [|c b]; [reflexivity|]. cbn [span]. rewrite (H c (or_introl eq_refl)). reflexivity.
  - cbn [app span]. destruct (p c); [|reflexivity]. rewrite IH by exact H. destruct (span p x). reflexivity.
Qed.

Lemma lex_trail b : gap b -> forall f x, length (x ++ b) < f -> py_lex f (x ++ b) = py_lex f x.
Proof.
  intros G. induction f as [|f IH]; intros x L; [reflexivity|].
  destruct x as [|c x].
  - cbn [app]. destruct (lex_gap b (S f) [] G) as (f' & L' & E); [rewrite app_nil_r; exact L|].
    rewrite app_nil_r in E. rewrite E. destruct f'; [lia|]. reflexivity.
  - cbn [app py_lex]. cbn [app length] in L.
    destruct (cheq c sp || cheq c PyStr.tab); [apply IH; lia|].
    assert (BD : forall d, In d b -> is_digit d = false) by (intros d I; apply (gap_char d); auto).
    assert (BW : forall d, In d b -> is_word d = false) by (intros d I; apply (gap_char d); auto).
    destruct (is_digit c) eqn:DC.
    + change (c :: x ++ b) with ((c :: x) ++ b). rewrite span_trail by exact BD.
      pose proof (span_app is_digit (c :: x)) as SP. destruct (span is_digit (c :: x)) as [d r] eqn:E. cbn [fst snd].
      assert (LR : length (r ++ b) < f).
      { destruct d as [|y d]; [cbn [span] in E; rewrite DC in E; destruct (span is_digit x); discriminate|].
        apply (f_equal (@length _)) in SP. cbn [app length] in SP. rewrite app_length in SP, L. rewrite app_length. lia. }
      destruct r as [|y r].
      * cbn [app]. destruct b as [|y b]; [reflexivity|].
        assert (Y : is_word y || cheq y "." = false).
        { destruct (G y (or_introl eq_refl)) as [->| ->]; reflexivity. }
        rewrite Y. destruct (good_digits d); [|reflexivity]. f_equal. apply (IH []). exact LR.
      * cbn [app]. destruct (is_word y || cheq y "."); [reflexivity|]. destruct (good_digits d); [|reflexivity].
        f_equal. apply (IH (y :: r)). exact LR.
    + destruct (is_word c) eqn:WC.
      * change (c :: x ++ b) with ((c :: x) ++ b). rewrite span_trail by exact BW.
        pose proof (span_app is_word (c :: x)) as SP. destruct (span is_word (c :: x)) as [d r] eqn:E. cbn [fst snd].
        assert (LR : length (r ++ b) < f).
        { destruct d as [|y d]; [cbn [span] in E; rewrite WC in E; destruct (span is_word x); discriminate|].
          apply (f_equal (@length _)) in SP. cbn [app length] in SP. rewrite app_length in SP, L. rewrite app_length. lia. }
        rewrite (IH r LR). reflexivity.
      * change (c :: x ++ b) with ((c :: x) ++ b). rewrite operator_trail by (exact G || exact operators_dense).
        destruct (operator operators (c :: x)) as [[k r]|] eqn:E; [|reflexivity]. cbn [option_map fst snd].
        f_equal. apply IH. assert (LR : length r <= length x).
        { clear - E. revert E. unfold operators.
          assert (H : forall ops, (forall o k, In (o, k) ops -> o <> []) ->
                    operator ops (c :: x) = Some (k, r) -> length r <= length x).
          { induction ops as [|[o t] ops IH]; intros N E; [discriminate|]. cbn [operator] in E.
            destruct (strip_prefix o (c :: x)) as [r'|] eqn:SP.
            - destruct t; [|discriminate]. injection E as <- <-. apply strip_prefix_iff in SP.
              destruct o as [|y o]; [exfalso; exact (N [] (Some p) (or_introl eq_refl) eq_refl)|].
              apply (f_equal (@length _)) in SP. cbn [app length] in SP. rewrite app_length in SP. lia.
            - apply IH; auto. intros o' k' I. apply (N o' k'). right. exact I. }
          apply H. intros o k' I. repeat (destruct I as [I|I]; [injection I as <- _; discriminate|]). destruct I. }
        rewrite app_length in *. lia.
Qed.

Lemma spelled_spaces ts s : spells ts s -> forall c, In c s -> is_space c = true -> c = sp \/ c = PyStr.tab.
Proof.
  induction 1 as [g G|g k s ts r G T A H IH]; intros c I S; [auto|].
  apply in_app_or in I. destruct I as [I|I]; [auto|]. apply in_app_or in I. destruct I as [I|I]; [|auto].
  assert (BL : forall b, blanks b -> In c b -> c = sp \/ c = PyStr.tab) by (intros b B J; left; apply B; exact J).
  assert (ID : forall w, ident w -> In c w -> c = sp \/ c = PyStr.tab).
  { intros w W J. pose proof (ident_word w W) as [_ F]. specialize (F c J). apply word_not_space in F. congruence. }
  assert (DF : In c $"defined" -> c = sp \/ c = PyStr.tab).
  { intros J. cbn in J. repeat (destruct J as [<-|J]; [discriminate|]). destruct J. }
  destruct (op_tok k) eqn:O.
  - destruct (op_text k s O T) as [_ F]. rewrite forallb_forall in F. specialize (F c I).
    destruct (op_char_facts c F) as (_ & X & _). congruence.
  - inversion T as [d N|w ID' N|gg w ID' GG NE|gg g' g'' w ID' GG G' G''| | | | | | |o NO|o]; subst; try discriminate.
    + destruct N as [F _]. rewrite forallb_forall in F. specialize (F c I). destruct (digit_facts c F) as (_ & X & _). congruence.
    + exact (ID s ID' I).
    + repeat (apply in_app_or in I; destruct I as [I|I]); auto. exact (ID w ID' I).
    + apply in_app_or in I. destruct I as [I|I]; [auto|]. apply in_app_or in I. destruct I as [I|I]; [eauto|].
      destruct I as [<-|I]; [discriminate|]. repeat (apply in_app_or in I; destruct I as [I|I]); eauto.
      destruct I as [<-|[]]. discriminate.
Qed.

Lemma lex_condition ts s : spells ts s -> (forall k, In k ts -> readable_tok k) ->
  py_lex (S (length (pp_translate s))) (pp_translate s) = Some (map ptk ts).
Proof.
  intros S R. unfold pp_translate.
  set (x := translate (length s) s).
  destruct (strip_parts x) as (a & b & E & Fa & Fb).
  assert (SP : forall c, In c x -> is_space c = true -> c = sp \/ c = PyStr.tab).
  { intros c I SC. apply tl_chars in I. destruct I as [I|I]; [exact (spelled_spaces ts s S c I SC)|].
    cbn in I. repeat (destruct I as [<-|I]; [try discriminate; left; reflexivity|]). destruct I. }
  assert (GA : gap a).
  { intros c I. apply SP; [rewrite E; apply in_or_app; left; exact I|]. rewrite forallb_forall in Fa. auto. }
  assert (GB : gap b).
  { intros c I. apply SP; [rewrite E; apply in_or_app; right; apply in_or_app; right; exact I|].
    rewrite forallb_forall in Fb. auto. }
  pose proof (lex_spelled ts s S R (length s) (Datatypes.S (length x)) (le_n _) (le_n _)) as L. fold x in L.
  rewrite E in L at 2.
  destruct (lex_gap a (Datatypes.S (length x)) (strip x ++ b) GA) as (f' & L' & E'); [rewrite <- E; lia|].
  rewrite E' in L. rewrite lex_trail in L by assumption.
  (* fuel *)
  assert (ST : forall f x g l, py_lex f x = Some l -> length x < g -> py_lex g x = Some l).
  { clear. induction f as [|f IH]; intros x g l E L; [discriminate|]. destruct g as [|g]; [lia|].
    destruct x as [|c x]; [exact E|]. cbn [py_lex] in *. cbn [length] in L.
    destruct (cheq c sp || cheq c PyStr.tab); [apply IH; auto; lia|].
    assert (OM : forall k y, option_map (cons k) (py_lex f y) = Some l -> length y < g ->
                   option_map (cons k) (py_lex g y) = Some l).
    { intros k y E' L'. destruct (py_lex f y) as [l'|] eqn:Y; [|discriminate]. rewrite (IH _ _ _ Y L'). exact E'. }
    destruct (is_digit c) eqn:DC.
    - pose proof (span_app is_digit (c :: x)) as SP. destruct (span is_digit (c :: x)) as [d r] eqn:ES.
      assert (LR : length r < g).
      { destruct d as [|y d]; [cbn [span] in ES; rewrite DC in ES; destruct (span is_digit x); discriminate|].
        apply (f_equal (@length _)) in SP. cbn [app length] in SP. rewrite app_length in SP. lia. }
      destruct r as [|y r].
      + destruct (good_digits d); [|discriminate]. apply OM; auto.
      + destruct (is_word y || cheq y "."); [discriminate|]. destruct (good_digits d); [|discriminate]. apply OM; auto.
    - destruct (is_word c) eqn:WC.
      + pose proof (span_app is_word (c :: x)) as SP. destruct (span is_word (c :: x)) as [d r] eqn:ES.
        assert (LR : length r < g).
        { destruct d as [|y d]; [cbn [span] in ES; rewrite WC in ES; destruct (span is_word x); discriminate|].
          apply (f_equal (@length _)) in SP. cbn [app length] in SP. rewrite app_length in SP. lia. }
        destruct (eqb d $"not"); [apply OM; auto|]. destruct (eqb d $"and"); [apply OM; auto|].
        destruct (eqb d $"or"); [apply OM; auto|]. discriminate.
      + destruct (operator operators (c :: x)) as [[k r]|] eqn:EO; [|discriminate]. apply OM; auto.
        assert (LR : length r <= length x); [|lia].
        { clear - EO. revert EO. unfold operators.
          assert (H : forall ops, (forall o k, In (o, k) ops -> o <> []) ->
                    operator ops (c :: x) = Some (k, r) -> length r <= length x).
          { induction ops as [|[o t] ops IH]; intros N E; [discriminate|]. cbn [operator] in E.
            destruct (strip_prefix o (c :: x)) as [r'|] eqn:SP.
            - destruct t; [|discriminate]. injection E as <- <-. apply strip_prefix_iff in SP.
              destruct o as [|y o]; [exfalso; exact (N [] (Some p) (or_introl eq_refl) eq_refl)|].
              apply (f_equal (@length _)) in SP. cbn [app length] in SP. rewrite app_length in SP. lia.
            - apply IH; auto. intros o' k' I. apply (N o' k'). right. exact I. }
          apply H. intros o k' I. repeat (destruct I as [I|I]; [injection I as <- _; discriminate|]). destruct I. } }
  apply (ST _ _ _ _ L). lia.
Qed.

(** ** Conditions *)
Lemma toks_map t m e : toks (resolve t m e) = flat_map (mres t m) (map (dres t) (toks e)).
Proof.
  induction e; cbn [resolve toks map flat_map mres dres app]; rewrite ?map_app, ?flat_map_app;
    cbn [map flat_map mres dres app]; rewrite ?app_nil_r; try congruence.
  - destruct (dget (macros t) w); reflexivity.
  - unfold is_defined, dmem. destruct (dget (macros t) w), (dget (fnmacros t) w); reflexivity.
Qed.

Lemma resolve_level t m e : readable t m e -> level e <= level (resolve t m e).
Proof.
  intros R. destruct e; cbn [resolve]; try reflexivity.
  - destruct (dget (macros t) w) as [s|] eqn:D; [|reflexivity].
    destruct (R w ltac:(left; reflexivity)) as [_ X]. destruct (X s D) as (C & _).
    destruct (m w); try contradiction; reflexivity.
  - destruct (dget (macros t) w), (dget (fnmacros t) w); reflexivity.
Qed.
Lemma ids_in e w : In w (ids e) <-> In (TId w) (toks e).
Proof.
  unfold ids. rewrite <- flat_map_concat_map, in_flat_map. split.
  - intros (k & I & J). destruct k; try destruct J as [J|J]; subst; try contradiction. exact I.
  - intros I. exists (TId w). split; [exact I|left; reflexivity].
Qed.
Lemma readable_sub t m e e' : readable t m e -> (forall k, In k (toks e') -> In k (toks e)) -> readable t m e'.
Proof. intros R S w I. apply R. apply ids_in. apply S. apply ids_in. exact I. Qed.

Lemma resolve_grammatical t m e : readable t m e -> grammatical e -> grammatical (resolve t m e).
Proof.
  induction e as [d|w|w|a IH|a IH|a IH|a IH|o a IHa b IHb|o a IHa b IHb|a IHa b IHb|a IHa b IHb|a IH];
    intros R G; cbn [resolve].
  - exact I.
  - destruct (dget (macros t) w) as [s|] eqn:D; [|exact I].
    destruct (R w ltac:(left; reflexivity)) as [_ X]. destruct (X s D) as (C & _).
    destruct (m w); try contradiction; apply C.
  - destruct (dget (macros t) w), (dget (fnmacros t) w); exact I.
  - assert (R' : readable t m a) by (apply (readable_sub _ _ _ _ R); intros k J; right; exact J).
    destruct G as [L G]. split; [|auto]. pose proof (resolve_level t m a R'). lia.
  - assert (R' : readable t m a) by (apply (readable_sub _ _ _ _ R); intros k J; right; exact J).
    destruct G as [L G]. split; [|auto]. pose proof (resolve_level t m a R'). lia.
  - assert (R' : readable t m a) by (apply (readable_sub _ _ _ _ R); intros k J; right; exact J).
    destruct G as [L G]. split; [|auto]. pose proof (resolve_level t m a R'). lia.
  - assert (R' : readable t m a) by (apply (readable_sub _ _ _ _ R); intros k J; right; exact J).
    destruct G as [L G]. split; [|auto]. pose proof (resolve_level t m a R'). lia.
  - assert (Ra : readable t m a) by (apply (readable_sub _ _ _ _ R); intros k J; apply in_or_app; left; exact J).
    assert (Rb : readable t m b) by (apply (readable_sub _ _ _ _ R); intros k J; apply in_or_app; right; right; exact J).
    destruct G as (L1 & L2 & Ga & Gb). pose proof (resolve_level t m a Ra). pose proof (resolve_level t m b Rb).
    repeat split; auto; lia.
  - assert (Ra : readable t m a) by (apply (readable_sub _ _ _ _ R); intros k J; apply in_or_app; left; exact J).
    assert (Rb : readable t m b) by (apply (readable_sub _ _ _ _ R); intros k J; apply in_or_app; right; right; exact J).
    destruct G as (L1 & L2 & Ga & Gb). pose proof (resolve_level t m a Ra). pose proof (resolve_level t m b Rb).
    repeat split; auto; lia.
  - assert (Ra : readable t m a) by (apply (readable_sub _ _ _ _ R); intros k J; apply in_or_app; left; exact J).
    assert (Rb : readable t m b) by (apply (readable_sub _ _ _ _ R); intros k J; apply in_or_app; right; right; exact J).
    destruct G as (L1 & L2 & Ga & Gb). pose proof (resolve_level t m a Ra). pose proof (resolve_level t m b Rb).
    repeat split; auto; lia.
  - assert (Ra : readable t m a) by (apply (readable_sub _ _ _ _ R); intros k J; apply in_or_app; left; exact J).
    assert (Rb : readable t m b) by (apply (readable_sub _ _ _ _ R); intros k J; apply in_or_app; right; right; exact J).
    destruct G as (L1 & Ga & Gb). pose proof (resolve_level t m a Ra). 
    repeat split; auto; lia.
  - apply IH; [|exact G]. apply (readable_sub _ _ _ _ R). intros k J. right. apply in_or_app. left. exact J.
Qed.

Lemma plain_tok e : plain e -> ~ In (TRel CNe) (toks e).
Proof.
  induction e as [d|w|w|a IH|a IH|a IH|a IH|o a IHa b IHb|o a IHa b IHb|a IHa b IHb|a IHa b IHb|a IH];
    cbn [plain toks]; intros P J; try (destruct J as [J|[]]; discriminate);
    try (destruct J as [J|J]; [discriminate|]; solve [apply IH; tauto]).
  - apply in_app_or in J. destruct J as [J|[J|J]]; [apply IHa; tauto|discriminate|apply IHb; tauto].
  - apply in_app_or in J. destruct J as [J|[J|J]]; [apply IHa; tauto| |apply IHb; tauto].
    injection J as ->. tauto.
  - apply in_app_or in J. destruct J as [J|[J|J]]; [apply IHa; tauto|discriminate|apply IHb; tauto].
  - apply in_app_or in J. destruct J as [J|[J|J]]; [apply IHa; tauto|discriminate|apply IHb; tauto].
  - destruct J as [J|J]; [discriminate|]. apply in_app_or in J. destruct J as [J|[J|[]]]; [apply IH; tauto|discriminate].
Qed.

Lemma no_assign l : not_assign (map ptk l) = false.
Proof.
  induction l as [|k l IH]; [reflexivity|]. cbn [map not_assign].
  destruct k; cbn [ptk]; try exact IH. destruct l as [|k' l]; [exact IH|]. cbn [map]. cbn [map] in IH.
  destruct k'; exact IH.
Qed.

Section Condition.
  Context (fo : str -> list str -> option str) (ext : str -> bool).

  Lemma condition_value t m e rest z :
    names_ident t -> grammatical e -> spells (toks e) rest -> readable t m e ->
    plain (resolve t m e) -> cvalue (resolve t m e) = Some z ->
    exists c, condition fo t rest = Ok c /\ eval_pp ext c = negb (z =? 0)%Z.
  Proof.
    intros NI G S R P V.
    assert (S1 : spells (map (dres t) (toks e)) (defined_values t rest)).
    { apply (rewrite_spelled t _ _ S); [lia|]. intros p c s' X. discriminate. }
    assert (RT : forall k, In k (map (dres t) (toks e)) -> tok_readable t m k).
    { intros k I. apply in_map_iff in I. destruct I as (k0 & <- & I).
      destruct k0 as [d|w|w| | | | | | |o|o]; cbn [dres tok_readable]; auto.
      destruct (R w (proj2 (ids_in e w) I)) as [R1 R2]. split; [exact R1|].
      intros v D. destruct (R2 v D) as (A & B & C & _). auto. }
    destruct (expand_spelled fo t m _ _ NI S1 RT) as [S2 _]. rewrite <- toks_map in S2.
    exists (xm fo t (defined_values t rest)).
    split; [apply expand_macros_ok|].
    assert (G' := resolve_grammatical t m e R G).
    assert (RD : forall k, In k (toks (resolve t m e)) -> readable_tok k).
    { intros k I. destruct k as [d|w|w| | | | | | |o|o]; cbn; auto.
      - rewrite toks_map in I. apply in_flat_map in I. destruct I as (k0 & I & J).
        apply in_map_iff in I. destruct I as (k1 & <- & I). destruct k1; cbn [dres mres] in J;
          try (destruct J as [J|[]]; discriminate).
        destruct (dget (macros t) w0) as [s|] eqn:D; [|destruct J as [J|[]]; discriminate].
        destruct (R w0 (proj2 (ids_in e w0) I)) as [_ X]. destruct (X s D) as (C & _).
        destruct (m w0); try contradiction; destruct C as [_ C]; exact (C w J).
      - destruct o; auto. exact (plain_tok _ P I). }
    unfold eval_pp, py_eval. rewrite (lex_condition _ _ S2 RD).
    pose proof (toks_nonempty (resolve t m e)) as NE.
    assert (NA := no_assign (toks (resolve t m e))).
    pose proof (parse_expr (resolve t m e) G' P) as PE. unfold pts in PE.
    destruct (map ptk (toks (resolve t m e))) as [|k l] eqn:E.
    { destruct (toks (resolve t m e)); [congruence|discriminate]. }
    rewrite NA, PE. destruct (value_agrees _ G' P z V) as (v & V1 & V2 & _). rewrite V1. exact V2.
  Qed.
End Condition.
