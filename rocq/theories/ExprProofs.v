(** Proofs about the evaluation of conditions. *)
From Coq Require Import Ascii String Bool Arith ZArith Lia List.
Import ListNotations.
From Verif Require Import PyBase PyBaseFacts PyStr PyStrFacts TypeModel TypeSpec WordFacts.
From Verif Require Import MacroModel MacroSpec MacroProofs MacroDefProofs PyExpr PpModel PpSpec ExprSpec.

(** ** Parsing: fuel *)
Lemma parse_mono : forall f l ts x, parse f l ts = Some x -> parse (S f) l ts = Some x.
Proof.
  induction f as [|f IH]; intros l ts x E; [discriminate|].
  cbn [parse] in E. remember (S f) as g. cbn [parse]. subst g.
  destruct l.
  - destruct (parse f LAnd ts) as [[a r]|] eqn:P; [|discriminate]. rewrite (IH _ _ _ P).
    destruct r as [|[] r]; try exact E.
    destruct (parse f LOr r) as [[b r']|] eqn:Q; [|discriminate]. rewrite (IH _ _ _ Q). exact E.
  - destruct (parse f LNot ts) as [[a r]|] eqn:P; [|discriminate]. rewrite (IH _ _ _ P).
    destruct r as [|[] r]; try exact E.
    destruct (parse f LAnd r) as [[b r']|] eqn:Q; [|discriminate]. rewrite (IH _ _ _ Q). exact E.
  - destruct ts as [|k r]; [apply IH; exact E|].
    destruct k; try (apply IH; exact E).
    destruct (parse f LNot r) as [[b r']|] eqn:Q; [|discriminate]. rewrite (IH _ _ _ Q). exact E.
  - destruct (parse f (LBin 0) ts) as [[a r]|] eqn:P; [|discriminate]. rewrite (IH _ _ _ P).
    apply IH. exact E.
  - destruct (k =? 5).
    + destruct (parse f LFactor ts) as [[a r]|] eqn:P; [|discriminate]. rewrite (IH _ _ _ P).
      apply IH. exact E.
    + destruct (parse f (LBin (S k)) ts) as [[a r]|] eqn:P; [|discriminate]. rewrite (IH _ _ _ P).
      apply IH. exact E.
  - destruct ts as [|k r]; [discriminate|]. destruct k; try discriminate; try exact E.
    + destruct (parse f LOr r) as [[b r']|] eqn:Q; [|discriminate]. rewrite (IH _ _ _ Q). exact E.
    + destruct o; try discriminate;
        (destruct (parse f LFactor r) as [[b r']|] eqn:Q; [|discriminate]; rewrite (IH _ _ _ Q); exact E).
    + destruct (parse f LFactor r) as [[b r']|] eqn:Q; [|discriminate]. rewrite (IH _ _ _ Q). exact E.
  - destruct ts as [|k' r]; [exact E|]. destruct k'; try exact E.
    destruct (prec o =? k); [|exact E]. destruct (k =? 5).
    + destruct (parse f LFactor r) as [[b r']|] eqn:Q; [|discriminate]. rewrite (IH _ _ _ Q).
      apply IH. exact E.
    + destruct (parse f (LBin (S k)) r) as [[b r']|] eqn:Q; [|discriminate]. rewrite (IH _ _ _ Q).
      apply IH. exact E.
  - destruct ts as [|k' r]; [exact E|]. destruct k'; try exact E.
    destruct (parse f (LBin 0) r) as [[b r']|] eqn:Q; [|discriminate]. rewrite (IH _ _ _ Q).
    apply IH. exact E.
Qed.
Lemma parse_more f g l ts x : f <= g -> parse f l ts = Some x -> parse g l ts = Some x.
Proof. induction 1; [auto|]. intros E. apply parse_mono. auto. Qed.

Definition weight (l : lvl) : nat :=
  match l with
  | LOr => 14 | LAnd => 13 | LNot => 12 | LCmp => 11 | LBin k => 10 - k | LFactor => 4
  | LLoop _ _ => 4 | LCmps _ _ => 4
  end.
Definition loop (l : lvl) : bool := match l with LLoop _ _ | LCmps _ _ => true | _ => false end.

Lemma parse_shorter : forall f l ts a r,
  parse f l ts = Some (a, r) -> if loop l then length r <= length ts else length r < length ts.
Proof.
  induction f as [|f IH]; intros l ts x y E; [discriminate|]. cbn [parse] in E.
  destruct l; cbn [loop].
  - destruct (parse f LAnd ts) as [[a r]|] eqn:P; [|discriminate]. apply IH in P. cbn [loop] in P.
    destruct r as [|[] r]; try (injection E as <- <-; exact P).
    destruct (parse f LOr r) as [[b r']|] eqn:Q; [|discriminate]. apply IH in Q. cbn [loop] in Q.
    injection E as <- <-. cbn in P. lia.
  - destruct (parse f LNot ts) as [[a r]|] eqn:P; [|discriminate]. apply IH in P. cbn [loop] in P.
    destruct r as [|[] r]; try (injection E as <- <-; exact P).
    destruct (parse f LAnd r) as [[b r']|] eqn:Q; [|discriminate]. apply IH in Q. cbn [loop] in Q.
    injection E as <- <-. cbn in P. lia.
  - destruct ts as [|k r]; [apply IH in E; exact E|].
    destruct k; try (apply IH in E; exact E).
    destruct (parse f LNot r) as [[b r']|] eqn:Q; [|discriminate]. apply IH in Q. cbn [loop] in Q.
    injection E as <- <-. cbn. lia.
  - destruct (parse f (LBin 0) ts) as [[a r]|] eqn:P; [|discriminate]. apply IH in P, E. cbn [loop] in P, E. lia.
  - destruct (k =? 5).
    + destruct (parse f LFactor ts) as [[a r]|] eqn:P; [|discriminate]. apply IH in P, E. cbn [loop] in P, E. lia.
    + destruct (parse f (LBin (S k)) ts) as [[a r]|] eqn:P; [|discriminate]. apply IH in P, E. cbn [loop] in P, E. lia.
  - destruct ts as [|k r]; [discriminate|]. destruct k; try discriminate.
    + injection E as <- <-. cbn. lia.
    + destruct (parse f LOr r) as [[b r']|] eqn:Q; [|discriminate]. apply IH in Q. cbn [loop] in Q.
      destruct r' as [|[] r']; try discriminate. injection E as <- <-. cbn in *. lia.
    + destruct o; try discriminate;
        (destruct (parse f LFactor r) as [[b r']|] eqn:Q; [|discriminate]; apply IH in Q; cbn [loop] in Q;
         injection E as <- <-; cbn in *; lia).
    + destruct (parse f LFactor r) as [[b r']|] eqn:Q; [|discriminate]; apply IH in Q; cbn [loop] in Q;
         injection E as <- <-; cbn in *; lia.
  - destruct ts as [|k' r]; [injection E as <- <-; lia|].
    destruct k'; try (injection E as <- <-; lia).
    destruct (prec o =? k); [|injection E as <- <-; lia]. destruct (k =? 5).
    + destruct (parse f LFactor r) as [[b r']|] eqn:Q; [|discriminate]. apply IH in Q, E. cbn [loop length] in *. lia.
    + destruct (parse f (LBin (S k)) r) as [[b r']|] eqn:Q; [|discriminate]. apply IH in Q, E. cbn [loop length] in *. lia.
  - destruct ts as [|k' r]; [injection E as <- <-; lia|].
    destruct k'; try (injection E as <- <-; lia).
    destruct (parse f (LBin 0) r) as [[b r']|] eqn:Q; [|discriminate]. apply IH in Q, E. cbn [loop length] in *. lia.
Qed.

Definition lok (l : lvl) : Prop := match l with LBin k | LLoop k _ => k <= 5 | _ => True end.
Lemma parse_enough : forall f l ts x n, lok l ->
  parse f l ts = Some x -> weight l + 16 * length ts < n -> parse n l ts = Some x.
Proof.
  induction f as [|f IH]; intros l ts x n K E L; [discriminate|].
  destruct n as [|n]; [lia|]. cbn [parse] in E. cbn [parse].
  destruct l; cbn [weight lok] in *.
  - destruct (parse f LAnd ts) as [[a r]|] eqn:P; [|discriminate].
    rewrite (IH LAnd _ _ n I P) by (cbn [weight]; lia). apply parse_shorter in P. cbn [loop] in P.
    destruct r as [|[] r]; try exact E.
    destruct (parse f LOr r) as [[b r']|] eqn:Q; [|discriminate].
    rewrite (IH LOr _ _ n I Q) by (cbn [weight length] in *; lia). exact E.
  - destruct (parse f LNot ts) as [[a r]|] eqn:P; [|discriminate].
    rewrite (IH LNot _ _ n I P) by (cbn [weight]; lia). apply parse_shorter in P. cbn [loop] in P.
    destruct r as [|[] r]; try exact E.
    destruct (parse f LAnd r) as [[b r']|] eqn:Q; [|discriminate].
    rewrite (IH LAnd _ _ n I Q) by (cbn [weight length] in *; lia). exact E.
  - destruct ts as [|k r]; [apply IH; auto; cbn [weight]; lia|].
    destruct k; try (apply IH; auto; cbn [weight]; lia).
    destruct (parse f LNot r) as [[b r']|] eqn:Q; [|discriminate].
    rewrite (IH LNot _ _ n I Q) by (cbn [weight length] in *; lia). exact E.
  - destruct (parse f (LBin 0) ts) as [[a r]|] eqn:P; [|discriminate].
    rewrite (IH (LBin 0) _ _ n (Nat.le_0_l 5) P) by (cbn [weight]; lia). apply parse_shorter in P. cbn [loop] in P.
    apply IH; auto. cbn [weight]. lia.
  - destruct (k =? 5) eqn:K5.
    + apply Nat.eqb_eq in K5. subst k.
      destruct (parse f LFactor ts) as [[a r]|] eqn:P; [|discriminate].
      rewrite (IH LFactor _ _ n I P) by (cbn [weight]; lia). apply parse_shorter in P. cbn [loop] in P.
      apply IH; auto; cbn [weight lok]; lia.
    + apply Nat.eqb_neq in K5.
      destruct (parse f (LBin (S k)) ts) as [[a r]|] eqn:P; [|discriminate].
      rewrite (IH (LBin (S k)) _ _ n) with (2 := P) by (cbn [weight lok]; lia). apply parse_shorter in P. cbn [loop] in P.
      apply IH; auto; cbn [weight lok]; lia.
  - destruct ts as [|k r]; [discriminate|]. cbn [length] in L. destruct k; try discriminate; try exact E.
    + destruct (parse f LOr r) as [[b r']|] eqn:Q; [|discriminate].
      rewrite (IH LOr _ _ n I Q) by (cbn [weight]; lia). exact E.
    + destruct o; try discriminate;
        (destruct (parse f LFactor r) as [[b r']|] eqn:Q; [|discriminate];
         rewrite (IH LFactor _ _ n I Q) by (cbn [weight]; lia); exact E).
    + destruct (parse f LFactor r) as [[b r']|] eqn:Q; [|discriminate].
      rewrite (IH LFactor _ _ n I Q) by (cbn [weight]; lia). exact E.
  - destruct ts as [|k' r]; [exact E|]. cbn [length] in L. destruct k'; try exact E.
    destruct (prec o =? k); [|exact E]. destruct (k =? 5) eqn:K5.
    + destruct (parse f LFactor r) as [[b r']|] eqn:Q; [|discriminate].
      rewrite (IH LFactor _ _ n I Q) by (cbn [weight]; lia). apply parse_shorter in Q. cbn [loop] in Q.
      apply IH; auto; cbn [weight lok]; lia.
    + apply Nat.eqb_neq in K5.
      destruct (parse f (LBin (S k)) r) as [[b r']|] eqn:Q; [|discriminate].
      rewrite (IH (LBin (S k)) _ _ n) with (2 := Q) by (cbn [weight lok]; lia). apply parse_shorter in Q. cbn [loop] in Q.
      apply IH; auto; cbn [weight lok]; lia.
  - destruct ts as [|k' r]; [exact E|]. cbn [length] in L. destruct k'; try exact E.
    destruct (parse f (LBin 0) r) as [[b r']|] eqn:Q; [|discriminate].
    rewrite (IH (LBin 0) _ _ n) with (2 := Q) by (cbn [weight lok]; lia). apply parse_shorter in Q. cbn [loop] in Q.
    apply IH; auto; cbn [weight lok]; lia.
Qed.

(** ** Parsing: steps *)
Definition parses (l : lvl) (ts : list ptok) (x : pexp * list ptok) : Prop :=
  exists f, parse f l ts = Some x.

Lemma p_or_end ts a r : parses LAnd ts (a, r) -> match r with KOr :: _ => False | _ => True end ->
  parses LOr ts (a, r).
Proof. intros [f E] H. exists (S f). cbn [parse]. rewrite E. destruct r as [|[] r]; auto; contradiction. Qed.
Lemma p_or ts a r b r' : parses LAnd ts (a, KOr :: r) -> parses LOr r (b, r') -> parses LOr ts (EOr a b, r').
Proof.
  intros [f E] [g G]. exists (S (max f g)). cbn [parse].
  rewrite (parse_more f (max f g) _ _ _ ltac:(lia) E), (parse_more g (max f g) _ _ _ ltac:(lia) G). reflexivity.
Qed.
Lemma p_and_end ts a r : parses LNot ts (a, r) -> match r with KAnd :: _ => False | _ => True end ->
  parses LAnd ts (a, r).
Proof. intros [f E] H. exists (S f). cbn [parse]. rewrite E. destruct r as [|[] r]; auto; contradiction. Qed.
Lemma p_and ts a r b r' : parses LNot ts (a, KAnd :: r) -> parses LAnd r (b, r') -> parses LAnd ts (EAnd a b, r').
Proof.
  intros [f E] [g G]. exists (S (max f g)). cbn [parse].
  rewrite (parse_more f (max f g) _ _ _ ltac:(lia) E), (parse_more g (max f g) _ _ _ ltac:(lia) G). reflexivity.
Qed.
Lemma p_not r a r' : parses LNot r (a, r') -> parses LNot (KNot :: r) (ENot a, r').
Proof. intros [f E]. exists (S f). cbn [parse]. rewrite E. reflexivity. Qed.
Lemma p_not_cmp ts x : match ts with KNot :: _ => False | _ => True end -> parses LCmp ts x -> parses LNot ts x.
Proof. intros H [f E]. exists (S f). cbn [parse]. destruct ts as [|[] r]; auto; contradiction. Qed.
Lemma p_cmp ts a r x : parses (LBin 0) ts (a, r) -> parses (LCmps a []) r x -> parses LCmp ts x.
Proof.
  intros [f E] [g G]. exists (S (max f g)). cbn [parse].
  rewrite (parse_more f (max f g) _ _ _ ltac:(lia) E). apply (parse_more g); [lia|exact G].
Qed.
Lemma p_cmps_end a l r : match r with KCmp _ :: _ => False | _ => True end ->
  parses (LCmps a l) r (match l with [] => a | _ => ECmp a l end, r).
Proof. intros H. exists 1. cbn [parse]. destruct r as [|[] r]; auto; contradiction. Qed.
Lemma p_cmps a l o r b r' x : parses (LBin 0) r (b, r') -> parses (LCmps a (l ++ [(o, b)])) r' x ->
  parses (LCmps a l) (KCmp o :: r) x.
Proof.
  intros [f E] [g G]. exists (S (max f g)). cbn [parse].
  rewrite (parse_more f (max f g) _ _ _ ltac:(lia) E). apply (parse_more g); [lia|exact G].
Qed.
Definition below (k : nat) : lvl := if k =? 5 then LFactor else LBin (S k).
Lemma p_bin k ts a r x : parses (below k) ts (a, r) -> parses (LLoop k a) r x -> parses (LBin k) ts x.
Proof.
  intros [f E] [g G]. exists (S (max f g)). cbn [parse]. unfold below in E.
  apply (parse_more f (max f g)) in E; [|lia]. apply (parse_more g (max f g)) in G; [|lia].
  destruct (k =? 5); rewrite E; exact G.
Qed.
Lemma p_loop k a o r b r' x : prec o = k -> parses (below k) r (b, r') ->
  parses (LLoop k (EBin o a b)) r' x -> parses (LLoop k a) (KBin o :: r) x.
Proof.
  intros K [f E] [g G]. exists (S (max f g)). cbn [parse]. unfold below in E.
  apply (parse_more f (max f g)) in E; [|lia]. apply (parse_more g (max f g)) in G; [|lia].
  rewrite K, Nat.eqb_refl. destruct (k =? 5); rewrite E; exact G.
Qed.
Lemma p_loop_end k a r : match r with KBin o :: _ => prec o <> k | _ => True end ->
  parses (LLoop k a) r (a, r).
Proof.
  intros H. exists 1. cbn [parse]. destruct r as [|[] r]; auto.
  apply Nat.eqb_neq in H. rewrite H. reflexivity.
Qed.

(** ** The Python reading of an expression *)
Fixpoint tr (e : cx) : pexp :=
  match e with
  | CNum d => EInt (zval d) | CId _ | CDefined _ => EInt 0
  | CNot a => ENot (tr a) | CNeg a => ENeg (tr a) | CPos a => EPos (tr a) | CInv a => EInv (tr a)
  | CBin o a b => EBin o (tr a) (tr b) | CRel o a b => ECmp (tr a) [(o, tr b)]
  | CAnd a b => EAnd (tr a) (tr b) | COr a b => EOr (tr a) (tr b) | CPar a => tr a
  end.
Definition ptk (k : ctok) : ptok :=
  match k with
  | TNum d => KNum d | TId _ | TDefined _ => KNum $"0" | TNot => KNot | TAnd => KAnd | TOr => KOr
  | TInv => KTilde | TOpen => KOpen | TClose => KClose | TBin o => KBin o | TRel o => KCmp o
  end.
Definition pts (e : cx) : list ptok := map ptk (toks e).

(** Arithmetic expressions and their Python level. *)
Definition arith (e : cx) : bool :=
  match e with CNot _ | CRel _ _ _ | CAnd _ _ | COr _ _ => false | _ => true end.
Definition factor (e : cx) : bool := arith e && match e with CBin _ _ _ => false | _ => true end.
Definition plv (e : cx) : nat := match e with CBin o _ _ => prec o | _ => 6 end.

Lemma pts_not e rest : (forall a, e <> CNot a) -> grammatical e -> plain e -> 2 <= level e ->
  match pts e ++ rest with KNot :: _ => False | _ => True end.
Proof.
  unfold pts. revert rest.
  induction e as [d|w|w|a IH|a IH|a IH|a IH|o a IHa b IHb|o a IHa b IHb|a IHa b IHb|a IHa b IHb|a IH];
    intros rest N G P L; cbn [toks map app ptk]; auto.
  - exfalso. exact (N a eq_refl).
  - destruct G as (L1 & L2 & Ga & Gb), P as (_ & _ & Oa & Ob & Pa & Pb).
    rewrite map_app, <- app_assoc. apply IHa; auto.
    + intros x ->. exact Oa.
    + cbn in L. lia.
  - destruct G as (L1 & L2 & Ga & Gb), P as (_ & Oa & Ob & Pa & Pb).
    rewrite map_app, <- app_assoc. apply IHa; auto.
    + intros x ->. exact Oa.
    + cbn in L. lia.
  - cbn in L. lia.
  - cbn in L. lia.
Qed.

Definition stops (k : nat) (r : list ptok) : Prop :=
  match r with KBin o :: _ => prec o <= k | _ => True end.
Definition ends_arith (r : list ptok) : Prop := match r with KBin _ :: _ => False | _ => True end.
Definition ends_cmp (r : list ptok) : Prop := match r with KBin _ :: _ | KCmp _ :: _ => False | _ => True end.
Definition ends_and (r : list ptok) : Prop :=
  match r with KBin _ :: _ | KCmp _ :: _ | KAnd :: _ => False | _ => True end.
Definition ends_or (r : list ptok) : Prop :=
  match r with KBin _ :: _ | KCmp _ :: _ | KAnd :: _ | KOr :: _ => False | _ => True end.

Lemma prec_5 o : prec o <= 5.
Proof. destruct o; cbn; lia. Qed.
Lemma level_arith o x : bop_level o <= level x -> operand x -> arith x = true -> prec o <= plv x.
Proof. destruct x; cbn; intros L O A; try discriminate; destruct o; cbn in *; try lia; destruct o0; cbn in *; lia. Qed.
Lemma level_arith_lt o x : bop_level o < level x -> operand x -> arith x = true -> prec o < plv x.
Proof. destruct x; cbn; intros L O A; try discriminate; destruct o; cbn in *; try lia; destruct o0; cbn in *; lia. Qed.
Lemma operand_arith x : operand x -> 2 <= level x -> arith x = true.
Proof. destruct x; cbn; intros; auto; try lia; contradiction. Qed.
Lemma bop_level_2 o : 2 <= bop_level o.
Proof. destruct o; cbn; lia. Qed.
Lemma cop_level_5 o : 5 <= cop_level o.
Proof. destruct o; cbn; lia. Qed.

(** From factors to any arithmetic level. *)
Lemma bin_of_factor e : factor e = true ->
  (forall rest, parses LFactor (pts e ++ rest) (tr e, rest)) ->
  forall n k rest x, n + k = 5 -> stops k rest -> parses (LLoop k (tr e)) rest x -> parses (LBin k) (pts e ++ rest) x.
Proof.
  intros F H n. induction n as [|n IH]; intros k rest x K S P.
  - assert (k = 5) by lia. subst k. eapply p_bin; [exact (H rest)|exact P].
  - eapply p_bin; [|exact P]. unfold below. replace (k =? 5) with false by (symmetry; apply Nat.eqb_neq; lia).
    apply IH; [lia| |].
    + destruct rest as [|[] rest]; cbn in *; auto.
    + apply p_loop_end. destruct rest as [|[] rest]; cbn in *; auto. lia.
Qed.
Lemma bin_lower e k : k <= 5 ->
  (forall rest x, stops k rest -> parses (LLoop k (tr e)) rest x -> parses (LBin k) (pts e ++ rest) x) ->
  forall n j rest x, n + j = k -> stops j rest -> parses (LLoop j (tr e)) rest x -> parses (LBin j) (pts e ++ rest) x.
Proof.
  intros K5 H n. induction n as [|n IH]; intros j rest x K S P.
  - assert (j = k) by lia. subst j. apply H; auto.
  - eapply p_bin; [|exact P]. unfold below. replace (j =? 5) with false by (symmetry; apply Nat.eqb_neq; lia).
    apply IH; [lia| |].
    + destruct rest as [|[] rest]; cbn in *; auto.
    + apply p_loop_end. destruct rest as [|[] rest]; cbn in *; auto. lia.
Qed.

Definition reads (e : cx) : Prop :=
  grammatical e -> plain e ->
  (factor e = true -> forall rest, parses LFactor (pts e ++ rest) (tr e, rest))
  /\ (arith e = true -> forall k rest x, k <= plv e -> k <= 5 -> stops k rest ->
        parses (LLoop k (tr e)) rest x -> parses (LBin k) (pts e ++ rest) x)
  /\ (2 <= level e -> (forall a, e <> CNot a) -> forall rest, ends_cmp rest -> parses LCmp (pts e ++ rest) (tr e, rest))
  /\ (2 <= level e -> forall rest, ends_cmp rest -> parses LNot (pts e ++ rest) (tr e, rest))
  /\ (1 <= level e -> forall rest, ends_and rest -> parses LAnd (pts e ++ rest) (tr e, rest))
  /\ (forall rest, ends_or rest -> parses LOr (pts e ++ rest) (tr e, rest)).

(** The higher levels from arithmetic. *)
Lemma reads_up e :
  (2 <= level e -> (forall a, e <> CNot a) -> forall rest, ends_cmp rest -> parses LCmp (pts e ++ rest) (tr e, rest)) ->
  (forall a, e = CNot a -> forall rest, ends_cmp rest -> parses LNot (pts e ++ rest) (tr e, rest)) ->
  (level e = 1 -> forall rest, ends_and rest -> parses LAnd (pts e ++ rest) (tr e, rest)) ->
  (level e = 0 -> forall rest, ends_or rest -> parses LOr (pts e ++ rest) (tr e, rest)) ->
  grammatical e -> plain e ->
  (2 <= level e -> forall rest, ends_cmp rest -> parses LNot (pts e ++ rest) (tr e, rest))
  /\ (1 <= level e -> forall rest, ends_and rest -> parses LAnd (pts e ++ rest) (tr e, rest))
  /\ (forall rest, ends_or rest -> parses LOr (pts e ++ rest) (tr e, rest)).
Proof.
  intros HC HN HA HO G P.
  assert (NOT : 2 <= level e -> forall rest, ends_cmp rest -> parses LNot (pts e ++ rest) (tr e, rest)).
  { intros L rest E.
    assert (D : (exists a, e = CNot a) \/ (forall a, e <> CNot a)).
    { destruct e; try (right; intros; discriminate). left. eauto. }
    destruct D as [[a X]|N]; [eapply HN; eauto|].
    apply p_not_cmp; [apply pts_not; auto|apply HC; auto]. }
  assert (AND : 1 <= level e -> forall rest, ends_and rest -> parses LAnd (pts e ++ rest) (tr e, rest)).
  { intros L rest E. destruct (Nat.eq_dec (level e) 1) as [E1|E1]; [auto|].
    apply p_and_end; [apply NOT; [lia|]|]; destruct rest as [|[] rest]; cbn in *; auto. }
  split; [exact NOT|]. split; [exact AND|]. intros rest E.
  destruct (Nat.eq_dec (level e) 0) as [E0|E0]; [auto|].
  apply p_or_end; [apply AND; [lia|]|]; destruct rest as [|[] rest]; cbn in *; auto.
Qed.

Lemma cmp_of_arith e :
  arith e = true ->
  (forall k rest x, k <= plv e -> k <= 5 -> stops k rest ->
        parses (LLoop k (tr e)) rest x -> parses (LBin k) (pts e ++ rest) x) ->
  forall rest, ends_arith rest -> parses (LBin 0) (pts e ++ rest) (tr e, rest).
Proof.
  intros A H rest E. apply H; [lia|lia| |].
  - destruct rest as [|[] rest]; cbn in *; auto. contradiction.
  - apply p_loop_end. destruct rest as [|[] rest]; cbn in *; auto.
Qed.

(** The remaining levels of an arithmetic expression. *)
Lemma reads_arith e :
  arith e = true -> 2 <= level e -> grammatical e -> plain e ->
  (forall k rest x, k <= plv e -> k <= 5 -> stops k rest ->
        parses (LLoop k (tr e)) rest x -> parses (LBin k) (pts e ++ rest) x) ->
  (2 <= level e -> (forall a, e <> CNot a) -> forall rest, ends_cmp rest -> parses LCmp (pts e ++ rest) (tr e, rest))
  /\ (2 <= level e -> forall rest, ends_cmp rest -> parses LNot (pts e ++ rest) (tr e, rest))
  /\ (1 <= level e -> forall rest, ends_and rest -> parses LAnd (pts e ++ rest) (tr e, rest))
  /\ (forall rest, ends_or rest -> parses LOr (pts e ++ rest) (tr e, rest)).
Proof.
  intros A L G P H.
  assert (C : 2 <= level e -> (forall a, e <> CNot a) -> forall rest, ends_cmp rest -> parses LCmp (pts e ++ rest) (tr e, rest)).
  { intros _ _ rest E. eapply p_cmp.
    - apply cmp_of_arith; auto. destruct rest as [|[] rest]; cbn in *; auto.
    - apply (p_cmps_end (tr e) [] rest). destruct rest as [|[] rest]; cbn in *; auto. }
  split; [exact C|]. apply reads_up; auto.
  - intros a ->. discriminate.
  - lia.
  - lia.
Qed.
Lemma reads_factor e :
  factor e = true -> 2 <= level e -> grammatical e -> plain e ->
  (forall rest, parses LFactor (pts e ++ rest) (tr e, rest)) -> reads e.
Proof.
  intros F L G P H _ _. assert (A : arith e = true) by (unfold factor in F; apply andb_true_iff in F; tauto).
  assert (B : forall k rest x, k <= plv e -> k <= 5 -> stops k rest ->
        parses (LLoop k (tr e)) rest x -> parses (LBin k) (pts e ++ rest) x).
  { intros k rest x _ K S Q. apply (bin_of_factor e F H (5 - k)); auto. lia. }
  split; [auto|]. split; [auto|]. apply reads_arith; auto.
Qed.

Lemma factor_of x : 10 <= level x -> operand x -> factor x = true.
Proof.
  destruct x; cbn; intros L O; auto; try lia; try contradiction.
  destruct o; cbn in L; lia.
Qed.

Lemma reads_all e : reads e.
Proof.
  induction e as [d|w|w|a IH|a IH|a IH|a IH|o a IHa b IHb|o a IHa b IHb|a IHa b IHb|a IHa b IHb|a IH]; intros G P.
  - refine (reads_factor (CNum d) eq_refl _ G P _ G P); [cbn; lia|]. intros rest. exists 1. reflexivity.
  - refine (reads_factor (CId w) eq_refl _ G P _ G P); [cbn; lia|]. intros rest. exists 1. reflexivity.
  - refine (reads_factor (CDefined w) eq_refl _ G P _ G P); [cbn; lia|]. intros rest. exists 1. reflexivity.
  - split; [discriminate|]. split; [discriminate|]. split.
    + intros _ N. exfalso. exact (N a eq_refl).
    + apply reads_up; auto.
      * intros _ N. exfalso. exact (N a eq_refl).
      * intros x _ rest E. destruct G as [L Ga]. destruct (IH Ga P) as (_ & _ & _ & H & _).
        apply p_not. apply H; auto. lia.
      * discriminate.
      * discriminate.
  - refine (reads_factor (CNeg a) eq_refl _ G P _ G P); [cbn; lia|]. destruct G as [L Ga], P as [O Pa].
    intros rest. destruct (IH Ga Pa) as (H & _). destruct (H (factor_of a L O) rest) as [f E].
    exists (S f). change (parse (S f) LFactor (KBin OSub :: (pts a ++ rest)) = Some (ENeg (tr a), rest)).
    cbn [parse]. rewrite E. reflexivity.
  - refine (reads_factor (CPos a) eq_refl _ G P _ G P); [cbn; lia|]. destruct G as [L Ga], P as [O Pa].
    intros rest. destruct (IH Ga Pa) as (H & _). destruct (H (factor_of a L O) rest) as [f E].
    exists (S f). change (parse (S f) LFactor (KBin OAdd :: (pts a ++ rest)) = Some (EPos (tr a), rest)).
    cbn [parse]. rewrite E. reflexivity.
  - refine (reads_factor (CInv a) eq_refl _ G P _ G P); [cbn; lia|]. destruct G as [L Ga], P as [O Pa].
    intros rest. destruct (IH Ga Pa) as (H & _). destruct (H (factor_of a L O) rest) as [f E].
    exists (S f). change (parse (S f) LFactor (KTilde :: (pts a ++ rest)) = Some (EInv (tr a), rest)).
    cbn [parse]. rewrite E. reflexivity.
  - assert (G' := G). assert (P' := P).
    destruct G as (L1 & L2 & Ga & Gb), P as (ND & NM & Oa & Ob & Pa & Pb).
    pose proof (bop_level_2 o) as B2. pose proof (prec_5 o) as B5.
    assert (Aa := operand_arith a Oa ltac:(lia)). assert (Ab := operand_arith b Ob ltac:(lia)).
    destruct (IHa Ga Pa) as (Fa & HA & _). destruct (IHb Gb Pb) as (Fb & HB & _).
    specialize (HA Aa). specialize (HB Ab).
    assert (H : forall k rest x, k <= prec o -> k <= 5 -> stops k rest ->
        parses (LLoop k (tr (CBin o a b))) rest x -> parses (LBin k) (pts (CBin o a b) ++ rest) x).
    { intros k rest x K1 K5 S1 Q1.
      apply (bin_lower (CBin o a b) (prec o) B5) with (n := prec o - k); [|lia|exact S1|exact Q1].
      clear k x rest K1 K5 S1 Q1. intros rest x ST Q.
      unfold pts. cbn [toks]. rewrite map_app, <- app_assoc. cbn [map app ptk].
      apply HA; [apply level_arith; auto|exact B5|cbn; lia|].
      apply (p_loop (prec o) (tr a) o (map ptk (toks b) ++ rest) (tr b) rest x eq_refl); [|exact Q].
      pose proof (level_arith_lt o b L2 Ob Ab) as LT. unfold below. destruct (prec o =? 5) eqn:E5.
      - apply Fb. unfold factor. rewrite Ab. cbn [andb]. apply Nat.eqb_eq in E5. rewrite E5 in LT.
        destruct b; auto. cbn in LT. pose proof (prec_5 o0). lia.
      - apply Nat.eqb_neq in E5. apply (HB (S (prec o)) rest); [lia|lia| |].
        + destruct rest as [|[] rest]; cbn in *; auto.
        + apply p_loop_end. destruct rest as [|[] rest]; cbn in *; auto. lia. }
    split; [discriminate|]. split; [intros _; exact H|]. apply reads_arith; auto.
  - assert (G' := G). assert (P' := P).
    destruct G as (L1 & L2 & Ga & Gb), P as (NE & Oa & Ob & Pa & Pb). pose proof (cop_level_5 o) as B2.
    assert (Aa := operand_arith a Oa ltac:(lia)). assert (Ab := operand_arith b Ob ltac:(lia)).
    destruct (IHa Ga Pa) as (_ & HA & _). destruct (IHb Gb Pb) as (_ & HB & _).
    specialize (HA Aa). specialize (HB Ab).
    assert (C : forall rest, ends_cmp rest -> parses LCmp (pts (CRel o a b) ++ rest) (tr (CRel o a b), rest)).
    { intros rest E. unfold pts. cbn [toks]. rewrite map_app, <- app_assoc. cbn [map app ptk].
      eapply p_cmp; [apply cmp_of_arith; auto|].
      - exact I.
      - eapply p_cmps; [apply cmp_of_arith; auto|].
        + destruct rest as [|[] rest]; cbn in *; auto.
        + apply (p_cmps_end (tr a) [(o, tr b)] rest). destruct rest as [|[] rest]; cbn in *; auto. }
    split; [discriminate|]. split; [discriminate|]. split; [auto|].
    assert (LE : level (CRel o a b) = cop_level o) by reflexivity.
    apply reads_up; auto; try lia. discriminate.
  - assert (G' := G). assert (P' := P).
    destruct G as (L1 & L2 & Ga & Gb), P as (Pa & Pb).
    destruct (IHa Ga Pa) as (_ & _ & _ & HA & _). destruct (IHb Gb Pb) as (_ & _ & _ & _ & HB & _).
    split; [discriminate|]. split; [discriminate|]. split; [cbn; lia|].
    apply reads_up; auto; try (cbn; lia); try discriminate.
    intros _ rest E. unfold pts. cbn [toks]. rewrite map_app, <- app_assoc. cbn [map app ptk].
    eapply p_and; [apply HA; [lia|exact I]|apply HB; auto].
  - assert (G' := G). assert (P' := P).
    destruct G as (L1 & Ga & Gb), P as (Pa & Pb).
    destruct (IHa Ga Pa) as (_ & _ & _ & _ & HA & _). destruct (IHb Gb Pb) as (_ & _ & _ & _ & _ & HB).
    split; [discriminate|]. split; [discriminate|]. split; [cbn; lia|].
    apply reads_up; auto; try (cbn; lia); try discriminate.
    intros _ rest E. unfold pts. cbn [toks]. rewrite map_app, <- app_assoc. cbn [map app ptk].
    eapply p_or; [apply HA; [lia|exact I]|apply HB; auto].
  - refine (reads_factor (CPar a) eq_refl _ G P _ G P); [cbn; lia|].
    intros rest. destruct (IH G P) as (_ & _ & _ & _ & _ & H). destruct (H (KClose :: rest) I) as [f E].
    exists (S f). unfold pts. cbn [toks map app ptk tr]. rewrite map_app, <- app_assoc. cbn [map app ptk parse].
    unfold pts in E. rewrite E. reflexivity.
Qed.

Lemma parse_expr e : grammatical e -> plain e ->
  parse (16 * S (length (pts e))) LOr (pts e) = Some (tr e, []).
Proof.
  intros G P. destruct (reads_all e G P) as (_ & _ & _ & _ & _ & H). destruct (H [] I) as [f E].
  rewrite app_nil_r in E. apply (parse_enough f); auto; cbn [weight lok]; auto. lia.
Qed.

(** ** Values *)
Lemma zval_nonneg d : (0 <= zval d)%Z.
Proof.
  unfold zval. assert (H : forall v, (0 <= v)%Z -> (0 <= fold_left (fun v c => 10 * v + Z.of_nat (digit_val c)) d v)%Z).
  { induction d as [|c d IH]; intros v V; cbn [fold_left]; [exact V|]. apply IH. lia. }
  apply H. lia.
Qed.
Lemma fit_some z x : fit z = Some x -> x = z.
Proof. unfold fit. destruct (_ && _); congruence. Qed.

Lemma unsigned_nonneg e : unsigned e -> forall z, cvalue e = Some z -> (0 <= z)%Z.
Proof.
  induction e as [d|w|w|a IH|a IH|a IH|a IH|o a IHa b IHb|o a IHa b IHb|a IHa b IHb|a IHa b IHb|a IH];
    cbn [unsigned cvalue]; intros U z E; try contradiction.
  - apply fit_some in E. subst. apply zval_nonneg.
  - injection E as <-. lia.
  - injection E as <-. lia.
  - destruct (cvalue a); [|discriminate]. injection E as <-. unfold c_bool. destruct (_ =? _)%Z; lia.
  - destruct (cvalue a) as [x|]; [|discriminate]. injection E as <-. exact (IH U x eq_refl).
  - destruct U as (NS & Ua & Ub). destruct (cvalue a) as [x|]; [|discriminate]. destruct (cvalue b) as [y|]; [|discriminate].
    specialize (IHa Ua x eq_refl). specialize (IHb Ub y eq_refl).
    destruct o; cbn [c_bin] in E; try (injection E as <-).
    + apply Z.lor_nonneg. lia.
    + apply Z.lxor_nonneg. lia.
    + apply Z.land_nonneg. lia.
    + destruct (_ && _ && _) eqn:B; [|discriminate]. apply fit_some in E. subst z.
      apply Z.mul_nonneg_nonneg; [lia|]. apply Z.pow_nonneg. lia.
    + destruct (_ && _ && _) eqn:B; [|discriminate]. injection E as <-. apply Z_div_nonneg_nonneg; [lia|].
      apply Z.pow_nonneg. lia.
    + apply fit_some in E. lia.
    + congruence.
    + apply fit_some in E. subst z. apply Z.mul_nonneg_nonneg; lia.
    + destruct (y =? 0)%Z eqn:Y; [discriminate|]. apply Z.eqb_neq in Y. apply fit_some in E. subst z.
      apply Z.quot_pos; lia.
    + discriminate.
    + destruct (y =? 0)%Z eqn:Y; [discriminate|]. apply Z.eqb_neq in Y. apply fit_some in E. subst z.
      apply Z.rem_nonneg; lia.
  - destruct (cvalue a) as [x|]; [|discriminate]. destruct (cvalue b) as [y|]; [|discriminate].
    injection E as <-. unfold c_bool. destruct (c_rel o x y); lia.
  - destruct (cvalue a) as [x|]; [|discriminate]. destruct (x =? 0)%Z; [injection E as <-; lia|].
    destruct (cvalue b) as [y|]; [|discriminate]. injection E as <-. unfold c_bool. destruct (negb _); lia.
  - destruct (cvalue a) as [x|]; [|discriminate]. destruct (x =? 0)%Z; [|injection E as <-; lia].
    destruct (cvalue b) as [y|]; [|discriminate]. injection E as <-. unfold c_bool. destruct (negb _); lia.
  - exact (IH U z E).
Qed.

Lemma operand_exact a : operand a -> 2 <= level a -> exact a.
Proof. destruct a; cbn; intros; auto; lia. Qed.

Lemma bin_agrees o x y z :
  o <> ODiv -> (o = OMod -> (0 <= x)%Z /\ (0 <= y)%Z) -> c_bin o x y = Some z -> bin o x y = Ok (VInt z).
Proof.
  intros ND NM E. destruct o; cbn [c_bin bin] in *; try (injection E as <-; reflexivity);
    try (apply fit_some in E; subst z; reflexivity); try congruence.
  - destruct (_ && _ && _) eqn:B; [|discriminate]. apply fit_some in E. subst z.
    apply andb_true_iff in B. destruct B as [B _]. apply andb_true_iff in B. destruct B as [B1 B2].
    apply Z.leb_le in B2. replace (y <? 0)%Z with false by (symmetry; apply Z.ltb_ge; exact B2).
    rewrite Z.shiftl_mul_pow2 by exact B2. reflexivity.
  - destruct (_ && _ && _) eqn:B; [|discriminate]. injection E as <-.
    apply andb_true_iff in B. destruct B as [B _]. apply andb_true_iff in B. destruct B as [B1 B2].
    apply Z.leb_le in B2. replace (y <? 0)%Z with false by (symmetry; apply Z.ltb_ge; exact B2).
    rewrite Z.shiftr_div_pow2 by exact B2. reflexivity.
  - destruct (y =? 0)%Z eqn:Y; [discriminate|]. apply Z.eqb_neq in Y. apply fit_some in E. subst z.
    destruct (NM eq_refl) as [X0 Y0]. rewrite Z.rem_mod_nonneg by lia. reflexivity.
Qed.

Lemma value_agrees e : grammatical e -> plain e -> forall z, cvalue e = Some z ->
  exists v, py_value (tr e) = Some (Ok v) /\ truth v = negb (z =? 0)%Z /\ (exact e -> as_int v = Some z).
Proof.
  induction e as [d|w|w|a IH|a IH|a IH|a IH|o a IHa b IHb|o a IHa b IHb|a IHa b IHb|a IHa b IHb|a IH];
    cbn [grammatical plain cvalue tr py_value]; intros G P z E.
  - apply fit_some in E. subst. exists (VInt (zval d)). auto.
  - injection E as <-. exists (VInt 0). auto.
  - injection E as <-. exists (VInt 0). auto.
  - destruct (cvalue a) as [x|]; [|discriminate]. injection E as <-.
    destruct (IH (proj2 G) P x eq_refl) as (v & V1 & V2 & _). rewrite V1. cbn [obind].
    exists (VBool (negb (truth v))). split; [reflexivity|]. rewrite V2. cbn [truth as_int].
    destruct (x =? 0)%Z; cbn; auto.
  - destruct (cvalue a) as [x|]; [|discriminate]. apply fit_some in E. subst z. destruct G as [L G], P as [O P].
    destruct (IH G P x eq_refl) as (v & V1 & V2 & V3). rewrite V1. cbn [obind]. unfold with_int.
    rewrite V3 by (apply operand_exact; [exact O|lia]). exists (VInt (- x)). auto.
  - destruct (cvalue a) as [x|]; [|discriminate]. injection E as <-. destruct G as [L G], P as [O P].
    destruct (IH G P x eq_refl) as (v & V1 & V2 & V3). rewrite V1. cbn [obind]. unfold with_int.
    rewrite V3 by (apply operand_exact; [exact O|lia]). exists (VInt x). auto.
  - destruct (cvalue a) as [x|]; [|discriminate]. injection E as <-. destruct G as [L G], P as [O P].
    destruct (IH G P x eq_refl) as (v & V1 & V2 & V3). rewrite V1. cbn [obind]. unfold with_int.
    rewrite V3 by (apply operand_exact; [exact O|lia]). exists (VInt (Z.lnot x)). auto.
  - destruct (cvalue a) as [x|] eqn:Ca; [|discriminate]. destruct (cvalue b) as [y|] eqn:Cb; [|discriminate].
    destruct G as (L1 & L2 & Ga & Gb), P as (ND & NM & Oa & Ob & Pa & Pb). pose proof (bop_level_2 o) as B2.
    destruct (IHa Ga Pa x eq_refl) as (v & V1 & V2 & V3). destruct (IHb Gb Pb y eq_refl) as (u & U1 & U2 & U3).
    rewrite V1. cbn [obind]. rewrite U1. cbn [obind]. unfold with_int.
    rewrite V3 by (apply operand_exact; [exact Oa|lia]). rewrite U3 by (apply operand_exact; [exact Ob|lia]).
    rewrite (bin_agrees o x y z); auto.
    + exists (VInt z). auto.
    + intros X. destruct (NM X) as [Ua Ub]. split; [apply (unsigned_nonneg a Ua)|apply (unsigned_nonneg b Ub)]; assumption.
  - destruct (cvalue a) as [x|] eqn:Ca; [|discriminate]. destruct (cvalue b) as [y|] eqn:Cb; [|discriminate].
    injection E as <-.
    destruct G as (L1 & L2 & Ga & Gb), P as (NE & Oa & Ob & Pa & Pb). pose proof (cop_level_5 o) as B2.
    destruct (IHa Ga Pa x eq_refl) as (v & V1 & V2 & V3). destruct (IHb Gb Pb y eq_refl) as (u & U1 & U2 & U3).
    rewrite V1. cbn [obind]. rewrite U1. cbn [obind]. unfold with_int.
    rewrite V3 by (apply operand_exact; [exact Oa|lia]). rewrite U3 by (apply operand_exact; [exact Ob|lia]).
    replace (cmp o x y) with (c_rel o x y) by (destruct o; reflexivity).
    destruct (c_rel o x y).
    + exists (VBool true). auto.
    + exists (VBool false). auto.
  - destruct (cvalue a) as [x|] eqn:Ca; [|discriminate]. destruct G as (L1 & L2 & Ga & Gb), P as (Pa & Pb).
    destruct (IHa Ga Pa x eq_refl) as (v & V1 & V2 & _). rewrite V1. cbn [obind]. rewrite V2.
    destruct (x =? 0)%Z eqn:X; cbn [negb].
    + injection E as <-. exists v. rewrite V2. split; [reflexivity|]. split; [reflexivity|]. intros [].
    + destruct (cvalue b) as [y|] eqn:Cb; [|discriminate]. injection E as <-.
      destruct (IHb Gb Pb y eq_refl) as (u & U1 & U2 & _). exists u. split; [exact U1|].
      rewrite U2. split; [destruct (y =? 0)%Z; reflexivity|]. intros [].
  - destruct (cvalue a) as [x|] eqn:Ca; [|discriminate]. destruct G as (L1 & Ga & Gb), P as (Pa & Pb).
    destruct (IHa Ga Pa x eq_refl) as (v & V1 & V2 & _). rewrite V1. cbn [obind]. rewrite V2.
    destruct (x =? 0)%Z eqn:X; cbn [negb].
    + destruct (cvalue b) as [y|] eqn:Cb; [|discriminate]. injection E as <-.
      destruct (IHb Gb Pb y eq_refl) as (u & U1 & U2 & _). exists u. split; [exact U1|].
      rewrite U2. split; [destruct (y =? 0)%Z; reflexivity|]. intros [].
    + injection E as <-. exists v. rewrite V2. split; [reflexivity|]. split; [reflexivity|]. intros [].
  - exact (IH G P z E).
Qed.
