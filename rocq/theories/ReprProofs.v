(** Proofs for C90: [repr] and reading it back. *)
From Coq Require Import Ascii String Bool Arith ZArith Lia Permutation List.
Import ListNotations.
From Verif Require Import PyBase PyBaseFacts PyStr PyStrFacts PyExpr MacroSpec MacroDefProofs TypeModel StoreModel DeclModel DeclSpec DeclProofs ReprModel ReprSpec.

(** ** Strings *)
Lemma hex_read c : hex_val (hex_digit (code c / 16)) = Some (code c / 16) /\ hex_val (hex_digit (code c mod 16)) = Some (code c mod 16).
Proof. destruct c as [[] [] [] [] [] [] [] []]; vm_compute; split; reflexivity. Qed.
Lemma hex_code c : ascii_of_nat (16 * (code c / 16) + code c mod 16) = c.
Proof. rewrite <- Nat.div_mod by discriminate. apply ascii_nat_embedding. Qed.
Lemma quote_not q : q = squote \/ q = dquote -> cheq bslash q = false /\ cheq q nl = false /\ cheq q cr = false /\ cheq q bslash = false /\ cheq q "x" = false.
Proof. intros [->| ->]; repeat split. Qed.
Lemma read_char q c r : q = squote \/ q = dquote ->
  read_body q (repr_char q c ++ r) = match read_body q r with Some (t, r3) => Some (c :: t, r3) | None => None end.
Proof.
  intros Q. destruct (quote_not q Q) as (Q1 & Q2 & Q3 & Q4 & Q5).
  assert (ESC : forall e x, cheq e "x" = false ->
    (if cheq e bslash || cheq e squote || cheq e dquote then Some e
     else if cheq e "t" then Some tab else if cheq e "n" then Some nl else if cheq e "r" then Some cr else None) = Some x ->
    read_body q (bslash :: e :: r) = match read_body q r with Some (t, r3) => Some (x :: t, r3) | None => None end).
  { intros e x X E. cbn [read_body]. rewrite Q1, X, E. reflexivity. }
  unfold repr_char. destruct (cheq c q) eqn:CQ.
  { apply cheq_true in CQ. subst c. cbn [orb app]. apply ESC; [exact Q5|]. destruct Q as [->| ->]; reflexivity. }
  destruct (cheq c bslash) eqn:CB.
  { apply cheq_true in CB. subst c. cbn [orb app]. apply ESC; reflexivity. }
  cbn [orb]. destruct (cheq c tab) eqn:CT; [apply cheq_true in CT; subst c; apply (ESC "t"%char tab); reflexivity|].
  destruct (cheq c nl) eqn:CN; [apply cheq_true in CN; subst c; apply (ESC "n"%char nl); reflexivity|].
  destruct (cheq c cr) eqn:CC; [apply cheq_true in CC; subst c; apply (ESC "r"%char cr); reflexivity|].
  destruct (_ || _).
  - change (($"\x" ++ ?l) ++ r) with (bslash :: "x"%char :: l ++ r). cbn [app]. cbn [read_body]. rewrite Q1.
    change (cheq bslash nl || cheq bslash cr) with false. change (cheq bslash bslash) with true. change (cheq "x" "x") with true. cbv iota.
    destruct (hex_read c) as [-> ->]. rewrite hex_code. reflexivity.
  - cbn [app read_body]. rewrite CQ, CN, CC, CB. reflexivity.
Qed.
Lemma read_chars q s rest : q = squote \/ q = dquote -> read_body q (flat_map (repr_char q) s ++ q :: rest) = Some (s, rest).
Proof.
  intros Q. induction s as [|c s IH].
  - cbn [flat_map app]. destruct Q as [->| ->]; reflexivity.
  - cbn [flat_map]. rewrite <- app_assoc, read_char by exact Q. rewrite IH. reflexivity.
Qed.
Lemma quote_cases s : quote_for s = squote \/ quote_for s = dquote.
Proof. unfold quote_for. destruct (_ && _); auto. Qed.

(** ** Numbers *)
Definition zstep (v : Z) (c : ascii) : Z := (10 * v + Z.of_nat (digit_val c))%Z.
Lemma digit_char n : (0 <= n < 10)%Z ->
  let d := ascii_of_nat (48 + Z.to_nat n) in is_digit d = true /\ Z.of_nat (digit_val d) = n /\ (cheq d "0" = true -> n = 0%Z).
Proof.
  intros H. assert (C : (n = 0 \/ n = 1 \/ n = 2 \/ n = 3 \/ n = 4 \/ n = 5 \/ n = 6 \/ n = 7 \/ n = 8 \/ n = 9)%Z) by lia.
  destruct C as [->|[->|[->|[->|[->|[->|[->|[->|[->| ->]]]]]]]]]; vm_compute; repeat split; intros E; discriminate E.
Qed.
Lemma zdec_aux_val f : forall n acc, (0 <= n < 2 ^ Z.of_nat (S f))%Z ->
  fold_left zstep (zdec_aux (S f) n acc) 0%Z = fold_left zstep acc n.
Proof.
  induction f as [|f IH]; intros n acc H.
  - assert (L : (n < 10)%Z) by (change (2 ^ Z.of_nat 1)%Z with 2%Z in H; lia).
    cbn [zdec_aux]. destruct (Z.ltb_spec n 10); [|lia]. rewrite Z.mod_small by lia. cbn [fold_left]. unfold zstep at 2.
    destruct (digit_char n) as (_ & E & _); [lia|]. cbv zeta in E. rewrite E. f_equal; lia.
  - cbn [zdec_aux]. destruct (Z.ltb_spec n 10) as [L|L].
    + rewrite Z.mod_small by lia. cbn [fold_left]. unfold zstep at 2. destruct (digit_char n) as (_ & E & _); [lia|]. cbv zeta in E. rewrite E. f_equal; lia.
    + assert (M : (0 <= n mod 10 < 10)%Z) by (apply Z.mod_pos_bound; lia).
      change (if (n / 10 <? 10)%Z then _ else _) with (zdec_aux (S f) (n / 10) (ascii_of_nat (48 + Z.to_nat (n mod 10)) :: acc)).
      rewrite IH.
      * cbn [fold_left]. unfold zstep at 2. destruct (digit_char (n mod 10)) as (_ & E & _); [exact M|]. cbv zeta in E. rewrite E. f_equal.
        pose proof (Z.div_mod n 10). lia.
      * split; [apply Z.div_pos; lia|]. apply Z.div_lt_upper_bound; [lia|]. replace (Z.of_nat (S (S f))) with (1 + Z.of_nat (S f))%Z in H by lia.
        rewrite Z.pow_add_r in H by lia. change (2 ^ 1)%Z with 2%Z in H. lia.
Qed.
Lemma zdec_aux_digits f : forall n acc, (0 <= n)%Z -> forallb is_digit acc = true -> forallb is_digit (zdec_aux f n acc) = true.
Proof.
  induction f as [|f IH]; intros n acc H A; [exact A|]. cbn [zdec_aux].
  assert (D : is_digit (ascii_of_nat (48 + Z.to_nat (n mod 10))) = true) by (apply digit_char; apply Z.mod_pos_bound; lia).
  destruct (n <? 10)%Z; [cbn [forallb]; rewrite D, A; reflexivity|]. apply IH; [apply Z.div_pos; lia|]. cbn [forallb]. rewrite D, A. reflexivity.
Qed.
Lemma zdec_aux_head f : forall n acc, (0 < n < 2 ^ Z.of_nat (S f))%Z -> exists c r, zdec_aux (S f) n acc = c :: r /\ cheq c "0" = false.
Proof.
  induction f as [|f IH]; intros n acc H.
  - assert (L : (n < 10)%Z) by (change (2 ^ Z.of_nat 1)%Z with 2%Z in H; lia). cbn [zdec_aux]. destruct (Z.ltb_spec n 10); [|lia].
    eexists _, _. split; [reflexivity|]. apply not_true_iff_false. intros E. rewrite Z.mod_small in E by lia. apply digit_char in E; lia.
  - cbn [zdec_aux]. destruct (Z.ltb_spec n 10) as [L|L].
    + eexists _, _. split; [reflexivity|]. apply not_true_iff_false. intros E. rewrite Z.mod_small in E by lia. apply digit_char in E; lia.
    + apply (IH (n / 10)%Z). split; [apply Z.div_str_pos; lia|]. apply Z.div_lt_upper_bound; [lia|]. replace (Z.of_nat (S (S f))) with (1 + Z.of_nat (S f))%Z in H by lia.
      rewrite Z.pow_add_r in H by lia. change (2 ^ 1)%Z with 2%Z in H. lia.
Qed.
Lemma zdec_bound n : (0 <= n)%Z -> (0 <= n < 2 ^ Z.of_nat (S (Z.to_nat (Z.log2 n))))%Z.
Proof.
  intros H. split; [exact H|]. rewrite Nat2Z.inj_succ, Z2Nat.id by apply Z.log2_nonneg.
  destruct (Z.eq_dec n 0) as [->|N]; [reflexivity|]. apply Z.log2_spec. lia.
Qed.
Lemma zdec_val n : (0 <= n)%Z -> zval (zdec n) = n.
Proof. intros H. unfold zval, zdec. exact (zdec_aux_val _ n [] (zdec_bound n H)). Qed.
Lemma zdec_digits n : (0 <= n)%Z -> forallb is_digit (zdec n) = true.
Proof. intros H. apply zdec_aux_digits; [exact H|reflexivity]. Qed.
Lemma zdec_good n : (0 <= n)%Z -> good_digits (zdec n) = true.
Proof.
  intros H. destruct (Z.eq_dec n 0) as [->|N]; [vm_compute; reflexivity|].
  destruct (zdec_aux_head (Z.to_nat (Z.log2 n)) n []) as (c & r & E & C); [pose proof (zdec_bound n H); lia|].
  unfold zdec. rewrite E. unfold good_digits. rewrite C. reflexivity.
Qed.

(** ** Names *)
Lemma ident_check w : match w with [] => false | c :: r => is_idstart c && forallb is_idchar r end = true -> ident w.
Proof.
  destruct w as [|c r]; [discriminate|]. intros H. apply andb_true_iff in H. destruct H as [A B]. split; [exact A|]. apply forallb_forall. exact B.
Qed.
Lemma keyword_check w : existsb (eqb w) keywords = false -> ~ In w keywords.
Proof.
  intros H I. assert (E : existsb (eqb w) keywords = true) by (apply existsb_exists; exists w; split; [exact I|apply eqb_refl]). congruence.
Qed.

(** ** Printing expressions *)
Fixpoint print (x : px) : str :=
  match x with
  | XNone => $"None"
  | XBool true => $"True"
  | XBool false => $"False"
  | XInt z => repr_int z
  | XStr s => repr_str s
  | XList l => $"[" ++ join $", " (map print l) ++ $"]"
  | XTuple l => repr_tuple (map print l)
  | XCall f a k => f ++ $"(" ++ join $", " (map print a ++ map (fun y => fst y ++ $"=" ++ print (snd y)) k) ++ $")"
  end.
Definition name_ok (n : str) : Prop := ident n /\ ~ In n keywords.
Inductive good : px -> Prop :=
| gx_none : good XNone
| gx_bool b : good (XBool b)
| gx_int z : good (XInt z)
| gx_str s : good (XStr s)
| gx_list l : Forall good l -> good (XList l)
| gx_tuple l : Forall good l -> good (XTuple l)
| gx_call f a k : name_ok f -> Forall good a -> NoDup (map fst k) -> Forall (fun y => name_ok (fst y) /\ good (snd y)) k -> good (XCall f a k).
Section PxInd.
  Variable P : px -> Prop.
  Hypothesis (H1 : P XNone) (H2 : forall b, P (XBool b)) (H3 : forall z, P (XInt z)) (H4 : forall s, P (XStr s))
    (H5 : forall l, Forall P l -> P (XList l)) (H6 : forall l, Forall P l -> P (XTuple l))
    (H7 : forall f a k, Forall P a -> Forall (fun y => P (snd y)) k -> P (XCall f a k)).
  Fixpoint px_induct (x : px) : P x :=
    match x with
    | XNone => H1
    | XBool b => H2 b
    | XInt z => H3 z
    | XStr s => H4 s
    | XList l => H5 l ((fix each l := match l return Forall P l with [] => Forall_nil _ | y :: r => Forall_cons y (px_induct y) (each r) end) l)
    | XTuple l => H6 l ((fix each l := match l return Forall P l with [] => Forall_nil _ | y :: r => Forall_cons y (px_induct y) (each r) end) l)
    | XCall f a k => H7 f a k
        ((fix each l := match l return Forall P l with [] => Forall_nil _ | y :: r => Forall_cons y (px_induct y) (each r) end) a)
        ((fix each l := match l return Forall (fun y => P (snd y)) l with [] => Forall_nil _ | y :: r => Forall_cons y (px_induct (snd y)) (each r) end) k)
    end.
End PxInd.

(** ** Reading them *)
(** What may follow an expression. *)
Definition stop (r : str) : Prop := match r with [] => True | c :: _ => c = ","%char \/ c = ")"%char \/ c = "]"%char end.
(** What begins an expression. *)
Definition starts (s : str) : Prop :=
  match s with [] => False | c :: _ => is_blank c = false /\ cheq c ")" = false /\ cheq c "]" = false /\ cheq c "," = false end.
Lemma starts_app s r : starts s -> starts (s ++ r).
Proof. destruct s; [intros []|auto]. Qed.
Lemma starts_skip s : starts s -> skip s = s.
Proof. destruct s as [|c s]; [intros []|]. intros (A & _). unfold skip. cbn [drop_while]. rewrite A. reflexivity. Qed.
Lemma stop_skip r : stop r -> skip r = r.
Proof. destruct r as [|c r]; [reflexivity|]. intros [->|[->| ->]]; reflexivity. Qed.
Lemma stop_idchar r c x : stop r -> r = c :: x -> is_idchar c = false /\ is_digit c = false.
Proof. intros S1 ->. destruct S1 as [->|[->| ->]]; split; reflexivity. Qed.
Lemma starts_ident n : ident n -> starts n.
Proof.
  destruct n as [|c n]; [intros []|]. intros [A _]. assert (B : is_idstart c = true -> starts (c :: n)); [|exact (B A)]. clear.
  destruct c as [[] [] [] [] [] [] [] []]; vm_compute; intros E; try discriminate E; repeat split.
Qed.
Lemma starts_digit d : good_digits d = true -> forallb is_digit d = true -> starts d.
Proof.
  destruct d as [|c d]; [discriminate|]. intros _ H. cbn [forallb] in H. apply andb_true_iff in H. destruct H as [H _].
  assert (B : is_digit c = true -> starts (c :: d)); [|exact (B H)]. clear. destruct c as [[] [] [] [] [] [] [] []]; vm_compute; intros E; try discriminate E; repeat split.
Qed.
Lemma starts_print x : good x -> starts (print x).
Proof.
  intros G. destruct G as [|[]|z|s|l _|l _|f a k [N _] _ _ _]; cbn [print].
  - vm_compute. repeat split.
  - vm_compute. repeat split.
  - vm_compute. repeat split.
  - unfold repr_int. destruct (Z.ltb_spec z 0); [vm_compute; repeat split|]. apply starts_digit; [apply zdec_good; lia|apply zdec_digits; lia].
  - unfold repr_str. destruct (quote_cases s) as [->| ->]; vm_compute; repeat split.
  - vm_compute; repeat split.
  - unfold repr_tuple. destruct (map print l) as [|? [|? ?]]; vm_compute; repeat split.
  - apply starts_app. apply starts_ident. exact N.
Qed.
Lemma span_stop p d r : forallb p d = true -> (forall c x, r = c :: x -> p c = false) -> span p (d ++ r) = (d, r).
Proof.
  intros F H. induction d as [|c d IH]; cbn [app].
  - destruct r as [|c r]; [reflexivity|]. cbn [span]. rewrite (H c r eq_refl). reflexivity.
  - cbn [forallb] in F. apply andb_true_iff in F. destruct F as [A B]. cbn [span]. rewrite A, (IH B). reflexivity.
Qed.
Lemma read_number n r : (0 <= n)%Z -> stop r -> read_digits (zdec n ++ r) = Some (n, r).
Proof.
  intros H S1. unfold read_digits. rewrite span_stop; [rewrite zdec_good, zdec_val by exact H; reflexivity|apply zdec_digits; exact H|].
  intros c x E. apply (stop_idchar r c x S1 E).
Qed.
Lemma not_keyword n : ~ In n keywords -> mem n keywords = false /\ eqb n $"None" = false /\ eqb n $"True" = false /\ eqb n $"False" = false.
Proof.
  intros H. repeat split.
  - apply not_true_iff_false. intros E. apply H. apply (mem_In (K:=str)). exact E.
  - apply eqb_false. intros ->. apply H. right. left. reflexivity.
  - apply eqb_false. intros ->. apply H. right. right. left. reflexivity.
  - apply eqb_false. intros ->. apply H. left. reflexivity.
Qed.
Lemma ident_head n : ident n -> exists c r, n = c :: r /\ is_idstart c = true /\ forallb is_idchar n = true
  /\ cheq c squote = false /\ cheq c dquote = false /\ is_digit c = false /\ cheq c "-" = false /\ cheq c "[" = false /\ cheq c "(" = false.
Proof.
  intros ID. destruct (ident_idchars n ID) as [_ F]. destruct n as [|c n]; [destruct ID|]. exists c, n. destruct ID as [A _].
  split; [reflexivity|]. split; [exact A|]. split; [exact F|]. clear F. revert A.
  destruct c as [[] [] [] [] [] [] [] []]; vm_compute; intros E; try discriminate E; repeat split.
Qed.

(** The words in front of a text that is not an argument with a name. *)
Lemma no_keyword_argument x r : good x -> stop r -> keyword_argument (print x ++ r) = None.
Proof.
  intros G S1.
  assert (W : forall n y, ident n -> stop y \/ (exists z, y = "("%char :: z) -> keyword_argument (n ++ y) = None).
  { intros n y ID Y. destruct (ident_head n ID) as (c & n' & -> & A & F & _). unfold keyword_argument. cbn [app]. rewrite A.
    change (c :: n' ++ y) with ((c :: n') ++ y). rewrite span_stop; [|exact F|].
    - destruct Y as [Y|(z & ->)]; [rewrite stop_skip by exact Y|reflexivity]. destruct y as [|d y]; [reflexivity|]. destruct Y as [->|[->| ->]]; reflexivity.
    - intros d z ->. destruct Y as [Y|(z' & E)]; [apply (stop_idchar _ _ _ Y eq_refl)|]. injection E as -> _. reflexivity. }
  assert (D : forall y, starts y -> (forall c z, y = c :: z -> is_idstart c = false) -> keyword_argument (y ++ r) = None).
  { intros [|c y] []; intros H1. unfold keyword_argument. cbn [app]. rewrite (H1 c y eq_refl). reflexivity. }
  destruct G as [|[]|z|s|l _|l _|f a k [N _] _ _ _]; cbn [print].
  - apply W; [apply ident_check; vm_compute; reflexivity|left; exact S1].
  - apply W; [apply ident_check; vm_compute; reflexivity|left; exact S1].
  - apply W; [apply ident_check; vm_compute; reflexivity|left; exact S1].
  - apply D; [apply (starts_print (XInt z)); constructor|]. unfold repr_int. destruct (Z.ltb_spec z 0); intros c y E; [injection E as <- _; reflexivity|].
    pose proof (zdec_digits z) as F. rewrite E in F. cbn [forallb] in F. assert (F' : is_digit c = true) by (apply andb_true_iff in F; [tauto|lia]).
    revert F'. clear. destruct c as [[] [] [] [] [] [] [] []]; vm_compute; intros E; try discriminate E; reflexivity.
  - unfold repr_str. destruct (quote_cases s) as [->| ->]; reflexivity.
  - reflexivity.
  - unfold repr_tuple. destruct (map print l) as [|? [|? ?]]; reflexivity.
  - rewrite <- app_assoc. apply W; [exact N|]. right. eexists. reflexivity.
Qed.
Definition reads (x : px) : Prop := forall f rest, stop rest -> 2 * length (print x ++ rest) + 1 <= f -> read f (print x ++ rest) = Some (x, rest).
Definition closing (c : ascii) : Prop := c = ")"%char \/ c = "]"%char.
Lemma closing_stop c r : closing c -> stop (c :: r).
Proof. intros [->| ->]; cbn; auto. Qed.
Lemma closing_skip c r : closing c -> skip (c :: r) = c :: r.
Proof. intros [->| ->]; reflexivity. Qed.
Lemma starts_closing c s : closing c -> starts s -> exists d r, s = d :: r /\ cheq d c = false.
Proof. destruct s as [|d s]; [intros _ []|]. intros C (A & B & D & _). exists d, s. split; [reflexivity|]. destruct C as [->| ->]; assumption. Qed.
Lemma skip_length s : length (skip s) <= length s.
Proof. unfold skip. induction s as [|c s IH]; [apply le_n|]. cbn [drop_while]. destruct (is_blank c); cbn [length]; lia. Qed.
Ltac lengths := repeat (rewrite !app_length in * || cbn [length] in * ); lia.
Lemma reads_items l : Forall good l -> Forall reads l -> forall f c s rest, closing c -> skip s = join $", " (map print l) ++ c :: rest ->
  2 * length s + 2 <= f -> read_items f c s = Some (l, false, rest).
Proof.
  intros G R. induction R as [|x l X R IH]; intros f c s rest C E L; destruct f as [|f]; try lia; cbn [read_items].
  - rewrite E. cbn [map join app]. rewrite (proj2 (cheq_true c c) eq_refl). reflexivity.
  - inversion G as [|? ? G1 G2]; subst. rewrite E. pose proof (skip_length s) as SL. rewrite E in SL. cbn [map].
    destruct l as [|y l].
    + cbn [map join] in *. destruct (starts_closing c (print x ++ c :: rest) C (starts_app _ _ (starts_print x G1))) as (d & r & E1 & D).
      rewrite E1, D, <- E1. rewrite X; [|apply closing_stop; exact C|lia]. rewrite closing_skip by exact C. rewrite (proj2 (cheq_true c c) eq_refl). reflexivity.
    + assert (J : join $", " (map print (x :: y :: l)) = print x ++ $", " ++ join $", " (map print (y :: l))) by reflexivity.
      rewrite J, <- app_assoc in SL. change (print x :: map print (y :: l)) with (map print (x :: y :: l)). rewrite J, <- app_assoc.
      set (tl := ($", " ++ join $", " (map print (y :: l))) ++ c :: rest) in *.
      assert (T : tl = ","%char :: sp :: join $", " (map print (y :: l)) ++ c :: rest) by reflexivity.
      destruct (starts_closing c (print x ++ tl) C (starts_app _ _ (starts_print x G1))) as (d & r & E1 & D).
      rewrite E1, D, <- E1. rewrite X; [|rewrite T; cbn; auto|lia]. rewrite T.
      change (skip (","%char :: ?z)) with (","%char :: z). cbv iota.
      assert (CC : cheq "," c = false) by (destruct C as [->| ->]; reflexivity). rewrite CC. change (cheq "," ",") with true. cbv iota.
      rewrite (IH G2 f c (sp :: join $", " (map print (y :: l)) ++ c :: rest) rest C); [reflexivity| |].
      * change (skip (sp :: ?z)) with (skip z). apply starts_skip. apply starts_app. inversion G2 as [|? ? G3 _]; subst. destruct l as [|y' l'].
        -- apply starts_print. exact G3.
        -- change (join $", " (map print (y :: y' :: l'))) with (print y ++ $", " ++ join $", " (map print (y' :: l'))). apply starts_app. apply starts_print. exact G3.
      * rewrite T in SL. lengths.
Qed.
Definition print_kw (y : str * px) : str := fst y ++ $"=" ++ print (snd y).
Lemma join_cons (sep : str) a l : l <> [] -> join sep (a :: l) = a ++ sep ++ join sep l.
Proof. destruct l; [contradiction|reflexivity]. Qed.
Lemma join_starts l : l <> [] -> Forall starts l -> starts (join $", " l).
Proof. destruct l as [|a [|b l]]; [contradiction| |]; intros _ F; inversion F; subst; [assumption|]. rewrite join_cons by discriminate. apply starts_app. assumption. Qed.
Lemma named_argument n x r : ident n -> good x -> keyword_argument (n ++ $"=" ++ print x ++ r) = Some (n, print x ++ r).
Proof.
  intros ID G. destruct (ident_head n ID) as (c & n' & E & A & F & _). unfold keyword_argument. rewrite E. cbn [app]. rewrite A.
  change (c :: n' ++ ?y) with ((c :: n') ++ y). rewrite <- E. rewrite span_stop; [|exact F|intros d z X; injection X as <- _; reflexivity].
  change (skip ($"=" ++ ?y)) with ("="%char :: y). cbv iota. change (cheq "=" "=") with true. cbn [andb].
  pose proof (starts_print x G) as S1.
  assert (Q : starts_with $"=" (print x ++ r) = false).
  { destruct (print x) as [|d s] eqn:P; [destruct S1|]. cbn [app]. apply not_true_iff_false. intros X. change (starts_with $"=" (d :: s ++ r)) with (cheq "=" d && true) in X.
    rewrite andb_true_r in X. apply cheq_true in X. subst d. revert P. clear - G. destruct G as [|[]|z|t|l _|l _|f a k [N _] _ _ _]; cbn [print]; try discriminate.
    - unfold repr_int. destruct (Z.ltb_spec z 0); [discriminate|]. intros E. pose proof (zdec_digits z) as D. rewrite E in D. specialize (D H). discriminate D.
    - unfold repr_str. destruct (quote_cases t) as [->| ->]; discriminate.
    - unfold repr_tuple. destruct (map print l) as [|? [|? ?]]; discriminate.
    - destruct f as [|c f]; [destruct N|]. intros E. injection E as -> _. destruct N as [N _]. discriminate N. }
  rewrite Q. reflexivity.
Qed.
Lemma reads_kw k : NoDup (map fst k) -> Forall (fun y => name_ok (fst y) /\ good (snd y)) k -> Forall (fun y => reads (snd y)) k -> forall f s rest,
  skip s = join $", " (map print_kw k) ++ ")"%char :: rest -> 2 * length s + 2 <= f -> read_args f s = Some ([], k, rest).
Proof.
  intros ND G R. induction R as [|[n x] k X R IH]; intros f s rest E L; destruct f as [|f]; try lia; cbn [read_args].
  - rewrite E. reflexivity.
  - cbn [map fst] in ND. inversion ND as [|? ? NI ND']; subst. inversion G as [|? ? [[N1 N2] G1] G2]; subst. cbn [fst snd] in *.
    rewrite E. pose proof (skip_length s) as SL. rewrite E in SL. cbn [map].
    assert (J : exists tl, join $", " (print_kw (n, x) :: map print_kw k) ++ ")"%char :: rest = n ++ $"=" ++ print x ++ tl /\ stop tl
       /\ (k = [] /\ tl = ")"%char :: rest \/ k <> [] /\ tl = ","%char :: sp :: join $", " (map print_kw k) ++ ")"%char :: rest)).
    { destruct k as [|y k]; [exists (")"%char :: rest)|exists (","%char :: sp :: join $", " (map print_kw (y :: k)) ++ ")"%char :: rest)].
      - cbn [map join]. unfold print_kw. cbn [fst snd]. rewrite <- !app_assoc. split; [reflexivity|]. split; [cbn; auto|left; auto].
      - rewrite join_cons by discriminate. unfold print_kw at 1. cbn [fst snd]. rewrite <- !app_assoc. split; [reflexivity|]. split; [cbn; auto|right; split; [discriminate|reflexivity]]. }
    destruct J as (tl & J & ST & TL). rewrite E in L || idtac. cbn [map] in SL. rewrite J in SL |- *.
    destruct (starts_closing ")" (n ++ $"=" ++ print x ++ tl) (or_introl eq_refl) (starts_app _ _ (starts_ident n N1))) as (d & r & E1 & D).
    rewrite E1, D, <- E1. rewrite (named_argument n x tl N1 G1). rewrite (proj1 (not_keyword n N2)). rewrite X; [|exact ST|lengths].
    rewrite (stop_skip tl ST).
    destruct TL as [[-> ->]|[NE ->]].
    + change (cheq ")" ")") with true. cbv iota. reflexivity.
    + change (cheq "," ")") with false. change (cheq "," ",") with true. cbv iota.
      rewrite (IH ND' G2 f (sp :: join $", " (map print_kw k) ++ ")"%char :: rest) rest).
      * assert (M : mem n (map fst k) = false) by (apply not_true_iff_false; intros M; apply NI; apply (mem_In (K:=str)); exact M). rewrite M. reflexivity.
      * change (skip (sp :: ?z)) with (skip z). apply starts_skip. apply starts_app. apply join_starts; [destruct k; [contradiction|discriminate]|].
        apply Forall_forall. intros y I1. apply in_map_iff in I1. destruct I1 as (z & <- & I1). rewrite Forall_forall in G2. destruct (G2 z I1) as [[N3 _] _].
        unfold print_kw. apply starts_app. apply starts_ident. exact N3.
      * lengths.
Qed.
Lemma reads_args a k : Forall good a -> Forall reads a -> NoDup (map fst k) -> Forall (fun y => name_ok (fst y) /\ good (snd y)) k -> Forall (fun y => reads (snd y)) k ->
  forall f s rest, skip s = join $", " (map print a ++ map print_kw k) ++ ")"%char :: rest -> 2 * length s + 2 <= f -> read_args f s = Some (a, k, rest).
Proof.
  intros GA RA ND GK RK. induction RA as [|x a X RA IH]; intros f s rest E L; [apply reads_kw; assumption|].
  destruct f as [|f]; [lia|]. cbn [read_args]. inversion GA as [|? ? G1 G2]; subst. rewrite E. pose proof (skip_length s) as SL. rewrite E in SL. cbn [map app].
  set (l := map print a ++ map print_kw k) in *.
  assert (J : exists tl, join $", " (print x :: l) ++ ")"%char :: rest = print x ++ tl /\ stop tl
       /\ (l = [] /\ tl = ")"%char :: rest \/ l <> [] /\ tl = ","%char :: sp :: join $", " l ++ ")"%char :: rest)).
  { destruct l as [|y l']; [exists (")"%char :: rest)|exists (","%char :: sp :: join $", " (y :: l') ++ ")"%char :: rest)].
    - split; [reflexivity|]. split; [cbn; auto|left; auto].
    - rewrite join_cons by discriminate. rewrite <- !app_assoc. split; [reflexivity|]. split; [cbn; auto|right; split; [discriminate|reflexivity]]. }
  destruct J as (tl & J & ST & TL). cbn [map app] in SL. fold l in SL. rewrite J in SL |- *.
  destruct (starts_closing ")" (print x ++ tl) (or_introl eq_refl) (starts_app _ _ (starts_print x G1))) as (d & r & E1 & D).
  rewrite E1, D, <- E1. rewrite (no_keyword_argument x tl G1 ST). rewrite X; [|exact ST|lia]. rewrite (stop_skip tl ST).
  destruct TL as [[LE ->]|[NE ->]].
  - change (cheq ")" ")") with true. cbv iota. unfold l in LE. apply app_eq_nil in LE. destruct LE as [LA LK]. apply map_eq_nil in LA, LK. subst a k. reflexivity.
  - change (cheq "," ")") with false. change (cheq "," ",") with true. cbv iota.
    rewrite (IH G2 f (sp :: join $", " l ++ ")"%char :: rest) rest); [reflexivity| |lengths].
    change (skip (sp :: ?z)) with (skip z). apply starts_skip. apply starts_app. apply join_starts; [exact NE|]. apply Forall_app. split.
    + apply Forall_forall. intros y I1. apply in_map_iff in I1. destruct I1 as (z & <- & I1). rewrite Forall_forall in G2. apply starts_print. auto.
    + apply Forall_forall. intros y I1. apply in_map_iff in I1. destruct I1 as (z & <- & I1). rewrite Forall_forall in GK. destruct (GK z I1) as [[N3 _] _].
      unfold print_kw. apply starts_app. apply starts_ident. exact N3.
Qed.
Lemma read_word f w r : ident w -> (forall c x, r = c :: x -> is_idchar c = false) -> read (S f) (w ++ r) =
  if eqb w $"None" then Some (XNone, r) else if eqb w $"True" then Some (XBool true, r)
  else if eqb w $"False" then Some (XBool false, r) else if mem w keywords then None
  else match skip r with
       | d :: r2 => if cheq d "(" then match read_args f r2 with Some (a, k, r3) => Some (XCall w a k, r3) | None => None end else None
       | [] => None
       end.
Proof.
  intros ID H. pose proof (starts_skip _ (starts_app w r (starts_ident w ID))) as SK. destruct (ident_head w ID) as (c & n & E & A & F & H1 & H2 & H3 & H4 & H5 & H6).
  cbn [read]. rewrite SK. rewrite E at 1. cbn [app]. rewrite H1, H2, H3, H4, H5, H6, A. cbn [orb].
  change (c :: n ++ r) with ((c :: n) ++ r). rewrite <- E. rewrite (span_stop is_idchar w r F H). reflexivity.
Qed.
Lemma reads_print x : good x -> reads x.
Proof.
  induction x as [|b|z|s|l IH|l IH|n a k IA IK] using px_induct; intros G f rest ST L; destruct f as [|f]; try lia; inversion G as [|b'|z'|s'|l' GL|l' GL|n' a' k' [N1 N2] GA ND GK]; subst.
  - cbn [print]. rewrite read_word; [reflexivity|apply ident_check; vm_compute; reflexivity|intros c y E; apply (stop_idchar _ _ _ ST E)].
  - destruct b; cbn [print]; rewrite read_word; try reflexivity; try (apply ident_check; vm_compute; reflexivity); intros c y E; apply (stop_idchar _ _ _ ST E).
  - cbn [read]. rewrite (starts_skip _ (starts_app _ rest (starts_print (XInt z) G))). cbn [print]. unfold repr_int in *. destruct (Z.ltb_spec z 0) as [H|H].
    + cbn [app]. change ($"-" ++ ?y) with ("-"%char :: y). cbn [app]. change (cheq "-" squote || cheq "-" dquote) with false. change (is_digit "-") with false. change (cheq "-" "-") with true. cbv iota.
      rewrite starts_skip by (apply starts_app, starts_digit; [apply zdec_good; lia|apply zdec_digits; lia]).
      rewrite read_number by (lia || exact ST). rewrite Z.opp_involutive. reflexivity.
    + pose proof (read_number z rest H ST) as RN. pose proof (zdec_digits z H) as D. pose proof (zdec_good z H) as GD. destruct (zdec z) as [|c d]; [discriminate GD|]. cbn [app] in *.
      cbn [forallb] in D. apply andb_true_iff in D. destruct D as [D _]. rewrite RN, D.
      assert (Q : cheq c squote || cheq c dquote = false) by (revert D; clear; destruct c as [[] [] [] [] [] [] [] []]; vm_compute; intros E; try discriminate E; reflexivity).
      rewrite Q. reflexivity.
  - cbn [read]. rewrite (starts_skip _ (starts_app _ rest (starts_print (XStr s) G))). cbn [print]. unfold repr_str. cbn [app]. rewrite <- app_assoc. cbn [app].
    rewrite read_chars by apply quote_cases. destruct (quote_cases s) as [->| ->]; reflexivity.
  - cbn [read]. rewrite (starts_skip _ (starts_app _ rest (starts_print (XList l) G))). cbn [print]. change ($"[" ++ ?y) with ("["%char :: y). cbn [app].
    change (cheq "[" squote || cheq "[" dquote) with false. change (is_digit "[") with false. change (cheq "[" "-") with false. change (cheq "[" "[") with true. cbv iota.
    rewrite <- app_assoc. cbn [app].
    assert (R : Forall reads l) by (rewrite Forall_forall in *; intros y I1; apply IH; auto).
    rewrite (reads_items l GL R f "]" _ rest); [reflexivity|right; reflexivity| |].
    + destruct l as [|y l]; [reflexivity|]. apply starts_skip. apply starts_app. apply join_starts; [discriminate|]. apply Forall_forall. intros t I1. apply in_map_iff in I1.
      destruct I1 as (u & <- & I1). rewrite Forall_forall in GL. apply starts_print. auto.
    + cbn [print] in L. change ($"[" ++ ?y) with ("["%char :: y) in L. change $"]" with ["]"%char] in *. lengths.
  - cbn [read]. rewrite (starts_skip _ (starts_app _ rest (starts_print (XTuple l) G))).
    assert (R : Forall reads l) by (rewrite Forall_forall in *; intros y I1; apply IH; auto).
    assert (HD : exists y, print (XTuple l) = "("%char :: y) by (cbn [print]; unfold repr_tuple; destruct (map print l) as [|? [|? ?]]; eexists; reflexivity).
    destruct HD as (y & HD). rewrite HD in L |- *. cbn [app] in L |- *.
    change (cheq "(" squote || cheq "(" dquote) with false. change (is_digit "(") with false. change (cheq "(" "-") with false. change (cheq "(" "[") with false. change (cheq "(" "(") with true. cbv iota.
    destruct l as [|x1 [|x2 l]].
    + assert (y = [")"%char]) by (vm_compute in HD; congruence). subst y. rewrite (reads_items [] GL R f ")" _ rest); [reflexivity|left; reflexivity|reflexivity|lengths].
    + assert (y = print x1 ++ $",)") by (change (print (XTuple [x1])) with ("("%char :: print x1 ++ $",)") in HD; congruence). subst y. destruct f as [|f]; [lengths|]. cbn [read_items].
      inversion GL as [|? ? G1 _]; subst. inversion R as [|? ? R1 _]; subst. rewrite <- app_assoc in L |- *.
      rewrite (starts_skip _ (starts_app _ ($",)" ++ rest) (starts_print x1 G1))).
      destruct (starts_closing ")" (print x1 ++ $",)" ++ rest) (or_introl eq_refl) (starts_app _ _ (starts_print x1 G1))) as (d & r & E1 & D).
      rewrite E1, D, <- E1. rewrite R1; [|cbn; auto|lengths]. change ($",)" ++ rest) with (","%char :: ")"%char :: rest) in L |- *. change (skip (","%char :: ?z)) with (","%char :: z). cbv iota.
      change (cheq "," ")") with false. change (cheq "," ",") with true. cbv iota. destruct f as [|f]; [lengths|]. reflexivity.
    + assert (y = join $", " (map print (x1 :: x2 :: l)) ++ $")") by (change (print (XTuple (x1 :: x2 :: l))) with ("("%char :: join $", " (map print (x1 :: x2 :: l)) ++ $")") in HD; congruence). subst y.
      rewrite <- app_assoc in L |- *. change ($")" ++ rest) with (")"%char :: rest) in L |- *.
      rewrite (reads_items (x1 :: x2 :: l) GL R f ")" _ rest); [reflexivity|left; reflexivity| |].
      * apply starts_skip. apply starts_app. apply join_starts; [discriminate|]. apply Forall_forall. intros t I1. apply in_map_iff in I1.
        destruct I1 as (u & <- & I1). rewrite Forall_forall in GL. apply starts_print. auto.
      * lengths.
  - cbn [print] in L |- *. rewrite <- !app_assoc in L |- *. change ($"(" ++ ?y) with ("("%char :: y) in L |- *. change ($")" ++ rest) with (")"%char :: rest) in L |- *.
    rewrite read_word; [|exact N1|intros c y E; injection E as <- _; reflexivity].
    destruct (not_keyword n N2) as (K1 & K2 & K3 & K4). rewrite K1, K2, K3, K4. change (skip ("("%char :: ?y)) with ("("%char :: y). cbv iota. change (cheq "(" "(") with true. cbv iota.
    assert (RA : Forall reads a) by (rewrite Forall_forall in *; intros y I1; apply IA; auto).
    assert (RK : Forall (fun y => reads (snd y)) k) by (rewrite Forall_forall in *; intros y I1; apply IK; [|apply GK]; auto).
    change (map (fun y => fst y ++ $"=" ++ print (snd y)) k) with (map print_kw k) in *.
    rewrite (reads_args a k GA RA ND GK RK f _ rest); [reflexivity| |lengths].
    destruct (map print a ++ map print_kw k) as [|t l] eqn:E; [reflexivity|]. apply starts_skip. apply starts_app. apply join_starts; [discriminate|]. rewrite <- E. apply Forall_app. split.
    + apply Forall_forall. intros y I1. apply in_map_iff in I1. destruct I1 as (z & <- & I1). rewrite Forall_forall in GA. apply starts_print. auto.
    + apply Forall_forall. intros y I1. apply in_map_iff in I1. destruct I1 as (z & <- & I1). rewrite Forall_forall in GK. destruct (GK z I1) as [[N3 _] _].
      unfold print_kw. apply starts_app. apply starts_ident. exact N3.
Qed.

(** ** Objects *)
(** The expression that [repr] prints. *)
Fixpoint syn (o : py) : px :=
  match o with
  | PNone | POpaque _ => XNone
  | PBool b => XBool b
  | PInt z => XInt z
  | PStr s => XStr s
  | PList l => XList (map syn l)
  | PTuple l => XTuple (map syn l)
  | PType l q => XCall $"Type" (map syn l) (if existsb truth (elements q) then [($"type_quals", syn q)] else [])
  | PComp u l p => XCall (if u then $"Union" else $"Struct") (map syn l) (match p with PNone => [] | _ => [($"pack", syn p)] end)
  | PEnum d => XCall $"Enum" [] (sort_items (map (fun x => (fst x, syn (snd x))) d))
  end.
Section PyInd.
  Variable P : py -> Prop.
  Hypothesis (H1 : P PNone) (H2 : forall b, P (PBool b)) (H3 : forall z, P (PInt z)) (H4 : forall s, P (PStr s))
    (H5 : forall l, Forall P l -> P (PList l)) (H6 : forall l, Forall P l -> P (PTuple l))
    (H7 : forall l q, Forall P l -> P q -> P (PType l q)) (H8 : forall u l p, Forall P l -> P p -> P (PComp u l p))
    (H9 : forall d, Forall (fun x => P (snd x)) d -> P (PEnum d)) (H10 : forall t, P (POpaque t)).
  Fixpoint py_induct (o : py) : P o :=
    match o with
    | PNone => H1
    | PBool b => H2 b
    | PInt z => H3 z
    | PStr s => H4 s
    | PList l => H5 l ((fix each l := match l return Forall P l with [] => Forall_nil _ | y :: r => Forall_cons y (py_induct y) (each r) end) l)
    | PTuple l => H6 l ((fix each l := match l return Forall P l with [] => Forall_nil _ | y :: r => Forall_cons y (py_induct y) (each r) end) l)
    | PType l q => H7 l q ((fix each l := match l return Forall P l with [] => Forall_nil _ | y :: r => Forall_cons y (py_induct y) (each r) end) l) (py_induct q)
    | PComp u l p => H8 u l p ((fix each l := match l return Forall P l with [] => Forall_nil _ | y :: r => Forall_cons y (py_induct y) (each r) end) l) (py_induct p)
    | PEnum d => H9 d ((fix each l := match l return Forall (fun y => P (snd y)) l with [] => Forall_nil _ | y :: r => Forall_cons y (py_induct (snd y)) (each r) end) d)
    | POpaque t => H10 t
    end.
End PyInd.

(** Sorting *)
Lemma insert_map {V W} (g : V -> W) (x : str * V) l :
  insert_item (fst x, g (snd x)) (map (fun y => (fst y, g (snd y))) l) = map (fun y => (fst y, g (snd y))) (insert_item x l).
Proof.
  induction l as [|y l IH]; [reflexivity|]. cbn [insert_item map fst]. destruct (str_leb (fst x) (fst y)); [reflexivity|]. cbn [map]. f_equal. exact IH.
Qed.
Lemma sort_map {V W} (g : V -> W) l : sort_items (map (fun y => (fst y, g (snd y))) l) = map (fun y => (fst y, g (snd y))) (sort_items l).
Proof. induction l as [|x l IH]; [reflexivity|]. cbn [map sort_items fold_right]. fold (@sort_items W). fold (@sort_items V). unfold sort_items in *. rewrite IH. apply insert_map. Qed.
Lemma insert_perm {V} (x : str * V) l : Permutation (x :: l) (insert_item x l).
Proof.
  induction l as [|y l IH]; [apply Permutation_refl|]. cbn [insert_item]. destruct (str_leb (fst x) (fst y)); [apply Permutation_refl|].
  apply perm_trans with (y :: x :: l); [apply perm_swap|apply perm_skip; exact IH].
Qed.
Lemma sort_perm {V} (l : list (str * V)) : Permutation l (sort_items l).
Proof. induction l as [|x l IH]; [apply perm_nil|]. cbn [sort_items fold_right]. apply perm_trans with (x :: sort_items l); [apply perm_skip; exact IH|apply insert_perm]. Qed.

Lemma join_snoc (sep : str) l a : l <> [] -> join sep (l ++ [a]) = join sep l ++ sep ++ a.
Proof.
  induction l as [|x l IH]; intros N; [contradiction|]. destruct l as [|y l]; [reflexivity|].
  change ((x :: y :: l) ++ [a]) with (x :: (y :: l) ++ [a]). rewrite join_cons by discriminate. rewrite IH by discriminate. rewrite (join_cons sep x (y :: l)) by discriminate.
  rewrite <- !app_assoc. reflexivity.
Qed.
Lemma repr_print o : printable o -> repr o = print (syn o).
Proof.
  induction o as [|b|z|s|l IH|l IH|l q IL IQ|u l p IL IP|d ID|t] using py_induct; intros PR; inversion PR as [| | | |l' PL|l' PL|l' qs NE PL PQ LN C|u' l' p' PL PP C|d' ND F]; subst; try reflexivity.
  - cbn [repr syn print]. rewrite map_map. do 3 f_equal. apply map_ext_in. intros x I1. rewrite Forall_forall in *. auto.
  - cbn [repr syn print]. rewrite map_map. f_equal. apply map_ext_in. intros x I1. rewrite Forall_forall in *. auto.
  - cbn [syn print]. assert (E : map print (map syn l) = map repr l).
    { rewrite map_map. apply map_ext_in. intros x I1. rewrite Forall_forall in *. symmetry. auto. }
    rewrite E. change (repr (PType l (PTuple qs))) with
      ($"Type(" ++ join $", " (map repr l) ++ (if existsb truth (elements (PTuple qs)) then $", type_quals=" ++ repr (PTuple qs) else []) ++ $")").
    destruct (existsb truth (elements (PTuple qs))).
    + cbn [map fst snd]. rewrite join_snoc by (destruct l; [contradiction|discriminate]).
      rewrite IQ by (constructor; exact PQ). rewrite <- !app_assoc. reflexivity.
    + cbn [map]. rewrite app_nil_r. reflexivity.
  - assert (E : map print (map syn l) = map repr l).
    { rewrite map_map. apply map_ext_in. intros x I1. rewrite Forall_forall in *. symmetry. auto. }
    assert (K : repr (PComp u l p) = (if u then $"Union" else $"Struct") ++ $"(" ++ join $", " (map repr l) ++ match p with PNone => [] | _ => $", pack=" ++ repr p end ++ $")") by reflexivity.
    rewrite K. cbn [syn print]. rewrite E.
    assert (D : p = PNone \/ p <> PNone /\ match p with PNone => [] | _ => [($"pack", syn p)] end = [($"pack", syn p)] /\ match p with PNone => [] | _ => $", pack=" ++ repr p end = $", pack=" ++ repr p)
      by (destruct p; auto; right; (split; [discriminate|split; reflexivity])).
    destruct D as [->|(NP & -> & ->)].
    + cbn [map]. rewrite app_nil_r. reflexivity.
    + destruct C as [C|C]; [|contradiction].
      cbn [map fst snd]. rewrite join_snoc by (destruct l; [contradiction|discriminate]). rewrite IP by exact PP. rewrite <- !app_assoc. reflexivity.
  - cbn [repr syn print map app]. rewrite (sort_map repr), (sort_map syn). rewrite !map_map. cbn [fst snd].
    assert (E : map (fun x => fst x ++ $"=" ++ repr (snd x)) (sort_items d) = map (fun x => fst x ++ $"=" ++ print (syn (snd x))) (sort_items d)).
    { apply map_ext_in. intros x I1. rewrite Forall_forall in *.
      assert (I2 : In x d) by (apply (Permutation_in x (Permutation_sym (sort_perm d)) I1)). rewrite (ID x I2); [reflexivity|]. apply F. exact I2. }
    rewrite E. reflexivity.
Qed.
Lemma good_syn o : printable o -> good (syn o).
Proof.
  induction o as [|b|z|s|l IH|l IH|l q IL IQ|u l p IL IP|d ID|t] using py_induct; intros PR; inversion PR as [| | | |l' PL|l' PL|l' qs NE PL PQ LN C|u' l' p' PL PP C|d' ND F]; subst; cbn [syn].
  - apply gx_none.
  - apply gx_bool.
  - apply gx_int.
  - apply gx_str.
  - apply gx_list. apply Forall_map. rewrite Forall_forall in *. auto.
  - apply gx_tuple. apply Forall_map. rewrite Forall_forall in *. auto.
  - apply gx_call.
    + split; [apply ident_check; vm_compute; reflexivity|apply keyword_check; vm_compute; reflexivity].
    + apply Forall_map. rewrite Forall_forall in *. auto.
    + destruct (existsb _ _); [cbn [map fst]|]; repeat constructor. intros [].
    + destruct (existsb _ _); constructor; [|constructor]. split; [split; [apply ident_check; vm_compute; reflexivity|apply keyword_check; vm_compute; reflexivity]|].
      cbn [snd]. apply IQ. constructor. exact PQ.
  - apply gx_call.
    + destruct u; (split; [apply ident_check; vm_compute; reflexivity|apply keyword_check; vm_compute; reflexivity]).
    + apply Forall_map. rewrite Forall_forall in *. auto.
    + destruct p; [constructor|..]; (constructor; [intros []|constructor]).
    + destruct p; [constructor|..]; (constructor; [|constructor]; (split; [split; [apply ident_check; vm_compute; reflexivity|apply keyword_check; vm_compute; reflexivity]|])); cbn [snd]; apply IP; exact PP.
  - rewrite sort_map. apply gx_call.
    + split; [apply ident_check; vm_compute; reflexivity|apply keyword_check; vm_compute; reflexivity].
    + constructor.
    + rewrite map_map. cbn [fst]. apply (Permutation_NoDup (Permutation_map fst (sort_perm d))). exact ND.
    + apply Forall_map. cbn [fst snd]. apply Forall_forall. intros x I1. assert (I2 : In x d) by (apply (Permutation_in x (Permutation_sym (sort_perm d)) I1)).
      rewrite Forall_forall in *. destruct (F x I2) as (A & B & _ & D). split; [split; assumption|apply ID; assumption].
Qed.
Definition evaluate_all : list px -> res (list py) :=
  fix each l := match l with [] => Ok [] | x :: r => do v <- evaluate x; do vs <- each r; Ok (v :: vs) end.
Definition evaluate_kw : list (str * px) -> res (list (str * py)) :=
  fix each l := match l with [] => Ok [] | (n, x) :: r => do v <- evaluate x; do vs <- each r; Ok ((n, v) :: vs) end.
Lemma all_alike l : Forall (fun o => exists o', evaluate (syn o) = Ok o' /\ alike o o') l -> exists vs, evaluate_all (map syn l) = Ok vs /\ Forall2 alike l vs.
Proof.
  induction 1 as [|o l (o' & E & A) F (vs & EV & FA)]; [exists []; split; [reflexivity|constructor]|]. exists (o' :: vs).
  split; [|constructor; assumption]. cbn [map evaluate_all]. rewrite E. cbn [bind]. rewrite EV. reflexivity.
Qed.
Lemma kw_alike d : Forall (fun x => exists o', evaluate (syn (snd x)) = Ok o' /\ alike (snd x) o') d ->
  exists vs, evaluate_kw (map (fun x => (fst x, syn (snd x))) d) = Ok vs /\ Forall2 (fun x y => fst x = fst y /\ alike (snd x) (snd y)) d vs.
Proof.
  induction 1 as [|[n o] d (o' & E & A) F (vs & EV & FA)]; [exists []; split; [reflexivity|constructor]|]. exists ((n, o') :: vs). cbn [fst snd] in *.
  split; [|constructor; [split; [reflexivity|exact A]|assumption]]. cbn [map evaluate_kw fst snd]. rewrite E. cbn [bind]. rewrite EV. reflexivity.
Qed.
Lemma forall2_length {A B} (R : A -> B -> Prop) l l' : Forall2 R l l' -> length l = length l'.
Proof. induction 1; cbn [length]; congruence. Qed.
Lemma evaluate_length l : forall vs, evaluate_all l = Ok vs -> length vs = length l.
Proof.
  induction l as [|x l IH]; intros vs E; cbn [evaluate_all] in E; [assert (vs = []) by congruence; subst; reflexivity|].
  destruct (evaluate x) as [v|]; [|discriminate E]. cbn [bind] in E. fold evaluate_all in E. destruct (evaluate_all l) as [w|]; [|discriminate E]. cbn [bind] in E.
  assert (vs = v :: w) by congruence. subst vs. cbn [length]. rewrite (IH w eq_refl). reflexivity.
Qed.
Lemma evaluate_syn o : printable o -> exists o', evaluate (syn o) = Ok o' /\ alike o o'.
Proof.
  induction o as [|b|z|s|l IH|l IH|l q IL IQ|u l p IL IP|d ID|t] using py_induct; intros PR; inversion PR as [| | | |l' PL|l' PL|l' qs NE PL PQ LN C|u' l' p' PL PP C|d' ND F]; subst; cbn [syn].
  - exists PNone. split; [reflexivity|constructor].
  - exists (PBool b). split; [reflexivity|constructor].
  - exists (PInt z). split; [reflexivity|constructor].
  - exists (PStr s). split; [reflexivity|constructor].
  - destruct (all_alike l) as (vs & E & A); [rewrite Forall_forall in *; auto|]. exists (PList vs). split; [|apply al_list; exact A].
    change (evaluate (XList (map syn l))) with (do vs <- evaluate_all (map syn l); Ok (PList vs)). rewrite E. reflexivity.
  - destruct (all_alike l) as (vs & E & A); [rewrite Forall_forall in *; auto|]. exists (PTuple vs). split; [|apply al_tuple; exact A].
    change (evaluate (XTuple (map syn l))) with (do vs <- evaluate_all (map syn l); Ok (PTuple vs)). rewrite E. reflexivity.
  - destruct (all_alike l) as (vs & E & A); [rewrite Forall_forall in *; auto|]. pose proof (forall2_length _ _ _ A) as LV.
    change (evaluate (XCall $"Type" (map syn l) ?k)) with (do vs <- evaluate_all (map syn l); do ks <- evaluate_kw k; new_type vs ks). rewrite E. cbn [bind].
    assert (NV : exists v vs', vs = v :: vs') by (destruct vs as [|v vs']; [destruct l; [contradiction|discriminate LV]|eauto]).
    cbn [elements]. destruct (existsb truth qs) eqn:X.
    + destruct (IQ (pr_tuple qs PQ)) as (o' & E' & A'). cbn [syn] in E'.
      change (evaluate (XTuple (map syn qs))) with (do vs <- evaluate_all (map syn qs); Ok (PTuple vs)) in E'.
      destruct (evaluate_all (map syn qs)) as [ws|] eqn:W; [|discriminate E']. cbn [bind] in E'. assert (o' = PTuple ws) by congruence. subst o'.
      pose proof (evaluate_length _ _ W) as LW. rewrite map_length in LW.
      cbn [evaluate_kw]. cbn [syn]. change (evaluate (XTuple (map syn qs))) with (do vs <- evaluate_all (map syn qs); Ok (PTuple vs)). rewrite W. cbn [bind].
      exists (PType vs (PTuple ws)). split; [|apply al_type; assumption]. destruct NV as (v & vs' & ->). destruct ws as [|w ws']; [destruct qs; [discriminate X|discriminate LW]|].
      unfold new_type, pop_kw. cbn [dget]. rewrite eqb_refl. cbn [truth py_len bind ddel].
      assert (Q : length (w :: ws') =? length (v :: vs') = true) by (apply Nat.eqb_eq; congruence). rewrite Q. cbn [negb]. rewrite eqb_refl. reflexivity.
    + cbn [evaluate_kw bind]. exists (PType vs (PTuple (repeat (PTuple []) (length vs)))). split.
      * destruct NV as (v & vs' & ->). unfold new_type, pop_kw. cbn [dget truth py_len bind ddel empty negb]. rewrite repeat_length, Nat.eqb_refl. reflexivity.
      * assert (Q : PTuple qs = PTuple (repeat (PTuple []) (length vs))); [|rewrite <- Q; apply al_type; [exact A|apply al_same]].
        f_equal. rewrite <- LV, <- LN. destruct C as [C|C]; [congruence|]. clear - C. induction C as [|q qs -> C IH]; [reflexivity|]. cbn [length repeat]. congruence.
  - destruct (all_alike l) as (vs & E & A); [rewrite Forall_forall in *; auto|].
    assert (D : p = PNone \/ p <> PNone /\ match p with PNone => [] | _ => [($"pack", syn p)] end = [($"pack", syn p)]) by (destruct p; auto; right; (split; [discriminate|reflexivity])).
    assert (K : forall k, evaluate (XCall (if u then $"Union" else $"Struct") (map syn l) k) = do vs <- evaluate_all (map syn l); do ks <- evaluate_kw k; new_comp u vs ks) by (destruct u; reflexivity).
    rewrite K, E. cbn [bind]. destruct D as [->|[NP ->]].
    + exists (PComp u vs PNone). split; [reflexivity|apply al_comp; [exact A|apply al_same]].
    + destruct (IP PP) as (p' & EP & AP). cbn [evaluate_kw]. rewrite EP. cbn [bind]. exists (PComp u vs p'). split; [|apply al_comp; assumption].
      unfold new_comp, pop_kw. cbn [dget ddel]. rewrite eqb_refl. reflexivity.
  - rewrite sort_map. destruct (kw_alike (sort_items d)) as (vs & E & A).
    { apply Forall_forall. intros x I1. assert (I2 : In x d) by (apply (Permutation_in x (Permutation_sym (sort_perm d)) I1)). rewrite Forall_forall in *. apply ID; [exact I2|apply F; exact I2]. }
    change (evaluate (XCall $"Enum" [] ?k)) with (do ks <- evaluate_kw k; new_enum [] ks). rewrite E. cbn [bind]. exists (PEnum vs).
    split; [|apply (al_enum d (sort_items d) vs (sort_perm d) A)]. unfold new_enum.
    assert (M : mem $"self" (map fst vs) = false); [|rewrite M; reflexivity]. apply not_true_iff_false. intros M. apply (mem_In (K:=str)) in M.
    assert (EQ : map fst vs = map fst (sort_items d)) by (clear - A; induction A as [|x y l l' [H _] A IH]; [reflexivity|cbn [map]; congruence]).
    rewrite EQ in M. apply (Permutation_in _ (Permutation_map fst (Permutation_sym (sort_perm d)))) in M. apply in_map_iff in M. destruct M as (x & EX & I1).
    rewrite Forall_forall in F. destruct (F x I1) as (_ & _ & NS & _). contradiction.
Qed.
Theorem repr_eval o : printable o -> exists o', python_eval (repr o) = Some (Ok o') /\ alike o o'.
Proof.
  intros P. destruct (evaluate_syn o P) as (o' & E & A). exists o'. split; [|exact A]. unfold python_eval.
  pose proof (reads_print (syn o) (good_syn o P) (2 * length (repr o) + 2) [] Logic.I) as R. rewrite app_nil_r in R. rewrite (repr_print o P) in *.
  rewrite R by lia. cbn [forallb]. rewrite E. reflexivity.
Qed.

(** ** Types of the parser *)
Fixpoint flat (o : py) : bool :=
  match o with
  | PEnum _ => false
  | PList l | PTuple l => forallb flat l
  | PType l q => forallb flat l && flat q
  | PComp _ l p => forallb flat l && flat p
  | _ => true
  end.
Lemma alike_all l : Forall (fun o => flat o = true -> forall o', alike o o' -> o' = o) l -> forallb flat l = true -> forall l', Forall2 alike l l' -> l' = l.
Proof.
  intros F. induction F as [|o l H F IH]; intros FL l' A; inversion A as [|? o' ? l2 A1 A2]; subst; [reflexivity|].
  cbn [forallb] in FL. apply andb_true_iff in FL. destruct FL as [F1 F2]. rewrite (H F1 o' A1), (IH F2 l2 A2). reflexivity.
Qed.
Lemma alike_flat o : flat o = true -> forall o', alike o o' -> o' = o.
Proof.
  induction o as [|b|z|s|l IH|l IH|l q IL IQ|u l p IL IP|d ID|t] using py_induct; intros F o' A; inversion A; subst; try reflexivity; cbn [flat] in F.
  - f_equal. apply alike_all; assumption.
  - f_equal. apply alike_all; assumption.
  - apply andb_true_iff in F. destruct F as [F1 F2]. f_equal; [apply alike_all; assumption|apply IQ; assumption].
  - apply andb_true_iff in F. destruct F as [F1 F2]. f_equal; [apply alike_all; assumption|apply IP; assumption].
  - discriminate F.
Qed.
Definition fine (o : py) : Prop := printable o /\ flat o = true.
Lemma fine_all l : Forall fine l -> Forall printable l /\ forallb flat l = true.
Proof. induction 1 as [|o l [A B] F [C D]]; [split; [constructor|reflexivity]|]. split; [constructor; assumption|]. cbn [forallb]. rewrite B, D. reflexivity. Qed.
Section Values.
  Context (show : pobj -> str).
  Notation of_obj := (of_obj show).
  Notation of_type := (of_type show).
  Notation of_decl := (of_decl show).
  Lemma fine_value : forall v, plain_value v -> fine (of_obj v).
  Proof.
    fix IH 2. intros v P. destruct P as [|z|b|s|l F]; try (split; [constructor|reflexivity]).
    assert (X : Forall fine (map of_obj l)).
    { induction F as [|v l P F IHF]; [apply Forall_nil|]. cbn [map]. apply Forall_cons; [exact (IH v P)|exact IHF]. }
    destruct (fine_all _ X) as [A B]. split; [constructor; exact A|exact B].
  Qed.
  Lemma fine_opt o : fine (opt_py o).
  Proof. destruct o; split; constructor. Qed.
  Lemma fine_quals (qs : list qual) : Forall (fun q => q <> None) qs ->
    Forall fine (map of_qual qs) /\ (existsb truth (map of_qual qs) = true \/ Forall (fun q => q = PTuple []) (map of_qual qs)).
  Proof.
    induction 1 as [|[ws|] qs N F [IH1 IH2]]; [split; [constructor|right; constructor]| |contradiction N; reflexivity]. cbn [map of_qual]. split.
    - constructor; [|exact IH1]. assert (X : Forall fine (map PStr ws)) by (apply Forall_map; apply Forall_forall; intros w _; split; constructor).
      destruct (fine_all _ X) as [A B]. split; [constructor; exact A|exact B].
    - destruct ws as [|w ws]; [|left; reflexivity]. destruct IH2 as [E|E]; [left; cbn [existsb]; rewrite E; apply orb_true_r|right; constructor; [reflexivity|exact E]].
  Qed.
  Lemma fine_type : forall t, plain_type t -> fine (of_type t).
  Proof.
    fix IH 2. intros t P. destruct P as [sp ds qs S1 F L N]. cbn [ReprModel.of_type].
    assert (X : Forall fine (of_spec show sp :: map of_decl ds)).
    { constructor.
      - destruct S1 as [s|t P]; [split; constructor|exact (IH t P)].
      - clear L. induction F as [|d ds P F IHF]; [apply Forall_nil|]. cbn [map]. apply Forall_cons; [|exact IHF]. clear IHF F. destruct P as [s|a PA|args PA].
        + split; constructor.
        + assert (Y : Forall fine (map of_obj a)) by (apply Forall_map; eapply Forall_impl; [|exact PA]; apply fine_value).
          destruct (fine_all _ Y) as [A B]. split; [constructor; exact A|exact B].
        + cbn [ReprModel.of_decl].
          assert (Y : Forall fine (map (fun x => match x with (n, t, v) => PTuple [opt_py n; of_type t; opt_py v] end) args)).
          { induction PA as [|[[n t] v] args P PA IHP]; [apply Forall_nil|]. cbn [map]. apply Forall_cons; [|exact IHP]. cbn [fst snd] in P. pose proof (IH t P) as Q. clear IHP PA.
            assert (Z : Forall fine [opt_py n; of_type t; opt_py v]) by (constructor; [apply fine_opt|constructor; [exact Q|constructor; [apply fine_opt|constructor]]]).
            destruct (fine_all _ Z) as [A B]. split; [constructor; exact A|exact B]. }
          destruct (fine_all _ Y) as [A B]. split; [constructor; exact A|exact B]. }
    destruct (fine_all _ X) as [A B]. destruct (fine_quals qs N) as [C D]. destruct (fine_all _ C) as [E G]. split.
    - apply pr_type; [discriminate|exact A|exact E| |exact D]. cbn [length]. rewrite !map_length. exact L.
    - change (forallb flat (of_spec show sp :: map of_decl ds) && forallb flat (map of_qual qs) = true). rewrite B, G. reflexivity.
  Qed.
  Lemma eval_fine o : fine o -> python_eval (repr o) = Some (Ok o).
  Proof. intros [P F]. destruct (repr_eval o P) as (o' & E & A). rewrite (alike_flat o F o' A) in E. exact E. Qed.
  Theorem type_repr t : plain_type t -> python_eval (repr (of_type t)) = Some (Ok (of_type t)).
  Proof. intros P. apply eval_fine. apply fine_type. exact P. Qed.
  Theorem comp_repr u ms pack : Forall (fun m => plain_type (m_type m) /\ plain_value (m_val m)) ms -> ms <> [] \/ pack = None ->
    python_eval (repr (of_comp show u ms pack)) = Some (Ok (of_comp show u ms pack)).
  Proof.
    intros F C. apply eval_fine. unfold of_comp.
    assert (X : Forall fine (map (of_member show) ms)).
    { apply Forall_map. eapply Forall_impl; [|exact F]. intros m [A B]. unfold of_member.
      assert (Y : Forall fine ([opt_py (m_name m); of_type (m_type m); of_obj (m_val m)] ++ match m_bit m with Some z => [PInt z] | None => [] end)).
      { apply Forall_app. split; [constructor; [apply fine_opt|constructor; [apply fine_type; exact A|constructor; [apply fine_value; exact B|constructor]]]|].
        destruct (m_bit m); constructor; [split; constructor|constructor]. }
      destruct (fine_all _ Y) as [D E]. split; [constructor; exact D|exact E]. }
    destruct (fine_all _ X) as [D E]. split.
    - apply pr_comp; [exact D|destruct pack; constructor|]. destruct C as [C|C]; [left; destruct ms; [contradiction|discriminate]|right; rewrite C; reflexivity].
    - change (forallb flat (map (of_member show) ms) && flat match pack with Some z => PInt z | None => PNone end = true). rewrite E. destruct pack; reflexivity.
  Qed.
End Values.
(** What [process_declarator] gives without conventions. *)
Section Plain.
  Context (dim : str -> pobj) (PD : forall e, plain_value (dim e)).
  Definition plainly (r : option str * list adecl * list qual) : Prop :=
    Forall plain_decl (snd (fst r)) /\ Forall (fun q => q <> None) (snd r) /\ length (snd r) = S (length (snd (fst r))).
  Lemma finish_plain b r n t : plainly r -> finish b r = Ok (n, t) -> plain_type t.
  Proof.
    destruct r as [[m ds] qs]. intros (A & B & C) E. cbn [fst snd] in *. destruct qs as [|[q|] qs]; [discriminate C| |inversion B; congruence].
    rewrite finish_ok in E by (cbn [length] in C; lia). assert (t = CT (SName (b_name b)) ds (Some (b_qual b ++ q) :: qs)) by congruence. subst t.
    inversion B; subst. apply pl_type; [apply pl_name|exact A|exact C|constructor; [discriminate|assumption]].
  Qed.
  Lemma args_plain l : Forall (fun a => match a with Arg _ d _ => every no_conv d = true -> forall r, process_declarator dim d = Ok r -> plainly r end) l ->
    forallb (fun a => match a with Arg _ d' _ => every no_conv d' end) l = true -> forall l', process_args dim l = Ok l' -> Forall (fun x => plain_type (snd (fst x))) l'.
  Proof.
    induction 1 as [|[b d v] l H F IH]; intros E l' P; cbn [process_args] in P; [assert (l' = []) by congruence; subst; constructor|].
    cbn [forallb] in E. apply andb_true_iff in E. destruct E as [E1 E2]. destruct (process_declarator dim d) as [r|] eqn:R; [|discriminate P]. cbn [bind] in P.
    destruct (finish b r) as [[n t]|] eqn:FI; [|discriminate P]. cbn [bind] in P. fold (process_args dim) in P. destruct (process_args dim l) as [l1|]; [|discriminate P].
    cbn [bind fst snd] in P. assert (l' = (n, t, v) :: l1) by congruence. subst l'. constructor; [|apply IH; [exact E2|reflexivity]].
    cbn [fst snd]. exact (finish_plain b r n t (H E1 r eq_refl) FI).
  Qed.
  Lemma declarator_plain d : every no_conv d = true -> forall r, process_declarator dim d = Ok r -> plainly r.
  Proof.
    induction d as [fq cv ps core args arrs IHc IHa] using dtree_nested. intros E r P.
    destruct (every_node _ _ _ _ _ _ _ E) as (E1 & E2 & E3). destruct cv as [c|]; [discriminate E1|].
    rewrite process_node in P. destruct (args_part dim args) as [[t4 q4]|] eqn:T; [|discriminate P]. cbn [bind fst snd] in P.
    assert (X : Forall plain_decl t4 /\ Forall (fun q : qual => q <> None) q4 /\ length q4 = length t4).
    { destruct args as [l|]; unfold args_part in T.
      - destruct (process_args dim l) as [l'|] eqn:PA; [|discriminate T]. cbn [bind] in T. assert (t4 = [DFun l']) by congruence. assert (q4 = [Some []]) by congruence. subst.
        split; [constructor; [|constructor]|split; [constructor; [discriminate|constructor]|reflexivity]]. apply pl_fun. apply (args_plain l); [apply IHa; reflexivity|apply E3; reflexivity|exact PA].
      - assert (t4 = []) by congruence. assert (q4 = []) by congruence. subst. repeat split; constructor. }
    destruct X as (X1 & X2 & X3).
    assert (H1 : Forall plain_decl (head_toks dim None ps arrs)).
    { unfold head_toks. cbn [app]. apply Forall_app. split; [|apply Forall_map; apply Forall_forall; intros e _; apply pl_arr; constructor; [apply PD|constructor]].
      apply Forall_forall. intros d I1. apply repeat_spec in I1. subst d. apply pl_str. }
    assert (H2 : Forall (fun q : qual => q <> None) (head_quals None ps arrs)).
    { unfold head_quals. cbn [app]. apply Forall_app. split; [apply Forall_map; apply Forall_forall; intros e _; discriminate|].
      apply Forall_forall. intros d I1. apply repeat_spec in I1. subst d. discriminate. }
    pose proof (head_length dim None ps arrs) as HL.
    assert (RF : forall ref : bool, Forall plain_decl (if ref then [DStr $"&"] else []) /\ Forall (fun q : qual => q <> None) (if ref then [Some []] else [])
       /\ length (if ref then [@Some (list str) []] else []) = length (if ref then [@DStr (list pobj) $"&"] else [])).
    { intros []; repeat split; repeat constructor; discriminate. }
    destruct core as [ref n|ref|c].
    - destruct (RF ref) as (R1 & R2 & R3).
      assert (r = (Some n, (head_toks dim None ps arrs ++ t4) ++ (if ref then [DStr $"&"] else []), (Some fq :: head_quals None ps arrs ++ q4) ++ (if ref then [Some []] else []))) as -> by (cbn [app] in *; congruence).
      split; [|split]; cbn [fst snd].
      + rewrite !Forall_app. tauto.
      + cbn [app]. constructor; [discriminate|]. rewrite !Forall_app. tauto.
      + cbn [app length]. rewrite !app_length. lia.
    - destruct (RF ref) as (R1 & R2 & R3).
      assert (r = (None, (head_toks dim None ps arrs ++ t4) ++ (if ref then [DStr $"&"] else []), (Some fq :: head_quals None ps arrs ++ q4) ++ (if ref then [Some []] else []))) as -> by (cbn [app] in *; congruence).
      split; [|split]; cbn [fst snd].
      + rewrite !Forall_app. tauto.
      + cbn [app]. constructor; [discriminate|]. rewrite !Forall_app. tauto.
      + cbn [app length]. rewrite !app_length. lia.
    - destruct (process_declarator dim c) as [[[n t] q]|] eqn:PC; [|discriminate P]. cbn [bind] in P.
      destruct (IHc c eq_refl (E2 c eq_refl) _ PC) as (C1 & C2 & C3). cbn [fst snd] in *.
      assert (Q4 : q4 = [] \/ q4 = [Some []]).
      { destruct args as [l|]; unfold args_part in T; [destruct (process_args dim l); [right; cbn [bind] in T; congruence|discriminate T]|left; congruence]. }
      destruct (last_level fq None ps arrs q4 Q4) as [(a & y & Q)|((c' & E') & _)]; [|discriminate E'].
      destruct q as [|[q0|] q]; [discriminate C3| |inversion C2; congruence]. unfold join_quals in P. rewrite Q, merge_snoc in P. cbn [bind] in P.
      assert (r = (n, (head_toks dim None ps arrs ++ t4) ++ t, a ++ Some (y ++ q0) :: q)) by congruence. subst r. split; [|split]; cbn [fst snd].
      + rewrite !Forall_app. tauto.
      + inversion C2 as [|? ? _ C4]; subst. apply Forall_app. split; [|constructor; [discriminate|exact C4]].
        assert (Z : Forall (fun q : qual => q <> None) (a ++ [Some y])) by (rewrite <- Q; cbn [app]; constructor; [discriminate|]; rewrite Forall_app; tauto).
        apply Forall_app in Z. tauto.
      + apply (f_equal (@length qual)) in Q. cbn [app length] in *. rewrite !app_length in *. cbn [length] in *. lia.
  Qed.
End Plain.
Theorem declared_repr show dim b d n t : (forall e, plain_value (dim e)) -> every no_conv d = true -> process_type dim b d = Ok (n, t) ->
  python_eval (repr (of_type show t)) = Some (Ok (of_type show t)).
Proof.
  intros PD E P. apply type_repr. unfold process_type in P. destruct (process_declarator dim d) as [r|] eqn:R; [|discriminate P]. cbn [bind] in P.
  exact (finish_plain b r n t (declarator_plain dim PD d E r R) P).
Qed.
