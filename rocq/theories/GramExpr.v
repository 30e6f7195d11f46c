(** Reading lists and expressions. *)
From Coq Require Import Ascii String Bool Arith ZArith Lia List.
Import ListNotations.
From Verif Require Import PyBase PyBaseFacts PyStr PyStrFacts MacroModel PpModel DeclModel EvalModel
  GramModel GramSpec GramLex.

Ltac len := cbn [length]; repeat (rewrite app_length; cbn [length]); lia.
Ltac assoc H := repeat (first [rewrite <- app_assoc in H | progress cbn [app] in H]).

(** ** Sequences and alternatives *)
Lemma reads_weaken {A} (r : pres A) p a k k' rest : reads r p a k rest -> k' <= k -> reads r p a k' rest.
Proof. intros (q & E & V & L) H. exists q. split; [exact E|]. split; [exact V|]. lia. Qed.
Lemma reads_ret {A} (a : A) p rest : view p rest -> reads (POk a p) p a 0 rest.
Proof. intros V. exists p. split; [reflexivity|]. split; [exact V|]. lia. Qed.
Lemma reads_bind {A B} (e : pres A) (K : A -> pos -> pres B) p b a k1 k2 k mid rest :
  reads e p b k1 mid ->
  (forall q, view q mid -> k1 + length (snd q) <= length (snd p) -> reads (K b q) q a k2 rest) ->
  k <= k1 + k2 -> reads (pbind e K) p a k rest.
Proof.
  intros (q & -> & V & L) H K0. cbn [pbind]. destruct (H q V L) as (q' & E & V' & L'). exists q'.
  split; [exact E|]. split; [exact V'|]. lia.
Qed.
Definition por {A} (e k : pres A) : pres A := match e with POk a p => POk a p | PNo => k | POut => POut end.
Lemma reads_left {A} (e k : pres A) p a n rest : reads e p a n rest -> reads (por e k) p a n rest.
Proof. intros (q & -> & H). exists q. split; [reflexivity|exact H]. Qed.
Lemma reads_right {A} (e k : pres A) p a n rest : e = PNo -> reads k p a n rest -> reads (por e k) p a n rest.
Proof. intros ->. auto. Qed.
(** The first alternative in the goal or the second. *)
Ltac left_alt := match goal with |- reads (match ?e with POk _ _ => _ | PNo => ?k | POut => _ end) _ _ _ _ => apply (reads_left e k) end.
Ltac right_alt := match goal with |- reads (match ?e with POk _ _ => _ | PNo => ?k | POut => _ end) _ _ _ _ => apply (reads_right e k) end.
Lemma reads_opt {A} (e : pos -> pres A) p a n rest : reads (e p) p a n rest -> reads (popt e p) p (Some a) n rest.
Proof. intros (q & E & H). unfold popt. rewrite E. exists q. split; [reflexivity|exact H]. Qed.
Lemma reads_none {A} (e : pos -> pres A) p rest : e p = PNo -> view p rest -> reads (popt e p) p None 0 rest.
Proof. intros E V. unfold popt. rewrite E. apply reads_ret. exact V. Qed.
Lemma bind_no {A B} (e : pres A) (K : A -> pos -> pres B) : e = PNo -> pbind e K = PNo.
Proof. intros ->. reflexivity. Qed.
Lemma bind_then_no {A B} (e : pres A) (K : A -> pos -> pres B) p b k mid :
  reads e p b k mid -> (forall q, view q mid -> k + length (snd q) <= length (snd p) -> K b q = PNo) -> pbind e K = PNo.
Proof. intros (q & -> & V & L) H. cbn [pbind]. auto. Qed.
Lemma alt_no {A} (e k : pres A) : e = PNo -> k = PNo -> por e k = PNo.
Proof. intros -> ->. reflexivity. Qed.
Ltac no_alt := match goal with |- match ?e with POk _ _ => _ | PNo => ?k | POut => _ end = PNo => apply (alt_no e k) end.

(** ** Lists *)
(** [e] reads what [P] describes where [G] holds of what follows, up to a length of text. *)
Definition parses {A} (e : pos -> pres A) (n : nat) (P : A -> list str -> Prop) (G : list str -> Prop) : Prop :=
  forall a t rest p, P a t -> view p (t ++ rest) -> G rest -> length (snd p) < n -> reads (e p) p a (length t) rest.
Lemma many_seq {A} (e : pos -> pres A) n (P : A -> list str -> Prop) (G : list str -> Prop) l t rest p :
  parses e n P G ->
  (forall a t, P a t -> t <> []) -> (forall a t r, P a t -> G (t ++ r)) -> G rest ->
  (forall q, view q rest -> length (snd q) < n -> e q = PNo) ->
  seq_list P l t -> view p (t ++ rest) -> length (snd p) < n -> reads (many e p) p l (length t) rest.
Proof.
  intros HE NE GP GR ST SL V L. unfold many.
  enough (H : forall f, length (snd p) < f -> reads (many_n f e p) p l (length t) rest) by (apply H; lia).
  revert p V L. induction SL as [|a t l ts HP SL IH]; intros p V L f LF; (destruct f as [|f]; [lia|]); cbn [many_n].
  - rewrite (ST p V L). apply reads_ret. exact V.
  - assoc V. assert (GT : G (ts ++ rest)).
    { destruct SL as [|b u l' us HB SL]; [exact GR|]. rewrite <- app_assoc. apply (GP b). exact HB. }
    destruct (HE a t (ts ++ rest) p HP V GT L) as (q & -> & V' & L'). 
    assert (NT : 1 <= length t) by (destruct t; [destruct (NE a [] HP); reflexivity|len]).
    destruct (IH q V' ltac:(lia) f ltac:(lia)) as (q' & -> & V2 & L2). cbn [pbind].
    exists q'. split; [reflexivity|]. split; [exact V2|]. len.
Qed.
Lemma delimited_sep {A} (e : pos -> pres A) n (P : A -> list str -> Prop) (G : list str -> Prop) l t rest p :
  parses e n P G ->
  (forall r, G ($"," :: r)) -> G rest ->
  (forall q, view q rest -> length (snd q) < n -> (get (u0, q') <- lit $"," q; e q') = PNo) ->
  sep_list P l t -> view p (t ++ rest) -> length (snd p) < n -> reads (delimited e p) p l (length t) rest.
Proof.
  intros HE GC GR ST SL V L. unfold delimited.
  set (Q := fun a t => exists u, t = $"," :: u /\ P a u).
  assert (HS : exists a t1 l' t2, P a t1 /\ seq_list Q l' t2 /\ l = a :: l' /\ t = t1 ++ t2).
  { clear -SL. induction SL as [a t H|a t l ts H SL IH].
    - exists a, t, [], []. split; [exact H|]. split; [constructor|]. split; [reflexivity|]. rewrite app_nil_r. reflexivity.
    - destruct IH as (b & t1 & l' & t2 & H1 & H2 & -> & ->). exists a, t, (b :: l'), (($"," :: t1) ++ t2).
      split; [exact H|]. split; [constructor; [exists t1; auto|exact H2]|]. split; reflexivity. }
  destruct HS as (a & t1 & l' & t2 & H1 & H2 & -> & ->). assoc V.
  assert (G2 : G (t2 ++ rest)). { destruct H2 as [|b u l2 us (v & -> & HB) H2]; [exact GR|]. cbn [app]. apply GC. }
  eapply reads_bind; [apply (HE a t1 (t2 ++ rest) p H1 V G2 L)|intros q Vq Lq|].
  - eapply reads_bind; [apply (many_seq _ n Q G l' t2 rest q)| |].
    + intros b u r p' (v & -> & HB) Vp Gr Lp. cbn [app] in Vp.
      eapply reads_bind; [apply lit_yes; exact Vp|intros q' Vq' Lq'; apply HE; [exact HB|exact Vq'|exact Gr|lia]|len].
    + intros b u (v & -> & _). discriminate.
    + intros b u r (v & -> & _). apply GC.
    + exact GR.
    + exact ST.
    + exact H2.
    + exact Vq.
    + lia.
    + intros q' Vq' Lq'. apply reads_ret. exact Vq'.
    + apply Nat.le_refl.
  - len.
Qed.

(** ** Expressions *)
Section Expressions.
  Context (base mods : list str) (NB : ~ In [] (keywords base)).
  Notation operand := (operand base mods).

  (** As in GramSpec, with the text of an expression in parentheses as one piece. *)
  Inductive pr : list str -> list str -> Prop :=
  | pr_name n : operand n -> pr [n] [n]
  | pr_num t v : num t v -> pr [v] [t]
  | pr_literal t : literal t -> pr [t] [t]
  | pr_paren o ts : ex o ts -> (forall n, operand n -> ts <> [n]) ->
      pr [$"("; join [sp] o; $")"] ($"(" :: ts ++ [$")"])
  | pr_index n o ts : operand n -> ex o ts -> pr [n; $"["; join [sp] o; $"]"] (n :: $"[" :: ts ++ [$"]"])
  with at_ : list str -> list str -> Prop :=
  | at_unary us o ts : Forall (fun u => In u unary) us -> pr o ts -> at_ (us ++ o) (us ++ ts)
  with ex : list str -> list str -> Prop :=
  | ex_single o ts : at_ o ts -> ex o ts
  | ex_binary o ts op o' ts' :
      at_ o ts -> In op binary -> ex o' ts' -> ex (o ++ op :: o') (ts ++ op :: ts').
  Scheme sp_prim_i := Induction for sp_prim Sort Prop
    with sp_atom_i := Induction for sp_atom Sort Prop
    with sp_expr_i := Induction for sp_expr Sort Prop.

  Lemma join_app (a b : list str) : a <> [] -> b <> [] -> join [sp] (a ++ b) = join [sp] a ++ [sp] ++ join [sp] b.
  Proof.
    induction a as [|x a IH]; [congruence|]. intros _ NB'. destruct a as [|y a].
    - cbn [app]. rewrite join_cons by exact NB'. reflexivity.
    - cbn [app] in *. rewrite join_cons by discriminate. rewrite IH by (auto; discriminate).
      rewrite (join_cons [sp] x (y :: a)) by discriminate. rewrite <- !app_assoc. reflexivity.
  Qed.
  Definition same (o o' : list str) : Prop := o <> [] /\ o' <> [] /\ join [sp] o = join [sp] o'.
  Lemma same_refl o : o <> [] -> same o o.
  Proof. intros N. repeat split; assumption. Qed.
  Lemma same_app a a' b b' : same a a' -> same b b' -> same (a ++ b) (a' ++ b').
  Proof.
    intros (A1 & A2 & A3) (B1 & B2 & B3). split; [destruct a; [congruence|discriminate]|].
    split; [destruct a'; [congruence|discriminate]|]. rewrite !join_app by assumption. rewrite A3, B3. reflexivity.
  Qed.
  Lemma spelled_ex o ts : sp_expr base mods o ts -> exists o', ex o' ts /\ same o o'.
  Proof.
    apply (sp_expr_i base mods
      (fun o ts _ => exists o', pr o' ts /\ same o o')
      (fun o ts _ => exists o', at_ o' ts /\ same o o')
      (fun o ts _ => exists o', ex o' ts /\ same o o')).
    - intros n H. exists [n]. split; [constructor; exact H|apply same_refl; discriminate].
    - intros t v H. exists [v]. split; [constructor; exact H|apply same_refl; discriminate].
    - intros t H. exists [t]. split; [constructor; exact H|apply same_refl; discriminate].
    - intros o' ts' _ (o2 & H & SM) N. exists [$"("; join [sp] o2; $")"]. split; [constructor; assumption|].
      destruct SM as (S1 & S2 & S3). rewrite <- S3. change ($"(" :: o' ++ [$")"]) with ([$"("] ++ o' ++ [$")"]).
      change [$"("; join [sp] o'; $")"] with ([$"("] ++ [join [sp] o'] ++ [$")"]).
      apply same_app; [apply same_refl; discriminate|]. apply same_app; [|apply same_refl; discriminate].
      split; [exact S1|]. split; [discriminate|reflexivity].
    - intros n o' ts' O _ (o2 & H & SM). exists [n; $"["; join [sp] o2; $"]"]. split; [constructor; assumption|].
      destruct SM as (S1 & S2 & S3). rewrite <- S3. change (n :: $"[" :: o' ++ [$"]"]) with ([n; $"["] ++ o' ++ [$"]"]).
      change [n; $"["; join [sp] o'; $"]"] with ([n; $"["] ++ [join [sp] o'] ++ [$"]"]).
      apply same_app; [apply same_refl; discriminate|]. apply same_app; [|apply same_refl; discriminate].
      split; [exact S1|]. split; [discriminate|reflexivity].
    - intros us o' ts' F _ (o2 & H & SM). exists (us ++ o2). split; [constructor; assumption|].
      destruct us as [|u us]; [exact SM|]. apply same_app; [apply same_refl; discriminate|exact SM].
    - intros o' ts' _ (o2 & H & SM). exists o2. split; [constructor; exact H|exact SM].
    - intros o1 t1 op o2 t2 _ (o1' & H1 & S1) I _ (o2' & H2 & S2). exists (o1' ++ op :: o2'). split; [constructor; assumption|].
      apply same_app; [exact S1|]. change (op :: o2) with ([op] ++ o2). change (op :: o2') with ([op] ++ o2').
      apply same_app; [apply same_refl; discriminate|exact S2].
  Qed.

  (** What may follow an expression, and an operand. *)
  Definition closers : list str := [$")"; $"]"; $","; $";"; $"}"].
  Definition efol (rest : list str) : Prop := first rest (fun t => In t closers).
  Definition ofol (rest : list str) : Prop := first rest (fun t => In t (closers ++ binary)).
  Lemma efol_ofol r : efol r -> ofol r.
  Proof. destruct r as [|t r]; [auto|]. unfold efol, ofol. cbn [first]. intros H. apply in_or_app. left. exact H. Qed.

  Lemma first_imp (ts : list str) (P Q : str -> Prop) : (forall t, P t -> Q t) -> first ts P -> first ts Q.
  Proof. destruct ts; cbn [first]; auto. Qed.
  (** Tests on the finitely many tokens of a list. *)
  Lemma In_all (f : str -> bool) l t : forallb f l = true -> In t l -> f t = true.
  Proof. rewrite forallb_forall. auto. Qed.
  Definition starts_b (d : ascii) (t : str) : bool := match t with e :: _ => cheq e d | [] => false end.
  Lemma starts_b_no d t : starts_b d t = false -> ~ starts d t.
  Proof. intros E (r & ->). cbn [starts_b] in E. rewrite cheq_refl in E. discriminate. Qed.
  Lemma lit_no_in d x p ts l : view p ts -> first ts (fun t => In t l) ->
    forallb (fun t => negb (starts_b d t)) l = true -> lit (d :: x) p = PNo.
  Proof.
    intros V F H. apply (lit_no d x p ts V). apply (first_imp _ _ _ (fun t I => starts_b_no d t (proj1 (negb_true_iff _) (In_all _ l t H I))) F).
  Qed.
  Definition word_b (t : str) : bool := match t with c :: r => is_idstart c && forallb is_idchar r | [] => false end.
  Lemma word_b_iff t : word_b t = true <-> word t.
  Proof. destruct t as [|c r]; cbn [word_b word]; [split; [discriminate|intros []]|]. apply andb_true_iff. Qed.
  Lemma ident_no_in p ts l : view p ts -> first ts (fun t => In t l) -> forallb (fun t => negb (word_b t)) l = true -> ident base p = PNo.
  Proof.
    intros V F H. apply (ident_no base p ts V). revert F. apply first_imp. intros t I. left. intros W. apply word_b_iff in W.
    pose proof (In_all _ l t H I) as Z. cbv beta in Z. rewrite W in Z. discriminate.
  Qed.
  Lemma number_no_in p ts l : view p ts -> first ts (fun t => In t l) ->
    forallb (fun t => match t with d :: _ => negb (num_head d) | [] => true end) l = true -> number p = PNo.
  Proof.
    intros V F H. apply (number_no p ts V). revert F. apply first_imp. intros t I. pose proof (In_all _ l t H I) as Z. cbv beta in Z.
    destruct t; [exact Coq.Init.Logic.I|]. apply negb_true_iff. exact Z.
  Qed.
  Lemma quoted_no_in p ts l : view p ts -> first ts (fun t => In t l) ->
    forallb (fun t => match t with d :: _ => negb (is_quote d) | [] => true end) l = true -> quoted p = PNo.
  Proof.
    intros V F H. apply (quoted_no p ts V). revert F. apply first_imp. intros t I. pose proof (In_all _ l t H I) as Z. cbv beta in Z.
    destruct t; [exact Coq.Init.Logic.I|]. apply negb_true_iff. exact Z.
  Qed.
  Lemma one_of_no_in two one p ts l : forallb (fun x => mem x ops2) two = true -> forallb one_ok one = true ->
    view p ts -> first ts (fun t => In t l) ->
    forallb (fun t => negb (mem t two) && forallb (fun x => negb (starts_with x t)) one) l = true -> one_of two one p = PNo.
  Proof.
    intros H2 H1 V F H. apply (one_of_no two one p ts H2 H1 V). revert F. apply first_imp. intros t I.
    pose proof (In_all _ l t H I) as Z. cbv beta in Z. apply andb_true_iff in Z. destruct Z as [Z1 Z2]. apply negb_true_iff in Z1.
    split; [intros J; apply mem_str in J; congruence|]. intros x X. rewrite forallb_forall in Z2. apply negb_true_iff. apply Z2. exact X.
  Qed.

    Lemma In_sub (a b : list str) t : forallb (fun x => mem x b) a = true -> In t a -> In t b.
    Proof. intros H I. apply mem_str. apply (In_all _ a t H I). Qed.
  Definition lefts : list str := [$"-"; $"+"; $"*"; $"sizeof"; $"new"].
  Lemma left_no p ts : view p ts -> first ts (fun t => ~ In t [$"++"; $"--"] /\ forall x, In x lefts -> starts_with x t = false) ->
    uni_left_operator p = PNo.
  Proof. exact (one_of_no [$"++"; $"--"] lefts p ts eq_refl eq_refl). Qed.
  Lemma left_no_in p ts l : view p ts -> first ts (fun t => In t l) ->
    forallb (fun t => negb (mem t [$"++"; $"--"]) && forallb (fun x => negb (starts_with x t)) lefts) l = true -> uni_left_operator p = PNo.
  Proof. exact (one_of_no_in [$"++"; $"--"] lefts p ts l eq_refl eq_refl). Qed.
  Lemma left_yes p u r : view p (u :: r) -> In u unary -> reads (uni_left_operator p) p u 1 r.
  Proof.
    intros V I. apply (one_of_yes [$"++"; $"--"] lefts p u r eq_refl eq_refl V); apply (In_sub unary); auto.
  Qed.
  Lemma right_no_in p ts l : view p ts -> first ts (fun t => In t l) ->
    forallb (fun t => negb (mem t [$"++"; $"--"])) l = true -> uni_right_operator p = PNo.
  Proof.
    intros V F H. apply (one_of_no_in [$"++"; $"--"] [] p ts l eq_refl eq_refl V F). rewrite forallb_forall in *.
    intros x X. cbn [forallb]. rewrite andb_true_r. apply H. exact X.
  Qed.
  Lemma bi_no_in p ts l : view p ts -> first ts (fun t => In t l) ->
    forallb (fun t => negb (mem t bi_two) && forallb (fun x => negb (starts_with x t)) bi_one) l = true -> bi_operator p = PNo.
  Proof. exact (one_of_no_in bi_two bi_one p ts l eq_refl eq_refl). Qed.
  Lemma bi_yes p u r : view p (u :: r) -> In u binary -> reads (bi_operator p) p u 1 r.
  Proof.
    intros V I. apply (one_of_yes bi_two bi_one p u r eq_refl eq_refl V); apply (In_sub binary); auto.
  Qed.

  Section Body.
    Context (E : pos -> pres str) (n : nat)
      (HE : forall o ts rest p, ex o ts -> view p (ts ++ rest) -> efol rest -> length (snd p) < n ->
            reads (E p) p (join [sp] o) (length ts) rest).

    Lemma operand_word m : operand m -> word m /\ ~ In m (keywords base).
    Proof. intros ((W & K & _) & _). auto. Qed.
    Lemma not_ident_num t v : num t v -> ~ word t.
    Proof.
      intros N W. destruct (num_alpha t v N) as [_ (d & r & -> & D)]. destruct W as [W _]. apply digit_facts in D.
      destruct D as (_ & _ & _ & _ & _ & _ & D). congruence.
    Qed.
    Lemma not_ident_literal t : literal t -> ~ word t.
    Proof.
      intros (q & b & Q & -> & _) [W _]. unfold is_quote in Q. apply orb_true_iff in Q. destruct Q as [Q|Q]; apply cheq_true in Q; subst q; discriminate.
    Qed.
    (** Where there is no identifier, the alternatives that begin with one do not match. *)
    Lemma primary_no_ident p : ident base p = PNo ->
      primary base E p = (one number p <|> one quoted p <|> parens E p).
    Proof. intros H. unfold primary, call, indexed, one at 1. rewrite H. reflexivity. Qed.

    (** An index, behind which there is no other. *)
    Lemma index_one o ts rest p : ex o ts -> view p ($"[" :: ts ++ $"]" :: rest) -> ofol rest -> length (snd p) < S n ->
      reads (many1 (index E) p) p [[$"["; join [sp] o; $"]"]] (S (length ts + 1)) rest.
    Proof.
      intros H V F L. unfold many1. eapply reads_bind; [|intros q Vq Lq|].
      - unfold index. eapply reads_bind; [apply lit_yes; exact V|intros q Vq Lq|].
        + eapply reads_bind; [apply (HE o ts ($"]" :: rest) q H Vq); [right; left; reflexivity|lia]|intros q2 V2 L2|].
          * eapply reads_bind; [apply lit_yes; exact V2|intros q3 V3 L3; apply reads_ret; exact V3|apply Nat.le_refl].
          * apply Nat.le_refl.
        + apply Nat.le_refl.
      - eapply reads_bind; [|intros q2 V2 L2; apply reads_ret; exact V2|apply Nat.le_refl].
        unfold many. cbn [many_n]. assert (Z : index E q = PNo).
        { apply bind_no. apply (lit_no_in _ _ _ _ _ Vq F); reflexivity. }
        rewrite Z. apply reads_ret. exact Vq.
      - len.
    Qed.
    Lemma primary_reads o ts rest p : pr o ts -> view p (ts ++ rest) -> ofol rest -> length (snd p) < S n ->
      reads (primary base E p) p o (length ts) rest.
    Proof.
      intros H V F L. destruct H as [m H|t v H|t H|o ts H N|m o ts O H]; cbn [app] in V.
      - destruct (operand_word m H) as [W K]. pose proof (ident_yes base NB p m rest V W K) as RI.
        unfold primary.
        right_alt. { eapply bind_then_no; [exact RI|]. intros q Vq Lq. apply bind_no. apply (lit_no_in _ _ _ _ _ Vq F); reflexivity. }
        right_alt. { eapply bind_then_no; [exact RI|]. intros q Vq Lq. apply bind_no. unfold many1. apply bind_no. apply bind_no.
          apply (lit_no_in _ _ _ _ _ Vq F); reflexivity. }
        left_alt. eapply reads_bind; [exact RI|intros q Vq Lq; apply reads_ret; exact Vq|]. cbn [length]. lia.
      - rewrite primary_no_ident by (apply (ident_no base p (t :: rest) V); left; apply (not_ident_num t v H)).
        left_alt. eapply reads_bind; [apply (number_yes p t v rest V H)|intros q Vq Lq; apply reads_ret; exact Vq|]. cbn [length]. lia.
      - rewrite primary_no_ident by (apply (ident_no base p (t :: rest) V); left; apply (not_ident_literal t H)).
        right_alt. { apply bind_no. apply (number_no p (t :: rest) V). destruct H as (q & b & Q & -> & _). cbn [first].
          unfold is_quote in Q. apply orb_true_iff in Q. destruct Q as [Q|Q]; apply cheq_true in Q; subst q; reflexivity. }
        left_alt. eapply reads_bind; [apply (quoted_yes p t rest V H)|intros q Vq Lq; apply reads_ret; exact Vq|]. cbn [length]. lia.
      - assert (F0 : first ($"(" :: (ts ++ [$")"]) ++ rest) (fun t => In t [$"("])) by (left; reflexivity).
        rewrite primary_no_ident by (apply (ident_no_in p _ _ V F0); reflexivity).
        right_alt. { apply bind_no. apply (number_no_in p _ _ V F0); reflexivity. }
        right_alt. { apply bind_no. apply (quoted_no_in p _ _ V F0); reflexivity. }
        assoc V. unfold parens.
        eapply reads_bind; [apply lit_yes; exact V|intros q Vq Lq|].
        + eapply reads_bind; [apply (HE o ts ($")" :: rest) q H Vq); [left; reflexivity|lia]|intros q2 V2 L2|].
          * eapply reads_bind; [apply lit_yes; exact V2|intros q3 V3 L3; apply reads_ret; exact V3|apply Nat.le_refl].
          * apply Nat.le_refl.
        + len.
      - destruct (operand_word m O) as [W K]. assoc V. pose proof (ident_yes base NB p m _ V W K) as RI.
        unfold primary.
        right_alt. { eapply bind_then_no; [exact RI|]. intros q Vq Lq. apply bind_no.
          apply (lit_no_in _ _ _ _ [$"["] Vq); [left; reflexivity|reflexivity]. }
        left_alt. unfold indexed. eapply reads_bind; [exact RI|intros q Vq Lq|].
        + eapply reads_bind; [apply (index_one o ts rest q H Vq F); lia|intros q2 V2 L2; apply reads_ret; exact V2|apply Nat.le_refl].
        + len.
    Qed.
    Lemma pr_nonempty o ts : pr o ts -> ts <> [].
    Proof. intros []; discriminate. Qed.
    Lemma at_nonempty o ts : at_ o ts -> ts <> [].
    Proof. intros [us o' ts' _ H] Z. apply app_eq_nil in Z. destruct Z as [_ Z]. apply (pr_nonempty _ _ H Z). Qed.
    (** No prefix operator in front of an operand. *)
    Lemma left_no_prim o ts rest p : pr o ts -> view p (ts ++ rest) -> uni_left_operator p = PNo.
    Proof.
      intros H V. apply (left_no p (ts ++ rest) V). unfold lefts.
      assert (NP : forall t, ~ In t [$"++"; $"--"] \/ In t [$"++"; $"--"]).
      { intros t. destruct (mem t [$"++"; $"--"]) eqn:M; [right; apply mem_str; exact M|]. left. intros I. apply mem_str in I. congruence. }
      assert (HD : forall d r, is_idchar d = true \/ is_quote d = true -> ~ In (d :: r) [$"++"; $"--"]
                   /\ starts_with $"-" (d :: r) = false /\ starts_with $"+" (d :: r) = false /\ starts_with $"*" (d :: r) = false).
      { intros d r D. assert (Z : d <> "+"%char /\ d <> "-"%char /\ d <> "*"%char).
        { repeat split; intros ->; destruct D as [D|D]; discriminate. }
        destruct Z as (Z1 & Z2 & Z3). split.
        - intros [J|[J|[]]]; injection J as J _; congruence.
        - apply not_eq_sym in Z1, Z2, Z3. apply cheq_false in Z1, Z2, Z3. split; [|split].
          + change (cheq "-" d && true = false). rewrite Z2. reflexivity.
          + change (cheq "+" d && true = false). rewrite Z1. reflexivity.
          + change (cheq "*" d && true = false). rewrite Z3. reflexivity. }
      assert (NS : forall d r, is_idstart d = false -> starts_with $"sizeof" (d :: r) = false /\ starts_with $"new" (d :: r) = false).
      { intros d r D. split.
        - change (cheq "s" d && starts_with $"izeof" r = false). apply andb_false_iff. left. apply cheq_false. intros <-. discriminate.
        - change (cheq "n" d && starts_with $"ew" r = false). apply andb_false_iff. left. apply cheq_false. intros <-. discriminate. }
      destruct H as [m H|t v H|t H|o ts H N|m o ts O H]; cbn [app first].
      - destruct H as [(W & _) [S1 S2]]. destruct m as [|d r]; [destruct W|]. destruct W as [W _].
        destruct (HD d r (or_introl (idstart_idchar d W))) as (A & B & C & D). split; [exact A|].
        intros x [<-|[<-|[<-|[<-|[<-|[]]]]]]; assumption.
      - destruct (num_alpha t v H) as [A0 (d & r & -> & D0)].
        destruct (HD d r (or_introl (digit_idchar d D0))) as (A & B & C & D). split; [exact A|].
        assert (IS : is_idstart d = false) by (apply digit_facts in D0; tauto). destruct (NS d r IS) as [N1 N2].
        intros x [<-|[<-|[<-|[<-|[<-|[]]]]]]; assumption.
      - destruct H as (q & b & Q & -> & _). destruct (HD q (b ++ [q]) (or_intror Q)) as (A & B & C & D). split; [exact A|].
        assert (IS : is_idstart q = false).
        { unfold is_quote in Q. apply orb_true_iff in Q. destruct Q as [Q|Q]; apply cheq_true in Q; subst q; reflexivity. }
        destruct (NS q (b ++ [q]) IS) as [N1 N2].
        intros x [<-|[<-|[<-|[<-|[<-|[]]]]]]; assumption.
      - split; [intros [J|[J|[]]]; discriminate|]. intros x [<-|[<-|[<-|[<-|[<-|[]]]]]]; reflexivity.
      - destruct O as [(W & _) [S1 S2]]. destruct m as [|d r]; [destruct W|]. destruct W as [W _].
        destruct (HD d r (or_introl (idstart_idchar d W))) as (A & B & C & D). split; [exact A|].
        intros x [<-|[<-|[<-|[<-|[<-|[]]]]]]; assumption.
    Qed.
    Lemma left_many us o ts rest p : Forall (fun u => In u unary) us -> pr o ts -> view p (us ++ ts ++ rest) ->
      reads (many uni_left_operator p) p us (length us) (ts ++ rest).
    Proof.
      intros F H V. apply (many_seq uni_left_operator (S (length (snd p))) (fun u t => t = [u] /\ In u unary) (fun _ => True)
        us us (ts ++ rest) p); auto; try lia.
      - intros u t r q (-> & I) Vq _ _. cbn [app] in Vq.
        apply (left_yes q u r Vq I).
      - intros u t (-> & _). discriminate.
      - intros q Vq _. apply (left_no_prim o ts rest q H Vq).
      - clear V. induction us as [|u us IH]; [constructor|]. inversion F; subst. change (u :: us) with ([u] ++ us) at 2.
        constructor; auto.
    Qed.
    Lemma right_many rest p : view p rest -> ofol rest -> reads (many uni_right_operator p) p [] 0 rest.
    Proof.
      intros V F. unfold many. cbn [many_n].
      rewrite (right_no_in p rest (closers ++ binary) V F) by reflexivity. apply reads_ret. exact V.
    Qed.
    (** Where a single name in parentheses does not stand, there is no cast. *)
    Lemma ex_not_close o ts r : ex o ts -> ts <> $")" :: r.
    Proof.
      intros H. assert (A : exists o1 t1 r1, at_ o1 t1 /\ ts = t1 ++ r1).
      { destruct H as [o ts H|o ts op o' ts' H _ _]; [exists o, ts, []; rewrite app_nil_r; auto|exists o, ts, (op :: ts'); auto]. }
      destruct A as (o1 & t1 & r1 & A & ->). destruct A as [us o2 t2 F P]. intros Z.
      destruct us as [|u us].
      - destruct P as [m P|t v P|t P|o3 t3 P _|m o3 t3 P _]; cbn [app] in Z; injection Z as Z _.
        + subst m. destruct (operand_word _ P) as [W _]. destruct W as [W _]. discriminate.
        + subst t. destruct (num_alpha _ v P) as [_ (d & x & Z & D)]. injection Z as <- _. discriminate.
        + destruct P as (q & b & Q & P & _). rewrite Z in P. injection P as <- _. discriminate.
        + discriminate.
        + subst m. destruct (operand_word _ P) as [W _]. destruct W as [W _]. discriminate.
      - cbn [app] in Z. injection Z as -> _. inversion F as [|x y I _]; subst. 
        repeat (destruct I as [I|I]; [discriminate I|]). destruct I.
    Qed.
    Lemma cast_no o ts rest p : pr o ts -> view p (ts ++ rest) -> cast base p = PNo.
    Proof.
      intros H V. unfold cast. destruct H as [m H|t v H|t H|o ts H N|m o ts O H]; cbn [app] in V.
      - apply bind_no. apply (lit_no "(" [] p (m :: rest) V). cbn [first]. intros (r & ->). destruct H as [(W & _) _]. destruct W as [W _]. discriminate.
      - apply bind_no. apply (lit_no "(" [] p (t :: rest) V). cbn [first]. intros (r & ->).
        destruct (num_alpha _ v H) as [_ (d & x & Z & D)]. injection Z as <- _. discriminate.
      - apply bind_no. apply (lit_no "(" [] p (t :: rest) V). cbn [first]. intros (r & ->).
        destruct H as (q & b & Q & Z & _). injection Z as <- _. discriminate.
      - assoc V. eapply bind_then_no; [apply lit_yes; exact V|]. intros q Vq Lq.
        destruct ts as [|t ts].
        { exfalso. inversion H as [x y A E1 E2|x y op x' y' A _ _ E1 E2].
          - apply (at_nonempty _ _ A). congruence.
          - destruct y; discriminate. }
        cbn [app] in Vq. destruct (word_dec t) as [W|W]; [destruct (mem t (keywords base)) eqn:M|].
        + apply mem_str in M. apply bind_no. apply (ident_no base q _ Vq). right. exact M.
        + assert (K : ~ In t (keywords base)) by (intros I; apply mem_str in I; congruence).
          eapply bind_then_no; [apply (ident_yes base NB q t _ Vq W K)|]. intros q2 V2 L2. apply bind_no.
          (* the word is the first operand, and is followed by an operator *)
          assert (AT : exists o1 t1 r1, at_ o1 t1 /\ t :: ts = t1 ++ r1 /\ (r1 = [] \/ exists op r2, In op binary /\ r1 = op :: r2)).
          { inversion H as [x y A E1 E2|x y op x' y' A I _ E1 E2].
            - exists o, (t :: ts), []. rewrite app_nil_r. subst. auto.
            - exists x, y, (op :: y'). split; [exact A|]. split; [auto|]. right. exists op, y'. auto. }
          destruct AT as (o1 & t1 & r1 & A & ET & HR). destruct A as [us o2 t2 FU P]. destruct us as [|u us].
          * cbn [app] in ET.
            destruct P as [m P|t' v P|t' P|o3 t3 P PN|m o3 t3 P _]; cbn [app] in ET; injection ET as -> ET.
            -- destruct HR as [->|(op & r2 & I & ->)]; cbn [app] in ET; subst ts.
               ++ exfalso. apply (N m P). reflexivity.
               ++ cbn [app] in V2. apply (lit_no_in _ _ _ _ binary V2); [exact I|reflexivity].
            -- exfalso. apply (not_ident_num _ v P W).
            -- exfalso. apply (not_ident_literal _ P W).
            -- exfalso. apply word_b_iff in W. discriminate.
            -- subst ts. cbn [app] in V2. apply (lit_no_in _ _ _ _ [$"["] V2); [left; reflexivity|reflexivity].
          * exfalso. cbn [app] in ET. injection ET as -> _. inversion FU as [|x y I _]; subst. apply word_b_iff in W.
            pose proof (In_all (fun t => negb (word_b t)) unary u eq_refl I) as Z. cbv beta in Z. rewrite W in Z. discriminate.
        + apply bind_no. apply (ident_no base q _ Vq). left. exact W.
      - apply bind_no. apply (lit_no "(" [] p (m :: _) V). cbn [first]. intros (r & ->). destruct O as [(W & _) _]. destruct W as [W _]. discriminate.
    Qed.
    Lemma atom_reads o ts rest p : at_ o ts -> view p (ts ++ rest) -> ofol rest -> length (snd p) < S n ->
      reads (atom base E p) p o (length ts) rest.
    Proof.
      intros [us o' ts' F H] V FO L. assoc V. unfold atom. left_alt. unfold cast_atom.
      eapply reads_bind; [apply (left_many us o' ts' rest p F H V)|intros q1 V1 L1|].
      - eapply reads_bind; [apply reads_none; [apply (cast_no o' ts' rest q1 H V1)|exact V1]|intros q2 V2 L2|].
        + eapply reads_bind; [apply (primary_reads o' ts' rest q2 H V2 FO); lia|intros q3 V3 L3|].
          * eapply reads_bind; [apply (right_many rest q3 V3 FO)|intros q4 V4 L4|apply Nat.le_refl].
            rewrite app_nil_r. apply reads_ret. exact V4.
          * apply Nat.le_refl.
        + apply Nat.le_refl.
      - len.
    Qed.
    Lemma body_reads o ts rest p : ex o ts -> view p (ts ++ rest) -> efol rest -> length (snd p) < S n ->
      reads (expr_body base E p) p (join [sp] o) (length ts) rest.
    Proof.
      intros H V F L. set (Q := fun x t => exists op o2 t2, In op binary /\ at_ o2 t2 /\ x = op :: o2 /\ t = op :: t2).
      assert (D : exists o1 t1 l tl, at_ o1 t1 /\ seq_list Q l tl /\ o = o1 ++ concat l /\ ts = t1 ++ tl).
      { clear -H. induction H as [o ts H|o ts op o' ts' H I H' IH].
        - exists o, ts, [], []. cbn [concat]. rewrite !app_nil_r. split; [exact H|]. split; [constructor|auto].
        - destruct IH as (o1 & t1 & l & tl & H1 & H2 & -> & ->). exists o, ts, ((op :: o1) :: l), ((op :: t1) ++ tl).
          split; [exact H|]. split; [|split; reflexivity]. constructor; [|exact H2]. exists op, o1, t1. auto. }
      destruct D as (o1 & t1 & l & tl & H1 & H2 & -> & ->). assoc V. unfold expr_body.
      assert (FO : ofol (tl ++ rest)).
      { destruct H2 as [|x t l t' (op & o2 & t2 & I & _ & _ & ->) _]; [apply efol_ofol; exact F|]. cbn [app]. apply in_or_app. right. exact I. }
      eapply reads_bind; [apply (atom_reads o1 t1 (tl ++ rest) p H1 V FO L)|intros q Vq Lq|].
      - eapply reads_bind; [apply (many_seq _ (S n) Q ofol l tl rest q)| |].
        + intros x t r q' (op & o2 & t2 & I & H3 & -> & ->) Vq' Fr Lq'. cbn [app] in Vq'.
          eapply reads_bind; [apply (bi_yes q' op _ Vq' I)|intros q2 V2 L2|].
          * eapply reads_bind; [apply (atom_reads o2 t2 r q2 H3 V2 Fr); lia|intros q3 V3 L3; apply reads_ret; exact V3|apply Nat.le_refl].
          * len.
        + intros x t (op & o2 & t2 & _ & _ & _ & ->). discriminate.
        + intros x t r (op & o2 & t2 & I & _ & _ & ->). cbn [app]. apply in_or_app. right. exact I.
        + apply efol_ofol. exact F.
        + intros q' Vq' _. apply bind_no. apply (bi_no_in q' rest closers Vq' F). reflexivity.
        + exact H2.
        + exact Vq.
        + lia.
        + intros q2 V2 L2. apply reads_ret. exact V2.
        + apply Nat.le_refl.
      - len.
    Qed.
    (** Where no expression begins. *)
    Lemma body_no p ts : view p ts -> first ts (fun t => In t [$"]"; $"{"]) -> expr_body base E p = PNo.
    Proof.
      intros V F. assert (P : primary base E p = PNo).
      { rewrite primary_no_ident by (apply (ident_no_in p _ _ V F); reflexivity).
        no_alt; [apply bind_no; apply (number_no_in p _ _ V F); reflexivity|].
        no_alt; [apply bind_no; apply (quoted_no_in p _ _ V F); reflexivity|].
        apply bind_no. apply (lit_no_in _ _ _ _ _ V F); reflexivity. }
      assert (ML : many uni_left_operator p = POk [] p).
      { unfold many. cbn [many_n]. rewrite (left_no_in p ts _ V F) by reflexivity. reflexivity. }
      unfold expr_body. apply bind_no. unfold atom. no_alt.
      - unfold cast_atom. rewrite ML. cbn [pbind]. unfold popt, cast.
        assert (LN : lit $"(" p = PNo) by (apply (lit_no_in _ _ _ _ _ V F); reflexivity). rewrite LN. cbn [pbind].
        rewrite P. reflexivity.
      - unfold uncast_atom. rewrite ML. cbn [pbind]. rewrite P. reflexivity.
    Qed.
  End Body.

  Lemma expr_reads n : forall o ts rest p, ex o ts -> view p (ts ++ rest) -> efol rest -> length (snd p) < n ->
    reads (expr base n p) p (join [sp] o) (length ts) rest.
  Proof.
    induction n as [|n IH]; intros o ts rest p H V F L; [lia|]. cbn [expr]. apply (body_reads (expr base n) n IH); assumption.
  Qed.
  Lemma expression_reads e ts rest p : sp_text base mods e ts -> view p (ts ++ rest) -> efol rest ->
    reads (expression base p) p e (length ts) rest.
  Proof.
    intros (o & H & ->) V F. destruct (spelled_ex o ts H) as (o' & X & (_ & _ & ->)).
    apply expr_reads; auto.
  Qed.
  Lemma expression_no p ts : view p ts -> first ts (fun t => In t [$"]"; $"{"]) -> expression base p = PNo.
  Proof. intros V F. unfold expression. cbn [expr]. apply (body_no _ p ts V F). Qed.
End Expressions.
