(** Proofs for C102. *)
From Coq Require Import Ascii String Bool Arith ZArith Lia List.
Import ListNotations.
From Verif Require Import PyBase PyBaseFacts PyStr PyStrFacts TextSpec UtilModel UtilSpec UtilProofs LibModel LibSpec LibProofs PathModel PathSpec.

Lemma contains_occurs x s : contains x s = true <-> occurs x s.
Proof.
  induction s as [|c s IH]; cbn [contains].
  - rewrite orb_false_r. split.
    + destruct x; [|discriminate]. intros _. exists [], []. reflexivity.
    + intros (a & b & E). destruct a; [|discriminate]. destruct x; [reflexivity|discriminate].
  - split.
    + intros H. apply orb_true_iff in H. destruct H as [H|H].
      * apply starts_with_iff in H. destruct H as (r & ->). exists [], r. reflexivity.
      * apply IH in H. destruct H as (a & b & ->). exists (c :: a), b. reflexivity.
    + intros (a & b & E). apply orb_true_iff. destruct a as [|d a].
      * left. apply starts_with_iff. exists b. exact E.
      * right. injection E as -> ->. apply IH. exists a, b. reflexivity.
Qed.

Lemma known_looks platform w l n (a b : bool) :
  looks platform w l {| lp_arch := Some ((if a then [32] else []) ++ (if b then [64] else [])); lp_reads := n |} = map (tells a b) l.
Proof.
  revert n. induction l as [|q l IH]; intros n; [reflexivity|]. cbn [looks map].
  destruct q, a, b; cbn [look read_arch lp_arch app]; refine (f_equal2 cons eq_refl _); apply IH.
Qed.
Lemma first_looks platform w l (a b : bool) :
  arch platform (fst (w 0)) (snd (w 0)) = (if a then [32] else []) ++ (if b then [64] else []) ->
  looks platform w l new_path = map (tells a b) l.
Proof.
  intros E. destruct l as [|q l]; [reflexivity|].
  assert (R : read_arch platform w new_path
              = ((if a then [32] else []) ++ (if b then [64] else []), {| lp_arch := Some ((if a then [32] else []) ++ (if b then [64] else [])); lp_reads := 1 |})).
  { unfold read_arch. cbn [lp_arch new_path lp_reads]. unfold arch in E. rewrite E. reflexivity. }
  cbn [looks]. unfold look. rewrite R.
  destruct q, a, b; cbn [app read_arch lp_arch map]; refine (f_equal2 cons eq_refl _);
    first [exact (known_looks platform w l _ true true)|exact (known_looks platform w l _ true false)
          |exact (known_looks platform w l _ false true)|exact (known_looks platform w l _ false false)].
Qed.

Lemma win_not platform : starts_with $"win" platform = true -> ~ on_linux platform /\ platform <> $"darwin".
Proof.
  intros W. split.
  - intros [<-|[<-|[<-|[]]]]; discriminate W.
  - intros ->. discriminate W.
Qed.
Definition bits_flags (platform : str) (v : view) (a b : bool) : Prop :=
  arch platform (fst v) (snd v) = (if a then [32] else []) ++ (if b then [64] else [])
  /\ (a = true <-> shows platform v 32) /\ (b = true <-> shows platform v 64).

Lemma machine_bits_In m n : In n (machine_bits m) -> (m = 332%Z /\ n = 32) \/ ((m = 512 \/ m = 34404)%Z /\ n = 64).
Proof.
  unfold machine_bits. destruct (m =? 332)%Z eqn:A; [apply Z.eqb_eq in A; intros [<-|[]]; auto|].
  destruct ((m =? 512)%Z || (m =? 34404)%Z) eqn:B; [|intros []].
  apply orb_true_iff in B. rewrite !Z.eqb_eq in B. intros [<-|[]]. auto.
Qed.
Lemma flags_windows platform v : starts_with $"win" platform = true -> exists a b, bits_flags platform v a b.
Proof.
  intros W. destruct v as [[file|] out].
  - destruct (arch_windows_iff platform file out W) as (P32 & P64 & P0 & _).
    assert (D : forall n, shows platform (Some file, out) n -> exists m, pe_like file m /\ In n (machine_bits m)).
    { intros n [(_ & f & m & E & L & I1)|[(L & _)|(L & _)]].
      - injection E as <-. eauto.
      - exfalso. exact (proj1 (win_not _ W) L).
      - exfalso. exact (proj2 (win_not _ W) L). }
    assert (K : forall m n, pe_like file m -> In n (machine_bits m) -> shows platform (Some file, out) n).
    { intros m n L I1. left. split; [exact W|]. exists file, m. auto. }
    assert (C : arch platform (Some file) out = [32] \/ arch platform (Some file) out = [64] \/ arch platform (Some file) out = []).
    { unfold arch, get_arch. rewrite W. destruct (pe_machine file) as [s|x]; cbn [bind]; [|auto].
      destruct (eqb s $"I386"); [auto|]. destruct (mem s [$"IA64"; $"AMD64"]); auto. }
    assert (H32 : shows platform (Some file, out) 32 <-> arch platform (Some file) out = [32]).
    { rewrite P32. split.
      - intros S1. destruct (D 32 S1) as (m & L & I1). destruct (machine_bits_In m 32 I1) as [(-> & _)|(_ & E)]; [exact L|discriminate E].
      - intros L. apply (K 332%Z 32 L). left. reflexivity. }
    assert (H64 : shows platform (Some file, out) 64 <-> arch platform (Some file) out = [64]).
    { rewrite P64. split.
      - intros S1. destruct (D 64 S1) as (m & L & I1). destruct (machine_bits_In m 64 I1) as [(_ & E)|([-> | ->] & _)]; [discriminate E|left; exact L|right; exact L].
      - intros [L|L]; [apply (K 512%Z 64 L)|apply (K 34404%Z 64 L)]; left; reflexivity. }
    unfold bits_flags. cbn [fst snd]. destruct C as [C|[C|C]]; rewrite C in *.
    + exists true, false. split; [reflexivity|]. rewrite H32, H64. split; split; try reflexivity; discriminate.
    + exists false, true. split; [reflexivity|]. rewrite H32, H64. split; split; try reflexivity; discriminate.
    + exists false, false. split; [reflexivity|]. rewrite H32, H64. split; split; discriminate.
  - exists false, false. unfold bits_flags. cbn [fst snd]. split; [unfold arch, get_arch; rewrite W; reflexivity|].
    split; (split; [discriminate|]); intros [(_ & f & m & E & _)|[(L & _)|(L & _)]]; try discriminate E;
      exfalso; first [exact (proj1 (win_not _ W) L)|exact (proj2 (win_not _ W) L)].
Qed.
Lemma linux_facts platform : on_linux platform ->
  starts_with $"win" platform = false /\ mem platform [$"linux2"; $"linux3"; $"linux"; $"darwin"] = true /\ starts_with $"linux" platform = true
  /\ platform <> $"darwin".
Proof. intros [<-|[<-|[<-|[]]]]; (split; [reflexivity|]; split; [reflexivity|]; split; [reflexivity|discriminate]). Qed.
Lemma flags_linux platform v : on_linux platform -> exists a b, bits_flags platform v a b.
Proof.
  intros L. destruct (linux_facts platform L) as (W & M & S1 & ND). destruct v as [file out]. unfold bits_flags. cbn [fst snd].
  unfold arch, get_arch. rewrite W, M, S1. cbn [negb].
  assert (H : forall n, shows platform (file, out) n <-> exists text, out = Ok text /\ occurs (linux_word n) text).
  { intros n. split.
    - intros [(X & _)|[(_ & X)|(X & _)]]; [congruence|exact X|contradiction].
    - intros X. right. left. split; [exact L|exact X]. }
  destruct out as [text|x]; cbn [bind].
  - exists (contains $"32-bit" text), (contains $"64-bit" text). split; [reflexivity|]. rewrite !H, !contains_occurs.
    split; (split; [intros X; exists text; split; [reflexivity|exact X]|intros (u & E & X); injection E as <-; exact X]).
  - exists false, false. split; [reflexivity|]. rewrite !H. split; (split; [discriminate|intros (u & E & _); discriminate E]).
Qed.
Lemma flags_darwin v : exists a b, bits_flags $"darwin" v a b.
Proof.
  destruct v as [file out]. unfold bits_flags. cbn [fst snd]. unfold arch, get_arch.
  change (starts_with $"win" $"darwin") with false. change (starts_with $"linux" $"darwin") with false.
  change (mem $"darwin" [$"linux2"; $"linux3"; $"linux"; $"darwin"]) with true. cbn [negb].
  assert (H : forall n, shows $"darwin" (file, out) n <-> exists text, out = Ok text /\ occurs (darwin_word n) text).
  { intros n. split.
    - intros [(X & _)|[([X|[X|[X|[]]]] & _)|(_ & X)]]; try discriminate X. exact X.
    - intros X. right. right. split; [reflexivity|exact X]. }
  destruct out as [text|x]; cbn [bind].
  - exists (contains $"(for architecture i386)" text), (contains $"(for architecture x86_64)" text). split; [reflexivity|]. rewrite !H, !contains_occurs.
    split; (split; [intros X; exists text; split; [reflexivity|exact X]|intros (u & E & X); injection E as <-; exact X]).
  - exists false, false. split; [reflexivity|]. rewrite !H. split; (split; [discriminate|intros (u & E & _); discriminate E]).
Qed.
Lemma flags platform v : exists a b, bits_flags platform v a b.
Proof.
  destruct (starts_with $"win" platform) eqn:W; [apply flags_windows; exact W|].
  destruct (mem platform [$"linux2"; $"linux3"; $"linux"; $"darwin"]) eqn:M.
  - apply mem_In in M. destruct M as [<-|[<-|[<-|[<-|[]]]]]; [apply flags_linux; cbn; auto|apply flags_linux; cbn; auto|apply flags_linux; cbn; auto|apply flags_darwin].
  - exists false, false. unfold bits_flags. split; [unfold arch, get_arch; rewrite W, M; reflexivity|].
    assert (N : ~ on_linux platform /\ platform <> $"darwin").
    { split; [intros L; destruct (linux_facts platform L) as (_ & X & _); congruence|intros ->; discriminate M]. }
    split; (split; [discriminate|]); (intros [(X & _)|[(X & _)|(X & _)]]; [congruence|exfalso; exact (proj1 N X)|exfalso; exact (proj2 N X)]).
Qed.
Lemma all_looks platform w l : exists a b,
  (a = true <-> shows platform (w 0) 32) /\ (b = true <-> shows platform (w 0) 64) /\ looks platform w l new_path = map (tells a b) l.
Proof.
  destruct (flags platform (w 0)) as (a & b & E & A & B). exists a, b. split; [exact A|]. split; [exact B|]. apply first_looks. exact E.
Qed.

(** ** What is printed *)
Lemma occurs_app_l x s t : occurs x s -> occurs x (s ++ t).
Proof. intros (a & b & ->). exists a, (b ++ t). rewrite <- !app_assoc. reflexivity. Qed.
Lemma occurs_app_r x s t : occurs x t -> occurs x (s ++ t).
Proof. intros (a & b & ->). exists (s ++ a), b. rewrite <- !app_assoc. reflexivity. Qed.
(** A word without the character [c] does not reach across it. *)
Lemma occurs_across x s (c : ascii) t : ~ In c x -> occurs x (s ++ c :: t) -> occurs x s \/ occurs x t.
Proof.
  intros N (a & b & E). revert a E. induction s as [|d s IH]; intros a E.
  - destruct a as [|e a].
    + destruct x as [|f x]; [left; exists [], []; reflexivity|]. cbn in E. injection E as -> _. exfalso. apply N. left. reflexivity.
    + cbn in E. injection E as _ ->. right. exists a, b. reflexivity.
  - destruct a as [|e a].
    + left. cbn [app] in E. clear IH. exists []. cbn [app].
      assert (H : exists r, d :: s = x ++ r); [|destruct H as (r & ->); exists r; reflexivity].
      change (d :: s ++ c :: t = x ++ b) with ((d :: s) ++ c :: t = x ++ b) in E.
      revert E N. generalize (d :: s) as u. clear. induction x as [|f x IX]; intros u E N; [exists u; reflexivity|].
      destruct u as [|g u]; cbn in E.
      * injection E as -> _. exfalso. apply N. left. reflexivity.
      * injection E as <- E. destruct (IX u E (fun I1 => N (or_intror I1))) as (r & ->). exists r. reflexivity.
    + cbn in E. injection E as _ E. destruct (IH a E) as [O|O]; [left|right; exact O].
      change (d :: s) with ([d] ++ s). apply occurs_app_r. exact O.
Qed.
Lemma occurs_blanks x (c : ascii) y s : x = c :: y -> is_space c = false -> forall bl, forallb is_space bl = true -> occurs x (bl ++ s) -> occurs x s.
Proof.
  intros -> C. induction bl as [|d bl IH]; intros F O; [exact O|]. cbn in F. apply andb_true_iff in F. destruct F as [F1 F2].
  apply (IH F2). destruct O as (a & b & E). destruct a as [|e a].
  - cbn in E. injection E as -> _. congruence.
  - cbn in E. injection E as _ E. exists a, b. exact E.
Qed.
Lemma linux_word_two n : linux_word n = $"32-bit" \/ linux_word n = $"64-bit".
Proof. unfold linux_word. destruct (Nat.eqb n 32); auto. Qed.
Lemma printed_bits path kind out n : silent path -> prints path kind out -> (occurs (linux_word n) out <-> occurs (linux_word n) kind).
Proof.
  intros (S32 & S64) (bl & B & ->). split.
  - intros O. apply occurs_across in O.
    + destruct O as [O|O].
      * exfalso. destruct (linux_word_two n) as [E|E]; rewrite E in O; auto.
      * destruct (linux_word_two n) as [E|E]; rewrite E in *.
        -- exact (occurs_blanks $"32-bit" "3"%char $"2-bit" kind eq_refl eq_refl bl B O).
        -- exact (occurs_blanks $"64-bit" "6"%char $"4-bit" kind eq_refl eq_refl bl B O).
    + destruct (linux_word_two n) as [E|E]; rewrite E; cbn; intros I1; repeat (destruct I1 as [I1|I1]; [discriminate I1|]); exact I1.
  - intros O. apply occurs_app_r. change (":"%char :: bl ++ kind) with ((":"%char :: bl) ++ kind). apply occurs_app_r. exact O.
Qed.
Lemma shows_kind platform path kind out file n : on_linux platform -> silent path -> prints path kind out ->
  (shows platform (file, Ok out) n <-> occurs (linux_word n) kind).
Proof.
  intros L SI P. rewrite <- (printed_bits path kind out n SI P). destruct (linux_facts platform L) as (W & _ & _ & ND). split.
  - intros [(X & _)|[(_ & t & E & O)|(X & _)]]; [congruence|injection E as <-; exact O|contradiction].
  - intros O. right. left. split; [exact L|]. exists out. split; [reflexivity|exact O].
Qed.
Lemma opened_iff e s p kind out :
  on_linux (e_platform e) -> e_bits e = 32 \/ e_bits e = 64 ->
  designates e (ByName s) p -> silent p -> e_file e p = Ok out -> prints p kind out ->
  (lib_path e (ByName s) = Ok p <-> occurs (linux_word (e_bits e)) kind \/ ~ occurs (linux_word (other_bits (e_bits e))) kind)
  /\ (lib_path e (ByName s) = Err OSError <-> occurs (linux_word (other_bits (e_bits e))) kind /\ ~ occurs (linux_word (e_bits e)) kind).
Proof.
  intros L B D SI F P.
  destruct (flags (e_platform e) (e_content e p, e_file e p)) as (a & b & E & A & C). cbn [fst snd] in E.
  rewrite F in A, C. rewrite (shows_kind _ _ _ _ _ 32 L SI P) in A. rewrite (shows_kind _ _ _ _ _ 64 L SI P) in C.
  assert (FI : fits e p <-> (e_bits e = 32 /\ (a = true \/ b = false)) \/ (e_bits e = 64 /\ (b = true \/ a = false))).
  { unfold fits, known_arch. rewrite E. destruct B as [-> | ->]; destruct a, b; cbn; intuition (try discriminate; try lia). }
  assert (H : lib_path e (ByName s) = Ok p \/ lib_path e (ByName s) = Err OSError /\ ~ fits e p).
  { assert (G : fits e p \/ ~ fits e p) by (rewrite FI; destruct B as [-> | ->]; destruct a, b; cbn; intuition (try discriminate; try lia)).
    destruct G as [G|G]; [left; apply lib_path_Ok; split; [exact D|intros _; exact G]|right; split; [exact (lib_path_unfit e s p D G)|exact G]]. }
  assert (O : lib_path e (ByName s) = Ok p <-> fits e p).
  { rewrite lib_path_Ok. split; [intros (_ & X); apply X; exact Logic.I|intros X; split; [exact D|intros _; exact X]]. }
  assert (X : lib_path e (ByName s) = Err OSError <-> ~ fits e p).
  { rewrite <- O. destruct H as [H|(H & H2)]; rewrite H; split; intros Y; try discriminate; try congruence. }
  rewrite X, O, FI. clear - B A C.
  destruct B as [-> | ->]; unfold other_bits; cbn [Nat.eqb]; rewrite <- A, <- C; destruct a, b; intuition (try discriminate; try congruence).
Qed.
