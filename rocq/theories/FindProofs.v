(** Proofs for C87. *)
From Coq Require Import Ascii String Bool Arith Lia List.
Import ListNotations.
From Verif Require Import PyBase PyBaseFacts PyStr PyStrFacts FindModel FindSpec.

Lemma class_char c : open_class c = true <-> path_char c.
Proof.
  unfold open_class, path_char. rewrite negb_true_iff, !orb_false_iff.
  split.
  - intros ((A & B) & C). split; [exact A|]. split; intros ->; discriminate.
  - intros (A & B & C). split; [split; [exact A|]|]; destruct (cheq c _) eqn:E; try reflexivity; apply Ascii.eqb_eq in E; contradiction.
Qed.
Lemma take_class_ok s : exists r, s = take_class s ++ r /\ Forall path_char (take_class s)
  /\ forall v b, s = v ++ b -> Forall path_char v -> length v <= length (take_class s).
Proof.
  induction s as [|c s (r & E & F & M)]; cbn [take_class].
  - exists []. split; [reflexivity|]. split; [constructor|]. intros [|] b Es _; [reflexivity|discriminate].
  - destruct (open_class c) eqn:O.
    + exists r. split; [cbn [app]; now rewrite <- E|]. split; [constructor; [now apply class_char|exact F]|].
      intros [|x v] b Es Fv; [cbn; lia|]. cbn [app] in Es. injection Es as <- Es. inversion Fv; subst. cbn [length]. apply le_n_S. eapply M; [reflexivity|assumption].
    + exists (c :: s). split; [reflexivity|]. split; [constructor|]. intros [|x v] b Es Fv; [reflexivity|]. cbn [app] in Es. injection Es as <- Es. inversion Fv; subst.
      apply class_char in H1. congruence.
Qed.
(** What follows the run of characters. *)
Definition lib_here (name s m : str) : Prop := exists v b, m = $"lib" ++ name ++ $"." ++ v /\ s = m ++ b /\ Forall path_char v.
Lemma lib_part_ok name s m : lib_part name s = Some m -> lib_here name s m /\ forall m', lib_here name s m' -> length m' <= length m.
Proof.
  unfold lib_part. cbv zeta. set (l := $"lib") in *. destruct (strip_prefix _ s) as [r|] eqn:P; [|discriminate]. intros E.
  assert (Em : m = (l ++ name ++ $".") ++ take_class r) by congruence. clear E. subst m.
  apply strip_prefix_iff in P. destruct (take_class_ok r) as (b & E & F & M). split.
  - exists (take_class r), b. split; [rewrite <- !app_assoc; reflexivity|]. split; [|exact F]. rewrite P, <- !app_assoc, <- E. reflexivity.
  - intros m' (v & b' & -> & Es & Fv). fold l in Es |- *. rewrite P in Es. rewrite <- !app_assoc in Es. apply app_inv_head in Es. apply app_inv_head in Es. apply app_inv_head in Es.
    specialize (M v b' Es Fv). rewrite !app_length. cbn [length]. lia.
Qed.
Lemma lib_part_none name s : lib_part name s = None -> forall m, ~ lib_here name s m.
Proof.
  unfold lib_part. destruct (strip_prefix _ s) as [r|] eqn:P; [discriminate|]. intros _ m (v & b & -> & -> & _).
  assert (X : strip_prefix ($"lib" ++ name ++ $".") (($"lib" ++ name ++ $"." ++ v) ++ b) = Some (v ++ b)).
  { apply strip_prefix_iff. rewrite <- !app_assoc. reflexivity. }
  congruence.
Qed.
Definition run_here (name s m : str) : Prop := exists u m', m = u ++ m' /\ Forall path_char u /\ exists s', s = u ++ s' /\ lib_here name s' m'.
Lemma run_zero name s m : lib_here name s m -> run_here name s m.
Proof. intros H. exists [], m. split; [reflexivity|]. split; [constructor|]. exists s. auto. Qed.
Lemma run_intro name s u m : Forall path_char u -> lib_here name s m -> run_here name (u ++ s) (u ++ m).
Proof. intros F H. exists u, m. split; [reflexivity|]. split; [exact F|]. exists s. auto. Qed.
Lemma star_ok name : forall s,
  match star_then (lib_part name) s with
  | Some m => run_here name s m /\ forall m', run_here name s m' -> length m' <= length m
  | None => forall m, ~ run_here name s m
  end.
Proof.
  induction s as [|c s IH]; cbn [star_then].
  - destruct (lib_part name []) as [m|] eqn:E.
    + apply lib_part_ok in E. destruct E as (H & M). split; [now apply run_zero|].
      intros m' (u & m2 & -> & _ & s' & E & H'). destruct u; [|discriminate]. cbn in E. subst s'. exact (M m2 H').
    + intros m (u & m2 & -> & _ & s' & E' & H'). destruct u; [|discriminate]. cbn in E'. subst s'. exact (lib_part_none _ _ E m2 H').
  - assert (K : match lib_part name (c :: s) with
                | Some m => run_here name (c :: s) m /\ forall m', run_here name (c :: s) m' -> (exists m2, run_here name s m2 /\ m' = c :: m2 /\ path_char c) \/ length m' <= length m
                | None => forall m', run_here name (c :: s) m' -> (exists m2, run_here name s m2 /\ m' = c :: m2 /\ path_char c)
                end).
    { destruct (lib_part name (c :: s)) as [m|] eqn:E.
      - apply lib_part_ok in E. destruct E as (H & M). split; [now apply run_zero|].
        intros m' (u & m2 & -> & F & s' & E & H'). destruct u as [|x u]; [right; cbn in E; subst s'; exact (M m2 H')|]. left. cbn [app] in E. injection E as <- E.
        inversion F; subst. exists (u ++ m2). split; [now apply run_intro|]. auto.
      - intros m' (u & m2 & -> & F & s' & E' & H'). destruct u as [|x u]; [cbn in E'; subst s'; destruct (lib_part_none _ _ E m2 H')|]. cbn [app] in E'. injection E' as <- E'.
        inversion F; subst. exists (u ++ m2). split; [now apply run_intro|]. auto. }
    destruct (open_class c) eqn:O.
    + destruct (star_then (lib_part name) s) as [m|] eqn:St.
      * destruct IH as (H & M). split.
        -- destruct H as (u & m2 & -> & F & s' & -> & H). exists (c :: u), m2. split; [reflexivity|]. split; [constructor; [now apply class_char|exact F]|]. exists s'. auto.
        -- intros m' R. destruct (lib_part name (c :: s)) as [m0|] eqn:E; [destruct K as (K1 & K)|].
           ++ destruct (K m' R) as [(m2 & R2 & -> & _)|L]; [cbn [length]; specialize (M m2 R2); lia|].
              apply lib_part_ok in E. destruct E as ((v & b & -> & Es & Fv) & _).
              destruct H as (u & m2 & -> & F & s' & -> & (v2 & b2 & -> & -> & Fv2)).
              set (P := $"lib" ++ name ++ $".") in *.
              assert (Ep : forall x : str, $"lib" ++ name ++ $"." ++ x = P ++ x) by (intros x; unfold P; rewrite <- !app_assoc; reflexivity).
              rewrite !Ep in *. cbn [length]. rewrite !app_length in *. cbn [length] in *.
              enough (length v <= S (length u) + length v2) by lia.
              destruct (le_lt_dec (length v) (S (length u) + length v2)) as [|Gt]; [assumption|exfalso].
              assert (X : v2 ++ b2 = skipn (S (length u)) v ++ b).
              { apply (f_equal (skipn (length ((c :: u) ++ P)))) in Es.
                replace (c :: u ++ (P ++ v2) ++ b2) with (((c :: u) ++ P) ++ v2 ++ b2) in Es by (rewrite <- !app_assoc; reflexivity).
                assert (Lu : length ((c :: u) ++ P) = S (length u) + length P) by (rewrite app_length; reflexivity).
                rewrite skipn_app, skipn_all, Nat.sub_diag, Lu in Es. change ([] ++ skipn 0 (v2 ++ b2)) with (v2 ++ b2) in Es. rewrite Es. rewrite <- app_assoc.
                rewrite (skipn_app _ P), skipn_all2 by lia. cbn [app].
                replace (S (length u) + length P - length P) with (S (length u)) by lia.
                rewrite skipn_app. f_equal. replace (S (length u) - length v) with 0 by lia. reflexivity. }
              assert (R3 : run_here name (u ++ (P ++ v2) ++ b2) (u ++ P ++ skipn (S (length u)) v)).
              { exists u, (P ++ skipn (S (length u)) v). split; [reflexivity|]. split; [exact F|]. exists ((P ++ v2) ++ b2). split; [reflexivity|].
                exists (skipn (S (length u)) v), b. split; [now rewrite Ep|]. split; [rewrite <- !app_assoc; f_equal; exact X|].
                rewrite <- (firstn_skipn (S (length u)) v) in Fv. apply Forall_app in Fv. apply Fv. }
              specialize (M _ R3). rewrite !app_length, skipn_length in M. lia.
           ++ destruct (K m' R) as (m2 & R2 & -> & _). cbn [length]. specialize (M m2 R2). lia.
      * destruct (lib_part name (c :: s)) as [m0|].
        -- destruct K as (K1 & K). split; [exact K1|]. intros m' R. destruct (K m' R) as [(m2 & R2 & _)|L]; [destruct (IH m2 R2)|exact L].
        -- intros m' R. destruct (K m' R) as (m2 & R2 & _). exact (IH m2 R2).
    + destruct (lib_part name (c :: s)) as [m0|].
      * destruct K as (K1 & K). split; [exact K1|]. intros m' R. destruct (K m' R) as [(m2 & R2 & _ & PC)|L]; [apply class_char in PC; congruence|exact L].
      * intros m' R. destruct (K m' R) as (m2 & R2 & _ & PC). apply class_char in PC. congruence.
Qed.
Lemma listed_run name s p b : listed false name s [] p b -> run_here name s p.
Proof.
  intros (-> & u & v & -> & Fu & Fv). cbn [app]. rewrite <- app_assoc. apply run_intro; [exact Fu|].
  exists v, b. auto.
Qed.
Lemma run_listed name s p : run_here name s p -> exists b, listed false name s [] p b.
Proof.
  intros (u & m & -> & Fu & s' & -> & (v & b & -> & -> & Fv)). exists b. split; [apply app_assoc|]. exists u, v. auto.
Qed.
Lemma listed_slash name s p b : listed true name s [] p b <-> exists s' p', s = "/"%char :: s' /\ p = "/"%char :: p' /\ listed false name s' [] p' b.
Proof.
  split.
  - intros (-> & u & v & -> & Fu & Fv). exists ((u ++ $"lib" ++ name ++ $"." ++ v) ++ b), (u ++ $"lib" ++ name ++ $"." ++ v).
    split; [reflexivity|]. split; [reflexivity|]. split; [reflexivity|]. exists u, v. auto.
  - intros (s' & p' & -> & -> & -> & u & v & -> & Fu & Fv). split; [reflexivity|]. exists u, v. auto.
Qed.
Lemma match_at_ok slash name s :
  match match_at slash name s with
  | Some m => (exists b, listed slash name s [] m b) /\ forall p' b', listed slash name s [] p' b' -> length p' <= length m
  | None => forall p b, ~ listed slash name s [] p b
  end.
Proof.
  destruct slash; unfold match_at.
  - destruct s as [|c s]; [intros p b L; apply listed_slash in L; destruct L as (s' & p' & E & _); discriminate|].
    destruct (cheq c "/") eqn:C.
    2: { intros p b L. apply listed_slash in L. destruct L as (s' & p' & E & _). injection E as -> _. discriminate C. }
    apply Ascii.eqb_eq in C. subst c. pose proof (star_ok name s) as K. destruct (star_then (lib_part name) s) as [m|].
    + destruct K as (R & M). split.
      * apply run_listed in R. destruct R as (b & R). exists b. apply listed_slash. eauto.
      * intros p' b' L. apply listed_slash in L. destruct L as (s' & p2 & E & -> & L). injection E as <-. apply listed_run in L. specialize (M _ L). cbn [length]. lia.
    + intros p b L. apply listed_slash in L. destruct L as (s' & p2 & E & -> & L). injection E as <-. apply listed_run in L. exact (K _ L).
  - pose proof (star_ok name s) as K. destruct (star_then (lib_part name) s) as [m|].
    + destruct K as (R & M). split; [now apply run_listed|]. intros p' b' L. apply listed_run in L. exact (M _ L).
    + intros p b L. apply listed_run in L. exact (K _ L).
Qed.
Lemma listed_later slash name s a p b c : listed slash name (c :: s) (c :: a) p b <-> listed slash name s a p b.
Proof. unfold listed. cbn [app]. split; intros (E & X); (split; [congruence|exact X]). Qed.
Lemma listed_cases slash name c s a p b : listed slash name (c :: s) a p b -> a = [] \/ exists a', a = c :: a' /\ listed slash name s a' p b.
Proof.
  intros L. destruct a as [|x a]; [now left|right]. pose proof L as (E & _). cbn [app] in E. injection E as <- _. exists a. split; [reflexivity|]. exact (proj1 (listed_later _ _ _ _ _ _ _) L).
Qed.
Lemma search_ok slash name s : match search slash name s with Some p => first_listed slash name s p | None => not_listed slash name s end.
Proof.
  induction s as [|c s IH]; cbn [search].
  - pose proof (match_at_ok slash name []) as K. destruct (match_at slash name []) as [m|].
    + destruct K as ((b & L) & M). exists [], b. split; [exact L|]. intros a' p' b' L'. right. pose proof L' as (E & _). destruct a'; [|discriminate]. split; [reflexivity|]. exact (M _ _ L').
    + intros a p b L. pose proof L as (E & _). destruct a; [|discriminate]. exact (K p b L).
  - pose proof (match_at_ok slash name (c :: s)) as K. destruct (match_at slash name (c :: s)) as [m|].
    + destruct K as ((b & L) & M). exists [], b. split; [exact L|]. intros a' p' b' L'. destruct a' as [|x a']; [right; split; [reflexivity|exact (M _ _ L')]|left; cbn; lia].
    + destruct (search slash name s) as [p|].
      * destruct IH as (a & b & L & M). exists (c :: a), b. split; [now apply listed_later|]. intros a' p' b' L'.
        destruct (listed_cases _ _ _ _ _ _ _ L') as [->|(a2 & -> & L2)]; [destruct (K _ _ L')|]. destruct (M _ _ _ L2) as [Lt|(-> & Le)]; [left; cbn; lia|right; auto].
      * intros a p b L. destruct (listed_cases _ _ _ _ _ _ _ L) as [->|(a2 & -> & L2)]; [exact (K _ _ L)|exact (IH _ _ _ L2)].
Qed.
Lemma found_first real ldconfig ldd gcc name :
  match find_lib real ldconfig ldd gcc name with
  | Some r => exists p, r = real p
      /\ (first_listed true name ldconfig p
          \/ not_listed true name ldconfig /\ first_listed true name ldd p
          \/ not_listed true name ldconfig /\ not_listed true name ldd /\ first_listed false name gcc p)
  | None => not_listed true name ldconfig /\ not_listed true name ldd /\ not_listed false name gcc
  end.
Proof.
  unfold find_lib, findlib_ldconfig, findlib_gcc.
  pose proof (search_ok true name ldconfig) as A. destruct (search true name ldconfig) as [p|]; [eauto|].
  pose proof (search_ok true name ldd) as B. destruct (search true name ldd) as [p|]; [eauto 6|].
  pose proof (search_ok false name gcc) as C. destruct (search false name gcc) as [p|]; eauto 8.
Qed.
Lemma first_unique absolute name text p p' : first_listed absolute name text p -> first_listed absolute name text p' -> p = p'.
Proof.
  intros (a & b & L & M) (a' & b' & L' & M'). pose proof (M _ _ _ L') as X. pose proof (M' _ _ _ L) as Y.
  destruct X as [X|(-> & X)]; [destruct Y as [Y|(-> & Y)]; lia|]. destruct Y as [Y|(_ & Y)]; [lia|].
  destruct L as (E & _), L' as (E' & _). rewrite E in E'. apply app_inv_head in E'. assert (LL : length p = length p') by lia. clear -E' LL. revert p' LL E'.
  induction p as [|c p IH]; intros [|c' p'] LL E; try discriminate; [reflexivity|]. cbn [app] in E. injection E as -> E. f_equal. apply IH; [now injection LL|exact E].
Qed.
