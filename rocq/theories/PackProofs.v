(** Proofs about packing pragmas (C34-C36). *)
From Coq Require Import Ascii String Bool Arith ZArith Lia List.
Import ListNotations.
From Verif Require Import PyBase PyBaseFacts PyStr PyStrFacts WordFacts.
From Verif Require Import MacroModel MacroSpec MacroProofs MacroDefProofs PyExpr PpModel PpSpec CondProofs PpProofs.
From Verif Require Import TextSpec.

Lemma digit_word c : is_digit c = true -> is_word c = true.
Proof.
  intros A. assert (H := ascii_all (fun c => negb (is_digit c) || is_word c) ltac:(vm_compute; reflexivity) c).
  cbn beta in H. rewrite A in H. exact H.
Qed.
Lemma idstart_not_pydigit c : is_idstart c = true -> is_pydigit c = false.
Proof.
  intros A. assert (H := ascii_all (fun c => negb (is_idstart c) || negb (is_pydigit c)) ltac:(vm_compute; reflexivity) c).
  cbn beta in H. rewrite A in H. apply negb_true_iff. exact H.
Qed.
Lemma digits_word d : digits d -> word d.
Proof. intros [N F]. split; [exact N|]. rewrite forallb_forall in F. intros c I. apply digit_word, F, I. Qed.
Lemma blanks_space b : blanks b -> forallb is_space b = true.
Proof. intros B. apply forallb_forall. intros c I. rewrite (B c I). reflexivity. Qed.

(** ** The options *)
(** What an option is made of. *)
Definition optlike (w : str) : Prop := w = [] \/ word w.
Lemma args_optlike o ws : args_of o ws -> ws <> [] /\ forall w, In w ws -> optlike w.
Proof.
  assert (NA : forall n a, num_arg n a -> forall w, In w a -> optlike w).
  { intros n a N w I. destruct N as [|d D]; [destruct I|]. destruct I as [<-|[]]. right. apply digits_word. exact D. }
  assert (IA : forall n a, id_arg n a -> forall w, In w a -> optlike w).
  { intros n a N w I. destruct N as [|d D _ _]; [destruct I|]. destruct I as [<-|[]]. right. apply ident_word. exact D. }
  assert (PU : forall w, w = $"push" \/ w = $"pop" -> optlike w).
  { intros w [-> | ->]; right; (split; [discriminate|]); apply forallb_forall; vm_compute; reflexivity. }
  intros A. destruct A as [|n a N|i n a b I N|i n a b I N].
  - split; [discriminate|]. intros w [<-|[]]. left. reflexivity.
  - split; [inversion N; discriminate|]. eauto.
  - split; [discriminate|]. intros w [<-|J]; [apply PU; auto|]. apply in_app_or in J. destruct J; eauto.
  - split; [discriminate|]. intros w [<-|J]; [apply PU; auto|]. apply in_app_or in J. destruct J; eauto.
Qed.
Lemma optlike_no w c : optlike w -> is_word c = false -> ~ In c w.
Proof. intros [->|[_ F]] C I; [destruct I|]. rewrite (F c I) in C. discriminate. Qed.
Lemma padded_no w s c : padded w s -> optlike w -> is_word c = false -> c <> sp -> ~ In c s.
Proof.
  intros (a & b & -> & A & B) O C N I. apply in_app_or in I. destruct I as [I|I]; [exact (N (A c I))|].
  apply in_app_or in I. destruct I as [I|I]; [exact (optlike_no w c O C I)|exact (N (B c I))].
Qed.
Lemma padded_strip w s : padded w s -> optlike w -> strip s = w.
Proof.
  intros (a & b & -> & A & B) [->|W].
  - cbn [app]. rewrite strip_blanks by (apply blanks_space; exact A).
    rewrite <- (app_nil_r b). rewrite strip_blanks by (apply blanks_space; exact B). reflexivity.
  - apply strip_trimmed; [apply blanks_space; exact A|apply blanks_space; exact B|apply word_trimmed; exact W].
Qed.

Lemma join_no c ss : c <> ","%char -> (forall s, In s ss -> ~ In c s) -> ~ In c (join [","%char] ss).
Proof.
  intros NC. induction ss as [|s ss IH]; intros N I; [exact I|].
  destruct ss as [|s2 ss]; [exact (N s (or_introl eq_refl) I)|].
  rewrite join_cons in I by discriminate. apply in_app_or in I. destruct I as [I|I]; [exact (N s (or_introl eq_refl) I)|].
  apply in_app_or in I. destruct I as [[I|[]]|I]; [congruence|]. apply IH in I; [exact I|]. intros x J. apply N. right. exact J.
Qed.

Lemma forall2_in {A B} (R : A -> B -> Prop) xs ys y : Forall2 R xs ys -> In y ys -> exists x, In x xs /\ R x y.
Proof. induction 1 as [|a b xs ys AB F IH]; intros I; [destruct I|]. destruct I as [<-|I]; [exists a; cbn; auto|]. destruct (IH I) as (x & J & K). exists x. cbn. auto. Qed.

Definition pragma_rest (g g' : str) (ss : list str) (tail : str) : str :=
  g ++ $"pack" ++ g' ++ $"(" ++ join [","%char] ss ++ $")" ++ tail.
Lemma pack_opts_rest ws ss g g' tl :
  ws <> [] -> (forall w, In w ws -> optlike w) -> Forall2 padded ws ss -> blanks g -> g <> [] -> blanks g' ->
  pack_opts (pragma_rest g g' ss tl) = Some ws.
Proof.
  intros NE O F G NG G'. unfold pack_opts, pragma_rest. destruct g as [|c g]; [congruence|].
  cbn [app]. rewrite (G c (or_introl eq_refl)). change (is_space sp) with true. cbv iota.
  change (sp :: g ++ ?x) with ((sp :: g) ++ x).
  assert (GS : forallb is_space (sp :: g) = true).
  { apply blanks_space. intros d [<-|I]; [reflexivity|]. apply G. right. exact I. }
  rewrite drop_while_app_all by exact GS. change (drop_while is_space ($"pack" ++ ?x)) with ($"pack" ++ x).
  rewrite (proj2 (strip_prefix_iff _ _ _) eq_refl). rewrite drop_while_app_all by (apply blanks_space; exact G').
  change (drop_while is_space ($"(" ++ ?x)) with ("("%char :: x). cbv iota beta. rewrite cheq_refl.
  assert (NS : forall s, In s ss -> ~ In ","%char s /\ ~ In ")"%char s).
  { intros s I. destruct (forall2_in _ _ _ _ F I) as (w & J & P).
    split; apply (padded_no w s _ P (O w J)); try reflexivity; discriminate. }
  assert (SF : split_first ")" (join [","%char] ss ++ $")" ++ tl) = Some (join [","%char] ss, tl)).
  { apply split_first_iff. split; [reflexivity|]. apply join_no; [discriminate|]. intros s I. apply NS. exact I. }
  rewrite SF. f_equal. rewrite split_on_join.
  - clear -F O. induction F as [|w s ws ss P F IH]; [reflexivity|]. cbn [map].
    rewrite (padded_strip w s P) by (apply O; left; reflexivity). f_equal. apply IH. intros x I. apply O. right. exact I.
  - intros ->. inversion F. subst. congruence.
  - intros s I. apply NS. exact I.
Qed.

(** The effect of an operation on the stack of the code. *)
Definition code_pack (st : list (option Z * option str)) (o : pop) : res (list (option Z * option str) * option Z) :=
  match o with
  | PSet n => Ok (st, n)
  | PPush i n => Ok (st ++ [(n, i)], n)
  | PPop i n =>
      do st' <- match i with
                | None => match st with [] => Err IndexError | _ => Ok (removelast st) end
                | Some i => Ok (match cut_at i st with Some x => x | None => st end)
                end;
      match n with
      | Some v => Ok (st', Some v)
      | None => match rev st' with [] => Err IndexError | r :: _ => Ok (st', fst r) end
      end
  end.
Lemma read_num n a p : num_arg n a ->
  read_opts a p = Ok {| o_pp := o_pp p; o_val := or_else n (o_val p); o_id := o_id p |}.
Proof.
  intros N. destruct N as [|d D]; [destruct p; reflexivity|]. cbn [read_opts or_else].
  pose proof D as [NE F].
  assert (NP : eqb d $"push" || eqb d $"pop" = false).
  { apply orb_false_iff. split; (destruct (eqb d _) eqn:E; [apply eqb_eq in E; subst d; discriminate F|reflexivity]). }
  rewrite NP.
  assert (PD : is_pydigits d = true).
  { unfold is_pydigits. apply andb_true_iff. split.
    - destruct d; [congruence|reflexivity].
    - apply forallb_forall. rewrite forallb_forall in F. intros c I. unfold is_pydigit. rewrite (F c I). reflexivity. }
  rewrite PD, F. reflexivity.
Qed.
Lemma read_id i a p l : id_arg i a ->
  read_opts (a ++ l) p = read_opts l {| o_pp := o_pp p; o_val := o_val p; o_id := match i with Some _ => i | None => o_id p end |}.
Proof.
  intros N. destruct N as [|d D N1 N2]; [destruct p; reflexivity|]. cbn [app read_opts].
  assert (NP : eqb d $"push" || eqb d $"pop" = false).
  { apply orb_false_iff. split; (destruct (eqb d _) eqn:E; [apply eqb_eq in E; congruence|reflexivity]). }
  rewrite NP.
  assert (PD : is_pydigits d = false).
  { unfold is_pydigits. destruct d as [|c d]; [destruct D|]. cbn [forallb]. destruct D as [D _].
    rewrite (idstart_not_pydigit c D). apply andb_false_r. }
  rewrite PD. reflexivity.
Qed.
Lemma pack_op st o ws : args_of o ws -> pack st ws = code_pack st o.
Proof.
  intros A. destruct A as [|n a N|i n a b I N|i n a b I N].
  - reflexivity.
  - unfold pack. rewrite (read_num _ _ _ N). cbn [bind o_pp o_val o_id]. change (eqb None (Some $"push")) with false. cbv iota.
    assert (H : eqb (hd [] a) $"pop" = false).
    { inversion N; subst. cbn [hd]. destruct (eqb d $"pop") eqn:E; [|reflexivity]. apply eqb_eq in E. subst d.
      destruct H0 as [_ H0]. discriminate. }
    rewrite H. reflexivity.
  - unfold pack. change (read_opts ($"push" :: a ++ b) ?p)
      with (read_opts (a ++ b) {| o_pp := Some $"push"; o_val := o_val p; o_id := o_id p |}).
    rewrite (read_id _ _ _ _ I), (read_num _ _ _ N). cbn [bind o_pp o_val o_id].
    change (eqb (Some $"push") (Some $"push")) with true. cbv iota. destruct i, n; reflexivity.
  - unfold pack. change (read_opts ($"pop" :: a ++ b) ?p)
      with (read_opts (a ++ b) {| o_pp := Some $"pop"; o_val := o_val p; o_id := o_id p |}).
    rewrite (read_id _ _ _ _ I), (read_num _ _ _ N). cbn [bind o_pp o_val o_id].
    change (eqb (Some $"pop") (Some $"push")) with false. change (eqb (hd [] ($"pop" :: a ++ b)) $"pop") with true. cbv iota.
    destruct i, n; reflexivity.
Qed.

Section Pack.
  Context (fo : str -> list str -> option str) (ext : str -> bool).
  Notation line_step := (line_step fo ext).
  Notation run_lines := (run_lines fo ext).

  Lemma pragma_step i s o l : active s = true -> pragma_line o l -> no_macro (tab s) l ->
    line_step i s l = do p <- code_pack (pstack s) o; Ok (emit (set_pack s (fst p) (plist s ++ [(i, snd p)])) []).
  Proof.
    intros A (ws & ss & g & g' & tl & AO & F & G & NG & G' & T & ->) NM.
    change ($"#pragma" ++ g ++ $"pack" ++ g' ++ $"(" ++ join [","%char] ss ++ $")" ++ tl)
      with ($"#pragma" ++ pragma_rest g g' ss tl) in *.
    set (rest := pragma_rest g g' ss tl) in *.
    destruct (args_optlike _ _ AO) as [NE OL].
    assert (HS : exists r, rest = sp :: r).
    { unfold rest, pragma_rest. destruct g as [|c g]; [congruence|]. rewrite (G c (or_introl eq_refl)). eexists. reflexivity. }
    assert (D : directive ($"#pragma" ++ rest) = Some ($"pragma", rest)).
    { apply directive_written; [discriminate|reflexivity|]. exists [], []. split; [reflexivity|]. split; [reflexivity|].
      split; [reflexivity|]. intros c r E. destruct HS as [r' H]. rewrite H in E. injection E as <- _. reflexivity. }
    assert (X : (if all_true (ift s) then expand_macros fo (tab s) rest else Ok rest) = Ok rest).
    { destruct (all_true (ift s)); [|reflexivity]. rewrite expand_macros_ok. f_equal. apply xm_unknown.
      - intros w (a & b & E & W & H1 & H2). apply NM. exists ($"#pragma" ++ a), b. split; [rewrite E, <- app_assoc; reflexivity|].
        split; [exact W|]. split; [exact H1|]. intros c a' EQ. destruct a as [|y a].
        + exfalso. cbn [app] in E. destruct W as [WN WW]. destruct w as [|z w]; [congruence|]. destruct HS as [r H].
          rewrite H in E. cbn [app] in E. injection E as E _. specialize (WW z (or_introl eq_refl)). rewrite <- E in WW. discriminate.
        + destruct (exists_last (l := y :: a) ltac:(discriminate)) as (a2 & c2 & EA). rewrite EA in EQ.
          rewrite app_assoc in EQ. apply app_inj_tail in EQ. destruct EQ as [_ <-]. apply (H2 c2 a2). exact EA.
      - left. intros a b E I.
        assert (ND : ~ In dquote rest).
        { unfold rest, pragma_rest. intros J.
          apply in_app_or in J. destruct J as [J|J]; [discriminate (G _ J)|].
          apply in_app_or in J. destruct J as [J|J]; [vm_compute in J; repeat (destruct J as [J|J]; [discriminate|]); exact J|].
          apply in_app_or in J. destruct J as [J|J]; [discriminate (G' _ J)|].
          apply in_app_or in J. destruct J as [J|J]; [vm_compute in J; repeat (destruct J as [J|J]; [discriminate|]); exact J|].
          apply in_app_or in J. destruct J as [J|J].
          - revert J. apply join_no; [discriminate|]. intros x Jx. destruct (forall2_in _ _ _ _ F Jx) as (w & Jw & P).
            apply (padded_no w x _ P (OL w Jw)); [reflexivity|discriminate].
          - apply in_app_or in J. destruct J as [J|J]; [vm_compute in J; repeat (destruct J as [J|J]; [discriminate|]); exact J|].
            discriminate (T _ J). }
        apply ND. rewrite E. apply in_or_app. right. left. reflexivity. }
    unfold PpModel.line_step. rewrite D.
    change (eqb $"pragma" $"ifdef") with false. change (eqb $"pragma" $"ifndef") with false. cbv iota.
    change (eqb $"pragma" $"if" || eqb $"pragma" $"elif") with false.
    change (eqb $"pragma" $"define" || eqb $"pragma" $"undef") with false. cbv iota. rewrite X. cbn [bind].
    change (eqb $"pragma" $"else") with false. change (eqb $"pragma" $"endif") with false.
    change (eqb $"pragma" $"pragma") with true. cbv iota. rewrite A.
    unfold rest. rewrite (pack_opts_rest ws ss g g' tl NE OL F G NG G'). rewrite (pack_op _ _ _ AO). reflexivity.
  Qed.

  Lemma text_step i s l : active s = true -> directive l = None -> exists s', line_step i s l = Ok s'
    /\ tab s' = tab s /\ ift s' = ift s /\ pstack s' = pstack s /\ plist s' = plist s.
  Proof.
    intros A D. unfold PpModel.line_step. rewrite D, A, expand_macros_ok. cbn [bind]. eexists. split; [reflexivity|].
    repeat split.
  Qed.

  (** ** The stacks (C34) *)
  (** The code keeps, for each record, the packing set by the push; the documented machine keeps
      the packing saved.  [below r l] is the code's stack for the saved records [l] when the
      last push has set [r], last record first. *)
  Fixpoint below (r : option Z) (l : list (option Z * option str)) : list (option Z * option str) :=
    match l with
    | [] => [(r, None)]
    | (p, i) :: l' => (r, i) :: below p l'
    end.
  Lemma below_last r l : exists i x, below r l = (r, i) :: x.
  Proof. destruct l as [|[p i] l]; cbn; eauto. Qed.

  Lemma cut_at_fresh i a b : ~ In (Some i) (map snd a) -> cut_at i (a ++ b) = option_map (app a) (cut_at i b).
  Proof.
    induction a as [|x a IH]; intros N; cbn [app cut_at]; [destruct (cut_at i b); reflexivity|].
    assert (E : eqb (snd x) (Some i) = false).
    { destruct (eqb (snd x) (Some i)) eqn:E; [|reflexivity]. apply eqb_eq in E. exfalso. apply N. left. exact E. }
    rewrite E, IH by (intros J; apply N; right; exact J). destruct (cut_at i b); reflexivity.
  Qed.
  Lemma below_ids r l : map snd (below r l) = map snd l ++ [None].
  Proof. revert r. induction l as [|[p i] l IH]; intros r; cbn [below map app]; [reflexivity|]. rewrite IH. reflexivity. Qed.
  Lemma unwind_cut i l : forall r x l', unwind i l = Some (x, l') -> NoDup (filter (fun o => negb (eqb o None)) (map snd l)) ->
    cut_at i (rev (below r l)) = Some (rev (below x l')).
  Proof.
    induction l as [|[p j] l IH]; intros r x l' U N; [discriminate|]. cbn [unwind] in U. cbn [below rev].
    destruct (eqb j (Some i)) eqn:E.
    - apply eqb_eq in E. subst j. injection U as <- <-. rewrite cut_at_fresh.
      + cbn [cut_at snd]. rewrite eqb_refl. cbn [option_map]. rewrite app_nil_r. reflexivity.
      + rewrite map_rev. intros J. apply in_rev in J. rewrite below_ids in J. apply in_app_or in J.
        destruct J as [J|[J|[]]]; [|discriminate]. cbn [map filter snd] in N. change (negb (eqb (Some i) None)) with true in N.
        cbv iota in N. inversion N; subst. apply H1. apply filter_In. split; [exact J|reflexivity].
    - assert (N' : NoDup (filter (fun o => negb (eqb o None)) (map snd l))).
      { cbn [map filter snd] in N. destruct (negb (eqb j None)); [inversion N; assumption|exact N]. }
      assert (CA : forall a b y, cut_at i a = Some y -> cut_at i (a ++ b) = Some y).
      { clear. induction a as [|z a IH]; intros b y H; [discriminate|]. cbn [app cut_at] in *.
        destruct (eqb (snd z) (Some i)); [exact H|]. destruct (cut_at i a) as [q|] eqn:Q; [|discriminate].
        rewrite (IH b q eq_refl). exact H. }
      apply CA. apply IH; assumption.
  Qed.
  Lemma unwind_ids i l x l' : unwind i l = Some (x, l') -> exists a, l = a ++ l'.
  Proof.
    revert x l'. induction l as [|[p j] l IH]; intros x l' U; [discriminate|]. cbn [unwind] in U.
    destruct (eqb j (Some i)).
    - injection U as <- <-. exists [(p, j)]. reflexivity.
    - destruct (IH _ _ U) as [a ->]. exists ((p, j) :: a). reflexivity.
  Qed.
  Lemma nodup_suffix {A} (f : A -> bool) a b : NoDup (filter f (a ++ b)) -> NoDup (filter f b).
  Proof. rewrite filter_app. induction (filter f a) as [|x l IH]; [auto|]. intros N. inversion N; auto. Qed.

  Definition related (s : pst) (p : packing) (r : option Z) : Prop :=
    active s = true /\ pstack s = rev (below r (saved p)) /\ in_force s = current p
    /\ NoDup (filter (fun o => negb (eqb o None)) (map snd (saved p))).

  Lemma in_force_add s k i v : in_force (emit (set_pack s k (plist s ++ [(i, v)])) []) = v.
  Proof. unfold in_force. cbn [emit set_pack plist]. rewrite last_last. reflexivity. Qed.

  Lemma history_run t ls os : history t ls os -> forall i s p r, tab s = t ->
    related s p r -> disciplined p r os ->
    exists s', run_lines i s ls = Ok s' /\ in_force s' = current (fold_left documented os p).
  Proof.
    induction 1 as [|l o ls os PL NM H IH|l ls os D H IH]; intros i s p r T R DI.
    - exists s. split; [reflexivity|]. exact (proj1 (proj2 (proj2 R))).
    - destruct R as (A & PS & IF & ND). cbn [PpModel.run_lines]. subst t.
      rewrite (pragma_step i s o l A PL NM).
      assert (STEP : forall st v p' r', code_pack (pstack s) o = Ok (st, v) -> st = rev (below r' (saved p')) ->
          v = current p' -> p' = documented p o -> NoDup (filter (fun o => negb (eqb o None)) (map snd (saved p'))) ->
          disciplined p' r' os ->
          exists s', (do s0 <- (do x <- code_pack (pstack s) o; Ok (emit (set_pack s (fst x) (plist s ++ [(i, snd x)])) []));
                      run_lines (S i) s0 ls) = Ok s' /\ in_force s' = current (fold_left documented (o :: os) p)).
      { intros st v p' r' C ST V P' N' DI'. rewrite C. cbn [bind fst snd]. cbn [fold_left]. rewrite <- P'.
        eapply IH; [reflexivity| |exact DI']. repeat split; auto. rewrite in_force_add. exact V. }
      destruct o as [n|j n|j n]; cbn [disciplined] in DI.
      + eapply (STEP _ _ (documented p (PSet n)) r); [reflexivity|exact PS|reflexivity|reflexivity|exact ND|exact DI].
      + destruct DI as (NN & CR & FR & DI). destruct n as [v|]; [|congruence].
        eapply (STEP _ _ (documented p (PPush j (Some v))) (Some v)); [reflexivity| |reflexivity|reflexivity| |exact DI].
        * cbn [documented saved below rev]. rewrite CR, PS. reflexivity.
        * cbn [documented saved map snd filter]. destruct j as [x|]; [|exact ND].
          change (negb (eqb (Some x) None)) with true. cbv iota. constructor; [|exact ND].
          intros J. apply filter_In in J. exact (FR x eq_refl (proj1 J)).
      + destruct j as [x|].
        * destruct (unwind x (saved p)) as [[y l']|] eqn:U; [|contradiction].
          pose proof (unwind_cut x (saved p) r y l' U ND) as C.
          destruct (unwind_ids _ _ _ _ U) as [a EA].
          assert (ND' : NoDup (filter (fun o => negb (eqb o None)) (map snd l'))).
          { rewrite EA in ND. rewrite map_app in ND. exact (nodup_suffix _ _ _ ND). }
          destruct (below_last y l') as (i0 & q & BL).
          eapply (STEP (rev (below y l')) (or_else n y) (documented p (PPop (Some x) n)) y).
          -- cbn [code_pack]. rewrite PS, C. cbn [bind]. rewrite rev_involutive, BL. destruct n; reflexivity.
          -- cbn [documented]. rewrite U. reflexivity.
          -- cbn [documented]. rewrite U. reflexivity.
          -- reflexivity.
          -- cbn [documented]. rewrite U. exact ND'.
          -- exact DI.
        * destruct (saved p) as [|[y j] l'] eqn:SV; [contradiction|].
          destruct (below_last y l') as (i0 & q & BL).
          assert (ND' : NoDup (filter (fun o => negb (eqb o None)) (map snd l'))).
          { change ((y, j) :: l') with ([(y, j)] ++ l') in ND. rewrite map_app in ND. exact (nodup_suffix _ _ _ ND). }
          eapply (STEP (rev (below y l')) (or_else n y) (documented p (PPop None n)) y).
          -- cbn [code_pack]. rewrite PS. cbn [below rev].
             assert (NEs : forall z : list (option Z * option str), z ++ [(r, j)] <> []) by (intros z E; destruct z; discriminate).
             destruct (rev (below y l') ++ [(r, j)]) as [|z1 z2] eqn:Z; [exfalso; exact (NEs _ Z)|]. rewrite <- Z.
             cbn [bind]. rewrite removelast_last, rev_involutive, BL. destruct n; reflexivity.
          -- cbn [documented]. rewrite SV. reflexivity.
          -- cbn [documented]. rewrite SV. reflexivity.
          -- reflexivity.
          -- cbn [documented]. rewrite SV. exact ND'.
          -- exact DI.
    - destruct R as (A & PS & IF & ND). destruct (text_step i s l A D) as (s1 & S1 & T1 & T2 & T3 & T4).
      cbn [PpModel.run_lines]. rewrite S1. cbn [bind]. eapply IH; [congruence| |exact DI].
      repeat split; [unfold active in *; rewrite T2; exact A|rewrite T3; exact PS|unfold in_force in *; rewrite T4; exact IF|exact ND].
  Qed.

  Lemma pack_history t ls os : history t ls os -> disciplined initial None os ->
    exists s', run_lines 0 (start t) ls = Ok s' /\ in_force s' = current (fold_left documented os initial).
  Proof.
    intros H D. apply (history_run t ls os H 0 (start t) initial None eq_refl); [|exact D].
    repeat split. constructor.
  Qed.

  (** ** Matched pops (C35) *)
  Lemma matched_run t ls os : history t ls os -> forall i s n, tab s = t -> active s = true ->
    n < length (pstack s) -> matched n os -> exists s', run_lines i s ls = Ok s'.
  Proof.
    induction 1 as [|l o ls os PL NM H IH|l ls os D H IH]; intros i s n T A L M.
    - eexists. reflexivity.
    - cbn [PpModel.run_lines]. subst t. rewrite (pragma_step i s o l A PL NM).
      destruct o as [v|j v|j v]; cbn [matched] in M.
      + cbn [code_pack bind fst snd]. apply (IH _ _ n); auto.
      + cbn [code_pack bind fst snd]. apply (IH _ _ (S n)); auto. cbn [emit set_pack pstack]. rewrite app_length. cbn. lia.
      + destruct j; [contradiction|]. destruct n as [|n]; [contradiction|]. cbn [code_pack].
        destruct (pstack s) as [|x st] eqn:PS; [cbn in L; lia|].
        assert (LR : length (removelast (x :: st)) = length st).
        { destruct (exists_last (l := x :: st) ltac:(discriminate)) as (a & y & E). rewrite E, removelast_last.
          apply (f_equal (@length _)) in E. rewrite app_length in E. cbn in E. lia. }
        cbn [length] in L. cbn [bind].
        assert (R : exists w, match v with
                     | Some v0 => Ok (removelast (x :: st), Some v0)
                     | None => match rev (removelast (x :: st)) with [] => Err IndexError | r :: _ => Ok (removelast (x :: st), fst r) end
                     end = Ok (removelast (x :: st), w)).
        { destruct v; [eauto|]. destruct (rev (removelast (x :: st))) eqn:E; [|eauto].
          apply (f_equal (@length _)) in E. rewrite rev_length, LR in E. cbn in E. lia. }
        destruct R as [w R]. rewrite R. cbn [bind fst snd]. apply (IH _ _ n); auto. cbn [emit set_pack pstack]. rewrite LR. lia.
    - destruct (text_step i s l A D) as (s1 & S1 & T1 & T2 & T3 & T4).
      cbn [PpModel.run_lines]. rewrite S1. cbn [bind]. apply (IH _ _ n); auto; [congruence|unfold active in *; rewrite T2; exact A|rewrite T3; exact L].
  Qed.
  Lemma pack_matched t ls os : history t ls os -> matched 0 os -> exists s', run_lines 0 (start t) ls = Ok s'.
  Proof. intros H M. apply (matched_run t ls os H 0 (start t) 0); auto. Qed.

  (** ** Packing of a structure (C36) *)
  Lemma step_plist i s l s' : line_step i s l = Ok s' ->
    (plist s' = plist s \/ (dname l = $"pragma" /\ exists p, plist s' = plist s ++ [(i, p)]))
    /\ exists x, outp s' = outp s ++ x.
  Proof.
    intros E.
    assert (KEEP : forall x, plist x = plist s -> outp x = outp s ->
       (plist x = plist s \/ (dname l = $"pragma" /\ exists p, plist x = plist s ++ [(i, p)])) /\ exists y, outp x = outp s ++ y).
    { intros x A B. split; [left; exact A|]. exists []. rewrite app_nil_r. exact B. }
    assert (EMIT : forall x y, plist x = plist s -> outp x = outp s ->
       (plist (emit x y) = plist s \/ (dname l = $"pragma" /\ exists p, plist (emit x y) = plist s ++ [(i, p)])) /\ exists z, outp (emit x y) = outp s ++ z).
    { intros x y A B. split; [left; exact A|]. exists [y]. cbn [emit outp]. rewrite B. reflexivity. }
    unfold PpModel.line_step in E. destruct (directive l) as [[d0 rest0]|] eqn:DL.
    2:{ destruct (active s); [rewrite expand_macros_ok in E; cbn [bind] in E|]; injection E as <-; apply EMIT; reflexivity. }
    destruct (if eqb d0 $"ifdef" then ($"if", $"defined " ++ rest0)
              else if eqb d0 $"ifndef" then ($"if", $"!defined " ++ rest0) else (d0, rest0)) as [d rest] eqn:DD.
    destruct (eqb d $"if" || eqb d $"elif").
    { rewrite condition_ok in E. cbn [bind] in E. destruct (eqb d $"elif").
      - destruct (ifh s) as [|h hs]; [discriminate|]. destruct (ift s) as [|x ts]; [discriminate|].
        injection E as <-. apply EMIT; reflexivity.
      - injection E as <-. apply EMIT; reflexivity. }
    destruct (eqb d $"define" || eqb d $"undef") eqn:DU.
    { destruct (macro_name rest) as [[n rest']|] eqn:M; [|discriminate].
      assert (R : exists r, (if all_true (ift s) then expand_macros fo (tab s) rest' else Ok rest') = Ok r).
      { destruct (all_true (ift s)); [rewrite expand_macros_ok|]; eauto. }
      destruct R as [r R]. rewrite R in E. cbn [bind] in E. destruct (active s); [|injection E as <-; apply KEEP; reflexivity].
      destruct (eqb d $"define"); injection E as <-; apply EMIT; reflexivity. }
    assert (R : exists r, (if all_true (ift s) then expand_macros fo (tab s) rest else Ok rest) = Ok r).
    { destruct (all_true (ift s)); [rewrite expand_macros_ok|]; eauto. }
    destruct R as [r R]. rewrite R in E. cbn [bind] in E.
    destruct (eqb d $"else").
    { destruct (ifh s) as [|h hs]; [discriminate|]. destruct (ift s) as [|x ts]; [discriminate|].
      injection E as <-. apply EMIT; reflexivity. }
    destruct (eqb d $"endif").
    { destruct (ift s) as [|h hs]; [discriminate|]. destruct (ifh s) as [|x ts]; [discriminate|].
      injection E as <-. apply EMIT; reflexivity. }
    destruct (eqb d $"pragma") eqn:DP; [|injection E as <-; apply EMIT; reflexivity].
    destruct (active s); [|injection E as <-; apply KEEP; reflexivity].
    destruct (pack_opts r) as [o|]; [|injection E as <-; apply KEEP; reflexivity].
    destruct (pack (pstack s) o) as [p|]; [|discriminate]. injection E as <-. split.
    - right. split; [|exists (snd p); reflexivity]. unfold dname. rewrite DL. apply eqb_eq in DP. subst d.
      destruct (eqb d0 $"ifdef"); [injection DD as X _; discriminate|].
      destruct (eqb d0 $"ifndef"); [injection DD as X _; discriminate|]. injection DD as -> _. reflexivity.
    - exists [[]]. reflexivity.
  Qed.
  Lemma run_plist ls : forall i s s', run_lines i s ls = Ok s' ->
    (exists new, plist s' = plist s ++ new /\ forall j p, In (j, p) new -> i <= j < i + length ls)
    /\ exists x, outp s' = outp s ++ x.
  Proof.
    induction ls as [|l ls IH]; intros i s s' R; cbn [PpModel.run_lines] in R.
    - injection R as <-. split; [exists []; split; [rewrite app_nil_r; reflexivity|intros j p []]|exists []; rewrite app_nil_r; reflexivity].
    - destruct (line_step i s l) as [s1|] eqn:E; [|discriminate]. cbn [bind] in R.
      destruct (step_plist _ _ _ _ E) as [P1 [x1 O1]]. destruct (IH _ _ _ R) as [(new & N1 & N2) [x2 O2]]. cbn [length].
      split; [|exists (x1 ++ x2); rewrite O2, O1, app_assoc; reflexivity].
      destruct P1 as [P1|(_ & p & P1)].
      + exists new. split; [congruence|]. intros j p I. specialize (N2 j p I). lia.
      + exists ((i, p) :: new). split; [rewrite N1, P1, <- app_assoc; reflexivity|].
        intros j q [I|I]; [injection I as <- <-; lia|]. specialize (N2 j q I). lia.
  Qed.

  Lemma packing_prefix k : forall a d, (forall j p, In (j, p) a -> j <= k) ->
    forall b, (forall j p b', b = (j, p) :: b' -> k < j) ->
    packing_at_aux (a ++ b) k d = match a with [] => d | _ => snd (last a (0, None)) end.
  Proof.
    induction a as [|[j p] a IH]; intros d A b B; cbn [app packing_at_aux].
    - destruct b as [|[j p] b]; [reflexivity|]. cbn [packing_at_aux]. specialize (B j p b eq_refl).
      destruct (j <=? k) eqn:E; [apply Nat.leb_le in E; lia|reflexivity].
    - assert (L : j <=? k = true) by (apply Nat.leb_le; apply (A j p); left; reflexivity). rewrite L.
      rewrite IH; [|intros j' p' I; apply (A j' p'); right; exact I|exact B]. destruct a as [|[j2 p2] a]; reflexivity.
  Qed.

  Lemma packing_line t pre l post s1 s' :
    run_lines 0 (start t) pre = Ok s1 -> length (outp s1) = length pre ->
    active s1 = true -> directive l = None -> dname (hd [] post) <> $"pragma" ->
    run_lines 0 (start t) (pre ++ l :: post) = Ok s' ->
    exists x, expand_macros fo (tab s1) l = Ok x /\ nth_error (outp s') (length pre) = Some x
      /\ packing_at (plist s') (S (length pre)) = in_force s1.
  Proof.
    intros R1 LO A D NP R. rewrite run_app, R1 in R. cbn [bind PpModel.run_lines] in R.
    destruct (run_plist _ _ _ _ R1) as [(n1 & P1 & B1) _]. cbn [plus] in B1.
    assert (S1 : line_step (length pre) s1 l = Ok (emit s1 (xm fo (tab s1) l))).
    { unfold PpModel.line_step. rewrite D, A, expand_macros_ok. reflexivity. }
    rewrite Nat.add_0_l in R. rewrite S1 in R. cbn [bind] in R.
    exists (xm fo (tab s1) l). split; [apply expand_macros_ok|].
    destruct post as [|l2 post].
    - cbn [PpModel.run_lines] in R. injection R as <-. cbn [emit outp plist]. split.
      + rewrite <- LO. rewrite nth_error_app2 by lia. rewrite Nat.sub_diag. reflexivity.
      + unfold packing_at. rewrite <- (app_nil_r (plist s1)). rewrite packing_prefix.
        * rewrite P1. unfold in_force. rewrite P1. reflexivity.
        * rewrite P1. intros j p [I|I]; [injection I as <- _; lia|]. specialize (B1 j p I). lia.
        * intros j p b' E. discriminate.
    - cbn [PpModel.run_lines] in R. destruct (line_step (S (length pre)) _ l2) as [s2|] eqn:E2; [|discriminate].
      cbn [bind] in R. destruct (step_plist _ _ _ _ E2) as [P2 [x2 O2]].
      destruct (run_plist _ _ _ _ R) as [(n3 & P3 & B3) [x3 O3]]. cbn [hd] in NP.
      destruct P2 as [P2|(X & _)]; [|congruence]. cbn [emit outp plist] in *. split.
      + rewrite O3, O2, <- !app_assoc. rewrite <- LO. rewrite nth_error_app2 by lia. rewrite Nat.sub_diag. reflexivity.
      + unfold packing_at. rewrite P3, P2. rewrite packing_prefix.
        * rewrite P1. unfold in_force. rewrite P1. reflexivity.
        * rewrite P1. intros j p [I|I]; [injection I as <- _; lia|]. specialize (B1 j p I). lia.
        * intros j p b' E. assert (J := B3 j p). rewrite E in J. specialize (J (or_introl eq_refl)). lia.
  Qed.
End Pack.
