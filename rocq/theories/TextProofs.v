(** Proofs about comments and continuation lines. *)
From Coq Require Import Ascii String Bool Arith ZArith Lia List.
Import ListNotations.
From Verif Require Import PyBase PyBaseFacts PyStr PyStrFacts WordFacts.
From Verif Require Import MacroModel MacroSpec MacroProofs MacroDefProofs PyExpr PpModel TextSpec.

(** ** Continuation lines *)
Lemma occurs_cons p c s : ~ occurs p (c :: s) -> ~ occurs p s.
Proof. intros N (a & b & ->). apply N. exists (c :: a), b. reflexivity. Qed.
Lemma occurs_nil p : p <> [] -> ~ occurs p [].
Proof. intros N (a & b & E). symmetry in E. apply app_eq_nil in E. destruct E as [_ E]. apply app_eq_nil in E. tauto. Qed.

Lemma join_lines_none s : ~ occurs continuation s -> join_lines s = s.
Proof.
  induction s as [|c s IH]; intros N; [reflexivity|]. cbn [join_lines]. destruct s as [|d s]; [reflexivity|].
  destruct (cheq_spec c bslash) as [->|]; cbn [andb].
  - destruct (cheq_spec d nl) as [->|].
    + exfalso. apply N. exists [], s. reflexivity.
    + f_equal. apply IH. eapply occurs_cons. exact N.
  - f_equal. apply IH. eapply occurs_cons. exact N.
Qed.
Lemma join_lines_step s r : ~ occurs continuation s ->
  join_lines (s ++ continuation ++ r) = s ++ join_lines r.
Proof.
  induction s as [|c s IH]; intros N; [reflexivity|].
  assert (IH' := IH (occurs_cons _ _ _ N)). cbn [app]. cbn [join_lines].
  destruct (s ++ continuation ++ r) as [|d x] eqn:E; [destruct s; discriminate|].
  destruct (cheq_spec c bslash) as [->|]; cbn [andb]; [|f_equal; exact IH'].
  destruct (cheq_spec d nl) as [->|]; [|f_equal; exact IH'].
  exfalso. destruct s as [|y s]; [discriminate|]. cbn in E. injection E as -> E. apply N. exists [], s. reflexivity.
Qed.
Lemma join_lines_segs segs : segs <> [] -> Forall (fun s => ~ occurs continuation s) segs ->
  join_lines (join continuation segs) = concat segs.
Proof.
  induction segs as [|s segs IH]; intros NE F; [congruence|]. inversion F; subst.
  destruct segs as [|s2 segs].
  - cbn [join concat]. rewrite app_nil_r. apply join_lines_none. assumption.
  - rewrite join_cons by discriminate. rewrite join_lines_step by assumption. cbn [concat]. f_equal.
    apply IH; [discriminate|assumption].
Qed.
Lemma segs_exist text : exists segs, segs <> [] /\ text = join continuation segs
  /\ Forall (fun s => ~ occurs continuation s) segs.
Proof.
  remember (length text) as n eqn:L. assert (LE : length text <= n) by lia. clear L.
  revert text LE. induction n as [|n IH]; intros text LE.
  - destruct text; [|cbn in LE; lia]. exists [[]]. split; [discriminate|]. split; [reflexivity|].
    constructor; [apply occurs_nil; discriminate|constructor].
  - destruct text as [|c text].
    + exists [[]]. split; [discriminate|]. split; [reflexivity|].
      constructor; [apply occurs_nil; discriminate|constructor].
    + assert (STEP : (forall r, c :: text <> continuation ++ r) ->
                exists segs, segs <> [] /\ c :: text = join continuation segs
                  /\ Forall (fun s => ~ occurs continuation s) segs).
      { intros NC. destruct (IH text) as (segs & NE & E & F); [cbn in LE; lia|].
        destruct segs as [|s segs]; [congruence|]. exists ((c :: s) :: segs). split; [discriminate|]. split.
        - rewrite E. destruct segs; reflexivity.
        - inversion F; subst. constructor; [|assumption]. intros (a & b & X). destruct a as [|y a].
          + cbn [app] in X. unfold continuation in X. cbn [app] in X. injection X as -> X.
            apply (NC (match segs with [] => b | _ => b ++ continuation ++ join continuation segs end)). rewrite X.
            destruct segs; [reflexivity|]. rewrite join_cons by discriminate. reflexivity.
          + injection X as -> X. apply H1. exists a, b. exact X. }
      destruct (cheq_spec c bslash) as [->|NB].
      2:{ apply STEP. intros r X. injection X. congruence. }
      destruct text as [|d text].
      { apply STEP. intros r X. discriminate. }
      destruct (cheq_spec d nl) as [->|NN].
      2:{ apply STEP. intros r X. injection X. congruence. }
      destruct (IH text) as (segs & NE & E & F); [cbn in LE; lia|].
      exists ([] :: segs). split; [discriminate|]. split.
      * rewrite join_cons by exact NE. rewrite E. reflexivity.
      * constructor; [apply occurs_nil; discriminate|exact F].
Qed.

Lemma joined_segs text : exists segs, segs <> [] /\ text = join continuation segs
  /\ Forall (fun s => ~ occurs continuation s) segs /\ join_lines text = concat segs.
Proof.
  destruct (segs_exist text) as (segs & NE & E & F). exists segs. split; [exact NE|]. split; [exact E|].
  split; [exact F|]. rewrite E. apply join_lines_segs; assumption.
Qed.

(** ** Comments *)
Lemma comment_end_here b r : ~ occurs $"*/" b -> comment_end (b ++ $"*/" ++ r) = Some r.
Proof.
  induction b as [|c b IH]; intros N; [reflexivity|].
  assert (IH' := IH (occurs_cons _ _ _ N)). cbn [app]. cbn [comment_end].
  destruct (b ++ $"*/" ++ r) as [|d x] eqn:E; [destruct b; discriminate|].
  destruct (cheq_spec c "*") as [->|]; cbn [andb]; [|exact IH'].
  destruct (cheq_spec d "/") as [->|]; [|exact IH'].
  exfalso. destruct b as [|y b]; [discriminate|]. cbn in E. injection E as -> E. apply N. exists [], b. reflexivity.
Qed.

(** What follows a literal: after its closing quote, a literal with the same quote goes on. *)
Lemma qs_body_cons f q p x s :
  qs_body (S f) q (p ++ s) = match x with Some (a, b) => Some (p ++ a, b) | None => None end ->
  forall a b, x = Some (a, b) -> qs_body (S f) q (p ++ s) = Some (p ++ a, b).
Proof. intros H a b ->. exact H. Qed.

Lemma qs_mono f q s : forall x, qs_body f q s = Some x -> forall g, f <= g -> qs_body g q s = Some x.
Proof.
  revert s. induction f as [|f IH]; intros s x E g L; [discriminate|]. destruct g as [|g]; [lia|].
  cbn [qs_body] in *. destruct s as [|c r]; [discriminate|].
  assert (REC : forall p s', match qs_body f q s' with Some (a, b) => Some (p ++ a, b) | None => None end = Some x ->
              match qs_body g q s' with Some (a, b) => Some (p ++ a, b) | None => None end = Some x).
  { intros p s' H. destruct (qs_body f q s') as [y|] eqn:Q; [|discriminate].
    rewrite (IH _ _ Q g) by lia. exact H. }
  destruct (cheq c q).
  - destruct r as [|d r']; [exact E|]. destruct (cheq d q); [apply REC; exact E|exact E].
  - destruct (cheq c bslash).
    + destruct r as [|d r']; [discriminate|]. destruct (cheq d "x").
      * destruct (span is_hex r') as [h r'']. destruct h; [discriminate|]. apply REC. exact E.
      * apply REC. exact E.
    + destruct (cheq c nl || cheq c cr); [discriminate|]. apply REC. exact E.
Qed.

(** A literal body, then [rest] beginning with the closing quote. *)
Lemma qs_body_app q b : In q quotes -> quoted_body q b -> forall rest a e f,
  (exists r, rest = q :: r) -> qs_body f q rest = Some (a, e) -> exists g, qs_body g q (b ++ rest) = Some (b ++ a, e).
Proof.
  intros Q. induction 1 as [|c s N B IH|c s N B IH|h s NE HX ND B IH]; intros rest a e f RQ E.
  - exists f. exact E.
  - destruct (IH rest a e f RQ E) as (g & G). exists (S g). cbn [app qs_body].
    assert (N1 : cheq c q = false) by (apply cheq_false; intros ->; apply N; left; reflexivity).
    assert (N2 : cheq c bslash = false) by (apply cheq_false; intros ->; apply N; right; left; reflexivity).
    assert (N3 : cheq c nl || cheq c cr = false).
    { apply orb_false_iff. split; apply cheq_false; intros ->; apply N; cbn; tauto. }
    rewrite N1, N2, N3, G. reflexivity.
  - destruct (IH rest a e f RQ E) as (g & G). exists (S g). cbn [app qs_body].
    assert (NQ : cheq bslash q = false) by (destruct Q as [<-|[<-|[]]]; reflexivity).
    rewrite NQ, cheq_refl. assert (NX : cheq c "x" = false) by (apply cheq_false; exact N).
    rewrite NX, G. reflexivity.
  - destruct (IH rest a e f RQ E) as (g & G). exists (S g). cbn [app qs_body].
    assert (NQ : cheq bslash q = false) by (destruct Q as [<-|[<-|[]]]; reflexivity).
    rewrite NQ, !cheq_refl. rewrite <- app_assoc.
    rewrite span_run.
    + destruct h; [congruence|]. rewrite G, <- app_assoc. reflexivity.
    + apply forallb_forall. exact HX.
    + destruct s as [|x s]; [|cbn; rewrite (ND x s eq_refl); reflexivity].
      destruct RQ as [r ->]. cbn. destruct Q as [<-|[<-|[]]]; reflexivity.
Qed.

(** Literals with the same quote that follow each other are one match. *)
Fixpoint run_of (q : ascii) (ps : list part) : list part * list part :=
  match ps with
  | AQuoted q' b :: r => if cheq q q' then let (x, y) := run_of q r in (AQuoted q' b :: x, y) else ([], ps)
  | _ => ([], ps)
  end.
Lemma run_of_app q ps : let (x, y) := run_of q ps in ps = x ++ y.
Proof.
  induction ps as [|[c|q' b|b|b] ps IH]; cbn [run_of]; auto. destruct (cheq q q'); [|reflexivity].
  destruct (run_of q ps) as [x y]. rewrite IH. reflexivity.
Qed.
Lemma parts_app a b : parts_text (a ++ b) = parts_text a ++ parts_text b.
Proof. unfold parts_text. rewrite map_app, concat_app. reflexivity. Qed.

Lemma quoted_run q b ps : In q quotes -> quoted_body q b -> reads_as ps ->
  let (x, y) := run_of q ps in
  exists g, qs_body g q (b ++ q :: parts_text ps) = Some (b ++ q :: parts_text x, parts_text y).
Proof.
  revert b. induction ps as [|p ps IH]; intros b Q B R.
  - cbn [run_of]. apply (qs_body_app q b Q B [q] [q] [] 1); [exists []; reflexivity|].
    cbn [qs_body]. rewrite cheq_refl. reflexivity.
  - destruct R as [RP R].
    assert (OTHER : (forall d s, parts_text (p :: ps) = d :: s -> d <> q) ->
        exists g, qs_body g q (b ++ q :: parts_text (p :: ps)) = Some (b ++ q :: parts_text [], parts_text (p :: ps))).
    { intros H. apply (qs_body_app q b Q B _ [q] _ 1); [eexists; reflexivity|].
      cbn [qs_body]. rewrite cheq_refl. destruct (parts_text (p :: ps)) as [|d s] eqn:E; [reflexivity|].
      assert (N : cheq d q = false) by (apply cheq_false; exact (H d s eq_refl)). rewrite N. reflexivity. }
    destruct p as [c|q' b'|b'|b']; cbn [run_of].
    + apply OTHER. intros d s E. cbn in E. injection E as <- _. destruct RP as [N _]. intros ->. exact (N Q).
    + destruct (cheq_spec q q') as [<-|NQ].
      * destruct RP as [_ B']. specialize (IH b' Q B' R). destruct (run_of q ps) as [x y].
        destruct IH as [g G].
        change (parts_text (AQuoted q b' :: ps)) with ((q :: b' ++ [q]) ++ parts_text ps).
        change (parts_text (AQuoted q b' :: x)) with ((q :: b' ++ [q]) ++ parts_text x).
        cbn [app]. rewrite <- !app_assoc. cbn [app].
        apply (qs_body_app q b Q B (q :: q :: b' ++ q :: parts_text ps) _ _ (S g)); [eexists; reflexivity|].
        cbn [qs_body]. rewrite cheq_refl, G. reflexivity.
      * apply OTHER. intros d s E. cbn in E. injection E as <- _. congruence.
    + apply OTHER. intros d s E. cbn in E. injection E as <- _. destruct Q as [<-|[<-|[]]]; discriminate.
    + apply OTHER. intros d s E. cbn in E. injection E as <- _. destruct Q as [<-|[<-|[]]]; discriminate.
Qed.

Lemma qs_fuel q s x : forall f, qs_body f q s = Some x -> qs_body (S (length s)) q s = Some x.
Proof.
  enough (H : forall n f s x, length s < n -> qs_body f q s = Some x -> qs_body n q s = Some x).
  { intros f E. apply (H _ f); [lia|exact E]. }
  clear. induction n as [|n IH]; intros f s x L E; [lia|]. destruct f as [|f]; [discriminate|].
  cbn [qs_body] in *. destruct s as [|c r]; [discriminate|]. cbn [length] in L.
  assert (REC : forall p s', length s' < n -> match qs_body f q s' with Some (a, b) => Some (p ++ a, b) | None => None end = Some x ->
              match qs_body n q s' with Some (a, b) => Some (p ++ a, b) | None => None end = Some x).
  { intros p s' L' H. destruct (qs_body f q s') as [y|] eqn:Q; [|discriminate].
    rewrite (IH f _ _ L' Q). exact H. }
  destruct (cheq c q).
  - destruct r as [|d r']; [exact E|]. destruct (cheq d q); [apply REC; [cbn in L; lia|exact E]|exact E].
  - destruct (cheq c bslash).
    + destruct r as [|d r']; [discriminate|]. destruct (cheq d "x").
      * pose proof (span_app is_hex r') as SP. destruct (span is_hex r') as [h r'']. destruct h; [discriminate|].
        apply REC; [|exact E]. apply (f_equal (@length _)) in SP. cbn [app length] in *. rewrite app_length in SP. lia.
      * apply REC; [cbn in L; lia|exact E].
    + destruct (cheq c nl || cheq c cr); [discriminate|]. apply REC; [lia|exact E].
Qed.

Lemma without_app a b : without_comments (a ++ b) = without_comments a ++ without_comments b.
Proof. unfold without_comments. rewrite map_app, concat_app. reflexivity. Qed.
Lemma run_of_text q ps : without_comments (fst (run_of q ps)) = parts_text (fst (run_of q ps)).
Proof.
  induction ps as [|[c|q' b|b|b] ps IH]; cbn [run_of fst]; auto. destruct (cheq q q'); [|reflexivity].
  destruct (run_of q ps) as [x y]. cbn [fst] in *.
  unfold without_comments, parts_text in *. cbn [map concat]. rewrite IH. reflexivity.
Qed.
Lemma reads_as_app a b : reads_as (a ++ b) -> reads_as b.
Proof. induction a; [auto|]. cbn. tauto. Qed.

Lemma remove_comments_parts : forall n ps, length (parts_text ps) <= n -> reads_as ps ->
  remove_comments_aux n (parts_text ps) = without_comments ps.
Proof.
  induction n as [|n IH]; intros ps L R.
  - destruct ps as [|p ps]; [reflexivity|]. exfalso. unfold parts_text in L. cbn [map concat] in L.
    rewrite app_length in L. destruct p; cbn in L; lia.
  - destruct ps as [|p ps]; [reflexivity|]. destruct R as [RP R].
    change (parts_text (p :: ps)) with (part_text p ++ parts_text ps) in *. rewrite app_length in L.
    change (without_comments (p :: ps))
      with ((match p with ABlock _ | ALine _ => [] | p => part_text p end) ++ without_comments ps).
    destruct p as [c|q b|b|b]; cbn [part_text] in *.
    + destruct RP as [NQ SL]. cbn [app remove_comments_aux]. cbn [app length] in L.
      assert (QS : quoted_string (c :: parts_text ps) = None).
      { unfold quoted_string. destruct (cheq_spec c dquote) as [->|]; [exfalso; apply NQ; left; reflexivity|].
        destruct (cheq_spec c squote) as [->|]; [exfalso; apply NQ; right; left; reflexivity|]. reflexivity. }
      rewrite QS. assert (IHp := IH ps ltac:(lia) R).
      destruct (parts_text ps) as [|d s] eqn:E.
      * assert (ps = []).
        { destruct ps as [|p ps]; [reflexivity|]. exfalso. change (parts_text (p :: ps)) with (part_text p ++ parts_text ps) in E.
          destruct p; discriminate. }
        subst ps. reflexivity.
      * destruct (cheq_spec c "/") as [->|NS]; cbn [andb].
        -- destruct (SL eq_refl d s eq_refl) as [N1 N2].
           replace (cheq d "/") with false by (symmetry; apply cheq_false; exact N1).
           replace (cheq d "*") with false by (symmetry; apply cheq_false; exact N2). rewrite IHp. reflexivity.
        -- rewrite IHp. reflexivity.
    + destruct RP as [Q B].
      pose proof (quoted_run q b ps Q B R) as H. pose proof (run_of_app q ps) as RA. pose proof (run_of_text q ps) as RT.
      destruct (run_of q ps) as [x y]. cbn [fst] in RT. destruct H as [g G]. subst ps.
      cbn [app]. cbn [remove_comments_aux]. rewrite <- app_assoc. cbn [app].
      assert (QS : quoted_string (q :: b ++ q :: parts_text (x ++ y)) = Some (q :: b ++ q :: parts_text x, parts_text y)).
      { unfold quoted_string. assert (QQ : cheq q dquote || cheq q squote = true) by (destruct Q as [<-|[<-|[]]]; reflexivity).
        rewrite QQ, (qs_fuel q _ _ g G). reflexivity. }
      rewrite QS. rewrite without_app, RT. rewrite IH.
      * cbn [app]. rewrite <- !app_assoc. reflexivity.
      * cbn [app length] in L. rewrite parts_app, !app_length in L. lia.
      * apply reads_as_app in R. exact R.
    + cbn [app]. change ($"/*" ++ b ++ $"*/") with ("/"%char :: "*"%char :: b ++ $"*/").
      cbn [app]. cbn [remove_comments_aux]. rewrite <- app_assoc.
      change (quoted_string ("/"%char :: "*"%char :: b ++ $"*/" ++ parts_text ps)) with (@None (str * str)).
      rewrite comment_end_here by exact RP. change (cheq "/" "/" && cheq "*" "*") with true. cbv iota.
      cbn [app]. apply IH; auto. rewrite !app_length in L. cbn [length list_ascii_of_string] in L. lia.
    + destruct RP as (NN & _ & NX). cbn [app]. change ($"//" ++ b) with ("/"%char :: "/"%char :: b).
      cbn [app]. cbn [remove_comments_aux].
      change (quoted_string ("/"%char :: "/"%char :: b ++ parts_text ps)) with (@None (str * str)).
      change (cheq "/" "/" && cheq "/" "*") with false. change (cheq "/" "/" && cheq "/" "/") with true. cbv iota.
      assert (D : drop_while (fun x => negb (cheq x nl)) (b ++ parts_text ps) = parts_text ps).
      { rewrite drop_while_app_all.
        - destruct (parts_text ps) as [|d s] eqn:E; [reflexivity|]. rewrite (NX d s eq_refl). reflexivity.
        - apply forallb_forall. intros c I. apply negb_true_iff. apply cheq_false. intros ->. exact (NN I). }
      rewrite D. cbn [app]. apply IH; auto. rewrite app_length in L. cbn [length list_ascii_of_string] in L. lia.
Qed.
Lemma remove_comments_reads ps : reads_as ps -> remove_comments (parts_text ps) = without_comments ps.
Proof. intros R. apply remove_comments_parts; auto. Qed.
