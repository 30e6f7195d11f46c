(** Proofs about packing in whole headers (C81). *)
From Coq Require Import Ascii String Bool Arith ZArith Lia List.
Import ListNotations.
From Verif Require Import PyBase PyBaseFacts PyStr PyStrFacts MacroModel MacroSpec MacroProofs MacroDefProofs PyExpr PpModel PpSpec CondProofs PpProofs.
From Verif Require Import TextSpec TextProofs PackProofs FileSpec FileProofs PackedSpec.

Lemma printed_app a b : printed (a ++ b) = printed a ++ printed b.
Proof. apply flat_map_app. Qed.
Lemma ops_app a b : ops (a ++ b) = ops a ++ ops b.
Proof. apply flat_map_app. Qed.
Lemma after_app p a b : after p (a ++ b) = after (after p a) b.
Proof. unfold after. rewrite ops_app, fold_left_app. reflexivity. Qed.
Lemma unused_ops ls : ops (map unused ls) = [].
Proof.
  induction ls as [|l ls IH]; [reflexivity|]. cbn [map]. unfold ops in *. cbn [flat_map]. rewrite IH.
  unfold unused. destruct (existsb _ _); reflexivity.
Qed.
Lemma unused_conditional l : conditional l -> unused l = Put [].
Proof. unfold unused, conditional. intros [<-|[<-|[<-|[<-|[<-|[<-|[]]]]]]]; reflexivity. Qed.

Section Steps.
  Context (fo : str -> list str -> option str) (ext : str -> bool).
  Notation line_step := (line_step fo ext).
  Notation run_lines := (run_lines fo ext).

  (** ** Skipped lines *)
  Definition still (s s' : pst) (es : list event) : Prop :=
    tab s' = tab s /\ pstack s' = pstack s /\ plist s' = plist s /\ outp s' = outp s ++ printed es.
  Lemma still_trans a b c x y : still a b x -> still b c y -> still a c (x ++ y).
  Proof.
    intros (A1 & A2 & A3 & A4) (B1 & B2 & B3 & B4). repeat split; try congruence. rewrite B4, A4, printed_app, app_assoc. reflexivity.
  Qed.
  Lemma still_refl a : still a a [].
  Proof. repeat split. cbn. rewrite app_nil_r. reflexivity. Qed.
  Lemma still_emit s t h : still s (emit (set_if s t h) []) [Put []].
  Proof. repeat split. Qed.
  Lemma other_unused i s l : active s = false -> ~ nameless l -> ~ conditional l ->
    exists s', line_step i s l = Ok s' /\ still s s' [unused l] /\ ift s' = ift s /\ ifh s' = ifh s.
  Proof.
    intros A N C. rewrite step_other by exact C. unfold other_step, unused, dname. rewrite A.
    destruct (directive l) as [[d r]|] eqn:D.
    2: { eexists. split; [reflexivity|]. repeat split. }
    cbn [existsb].
    destruct (eqb d $"define" || eqb d $"undef") eqn:DU.
    - destruct (macro_name r) as [[n r']|] eqn:M.
      + eexists. split; [reflexivity|]. rewrite orb_assoc, DU. cbn [orb]. split; [|split; reflexivity]. repeat split. cbn. rewrite app_nil_r. reflexivity.
      + exfalso. apply N. exists d, r. split; [exact D|]. split; [|exact M].
        apply orb_true_iff in DU. destruct DU as [E1|E1]; apply eqb_eq in E1; subst d; cbn; auto.
    - rewrite orb_assoc, DU. cbn [orb]. rewrite orb_false_r. destruct (eqb d $"pragma").
      + eexists. split; [reflexivity|]. split; [|split; reflexivity]. repeat split. cbn. rewrite app_nil_r. reflexivity.
      + eexists. split; [reflexivity|]. repeat split.
  Qed.
  Lemma skip_out :
    (forall b, well_formed b -> forall i s, active s = false -> all_true (ift s) = false ->
       exists s', run_lines i s (lines b) = Ok s' /\ still s s' (map unused (lines b)) /\ ift s' = ift s /\ ifh s' = ifh s)
    /\ (forall t, bwell_formed t -> forall i s x ts h hs, ift s = x :: ts -> ifh s = h :: hs -> h || negb (all_true ts) = true ->
       exists s', run_lines i s (blines t) = Ok s' /\ still s s' (map unused (blines t)) /\ ift s' = ts /\ ifh s' = hs).
  Proof.
    apply block_branches_ind.
    - intros _ i s A AT. exists s. split; [reflexivity|]. split; [apply still_refl|auto].
    - intros l b IH (C & N & W) i s A AT. cbn [lines PpModel.run_lines map].
      destruct (other_unused i s l A N C) as (s1 & E & K & T & H). rewrite E. cbn [bind].
      destruct (IH W (S i) s1) as (s' & R & K' & T' & H'); [unfold active; rewrite T; exact A|rewrite T; exact AT|].
      exists s'. split; [exact R|]. split; [|split; congruence]. exact (still_trans _ _ _ [unused l] _ K K').
    - intros l body IHb t IHt rest IHr (O & W1 & W2 & W3) i s A AT. cbn [lines PpModel.run_lines map].
      rewrite step_open by exact O. rewrite AT. cbv zeta. cbn [bind]. set (s1 := emit _ []).
      rewrite (unused_conditional l (opens_conditional l O)). rewrite !map_app, !run_app.
      destruct (IHb W1 (S i) s1) as (s2 & R2 & K2 & T2 & H2); [reflexivity|reflexivity|]. rewrite R2. cbn [bind]. rewrite run_app.
      destruct (IHt W2 (S i + length (lines body)) s2 false (ift s) false (ifh s) T2 H2) as (s3 & R3 & K3 & T3 & H3); [rewrite AT; reflexivity|].
      rewrite R3. cbn [bind].
      destruct (IHr W3 (S i + length (lines body) + length (blines t)) s3) as (s4 & R4 & K4 & T4 & H4);
        [unfold active; rewrite T3; exact A|rewrite T3; exact AT|].
      exists s4. split; [exact R4|]. split; [|split; congruence].
      apply (still_trans s s1 s4 [Put []]); [apply still_emit|]. eapply still_trans; [exact K2|]. eapply still_trans; [exact K3|exact K4].
    - intros l E i s x ts h hs ET EH HT. cbn [blines PpModel.run_lines map]. rewrite step_endif by exact E. rewrite ET, EH. cbn [bind].
      rewrite unused_conditional by (unfold conditional; rewrite E; cbn; auto 10).
      eexists. split; [reflexivity|]. split; [apply still_emit|split; reflexivity].
    - intros l body IHb e (E & W & E2) i s x ts h hs ET EH HT. cbn [blines PpModel.run_lines map]. rewrite step_else by exact E. rewrite ET, EH.
      assert (HF : negb h && all_true ts = false) by (destruct h, (all_true ts); cbn in *; congruence). rewrite HF. cbn [bind].
      rewrite unused_conditional by (unfold conditional; rewrite E; cbn; auto 10). rewrite run_app, map_app.
      set (s1 := emit _ []). destruct (IHb W (S i) s1) as (s2 & R2 & K2 & T2 & H2); [reflexivity|reflexivity|]. rewrite R2. cbn [bind PpModel.run_lines map].
      rewrite step_endif by exact E2. rewrite T2, H2. cbn [s1 emit set_if ift ifh bind].
      rewrite (unused_conditional e) by (unfold conditional; rewrite E2; cbn; auto 10).
      eexists. split; [reflexivity|]. split; [|split; reflexivity].
      apply (still_trans s s1 _ [Put []]); [apply still_emit|]. eapply still_trans; [exact K2|apply still_emit].
    - intros l body IHb t IHt (E & W & W2) i s x ts h hs ET EH HT. cbn [blines PpModel.run_lines map]. rewrite step_elif by exact E. rewrite ET, EH, HT.
      cbv zeta. cbn [bind]. rewrite unused_conditional by (unfold conditional; rewrite E; cbn; auto 10). rewrite run_app, map_app.
      set (s1 := emit _ []). destruct (IHb W (S i) s1) as (s2 & R2 & K2 & T2 & H2); [reflexivity|reflexivity|]. rewrite R2. cbn [bind].
      destruct (IHt W2 (S i + length (lines body)) s2 false ts (h || false) hs T2 H2) as (s3 & R3 & K3 & T3 & H3); [destruct h; exact HT|].
      exists s3. split; [exact R3|]. split; [|auto].
      apply (still_trans s s1 s3 [Put []]); [apply still_emit|]. eapply still_trans; [exact K2|exact K3].
  Qed.

  (** ** Single lines *)
  Lemma cpp_step m l o m1 i p : cpp m (BLine l BNil) o m1 -> dname l <> $"pragma" ->
    ok_at p m -> all_true (ift p) = true -> active p = true ->
    exists p', line_step i p l = Ok p' /\ ok_at p' m1 /\ ift p' = ift p /\ ifh p' = ifh p
      /\ pstack p' = pstack p /\ plist p' = plist p /\ outp p' = outp p ++ [hd [] o].
  Proof.
    intros C NP O AT AC. destruct (proj1 (cpp_run fo ext) _ _ _ _ C i p O AT AC) as (p' & R & O' & T' & H' & W1 & W2 & _).
    cbn [lines PpModel.run_lines] in R. destruct (line_step i p l) as [p1|e] eqn:E; [|discriminate R]. cbn [bind] in R. injection R as ->.
    exists p'. split; [reflexivity|]. split; [exact O'|]. split; [exact T'|]. split; [exact H'|]. split; [exact W2|]. split; [exact W1|].
    inversion C as [|? ? x ? ? ? D EX N|? ? n body v ? ? ? L U N|? ? n d ? ? ? L NK NM N|? ? n ? ? ? L NF NM N|? ? ? ? ? L N| |]; subst; inversion N; subst.
    - assert (ST : line_step i p l = Ok (emit p x)).
      { rewrite step_other; [|unfold conditional, dname; rewrite D; intros [X|[X|[X|[X|[X|[X|[]]]]]]]; discriminate X].
        unfold CondProofs.other_step. rewrite D, AC, (xm_expands fo (tab p) _ l x (proj1 O) EX). reflexivity. }
      rewrite ST in E. injection E as <-. reflexivity.
    - rewrite (step_object fo ext i p _ n body v l (proj1 O) AT AC L U) in E. injection E as <-. reflexivity.
    - destruct (step_function fo ext i p _ n d l (proj1 O) AT AC L) as (x & ST & _). rewrite ST in E. injection E as <-. reflexivity.
    - rewrite (step_undef fo ext i p n l AC L) in E. injection E as <-. reflexivity.
    - destruct L as [[NE NI]|(r & D & _)]; [|exfalso; apply NP; unfold dname; rewrite D; reflexivity].
      destruct (step_idle fo ext i p _ l (proj1 O) AT AC) as [ST|ST]; [left; auto|rewrite ST in E; injection E as <-; reflexivity|].
      exfalso. rewrite step_other in ST.
      + unfold CondProofs.other_step in ST. unfold dname in NE, NI. destruct (directive l) as [[d r]|]; [|congruence].
        assert (X : forall x, In x [$"if"; $"ifdef"; $"ifndef"; $"elif"; $"else"; $"endif"; $"define"; $"undef"; $"pragma"] -> eqb d x = false).
        { intros x I1. apply eqb_false. intros ->. exact (NI I1). }
        rewrite (X $"define"), (X $"undef"), (X $"pragma") in ST by (cbn; auto 10). cbn [orb] in ST. injection ST as ST.
        apply (f_equal outp) in ST. cbn [emit outp] in ST. apply (f_equal (@length _)) in ST. rewrite app_length in ST. cbn in ST. lia.
      + intros CD. apply NI. unfold conditional in CD. cbn [In] in CD |- *. intuition.
  Qed.
  Lemma idle_step m l i p : dname l = $"pragma" -> idle_line m l -> ok_at p m -> all_true (ift p) = true -> active p = true ->
    line_step i p l = Ok p.
  Proof.
    intros DP L O AT AC. pose proof L as L'. destruct L' as [[NE NI]|(r & D & NP & NK & NL)]; [exfalso; apply NI; rewrite DP; cbn; auto 10|].
    rewrite step_other.
    - unfold CondProofs.other_step. rewrite D. change (eqb $"pragma" $"define" || eqb $"pragma" $"undef") with false.
      change (eqb $"pragma" $"pragma") with true. cbv iota. rewrite AC, AT, (xm_expands fo (tab p) m r r (proj1 O) (ex_none m r NK NL)).
      destruct (pack_opts r) as [o|] eqn:PO; [|reflexivity]. exfalso. apply NP. apply (pack_word r o PO).
    - unfold conditional. rewrite DP. intros [E|[E|[E|[E|[E|[E|[]]]]]]]; discriminate E.
  Qed.
  (** The stacks. *)
  Definition tied (p : pst) (k : packing) (r : option Z) : Prop :=
    pstack p = rev (below r (saved k)) /\ NoDup (filter (fun o => negb (eqb o None)) (map snd (saved k))).
  Lemma pack_tied st k r o os : st = rev (below r (saved k)) -> NoDup (filter (fun o => negb (eqb o None)) (map snd (saved k))) ->
    disciplined k r (o :: os) ->
    exists st' r', code_pack st o = Ok (st', current (documented k o)) /\ st' = rev (below r' (saved (documented k o)))
      /\ NoDup (filter (fun o => negb (eqb o None)) (map snd (saved (documented k o)))) /\ disciplined (documented k o) r' os.
  Proof.
    intros PS ND DI. destruct o as [n|j n|j n]; cbn [disciplined] in DI.
    - exists st, r. split; [reflexivity|]. split; [exact PS|]. split; [exact ND|exact DI].
    - destruct DI as (NN & CR & FR & DI). destruct n as [v|]; [|congruence].
      exists (st ++ [(Some v, j)]), (Some v). split; [reflexivity|]. split; [cbn [documented saved below rev]; rewrite CR, PS; reflexivity|].
      split; [|exact DI]. cbn [documented saved map snd filter]. destruct j as [x|]; [|exact ND].
      change (negb (eqb (Some x) None)) with true. cbv iota. constructor; [|exact ND].
      intros J. apply filter_In in J. exact (FR x eq_refl (proj1 J)).
    - destruct j as [x|].
      + cbn [documented] in *. destruct (unwind x (saved k)) as [[y l']|] eqn:U; [|contradiction].
        pose proof (unwind_cut x (saved k) r y l' U ND) as C.
        destruct (unwind_ids _ _ _ _ U) as [a EA].
        assert (ND' : NoDup (filter (fun o => negb (eqb o None)) (map snd l'))).
        { rewrite EA in ND. rewrite map_app in ND. exact (nodup_suffix _ _ _ ND). }
        destruct (below_last y l') as (i0 & q & BL). exists (rev (below y l')), y. split; [|split; [reflexivity|split; [exact ND'|exact DI]]].
        cbn [code_pack]. rewrite PS, C. cbn [bind]. rewrite rev_involutive, BL. destruct n; reflexivity.
      + cbn [documented] in *. destruct (saved k) as [|[y j] l'] eqn:SV; [contradiction|].
        destruct (below_last y l') as (i0 & q & BL).
        assert (ND' : NoDup (filter (fun o => negb (eqb o None)) (map snd l'))).
        { change ((y, j) :: l') with ([(y, j)] ++ l') in ND. rewrite map_app in ND. exact (nodup_suffix _ _ _ ND). }
        exists (rev (below y l')), y. split; [|split; [reflexivity|split; [exact ND'|exact DI]]].
        cbn [code_pack]. rewrite PS. cbn [below rev].
        assert (NEs : forall z : list (option Z * option str), z ++ [(r, j)] <> []) by (intros z E; destruct z; discriminate).
        destruct (rev (below y l') ++ [(r, j)]) as [|z1 z2] eqn:Z; [exfalso; exact (NEs _ Z)|]. rewrite <- Z.
        cbn [bind]. rewrite removelast_last, rev_involutive, BL. destruct n; reflexivity.
  Qed.

  (** ** Runs *)
  Fixpoint marks (i : nat) (k : packing) (es : list event) : list (nat * option Z) :=
    match es with
    | [] => []
    | Op o :: r => (i, current (documented k o)) :: marks (S i) (documented k o) r
    | _ :: r => marks (S i) k r
    end.
  Lemma marks_app a : forall i k b, marks i k (a ++ b) = marks i k a ++ marks (i + length a) (after k a) b.
  Proof.
    induction a as [|e a IH]; intros i k b; [cbn [app length marks]; rewrite Nat.add_0_r; reflexivity|].
    cbn [app length]. rewrite <- Nat.add_succ_comm. destruct e; cbn [marks app]; rewrite IH; reflexivity.
  Qed.
  Lemma marks_none es : ops es = [] -> forall i k, marks i k es = [].
  Proof. induction es as [|e es IH]; intros H i k; [reflexivity|]. destruct e; cbn [marks]; [apply IH; exact H|apply IH; exact H|discriminate H]. Qed.
  Lemma marks_unused ls i k : marks i k (map unused ls) = [].
  Proof. apply marks_none. apply unused_ops. Qed.
  Lemma after_unused k ls : after k (map unused ls) = k.
  Proof. unfold after. rewrite unused_ops. reflexivity. Qed.
  (** Between [p] and [p'] the lines [es] have been read. *)
  Definition moved (i : nat) (p p' : pst) (k : packing) (es : list event) : Prop :=
    outp p' = outp p ++ printed es /\ plist p' = plist p ++ marks i k es.
  Lemma moved_trans i p p1 p2 k a b : moved i p p1 k a -> moved (i + length a) p1 p2 (after k a) b -> moved i p p2 k (a ++ b).
  Proof. intros (A1 & A2) (B1 & B2). split; [rewrite B1, A1, printed_app, app_assoc; reflexivity|rewrite B2, A2, marks_app, app_assoc; reflexivity]. Qed.
  Lemma moved_still i p p' k ls : still p p' (map unused ls) -> moved i p p' k (map unused ls).
  Proof. intros (_ & _ & A & B). split; [exact B|]. rewrite marks_unused, app_nil_r. exact A. Qed.
  Lemma moved_put i p p' k x : plist p' = plist p -> outp p' = outp p ++ [x] -> moved i p p' k [Put x].
  Proof. intros A B. split; [exact B|]. cbn. rewrite app_nil_r. exact A. Qed.
  Scheme traced_ind2 := Minimality for traced Sort Prop
  with traced_branches_ind2 := Minimality for traced_branches Sort Prop.
  Combined Scheme traced_both_ind from traced_ind2, traced_branches_ind2.
  Definition reaches (i : nat) (ls : list str) (es : list event) (m' : cmac) (p : pst) (ts hs : list bool) : Prop :=
    forall k r os, tied p k r -> disciplined k r (ops es ++ os) ->
    exists p' r', run_lines i p ls = Ok p' /\ ok_at p' m' /\ ift p' = ts /\ ifh p' = hs
      /\ moved i p p' k es /\ tied p' (after k es) r' /\ disciplined (after k es) r' os.
  Lemma reaches_then i l1 l2 e1 e2 m1 m2 p ts hs ts' hs' : reaches i l1 e1 m1 p ts hs -> length e1 = length l1 ->
    (forall p1, ok_at p1 m1 -> ift p1 = ts -> ifh p1 = hs -> reaches (i + length l1) l2 e2 m2 p1 ts' hs') ->
    reaches i (l1 ++ l2) (e1 ++ e2) m2 p ts' hs'.
  Proof.
    intros H1 L H2 k r os T D. rewrite ops_app, <- app_assoc in D.
    destruct (H1 k r (ops e2 ++ os) T D) as (p1 & r1 & R1 & O1 & I1 & J1 & M1 & T1 & D1).
    destruct (H2 p1 O1 I1 J1 (after k e1) r1 os T1 D1) as (p2 & r2 & R2 & O2 & I2 & J2 & M2 & T2 & D2).
    exists p2, r2. rewrite run_app, R1. cbn [bind]. split; [exact R2|]. split; [exact O2|]. split; [exact I2|]. split; [exact J2|].
    split; [apply (moved_trans i p p1 p2); [exact M1|rewrite L; exact M2]|]. rewrite after_app. split; assumption.
  Qed.
  Lemma reaches_nil i m p : ok_at p m -> reaches i [] [] m p (ift p) (ifh p).
  Proof.
    intros O k r os T D. exists p, r. split; [reflexivity|]. split; [exact O|]. split; [reflexivity|]. split; [reflexivity|].
    split; [split; cbn; rewrite app_nil_r; reflexivity|]. split; [exact T|exact D].
  Qed.
  Lemma reaches_put i l x m1 p p' : line_step i p l = Ok p' -> ok_at p' m1 -> pstack p' = pstack p -> plist p' = plist p ->
    outp p' = outp p ++ [x] -> reaches i [l] [Put x] m1 p (ift p') (ifh p').
  Proof.
    intros E O A B C k r os T D. exists p', r. cbn [PpModel.run_lines]. rewrite E. cbn [bind]. split; [reflexivity|].
    split; [exact O|]. split; [reflexivity|]. split; [reflexivity|]. split; [apply moved_put; assumption|].
    split; [unfold tied; rewrite A; exact T|exact D].
  Qed.
  Lemma reaches_unused i ls m p p' : run_lines i p ls = Ok p' -> still p p' (map unused ls) -> ok_at p m ->
    reaches i ls (map unused ls) m p (ift p') (ifh p').
  Proof.
    intros E ST O k r os T D. exists p', r. split; [exact E|]. split; [apply (ok_kept p p' m O); apply ST|]. split; [reflexivity|]. split; [reflexivity|].
    split; [apply moved_still; exact ST|]. rewrite after_unused. rewrite unused_ops in D. split; [|exact D]. unfold tied. rewrite (proj1 (proj2 ST)). exact T.
  Qed.
  Lemma traced_length :
    (forall m b es m', traced m b es m' -> length es = length (lines b))
    /\ (forall m t es m', traced_branches m t es m' -> length es = length (blines t)).
  Proof.
    apply traced_both_ind; intros; cbn [lines blines length]; rewrite ?app_length, ?map_length; cbn [length]; rewrite ?app_length; cbn [length]; lia.
  Qed.
  Lemma traced_run :
    (forall m b es m', traced m b es m' -> forall i p, ok_at p m -> all_true (ift p) = true -> active p = true ->
       reaches i (lines b) es m' p (ift p) (ifh p))
    /\ (forall m t es m', traced_branches m t es m' -> forall i p x ts hs, ok_at p m -> ift p = x :: ts -> ifh p = false :: hs ->
       all_true ts = true -> hd false ts = true -> reaches i (blines t) es m' p ts hs).
  Proof.
    apply traced_both_ind.
    - intros m i p O AT AC. apply reaches_nil. exact O.
    - intros m l o m1 b es m' C NP _ _ IH i p O AT AC. cbn [lines].
      destruct (cpp_step m l o m1 i p C NP O AT AC) as (p1 & E & O1 & T1 & H1 & A1 & B1 & C1).
      apply (reaches_then i [l] (lines b) [Put (hd [] o)] es m1 m' p (ift p) (ifh p)); [|reflexivity|].
      + rewrite <- T1, <- H1. exact (reaches_put i l (hd [] o) m1 p p1 E O1 A1 B1 C1).
      + intros p2 O2 T2 H2. rewrite <- T2, <- H2. apply IH; [exact O2|rewrite T2; exact AT|unfold active; rewrite T2; exact AC].
    - intros m l b es m' DP L _ IH i p O AT AC. cbn [lines].
      apply (reaches_then i [l] (lines b) [Lost] es m m' p (ift p) (ifh p)); [|reflexivity|].
      + intros k r os T D. exists p, r. cbn [PpModel.run_lines]. rewrite (idle_step m l i p DP L O AT AC). cbn [bind]. split; [reflexivity|].
        split; [exact O|]. split; [reflexivity|]. split; [reflexivity|]. split; [split; cbn; rewrite app_nil_r; reflexivity|]. split; [exact T|exact D].
      + intros p2 O2 T2 H2. rewrite <- T2, <- H2. apply IH; [exact O2|rewrite T2; exact AT|unfold active; rewrite T2; exact AC].
    - intros m l o b es m' PL NK _ IH i p O AT AC. cbn [lines].
      apply (reaches_then i [l] (lines b) [Op o] es m m' p (ift p) (ifh p)); [|reflexivity|].
      + intros k r os (T & N) D. cbn [ops flat_map app] in D.
        destruct (pack_tied (pstack p) k r o os T N D) as (st & r' & E & ST & N' & D').
        eexists. exists r'. cbn [PpModel.run_lines]. rewrite (pragma_step fo ext i p o l AC PL), E.
        * cbn [bind fst snd]. split; [reflexivity|]. split; [exact O|]. split; [reflexivity|]. split; [reflexivity|].
          split; [split; reflexivity|]. split; [|exact D']. split; [exact ST|exact N'].
        * intros w W. destruct O as [O _]. destruct (unknown_tables (tab p) m w O (NK w W)) as [Q1 Q2]. split; [exact Q1|exact Q2].
      + intros p2 O2 T2 H2. rewrite <- T2, <- H2. apply IH; [exact O2|rewrite T2; exact AT|unfold active; rewrite T2; exact AC].
    - intros m l body t rest e1 m1 e2 m2 OP D TB IH1 WF _ IH2 i p O AT AC. cbn [lines].
      set (p1 := emit (set_if p (true :: ift p) (true :: ifh p)) []).
      assert (E1 : line_step i p l = Ok p1). { rewrite step_open by exact OP. rewrite AT, (decides_holds fo ext (tab p) m l true (proj1 O) D). reflexivity. }
      apply (reaches_then i [l] _ [Put []] _ m m2 p (true :: ift p) (true :: ifh p)); [|reflexivity|].
      { exact (reaches_put i l [] m p p1 E1 O eq_refl eq_refl eq_refl). }
      intros q1 Q1 T1 H1. apply (reaches_then _ (lines body) _ e1 _ m1 m2 q1 (true :: ift p) (true :: ifh p)); [| |].
      { rewrite <- T1, <- H1. apply IH1; [exact Q1|rewrite T1; exact AT|unfold active; rewrite T1; reflexivity]. }
      { apply (proj1 traced_length) in TB. exact TB. }
      intros q2 Q2 T2 H2. apply (reaches_then _ (blines t) _ (map unused (blines t)) _ m1 m2 q2 (ift p) (ifh p)); [|apply map_length|].
      { destruct (proj2 skip_out t WF (i + length [l] + length (lines body)) q2 true (ift p) true (ifh p) T2 H2 eq_refl) as (q3 & R3 & K3 & T3 & H3).
        rewrite <- T3, <- H3. apply reaches_unused; assumption. }
      intros q3 Q3 T3 H3. rewrite <- T3, <- H3. apply IH2; [exact Q3|rewrite T3; exact AT|unfold active; rewrite T3; exact AC].
    - intros m l body t rest e1 m1 e2 m2 OP D WF TB IH1 _ IH2 i p O AT AC. cbn [lines].
      set (p1 := emit (set_if p (false :: ift p) (false :: ifh p)) []).
      assert (E1 : line_step i p l = Ok p1). { rewrite step_open by exact OP. rewrite AT, (decides_holds fo ext (tab p) m l false (proj1 O) D). reflexivity. }
      apply (reaches_then i [l] _ [Put []] _ m m2 p (false :: ift p) (false :: ifh p)); [|reflexivity|].
      { exact (reaches_put i l [] m p p1 E1 O eq_refl eq_refl eq_refl). }
      intros q1 Q1 T1 H1. apply (reaches_then _ (lines body) _ (map unused (lines body)) _ m m2 q1 (false :: ift p) (false :: ifh p)); [|apply map_length|].
      { destruct (proj1 skip_out body WF (i + length [l]) q1) as (q2 & R2 & K2 & T2 & H2); [unfold active; rewrite T1; reflexivity|rewrite T1; reflexivity|].
        rewrite <- T1, <- H1, <- T2, <- H2. apply reaches_unused; assumption. }
      intros q2 Q2 T2 H2. apply (reaches_then _ (blines t) _ e1 _ m1 m2 q2 (ift p) (ifh p)).
      { apply (IH1 _ q2 false); [exact Q2|exact T2|exact H2|exact AT|exact AC]. }
      { apply (proj2 traced_length) in TB. exact TB. }
      intros q3 Q3 T3 H3. rewrite <- T3, <- H3. apply IH2; [exact Q3|rewrite T3; exact AT|unfold active; rewrite T3; exact AC].
    - intros m l E i p x ts hs O ET EH AT HD. cbn [blines].
      set (p1 := emit (set_if p ts hs) []).
      assert (E1 : line_step i p l = Ok p1). { rewrite step_endif by exact E. rewrite ET, EH. reflexivity. }
      exact (reaches_put i l [] m p p1 E1 O eq_refl eq_refl eq_refl).
    - intros m l body e es m' E1 E2 TB IH i p x ts hs O ET EH AT HD. cbn [blines].
      set (p1 := emit (set_if p (true :: ts) (true :: hs)) []).
      assert (S1 : line_step i p l = Ok p1). { rewrite step_else by exact E1. rewrite ET, EH, AT. reflexivity. }
      apply (reaches_then i [l] _ [Put []] _ m m' p (true :: ts) (true :: hs)); [|reflexivity|].
      { exact (reaches_put i l [] m p p1 S1 O eq_refl eq_refl eq_refl). }
      intros q1 Q1 T1 H1. apply (reaches_then _ (lines body) _ es _ m' m' q1 (true :: ts) (true :: hs)); [| |].
      { rewrite <- T1, <- H1. apply IH; [exact Q1|rewrite T1; exact AT|unfold active; rewrite T1; reflexivity]. }
      { apply (proj1 traced_length) in TB. exact TB. }
      intros q2 Q2 T2 H2. set (q3 := emit (set_if q2 ts hs) []).
      assert (S2 : line_step (i + length [l] + length (lines body)) q2 e = Ok q3). { rewrite step_endif by exact E2. rewrite T2, H2. reflexivity. }
      exact (reaches_put _ e [] m' q2 q3 S2 Q2 eq_refl eq_refl eq_refl).
    - intros m l body t es m' E1 D TB IH WF i p x ts hs O ET EH AT HD. cbn [blines].
      set (p1 := emit (set_if p (true :: ts) (true :: hs)) []).
      assert (S1 : line_step i p l = Ok p1).
      { rewrite step_elif by exact E1. rewrite ET, EH, AT. cbn [negb orb]. rewrite (decides_holds fo ext (tab p) m l true (proj1 O) D). reflexivity. }
      apply (reaches_then i [l] _ [Put []] _ m m' p (true :: ts) (true :: hs)); [|reflexivity|].
      { exact (reaches_put i l [] m p p1 S1 O eq_refl eq_refl eq_refl). }
      intros q1 Q1 T1 H1. apply (reaches_then _ (lines body) _ es _ m' m' q1 (true :: ts) (true :: hs)); [| |].
      { rewrite <- T1, <- H1. apply IH; [exact Q1|rewrite T1; exact AT|unfold active; rewrite T1; reflexivity]. }
      { apply (proj1 traced_length) in TB. exact TB. }
      intros q2 Q2 T2 H2.
      destruct (proj2 skip_out t WF (i + length [l] + length (lines body)) q2 true ts true hs T2 H2 eq_refl) as (q3 & R3 & K3 & T3 & H3).
      rewrite <- T3, <- H3. apply reaches_unused; assumption.
    - intros m l body t es m' E1 D WF TB IH i p x ts hs O ET EH AT HD. cbn [blines].
      set (p1 := emit (set_if p (false :: ts) (false :: hs)) []).
      assert (S1 : line_step i p l = Ok p1).
      { rewrite step_elif by exact E1. rewrite ET, EH, AT. cbn [negb orb]. rewrite (decides_holds fo ext (tab p) m l false (proj1 O) D). reflexivity. }
      apply (reaches_then i [l] _ [Put []] _ m m' p (false :: ts) (false :: hs)); [|reflexivity|].
      { exact (reaches_put i l [] m p p1 S1 O eq_refl eq_refl eq_refl). }
      intros q1 Q1 T1 H1. apply (reaches_then _ (lines body) _ (map unused (lines body)) _ m m' q1 (false :: ts) (false :: hs)); [|apply map_length|].
      { destruct (proj1 skip_out body WF (i + length [l]) q1) as (q2 & R2 & K2 & T2 & H2); [unfold active; rewrite T1; reflexivity|rewrite T1; reflexivity|].
        rewrite <- T1, <- H1, <- T2, <- H2. apply reaches_unused; assumption. }
      intros q2 Q2 T2 H2. apply (IH _ q2 false); [exact Q2|exact T2|exact H2|exact AT|exact HD].
  Qed.
End Steps.
