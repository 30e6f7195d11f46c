(** Proofs about conditional compilation. *)
From Coq Require Import Ascii String Bool Arith ZArith Lia List.
Import ListNotations.
From Verif Require Import PyBase PyBaseFacts PyStr PyStrFacts PyExpr WordFacts.
From Verif Require Import MacroModel MacroSpec MacroProofs MacroDefProofs PpModel PpSpec.

(** Decides equality tests of closed texts. *)
Ltac closed_eqb :=
  repeat match goal with
         | |- context [@eqb (list ascii) ?i ?a ?b] =>
             let v := eval vm_compute in (@eqb (list ascii) i a b) in
             lazymatch v with
             | true => change (@eqb (list ascii) i a b) with true
             | false => change (@eqb (list ascii) i a b) with false
             end
         end; cbv beta iota zeta; cbn [orb andb negb].

Section Cond.
  Context (fo : str -> list str -> option str) (ext : str -> bool).
  Local Notation line_step := (line_step fo ext).
  Local Notation run_lines := (run_lines fo ext).
  Local Notation holds := (holds fo ext).
  Local Notation exec := (exec fo ext).
  Local Notation bexec := (bexec fo ext).

  Lemma dname_some l d : d <> [] -> dname l = d -> exists r, directive l = Some (d, r).
  Proof.
    unfold dname. intros N E. destruct (directive l) as [[d' r]|]; [subst; eauto|]. congruence.
  Qed.

  Lemma condition_ok t x : condition fo t x = Ok (xm fo t (defined_values t x)).
  Proof. apply expand_macros_ok. Qed.

  Lemma step_open i s l : opens l ->
    line_step i s l =
      let ev := if all_true (ift s) then holds (tab s) l else false in
      Ok (emit (set_if s (ev :: ift s) (ev :: ifh s)) []).
  Proof.
    intros O. assert (D : exists r, directive l = Some (dname l, r)).
    { apply dname_some; [|reflexivity]. destruct O as [<-|[<-|[<-|[]]]]; discriminate. }
    destruct D as [r D]. unfold PpModel.line_step, PpSpec.holds. rewrite D.
    destruct O as [E|[E|[E|[]]]]; rewrite <- E; closed_eqb; rewrite !condition_ok; cbn [bind]; reflexivity.
  Qed.

  Lemma step_elif i s l : dname l = $"elif" ->
    line_step i s l =
      match ifh s, ift s with
      | h :: hs, _ :: ts =>
          let ev := if h || negb (all_true ts) then false else holds (tab s) l in
          Ok (emit (set_if s (ev :: ts) ((h || ev) :: hs)) [])
      | _, _ => Err IndexError
      end.
  Proof.
    intros E. destruct (dname_some l $"elif") as [r D]; [discriminate|exact E|].
    unfold PpModel.line_step, PpSpec.holds. rewrite D. closed_eqb.
    rewrite condition_ok. cbn [bind]. reflexivity.
  Qed.

  Lemma step_else i s l : dname l = $"else" ->
    line_step i s l =
      match ifh s, ift s with
      | h :: hs, _ :: ts => Ok (emit (set_if s ((negb h && all_true ts) :: ts) (true :: hs)) [])
      | _, _ => Err IndexError
      end.
  Proof.
    intros E. destruct (dname_some l $"else") as [r D]; [discriminate|exact E|].
    unfold PpModel.line_step. rewrite D. closed_eqb.
    destruct (all_true (ift s)); [rewrite expand_macros_ok|]; reflexivity.
  Qed.

  Lemma step_endif i s l : dname l = $"endif" ->
    line_step i s l =
      match ift s, ifh s with
      | _ :: ts, _ :: hs => Ok (emit (set_if s ts hs) [])
      | _, _ => Err IndexError
      end.
  Proof.
    intros E. destruct (dname_some l $"endif") as [r D]; [discriminate|exact E|].
    unfold PpModel.line_step. rewrite D. closed_eqb.
    destruct (all_true (ift s)); [rewrite expand_macros_ok|]; reflexivity.
  Qed.

  (** A line that is not a conditional. *)
  Definition other_step (i : nat) (s : pst) (l : str) : res pst :=
    match directive l with
    | None => if active s then Ok (emit s (xm fo (tab s) l)) else Ok (emit s [])
    | Some (d, rest) =>
        if eqb d $"define" || eqb d $"undef" then
          match macro_name rest with
          | None => Err AttributeError
          | Some (n, rest') =>
              let r := if all_true (ift s) then xm fo (tab s) rest' else rest' in
              if active s then
                if eqb d $"define" then Ok (emit (set_tab s (define (tab s) n r)) [])
                else Ok (emit (set_tab s {| macros := ddel (macros (tab s)) (strip n);
                                            fnmacros := fnmacros (tab s) |}) [])
              else Ok s
          end
        else if eqb d $"pragma" then
          if active s then
            match pack_opts (if all_true (ift s) then xm fo (tab s) rest else rest) with
            | None => Ok s
            | Some opts =>
                do p <- pack (pstack s) opts;
                Ok (emit (set_pack s (fst p) (plist s ++ [(i, snd p)])) [])
            end
          else Ok s
        else Ok (emit s [])
    end.

  Lemma step_other i s l : ~ conditional l -> line_step i s l = other_step i s l.
  Proof.
    unfold conditional, dname. intros NC. unfold PpModel.line_step, other_step.
    destruct (directive l) as [[d r]|]; [|destruct (active s); [rewrite expand_macros_ok|]; reflexivity].
    assert (N : forall x, In x [$"if"; $"ifdef"; $"ifndef"; $"elif"; $"else"; $"endif"] -> eqb d x = false).
    { intros x I. apply eqb_false. intros ->. exact (NC I). }
    rewrite (N $"ifdef"), (N $"ifndef"), (N $"if"), (N $"elif"), (N $"else"), (N $"endif") by (cbn; auto 10).
    cbn [orb].
    destruct (eqb d $"define" || eqb d $"undef").
    - destruct (macro_name r) as [[n r']|]; [|reflexivity].
      destruct (all_true (ift s)); [rewrite expand_macros_ok|]; reflexivity.
    - destruct (all_true (ift s)); [rewrite expand_macros_ok|]; reflexivity.
  Qed.

  (** Every line is of one of these kinds. *)
  Lemma line_kinds l :
    opens l \/ dname l = $"elif" \/ dname l = $"else" \/ dname l = $"endif" \/ ~ conditional l.
  Proof.
    unfold opens, conditional.
    destruct (eqb_spec (dname l) $"elif") as [E|N1]; [auto|].
    destruct (eqb_spec (dname l) $"else") as [E|N2]; [auto|].
    destruct (eqb_spec (dname l) $"endif") as [E|N3]; [auto|].
    destruct (eqb_spec (dname l) $"if") as [E|N4]; [left; left; auto|].
    destruct (eqb_spec (dname l) $"ifdef") as [E|N5]; [left; right; left; auto|].
    destruct (eqb_spec (dname l) $"ifndef") as [E|N6]; [left; right; right; left; auto|].
    right. right. right. right. intros I.
    destruct I as [E|[E|[E|[E|[E|[E|[]]]]]]]; congruence.
  Qed.

  Lemma run_app i s a b :
    run_lines i s (a ++ b) = do s' <- run_lines i s a; run_lines (i + length a) s' b.
  Proof.
    revert i s. induction a as [|l a IH]; intros i s; cbn [app PpModel.run_lines length].
    - rewrite Nat.add_0_r. reflexivity.
    - destruct (line_step i s l) as [s'|e]; [|reflexivity]. cbn [bind]. rewrite IH.
      replace (S i + length a) with (i + S (length a)) by lia. reflexivity.
  Qed.

  (** ** Skipped regions *)
  Lemma quiet_refl s : quiet s s.
  Proof. repeat split. exists 0. cbn. rewrite app_nil_r. reflexivity. Qed.
  Lemma quiet_trans a b c : quiet a b -> quiet b c -> quiet a c.
  Proof.
    intros (A1 & A2 & A3 & A4 & A5 & n & A6) (B1 & B2 & B3 & B4 & B5 & m & B6).
    repeat split; try congruence. exists (n + m). rewrite B6, A6, repeat_app, app_assoc. reflexivity.
  Qed.

  Lemma other_inactive i s l :
    active s = false -> ~ nameless l ->
    exists s', other_step i s l = Ok s' /\ quiet s s'.
  Proof.
    intros A N. unfold other_step. rewrite A.
    assert (E : quiet s (emit s [])).
    { repeat split. exists 1. reflexivity. }
    destruct (directive l) as [[d r]|] eqn:D; [|eauto].
    destruct (eqb d $"define" || eqb d $"undef") eqn:DU.
    - destruct (macro_name r) as [[n r']|] eqn:M.
      + eexists. split; [reflexivity|apply quiet_refl].
      + exfalso. apply N. exists d, r. split; [exact D|]. split; [|exact M].
        apply orb_true_iff in DU. destruct DU as [E1|E1]; apply eqb_eq in E1; subst d; cbn; auto.
    - destruct (eqb d $"pragma"); [|eauto]. eexists. split; [reflexivity|apply quiet_refl].
  Qed.

  (** Inside a skipped region: the levels opened in the region are all inactive. *)
  Lemma skipped ts hs : hd false ts = false -> all_true ts = false ->
    forall ls i s n xs hx,
    ift s = xs ++ ts -> ifh s = hx ++ hs -> length xs = n -> length hx = n ->
    (forall x, In x xs -> x = false) ->
    depth n ls = Some 0 -> (forall l, In l ls -> ~ nameless l) ->
    exists s', run_lines i s ls = Ok s' /\ tab s' = tab s /\ ift s' = ts /\ ifh s' = hs
      /\ pstack s' = pstack s /\ plist s' = plist s /\ exists k, outp s' = outp s ++ repeat [] k.
  Proof.
    intros HD AT. induction ls as [|l ls IH]; intros i s n xs hx ET EH LX LH FX DP NN.
    - cbn in DP. injection DP as ->. exists s. apply length_zero_iff_nil in LX, LH. subst xs hx.
      split; [reflexivity|]. repeat split; auto. exists 0. cbn. rewrite app_nil_r. reflexivity.
    - assert (NN' : forall x, In x ls -> ~ nameless x) by (intros x I; apply NN; right; exact I).
      assert (ALL : all_true (xs ++ ts) = false).
      { unfold all_true in *. rewrite forallb_app, AT, andb_false_r. reflexivity. }
      assert (OUT : forall (s1 : pst), outp s1 = outp s ++ [[]] ->
                forall k, outp s1 ++ repeat [] k = outp s ++ repeat [] (S k)).
      { intros s1 E k. rewrite E, <- app_assoc. reflexivity. }
      cbn [depth] in DP. cbn [PpModel.run_lines].
      destruct (line_kinds l) as [O|[O|[O|[O|O]]]].
      + rewrite step_open by exact O. rewrite ET, ALL. cbv zeta. cbn [bind].
        assert (DD : depth (S n) ls = Some 0).
        { destruct O as [E|[E|[E|[]]]]; rewrite <- E in DP; exact DP. }
        destruct (IH (S i) (emit (set_if s (false :: xs ++ ts) (false :: ifh s)) []) (S n) (false :: xs) (false :: hx))
          as (s' & R & A1 & A2 & A3 & A4 & A5 & k & A6); auto.
        * cbn. rewrite EH. reflexivity.
        * cbn. lia.
        * cbn. lia.
        * intros x [<-|I]; auto.
        * exists s'. split; [exact R|]. repeat split; auto. exists (S k). rewrite A6. apply OUT. reflexivity.
      + rewrite O in DP. cbn in DP. destruct n as [|n]; [discriminate|].
        destruct xs as [|x xs]; [discriminate|]. destruct hx as [|h hx]; [discriminate|].
        rewrite step_elif by exact O. rewrite ET, EH. cbn [app].
        assert (AT2 : all_true (xs ++ ts) = false).
        { unfold all_true in *. rewrite forallb_app, AT, andb_false_r. reflexivity. }
        rewrite AT2. cbn [negb]. rewrite orb_true_r. cbv zeta. cbn [bind].
        destruct (IH (S i) (emit (set_if s (false :: xs ++ ts) ((h || false) :: hx ++ hs)) []) (S n) (false :: xs) ((h || false) :: hx))
          as (s' & R & A1 & A2 & A3 & A4 & A5 & k & A6); auto.
        * intros y [<-|I]; [reflexivity|]. apply FX. right. exact I.
        * exists s'. split; [exact R|]. repeat split; auto. exists (S k). rewrite A6. apply OUT. reflexivity.
      + rewrite O in DP. cbn in DP. destruct n as [|n]; [discriminate|].
        destruct xs as [|x xs]; [discriminate|]. destruct hx as [|h hx]; [discriminate|].
        rewrite step_else by exact O. rewrite ET, EH. cbn [app].
        assert (AT2 : all_true (xs ++ ts) = false).
        { unfold all_true in *. rewrite forallb_app, AT, andb_false_r. reflexivity. }
        rewrite AT2, andb_false_r. cbn [bind].
        destruct (IH (S i) (emit (set_if s (false :: xs ++ ts) (true :: hx ++ hs)) []) (S n) (false :: xs) (true :: hx))
          as (s' & R & A1 & A2 & A3 & A4 & A5 & k & A6); auto.
        * intros y [<-|I]; [reflexivity|]. apply FX. right. exact I.
        * exists s'. split; [exact R|]. repeat split; auto. exists (S k). rewrite A6. apply OUT. reflexivity.
      + rewrite O in DP. cbn in DP. destruct n as [|n]; [discriminate|].
        destruct xs as [|x xs]; [discriminate|]. destruct hx as [|h hx]; [discriminate|].
        rewrite step_endif by exact O. rewrite ET, EH. cbn [app bind].
        destruct (IH (S i) (emit (set_if s (xs ++ ts) (hx ++ hs)) []) n xs hx)
          as (s' & R & A1 & A2 & A3 & A4 & A5 & k & A6); auto.
        * intros y I. apply FX. right. exact I.
        * exists s'. split; [exact R|]. repeat split; auto. exists (S k). rewrite A6. apply OUT. reflexivity.
      + rewrite step_other by exact O.
        assert (AC : active s = false).
        { unfold active. rewrite ET. destruct xs as [|x xs]; [exact HD|]. cbn. apply FX. left. reflexivity. }
        destruct (other_inactive i s l AC) as (s1 & E1 & Q1 & Q2 & Q3 & Q4 & Q5 & k1 & Q6).
        { apply NN. left. reflexivity. }
        rewrite E1. cbn [bind].
        assert (DD : depth n ls = Some 0).
        { assert (NI : forall x, In x [$"if"; $"ifdef"; $"ifndef"; $"elif"; $"else"; $"endif"] -> eqb (dname l) x = false).
          { intros x I. apply eqb_false. intros E. apply O. unfold conditional. rewrite E. exact I. }
          rewrite (NI $"ifdef"), (NI $"ifndef"), (NI $"if"), (NI $"elif"), (NI $"else"), (NI $"endif") in DP by (cbn; auto 10).
          exact DP. }
        destruct (IH (S i) s1 n xs hx) as (s' & R & A1 & A2 & A3 & A4 & A5 & k & A6); auto; try congruence.
        exists s'. split; [exact R|]. repeat split; try congruence. exists (k1 + k).
        rewrite A6, Q6, repeat_app, app_assoc. reflexivity.
  Qed.

  Lemma depth_app n a b :
    depth n (a ++ b) = match depth n a with Some m => depth m b | None => None end.
  Proof.
    revert n. induction a as [|l a IH]; intros n; [reflexivity|]. cbn [app depth].
    destruct (eqb (dname l) $"if" || eqb (dname l) $"ifdef" || eqb (dname l) $"ifndef"); [apply IH|].
    destruct (eqb (dname l) $"endif"); [destruct n; [reflexivity|apply IH]|].
    destruct (eqb (dname l) $"elif" || eqb (dname l) $"else"); [destruct n; [reflexivity|apply IH]|apply IH].
  Qed.

  Lemma depth_open n l r : opens l -> depth n (l :: r) = depth (S n) r.
  Proof. intros [E|[E|[E|[]]]]; cbn [depth]; rewrite <- E; reflexivity. Qed.
  Lemma depth_other n l r : ~ conditional l -> depth n (l :: r) = depth n r.
  Proof.
    intros O. cbn [depth].
    assert (NI : forall x, In x [$"if"; $"ifdef"; $"ifndef"; $"elif"; $"else"; $"endif"] -> eqb (dname l) x = false).
    { intros x I. apply eqb_false. intros E. apply O. unfold conditional. rewrite E. exact I. }
    rewrite (NI $"ifdef"), (NI $"ifndef"), (NI $"if"), (NI $"elif"), (NI $"else"), (NI $"endif") by (cbn; auto 10).
    reflexivity.
  Qed.
  Lemma depth_mid n l r : dname l = $"elif" \/ dname l = $"else" -> depth (S n) (l :: r) = depth (S n) r.
  Proof. intros [E|E]; cbn [depth]; rewrite E; reflexivity. Qed.
  Lemma depth_end n l r : dname l = $"endif" -> depth (S n) (l :: r) = depth n r.
  Proof. intros E; cbn [depth]; rewrite E; reflexivity. Qed.

  Scheme block_ind2 := Induction for block Sort Prop
  with branches_ind2 := Induction for branches Sort Prop.
  Combined Scheme block_branches_ind from block_ind2, branches_ind2.

  Lemma lines_depth :
    (forall b, well_formed b -> forall n r, depth n (lines b ++ r) = depth n r)
    /\ (forall t, bwell_formed t -> forall n r, depth (S n) (blines t ++ r) = depth n r).
  Proof.
    apply block_branches_ind.
    - intros _ n r. reflexivity.
    - intros l b IH (C & _ & W) n r. cbn [lines app]. rewrite depth_other by exact C. apply IH. exact W.
    - intros l body IHb t IHt rest IHr (O & W1 & W2 & W3) n r. cbn [lines app].
      rewrite depth_open by exact O. rewrite <- !app_assoc. rewrite IHb by exact W1.
      rewrite IHt by exact W2. apply IHr. exact W3.
    - intros l E n r. cbn [blines app]. apply depth_end. exact E.
    - intros l body IHb e (E & W & E2) n r. cbn [blines app]. rewrite depth_mid by auto.
      rewrite <- app_assoc. rewrite IHb by exact W. cbn [app]. apply depth_end. exact E2.
    - intros l body IHb t IHt (E & W & W2) n r. cbn [blines app]. rewrite depth_mid by auto.
      rewrite <- app_assoc. rewrite IHb by exact W. apply IHt. exact W2.
  Qed.

  Lemma cond_not_nameless l : conditional l -> ~ nameless l.
  Proof.
    intros C (d & r & D & I & _). unfold conditional, dname in C. rewrite D in C.
    destruct I as [<-|[<-|[]]]; destruct C as [E|[E|[E|[E|[E|[E|[]]]]]]]; discriminate.
  Qed.
  Lemma opens_conditional l : opens l -> conditional l.
  Proof. unfold opens, conditional. intros [E|[E|[E|[]]]]; rewrite <- E; cbn; auto. Qed.

  Lemma lines_named :
    (forall b, well_formed b -> forall l, In l (lines b) -> ~ nameless l)
    /\ (forall t, bwell_formed t -> forall l, In l (blines t) -> ~ nameless l).
  Proof.
    assert (K : forall l d, dname l = d -> In d [$"if"; $"ifdef"; $"ifndef"; $"elif"; $"else"; $"endif"] -> ~ nameless l).
    { intros l d E I. apply cond_not_nameless. unfold conditional. rewrite E. exact I. }
    apply block_branches_ind.
    - intros _ l [].
    - intros l b IH (C & N & W) x [<-|I]; [exact N|apply IH; auto].
    - intros l body IHb t IHt rest IHr (O & W1 & W2 & W3) x [<-|I].
      + apply cond_not_nameless. apply opens_conditional. exact O.
      + apply in_app_or in I. destruct I as [I|I]; [apply IHb; auto|]. apply in_app_or in I.
        destruct I as [I|I]; [apply IHt; auto|apply IHr; auto].
    - intros l E x [<-|[]]. apply (K l _ E). cbn. auto 10.
    - intros l body IHb e (E & W & E2) x [<-|I]; [apply (K l _ E); cbn; auto 10|].
      apply in_app_or in I. destruct I as [I|[<-|[]]]; [apply IHb; auto|apply (K e _ E2); cbn; auto 10].
    - intros l body IHb t IHt (E & W & W2) x [<-|I]; [apply (K l _ E); cbn; auto 10|].
      apply in_app_or in I. destruct I as [I|I]; [apply IHb; auto|apply IHt; auto].
  Qed.

  (** ** Refinement *)
  Definition nb (l : str) : bool := negb (eqb l []).
  Lemma filter_repeat n : filter nb (repeat [] n) = [].
  Proof. induction n; [reflexivity|exact IHn]. Qed.

  Definition kept (s s' : pst) : Prop :=
    tab s' = tab s /\ pstack s' = pstack s /\ plist s' = plist s
    /\ exists n, outp s' = outp s ++ repeat [] n.
  Lemma kept_same s s' s2 : kept s s' -> same_effect s s2 -> same_effect s' s2.
  Proof.
    intros (A & B & C & n & D) (E & F & G & H). repeat split; try congruence.
    rewrite D, filter_app. fold nb in *. rewrite filter_repeat, app_nil_r. exact H.
  Qed.
  Lemma kept_trans a b c : kept a b -> kept b c -> kept a c.
  Proof.
    intros (A1 & A2 & A3 & n & A4) (B1 & B2 & B3 & m & B4). repeat split; try congruence.
    exists (n + m). rewrite B4, A4, repeat_app, app_assoc. reflexivity.
  Qed.
  Lemma kept_emit s t h : kept s (emit (set_if s t h) []).
  Proof. repeat split. exists 1. reflexivity. Qed.

  Lemma skip_block b : well_formed b -> forall i s, active s = false -> all_true (ift s) = false ->
    exists s', run_lines i s (lines b) = Ok s' /\ kept s s' /\ ift s' = ift s /\ ifh s' = ifh s.
  Proof.
    intros W i s A AT.
    destruct (skipped (ift s) (ifh s) A AT (lines b) i s 0 [] []) as (s' & R & A1 & A2 & A3 & A4 & A5 & A6); auto.
    - intros x [].
    - rewrite <- (app_nil_r (lines b)). rewrite (proj1 lines_depth b W). reflexivity.
    - apply (proj1 lines_named). exact W.
    - exists s'. split; [exact R|]. repeat split; auto.
  Qed.

  Lemma dead_branches t : bwell_formed t -> forall i s x ts hs,
    ift s = x :: ts -> ifh s = true :: hs ->
    exists s', run_lines i s (blines t) = Ok s' /\ kept s s' /\ ift s' = ts /\ ifh s' = hs.
  Proof.
    induction t as [l|l body e|l body t IH]; cbn [bwell_formed blines]; intros W i s x ts hs ET EH.
    - cbn [PpModel.run_lines]. rewrite step_endif by exact W. rewrite ET, EH. cbn [bind]. eexists.
      split; [reflexivity|]. split; [apply kept_emit|]. split; reflexivity.
    - destruct W as (E1 & W & E2). cbn [PpModel.run_lines]. rewrite step_else by exact E1. rewrite ET, EH.
      cbn [bind negb andb]. rewrite run_app.
      destruct (skip_block body W (S i) (emit (set_if s (false :: ts) (true :: hs)) [])) as (s1 & R & K & T1 & H1);
        [reflexivity|reflexivity|].
      rewrite R. cbn [bind PpModel.run_lines]. rewrite step_endif by exact E2. rewrite T1, H1. cbn [bind].
      eexists. split; [reflexivity|]. split; [|split; reflexivity].
      eapply kept_trans; [apply kept_emit|]. eapply kept_trans; [exact K|]. apply kept_emit.
    - destruct W as (E1 & W & W2). cbn [PpModel.run_lines]. rewrite step_elif by exact E1. rewrite ET, EH.
      cbn [bind negb orb]. rewrite run_app.
      destruct (skip_block body W (S i) (emit (set_if s (false :: ts) (true :: hs)) [])) as (s1 & R & K & T1 & H1);
        [reflexivity|reflexivity|].
      rewrite R. cbn [bind].
      destruct (IH W2 (S i + length (lines body)) s1 false ts hs T1 H1) as (s2 & R2 & K2 & T2 & H2).
      exists s2. split; [exact R2|]. split; [|auto].
      eapply kept_trans; [apply kept_emit|]. eapply kept_trans; [exact K|exact K2].
  Qed.

  Definition rel (ts hs : list bool) (r r2 : res pst) : Prop :=
    match r, r2 with
    | Ok a, Ok b => same_effect a b /\ ift a = ts /\ ifh a = hs /\ ift b = [true] /\ ifh b = []
    | Err e, Err e' => e = e'
    | _, _ => False
    end.

  Lemma other_same i s s2 l :
    ~ nameless l -> same_effect s s2 -> all_true (ift s) = true -> active s = true ->
    ift s2 = [true] -> ifh s2 = [] ->
    rel (ift s) (ifh s) (other_step i s l) (other_step 0 s2 l).
  Proof.
    intros N (T & K & L & O) AT AC T2 H2. unfold other_step.
    assert (AC2 : active s2 = true) by (unfold active; rewrite T2; reflexivity).
    assert (AT2 : all_true (ift s2) = true) by (rewrite T2; reflexivity).
    rewrite AC, AC2, AT, AT2, T, K. fold nb in O.
    assert (EM : forall x, filter nb (outp s ++ [x]) = filter nb (outp s2 ++ [x])).
    { intros x. rewrite !filter_app, O. reflexivity. }
    destruct (directive l) as [[d r]|] eqn:D.
    - destruct (eqb d $"define" || eqb d $"undef") eqn:DU.
      + destruct (macro_name r) as [[n r']|] eqn:M; [|reflexivity].
        destruct (eqb d $"define"); cbn [rel]; repeat split; cbn; auto.
      + destruct (eqb d $"pragma").
        * destruct (pack_opts (xm fo (tab s2) r)) as [opts|].
          -- destruct (pack (pstack s2) opts) as [p|e]; cbn [bind rel]; [|reflexivity].
             repeat split; cbn; auto. rewrite !map_app, L. reflexivity.
          -- cbn [rel]. repeat split; cbn; auto.
        * cbn [rel]. repeat split; cbn; auto.
    - cbn [rel]. repeat split; cbn; auto.
  Qed.

  Lemma same_emit s s2 t h : same_effect s s2 -> same_effect (emit (set_if s t h) []) s2.
  Proof. intros E. eapply kept_same; [apply kept_emit|exact E]. Qed.

  Lemma refine :
    (forall b, well_formed b -> forall i s s2,
       same_effect s s2 -> all_true (ift s) = true -> active s = true -> ift s2 = [true] -> ifh s2 = [] ->
       rel (ift s) (ifh s) (run_lines i s (lines b)) (exec s2 b))
    /\ (forall t, bwell_formed t -> forall i s s2 x ts hs,
       same_effect s s2 -> ift s = x :: ts -> ifh s = false :: hs -> all_true ts = true ->
       hd false ts = true -> ift s2 = [true] -> ifh s2 = [] ->
       rel ts hs (run_lines i s (blines t)) (bexec s2 t)).
  Proof.
    apply block_branches_ind.
    - intros _ i s s2 E AT AC T2 H2. cbn. auto.
    - intros l b IH (C & N & W) i s s2 E AT AC T2 H2. cbn [lines PpModel.run_lines PpSpec.exec].
      rewrite !step_other by exact C.
      pose proof (other_same i s s2 l N E AT AC T2 H2) as R. unfold rel in R.
      destruct (other_step i s l) as [a|e], (other_step 0 s2 l) as [a2|e2]; try contradiction; cbn [bind].
      + destruct R as (E' & T' & H' & T2' & H2'). rewrite <- T', <- H'.
        apply IH; auto; unfold active; rewrite ?T'; auto.
      + exact R.
    - intros l body IHb t IHt rest IHr (O & W1 & W2 & W3) i s s2 E AT AC T2 H2.
      change (exec s2 (BCond l body t rest))
        with (do s' <- (if holds (tab s2) l then exec s2 body else bexec s2 t); exec s' rest).
      cbn [lines PpModel.run_lines]. rewrite step_open by exact O. rewrite AT. cbv zeta. cbn [bind].
      assert (TT : tab s = tab s2) by apply E. rewrite TT.
      rewrite app_assoc. rewrite run_app, run_app.
      generalize (holds (tab s2) l); intros hv. set (s1 := emit (set_if s (hv :: ift s) (hv :: ifh s)) []).
      assert (E1 : same_effect s1 s2) by (apply same_emit; exact E).
      assert (G : rel (ift s) (ifh s)
                 (do s' <- run_lines (S i) s1 (lines body); run_lines (S i + length (lines body)) s' (blines t))
                 (if hv then exec s2 body else bexec s2 t)).
      { destruct hv.
        - assert (R : rel (ift s1) (ifh s1) (run_lines (S i) s1 (lines body)) (exec s2 body)).
          { apply IHb; auto. }
          unfold rel in R. destruct (run_lines (S i) s1 (lines body)) as [a|e], (exec s2 body) as [a2|e2];
            try contradiction; cbn [bind]; [|exact R].
          destruct R as (E' & T' & H' & T2' & H2').
          destruct (dead_branches t W2 (S i + length (lines body)) a true (ift s) (ifh s) T' H') as (s' & R' & K & T3 & H3).
          rewrite R'. cbn [rel]. split; [eapply kept_same; eauto|auto].
        - destruct (skip_block body W1 (S i) s1) as (a & R & K & T' & H'); [reflexivity|reflexivity|].
          rewrite R. cbn [bind].
          apply (IHt W2 _ a s2 false (ift s) (ifh s)); auto.
          eapply kept_same; eauto. }
      unfold rel in G.
      destruct (do s' <- run_lines (S i) s1 (lines body); run_lines (S i + length (lines body)) s' (blines t)) as [a|e];
        destruct (if hv then exec s2 body else bexec s2 t) as [a2|e2]; try contradiction; cbn [bind]; [|exact G].
      destruct G as (E' & T' & H' & T2' & H2'). rewrite <- T', <- H'.
      apply IHr; auto; unfold active; rewrite T'; auto.
    - intros l W i s s2 x ts hs E ET EH AT HD T2 H2. cbn [blines PpModel.run_lines PpSpec.bexec].
      rewrite step_endif by exact W. rewrite ET, EH. cbn [bind rel].
      split; [apply same_emit; exact E|]. auto.
    - intros l body IHb e (E1 & W & E2) i s s2 x ts hs E ET EH AT HD T2 H2.
      change (bexec s2 (RElse l body e)) with (exec s2 body).
      cbn [blines PpModel.run_lines]. rewrite step_else by exact E1. rewrite ET, EH, AT. cbn [bind negb andb].
      rewrite run_app. set (s1 := emit (set_if s (true :: ts) (true :: hs)) []).
      assert (R : rel (ift s1) (ifh s1) (run_lines (S i) s1 (lines body)) (exec s2 body)).
      { apply IHb; auto. apply same_emit. exact E. }
      unfold rel in R. destruct (run_lines (S i) s1 (lines body)) as [a|e1], (exec s2 body) as [a2|e2];
        try contradiction; cbn [bind]; [|exact R].
      destruct R as (E' & T' & H' & T2' & H2'). cbn [PpModel.run_lines]. rewrite step_endif by exact E2.
      rewrite T', H'. cbn [ift ifh s1 emit set_if bind rel].
      split; [apply same_emit; exact E'|]. auto.
    - intros l body IHb t IHt (E1 & W & W2) i s s2 x ts hs E ET EH AT HD T2 H2.
      change (bexec s2 (RElif l body t)) with (if holds (tab s2) l then exec s2 body else bexec s2 t).
      cbn [blines PpModel.run_lines]. rewrite step_elif by exact E1. rewrite ET, EH, AT.
      cbn [bind negb orb]. cbv zeta. rewrite run_app. assert (TT : tab s = tab s2) by apply E. rewrite TT.
      cbn [bind]. generalize (holds (tab s2) l); intros hv. set (s1 := emit (set_if s (hv :: ts) (hv :: hs)) []).
      assert (E1' : same_effect s1 s2) by (apply same_emit; exact E).
      destruct hv.
      + assert (R : rel (ift s1) (ifh s1) (run_lines (S i) s1 (lines body)) (exec s2 body)).
        { apply IHb; auto. }
        unfold rel in R. destruct (run_lines (S i) s1 (lines body)) as [a|e], (exec s2 body) as [a2|e2];
          try contradiction; cbn [bind]; [|exact R].
        destruct R as (E' & T' & H' & T2' & H2').
        destruct (dead_branches t W2 (S i + length (lines body)) a true ts hs T' H') as (s' & R' & K & T3 & H3).
        rewrite R'. cbn [rel]. split; [eapply kept_same; eauto|auto].
      + destruct (skip_block body W (S i) s1) as (a & R & K & T' & H'); [reflexivity|reflexivity|].
        rewrite R. cbn [bind].
        apply (IHt W2 _ a s2 false ts hs); auto.
        eapply kept_same; eauto.
  Qed.

  Lemma refine_file b t : well_formed b ->
    same_result (run_lines 0 (start t) (lines b)) (exec (start t) b).
  Proof.
    intros W. assert (R := proj1 refine b W 0 (start t) (start t)). unfold rel in R. unfold same_result.
    destruct (run_lines 0 (start t) (lines b)), (exec (start t) b); apply R || (apply R); auto;
      repeat split; auto.
  Qed.

  (** ** Skipped regions (C20) *)
  Lemma skip_region i s l region e :
    active s = true -> all_true (ift s) = true -> opens l -> holds (tab s) l = false ->
    balanced region -> (forall x, In x region -> ~ nameless x) -> dname e = $"endif" ->
    exists s', run_lines i s (l :: region ++ [e]) = Ok s' /\ quiet s s'.
  Proof.
    intros A AT O HF B N E. cbn [PpModel.run_lines]. rewrite step_open by exact O. rewrite AT, HF. cbv zeta. cbn [bind].
    rewrite run_app.
    destruct (skipped (false :: ift s) (false :: ifh s) eq_refl eq_refl region (S i)
                (emit (set_if s (false :: ift s) (false :: ifh s)) []) 0 [] [])
      as (s' & R & A1 & A2 & A3 & A4 & A5 & k & A6); auto.
    - intros x [].
    - rewrite R. cbn [bind PpModel.run_lines]. rewrite step_endif by exact E. rewrite A2, A3. cbn [bind].
      eexists. split; [reflexivity|]. repeat split; cbn; auto. exists (S (k + 1)).
      rewrite A6. cbn [emit outp set_if]. rewrite <- !app_assoc. f_equal. cbn [repeat app]. f_equal.
      rewrite repeat_app. reflexivity.
  Qed.

  (** ** Nesting (C21) *)
  Lemma nesting ls : forall i s n, length (ift s) = S n -> length (ifh s) = n ->
    match depth n ls with
    | None => exists e, run_lines i s ls = Err e
    | Some m => forall e, run_lines i s ls = Err e -> exists l, In l ls /\ (nameless l \/ dname l = $"pragma")
    end.
  Proof.
    induction ls as [|l ls IH]; intros i s n LT LH; [cbn; intros e E; discriminate|].
    assert (STEP : forall s' m, length (ift s') = S m -> length (ifh s') = m -> line_step i s l = Ok s' ->
        match depth m ls with
        | None => exists e, run_lines i s (l :: ls) = Err e
        | Some _ => forall e, run_lines i s (l :: ls) = Err e -> exists x, In x (l :: ls) /\ (nameless x \/ dname x = $"pragma")
        end).
    { intros s' m L1 L2 E. specialize (IH (S i) s' m L1 L2). cbn [PpModel.run_lines]. rewrite E. cbn [bind].
      destruct (depth m ls); [|exact IH]. intros e R. destruct (IH e R) as (x & I & X). exists x. split; [right|]; auto. }
    destruct (line_kinds l) as [O|[O|[O|[O|O]]]].
    - rewrite depth_open by exact O. eapply STEP; [| |rewrite step_open by exact O; reflexivity]; cbn; lia.
    - destruct n as [|n].
      + cbn [depth]. rewrite O. cbn. destruct (ifh s) eqn:EH; [|discriminate]. exists IndexError.
        cbn [PpModel.run_lines]. rewrite step_elif by exact O. rewrite EH. reflexivity.
      + rewrite depth_mid by auto. destruct (ifh s) as [|h hs] eqn:EH; [discriminate|].
        destruct (ift s) as [|x ts] eqn:ET; [discriminate|].
        eapply STEP; [| |rewrite step_elif, EH, ET by exact O; reflexivity]; cbn in *; lia.
    - destruct n as [|n].
      + cbn [depth]. rewrite O. cbn. destruct (ifh s) eqn:EH; [|discriminate]. exists IndexError.
        cbn [PpModel.run_lines]. rewrite step_else by exact O. rewrite EH. reflexivity.
      + rewrite depth_mid by auto. destruct (ifh s) as [|h hs] eqn:EH; [discriminate|].
        destruct (ift s) as [|x ts] eqn:ET; [discriminate|].
        eapply STEP; [| |rewrite step_else, EH, ET by exact O; reflexivity]; cbn in *; lia.
    - destruct n as [|n].
      + cbn [depth]. rewrite O. cbn. destruct (ifh s) eqn:EH; [|discriminate]. exists IndexError.
        cbn [PpModel.run_lines]. rewrite step_endif by exact O. rewrite EH. destruct (ift s); reflexivity.
      + rewrite depth_end by auto. destruct (ifh s) as [|h hs] eqn:EH; [discriminate|].
        destruct (ift s) as [|x ts] eqn:ET; [discriminate|].
        eapply STEP; [| |rewrite step_endif, EH, ET by exact O; reflexivity]; cbn in *; lia.
    - rewrite depth_other by exact O.
      assert (SO : line_step i s l = other_step i s l) by (apply step_other; exact O).
      destruct (other_step i s l) as [s'|e] eqn:E.
      + assert (KI : ift s' = ift s /\ ifh s' = ifh s).
        { unfold other_step in E. destruct (directive l) as [[d r]|].
          - destruct (eqb d $"define" || eqb d $"undef").
            + destruct (macro_name r) as [[m r']|]; [|discriminate].
              destruct (active s); [destruct (eqb d $"define")|]; injection E as <-; split; reflexivity.
            + destruct (eqb d $"pragma").
              * destruct (active s); [|injection E as <-; split; reflexivity].
                destruct (pack_opts _) as [o|]; [|injection E as <-; split; reflexivity].
                destruct (pack (pstack s) o); [|discriminate]. injection E as <-. split; reflexivity.
              * injection E as <-. split; reflexivity.
          - destruct (active s); injection E as <-; split; reflexivity. }
        destruct KI as [K1 K2].
        apply (STEP s' n); [rewrite K1; exact LT|rewrite K2; exact LH|exact SO].
      + assert (BAD : nameless l \/ dname l = $"pragma").
        { unfold other_step in E. unfold nameless, dname. destruct (directive l) as [[d r]|] eqn:D.
          - destruct (eqb d $"define" || eqb d $"undef") eqn:DU.
            + destruct (macro_name r) as [[m r']|] eqn:M.
              * destruct (active s); [destruct (eqb d $"define")|]; discriminate.
              * left. exists d, r. split; [reflexivity|]. split; [|exact M]. apply orb_true_iff in DU.
                destruct DU as [X|X]; apply eqb_eq in X; subst d; cbn; auto.
            + destruct (eqb d $"pragma") eqn:DP; [|discriminate]. right. apply eqb_eq in DP. exact DP.
          - destruct (active s); discriminate. }
        assert (RE : run_lines i s (l :: ls) = Err e) by (cbn [PpModel.run_lines]; rewrite SO; reflexivity).
        destruct (depth n ls); [|exists e; exact RE]. intros e' _. exists l. split; [left; reflexivity|exact BAD].
  Qed.
  Lemma nesting_file t ls :
    (unmatched ls -> exists e, run_lines 0 (start t) ls = Err e)
    /\ (~ unmatched ls -> forall e, run_lines 0 (start t) ls = Err e ->
        exists l, In l ls /\ (nameless l \/ dname l = $"pragma")).
  Proof.
    pose proof (nesting ls 0 (start t) 0 eq_refl eq_refl) as H. unfold unmatched.
    destruct (depth 0 ls); split; intros N; try congruence; exact H.
  Qed.
End Cond.
