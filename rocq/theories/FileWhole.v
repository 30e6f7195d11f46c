(** Proofs about whole files: comments, lines, macros and declarations together. *)
From Coq Require Import Ascii String Bool Arith ZArith Lia List.
Import ListNotations.
From Verif Require Import PyBase PyBaseFacts PyStr PyStrFacts PyExpr TypeModel StoreModel StoreSpec StoreProofs.
From Verif Require Import MacroModel MacroSpec MacroProofs MacroDefProofs PpModel CondProofs TextProofs DeclModel DeclStore EvalModel EvalProofs GramModel GramSpec RunSpec GramRun.
From Verif Require Import MacroSpec PpSpec TextSpec EvalSpec FileModel FileSpec FileProofs FileTables FileLayout.

From Verif Require ExprSpec NoiseProofs.

(** ** Parsing does not touch the macros *)
Section Parse.
  Context (ev : dict str pobj -> str -> res pobj).
  Lemma defs_other (s : store entry) k n v k' : k' <> k -> defs (add_def s k n v) k' = defs s k'.
  Proof. intros N. rewrite defs_add. destruct (eqb_spec k' k); [contradiction|reflexivity]. Qed.
  Lemma run_macros k ds s : k = Macros \/ k = Fnmacros -> defs (fst (run_tops ev s ds)) k = defs s k.
  Proof.
    intros K. apply (run_tops_keep ev (fun s' => defs s' k = defs s k) (fun _ => True) (fun _ => True)).
    - intros s1 c m l p ls _ _ H. destruct (struct_adds ev s1 c m ls p) as [->|(x & e & u & -> & _)]; [exact H|].
      rewrite !defs_other; [exact H|destruct c, K as [->| ->]; discriminate|destruct K as [->| ->]; discriminate].
    - intros s1 m l _ H. destruct (enum_adds ev s1 m l) as (x & _ & C).
      assert (L : defs (fst (fst (enum_loop ev s1 (ONum (VInt 0)) [] l))) k = defs s1 k).
      { clear - K. generalize (ONum (VInt 0)) (@nil (str * pobj)). revert s1. induction l as [|[y v] l IH]; intros s1 i d; [reflexivity|].
        cbn [enum_loop]. destruct (plus_one _); cbn [fst]; [rewrite IH|]; (rewrite defs_other; [reflexivity|destruct K as [->| ->]; discriminate]). }
      destruct C as [->|[->|(e & u & ->)]]; [exact H|rewrite L; exact H|].
      rewrite !defs_other, L; [exact H|destruct K as [->| ->]; discriminate|destruct K as [->| ->]; discriminate].
    - intros s1 g b l _ _ H. rewrite <- H. destruct g as [t x|t x i|t x]; cbn [act_top fst].
      + clear H. revert s1. induction l as [|d l IH]; intros s1; [reflexivity|]. cbn [process_typedef].
        destruct (process_type _ b d) as [[[m|] ty]|e]; try reflexivity. rewrite IH, defs_other; [reflexivity|destruct K as [->| ->]; discriminate].
      + unfold process_variable. generalize (eval_init ev s1 i). intros v. clear H. revert s1. induction l as [|d l IH]; intros s1; [reflexivity|]. cbn [declare].
        destruct (process_type _ b d) as [[[m|] ty]|e]; try reflexivity. rewrite IH.
        destruct (ends_in_tuple ty); rewrite !defs_other; try reflexivity; destruct K as [->| ->]; discriminate.
      + destruct l as [|d [|? ?]]; try reflexivity. unfold process_function. destruct (process_type _ b d) as [[[m|] ty]|e]; try reflexivity.
        destruct (ends_in_tuple ty); [|reflexivity]. rewrite defs_other; [reflexivity|destruct K as [->| ->]; discriminate].
    - apply Forall_forall. intros g _. split; [apply GramRun.all_true|exact Logic.I].
    - reflexivity.
  Qed.
  Lemma run_macros_of ds s : macros_of (fst (run_tops ev s ds)) = macros_of s.
  Proof. unfold macros_of, macro_texts, fn_macros. rewrite (run_macros Macros), (run_macros Fnmacros) by auto. reflexivity. Qed.
  Lemma run_tables ds s : macro_tables s -> macro_tables (fst (run_tops ev s ds)).
  Proof. unfold macro_tables. rewrite (run_macros Macros), (run_macros Fnmacros) by auto. auto. Qed.
End Parse.

(** ** Preprocessing a file *)
Section Whole.
  Context (fo : str -> list str -> option str) (ext : str -> bool) (ev : dict str pobj -> str -> res pobj) (base mods : list str).
  Notation preprocess_file := (preprocess_file fo ext ev).
  Notation process_file := (process_file fo ext ev base mods).
  Context (Q : str -> pobj -> Prop) (HQ : forall s v, Q v (eval_text ev s v)).
  Lemma preprocess_tables s path text l s1 text' : macro_tables s -> preprocess_file s path text = Ok (l, s1, text') ->
    macro_tables s1 /\ same_declarations s s1 /\ cur s1 = Some path /\ (valued Q s -> valued Q s1).
  Proof.
    unfold FileModel.preprocess_file. intros M E. set (s0 := set_cur s (Some path)) in *.
    destruct (run_lines fo ext 0 (start (macros_of s0)) (split_on nl (join_lines text))) as [p'|e] eqn:R.
    - destruct (file_run ev Q HQ fo ext _ 0 (start (macros_of s0)) s0 p' eq_refl M R) as (s' & E' & T' & M' & [O' C'] & V').
      rewrite E' in E. cbn [bind fst snd] in E. injection E as _ <- _. split; [exact M'|]. split; [exact O'|]. split; [exact C'|exact V'].
    - rewrite (file_fails ev fo ext _ 0 _ s0 e R) in E. discriminate E.
  Qed.
  Lemma preprocess_cpp s m path text b out m' : macro_tables s -> stands_for (macros_of s) m ->
    split_on nl (join_lines text) = lines b -> cpp m b out m' ->
    exists s1 ls, preprocess_file s path text = Ok ([(0, None)], s1, join [nl] ls) /\ filter nb ls = filter nb out
      /\ stands_for (macros_of s1) m'.
  Proof.
    intros M ST SL C. unfold FileModel.preprocess_file. set (s0 := set_cur s (Some path)).
    destruct (proj1 (cpp_run fo ext) m b out m' C 0 (start (macros_of s0))) as (p' & R & O' & T' & H' & W1 & W2 & W3).
    - split; [exact ST|]. cbn [start tab macros macros_of]. rewrite texts_keys by exact M. apply M.
    - reflexivity.
    - reflexivity.
    - rewrite SL. destruct (file_run ev Q HQ fo ext _ 0 (start (macros_of s0)) s0 p' eq_refl M R) as (s' & E' & TT & _).
      rewrite E'. cbn [bind fst snd]. rewrite W1. exists s', (outp p'). split; [reflexivity|]. split; [exact W3|]. rewrite <- TT. apply O'.
  Qed.
  Lemma translated_lines m text out m' : translated m text out m' ->
    exists b, split_on nl (join_lines (remove_comments text)) = lines b /\ cpp m b out m'.
  Proof.
    intros (ps & segs & b & -> & R & W & NE & F & SL & C). exists b. split; [|exact C].
    rewrite remove_comments_reads, W, join_lines_segs by assumption. exact SL.
  Qed.
  Lemma process_header s m path text out m' ds : good_config base mods ->
    macro_tables s -> stands_for (macros_of s) m -> translated m text out m' ->
    header base mods None ds (join [nl] out) -> Forall harmless ds ->
    exists s1 s' text', process_file s path text = Some (Ok (s', text'))
      /\ same_declarations s s1 /\ stands_for (macros_of s1) m' /\ macro_tables s1 /\ (valued Q s -> valued Q s1)
      /\ parse_file ev base mods [] s1 (Some path) (join [nl] out) = Some (s', None)
      /\ macros_of s' = macros_of s1 /\ macro_tables s'.
  Proof.
    intros GC M ST TR HD HL. destruct (translated_lines m text out m' TR) as (b & SL & C).
    destruct (preprocess_cpp s m path (remove_comments text) b out m' M ST SL C) as (s1 & ls & E & F & ST').
    destruct (preprocess_tables s path _ _ _ _ M E) as (M1 & SD & CU & V1).
    assert (P1 : parse_file ev base mods [(0, None)] s1 (Some path) (join [nl] ls) = Some (run_tops ev (set_cur s1 (Some path)) ds)).
    { apply (parse_header ev base mods None); [exact GC|reflexivity|]. exact (header_lines base mods None GC ds out ls (eq_sym F) HD). }
    assert (P2 : parse_file ev base mods [] s1 (Some path) (join [nl] out) = Some (run_tops ev (set_cur s1 (Some path)) ds)).
    { apply (parse_header ev base mods None); [exact GC|reflexivity|exact HD]. }
    assert (EN : snd (run_tops ev (set_cur s1 (Some path)) ds) = None).
    { apply run_tops_ends; [exact HL|]. eapply Forall_impl; [|exact (header_names base mods None ds _ HD)]. apply good_named. }
    set (s' := fst (run_tops ev (set_cur s1 (Some path)) ds)).
    assert (ES : run_tops ev (set_cur s1 (Some path)) ds = (s', None)) by (unfold s'; destruct (run_tops ev _ ds); cbn in *; congruence).
    exists s1, s', (join [nl] ls). unfold FileModel.process_file. rewrite E, P1, P2, ES.
    split; [reflexivity|]. split; [exact SD|]. split; [exact ST'|]. split; [exact M1|]. split; [exact V1|]. split; [reflexivity|].
    split; [apply (run_macros_of ev ds (set_cur s1 (Some path)))|]. apply run_tables. exact M1.
  Qed.
End Whole.

(** ** Values *)
Lemma drop_all p s : forallb p s = true -> drop_while p s = [].
Proof. intros F. rewrite <- (app_nil_r s), drop_while_app_all by exact F. reflexivity. Qed.
Lemma strip_blank v : forallb is_space v = true -> strip v = [].
Proof. intros F. rewrite <- (app_nil_r v), strip_blanks by exact F. reflexivity. Qed.
Lemma text_value_eval fund mods visible ex s v :
  text_value fund mods v (eval_text (c_eval fund mods visible ex) s v).
Proof.
  split.
  - intros z C. destruct (c_eval_const fund mods visible ex (values s) [] v z C) as (y & E & A); [intros w x D; discriminate D|].
    exists y. unfold eval_text. rewrite E. auto.
  - intros B. unfold eval_text, c_eval. rewrite (strip_blank v B). reflexivity.
Qed.

Lemma process_values fo ext fund md visible ex base mods s m path text out m' ds : good_config base mods ->
  macro_tables s -> stands_for (macros_of s) m -> valued (text_value fund md) s -> translated m text out m' ->
  header base mods None ds (join [nl] out) -> Forall harmless ds ->
  (forall n, obj m' n <> None -> ~ mentions Values n ds) ->
  exists s' text', process_file fo ext (c_eval fund md visible ex) base mods s path text = Some (Ok (s', text'))
    /\ forall n body, obj m' n = Some body ->
         exists v x, complete m' body v /\ defined s' Macros n = Some (EText v)
           /\ defined s' Values n = Some (EVal x) /\ text_value fund md v x.
Proof.
  intros GC M ST V TR HD HL NM. set (ev := c_eval fund md visible ex).
  destruct (process_header fo ext ev base mods (text_value fund md) (text_value_eval fund md visible ex) s m path text out m' ds GC M ST TR HD HL)
    as (s1 & s' & text' & E & _ & ST1 & M1 & V1 & PF & MO & M').
  exists s', text'. split; [exact E|]. intros n body B.
  assert (P2 : parse_file ev base mods [] s1 (Some path) (join [nl] out) = Some (run_tops ev (set_cur s1 (Some path)) ds)).
  { apply (parse_header ev base mods None); [exact GC|reflexivity|exact HD]. }
  rewrite PF in P2. injection P2 as P2.
  assert (SO : forall k, ~ mentions k n ds -> defined s' k n = defined s1 k n).
  { intros k NK. pose proof (tops_other ev k n ds (set_cur s1 (Some path)) NK) as T. rewrite <- P2 in T. exact T. }
  destruct ST1 as (A1 & A2 & _). destruct (dget (macros (macros_of s1)) n) as [v|] eqn:D; [|apply A1 in D; congruence].
  destruct (A2 n v D) as (b & B' & C). rewrite B in B'. injection B' as <-.
  assert (DM : defined s1 Macros n = Some (EText v)) by (apply texts_defined; [exact M1|exact D]).
  destruct (V1 V n v DM) as (x & DV & T). exists v, x. split; [exact C|]. split; [rewrite SO; [exact DM|intros []]|].
  split; [|exact T]. rewrite SO; [exact DV|]. apply NM. congruence.
Qed.

Lemma values_any fo ext fund md visible ex s path text l s1 text' : macro_tables s ->
  preprocess_file fo ext (c_eval fund md visible ex) s path text = Ok (l, s1, text') ->
  macro_tables s1 /\ (valued (text_value fund md) s -> valued (text_value fund md) s1).
Proof.
  intros M E. destruct (preprocess_tables fo ext _ (text_value fund md) (text_value_eval fund md visible ex) s path text l s1 text' M E) as (A & _ & _ & B). auto.
Qed.
Lemma header_processed fo ext ev base mods s m path text out m' ds : good_config base mods ->
  macro_tables s -> stands_for (macros_of s) m -> translated m text out m' ->
  header base mods None ds (join [nl] out) -> Forall harmless ds ->
  exists s1 s' text', process_file fo ext ev base mods s path text = Some (Ok (s', text'))
    /\ same_declarations s s1 /\ stands_for (macros_of s1) m'
    /\ parse_file ev base mods [] s1 (Some path) (join [nl] out) = Some (s', None)
    /\ macros_of s' = macros_of s1.
Proof.
  intros GC M ST TR HD HL.
  destruct (process_header fo ext ev base mods (fun _ _ => True) (fun _ _ => Logic.I) s m path text out m' ds GC M ST TR HD HL)
    as (s1 & s' & text' & H1 & H2 & H3 & _ & _ & H4 & H5 & _). exists s1, s', text'. auto.
Qed.

(** ** A file that is skipped *)
Section Skipped.
  Context (fo : str -> list str -> option str) (ext : str -> bool) (ev : dict str pobj -> str -> res pobj) (base mods : list str).
  Notation file_lines := (file_lines fo ext ev).
  Lemma effect_inactive p (s : store entry) l : active p = false -> line_effect fo ev p s l = s.
  Proof. intros A. unfold line_effect. rewrite A. destruct (directive l) as [[d r]|]; reflexivity. Qed.
  Lemma effect_conditional p (s : store entry) l : conditional l -> line_effect fo ev p s l = s.
  Proof.
    unfold line_effect, conditional, dname. destruct (directive l) as [[d r]|]; [|reflexivity].
    intros [<-|[<-|[<-|[<-|[<-|[<-|[]]]]]]]; destruct (active p); reflexivity.
  Qed.
  Lemma skipped_store ts hs : hd false ts = false -> PpModel.all_true ts = false ->
    forall ls i p (s : store entry) n xs hx,
    ift p = xs ++ ts -> ifh p = hx ++ hs -> length xs = n -> length hx = n ->
    (forall x, In x xs -> x = false) ->
    depth n ls = Some 0 -> (forall l, In l ls -> ~ nameless l) ->
    exists p', file_lines i p s ls = Ok (p', s).
  Proof.
    intros HD AT. induction ls as [|l ls IH]; intros i p s n xs hx ET EH LX LH FX DP NN; [exists p; reflexivity|].
    assert (NN' : forall x, In x ls -> ~ nameless x) by (intros x I; apply NN; right; exact I).
    assert (ALL : PpModel.all_true (xs ++ ts) = false).
    { unfold PpModel.all_true in *. rewrite forallb_app, AT, andb_false_r. reflexivity. }
    assert (AC : active p = false).
    { unfold active. rewrite ET. destruct xs as [|x xs]; [exact HD|]. cbn. apply FX. left. reflexivity. }
    cbn [depth] in DP. cbn [FileModel.file_lines]. rewrite (effect_inactive p s l AC).
    destruct (line_kinds l) as [O|[O|[O|[O|O]]]].
    - rewrite step_open by exact O. rewrite ET, ALL. cbv zeta. cbn [bind].
      assert (DD : depth (S n) ls = Some 0). { destruct O as [E|[E|[E|[]]]]; rewrite <- E in DP; exact DP. }
      apply (IH (S i) _ s (S n) (false :: xs) (false :: hx)); try assumption; [reflexivity|cbn; rewrite EH; reflexivity|cbn; lia|cbn; lia|].
      intros x [<-|I]; auto.
    - rewrite O in DP. cbn in DP. destruct n as [|n]; [discriminate|].
      destruct xs as [|x xs]; [discriminate|]. destruct hx as [|h hx]; [discriminate|].
      rewrite step_elif by exact O. rewrite ET, EH. cbn [app].
      assert (AT2 : PpModel.all_true (xs ++ ts) = false).
      { unfold PpModel.all_true in *. rewrite forallb_app, AT, andb_false_r. reflexivity. }
      rewrite AT2. cbn [negb]. rewrite orb_true_r. cbv zeta. cbn [bind].
      apply (IH (S i) _ s (S n) (false :: xs) ((h || false) :: hx)); try assumption; [reflexivity|reflexivity|].
      intros y [<-|I]; [reflexivity|]. apply FX. right. exact I.
    - rewrite O in DP. cbn in DP. destruct n as [|n]; [discriminate|].
      destruct xs as [|x xs]; [discriminate|]. destruct hx as [|h hx]; [discriminate|].
      rewrite step_else by exact O. rewrite ET, EH. cbn [app].
      assert (AT2 : PpModel.all_true (xs ++ ts) = false).
      { unfold PpModel.all_true in *. rewrite forallb_app, AT, andb_false_r. reflexivity. }
      rewrite AT2, andb_false_r. cbn [bind].
      apply (IH (S i) _ s (S n) (false :: xs) (true :: hx)); try assumption; [reflexivity|reflexivity|].
      intros y [<-|I]; [reflexivity|]. apply FX. right. exact I.
    - rewrite O in DP. cbn in DP. destruct n as [|n]; [discriminate|].
      destruct xs as [|x xs]; [discriminate|]. destruct hx as [|h hx]; [discriminate|].
      rewrite step_endif by exact O. rewrite ET, EH. cbn [app bind].
      apply (IH (S i) _ s n xs hx); try assumption; [reflexivity|reflexivity|cbn in LX; lia|cbn in LH; lia|].
      intros y I. apply FX. right. exact I.
    - rewrite step_other by exact O.
      destruct (other_inactive fo i p l AC) as (s1 & E1 & Q1 & Q2 & Q3 & Q4 & Q5 & k1 & Q6); [apply NN; left; reflexivity|].
      rewrite E1. cbn [bind].
      assert (DD : depth n ls = Some 0).
      { assert (NI : forall x, In x [$"if"; $"ifdef"; $"ifndef"; $"elif"; $"else"; $"endif"] -> eqb (dname l) x = false).
        { intros x I. apply eqb_false. intros E. apply O. unfold conditional. rewrite E. exact I. }
        rewrite (NI $"ifdef"), (NI $"ifndef"), (NI $"if"), (NI $"elif"), (NI $"else"), (NI $"endif") in DP by (cbn; auto 10).
        exact DP. }
      apply (IH (S i) s1 s n xs hx); try assumption; congruence.
  Qed.
  Lemma file_app a : forall i p (s : store entry) b, file_lines i p s (a ++ b) = do r <- file_lines i p s a; file_lines (i + length a) (fst r) (snd r) b.
  Proof.
    induction a as [|l a IH]; intros i p s b; [cbn; rewrite Nat.add_0_r; reflexivity|]. cbn [app FileModel.file_lines length].
    destruct (line_step fo ext i p l) as [p1|e]; [|reflexivity]. cbn [bind]. rewrite IH, Nat.add_succ_comm. reflexivity.
  Qed.
  Lemma file_store ls i p (s : store entry) p' r : run_lines fo ext i p ls = Ok p' -> file_lines i p s ls = Ok r -> fst r = p'.
  Proof.
    revert i p s. induction ls as [|l ls IH]; intros i p s R F; [injection R as <-; injection F as <-; reflexivity|].
    cbn [PpModel.run_lines FileModel.file_lines] in *. destruct (line_step fo ext i p l) as [p1|e]; [|discriminate R]. cbn [bind] in *. exact (IH _ _ _ R F).
  Qed.
  (** The header is one conditional block with blank lines around, and its condition is false. *)
  Notation gap := ExprSpec.gap.
  Fixpoint before (ls : list str) (b : block) : block := match ls with [] => b | l :: r => BLine l (before r b) end.
  Lemma before_lines ls b : lines (before ls b) = ls ++ lines b.
  Proof. induction ls as [|l ls IH]; [reflexivity|]. cbn [before lines app]. rewrite IH. reflexivity. Qed.
  Lemma gap_space l : gap l -> forallb is_space l = true.
  Proof. intros G. apply forallb_forall. intros c I1. destruct (G c I1) as [->| ->]; reflexivity. Qed.
  Lemma gap_directive l : gap l -> directive l = None.
  Proof. intros G. unfold directive. rewrite drop_all by (apply gap_space; exact G). reflexivity. Qed.
  Lemma gap_expands t m l : stands_for t m -> gap l -> expands m l l.
  Proof.
    intros (A & _ & B & N) G. apply ex_none.
    - intros w (a & b & -> & (NE & W) & _) K. destruct w as [|c w]; [contradiction|].
      assert (X : is_word c = true) by (apply W; left; reflexivity). assert (Y : In c (a ++ (c :: w) ++ b)) by (apply in_or_app; right; left; reflexivity).
      destruct (G c Y) as [->| ->]; discriminate X.
    - intros a c -> K. assert (Y : In c (a ++ [c])) by (apply in_or_app; right; left; reflexivity).
      assert (X : ident [c]).
      { apply N. unfold dmem. destruct K as [K|K].
        - left. destruct (dget (macros t) [c]) eqn:E; [reflexivity|]. apply A in E. contradiction.
        - right. apply B in K. destruct (dget (fnmacros t) [c]); [reflexivity|contradiction]. }
      destruct X as [X _]. destruct (G c Y) as [->| ->]; discriminate X.
  Qed.
  Lemma gaps_cpp t m ls b out m' : stands_for t m -> Forall gap ls -> cpp m b out m' -> cpp m (before ls b) (ls ++ out) m'.
  Proof.
    intros ST. induction 1 as [|l ls G F IH]; intros C; [exact C|]. cbn [before app].
    apply cpp_text; [apply gap_directive; exact G|apply (gap_expands t); assumption|apply IH; exact C].
  Qed.
  Lemma gaps_store ls : Forall gap ls -> forall i p (s : store entry) p', run_lines fo ext i p ls = Ok p' -> file_lines i p s ls = Ok (p', s).
  Proof.
    induction 1 as [|l ls G F IH]; intros i p s p' R; [injection R as ->; reflexivity|]. cbn [PpModel.run_lines FileModel.file_lines] in *.
    destruct (line_step fo ext i p l) as [p1|e]; [|discriminate R]. cbn [bind] in *.
    replace (line_effect fo ev p s l) with s by (unfold line_effect; rewrite gap_directive by exact G; reflexivity). apply IH. exact R.
  Qed.
  Lemma run_parts i p a b p' : run_lines fo ext i p (a ++ b) = Ok p' ->
    exists p1, run_lines fo ext i p a = Ok p1 /\ run_lines fo ext (i + length a) p1 b = Ok p'.
  Proof. rewrite run_app. destruct (run_lines fo ext i p a) as [p1|e]; [|discriminate]. cbn [bind]. intros R. exists p1. auto. Qed.
  Lemma gap_ws ls : Forall gap ls -> forallb is_ws (join [nl] ls) = true.
  Proof.
    assert (W : forall l, gap l -> forallb is_ws l = true). { intros l G. apply forallb_forall. intros c I1. destruct (G c I1) as [->| ->]; reflexivity. }
    induction 1 as [|l ls G F IH]; [reflexivity|]. destruct ls as [|l' ls]; [apply W; exact G|].
    change (join [nl] (l :: l' :: ls)) with (l ++ nl :: join [nl] (l' :: ls)). rewrite forallb_app, (W l G). exact IH.
  Qed.
  Lemma skipped_file s m path text ps segs b1 l body e b2 : text = parts_text ps -> reads_as ps ->
    without_comments ps = join continuation segs -> segs <> [] -> Forall (fun s => ~ occurs continuation s) segs ->
    split_on nl (concat segs) = b1 ++ (l :: lines body ++ [e]) ++ b2 -> Forall gap b1 -> Forall gap b2 ->
    macro_tables s -> stands_for (macros_of s) m ->
    opens l -> decides m l false -> well_formed body -> dname e = $"endif" -> good_config base mods ->
    exists text', process_file fo ext ev base mods s path text = Some (Ok (set_cur s (Some path), text')).
  Proof.
    intros -> R W NE F SL G1 G2 MT ST OP D WF DE GC. unfold FileModel.process_file, FileModel.preprocess_file.
    rewrite remove_comments_reads, W, join_lines_segs by assumption. set (s0 := set_cur s (Some path)).
    set (bl := before b1 (BCond l body (REnd e) (before b2 BNil))).
    assert (CP : cpp m bl (b1 ++ [] ++ b2) m).
    { apply (gaps_cpp _ m _ _ _ _ ST G1). apply (cpp_skipped m l body (REnd e) _ [] m); [exact OP|exact D|exact WF|constructor; exact DE|].
      rewrite <- (app_nil_r b2) at 2. apply (gaps_cpp _ m _ _ _ _ ST G2). constructor. }
    assert (LB : lines bl = b1 ++ (l :: lines body ++ [e]) ++ b2).
    { unfold bl. rewrite before_lines. cbn [lines blines]. rewrite before_lines. cbn [lines]. rewrite app_nil_r. cbn [app]. rewrite <- app_assoc. reflexivity. }
    assert (OK0 : ok_at (start (macros_of s0)) m).
    { split; [exact ST|]. cbn [start tab macros macros_of]. rewrite texts_keys by exact MT. apply MT. }
    destruct (proj1 (cpp_run fo ext) m bl _ m CP 0 (start (macros_of s0)) OK0 eq_refl eq_refl) as (p' & RP & O' & T' & H' & W1 & W2 & W3).
    rewrite SL, <- LB.
    assert (FL : file_lines 0 (start (macros_of s0)) s0 (lines bl) = Ok (p', s0)).
    { rewrite LB in *. apply run_parts in RP. destruct RP as (p1 & RP1 & RP). apply run_parts in RP. destruct RP as (p3 & RP2 & RP3).
      destruct (proj1 (cpp_run fo ext) m (before b1 BNil) _ m (gaps_cpp _ m b1 BNil [] m ST G1 (cpp_nil m)) 0 (start (macros_of s0)) OK0 eq_refl eq_refl)
        as (p1' & RP1' & O1 & T1 & H1 & _).
      rewrite before_lines in RP1'. cbn [lines] in RP1'. rewrite app_nil_r, RP1 in RP1'. injection RP1' as <-.
      rewrite file_app, (gaps_store b1 G1 _ _ s0 _ RP1). cbn [bind fst snd]. rewrite file_app.
      assert (FM : file_lines (0 + length b1) p1 s0 (l :: lines body ++ [e]) = Ok (p3, s0)).
      { assert (X : exists r, file_lines (0 + length b1) p1 s0 (l :: lines body ++ [e]) = Ok (r, s0)).
        { cbn [FileModel.file_lines]. rewrite step_open by exact OP. rewrite (decides_holds fo ext (tab p1) m l false (proj1 O1) D).
          rewrite T1. change (PpModel.all_true (ift (start (macros_of s0)))) with true. cbv iota zeta. cbn [bind].
          rewrite (effect_conditional p1 s0 l (opens_conditional l OP)).
          set (p2 := emit (set_if p1 _ _) []).
          destruct (skipped_store [false; true] [false] eq_refl eq_refl (lines body) (S (0 + length b1)) p2 s0 0 [] []) as (p2' & F2);
            [reflexivity|cbn [p2 emit set_if ifh app]; rewrite H1; reflexivity|reflexivity|reflexivity|intros x []| | |].
          { rewrite <- (app_nil_r (lines body)). rewrite (proj1 lines_depth body WF). reflexivity. }
          { apply (proj1 lines_named). exact WF. }
          destruct (skip_block fo ext body WF (S (0 + length b1)) p2) as (p2'' & R2 & _ & T2 & H2); [reflexivity|reflexivity|].
          pose proof (file_store _ _ _ _ _ _ R2 F2) as E2. cbn [fst] in E2. subst p2'.
          rewrite file_app, F2. cbn [bind fst snd FileModel.file_lines]. rewrite step_endif by exact DE. rewrite T2, H2. cbn [p2 emit set_if ift ifh bind].
          rewrite effect_conditional by (unfold conditional; rewrite DE; cbn; auto 10). eexists. reflexivity. }
        destruct X as (r & X). pose proof (file_store _ _ _ _ _ _ RP2 X) as E2. cbn [fst] in E2. subst r. exact X. }
      rewrite FM. cbn [bind fst snd]. apply (gaps_store b2 G2). exact RP3. }
    rewrite FL. cbn [bind fst snd]. rewrite W1. change (plist (start (macros_of s0))) with [(0, @None Z)].
    assert (HD : header base mods None [] (join [nl] (outp p'))).
    { apply (header_lines base mods None GC [] (b1 ++ [] ++ b2)).
      - rewrite W3. reflexivity.
      - apply NoiseProofs.bare_noisy. exists []. split; [constructor|]. split; [constructor|]. constructor. apply gap_ws. apply Forall_app. split; assumption. }
    rewrite (parse_header ev base mods None [(0, None)] [] _ s0 (Some path) GC (fun _ => eq_refl) HD). cbn [run_tops].
    eexists. reflexivity.
  Qed.
End Skipped.
