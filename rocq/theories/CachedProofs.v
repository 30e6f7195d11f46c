(** Proofs for C91. *)
From Coq Require Import Ascii String Bool Arith ZArith Lia List.
Import ListNotations.
From Verif Require Import PyBase PyBaseFacts PyStr PyStrFacts PyExpr MacroModel TypeModel StoreModel StoreSpec StoreProofs.
From Verif Require Import InitModel DeclModel DeclSpec DeclProofs EvalModel GramModel GramRun.
From Verif Require LinkModel LibModel ConstModel MacroSpec MacroProofs PpProofs ConstProofs ConstSpec FilesSpec FilesProofs.
From Verif Require Import PpModel PpSpec TextSpec TextProofs FileModel CachedModel CachedSpec CachedOrder.
Import ConstSpec.

Local Notation run := StoreModel.run.
Local Notation step := StoreModel.step.
(** ** Histories *)
Section Reach.
  Context {V : Type}.
  Definition reaches (P : op V -> Prop) (s s' : store V) : Prop := exists h, s' = run s h /\ Forall P h.
  Lemma reaches_refl (P : op V -> Prop) s : reaches P s s.
  Proof. exists []. split; [reflexivity|constructor]. Qed.
  Lemma reaches_trans (P : op V -> Prop) s1 s2 s3 : reaches P s1 s2 -> reaches P s2 s3 -> reaches P s1 s3.
  Proof.
    intros (h & -> & F) (h' & -> & F'). exists (h ++ h'). split; [symmetry; apply run_app|]. apply Forall_app. auto.
  Qed.
  Lemma reaches_step (P : op V -> Prop) s o : P o -> reaches P s (step s o).
  Proof. intros H. exists [o]. split; [reflexivity|constructor; [exact H|constructor]]. Qed.
  Lemma reaches_impl (P Q : op V -> Prop) s s' : (forall o, P o -> Q o) -> reaches P s s' -> reaches Q s s'.
  Proof. intros I1 (h & -> & F). exists h. split; [reflexivity|]. eapply Forall_impl; [|exact F]. exact I1. Qed.
  Lemma reaches_add (P : op V -> Prop) s s' k n v : P (Add k n v) -> reaches P s s' -> reaches P s (add_def s' k n v).
  Proof. intros H R. apply (reaches_trans P s s'); [exact R|]. apply (reaches_step P s' (Add k n v)). exact H. Qed.
End Reach.

(** ** Declarations *)
Definition decl_op (o : op entry) : Prop := exists k n v, o = Add k n v /\ k <> Macros.
Section Decls.
  Context (ev : dict str pobj -> str -> res pobj) (s0 : store entry).
  Notation P := (reaches decl_op s0).
  Lemma add_other s k n v : k <> Macros -> P s -> P (add_def s k n v).
  Proof. intros NE. apply reaches_add. exists k, n, v. auto. Qed.
  Lemma enum_loop_reach l : forall s i en, P s -> P (fst (fst (enum_loop ev s i en l))).
  Proof.
    induction l as [|[n v] l IH]; intros s i en H; [exact H|]. cbn [enum_loop]. cbv zeta.
    destruct (plus_one _) as [i2|e]; [apply IH|cbn [fst]]; apply add_other; [discriminate|exact H|discriminate|exact H].
  Qed.
  Lemma enum_reach s m l : P s -> P (fst (process_enum ev s m l)).
  Proof.
    intros H. unfold process_enum. destruct (match m with Some n => Ok n | None => _ end) as [n|e]; [|exact H].
    destruct (dmem _ _); [exact H|]. pose proof (enum_loop_reach l s (ONum (VInt 0)) [] H) as Q.
    destruct (enum_loop ev s (ONum (VInt 0)) [] l) as [[s1 en] [e|]]; cbn [fst] in *; [exact Q|].
    apply add_other; [discriminate|]. apply add_other; [discriminate|exact Q].
  Qed.
  Lemma struct_reach s c m l p : P s -> P (fst (process_struct ev s c m l p)).
  Proof.
    intros H. unfold process_struct. cbv zeta. destruct (match m with Some n => Ok n | None => _ end) as [n|e]; [|exact H].
    destruct (_ || _); [|exact H]. destruct (all_members ev s l) as [ms|e]; [|exact H].
    cbn [fst]. apply add_other; [discriminate|]. apply add_other; [destruct c; discriminate|exact H].
  Qed.
  Lemma declare_reach b v l : forall s, P s -> P (declare ev s b v l).
  Proof.
    induction l as [|d l IH]; intros s H; [exact H|]. cbn [declare]. destruct (process_type _ b d) as [[[n|] t]|e]; [|exact H|exact H].
    apply IH. destruct (ends_in_tuple t); [apply add_other; [discriminate|exact H]|].
    apply add_other; [discriminate|]. apply add_other; [discriminate|exact H].
  Qed.
  Lemma function_reach s b d : P s -> P (process_function ev s b d).
  Proof.
    intros H. unfold process_function. destruct (process_type _ b d) as [[[n|] t]|e]; [|exact H|exact H].
    destruct (ends_in_tuple t); [apply add_other; [discriminate|exact H]|exact H].
  Qed.
  Lemma typedef_reach b l : forall s, P s -> P (fst (process_typedef ev s b l)).
  Proof.
    induction l as [|d l IH]; intros s H; [exact H|]. cbn [process_typedef]. destruct (process_type _ b d) as [[[n|] t]|e]; [|exact H|exact H].
    apply IH. apply add_other; [discriminate|exact H].
  Qed.
  Lemma tops_reach l s : P s -> P (fst (run_tops ev s l)).
  Proof.
    apply (run_tops_keep ev P (fun _ => True) (fun _ => True)).
    - intros s1 c m l0 p ls _ _ H. apply struct_reach. exact H.
    - intros s1 m l0 _ H. apply enum_reach. exact H.
    - intros s1 g b l0 _ _ H. destruct g as [t x|t x i|t x]; cbn [act_top fst].
      + apply typedef_reach. exact H.
      + apply declare_reach. exact H.
      + destruct l0 as [|d [|? ?]]; try exact H. apply function_reach. exact H.
    - apply Forall_forall. intros g _. split; [apply GramRun.all_true|exact Logic.I].
  Qed.
End Decls.

(** ** Lines *)
Definition line_op (ls : list str) (o : op entry) : Prop :=
  (exists k n v, o = Add k n v /\ (k = Macros -> exists l, In l ls /\ defining n l))
  \/ (exists n, o = Rem Macros n /\ exists l, In l ls /\ undefining n l).
Section Lines.
  Context (fo : str -> list str -> option str) (ext : str -> bool) (ev : dict str pobj -> str -> res pobj).
  Lemma macro_reach (P : op entry -> Prop) (s : store entry) n args v : (forall k w, P (Add k n w)) -> reaches P s (record_macro ev s n args v).
  Proof.
    intros H. unfold record_macro. destruct (dget (fn_macros s) v) as [[t o]|]; [apply reaches_add; [apply H|apply reaches_refl]|].
    destruct args as [a|]; [destruct (compile_fn_macro v a) as [t o]; apply reaches_add; [apply H|apply reaches_refl]|].
    cbv zeta. apply reaches_add; [apply H|]. apply reaches_add; [apply H|]. apply reaches_refl.
  Qed.
  Lemma effect_reach ls p (s : store entry) l : In l ls -> reaches (line_op ls) s (line_effect fo ev p s l).
  Proof.
    intros I1. unfold line_effect. destruct (directive l) as [[d r]|] eqn:D; [|apply reaches_refl]. destruct (active p); [|apply reaches_refl].
    destruct (eqb_spec d $"define") as [->|_].
    - destruct (macro_name r) as [[x r']|] eqn:MN; [|apply reaches_refl]. destruct (ConstProofs.macro_name_split r x r' MN) as (g & -> & G1 & ID & G2).
      destruct (if PpModel.all_true (ift p) then expand_macros fo (tab p) r' else Ok r') as [y|e]; [|apply reaches_refl].
      unfold record_define. destruct (pp_define (x ++ sp :: y)) as [[[x' args] v]|] eqn:PD; [|apply reaches_refl].
      rewrite (ConstProofs.define_name x y x' args v ID PD). apply macro_reach. intros k w. left. exists k, x, w. split; [reflexivity|].
      intros _. exists l. split; [exact I1|]. exists g, r'. auto.
    - destruct (eqb_spec d $"undef") as [->|_]; [|apply reaches_refl]. destruct (macro_name r) as [[x r']|] eqn:MN; [|apply reaches_refl].
      destruct (ConstProofs.macro_name_split r x r' MN) as (g & -> & G1 & ID & G2). rewrite (PpProofs.strip_ident x ID).
      apply (reaches_step (line_op ls) s (Rem Macros x)). right. exists x. split; [reflexivity|]. exists l. split; [exact I1|]. exists g, r'. auto.
  Qed.
  Lemma lines_reach all ls : incl ls all -> forall i p (s : store entry) r, file_lines fo ext ev i p s ls = Ok r -> reaches (line_op all) s (snd r).
  Proof.
    induction ls as [|l ls IH]; intros I1 i p s r E; cbn [file_lines] in E; [injection E as <-; apply reaches_refl|].
    destruct (line_step fo ext i p l) as [p'|e]; [|discriminate E]. cbn [bind] in E.
    apply (reaches_trans _ s (line_effect fo ev p s l)); [apply effect_reach; apply I1; left; reflexivity|].
    apply (IH (fun x X => I1 x (or_intror X)) _ _ _ _ E).
  Qed.
End Lines.

(** ** Segments of continued lines *)
Fixpoint segments (w : str) : list str :=
  match w with
  | [] => [[]]
  | c :: r =>
      match r with
      | d :: r' => if cheq c bslash && cheq d nl then [] :: segments r'
                   else match segments r with [] => [[c]] | x :: y => (c :: x) :: y end
      | [] => [[c]]
      end
  end.
Lemma segments_step c d r : segments (c :: d :: r) =
  if cheq c bslash && cheq d nl then [] :: segments r else match segments (d :: r) with [] => [[c]] | x :: y => (c :: x) :: y end.
Proof. reflexivity. Qed.
Lemma segments_some w : segments w <> [].
Proof.
  destruct w as [|c [|d r]]; [intros H; discriminate H|intros H; discriminate H|]. rewrite segments_step.
  destruct (_ && _); [intros H; discriminate H|]. destruct (segments (d :: r)); intros H; discriminate H.
Qed.
Lemma segments_join n : forall w, length w <= n -> join continuation (segments w) = w.
Proof.
  induction n as [|n IH]; intros w L; [destruct w; [reflexivity|cbn [length] in L; lia]|].
  destruct w as [|c [|d r]]; [reflexivity|reflexivity|]. rewrite segments_step. cbn [length] in L.
  destruct (cheq c bslash && cheq d nl) eqn:E.
  - apply andb_true_iff in E. destruct E as [E1 E2]. apply cheq_true in E1, E2. subst c d.
    pose proof (segments_some r) as N. pose proof (IH r ltac:(lia)) as Q. destruct (segments r) as [|x y]; [contradiction N; reflexivity|].
    cbn [join app] in Q |- *. rewrite Q. reflexivity.
  - pose proof (IH (d :: r) ltac:(cbn [length]; lia)) as Q. pose proof (segments_some (d :: r)) as N.
    destruct (segments (d :: r)) as [|x y]; [contradiction N; reflexivity|]. destruct y as [|y z]; cbn [join app] in Q |- *; rewrite Q; reflexivity.
Qed.
Lemma segments_hd d r x y : segments (d :: r) = x :: y -> x = [] \/ exists x', x = d :: x'.
Proof.
  destruct r as [|e r]; [intros H; injection H as <- _; right; exists []; reflexivity|]. rewrite segments_step.
  destruct (_ && _); [intros H; injection H as <- _; left; reflexivity|].
  destruct (segments (e :: r)) as [|a b]; intros H; injection H as <- _; right; eexists; reflexivity.
Qed.
Lemma segments_plain n : forall w, length w <= n -> Forall (fun s => ~ occurs continuation s) (segments w).
Proof.
  assert (E0 : ~ occurs continuation []) by (intros (a & b & X); destruct a; discriminate X).
  assert (E1 : forall c, ~ occurs continuation [c]) by (intros c (a & b & X); destruct a as [|? [|? ?]]; discriminate X).
  induction n as [|n IH]; intros w L; [destruct w; [repeat constructor; exact E0|cbn [length] in L; lia]|].
  destruct w as [|c [|d r]]; [repeat constructor; exact E0|repeat constructor; apply E1|]. rewrite segments_step. cbn [length] in L.
  destruct (cheq c bslash && cheq d nl) eqn:E; [constructor; [exact E0|apply IH; lia]|].
  pose proof (IH (d :: r) ltac:(cbn [length]; lia)) as Q. pose proof (segments_hd d r) as H.
  destruct (segments (d :: r)) as [|x y]; [repeat constructor; apply E1|]. inversion Q as [|? ? Q1 Q2]; subst. constructor; [|exact Q2].
  intros (a & b & X). destruct a as [|a0 a].
  - cbn in X. injection X as -> X. destruct (H x y eq_refl) as [->|(x' & ->)]; [discriminate X|]. injection X as -> _.
    rewrite !cheq_refl in E. discriminate E.
  - injection X as -> X. apply Q1. exists a, b. exact X.
Qed.
Lemma text_lines text l : readable text -> In l (split_on nl (join_lines (remove_comments text))) ->
  exists ps segs, text = parts_text ps /\ reads_as ps
    /\ without_comments ps = join continuation segs /\ segs <> []
    /\ Forall (fun s => ~ occurs continuation s) segs /\ In l (split_on nl (concat segs)).
Proof.
  intros (ps & -> & R) I1. exists ps, (segments (without_comments ps)). rewrite (remove_comments_reads ps R) in I1.
  pose proof (segments_join _ (without_comments ps) (le_n _)) as J. pose proof (segments_plain _ (without_comments ps) (le_n _)) as F.
  pose proof (segments_some (without_comments ps)) as N.
  split; [reflexivity|]. split; [exact R|]. split; [symmetry; exact J|]. split; [exact N|]. split; [exact F|].
  rewrite <- J, (join_lines_segs _ N F) in I1. exact I1.
Qed.

(** ** Files *)
(** What reading the file [f] with the text [t] does to the tables. *)
Definition body_op (f t : str) (o : op entry) : Prop :=
  (exists k n v, o = Add k n v /\ (k = Macros -> defines_macro n t))
  \/ (exists n, o = Rem Macros n /\ undefines_macro n t)
  \/ o = Switch (Some f).
Section Files.
  Context (fo : str -> list str -> option str) (ext : str -> bool) (ev : dict str pobj -> str -> res pobj) (base mods : list str).
  Lemma file_reach (s : store entry) path text s' text' : readable text ->
    process_file fo ext ev base mods s path text = Some (Ok (s', text')) ->
    exists h, s' = run s (Switch (Some path) :: h) /\ Forall (body_op path text) h.
  Proof.
    intros R E. unfold process_file in E. destruct (preprocess_file fo ext ev s path (remove_comments text)) as [[[l s1] t1]|e] eqn:PP; [|discriminate E].
    unfold preprocess_file in PP. cbv zeta in PP. destruct (file_lines _ _ _ _ _ _ _) as [r|e] eqn:L; [|discriminate PP]. cbn [bind] in PP.
    assert (S1 : s1 = snd r) by congruence. apply (lines_reach fo ext ev _ _ (incl_refl _)) in L. rewrite <- S1 in L. clear PP S1 r.
    unfold parse_file in E. destruct (parse_defs base mods l t1) as [ds|]; [|discriminate E].
    pose proof (tops_reach ev (set_cur s1 (Some path)) ds _ (reaches_refl decl_op _)) as T.
    destruct (run_tops ev (set_cur s1 (Some path)) ds) as [s2 [e|]]; [discriminate E|]. cbn [fst] in T.
    assert (s2 = s') by congruence. subst s2. clear E. destruct L as (h1 & -> & F1). destruct T as (h2 & -> & F2).
    exists (h1 ++ Switch (Some path) :: h2). split.
    - change (Switch (Some path) :: h1 ++ Switch (Some path) :: h2) with ((Switch (Some path) :: h1) ++ Switch (Some path) :: h2).
      rewrite run_app. reflexivity.
    - apply Forall_app. split; [|constructor; [right; right; reflexivity|]].
      + eapply Forall_impl; [|exact F1]. intros o [(k & n & v & -> & H)|(n & -> & x & I1 & U)].
        * left. exists k, n, v. split; [reflexivity|]. intros K. destruct (H K) as (x & I1 & D).
          destruct (text_lines text x R I1) as (ps & segs & A1 & A2 & A3 & A4 & A5 & A6). exists ps, segs, x. auto 10.
        * right. left. exists n. split; [reflexivity|]. destruct (text_lines text x R I1) as (ps & segs & A1 & A2 & A3 & A4 & A5 & A6). exists ps, segs, x. auto 10.
      + eapply Forall_impl; [|exact F2]. intros o (k & n & v & -> & NE). left. exists k, n, v. split; [reflexivity|]. intros K. contradiction.
  Qed.
  Fixpoint files_op (l : list (str * str)) (H : list (op entry)) : Prop :=
    match l with
    | [] => H = []
    | (f, t) :: r => exists h H', H = Switch (Some f) :: h ++ H' /\ Forall (body_op f t) h /\ files_op r H'
    end.
  Lemma files_reach l : forall p p', NoDup (map fst l) -> (forall f t, In (f, t) l -> dget (p_files p) f = Some (Some t)) ->
    Forall (fun x => readable (snd x)) l ->
    process_files fo ext ev base mods p (map fst l) = Some (Ok p') -> exists H, p_store p' = run (p_store p) H /\ files_op l H.
  Proof.
    induction l as [|[f t] l IH]; intros p p' ND T R E; cbn [map fst process_files] in E.
    - exists []. split; [|reflexivity]. assert (p' = p) as -> by congruence. reflexivity.
    - rewrite (T f t (or_introl eq_refl)) in E. inversion ND as [|? ? N1 N2]; subst. inversion R as [|? ? R1 R2]; subst. cbn [snd] in R1.
      destruct (process_file fo ext ev base mods (p_store p) f t) as [[[s1 t1]|e]|] eqn:PF; [|discriminate E|discriminate E].
      destruct (file_reach _ _ _ _ _ R1 PF) as (h & -> & F).
      match type of E with process_files _ _ _ _ _ ?q _ = _ => assert (T' : forall g u, In (g, u) l -> dget (p_files q) g = Some (Some u)) end.
      { intros g u I1. cbn [p_files]. rewrite dget_dset. destruct (eqb_spec g f) as [->|NE].
        * exfalso. apply N1. apply (in_map fst) in I1. exact I1.
        * apply T. right. exact I1. }
      destruct (IH _ _ N2 T' R2 E) as (H & E2 & FO). cbn [p_store] in E2. exists (Switch (Some f) :: h ++ H). split; [|exists h, H; auto].
      rewrite E2. change (Switch (Some f) :: h ++ H) with ((Switch (Some f) :: h) ++ H). rewrite run_app. reflexivity.
  Qed.
End Files.

(** ** Order and removals *)
Lemma one_pass_body f t h rest : Forall (body_op f t) h -> forall seen, one_pass seen (Some (basename f)) rest -> one_pass seen (Some (basename f)) (h ++ rest).
Proof.
  induction 1 as [|o h B _ IH]; intros seen R; [exact R|]. cbn [app]. destruct B as [(k & n & v & -> & _)|[(n & -> & _)| ->]]; cbn [one_pass].
  - apply IH. exact R.
  - apply IH. exact R.
  - cbn [option_map]. cbv zeta. split; [left; reflexivity|]. rewrite eqb_refl. apply IH. exact R.
Qed.
Lemma one_pass_files l : forall H seen c, files_op l H -> NoDup (map (fun x => basename (fst x)) l) ->
  (forall x, In x l -> ~ In (Some (basename (fst x))) (c :: seen)) -> one_pass seen c H.
Proof.
  induction l as [|[f t] l IH]; intros H seen c FO ND NI; cbn [files_op] in FO; [subst H; exact Logic.I|].
  destruct FO as (h & H' & -> & B & FO). inversion ND as [|? ? N1 N2]; subst. cbn [one_pass option_map]. cbv zeta. cbn [fst] in *.
  pose proof (NI (f, t) (or_introl eq_refl)) as NF. cbn [fst] in NF. split; [right; exact NF|].
  destruct (eqb_spec (Some (basename f)) c) as [E|NE]; [exfalso; apply NF; left; symmetry; exact E|].
  apply (one_pass_body f t h H' B). apply IH; [exact FO|exact N2|]. intros x I1 [E|I2].
  - apply N1. injection E as E. rewrite E. apply (in_map (fun x => basename (fst x))) in I1. exact I1.
  - apply (NI x (or_intror I1)). exact I2.
Qed.
Lemma removals_body (M : str -> Prop) f t h rest : Forall (body_op f t) h -> (forall n, undefines_macro n t -> ~ M n) ->
  (forall past, (forall g n v, In (g, Macros, n, v) past -> M n \/ defines_macro n t) -> local_removals past (Some (basename f)) rest) ->
  forall past, (forall g n v, In (g, Macros, n, v) past -> M n \/ g = Some (basename f) /\ defines_macro n t) ->
  local_removals past (Some (basename f)) (h ++ rest).
Proof.
  intros B U R. induction B as [|o h B _ IH]; intros past P; cbn [app].
  - apply R. intros g n v I1. destruct (P g n v I1) as [X|[_ X]]; auto.
  - destruct B as [(k & n & v & -> & D)|[(n & -> & X)| ->]]; cbn [local_removals].
    + apply IH. intros g m w I1. apply in_app_or in I1. destruct I1 as [I1|[I1|[]]]; [apply (P g m w I1)|].
      injection I1 as <- -> -> _. right. split; [reflexivity|]. apply D. reflexivity.
    + split; [|apply IH; exact P]. intros g v I1. destruct (P g n v I1) as [Y|[Y _]]; [contradiction (U n X Y)|exact Y].
    + cbn [option_map]. apply IH. exact P.
Qed.
Lemma removals_files l : forall (M : str -> Prop) H past c, files_op l H -> separate M (map snd l) ->
  (forall g n v, In (g, Macros, n, v) past -> M n) -> local_removals past c H.
Proof.
  induction l as [|[f t] l IH]; intros M H past c FO S1 P; cbn [files_op] in FO; [subst H; exact Logic.I|].
  destruct FO as (h & H' & -> & B & FO). cbn [map snd separate] in S1. destruct S1 as (_ & U & S1). cbn [local_removals option_map].
  apply (removals_body M f t h H' B U); [|intros g n v I1; left; exact (P g n v I1)].
  intros past' P'. apply (IH (fun n => M n \/ defines_macro n t) H' past' _ FO S1 P').
Qed.

(** ** Keyword arguments *)
Lemma add_names_ops k (d : dict str entry) : forall s : store entry,
  fold_left (fun s p => add_def s k (fst p) (snd p)) d s = run s (map (fun p => Add k (fst p) (snd p)) d).
Proof. induction d as [|p d IH]; intros s; [reflexivity|]. cbn [fold_left map]. rewrite IH. reflexivity. Qed.
Lemma add_kw_ops (kw : dict str (dict str entry)) : forall s s', add_kw s kw = Ok s' ->
  exists ops, s' = run s ops /\ (forall o, In o ops -> exists k n v, o = Add k n v)
    /\ forall g n v, In (g, Macros, n, v) (additions None ops) -> given_macro kw n.
Proof.
  assert (A : forall ops : list (op entry), (forall o, In o ops -> exists k n v, o = Add k n v) ->
            forall g k n v, In (g, k, n, v) (additions None ops) -> In (Add k n v) ops).
  { induction ops as [|o ops IH]; intros H g k n v I1; [destruct I1|]. destruct (H o (or_introl eq_refl)) as (k' & n' & v' & ->).
    cbn [additions] in I1. destruct I1 as [I1|I1]; [left; congruence|right]. apply (IH (fun x X => H x (or_intror X)) g). exact I1. }
  intros s s' E.
  assert (X : exists ops, s' = run s ops /\ (forall o, In o ops -> exists k n v, o = Add k n v)
              /\ forall n v, In (Add Macros n v) ops -> given_macro kw n).
  { revert s E. induction kw as [|[t d] kw IH]; intros s E; cbn [add_kw] in E.
    - exists []. split; [injection E as <-; reflexivity|]. split; [intros o []|intros n v []].
    - destruct (kind_of t) as [k|] eqn:K.
      + rewrite add_names_ops in E. destruct (IH _ E) as (ops & -> & O1 & O2). exists (map (fun p => Add k (fst p) (snd p)) d ++ ops).
        split; [symmetry; apply run_app|]. split.
        * intros o I1. apply in_app_or in I1. destruct I1 as [I1|I1]; [|apply O1; exact I1]. apply in_map_iff in I1.
          destruct I1 as (p & <- & _). eauto.
        * intros n v I1. apply in_app_or in I1. destruct I1 as [I1|I1].
          -- apply in_map_iff in I1. destruct I1 as (p & E1 & I2). injection E1 as -> <- _. apply kind_of_name in K.
             exists d. split; [left; rewrite <- K; reflexivity|]. apply in_map. exact I2.
          -- destruct (O2 n v I1) as (d' & I2 & I3). exists d'. split; [right; exact I2|exact I3].
      + destruct d; [|discriminate E]. destruct (IH _ E) as (ops & -> & O1 & O2). exists ops. split; [reflexivity|]. split; [exact O1|].
        intros n v I1. destruct (O2 n v I1) as (d' & I2 & I3). exists d'. split; [right; exact I2|exact I3]. }
  destruct X as (ops & E1 & O1 & O2). exists ops. split; [exact E1|]. split; [exact O1|]. intros g n v I1. apply (O2 n v). exact (A ops O1 _ _ _ _ I1).
Qed.

(** ** The constructor *)
Section Open.
  Context (fo : str -> list str -> option str) (ext : str -> bool) (ev : dict str pobj -> str -> res pobj) (base mods : list str)
          (veq : entry -> entry -> bool) (sub : str -> str -> str -> str).
  Definition repl (r : option (dict str str)) : dict str str := match r with Some d => d | None => [] end.
  Lemma texts_pairs contents rs paths texts : Forall2 (has_text sub contents rs) paths texts ->
    exists l, map fst l = paths /\ map snd l = texts /\ forall f t, In (f, t) l -> has_text sub contents rs f t.
  Proof.
    induction 1 as [|f t ps ts H _ (l & E1 & E2 & A)]; [exists []; split; [reflexivity|]; split; [reflexivity|intros f t []]|].
    exists ((f, t) :: l). cbn [map fst snd]. rewrite E1, E2. split; [reflexivity|]. split; [reflexivity|].
    intros g u [I1|I1]; [injection I1 as <- <-; exact H|apply A; exact I1].
  Qed.
  Lemma separate_readable texts : forall M, separate M texts -> Forall readable texts.
  Proof. induction texts as [|t r IH]; intros M S1; constructor; [apply S1|]. apply (IH (fun n => M n \/ defines_macro n t)). apply S1. Qed.

  Lemma cached_library contents1 find1 fs1 md1 headers1 enc1 cf1 (ck1 : bool) paths1 texts replace kw w pk
    contents2 find2 fs2 md2 headers2 enc2 cf2 c (check : bool) paths2 :
    NoDup (keys kw) -> (forall k d, In (k, d) kw -> NoDup (keys d)) -> (forall d, replace = Some d -> NoDup (keys d)) ->
    (forall e, veq e e = true) ->
    Forall2 (FilesSpec.resolves contents1 find1) headers1 paths1 -> Forall2 (has_text sub contents1 (repl replace)) paths1 texts ->
    paths1 <> [] -> NoDup (map basename paths1) -> separate (given_macro kw) texts ->
    (forall c, ~ cache_at fs1 md1 cf1 c) ->
    open_headers fo ext ev base mods veq sub contents1 find1 fs1 md1 headers1 [] replace enc1 kw (Some cf1) ck1 = Some (Ok (w, Some pk)) ->
    Forall2 (FilesSpec.resolves contents2 find2) headers2 paths2 -> (forall f, In f paths2 -> contents2 f <> None) ->
    map basename paths2 = map basename paths1 ->
    wf_disk fs2 -> cache_at fs2 md2 cf2 c -> unpickle fs2 c = Some pk ->
    (check = true -> forall f, In f paths2 -> isfile fs2 f = true -> (mtime fs2 f <= mtime fs2 c)%Z) ->
    exists r, open_headers fo ext ev base mods veq sub contents2 find2 fs2 md2 headers2 [] replace enc2 kw (Some cf2) check = Some (Ok (r, None))
      /\ same_definitions (p_store r) (p_store w).
  Proof.
    intros NK ND NR VR RE1 HT NE NB SP NC OW RE2 EX2 BN WD CA UP TM.
    destruct (texts_pairs _ _ _ _ HT) as (l & EP & ET & HL).
    assert (EX1 : forall f, In f paths1 -> contents1 f <> None).
    { intros f I1. rewrite <- EP in I1. apply in_map_iff in I1. destruct I1 as ([g t] & <- & I1). destruct (HL g t I1) as (raw & C & _). cbn [fst]. congruence. }
    unfold open_headers in OW. rewrite (FilesProofs.find_all contents1 find1 headers1 paths1 RE1) in OW. cbv zeta in OW.
    destruct (FilesProofs.load_all sub contents1 (repl replace) paths1 (new_parser init_store) EX1) as (L1 & L2 & L3 & _).
    unfold repl in L1, L2, L3. cbn [new_parser p_order p_store app] in L1, L2. cbv zeta in *.
    unfold open_headers. rewrite (FilesProofs.find_all contents2 find2 headers2 paths2 RE2). cbv zeta.
    destruct (FilesProofs.load_all sub contents2 (repl replace) paths2 (new_parser init_store) EX2) as (R1 & R2 & R3 & _).
    unfold repl in R1, R2, R3. cbn [new_parser p_order p_store app] in R1, R2. cbv zeta in *.
    set (p1 := fold_left _ paths1 _) in *. set (p2 := fold_left _ paths2 _) in *.
    rewrite L1 in OW. rewrite R1.
    set (a1 := {| a_files := paths1; a_copy := []; a_replace := replace; a_encoding := enc1; a_kw := kw |}) in *.
    set (a2 := {| a_files := paths2; a_copy := []; a_replace := replace; a_encoding := enc2; a_kw := kw |}) in *.
    assert (CE : ctor a2 = ctor a1) by reflexivity. rewrite CE. unfold ctor in OW |- *. cbn [a_kw a_copy a1] in OW |- *.
    destruct (add_kw init_store kw) as [s0|e] eqn:AK; [|discriminate OW]. cbn [bind copy_all] in OW |- *.
    destruct (add_kw_ops kw init_store s0 AK) as (ops & ES & AO & GM).
    unfold process_all_cached in OW. cbn [p_order p_store p_files] in OW.
    rewrite (load_cache_missing veq fs1 md1 _ _ ck1 cf1 s0 NC) in OW. cbv zeta in OW.
    destruct (FileModel.process_all fo ext ev base mods _) as [[p'|e]|] eqn:PA; [|discriminate OW|discriminate OW].
    assert (p' = w) by congruence. subst p'. assert (PK : pk = write_cache (ctor_opts a1) (p_store w)) by congruence. clear OW.
    unfold FileModel.process_all in PA. cbn [p_order] in PA. rewrite <- EP in PA.
    assert (N1 : NoDup (map fst l)) by (rewrite EP; apply (NoDup_map_inv basename); exact NB).
    match type of PA with process_files _ _ _ _ _ ?q _ = _ => assert (TX : forall f t, In (f, t) l -> dget (p_files q) f = Some (Some t)) end.
    { intros f t I1. cbn [p_files]. destruct (HL f t I1) as (raw & C & ->). rewrite L3 by (rewrite <- EP; apply (in_map fst) in I1; exact I1).
      rewrite C. reflexivity. }
    assert (RD : Forall (fun x : str * str => readable (snd x)) l).
    { pose proof (separate_readable _ _ SP) as F. rewrite <- ET in F. rewrite Forall_map in F. exact F. }
    destruct (files_reach fo ext ev base mods l _ w N1 TX RD PA) as (H & EW & FO). cbn [p_store] in EW. clear TX PA RD.
    destruct l as [|[f t] l]; [cbn [map] in EP; congruence|].
    assert (OP : one_pass [] None H).
    { apply (one_pass_files _ H [] None FO).
      - rewrite <- EP, map_map in NB. exact NB.
      - intros x _ [X|[]]. discriminate X. }
    assert (LR : local_removals [] None (ops ++ H)).
    { apply local_removals_adds; [exact AO|]. apply (removals_files _ (given_macro kw) H _ None FO); [rewrite ET; exact SP|exact GM]. }
    cbn [files_op] in FO. destruct FO as (h & H' & -> & _ & _).
    pose proof (cache_same_tables ops f (h ++ H') AO OP LR) as CS. destruct (cache_roundtrip ops f (h ++ H') AO OP LR) as (_ & _ & CR).
    cbv zeta in CS, CR. rewrite <- ES in CS, CR. rewrite <- EW in CS, CR.
    assert (EO : opts_eqb veq (ctor_opts a1) (ctor_opts a2) = true).
    { apply ctor_opts_eq; cbn [a1 a2 a_kw a_files a_replace].
      - exact NK.
      - exact NK.
      - intros k d I1. apply in_app_or in I1. destruct I1 as [I1|I1]; exact (ND k d I1).
      - intros d [X|X]; exact (NR d X).
      - assert (X : forall d : dict str entry, same_map (fun x y => veq x y = true) d d).
        { intros d k. destruct (dget d k); [apply VR|exact Logic.I]. }
        split; [intros k; destruct (dget kw k); [apply X|exact Logic.I]|]. split; [symmetry; exact BN|].
        intros _. destruct replace as [d|]; [|exact Logic.I]. intros k. destruct (dget d k); [reflexivity|exact Logic.I]. }
    assert (WO : wf_opts (ctor_opts a2)).
    { destruct (replace_dict replace paths2 []) as [RC NC2]. assert (NDC : NoDup (keys (o_replace (ctor_opts a2)))) by (apply NC2; constructor).
      split; [exact NK|]. split; [exact NDC|]. split; [exact ND|]. intros k d I1. apply (NoDup_dget _ _ _ NDC) in I1.
      cbn [ctor_opts o_replace a2 a_replace a_files] in I1. rewrite RC in I1. destruct (existsb _ paths2); [|discriminate]. apply NR. congruence. }
    assert (VC : check = true -> valid_cache veq fs2 paths2 (ctor_opts a2) c pk).
    { intros CH. split; [exact (TM CH)|]. rewrite PK. split; [|exists 2%Z; split; [reflexivity|lia]].
      exists (ctor_opts a1). split; [reflexivity|]. apply (opts_eqb_iff veq); [|exact WO|exact EO].
      apply (WD c pk); [exact UP|rewrite PK; reflexivity]. }
    unfold process_all_cached. cbn [p_order p_store p_files].
    rewrite (load_cache_accepts veq fs2 md2 paths2 (ctor_opts a2) cf2 s0 c pk (to_data (fdefs (p_store w))) check WO WD CA UP VC);
      [|rewrite PK; reflexivity|apply complete_to_data].
    cbv zeta. eexists. split; [reflexivity|]. cbn [p_store]. split; [exact CS|exact CR].
  Qed.
End Open.

(** ** The library *)
Lemma find_same {A} (f g : A -> bool) l : (forall x, f x = g x) -> find f l = find g l.
Proof. intros E. induction l as [|x l IH]; [reflexivity|]. cbn [find]. rewrite E, IH. reflexivity. Qed.
Section Library.
  Context (h h' : LibModel.headers) (HP : LibModel.h_prefix h = LibModel.h_prefix h')
    (HD : forall k n, LibModel.h_defs h k n = LibModel.h_defs h' k n) (HB : forall k n, LibModel.h_build h k n = LibModel.h_build h' k n).
  Lemma same_names n : LibModel.all_names h n = LibModel.all_names h' n.
  Proof. unfold LibModel.all_names. rewrite HP. reflexivity. Qed.
  Lemma same_defined k n : LibModel.is_defined h k n = LibModel.is_defined h' k n.
  Proof. unfold LibModel.is_defined. rewrite HD. reflexivity. Qed.
  Lemma same_build k n c : LibModel.build_one h k n c = LibModel.build_one h' k n c.
  Proof. unfold LibModel.build_one. destruct k; rewrite ?HD, ?HB; reflexivity. Qed.
  Lemma same_make k n c : LibModel.make_obj h k n c = LibModel.make_obj h' k n c.
  Proof.
    unfold LibModel.make_obj. rewrite same_names. cbv zeta. destruct (existsb _ _); [reflexivity|].
    rewrite (find_same (LibModel.acceptable h k) (LibModel.acceptable h' k)).
    - destruct (find _ _); [apply same_build|reflexivity].
    - intros x. unfold LibModel.acceptable. rewrite !same_defined. reflexivity.
  Qed.
  Lemma same_call k n c : LibModel.lib_call h k n c = LibModel.lib_call h' k n c.
  Proof. unfold LibModel.lib_call. rewrite same_make. reflexivity. Qed.
  Lemma same_search names ks : forall c, LibModel.search_kinds h names ks c = LibModel.search_kinds h' names ks c.
  Proof.
    induction ks as [|k ks IH]; intros c; [reflexivity|]. cbn [LibModel.search_kinds].
    rewrite (find_same (LibModel.is_defined h k) (LibModel.is_defined h' k)) by apply same_defined.
    destruct (find _ names) as [n|]; [|apply IH]. rewrite same_call. destruct (LibModel.lib_call h' k n c) as [[[]|e] c1]; try reflexivity. apply IH.
  Qed.
  Lemma same_access a c : LibModel.do_access h a c = LibModel.do_access h' a c.
  Proof.
    destruct a as [n|k n]; cbn [LibModel.do_access]; [|apply same_call]. unfold LibModel.lib_attr. rewrite same_names, same_search. reflexivity.
  Qed.
  Lemma same_accesses l : forall c, LibModel.accesses h l c = LibModel.accesses h' l c.
  Proof. unfold LibModel.accesses. induction l as [|a l IH]; intros c; [reflexivity|]. cbn [fold_left]. rewrite same_access. apply IH. Qed.
End Library.
Lemma same_library (s s' : store entry) : same_definitions s s' -> same_library_of s s'.
Proof.
  intros [D _]. split.
  - intros cf table win. unfold LinkModel.load. rewrite !D. reflexivity.
  - intros show prefix build l a.
    assert (HD : forall k n, LibModel.h_defs (ConstModel.library_of show prefix build s) k n = LibModel.h_defs (ConstModel.library_of show prefix build s') k n).
    { intros k n. cbn [ConstModel.library_of LibModel.h_defs]. rewrite D. reflexivity. }
    set (h := ConstModel.library_of show prefix build s) in *. set (h' := ConstModel.library_of show prefix build s') in *. cbv zeta.
    rewrite (same_accesses h h' eq_refl HD (fun _ _ => eq_refl)), (same_access h h' eq_refl HD (fun _ _ => eq_refl)). reflexivity.
Qed.

Section Opens.
  Context (fo : str -> list str -> option str) (ext : str -> bool) (ev : dict str pobj -> str -> res pobj) (base mods : list str)
          (veq : entry -> entry -> bool) (sub : str -> str -> str -> str).
  Lemma cached_opens contents1 find1 fs1 md1 headers1 enc1 cf1 (ck1 : bool) paths1 texts replace kw w pk
    contents2 find2 fs2 md2 headers2 enc2 cf2 c (check : bool) paths2 :
    NoDup (keys kw) -> (forall k d, In (k, d) kw -> NoDup (keys d)) -> (forall d, replace = Some d -> NoDup (keys d)) ->
    (forall e, veq e e = true) ->
    Forall2 (FilesSpec.resolves contents1 find1) headers1 paths1 -> Forall2 (has_text sub contents1 (match replace with Some d => d | None => [] end)) paths1 texts ->
    paths1 <> [] -> NoDup (map basename paths1) -> separate (given_macro kw) texts ->
    (forall c, ~ cache_at fs1 md1 cf1 c) ->
    open_headers fo ext ev base mods veq sub contents1 find1 fs1 md1 headers1 [] replace enc1 kw (Some cf1) ck1 = Some (Ok (w, Some pk)) ->
    Forall2 (FilesSpec.resolves contents2 find2) headers2 paths2 -> (forall f, In f paths2 -> contents2 f <> None) ->
    map basename paths2 = map basename paths1 ->
    wf_disk fs2 -> cache_at fs2 md2 cf2 c -> unpickle fs2 c = Some pk ->
    (check = true -> forall f, In f paths2 -> isfile fs2 f = true -> (mtime fs2 f <= mtime fs2 c)%Z) ->
    exists r, open_headers fo ext ev base mods veq sub contents2 find2 fs2 md2 headers2 [] replace enc2 kw (Some cf2) check = Some (Ok (r, None))
      /\ same_definitions (p_store r) (p_store w) /\ same_library_of (p_store r) (p_store w).
  Proof.
    intros H1 H2 H3 H4 H5 H6 H7 H8 H9 H10 H11 H12 H13 H14 H15 H16 H17 H18.
    destruct (cached_library fo ext ev base mods veq sub contents1 find1 fs1 md1 headers1 enc1 cf1 ck1 paths1 texts replace kw w pk
      contents2 find2 fs2 md2 headers2 enc2 cf2 c check paths2 H1 H2 H3 H4 H5 H6 H7 H8 H9 H10 H11 H12 H13 H14 H15 H16 H17 H18) as (r & E & S1).
    exists r. split; [exact E|]. split; [exact S1|apply same_library; exact S1].
  Qed.
End Opens.
