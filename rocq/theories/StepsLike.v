(** Reading a file does the same to tables that show the same definitions. *)
From Coq Require Import Ascii String Bool Arith ZArith Lia List.
Import ListNotations.
From Verif Require Import PyBase PyBaseFacts PyStr PyExpr MacroModel TypeModel StoreModel StoreSpec StoreProofs DeclModel EvalModel.
From Verif Require Import GramModel RunSpec GramRun PpModel FileModel CachedSpec CachedOrder.

(** The same definitions, while the same file is read. *)
Definition like (s s' : store entry) : Prop :=
  wfs s /\ wfs s' /\ (forall k, defs s k = defs s' k) /\ (forall f k n, defined_in s f k n = defined_in s' f k n) /\ cur s = cur s'.
Definition alike {A} (x x' : store entry * A) : Prop := like (fst x) (fst x') /\ snd x = snd x'.

Lemma like_cur s s' c : wfs s -> wfs s' -> same_definitions s s' -> like (set_cur s c) (set_cur s' c).
Proof. intros W W' [D F]. split; [exact W|]. split; [exact W'|]. split; [exact D|]. split; [exact F|reflexivity]. Qed.
Lemma like_same s s' : like s s' -> same_definitions s s'.
Proof. intros (_ & _ & D & F & _). split; assumption. Qed.
Lemma like_defs s s' k : like s s' -> defs s k = defs s' k.
Proof. intros (_ & _ & D & _). apply D. Qed.
Lemma like_add s s' k n v : like s s' -> like (add_def s k n v) (add_def s' k n v).
Proof.
  intros (W & W' & D & F & C). split; [apply wfs_add; exact W|]. split; [apply wfs_add; exact W'|]. split; [|split; [|exact C]].
  - intros k'. cbn [add_def defs]. rewrite !upd_get, !D. reflexivity.
  - intros f k' n'. rewrite !defined_in_add, F, C. reflexivity.
Qed.
Lemma rem_defs (s : store entry) k n k' : defs (fst (rem_def s k n)) k' = if eqb k' k then ddel (defs s k) n else defs s k'.
Proof.
  unfold rem_def. destruct (dmem (defs s k) n) eqn:M.
  - destruct (dget (fdefs s) _) as [t|]; [destruct (dmem (t k) n)|]; cbn [fst defs]; apply upd_get.
  - cbn [fst]. destruct (eqb_spec k' k) as [->|_]; [|reflexivity]. symmetry. apply CachedOrder.ddel_absent. intros I1.
    apply dget_keys in I1. destruct I1 as [v E]. unfold dmem in M. rewrite E in M. discriminate M.
Qed.
Lemma rem_cur (s : store entry) k n : cur (fst (rem_def s k n)) = cur s.
Proof. unfold rem_def. destruct (dmem _ _); [|reflexivity]. destruct (dget _ _) as [t|]; [destruct (dmem _ _)|]; reflexivity. Qed.
Lemma like_rem s s' k n : like s s' -> like (fst (rem_def s k n)) (fst (rem_def s' k n)).
Proof.
  intros (W & W' & D & F & C). split; [apply wfs_rem; exact W|]. split; [apply wfs_rem; exact W'|]. split; [|split].
  - intros k'. rewrite !rem_defs, !D. reflexivity.
  - intros f k' n'. rewrite !defined_in_rem by assumption. rewrite F, C, D. reflexivity.
  - rewrite !rem_cur. exact C.
Qed.
Lemma like_values s s' : like s s' -> values s = values s'.
Proof. intros L. unfold values. rewrite (like_defs s s' _ L). reflexivity. Qed.

Section Decls.
  Context (ev : dict str pobj -> str -> res pobj).
  Lemma like_eval s s' : like s s' -> eval_text ev s = eval_text ev s'.
  Proof. intros L. unfold eval_text. rewrite (like_values s s' L). reflexivity. Qed.
  Lemma like_init s s' i : like s s' -> eval_init ev s i = eval_init ev s' i.
  Proof. intros L. unfold eval_init. rewrite (like_eval s s' L), (like_values s s' L). reflexivity. Qed.
  Lemma enum_loop_like l : forall s s' i en, like s s' -> alike (let r := enum_loop ev s i en l in (fst (fst r), (snd (fst r), snd r)))
    (let r := enum_loop ev s' i en l in (fst (fst r), (snd (fst r), snd r))).
  Proof.
    induction l as [|[n v] l IH]; intros s s' i en L; [split; [exact L|reflexivity]|]. cbn [enum_loop]. cbv zeta. rewrite (like_eval s s' L).
    destruct (plus_one _) as [i2|e]; [apply IH; apply like_add; exact L|]. split; [apply like_add; exact L|reflexivity].
  Qed.
  Lemma enum_like s s' m l : like s s' -> alike (process_enum ev s m l) (process_enum ev s' m l).
  Proof.
    intros L. unfold process_enum. rewrite (like_defs s s' Enums L). destruct (match m with Some n => Ok n | None => _ end) as [n|e]; [|split; [exact L|reflexivity]].
    destruct (dmem _ _); [split; [exact L|reflexivity]|]. pose proof (enum_loop_like l s s' (ONum (VInt 0)) [] L) as [Q E].
    destruct (enum_loop ev s _ [] l) as [[s1 en] o]. destruct (enum_loop ev s' _ [] l) as [[s1' en'] o']. cbn [fst snd] in Q, E.
    assert (en' = en) as -> by congruence. assert (o' = o) as -> by congruence. destruct o as [e|]; [split; [exact Q|reflexivity]|].
    split; [|reflexivity]. cbn [fst]. apply like_add. apply like_add. exact Q.
  Qed.
  Lemma members_like s s' l : like s s' -> all_members ev s l = all_members ev s' l.
  Proof.
    intros L. induction l as [|x l IH]; [reflexivity|]. cbn [all_members]. rewrite IH. unfold line_members. rewrite (like_eval s s' L). reflexivity.
  Qed.
  Lemma struct_like s s' c m l p : like s s' -> alike (process_struct ev s c m l p) (process_struct ev s' c m l p).
  Proof.
    intros L. unfold process_struct. cbv zeta. rewrite (like_defs s s' (comp_kind c) L).
    destruct (match m with Some n => Ok n | None => _ end) as [n|e]; [|split; [exact L|reflexivity]].
    destruct (_ || _); [|split; [exact L|reflexivity]]. rewrite (members_like s s' l L). destruct (all_members ev s' l) as [ms|e]; [|split; [exact L|reflexivity]].
    split; [|reflexivity]. cbn [fst]. apply like_add. apply like_add. exact L.
  Qed.
  Lemma declare_like b v l : forall s s', like s s' -> like (declare ev s b v l) (declare ev s' b v l).
  Proof.
    induction l as [|d l IH]; intros s s' L; [exact L|]. cbn [declare]. rewrite (like_eval s s' L).
    destruct (process_type _ b d) as [[[n|] t]|e]; [|exact L|exact L]. apply IH.
    destruct (ends_in_tuple t); [apply like_add; exact L|]. apply like_add. apply like_add. exact L.
  Qed.
  Lemma function_like s s' b d : like s s' -> like (process_function ev s b d) (process_function ev s' b d).
  Proof.
    intros L. unfold process_function. rewrite (like_eval s s' L). destruct (process_type _ b d) as [[[n|] t]|e]; [|exact L|exact L].
    destruct (ends_in_tuple t); [apply like_add; exact L|exact L].
  Qed.
  Lemma typedef_like b l : forall s s', like s s' -> alike (process_typedef ev s b l) (process_typedef ev s' b l).
  Proof.
    induction l as [|d l IH]; intros s s' L; [split; [exact L|reflexivity]|]. cbn [process_typedef]. rewrite (like_eval s s' L).
    destruct (process_type _ b d) as [[[n|] t]|e]; [|split; [exact L|reflexivity]..]. apply IH. apply like_add. exact L.
  Qed.

  Ltac pair H s1 o s2 := destruct H as [H ?E]; match type of H with like (fst ?x) (fst ?y) => destruct x as [s1 o], y as [s2 ?o]; cbn [fst snd] in *; subst end.
  Lemma elab_like : (forall d s s', like s s' -> alike (elab_decl ev s d) (elab_decl ev s' d))
    /\ (forall t s s', like s s' -> alike (elab_spec ev s t) (elab_spec ev s' t)).
  Proof.
    apply gtree_ind with (P := fun d => forall s s', like s s' -> alike (elab_decl ev s d) (elab_decl ev s' d))
      (Q := fun t => forall s s', like s s' -> alike (elab_spec ev s t) (elab_spec ev s' t)).
    - intros fq cv ps core args ar IC IA s s' L. rewrite !elab_decl_node.
      assert (C : alike (elab_core ev s core) (elab_core ev s' core)).
      { destruct core as [r n|r|c]; [split; [exact L|reflexivity]..|]. specialize (IC c eq_refl s s' L). cbn [elab_core].
        pair IC s1 o s1'. split; [exact IC|reflexivity]. }
      pair C s1 o s1'. destruct o0 as [c|]; [|split; [exact C|reflexivity]]. destruct args as [l|]; [|split; [exact C|reflexivity]]. specialize (IA l eq_refl).
      assert (A : alike (elab_args ev s1 l) (elab_args ev s1' l)).
      { clear - IA C. revert s1 s1' C. induction IA as [|[t d v] l [It Id] IA IH]; intros s1 s1' C; [split; [exact C|reflexivity]|].
        cbn [elab_args]. specialize (It s1 s1' C). pair It s2 o s2'. destruct o0 as [b|]; [|split; [exact It|reflexivity]].
        specialize (Id s2 s2' It). pair Id s3 o s3'. destruct o0 as [a|]; [|split; [exact Id|reflexivity]].
        specialize (IH s3 s3' Id). fold (elab_args ev). pair IH s4 o s4'. split; [exact IH|reflexivity]. }
      pair A s2 o s2'. split; [exact A|reflexivity].
    - intros q n IH s s' L. rewrite !elab_spec_eq.
      assert (N : alike (elab_name ev s n) (elab_name ev s' n)).
      { destruct n as [w|c m l p|m l]; [split; [exact L|reflexivity]| |apply enum_like; exact L]. specialize (IH c m l p eq_refl).
        assert (LL : alike (elab_lines ev s l) (elab_lines ev s' l)).
        { clear - IH L. revert s s' L. induction IH as [|[t ds i b|] l H IH IHl]; intros s s' L; [split; [exact L|reflexivity]| |].
          - destruct H as [Ht Hd]. cbn [elab_lines]. specialize (Ht s s' L). pair Ht s2 o s2'. destruct o0 as [x|]; [|split; [exact Ht|reflexivity]].
            assert (D : alike (elab_decls ev s2 ds) (elab_decls ev s2' ds)).
            { clear - Hd Ht. revert s2 s2' Ht. induction Hd as [|d ds Hd _ IHd]; intros s2 s2' Ht; [split; [exact Ht|reflexivity]|].
              cbn [GramModel.elab_decls]. specialize (Hd s2 s2' Ht). pair Hd s3 o s3'. destruct o0 as [a|]; [|split; [exact Hd|reflexivity]].
              specialize (IHd s3 s3' Hd). pair IHd s4 o s4'. split; [exact IHd|reflexivity]. }
            pair D s3 o s3'. destruct o0 as [ds'|]; [|split; [exact D|reflexivity]]. specialize (IHl s3 s3' D). fold (elab_lines ev).
            pair IHl s4 o s4'. split; [exact IHl|reflexivity].
          - cbn [elab_lines]. apply IHl. exact L. }
        cbn [elab_name]. pair LL s1 o s1'. destruct o0 as [ls|]; [|split; [exact LL|reflexivity]]. apply struct_like. exact LL. }
      pair N s1 o s1'. split; [exact N|reflexivity].
  Qed.
  Lemma elab_decls_like l : forall s s', like s s' -> alike (elab_decls ev s l) (elab_decls ev s' l).
  Proof.
    induction l as [|d l IH]; intros s s' L; [split; [exact L|reflexivity]|]. cbn [GramModel.elab_decls]. pose proof (proj1 elab_like d s s' L) as H.
    pair H s1 o s1'. destruct o0 as [a|]; [|split; [exact H|reflexivity]]. specialize (IH s1 s1' H). pair IH s2 o s2'. split; [exact IH|reflexivity].
  Qed.
  Lemma run_top_like g s s' : like s s' -> alike (run_top ev s g) (run_top ev s' g).
  Proof.
    intros L. rewrite !run_top_eq. assert (T : alike (elab_top ev s g) (elab_top ev s' g)).
    { unfold elab_top. pose proof (proj2 elab_like (spec_part g) s s' L) as H. pair H s1 o s1'. destruct o0 as [b|]; [|split; [exact H|reflexivity]].
      pose proof (elab_decls_like (decls_part g) s1 s1' H) as D. pair D s2 o s2'. destruct o0 as [l|]; split; [exact D|reflexivity|exact D|reflexivity]. }
    pair T s1 o s1'. destruct o0 as [[b l]|]; [|split; [exact T|reflexivity]]. destruct g as [t x|t x i|t x]; cbn [act_top].
    - apply typedef_like. exact T.
    - split; [|reflexivity]. cbn [fst]. unfold process_variable. rewrite (like_init s1 s1' i T). apply declare_like. exact T.
    - split; [|reflexivity]. cbn [fst]. destruct l as [|d [|? ?]]; [exact T|apply function_like; exact T|exact T].
  Qed.
  Lemma run_tops_like l : forall s s', like s s' -> alike (run_tops ev s l) (run_tops ev s' l).
  Proof.
    induction l as [|g l IH]; intros s s' L; [split; [exact L|reflexivity]|]. cbn [run_tops]. pose proof (run_top_like g s s' L) as H.
    pair H s1 o s1'. destruct o0 as [e|]; [split; [exact H|reflexivity]|]. apply IH. exact H.
  Qed.
End Decls.

Section Files.
  Context (fo : str -> list str -> option str) (ext : str -> bool) (ev : dict str pobj -> str -> res pobj) (base mods : list str).
  Lemma like_macros s s' : like s s' -> macros_of s = macros_of s'.
  Proof. intros L. unfold macros_of, macro_texts, fn_macros. rewrite !(like_defs s s' _ L). reflexivity. Qed.
  Lemma record_like s s' n args v : like s s' -> like (record_macro ev s n args v) (record_macro ev s' n args v).
  Proof.
    intros L. unfold record_macro, fn_macros. rewrite (like_defs s s' Fnmacros L), (like_eval ev s s' L).
    destruct (dget _ v) as [[t o]|]; [apply like_add; exact L|]. destruct args as [a|]; [destruct (compile_fn_macro v a) as [t o]; apply like_add; exact L|].
    cbv zeta. apply like_add. apply like_add. exact L.
  Qed.
  Lemma effect_like p s s' l : like s s' -> like (line_effect fo ev p s l) (line_effect fo ev p s' l).
  Proof.
    intros L. unfold line_effect. destruct (directive l) as [[d r]|]; [|exact L]. destruct (active p); [|exact L]. destruct (eqb d $"define").
    - destruct (macro_name r) as [[n r']|]; [|exact L]. destruct (if PpModel.all_true (ift p) then _ else _) as [y|e]; [|exact L]. unfold record_define.
      destruct (pp_define _) as [[[x a] v]|]; [|exact L]. apply record_like. exact L.
    - destruct (eqb d $"undef"); [|exact L]. destruct (macro_name r) as [[n r']|]; [|exact L]. apply like_rem. exact L.
  Qed.
  Lemma lines_like ls : forall i p s s', like s s' ->
    match file_lines fo ext ev i p s ls, file_lines fo ext ev i p s' ls with
    | Ok r, Ok r' => fst r = fst r' /\ like (snd r) (snd r')
    | Err e, Err e' => e = e'
    | _, _ => False
    end.
  Proof.
    induction ls as [|l ls IH]; intros i p s s' L; cbn [file_lines]; [split; [reflexivity|exact L]|].
    destruct (line_step fo ext i p l) as [p'|e]; cbn [bind]; [|reflexivity]. apply IH. apply effect_like. exact L.
  Qed.
  (** The two parsers end a file with the same text, or the same exception. *)
  Definition both {A} (R : A -> A -> Prop) (x x' : option (res A)) : Prop :=
    match x, x' with
    | Some (Ok a), Some (Ok a') => R a a'
    | Some (Err e), Some (Err e') => e = e'
    | None, None => True
    | _, _ => False
    end.
  Lemma file_like s s' path text : wfs s -> wfs s' -> same_definitions s s' ->
    both (fun a a' => like (fst a) (fst a') /\ snd a = snd a') (process_file fo ext ev base mods s path text) (process_file fo ext ev base mods s' path text).
  Proof.
    intros W W' S1. pose proof (like_cur s s' (Some path) W W' S1) as L. unfold process_file, preprocess_file. cbv zeta. rewrite (like_macros _ _ L).
    pose proof (lines_like (split_on nl (join_lines (remove_comments text))) 0 (start (macros_of (set_cur s' (Some path)))) _ _ L) as Q.
    destruct (file_lines _ _ _ _ _ (set_cur s (Some path)) _) as [[p1 s1]|e], (file_lines _ _ _ _ _ (set_cur s' (Some path)) _) as [[p1' s1']|e']; cbn [bind fst snd] in Q |- *; try contradiction; [|exact Q].
    destruct Q as [<- Q]. unfold parse_file. destruct (parse_defs base mods _ _) as [ds|]; [|exact Logic.I].
    pose proof (like_cur s1 s1' (Some path) (proj1 Q) (proj1 (proj2 Q)) (like_same _ _ Q)) as L2. destruct (run_tops_like ev ds _ _ L2) as [R E].
    destruct (run_tops ev (set_cur s1 (Some path)) ds) as [s2 o], (run_tops ev (set_cur s1' (Some path)) ds) as [s2' o']. cbn [fst snd] in R, E. subst o'.
    destruct o as [e|]; [reflexivity|]. cbn [both fst snd]. split; [exact R|reflexivity].
  Qed.
  Lemma files_like l : forall p p', wfs (p_store p) -> wfs (p_store p') -> same_definitions (p_store p) (p_store p') ->
    (forall f, In f l -> dget (p_files p) f = dget (p_files p') f) ->
    both (fun a a' => wfs (p_store a) /\ wfs (p_store a') /\ same_definitions (p_store a) (p_store a'))
      (process_files fo ext ev base mods p l) (process_files fo ext ev base mods p' l).
  Proof.
    induction l as [|f l IH]; intros p p' W W' S1 FE; cbn [process_files]; [cbn [both]; auto|]. rewrite (FE f (or_introl eq_refl)).
    destruct (dget (p_files p') f) as [[t|]|]; [|reflexivity|reflexivity]. pose proof (file_like (p_store p) (p_store p') f t W W' S1) as Q.
    destruct (process_file _ _ _ _ _ (p_store p) f t) as [[[s1 t1]|e]|], (process_file _ _ _ _ _ (p_store p') f t) as [[[s1' t1']|e']|]; cbn [both fst snd] in Q; try contradiction; [|exact Q|exact Logic.I].
    destruct Q as [L <-]. apply IH; cbn [p_store p_files]; [apply L|apply L|apply like_same; exact L|].
    intros g I1. rewrite !dget_dset. destruct (eqb g f); [reflexivity|]. apply FE. right. exact I1.
  Qed.
  Lemma files_app a b : forall p, process_files fo ext ev base mods p (a ++ b) =
    match process_files fo ext ev base mods p a with Some (Ok p1) => process_files fo ext ev base mods p1 b | x => x end.
  Proof.
    induction a as [|f a IH]; intros p; [reflexivity|]. cbn [app process_files]. destruct (dget (p_files p) f) as [[t|]|]; [|reflexivity|reflexivity].
    destruct (process_file _ _ _ _ _ (p_store p) f t) as [[[s1 t1]|e]|]; [|reflexivity|reflexivity]. apply IH.
  Qed.
  Lemma files_kept l : forall p p', process_files fo ext ev base mods p l = Some (Ok p') -> forall f, ~ In f l -> dget (p_files p') f = dget (p_files p) f.
  Proof.
    induction l as [|g l IH]; intros p p' E f N; cbn [process_files] in E; [assert (p' = p) as -> by congruence; reflexivity|].
    destruct (dget (p_files p) g) as [[t|]|]; [|discriminate E|discriminate E]. destruct (process_file _ _ _ _ _ (p_store p) g t) as [[[s1 t1]|e]|]; [|discriminate E|discriminate E].
    rewrite (IH _ _ E f) by (intros I1; apply N; right; exact I1). cbn [p_files]. apply dget_dset_other. intros ->. apply N. left. reflexivity.
  Qed.
End Files.
