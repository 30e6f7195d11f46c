(** Proofs about whole files: the tables of the parser and the copy of the preprocessor. *)
From Coq Require Import Ascii String Bool Arith ZArith Lia List.
Import ListNotations.
From Verif Require Import PyBase PyBaseFacts PyStr PyStrFacts PyExpr TypeModel StoreModel StoreSpec StoreProofs.
From Verif Require Import MacroModel PpModel CondProofs DeclModel EvalModel FileModel FileSpec.

(** ** Typed tables *)
Section Typed.
  Context {A : Type} (get : entry -> option A) (mk : A -> entry) (GM : forall a, get (mk a) = Some a).
  Definition view (d : dict str entry) : dict str A :=
    flat_map (fun p => match get (snd p) with Some a => [(fst p, a)] | None => [] end) d.
  Definition typed (d : dict str entry) : Prop := forall n e, In (n, e) d -> get e <> None.
  Lemma typed_cons p d : typed (p :: d) -> (exists a, get (snd p) = Some a) /\ typed d.
  Proof.
    intros T. split.
    - destruct p as [n e]. specialize (T n e (or_introl eq_refl)). cbn [snd]. destruct (get e) as [a|]; [eauto|congruence].
    - intros n e I. apply (T n e). right. exact I.
  Qed.
  Lemma view_dset d n a : typed d -> view (dset d n (mk a)) = dset (view d) n a /\ typed (dset d n (mk a)).
  Proof.
    induction d as [|[k e] d IH]; intros T.
    - unfold view. cbn [dset flat_map snd fst]. rewrite GM. split; [reflexivity|]. intros n' e' [E|[]]. injection E as <- <-. congruence.
    - apply typed_cons in T. destruct T as [(b & B) T]. cbn [snd] in B. specialize (IH T). unfold view in *. cbn [dset flat_map snd fst].
      rewrite B. cbn [app dset]. destruct (eqb n k).
      + cbn [flat_map snd fst]. rewrite GM. split; [reflexivity|]. intros n' e' [E|I]; [injection E as <- <-; congruence|exact (T n' e' I)].
      + cbn [flat_map snd fst]. rewrite B. cbn [app]. destruct IH as [-> IT]. split; [reflexivity|].
        intros n' e' [E|I]; [injection E as <- <-; congruence|exact (IT n' e' I)].
  Qed.
  Lemma view_ddel d n : typed d -> view (ddel d n) = ddel (view d) n /\ typed (ddel d n).
  Proof.
    induction d as [|[k e] d IH]; intros T.
    - split; [reflexivity|exact T].
    - apply typed_cons in T. destruct T as [(b & B) T]. cbn [snd] in B. specialize (IH T). unfold view in *. cbn [ddel flat_map snd fst].
      rewrite B. cbn [app ddel]. destruct (eqb n k).
      + split; [reflexivity|exact T].
      + cbn [flat_map snd fst]. rewrite B. cbn [app]. destruct IH as [-> IT]. split; [reflexivity|].
        intros n' e' [E|I]; [injection E as <- <-; congruence|exact (IT n' e' I)].
  Qed.
  Lemma view_get d n : typed d -> dget (view d) n = match dget d n with Some e => get e | None => None end.
  Proof.
    induction d as [|[k e] d IH]; intros T; [reflexivity|].
    apply typed_cons in T. destruct T as [(b & B) T]. cbn [snd] in B. specialize (IH T). unfold view in *. cbn [dget flat_map snd fst].
    rewrite B. cbn [app dget]. destruct (eqb n k); [symmetry; exact B|exact IH].
  Qed.
  Lemma view_keys d : typed d -> keys (view d) = keys d.
  Proof.
    induction d as [|[k e] d IH]; intros T; [reflexivity|].
    apply typed_cons in T. destruct T as [(b & B) T]. cbn [snd] in B. specialize (IH T). unfold view, keys in *. cbn [flat_map snd fst map].
    rewrite B. cbn [app map fst]. rewrite IH. reflexivity.
  Qed.
End Typed.

Definition get_text (e : entry) : option str := match e with EText v => Some v | _ => None end.
Definition get_fn (e : entry) : option (str * list nat) := match e with EFnmacro t o => Some (t, o) | _ => None end.
Lemma texts_view s : macro_texts s = view get_text (defs s Macros).
Proof. unfold macro_texts, view. apply flat_map_ext. intros [n e]. cbn. destruct e; reflexivity. Qed.
Lemma fns_view s : fn_macros s = view get_fn (defs s Fnmacros).
Proof. unfold fn_macros, view. apply flat_map_ext. intros [n e]. cbn. destruct e; reflexivity. Qed.
Lemma tables_typed s : macro_tables s <-> typed get_text (defs s Macros) /\ typed get_fn (defs s Fnmacros) /\ NoDup (keys (defs s Macros)).
Proof.
  split; intros (A & B & C); split; try split; try exact C; intros n e I.
  - destruct (A n e I) as (v & ->). discriminate.
  - destruct (B n e I) as (v & o & ->). discriminate.
  - specialize (A n e I). destruct e; try (exfalso; apply A; reflexivity). eauto.
  - specialize (B n e I). destruct e; try (exfalso; apply B; reflexivity). eauto.
Qed.
Lemma texts_defined s n v : macro_tables s -> (dget (macro_texts s) n = Some v <-> defined s Macros n = Some (EText v)).
Proof.
  intros T. apply tables_typed in T. destruct T as (T & _). rewrite texts_view, (view_get get_text _ n T). unfold defined.
  destruct (dget (defs s Macros) n) as [e|] eqn:D; [|split; discriminate]. destruct e; cbn; split; intros E; congruence.
Qed.
Lemma texts_keys s : macro_tables s -> keys (macro_texts s) = keys (defs s Macros).
Proof. intros T. apply tables_typed in T. rewrite texts_view. apply view_keys. apply T. Qed.

(** ** What is stored *)
Lemma defs_add s k n (v : entry) k' : defs (add_def s k n v) k' = if eqb k' k then dset (defs s k) n v else defs s k'.
Proof. unfold add_def. cbn [defs]. apply upd_get. Qed.
Lemma defs_rem s k n k' : defs (fst (rem_def (V := entry) s k n)) k' = if eqb k' k then ddel (defs s k) n else defs s k'.
Proof.
  assert (D : forall d : dict str entry, dget d n = None -> ddel d n = d).
  { clear. intros d. induction d as [|[k0 v0] d IH]; [reflexivity|]. cbn [dget ddel]. destruct (eqb n k0); [intros E; discriminate E|]. intros E. rewrite (IH E). reflexivity. }
  unfold rem_def. destruct (dmem (defs s k) n) eqn:M.
  - destruct (dget (fdefs s) (base_name (cur s))) as [t|]; [destruct (dmem (t k) n)|]; cbn [fst defs]; apply upd_get.
  - cbn [fst]. destruct (eqb_spec k' k) as [->|_]; [|reflexivity]. symmetry. apply D. unfold dmem in M. destruct (dget (defs s k) n); [discriminate|reflexivity].
Qed.
Lemma cur_add s k n (v : entry) : cur (add_def s k n v) = cur s.
Proof. reflexivity. Qed.
Ltac other_kind := let E := fresh in intros E; discriminate E.

Section Sync.
  Context (ev : dict str pobj -> str -> res pobj).
  Notation record_macro := (record_macro ev).
  Notation record_define := (record_define ev).
  (** From [s] to [s'] only the tables of the preprocessor change. *)
  Definition only_macros (s s' : store entry) : Prop := same_declarations s s' /\ cur s' = cur s.
  Lemma only_refl s : only_macros s s.
  Proof. split; [intros k _ _ _; reflexivity|reflexivity]. Qed.
  Lemma only_trans a b c : only_macros a b -> only_macros b c -> only_macros a c.
  Proof. intros [A A'] [B B']. split; [|congruence]. intros k X Y Z. rewrite (B k X Y Z). apply A; assumption. Qed.
  Lemma only_add s k n v : k = Macros \/ k = Fnmacros \/ k = Values -> only_macros s (add_def s k n v).
  Proof.
    intros K. split; [|reflexivity]. intros k' A B C. rewrite defs_add. destruct (eqb_spec k' k) as [->|_]; [|reflexivity].
    destruct K as [->|[->| ->]]; contradiction.
  Qed.
  Lemma add_text s n v : macro_tables s ->
    macros_of (add_def s Macros n (EText v)) = {| macros := dset (macros (macros_of s)) n v; fnmacros := fnmacros (macros_of s) |}
    /\ macro_tables (add_def s Macros n (EText v)).
  Proof.
    intros T. apply tables_typed in T. destruct T as (T & F & N). destruct (view_dset get_text EText (fun a => eq_refl) _ n v T) as [E T'].
    unfold macros_of. cbn [macros fnmacros]. rewrite !texts_view, !fns_view, !defs_add.
    change (eqb Macros Macros) with true. change (eqb Fnmacros Macros) with false. cbv iota. rewrite E. split; [reflexivity|].
    apply tables_typed. rewrite !defs_add. change (eqb Macros Macros) with true. change (eqb Fnmacros Macros) with false. cbv iota.
    split; [exact T'|]. split; [exact F|]. apply NoDup_dset. exact N.
  Qed.
  Lemma add_fnmac s n t o : macro_tables s ->
    macros_of (add_def s Fnmacros n (EFnmacro t o)) = {| macros := macros (macros_of s); fnmacros := dset (fnmacros (macros_of s)) n (t, o) |}
    /\ macro_tables (add_def s Fnmacros n (EFnmacro t o)).
  Proof.
    intros T. apply tables_typed in T. destruct T as (T & F & N).
    destruct (view_dset get_fn (fun p => EFnmacro (fst p) (snd p)) (fun a => match a with (x, y) => eq_refl end) _ n (t, o) F) as [E T'].
    unfold macros_of. cbn [macros fnmacros]. rewrite !texts_view, !fns_view, !defs_add.
    change (eqb Fnmacros Fnmacros) with true. change (eqb Macros Fnmacros) with false. cbv iota. cbn [fst snd] in E. rewrite E. split; [reflexivity|].
    apply tables_typed. rewrite !defs_add. change (eqb Fnmacros Fnmacros) with true. change (eqb Macros Fnmacros) with false. cbv iota.
    split; [exact T|]. split; [exact T'|exact N].
  Qed.
  Lemma add_value s n x : macro_tables s -> macros_of (add_def s Values n x) = macros_of s /\ macro_tables (add_def s Values n x).
  Proof.
    intros T. unfold macros_of. rewrite !texts_view, !fns_view, !defs_add. split; [reflexivity|]. apply tables_typed. rewrite !defs_add.
    apply tables_typed in T. exact T.
  Qed.
  Lemma del_text s n : macro_tables s ->
    macros_of (fst (rem_def s Macros n)) = {| macros := ddel (macros (macros_of s)) n; fnmacros := fnmacros (macros_of s) |}
    /\ macro_tables (fst (rem_def s Macros n)) /\ only_macros s (fst (rem_def s Macros n)).
  Proof.
    intros T. apply tables_typed in T. destruct T as (T & F & N). destruct (view_ddel get_text _ n T) as [E T'].
    unfold macros_of. cbn [macros fnmacros]. rewrite !texts_view, !fns_view, !defs_rem.
    change (eqb Macros Macros) with true. change (eqb Fnmacros Macros) with false. cbv iota. rewrite E. split; [reflexivity|]. split.
    - apply tables_typed. rewrite !defs_rem. change (eqb Macros Macros) with true. change (eqb Fnmacros Macros) with false. cbv iota.
      split; [exact T'|]. split; [exact F|]. apply NoDup_ddel. exact N.
    - split; [|apply cur_rem]. intros k A _ _. rewrite defs_rem. destruct (eqb_spec k Macros); [contradiction|reflexivity].
  Qed.
  Lemma record_same s n args v : macro_tables s ->
    macros_of (record_macro s n args v) = process_macro_defn (macros_of s) n args v
    /\ macro_tables (record_macro s n args v) /\ only_macros s (record_macro s n args v).
  Proof.
    intros T. unfold FileModel.record_macro, process_macro_defn. change (fnmacros (macros_of s)) with (fn_macros s) at 1.
    destruct (dget (fn_macros s) v) as [[t o]|].
    - destruct (add_fnmac s n t o T) as [A B]. split; [exact A|]. split; [exact B|]. apply only_add. auto.
    - destruct args as [l|].
      + destruct (compile_fn_macro v l) as [t o]. destruct (add_fnmac s n t o T) as [A B]. split; [exact A|]. split; [exact B|]. apply only_add. auto.
      + destruct (add_text s n v T) as [A B]. set (s1 := add_def s Macros n (EText v)) in *. cbv zeta.
        destruct (add_value s1 n (EVal (eval_text ev s v)) B) as [A' B']. split; [rewrite A'; exact A|]. split; [exact B'|].
        apply (only_trans s s1); apply only_add; auto.
  Qed.
  Lemma define_same s n rest : macro_tables s ->
    macros_of (record_define s n rest) = define (macros_of s) n rest
    /\ macro_tables (record_define s n rest) /\ only_macros s (record_define s n rest).
  Proof.
    intros T. unfold FileModel.record_define, define. destruct (pp_define _) as [[[n' args] v]|].
    - apply record_same. exact T.
    - split; [reflexivity|]. split; [exact T|apply only_refl].
  Qed.

  (** The values of macros are related to their texts. *)
  Context (Q : str -> pobj -> Prop) (HQ : forall s v, Q v (eval_text ev s v)).
  Notation valued := (valued Q).
  Lemma valued_define s n rest : valued s -> valued (record_define s n rest).
  Proof.
    intros V. unfold FileModel.record_define. destruct (pp_define _) as [[[n' args] v]|]; [|exact V].
    unfold FileModel.record_macro. destruct (dget (fn_macros s) v) as [[t o]|]; [|destruct args as [l|]; [destruct (compile_fn_macro v l) as [t o]|]].
    - intros w x D. rewrite !defined_add in *. change (eqb Macros Fnmacros) with false in D. change (eqb Values Fnmacros) with false. exact (V w x D).
    - intros w x D. rewrite !defined_add in *. change (eqb Macros Fnmacros) with false in D. change (eqb Values Fnmacros) with false. exact (V w x D).
    - cbv zeta. intros w x D. rewrite !defined_add in *. change (eqb Macros Values) with false in D. change (eqb Macros Macros) with true in D.
      change (eqb Values Values) with true. change (eqb Values Macros) with false. cbn [andb] in *.
      destruct (eqb w n'); [injection D as <-; eexists; split; [reflexivity|apply HQ]|exact (V w x D)].
  Qed.
  Lemma valued_rem s n : macro_tables s -> valued s -> valued (fst (rem_def s Macros n)).
  Proof.
    intros (_ & _ & N) V w x D. unfold defined in *. rewrite defs_rem in *. change (eqb Macros Macros) with true in D. change (eqb Values Macros) with false. cbv iota in *.
    destruct (eqb_spec w n) as [->|NE]; [rewrite dget_ddel_same in D by exact N; discriminate|]. rewrite dget_ddel_other in D by exact NE. exact (V w x D).
  Qed.

  Context (fo : str -> list str -> option str) (ext : str -> bool).
  Lemma sync_step i p s l p' : tab p = macros_of s -> macro_tables s -> line_step fo ext i p l = Ok p' ->
    let s' := line_effect fo ev p s l in
    tab p' = macros_of s' /\ macro_tables s' /\ only_macros s s' /\ (valued s -> valued s').
  Proof.
    intros T M ST. cbv zeta.
    assert (SAME : tab p' = tab p -> line_effect fo ev p s l = s ->
      tab p' = macros_of (line_effect fo ev p s l) /\ macro_tables (line_effect fo ev p s l) /\ only_macros s (line_effect fo ev p s l)
      /\ (valued s -> valued (line_effect fo ev p s l))).
    { intros A B. rewrite B, A. split; [exact T|]. split; [exact M|]. split; [apply only_refl|auto]. }
    unfold PpModel.line_step in ST. unfold line_effect in *. destruct (directive l) as [[d0 rest0]|].
    2:{ apply SAME; [|reflexivity]. destruct (active p); [destruct (expand_macros fo (tab p) l)|]; cbn [bind] in ST; congruence || (injection ST as <-; reflexivity). }
    destruct (eqb_spec d0 $"define") as [->|ND]; [|destruct (eqb_spec d0 $"undef") as [->|NU]].
    - change (eqb $"define" $"ifdef") with false in ST. change (eqb $"define" $"ifndef") with false in ST.
      change (eqb $"define" $"if" || eqb $"define" $"elif") with false in ST. change (eqb $"define" $"define" || eqb $"define" $"undef") with true in ST.
      cbv iota in ST. destruct (macro_name rest0) as [[n rest']|]; [|discriminate].
      destruct (if all_true (ift p) then expand_macros fo (tab p) rest' else Ok rest') as [r|e]; [|discriminate]. cbn [bind] in ST.
      destruct (active p); [|apply SAME; [injection ST as <-; reflexivity|reflexivity]].
      change (eqb $"define" $"define") with true in ST. cbv iota in ST. injection ST as <-. cbn [emit set_tab tab].
      destruct (define_same s n r M) as (A & B & C). rewrite A, T. split; [reflexivity|]. split; [exact B|]. split; [exact C|apply valued_define].
    - change (eqb $"undef" $"ifdef") with false in ST. change (eqb $"undef" $"ifndef") with false in ST.
      change (eqb $"undef" $"if" || eqb $"undef" $"elif") with false in ST. change (eqb $"undef" $"define" || eqb $"undef" $"undef") with true in ST.
      cbv iota in ST. destruct (macro_name rest0) as [[n rest']|]; [|discriminate].
      destruct (if all_true (ift p) then expand_macros fo (tab p) rest' else Ok rest') as [r|e]; [|discriminate]. cbn [bind] in ST.
      destruct (active p); [|apply SAME; [injection ST as <-; reflexivity|reflexivity]].
      change (eqb $"undef" $"define") with false in ST. cbv iota in ST. injection ST as <-. cbn [emit set_tab tab].
      destruct (del_text s (strip n) M) as (A & B & C). rewrite A, T. split; [reflexivity|]. split; [exact B|]. split; [exact C|apply valued_rem; exact M].
    - assert (E : (if active p then s else s) = s) by (destruct (active p); reflexivity). apply SAME; [|exact E]. clear SAME E T M.
      assert (D : exists d rest, (if eqb d0 $"ifdef" then ($"if", $"defined " ++ rest0) else if eqb d0 $"ifndef" then ($"if", $"!defined " ++ rest0) else (d0, rest0)) = (d, rest)
         /\ d <> $"define" /\ d <> $"undef").
      { destruct (eqb d0 $"ifdef"); [eexists _, _; split; [reflexivity|split; discriminate]|].
        destruct (eqb d0 $"ifndef"); [eexists _, _; split; [reflexivity|split; discriminate]|]. eexists _, _. split; [reflexivity|]. auto. }
      destruct D as (d & rest & D & D1 & D2). rewrite D in ST. clear D.
      destruct (eqb d $"if" || eqb d $"elif").
      { destruct (condition fo (tab p) rest); [|discriminate]. cbn [bind] in ST. destruct (eqb d $"elif").
        - destruct (ifh p); [discriminate|]. destruct (ift p); [discriminate|]. injection ST as <-. reflexivity.
        - injection ST as <-. reflexivity. }
      rewrite (proj2 (eqb_false d $"define") D1), (proj2 (eqb_false d $"undef") D2) in ST. cbn [orb] in ST.
      destruct (if all_true (ift p) then expand_macros fo (tab p) rest else Ok rest) as [r|]; [|discriminate]. cbn [bind] in ST.
      destruct (eqb d $"else"); [destruct (ifh p); [discriminate|]; destruct (ift p); [discriminate|]; injection ST as <-; reflexivity|].
      destruct (eqb d $"endif"); [destruct (ift p); [discriminate|]; destruct (ifh p); [discriminate|]; injection ST as <-; reflexivity|].
      destruct (eqb d $"pragma"); [|injection ST as <-; reflexivity].
      destruct (active p); [|injection ST as <-; reflexivity]. destruct (pack_opts r); [|injection ST as <-; reflexivity].
      destruct (pack (pstack p) l0); [|discriminate]. cbn [bind] in ST. injection ST as <-. reflexivity.
  Qed.
  Lemma file_run ls : forall i p s p', tab p = macros_of s -> macro_tables s -> run_lines fo ext i p ls = Ok p' ->
    exists s', file_lines fo ext ev i p s ls = Ok (p', s') /\ tab p' = macros_of s' /\ macro_tables s' /\ only_macros s s' /\ (valued s -> valued s').
  Proof.
    induction ls as [|l ls IH]; intros i p s p' T M R.
    - injection R as <-. exists s. split; [reflexivity|]. split; [exact T|]. split; [exact M|]. split; [apply only_refl|auto].
    - cbn [PpModel.run_lines file_lines] in *. destruct (line_step fo ext i p l) as [p1|] eqn:ST; [|discriminate]. cbn [bind] in *.
      destruct (sync_step i p s l p1 T M ST) as (T1 & M1 & O1 & V1).
      destruct (IH (S i) p1 (line_effect fo ev p s l) p' T1 M1 R) as (s' & E & T' & M' & O' & V').
      exists s'. split; [exact E|]. split; [exact T'|]. split; [exact M'|]. split; [exact (only_trans _ _ _ O1 O')|auto].
  Qed.
  Lemma file_fails ls : forall i p s e, run_lines fo ext i p ls = Err e -> file_lines fo ext ev i p s ls = Err e.
  Proof.
    induction ls as [|l ls IH]; intros i p s e R; [discriminate R|]. cbn [PpModel.run_lines file_lines] in *.
    destruct (line_step fo ext i p l) as [p1|e']; cbn [bind] in *; [apply IH; exact R|injection R as ->; reflexivity].
  Qed.
End Sync.
