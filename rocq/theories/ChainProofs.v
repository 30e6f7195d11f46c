(** Proofs for C88: several headers with macros and packing, and the calls of a library. *)
From Coq Require Import Ascii String Bool Arith ZArith Lia List.
Import ListNotations.
From Verif Require Import PyBase PyBaseFacts PyStr PyStrFacts PyExpr TypeModel InitModel StoreModel StoreSpec StoreProofs.
From Verif Require Import MacroModel MacroSpec PpModel PpSpec TextSpec TextProofs DeclModel DeclSpec DeclStore DeclVars GramModel GramSpec RunSpec GramRun.
From Verif Require Import FileModel FileSpec FileProofs FileTables FileWhole FilesSpec FilesProofs PackedSpec PackedProofs PackedWhole ChainSpec.
From Verif Require Import CtModel LinkModel LinkSpec LinkCall LinkTags.

(** ** Values stay values *)
Section Typed.
  Context (fo : str -> list str -> option str) (ext : str -> bool) (ev : dict str pobj -> str -> res pobj) (base mods : list str).
  Lemma macro_typed (s : store entry) n args v : typed_values s -> typed_values (record_macro ev s n args v).
  Proof.
    intros T. unfold record_macro. destruct (dget (fn_macros s) v) as [[t o]|]; [apply typed_add_other; [discriminate|exact T]|].
    destruct args as [a|]; [|apply typed_add; apply typed_add_other; [discriminate|exact T]].
    destruct (compile_fn_macro v a) as [t o]. apply typed_add_other; [discriminate|exact T].
  Qed.
  Lemma effect_typed p (s : store entry) l : typed_values s -> typed_values (line_effect fo ev p s l).
  Proof.
    intros T. unfold line_effect. destruct (directive l) as [[d r]|]; [|exact T]. destruct (active p); [|exact T].
    destruct (eqb d $"define").
    - destruct (macro_name r) as [[n r']|]; [|exact T].
      destruct (if PpModel.all_true (ift p) then expand_macros fo (tab p) r' else Ok r') as [x|e]; [|exact T].
      unfold record_define. destruct (pp_define _) as [[[m args] v]|]; [|exact T]. apply macro_typed. exact T.
    - destruct (eqb d $"undef"); [|exact T]. destruct (macro_name r) as [[n r']|]; [|exact T].
      intros m e I1. apply (T m e). revert I1. unfold rem_def. destruct (dmem _ _); [|exact (fun x => x)].
      destruct (dget _ _) as [t|]; [destruct (dmem _ _)|]; exact (fun x => x).
  Qed.
  Lemma lines_typed ls : forall i p (s : store entry) r, typed_values s -> file_lines fo ext ev i p s ls = Ok r -> typed_values (snd r).
  Proof.
    induction ls as [|l ls IH]; intros i p s r T E; cbn [file_lines] in E; [injection E as <-; exact T|].
    destruct (line_step fo ext i p l) as [p'|e]; [|discriminate E]. cbn [bind] in E. apply (IH _ _ _ _ (effect_typed p s l T) E).
  Qed.
  Lemma preprocess_typed s path text l s1 text' : typed_values s -> preprocess_file fo ext ev s path text = Ok (l, s1, text') -> typed_values s1.
  Proof.
    intros T E. unfold preprocess_file in E. cbv zeta in E. destruct (file_lines _ _ _ _ _ _ _) as [r|e] eqn:F; [|discriminate E].
    cbn [bind] in E. assert (s1 = snd r) as -> by congruence. apply (lines_typed _ _ _ (set_cur s (Some path)) _ T F).
  Qed.
End Typed.

(** ** What stays recorded behind a header *)
Section Chain.
  Context (ev : dict str pobj -> str -> res pobj).
  Notation later := (flat_map u_decls).
  Lemma same_defined (s s1 : store entry) k n : same_declarations s s1 -> k <> Macros -> k <> Fnmacros -> k <> Values -> defined s1 k n = defined s k n.
  Proof. intros S1 A B C. unfold defined. rewrite (S1 k A B C). reflexivity. Qed.
  Lemma taken_keep (P : store entry -> Prop) us : (forall s s1, same_declarations s s1 -> P s -> P s1) ->
    (forall s f, In f us -> P s -> P (fst (run_tops ev s (u_decls f)))) ->
    forall s s', taken ev s us s' -> P s -> P s'.
  Proof.
    intros H1. induction us as [|f us IH]; intros H2 s s' T H; cbn [taken] in T; [subst s'; exact H|].
    destruct T as (s1 & S1 & _ & T). apply (IH (fun s g I1 => H2 s g (or_intror I1)) _ _ T). apply H2; [left; reflexivity|]. exact (H1 s (set_cur s1 (Some (u_path f))) S1 H).
  Qed.
  Lemma taken_comp c n ms p us s s' : Forall (fun x => ~ defines c n x) (flat_map inside (later us)) ->
    taken ev s us s' -> defined s (comp_kind c) n = Some (EComp ms p) -> defined s' (comp_kind c) n = Some (EComp ms p).
  Proof.
    intros F. apply (taken_keep (fun s => defined s (comp_kind c) n = Some (EComp ms p))).
    - intros x y S1 H. rewrite (same_defined x y) by (try exact S1; destruct c; discriminate). exact H.
    - intros x f I1 H. apply run_tops_comp; [|exact H]. apply Forall_forall. intros g I2. apply Forall_forall. intros y I3.
      rewrite Forall_forall in F. apply F. apply in_flat_map. exists g. split; [|exact I3]. apply in_flat_map. exists f. auto.
  Qed.
  Lemma taken_enum n v us s s' : taken ev s us s' -> defined s Enums n = Some v -> defined s' Enums n = Some v.
  Proof.
    apply (taken_keep (fun s => defined s Enums n = Some v)).
    - intros x y S1 H. rewrite (same_defined x y) by (try exact S1; discriminate). exact H.
    - intros x f _ H. apply run_tops_enum. exact H.
  Qed.
  Lemma taken_names k n o us s s' : k = Functions \/ k = Variables -> Forall (fun g => ~ In (Some n) (declared_names g)) (later us) ->
    taken ev s us s' -> defined s k n = o -> defined s' k n = o.
  Proof.
    intros K F. apply (taken_keep (fun s => defined s k n = o)).
    - intros x y S1 H. rewrite (same_defined x y) by (try exact S1; destruct K as [->| ->]; discriminate). exact H.
    - intros x f I1 H. rewrite run_tops_names; [exact H|exact K|]. apply Forall_forall. intros g I2. rewrite Forall_forall in F. apply F. apply in_flat_map. exists f. auto.
  Qed.
  Lemma taken_types n o us s s' : ~ In sp n -> Forall (fun g => ~ In (Some n) (declared_names g)) (later us) ->
    taken ev s us s' -> defined s Types n = o -> defined s' Types n = o.
  Proof.
    intros B F. apply (taken_keep (fun s => defined s Types n = o)).
    - intros x y S1 H. rewrite (same_defined x y) by (try exact S1; discriminate). exact H.
    - intros x f I1 H. apply run_tops_types; [exact B| |exact H]. apply Forall_forall. intros g I2 _. rewrite Forall_forall in F. apply F. apply in_flat_map. exists f. auto.
  Qed.
  Lemma taken_app us1 : forall us2 s s', taken ev s (us1 ++ us2) s' -> exists s0, taken ev s us1 s0 /\ taken ev s0 us2 s'.
  Proof.
    induction us1 as [|f us1 IH]; intros us2 s s' T; [exists s; split; [reflexivity|exact T]|].
    cbn [app taken] in T. destruct T as (s1 & S1 & ST & T). destruct (IH _ _ _ T) as (s0 & T1 & T2). exists s0. split; [exists s1; auto|exact T2].
  Qed.
  Lemma denotes_later g s s' s2 us b : stays g (later us) -> taken ev s' us s2 ->
    denotes ev s s' (spec_part g) b -> denotes ev s s2 (spec_part g) b.
  Proof.
    intros ST T (w & D). exists w. apply (proj1 (meaning_kept ev s' s2) _ _ _ _ D). split; [|intros n v; apply (taken_enum n v us s' s2 T)].
    intros c m n ms p I1 C. apply (taken_comp c n ms p us s' s2); [|exact T]. unfold stays in ST. rewrite Forall_forall in ST. specialize (ST _ I1). cbn [fst snd] in ST.
    eapply Forall_impl; [|exact ST]. cbn beta. intros y Hy. destruct C as [->|[-> NM]]; [exact Hy|apply Hy; exact NM].
  Qed.
  Lemma declared_later s s' s2 us g l2 n ty : ~ In sp n -> Forall (fun g => ~ In (Some n) (declared_names g)) (later us) ->
    taken ev s' us s2 -> declared_as ev s s' g l2 n ty -> declared_as ev s s2 g l2 n ty.
  Proof.
    intros B F T D. destruct g as [t x|t x i|t x]; cbn [declared_as] in *.
    - destruct D as (u & D & R). exists u. split; [apply (taken_types n _ us s' s2 B F T D)|exact R].
    - destruct (is_function ty).
      + destruct D as (u & D & R). exists u. split; [apply (taken_names Functions n _ us s' s2 (or_introl eq_refl) F T D)|exact R].
      + intros H. destruct (D H) as (u & D' & R). exists u. split; [apply (taken_names Variables n _ us s' s2 (or_intror eq_refl) F T D')|exact R].
    - intros H. destruct (D H) as (u & D' & R). exists u. split; [apply (taken_names Functions n _ us s' s2 (or_introl eq_refl) F T D')|exact R].
  Qed.
  Lemma tagged_same s s1 : same_declarations s s1 -> tagged s -> tagged s1.
  Proof.
    intros S1 T u n ms p H. rewrite (same_defined s s1) in * by (try exact S1; try (destruct u; discriminate); discriminate). exact (T u n ms p H).
  Qed.
  Lemma taken_tagged us s s' : Forall (fun f => Forall good_names (u_decls f)) us -> taken ev s us s' -> tagged s -> tagged s'.
  Proof.
    intros F. apply (taken_keep tagged); [exact tagged_same|]. intros x f I1 H. rewrite Forall_forall in F. apply tops_tagged; [apply F; exact I1|exact H].
  Qed.
  (** One declaration, with headers behind its own. *)
  Lemma unit_recorded s1 path ds1 g ds2 us s' : typed_values s1 -> Forall good_names (ds1 ++ g :: ds2) -> Forall harmless (ds1 ++ g :: ds2) ->
    taken ev (fst (run_tops ev (set_cur s1 path) (ds1 ++ g :: ds2))) us s' ->
    let tables x := fst (run_tops ev (set_cur s1 path) (ds1 ++ x)) in
    known_spec ev (tables []) (spec_part g) -> plain_decls g -> stays g (ds2 ++ later us) ->
    exists b, denotes ev (tables []) s' (spec_part g) b
      /\ forall l1 d l2 n, decls_part g = l1 ++ d :: l2 -> c_name (tree d) = Some n ->
         every c_syntax (tree d) = true -> no_conv_name (tree d) = true ->
         Forall (fun g' => ~ In (Some n) (declared_names g')) (ds2 ++ later us) ->
         declared_as ev (tables [up_to g []]) s' g l2 n (c_type (eval_text ev (tables [up_to g l1])) (tree d) (DeclSpec.base_type b)).
  Proof.
    intros TV GN HL T tables KS PD ST.
    assert (ST1 : stays g ds2 /\ stays g (later us)).
    { unfold stays in *. rewrite flat_map_app in ST. split; (eapply Forall_impl; [|exact ST]); intros y F; apply Forall_app in F; apply F. }
    destruct (tops_recorded ev s1 path ds1 g ds2 GN HL TV KS PD (proj1 ST1)) as (s2 & b & E & D & R).
    rewrite E in T. cbn [fst] in T. exists b. split; [apply (denotes_later g _ s2 s' us b (proj2 ST1) T D)|].
    intros l1 d l2 n DP N CS NC F. apply Forall_app in F. destruct F as [F1 F2].
    apply (declared_later _ s2 s' us); [|exact F2|exact T|exact (R l1 d l2 n DP N CS NC F1)].
    apply Forall_app in GN. destruct GN as [_ GN]. inversion GN as [|? ? GG _]; subst.
    destruct (GG (Some n)) as (n' & EN & B); [|injection EN as ->; exact B].
    unfold declared_names. rewrite DP, map_app. apply in_or_app. right. left. exact N.
  Qed.
End Chain.

(** ** The headers of a library *)
Section Units.
  Context (fo : str -> list str -> option str) (ext : str -> bool) (ev : dict str pobj -> str -> res pobj) (base mods : list str).
  Notation later := (flat_map u_decls).
  Lemma process_unit s m f : good_config base mods -> macro_tables s -> stands_for (macros_of s) m ->
    traced_text m (u_text f) (u_lines f) (u_macros f) -> disciplined initial None (ops (u_lines f)) ->
    grouped base mods initial (u_lines f) (u_decls f) -> aligned (u_lines f) -> Forall harmless (u_decls f) ->
    exists s1 text', let s' := fst (run_tops ev (set_cur s1 (Some (u_path f))) (u_decls f)) in
      process_file fo ext ev base mods s (u_path f) (u_text f) = Some (Ok (s', text'))
      /\ same_declarations s s1 /\ stands_for (macros_of s1) (u_macros f) /\ (typed_values s -> typed_values s1)
      /\ macro_tables s' /\ stands_for (macros_of s') (u_macros f).
  Proof.
    intros GC M ST (ps & segs & b & ET & R & W & NE & F & SL & C) DI G A HL.
    assert (SL' : split_on nl (join_lines (remove_comments (u_text f))) = lines b).
    { rewrite ET. rewrite remove_comments_reads, W, join_lines_segs by assumption. exact SL. }
    destruct (preprocess_traced fo ext ev s m (u_path f) (remove_comments (u_text f)) b (u_lines f) (u_macros f) M ST SL' C DI) as (s1 & E & ST').
    destruct (preprocess_tables fo ext ev (fun _ _ => True) (fun _ _ => Logic.I) s (u_path f) _ _ _ _ M E) as (M1 & SD & CU & V1).
    pose proof (parse_grouped base mods (u_lines f) (u_decls f) GC G A (proj1 traced_plain _ _ _ _ C)) as PE.
    pose proof (grouped_names base mods initial (u_lines f) (u_decls f) G) as GN.
    assert (EN : snd (run_tops ev (set_cur s1 (Some (u_path f))) (u_decls f)) = None).
    { apply run_tops_ends; [exact HL|]. eapply Forall_impl; [|exact GN]. apply good_named. }
    exists s1, (join [nl] (printed (u_lines f))). cbv zeta. split.
    { unfold FileModel.process_file. rewrite E. unfold parse_file. rewrite PE.
      destruct (run_tops ev (set_cur s1 (Some (u_path f))) (u_decls f)) as [s' o]. cbn [snd fst] in *. subst o. reflexivity. }
    split; [exact SD|]. split; [exact ST'|]. split; [intros T; apply (preprocess_typed fo ext ev s (u_path f) _ _ s1 _ T E)|].
    split; [apply run_tables; exact M1|]. rewrite (run_macros_of ev (u_decls f) (set_cur s1 (Some (u_path f)))). exact ST'.
  Qed.
  (** As [taken], where values are values in front of each header. *)
  Fixpoint taken_typed (s : store entry) (us : list unit) (s' : store entry) : Prop :=
    match us with
    | [] => s' = s
    | f :: r =>
        exists s1, same_declarations s s1 /\ stands_for (macros_of s1) (u_macros f) /\ typed_values s1
          /\ taken_typed (fst (run_tops ev (set_cur s1 (Some (u_path f))) (u_decls f))) r s'
    end.
  Lemma typed_taken us : forall s s', taken_typed s us s' -> taken ev s us s'.
  Proof. induction us as [|f us IH]; intros s s' T; [exact T|]. destruct T as (s1 & A & B & _ & T). exists s1. auto. Qed.
  Lemma taken_split us1 f us2 : forall s s', taken_typed s (us1 ++ f :: us2) s' ->
    exists s0 s1, taken ev s us1 s0 /\ same_declarations s0 s1 /\ stands_for (macros_of s1) (u_macros f) /\ typed_values s1
      /\ taken ev (fst (run_tops ev (set_cur s1 (Some (u_path f))) (u_decls f))) us2 s'.
  Proof.
    induction us1 as [|x us1 IH]; intros s s' T.
    - destruct T as (s1 & A & B & C & T). exists s, s1. split; [reflexivity|]. repeat (split; [assumption|]). apply typed_taken. exact T.
    - destruct T as (s1 & A & B & C & T). destruct (IH _ _ T) as (s0 & s2 & T1 & R). exists s0, s2. split; [exists s1; auto|exact R].
  Qed.
  Lemma process_units us : good_config base mods ->
    forall p m, NoDup (map u_path us) ->
    (forall f, In f us -> dget (p_files p) (u_path f) = Some (Some (u_text f))) ->
    macro_tables (p_store p) -> stands_for (macros_of (p_store p)) m -> typed_values (p_store p) -> units base mods m us ->
    exists p', process_files fo ext ev base mods p (map u_path us) = Some (Ok p') /\ taken_typed (p_store p) us (p_store p')
      /\ p_order p' = p_order p.
  Proof.
    intros GC. induction us as [|f us IH]; intros p m ND FI MT ST TV PR; [exists p; repeat split; reflexivity|].
    destruct PR as (TR & DI & GR & AL & HL & PR). inversion ND as [|? ? NI ND']; subst. cbn [map process_files].
    rewrite (FI f (or_introl eq_refl)).
    destruct (process_unit (p_store p) m f GC MT ST TR DI GR AL HL) as (s1 & text' & E & SD & ST1 & TV1 & M2 & ST2). cbv zeta in *.
    rewrite E. set (s2 := fst (run_tops ev (set_cur s1 (Some (u_path f))) (u_decls f))) in *.
    destruct (IH {| p_files := dset (p_files p) (u_path f) (Some text'); p_order := p_order p; p_store := s2 |} (u_macros f)) as (p' & E' & RA & PO).
    - exact ND'.
    - intros g I1. cbn [p_files]. rewrite dget_dset. destruct (eqb_spec (u_path g) (u_path f)) as [X|X]; [|apply FI; right; exact I1].
      exfalso. apply NI. rewrite <- X. apply in_map. exact I1.
    - exact M2.
    - exact ST2.
    - apply run_tops_typed. apply TV1. exact TV.
    - exact PR.
    - exists p'. split; [exact E'|]. split; [|exact PO]. exists s1. auto.
  Qed.
  Lemma units_names us : forall m, units base mods m us -> Forall (fun f => Forall good_names (u_decls f) /\ Forall harmless (u_decls f)) us.
  Proof.
    induction us as [|f us IH]; intros m U; [constructor|]. destruct U as (_ & _ & G & _ & H & U). constructor; [|apply (IH _ U)].
    split; [exact (grouped_names base mods initial _ _ G)|exact H].
  Qed.
  Context (sub : str -> str -> str -> str) (contents find : str -> option str) (rs : list (str * str)).
  Lemma read_units headers s m us : good_config base mods ->
    macro_tables s -> stands_for (macros_of s) m -> typed_values s -> tagged s ->
    Forall2 (resolves contents find) headers (map u_path us) -> Forall (stored sub contents rs) us -> NoDup (map u_path us) ->
    units base mods m us ->
    exists p, parse_headers fo ext ev base mods sub contents find rs headers s = Some (Ok p)
      /\ p_order p = map u_path us /\ tagged (p_store p)
      /\ forall us1 f us2 ds1 g ds2, us = us1 ++ f :: us2 -> u_decls f = ds1 ++ g :: ds2 ->
         exists s0 s1, taken ev s us1 s0 /\ same_declarations s0 s1 /\ stands_for (macros_of s1) (u_macros f)
           /\ let tables x := fst (run_tops ev (set_cur s1 (Some (u_path f))) (ds1 ++ x)) in
              known_spec ev (tables []) (spec_part g) -> plain_decls g -> stays g (ds2 ++ later us2) ->
              exists b, denotes ev (tables []) (p_store p) (spec_part g) b
                /\ forall l1 d l2 n, decls_part g = l1 ++ d :: l2 -> c_name (tree d) = Some n ->
                   every c_syntax (tree d) = true -> no_conv_name (tree d) = true ->
                   Forall (fun g' => ~ In (Some n) (declared_names g')) (ds2 ++ later us2) ->
                   declared_as ev (tables [up_to g []]) (p_store p) g l2 n
                     (c_type (eval_text ev (tables [up_to g l1])) (tree d) (DeclSpec.base_type b)).
  Proof.
    intros GC MT ST TV TG RE OD ND PR. unfold parse_headers. rewrite (find_all contents find _ _ RE). rewrite Forall_forall in OD.
    destruct (load_all sub contents rs (map u_path us) (new_parser s)) as (H1 & H2 & H3 & _).
    { intros x I1. apply in_map_iff in I1. destruct I1 as (f & <- & I1). destruct (OD f I1) as (raw & C & _). congruence. }
    set (p0 := fold_left (load_file sub contents rs) (map u_path us) (new_parser s)) in *.
    change (p_store (new_parser s)) with s in H2. change (p_order (new_parser s)) with (@nil str) in H1. cbn [app] in H1.
    pose proof (units_names us m PR) as UN. rewrite Forall_forall in UN.
    destruct (process_units us GC p0 m) as (p & E & RA & PO).
    - exact ND.
    - intros f I1. rewrite H3 by (apply in_map; exact I1). destruct (OD f I1) as (raw & C & ->). rewrite C. reflexivity.
    - rewrite H2. exact MT.
    - rewrite H2. exact ST.
    - rewrite H2. exact TV.
    - exact PR.
    - exists p. unfold process_all. rewrite H1. split; [exact E|]. split; [rewrite PO, H1; reflexivity|]. rewrite H2 in RA.
      split.
      { apply (taken_tagged ev us s (p_store p)); [|apply typed_taken; exact RA|exact TG]. apply Forall_forall. intros f I1. apply (UN f I1). }
      intros us1 f us2 ds1 g ds2 EU ED. rewrite EU in RA. destruct (taken_split us1 f us2 s (p_store p) RA) as (s0 & s1 & T1 & SD & SF & TV1 & T2).
      exists s0, s1. split; [exact T1|]. split; [exact SD|]. split; [exact SF|]. cbv zeta. intros KS PD SY.
      assert (IF : In f us) by (rewrite EU; apply in_or_app; right; left; reflexivity). destruct (UN f IF) as [GN HL]. rewrite ED in *.
      exact (unit_recorded ev s1 (Some (u_path f)) ds1 g ds2 us2 (p_store p) TV1 GN HL T2 KS PD SY).
  Qed.
End Units.

(** ** Calls and classes *)
Lemma comp_table_of c : comp_table (is_union c) = comp_kind c.
Proof. now destruct c. Qed.
Lemma denotes_comp ev s s' q c o body pack b n : refers (GSpec q (GComp c o body pack)) = false ->
  b_name b = tag_name (comp_kw c) n -> denotes ev s s' (GSpec q (GComp c o body pack)) b ->
  exists ms v ls, defined s' (comp_kind c) n = Some (EComp ms pack) /\ lines_meaning ev s' (values s) body v ls
    /\ Forall2 (fun x y => recorded (fst y) x (snd y)) ms (declared_all (value_of_text ev v) ls).
Proof.
  intros NR BN (v & D). inversion D as [w t R E1 E2|w w' q' c' m' body' p' n' ms ls MN NB LD DF F E1 E2|]; [congruence|].
  subst. cbn [b_name] in BN. assert (n' = n) as -> by (unfold tag_name in BN; apply app_inv_head in BN; injection BN as BN; exact BN).
  exists ms, v, ls. auto.
Qed.
Lemma join_members ms ys xs : Forall2 (fun x y => recorded (fst y) x (snd y)) ms xs ->
  Forall2 (fun m x => m_name m = fst x /\ read_type (m_type m) = Some (snd x)) ms ys -> ys = map snd xs.
Proof.
  intros F. revert ys. induction F as [|m x ms xs (R1 & R2 & _) F IH]; intros ys G; inversion G as [|? y ? ys' (A & B) G']; subst; [reflexivity|].
  cbn [map]. f_equal; [|apply IH; exact G']. destruct y as [y t], x as [w [x u]]. cbn [fst snd] in *. congruence.
Qed.
Section Library.
  Context (fo : str -> list str -> option str) (ext : str -> bool) (ev : dict str pobj -> str -> res pobj) (base mods : list str).
  Context (sub : str -> str -> str -> str) (contents find : str -> option str) (rs : list (str * str)).
  Notation later := (flat_map u_decls).
  Lemma units_calls headers s m us : good_config base mods ->
    macro_tables s -> stands_for (macros_of s) m -> typed_values s -> tagged s ->
    Forall2 (resolves contents find) headers (map u_path us) -> Forall (stored sub contents rs) us -> NoDup (map u_path us) ->
    units base mods m us ->
    exists p, parse_headers fo ext ev base mods sub contents find rs headers s = Some (Ok p)
      /\ forall us1 f us2 ds1 g ds2, us = us1 ++ f :: us2 -> u_decls f = ds1 ++ g :: ds2 ->
         exists s0 s1, taken ev s us1 s0 /\ same_declarations s0 s1 /\ stands_for (macros_of s1) (u_macros f)
           /\ let tables x := fst (run_tops ev (set_cur s1 (Some (u_path f))) (ds1 ++ x)) in
              known_spec ev (tables []) (spec_part g) -> plain_decls g -> stays g (ds2 ++ later us2) ->
              exists b, denotes ev (tables []) (p_store p) (spec_part g) b
                /\ (forall l1 d l2 n q args r, is_typedef g = false -> decls_part g = l1 ++ d :: l2 -> c_name (tree d) = Some n ->
                      every c_syntax (tree d) = true -> no_conv_name (tree d) = true ->
                      Forall (fun g' => ~ In (Some n) (declared_names g')) (ds2 ++ later us2) ->
                      c_type (eval_text ev (tables [up_to g l1])) (tree d) (DeclSpec.base_type b) = TFun q args r ->
                      forall cf table win D, closed cf table (p_store p) D -> usual_table table ->
                      representable cf table (p_store p) D r -> ~ In (LinkSpec.base_name r) convention_names ->
                      (exists cl cs, all_represented cf table (p_store p) D cl (parameters args) cs) ->
                      let L := load cf table win (p_store p) in
                      forall st, ready (l_heap L) st ->
                      exists sig fuel c cs st', dget (l_functions L) n = Some sig
                        /\ (forall k, fuel <= k -> wrap_types (l_env L) k sig st = (Ok (c, cs), st'))
                        /\ represents cf table (p_store p) D (classes st') r c
                        /\ all_represented cf table (p_store p) D (classes st') (parameters args) cs
                        /\ grown cf table (p_store p) D st st')
                /\ (forall q c o body pack n, spec_part g = GSpec q (GComp c o body pack) -> refers (spec_part g) = false ->
                      b_name b = tag_name (comp_kw c) n ->
                      exists v ls, lines_meaning ev (p_store p) (values (tables [])) body v ls /\
                      forall cf table win D, closed cf table (p_store p) D -> usual_table table -> D (is_union c) n ->
                      let L := load cf table win (p_store p) in
                      forall st, ready (l_heap L) st -> classes st n = None ->
                      exists fuel i fs st', (forall k, fuel <= k -> get_struct (l_env L) k (is_union c) n st = (Ok i, st'))
                        /\ classes st' n = Some i
                        /\ let xs := map snd (declared_all (value_of_text ev v) ls) in
                           nth_error (st_classes st') i = Some {| k_union := is_union c; k_pack := pack; k_anon := given_names xs fs; k_fields := Some fs |}
                        /\ fields_for cf table (p_store p) D (classes st') xs fs
                        /\ grown cf table (p_store p) D st st').
  Proof.
    intros GC MT ST TV TG RE OD ND PR.
    destruct (read_units fo ext ev base mods sub contents find rs headers s m us GC MT ST TV TG RE OD ND PR) as (p & E & _ & TP & ALL).
    exists p. split; [exact E|]. intros us1 f us2 ds1 g ds2 EU ED. destruct (ALL us1 f us2 ds1 g ds2 EU ED) as (s0 & s1 & T1 & SD & SF & R).
    exists s0, s1. split; [exact T1|]. split; [exact SD|]. split; [exact SF|]. cbv zeta in *. intros KS PD SY.
    destruct (R KS PD SY) as (b & DE & AL). exists b. split; [exact DE|]. split.
    - intros l1 d l2 n q args r NT DP N CS NC F CT cf table win D CL UT RR NV RA st SH.
      specialize (AL l1 d l2 n DP N CS NC F). rewrite CT in AL.
      assert (X : exists u, defined (p_store p) Functions n = Some (EFun u) /\ read_function u = Some (TFun q args r)).
      { destruct g as [t x|t x i|t x]; [discriminate NT|exact AL|exact (AL eq_refl)]. }
      destruct X as (u & DF & RF). exact (call_types cf table win (p_store p) D CL TP UT n u q args r st DF RF RR NV RA SH).
    - intros q c o body pack n SP NR BN. rewrite SP in DE, NR.
      destruct (denotes_comp ev _ (p_store p) q c o body pack b n NR BN DE) as (ms' & w & ls & DF' & LD & FD). exists w, ls. split; [exact LD|].
      intros cf table win D CL UT DN st SH CN.
      destruct (class_made cf table win (p_store p) D CL TP UT (is_union c) n st DN CN SH) as (fuel & i & k & st' & G1 & G2 & G3 & G4 & G5).
      destruct G4 as (ms & pk & ys & fs & DF & PX & -> & FF).
      rewrite comp_table_of, DF' in DF. assert (ms = ms') as -> by congruence. assert (pk = pack) as -> by congruence.
      rewrite (join_members ms' ys _ FD PX) in G3, FF.
      exists fuel, i, fs, st'. split; [exact G1|]. split; [exact G2|]. split; [exact G3|]. split; [exact FF|exact G5].
  Qed.
End Library.
