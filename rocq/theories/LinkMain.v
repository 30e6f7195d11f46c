(** Proofs for C82 and C83: every request for a type that can be represented succeeds. *)
From Coq Require Import Ascii String Bool Arith ZArith Lia List.
Import ListNotations.
From Verif Require Import PyBase PyBaseFacts PyStr PyStrFacts PyExpr TypeModel InitModel StoreModel StoreSpec DeclModel DeclSpec CtModel LinkModel LinkSpec LinkProofs LinkRead LinkRun.
From Verif Require WordFacts TypeSpec TypeProofs CtSpec CtProofs CtOne CtFinish CtFields CtWords.

(** ** The modifiers, one after the other *)
Definition run (e : cenv) (rec : rty -> M pyt) (s : str) (ds : list rdecl) : M pyt :=
  mbind (base_type e rec true s ds) (fun x => do_steps e rec (fst x) (steps (snd x))).
Lemma do_steps_app e rec l1 : forall l2 c st, do_steps e rec c (l1 ++ l2) st = mbind (do_steps e rec c l1) (fun c => do_steps e rec c l2) st.
Proof.
  induction l1 as [|x l1 IH]; intros l2 c st; [reflexivity|]. cbn [app do_steps]. unfold mbind at 1 3 2.
  destruct (do_step e rec c x st) as [[c'|z] st']; [|reflexivity]. apply IH.
Qed.
Lemma base_app e rec s ds r st : (ds = [] -> starts_ptr r = true -> dget ptr_types s = None) ->
  base_type e rec true s (ds ++ r) st = mbind (base_type e rec true s ds) (fun x => ret (fst x, snd x ++ r)) st.
Proof.
  intros H. unfold base_type. cbn [andb].
  assert (X : (if starts_ptr (ds ++ r) then dget ptr_types s else None) = (if starts_ptr ds then dget ptr_types s else None)).
  { destruct ds as [|d ds]; [|reflexivity]. cbn [app starts_ptr]. destruct (starts_ptr r); [now apply H|reflexivity]. }
  rewrite X. destruct (if starts_ptr ds then dget ptr_types s else None) as [p|] eqn:Y.
  { destruct ds as [|d ds]; [discriminate Y|]. reflexivity. }
  destruct (dget (e_table e) s); [reflexivity|].
  destruct (starts_with $"struct " s).
  { unfold mbind, lift. destruct (tag_entry e s) as [s0|]; [|reflexivity]. destruct (get_struct_with e rec false s0 st) as [[i|] st1]; reflexivity. }
  destruct (starts_with $"union " s).
  { unfold mbind, lift. destruct (tag_entry e s) as [s0|]; [|reflexivity]. destruct (get_struct_with e rec true s0 st) as [[i|] st1]; reflexivity. }
  destruct (starts_with $"enum " s); [reflexivity|]. destruct (eqb s $"void"); reflexivity.
Qed.
Lemma base_left e rec s ds st c ds' st' : base_type e rec true s ds st = (Ok (c, ds'), st') -> ds' = ds \/ starts_ptr ds = true /\ ds' = tl ds.
Proof.
  intros E. destruct (CtProofs.base_decls _ _ _ _ _ _ _ _ _ E) as [->| ->]; [now left|].
  destruct (starts_ptr ds) eqn:S; [right; auto|left]. unfold base_type in E. rewrite S in E. cbn [andb] in E.
  assert (Z : forall (y : M (pyt * list rdecl)), y = base_type e rec false s ds -> y st = (Ok (c, tl ds), st') -> tl ds = ds).
  { intros y -> F. unfold base_type in F. cbn [andb] in F. destruct (dget (e_table e) s); [injection F as _ F _; now symmetry|].
    destruct (starts_with $"struct " s).
    { unfold mbind, lift in F. destruct (tag_entry e s) as [s0|]; [|discriminate].
      destruct (get_struct_with e rec false s0 st) as [[i|] st1]; [|discriminate]. injection F as _ F _; now symmetry. }
    destruct (starts_with $"union " s).
    { unfold mbind, lift in F. destruct (tag_entry e s) as [s0|]; [|discriminate].
      destruct (get_struct_with e rec true s0 st) as [[i|] st1]; [|discriminate]. injection F as _ F _; now symmetry. }
    destruct (starts_with $"enum " s); [injection F as _ F _; now symmetry|]. destruct (eqb s $"void"); [injection F as _ F _; now symmetry|discriminate]. }
  exact (Z _ eq_refl E).
Qed.
Lemma run_app e rec s ds r st : (ds = [] -> starts_ptr r = true -> dget ptr_types s = None) -> steps (ds ++ r) = steps ds ++ steps r ->
  run e rec s (ds ++ r) st = mbind (run e rec s ds) (fun c => do_steps e rec c (steps r)) st.
Proof.
  intros H S. unfold run. unfold mbind at 1. rewrite (base_app _ _ _ _ _ _ H). unfold mbind at 1 2 3.
  destruct (base_type e rec true s ds st) as [[[c ds']|z] st'] eqn:B; [|reflexivity]. cbn [ret fst snd].
  assert (X : steps (ds' ++ r) = steps ds' ++ steps r).
  { destruct (base_left _ _ _ _ _ _ _ _ B) as [->|(P & ->)]; [exact S|]. destruct ds as [|[x|a|args] ds]; try discriminate P.
    cbn [app steps] in S. injection S as S. exact S. }
  rewrite X. apply do_steps_app.
Qed.
Lemma get_type_run e f t s ds q st : eval_type (e_conf e) (e_types e) t = Ok (CT (SName s) ds q) -> CtSpec.no_adjacent ds = true ->
  get_type e (S f) true t st = run e (get_type e f true) s ds st.
Proof.
  intros E N. cbn [get_type]. unfold mbind at 1, lift. rewrite E. unfold run, mbind.
  destruct (base_type e (get_type e f true) true s ds st) as [[[c ds']|z] st'] eqn:B; [|reflexivity]. cbn [fst snd]. unfold modified.
  assert (N' : CtSpec.no_adjacent ds' = true).
  { destruct (base_left _ _ _ _ _ _ _ _ B) as [->|(_ & ->)]; [exact N|now apply CtProofs.no_adjacent_tl]. }
  rewrite CtProofs.merge_flat by exact N'. destruct st'. reflexivity.
Qed.

Lemma direct_base cf table s D cl q b c : direct cf table s D cl (TBase q b) c -> of_base table D cl b c.
Proof. inversion 1; assumption. Qed.

(** ** The names of the members *)
Definition given (ms : list smember) (names : list str) : list str :=
  flat_map (fun x => match sm_name (fst x) with None => [snd x] | Some _ => [] end) (combine ms names).
Lemma given_cons m ms x names : given (m :: ms) (x :: names) = match sm_name m with None => [x] | Some _ => [] end ++ given ms names.
Proof. reflexivity. Qed.
Lemma names_given ms : forall before, exists names, name_members before ms = Ok (names, given ms names)
  /\ Forall2 (fun m x => match sm_name m with Some y => x = y | None => CtSpec.reserved x end) ms names
  /\ NoDup (given ms names) /\ forall x, In x (given ms names) -> CtSpec.reserved x /\ ~ In x before.
Proof.
  induction ms as [|m ms IH]; intros before.
  { exists []. split; [reflexivity|]. split; [constructor|]. split; [constructor|]. intros x []. }
  cbn [name_members]. destruct (sm_name m) as [y|] eqn:N.
  - destruct (IH (before ++ [y])) as (names & E & F & ND & NB). exists (y :: names). rewrite E, given_cons, N. cbn [bind fst snd app].
    split; [reflexivity|]. split; [constructor; [now rewrite N|exact F]|]. split; [exact ND|]. intros x I. destruct (NB x I) as [R B]. split; [exact R|].
    intros Q. apply B. apply in_or_app. now left.
  - destruct (DeclStore.fresh_ok $"anon_member" (map (fun x => (x, tt)) before)) as (y & FR & _). rewrite FR. cbn [bind].
    destruct (CtFields.fresh_reserved _ _ FR) as [RS NB0]. destruct (IH (before ++ [y])) as (names & E & F & ND & NB).
    exists (y :: names). rewrite E, given_cons, N. cbn [bind fst snd app]. split; [reflexivity|]. split; [constructor; [now rewrite N|exact F]|]. split.
    + constructor; [|exact ND]. intros I. destruct (NB y I) as [_ B]. apply B. apply in_or_app. right. now left.
    + intros x [<-|I]; [auto|]. destruct (NB x I) as [R B]. split; [exact R|]. intros Q. apply B. apply in_or_app. now left.
Qed.

Section Main.
  Context (cf : tconf) (table : dict str tyval) (s : store entry) (D : bool -> str -> Prop)
    (e : cenv) (h : heap) (LK : linked s e h) (EC : e_conf e = cf) (ET : e_table e = table)
    (CL : closed cf table s D) (TA : tagged s) (UT : usual_table table).
  Notation represents := (represents cf table s D).
  Notation direct := (direct cf table s D).
  Notation all_represented := (all_represented cf table s D).
  Notation grown := (grown cf table s D).
  Notation class_of := (class_of cf table s D).
  Notation of_base := (of_base table D).
  Definition got (R : (str -> option nat) -> pyt -> Prop) (c : pyt) (st : cst) (c' : pyt) (st' : cst) : Prop :=
    R (classes st') c' /\ grown st st' /\ (c <> PVoid -> c' <> PVoid).
  Notation needed := (needed s D).
  Notation part_of := (part_of s D).
  Lemma ident_D u n : D u n -> TypeSpec.identifier n /\ n <> $"signed".
  Proof. intros X. destruct (proj1 CL u n (ne_own s D u n X)) as (A & B & _). auto. Qed.
  Definition complete (st : cst) (i : nat) : Prop := exists k fs, nth_error (st_classes st) i = Some k /\ k_fields k = Some fs.
  (** The anonymous members of what has not been asked for are not under construction. *)
  Definition pending (st : cst) (n : str) : Prop := forall x, part_of x n -> forall i, classes st x = Some i -> complete st i.
  Definition ok_st (st : cst) : Prop := st_heap st = h /\ forall n, classes st n = None -> pending st n.
  Lemma grown_complete st st' i : grown st st' -> complete st i -> complete st' i.
  Proof.
    intros (_ & _ & (new & C) & _) (k & fs & N & F). exists k, fs. split; [|exact F]. rewrite C, nth_error_app1; [exact N|]. apply nth_error_Some. congruence.
  Qed.
  Lemma grown_pending st st' n : grown st st' -> pending st n -> pending st' n.
  Proof.
    intros G P x PO i Cx. pose proof G as (_ & R & _ & K). destruct (classes st x) as [j|] eqn:X.
    - pose proof (R _ _ X) as Y. assert (j = i) by congruence. subst j. exact (grown_complete _ _ _ G (P x PO i X)).
    - destruct (K x i Cx X) as (_ & u & k & _ & N & (ms & p & xs & fs & _ & _ & -> & _)). eexists _, fs. split; [exact N|reflexivity].
  Qed.
  Lemma grown_ok st st' : grown st st' -> ok_st st -> ok_st st'.
  Proof.
    intros G (E & P). pose proof G as (H & R & _). split; [congruence|]. intros n N. apply (grown_pending st); [exact G|]. apply P.
    destruct (classes st n) as [i|] eqn:X; [rewrite (R _ _ X) in N; discriminate|reflexivity].
  Qed.
  Lemma ready_ok st : ready h st -> ok_st st.
  Proof. intros (E & F). split; [exact E|]. intros n _ x _ i C. exact (F x i C). Qed.

  (** ** Base types, given structures *)
  Definition structs_ok (k : nat) : Prop := forall st u n, ok_st st -> CtFinish.unbuilt e st <= k -> needed u n ->
    (forall o, part_of n o -> classes st o <> None) ->
    gets (fun f => get_struct_with e (get_type e f true) u n) st (fun i st' => classes st' n = Some i /\ grown st st').
  Lemma comp_base k st u n : structs_ok k -> ok_st st -> CtFinish.unbuilt e st <= k -> needed u n ->
    (forall o, part_of n o -> classes st o <> None) ->
    gets (fun f => run e (get_type e f true) (canon (CtSpec.tag_of u ++ n)) []) st
      (fun c st' => exists i, c = PClass i /\ classes st' n = Some i /\ grown st st').
  Proof.
    intros SO SH UB Dn OW. destruct UT as (U1 & U2 & U3). destruct (proj1 CL u n Dn) as (ID & NS & ms & p & DF & _). rewrite TypeProofs.canon_tag by (try apply tag_prefix; assumption).
    pose proof (TA u n ms p DF) as TE. destruct (lk_types _ _ _ LK _ _ TE) as (t & GT & FT).
    assert (TG : tag_entry e (CtSpec.tag_of u ++ n) = Ok n).
    { unfold tag_entry. rewrite GT. destruct t as [sp ds qs]. rewrite fill_eq in FT. injection FT as _ FT _.
      destruct ds as [|d [|d2 ds]]; try discriminate FT. cbn [map] in FT. destruct d; try discriminate FT. cbn [filld] in FT. injection FT as ->. reflexivity. }
    assert (TN : dget (e_table e) (CtSpec.tag_of u ++ n) = None) by (rewrite ET; apply U2, tag_prefix).
    apply gets_ext with (m := fun f => mbind (get_struct_with e (get_type e f true) u n) (fun i => ret (PClass i))).
    - intros f. unfold run, base_type. cbn [starts_ptr andb]. rewrite TN. destruct u; cbn [CtSpec.tag_of] in *.
      + rewrite CtOne.union_not_struct, starts_with_app. unfold mbind, lift. rewrite TG.
        destruct (get_struct_with e (get_type e f true) true n st) as [[i'|x] st']; reflexivity.
      + rewrite starts_with_app. unfold mbind, lift. rewrite TG.
        destruct (get_struct_with e (get_type e f true) false n st) as [[i'|x] st']; reflexivity.
    - eapply gets_bind; [exact (SO st u n SH UB Dn OW)|]. cbv beta. intros j st' (C & G). apply gets_ret. exists j. auto.
  Qed.
  Lemma inner_ok k st u n t0 q : structs_ok k -> ok_st st -> CtFinish.unbuilt e st <= k -> needed u n ->
    (forall o, part_of n o -> classes st o <> None) -> read_type (fill h t0) = Some (TBase q (CtSpec.tag_of u ++ n)) ->
    gets (fun f => get_type e f true t0) st (fun c st' => exists i, c = PClass i /\ classes st' n = Some i /\ grown st st').
  Proof.
    intros SO SH UB Dn OW RD. destruct (read_shape _ _ RD eq_refl) as (b & ds & q1 & qs & E & B).
    destruct t0 as [[m|v] ds0 qs0]; rewrite fill_eq in E; [|discriminate]. injection E as -> Ed ->. subst ds.
    assert (EX : expanded (e_conf e) s (TBase q (CtSpec.tag_of u ++ n)) (TBase q (CtSpec.tag_of u ++ n))).
    { apply ex_done. left. exists (CtSpec.tag_of u), n. split; [apply tag_prefix|reflexivity]. }
    destruct (eval_expanded s e h LK _ _ b ds0 q1 qs EX eq_refl eq_refl B) as (b' & ds' & q' & qs' & EV & B').
    destruct (build_last _ _ _ _ _ _ B') as [(-> & -> & E)|(ds2 & d & qs2 & q2 & t2 & _ & _ & _ & W)]; [|now apply wrapd_not_base in W].
    injection E as <- <-. apply gets_shift. apply gets_ext with (m := fun f => run e (get_type e f true) (canon (CtSpec.tag_of u ++ n)) []).
    - intros f. exact (get_type_run _ _ _ _ _ _ _ EV eq_refl).
    - exact (comp_base k st u n SO SH UB Dn OW).
  Qed.
  Lemma base_ok k st cl b c : structs_ok k -> ok_st st -> CtFinish.unbuilt e st <= k -> of_base cl b c ->
    gets (fun f => run e (get_type e f true) (canon b) []) st (got (fun cl => of_base cl b) c st).
  Proof.
    intros SO SH UB O. destruct UT as (U1 & U2 & U3).
    assert (P : forall x v, dget (e_table e) x = Some v -> of_base (classes st) b (of_tyval v) -> canon b = x -> (c <> PVoid -> of_tyval v <> PVoid) ->
      gets (fun f => run e (get_type e f true) (canon b) []) st (got (fun cl => of_base cl b) c st)).
    { intros x v G X -> NV. apply gets_ext with (m := fun _ => ret (of_tyval v)).
      - intros f. unfold run, base_type. cbn [starts_ptr andb]. rewrite G. reflexivity.
      - apply gets_ret. split; [exact X|]. split; [apply grown_refl|exact NV]. }
    destruct O as [ws c IO Sp N1 N2|w v ID NS G| | |u n i Dn Cl|n ID NS].
    - assert (O : of_base (classes st) (CtSpec.words_of ws) (PBase c)) by (now apply ob_int).
      apply CtWords.in_order_all in IO. apply CtWords.spells_candidate in Sp.
      pose proof (proj1 (forallb_forall _ _) CtWords.all_ok ws IO) as OK.
      unfold CtWords.ok_words in OK. apply orb_true_iff in OK. destruct OK as [X|OK].
      { unfold CtWords.excluded in X. apply orb_true_iff in X. destruct X as [X|X]; apply eqb_eq in X; contradiction. }
      pose proof (proj1 (forallb_forall _ _) OK c Sp) as RC. unfold CtWords.right_class in RC.
      destruct (dget std_types (canon (CtSpec.words_of ws))) as [[|d|]|] eqn:DG; try discriminate. apply eqb_eq in RC. subst d.
      apply U1 in DG. rewrite <- ET in DG. exact (P _ _ DG O eq_refl (fun x => x)).
    - rewrite <- ET in G. apply (P w v G); [apply ob_named; [assumption|assumption|congruence]|now apply canon_word|auto].
    - apply (P $"long double" (TyC $"c_longdouble")); [rewrite ET; apply U1; vm_compute; reflexivity|apply ob_double|vm_compute; reflexivity|auto].
    - destruct (dget (e_table e) $"void") as [v|] eqn:G.
      + rewrite ET in G. pose proof (U3 v G). subst v. rewrite <- ET in G. apply (P $"void" TyNone G); [apply ob_void|vm_compute; reflexivity|auto].
      + apply gets_ext with (m := fun _ => ret PVoid).
        * intros f. unfold run, base_type. cbn [starts_ptr andb]. change (canon $"void") with $"void". rewrite G. reflexivity.
        * apply gets_ret. split; [apply ob_void|]. split; [apply grown_refl|auto].
    - eapply gets_impl; [|apply (comp_base k st u n SO SH UB (ne_own s D u n Dn))].
      + cbv beta. intros c' st' (j & -> & C & G). split; [apply ob_comp; assumption|]. split; [exact G|discriminate].
      + intros o PO. exfalso. exact (proj1 (proj2 (proj2 CL) n o PO) u Dn).
    - rewrite TypeProofs.canon_tag by (try assumption; cbn; auto). apply gets_ext with (m := fun _ => ret (PBase $"c_int")).
      + intros f. unfold run, base_type. cbn [starts_ptr andb]. rewrite ET, U2 by (cbn; auto). reflexivity.
      + apply gets_ret. split; [apply ob_enum; assumption|]. split; [apply grown_refl|auto].
  Qed.

  (** ** Types, given structures *)
  Definition types_ok (k : nat) : Prop := forall cl t c, represents cl t c -> forall t0 st, read_type (fill h t0) = Some t ->
    ok_st st -> CtFinish.unbuilt e st <= k ->
    gets (fun f => get_type e f true t0) st (got (fun cl => represents cl t) c st).
  Lemma grown_le st st' k : grown st st' -> CtFinish.unbuilt e st <= k -> CtFinish.unbuilt e st' <= k.
  Proof. intros G U. pose proof (grown_unbuilt cf table s D e st st' G). lia. Qed.
  Lemma grown_heap st st' : grown st st' -> st_heap st = h -> st_heap st' = h.
  Proof. intros (H & _) E. congruence. Qed.
  Lemma grown_classes st st' : grown st st' -> forall n i, classes st n = Some i -> classes st' n = Some i.
  Proof. intros (_ & R & _). exact R. Qed.
  Lemma not_special_ptr cl t c ds qs q b : direct cl t c -> (forall p, ~ special t p) -> build (map (filld h) ds) qs (TBase q b) = Some t ->
    forall r, ds = [] -> starts_ptr r = true -> dget ptr_types (canon b) = None.
  Proof.
    intros X N B r -> _. destruct qs; [|discriminate]. cbn in B. injection B as <-. apply direct_base in X.
    eapply base_not_special; [exact ident_D|exact X|]. intros p I. apply (N p). exists q, b. auto.
  Qed.
  Definition run_ok (k : nat) (t : cty) (c : pyt) : Prop := forall ds qs q b st, build (map (filld h) ds) qs (TBase q b) = Some t ->
    ok_st st -> CtFinish.unbuilt e st <= k ->
    gets (fun f => run e (get_type e f true) (canon b) ds) st (got (fun cl => direct cl t) c st).
  (** One more modifier, which changes nothing but the type. *)
  Lemma run_more k cl t c d t' (g : pyt -> pyt) : direct cl t c -> run_ok k t c ->
    (forall cl c', direct cl t c' -> (c <> PVoid -> c' <> PVoid) -> direct cl t' (g c')) -> (forall c', g c' <> PVoid) ->
    next_ok t [d] ->
    (forall rec c' st, st_heap st = h -> (c <> PVoid -> c' <> PVoid) -> do_steps e rec c' (steps [d]) st = (Ok (g c'), st)) ->
    (starts_ptr [d] = true -> forall p, ~ special t p) ->
    forall ds qs q b st, build (map (filld h) ds) qs (TBase q b) = Some t ->
    ok_st st -> CtFinish.unbuilt e st <= k ->
    gets (fun f => run e (get_type e f true) (canon b) (ds ++ [d])) st (got (fun cl => direct cl t') (g c) st).
  Proof.
    intros X RO DG NV NX ST NSP ds qs q b st B SH UB.
    apply gets_ext with (m := fun f => mbind (run e (get_type e f true) (canon b) ds) (fun c => do_steps e (get_type e f true) c (steps [d]))).
    - intros f. apply run_app.
      + intros Ed P. exact (not_special_ptr _ _ _ _ _ _ _ X (NSP P) B [d] Ed P).
      + exact (steps_app cf table s D cl h t c X ds qs q b B [d] NX).
    - eapply gets_bind; [exact (RO ds qs q b st B SH UB)|]. cbv beta. intros c' st' (R & G & V).
      apply gets_ext with (m := fun _ => ret (g c')).
      + intros f. apply ST; [exact (grown_heap _ _ G (proj1 SH))|exact V].
      + apply gets_ret. split; [now apply DG|]. split; [exact G|]. intros _. apply NV.
  Qed.
  Lemma types_from k : structs_ok k -> types_ok k.
  Proof.
    intros SO cl.
    enough (X : (forall t c, represents cl t c -> forall t0 st, read_type (fill h t0) = Some t -> ok_st st -> CtFinish.unbuilt e st <= k ->
                   gets (fun f => get_type e f true t0) st (got (fun cl => represents cl t) c st))
             /\ (forall t c, direct cl t c -> run_ok k t c)
             /\ (forall l cs, all_represented cl l cs -> forall args st,
                   read_args read_type (map (fun a => (fst (fst a), fill h (snd (fst a)), snd a)) args) = Some l ->
                   ok_st st -> CtFinish.unbuilt e st <= k ->
                   gets (fun f => mapMM (fun a => get_type e f true (snd (fst a))) args) st
                     (fun cs st' => all_represented (classes st') l cs /\ grown st st'))).
    { intros t c R. apply X. exact R. }
    apply (represents_both cf table s D cl
      (fun t c _ => forall t0 st, read_type (fill h t0) = Some t -> ok_st st -> CtFinish.unbuilt e st <= k ->
                   gets (fun f => get_type e f true t0) st (got (fun cl => represents cl t) c st))
      (fun t c _ => run_ok k t c)
      (fun l cs _ => forall args st,
                   read_args read_type (map (fun a => (fst (fst a), fill h (snd (fst a)), snd a)) args) = Some l ->
                   ok_st st -> CtFinish.unbuilt e st <= k ->
                   gets (fun f => mapMM (fun a => get_type e f true (snd (fst a))) args) st
                     (fun cs st' => all_represented (classes st') l cs /\ grown st st'))).
    - intros t t' c EX DI IH t0 st RD SH UB. destruct (direct_flat _ _ _ _ _ _ _ DI) as [F N].
      destruct (flat_expanded _ _ _ _ EX F N) as [F0 _]. destruct (read_shape _ _ RD F0) as (n & ds & q & qs & E & B).
      destruct t0 as [[m|u] ds0 qs0]; rewrite fill_eq in E; [|discriminate]. injection E as -> Ed ->. subst ds.
      rewrite <- EC in EX. destruct (eval_expanded s e h LK t t' n ds0 q qs EX F N B) as (b & ds' & q' & qs' & EV & B').
      destruct (flat_adjacent _ _ _ _ _ B' F) as (NA & _ & _).
      apply gets_shift. apply gets_ext with (m := fun f => run e (get_type e f true) (canon b) ds').
      + intros f. exact (get_type_run _ _ _ _ _ _ _ EV NA).
      + eapply gets_impl; [|exact (IH ds' qs' q' b st B' SH UB)]. intros c' st' (R & G & V). split; [|auto]. rewrite EC in EX. exact (re_type _ _ _ _ _ _ _ _ EX R).
    - intros q n c O ds qs q0 b st B SH UB.
      destruct (build_last _ _ _ _ _ _ B) as [(-> & _ & E)|(ds' & d & qs' & q2 & t2 & _ & _ & _ & W)]; [|now apply wrapd_not_base in W].
      injection E as <- <-. eapply gets_impl; [|exact (base_ok k st cl n c SO SH UB O)]. intros c' st' (R & G & V). split; [constructor; exact R|auto].
    - intros q t p SP ds qs q0 b st B SH UB. pose proof SP as (q1 & n & -> & I).
      destruct (build_last _ _ _ _ _ _ B) as [(_ & _ & E)|(ds' & d & qs' & q2 & t2 & -> & -> & B1 & W)]; [discriminate|].
      apply wrapd_ptr in W. destruct W as [-> ->].
      destruct (build_last _ _ _ _ _ _ B1) as [(-> & _ & E)|(ds2 & d & qs2 & q3 & t3 & _ & _ & _ & W)]; [|now apply wrapd_not_base in W].
      injection E as -> ->. destruct (special_get _ _ I) as [G C].
      apply gets_ext with (m := fun _ => ret (PBase p)).
      + intros f. unfold run, base_type. cbn [app starts_ptr]. rewrite eqb_refl. cbn [andb]. rewrite C, G. reflexivity.
      + apply gets_ret. split; [now apply di_special|]. split; [apply grown_refl|auto].
    - intros q t c NS NF DI IH ds qs q0 b st B SH UB.
      destruct (build_last _ _ _ _ _ _ B) as [(_ & _ & E)|(ds' & d & qs' & q2 & t2 & -> & -> & B1 & W)]; [discriminate|].
      apply wrapd_ptr in W. destruct W as [-> ->].
      apply (run_more k cl t c (DStr $"*") (TPtr q t) CtSpec.pointer_to DI IH) with (qs := qs') (q := q0); try assumption.
      + intros cl' c' X _. now apply di_ptr.
      + apply pointer_not_void.
      + intros Y. rewrite NF in Y. discriminate.
      + reflexivity.
      + intros _. exact NS.
    - intros q t c DI IH ds qs q0 b st B SH UB.
      destruct (build_last _ _ _ _ _ _ B) as [(_ & _ & E)|(ds' & d & qs' & q2 & t2 & -> & -> & B1 & W)]; [discriminate|].
      apply wrapd_ref in W. destruct W as [-> ->].
      apply (run_more k cl t c (DStr $"&") (TRef q t) CtSpec.pointer_to DI IH) with (qs := qs') (q := q0); try assumption.
      + intros cl' c' X _. now constructor.
      + apply pointer_not_void.
      + intros Y. reflexivity.
      + reflexivity.
      + discriminate.
    - intros q n t c L A DI IH NV ds qs q0 b st B SH UB.
      destruct (build_last _ _ _ _ _ _ B) as [(_ & _ & E)|(ds' & d & qs' & q2 & t2 & -> & -> & B1 & W)]; [discriminate|].
      apply wrapd_arr in W. destruct W as (a & -> & C & ->).
      apply (run_more k cl t c (DArr a) (TArr q (ONum (VInt n)) t) (CtSpec.arrays [n]) DI IH) with (qs := qs') (q := q0); try assumption.
      + intros cl' c' X V. constructor; auto.
      + apply arrays_not_void.
      + intros Y. reflexivity.
      + intros rec c' st1 SH1 V. specialize (V NV). cbn [steps do_steps do_step]. unfold mbind. rewrite SH1, C. cbn [rev app add_dims].
        unfold add_dim, is_unknown. unfold CtSpec.arrays. cbn [fold_right]. destruct (n =? -1)%Z eqn:N1; [reflexivity|].
        apply Z.eqb_neq in N1. unfold times. assert (N2 : (n <? 0)%Z = false) by (apply Z.ltb_ge; lia). rewrite N2. destruct c'; try reflexivity. now destruct V.
      + discriminate.
    - intros q q' l t c cs DI IH AR IHA ds qs q0 b st B SH UB.
      destruct (build_last _ _ _ _ _ _ B) as [(_ & _ & E)|(ds' & d & qs' & q2 & t2 & -> & -> & B1 & W)]; [discriminate|].
      apply wrapd_ptr in W. destruct W as [-> ->].
      destruct (build_last _ _ _ _ _ _ B1) as [(_ & _ & E)|(ds2 & d & qs2 & q3 & t3 & -> & -> & B2 & W)]; [discriminate|].
      apply wrapd_fun in W. destruct W as (args & -> & RA & ->). rewrite <- app_assoc. cbn [app].
      apply gets_ext with (m := fun f => mbind (run e (get_type e f true) (canon b) ds2) (fun c =>
        mbind (mapMM (fun a => get_type e f true (snd (fst a))) args) (fun cs => lift (mk_fun false c cs)))).
      + intros f. rewrite run_app.
        * change (steps [DFun args; DStr $"*"]) with [StFun args false]. cbn [do_steps do_step andb]. unfold mbind.
          destruct (run e (get_type e f true) (canon b) ds2 st) as [[c'|z] st']; [|reflexivity].
          destruct (mapMM (fun a => get_type e f true (snd (fst a))) args st') as [[cs'|z] st2]; [|reflexivity]. unfold lift.
          destruct (mk_fun false c' cs'); reflexivity.
        * discriminate.
        * apply (steps_app cf table s D cl h t c DI ds2 qs2 q0 b B2). intros Y. reflexivity.
      + eapply gets_bind; [exact (IH ds2 qs2 q0 b st B2 SH UB)|]. cbv beta. intros c' st1 (R & G & V).
        eapply gets_bind; [exact (IHA args st1 RA (grown_ok _ _ G SH) (grown_le _ _ _ G UB))|]. cbv beta. intros cs' st2 (R2 & G2).
        assert (MV : mk_fun false c' cs' = Ok (PFun false c' cs')).
        { unfold mk_fun. replace (existsb _ cs') with false; [reflexivity|]. clear -R2. induction R2 as [|n t v l c cs R NV A IH]; [reflexivity|].
          cbn [existsb]. rewrite <- IH. destruct c; try reflexivity. now destruct NV. }
        apply gets_ext with (m := fun _ => ret (PFun false c' cs')); [intros f; unfold lift; rewrite MV; reflexivity|].
        apply gets_ret. split; [|split; [eapply grown_trans; eassumption|discriminate]]. constructor; [|exact R2].
        eapply (represents_mono cf table s D (classes st1) (classes st2)); [exact (grown_classes _ _ G2)|exact R].
    - intros args st RA SH UB. destruct args as [|[[an at_] av] args]; [|exfalso; cbn [map read_args] in RA].
      + apply gets_ret. split; [constructor|apply grown_refl].
      + destruct (read_type _); [|discriminate]. destruct (read_args _ _); discriminate.
    - intros n t v l c cs R IH NV A IHA args st RA SH UB. destruct args as [|[[an at_] av] args]; cbn [map read_args fst snd] in RA; [discriminate|].
      destruct (read_type (fill h at_)) as [t'|] eqn:RT; [|discriminate].
      destruct (read_args read_type (map (fun a => (fst (fst a), fill h (snd (fst a)), snd a)) args)) as [l'|] eqn:RL; [|discriminate].
      injection RA as -> -> -> ->. cbn [mapMM fst snd].
      eapply gets_bind; [exact (IH at_ st RT SH UB)|]. cbv beta. intros c' st1 (R1 & G1 & V1).
      eapply gets_bind; [exact (IHA args st1 RL (grown_ok _ _ G1 SH) (grown_le _ _ _ G1 UB))|]. cbv beta. intros cs' st2 (R2 & G2).
      apply gets_ret. split; [|eapply grown_trans; eassumption]. constructor; [|auto|exact R2].
      eapply (represents_mono cf table s D (classes st1) (classes st2)); [exact (grown_classes _ _ G2)|exact R1].
  Qed.

  (** ** Structures *)
  Definition entry_of (m : smember) : member := {| m_name := sm_name m; m_type := fill h (sm_type m); m_val := sm_val m; m_bit := sm_bit m |}.
  (** Members as pairs of name and type. *)
  Definition as_pair (m : member) (x : option str * cty) : Prop := m_name m = fst x /\ read_type (m_type m) = Some (snd x).
  Lemma pairs ms : Forall (usual_member cf table s D) ms -> exists xs, Forall2 as_pair ms xs.
  Proof.
    induction 1 as [|m ms (_ & _ & W) F (xs & IH)]; [exists []; constructor|].
    assert (X : exists t, read_type (m_type m) = Some t) by (destruct W as [(x & _ & t & R & _)|(v & x & _ & q & R)]; eauto).
    destruct X as (t & R). exists ((m_name m, t) :: xs). constructor; [split; [reflexivity|exact R]|exact IH].
  Qed.
  Lemma pair_names ms xs : Forall2 as_pair ms xs -> map m_name ms = map fst xs.
  Proof. induction 1 as [|m x ms xs [A _] F IH]; [reflexivity|]. cbn [map]. now rewrite A, IH. Qed.
  (** The structure [n] is under construction. *)
  Lemma fields_made k n ms : types_ok k -> structs_ok k ->
    (forall m v x, In m (map entry_of ms) -> unnamed v x m -> needed v x /\ part_of x n) ->
    forall names st, Forall (usual_member cf table s D) (map entry_of ms) ->
    Forall2 (fun m x => match sm_name m with Some y => x = y | None => CtSpec.reserved x end) ms names ->
    forall xs, Forall2 as_pair (map entry_of ms) xs ->
    ok_st st -> CtFinish.unbuilt e st <= k -> classes st n <> None ->
    gets (fun f => make_fields (get_type e f true) names ms) st
      (fun fs st' => grown st st' /\ Forall2 (field_for cf table s D (classes st')) xs fs /\ map fd_name fs = names).
  Proof.
    intros TO SO. induction ms as [|m ms IH]; intros PT names st F N xs PX SH UB CN; destruct names as [|x names]; try (now inversion N).
    - inversion PX; subst. apply gets_ret. split; [apply grown_refl|]. split; [constructor|reflexivity].
    - cbn [map] in F, PT, PX. apply Forall_cons_iff in F. destruct F as [(V & _ & W) F].
      destruct xs as [|[y t] xs]; [inversion PX|].
      assert (PX' : as_pair (entry_of m) (y, t) /\ Forall2 as_pair (map entry_of ms) xs) by (inversion PX; auto). destruct PX' as [[P1 P2] PX'].
      cbn [entry_of m_name m_type fst snd] in P1, P2.
      assert (N' : match sm_name m with Some y => x = y | None => CtSpec.reserved x end /\ Forall2 (fun m x => match sm_name m with Some y => x = y | None => CtSpec.reserved x end) ms names) by (inversion N; auto).
      destruct N' as [N1 N']. clear N PX.
      cbn [entry_of m_val] in V. cbn [make_fields].
      assert (X : gets (fun f => get_type e f true (sm_type m)) st (fun c st' => grown st st'
                    /\ forall fs, fd_name fs = x -> fd_width fs = None -> fd_type fs = c -> field_for cf table s D (classes st') (y, t) fs)).
      { destruct W as [(z & NY & t' & R & cl & c & X)|(v & z & U)].
        - cbn [entry_of m_name m_type] in NY, R. rewrite NY in N1, P1. subst z. assert (t' = t) as -> by congruence.
          eapply gets_impl; [|exact (TO cl t c X (sm_type m) st R SH UB)]. cbv beta.
          intros c' st1 (R1 & G1 & _). split; [exact G1|]. intros f FN FW FT. split; [exact FW|]. cbn [fst snd]. rewrite <- P1. split; [exact FN|]. now rewrite FT.
        - destruct (PT _ v z (or_introl eq_refl) U) as [ND PO]. pose proof U as (UN & q & UR). cbn [entry_of m_name m_type] in UN, UR.
          assert (OW : forall o, part_of z o -> classes st o <> None).
          { intros o PO'. now rewrite (proj2 (proj2 (proj2 CL) z n PO) o PO'). }
          eapply gets_impl; [|exact (inner_ok k st v z (sm_type m) q SO SH UB ND OW UR)]. cbv beta.
          intros c' st1 (i & -> & C & G1). split; [exact G1|]. intros f FN FW FT. split; [exact FW|]. cbn [fst snd]. rewrite <- P1, UN.
          exists q, v, z, i. split; [congruence|auto]. }
      eapply gets_bind; [exact X|]. cbv beta. intros c' st1 (G1 & H1).
      eapply gets_bind; [apply (IH (fun m v x I => PT m v x (or_intror I)) names st1 F N' xs PX' (grown_ok _ _ G1 SH) (grown_le _ _ _ G1 UB))|].
      { intros Q. destruct (classes st n) as [i|] eqn:E; [|congruence]. rewrite (grown_classes _ _ G1 _ _ E) in Q. discriminate. }
      cbv beta. intros fs st2 (G2 & F2 & M2).
      apply gets_ret. split; [eapply grown_trans; eassumption|]. cbn [map fd_name]. split; [|now rewrite M2]. constructor; [|exact F2].
      apply (field_mono cf table s D (classes st1) (classes st2)); [exact (grown_classes _ _ G2)|]. apply H1; [reflexivity|cbn [fd_width]; now rewrite V|reflexivity].
  Qed.
  Lemma given_same ms : forall xs fs, Forall2 as_pair (map entry_of ms) xs -> given_names xs fs = given ms (map fd_name fs).
  Proof.
    induction ms as [|m ms IH]; intros xs fs PX; cbn [map] in PX; inversion PX as [|? [y t] ? xs' [P1 P2] PX']; subst; [reflexivity|].
    destruct fs as [|f fs]; [reflexivity|]. cbn [map]. rewrite given_cons, <- (IH xs' fs PX'). cbn [entry_of m_name fst] in P1. unfold given_names. cbn [combine flat_map fst snd]. now rewrite P1.
  Qed.
  Lemma given_field cl ms : forall xs fs, Forall2 as_pair ms xs -> Forall2 (field_for cf table s D cl) xs fs -> forall f, In f fs ->
    (forall x, In (Some x) (map m_name ms) -> x <> fd_name f) -> exists v y i, (exists m, In m ms /\ unnamed v y m) /\ cl y = Some i /\ fd_type f = PClass i.
  Proof.
    induction ms as [|m ms IH]; intros xs fs PX FO f If NN; inversion PX as [|? [y t] ? xs' [P1 P2] PX']; subst; inversion FO as [|? f0 ? fs' (W & X) A]; subst; [destruct If|].
    cbn [fst snd] in *. destruct If as [->|If].
    - destruct y as [x|].
      + destruct X as [Q _]. exfalso. exact (NN x (or_introl P1) (eq_sym Q)).
      + destruct X as (q & v & n & i & U & C & T). exists v, n, i. split; [exists m; split; [now left|]|auto]. split; [exact P1|]. exists q. congruence.
    - destruct (IH xs' fs' PX' A f If) as (v & z & i & (m' & Im & U) & Q); [intros x Im; apply NN; now right|]. exists v, z, i. split; [exists m'; split; [now right|exact U]|exact Q].
  Qed.
  Lemma given_in ms : forall names x, In x (given ms names) -> In x names /\ exists m, In m ms /\ sm_name m = None.
  Proof.
    induction ms as [|m ms IH]; intros [|y names] x I; try (now destruct I). rewrite given_cons in I. apply in_app_iff in I. destruct I as [I|I].
    - destruct (sm_name m) eqn:E; [destruct I|]. destruct I as [<-|[]]. split; [now left|]. exists m. split; [now left|exact E].
    - destruct (IH names x I) as [A (m' & B & C)]. split; [now right|]. exists m'. split; [now right|exact C].
  Qed.
  Lemma structs_from k : (forall k', k' < k -> types_ok k' /\ structs_ok k') -> structs_ok k.
  Proof.
    intros TO st u n SH UB Dn OW. destruct (dget (st_structs st) n) as [i|] eqn:G.
    { apply gets_ext with (m := fun _ => ret i); [intros f; now apply CtOne.struct_again|]. apply gets_ret. split; [exact G|apply grown_refl]. }
    destruct (proj1 CL u n Dn) as (_ & _ & ms & p & DF & US & NA). destruct (lk_comps _ _ _ LK u n ms p DF) as (d & DG & DP & DM).
    fold entry_of in DM. subst ms. destruct (names_given (sd_members d) []) as (names & NM & NE & ND & NR).
    set (anon := given (sd_members d) names) in *.
    set (i := length (st_classes st)). set (k0 := {| k_union := u; k_pack := sd_pack d; k_anon := anon; k_fields := None |}).
    set (st1 := {| st_heap := st_heap st; st_structs := dset (st_structs st) n i; st_classes := st_classes st ++ [k0] |}).
    destruct (CtFinish.unbuilt_less e st n i (st_heap st) u d DG G) as [_ UL]. specialize (UL (st_classes st ++ [k0])). fold st1 in UL.
    assert (N1 : classes st1 n = Some i) by (unfold classes, st1; cbn [st_structs]; now rewrite dget_dset, eqb_refl).
    assert (OLD : forall m j, m <> n -> classes st1 m = j -> classes st m = j).
    { intros m j NE'. unfold classes, st1. cbn [st_structs]. rewrite dget_dset. destruct (eqb_spec m n); [contradiction|auto]. }
    assert (PN : forall x, part_of x n -> x <> n) by (intros x PO ->; apply (OW n PO); exact G).
    assert (CM : forall j, complete st j -> complete st1 j).
    { intros j (k' & fs & A & B). exists k', fs. split; [|exact B]. unfold st1. cbn [st_classes]. rewrite nth_error_app1; [exact A|]. apply nth_error_Some. congruence. }
    assert (P1 : pending st1 n).
    { intros x PO j C. apply CM. apply (proj2 SH n G x PO). exact (OLD x _ (PN x PO) C). }
    assert (SH1 : ok_st st1).
    { split; [exact (proj1 SH)|]. intros n' N' x PO j C. assert (n' <> n) by congruence. pose proof (OLD n' _ H N') as N0.
      destruct (eqb_spec x n) as [->|X]; [exfalso; exact (OW n' PO N0)|]. apply CM. exact (proj2 SH n' N0 x PO j (OLD x _ X C)). }
    assert (PT : forall m v x, In m (map entry_of (sd_members d)) -> unnamed v x m -> needed v x /\ part_of x n).
    { intros m v x I U. split; [exact (ne_part s D u n _ p m v x Dn DF I U)|]. exists v, u, (map entry_of (sd_members d)), p, m. auto. }
    destruct (TO _ (Nat.lt_le_trans _ _ _ UL UB)) as [TO1 SO1]. destruct (pairs _ US) as (xs & PX).
    destruct (fields_made (CtFinish.unbuilt e st1) n (sd_members d) TO1 SO1 PT names st1 US NE xs PX SH1 (le_n _))
      as (F0 & fs & st2 & E & GR & FO & FN); [congruence|].
    assert (AG : anon = given_names xs fs) by (unfold anon; rewrite (given_same _ _ _ PX); now rewrite FN).
    assert (AP : forall x, In (Some x) (map m_name (map entry_of (sd_members d))) -> ~ In x anon).
    { intros x I0 Ix. apply in_map_iff in I0. destruct I0 as (m & Ex & I). destruct (given_in _ _ _ Ix) as [_ (m0 & I0 & E0)]. refine (NA _ m x I Ex (proj1 (NR x Ix))).
      exists (entry_of m0). split; [now apply in_map|exact E0]. }
    assert (AO : anon_ok (st_classes st2) anon fs = true).
    { unfold anon_ok. apply forallb_forall. intros x Ix. destruct (given_in _ _ _ Ix) as [In_ _]. rewrite <- FN in In_. apply in_map_iff in In_. destruct In_ as (f0 & E0 & I0).
      unfold field_of. destruct (find (fun f => eqb (fd_name f) x) (rev fs)) as [f|] eqn:FD.
      2:{ exfalso. pose proof (find_none _ _ FD f0 (proj1 (in_rev _ _) I0)) as Q. cbn beta in Q. rewrite E0, eqb_refl in Q. discriminate. }
      apply find_some in FD. destruct FD as [If Ef]. apply in_rev in If. apply eqb_eq in Ef.
      destruct (given_field _ _ _ _ PX FO f If) as (v & y & j & (m & Im & U) & C & T).
      { intros z Iz ->. rewrite Ef in Iz. exact (AP x Iz Ix). }
      rewrite T. unfold has_fields. destruct (grown_pending st1 st2 n GR P1 y (proj2 (PT m v y Im U)) j C) as (k' & fs' & -> & ->). reflexivity. }
    set (st3 := {| st_heap := st_heap st2; st_structs := st_structs st2;
                   st_classes := set_class (st_classes st2) i {| k_union := u; k_pack := sd_pack d; k_anon := anon; k_fields := Some fs |} |}).
    pose proof GR as (H2 & R2 & (new & C2) & K2). pose proof (R2 _ _ N1) as N2.
    exists F0, i, st3. split.
    - intros f L. unfold get_struct_with. rewrite G.
      rewrite CtProofs.resolve_known by (unfold CtProofs.known, dmem; now rewrite DG).
      rewrite DG, NM. fold i. fold k0. fold st1. unfold mbind. rewrite (E f L). unfold assign_fields. cbn [k_anon k0 st_structs k_union k_pack]. rewrite AO. cbn [st_structs].
      unfold classes in N2. rewrite N2. reflexivity.
    - split; [exact N2|].
      assert (C3 : st_classes st3 = st_classes st ++ {| k_union := u; k_pack := sd_pack d; k_anon := anon; k_fields := Some fs |} :: new).
      { unfold st3. cbn [st_classes]. rewrite C2. unfold st1. cbn [st_classes]. rewrite <- app_assoc. cbn [app]. apply CtProofs.set_class_app. }
      split; [exact H2|]. split; [|split].
      + intros m j Em. change (classes st3 m) with (classes st2 m). apply R2. unfold classes, st1. cbn [st_structs]. rewrite dget_dset.
        destruct (eqb_spec m n) as [->|]; [unfold classes in Em; congruence|exact Em].
      + exists ({| k_union := u; k_pack := sd_pack d; k_anon := anon; k_fields := Some fs |} :: new). exact C3.
      + intros m j Em Nm. change (classes st3 m) with (classes st2 m) in Em. destruct (eqb_spec m n) as [->|NE'].
        * rewrite N2 in Em. injection Em as <-. split; [apply le_n|]. exists u, {| k_union := u; k_pack := sd_pack d; k_anon := anon; k_fields := Some fs |}.
          split; [exact Dn|]. split; [rewrite C3, nth_error_app2 by apply le_n; unfold i; now rewrite Nat.sub_diag|].
          exists (map entry_of (sd_members d)), p, xs, fs. unfold fields_for. rewrite <- AG. split; [exact DF|]. split; [exact PX|]. split; [now rewrite DP|].
          split; [exact FO|]. split; [exact ND|]. intros x Ix. apply AP. erewrite pair_names; [exact Ix|exact PX].
        * destruct (classes st1 m) as [j'|] eqn:J; [apply OLD in J; [congruence|exact NE']|].
          destruct (K2 m j Em J) as (LE & u' & k' & Dm & NT & CO). unfold st1 in LE. cbn [st_classes] in LE. rewrite app_length in LE. cbn [length] in LE.
          split; [lia|]. exists u', k'. split; [exact Dm|]. split; [|exact CO].
          unfold st3. cbn [st_classes]. rewrite CtProofs.nth_set_class. unfold i. destruct (Nat.eqb_spec (length (st_classes st)) j) as [X|_]; [lia|exact NT].
  Qed.
  Lemma all_ok k : structs_ok k /\ types_ok k.
  Proof.
    induction k as [k IH] using lt_wf_ind. assert (S1 : structs_ok k) by (apply structs_from; intros k' L; split; apply (IH k' L)).
    split; [exact S1|apply types_from; exact S1].
  Qed.
  Lemma type_ok t t0 st : representable cf table s D t -> read_type (fill h t0) = Some t -> ready h st ->
    gets (fun f => get_type e f true t0) st (fun c st' => represents (classes st') t c /\ grown st st').
  Proof.
    intros (cl & c & R) RT SH. eapply gets_impl; [|exact (proj2 (all_ok _) cl t c R t0 st RT (ready_ok _ SH) (le_n _))]. intros c' st' (A & B & _). auto.
  Qed.
  Lemma args_ok l cl cs args st : all_represented cl l cs ->
    read_args read_type (map (fun a => (fst (fst a), fill h (snd (fst a)), snd a)) args) = Some l -> ready h st ->
    gets (fun f => mapMM (fun a => get_type e f true (snd (fst a))) args) st (fun cs st' => all_represented (classes st') l cs /\ grown st st').
  Proof.
    intros A. revert args st. induction A as [|n t v l c cs R NV A IHA]; intros args st RA SH.
    - destruct args as [|[[an at_] av] args]; [|exfalso; cbn [map read_args] in RA].
      + apply gets_ret. split; [constructor|apply grown_refl].
      + destruct (read_type _); [|discriminate]. destruct (read_args _ _); discriminate.
    - destruct args as [|[[an at_] av] args]; cbn [map read_args fst snd] in RA; [discriminate|].
      destruct (read_type (fill h at_)) as [t'|] eqn:RT; [|discriminate].
      destruct (read_args read_type (map (fun a => (fst (fst a), fill h (snd (fst a)), snd a)) args)) as [l'|] eqn:RL; [|discriminate].
      injection RA as -> -> -> ->. cbn [mapMM fst snd].
      eapply gets_bind; [exact (proj2 (all_ok _) cl t c R at_ st RT (ready_ok _ SH) (le_n _))|]. cbv beta. intros c' st1 (R1 & G1 & V1).
      eapply gets_bind; [exact (IHA args st1 RL (grown_ready cf table s D h _ _ G1 SH))|]. cbv beta. intros cs' st2 (R2 & G2).
      apply gets_ret. split; [|eapply grown_trans; eassumption]. constructor; [|auto|exact R2].
      eapply (represents_mono cf table s D (classes st1) (classes st2)); [exact (grown_classes _ _ G2)|exact R1].
  Qed.
  Lemma struct_ok u n st : D u n -> ready h st ->
    gets (fun f => get_struct e f u n) st (fun i st' => classes st' n = Some i /\ grown st st').
  Proof.
    intros Dn SH. apply (proj1 (all_ok _) st u n (ready_ok _ SH) (le_n _) (ne_own s D u n Dn)).
    intros o PO. exfalso. exact (proj1 (proj2 (proj2 CL) n o PO) u Dn).
  Qed.
End Main.
