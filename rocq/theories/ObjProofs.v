(** Proofs for C94. *)
From Coq Require Import Ascii String Bool Arith ZArith Lia List.
Import ListNotations.
From Verif Require Import PyBase PyBaseFacts PyStr PyStrFacts PyExpr TypeModel InitModel StoreModel StoreSpec DeclModel DeclSpec CtModel LinkModel LinkSpec LinkProofs LinkRead LinkRun LinkMain LinkCall.
From Verif Require Import ObjModel ObjSpec.
From Verif Require TypeSpec TypeProofs CtSpec CtOne RunSpec LibModel.

Section Obj.
  Context (cf : tconf) (table : dict str tyval) (win : bool) (s : store entry) (D : bool -> str -> Prop)
    (prefix : list str) (exports : str -> bool)
    (CL : closed cf table s D) (TA : tagged s) (EA : enum_tagged s) (UT : usual_table table) (NC : no_clash s prefix).
  Let b := open_with cf table win s prefix exports.
  Let e := l_env (b_lib b).
  Let h := l_heap (b_lib b).
  Notation settled := (settled cf table s D).
  Notation is_object := (is_object cf table s D).
  Notation found_in := (found_in cf table s D prefix).
  Notation own := (own cf s).
  Notation orderly := (orderly cf table s D prefix).
  Notation grown := (grown cf table s D).
  Notation settled_alias := (enum_alias cf s).

  Lemma defined_dmem k n : is_defined b k n = true <-> defined s k n <> None.
  Proof.
    change (is_defined b k n) with (dmem (defs s k) n). unfold dmem, defined. destruct (dget (defs s k) n); split; congruence.
  Qed.
  Lemma defined_not k n : is_defined b k n = false <-> defined s k n = None.
  Proof.
    rewrite <- not_true_iff_false, defined_dmem. destruct (defined s k n) as [x|]; split; intros H.
    - exfalso. apply H. discriminate.
    - discriminate H.
    - reflexivity.
    - intros N. apply N. reflexivity.
  Qed.
  Lemma object_mono ct ct' k n o : grown ct ct' -> is_object ct k n o -> is_object ct' k n o.
  Proof.
    intros G. pose proof (grown_classes _ _ _ _ _ _ G) as M. pose proof G as (_ & _ & (new & CN) & _).
    assert (X : forall u i c, classes ct n = Some i -> nth_error (st_classes ct) i = Some c -> class_of cf table s D (classes ct) u n c ->
      classes ct' n = Some i /\ nth_error (st_classes ct') i = Some c /\ class_of cf table s D (classes ct') u n c).
    { intros u i c A B C. split; [apply M; exact A|]. split; [rewrite CN, nth_error_app1; [exact B|]; apply nth_error_Some; congruence|].
      apply (class_mono cf table s D (classes ct) (classes ct')); assumption. }
    destruct k; cbn [ObjSpec.is_object]; try (intros H; exact H).
    - intros (t & c & T & -> & R). exists t, c. split; [exact T|]. split; [reflexivity|]. apply (represents_mono cf table s D (classes ct) (classes ct') M). exact R.
    - intros (i & c & -> & A & B & C). destruct (X false i c A B C) as (A' & B' & C'). exists i, c. auto.
    - intros (i & c & -> & A & B & C). destruct (X true i c A B C) as (A' & B' & C'). exists i, c. auto.
    - intros (args & r & c & cs & SG & -> & R & AR). exists args, r, c, cs. split; [exact SG|]. split; [reflexivity|].
      split; [apply (represents_mono cf table s D (classes ct) (classes ct') M); exact R|].
      apply (proj2 (proj2 (represents_mono cf table s D (classes ct) (classes ct') M))). exact AR.
  Qed.
  Lemma void_any cl cl' t : represents cf table s D cl t PVoid -> represents cf table s D cl' t PVoid.
  Proof.
    intros R. inversion R as [t0 t' c0 X Dr E1 E2]. subst t0 c0. apply (re_type _ _ _ _ _ t t' PVoid X).
    inversion Dr as [q n c0 OB E1 E2|q t1 p SP E1 E2|q t1 c0 NS NF Dr' E1 E2|q t1 c0 Dr' E1 E2|q n t1 c0 L1 A Dr' NV E1 E2|q q' l t1 c0 cs Dr' AR E1 E2].
    - subst c0 t'. apply di_base. inversion OB as [ws c0 IO SPE N1 N2 E3 E4|w v ID NS G E3 E4| | |u m i Dn C E3 E4|]; [|constructor].
      apply ob_named; assumption.
    - exfalso. destruct c0; discriminate E2.
    - exfalso. destruct c0; discriminate E2.
    - exfalso. exact (arrays_not_void n c0 E2).
  Qed.
  Lemma not_none ct k n o : is_object ct k n o -> something cf table s D k n -> is_none o = false.
  Proof.
    intros O (NN & T). destruct k; cbn [ObjSpec.is_object] in O; try contradiction.
    - destruct O as (t & c & TD & -> & R). destruct (T eq_refl) as (t' & cl & c' & TD' & R' & NV). assert (t' = t) by congruence. subst t'.
      cbn [is_none]. destruct c; try reflexivity. exfalso. apply NV. symmetry. apply (type_unique cf table s D cl t); [exact CL|exact UT|apply (void_any (classes ct)); exact R|exact R'].
    - destruct O as (i & c & -> & _). reflexivity.
    - destruct O as (i & c & -> & _). reflexivity.
    - destruct O as (m & l & _ & _ & ->). reflexivity.
    - destruct O as (args & r & c & cs & _ & -> & _). reflexivity.
    - destruct O as (v & V & ->). cbn [is_none]. destruct v; try reflexivity. exfalso. apply NN. right. auto.
  Qed.
  Definition failing (k : kind) (n : str) (x : exc) : Prop := k = Functions /\ exports n = false /\ x = KeyError.
  Definition outcome (k : kind) (n : str) (r : res lobj) (ct : cst) : Prop :=
    match r with Ok o => is_object ct k n o /\ (k = Functions -> exports n = true) | Err x => failing k n x end.
  Lemma outcome_mono ct ct' k n r : grown ct ct' -> outcome k n r ct -> outcome k n r ct'.
  Proof. intros G. destruct r as [o|x]; [|intros H; exact H]. intros (A & B). split; [apply (object_mono ct); assumption|exact B]. Qed.
  Lemma comp_made u n ct : grown (CtSpec.start h) ct -> D u n ->
    exists F i c ct', (forall f, F <= f -> get_struct e f u n ct = (Ok i, ct')) /\ grown ct ct'
      /\ classes ct' n = Some i /\ nth_error (st_classes ct') i = Some c /\ class_of cf table s D (classes ct') u n c.
  Proof.
    intros G Dn. destruct (load_linked cf table win s) as (LK & _ & EC & ET).
    destruct (struct_ok cf table s D e h LK EC ET CL TA UT u n ct Dn (from_start cf table s D h ct G)) as (F & i & ct' & E & C & G').
    pose proof (grown_trans cf table s D _ _ _ G G') as (_ & _ & _ & K). destruct (K n i C eq_refl) as (_ & u' & k & Dn' & NT & CO).
    pose proof (ne_own s D u n Dn) as Dn0. assert (u' = u) as -> by (destruct u', u; try reflexivity; destruct (proj1 (proj2 CL) n); assumption).
    exists F, i, k, ct'. auto.
  Qed.
  Lemma enum_found n m : enum_alias cf s n m -> exists l, enum_of b n = Ok (VEnum l) /\ defined s Enums m = Some (EEnum l).
  Proof.
    intros ((q & X) & ID & NS & DT & DE & l & L). exists l. split; [|exact L]. destruct (load_linked cf table win s) as (LK & _ & EC & ET).
    unfold enum_of. rewrite (proj2 (defined_not Enums n) DE), (proj2 (defined_dmem Types n) DT). cbn [negb].
    change (mk_type (SName n) [] []) with (@Ok (ctype nat) (CT (SName n) [] [Some []])). cbn [bind]. change (l_env (b_lib b)) with e.
    rewrite <- EC in X.
    destruct (eval_expanded s e h LK (TBase [] n) (TBase q ($"enum " ++ m)) n [] [] [] X eq_refl eq_refl eq_refl) as (c & ds' & q' & qs' & E & B).
    change (l_env (load cf table win s)) with e in E. rewrite E. cbn [bind t_spec].
    pose proof (build_base _ _ _ _ B) as BN. cbn [base_name] in BN. rewrite <- BN.
    rewrite TypeProofs.canon_tag by (try assumption; cbn; auto).
    assert (SW : starts_with $"enum " ($"enum " ++ m) = true) by reflexivity. rewrite SW.
    destruct (lk_types _ _ _ LK _ _ (EA m l L)) as (t & G & FT). change (l_env (load cf table win s)) with e in G.
    unfold tag_entry. rewrite G. destruct t as [sp ds qs]. rewrite fill_eq in FT. injection FT as F1 F2 F3.
    destruct ds as [|d ds]; [discriminate F2|]. destruct d as [x|a|args]; try discriminate F2. cbn [map filld] in F2. injection F2 as -> F2.
    cbn [bind]. change (defs (b_store b) Enums) with (defs s Enums). unfold defined in L. rewrite L. reflexivity.
  Qed.
  Lemma build_ok ct k n : grown (CtSpec.start h) ct -> own k n -> settled k n ->
    exists F r ct', (forall f, F <= f -> build b f k n ct = (r, ct')) /\ grown ct ct' /\ outcome k n r ct'.
  Proof.
    intros G (IK & OW) SE. destruct (load_linked cf table win s) as (LK & FN & EC & ET).
    destruct OW as [DN|(-> & m & AL)].
    2:{ destruct (enum_found n m AL) as (l & E & L). exists 0, (Ok (VEnum l)), ct. split; [intros f _; unfold build, lift; rewrite E; reflexivity|].
        split; [apply grown_refl|]. split; [exists m, l; auto|discriminate]. }
    specialize (SE DN). destruct IK as [<-|[<-|[<-|[<-|[<-|[<-|[]]]]]]].
    - destruct SE as (v & V). exists 0, (Ok (VValue v)), ct. split; [|split; [apply grown_refl|split; [exists v; auto|discriminate]]].
      intros f _. unfold build. change (defs (b_store b) Values) with (defs s Values). unfold defined in V. rewrite V. reflexivity.
    - destruct SE as (args & r & SG). pose proof SG as (u & q & DF & RF & RR & NCV & RA).
      destruct (exports n) eqn:EX.
      + destruct (call_types cf table win s D CL TA UT n u q args r ct DF RF RR NCV RA (from_start cf table s D _ ct G)) as (sig & F & c & cs & ct' & GS & E & R1 & R2 & G').
        exists F, (Ok (VFunction n c cs)), ct'. split; [|split; [exact G'|split; [exists args, r, c, cs; auto|intros _; exact EX]]].
        intros f Lf. unfold build. change (b_exports b n) with (exports n). rewrite EX. change (l_functions (b_lib b)) with (l_functions (load cf table win s)).
        rewrite GS. unfold mbind. change (l_env (b_lib b)) with (l_env (load cf table win s)). rewrite E by exact Lf. reflexivity.
      + exists 0, (Err KeyError), ct. split; [|split; [apply grown_refl|repeat split; exact EX]].
        intros f _. unfold build. change (b_exports b n) with (exports n). rewrite EX. reflexivity.
    - destruct SE as (t & TD & RP). pose proof TD as TD'. unfold typedef_of in TD'. destruct (defined s Types n) as [[u| | | | | | |]|] eqn:DT; try discriminate TD'.
      destruct (lk_types _ _ _ LK n u DT) as (t0 & GT & FT).
      destruct (type_ok cf table s D e h LK EC ET CL TA UT t t0 ct RP) as (F & c & ct' & E & R & G'); [change h with (l_heap (load cf table win s)); rewrite FT; exact TD'|exact (from_start cf table s D h ct G)|].
      exists F, (Ok (VType c)), ct'. split; [|split; [exact G'|split; [exists t, c; auto|discriminate]]].
      intros f Lf. unfold build. change (l_env (b_lib b)) with (l_env (load cf table win s)). rewrite GT. unfold mbind.
      change (l_env (load cf table win s)) with e. rewrite E by exact Lf. reflexivity.
    - destruct (comp_made false n ct G SE) as (F & i & c & ct' & E & G' & A & B & C). exists F, (Ok (VType (PClass i))), ct'.
      split; [|split; [exact G'|split; [exists i, c; auto|discriminate]]]. intros f Lf. unfold build, mbind. change (l_env (b_lib b)) with e. rewrite E by exact Lf. reflexivity.
    - destruct (comp_made true n ct G SE) as (F & i & c & ct' & E & G' & A & B & C). exists F, (Ok (VType (PClass i))), ct'.
      split; [|split; [exact G'|split; [exists i, c; auto|discriminate]]]. intros f Lf. unfold build, mbind. change (l_env (b_lib b)) with e. rewrite E by exact Lf. reflexivity.
    - destruct SE as (l & L). exists 0, (Ok (VEnum l)), ct. split; [|split; [apply grown_refl|split; [exists n, l; auto|discriminate]]].
      intros f _. unfold build, lift, enum_of. rewrite (proj2 (defined_dmem Enums n) DN). change (defs (b_store b) Enums) with (defs s Enums).
      unfold defined in L. rewrite L. reflexivity.
  Qed.

  (** ** The machine *)
  Definition good (st : lstate) : Prop :=
    grown (CtSpec.start h) (q_ct st)
    /\ (forall k n o, dget (q_objs st k) n = Some o -> own k n /\ outcome k n (Ok o) (q_ct st))
    /\ (forall name o, dget (q_all st) name = Some o -> forall k n, found_in order name k n -> dget (q_objs st k) n = Some o).
  Definition grows (st st' : lstate) : Prop :=
    grown (q_ct st) (q_ct st')
    /\ (forall k n o, dget (q_objs st k) n = Some o -> dget (q_objs st' k) n = Some o)
    /\ (forall name o, dget (q_all st) name = Some o -> dget (q_all st') name = Some o).
  Lemma grows_refl st : grows st st.
  Proof. split; [apply grown_refl|]. split; auto. Qed.
  Lemma grows_trans a c d : grows a c -> grows c d -> grows a d.
  Proof. intros (G1 & O1 & A1) (G2 & O2 & A2). split; [eapply grown_trans; eassumption|]. split; auto. Qed.
  Lemma good_opened : good (opened b).
  Proof. split; [apply grown_refl|]. split; intros; discriminate. Qed.
  Lemma own_usable k n : own k n -> usable s k n.
  Proof. intros (_ & [DN|(-> & m & AL)]); [left; exact DN|]. right. split; [cbn; tauto|apply AL]. Qed.
  Lemma own_acceptable k n : own k n -> acceptable b k n = true.
  Proof.
    intros OW. destruct (own_usable k n OW) as [DN|[IK DT]]; unfold acceptable; apply orb_true_iff.
    - left. apply defined_dmem. exact DN.
    - right. rewrite (proj2 (defined_dmem Types n) DT), andb_true_r. unfold mem. apply existsb_exists. exists k. split; [exact IK|apply eqb_refl].
  Qed.
  Lemma not_cached st k n : good st -> own k n -> dget (q_objs st k) n = None -> existsb (dmem (q_objs st k)) (all_names b n) = false.
  Proof.
    intros (_ & GO & _) OW N. apply not_true_iff_false. intros X. apply existsb_exists in X. destruct X as (m & I1 & DM).
    unfold dmem in DM. destruct (dget (q_objs st k) m) as [o|] eqn:G; [|discriminate]. destruct (GO k m o G) as (OM & _).
    destruct I1 as [<-|I1]; [congruence|]. apply in_map_iff in I1. destruct I1 as (p & <- & I1). destruct p as [|c p]; [cbn [app] in G; congruence|].
    apply (NC k n (c :: p) I1); [discriminate|apply own_usable; exact OW|apply own_usable; exact OM].
  Qed.
  Lemma kind_known k : In k order -> mem k LibModel.access_kinds = true.
  Proof. intros I1. unfold mem. apply existsb_exists. exists k. split; [exact I1|apply eqb_refl]. Qed.
  Lemma call_ok st k n : good st -> own k n -> settled k n ->
    exists F r st', (forall f, F <= f -> lib_call b f k n st = (r, st')) /\ good st' /\ grows st st' /\ outcome k n r (q_ct st')
      /\ (forall o, r = Ok o -> dget (q_objs st' k) n = Some o).
  Proof.
    intros GD OW SE. pose proof GD as (GC & GO & GA). unfold lib_call. rewrite (kind_known k (proj1 OW)). cbn [negb].
    destruct (dget (q_objs st k) n) as [o|] eqn:Q.
    - exists 0, (Ok o), st. split; [reflexivity|]. split; [exact GD|]. split; [apply grows_refl|]. split; [apply GO; exact Q|]. intros o' E. congruence.
    - destruct (build_ok (q_ct st) k n GC OW SE) as (F & r & ct' & E & G' & OC).
      assert (MK : forall f, F <= f -> make_obj b f k n st = (r, with_ct st ct')).
      { intros f Lf. unfold make_obj. rewrite (not_cached st k n GD OW Q). unfold all_names. cbn [find]. rewrite (own_acceptable k n OW), E by exact Lf. reflexivity. }
      destruct r as [o|x].
      + eexists F, (Ok o), _. split; [intros f Lf; rewrite (MK f Lf); reflexivity|]. cbn [q_ct q_objs q_all with_ct]. split; [|split; [|split; [exact OC|]]].
        * split; cbn [q_ct q_objs q_all]; [eapply grown_trans; eassumption|]. split.
          -- intros k' n' o'. destruct (eqb_spec k' k) as [->|NK]; [rewrite dget_dset; destruct (eqb_spec n' n) as [->|NN]|].
             ++ intros X. injection X as <-. split; [exact OW|exact OC].
             ++ intros X. destruct (GO k n' o' X) as (A & B). split; [exact A|apply (outcome_mono (q_ct st)); assumption].
             ++ intros X. destruct (GO k' n' o' X) as (A & B). split; [exact A|apply (outcome_mono (q_ct st)); assumption].
          -- intros name o' X k' n' FD. pose proof (GA name o' X k' n' FD) as Y. destruct (eqb_spec k' k) as [->|NK]; [|exact Y].
             rewrite dget_dset. destruct (eqb_spec n' n) as [->|NN]; [congruence|exact Y].
        * split; cbn [q_ct q_objs q_all]; [exact G'|]. split; [|auto]. intros k' n' o' X. destruct (eqb_spec k' k) as [->|NK]; [|exact X].
          rewrite dget_dset. destruct (eqb_spec n' n) as [->|NN]; [congruence|exact X].
        * intros o' X. rewrite eqb_refl, dget_dset, eqb_refl. congruence.
      + exists F, (Err x), (with_ct st ct'). split; [intros f Lf; rewrite (MK f Lf); reflexivity|]. split; [|split; [|split; [exact OC|discriminate]]].
        * split; cbn [q_ct q_objs q_all with_ct]; [eapply grown_trans; eassumption|]. split.
          -- intros k' n' o' X. destruct (GO k' n' o' X) as (A & B). split; [exact A|apply (outcome_mono (q_ct st)); assumption].
          -- intros name o' X k' n' FD. exact (GA name o' X k' n' FD).
        * split; cbn [q_ct q_objs q_all with_ct]; [exact G'|]. split; auto.
  Qed.
  Lemma find_first {A} (f : A -> bool) l x : find f l = Some x -> exists l1 l2, l = l1 ++ x :: l2 /\ f x = true /\ forall y, In y l1 -> f y = false.
  Proof.
    induction l as [|a l IH]; cbn [find]; [discriminate|]. destruct (f a) eqn:FA.
    - intros E. injection E as <-. exists [], l. split; [reflexivity|]. split; [exact FA|]. intros y [].
    - intros E. destruct (IH E) as (l1 & l2 & -> & FX & N). exists (a :: l1), l2. split; [reflexivity|]. split; [exact FX|].
      intros y [<-|I1]; [exact FA|apply N; exact I1].
  Qed.
  (** The candidate the loop takes is the one the specification names. *)
  Lemma first_candidate name k n n' : find (is_defined b k) (all_names b name) = Some n' ->
    (exists l1 l2, candidates prefix name = l1 ++ n :: l2 /\ forall y, In y l1 -> defined s k y = None) -> defined s k n <> None -> n = n'.
  Proof.
    intros FI (l1 & l2 & E & N) DN. destruct (find_first _ _ _ FI) as (a1 & a2 & E' & FX & N').
    change (all_names b name) with (candidates prefix name) in E'. rewrite E in E'. clear FI E. revert a1 E' N' N.
    induction l1 as [|x l1 IH]; intros a1 E' N' N; destruct a1 as [|y a1]; cbn [app] in E'.
    - congruence.
    - injection E' as -> E'. specialize (N' y (or_introl eq_refl)). apply defined_not in N'. congruence.
    - injection E' as -> E'. specialize (N n' (or_introl eq_refl)). apply defined_dmem in FX. congruence.
    - injection E' as -> E'. apply (IH a1 E'); [intros z I1; apply N'; right; exact I1|intros z I1; apply N; right; exact I1].
  Qed.
  Lemma something_defined k n : something cf table s D k n -> defined s k n <> None.
  Proof. intros (NN & _) E. apply NN. left. exact E. Qed.
  Lemma search_ok name : (forall k n, In n (candidates prefix name) -> settled k n) ->
    forall ks st, (forall k, In k ks -> In k order) -> good st ->
    exists F r st', (forall f, F <= f -> search_kinds b f (all_names b name) ks st = (r, st')) /\ good st' /\ grows st st'
      /\ forall k n, found_in ks name k n -> outcome k n r (q_ct st') /\ forall o, r = Ok o -> dget (q_objs st' k) n = Some o.
  Proof.
    intros SE. induction ks as [|k0 ks IH]; intros st OK GD.
    - exists 0, (Err NameError), st. split; [reflexivity|]. split; [exact GD|]. split; [apply grows_refl|].
      intros k n ((l1 & l2 & E & _) & _). destruct l1; discriminate E.
    - assert (OK' : forall k, In k ks -> In k order) by (intros k I1; apply OK; right; exact I1). cbn [search_kinds].
      destruct (find (is_defined b k0) (all_names b name)) as [n0|] eqn:FI.
      + destruct (find_first _ _ _ FI) as (a1 & a2 & E0 & FX & N0).
        assert (IC : In n0 (candidates prefix name)) by (change (all_names b name) with (candidates prefix name) in E0; rewrite E0; apply in_or_app; right; left; reflexivity).
        assert (OW : own k0 n0) by (split; [apply OK; left; reflexivity|left; apply defined_dmem; exact FX]).
        destruct (call_ok st k0 n0 GD OW (SE k0 n0 IC)) as (F & r & st1 & E & GD1 & GR1 & OC & CA).
        assert (HERE : forall k n, found_in (k0 :: ks) name k n -> (k = k0 /\ n = n0 /\ something cf table s D k0 n0) \/ (found_in ks name k n /\ null s k0 n0)).
        { intros k n ((l1 & l2 & EK & NU) & CA1 & SM). destruct l1 as [|k1 l1]; cbn [app] in EK; injection EK as EK1 EK2.
          - left. subst k0. assert (n = n0) as -> by exact (first_candidate name k n n0 FI CA1 (something_defined k n SM)). auto.
          - right. subst k1. split; [|apply NU; [left; reflexivity|exact IC]]. split; [|split; [exact CA1|exact SM]].
            exists l1, l2. split; [exact EK2|]. intros k' n' I1 I2. apply NU; [right; exact I1|exact I2]. }
        destruct r as [o|x].
        * destruct (is_none o) eqn:NO.
          -- destruct (IH st1 OK' GD1) as (F2 & r2 & st2 & E2 & GD2 & GR2 & H2). exists (max F F2), r2, st2.
             split; [intros f Lf; rewrite E by lia; rewrite NO; apply E2; lia|]. split; [exact GD2|]. split; [eapply grows_trans; eassumption|].
             intros k n FD. destruct (HERE k n FD) as [(-> & -> & SM)|(FD' & _)]; [|apply H2; exact FD'].
             exfalso. rewrite (not_none (q_ct st1) k0 n0 o (proj1 OC) SM) in NO. discriminate NO.
          -- exists F, (Ok o), st1. split; [intros f Lf; rewrite E by exact Lf; rewrite NO; reflexivity|]. split; [exact GD1|]. split; [exact GR1|].
             intros k n FD. destruct (HERE k n FD) as [(-> & -> & SM)|(_ & [NU|(-> & NU)])]; [split; [exact OC|exact CA]| |].
             ++ exfalso. apply defined_dmem in FX. congruence.
             ++ exfalso. destruct OC as ((v & V & ->) & _). assert (v = ONone) by congruence. subst v. discriminate NO.
        * exists F, (Err x), st1. split; [intros f Lf; rewrite E by exact Lf; reflexivity|]. split; [exact GD1|]. split; [exact GR1|].
          intros k n FD. destruct (HERE k n FD) as [(-> & -> & SM)|(_ & [NU|(-> & NU)])]; [split; [exact OC|discriminate]| |].
          -- exfalso. apply defined_dmem in FX. congruence.
          -- exfalso. destruct OC as (X & _). discriminate X.
      + destruct (IH st OK' GD) as (F2 & r2 & st2 & E2 & GD2 & GR2 & H2). exists F2, r2, st2. split; [exact E2|]. split; [exact GD2|]. split; [exact GR2|].
        intros k n ((l1 & l2 & EK & NU) & CA1 & SM). destruct l1 as [|k1 l1]; cbn [app] in EK; injection EK as EK1 EK2.
        * exfalso. subst k0. destruct CA1 as (c1 & c2 & EC & _). pose proof (find_none _ _ FI n) as X.
          change (all_names b name) with (candidates prefix name) in X. rewrite EC in X.
          assert (I1 : In n (c1 ++ n :: c2)) by (apply in_or_app; right; left; reflexivity). specialize (X I1). apply defined_not in X.
          exact (something_defined k n SM X).
        * subst k1. apply H2. split; [|split; [exact CA1|exact SM]]. exists l1, l2. split; [exact EK2|]. intros k' n' I1 I2. apply NU; [right; exact I1|exact I2].
  Qed.
  Lemma attr_ok name st : (forall k n, In n (candidates prefix name) -> settled k n) -> good st ->
    exists F r st', (forall f, F <= f -> lib_attr b f name st = (r, st')) /\ good st' /\ grows st st'
      /\ forall k n, found_in order name k n -> outcome k n r (q_ct st') /\ forall o, r = Ok o -> dget (q_objs st' k) n = Some o.
  Proof.
    intros SE GD. unfold lib_attr. destruct (dget (q_all st) name) as [o|] eqn:Q.
    - exists 0, (Ok o), st. split; [reflexivity|]. split; [exact GD|]. split; [apply grows_refl|].
      intros k n FD. pose proof (proj2 (proj2 GD) name o Q k n FD) as X. split; [apply (proj1 (proj2 GD)); exact X|]. intros o' E. congruence.
    - destruct (search_ok name SE order st (fun k I1 => I1) GD) as (F & r & st1 & E & GD1 & GR1 & H1). destruct r as [o|x].
      + eexists F, (Ok o), _. split; [intros f Lf; change LibModel.access_kinds with order; rewrite E by exact Lf; reflexivity|]. cbn [q_ct q_objs q_all].
        destruct GD1 as (A & B & C). split; [|split].
        * split; [exact A|]. split; [exact B|]. cbn [q_all q_ct]. intros name' o'. rewrite dget_dset. destruct (eqb_spec name' name) as [->|NN]; [|apply C].
          intros X. injection X as <-. intros k n FD. exact (proj2 (H1 k n FD) o eq_refl).
        * destruct GR1 as (G1 & G2 & G3). split; [exact G1|]. split; [exact G2|]. cbn [q_all]. intros name' o' X. rewrite dget_dset.
          destruct (eqb_spec name' name) as [->|NN]; [congruence|apply G3; exact X].
        * intros k n FD. apply (H1 k n FD).
      + exists F, (Err x), st1. split; [intros f Lf; change LibModel.access_kinds with order; rewrite E by exact Lf; reflexivity|].
        split; [exact GD1|]. split; [exact GR1|]. intros k n FD. apply (H1 k n FD).
  Qed.
  Lemma access_ok a st : orderly a -> good st ->
    exists F r st', (forall f, F <= f -> do_access b f a st = (r, st')) /\ good st' /\ grows st st'.
  Proof.
    intros OR GD. destruct a as [name|k n]; cbn [do_access].
    - destruct (attr_ok name st OR GD) as (F & r & st' & E & G1 & G2 & _). exists F, r, st'. auto.
    - destruct OR as [(OW & SE)|(IK & UN)].
      + destruct (call_ok st k n GD OW SE) as (F & r & st' & E & G1 & G2 & _). exists F, r, st'. auto.
      + assert (Q : dget (q_objs st k) n = None).
        { destruct (dget (q_objs st k) n) as [o|] eqn:Q; [|reflexivity]. exfalso. apply (UN n (or_introl eq_refl)). apply own_usable. apply (proj1 (proj2 GD) k n o Q). }
        exists 0, (Err NameError), st. split; [|split; [exact GD|apply grows_refl]]. intros f _. unfold lib_call. rewrite (kind_known k IK), Q. cbn [negb].
        unfold make_obj. destruct (existsb (dmem (q_objs st k)) (all_names b n)); [reflexivity|].
        destruct (find (acceptable b k) (all_names b n)) as [m|] eqn:FI; [|reflexivity]. exfalso. apply find_some in FI. destruct FI as (I1 & AC).
        apply (UN m I1). unfold acceptable in AC. apply orb_true_iff in AC. destruct AC as [AC|AC]; [left; apply defined_dmem; exact AC|].
        apply andb_true_iff in AC. destruct AC as (M & AC). right. split; [|apply defined_dmem; exact AC].
        unfold mem in M. apply existsb_exists in M. destruct M as (k' & I2 & EQ). apply eqb_eq in EQ. subst k'. exact I2.
  Qed.
  Lemma accesses_ok l : forall st, Forall orderly l -> good st ->
    exists st', gives (fun f => accesses b f l st) st' /\ good st' /\ grows st st'.
  Proof.
    induction l as [|a l IH]; intros st F GD.
    - exists st. split; [exists 0; reflexivity|]. split; [exact GD|apply grows_refl].
    - inversion F as [|? ? OA OL]; subst. destruct (access_ok a st OA GD) as (F1 & r & st1 & E1 & GD1 & GR1).
      destruct (IH st1 OL GD1) as (st2 & (F2 & E2) & GD2 & GR2). exists st2. split; [|split; [exact GD2|eapply grows_trans; eassumption]].
      exists (max F1 F2). intros f Lf. unfold accesses. cbn [fold_left]. rewrite E1 by lia. cbn [snd]. apply E2. lia.
  Qed.
  (** ** What accesses give *)
  Lemma about_ok st a k n : good st -> about cf table s D prefix a k n ->
    exists F r st', (forall f, F <= f -> do_access b f a st = (r, st')) /\ good st' /\ grows st st'
      /\ outcome k n r (q_ct st') /\ forall o, r = Ok o -> dget (q_objs st' k) n = Some o.
  Proof.
    intros GD AB. destruct a as [name|k0 n0]; cbn [do_access about] in *.
    - destruct AB as (SE & FD). destruct (attr_ok name st SE GD) as (F & r & st' & E & G1 & G2 & H). destruct (H k n FD) as (H1 & H2).
      exists F, r, st'. auto.
    - destruct AB as (-> & -> & OW & SE). destruct (call_ok st k n GD OW SE) as (F & r & st' & E & G1 & G2 & H1 & H2). exists F, r, st'. auto.
  Qed.
  Lemma expanded_twice cl t1 t2 t c1 c2 : expanded cf s t1 t -> expanded cf s t2 t ->
    represents cf table s D cl t1 c1 -> represents cf table s D cl t2 c2 -> c1 = c2.
  Proof.
    intros X1 X2 R1 R2. apply (type_unique cf table s D cl t1); [exact CL|exact UT|exact R1|]. inversion R2 as [t0 t' c0 X Dr E1 E2]. subst.
    apply (re_type _ _ _ _ _ t1 t c2 X1). assert (t' = t) as <- by exact (expanded_one cf s t2 t' t X X2). exact Dr.
  Qed.
  Lemma same_object ct k n k' n' o o' : same_thing cf s D k n k' n' -> (k = k' /\ n = n') \/ (is_object ct k n o -> is_object ct k' n' o' -> o = o').
  Proof.
    intros SM. revert o o'. induction SM as [k n|n1 n2 t1 t2 t T1 T2 X1 X2|n t q u m T X Dm|k n k' n' SM IH]; intros o o'.
    - left. auto.
    - right. intros (t1' & c1 & T1' & -> & R1) (t2' & c2 & T2' & -> & R2). f_equal.
      apply (expanded_twice (classes ct) t1 t2 t); [exact X1|exact X2|replace t1 with t1' by congruence; exact R1|replace t2 with t2' by congruence; exact R2].
    - right. intros (t1' & c1 & T1' & -> & R1) O.
      assert (Y : exists i, o' = VType (PClass i) /\ classes ct m = Some i) by (destruct u; destruct O as (i & c & A & B & _); exists i; auto).
      destruct Y as (i & -> & C). f_equal. apply (type_unique cf table s D (classes ct) t); [exact CL|exact UT|replace t with t1' by congruence; exact R1|].
      apply (re_type _ _ _ _ _ t _ _ X). apply di_base. apply ob_comp; assumption.
    - destruct (IH o' o) as [(-> & ->)|H]; [left; auto|right]. intros A B. symmetry. exact (H B A).
  Qed.
  Lemma same_kind k n k' n' : same_thing cf s D k n k' n' -> (k = k' /\ n = n') \/ (k <> Functions /\ k' <> Functions).
  Proof.
    induction 1 as [k n|n1 n2 t1 t2 t T1 T2 X1 X2|n t q u m T X Dm|k n k' n' SM IH].
    - left. auto.
    - right. split; discriminate.
    - right. split; [discriminate|destruct u; discriminate].
    - destruct IH as [(-> & ->)|(A & B)]; [left|right]; auto.
  Qed.
  Lemma about_orderly a k n : about cf table s D prefix a k n -> orderly a.
  Proof. destruct a as [name|k0 n0]; cbn; [intros (A & _); exact A|]. intros (-> & -> & OW & SE). left. auto. Qed.
  Theorem obtained l : Forall orderly l ->
    exists st, gives (fun f => accesses b f l (opened b)) st /\ forall a k n, about cf table s D prefix a k n ->
      ((k = Functions -> exports n = true) -> obtains cf table s D b st a k n)
      /\ (k = Functions -> exports n = false -> gives (fun f => fst (do_access b f a st)) (Err KeyError)).
  Proof.
    intros FO. destruct (accesses_ok l (opened b) FO good_opened) as (st & E & GD & _). exists st. split; [exact E|]. intros a k n AB.
    destruct (about_ok st a k n GD AB) as (F & r & st1 & E1 & GD1 & GR1 & OC & CA). split.
    - intros EX. destruct r as [o|x]; [|destruct OC as (K & NX & _); rewrite (EX K) in NX; discriminate NX].
      destruct OC as (OC & _). exists o, st1. split; [exists F; exact E1|]. split; [exact OC|]. intros l2 FO2. change (b_prefix b) with prefix in *.
      destruct (accesses_ok l2 st1 FO2 GD1) as (st2 & E2 & GD2 & GR2). exists st2. split; [exact E2|].
      split; [apply (object_mono (q_ct st1)); [apply GR2|exact OC]|]. intros a' k' n' AB' SM.
      destruct (about_ok st2 a' k' n' GD2 AB') as (F3 & r3 & st3 & E3 & GD3 & GR3 & OC3 & CA3).
      exists F3. intros f Lf. rewrite (E3 f Lf). cbn [fst]. destruct r3 as [o3|x].
      + f_equal. destruct (same_object (q_ct st3) k n k' n' o o3 SM) as [(<- & <-)|H].
        * assert (X : dget (q_objs st3 k) n = Some o) by (apply GR3, GR2, CA; reflexivity). specialize (CA3 o3 eq_refl). congruence.
        * symmetry. apply H; [|exact (proj1 OC3)]. apply (object_mono (q_ct st2)); [apply GR3|]. apply (object_mono (q_ct st1)); [apply GR2|exact OC].
      + exfalso. destruct OC3 as (K & NX & _). destruct (same_kind k n k' n' SM) as [(<- & <-)|(A & B)]; [|congruence]. rewrite (EX K) in NX. discriminate NX.
    - intros K NX. exists F. intros f Lf. rewrite (E1 f Lf). cbn [fst]. destruct r as [o|x]; [|destruct OC as (_ & _ & ->); reflexivity].
      exfalso. rewrite (proj2 OC K) in NX. discriminate NX.
  Qed.
End Obj.
