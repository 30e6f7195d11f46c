(** Headers that are added to others. *)
From Coq Require Import Ascii String Bool Arith ZArith Lia List.
Import ListNotations.
From Verif Require Import PyBase PyBaseFacts PyStr PyExpr MacroModel TypeModel StoreModel StoreSpec StoreProofs DeclModel EvalModel.
From Verif Require Import GramModel PpModel FileModel FilesSpec CachedModel CachedSpec CachedProofs StepsLike StepsProofs GrowSpec.
From Verif Require Import ConstSpec.

Local Notation run := StoreModel.run.

(** ** Histories *)
Lemma body_other f t h : Forall (body_op f t) h -> forall (s : store entry), wfs s -> base_name (cur s) = Some (basename f) ->
  forall g k n, g <> Some (basename f) -> defined_in (run s h) g k n = defined_in s g k n.
Proof.
  induction 1 as [|o h B _ IH]; intros s W C g k n N; [reflexivity|]. destruct B as [(k' & m & v & -> & _)|[(m & -> & _)| ->]].
  - change (run s (Add k' m v :: h)) with (run (add_def s k' m v) h). rewrite IH; [|apply wfs_add; exact W|exact C|exact N].
    rewrite defined_in_add, C. destruct (eqb_spec g (Some (basename f))) as [E|_]; [contradiction|reflexivity].
  - change (run s (Rem Macros m :: h)) with (run (fst (rem_def s Macros m)) h). rewrite IH; [|apply wfs_rem; exact W|rewrite cur_rem; exact C|exact N].
    rewrite defined_in_rem by exact W. rewrite C. destruct (eqb_spec g (Some (basename f))) as [E|_]; [contradiction|reflexivity].
  - change (run s (Switch (Some f) :: h)) with (run (set_cur s (Some f)) h). rewrite IH; [reflexivity|exact W|reflexivity|exact N].
Qed.
Lemma body_wfs h (s : store entry) : wfs s -> wfs (run s h).
Proof. apply wfs_run. Qed.
(** In the file itself: what is defined is what the file defines, or what was defined before. *)
Lemma body_same f t h k n : Forall (body_op f t) h -> (k = Macros -> ~ undefines_macro n t) -> forall (s : store entry) b, wfs s -> base_name (cur s) = Some (basename f) ->
  defined s k n = match defined_in s (Some (basename f)) k n with Some v => Some v | None => b end ->
  defined (run s h) k n = match defined_in (run s h) (Some (basename f)) k n with Some v => Some v | None => b end.
Proof.
  intros F U. induction F as [|o h B _ IH]; intros s b W C D; [exact D|]. destruct B as [(k' & m & v & -> & _)|[(m & -> & UM)| ->]].
  - change (run s (Add k' m v :: h)) with (run (add_def s k' m v) h). apply IH; [apply wfs_add; exact W|exact C|].
    rewrite defined_in_add, C, eqb_refl. unfold defined in *. cbn [add_def defs]. rewrite upd_get. cbn [andb]. destruct (eqb_spec k k') as [->|NK]; cbn [andb].
    + rewrite dget_dset. destruct (eqb_spec n m) as [->|NM]; [reflexivity|exact D].
    + exact D.
  - change (run s (Rem Macros m :: h)) with (run (fst (rem_def s Macros m)) h). apply IH; [apply wfs_rem; exact W|rewrite cur_rem; exact C|].
    assert (X : eqb k Macros && eqb n m = false).
    { destruct (eqb_spec k Macros) as [->|_]; [|reflexivity]. destruct (eqb_spec n m) as [->|_]; [|reflexivity]. destruct (U eq_refl UM). }
    rewrite defined_in_rem, X, andb_false_r by exact W. cbn [andb]. rewrite <- D. unfold defined. rewrite rem_defs. destruct (eqb_spec k Macros) as [->|_]; [|reflexivity].
    cbn [andb] in X. apply dget_ddel_other. intros ->. rewrite eqb_refl in X. discriminate X.
  - change (run s (Switch (Some f) :: h)) with (run (set_cur s (Some f)) h). apply IH; [exact W|reflexivity|exact D].
Qed.

Lemma files_other l : forall H, files_op l H -> forall (s : store entry), wfs s -> forall g k n, (forall x, In x l -> g <> Some (basename (fst x))) ->
  defined_in (run s H) g k n = defined_in s g k n.
Proof.
  induction l as [|[f t] l IH]; intros H FO s W g k n N; cbn [files_op] in FO; [subst H; reflexivity|]. destruct FO as (h & H' & -> & B & FO).
  change (run s (Switch (Some f) :: h ++ H')) with (run (set_cur s (Some f)) (h ++ H')). rewrite run_app.
  rewrite (IH H' FO); [|apply wfs_run; exact W|intros x I1; apply N; right; exact I1].
  rewrite (body_other f t h B); [reflexivity|exact W|reflexivity|exact (N (f, t) (or_introl eq_refl))].
Qed.
Lemma files_last l k n : forall H, files_op l H -> NoDup (map (fun x => basename (fst x)) l) -> (k = Macros -> forall x, In x l -> ~ undefines_macro n (snd x)) ->
  forall (s : store entry), wfs s -> (forall x, In x l -> defined_in s (Some (basename (fst x))) k n = None) ->
  defined (run s H) k n = last_definition (run s H) k n (defined s k n) (map fst l).
Proof.
  induction l as [|[f t] l IH]; intros H FO ND U s W FR; cbn [files_op] in FO; [subst H; reflexivity|]. destruct FO as (h & H' & -> & B & FO).
  change (run s (Switch (Some f) :: h ++ H')) with (run (set_cur s (Some f)) (h ++ H')). rewrite run_app. cbn [map fst last_definition].
  inversion ND as [|? ? N1 N2]; subst. set (s1 := run (set_cur s (Some f)) h).
  assert (W1 : wfs s1) by (apply wfs_run; exact W).
  assert (NF : forall x, In x l -> Some (basename f) <> Some (basename (fst x))).
  { intros x I1 E. injection E as E. apply N1. cbn [fst]. rewrite E. apply (in_map (fun x => basename (fst x))) in I1. exact I1. }
  rewrite (IH H' FO N2 (fun K x I1 => U K x (or_intror I1)) s1 W1).
  2:{ intros x I1. unfold s1. rewrite (body_other f t h B); [|exact W|reflexivity|intros E; exact (NF x I1 (eq_sym E))]. exact (FR x (or_intror I1)). }
  f_equal. rewrite (files_other l H' FO s1 W1 _ k n NF). apply (body_same f t h k n B).
  - intros K. exact (U K (f, t) (or_introl eq_refl)).
  - exact W.
  - reflexivity.
  - change (defined_in (set_cur s (Some f)) (Some (basename f)) k n) with (defined_in s (Some (basename f)) k n).
    pose proof (FR (f, t) (or_introl eq_refl)) as X. cbn [fst] in X. rewrite X. reflexivity.
Qed.
(** What is not among the files read so far has no tables. *)
Lemma files_none l ops H (s0 : store entry) : s0 = run init_store ops -> (forall o, In o ops -> exists k n v, o = Add k n v) -> files_op l H ->
  forall g k n, g <> None -> (forall x, In x l -> g <> Some (basename (fst x))) -> defined_in (run s0 H) g k n = None.
Proof.
  intros ES AO FO g k n N NI. assert (W : wfs s0) by (rewrite ES; apply wfs_reach). rewrite (files_other l H FO s0 W g k n NI).
  destruct (run_adds_keys ops init_store AO) as [_ K0]. rewrite <- ES in K0. destruct (defined_in s0 g k n) as [v|] eqn:D; [|reflexivity].
  apply defined_in_keys in D. apply K0 in D. destruct D as [D|[]]. exfalso. apply N. symmetry. exact D.
Qed.

(** ** The constructor *)
Section Open.
  Context (fo : str -> list str -> option str) (ext : str -> bool) (ev : dict str pobj -> str -> res pobj) (base mods : list str)
          (veq : entry -> entry -> bool) (sub : str -> str -> str -> str) (contents : str -> option str) (find : str -> option str)
          (replace : option (dict str str)).
  Notation opened_with fs md hs enc kw ck := (open_headers fo ext ev base mods veq sub contents find fs md hs [] replace enc kw None ck).
  Lemma add_headers kw hs1 hs2 paths1 paths2 texts1 texts2 fs md enc (ck : bool) fs' md' enc' (ck' : bool) :
    Forall2 (resolves contents find) hs1 paths1 -> Forall2 (resolves contents find) hs2 paths2 ->
    Forall2 (has_text sub contents (repl replace)) paths1 texts1 -> Forall2 (has_text sub contents (repl replace)) paths2 texts2 ->
    NoDup (map basename (paths1 ++ paths2)) -> Forall readable (texts1 ++ texts2) ->
    match opened_with fs md hs1 enc kw ck with
    | None => opened_with fs' md' (hs1 ++ hs2) enc' kw ck' = None
    | Some (Err e) => opened_with fs' md' (hs1 ++ hs2) enc' kw ck' = Some (Err e)
    | Some (Ok (p, _)) => forall q w, opened_with fs' md' (hs1 ++ hs2) enc' kw ck' = Some (Ok (q, w)) ->
        (forall f k n, In f (None :: map (fun x => Some (basename x)) paths1) -> defined_in (p_store q) f k n = defined_in (p_store p) f k n)
        /\ (forall k n, (k = Macros -> forall t, In t texts2 -> ~ undefines_macro n t) ->
            defined (p_store q) k n = last_definition (p_store q) k n (defined (p_store p) k n) paths2)
    end.
  Proof.
    intros RE1 RE2 HT1 HT2 NB RD. destruct (texts_pairs sub contents _ _ _ HT1) as (a & EA & TA & HA). destruct (texts_pairs sub contents _ _ _ HT2) as (b & EB & TB & HB).
    assert (HL : texts_ok sub contents replace (a ++ b)) by (intros f t I1; apply in_app_or in I1; destruct I1; [apply HA|apply HB]; assumption).
    assert (RE : Forall2 (resolves contents find) (hs1 ++ hs2) (map fst (a ++ b))) by (rewrite map_app, EA, EB; apply Forall2_app; assumption).
    rewrite <- EA in RE1. rewrite (open_read fo ext ev base mods veq sub contents find replace fs md hs1 [] enc kw ck a RE1 HA).
    rewrite (open_read fo ext ev base mods veq sub contents find replace fs' md' (hs1 ++ hs2) [] enc' kw ck' (a ++ b) RE HL).
    destruct (add_kw init_store kw) as [s0|e] eqn:AK; [|reflexivity]. cbn [bind copy_all].
    destruct (add_kw_ops kw init_store s0 AK) as (ops & ES & AO & _). assert (W0 : wfs s0) by (rewrite ES; apply wfs_reach).
    assert (NBB : NoDup (map (fun x => basename (fst x)) (a ++ b))) by (rewrite <- (map_map fst basename), map_app, EA, EB; exact NB).
    pose proof (base_paths _ NBB) as NP.
    assert (RDA : Forall readable (map snd a) /\ Forall readable (map snd b)) by (rewrite TA, TB; apply Forall_app; exact RD). destruct RDA as [RDA RDB].
    pose proof (files_like fo ext ev base mods (map fst a) (loaded sub contents replace a s0) (loaded sub contents replace (a ++ b) s0) W0 W0 (conj (fun k => eq_refl) (fun f k n => eq_refl))) as FL.
    assert (FE : forall f, In f (map fst a) -> dget (p_files (loaded sub contents replace a s0)) f = dget (p_files (loaded sub contents replace (a ++ b) s0)) f).
    { intros f I1. apply in_map_iff in I1. destruct I1 as ([g t] & <- & I1). cbn [fst]. rewrite (loaded_text sub contents replace a s0 HA g t I1).
      symmetry. apply (loaded_text sub contents replace (a ++ b) s0 HL g t). apply in_or_app. left. exact I1. }
    specialize (FL FE). unfold read_all. rewrite (map_app fst a b), files_app.
    destruct (process_files fo ext ev base mods (loaded sub contents replace a s0) (map fst a)) as [[p|e]|] eqn:EP,
             (process_files fo ext ev base mods (loaded sub contents replace (a ++ b) s0) (map fst a)) as [[p'|e']|] eqn:EP'; cbn [both] in FL; try contradiction; cbn [ended].
    2:{ rewrite FL. reflexivity. }
    2:{ reflexivity. }
    intros q w EQ. destruct (process_files fo ext ev base mods p' (map fst b)) as [[q'|e]|] eqn:EQ'; [|discriminate EQ|discriminate EQ]. cbn [ended] in EQ.
    assert (q' = q) by congruence. subst q'. clear EQ w. destruct FL as (WP & WP' & SD1 & SD2).
    rewrite map_app in NP. destruct (NoDup_left _ _ NP) as [NPA NPB].
    destruct (files_reach fo ext ev base mods a (loaded sub contents replace (a ++ b) s0) p' NPA) as (H1 & E1 & FO1).
    { intros f t I1. apply (loaded_text sub contents replace (a ++ b) s0 HL). apply in_or_app. left. exact I1. }
    { rewrite Forall_map in RDA. exact RDA. }
    { exact EP'. }
    destruct (files_reach fo ext ev base mods b p' q NPB) as (H2 & E2 & FO2).
    { intros f t I1. assert (NA : ~ In f (map fst a)).
      { intros I2. apply (in_map fst) in I1. cbn [fst] in I1. apply in_split in I1. destruct I1 as (b1 & b2 & EB'). rewrite EB', app_assoc in NP. apply NoDup_remove_2 in NP. apply NP.
        apply in_or_app. left. apply in_or_app. left. exact I2. }
      rewrite (files_kept fo ext ev base mods (map fst a) _ _ EP' f NA). apply (loaded_text sub contents replace (a ++ b) s0 HL). apply in_or_app. right. exact I1. }
    { rewrite Forall_map in RDB. exact RDB. }
    { exact EQ'. }
    assert (DIS : forall x y, In x a -> In y b -> basename (fst x) <> basename (fst y)).
    { intros x y I1 I2 E. rewrite map_app in NBB. apply (in_map (fun x => basename (fst x))) in I1, I2. cbn beta in I1, I2. rewrite <- E in I2.
      revert I1 I2 NBB. generalize (map (fun x : str * str => basename (fst x)) a) (map (fun x : str * str => basename (fst x)) b) (basename (fst x)). clear.
      intros a b z I1 I2 ND. apply in_split in I2. destruct I2 as (b1 & b2 & ->). rewrite app_assoc in ND. apply NoDup_remove_2 in ND. apply ND.
      apply in_or_app. left. apply in_or_app. left. exact I1. }
    rewrite E2. split.
    - intros f k n I1. rewrite (files_other b H2 FO2 (p_store p') WP'); [symmetry; apply SD2|]. intros y I2 ->. destruct I1 as [I1|I1]; [discriminate I1|].
      apply in_map_iff in I1. destruct I1 as (x & E & I1). rewrite <- EA in I1. apply in_map_iff in I1. destruct I1 as (z & <- & I1). injection E as E. exact (DIS z y I1 I2 E).
    - intros k n U. assert (DK : defined (p_store p) k n = defined (p_store p') k n) by (unfold defined; rewrite SD1; reflexivity). rewrite DK, <- EB.
      apply (files_last b k n H2 FO2).
      + rewrite map_app in NBB. apply NoDup_left in NBB. apply NBB.
      + intros K x I1. apply (U K). rewrite <- TB. apply in_map. exact I1.
      + exact WP'.
      + intros x I1. rewrite E1. apply (files_none a ops H1 s0 ES AO FO1); [discriminate|]. intros z I2 E. injection E as E. exact (DIS z x I2 I1 (eq_sym E)).
  Qed.
End Open.
