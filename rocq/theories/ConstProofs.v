(** Proofs for C89: the constants of headers as attributes of a library. *)
From Coq Require Import Ascii String Bool Arith ZArith Lia List.
Import ListNotations.
From Verif Require Import PyBase PyBaseFacts PyStr PyStrFacts PyExpr TypeModel InitModel StoreModel StoreSpec StoreProofs.
From Verif Require Import MacroModel MacroSpec MacroDefProofs PpModel PpSpec TextSpec TextProofs DeclModel DeclSpec DeclStore DeclVars EvalModel EvalSpec EvalProofs EvalEnum.
From Verif Require Import GramModel GramSpec RunSpec GramRun.
From Verif Require Import FileModel FileSpec CallProofs FileProofs FileTables FileWhole FilesSpec FilesProofs PackedSpec PackedProofs PackedWhole ChainSpec ChainProofs.
From Verif Require Import ConstModel ConstSpec.
From Verif Require LibModel LibSpec LibProofs.

(** ** Known values *)
(** As [agrees], on the tables. *)
Definition known_in (s : store entry) (K : dict str Z) : Prop :=
  forall w z, dget K w = Some z -> exists v, defined s Values w = Some (EVal (ONum v)) /\ as_int v = Some z.
Definition tags_in (s : store entry) (T : list str) : Prop :=
  forall n, defined s Enums n <> None -> In n T \/ starts_with $"anon_" n = true.
Lemma value_get (d : dict str entry) n v : (forall m e, In (m, e) d -> exists w, e = EVal w) -> dget d n = Some (EVal v) ->
  dget (flat_map (fun p => match snd p with EVal v => [(fst p, v)] | _ => [] end) d) n = Some v.
Proof.
  induction d as [|[m e] d IH]; intros T D; [discriminate|]. destruct (T m e (or_introl eq_refl)) as (w & ->).
  cbn [flat_map snd fst app dget] in D |- *. destruct (eqb n m); [congruence|]. apply IH; [|exact D]. intros m' e' I1. apply (T m' e'). right. exact I1.
Qed.
Lemma known_agrees s K : typed_values s -> known_in s K <-> agrees (values s) K.
Proof.
  intros T. split; intros H w z D; destruct (H w z D) as (v & E & A); exists v; (split; [|exact A]).
  - apply value_get; assumption.
  - apply defined_value; assumption.
Qed.
Lemma known_same s s' K : known_in s K -> (forall n, dget K n <> None -> defined s' Values n = defined s Values n) -> known_in s' K.
Proof. intros H S1 w z D. rewrite S1 by congruence. exact (H w z D). Qed.
Lemma record_get zs : forall K n z, NoDup (map fst zs) -> dget (record_all K zs) n = Some z ->
  In (n, z) zs \/ (~ In n (map fst zs) /\ dget K n = Some z).
Proof.
  induction zs as [|[x v] zs IH]; intros K n z ND D; [right; split; [intros []|exact D]|].
  cbn [map fst] in ND. inversion ND as [|? ? NI ND']; subst. unfold record_all in D. cbn [fold_left fst snd] in D.
  destruct (IH _ n z ND' D) as [I1|[N1 G]]; [left; right; exact I1|]. rewrite dget_dset in G.
  destruct (eqb_spec n x) as [->|NE].
  - left. left. congruence.
  - right. split; [|exact G]. cbn [map fst]. intros [E|I1]; [congruence|exact (N1 I1)].
Qed.
Lemma c_enum_names cv K i l zs : c_enum cv K i l zs -> map fst zs = map fst l.
Proof. induction 1; cbn [map fst]; congruence. Qed.
Lemma forall2_in {A B} (R : A -> B -> Prop) l l' y : Forall2 R l l' -> In y l' -> exists x, In x l /\ R x y.
Proof. induction 1 as [|a b l l' H F IH]; intros I0; [destruct I0|]. destruct I0 as [E|I1]; [subst; exists a; split; [left; reflexivity|exact H]|]. destruct (IH I1) as (x & I2 & X). exists x. split; [right; exact I2|exact X]. Qed.

(** ** Declarations *)
(** A declaration without the definition in its specifier. *)
Definition with_spec (g : gtop) (t : gspec) : gtop :=
  match g with GTypedef _ l => GTypedef t l | GVar _ l i => GVar t l i | GFun _ d => GFun t d end.
Section Decls.
  Context (fund md : list str) (visible : str -> bool) (ex : dict str pobj -> str -> res pobj).
  Notation ev := (c_eval fund md visible ex).
  Notation cv := (c_const fund md).
  Lemma run_plain s g s1 b : elab_spec ev s (spec_part g) = (s1, Some b) ->
    run_top ev s g = run_top ev s1 (with_spec g (GSpec (b_qual b) (GWord (b_name b)))).
  Proof.
    intros E. assert (X : elab_spec ev s1 (GSpec (b_qual b) (GWord (b_name b))) = (s1, Some b)) by (destruct b; reflexivity).
    destruct g as [t l|t l i|t d]; cbn [spec_part with_spec] in *; unfold run_top; rewrite E, X; reflexivity.
  Qed.
  Lemma top_other k n g s : ~ mentions k n [g] -> defined (fst (run_top ev s g)) k n = defined s k n.
  Proof.
    intros NM. pose proof (tops_other ev k n [g] s NM) as H. cbn [run_tops] in H. destruct (run_top ev s g) as [s1 [e|]]; exact H.
  Qed.
  Lemma top_typed g s : typed_values s -> typed_values (fst (run_top ev s g)).
  Proof. intros T. pose proof (run_tops_typed ev [g] s T) as H. cbn [run_tops] in H. destruct (run_top ev s g) as [s1 [e|]]; exact H. Qed.
  Lemma mentions_value n g : ~ In (Some n) (declared_names g) -> ~ enumerator_in n (inside g) -> ~ mentions Values n [g].
  Proof.
    intros A B [(x & [->|[]] & I1)|(m & l & I1 & I2)]; [exact (A I1)|]. apply B. cbn [flat_map] in I1. rewrite app_nil_r in I1. exists m, l. auto.
  Qed.
  Lemma enum_step s g q m body zs K T : typed_values s -> known_in s K -> tags_in s T ->
    spec_part g = GSpec q (GEnum m body) -> (forall n, m = Some n -> ~ In n T /\ starts_with $"anon_" n = false) -> NoDup (map fst body) ->
    c_enum cv K 0 body zs ->
    (forall n, dget (record_all K zs) n <> None ->
       ~ In (Some n) (declared_names g) /\ ~ enumerator_in n (flat_map inside_decl (decls_part g))) ->
    known_in (fst (run_top ev s g)) (record_all K zs).
  Proof.
    intros TV KN TI SP MN ND CE HI. apply known_agrees in KN; [|exact TV].
    destruct (c_enum_counts fund md visible ex K 0 body zs CE (values s) (VInt 0) KN eq_refl) as (vs & C & F).
    assert (DM : match m with Some n => defined s Enums n = None | None => True end).
    { destruct m as [n|]; [|exact Logic.I]. destruct (defined s Enums n) eqn:D; [|reflexivity]. destruct (MN n eq_refl) as [M1 M2].
      destruct (TI n) as [I1|A]; [congruence|contradiction|congruence]. }
    destruct (enum_elab ev s q m body vs TV ND DM C) as (n & s1 & E & _ & _ & _ & V & _).
    assert (K1 : known_in s1 (record_all K zs)).
    { intros w z D. apply record_get in D; [|rewrite (c_enum_names cv K 0 body zs CE); exact ND]. destruct D as [I1|[N1 D]].
      - destruct (forall2_in _ vs zs (w, z) F I1) as ([w' v] & I2 & X1 & y & X2 & X3). cbn [fst snd] in *. subst w' v. exists y. split; [apply V; exact I2|exact X3].
      - destruct (proj2 (known_agrees s K TV) KN w z D) as (v & D' & A). exists v. split; [|exact A]. rewrite <- D'.
        rewrite (c_enum_names cv K 0 body zs CE) in N1.
        pose proof (top_other Values w (GVar (GSpec q (GEnum m body)) [] NoInit) s) as X.
        assert (R : fst (run_top ev s (GVar (GSpec q (GEnum m body)) [] NoInit)) = s1).
        { unfold run_top. rewrite E. reflexivity. }
        rewrite R in X. apply X. apply mentions_value; [intros []|]. intros (m' & b & I1 & I2). unfold inside in I1.
        cbn [spec_part inside_spec decls_part flat_map app] in I1. destruct I1 as [I1|[]]. injection I1 as _ <-. exact (N1 I2). }
    rewrite (run_plain s g s1 {| b_qual := q; b_name := tag_name $"enum" n |}) by (rewrite SP; exact E).
    apply (known_same s1 _ _ K1). intros w D. destruct (HI w D) as [H1 H2]. apply top_other. apply mentions_value.
    - destruct g; exact H1.
    - intros (m' & b & I1 & I2). apply H2. exists m', b. split; [|exact I2]. destruct g; cbn [with_spec] in I1; unfold inside in I1;
        cbn [spec_part inside_spec decls_part app] in I1; destruct I1 as [I1|I1]; try discriminate I1; exact I1.
  Qed.
  Lemma tags_step s g T : tags_in s T -> tags_in (fst (run_top ev s g)) (enum_tags g ++ T).
  Proof.
    intros TI n D. destruct (starts_with $"anon_" n) eqn:A; [right; reflexivity|]. left. apply in_or_app.
    destruct (in_dec (list_eq_dec ascii_dec) n (enum_tags g)) as [I1|N1]; [left; exact I1|]. right.
    rewrite top_other in D.
    - destruct (TI n D) as [I1|B]; [exact I1|congruence].
    - intros [(l & I1)|B]; [|congruence]. apply N1. unfold enum_tags. cbn [flat_map] in I1. rewrite app_nil_r in I1.
      apply in_flat_map. exists (GEnum (Some n) l). split; [exact I1|left; reflexivity].
  Qed.
  Lemma enumerates_run K T ds K' : enumerates cv K T ds K' -> Forall harmless ds -> Forall named_decls ds ->
    forall s, typed_values s -> known_in s K -> tags_in s T ->
    known_in (fst (run_tops ev s ds)) K' /\ tags_in (fst (run_tops ev s ds)) (flat_map enum_tags ds ++ T).
  Proof.
    induction 1 as [K T|K T g q m body zs ds K' SP MN ND CE HI _ IH|K T g ds K' HI _ IH]; intros HL GN s TV KN TI; [split; assumption| |].
    - inversion HL as [|? ? H1 H2]; subst. inversion GN as [|? ? G1 G2]; subst.
      pose proof (enum_step s g q m body zs K T TV KN TI SP MN ND CE HI) as KN'. pose proof (tags_step s g T TI) as TI'. pose proof (top_typed g s TV) as TV'.
      cbn [run_tops]. pose proof (run_top_ends ev s g H1 G1) as E. destruct (run_top ev s g) as [s1 o]. cbn [fst snd] in *. subst o.
      destruct (IH H2 G2 s1 TV' KN' TI') as [A B]. split; [exact A|]. intros n D. destruct (B n D) as [I1|X]; [left|right; exact X].
      cbn [flat_map]. rewrite !in_app_iff in *. tauto.
    - inversion HL as [|? ? H1 H2]; subst. inversion GN as [|? ? G1 G2]; subst.
      assert (KN' : known_in (fst (run_top ev s g)) K).
      { apply (known_same s _ _ KN). intros n D. destruct (HI n D) as [A B]. apply top_other. apply mentions_value; assumption. }
      pose proof (tags_step s g T TI) as TI'. pose proof (top_typed g s TV) as TV'.
      cbn [run_tops]. pose proof (run_top_ends ev s g H1 G1) as E. destruct (run_top ev s g) as [s1 o]. cbn [fst snd] in *. subst o.
      destruct (IH H2 G2 s1 TV' KN' TI') as [A B]. split; [exact A|]. intros n D. destruct (B n D) as [I1|X]; [left|right; exact X].
      cbn [flat_map]. rewrite !in_app_iff in *. tauto.
  Qed.
End Decls.

(** ** Lines *)
Section Lines.
  Context (fo : str -> list str -> option str) (ext : str -> bool) (ev : dict str pobj -> str -> res pobj).
  Lemma macro_values (s : store entry) n args v w : w <> n -> defined (record_macro ev s n args v) Values w = defined s Values w.
  Proof.
    intros NE. unfold record_macro. destruct (dget (fn_macros s) v) as [[t o]|]; [apply defined_other; left; discriminate|].
    destruct args as [a|]; [|rewrite defined_other by (right; exact NE); apply defined_other; left; discriminate].
    destruct (compile_fn_macro v a) as [t o]. apply defined_other; left; discriminate.
  Qed.
  Lemma expandtabs_prefix s r : ~ In PyStr.tab s -> forall k, exists k', expandtabs_aux k (s ++ r) = s ++ expandtabs_aux k' r.
  Proof.
    induction s as [|c s IH]; intros N k; [exists k; reflexivity|]. cbn [app expandtabs_aux].
    destruct (cheq c PyStr.tab) eqn:E; [exfalso; apply N; left; apply cheq_true in E; exact E|].
    destruct (_ || _); [destruct (IH (fun I1 => N (or_intror I1)) 0) as (k' & ->)|destruct (IH (fun I1 => N (or_intror I1)) (S k)) as (k' & ->)]; exists k'; reflexivity.
  Qed.
  Lemma define_values (s : store entry) n rest w : MacroSpec.ident n -> w <> n -> defined (record_define ev s n rest) Values w = defined s Values w.
  Proof.
    intros ID NE. unfold record_define. destruct (pp_define (n ++ sp :: rest)) as [[[x args] v]|] eqn:P; [|reflexivity].
    apply macro_values. assert (x = n) as ->; [|exact NE]. unfold pp_define, expandtabs in P.
    assert (NT : ~ In PyStr.tab (n ++ [sp])).
    { intros I1. apply in_app_or in I1. destruct I1 as [I1|[I1|[]]]; [|discriminate I1]. destruct (ident_idchars n ID) as [_ F].
      rewrite forallb_forall in F. specialize (F PyStr.tab I1). discriminate F. }
    destruct (expandtabs_prefix (n ++ [sp]) rest NT 0) as (k & E). rewrite <- app_assoc in E. cbn [app] in E. rewrite E in P. clear E.
    rewrite <- app_assoc in P. change (n ++ [sp] ++ ?x) with ([] ++ n ++ (sp :: x)) in P.
    rewrite (pp_name_ident [] n) in P; [|intros c []|exact ID|reflexivity].
    destruct (pp_args _) as [[l r']|]; congruence.
  Qed.
  Lemma macro_name_split rest x r : macro_name rest = Some (x, r) ->
    exists g, rest = g ++ x ++ r /\ forallb is_space g = true /\ MacroSpec.ident x /\ (forall c y, r = c :: y -> is_idchar c = false).
  Proof.
    unfold macro_name. destruct (drop_while_suffix is_space rest) as (g & E & F). destruct (drop_while is_space rest) as [|c y]; [discriminate|].
    destruct (is_idstart c) eqn:S1; [|discriminate]. pose proof (span_app is_idchar y) as A. pose proof (span_all is_idchar y) as B.
    pose proof (fun c r => span_head is_idchar y c r) as C. destruct (span is_idchar y) as [a b]. cbn [fst snd] in *. intros H. injection H as <- <-.
    exists g. split; [rewrite E, A; reflexivity|]. split; [exact F|]. split; [split; [exact S1|intros d I1; rewrite forallb_forall in B; exact (B d I1)]|exact C].
  Qed.
  Lemma effect_values p (s : store entry) l w : ~ defining w l -> defined (line_effect fo ev p s l) Values w = defined s Values w.
  Proof.
    intros ND. unfold line_effect. destruct (directive l) as [[d r]|] eqn:D; [|reflexivity]. destruct (active p); [|reflexivity].
    destruct (eqb_spec d $"define") as [->|_].
    - destruct (macro_name r) as [[n r']|] eqn:M; [|reflexivity]. destruct (macro_name_split r n r' M) as (g & -> & G1 & ID & G2).
      destruct (if PpModel.all_true (ift p) then expand_macros fo (tab p) r' else Ok r') as [x|e]; [|reflexivity].
      apply define_values; [exact ID|]. intros ->. apply ND. exists g, r'. auto.
    - destruct (eqb d $"undef"); [|reflexivity]. destruct (macro_name r) as [[n r']|]; [|reflexivity].
      unfold rem_def. destruct (dmem _ _); [|reflexivity]. destruct (dget _ _) as [t|]; [destruct (dmem _ _)|]; reflexivity.
  Qed.
  Lemma lines_values ls w : Forall (fun l => ~ defining w l) ls -> forall i p (s : store entry) r,
    file_lines fo ext ev i p s ls = Ok r -> defined (snd r) Values w = defined s Values w.
  Proof.
    induction 1 as [|l ls ND F IH]; intros i p s r E; cbn [file_lines] in E; [injection E as <-; reflexivity|].
    destruct (line_step fo ext i p l) as [p'|e]; [|discriminate E]. cbn [bind] in E. rewrite (IH _ _ _ _ E). apply effect_values. exact ND.
  Qed.
  Lemma preprocess_values s path text l s1 text' w : Forall (fun l => ~ defining w l) (split_on nl (join_lines text)) ->
    preprocess_file fo ext ev s path text = Ok (l, s1, text') -> defined s1 Values w = defined s Values w.
  Proof.
    intros F E. unfold preprocess_file in E. cbv zeta in E. destruct (file_lines _ _ _ _ _ _ _) as [r|e] eqn:L; [|discriminate E].
    cbn [bind] in E. assert (s1 = snd r) as -> by congruence. apply (lines_values _ w F _ _ (set_cur s (Some path)) _ L).
  Qed.
  (** ** Macros that contain enumerators *)
  Context (fund md : list str).
  (** The value recorded for the macro [n] is right, given the enumerators [K]. *)
  Definition tracked (K : dict str Z) (n : str) (s : store entry) : Prop :=
    forall v, defined s Macros n = Some (EText v) -> exists x, defined s Values n = Some (EVal x)
      /\ forall z, c_const fund md K v z -> exists y, x = ONum y /\ as_int y = Some z.
  Context (EV : forall env K v z, c_const fund md K v z -> agrees env K -> exists y, ev env v = Ok (ONum y) /\ as_int y = Some z).
  Lemma macro_tracked K n (s : store entry) x args v : typed_values s -> n <> x \/ known_in s K -> tracked K n s -> tracked K n (record_macro ev s x args v).
  Proof.
    intros TV C T. unfold record_macro.
    assert (FN : forall t o, tracked K n (add_def s Fnmacros x (EFnmacro t o))).
    { intros t o w D. rewrite defined_add in D |- *. change (eqb Macros Fnmacros) with false in D. change (eqb Values Fnmacros) with false. exact (T w D). }
    destruct (dget (fn_macros s) v) as [[t o]|]; [apply FN|]. destruct args as [a|]; [destruct (compile_fn_macro v a); apply FN|].
    intros w D. rewrite !defined_add in D |- *. change (eqb Macros Values) with false in D. change (eqb Macros Macros) with true in D.
    change (eqb Values Values) with true. change (eqb Values Macros) with false. cbn [andb] in *.
    destruct (eqb_spec n x) as [->|NE]; [|exact (T w D)]. destruct C as [C|C]; [contradiction C; reflexivity|].
    assert (w = v) by congruence. subst w. eexists. split; [reflexivity|]. intros z CC.
    destruct (EV (values s) K v z CC) as (y & E & A); [apply known_agrees; assumption|]. exists y. unfold eval_text. rewrite E. auto.
  Qed.
  Lemma define_name n rest x args v : MacroSpec.ident n -> pp_define (n ++ sp :: rest) = Some (x, args, v) -> x = n.
  Proof.
    intros ID P. unfold pp_define, expandtabs in P.
    assert (NT : ~ In PyStr.tab (n ++ [sp])).
    { intros I1. apply in_app_or in I1. destruct I1 as [I1|[I1|[]]]; [|discriminate I1]. destruct (ident_idchars n ID) as [_ F].
      rewrite forallb_forall in F. specialize (F PyStr.tab I1). discriminate F. }
    destruct (expandtabs_prefix (n ++ [sp]) rest NT 0) as (k & E). rewrite <- app_assoc in E. cbn [app] in E. rewrite E in P. clear E.
    rewrite <- app_assoc in P. change (n ++ [sp] ++ ?x) with ([] ++ n ++ (sp :: x)) in P.
    rewrite (pp_name_ident [] n) in P; [|intros c []|exact ID|reflexivity].
    destruct (pp_args _) as [[l r']|]; congruence.
  Qed.
  Lemma effect_tracked p (s : store entry) l K n : macro_tables s -> typed_values s -> ~ defining n l \/ known_in s K -> tracked K n s ->
    tracked K n (line_effect fo ev p s l) /\ macro_tables (line_effect fo ev p s l).
  Proof.
    intros M TV C T. unfold line_effect. destruct (directive l) as [[d r]|] eqn:D; [|split; assumption]. destruct (active p); [|split; assumption].
    destruct (eqb_spec d $"define") as [->|_].
    - destruct (macro_name r) as [[x r']|] eqn:MN; [|split; assumption]. destruct (macro_name_split r x r' MN) as (g & -> & G1 & ID & G2).
      destruct (if PpModel.all_true (ift p) then expand_macros fo (tab p) r' else Ok r') as [y|e]; [|split; assumption].
      split; [|apply (define_same ev s x y M)]. unfold record_define. destruct (pp_define (x ++ sp :: y)) as [[[x' args] v]|] eqn:P; [|exact T].
      apply macro_tracked; [exact TV| |exact T]. destruct C as [C|C]; [left|right; exact C].
      rewrite (define_name x y x' args v ID P). intros ->. apply C. exists g, r'. auto.
    - destruct (eqb d $"undef"); [|split; assumption]. destruct (macro_name r) as [[x r']|]; [|split; assumption].
      split; [|apply (del_text s (strip x) M)]. intros w DD. unfold defined in DD |- *. rewrite defs_rem in DD |- *.
      change (eqb Macros Macros) with true in DD. change (eqb Values Macros) with false. cbv iota in *.
      destruct (eqb_spec n (strip x)) as [->|NE]; [rewrite dget_ddel_same in DD by apply M; discriminate|]. rewrite dget_ddel_other in DD by exact NE. exact (T w DD).
  Qed.
  Lemma lines_tracked ls K n : Forall (fun l => ~ defining n l) ls \/ Forall (fun l => forall w, dget K w <> None -> ~ defining w l) ls ->
    forall i p (s : store entry) r, macro_tables s -> typed_values s -> Forall (fun l => ~ defining n l) ls \/ known_in s K -> tracked K n s ->
    file_lines fo ext ev i p s ls = Ok r -> tracked K n (snd r).
  Proof.
    induction ls as [|l ls IH]; intros F i p s r M TV C T E; cbn [file_lines] in E; [injection E as <-; exact T|].
    destruct (line_step fo ext i p l) as [p'|e]; [|discriminate E]. cbn [bind] in E.
    destruct (effect_tracked p s l K n M TV) as [T' M']; [destruct C as [C|C]; [left; inversion C; assumption|right; exact C]|exact T|].
    refine (IH _ _ _ _ _ M' (effect_typed fo ev p s l TV) _ T' E).
    - destruct F as [F|F]; inversion F; auto.
    - destruct C as [C|C]; [left; inversion C; assumption|]. destruct F as [F|F]; [left; inversion F; assumption|right].
      inversion F as [|? ? F1 F2]; subst. apply (known_same s _ K C). intros w D. apply effect_values. exact (F1 w D).
  Qed.
  Lemma preprocess_tracked s path text l s1 text' K n :
    Forall (fun l => ~ defining n l) (split_on nl (join_lines text))
    \/ known_in s K /\ Forall (fun l => forall w, dget K w <> None -> ~ defining w l) (split_on nl (join_lines text)) ->
    macro_tables s -> typed_values s -> tracked K n s ->
    preprocess_file fo ext ev s path text = Ok (l, s1, text') -> tracked K n s1.
  Proof.
    intros F M TV T E. unfold preprocess_file in E. cbv zeta in E. destruct (file_lines _ _ _ _ _ _ _) as [r|e] eqn:L; [|discriminate E].
    cbn [bind] in E. assert (s1 = snd r) as -> by congruence.
    refine (lines_tracked _ K n _ _ _ (set_cur s (Some path)) _ M TV _ T L); destruct F as [F|[F1 F2]]; auto.
  Qed.
End Lines.

(** ** Headers *)
Section Units.
  Context (fo : str -> list str -> option str) (ext : str -> bool).
  Context (fund md : list str) (visible : str -> bool) (ex : dict str pobj -> str -> res pobj) (base mods : list str).
  Notation ev := (c_eval fund md visible ex).
  Notation cv := (c_const fund md).
  Notation Q := (text_value fund md).
  Record holds (s : store entry) (m : cmac) (K : dict str Z) (T : list str) : Prop := {
    h_tables : macro_tables s;
    h_macros : stands_for (macros_of s) m;
    h_typed : typed_values s;
    h_valued : valued Q s;
    h_known : known_in s K;
    h_tags : tags_in s T }.
  Lemma valued_tops s ds m : valued Q s -> macro_tables s -> stands_for (macros_of s) m -> (forall n, obj m n <> None -> ~ mentions Values n ds) ->
    valued Q (fst (run_tops ev s ds)).
  Proof.
    intros V M ST NM n v D.
    assert (DM : defined s Macros n = Some (EText v)) by (rewrite <- D; symmetry; apply tops_other; intros []).
    destruct (V n v DM) as (x & DV & X). exists x. split; [|exact X]. rewrite <- DV. apply tops_other. apply NM.
    destruct ST as (A & _). intros O. apply A in O. apply (texts_defined s n v M) in DM. unfold macros_of in O. cbn [macros] in O. congruence.
  Qed.
  Lemma unit_constants s m K T f K1 : good_config base mods -> holds s m K T ->
    traced_text m (u_text f) (u_lines f) (u_macros f) -> disciplined initial None (ops (u_lines f)) ->
    grouped base mods initial (u_lines f) (u_decls f) -> aligned (u_lines f) -> Forall harmless (u_decls f) ->
    (forall n, dget K n <> None -> ~ defines_macro n (u_text f)) ->
    (forall n, obj (u_macros f) n <> None -> ~ mentions Values n (u_decls f)) ->
    enumerates cv K T (u_decls f) K1 ->
    exists s' text', process_file fo ext ev base mods s (u_path f) (u_text f) = Some (Ok (s', text'))
      /\ holds s' (u_macros f) K1 (flat_map enum_tags (u_decls f) ++ T)
      /\ forall n L, ~ defines_macro n (u_text f) \/ known_in s L /\ (forall w, dget L w <> None -> ~ defines_macro w (u_text f)) ->
           tracked fund md L n s -> tracked fund md L n s'.
  Proof.
    intros GC [M ST TV V KN TI] (ps & segs & b & ET & R & W & NE & F & SL & C) DI G A HL ND NM EN.
    assert (SL' : split_on nl (join_lines (remove_comments (u_text f))) = lines b).
    { rewrite ET. rewrite remove_comments_reads, W, join_lines_segs by assumption. exact SL. }
    destruct (preprocess_traced fo ext ev s m (u_path f) (remove_comments (u_text f)) b (u_lines f) (u_macros f) M ST SL' C DI) as (s1 & E & ST').
    destruct (preprocess_tables fo ext ev Q (text_value_eval fund md visible ex) s (u_path f) _ _ _ _ M E) as (M1 & SD & CU & V1).
    pose proof (parse_grouped base mods (u_lines f) (u_decls f) GC G A (proj1 traced_plain _ _ _ _ C)) as PE.
    assert (NA : Forall named_decls (u_decls f)).
    { eapply Forall_impl; [|exact (grouped_names base mods initial (u_lines f) (u_decls f) G)]. apply good_named. }
    pose proof (run_tops_ends ev (u_decls f) (set_cur s1 (Some (u_path f))) HL NA) as EX.
    assert (TV1 : typed_values s1) by exact (preprocess_typed fo ext ev s (u_path f) _ _ s1 _ TV E).
    assert (KN1 : known_in s1 K).
    { apply (known_same s s1 K KN). intros n D. refine (preprocess_values fo ext ev s (u_path f) _ _ s1 _ n _ E).
      apply Forall_forall. intros l I1 DF. apply (ND n D). exists ps, segs, l. rewrite SL' in I1. rewrite <- SL in I1. auto 10. }
    assert (TI1 : tags_in s1 T).
    { intros n D. apply TI. unfold defined in *. rewrite (SD Enums) in D by discriminate. exact D. }
    destruct (enumerates_run fund md visible ex K T (u_decls f) K1 EN HL NA (set_cur s1 (Some (u_path f))) TV1 KN1 TI1) as [KN2 TI2].
    exists (fst (run_tops ev (set_cur s1 (Some (u_path f))) (u_decls f))), (join [nl] (printed (u_lines f))). split.
    { unfold FileModel.process_file. rewrite E. unfold parse_file. rewrite PE.
      destruct (run_tops ev (set_cur s1 (Some (u_path f))) (u_decls f)) as [s' o]. cbn [snd fst] in *. subst o. reflexivity. }
    assert (DF : forall n l, In l (split_on nl (join_lines (remove_comments (u_text f)))) -> defining n l -> defines_macro n (u_text f)).
    { intros n l I1 D. exists ps, segs, l. rewrite SL' in I1. rewrite <- SL in I1. auto 10. }
    split; [|intros n L C1 TR v D].
    2:{ assert (T1 : tracked fund md L n s1).
        { refine (preprocess_tracked fo ext ev fund md _ s (u_path f) _ _ s1 _ L n _ M TV TR E).
          - intros env L' w z CC AG. exact (c_eval_const fund md visible ex env L' w z CC AG).
          - destruct C1 as [C1|[C1 C2]]; [left|right; split; [exact C1|]]; apply Forall_forall; intros l I1; [intros X; exact (C1 (DF n l I1 X))|].
            intros w DW X. exact (C2 w DW (DF w l I1 X)). }
        assert (DM : defined s1 Macros n = Some (EText v)).
        { rewrite <- D. symmetry. apply (tops_other ev Macros n (u_decls f) (set_cur s1 (Some (u_path f)))). intros []. }
        destruct (T1 v DM) as (x & DV & X). exists x. split; [|exact X]. rewrite <- DV.
        apply (tops_other ev Values n (u_decls f) (set_cur s1 (Some (u_path f)))). apply NM.
        destruct ST' as (A1 & _). intros O. apply A1 in O. apply (texts_defined s1 n v M1) in DM. unfold macros_of in O. cbn [macros] in O. congruence. }
    split.
    - apply run_tables. exact M1.
    - rewrite (run_macros_of ev (u_decls f) (set_cur s1 (Some (u_path f)))). exact ST'.
    - apply run_tops_typed. exact TV1.
    - apply (valued_tops (set_cur s1 (Some (u_path f))) (u_decls f) (u_macros f)); [exact (V1 V)|exact M1|exact ST'|exact NM].
    - exact KN2.
    - exact TI2.
  Qed.
  Lemma units_constants us : good_config base mods -> forall p m K T K', NoDup (map u_path us) ->
    (forall f, In f us -> dget (p_files p) (u_path f) = Some (Some (u_text f))) ->
    holds (p_store p) m K T -> units base mods m us -> enumerators cv K T us K' ->
    exists p' T', process_files fo ext ev base mods p (map u_path us) = Some (Ok p') /\ holds (p_store p') (macros_behind m us) K' T'
      /\ (forall n L, Forall (fun f => ~ defines_macro n (u_text f)) us -> tracked fund md L n (p_store p) -> tracked fund md L n (p_store p'))
      /\ forall K2 T2 us1 f us2 K3 n, holds (p_store p) m K2 T2 -> us = us1 ++ f :: us2 -> enumerators cv K2 T2 us1 K3 ->
           (forall w, dget K3 w <> None -> ~ defines_macro w (u_text f)) -> obj (macros_behind m us1) n = None ->
           Forall (fun g => ~ defines_macro n (u_text g)) us2 -> tracked fund md K3 n (p_store p').
  Proof.
    intros GC. induction us as [|f us IH]; intros p m K T K' ND FI H PR EN.
    { cbn [enumerators] in EN. subst K'. exists p, T. split; [reflexivity|]. split; [exact H|]. split; [auto|].
      intros K2 T2 us1 f us2 K3 n _ E. destruct us1; discriminate E. }
    destruct PR as (TR & DI & GR & AL & HL & PR). destruct EN as (N1 & N2 & K1 & E1 & E2). inversion ND as [|? ? NI ND']; subst.
    destruct (unit_constants (p_store p) m K T f K1 GC H TR DI GR AL HL N1 N2 E1) as (s' & text' & E & H' & TK).
    cbn [map process_files]. rewrite (FI f (or_introl eq_refl)), E.
    destruct (IH {| p_files := dset (p_files p) (u_path f) (Some text'); p_order := p_order p; p_store := s' |} (u_macros f) K1 (flat_map enum_tags (u_decls f) ++ T) K' ND') as (p' & T' & E' & R & R1 & R2).
    - intros g I1. cbn [p_files]. rewrite dget_dset. destruct (eqb_spec (u_path g) (u_path f)) as [X|X]; [|apply FI; right; exact I1].
      exfalso. apply NI. rewrite <- X. apply in_map. exact I1.
    - exact H'.
    - exact PR.
    - exact E2.
    - exists p', T'. split; [exact E'|]. split; [exact R|]. split.
      + intros n L F TR'. inversion F as [|? ? F1 F2]; subst. apply R1; [exact F2|]. apply TK; [left; exact F1|exact TR'].
      + intros K2 T2 us1 g us2 K3 n H2 EQ EN ND3 O F. destruct us1 as [|g' us1]; cbn [app] in EQ.
        * assert (g = f) by congruence. assert (us2 = us) by congruence. subst g us2. cbn [enumerators] in EN. subst K3.
          apply R1; [exact F|]. cbn [p_store]. apply TK; [right; split; [apply H2|exact ND3]|].
          intros v D. exfalso. destruct (h_macros _ _ _ _ H2) as (A1 & _). apply A1 in O. apply (texts_defined (p_store p) n v (h_tables _ _ _ _ H2)) in D. unfold macros_of in O. cbn [macros] in O. congruence.
        * assert (g' = f) by congruence. assert (X : us = us1 ++ g :: us2) by congruence. subst g'. destruct EN as (M1 & M2 & K4 & E3 & E4).
          destruct (unit_constants (p_store p) m K2 T2 f K4 GC H2 TR DI GR AL HL M1 M2 E3) as (s2 & text2 & E5 & H3 & _).
          assert (s2 = s') by congruence. subst s2. exact (R2 K4 _ us1 g us2 K3 n H3 X E4 ND3 O F).
  Qed.
  Context (sub : str -> str -> str -> str) (contents find : str -> option str) (rs : list (str * str)).
  Lemma read_constants headers s m us K T K' : good_config base mods -> holds s m K T ->
    Forall2 (resolves contents find) headers (map u_path us) -> Forall (stored sub contents rs) us -> NoDup (map u_path us) ->
    units base mods m us -> enumerators cv K T us K' ->
    exists p T', parse_headers fo ext ev base mods sub contents find rs headers s = Some (Ok p) /\ holds (p_store p) (macros_behind m us) K' T'
      /\ forall us1 f us2 K3 n, us = us1 ++ f :: us2 -> enumerators cv K T us1 K3 ->
           (forall w, dget K3 w <> None -> ~ defines_macro w (u_text f)) -> obj (macros_behind m us1) n = None ->
           Forall (fun g => ~ defines_macro n (u_text g)) us2 -> tracked fund md K3 n (p_store p).
  Proof.
    intros GC H RE OD ND PR EN. unfold parse_headers. rewrite (find_all contents find _ _ RE). rewrite Forall_forall in OD.
    destruct (load_all sub contents rs (map u_path us) (new_parser s)) as (H1 & H2 & H3 & _).
    { intros x I1. apply in_map_iff in I1. destruct I1 as (f & <- & I1). destruct (OD f I1) as (raw & C & _). congruence. }
    set (p0 := fold_left (load_file sub contents rs) (map u_path us) (new_parser s)) in *.
    change (p_store (new_parser s)) with s in H2. change (p_order (new_parser s)) with (@nil str) in H1. cbn [app] in H1.
    destruct (units_constants us GC p0 m K T K' ND) as (p & T' & E & HP & _ & HT).
    - intros f I1. rewrite H3 by (apply in_map; exact I1). destruct (OD f I1) as (raw & C & ->). rewrite C. reflexivity.
    - rewrite H2. exact H.
    - exact PR.
    - exact EN.
    - exists p, T'. unfold process_all. rewrite H1. split; [exact E|]. split; [exact HP|].
      intros us1 f us2 K3 n. apply (HT K T). rewrite H2. exact H.
  Qed.
End Units.

(** ** Attributes *)
Lemma find_behind {A} (f : A -> bool) a x b : (forall y, In y a -> f y = false) -> f x = true -> find f (a ++ x :: b) = Some x.
Proof.
  intros N F. induction a as [|y a IH]; cbn [app find]; [rewrite F; reflexivity|].
  rewrite (N y) by (left; reflexivity). apply IH. intros z I1. apply N. right. exact I1.
Qed.
Lemma value_found show prefix build s l name n before after y z :
  let h := library_of show prefix build s in
  LibSpec.no_clash h -> Forall (LibSpec.complete h) l -> LibModel.all_names h name = before ++ n :: after ->
  (forall m, In m before -> defined s Values m = None) ->
  defined s Values n = Some (EVal (ONum y)) -> as_int y = Some z -> attribute_is show h l name z.
Proof.
  intros h NC CO AN BE D A. exists y. split; [exact A|].
  assert (HV : LibModel.h_defs h Values n = Some (Some (show (ONum y)))).
  { unfold h, library_of. cbn [LibModel.h_defs]. unfold defined in D. rewrite D. reflexivity. }
  assert (HB : forall m, In m before -> LibModel.h_defs h Values m = None).
  { intros m I1. unfold h, library_of. cbn [LibModel.h_defs]. specialize (BE m I1). unfold defined in BE. rewrite BE. reflexivity. }
  pose proof (proj1 (LibProofs.access_good h (LibModel.Attr name) _ NC (LibProofs.accesses_good h l LibModel.no_cache NC CO (LibProofs.good_none h)) Logic.I)) as E.
  assert (P : LibProofs.pure h (LibModel.Attr name) = Ok (LibModel.OValue (show (ONum y)))).
  { unfold LibProofs.pure, LibModel.access_kinds. cbn [LibProofs.pure_search].
    assert (F1 : find (LibModel.is_defined h Values) (LibModel.all_names h name) = Some n).
    { rewrite AN. apply find_behind; [intros m I1|]; unfold LibModel.is_defined; [rewrite (HB m I1)|rewrite HV]; reflexivity. }
    assert (F2 : find (LibModel.acceptable h Values) (LibModel.all_names h n) = Some n).
    { unfold LibModel.all_names. cbn [find]. unfold LibModel.acceptable, LibModel.is_defined. rewrite HV. reflexivity. }
    rewrite F1. unfold LibProofs.pure_call. rewrite F2. cbn [LibModel.build_one]. rewrite HV. reflexivity. }
  rewrite P in E. destruct (fst _) as [[| | |]|]; cbn in E; congruence.
Qed.
Lemma value_attribute show prefix build s l n y z :
  let h := library_of show prefix build s in
  LibSpec.no_clash h -> Forall (LibSpec.complete h) l ->
  defined s Values n = Some (EVal (ONum y)) -> as_int y = Some z -> constant_is show prefix s h l n z.
Proof.
  intros h NC CO D A.
  assert (P : attribute_is show h l n z).
  { apply (value_found show prefix build s l n n [] (map (fun p => p ++ n) prefix) y z); try assumption; [reflexivity|intros m []]. }
  split; [exact P|]. intros before p after short EP EN BE.
  destruct p as [|c p]; [cbn [app] in EN; subst short; exact P|].
  apply (value_found show prefix build s l short n (short :: map (fun q => q ++ short) before) (map (fun q => q ++ short) after) y z); try assumption.
  - unfold LibModel.all_names, library_of. cbn [LibModel.h_prefix]. rewrite EP, map_app, EN. reflexivity.
  - intros m [<-|I1].
    + destruct (defined s Values short) as [e|] eqn:DS; [|reflexivity]. exfalso.
      apply (NC Values short (c :: p)).
      * unfold h, library_of. cbn [LibModel.h_prefix]. rewrite EP. apply in_or_app. right. left. reflexivity.
      * discriminate.
      * left. unfold h, library_of. cbn [LibModel.h_defs]. unfold defined in DS. rewrite DS. destruct e as [| | | | | | |v]; try discriminate; destruct v; discriminate.
      * left. rewrite <- EN. unfold h, library_of. cbn [LibModel.h_defs]. unfold defined in D. rewrite D. discriminate.
    + apply in_map_iff in I1. destruct I1 as (q & <- & I1). apply BE. exact I1.
Qed.
Theorem constants_known fo ext fund md visible ex base mods sub contents find rs headers s m us K T K' : good_config base mods ->
  macro_tables s -> stands_for (macros_of s) m -> typed_values s -> valued (text_value fund md) s -> agrees (values s) K ->
  (forall n, defined s Enums n <> None -> In n T) ->
  Forall2 (resolves contents find) headers (map u_path us) -> Forall (stored sub contents rs) us -> NoDup (map u_path us) ->
  units base mods m us -> enumerators (c_const fund md) K T us K' ->
  exists p, parse_headers fo ext (c_eval fund md visible ex) base mods sub contents find rs headers s = Some (Ok p)
    /\ forall show prefix build l, let h := library_of show prefix build (p_store p) in
       LibSpec.no_clash h -> Forall (LibSpec.complete h) l ->
       (forall n z, dget K' n = Some z -> constant_is show prefix (p_store p) h l n z)
       /\ (forall n body v z, obj (macros_behind m us) n = Some body -> complete (macros_behind m us) body v ->
             c_const fund md [] v z -> constant_is show prefix (p_store p) h l n z)
       /\ forall us1 f us2 K1 n body v z, us = us1 ++ f :: us2 -> enumerators (c_const fund md) K T us1 K1 ->
            (forall w, dget K1 w <> None -> ~ defines_macro w (u_text f)) -> obj (macros_behind m us1) n = None ->
            Forall (fun g => ~ defines_macro n (u_text g)) us2 ->
            obj (macros_behind m us) n = Some body -> complete (macros_behind m us) body v ->
            c_const fund md K1 v z -> constant_is show prefix (p_store p) h l n z.
Proof.
  intros GC M ST TV V A TI RE OD ND U EN.
  destruct (read_constants fo ext fund md visible ex base mods sub contents find rs headers s m us K T K' GC) as (p & T' & E & H & HT); try assumption.
  { split; try assumption; [apply known_agrees; assumption|]. intros n D. left. apply TI. exact D. }
  exists p. split; [exact E|]. intros show prefix build l h NC CO. destruct H as [M' ST' TV' V' KN' _].
  assert (TX : forall n body v, obj (macros_behind m us) n = Some body -> complete (macros_behind m us) body v -> defined (p_store p) Macros n = Some (EText v)).
  { intros n body v B C. destruct ST' as (A1 & A2 & _).
    destruct (dget (macros (macros_of (p_store p))) n) as [v'|] eqn:D; [|apply A1 in D; congruence].
    destruct (A2 n v' D) as (b' & B' & C'). assert (b' = body) by congruence. subst b'.
    assert (v' = v) by exact (proj1 (complete_unique (macros_behind m us)) body v C v' C'). subst v'.
    apply texts_defined; [exact M'|exact D]. }
  split; [|split].
  - intros n z D. destruct (KN' n z D) as (y & DV & AI). apply (value_attribute show prefix build (p_store p) l n y z); assumption.
  - intros n body v z B C CC. destruct (V' n v (TX n body v B C)) as (x & DV & X & _). destruct (X z CC) as (y & -> & AI).
    apply (value_attribute show prefix build (p_store p) l n y z); assumption.
  - intros us1 f us2 K1 n body v z EQ EN1 N1 O F B C CC.
    destruct (HT us1 f us2 K1 n EQ EN1 N1 O F v (TX n body v B C)) as (x & DV & X). destruct (X z CC) as (y & -> & AI).
    apply (value_attribute show prefix build (p_store p) l n y z); assumption.
Qed.
