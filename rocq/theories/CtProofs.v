(** Proofs for C56 and C57: requests keep what was built. *)
From Coq Require Import Ascii String Bool Arith ZArith Lia List.
Import ListNotations.
From Verif Require Import PyBase PyBaseFacts PyStr PyStrFacts PyExpr TypeModel InitModel StoreModel DeclModel DeclStore CtModel CtSpec.

Lemma Forall2_impl {A B} (P Q : A -> B -> Prop) l m :
  (forall a b, P a b -> Q a b) -> Forall2 P l m -> Forall2 Q l m.
Proof. intros H F. induction F; constructor; auto. Qed.
(** ** States *)
Definition later (a b : cst) : Prop :=
  st_heap b = st_heap a /\ forall n i, dget (st_structs a) n = Some i -> dget (st_structs b) n = Some i.
Definition ext (a b : cst) : Prop := later a b /\ exists tl, st_classes b = st_classes a ++ tl.
Lemma later_refl a : later a a. Proof. split; auto. Qed.
Lemma later_trans a b c : later a b -> later b c -> later a c.
Proof. intros [H1 S1] [H2 S2]. split; [congruence|auto]. Qed.
Lemma ext_refl a : ext a a. Proof. split; [apply later_refl|]. exists []. now rewrite app_nil_r. Qed.
Lemma ext_trans a b c : ext a b -> ext b c -> ext a c.
Proof.
  intros [L1 [t1 E1]] [L2 [t2 E2]]. split; [eapply later_trans; eauto|]. exists (t1 ++ t2).
  rewrite E2, E1. now rewrite app_assoc.
Qed.

(** ** Computations that only add, and whose results stay *)
Definition grows {A} (m : M A) : Prop := forall st, ext st (snd (m st)).
Definition stable {A} (m : M A) : Prop :=
  forall st x st', m st = (Ok x, st') -> forall st2, later st' st2 -> m st2 = (Ok x, st2).
Definition good {A} (m : M A) : Prop := grows m /\ stable m.

Lemma good_ret {A} (x : A) : good (ret x).
Proof. split; [intros st; apply ext_refl|]. intros st y st' E st2 _. unfold ret in *. congruence. Qed.
Lemma good_fail {A} e : good (@fail A e).
Proof. split; [intros st; apply ext_refl|]. intros st y st' E. discriminate E. Qed.
Lemma good_lift {A} (r : res A) : good (lift r).
Proof. split; [intros st; apply ext_refl|]. intros st y st' E st2 _. unfold lift in *. congruence. Qed.
Lemma good_bind {A B} (a : M A) (f : A -> M B) : good a -> (forall x, good (f x)) -> good (mbind a f).
Proof.
  intros [G1 S1] F. split.
  - intros st. unfold mbind. specialize (G1 st). destruct (a st) as [[x|e] st1]; cbn [snd] in *; [|exact G1].
    eapply ext_trans; [exact G1|]. apply (F x).
  - intros st y st' E st2 L. unfold mbind in *. destruct (a st) as [[x|e] st1] eqn:Ea; [|discriminate].
    assert (L1 : later st1 st2).
    { destruct (F x) as [G _]. specialize (G st1). rewrite E in G. eapply later_trans; [apply G|exact L]. }
    rewrite (S1 _ _ _ Ea _ L1). exact (proj2 (F x) _ _ _ E _ L).
Qed.
Lemma good_mapMM {A B} (f : A -> M B) l : (forall x, In x l -> good (f x)) -> good (mapMM f l).
Proof.
  induction l as [|x l IH]; intros F; cbn [mapMM]; [apply good_ret|].
  apply good_bind; [apply F; now left|]. intros y.
  apply good_bind; [apply IH; intros z I; apply F; now right|]. intros ys. apply good_ret.
Qed.

(** ** Modifiers *)
Lemma merge_flat h ds : no_adjacent ds = true -> merge_all h ds = (h, ds).
Proof.
  destruct ds as [|d ds]; [reflexivity|]. cbn [merge_all]. revert d. induction ds as [|m ds IH]; intros d N; [reflexivity|].
  cbn [merge].
  assert (N' : no_adjacent (m :: ds) = true).
  { destruct d as [s|a|args]; cbn [no_adjacent] in N; try exact N. apply andb_true_iff in N. apply N. }
  destruct d as [s|a|args]; try (rewrite (IH m N'); reflexivity).
  destruct m as [s|b|args]; try (rewrite (IH _ N'); reflexivity). discriminate N.
Qed.
Lemma steps_args ds args std : In (StFun args std) (steps ds) -> In (DFun args) ds.
Proof.
  remember (length ds) as n eqn:L. assert (LE : length ds <= n) by lia. clear L. revert ds LE.
  induction n as [|n IH]; intros ds LE I.
  - destruct ds; [destruct I|cbn in LE; lia].
  - destruct ds as [|d r]; [destruct I|]. cbn [length] in LE.
    destruct d as [s|a|as']; cbn [steps] in I.
    + destruct I as [E|I]; [discriminate|]. right. apply IH; [lia|exact I].
    + destruct I as [E|I]; [discriminate|]. right. apply IH; [lia|exact I].
    + destruct r as [|d1 r1]; [destruct I as [E|[]]; discriminate|].
      assert (R1 : In (StFun args std) (steps r1) -> In (DFun args) (DFun as' :: d1 :: r1)).
      { intros X. right. right. apply IH; [cbn in LE; lia|exact X]. }
      assert (H0 : forall b, StFun as' b = StFun args std -> In (DFun args) (DFun as' :: d1 :: r1)).
      { intros b E. injection E as -> _. now left. }
      assert (R2 : forall d2 r2, r1 = d2 :: r2 -> In (StFun args std) (steps r2) -> In (DFun args) (DFun as' :: d1 :: r1)).
      { intros d2 r2 -> X. right. right. right. apply IH; [cbn in LE; lia|exact X]. }
      destruct (look_at d1).
      * destruct r1 as [|d2 r2]; [destruct I as [E|[]]; eauto|].
        destruct (look_at d2); (destruct I as [E|I]; [eauto|eauto]).
      * destruct r1 as [|d2 r2]; [destruct I as [E|[]]; discriminate|].
        destruct (look_at d2); (destruct I as [E|I]; [try discriminate E; eauto|try destruct I; eauto]).
      * destruct I as [E|[]]; discriminate.
Qed.
Section Good.
  Context (e : cenv) (rec : rty -> M pyt).
  Definition args_good (ds : list rdecl) : Prop :=
    forall args a, In (DFun args) ds -> In a args -> good (rec (snd (fst a))).
  Lemma good_do_steps l : (forall args std a, In (StFun args std) l -> In a args -> good (rec (snd (fst a)))) ->
    forall c, good (do_steps e rec c l).
  Proof.
    induction l as [|s l IH]; intros F c; cbn [do_steps]; [apply good_ret|].
    apply good_bind.
    - destruct s as [s|a|args std|x]; cbn [do_step].
      + apply good_ret.
      + split.
        * intros st. cbn [snd]. apply ext_refl.
        * intros st y st' E st2 [H _]. injection E as E <-. rewrite H, E. reflexivity.
      + destruct (std && negb (e_win e)); [apply good_fail|]. apply good_bind.
        * apply good_mapMM. intros a I. apply (F args std a); [now left|exact I].
        * intros ts. apply good_lift.
      + apply good_fail.
    - intros c'. apply IH. intros args std a I. apply (F args std a). now right.
  Qed.
  Lemma good_modified c ds : no_adjacent ds = true -> args_good ds -> good (modified e rec c ds).
  Proof.
    intros N AG.
    assert (E : forall st, modified e rec c ds st = do_steps e rec c (steps ds) st).
    { intros [h s k]. unfold modified. cbn [st_heap st_structs st_classes]. rewrite (merge_flat h ds N). reflexivity. }
    assert (G : good (do_steps e rec c (steps ds))).
    { apply good_do_steps. intros args std a I. apply AG. eapply steps_args. exact I. }
    split.
    - intros st. rewrite E. apply G.
    - intros st x st' Em st2 L. rewrite E in *. exact (proj2 G _ _ _ Em _ L).
  Qed.
End Good.

(** ** Structures *)
Definition known (e : cenv) (u : bool) (n : str) : Prop := dmem (e_comps e u) n = true.
Lemma resolve_known e u n : known e u n -> resolve_alias e u n = Ok n.
Proof. intros K. unfold resolve_alias. unfold known in K. now rewrite K. Qed.
Lemma set_class_app cs k k' tl : set_class (cs ++ k :: tl) (length cs) k' = cs ++ k' :: tl.
Proof. induction cs as [|c cs IH]; [reflexivity|]. cbn. now rewrite IH. Qed.

Lemma good_make_fields rec : forall ms names, (forall m, In m ms -> good (rec (sm_type m))) ->
  good (make_fields rec names ms).
Proof.
  induction ms as [|m ms IH]; intros names F; destruct names as [|n names]; cbn [make_fields]; try apply good_ret.
  apply good_bind; [apply F; now left|]. intros t.
  apply good_bind; [apply IH; intros x I; apply F; now right|]. intros fs. apply good_ret.
Qed.
Definition comp_good (e : cenv) (rec : rty -> M pyt) : Prop :=
  forall u n d m, dget (e_comps e u) n = Some d -> In m (sd_members d) -> good (rec (sm_type m)).

Lemma ext_new st n k :
  dget (st_structs st) n = None ->
  ext st {| st_heap := st_heap st; st_structs := dset (st_structs st) n (length (st_classes st));
            st_classes := st_classes st ++ [k] |}.
Proof.
  intros D. split; [split; [reflexivity|]|].
  - intros m i E. cbn [st_structs]. rewrite dget_dset. destruct (eqb_spec m n) as [->|]; [congruence|exact E].
  - cbn [st_classes]. eauto.
Qed.
Lemma good_struct e rec u n : comp_good e rec -> known e u n -> good (get_struct_with e rec u n).
Proof.
  intros CG K. split.
  - intros st. unfold get_struct_with. destruct (dget (st_structs st) n) as [i|] eqn:D; [apply ext_refl|].
    rewrite (resolve_known _ _ _ K). destruct (dget (e_comps e u) n) as [d|] eqn:C; [|apply ext_refl].
    destruct (name_members [] (sd_members d)) as [[names anon]|x]; [|apply ext_refl].
    set (k := {| k_union := u; k_pack := sd_pack d; k_anon := anon; k_fields := None |}).
    set (st1 := {| st_heap := _; st_structs := _; st_classes := _ |}).
    assert (X1 : ext st st1) by (apply ext_new; exact D).
    pose proof (proj1 (good_make_fields rec (sd_members d) names (fun m I => CG u n d m C I)) st1) as X2.
    unfold mbind. destruct (make_fields rec names (sd_members d) st1) as [[fs|x] st2]; cbn [snd] in X2;
      [|cbn [snd]; eapply ext_trans; eauto].
    unfold assign_fields. destruct (anon_ok (st_classes st2) (k_anon k) fs); [|cbn [snd]; eapply ext_trans; eauto].
    cbn [st_structs].
    set (st3 := {| st_heap := _; st_structs := _; st_classes := _ |}).
    assert (X3 : ext st st3).
    { destruct X1 as [L1 _]. destruct X2 as [L2 [tl T2]]. split.
      - eapply later_trans; [exact L1|]. split; [apply L2|exact (proj2 L2)].
      - unfold st3. cbn [st_classes]. rewrite T2. unfold st1. cbn [st_classes]. rewrite <- app_assoc. cbn [app].
        rewrite set_class_app. eauto. }
    destruct (dget (st_structs st2) n); exact X3.
  - intros st j st' E st2 [_ L]. unfold get_struct_with in *.
    destruct (dget (st_structs st) n) as [i|] eqn:D.
    + injection E as <- <-. now rewrite (L _ _ D).
    + rewrite (resolve_known _ _ _ K) in E. destruct (dget (e_comps e u) n) as [d|] eqn:C; [|discriminate].
      destruct (name_members [] (sd_members d)) as [[names anon]|x]; [|discriminate].
      unfold mbind in E. destruct (make_fields rec names (sd_members d) _) as [[fs|x] st3]; [|discriminate].
      unfold assign_fields in E. destruct (anon_ok _ _ fs); [|discriminate]. cbn [st_structs] in E.
      destruct (dget (st_structs st3) n) as [i|] eqn:D3; [|discriminate]. injection E as <- <-. cbn [st_structs] in L.
      now rewrite (L _ _ D3).
Qed.

(** ** Types *)
Lemma good_lift_bind {A B} (r : res A) (f : A -> M B) : (forall x, r = Ok x -> good (f x)) -> good (mbind (lift r) f).
Proof.
  intros F. destruct r as [x|e].
  - exact (F x eq_refl).
  - exact (good_fail e).
Qed.
Lemma good_base e rec p s ds : tags_known e -> comp_good e rec -> good (base_type e rec p s ds).
Proof.
  intros (TS & TU & _) CG. unfold base_type.
  destruct (if p && starts_ptr ds then dget ptr_types s else None); [apply good_ret|].
  destruct (dget (e_table e) s); [apply good_ret|].
  destruct (starts_with $"struct " s) eqn:W.
  { apply good_lift_bind. intros n T. apply good_bind; [|intros i; apply good_ret].
    apply good_struct; [exact CG|]. exact (proj2 (TS s n W T)). }
  destruct (starts_with $"union " s) eqn:W'.
  { apply good_lift_bind. intros n T. apply good_bind; [|intros i; apply good_ret].
    apply good_struct; [exact CG|]. exact (proj2 (TU s n W' T)). }
  destruct (starts_with $"enum " s); [apply good_ret|]. destruct (eqb s $"void"); [apply good_ret|apply good_fail].
Qed.
Lemma base_decls e rec p s ds st c ds' st' : base_type e rec p s ds st = (Ok (c, ds'), st') -> ds' = ds \/ ds' = tl ds.
Proof.
  unfold base_type. destruct (if p && starts_ptr ds then dget ptr_types s else None).
  { intros E. injection E as _ <- _. now right. }
  destruct (dget (e_table e) s); [intros E; injection E as _ <- _; now left|].
  destruct (starts_with $"struct " s).
  { unfold mbind, lift. destruct (tag_entry e s) as [s0|]; [|discriminate].
    destruct (get_struct_with e rec false s0 st) as [[i|] st1]; [|discriminate].
    intros E. injection E as _ <- _. now left. }
  destruct (starts_with $"union " s).
  { unfold mbind, lift. destruct (tag_entry e s) as [s0|]; [|discriminate].
    destruct (get_struct_with e rec true s0 st) as [[i|] st1]; [|discriminate].
    intros E. injection E as _ <- _. now left. }
  destruct (starts_with $"enum " s); [intros E; injection E as _ <- _; now left|].
  destruct (eqb s $"void"); [intros E; injection E as _ <- _; now left|discriminate].
Qed.
(** As [good_bind], for results that occur. *)
Lemma good_bind_post {A B} (a : M A) (f : A -> M B) (P : A -> Prop) :
  good a -> (forall st x st', a st = (Ok x, st') -> P x) -> (forall x, P x -> good (f x)) -> good (mbind a f).
Proof.
  intros [G1 S1] PP F. split.
  - intros st. unfold mbind. specialize (G1 st). destruct (a st) as [[x|e] st1] eqn:Ea; cbn [snd] in *; [|exact G1].
    eapply ext_trans; [exact G1|]. apply (F x). eapply PP. exact Ea.
  - intros st y st' E st2 L. unfold mbind in *. destruct (a st) as [[x|e] st1] eqn:Ea; [|discriminate].
    pose proof (F x (PP _ _ _ Ea)) as [G S].
    assert (L1 : later st1 st2).
    { specialize (G st1). rewrite E in G. eapply later_trans; [apply G|exact L]. }
    rewrite (S1 _ _ _ Ea _ L1). exact (S _ _ _ E _ L).
Qed.

Lemma no_adjacent_tl ds : no_adjacent ds = true -> no_adjacent (tl ds) = true.
Proof.
  destruct ds as [|[s|a|args] ds]; cbn [no_adjacent tl]; auto. intros N. apply andb_true_iff in N. apply N.
Qed.
Lemma reached_param e t r p u : eval_type (e_conf e) (e_types e) t = Ok r -> In p (params_of r) -> reached e p u -> reached e t u.
Proof.
  intros E I R. induction R as [|v r' q R IH E' I'].
  - eapply re_param; [apply re_self|exact E|exact I].
  - eapply re_param; [exact IH|exact E'|exact I'].
Qed.
Lemma flat_param e t r p : flat e t -> eval_type (e_conf e) (e_types e) t = Ok r -> In p (params_of r) -> flat e p.
Proof. intros F E I u r' R E'. apply (F u r'); [|exact E']. eapply reached_param; eauto. Qed.
Lemma in_params s ds q args a : In (DFun args) ds -> In a args -> In (snd (fst a)) (params_of (CT s ds q)).
Proof.
  intros D I. unfold params_of. cbn [t_decls]. apply in_flat_map. exists (DFun args). split; [exact D|].
  apply in_map_iff. eauto.
Qed.
Lemma member_in e u n d m : dget (e_comps e u) n = Some d -> In m (sd_members d) -> In (sm_type m) (member_types e).
Proof.
  intros D I. unfold member_types. apply in_flat_map. exists (n, d). split.
  - apply in_or_app. destruct u; [right|left]; apply dget_In; exact D.
  - cbn [snd]. apply in_map_iff. eauto.
Qed.
Lemma good_get_type e : tags_known e -> flat_members e ->
  forall fuel p t, flat e t -> good (get_type e fuel p t).
Proof.
  intros T FM fuel. induction fuel as [|f IH]; intros p t F; cbn [get_type]; [apply good_fail|].
  apply good_lift_bind. intros r E. destruct r as [[s|u] ds q]; [|apply good_fail].
  assert (CG : comp_good e (get_type e f true)).
  { intros u n d m D I. apply IH. apply FM. eapply member_in; eauto. }
  apply (good_bind_post _ _ (fun b => snd b = ds \/ snd b = tl ds)).
  - apply good_base; assumption.
  - intros st [c ds'] st' B. exact (base_decls _ _ _ _ _ _ _ _ _ B).
  - intros [c ds'] D. cbn [fst snd] in *. destruct p; [|apply good_ret].
    assert (N : no_adjacent ds = true) by exact (F t _ (re_self e t) E).
    apply good_modified.
    + destruct D as [->| ->]; [exact N|now apply no_adjacent_tl].
    + intros args a I Ia. apply IH. apply (flat_param e t _ _ F E). apply (in_params (SName s) ds q args a); [|exact Ia].
      destruct D as [->| ->]; [exact I|]. destruct ds; [destruct I|now right].
Qed.
Lemma good_get_struct e : tags_known e -> flat_members e ->
  forall fuel u n, known e u n -> good (get_struct e fuel u n).
Proof.
  intros T FM fuel u n K. apply good_struct; [|exact K]. intros u' n' d m D I.
  apply good_get_type; [exact T|exact FM|]. apply FM. eapply member_in; eauto.
Qed.
Lemma ext_history e : tags_known e -> flat_members e ->
  forall fuel rs st, (forall r, In r rs -> plain_request e r) -> ext st (history e fuel rs st).
Proof.
  intros T FM fuel rs. induction rs as [|r rs IH]; intros st P; [apply ext_refl|].
  unfold history. cbn [fold_left]. fold (history e fuel rs (serve e fuel r st)).
  eapply ext_trans; [|apply IH; intros x I; apply P; now right].
  specialize (P r (or_introl eq_refl)). destruct r as [t|u n]; cbn [serve plain_request] in *.
  - apply (good_get_type e T FM fuel true t P).
  - apply (good_get_struct e T FM fuel u n P).
Qed.

(** ** C56 *)
Lemma request_keeps e : tags_known e -> flat_members e ->
  forall fuel p t st, flat e t -> st_heap (snd (get_type e fuel p t st)) = st_heap st.
Proof. intros T FM fuel p t st F. apply (good_get_type e T FM fuel p t F). Qed.
Lemma request_again e : tags_known e -> flat_members e ->
  forall fuel t st c st' fuel' rs, flat e t -> (forall r, In r rs -> plain_request e r) ->
  get_type e fuel true t st = (Ok c, st') ->
  get_type e fuel true t (history e fuel' rs st') = (Ok c, history e fuel' rs st').
Proof.
  intros T FM fuel t st c st' fuel' rs F P E.
  apply (proj2 (good_get_type e T FM fuel true t F) _ _ _ E). apply (ext_history e T FM fuel' rs st' P).
Qed.

(** ** C57 *)
(** The fields are those of the definition, each with the type asking for the type of the member
    gives. *)
Definition width_of (m : smember) : option pobj := match sm_val m with ONone => None | v => Some v end.
Definition made_from (e : cenv) (st : cst) (d : sdef) (fs : list field) : Prop :=
  (exists anon, name_members [] (sd_members d) = Ok (map fd_name fs, anon))
  /\ map fd_width fs = map width_of (sd_members d)
  /\ Forall2 (fun m f => exists fuel, forall st2, later st st2 -> get_type e fuel true (sm_type m) st2 = (Ok (fd_type f), st2))
             (sd_members d) fs.
Definition class_ok (e : cenv) (st : cst) (n : str) (i : nat) : Prop :=
  exists u d k, dget (e_comps e u) n = Some d /\ nth_error (st_classes st) i = Some k
    /\ k_union k = u /\ k_pack k = sd_pack d
    /\ forall fs, k_fields k = Some fs -> made_from e st d fs.
Definition inv (e : cenv) (st : cst) : Prop :=
  (forall n i, dget (st_structs st) n = Some i -> class_ok e st n i)
  /\ (forall n m i, dget (st_structs st) n = Some i -> dget (st_structs st) m = Some i -> n = m).
Lemma made_from_later e a b d fs : later a b -> made_from e a d fs -> made_from e b d fs.
Proof.
  intros L (N & W & F). split; [exact N|]. split; [exact W|]. eapply Forall2_impl; [|exact F].
  intros m f [fuel H]. exists fuel. intros st2 L2. apply H. eapply later_trans; eauto.
Qed.
Lemma class_ok_bound e st n i : class_ok e st n i -> i < length (st_classes st).
Proof. intros (u & d & k & _ & N & _). apply nth_error_Some. congruence. Qed.
Lemma class_ok_ext e a b n i : ext a b -> class_ok e a n i -> class_ok e b n i.
Proof.
  intros [L [tl T]] C. pose proof (class_ok_bound _ _ _ _ C) as B.
  destruct C as (u & d & k & D & N & U & P & F). exists u, d, k. split; [exact D|]. split.
  - rewrite T. now rewrite nth_error_app1.
  - split; [exact U|]. split; [exact P|]. intros fs E. eapply made_from_later; [exact L|]. now apply F.
Qed.

Definition keeps {A} (e : cenv) (m : M A) : Prop := forall st, inv e st -> inv e (snd (m st)).
Lemma keeps_same {A} e (m : M A) : (forall st, snd (m st) = st) -> keeps e m.
Proof. intros H st I. now rewrite H. Qed.
Lemma keeps_bind_post {A B} e (a : M A) (f : A -> M B) (P : A -> Prop) :
  keeps e a -> (forall st x st', a st = (Ok x, st') -> P x) -> (forall x, P x -> keeps e (f x)) -> keeps e (mbind a f).
Proof.
  intros K PP F st I. unfold mbind. specialize (K st I). destruct (a st) as [[x|x] st1] eqn:E; cbn [snd] in *; [|exact K].
  exact (F x (PP _ _ _ E) st1 K).
Qed.
Lemma keeps_bind {A B} e (a : M A) (f : A -> M B) : keeps e a -> (forall x, keeps e (f x)) -> keeps e (mbind a f).
Proof. intros K F. apply (keeps_bind_post e a f (fun _ => True)); auto. Qed.
Lemma keeps_mapMM {A B} e (f : A -> M B) l : (forall x, In x l -> keeps e (f x)) -> keeps e (mapMM f l).
Proof.
  induction l as [|x l IH]; intros F; cbn [mapMM]; [now apply keeps_same|].
  apply keeps_bind; [apply F; now left|]. intros y.
  apply keeps_bind; [apply IH; intros z I; apply F; now right|]. intros ys. now apply keeps_same.
Qed.
Lemma keeps_do_steps e rec l : (forall args std a, In (StFun args std) l -> In a args -> keeps e (rec (snd (fst a)))) ->
  forall c, keeps e (do_steps e rec c l).
Proof.
  induction l as [|s l IH]; intros F c; cbn [do_steps]; [now apply keeps_same|].
  apply keeps_bind.
  - destruct s as [s|a|args std|x]; cbn [do_step]; try (now apply keeps_same).
    destruct (std && negb (e_win e)); [now apply keeps_same|]. apply keeps_bind; [|intros ts; now apply keeps_same].
    apply keeps_mapMM. intros a I. apply (F args std a); [now left|exact I].
  - intros c'. apply IH. intros args std a I. apply (F args std a). now right.
Qed.
Lemma keeps_make_fields e rec : forall ms names, (forall m, In m ms -> keeps e (rec (sm_type m))) ->
  keeps e (make_fields rec names ms).
Proof.
  induction ms as [|m ms IH]; intros names F; destruct names as [|n names]; cbn [make_fields]; try (now apply keeps_same).
  apply keeps_bind; [apply F; now left|]. intros t.
  apply keeps_bind; [apply IH; intros x I; apply F; now right|]. intros fs. now apply keeps_same.
Qed.
(** The fields made. *)
Lemma make_fields_spec rec : forall ms names st fs st',
  (forall m, In m ms -> good (rec (sm_type m))) -> length names = length ms ->
  make_fields rec names ms st = (Ok fs, st') ->
  map fd_name fs = names /\ map fd_width fs = map width_of ms
  /\ Forall2 (fun m f => forall st2, later st' st2 -> rec (sm_type m) st2 = (Ok (fd_type f), st2)) ms fs.
Proof.
  induction ms as [|m ms IH]; intros names st fs st' G L E; destruct names as [|n names]; try discriminate L; cbn [make_fields] in E.
  - injection E as <- <-. repeat split; constructor.
  - unfold mbind in E. destruct (rec (sm_type m) st) as [[t|] st1] eqn:R; [|discriminate].
    destruct (make_fields rec names ms st1) as [[fs'|] st2] eqn:F; [|discriminate]. injection E as <- <-.
    assert (G' : forall x, In x ms -> good (rec (sm_type x))) by (intros x I; apply G; now right).
    destruct (IH names st1 fs' st2 G' ltac:(cbn in L; lia) F) as (N & W & T).
    cbn [map fd_name fd_width]. split; [now rewrite N|]. split; [now rewrite W|]. constructor; [|exact T].
    cbn [fd_type]. intros st3 L3. apply (proj2 (G m (or_introl eq_refl)) _ _ _ R).
    eapply later_trans; [|exact L3].
    pose proof (proj1 (good_make_fields rec ms names G') st1) as X. rewrite F in X. apply X.
Qed.
Lemma name_members_length : forall l before names anon, name_members before l = Ok (names, anon) -> length names = length l.
Proof.
  induction l as [|m l IH]; intros before names anon E; cbn [name_members] in E; [injection E as <- _; reflexivity|].
  destruct (sm_name m) as [n|].
  - destruct (name_members (before ++ [n]) l) as [[x y]|] eqn:N; [|discriminate]. cbn [bind fst snd] in E.
    injection E as <- _. cbn. f_equal. eauto.
  - destruct (fresh _ _) as [n|]; [|discriminate]. cbn [bind] in E.
    destruct (name_members (before ++ [n]) l) as [[x y]|] eqn:N; [|discriminate]. cbn [bind fst snd] in E.
    injection E as <- _. cbn. f_equal. eauto.
Qed.
Lemma nth_set_class cs i j k : nth_error (set_class cs i k) j = if Nat.eqb i j then (if j <? length cs then Some k else None) else nth_error cs j.
Proof.
  revert i j. induction cs as [|c cs IH]; intros i j.
  - cbn. destruct (Nat.eqb_spec i j); destruct j; reflexivity.
  - destruct i as [|i], j as [|j]; try reflexivity. cbn [set_class nth_error]. rewrite IH. reflexivity.
Qed.

Section Keeps.
  Context (e : cenv) (T : tags_known e) (FM : flat_members e) (f : nat).
  Let rec := get_type e f true.
  Context (KR : forall t, flat e t -> keeps e (rec t)).
  Lemma members_flat u n d m : dget (e_comps e u) n = Some d -> In m (sd_members d) -> flat e (sm_type m).
  Proof. intros D I. apply FM. eapply member_in; eauto. Qed.
  Lemma keeps_struct u n : known e u n -> keeps e (get_struct_with e rec u n).
  Proof.
    intros K st I. unfold get_struct_with. destruct (dget (st_structs st) n) as [i|] eqn:D; [exact I|].
    rewrite (resolve_known _ _ _ K). destruct (dget (e_comps e u) n) as [d|] eqn:C; [|exact I].
    destruct (name_members [] (sd_members d)) as [[names anon]|x] eqn:NM; [|exact I].
    set (k := {| k_union := u; k_pack := sd_pack d; k_anon := anon; k_fields := None |}).
    set (st1 := {| st_heap := _; st_structs := _; st_classes := _ |}).
    assert (X1 : ext st st1) by (apply ext_new; exact D).
    assert (D1 : dget (st_structs st1) n = Some (length (st_classes st))) by (cbn; apply dget_dset_same).
    assert (I1 : inv e st1).
    { destruct I as [I IJ]. split.
      - intros m i E. unfold st1 in E. cbn [st_structs] in E. rewrite dget_dset in E.
        destruct (eqb_spec m n) as [->|NE].
        + injection E as <-. exists u, d, k. split; [exact C|]. split.
          * cbn [st1 st_classes]. rewrite nth_error_app2 by lia. now rewrite Nat.sub_diag.
          * split; [reflexivity|]. split; [reflexivity|]. discriminate.
        + eapply class_ok_ext; [exact X1|]. now apply I.
      - intros m m' i E E'. unfold st1 in E, E'. cbn [st_structs] in E, E'. rewrite dget_dset in E, E'.
        destruct (eqb_spec m n) as [->|NE], (eqb_spec m' n) as [->|NE']; auto.
        + injection E as <-. apply I in E'. apply class_ok_bound in E'. lia.
        + injection E' as <-. apply I in E. apply class_ok_bound in E. lia.
        + eapply IJ; eauto. }
    assert (GM : forall m, In m (sd_members d) -> good (rec (sm_type m))).
    { intros m Im. apply good_get_type; auto. eapply members_flat; eauto. }
    pose proof (proj1 (good_make_fields rec (sd_members d) names GM) st1) as X2.
    pose proof (keeps_make_fields e rec (sd_members d) names (fun m Im => KR _ (members_flat _ _ _ _ C Im)) st1 I1) as I2.
    unfold mbind. destruct (make_fields rec names (sd_members d) st1) as [[fs|x] st2] eqn:MF; cbn [snd] in X2, I2;
      [|exact I2].
    unfold assign_fields. destruct (anon_ok (st_classes st2) (k_anon k) fs); [|exact I2].
    cbn [st_structs].
    destruct (make_fields_spec rec (sd_members d) names st1 fs st2 GM (name_members_length _ _ _ _ NM) MF) as (FN & FW & FT).
    set (st3 := {| st_heap := _; st_structs := _; st_classes := _ |}).
    assert (L23 : later st2 st3) by (split; auto).
    assert (I3 : inv e st3).
    { destruct I2 as [I2 IJ]. split; [|exact IJ]. intros m i E. pose proof (I2 m i E) as CO.
      pose proof (class_ok_bound _ _ _ _ CO) as B.
      destruct (Nat.eq_dec (length (st_classes st)) i) as [<-|NE].
      - assert (m = n). { apply (IJ m n _ E). apply X2. exact D1. } subst m.
        exists u, d, {| k_union := u; k_pack := sd_pack d; k_anon := anon; k_fields := Some fs |}.
        split; [exact C|]. split.
        + cbn [st3 st_classes]. rewrite nth_set_class, Nat.eqb_refl.
          destruct (Nat.ltb_spec (length (st_classes st)) (length (st_classes st2))); [reflexivity|lia].
        + split; [reflexivity|]. split; [reflexivity|]. cbn [k_fields]. intros fs' Ef. injection Ef as <-.
          split; [exists anon; now rewrite FN|]. split; [exact FW|].
          eapply Forall2_impl; [|exact FT]. cbn beta. intros a b H. exists f. intros st4 L4. apply H.
          exact (later_trans _ _ _ L23 L4).
      - destruct CO as (u' & d' & k' & D' & N' & U' & P' & F'). exists u', d', k'. split; [exact D'|]. split.
        + cbn [st3 st_classes]. rewrite nth_set_class. destruct (Nat.eqb_spec (length (st_classes st)) i); [contradiction|exact N'].
        + split; [exact U'|]. split; [exact P'|]. intros fs' Ef. eapply made_from_later; [exact L23|]. now apply F'. }
    destruct (dget (st_structs st2) n); exact I3.
  Qed.
  Lemma keeps_base p s ds : keeps e (base_type e rec p s ds).
  Proof.
    destruct T as (TS & TU & _). unfold base_type.
    destruct (if p && starts_ptr ds then dget ptr_types s else None); [now apply keeps_same|].
    destruct (dget (e_table e) s); [now apply keeps_same|].
    destruct (starts_with $"struct " s) eqn:W.
    { destruct (tag_entry e s) as [n|x] eqn:TE; [|now apply keeps_same].
      apply (keeps_bind_post e (lift (Ok n)) _ (fun y => y = n)); [now apply keeps_same| |].
      - intros st y st' E. unfold lift in E. congruence.
      - intros y ->. apply keeps_bind; [|intros i; now apply keeps_same]. apply keeps_struct. exact (proj2 (TS s n W TE)). }
    destruct (starts_with $"union " s) eqn:W'.
    { destruct (tag_entry e s) as [n|x] eqn:TE; [|now apply keeps_same].
      apply (keeps_bind_post e (lift (Ok n)) _ (fun y => y = n)); [now apply keeps_same| |].
      - intros st y st' E. unfold lift in E. congruence.
      - intros y ->. apply keeps_bind; [|intros i; now apply keeps_same]. apply keeps_struct. exact (proj2 (TU s n W' TE)). }
    destruct (starts_with $"enum " s); [now apply keeps_same|].
    destruct (eqb s $"void"); now apply keeps_same.
  Qed.
End Keeps.
Lemma keeps_get_type e : tags_known e -> flat_members e ->
  forall fuel p t, flat e t -> keeps e (get_type e fuel p t).
Proof.
  intros T FM fuel. induction fuel as [|f IH]; intros p t F; cbn [get_type]; [now apply keeps_same|].
  destruct (eval_type (e_conf e) (e_types e) t) as [r|x] eqn:E; [|now apply keeps_same].
  apply (keeps_bind_post e (lift (Ok r)) _ (fun y => y = r)); [now apply keeps_same| |].
  { intros st y st' H. unfold lift in H. congruence. }
  intros y ->. destruct r as [[s|u] ds q]; [|now apply keeps_same].
  apply (keeps_bind_post _ _ _ (fun b => snd b = ds \/ snd b = tl ds)).
  - apply keeps_base; auto.
  - intros st [c ds'] st' B. exact (base_decls _ _ _ _ _ _ _ _ _ B).
  - intros [c ds'] D. cbn [fst snd] in *. destruct p; [|now apply keeps_same].
    assert (N : no_adjacent ds = true) by exact (F t _ (re_self e t) E).
    assert (N' : no_adjacent ds' = true) by (destruct D as [->| ->]; [exact N|now apply no_adjacent_tl]).
    intros st I. unfold modified. rewrite (merge_flat _ _ N'). apply keeps_do_steps; [|destruct st; exact I].
    intros args std a Is Ia. apply IH. apply (flat_param e t _ _ F E). apply (in_params (SName s) ds q args a); [|exact Ia].
    apply steps_args in Is. destruct D as [->| ->]; [exact Is|]. destruct ds; [destruct Is|now right].
Qed.
Lemma inv_history e : tags_known e -> flat_members e ->
  forall fuel rs st, (forall r, In r rs -> plain_request e r) -> inv e st -> inv e (history e fuel rs st).
Proof.
  intros T FM fuel rs. induction rs as [|r rs IH]; intros st P I; [exact I|].
  unfold history. cbn [fold_left]. fold (history e fuel rs (serve e fuel r st)).
  apply IH; [intros x Ix; apply P; now right|].
  specialize (P r (or_introl eq_refl)). destruct r as [t|u n]; cbn [serve plain_request] in *.
  - now apply (keeps_get_type e T FM fuel true t P).
  - apply (keeps_struct e T FM fuel); auto. intros t F. now apply keeps_get_type.
Qed.
Lemma inv_start e h : inv e (start h).
Proof. split; intros; discriminate. Qed.
