(** Proofs for C57: one class per structure, whatever the types look like. *)
From Coq Require Import Ascii String Bool Arith ZArith Lia List.
Import ListNotations.
From Verif Require Import PyBase PyBaseFacts PyStr PyStrFacts PyExpr TypeModel TypeProofs InitModel StoreModel DeclModel DeclStore CtModel CtSpec CtProofs.

Definition ids_ok (st : cst) : Prop :=
  (forall n i, dget (st_structs st) n = Some i -> i < length (st_classes st))
  /\ (forall n m i, dget (st_structs st) n = Some i -> dget (st_structs st) m = Some i -> n = m).
Definition after (a b : cst) : Prop :=
  (forall n i, dget (st_structs a) n = Some i -> dget (st_structs b) n = Some i)
  /\ length (st_classes a) <= length (st_classes b)
  /\ (ids_ok a -> ids_ok b).
Lemma after_refl a : after a a. Proof. repeat split; auto; apply H. Qed.
Lemma after_trans a b c : after a b -> after b c -> after a c.
Proof. intros (S1 & L1 & I1) (S2 & L2 & I2). split; [auto|]. split; [lia|auto]. Qed.
Lemma set_class_length cs i k : length (set_class cs i k) = length cs.
Proof. revert i. induction cs as [|c cs IH]; intros [|i]; cbn; auto. Qed.
(** Only the number of classes and the names matter. *)
Lemma after_same a b : st_structs b = st_structs a -> length (st_classes b) = length (st_classes a) -> after a b.
Proof.
  intros S L. split; [now rewrite S|]. split; [lia|]. intros [B J]. split; rewrite S; [now rewrite L|exact J].
Qed.
Lemma after_new st n k h : dget (st_structs st) n = None ->
  after st {| st_heap := h; st_structs := dset (st_structs st) n (length (st_classes st)); st_classes := st_classes st ++ [k] |}.
Proof.
  intros D. split; [|split].
  - intros m i E. cbn [st_structs]. rewrite dget_dset. destruct (eqb_spec m n) as [->|]; [congruence|exact E].
  - cbn [st_classes]. rewrite app_length. lia.
  - intros [B J]. split; cbn [st_structs st_classes].
    + intros m i. rewrite dget_dset, app_length. cbn [length]. destruct (eqb_spec m n) as [->|].
      * intros E. injection E as <-. lia.
      * intros E. apply B in E. lia.
    + intros m m' i. rewrite !dget_dset. destruct (eqb_spec m n) as [->|NE], (eqb_spec m' n) as [->|NE']; auto.
      * intros E E'. injection E as <-. apply B in E'. lia.
      * intros E E'. injection E' as <-. apply B in E. lia.
      * apply J.
Qed.
Definition goes {A} (m : M A) : Prop := forall st, after st (snd (m st)).
Lemma goes_same {A} (m : M A) : (forall st, snd (m st) = st) -> goes m.
Proof. intros H st. rewrite H. apply after_refl. Qed.
Lemma goes_bind {A B} (a : M A) (f : A -> M B) : goes a -> (forall st x st', a st = (Ok x, st') -> goes (f x)) -> goes (mbind a f).
Proof.
  intros G F st. unfold mbind. specialize (G st). destruct (a st) as [[x|x] st1] eqn:E; cbn [snd] in *; [|exact G].
  eapply after_trans; [exact G|]. exact (F _ _ _ E st1).
Qed.
Lemma goes_mapMM {A B} (f : A -> M B) l : (forall x, In x l -> goes (f x)) -> goes (mapMM f l).
Proof.
  induction l as [|x l IH]; intros F; cbn [mapMM]; [now apply goes_same|].
  apply goes_bind; [apply F; now left|]. intros _ y _ _.
  apply goes_bind; [apply IH; intros z I; apply F; now right|]. intros _ ys _ _. now apply goes_same.
Qed.
Lemma goes_do_steps e rec l : (forall t, goes (rec t)) -> forall c, goes (do_steps e rec c l).
Proof.
  intros R. induction l as [|s l IH]; intros c; cbn [do_steps]; [now apply goes_same|].
  apply goes_bind; [|intros _ c' _ _; apply IH].
  destruct s as [s|a|args std|x]; cbn [do_step]; try (now apply goes_same).
  destruct (std && negb (e_win e)); [now apply goes_same|]. apply goes_bind; [|intros _ ts _ _; now apply goes_same].
  apply goes_mapMM. intros a _. apply R.
Qed.
Lemma goes_make_fields rec : (forall t, goes (rec t)) -> forall ms names, goes (make_fields rec names ms).
Proof.
  intros R. induction ms as [|m ms IH]; intros names; destruct names as [|n names]; cbn [make_fields]; try (now apply goes_same).
  apply goes_bind; [apply R|]. intros _ t _ _. apply goes_bind; [apply IH|]. intros _ fs _ _. now apply goes_same.
Qed.
Lemma goes_struct e rec u n : (forall t, goes (rec t)) -> known e u n -> goes (get_struct_with e rec u n).
Proof.
  intros R K st. unfold get_struct_with. destruct (dget (st_structs st) n) as [i|] eqn:D; [apply after_refl|].
  rewrite (resolve_known _ _ _ K). destruct (dget (e_comps e u) n) as [d|]; [|apply after_refl].
  destruct (name_members [] (sd_members d)) as [[names anon]|x]; [|apply after_refl].
  set (k := {| k_union := u; k_pack := sd_pack d; k_anon := anon; k_fields := None |}).
  eapply after_trans; [apply (after_new st n k (st_heap st) D)|].
  match goal with |- after ?a (snd (?m ?a)) => assert (G : goes m); [|apply (G a)] end.
  apply goes_bind; [now apply goes_make_fields|]. intros _ fs _ _.
  apply goes_bind.
  - intros s2. unfold assign_fields. destruct (anon_ok _ _ fs); [|apply after_refl].
    apply after_same; [reflexivity|]. cbn [snd st_classes]. apply set_class_length.
  - intros _ _ _ _. apply goes_same. intros s2. destruct (dget (st_structs s2) n); reflexivity.
Qed.
Lemma goes_base e rec p s ds : tags_known e -> (forall t, goes (rec t)) -> goes (base_type e rec p s ds).
Proof.
  intros (TS & TU & _) R. unfold base_type.
  destruct (if p && starts_ptr ds then dget ptr_types s else None); [now apply goes_same|].
  destruct (dget (e_table e) s); [now apply goes_same|].
  destruct (starts_with $"struct " s) eqn:W.
  { apply goes_bind; [now apply goes_same|]. intros st n st' E. unfold lift in E.
    apply goes_bind; [|intros _ i _ _; now apply goes_same]. apply goes_struct; [exact R|].
    apply (TS s n W). congruence. }
  destruct (starts_with $"union " s) eqn:W'.
  { apply goes_bind; [now apply goes_same|]. intros st n st' E. unfold lift in E.
    apply goes_bind; [|intros _ i _ _; now apply goes_same]. apply goes_struct; [exact R|].
    apply (TU s n W'). congruence. }
  destruct (starts_with $"enum " s); [now apply goes_same|]. destruct (eqb s $"void"); now apply goes_same.
Qed.
Lemma goes_get_type e : tags_known e -> forall fuel p t, goes (get_type e fuel p t).
Proof.
  intros T. induction fuel as [|f IH]; intros p t; cbn [get_type]; [now apply goes_same|].
  apply goes_bind; [now apply goes_same|]. intros _ r _ _. destruct r as [[s|u] ds q]; [|now apply goes_same].
  apply goes_bind; [apply goes_base; auto|]. intros _ b _ _. destruct p; [|now apply goes_same].
  intros st. unfold modified. destruct (merge_all (st_heap st) (snd b)) as [h mods].
  eapply after_trans; [|apply goes_do_steps; intros t'; apply IH]. now apply after_same.
Qed.
Lemma after_history e : tags_known e -> forall fuel rs st,
  (forall r, In r rs -> by_name e r) -> after st (history e fuel rs st).
Proof.
  intros T fuel. induction rs as [|r rs IH]; intros st P; [apply after_refl|].
  unfold history. cbn [fold_left]. fold (history e fuel rs (serve e fuel r st)).
  eapply after_trans; [|apply IH; intros x I; apply P; now right].
  specialize (P r (or_introl eq_refl)). destruct r as [t|u n]; cbn [serve by_name] in *.
  - now apply goes_get_type.
  - apply goes_struct; [|exact P]. intros t. now apply goes_get_type.
Qed.
Lemma ids_start h : ids_ok (start h).
Proof. split; intros; discriminate. Qed.

(** The class given is registered. *)
Lemma struct_registered e rec u n st i st' : known e u n ->
  get_struct_with e rec u n st = (Ok i, st') -> dget (st_structs st') n = Some i.
Proof.
  intros K E. unfold get_struct_with in E. destruct (dget (st_structs st) n) as [j|] eqn:D; [congruence|].
  rewrite (resolve_known _ _ _ K) in E. destruct (dget (e_comps e u) n) as [d|]; [|discriminate].
  destruct (name_members [] (sd_members d)) as [[names anon]|]; [|discriminate].
  unfold mbind in E. destruct (make_fields rec names (sd_members d) _) as [[fs|x] st3]; [|discriminate].
  unfold assign_fields in E. destruct (anon_ok _ _ fs); [|discriminate]. cbn [st_structs] in E.
  destruct (dget (st_structs st3) n) as [i'|] eqn:D3; [|discriminate]. injection E as <- <-. exact D3.
Qed.
Lemma struct_again e rec u n st i : dget (st_structs st) n = Some i -> get_struct_with e rec u n st = (Ok i, st).
Proof. intros D. unfold get_struct_with. now rewrite D. Qed.
Lemma tag_entry_of e u s n : tags_known e -> s = tag_of u ++ n -> tag_entry e s = Ok n -> known e u n.
Proof.
  intros (TS & TU & _) -> T. destruct u; [eapply TU|eapply TS]; try exact T; apply starts_with_app.
Qed.
Lemma union_not_struct n : starts_with $"struct " ($"union " ++ n) = false.
Proof. reflexivity. Qed.
Lemma struct_type e fuel u n t q st :
  eval_type (e_conf e) (e_types e) t = Ok (CT (SName (tag_of u ++ n)) [] q) ->
  dget (e_table e) (tag_of u ++ n) = None -> tag_entry e (tag_of u ++ n) = Ok n ->
  get_type e (S fuel) true t st =
    match get_struct e fuel u n st with (Ok i, st') => (Ok (PClass i), st') | (Err x, st') => (Err x, st') end.
Proof.
  intros E TN TE. cbn [get_type]. unfold mbind at 1. unfold lift at 1. rewrite E. unfold mbind at 1.
  unfold base_type. cbn [starts_ptr]. rewrite TN.
  destruct u; cbn [tag_of andb] in *.
  - rewrite union_not_struct, starts_with_app. unfold mbind, lift. rewrite TE.
    fold (get_struct e fuel true n). destruct (get_struct e fuel true n st) as [[i|x] [h s c]]; reflexivity.
  - rewrite starts_with_app. unfold mbind, lift. rewrite TE.
    fold (get_struct e fuel false n). destruct (get_struct e fuel false n st) as [[i|x] [h s c]]; reflexivity.
Qed.

(** ** C57 *)
Lemma one_class e : tags_known e -> forall u n fuel st i st' fuel' rs,
  dmem (e_comps e u) n = true -> (forall r, In r rs -> by_name e r) ->
  get_struct e fuel u n st = (Ok i, st') ->
  let st2 := history e fuel' rs st' in
  (forall f, get_struct e f u n st2 = (Ok i, st2))
  /\ (forall f t q, eval_type (e_conf e) (e_types e) t = Ok (CT (SName (tag_of u ++ n)) [] q) ->
        dget (e_table e) (tag_of u ++ n) = None -> tag_entry e (tag_of u ++ n) = Ok n ->
        get_type e (S f) true t st2 = (Ok (PClass i), st2)).
Proof.
  intros T u n fuel st i st' fuel' rs K P E st2.
  pose proof (struct_registered _ _ _ _ _ _ _ K E) as D.
  assert (D2 : dget (st_structs st2) n = Some i) by (apply (after_history e T fuel' rs st' P); exact D).
  split.
  - intros f. now apply struct_again.
  - intros f t q Et TN TE. rewrite (struct_type e f u n t q st2 Et TN TE). unfold get_struct. rewrite struct_again with (i := i); auto.
Qed.
(** The first request, by the name of a typedef: as by the name of the structure. *)
Lemma typedef_request e u n m ds q fuel st :
  dmem (e_comps e u) n = false -> dmem (e_types e) n = true -> dmem (e_comps e u) m = true ->
  eval_type (e_conf e) (e_types e) (CT (SName n) [] [Some []]) = Ok (CT (SName (tag_of u ++ m)) ds q) ->
  tag_entry e (tag_of u ++ m) = Ok m ->
  dget (st_structs st) n = None -> dget (st_structs st) m = None ->
  get_struct e fuel u n st = get_struct e fuel u m st.
Proof.
  intros K D K' E TE N M. unfold get_struct, get_struct_with. rewrite N, M.
  assert (R : resolve_alias e u n = Ok m).
  { unfold resolve_alias. rewrite K, D. cbn [negb mk_type length repeat Nat.add Nat.eqb]. cbn [bind]. rewrite E. cbn [bind t_spec].
    replace (starts_with $"struct " (tag_of u ++ m) || starts_with $"union " (tag_of u ++ m)) with true; [exact TE|].
    clear. destruct u; reflexivity. }
  assert (R' : resolve_alias e u m = Ok m) by (unfold resolve_alias; now rewrite K').
  rewrite R, R'. reflexivity.
Qed.
Lemma two_classes e : tags_known e -> forall h fuel rs fu fv u v n m i j s s',
  dmem (e_comps e u) n = true -> dmem (e_comps e v) m = true -> (forall r, In r rs -> by_name e r) ->
  get_struct e fu u n (history e fuel rs (start h)) = (Ok i, s) -> get_struct e fv v m s = (Ok j, s') ->
  (i = j <-> n = m).
Proof.
  intros T h fuel rs fu fv u v n m i j s s' K K' P E E'.
  assert (B0 : ids_ok (history e fuel rs (start h))) by (apply (after_history e T fuel rs (start h) P); apply ids_start).
  assert (G1 : after (history e fuel rs (start h)) s).
  { change s with (snd (Ok i, s)). rewrite <- E. apply goes_struct; [|exact K]. intros t. now apply goes_get_type. }
  assert (G2 : after s s').
  { change s' with (snd (Ok j, s')). rewrite <- E'. apply goes_struct; [|exact K']. intros t. now apply goes_get_type. }
  pose proof (struct_registered _ _ _ _ _ _ _ K E) as D. pose proof (struct_registered _ _ _ _ _ _ _ K' E') as D'.
  apply G2 in D.
  split.
  - intros <-. destruct G2 as (_ & _ & G2). destruct G1 as (_ & _ & G1). destruct (G2 (G1 B0)) as [_ J]. eapply J; eauto.
  - intros <-. congruence.
Qed.
Lemma struct_finished e : tags_known e -> forall fuel u n st i st',
  dmem (e_comps e u) n = true -> dget (st_structs st) n = None ->
  get_struct e fuel u n st = (Ok i, st') -> exists k fs, nth_error (st_classes st') i = Some k /\ k_fields k = Some fs.
Proof.
  intros T fuel u n st i st' K D E. unfold get_struct, get_struct_with in E. rewrite D in E.
  rewrite (resolve_known _ _ _ K) in E. destruct (dget (e_comps e u) n) as [d|]; [|discriminate].
  destruct (name_members [] (sd_members d)) as [[names anon]|]; [|discriminate].
  set (k := {| k_union := u; k_pack := sd_pack d; k_anon := anon; k_fields := None |}) in E.
  set (st1 := {| st_heap := _; st_structs := dset _ _ _; st_classes := _ |}) in E.
  pose proof (goes_make_fields (get_type e fuel true) (goes_get_type e T fuel true) (sd_members d) names st1) as G.
  unfold mbind in E. destruct (make_fields _ names (sd_members d) st1) as [[fs|x] st3]; [|discriminate]. cbn [snd] in G.
  unfold assign_fields in E. destruct (anon_ok _ _ fs); [|discriminate]. cbn [st_structs] in E.
  assert (D3 : dget (st_structs st3) n = Some (length (st_classes st))).
  { apply G. cbn [st1 st_structs]. apply dget_dset_same. }
  rewrite D3 in E. injection E as <- <-. cbn [st_classes].
  assert (L : length (st_classes st) < length (st_classes st3)).
  { destruct G as (_ & G & _). cbn [st1 st_classes] in G. rewrite app_length in G. cbn in G. lia. }
  eexists. exists fs. rewrite nth_set_class, Nat.eqb_refl.
  destruct (Nat.ltb_spec (length (st_classes st)) (length (st_classes st3))); [|lia]. split; reflexivity.
Qed.
(** The fields of a finished class. *)
Lemma class_fields e : tags_known e -> flat_members e -> forall h fuel rs n i,
  (forall r, In r rs -> plain_request e r) ->
  let st := history e fuel rs (start h) in
  dget (st_structs st) n = Some i ->
  exists u d k, dget (e_comps e u) n = Some d /\ nth_error (st_classes st) i = Some k
    /\ k_union k = u /\ k_pack k = sd_pack d
    /\ forall fs, k_fields k = Some fs ->
         Forall2 (fun m f => (forall x, sm_name m = Some x -> fd_name f = x)
           /\ exists fuel, get_type e fuel true (sm_type m) st = (Ok (fd_type f), st)) (sd_members d) fs.
Proof.
  intros T FM h fuel rs n i P st D.
  pose proof (inv_history e T FM fuel rs (start h) P (inv_start e h)) as [I _].
  destruct (I n i D) as (u & d & k & C & N & U & PK & F). exists u, d, k. repeat (split; [assumption|]).
  intros fs Ef. destruct (F fs Ef) as ((anon & NM) & _ & FT). clear - NM FT.
  revert NM. generalize (@nil str). intros before NM.
  remember (sd_members d) as ms eqn:EM. clear EM d. revert before anon NM.
  induction FT as [|m f ms fs [fl H] FT IH]; intros before anon NM; [constructor|].
  cbn [name_members] in NM. cbn [map] in NM.
  destruct (sm_name m) as [x|] eqn:Nm.
  - destruct (name_members (before ++ [x]) ms) as [[ns an]|] eqn:R; [|discriminate]. cbn [bind fst snd] in NM.
    injection NM as E1 E2 E3. subst ns. constructor; [|eapply IH; exact R]. split; [intros y Y; congruence|].
    exists fl. apply H. apply later_refl.
  - destruct (fresh _ _) as [x|]; [|discriminate]. cbn [bind] in NM.
    destruct (name_members (before ++ [x]) ms) as [[ns an]|] eqn:R; [|discriminate]. cbn [bind fst snd] in NM.
    injection NM as E1 E2 E3. subst ns. constructor; [|eapply IH; exact R]. split; [intros y Y; congruence|].
    exists fl. apply H. apply later_refl.
Qed.
