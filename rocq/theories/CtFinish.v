(** Proofs for C57: construction finishes. *)
From Coq Require Import Ascii String Bool Arith ZArith Lia List.
Import ListNotations.
From Verif Require Import PyBase PyBaseFacts PyStr PyStrFacts PyExpr TypeModel TypeProofs InitModel StoreModel DeclModel DeclStore CtModel CtSpec CtProofs.

(** ** Families of computations that settle *)
Definition fin {A} (J : cst -> Prop) (m : nat -> M A) : Prop :=
  forall st, J st -> exists r, gives m st r /\ fst r <> Err OutOfFuel /\ J (snd r).
Lemma fin_pure {A} J (m : M A) : (forall st, snd (m st) = st) -> (forall st, fst (m st) <> Err OutOfFuel) -> fin J (fun _ => m).
Proof.
  intros H N st Js. exists (m st). split; [exists 0; reflexivity|]. split; [apply N|]. now rewrite H.
Qed.
Lemma fin_ret {A} J (x : A) : fin J (fun _ => ret x).
Proof. apply fin_pure; [reflexivity|discriminate]. Qed.
Lemma fin_fail {A} J e : e <> OutOfFuel -> fin J (fun _ => @fail A e).
Proof. intros N. apply fin_pure; [reflexivity|]. intros st. cbn. congruence. Qed.
Lemma fin_lift {A} J (r : res A) : r <> Err OutOfFuel -> fin J (fun _ => lift r).
Proof. intros N. apply fin_pure; [reflexivity|]. intros st. exact N. Qed.
Lemma fin_bind {A B} J (a : nat -> M A) (F : nat -> A -> M B) (P : A -> Prop) :
  fin J a -> (forall f st x st', a f st = (Ok x, st') -> P x) -> (forall x, P x -> fin J (fun f => F f x)) ->
  fin J (fun f => mbind (a f) (F f)).
Proof.
  intros FA PP FF st Js. destruct (FA st Js) as ([[x|e] st1] & [N1 G1] & NE & J1); cbn [fst snd] in *.
  - assert (Px : P x) by (eapply PP; apply (G1 N1); lia).
    destruct (FF x Px st1 J1) as (r & [N2 G2] & NE2 & J2). exists r. split; [|auto].
    exists (max N1 N2). intros fuel L. unfold mbind. rewrite G1 by lia. apply G2. lia.
  - exists (Err e, st1). split; [|split; [intros X; apply NE; injection X as ->; reflexivity|exact J1]].
    exists N1. intros fuel L. unfold mbind. now rewrite G1.
Qed.
Lemma fin_bind' {A B} J (a : nat -> M A) (F : nat -> A -> M B) :
  fin J a -> (forall x, fin J (fun f => F f x)) -> fin J (fun f => mbind (a f) (F f)).
Proof. intros FA FF. apply (fin_bind J a F (fun _ => True)); auto. Qed.
Lemma fin_mapMM {A B} J (F : nat -> A -> M B) l : (forall x, In x l -> fin J (fun f => F f x)) -> fin J (fun f => mapMM (F f) l).
Proof.
  induction l as [|x l IH]; intros H; cbn [mapMM]; [apply fin_ret|].
  apply fin_bind'; [apply H; now left|]. intros y.
  apply fin_bind'; [apply IH; intros z I; apply H; now right|]. intros ys. apply fin_ret.
Qed.

Lemma add_dims_not_fuel : forall l c, add_dims c l <> Err OutOfFuel.
Proof.
  induction l as [|d l IH]; intros c; cbn [add_dims]; [discriminate|].
  assert (X : add_dim c d <> Err OutOfFuel).
  { unfold add_dim. destruct (is_unknown d); [discriminate|]. unfold times.
    destruct c; try discriminate; destruct d as [|[zz|bb|nn qq]| | |]; try discriminate; destruct (zz <? 0)%Z; discriminate. }
  destruct (add_dim c d) as [c'|e]; cbn [bind]; [apply IH|congruence].
Qed.
(** What the predicate on states looks at. *)
Definition by_structs (J : cst -> Prop) : Prop := forall a b, st_structs b = st_structs a -> J a -> J b.
Lemma steps_bad ds x : In (StBad x) (steps ds) -> x = DefinitionError.
Proof.
  remember (length ds) as n eqn:L. assert (LE : length ds <= n) by lia. clear L. revert ds LE.
  induction n as [|n IH]; intros ds LE I.
  - destruct ds; [destruct I|cbn in LE; lia].
  - destruct ds as [|d r]; [destruct I|]. cbn [length] in LE.
    destruct d as [s|a|as']; cbn [steps] in I.
    + destruct I as [E|I]; [discriminate|]. apply (IH r); [lia|exact I].
    + destruct I as [E|I]; [discriminate|]. apply (IH r); [lia|exact I].
    + destruct r as [|d1 r1]; [destruct I as [E|[]]; congruence|].
      assert (R1 : In (StBad x) (steps r1) -> x = DefinitionError) by (apply IH; cbn in LE; lia).
      assert (R2 : forall d2 r2, r1 = d2 :: r2 -> In (StBad x) (steps r2) -> x = DefinitionError).
      { intros d2 r2 ->. apply IH. cbn in LE. lia. }
      destruct (look_at d1).
      * destruct r1 as [|d2 r2]; [destruct I as [E|[]]; discriminate|].
        destruct (look_at d2); (destruct I as [E|I]; [discriminate|eauto]).
      * destruct r1 as [|d2 r2]; [destruct I as [E|[]]; congruence|].
        destruct (look_at d2); (destruct I as [E|I]; [congruence|try destruct I; eauto]).
      * destruct I as [E|[]]; congruence.
Qed.
Lemma fin_do_steps J e (rec : nat -> rty -> M pyt) l :
  (forall args std a, In (StFun args std) l -> In a args -> fin J (fun f => rec f (snd (fst a)))) ->
  (forall x, In (StBad x) l -> x <> OutOfFuel) ->
  forall c, fin J (fun f => do_steps e (rec f) c l).
Proof.
  induction l as [|s l IH]; intros F B c; cbn [do_steps]; [apply fin_ret|].
  apply fin_bind'.
  - destruct s as [s|a|args std|x]; cbn [do_step].
    + apply fin_ret.
    + apply fin_pure; [reflexivity|]. intros st. cbn [fst]. apply add_dims_not_fuel.
    + destruct (std && negb (e_win e)); [apply fin_fail; discriminate|].
      apply fin_bind'.
      * apply (fin_mapMM J (fun f a => rec f (snd (fst a)))). intros a I. apply (F args std a); [now left|exact I].
      * intros ts. apply fin_lift. unfold mk_fun. destruct (existsb _ ts); discriminate.
    + apply fin_fail. apply B. now left.
  - intros c'. apply IH; [intros args std a I; apply (F args std a); now right|intros x I; apply B; now right].
Qed.
(** Merging keeps functions. *)
Lemma merge_funs h m ds : forall args, In (DFun args) (snd (merge h m ds)) -> In (DFun args) (m :: ds).
Proof.
  revert h m. induction ds as [|d ds IH]; intros h m args I; cbn [merge] in I; [exact I|].
  destruct m as [s|a|as'].
  - destruct (merge h d ds) as [h' l] eqn:M. cbn [snd] in I. destruct I as [E|I]; [now left|].
    right. apply (IH h d). now rewrite M.
  - destruct d as [s|b|as'].
    + destruct (merge h (DStr s) ds) as [h' l] eqn:M. cbn [snd] in I. destruct I as [E|I]; [discriminate|].
      right. apply (IH h (DStr s)). now rewrite M.
    + apply IH in I. destruct I as [E|I]; [discriminate|]. right. now right.
    + destruct (merge h (DFun as') ds) as [h' l] eqn:M. cbn [snd] in I. destruct I as [E|I]; [discriminate|].
      right. apply (IH h (DFun as')). now rewrite M.
  - destruct (merge h d ds) as [h' l] eqn:M. cbn [snd] in I. destruct I as [E|I]; [now left|].
    right. apply (IH h d). now rewrite M.
Qed.
Lemma merge_all_funs h ds args : In (DFun args) (snd (merge_all h ds)) -> In (DFun args) ds.
Proof. destruct ds as [|d ds]; [intros []|]. apply merge_funs. Qed.
Lemma fin_modified J e (rec : nat -> rty -> M pyt) ds :
  by_structs J ->
  (forall args a, In (DFun args) ds -> In a args -> fin J (fun f => rec f (snd (fst a)))) ->
  forall c, fin J (fun f => modified e (rec f) c ds).
Proof.
  intros BS F c st Js.
  pose proof (merge_all_funs (st_heap st) ds) as MF.
  unfold modified, gives. destruct (merge_all (st_heap st) ds) as [h mods] eqn:MA. cbn [snd] in MF.
  set (st1 := {| st_heap := h; st_structs := st_structs st; st_classes := st_classes st |}).
  assert (G : fin J (fun f => do_steps e (rec f) c (steps mods))).
  { apply fin_do_steps.
    - intros args std a I. apply F. apply MF. eapply steps_args. exact I.
    - intros x I. rewrite (steps_bad _ _ I). discriminate. }
  apply (G st1). apply (BS st st1); [reflexivity|exact Js].
Qed.

(** ** Structures *)
Definition unbuilt (e : cenv) (st : cst) : nat :=
  length (filter (fun n => negb (dmem (st_structs st) n)) (keys (e_structs e) ++ keys (e_unions e))).
Definition left_at_most (e : cenv) (u : nat) (st : cst) : Prop := unbuilt e st <= u.
Lemma left_by_structs e u : by_structs (left_at_most e u).
Proof. intros a b E. unfold left_at_most, unbuilt. now rewrite E. Qed.
Lemma unbuilt_less e st n k h u d : dget (e_comps e u) n = Some d -> dget (st_structs st) n = None ->
  unbuilt e {| st_heap := h; st_structs := dset (st_structs st) n k; st_classes := st_classes st ++ [] |} < unbuilt e st
  /\ forall c, unbuilt e {| st_heap := h; st_structs := dset (st_structs st) n k; st_classes := c |} < unbuilt e st.
Proof.
  intros D N.
  assert (X : forall c, unbuilt e {| st_heap := h; st_structs := dset (st_structs st) n k; st_classes := c |} < unbuilt e st).
  { intros c. unfold unbuilt. cbn [st_structs].
    assert (I : In n (keys (e_structs e) ++ keys (e_unions e))).
    { apply in_or_app. destruct u; [right|left]; apply dget_keys; eexists; exact D. }
    assert (NM : dmem (st_structs st) n = false) by (unfold dmem; now rewrite N).
    revert I. generalize (keys (e_structs e) ++ keys (e_unions e)). intros l.
    assert (LE : forall l, length (filter (fun m => negb (dmem (dset (st_structs st) n k) m)) l)
                 <= length (filter (fun m => negb (dmem (st_structs st) m)) l)).
    { induction l0 as [|x l0 IH]; [auto|]. cbn [filter]. rewrite dmem_dset.
      destruct (eqb x n), (dmem (st_structs st) x); cbn [orb negb length]; lia. }
    induction l as [|x l IH]; intros I; [destruct I|]. cbn [filter]. rewrite dmem_dset.
    destruct (eqb_spec x n) as [->|NE]; cbn [orb negb].
    - rewrite NM. cbn [negb length]. specialize (LE l). lia.
    - destruct I as [E|I]; [contradiction|]. specialize (IH I).
      destruct (dmem (st_structs st) x); cbn [negb length]; lia. }
  split; [|exact X]. rewrite app_nil_r. apply X.
Qed.
Lemma fin_make_fields J (rec : nat -> rty -> M pyt) : forall ms names,
  (forall m, In m ms -> fin J (fun f => rec f (sm_type m))) -> fin J (fun f => make_fields (rec f) names ms).
Proof.
  induction ms as [|m ms IH]; intros names F; destruct names as [|n names]; cbn [make_fields]; try apply fin_ret.
  apply fin_bind'; [apply F; now left|]. intros t.
  apply fin_bind'; [apply IH; intros x I; apply F; now right|]. intros fs. apply fin_ret.
Qed.
Lemma name_members_ok : forall l before, exists x, name_members before l = Ok x.
Proof.
  induction l as [|m l IH]; intros before; cbn [name_members]; [eauto|]. destruct (sm_name m) as [n|].
  - destruct (IH (before ++ [n])) as [x ->]. cbn [bind]. eauto.
  - destruct (fresh_ok $"anon_member" (map (fun x => (x, tt)) before)) as (n & -> & _). cbn [bind].
    destruct (IH (before ++ [n])) as [x ->]. cbn [bind]. eauto.
Qed.
Lemma fin_struct e (rec : nat -> rty -> M pyt) u un n :
  known e un n ->
  (forall v t, v < u -> In t (member_types e) -> fin (left_at_most e v) (fun f => rec f t)) ->
  fin (left_at_most e u) (fun f => get_struct_with e (rec f) un n).
Proof.
  intros K F st Js. unfold gives, get_struct_with.
  destruct (dget (st_structs st) n) as [i|] eqn:D.
  { exists (Ok i, st). split; [exists 0; reflexivity|]. split; [discriminate|exact Js]. }
  rewrite (resolve_known _ _ _ K). destruct (dget (e_comps e un) n) as [d|] eqn:C.
  2:{ exists (Err KeyError, st). split; [exists 0; reflexivity|]. split; [discriminate|exact Js]. }
  destruct (name_members_ok (sd_members d) []) as [[names anon] ->].
  set (k := {| k_union := un; k_pack := sd_pack d; k_anon := anon; k_fields := None |}).
  set (st1 := {| st_heap := _; st_structs := _; st_classes := _ |}).
  assert (L1 : unbuilt e st1 < unbuilt e st).
  { destruct (unbuilt_less e st n (length (st_classes st)) (st_heap st) un d C D) as [_ X]. apply X. }
  unfold left_at_most in Js.
  destruct u as [|v]; [lia|].
  assert (G : fin (left_at_most e v) (fun f => mbind (make_fields (rec f) names (sd_members d)) (fun fs =>
     mbind (assign_fields (length (st_classes st)) k fs) (fun _ st2 =>
       match dget (st_structs st2) n with Some j => (Ok j, st2) | None => (Err KeyError, st2) end)))).
  { apply fin_bind'; [apply fin_make_fields; intros m I; apply F; [lia|eapply member_in; eauto]|].
    intros fs. apply fin_bind'.
    - intros s2 J2. unfold gives, assign_fields. destruct (anon_ok (st_classes s2) (k_anon k) fs).
      + eexists. split; [exists 0; reflexivity|]. split; [discriminate|]. eapply left_by_structs; [|exact J2]. reflexivity.
      + eexists. split; [exists 0; reflexivity|]. split; [discriminate|exact J2].
    - intros _. apply fin_pure; intros s2; destruct (dget (st_structs s2) n); try reflexivity; discriminate. }
  destruct (G st1) as (r & Gr & NF & Jr).
  { unfold left_at_most. lia. }
  exists r. split; [exact Gr|]. split; [exact NF|]. unfold left_at_most in *. lia.
Qed.

(** ** Types *)
Fixpoint tsize (t : rty) : nat :=
  match t with
  | CT _ ds _ =>
      S (fold_right (fun d n => match d with
                                | DFun args => fold_right (fun a k => tsize (snd (fst a)) + k) 0 args
                                | _ => 0
                                end + n) 0 ds)
  end.
Definition params_in (ds : list rdecl) : list rty :=
  flat_map (fun d => match d with DFun args => map (fun a => snd (fst a)) args | _ => [] end) ds.
Lemma tsize_param s ds q p : In p (params_in ds) -> tsize p < tsize (CT s ds q).
Proof.
  intros I. cbn [tsize]. apply Nat.lt_succ_r. unfold params_in in I. revert I.
  induction ds as [|d ds IH]; intros I; [destruct I|]. cbn [flat_map fold_right] in *. apply in_app_iff in I.
  destruct I as [I|I]; [|specialize (IH I); lia].
  destruct d as [x|x|args]; try destruct I.
  assert (X : tsize p <= fold_right (fun a k => tsize (snd (fst a)) + k) 0 args).
  { clear IH. induction args as [|a args IH]; [destruct I|]. cbn [map fold_right] in *.
    destruct I as [<-|I]; [lia|]. specialize (IH I). lia. }
  lia.
Qed.
Lemma names_param s ds q p n : In p (params_in ds) -> In n (names_in p) -> In n (names_in (CT s ds q)).
Proof.
  intros I N. cbn [names_in]. apply in_or_app. right. unfold params_in in I. apply in_flat_map in I.
  destruct I as (d & D & I). apply in_flat_map. exists d. split; [exact D|]. destruct d as [x|x|args]; try destruct I.
  apply in_map_iff in I. destruct I as (a & <- & Ia). apply in_flat_map. eauto.
Qed.
Section Ranked.
  Context (e : cenv) (rank : str -> nat).
  Context (R : forall s t n, is_fund (e_conf e) s = false -> dget (e_types e) s = Some (TyE t) ->
             In n (names_in t) -> is_fund (e_conf e) n = false -> rank n < rank s).
  Definition below (t : rty) (k : nat) : Prop :=
    forall n, In n (names_in t) -> is_fund (e_conf e) n = false -> rank n < k.
  Lemma below_exists t : exists k, below t k.
  Proof.
    unfold below. generalize (names_in t). intros l. induction l as [|n l [k IH]].
    - exists 0. intros n [].
    - exists (S (max k (rank n))). intros m [<-|I] NF; [lia|]. specialize (IH m I NF). lia.
  Qed.
  Lemma eval_params : forall f used s ds qs r k,
    (is_fund (e_conf e) s = false -> rank s < k) ->
    eval_fuel (e_conf e) (e_types e) f used (CT (SName s) ds qs) = Ok r ->
    forall p, In p (params_of r) -> In p (params_in ds) \/ exists k', k' < k /\ below p k'.
  Proof.
    induction f as [|f IH]; intros used s ds qs r k B E p I; cbn [eval_fuel] in E.
    - destruct (is_fund (e_conf e) s) eqn:Fs.
      + unfold mk_type in E. destruct (length _ =? _); [|discriminate]. injection E as <-. now left.
      + destruct (mem s used); [discriminate|]. destruct (dget (e_types e) s) as [[[ps pds pqs]|]|]; discriminate.
    - destruct (is_fund (e_conf e) s) eqn:Fs.
      + unfold mk_type in E. destruct (length _ =? _); [|discriminate]. injection E as <-. now left.
      + destruct (mem s used); [discriminate|]. destruct (dget (e_types e) s) as [[[ps pds pqs]|]|] eqn:D; try discriminate.
        destruct (merge_quals pqs qs) as [qs'|]; cbn [bind] in E; [|discriminate].
        unfold mk_type in E at 1. destruct (length _ =? _); cbn [bind] in E; [|discriminate].
        destruct ps as [n'|u]; [|destruct f; discriminate].
        assert (B' : is_fund (e_conf e) n' = false -> rank n' < k).
        { intros NF. specialize (B eq_refl). assert (rank n' < rank s).
          { apply (R s _ n' Fs D); [|exact NF]. cbn [names_in]. now left. }
          lia. }
        destruct (IH _ _ _ _ _ k B' E p I) as [Ip|X]; [|now right].
        unfold params_in in Ip. rewrite flat_map_app in Ip. apply in_app_iff in Ip.
        destruct Ip as [Ip|Ip]; [|now left]. right. exists (rank s). split; [exact (B eq_refl)|].
        intros n In' NF. apply (R s _ n Fs D); [|exact NF]. eapply names_param; eauto.
  Qed.

  Context (T : tags_known e).
  Lemma tag_entry_not_fuel s : tag_entry e s <> Err OutOfFuel.
  Proof. unfold tag_entry. destruct (dget (e_types e) s) as [[[x [|[] ?] y]|]|]; discriminate. Qed.
  Lemma fin_base (rec : nat -> rty -> M pyt) u p s ds :
    (forall v t, v < u -> In t (member_types e) -> fin (left_at_most e v) (fun f => rec f t)) ->
    fin (left_at_most e u) (fun f => base_type e (rec f) p s ds).
  Proof.
    intros F. destruct T as (TS & TU & _). unfold base_type.
    destruct (if p && starts_ptr ds then dget ptr_types s else None); [apply fin_ret|].
    destruct (dget (e_table e) s); [apply fin_ret|].
    destruct (starts_with $"struct " s) eqn:W.
    { apply (fin_bind _ (fun _ => lift (tag_entry e s)) _ (fun n => tag_entry e s = Ok n)).
      - apply fin_lift. apply tag_entry_not_fuel.
      - intros f st x st' E. unfold lift in E. congruence.
      - intros n TE. apply fin_bind'; [|intros i; apply fin_ret]. apply fin_struct; [|exact F]. exact (proj2 (TS s n W TE)). }
    destruct (starts_with $"union " s) eqn:W'.
    { apply (fin_bind _ (fun _ => lift (tag_entry e s)) _ (fun n => tag_entry e s = Ok n)).
      - apply fin_lift. apply tag_entry_not_fuel.
      - intros f st x st' E. unfold lift in E. congruence.
      - intros n TE. apply fin_bind'; [|intros i; apply fin_ret]. apply fin_struct; [|exact F]. exact (proj2 (TU s n W' TE)). }
    destruct (starts_with $"enum " s); [apply fin_ret|].
    destruct (eqb s $"void"); [apply fin_ret|apply fin_fail; discriminate].
  Qed.
  (** One more level. *)
  Lemma fin_shift {A} J (m : nat -> M A) : fin J (fun f => m (S f)) -> fin J m.
  Proof.
    intros F st Js. destruct (F st Js) as (r & [N G] & X). exists r. split; [|exact X].
    exists (S N). intros fuel L. destruct fuel; [lia|]. apply G. lia.
  Qed.
  Lemma fin_get_type : forall u k z t p, below t k -> tsize t <= z ->
    fin (left_at_most e u) (fun f => get_type e f p t).
  Proof.
    induction u as [u IHu] using lt_wf_ind. induction k as [k IHk] using lt_wf_ind.
    induction z as [|z IHz]; intros t p B Z; [destruct t; cbn in Z; lia|].
    apply fin_shift. cbn [get_type].
    apply (fin_bind _ (fun _ => lift (eval_type (e_conf e) (e_types e) t)) _ (fun r => eval_type (e_conf e) (e_types e) t = Ok r)).
    - apply fin_lift. apply eval_type_not_fuel.
    - intros f st x st' E. unfold lift in E. congruence.
    - intros r E. destruct r as [[s|v] ds q]; [|apply fin_fail; discriminate].
      assert (FP : forall args a, In (DFun args) ds -> In a args ->
                   fin (left_at_most e u) (fun f => get_type e f true (snd (fst a)))).
      { intros args a I Ia. pose proof (in_params (SName s) ds q args a I Ia) as Ip.
        destruct t as [[s0|v0] ds0 qs0].
        - assert (B0 : is_fund (e_conf e) s0 = false -> rank s0 < k).
          { intros NF. apply B; [cbn [names_in]; now left|exact NF]. }
          destruct (eval_params _ _ _ _ _ _ k B0 E _ Ip) as [I0|(k' & Lk & Bk)].
          + apply (IHz (snd (fst a)) true).
            * intros n In' NF. apply B; [|exact NF]. eapply names_param; eauto.
            * pose proof (tsize_param (SName s0) ds0 qs0 _ I0). lia.
          + exact (IHk k' Lk (tsize (snd (fst a))) _ true Bk (le_n _)).
        - unfold eval_type in E. destruct (length (e_types e)); discriminate E. }
      apply (fin_bind _ _ _ (fun b => snd b = ds \/ snd b = tl ds)).
      + apply fin_base. intros v t' Lv _. destruct (below_exists t') as [k' Bk]. exact (IHu v Lv k' (tsize t') t' true Bk (le_n _)).
      + intros f st [c ds'] st' Bs. exact (base_decls _ _ _ _ _ _ _ _ _ Bs).
      + intros [c ds'] D. cbn [fst snd] in *. destruct p; [|apply fin_ret].
        apply (fin_modified _ e (fun f => get_type e f true)); [apply left_by_structs|].
        intros args a I. apply FP. destruct D as [->| ->]; [exact I|]. destruct ds; [destruct I|now right].
  Qed.
End Ranked.

Lemma types_finish e : ordered_typedefs e -> tags_known e -> forall p t st,
  exists r, gives (fun f => get_type e f p t) st r /\ fst r <> Err OutOfFuel.
Proof.
  intros [rank R] T p t st. destruct (below_exists e rank t) as [k B].
  destruct (fin_get_type e rank R T (unbuilt e st) k (tsize t) t p B (le_n _) st) as (r & G & N & _); [unfold left_at_most; lia|].
  eauto.
Qed.
Lemma structs_finish e : ordered_typedefs e -> tags_known e -> forall u n st, known e u n ->
  exists r, gives (fun f => get_struct e f u n) st r /\ fst r <> Err OutOfFuel.
Proof.
  intros [rank R] T u n st K.
  destruct (fin_struct e (fun f => get_type e f true) (unbuilt e st) u n K) with (st := st) as (r & G & N & _).
  - intros v t _ _. destruct (below_exists e rank t) as [k B]. exact (fin_get_type e rank R T v k (tsize t) t true B (le_n _)).
  - unfold left_at_most. lia.
  - eauto.
Qed.
