(** Proofs for C55: the shape of a type. *)
From Coq Require Import Ascii String Bool Arith ZArith Lia List.
Import ListNotations.
From Verif Require Import PyBase PyBaseFacts PyStr PyStrFacts PyExpr TypeModel TypeProofs InitModel StoreModel DeclModel DeclStore CtModel CtSpec CtMono CtProofs.

Scheme shape_ind3 := Induction for shape Sort Prop
  with applies_ind3 := Induction for applies Sort Prop
  with shapes_ind3 := Induction for shapes Sort Prop.
Combined Scheme shape_all from shape_ind3, applies_ind3, shapes_ind3.

Lemma supported_param e t r p : supported e t -> eval_type (e_conf e) (e_types e) t = Ok r -> In p (params_of r) -> supported e p.
Proof. intros F E I u r' R E'. apply (F u r'); [|exact E']. eapply reached_param; eauto. Qed.

Section Shape.
  Context (e : cenv) (st : cst).
  (** The results at every sufficient depth. *)
  Definition served (t : rty) (c : pyt) : Prop := gives (fun f => get_type e f true t) st (Ok c, st).
  Definition not_void (t : rty) : Prop := ~ exists q, eval_type (e_conf e) (e_types e) t = Ok (CT (SName $"void") [] q).
  Definition args_supported (ds : list rdecl) : Prop :=
    forall args a, In (DFun args) ds -> In a args -> supported e (snd (fst a)) /\ not_void (snd (fst a)).

  Lemma do_add_dim c n : c <> PVoid -> (-1 <= n)%Z -> add_dim c (ONum (VInt n)) = Ok (arrays [n] c).
  Proof.
    intros NV L. unfold add_dim, arrays. cbn [is_unknown fold_right]. destruct (Z.eqb_spec n (-1)) as [->|NE]; [reflexivity|].
    unfold times. destruct (Z.ltb_spec n 0); [lia|]. destruct c; try reflexivity. now destruct NV.
  Qed.
  Lemma mk_fun_ok w c cs : Forall (fun x => x <> PVoid) cs -> mk_fun w c cs = Ok (PFun w c cs).
  Proof.
    intros F. unfold mk_fun. replace (existsb _ cs) with false; [reflexivity|].
    induction F as [|x cs N F IH]; [reflexivity|]. cbn [existsb]. rewrite <- IH. destruct x; try reflexivity. now destruct N.
  Qed.
  Lemma gives_map args cs : Forall2 (fun a c => served (snd (fst a)) c) args cs ->
    gives (fun f => mapMM (fun a : option str * rty * option str => get_type e f true (snd (fst a))) args) st (Ok cs, st).
  Proof.
    induction 1 as [|a c args cs [N1 G1] F [N2 G2]]; [exists 0; reflexivity|].
    exists (max N1 N2). intros fuel L. cbn [mapMM]. unfold mbind. rewrite G1 by lia. rewrite G2 by lia. reflexivity.
  Qed.
  Definition P_shape (t : rty) (c : pyt) : Prop := supported e t -> served t c.
  Definition P_applies (c : pyt) (ds : list rdecl) (c' : pyt) : Prop :=
    no_adjacent ds = true -> simple_functions (e_win e) ds = true -> args_supported ds ->
    gives (fun f => do_steps e (get_type e f true) c (steps ds)) st (Ok c', st).
  Definition P_shapes (args : list (option str * rty * option str)) (cs : list pyt) : Prop :=
    (forall a, In a args -> supported e (snd (fst a)) /\ not_void (snd (fst a))) ->
    Forall2 (fun a c => served (snd (fst a)) c) args cs /\ Forall (fun x => x <> PVoid) cs.

  Lemma modified_flat rec c ds : no_adjacent ds = true ->
    modified e rec c ds st = do_steps e rec c (steps ds) st.
  Proof. intros N. unfold modified. rewrite (merge_flat _ _ N). now destruct st. Qed.
  Lemma table_base fuel p s ds : (p && starts_ptr ds = true -> dget ptr_types s = None) -> forall v, dget (e_table e) s = Some v ->
    base_type e (get_type e fuel true) p s ds st = (Ok (of_tyval v, ds), st).
  Proof.
    intros N v T. unfold base_type. destruct (p && starts_ptr ds) eqn:B; [rewrite N by reflexivity|]; rewrite T; reflexivity.
  Qed.
  Lemma base_ok fuel s ds b : base_of e st s b -> ~ (starts_ptr ds = true /\ In s (map fst special_pointers)) ->
    base_type e (get_type e fuel true) true s ds st = (Ok (b, ds), st).
  Proof.
    intros B NS.
    assert (PT : (if true && starts_ptr ds then dget ptr_types s else None) = None).
    { cbn [andb]. destruct (starts_ptr ds) eqn:SP; [|reflexivity].
      destruct (dget ptr_types s) as [p|] eqn:D; [|reflexivity]. exfalso. apply NS. split; [reflexivity|].
      apply dget_In in D. change special_pointers with ptr_types. apply in_map_iff. exists (s, p). auto. }
    unfold base_type. rewrite PT. clear PT NS.
    destruct B as [s v T|n i q T D S|n i q T D S|n T|T]; rewrite T; try reflexivity.
    - rewrite starts_with_app. unfold mbind, lift, tag_entry. rewrite D. unfold get_struct_with. rewrite S. reflexivity.
    - change (starts_with $"struct " ($"union " ++ n)) with false. rewrite starts_with_app.
      unfold mbind, lift, tag_entry. rewrite D. unfold get_struct_with. rewrite S. reflexivity.
  Qed.
  Lemma special_ok s p : In (s, p) special_pointers -> dget ptr_types s = Some p.
  Proof. intros I. repeat (destruct I as [I|I]; [injection I as <- <-; reflexivity|]). destruct I. Qed.

  Lemma step_fun args cs win c l c' :
    (win = true -> e_win e = true) ->
    Forall2 (fun a c => served (snd (fst a)) c) args cs -> Forall (fun x => x <> PVoid) cs ->
    gives (fun f => do_steps e (get_type e f true) (PFun win c cs) l) st (Ok c', st) ->
    gives (fun f => do_steps e (get_type e f true) c (StFun args win :: l)) st (Ok c', st).
  Proof.
    intros W F2 NV [N2 G2]. destruct (gives_map args cs F2) as [N1 G1]. exists (max N1 N2). intros fuel L.
    cbn [do_steps do_step]. unfold mbind at 1.
    replace (win && negb (e_win e)) with false; [|destruct win; [rewrite W by reflexivity|]; reflexivity].
    unfold mbind at 1. rewrite G1 by lia. unfold lift. rewrite (mk_fun_ok win c cs NV). apply G2. lia.
  Qed.
  Lemma args_sup_tl d ds : args_supported (d :: ds) -> args_supported ds.
  Proof. intros A args a I. apply A. now right. Qed.
  Lemma shape_served : (forall t c, shape e st t c -> P_shape t c)
    /\ (forall c ds c', applies e st c ds c' -> P_applies c ds c')
    /\ (forall args cs, shapes e st args cs -> P_shapes args cs).
  Proof.
    apply (shape_all e st (fun t c _ => P_shape t c) (fun c ds c' _ => P_applies c ds c') (fun a c _ => P_shapes a c)).
    - intros t s ds q b c E B NS A IH Sup.
      destruct (Sup t _ (re_self e t) E) as (NA & SF & NW). cbn [t_decls] in NA, SF.
      destruct IH as [N G]; [exact NA|exact SF| |].
      { intros args a I Ia. pose proof (in_params (SName s) ds q args a I Ia) as Ip.
        split; [exact (supported_param e t _ _ Sup E Ip)|exact (NW _ Ip)]. }
      exists (S N). intros [|fuel] L; [lia|]. cbn [get_type]. unfold mbind, lift. rewrite E.
      rewrite (base_ok fuel s ds b B NS). cbn [fst snd]. rewrite (modified_flat _ _ _ NA). apply G. lia.
    - intros t s ds q p c E I A IH Sup.
      destruct (Sup t _ (re_self e t) E) as (NA & SF & NW). cbn [t_decls] in NA, SF.
      assert (NA' : no_adjacent ds = true) by exact NA. assert (SF' : simple_functions (e_win e) ds = true) by exact SF.
      destruct IH as [N G]; [exact NA'|exact SF'| |].
      { intros args a Id Ia. pose proof (in_params (SName s) (DStr $"*" :: ds) q args a (or_intror Id) Ia) as Ip.
        split; [exact (supported_param e t _ _ Sup E Ip)|exact (NW _ Ip)]. }
      exists (S N). intros [|fuel] L; [lia|]. cbn [get_type]. unfold mbind, lift. rewrite E.
      unfold base_type. change (true && starts_ptr (DStr $"*" :: ds)) with true. cbv iota.
      rewrite (special_ok s p I). unfold ret. cbn [fst snd tl]. rewrite (modified_flat _ _ _ NA'). apply G. lia.
    - intros c NA SF AS. exists 0. reflexivity.
    - intros c ds c' A IH NA SF AS. destruct IH as [N G]; [exact NA|exact SF|exact (args_sup_tl _ _ AS)|].
      exists N. intros fuel L. cbn [steps do_steps do_step]. unfold mbind, ret at 1.
      change (add_str c $"*") with (pointer_to c). now apply G.
    - intros c ds c' A IH NA SF AS. destruct IH as [N G]; [exact NA|exact SF|exact (args_sup_tl _ _ AS)|].
      exists N. intros fuel L. cbn [steps do_steps do_step]. unfold mbind, ret at 1.
      change (add_str c $"&") with (pointer_to c). now apply G.
    - intros c run ns ds c' NE F SA NV A IH NA SF AS.
      destruct run as [|a [|b run]]; [now destruct NE| |discriminate NA].
      inversion F as [|a' n run' ns' [Ca Ln] F']; subst. inversion F'; subst. cbn [map app] in *.
      cbn [no_adjacent] in NA. apply andb_true_iff in NA. destruct NA as [_ NA].
      destruct IH as [N G]; [exact NA|exact SF|exact (args_sup_tl _ _ AS)|].
      exists N. intros fuel L. cbn [steps do_steps do_step]. unfold mbind.
      rewrite Ca. cbn [rev app add_dims]. rewrite (do_add_dim c n NV Ln). cbn [bind]. now apply G.
    - intros c args cs ds c' Ss IHs A IH NA SF AS.
      destruct IHs as [F2 NV]. { intros a Ia. apply (AS args a); [now left|exact Ia]. }
      change (no_adjacent ds = true) in NA.
      assert (SF' : match ds with d :: _ => one_star d | [] => true end = true /\ simple_functions (e_win e) ds = true).
      { cbn [simple_functions] in SF. change (eqb $"*" $"*") with true in SF. cbv iota in SF. now apply andb_true_iff in SF. }
      destruct SF' as [OS SF'].
      assert (G : gives (fun f => do_steps e (get_type e f true) (PFun false c cs) (steps ds)) st (Ok c', st)).
      { apply IH; [exact NA|exact SF'|]. exact (args_sup_tl _ _ (args_sup_tl _ _ AS)). }
      assert (St : steps (DFun args :: DStr $"*" :: ds) = StFun args false :: steps ds).
      { cbn [steps]. change (look_at (DStr $"*")) with LStar. cbv iota. destruct ds as [|d2 ds]; [reflexivity|].
        unfold one_star in OS. destruct (look_at d2); try discriminate OS. reflexivity. }
      rewrite St. apply (step_fun args cs false c _ c'); auto. discriminate.
    - intros c args cs ds c' conv Ic Ss IHs A IH NA SF AS.
      destruct IHs as [F2 NV]. { intros a Ia. apply (AS args a); [now left|exact Ia]. }
      change (no_adjacent ds = true) in NA.
      assert (SF' : (conv = $"__stdcall" -> e_win e = true) /\ simple_functions (e_win e) ds = true).
      { destruct Ic as [<-|[<-|[]]].
        - split; [discriminate|exact SF].
        - change ((e_win e && simple_functions (e_win e) ds) = true) in SF. apply andb_true_iff in SF. destruct SF; auto. }
      destruct SF' as [W SF'].
      assert (G : gives (fun f => do_steps e (get_type e f true) (PFun (eqb conv $"__stdcall") c cs) (steps ds)) st (Ok c', st)).
      { apply IH; [exact NA|exact SF'|]. exact (args_sup_tl _ _ (args_sup_tl _ _ (args_sup_tl _ _ AS))). }
      assert (St : steps (DFun args :: DStr conv :: DStr $"*" :: ds) = StFun args (eqb conv $"__stdcall") :: steps ds).
      { destruct Ic as [<-|[<-|[]]]; reflexivity. }
      rewrite St. apply (step_fun args cs _ c _ c'); auto. intros X. apply W. now apply eqb_eq in X.
    - intros _. split; constructor.
    - intros t v q E AS. exfalso. apply (proj2 (AS _ (or_introl eq_refl))). exists q. exact E.
    - intros n t v c args cs Sh IH NV Ss IHs AS.
      destruct IHs as [F2 NVs]; [intros a I; apply AS; now right|].
      split; constructor; auto. cbn [fst snd]. apply IH. apply (AS _ (or_introl eq_refl)).
  Qed.
End Shape.
Lemma supported_shape e st t c : supported e t -> shape e st t c -> gives (fun f => get_type e f true t) st (Ok c, st).
Proof. intros Sup Sh. apply (proj1 (shape_served e st)); assumption. Qed.
(** The type given has the shape. *)
Lemma shape_given e : tags_known e -> flat_members e -> forall fuel t st c st' c',
  supported e t -> get_type e fuel true t st = (Ok c, st') -> shape e st' t c' -> c' = c.
Proof.
  intros T FM fuel t st c st' c' Sup E Sh. destruct (supported_shape e st' t c' Sup Sh) as [F G].
  assert (Fl : flat e t). { intros u r R Er. apply (Sup u r R Er). }
  pose proof (proj2 (good_get_type e T FM fuel true t Fl) _ _ _ E st' (later_refl _)) as H.
  specialize (G (max F fuel) ltac:(lia)). 
  assert (X : get_type e (max F fuel) true t st' = (Ok c, st')).
  { apply (get_type_mono e fuel); [lia|exact H|discriminate]. }
  congruence.
Qed.
