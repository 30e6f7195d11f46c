(** Proofs for C55: arrays of arrays, asked for the first time. *)
From Coq Require Import Ascii String Bool Arith ZArith Lia List.
Import ListNotations.
From Verif Require Import PyBase PyBaseFacts PyStr PyStrFacts PyExpr TypeModel TypeProofs InitModel StoreModel DeclModel DeclStore CtModel CtSpec CtMono CtProofs CtShape.

Lemma content_put h a b l : a < length h -> content (put h a l) b = if Nat.eqb b a then l else content h b.
Proof.
  unfold content. revert a b. induction h as [|x h IH]; intros a b L; [cbn in L; lia|].
  destruct a as [|a], b as [|b]; try reflexivity. cbn [put nth Nat.eqb]. apply IH. cbn in L. lia.
Qed.
Lemma put_length h a l : length (put h a l) = length h.
Proof. revert a. induction h as [|x h IH]; intros [|a]; cbn; auto. Qed.
Lemma content_in h a x l : content h a = x :: l -> a < length h.
Proof.
  unfold content. intros E. destruct (Nat.lt_ge_cases a (length h)) as [|G]; [assumption|].
  rewrite nth_overflow in E by assumption. discriminate.
Qed.
Lemma add_dims_app c l1 l2 : add_dims c (l1 ++ l2) = do x <- add_dims c l1; add_dims x l2.
Proof.
  revert c. induction l1 as [|d l1 IH]; intros c; [reflexivity|]. cbn [add_dims app].
  destruct (add_dim c d); cbn [bind]; [apply IH|reflexivity].
Qed.
Lemma arrays_not_void ns c : c <> PVoid -> arrays ns c <> PVoid.
Proof.
  intros NV. destruct ns as [|n ns]; [exact NV|]. unfold arrays. cbn [fold_right]. destruct (n =? -1)%Z; [|discriminate].
  unfold pointer_to. destruct (fold_right _ c ns); discriminate.
Qed.
Lemma add_dims_arrays c ns : c <> PVoid -> Forall (fun n => -1 <= n)%Z ns ->
  add_dims c (rev (map (fun n => ONum (VInt n)) ns)) = Ok (arrays ns c).
Proof.
  intros NV F. induction F as [|n ns L F IH]; [reflexivity|]. cbn [map rev]. rewrite add_dims_app, IH. cbn [bind add_dims].
  rewrite (do_add_dim (arrays ns c) n (arrays_not_void ns c NV) L). reflexivity.
Qed.
(** Merging a run. *)
Lemma merge_run : forall run ns h a pre ds,
  Forall2 (fun b n => content h b = [ONum (VInt n)]) run ns ->
  content h a = pre -> a < length h -> NoDup (a :: run) -> starts_arr ds = false ->
  exists h1, merge h (DArr a) (map DArr run ++ ds) = (let (h', l) := merge_all h1 ds in (h', DArr a :: l))
    /\ content h1 a = pre ++ map (fun n => ONum (VInt n)) ns
    /\ (forall x, x <> a -> content h1 x = content h x) /\ length h1 = length h.
Proof.
  induction run as [|b run IH]; intros ns h a pre ds F P L ND SA.
  - inversion F; subst. exists h. cbn [map app]. rewrite app_nil_r. split; [|auto].
    destruct ds as [|d ds]; [reflexivity|]. destruct d; [reflexivity|discriminate SA|reflexivity].
  - inversion F as [|? n ? ns' Cb F']; subst. cbn [map app merge]. rewrite Cb.
    set (h2 := put h a (content h a ++ [ONum (VInt n)])).
    assert (NE : a <> b). { intros ->. inversion ND as [|? ? NI _]. apply NI. now left. }
    assert (ND' : NoDup (a :: run)).
    { inversion ND as [|? ? NI ND1]; subst. inversion ND1; subst. constructor; [|assumption]. intros I. apply NI. now right. }
    destruct (IH ns' h2 a (content h a ++ [ONum (VInt n)]) ds) as (h1 & M & C1 & CO & LN).
    + clear - F' ND' L h2 ND. assert (X : forall x, In x run -> x <> a).
      { intros x I ->. inversion ND'; subst. contradiction. }
      clear ND ND'. induction F' as [|x n' run ns' Cx F IHF]; constructor.
      * unfold h2. rewrite content_put by exact L. destruct (Nat.eqb_spec x a); [now destruct (X x (or_introl eq_refl))|exact Cx].
      * apply IHF. intros y I. apply X. now right.
    + unfold h2. rewrite content_put by exact L. now rewrite Nat.eqb_refl.
    + unfold h2. now rewrite put_length.
    + exact ND'.
    + exact SA.
    + exists h1. split; [exact M|]. split; [rewrite C1, <- app_assoc; reflexivity|]. split.
      * intros x Nx. rewrite CO by exact Nx. unfold h2. rewrite content_put by exact L.
        destruct (Nat.eqb_spec x a); [contradiction|reflexivity].
      * rewrite LN. unfold h2. apply put_length.
Qed.
Lemma refs_app a b : refs (a ++ b) = refs a ++ refs b.
Proof. unfold refs. apply flat_map_app. Qed.
Lemma refs_run run : refs (map DArr run) = run.
Proof. induction run as [|a run IH]; [reflexivity|]. cbn. f_equal. exact IH. Qed.

Section Data.
  Context (e : cenv) (st : cst).
  Definition P_data (c : pyt) (ds : list rdecl) (c' : pyt) : Prop :=
    is_data ds = true -> NoDup (refs ds) -> forall h, (forall a, In a (refs ds) -> content h a = content (st_heap st) a) ->
    exists h' mods, merge_all h ds = (h', mods)
      /\ (forall a, ~ In a (refs ds) -> content h' a = content h a)
      /\ forall rec st2, (forall a, In a (refs ds) -> content (st_heap st2) a = content h' a) ->
           do_steps e rec c (steps mods) st2 = (Ok c', st2).
  Lemma merge_all_str h s ds : merge_all h (DStr s :: ds) = let (h', l) := merge_all h ds in (h', DStr s :: l).
  Proof. destruct ds as [|d ds]; reflexivity. Qed.
  Lemma data_ok : forall c ds c', applies e st c ds c' -> P_data c ds c'.
  Proof.
    induction 1 as [c|c ds c' A IH|c ds c' A IH|c run ns ds c' NE F SA NV A IH|c args cs ds c' Ss A IH|c args cs ds c' conv Ic Ss A IH].
    - intros _ _ h _. exists h, []. cbn. auto.
    - intros ID ND h H. destruct (IH ID ND h H) as (h' & mods & M & O & R). exists h', (DStr $"*" :: mods).
      rewrite merge_all_str, M. split; [reflexivity|]. split; [exact O|]. intros rec st2 H2. cbn [steps do_steps do_step].
      unfold mbind, ret at 1. change (add_str c $"*") with (pointer_to c). now apply R.
    - intros ID ND h H. destruct (IH ID ND h H) as (h' & mods & M & O & R). exists h', (DStr $"&" :: mods).
      rewrite merge_all_str, M. split; [reflexivity|]. split; [exact O|]. intros rec st2 H2. cbn [steps do_steps do_step].
      unfold mbind, ret at 1. change (add_str c $"&") with (pointer_to c). now apply R.
    - intros ID ND h H. rewrite refs_app, refs_run in ND, H.
      assert (ID' : is_data ds = true). { unfold is_data in *. rewrite forallb_app in ID. now apply andb_true_iff in ID. }
      destruct run as [|a run]; [now destruct NE|]. inversion F as [|? n ? ns' [Ca La] F']; subst.
      assert (Ha : content h a = [ONum (VInt n)]). { rewrite H by now left. exact Ca. }
      assert (Fh : Forall2 (fun b n => content h b = [ONum (VInt n)]) run ns').
      { assert (X : forall x, In x run -> content h x = content (st_heap st) x).
        { intros x I. apply H. right. apply in_or_app. now left. }
        clear - F' X. induction F' as [|x m run ns [Cx _] F IHF]; constructor.
        - rewrite X by now left. exact Cx.
        - apply IHF. intros y I. apply X. now right. }
      cbn [app] in ND. inversion ND as [|? ? NI ND']; subst.
      assert (NDr : NoDup (a :: run) /\ NoDup (refs ds) /\ forall x, In x (a :: run) -> ~ In x (refs ds)).
      { clear - ND. rewrite app_comm_cons in ND. revert ND. generalize (a :: run). intros l.
        induction l as [|x l IHl]; cbn [app]; intros ND; [repeat split; [constructor|exact ND|intros y []]|].
        inversion ND as [|? ? NI ND']; subst. destruct (IHl ND') as (A1 & A2 & A3). split; [|split].
        - constructor; [|exact A1]. intros I. apply NI. apply in_or_app. now left.
        - exact A2.
        - intros y [<-|I]; [|now apply A3]. intros I. apply NI. apply in_or_app. now right. }
      destruct NDr as (N1 & N2 & N3).
      destruct (merge_run run ns' h a _ ds Fh Ha (content_in _ _ _ _ Ha) N1 SA) as (h1 & M & C1 & CO & LN).
      destruct (IH ID' N2 h1) as (h' & mods & M' & O & R).
      { intros x I. rewrite CO; [apply H; right; apply in_or_app; now right|]. intros ->. exact (N3 a (or_introl eq_refl) I). }
      exists h', (DArr a :: mods). split; [cbn [map app merge_all]; rewrite M, M'; reflexivity|]. split.
      + intros x Nx. rewrite refs_app, refs_run in Nx. rewrite O.
        * apply CO. intros ->. apply Nx. now left.
        * intros I. apply Nx. right. apply in_or_app. now right.
      + intros rec st2 H2. rewrite refs_app, refs_run in H2. cbn [steps do_steps do_step]. unfold mbind.
        rewrite (H2 a) by now left. rewrite O by (apply N3; now left). rewrite C1.
        change ([ONum (VInt n)] ++ map (fun n => ONum (VInt n)) ns') with (map (fun n => ONum (VInt n)) (n :: ns')).
        rewrite add_dims_arrays; [|exact NV|].
        * apply R. intros x I. apply H2. right. apply in_or_app. now right.
        * constructor; [exact La|]. clear - F'. induction F' as [|x m run ns [_ Lx] F IHF]; constructor; auto.
    - discriminate.
    - discriminate.
  Qed.
End Data.
Lemma data_shape e st t r c :
  eval_type (e_conf e) (e_types e) t = Ok r -> is_data (t_decls r) = true -> NoDup (refs (t_decls r)) ->
  shape e st t c -> exists st', (forall fuel, get_type e (S fuel) true t st = (Ok c, st'))
    /\ st_structs st' = st_structs st /\ st_classes st' = st_classes st
    /\ forall a, ~ In a (refs (t_decls r)) -> content (st_heap st') a = content (st_heap st) a.
Proof.
  intros E ID ND Sh. destruct Sh as [t s ds q b c E' B NS A|t s ds q p c E' I A]; rewrite E' in E; injection E as <-; cbn [t_decls] in *.
  - destruct (data_ok e st _ _ _ A ID ND (st_heap st) (fun _ _ => eq_refl)) as (h' & mods & M & O & R).
    eexists. split; [|split; [|split]]; cycle 1.
    + instantiate (1 := {| st_heap := h'; st_structs := st_structs st; st_classes := st_classes st |}). reflexivity.
    + reflexivity.
    + exact O.
    + intros fuel. cbn [get_type]. unfold mbind, lift. rewrite E', (base_ok e st fuel s ds b B NS). cbn [fst snd].
      unfold modified. rewrite M. apply R. reflexivity.
  - assert (ID' : is_data ds = true) by exact ID. assert (ND' : NoDup (refs ds)) by exact ND.
    destruct (data_ok e st _ _ _ A ID' ND' (st_heap st) (fun _ _ => eq_refl)) as (h' & mods & M & O & R).
    eexists. split; [|split; [|split]]; cycle 1.
    + instantiate (1 := {| st_heap := h'; st_structs := st_structs st; st_classes := st_classes st |}). reflexivity.
    + reflexivity.
    + exact O.
    + intros fuel. cbn [get_type]. unfold mbind, lift. rewrite E'. unfold base_type.
      change (true && starts_ptr (DStr $"*" :: ds)) with true. cbv iota. rewrite (special_ok s p I). unfold ret. cbn [fst snd tl].
      unfold modified. rewrite M. apply R. reflexivity.
Qed.
