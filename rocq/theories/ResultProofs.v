(** Proofs for C96. *)
From Coq Require Import Ascii String Bool Arith ZArith Lia Sorted List.
Import ListNotations.
From Verif Require Import PyBase PyBaseFacts PyStr PyStrFacts PyExpr TypeModel InitModel StoreModel StoreSpec DeclModel DeclSpec CtModel LinkModel LinkSpec LinkProofs LinkRead LinkRun LinkMain LinkCall AutoSpec AutoProofs.
From Verif Require Import ObjModel ObjSpec ObjProofs InvokeModel InvokeSpec InvokeProofs ResultModel ResultSpec.
From Verif Require LibModel RunSpec FunModel.

(** ** Attributes called value *)
Lemma class_has_value ks fuel : forall i, class_has fuel ks i = true -> has_value ks i.
Proof.
  induction fuel as [|fuel IH]; intros i H; [discriminate H|]. cbn [class_has] in H.
  destruct (nth_error ks i) as [k|] eqn:N; [|discriminate H]. destruct (k_fields k) as [fs|] eqn:K; [|discriminate H].
  apply existsb_exists in H. destruct H as (f & I1 & H). apply orb_true_iff in H. destruct H as [H|H].
  - apply (hv_own ks i k fs f N K I1). apply eqb_eq. exact H.
  - apply andb_true_iff in H. destruct H as [H1 H2]. apply existsb_exists in H1. destruct H1 as (n & I2 & E). apply eqb_eq in E. subst n.
    destruct (fd_type f) as [| | |j| | |] eqn:FT; try discriminate H2. apply (hv_inner ks i k fs f j N K I1 I2 FT). apply IH. exact H2.
Qed.
Lemma content_seen w ks c id x : content w ks c id x -> extract w ks (seen w c id) = x.
Proof.
  intros C. destruct C as [n id|j id P|j id P V|i id NH|c id|b c l id]; unfold seen; cbn [converts extract]; try reflexivity.
  - rewrite P. reflexivity.
  - rewrite P. cbn [extract]. rewrite V. reflexivity.
  - destruct (class_has (length ks) ks i) eqn:H; [|reflexivity]. contradiction NH. apply (class_has_value ks _ i H).
Qed.

(** ** The places of automatic arguments *)
Lemma guessed_in l : forall j i, In i (guessed_from j l) <-> j <= i /\ exists c, nth_error l (i - j) = Some (NewOf c).
Proof.
  induction l as [|a l IH]; intros j i; cbn [guessed_from].
  - split; [intros []|]. intros (_ & c & E). destruct (i - j); discriminate E.
  - assert (R : In i (guessed_from (S j) l) <-> S j <= i /\ exists c, nth_error (a :: l) (i - j) = Some (NewOf c)).
    { rewrite IH. split; intros (L & c & E); (split; [exact L|]); exists c; replace (i - j) with (S (i - S j)) in * by lia; exact E. }
    assert (Z0 : j <= i -> ~ S j <= i -> i - j = 0) by lia.
    destruct a as [id|c|c]; [| |cbn [In]]; rewrite R.
    + split; [intros (L & X); split; [lia|exact X]|]. intros (L & c & E). destruct (Nat.le_gt_cases (S j) i) as [L1|L1]; [split; [exact L1|eauto]|].
      rewrite (Z0 L ltac:(lia)) in E. discriminate E.
    + split; [intros (L & X); split; [lia|exact X]|]. intros (L & c' & E). destruct (Nat.le_gt_cases (S j) i) as [L1|L1]; [split; [exact L1|eauto]|].
      rewrite (Z0 L ltac:(lia)) in E. discriminate E.
    + split.
      * intros [->|(L & X)]; [split; [lia|]; exists c; rewrite Nat.sub_diag; reflexivity|split; [lia|exact X]].
      * intros (L & X). destruct (Nat.le_gt_cases (S j) i) as [L1|L1]; [right; split; [exact L1|exact X]|left; lia].
Qed.
Lemma guessed_sorted l : forall j, StronglySorted lt (guessed_from j l).
Proof.
  induction l as [|a l IH]; intros j; cbn [guessed_from]; [constructor|]. destruct a as [id|c|c]; try apply IH. constructor; [apply IH|].
  apply Forall_forall. intros i I1. apply guessed_in in I1. lia.
Qed.
Lemma in_places l i : existsb (fun g => (Z.of_nat g =? Z.of_nat i)%Z) (guessed_from 0 l) = true <-> exists c, nth_error l i = Some (NewOf c).
Proof.
  rewrite existsb_exists. split.
  - intros (g & I1 & E). apply Z.eqb_eq in E. assert (g = i) by lia. subst g. apply guessed_in in I1. rewrite Nat.sub_0_r in I1. apply I1.
  - intros X. exists i. split; [apply guessed_in; rewrite Nat.sub_0_r; split; [lia|exact X]|apply Z.eqb_refl].
Qed.
Lemma index_nat len i : i < len -> FunModel.py_index len (Z.of_nat i) = Some i.
Proof.
  intros L. unfold FunModel.py_index. destruct (Z.leb_spec 0 (Z.of_nat i)); [|lia]. destruct (Z.ltb_spec (Z.of_nat i) (Z.of_nat len)); [|lia]. rewrite Nat2Z.id. reflexivity.
Qed.
Lemma find_first ns n : forall j i, nth_error ns i = Some (Some n) -> (forall k, k < i -> nth_error ns k <> Some (Some n)) -> find_name ns n j = Ok (j + i).
Proof.
  induction ns as [|m ns IH]; intros j i N F; [destruct i; discriminate N|]. cbn [find_name]. destruct i as [|i].
  - injection N as ->. rewrite eqb_refl. rewrite Nat.add_0_r. reflexivity.
  - destruct (eqb m (Some n)) eqn:E; [apply eqb_eq in E; subst m; contradiction (F 0 ltac:(lia)); reflexivity|].
    rewrite (IH (S j) i N); [f_equal; lia|]. intros k L. apply (F (S k)). lia.
Qed.

(** ** Results *)
Section Result.
  Context (cf : tconf) (s : store entry) (takes : option pyt -> nat -> bool)
    (ps : list (option str * cty * option str)) (cs : list pyt) (args : list FunModel.pyval) (kwargs : list (str * FunModel.pyval)) (ND : NoDup (map fst kwargs)).
  Notation gives := (InvokeSpec.gives ps args kwargs).
  Notation gives_nothing := (InvokeSpec.gives_nothing ps args kwargs).
  Notation type_at := (InvokeSpec.type_at cf s ps cs).
  Lemma names_one k k' i : names_param ps k i -> names_param ps k' i -> k = k'.
  Proof. intros ((t & v & A) & _) ((t' & v' & B) & _). congruence. Qed.
  Lemma gives_one i v v' : gives i v -> gives i v' -> v = v'.
  Proof.
    intros [(k & I1 & N)|(A & NN)] [(k' & I2 & N')|(A' & NN')].
    - rewrite (names_one k k' i N N') in I1. clear N N'. induction kwargs as [|[x y] l IH]; [destruct I1|]. inversion ND as [|? ? NI ND']; subst. cbn [map fst] in NI.
      destruct I1 as [E|I1], I2 as [E'|I2]; try congruence.
      + injection E as -> _. contradiction NI. change k' with (fst (k', v')). apply in_map. exact I2.
      + injection E' as -> _. contradiction NI. change k' with (fst (k', v)). apply in_map. exact I1.
      + apply IH; assumption.
    - contradiction (NN' k v I1 N).
    - contradiction (NN k' v' I2 N').
    - congruence.
  Qed.
  Lemma gives_not i v : gives i v -> gives_nothing i -> False.
  Proof. intros [(k & I1 & N)|(A & _)] (B & NN); [exact (NN k v I1 N)|congruence]. Qed.
  Lemma type_one j t c t' c' : type_at j t c -> type_at j t' c' -> t = t' /\ c = c'.
  Proof.
    intros (C & name & t0 & v & N & X) (C' & name' & t0' & v' & N' & X'). split; [|congruence].
    rewrite N in N'. injection N' as _ <- _. exact (expanded_one cf s _ _ _ X X').
  Qed.
  Context (l : list carg) (P : passed cf s takes ps cs args kwargs l) (W : well_called cf s takes ps cs args kwargs).
  Lemma given_place i v : gives i v -> i < length l.
  Proof.
    destruct P as (L & _). intros [(k & _ & (t & w & N) & _)|(A & _)]; rewrite L.
    - assert (i < length ps) by (apply nth_error_Some; congruence). lia.
    - assert (i < length args) by (apply nth_error_Some; congruence). lia.
  Qed.
  Lemma own_place i id : gives i (FunModel.PVal id) -> nth_error l i = Some (Own id).
  Proof.
    intros G. destruct P as (L & P1 & P2). destruct (Nat.lt_ge_cases i (length ps)) as [Li|Li].
    - destruct (P1 i Li) as (a & N & PA). destruct PA as [id' c G' _ _|t c G' _ _|t c k a G' _ _ _ _ _ _].
      + pose proof (gives_one i _ _ G G') as E. injection E as <-. exact N.
      + pose proof (gives_one i _ _ G G') as E. discriminate E.
      + destruct (gives_not i _ G G').
    - apply P2; [exact Li|]. destruct G as [(k & _ & (t & w & N) & _)|(A & _)]; [|exact A]. exfalso.
      assert (i < length ps) by (apply nth_error_Some; congruence). lia.
  Qed.
  Lemma null_place i t c : gives i FunModel.PNone -> type_at i t c -> nth_error l i = Some (NullOf c).
  Proof.
    intros G T. assert (Li : i < length ps) by (destruct T as (_ & name & t0 & v & N & _); apply nth_error_Some; congruence).
    destruct P as (L & P1 & P2). destruct (P1 i Li) as (a & N & PA). destruct PA as [id' c' G' _ _|t' c' G' T' _|t' c' k a G' _ _ _ _ _ _].
    - pose proof (gives_one i _ _ G G') as E. discriminate E.
    - destruct (type_one i t c t' c' T T') as (_ & <-). exact N.
    - destruct (gives_not i _ G G').
  Qed.
  Lemma new_place i t c : gives_nothing i -> type_at i t c ->
    exists c1, nth_error l i = Some (NewOf (PPtr c1)) /\ (PPtr c1 = c \/ c = PBase $"c_void_p" /\ c1 = c).
  Proof.
    intros G T. assert (Li : i < length ps) by (destruct T as (_ & name & t0 & v & N & _); apply nth_error_Some; congruence).
    destruct P as (L & P1 & P2). destruct (P1 i Li) as (a & N & PA). destruct PA as [id' c' G' _ _|t' c' G' T' _|t' c' k a G' T' _ _ _ (c0 & ->) A].
    - destruct (gives_not i _ G' G).
    - destruct (gives_not i _ G' G).
    - destruct (type_one i t c t' c' T T') as (_ & <-). exists c0. split; [exact N|]. destruct A as [A|(A & B)]; [left; exact A|right; split; [exact A|congruence]].
  Qed.
  Lemma new_iff i : (exists c, nth_error l i = Some (NewOf c)) <-> i < length ps /\ gives_nothing i.
  Proof.
    pose proof P as (L & P1 & P2). split.
    - intros (c & N). assert (Ll : i < length l) by (apply nth_error_Some; congruence). destruct (Nat.lt_ge_cases i (length ps)) as [Li|Li].
      + split; [exact Li|]. destruct (P1 i Li) as (a & N' & PA). rewrite N in N'. injection N' as <-. inversion PA; subst. assumption.
      + exfalso. destruct W as (_ & EX & _). destruct (nth_error args i) as [v|] eqn:A; [|apply nth_error_None in A; lia].
        destruct (EX i v Li A) as (id & -> & _). rewrite (P2 i id Li A) in N. discriminate N.
    - intros (Li & G). destruct (P1 i Li) as (a & N & PA). destruct PA as [id' c' G' _ _|t' c' G' T' _|t' c' k a G' T' _ _ _ _ _]; [destruct (gives_not i _ G' G)..|]. eauto.
  Qed.
  Context (c : pyt) (ns : list (option str)) (NS : ns = map (fun p => fst (fst p)) ps) (w : world) (ks : list cls).
  Let r := {| r_type := c; r_args := l; r_names := ns; r_guessed := guessed_from 0 l |}.
  Lemma item_own i id : nth_error l i = Some (Own id) -> item w ks r (FunModel.Int (Z.of_nat i)) = Ok (extract w ks (Mine id)).
  Proof.
    intros N. assert (Li : i < length l) by (apply nth_error_Some; congruence). unfold item. cbn [bind r_args r_guessed r].
    rewrite (index_nat _ i Li), N. destruct (existsb (fun g => (Z.of_nat g =? Z.of_nat i)%Z) (guessed_from 0 l)) eqn:E; [|reflexivity].
    apply in_places in E. destruct E as (c' & E). congruence.
  Qed.
  Lemma item_null i c' : nth_error l i = Some (NullOf c') -> item w ks r (FunModel.Int (Z.of_nat i)) = Ok (extract w ks (Obj c' (w_made w i))).
  Proof.
    intros N. assert (Li : i < length l) by (apply nth_error_Some; congruence). unfold item. cbn [bind r_args r_guessed r].
    rewrite (index_nat _ i Li), N. destruct (existsb (fun g => (Z.of_nat g =? Z.of_nat i)%Z) (guessed_from 0 l)) eqn:E; [|reflexivity].
    apply in_places in E. destruct E as (c'' & E). congruence.
  Qed.
  Lemma item_new i c' : nth_error l i = Some (NewOf (PPtr c')) -> item w ks r (FunModel.Int (Z.of_nat i)) = Ok (extract w ks (seen w c' (w_stored w i))).
  Proof.
    intros N. assert (Li : i < length l) by (apply nth_error_Some; congruence). unfold item. cbn [bind r_args r_guessed r].
    rewrite (index_nat _ i Li), N. assert (E : existsb (fun g => (Z.of_nat g =? Z.of_nat i)%Z) (guessed_from 0 l) = true) by (apply in_places; eauto).
    rewrite E. reflexivity.
  Qed.
  Lemma shows_item i x : shows cf s ps cs args kwargs w ks i x -> item w ks r (FunModel.Int (Z.of_nat i)) = Ok x.
  Proof.
    intros SH. destruct SH as [id G M|id G M|t n G T|t c' G T PT|t c' c0 x G T PC CO].
    - rewrite (item_own i id (own_place i id G)). cbn [extract]. rewrite M. reflexivity.
    - rewrite (item_own i id (own_place i id G)). cbn [extract]. rewrite M. reflexivity.
    - rewrite (item_null i _ (null_place i t _ G T)). reflexivity.
    - rewrite (item_null i _ (null_place i t _ G T)). destruct c'; try contradiction PT; reflexivity.
    - destruct (new_place i t c' G T) as (c1 & N & A). rewrite (item_new i c1 N). assert (c1 = c0) as -> by (destruct PC as [->|(-> & ->)], A as [A|(A & B)]; congruence).
      f_equal. apply content_seen. exact CO.
  Qed.
  Lemma item_name n i : first_named ps n i -> item w ks r (FunModel.Name n) = item w ks r (FunModel.Int (Z.of_nat i)).
  Proof.
    intros ((t & v & N) & F). unfold item. cbn [r_names r].
    rewrite (find_first ns n 0 i); [reflexivity| |].
    - rewrite NS. rewrite (map_nth_error (fun p => fst (fst p)) i ps N). reflexivity.
    - intros k Lk E. rewrite NS in E. destruct (nth_error ps k) as [[[m t'] v']|] eqn:X; [|apply nth_error_None in X; assert (Y : nth_error (map (fun p => fst (fst p)) ps) k = None) by (apply nth_error_None; rewrite map_length; exact X); congruence].
      rewrite (map_nth_error (fun p => fst (fst p)) k ps X) in E. cbn [fst] in E. injection E as ->. exact (F k t' v' Lk X).
  Qed.
  Lemma result_good : good_result cf s ps cs args kwargs w ks c r.
  Proof.
    split; [|split; [|split]].
    - intros x G. unfold returned. cbn [r_type r]. destruct G as [|c' x C]; [reflexivity|apply content_seen; exact C].
    - intros i x SH. pose proof (shows_item i x SH) as E. split; [exact E|]. intros n F. rewrite (item_name n i F). exact E.
    - exists (guessed_from 0 l). split; [apply guessed_sorted|]. split; [|reflexivity]. intros i. rewrite guessed_in, Nat.sub_0_r. rewrite new_iff. split; [intros (_ & X); exact X|intros X; split; [lia|exact X]].
    - unfold all_items. cbn [r_args r]. destruct P as (L & _). rewrite L. reflexivity.
  Qed.
End Result.

(** ** Libraries *)
Lemma names_read h (sig : rty) ps : read_args read_type (map (fun a => (fst (fst a), fill h (snd (fst a)), snd a)) (sig_params sig)) = Some ps ->
  map (fun p => fst (fst p)) (sig_params sig) = map (fun p => fst (fst p)) ps.
Proof.
  intros RD. pose proof (read_names _ _ _ RD) as E. apply (f_equal (map fst)) in E. rewrite !map_map in E. cbn [fst] in E. exact E.
Qed.
Section Library.
  Context (cf : tconf) (table : dict str tyval) (win : bool) (s : store entry) (D : bool -> str -> Prop)
    (prefix : list str) (exports : str -> bool) (takes : option pyt -> nat -> bool)
    (CL : closed cf table s D) (TA : tagged s) (EA : enum_tagged s) (UT : usual_table table) (NC : no_clash s prefix).
  Let b := open_with cf table win s prefix exports.
  Theorem function_results a n args r : about cf table s D prefix a Functions n -> exports n = true -> signature cf table s D n args r ->
    results_well cf table win s D prefix exports takes a n (parameters args) r.
  Proof.
    intros AB EX SG l FO. cbv zeta. change (open_with cf table win s prefix exports) with b.
    destruct (uses_ok cf table win s D prefix exports takes CL TA EA UT NC l (opened b) FO (good_opened cf table win s D prefix exports)) as (st & E & GD). exists st.
    destruct (invoked cf table win s D prefix exports takes CL TA EA UT NC st a Functions n [] [] GD AB) as (F0 & o0 & st0 & _ & _ & _ & H0).
    destruct (H0 args r eq_refl EX SG) as (c & cs & st1 & GA & R1 & R2 & _).
    exists c, cs, st1. split; [exact E|]. split; [exact GA|]. split; [exact R1|]. split; [exact R2|].
    intros NDf pos kw ND W. destruct (invoked cf table win s D prefix exports takes CL TA EA UT NC st a Functions n pos kw GD AB) as (F & o & st2 & E2 & _ & _ & H).
    destruct (H args r eq_refl EX SG) as (c' & cs' & st1' & (Fa & GA') & _ & _ & EW).
    destruct GA as (Fb & GA). pose proof (GA (Nat.max Fa Fb) ltac:(lia)) as G1. specialize (GA' (Nat.max Fa Fb) ltac:(lia)). cbv beta in G1, GA'.
    assert (cs' = cs) as -> by congruence. destruct (EW NDf ND) as (W1 & _). destruct (W1 W) as (l' & -> & P).
    destruct (sig_found cf table win s D CL UT n args r _ cs SG R2) as (sig & GS & RD).
    eexists. exists st2. split.
    - exists (Nat.max F Fb). intros f Lf. unfold call_result. fold b in E2 |- *. rewrite E2 by lia.
      pose proof (GA f ltac:(lia)) as Gf. cbv beta in Gf. fold b in Gf. rewrite Gf. cbn [fst]. change (l_functions (b_lib b)) with (l_functions (load cf table win s)). rewrite GS. reflexivity.
    - intros w. apply (result_good cf s takes); [exact ND|exact P|exact W|apply (names_read _ _ _ RD)].
  Qed.
End Library.
