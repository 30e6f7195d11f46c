(** Proofs for C82 and C83: functions, and that there is but one ctypes type for each type. *)
From Coq Require Import Ascii String Bool Arith ZArith Lia List.
Import ListNotations.
From Verif Require Import PyBase PyBaseFacts PyStr PyStrFacts PyExpr TypeModel InitModel StoreModel StoreSpec DeclModel DeclSpec CtModel LinkModel LinkSpec LinkProofs LinkRead LinkRun LinkMain.
From Verif Require WordFacts TypeSpec TypeProofs CtSpec CtProofs CtOne CtFinish CtWords RunSpec.

(** ** One type *)
Section One.
  Context (cf : tconf) (table : dict str tyval) (s : store entry) (D : bool -> str -> Prop)
    (DI : forall u n, D u n -> TypeSpec.identifier n /\ n <> $"signed") (UT : usual_table table).
  (** What a base type stands for, by its canonical name. *)
  Definition base_value (cl : str -> option nat) (x : str) : option pyt :=
    match dget table x with
    | Some v => Some (of_tyval v)
    | None =>
        if starts_with $"struct " x then option_map PClass (cl (skipn 7 x))
        else if starts_with $"union " x then option_map PClass (cl (skipn 6 x))
        else if starts_with $"enum " x then Some (PBase $"c_int") else if eqb x $"void" then Some PVoid else None
    end.
  Lemma of_base_value cl b c : of_base table D cl b c -> base_value cl (canon b) = Some c.
  Proof.
    destruct UT as (U1 & U2 & U3). intros [ws c' IO Sp N1 N2|w v ID NS G| | |u n i Dn Cl|n ID NS].
    - apply CtWords.in_order_all in IO. apply CtWords.spells_candidate in Sp.
      pose proof (proj1 (forallb_forall _ _) CtWords.all_ok ws IO) as OK.
      unfold CtWords.ok_words in OK. apply orb_true_iff in OK. destruct OK as [X|OK].
      { unfold CtWords.excluded in X. apply orb_true_iff in X. destruct X as [X|X]; apply eqb_eq in X; contradiction. }
      pose proof (proj1 (forallb_forall _ _) OK c' Sp) as RC. unfold CtWords.right_class in RC.
      destruct (dget std_types (canon (CtSpec.words_of ws))) as [[|d|]|] eqn:DG; try discriminate. apply eqb_eq in RC. subst d.
      apply U1 in DG. unfold base_value. rewrite DG. reflexivity.
    - rewrite canon_word by assumption. unfold base_value. now rewrite G.
    - assert (X : dget table $"long double" = Some (TyC $"c_longdouble")) by (apply U1; vm_compute; reflexivity).
      change (canon $"long double") with $"long double". unfold base_value. now rewrite X.
    - change (canon $"void") with $"void". unfold base_value. destruct (dget table $"void") as [v|] eqn:G; [|reflexivity]. rewrite (U3 v eq_refl). reflexivity.
    - destruct (DI _ _ Dn) as [ID NS]. rewrite TypeProofs.canon_tag by (try apply tag_prefix; assumption). unfold base_value.
      rewrite U2 by apply tag_prefix. destruct u; cbn [CtSpec.tag_of].
      + rewrite CtOne.union_not_struct, starts_with_app. change (skipn 6 ($"union " ++ n)) with n. now rewrite Cl.
      + rewrite starts_with_app. change (skipn 7 ($"struct " ++ n)) with n. now rewrite Cl.
    - rewrite TypeProofs.canon_tag by (try assumption; cbn; auto). unfold base_value. rewrite U2 by (cbn; auto). reflexivity.
  Qed.
  Lemma expanded_one t t1 t2 : expanded cf s t t1 -> expanded cf s t t2 -> t1 = t2.
  Proof.
    intros X. revert t2. induction X as [t F|t b t' NF T X IH]; intros t2 Y; inversion Y as [u F2|u b2 t2' NF2 T2 X2]; subst; try contradiction; [reflexivity|].
    rewrite T in T2. injection T2 as <-. now apply IH.
  Qed.
  Lemma direct_inv cl t c : direct cf table s D cl t c ->
    match t with
    | TBase _ n => of_base table D cl n c
    | TPtr _ t => (exists p, special t p /\ c = PBase p)
        \/ ((forall p, ~ special t p) /\ is_function_pointer t = false /\ exists c', direct cf table s D cl t c' /\ c = CtSpec.pointer_to c')
        \/ exists q l u c' cs, t = TFun q l u /\ direct cf table s D cl u c' /\ all_represented cf table s D cl l cs /\ c = PFun false c' cs
    | TRef _ t => exists c', direct cf table s D cl t c' /\ c = CtSpec.pointer_to c'
    | TArr _ z t => exists n c', z = ONum (VInt n) /\ direct cf table s D cl t c' /\ c = CtSpec.arrays [n] c'
    | TFun _ _ _ | TConv _ _ => False
    end.
  Proof.
    destruct 1 as [q n c O|q t p SP|q t c N NF X|q t c X|q n t c L A X NV|q q' l t c cs X Al]; eauto 12.
  Qed.
  Lemma special_one t p p' : special t p -> special t p' -> p = p'.
  Proof.
    intros (q & n & -> & I1) (q' & n' & E & I2). injection E as <- <-. destruct (special_get _ _ I1) as [G1 _], (special_get _ _ I2) as [G2 _]. congruence.
  Qed.
  Lemma represents_one cl :
    (forall t c, represents cf table s D cl t c -> forall c', represents cf table s D cl t c' -> c = c')
    /\ (forall t c, direct cf table s D cl t c -> forall c', direct cf table s D cl t c' -> c = c')
    /\ (forall l cs, all_represented cf table s D cl l cs -> forall cs', all_represented cf table s D cl l cs' -> cs = cs').
  Proof.
    apply (represents_both cf table s D cl (fun t c _ => forall c', represents cf table s D cl t c' -> c = c')
      (fun t c _ => forall c', direct cf table s D cl t c' -> c = c') (fun l cs _ => forall cs', all_represented cf table s D cl l cs' -> cs = cs')).
    - intros t t' c X _ IH c' Y. inversion Y as [t1 t2 c2 X2 D2]; subst. rewrite <- (expanded_one _ _ _ X X2) in D2. now apply IH.
    - intros q n c O c' Y. apply direct_inv in Y. apply of_base_value in O. apply of_base_value in Y. congruence.
    - intros q t p SP c' Y. apply direct_inv in Y. destruct Y as [(p' & SP' & ->)|[(N & _)|(q2 & l & u & c2 & cs & -> & _)]].
      + f_equal. eapply special_one; eassumption.
      + destruct (N p SP).
      + destruct SP as (q3 & n & E & _). discriminate E.
    - intros q t c N NF X IH c' Y. apply direct_inv in Y. destruct Y as [(p' & SP' & ->)|[(_ & _ & c2 & X2 & ->)|(q2 & l & u & c2 & cs & -> & _)]].
      + destruct (N p' SP').
      + f_equal. now apply IH.
      + apply direct_inv in X. destruct X.
    - intros q t c X IH c' Y. apply direct_inv in Y. destruct Y as (c2 & X2 & ->). f_equal. now apply IH.
    - intros q n t c L A X IH NV c' Y. apply direct_inv in Y. destruct Y as (n2 & c2 & E & X2 & ->). injection E as <-. f_equal. now apply IH.
    - intros q q' l t c cs X IH Al IHA c' Y. apply direct_inv in Y. destruct Y as [(p' & (q3 & n & E & _) & ->)|[(_ & _ & c2 & X2 & ->)|(q2 & l2 & u & c2 & cs2 & E & X2 & A2 & ->)]].
      + discriminate E.
      + apply direct_inv in X2. destruct X2.
      + injection E as <- <- <-. f_equal; [now apply IH|now apply IHA].
    - intros cs' Y. now inversion Y.
    - intros n t v l c cs R IH NV A IHA cs' Y. inversion Y as [|n2 t2 v2 l2 c2 cs2 R2 NV2 A2]; subst. f_equal; [now apply IH|now apply IHA].
  Qed.
  Lemma void_represented cl q c : represents cf table s D cl (TBase q $"void") c -> c = PVoid.
  Proof.
    intros R. inversion R as [t t' c' X Y]; subst.
    assert (F : TypeSpec.fundamental cf $"void") by (apply TypeProofs.is_fund_iff; destruct cf as [a b0 c0]; destruct b0, c0; vm_compute; reflexivity).
    inversion X as [u F2|u b2 t2' NF2 T2 X2]; subst; [|contradiction]. apply direct_inv in Y. apply of_base_value in Y.
    change (canon $"void") with $"void" in Y. unfold base_value in Y. destruct (dget table $"void") as [v|] eqn:G; [|injection Y as <-; reflexivity].
    rewrite (proj2 (proj2 UT) v G) in Y. injection Y as <-. reflexivity.
  Qed.
End One.

(** ** Functions *)
Lemma no_convention h ds : forall qs t u x, build (map (filld h) ds) qs t = Some u -> noconv u = true -> In (DStr x) ds -> x = $"*" \/ x = $"&".
Proof.
  induction ds as [|d ds IH]; intros [|q qs] t u x B N I; try discriminate B; [destruct I|]. cbn [map build] in B.
  destruct (wrapd (filld h d) q t) as [t'|] eqn:W; [|discriminate]. destruct I as [->|I]; [|eapply IH; eassumption].
  destruct (build_noconv _ _ _ _ B N) as [N' _]. destruct (wrapd_noconv _ _ _ _ W N') as [_ Q]. cbn [filld wrapd] in W. destruct q as [q|]; [|now destruct Q].
  destruct (eqb_spec x $"*"); [auto|]. destruct (eqb_spec x $"&"); [auto|discriminate].
Qed.
Lemma represents_flat cf table s D cl t c : represents cf table s D cl t c -> flat t = true /\ noconv t = true.
Proof.
  intros [t1 t' c' X Y]. destruct (direct_flat _ _ _ _ _ _ _ Y) as [F N]. exact (flat_expanded _ _ _ _ X F N).
Qed.
Section Call.
  Context (cf : tconf) (table : dict str tyval) (s : store entry) (D : bool -> str -> Prop)
    (e : cenv) (h : heap) (LK : linked s e h) (EC : e_conf e = cf) (ET : e_table e = table)
    (CL : closed cf table s D) (TA : tagged s) (UT : usual_table table).
  Lemma void_dropped t0 t : read_type (fill h t0) = Some t -> flat t = true ->
    void_type t0 = match t with TBase _ n => eqb n $"void" | _ => false end.
  Proof.
    intros R F. destruct (read_shape _ _ R F) as (n & ds & q & qs & E & B). destruct t0 as [[m|u] ds0 qs0]; rewrite fill_eq in E; [|discriminate].
    injection E as -> Ed ->. subst ds. destruct (build_last _ _ _ _ _ _ B) as [(-> & -> & ->)|(ds' & d & qs' & q2 & t2 & -> & _ & _ & W)]; [reflexivity|].
    destruct t; try (now destruct ds'). now apply wrapd_not_base in W.
  Qed.
  Lemma params_kept l cl cs : all_represented cf table s D cl l cs -> forall args, read_args read_type (map (fun a => (fst (fst a), fill h (snd (fst a)), snd a)) args) = Some l ->
    filter (fun p : option str * rty * option str => negb (void_type (snd (fst p)))) args = args.
  Proof.
    induction 1 as [|n t v l c cs R NV A IH]; intros [|[[an at_] av] args] RA; try reflexivity; cbn [map read_args fst snd] in RA.
    - destruct (read_type _); [|discriminate]. destruct (read_args _ _); discriminate.
    - destruct (read_type (fill h at_)) as [t'|] eqn:RT; [|discriminate].
      destruct (read_args read_type (map (fun a => (fst (fst a), fill h (snd (fst a)), snd a)) args)) as [l'|] eqn:RL; [|discriminate].
      injection RA as -> -> -> ->. cbn [filter fst snd]. rewrite (void_dropped at_ t RT (proj1 (represents_flat _ _ _ _ _ _ _ R))).
      assert (X : match t with TBase _ n0 => eqb n0 $"void" | _ => false end = false).
      { destruct t as [q b|?|?|?|?|?]; try reflexivity. destruct (eqb_spec b $"void") as [->|]; [|reflexivity].
        apply (void_represented cf table s D (ident_D cf table s D CL) UT) in R. contradiction. }
      rewrite X. cbn [negb]. f_equal. now apply IH.
  Qed.
  Lemma params_filter l cl cs args : all_represented cf table s D cl (parameters l) cs ->
    read_args read_type (map (fun a => (fst (fst a), fill h (snd (fst a)), snd a)) args) = Some l ->
    exists args', filter (fun p : option str * rty * option str => negb (void_type (snd (fst p)))) args = args'
      /\ read_args read_type (map (fun a => (fst (fst a), fill h (snd (fst a)), snd a)) args') = Some (parameters l).
  Proof.
    intros A R.
    assert (G : parameters l = l \/ exists n q v, l = [(n, TBase q $"void", v)] /\ parameters l = []).
    { unfold parameters. destruct l as [|[[n [q b|?|?|?|?|?]] v] [|y l]]; auto. destruct (eqb_spec b $"void") as [->|]; [|now left]. right. eauto 6. }
    destruct G as [E|(n & q & v & -> & ->)].
    - rewrite E in *. exists args. split; [|exact R]. eapply params_kept; eassumption.
    - exists []. split; [|reflexivity]. destruct args as [|[[an at_] av] args]; [discriminate R|]. cbn [map read_args fst snd] in R.
      destruct (read_type (fill h at_)) as [t'|] eqn:RT; [|discriminate].
      destruct (read_args read_type (map (fun a => (fst (fst a), fill h (snd (fst a)), snd a)) args)) as [l'|] eqn:RL; [|discriminate].
      injection R as _ -> _ ->. cbn [filter fst snd]. rewrite (void_dropped at_ _ RT eq_refl). cbn.
      destruct args as [|[[bn bt] bv] args]; [reflexivity|]. exfalso. clear -RL. cbn [map read_args fst snd] in RL.
      destruct (read_type (fill h bt)); [|discriminate RL]. destruct (read_args read_type _); discriminate RL.
  Qed.
  Lemma wrapped sig q args r st : RunSpec.read_function (fill h sig) = Some (TFun q args r) ->
    representable cf table s D r -> ~ In (base_name r) convention_names ->
    (exists cl cs, all_represented cf table s D cl (parameters args) cs) -> ready h st ->
    gets (fun f => wrap_types e f sig) st
      (fun x st' => represents cf table s D (classes st') r (fst x) /\ all_represented cf table s D (classes st') (parameters args) (snd x) /\ grown cf table s D st st').
  Proof.
    intros RF RR NC (cl & cs & RA) SH. destruct sig as [[n|r0] ds qs]; rewrite fill_eq in RF; cbn [RunSpec.read_function] in RF; [discriminate|].
    destruct ds as [|d [|d2 ds]]; try discriminate RF; [|destruct d; discriminate RF]. destruct d as [x|a|ps]; try discriminate RF.
    cbn [map filld] in RF. destruct qs as [|[[|w v]|] [|[q0|] [|? ?]]]; try discriminate RF.
    destruct (read_type (fill h r0)) as [u|] eqn:RT; [|discriminate]. destruct (read_args read_type _) as [l|] eqn:RL; [|discriminate].
    injection RF as -> -> ->. cbn [wrap_types].
    assert (HE : has_elem $"__stdcall" r0 || has_elem $"__cdecl" r0 = false).
    { destruct RR as (cl' & c' & R'). destruct (represents_flat _ _ _ _ _ _ _ R') as [F N]. destruct (read_shape _ _ RT F) as (n & ds & q1 & qs & E & B).
      destruct r0 as [[m|u0] ds0 qs0]; rewrite fill_eq in E; [|discriminate]. injection E as -> Ed ->. subst ds.
      pose proof (build_base _ _ _ _ B) as BN. cbn [base_name] in BN. rewrite BN in NC. cbn [convention_names In] in NC.
      assert (Z : forall x, In x convention_names -> has_elem x (CT (SName n) ds0 (Some q1 :: qs)) = false).
      { intros x I. unfold has_elem. cbn [t_spec t_decls]. apply orb_false_iff. split.
        - destruct (eqb_spec x n) as [->|]; [|reflexivity]. exfalso. apply NC. exact I.
        - destruct (existsb _ ds0) eqn:EX; [|reflexivity]. exfalso. apply existsb_exists in EX. destruct EX as (d & Id & Q). destruct d as [y| |]; try discriminate Q.
          apply eqb_eq in Q. subst y. destruct (no_convention _ _ _ _ _ _ B N Id) as [->| ->]; destruct I as [E|[E|[]]]; discriminate E. }
      rewrite !Z by (cbn; auto). reflexivity. }
    rewrite HE. destruct (params_filter _ _ _ _ RA RL) as (ps' & -> & RL').
    eapply gets_bind; [exact (type_ok cf table s D e h LK EC ET CL TA UT r r0 st RR RT SH)|]. cbv beta. intros c st1 (R1 & G1).
    eapply gets_bind; [exact (args_ok cf table s D e h LK EC ET CL TA UT _ cl cs ps' st1 RA RL' (grown_ready cf table s D h _ _ G1 SH))|]. cbv beta. intros cs' st2 (R2 & G2).
    apply gets_ret. cbn [fst snd]. split; [|split; [exact R2|eapply grown_trans; eassumption]].
    eapply (represents_mono cf table s D (classes st1) (classes st2)); [exact (grown_classes cf table s D _ _ G2)|exact R1].
  Qed.
End Call.

(** ** Libraries *)
Section Library.
  Context (cf : tconf) (table : dict str tyval) (win : bool) (s : store entry) (D : bool -> str -> Prop)
    (CL : closed cf table s D) (TA : tagged s) (UT : usual_table table).
  Let L := load cf table win s.
  Lemma call_types n u q args r st : defined s Functions n = Some (EFun u) -> RunSpec.read_function u = Some (TFun q args r) ->
    representable cf table s D r -> ~ In (base_name r) convention_names ->
    (exists cl cs, all_represented cf table s D cl (parameters args) cs) -> ready (l_heap L) st ->
    exists sig fuel c cs st', dget (l_functions L) n = Some sig
      /\ (forall f, fuel <= f -> wrap_types (l_env L) f sig st = (Ok (c, cs), st'))
      /\ represents cf table s D (classes st') r c /\ all_represented cf table s D (classes st') (parameters args) cs
      /\ grown cf table s D st st'.
  Proof.
    intros DF RF RR NC RA SH. destruct (load_linked cf table win s) as (LK & FN & EC & ET). fold L in LK, FN, EC, ET.
    destruct (FN n u DF) as (sig & G & FS). rewrite <- FS in RF.
    destruct (wrapped cf table s D (l_env L) (l_heap L) LK EC ET CL TA UT sig q args r st RF RR NC RA SH) as (F & [c cs] & st' & E & R1 & R2 & G').
    exists sig, F, c, cs, st'. auto.
  Qed.
  Lemma class_made u n st : D u n -> classes st n = None -> ready (l_heap L) st ->
    exists fuel i k st', (forall f, fuel <= f -> get_struct (l_env L) f u n st = (Ok i, st'))
      /\ classes st' n = Some i /\ nth_error (st_classes st') i = Some k /\ class_of cf table s D (classes st') u n k
      /\ grown cf table s D st st'.
  Proof.
    intros Dn N SH. destruct (load_linked cf table win s) as (LK & FN & EC & ET). fold L in LK, FN, EC, ET.
    destruct (struct_ok cf table s D (l_env L) (l_heap L) LK EC ET CL TA UT u n st Dn SH) as (F & i & st' & E & C & G).
    pose proof G as (_ & _ & _ & K). destruct (K n i C N) as (_ & u' & k & Dn' & NT & CO).
    pose proof (ne_own s D u n Dn) as Dn0. assert (u' = u) as -> by (destruct u', u; try reflexivity; destruct (proj1 (proj2 CL) n); assumption).
    exists F, i, k, st'. auto.
  Qed.
End Library.

Lemma type_unique cf table s D cl t c c' : closed cf table s D -> usual_table table ->
  represents cf table s D cl t c -> represents cf table s D cl t c' -> c = c'.
Proof. intros CL UT R R'. exact (proj1 (represents_one cf table s D (ident_D cf table s D CL) UT cl) t c R c' R'). Qed.
