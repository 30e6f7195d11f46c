(** Lemmas on whole enums, variables and members (C41, C42, C45, C46, C67). *)
From Coq Require Import Ascii String Bool Arith ZArith Lia List.
Import ListNotations.
From Verif Require Import PyBase PyBaseFacts PyStr PyStrFacts PyExpr TypeModel StoreModel StoreSpec StoreProofs.
From Verif Require Import DeclModel DeclSpec DeclProofs DeclStore.

Section Enums.
  Context (ev : dict str pobj -> str -> res pobj).

  Lemma counts_names env i l vs : counts ev env i l vs -> map fst vs = map fst l.
  Proof. induction 1 as [|? ? ? ? ? ? _ _ IH|? ? ? ? ? ? ? ? _ _ _ IH]; cbn; congruence. Qed.
  Lemma put_all_fresh vs : forall d, NoDup (map fst vs) -> (forall n, In n (map fst vs) -> ~ In n (keys d)) ->
    put_all d vs = d ++ vs.
  Proof.
    induction vs as [|[n v] vs IH]; intros d ND F; cbn [put_all fold_left fst snd].
    - rewrite app_nil_r. reflexivity.
    - cbn in ND. inversion ND as [|? ? NI ND']; subst.
      assert (E : dset d n v = d ++ [(n, v)]).
      { assert (NK : ~ In n (keys d)) by (apply F; left; reflexivity). clear - NK.
        induction d as [|[m w] d IH]; [reflexivity|]. cbn [dset app].
        assert (NE : eqb n m = false) by (apply eqb_false; intros ->; apply NK; left; reflexivity).
        rewrite NE, IH; [reflexivity|]. intros I. apply NK. right. exact I. }
      fold (put_all (dset d n v) vs). rewrite IH; [rewrite E, <- app_assoc; reflexivity|exact ND'|].
      intros m I K. rewrite E in K. unfold keys in K. rewrite map_app in K. apply in_app_iff in K. destruct K as [K|[K|[]]].
      + exact (F m (or_intror I) K).
      + cbn in K. subst m. exact (NI I).
  Qed.
  Lemma put_all_get vs : forall d n v, NoDup (map fst vs) -> In (n, v) vs -> dget (put_all d vs) n = Some v.
  Proof.
    induction vs as [|[m w] vs IH]; intros d n v ND I; [destruct I|].
    cbn in ND. inversion ND as [|? ? NI ND']; subst.
    cbn [put_all fold_left fst snd]. fold (put_all (dset d m w) vs). destruct I as [I|I].
    - injection I as -> ->.
      assert (O : forall d', dget (put_all d' vs) n = dget d' n).
      { clear - NI. induction vs as [|[x y] vs IH]; intros d'; [reflexivity|].
        cbn [put_all fold_left fst snd]. fold (put_all (dset d' x y) vs). cbn in NI.
        rewrite IH by tauto. apply dget_dset_other. intros ->. apply NI. left. reflexivity. }
      rewrite O. apply dget_dset_same.
    - apply IH; assumption.
  Qed.
  Lemma values_get (d : dict str entry) n v :
    (forall m e, In (m, e) d -> exists w, e = EVal w) ->
    dget (flat_map (fun p => match snd p with EVal v => [(fst p, v)] | _ => [] end) d) n = Some v ->
    dget d n = Some (EVal v).
  Proof.
    induction d as [|[m e] d IH]; intros T D; [discriminate|].
    destruct (T m e (or_introl eq_refl)) as (w & ->). cbn [flat_map snd fst app dget] in D |- *.
    destruct (eqb n m); [congruence|].
    apply IH; [|exact D]. intros m' e' I. apply (T m' e'). right. exact I.
  Qed.
  Lemma defined_value s n v : typed_values s -> dget (values s) n = Some v -> defined s Values n = Some (EVal v).
  Proof. intros T D. apply values_get; assumption. Qed.

  Lemma process_enum_named s n l :
    typed_values s -> NoDup (map fst l) -> defined s Enums n = None ->
    match process_enum ev s (Some n) l with
    | (s', Some r) =>
        r = tag_name $"enum" n
        /\ exists vs, counts ev (values s) (ONum (VInt 0)) l vs
           /\ defined s' Enums n = Some (EEnum vs)
           /\ defined s' Types (tag_name $"enum" n) = Some (EType (CT (SName $"enum") [DStr n] [Some []; Some []]))
           /\ forall m v, In (m, v) vs -> defined s' Values m = Some (EVal v)
    | (s', None) => (forall vs, ~ counts ev (values s) (ONum (VInt 0)) l vs)
                    /\ forall k m, k <> Values -> defined s' k m = defined s k m
    end.
  Proof.
    intros T ND D. unfold process_enum.
    assert (DM : dmem (defs s Enums) n = false) by (unfold dmem; unfold defined in D; rewrite D; reflexivity).
    rewrite DM. pose proof (enum_loop_counts ev l s (ONum (VInt 0)) [] T) as Q.
    destruct Q as [Q|[e Q]]; [|discriminate].
    pose proof (enum_loop_kinds ev l s (ONum (VInt 0)) []) as K.
    destruct (enum_loop ev s (ONum (VInt 0)) [] l) as [[s1 en] [e|]]; cbn [fst] in K.
    - destruct Q as (_ & Q & _). split; [exact Q|]. intros k m N. apply K. exact N.
    - destruct Q as (vs & C & -> & V & TV). split; [reflexivity|]. exists vs. split; [exact C|].
      pose proof (counts_names _ _ _ _ C) as CN.
      assert (NDV : NoDup (map fst vs)) by (rewrite CN; exact ND).
      split.
      { rewrite defined_other by (left; discriminate). rewrite defined_same.
        rewrite put_all_fresh by (try exact NDV; intros ? ? []). reflexivity. }
      split; [apply defined_same|].
      intros m v I. rewrite !defined_other by (left; discriminate). apply defined_value; [exact TV|].
      rewrite V. apply put_all_get; assumption.
  Qed.

  (** The anonymous enum is recorded as the enum of its fresh name. *)
  Lemma process_enum_anon s l : exists n, defined s Enums n = None
    /\ process_enum ev s None l = process_enum ev s (Some n) l.
  Proof.
    destruct (fresh_ok $"anon_enum" (defs s Enums)) as (x & F & D). exists x. split.
    - unfold defined. unfold dmem in D. destruct (dget (defs s Enums) x); [discriminate|reflexivity].
    - unfold process_enum. rewrite F. reflexivity.
  Qed.

  (** A second definition of the same enum changes nothing. *)
  Lemma process_enum_again s n l v : defined s Enums n = Some v ->
    process_enum ev s (Some n) l = (s, Some (tag_name $"enum" n)).
  Proof.
    intros D. unfold process_enum. unfold defined in D. unfold dmem. rewrite D. reflexivity.
  Qed.

  (** Every declaration keeps the table of values well-formed. *)
  Lemma declare_typed b v l : forall s, typed_values s -> typed_values (declare ev s b v l).
  Proof.
    induction l as [|d l IH]; intros s T; [exact T|].
    cbn [declare]. destruct (process_type (eval_text ev s) b d) as [[[m|] t]|e]; try exact T.
    apply IH. destruct (ends_in_tuple t).
    - apply typed_add_other; [discriminate|exact T].
    - apply typed_add. apply typed_add_other; [discriminate|exact T].
  Qed.
  Lemma enum_loop_typed l : forall s i d, typed_values s -> typed_values (fst (fst (enum_loop ev s i d l))).
  Proof.
    induction l as [|[x v] l IH]; intros s i d T; [exact T|].
    cbn [enum_loop]. set (i1 := match v with Some e => eval_text ev s e | None => i end).
    destruct (plus_one i1) as [i2|e]; cbn [fst]; [apply IH|]; apply typed_add; exact T.
  Qed.
  Lemma typedef_typed b l : forall s, typed_values s -> typed_values (fst (process_typedef ev s b l)).
  Proof.
    induction l as [|d l IH]; intros s T; [exact T|].
    cbn [process_typedef]. destruct (process_type (eval_text ev s) b d) as [[[m|] t]|e]; try exact T.
    apply IH. apply typed_add_other; [discriminate|exact T].
  Qed.
  Lemma act_typed s a : typed_values s -> typed_values (fst (act ev s a)).
  Proof.
    intros T. destruct a as [name l|c name l p|b l i|b d|b l]; cbn [act fst].
    - unfold process_enum.
      destruct (match name with Some x => Ok x | None => fresh $"anon_enum" (defs s Enums) end) as [x|e];
        [|exact T].
      destruct (dmem (defs s Enums) x); [exact T|].
      pose proof (enum_loop_typed l s (ONum (VInt 0)) [] T) as Q.
      destruct (enum_loop ev s (ONum (VInt 0)) [] l) as [[s1 en] [e|]]; cbn [fst] in *; [exact Q|].
      apply typed_add_other; [discriminate|]. apply typed_add_other; [discriminate|exact Q].
    - destruct (process_struct_cases ev s c name l p) as [(m & ms & NM & A & E & L)|[(m & -> & -> & X & E)|(e & A & E)]];
        rewrite E; cbn [fst]; try exact T.
      apply typed_add_other; [discriminate|]. apply typed_add_other; [destruct c; discriminate|exact T].
    - apply declare_typed. exact T.
    - unfold process_function. destruct (process_type (eval_text ev s) b d) as [[[m|] t]|e]; try exact T.
      destruct (ends_in_tuple t); [apply typed_add_other; [discriminate|exact T]|exact T].
    - apply typedef_typed. exact T.
  Qed.
  Lemma acts_typed l : forall s, typed_values s -> typed_values (fst (acts ev s l)).
  Proof.
    induction l as [|a l IH]; intros s T; [exact T|].
    cbn [acts]. pose proof (act_typed s a T) as T1.
    destruct (act ev s a) as [s1 [e|]]; cbn [fst] in *; [exact T1|apply IH; exact T1].
  Qed.

  (** ** Variables and functions *)
  Lemma process_type_ok dim b d : every no_bare_conv d = true ->
    exists t, process_type dim b d = Ok (c_name d, t).
  Proof.
    intros E. apply (process_type_iff dim b d) in E. destruct E as (n & t & E & _).
    exists t. rewrite (process_name _ _ _ _ _ E). exact E.
  Qed.

  Definition kept (s s' : store entry) (k : kind) (n : str) : Prop := defined s' k n = defined s k n.

  Lemma declare_names b v l : forall s k n,
    ~ In (Some n) (names_of l) -> defined (declare ev s b v l) k n = defined s k n.
  Proof.
    induction l as [|d l IH]; intros s k n N; [reflexivity|].
    cbn [names_of map In] in N.
    cbn [declare]. destruct (process_type (eval_text ev s) b d) as [[[m|] t]|e] eqn:P; try reflexivity.
    pose proof (process_name _ _ _ _ _ P) as NM. rewrite IH by tauto.
    assert (NE : n <> m) by (intros ->; apply N; left; exact NM).
    destruct (ends_in_tuple t); rewrite !defined_other by (right; exact NE); reflexivity.
  Qed.

  Lemma declare_spec b v : forall l s,
    Forall (fun d => every no_bare_conv d = true /\ c_name d <> None) l -> NoDup (names_of l) ->
    forall l1 d l2 n, l = l1 ++ d :: l2 -> c_name d = Some n ->
    exists t, process_type (eval_text ev (declare ev s b v l1)) b d = Ok (Some n, t)
      /\ let s' := declare ev s b v l in
         if ends_in_tuple t
         then defined s' Functions n = Some (EFun (add_hack t)) /\ kept s s' Variables n /\ kept s s' Values n
         else defined s' Variables n = Some (EVar v t) /\ defined s' Values n = Some (EVal v) /\ kept s s' Functions n.
  Proof.
    induction l as [|x l IH]; intros s F ND l1 d l2 n E N; [destruct l1; discriminate|].
    inversion F as [|? ? (BX & NX) FL]; subst. cbn [names_of map] in ND. inversion ND as [|? ? NI ND']; subst.
    destruct l1 as [|y l1]; cbn [app] in E; injection E as -> E.
    - subst l2. destruct (process_type_ok (eval_text ev s) b d BX) as (t & P). rewrite N in P.
      exists t. split; [exact P|]. cbn [declare]. rewrite P. rewrite N in NI.
      unfold kept. destruct (ends_in_tuple t); rewrite !declare_names by exact NI.
      + split; [apply defined_same|]. split; apply defined_other; left; discriminate.
      + split; [rewrite defined_other by (left; discriminate); apply defined_same|].
        split; [apply defined_same|]. rewrite !defined_other by (left; discriminate). reflexivity.
    - destruct (process_type_ok (eval_text ev s) b y BX) as (ty & P).
      destruct (c_name y) as [m|] eqn:CY; [|congruence].
      set (s1 := if ends_in_tuple ty then add_def s Functions m (EFun (add_hack ty))
                 else add_def (add_def s Variables m (EVar v ty)) Values m (EVal v)).
      assert (NM : n <> m).
      { intros ->. apply NI. unfold names_of. subst l. rewrite map_app. apply in_app_iff. right. left. exact N. }
      destruct (IH s1 FL ND' l1 d l2 n E N) as (t & PT & Q).
      exists t. cbn [declare]. rewrite P. fold s1. split; [exact PT|].
      assert (K : forall k, defined s1 k n = defined s k n).
      { intros k. unfold s1. destruct (ends_in_tuple ty); rewrite !defined_other by (right; exact NM); reflexivity. }
      unfold kept in *. cbn zeta in *. rewrite !K in Q. exact Q.
  Qed.
End Enums.

(** ** Function types *)
Lemma is_function_qualify q t : is_function (qualify q t) = is_function t.
Proof. induction t; try reflexivity. exact IHt. Qed.
Definition ends_fun (ds : list adecl) (dflt : bool) : bool :=
  match rev ds with [] => dflt | DFun _ :: _ => true | _ => false end.
Lemma ends_fun_app a b x : ends_fun (a ++ b) x = ends_fun b (ends_fun a x).
Proof.
  unfold ends_fun. rewrite rev_app_distr. destruct (rev b) as [|[ | | ] r]; reflexivity.
Qed.
Lemma fold_ptr_function ps : forall t, is_function (fold_left (fun u q => TPtr q u) ps t)
  = match ps with [] => is_function t | _ => false end.
Proof.
  induction ps as [|p ps IH]; intros t; [reflexivity|]. cbn [fold_left]. rewrite IH. destruct ps; reflexivity.
Qed.
Lemma fold_arr_function (dim : str -> pobj) arrs t :
  is_function (fold_right (fun x u => TArr [] (dim x) u) t arrs)
  = match arrs with [] => is_function t | _ => false end.
Proof. destruct arrs; reflexivity. Qed.
Lemma ends_fun_repeat (k : adecl) n x : match k with DFun _ => False | _ => True end ->
  ends_fun (repeat k n) x = match n with O => x | _ => false end.
Proof.
  intros K. destruct n as [|n]; [reflexivity|].
  replace (repeat k (S n)) with (repeat k n ++ [k]); [|symmetry; apply (repeat_cons n k)].
  rewrite ends_fun_app. destruct k; [reflexivity|reflexivity|destruct K].
Qed.
Lemma ends_fun_arrs (dim : str -> pobj) arrs x :
  ends_fun (map (fun a => DArr [dim a]) arrs) x = match arrs with [] => x | _ => false end.
Proof.
  destruct arrs as [|a arrs] using rev_ind; [reflexivity|].
  rewrite map_app, ends_fun_app. cbn. destruct arrs; reflexivity.
Qed.

Lemma function_type dim d : no_conv_name d = true -> forall n ds qs t0,
  process_declarator dim d = Ok (n, ds, qs) ->
  (conv_and_name d = true -> is_function t0 = false) ->
  is_function (c_type dim d t0) = ends_fun ds (is_function t0).
Proof.
  induction d as [fq cv ps core args arrs IHc IHa] using dtree_nested. intros NC n ds qs t0 P CN.
  rewrite process_node in P.
  destruct (args_part dim args) as [ta|] eqn:AP; [|discriminate]. cbn [bind] in P.
  cbn [c_type].
  set (t1 := match cv with Some c => TConv c (qualify fq t0) | None => qualify fq t0 end).
  set (t3 := fold_right (fun x u => TArr [] (dim x) u) (fold_left (fun u q => TPtr q u) ps t1) arrs).
  match goal with |- context [match args with None => t3 | Some l => @?g l end] =>
    set (t4 := match args with None => t3 | Some l => g l end) end.
  assert (F1 : is_function t1 = is_function t0).
  { unfold t1. destruct cv; cbn [is_function]; apply is_function_qualify. }
  assert (F4 : is_function t4 = match args with None => is_function t3 | Some _ => true end)
    by (unfold t4; destruct args; reflexivity).
  assert (F3 : is_function t3 = match arrs, ps with [], [] => is_function t0 | _, _ => false end).
  { unfold t3. rewrite fold_arr_function, fold_ptr_function, F1. destruct arrs, ps; reflexivity. }
  clearbody t4. rewrite F3 in F4. clear F3 F1. clearbody t3 t1.
  assert (H : ends_fun (head_toks dim cv ps arrs ++ fst ta) (is_function t0) =
    match args with
    | Some _ => true
    | None => match arrs, ps, cv with
              | [], [], None => is_function t0
              | _, _, _ => false
              end
    end).
  { rewrite ends_fun_app. unfold args_part in AP. destruct args as [l|].
    - destruct (process_args dim l); [|discriminate]. injection AP as <-. reflexivity.
    - injection AP as <-. cbn [fst]. unfold head_toks. cbn [ends_fun rev].
      change (ends_fun [] ?x) with x. rewrite !ends_fun_app, ends_fun_arrs, ends_fun_repeat by exact Logic.I.
      destruct arrs, ps, cv; reflexivity. }
  destruct core as [ref x|ref|c].
  1,2: injection P as <- <- <-; rewrite ends_fun_app, H; destruct ref; cbn [is_function]; [reflexivity|];
    change (ends_fun [] ?x) with x; rewrite F4; destruct args; [reflexivity|]; destruct arrs, ps, cv; try reflexivity;
    apply CN; reflexivity.
  cbn [no_conv_name] in NC. apply andb_true_iff in NC. destruct NC as [NC1 NC2].
  apply negb_true_iff in NC1.
  destruct (process_declarator dim c) as [[[m' ds'] qs']|] eqn:Pc; [|discriminate].
  cbn [bind] in P.
  destruct (join_quals ((Some fq :: head_quals cv ps arrs) ++ snd ta) qs') as [q|] eqn:J; [|discriminate].
  cbn [bind] in P. injection P as <- <- _.
  rewrite (IHc c eq_refl NC2 _ _ _ t4 Pc) by congruence. rewrite ends_fun_app, H, F4.
  destruct args as [l|]; [reflexivity|]. destruct arrs, ps, cv as [cv|]; try reflexivity.
  exfalso. injection AP as <-. cbn [head_quals app map repeat snd length] in J.
  destruct qs' as [|y qs']; [discriminate J|]. unfold join_quals in J.
  pose proof (merge_none [Some fq] y qs') as M. cbn [app] in M. unfold head_quals in J. cbn in M, J. congruence.
Qed.

Lemma ends_in_tuple_function dim dim' b d n t :
  process_type dim b d = Ok (n, t) -> no_conv_name d = true ->
  ends_in_tuple t = is_function (c_type dim' d (base_type b)).
Proof.
  intros P NC.
  assert (IND : forall d t0, is_function (c_type dim d t0) = is_function (c_type dim' d t0)).
  { clear. induction d as [fq cv ps core args arrs IHc IHa] using dtree_nested.
    assert (G : forall c u u', is_function u = is_function u' ->
                 is_function (c_type dim' c u) = is_function (c_type dim' c u')).
    { clear. induction c as [fq cv ps core args arrs IHc IHa] using dtree_nested. intros u u' E.
      cbn [c_type].
      assert (E3 : is_function (fold_right (fun x u => TArr [] (dim' x) u)
          (fold_left (fun u q => TPtr q u) ps (match cv with Some c => TConv c (qualify fq u) | None => qualify fq u end)) arrs)
        = is_function (fold_right (fun x u => TArr [] (dim' x) u)
          (fold_left (fun u q => TPtr q u) ps (match cv with Some c => TConv c (qualify fq u') | None => qualify fq u' end)) arrs)).
      { rewrite !fold_arr_function, !fold_ptr_function. destruct arrs, ps, cv; cbn [is_function]; rewrite ?is_function_qualify; auto. }
      destruct core as [ref x|ref|c].
      1,2: destruct ref; [reflexivity|]; destruct args; [reflexivity|exact E3].
      apply (IHc c eq_refl). destruct args; [reflexivity|exact E3]. }
    intros t0. cbn [c_type].
    assert (E3 : is_function (fold_right (fun x u => TArr [] (dim x) u)
          (fold_left (fun u q => TPtr q u) ps (match cv with Some c => TConv c (qualify fq t0) | None => qualify fq t0 end)) arrs)
        = is_function (fold_right (fun x u => TArr [] (dim' x) u)
          (fold_left (fun u q => TPtr q u) ps (match cv with Some c => TConv c (qualify fq t0) | None => qualify fq t0 end)) arrs)).
    { rewrite !fold_arr_function. reflexivity. }
    destruct core as [ref x|ref|c].
    1,2: destruct ref; [reflexivity|]; destruct args; [reflexivity|exact E3].
    rewrite (IHc c eq_refl). apply G. destruct args; [reflexivity|exact E3]. }
  rewrite <- IND. unfold process_type in P.
  destruct (process_declarator dim d) as [[[m ds] qs]|] eqn:PD; [|discriminate].
  rewrite (function_type dim d NC _ _ _ _ PD) by reflexivity.
  cbn [bind finish] in P. destruct qs as [|[q|] qs]; try discriminate.
  unfold mk_type in P. destruct (_ =? _); [|discriminate]. cbn [bind] in P. injection P as _ <-.
  reflexivity.
Qed.

Lemma c_function_qualify s q t : c_function s (qualify q t) -> c_function s t.
Proof.
  induction t as [p m|p t _|p t _|p n t _|p a t _|c t IH]; cbn [qualify]; intros F; inversion F; subst.
  - econstructor; eassumption.
  - constructor.
  - constructor. apply IH. assumption.
Qed.
Lemma c_function_is s t : is_function t = true -> c_function s t.
Proof. induction t; try discriminate; intros F; constructor. apply IHt. exact F. Qed.
Lemma c_function_type s dim d : forall t,
  (c_function s t -> is_function t = true) ->
  c_function s (c_type dim d t) -> is_function (c_type dim d t) = true.
Proof.
  induction d as [fq cv ps core args arrs IHc IHa] using dtree_nested. intros t B. cbn [c_type].
  set (t1 := match cv with Some c => TConv c (qualify fq t) | None => qualify fq t end).
  set (t3 := fold_right (fun x u => TArr [] (dim x) u) (fold_left (fun u q => TPtr q u) ps t1) arrs).
  match goal with |- context [match args with None => t3 | Some l => @?g l end] =>
    set (t4 := match args with None => t3 | Some l => g l end) end.
  assert (F1 : c_function s t1 -> is_function t1 = true).
  { unfold t1. destruct cv; cbn [is_function]; rewrite is_function_qualify; intros F; apply B;
      [inversion F; subst|]; eapply c_function_qualify; eassumption. }
  assert (F3 : c_function s t3 -> is_function t3 = true).
  { unfold t3. destruct arrs; [|intros F; inversion F]. cbn [fold_right].
    destruct ps as [|p ps] using rev_ind; [exact F1|]. rewrite fold_left_app. cbn [fold_left]. intros F; inversion F. }
  assert (F4 : c_function s t4 -> is_function t4 = true).
  { unfold t4. destruct args; [reflexivity|exact F3]. }
  destruct core as [ref x|ref|c].
  1,2: destruct ref; [intros F; inversion F|exact F4].
  exact (IHc c eq_refl t4 F4).
Qed.

(** ** Recording a declaration *)
Section Record.
  Context (ev : dict str pobj -> str -> res pobj).

  Lemma function_decides s dim dim' b d n t :
    process_type dim b d = Ok (n, t) -> no_conv_name d = true -> ~ c_function s (base_type b) ->
    (c_function s (c_type dim' d (base_type b)) <-> ends_in_tuple t = true).
  Proof.
    intros P NC NB. rewrite (ends_in_tuple_function dim dim' b d n t P NC). split.
    - apply c_function_type. intros F. contradiction.
    - apply c_function_is.
  Qed.

  Lemma variables_recorded s b l i :
    Forall (fun d => every no_bare_conv d = true /\ no_conv_name d = true /\ c_name d <> None) l ->
    NoDup (names_of l) -> ~ c_function s (base_type b) ->
    forall d n dim, In d l -> c_name d = Some n ->
    let s' := process_variable ev s b l i in
    (c_function s (c_type dim d (base_type b)) ->
       (exists t, defined s' Functions n = Some (EFun t)) /\ defined s' Variables n = defined s Variables n)
    /\ (~ c_function s (c_type dim d (base_type b)) ->
       (exists v t, defined s' Variables n = Some (EVar v t)) /\ defined s' Functions n = defined s Functions n).
  Proof.
    intros F ND NB d n dim I N. apply in_split in I. destruct I as (l1 & l2 & ->).
    assert (F' : Forall (fun d => every no_bare_conv d = true /\ c_name d <> None) (l1 ++ d :: l2)).
    { eapply Forall_impl; [|exact F]. cbn. tauto. }
    destruct (declare_spec ev b (eval_init ev s i) _ s F' ND l1 d l2 n eq_refl N) as (t & P & Q).
    assert (NC : no_conv_name d = true).
    { apply Forall_app in F. destruct F as [_ F]. inversion F; tauto. }
    cbn zeta. unfold process_variable. cbn zeta in Q.
    pose proof (function_decides s _ dim b d _ _ P NC NB) as D. unfold kept in Q.
    destruct (ends_in_tuple t).
    - split; [intros _|intros X; exfalso; apply X; apply D; reflexivity].
      destruct Q as (A & B & _). split; [eexists; exact A|exact B].
    - split; [intros X; apply D in X; discriminate|intros _].
      destruct Q as (A & _ & B). split; [do 2 eexists; exact A|exact B].
  Qed.

  Lemma function_recorded s b d n dim :
    every no_bare_conv d = true -> no_conv_name d = true -> c_name d = Some n ->
    ~ c_function s (base_type b) ->
    (c_function s (c_type dim d (base_type b)) ->
       exists t, defined (process_function ev s b d) Functions n = Some (EFun t))
    /\ (~ c_function s (c_type dim d (base_type b)) -> process_function ev s b d = s).
  Proof.
    intros E NC N NB. destruct (process_type_ok (eval_text ev s) b d E) as (t & P). rewrite N in P.
    pose proof (function_decides s _ dim b d _ _ P NC NB) as D.
    unfold process_function. rewrite P. destruct (ends_in_tuple t).
    - split; [intros _; eexists; apply defined_same|intros X; exfalso; apply X; apply D; reflexivity].
    - split; [intros X; apply D in X; discriminate|reflexivity].
  Qed.

  Lemma initial_init s i v : initial_value (ev (values s)) i v <-> v = eval_init ev s i.
  Proof.
    set (f := ev (values s)).
    assert (A : forall ts vs, Forall2 (fun t v => f t = Ok v) ts vs -> mapM f ts = Ok vs).
    { intros ts vs F. induction F as [|t w ts vs E F IH]; [reflexivity|]. cbn [mapM]. rewrite E. cbn. rewrite IH. reflexivity. }
    assert (B : forall ts t e, In t ts -> f t = Err e -> exists e', mapM f ts = Err e').
    { intros ts t e. induction ts as [|x ts IH]; [intros []|]. intros [-> |I] E; cbn [mapM].
      - rewrite E. exists e. reflexivity.
      - destruct (f x) as [y|e1]; [|exists e1; reflexivity]. destruct (IH I E) as (e' & ->). exists e'. reflexivity. }
    assert (C : forall ts, match mapM f ts with Ok vs => Forall2 (fun t v => f t = Ok v) ts vs
                           | Err _ => exists t e, In t ts /\ f t = Err e end).
    { induction ts as [|x ts IH]; [constructor|]. cbn [mapM]. destruct (f x) as [y|e1] eqn:E.
      - cbn. destruct (mapM f ts) as [vs|e']; cbn; [constructor; assumption|].
        destruct IH as (t & e & I & E'). exists t, e. split; [right; exact I|exact E'].
      - cbn. exists x, e1. split; [left; reflexivity|exact E]. }
    split.
    - intros H. destruct H as [|t w E|t e E|ts vs F|ts t e I E]; unfold eval_init, eval_text; fold f.
      + reflexivity.
      + rewrite E. reflexivity.
      + rewrite E. reflexivity.
      + rewrite (A ts vs F). reflexivity.
      + destruct (B ts t e I E) as (e' & ->). reflexivity.
    - intros ->. destruct i as [|t|ts]; unfold eval_init, eval_text; fold f.
      + constructor.
      + destruct (f t) as [w|e] eqn:E; [constructor; exact E|exact (iv_failed f t e E)].
      + specialize (C ts). destruct (mapM f ts) as [vs|e]; [constructor; exact C|].
        destruct C as (t & e' & I & E). exact (iv_failed_one f ts t e' I E).
  Qed.

  (** The value and the type of a variable. *)
  Lemma variable_value s b i l1 d l2 n :
    let l := l1 ++ d :: l2 in
    Forall (fun d => every no_bare_conv d = true /\ c_name d <> None) l -> NoDup (names_of l) ->
    c_name d = Some n -> every c_syntax d = true -> no_conv_name d = true ->
    l2 = [] \/ i = NoInit ->
    let dim := eval_text ev (process_variable ev s b l1 i) in
    is_function (c_type dim d (base_type b)) = false ->
    let s' := process_variable ev s b l i in
    (exists t, defined s' Variables n = Some (EVar (eval_init ev s (own_init l2 i)) t)
       /\ read_type t = Some (c_type dim d (base_type b)))
    /\ defined s' Values n = Some (EVal (eval_init ev s (own_init l2 i))).
  Proof.
    intros l F ND N CS NC O dim NF s'.
    destruct (declare_spec ev b (eval_init ev s i) l s F ND l1 d l2 n eq_refl N) as (t & P & Q).
    cbn zeta in Q. fold (process_variable ev s b l1 i) in P. fold dim in P.
    rewrite (ends_in_tuple_function dim dim b d _ _ P NC), NF in Q. destruct Q as (A & B & _).
    assert (EI : eval_init ev s (own_init l2 i) = eval_init ev s i).
    { destruct O as [->| ->]; [reflexivity|destruct l2; reflexivity]. }
    rewrite EI. split; [|exact B]. exists t. split; [exact A|].
    destruct (reads_type dim b d (process_reads dim d CS)) as (t' & P' & R). rewrite P in P'.
    injection P' as _ <-. exact R.
  Qed.

  Lemma variable_initial s b i l1 d l2 n :
    let l := l1 ++ d :: l2 in
    Forall (fun d => every no_bare_conv d = true /\ c_name d <> None) l -> NoDup (names_of l) ->
    c_name d = Some n -> every c_syntax d = true -> no_conv_name d = true ->
    l2 = [] \/ i = NoInit ->
    let dim := eval_text ev (process_variable ev s b l1 i) in
    is_function (c_type dim d (base_type b)) = false ->
    let s' := process_variable ev s b l i in
    exists v t, initial_value (ev (values s)) (own_init l2 i) v
      /\ defined s' Variables n = Some (EVar v t) /\ read_type t = Some (c_type dim d (base_type b))
      /\ defined s' Values n = Some (EVal v).
  Proof.
    intros l F ND N CS NC O dim NF s'.
    destruct (variable_value s b i l1 d l2 n F ND N CS NC O NF) as ((t & A & B) & C).
    exists (eval_init ev s (own_init l2 i)), t. split; [apply initial_init; reflexivity|].
    split; [exact A|]. split; [exact B|exact C].
  Qed.

  (** ** Members *)
  Lemma bit_digits b : match b with Some t => t <> [] /\ forallb is_digit t = true | None => True end ->
    exists w, bit_of b = Ok w /\ width_of b w.
  Proof.
    destruct b as [t|]; intros H; [|exists None; split; [reflexivity|exact Logic.I]].
    destruct H as [NE F]. exists (Some (zval t)). split; [|cbn; auto].
    unfold bit_of, py_int. destruct t as [|c t]; [congruence|].
    assert (C : is_digit c = true) by (cbn in F; apply andb_true_iff in F; tauto).
    assert (S1 : cheq c "-" = false) by (destruct c as [[|] [|] [|] [|] [|] [|] [|] [|]]; try reflexivity; discriminate C).
    assert (S2 : cheq c "+" = false) by (destruct c as [[|] [|] [|] [|] [|] [|] [|] [|]]; try reflexivity; discriminate C).
    rewrite S1, S2, F. reflexivity.
  Qed.
  Lemma members_recorded dim b v bit w : bit_of bit = Ok w -> width_of bit w -> forall l,
    forallb (every c_syntax) l = true ->
    exists ms, members_of dim b v bit l = Ok ms
      /\ Forall2 (fun m x => recorded (fst x) m (snd x)) ms
           (map (pair bit) (map (fun d => (c_name d, c_type dim d (base_type b))) l)).
  Proof.
    intros B W. induction l as [|d l IH]; intros F.
    - exists []. split; [reflexivity|constructor].
    - cbn [forallb] in F. apply andb_true_iff in F. destruct F as [F1 F2].
      destruct (IH F2) as (ms & M & R).
      destruct (reads_type dim b d (process_reads dim d F1)) as (t & P & RT).
      eexists. cbn [members_of]. rewrite P, B, M. cbn [bind fst snd]. split; [reflexivity|].
      cbn [map]. constructor; [|exact R]. unfold recorded. cbn [fst snd m_name m_type m_bit]. auto.
  Qed.
  Lemma lines_recorded s l : Forall plain_line l ->
    exists ms, all_members ev s l = Ok ms
      /\ Forall2 (fun m x => recorded (fst x) m (snd x)) ms (declared_all (eval_text ev s) l).
  Proof.
    induction 1 as [|x l (F & B & A) _ (ms & M & R)].
    - exists []. split; [reflexivity|constructor].
    - destruct (bit_digits _ B) as (w & BW & W). cbn [all_members declared_all flat_map].
      unfold line_members, declared.
      destruct (l_decls x) as [|d ds] eqn:D.
      + rewrite BW, (A eq_refl), M. cbn [bind hd]. unfold mk_type. cbn [length Nat.eqb bind].
        eexists. split; [reflexivity|]. cbn [map app]. constructor; [|exact R].
        unfold recorded. cbn [fst snd m_name m_type m_bit]. split; [reflexivity|]. split; [|exact W].
        unfold base_type. rewrite (A eq_refl). reflexivity.
      + destruct (members_recorded (eval_text ev s) (l_type x)
           (match l_init x with IVal e => eval_text ev s e | _ => ONone end) (l_bit x) w BW W (d :: ds) F) as (m1 & M1 & R1).
        rewrite M1, M. cbn [bind]. eexists. split; [reflexivity|]. apply Forall2_app; assumption.
  Qed.
  Lemma comp_members s c n x l p :
    Forall plain_line (x :: l) ->
    let s' := fst (process_struct ev s c (Some n) (x :: l) p) in
    exists ms, defined s' (comp_kind c) n = Some (EComp ms p)
      /\ Forall2 (fun m y => recorded (fst y) m (snd y)) ms (declared_all (eval_text ev s) (x :: l)).
  Proof.
    intros F s'. destruct (lines_recorded s _ F) as (ms & M & R). exists ms. split; [|exact R].
    unfold s', process_struct. cbn [orb]. rewrite M. cbn [fst].
    rewrite defined_other by (left; destruct c; discriminate). apply defined_same.
  Qed.
End Record.

Lemma enum_complete ev s n l :
  typed_values s -> NoDup (map fst l) -> defined s Enums n = None ->
  let (s', r) := process_enum ev s (Some n) l in
  (r <> None <-> exists vs, counts ev (values s) (ONum (VInt 0)) l vs)
  /\ (r <> None -> exists vs, defined s' Enums n = Some (EEnum vs) /\ map fst vs = map fst l
        /\ forall m v, In (m, v) vs -> defined s' Values m = Some (EVal v))
  /\ (r = None -> forall k m, k <> Values -> defined s' k m = defined s k m).
Proof.
  intros T ND D. pose proof (process_enum_named ev s n l T ND D) as P.
  destruct (process_enum ev s (Some n) l) as [s' [r|]].
  - destruct P as (_ & vs & C & E & _ & V). split; [split; [intros _; exists vs; exact C|discriminate]|].
    split; [|discriminate]. intros _. exists vs. split; [exact E|]. split; [|exact V].
    exact (counts_names _ _ _ _ _ C).
  - destruct P as [N K]. split; [split; [congruence|intros (vs & C); exfalso; exact (N vs C)]|].
    split; [congruence|]. intros _. exact K.
Qed.

Section Anon.
  Context (ev : dict str pobj -> str -> res pobj).
  Lemma anon_comp_history s0 hist c l p s' r :
    tags_ok s0 -> (forall a, In a hist -> plain_names a) ->
    process_struct ev (fst (acts ev s0 hist)) c None l p = (s', Some r) ->
    let s := fst (acts ev s0 hist) in
    exists n, r = tag_name (comp_kw c) n /\ defined s (comp_kind c) n = None
      /\ defined s Types (tag_name (comp_kw c) n) = None
      /\ (exists ms, defined s' (comp_kind c) n = Some (EComp ms p))
      /\ forall k m v, defined s k m = Some v -> defined s' k m = Some v.
  Proof. intros T N E s. apply (anon_comp ev s c l p s' r); [apply acts_tags; assumption|exact E]. Qed.
  Lemma anon_enum_history s0 hist l s' r :
    tags_ok s0 -> (forall a, In a hist -> plain_names a) ->
    process_enum ev (fst (acts ev s0 hist)) None l = (s', Some r) ->
    let s := fst (acts ev s0 hist) in
    exists n, r = tag_name $"enum" n /\ defined s Enums n = None
      /\ defined s Types (tag_name $"enum" n) = None
      /\ (exists en, defined s' Enums n = Some (EEnum en))
      /\ forall k m v, (k = Values -> ~ In m (map fst l)) -> defined s k m = Some v -> defined s' k m = Some v.
  Proof. intros T N E s. apply (anon_enum ev s l s' r); [apply acts_tags; assumption|exact E]. Qed.
End Anon.
