(** Proofs for C97. *)
From Coq Require Import Ascii String Bool Arith ZArith Lia List.
Import ListNotations.
From Verif Require Import PyBase PyBaseFacts PyStr PyStrFacts PyExpr TypeModel InitModel StoreModel StoreSpec DeclModel DeclSpec CtModel LinkModel LinkSpec LinkProofs LinkRead LinkRun LinkMain LinkCall.
From Verif Require Import AutoSpec AutoProofs ObjModel InvokeModel InvokeSpec ObjSpec ObjProofs InvokeProofs HelpModel HelpSpec.
From Verif Require TypeSpec TypeProofs CtSpec CtFields RunSpec LibModel FunModel FunProofs.

(** ** Arrays *)
Lemma gives_const {A} (x : A) : gives (fun _ => x) x.
Proof. exists 0. reflexivity. Qed.
Lemma gives_map {A B} (g : A -> B) (m : nat -> A) x : gives m x -> gives (fun f => g (m f)) (g x).
Proof. intros (F & E). exists F. intros f Lf. rewrite E by exact Lf. reflexivity. Qed.
Lemma gives_one {A} (m : nat -> A) x y : gives m x -> gives m y -> x = y.
Proof. intros (F & E) (F' & E'). rewrite <- (E (Nat.max F F')) by lia. apply E'. lia. Qed.
Lemma times_neg ds : forall c, c <> PVoid -> Exists (fun n => n < 0)%Z ds -> times_all c (map (fun n => ONum (VInt n)) ds) = Err ValueError.
Proof.
  induction ds as [|n ds IH]; intros c NV E; [inversion E|]. cbn [map times_all].
  assert (T : times c (ONum (VInt n)) = if (n <? 0)%Z then Err ValueError else Ok (PArr c n)) by (destruct c; try reflexivity; congruence).
  rewrite T. destruct (Z.ltb_spec n 0) as [L|L]; [reflexivity|]. cbn [bind]. apply IH; [discriminate|]. inversion E; [lia|assumption].
Qed.
Lemma times_void l : match times_all PVoid l with Ok a => make_new (fun _ _ => None) a [] = Err TypeError | Err x => x = TypeError end.
Proof. destruct l as [|d l]; reflexivity. Qed.
Section Values.
  Context (sets : pyt -> nat -> option exc) (c : pyt) (n : Z).
  Lemma set_fit vals : forall i, (i + Z.of_nat (length vals) <= n)%Z -> Forall (fun v => sets c v = None) vals -> set_elements sets c n i vals = Ok tt.
  Proof.
    induction vals as [|v vals IH]; intros i L F; [reflexivity|]. cbn [length] in L. inversion F as [|? ? V F']; subst. cbn [set_elements].
    destruct (Z.leb_spec n i) as [X|X]; [lia|]. rewrite V. apply IH; [lia|exact F'].
  Qed.
  Lemma set_bad l v x r : forall i, (i + Z.of_nat (length l) < n)%Z -> Forall (fun v => sets c v = None) l -> sets c v = Some x ->
    set_elements sets c n i (l ++ v :: r) = Err x.
  Proof.
    induction l as [|w l IH]; intros i L F V; cbn [app set_elements length] in *.
    - destruct (Z.leb_spec n i) as [X|X]; [lia|]. rewrite V. reflexivity.
    - destruct (Z.leb_spec n i) as [X|X]; [lia|]. inversion F as [|? ? W F']; subst. rewrite W. apply IH; [lia|exact F'|exact V].
  Qed.
  Lemma set_many vals : forall i, (0 <= i <= n)%Z -> (n < i + Z.of_nat (length vals))%Z -> Forall (fun v => sets c v = None) (firstn (Z.to_nat (n - i)) vals) ->
    set_elements sets c n i vals = Err IndexError.
  Proof.
    induction vals as [|v vals IH]; intros i L M F; cbn [length] in M; [lia|]. cbn [set_elements].
    destruct (Z.leb_spec n i) as [X|X]; [reflexivity|].
    replace (Z.to_nat (n - i)) with (S (Z.to_nat (n - (i + 1)))) in F by lia. cbn [firstn] in F. inversion F as [|? ? W F']; subst. rewrite W.
    apply IH; [lia|lia|exact F'].
  Qed.
End Values.

(** ** What is taken *)
Section Fits.
  Context (cf : tconf) (table : dict str tyval) (s : store entry) (D : bool -> str -> Prop) (cl : str -> option nat)
    (CL : closed cf table s D) (UT : usual_table table).
  Lemma special_unqualified t p : special t p -> special (unqualified t) p.
  Proof. intros (q & n & -> & I1). exists [], n. auto. Qed.
  Lemma unqualified_special t p : special (unqualified t) p -> special t p.
  Proof. intros (q & n & E & I1). destruct t; try discriminate E. cbn in E. injection E as _ ->. eexists _, _. split; [reflexivity|exact I1]. Qed.
  Lemma function_pointer_unqualified t : is_function_pointer (unqualified t) = is_function_pointer t.
  Proof. destruct t as [|q t| | | |]; try reflexivity. destruct t; reflexivity. Qed.
  Lemma array_unqualified t : is_array (unqualified t) = is_array t.
  Proof. destruct t; reflexivity. Qed.
  Lemma direct_unqualified t c : direct cf table s D cl t c -> direct cf table s D cl (unqualified t) c.
  Proof.
    induction 1 as [q n c O|q t p SP|q t c N NF X IH|q t c X IH|q n t c L A X IH NV|q q' l t c cs X IH Al]; cbn [unqualified].
    - apply di_base. exact O.
    - apply di_special. apply special_unqualified. exact SP.
    - apply di_ptr; [|rewrite function_pointer_unqualified; exact NF|exact IH]. intros p SP. exact (N p (unqualified_special t p SP)).
    - apply di_ref. exact IH.
    - apply di_arr; [exact L|rewrite array_unqualified; exact A|exact IH|exact NV].
    - apply di_fun; assumption.
  Qed.
  Lemma direct_same u u' c c' : unqualified u = unqualified u' -> direct cf table s D cl u c -> direct cf table s D cl u' c' -> c = c'.
  Proof.
    intros E A B. apply direct_unqualified in A. apply direct_unqualified in B. rewrite E in A.
    exact (proj1 (proj2 (represents_one cf table s D (ident_D cf table s D CL) UT cl)) _ _ A _ B).
  Qed.
  Lemma special_text u u' p c : special u p -> unqualified u = unqualified u' -> direct cf table s D cl u' c -> c <> PVoid ->
    In (p, c) [($"c_char_p", PBase $"c_char"); ($"c_wchar_p", PBase $"c_wchar")].
  Proof.
    intros SP E Dr NV. apply special_unqualified in SP. rewrite E in SP. apply direct_unqualified in Dr. destruct SP as (q & n & E2 & I1). rewrite E2 in Dr.
    apply direct_inv in Dr. pose proof (of_base_value table D (ident_D cf table s D CL) UT cl n c Dr) as V.
    destruct UT as (U1 & _ & U3). assert (V0 : forall w v, dget std_types w = Some v -> canon w = w -> n = w -> c = of_tyval v).
    { intros w v G C ->. rewrite C in V. unfold base_value in V. rewrite (U1 w v G) in V. injection V as <-. reflexivity. }
    destruct I1 as [X|[X|[X|[X|[]]]]]; injection X as <- <-.
    - left. f_equal. symmetry. refine (V0 $"char" (TyC $"c_char") _ _ _); vm_compute; reflexivity.
    - right. left. f_equal. symmetry. refine (V0 $"wchar" (TyC $"c_wchar") _ _ _); vm_compute; reflexivity.
    - right. left. f_equal. symmetry. refine (V0 $"wchar_t" (TyC $"c_wchar") _ _ _); vm_compute; reflexivity.
    - exfalso. apply NV. apply (proj1 (represents_one cf table s D (ident_D cf table s D CL) UT cl)) with (t := TBase [] $"void"); [|].
      + apply (re_type _ _ _ _ _ _ (TBase [] $"void")); [apply ex_done; apply TypeProofs.is_fund_iff; destruct cf as [a b0 c0]; destruct b0, c0; vm_compute; reflexivity|apply di_base; exact Dr].
      + apply (re_type _ _ _ _ _ _ (TBase [] $"void")); [apply ex_done; apply TypeProofs.is_fund_iff; destruct cf as [a b0 c0]; destruct b0, c0; vm_compute; reflexivity|apply di_base; constructor].
  Qed.
  Lemma pointer_not_void c : c <> PVoid -> CtSpec.pointer_to c = PPtr c.
  Proof. destruct c; try reflexivity. congruence. Qed.
  Lemma array_fits t p ns u u' c : direct cf table s D cl t p -> takes_array t ns u -> unqualified u = unqualified u' ->
    direct cf table s D cl u' c -> c <> PVoid -> accepts p (CtSpec.nested ns c).
  Proof.
    intros Dt TA E Du NV. destruct TA as [q u n|q q' m u n L|q q' ns u NE|q u n|q u n L]; apply direct_inv in Dt.
    - destruct Dt as [(p' & SP & ->)|[(_ & _ & c' & Dc & ->)|(q2 & l & v & c' & cs & -> & _)]].
      + cbn [CtSpec.nested fold_right]. destruct (special_text u u' p' c SP E Du NV) as [X|[X|[]]]; injection X as <- <-; apply ac_text_array; cbn; auto.
      + rewrite (direct_same u u' c' c E Dc Du), (pointer_not_void c NV). apply ac_array.
      + exfalso. destruct u'; try discriminate E. apply direct_inv in Du. exact Du.
    - destruct Dt as [(p' & (q2 & n2 & X & _) & _)|[(_ & _ & c' & Dc & ->)|(q2 & l & v & c' & cs & X & _)]]; [discriminate X| |discriminate X].
      apply direct_inv in Dc. destruct Dc as (n' & c2 & X & D2 & ->). injection X as <-. rewrite (direct_same u u' c2 c E D2 Du).
      cbn [CtSpec.nested CtSpec.arrays fold_right]. destruct (Z.eqb_spec m (-1)) as [Z|Z]; [lia|]. cbn [CtSpec.pointer_to]. apply ac_array.
    - destruct Dt as [(p' & (q2 & n2 & X & I1) & ->)|[(N & _)|(q2 & l & v & c' & cs & X & _)]]; [| |discriminate X].
      + injection X as <- <-. assert (p' = $"c_void_p") as -> by (destruct I1 as [Y|[Y|[Y|[Y|[]]]]]; try discriminate Y; injection Y as <-; reflexivity).
        destruct ns as [|n ns]; [congruence|]. cbn [CtSpec.nested fold_right]. apply ac_void_array.
      + exfalso. apply (N $"c_void_p"). exists q', $"void". split; [reflexivity|]. cbn. auto.
    - destruct Dt as (n' & c2 & X & D2 & ->). injection X as <-. rewrite (direct_same u u' c2 c E D2 Du).
      cbn [CtSpec.nested CtSpec.arrays fold_right]. change ((-1 =? -1)%Z) with true. cbv iota. rewrite (pointer_not_void c NV). apply ac_array.
    - destruct Dt as (n' & c2 & X & D2 & ->). injection X as <-. rewrite (direct_same u u' c2 c E D2 Du).
      cbn [CtSpec.nested CtSpec.arrays fold_right]. destruct (Z.eqb_spec n (-1)) as [Z|Z]; [lia|]. apply ac_same.
  Qed.
End Fits.

(** ** Libraries *)
Section Library.
  Context (cf : tconf) (table : dict str tyval) (win : bool) (s : store entry) (D : bool -> str -> Prop)
    (prefix : list str) (exports : str -> bool) (takes : option pyt -> nat -> bool) (sets : pyt -> nat -> option exc)
    (CL : closed cf table s D) (TA : tagged s) (EA : enum_tagged s) (UT : usual_table table) (NC : no_clash s prefix).
  Let b := open_with cf table win s prefix exports.
  Let good := good cf table win s D prefix exports.
  Let grows := grows cf table s D.
  Let e := l_env (b_lib b).
  Notation about := (about cf table s D prefix).
  Lemma name_ok n st : representable cf table s D (TBase [] n) -> good st ->
    exists F c ct, (forall f, F <= f -> helper_type e f (AsName n) (q_ct st) = (Ok c, ct))
      /\ represents cf table s D (classes ct) (TBase [] n) c /\ good (with_ct st ct) /\ grows st (with_ct st ct).
  Proof.
    intros RP GD. destruct (load_linked cf table win s) as (LK & FN & EC & ET).
    pose proof (from_start cf table s D _ _ (proj1 GD)) as SH.
    destruct (type_ok cf table s D _ _ LK EC ET CL TA UT (TBase [] n) (CT (SName n) [] [Some []]) (q_ct st) RP eq_refl SH) as (F & c & ct & E & R & G).
    exists F, c, ct. split; [|split; [exact R|split]].
    - intros f Lf. unfold helper_type, mbind, lift. cbn [mk_type length repeat Nat.add Nat.eqb]. apply E. exact Lf.
    - exact (good_ct cf table win s D prefix exports st ct GD G).
    - split; [exact G|]. split; auto.
  Qed.
  Lemma type_arg_ok t st : match t with AsName n => representable cf table s D (TBase [] n) | AsType _ => True end -> good st ->
    exists F c ct, (forall f, F <= f -> helper_type e f t (q_ct st) = (Ok c, ct)) /\ good (with_ct st ct) /\ grows st (with_ct st ct).
  Proof.
    destruct t as [c|n]; intros RP GD.
    - exists 0, c, (q_ct st). split; [reflexivity|]. assert (X : with_ct st (q_ct st) = st) by (destruct st; reflexivity). rewrite X.
      split; [exact GD|]. apply grows_refl.
    - destruct (name_ok n st RP GD) as (F & c & ct & E & _ & G1 & G2). exists F, c, ct. auto.
  Qed.
  Lemma arg_position_ok sig ps w : read_args read_type (map (fun a => (fst (fst a), fill (l_heap (b_lib b)) (snd (fst a)), snd a)) (sig_params sig)) = Some ps ->
    (exists i, arg_position (sig_params sig) w = Ok i /\ stands_at ps w i /\ i < length ps /\ forall j, stands_at ps w j -> j = i)
    \/ (arg_position (sig_params sig) w = Err match w with AtName _ => KeyError | AtIndex _ => IndexError end /\ forall i, ~ stands_at ps w i).
  Proof.
    intros RD. pose proof (params_length _ _ _ RD) as PL. destruct w as [z|n]; cbn [arg_position stands_at].
    - rewrite PL. destruct (Z.leb_spec 0 z) as [A|A]; destruct (Z.ltb_spec z (Z.of_nat (length ps))) as [B|B]; cbn [andb].
      + left. exists (Z.to_nat z). split; [reflexivity|]. split; [split; [lia|left; lia]|]. split; [lia|]. intros j (J1 & J2). lia.
      + assert (X : ((- Z.of_nat (length ps) <=? z) && (z <? 0))%Z = false) by (apply andb_false_iff; right; apply Z.ltb_ge; lia). rewrite X.
        right. split; [reflexivity|]. intros i (I1 & I2). lia.
      + destruct (Z.leb_spec (- Z.of_nat (length ps)) z) as [C|C]; destruct (Z.ltb_spec z 0) as [E|E]; cbn [andb]; try lia.
        * left. exists (Z.to_nat (Z.of_nat (length ps) + z)). split; [reflexivity|]. split; [split; [lia|right; lia]|]. split; [lia|]. intros j (J1 & J2). lia.
        * right. split; [reflexivity|]. intros i (I1 & I2). lia.
      + assert (X : ((- Z.of_nat (length ps) <=? z) && (z <? 0))%Z = false) by lia. lia.
    - change (map _ (sig_params sig)) with (FunModel.f_params (names_only sig)).
      destruct (FunModel.last_index (FunModel.f_params (names_only sig)) n 0) as [i|] eqn:LI.
      + left. exists i. split; [reflexivity|]. apply FunProofs.last_index_names in LI. apply (names_iff _ _ _ RD) in LI. split; [exact LI|].
        split; [exact (name_bound ps n i LI)|]. intros j (J1 & J2). destruct LI as ((t & v & L1) & L2). destruct J1 as (t' & v' & J1).
        destruct (Nat.lt_trichotomy i j) as [X|[X|X]]; [destruct (L2 j t' v' X J1)|auto|destruct (J2 i t v X L1)].
      + right. split; [reflexivity|]. apply FunProofs.last_index_unknown in LI. apply (unknown_iff _ _ _ RD) in LI. intros i ((t & v & N) & _). exact (LI i t v N).
  Qed.
  Lemma arg_type_ok sig ps cs w st : read_args read_type (map (fun a => (fst (fst a), fill (l_heap (b_lib b)) (snd (fst a)), snd a)) (sig_params sig)) = Some ps ->
    good st -> all_represented cf table s D (classes (q_ct st)) ps cs ->
    exists F r ct, (forall f, F <= f -> arg_type e f sig w (q_ct st) = (r, ct)) /\ good (with_ct st ct) /\ grows st (with_ct st ct)
      /\ (forall i, stands_at ps w i -> exists c, nth_error cs i = Some c /\ r = Ok c)
      /\ ((forall i, ~ stands_at ps w i) -> r = Err match w with AtName _ => KeyError | AtIndex _ => IndexError end).
  Proof.
    intros RD GD AR. assert (SAME : with_ct st (q_ct st) = st) by (destruct st; reflexivity).
    destruct (arg_position_ok sig ps w RD) as [(i & P & SA & Li & ONE)|(P & NS)].
    - destruct (nth_error ps i) as [[[n t] v]|] eqn:N; [|apply nth_error_None in N; lia].
      destruct (read_args_nth _ _ _ _ _ _ _ RD N) as (t0 & N0 & R0). rewrite nth_error_map in N0.
      destruct (nth_error (sig_params sig) i) as [p|] eqn:NP; [|discriminate N0]. cbn [option_map] in N0. injection N0 as N1 N2 N3. rewrite <- N2 in R0.
      assert (RC : exists c, nth_error cs i = Some c /\ represents cf table s D (classes (q_ct st)) t c).
      { clear - AR N. revert i N. induction AR as [|n' t' v' l c cs R NV AR IH]; intros i N; [destruct i; discriminate N|].
        destruct i as [|i]; cbn [nth_error] in *; [injection N as _ <- _; exists c; auto|]. apply IH. exact N. }
      destruct RC as (c & NC' & R). destruct (load_linked cf table win s) as (LK & FN & EC & ET).
      pose proof (from_start cf table s D _ _ (proj1 GD)) as SH.
      destruct (type_ok cf table s D _ _ LK EC ET CL TA UT t (snd (fst p)) (q_ct st)) as (F & c' & ct & E & R' & G); [exists (classes (q_ct st)), c; exact R|exact R0|exact SH|].
      exists F, (Ok c'), ct. split; [|split; [|split; [|split]]].
      + intros f Lf. unfold arg_type, mbind, lift. rewrite P, NP. apply E. exact Lf.
      + exact (good_ct cf table win s D prefix exports st ct GD G).
      + split; [exact G|]. split; auto.
      + intros j SJ. rewrite (ONE j SJ). exists c. split; [exact NC'|]. f_equal.
        apply (type_unique cf table s D (classes ct) t); [exact CL|exact UT|exact R'|].
        apply (represents_mono cf table s D (classes (q_ct st)) (classes ct)); [apply G|exact R].
      + intros NS. destruct (NS i SA).
    - exists 0, (Err match w with AtName _ => KeyError | AtIndex _ => IndexError end), (q_ct st). split; [|split; [rewrite SAME; exact GD|split; [rewrite SAME; apply grows_refl|split]]].
      + intros f _. unfold arg_type, mbind, lift. rewrite P. reflexivity.
      + intros i SI. destruct (NS i SI).
      + reflexivity.
  Qed.
  (** Requests for the type of an argument. *)
  Lemma told st a k n w : good st -> about a k n ->
    exists F r st', (forall f, F <= f -> arg_c_type b f a w st = (r, st')) /\ good st' /\ grows st st'
      /\ forall args r0, k = Functions -> exports n = true -> signature cf table s D n args r0 ->
         exists c cs st1, gives (fun f => do_access b f a st) (Ok (VFunction n c cs), st1)
           /\ all_represented cf table s D (classes (q_ct st1)) (parameters args) cs
           /\ (forall i, stands_at (parameters args) w i -> exists c, nth_error cs i = Some c /\ r = Ok c)
           /\ ((forall i, ~ stands_at (parameters args) w i) -> r = Err match w with AtName _ => KeyError | AtIndex _ => IndexError end).
  Proof.
    intros GD AB. destruct (about_ok cf table win s D prefix exports CL TA EA UT NC st a k n GD AB) as (F & x & st1 & E & GD1 & GR1 & OC & _).
    change (forall f, F <= f -> do_access b f a st = (x, st1)) in E.
    assert (ST : forall y, (forall f, F <= f -> arg_c_type b f a w st = (Err y, st1)) -> ((k = Functions -> exports n = true -> False) ->
      exists F r st', (forall f, F <= f -> arg_c_type b f a w st = (r, st')) /\ good st' /\ grows st st'
      /\ forall args r0, k = Functions -> exports n = true -> signature cf table s D n args r0 ->
         exists c cs st1, gives (fun f => do_access b f a st) (Ok (VFunction n c cs), st1)
           /\ all_represented cf table s D (classes (q_ct st1)) (parameters args) cs
           /\ (forall i, stands_at (parameters args) w i -> exists c, nth_error cs i = Some c /\ r = Ok c)
           /\ ((forall i, ~ stands_at (parameters args) w i) -> r = Err match w with AtName _ => KeyError | AtIndex _ => IndexError end))).
    { intros y IV NF. exists F, (Err y), st1. split; [exact IV|]. split; [exact GD1|]. split; [exact GR1|]. intros args r0 K X. destruct (NF K X). }
    destruct x as [o|y].
    2:{ apply (ST y); [intros f Lf; unfold arg_c_type; rewrite E by exact Lf; reflexivity|]. destruct OC as (_ & NX & _). congruence. }
    destruct OC as (OB & EX). destruct o as [v|n' c cs|t|vs].
    - apply (ST OtherError); [intros f Lf; unfold arg_c_type; rewrite E by exact Lf; reflexivity|]. intros -> _. destruct OB as (? & ? & ? & ? & _ & X & _). discriminate X.
    - assert (K : k = Functions).
      { destruct k; try reflexivity; cbn [is_object] in OB; try contradiction OB; repeat (match type of OB with ex _ => destruct OB as (? & OB) | _ /\ _ => destruct OB as (? & OB) end); try discriminate; destruct OB as (OB & _); discriminate OB. }
      subst k. destruct OB as (ps & r & c' & cs' & SG & X & R1 & R2). injection X as -> -> ->. rename c' into c. rename cs' into cs.
      destruct (sig_found cf table win s D CL UT n ps r _ cs SG R2) as (sig & GS & RD).
      destruct (arg_type_ok sig (parameters ps) cs w st1 RD GD1 R2) as (F2 & r2 & ct & E2 & G2 & GR2 & H1 & H2).
      exists (Nat.max F F2), r2, (with_ct st1 ct). split; [|split; [exact G2|split; [exact (grows_trans cf table s D _ _ _ GR1 GR2)|]]].
      + intros f Lf. unfold arg_c_type. rewrite E by lia. change (l_functions (b_lib b)) with (l_functions (load cf table win s)). rewrite GS.
        unfold on_classes. change (l_env (b_lib b)) with e. rewrite E2 by lia. reflexivity.
      + intros ps' r' _ _ (u' & q' & DF' & RF' & _). destruct SG as (u & q & DF & RF & _). rewrite DF in DF'. injection DF' as <-. rewrite RF in RF'. injection RF' as <- <- <-.
        exists c, cs, st1. split; [exists F; exact E|]. auto.
    - apply (ST OtherError); [intros f Lf; unfold arg_c_type; rewrite E by exact Lf; reflexivity|]. intros -> _. destruct OB as (? & ? & ? & ? & _ & X & _). discriminate X.
    - apply (ST OtherError); [intros f Lf; unfold arg_c_type; rewrite E by exact Lf; reflexivity|]. intros -> _. destruct OB as (? & ? & ? & ? & _ & X & _). discriminate X.
  Qed.
  Lemma use_ok u st : orderly_use cf table s D prefix u -> good st ->
    exists F st1, (forall f, F <= f -> do_use b f takes u st = st1) /\ good st1 /\ grows st st1.
  Proof.
    intros OA GD. destruct u as [a|a args kwargs]; cbn [orderly_use do_use] in *.
    - destruct (access_ok cf table win s D prefix exports CL TA EA UT NC a st OA GD) as (F & x & st1 & E & GD1 & GR1). exists F, st1. split; [|split; [exact GD1|exact GR1]].
      intros f Lf. unfold b. rewrite E by exact Lf. reflexivity.
    - destruct OA as (k & n & AB). destruct (invoked cf table win s D prefix exports takes CL TA EA UT NC st a k n args kwargs GD AB) as (F & o & st1 & E & GD1 & GR1 & _).
      exists F, st1. split; [|split; [exact GD1|exact GR1]]. intros f Lf. unfold b. rewrite E by exact Lf. reflexivity.
  Qed.
  Lemma deed_ok d st : orderly_deed cf table s D prefix d -> good st ->
    exists F st1, (forall f, F <= f -> do_deed b f takes sets d st = st1) /\ good st1 /\ grows st st1.
  Proof.
    intros OD GD. destruct d as [u|t sz vals|id t|a w]; cbn [do_deed].
    - exact (use_ok u st OD GD).
    - destruct (type_arg_ok t st) as (F & c & ct & E & G1 & G2); [destruct t; exact OD|exact GD|]. exists F, (with_ct st ct). split; [|auto].
      intros f Lf. unfold build_array, on_classes, mbind. change (l_env (b_lib b)) with e. rewrite E by exact Lf. reflexivity.
    - destruct (type_arg_ok t st) as (F & c & ct & E & G1 & G2); [destruct t; exact OD|exact GD|]. exists F, (with_ct st ct). split; [|auto].
      intros f Lf. unfold cast_to, on_classes, mbind. change (l_env (b_lib b)) with e. rewrite E by exact Lf. reflexivity.
    - destruct OD as (k & n & AB). destruct (told st a k n w GD AB) as (F & r & st' & E & G1 & G2 & _). exists F, st'. split; [|auto].
      intros f Lf. rewrite E by exact Lf. reflexivity.
  Qed.
  Lemma deeds_ok l : forall st, Forall (orderly_deed cf table s D prefix) l -> good st ->
    exists st', gives (fun f => deeds b f takes sets l st) st' /\ good st' /\ grows st st'.
  Proof.
    induction l as [|d l IH]; intros st FO GD.
    - exists st. split; [exists 0; reflexivity|]. split; [exact GD|apply grows_refl].
    - inversion FO as [|? ? OA OL]; subst. destruct (deed_ok d st OA GD) as (F1 & st1 & E1 & GD1 & GR1).
      destruct (IH st1 OL GD1) as (st2 & (F2 & E2) & GD2 & GR2). exists st2. split; [|split; [exact GD2|exact (grows_trans cf table s D _ _ _ GR1 GR2)]].
      exists (Nat.max F1 F2). intros f Lf. unfold deeds. cbn [fold_left]. rewrite E1 by lia. apply E2. lia.
  Qed.
  Lemma function_got st a m args r : good st -> about a Functions m -> exports m = true -> signature cf table s D m args r ->
    exists c cs st1, gives (fun f => do_access b f a st) (Ok (VFunction m c cs), st1) /\ good st1 /\ grows st st1
      /\ all_represented cf table s D (classes (q_ct st1)) (parameters args) cs.
  Proof.
    intros GD AB EX SG. destruct (about_ok cf table win s D prefix exports CL TA EA UT NC st a _ _ GD AB) as (F & x & st1 & E & GD1 & GR1 & OC & _).
    destruct x as [o|y]; [|destruct OC as (_ & NX & _); congruence]. destruct OC as (OB & _).
    destruct OB as (ps & r' & c & cs & (u' & q' & DF' & RF' & _) & -> & _ & R2). destruct SG as (u & q & DF & RF & _).
    rewrite DF in DF'. injection DF' as <-. rewrite RF in RF'. injection RF' as _ <- _.
    exists c, cs, st1. split; [exists F; exact E|]. auto.
  Qed.
  Lemma type_kept n c st : good st -> represents cf table s D (classes (q_ct st)) (TBase [] n) c -> is_type cf table s D prefix exports b n c st.
  Proof.
    intros GD R. split; [exact R|]. split.
    - intros a k m AB SN.
      destruct (about_ok cf table win s D prefix exports CL TA EA UT NC st a k m GD AB) as (F & x & st1 & E & GD1 & GR1 & OC & _).
      change (forall f, F <= f -> do_access b f a st = (x, st1)) in E. exists F. intros f Lf. rewrite E by exact Lf. cbn [fst].
      assert (R1 : represents cf table s D (classes (q_ct st1)) (TBase [] n) c)
        by (apply (represents_mono cf table s D (classes (q_ct st)) (classes (q_ct st1))); [apply GR1|exact R]).
      destruct x as [o|y].
      + destruct OC as (OB & _). f_equal. destruct SN as [(-> & t & t' & TD & X1 & X2)|(u & q & -> & Dm & X2)].
        * destruct OB as (t1 & c1 & TD1 & -> & R2). assert (t1 = t) as -> by congruence. f_equal.
          apply (expanded_twice cf table s D CL UT (classes (q_ct st1)) t (TBase [] n) t'); assumption.
        * assert (Y : exists i, o = VType (PClass i) /\ classes (q_ct st1) m = Some i) by (destruct u; destruct OB as (i & k0 & A & B & _); exists i; auto).
          destruct Y as (i & -> & C). f_equal.
          apply (type_unique cf table s D (classes (q_ct st1)) (TBase [] n)); [exact CL|exact UT| |exact R1].
          apply (re_type _ _ _ _ _ _ _ _ X2). apply di_base. apply ob_comp; assumption.
      + destruct OC as (K & _). exfalso. destruct SN as [(X & _)|(u & q & X & _)]; [congruence|]. destruct u; cbn in X; congruence.
    - intros a m args r AB EX SG. destruct (function_got st a m args r GD AB EX SG) as (c' & cs & st1 & E & GD1 & GR1 & AR).
      exists c', cs. split; [exact (gives_map fst _ _ E)|].
      intros i p t ns u u' (N & name & t0 & v & NP & X) TK XN UQ NV.
      assert (M : forall x j, classes (q_ct st) x = Some j -> classes (q_ct st1) x = Some j) by apply GR1.
      assert (RP : represents cf table s D (classes (q_ct st1)) t0 p).
      { clear - AR N NP. revert i N NP. induction AR as [|n' t' v' l c cs R NV AR IH]; intros i N NP; [destruct i; discriminate N|].
        destruct i as [|i]; cbn [nth_error] in *; [injection NP as _ <- _; injection N as <-; exact R|]. exact (IH i N NP). }
      apply (array_fits cf table s D (classes (q_ct st1)) CL UT t p ns u u' c); [exact (represents_direct _ _ _ _ _ _ _ _ RP X)|exact TK|exact UQ| |exact NV].
      refine (represents_direct cf table s D _ _ _ _ _ XN). apply (represents_mono cf table s D (classes (q_ct st)) _ M). exact R.
  Qed.
  Lemma type_stays n c st : good st -> represents cf table s D (classes (q_ct st)) (TBase [] n) c -> stays_type cf table s D prefix exports takes sets b n c st.
  Proof.
    intros GD R l FO. destruct (deeds_ok l st FO GD) as (st' & E & GD' & GR'). exists st'. split; [exact E|]. apply type_kept; [exact GD'|].
    apply (represents_mono cf table s D (classes (q_ct st)) (classes (q_ct st'))); [apply GR'|exact R].
  Qed.
  Lemma built n st : good st -> representable cf table s D (TBase [] n) -> builds cf table s D prefix exports takes sets b n st.
  Proof.
    intros GD RP. destruct (name_ok n st RP GD) as (F & c & ct & E & R & G1 & _). exists c, (with_ct st ct).
    split; [apply type_stays; [exact G1|exact R]|]. cbv zeta.
    assert (ALL : forall sz vals, gives (fun f => build_array b f sets (AsName n) sz vals st) (bind (get_array c sz) (fun a => make_new sets a vals), with_ct st ct)).
    { intros sz vals. exists F. intros f Lf. unfold build_array, on_classes, mbind. change (l_env (b_lib b)) with e. rewrite E by exact Lf. reflexivity. }
    split; [intros sz vals; eexists; apply ALL|]. split.
    - intros -> sz vals. refine (eq_ind _ (fun r => gives _ (r, _)) (ALL sz vals) _ _). unfold get_array.
      destruct (rev match sz with SInt d => [d] | STuple l => l end) as [|d l]; reflexivity.
    - intros NV ns sz SZ.
      assert (GA : Forall (fun n => 0 <= n)%Z ns -> get_array c sz = Ok (CtSpec.nested ns c)).
      { intros FN. destruct SZ as [->|(m & -> & ->)]; [apply (proj1 (CtFields.array_ok c ns NV FN))|apply (proj2 (CtFields.array_ok c [m] NV FN)); reflexivity]. }
      split.
      + intros FN. specialize (GA FN). assert (ALL' : forall vals, gives (fun f => build_array b f sets (AsName n) sz vals st) (make_new sets (CtSpec.nested ns c) vals, with_ct st ct))
          by (intros vals; pose proof (ALL sz vals) as X; rewrite GA in X; exact X).
        split.
        * refine (eq_ind _ (fun r => gives _ (r, _)) (ALL' []) _ _). destruct ns as [|m ns]; [|reflexivity]. cbn [CtSpec.nested fold_right]. destruct c; try reflexivity. congruence.
        * intros m ns' -> vals. assert (M0 : (0 <= m)%Z) by (inversion FN; assumption). split.
          -- intros (L & FV). refine (eq_ind _ (fun r => gives _ (r, _)) (ALL' vals) _ _). cbn [CtSpec.nested fold_right make_new]. fold (CtSpec.nested ns' c).
             rewrite (set_fit sets _ m vals 0%Z) by (try exact FV; lia). reflexivity.
          -- intros x FR. refine (eq_ind _ (fun r => gives _ (r, _)) (ALL' vals) _ _). cbn [CtSpec.nested fold_right make_new]. fold (CtSpec.nested ns' c).
             destruct FR as [(l & v & r & -> & (_ & FV) & L & SV)|(-> & L & FV)].
             ++ rewrite (set_bad sets _ m l v x r 0%Z) by (try exact FV; try exact SV; lia). reflexivity.
             ++ rewrite (set_many sets _ m vals 0%Z); [reflexivity|lia|lia|]. replace (m - 0)%Z with m by lia. exact FV.
      + intros EN vals. refine (eq_ind _ (fun r => gives _ (r, _)) (ALL sz vals) _ _).
        assert (X : get_array c sz = Err ValueError); [|rewrite X; reflexivity]. unfold get_array.
        destruct SZ as [->|(m & -> & ->)].
        * rewrite <- map_rev. apply times_neg; [exact NV|]. apply Exists_exists in EN. destruct EN as (z & I1 & L). apply Exists_exists. exists z. split; [apply in_rev in I1; exact I1|exact L].
        * exact (times_neg [m] c NV EN).
  Qed.
  Lemma spelled_value ws c : CtSpec.spells ws c -> cast_target (PBase c) = false.
  Proof.
    intros (l & m & I1 & _). assert (F : forallb (fun x => negb (cast_target (PBase (snd x)))) CtSpec.integer_types = true) by (vm_compute; reflexivity).
    rewrite forallb_forall in F. specialize (F _ I1). apply negb_true_iff in F. exact F.
  Qed.
  Lemma pointer_cast c : cast_target (CtSpec.pointer_to c) = true.
  Proof. destruct c; reflexivity. Qed.
  Lemma special_cast t p : special t p -> cast_target (PBase p) = true.
  Proof. intros (q & n & _ & I1). repeat destruct I1 as [E|I1]; try (injection E as _ <-; reflexivity). destruct I1. Qed.
  Lemma cast_address cl t c : direct cf table s D cl t c -> (address table t -> cast_target c = true) /\ (~ address table t -> cast_target c = false).
  Proof.
    intros Dr. destruct t as [q w|q t|q t|q d t|q l t|cv t]; pose proof (direct_inv _ _ _ _ _ _ _ Dr) as X; cbn [address].
    - split.
      + intros (ID & NS & p & G & I1). apply (of_base_value table D (ident_D cf table s D CL) UT cl) in X. rewrite LinkRun.canon_word in X by assumption.
        unfold LinkCall.base_value in X. rewrite G in X. injection X as <-. cbn [of_tyval]. repeat destruct I1 as [<-|I1]; try reflexivity. destruct I1.
      + intros NA. destruct X as [ws c' IO Sp N1 N2|w v ID NS G| | |u n i Dn Cl|n ID NS]; try reflexivity.
        * exact (spelled_value ws c' Sp).
        * destruct v as [|p|i]; try reflexivity. cbn [of_tyval cast_target].
          destruct (eqb_spec p $"c_void_p") as [->|_]; [exfalso; apply NA; repeat split; [exact ID|exact NS|eexists; split; [exact G|cbn; tauto]]|].
          destruct (eqb_spec p $"c_char_p") as [->|_]; [exfalso; apply NA; repeat split; [exact ID|exact NS|eexists; split; [exact G|cbn; tauto]]|].
          destruct (eqb_spec p $"c_wchar_p") as [->|_]; [exfalso; apply NA; repeat split; [exact ID|exact NS|eexists; split; [exact G|cbn; tauto]]|reflexivity].
    - split; [intros _|intros NA; destruct (NA Logic.I)].
      destruct X as [(p & SP & ->)|[(_ & _ & c2 & _ & ->)|(q2 & l & u & c2 & cs & _ & _ & _ & ->)]]; [exact (special_cast _ _ SP)|apply pointer_cast|reflexivity].
    - split; [intros _|intros NA; destruct (NA Logic.I)]. destruct X as (c2 & _ & ->). apply pointer_cast.
    - destruct X as (n & c2 & -> & _ & ->). split.
      + intros E. injection E as ->. apply pointer_cast.
      + intros NA. cbn [CtSpec.arrays fold_right]. destruct (Z.eqb_spec n (-1)) as [->|_]; [destruct (NA eq_refl)|reflexivity].
    - destruct X.
    - destruct X.
  Qed.
  Lemma cast_ok n st : good st -> representable cf table s D (TBase [] n) -> casts cf table s D prefix exports takes sets b n st.
  Proof.
    intros GD RP. destruct (name_ok n st RP GD) as (F & c & ct & E & R & G1 & _). exists c, (with_ct st ct).
    split; [apply type_stays; [exact G1|exact R]|]. intros id t EX. cbv zeta.
    assert (CA : gives (fun f => cast_to b f takes id (AsName n) st)
      (if takes (Some (PBase $"c_void_p")) id then if cast_target c then Ok c else Err TypeError else Err OtherError, with_ct st ct)).
    { exists F. intros f Lf. unfold cast_to, on_classes, mbind. change (l_env (b_lib b)) with e. rewrite E by exact Lf.
      unfold lift. destruct (takes (Some (PBase $"c_void_p")) id); reflexivity. }
    inversion R as [t0 t' c0 EX' Dr]; subst t0 c0. rewrite <- (expanded_one cf s _ _ _ EX EX') in Dr. destruct (cast_address _ _ _ Dr) as [A1 A2].
    split; [|split].
    - intros T A. rewrite T, (A1 A) in CA. exact CA.
    - intros T A. rewrite T, (A2 A) in CA. exact CA.
    - intros T. rewrite T in CA. exact CA.
  Qed.
  Theorem helpers_ok : helpers cf table win s D prefix exports takes sets.
  Proof.
    intros l FO. cbv zeta. change (open_with cf table win s prefix exports) with b.
    destruct (deeds_ok l (opened b) FO (good_opened cf table win s D prefix exports)) as (st & E & GD & _). exists st.
    split; [exact E|]. split; [intros n RP; split; [apply built; assumption|apply cast_ok; assumption]|].
    intros a n args r AB EX SG. split.
    - destruct (function_got st a n args r GD AB EX SG) as (c & cs & st1 & EA1 & GD1 & GR1 & AR). exists c, cs, st1. split; [exact EA1|]. split; [exact AR|].
      intros w. destruct (told st a Functions n w GD AB) as (F & x & st' & E2 & _ & _ & H). destruct (H args r eq_refl EX SG) as (c' & cs' & st1' & EA2 & _ & H1 & H2).
      pose proof (gives_one _ _ _ EA1 EA2) as Q. injection Q as <- <- <-.
      assert (GV : forall y, x = y -> gives (fun f => fst (arg_c_type b f a w st)) y) by (intros y <-; exists F; intros f Lf; rewrite E2 by exact Lf; reflexivity).
      split; [|intros NS; apply GV; exact (H2 NS)]. intros i SI. destruct (H1 i SI) as (c0 & N & X). exists c0. split; [exact N|apply GV; exact X].
    - destruct (invoked cf table win s D prefix exports takes CL TA EA UT NC st a Functions n [] [] GD AB) as (F0 & o0 & st0 & _ & _ & _ & H0).
      destruct (H0 args r eq_refl EX SG) as (c & cs & st1 & GA & _). exists c, cs. split; [exact (gives_map fst _ _ GA)|].
      intros NDf pos kw ND. destruct (invoked cf table win s D prefix exports takes CL TA EA UT NC st a Functions n pos kw GD AB) as (F & o & st2 & E2 & _ & _ & H).
      destruct (H args r eq_refl EX SG) as (c' & cs' & st1' & GA' & _ & _ & EW).
      pose proof (gives_one _ _ _ GA GA') as Q. injection Q as <- <- <-. specialize (EW NDf ND). destruct EW as (W1 & W2 & W3).
      assert (GV : forall o', o = o' -> gives (fun f => fst (invoke b f takes a pos kw st)) o') by (intros o' <-; exists F; intros f Lf; cbv beta; unfold b; rewrite E2 by exact Lf; reflexivity).
      split; [|split].
      + intros W. destruct (W1 W) as (l' & X & P). exists l'. split; [apply GV; exact X|exact P].
      + intros W. apply GV. exact (W2 W).
      + intros W. destruct (W3 W) as (x & X). exists x. apply GV. exact X.
  Qed.
End Library.
