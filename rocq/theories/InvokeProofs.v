(** Proofs for C95. *)
From Coq Require Import Ascii String Bool Arith ZArith Lia List.
Import ListNotations.
From Verif Require Import PyBase PyBaseFacts PyStr PyStrFacts PyExpr TypeModel InitModel StoreModel StoreSpec DeclModel DeclSpec CtModel LinkModel LinkSpec LinkProofs LinkRead LinkRun LinkMain LinkCall AutoSpec AutoProofs.
From Verif Require Import ObjModel ObjSpec ObjProofs InvokeModel InvokeSpec.
From Verif Require FunModel FunSpec FunProofs TypeSpec CtSpec RunSpec LibModel.

(** ** Objects and types *)
Lemma same_type_refl c : same_type c c = true.
Proof.
  revert c. fix IH 1. intros c. destruct c as [|n|i|i|c|c n|w c l]; cbn [same_type].
  - reflexivity.
  - apply eqb_refl.
  - apply Nat.eqb_refl.
  - apply Nat.eqb_refl.
  - apply IH.
  - rewrite IH, Z.eqb_refl. reflexivity.
  - rewrite IH, Bool.eqb_reflx. cbn [andb]. induction l as [|x l IHl]; [reflexivity|]. rewrite IH. exact IHl.
Qed.
Lemma same_type_eq a : forall b, same_type a b = true -> a = b.
Proof.
  revert a. fix IH 1. intros a b H. destruct a as [|m|i|i|a|a m|v a l], b as [|n|j|j|b|b n|w b r]; cbn [same_type] in H; try discriminate H.
  - reflexivity.
  - f_equal. apply eqb_eq. exact H.
  - f_equal. apply Nat.eqb_eq. exact H.
  - f_equal. apply Nat.eqb_eq. exact H.
  - f_equal. apply IH. exact H.
  - apply andb_true_iff in H. destruct H as [H1 H2]. apply Z.eqb_eq in H2. rewrite (IH a b H1), H2. reflexivity.
  - apply andb_true_iff in H. destruct H as [H H3]. apply andb_true_iff in H. destruct H as [H1 H2]. apply Bool.eqb_prop in H1. rewrite (IH a b H2), H1. f_equal.
    clear H1 H2 a b v w. revert r H3. induction l as [|x l IHl]; intros [|y r] H3; try discriminate H3; [reflexivity|].
    apply andb_true_iff in H3. destruct H3 as [H4 H5]. rewrite (IH x y H4), (IHl r H5). reflexivity.
Qed.
Lemma object_taken_same c : object_taken c c = true.
Proof. unfold object_taken. rewrite same_type_refl. reflexivity. Qed.
Lemma object_taken_void : object_taken (PBase $"c_void_p") (PPtr (PBase $"c_void_p")) = true.
Proof. reflexivity. Qed.
Theorem taken_accepts p a : object_taken p a = true <-> accepts p a.
Proof.
  unfold object_taken. split.
  - intros H. apply orb_true_iff in H. destruct H as [H|H]; [rewrite (same_type_eq p a H); constructor|].
    destruct p as [|n|i|i|c|c n|w c l]; try discriminate H.
    + destruct (eqb n $"c_void_p") eqn:E; [apply eqb_eq in E; subst n|].
      { destruct a as [|m|i|i|c|c n|w c l]; try discriminate H; constructor. apply orb_true_iff in H. destruct H as [H|H]; apply eqb_eq in H; subst m; [left|right; left]; reflexivity. }
      clear E. destruct (eqb n $"c_char_p") eqn:E; [apply eqb_eq in E; subst n|].
      { destruct a as [|m|i|i|c|c n|w c l]; try discriminate H; apply same_type_eq in H; subst c; constructor; left; reflexivity. }
      clear E. destruct (eqb n $"c_wchar_p") eqn:E; [apply eqb_eq in E; subst n|discriminate H].
      destruct a as [|m|i|i|c|c n|w c l]; try discriminate H; apply same_type_eq in H; subst c; constructor; right; left; reflexivity.
    + apply orb_true_iff in H. destruct H as [H|H]; [apply same_type_eq in H; subst c; constructor|].
      destruct a as [|m|i|i|b|b n|w b l]; try discriminate H. apply same_type_eq in H. subst b. constructor.
  - intros A. destruct A as [c|c n|c|a|a n|p I1|w r l|p c I1|p c n I1]; try reflexivity.
    + rewrite same_type_refl. reflexivity.
    + rewrite !same_type_refl, !orb_true_r. reflexivity.
    + rewrite same_type_refl. cbn [orb]. apply orb_true_r.
    + destruct I1 as [<-|[<-|[]]]; reflexivity.
    + destruct I1 as [E|[E|[]]]; injection E as <- <-; reflexivity.
    + destruct I1 as [E|[E|[]]]; injection E as <- <-; reflexivity.
Qed.

(** ** The argument list *)
Section Names.
  Context (h : heap) (sig : rty) (ps : list (option str * cty * option str))
    (RD : read_args read_type (map (fun a => (fst (fst a), fill h (snd (fst a)), snd a)) (sig_params sig)) = Some ps).
  Let f := names_only sig.
  Lemma read_names (l : list (option str * rty * option str)) : forall ps', read_args read_type (map (fun a => (fst (fst a), fill h (snd (fst a)), snd a)) l) = Some ps' ->
    map (fun a => (fst (fst a), snd a)) l = map (fun a => (fst (fst a), snd a)) ps'.
  Proof.
    induction l as [|[[an at_] av] l IH]; intros ps' R; cbn [map read_args fst snd] in *.
    - injection R as <-. reflexivity.
    - destruct (read_type (fill h at_)) as [t|]; [|discriminate R]. destruct (read_args read_type (map _ l)) as [l'|] eqn:E; [|discriminate R]. injection R as <-.
      cbn [map fst snd]. f_equal. apply IH. reflexivity.
  Qed.
  Lemma params_length : length (sig_params sig) = length ps.
  Proof. pose proof (f_equal (@length _) (read_names _ _ RD)) as E. rewrite !map_length in E. exact E. Qed.
  Lemma fparams_length : length (FunModel.f_params f) = length ps.
  Proof. unfold f, names_only. cbn [FunModel.f_params]. rewrite map_length. exact params_length. Qed.
  Lemma name_at i : forall k, (exists p, nth_error (FunModel.f_params f) i = Some p /\ FunModel.p_name p = Some k) <-> (exists t v, nth_error ps i = Some (Some k, t, v)).
  Proof.
    intros k. assert (E : map (fun p : FunModel.param => (FunModel.p_name p, FunModel.p_default p)) (FunModel.f_params f) = map (fun a => (fst (fst a), snd a)) ps).
    { rewrite <- (read_names _ _ RD). unfold f, names_only. cbn [FunModel.f_params]. rewrite map_map. reflexivity. }
    pose proof (f_equal (fun l => nth_error l i) E) as N. cbv beta in N. rewrite !nth_error_map in N. split.
    - intros (p & Q & K). rewrite Q in N. cbn [option_map] in N. destruct (nth_error ps i) as [[[n t] v]|]; [|discriminate N].
      cbn [option_map fst snd] in N. injection N as N1 N2. exists t, v. congruence.
    - intros (t & v & Q). rewrite Q in N. cbn [option_map fst snd] in N. destruct (nth_error (FunModel.f_params f) i) as [p|]; [|discriminate N].
      cbn [option_map] in N. injection N as N1 N2. exists p. auto.
  Qed.
  Lemma names_iff k i : FunSpec.names_param f k i <-> names_param ps k i.
  Proof.
    unfold FunSpec.names_param, names_param. rewrite name_at. split; intros (A & B); (split; [exact A|]).
    - intros j t v L Q. destruct (proj2 (name_at j k)) as (p & P & K); [eauto|]. exact (B j p L P K).
    - intros j p L Q K. destruct (proj1 (name_at j k)) as (t & v & P); [eauto|]. exact (B j t v L P).
  Qed.
  Lemma unknown_iff k : FunSpec.unknown f k <-> unknown ps k.
  Proof.
    unfold FunSpec.unknown, unknown. split.
    - intros U j t v Q. destruct (proj2 (name_at j k)) as (p & P & K); [eauto|]. exact (U j p P K).
    - intros U j p Q K. destruct (proj1 (name_at j k)) as (t & v & P); [eauto|]. exact (U j t v P).
  Qed.
  Context (args : list FunModel.pyval) (kwargs : list (str * FunModel.pyval)).
  Lemma gives_iff i v : FunSpec.gives f args kwargs i v <-> gives ps args kwargs i v.
  Proof.
    unfold FunSpec.gives, gives. split.
    - intros [(k & I1 & N)|(A & N)]; [left; exists k; split; [exact I1|apply names_iff; exact N]|right]. split; [exact A|]. intros k w I1 X. apply (N k w I1). apply names_iff. exact X.
    - intros [(k & I1 & N)|(A & N)]; [left; exists k; split; [exact I1|apply names_iff; exact N]|right]. split; [exact A|]. intros k w I1 X. apply (N k w I1). apply names_iff. exact X.
  Qed.
  Lemma nothing_iff i : FunSpec.gives_nothing f args kwargs i <-> gives_nothing ps args kwargs i.
  Proof.
    unfold FunSpec.gives_nothing, gives_nothing. split; intros (A & N); (split; [exact A|]); intros k w I1 X; apply (N k w I1); apply names_iff; exact X.
  Qed.
  Lemma name_bound k i : names_param ps k i -> i < length ps.
  Proof. intros ((t & v & Q) & _). apply nth_error_Some. congruence. Qed.

  Context (ND : no_defaults ps).
  Lemma required_all : length (filter (fun p : FunModel.param => match FunModel.p_default p with None => true | _ => false end) (FunModel.f_params f)) = length ps.
  Proof.
    rewrite <- fparams_length. f_equal.
    assert (X : Forall (fun p : FunModel.param => FunModel.p_default p = None) (FunModel.f_params f)).
    { unfold f, names_only. cbn [FunModel.f_params]. apply Forall_map. cbn [FunModel.p_default snd].
      pose proof (read_names _ _ RD) as E. clear RD f. revert ps E ND. induction (sig_params sig) as [|p l IH]; intros [|q ps'] E ND'; try discriminate E; constructor.
      - cbn [map] in E. injection E as _ E2 _. inversion ND'; subst. unfold FunModel.p_default. cbn [snd]. congruence.
      - apply (IH ps'); [cbn [map] in E; injection E as _ _ E; exact E|]. inversion ND'; assumption. }
    induction X as [|p l P X IH]; [reflexivity|]. cbn [filter]. rewrite P. f_equal. exact IH.
  Qed.
  Lemma positional_length : length (FunModel.positional f args) = Nat.max (length args) (length ps).
  Proof. unfold FunModel.positional. rewrite app_length, map_length, repeat_length, required_all. lia. Qed.
  Lemma keywords_length l0 : forall l l', length ps <= length l -> FunModel.keywords f l0 l = Ok l' -> length l' = length l.
  Proof.
    induction l0 as [|[k v] l0 IH]; intros l l' L E; cbn [FunModel.keywords] in E; [congruence|].
    destruct (FunModel.last_index (FunModel.f_params f) k 0) as [i|] eqn:LI; [|discriminate E]. apply FunProofs.last_index_names in LI. apply names_iff in LI.
    pose proof (name_bound k i LI) as Bd. destruct (Nat.leb_spec (length l) i) as [X|X]; [lia|].
    rewrite (IH _ _ ltac:(rewrite FunProofs.length_set; exact L) E). apply FunProofs.length_set.
  Qed.
  (** The list before missing arguments are filled in. *)
  Lemma arg_list : NoDup (map fst kwargs) -> forall l, FunModel.keywords f kwargs (FunModel.positional f args) = Ok l ->
    length l = Nat.max (length args) (length ps)
    /\ Forall FunProofs.raw l
    /\ (forall k v, In (k, v) kwargs -> ~ unknown ps k)
    /\ (forall i v, gives ps args kwargs i v -> nth_error l i = Some (FunModel.of_py v))
    /\ (forall i, gives_nothing ps args kwargs i -> i < length ps -> nth_error l i = Some FunModel.Absent)
    /\ (forall i sl, i < length ps -> nth_error l i = Some sl -> (exists v, gives ps args kwargs i v /\ sl = FunModel.of_py v) \/ (gives_nothing ps args kwargs i /\ sl = FunModel.Absent))
    /\ (forall i, length ps <= i -> nth_error l i = option_map FunModel.of_py (nth_error args i)).
  Proof.
    intros NK l E. pose proof (keywords_length _ _ _ ltac:(rewrite positional_length; lia) E) as LE. rewrite positional_length in LE.
    assert (GN : forall i, gives_nothing ps args kwargs i -> i < length ps -> nth_error l i = Some FunModel.Absent).
    { intros i G Li. destruct (FunProofs.absent_slot f args kwargs l i NK E) as [X|X]; [apply nothing_iff; exact G| |exact X].
      apply nth_error_None in X. lia. }
    assert (GV : forall i v, gives ps args kwargs i v -> nth_error l i = Some (FunModel.of_py v)).
    { intros i v G. apply (FunProofs.given_slot f args kwargs l i v NK E). apply gives_iff. exact G. }
    split; [exact LE|]. split; [exact (FunProofs.raw_keywords _ _ _ _ (FunProofs.raw_positional f args) E)|]. split.
    { intros k v I1 U. apply unknown_iff in U. rewrite (FunProofs.keywords_unknown f kwargs _ k v I1 U) in E. discriminate E. }
    split; [exact GV|]. split; [exact GN|]. split.
    - intros i sl Li Q. destruct (FunProofs.gives_cases f args kwargs i) as [(v & G)|G].
      + apply gives_iff in G. left. exists v. split; [exact G|]. rewrite (GV i v G) in Q. congruence.
      + apply nothing_iff in G. right. split; [exact G|]. rewrite (GN i G Li) in Q. congruence.
    - intros i Li. assert (NN : forall k v, In (k, v) kwargs -> ~ FunSpec.names_param f k i).
      { intros k v _ N. apply names_iff in N. apply name_bound in N. lia. }
      destruct (nth_error args i) as [v|] eqn:A; cbn [option_map].
      + apply (FunProofs.given_slot f args kwargs l i v NK E). right. split; [exact A|exact NN].
      + apply nth_error_None in A. apply nth_error_None. lia.
  Qed.
End Names.

(** ** Filling in *)
Section Fill.
  Context (cf : tconf) (table : dict str tyval) (win : bool) (s : store entry) (D : bool -> str -> Prop)
    (CL : closed cf table s D) (TA : tagged s) (UT : usual_table table).
  Let L := load cf table win s.
  Let e := l_env L.
  Let h := l_heap L.
  Notation grown := (grown cf table s D).
  Lemma sig_found n args r cl cs : signature cf table s D n args r -> all_represented cf table s D cl (parameters args) cs ->
    exists sig, dget (l_functions L) n = Some sig
      /\ read_args read_type (map (fun a => (fst (fst a), fill h (snd (fst a)), snd a)) (sig_params sig)) = Some (parameters args).
  Proof.
    intros (u & q & DF & RF & _) RA. destruct (load_linked cf table win s) as (LK & FN & EC & ET).
    destruct (FN n u DF) as (sig & G & FS). rewrite <- FS in RF. exists sig. split; [exact G|].
    destruct sig as [[m|r0] ds qs]; rewrite fill_eq in RF; cbn [RunSpec.read_function] in RF; [discriminate|].
    destruct ds as [|d [|d2 ds]]; try discriminate RF; [|destruct d; discriminate RF]. destruct d as [x|a|ps]; try discriminate RF.
    cbn [map filld] in RF. destruct qs as [|[[|w' v']|] [|[q0|] [|? ?]]]; try discriminate RF.
    destruct (read_type (fill _ r0)) as [u0|] eqn:RT; [|discriminate]. destruct (read_args read_type _) as [l|] eqn:RL; [|discriminate].
    injection RF as -> -> ->. destruct (params_filter cf table s D h CL UT _ _ _ _ RA RL) as (ps' & E & RL').
    unfold sig_params. rewrite E. exact RL'.
  Qed.

  Context (sig : rty) (ps : list (option str * cty * option str)) (cs : list pyt)
    (RD : read_args read_type (map (fun a => (fst (fst a), fill h (snd (fst a)), snd a)) (sig_params sig)) = Some ps).
  Notation type_at := (type_at cf s ps cs).
  Definition filled (j : nat) (sl : FunModel.slot) (a : carg) : Prop :=
    match sl with
    | FunModel.Given id => a = Own id
    | FunModel.Absent => exists t c k a0, type_at j t c /\ pointers k t /\ 1 <= k <= 2 /\ a = NewOf a0 /\ (exists c0, a0 = PPtr c0)
        /\ (~ characters c -> a0 = c \/ c = PBase $"c_void_p" /\ a0 = PPtr c)
    | FunModel.Null => exists t c, type_at j t c /\ (forall q n, t <> TBase q n) /\ a = NullOf c
    | _ => False
    end.
  Definition fails (j : nat) (sl : FunModel.slot) (x : exc) : Prop :=
    (length ps <= j /\ x = IndexError /\ (sl = FunModel.Null \/ sl = FunModel.Absent))
    \/ (x = TypeError /\ sl = FunModel.Absent /\ exists t c, type_at j t c /\ forall k, 1 <= k <= 2 -> ~ pointers k t)
    \/ (x = TypeError /\ sl = FunModel.Null /\ exists q n c, type_at j (TBase q n) c).
  Lemma type_of_param cl j : all_represented cf table s D cl ps cs -> j < length ps ->
    exists name t0 v t c p, nth_error ps j = Some (name, t0, v) /\ expanded cf s t0 t /\ nth_error cs j = Some c /\ direct cf table s D cl t c
      /\ nth_error (sig_params sig) j = Some p /\ read_type (fill h (snd (fst p))) = Some t0 /\ type_at j t c.
  Proof.
    intros RA Lj. destruct (nth_error ps j) as [[[name t0] v]|] eqn:N; [|apply nth_error_None in N; lia].
    assert (LC : length ps = length cs) by (clear - RA; induction RA; cbn [length]; congruence).
    destruct (nth_error cs j) as [c|] eqn:C; [|apply nth_error_None in C; lia].
    pose proof (represented_nth _ _ _ _ _ _ _ RA j name t0 v c N C) as R. inversion R as [t1 t c1 X Dr E1 E2]; subst t1 c1.
    destruct (read_args_nth _ _ _ _ _ _ _ RD N) as (u0 & N0 & R0). apply nth_map_inv in N0. destruct N0 as (p & N0 & Ep). injection Ep as _ Eu _. subst u0.
    assert (TY : type_at j t c) by (split; [exact C|]; exists name, t0, v; auto).
    exists name, t0, v, t, c, p. split; [reflexivity|]. split; [exact X|]. split; [reflexivity|]. split; [exact Dr|]. split; [exact N0|]. split; [exact R0|exact TY].
  Qed.
  Lemma params_none j : length ps <= j -> nth_error (sig_params sig) j = None.
  Proof. intros Lj. apply nth_error_None. rewrite (params_length h sig ps RD). exact Lj. Qed.
  Lemma auto_pointer f j st a st' : auto_arg e f sig j st = (Ok a, st') -> exists c0, a = PPtr c0.
  Proof.
    unfold auto_arg, no_assertion, mbind, lift, ret, fail. destruct (nth_error (sig_params sig) j) as [p|]; [|discriminate].
    destruct (eval_type (e_conf e) (e_types e) (snd (fst p))) as [r|x]; [|destruct x; discriminate].
    destruct (get_pointer e f r (snd (fst p)) st) as [[c0|x] st1]; [|destruct x; discriminate]. intros E. injection E as <- _. exists c0. reflexivity.
  Qed.
  Lemma fill_one j sl st : ready h st -> all_represented cf table s D (classes st) ps cs -> FunProofs.raw sl ->
    exists F x st', (forall f, F <= f -> fill_arg e f sig j sl st = (x, st')) /\ grown st st'
      /\ match x with Ok a => filled j sl a | Err y => fails j sl y end.
  Proof.
    intros SH RA RW. destruct (load_linked cf table win s) as (LK & _ & EC & ET). destruct sl as [| |id|t|t]; try contradiction RW.
    - destruct (Nat.lt_ge_cases j (length ps)) as [Lj|Lj].
      + destruct (type_of_param _ j RA Lj) as (name & t0 & v & t & c & p & N & X & C & Dr & NP & RT & TY).
        destruct (pointers_cases t) as [(k & (K1 & K2) & P)|NPt].
        * destruct (auto_some cf table s D e h LK EC ET CL TA UT sig j p t0 t c st NP RT X Dr SH k P K1 K2) as (F & a & st' & E & A & G).
          exists F, (Ok (NewOf a)), st'. split; [|split; [exact G|]].
          -- intros f Lf. cbn [fill_arg]. unfold mbind. rewrite E by exact Lf. reflexivity.
          -- exists t, c, k, a. pose proof (auto_pointer F j st a st' (E F (Nat.le_refl F))) as AP. split; [exact TY|]. auto 6.
        * exists 0, (Err TypeError), st. split; [|split; [apply grown_refl|]].
          -- intros f _. cbn [fill_arg]. unfold mbind. rewrite (auto_refused cf table s D e h LK EC sig j p t0 t c st NP RT X Dr); [reflexivity|].
             intros k K1 K2. apply NPt. auto.
          -- right. left. split; [reflexivity|]. split; [reflexivity|]. exists t, c. auto.
      + exists 0, (Err IndexError), st. split; [|split; [apply grown_refl|left; auto]]. intros f _. cbn [fill_arg]. unfold mbind, auto_arg. rewrite (params_none j Lj). reflexivity.
    - destruct (Nat.lt_ge_cases j (length ps)) as [Lj|Lj].
      + destruct (type_of_param _ j RA Lj) as (name & t0 & v & t & c & p & N & X & C & Dr & NP & RT & TY).
        assert (B : (exists q n, t = TBase q n) \/ forall q n, t <> TBase q n) by (destruct t; [left; eauto|right; discriminate..]).
        destruct B as [(q & n & ->)|NB].
        * exists 0, (Err TypeError), st. split; [|split; [apply grown_refl|]].
          -- intros f _. cbn [fill_arg]. unfold mbind. rewrite (null_refused cf table s D e h LK EC sig j p t0 (TBase q n) c st NP RT X Dr q n eq_refl). reflexivity.
          -- right. right. split; [reflexivity|]. split; [reflexivity|]. exists q, n, c. exact TY.
        * destruct (null_some cf table s D e h LK EC ET CL TA UT sig j p t0 t c st NP RT X Dr SH NB) as (F & a & st' & E & -> & G).
          exists F, (Ok (NullOf c)), st'. split; [|split; [exact G|]].
          -- intros f Lf. cbn [fill_arg]. unfold mbind. rewrite E by exact Lf. reflexivity.
          -- exists t, c. auto.
      + exists 0, (Err IndexError), st. split; [|split; [apply grown_refl|left; auto]]. intros f _. cbn [fill_arg]. unfold mbind, null_arg. rewrite (params_none j Lj). reflexivity.
    - exists 0, (Ok (Own id)), st. split; [reflexivity|]. split; [apply grown_refl|reflexivity].
  Qed.
  Lemma represented_later st st' : grown st st' -> all_represented cf table s D (classes st) ps cs -> all_represented cf table s D (classes st') ps cs.
  Proof. intros G. apply (proj2 (proj2 (represents_mono cf table s D (classes st) (classes st') (grown_classes cf table s D _ _ G)))). Qed.
  Lemma fill_all l : forall j st, ready h st -> all_represented cf table s D (classes st) ps cs -> Forall FunProofs.raw l ->
    exists F x st', (forall f, F <= f -> fill_args e f sig j l st = (x, st')) /\ grown st st'
      /\ match x with
         | Ok l' => length l' = length l /\ forall i sl, nth_error l i = Some sl -> exists a, nth_error l' i = Some a /\ filled (j + i) sl a
         | Err y => exists i sl, nth_error l i = Some sl /\ fails (j + i) sl y
                    /\ forall i' sl', i' < i -> nth_error l i' = Some sl' -> exists a, filled (j + i') sl' a
         end.
  Proof.
    induction l as [|sl l IH]; intros j st SH RA RW.
    - exists 0, (Ok []), st. split; [reflexivity|]. split; [apply grown_refl|]. split; [reflexivity|]. intros [|i] x Q; discriminate Q.
    - inversion RW as [|? ? R1 R2]; subst. destruct (fill_one j sl st SH RA R1) as (F1 & x1 & st1 & E1 & G1 & O1).
      destruct x1 as [a|y].
      + destruct (IH (S j) st1) as (F2 & x2 & st2 & E2 & G2 & O2).
        { exact (grown_ready cf table s D h _ _ G1 SH). } { apply (represented_later st); assumption. } { exact R2. }
        assert (EE : forall f, Nat.max F1 F2 <= f -> fill_args e f sig j (sl :: l) st = (match x2 with Ok r => Ok (a :: r) | Err y => Err y end, st2)).
        { intros f Lf. cbn [fill_args]. unfold mbind. rewrite E1 by lia. rewrite E2 by lia. destruct x2; reflexivity. }
        exists (Nat.max F1 F2), (match x2 with Ok r => Ok (a :: r) | Err y => Err y end), st2. split; [exact EE|]. split; [exact (grown_trans cf table s D _ _ _ G1 G2)|].
        destruct x2 as [l'|y].
        * destruct O2 as (LE & H). split; [cbn [length]; congruence|]. intros [|i] x Q; cbn [nth_error] in Q |- *.
          -- injection Q as <-. exists a. split; [reflexivity|]. rewrite Nat.add_0_r. exact O1.
          -- destruct (H i x Q) as (a' & A & B). exists a'. split; [exact A|]. replace (j + S i) with (S j + i) by lia. exact B.
        * destruct O2 as (i & x & Q & B & H). exists (S i), x. split; [exact Q|]. split; [replace (j + S i) with (S j + i) by lia; exact B|].
          intros [|i'] sl' Li Q'; cbn [nth_error] in Q'.
          -- injection Q' as <-. exists a. rewrite Nat.add_0_r. exact O1.
          -- destruct (H i' sl' ltac:(lia) Q') as (a' & A). exists a'. replace (j + S i') with (S j + i') by lia. exact A.
      + exists F1, (Err y), st1. split; [|split; [exact G1|]].
        * intros f Lf. cbn [fill_args]. unfold mbind. rewrite E1 by exact Lf. reflexivity.
        * exists 0, sl. split; [reflexivity|]. rewrite Nat.add_0_r. split; [exact O1|]. intros i' sl' Li. lia.
  Qed.

  (** ** Calls *)
  Context (takes : option pyt -> nat -> bool) (args : list FunModel.pyval) (kwargs : list (str * FunModel.pyval)).
  Lemma args_taken_nth l : forall (cs0 : list pyt), args_taken takes cs0 l = true <-> forall i a, nth_error l i = Some a -> arg_taken takes (nth_error cs0 i) a = true.
  Proof.
    induction l as [|a l IH]; intros cs0; cbn [args_taken].
    - split; [intros _ [|i] a Q; discriminate Q|reflexivity].
    - rewrite andb_true_iff, IH. split.
      + intros (A & B) [|i] x Q; cbn [nth_error] in Q.
        * injection Q as <-. destruct cs0; exact A.
        * specialize (B i x Q). destruct cs0 as [|c0 cs0]; [destruct i; exact B|exact B].
      + intros H. split; [specialize (H 0 a eq_refl); destruct cs0; exact H|]. intros i x Q. specialize (H (S i) x Q). destruct cs0 as [|c0 cs0]; [destruct i; exact H|exact H].
  Qed.
  Lemma type_at_one j t c t' c' : type_at j t c -> type_at j t' c' -> t = t' /\ c = c'.
  Proof.
    intros (C & name & t0 & v & N & X) (C' & name' & t0' & v' & N' & X'). split; [|congruence].
    rewrite N in N'. injection N' as _ <- _. exact (expanded_one cf s _ _ _ X X').
  Qed.
  Definition ends_well (o : outcome) : Prop :=
    (no_defaults ps -> NoDup (map fst kwargs) ->
       (well_called cf s takes ps cs args kwargs -> exists l, o = Called l /\ passed cf s takes ps cs args kwargs l)
       /\ (ill_called cf s ps cs args kwargs -> o = Refused TypeError)
       /\ (untaken takes ps cs args kwargs -> exists x, o = Refused x)).
  Lemma called st : ready h st -> all_represented cf table s D (classes st) ps cs ->
    exists F o st', (forall f, F <= f -> call_function e f takes sig cs args kwargs st = (o, st')) /\ grown st st' /\ ends_well o.
  Proof.
    intros SH RA. unfold call_function. cbv zeta.
    assert (LC : length ps = length cs) by (clear - RA; induction RA; cbn [length]; congruence).
    destruct (FunModel.keywords (names_only sig) kwargs (FunModel.positional (names_only sig) args)) as [l|y] eqn:K.
    2:{ pose proof (FunProofs.keywords_Err _ _ _ _ K) as ->. exists 0, (Refused TypeError), st. split; [reflexivity|]. split; [apply grown_refl|].
        intros NDf ND. split; [|split; [reflexivity|eauto]]. intros (U & _). exfalso.
        assert (X : exists k v, In (k, v) kwargs /\ FunSpec.unknown (names_only sig) k).
        { clear - K. revert K. generalize (FunModel.positional (names_only sig) args). induction kwargs as [|[k v] kw IH]; intros l K; cbn [FunModel.keywords] in K; [discriminate K|].
          destruct (FunModel.last_index (FunModel.f_params (names_only sig)) k 0) as [i|] eqn:LI.
          - destruct (IH _ K) as (k' & v' & I1 & X). exists k', v'. split; [right; exact I1|exact X].
          - exists k, v. split; [left; reflexivity|]. apply FunProofs.last_index_unknown. exact LI. }
        destruct X as (k & v & I1 & X). apply (U k v I1). apply (unknown_iff h sig ps RD). exact X. }
    assert (RW : Forall FunProofs.raw l) by exact (FunProofs.raw_keywords _ _ _ _ (FunProofs.raw_positional (names_only sig) args) K).
    destruct (fill_all l 0 st SH RA RW) as (F & x & st' & E & G & O). exists F.
    destruct x as [l'|y].
    - destruct O as (LE & FI). cbn [Nat.add] in FI.
      exists (if length l' <? length cs then Refused (reported sig TypeError) else if args_taken takes cs l' then Called l' else Refused (reported sig OtherError)), st'.
      split; [intros f Lf; rewrite E by exact Lf; destruct (length l' <? length cs); [reflexivity|]; destruct (args_taken takes cs l'); reflexivity|].
      split; [exact G|]. intros NDf ND. destruct (arg_list h sig ps RD args kwargs NDf ND l K) as (LL & _ & UK & GV & GN & GA & GX).
      assert (LB : length l' <? length cs = false) by (apply Nat.ltb_ge; lia). rewrite LB. split; [|split].
      + intros (_ & EXT & AP).
        assert (PN : forall i, i < length ps -> exists a, nth_error l' i = Some a /\ passes cf s takes ps cs args kwargs i a /\ arg_taken takes (nth_error cs i) a = true).
        { intros i Li. destruct (AP i Li) as (a0 & P). destruct P as [id c GI C T|t c GI TY PT|t c k a1 GI TY P K1 NCh A0 A1].
          - destruct (FI i _ (GV i _ GI)) as (a & N & FD). cbn [FunModel.of_py filled] in FD. subst a. exists (Own id). split; [exact N|]. split; [econstructor; eassumption|].
            rewrite C. exact T.
          - destruct (FI i _ (GV i _ GI)) as (a & N & FD). cbn [FunModel.of_py filled] in FD. destruct FD as (t' & c' & TY' & _ & ->).
            destruct (type_at_one i t c t' c' TY TY') as (<- & <-). exists (NullOf c). split; [exact N|]. split; [econstructor; eassumption|].
            rewrite (proj1 TY). apply object_taken_same.
          - destruct (FI i _ (GN i GI Li)) as (a & N & FD). cbn [filled] in FD. destruct FD as (t' & c' & k' & a2 & TY' & _ & _ & -> & AP' & A2).
            destruct (type_at_one i t c t' c' TY TY') as (<- & <-). exists (NewOf a2). split; [exact N|]. split; [econstructor; [eassumption..|exact (A2 NCh)]|].
            rewrite (proj1 TY). cbn [arg_taken]. destruct (A2 NCh) as [->|(-> & ->)]; [apply object_taken_same|reflexivity]. }
        assert (XN : forall i id, length ps <= i -> nth_error args i = Some (FunModel.PVal id) -> nth_error l' i = Some (Own id)).
        { intros i id Li A. specialize (GX i Li). rewrite A in GX. cbn [option_map FunModel.of_py] in GX. destruct (FI i _ GX) as (a & N & FD). cbn [filled] in FD. subst a. exact N. }
        assert (TK : args_taken takes cs l' = true).
        { apply args_taken_nth. intros i a N. destruct (Nat.lt_ge_cases i (length ps)) as [Li|Li].
          - destruct (PN i Li) as (a' & N' & _ & T). rewrite N in N'. injection N' as <-. exact T.
          - assert (Lc : nth_error cs i = None) by (apply nth_error_None; lia). rewrite Lc.
            assert (Ll : i < length l) by (rewrite <- LE; apply nth_error_Some; congruence).
            specialize (GX i Li). destruct (nth_error args i) as [v|] eqn:A; cbn [option_map] in GX; [|apply nth_error_None in GX; lia].
            destruct (EXT i v Li A) as (id & -> & T). rewrite (XN i id Li A) in N. injection N as <-. exact T. }
        rewrite TK. exists l'. split; [reflexivity|]. split; [lia|]. split; [|exact XN]. intros i Li. destruct (PN i Li) as (a & N & P & _). eauto.
      + intros IL. exfalso. destruct IL as [k v I1 U|i t c GI TY NPt|i q b c GI TY].
        * exact (UK k v I1 U).
        * assert (Li : i < length ps) by (destruct TY as (_ & name & t0 & v & N & _); apply nth_error_Some; congruence).
          destruct (FI i _ (GN i GI Li)) as (a & N & FD). cbn [filled] in FD. destruct FD as (t' & c' & k' & a2 & TY' & P & K1 & _).
          destruct (type_at_one i t c t' c' TY TY') as (<- & <-). exact (NPt k' K1 P).
        * destruct (FI i _ (GV i _ GI)) as (a & N & FD). cbn [FunModel.of_py filled] in FD. destruct FD as (t' & c' & TY' & NB & _).
          destruct (type_at_one i _ c t' c' TY TY') as (<- & _). exact (NB q b eq_refl).
      + intros UT'. exists (reported sig OtherError).
        destruct (args_taken takes cs l') eqn:TK; [|reflexivity]. exfalso. pose proof (proj1 (args_taken_nth l' cs) TK) as T.
        destruct UT' as [(i & id & c & GI & C & T')|(i & id & Li & A & T')].
        * destruct (FI i _ (GV i _ GI)) as (a & N & FD). cbn [FunModel.of_py filled] in FD. subst a. specialize (T i _ N). rewrite C in T. cbn [arg_taken] in T. congruence.
        * specialize (GX i Li). rewrite A in GX. cbn [option_map FunModel.of_py] in GX. destruct (FI i _ GX) as (a & N & FD). cbn [filled] in FD. subst a.
          specialize (T i _ N). assert (Lc : nth_error cs i = None) by (apply nth_error_None; lia). rewrite Lc in T. cbn [arg_taken] in T. congruence.
    - exists (Refused y), st'. split; [intros f Lf; rewrite E by exact Lf; reflexivity|]. split; [exact G|].
      intros NDf ND. destruct (arg_list h sig ps RD args kwargs NDf ND l K) as (LL & _ & UK & GV & GN & GA & GX).
      destruct O as (i & sl & N & FA & BE). cbn [Nat.add] in FA, BE. split; [|split; [|eauto]].
      + intros (_ & EXT & AP). exfalso. destruct (Nat.lt_ge_cases i (length ps)) as [Li|Li].
        * destruct FA as [(X & _)|[(_ & -> & t' & c' & TY' & NPt)|(_ & -> & q & n & c' & TY')]]; [lia| |].
          -- destruct (AP i Li) as (a0 & P). destruct P as [id c GI C T|t c GI TY PT|t c k a1 GI TY P K1 NCh A0 A1]; try (rewrite (GV i _ GI) in N; discriminate N).
             destruct (type_at_one i t c t' c' TY TY') as (<- & <-). exact (NPt k K1 P).
          -- destruct (AP i Li) as (a0 & P). destruct P as [id c GI C T|t c GI TY (q' & u & PT)|t c k a1 GI TY P K1 NCh A0 A1]; try (rewrite (GV i _ GI) in N; discriminate N).
             ++ destruct (type_at_one i t c _ c' TY TY') as (-> & _). destruct PT as [PT|PT]; discriminate PT.
             ++ rewrite (GN i GI Li) in N. discriminate N.
        * specialize (GX i Li). rewrite N in GX. destruct (nth_error args i) as [v|] eqn:A; [|discriminate GX]. destruct (EXT i v Li A) as (id & -> & _).
          cbn [option_map FunModel.of_py] in GX. injection GX as ->. destruct FA as [(_ & _ & [X|X])|[(_ & X & _)|(_ & X & _)]]; discriminate X.
      + intros IL. f_equal. destruct FA as [(Li & _)|[(-> & _)|(-> & _)]]; try reflexivity. exfalso.
        destruct IL as [k v I1 U|i0 t c GI TY NPt|i0 q b c GI TY].
        * exact (UK k v I1 U).
        * assert (Li0 : i0 < length ps) by (destruct TY as (_ & name & t0 & v & N0 & _); apply nth_error_Some; congruence).
          destruct (BE i0 _ ltac:(lia) (GN i0 GI Li0)) as (a & FD). cbn [filled] in FD. destruct FD as (t' & c' & k' & a2 & TY' & P & K1 & _).
          destruct (type_at_one i0 t c t' c' TY TY') as (<- & <-). exact (NPt k' K1 P).
        * assert (Li0 : i0 < length ps) by (destruct TY as (_ & name & t0 & v & N0 & _); apply nth_error_Some; congruence).
          destruct (BE i0 _ ltac:(lia) (GV i0 _ GI)) as (a & FD). cbn [FunModel.of_py filled] in FD. destruct FD as (t' & c' & TY' & NB & _).
          destruct (type_at_one i0 _ c t' c' TY TY') as (<- & _). exact (NB q b eq_refl).
  Qed.
End Fill.

(** ** Libraries *)
Section Library.
  Context (cf : tconf) (table : dict str tyval) (win : bool) (s : store entry) (D : bool -> str -> Prop)
    (prefix : list str) (exports : str -> bool) (takes : option pyt -> nat -> bool)
    (CL : closed cf table s D) (TA : tagged s) (EA : enum_tagged s) (UT : usual_table table) (NC : no_clash s prefix).
  Let b := open_with cf table win s prefix exports.
  Let good := good cf table win s D prefix exports.
  Let grows := grows cf table s D.
  Lemma good_ct st ct : good st -> LinkSpec.grown cf table s D (q_ct st) ct -> good (with_ct st ct).
  Proof.
    intros (A & B & C) G. split; [|split].
    - exact (grown_trans cf table s D _ _ _ A G).
    - intros k n o Q. destruct (B k n o Q) as (OW & O). split; [exact OW|]. exact (outcome_mono cf table s D exports (q_ct st) ct k n (Ok o) G O).
    - exact C.
  Qed.
  (** A call of what an access gives. *)
  Lemma invoked st a k n args kwargs : good st -> about cf table s D prefix a k n ->
    exists F o st', (forall f, F <= f -> invoke b f takes a args kwargs st = (o, st')) /\ good st' /\ grows st st'
      /\ forall ps r, k = Functions -> exports n = true -> signature cf table s D n ps r ->
         exists c cs st1, ObjSpec.gives (fun f => do_access b f a st) (Ok (VFunction n c cs), st1)
           /\ represents cf table s D (classes (q_ct st1)) r c /\ all_represented cf table s D (classes (q_ct st1)) (parameters ps) cs
           /\ ends_well cf s (parameters ps) cs takes args kwargs o.
  Proof.
    intros GD AB. destruct (about_ok cf table win s D prefix exports CL TA EA UT NC st a k n GD AB) as (F & x & st1 & E & GD1 & GR1 & OC & _).
    change (forall f, F <= f -> do_access b f a st = (x, st1)) in E.
    assert (ST : forall y, (forall f, F <= f -> invoke b f takes a args kwargs st = (Refused y, st1)) ->
       ((k = Functions -> exports n = true -> False) ->
       exists F o st', (forall f, F <= f -> invoke b f takes a args kwargs st = (o, st')) /\ good st' /\ grows st st'
      /\ forall ps r, k = Functions -> exports n = true -> signature cf table s D n ps r ->
         exists c cs st1, ObjSpec.gives (fun f => do_access b f a st) (Ok (VFunction n c cs), st1)
           /\ represents cf table s D (classes (q_ct st1)) r c /\ all_represented cf table s D (classes (q_ct st1)) (parameters ps) cs
           /\ ends_well cf s (parameters ps) cs takes args kwargs o)).
    { intros y IV NF. exists F, (Refused y), st1. split; [exact IV|]. split; [exact GD1|]. split; [exact GR1|]. intros ps r K X. destruct (NF K X). }
    destruct x as [o|y].
    2:{ apply (ST y); [intros f Lf; unfold invoke; rewrite E by exact Lf; reflexivity|]. destruct OC as (_ & NX & _). congruence. }
    destruct OC as (OB & EX). destruct o as [v|n' c cs|t|vs].
    - apply (ST OtherError); [intros f Lf; unfold invoke; rewrite E by exact Lf; reflexivity|]. intros -> _. destruct OB as (? & ? & ? & ? & _ & X & _). discriminate X.
    - assert (K : k = Functions).
      { destruct k; try reflexivity; cbn [is_object] in OB; try contradiction OB; repeat (match type of OB with ex _ => destruct OB as (? & OB) | _ /\ _ => destruct OB as (? & OB) end); try discriminate; destruct OB as (OB & _); discriminate OB. }
      subst k. destruct OB as (ps & r & c' & cs' & SG & X & R1 & R2). injection X as -> -> ->. rename c' into c. rename cs' into cs.
      destruct (sig_found cf table win s D CL UT n ps r _ cs SG R2) as (sig & GS & RD).
      pose proof (from_start cf table s D _ _ (proj1 GD1)) as SH.
      destruct (called cf table win s D CL TA UT sig (parameters ps) cs RD takes args kwargs (q_ct st1) SH R2) as (F2 & o & ct & E2 & G2 & EW).
      exists (Nat.max F F2), o, (with_ct st1 ct). split; [|split; [exact (good_ct st1 ct GD1 G2)|split]].
      + intros f Lf. unfold invoke. rewrite E by lia. change (l_functions (b_lib b)) with (l_functions (load cf table win s)). rewrite GS.
        change (l_env (b_lib b)) with (l_env (load cf table win s)). rewrite E2 by lia. reflexivity.
      + apply (grows_trans cf table s D st st1); [exact GR1|]. split; [exact G2|]. split; auto.
      + intros ps' r' _ _ (u' & q' & DF' & RF' & _). destruct SG as (u & q & DF & RF & _). rewrite DF in DF'. injection DF' as <-. rewrite RF in RF'. injection RF' as <- <- <-.
        exists c, cs, st1. split; [exists F; exact E|]. auto.
    - apply (ST OtherError); [intros f Lf; unfold invoke; rewrite E by exact Lf; reflexivity|]. intros -> _. destruct OB as (? & ? & ? & ? & _ & X & _). discriminate X.
    - apply (ST OtherError); [intros f Lf; unfold invoke; rewrite E by exact Lf; reflexivity|]. intros -> _. destruct OB as (? & ? & ? & ? & _ & X & _). discriminate X.
  Qed.
  Lemma uses_ok l : forall st, Forall (orderly_use cf table s D prefix) l -> good st ->
    exists st', ObjSpec.gives (fun f => uses b f takes l st) st' /\ good st'.
  Proof.
    induction l as [|u l IH]; intros st FO GD.
    - exists st. split; [exists 0; reflexivity|exact GD].
    - inversion FO as [|? ? OA OL]; subst.
      assert (X : exists F st1, (forall f, F <= f -> do_use b f takes u st = st1) /\ good st1).
      { destruct u as [a|a args kwargs]; cbn [orderly_use do_use] in *.
        - destruct (access_ok cf table win s D prefix exports CL TA EA UT NC a st OA GD) as (F & x & st1 & E & GD1 & _). exists F, st1. split; [|exact GD1].
          intros f Lf. unfold b. rewrite E by exact Lf. reflexivity.
        - destruct OA as (k & n & AB). destruct (invoked st a k n args kwargs GD AB) as (F & o & st1 & E & GD1 & _). exists F, st1. split; [|exact GD1].
          intros f Lf. rewrite E by exact Lf. reflexivity. }
      destruct X as (F1 & st1 & E1 & GD1). destruct (IH st1 OL GD1) as (st2 & (F2 & E2) & GD2). exists st2. split; [|exact GD2].
      exists (Nat.max F1 F2). intros f Lf. unfold uses. cbn [fold_left]. rewrite E1 by lia. apply E2. lia.
  Qed.
  Theorem function_calls a n args r : about cf table s D prefix a Functions n -> exports n = true -> signature cf table s D n args r ->
    callable cf table win s D prefix exports takes a n (parameters args) r.
  Proof.
    intros AB EX SG l FO. cbv zeta. change (open_with cf table win s prefix exports) with b.
    destruct (uses_ok l (opened b) FO (good_opened cf table win s D prefix exports)) as (st & E & GD). exists st.
    destruct (invoked st a Functions n [] [] GD AB) as (F0 & o0 & st0 & _ & _ & _ & H0). destruct (H0 args r eq_refl EX SG) as (c & cs & st1 & GA & R1 & R2 & _).
    exists c, cs, st1. split; [exact E|]. split; [exact GA|]. split; [exact R1|]. split; [exact R2|].
    intros NDf pos kw ND. destruct (invoked st a Functions n pos kw GD AB) as (F & o & st2 & E2 & _ & _ & H).
    destruct (H args r eq_refl EX SG) as (c' & cs' & st1' & (Fa & GA') & _ & _ & EW).
    destruct GA as (Fb & GA). specialize (GA (Nat.max Fa Fb) ltac:(lia)). specialize (GA' (Nat.max Fa Fb) ltac:(lia)). cbv beta in GA, GA'.
    assert (cs' = cs) as -> by congruence. specialize (EW NDf ND). destruct EW as (W1 & W2 & W3).
    assert (GV : forall o', o = o' -> ObjSpec.gives (fun f => fst (invoke b f takes a pos kw st)) o') by (intros o' <-; exists F; intros f Lf; cbv beta; rewrite E2 by exact Lf; reflexivity).
    split; [|split].
    - intros W. destruct (W1 W) as (l' & X & P). exists l'. split; [apply GV; exact X|exact P].
    - intros W. apply GV. exact (W2 W).
    - intros W. destruct (W3 W) as (x & X). exists x. apply GV. exact X.
  Qed.
End Library.
