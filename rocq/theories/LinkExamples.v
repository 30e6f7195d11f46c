(** Ways of checking the hypotheses of C82 to C84 for the examples of PropsLink. *)
From Coq Require Import Ascii String Bool Arith ZArith Lia List Permutation.
Import ListNotations.
From Verif Require Import PyBase PyBaseFacts PyStr PyStrFacts PyExpr TypeModel InitModel StoreModel StoreSpec DeclModel DeclSpec CtModel LinkModel LinkSpec LinkRun.
From Verif Require TypeSpec TypeProofs CtSpec CtWords.

Definition identb (w : str) : bool := match w with [] => false | c :: r => is_idstart c && forallb is_idchar r end && negb (eqb w $"signed").
Lemma identb_ok w : identb w = true -> TypeSpec.identifier w /\ w <> $"signed".
Proof.
  intros E. apply andb_true_iff in E. destruct E as [E N]. split.
  - destruct w as [|c r]; [discriminate|]. now apply andb_true_iff in E.
  - intros ->. discriminate N.
Qed.
Definition after (p w : str) : option str := if starts_with p w then Some (skipn (length p) w) else None.
Lemma after_ok p w n : after p w = Some n -> w = p ++ n.
Proof.
  unfold after. destruct (starts_with p w) eqn:E; [|discriminate]. intros X. injection X as <-. apply starts_with_iff in E. destruct E as (r & ->).
  rewrite skipn_app, skipn_all, Nat.sub_diag. reflexivity.
Qed.
Fixpoint cty_size (t : cty) : nat :=
  match t with
  | TBase _ _ => 1
  | TPtr _ t | TRef _ t | TArr _ _ t | TFun _ _ t | TConv _ t => S (cty_size t)
  end.
Section Check.
  Context (cf : tconf) (table : dict str tyval) (s : store entry) (dl : list (bool * str)) (cl : str -> option nat).
  Definition listed (u : bool) (n : str) : Prop := In (u, n) dl.
  Definition spelled (b : str) : option str :=
    match find (fun x => eqb (CtSpec.words_of (fst x)) b && mem (fst x) CtWords.all_in_order && negb (CtWords.excluded (fst x)))
            (flat_map (fun x => map (fun m => (m, snd x)) (fst x)) CtSpec.integer_types) with
    | Some (_, c) => Some c | None => None
    end.
  Definition comp_check (u : bool) (b : str) : option pyt :=
    match after (CtSpec.tag_of u) b with
    | Some n => if existsb (fun x => Bool.eqb (fst x) u && eqb (snd x) n) dl then option_map PClass (cl n) else None
    | None => None
    end.
  Definition base_check (b : str) : option pyt :=
    match comp_check false b, comp_check true b, after $"enum " b, spelled b, dget table b with
    | Some c, _, _, _, _ | _, Some c, _, _, _ => Some c
    | _, _, Some n, _, _ => if identb n then Some (PBase $"c_int") else None
    | _, _, _, Some c, _ => Some (PBase c)
    | _, _, _, _, Some v => if identb b then Some (of_tyval v) else None
    | _, _, _, _, _ => if eqb b $"long double" then Some (PBase $"c_longdouble") else if eqb b $"void" then Some PVoid else None
    end.
  Lemma comp_check_ok u b c : comp_check u b = Some c -> of_base table listed cl b c.
  Proof.
    unfold comp_check. destruct (after (CtSpec.tag_of u) b) as [n|] eqn:A; [|discriminate]. apply after_ok in A. subst b.
    destruct (existsb _ dl) eqn:E; [|discriminate]. apply existsb_exists in E. destruct E as ([u' n'] & I & E). cbn [fst snd] in E.
    apply andb_true_iff in E. destruct E as [E1 E2]. apply eqb_prop in E1. apply eqb_eq in E2. subst u' n'.
    destruct (cl n) as [i|] eqn:C; [|discriminate]. intros X. injection X as <-. now apply ob_comp.
  Qed.
  Lemma spelled_ok b c : spelled b = Some c -> of_base table listed cl b (PBase c).
  Proof.
    unfold spelled. destruct (find _ _) as [[ws c']|] eqn:F; [|discriminate]. intros X. injection X as ->. apply find_some in F. cbn [fst] in F. destruct F as [I E].
    apply andb_true_iff in E. destruct E as [E N]. apply andb_true_iff in E. destruct E as [E M]. apply eqb_eq in E. subst b.
    apply in_flat_map in I. destruct I as ([sets c0] & I1 & I2). cbn [fst snd] in I2. apply in_map_iff in I2. destruct I2 as (m & E & I2). injection E as -> ->.
    apply negb_true_iff in N. apply orb_false_iff in N. destruct N as [N1 N2]. apply ob_int.
    - unfold mem in M. apply existsb_exists in M. destruct M as (x & I & E). apply eqb_eq in E. subst x. unfold CtWords.all_in_order in I.
      apply in_flat_map in I. destruct I as (sg & Ia & I). apply in_flat_map in I. destruct I as (sz & Ib & I). apply in_map_iff in I. destruct I as (ba & <- & Ic).
      exists sg, sz, ba. auto.
    - exists sets, ws. auto.
    - intros ->. discriminate N1.
    - intros ->. discriminate N2.
  Qed.
  Lemma base_check_ok b c : base_check b = Some c -> of_base table listed cl b c.
  Proof.
    unfold base_check. destruct (comp_check false b) as [c1|] eqn:C1; [intros X; injection X as <-; exact (comp_check_ok _ _ _ C1)|].
    destruct (comp_check true b) as [c2|] eqn:C2; [intros X; injection X as <-; exact (comp_check_ok _ _ _ C2)|].
    destruct (after $"enum " b) as [n|] eqn:A.
    { destruct (identb n) eqn:I; [|discriminate]. intros X. injection X as <-. apply after_ok in A. subst b. apply identb_ok in I. now apply ob_enum. }
    destruct (spelled b) as [c3|] eqn:S; [intros X; injection X as <-; now apply spelled_ok|].
    assert (Y : (if eqb b $"long double" then Some (PBase $"c_longdouble") else if eqb b $"void" then Some PVoid else None) = Some c -> of_base table listed cl b c).
    { destruct (eqb_spec b $"long double") as [->|]; [intros X; injection X as <-; apply ob_double|].
      destruct (eqb_spec b $"void") as [->|]; [intros X; injection X as <-; apply ob_void|discriminate]. }
    destruct (dget table b) as [v|] eqn:G; [|exact Y]. destruct (identb b) eqn:I; [|discriminate]. intros X. injection X as <-. apply identb_ok in I. now apply ob_named.
  Qed.
  Fixpoint expand (fuel : nat) (t : cty) : option cty :=
    if is_fund cf (LinkSpec.base_name t) then Some t
    else match fuel, typedef_of s (LinkSpec.base_name t) with S f, Some b => expand f (put_base t b) | _, _ => None end.
  Lemma expand_ok fuel : forall t t', expand fuel t = Some t' -> expanded cf s t t'.
  Proof.
    induction fuel as [|f IH]; intros t t' E; cbn [expand] in E; destruct (is_fund cf (LinkSpec.base_name t)) eqn:F.
    - injection E as <-. apply ex_done. now apply TypeProofs.is_fund_iff.
    - discriminate.
    - injection E as <-. apply ex_done. now apply TypeProofs.is_fund_iff.
    - destruct (typedef_of s (LinkSpec.base_name t)) as [b|] eqn:T; [|discriminate]. apply (ex_step _ _ t b); [|exact T|now apply IH].
      rewrite <- TypeProofs.is_fund_iff. congruence.
  Qed.
  Definition special_check (t : cty) : option str := match t with TBase _ n => dget CtSpec.special_pointers n | _ => None end.
  Definition void (c : pyt) : bool := match c with PVoid => true | _ => false end.
  (** [rep] for types with their typedefs, [dir] for types without. *)
  Fixpoint dir_args (rec : cty -> option pyt) (l : list (option str * cty * option str)) : option (list pyt) :=
    match l with
    | [] => Some []
    | a :: r => match rec (snd (fst a)), dir_args rec r with
                | Some c, Some cs => if void c then None else Some (c :: cs) | _, _ => None end
    end.
  Fixpoint dir (rec : cty -> option pyt) (t : cty) : option pyt :=
    match t with
    | TBase _ n => base_check n
    | TPtr _ u =>
        match u with
        | TFun _ l u' =>
            match dir rec u', dir_args rec l with
            | Some c, Some cs => Some (PFun false c cs)
            | _, _ => None
            end
        | _ =>
            match special_check u with
            | Some p => Some (PBase p)
            | None => if is_function_pointer u then None else option_map CtSpec.pointer_to (dir rec u)
            end
        end
    | TRef _ u => option_map CtSpec.pointer_to (dir rec u)
    | TArr _ (ONum (VInt n)) u =>
        if (-1 <=? n)%Z && negb (is_array u) then
          match dir rec u with Some c => if void c then None else Some (CtSpec.arrays [n] c) | None => None end
        else None
    | _ => None
    end.
  Fixpoint rep (fuel : nat) (t : cty) : option pyt :=
    match fuel with
    | O => None
    | S f => match expand 20 t with Some t' => dir (rep f) t' | None => None end
    end.
  Lemma void_not c : void c = false -> c <> PVoid.
  Proof. now intros V ->. Qed.
  Lemma special_none t : special_check t = None -> forall p, ~ special t p.
  Proof.
    intros E p (q & n & -> & I). cbn [special_check] in E. unfold CtSpec.special_pointers in I. cbn [In] in I.
    destruct I as [X|[X|[X|[X|[]]]]]; injection X as <- <-; discriminate E.
  Qed.
  Lemma dir_args_ok rec l : (forall t c, rec t = Some c -> represents cf table s listed cl t c) ->
    forall cs, dir_args rec l = Some cs -> all_represented cf table s listed cl l cs.
  Proof.
    intros R. induction l as [|[[n t] v] l IH]; intros cs E; cbn [dir_args fst snd] in E; [injection E as <-; constructor|].
    destruct (rec t) as [c|] eqn:RT; [|discriminate]. destruct (dir_args rec l) as [cs'|]; [|discriminate].
    destruct (void c) eqn:V; [discriminate|]. injection E as <-. constructor; [now apply R|now apply void_not|now apply IH].
  Qed.
  Lemma dir_ok rec : (forall t c, rec t = Some c -> represents cf table s listed cl t c) ->
    forall k t, cty_size t <= k -> forall c, dir rec t = Some c -> direct cf table s listed cl t c.
  Proof.
    intros R. induction k as [|k IH]; intros t L c E; [destruct t; cbn [cty_size] in L; lia|].
    destruct t as [q n|q u|q u|q z u|q l u|x u]; cbn [cty_size] in L; cbn [dir] in E.
    - constructor. now apply base_check_ok.
    - assert (X : match special_check u with Some p => Some (PBase p) | None => if is_function_pointer u then None else option_map CtSpec.pointer_to (dir rec u) end = Some c ->
                  direct cf table s listed cl (TPtr q u) c).
      { destruct (special_check u) as [p|] eqn:SP.
        - intros Y. injection Y as <-. apply di_special. destruct u; try discriminate SP. eexists _, _. split; [reflexivity|]. now apply dget_In.
        - destruct (is_function_pointer u) eqn:FP; [discriminate|]. destruct (dir rec u) as [c'|] eqn:DG; [|discriminate]. intros Y. injection Y as <-.
          apply di_ptr; [now apply special_none|exact FP|apply (IH u); [lia|exact DG]]. }
      destruct u as [q2 n2|q2 u2|q2 u2|q2 z2 u2|q2 l u2|x2 u2]; try (exact (X E)). clear X.
      destruct (dir rec u2) as [c'|] eqn:DG; [|discriminate].
      destruct (dir_args rec l) as [cs|] eqn:FR; [|discriminate]. injection E as <-. cbn [cty_size] in L.
      apply di_fun; [apply (IH u2); [lia|exact DG]|now apply (dir_args_ok rec)].
    - destruct (dir rec u) as [c'|] eqn:DG; [|discriminate]. injection E as <-. apply di_ref. apply (IH u); [lia|exact DG].
    - destruct z as [|[n|b|a b]| | |]; try discriminate E. destruct ((-1 <=? n)%Z && negb (is_array u)) eqn:B; [|discriminate].
      apply andb_true_iff in B. destruct B as [B1 B2]. apply Z.leb_le in B1. apply negb_true_iff in B2.
      destruct (dir rec u) as [c'|] eqn:DG; [|discriminate]. destruct (void c') eqn:V; [discriminate|]. injection E as <-.
      apply di_arr; [exact B1|exact B2|apply (IH u); [lia|exact DG]|now apply void_not].
    - discriminate.
    - discriminate.
  Qed.
  Lemma rep_ok fuel : forall t c, rep fuel t = Some c -> represents cf table s listed cl t c.
  Proof.
    induction fuel as [|f IH]; intros t c E; [discriminate|]. cbn [rep] in E.
    destruct (expand 20 t) as [t'|] eqn:X; [|discriminate]. apply (re_type _ _ _ _ _ t t'); [exact (expand_ok _ _ _ X)|].
    exact (dir_ok (rep f) IH _ t' (le_n _) c E).
  Qed.
  Lemma rep_all_ok l cs : dir_args (rep 20) l = Some cs -> all_represented cf table s listed cl l cs.
  Proof. apply dir_args_ok. apply rep_ok. Qed.
  (** The structures and unions inside others as anonymous members; [dl] are those of [listed]. *)
  Context (il : list (bool * str)).
  Definition inner_of (m : member) : option (bool * str) :=
    match m_name m, read_type (m_type m) with
    | None, Some (TBase _ b) =>
        match after $"struct " b with
        | Some x => Some (false, x)
        | None => match after $"union " b with Some x => Some (true, x) | None => None end
        end
    | _, _ => None
    end.
  Lemma inner_some m v x : inner_of m = Some (v, x) -> unnamed v x m.
  Proof.
    unfold inner_of, unnamed. destruct (m_name m); [discriminate|]. destruct (read_type (m_type m)) as [[q b| | | | |]|]; try discriminate.
    destruct (after $"struct " b) as [y|] eqn:A.
    - intros E. injection E as <- <-. split; [reflexivity|]. exists q. apply after_ok in A. now subst b.
    - destruct (after $"union " b) as [y|] eqn:B; [|discriminate]. intros E. injection E as <- <-. split; [reflexivity|]. exists q. apply after_ok in B. now subst b.
  Qed.
  Lemma inner_is m v x : unnamed v x m -> inner_of m = Some (v, x).
  Proof.
    unfold inner_of, unnamed. intros (-> & q & ->). destruct v; reflexivity.
  Qed.
  Definition member_check (m : member) : bool :=
    match m_val m, m_bit m with
    | ONone, None =>
        match m_name m, read_type (m_type m) with
        | Some _, Some t => match rep 20 t with Some _ => true | None => false end
        | None, _ => match inner_of m with Some x => existsb (fun y => Bool.eqb (fst y) (fst x) && eqb (snd y) (snd x)) il | None => false end
        | _, _ => false
        end
    | _, _ => false
    end.
  Lemma member_check_ok m : member_check m = true -> usual_member cf table s listed m /\ forall v x, unnamed v x m -> In (v, x) il.
  Proof.
    unfold member_check, usual_member. destruct (m_val m); try discriminate. destruct (m_bit m); [discriminate|].
    destruct (m_name m) as [y|] eqn:N.
    - destruct (read_type (m_type m)) as [t|] eqn:T; [|discriminate]. destruct (rep 20 t) as [c|] eqn:R; [|discriminate]. intros _.
      split; [|intros v x (U & _); congruence]. split; [reflexivity|]. split; [reflexivity|]. left. exists y. split; [reflexivity|]. exists t. split; [reflexivity|]. exists cl, c. now apply rep_ok in R.
    - destruct (inner_of m) as [[v y]|] eqn:I; [|discriminate]. intros X. apply existsb_exists in X. destruct X as ([w z] & Iz & E). cbn [fst snd] in E.
      apply andb_true_iff in E. destruct E as [E1 E2]. apply Bool.eqb_prop in E1. apply eqb_eq in E2. subst w z. split.
      + split; [reflexivity|]. split; [reflexivity|]. right. exists v, y. now apply inner_some.
      + intros v' x U. apply inner_is in U. assert (v' = v /\ x = y) by (split; congruence). destruct H as [-> ->]. exact Iz.
  Qed.
  Definition members_of (x : bool * str) : list member :=
    match defined s (comp_table (fst x)) (snd x) with Some (EComp ms _) => ms | _ => [] end.
  Definition apart_check (ms : list member) : bool :=
    forallb (fun m => match m_name m with Some _ => true | None => false end) ms
    || forallb (fun m => match m_name m with Some x => negb (starts_with $"anon_member" x) | None => true end) ms.
  Lemma apart_ok ms : apart_check ms = true -> names_apart ms.
  Proof.
    unfold apart_check. intros X (m0 & I0 & N0) m x I N (k & E). apply orb_true_iff in X. destruct X as [X|X]; rewrite forallb_forall in X.
    - specialize (X m0 I0). rewrite N0 in X. discriminate.
    - specialize (X m I). rewrite N in X. apply negb_true_iff in X. rewrite E, starts_with_app in X. discriminate.
  Qed.
  (** All anonymous members, with what they are inside. *)
  Definition parts : list (str * str) :=
    flat_map (fun n => flat_map (fun m => match inner_of m with Some x => [(snd x, snd n)] | None => [] end) (members_of n)) (dl ++ il).
  Definition part_check (x : str * str) : bool :=
    negb (existsb (fun y => eqb (snd y) (fst x)) dl) && forallb (fun y => negb (eqb (fst y) (fst x)) || eqb (snd y) (snd x)) parts.
  Definition comp_ok (x : bool * str) : bool :=
    identb (snd x) && match defined s (comp_table (fst x)) (snd x) with Some (EComp ms _) => forallb member_check ms && apart_check ms | _ => false end
    && negb (existsb (fun y => eqb (snd y) (snd x) && negb (Bool.eqb (fst y) (fst x))) (dl ++ il)).
  Lemma closed_check : forallb comp_ok (dl ++ il) && forallb part_check parts = true -> closed cf table s listed.
  Proof.
    intros F. apply andb_true_iff in F. destruct F as [F FP]. rewrite forallb_forall in F. rewrite forallb_forall in FP.
    assert (KN : forall u n, In (u, n) (dl ++ il) -> TypeSpec.identifier n /\ n <> $"signed" /\ exists ms p, defined s (comp_table u) n = Some (EComp ms p)
      /\ members_of (u, n) = ms /\ forallb member_check ms = true /\ names_apart ms).
    { intros u n I. specialize (F _ I). unfold comp_ok in F. cbn [fst snd] in F. apply andb_true_iff in F. destruct F as [F _]. apply andb_true_iff in F. destruct F as [F1 F2].
      apply identb_ok in F1. split; [apply F1|]. split; [apply F1|]. unfold members_of. cbn [fst snd]. destruct (defined s (comp_table u) n) as [[| | | | | | |]|]; try discriminate F2.
      apply andb_true_iff in F2. destruct F2 as [F2 F3]. eexists _, _. split; [reflexivity|]. split; [reflexivity|]. split; [exact F2|now apply apart_ok]. }
    assert (ALL : forall u n, needed s listed u n -> In (u, n) (dl ++ il)).
    { induction 1 as [u n I|u n ms p m v x _ IH DF Im U]; [apply in_or_app; now left|]. destruct (KN u n IH) as (_ & _ & ms' & p' & DF' & _ & MC & _).
      rewrite DF in DF'. injection DF' as <- <-. rewrite forallb_forall in MC. apply in_or_app. right. exact (proj2 (member_check_ok m (MC m Im)) v x U). }
    assert (PA : forall x n, part_of s listed x n -> In (x, n) parts).
    { intros x n (v & u & ms & p & m & ND & DF & Im & U). unfold parts. apply in_flat_map. exists (u, n). split; [now apply ALL|]. apply in_flat_map.
      exists m. unfold members_of. cbn [fst snd]. rewrite DF. split; [exact Im|]. rewrite (inner_is _ _ _ U). now left. }
    split; [|split].
    - intros u n I. apply ALL in I. destruct (KN u n I) as (A & B & ms & p & DF & _ & MC & NA). split; [exact A|]. split; [exact B|]. exists ms, p. split; [exact DF|].
      split; [|exact NA]. apply Forall_forall. intros m Im. rewrite forallb_forall in MC. exact (proj1 (member_check_ok m (MC m Im))).
    - intros n I1 I2. apply ALL in I1. apply ALL in I2. specialize (F _ I1). unfold comp_ok in F. apply andb_true_iff in F. destruct F as [_ F]. apply negb_true_iff in F.
      assert (X : existsb (fun y => eqb (snd y) n && negb (Bool.eqb (fst y) false)) (dl ++ il) = true).
      { apply existsb_exists. exists (true, n). split; [exact I2|]. cbn [fst snd]. now rewrite eqb_refl. }
      cbn [fst snd] in F. rewrite X in F. discriminate F.
    - intros x n P. apply PA in P. specialize (FP _ P). unfold part_check in FP. cbn [fst snd] in FP. apply andb_true_iff in FP. destruct FP as [F1 F2]. split.
      + intros v I. apply negb_true_iff in F1. assert (Y : existsb (fun y => eqb (snd y) x) dl = true) by (apply existsb_exists; exists (v, x); split; [exact I|apply eqb_refl]).
        rewrite Y in F1. discriminate.
      + intros n' P'. apply PA in P'. rewrite forallb_forall in F2. specialize (F2 _ P'). cbn [fst snd] in F2. rewrite eqb_refl in F2. cbn [negb orb] in F2. now apply eqb_eq in F2.
  Qed.
End Check.
(** Every entry of the tables of structures and unions has its tag. *)
Definition tagged_check (s : store entry) : bool :=
  forallb (fun u => forallb (fun n => match defined s Types (CtSpec.tag_of u ++ n) with
                                      | Some (EType (CT (SName k) [DStr x] [Some []; Some []])) => eqb k (keyword u) && eqb x n
                                      | _ => false end) (keys (defs s (comp_table u)))) [false; true].
Lemma tagged_check_ok s : tagged_check s = true -> tagged s.
Proof.
  intros F u n ms p D. unfold tagged_check in F. rewrite forallb_forall in F. specialize (F u ltac:(destruct u; cbn; auto)). cbn beta in F.
  rewrite forallb_forall in F. specialize (F n). unfold defined in D.
  assert (I : In n (keys (defs s (comp_table u)))) by (apply dget_keys; eauto). specialize (F I).
  destruct (defined s Types (CtSpec.tag_of u ++ n)) as [[[[k|] [|[x| |] [|? ?]] [|[[|? ?]|] [|[[|? ?]|] [|? ?]]]]| | | | | | |]|]; try discriminate F.
  apply andb_true_iff in F. destruct F as [F1 F2]. apply eqb_eq in F1. apply eqb_eq in F2. now subst.
Qed.
