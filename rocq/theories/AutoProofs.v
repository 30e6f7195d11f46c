(** Proofs for C86. *)
From Coq Require Import Ascii String Bool Arith ZArith Lia List.
Import ListNotations.
From Verif Require Import PyBase PyBaseFacts PyStr PyStrFacts PyExpr TypeModel InitModel StoreModel StoreSpec DeclModel DeclSpec CtModel LinkModel LinkSpec LinkProofs LinkRead LinkRun LinkMain LinkCall AutoSpec.
From Verif Require WordFacts TypeSpec TypeProofs CtSpec CtProofs CtOne CtFinish CtWords RunSpec.

(** The base of a type, without its modifiers. *)
Lemma base_alone e f t s ds q st : eval_type (e_conf e) (e_types e) t = Ok (CT (SName s) ds q) ->
  get_type e (S f) false t st = run e (get_type e f true) s [] st.
Proof.
  intros E. cbn [get_type]. unfold mbind at 1, lift. rewrite E. unfold run, base_type. cbn [andb starts_ptr].
  destruct (dget (e_table e) s); [reflexivity|].
  destruct (starts_with $"struct " s).
  { unfold mbind, lift. destruct (tag_entry e s) as [s0|]; [|reflexivity]. destruct (get_struct_with e (get_type e f true) false s0 st) as [[i|] st1]; reflexivity. }
  destruct (starts_with $"union " s).
  { unfold mbind, lift. destruct (tag_entry e s) as [s0|]; [|reflexivity]. destruct (get_struct_with e (get_type e f true) true s0 st) as [[i|] st1]; reflexivity. }
  destruct (starts_with $"enum " s); [reflexivity|]. destruct (eqb s $"void"); reflexivity.
Qed.

Definition hashable (d : rdecl) : bool := match d with DStr _ => true | DArr _ => false | DFun [] => true | DFun _ => false end.
Definition star (d : rdecl) : bool := match d with DStr s => eqb s $"*" | _ => false end.
Definition special_of (c : pyt) : option str :=
  match c with
  | PVoid => Some $"c_void_p"
  | PBase n => if eqb n $"c_char" then Some $"c_char_p" else if eqb n $"c_wchar" then Some $"c_wchar_p" else None
  | _ => None
  end.
Lemma get_pointer_eq e f r t : get_pointer e f r t =
  if (1 <=? length (t_decls r)) && (length (t_decls r) <=? 2) then
    if forallb hashable (t_decls r) then
      if forallb star (t_decls r) then
        c <-- get_type e f false t ;;
        match special_of c with
        | Some p => ret (Nat.iter (length (t_decls r) - 2) ptr (PBase p))
        | None => ret (Nat.iter (length (t_decls r) - 1) ptr c)
        end
      else fail AssertionError
    else fail TypeError
  else fail AssertionError.
Proof. reflexivity. Qed.

(** Modifiers and pointers. *)
Lemma pointers_decls h k : forall t, pointers k t -> forall ds qs q n, build (map (filld h) ds) qs (TBase q n) = Some t ->
  ds = repeat (DStr $"*") k.
Proof.
  induction 1 as [q0 n0|k q0 t P IH]; intros ds qs q n B.
  - destruct (build_last _ _ _ _ _ _ B) as [(-> & _)|(ds' & d & qs' & q2 & t2 & _ & _ & _ & W)]; [reflexivity|]. now apply wrapd_not_base in W.
  - destruct (build_last _ _ _ _ _ _ B) as [(_ & _ & E)|(ds' & d & qs' & q2 & t2 & -> & -> & B1 & W)]; [discriminate|].
    apply wrapd_ptr in W. destruct W as [-> ->]. rewrite (IH _ _ _ _ B1). clear. induction k; [reflexivity|]. cbn [repeat app]. now rewrite IHk.
Qed.
Lemma decls_pointers h k : forall ds t qs q n, length ds = k -> forallb star ds = true -> build (map (filld h) ds) qs (TBase q n) = Some t -> noconv t = true ->
  pointers k t.
Proof.
  induction k as [|k IH]; intros ds t qs q n L S B N.
  - destruct ds; [|discriminate]. destruct qs; [|discriminate]. cbn in B. injection B as <-. constructor.
  - destruct (build_last _ _ _ _ _ _ B) as [(-> & _)|(ds' & d & qs' & q2 & t2 & -> & -> & B1 & W)]; [discriminate|].
    rewrite app_length in L. cbn [length] in L. rewrite forallb_app in S. apply andb_true_iff in S. destruct S as [S1 S2]. cbn [forallb] in S2. rewrite andb_true_r in S2.
    destruct d as [x| |]; try discriminate S2. cbn [star] in S2. destruct (wrapd_noconv _ _ _ _ W N) as [N' Q]. cbn [filld wrapd] in W. destruct q2 as [q2|]; [|now destruct Q].
    rewrite S2 in W. injection W as <-. apply ps_more. eapply IH; [|exact S1|exact B1|exact N']. lia.
Qed.
Lemma pointer_to_ptr c : CtSpec.pointer_to c = ptr c. Proof. destruct c; reflexivity. Qed.

Section Auto.
  Context (cf : tconf) (table : dict str tyval) (s : store entry) (D : bool -> str -> Prop)
    (e : cenv) (h : heap) (LK : linked s e h) (EC : e_conf e = cf) (ET : e_table e = table)
    (CL : closed cf table s D) (TA : tagged s) (UT : usual_table table).
  Lemma base_again st b c : of_base table D (classes st) b c -> ready h st ->
    gets (fun f => run e (get_type e f true) (canon b) []) st (fun c' st' => c' = c /\ grown cf table s D st st').
  Proof.
    intros O SH. eapply gets_impl; [|exact (base_ok cf table s D e h LK ET CL TA UT _ st _ b c (proj1 (all_ok cf table s D e h LK EC ET CL TA UT _)) (ready_ok s D h st SH) (le_n _) O)].
    cbv beta. intros c' st' (O' & G & _). split; [|exact G].
    assert (M : of_base table D (classes st') b c).
    { clear O'. destruct O; econstructor; eauto. now apply (proj1 (proj2 G)). }
    apply (of_base_value table D (ident_D cf table s D CL) UT) in O'. apply (of_base_value table D (ident_D cf table s D CL) UT) in M. congruence.
  Qed.
  (** The base of a special pointer. *)
  Lemma special_base cl b p : In (b, p) CtSpec.special_pointers -> exists c, of_base table D cl b c /\ special_of c = Some p.
  Proof.
    destruct UT as (U1 & _). intros I.
    assert (W : forall w x, TypeSpec.identifier w -> w <> $"signed" -> dget std_types w = Some (TyC x) -> of_base table D cl w (PBase x)).
    { intros w x ID NS G. exact (ob_named table D cl w (TyC x) ID NS (U1 _ _ G)). }
    unfold CtSpec.special_pointers in I. cbn [In] in I.
    destruct I as [E|[E|[E|[E|[]]]]]; injection E as <- <-; [exists (PBase $"c_char")|exists (PBase $"c_wchar")|exists (PBase $"c_wchar")|exists PVoid]; (split; [|reflexivity]);
      try (apply W; [split; vm_compute; reflexivity|discriminate|vm_compute; reflexivity]).
    apply ob_void.
  Qed.

  Context (sig : rty) (i : nat) (p : option str * rty * option str) (t t' : cty) (c : pyt) (st : cst)
    (NP : nth_error (sig_params sig) i = Some p) (RT : read_type (fill h (snd (fst p))) = Some t)
    (EX : expanded cf s t t') (DI : direct cf table s D (classes st) t' c) (SH : ready h st).
  Lemma resolved : exists b ds q qs, eval_type (e_conf e) (e_types e) (snd (fst p)) = Ok (CT (SName (canon b)) ds (Some q :: qs))
    /\ build (map (filld h) ds) qs (TBase q b) = Some t'.
  Proof.
    destruct (direct_flat _ _ _ _ _ _ _ DI) as [F N]. destruct (flat_expanded _ _ _ _ EX F N) as [F0 _].
    destruct (read_shape _ _ RT F0) as (n & ds & q & qs & E & B). destruct (snd (fst p)) as [[m|u] ds0 qs0]; rewrite fill_eq in E; [|discriminate].
    injection E as -> Ed ->. subst ds. rewrite <- EC in EX. exact (eval_expanded s e h LK t t' n ds0 q qs EX F N B).
  Qed.
  Lemma no_assertion_ok {A} (m : nat -> M A) Q : gets m st Q -> gets (fun f => no_assertion (m f)) st Q.
  Proof.
    intros (F & x & st' & E & X). exists F, x, st'. split; [|exact X]. intros f L. unfold no_assertion. now rewrite (E f L).
  Qed.
  Lemma auto_some k : pointers k t' -> 1 <= k -> k <= 2 ->
    gets (fun f => auto_arg e f sig i) st
      (fun a st' => (~ characters c -> a = c \/ c = PBase $"c_void_p" /\ a = PPtr c) /\ grown cf table s D st st').
  Proof.
    intros P K1 K2. destruct resolved as (b & ds & q & qs & EV & B).
    pose proof (pointers_decls h k t' P ds qs q b B) as ->. 
    unfold auto_arg. rewrite NP. apply no_assertion_ok. unfold lift. rewrite EV.
    assert (X : exists c0, of_base table D (classes st) b c0
       /\ let a := PPtr match special_of c0 with Some p => Nat.iter (k - 2) ptr (PBase p) | None => Nat.iter (k - 1) ptr c0 end in
          ~ characters c -> a = c \/ c = PBase $"c_void_p" /\ a = PPtr c).
    { destruct P as [|k q1 t1 P]; [lia|].
      destruct P as [q2 n|k q2 t2 P].
      - cbn [repeat map] in B. destruct qs as [|q3 [|q4 qs]]; cbn [build] in B; try discriminate B; [|destruct (wrapd _ _ _); discriminate B].
        destruct (wrapd _ _ _) as [u|] eqn:W; [|discriminate]. injection B as ->. apply wrapd_ptr in W. destruct W as [_ E]. injection E as -> ->.
        apply direct_inv in DI. destruct DI as [(p' & (q' & n' & E & I) & ->)|[(NS & _ & c' & DB & ->)|(? & ? & ? & ? & ? & E & _)]]; [| |discriminate E].
        + injection E as <- <-. destruct (special_base (classes st) n p' I) as (c0 & O & SP). exists c0. split; [exact O|]. rewrite SP. cbv zeta. intros NCh. cbn [Nat.sub Nat.iter].
          unfold CtSpec.special_pointers in I. cbn [In] in I.
          destruct I as [E|[E|[E|[E|[]]]]]; injection E as _ <-; try (exfalso; apply NCh; unfold characters; auto; fail). right. auto.
        + apply direct_inv in DB. exists c'. split; [exact DB|]. cbv zeta. intros NCh. destruct (special_of c') as [p'|] eqn:SP.
          * destruct c' as [|n'| | | | |]; try discriminate SP.
            -- cbn in SP. injection SP as <-. right. split; reflexivity.
            -- exfalso. apply NCh. unfold characters. cbn [CtSpec.pointer_to innermost]. cbn [special_of] in SP.
               destruct (eqb_spec n' $"c_char") as [->|]; [auto|]. destruct (eqb_spec n' $"c_wchar") as [->|]; [auto|discriminate].
          * left. cbn [Nat.sub Nat.iter]. destruct c'; try reflexivity. discriminate SP.
      - destruct P as [q3 n|]; [|lia].
        cbn [repeat map] in B. destruct qs as [|q4 [|q5 [|q6 qs]]]; cbn [build] in B; try discriminate B.
        { destruct (wrapd _ _ _); discriminate B. }
        2: { destruct (wrapd _ _ _); [|discriminate B]. destruct (wrapd _ _ _); discriminate B. }
        destruct (wrapd (filld h (DStr $"*")) q4 (TBase q b)) as [u|] eqn:W; [|discriminate B].
        destruct (wrapd _ q5 _) as [u2|] eqn:W2; [|discriminate B]. injection B as ->.
        apply wrapd_ptr in W2. destruct W2 as [_ ->]. apply wrapd_ptr in W. destruct W as [_ E]. injection E as -> ->.
        apply direct_inv in DI. destruct DI as [(p' & (q' & n' & E & I) & ->)|[(NS & _ & c' & DB & ->)|(? & ? & ? & ? & ? & E & _)]]; [discriminate E| |discriminate E].
        apply direct_inv in DB. destruct DB as [(p' & (q' & n' & E & I) & ->)|[(NS2 & _ & c2 & DB & ->)|(? & ? & ? & ? & ? & E & _)]]; [| |discriminate E].
        + injection E as <- <-. destruct (special_base (classes st) n p' I) as (c0 & O & SP). exists c0. split; [exact O|]. rewrite SP. cbv zeta. intros NCh. cbn [Nat.sub Nat.iter]. left. reflexivity.
        + apply direct_inv in DB. exists c2. split; [exact DB|]. cbv zeta. intros NCh. destruct (special_of c2) as [p'|] eqn:SP.
          * destruct c2 as [|n'| | | | |]; try discriminate SP.
            -- cbn in SP. injection SP as <-. left. reflexivity.
            -- exfalso. apply NCh. unfold characters. cbn [CtSpec.pointer_to innermost]. cbn [special_of] in SP.
               destruct (eqb_spec n' $"c_char") as [->|]; [auto|]. destruct (eqb_spec n' $"c_wchar") as [->|]; [auto|discriminate].
          * left. cbn [Nat.sub Nat.iter]. destruct c2; try reflexivity. }
    destruct X as (c0 & O & X).
    assert (RL : length (repeat (@DStr nat $"*") k) = k) by apply repeat_length.
    assert (HS : forallb hashable (repeat (DStr $"*") k) = true) by (clear; induction k; cbn; auto).
    assert (SS : forallb star (repeat (DStr $"*") k) = true) by (clear; induction k; cbn [repeat forallb star]; rewrite ?eqb_refl; auto).
    apply gets_shift.
    apply gets_ext with (m := fun f => mbind (run e (get_type e f true) (canon b) []) (fun c1 =>
      ret (PPtr match special_of c1 with Some p => Nat.iter (k - 2) ptr (PBase p) | None => Nat.iter (k - 1) ptr c1 end))).
    - intros f. unfold mbind at 1. rewrite get_pointer_eq. cbn [t_decls]. rewrite RL, HS, SS.
      replace ((1 <=? k) && (k <=? 2)) with true by (symmetry; apply andb_true_iff; split; apply Nat.leb_le; assumption).
      unfold mbind. rewrite (base_alone e f _ _ _ _ st EV). destruct (run e (get_type e f true) (canon b) [] st) as [[c1|z] st1]; [|reflexivity].
      destruct (special_of c1); reflexivity.
    - eapply gets_bind; [exact (base_again st b c0 O SH)|]. cbv beta. intros c1 st1 (-> & G). apply gets_ret. split; [exact X|exact G].
  Qed.
  Lemma auto_made k : pointers k t' -> 1 <= k -> k <= 2 -> ~ characters c ->
    gets (fun f => auto_arg e f sig i) st
      (fun a st' => (a = c \/ c = PBase $"c_void_p" /\ a = PPtr c) /\ grown cf table s D st st').
  Proof.
    intros P K1 K2 NC. eapply gets_impl; [|exact (auto_some k P K1 K2)]. cbv beta. intros a st' (A & G). auto.
  Qed.
  (** Everything else is refused. *)
  Lemma auto_refused : (forall k, 1 <= k -> k <= 2 -> ~ pointers k t') -> forall f, auto_arg e f sig i st = (Err TypeError, st).
  Proof.
    intros NPt f. destruct resolved as (b & ds & q & qs & EV & B). unfold auto_arg, no_assertion. rewrite NP. unfold mbind, lift. rewrite EV, get_pointer_eq. cbn [t_decls].
    destruct ((1 <=? length ds) && (length ds <=? 2)) eqn:L; [|reflexivity]. destruct (forallb hashable ds); [|reflexivity].
    destruct (forallb star ds) eqn:S; [|reflexivity]. exfalso. apply andb_true_iff in L. destruct L as [L1 L2]. apply Nat.leb_le in L1, L2.
    apply (NPt (length ds) L1 L2). eapply decls_pointers; [reflexivity|exact S|exact B|exact (proj2 (direct_flat _ _ _ _ _ _ _ DI))].
  Qed.
  Lemma null_some : (forall q n, t' <> TBase q n) -> gets (fun f => null_arg e f sig i) st (fun a st' => a = c /\ grown cf table s D st st').
  Proof.
    intros NB. destruct resolved as (b & ds & q & qs & EV & B).
    assert (R : representable cf table s D t) by (exists (classes st), c; econstructor; eassumption).
    unfold null_arg. rewrite NP. apply no_assertion_ok. unfold lift. rewrite EV.
    assert (ND : exists d ds', ds = d :: ds').
    { destruct ds as [|d ds]; [|eauto]. destruct qs; [|discriminate]. cbn in B. injection B as E. exfalso. exact (NB _ _ (eq_sym E)). }
    destruct ND as (d & ds' & ->).
    apply gets_ext with (m := fun f => get_type e f true (snd (fst p))); [reflexivity|].
    eapply gets_impl; [|exact (type_ok cf table s D e h LK EC ET CL TA UT t _ st R RT SH)]. cbv beta. intros a st' (R' & G).
    assert (Ea : a = c).
    { eapply type_unique; [exact CL|exact UT|exact R'|]. eapply (represents_mono cf table s D (classes st) (classes st')); [exact (grown_classes cf table s D _ _ G)|].
      econstructor; eassumption. }
    split; [exact Ea|exact G].
  Qed.
  Lemma null_made : (exists q u, t' = TPtr q u \/ t' = TRef q u) ->
    gets (fun f => null_arg e f sig i) st (fun a st' => a = c /\ null_when_new c /\ grown cf table s D st st').
  Proof.
    intros (q0 & u & E). eapply gets_impl; [|apply null_some; intros q n E'; destruct E as [E|E]; congruence]. cbv beta. intros a st' (Ea & G).
    split; [exact Ea|]. split; [|exact G].
    assert (PN : forall x, null_when_new (CtSpec.pointer_to x)) by (intros []; cbn; auto).
    destruct E as [->| ->]; apply direct_inv in DI.
    - destruct DI as [(p' & (q' & n' & _ & I) & ->)|[(NS & _ & c' & DB & ->)|(? & ? & ? & ? & ? & _ & _ & _ & ->)]]; [|apply PN|exact Logic.I].
      unfold CtSpec.special_pointers in I. cbn [In] in I. destruct I as [E|[E|[E|[E|[]]]]]; injection E as _ <-; cbn; auto.
    - destruct DI as (c' & _ & ->). apply PN.
  Qed.
  Lemma null_refused q n : t' = TBase q n -> forall f, null_arg e f sig i st = (Err TypeError, st).
  Proof.
    intros E f. destruct resolved as (b & ds & q1 & qs & EV & B). rewrite E in B. unfold null_arg, no_assertion. rewrite NP. unfold mbind, lift. rewrite EV. cbn [t_decls].
    destruct (build_last _ _ _ _ _ _ B) as [(-> & _)|(ds' & d & qs' & q2 & t2 & _ & _ & _ & W)]; [reflexivity|]. now apply wrapd_not_base in W.
  Qed.
End Auto.

Lemma pointers_cases t : (exists k, 1 <= k <= 2 /\ pointers k t) \/ (forall k, 1 <= k <= 2 -> ~ pointers k t).
Proof.
  assert (Z : forall t, (exists q n, t = TBase q n) \/ forall k, pointers k t -> exists q u j, t = TPtr q u /\ k = S j /\ pointers j u).
  { intros u. destruct u; [left; eauto|..]; right; intros k P; inversion P; subst; eauto 6. }
  destruct (Z t) as [(q & n & ->)|H1].
  - right. intros k K P. inversion P. lia.
  - destruct t as [q n|q u| | | |]; try (right; intros k K P; destruct (H1 k P) as (? & ? & ? & X & _); discriminate X).
    destruct (Z u) as [(q1 & n & ->)|H2].
    + left. exists 1. split; [lia|]. repeat constructor.
    + destruct u as [q1 n|q1 u| | | |]; try (right; intros k K P; destruct (H1 k P) as (? & ? & j & X & _ & P'); injection X as <- <-; destruct (H2 j P') as (? & ? & ? & Y & _); discriminate Y).
      destruct (Z u) as [(q2 & n & ->)|H3].
      * left. exists 2. split; [lia|]. repeat constructor.
      * right. intros k K P. destruct (H1 k P) as (? & ? & j & X & -> & P'). injection X as <- <-. destruct (H2 j P') as (? & ? & j' & Y & -> & P2). injection Y as <- <-.
           destruct (H3 j' P2) as (? & ? & ? & _ & -> & _). lia.
Qed.

(** ** Libraries *)
Lemma read_args_nth f args : forall l i (n : option str) (t : cty) (v : option str), read_args f args = Some l -> nth_error l i = Some (n, t, v) ->
  exists t0, nth_error args i = Some (n, t0, v) /\ f t0 = Some t.
Proof.
  induction args as [|[[an at_] av] args IH]; intros l i n t v R N; cbn [read_args] in R.
  - injection R as <-. destruct i; discriminate.
  - destruct (f at_) as [u|] eqn:E; [|discriminate]. destruct (read_args f args) as [l'|]; [|discriminate]. injection R as <-.
    destruct i as [|i]; [|exact (IH l' i n t v eq_refl N)]. cbn [nth_error] in N. injection N as -> -> ->. exists at_. auto.
Qed.
Lemma nth_map_inv {A B} (f : A -> B) l : forall i y, nth_error (map f l) i = Some y -> exists x, nth_error l i = Some x /\ y = f x.
Proof.
  induction l as [|x l IH]; intros [|i] y N; try discriminate; [|exact (IH i y N)]. cbn in N. injection N as <-. exists x. auto.
Qed.
Lemma represented_nth cf table s D cl l cs : all_represented cf table s D cl l cs -> forall i n t v c, nth_error l i = Some (n, t, v) -> nth_error cs i = Some c ->
  represents cf table s D cl t c.
Proof.
  induction 1 as [|n t v l c cs R NV A IH]; intros [|i] n' t' v' c' N C; try discriminate; [|exact (IH i n' t' v' c' N C)].
  cbn in N, C. injection N as _ -> _. injection C as ->. exact R.
Qed.
Lemma represents_direct cf table s D cl t t' c : represents cf table s D cl t c -> expanded cf s t t' -> direct cf table s D cl t' c.
Proof. intros R EX. inversion R as [t1 t2 c2 X2 D2]; subst. now rewrite (expanded_one _ _ _ _ _ EX X2). Qed.
Section Library.
  Context (cf : tconf) (table : dict str tyval) (win : bool) (s : store entry) (D : bool -> str -> Prop)
    (CL : closed cf table s D) (TA : tagged s) (UT : usual_table table).
  Let L := load cf table win s.
  Lemma left_out n u q args r st cs : defined s Functions n = Some (EFun u) -> RunSpec.read_function u = Some (TFun q args r) ->
    all_represented cf table s D (classes st) (parameters args) cs -> ready (l_heap L) st ->
    exists sig, dget (l_functions L) n = Some sig
      /\ forall i name t v t' c, nth_error (parameters args) i = Some (name, t, v) -> nth_error cs i = Some c -> expanded cf s t t' ->
         (forall k, pointers k t' -> 1 <= k <= 2 -> ~ characters c ->
            exists fuel a st', (forall f, fuel <= f -> auto_arg (l_env L) f sig i st = (Ok a, st'))
              /\ (a = c \/ c = PBase $"c_void_p" /\ a = PPtr c) /\ grown cf table s D st st')
         /\ ((forall k, 1 <= k <= 2 -> ~ pointers k t') -> forall f, auto_arg (l_env L) f sig i st = (Err TypeError, st))
         /\ ((exists q u, t' = TPtr q u \/ t' = TRef q u) ->
            exists fuel st', (forall f, fuel <= f -> null_arg (l_env L) f sig i st = (Ok c, st')) /\ null_when_new c /\ grown cf table s D st st')
         /\ ((exists q b, t' = TBase q b) -> forall f, null_arg (l_env L) f sig i st = (Err TypeError, st)).
  Proof.
    intros DF RF RA SH. destruct (load_linked cf table win s) as (LK & FN & EC & ET). fold L in LK, FN, EC, ET.
    destruct (FN n u DF) as (sig & G & FS). rewrite <- FS in RF. exists sig. split; [exact G|]. intros i name t v t' c NA NC EX.
    assert (NP : exists p, nth_error (sig_params sig) i = Some p /\ read_type (fill (l_heap L) (snd (fst p))) = Some t).
    { destruct sig as [[m|r0] ds qs]; rewrite fill_eq in RF; cbn [RunSpec.read_function] in RF; [discriminate|].
      destruct ds as [|d [|d2 ds]]; try discriminate RF; [|destruct d; discriminate RF]. destruct d as [x|a|ps]; try discriminate RF.
      cbn [map filld] in RF. destruct qs as [|[[|w' v']|] [|[q0|] [|? ?]]]; try discriminate RF.
      destruct (read_type (fill _ r0)) as [u0|] eqn:RT; [|discriminate]. destruct (read_args read_type _) as [l|] eqn:RL; [|discriminate].
      injection RF as -> -> ->. destruct (params_filter cf table s D (l_heap L) CL UT _ _ _ _ RA RL) as (ps' & E & RL').
      unfold sig_params. rewrite E. destruct (read_args_nth _ _ _ _ _ _ _ RL' NA) as (t0 & N0 & R0).
      apply nth_map_inv in N0. destruct N0 as (p & N0 & Ep). exists p. split; [exact N0|]. injection Ep as _ <- _. exact R0. }
    destruct NP as (p & NP & RT). pose proof (represented_nth _ _ _ _ _ _ _ RA i name t v c NA NC) as R.
    assert (DI : direct cf table s D (classes st) t' c).
    { exact (represents_direct _ _ _ _ _ _ _ _ R EX). }
    split; [|split; [|split]].
    - intros k P [K1 K2] NCh. destruct (auto_made cf table s D (l_env L) (l_heap L) LK EC ET CL TA UT sig i p t t' c st NP RT EX DI SH k P K1 K2 NCh) as (F & a & st' & E & A & Gr).
      exists F, a, st'. auto.
    - intros NPt. apply (auto_refused cf table s D (l_env L) (l_heap L) LK EC sig i p t t' c st NP RT EX DI). intros k K1 K2. apply NPt. auto.
    - intros X. destruct (null_made cf table s D (l_env L) (l_heap L) LK EC ET CL TA UT sig i p t t' c st NP RT EX DI SH X) as (F & a & st' & E & -> & NN & Gr).
      exists F, st'. auto.
    - intros (q1 & b & E). exact (null_refused cf table s D (l_env L) (l_heap L) LK EC sig i p t t' c st NP RT EX DI q1 b E).
  Qed.
End Library.
