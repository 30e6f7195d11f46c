(** Lemmas on enums, structures, variables and functions (C41-C46, C67). *)
From Coq Require Import Ascii String Bool Arith ZArith Lia FinFun List.
Import ListNotations.
From Verif Require Import PyBase PyBaseFacts PyStr PyStrFacts PyExpr TypeModel StoreModel StoreSpec StoreProofs.
From Verif Require Import DeclModel DeclSpec DeclProofs.

(** ** Fresh names *)
Definition nval (l : str) : nat := fold_left (fun v c => 10 * v + digit_val c) l 0.
Lemma digit_char n : n < 10 -> digit_val (ascii_of_nat (48 + n)) = n.
Proof. intros L. do 10 (destruct n as [|n]; [reflexivity|]). lia. Qed.
Lemma dec_aux_val f : forall n acc, n < f ->
  exists ds, dec_aux f n acc = ds ++ acc /\ nval ds = n.
Proof.
  induction f as [|f IH]; intros n acc L; [lia|].
  cbn [dec_aux]. destruct (n <? 10) eqn:E.
  - apply Nat.ltb_lt in E. exists [ascii_of_nat (48 + n mod 10)]. split; [reflexivity|].
    rewrite Nat.mod_small by exact E. unfold nval. cbn [fold_left]. rewrite digit_char by exact E. lia.
  - apply Nat.ltb_ge in E. pose proof (Nat.div_lt n 10 ltac:(lia) ltac:(lia)).
    destruct (IH (n / 10) (ascii_of_nat (48 + n mod 10) :: acc)) as (ds & P & Q); [lia|].
    exists (ds ++ [ascii_of_nat (48 + n mod 10)]). rewrite P, <- app_assoc. split; [reflexivity|].
    unfold nval in *. rewrite fold_left_app, Q. cbn [fold_left].
    rewrite digit_char by (apply Nat.mod_upper_bound; lia).
    pose proof (Nat.div_mod n 10 ltac:(lia)). lia.
Qed.
Lemma dec_inj n m : dec n = dec m -> n = m.
Proof.
  unfold dec. intros E.
  destruct (dec_aux_val (S n) n []) as (a & P & Q); [lia|].
  destruct (dec_aux_val (S m) m []) as (b & P' & Q'); [lia|].
  rewrite P, P', !app_nil_r in E. congruence.
Qed.

Lemma fresh_from_spec {V} f : forall n p (d : dict str V),
  match fresh_from f n p d with
  | Ok x => dmem d x = false /\ exists k, n <= k /\ x = p ++ dec k
            /\ forall j, n <= j < k -> dmem d (p ++ dec j) = true
  | Err e => e = OutOfFuel /\ forall j, n <= j < n + f -> dmem d (p ++ dec j) = true
  end.
Proof.
  induction f as [|f IH]; intros n p d; cbn [fresh_from].
  - split; [reflexivity|]. intros j L. lia.
  - destruct (dmem d (p ++ dec n)) eqn:E.
    + specialize (IH (S n) p d). destruct (fresh_from f (S n) p d) as [x|e].
      * destruct IH as (A & k & B & C & D). split; [exact A|]. exists k. split; [lia|]. split; [exact C|].
        intros j L. destruct (Nat.eq_dec j n) as [->|N]; [exact E|]. apply D. lia.
      * destruct IH as [A B]. split; [exact A|]. intros j L.
        destruct (Nat.eq_dec j n) as [->|N]; [exact E|]. apply B. lia.
    + split; [exact E|]. exists n. split; [lia|]. split; [reflexivity|]. intros j L. lia.
Qed.
Lemma fresh_ok {V} p (d : dict str V) : exists x, fresh p d = Ok x /\ dmem d x = false.
Proof.
  unfold fresh. pose proof (fresh_from_spec (S (length d)) 0 p d) as F.
  destruct (fresh_from (S (length d)) 0 p d) as [x|e].
  - exists x. split; [reflexivity|]. apply F.
  - exfalso. destruct F as [_ F].
    assert (I : incl (map (fun j => p ++ dec j) (seq 0 (S (length d)))) (keys d)).
    { intros x Hx. apply in_map_iff in Hx. destruct Hx as (j & <- & Hj). apply in_seq in Hj.
      apply dmem_In. apply F. lia. }
    apply NoDup_incl_length in I.
    + rewrite map_length, seq_length in I. unfold keys in I. rewrite map_length in I. lia.
    + apply FinFun.Injective_map_NoDup; [|apply seq_NoDup].
      intros a b E. apply app_inv_head in E. apply dec_inj. exact E.
Qed.

(** ** What each action records *)
Section Acts.
  Context (ev : dict str pobj -> str -> res pobj).

  Lemma kind_neq_eqb (a b : kind) : a <> b -> eqb a b = false.
  Proof. intros N. apply eqb_false. exact N. Qed.
  Lemma defined_same (s : store entry) k n v : defined (add_def s k n v) k n = Some v.
  Proof. rewrite defined_add, !eqb_refl. reflexivity. Qed.
  Lemma defined_other (s : store entry) k n v k' n' :
    k' <> k \/ n' <> n -> defined (add_def s k n v) k' n' = defined s k' n'.
  Proof.
    rewrite defined_add. intros [N|N].
    - rewrite (kind_neq_eqb k' k N). reflexivity.
    - apply eqb_false in N. rewrite N. destruct (eqb k' k); reflexivity.
  Qed.

  Lemma enum_loop_kinds l : forall s i d k n,
    k <> Values -> defined (fst (fst (enum_loop ev s i d l))) k n = defined s k n.
  Proof.
    induction l as [|[x v] l IH]; intros s i d k n N; [reflexivity|].
    cbn [enum_loop]. set (i1 := match v with Some e => eval_text ev s e | None => i end).
    destruct (plus_one i1) as [i2|e]; cbn [fst].
    - rewrite IH by exact N. apply defined_other. left. exact N.
    - apply defined_other. left. exact N.
  Qed.

  Lemma process_enum_other s name l k n :
    k <> Values -> k <> Enums -> k <> Types ->
    defined (fst (process_enum ev s name l)) k n = defined s k n.
  Proof.
    intros N1 N2 N3. unfold process_enum.
    destruct (match name with Some x => Ok x | None => fresh $"anon_enum" (defs s Enums) end) as [x|e];
      [|reflexivity].
    destruct (dmem (defs s Enums) x); [reflexivity|].
    pose proof (enum_loop_kinds l s (ONum (VInt 0)) [] k n N1) as Q.
    destruct (enum_loop ev s (ONum (VInt 0)) [] l) as [[s1 en] [e|]]; cbn [fst] in *; [exact Q|].
    rewrite !defined_other by (left; assumption). exact Q.
  Qed.

  Lemma process_struct_cases s c name l p :
    (exists n ms, (name = Some n \/ (name = None /\ defined s (comp_kind c) n = None))
       /\ all_members ev s l = Ok ms
       /\ process_struct ev s c name l p =
          (add_def (add_def s (comp_kind c) n (EComp ms p)) Types (comp_kw c ++ $" " ++ n)
                   (EType (CT (SName (comp_kw c)) [DStr n] [Some []; Some []])),
           Some (comp_kw c ++ $" " ++ n))
       /\ (l = [] -> match defined s (comp_kind c) n with None | Some (EEnum []) => True | _ => False end))
    \/ (exists n, name = Some n /\ l = []
        /\ match defined s (comp_kind c) n with None | Some (EEnum []) => False | _ => True end
        /\ process_struct ev s c name l p = (s, Some (comp_kw c ++ $" " ++ n)))
    \/ (exists e, all_members ev s l = Err e /\ process_struct ev s c name l p = (s, None)).
  Proof.
    unfold process_struct.
    assert (F : exists n, (match name with
          | Some n => Ok n
          | None => fresh ($"anon_" ++ comp_kw c) (defs s (comp_kind c))
          end) = Ok n /\ (name = Some n \/ (name = None /\ defined s (comp_kind c) n = None))).
    { destruct name as [n|].
      - exists n. split; [reflexivity|left; reflexivity].
      - destruct (fresh_ok ($"anon_" ++ comp_kw c) (defs s (comp_kind c))) as (x & E & D).
        exists x. split; [exact E|]. right. split; [reflexivity|].
        unfold defined. unfold dmem in D. destruct (dget (defs s (comp_kind c)) x); [discriminate|reflexivity]. }
    destruct F as (n & -> & D).
    unfold dmem. fold (defined s (comp_kind c) n).
    destruct l as [|x l].
    - cbn [orb]. destruct (defined s (comp_kind c) n) as [e|] eqn:DE.
      + destruct D as [->|[_ D]]; [|discriminate].
        cbn [negb orb all_members].
        destruct e as [ | |[|? ?]| | | | | ]; cbn [negb orb];
          first [ solve [right; left; exists n; rewrite DE; repeat split; reflexivity]
                | left; exists n, []; split; [left; reflexivity|]; split; [reflexivity|];
                  split; [reflexivity|]; intros _; rewrite DE; exact I ].
      + cbn [negb orb all_members]. left. exists n, [].
        split; [destruct D as [D|[D _]]; [left; exact D|right; split; [exact D|exact DE]]|].
        split; [reflexivity|]. split; [reflexivity|]. intros _. rewrite DE. exact I.
    - cbn [orb]. destruct (all_members ev s (x :: l)) as [ms|e] eqn:A.
      + left. exists n, ms. split; [exact D|]. split; [reflexivity|]. split; [reflexivity|]. discriminate.
      + right. right. exists e. split; reflexivity.
  Qed.

  Lemma declare_other b v l : forall s k n,
    k <> Functions -> k <> Variables -> k <> Values ->
    defined (declare ev s b v l) k n = defined s k n.
  Proof.
    induction l as [|d l IH]; intros s k n N1 N2 N3; [reflexivity|].
    cbn [declare]. destruct (process_type (eval_text ev s) b d) as [[[m|] t]|e]; try reflexivity.
    rewrite IH by assumption. destruct (ends_in_tuple t);
      rewrite !defined_other by (left; assumption); reflexivity.
  Qed.
  Lemma function_other s b d k n :
    k <> Functions -> defined (process_function ev s b d) k n = defined s k n.
  Proof.
    intros N. unfold process_function. destruct (process_type (eval_text ev s) b d) as [[[m|] t]|e]; try reflexivity.
    destruct (ends_in_tuple t); [apply defined_other; left; exact N|reflexivity].
  Qed.
  Lemma typedef_other b l : forall s k n,
    k <> Types -> defined (fst (process_typedef ev s b l)) k n = defined s k n.
  Proof.
    induction l as [|d l IH]; intros s k n N; [reflexivity|].
    cbn [process_typedef]. destruct (process_type (eval_text ev s) b d) as [[[m|] t]|e]; try reflexivity.
    rewrite IH by exact N. apply defined_other. left. exact N.
  Qed.

  Lemma comp_kind_facts c : comp_kind c <> Values /\ comp_kind c <> Types /\ comp_kind c <> Enums
    /\ comp_kind c <> Functions /\ comp_kind c <> Variables.
  Proof. destruct c; repeat split; discriminate. Qed.

  (** ** C44 *)
  Lemma act_keeps_comp s a c n ms p :
    defined s (comp_kind c) n = Some (EComp ms p) -> ~ defines_comp c n a ->
    defined (fst (act ev s a)) (comp_kind c) n = Some (EComp ms p).
  Proof.
    intros D N. destruct (comp_kind_facts c) as (F1 & F2 & F3 & F4 & F5).
    destruct a as [name l|c' name l p'|b l i|b d|b l]; cbn [act fst].
    - rewrite process_enum_other by assumption. exact D.
    - destruct (process_struct_cases s c' name l p') as [(m & ms' & NM & A & E & L)|[(m & -> & -> & X & E)|(e & A & E)]];
        rewrite E; cbn [fst]; try exact D.
      rewrite (defined_other _ Types) by (left; assumption).
      destruct (eqb_spec (comp_kind c) (comp_kind c')) as [EK|NK].
      2: { rewrite defined_other by (left; exact NK). exact D. }
      assert (c' = c) as ->. { destruct c, c'; try reflexivity; discriminate. }
      destruct (eqb_spec n m) as [<-|NN].
      2: { rewrite defined_other by (right; exact NN). exact D. }
      exfalso. destruct NM as [->|[_ NM]]; [|congruence].
      destruct l as [|x l]; [|apply N; exists x, l, p'; reflexivity].
      specialize (L eq_refl). rewrite D in L. exact L.
    - unfold process_variable. rewrite declare_other by assumption. exact D.
    - rewrite function_other by assumption. exact D.
    - rewrite typedef_other by assumption. exact D.
  Qed.

  Lemma acts_keep_comp l : forall s c n ms p,
    defined s (comp_kind c) n = Some (EComp ms p) -> (forall a, In a l -> ~ defines_comp c n a) ->
    defined (fst (acts ev s l)) (comp_kind c) n = Some (EComp ms p).
  Proof.
    induction l as [|a l IH]; intros s c n ms p D N; [exact D|].
    cbn [acts]. pose proof (act_keeps_comp s a c n ms p D (N a (or_introl eq_refl))) as D1.
    destruct (act ev s a) as [s1 [e|]]; cbn [fst] in *; [exact D1|].
    apply IH; [exact D1|]. intros a' I. apply N. right. exact I.
  Qed.

  Lemma acts_app l1 : forall s l2,
    acts ev s (l1 ++ l2) = match acts ev s l1 with
                           | (s1, None) => acts ev s1 l2
                           | x => x
                           end.
  Proof.
    induction l1 as [|a l1 IH]; intros s l2; [reflexivity|].
    cbn [app acts]. destruct (act ev s a) as [s1 [e|]]; [reflexivity|]. apply IH.
  Qed.

  Lemma definition_recorded s c n x l p l2 ms :
    all_members ev s (x :: l) = Ok ms -> (forall a, In a l2 -> ~ defines_comp c n a) ->
    defined (fst (acts ev s (AComp c (Some n) (x :: l) p :: l2))) (comp_kind c) n = Some (EComp ms p).
  Proof.
    intros A N. cbn [acts act].
    destruct (process_struct_cases s c (Some n) (x :: l) p) as [(m & ms' & NM & A' & E & L)|[(m & _ & D & _)|(e & A' & _)]].
    - rewrite E. cbn [fst]. apply acts_keep_comp; [|exact N].
      destruct NM as [NM|[NM _]]; [|discriminate]. injection NM as <-. rewrite A in A'. injection A' as <-.
      rewrite defined_other by (left; apply comp_kind_facts). apply defined_same.
    - discriminate.
    - congruence.
  Qed.

  (** ** C43 *)
  Lemma tag_inj kw k kw' k' n n' :
    In (kw, k) tag_kinds -> In (kw', k') tag_kinds -> tag_name kw n = tag_name kw' n' ->
    kw = kw' /\ k = k' /\ n = n'.
  Proof.
    intros I I'. unfold tag_kinds in *. cbn [In] in *. unfold tag_name.
    destruct I as [I|[I|[I|[]]]]; destruct I' as [I'|[I'|[I'|[]]]]; injection I as <- <-; injection I' as <- <-;
      cbn; intros E; injection E as E; try discriminate; auto.
  Qed.
  Lemma tag_space kw k n : In (kw, k) tag_kinds -> In sp (tag_name kw n).
  Proof.
    intros _. unfold tag_name. apply in_app_iff. right. left. reflexivity.
  Qed.

  Lemma tags_add_other s k n v : k <> Types -> tags_ok s -> tags_ok (add_def s k n v).
  Proof.
    intros N T kw k' m w I D. rewrite defined_other in D by (left; congruence).
    destruct (T kw k' m w I D) as (w' & D'). rewrite defined_add.
    destruct (eqb k' k && eqb m n); [eexists; reflexivity|exists w'; exact D'].
  Qed.
  Lemma tags_add_plain s n v : ~ In sp n -> tags_ok s -> tags_ok (add_def s Types n v).
  Proof.
    intros N T kw k' m w I D. rewrite defined_other in D.
    2: { right. intros <-. apply N. eapply tag_space. exact I. }
    destruct (T kw k' m w I D) as (w' & D'). exists w'. rewrite defined_other; [exact D'|].
    left. intros ->. unfold tag_kinds in I. cbn [In] in I.
    destruct I as [I|[I|[I|[]]]]; discriminate.
  Qed.
  Lemma tags_add_tag s kw k n v w : In (kw, k) tag_kinds -> tags_ok s ->
    tags_ok (add_def (add_def s k n w) Types (tag_name kw n) v).
  Proof.
    intros I T kw' k' m u I' D.
    assert (NT : k' <> Types).
    { intros ->. unfold tag_kinds in I'. cbn [In] in I'. destruct I' as [X|[X|[X|[]]]]; discriminate. }
    assert (NT' : k <> Types).
    { intros ->. unfold tag_kinds in I. cbn [In] in I. destruct I as [X|[X|[X|[]]]]; discriminate. }
    rewrite (defined_other _ Types) by (left; exact NT).
    destruct (eqb_spec (tag_name kw' m) (tag_name kw n)) as [E|N].
    - destruct (tag_inj _ _ _ _ _ _ I' I E) as (-> & -> & ->). exists w. apply defined_same.
    - rewrite defined_other in D by (right; exact N).
      rewrite defined_other in D by (left; congruence).
      destruct (T kw' k' m u I' D) as (x & X). rewrite defined_add.
      destruct (eqb k' k && eqb m n); [eexists; reflexivity|exists x; exact X].
  Qed.

  Lemma enum_loop_tags l : forall s i d,
    tags_ok s -> tags_ok (fst (fst (enum_loop ev s i d l))).
  Proof.
    induction l as [|[x v] l IH]; intros s i d T; [exact T|].
    cbn [enum_loop]. set (i1 := match v with Some e => eval_text ev s e | None => i end).
    pose proof (tags_add_other s Values x (EVal i1) ltac:(discriminate) T) as T1.
    destruct (plus_one i1) as [i2|e]; cbn [fst]; [apply IH; exact T1|exact T1].
  Qed.
  Lemma declare_tags b v l : forall s, tags_ok s -> tags_ok (declare ev s b v l).
  Proof.
    induction l as [|d l IH]; intros s T; [exact T|].
    cbn [declare]. destruct (process_type (eval_text ev s) b d) as [[[m|] t]|e]; try exact T.
    apply IH. destruct (ends_in_tuple t); repeat (apply tags_add_other; [discriminate|]); exact T.
  Qed.

  Lemma process_name dim b d n t : process_type dim b d = Ok (n, t) -> c_name d = n.
  Proof.
    unfold process_type. destruct (process_declarator dim d) as [[[m ds] qs]|] eqn:P; [|discriminate].
    intros F. assert (m = n) as <-.
    { cbn [bind finish] in F. destruct qs as [|[q|] qs]; try discriminate.
      destruct (mk_type (SName (b_name b)) ds (Some (b_qual b ++ q) :: qs)); [|discriminate].
      cbn [bind] in F. injection F as -> _. reflexivity. }
    clear F. revert m ds qs P.
    induction d as [fq cv ps core args arrs IHc IHa] using dtree_nested. intros m ds qs P.
    rewrite process_node in P. destruct (args_part dim args) as [ta|]; [|discriminate].
    cbn [bind] in P. destruct core as [r x|r|c].
    - injection P as <- _ _. reflexivity.
    - injection P as <- _ _. reflexivity.
    - destruct (process_declarator dim c) as [[[m' ds'] qs']|] eqn:Pc; [|discriminate].
      cbn [bind] in P. destruct (join_quals _ qs') as [q|]; [|discriminate].
      cbn [bind] in P. injection P as -> _ _. cbn [c_name]. exact (IHc c eq_refl _ _ _ Pc).
  Qed.

  Lemma typedef_tags b l : forall s,
    (forall d n, In d l -> c_name d = Some n -> ~ In sp n) -> tags_ok s ->
    tags_ok (fst (process_typedef ev s b l)).
  Proof.
    induction l as [|d l IH]; intros s N T; [exact T|].
    cbn [process_typedef]. destruct (process_type (eval_text ev s) b d) as [[[m|] t]|e] eqn:P; try exact T.
    apply IH; [intros d' n I; apply N; right; exact I|].
    apply tags_add_plain; [|exact T]. apply (N d); [left; reflexivity|]. exact (process_name _ _ _ _ _ P).
  Qed.

  Lemma act_tags s a : plain_names a -> tags_ok s -> tags_ok (fst (act ev s a)).
  Proof.
    intros N T. destruct a as [name l|c name l p|b l i|b d|b l]; cbn [act fst].
    - unfold process_enum.
      destruct (match name with Some x => Ok x | None => fresh $"anon_enum" (defs s Enums) end) as [x|e];
        [|exact T].
      destruct (dmem (defs s Enums) x); [exact T|].
      pose proof (enum_loop_tags l s (ONum (VInt 0)) [] T) as Q.
      destruct (enum_loop ev s (ONum (VInt 0)) [] l) as [[s1 en] [e|]]; cbn [fst] in *; [exact Q|].
      apply (tags_add_tag s1 $"enum" Enums x); [right; right; left; reflexivity|exact Q].
    - destruct (process_struct_cases s c name l p) as [(m & ms' & NM & A & E & L)|[(m & -> & -> & X & E)|(e & A & E)]];
        rewrite E; cbn [fst]; try exact T.
      apply (tags_add_tag s (comp_kw c) (comp_kind c) m); [|exact T].
      destruct c; [left; reflexivity|right; left; reflexivity].
    - apply declare_tags. exact T.
    - unfold process_function. destruct (process_type (eval_text ev s) b d) as [[[m|] t]|e]; try exact T.
      destruct (ends_in_tuple t); [apply tags_add_other; [discriminate|exact T]|exact T].
    - apply typedef_tags; [exact N|exact T].
  Qed.
  Lemma acts_tags l : forall s, (forall a, In a l -> plain_names a) -> tags_ok s ->
    tags_ok (fst (acts ev s l)).
  Proof.
    induction l as [|a l IH]; intros s N T; [exact T|].
    cbn [acts]. pose proof (act_tags s a (N a (or_introl eq_refl)) T) as T1.
    destruct (act ev s a) as [s1 [e|]]; cbn [fst] in *; [exact T1|].
    apply IH; [|exact T1]. intros a' I. apply N. right. exact I.
  Qed.
  Lemma tags_init : tags_ok (init_store).
  Proof. intros kw k n v _ D. discriminate. Qed.

  Lemma anon_comp s c l p s' r :
    tags_ok s -> process_struct ev s c None l p = (s', Some r) ->
    exists n, r = tag_name (comp_kw c) n /\ defined s (comp_kind c) n = None
      /\ defined s Types (tag_name (comp_kw c) n) = None
      /\ (exists ms, defined s' (comp_kind c) n = Some (EComp ms p))
      /\ forall k m v, defined s k m = Some v -> defined s' k m = Some v.
  Proof.
    intros T E. destruct (process_struct_cases s c None l p) as [(m & ms & NM & A & E' & L)|[(m & D & _)|(e & A & E')]];
      try discriminate; try congruence.
    rewrite E' in E. injection E as <- <-. destruct NM as [NM|[_ NM]]; [discriminate|].
    exists m. split; [reflexivity|]. split; [exact NM|].
    assert (TN : defined s Types (tag_name (comp_kw c) m) = None).
    { destruct (defined s Types (tag_name (comp_kw c) m)) as [v|] eqn:D; [|reflexivity].
      destruct (T (comp_kw c) (comp_kind c) m v) as (w & W); [|exact D|congruence].
      destruct c; [left; reflexivity|right; left; reflexivity]. }
    split; [exact TN|]. split.
    - exists ms. rewrite defined_other by (left; apply comp_kind_facts). apply defined_same.
    - intros k x v D. change (comp_kw c ++ $" " ++ m) with (tag_name (comp_kw c) m).
      rewrite !defined_other; [exact D| |].
      + destruct (eqb_spec k (comp_kind c)) as [->|]; [right; congruence|left; assumption].
      + destruct (eqb_spec k Types) as [->|]; [right; intros EQ; change (x = tag_name (comp_kw c) m) in EQ; congruence|left; assumption].
  Qed.

  Lemma enum_loop_values l : forall s i d k n, ~ In n (map fst l) ->
    defined (fst (fst (enum_loop ev s i d l))) k n = defined s k n.
  Proof.
    induction l as [|[x v] l IH]; intros s i d k n N; [reflexivity|].
    cbn [enum_loop]. set (i1 := match v with Some e => eval_text ev s e | None => i end).
    cbn [map fst In] in N.
    destruct (plus_one i1) as [i2|e]; cbn [fst].
    - rewrite IH by tauto. apply defined_other. right. intros ->. apply N. left. reflexivity.
    - apply defined_other. right. intros ->. apply N. left. reflexivity.
  Qed.

  Lemma anon_enum s l s' r :
    tags_ok s -> process_enum ev s None l = (s', Some r) ->
    exists n, r = tag_name $"enum" n /\ defined s Enums n = None
      /\ defined s Types (tag_name $"enum" n) = None
      /\ (exists en, defined s' Enums n = Some (EEnum en))
      /\ forall k m v, (k = Values -> ~ In m (map fst l)) -> defined s k m = Some v -> defined s' k m = Some v.
  Proof.
    intros T E. unfold process_enum in E.
    destruct (fresh_ok $"anon_enum" (defs s Enums)) as (x & F & D). rewrite F in E. rewrite D in E.
    pose proof (enum_loop_kinds l s (ONum (VInt 0)) []) as Q.
    pose proof (enum_loop_values l s (ONum (VInt 0)) []) as QV.
    destruct (enum_loop ev s (ONum (VInt 0)) [] l) as [[s1 en] [e|]]; cbn [fst] in *; [discriminate|].
    injection E as <- <-. exists x. split; [reflexivity|].
    assert (DN : defined s Enums x = None).
    { unfold defined. unfold dmem in D. destruct (dget (defs s Enums) x); [discriminate|reflexivity]. }
    split; [exact DN|].
    assert (TN : defined s Types (tag_name $"enum" x) = None).
    { destruct (defined s Types (tag_name $"enum" x)) as [v|] eqn:DT; [|reflexivity].
      destruct (T $"enum" Enums x v) as (w & W); [right; right; left; reflexivity|exact DT|congruence]. }
    split; [exact TN|]. split.
    - exists en. rewrite defined_other by (left; discriminate). apply defined_same.
    - intros k m v NV DV. change ($"enum " ++ x) with (tag_name $"enum" x).
      assert (D1 : defined s1 k m = Some v).
      { destruct (eqb_spec k Values) as [->|N]; [rewrite QV by (apply NV; reflexivity); exact DV|].
        rewrite Q by exact N. exact DV. }
      rewrite !defined_other; [exact D1| |].
      + destruct (eqb_spec k Enums) as [->|]; [right; congruence|left; assumption].
      + destruct (eqb_spec k Types) as [->|]; [right; intros EQ; change (m = tag_name $"enum" x) in EQ; congruence|left; assumption].
  Qed.

  (** ** C41, C42 *)
  Lemma values_add (d : dict str entry) : forall n v,
    (forall m e, In (m, e) d -> exists w, e = EVal w) ->
    flat_map (fun p => match snd p with EVal v => [(fst p, v)] | _ => [] end) (dset d n (EVal v))
    = dset (flat_map (fun p => match snd p with EVal v => [(fst p, v)] | _ => [] end) d) n v.
  Proof.
    induction d as [|[m e] d IH]; intros n v T; [reflexivity|].
    destruct (T m e (or_introl eq_refl)) as (w & ->).
    cbn [dset flat_map fst snd app]. destruct (eqb n m) eqn:E; [reflexivity|].
    cbn [flat_map fst snd app]. rewrite IH; [reflexivity|]. intros m' e' I. apply (T m' e'). right. exact I.
  Qed.
  Lemma defs_add_same (s : store entry) k n v : defs (add_def s k n v) k = dset (defs s k) n v.
  Proof. unfold add_def, upd. cbn [defs]. rewrite eqb_refl. reflexivity. Qed.
  Lemma defs_add_other (s : store entry) k n v k' : k' <> k -> defs (add_def s k n v) k' = defs s k'.
  Proof. intros N. unfold add_def, upd. cbn [defs]. rewrite (kind_neq_eqb k' k N). reflexivity. Qed.
  Lemma values_add_def s n v : typed_values s ->
    values (add_def s Values n (EVal v)) = dset (values s) n v.
  Proof. intros T. unfold values. rewrite defs_add_same. apply values_add. exact T. Qed.
  Lemma typed_add s n v : typed_values s -> typed_values (add_def s Values n (EVal v)).
  Proof.
    intros T m e I. rewrite defs_add_same in I. apply In_dset in I.
    destruct I as [[_ ->]|I]; [eauto|exact (T m e I)].
  Qed.
  Lemma typed_add_other s k n v : k <> Values -> typed_values s -> typed_values (add_def s k n v).
  Proof. intros N T m e I. rewrite defs_add_other in I by congruence. exact (T m e I). Qed.

  Definition put_all (d : dict str pobj) (vs : list (str * pobj)) : dict str pobj :=
    fold_left (fun d p => dset d (fst p) (snd p)) vs d.

  Lemma enum_loop_counts l : forall s i d, typed_values s ->
    match enum_loop ev s i d l with
    | (s', en, None) =>
        exists vs, counts ev (values s) i l vs /\ en = put_all d vs /\ values s' = put_all (values s) vs
        /\ typed_values s'
    | (s', _, Some e) => e = TypeError /\ (forall vs, ~ counts ev (values s) i l vs) /\ typed_values s'
    end \/ (exists e, plus_one i = Err e).
  Proof.
    induction l as [|[n v] l IH]; intros s i d T.
    - left. cbn [enum_loop]. exists []. split; [constructor|]. auto.
    - cbn [enum_loop]. destruct v as [e|].
      + left. unfold eval_text. destruct (ev (values s) e) as [w|x] eqn:EV.
        * destruct (plus_one w) as [w'|y] eqn:PW.
          -- pose proof (IH (add_def s Values n (EVal w)) w' (dset d n w) (typed_add s n w T)) as Q.
             rewrite (values_add_def s n w T) in Q.
             assert (NE : forall e', plus_one w' <> Err e').
             { destruct w as [|[z|b|nn dd]| | |]; try discriminate PW; injection PW as <-; discriminate. }
             destruct Q as [Q|[e' Q]]; [|exfalso; exact (NE _ Q)].
             destruct (enum_loop ev (add_def s Values n (EVal w)) w' (dset d n w) l) as [[s' en] [ex|]].
             ++ destruct Q as (-> & Q & TV). split; [reflexivity|]. split; [|exact TV].
                intros vs C. inversion C; subst. rewrite EV in H4. injection H4 as <-. rewrite PW in H6. injection H6 as <-.
                exact (Q _ H7).
             ++ destruct Q as (vs & C & A & B & TV). exists ((n, w) :: vs).
                split; [econstructor; eassumption|]. auto.
          -- assert (y = TypeError) as -> by (destruct w as [|[ | | ]| | |]; try discriminate PW; injection PW as <-; reflexivity).
             split; [reflexivity|]. split; [|apply typed_add; exact T].
             intros vs C. inversion C; subst. rewrite EV in H4. injection H4 as <-. congruence.
        * cbn [plus_one]. split; [reflexivity|]. split; [|apply typed_add; exact T].
          intros vs C. inversion C; subst. congruence.
      + destruct (plus_one i) as [w'|y] eqn:PW; [left|right; eauto].
        pose proof (IH (add_def s Values n (EVal i)) w' (dset d n i) (typed_add s n i T)) as Q.
        rewrite (values_add_def s n i T) in Q.
        assert (NE : forall e', plus_one w' <> Err e').
        { destruct i as [|[z|b|nn dd]| | |]; try discriminate PW; injection PW as <-; discriminate. }
        destruct Q as [Q|[e' Q]]; [|exfalso; exact (NE _ Q)].
        destruct (enum_loop ev (add_def s Values n (EVal i)) w' (dset d n i) l) as [[s' en] [ex|]].
        * destruct Q as (-> & Q & TV). split; [reflexivity|]. split; [|exact TV].
          intros vs C. inversion C; subst. rewrite PW in H3. injection H3 as <-. exact (Q _ H5).
        * destruct Q as (vs & C & A & B & TV). exists ((n, i) :: vs).
          split; [econstructor; eassumption|]. auto.
  Qed.
End Acts.
