(** Proofs for C82 and C83: the requests. *)
From Coq Require Import Ascii String Bool Arith ZArith Lia List.
Import ListNotations.
From Verif Require Import PyBase PyBaseFacts PyStr PyStrFacts PyExpr TypeModel InitModel StoreModel StoreSpec DeclModel DeclSpec CtModel LinkModel LinkSpec LinkProofs LinkRead.
From Verif Require WordFacts TypeSpec TypeProofs CtSpec CtProofs CtOne CtFinish CtWords.

(** ** Requests that succeed *)
Definition gets {A} (m : nat -> M A) (st : cst) (Q : A -> cst -> Prop) : Prop :=
  exists F x st', (forall fuel, F <= fuel -> m fuel st = (Ok x, st')) /\ Q x st'.
Lemma gets_ret {A} (x : A) st (Q : A -> cst -> Prop) : Q x st -> gets (fun _ => ret x) st Q.
Proof. intros H. exists 0, x, st. split; [reflexivity|exact H]. Qed.
Lemma gets_bind {A B} (a : nat -> M A) (F : nat -> A -> M B) st Q R :
  gets a st Q -> (forall x st', Q x st' -> gets (fun f => F f x) st' R) -> gets (fun f => mbind (a f) (F f)) st R.
Proof.
  intros (N1 & x & st1 & E1 & H1) H. destruct (H x st1 H1) as (N2 & y & st2 & E2 & H2). exists (max N1 N2), y, st2.
  split; [|exact H2]. intros fuel L. unfold mbind. rewrite E1 by lia. apply E2. lia.
Qed.
Lemma gets_impl {A} (m : nat -> M A) st (Q R : A -> cst -> Prop) : (forall x st', Q x st' -> R x st') -> gets m st Q -> gets m st R.
Proof. intros I (N & x & st1 & E & H). exists N, x, st1. auto. Qed.
Lemma gets_ext {A} (m m' : nat -> M A) st Q : (forall f, m' f st = m f st) -> gets m st Q -> gets m' st Q.
Proof. intros X (N & x & st1 & E & H). exists N, x, st1. split; [|exact H]. intros f L. rewrite X. now apply E. Qed.
Lemma gets_shift {A} (m : nat -> M A) st Q : gets (fun f => m (S f)) st Q -> gets m st Q.
Proof.
  intros (N & x & st1 & E & H). exists (S N), x, st1. split; [|exact H]. intros [|f] L; [lia|]. apply E. lia.
Qed.

(** ** Base types *)
Lemma canon_word w : TypeSpec.identifier w -> w <> $"signed" -> canon w = w.
Proof.
  intros ID NS. destruct (TypeProofs.identifier_word _ ID) as [NE FW]. unfold canon.
  pose proof (TypeProofs.rm_signed_run w [] NE FW eq_refl) as R. rewrite app_nil_r in R. rewrite R.
  destruct (eqb_spec w $"signed") as [|_]; [contradiction|]. cbn [rm_signed]. rewrite app_nil_r.
  apply WordFacts.strip_id.
  - destruct w as [|c w]; [congruence|]. cbn [WordFacts.head_not]. apply negb_true_iff. apply word_not_space. cbn [forallb] in FW. now apply andb_true_iff in FW.
  - destruct (rev w) as [|c q] eqn:E; [reflexivity|]. cbn [WordFacts.head_not]. apply negb_true_iff. apply word_not_space. rewrite forallb_forall in FW. apply FW.
    apply in_rev. rewrite E. now left.
Qed.

Definition special_names : list str := map fst CtSpec.special_pointers.
Lemma special_in b p : dget ptr_types b = Some p -> In (b, p) CtSpec.special_pointers.
Proof. intros E. apply dget_In in E. exact E. Qed.
Lemma special_get b p : In (b, p) CtSpec.special_pointers -> dget ptr_types b = Some p /\ canon b = b.
Proof.
  unfold CtSpec.special_pointers. cbn [In]. intros [E|[E|[E|[E|[]]]]]; injection E as <- <-; split; vm_compute; reflexivity.
Qed.
Lemma words_special : forallb (fun ws => CtWords.excluded ws || negb (dmem ptr_types (canon (CtSpec.words_of ws))) || eqb ws [$"char"]) CtWords.all_in_order = true.
Proof. vm_compute. reflexivity. Qed.
Lemma prefix_not_special p n : In p TypeSpec.tag_prefixes -> dget ptr_types (p ++ n) = None.
Proof. unfold TypeSpec.tag_prefixes. cbn [In]. intros [<-|[<-|[<-|[]]]]; reflexivity. Qed.
Lemma tag_prefix u : In (CtSpec.tag_of u) TypeSpec.tag_prefixes.
Proof. destruct u; cbn; auto. Qed.
Section Base.
  Context (table : dict str tyval) (D : bool -> str -> Prop)
    (DI : forall u n, D u n -> TypeSpec.identifier n /\ n <> $"signed").
  Lemma base_not_special cl b c : of_base table D cl b c -> (forall p, ~ In (b, p) CtSpec.special_pointers) -> dget ptr_types (canon b) = None.
  Proof.
    intros O N. destruct O as [ws c IO Sp N1 N2|w v ID NS G| | |u n i Dn Cl|n ID NS].
    - apply CtWords.in_order_all in IO. pose proof (proj1 (forallb_forall _ _) words_special ws IO) as X. cbn beta in X.
      apply orb_true_iff in X. destruct X as [X|X].
      + apply orb_true_iff in X. destruct X as [X|X].
        * unfold CtWords.excluded in X. apply orb_true_iff in X. destruct X as [X|X]; apply eqb_eq in X; contradiction.
        * apply negb_true_iff in X. unfold dmem in X. destruct (dget ptr_types _); [discriminate|reflexivity].
      + apply eqb_eq in X. subst ws. exfalso. apply (N $"c_char_p"). left. reflexivity.
    - rewrite canon_word by assumption. destruct (dget ptr_types w) as [p|] eqn:E; [|reflexivity]. exfalso. exact (N p (special_in _ _ E)).
    - vm_compute. reflexivity.
    - exfalso. apply (N $"c_void_p"). cbn. auto.
    - destruct (DI u n Dn) as [ID NS]. rewrite TypeProofs.canon_tag by (try apply tag_prefix; assumption). apply prefix_not_special, tag_prefix.
    - rewrite TypeProofs.canon_tag by (try assumption; cbn; auto). apply prefix_not_special. cbn; auto.
  Qed.
End Base.

(** ** Facts about the relation *)
Scheme represents_mut := Induction for represents Sort Prop
  with direct_mut := Induction for direct Sort Prop
  with all_represented_mut := Induction for all_represented Sort Prop.
Combined Scheme represents_both from represents_mut, direct_mut, all_represented_mut.
Lemma represents_mono cf table s D cl cl' : (forall n i, cl n = Some i -> cl' n = Some i) ->
  (forall t c, represents cf table s D cl t c -> represents cf table s D cl' t c)
  /\ (forall t c, direct cf table s D cl t c -> direct cf table s D cl' t c)
  /\ (forall l cs, all_represented cf table s D cl l cs -> all_represented cf table s D cl' l cs).
Proof.
  intros M. apply (represents_both cf table s D cl (fun t c _ => represents cf table s D cl' t c) (fun t c _ => direct cf table s D cl' t c) (fun l cs _ => all_represented cf table s D cl' l cs)).
  - intros t t' c X _ H. now apply (re_type _ _ _ _ _ t t').
  - intros q n c O. constructor. destruct O as [ws c IO Sp N1 N2|w v ID NS G| | |u n i Dn Cl|n ID NS]; try (constructor; auto; fail).
  - intros. now constructor.
  - intros. now constructor.
  - intros. now constructor.
  - intros. now constructor.
  - intros. now constructor.
  - constructor.
  - intros. now constructor.
Qed.
Lemma direct_flat cf table s D cl t c : direct cf table s D cl t c -> flat t = true /\ noconv t = true.
Proof.
  induction 1 as [q n c O|q t p (q' & n & -> & I)|q t c N NF X IH|q t c X IH|q n t c L A X IH NV|q q' l t c cs X IH Al]; cbn [flat noconv]; auto.
  rewrite A. cbn. exact IH.
Qed.
Lemma pointer_not_void c : CtSpec.pointer_to c <> PVoid.
Proof. destruct c; discriminate. Qed.
Lemma arrays_not_void n c : CtSpec.arrays [n] c <> PVoid.
Proof. unfold CtSpec.arrays. cbn [fold_right]. destruct (n =? -1)%Z; [apply pointer_not_void|discriminate]. Qed.

Section Grown.
  Context (cf : tconf) (table : dict str tyval) (s : store entry) (D : bool -> str -> Prop).
  Notation grown := (grown cf table s D).
  Lemma field_mono cl cl' x f : (forall n i, cl n = Some i -> cl' n = Some i) -> field_for cf table s D cl x f -> field_for cf table s D cl' x f.
  Proof.
    intros M (A & X). split; [exact A|]. destruct (fst x) as [n|].
    - destruct X as (B & X). split; [exact B|]. now apply (represents_mono _ _ _ _ cl cl' M).
    - destruct X as (q & v & n & i & B & C & E). exists q, v, n, i. auto.
  Qed.
  Lemma class_mono cl cl' u n k : (forall n i, cl n = Some i -> cl' n = Some i) -> class_of cf table s D cl u n k -> class_of cf table s D cl' u n k.
  Proof.
    intros M (ms & p & xs & fs & E & X & K & F & ND). exists ms, p, xs, fs. split; [exact E|]. split; [exact X|]. split; [exact K|]. split; [|exact ND].
    eapply CtProofs.Forall2_impl; [|exact F]. intros x f. now apply field_mono.
  Qed.
  Lemma grown_refl st : grown st st.
  Proof.
    split; [reflexivity|]. split; [auto|]. split; [exists []; now rewrite app_nil_r|]. intros n i E N. congruence.
  Qed.
  Lemma grown_trans a b c : grown a b -> grown b c -> grown a c.
  Proof.
    intros (H1 & R1 & (n1 & C1) & K1) (H2 & R2 & (n2 & C2) & K2). split; [congruence|]. split; [auto|].
    split; [exists (n1 ++ n2); rewrite C2, C1, app_assoc; reflexivity|]. intros n i E N.
    destruct (classes b n) as [j|] eqn:B.
    - pose proof (R2 _ _ B) as E'. assert (j = i) by congruence. subst j. destruct (K1 n i B N) as (L & u & k & Dn & NE & CO).
      split; [exact L|]. exists u, k. split; [exact Dn|]. split; [|now apply (class_mono (classes b))].
      rewrite C2. rewrite nth_error_app1; [exact NE|]. apply nth_error_Some. congruence.
    - destruct (K2 n i E B) as (L & u & k & Dn & NE & CO). split; [rewrite C1, app_length in L; lia|]. eauto.
  Qed.
  Lemma grown_ready h st st' : grown st st' -> ready h st -> ready h st'.
  Proof.
    intros (H & R & (new & C) & K) (E & F). split; [congruence|]. intros n i Cn. destruct (classes st n) as [j|] eqn:X.
    - pose proof (R _ _ X) as Y. assert (j = i) by congruence. subst j. destruct (F n i X) as (k & fs & N & Q). exists k, fs. split; [|exact Q].
      rewrite C, nth_error_app1; [exact N|]. apply nth_error_Some. congruence.
    - destruct (K n i Cn X) as (_ & u & k & _ & N & (ms & p & xs & fs & _ & _ & -> & _)). eexists _, fs. split; [exact N|reflexivity].
  Qed.
  Lemma from_start h st : grown (CtSpec.start h) st -> ready h st.
  Proof. intros G. apply (grown_ready h _ _ G). split; [reflexivity|]. intros n i C. discriminate C. Qed.
  Lemma grown_unbuilt e a b : grown a b -> CtFinish.unbuilt e b <= CtFinish.unbuilt e a.
  Proof.
    intros (_ & R & _). unfold CtFinish.unbuilt. generalize (keys (e_structs e) ++ keys (e_unions e)). intros l.
    induction l as [|n l IH]; [auto|]. cbn [filter].
    assert (X : dmem (st_structs a) n = true -> dmem (st_structs b) n = true).
    { unfold dmem. destruct (dget (st_structs a) n) as [i|] eqn:E; [|discriminate]. intros _. unfold classes in R. now rewrite (R _ _ E). }
    destruct (dmem (st_structs a) n); [rewrite (X eq_refl); exact IH|]. destruct (dmem (st_structs b) n); cbn [negb length]; lia.
  Qed.
End Grown.

(** ** Modifiers *)
Lemma flat_adjacent h ds : forall qs t u, build (map (filld h) ds) qs t = Some u -> flat u = true ->
  CtSpec.no_adjacent ds = true /\ flat t = true /\ (CtSpec.starts_arr ds = true -> is_array t = false).
Proof.
  induction ds as [|d ds IH]; intros [|q qs] t u B F; try discriminate B.
  - cbn [map build] in B. injection B as ->. split; [reflexivity|]. split; [exact F|discriminate].
  - cbn [map build] in B. destruct (wrapd (filld h d) q t) as [t'|] eqn:W; [|discriminate].
    destruct (IH _ _ _ B F) as (N & Ft & S). destruct d as [x|a|args]; cbn [filld] in W; cbn [CtSpec.no_adjacent CtSpec.starts_arr].
    + assert (Fx : flat t = true).
      { destruct q as [q|]; cbn [wrapd] in W; [|injection W as <-; exact Ft]. destruct (eqb x $"*"); [injection W as <-; exact Ft|].
        destruct (eqb x $"&"); [|discriminate]. injection W as <-. exact Ft. }
      split; [exact N|]. split; [exact Fx|discriminate].
    + cbn [wrapd] in W. destruct (content h a) as [|n [|n' l]]; try discriminate W. destruct q as [q|]; [|discriminate]. injection W as <-.
      cbn [flat] in Ft. apply andb_true_iff in Ft. destruct Ft as [A Ft]. apply negb_true_iff in A. split; [|auto].
      destruct (CtSpec.starts_arr ds); [discriminate (S eq_refl)|exact N].
    + cbn [wrapd] in W. destruct q as [q|]; [|discriminate]. destruct (read_args read_type _); [|discriminate]. injection W as <-.
      split; [exact N|]. split; [exact Ft|discriminate].
Qed.
(** The last modifier is the outermost one. *)
Lemma build_last h ds qs q n u : build (map (filld h) ds) qs (TBase q n) = Some u ->
  (ds = [] /\ qs = [] /\ u = TBase q n)
  \/ exists ds' d qs' q' t, ds = ds' ++ [d] /\ qs = qs' ++ [q'] /\ build (map (filld h) ds') qs' (TBase q n) = Some t /\ wrapd (filld h d) q' t = Some u.
Proof.
  intros B. pose proof (build_length _ _ _ _ B) as L. rewrite map_length in L.
  destruct (destruct_last ds) as [->|(d & ds' & ->)].
  - destruct qs; [|discriminate]. left. cbn in B. injection B as <-. auto.
  - right. destruct (destruct_last qs) as [->|(q' & qs' & ->)]; [rewrite app_length in L; cbn in L; lia|].
    rewrite !app_length in L. cbn [length] in L. rewrite map_app in B. cbn [map] in B. rewrite build_snoc in B by (rewrite map_length; lia).
    destruct (build (map (filld h) ds') qs' (TBase q n)) as [t|] eqn:B1; [|discriminate]. exists ds', d, qs', q', t. auto.
Qed.
(** Inversion of the last modifier by the type it makes. *)
Lemma wrapd_ptr h d q' t q u : wrapd (filld h d) q' t = Some (TPtr q u) -> d = DStr $"*" /\ t = u.
Proof.
  destruct d as [x|a|args]; cbn [filld wrapd].
  - destruct q' as [q'|]; [|discriminate]. destruct (eqb_spec x $"*") as [->|]; [intros E; injection E as _ ->; auto|].
    destruct (eqb x $"&"); discriminate.
  - destruct (content h a) as [|n [|n' l]]; try discriminate. destruct q'; discriminate.
  - destruct q'; [|discriminate]. destruct (read_args read_type _); discriminate.
Qed.
Lemma wrapd_ref h d q' t q u : wrapd (filld h d) q' t = Some (TRef q u) -> d = DStr $"&" /\ t = u.
Proof.
  destruct d as [x|a|args]; cbn [filld wrapd].
  - destruct q' as [q'|]; [|discriminate]. destruct (eqb x $"*"); [discriminate|]. destruct (eqb_spec x $"&") as [->|]; [|discriminate].
    intros E; injection E as _ ->; auto.
  - destruct (content h a) as [|n [|n' l]]; try discriminate. destruct q'; discriminate.
  - destruct q'; [|discriminate]. destruct (read_args read_type _); discriminate.
Qed.
Lemma wrapd_arr h d q' t q n u : wrapd (filld h d) q' t = Some (TArr q n u) -> exists a, d = DArr a /\ content h a = [n] /\ t = u.
Proof.
  destruct d as [x|a|args]; cbn [filld wrapd].
  - destruct q' as [q'|]; [|discriminate]. destruct (eqb x $"*"); [discriminate|]. destruct (eqb x $"&"); discriminate.
  - destruct (content h a) as [|m [|n' l]] eqn:C; try discriminate. destruct q'; [|discriminate]. intros E; injection E as _ -> ->. eauto.
  - destruct q'; [|discriminate]. destruct (read_args read_type _); discriminate.
Qed.
Lemma wrapd_fun h d q' t q l u : wrapd (filld h d) q' t = Some (TFun q l u) ->
  exists args, d = DFun args /\ read_args read_type (map (fun a => (fst (fst a), fill h (snd (fst a)), snd a)) args) = Some l /\ t = u.
Proof.
  destruct d as [x|a|args]; cbn [filld wrapd].
  - destruct q' as [q'|]; [|discriminate]. destruct (eqb x $"*"); [discriminate|]. destruct (eqb x $"&"); discriminate.
  - destruct (content h a) as [|m [|n' l']] eqn:C; try discriminate. destruct q'; discriminate.
  - destruct q'; [|discriminate]. destruct (read_args read_type _) as [l'|] eqn:R; [|discriminate]. intros E; injection E as _ -> ->. eauto.
Qed.
Lemma wrapd_not_base h d q' t q n : wrapd (filld h d) q' t <> Some (TBase q n).
Proof.
  destruct d as [x|a|args]; cbn [filld wrapd].
  - destruct q' as [q'|]; [|discriminate]. destruct (eqb x $"*"); [discriminate|]. destruct (eqb x $"&"); discriminate.
  - destruct (content h a) as [|m [|n' l']] eqn:C; try discriminate. destruct q'; discriminate.
  - destruct q'; [|discriminate]. destruct (read_args read_type _) as [l'|] eqn:R; discriminate.
Qed.
(** What the loop does next does not depend on the modifiers before. *)
Definition next_ok (t : cty) (r : list rdecl) : Prop :=
  is_function_pointer t = true -> match r with d :: _ => look_at d = LOther | [] => True end.
Lemma steps_app cf table s D cl h t c : direct cf table s D cl t c -> forall ds qs q n, build (map (filld h) ds) qs (TBase q n) = Some t ->
  forall r, next_ok t r -> steps (ds ++ r) = steps ds ++ steps r.
Proof.
  induction 1 as [q0 n0 c O|q0 t p (q' & n' & -> & I)|q0 t c N NF X IH|q0 t c X IH|q0 z t c L A X IH NV|q0 q1 l t c cs X IH Al];
    intros ds qs q n B r NX.
  - destruct (build_last _ _ _ _ _ _ B) as [(-> & _)|(ds' & d & qs' & q2 & t2 & _ & _ & _ & W)]; [reflexivity|]. now apply wrapd_not_base in W.
  - destruct (build_last _ _ _ _ _ _ B) as [(_ & _ & E)|(ds' & d & qs' & q2 & t2 & -> & -> & B1 & W)]; [discriminate|].
    apply wrapd_ptr in W. destruct W as [-> ->].
    destruct (build_last _ _ _ _ _ _ B1) as [(-> & _)|(ds2 & d & qs2 & q3 & t3 & _ & _ & _ & W)]; [reflexivity|]. now apply wrapd_not_base in W.
  - destruct (build_last _ _ _ _ _ _ B) as [(_ & _ & E)|(ds' & d & qs' & q2 & t2 & -> & -> & B1 & W)]; [discriminate|].
    apply wrapd_ptr in W. destruct W as [-> ->]. rewrite <- app_assoc. cbn [app].
    rewrite !(IH _ _ _ _ B1) by (intros Y; rewrite NF in Y; discriminate). rewrite <- app_assoc. reflexivity.
  - destruct (build_last _ _ _ _ _ _ B) as [(_ & _ & E)|(ds' & d & qs' & q2 & t2 & -> & -> & B1 & W)]; [discriminate|].
    apply wrapd_ref in W. destruct W as [-> ->]. rewrite <- app_assoc. cbn [app].
    rewrite !(IH _ _ _ _ B1) by (intros Y; reflexivity). rewrite <- app_assoc. reflexivity.
  - destruct (build_last _ _ _ _ _ _ B) as [(_ & _ & E)|(ds' & d & qs' & q2 & t2 & -> & -> & B1 & W)]; [discriminate|].
    apply wrapd_arr in W. destruct W as (a & -> & _ & ->). rewrite <- app_assoc. cbn [app].
    rewrite !(IH _ _ _ _ B1) by (intros Y; reflexivity). rewrite <- app_assoc. reflexivity.
  - destruct (build_last _ _ _ _ _ _ B) as [(_ & _ & E)|(ds' & d & qs' & q2 & t2 & -> & -> & B1 & W)]; [discriminate|].
    apply wrapd_ptr in W. destruct W as [-> ->].
    destruct (build_last _ _ _ _ _ _ B1) as [(_ & _ & E)|(ds2 & d & qs2 & q3 & t3 & -> & -> & B2 & W)]; [discriminate|].
    apply wrapd_fun in W. destruct W as (args & -> & _ & ->). rewrite <- !app_assoc. cbn [app].
    rewrite !(IH _ _ _ _ B2) by (intros Y; reflexivity). rewrite <- app_assoc. f_equal. specialize (NX eq_refl).
    cbn [steps]. change (look_at (DStr $"*")) with LStar. cbv iota. destruct r as [|d r]; [reflexivity|]. rewrite NX. reflexivity.
Qed.
