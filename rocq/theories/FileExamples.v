(** Definitions used by the examples of PropsFile, and ways of checking their hypotheses. *)
From Coq Require Import Ascii String Bool Arith ZArith Lia List.
Import ListNotations.
From Verif Require Import PyBase PyBaseFacts PyStr PyStrFacts PyExpr TypeModel StoreModel StoreSpec DeclModel EvalModel.
From Verif Require Import MacroModel MacroSpec MacroDefProofs PpModel PpSpec ExprSpec TextSpec PpExamples FileModel FileSpec.

(** ** Words and replacement *)
Fixpoint cut (s : str) : list piece :=
  match s with
  | [] => []
  | c :: r =>
      match cut r, is_word c with
      | PWord w :: t, true => PWord (c :: w) :: t
      | PGap g :: t, false => PGap (c :: g) :: t
      | t, true => PWord [c] :: t
      | t, false => PGap [c] :: t
      end
  end.
Lemma cut_words s : words_of s (cut s).
Proof.
  induction s as [|c s IH]; [split; [reflexivity|split; [exact I|intros p []]]|].
  destruct IH as (E & M & A). cbn [cut].
  assert (G : forall w t, is_word c = true -> match cut s with PWord _ :: _ => False | _ => True end -> w = c -> t = cut s -> words_of (c :: s) (PWord [w] :: t)).
  { intros w t W N -> ->. split; [change (text (PWord [c] :: cut s)) with (c :: text (cut s)); rewrite <- E; reflexivity|]. split.
    - cbn [maximal]. destruct (cut s) as [|[| |] ?]; try exact M; contradiction.
    - intros p [<-|I1]; [|apply A; exact I1]. split; [discriminate|]. intros d [<-|[]]. exact W. }
  assert (G2 : forall w t, is_word c = false -> w = c -> t = cut s -> words_of (c :: s) (PGap [w] :: t)).
  { intros w t W -> ->. split; [change (text (PGap [c] :: cut s)) with (c :: text (cut s)); rewrite <- E; reflexivity|]. split; [exact M|].
    intros p [<-|I1]; [|apply A; exact I1]. split; [discriminate|]. intros d [<-|[]]. exact W. }
  destruct (cut s) as [|[g|w|l] t] eqn:EC; destruct (is_word c) eqn:W.
  - apply G; auto.
  - apply G2; auto.
  - apply G; auto.
  - split; [change (c :: s = c :: (g ++ text t)); f_equal; exact E|]. split; [exact M|].
    intros p [<-|I1]; [|apply A; right; exact I1]. destruct (A (PGap g) (or_introl eq_refl)) as [_ B]. split; [discriminate|]. intros d [<-|I1]; [exact W|apply B; exact I1].
  - split; [change (c :: s = c :: (w ++ text t)); f_equal; exact E|]. split; [destruct t as [|[| |] ?]; exact M|].
    intros p [<-|I1]; [|apply A; right; exact I1]. destruct (A (PWord w) (or_introl eq_refl)) as [_ B]. split; [discriminate|]. intros d [<-|I1]; [exact W|apply B; exact I1].
  - apply G2; auto.
  - exfalso. exact (A (PStr l) (or_introl eq_refl)).
  - exfalso. exact (A (PStr l) (or_introl eq_refl)).
Qed.
Fixpoint take_while (p : ascii -> bool) (s : str) : str :=
  match s with [] => [] | c :: r => if p c then c :: take_while p r else [] end.
Lemma take_drop p s : take_while p s ++ drop_while p s = s.
Proof. induction s as [|c s IH]; [reflexivity|]. cbn [take_while drop_while]. destruct (p c); [cbn [app]; rewrite IH; reflexivity|reflexivity]. Qed.
Lemma take_all p s c : In c (take_while p s) -> p c = true.
Proof.
  induction s as [|d s IH]; [intros []|]. cbn [take_while]. destruct (p d) eqn:E; [|intros []]. intros [<-|J]; [exact E|apply IH; exact J].
Qed.
Definition singleb (v : str) : bool :=
  negb (eqb v []) && eqb (strip v) v && forallb (fun c => negb (existsb (fun d => eqb d c) ["("; ")"; ","]%char)) v.
Definition argumentb (a : str) : bool := forallb (fun c => negb (existsb (fun d => eqb d c) ["("; ")"; ","; dquote]%char)) a.
Lemma free_check cs s : forallb (fun c => negb (existsb (fun d => eqb d c) cs)) s = true -> free_of cs s.
Proof.
  intros H c I1 I2. rewrite forallb_forall in H. specialize (H c I2). apply negb_true_iff in H.
  assert (X : existsb (fun d => eqb d c) cs = true) by (apply existsb_exists; exists c; split; [exact I1|apply eqb_refl]). congruence.
Qed.
Lemma single_check v : singleb v = true -> single v.
Proof.
  unfold singleb. intros H. apply andb_true_iff in H. destruct H as [H F]. apply andb_true_iff in H. destruct H as [N S].
  split; [intros ->; rewrite eqb_refl in N; discriminate N|]. split; [apply eqb_eq; exact S|apply free_check; exact F].
Qed.
(** Complete expansion. *)
Fixpoint all_some (f : str -> option str) (l : list str) : option (list str) :=
  match l with
  | [] => Some []
  | a :: r => match f a, all_some f r with Some v, Some vs => Some (v :: vs) | _, _ => None end
  end.
Definition cat (a b : option str) : option str := match a, b with Some x, Some y => Some (x ++ y) | _, _ => None end.
Fixpoint xall (n : nat) (m : cmac) (s : str) : option str :=
  match n with
  | O => None
  | S n' =>
      match s with
      | [] => Some []
      | c :: r =>
          if is_word c then
            let w := take_while is_word s in
            let r := drop_while is_word s in
            match obj m w with
            | Some b => cat (xall n' m b) (xall n' m r)
            | None =>
                if mem w (fns m) then
                  match fdef m w, drop_while (fun c => eqb c sp) r with
                  | Some (ps, b), "("%char :: r1 =>
                      match drop_while (fun c => negb (eqb c ")"%char)) r1 with
                      | ")"%char :: r2 =>
                          let args := split_on ","%char (take_while (fun c => negb (eqb c ")"%char)) r1) in
                          match all_some (xall n' m) (map strip args) with
                          | Some vals =>
                              if (length args =? length ps) && forallb argumentb args
                                 && (forallb singleb vals || forallb (fun x => negb (mem x (fns m))) (names_list b))
                                 && negb (is_word (hd sp r2))
                              then cat (xall n' m (subst (bound ps vals) (cut b))) (xall n' m r2)
                              else None
                          | None => None
                          end
                      | _ => None
                      end
                  | _, _ => None
                  end
                else cat (Some w) (xall n' m r)
            end
          else cat (Some [c]) (xall n' m r)
      end
  end.
Lemma cat_some a b o : cat a b = Some o -> exists x y, a = Some x /\ b = Some y /\ o = x ++ y.
Proof. destruct a as [x|], b as [y|]; cbn; intros E; try discriminate E. injection E as <-. exists x, y. auto. Qed.
Lemma drop_edge s : edge (drop_while is_word s).
Proof. intros c r E. apply (drop_while_head is_word s c r). exact E. Qed.
Lemma hd_edge r : is_word (hd sp r) = false -> edge r.
Proof. intros H c s ->. exact H. Qed.
Lemma xall_complete n m : forall s o, xall n m s = Some o -> complete m s o.
Proof.
  induction n as [|n IH]; intros s o H; [discriminate H|]. cbn [xall] in H. destruct s as [|c s]; [injection H as <-; apply co_nil|].
  destruct (is_word c) eqn:W.
  - set (w := take_while is_word (c :: s)) in *. set (r := drop_while is_word (c :: s)) in *.
    assert (ES : c :: s = w ++ r) by (symmetry; apply take_drop).
    assert (WW : word w). { split; [unfold w; cbn [take_while]; rewrite W; discriminate|]. intros d I1. apply (take_all is_word (c :: s)). exact I1. }
    pose proof (drop_edge (c :: s)) as ER. fold r in ER. rewrite ES. clearbody w r. clear ES.
    destruct (obj m w) as [b|] eqn:E1.
    + apply cat_some in H. destruct H as (x & y & X & Y & ->). apply co_object with (b := b); auto.
    + destruct (mem w (fns m)) eqn:E2.
      * assert (IF : In w (fns m)) by (apply (mem_In (K:=str)); exact E2).
        destruct (fdef m w) as [[ps b]|] eqn:E3; [|discriminate H].
        pose proof (take_drop (fun c => eqb c sp) r) as TR. assert (BL := take_all (fun c => eqb c sp) r).
        set (gap := take_while (fun c => eqb c sp) r) in *. clearbody gap.
        destruct (drop_while (fun c => eqb c sp) r) as [|d r1]; [discriminate H|].
        destruct (ascii_dec d "("%char) as [->|ND]; [|exfalso; revert H ND; clear; destruct d as [[] [] [] [] [] [] [] []]; intros H ND; try discriminate H; apply ND; reflexivity].
        pose proof (take_drop (fun c => negb (eqb c ")"%char)) r1) as T1. set (inside := take_while (fun c => negb (eqb c ")"%char)) r1) in *. clearbody inside.
        destruct (drop_while (fun c => negb (eqb c ")"%char)) r1) as [|d r2] eqn:DW; [discriminate H|].
        assert (d = ")"%char). { apply drop_while_head in DW. apply negb_false_iff, eqb_eq in DW. exact DW. } subst d.
        destruct (all_some (xall n m) (map strip (split_on ","%char inside))) as [vals|] eqn:AS; [|discriminate H].
        destruct ((length (split_on ","%char inside) =? length ps) && forallb argumentb (split_on ","%char inside)
                  && (forallb singleb vals || forallb (fun x => negb (mem x (fns m))) (names_list b)) && negb (is_word (hd sp r2))) eqn:C; [|discriminate H].
        apply andb_true_iff in C. destruct C as [C C4]. apply andb_true_iff in C. destruct C as [C C3]. apply andb_true_iff in C. destruct C as [C1 C2].
        apply cat_some in H. destruct H as (x & y & X & Y & ->).
        rewrite <- TR, <- T1, <- (join_split_on ","%char inside).
        replace (w ++ gap ++ "("%char :: join [","%char] (split_on ","%char inside) ++ ")"%char :: r2)
          with (w ++ gap ++ "("%char :: join [","%char] (split_on ","%char inside) ++ ")"%char :: r2) by reflexivity.
        apply co_call with (ps := ps) (b := b) (ws := cut b) (vals := vals); auto.
        -- apply hd_edge. apply negb_true_iff. exact C4.
        -- intros e I1. apply eqb_eq. exact (BL e I1).
        -- apply Nat.eqb_eq. exact C1.
        -- apply Forall_forall. intros a I1. rewrite forallb_forall in C2. apply free_check. exact (C2 a I1).
        -- clear - IH AS. revert vals AS. induction (map strip (split_on ","%char inside)) as [|a l IHl]; intros vals AS; cbn [all_some] in AS; [injection AS as <-; apply cos_nil|].
           destruct (xall n m a) as [v|] eqn:E; [|discriminate AS]. destruct (all_some (xall n m) l) as [vs|]; [|discriminate AS]. injection AS as <-.
           apply cos_cons; [apply IH; exact E|apply IHl; reflexivity].
        -- apply orb_true_iff in C3. destruct C3 as [C3|C3]; [left|right].
           ++ apply Forall_forall. intros v I1. rewrite forallb_forall in C3. apply single_check. exact (C3 v I1).
           ++ intros e I1 I2. rewrite forallb_forall in C3. specialize (C3 e (name_in_list e b I1)). apply (mem_In (K:=str)) in I2. rewrite I2 in C3. discriminate C3.
        -- apply cut_words.
      * apply cat_some in H. destruct H as (x & y & X & Y & ->). injection X as <-. apply co_word; auto.
        intros [K|K]; [contradiction|]. apply (mem_In (K:=str)) in K. congruence.
  - apply cat_some in H. destruct H as (x & y & X & Y & ->). injection X as <-. apply co_char; [exact W|apply IH; exact Y].
Qed.
Lemma literal_check s : (length (filter (fun c => eqb c dquote) s) <=? 1) = true -> no_literal s.
Proof.
  intros H a b -> I1. apply Nat.leb_le in H. rewrite filter_app in H. cbn [filter] in H. rewrite eqb_refl, app_length in H. cbn [length] in H.
  assert (X : In dquote (filter (fun c => eqb c dquote) b)) by (apply filter_In; split; [exact I1|apply eqb_refl]).
  destruct (filter (fun c => eqb c dquote) b); [destruct X|cbn [length] in H; lia].
Qed.
Lemma expands_check m s o : (length (filter (fun c => eqb c dquote) s) <=? 1) = true -> xall 300 m s = Some o -> expands m s o.
Proof. intros L X. apply ex_macros; [apply literal_check; exact L|apply (xall_complete 300); exact X]. Qed.
Lemma unknown_check m w : obj m w = None -> mem w (fns m) = false -> ~ known_to m w.
Proof. intros E M [H|H]; [contradiction|]. apply (mem_In (K:=str)) in H. congruence. Qed.
Lemma unlisted_check m w : mem w (fns m) = false -> ~ In w (fns m).
Proof. intros M H. apply (mem_In (K:=str)) in H. congruence. Qed.
Lemma not_named w s : mem w (names_list s) = false -> ~ name_in w s.
Proof. intros M I1. apply name_in_list, (mem_In (K:=str)) in I1. congruence. Qed.
Lemma mentioned_none n : ~ mentioned no_macros n.
Proof. intros [(w & b & E & _)|(w & ps & b & E & _)]; discriminate E. Qed.
Lemma mentioned_set m n x b : ~ mentioned m n -> match b with Some t => mem n (names_list t) = false | None => True end -> ~ mentioned (set_obj m x b) n.
Proof.
  intros M N [(w & t & E & I1)|(w & ps & t & E & I1)]; [|apply M; right; exists w, ps, t; auto].
  unfold set_obj in E. cbn [obj] in E. destruct (eqb w x).
  - subst b. apply (not_named n t N I1).
  - apply M. left. exists w, t. auto.
Qed.
Lemma mentioned_fn m n x d : ~ mentioned m n -> match d with Some (_, t) => mem n (names_list t) = false | None => True end -> ~ mentioned (add_fn m x d) n.
Proof.
  intros M N [(w & t & E & I1)|(w & ps & t & E & I1)]; [apply M; left; exists w, t; auto|].
  unfold add_fn in E. cbn [fdef] in E. destruct (eqb w x).
  - subst d. apply (not_named n t N I1).
  - apply M. right. exists w, ps, t. auto.
Qed.
Ltac unmentioned := lazymatch goal with
  | |- ~ mentioned no_macros _ => apply mentioned_none
  | |- ~ mentioned (set_obj _ _ _) _ => apply mentioned_set; [unmentioned|vm_compute; first [reflexivity|exact I]]
  | |- ~ mentioned (add_fn _ _ _) _ => apply mentioned_fn; [unmentioned|vm_compute; first [reflexivity|exact I]]
  end.
(** No parameter list. *)
Lemma no_params v : pp_args v = None -> forall l r, ~ begins_with_names v l r.
Proof. intros P l r B. apply pp_args_complete in B. congruence. Qed.
Lemma blanks_check s : forallb (fun c => eqb c sp) s = true -> blanks s.
Proof. intros H c I1. rewrite forallb_forall in H. apply eqb_eq. apply H. exact I1. Qed.
(** Lines [#define name body]. *)
Lemma object_check a n body b : identb n = true -> forallb (fun c => eqb c sp) a = true -> forallb (fun c => eqb c sp) b = true ->
  (if a then eqb body [] else true) = true -> eqb (strip body) body = true ->
  forallb (fun c => negb (existsb (fun d => eqb d c) [PyStr.tab; nl; cr])) body = true ->
  object_line n body ($"#define " ++ n ++ a ++ body ++ b).
Proof.
  intros I1 A B X S P. exists [sp], a, b. split.
  - exists [], []. split; [reflexivity|]. split; [reflexivity|]. split; [reflexivity|]. intros c r E. injection E as <- _. reflexivity.
  - split; [reflexivity|]. split; [discriminate|]. split; [apply blanks_check; exact A|]. split; [apply blanks_check; exact B|].
    split; [destruct a; [right; apply eqb_eq; exact X|left; discriminate]|]. split; [apply identb_ok; exact I1|].
    split; [apply eqb_eq; exact S|apply free_check; exact P].
Qed.
Ltac object_ok a n body b :=
  match goal with |- object_line _ _ ?l => change l with ($"#define " ++ n ++ a ++ body ++ b) end; apply object_check; vm_compute; reflexivity.
(** Names that no replacement list brings in. *)
Definition never (m : cmac) (x : str) : Prop :=
  (forall w b, obj m w = Some b -> ~ name_in x b) /\ (forall w ps b, fdef m w = Some (ps, b) -> name_in x b -> In x ps).
Lemma never_uses m s x : never m x -> ~ uses m s x.
Proof.
  intros [NO NF] U. induction U as [s w b x W O N|s w b x W O _ IH|s w ps b x W FD N NP|s w ps b x W FD _ IH].
  - exact (NO w b O N).
  - apply IH; assumption.
  - apply NP. exact (NF w ps b FD N).
  - apply IH; assumption.
Qed.
Lemma never_none x : never no_macros x.
Proof. split; intros w; [intros b E|intros ps b E]; discriminate E. Qed.
Lemma never_set m x n b : never m x -> match b with Some t => mem x (names_list t) = false | None => True end -> never (set_obj m n b) x.
Proof.
  intros [NO NF] H. split; [|exact NF]. intros w t E. unfold set_obj in E. cbn [obj] in E. destruct (eqb w n); [subst b; apply not_named; exact H|apply (NO w t E)].
Qed.
Lemma never_fn m x n d : never m x -> match d with Some (ps, t) => mem x ps || negb (mem x (names_list t)) = true | None => True end -> never (add_fn m n d) x.
Proof.
  intros [NO NF] H. split; [exact NO|]. intros w ps t E J. unfold add_fn in E. cbn [fdef] in E. destruct (eqb w n); [|apply (NF w ps t E J)].
  subst d. apply orb_true_iff in H. destruct H as [H|H]; [apply (mem_In (K:=str)); exact H|]. exfalso. apply negb_true_iff in H. exact (not_named x t H J).
Qed.
Ltac unused := lazymatch goal with
  | |- never no_macros _ => apply never_none
  | |- never (set_obj _ _ _) _ => apply never_set; [unused|vm_compute; first [reflexivity|exact I]]
  | |- never (add_fn _ _ _) _ => apply never_fn; [unused|vm_compute; first [reflexivity|exact I]]
  end.
(** Lines [#define name(parameters) body]. *)
Lemma function_check m n params ps a body b v : identb n = true ->
  name_list params ps (a ++ body ++ b) -> forallb (fun c => eqb c sp) a = true -> forallb (fun c => eqb c sp) b = true -> mem n ps = false ->
  Forall (fun p => ~ known_to m p /\ never m p) ps -> eqb (strip body) body = true ->
  forallb (fun c => negb (existsb (fun d => eqb d c) [dquote; "#"%char])) body = true -> mem n (names_list body) = false ->
  xall 300 m body = Some v -> eqb (strip v) v = true -> forallb (fun c => negb (existsb (fun d => eqb d c) [PyStr.tab; nl; cr])) v = true ->
  forallb (fun c => negb (existsb (fun d => eqb d c) [dquote; "{"%char; "}"%char])) v = true ->
  function_line m n (Some (ps, body)) ($"#define " ++ n ++ "("%char :: params).
Proof.
  intros I1 NL A B NN FP S F NB X SV PV FV. apply fl_called with (g := [sp]) (params := params) (a := a) (b := b) (v := v).
  - exists [], []. split; [reflexivity|]. split; [reflexivity|]. split; [reflexivity|]. intros c r E. injection E as <- _. reflexivity.
  - reflexivity.
  - discriminate.
  - apply identb_ok. exact I1.
  - exact NL.
  - apply blanks_check. exact A.
  - apply blanks_check. exact B.
  - intros J. apply (mem_In (K:=str)) in J. congruence.
  - intros p J. rewrite Forall_forall in FP. destruct (FP p J) as [K N]. split; [exact K|]. apply never_uses. exact N.
  - apply eqb_eq. exact S.
  - apply free_check. exact F.
  - apply not_named. exact NB.
  - apply (xall_complete 300). exact X.
  - apply eqb_eq. exact SV.
  - apply free_check. exact PV.
  - apply free_check. exact FV.
Qed.
(** Comments. *)
Definition code (s : str) : list part := map ACode s.
Fixpoint readsb (ps : list part) : bool :=
  match ps with
  | [] => true
  | p :: r =>
      match p with
      | ACode c => negb (existsb (fun d => eqb d c) quotes)
                   && (negb (eqb c "/"%char) || match parts_text r with d :: _ => negb (eqb d "/"%char) && negb (eqb d "*"%char) | [] => true end)
      | AQuoted q b => existsb (fun d => eqb d q) quotes && forallb (fun c => negb (existsb (fun d => eqb d c) [q; bslash; nl; cr])) b
      | ABlock b => forallb (fun n => negb (starts_with $"*/" (skipn n b))) (seq 0 (S (length b)))
      | ALine b => negb (existsb (fun d => eqb d nl) b) && match rev b with c :: _ => negb (eqb c bslash) | [] => true end
                   && match parts_text r with d :: _ => eqb d nl | [] => true end
      end && readsb r
  end.
Lemma reads_check ps : readsb ps = true -> reads_as ps.
Proof.
  induction ps as [|p ps IH]; intros H; [exact I|]. cbn [readsb] in H. apply andb_true_iff in H. destruct H as [H H']. split; [|apply IH; exact H'].
  destruct p as [c|q b|b|b].
  - apply andb_true_iff in H. destruct H as [H1 H2]. split.
    + intros I1. apply negb_true_iff in H1. assert (existsb (fun d => eqb d c) quotes = true) by (apply existsb_exists; exists c; split; [exact I1|apply eqb_refl]). congruence.
    + intros -> d s E. rewrite eqb_refl, E in H2. cbn [negb orb] in H2. apply andb_true_iff in H2. destruct H2 as [H2 H3].
      split; intros ->; [rewrite eqb_refl in H2; discriminate H2|rewrite eqb_refl in H3; discriminate H3].
  - apply andb_true_iff in H. destruct H as [H1 H2]. split; [apply existsb_exists in H1; destruct H1 as (d & I1 & E); apply eqb_eq in E; subst d; exact I1|].
    clear - H2. induction b as [|c b IH]; [constructor|]. cbn [forallb] in H2. apply andb_true_iff in H2. destruct H2 as [H2 H3]. constructor; [|apply IH; exact H3].
    intros I1. apply negb_true_iff in H2. assert (existsb (fun d => eqb d c) [q; bslash; nl; cr] = true) by (apply existsb_exists; exists c; split; [exact I1|apply eqb_refl]). congruence.
  - intros (x & y & ->). rewrite forallb_forall in H. specialize (H (length x)).
    rewrite skipn_app, skipn_all, Nat.sub_diag in H. cbn [app skipn] in H. rewrite PyStrFacts.starts_with_app in H.
    assert (false = true) by (apply H; apply in_seq; rewrite !app_length; lia). discriminate.
  - apply andb_true_iff in H. destruct H as [H H3]. apply andb_true_iff in H. destruct H as [H1 H2]. split; [|split].
    + intros I1. apply negb_true_iff in H1. assert (existsb (fun d => eqb d nl) b = true) by (apply existsb_exists; exists nl; split; [exact I1|apply eqb_refl]). congruence.
    + intros a ->. rewrite rev_app_distr in H2. cbn [rev app] in H2. rewrite eqb_refl in H2. discriminate H2.
    + intros d s E. rewrite E in H3. apply eqb_eq. exact H3.
Qed.
Lemma occurs_check s : forallb (fun n => negb (starts_with continuation (skipn n s))) (seq 0 (S (length s))) = true -> ~ occurs continuation s.
Proof.
  intros H (x & y & ->). rewrite forallb_forall in H. specialize (H (length x)).
  rewrite skipn_app, skipn_all, Nat.sub_diag in H. cbn [app skipn] in H. rewrite PyStrFacts.starts_with_app in H.
  assert (false = true) by (apply H; apply in_seq; rewrite !app_length; lia). discriminate.
Qed.
(** Tables of macros. *)
Fixpoint mac (d : list (str * str)) : cmac := match d with [] => no_macros | (n, b) :: r => set_obj (mac r) n (Some b) end.
Lemma stands_check d t : map fst d = keys (macros t) -> fnmacros t = [] -> names_identb t = true ->
  forallb (fun p => match obj (mac d) (fst p), dget (macros t) (fst p) with
                    | Some b, Some v => match xall 300 (mac d) b with Some o => eqb o v | None => false end
                    | _, _ => false
                    end) d = true -> stands_for t (mac d).
Proof.
  intros K F N C. rewrite forallb_forall in C.
  assert (O : forall w, obj (mac d) w = None <-> ~ In w (map fst d)).
  { clear. induction d as [|[n b] d IH]; intros w; cbn [mac map fst]; [split; [intros _ []|reflexivity]|]. unfold set_obj. cbn [obj].
    destruct (eqb_spec w n) as [->|X].
    - split; [discriminate|]. intros H. destruct H. left. reflexivity.
    - rewrite IH. split; [intros H [E|E]; [congruence|contradiction]|]. intros H E. apply H. right. exact E. }
  assert (D : forall w, dget (macros t) w = None <-> ~ In w (map fst d)).
  { intros w. rewrite K. split.
    - intros E I1. apply dmem_In in I1. unfold dmem in I1. rewrite E in I1. discriminate I1.
    - intros X. destruct (dget (macros t) w) eqn:E; [|reflexivity]. exfalso. apply X. apply dmem_In. unfold dmem. rewrite E. reflexivity. }
  assert (FD : forall w, fdef (mac d) w = None) by (clear; induction d as [|[n b] d IH]; [reflexivity|exact IH]).
  split; [|split; [|split; [|split]]].
  - intros w. rewrite O, D. reflexivity.
  - intros w v E. assert (I1 : In w (map fst d)). { destruct (in_dec (list_eq_dec ascii_dec) w (map fst d)) as [H|H]; [exact H|]. apply D in H. congruence. }
    apply in_map_iff in I1. destruct I1 as ([n b] & <- & I1). specialize (C (n, b) I1). cbn [fst] in *. rewrite E in C.
    destruct (obj (mac d) n) as [b'|]; [|discriminate C]. exists b'. split; [reflexivity|].
    destruct (xall 300 (mac d) b') as [o|] eqn:X; [|discriminate C]. apply eqb_eq in C. subst o. apply (xall_complete 300). exact X.
  - intros w. rewrite F. cbn [dget]. assert (X : fns (mac d) = []) by (clear; induction d as [|[n b] d IH]; [reflexivity|exact IH]). rewrite X. split; [intros H; destruct H; reflexivity|intros []].
  - intros w ps b E. rewrite FD in E. discriminate E.
  - apply names_identb_ok. exact N.
Qed.
(** Blocks without definitions, where they are skipped. *)
Lemma well_line l b : mem (dname l) [$"if"; $"ifdef"; $"ifndef"; $"elif"; $"else"; $"endif"] = false ->
  match directive l with Some (d, r) => negb (mem d [$"define"; $"undef"]) || match macro_name r with Some _ => true | None => false end | None => true end = true ->
  well_formed b -> well_formed (BLine l b).
Proof.
  intros H1 H2 W. cbn [well_formed]. split; [|split; [|exact W]].
  - intros I1. apply (mem_In (K:=str)) in I1. congruence.
  - intros (d & r & D & I1 & M). rewrite D, M in H2. rewrite orb_false_r in H2. apply negb_true_iff in H2. apply (mem_In (K:=str)) in I1. congruence.
Qed.
Lemma well_cond l body t rest : opens l -> well_formed body -> bwell_formed t -> well_formed rest -> well_formed (BCond l body t rest).
Proof. cbn [well_formed]. auto. Qed.
Lemma well_else l body e : dname l = $"else" -> well_formed body -> dname e = $"endif" -> bwell_formed (RElse l body e).
Proof. cbn [bwell_formed]. auto. Qed.
(** The next token of an expression, behind the blanks [g]. *)
Ltac token_ok g t :=
  match goal with |- spells _ ?s => let r := eval vm_compute in (skipn (length g + length t) s) in change s with (g ++ t ++ r) end;
  apply spells_tok; [gap_ok|constructor; try (split; reflexivity); try discriminate
                    |intros c r X; injection X as <- _; cbn [apart]; first [exact Logic.I|split; [reflexivity|no_in]|split; [no_in|discriminate]|no_in]|].
