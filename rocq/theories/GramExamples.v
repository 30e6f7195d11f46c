(** Definitions used by the examples of PropsGram, and ways of checking their hypotheses. *)
From Coq Require Import Ascii String Bool Arith ZArith Lia List.
Import ListNotations.
From Verif Require NoiseProofs.
From Verif Require Import PyBase PyBaseFacts PyStr PyStrFacts PyExpr TypeModel StoreModel StoreSpec PpModel DeclModel DeclSpec
  GramModel GramSpec GramLex RunSpec.

(** ** Layouts *)
Fixpoint take_while (p : ascii -> bool) (s : str) : str * str :=
  match s with
  | c :: r => if p c then let (a, b) := take_while p r in (c :: a, b) else ([], s)
  | [] => ([], [])
  end.
Definition wordb (t : str) : bool :=
  match t with c :: r => is_idstart c && forallb is_idchar r | [] => false end.
Definition numb (t : str) : bool := match t with [] => false | _ => forallb is_digit t end.
Definition num_uint (t : str) : bool := (* digits and U, L *)
  let d := fst (take_while is_digit t) in let u := snd (take_while is_digit t) in
  match d with [] => false | _ => forallb is_digit d end && forallb is_suffix_char u && eqb (d ++ u) t.
Definition bodyb (t : str) : bool :=
  match t with
  | c :: r => cheq c "{" && match rev r with
                            | d :: b => cheq d "}" && forallb (fun c => negb (is_quote c || cheq c "{" || cheq c "}")) b
                            | [] => false
                            end
  | [] => false
  end.
Definition tokenb (t : str) : bool := wordb t || num_uint t || mem t puncts || bodyb t.
Lemma word_check t : wordb t = true -> word t.
Proof. destruct t as [|c r]; [discriminate|]. cbn [wordb]. intros H. apply andb_true_iff in H. exact H. Qed.
Lemma num_check t : numb t = true -> num t t.
Proof.
  intros H. assert (N : t <> []) by (intros ->; discriminate). split; [left; split; [exact N|destruct t; [discriminate|exact H]]|].
  exists []. split; [reflexivity|]. rewrite app_nil_r. reflexivity.
Qed.
Lemma balanced_plain b : forallb (fun c => negb (is_quote c || cheq c "{" || cheq c "}")) b = true -> balanced b.
Proof.
  induction b as [|c b IH]; intros H; [constructor|]. cbn [forallb] in H. apply andb_true_iff in H. destruct H as [H H'].
  apply negb_true_iff, orb_false_iff in H. destruct H as [H H3]. apply orb_false_iff in H. destruct H as [H1 H2].
  apply bal_char; [exact H1| | |apply IH; exact H']; intros ->; [discriminate H2|discriminate H3].
Qed.
Lemma body_check t : bodyb t = true -> fun_body t.
Proof.
  destruct t as [|c r]; [discriminate|]. cbn [bodyb]. intros H. apply andb_true_iff in H. destruct H as [H1 H]. apply cheq_true in H1. subst c.
  destruct (rev r) as [|d b] eqn:E; [discriminate|]. apply andb_true_iff in H. destruct H as [H2 H]. apply cheq_true in H2. subst d.
  assert (ER : r = rev b ++ ["}"%char]) by (rewrite <- (rev_involutive r), E; reflexivity). exists (rev b). split; [|rewrite ER; reflexivity].
  apply balanced_plain. apply forallb_forall. intros x I1. rewrite forallb_forall in H. apply H. apply in_rev. exact I1.
Qed.
Lemma token_check t : tokenb t = true -> token t.
Proof.
  unfold tokenb. intros H. apply orb_true_iff in H. destruct H as [H|H]; [|right; right; right; right; apply body_check; exact H].
  apply orb_true_iff in H. destruct H as [H|H]; [|right; right; left; apply mem_str; exact H].
  apply orb_true_iff in H. destruct H as [H|H]; [left; apply word_check; exact H|right; left].
  unfold num_uint in H. apply andb_true_iff in H. destruct H as [H H3]. apply andb_true_iff in H. destruct H as [H1 H2]. apply eqb_eq in H3.
  exists (fst (take_while is_digit t)). split; [left; destruct (fst (take_while is_digit t)); [discriminate H1|split; [discriminate|exact H1]]|].
  exists (snd (take_while is_digit t)). split; [exact H2|symmetry; exact H3].
Qed.
(** Tokens with the white space in front of each. *)
Fixpoint layb (c : ascii) (l : list (str * str)) : bool :=
  match l with
  | [] => true
  | (b, t) :: l' =>
      forallb is_ws b && tokenb t
      && match b, t with [], d :: _ => negb (glue c d) | _, _ => true end
      && layb (last t c) l'
  end.
Lemma lay_check l e : forallb is_ws e = true -> forall c, layb c l = true ->
  lay c (map snd l) (flat_map (fun x => fst x ++ snd x) l ++ e).
Proof.
  intros E. induction l as [|[b t] l IH]; intros c H; [constructor; exact E|]. cbn [layb] in H. apply andb_true_iff in H. destruct H as [H H4].
  apply andb_true_iff in H. destruct H as [H H3]. apply andb_true_iff in H. destruct H as [H1 H2]. cbn [map flat_map fst snd]. rewrite <- !app_assoc.
  destruct t as [|d r]; [discriminate H2|]. apply (lay_tok c b (d :: r) d r); [exact H1|apply token_check; exact H2|reflexivity| |apply IH; exact H4].
  intros ->. apply negb_true_iff in H3. exact H3.
Qed.
(** Splitting a text without literals into such pairs. *)
Fixpoint split_text (f : nat) (s : str) : list (str * str) * str :=
  match f with
  | O => ([], s)
  | S f' =>
      let (b, r) := take_while is_ws s in
      match r with
      | [] => ([], b)
      | c :: r1 =>
          let (t, r2) :=
            if is_idchar c then take_while is_idchar r
            else match r1 with
                 | d :: r3 => if mem [c; d] ops2 then ([c; d], r3) else ([c], r1)
                 | [] => ([c], r1)
                 end in
          let (l, e) := split_text f' r2 in ((b, t) :: l, e)
      end
  end.
Definition split_all (s : str) : list (str * str) * str := split_text (S (length s)) s.
Lemma bare_check base mods pack ds s :
  let l := fst (split_all s) in let e := snd (split_all s) in
  seq_list (sp_top base mods pack) ds (map snd l) ->
  forallb (fun t => negb (mem PyStr.tab t)) (map snd l) = true -> layb nl l = true -> forallb is_ws e = true ->
  eqb (flat_map (fun x => fst x ++ snd x) l ++ e) s = true -> bare_header base mods pack ds s.
Proof.
  intros l e H1 H2 H3 H4 H5. exists (map snd l). split; [exact H1|]. split.
  - apply Forall_forall. intros t I1. left. rewrite forallb_forall in H2. specialize (H2 t I1). apply negb_true_iff in H2. intros I2.
    apply mem_In in I2. congruence.
  - apply eqb_eq in H5. unfold written. rewrite <- H5. apply lay_check; assumption.
Qed.
Lemma header_check base mods pack ds s :
  let l := fst (split_all s) in let e := snd (split_all s) in
  seq_list (sp_top base mods pack) ds (map snd l) ->
  forallb (fun t => negb (mem PyStr.tab t)) (map snd l) = true -> layb nl l = true -> forallb is_ws e = true ->
  eqb (flat_map (fun x => fst x ++ snd x) l ++ e) s = true -> header base mods pack ds s.
Proof. intros l e H1 H2 H3 H4 H5. apply NoiseProofs.bare_noisy. apply bare_check; assumption. Qed.

(** ** Spellings *)
Definition plainb (base mods : list str) (n : str) : bool :=
  wordb n && negb (mem n (c_keywords base)) && negb (mem n mods) && negb (mem n c_storage)
  && negb (eqb n $"typedef") && negb (starts_with $"__" n).
Lemma plain_check base mods n : plainb base mods n = true -> plain_name base mods n.
Proof.
  unfold plainb. intros H. apply andb_true_iff in H. destruct H as [H H6]. apply andb_true_iff in H. destruct H as [H H5].
  apply andb_true_iff in H. destruct H as [H H4]. apply andb_true_iff in H. destruct H as [H H3]. apply andb_true_iff in H. destruct H as [H1 H2].
  assert (M : forall l, negb (mem n l) = true -> ~ In n l).
  { intros l X I1. apply mem_str in I1. rewrite I1 in X. discriminate X. }
  split; [apply word_check; exact H1|]. split; [apply M; exact H2|]. split; [apply M; exact H3|]. split; [apply M; exact H4|].
  split; [intros ->; discriminate H5|]. apply negb_true_iff. exact H6.
Qed.
Lemma operand_check base mods n : plainb base mods n && negb (starts_with $"sizeof" n) && negb (starts_with $"new" n) = true -> operand base mods n.
Proof.
  intros H. apply andb_true_iff in H. destruct H as [H H3]. apply andb_true_iff in H. destruct H as [H1 H2].
  split; [apply plain_check; exact H1|]. split; apply negb_true_iff; assumption.
Qed.
Lemma quals_check q : forallb (fun w => mem w c_qualifiers) q = true -> quals_ok q.
Proof. intros H. apply Forall_forall. intros w I1. rewrite forallb_forall in H. apply mem_str. apply H. exact I1. Qed.
Lemma fund_check base mods pack l : l <> [] -> forallb (fun w => mem w (c_modifiers ++ base)) l = true -> sp_type base mods pack (GWord (join [sp] l)) l.
Proof. intros N H. apply sp_fund; [exact N|]. apply Forall_forall. intros w I1. rewrite forallb_forall in H. apply mem_str. apply H. exact I1. Qed.
Lemma good_config_check base mods :
  forallb wordb (base ++ mods) = true -> forallb (fun w => negb (mem w reserved)) (base ++ mods) = true ->
  forallb (fun w => negb (mem w (c_modifiers ++ base))) mods = true -> good_config base mods.
Proof.
  intros H1 H2 H3. rewrite forallb_forall in H1, H2, H3. split; [|split; [|split]].
  - apply Forall_forall. intros w I1. apply word_check. apply H1. apply in_or_app. auto.
  - apply Forall_forall. intros w I1. apply word_check. apply H1. apply in_or_app. auto.
  - intros w I1 I2. assert (I3 : In w (base ++ mods)) by (apply in_or_app; exact I1). specialize (H2 w I3). apply mem_str in I2. rewrite I2 in H2. discriminate H2.
  - intros w I1 I2. specialize (H3 w I1). apply mem_str in I2. rewrite I2 in H3. discriminate H3.
Qed.
(** Expressions consisting of a number or a name. *)
Lemma text_num base mods t : numb t = true -> sp_text base mods t [t].
Proof. intros H. exists [t]. split; [|reflexivity]. apply sp_single. apply (sp_unary base mods [] [t] [t]); [constructor|]. apply sp_num. apply num_check. exact H. Qed.
Lemma text_name base mods n : plainb base mods n && negb (starts_with $"sizeof" n) && negb (starts_with $"new" n) = true -> sp_text base mods n [n].
Proof. intros H. exists [n]. split; [|reflexivity]. apply sp_single. apply (sp_unary base mods [] [n] [n]); [constructor|]. apply sp_name. apply operand_check. exact H. Qed.

Lemma seq_conv {A} (P : A -> list str -> Prop) l t ts : seq_list P l t -> t = ts -> seq_list P l ts.
Proof. intros H <-. exact H. Qed.
Ltac part := let H := fresh in intros H; first [exfalso; exact H|vm_compute; first [exact Logic.I|discriminate]].
Ltac spell :=
  lazymatch goal with
  | |- seq_list _ [] _ => apply sq_nil
  | |- seq_list _ (_ :: _) _ => eapply sq_cons; [spell|spell]
  | |- sep_list _ [_] _ => apply sl_one; spell
  | |- sep_list _ (_ :: _) _ => eapply sl_more; [spell|spell]
  | |- sp_top _ _ _ (GTypedef _ _) _ => eapply sp_typedef; [spell|spell|part]
  | |- sp_top _ _ _ (GVar _ _ _) _ => eapply sp_var; [left; reflexivity|spell|spell|part|spell]
  | |- sp_spec _ _ _ _ _ => eapply sp_spec_q; [apply quals_check; reflexivity|spell|apply sp_no_extra]
  | |- sp_type _ _ _ (GWord ?w) _ =>
      first [ refine (fund_check _ _ _ [w] _ _); [discriminate|reflexivity]
            | apply sp_defined; apply plain_check; reflexivity
            | let l := eval vm_compute in (split_ws w) in
              refine (fund_check _ _ _ l _ _); [discriminate|reflexivity] ]
  | |- sp_type _ _ _ (GComp _ (Some _) [] _) _ => apply sp_comp_ref; apply plain_check; reflexivity
  | |- sp_type _ _ _ (GComp _ _ _ _) _ => eapply sp_comp_def; [spell|discriminate|spell]
  | |- sp_type _ _ _ (GEnum (Some _) []) _ => apply sp_enum_ref; apply plain_check; reflexivity
  | |- sp_type _ _ _ (GEnum _ _) _ => eapply sp_enum_def; [spell|spell|left; reflexivity]
  | |- sp_tag _ _ None _ => reflexivity
  | |- sp_tag _ _ (Some _) _ => split; [apply plain_check; reflexivity|reflexivity]
  | |- sp_enumerator _ _ _ _ => split; [apply plain_check; reflexivity|eexists; split; [spell|reflexivity]]
  | |- sp_default _ _ _ _ => cbn [sp_default snd]; first [reflexivity|eexists; split; [spell|reflexivity]]
  | |- sp_text _ _ _ _ => first [apply text_num; reflexivity|apply text_name; reflexivity|eassumption]
  | |- sp_line _ _ _ (GLine _ _ _ None) _ => eapply sp_member; [spell|spell|part|spell]
  | |- sp_line _ _ _ (GLine _ _ _ (Some _)) _ => eapply sp_bits; [spell|spell|part|apply num_check; reflexivity]
  | |- sp_decls _ _ _ [] _ => apply sp_no_decls
  | |- sp_decls _ _ _ (_ :: _) _ => apply sp_some_decls; spell
  | |- sp_decl _ _ _ _ _ => eapply sp_node; [apply quals_check; reflexivity|spell|spell|spell|spell|spell]
  | |- sp_conv None _ => reflexivity
  | |- sp_conv (Some _) _ => split; [first [left; reflexivity|right; reflexivity]|reflexivity]
  | |- sp_star _ _ => split; [apply quals_check; reflexivity|reflexivity]
  | |- sp_core _ _ _ (GNamed _ _) _ => eapply sp_named; [reflexivity|apply plain_check; reflexivity]
  | |- sp_core _ _ _ (GCenter _) _ => eapply sp_center; spell
  | |- sp_args _ _ _ None _ => apply sp_no_args
  | |- sp_args _ _ _ (Some []) _ => apply sp_empty_args
  | |- sp_args _ _ _ (Some _) _ => eapply sp_some_args; spell
  | |- sp_arg _ _ _ (GArg _ (GNode _ _ _ (GAbstract _) _ _) _) _ => eapply sp_unnamed_arg; [spell|spell|spell]
  | |- sp_arg _ _ _ _ _ => eapply sp_named_arg; [spell|spell|part|spell]
  | |- sp_abstract _ _ _ _ => eapply sp_abs; [apply quals_check; reflexivity|spell|reflexivity|spell]
  | |- sp_array _ _ _ _ => first [left; split; [reflexivity|reflexivity]|right; eexists; split; [spell|reflexivity]]
  | |- sp_init _ _ NoInit _ => reflexivity
  | |- sp_init _ _ (IVal _) _ => eexists; split; [spell|reflexivity]
  | |- sp_init _ _ (IArr _) _ => eexists; split; [spell|reflexivity]
  end.

(** ** A header *)
(** [base_types] without those of <stdint.h> and <stddef.h>, c_parser.py:1835-1836, 1856. *)
Definition base0 : list str := [$"char"; $"wchar"; $"wchar_t"; $"bool"; $"void"; $"int"; $"float"; $"double"; $"size_t"].
Definition nl1 : string := String nl EmptyString.
Definition header0 : str := $(
"typedef struct point {" ++ nl1 ++
"  int x, y;" ++ nl1 ++
"  unsigned : 3;" ++ nl1 ++
"} point;" ++ nl1 ++
"enum color { RED, GREEN = 5, BLUE };" ++ nl1 ++
"const char *name(struct point *p, int n[GREEN]);" ++ nl1 ++
"typedef struct { point from; point to[2]; } line;" ++ nl1 ++
"int (*handler)(int), count = BLUE;")%string.
