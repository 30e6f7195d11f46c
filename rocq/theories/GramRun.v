(** From the trees of a header to the tables. *)
From Coq Require Import Ascii String Bool Arith ZArith Lia List.
Import ListNotations.
From Verif Require Import PyBase PyBaseFacts PyStr PyStrFacts PyExpr TypeModel StoreModel StoreSpec StoreProofs PpModel.
From Verif Require Import DeclModel DeclSpec DeclProofs DeclStore DeclVars GramModel GramSpec GramTotal GramTabs NoiseSpec NoiseProofs RunSpec.

Section Run.
  Context (ev : dict str pobj -> str -> res pobj).
  Notation elab_decl := (elab_decl ev).
  Notation elab_spec := (elab_spec ev).
  Notation elab_decls := (elab_decls ev).
  Notation run_top := (run_top ev).
  Notation run_tops := (run_tops ev).

  (** ** The loops of [elab_decl] and [elab_spec] *)
  Definition elab_args : store entry -> list garg -> store entry * option (list darg) :=
    fix each (s : store entry) (l : list garg) : store entry * option (list darg) :=
      match l with
      | [] => (s, Some [])
      | GArg t a v :: l' =>
          let '(s1, ot) := elab_spec s t in
          match ot with
          | None => (s1, None)
          | Some b =>
              let '(s2, oa) := elab_decl s1 a in
              match oa with
              | None => (s2, None)
              | Some a' => let '(s3, ol) := each s2 l' in
                           (s3, option_map (cons (Arg b a' v)) ol)
              end
          end
      end.
  Definition elab_lines : store entry -> list gline -> store entry * option (list mline) :=
    fix each (s : store entry) (l : list gline) : store entry * option (list mline) :=
      match l with
      | [] => (s, Some [])
      | GMethod :: l' => each s l'
      | GLine t ds i bit :: l' =>
          let '(s1, ot) := elab_spec s t in
          match ot with
          | None => (s1, None)
          | Some b =>
              let '(s2, od) := elab_decls s1 ds in
              match od with
              | None => (s2, None)
              | Some ds' =>
                  let '(s3, ol) := each s2 l' in
                  (s3, option_map (cons {| l_type := b; l_decls := ds'; l_init := i; l_bit := bit |}) ol)
              end
          end
      end.
  Definition elab_core (s : store entry) (core : gcore) : store entry * option dcore :=
    match core with
       | GNamed r n => (s, Some (Named r n))
       | GAbstract r => (s, Some (Abstract r))
       | GCenter d' => let '(s', o) := elab_decl s d' in (s', option_map Center o)
       end.
  Definition elab_name (s : store entry) (n : gname) : store entry * option str :=
    match n with
       | GWord t => (s, Some t)
       | GComp c name body pack =>
           let '(s1, ol) := elab_lines s body in
           match ol with None => (s1, None) | Some l => process_struct ev s1 c name l pack end
       | GEnum name body => process_enum ev s name body
       end.
  Lemma elab_decl_node s fq cv ps core args ar : elab_decl s (GNode fq cv ps core args ar) =
    (let '(s1, c) :=
       elab_core s core in
     match c with
     | None => (s1, None)
     | Some c =>
         match args with
         | None => (s1, Some (DNode fq cv ps c None ar))
         | Some l => let '(s2, o) := elab_args s1 l in
                     (s2, option_map (fun l' => DNode fq cv ps c (Some l') ar) o)
         end
     end).
  Proof. reflexivity. Qed.
  Lemma elab_spec_eq s q n : elab_spec s (GSpec q n) =
    (let '(s1, o) :=
       elab_name s n in
     (s1, option_map (fun t => {| b_qual := q; b_name := t |}) o)).
  Proof. reflexivity. Qed.

  (** ** Nested induction *)
  Section Ind.
    Context (P : gdecl -> Prop) (Q : gspec -> Prop)
      (HP : forall fq cv ps core args ar,
          (forall c, core = GCenter c -> P c) ->
          (forall l, args = Some l -> Forall (fun a => match a with GArg t d _ => Q t /\ P d end) l) ->
          P (GNode fq cv ps core args ar))
      (HQ : forall q n,
          (forall c m l p, n = GComp c m l p ->
             Forall (fun x => match x with GLine t ds _ _ => Q t /\ Forall P ds | GMethod => True end) l) ->
          Q (GSpec q n)).
    Fixpoint gdecl_nested (d : gdecl) : P d
    with gspec_nested (t : gspec) : Q t.
    Proof.
      - destruct d as [fq cv ps core args ar]. apply HP.
        + destruct core as [r n|r|c]; intros c' E; [discriminate|discriminate|].
          pose proof (gdecl_nested c) as X. injection E as <-. exact X.
        + destruct args as [l|]; intros l' E; [|discriminate].
          assert (X : Forall (fun a => match a with GArg t d _ => Q t /\ P d end) l).
          { clear E l'. induction l as [|[t d v] l IH]; constructor; [split; [apply gspec_nested|apply gdecl_nested]|exact IH]. }
          injection E as <-. exact X.
      - destruct t as [q n]. apply HQ. intros c m l p E. destruct n as [w|c' m' l' p'|m' l']; try discriminate.
        assert (X : Forall (fun x => match x with GLine t ds _ _ => Q t /\ Forall P ds | GMethod => True end) l').
        { clear E. induction l' as [|[t ds i b|] l' IH]; constructor; [|exact IH|exact Logic.I|exact IH].
          split; [apply gspec_nested|]. induction ds as [|d ds IHd]; constructor; [apply gdecl_nested|exact IHd]. }
        injection E as <- <- <- <-. exact X.
    Defined.
  End Ind.
  Lemma gtree_ind (P : gdecl -> Prop) (Q : gspec -> Prop) :
      (forall fq cv ps core args ar,
          (forall c, core = GCenter c -> P c) ->
          (forall l, args = Some l -> Forall (fun a => match a with GArg t d _ => Q t /\ P d end) l) ->
          P (GNode fq cv ps core args ar)) ->
      (forall q n,
          (forall c m l p, n = GComp c m l p ->
             Forall (fun x => match x with GLine t ds _ _ => Q t /\ Forall P ds | GMethod => True end) l) ->
          Q (GSpec q n)) ->
    (forall d, P d) /\ (forall t, Q t).
  Proof. intros HP HQ. split; [apply (gdecl_nested P Q HP HQ)|apply (gspec_nested P Q HP HQ)]. Qed.

  (** ** What elaboration keeps *)
  Definition body_inside (l : list gline) : list gname :=
    flat_map (fun x => match x with
                       | GLine t ds _ _ => inside_spec t ++ flat_map inside_decl ds
                       | GMethod => []
                       end) l.
  Section Keep.
    Context (P : store entry -> Prop) (ok : gname -> Prop)
      (KC : forall s c m l p ls, ok (GComp c m l p) -> (l = [] -> ls = []) -> P s -> P (fst (process_struct ev s c m ls p)))
      (KE : forall s m l, ok (GEnum m l) -> P s -> P (fst (process_enum ev s m l))).
    Lemma elab_lines_nil s : elab_lines s [] = (s, Some []).
    Proof. reflexivity. Qed.
    Lemma elab_keeps : (forall d s, Forall ok (inside_decl d) -> P s -> P (fst (elab_decl s d)))
      /\ (forall t s, Forall ok (inside_spec t) -> P s -> P (fst (elab_spec s t))).
    Proof.
      apply gtree_ind with (P := fun d => forall s, Forall ok (inside_decl d) -> P s -> P (fst (elab_decl s d)))
        (Q := fun t => forall s, Forall ok (inside_spec t) -> P s -> P (fst (elab_spec s t))).
      - intros fq cv ps core args ar IC IA s F PS. rewrite elab_decl_node. cbn [inside_decl] in F. apply Forall_app in F. destruct F as [F1 F2].
        assert (C : P (fst (elab_core s core))).
        { destruct core as [r n|r|c]; [exact PS|exact PS|]. specialize (IC c eq_refl s F1 PS). cbn [elab_core]. destruct (elab_decl s c). exact IC. }
        destruct (elab_core s core) as [s1 [c|]]; cbn [fst] in C; [|exact C].
        destruct args as [l|]; [|exact C]. specialize (IA l eq_refl).
        assert (A : P (fst (elab_args s1 l))).
        { clear - IA F2 C. revert s1 C. induction IA as [|[t d v] l [It Id] IA IH]; intros s1 C; [exact C|].
          cbn [flat_map] in F2. apply Forall_app in F2. destruct F2 as [F2 F3]. apply Forall_app in F2. destruct F2 as [F1 F2].
          cbn [elab_args]. specialize (It s1 F1 C). destruct (elab_spec s1 t) as [s2 [b|]]; cbn [fst] in It; [|exact It].
          specialize (Id s2 F2 It). destruct (elab_decl s2 d) as [s3 [a|]]; cbn [fst] in Id; [|exact Id].
          specialize (IH F3 s3 Id). fold elab_args. destruct (elab_args s3 l). exact IH. }
        destruct (elab_args s1 l). exact A.
      - intros q n IH s F PS. rewrite elab_spec_eq. cbn [inside_spec] in F. inversion F as [|x y O F']; subst.
        assert (N : P (fst (elab_name s n))).
        { destruct n as [w|c m l p|m l]; [exact PS| |apply KE; assumption]. specialize (IH c m l p eq_refl).
          assert (L : P (fst (elab_lines s l))).
          { clear - IH F' PS. revert s PS. induction IH as [|[t ds i b|] l H IH IHl]; intros s PS; [exact PS| |].
            - cbn [flat_map] in F'. apply Forall_app in F'. destruct F' as [F2 F3]. apply Forall_app in F2. destruct F2 as [F1 F2].
              destruct H as [Ht Hd]. cbn [elab_lines]. specialize (Ht s F1 PS). destruct (elab_spec s t) as [s2 [x|]]; cbn [fst] in Ht; [|exact Ht].
              assert (D : P (fst (elab_decls s2 ds))).
              { clear - Hd F2 Ht. revert s2 Ht. induction Hd as [|d ds Hd _ IHd]; intros s2 Ht; [exact Ht|]. cbn [flat_map] in F2. apply Forall_app in F2. destruct F2 as [F1 F2].
                cbn [GramModel.elab_decls]. specialize (Hd s2 F1 Ht). destruct (elab_decl s2 d) as [s3 [a|]]; cbn [fst] in Hd; [|exact Hd].
                specialize (IHd F2 s3 Hd). destruct (elab_decls s3 ds). exact IHd. }
              destruct (elab_decls s2 ds) as [s3 [ds'|]]; cbn [fst] in D; [|exact D]. specialize (IHl F3 s3 D). fold elab_lines.
              destruct (elab_lines s3 l). exact IHl.
            - cbn [flat_map app] in F'. cbn [elab_lines]. apply IHl; assumption. }
          cbn [elab_name]. destruct (elab_lines s l) as [s1 [ls|]] eqn:EL; cbn [fst] in L; [|exact L]. apply (KC s1 c m l p ls O); [|exact L].
          intros ->. rewrite elab_lines_nil in EL. injection EL as _ <-. reflexivity. }
        destruct (elab_name s n). exact N.
    Qed.
    Lemma elab_decls_keep l : forall s, Forall ok (flat_map inside_decl l) -> P s -> P (fst (elab_decls s l)).
    Proof.
      induction l as [|d l IH]; intros s F PS; [exact PS|]. cbn [flat_map] in F. apply Forall_app in F. destruct F as [F1 F2].
      cbn [GramModel.elab_decls]. pose proof (proj1 elab_keeps d s F1 PS) as H. destruct (elab_decl s d) as [s1 [a|]]; cbn [fst] in H; [|exact H].
      specialize (IH s1 F2 H). destruct (elab_decls s1 l). exact IH.
    Qed.
    Lemma elab_lines_keep l : forall s, Forall ok (body_inside l) -> P s -> P (fst (elab_lines s l)).
    Proof.
      induction l as [|[t ds i w|] l IH]; intros s F PS; [exact PS| |].
      - unfold body_inside in F. cbn [flat_map] in F. apply Forall_app in F. destruct F as [F F3]. apply Forall_app in F. destruct F as [F1 F2].
        cbn [elab_lines]. pose proof (proj2 elab_keeps t s F1 PS) as H. destruct (elab_spec s t) as [s1 [b|]]; cbn [fst] in H; [|exact H].
        pose proof (elab_decls_keep ds s1 F2 H) as H2. destruct (elab_decls s1 ds) as [s2 [d|]]; cbn [fst] in H2; [|exact H2].
        specialize (IH s2 F3 H2). fold elab_lines. destruct (elab_lines s2 l). exact IH.
      - cbn [elab_lines]. apply IH; [exact F|exact PS].
    Qed.
  End Keep.

  (** ** Declarations that define nothing inside *)
  Definition inert (s s' : store entry) : Prop :=
    forall k, k = Values \/ k = Functions \/ k = Variables -> defs s' k = defs s k.
  Lemma inert_refl s : inert s s.
  Proof. intros k _. reflexivity. Qed.
  Lemma inert_trans a b c : inert a b -> inert b c -> inert a c.
  Proof. intros H1 H2 k K. rewrite (H2 k K). apply H1. exact K. Qed.
  Lemma inert_add s0 s k n v : ~ (k = Values \/ k = Functions \/ k = Variables) -> inert s0 s -> inert s0 (add_def s k n v).
  Proof. intros N H k' K. rewrite defs_add_other; [apply H; exact K|]. intros ->. contradiction. Qed.
  Lemma inert_values s s' : inert s s' -> values s' = values s.
  Proof. intros H. unfold values. rewrite (H Values); auto. Qed.
  Lemma inert_eval s s' : inert s s' -> eval_text ev s' = eval_text ev s.
  Proof. intros H. unfold eval_text. rewrite (inert_values _ _ H). reflexivity. Qed.
  Lemma inert_defined s s' k n : inert s s' -> k = Values \/ k = Functions \/ k = Variables -> defined s' k n = defined s k n.
  Proof. intros H K. unfold defined. rewrite (H k K). reflexivity. Qed.
  Lemma struct_inert s0 s c m l p : inert s0 s -> inert s0 (fst (process_struct ev s c m l p)).
  Proof.
    intros H. destruct (process_struct_cases ev s c m l p) as [(n & ms & _ & _ & -> & _)|[(n & _ & _ & _ & ->)|(e & _ & ->)]]; cbn [fst]; try exact H.
    apply inert_add; [intros [X|[X|X]]; discriminate|]. apply inert_add; [|exact H]. destruct c; intros [X|[X|X]]; discriminate.
  Qed.
  Lemma enum_ref_inert s0 s n : inert s0 s -> inert s0 (fst (process_enum ev s (Some n) [])) /\ snd (process_enum ev s (Some n) []) = Some (tag_name $"enum" n).
  Proof.
    intros H. unfold process_enum. destruct (dmem (defs s Enums) n); cbn [fst snd enum_loop]; (split; [|reflexivity]); [exact H|].
    apply inert_add; [intros [X|[X|X]]; discriminate|]. apply inert_add; [intros [X|[X|X]]; discriminate|exact H].
  Qed.
  Lemma refers_elab t s : refers t = true -> exists s', elab_spec s t = (s', Some (spec_of t)) /\ inert s s'.
  Proof.
    destruct t as [q [w|c [n|] [|x l] p|[n|] [|x l]]]; intros R; try discriminate R; rewrite elab_spec_eq; cbn [elab_name].
    - exists s. split; [reflexivity|apply inert_refl].
    - rewrite elab_lines_nil. pose proof (struct_inert s s c (Some n) [] p (inert_refl s)) as I1.
      assert (E : snd (process_struct ev s c (Some n) [] p) = Some (tag_name (comp_kw c) n)).
      { destruct (process_struct_cases ev s c (Some n) [] p) as [(m & ms & NM & A & -> & _)|[(m & NM & _ & _ & ->)|(e & A & _)]]; cbn [snd].
        - destruct NM as [NM|[NM _]]; [injection NM as ->; reflexivity|discriminate].
        - injection NM as ->. reflexivity.
        - discriminate A. }
      destruct (process_struct ev s c (Some n) [] p) as [s1 o]. cbn [fst snd] in I1, E. subst o. exists s1. split; [reflexivity|exact I1].
    - destruct (enum_ref_inert s s n (inert_refl s)) as [I1 E]. destruct (process_enum ev s (Some n) []) as [s1 o]. cbn [fst snd] in I1, E. subst o.
      exists s1. split; [reflexivity|exact I1].
  Qed.
  Lemma plain_elab d : forall s, plain_params d = true -> exists s', elab_decl s d = (s', Some (tree d)) /\ inert s s'.
  Proof.
    apply (gdecl_nested (fun d => forall s, plain_params d = true -> exists s', elab_decl s d = (s', Some (tree d)) /\ inert s s')
             (fun _ => True)); [|intros; exact Logic.I].
    clear d. intros fq cv ps core args ar IC IA s PP. rewrite elab_decl_node. cbn [plain_params] in PP. apply andb_true_iff in PP. destruct PP as [PC PA].
    assert (C : exists s1, elab_core s core = (s1, Some (match core with GNamed r n => Named r n | GAbstract r => Abstract r | GCenter c => Center (tree c) end)) /\ inert s s1).
    { destruct core as [r n|r|c]; [exists s; split; [reflexivity|apply inert_refl]|exists s; split; [reflexivity|apply inert_refl]|].
      destruct (IC c eq_refl s PC) as (s1 & E & I1). exists s1. cbn [elab_core]. rewrite E. split; [reflexivity|exact I1]. }
    destruct C as (s1 & -> & I1). cbn [tree]. destruct args as [l|]; [|exists s1; split; [reflexivity|exact I1]]. specialize (IA l eq_refl).
    assert (A : exists s2, elab_args s1 l = (s2, Some (map (fun a => match a with GArg t d v => Arg (spec_of t) (tree d) v end) l)) /\ inert s1 s2).
    { clear - IA PA. revert s1. induction IA as [|[t d v] l [_ Id] IA IH]; intros s1; [exists s1; split; [reflexivity|apply inert_refl]|].
      cbn [forallb] in PA. apply andb_true_iff in PA. destruct PA as [P1 P2]. apply andb_true_iff in P1. destruct P1 as [Pt Pd].
      destruct (refers_elab t s1 Pt) as (s2 & E2 & I2). destruct (Id s2 Pd) as (s3 & E3 & I3). destruct (IH P2 s3) as (s4 & E4 & I4).
      exists s4. cbn [elab_args]. rewrite E2, E3. fold elab_args. rewrite E4. split; [reflexivity|].
      apply (inert_trans _ s2); [exact I2|]. apply (inert_trans _ s3); [exact I3|exact I4]. }
    destruct A as (s2 & -> & I2). exists s2. split; [reflexivity|]. apply (inert_trans _ s1); assumption.
  Qed.
  Lemma plain_elabs l : forall s, forallb plain_params l = true -> exists s', elab_decls s l = (s', Some (map tree l)) /\ inert s s'.
  Proof.
    induction l as [|d l IH]; intros s P; [exists s; split; [reflexivity|apply inert_refl]|].
    cbn [forallb] in P. apply andb_true_iff in P. destruct P as [P1 P2]. destruct (plain_elab d s P1) as (s1 & E1 & I1).
    destruct (IH s1 P2) as (s2 & E2 & I2). exists s2. cbn [GramModel.elab_decls]. rewrite E1, E2. split; [reflexivity|]. apply (inert_trans _ s1); assumption.
  Qed.
  (** ** The shape of what elaboration returns *)
  Lemma elab_shape d : forall s s' d', elab_decl s d = (s', Some d') ->
    c_name d' = c_name (tree d) /\ every no_bare_conv d' = every no_bare_conv (tree d).
  Proof.
    apply (gdecl_nested (fun d => forall s s' d', elab_decl s d = (s', Some d') ->
             c_name d' = c_name (tree d) /\ every no_bare_conv d' = every no_bare_conv (tree d)) (fun _ => True)); [|intros; exact Logic.I].
    clear d. intros fq cv ps core args ar IC IA s s' d' E. rewrite elab_decl_node in E.
    destruct (elab_core s core) as [s1 [c|]] eqn:EC; [|discriminate E].
    assert (C : match core with
                | GNamed r n => c = Named r n
                | GAbstract r => c = Abstract r
                | GCenter d => exists x, c = Center x /\ c_name x = c_name (tree d) /\ every no_bare_conv x = every no_bare_conv (tree d)
                end).
    { destruct core as [r n|r|d]; cbn [elab_core] in EC; [injection EC as _ <-; reflexivity|injection EC as _ <-; reflexivity|].
      destruct (elab_decl s d) as [s2 [x|]] eqn:ED; cbn [option_map] in EC; [|discriminate EC]. injection EC as _ <-. exists x. split; [reflexivity|]. exact (IC d eq_refl s s2 x ED). }
    assert (A : exists a, d' = DNode fq cv ps c a ar /\ match args, a with
                | None, None => True
                | Some l, Some l' => forallb (fun a => match a with Arg _ d' _ => every no_bare_conv d' end) l'
                                     = forallb (fun a => match a with Arg _ d' _ => every no_bare_conv d' end)
                                         (map (fun a => match a with GArg t d v => Arg (spec_of t) (tree d) v end) l)
                | _, _ => False
                end).
    { destruct args as [l|]; [|injection E as _ <-; exists None; split; [reflexivity|exact Logic.I]].
      destruct (elab_args s1 l) as [s2 [l'|]] eqn:EA; cbn [option_map] in E; [|discriminate E]. injection E as _ <-. exists (Some l'). split; [reflexivity|].
      specialize (IA l eq_refl). clear - IA EA. revert s1 s2 l' EA. induction IA as [|[t d v] l [_ Id] IA IH]; intros s1 s2 l' EA.
      - cbn [elab_args] in EA. injection EA as _ <-. reflexivity.
      - cbn [elab_args] in EA. destruct (elab_spec s1 t) as [s3 [b|]]; [|discriminate EA]. destruct (elab_decl s3 d) as [s4 [a|]] eqn:ED; [|discriminate EA].
        fold elab_args in EA. destruct (elab_args s4 l) as [s5 [r|]] eqn:ER; cbn [option_map] in EA; [|discriminate EA]. injection EA as _ <-.
        cbn [forallb map]. rewrite (IH _ _ _ ER). destruct (Id _ _ _ ED) as [_ ->]. reflexivity. }
    destruct A as (a & -> & A). split.
    - cbn [c_name tree]. destruct core as [r n|r|d]; [subst c; reflexivity|subst c; reflexivity|]. destruct C as (x & -> & C & _). exact C.
    - cbn [tree every]. f_equal; [f_equal|].
      + destruct core as [r n|r|d]; [subst c|subst c|destruct C as (x & -> & _)]; destruct args as [l|], a as [l'|]; try contradiction; reflexivity.
      + destruct core as [r n|r|d]; [subst c; reflexivity|subst c; reflexivity|]. destruct C as (x & -> & _ & C). exact C.
      + destruct args as [l|], a as [l'|]; try contradiction; [exact A|reflexivity].
  Qed.
  Lemma elab_shapes l : forall s s' l', elab_decls s l = (s', Some l') ->
    names_of l' = map (fun d => c_name (tree d)) l
    /\ (Forall (fun d => every no_bare_conv (tree d) = true) l -> Forall (fun d => every no_bare_conv d = true) l').
  Proof.
    induction l as [|d l IH]; intros s s' l' E; cbn [GramModel.elab_decls] in E.
    - injection E as _ <-. split; [reflexivity|constructor].
    - destruct (elab_decl s d) as [s1 [x|]] eqn:ED; [|discriminate E]. destruct (elab_decls s1 l) as [s2 [r|]] eqn:ER; cbn [option_map] in E; [|discriminate E].
      injection E as _ <-. destruct (elab_shape d _ _ _ ED) as [N B]. destruct (IH _ _ _ ER) as [N' B'].
      split; [cbn [names_of map]; f_equal; [exact N|exact N']|]. intros F. inversion F; subst. constructor; [rewrite B; assumption|apply B'; assumption].
  Qed.

  (** ** The tables of functions and variables *)
  Definition tab_kept (k : kind) (s s' : store entry) : Prop := forall n, defined s' k n = defined s k n.
  Lemma struct_tab k s c m l p : k = Functions \/ k = Variables -> tab_kept k s (fst (process_struct ev s c m l p)).
  Proof.
    intros K n. apply inert_defined; [apply struct_inert; apply inert_refl|tauto].
  Qed.
  Lemma enum_tab k s m l : k = Functions \/ k = Variables -> tab_kept k s (fst (process_enum ev s m l)).
  Proof. intros K n. apply process_enum_other; destruct K as [->| ->]; discriminate. Qed.
  Lemma all_true {A} (l : list A) : Forall (fun _ => True) l.
  Proof. induction l; constructor; auto. Qed.
  Lemma elab_tab k s0 : k = Functions \/ k = Variables ->
    (forall d s, tab_kept k s0 s -> tab_kept k s0 (fst (elab_decl s d)))
    /\ (forall t s, tab_kept k s0 s -> tab_kept k s0 (fst (elab_spec s t)))
    /\ (forall l s, tab_kept k s0 s -> tab_kept k s0 (fst (elab_decls s l))).
  Proof.
    intros K. assert (KC : forall s c m (l : list gline) p (ls : list mline), True -> (l = [] -> ls = []) -> tab_kept k s0 s -> tab_kept k s0 (fst (process_struct ev s c m ls p))).
    { intros s c m l p ls _ _ H n. rewrite (struct_tab k s c m ls p K n). apply H. }
    assert (KE : forall s m l, True -> tab_kept k s0 s -> tab_kept k s0 (fst (process_enum ev s m l))).
    { intros s m l _ H n. rewrite (enum_tab k s m l K n). apply H. }
    destruct (elab_keeps (tab_kept k s0) (fun _ => True)) as [H1 H2]; [intros s c m l p ls _; apply (KC s c m l p ls); exact Logic.I|exact KE|].
    split; [|split].
    - intros d s. apply H1. apply all_true.
    - intros t s. apply H2. apply all_true.
    - intros l s. apply (elab_decls_keep (tab_kept k s0) (fun _ => True)); [intros s1 c m l1 p ls _; apply (KC s1 c m l1 p ls); exact Logic.I|exact KE|apply all_true].
  Qed.

  (** ** One declaration *)
  Definition elab_top (s : store entry) (g : gtop) : store entry * option (bspec * list dtree) :=
    match elab_spec s (spec_part g) with
    | (s1, None) => (s1, None)
    | (s1, Some b) =>
        match elab_decls s1 (decls_part g) with
        | (s2, None) => (s2, None)
        | (s2, Some l) => (s2, Some (b, l))
        end
    end.
  Definition act_top (s : store entry) (g : gtop) (b : bspec) (l : list dtree) : store entry * option exc :=
    match g with
    | GTypedef _ _ => process_typedef ev s b l
    | GVar _ _ i => (process_variable ev s b l i, None)
    | GFun _ _ => (match l with [d] => process_function ev s b d | _ => s end, None)
    end.
  Lemma run_top_eq s g : run_top s g = match elab_top s g with
                                       | (s1, None) => (s1, None)
                                       | (s2, Some (b, l)) => act_top s2 g b l
                                       end.
  Proof.
    destruct g as [t l|t l i|t d]; unfold elab_top; cbn [spec_part decls_part GramModel.run_top GramModel.elab_decls];
      destruct (elab_spec s t) as [s1 [b|]]; try reflexivity.
    1,2: destruct (elab_decls s1 l) as [s2 [x|]]; reflexivity.
    destruct (elab_decl s1 d) as [s2 [x|]]; reflexivity.
  Qed.
  Lemma elab_top_tab k s0 s g : k = Functions \/ k = Variables -> tab_kept k s0 s -> tab_kept k s0 (fst (elab_top s g)).
  Proof.
    intros K H. destruct (elab_tab k s0 K) as (_ & H2 & H3). unfold elab_top. specialize (H2 (spec_part g) s H).
    destruct (elab_spec s (spec_part g)) as [s1 [b|]]; cbn [fst] in H2; [|exact H2]. specialize (H3 (decls_part g) s1 H2).
    destruct (elab_decls s1 (decls_part g)) as [s2 [x|]]; exact H3.
  Qed.
  Lemma elab_top_shape s g s2 b l : elab_top s g = (s2, Some (b, l)) ->
    names_of l = declared_names g
    /\ (Forall (fun d => every no_bare_conv (tree d) = true) (decls_part g) -> Forall (fun d => every no_bare_conv d = true) l).
  Proof.
    unfold elab_top. destruct (elab_spec s (spec_part g)) as [s1 [x|]]; [|discriminate]. destruct (elab_decls s1 (decls_part g)) as [s3 [y|]] eqn:E; [|discriminate].
    intros H. injection H as <- <- <-. exact (elab_shapes _ _ _ _ E).
  Qed.
  Lemma act_top_names s g b l k n : k = Functions \/ k = Variables -> ~ In (Some n) (names_of l) ->
    defined (fst (act_top s g b l)) k n = defined s k n.
  Proof.
    intros K N. destruct g as [t x|t x i|t x]; cbn [act_top fst].
    - apply typedef_other. destruct K as [->| ->]; discriminate.
    - apply declare_names. exact N.
    - destruct l as [|d [|? ?]]; try reflexivity. unfold process_function. destruct (process_type (eval_text ev s) b d) as [[[m|] ty]|e] eqn:P; try reflexivity.
      destruct (ends_in_tuple ty); [|reflexivity]. apply defined_other. right. intros ->. apply N. left. exact (process_name _ _ _ _ _ P).
  Qed.
  Lemma run_top_names s g k n : k = Functions \/ k = Variables -> ~ In (Some n) (declared_names g) ->
    defined (fst (run_top s g)) k n = defined s k n.
  Proof.
    intros K N. rewrite run_top_eq. pose proof (elab_top_tab k s s g K (fun n => eq_refl) n) as H.
    destruct (elab_top s g) as [s2 [[b l]|]] eqn:E; [|exact H]. rewrite act_top_names; [exact H|exact K|]. destruct (elab_top_shape _ _ _ _ _ E) as [-> _]. exact N.
  Qed.
  Lemma run_tops_names l : forall s k n, k = Functions \/ k = Variables -> Forall (fun g => ~ In (Some n) (declared_names g)) l ->
    defined (fst (run_tops s l)) k n = defined s k n.
  Proof.
    induction l as [|g l IH]; intros s k n K F; [reflexivity|]. inversion F; subst. cbn [GramModel.run_tops].
    pose proof (run_top_names s g k n K) as H. destruct (run_top s g) as [s1 [e|]]; cbn [fst] in *; [auto|]. rewrite IH; auto.
  Qed.

  (** ** No exceptions *)
  Definition named_decls (g : gtop) : Prop := ~ In None (declared_names g).
  Lemma typedef_ends b l : forall s, Forall (fun d => every no_bare_conv d = true) l -> ~ In None (names_of l) ->
    snd (process_typedef ev s b l) = None.
  Proof.
    induction l as [|d l IH]; intros s F N; [reflexivity|]. inversion F; subst. cbn [process_typedef].
    destruct (process_type_ok (eval_text ev s) b d) as (t & ->); [assumption|].
    destruct (c_name d) as [n|] eqn:C; [|exfalso; apply N; left; exact C]. apply IH; [assumption|]. intros I1. apply N. right. exact I1.
  Qed.
  Lemma run_top_ends s g : harmless g -> named_decls g -> snd (run_top s g) = None.
  Proof.
    intros HL NM. rewrite run_top_eq. destruct (elab_top s g) as [s2 [[b l]|]] eqn:E; [|reflexivity]. destruct (elab_top_shape _ _ _ _ _ E) as [N B].
    destruct g as [t x|t x i|t x]; cbn [act_top]; [|reflexivity|reflexivity]. apply typedef_ends; [apply B; apply HL; reflexivity|]. rewrite N. exact NM.
  Qed.
  Lemma run_tops_ends l : forall s, Forall harmless l -> Forall named_decls l -> snd (run_tops s l) = None.
  Proof.
    induction l as [|g l IH]; intros s F N; [reflexivity|]. inversion F; inversion N; subst. cbn [GramModel.run_tops].
    pose proof (run_top_ends s g) as H. destruct (run_top s g) as [s1 [e|]]; cbn [snd] in H; [specialize (H ltac:(assumption) ltac:(assumption)); discriminate H|]. apply IH; assumption.
  Qed.
  Lemma run_tops_app l1 : forall s l2, snd (run_tops s l1) = None -> run_tops s (l1 ++ l2) = run_tops (fst (run_tops s l1)) l2.
  Proof.
    induction l1 as [|g l1 IH]; intros s l2 E; [reflexivity|]. cbn [app GramModel.run_tops] in *. destruct (run_top s g) as [s1 [e|]]; [discriminate E|]. apply IH. exact E.
  Qed.
  Lemma run_tops_one s g : run_tops s [g] = run_top s g.
  Proof. cbn [GramModel.run_tops]. destruct (run_top s g) as [s1 [e|]]; reflexivity. Qed.

  (** ** Reading back the type of a function *)
  Lemma read_length R ds : forall qs t run r, read_decls R ds qs t run = Some r -> length qs = length ds.
  Proof.
    induction ds as [|d ds IH]; intros [|q qs] t run r E; cbn [read_decls] in E; try discriminate; [reflexivity|]. cbn [length]. f_equal.
    destruct d as [x|[|n [|? ?]]|args]; destruct q as [q|]; try discriminate E.
    - destruct (eqb x $"*"); [exact (IH _ _ _ _ E)|]. destruct (eqb x $"&"); [exact (IH _ _ _ _ E)|discriminate E].
    - exact (IH _ _ _ _ E).
    - exact (IH _ _ _ _ E).
    - destruct (read_args R args); [exact (IH _ _ _ _ E)|discriminate E].
  Qed.
  Lemma read_hack t u : ends_in_tuple t = true -> read_type t = Some u -> read_function (add_hack t) = Some u.
  Proof.
    destruct t as [[x|x] ds qs]; [|discriminate]. unfold ends_in_tuple. cbn [t_decls]. intros E R. cbn [add_hack].
    destruct (rev ds) as [|[| |args] rds] eqn:RD; try discriminate E. clear E.
    assert (ED : ds = rev rds ++ [DFun args]) by (rewrite <- (rev_involutive ds), RD; reflexivity). subst ds. clear RD.
    destruct qs as [|[q|] qs]; try discriminate R. cbn [read_type] in R.
    destruct (read_decls read_type (rev rds ++ [DFun args]) qs (TBase q x) []) as [[v run]|] eqn:RE; [|discriminate R].
    pose proof (read_length _ _ _ _ _ _ RE) as L. rewrite app_length in L. cbn [length] in L.
    destruct (exists_last (l := qs)) as (qs0 & q' & ->); [intros ->; cbn in L; lia|]. rewrite app_length in L. cbn [length] in L.
    rewrite read_app in RE by lia. change (Some q :: qs0 ++ [q']) with ((Some q :: qs0) ++ [q']). rewrite removelast_last, last_last.
    destruct (read_decls read_type (rev rds) qs0 (TBase q x) []) as [[w run']|] eqn:R1; [|discriminate RE].
    cbn [read_decls] in RE. destruct q' as [q'|]; [|discriminate RE]. destruct (read_args read_type args) as [a|] eqn:RA; [|discriminate RE].
    injection RE as <- <-. injection R as <-. unfold read_function. cbn [read_type]. rewrite R1, RA. reflexivity.
  Qed.

  (** ** What a declaration records *)
  Lemma elab_top_plain s g s1 b : elab_spec s (spec_part g) = (s1, Some b) -> plain_decls g ->
    exists s2, elab_top s g = (s2, Some (b, map tree (decls_part g))) /\ inert s1 s2.
  Proof.
    intros E (P & _). unfold elab_top. rewrite E.
    destruct (plain_elabs (decls_part g) s1) as (s2 & -> & I2).
    { apply forallb_forall. intros x I0. rewrite Forall_forall in P. apply (P x I0). }
    exists s2. split; [reflexivity|exact I2].
  Qed.
  Lemma up_to_parts g l1 d l2 : decls_part g = l1 ++ d :: l2 -> spec_part (up_to g l1) = spec_part g /\ decls_part (up_to g l1) = l1.
  Proof.
    destruct g as [t l|t l i|t x]; cbn [decls_part spec_part up_to]; intros E; [split; reflexivity|split; reflexivity|].
    destruct l1 as [|y l1]; [split; reflexivity|]. destruct l1; discriminate E.
  Qed.
  Lemma plain_up_to g l1 d l2 : decls_part g = l1 ++ d :: l2 -> plain_decls g -> plain_decls (up_to g l1).
  Proof.
    intros E (P & N). destruct (up_to_parts _ _ _ _ E) as [_ E2]. unfold plain_decls, declared_names in *. rewrite E2. rewrite E in P, N.
    apply Forall_app in P. destruct P as [P _]. split; [exact P|]. rewrite map_app in N. clear - N. induction (map (fun d => c_name (tree d)) l1) as [|x l IH]; [constructor|].
    cbn [app] in N. inversion N as [|a b NI ND]; subst. constructor; [intros I1; apply NI; apply in_or_app; left; exact I1|apply IH; exact ND].
  Qed.
  Lemma declare_values b v l : forall s s', defs s' Values = defs s Values ->
    defs (declare ev s' b v l) Values = defs (declare ev s b v l) Values.
  Proof.
    induction l as [|d l IH]; intros s s' E; [exact E|]. cbn [declare].
    assert (EV : eval_text ev s' = eval_text ev s) by (unfold eval_text, values; rewrite E; reflexivity). rewrite EV.
    destruct (process_type (eval_text ev s) b d) as [[[m|] ty]|e]; try exact E. apply IH. destruct (ends_in_tuple ty).
    - rewrite !defs_add_other by discriminate. exact E.
    - rewrite !defs_add_same, !defs_add_other by discriminate. rewrite E. reflexivity.
  Qed.
  Lemma typedef_values b l : forall s, defs (fst (process_typedef ev s b l)) Values = defs s Values.
  Proof.
    induction l as [|d l IH]; intros s; [reflexivity|]. cbn [process_typedef]. destruct (process_type (eval_text ev s) b d) as [[[m|] ty]|e]; try reflexivity.
    rewrite IH. apply defs_add_other. discriminate.
  Qed.
  Lemma eval_same s s' : defs s' Values = defs s Values -> eval_text ev s' = eval_text ev s.
  Proof. intros E. unfold eval_text, values. rewrite E. reflexivity. Qed.
  Lemma init_same s s' i : defs s' Values = defs s Values -> eval_init ev s' i = eval_init ev s i.
  Proof. intros E. destruct i; [reflexivity| |]; unfold eval_init, eval_text, values; rewrite E; reflexivity. Qed.

  Lemma plain_trees g : plain_decls g -> named_decls g ->
    Forall (fun d => every no_bare_conv d = true /\ c_name d <> None) (map tree (decls_part g)) /\ NoDup (names_of (map tree (decls_part g))).
  Proof.
    intros (P & N) NM. unfold names_of. rewrite map_map. split; [|exact N]. apply Forall_map. apply Forall_forall. intros x I1. rewrite Forall_forall in P.
    split; [apply (P x I1)|]. intros E. apply NM. apply in_map_iff. exists x. split; assumption.
  Qed.
  (** The declarators of a variable declaration. *)
  Lemma var_top s s1 b t l i l1 d l2 n : elab_spec s t = (s1, Some b) -> plain_decls (GVar t l i) -> named_decls (GVar t l i) ->
    l = l1 ++ d :: l2 -> c_name (tree d) = Some n -> every c_syntax (tree d) = true -> no_conv_name (tree d) = true ->
    let ty := c_type (eval_text ev (fst (run_top s (GVar t l1 i)))) (tree d) (base_type b) in
    let s' := fst (run_top s (GVar t l i)) in
    if is_function ty then exists u, defined s' Functions n = Some (EFun u) /\ read_function u = Some ty
    else exists u, defined s' Variables n = Some (EVar (eval_init ev s1 i) u) /\ read_type u = Some ty.
  Proof.
    intros T PD NM -> N CS NC ty s'. destruct (plain_trees _ PD NM) as [F ND]. cbn [decls_part] in F, ND. rewrite map_app in F, ND. cbn [map] in F, ND.
    destruct (elab_top_plain s (GVar t (l1 ++ d :: l2) i) s1 b T PD) as (s2 & E2 & I2).
    destruct (elab_top_plain s (GVar t l1 i) s1 b T (plain_up_to (GVar t (l1 ++ d :: l2) i) l1 d l2 eq_refl PD)) as (s3 & E3 & I3).
    unfold s', ty. clear s' ty. rewrite !run_top_eq, E2, E3. cbn [act_top fst spec_part decls_part] in *. unfold process_variable.
    pose proof (I2 Values (or_introl eq_refl)) as V2. pose proof (I3 Values (or_introl eq_refl)) as V3.
    rewrite (init_same s1 s3 i V3), (init_same s1 s2 i V2). set (v := eval_init ev s1 i). rewrite map_app. cbn [map].
    assert (EV : eval_text ev (declare ev s3 b v (map tree l1)) = eval_text ev (declare ev s2 b v (map tree l1))).
    { apply eval_same. apply declare_values. rewrite V2, V3. reflexivity. }
    rewrite EV. set (dim := eval_text ev (declare ev s2 b v (map tree l1))).
    destruct (declare_spec ev b v _ s2 F ND (map tree l1) (tree d) (map tree l2) n eq_refl N) as (u & P & Q). cbn zeta in Q. fold dim in P.
    destruct (reads_type dim b (tree d) (process_reads dim (tree d) CS)) as (u' & P' & R). rewrite P in P'. injection P' as _ <-.
    rewrite (ends_in_tuple_function dim dim b (tree d) _ _ P NC) in Q.
    pose proof (ends_in_tuple_function dim dim b (tree d) _ _ P NC) as EF. fold (base_type b) in R.
    destruct (is_function (c_type dim (tree d) (base_type b))) eqn:IF.
    - exists (add_hack u). destruct Q as (Q & _). split; [exact Q|]. apply read_hack; [exact EF|exact R].
    - exists u. destruct Q as (Q & _). split; [exact Q|exact R].
  Qed.
  Lemma fun_top s s1 b t d n : elab_spec s t = (s1, Some b) -> plain_decls (GFun t d) ->
    c_name (tree d) = Some n -> every c_syntax (tree d) = true -> no_conv_name (tree d) = true ->
    let ty := c_type (eval_text ev (fst (run_top s (GVar t [] NoInit)))) (tree d) (base_type b) in
    is_function ty = true -> exists u, defined (fst (run_top s (GFun t d))) Functions n = Some (EFun u) /\ read_function u = Some ty.
  Proof.
    intros T PD N CS NC ty. destruct (elab_top_plain s (GFun t d) s1 b T PD) as (s2 & E2 & I2).
    destruct (elab_top_plain s (GVar t [] NoInit) s1 b T) as (s3 & E3 & I3); [split; [constructor|constructor]|].
    unfold ty. clear ty. rewrite !run_top_eq, E2, E3. cbn [act_top fst spec_part decls_part map] in *. unfold process_variable. cbn [declare].
    pose proof (I2 Values (or_introl eq_refl)) as V2. pose proof (I3 Values (or_introl eq_refl)) as V3.
    assert (EV : eval_text ev s3 = eval_text ev s2) by (apply eval_same; rewrite V2, V3; reflexivity). rewrite EV. set (dim := eval_text ev s2).
    intros IF. destruct (reads_type dim b (tree d) (process_reads dim (tree d) CS)) as (u & P & R). fold (base_type b) in R.
    pose proof (ends_in_tuple_function dim dim b (tree d) _ _ P NC) as EF. rewrite IF in EF. unfold process_function. fold dim. rewrite P, EF, N.
    exists (add_hack u). split; [apply defined_same|]. apply read_hack; assumption.
  Qed.
  Lemma typedef_names b l : forall s n, ~ In (Some n) (names_of l) -> defined (fst (process_typedef ev s b l)) Types n = defined s Types n.
  Proof.
    induction l as [|d l IH]; intros s n N; [reflexivity|]. cbn [names_of map In] in N. cbn [process_typedef].
    destruct (process_type (eval_text ev s) b d) as [[[m|] t]|e] eqn:P; try reflexivity. pose proof (process_name _ _ _ _ _ P) as NM.
    rewrite IH by tauto. apply defined_other. right. intros ->. apply N. left. exact NM.
  Qed.
  Lemma typedef_split b l1 : forall s l2, Forall (fun d => every no_bare_conv d = true /\ c_name d <> None) l1 ->
    process_typedef ev s b (l1 ++ l2) = process_typedef ev (fst (process_typedef ev s b l1)) b l2.
  Proof.
    induction l1 as [|d l1 IH]; intros s l2 F; [reflexivity|]. inversion F as [|x y H F']; subst. destruct H as [B N]. cbn [app process_typedef].
    destruct (process_type_ok (eval_text ev s) b d B) as (t & ->). destruct (c_name d) as [m|]; [|congruence]. apply IH. exact F'.
  Qed.
  Lemma typedef_top s s1 b t l l1 d l2 n : elab_spec s t = (s1, Some b) -> plain_decls (GTypedef t l) -> named_decls (GTypedef t l) ->
    l = l1 ++ d :: l2 -> c_name (tree d) = Some n -> every c_syntax (tree d) = true ->
    let ty := c_type (eval_text ev (fst (run_top s (GTypedef t l1)))) (tree d) (base_type b) in
    exists u, defined (fst (run_top s (GTypedef t l))) Types n = Some (EType u) /\ read_type u = Some ty.
  Proof.
    intros T PD NM -> N CS ty. destruct (plain_trees _ PD NM) as [F ND]. cbn [decls_part] in F, ND. rewrite map_app in F, ND. cbn [map] in F, ND.
    destruct (elab_top_plain s (GTypedef t (l1 ++ d :: l2)) s1 b T PD) as (s2 & E2 & I2).
    destruct (elab_top_plain s (GTypedef t l1) s1 b T (plain_up_to (GTypedef t (l1 ++ d :: l2)) l1 d l2 eq_refl PD)) as (s3 & E3 & I3).
    unfold ty. clear ty. rewrite !run_top_eq, E2, E3. cbn [act_top spec_part decls_part] in *. rewrite map_app. cbn [map].
    pose proof (I2 Values (or_introl eq_refl)) as V2. pose proof (I3 Values (or_introl eq_refl)) as V3.
    apply Forall_app in F. destruct F as [F1 F2]. rewrite (typedef_split b _ s2 _ F1). cbn [process_typedef].
    rewrite (eval_same s3 (fst (process_typedef ev s3 b (map tree l1))) (typedef_values b _ s3)).
    rewrite (eval_same s2 (fst (process_typedef ev s2 b (map tree l1))) (typedef_values b _ s2)).
    rewrite (eval_same s1 s2 V2), (eval_same s1 s3 V3). set (dim := eval_text ev s1).
    destruct (reads_type dim b (tree d) (process_reads dim (tree d) CS)) as (u & P & R). rewrite P, N. exists u. split; [|exact R].
    rewrite typedef_names; [apply defined_same|]. unfold names_of in ND. rewrite map_app in ND. apply NoDup_remove_2 in ND. fold (names_of (map tree l2)) in ND.
    rewrite N in ND. intros I1. apply ND. apply in_or_app. right. exact I1.
  Qed.

  (** ** Definitions of structures and enums *)
  Lemma counts_det v i l vs : counts ev v i l vs -> forall vs', counts ev v i l vs' -> vs' = vs.
  Proof.
    induction 1 as [env i|env i n l v vs P _ IH|env i n e l w v vs E P _ IH]; intros vs' C; inversion C as [|? ? ? ? v2 vs2 P2 C2|? ? ? ? ? w2 v2 vs2 E2 P2 C2]; subst; [reflexivity| |].
    - assert (v2 = v) as -> by congruence. f_equal. apply IH. exact C2.
    - assert (w2 = w) as -> by congruence. assert (v2 = v) as -> by congruence. f_equal. apply IH. exact C2.
  Qed.
  Lemma enum_elab s q m body vs : typed_values s -> NoDup (map fst body) ->
    match m with Some n => defined s Enums n = None | None => True end ->
    counts ev (values s) (ONum (VInt 0)) body vs ->
    exists n s1, elab_spec s (GSpec q (GEnum m body)) = (s1, Some {| b_qual := q; b_name := tag_name $"enum" n |})
      /\ defined s1 Enums n = Some (EEnum vs) /\ values s1 = with_values (values s) vs /\ typed_values s1
      /\ (forall x v, In (x, v) vs -> defined s1 Values x = Some (EVal v))
      /\ match m with Some x => n = x | None => defined s Enums n = None end.
  Proof.
    intros T ND DM C.
    assert (X : exists n, defined s Enums n = None /\ process_enum ev s m body = process_enum ev s (Some n) body /\ match m with Some x => n = x | None => defined s Enums n = None end).
    { destruct m as [n|]; [exists n; auto|]. destruct (process_enum_anon ev s body) as (n & D & E). exists n. auto. }
    destruct X as (n & D & E & NM). pose proof (process_enum_named ev s n body T ND D) as P. rewrite elab_spec_eq. cbn [elab_name]. rewrite E.
    assert (V : forall s1 r, process_enum ev s (Some n) body = (s1, Some r) -> values s1 = with_values (values s) vs /\ typed_values s1).
    { intros s1 r PE. unfold process_enum in PE. assert (DN : dmem (defs s Enums) n = false) by (unfold dmem; unfold defined in D; rewrite D; reflexivity). rewrite DN in PE.
      pose proof (enum_loop_counts ev body s (ONum (VInt 0)) [] T) as Q. destruct Q as [Q|[e Q]]; [|discriminate].
      destruct (enum_loop ev s (ONum (VInt 0)) [] body) as [[s2 en] [e|]]; [discriminate PE|]. destruct Q as (vs2 & C2 & _ & V2 & T2).
      assert (ES := f_equal fst PE). cbn [fst] in ES. rewrite <- ES. clear PE ES s1. rewrite (counts_det _ _ _ _ C _ C2) in V2. split.
      - rewrite <- V2 at 1. apply inert_values. apply inert_add; [intros [Y|[Y|Y]]; discriminate|]. apply inert_add; [intros [Y|[Y|Y]]; discriminate|apply inert_refl].
      - apply typed_add_other; [discriminate|]. apply typed_add_other; [discriminate|exact T2]. }
    destruct (process_enum ev s (Some n) body) as [s1 [r|]].
    - destruct P as (-> & vs' & C' & EN & _ & VV). destruct (V s1 _ eq_refl) as [V1 T1]. assert (vs' = vs) as -> by (apply (counts_det _ _ _ _ C _ C')).
      exists n, s1. split; [reflexivity|]. split; [exact EN|]. split; [exact V1|]. split; [exact T1|]. split; [exact VV|exact NM].
    - exfalso. exact (proj1 P vs C).
  Qed.

  (** ** What a header keeps *)
  Section KeepTops.
    Context (P : store entry -> Prop) (ok : gname -> Prop) (okg : gtop -> Prop)
      (KC : forall s c m l p ls, ok (GComp c m l p) -> (l = [] -> ls = []) -> P s -> P (fst (process_struct ev s c m ls p)))
      (KE : forall s m l, ok (GEnum m l) -> P s -> P (fst (process_enum ev s m l)))
      (KA : forall s g b l, okg g -> names_of l = declared_names g -> P s -> P (fst (act_top s g b l))).
    Lemma elab_top_keep s g : Forall ok (inside g) -> P s -> P (fst (elab_top s g)).
    Proof.
      intros F H. unfold inside in F. apply Forall_app in F. destruct F as [F1 F2]. unfold elab_top.
      pose proof (proj2 (elab_keeps P ok KC KE) (spec_part g) s F1 H) as H1. destruct (elab_spec s (spec_part g)) as [s1 [b|]]; cbn [fst] in H1; [|exact H1].
      pose proof (elab_decls_keep P ok KC KE (decls_part g) s1 F2 H1) as H2. destruct (elab_decls s1 (decls_part g)) as [s2 [x|]]; exact H2.
    Qed.
    Lemma run_top_keep s g : Forall ok (inside g) -> okg g -> P s -> P (fst (run_top s g)).
    Proof.
      intros F O H. rewrite run_top_eq. pose proof (elab_top_keep s g F H) as H1. destruct (elab_top s g) as [s1 [[b l]|]] eqn:E; cbn [fst] in H1; [|exact H1].
      apply KA; [exact O|apply (elab_top_shape _ _ _ _ _ E)|exact H1].
    Qed.
    Lemma run_tops_keep l : forall s, Forall (fun g => Forall ok (inside g) /\ okg g) l -> P s -> P (fst (run_tops s l)).
    Proof.
      induction l as [|g l IH]; intros s F H; [exact H|]. inversion F as [|x y [F1 F2] F']; subst. cbn [GramModel.run_tops].
      pose proof (run_top_keep s g F1 F2 H) as H1. destruct (run_top s g) as [s1 [e|]]; cbn [fst] in H1; [exact H1|apply IH; assumption].
    Qed.
  End KeepTops.

  (** Structures and unions. *)
  Section KeepComp.
    Context (c : comp) (n : str) (ms : list member) (p : option Z).
    Let P (s : store entry) : Prop := defined s (comp_kind c) n = Some (EComp ms p).
    Lemma comp_kc s c' m l p' ls : ~ defines c n (GComp c' m l p') -> (l = [] -> ls = []) -> P s -> P (fst (process_struct ev s c' m ls p')).
    Proof.
      intros N L H. apply (act_keeps_comp ev s (AComp c' m ls p')); [exact H|]. intros (x & l' & p'' & E). injection E as -> -> -> ->.
      apply N. exists l, p''. split; [reflexivity|]. intros E. specialize (L E). discriminate L.
    Qed.
    Lemma comp_ke s m l : P s -> P (fst (process_enum ev s m l)).
    Proof. intros H. unfold P. destruct (comp_kind_facts c) as (F1 & F2 & F3 & _). rewrite process_enum_other by assumption. exact H. Qed.
    Lemma comp_ka s g b l : P s -> P (fst (act_top s g b l)).
    Proof.
      intros H. unfold P. destruct (comp_kind_facts c) as (F1 & F2 & F3 & F4 & F5). destruct g as [t x|t x i|t x]; cbn [act_top fst].
      - rewrite typedef_other by assumption. exact H.
      - unfold process_variable. rewrite declare_other by assumption. exact H.
      - destruct l as [|d [|? ?]]; try exact H. rewrite function_other by assumption. exact H.
    Qed.
    Lemma elab_decls_comp l s : Forall (fun x => ~ defines c n x) (flat_map inside_decl l) -> P s -> P (fst (elab_decls s l)).
    Proof. apply (elab_decls_keep P (fun x => ~ defines c n x)); [intros s0 c' m l0 p' ls; apply comp_kc|intros s0 m l0 _; apply comp_ke]. Qed.
    Lemma run_tops_comp l s : Forall (fun g => Forall (fun x => ~ defines c n x) (inside g)) l -> P s -> P (fst (run_tops s l)).
    Proof.
      intros F. apply (run_tops_keep P (fun x => ~ defines c n x) (fun _ => True)).
      - intros s0 c' m l0 p' ls; apply comp_kc.
      - intros s0 m l0 _; apply comp_ke.
      - intros s0 g b l0 _ _. apply comp_ka.
      - eapply Forall_impl; [|exact F]. cbn. auto.
    Qed.
  End KeepComp.

  (** Values are values. *)
  Lemma typed_ka s g b l : typed_values s -> typed_values (fst (act_top s g b l)).
  Proof.
    intros H. destruct g as [t x|t x i|t x]; cbn [act_top fst].
    - apply typedef_typed. exact H.
    - apply (act_typed ev s (AVar b l i)). exact H.
    - destruct l as [|d [|? ?]]; try exact H. apply (act_typed ev s (AFun b d)). exact H.
  Qed.
  Lemma run_tops_typed l s : typed_values s -> typed_values (fst (run_tops s l)).
  Proof.
    apply (run_tops_keep typed_values (fun _ => True) (fun _ => True)).
    - intros s0 c m l0 p ls _ _ H. apply (act_typed ev s0 (AComp c m ls p)). exact H.
    - intros s0 m l0 _ H. apply (act_typed ev s0 (AEnum m l0)). exact H.
    - intros s0 g b l0 _ _. apply typed_ka.
    - apply Forall_forall. intros g _. split; [apply all_true|exact Logic.I].
  Qed.
  (** Enums. *)
  Lemma enum_ke n v s m l : defined s Enums n = Some v -> defined (fst (process_enum ev s m l)) Enums n = Some v.
  Proof.
    intros H.
    assert (X : forall x, defined (fst (process_enum ev s (Some x) l)) Enums n = Some v).
    { intros x. destruct (eqb_spec x n) as [->|NE]; [rewrite (process_enum_again ev s n l v H); exact H|]. unfold process_enum.
      destruct (dmem (defs s Enums) x); [exact H|]. pose proof (enum_loop_kinds ev l s (ONum (VInt 0)) [] Enums n ltac:(discriminate)) as Q.
      destruct (enum_loop ev s (ONum (VInt 0)) [] l) as [[s1 en] [e|]]; cbn [fst] in *; [rewrite Q; exact H|].
      rewrite !defined_other; [rewrite Q; exact H|right; congruence|left; discriminate]. }
    destruct m as [x|]; [apply X|]. destruct (process_enum_anon ev s l) as (x & _ & ->). apply X.
  Qed.
  Lemma run_tops_enum n v l s : defined s Enums n = Some v -> defined (fst (run_tops s l)) Enums n = Some v.
  Proof.
    apply (run_tops_keep (fun s => defined s Enums n = Some v) (fun _ => True) (fun _ => True)).
    - intros s0 c m l0 p ls _ _ H. destruct (process_struct_cases ev s0 c m ls p) as [(x & ms & _ & _ & -> & _)|[(x & _ & _ & _ & ->)|(e & _ & ->)]]; cbn [fst]; try exact H.
      rewrite !defined_other by (left; destruct c; discriminate). exact H.
    - intros s0 m l0 _. apply enum_ke.
    - intros s0 g b l0 _ _ H. destruct g as [t x|t x i|t x]; cbn [act_top fst].
      + rewrite typedef_other by discriminate. exact H.
      + unfold process_variable. rewrite declare_other by discriminate. exact H.
      + destruct l0 as [|d [|? ?]]; try exact H. rewrite function_other by discriminate. exact H.
    - apply Forall_forall. intros g _. split; [apply all_true|exact Logic.I].
  Qed.
  (** Type names. *)
  Lemma types_ke n s m l : ~ In sp n -> defined (fst (process_enum ev s m l)) Types n = defined s Types n.
  Proof.
    intros B. assert (X : forall x, defined (fst (process_enum ev s (Some x) l)) Types n = defined s Types n).
    { intros x. unfold process_enum. destruct (dmem (defs s Enums) x); [reflexivity|].
      pose proof (enum_loop_kinds ev l s (ONum (VInt 0)) [] Types n ltac:(discriminate)) as Q.
      destruct (enum_loop ev s (ONum (VInt 0)) [] l) as [[s1 en] [e|]]; cbn [fst] in *; [exact Q|].
      rewrite !defined_other; [exact Q| |].
      - left. discriminate.
      - right. intros ->. apply B. cbn. tauto. }
    destruct m as [x|]; [apply X|]. destruct (process_enum_anon ev s l) as (x & _ & ->). apply X.
  Qed.
  Lemma types_kc n s c m ls p : ~ In sp n -> defined (fst (process_struct ev s c m ls p)) Types n = defined s Types n.
  Proof.
    intros B. destruct (process_struct_cases ev s c m ls p) as [(x & ms & _ & _ & -> & _)|[(x & _ & _ & _ & ->)|(e & _ & ->)]]; cbn [fst]; try reflexivity.
    rewrite !defined_other; [reflexivity|left; destruct c; discriminate|]. right. intros ->. apply B. apply (tag_space (comp_kw c) (comp_kind c)). destruct c; cbn; auto.
  Qed.
  Lemma types_ka n s g b l : not_typedef n g -> names_of l = declared_names g -> defined (fst (act_top s g b l)) Types n = defined s Types n.
  Proof.
    intros O N. destruct g as [t x|t x i|t x]; cbn [act_top fst].
    - apply typedef_names. rewrite N. apply O. reflexivity.
    - unfold process_variable. rewrite declare_other by discriminate. reflexivity.
    - destruct l as [|d [|? ?]]; try reflexivity. rewrite function_other by discriminate. reflexivity.
  Qed.
  Lemma run_tops_types n l s0 s : ~ In sp n -> Forall (not_typedef n) l -> defined s Types n = s0 -> defined (fst (run_tops s l)) Types n = s0.
  Proof.
    intros B F. apply (run_tops_keep (fun s => defined s Types n = s0) (fun _ => True) (not_typedef n)).
    - intros s1 c m l0 p ls _ _ H. rewrite types_kc; assumption.
    - intros s1 m l0 _ H. rewrite types_ke; assumption.
    - intros s1 g b l0 O N H. rewrite types_ka; assumption.
    - eapply Forall_impl; [|exact F]. intros g O. split; [apply all_true|exact O].
  Qed.

  (** ** Headers *)
  Lemma sp_decl_name base mods pack d : forall ts, sp_decl base mods pack d ts -> exists n, c_name (tree d) = Some n /\ plain_name base mods n.
  Proof.
    apply (gdecl_nested (fun d => forall ts, sp_decl base mods pack d ts -> exists n, c_name (tree d) = Some n /\ plain_name base mods n) (fun _ => True)); [|intros; exact Logic.I].
    clear d. intros fq cv ps core args ar IC _ ts H. inversion H as [fq' cc ps' c a ar' tc tp tn ta tr Q1 Q2 Q3 Q4 Q5 Q6]; subst. cbn [tree c_name].
    inversion Q4 as [r n tr' R1 R2|d td R1]; subst; [exists n; auto|]. exact (IC d eq_refl td R1).
  Qed.
  Lemma word_blank n : word n -> ~ In sp n.
  Proof.
    intros W I1. destruct n as [|c r]; [contradiction|]. destruct W as [W1 W2]. destruct I1 as [->|I1]; [discriminate W1|].
    rewrite forallb_forall in W2. specialize (W2 sp I1). discriminate W2.
  Qed.
  Definition good_names (g : gtop) : Prop := forall o, In o (declared_names g) -> exists n, o = Some n /\ ~ In sp n.
  Lemma decls_names base mods pack l ts : sep_list (sp_decl base mods pack) l ts ->
    forall o, In o (map (fun d => c_name (tree d)) l) -> exists n, o = Some n /\ ~ In sp n.
  Proof.
    induction 1 as [d t H|d t l ts H _ IH]; intros o I1; cbn [map In] in I1.
    - destruct I1 as [<-|[]]. destruct (sp_decl_name _ _ _ _ _ H) as (n & E & P). exists n. split; [exact E|apply word_blank; apply P].
    - destruct I1 as [<-|I1]; [|apply IH; exact I1]. destruct (sp_decl_name _ _ _ _ _ H) as (n & E & P). exists n. split; [exact E|apply word_blank; apply P].
  Qed.
  Lemma top_names base mods pack g ts : sp_top base mods pack g ts -> good_names g.
  Proof.
    intros H. unfold good_names, declared_names. destruct H as [t ds tt td H1 H2|t ds i ts tt td ti H1 H2 H3 H4|t d ts tt td b H1 H2 H3 H4]; cbn [decls_part].
    - apply (decls_names _ _ _ _ _ H2).
    - destruct H3 as [|l tl H3]; [intros o []|apply (decls_names _ _ _ _ _ H3)].
    - apply (decls_names base mods pack [d] td). constructor. exact H3.
  Qed.
  Lemma header_names base mods pack ds text : header base mods pack ds text -> Forall good_names ds.
  Proof.
    intros (lk & ts & H & _). induction H as [|g t ds ts H _ IH|m ds ts _ _ IH|ds ts _ _ IH|w ds ts _ _ _ IH]; try exact IH; constructor; [apply (top_names _ _ _ _ _ H)|exact IH].
  Qed.
  Lemma good_named g : good_names g -> named_decls g.
  Proof. intros H I1. destruct (H None I1) as (n & E & _). discriminate E. Qed.
  Lemma parse_header base mods pack l ds text s path : good_config base mods -> (forall n, packing_at l n = pack) ->
    header base mods pack ds text -> parse_file ev base mods l s path text = Some (run_tops (set_cur s path) ds).
  Proof. intros GC PK H. unfold parse_file. rewrite (noisy_defs base mods pack l ds text GC PK H). reflexivity. Qed.
  Lemma run_split s ds1 g ds2 : Forall harmless (ds1 ++ g :: ds2) -> Forall good_names (ds1 ++ g :: ds2) ->
    run_tops s (ds1 ++ g :: ds2) = (fst (run_tops (fst (run_top (fst (run_tops s ds1)) g)) ds2), None).
  Proof.
    intros H N. assert (N' : Forall named_decls (ds1 ++ g :: ds2)) by (eapply Forall_impl; [|exact N]; apply good_named). clear N.
    apply Forall_app in H. destruct H as [H1 H2]. apply Forall_app in N'. destruct N' as [N1 N2]. inversion H2; inversion N2; subst.
    rewrite run_tops_app by (apply run_tops_ends; assumption). cbn [GramModel.run_tops].
    pose proof (run_top_ends (fst (run_tops s ds1)) g ltac:(assumption) ltac:(assumption)) as E. destruct (run_top (fst (run_tops s ds1)) g) as [s1 o]. cbn [snd] in E. subst o. cbn [fst].
    pose proof (run_tops_ends ds2 s1 ltac:(assumption) ltac:(assumption)) as E. destruct (run_tops s1 ds2) as [s2 o]. cbn [snd] in E. subst o. reflexivity.
  Qed.
  Lemma run_up_to s ds1 g ds2 l1 d l2 : Forall harmless (ds1 ++ g :: ds2) -> Forall good_names (ds1 ++ g :: ds2) -> decls_part g = l1 ++ d :: l2 ->
    fst (run_tops s (ds1 ++ [up_to g l1])) = fst (run_top (fst (run_tops s ds1)) (up_to g l1)).
  Proof.
    intros H N E. apply Forall_app in H. destruct H as [H1 H2]. apply Forall_app in N. destruct N as [N1 N2].
    rewrite run_tops_app; [rewrite run_tops_one; reflexivity|]. apply run_tops_ends; [exact H1|]. eapply Forall_impl; [|exact N1]. apply good_named.
  Qed.
  Lemma refers_inside c n t : refers t = true -> Forall (fun x => ~ defines c n x) (inside_spec t).
  Proof.
    destruct t as [q [w|c' [m|] [|x l] p|[m|] [|x l]]]; intros R; try discriminate R; cbn [inside_spec flat_map]; constructor; try constructor;
      intros (l' & p' & E & NE); try discriminate E. injection E as _ _ <- _. congruence.
  Qed.
  Lemma plain_inside c n d : plain_params d = true -> Forall (fun x => ~ defines c n x) (inside_decl d).
  Proof.
    apply (gdecl_nested (fun d => plain_params d = true -> Forall (fun x => ~ defines c n x) (inside_decl d)) (fun _ => True)); [|intros; exact Logic.I].
    clear d. intros fq cv ps core args ar IC IA P. cbn [plain_params inside_decl] in *. apply andb_true_iff in P. destruct P as [P1 P2]. apply Forall_app. split.
    - destruct core as [r m|r|d]; [constructor|constructor|]. apply (IC d eq_refl P1).
    - destruct args as [l|]; [|constructor]. specialize (IA l eq_refl). clear - IA P2. induction IA as [|[t d v] l [_ H] IA IH]; [constructor|].
      cbn [forallb flat_map] in *. apply andb_true_iff in P2. destruct P2 as [P1 P2]. apply andb_true_iff in P1. destruct P1 as [Pt Pd].
      apply Forall_app. split; [apply Forall_app; split; [apply refers_inside; exact Pt|apply H; exact Pd]|apply IH; exact P2].
  Qed.
  Lemma plain_insides c n l : Forall (fun d => plain_params d = true /\ every no_bare_conv (tree d) = true) l ->
    Forall (fun x => ~ defines c n x) (flat_map inside_decl l).
  Proof. induction 1 as [|d l [H _] _ IH]; [constructor|]. cbn [flat_map]. apply Forall_app. split; [apply plain_inside; exact H|exact IH]. Qed.

  Lemma enum_ka n v s g b l : defined s Enums n = Some v -> defined (fst (act_top s g b l)) Enums n = Some v.
  Proof.
    intros H. destruct g as [t y|t y i|t y]; cbn [act_top fst].
    - rewrite typedef_other by discriminate. exact H.
    - unfold process_variable. rewrite declare_other by discriminate. exact H.
    - destruct l as [|d [|? ?]]; try exact H. rewrite function_other by discriminate. exact H.
  Qed.
  Lemma struct_adds s c m l p : fst (process_struct ev s c m l p) = s
    \/ exists n e u, fst (process_struct ev s c m l p) = add_def (add_def s (comp_kind c) n e) Types (tag_name (comp_kw c) n) u
       /\ match m with Some x => n = x | None => starts_with $"anon_" n = true end.
  Proof.
    unfold process_struct. destruct m as [n|].
    - destruct (_ || _); [|left; reflexivity]. destruct (all_members ev s l); [|left; reflexivity]. right. do 3 eexists. split; reflexivity.
    - pose proof (fresh_from_spec (S (length (defs s (comp_kind c)))) 0 ($"anon_" ++ comp_kw c) (defs s (comp_kind c))) as FS.
      unfold DeclModel.fresh. destruct (fresh_from _ _ _ _) as [n|e]; [|left; reflexivity]. destruct FS as (_ & k & _ & -> & _).
      destruct (_ || _); [|left; reflexivity]. destruct (all_members ev s l); [|left; reflexivity]. right. do 3 eexists. split; reflexivity.
  Qed.
  Lemma enum_adds s m l : exists n, match m with Some x => n = x | None => starts_with $"anon_" n = true end
    /\ (fst (process_enum ev s m l) = s \/ fst (process_enum ev s m l) = fst (fst (enum_loop ev s (ONum (VInt 0)) [] l))
        \/ exists e u, fst (process_enum ev s m l) = add_def (add_def (fst (fst (enum_loop ev s (ONum (VInt 0)) [] l))) Enums n e) Types (tag_name $"enum" n) u).
  Proof.
    unfold process_enum.
    assert (X : exists n, (match m with Some n => Ok n | None => DeclModel.fresh $"anon_enum" (defs s Enums) end) = Ok n
                  /\ match m with Some x => n = x | None => starts_with $"anon_" n = true end).
    { destruct m as [n|]; [exists n; split; reflexivity|]. destruct (fresh_ok $"anon_enum" (defs s Enums)) as (x & E & _). exists x. split; [exact E|].
      unfold DeclModel.fresh in E. pose proof (fresh_from_spec (S (length (defs s Enums))) 0 $"anon_enum" (defs s Enums)) as FS. rewrite E in FS.
      destruct FS as (_ & k & _ & -> & _). reflexivity. }
    destruct X as (n & -> & NM). exists n. split; [exact NM|]. destruct (dmem (defs s Enums) n); [left; reflexivity|]. right.
    destruct (enum_loop ev s (ONum (VInt 0)) [] l) as [[s1 en] [e|]]; cbn [fst]; [left; reflexivity|]. right. do 2 eexists. reflexivity.
  Qed.
  (** ** Definitions inside of definitions *)
  Definition called (m : option str) (n : str) : Prop := m = Some n \/ m = None /\ starts_with $"anon_" n = true.
  Definition kept (l : list (comp * option str)) (s s' : store entry) : Prop :=
    (forall c m n ms p, In (c, m) l -> called m n -> defined s (comp_kind c) n = Some (EComp ms p) -> defined s' (comp_kind c) n = Some (EComp ms p))
    /\ (forall n v, defined s Enums n = Some v -> defined s' Enums n = Some v).
  Lemma kept_part l l' s s' : (forall x, In x l' -> In x l) -> kept l s s' -> kept l' s s'.
  Proof. intros H [K1 K2]. split; [|exact K2]. intros c m n ms p I1. apply K1. apply H. exact I1. Qed.
  Lemma kept_trans l a b c : kept l a b -> kept l b c -> kept l a c.
  Proof. intros [A1 A2] [B1 B2]. split; [intros c' m n ms p I1 C D; apply (B1 _ m); auto; apply (A1 _ m); auto|intros n v D; auto]. Qed.
  Lemma tags_app l l' : tags_of (l ++ l') = tags_of l ++ tags_of l'.
  Proof. apply flat_map_app. Qed.
  Lemma tags_defines c n x l : In x l -> defines c n x -> In (c, Some n) (tags_of l).
  Proof.
    intros I1 (b & p & -> & NE). apply in_flat_map. exists (GComp c (Some n) b p). split; [exact I1|]. destruct b; [congruence|left; reflexivity].
  Qed.
  Lemma nodup_right {A} (l l' : list A) : NoDup (l ++ l') -> NoDup l'.
  Proof. induction l as [|x l IH]; [auto|]. cbn [app]. intros H. inversion H; subst. apply IH. assumption. Qed.
  Lemma nodup_left {A} (l l' : list A) : NoDup (l ++ l') -> NoDup l.
  Proof.
    induction l as [|x l IH]; [constructor|]. cbn [app]. intros H. inversion H; subst. constructor; [|apply IH; assumption].
    intros I1. match goal with N : ~ In x (l ++ l') |- _ => apply N end. apply in_or_app. left. exact I1.
  Qed.
  Lemma apart_part l l' : (exists a b, l = a ++ l' ++ b) -> told_apart l -> told_apart l'.
  Proof.
    intros (a & b & ->) [H1 H2]. split.
    - rewrite !filter_app in H1. apply nodup_right in H1. apply nodup_left in H1. exact H1.
    - intros c c' n I1 I2. apply (H2 c c' n); apply in_or_app; right; apply in_or_app; left; assumption.
  Qed.
  Lemma apart_differ l1 l2 c m n : told_apart (l1 ++ l2) -> In (c, m) l1 -> called m n -> ~ In (c, Some n) l2.
  Proof.
    intros [H1 H2] I1 [->|[-> A]] I2.
    - rewrite filter_app in H1. apply in_split in I1. destruct I1 as (a & b & ->). rewrite filter_app in H1. cbn [filter snd] in H1.
      rewrite <- app_assoc in H1. cbn [app] in H1. apply NoDup_remove_2 in H1. apply H1. apply in_or_app. right. apply in_or_app. right. apply filter_In. split; [exact I2|reflexivity].
    - rewrite (H2 c c n) in A; [discriminate A|apply in_or_app; left; exact I1|apply in_or_app; right; exact I2].
  Qed.
  Lemma apart_other l1 l2 c m n : told_apart (l1 ++ l2) -> In (c, m) l2 -> called m n -> ~ In (c, Some n) l1.
  Proof.
    intros [H1 H2] I1 [->|[-> A]] I2.
    - rewrite filter_app in H1. apply in_split in I2. destruct I2 as (a & b & ->). rewrite filter_app in H1. cbn [filter snd] in H1.
      rewrite <- app_assoc in H1. cbn [app] in H1. apply NoDup_remove_2 in H1. apply H1. apply in_or_app. right. apply in_or_app. right. apply filter_In. split; [exact I1|reflexivity].
    - rewrite (H2 c c n) in A; [discriminate A|apply in_or_app; right; exact I1|apply in_or_app; left; exact I2].
  Qed.
  Lemma elab_enum_keep n v : (forall l s, defined s Enums n = Some v -> defined (fst (elab_decls s l)) Enums n = Some v)
    /\ (forall l s, defined s Enums n = Some v -> defined (fst (elab_lines s l)) Enums n = Some v).
  Proof.
    assert (KC : forall s c m (l : list gline) p (ls : list mline), True -> (l = [] -> ls = []) -> defined s Enums n = Some v -> defined (fst (process_struct ev s c m ls p)) Enums n = Some v).
    { intros s0 c m0 l0 p ls _ _ H. destruct (process_struct_cases ev s0 c m0 ls p) as [(y & ms & _ & _ & -> & _)|[(y & _ & _ & _ & ->)|(e & _ & ->)]]; cbn [fst]; try exact H.
      rewrite !defined_other by (left; destruct c; discriminate). exact H. }
    split; intros l s.
    - apply (elab_decls_keep (fun x => defined x Enums n = Some v) (fun _ => True)); [exact KC|intros s0 m0 l0 _; apply enum_ke|apply all_true].
    - apply (elab_lines_keep (fun x => defined x Enums n = Some v) (fun _ => True)); [exact KC|intros s0 m0 l0 _; apply enum_ke|apply all_true].
  Qed.
  Lemma decls_kept tags l s : forallb plain_params l = true -> kept tags s (fst (elab_decls s l)).
  Proof.
    intros P. split; [|intros n v; apply (proj1 (elab_enum_keep n v))]. intros c m n ms p _ _. apply elab_decls_comp. induction l as [|d l IH]; [constructor|]. cbn [forallb flat_map] in *.
    apply andb_true_iff in P. destruct P as [P1 P2]. apply Forall_app. split; [apply plain_inside; exact P1|apply IH; exact P2].
  Qed.
  Lemma lines_kept tags l s : (forall c m n, In (c, m) tags -> called m n -> ~ In (c, Some n) (tags_of (body_inside l))) -> kept tags s (fst (elab_lines s l)).
  Proof.
    intros H. split; [|intros n v; apply (proj2 (elab_enum_keep n v))]. intros c m n ms p I1 C. specialize (H c m n I1 C).
    apply (elab_lines_keep (fun s => defined s (comp_kind c) n = Some (EComp ms p)) (fun x => ~ defines c n x)); [intros s0 c' m' l0 p' ls; apply comp_kc|intros s0 m' l0 _; apply comp_ke|].
    apply Forall_forall. intros x I2 D. apply H. exact (tags_defines c n x _ I2 D).
  Qed.
  Scheme meaning_mut := Minimality for meaning Sort Prop with lines_meaning_mut := Minimality for lines_meaning Sort Prop.
  Combined Scheme meaning_both from meaning_mut, lines_meaning_mut.
  Lemma meaning_kept s1 s' : (forall v t v' b, meaning ev s1 v t v' b -> kept (defined_tags t) s1 s' -> meaning ev s' v t v' b)
    /\ (forall v l v' ls, lines_meaning ev s1 v l v' ls -> kept (tags_of (body_inside l)) s1 s' -> lines_meaning ev s' v l v' ls).
  Proof.
    assert (A : forall q c m body p, body <> [] -> defined_tags (GSpec q (GComp c m body p)) = (c, m) :: tags_of (body_inside body)).
    { intros q c m [|x body] p NE; [congruence|reflexivity]. }
    assert (B : forall t ds i w l, exists r, tags_of (body_inside (GLine t ds i w :: l)) = defined_tags t ++ r ++ tags_of (body_inside l)).
    { intros t ds i w l. unfold body_inside. cbn [flat_map]. rewrite !tags_app. eexists. rewrite <- app_assoc. reflexivity. }
    apply (meaning_both ev s1 (fun v t v' b => kept (defined_tags t) s1 s' -> meaning ev s' v t v' b)
        (fun v l v' ls => kept (tags_of (body_inside l)) s1 s' -> lines_meaning ev s' v l v' ls)).
    - intros v t R _. apply me_ref. exact R.
    - intros v v' q c m body p n ms ls N NE _ IH DF F K. rewrite A in K by exact NE. apply (me_comp ev s' v v' q c m body p n ms ls N NE); [|apply (proj1 K c m); [left; reflexivity|exact N|exact DF]|exact F].
      apply IH. apply (kept_part _ (tags_of (body_inside body)) _ _ (fun x I1 => in_cons (c, m) x _ I1) K).
    - intros v q m body n vs N DF C K. apply (me_enum ev s' v q m body n vs N); [apply (proj2 K); exact DF|exact C].
    - intros v _. constructor.
    - intros v l v' ls _ IH K. constructor. apply IH. exact K.
    - intros v t v1 b ds i w l v' ls _ IH1 _ IH2 K. destruct (B t ds i w l) as (r & E). rewrite E in K. apply (lm_line ev s' v t v1); [apply IH1|apply IH2]; apply (kept_part _ _ _ _) with (2 := K); intros x I1.
      + apply in_or_app. left. exact I1.
      + apply in_or_app. right. apply in_or_app. right. exact I1.
  Qed.
  (** The enums that are known. *)
  Definition enums_from (s0 : store entry) (seen : list (option str)) (s : store entry) : Prop :=
    forall n, defined s Enums n <> None -> defined s0 Enums n <> None \/ In (Some n) seen \/ In None seen /\ starts_with $"anon_" n = true.
  Lemma enums_more s0 seen seen' s : enums_from s0 seen s -> enums_from s0 (seen ++ seen') s.
  Proof. intros H n D. destruct (H n D) as [X|[X|[X Y]]]; [left; exact X|right; left|right; right; split; [|exact Y]]; apply in_or_app; left; exact X. Qed.
  Lemma enum_loop_enums l : forall s i d n, defined (fst (fst (enum_loop ev s i d l))) Enums n = defined s Enums n.
  Proof. intros s i d n. apply (enum_loop_kinds ev l s i d). discriminate. Qed.
  Lemma enums_kc s0 seen s c m (ls : list mline) p : enums_from s0 seen s -> enums_from s0 seen (fst (process_struct ev s c m ls p)).
  Proof.
    intros H. destruct (struct_adds s c m ls p) as [->|(n & e & u & -> & _)]; [exact H|]. intros x D. rewrite !defined_other in D by (left; destruct c; discriminate). apply H. exact D.
  Qed.
  Lemma enums_ke s0 seen s m l : In m seen -> enums_from s0 seen s -> enums_from s0 seen (fst (process_enum ev s m l)).
  Proof.
    intros I1 H. destruct (enum_adds s m l) as (n & NM & [->|[->|(e & u & ->)]]); [exact H| |].
    - intros x D. rewrite enum_loop_enums in D. apply H. exact D.
    - intros x D. rewrite defined_other in D by (left; discriminate). destruct (eqb_spec n x) as [->|NE].
      + destruct m as [y|]; [subst y; right; left; exact I1|right; right; split; [exact I1|exact NM]].
      + rewrite defined_other in D by (right; congruence). rewrite enum_loop_enums in D. apply H. exact D.
  Qed.
  Lemma tags_ok l seen : Forall (fun x => match x with GEnum m _ => In m (seen ++ enum_keys l) | _ => True end) l.
  Proof.
    apply Forall_forall. intros [w|c m b p|m b] I1; try exact Logic.I. apply in_or_app. right. apply in_flat_map. exists (GEnum m b). split; [exact I1|left; reflexivity].
  Qed.
  Lemma enums_spec s0 seen t s : enums_from s0 seen s -> enums_from s0 (seen ++ enum_keys (inside_spec t)) (fst (elab_spec s t)).
  Proof.
    intros H. apply (proj2 (elab_keeps (enums_from s0 (seen ++ enum_keys (inside_spec t))) (fun x => match x with GEnum m _ => In m (seen ++ enum_keys (inside_spec t)) | _ => True end)
      (fun s c m l p ls _ _ => enums_kc s0 _ s c m ls p) (fun s m l => enums_ke s0 _ s m l)) t s (tags_ok _ _)). apply enums_more. exact H.
  Qed.
  Lemma enums_decls s0 seen ds s : enums_from s0 seen s -> enums_from s0 (seen ++ enum_keys (flat_map inside_decl ds)) (fst (elab_decls s ds)).
  Proof.
    intros H. apply (elab_decls_keep (enums_from s0 (seen ++ enum_keys (flat_map inside_decl ds))) (fun x => match x with GEnum m _ => In m (seen ++ enum_keys (flat_map inside_decl ds)) | _ => True end)
      (fun s c m l p ls _ _ => enums_kc s0 _ s c m ls p) (fun s m l => enums_ke s0 _ s m l) ds s (tags_ok _ _)). apply enums_more. exact H.
  Qed.
  Lemma new_part s0 seen a b c : new_enums s0 seen (a ++ b ++ c) -> new_enums s0 (seen ++ enum_keys a) b.
  Proof.
    intros H l1 n x body l2 E. specialize (H (a ++ l1) n x body (l2 ++ c)). unfold enum_keys in H. rewrite flat_map_app in H. fold (enum_keys a) (enum_keys l1) in H.
    rewrite <- app_assoc. apply H. rewrite E, <- !app_assoc. reflexivity.
  Qed.
  Lemma typed_elab s ds : typed_values s -> typed_values (fst (elab_decls s ds)).
  Proof.
    apply (elab_decls_keep typed_values (fun _ => True)).
    - intros s0 c m l0 p ls _ _ H. apply (act_typed ev s0 (AComp c m ls p)). exact H.
    - intros s0 m l0 _ H. apply (act_typed ev s0 (AEnum m l0)). exact H.
    - apply all_true.
  Qed.
  Lemma typed_struct s c m ls p : typed_values s -> typed_values (fst (process_struct ev s c m ls p)).
  Proof. intros H. apply (act_typed ev s (AComp c m ls p)). exact H. Qed.
  Lemma refers_typed s t : typed_values s -> typed_values (fst (elab_spec s t)).
  Proof.
    apply (proj2 (elab_keeps typed_values (fun _ => True)
      (fun s c m l p ls _ _ => typed_struct s c m ls p) (fun s m l _ H => act_typed ev s (AEnum m l) H)) t s (all_true _)).
  Qed.
  Scheme plain_spec_mut := Minimality for plain_spec Sort Prop with plain_body_mut := Minimality for plain_body Sort Prop.
  Lemma plain_spec_elab s0 v t v' : plain_spec ev v t v' -> forall s seen, values s = v -> typed_values s -> enums_from s0 seen s ->
    new_enums s0 seen (inside_spec t) -> told_apart (defined_tags t) ->
    exists s1 b, elab_spec s t = (s1, Some b) /\ b_qual b = b_qual (spec_of t) /\ values s1 = v' /\ typed_values s1 /\ meaning ev s1 v t v' b.
  Proof.
    intros PT.
    apply (plain_spec_mut ev
      (fun v t v' => forall s seen, values s = v -> typed_values s -> enums_from s0 seen s ->
         new_enums s0 seen (inside_spec t) -> told_apart (defined_tags t) ->
         exists s1 b, elab_spec s t = (s1, Some b) /\ b_qual b = b_qual (spec_of t) /\ values s1 = v' /\ typed_values s1 /\ meaning ev s1 v t v' b)
      (fun v l v' => forall s seen, values s = v -> typed_values s -> enums_from s0 seen s ->
         new_enums s0 seen (body_inside l) -> told_apart (tags_of (body_inside l)) ->
         exists s1 ls, elab_lines s l = (s1, Some ls) /\ values s1 = v' /\ typed_values s1 /\ lines_meaning ev s1 v l v' ls
           /\ Forall plain_line ls /\ (ls = [] -> lines_of l = []))); [| | | | | |exact PT]; clear v t v' PT.
    - intros v t R s seen VS TV _ _ _. destruct (refers_elab t s R) as (s1 & E & I1). exists s1, (spec_of t). split; [exact E|]. split; [reflexivity|].
      split; [rewrite (inert_values _ _ I1); exact VS|]. split; [|apply me_ref; exact R]. pose proof (refers_typed s t TV) as T1. rewrite E in T1. exact T1.
    - intros v v' q c m body p _ IH NE s seen VS TV EF NW AP.
      assert (NB : body <> []) by (intros ->; apply NE; reflexivity).
      assert (TG : defined_tags (GSpec q (GComp c m body p)) = [(c, m)] ++ tags_of (body_inside body)) by (destruct body; [congruence|reflexivity]).
      rewrite TG in AP.
      destruct (IH s seen VS TV EF) as (s1 & ls & E1 & V1 & T1 & D1 & PL & NL).
      { pose proof (new_part s0 seen [GComp c m body p] (body_inside body) []) as X. rewrite app_nil_r in X. specialize (X NW). cbn [enum_keys flat_map] in X. rewrite app_nil_r in X. exact X. }
      { apply (apart_part _ _) with (2 := AP). exists [(c, m)], []. rewrite app_nil_r. reflexivity. }
      destruct (lines_recorded ev s1 ls PL) as (ms & M & R).
      assert (X : exists n, (match m with Some n => Ok n | None => DeclModel.fresh ($"anon_" ++ comp_kw c) (defs s1 (comp_kind c)) end) = Ok n /\ called m n).
      { destruct m as [n|]; [exists n; split; [reflexivity|left; reflexivity]|]. unfold DeclModel.fresh. pose proof (fresh_from_spec (S (length (defs s1 (comp_kind c)))) 0 ($"anon_" ++ comp_kw c) (defs s1 (comp_kind c))) as FS.
        destruct (fresh_ok ($"anon_" ++ comp_kw c) (defs s1 (comp_kind c))) as (x & E & _). unfold DeclModel.fresh in E. rewrite E in FS. exists x. split; [exact E|].
        right. split; [reflexivity|]. destruct FS as (_ & k & _ & -> & _). reflexivity. }
      destruct X as (n & EN & NM).
      set (s2 := add_def (add_def s1 (comp_kind c) n (EComp ms p)) Types (comp_kw c ++ $" " ++ n) (EType (CT (SName (comp_kw c)) [DStr n] [Some []; Some []]))).
      assert (PS : process_struct ev s1 c m ls p = (s2, Some (tag_name (comp_kw c) n))).
      { unfold process_struct. rewrite EN. destruct ls as [|x l]; [contradiction NE; apply NL; reflexivity|]. cbn [orb]. rewrite M. reflexivity. }
      exists s2, {| b_qual := q; b_name := tag_name (comp_kw c) n |}. rewrite elab_spec_eq. cbn [elab_name]. rewrite E1, PS. cbn [option_map].
      split; [reflexivity|]. split; [reflexivity|]. split; [|split].
      { rewrite <- V1. apply inert_values. pose proof (struct_inert s1 s1 c m ls p (inert_refl s1)) as I2. rewrite PS in I2. exact I2. }
      { pose proof (typed_struct s1 c m ls p T1) as T2. rewrite PS in T2. exact T2. }
      apply (me_comp ev s2 v v' q c m body p n ms ls NM NB).
      + apply (proj2 (meaning_kept s1 s2) _ _ _ _ D1). split.
        * intros c' m' n' ms' p' I2 C D. replace s2 with (fst (process_struct ev s1 c m ls p)) by (rewrite PS; reflexivity).
          apply (comp_kc c' n' ms' p' s1 c m body p ls); [|intros ->; congruence|exact D]. intros DF. apply (apart_other _ _ c' m' n' AP I2 C).
          change [(c, m)] with (tags_of [GComp c m (hd GMethod body :: tl body) p]). apply (tags_defines c' n' (GComp c m body p)); [|exact DF].
          left. destruct body; [congruence|reflexivity].
        * intros n' v0 D. unfold s2. rewrite !defined_other by (left; destruct c; discriminate). exact D.
      + unfold s2. rewrite defined_other by (left; destruct c; discriminate). apply defined_same.
      + unfold eval_text in R. rewrite V1 in R. exact R.
    - intros v q m body vs NB ND C s seen VS TV EF NW AP.
      destruct (enum_elab s q m body vs TV ND) as (n & s1 & E & D & V1 & T1 & _ & NM).
      { destruct m as [n|]; [|exact Logic.I]. destruct body as [|x body]; [congruence|]. destruct (NW [] n x body [] eq_refl) as (N0 & N1 & N2).
        cbn [enum_keys flat_map] in N1, N2. rewrite app_nil_r in N1, N2. destruct (defined s Enums n) as [e|] eqn:DN; [|reflexivity].
        exfalso. destruct (EF n) as [X|[X|[X Y]]]; [congruence|congruence|contradiction|]. rewrite (N2 X) in Y. discriminate Y. }
      { rewrite VS. exact C. }
      exists s1, {| b_qual := q; b_name := tag_name $"enum" n |}. split; [exact E|]. split; [reflexivity|]. split; [rewrite V1, VS; reflexivity|]. split; [exact T1|].
      apply (me_enum ev s1 v q m body n vs); [destruct m; [left; congruence|right; reflexivity]|exact D|exact C].
    - intros v s seen VS TV _ _ _. exists s, []. split; [reflexivity|]. split; [exact VS|]. split; [exact TV|]. split; [constructor|]. split; [constructor|reflexivity].
    - intros v l v' _ IL s seen VS TV EF NW AP. destruct (IL s seen VS TV EF NW AP) as (s1 & ls & E1 & V1 & T1 & D1 & PL & NL). exists s1, ls.
      split; [exact E1|]. split; [exact V1|]. split; [exact T1|]. split; [constructor; exact D1|]. split; [exact PL|exact NL].
    - intros v t v1 ds i w l v' _ IT PP PL _ IL s seen VS TV EF NW AP.
      assert (TG : exists r, tags_of (body_inside (GLine t ds i w :: l)) = defined_tags t ++ r ++ tags_of (body_inside l)).
      { unfold body_inside. cbn [flat_map]. rewrite !tags_app. eexists. rewrite <- app_assoc. reflexivity. }
      destruct TG as (r & TG). rewrite TG in AP.
      assert (BI : body_inside (GLine t ds i w :: l) = inside_spec t ++ flat_map inside_decl ds ++ body_inside l) by (unfold body_inside; cbn [flat_map]; rewrite <- app_assoc; reflexivity).
      rewrite BI in NW.
      destruct (IT s seen VS TV EF) as (s1 & b & E1 & Q1 & V1 & T1 & D1).
      { pose proof (new_part s0 seen [] (inside_spec t) _ NW) as X. cbn [enum_keys flat_map] in X. rewrite app_nil_r in X. exact X. }
      { apply (apart_part _ _) with (2 := AP). exists [], (r ++ tags_of (body_inside l)). reflexivity. }
      destruct (plain_elabs ds s1 PP) as (s2 & E2 & I2).
      destruct (IL s2 ((seen ++ enum_keys (inside_spec t)) ++ enum_keys (flat_map inside_decl ds))) as (s3 & ls & E3 & V3 & T3 & D3 & PL3 & NL3).
      { rewrite (inert_values _ _ I2). exact V1. }
      { pose proof (typed_elab s1 ds T1) as T2. rewrite E2 in T2. exact T2. }
      { pose proof (enums_spec s0 seen t s EF) as F1. rewrite E1 in F1. cbn [fst] in F1. pose proof (enums_decls s0 _ ds s1 F1) as F2. rewrite E2 in F2. exact F2. }
      { pose proof (new_part s0 seen (inside_spec t ++ flat_map inside_decl ds) (body_inside l) []) as X. rewrite app_nil_r in X. rewrite <- app_assoc in X. specialize (X NW).
        unfold enum_keys in X at 1. rewrite flat_map_app in X. rewrite app_assoc in X. exact X. }
      { apply (apart_part _ _) with (2 := AP). exists (defined_tags t ++ r), []. rewrite app_nil_r, app_assoc. reflexivity. }
      exists s3, ({| l_type := b; l_decls := map tree ds; l_init := i; l_bit := w |} :: ls). cbn [elab_lines]. rewrite E1, E2. fold elab_lines. rewrite E3.
      split; [reflexivity|]. split; [exact V3|]. split; [exact T3|]. split; [|split; [|discriminate]].
      + apply (lm_line ev s3 v t v1); [|exact D3].
        apply (proj1 (meaning_kept s1 s3) _ _ _ _ D1). apply (kept_trans _ _ s2).
        * pose proof (decls_kept (defined_tags t) ds s1 PP) as K. rewrite E2 in K. exact K.
        * pose proof (lines_kept (defined_tags t) l s2) as K. rewrite E3 in K. apply K. intros c m n J C J2. apply (apart_differ _ _ c m n AP J C). apply in_or_app. right. exact J2.
      + constructor; [|exact PL3]. inversion PL as [|x y (A1 & A2 & A3) _]; subst. split; [exact A1|]. split; [exact A2|]. intros EN. cbn [l_type l_decls] in *. rewrite Q1. apply A3. exact EN.
  Qed.

  (** What the specifier defines stays recorded. *)
  Lemma run_spec s g ds2 s1 b (P : store entry -> Prop) :
    elab_spec s (spec_part g) = (s1, Some b) ->
    (forall x, P x -> P (fst (elab_decls x (decls_part g)))) ->
    (forall x b l, P x -> P (fst (act_top x g b l))) ->
    (forall x, P x -> P (fst (run_tops x ds2))) ->
    P s1 -> P (fst (run_tops (fst (run_top s g)) ds2)).
  Proof.
    intros E H1 H2 H3 H. apply H3. rewrite run_top_eq. unfold elab_top. rewrite E. specialize (H1 s1 H).
    destruct (elab_decls s1 (decls_part g)) as [s2 [l|]]; cbn [fst] in H1; [|exact H1]. apply H2. exact H1.
  Qed.
  Lemma spec_recorded s g ds2 : typed_values s -> known_spec ev s (spec_part g) -> plain_decls g -> stays g ds2 ->
    exists s1 b, elab_spec s (spec_part g) = (s1, Some b) /\ denotes ev s (fst (run_tops (fst (run_top s g)) ds2)) (spec_part g) b.
  Proof.
    intros T ((v & PS) & AP & NW) PD ST.
    destruct (plain_spec_elab s _ _ _ PS s [] eq_refl T) as (s1 & b & E & _ & _ & _ & D); [intros n X; left; exact X|exact NW|exact AP|].
    exists s1, b. split; [exact E|]. exists v. apply (proj1 (meaning_kept s1 _) _ _ _ _ D). split.
    - intros c' n' m' ms p' I1 C DF. unfold stays in ST. rewrite Forall_forall in ST. specialize (ST _ I1). cbn [fst snd] in ST.
      assert (F3 : Forall (fun g => Forall (fun x => ~ defines c' m' x) (inside g)) ds2).
      { apply Forall_forall. intros y I2. apply Forall_forall. intros x I3. rewrite Forall_forall in ST. specialize (ST x (proj2 (in_flat_map _ _ _) (ex_intro _ y (conj I2 I3)))).
        destruct C as [->|[-> A]]; [exact ST|apply ST; exact A]. }
      apply (run_spec s g ds2 s1 b (fun x => defined x (comp_kind c') m' = Some (EComp ms p'))).
      + exact E.
      + intros x. apply elab_decls_comp. apply plain_insides. apply PD.
      + intros x b0 l. apply comp_ka.
      + intros x. apply run_tops_comp. exact F3.
      + exact DF.
    - intros n v0 DF. apply (run_spec s g ds2 s1 b (fun x => defined x Enums n = Some v0)).
      + exact E.
      + intros x. apply (proj1 (elab_enum_keep _ _)).
      + intros x b0 l. apply enum_ka.
      + intros x. apply run_tops_enum.
      + exact DF.
  Qed.

  Lemma tops_recorded s path ds1 g ds2 :
    Forall good_names (ds1 ++ g :: ds2) -> Forall harmless (ds1 ++ g :: ds2) -> typed_values s ->
    let tables x := fst (run_tops (set_cur s path) (ds1 ++ x)) in
    known_spec ev (tables []) (spec_part g) -> plain_decls g -> stays g ds2 ->
    exists s' b, run_tops (set_cur s path) (ds1 ++ g :: ds2) = (s', None)
      /\ denotes ev (tables []) s' (spec_part g) b
      /\ forall l1 d l2 n, decls_part g = l1 ++ d :: l2 -> c_name (tree d) = Some n ->
         every c_syntax (tree d) = true -> no_conv_name (tree d) = true ->
         Forall (fun g' => ~ In (Some n) (declared_names g')) ds2 ->
         declared_as ev (tables [up_to g []]) s' g l2 n
           (c_type (eval_text ev (tables [up_to g l1])) (tree d) (base_type b)).
  Proof.
    intros GN HL TV tables KS PD ST.
    assert (TV' : typed_values (tables [])). { unfold tables. apply run_tops_typed. exact TV. }
    destruct (spec_recorded (tables []) g ds2 TV' KS PD ST) as (s1 & b & E & D).
    assert (T0 : tables [] = fst (run_tops (set_cur s path) ds1)) by (unfold tables; rewrite app_nil_r; reflexivity).
    rewrite (run_split _ ds1 g ds2 HL GN). rewrite <- T0. set (s0 := tables []) in *. set (s' := fst (run_tops (fst (run_top s0 g)) ds2)) in *.
    exists s', b. split; [reflexivity|]. split; [exact D|]. intros l1 d l2 n DP N CS NC F.
    assert (GG : good_names g). { rewrite Forall_forall in GN. apply GN. apply in_or_app. right. left. reflexivity. }
    assert (TU : tables [up_to g l1] = fst (run_top s0 (up_to g l1))). { unfold tables. rewrite (run_up_to _ ds1 g ds2 l1 d l2 HL GN DP). rewrite <- T0. reflexivity. }
    rewrite TU. clear TU.
    assert (TE : forall i, eval_init ev (tables [up_to g []]) i = eval_init ev s1 i).
    { intros i. assert (TU : tables [up_to g []] = fst (run_top s0 (up_to g []))).
      { unfold tables. pose proof HL as HL'. apply Forall_app in HL'. destruct HL' as [HL' _]. pose proof GN as GN'. apply Forall_app in GN'. destruct GN' as [GN' _].
        rewrite run_tops_app; [rewrite run_tops_one, <- T0; reflexivity|]. apply run_tops_ends; [exact HL'|]. eapply Forall_impl; [|exact GN']. apply good_named. }
      rewrite TU. destruct g as [t x|t x j|t x]; cbn [up_to]; rewrite run_top_eq; unfold elab_top; cbn [spec_part decls_part GramModel.elab_decls] in *; rewrite E; reflexivity. }
    assert (KF : forall k, k = Functions \/ k = Variables -> defined s' k n = defined (fst (run_top s0 g)) k n).
    { intros k K. unfold s'. apply run_tops_names; assumption. }
    pose proof (good_named g GG) as NG.
    destruct g as [t x|t x i|t x]; cbn [up_to spec_part decls_part declared_as] in *.
    - destruct (typedef_top s0 s1 b t x l1 d l2 n E PD NG DP N CS) as (u & U & R). exists u. split; [|exact R]. unfold s'. apply run_tops_types; [| |exact U].
      + destruct (GG (Some n)) as (n' & EN & B); [|injection EN as ->; exact B]. unfold declared_names. cbn [decls_part]. rewrite DP, map_app. apply in_or_app. right. left. exact N.
      + eapply Forall_impl; [|exact F]. intros g' H _. exact H.
    - pose proof (var_top s0 s1 b t x i l1 d l2 n E PD NG DP N CS NC) as H. cbn zeta in H. rewrite !KF by tauto. rewrite TE.
      destruct (is_function (c_type (eval_text ev (fst (run_top s0 (GVar t l1 i)))) (tree d) (base_type b))); [exact H|intros _; exact H].
    - intros IF. rewrite !KF by tauto. destruct l1 as [|y l1]; [|destruct l1; discriminate DP]. injection DP as -> <-. apply (fun_top s0 s1 b t d n E PD N CS NC IF).
  Qed.

  Theorem trees_recorded base mods l s path text ds1 g ds2 :
    parse_defs base mods l text = Some (ds1 ++ g :: ds2) -> Forall good_names (ds1 ++ g :: ds2) -> Forall harmless (ds1 ++ g :: ds2) -> typed_values s ->
    let tables x := fst (run_tops (set_cur s path) (ds1 ++ x)) in
    known_spec ev (tables []) (spec_part g) -> plain_decls g -> stays g ds2 ->
    exists s' b, parse_file ev base mods l s path text = Some (s', None)
      /\ denotes ev (tables []) s' (spec_part g) b
      /\ forall l1 d l2 n, decls_part g = l1 ++ d :: l2 -> c_name (tree d) = Some n ->
         every c_syntax (tree d) = true -> no_conv_name (tree d) = true ->
         Forall (fun g' => ~ In (Some n) (declared_names g')) ds2 ->
         declared_as ev (tables [up_to g []]) s' g l2 n
           (c_type (eval_text ev (tables [up_to g l1])) (tree d) (base_type b)).
  Proof.
    intros PE GN HL TV tables KS PD ST. destruct (tops_recorded s path ds1 g ds2 GN HL TV KS PD ST) as (s' & b & E & R).
    exists s', b. split; [unfold parse_file; rewrite PE, E; reflexivity|exact R].
  Qed.

  Theorem declaration_recorded base mods pack l s path text ds1 g ds2 :
    good_config base mods -> (forall n, packing_at l n = pack) ->
    header base mods pack (ds1 ++ g :: ds2) text -> Forall harmless (ds1 ++ g :: ds2) -> typed_values s ->
    let tables x := fst (run_tops (set_cur s path) (ds1 ++ x)) in
    known_spec ev (tables []) (spec_part g) -> plain_decls g -> stays g ds2 ->
    exists s' b, parse_file ev base mods l s path text = Some (s', None)
      /\ denotes ev (tables []) s' (spec_part g) b
      /\ forall l1 d l2 n, decls_part g = l1 ++ d :: l2 -> c_name (tree d) = Some n ->
         every c_syntax (tree d) = true -> no_conv_name (tree d) = true ->
         Forall (fun g' => ~ In (Some n) (declared_names g')) ds2 ->
         declared_as ev (tables [up_to g []]) s' g l2 n
           (c_type (eval_text ev (tables [up_to g l1])) (tree d) (base_type b)).
  Proof.
    intros GC PK HD. apply (trees_recorded base mods l s path text ds1 g ds2); [|apply (header_names _ _ _ _ _ HD)].
    apply (noisy_defs base mods pack l _ text GC PK HD).
  Qed.

  (** ** Nothing else *)
  Lemma tops_other k n ds s : ~ mentions k n ds -> defined (fst (run_tops s ds)) k n = defined s k n.
  Proof.
    intros NM.
    set (ok := fun x => In x (flat_map inside ds)). set (okg := fun g => In g ds).
    apply (run_tops_keep (fun s' => defined s' k n = defined s k n) ok okg).
    - intros s1 c m l p ls O _ H. destruct (struct_adds s1 c m ls p) as [->|(x & e & u & -> & X)]; [exact H|]. rewrite <- H.
      assert (A : k <> Types \/ n <> tag_name (comp_kw c) x).
      { destruct (eqb_spec k Types) as [->|]; [right|left; assumption]. intros ->. apply NM. right. apply (tag_space (comp_kw c) (comp_kind c)). destruct c; cbn; auto. }
      rewrite (defined_other _ Types) by exact A. apply defined_other.
      destruct (eqb_spec k (comp_kind c)) as [->|]; [right|left; assumption]. intros ->. apply NM.
      destruct m as [m|]; [subst x|]; destruct c; cbn [comp_kind mentions]; [left; exists l, p; exact O|left; exists l, p; exact O|right; exact X|right; exact X].
    - intros s1 m l O H. destruct (enum_adds s1 m l) as (x & X & C).
      assert (L : defined (fst (fst (enum_loop ev s1 (ONum (VInt 0)) [] l))) k n = defined s1 k n).
      { destruct (eqb_spec k Values) as [->|]; [|apply enum_loop_kinds; assumption]. apply enum_loop_values. intros I1. apply NM. right. exists m, l. split; [exact O|exact I1]. }
      destruct C as [->|[->|(e & u & ->)]]; [exact H|rewrite L; exact H|]. rewrite <- H, <- L.
      assert (A : k <> Types \/ n <> tag_name $"enum" x).
      { destruct (eqb_spec k Types) as [->|]; [right|left; assumption]. intros ->. apply NM. right. apply (tag_space $"enum" Enums). cbn; auto. }
      rewrite (defined_other _ Types) by exact A. apply defined_other.
      destruct (eqb_spec k Enums) as [->|]; [right|left; assumption]. intros ->. apply NM.
      destruct m as [m|]; [subst x|]; cbn [mentions]; [left; exists l; exact O|right; exact X].
    - intros s1 g b l O N H. rewrite <- H. unfold okg in O.
      destruct (eqb_spec k Types) as [->|NT].
      { apply types_ka; [|exact N]. intros IT I1. apply NM. left. exists g. auto. }
      destruct g as [t x|t x i|t x]; cbn [act_top fst].
      + apply typedef_other. exact NT.
      + unfold process_variable. destruct (eqb_spec k Functions) as [->|NF]; [|destruct (eqb_spec k Variables) as [->|NV]; [|destruct (eqb_spec k Values) as [->|NL]]].
        * apply declare_names. rewrite N. intros I1. apply NM. exists (GVar t x i). auto.
        * apply declare_names. rewrite N. intros I1. apply NM. exists (GVar t x i). auto.
        * apply declare_names. rewrite N. intros I1. apply NM. left. exists (GVar t x i). auto.
        * apply declare_other; assumption.
      + destruct (eqb_spec k Functions) as [->|NF].
        * apply (act_top_names s1 (GFun t x) b l Functions n); [auto|]. rewrite N. intros I1. apply NM. exists (GFun t x). auto.
        * destruct l as [|d [|? ?]]; try reflexivity. apply function_other. exact NF.
    - apply Forall_forall. intros g I1. split; [|exact I1]. apply Forall_forall. intros x I2. unfold ok. apply in_flat_map. exists g. auto.
    - reflexivity.
  Qed.
  Theorem nothing_else base mods pack l s path text ds s' o :
    good_config base mods -> (forall n, packing_at l n = pack) -> header base mods pack ds text ->
    parse_file ev base mods l s path text = Some (s', o) ->
    forall k n, ~ mentions k n ds -> defined s' k n = defined s k n.
  Proof.
    intros GC PK HD E k n NM. rewrite (parse_header base mods pack l ds text s path GC PK HD) in E. injection E as E.
    assert (ES : s' = fst (run_tops (set_cur s path) ds)) by (rewrite E; reflexivity). rewrite ES.
    rewrite (tops_other k n ds _ NM). reflexivity.
  Qed.

  (** ** Layouts *)
  Lemma parse_file_total base mods l s path text : ~ In [] base -> ~ In [] mods -> exists r, parse_file ev base mods l s path text = Some r.
  Proof.
    intros H1 H2. unfold parse_file. pose proof (parse_defs_total base mods l text H1 H2) as H. destruct (parse_defs base mods l text) as [ds|]; [|congruence]. eexists. reflexivity.
  Qed.
  Lemma parse_header_defs base mods pack l ds text : good_config base mods -> (forall n, packing_at l n = pack) ->
    header base mods pack ds text -> parse_defs base mods l text = Some ds.
  Proof. exact (noisy_defs base mods pack l ds text). Qed.
  Lemma header_unique base mods pack ds ds' text : good_config base mods ->
    header base mods pack ds text -> header base mods pack ds' text -> ds = ds'.
  Proof.
    intros GC H1 H2. assert (PK : forall n, packing_at [(0, pack)] n = pack) by reflexivity.
    pose proof (parse_header_defs base mods pack _ ds text GC PK H1) as E1. pose proof (parse_header_defs base mods pack _ ds' text GC PK H2) as E2. congruence.
  Qed.
  Lemma layout_free base mods pack l l' ds text text' s path : good_config base mods ->
    (forall n, packing_at l n = pack) -> (forall n, packing_at l' n = pack) ->
    header base mods pack ds text -> header base mods pack ds text' ->
    parse_file ev base mods l s path text = parse_file ev base mods l' s path text'.
  Proof.
    intros GC P1 P2 H1 H2. rewrite (parse_header base mods pack l ds text s path GC P1 H1), (parse_header base mods pack l' ds text' s path GC P2 H2). reflexivity.
  Qed.
  Lemma modifiers_free base mods pack l l' ds text text' s path : good_config base mods ->
    (forall n, packing_at l n = pack) -> (forall n, packing_at l' n = pack) ->
    header base mods pack ds text -> header base [] pack ds text' ->
    parse_file ev base mods l s path text = parse_file ev base [] l' s path text'.
  Proof.
    intros GC P1 P2 H1 H2. rewrite (parse_header base mods pack l ds text s path GC P1 H1).
    rewrite (parse_header base [] pack l' ds text' s path); [reflexivity| |exact P2|exact H2].
    destruct GC as (A & _ & C & _). split; [exact A|]. split; [constructor|]. split; [|intros w []].
    intros w [I1|[]]. apply C. left. exact I1.
  Qed.
  Lemma array_length base mods w n o ts text : good_config base mods ->
    In w base -> plain_name base mods n -> sp_expr base mods o ts ->
    (forall t, In t ts -> ~ In PyStr.tab t) ->
    written (w :: n :: $"[" :: ts ++ [$"]"; $";"]) text ->
    parse_defs base mods [] text =
      Some [GVar (GSpec [] (GWord w)) [GNode [] None [] (GNamed false n) None [join [sp] o]] NoInit].
  Proof.
    intros GC IW PN SE NT W.
    assert (NW : forall t, word t -> ~ In PyStr.tab t).
    { intros t WT I1. destruct t as [|c r]; [contradiction|]. destruct WT as [W1 W2]. destruct I1 as [->|I1]; [discriminate W1|].
      rewrite forallb_forall in W2. specialize (W2 _ I1). discriminate W2. }
    apply (parse_written base mods None [] _ (w :: n :: $"[" :: ts ++ [$"]"; $";"]) text GC); [reflexivity| | |exact W].
    - replace (w :: n :: $"[" :: ts ++ [$"]"; $";"]) with (([] ++ ([] ++ [w] ++ []) ++ ([] ++ [] ++ [] ++ ([] ++ [n]) ++ [] ++ ($"[" :: ts ++ [$"]"]) ++ []) ++ [] ++ [$";"]) ++ []).
      2: { cbn [app]. rewrite !app_nil_r. cbn [app]. rewrite <- !app_assoc. reflexivity. }
      eapply sq_cons; [|apply sq_nil]. eapply sp_var; [left; reflexivity| | | |reflexivity].
      + apply sp_spec_q; [constructor| |apply sp_no_extra]. change w with (join [sp] [w]) at 1. apply sp_fund; [discriminate|].
        constructor; [apply in_or_app; right; exact IW|constructor].
      + apply sp_some_decls. apply sl_one. apply sp_node; [constructor|reflexivity|apply sq_nil|apply sp_named; [reflexivity|exact PN]|apply sp_no_args|].
        eapply sq_cons; [|apply sq_nil]. right. exists ts. split; [exists o; split; [exact SE|reflexivity]|reflexivity].
      + intros I1. cbn [app last] in I1. exfalso. destruct GC as (_ & _ & _ & H4). apply (H4 w I1). apply in_or_app. right. exact IW.
    - apply Forall_forall. intros t I1. left. destruct GC as (WB & _). rewrite Forall_forall in WB.
      destruct I1 as [<-|[<-|[<-|I1]]]; [apply NW; apply WB; exact IW|apply NW; apply PN|cbn; intuition discriminate|].
      apply in_app_or in I1. destruct I1 as [I1|[<-|[<-|[]]]]; [apply NT; exact I1|cbn; intuition discriminate|cbn; intuition discriminate].
  Qed.
End Run.
