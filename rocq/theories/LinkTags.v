(** Proofs for C84: the structures and unions of headers can be found by their tags. *)
From Coq Require Import Ascii String Bool Arith ZArith Lia List.
Import ListNotations.
From Verif Require Import PyBase PyBaseFacts PyStr PyStrFacts PyExpr TypeModel InitModel StoreModel StoreSpec StoreProofs DeclModel DeclSpec DeclStore DeclVars CtModel LinkModel LinkSpec.
From Verif Require TypeSpec CtSpec GramModel GramSpec RunSpec GramRun FileModel FileSpec.

Definition comp_of (u : bool) : comp := if u then CUnion else CStruct.
Lemma comp_table_kind u : comp_table u = comp_kind (comp_of u).
Proof. now destruct u. Qed.
Lemma tag_kw u n : CtSpec.tag_of u ++ n = comp_kw (comp_of u) ++ $" " ++ n.
Proof. now destruct u. Qed.
Lemma tag_one u n c x : CtSpec.tag_of u ++ n = comp_kw c ++ $" " ++ x -> c = comp_of u /\ n = x.
Proof. destruct u, c; cbn; intros E; try discriminate E; injection E; auto. Qed.
Lemma tag_enum u n x : CtSpec.tag_of u ++ n <> $"enum" ++ $" " ++ x.
Proof. destruct u; discriminate. Qed.
Lemma tag_blank u n : In sp (CtSpec.tag_of u ++ n).
Proof. apply in_or_app. left. destruct u; cbn; tauto. Qed.

Section Tags.
  Context (ev : dict str pobj -> str -> res pobj).
  Lemma tagged_comp s c m l p : tagged s -> tagged (fst (process_struct ev s c m l p)).
  Proof.
    intros T. destruct (process_struct_cases ev s c m l p) as [(x & ms & _ & _ & -> & _)|[(x & _ & _ & _ & ->)|(e & _ & ->)]]; cbn [fst]; try exact T.
    intros u n ms' p' H. rewrite defined_other in H by (left; destruct u; discriminate). rewrite comp_table_kind in H.
    rewrite defined_add in H. destruct (eqb_spec (comp_kind (comp_of u)) (comp_kind c)) as [K|K]; cbn [andb] in H.
    - assert (c = comp_of u) as -> by (destruct u, c; try reflexivity; discriminate K). destruct (eqb_spec n x) as [->|N]; cbn [andb] in H.
      + rewrite tag_kw, defined_same. destruct u; reflexivity.
      + rewrite !defined_other; [apply (T u n ms' p'); rewrite comp_table_kind; exact H|left; destruct u; discriminate|].
        right. intros E. apply tag_one in E. now destruct E.
    - rewrite !defined_other; [apply (T u n ms' p'); rewrite comp_table_kind; exact H|left; destruct c; discriminate|].
      right. intros E. apply tag_one in E. destruct E as [-> _]. now apply K.
  Qed.
  Lemma tagged_enum s m l : tagged s -> tagged (fst (process_enum ev s m l)).
  Proof.
    intros T. assert (X : forall x, tagged (fst (process_enum ev s (Some x) l))).
    { intros x. unfold process_enum. destruct (dmem (defs s Enums) x); [exact T|].
      pose proof (fun k n H => enum_loop_kinds ev l s (ONum (VInt 0)) [] k n H) as Q.
      destruct (enum_loop ev s (ONum (VInt 0)) [] l) as [[s1 en] [e|]]; cbn [fst] in *.
      - intros u n ms p H. rewrite Q by discriminate. apply (T u n ms p). rewrite <- H. symmetry. apply Q. destruct u; discriminate.
      - intros u n ms p H. rewrite !defined_other in H by (left; destruct u; discriminate). rewrite Q in H by (destruct u; discriminate).
        rewrite !defined_other; [rewrite Q by discriminate; now apply (T u n ms p)|left; discriminate|right; apply tag_enum]. }
    destruct m as [x|]; [apply X|]. destruct (process_enum_anon ev s l) as (x & _ & ->). apply X.
  Qed.
  Lemma tagged_act s g b l : GramRun.good_names g -> DeclSpec.names_of l = RunSpec.declared_names g -> tagged s -> tagged (fst (GramRun.act_top ev s g b l)).
  Proof.
    intros GN N T u n ms p H. destruct g as [t x|t x i|t x]; cbn [GramRun.act_top fst] in *.
    - rewrite typedef_other in H by (destruct u; discriminate). rewrite GramRun.typedef_names; [now apply (T u n ms p)|].
      rewrite N. intros Y. destruct (GN _ Y) as (y & E & NB). injection E as <-. apply NB. apply tag_blank.
    - unfold process_variable in *. rewrite declare_other in * by (try (destruct u; discriminate); discriminate). now apply (T u n ms p).
    - destruct l as [|d [|? ?]]; try (now apply (T u n ms p)). rewrite function_other in * by (try (destruct u; discriminate); discriminate). now apply (T u n ms p).
  Qed.
  Lemma tops_tagged ds s : Forall GramRun.good_names ds -> tagged s -> tagged (fst (GramModel.run_tops ev s ds)).
  Proof.
    intros F. apply (GramRun.run_tops_keep ev tagged (fun _ => True) GramRun.good_names).
    - intros. now apply tagged_comp.
    - intros. now apply tagged_enum.
    - intros. now apply tagged_act.
    - eapply Forall_impl; [|exact F]. intros g G. split; [apply GramRun.all_true|exact G].
  Qed.
  Lemma header_tagged base mods pack l ds text s path s' o : GramSpec.good_config base mods -> (forall n, PpModel.packing_at l n = pack) ->
    RunSpec.header base mods pack ds text -> GramModel.parse_file ev base mods l s path text = Some (s', o) -> tagged s -> tagged s'.
  Proof.
    intros GC PK HD E T. rewrite (GramRun.parse_header ev base mods pack l ds text s path GC PK HD) in E. injection E as E.
    assert (ES : s' = fst (GramModel.run_tops ev (set_cur s path) ds)) by (rewrite E; reflexivity). rewrite ES. apply tops_tagged; [apply (GramRun.header_names _ _ _ _ _ HD)|exact T].
  Qed.
End Tags.
