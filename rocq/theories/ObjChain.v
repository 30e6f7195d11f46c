(** Proofs for C94: the types, enums, functions and classes of headers as attributes. *)
From Coq Require Import Ascii String Bool Arith ZArith Lia List.
Import ListNotations.
From Verif Require Import PyBase PyBaseFacts PyStr PyStrFacts PyExpr TypeModel InitModel StoreModel StoreSpec StoreProofs.
From Verif Require Import MacroModel MacroSpec PpModel PpSpec TextSpec TextProofs DeclModel DeclSpec DeclStore DeclVars GramModel GramSpec RunSpec GramRun.
From Verif Require Import FileModel FileSpec FileProofs FileTables FileWhole FilesSpec FilesProofs PackedSpec PackedProofs PackedWhole ChainSpec.
From Verif Require Import CtModel LinkModel LinkSpec LinkCall LinkTags ChainProofs ObjModel ObjSpec ObjProofs.
From Verif Require CtSpec LibModel.

Lemma enum_tag_comp c x n : comp_kw c ++ $" " ++ x <> $"enum " ++ n.
Proof. destruct c; discriminate. Qed.
Section Tags.
  Context (ev : dict str pobj -> str -> res pobj).
  Lemma etag_comp s c m l p : enum_tagged s -> enum_tagged (fst (process_struct ev s c m l p)).
  Proof.
    intros T. destruct (process_struct_cases ev s c m l p) as [(x & ms & _ & _ & -> & _)|[(x & _ & _ & _ & ->)|(e & _ & ->)]]; cbn [fst]; try exact T.
    intros n l0 H. rewrite !defined_other in H by (left; destruct c; discriminate).
    rewrite !defined_other; [apply (T n l0 H)|left; destruct c; discriminate|right]. intros E. symmetry in E. exact (enum_tag_comp c x n E).
  Qed.
  Lemma etag_enum s m l : enum_tagged s -> enum_tagged (fst (process_enum ev s m l)).
  Proof.
    intros T. assert (X : forall x, enum_tagged (fst (process_enum ev s (Some x) l))).
    { intros x. unfold process_enum. destruct (dmem (defs s Enums) x); [exact T|].
      pose proof (fun k n H => enum_loop_kinds ev l s (ONum (VInt 0)) [] k n H) as Q.
      destruct (enum_loop ev s (ONum (VInt 0)) [] l) as [[s1 en] [e|]]; cbn [fst] in *.
      - intros n l0 H. rewrite Q in * by discriminate. exact (T n l0 H).
      - intros n l0 H. rewrite defined_other in H by (left; discriminate). destruct (eqb_spec n x) as [->|N].
        + rewrite defined_same. reflexivity.
        + rewrite defined_other in H by (right; exact N). rewrite !defined_other; [rewrite Q in * by discriminate; exact (T n l0 H)|left; discriminate|].
          right. intros E. apply app_inv_head in E. exact (N E). }
    destruct m as [x|]; [apply X|]. destruct (process_enum_anon ev s l) as (x & _ & ->). apply X.
  Qed.
  Lemma enum_blank n : In sp ($"enum " ++ n).
  Proof. apply in_or_app. left. cbn. tauto. Qed.
  Lemma etag_act s g b l : good_names g -> DeclSpec.names_of l = declared_names g -> enum_tagged s -> enum_tagged (fst (act_top ev s g b l)).
  Proof.
    intros GN N T n l0 H. destruct g as [t x|t x i|t x]; cbn [act_top fst] in *.
    - rewrite typedef_other in H by discriminate. rewrite typedef_names; [now apply (T n l0)|].
      rewrite N. intros Y. destruct (GN _ Y) as (y & E & NB). assert (y = $"enum " ++ n) by congruence. subst y. apply NB. apply enum_blank.
    - unfold process_variable in *. rewrite declare_other in * by discriminate. now apply (T n l0).
    - destruct l as [|d [|? ?]]; try (now apply (T n l0)). rewrite function_other in * by discriminate. now apply (T n l0).
  Qed.
  Lemma tops_etag ds s : Forall good_names ds -> enum_tagged s -> enum_tagged (fst (run_tops ev s ds)).
  Proof.
    intros F. apply (run_tops_keep ev enum_tagged (fun _ => True) good_names).
    - intros. now apply etag_comp.
    - intros. now apply etag_enum.
    - intros. now apply etag_act.
    - eapply Forall_impl; [|exact F]. intros g G. split; [apply GramRun.all_true|exact G].
  Qed.
  Lemma etag_same s s1 : same_declarations s s1 -> enum_tagged s -> enum_tagged s1.
  Proof. intros S1 T n l H. rewrite (same_defined s s1) in * by (try exact S1; discriminate). exact (T n l H). Qed.
  Lemma taken_etag us s s' : Forall (fun f => Forall good_names (u_decls f)) us -> taken ev s us s' -> enum_tagged s -> enum_tagged s'.
  Proof.
    intros F. apply (taken_keep ev enum_tagged); [exact etag_same|]. intros x f I1 H. rewrite Forall_forall in F. apply tops_etag; [apply F; exact I1|exact H].
  Qed.
End Tags.

Section Library.
  Context (fo : str -> list str -> option str) (ext : str -> bool) (ev : dict str pobj -> str -> res pobj) (base mods : list str).
  Context (sub : str -> str -> str -> str) (contents find : str -> option str) (rs : list (str * str)).
  Notation later := (flat_map u_decls).
  Lemma read_taken headers s m us : good_config base mods ->
    macro_tables s -> stands_for (macros_of s) m -> typed_values s ->
    Forall2 (resolves contents find) headers (map u_path us) -> Forall (stored sub contents rs) us -> NoDup (map u_path us) ->
    units base mods m us ->
    exists p, parse_headers fo ext ev base mods sub contents find rs headers s = Some (Ok p) /\ taken ev s us (p_store p).
  Proof.
    intros GC MT ST TV RE OD ND PR. unfold parse_headers. rewrite (find_all contents find _ _ RE). rewrite Forall_forall in OD.
    destruct (load_all sub contents rs (map u_path us) (new_parser s)) as (H1 & H2 & H3 & _).
    { intros x I1. apply in_map_iff in I1. destruct I1 as (f & <- & I1). destruct (OD f I1) as (raw & C & _). congruence. }
    set (p0 := fold_left (load_file sub contents rs) (map u_path us) (new_parser s)) in *.
    change (p_store (new_parser s)) with s in H2. change (p_order (new_parser s)) with (@nil str) in H1. cbn [app] in H1.
    destruct (process_units fo ext ev base mods us GC p0 m) as (p & E & RA & PO).
    - exact ND.
    - intros f I1. rewrite H3 by (apply in_map; exact I1). destruct (OD f I1) as (raw & C & ->). rewrite C. reflexivity.
    - rewrite H2. exact MT.
    - rewrite H2. exact ST.
    - rewrite H2. exact TV.
    - exact PR.
    - exists p. unfold process_all. rewrite H1. split; [exact E|]. rewrite H2 in RA. apply typed_taken. exact RA.
  Qed.
  Lemma given_object cf table win s D prefix exports (TA : tagged s) (EA : enum_tagged s) a k n (o : lobj -> cst -> Prop) :
    closed cf table s D -> usual_table table -> no_clash s prefix -> about cf table s D prefix a k n -> (k = Functions -> exports n = true) ->
    (forall x ct, is_object cf table s D ct k n x -> o x ct) -> given cf table win s D prefix exports a o.
  Proof.
    intros CL UT NC AB EX H l FO. destruct (obtained cf table win s D prefix exports CL TA EA UT NC l FO) as (st & E & R).
    destruct (proj1 (R a k n AB) EX) as (x & st' & G & O & _). exists st, x, st'. split; [exact E|]. split; [exact G|]. apply H. exact O.
  Qed.
  Lemma units_objects headers s m us : good_config base mods ->
    macro_tables s -> stands_for (macros_of s) m -> typed_values s -> tagged s -> enum_tagged s ->
    Forall2 (resolves contents find) headers (map u_path us) -> Forall (stored sub contents rs) us -> NoDup (map u_path us) ->
    units base mods m us ->
    exists p, parse_headers fo ext ev base mods sub contents find rs headers s = Some (Ok p)
      /\ tagged (p_store p) /\ enum_tagged (p_store p)
      /\ forall us1 f us2 ds1 g ds2, us = us1 ++ f :: us2 -> u_decls f = ds1 ++ g :: ds2 ->
         exists s0 s1, taken ev s us1 s0 /\ same_declarations s0 s1 /\ stands_for (macros_of s1) (u_macros f)
           /\ let tables x := fst (run_tops ev (set_cur s1 (Some (u_path f))) (ds1 ++ x)) in
              known_spec ev (tables []) (spec_part g) -> plain_decls g -> stays g (ds2 ++ later us2) ->
              exists b, denotes ev (tables []) (p_store p) (spec_part g) b
                /\ forall cf table win D prefix exports, closed cf table (p_store p) D -> usual_table table -> no_clash (p_store p) prefix ->
                   (forall l1 d l2 n a, is_typedef g = true -> decls_part g = l1 ++ d :: l2 -> c_name (tree d) = Some n ->
                      every c_syntax (tree d) = true -> no_conv_name (tree d) = true ->
                      Forall (fun g' => ~ In (Some n) (declared_names g')) (ds2 ++ later us2) ->
                      about cf table (p_store p) D prefix a Types n ->
                      given cf table win (p_store p) D prefix exports a (fun x ct => exists c, x = VType c
                        /\ represents cf table (p_store p) D (classes ct)
                             (c_type (eval_text ev (tables [up_to g l1])) (tree d) (DeclSpec.base_type b)) c))
                   /\ (forall l1 d l2 n q args r a, is_typedef g = false -> decls_part g = l1 ++ d :: l2 -> c_name (tree d) = Some n ->
                      every c_syntax (tree d) = true -> no_conv_name (tree d) = true ->
                      Forall (fun g' => ~ In (Some n) (declared_names g')) (ds2 ++ later us2) ->
                      c_type (eval_text ev (tables [up_to g l1])) (tree d) (DeclSpec.base_type b) = TFun q args r ->
                      exports n = true -> about cf table (p_store p) D prefix a Functions n ->
                      given cf table win (p_store p) D prefix exports a (fun x ct => exists c cs, x = VFunction n c cs
                        /\ represents cf table (p_store p) D (classes ct) r c
                        /\ all_represented cf table (p_store p) D (classes ct) (parameters args) cs))
                   /\ (forall q o body n a, spec_part g = GSpec q (GEnum o body) -> refers (spec_part g) = false ->
                      b_name b = tag_name $"enum" n -> about cf table (p_store p) D prefix a Enums n ->
                      given cf table win (p_store p) D prefix exports a (fun x ct => exists vs, x = VEnum vs
                        /\ counts ev (values (tables [])) (ONum (VInt 0)) body vs))
                   /\ (forall q c o body pack n a, spec_part g = GSpec q (GComp c o body pack) -> refers (spec_part g) = false ->
                      b_name b = tag_name (comp_kw c) n -> about cf table (p_store p) D prefix a (comp_kind c) n ->
                      exists v ls, lines_meaning ev (p_store p) (values (tables [])) body v ls /\
                      given cf table win (p_store p) D prefix exports a (fun x ct => exists i fs, x = VType (PClass i)
                        /\ let xs := map snd (declared_all (value_of_text ev v) ls) in
                           nth_error (st_classes ct) i = Some {| k_union := is_union c; k_pack := pack; k_anon := given_names xs fs; k_fields := Some fs |}
                        /\ fields_for cf table (p_store p) D (classes ct) xs fs)).
  Proof.
    intros GC MT ST TV TG EG RE OD ND PR.
    destruct (read_units fo ext ev base mods sub contents find rs headers s m us GC MT ST TV TG RE OD ND PR) as (p & E & _ & TP & ALL).
    destruct (read_taken headers s m us GC MT ST TV RE OD ND PR) as (p' & E' & TK). assert (p' = p) by congruence. subst p'. clear E'.
    assert (EP : enum_tagged (p_store p)).
    { apply (taken_etag ev us s (p_store p)); [|exact TK|exact EG]. pose proof (units_names base mods us m PR) as UN.
      eapply Forall_impl; [|exact UN]. intros f X. apply X. }
    exists p. split; [exact E|]. split; [exact TP|]. split; [exact EP|].
    intros us1 f us2 ds1 g ds2 EU ED. destruct (ALL us1 f us2 ds1 g ds2 EU ED) as (s0 & s1 & T1 & SD & SF & R).
    exists s0, s1. split; [exact T1|]. split; [exact SD|]. split; [exact SF|]. cbv zeta in *. intros KS PD SY.
    destruct (R KS PD SY) as (b & DE & AL). exists b. split; [exact DE|].
    intros cf table win D prefix exports CL UT NC. split; [|split; [|split]].
    - intros l1 d l2 n a IT DP N CS NV F AB. specialize (AL l1 d l2 n DP N CS NV F).
      apply (given_object cf table win (p_store p) D prefix exports TP EP a Types n); [exact CL|exact UT|exact NC|exact AB|discriminate|].
      intros x ct (t & c & T & -> & RP). exists c. split; [reflexivity|]. destruct g as [t0 y|t0 y i|t0 y]; try discriminate IT.
      destruct AL as (u & DF & RT). unfold typedef_of in T. rewrite DF in T. cbn [up_to is_typedef] in RT |- *. rewrite T in RT. assert (TE := f_equal (fun o => match o with Some y => y | None => t end) RT). cbn beta iota in TE. rewrite <- TE. exact RP.
    - intros l1 d l2 n q args r a NT DP N CS NV F CT EX AB. specialize (AL l1 d l2 n DP N CS NV F). rewrite CT in AL.
      assert (X : exists u, defined (p_store p) Functions n = Some (EFun u) /\ read_function u = Some (TFun q args r)).
      { destruct g as [t x|t x i|t x]; [discriminate NT|exact AL|exact (AL eq_refl)]. }
      destruct X as (u & DF & RF).
      apply (given_object cf table win (p_store p) D prefix exports TP EP a Functions n); [exact CL|exact UT|exact NC|exact AB|intros _; exact EX|].
      intros x ct (args' & r' & c & cs & (u' & q' & DF' & RF' & _) & -> & R1 & R2). exists c, cs. split; [reflexivity|].
      rewrite DF in DF'. injection DF' as <-. rewrite RF in RF'. injection RF' as <- <- <-. auto.
    - intros q o body n a SP NR BN AB.
      apply (given_object cf table win (p_store p) D prefix exports TP EP a Enums n); [exact CL|exact UT|exact NC|exact AB|discriminate|].
      intros x ct (m' & l & ALI & L & ->). exists l. split; [reflexivity|]. rewrite SP in DE, NR.
      destruct DE as (w & DE). inversion DE as [w1 t RF E1 E2|w1 w2 q' c' m0 body' p' n' ms ls MN NB LD DF FF E1 E2|w1 q' m0 body' n' vs MN DF CO E1 E2]; [congruence|]. subst.
      cbn [b_name] in BN. assert (n' = n) as -> by (unfold tag_name in BN; apply app_inv_head in BN; injection BN as BN; exact BN).
      destruct ALI as [->|(_ & _ & _ & _ & NE & _)]; [|congruence]. rewrite DF in L. injection L as <-. exact CO.
    - intros q c o body pack n a SP NR BN AB.
      rewrite SP in DE, NR. destruct (denotes_comp ev _ (p_store p) q c o body pack b n NR BN DE) as (ms' & w & ls & DF' & LD & FD). exists w, ls. split; [exact LD|].
      assert (KC : comp_kind c = comp_table (is_union c)) by (symmetry; apply comp_table_of).
      apply (given_object cf table win (p_store p) D prefix exports TP EP a (comp_kind c) n); [exact CL|exact UT|exact NC|exact AB|destruct c; discriminate|].
      intros x ct O.
      assert (X : exists i k, x = VType (PClass i) /\ nth_error (st_classes ct) i = Some k /\ class_of cf table (p_store p) D (classes ct) (is_union c) n k)
        by (destruct c; destruct O as (i & k & A & _ & B & C); exists i, k; auto).
      destruct X as (i & k & -> & NT & (ms & pk & ys & fs & DF & PX & -> & FF)). rewrite <- KC, DF' in DF. injection DF as <- <-.
      rewrite (join_members ms' ys _ FD PX) in NT, FF. exists i, fs. split; [reflexivity|]. split; [exact NT|exact FF].
  Qed.
End Library.
