(** C95: calls of the functions of a library. *)
From Coq Require Import Ascii String Bool Arith ZArith Lia List.
Import ListNotations.
From Verif Require Import PyBase PyBaseFacts PyStr PyStrFacts PyExpr TypeModel InitModel StoreModel StoreSpec DeclModel DeclSpec EvalModel EvalSpec.
From Verif Require Import GramModel GramSpec RunSpec GramRun.
From Verif Require GramExamples PropsGram PropsLink PropsConst.
From Verif Require Import MacroModel MacroSpec MacroDefProofs PpModel PpSpec TextSpec PropsMacro PropsDecl.
From Verif Require Import FileModel FileSpec PackedSpec FilesSpec PpExamples FileExamples PropsFile PropsPacked.
From Verif Require Import CtModel LinkModel LinkSpec LinkExamples ChainSpec ObjModel ObjSpec ObjProofs ObjChain.
From Verif Require CtSpec LibModel TypeSpec.
From Verif Require Import AutoSpec FunModel InvokeModel InvokeSpec InvokeProofs InvokeChain PropsObj.
From Verif Require LibModel TypeSpec CtSpec.

(** C95: a call [lib.f(args, kwargs)], after any other uses of the library, runs the C function with, position by position,
    the objects the caller gives (by keyword or by position), null pointers of the types of the parameters for None, and pointers to new
    objects of the right types for pointer parameters that are left out; or it does not run the C function at all: TypeError
    for keywords that name nothing, for parameters left out that are no pointers, for None where no pointer is wanted, and an exception for
    objects ctypes does not take ([takes]).
    Missing: as in C82 and C86; functions that are called while the library's lock is used (C54). *)
Theorem c95_calls_partial :
  forall cf table win s D prefix exports takes, closed cf table s D -> tagged s -> enum_tagged s -> usual_table table -> no_clash s prefix ->
  forall a n args r, about cf table s D prefix a Functions n -> exports n = true -> signature cf table s D n args r ->
  callable cf table win s D prefix exports takes a n (parameters args) r.
Proof. exact function_calls. Qed.
Print Assumptions c95_calls_partial.
(** And the parameters are those the texts of the headers declare. *)
Theorem c95_library_partial :
  forall fo ext ev base mods sub contents find rs headers s m us, good_config base mods ->
  macro_tables s -> stands_for (macros_of s) m -> typed_values s -> tagged s -> enum_tagged s ->
  Forall2 (resolves contents find) headers (map u_path us) -> Forall (stored sub contents rs) us -> NoDup (map u_path us) ->
  units base mods m us ->
  exists p, parse_headers fo ext ev base mods sub contents find rs headers s = Some (Ok p)
    /\ forall us1 f us2 ds1 g ds2, us = us1 ++ f :: us2 -> u_decls f = ds1 ++ g :: ds2 ->
       exists s0 s1, taken ev s us1 s0 /\ same_declarations s0 s1 /\ stands_for (macros_of s1) (u_macros f)
         /\ let tables x := fst (run_tops ev (set_cur s1 (Some (u_path f))) (ds1 ++ x)) in
            known_spec ev (tables []) (spec_part g) -> plain_decls g -> stays g (ds2 ++ flat_map u_decls us2) ->
            exists b, denotes ev (tables []) (p_store p) (spec_part g) b
              /\ forall cf table win D prefix exports takes, closed cf table (p_store p) D -> usual_table table -> no_clash (p_store p) prefix ->
                 forall l1 d l2 n q args r a, is_typedef g = false -> decls_part g = l1 ++ d :: l2 -> c_name (tree d) = Some n ->
                   every c_syntax (tree d) = true -> no_conv_name (tree d) = true ->
                   Forall (fun g' => ~ In (Some n) (declared_names g')) (ds2 ++ flat_map u_decls us2) ->
                   c_type (eval_text ev (tables [up_to g l1])) (tree d) (DeclSpec.base_type b) = TFun q args r ->
                   exports n = true -> about cf table (p_store p) D prefix a Functions n ->
                   callable cf table win (p_store p) D prefix exports takes a n (parameters args) r.
Proof. exact units_invoke. Qed.
Print Assumptions c95_library_partial.

(** The objects made for null pointers and for parameters left out are taken exactly if ctypes takes objects of their
    types. *)
Theorem c95_taken : forall p a, object_taken p a = true <-> accepts p a.
Proof. exact taken_accepts. Qed.
Print Assumptions c95_taken.
Example c95_taken_example : accepts (PPtr (PClass 3)) (PArr (PClass 3) 4) /\ ~ accepts (PPtr (PClass 3)) (PArr (PClass 2) 4).
Proof. split; [constructor|]. intros A. apply taken_accepts in A. discriminate A. Qed.

(** The function api_push of C94, called as [lib.push]: its list may be left out or None, its number must be given.  ctypes
    takes the objects 7 for numbers and 8 for lists. *)
Definition api_takes (p : option pyt) (id : nat) : bool :=
  match p with Some (PBase _) => Nat.eqb id 7 | Some (PPtr _) => Nat.eqb id 8 | _ => false end.
Definition push_ps : list (option str * cty * option str) := [(Some $"l", TBase [] $"list_t", None); (Some $"n", TBase [] $"int", None)].
Definition push_cs : list pyt := [PPtr (PClass 0); PBase $"c_int"].
Definition push := LibModel.Attr $"push".
Lemma push_list : type_at PropsLink.words0 api_s push_ps push_cs 0 (TPtr [] (TBase [] $"struct node")) (PPtr (PClass 0)).
Proof. split; [reflexivity|]. do 3 eexists. split; [reflexivity|]. apply (expand_ok PropsLink.words0 api_s 20). vm_compute. reflexivity. Qed.
Lemma push_number : type_at PropsLink.words0 api_s push_ps push_cs 1 (TBase [] $"int") (PBase $"c_int").
Proof. split; [reflexivity|]. do 3 eexists. split; [reflexivity|]. apply (expand_ok PropsLink.words0 api_s 20). vm_compute. reflexivity. Qed.
Lemma named_n i : names_param push_ps $"n" i -> i = 1.
Proof.
  intros ((t & v & N) & _). destruct i as [|[|i]]; [discriminate N|reflexivity|destruct i; discriminate N].
Qed.
Lemma names_n : names_param push_ps $"n" 1.
Proof. split; [exists (TBase [] $"int"), None; reflexivity|]. intros [|[|[|j]]] t v Lt E; try lia; discriminate E. Qed.
Example c95_example :
  about PropsLink.words0 std_types api_s api_D [$"api_"] push Functions $"api_push" /\ api_exports $"api_push" = true
  /\ signature PropsLink.words0 std_types api_s api_D $"api_push" push_ps (TBase [] $"mode_t") /\ parameters push_ps = push_ps
  /\ no_defaults push_ps
  /\ Forall (orderly_use PropsLink.words0 std_types api_s api_D [$"api_"]) [Get (LibModel.Attr $"node"); Invoke push [] []]
  /\ well_called PropsLink.words0 api_s api_takes push_ps push_cs [] [($"n", PVal 7)]
  /\ well_called PropsLink.words0 api_s api_takes push_ps push_cs [PNone; PVal 7] []
  /\ ill_called PropsLink.words0 api_s push_ps push_cs [PVal 8] [] /\ ill_called PropsLink.words0 api_s push_ps push_cs [] [($"n", PNone)]
  /\ untaken api_takes push_ps push_cs [PVal 7] [($"n", PVal 7)]
  /\ (let st := uses api 20 api_takes [Get (LibModel.Attr $"node"); Invoke push [] []] (opened api) in
      map (fun c => fst (invoke api 20 api_takes push (fst c) (snd c) st))
        [([], [($"n", PVal 7)]); ([PNone; PVal 7], []); ([PVal 8], [($"n", PVal 7)]); ([PVal 8], []); ([], [($"n", PNone)]); ([PVal 7], [($"n", PVal 7)]); ([], [($"m", PVal 7)])]
      = [Called [NewOf (PPtr (PClass 0)); Own 7]; Called [NullOf (PPtr (PClass 0)); Own 7]; Called [Own 8; Own 7];
         Refused TypeError; Refused TypeError; Refused OtherError; Refused TypeError]).
Proof.
  assert (AB : about PropsLink.words0 std_types api_s api_D [$"api_"] push Functions $"api_push")
    by (attribute [Values] [Types; Structs; Unions; Enums] [$"push"] (@nil str)).
  split; [exact AB|]. split; [reflexivity|]. split.
  { assert (SE : settled PropsLink.words0 std_types api_s api_D Functions $"api_push") by (apply (proj1 AB); right; left; reflexivity).
    destruct SE as (args & r & SG); [vm_compute; discriminate|]. pose proof SG as (u & q & DF & RF & _).
    assert (X : exists u q, defined api_s Functions $"api_push" = Some (EFun u) /\ RunSpec.read_function u = Some (TFun q push_ps (TBase [] $"mode_t")))
      by (do 2 eexists; split; vm_compute; reflexivity).
    destruct X as (u' & q' & DF' & RF'). assert (u' = u) by congruence. subst u'. assert (E : TFun q args r = TFun q' push_ps (TBase [] $"mode_t")) by congruence.
    assert (EA : args = push_ps) by exact (f_equal (fun t => match t with TFun _ x _ => x | _ => args end) E).
    assert (ER : r = TBase [] $"mode_t") by exact (f_equal (fun t => match t with TFun _ _ x => x | _ => r end) E).
    rewrite EA, ER in SG. exact SG. }
  split; [reflexivity|]. split; [repeat constructor|].
  split; [constructor; [refine (api_attr _ _); vm_compute; reflexivity|constructor; [exists Functions, $"api_push"; exact AB|constructor]]|].
  assert (CH : ~ characters (PPtr (PClass 0))) by (intros [X|[X|[X|X]]]; discriminate X).
  assert (NN : forall k (v : pyval), In (k, v) [($"n", PVal 7)] -> k = $"n") by (intros k v [X|[]]; injection X as <- _; reflexivity).
  split.
  { split; [intros k v I1 U; rewrite (NN k v I1) in U; exact (U 1 (TBase [] $"int") None eq_refl)|]. split; [intros i v _ X; destruct i; discriminate X|].
    intros [|[|i]] Li; [| |cbn in Li; lia].
    - exists (NewOf (PPtr (PClass 0))). apply (pa_new _ _ _ _ _ _ _ _ (TPtr [] (TBase [] $"struct node")) (PPtr (PClass 0)) 1);
        [|exact push_list|repeat constructor|lia|exact CH|eexists; reflexivity|left; reflexivity].
      split; [reflexivity|]. intros k w I1 N. assert (k = $"n") as -> by (destruct I1 as [X|[]]; injection X as <- _; reflexivity). apply named_n in N. discriminate N.
    - exists (Own 7). apply (pa_object _ _ _ _ _ _ _ _ _ (PBase $"c_int")); [|reflexivity|reflexivity]. left. exists $"n". split; [left; reflexivity|exact names_n]. }
  split.
  { split; [intros k v []|]. split; [intros i v Li X; destruct i as [|[|i]]; [cbn in Li; lia..|destruct i; discriminate X]|].
    intros [|[|i]] Li; [| |cbn in Li; lia].
    - exists (NullOf (PPtr (PClass 0))). apply (pa_null _ _ _ _ _ _ _ _ (TPtr [] (TBase [] $"struct node"))); [|exact push_list|do 2 eexists; left; reflexivity].
      right. split; [reflexivity|]. intros k w [].
    - exists (Own 7). apply (pa_object _ _ _ _ _ _ _ _ _ (PBase $"c_int")); [|reflexivity|reflexivity]. right. split; [reflexivity|]. intros k w []. }
  split.
  { apply (il_nothing _ _ _ _ _ _ 1 (TBase [] $"int") (PBase $"c_int")); [split; [reflexivity|intros k w []]|exact push_number|].
    intros k K P. inversion P. lia. }
  split.
  { apply (il_null _ _ _ _ _ _ 1 [] $"int" (PBase $"c_int")); [|exact push_number]. left. exists $"n". split; [left; reflexivity|exact names_n]. }
  split.
  { left. exists 0, 7, (PPtr (PClass 0)). split; [|split; reflexivity]. right. split; [reflexivity|].
    intros k w I1 N. assert (k = $"n") as -> by (destruct I1 as [X|[]]; injection X as <- _; reflexivity). apply named_n in N. discriminate N. }
  vm_compute. reflexivity.
Qed.

(** False for pointers to characters: a call that leaves one out is refused by ctypes, which does not take the object made
    for it. *)
Theorem c95_text_refuted :
  exists text, RunSpec.header GramExamples.base0 [] None
      [GVar (GSpec [] (GWord $"void")) [GNode [] None [] (GNamed false $"f") (Some [GArg (GSpec [] (GWord $"char")) (GNode [] None [[]] (GNamed false $"s") None []) None]) []] NoInit] text
    /\ let s := read_header $"a.h" text in let b := open_with PropsLink.words0 std_types false s [] (fun _ => true) in
       forall fuel takes, fst (invoke b (S (S fuel)) takes (LibModel.Attr $"f") [] [] (opened b)) = Refused OtherError.
Proof.
  exists $"void f(char *s);". split.
  - apply GramExamples.header_check; [|vm_compute; reflexivity|vm_compute; reflexivity|vm_compute; reflexivity|vm_compute; reflexivity].
    eapply GramExamples.seq_conv; [GramExamples.spell|vm_compute; reflexivity].
  - intros fuel takes. vm_compute. reflexivity.
Qed.
Print Assumptions c95_text_refuted.
(** One argument too many is an IndexError if it is None. *)
Theorem c95_extra_refuted :
  exists text, RunSpec.header GramExamples.base0 [] None
      [GVar (GSpec [] (GWord $"int")) [GNode [] None [] (GNamed false $"f") (Some [GArg (GSpec [] (GWord $"void")) (GNode [] None [] (GAbstract false) None []) None]) []] NoInit] text
    /\ let s := read_header $"a.h" text in let b := open_with PropsLink.words0 std_types false s [] (fun _ => true) in
       forall fuel takes, fst (invoke b (S (S fuel)) takes (LibModel.Attr $"f") [PNone] [] (opened b)) = Refused IndexError.
Proof.
  exists $"int f(void);". split.
  - apply GramExamples.header_check; [|vm_compute; reflexivity|vm_compute; reflexivity|vm_compute; reflexivity|vm_compute; reflexivity].
    eapply GramExamples.seq_conv; [GramExamples.spell|vm_compute; reflexivity].
  - intros fuel takes. vm_compute. reflexivity.
Qed.
Print Assumptions c95_extra_refuted.
