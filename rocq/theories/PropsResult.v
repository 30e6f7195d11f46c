(** C96: what the results of calls show. *)
From Coq Require Import Ascii String Bool Arith ZArith Lia Sorted List.
Import ListNotations.
From Verif Require Import PyBase PyBaseFacts PyStr PyStrFacts PyExpr TypeModel InitModel StoreModel StoreSpec DeclModel DeclSpec EvalModel EvalSpec.
From Verif Require Import GramModel GramSpec RunSpec GramRun.
From Verif Require GramExamples PropsGram PropsLink PropsConst.
From Verif Require Import MacroModel MacroSpec MacroDefProofs PpModel PpSpec TextSpec PropsMacro PropsDecl.
From Verif Require Import FileModel FileSpec PackedSpec FilesSpec PpExamples FileExamples PropsFile PropsPacked.
From Verif Require Import CtModel LinkModel LinkSpec LinkExamples ChainSpec ObjModel ObjSpec ObjProofs ObjChain.
From Verif Require CtSpec LibModel TypeSpec.
From Verif Require Import AutoSpec FunModel InvokeModel InvokeSpec InvokeProofs ResultModel ResultSpec ResultProofs ResultChain PropsObj PropsInvoke.
From Verif Require LibModel TypeSpec CtSpec.

(** C96: after a call of a function of a library, [result()] is the value the C function returned, None for functions
    without result; [result[i]] is, for a pointer parameter that was left out, what the C function stored in the object made for it, and
    otherwise what the caller gave (its value if it has one), a null pointer of the type of the parameter for None; [result['name']] is the
    same for the first parameter of that name; [result.auto()] lists the parameters that were left out, and only these, in their order;
    unpacking gives all arguments.  The simple types of ctypes are Python values, structures, unions and pointers are objects of
    their classes.
    Missing: as in C95; structures with a member called value and arrays of characters (see below). *)
Theorem c96_results_partial :
  forall cf table win s D prefix exports takes, closed cf table s D -> tagged s -> enum_tagged s -> usual_table table -> no_clash s prefix ->
  forall a n args r, about cf table s D prefix a Functions n -> exports n = true -> signature cf table s D n args r ->
  results_well cf table win s D prefix exports takes a n (parameters args) r.
Proof. exact function_results. Qed.
Print Assumptions c96_results_partial.
(** And the parameters and the result are those the texts of the headers declare. *)
Theorem c96_library_partial :
  forall fo ext ev base mods sub contents find rs headers s m us, good_config base mods ->
  macro_tables s -> stands_for (macros_of s) m -> typed_values s -> tagged s -> enum_tagged s ->
  Forall2 (resolves contents find) headers (map u_path us) -> Forall (stored sub contents rs) us -> NoDup (map u_path us) ->
  units base mods m us ->
  exists p, parse_headers fo ext ev base mods sub contents find rs headers s = Some (Ok p)
    /\ forall us1 f us2 ds1 g ds2, us = us1 ++ f :: us2 -> u_decls f = ds1 ++ g :: ds2 ->
       exists s0 s1, taken ev s us1 s0 /\ same_declarations s0 s1 /\ stands_for (macros_of s1) (u_macros f)
         /\ let tables x := fst (run_tops ev (set_cur s1 (Some (u_path f))) (ds1 ++ x)) in
            known_spec ev (tables []) (spec_part g) -> plain_decls g -> stays g (ds2 ++ flat_map u_decls us2) ->
            exists b, denotes ev (tables []) (p_store p) (spec_part g) b
              /\ forall cf table win D prefix exports takes, closed cf table (p_store p) D -> usual_table table -> no_clash (p_store p) prefix ->
                 forall l1 d l2 n q args r a, is_typedef g = false -> decls_part g = l1 ++ d :: l2 -> c_name (tree d) = Some n ->
                   every c_syntax (tree d) = true -> no_conv_name (tree d) = true ->
                   Forall (fun g' => ~ In (Some n) (declared_names g')) (ds2 ++ flat_map u_decls us2) ->
                   c_type (eval_text ev (tables [up_to g l1])) (tree d) (DeclSpec.base_type b) = TFun q args r ->
                   exports n = true -> about cf table (p_store p) D prefix a Functions n ->
                   results_well cf table win (p_store p) D prefix exports takes a n (parameters args) r.
Proof. exact units_results. Qed.
Print Assumptions c96_library_partial.

(** The function api_push of C94 and C95, called as [lib.push(n = o)], object 7 being [o]: the list is a new object. *)
Definition push_world (v : bool) : world :=
  {| w_ret := 3; w_stored := fun i => 10 + i; w_made := fun i => 20 + i; w_plain := fun _ => true; w_valued := fun _ => false;
     w_mine := fun _ => v; w_value := fun _ => Raw 42 |}.
Definition push_result : result * list cls :=
  let st := uses api 20 api_takes [Get (LibModel.Attr $"node")] (opened api) in
  match call_result api 20 api_takes push [] [($"n", PVal 7)] st with
  | (Ok r, st1) => (r, st_classes (q_ct st1))
  | (Err _, _) => ({| r_type := PVoid; r_args := []; r_names := []; r_guessed := [] |}, [])
  end.
Lemma node_no_value : ~ has_value (snd push_result) 0.
Proof.
  intros H. assert (K : forall f, In f (match nth_error (snd push_result) 0 with Some k => match k_fields k with Some fs => fs | None => [] end | None => [] end) -> eqb (fd_name f) $"value" = false)
    by (apply Forall_forall; vm_compute; repeat constructor).
  assert (A : match nth_error (snd push_result) 0 with Some k => k_anon k | None => [] end = []) by (vm_compute; reflexivity).
  inversion H as [i k fs f N KF I1 E|i k fs f j N KF I1 I2 E _]; subst; rewrite N in *.
  - rewrite KF in K. specialize (K f I1). rewrite E in K. discriminate K.
  - rewrite A in I2. destruct I2.
Qed.
Example c96_example :
  about PropsLink.words0 std_types api_s api_D [$"api_"] push Functions $"api_push"
  /\ signature PropsLink.words0 std_types api_s api_D $"api_push" push_ps (TBase [] $"mode_t") /\ no_defaults push_ps
  /\ well_called PropsLink.words0 api_s api_takes push_ps push_cs [] [($"n", PVal 7)]
  /\ (let '(r, ks) := push_result in
      let sh w := shows PropsLink.words0 api_s push_ps push_cs [] [($"n", PVal 7)] w ks in
      gives_back (push_world true) ks (PBase $"c_int") (Raw 3)
      /\ sh (push_world true) 0 (Obj (PClass 0) 10) /\ sh (push_world true) 1 (Raw 42) /\ sh (push_world false) 1 (Mine 7)
      /\ first_named push_ps $"l" 0 /\ first_named push_ps $"n" 1
      /\ returned (push_world true) ks r = Raw 3
      /\ map (item (push_world true) ks r) [Int 0; Name $"l"; Int 1; Name $"n"; Int 2; Name $"m"; OtherIndex]
         = [Ok (Obj (PClass 0) 10); Ok (Obj (PClass 0) 10); Ok (Raw 42); Ok (Raw 42); Err IndexError; Err KeyError; Err ValueError]
      /\ auto (push_world true) ks r = Ok [Obj (PClass 0) 10] /\ all_items (push_world false) ks r = Ok [Obj (PClass 0) 10; Mine 7]).
Proof.
  destruct c95_example as (AB & _ & SG & _ & NDf & _ & W & _). split; [exact AB|]. split; [exact SG|]. split; [exact NDf|]. split; [exact W|].
  pose proof node_no_value as NV. destruct push_result as [r ks] eqn:E. cbn [snd] in NV.
  assert (G7 : gives push_ps [] [($"n", PVal 7)] 1 (PVal 7)) by (left; exists $"n"; split; [left; reflexivity|exact names_n]).
  assert (N0 : gives_nothing push_ps [] [($"n", PVal 7)] 0).
  { split; [reflexivity|]. intros k w I1 N. assert (k = $"n") as -> by (destruct I1 as [X|[]]; injection X as <- _; reflexivity). apply named_n in N. discriminate N. }
  split; [apply gb_value; constructor|].
  split; [eapply sh_new; [exact N0|exact push_list|left; reflexivity|constructor; exact NV]|].
  split; [exact (sh_value _ _ _ _ _ _ (push_world true) _ 1 7 G7 eq_refl)|].
  split; [apply sh_object; [exact G7|reflexivity]|].
  split; [split; [exists (TBase [] $"list_t"), None; reflexivity|intros j t v L; lia]|].
  split; [split; [exists (TBase [] $"int"), None; reflexivity|intros [|j] t v L; [discriminate|lia]]|].
  assert (ER : r = fst push_result) by (rewrite E; reflexivity). assert (EK : ks = snd push_result) by (rewrite E; reflexivity). rewrite ER, EK. clear.
  vm_compute. auto 6.
Qed.

(** False for structures with a member called value: what is shown for the parameter left out is this member, not the structure;
    the same for such a structure returned by value. *)
Theorem c96_value_refuted :
  exists text, RunSpec.header GramExamples.base0 [] None
      [GVar (GSpec [] (GComp CStruct (Some $"box") [GLine (GSpec [] (GWord $"int")) [GNode [] None [] (GNamed false $"value") None []] NoInit None] None)) [] NoInit;
        GVar (GSpec [] (GComp CStruct (Some $"box") [] None)) [GNode [] None [] (GNamed false $"f") (Some [GArg (GSpec [] (GComp CStruct (Some $"box") [] None)) (GNode [] None [[]] (GNamed false $"b") None []) None]) []] NoInit] text
    /\ let s := read_header $"a.h" text in let b := open_with PropsLink.words0 std_types false s [] (fun _ => true) in
       forall takes w, exists r st, call_result b 20 takes (LibModel.Attr $"f") [] [] (opened b) = (Ok r, st)
         /\ r_type r = PClass 0 /\ r_args r = [NewOf (PPtr (PClass 0))] /\ (exists k, nth_error (st_classes (q_ct st)) 0 = Some k /\ k_fields k = Some [{| fd_name := $"value"; fd_type := PBase $"c_int"; fd_width := None |}])
         /\ returned w (st_classes (q_ct st)) r = w_value w (Obj (PClass 0) (w_ret w))
         /\ item w (st_classes (q_ct st)) r (Int 0) = Ok (w_value w (Obj (PClass 0) (w_stored w 0))).
Proof.
  exists $"struct box { int value; }; struct box f(struct box *b);". split.
  - apply GramExamples.header_check; [|vm_compute; reflexivity|vm_compute; reflexivity|vm_compute; reflexivity|vm_compute; reflexivity].
    eapply GramExamples.seq_conv; [GramExamples.spell|vm_compute; reflexivity].
  - intros takes w. do 2 eexists. split; [vm_compute; reflexivity|]. repeat split; try (eexists; split; reflexivity).
Qed.
Print Assumptions c96_value_refuted.
(** Counting from the end, the objects made for parameters left out are not what is stored in them but pointers to it. *)
Theorem c96_negative_refuted :
  exists text, RunSpec.header GramExamples.base0 [] None
      [GVar (GSpec [] (GWord $"void")) [GNode [] None [] (GNamed false $"f") (Some [GArg (GSpec [] (GWord $"int")) (GNode [] None [[]] (GNamed false $"b") None []) None]) []] NoInit] text
    /\ let s := read_header $"a.h" text in let b := open_with PropsLink.words0 std_types false s [] (fun _ => true) in
       forall takes w, exists r st, call_result b 20 takes (LibModel.Attr $"f") [] [] (opened b) = (Ok r, st)
         /\ item w (st_classes (q_ct st)) r (Int 0) = Ok (Raw (w_stored w 0))
         /\ item w (st_classes (q_ct st)) r (Int (-1)) = Ok (Obj (PPtr (PBase $"c_int")) (w_made w 0)).
Proof.
  exists $"void f(int *b);". split.
  - apply GramExamples.header_check; [|vm_compute; reflexivity|vm_compute; reflexivity|vm_compute; reflexivity|vm_compute; reflexivity].
    eapply GramExamples.seq_conv; [GramExamples.spell|vm_compute; reflexivity].
  - intros takes w. do 2 eexists. split; [vm_compute; reflexivity|]. repeat split; try (eexists; split; reflexivity).
Qed.
Print Assumptions c96_negative_refuted.
