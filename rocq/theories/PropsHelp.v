(** C97: arguments a caller makes: build_array, cast_to and arg_c_type. *)
From Coq Require Import Ascii String Bool Arith ZArith Lia List.
Import ListNotations.
From Verif Require Import PyBase PyBaseFacts PyStr PyStrFacts PyExpr TypeModel InitModel StoreModel StoreSpec DeclModel DeclSpec EvalModel EvalSpec.
From Verif Require Import GramModel GramSpec RunSpec GramRun.
From Verif Require GramExamples PropsGram PropsLink PropsConst.
From Verif Require Import MacroModel MacroSpec MacroDefProofs PpModel PpSpec TextSpec PropsMacro PropsDecl.
From Verif Require Import FileModel FileSpec PackedSpec FilesSpec PpExamples FileExamples PropsFile PropsPacked.
From Verif Require Import CtModel LinkModel LinkSpec LinkExamples ChainSpec ObjModel.
From Verif Require CtSpec LibModel TypeSpec.
From Verif Require Import AutoSpec FunModel InvokeModel InvokeSpec ObjSpec ObjProofs ObjChain InvokeProofs InvokeChain PropsObj PropsInvoke HelpModel HelpSpec HelpProofs HelpChain.

(** C97: after anything that is done with a library (accesses, calls, these helpers), [build_array(lib, name, size, vals)]
    makes an array of these dimensions whose elements are of the type [name], which is the one the library gives for any name of it, with the values given, in
    order; IndexError for too many values, ValueError for negative sizes, TypeError for void.  [cast_to(lib, obj, name)] makes a pointer of the type
    [name], TypeError if that is not a type of addresses (pointers, references, arrays of unknown length, names the backend knows as pointers).  Whatever is done later, the arrays are taken for the parameters of functions C takes
    them for: pointers to the type, whatever it is called and however it is qualified, pointers to rows, void *.
    [f.arg_c_type(arg)] is the type ctypes wants for the parameter, given by its name or its position (from the end if it is negative); KeyError, IndexError for
    those that do not exist.  And all that does not change how functions are called (C95).
    Missing: as in C82; strings that are no names of types; sizes that are no integers; values for objects that are no arrays. *)
Theorem c97_helpers_partial :
  forall cf table win s D prefix exports takes sets, closed cf table s D -> tagged s -> enum_tagged s -> usual_table table -> no_clash s prefix ->
  helpers cf table win s D prefix exports takes sets.
Proof. exact helpers_ok. Qed.
Print Assumptions c97_helpers_partial.
(** In particular for the libraries of headers (C73, C94: their tables are those of the texts). *)
Theorem c97_library_partial :
  forall fo ext ev base mods sub contents find rs headers s m us, good_config base mods ->
  macro_tables s -> stands_for (macros_of s) m -> typed_values s -> tagged s -> enum_tagged s ->
  Forall2 (resolves contents find) headers (map u_path us) -> Forall (stored sub contents rs) us -> NoDup (map u_path us) ->
  units base mods m us ->
  exists p, parse_headers fo ext ev base mods sub contents find rs headers s = Some (Ok p)
    /\ forall cf table win D prefix exports takes sets, closed cf table (p_store p) D -> usual_table table -> no_clash (p_store p) prefix ->
       helpers cf table win (p_store p) D prefix exports takes sets.
Proof. exact units_help. Qed.
Print Assumptions c97_library_partial.

(** The library of C94: arrays of nodes for its lists.  The numbers below 10 are no nodes. *)
Definition node_sets (c : pyt) (v : nat) : option exc := match c with PClass _ => if v <? 10 then Some TypeError else None | _ => None end.
Example c97_example :
  let cf := PropsLink.words0 in let pre := [$"api_"] in
  Forall (orderly_deed cf std_types api_s api_D pre)
    [Build (AsName $"int") (SInt (ONum (VInt 2))) []; Use (Get (LibModel.Attr $"list_t")); Cast 8 (AsName $"list_t"); ArgType push (AtName $"l")]
  /\ representable cf std_types api_s api_D (TBase [] $"node_t") /\ representable cf std_types api_s api_D (TBase [] $"struct node")
  /\ same_name cf api_s api_D $"node_t" Structs $"node" /\ same_name cf api_s api_D $"struct node" Types $"node_t"
  /\ type_at cf api_s push_ps push_cs 0 (TPtr [] (TBase [] $"struct node")) (PPtr (PClass 0))
  /\ takes_array (TPtr [] (TBase [] $"struct node")) [3%Z] (TBase [] $"struct node")
  /\ expanded cf api_s (TBase [] $"node_t") (TBase [] $"struct node")
  /\ (exists t, expanded cf api_s (TBase [] $"list_t") t /\ address std_types t) /\ ~ address std_types (TBase [] $"struct node")
  /\ (exists x, first_refused node_sets (PClass 0) 3 [11; 7] x) /\ values_fit node_sets (PClass 0) 3 [11; 12]
  /\ stands_at push_ps (AtName $"n") 1 /\ stands_at push_ps (AtIndex (-2)) 0 /\ (forall i, ~ stands_at push_ps (AtIndex 2) i)
  /\ (let st := deeds api 20 api_takes node_sets
        [Build (AsName $"int") (SInt (ONum (VInt 2))) []; Use (Get (LibModel.Attr $"list_t")); Cast 8 (AsName $"list_t"); ArgType push (AtName $"l")] (opened api) in
      let build n sz vals := fst (build_array api 20 node_sets (AsName n) sz vals st) in let num z := ONum (VInt z) in
      [build $"node_t" (SInt (num 3%Z)) []; build $"struct node" (STuple [num 2%Z; num 3%Z]) []; build $"node_t" (SInt (num 3%Z)) [11; 12];
       build $"node_t" (SInt (num 3%Z)) [11; 7]; build $"node_t" (SInt (num 1%Z)) [11; 12]; build $"int" (SInt (num (-1)%Z)) []; build $"void" (SInt (num 2%Z)) []]
      = [Ok {| m_class := PArr (PClass 0) 3; m_set := [] |}; Ok {| m_class := PArr (PArr (PClass 0) 3) 2; m_set := [] |}; Ok {| m_class := PArr (PClass 0) 3; m_set := [11; 12] |};
         Err TypeError; Err IndexError; Err ValueError; Err TypeError]
      /\ map (fun n => fst (cast_to api 20 (fun _ _ => true) 5 (AsName n) st)) [$"list_t"; $"node_t"] = [Ok (PPtr (PClass 0)); Err TypeError]
      /\ map (fun w => fst (arg_c_type api 20 push w st)) [AtName $"n"; AtIndex (-2); AtIndex 2; AtName $"m"]
         = [Ok (PBase $"c_int"); Ok (PPtr (PClass 0)); Err IndexError; Err KeyError]).
Proof.
  cbv zeta. assert (REP : forall n c, rep PropsLink.words0 std_types api_s api_comps api_cl 20 (TBase [] n) = Some c -> representable PropsLink.words0 std_types api_s api_D (TBase [] n))
    by (intros n c E; exists api_cl, c; exact (rep_ok PropsLink.words0 std_types api_s api_comps api_cl 20 _ c E)).
  assert (EX : forall t t', expand PropsLink.words0 api_s 20 t = Some t' -> expanded PropsLink.words0 api_s t t') by (intros t t'; apply (expand_ok PropsLink.words0 api_s 20)).
  split.
  { constructor; [eapply REP; vm_compute; reflexivity|]. constructor; [refine (api_attr _ _); vm_compute; reflexivity|]. constructor; [eapply REP; vm_compute; reflexivity|].
    constructor; [|constructor]. exists Functions, $"api_push". attribute [Values] [Types; Structs; Unions; Enums] [$"push"] (@nil str). }
  split; [eapply REP; vm_compute; reflexivity|]. split; [eapply REP; vm_compute; reflexivity|].
  split; [right; exists false, []; split; [reflexivity|]; split; [left; reflexivity|apply EX; vm_compute; reflexivity]|].
  split; [left; split; [reflexivity|]; do 2 eexists; split; [vm_compute; reflexivity|]; split; apply EX; vm_compute; reflexivity|].
  split; [exact push_list|]. split; [apply ta_pointer|]. split; [apply EX; vm_compute; reflexivity|].
  split; [eexists; split; [apply EX; vm_compute; reflexivity|exact Logic.I]|]. split; [intros (_ & _ & p & G & _); vm_compute in G; discriminate G|].
  split; [exists TypeError; left; exists [11], 7, []; repeat split; repeat constructor; cbn; lia|]. split; [repeat split; repeat constructor; cbn; lia|].
  split; [exact names_n|]. split; [split; cbn; lia|]. split; [intros i (L & X); cbn in L, X; lia|].
  split; [vm_compute; reflexivity|]. split; vm_compute; reflexivity.
Qed.

(** False for parameters declared as arrays of a length: C takes an array of another length, ctypes does not. *)
Theorem c97_length_refuted :
  exists text, RunSpec.header GramExamples.base0 [] None
      [GVar (GSpec [] (GWord $"void")) [GNode [] None [] (GNamed false $"f") (Some [GArg (GSpec [] (GWord $"int")) (GNode [] None [] (GNamed false $"v") None [$"3"]) None]) []] NoInit] text
    /\ let s := read_header $"a.h" text in let b := open_with PropsLink.words0 std_types false s [] (fun _ => true) in
       forall fuel sets, exists p a,
         fst (do_access b (S (S fuel)) (LibModel.Attr $"f") (opened b)) = Ok (VFunction $"f" PVoid [p])
         /\ fst (build_array b (S (S fuel)) sets (AsName $"int") (SInt (ONum (VInt 4))) [] (opened b)) = Ok a /\ ~ accepts p (m_class a).
Proof.
  exists $"void f(int v[3]);". split.
  - apply GramExamples.header_check; [|vm_compute; reflexivity|vm_compute; reflexivity|vm_compute; reflexivity|vm_compute; reflexivity].
    eapply GramExamples.seq_conv; [GramExamples.spell|vm_compute; reflexivity].
  - intros fuel sets. do 2 eexists. split; [vm_compute; reflexivity|]. split; [vm_compute; reflexivity|]. intros A. apply taken_accepts in A. discriminate A.
Qed.
Print Assumptions c97_length_refuted.
(** Nor for a string that spells a pointer, though cast_to wants a pointer. *)
Theorem c97_pointer_refuted :
  let b := open_with PropsLink.words0 std_types false init_store [] (fun _ => true) in
  forall fuel takes id, exists x, fst (cast_to b (S fuel) takes id (AsName $"int *") (opened b)) = Err x.
Proof. intros b fuel takes id. eexists. vm_compute. reflexivity. Qed.
Print Assumptions c97_pointer_refuted.
