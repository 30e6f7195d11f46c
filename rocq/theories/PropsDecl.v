(** C39-C46, C67, C68: declarations and constant expressions. *)
From Coq Require Import Ascii String Bool Arith ZArith Lia List.
Import ListNotations.
From Verif Require Import PyBase PyBaseFacts PyStr PyExpr TypeModel StoreModel StoreSpec.
From Verif Require Import DeclModel DeclSpec DeclProofs DeclStore DeclVars.
From Verif Require Import ExprSpec EvalModel EvalSpec EvalProofs EvalEnum PpExamples NumSpec NumProofs.

(** Helpers of the examples. *)
Definition plain_decl (n : str) : dtree := DNode [] None [] (Named false n) None [].
Definition int_spec : bspec := {| b_qual := []; b_name := $"int" |}.
Definition fund0 : list str := map (fun s : string => $s) ["unsigned"; "signed"; "short"; "long"; "int"; "char"; "float"; "double"; "void"]%string.
Definition no_ext2 (env : dict str pobj) (text : str) : res pobj := Err OtherError.
Definition ev0 : dict str pobj -> str -> res pobj := c_eval fund0 [] (fun _ => false) no_ext2.

(** C39: for every declarator of C the recorded type is the C type.  Excluded: a calling
    convention directly before a parenthesis, qualifiers at the beginning of a parenthesised
    declarator (no C), and brackets behind a parenthesised array, where the claim is false. *)
Theorem c39_declarators_partial :
  forall dim b d, every c_syntax d = true ->
  exists t, process_type dim b d = Ok (c_name d, t) /\ read_type t = Some (c_type dim d (base_type b)).
Proof. intros dim b d E. exact (reads_type dim b d (process_reads dim d E)). Qed.
Print Assumptions c39_declarators_partial.
(** [int (x[2])[3];] *)
Theorem c39_declarators_refuted :
  exists dim b d t, every no_bare_conv d = true /\ every no_inner_qual d = true
    /\ process_type dim b d = Ok (c_name d, t) /\ read_type t <> Some (c_type dim d (base_type b)).
Proof.
  exists (fun s => OStr s), int_spec, (DNode [] None [] (Center (DNode [] None [] (Named false $"x") None [$"2"])) None [$"3"]).
  eexists. split; [reflexivity|]. split; [reflexivity|]. split; [vm_compute; reflexivity|]. vm_compute. discriminate.
Qed.
Print Assumptions c39_declarators_refuted.
(** An array of 4 pointers to functions that take a pointer and a pointer to a function and
    give a constant pointer to an array of 3 arrays of 5 pointers to constant int. *)
Definition decl0 : dtree :=
  DNode [] None [[]]
    (Center (DNode [] None [[$"const"]]
      (Center (DNode [] None [[]] (Named false $"f") None [$"4"]))
      (Some [Arg int_spec (DNode [] None [[]] (Named false $"a") None []) None;
             Arg int_spec (DNode [] None [] (Center (DNode [] None [[]] (Abstract false) None []))
                                 (Some [Arg {| b_qual := []; b_name := $"void" |} (DNode [] None [] (Abstract false) None []) None]) []) None]) []))
    None [$"3"; $"5"].
Definition spec0 : bspec := {| b_qual := [$"const"]; b_name := $"int" |}.
Example c39_example :
  every c_syntax decl0 = true
  /\ c_type (fun s => OStr s) decl0 (base_type spec0) =
     TArr [] (OStr $"4") (TPtr [] (TFun []
       [(Some $"a", TPtr [] (TBase [] $"int"), None);
        (None, TPtr [] (TFun [] [(None, TBase [] $"void", None)] (TBase [] $"int")), None)]
       (TPtr [$"const"] (TArr [] (OStr $"3") (TArr [] (OStr $"5") (TPtr [] (TBase [$"const"] $"int"))))))).
Proof. split; vm_compute; reflexivity. Qed.

(** C40: a declarator is processed without exception, with one qualifier list per level,
    exactly when it has no calling convention directly before a parenthesis; the exception is
    TypeError. *)
Theorem c40_processed_partial :
  forall dim b d,
    ((exists n t, process_type dim b d = Ok (n, t) /\ length (t_quals t) = 1 + length (t_decls t))
     <-> every no_bare_conv d = true)
    /\ forall e, process_type dim b d = Err e -> e = TypeError.
Proof. intros dim b d. exact (conj (process_type_iff dim b d) (process_type_error dim b d)). Qed.
Print Assumptions c40_processed_partial.
(** [typedef int __stdcall (f);] ends the parse with a TypeError. *)
Theorem c40_processed_refuted :
  exists ev s b d, snd (act ev s (ATypedef b [d])) = Some TypeError.
Proof.
  exists ev0, init_store, int_spec, (DNode [] (Some $"__stdcall") [] (Center (plain_decl $"f")) None []).
  vm_compute. reflexivity.
Qed.
Print Assumptions c40_processed_refuted.
Example c40_example :
  every no_bare_conv decl0 = true
  /\ every no_bare_conv (DNode [] None [] (Center (DNode [] (Some $"__stdcall") [[]] (Named false $"f") None [])) (Some []) []) = true
  /\ every no_bare_conv (DNode [] (Some $"__stdcall") [] (Center (plain_decl $"f")) None []) = false.
Proof. repeat split; reflexivity. Qed.

(** C41: the recorded enumerators have the values Python computes for their expressions, or
    else one more than their predecessor, beginning with 0; each is available as a value. *)
Theorem c41_counting :
  forall ev s n l s' r, typed_values s -> NoDup (map fst l) -> defined s Enums n = None ->
  process_enum ev s (Some n) l = (s', Some r) ->
  r = tag_name $"enum" n
  /\ exists vs, counts ev (values s) (ONum (VInt 0)) l vs
     /\ defined s' Enums n = Some (EEnum vs)
     /\ defined s' Types (tag_name $"enum" n) = Some (EType (CT (SName $"enum") [DStr n] [Some []; Some []]))
     /\ forall m v, In (m, v) vs -> defined s' Values m = Some (EVal v).
Proof. intros ev s n l s' r T ND D E. pose proof (process_enum_named ev s n l T ND D) as P. rewrite E in P. exact P. Qed.
Print Assumptions c41_counting.
(** An enum without name is recorded under a name not in use. *)
Theorem c41_anonymous :
  forall ev s l, exists n, defined s Enums n = None /\ process_enum ev s None l = process_enum ev s (Some n) l.
Proof. exact process_enum_anon. Qed.
Print Assumptions c41_anonymous.
(** With the evaluation of the parser: if the explicit values are C constant expressions of the
    kind of [c_const], the enum is recorded with its C values. *)
Theorem c41_c_values_partial :
  forall fund mods visible ext s n l zs known,
  typed_values s -> agrees (values s) known -> NoDup (map fst l) -> defined s Enums n = None ->
  c_enum (c_const fund mods) known 0 l zs ->
  exists s' vs, process_enum (c_eval fund mods visible ext) s (Some n) l = (s', Some (tag_name $"enum" n))
    /\ defined s' Enums n = Some (EEnum vs)
    /\ Forall2 (fun x y => fst x = fst y /\ exists w, snd x = ONum w /\ as_int w = Some (snd y)) vs zs
    /\ forall m v, In (m, v) vs -> defined s' Values m = Some (EVal v).
Proof. exact enum_c_values. Qed.
Print Assumptions c41_c_values_partial.
(** For all C constant expressions this is false: [enum e { A = 7 / 2 }] is recorded with
    3.5 (C: 3) and [enum e { A = 5, B = (A) + 1 }] with B = 1 (C: 6). *)
Theorem c41_division_refuted :
  exists text z vs, c_value [] text z
    /\ defined (fst (process_enum ev0 init_store (Some $"e") [($"A", Some text)])) Enums $"e" = Some (EEnum vs)
    /\ vs = [($"A", ONum (VQuot 7 2))] /\ z = 3%Z.
Proof.
  exists (canon (toks (CBin ODiv (CNum $"7") (CNum $"2")))), 3%Z. eexists. split; [|split; [vm_compute; reflexivity|split; reflexivity]].
  exists (CBin ODiv (CNum $"7") (CNum $"2")). split; [apply canon_spells; reflexivity|].
  split; [cbn; lia|]. split; [intros w []|vm_compute; reflexivity].
Qed.
Print Assumptions c41_division_refuted.
Theorem c41_name_in_parentheses_refuted :
  exists text z vs, c_enum c_value [] 0 [($"A", Some (canon [TNum $"5"])); ($"B", Some text)] [($"A", 5%Z); ($"B", z)]
    /\ defined (fst (process_enum ev0 init_store (Some $"e") [($"A", Some (canon [TNum $"5"])); ($"B", Some text)])) Enums $"e" = Some (EEnum vs)
    /\ vs = [($"A", ONum (VInt 5)); ($"B", ONum (VInt 1))] /\ z = 6%Z.
Proof.
  exists (canon (toks (CBin OAdd (CPar (CId $"A")) (CNum $"1")))), 6%Z. eexists.
  split; [|split; [vm_compute; reflexivity|split; reflexivity]].
  apply ce_given.
  - exists (CNum $"5"). split; [apply canon_spells; reflexivity|]. split; [exact Logic.I|]. split; [intros w []|vm_compute; reflexivity].
  - apply ce_given; [|constructor].
    exists (CBin OAdd (CPar (CId $"A")) (CNum $"1")). split; [apply canon_spells; reflexivity|].
    split; [cbn; lia|]. split; [|vm_compute; reflexivity].
    intros w [<-|[]]. exists 5%Z. reflexivity.
Qed.
Print Assumptions c41_name_in_parentheses_refuted.
(** [enum e { A, B = -3, C, D = C << 4 | 1 }] *)
Definition enum0 : list (str * option str) :=
  [($"A", None); ($"B", Some (canon (toks (CNeg (CNum $"3"))))); ($"C", None);
   ($"D", Some (canon (toks (CBin OOr (CBin OMul (CId $"C") (CNum $"16")) (CNum $"1")))))].
Ltac value_name_ok := split;
  [ intros a d b E; repeat (destruct a as [|? a]; [injection E as <- <-; discriminate|injection E as _ E]); destruct a; discriminate
  | repeat split; first [no_in | reflexivity]].
Example c41_example :
  c_enum (c_const fund0 []) [] 0 enum0 [($"A", 0%Z); ($"B", (-3)%Z); ($"C", (-2)%Z); ($"D", (-31)%Z)]
  /\ defined (fst (process_enum ev0 init_store (Some $"e") enum0)) Enums $"e"
     = Some (EEnum [($"A", ONum (VInt 0)); ($"B", ONum (VInt (-3))); ($"C", ONum (VInt (-2))); ($"D", ONum (VInt (-31)))]).
Proof.
  split; [|vm_compute; reflexivity].
  apply ce_next. apply ce_given.
  { exists (CNeg (CNum $"3")). split; [|split; [reflexivity|split; [reflexivity|split; [intros w []|vm_compute; tauto]]]].
    split; [apply canon_spells; reflexivity|]. split; [cbn; lia|]. split; [intros w []|vm_compute; reflexivity]. }
  apply ce_next. apply ce_given; [|constructor].
  exists (CBin OOr (CBin OMul (CId $"C") (CNum $"16")) (CNum $"1")).
  split; [|split; [reflexivity|split; [reflexivity|split]]].
  - split; [apply canon_spells; reflexivity|]. split; [cbn; lia|]. split; [|vm_compute; reflexivity].
    intros w [<-|[]]. eexists. reflexivity.
  - intros w [<-|[]]. value_name_ok.
  - vm_compute. repeat split; try discriminate; tauto.
Qed.

(** C42: an enum is recorded exactly when the values of all enumerators can be computed; then
    all of its enumerators are recorded; otherwise no other table than that of the values
    changes.  Missing: the values recorded before the failure stay (below). *)
Theorem c42_complete_partial :
  forall ev s n l, typed_values s -> NoDup (map fst l) -> defined s Enums n = None ->
  let (s', r) := process_enum ev s (Some n) l in
  (r <> None <-> exists vs, counts ev (values s) (ONum (VInt 0)) l vs)
  /\ (r <> None -> exists vs, defined s' Enums n = Some (EEnum vs) /\ map fst vs = map fst l
        /\ forall m v, In (m, v) vs -> defined s' Values m = Some (EVal v))
  /\ (r = None -> forall k m, k <> Values -> defined s' k m = defined s k m).
Proof. exact enum_complete. Qed.
Print Assumptions c42_complete_partial.
(** The tables of values met above arise from every sequence of declarations. *)
Theorem c42_values_reachable :
  forall ev s l, typed_values s -> typed_values (fst (acts ev s l)).
Proof. intros ev s l. exact (acts_typed ev l s). Qed.
Print Assumptions c42_values_reachable.
(** [enum e { A, B = UNKNOWN }] is not recorded, but A and B are, as values. *)
Theorem c42_leak_refuted :
  exists l s', process_enum ev0 init_store (Some $"e") l = (s', None)
    /\ map fst l = [$"A"; $"B"]
    /\ defined s' Values $"A" = Some (EVal (ONum (VInt 0))) /\ defined s' Values $"B" = Some (EVal ONone).
Proof.
  exists [($"A", None); ($"B", Some $"UNKNOWN")]. eexists. split; [vm_compute; reflexivity|].
  split; [reflexivity|]. split; vm_compute; reflexivity.
Qed.
Print Assumptions c42_leak_refuted.
Example c42_example :
  typed_values init_store /\ NoDup (map fst enum0) /\ snd (process_enum ev0 init_store (Some $"e") enum0) = Some $"enum e".
Proof.
  split; [intros n e []|]. split; [|vm_compute; reflexivity].
  repeat (constructor; [no_in|]). constructor.
Qed.

(** C43: after any declarations the name invented for an anonymous structure, union or enum is
    not in use, and recording it keeps all definitions (other than values of the names of its
    enumerators). *)
Theorem c43_anonymous_structure :
  forall ev s0 hist c l p s' r,
  tags_ok s0 -> (forall a, In a hist -> plain_names a) ->
  process_struct ev (fst (acts ev s0 hist)) c None l p = (s', Some r) ->
  let s := fst (acts ev s0 hist) in
  exists n, r = tag_name (comp_kw c) n /\ defined s (comp_kind c) n = None
    /\ defined s Types (tag_name (comp_kw c) n) = None
    /\ (exists ms, defined s' (comp_kind c) n = Some (EComp ms p))
    /\ forall k m v, defined s k m = Some v -> defined s' k m = Some v.
Proof. exact anon_comp_history. Qed.
Print Assumptions c43_anonymous_structure.
Theorem c43_anonymous_enum :
  forall ev s0 hist l s' r,
  tags_ok s0 -> (forall a, In a hist -> plain_names a) ->
  process_enum ev (fst (acts ev s0 hist)) None l = (s', Some r) ->
  let s := fst (acts ev s0 hist) in
  exists n, r = tag_name $"enum" n /\ defined s Enums n = None
    /\ defined s Types (tag_name $"enum" n) = None
    /\ (exists en, defined s' Enums n = Some (EEnum en))
    /\ forall k m v, (k = Values -> ~ In m (map fst l)) -> defined s k m = Some v -> defined s' k m = Some v.
Proof. exact anon_enum_history. Qed.
Print Assumptions c43_anonymous_enum.
Definition line0 : mline := {| l_type := int_spec; l_decls := [plain_decl $"x"]; l_init := NoInit; l_bit := None |}.
(** A header that uses the first two invented names itself. *)
Definition hist0 : list action :=
  [AComp CStruct (Some $"anon_struct0") [line0] None; AComp CStruct (Some $"anon_struct1") [] None;
   AEnum (Some $"anon_enum0") enum0; ATypedef int_spec [plain_decl $"T"]].
Example c43_example :
  tags_ok init_store /\ (forall a, In a hist0 -> plain_names a)
  /\ snd (process_struct ev0 (fst (acts ev0 init_store hist0)) CStruct None [line0] None) = Some $"struct anon_struct2"
  /\ snd (process_enum ev0 (fst (acts ev0 init_store hist0)) None [($"X", None)]) = Some $"enum anon_enum1".
Proof.
  split; [exact tags_init|]. split; [|split; vm_compute; reflexivity].
  intros a I. cbn in I. repeat (destruct I as [I|I]; [subst a; try exact Logic.I|]); [|destruct I].
  intros d n [<-|[]] E. injection E as <-. no_in.
Qed.

(** C44: a recorded structure or union stays as it is, whatever is declared later, unless it is
    defined again; and a definition is recorded whatever was declared before. *)
Theorem c44_definition_kept :
  forall ev l s c n ms p,
  defined s (comp_kind c) n = Some (EComp ms p) -> (forall a, In a l -> ~ defines_comp c n a) ->
  defined (fst (acts ev s l)) (comp_kind c) n = Some (EComp ms p).
Proof. exact acts_keep_comp. Qed.
Print Assumptions c44_definition_kept.
Theorem c44_reference_before :
  forall ev s c n x l p l2 ms,
  all_members ev s (x :: l) = Ok ms -> (forall a, In a l2 -> ~ defines_comp c n a) ->
  defined (fst (acts ev s (AComp c (Some n) (x :: l) p :: l2))) (comp_kind c) n = Some (EComp ms p).
Proof. exact definition_recorded. Qed.
Print Assumptions c44_reference_before.
(** A reference, the definition, references, other declarations of the same name. *)
Definition refs0 : list action :=
  [AComp CStruct (Some $"S") [] None; AComp CUnion (Some $"S") [line0] None;
   AVar {| b_qual := []; b_name := $"struct S" |} [plain_decl $"S"] NoInit; AEnum (Some $"S") enum0].
Example c44_example :
  (forall a, In a refs0 -> ~ defines_comp CStruct $"S" a)
  /\ exists ms, defined (fst (acts ev0 init_store (refs0 ++ AComp CStruct (Some $"S") [line0] (Some 4%Z) :: refs0))) Structs $"S"
                = Some (EComp ms (Some 4%Z)) /\ length ms = 1.
Proof.
  split; [|eexists; split; vm_compute; reflexivity].
  intros a I (x & l & p & E). subst a. cbn in I. repeat (destruct I as [I|I]; [discriminate|]). exact I.
Qed.

(** C45: the last variable of a declaration, and all of a declaration without initialiser, are
    recorded with the C type and the value of their own initialiser, None if there is none. *)
Theorem c45_own_value_partial :
  forall ev s b i l1 d l2 n,
  let l := l1 ++ d :: l2 in
  Forall (fun d => every no_bare_conv d = true /\ c_name d <> None) l -> NoDup (names_of l) ->
  c_name d = Some n -> every c_syntax d = true -> no_conv_name d = true ->
  l2 = [] \/ i = NoInit ->
  let dim := eval_text ev (process_variable ev s b l1 i) in
  is_function (c_type dim d (base_type b)) = false ->
  let s' := process_variable ev s b l i in
  exists v t, initial_value (ev (values s)) (own_init l2 i) v
    /\ defined s' Variables n = Some (EVar v t) /\ read_type t = Some (c_type dim d (base_type b))
    /\ defined s' Values n = Some (EVal v).
Proof. exact variable_initial. Qed.
Print Assumptions c45_own_value_partial.
(** The value of an initialiser: there is exactly one. *)
Theorem c45_initial :
  forall ev s i v, initial_value (ev (values s)) i v <-> v = eval_init ev s i.
Proof. exact initial_init. Qed.
Print Assumptions c45_initial.
(** The initial value is the C value if the initialiser is a constant expression of the kind
    of [c_const]. *)
Theorem c45_c_value_partial :
  forall fund mods visible ext s b l1 d n text z known,
  let ev := c_eval fund mods visible ext in
  let l := l1 ++ [d] in
  Forall (fun d => every no_bare_conv d = true /\ c_name d <> None) l -> NoDup (names_of l) ->
  c_name d = Some n -> every c_syntax d = true -> no_conv_name d = true ->
  is_function (c_type (eval_text ev (process_variable ev s b l1 (IVal text))) d (base_type b)) = false ->
  agrees (values s) known -> c_const fund mods known text z ->
  exists v, defined (process_variable ev s b l (IVal text)) Values n = Some (EVal (ONum v)) /\ as_int v = Some z.
Proof. exact variable_c_value. Qed.
Print Assumptions c45_c_value_partial.
(** [int a, b = 2;] records a with the value 2. *)
Theorem c45_shared_refuted :
  exists t, defined (process_variable ev0 init_store int_spec [plain_decl $"a"; plain_decl $"b"] (IVal $"2")) Variables $"a"
    = Some (EVar (ONum (VInt 2)) t) /\ own_init [plain_decl $"b"] (IVal $"2") = NoInit.
Proof. eexists. split; vm_compute; reflexivity. Qed.
Print Assumptions c45_shared_refuted.
(** [int a, *b[2] = {1, 2};] *)
Example c45_example :
  let d := DNode [] None [[]] (Named false $"b") None [$"2"] in
  Forall (fun d => every no_bare_conv d = true /\ c_name d <> None) [plain_decl $"a"; d]
  /\ NoDup (names_of [plain_decl $"a"; d]) /\ every c_syntax d = true /\ no_conv_name d = true
  /\ defined (process_variable ev0 init_store int_spec [plain_decl $"a"; d] (IArr [$"1"; $"2"])) Values $"b"
     = Some (EVal (OList [ONum (VInt 1); ONum (VInt 2)])).
Proof.
  split; [repeat constructor; discriminate|]. split; [repeat (constructor; [no_in|]); constructor|].
  repeat split; vm_compute; reflexivity.
Qed.

(** C46: a name is recorded as a function exactly when its C type is a function type.
    Excluded: specifiers that name a function type, and [(__stdcall f)(...)]. *)
Theorem c46_variables_partial :
  forall ev s b l i,
  Forall (fun d => every no_bare_conv d = true /\ no_conv_name d = true /\ c_name d <> None) l ->
  NoDup (names_of l) -> ~ c_function s (base_type b) ->
  forall d n dim, In d l -> c_name d = Some n ->
  let s' := process_variable ev s b l i in
  (c_function s (c_type dim d (base_type b)) ->
     (exists t, defined s' Functions n = Some (EFun t)) /\ defined s' Variables n = defined s Variables n)
  /\ (~ c_function s (c_type dim d (base_type b)) ->
     (exists v t, defined s' Variables n = Some (EVar v t)) /\ defined s' Functions n = defined s Functions n).
Proof. exact variables_recorded. Qed.
Print Assumptions c46_variables_partial.
Theorem c46_prototypes_partial :
  forall ev s b d n dim,
  every no_bare_conv d = true -> no_conv_name d = true -> c_name d = Some n ->
  ~ c_function s (base_type b) ->
  (c_function s (c_type dim d (base_type b)) ->
     exists t, defined (process_function ev s b d) Functions n = Some (EFun t))
  /\ (~ c_function s (c_type dim d (base_type b)) -> process_function ev s b d = s).
Proof. exact function_recorded. Qed.
Print Assumptions c46_prototypes_partial.
(** [typedef int F(int); F f;] records f as a variable. *)
Definition fun_decl (n : str) : dtree :=
  DNode [] None [] (Named false n) (Some [Arg int_spec (DNode [] None [] (Abstract false) None []) None]) [].
Theorem c46_typedef_refuted :
  exists s d b dim, fst (acts ev0 init_store [ATypedef int_spec [fun_decl $"F"]]) = s
    /\ c_function s (c_type dim d (base_type b)) /\ c_name d = Some $"f"
    /\ (exists v t, defined (process_variable ev0 s b [d] NoInit) Variables $"f" = Some (EVar v t)).
Proof.
  eexists. exists (plain_decl $"f"), {| b_qual := []; b_name := $"F" |}, (fun s => OStr s). split; [reflexivity|].
  split; [|split; [reflexivity|do 2 eexists; vm_compute; reflexivity]].
  eapply cf_name; [vm_compute; reflexivity|vm_compute; reflexivity|constructor].
Qed.
Print Assumptions c46_typedef_refuted.
(** [int (__stdcall f)(int);] too. *)
Theorem c46_convention_refuted :
  exists s d b dim, c_function s (c_type dim d (base_type b)) /\ c_name d = Some $"f"
    /\ (exists v t, defined (process_variable ev0 s b [d] NoInit) Variables $"f" = Some (EVar v t)).
Proof.
  exists init_store, (DNode [] None [] (Center (DNode [] (Some $"__stdcall") [] (Named false $"f") None []))
    (Some [Arg int_spec (DNode [] None [] (Abstract false) None []) None]) []), int_spec, (fun s => OStr s).
  split; [repeat constructor|split; [reflexivity|do 2 eexists; vm_compute; reflexivity]].
Qed.
Print Assumptions c46_convention_refuted.
(** [int f(int), *g(int), ( *h)(int), x;] *)
Definition decls1 : list dtree :=
  let a := Some [Arg int_spec (DNode [] None [] (Abstract false) None []) None] in
  [fun_decl $"f"; DNode [] None [[]] (Named false $"g") a [];
   DNode [] None [] (Center (DNode [] None [[]] (Named false $"h") None [])) a []; plain_decl $"x"].
Example c46_example :
  Forall (fun d => every no_bare_conv d = true /\ no_conv_name d = true /\ c_name d <> None) decls1
  /\ NoDup (names_of decls1) /\ ~ c_function init_store (base_type int_spec)
  /\ map (fun d => is_function (c_type (fun s => OStr s) d (base_type int_spec))) decls1 = [true; true; false; false]
  /\ let s' := process_variable ev0 init_store int_spec decls1 NoInit in
     keys (defs s' Functions) = [$"f"; $"g"] /\ keys (defs s' Variables) = [$"h"; $"x"].
Proof.
  split; [repeat constructor; discriminate|]. split; [repeat (constructor; [no_in|]); constructor|].
  split; [intros F; inversion F; discriminate|]. repeat split; vm_compute; reflexivity.
Qed.

(** C67: the recorded members of a structure or union are the declared ones, in order, with
    their C types and widths.  Excluded: qualified anonymous members and widths that are not
    in decimal digits. *)
Theorem c67_members_partial :
  forall ev s c n x l p, Forall plain_line (x :: l) ->
  let s' := fst (process_struct ev s c (Some n) (x :: l) p) in
  exists ms, defined s' (match c with CStruct => Structs | CUnion => Unions end) n = Some (EComp ms p)
    /\ Forall2 (fun m y => recorded (fst y) m (snd y)) ms (declared_all (eval_text ev s) (x :: l)).
Proof. exact comp_members. Qed.
Print Assumptions c67_members_partial.
(** [struct S { const struct T; };]: the type of the member is recorded as const. *)
Theorem c67_anonymous_refuted :
  exists x m, defined (fst (process_struct ev0 init_store CStruct (Some $"S") [x] None)) Structs $"S" = Some (EComp [m] None)
    /\ declared (fun s => OStr s) x = [(None, TBase [$"const"] $"struct T")]
    /\ read_type (m_type m) = Some (TBase [] $"const").
Proof.
  exists {| l_type := {| b_qual := [$"const"]; b_name := $"struct T" |}; l_decls := []; l_init := NoInit; l_bit := None |}.
  eexists. repeat split; vm_compute; reflexivity.
Qed.
Print Assumptions c67_anonymous_refuted.
(** [struct S { int x : 0x3; };] is not recorded at all. *)
Theorem c67_width_refuted :
  exists x, l_bit x = Some $"0x3" /\ process_struct ev0 init_store CStruct (Some $"S") [x] None = (init_store, None).
Proof.
  exists {| l_type := int_spec; l_decls := [plain_decl $"x"]; l_init := NoInit; l_bit := Some $"0x3" |}.
  split; vm_compute; reflexivity.
Qed.
Print Assumptions c67_width_refuted.
Definition lines0 : list mline :=
  [{| l_type := int_spec; l_decls := [plain_decl $"x"; DNode [] None [[]] (Named false $"p") None [$"2"]]; l_init := NoInit; l_bit := None |};
   {| l_type := {| b_qual := []; b_name := $"union U" |}; l_decls := []; l_init := NoInit; l_bit := None |};
   {| l_type := int_spec; l_decls := [plain_decl $"y"]; l_init := NoInit; l_bit := Some $"12" |}].
Example c67_example :
  Forall plain_line lines0
  /\ declared_all (eval_text ev0 init_store) lines0
     = [(None, (Some $"x", TBase [] $"int")); (None, (Some $"p", TArr [] (ONum (VInt 2)) (TPtr [] (TBase [] $"int"))));
        (None, (None, TBase [] $"union U")); (Some $"12", (Some $"y", TBase [] $"int"))].
Proof.
  split; [|vm_compute; reflexivity].
  repeat constructor; try discriminate; intros E; discriminate E.
Qed.

(** C68: decimal and hexadecimal integer literals, with any upper-case suffix, have their C
    value. *)
Theorem c68_decimal_partial :
  forall fund mods visible ext env d u n, number d -> numeral 10 d n -> incl u ["U"%char; "L"%char] ->
  c_eval fund mods visible ext env (d ++ u) = Ok (ONum (VInt n)).
Proof. exact eval_dec_numeral. Qed.
Print Assumptions c68_decimal_partial.
Theorem c68_hexadecimal_partial :
  forall fund mods visible ext env x h u n,
  x = "x"%char \/ x = "X"%char -> h <> [] -> numeral 16 h n -> incl u ["U"%char; "L"%char] ->
  c_eval fund mods visible ext env ("0"%char :: x :: h ++ u) = Ok (ONum (VInt n)).
Proof. exact eval_hex_numeral. Qed.
Print Assumptions c68_hexadecimal_partial.
(** The literals of the specification are those of C: a prefix that tells the base, digits for that base,
    and a suffix. *)
Theorem c68_literals :
  forall t z, c_literal t z <->
  (exists d u, t = d ++ u /\ In u int_suffixes /\ number d /\ numeral 10 d z)
  \/ (exists base pre d u, In (base, pre) (tl bases) /\ t = pre ++ d ++ u /\ In u int_suffixes /\ d <> [] /\ numeral base d z).
Proof. exact literal_numeral. Qed.
Print Assumptions c68_literals.
(** Octal literals and lower-case suffixes fail. *)
Theorem c68_literals_refuted :
  exists oct low, c_literal oct 8 /\ ev0 [] oct = Err SyntaxError /\ c_literal low 10 /\ ev0 [] low = Err SyntaxError.
Proof.
  exists $"010", $"10u". split; [|split; [vm_compute; reflexivity|split; [|vm_compute; reflexivity]]].
  - apply (lit_oct $"10" []); [discriminate|reflexivity|left; reflexivity].
  - apply (lit_dec $"10" $"u"); [split; reflexivity|right; left; reflexivity].
Qed.
Print Assumptions c68_literals_refuted.
Example c68_example :
  c_literal $"4294967295UL" 4294967295 /\ number $"4294967295" /\ incl $"UL" ["U"%char; "L"%char]
  /\ c_literal $"0xFFull" 255 /\ numeral 10 $"4294967295" 4294967295 /\ numeral 16 $"fF0" 4080.
Proof.
  split; [|split; [split; reflexivity|split; [intros c; cbn; tauto|split; [|split; [apply dec_numeral; split; reflexivity|apply hex_numeral; split; reflexivity]]]]].
  - apply (lit_dec $"4294967295" $"UL"); [split; reflexivity|vm_compute; tauto].
  - apply (lit_hex "x"%char $"FF" $"ull"); [left; reflexivity|discriminate|reflexivity|vm_compute; tauto].
Qed.
