(** C101: the texts of signatures. *)
From Coq Require Import Ascii String Bool Arith ZArith Lia List.
Import ListNotations.
From Verif Require Import PyBase PyStr PyExpr MacroSpec TypeModel StoreModel DeclModel ReprModel ReprSpec ReprProofs SigModel SigSpec SigProofs.

(** C101: [pretty_signature] tells what a function is: functions with the same text have the same
    name, return the same type, and have parameters of the same names and types.
    Missing: the qualifiers of what is returned ([c101_qualifiers_refuted]), default values
    ([c101_default_refuted]), parameters called None ([c101_none_refuted]), functions that return
    pointers to functions ([c101_raises_refuted]). *)
Theorem c101_signature_partial : forall show n n' sig sig' ret ret' params params' ps ps' text,
  signature sig ret params -> signature sig' ret' params' -> returned ret -> returned ret' ->
  Forall parameter params -> Forall parameter params' -> proper params ps -> proper params' ps' -> ident n -> ident n' ->
  pretty_signature show n sig = Ok text -> pretty_signature show n' sig' = Ok text ->
  n = n' /\ t_spec ret = t_spec ret' /\ t_decls ret = t_decls ret' /\ ps = ps'.
Proof. exact signatures_apart. Qed.
Print Assumptions c101_signature_partial.
(** There is a text. *)
Theorem c101_answers : forall show n sig ret params, signature sig ret params -> returned ret -> exists text, pretty_signature show n sig = Ok text.
Proof. exact signature_answers. Qed.
Print Assumptions c101_answers.

(** [unsigned int *find(const struct node *list, int, void)], as the parser records it. *)
Definition find_tree : dtree :=
  DNode [] None [[]] (Named false $"find")
    (Some [Arg {| b_qual := [$"const"]; b_name := $"struct node" |} (DNode [] None [[]] (Named false $"list") None []) None;
           Arg {| b_qual := []; b_name := $"int" |} (DNode [] None [] (Abstract false) None []) (Some $"3");
           Arg {| b_qual := []; b_name := $"void" |} (DNode [] None [] (Abstract false) None []) None]) [].
Definition node_ptr : aty := CT (SName $"struct node") [DStr $"*"] [Some [$"const"]; Some []].
Definition int_type : aty := CT (SName $"int") [] [Some []].
Definition void_type : aty := CT (SName $"void") [] [Some []].
Example c101_example :
  let ret : aty := CT (SName $"unsigned int") [DStr $"*"] [Some []; Some []] in
  let params := [(Some $"list", node_ptr, None); (None, int_type, Some $"3"); (None, void_type, None)] in
  exists t, process_type (fun _ => ONone) {| b_qual := []; b_name := $"unsigned int" |} find_tree = Ok (Some $"find", t)
    /\ signature (add_hack t) ret params /\ returned ret /\ Forall parameter params
    /\ proper params [(Some $"list", node_ptr); (None, int_type)] /\ ident $"find"
    /\ pretty_signature (fun _ => []) $"find" (add_hack t)
       = Ok $"unsigned int* find(Type('struct node', '*', type_quals=(('const',), ())) list, Type('int') None)".
Proof.
  intros ret params. eexists. split; [vm_compute; reflexivity|]. split; [apply sg_function|].
  split; [exists $"unsigned int", [DStr $"*"], [Some []; Some []]; split; [reflexivity|]; split; [vm_compute; reflexivity|]; constructor; [left; reflexivity|constructor]|].
  assert (V : ident $"list") by (apply ident_check; vm_compute; reflexivity).
  split; [|split; [|split; [apply ident_check; vm_compute; reflexivity|vm_compute; reflexivity]]].
  - constructor; [|constructor; [|constructor; [|constructor]]]; (split; [apply pl_type; [apply pl_name|repeat constructor|reflexivity|repeat (constructor; [discriminate|]); constructor]|]).
    + split; [exact V|discriminate].
    + exact Logic.I.
    + exact Logic.I.
  - apply pr_param; [intros (qs & E); discriminate E|]. apply pr_param; [intros (qs & E); discriminate E|]. apply pr_void; [exists [Some []]; reflexivity|]. apply pr_none.
Qed.

(** [const char *f()] and [char *f()] have the same text. *)
Theorem c101_qualifiers_refuted : exists n sig sig' text,
  sig <> sig' /\ pretty_signature (fun _ => []) n sig = Ok text /\ pretty_signature (fun _ => []) n sig' = Ok text
  /\ (exists b b' d t t', process_type (fun _ => ONone) b d = Ok (Some n, t) /\ process_type (fun _ => ONone) b' d = Ok (Some n, t')
       /\ add_hack t = sig /\ add_hack t' = sig').
Proof.
  exists $"f", (CT (SType (CT (SName $"char") [DStr $"*"] [Some [$"const"]; Some []])) [DFun []] [Some []; Some []]),
    (CT (SType (CT (SName $"char") [DStr $"*"] [Some []; Some []])) [DFun []] [Some []; Some []]), $"char* f()".
  split; [discriminate|]. split; [vm_compute; reflexivity|]. split; [vm_compute; reflexivity|].
  exists {| b_qual := [$"const"]; b_name := $"char" |}, {| b_qual := []; b_name := $"char" |}, (DNode [] None [[]] (Named false $"f") (Some []) []). eexists _, _.
  split; [vm_compute; reflexivity|]. split; [vm_compute; reflexivity|]. split; vm_compute; reflexivity.
Qed.
Print Assumptions c101_qualifiers_refuted.
(** [int f(int a = 1)] and [int f(int a = 2)] have the same text. *)
Theorem c101_default_refuted : exists n params params' text,
  params <> params' /\ Forall parameter params /\ Forall parameter params'
  /\ pretty_signature (fun _ => []) n (CT (SType int_type) [DFun params] [Some []; Some []]) = Ok text
  /\ pretty_signature (fun _ => []) n (CT (SType int_type) [DFun params'] [Some []; Some []]) = Ok text.
Proof.
  assert (P : forall v, parameter (Some $"a", int_type, v)).
  { intros v. split; [apply pl_type; [apply pl_name|constructor|reflexivity|constructor; [discriminate|constructor]]|]. split; [apply ident_check; vm_compute; reflexivity|discriminate]. }
  exists $"f", [(Some $"a", int_type, Some $"1")], [(Some $"a", int_type, Some $"2")], $"int f(Type('int') a)".
  split; [discriminate|]. split; [constructor; [apply P|constructor]|]. split; [constructor; [apply P|constructor]|]. split; vm_compute; reflexivity.
Qed.
Print Assumptions c101_default_refuted.
(** [int f(int None)] and [int f(int)] have the same text. *)
Theorem c101_none_refuted : exists n params params' text, map (fun p => fst (fst p)) params <> map (fun p => fst (fst p)) params'
  /\ pretty_signature (fun _ => []) n (CT (SType int_type) [DFun params] [Some []; Some []]) = Ok text
  /\ pretty_signature (fun _ => []) n (CT (SType int_type) [DFun params'] [Some []; Some []]) = Ok text.
Proof.
  exists $"f", [(Some $"None", int_type, None)], [(None, int_type, None)], $"int f(Type('int') None)". split; [discriminate|]. split; vm_compute; reflexivity.
Qed.
Print Assumptions c101_none_refuted.
(** [void ( *signal(int))(int)]: TypeError. *)
Theorem c101_raises_refuted : exists b d n t, process_type (fun _ => ONone) b d = Ok (Some n, t) /\ ends_in_tuple t = true
  /\ pretty_signature (fun _ => []) n (add_hack t) = Err TypeError.
Proof.
  exists {| b_qual := []; b_name := $"void" |},
    (DNode [] None [] (Center (DNode [] None [[]] (Named false $"signal") (Some [Arg {| b_qual := []; b_name := $"int" |} (DNode [] None [] (Abstract false) None []) None]) []))
       (Some [Arg {| b_qual := []; b_name := $"int" |} (DNode [] None [] (Abstract false) None []) None]) []), $"signal".
  eexists. split; [vm_compute; reflexivity|]. split; vm_compute; reflexivity.
Qed.
Print Assumptions c101_raises_refuted.
