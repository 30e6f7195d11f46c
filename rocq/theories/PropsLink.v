(** C82-C84: from the tables of headers to the types ctypes is given. *)
From Coq Require Import Ascii String Bool Arith ZArith Lia List.
Import ListNotations.
From Verif Require NestExamples.
From Verif Require Import PyBase PyBaseFacts PyStr PyExpr TypeModel InitModel StoreModel StoreSpec PpModel DeclModel DeclSpec EvalModel
  GramModel GramSpec RunSpec GramRun GramExamples.
From Verif Require Import ExprSpec PropsDecl CtModel LinkModel LinkSpec LinkCall LinkTags LinkEnd LinkExamples.
From Verif Require CtSpec PropsGram TypeSpec.

(** Helpers of the examples: a header with structures that refer to each other, what its text declares and
    the tables behind it. *)
Definition list_h : str := $(
"struct node; struct point { double x, y; };
typedef struct node { struct point at; struct node *next; char name[8]; } node;
node *insert(node *list, const char *text, unsigned long n, int (*visit)(struct node *, void *));
void clear(void);")%string.
Definition nm (n : str) : gdecl := GNode [] None [] (GNamed false n) None [].
Definition pt (n : str) : gdecl := GNode [] None [[]] (GNamed false n) None [].
Definition w (x : str) : gspec := GSpec [] (GWord x).
Definition node_ref : gspec := GSpec [] (GComp CStruct (Some $"node") [] None).
Definition point_ref : gspec := GSpec [] (GComp CStruct (Some $"point") [] None).
Definition abstract : gdecl := GNode [] None [[]] (GAbstract false) None [].
Definition list_forward : gtop := GVar node_ref [] NoInit.
Definition list_point : gtop :=
  GVar (GSpec [] (GComp CStruct (Some $"point") [GLine (w $"double") [nm $"x"; nm $"y"] NoInit None] None)) [] NoInit.
Definition list_node : gtop :=
  GTypedef (GSpec [] (GComp CStruct (Some $"node")
    [GLine point_ref [nm $"at"] NoInit None; GLine node_ref [pt $"next"] NoInit None;
     GLine (w $"char") [GNode [] None [] (GNamed false $"name") None [$"8"]] NoInit None] None)) [nm $"node"].
Definition visit : gdecl :=
  GNode [] None [] (GCenter (pt $"visit")) (Some [GArg node_ref abstract None; GArg (w $"void") abstract None]) [].
Definition insert : gdecl :=
  GNode [] None [[]] (GNamed false $"insert")
    (Some [GArg (w $"node") (pt $"list") None; GArg (GSpec [$"const"] (GWord $"char")) (pt $"text") None;
           GArg (w $"unsigned long") (nm $"n") None; GArg (w $"int") visit None]) [].
Definition list_insert : gtop := GVar (w $"node") [insert] NoInit.
Definition list_clear : gtop :=
  GVar (w $"void") [GNode [] None [] (GNamed false $"clear") (Some [GArg (w $"void") (GNode [] None [] (GAbstract false) None []) None]) []] NoInit.
Definition list_decls : list gtop := [list_forward; list_point; list_node; list_insert; list_clear].
Definition list_s : store entry := match parse_file ev0 base0 [] [] init_store None list_h with Some (s, _) => s | None => init_store end.
Definition words0 : tconf := {| extra_types := []; py312 := false; win32 := false |}.
Definition lib : library := load words0 std_types false list_s.
Definition comps : list (bool * str) := [(false, $"node"); (false, $"point")].
Definition cl0 (n : str) : option nat := if eqb n $"node" then Some 0 else if eqb n $"point" then Some 1 else None.
Lemma list_written : header base0 [] None list_decls list_h.
Proof.
  apply header_check; [|vm_compute; reflexivity|vm_compute; reflexivity|vm_compute; reflexivity|vm_compute; reflexivity].
  unfold list_decls, list_forward, list_point, list_node, list_insert, list_clear, insert, visit, abstract, point_ref, node_ref, w, nm, pt.
  eapply seq_conv; [spell|vm_compute; reflexivity].
Qed.
Lemma usual0 : usual_table std_types.
Proof.
  split; [auto|]. split; [|intros v E; vm_compute in E; congruence].
  intros p n I. unfold TypeSpec.tag_prefixes in I. cbn [In] in I. destruct I as [<-|[<-|[<-|[]]]]; reflexivity.
Qed.
Lemma list_closed : closed words0 std_types list_s (listed comps).
Proof. apply (closed_check words0 std_types list_s comps cl0 []). vm_compute. reflexivity. Qed.
Lemma list_tagged : tagged list_s.
Proof. apply tagged_check_ok. vm_compute. reflexivity. Qed.

(** C82: the types a function is called with, as handed to ctypes, are those of its prototype.
    [represents] is the ctypes type of a C type, [D] are structures and unions that are recorded with all
    they need, and [grown] says what else the request does: it makes classes for structures of [D].
    Missing: arrays of arrays, calling conventions, pointers to function pointers, (void) as the
    parameters of a function pointer, signed and signed char, a variable number of arguments. *)
Theorem c82_call_types_partial :
  forall cf table win s D, closed cf table s D -> tagged s -> usual_table table ->
  let L := load cf table win s in
  forall n u q args r st, defined s Functions n = Some (EFun u) -> read_function u = Some (TFun q args r) ->
  representable cf table s D r -> ~ In (LinkSpec.base_name r) convention_names ->
  (exists cl cs, all_represented cf table s D cl (parameters args) cs) -> ready (l_heap L) st ->
  exists sig fuel c cs st', dget (l_functions L) n = Some sig
    /\ (forall f, fuel <= f -> wrap_types (l_env L) f sig st = (Ok (c, cs), st'))
    /\ represents cf table s D (classes st') r c /\ all_represented cf table s D (classes st') (parameters args) cs
    /\ grown cf table s D st st'.
Proof. exact call_types. Qed.
Print Assumptions c82_call_types_partial.
(** There is but one such type. *)
Theorem c82_one_type :
  forall cf table s D cl t c c', closed cf table s D -> usual_table table ->
  represents cf table s D cl t c -> represents cf table s D cl t c' -> c = c'.
Proof. exact type_unique. Qed.
Print Assumptions c82_one_type.
Example c82_example :
  closed words0 std_types list_s (listed comps) /\ tagged list_s /\ usual_table std_types
  /\ (exists u args, defined list_s Functions $"insert" = Some (EFun u)
        /\ read_function u = Some (TFun [] args (TPtr [] (TBase [] $"node")))
        /\ represents words0 std_types list_s (listed comps) cl0 (TPtr [] (TBase [] $"node")) (PPtr (PClass 0))
        /\ all_represented words0 std_types list_s (listed comps) cl0 (parameters args)
             [PPtr (PClass 0); PBase $"c_char_p"; PBase $"c_ulong";
              PFun false (PBase $"c_int") [PPtr (PClass 0); PBase $"c_void_p"]])
  /\ exists sig st', dget (l_functions lib) $"insert" = Some sig
       /\ wrap_types (l_env lib) 9 sig (CtSpec.start (l_heap lib)) =
          (Ok (PPtr (PClass 0), [PPtr (PClass 0); PBase $"c_char_p"; PBase $"c_ulong";
               PFun false (PBase $"c_int") [PPtr (PClass 0); PBase $"c_void_p"]]), st')
       /\ length (st_classes st') = 2.
Proof.
  split; [exact list_closed|]. split; [exact list_tagged|]. split; [exact usual0|]. split.
  - do 2 eexists. split; [vm_compute; reflexivity|]. split; [vm_compute; reflexivity|]. split.
    + apply (rep_ok words0 std_types list_s comps cl0 20). vm_compute. reflexivity.
    + apply (rep_all_ok words0 std_types list_s comps cl0). vm_compute. reflexivity.
  - do 2 eexists. split; [vm_compute; reflexivity|]. split; [vm_compute; reflexivity|vm_compute; reflexivity].
Qed.

(** False in general.  A callback without parameters cannot be passed at all; and with an array of
    arrays behind a typedef, the functions that use the typedef get different types, though their
    prototypes are the same. *)
Definition lib_of (text : str) : library :=
  load words0 std_types false
    (match parse_file ev0 base0 [] [] init_store None text with Some (s, _) => s | None => init_store end).
Theorem c82_call_types_refuted :
  exists text sig r, let L := lib_of text in
    dget (l_functions L) $"on" = Some sig
    /\ read_function (fill (l_heap L) sig) = Some r
    /\ r = TFun [] [(Some $"f", TPtr [] (TFun [] [(None, TBase [] $"void", None)] (TBase [] $"int")), None)] (TBase [] $"void")
    /\ forall st, fst (wrap_types (l_env L) 9 sig st) = Err TypeError.
Proof.
  exists $"void on(int (*f)(void));". do 2 eexists.
  split; [vm_compute; reflexivity|]. split; [vm_compute; reflexivity|]. split; [vm_compute; reflexivity|].
  intros st. vm_compute. reflexivity.
Qed.
Print Assumptions c82_call_types_refuted.
Theorem c82_same_types_refuted :
  exists text f g r, let L := lib_of text in
    dget (l_functions L) $"f" = Some f /\ dget (l_functions L) $"g" = Some g
    /\ read_function (fill (l_heap L) f) = Some r /\ read_function (fill (l_heap L) g) = Some r
    /\ exists a b st1 st2, wrap_types (l_env L) 9 f (CtSpec.start (l_heap L)) = (Ok a, st1)
         /\ wrap_types (l_env L) 9 g st1 = (Ok b, st2) /\ a <> b.
Proof.
  exists $"typedef int grid[2][3]; void f(grid m); void g(grid m);". do 3 eexists.
  split; [vm_compute; reflexivity|]. split; [vm_compute; reflexivity|]. split; [vm_compute; reflexivity|].
  split; [vm_compute; reflexivity|].
  do 4 eexists. split; [vm_compute; reflexivity|]. split; [vm_compute; reflexivity|]. intros E. discriminate E.
Qed.
Print Assumptions c82_same_types_refuted.

(** C83: the class of a structure or union has the packing and the members of its definition, in the same
    order, with the ctypes types of their types; so has every class made on the way ([grown]).  Anonymous
    members may be nested.
    Missing: as for C82, and bit fields; structures and unions that are anonymous members may not be used
    elsewhere. *)
Theorem c83_classes_partial :
  forall cf table win s D, closed cf table s D -> tagged s -> usual_table table ->
  let L := load cf table win s in
  forall u n st, D u n -> classes st n = None -> ready (l_heap L) st ->
  exists fuel i k st', (forall f, fuel <= f -> get_struct (l_env L) f u n st = (Ok i, st'))
    /\ classes st' n = Some i /\ nth_error (st_classes st') i = Some k /\ class_of cf table s D (classes st') u n k
    /\ grown cf table s D st st'.
Proof. exact class_made. Qed.
Print Assumptions c83_classes_partial.
Example c83_example :
  closed words0 std_types list_s (listed comps) /\ tagged list_s /\ usual_table std_types /\ listed comps false $"node"
  /\ ready (l_heap lib) (CtSpec.start (l_heap lib))
  /\ exists st', get_struct (l_env lib) 9 false $"node" (CtSpec.start (l_heap lib)) = (Ok 0, st')
       /\ map (fun k => option_map (map (fun f => (fd_name f, fd_type f))) (k_fields k)) (st_classes st')
          = [Some [($"at", PClass 1); ($"next", PPtr (PClass 0)); ($"name", PArr (PBase $"c_char") 8)];
             Some [($"x", PBase $"c_double"); ($"y", PBase $"c_double")]].
Proof.
  split; [exact list_closed|]. split; [exact list_tagged|]. split; [exact usual0|]. split; [left; reflexivity|].
  split; [split; [reflexivity|intros n i C; discriminate C]|].
  eexists. split; [vm_compute; reflexivity|]. vm_compute. reflexivity.
Qed.
(** The same with anonymous members inside of each other, one of which refers to the structure it is in. *)
Definition shape_h : str :=
  $"struct shape { int kind; union { struct { double w, h; }; double r; struct shape *next; }; const char *label; };".
Definition shape_s : store entry := match parse_file ev0 base0 [] [] init_store None shape_h with Some (s, _) => s | None => init_store end.
Definition shape_lib : library := load words0 std_types false shape_s.
Definition shapes : list (bool * str) := [(false, $"shape")].
Lemma shape_closed : closed words0 std_types shape_s (listed shapes).
Proof.
  apply (closed_check words0 std_types shape_s shapes (fun _ => Some 0) [(true, $"anon_union0"); (false, $"anon_struct0")]).
  vm_compute. reflexivity.
Qed.
Example c83_anonymous_example :
  closed words0 std_types shape_s (listed shapes) /\ tagged shape_s /\ listed shapes false $"shape"
  /\ exists st', get_struct (l_env shape_lib) 9 false $"shape" (CtSpec.start (l_heap shape_lib)) = (Ok 0, st')
       /\ map (fun k => (k_anon k, option_map (map (fun f => (fd_name f, fd_type f))) (k_fields k))) (st_classes st')
          = [([$"anon_member0"], Some [($"kind", PBase $"c_int"); ($"anon_member0", PClass 1); ($"label", PBase $"c_char_p")]);
             ([$"anon_member0"], Some [($"anon_member0", PClass 2); ($"r", PBase $"c_double"); ($"next", PPtr (PClass 0))]);
             ([], Some [($"w", PBase $"c_double"); ($"h", PBase $"c_double")])].
Proof.
  split; [exact shape_closed|]. split; [apply tagged_check_ok; vm_compute; reflexivity|]. split; [left; reflexivity|].
  eexists. split; [vm_compute; reflexivity|]. vm_compute. reflexivity.
Qed.
(** What is inside of a structure may not be asked for before the structure: the request fails, and the
    structure is left without members. *)
Theorem c83_inner_first_refuted :
  exists text st1, let L := lib_of text in
    (exists st', get_struct (l_env L) 9 false $"shape" (CtSpec.start (l_heap L)) = (Ok 0, st'))
    /\ get_struct (l_env L) 9 true $"anon_union0" (CtSpec.start (l_heap L)) = (Err AttributeError, st1)
    /\ exists i k, get_struct (l_env L) 9 false $"shape" st1 = (Ok i, st1)
         /\ nth_error (st_classes st1) i = Some k /\ k_fields k = None.
Proof.
  exists shape_h. eexists. split; [eexists; vm_compute; reflexivity|]. split; [vm_compute; reflexivity|].
  do 2 eexists. split; [vm_compute; reflexivity|]. split; vm_compute; reflexivity.
Qed.
Print Assumptions c83_inner_first_refuted.

(** C84: every structure and union of a header is found by its tag, whatever else the header declares. *)
Theorem c84_tags :
  forall ev base mods pack l ds text s path s' o, good_config base mods -> (forall n, packing_at l n = pack) ->
  header base mods pack ds text -> parse_file ev base mods l s path text = Some (s', o) -> tagged s -> tagged s'.
Proof. exact header_tagged. Qed.
Print Assumptions c84_tags.
(** And from the text of a header to the types of a call: C73 and C82 together. *)
Theorem c84_from_text_partial :
  forall ev base mods pack l s path text ds1 g ds2,
  good_config base mods -> (forall n, packing_at l n = pack) ->
  header base mods pack (ds1 ++ g :: ds2) text -> Forall harmless (ds1 ++ g :: ds2) -> typed_values s -> tagged s ->
  let tables x := fst (run_tops ev (set_cur s path) (ds1 ++ x)) in
  known_spec ev (tables []) (spec_part g) -> plain_decls g -> stays g ds2 -> is_typedef g = false ->
  exists s' b, parse_file ev base mods l s path text = Some (s', None)
    /\ denotes ev (tables []) s' (spec_part g) b
    /\ forall l1 d l2 n q args r, decls_part g = l1 ++ d :: l2 -> c_name (tree d) = Some n ->
       every c_syntax (tree d) = true -> no_conv_name (tree d) = true ->
       Forall (fun g' => ~ In (Some n) (declared_names g')) ds2 ->
       c_type (eval_text ev (tables [up_to g l1])) (tree d) (DeclSpec.base_type b) = TFun q args r ->
       forall cf table win D, closed cf table s' D -> usual_table table ->
       representable cf table s' D r -> ~ In (LinkSpec.base_name r) convention_names ->
       (exists cl cs, all_represented cf table s' D cl (parameters args) cs) ->
       let L := load cf table win s' in
       forall st, ready (l_heap L) st ->
       exists sig fuel c cs st', dget (l_functions L) n = Some sig
         /\ (forall f, fuel <= f -> wrap_types (l_env L) f sig st = (Ok (c, cs), st'))
         /\ represents cf table s' D (classes st') r c /\ all_represented cf table s' D (classes st') (parameters args) cs
         /\ grown cf table s' D st st'.
Proof. exact header_call. Qed.
Print Assumptions c84_from_text_partial.
Example c84_example :
  header base0 [] None ([list_forward; list_point; list_node] ++ list_insert :: [list_clear]) list_h
  /\ Forall harmless list_decls /\ typed_values (@init_store entry) /\ tagged (@init_store entry)
  /\ known_spec ev0 (fst (run_tops ev0 (set_cur init_store None) [list_forward; list_point; list_node])) (spec_part list_insert)
  /\ plain_decls list_insert /\ stays list_insert [list_clear] /\ is_typedef list_insert = false
  /\ decls_part list_insert = [] ++ insert :: [] /\ c_name (tree insert) = Some $"insert"
  /\ every c_syntax (tree insert) = true /\ no_conv_name (tree insert) = true
  /\ Forall (fun g => ~ In (Some $"insert") (declared_names g)) [list_clear]
  /\ exists args, c_type (eval_text ev0 list_s) (tree insert) (DeclSpec.base_type (spec_of (spec_part list_insert)))
                  = TFun [] args (TPtr [] (TBase [] $"node")) /\ length args = 4.
Proof.
  split; [exact list_written|]. split; [repeat constructor; intros E; try discriminate E; repeat constructor|].
  split; [intros n e []|]. split; [intros u n ms p E; destruct u; discriminate E|]. split; [apply NestExamples.known_plain; vm_compute; reflexivity|].
  split; [split; [repeat constructor|repeat constructor; intros []]|].
  split; [apply NestExamples.stays_check; vm_compute; reflexivity|]. split; [reflexivity|]. split; [reflexivity|]. split; [reflexivity|].
  split; [vm_compute; reflexivity|]. split; [vm_compute; reflexivity|].
  split; [constructor; [intros [E|[]]; vm_compute in E; discriminate E|constructor]|].
  eexists. split; [vm_compute; reflexivity|reflexivity].
Qed.
(** A function with a calling convention is recorded, but cannot be called: wrapping it raises AttributeError. *)
Definition beep_decl : gtop :=
  GVar (w $"int") [GNode [] (Some $"__stdcall") [] (GNamed false $"beep") (Some [GArg (w $"int") (nm $"hz") None]) []] NoInit.
Theorem c84_from_text_refuted :
  exists text g s' sig, header base0 [] None [g] text /\ declared_names g = [Some $"beep"]
    /\ parse_file ev0 base0 [] [] init_store None text = Some (s', None)
    /\ let L := load words0 std_types false s' in
       dget (l_functions L) $"beep" = Some sig /\ forall fuel st, fst (wrap_types (l_env L) fuel sig st) = Err AttributeError.
Proof.
  exists $"int __stdcall beep(int hz);", beep_decl. eexists. eexists. split.
  { apply header_check; [|vm_compute; reflexivity|vm_compute; reflexivity|vm_compute; reflexivity|vm_compute; reflexivity].
    unfold beep_decl, w, nm. eapply seq_conv; [spell|vm_compute; reflexivity]. }
  split; [reflexivity|]. split; [vm_compute; reflexivity|]. split; [vm_compute; reflexivity|]. intros fuel st. reflexivity.
Qed.
Print Assumptions c84_from_text_refuted.
