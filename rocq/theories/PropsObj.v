(** C94: the types, classes, enums and functions of headers as attributes of a library. *)
From Coq Require Import Ascii String Bool Arith ZArith Lia List.
Import ListNotations.
From Verif Require NestExamples.
From Verif Require Import PyBase PyBaseFacts PyStr PyStrFacts PyExpr TypeModel InitModel StoreModel StoreSpec DeclModel DeclSpec EvalModel EvalSpec.
From Verif Require Import GramModel GramSpec RunSpec GramRun.
From Verif Require GramExamples PropsGram PropsLink PropsConst.
From Verif Require Import MacroModel MacroSpec MacroDefProofs PpModel PpSpec TextSpec PropsMacro PropsDecl.
From Verif Require Import FileModel FileSpec PackedSpec FilesSpec PpExamples FileExamples PropsFile PropsPacked.
From Verif Require Import CtModel LinkModel LinkSpec LinkExamples ChainSpec ObjModel ObjSpec ObjProofs ObjChain.
From Verif Require CtSpec LibModel TypeSpec.

(** C94: an attribute of the library, or the item [lib(kind, name)], is the definition the search order
    names (C49), made with the types of C82 and C83: a value, a function with its types, a ctypes type, a class, the
    enumerators.  Every later access about the same thing gives the same object; a structure and its typedefs are one
    class, whichever is asked for first.  A function the shared library does not have is a KeyError.
    Missing: as in C82 and C83; [lib(kind, name)] with a shortened name or with a typedef of a structure. *)
Theorem c94_objects_partial :
  forall cf table win s D prefix exports, closed cf table s D -> tagged s -> enum_tagged s -> usual_table table -> no_clash s prefix ->
  let b := open_with cf table win s prefix exports in
  forall l, Forall (orderly cf table s D prefix) l ->
  exists st, gives (fun f => accesses b f l (opened b)) st /\ forall a k n, about cf table s D prefix a k n ->
    ((k = Functions -> exports n = true) -> obtains cf table s D b st a k n)
    /\ (k = Functions -> exports n = false -> gives (fun f => fst (do_access b f a st)) (Err KeyError)).
Proof. exact obtained. Qed.
Print Assumptions c94_objects_partial.
(** And they are those of the texts of the headers. *)
Theorem c94_library_partial :
  forall fo ext ev base mods sub contents find rs headers s m us, good_config base mods ->
  macro_tables s -> stands_for (macros_of s) m -> typed_values s -> tagged s -> enum_tagged s ->
  Forall2 (resolves contents find) headers (map u_path us) -> Forall (stored sub contents rs) us -> NoDup (map u_path us) ->
  units base mods m us ->
  exists p, parse_headers fo ext ev base mods sub contents find rs headers s = Some (Ok p)
    /\ tagged (p_store p) /\ enum_tagged (p_store p)
    /\ forall us1 f us2 ds1 g ds2, us = us1 ++ f :: us2 -> u_decls f = ds1 ++ g :: ds2 ->
       exists s0 s1, taken ev s us1 s0 /\ same_declarations s0 s1 /\ stands_for (macros_of s1) (u_macros f)
         /\ let tables x := fst (run_tops ev (set_cur s1 (Some (u_path f))) (ds1 ++ x)) in
            known_spec ev (tables []) (spec_part g) -> plain_decls g -> stays g (ds2 ++ flat_map u_decls us2) ->
            exists b, denotes ev (tables []) (p_store p) (spec_part g) b
              /\ forall cf table win D prefix exports, closed cf table (p_store p) D -> usual_table table -> no_clash (p_store p) prefix ->
                 (forall l1 d l2 n a, is_typedef g = true -> decls_part g = l1 ++ d :: l2 -> c_name (tree d) = Some n ->
                    every c_syntax (tree d) = true -> no_conv_name (tree d) = true ->
                    Forall (fun g' => ~ In (Some n) (declared_names g')) (ds2 ++ flat_map u_decls us2) ->
                    about cf table (p_store p) D prefix a Types n ->
                    given cf table win (p_store p) D prefix exports a (fun x ct => exists c, x = VType c
                      /\ represents cf table (p_store p) D (classes ct)
                           (c_type (eval_text ev (tables [up_to g l1])) (tree d) (DeclSpec.base_type b)) c))
                 /\ (forall l1 d l2 n q args r a, is_typedef g = false -> decls_part g = l1 ++ d :: l2 -> c_name (tree d) = Some n ->
                    every c_syntax (tree d) = true -> no_conv_name (tree d) = true ->
                    Forall (fun g' => ~ In (Some n) (declared_names g')) (ds2 ++ flat_map u_decls us2) ->
                    c_type (eval_text ev (tables [up_to g l1])) (tree d) (DeclSpec.base_type b) = TFun q args r ->
                    exports n = true -> about cf table (p_store p) D prefix a Functions n ->
                    given cf table win (p_store p) D prefix exports a (fun x ct => exists c cs, x = VFunction n c cs
                      /\ represents cf table (p_store p) D (classes ct) r c
                      /\ all_represented cf table (p_store p) D (classes ct) (parameters args) cs))
                 /\ (forall q o body n a, spec_part g = GSpec q (GEnum o body) -> refers (spec_part g) = false ->
                    b_name b = tag_name $"enum" n -> about cf table (p_store p) D prefix a Enums n ->
                    given cf table win (p_store p) D prefix exports a (fun x ct => exists vs, x = VEnum vs
                      /\ counts ev (values (tables [])) (ONum (VInt 0)) body vs))
                 /\ (forall q c o body pack n a, spec_part g = GSpec q (GComp c o body pack) -> refers (spec_part g) = false ->
                    b_name b = tag_name (comp_kw c) n -> about cf table (p_store p) D prefix a (comp_kind c) n ->
                    exists v ls, lines_meaning ev (p_store p) (values (tables [])) body v ls /\
                    given cf table win (p_store p) D prefix exports a (fun x ct => exists i fs, x = VType (PClass i)
                      /\ let xs := map snd (declared_all (value_of_text ev v) ls) in
                         nth_error (st_classes ct) i = Some {| k_union := is_union c; k_pack := pack; k_anon := given_names xs fs; k_fields := Some fs |}
                      /\ fields_for cf table (p_store p) D (classes ct) xs fs)).
Proof. exact units_objects. Qed.
Print Assumptions c94_library_partial.

(** Helpers of the examples: checks of the hypotheses, and a header. *)
Section Check.
  Context (cf : tconf) (table : dict str tyval) (s : store entry) (dl : list (bool * str)) (cl : str -> option nat) (prefix : list str).
  Definition comp_in (u : bool) (n : str) : bool := existsb (fun y => Bool.eqb (fst y) u && eqb (snd y) n) dl.
  Definition settled_check (k : kind) (n : str) : bool :=
    match defined s k n with
    | None => true
    | Some e =>
        match k, e with
        | Values, EVal _ => true
        | Functions, EFun u =>
            match read_function u with
            | Some (TFun q args r) =>
                match rep cf table s dl cl 20 r, dir_args (rep cf table s dl cl 20) (parameters args) with
                | Some _, Some _ => negb (mem (base_name r) convention_names)
                | _, _ => false
                end
            | _ => false
            end
        | Types, EType u => match read_type u with Some t => match rep cf table s dl cl 20 t with Some _ => true | None => false end | None => false end
        | Structs, _ => comp_in false n
        | Unions, _ => comp_in true n
        | Enums, EEnum _ => true
        | Variables, _ | Fnmacros, _ | Macros, _ => true
        | _, _ => false
        end
    end.
  Lemma settled_check_ok k n : settled_check k n = true -> settled cf table s (listed dl) k n.
  Proof.
    unfold settled_check. intros C DN. destruct (defined s k n) as [e|] eqn:E; [|contradiction DN; reflexivity].
    assert (M : forall u, comp_in u n = true -> In (u, n) dl).
    { intros u M. unfold comp_in in M. apply existsb_exists in M. destruct M as ((u' & n') & I1 & EQ). cbn [fst snd] in EQ.
      apply andb_true_iff in EQ. destruct EQ as (E1 & E2). apply Bool.eqb_prop in E1. apply eqb_eq in E2. subst. exact I1. }
    destruct k; try exact Logic.I; try (destruct e; try discriminate C; eauto; fail).
    - destruct e as [u| | | | | | |]; try discriminate C. destruct (read_type u) as [t|] eqn:RT; [|discriminate C].
      destruct (rep cf table s dl cl 20 t) as [c|] eqn:R; [|discriminate C]. exists t. unfold typedef_of. rewrite E. split; [exact RT|].
      exists cl, c. exact (rep_ok cf table s dl cl 20 t c R).
    - apply M. exact C.
    - apply M. exact C.
    - destruct e as [u|u|u|u|u|u|u|u]; try discriminate C; destruct (read_function u) as [[| | | |q args r|]|] eqn:RF; try discriminate C.
      destruct (rep cf table s dl cl 20 r) as [c|] eqn:R; [|discriminate C].
      destruct (dir_args (rep cf table s dl cl 20) (parameters args)) as [cs|] eqn:A; [|discriminate C].
      exists args, r, u, q. split; [exact E|]. split; [exact RF|]. split; [exists cl, c; exact (rep_ok cf table s dl cl 20 r c R)|].
      split; [|exists cl, cs; exact (rep_all_ok cf table s dl cl _ _ A)]. apply negb_true_iff, not_true_iff_false in C. intros I1. apply C.
      unfold mem. apply existsb_exists. exists (base_name r). split; [exact I1|apply eqb_refl].
  Qed.
  Definition kinds : list kind := [Types; Variables; Fnmacros; Macros; Structs; Unions; Enums; Functions; Values].
  Lemma attr_check name : forallb (fun k => forallb (settled_check k) (candidates prefix name)) kinds = true ->
    forall k n, In n (candidates prefix name) -> settled cf table s (listed dl) k n.
  Proof.
    intros C k n I1. apply settled_check_ok. rewrite forallb_forall in C. assert (I2 : In k kinds) by (clear; destruct k; cbn; tauto).
    specialize (C k I2). rewrite forallb_forall in C. exact (C n I1).
  Qed.
  Lemma clash_check :
    forallb (fun k => forallb (fun n => forallb (fun p => eqb p [] || negb (mem (p ++ n) (PropsConst.usable_names s k))) prefix) (PropsConst.usable_names s k)) kinds = true ->
    no_clash s prefix.
  Proof.
    assert (U : forall k n, usable s k n -> In n (PropsConst.usable_names s k)).
    { intros k n [H|[_ H]]; apply in_or_app; [left|right]; apply PropsConst.known_cases; exact H. }
    intros C k n p I1 NE U1 U2. apply U in U1, U2. rewrite forallb_forall in C.
    assert (I2 : In k kinds) by (clear; destruct k; cbn; tauto). specialize (C k I2). rewrite forallb_forall in C. specialize (C n U1).
    rewrite forallb_forall in C. specialize (C p I1). apply orb_true_iff in C. destruct C as [C|C]; [apply eqb_eq in C; contradiction|].
    apply negb_true_iff in C. apply not_true_iff_false in C. apply C. unfold mem. apply existsb_exists. exists (p ++ n). split; [exact U2|apply eqb_refl].
  Qed.
End Check.
Definition enum_tagged_check (s : store entry) : bool :=
  forallb (fun n => match defined s Types ($"enum " ++ n) with
                    | Some (EType (CT (SName k) [DStr x] [Some []; Some []])) => eqb k $"enum" && eqb x n
                    | _ => false end) (keys (defs s Enums)).
Lemma enum_tagged_ok s : enum_tagged_check s = true -> enum_tagged s.
Proof.
  intros F n l E. unfold enum_tagged_check in F. rewrite forallb_forall in F. specialize (F n). unfold defined in E.
  assert (I1 : In n (keys (defs s Enums))) by (apply dget_keys; eauto). specialize (F I1).
  destruct (defined s Types ($"enum " ++ n)) as [[[[k|] [|[x| |] [|? ?]] [|[[|? ?]|] [|[[|? ?]|] [|? ?]]]]| | | | | | |]|]; try discriminate F.
  apply andb_true_iff in F. destruct F as [F1 F2]. apply eqb_eq in F1. apply eqb_eq in F2. now subst.
Qed.
Definition api_lines : list str :=
  [$"struct node { int at; struct node *next; };"; $"typedef struct node node_t;"; $"typedef enum mode { OFF, FAST = 4 } mode_t;";
   $"typedef node_t *list_t;"; $"mode_t api_push(list_t l, int n);"].
Definition api_text : str := join [nl] api_lines.
Definition api_decls : list gtop :=
  let w n := GSpec [] (GWord n) in let nm n := GNode [] None [] (GNamed false n) None [] in let pt n := GNode [] None [[]] (GNamed false n) None [] in
  let node := GSpec [] (GComp CStruct (Some $"node") [] None) in
  [GVar (GSpec [] (GComp CStruct (Some $"node") [GLine (w $"int") [nm $"at"] NoInit None; GLine node [pt $"next"] NoInit None] None)) [] NoInit;
   GTypedef node [nm $"node_t"]; GTypedef (GSpec [] (GEnum (Some $"mode") [($"OFF", None); ($"FAST", Some $"4")])) [nm $"mode_t"];
   GTypedef (w $"node_t") [pt $"list_t"];
   GVar (w $"mode_t") [GNode [] None [] (GNamed false $"api_push") (Some [GArg (w $"list_t") (nm $"l") None; GArg (w $"int") (nm $"n") None]) []] NoInit].
Definition api_unit : unit :=
  {| u_path := $"api.h"; u_text := api_text; u_lines := map Put api_lines; u_decls := api_decls; u_macros := no_macros |}.
Definition api_disk (h : str) : option str := if eqb h $"api.h" then Some api_text else None.
Definition read_api : option (res parser) :=
  parse_headers no_fmt no_ext ev0 GramExamples.base0 [] no_sub api_disk (fun _ => None) [] [$"api.h"] init_store.
Definition api_s : store entry := match read_api with Some (Ok p) => p_store p | _ => init_store end.
Definition api_comps : list (bool * str) := [(false, $"node")].
Definition api_cl (n : str) : option nat := if eqb n $"node" then Some 0 else None.
Definition api_D := listed api_comps.
Definition api_exports (n : str) : bool := eqb n $"api_push".
Definition api : clib := open_with PropsLink.words0 std_types false api_s [$"api_"] api_exports.
Lemma api_traced : traced_text no_macros api_text (u_lines api_unit) no_macros.
Proof.
  exists (code api_text), [api_text], (fold_right BLine BNil api_lines).
  split; [vm_compute; reflexivity|]. split; [apply reads_check; vm_compute; reflexivity|]. split; [vm_compute; reflexivity|]. split; [discriminate|].
  split; [constructor; [apply occurs_check; vm_compute; reflexivity|constructor]|]. split; [vm_compute; reflexivity|].
  cbn [fold_right api_lines u_lines api_unit map].
  repeat (apply (tr_line no_macros _ [_] no_macros);
    [apply cpp_text; [vm_compute; reflexivity|apply expands_check; vm_compute; reflexivity|apply cpp_nil]|vm_compute; discriminate
    |intros I1; vm_compute in I1; repeat (destruct I1 as [I1|I1]; [discriminate I1|]); exact I1|]). apply tr_nil.
Qed.
Lemma api_grouped : grouped GramExamples.base0 [] initial (u_lines api_unit) api_decls.
Proof. PropsConst.grouping api_decls. Qed.
Lemma api_closed : closed PropsLink.words0 std_types api_s api_D.
Proof. apply (closed_check PropsLink.words0 std_types api_s api_comps api_cl []). vm_compute. reflexivity. Qed.
Lemma api_attr name : forallb (fun k => forallb (settled_check PropsLink.words0 std_types api_s api_comps api_cl k) (candidates [$"api_"] name)) kinds = true ->
  forall k n, In n (candidates [$"api_"] name) -> settled PropsLink.words0 std_types api_s api_D k n.
Proof. apply attr_check. Qed.
Definition nullb (s : store entry) (k : kind) (n : str) : bool :=
  match defined s k n with None => true | Some (EVal ONone) => eqb k Values | _ => false end.
Lemma nullb_ok s k n : nullb s k n = true -> null s k n.
Proof.
  unfold nullb, null. destruct (defined s k n) as [e|] eqn:E; [|left; reflexivity]. destruct e as [u|u|u|u|u|v|u|u]; try discriminate.
  destruct v; try discriminate. intros K. apply eqb_eq in K. subst k. right. auto.
Qed.
Definition typeb cf table s dl cl (n : str) : bool :=
  match typedef_of s n with Some t => match rep cf table s dl cl 20 t with Some PVoid | None => false | _ => true end | None => false end.
Lemma found_check cf table s dl cl prefix name k n before after b1 a1 : order = before ++ k :: after -> candidates prefix name = b1 ++ n :: a1 ->
  forallb (fun k' => forallb (nullb s k') (candidates prefix name)) before && forallb (fun n' => negb (dmem (defs s k) n')) b1
    && negb (nullb s k n) && (negb (eqb k Types) || typeb cf table s dl cl n) = true ->
  found cf table s (listed dl) prefix name k n.
Proof.
  intros EK EC C. apply andb_true_iff in C. destruct C as (C & C4). apply andb_true_iff in C. destruct C as (C & C3). apply andb_true_iff in C. destruct C as (C1 & C2).
  split; [|split].
  - exists before, after. split; [exact EK|]. intros k' n' I1 I2. apply nullb_ok. rewrite forallb_forall in C1. specialize (C1 k' I1). rewrite forallb_forall in C1. exact (C1 n' I2).
  - exists b1, a1. split; [exact EC|]. intros n' I1. rewrite forallb_forall in C2. specialize (C2 n' I1). apply negb_true_iff in C2. unfold dmem in C2. unfold defined.
    destruct (dget (defs s k) n'); [discriminate C2|reflexivity].
  - split.
    + intros N. apply negb_true_iff in C3. destruct N as [N|(-> & N)]; unfold nullb in C3; rewrite N in C3; discriminate C3.
    + intros ->. cbn [eqb negb orb] in C4. unfold typeb in C4. destruct (typedef_of s n) as [t|] eqn:T; [|discriminate C4].
      destruct (rep cf table s dl cl 20 t) as [c|] eqn:R; [|discriminate C4]. exists t, cl, c. split; [reflexivity|].
      split; [exact (rep_ok cf table s dl cl 20 t c R)|]. intros ->. discriminate C4.
Qed.
Ltac attribute before after b1 a1 := split; [refine (api_attr _ _); vm_compute; reflexivity|
  apply (found_check PropsLink.words0 std_types api_s api_comps api_cl _ _ _ _ before after b1 a1); [reflexivity|reflexivity|vm_compute; reflexivity]].
Lemma api_alias : enum_alias PropsLink.words0 api_s $"mode_t" $"mode".
Proof.
  split; [exists []; apply (expand_ok PropsLink.words0 api_s 20); vm_compute; reflexivity|].
  assert (ID : TypeSpec.identifier $"mode" /\ $"mode" <> $"signed") by (apply LinkExamples.identb_ok; vm_compute; reflexivity).
  split; [exact (proj1 ID)|]. split; [exact (proj2 ID)|]. split; [vm_compute; discriminate|]. split; [vm_compute; reflexivity|].
  eexists. vm_compute. reflexivity.
Qed.
Example c94_example :
  let cf := PropsLink.words0 in let pre := [$"api_"] in
  closed cf std_types api_s api_D /\ tagged api_s /\ enum_tagged api_s /\ usual_table std_types /\ no_clash api_s pre
  /\ Forall (orderly cf std_types api_s api_D pre) [LibModel.Attr $"list_t"; LibModel.Call Enums $"mode_t"; LibModel.Attr $"other"; LibModel.Call Types $"other"]
  /\ about cf std_types api_s api_D pre (LibModel.Attr $"node_t") Types $"node_t"
  /\ about cf std_types api_s api_D pre (LibModel.Attr $"node") Structs $"node"
  /\ about cf std_types api_s api_D pre (LibModel.Call Structs $"node") Structs $"node"
  /\ about cf std_types api_s api_D pre (LibModel.Attr $"push") Functions $"api_push" /\ api_exports $"api_push" = true
  /\ about cf std_types api_s api_D pre (LibModel.Call Enums $"mode_t") Enums $"mode_t"
  /\ same_thing cf api_s api_D Types $"node_t" Structs $"node"
  /\ (let st := accesses api 20 [LibModel.Attr $"list_t"; LibModel.Call Enums $"mode_t"] (opened api) in
      map (fun a => fst (do_access api 20 a st))
        [LibModel.Attr $"node_t"; LibModel.Attr $"node"; LibModel.Attr $"list_t"; LibModel.Attr $"push"; LibModel.Call Enums $"mode_t"; LibModel.Attr $"FAST"; LibModel.Attr $"other"]
      = [Ok (VType (PClass 0)); Ok (VType (PClass 0)); Ok (VType (PPtr (PClass 0))); Ok (VFunction $"api_push" (PBase $"c_int") [PPtr (PClass 0); PBase $"c_int"]);
         Ok (VEnum [($"OFF", ONum (VInt 0)); ($"FAST", ONum (VInt 4))]); Ok (VValue (ONum (VInt 4))); Err NameError]).
Proof.
  cbv zeta. split; [exact api_closed|]. split; [apply tagged_check_ok; vm_compute; reflexivity|]. split; [apply enum_tagged_ok; vm_compute; reflexivity|].
  split; [exact PropsLink.usual0|]. split; [apply clash_check; vm_compute; reflexivity|].
  assert (ST : forall k n, settled_check PropsLink.words0 std_types api_s api_comps api_cl k n = true -> settled PropsLink.words0 std_types api_s api_D k n)
    by (intros k n; apply settled_check_ok).
  split.
  { constructor; [refine (api_attr _ _); vm_compute; reflexivity|].
    constructor; [left; split; [split; [cbn; tauto|right; split; [reflexivity|exists $"mode"; exact api_alias]]|apply ST; vm_compute; reflexivity]|].
    constructor; [refine (api_attr _ _); vm_compute; reflexivity|].
    constructor; [|constructor]. right. split; [cbn; tauto|]. intros m [<-|[<-|[]]] [U|[U _]]; try (vm_compute in U; apply U; reflexivity);
      cbn [In] in U; repeat (destruct U as [U|U]; [discriminate U|]); exact U. }
  split; [attribute [Values; Functions] [Structs; Unions; Enums] (@nil str) [$"api_node_t"]|].
  split; [attribute [Values; Functions; Types] [Unions; Enums] (@nil str) [$"api_node"]|].
  split; [split; [reflexivity|]; split; [reflexivity|]; split; [split; [cbn; tauto|left; vm_compute; discriminate]|apply ST; vm_compute; reflexivity]|].
  split; [attribute [Values] [Types; Structs; Unions; Enums] [$"push"] (@nil str)|]. split; [reflexivity|].
  split; [split; [reflexivity|]; split; [reflexivity|]; split; [split; [cbn; tauto|right; split; [reflexivity|exists $"mode"; exact api_alias]]|apply ST; vm_compute; reflexivity]|].
  split; [apply (sm_tag PropsLink.words0 api_s api_D $"node_t" (TBase [] $"struct node") [] false $"node");
    [vm_compute; reflexivity|apply (expand_ok PropsLink.words0 api_s 20); vm_compute; reflexivity|left; reflexivity]|].
  vm_compute. reflexivity.
Qed.
Example c94_library_example :
  macro_tables (@init_store entry) /\ stands_for (macros_of init_store) no_macros /\ typed_values (@init_store entry)
  /\ tagged (@init_store entry) /\ enum_tagged (@init_store entry)
  /\ Forall2 (resolves api_disk (fun _ => None)) [$"api.h"] (map u_path [api_unit])
  /\ Forall (stored no_sub api_disk []) [api_unit] /\ NoDup (map u_path [api_unit]) /\ units GramExamples.base0 [] no_macros [api_unit]
  /\ exists ds1 g ds2, api_decls = ds1 ++ g :: ds2 /\ g = GTypedef (GSpec [] (GWord $"node_t")) [GNode [] None [[]] (GNamed false $"list_t") None []]
     /\ known_spec ev0 api_s (spec_part g) /\ plain_decls g /\ stays g (ds2 ++ flat_map u_decls [])
     /\ Forall (fun g' => ~ In (Some $"list_t") (declared_names g')) (ds2 ++ flat_map u_decls [])
     /\ closed PropsLink.words0 std_types api_s api_D /\ no_clash api_s [$"api_"]
     /\ about PropsLink.words0 std_types api_s api_D [$"api_"] (LibModel.Attr $"list_t") Types $"list_t"
     /\ represents PropsLink.words0 std_types api_s api_D api_cl (TPtr [] (TBase [] $"node_t")) (PPtr (PClass 0)).
Proof.
  split; [apply init_tables|]. split; [apply init_tables|]. split; [intros n e []|]. split; [intros u n ms p E; destruct u; discriminate E|].
  split; [intros n l E; discriminate E|]. split; [constructor; [reflexivity|constructor]|].
  split; [constructor; [eexists; split; reflexivity|constructor]|]. split; [constructor; [intros []|constructor]|].
  split.
  { split; [exact api_traced|]. split; [exact Logic.I|]. split; [exact api_grouped|]. split; [apply aligned_check; vm_compute; reflexivity|].
    split; [|exact Logic.I]. repeat constructor; intros E; discriminate E. }
  exists (firstn 3 api_decls). do 2 eexists. split; [reflexivity|]. split; [reflexivity|]. split; [apply NestExamples.known_plain; vm_compute; reflexivity|].
  split; [repeat constructor; intros []|]. split; [apply NestExamples.stays_check; vm_compute; reflexivity|].
  split; [constructor; [|constructor]; cbn; intros [E|[]]; discriminate E|]. split; [exact api_closed|]. split; [apply clash_check; vm_compute; reflexivity|].
  split; [attribute [Values; Functions] [Structs; Unions; Enums] (@nil str) [$"api_list_t"]|].
  apply (rep_ok PropsLink.words0 std_types api_s api_comps api_cl 20). vm_compute. reflexivity.
Qed.

(** Another name for void cannot be reached as an attribute: the backend has None for it, and the search goes on. *)
Theorem c94_void_refuted :
  exists text n, RunSpec.header GramExamples.base0 [] None [GTypedef (GSpec [] (GWord $"void")) [GNode [] None [] (GNamed false n) None []]] text
    /\ let s := read_header $"a.h" text in let b := open_with PropsLink.words0 std_types false s [] (fun _ => true) in
       typedef_of s n = Some (TBase [] $"void") /\ represents PropsLink.words0 std_types s (fun _ _ => False) (fun _ => None) (TBase [] $"void") PVoid
       /\ forall fuel, fst (do_access b (S (S fuel)) (LibModel.Attr n) (opened b)) = Err NameError.
Proof.
  exists $"typedef void nothing;", $"nothing". split.
  - apply GramExamples.header_check; [|vm_compute; reflexivity|vm_compute; reflexivity|vm_compute; reflexivity|vm_compute; reflexivity].
    eapply GramExamples.seq_conv; [GramExamples.spell|vm_compute; reflexivity].
  - cbv zeta. split; [vm_compute; reflexivity|]. split; [|intros fuel; vm_compute; reflexivity].
    apply (re_type _ _ _ _ _ (TBase [] $"void") (TBase [] $"void")); [|apply di_base; apply ob_void].
    apply (expand_ok PropsLink.words0 _ 0). vm_compute. reflexivity.
Qed.
Print Assumptions c94_void_refuted.
