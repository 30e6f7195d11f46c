(** C71-C75: headers, from the text to the tables. *)
From Coq Require Import Ascii String Bool Arith ZArith Lia List.
Import ListNotations.
From Verif Require Import PyBase PyBaseFacts PyStr PyExpr TypeModel StoreModel StoreSpec PpModel DeclModel DeclSpec EvalModel
  GramModel GramSpec GramTotal GramTabs RunSpec GramRun GramExamples NestExamples.
From Verif Require Import ExprSpec PropsDecl.

(** Helpers of the examples: the declarations of [header0]. *)
Definition name_decl (n : str) : gdecl := GNode [] None [] (GNamed false n) None [].
Definition words (w : str) : gspec := GSpec [] (GWord w).
Definition point_ref : gspec := GSpec [] (GComp CStruct (Some $"point") [] None).
Definition body_point : list gline :=
  [GLine (words $"int") [name_decl $"x"; name_decl $"y"] NoInit None;
   GLine (words $"unsigned") [] NoInit (Some $"3")].
Definition top_point : gtop :=
  GTypedef (GSpec [] (GComp CStruct (Some $"point") body_point None)) [name_decl $"point"].
Definition top_color : gtop :=
  GVar (GSpec [] (GEnum (Some $"color") [($"RED", None); ($"GREEN", Some $"5"); ($"BLUE", None)])) [] NoInit.
Definition top_name : gtop :=
  GVar (GSpec [$"const"] (GWord $"char"))
    [GNode [] None [[]] (GNamed false $"name")
       (Some [GArg point_ref (GNode [] None [[]] (GNamed false $"p") None []) None;
              GArg (words $"int") (GNode [] None [] (GNamed false $"n") None [$"GREEN"]) None]) []] NoInit.
Definition body_line : list gline :=
  [GLine (words $"point") [name_decl $"from"] NoInit None;
   GLine (words $"point") [GNode [] None [] (GNamed false $"to") None [$"2"]] NoInit None].
Definition top_line : gtop :=
  GTypedef (GSpec [] (GComp CStruct None body_line None)) [name_decl $"line"].
Definition handler : gdecl :=
  GNode [] None [] (GCenter (GNode [] None [[]] (GNamed false $"handler") None []))
    (Some [GArg (words $"int") (GNode [] None [] (GAbstract false) None []) None]) [].
Definition top_count : gtop := GVar (words $"int") [handler; name_decl $"count"] (IVal $"BLUE").
Definition decls0 : list gtop := [top_point; top_color; top_name; top_line; top_count].
Lemma good0 : good_config base0 [].
Proof. apply good_config_check; reflexivity. Qed.
Lemma header0_written : header base0 [] None decls0 header0.
Proof.
  apply header_check; [|vm_compute; reflexivity|vm_compute; reflexivity|vm_compute; reflexivity|vm_compute; reflexivity].
  unfold decls0, top_point, top_color, top_name, top_line, top_count, handler, body_point, body_line, words, point_ref, name_decl.
  eapply seq_conv; [spell|vm_compute; reflexivity].
Qed.
(** A second layout of the same declarations. *)
Definition header1 : str := $(
"typedef struct point{int x,y;unsigned:3;}point;enum color{RED," ++ nl1 ++
"GREEN" ++ nl1 ++ "=5,BLUE};const char*name(struct" ++ nl1 ++ "point*p,int n[ GREEN ]);" ++
"typedef struct{point from;point to[2];}line;int(*handler)(int),count=BLUE;")%string.
Lemma header1_written : header base0 [] None decls0 header1.
Proof.
  apply header_check; [|vm_compute; reflexivity|vm_compute; reflexivity|vm_compute; reflexivity|vm_compute; reflexivity].
  unfold decls0, top_point, top_color, top_name, top_line, top_count, handler, body_point, body_line, words, point_ref, name_decl.
  eapply seq_conv; [spell|vm_compute; reflexivity].
Qed.

(** C71: the parser reads every text to its end, whatever it contains: no recursion of the
    grammar goes on for ever. *)
Theorem c71_ends :
  forall ev base mods l s path text, ~ In [] base -> ~ In [] mods ->
  exists r, parse_file ev base mods l s path text = Some r.
Proof. exact parse_file_total. Qed.
Print Assumptions c71_ends.
Example c71_example : ~ In [] base0
  /\ exists s, parse_file ev0 base0 [] [] init_store None $"struct { (((( int * const x[ 3 = { ; typedef ) unsigned y;" = Some (s, None)
       /\ map fst (defs s Variables) = [$"y"].
Proof.
  split; [intros H; repeat (destruct H as [H|H]; [discriminate H|]); exact H|]. eexists. split; [vm_compute; reflexivity|vm_compute; reflexivity].
Qed.

(** C72: a header of supported declarations is read as these declarations, whatever its layout;
    no text can be understood in two ways, and two layouts of the same declarations have the
    same effect. *)
Theorem c72_declarations :
  forall base mods pack l ds text, good_config base mods -> (forall n, packing_at l n = pack) ->
  header base mods pack ds text -> parse_defs base mods l text = Some ds.
Proof. exact parse_header_defs. Qed.
Print Assumptions c72_declarations.
Theorem c72_one_reading :
  forall base mods pack ds ds' text, good_config base mods ->
  header base mods pack ds text -> header base mods pack ds' text -> ds = ds'.
Proof. exact header_unique. Qed.
Print Assumptions c72_one_reading.
Theorem c72_layout :
  forall ev base mods pack l l' ds text text' s path, good_config base mods ->
  (forall n, packing_at l n = pack) -> (forall n, packing_at l' n = pack) ->
  header base mods pack ds text -> header base mods pack ds text' ->
  parse_file ev base mods l s path text = parse_file ev base mods l' s path text'.
Proof. exact layout_free. Qed.
Print Assumptions c72_layout.
Example c72_example : good_config base0 [] /\ header base0 [] None decls0 header0 /\ header base0 [] None decls0 header1
  /\ header0 <> header1 /\ (forall n, packing_at [] n = None).
Proof.
  split; [exact good0|]. split; [exact header0_written|]. split; [exact header1_written|]. split; [|reflexivity].
  intros E. assert (X : length header0 = length header1) by (rewrite E; reflexivity). vm_compute in X. discriminate X.
Qed.

(** C73: every declaration of a header is recorded with the type C gives it, and what its
    specifier defines as well, unless the name is declared again.  The headers are those of
    C72; excluded are typedefs with the declarators of C40.  [tables x]: the tables when the
    declarations [ds1] and [x] have been read. *)
Theorem c73_recorded_partial :
  forall ev base mods pack l s path text ds1 g ds2,
  good_config base mods -> (forall n, packing_at l n = pack) ->
  header base mods pack (ds1 ++ g :: ds2) text -> Forall harmless (ds1 ++ g :: ds2) -> typed_values s ->
  let tables x := fst (run_tops ev (set_cur s path) (ds1 ++ x)) in
  known_spec ev (tables []) (spec_part g) -> plain_decls g -> stays g ds2 ->
  exists s' b, parse_file ev base mods l s path text = Some (s', None)
    /\ denotes ev (tables []) s' (spec_part g) b
    /\ forall l1 d l2 n, decls_part g = l1 ++ d :: l2 -> c_name (tree d) = Some n ->
       every c_syntax (tree d) = true -> no_conv_name (tree d) = true ->
       Forall (fun g' => ~ In (Some n) (declared_names g')) ds2 ->
       declared_as ev (tables [up_to g []]) s' g l2 n
         (c_type (eval_text ev (tables [up_to g l1])) (tree d) (base_type b)).
Proof. exact declaration_recorded. Qed.
Print Assumptions c73_recorded_partial.
(** Prototypes of C that are not recorded: a variable number of arguments, a parameter that is
    a function pointer without a name, a name that begins with two underscores. *)
Theorem c73_prototypes_refuted :
  exists texts, length texts = 3
    /\ Forall (fun text => exists s, parse_file ev0 base0 [] [] init_store None text = Some (s, None)
                                     /\ defs s Functions = [] /\ defs s Variables = []) texts.
Proof.
  exists [$"int g(int, ...);"; $"int g(int (*)(int));"; $"int __g(int);"]. split; [reflexivity|].
  repeat constructor; eexists; (split; [vm_compute; reflexivity|split; vm_compute; reflexivity]).
Qed.
Print Assumptions c73_prototypes_refuted.
(** Nor is a declaration with two initialisers. *)
Theorem c73_initialisers_refuted :
  exists s, parse_file ev0 base0 [] [] init_store None $"int x = 5, y = 6;" = Some (s, None)
    /\ defs s Variables = [].
Proof. eexists. split; [vm_compute; reflexivity|vm_compute; reflexivity]. Qed.
Print Assumptions c73_initialisers_refuted.
Lemma harmless0 : Forall harmless decls0.
Proof. repeat constructor; intros E; try discriminate E; repeat constructor. Qed.
(** The hypotheses for each of the five declarations of [header0]. *)
Definition tables0 (l : list gtop) : store entry := fst (run_tops ev0 (set_cur init_store None) l).
Example c73_example :
  Forall (fun x => decls0 = fst (fst x) ++ snd (fst x) :: snd x
                   /\ known_spec ev0 (tables0 (fst (fst x))) (spec_part (snd (fst x)))
                   /\ plain_decls (snd (fst x)) /\ stays (snd (fst x)) (snd x))
    [([], top_point, [top_color; top_name; top_line; top_count]);
     ([top_point], top_color, [top_name; top_line; top_count]);
     ([top_point; top_color], top_name, [top_line; top_count]);
     ([top_point; top_color; top_name], top_line, [top_count]);
     ([top_point; top_color; top_name; top_line], top_count, [])]
  /\ Forall harmless decls0 /\ typed_values (@init_store entry)
  /\ exists s, parse_file ev0 base0 [] [] init_store None header0 = Some (s, None)
       /\ map fst (defs s Functions) = [$"name"] /\ map fst (defs s Variables) = [$"handler"; $"count"]
       /\ map fst (defs s Structs) = [$"point"; $"anon_struct0"] /\ map fst (defs s Enums) = [$"color"]
       /\ map fst (defs s Types) = [$"struct point"; $"point"; $"enum color"; $"struct anon_struct0"; $"line"]
       /\ match defined s Functions $"name" with
          | Some (EFun u) =>
              read_function u = Some (TFun [] [(Some $"p", TPtr [] (TBase [] $"struct point"), None);
                                               (Some $"n", TArr [] (ONum (VInt 5)) (TBase [] $"int"), None)]
                                           (TPtr [] (TBase [$"const"] $"char")))
          | _ => False
          end
       /\ match defined s Variables $"count" with
          | Some (EVar v u) => v = ONum (VInt 6) /\ read_type u = Some (TBase [] $"int")
          | _ => False
          end.
Proof.
  split; [|split; [exact harmless0|split; [intros n e []|]]].
  - constructor; [|constructor; [|constructor; [|constructor; [|constructor; [|constructor]]]]]; cbn [fst snd];
      (split; [reflexivity|split; [|split; [split; [repeat constructor|]|]]]).
    + apply known_plain; vm_compute; reflexivity.
    + repeat constructor. intros [].
    + apply stays_check. vm_compute. reflexivity.
    + eapply known_check; [|vm_compute; reflexivity|vm_compute; reflexivity].
      apply ps_enum; [discriminate|repeat (constructor; [cbn; intuition discriminate|]); constructor|].
      eapply counts_next; [vm_compute; reflexivity|]. eapply counts_given; [vm_compute; reflexivity|vm_compute; reflexivity|].
      eapply counts_next; [vm_compute; reflexivity|]. apply counts_end.
    + constructor.
    + apply stays_check. vm_compute. reflexivity.
    + apply known_plain; vm_compute; reflexivity.
    + repeat constructor. intros [].
    + apply stays_check. vm_compute. reflexivity.
    + apply known_plain; vm_compute; reflexivity.
    + repeat constructor. intros [].
    + apply stays_check. vm_compute. reflexivity.
    + apply known_plain; vm_compute; reflexivity.
    + cbn. constructor; [intros [E|[]]; discriminate E|constructor; [intros []|constructor]].
    + apply stays_check. vm_compute. reflexivity.
  - eexists. split; [vm_compute; reflexivity|]. repeat split; vm_compute; reflexivity.
Qed.

(** Definitions inside of definitions: an enum, a union and a structure without names, and one
    with a name; the length of an array is one of the enumerators. *)
Example c73_nested_example :
  header base0 [] None [top_shape; top_edge] shape_h /\ Forall harmless [top_shape; top_edge]
  /\ known_spec ev0 (tables0 []) (spec_part top_shape) /\ plain_decls top_shape /\ stays top_shape [top_edge]
  /\ exists s b, parse_file ev0 base0 [] [] init_store None shape_h = Some (s, None)
       /\ denotes ev0 (tables0 []) s (spec_part top_shape) b
       /\ map fst (defs s Structs) = [$"anon_struct0"; $"shape"; $"edge"] /\ map fst (defs s Unions) = [$"anon_union0"]
       /\ defined s Enums $"kind" = Some (EEnum [($"BOX", ONum (VInt 3)); ($"ROUND", ONum (VInt 4))])
       /\ match defined s Structs $"anon_struct0" with
          | Some (EComp ms _) => map (fun m => (m_name m, read_type (m_type m))) ms
              = [(Some $"w", Some (TArr [] (ONum (VInt 4)) (TBase [] $"double"))); (Some $"h", Some (TBase [] $"double"))]
          | _ => False
          end
       /\ match defined s Structs $"shape" with
          | Some (EComp ms _) => map (fun m => (m_name m, read_type (m_type m))) ms
              = [(Some $"kind", Some (TBase [] $"enum kind")); (None, Some (TBase [] $"union anon_union0"));
                 (Some $"first", Some (TBase [] $"struct edge")); (Some $"rest", Some (TPtr [] (TBase [] $"struct edge")))]
          | _ => False
          end
       /\ match defined s Unions $"anon_union0" with
          | Some (EComp ms _) => map (fun m => (m_name m, read_type (m_type m))) ms
              = [(None, Some (TBase [] $"struct anon_struct0")); (Some $"r", Some (TBase [] $"double"));
                 (Some $"next", Some (TPtr [] (TBase [] $"struct shape")))]
          | _ => False
          end.
Proof.
  assert (KS : known_spec ev0 (tables0 []) (spec_part top_shape)) by (eapply known_check; [apply shape_plain; vm_compute; reflexivity|vm_compute; reflexivity|vm_compute; reflexivity]).
  assert (HL : Forall harmless [top_shape; top_edge]) by (repeat constructor; intros E; try discriminate E; repeat constructor).
  assert (PD : plain_decls top_shape) by (split; constructor).
  assert (ST : stays top_shape [top_edge]) by (apply stays_check; vm_compute; reflexivity).
  split; [exact shape_written|]. split; [exact HL|]. split; [exact KS|]. split; [exact PD|]. split; [exact ST|].
  destruct (c73_recorded_partial ev0 base0 [] None [] init_store None shape_h [] top_shape [top_edge] good0 (fun n => eq_refl) shape_written HL
    ltac:(intros n e []) KS PD ST) as (s & b & E & DE & _). exists s, b. split; [exact E|]. split; [exact DE|].
  revert E. generalize s. clear. intros s E. vm_compute in E. injection E as <-. repeat split; vm_compute; reflexivity.
Qed.

(** C74: reading a header records nothing but the names it declares or defines.  Proved for
    headers of supported declarations; [mentions k n ds]: the declarations [ds] may add [n] to
    the table [k]. *)
Theorem c74_nothing_else_partial :
  forall ev base mods pack l s path text ds s' o,
  good_config base mods -> (forall n, packing_at l n = pack) -> header base mods pack ds text ->
  parse_file ev base mods l s path text = Some (s', o) ->
  forall k n, ~ mentions k n ds -> defined s' k n = defined s k n.
Proof. exact nothing_else. Qed.
Print Assumptions c74_nothing_else_partial.
(** A local variable of a function whose prototype is not supported, and a member of a
    structure that is not supported, are recorded as global variables. *)
Theorem c74_nothing_else_refuted :
  exists s1 s2,
    parse_file ev0 base0 [] [] init_store None $"int g(int, ...) { int x; x = 3; }" = Some (s1, None)
    /\ map fst (defs s1 Variables) = [$"x"] /\ defs s1 Functions = []
    /\ parse_file ev0 base0 [] [] init_store None $"struct s { int x; int f(int, ...); };" = Some (s2, None)
    /\ map fst (defs s2 Variables) = [$"x"] /\ defs s2 Structs = [].
Proof. do 2 eexists. split; [vm_compute; reflexivity|]. split; [reflexivity|]. split; [reflexivity|]. split; [vm_compute; reflexivity|]. split; reflexivity. Qed.
Print Assumptions c74_nothing_else_refuted.
Example c74_example : ~ mentions Variables $"x" decls0 /\ ~ mentions Functions $"handler" [top_point; top_color; top_name]
  /\ ~ mentions Structs $"line" decls0 /\ mentions Values $"GREEN" decls0.
Proof.
  split; [|split; [|split]].
  - intros (g & I1 & I2). repeat (destruct I1 as [<-|I1]; [vm_compute in I2; intuition discriminate|]). contradiction.
  - intros (g & I1 & I2). repeat (destruct I1 as [<-|I1]; [vm_compute in I2; intuition discriminate|]). contradiction.
  - intros [(l & p & I1)|E]; [|discriminate E]. cbn in I1. repeat (destruct I1 as [E|I1]; [discriminate E|]). exact I1.
  - right. do 2 eexists. split; [right; right; right; left; reflexivity|cbn; auto].
Qed.

(** C75: the length of an array is computed from the expression in the text, token for token
    but for the suffixes of numbers.  Proved for the expressions of [sp_expr]. *)
Theorem c75_expressions_partial :
  forall base mods w n o ts text, good_config base mods ->
  In w base -> plain_name base mods n -> sp_expr base mods o ts ->
  (forall t, In t ts -> ~ In PyStr.tab t) ->
  written (w :: n :: $"[" :: ts ++ [$"]"; $";"]) text ->
  parse_defs base mods [] text =
    Some [GVar (GSpec [] (GWord w)) [GNode [] None [] (GNamed false n) None [join [sp] o]] NoInit].
Proof. exact array_length. Qed.
Print Assumptions c75_expressions_partial.
(** A name in parentheses is taken for a cast and dropped. *)
Theorem c75_parentheses_refuted :
  parse_defs base0 [] [] $"int a[(N) + 1];"
    = Some [GVar (words $"int") [GNode [] None [] (GNamed false $"a") None [$"+ 1"]] NoInit]
  /\ exists s u, parse_file ev0 base0 [] [] init_store None $"enum { N = 5 }; int a[(N) + 1];" = Some (s, None)
       /\ defined s Values $"N" = Some (EVal (ONum (VInt 5)))
       /\ defined s Variables $"a" = Some (EVar ONone u)
       /\ read_type u = Some (TArr [] (ONum (VInt 1)) (TBase [] $"int")).
Proof.
  split; [vm_compute; reflexivity|]. do 2 eexists. split; [vm_compute; reflexivity|]. split; [vm_compute; reflexivity|].
  split; [vm_compute; reflexivity|vm_compute; reflexivity].
Qed.
Print Assumptions c75_parentheses_refuted.
(** The commas between the arguments of a call are lost. *)
Theorem c75_calls_refuted : exists ts text e,
  written ($"int" :: $"a" :: $"[" :: ts ++ [$"]"; $";"]) text
  /\ parse_defs base0 [] [] text = Some [GVar (words $"int") [GNode [] None [] (GNamed false $"a") None [e]] NoInit]
  /\ e = $"f ( 1 2 )" /\ join [sp] ts = $"f ( 1 , 2 )".
Proof.
  exists [$"f"; $"("; $"1"; $","; $"2"; $")"], $"int a[f(1, 2)];", $"f ( 1 2 )". split; [|split; [vm_compute; reflexivity|split; reflexivity]].
  change $"int a[f(1, 2)];" with
    (flat_map (fun x => fst x ++ snd x) (fst (split_all $"int a[f(1, 2)];")) ++ snd (split_all $"int a[f(1, 2)];")).
  change ($"int" :: $"a" :: $"[" :: [$"f"; $"("; $"1"; $","; $"2"; $")"] ++ [$"]"; $";"]) with
    (map snd (fst (split_all $"int a[f(1, 2)];"))).
  apply lay_check; [reflexivity|vm_compute; reflexivity].
Qed.
Print Assumptions c75_calls_refuted.
(** With an index; the call is outside [sp_expr]. *)
Example c75_index :
  sp_expr base0 [] [$"-"; $"b"; $"["; $"2"; $"]"] [$"-"; $"b"; $"["; $"2UL"; $"]"]
  /\ parse_defs base0 [] [] $"int a[-b[2UL] + f(N)];"
    = Some [GVar (words $"int") [GNode [] None [] (GNamed false $"a") None [$"- b [ 2 ] + f ( N )"]] NoInit].
Proof.
  split; [|vm_compute; reflexivity].
  apply sp_single. apply (sp_unary base0 [] [$"-"] [$"b"; $"["; $"2"; $"]"] [$"b"; $"["; $"2UL"; $"]"]); [constructor; [left; reflexivity|constructor]|].
  apply (sp_index base0 [] $"b" [$"2"] [$"2UL"]); [apply operand_check; reflexivity|].
  apply sp_single. apply (sp_unary base0 [] [] [$"2"] [$"2UL"]); [constructor|]. apply sp_num. split; [left; split; [discriminate|reflexivity]|].
  exists $"UL". split; reflexivity.
Qed.
Example c75_example :
  sp_expr base0 [] [$"N"; $"*"; $"("; $"N"; $"+"; $"10"; $")"] [$"N"; $"*"; $"("; $"N"; $"+"; $"10UL"; $")"]
  /\ written [$"int"; $"a"; $"["; $"N"; $"*"; $"("; $"N"; $"+"; $"10UL"; $")"; $"]"; $";"] $"int a [N*( N +10UL)];".
Proof.
  split.
  - apply (sp_binary base0 [] [$"N"] [$"N"] $"*" [$"("; $"N"; $"+"; $"10"; $")"] [$"("; $"N"; $"+"; $"10UL"; $")"]);
      [apply (sp_unary base0 [] [] [$"N"] [$"N"]); [constructor|apply sp_name; apply operand_check; reflexivity]|cbn; auto 10|].
    apply sp_single. apply (sp_unary base0 [] [] [$"("; $"N"; $"+"; $"10"; $")"] [$"("; $"N"; $"+"; $"10UL"; $")"]); [constructor|].
    apply (sp_paren base0 [] [$"N"; $"+"; $"10"] [$"N"; $"+"; $"10UL"]); [|intros n _ E; discriminate E].
    apply (sp_binary base0 [] [$"N"] [$"N"] $"+" [$"10"] [$"10UL"]);
      [apply (sp_unary base0 [] [] [$"N"] [$"N"]); [constructor|apply sp_name; apply operand_check; reflexivity]|cbn; auto 10|].
    apply sp_single. apply (sp_unary base0 [] [] [$"10"] [$"10UL"]); [constructor|]. apply sp_num. split; [left; split; [discriminate|reflexivity]|].
    exists $"UL". split; reflexivity.
  - change $"int a [N*( N +10UL)];" with
      (flat_map (fun x => fst x ++ snd x) (fst (split_all $"int a [N*( N +10UL)];")) ++ snd (split_all $"int a [N*( N +10UL)];")).
    change [$"int"; $"a"; $"["; $"N"; $"*"; $"("; $"N"; $"+"; $"10UL"; $")"; $"]"; $";"] with
      (map snd (fst (split_all $"int a [N*( N +10UL)];"))).
    apply lay_check; [reflexivity|vm_compute; reflexivity].
Qed.

(** C85: the extra modifiers of the configuration, with or without something in parentheses behind
    them, are ignored behind a type: the header has the effect of the same declarations written without
    modifiers, for a parser without modifiers. *)
Theorem c85_modifiers_partial :
  forall ev base mods pack l l' ds text text' s path, good_config base mods ->
  (forall n, packing_at l n = pack) -> (forall n, packing_at l' n = pack) ->
  header base mods pack ds text -> header base [] pack ds text' ->
  parse_file ev base mods l s path text = parse_file ev base [] l' s path text'.
Proof. exact modifiers_free. Qed.
Print Assumptions c85_modifiers_partial.
(** Not so in front of a declarator in parentheses: the modifier takes the parentheses, and in the end it is
    taken for the type itself. *)
Theorem c85_modifiers_refuted :
  exists mods text s v t, good_config base0 mods /\ text = $"int API (*handler)(int);" /\ mods = [$"API"]
    /\ parse_file ev0 base0 mods [] init_store None text = Some (s, None)
    /\ defined s Variables $"handler" = Some (EVar v t)
    /\ read_type t = Some (TPtr [] (TFun [] [(None, TBase [] $"int", None)] (TBase [] $"API"))).
Proof.
  exists [$"API"], $"int API (*handler)(int);". do 3 eexists.
  split; [apply good_config_check; reflexivity|]. split; [reflexivity|]. split; [reflexivity|].
  split; [vm_compute; reflexivity|]. split; [vm_compute; reflexivity|]. vm_compute. reflexivity.
Qed.
Print Assumptions c85_modifiers_refuted.
Definition api : list str := [$"API"; $"ALIGN"].
Definition header_m : str := $"int ALIGN(sizeof(int), 4) API count = 5; char API *name(int n);".
Definition header_n : str := $"int count = 5; char *name(int n);".
Definition decls_m : list gtop :=
  [GVar (words $"int") [name_decl $"count"] (IVal $"5");
   GVar (words $"char") [GNode [] None [[]] (GNamed false $"name") (Some [GArg (words $"int") (name_decl $"n") None]) []] NoInit].
Example c85_example : good_config base0 api /\ header base0 api None decls_m header_m /\ header base0 [] None decls_m header_n
  /\ exists s, parse_file ev0 base0 api [] init_store None header_m = Some (s, None)
       /\ map fst (defs s Variables) = [$"count"] /\ map fst (defs s Functions) = [$"name"].
Proof.
  split; [apply good_config_check; reflexivity|]. split; [|split].
  - apply header_check; [|vm_compute; reflexivity|vm_compute; reflexivity|vm_compute; reflexivity|vm_compute; reflexivity].
    unfold decls_m, words, name_decl. eapply seq_conv.
    + eapply sq_cons; [eapply sp_var; [left; reflexivity| |spell|part|spell]|eapply sq_cons; [eapply sp_var; [left; reflexivity| |spell|part|spell]|apply sq_nil]].
      * eapply sp_spec_q; [apply quals_check; reflexivity|spell|].
        apply (sp_parens api $"ALIGN" [$"sizeof"; $"("; $"int"; $")"; $","; $"4"] [$"API"]); [right; left; reflexivity| |].
        -- apply gr_tok; [discriminate|discriminate|intros (b & _ & E); discriminate E|].
           apply (gr_paren [$"int"]); [|].
           ++ apply gr_tok; [discriminate|discriminate|intros (b & _ & E); discriminate E|apply gr_nil].
           ++ apply gr_tok; [discriminate|discriminate|intros (b & _ & E); discriminate E|].
              apply gr_tok; [discriminate|discriminate|intros (b & _ & E); discriminate E|apply gr_nil].
        -- apply sp_bare; [left; reflexivity|apply sp_no_extra].
      * eapply sp_spec_q; [apply quals_check; reflexivity|spell|]. apply sp_bare; [left; reflexivity|apply sp_no_extra].
    + vm_compute. reflexivity.
  - apply header_check; [|vm_compute; reflexivity|vm_compute; reflexivity|vm_compute; reflexivity|vm_compute; reflexivity].
    unfold decls_m, words, name_decl. eapply seq_conv; [spell|vm_compute; reflexivity].
  - eexists. split; [vm_compute; reflexivity|]. split; vm_compute; reflexivity.
Qed.
