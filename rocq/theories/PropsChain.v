(** C88: the headers of a library, from their texts to the types of calls. *)
From Coq Require Import Ascii String Bool Arith ZArith Lia List.
Import ListNotations.
From Verif Require NestExamples.
From Verif Require Import PyBase PyBaseFacts PyStr PyStrFacts PyExpr TypeModel InitModel StoreModel StoreSpec DeclModel DeclSpec EvalModel EvalSpec.
From Verif Require Import GramModel GramSpec RunSpec GramRun.
From Verif Require GramExamples PropsGram PropsLink.
From Verif Require Import MacroModel MacroSpec MacroDefProofs PpModel PpSpec TextSpec PropsMacro PropsDecl.
From Verif Require Import FileModel FileSpec PackedSpec FilesSpec PpExamples FileExamples PropsFile PropsPacked.
From Verif Require Import CtModel LinkModel LinkSpec LinkExamples ChainSpec ChainProofs.
From Verif Require CtSpec ExprSpec.

(** Helpers of the examples: two headers, the second of which uses structures and macros of the first. *)
Definition wire_unit : unit :=
  {| u_path := $"lib/wire.h"; u_text := wire; u_lines := wire_first ++ wire_second;
     u_decls := [wire_decl $"head" (Some 1%Z)] ++ [wire_decl $"body" None]; u_macros := wire_macros |}.
Definition send_lines : list str := [$"#ifdef WIRE_H"; $"int send(struct head *to, const char *data, struct body last);"; $"#endif"].
Definition send_text : str := join [nl] send_lines.
Definition send_events : list event := [Put []; Put $"int send(struct head *to, const char *data, struct body last);"; Put []].
Definition send : gdecl :=
  GNode [] None [] (GNamed false $"send")
    (Some [GArg (GSpec [] (GComp CStruct (Some $"head") [] None)) (GNode [] None [[]] (GNamed false $"to") None []) None;
           GArg (GSpec [$"const"] (GWord $"char")) (GNode [] None [[]] (GNamed false $"data") None []) None;
           GArg (GSpec [] (GComp CStruct (Some $"body") [] None)) (GNode [] None [] (GNamed false $"last") None []) None]) [].
Definition send_decl : gtop := GVar (GSpec [] (GWord $"int")) [send] NoInit.
Definition send_unit : unit :=
  {| u_path := $"send.h"; u_text := send_text; u_lines := send_events; u_decls := [send_decl]; u_macros := wire_macros |}.
Definition disk (h : str) : option str :=
  if eqb h $"lib/wire.h" then Some wire else if eqb h $"send.h" then Some send_text else None.
Definition search (h : str) : option str := if eqb h $"wire.h" then Some $"lib/wire.h" else None.
Definition read_both : option (res parser) :=
  parse_headers no_fmt no_ext ev0 GramExamples.base0 [] no_sub disk search [] [$"wire.h"; $"send.h"] init_store.
Definition both : store entry := match read_both with Some (Ok p) => p_store p | _ => init_store end.
Definition both_lib : library := load PropsLink.words0 std_types false both.
Definition both_comps : list (bool * str) := [(false, $"head"); (false, $"body")].
Definition both_cl (n : str) : option nat := if eqb n $"head" then Some 0 else if eqb n $"body" then Some 1 else None.
Lemma send_traced : traced_text wire_macros send_text send_events wire_macros.
Proof.
  exists (code send_text), [send_text],
    (BCond $"#ifdef WIRE_H" (BLine $"int send(struct head *to, const char *data, struct body last);" BNil) (REnd $"#endif") BNil).
  split; [vm_compute; reflexivity|]. split; [apply reads_check; vm_compute; reflexivity|]. split; [vm_compute; reflexivity|]. split; [discriminate|].
  split; [constructor; [apply occurs_check; vm_compute; reflexivity|constructor]|]. split; [vm_compute; reflexivity|].
  refine (tr_taken wire_macros _ _ _ _ [Put $"int send(struct head *to, const char *data, struct body last);"] wire_macros [] wire_macros _ _ _ _ _).
  - right. left. vm_compute. reflexivity.
  - apply (de_yes wire_macros $"WIRE_H" true); [apply PpExamples.identb_ok; reflexivity| |left; vm_compute; discriminate].
    apply (ExprSpec.ts_ifdef $"WIRE_H" [sp] []); [gap_ok|discriminate|gap_ok|].
    exists [], []. repeat split. intros c r E. injection E as <- _. reflexivity.
  - apply (tr_line wire_macros _ [$"int send(struct head *to, const char *data, struct body last);"] wire_macros).
    { apply cpp_text; [vm_compute; reflexivity|apply expands_check; vm_compute; reflexivity|apply cpp_nil]. }
    { vm_compute. discriminate. }
    { intros I1. vm_compute in I1. repeat (destruct I1 as [I1|I1]; [discriminate I1|]). exact I1. }
    apply tr_nil.
  - vm_compute. reflexivity.
  - apply tr_nil.
Qed.
Lemma send_grouped : grouped GramExamples.base0 [] initial send_events [send_decl].
Proof.
  apply (gr_last _ _ _ None); [|apply opens_check; vm_compute; reflexivity].
  apply GramExamples.header_check; [|vm_compute; reflexivity|vm_compute; reflexivity|vm_compute; reflexivity|vm_compute; reflexivity].
  eapply GramExamples.seq_conv; [unfold send_decl, send; GramExamples.spell|vm_compute; reflexivity].
Qed.

(** C88: a library that is given several headers, with macros, conditionals and packing pragmas,
    knows all their declarations: each one has the type it has in C, with the macros and declarations in
    front of it, its structures have the packing in force at their definition, and nothing read later
    changes that.  Missing: as in C73, C77 and C81. *)
Theorem c88_headers_partial :
  forall fo ext ev base mods sub contents find rs headers s m us, good_config base mods ->
  macro_tables s -> stands_for (macros_of s) m -> typed_values s -> tagged s ->
  Forall2 (resolves contents find) headers (map u_path us) -> Forall (stored sub contents rs) us -> NoDup (map u_path us) ->
  units base mods m us ->
  exists p, parse_headers fo ext ev base mods sub contents find rs headers s = Some (Ok p)
    /\ p_order p = map u_path us /\ tagged (p_store p)
    /\ forall us1 f us2 ds1 g ds2, us = us1 ++ f :: us2 -> u_decls f = ds1 ++ g :: ds2 ->
       exists s0 s1, taken ev s us1 s0 /\ same_declarations s0 s1 /\ stands_for (macros_of s1) (u_macros f)
         /\ let tables x := fst (run_tops ev (set_cur s1 (Some (u_path f))) (ds1 ++ x)) in
            known_spec ev (tables []) (spec_part g) -> plain_decls g -> stays g (ds2 ++ flat_map u_decls us2) ->
            exists b, denotes ev (tables []) (p_store p) (spec_part g) b
              /\ forall l1 d l2 n, decls_part g = l1 ++ d :: l2 -> c_name (tree d) = Some n ->
                 every c_syntax (tree d) = true -> no_conv_name (tree d) = true ->
                 Forall (fun g' => ~ In (Some n) (declared_names g')) (ds2 ++ flat_map u_decls us2) ->
                 declared_as ev (tables [up_to g []]) (p_store p) g l2 n
                   (c_type (eval_text ev (tables [up_to g l1])) (tree d) (DeclSpec.base_type b)).
Proof. exact read_units. Qed.
Print Assumptions c88_headers_partial.
(** And ctypes is given those types: for calls of the functions of any of the headers, and for the
    classes of their structures and unions.  Missing: as in C82 and C83 too. *)
Theorem c88_library_partial :
  forall fo ext ev base mods sub contents find rs headers s m us, good_config base mods ->
  macro_tables s -> stands_for (macros_of s) m -> typed_values s -> tagged s ->
  Forall2 (resolves contents find) headers (map u_path us) -> Forall (stored sub contents rs) us -> NoDup (map u_path us) ->
  units base mods m us ->
  exists p, parse_headers fo ext ev base mods sub contents find rs headers s = Some (Ok p)
    /\ forall us1 f us2 ds1 g ds2, us = us1 ++ f :: us2 -> u_decls f = ds1 ++ g :: ds2 ->
       exists s0 s1, taken ev s us1 s0 /\ same_declarations s0 s1 /\ stands_for (macros_of s1) (u_macros f)
         /\ let tables x := fst (run_tops ev (set_cur s1 (Some (u_path f))) (ds1 ++ x)) in
            known_spec ev (tables []) (spec_part g) -> plain_decls g -> stays g (ds2 ++ flat_map u_decls us2) ->
            exists b, denotes ev (tables []) (p_store p) (spec_part g) b
              /\ (forall l1 d l2 n q args r, is_typedef g = false -> decls_part g = l1 ++ d :: l2 -> c_name (tree d) = Some n ->
                    every c_syntax (tree d) = true -> no_conv_name (tree d) = true ->
                    Forall (fun g' => ~ In (Some n) (declared_names g')) (ds2 ++ flat_map u_decls us2) ->
                    c_type (eval_text ev (tables [up_to g l1])) (tree d) (DeclSpec.base_type b) = TFun q args r ->
                    forall cf table win D, closed cf table (p_store p) D -> usual_table table ->
                    representable cf table (p_store p) D r -> ~ In (LinkSpec.base_name r) convention_names ->
                    (exists cl cs, all_represented cf table (p_store p) D cl (parameters args) cs) ->
                    let L := load cf table win (p_store p) in
                    forall st, ready (l_heap L) st ->
                    exists sig fuel c cs st', dget (l_functions L) n = Some sig
                      /\ (forall k, fuel <= k -> wrap_types (l_env L) k sig st = (Ok (c, cs), st'))
                      /\ represents cf table (p_store p) D (classes st') r c
                      /\ all_represented cf table (p_store p) D (classes st') (parameters args) cs
                      /\ grown cf table (p_store p) D st st')
              /\ (forall q c o body pack n, spec_part g = GSpec q (GComp c o body pack) -> refers (spec_part g) = false ->
                    b_name b = tag_name (comp_kw c) n ->
                    exists v ls, lines_meaning ev (p_store p) (values (tables [])) body v ls /\
                    forall cf table win D, closed cf table (p_store p) D -> usual_table table -> D (is_union c) n ->
                    let L := load cf table win (p_store p) in
                    forall st, ready (l_heap L) st -> classes st n = None ->
                    exists fuel i fs st', (forall k, fuel <= k -> get_struct (l_env L) k (is_union c) n st = (Ok i, st'))
                      /\ classes st' n = Some i
                      /\ let xs := map snd (declared_all (value_of_text ev v) ls) in
                         nth_error (st_classes st') i = Some {| k_union := is_union c; k_pack := pack; k_anon := given_names xs fs; k_fields := Some fs |}
                      /\ fields_for cf table (p_store p) D (classes st') xs fs
                      /\ grown cf table (p_store p) D st st').
Proof. exact units_calls. Qed.
Print Assumptions c88_library_partial.
Example c88_example :
  macro_tables (@init_store entry) /\ stands_for (macros_of init_store) no_macros /\ typed_values (@init_store entry) /\ tagged (@init_store entry)
  /\ Forall2 (resolves disk search) [$"wire.h"; $"send.h"] (map u_path [wire_unit; send_unit])
  /\ Forall (stored no_sub disk []) [wire_unit; send_unit] /\ NoDup (map u_path [wire_unit; send_unit])
  /\ units GramExamples.base0 [] no_macros [wire_unit; send_unit]
  /\ (exists p, read_both = Some (Ok p)) /\ known_spec ev0 both (spec_part send_decl) /\ plain_decls send_decl /\ stays send_decl []
  /\ closed PropsLink.words0 std_types both (listed both_comps) /\ usual_table std_types
  /\ (exists args, c_type (eval_text ev0 both) (tree send) (TBase [] $"int") = TFun [] args (TBase [] $"int")
        /\ representable PropsLink.words0 std_types both (listed both_comps) (TBase [] $"int")
        /\ all_represented PropsLink.words0 std_types both (listed both_comps) both_cl (parameters args) [PPtr (PClass 0); PBase $"c_char_p"; PClass 1])
  /\ exists sig st', dget (l_functions both_lib) $"send" = Some sig
       /\ wrap_types (l_env both_lib) 9 sig (CtSpec.start (l_heap both_lib)) = (Ok (PBase $"c_int", [PPtr (PClass 0); PBase $"c_char_p"; PClass 1]), st')
       /\ map (fun k => (k_pack k, option_map (map (fun f => (fd_name f, fd_type f))) (k_fields k))) (st_classes st')
          = [(Some 1%Z, Some [($"kind", PBase $"c_char"); ($"size", PBase $"c_int")]);
             (None, Some [($"kind", PBase $"c_char"); ($"size", PBase $"c_int")])].
Proof.
  split; [apply init_tables|]. split; [apply init_tables|]. split; [intros n e []|]. split; [intros u n ms p E; destruct u; discriminate E|].
  split; [constructor; [reflexivity|constructor; [reflexivity|constructor]]|].
  split; [constructor; [eexists; split; reflexivity|constructor; [eexists; split; reflexivity|constructor]]|].
  split; [constructor; [intros [E|[]]; discriminate E|constructor; [intros []|constructor]]|].
  split.
  { split; [exact wire_traced|]. split; [cbn; repeat split; try discriminate; congruence|]. split; [exact wire_grouped|].
    split; [apply aligned_check; vm_compute; reflexivity|].
    split; [constructor; [intros E; discriminate E|constructor; [intros E; discriminate E|constructor]]|].
    split; [exact send_traced|]. split; [exact Logic.I|]. split; [exact send_grouped|]. split; [apply aligned_check; vm_compute; reflexivity|].
    split; [constructor; [intros E; discriminate E|constructor]|exact Logic.I]. }
  split; [eexists; vm_compute; reflexivity|]. split; [apply NestExamples.known_plain; vm_compute; reflexivity|].
  split; [split; [repeat constructor|repeat constructor; intros []]|]. split; [apply NestExamples.stays_check; vm_compute; reflexivity|].
  split; [apply (closed_check PropsLink.words0 std_types both both_comps both_cl []); vm_compute; reflexivity|]. split; [exact PropsLink.usual0|]. split.
  - eexists. split; [vm_compute; reflexivity|]. split.
    + exists both_cl, (PBase $"c_int"). apply (rep_ok PropsLink.words0 std_types both both_comps both_cl 20). vm_compute. reflexivity.
    + apply (rep_all_ok PropsLink.words0 std_types both both_comps both_cl). vm_compute. reflexivity.
  - do 2 eexists. split; [vm_compute; reflexivity|]. split; [vm_compute; reflexivity|vm_compute; reflexivity].
Qed.
(** What a later header declares again replaces what an earlier one declared: the call of a function of
    the first header is then made with the structure of the second one. *)
Definition first_text : str := $"struct point { int x; int y; };
int norm(struct point *p);".
Definition later_text : str := $"struct point { char name; };".
Definition twice_disk (h : str) : option str :=
  if eqb h $"first.h" then Some first_text else if eqb h $"later.h" then Some later_text else None.
Definition class_of (headers : list str) (f : str) : option (list pyt * list (option (list (str * pyt)))) :=
  match parse_headers no_fmt no_ext ev0 GramExamples.base0 [] no_sub twice_disk nowhere [] headers init_store with
  | Some (Ok p) =>
    let L := load PropsLink.words0 std_types false (p_store p) in
    match dget (l_functions L) f with
    | Some sig =>
      match wrap_types (l_env L) 9 sig (CtSpec.start (l_heap L)) with
      | (Ok (_, cs), st) => Some (cs, map (fun k => option_map (map (fun x => (fd_name x, fd_type x))) (k_fields k)) (st_classes st))
      | _ => None
      end
    | None => None
    end
  | _ => None
  end.
Theorem c88_library_refuted :
  exists headers more f cs k k', class_of headers f = Some (cs, k) /\ class_of (headers ++ more) f = Some (cs, k') /\ k <> k'.
Proof.
  exists [$"first.h"], [$"later.h"], $"norm". do 3 eexists.
  split; [vm_compute; reflexivity|]. split; [vm_compute; reflexivity|]. discriminate.
Qed.
Print Assumptions c88_library_refuted.
