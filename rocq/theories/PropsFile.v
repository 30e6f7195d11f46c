(** Properties C76-C80: whole headers. *)
From Coq Require Import Ascii String Bool Arith ZArith Lia List.
Import ListNotations.
From Verif Require Import PyBase PyBaseFacts PyStr PyStrFacts PyExpr TypeModel StoreModel StoreSpec DeclModel DeclSpec EvalModel EvalSpec.
From Verif Require GramModel GramSpec RunSpec GramExamples PropsGram.
From Verif Require Import MacroModel MacroSpec MacroDefProofs PpModel PpSpec ExprSpec TextSpec PropsMacro PropsDecl.
From Verif Require Import FileModel FileSpec FileTables FileWhole FilesSpec FilesProofs PpExamples FileExamples.

(** Helpers of the examples: a header in two versions, as it is and as C's preprocessor leaves
    it. *)
Definition grid_parts : list part :=
  ABlock $" Grid. " :: code ([nl] ++ $"#ifndef GRID_H" ++ [nl] ++ $"#define GRID_H" ++ [nl] ++ $"#define WIDTH 4 ")
  ++ ALine $" columns" :: code ([nl] ++ $"#define AREA (WIDTH * " ++ continuation ++ $"2)" ++ [nl]
       ++ $"#if WIDTH > 3" ++ [nl] ++ $"int cells[AREA];" ++ [nl] ++ $"#else" ++ [nl] ++ $"int none;" ++ [nl] ++ $"#endif" ++ [nl]
       ++ $"#endif" ++ [nl]).
Definition grid : str := parts_text grid_parts.
Definition grid_block : block :=
  BLine [] (BCond $"#ifndef GRID_H"
    (BLine $"#define GRID_H" (BLine $"#define WIDTH 4 " (BLine $"#define AREA (WIDTH * 2)"
      (BCond $"#if WIDTH > 3" (BLine $"int cells[AREA];" BNil) (RElse $"#else" (BLine $"int none;" BNil) $"#endif") BNil))))
    (REnd $"#endif") (BLine [] BNil)).
Definition grid_macros : cmac := mac [($"AREA", $"(WIDTH * 2)"); ($"WIDTH", $"4"); ($"GRID_H", [])].
Definition grid_table : mtab := {| macros := [($"AREA", $"(4 * 2)"); ($"WIDTH", $"4"); ($"GRID_H", [])]; fnmacros := [] |}.
Definition grid_out : list str := [[]; $"int cells[(4 * 2)];"; []].
Definition cells : GramModel.gtop :=
  GramModel.GVar (GramModel.GSpec [] (GramModel.GWord $"int"))
    [GramModel.GNode [] None [] (GramModel.GNamed false $"cells") None [$"( 4 * 2 )"]] NoInit.
Definition grid_cond : cx := CRel CGt (CId $"WIDTH") (CNum $"3").
Definition grid_value (w : str) : cx := CNum $"4".
Ltac unknown := apply unknown_check; vm_compute; reflexivity.
Ltac undefined := apply unlisted_check; vm_compute; reflexivity.
Lemma grid_decides : decides grid_macros $"#if WIDTH > 3" true.
Proof.
  apply (de_expr grid_macros $"if" (canon (toks grid_cond)) _ grid_cond grid_table grid_value 1%Z).
  - left. reflexivity.
  - apply written_if. discriminate.
  - cbn. lia.
  - apply canon_spells. reflexivity.
  - apply stands_check; vm_compute; reflexivity.
  - intros w J. vm_compute in J. destruct J as [<-|[]]. split; [reflexivity|]. intros v D. vm_compute in D. injection D as <-.
    split; [split; [exact Logic.I|intros w J; vm_compute in J; destruct J as [J|[]]; discriminate]|]. split; [|split; [reflexivity|intros w []]].
    change ["4"%char] with ([] ++ $"4" ++ []).
    apply spells_tok; [gap_ok|constructor; split; reflexivity|intros c r E; discriminate|apply spells_end; gap_ok].
  - cbn. repeat split; try discriminate; auto.
  - reflexivity.
Qed.
Lemma grid_cpp : cpp no_macros grid_block grid_out grid_macros.
Proof.
  unfold grid_block, grid_out. apply cpp_text; [vm_compute; reflexivity|apply expands_check; vm_compute; reflexivity|].
  apply (cpp_taken no_macros _ _ _ _ [$"int cells[(4 * 2)];"] grid_macros [[]] grid_macros).
  - right. right. left. vm_compute. reflexivity.
  - apply (de_no no_macros $"GRID_H" false); [apply identb_ok; reflexivity| |unknown].
    apply (ts_ifndef $"GRID_H" [sp] []); [gap_ok|discriminate|gap_ok|].
    exists [], []. repeat split. intros c r E. injection E as <- _. reflexivity.
  - apply (cpp_define no_macros _ $"GRID_H" [] []).
    { object_ok (@nil ascii) $"GRID_H" (@nil ascii) (@nil ascii). }
    { split; [undefined|]. split; [unmentioned|]. split; [apply not_named; reflexivity|]. split; [apply expands_check; vm_compute; reflexivity|].
      split; [reflexivity|]. split; [apply free_check; reflexivity|]. split; [intros []|]. left. discriminate. }
    apply (cpp_define _ _ $"WIDTH" $"4" $"4").
    { object_ok [sp] $"WIDTH" $"4" [sp]. }
    { split; [undefined|]. split; [unmentioned|]. split; [apply not_named; reflexivity|]. split; [apply expands_check; vm_compute; reflexivity|].
      split; [reflexivity|]. split; [apply free_check; reflexivity|]. split; [intros []|]. left. discriminate. }
    apply (cpp_define _ _ $"AREA" $"(WIDTH * 2)" $"(4 * 2)").
    { object_ok [sp] $"AREA" $"(WIDTH * 2)" (@nil ascii). }
    { split; [undefined|]. split; [unmentioned|]. split; [apply not_named; reflexivity|]. split; [apply expands_check; vm_compute; reflexivity|].
      split; [reflexivity|]. split; [apply free_check; reflexivity|]. split; [intros []|]. right. split; [apply free_check; reflexivity|apply no_params; reflexivity]. }
    apply (cpp_taken grid_macros _ _ _ _ [$"int cells[(4 * 2)];"] grid_macros [] grid_macros).
    + left. vm_compute. reflexivity.
    + exact grid_decides.
    + apply cpp_text; [vm_compute; reflexivity|apply expands_check; vm_compute; reflexivity|apply cpp_nil].
    + cbn [bwell_formed]. split; [vm_compute; reflexivity|]. split; [|vm_compute; reflexivity]. apply well_line; [vm_compute; reflexivity|vm_compute; reflexivity|exact Logic.I].
    + apply cpp_nil.
  - vm_compute. reflexivity.
  - apply cpp_text; [vm_compute; reflexivity|apply expands_check; vm_compute; reflexivity|apply cpp_nil].
Qed.
Lemma grid_translated : translated no_macros grid grid_out grid_macros.
Proof.
  exists grid_parts, [$(GramExamples.nl1 ++ "#ifndef GRID_H" ++ GramExamples.nl1 ++ "#define GRID_H" ++ GramExamples.nl1 ++ "#define WIDTH 4 " ++ GramExamples.nl1 ++ "#define AREA (WIDTH * ");
    $("2)" ++ GramExamples.nl1 ++ "#if WIDTH > 3" ++ GramExamples.nl1 ++ "int cells[AREA];" ++ GramExamples.nl1 ++ "#else" ++ GramExamples.nl1 ++ "int none;" ++ GramExamples.nl1 ++ "#endif" ++ GramExamples.nl1 ++ "#endif" ++ GramExamples.nl1)], grid_block.
  split; [reflexivity|]. split; [apply reads_check; vm_compute; reflexivity|]. split; [vm_compute; reflexivity|]. split; [discriminate|].
  split; [constructor; [apply occurs_check; vm_compute; reflexivity|constructor; [apply occurs_check; vm_compute; reflexivity|constructor]]|].
  split; [vm_compute; reflexivity|exact grid_cpp].
Qed.
Lemma area_text : GramSpec.sp_text GramExamples.base0 [] $"( 4 * 2 )" [$"("; $"4"; $"*"; $"2"; $")"].
Proof.
  assert (N : forall t, GramExamples.numb t = true -> GramSpec.sp_atom GramExamples.base0 [] [t] [t]).
  { intros t H. apply (GramSpec.sp_unary _ [] [] [t] [t]); [constructor|]. apply GramSpec.sp_num. apply GramExamples.num_check. exact H. }
  exists [$"("; $"4"; $"*"; $"2"; $")"]. split; [|reflexivity]. apply GramSpec.sp_single.
  apply (GramSpec.sp_unary _ [] [] [$"("; $"4"; $"*"; $"2"; $")"] [$"("; $"4"; $"*"; $"2"; $")"]); [constructor|].
  apply (GramSpec.sp_paren _ [] [$"4"; $"*"; $"2"] [$"4"; $"*"; $"2"]); [|intros n _ E; discriminate E].
  apply (GramSpec.sp_binary _ [] [$"4"] [$"4"] $"*" [$"2"] [$"2"]); [apply N; reflexivity|cbn; auto 10|].
  apply GramSpec.sp_single. apply N. reflexivity.
Qed.
Lemma grid_header : RunSpec.header GramExamples.base0 [] None [cells] (join [nl] grid_out).
Proof.
  pose proof area_text as A. apply GramExamples.header_check; [|vm_compute; reflexivity|vm_compute; reflexivity|vm_compute; reflexivity|vm_compute; reflexivity].
  eapply GramExamples.seq_conv; [unfold cells; GramExamples.spell|vm_compute; reflexivity].
Qed.
Lemma cells_harmless : Forall RunSpec.harmless [cells].
Proof. constructor; [|constructor]. intros E. discriminate E. Qed.
Lemma init_tables : macro_tables (@init_store entry) /\ stands_for (macros_of init_store) no_macros
  /\ (forall Q, valued Q (@init_store entry)).
Proof.
  split; [|split].
  - split; [intros n e []|]. split; [intros n e []|constructor].
  - exact (stands_check [] {| macros := []; fnmacros := [] |} eq_refl eq_refl eq_refl eq_refl).
  - intros Q n v D. discriminate D.
Qed.
(** The tables of the header, read with [path]. *)
Definition read_header (path text : str) : store entry :=
  match process_file no_fmt no_ext ev0 GramExamples.base0 [] init_store path text with
  | Some (Ok (s, _)) => s
  | _ => init_store
  end.

(** C76: the value recorded for an object-like macro is the value of its text, if the text, with
    all macros replaced, is a constant expression of C, and None if the text is blank.  This
    holds after the preprocessing of any text. *)
Theorem c76_any_text :
  forall fo ext fund md visible ex s path text l s1 text', macro_tables s ->
  preprocess_file fo ext (c_eval fund md visible ex) s path text = Ok (l, s1, text') ->
  macro_tables s1 /\ (valued (text_value fund md) s -> valued (text_value fund md) s1).
Proof. exact values_any. Qed.
Print Assumptions c76_any_text.
(** For headers as in C77 the text is the one C gives; the value is kept unless the name is also
    declared.  Missing: macros of which the text contains names of enumerators. *)
Theorem c76_values_partial :
  forall fo ext fund md visible ex base mods s m path text out m' ds, GramSpec.good_config base mods ->
  macro_tables s -> stands_for (macros_of s) m -> valued (text_value fund md) s -> translated m text out m' ->
  RunSpec.header base mods None ds (join [nl] out) -> Forall RunSpec.harmless ds ->
  (forall n, obj m' n <> None -> ~ RunSpec.mentions Values n ds) ->
  exists s' text', process_file fo ext (c_eval fund md visible ex) base mods s path text = Some (Ok (s', text'))
    /\ forall n body, obj m' n = Some body ->
         exists v x, complete m' body v /\ defined s' Macros n = Some (EText v)
           /\ defined s' Values n = Some (EVal x) /\ text_value fund md v x.
Proof. exact process_values. Qed.
Print Assumptions c76_values_partial.
(** Macros are evaluated before the enumerators of the same header are known. *)
Theorem c76_enum_refuted :
  exists text, let s := read_header $"a.h" text in
    defined s Values $"A" = Some (EVal (ONum (VInt 3))) /\ defined s Macros $"B" = Some (EText $"(A + 1)")
    /\ defined s Values $"B" = Some (EVal ONone).
Proof.
  exists ($"enum { A = 3 };" ++ [nl] ++ $"#define B (A + 1)").
  split; [vm_compute; reflexivity|]. split; [vm_compute; reflexivity|]. vm_compute. reflexivity.
Qed.
Print Assumptions c76_enum_refuted.
(** The value of a macro stays when the macro is removed. *)
Theorem c76_undef_refuted :
  exists text, let s := read_header $"a.h" text in
    defined s Macros $"X" = None /\ defined s Values $"X" = Some (EVal (ONum (VInt 1))).
Proof.
  exists ($"#define X 1" ++ [nl] ++ $"#undef X"). split; [vm_compute; reflexivity|]. vm_compute. reflexivity.
Qed.
Print Assumptions c76_undef_refuted.
Example c76_example :
  translated no_macros grid grid_out grid_macros /\ RunSpec.header GramExamples.base0 [] None [cells] (join [nl] grid_out)
  /\ (forall n, obj grid_macros n <> None -> ~ RunSpec.mentions Values n [cells])
  /\ c_const fund0 [] [] $"(4 * 2)" 8%Z
  /\ defined (read_header $"grid.h" grid) Values $"AREA" = Some (EVal (ONum (VInt 8)))
  /\ defined (read_header $"grid.h" grid) Values $"GRID_H" = Some (EVal ONone).
Proof.
  split; [exact grid_translated|]. split; [exact grid_header|]. split.
  { intros n H [(g & [<-|[]] & I2)|(m & l & I1 & _)].
    - vm_compute in I2. destruct I2 as [E|[]]. injection E as <-. apply H. vm_compute. reflexivity.
    - vm_compute in I1. destruct I1 as [E|[]]; discriminate E. }
  split; [|split; [vm_compute; reflexivity|vm_compute; reflexivity]].
  exists (CPar (CBin OMul (CNum $"4") (CNum $"2"))). split.
  - split; [|split; [cbn; lia|split; [intros w []|reflexivity]]]. cbn [toks app].
    token_ok (@nil ascii) $"(". token_ok (@nil ascii) $"4". token_ok [sp] $"*". token_ok [sp] $"2".
    change (spells [TClose] ([] ++ $")" ++ [])). apply spells_tok; [gap_ok|constructor|intros c r X; discriminate X|apply spells_end; gap_ok].
  - split; [reflexivity|]. split; [reflexivity|]. split; [intros w []|]. cbn. repeat split; try discriminate; auto.
Qed.

(** C77: processing a header has the effect of parsing the text C's preprocessor leaves of it
    (phases 2 to 4 of the translation): comments, continuation lines, object-like macros, calls
    of function-like macros, conditionals, and directives without effect.  Only the macros and
    their values change besides, and the macros are C's at the end.  Missing: packing (C81), arguments
    with parentheses and string literals, and definitions the code expands too early (C28 and
    below). *)
Theorem c77_header_partial :
  forall fo ext ev base mods s m path text out m' ds, GramSpec.good_config base mods ->
  macro_tables s -> stands_for (macros_of s) m -> translated m text out m' ->
  RunSpec.header base mods None ds (join [nl] out) -> Forall RunSpec.harmless ds ->
  exists s1 s' text', process_file fo ext ev base mods s path text = Some (Ok (s', text'))
    /\ same_declarations s s1 /\ stands_for (macros_of s1) m'
    /\ GramModel.parse_file ev base mods [] s1 (Some path) (join [nl] out) = Some (s', None)
    /\ macros_of s' = macros_of s1.
Proof. exact header_processed. Qed.
Print Assumptions c77_header_partial.
Example c77_example :
  macro_tables (@init_store entry) /\ stands_for (macros_of init_store) no_macros
  /\ translated no_macros grid grid_out grid_macros
  /\ RunSpec.header GramExamples.base0 [] None [cells] (join [nl] grid_out) /\ Forall RunSpec.harmless [cells]
  /\ exists s text', process_file no_fmt no_ext ev0 GramExamples.base0 [] init_store $"grid.h" grid = Some (Ok (s, text'))
       /\ map fst (defs s Variables) = [$"cells"] /\ map fst (defs s Macros) = [$"GRID_H"; $"WIDTH"; $"AREA"].
Proof.
  split; [apply init_tables|]. split; [apply init_tables|]. split; [exact grid_translated|]. split; [exact grid_header|].
  split; [exact cells_harmless|]. do 2 eexists. split; [vm_compute; reflexivity|]. split; [vm_compute; reflexivity|vm_compute; reflexivity].
Qed.

(** Calls of function-like macros, and a macro that is defined again. *)
Definition board_text : str :=
  $"#define N 3" ++ [nl] ++ $"#define SQ(x) (x * x)" ++ [nl] ++ $"#define ROW(t, n) t n[SQ(2)]" ++ [nl]
  ++ $"int board[SQ( N )];" ++ [nl] ++ $"ROW(int, row);" ++ [nl] ++ $"#define N 4" ++ [nl] ++ $"int last[N];" ++ [nl].
Definition board_out : list str := [$"int board[(3 * 3)];"; $"int row[(2 * 2)];"; $"int last[4];"; []].
Definition board_macros : cmac :=
  set_obj (add_fn (add_fn (set_obj no_macros $"N" (Some $"3")) $"SQ" (Some ([$"x"], $"(x * x)")))
    $"ROW" (Some ([$"t"; $"n"], $"t n[SQ(2)]"))) $"N" (Some $"4").
Definition board_decls : list GramModel.gtop :=
  [GramModel.GVar (GramModel.GSpec [] (GramModel.GWord $"int"))
     [GramModel.GNode [] None [] (GramModel.GNamed false $"board") None [$"( 3 * 3 )"]] NoInit;
   GramModel.GVar (GramModel.GSpec [] (GramModel.GWord $"int"))
     [GramModel.GNode [] None [] (GramModel.GNamed false $"row") None [$"( 2 * 2 )"]] NoInit;
   GramModel.GVar (GramModel.GSpec [] (GramModel.GWord $"int"))
     [GramModel.GNode [] None [] (GramModel.GNamed false $"last") None [$"4"]] NoInit].
Example c77_calls_example :
  translated no_macros board_text board_out board_macros
  /\ RunSpec.header GramExamples.base0 [] None board_decls (join [nl] board_out) /\ Forall RunSpec.harmless board_decls
  /\ map fst (defs (read_header $"board.h" board_text) Variables) = [$"board"; $"row"; $"last"]
  /\ map fst (defs (read_header $"board.h" board_text) Fnmacros) = [$"SQ"; $"ROW"].
Proof.
  split; [|split; [|split; [|split; [vm_compute; reflexivity|vm_compute; reflexivity]]]].
  - exists (code board_text), [board_text],
      (BLine $"#define N 3" (BLine $"#define SQ(x) (x * x)" (BLine $"#define ROW(t, n) t n[SQ(2)]"
        (BLine $"int board[SQ( N )];" (BLine $"ROW(int, row);" (BLine $"#define N 4" (BLine $"int last[N];" (BLine [] BNil)))))))).
    split; [vm_compute; reflexivity|]. split; [apply reads_check; vm_compute; reflexivity|]. split; [vm_compute; reflexivity|]. split; [discriminate|].
    split; [constructor; [apply occurs_check; vm_compute; reflexivity|constructor]|]. split; [vm_compute; reflexivity|].
    apply (cpp_define no_macros _ $"N" $"3" $"3").
    { object_ok [sp] $"N" $"3" (@nil ascii). }
    { split; [undefined|]. split; [unmentioned|]. split; [apply not_named; reflexivity|]. split; [apply expands_check; vm_compute; reflexivity|].
      split; [reflexivity|]. split; [apply free_check; reflexivity|]. split; [intros []|]. left. discriminate. }
    apply (cpp_function _ _ $"SQ" (Some ([$"x"], $"(x * x)"))).
    { apply (function_check _ $"SQ" $"x) (x * x)" [$"x"] [sp] $"(x * x)" (@nil ascii) $"(x * x)"); try (vm_compute; reflexivity).
      - apply (nl_last [] $"x" [] $" (x * x)"); [intros c []|apply identb_ok; reflexivity|intros c []].
      - constructor; [split; [unknown|unused]|constructor]. }
    { reflexivity. }
    { unmentioned. }
    apply (cpp_function _ _ $"ROW" (Some ([$"t"; $"n"], $"t n[SQ(2)]"))).
    { apply (function_check _ $"ROW" $"t, n) t n[SQ(2)]" [$"t"; $"n"] [sp] $"t n[SQ(2)]" (@nil ascii) $"t n[(2 * 2)]"); try (vm_compute; reflexivity).
      - apply (nl_more [] $"t" [] $" n) t n[SQ(2)]"); [intros c []|apply identb_ok; reflexivity|intros c []|].
        apply (nl_last [sp] $"n" [] $" t n[SQ(2)]"); [apply blanks_check; reflexivity|apply identb_ok; reflexivity|intros c []].
      - constructor; [split; [unknown|unused]|constructor; [split; [unknown|unused]|constructor]]. }
    { reflexivity. }
    { unmentioned. }
    do 2 (apply cpp_text; [vm_compute; reflexivity|apply expands_check; vm_compute; reflexivity|]).
    apply (cpp_define _ _ $"N" $"4" $"4").
    { object_ok [sp] $"N" $"4" (@nil ascii). }
    { split; [undefined|]. split; [unmentioned|]. split; [apply not_named; reflexivity|]. split; [apply expands_check; vm_compute; reflexivity|].
      split; [reflexivity|]. split; [apply free_check; reflexivity|]. split; [undefined|]. left. discriminate. }
    do 2 (apply cpp_text; [vm_compute; reflexivity|apply expands_check; vm_compute; reflexivity|]). apply cpp_nil.
  - assert (A : forall k, GramExamples.numb k = true -> GramSpec.sp_text GramExamples.base0 [] ($"( " ++ k ++ $" * " ++ k ++ $" )") [$"("; k; $"*"; k; $")"]).
    { intros k K. assert (N : GramSpec.sp_atom GramExamples.base0 [] [k] [k]).
      { apply (GramSpec.sp_unary _ [] [] [k] [k]); [constructor|]. apply GramSpec.sp_num. apply GramExamples.num_check. exact K. }
      exists [$"("; k; $"*"; k; $")"]. split; [|reflexivity]. apply GramSpec.sp_single.
      apply (GramSpec.sp_unary _ [] [] [$"("; k; $"*"; k; $")"] [$"("; k; $"*"; k; $")"]); [constructor|].
      apply (GramSpec.sp_paren _ [] [k; $"*"; k] [k; $"*"; k]); [|intros n _ E; discriminate E].
      apply (GramSpec.sp_binary _ [] [k] [k] $"*" [k] [k]); [exact N|cbn; auto 10|].
      apply GramSpec.sp_single. exact N. }
    pose proof (A $"3" eq_refl) as A3. pose proof (A $"2" eq_refl) as A2. clear A.
    change (GramSpec.sp_text GramExamples.base0 [] $"( 3 * 3 )" [$"("; $"3"; $"*"; $"3"; $")"]) in A3.
    change (GramSpec.sp_text GramExamples.base0 [] $"( 2 * 2 )" [$"("; $"2"; $"*"; $"2"; $")"]) in A2.
    apply GramExamples.header_check; [|vm_compute; reflexivity|vm_compute; reflexivity|vm_compute; reflexivity|vm_compute; reflexivity].
    eapply GramExamples.seq_conv; [unfold board_decls; GramExamples.spell|vm_compute; reflexivity].
  - do 3 (constructor; [intros E; discriminate E|]). constructor.
Qed.
(** A replacement list is expanded when the macro is defined.  A name in the list of another
    macro, here [x] in that of [F], is then taken for the parameter of the same name. *)
Theorem c77_capture_refuted :
  exists f g, let m := add_fn (add_fn no_macros $"F" (Some ([$"a"], f))) $"G" (Some ([$"x"], g)) in
    complete m $"int y = G(3);" $"int y = 3 + x;"
    /\ exists l s, preprocess_file no_fmt no_ext ev0 init_store $"a.h"
         ($"#define F(a) " ++ f ++ [nl] ++ $"#define G(x) " ++ g ++ [nl] ++ $"int y = G(3);")
         = Ok (l, s, nl :: nl :: $"int y = 3 + 3;").
Proof.
  exists $"a + x", $"F(x)". split; [apply (xall_complete 300); vm_compute; reflexivity|]. do 2 eexists. vm_compute. reflexivity.
Qed.
Print Assumptions c77_capture_refuted.

(** C78: a header with an include guard adds nothing when the guard is defined, whatever it
    contains. *)
Theorem c78_guarded :
  forall fo ext ev base mods s m path x text, GramSpec.good_config base mods ->
  macro_tables s -> stands_for (macros_of s) m -> guarded x text -> known_to m x ->
  exists text', process_file fo ext ev base mods s path text = Some (Ok (set_cur s (Some path), text')).
Proof. exact guarded_file. Qed.
Print Assumptions c78_guarded.
Definition no_sub (a b t : str) : str := t.
Definition nowhere (h : str) : option str := None.
Definition one_file (path text : str) (h : str) : option str := if eqb h path then Some text else None.
(** With the same path twice in the list of headers the guard has no effect: what is read the
    second time is the preprocessed text. *)
Theorem c78_same_path_refuted :
  exists x text p, guarded x text
    /\ parse_headers no_fmt no_ext ev0 GramExamples.base0 [] no_sub (one_file $"a.h" text) nowhere [] [$"a.h"; $"a.h"] init_store = Some (Ok p)
    /\ map fst (defs (p_store p) Structs) = [$"anon_struct0"; $"anon_struct1"].
Proof.
  exists $"G", ($"#ifndef G" ++ [nl] ++ $"#define G" ++ [nl] ++ $"struct { int x; } v;" ++ [nl] ++ $"#endif" ++ [nl]).
  eexists. split; [|split; [vm_compute; reflexivity|vm_compute; reflexivity]].
  exists (code ($"#ifndef G" ++ [nl] ++ $"#define G" ++ [nl] ++ $"struct { int x; } v;" ++ [nl] ++ $"#endif" ++ [nl])).
  exists [$"#ifndef G" ++ [nl] ++ $"#define G" ++ [nl] ++ $"struct { int x; } v;" ++ [nl] ++ $"#endif" ++ [nl]].
  exists [], $"#ifndef G", (BLine $"#define G" (BLine $"struct { int x; } v;" BNil)), $"#endif", [[]].
  split; [reflexivity|]. split; [apply reads_check; vm_compute; reflexivity|]. split; [reflexivity|]. split; [discriminate|].
  split; [constructor; [apply occurs_check; vm_compute; reflexivity|constructor]|]. split; [vm_compute; reflexivity|].
  split; [constructor|]. split; [constructor; [intros c []|constructor]|]. split; [apply identb_ok; reflexivity|].
  split; [right; right; left; vm_compute; reflexivity|]. split.
  { apply (ts_ifndef $"G" [sp] []); [gap_ok|discriminate|gap_ok|]. exists [], []. repeat split. intros c r E. injection E as <- _. reflexivity. }
  split; [|vm_compute; reflexivity].
  apply well_line; [vm_compute; reflexivity|vm_compute; reflexivity|]. apply well_line; [vm_compute; reflexivity|vm_compute; reflexivity|exact Logic.I].
Qed.
Print Assumptions c78_same_path_refuted.
Lemma grid_guarded : guarded $"GRID_H" grid.
Proof.
  destruct grid_translated as (ps & segs & b & E & R & W & NE & F & SL & _).
  exists grid_parts, [$(GramExamples.nl1 ++ "#ifndef GRID_H" ++ GramExamples.nl1 ++ "#define GRID_H" ++ GramExamples.nl1 ++ "#define WIDTH 4 " ++ GramExamples.nl1 ++ "#define AREA (WIDTH * ");
    $("2)" ++ GramExamples.nl1 ++ "#if WIDTH > 3" ++ GramExamples.nl1 ++ "int cells[AREA];" ++ GramExamples.nl1 ++ "#else" ++ GramExamples.nl1 ++ "int none;" ++ GramExamples.nl1 ++ "#endif" ++ GramExamples.nl1 ++ "#endif" ++ GramExamples.nl1)].
  exists [[]], $"#ifndef GRID_H",
    (BLine $"#define GRID_H" (BLine $"#define WIDTH 4 " (BLine $"#define AREA (WIDTH * 2)"
      (BCond $"#if WIDTH > 3" (BLine $"int cells[AREA];" BNil) (RElse $"#else" (BLine $"int none;" BNil) $"#endif") BNil)))), $"#endif", [[]].
  split; [reflexivity|]. split; [apply reads_check; vm_compute; reflexivity|]. split; [vm_compute; reflexivity|]. split; [discriminate|].
  split; [constructor; [apply occurs_check; vm_compute; reflexivity|constructor; [apply occurs_check; vm_compute; reflexivity|constructor]]|].
  split; [vm_compute; reflexivity|]. split; [constructor; [intros c []|constructor]|]. split; [constructor; [intros c []|constructor]|].
  split; [apply identb_ok; reflexivity|]. split; [right; right; left; vm_compute; reflexivity|]. split.
  { apply (ts_ifndef $"GRID_H" [sp] []); [gap_ok|discriminate|gap_ok|]. exists [], []. repeat split. intros c r X. injection X as <- _. reflexivity. }
  split; [|vm_compute; reflexivity].
  do 3 (apply well_line; [vm_compute; reflexivity|vm_compute; reflexivity|]).
  apply well_cond; [left; vm_compute; reflexivity|apply well_line; [vm_compute; reflexivity|vm_compute; reflexivity|exact Logic.I]| |exact Logic.I].
  apply well_else; [vm_compute; reflexivity|apply well_line; [vm_compute; reflexivity|vm_compute; reflexivity|exact Logic.I]|vm_compute; reflexivity].
Qed.
Example c78_example :
  guarded $"GRID_H" grid /\ known_to grid_macros $"GRID_H" /\ stands_for (macros_of (read_header $"grid.h" grid)) grid_macros.
Proof.
  split; [exact grid_guarded|]. split; [left; vm_compute; discriminate|].
  destruct (c77_header_partial no_fmt no_ext ev0 GramExamples.base0 [] init_store no_macros $"grid.h" grid grid_out grid_macros [cells]
    PropsGram.good0 (proj1 init_tables) (proj1 (proj2 init_tables)) grid_translated grid_header cells_harmless) as (s1 & s' & t' & E & _ & ST & _ & MO).
  unfold read_header. rewrite E, MO. exact ST.
Qed.

(** C79: several headers are read in the order of the list, each with the macros left by the
    ones before, and each declaration is recorded under the path of its header.  Missing: as in
    C77; headers with the same path (see C78). *)
Theorem c79_headers_partial :
  forall fo ext ev base mods sub contents find rs headers s m fs, GramSpec.good_config base mods ->
  macro_tables s -> stands_for (macros_of s) m ->
  Forall2 (resolves contents find) headers (map f_path fs) -> Forall (on_disk sub contents rs) fs -> NoDup (map f_path fs) ->
  program base mods m fs ->
  exists p, parse_headers fo ext ev base mods sub contents find rs headers s = Some (Ok p)
    /\ p_order p = map f_path fs /\ read_all ev base mods s fs (p_store p).
Proof. exact read_program. Qed.
Print Assumptions c79_headers_partial.
(** A header that is nowhere is reported, and nothing is read. *)
Theorem c79_missing :
  forall fo ext ev base mods sub contents find rs headers h s, In h headers -> contents h = None -> find h = None ->
  parse_headers fo ext ev base mods sub contents find rs headers s = Some (Err OSError).
Proof. exact read_missing. Qed.
Print Assumptions c79_missing.
Definition row : GramModel.gtop :=
  GramModel.GVar (GramModel.GSpec [] (GramModel.GWord $"int"))
    [GramModel.GNode [] None [] (GramModel.GNamed false $"row") None [$"4"]] NoInit.
Definition grid_source : source :=
  {| f_path := $"lib/grid.h"; f_text := grid; f_out := grid_out; f_decls := [cells]; f_macros := grid_macros |}.
Definition row_source : source :=
  {| f_path := $"row.h"; f_text := $"int row[WIDTH];"; f_out := [$"int row[4];"]; f_decls := [row]; f_macros := grid_macros |}.
Definition files0 (h : str) : option str :=
  if eqb h $"lib/grid.h" then Some grid else if eqb h $"row.h" then Some $"int row[WIDTH];" else None.
Definition find0 (h : str) : option str := if eqb h $"grid.h" then Some $"lib/grid.h" else None.
Example c79_example :
  Forall2 (resolves files0 find0) [$"grid.h"; $"row.h"] (map f_path [grid_source; row_source])
  /\ Forall (on_disk no_sub files0 []) [grid_source; row_source] /\ NoDup (map f_path [grid_source; row_source])
  /\ program GramExamples.base0 [] no_macros [grid_source; row_source]
  /\ exists p, parse_headers no_fmt no_ext ev0 GramExamples.base0 [] no_sub files0 find0 [] [$"grid.h"; $"row.h"] init_store = Some (Ok p)
       /\ map fst (defs (p_store p) Variables) = [$"cells"; $"row"]
       /\ exists u, defined_in (p_store p) (Some $"row.h") Variables $"row" = Some (EVar ONone u)
            /\ read_type u = Some (TArr [] (ONum (VInt 4)) (TBase [] $"int")).
Proof.
  split; [constructor; [reflexivity|constructor; [reflexivity|constructor]]|].
  split; [constructor; [eexists; split; reflexivity|constructor; [eexists; split; reflexivity|constructor]]|].
  split; [constructor; [intros [E|[]]; discriminate E|constructor; [intros []|constructor]]|].
  split.
  - split; [exact grid_translated|]. split; [exact grid_header|]. split; [exact cells_harmless|]. split; [|split; [|split; [|exact Logic.I]]].
    + exists (code $"int row[WIDTH];"), [$"int row[WIDTH];"], (BLine $"int row[WIDTH];" BNil).
      split; [reflexivity|]. split; [apply reads_check; vm_compute; reflexivity|]. split; [reflexivity|]. split; [discriminate|].
      split; [constructor; [apply occurs_check; vm_compute; reflexivity|constructor]|]. split; [vm_compute; reflexivity|].
      apply cpp_text; [vm_compute; reflexivity|apply expands_check; vm_compute; reflexivity|apply cpp_nil].
    + change (RunSpec.header GramExamples.base0 [] None [row] $"int row[4];"). apply GramExamples.header_check; [|vm_compute; reflexivity|vm_compute; reflexivity|vm_compute; reflexivity|vm_compute; reflexivity].
      eapply GramExamples.seq_conv; [unfold row; GramExamples.spell|vm_compute; reflexivity].
    + constructor; [intros E; discriminate E|constructor].
  - eexists. split; [vm_compute; reflexivity|]. split; [vm_compute; reflexivity|]. eexists. split; [vm_compute; reflexivity|vm_compute; reflexivity].
Qed.
(** The full statement fails for a path that is given twice: what is read the second time is the preprocessed
    text, without the directives; a structure loses its packing, and a name is read with the macros that
    were defined after it. *)
Definition packed_text : str :=
  $"#pragma pack(push, 1)" ++ [nl] ++ $"struct s { char a; int b; };" ++ [nl] ++ [nl] ++ $"#pragma pack(pop)" ++ [nl] ++ $"int w;" ++ [nl] ++ $"#define w width".
Definition pack_of (s : store entry) (n : str) : option (option Z) := match defined s Structs n with Some (EComp _ pack) => Some pack | _ => None end.
Theorem c79_same_path_refuted :
  exists text p q,
    parse_headers no_fmt no_ext ev0 GramExamples.base0 [] no_sub (one_file $"a.h" text) nowhere [] [$"a.h"] init_store = Some (Ok p)
    /\ parse_headers no_fmt no_ext ev0 GramExamples.base0 [] no_sub (one_file $"a.h" text) nowhere [] [$"a.h"; $"a.h"] init_store = Some (Ok q)
    /\ pack_of (p_store p) $"s" = Some (Some 1%Z) /\ pack_of (p_store q) $"s" = Some None
    /\ map fst (defs (p_store p) Variables) = [$"w"] /\ map fst (defs (p_store q) Variables) = [$"w"; $"width"].
Proof. exists packed_text. do 2 eexists. split; [vm_compute; reflexivity|]. split; [vm_compute; reflexivity|]. split; [vm_compute; reflexivity|]. split; [vm_compute; reflexivity|]. split; vm_compute; reflexivity. Qed.
Print Assumptions c79_same_path_refuted.

(** C80: the search reports exactly the lines that contain the text, each once, with the name
    of the file and the number of the line in the text that is kept. *)
Theorem c80_found :
  forall files x res, NoDup (keys files) -> find_text files x = Ok res ->
  (forall f i l, In (f, i, l) res <-> exists t, dget files f = Some (Some t) /\ line_of t i l /\ occurs x l) /\ NoDup res.
Proof. exact text_found. Qed.
Print Assumptions c80_found.
(** It raises exactly if a file could not be loaded. *)
Theorem c80_raises :
  forall files x, NoDup (keys files) ->
  ((exists res, find_text files x = Ok res) <-> forall f, dget files f <> Some None)
  /\ forall e, find_text files x = Err e -> e = AttributeError.
Proof. exact text_raises. Qed.
Print Assumptions c80_raises.
(** The text that is kept is the preprocessed one, where lines have moved. *)
Theorem c80_lines_refuted :
  exists text x p, line_of text 1 x
    /\ parse_headers no_fmt no_ext ev0 GramExamples.base0 [] no_sub (one_file $"a.h" text) nowhere [] [$"a.h"] init_store = Some (Ok p)
    /\ find_text (p_files p) x = Ok [($"a.h", 0, x)].
Proof.
  exists ($"#pragma once" ++ [nl] ++ $"int x;"), $"int x;". eexists. split; [vm_compute; reflexivity|].
  split; [vm_compute; reflexivity|vm_compute; reflexivity].
Qed.
Print Assumptions c80_lines_refuted.
Example c80_example :
  find_text [($"a.h", Some ($"int x;" ++ [nl] ++ $"int y;" ++ [nl] ++ $"char xx;")); ($"b.h", Some $"x")] $"x"
  = Ok [($"a.h", 0, $"int x;"); ($"a.h", 2, $"char xx;"); ($"b.h", 0, $"x")].
Proof. vm_compute. reflexivity. Qed.
