(** C93: the text that was not parsed. *)
From Coq Require Import Ascii String Bool Arith ZArith Lia List.
Import ListNotations.
From Verif Require Import PyBase PyBaseFacts PyStr PyExpr TypeModel StoreModel StoreSpec MacroModel PpModel DeclModel DeclSpec EvalModel
  GramModel FileModel GramSpec GramLex GramTotal GramTabs RunSpec GramRun GramExamples NoiseSpec NoiseProofs UnparsedModel UnparsedSpec UnparsedProofs.
From Verif Require PropsDecl PropsGram PropsNoise PropsMacro PpExamples PropsFile PropsCached.

(** C93, for all texts: what is returned is the text without some pieces, one for every declaration that was
    found.  Nothing else is lost but white space, and no blank lines are left. *)
Theorem c93_pieces :
  forall ev base mods l s path text, ~ In [] base -> ~ In [] mods ->
  exists ds u ps last, parse_unparsed ev base mods l s path text = Some (run_tops ev (set_cur s path) ds, u)
    /\ text = whole ps last /\ same_ink u (kept ps last) /\ ~ blank_line u /\ length ps = length ds
    /\ Forall (fun x => exists c r, snd x = c :: r /\ is_ws c = false) ps.
Proof. exact unparsed_pieces. Qed.
Print Assumptions c93_pieces.
(** Without tabs, the tables are those of a run that does not ask for the text. *)
Theorem c93_tables :
  forall ev base mods l s path text, ~ In PyStr.tab text ->
  option_map fst (parse_unparsed ev base mods l s path text) = parse_file ev base mods l s path text.
Proof. exact unparsed_tables. Qed.
Print Assumptions c93_tables.
Theorem c93_all_files :
  forall fo ext ev base mods order p p', NoDup order ->
  (forall f t, In f order -> dget (p_files p') f = Some (Some t) -> ~ In PyStr.tab t) ->
  process_files fo ext ev base mods p order = Some (Ok p')
  <-> exists us, unparsed_files fo ext ev base mods p order = Some (Ok (p', us)) /\ length us = length order.
Proof. intros fo ext ev base mods order p p' ND NT. exact (files_same fo ext ev base mods order ND p p' NT). Qed.
Print Assumptions c93_all_files.
(** In a header of declarations with other things around them (see C92), with tabs as one likes outside of
    literals, just these things are returned.
    Missing: other things than those of C92; tabs in literals ([c93_tab_refuted]). *)
Theorem c93_leftovers_partial :
  forall ev base mods pack l ns ds text s path, good_config base mods -> (forall n, packing_at l n = pack) ->
  noise_header base mods pack ns ds text ->
  exists r u, parse_file ev base mods l s path text = Some r /\ parse_unparsed ev base mods l s path text = Some (r, u) /\ written ns u.
Proof. exact unparsed_noise. Qed.
Print Assumptions c93_leftovers_partial.
(** Of a header of declarations only white space is left. *)
Theorem c93_nothing_left :
  forall ev base mods pack l ds ts text s path, good_config base mods -> (forall n, packing_at l n = pack) ->
  seq_list (sp_top base mods pack) ds ts -> tabs_outside ts -> written ts text ->
  exists r u, parse_file ev base mods l s path text = Some r /\ parse_unparsed ev base mods l s path text = Some (r, u) /\ forallb is_ws u = true.
Proof.
  intros ev base mods pack l ds ts text s path GC PK SQ TO W.
  destruct (unparsed_noise ev base mods pack l [] ds text s path GC PK) as (r & u & E1 & E2 & E3).
  - exists False, ts. split; [apply seq_noise; exact SQ|]. split; [exact TO|]. split; [exact W|intros []].
  - exists r, u. split; [exact E1|]. split; [exact E2|]. apply written_nil. exact E3.
Qed.
Print Assumptions c93_nothing_left.

(** The header of C92. *)
Definition left_tokens : list str := [$"extern"; c_linkage; $"{"; $"MYAPI"; $"MYAPI"; $"MYAPI"; $"}"; $";"].
Definition left_text : str := $("extern ""C"" {" ++ nl1 ++ "MYAPI " ++ nl1 ++ "MYAPI " ++ nl1 ++ "MYAPI " ++ nl1 ++ "};" ++ nl1)%string.
Lemma guarded_noise : noise_header base0 [] None left_tokens PropsNoise.guarded_decls PropsNoise.guarded.
Proof.
  assert (PM : plain_name base0 [] $"MYAPI") by (apply plain_check; reflexivity).
  exists True, PropsNoise.guarded_tokens. split.
  - apply no_linkage; [exact Logic.I|]. apply no_mark; [right; left; reflexivity|].
    apply no_word; [exact PM| |apply (no_decl base0 [] None True _ PropsNoise.f_tokens)].
    { do 2 eexists. split; [symmetry; apply app_nil_l|]. split; [constructor|]. left. do 2 eexists. split; [reflexivity|apply mem_str; reflexivity]. }
    { eapply PropsNoise.top_conv; [unfold PropsGram.words, PropsNoise.int_arg, PropsGram.name_decl; spell|vm_compute; reflexivity]. }
    apply no_word; [exact PM| |apply (no_decl base0 [] None True _ PropsNoise.g_tokens)].
    { exists [$"const"], (skipn 1 PropsNoise.g_tokens ++ $"MYAPI" :: PropsNoise.open_tokens ++ [$"}"; $";"]). split; [reflexivity|]. split; [apply quals_check; reflexivity|]. left.
      do 2 eexists. split; [reflexivity|apply mem_str; reflexivity]. }
    { eapply PropsNoise.top_conv; [unfold PropsGram.words, PropsNoise.int_arg, PropsGram.name_decl; spell|vm_compute; reflexivity]. }
    apply no_word; [exact PM| |apply (no_decl base0 [] None True _ PropsNoise.open_tokens)].
    { do 2 eexists. split; [symmetry; apply app_nil_l|]. split; [constructor|]. right.
      do 3 eexists. split; [reflexivity|]. split; [left; apply plain_check; reflexivity|left; apply word_check; reflexivity]. }
    { eapply PropsNoise.top_conv; [unfold PropsGram.words, PropsNoise.int_arg, PropsGram.name_decl; spell|vm_compute; reflexivity]. }
    apply no_mark; [right; right; left; reflexivity|]. apply no_mark; [left; reflexivity|]. constructor.
  - destruct PropsNoise.guarded_header as (ts & _ & _). split; [apply PropsNoise.no_tabs; vm_compute; reflexivity|]. split; [|intros _; apply PropsNoise.one_string_check; vm_compute; reflexivity].
    change PropsNoise.guarded_tokens with (map snd PropsNoise.guarded_layout). unfold written.
    replace PropsNoise.guarded with (flat_map (fun x => fst x ++ snd x) PropsNoise.guarded_layout ++ [nl]) by (vm_compute; reflexivity).
    apply PropsNoise.lay_tokens; [reflexivity|apply PropsNoise.tokens_check; vm_compute; reflexivity|vm_compute; reflexivity].
Qed.
Example c93_example : good_config base0 [] /\ (forall n, packing_at [] n = None)
  /\ noise_header base0 [] None left_tokens PropsNoise.guarded_decls PropsNoise.guarded /\ ~ In PyStr.tab PropsNoise.guarded
  /\ option_map snd (parse_unparsed PropsDecl.ev0 base0 [] [] init_store None PropsNoise.guarded) = Some left_text
  /\ option_map (fun r => map fst (defs (fst (fst r)) Functions)) (parse_unparsed PropsDecl.ev0 base0 [] [] init_store None PropsNoise.guarded)
     = Some [$"f"; $"g"; $"open"].
Proof.
  split; [exact PropsGram.good0|]. split; [reflexivity|]. split; [exact guarded_noise|]. split; [|split; vm_compute; reflexivity].
  intros I. apply mem_In in I. vm_compute in I. discriminate.
Qed.
(** Only declarations, with a function body and tabs. *)
Definition tidy : str := $("int f(int a);" ++ nl1 ++ nl1)%string ++ PyStr.tab :: $"handle_t" ++ PyStr.tab :: $"open(int n);".
Definition tidy_tokens : list str := PropsNoise.f_tokens ++ PropsNoise.open_tokens.
Definition tidy_decls : list gtop := [nth 0 PropsNoise.guarded_decls (GTypedef (PropsGram.words []) []); nth 2 PropsNoise.guarded_decls (GTypedef (PropsGram.words []) [])].
Example c93_nothing_example : seq_list (sp_top base0 [] None) tidy_decls tidy_tokens /\ tabs_outside tidy_tokens /\ written tidy_tokens tidy
  /\ In PyStr.tab tidy /\ option_map snd (parse_unparsed PropsDecl.ev0 base0 [] [] init_store None tidy) = Some [nl; PyStr.tab].
Proof.
  split; [|split; [|split; [|split]]].
  - unfold tidy_decls, PropsNoise.guarded_decls, PropsNoise.int_arg, PropsGram.words, PropsGram.name_decl. cbn [nth]. eapply seq_conv; [spell|vm_compute; reflexivity].
  - apply PropsNoise.no_tabs. vm_compute. reflexivity.
  - pose proof (lay_check (fst (split_all tidy)) [] eq_refl nl) as L. unfold written.
    replace tidy with (flat_map (fun x => fst x ++ snd x) (fst (split_all tidy)) ++ []) by (vm_compute; reflexivity).
    apply L. vm_compute. reflexivity.
  - apply mem_In. vm_compute. reflexivity.
  - vm_compute. reflexivity.
Qed.
Definition one_parser (f t : str) : parser := {| p_files := [(f, Some t)]; p_order := [f]; p_store := init_store |}.
Definition noted : str := $("/* part of C */" ++ nl1 ++ "#define N 4" ++ nl1 ++ "MYAPI int f(int a);" ++ nl1 ++ "int t[N];" ++ nl1)%string.
Definition noted_result := unparsed_files PropsMacro.no_fmt PpExamples.no_ext PropsDecl.ev0 base0 [] (one_parser $"a.h" noted) [$"a.h"].
Definition parser_of (x : option (res (parser * list str))) : parser :=
  match x with Some (Ok (p, _)) => p | _ => new_parser init_store end.
Example c93_files_example : NoDup [$"a.h"]
  /\ (forall f t, In f [$"a.h"] -> dget (p_files (parser_of noted_result)) f = Some (Some t) -> ~ In PyStr.tab t)
  /\ noted_result = Some (Ok (parser_of noted_result, [$(nl1 ++ "MYAPI " ++ nl1)%string]))
  /\ map fst (defs (p_store (parser_of noted_result)) Variables) = [$"t"].
Proof.
  split; [constructor; [intros []|constructor]|]. split; [|split; vm_compute; reflexivity].
  intros f t [<-|[]] E I. assert (T : option_map (fun o => match o with Some t => mem PyStr.tab t | None => false end) (dget (p_files (parser_of noted_result)) $"a.h") = Some false)
    by (vm_compute; reflexivity).
  rewrite E in T. cbn [option_map] in T. apply mem_In in I. congruence.
Qed.

(** Asking for the text changes the tables, if there are tabs in literals: they are expanded otherwise.  The
    value of a literal is the text between its quotes. *)
Definition with_strings (d : dict str pobj) (e : str) : res pobj :=
  match e with
  | c :: r => if is_quote c then Ok (OStr (removelast r)) else PropsDecl.ev0 d e
  | [] => PropsDecl.ev0 d e
  end.
Definition tabbed : str := $"const char *s = ""a" ++ PyStr.tab :: $"b"";".
Definition initial (s : store entry) (n : str) : option pobj :=
  match dget (defs s Variables) n with Some (EVar v _) => Some v | _ => None end.
Theorem c93_tab_refuted :
  exists text r r', option_map fst (parse_unparsed with_strings base0 [] [] init_store None text) = Some (r, None)
    /\ parse_file with_strings base0 [] [] init_store None text = Some (r', None)
    /\ initial r $"s" = Some (OStr ("a"%char :: PyStr.tab :: $"b")) /\ initial r' $"s" = Some (OStr $"a      b").
Proof.
  exists tabbed. eexists. eexists. split; [vm_compute; reflexivity|]. split; [vm_compute; reflexivity|].
  split; vm_compute; reflexivity.
Qed.
Print Assumptions c93_tab_refuted.
(** The text that is left is not free of declarations: words come together that were apart. *)
Definition apart_text : str := $"foo int f(int a); bar int g(int a); ;".
Theorem c93_again_refuted :
  exists text r u ds, parse_unparsed PropsDecl.ev0 base0 [] [] init_store None text = Some (r, u)
    /\ parse_defs base0 [] [] u = Some ds /\ ds = [GVar (PropsGram.words $"foo") [PropsGram.name_decl $"bar"] NoInit]
    /\ dget (defs (fst r) Variables) $"bar" = None.
Proof.
  exists apart_text. do 3 eexists. split; [vm_compute; reflexivity|]. split; [vm_compute; reflexivity|]. split; vm_compute; reflexivity.
Qed.
Print Assumptions c93_again_refuted.
(** Nothing is returned if the definitions are taken from a cache file. *)
Definition noted_opts : opts entry := ctor_opts {| a_files := [$"/src/a.h"]; a_copy := []; a_replace := None; a_encoding := $"utf-8"; a_kw := [] |}.
Definition noted_run (fs : fsys entry) :=
  process_all_unparsed PropsMacro.no_fmt PpExamples.no_ext PropsDecl.ev0 base0 [] PropsCached.text_eq
    fs $"/m" noted_opts (Some $"lib.cache") true (one_parser $"/src/a.h" noted).
Theorem c93_cached_refuted :
  exists p1 us c p2, noted_run PropsCached.no_disk = Some (Ok (p1, Some us, Some c)) /\ us <> []
    /\ noted_run (PropsCached.with_cache [$"/src/a.h"] c) = Some (Ok (p2, None, None))
    /\ map fst (defs (p_store p2) Variables) = map fst (defs (p_store p1) Variables).
Proof.
  do 4 eexists. split; [vm_compute; reflexivity|]. split; [discriminate|]. split; vm_compute; reflexivity.
Qed.
Print Assumptions c93_cached_refuted.
