(** C89: the constants of the headers, as attributes of the library. *)
From Coq Require Import Ascii String Bool Arith ZArith Lia List.
Import ListNotations.
From Verif Require Import PyBase PyBaseFacts PyStr PyStrFacts PyExpr TypeModel InitModel StoreModel StoreSpec DeclModel DeclSpec EvalModel EvalSpec ExprSpec.
From Verif Require Import MacroModel MacroSpec MacroProofs MacroDefProofs PpModel PpSpec TextSpec TextProofs PropsMacro PropsDecl.
From Verif Require Import FileModel FileSpec PackedSpec FilesSpec PpExamples FileExamples PropsFile PropsPacked.
From Verif Require Import GramModel RunSpec ChainSpec ConstModel ConstSpec ConstProofs.
From Verif Require GramSpec GramExamples PropsGram LibModel LibSpec.

(** C89: when the headers of a library have been read, [lib.name] is the value C gives an
    enumerator, also if its expression contains enumerators of the same or of earlier headers, and the value of
    an object-like macro that is a constant expression, also with enumerators of earlier headers, whatever has been
    accessed before; also if one of the prefixes of the library is left out of the name.
    Missing: expressions that C and Python read differently (C41); macros with enumerators of the same header
    ([c89_same_header_refuted]); enums in parameter lists and in structures. *)
Theorem c89_constants_partial :
  forall fo ext fund md visible ex base mods sub contents find rs headers s m us K T K', GramSpec.good_config base mods ->
  macro_tables s -> stands_for (macros_of s) m -> typed_values s -> valued (text_value fund md) s -> agrees (values s) K ->
  (forall n, defined s Enums n <> None -> In n T) ->
  Forall2 (resolves contents find) headers (map u_path us) -> Forall (stored sub contents rs) us -> NoDup (map u_path us) ->
  units base mods m us -> enumerators (c_const fund md) K T us K' ->
  exists p, parse_headers fo ext (c_eval fund md visible ex) base mods sub contents find rs headers s = Some (Ok p)
    /\ forall show prefix build l, let h := library_of show prefix build (p_store p) in
       LibSpec.no_clash h -> Forall (LibSpec.complete h) l ->
       (forall n z, dget K' n = Some z -> constant_is show prefix (p_store p) h l n z)
       /\ (forall n body v z, obj (macros_behind m us) n = Some body -> complete (macros_behind m us) body v ->
             c_const fund md [] v z -> constant_is show prefix (p_store p) h l n z)
       /\ forall us1 f us2 K1 n body v z, us = us1 ++ f :: us2 -> enumerators (c_const fund md) K T us1 K1 ->
            (forall w, dget K1 w <> None -> ~ defines_macro w (u_text f)) -> obj (macros_behind m us1) n = None ->
            Forall (fun g => ~ defines_macro n (u_text g)) us2 ->
            obj (macros_behind m us) n = Some body -> complete (macros_behind m us) body v ->
            c_const fund md K1 v z -> constant_is show prefix (p_store p) h l n z.
Proof. exact constants_known. Qed.
Print Assumptions c89_constants_partial.

(** Helpers of the example: two headers; the second uses a macro and an enumerator of the first. *)
Definition mode_text : str := $"#define BASE 16" ++ [nl] ++ $"enum mode { OFF, SLOW = 3, FAST };".
Definition mode_decl : gtop := GVar (GSpec [] (GEnum (Some $"mode") [($"OFF", None); ($"SLOW", Some $"3"); ($"FAST", None)])) [] NoInit.
Definition mode_macros : cmac := set_obj no_macros $"BASE" (Some $"16").
Definition mode_unit : unit :=
  {| u_path := $"mode.h"; u_text := mode_text; u_lines := [Put []; Put $"enum mode { OFF, SLOW = 3, FAST };"];
     u_decls := [mode_decl]; u_macros := mode_macros |}.
Definition limit_text : str := $"#define LIMIT (BASE * FAST)" ++ [nl] ++ $"enum { LAST = FAST + 1 } current;".
Definition limit_decl : gtop :=
  GVar (GSpec [] (GEnum None [($"LAST", Some $"FAST + 1")])) [GNode [] None [] (GNamed false $"current") None []] NoInit.
Definition limit_macros : cmac := set_obj mode_macros $"LIMIT" (Some $"(BASE * FAST)").
Definition limit_unit : unit :=
  {| u_path := $"limit.h"; u_text := limit_text; u_lines := [Put []; Put $"enum { LAST = FAST + 1 } current;"];
     u_decls := [limit_decl]; u_macros := limit_macros |}.
Definition mode_disk (h : str) : option str :=
  if eqb h $"mode.h" then Some mode_text else if eqb h $"limit.h" then Some limit_text else None.
Definition mode_known : dict str Z := [($"OFF", 0%Z); ($"SLOW", 3%Z); ($"FAST", 4%Z)].
Definition defb (n l : str) : bool :=
  match directive l with
  | Some (d, r) => eqb d $"define" && match macro_name r with Some (x, _) => eqb x n | None => false end
  | None => false
  end.
Lemma defb_ok n l : MacroSpec.ident n -> defining n l -> defb n l = true.
Proof.
  intros ID (g & rest & D & G & R). unfold defb. rewrite D. cbn [fst]. rewrite eqb_refl. cbn [andb]. unfold macro_name.
  destruct (ident_idchars n ID) as [_ FI]. destruct n as [|c n]; [destruct ID|]. destruct ID as [I1 I2].
  rewrite drop_while_app_all by exact G. cbn [app].
  assert (NS : is_space c = false).
  { apply not_true_iff_false. intros X. apply idstart_idchar in I1. clear - X I1. destruct c as [[] [] [] [] [] [] [] []]; vm_compute in X, I1; discriminate. }
  cbn [drop_while]. rewrite NS, I1. cbn [forallb] in FI. apply andb_true_iff in FI. destruct FI as [_ FI].
  rewrite (span_run is_idchar n rest FI); [apply eqb_refl|]. destruct rest as [|d r]; [reflexivity|]. cbn. rewrite (R d r eq_refl). reflexivity.
Qed.
Lemma undefined_check n text : MacroSpec.ident n ->
  existsb (defb n) (split_on nl (join_lines (remove_comments text))) = false -> ~ defines_macro n text.
Proof.
  intros ID E (ps & segs & l & ET & R & W & NE & F & I1 & D). apply not_true_iff_false in E. apply E. apply existsb_exists. exists l.
  split; [|apply defb_ok; assumption]. rewrite ET, remove_comments_reads, W, join_lines_segs by assumption. exact I1.
Qed.
Lemma known_cases {V} (d : dict str V) n : dget d n <> None -> In n (map fst d).
Proof.
  induction d as [|[k v] d IH]; intros H; [contradiction H; reflexivity|]. cbn [dget] in H. cbn [map fst]. destruct (eqb_spec n k) as [->|_]; [left; reflexivity|right; apply IH; exact H].
Qed.
Ltac plain_put o m := apply (tr_line m _ [o] m);
  [apply cpp_text; [vm_compute; reflexivity|apply expands_check; vm_compute; reflexivity|apply cpp_nil]|vm_compute; discriminate
  |intros I1; vm_compute in I1; repeat (destruct I1 as [I1|I1]; [discriminate I1|]); exact I1|apply tr_nil].
Lemma mode_traced : traced_text no_macros mode_text (u_lines mode_unit) mode_macros.
Proof.
  exists (code mode_text), [mode_text], (BLine $"#define BASE 16" (BLine $"enum mode { OFF, SLOW = 3, FAST };" BNil)).
  split; [vm_compute; reflexivity|]. split; [apply reads_check; vm_compute; reflexivity|]. split; [vm_compute; reflexivity|]. split; [discriminate|].
  split; [constructor; [apply occurs_check; vm_compute; reflexivity|constructor]|]. split; [vm_compute; reflexivity|].
  apply (tr_line no_macros _ [] mode_macros).
  { apply (cpp_define no_macros _ $"BASE" $"16" $"16"); [object_ok [sp] $"BASE" $"16" (@nil ascii)| |apply cpp_nil].
    split; [undefined|]. split; [unmentioned|]. split; [apply not_named; reflexivity|]. split; [apply expands_check; vm_compute; reflexivity|].
    split; [reflexivity|]. split; [apply free_check; reflexivity|]. split; [intros []|]. left. discriminate. }
  { vm_compute. discriminate. }
  { intros []. }
  plain_put $"enum mode { OFF, SLOW = 3, FAST };" mode_macros.
Qed.
Lemma limit_traced : traced_text mode_macros limit_text (u_lines limit_unit) limit_macros.
Proof.
  exists (code limit_text), [limit_text], (BLine $"#define LIMIT (BASE * FAST)" (BLine $"enum { LAST = FAST + 1 } current;" BNil)).
  split; [vm_compute; reflexivity|]. split; [apply reads_check; vm_compute; reflexivity|]. split; [vm_compute; reflexivity|]. split; [discriminate|].
  split; [constructor; [apply occurs_check; vm_compute; reflexivity|constructor]|]. split; [vm_compute; reflexivity|].
  apply (tr_line mode_macros _ [] limit_macros).
  { apply (cpp_define mode_macros _ $"LIMIT" $"(BASE * FAST)" $"(16 * FAST)"); [object_ok [sp] $"LIMIT" $"(BASE * FAST)" (@nil ascii)| |apply cpp_nil].
    split; [undefined|]. split; [unfold mode_macros; unmentioned|]. split; [apply not_named; reflexivity|]. split; [apply expands_check; vm_compute; reflexivity|].
    split; [reflexivity|]. split; [apply free_check; reflexivity|]. split; [intros []|]. right. split; [apply free_check; reflexivity|].
    apply no_params. vm_compute. reflexivity. }
  { vm_compute. discriminate. }
  { intros []. }
  plain_put $"enum { LAST = FAST + 1 } current;" limit_macros.
Qed.
Ltac grouping d := apply (gr_last _ _ _ None); [|apply opens_check; vm_compute; reflexivity];
  apply GramExamples.header_check; [|vm_compute; reflexivity|vm_compute; reflexivity|vm_compute; reflexivity|vm_compute; reflexivity];
  eapply GramExamples.seq_conv; [unfold d; GramExamples.spell|vm_compute; reflexivity].
Lemma mode_grouped : grouped GramExamples.base0 [] initial (u_lines mode_unit) [mode_decl].
Proof. grouping mode_decl. Qed.
Lemma limit_grouped : grouped GramExamples.base0 [] initial (u_lines limit_unit) [limit_decl].
Proof.
  assert (X : GramSpec.sp_text GramExamples.base0 [] $"FAST + 1" [$"FAST"; $"+"; $"1"]).
  { exists [$"FAST"; $"+"; $"1"]. split; [|reflexivity].
    apply (GramSpec.sp_binary _ _ [$"FAST"] [$"FAST"] $"+" [$"1"] [$"1"]).
    - apply (GramSpec.sp_unary _ _ [] [$"FAST"] [$"FAST"]); [constructor|]. apply GramSpec.sp_name. apply GramExamples.operand_check. reflexivity.
    - left. reflexivity.
    - apply GramSpec.sp_single. apply (GramSpec.sp_unary _ _ [] [$"1"] [$"1"]); [constructor|]. apply GramSpec.sp_num. apply GramExamples.num_check. reflexivity. }
  grouping limit_decl.
Qed.
Definition read_mode : option (res parser) :=
  parse_headers no_fmt no_ext ev0 GramExamples.base0 [] no_sub mode_disk (fun _ => None) [] [$"mode.h"; $"limit.h"] init_store.
Lemma mode_first : enumerators (c_const fund0 []) [] [] [mode_unit] mode_known.
Proof.
  split; [intros n H; contradiction H; reflexivity|]. split.
  { intros n H [(g & [<-|[]] & I2)|(m & l & I1 & I2)]; [destruct I2|]. vm_compute in I1. destruct I1 as [E|[]]. injection E as <- <-.
    apply H. vm_compute in I2. repeat (destruct I2 as [<-|I2]; [vm_compute; reflexivity|]). contradiction. }
  exists mode_known. split.
  { apply (en_enum _ [] [] mode_decl [] (Some $"mode") [($"OFF", None); ($"SLOW", Some $"3"); ($"FAST", None)] mode_known).
    - reflexivity.
    - intros n E. injection E as <-. split; [intros []|reflexivity].
    - repeat constructor; cbn; intuition discriminate.
    - apply ce_next. apply ce_given; [|apply ce_next; apply ce_end].
      exists (CNum $"3"). split; [|split; [reflexivity|split; [reflexivity|split; [intros w []|vm_compute; tauto]]]].
      split; [change (spells [TNum $"3"] ([] ++ $"3" ++ [])); apply spells_tok; [gap_ok|constructor; try (split; reflexivity); try discriminate|intros c r X; discriminate X|apply spells_end; gap_ok]|]. split; [cbn; lia|]. split; [intros w []|vm_compute; reflexivity].
    - intros n _. split; [intros []|intros (m & b & [] & _)].
    - apply en_end. }
  reflexivity.
Qed.
Lemma mode_kept n : dget mode_known n <> None -> ~ defines_macro n limit_text.
Proof. intros H; apply known_cases in H; vm_compute in H; repeat (destruct H as [<-|H]; [apply undefined_check; [apply PpExamples.identb_ok; reflexivity|vm_compute; reflexivity]|]); contradiction. Qed.
Lemma mode_enumerators : enumerators (c_const fund0 []) [] [] [mode_unit; limit_unit] (mode_known ++ [($"LAST", 5%Z)]).
Proof.
  destruct mode_first as (A & B & K1 & C & D). cbn [enumerators] in D. subst K1. split; [exact A|]. split; [exact B|]. exists mode_known. split; [exact C|].
  split; [exact mode_kept|].
  split.
  { intros n H [(g & [<-|[]] & I2)|(m & l & I1 & I2)].
    - vm_compute in I2. destruct I2 as [E|[]]. injection E as <-. apply H. vm_compute. reflexivity.
    - vm_compute in I1. destruct I1 as [E|[]]. injection E as <- <-. vm_compute in I2. destruct I2 as [<-|[]]. apply H. vm_compute. reflexivity. }
  eexists. split; [|reflexivity].
  apply (en_enum _ mode_known _ limit_decl [] None [($"LAST", Some $"FAST + 1")] [($"LAST", 5%Z)]).
  - reflexivity.
  - intros n E. discriminate E.
  - repeat constructor; cbn; intuition discriminate.
  - apply ce_given; [|apply ce_end]. exists (CBin OAdd (CId $"FAST") (CNum $"1")).
    split; [|split; [reflexivity|split; [reflexivity|split]]].
    + split; [cbn [toks app]; change (spells (TId $"FAST" :: [TBin OAdd; TNum $"1"]) ([] ++ $"FAST" ++ $" + 1")); apply spells_tok; [gap_ok|apply tt_id; [apply PpExamples.identb_ok; reflexivity|discriminate]|intros c r X; injection X as <- _; vm_compute; intuition discriminate|]; token_ok [sp] $"+"; change (spells [TNum $"1"] ([sp] ++ $"1" ++ [])); apply spells_tok; [gap_ok|constructor; try (split; reflexivity); try discriminate|intros c r X; discriminate X|apply spells_end; gap_ok]|]. split; [cbn; lia|]. split; [|vm_compute; reflexivity].
      intros w [<-|[]]. eexists. reflexivity.
    + intros w [<-|[]]. value_name_ok.
    + vm_compute. repeat split; try discriminate; tauto.
  - intros n H. apply known_cases in H. split; [|intros (m & b & [] & _)]. intros I1. vm_compute in I1. destruct I1 as [E|[]]. injection E as <-.
    vm_compute in H. repeat (destruct H as [H|H]; [discriminate H|]). exact H.
  - apply en_end.
Qed.
Example c89_example :
  macro_tables (@init_store entry) /\ stands_for (macros_of init_store) no_macros /\ typed_values (@init_store entry)
  /\ valued (text_value fund0 []) (@init_store entry) /\ agrees (values (@init_store entry)) []
  /\ Forall2 (resolves mode_disk (fun _ => None)) [$"mode.h"; $"limit.h"] (map u_path [mode_unit; limit_unit])
  /\ Forall (stored no_sub mode_disk []) [mode_unit; limit_unit] /\ NoDup (map u_path [mode_unit; limit_unit])
  /\ units GramExamples.base0 [] no_macros [mode_unit; limit_unit]
  /\ enumerators (c_const fund0 []) [] [] [mode_unit; limit_unit] (mode_known ++ [($"LAST", 5%Z)])
  /\ obj (macros_behind no_macros [mode_unit; limit_unit]) $"BASE" = Some $"16"
  /\ complete (macros_behind no_macros [mode_unit; limit_unit]) $"16" $"16" /\ c_const fund0 [] [] $"16" 16%Z
  /\ enumerators (c_const fund0 []) [] [] [mode_unit] mode_known /\ (forall w, dget mode_known w <> None -> ~ defines_macro w (u_text limit_unit))
  /\ obj (macros_behind no_macros [mode_unit]) $"LIMIT" = None
  /\ obj (macros_behind no_macros [mode_unit; limit_unit]) $"LIMIT" = Some $"(BASE * FAST)"
  /\ complete (macros_behind no_macros [mode_unit; limit_unit]) $"(BASE * FAST)" $"(16 * FAST)" /\ c_const fund0 [] mode_known $"(16 * FAST)" 64%Z
  /\ exists p, read_mode = Some (Ok p)
       /\ let h := library_of (fun v => match v with ONum (VInt z) => dec (Z.to_nat z) | _ => [] end) [] (fun _ _ => Ok LibModel.MNew) (p_store p) in
          LibSpec.no_clash h
          /\ map (fun n => fst (LibModel.do_access h (LibModel.Attr n) LibModel.no_cache)) [$"FAST"; $"LAST"; $"LIMIT"; $"BASE"]
             = map (fun v => Ok (LibModel.OValue v)) [$"4"; $"5"; $"64"; $"16"].
Proof.
  split; [apply init_tables|]. split; [apply init_tables|]. split; [intros n e []|]. split; [apply init_tables|]. split; [intros w z D; discriminate D|].
  split; [constructor; [reflexivity|constructor; [reflexivity|constructor]]|].
  split; [constructor; [eexists; split; reflexivity|constructor; [eexists; split; reflexivity|constructor]]|].
  split; [constructor; [intros [E|[]]; discriminate E|constructor; [intros []|constructor]]|].
  split.
  { split; [exact mode_traced|]. split; [exact Logic.I|]. split; [exact mode_grouped|]. split; [apply aligned_check; vm_compute; reflexivity|].
    split; [constructor; [intros E; discriminate E|constructor]|].
    split; [exact limit_traced|]. split; [exact Logic.I|]. split; [exact limit_grouped|]. split; [apply aligned_check; vm_compute; reflexivity|].
    split; [constructor; [intros E; discriminate E|constructor]|exact Logic.I]. }
  split; [exact mode_enumerators|]. split; [vm_compute; reflexivity|].
  split; [apply (xall_complete 50); vm_compute; reflexivity|]. split.
  { exists (CNum $"16"). split; [|split; [reflexivity|split; [reflexivity|split; [intros w []|vm_compute; tauto]]]].
    split; [change (spells [TNum $"16"] ([] ++ $"16" ++ [])); apply spells_tok; [gap_ok|constructor; try (split; reflexivity); try discriminate|intros c r X; discriminate X|apply spells_end; gap_ok]|]. split; [cbn; lia|]. split; [intros w []|vm_compute; reflexivity]. }
  split; [exact mode_first|]. split; [exact mode_kept|]. split; [vm_compute; reflexivity|]. split; [vm_compute; reflexivity|].
  split; [apply (xall_complete 50); vm_compute; reflexivity|]. split.
  { exists (CPar (CBin OMul (CNum $"16") (CId $"FAST"))). split.
    - split; [|split; [cbn; lia|split; [intros w [<-|[]]; eexists; reflexivity|reflexivity]]]. cbn [toks app].
      token_ok (@nil ascii) $"(". token_ok (@nil ascii) $"16". token_ok [sp] $"*". token_ok [sp] $"FAST"; [apply PpExamples.identb_ok; reflexivity|].
      change (spells [TClose] ([] ++ $")" ++ [])). apply spells_tok; [gap_ok|constructor|intros c r X; discriminate X|apply spells_end; gap_ok].
    - split; [reflexivity|]. split; [reflexivity|]. split; [intros w [<-|[]]; value_name_ok|]. vm_compute. repeat split; try discriminate; tauto. }
  eexists. split; [vm_compute; reflexivity|]. split; [intros k n p []|vm_compute; reflexivity].
Qed.

(** With prefixes: the same headers, opened with the prefixes X and L. *)
Definition all_kinds : list kind := [Types; Variables; Fnmacros; Macros; Structs; Unions; Enums; Functions; Values].
Definition usable_names (s : store entry) (k : kind) : list str := map fst (defs s k) ++ map fst (defs s Types).
Lemma usable_listed show prefix build s k n : LibSpec.usable (library_of show prefix build s) k n -> In n (usable_names s k).
Proof.
  assert (X : forall k, LibModel.h_defs (library_of show prefix build s) k n <> None -> In n (map fst (defs s k))).
  { intros k' H. apply known_cases. intros E. apply H. unfold library_of. cbn [LibModel.h_defs]. rewrite E. reflexivity. }
  intros [H|[_ H]]; apply in_or_app; [left|right]; apply X; exact H.
Qed.
Lemma no_clash_check show prefix build s :
  forallb (fun k => forallb (fun n => forallb (fun p => eqb p [] || negb (mem (p ++ n) (usable_names s k))) prefix) (usable_names s k)) all_kinds = true ->
  LibSpec.no_clash (library_of show prefix build s).
Proof.
  intros C k n p I1 NE U1 U2. apply usable_listed in U1, U2. rewrite forallb_forall in C.
  assert (I2 : In k all_kinds) by (destruct k; cbn; tauto). specialize (C k I2). rewrite forallb_forall in C. specialize (C n U1).
  rewrite forallb_forall in C. specialize (C p I1). apply orb_true_iff in C. destruct C as [C|C]; [apply eqb_eq in C; contradiction|].
  apply negb_true_iff in C. apply not_true_iff_false in C. apply C. unfold mem. apply existsb_exists. exists (p ++ n). split; [exact U2|apply eqb_refl].
Qed.
Example c89_prefix_example :
  exists p, read_mode = Some (Ok p)
  /\ let h := library_of (fun v => match v with ONum (VInt z) => dec (Z.to_nat z) | _ => [] end) [$"X"; $"L"] (fun _ _ => Ok LibModel.MNew) (p_store p) in
     LibSpec.no_clash h /\ Forall (LibSpec.complete h) [LibModel.Attr $"AST"; LibModel.Attr $"OFF"]
     /\ [$"X"; $"L"] = [$"X"] ++ $"L" :: [] /\ $"LIMIT" = $"L" ++ $"IMIT"
     /\ (forall q, In q [$"X"] -> dget (defs (p_store p) Values) (q ++ $"IMIT") = None)
     /\ fst (LibModel.do_access h (LibModel.Attr $"IMIT") (LibModel.accesses h [LibModel.Attr $"AST"; LibModel.Attr $"OFF"] LibModel.no_cache)) = Ok (LibModel.OValue $"64").
Proof.
  eexists. split; [vm_compute; reflexivity|]. cbv zeta. split; [apply no_clash_check; vm_compute; reflexivity|].
  split; [repeat constructor|]. split; [reflexivity|]. split; [reflexivity|]. split; [intros q [<-|[]]; vm_compute; reflexivity|vm_compute; reflexivity].
Qed.

(** A name that looks like one the parser invents: the enumerator is lost. *)
Theorem c89_tag_refuted :
  exists text, let h := library_of (fun _ => []) [] (fun _ _ => Ok LibModel.MNew) (read_header $"a.h" text) in
    GramSpec.good_config GramExamples.base0 [] /\ RunSpec.header GramExamples.base0 [] None
      [GVar (GSpec [] (GEnum None [($"A", None)])) [] NoInit; GVar (GSpec [] (GEnum (Some $"anon_enum0") [($"B", None)])) [] NoInit] text
    /\ fst (LibModel.do_access h (LibModel.Attr $"B") LibModel.no_cache) = Err NameError.
Proof.
  exists $"enum { A }; enum anon_enum0 { B };". cbv zeta. split; [exact PropsGram.good0|]. split; [|vm_compute; reflexivity].
  apply GramExamples.header_check; [|vm_compute; reflexivity|vm_compute; reflexivity|vm_compute; reflexivity|vm_compute; reflexivity].
  eapply GramExamples.seq_conv; [GramExamples.spell|vm_compute; reflexivity].
Qed.
Print Assumptions c89_tag_refuted.

(** A macro with an enumerator of the same header: macros are evaluated before enums. *)
Theorem c89_same_header_refuted :
  exists text, let h := library_of (fun _ => []) [] (fun _ _ => Ok LibModel.MNew) (read_header $"a.h" text) in
    translated no_macros text [$"enum { A = 1 };"] (set_obj no_macros $"B" (Some $"A"))
    /\ RunSpec.header GramExamples.base0 [] None [GVar (GSpec [] (GEnum None [($"A", Some $"1")])) [] NoInit] $"enum { A = 1 };"
    /\ c_const fund0 [] [($"A", 1%Z)] $"A" 1%Z
    /\ fst (LibModel.do_access h (LibModel.Attr $"B") LibModel.no_cache) = Err NameError.
Proof.
  exists ($"enum { A = 1 };" ++ [nl] ++ $"#define B A"). cbv zeta. split; [|split; [|split]].
  - exists (code ($"enum { A = 1 };" ++ [nl] ++ $"#define B A")), [$"enum { A = 1 };" ++ [nl] ++ $"#define B A"], (BLine $"enum { A = 1 };" (BLine $"#define B A" BNil)).
    split; [vm_compute; reflexivity|]. split; [apply reads_check; vm_compute; reflexivity|]. split; [vm_compute; reflexivity|]. split; [discriminate|].
    split; [constructor; [apply occurs_check; vm_compute; reflexivity|constructor]|]. split; [vm_compute; reflexivity|].
    apply cpp_text; [vm_compute; reflexivity|apply expands_check; vm_compute; reflexivity|].
    apply (cpp_define no_macros _ $"B" $"A" $"A"); [object_ok [sp] $"B" $"A" (@nil ascii)| |apply cpp_nil].
    split; [undefined|]. split; [unmentioned|]. split; [apply not_named; reflexivity|]. split; [apply expands_check; vm_compute; reflexivity|].
    split; [reflexivity|]. split; [apply free_check; reflexivity|]. split; [intros []|]. left. discriminate.
  - apply GramExamples.header_check; [|vm_compute; reflexivity|vm_compute; reflexivity|vm_compute; reflexivity|vm_compute; reflexivity].
    eapply GramExamples.seq_conv; [GramExamples.spell|vm_compute; reflexivity].
  - exists (CId $"A"). split; [|split; [reflexivity|split; [reflexivity|split; [intros w [<-|[]]; value_name_ok|vm_compute; tauto]]]].
    split; [change (spells [TId $"A"] ([] ++ $"A" ++ [])); apply spells_tok; [gap_ok|apply tt_id; [apply PpExamples.identb_ok; reflexivity|discriminate]|intros c r X; discriminate X|apply spells_end; gap_ok]|]. split; [cbn; lia|]. split; [intros w [<-|[]]; eexists; reflexivity|vm_compute; reflexivity].
  - vm_compute. reflexivity.
Qed.
Print Assumptions c89_same_header_refuted.
