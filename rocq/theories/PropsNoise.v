(** C92: things between the declarations of a header. *)
From Coq Require Import Ascii String Bool Arith ZArith Lia List.
Import ListNotations.
From Verif Require Import PyBase PyBaseFacts PyStr PyExpr TypeModel StoreModel StoreSpec MacroModel PpModel DeclModel DeclSpec EvalModel
  GramModel GramSpec GramLex GramTotal GramTabs RunSpec GramRun GramExamples NoiseSpec NoiseProofs.
From Verif Require PropsDecl PropsGram FileSpec FileWhole FileExamples PropsFile TextSpec PpSpec.

(** Helpers of the examples: checking the layout of a text with literals, and its strings. *)
Lemma lay_tokens l e : forallb is_ws e = true -> Forall token (map snd l) -> forall c,
  (fix ok c l := match l with
                 | [] => true
                 | (b, t) :: l' => forallb is_ws b && match b, t with [], d :: _ => negb (glue c d) | _, _ => true end && ok (last t c) l'
                 end) c l = true ->
  lay c (map snd l) (flat_map (fun x => fst x ++ snd x) l ++ e).
Proof.
  intros E. induction l as [|[b t] l IH]; intros F c H; [constructor; exact E|]. apply andb_true_iff in H. destruct H as [H H4].
  apply andb_true_iff in H. destruct H as [H1 H3]. cbn [map flat_map fst snd]. rewrite <- !app_assoc. inversion F as [|x y T F']; subst.
  destruct (token_head t T) as (d & r & -> & _). apply (lay_tok c b (d :: r) d r); [exact H1|exact T|reflexivity| |apply (IH F' _ H4)].
  intros ->. apply negb_true_iff in H3. exact H3.
Qed.
Fixpoint one_stringb (s : str) : bool :=
  match strip_prefix c_linkage s with
  | Some b => negb (mem dquote (rest_of_line b)) && negb (mem bslash (rest_of_line b))
  | None => true
  end && match s with [] => true | _ :: r => one_stringb r end.
Lemma one_string_check s : one_stringb s = true -> one_string s.
Proof.
  intros H a. revert s H. induction a as [|c a IH]; intros s H b ->.
  - change (one_stringb ([] ++ c_linkage ++ b))
      with (negb (mem dquote (rest_of_line b)) && negb (mem bslash (rest_of_line b)) && one_stringb ($"C""" ++ b)) in H.
    apply andb_true_iff in H. destruct H as [H _]. apply andb_true_iff in H. destruct H as [H1 H2]. apply negb_true_iff in H1. apply negb_true_iff in H2.
    split; intros I; apply mem_In in I; congruence.
  - cbn [app one_stringb] in H. apply andb_true_iff in H. apply (IH _ (proj2 H) b eq_refl).
Qed.
Lemma linkage_token : token c_linkage.
Proof.
  right. right. right. left. exists dquote, $"C". split; [reflexivity|]. split; [reflexivity|].
  intros c [<-|[]]. repeat split; discriminate.
Qed.
Lemma top_conv base mods pack g t t' : sp_top base mods pack g t -> t = t' -> sp_top base mods pack g t'.
Proof. intros H <-. exact H. Qed.
(** A header for C and C++, with a word in front of every function that is usually a macro. *)
Definition guarded : str := $(
"extern ""C"" {" ++ nl1 ++
"MYAPI int f(int a);" ++ nl1 ++
"MYAPI const char *g(void);" ++ nl1 ++
"MYAPI handle_t open(int n);" ++ nl1 ++
"};" ++ nl1)%string.
Definition int_arg (n : str) : garg := GArg (PropsGram.words $"int") (PropsGram.name_decl n) None.
Definition guarded_decls : list gtop :=
  [GVar (PropsGram.words $"int") [GNode [] None [] (GNamed false $"f") (Some [int_arg $"a"]) []] NoInit;
   GVar (GSpec [$"const"] (GWord $"char"))
     [GNode [] None [[]] (GNamed false $"g") (Some [GArg (PropsGram.words $"void") (GNode [] None [] (GAbstract false) None []) None]) []] NoInit;
   GVar (PropsGram.words $"handle_t") [GNode [] None [] (GNamed false $"open") (Some [int_arg $"n"]) []] NoInit].
Definition f_tokens : list str := [$"int"; $"f"; $"("; $"int"; $"a"; $")"; $";"].
Definition g_tokens : list str := [$"const"; $"char"; $"*"; $"g"; $"("; $"void"; $")"; $";"].
Definition open_tokens : list str := [$"handle_t"; $"open"; $"("; $"int"; $"n"; $")"; $";"].
Definition guarded_tokens : list str :=
  $"extern" :: c_linkage :: $"{" :: $"MYAPI" :: f_tokens ++ $"MYAPI" :: g_tokens ++ $"MYAPI" :: open_tokens ++ [$"}"; $";"].
Lemma guarded_noisy : noisy base0 [] None True [] guarded_decls guarded_tokens.
Proof.
  assert (PM : plain_name base0 [] $"MYAPI") by (apply plain_check; reflexivity).
  apply nz_linkage; [exact Logic.I|]. apply nz_mark; [right; left; reflexivity|].
  apply nz_word; [exact PM| |apply (nz_decl base0 [] None True [] _ f_tokens)].
  { exists [], (f_tokens ++ $"MYAPI" :: g_tokens ++ $"MYAPI" :: open_tokens ++ [$"}"; $";"]). split; [reflexivity|]. split; [constructor|]. left.
    do 2 eexists. split; [reflexivity|apply mem_str; reflexivity]. }
  { eapply top_conv; [unfold PropsGram.words, int_arg, PropsGram.name_decl; spell|vm_compute; reflexivity]. }
  apply nz_word; [exact PM| |apply (nz_decl base0 [] None True [] _ g_tokens)].
  { exists [$"const"], (skipn 1 g_tokens ++ $"MYAPI" :: open_tokens ++ [$"}"; $";"]). split; [reflexivity|]. split; [apply quals_check; reflexivity|]. left.
    do 2 eexists. split; [reflexivity|apply mem_str; reflexivity]. }
  { eapply top_conv; [unfold PropsGram.words, int_arg, PropsGram.name_decl; spell|vm_compute; reflexivity]. }
  apply nz_word; [exact PM| |apply (nz_decl base0 [] None True [] _ open_tokens)].
  { exists [], (open_tokens ++ [$"}"; $";"]). split; [reflexivity|]. split; [constructor|]. right.
    do 3 eexists. split; [reflexivity|]. split; [left; apply plain_check; reflexivity|left; apply word_check; reflexivity]. }
  { eapply top_conv; [unfold PropsGram.words, int_arg, PropsGram.name_decl; spell|vm_compute; reflexivity]. }
  apply nz_mark; [right; right; left; reflexivity|]. apply nz_mark; [left; reflexivity|]. constructor.
Qed.
Definition blank : string := " ". Definition none : string := "".
Definition guarded_layout : list (str * str) :=
  map (fun x => ($(fst x), snd x))
    [(none, $"extern"); (blank, c_linkage); (blank, $"{");
     (nl1, $"MYAPI"); (blank, $"int"); (blank, $"f"); (none, $"("); (none, $"int"); (blank, $"a"); (none, $")"); (none, $";");
     (nl1, $"MYAPI"); (blank, $"const"); (blank, $"char"); (blank, $"*"); (none, $"g"); (none, $"("); (none, $"void"); (none, $")"); (none, $";");
     (nl1, $"MYAPI"); (blank, $"handle_t"); (blank, $"open"); (none, $"("); (none, $"int"); (blank, $"n"); (none, $")"); (none, $";");
     (nl1, $"}"); (none, $";")].
Lemma tokens_check l : forallb (fun t => tokenb t || eqb t c_linkage) l = true -> Forall token l.
Proof.
  intros H. apply Forall_forall. intros t I. rewrite forallb_forall in H. specialize (H t I). apply orb_true_iff in H.
  destruct H as [H|H]; [apply token_check; exact H|]. apply eqb_eq in H. subst t. exact linkage_token.
Qed.
Lemma no_tabs l : forallb (fun t => negb (mem PyStr.tab t)) l = true -> tabs_outside l.
Proof.
  intros H. apply Forall_forall. intros t I. left. rewrite forallb_forall in H. specialize (H t I). apply negb_true_iff in H.
  intros J. apply mem_In in J. congruence.
Qed.
Lemma guarded_header : header base0 [] None guarded_decls guarded.
Proof.
  exists True, guarded_tokens. split; [exact guarded_noisy|]. split; [apply no_tabs; vm_compute; reflexivity|]. split; [|intros _; apply one_string_check; vm_compute; reflexivity].
  change guarded_tokens with (map snd guarded_layout). unfold written.
  replace guarded with (flat_map (fun x => fst x ++ snd x) guarded_layout ++ [nl]) by (vm_compute; reflexivity).
  apply lay_tokens; [reflexivity|apply tokens_check; vm_compute; reflexivity|vm_compute; reflexivity].
Qed.
(** The same declarations and nothing else. *)
Definition bare : str := $"int f(int a); const char *g(void); handle_t open(int n);".
Lemma bare_written : bare_header base0 [] None guarded_decls bare.
Proof.
  apply bare_check; [|vm_compute; reflexivity|vm_compute; reflexivity|vm_compute; reflexivity|vm_compute; reflexivity].
  unfold guarded_decls, int_arg, PropsGram.words, PropsGram.name_decl. eapply seq_conv; [spell|vm_compute; reflexivity].
Qed.

(** C92: linkage specifications, semicolons, braces and undefined words in front of declarations
    are passed over: the declarations are read as if they stood alone. *)
Theorem c92_noise_partial :
  forall base mods pack l ds text, good_config base mods -> (forall n, packing_at l n = pack) ->
  header base mods pack ds text -> parse_defs base mods l text = Some ds.
Proof. exact noisy_defs. Qed.
Print Assumptions c92_noise_partial.
(** There is a text with the declarations alone that has the same effect. *)
Theorem c92_removed_partial :
  forall base mods pack ds text, good_config base mods -> header base mods pack ds text ->
  exists text', bare_header base mods pack ds text'
  /\ forall ev l l' s path, (forall n, packing_at l n = pack) -> (forall n, packing_at l' n = pack) ->
     parse_file ev base mods l s path text = parse_file ev base mods l' s path text'.
Proof. exact noise_removed. Qed.
Print Assumptions c92_removed_partial.
Theorem c92_same_tables_partial :
  forall ev base mods pack l l' ds text text' s path, good_config base mods ->
  (forall n, packing_at l n = pack) -> (forall n, packing_at l' n = pack) ->
  header base mods pack ds text -> bare_header base mods pack ds text' ->
  parse_file ev base mods l s path text = parse_file ev base mods l' s path text'.
Proof. exact noise_free. Qed.
Print Assumptions c92_same_tables_partial.
(** Whatever tokens follow the declarations, they are not read differently. *)
Theorem c92_what_follows :
  forall base mods pack l tail ds text, good_config base mods -> (forall n, packing_at l n = pack) ->
  noisy_header base mods pack tail ds text -> exists ds', parse_defs base mods l text = Some (ds ++ ds').
Proof.
  intros base mods pack l tail ds text GC PK H. destruct (noisy_parse base mods pack l tail ds text GC PK H) as (r & E & _).
  exact (ex_intro _ r E).
Qed.
Print Assumptions c92_what_follows.
Example c92_example : good_config base0 [] /\ (forall n, packing_at [] n = None)
  /\ header base0 [] None guarded_decls guarded /\ bare_header base0 [] None guarded_decls bare
  /\ option_map (fun r => map fst (defs (fst r) Functions)) (parse_file PropsDecl.ev0 base0 [] [] init_store None guarded) = Some [$"f"; $"g"; $"open"].
Proof.
  split; [exact PropsGram.good0|]. split; [reflexivity|]. split; [exact guarded_header|]. split; [exact bare_written|]. vm_compute. reflexivity.
Qed.
(** As a file, with comments: C77 and the theorems on several headers, packing, calls and constants are about
    such headers as well. *)
Definition guarded_parts : list TextSpec.part :=
  TextSpec.ABlock $" An interface. " :: FileExamples.code $"extern " ++ TextSpec.AQuoted dquote $"C" :: FileExamples.code ($" {" ++ [nl]
  ++ $"MYAPI int f(int a);") ++ TextSpec.ALine $" first" :: FileExamples.code ([nl] ++ $"MYAPI const char *g(void);" ++ [nl]
  ++ $"MYAPI handle_t open(int n);" ++ [nl] ++ $"};" ++ [nl]).
Lemma lines_plain m ls : (forall w, ~ FileSpec.known_to m w) -> Forall (fun l => directive l = None) ls ->
  FileSpec.cpp m (FileWhole.before ls PpSpec.BNil) ls m.
Proof.
  intros N. induction 1 as [|l ls D F IH]; [apply FileSpec.cpp_nil|]. apply FileSpec.cpp_text; [exact D| |exact IH].
  apply FileSpec.ex_none; intros; apply N.
Qed.
Lemma guarded_translated : FileSpec.translated FileSpec.no_macros (TextSpec.parts_text guarded_parts) (split_on nl guarded) FileSpec.no_macros.
Proof.
  exists guarded_parts, [guarded], (FileWhole.before (split_on nl guarded) PpSpec.BNil). split; [reflexivity|].
  split; [apply FileExamples.reads_check; vm_compute; reflexivity|]. split; [vm_compute; reflexivity|]. split; [discriminate|].
  split; [constructor; [apply FileExamples.occurs_check; vm_compute; reflexivity|constructor]|].
  split; [rewrite FileWhole.before_lines; cbn [PpSpec.lines concat]; rewrite !app_nil_r; reflexivity|].
  apply lines_plain; [intros w [K|[]]; apply K; reflexivity|]. apply Forall_forall. intros l I.
  assert (F : forallb (fun l => match directive l with None => true | Some _ => false end) (split_on nl guarded) = true) by (vm_compute; reflexivity).
  rewrite forallb_forall in F. specialize (F l I). destruct (directive l); [discriminate F|reflexivity].
Qed.
Example c92_file_example :
  FileSpec.translated FileSpec.no_macros (TextSpec.parts_text guarded_parts) (split_on nl guarded) FileSpec.no_macros
  /\ header base0 [] None guarded_decls (join [nl] (split_on nl guarded)) /\ Forall harmless guarded_decls
  /\ map fst (defs (PropsFile.read_header $"a.h" (TextSpec.parts_text guarded_parts)) Functions) = [$"f"; $"g"; $"open"].
Proof.
  split; [exact guarded_translated|]. split; [|split; [|vm_compute; reflexivity]].
  - replace (join [nl] (split_on nl guarded)) with guarded by (vm_compute; reflexivity). exact guarded_header.
  - unfold guarded_decls. constructor; [|constructor; [|constructor; [|constructor]]]; intros E; discriminate E.
Qed.
(** A header that breaks off. *)
Definition broken : str := $"int f(int a); typedef struct { int x = (((".
Example c92_follows_example : exists tail, tail <> []
  /\ noisy_header base0 [] None tail (firstn 1 guarded_decls) broken.
Proof.
  exists [$"typedef"; $"struct"; $"{"; $"int"; $"x"; $"="; $"("; $"("; $"("]. split; [discriminate|]. exists False. eexists. split; [|split; [|split]].
  - apply (nz_decl base0 [] None False _ _ f_tokens); [|apply nz_end]. eapply top_conv; [unfold PropsGram.words, int_arg, PropsGram.name_decl; spell|vm_compute; reflexivity].
  - apply no_tabs. vm_compute. reflexivity.
  - pose proof (lay_check (fst (split_all broken)) [] eq_refl nl) as L. unfold written.
    replace broken with (flat_map (fun x => fst x ++ snd x) (fst (split_all broken)) ++ []) by (vm_compute; reflexivity).
    apply L. vm_compute. reflexivity.
  - intros [].
Qed.

(** The full statement, for words anywhere, fails: behind the type such a word takes its place. *)
Theorem c92_word_refuted :
  exists g a w b text, sp_top base0 [] None g (a ++ b) /\ plain_name base0 [] w /\ written (a ++ w :: b) text
  /\ parse_defs base0 [] [] text = Some [GVar (PropsGram.words w) [GNode [] None [] (GNamed false $"f") (Some [int_arg $"a"]) []] NoInit]
  /\ g = GVar (PropsGram.words $"int") [GNode [] None [] (GNamed false $"f") (Some [int_arg $"a"]) []] NoInit.
Proof.
  exists (hd (GTypedef (PropsGram.words []) []) guarded_decls), [$"int"], $"MYAPI", (tl f_tokens), $"int MYAPI f(int a);".
  split; [|split; [|split; [|split; [|reflexivity]]]].
  - eapply top_conv; [unfold guarded_decls, PropsGram.words, int_arg, PropsGram.name_decl; cbn [hd]; spell|vm_compute; reflexivity].
  - apply plain_check. reflexivity.
  - pose proof (lay_check (fst (split_all $"int MYAPI f(int a);")) [] eq_refl nl) as L. unfold written.
    replace $"int MYAPI f(int a);" with (flat_map (fun x => fst x ++ snd x) (fst (split_all $"int MYAPI f(int a);")) ++ []) by (vm_compute; reflexivity).
    apply L. vm_compute. reflexivity.
  - vm_compute. reflexivity.
Qed.
Print Assumptions c92_word_refuted.
(** With a second string on the line of a linkage specification a declaration can be lost. *)
Definition semicolon : str := $""";""".
Definition lost : str := $"extern ""C"" int f(int a); const char *s = "";"";".
Definition lost_decls : list gtop :=
  [hd (GTypedef (PropsGram.words []) []) guarded_decls;
   GVar (GSpec [$"const"] (GWord $"char")) [GNode [] None [[]] (GNamed false $"s") None []] (IVal semicolon)].
Definition lost_layout : list (str * str) :=
  map (fun x => ($(fst x), snd x))
    [(none, $"extern"); (blank, c_linkage); (blank, $"int"); (blank, $"f"); (none, $"("); (none, $"int"); (blank, $"a"); (none, $")"); (none, $";");
     (blank, $"const"); (blank, $"char"); (blank, $"*"); (none, $"s"); (blank, $"="); (blank, semicolon); (none, $";")].
Theorem c92_strings_refuted :
  exists ds ts text, noisy base0 [] None True [] ds ts /\ tabs_outside ts /\ written ts text
  /\ length ds = 2 /\ option_map (@length gtop) (parse_defs base0 [] [] text) = Some 1.
Proof.
  assert (LT : literal semicolon).
  { exists dquote, $";". split; [reflexivity|]. split; [reflexivity|]. intros c [<-|[]]. repeat split; discriminate. }
  exists lost_decls, (map snd lost_layout), lost. split; [|split; [|split; [|split; [reflexivity|vm_compute; reflexivity]]]].
  - change (map snd lost_layout) with ($"extern" :: c_linkage :: f_tokens ++ [$"const"; $"char"; $"*"; $"s"; $"="; semicolon; $";"] ++ []).
    apply nz_linkage; [exact Logic.I|]. apply nz_decl; [|apply nz_decl; [|apply nz_end]].
    + eapply top_conv; [unfold guarded_decls, PropsGram.words, int_arg, PropsGram.name_decl; cbn [hd]; spell|vm_compute; reflexivity].
    + assert (TX : sp_text base0 [] semicolon [semicolon]).
      { exists [semicolon]. split; [|reflexivity]. apply sp_single. apply (sp_unary base0 [] [] [semicolon] [semicolon]); [constructor|]. apply sp_literal. exact LT. }
      eapply top_conv; [eapply sp_var; [left; reflexivity|spell|spell|part|]|].
      * exists [semicolon]. split; [exact TX|reflexivity].
      * vm_compute. reflexivity.
  - apply no_tabs. vm_compute. reflexivity.
  - unfold written. replace lost with (flat_map (fun x => fst x ++ snd x) lost_layout ++ []) by (vm_compute; reflexivity).
    apply lay_tokens; [reflexivity| |vm_compute; reflexivity].
    assert (F : forallb (fun t => tokenb t || eqb t c_linkage || eqb t semicolon) (map snd lost_layout) = true) by (vm_compute; reflexivity).
    apply Forall_forall. intros t I. rewrite forallb_forall in F. specialize (F t I). apply orb_true_iff in F. destruct F as [F|F].
    + apply (proj1 (Forall_forall _ _) (tokens_check [t] ltac:(cbn [forallb]; rewrite F; reflexivity))). left. reflexivity.
    + apply eqb_eq in F. subst t. right. right. right. left. exact LT.
Qed.
Print Assumptions c92_strings_refuted.
