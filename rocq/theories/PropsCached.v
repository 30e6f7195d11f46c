(** C91: a library that is opened with a cache file. *)
From Coq Require Import Ascii String Bool Arith ZArith Lia List.
Import ListNotations.
From Verif Require Import PyBase PyBaseFacts PyStr PyStrFacts PyExpr TypeModel StoreModel StoreSpec DeclModel EvalModel.
From Verif Require Import MacroModel MacroSpec MacroProofs MacroDefProofs PpModel PpSpec TextSpec TextProofs PropsMacro PropsDecl.
From Verif Require Import FileModel FilesSpec PpExamples FileExamples PropsFile ConstSpec PropsConst CachedModel CachedSpec CachedProofs.
From Verif Require GramExamples.

(** C91: a first parser reads headers and writes a cache file.  A later parser with the same keyword
    definitions and replacements, and with headers of the same base names, none of them newer than the
    cache file, reads that file and parses nothing.  It has the same definitions, in the same order, and makes the same
    library.  The texts of the headers are any, as long as the first parser gets through them.
    Missing: headers that undefine macros of others ([c91_undef_refuted]), or have equal base names ([c91_base_names_refuted]);
    what its headers say when they are not newer but different ([c91_stale_refuted]); the texts the
    parser keeps ([c91_texts_refuted]). *)
Theorem c91_cached_partial :
  forall fo ext ev base mods veq sub
    contents1 find1 fs1 md1 headers1 enc1 cf1 (ck1 : bool) paths1 texts replace kw w pk
    contents2 find2 fs2 md2 headers2 enc2 cf2 c (check : bool) paths2,
  let rs := match replace with Some d => d | None => [] end in
  NoDup (keys kw) -> (forall k d, In (k, d) kw -> NoDup (keys d)) -> (forall d, replace = Some d -> NoDup (keys d)) ->
  (forall e, veq e e = true) ->
  Forall2 (resolves contents1 find1) headers1 paths1 -> Forall2 (has_text sub contents1 rs) paths1 texts ->
  paths1 <> [] -> NoDup (map basename paths1) -> separate (given_macro kw) texts ->
  (forall c, ~ cache_at fs1 md1 cf1 c) ->
  open_headers fo ext ev base mods veq sub contents1 find1 fs1 md1 headers1 [] replace enc1 kw (Some cf1) ck1 = Some (Ok (w, Some pk)) ->
  Forall2 (resolves contents2 find2) headers2 paths2 -> (forall f, In f paths2 -> contents2 f <> None) ->
  map basename paths2 = map basename paths1 ->
  wf_disk fs2 -> cache_at fs2 md2 cf2 c -> unpickle fs2 c = Some pk ->
  (check = true -> forall f, In f paths2 -> isfile fs2 f = true -> (mtime fs2 f <= mtime fs2 c)%Z) ->
  exists r, open_headers fo ext ev base mods veq sub contents2 find2 fs2 md2 headers2 [] replace enc2 kw (Some cf2) check = Some (Ok (r, None))
    /\ same_definitions (p_store r) (p_store w) /\ same_library_of (p_store r) (p_store w).
Proof. exact cached_opens. Qed.
Print Assumptions c91_cached_partial.

(** Helpers of the example. *)
Definition no_disk : fsys entry := {| isfile := fun _ => false; mtime := fun _ => 0%Z; unpickle := fun _ => None |}.
Definition with_cache (headers : list str) (pk : pickled entry) : fsys entry :=
  {| isfile := fun f => mem f ($"lib.cache" :: headers); mtime := fun f => if eqb f $"lib.cache" then 9%Z else 5%Z;
     unpickle := fun f => if eqb f $"lib.cache" then Some pk else None |}.
Definition text_eq (a b : entry) : bool := match a, b with EText x, EText y => eqb x y | _, _ => true end.
Definition on_disk2 (a ta b tb : str) (h : str) : option str := if eqb h a then Some ta else if eqb h b then Some tb else None.
Definition opening (contents : str -> option str) (fs : fsys entry) (headers : list str) (kw : dict str (dict str entry)) :=
  open_headers no_fmt no_ext ev0 GramExamples.base0 [] text_eq no_sub contents nowhere fs $"/m" headers [] None $"utf-8" kw (Some $"lib.cache") true.
Definition opened_by (x : option (res (parser * option (pickled entry)))) : parser :=
  match x with Some (Ok (p, _)) => p | _ => new_parser init_store end.
Definition written_by (x : option (res (parser * option (pickled entry)))) : pickled entry :=
  match x with Some (Ok (_, Some pk)) => pk | _ => {| p_opts := None; p_version := None; p_defs := None |} end.
Definition unit_text : str :=
  $"#define TMP K" ++ [nl] ++ $"#define N TMP" ++ [nl] ++ $"#undef TMP" ++ [nl] ++ $"typedef int row[N]; /* a row */".
Definition grid_text : str := $"#undef TMP2" ++ [nl] ++ $"struct grid { row *rows; int n; };" ++ [nl] ++ $"enum { LAST = N };".
Definition grid_disk (d : str) : str -> option str := on_disk2 (d ++ $"unit.h") unit_text (d ++ $"grid.h") grid_text.
Definition grid_headers (d : str) : list str := [d ++ $"unit.h"; d ++ $"grid.h"].
Definition grid_kw : dict str (dict str entry) := [($"macros", [($"K", EText $"7")])].
Definition grid_writer := opening (grid_disk $"/src/") no_disk (grid_headers $"/src/") grid_kw.
Definition grid_reader := opening (grid_disk $"/usr/") (with_cache (grid_headers $"/usr/") (written_by grid_writer)) (grid_headers $"/usr/") grid_kw.
Definition undef_names (text : str) : list str :=
  flat_map (fun l => match directive l with
                     | Some (d, r) => if eqb d $"undef" then match macro_name r with Some (x, _) => [x] | None => [] end else []
                     | None => []
                     end) (split_on nl (join_lines (remove_comments text))).
Lemma macro_name_found g n rest : forallb is_space g = true -> ident n -> (forall c r, rest = c :: r -> is_idchar c = false) ->
  macro_name (g ++ n ++ rest) = Some (n, rest).
Proof.
  intros G ID R. unfold macro_name. destruct (ident_idchars n ID) as [_ FI]. destruct n as [|c n]; [destruct ID|]. destruct ID as [I1 I2].
  rewrite drop_while_app_all by exact G. cbn [app].
  assert (NS : is_space c = false).
  { apply not_true_iff_false. intros X. apply idstart_idchar in I1. clear - X I1. destruct c as [[] [] [] [] [] [] [] []]; vm_compute in X, I1; discriminate. }
  cbn [drop_while]. rewrite NS, I1. cbn [forallb] in FI. apply andb_true_iff in FI. destruct FI as [_ FI].
  rewrite (span_run is_idchar n rest FI); [reflexivity|]. destruct rest as [|d r]; [reflexivity|]. cbn. rewrite (R d r eq_refl). reflexivity.
Qed.
Lemma undef_found n text : undefines_macro n text -> In n (undef_names text) /\ ident n.
Proof.
  intros (ps & segs & l & ET & R & W & NE & F & I1 & g & rest & D & G & ID & RE). split; [|exact ID]. unfold undef_names. apply in_flat_map. exists l.
  split; [rewrite ET, remove_comments_reads, W, join_lines_segs by assumption; exact I1|]. rewrite D, eqb_refl, macro_name_found by assumption.
  left. reflexivity.
Qed.
Lemma readable_code text ps : text = parts_text ps -> readsb ps = true -> readable text.
Proof. intros E R. exists ps. split; [exact E|apply reads_check; exact R]. Qed.
Lemma grid_separate : separate (given_macro grid_kw) [unit_text; grid_text].
Proof.
  assert (K : forall n, given_macro grid_kw n -> n = $"K").
  { intros n (d & [E|[]] & I1). injection E as <-. destruct I1 as [<-|[]]. reflexivity. }
  split; [|split; [|split; [|split; [|exact I]]]].
  - apply (readable_code _ (code ($"#define TMP K" ++ [nl] ++ $"#define N TMP" ++ [nl] ++ $"#undef TMP" ++ [nl] ++ $"typedef int row[N]; ") ++ [ABlock $" a row "]));
      vm_compute; reflexivity.
  - intros n U G. apply undef_found in U. destruct U as [U _]. rewrite (K n G) in U. vm_compute in U. destruct U as [U|[]]. discriminate U.
  - apply (readable_code _ (code grid_text)); vm_compute; reflexivity.
  - intros n U G. apply undef_found in U. destruct U as [U ID].
    assert (E : n = $"TMP2") by (vm_compute in U; destruct U as [<-|[]]; reflexivity). clear U. subst n.
    destruct G as [G|G]; [apply K in G; discriminate G|]. revert G. apply undefined_check; [exact ID|vm_compute; reflexivity].
Qed.
(** The second parser finds the headers in another directory. *)
Example c91_example :
  separate (given_macro grid_kw) [unit_text; grid_text]
  /\ (exists w pk, grid_writer = Some (Ok (w, Some pk)))
  /\ exists r, grid_reader = Some (Ok (r, None))
     /\ same_definitions (p_store r) (p_store (opened_by grid_writer)) /\ same_library_of (p_store r) (p_store (opened_by grid_writer))
     /\ map fst (defs (p_store r) Macros) = [$"K"; $"N"] /\ map fst (defs (p_store r) Types) = [$"row"; $"struct grid"; $"enum anon_enum0"]
     /\ defined (p_store r) Types $"row" = Some (EType (CT (SName $"int") [DArr [ONum (VInt 7)]] [Some []; Some []])).
Proof.
  split; [exact grid_separate|]. split; [do 2 eexists; vm_compute; reflexivity|].
  assert (X : exists r, grid_reader = Some (Ok (r, None))
     /\ same_definitions (p_store r) (p_store (opened_by grid_writer)) /\ same_library_of (p_store r) (p_store (opened_by grid_writer))).
  { apply (c91_cached_partial no_fmt no_ext ev0 GramExamples.base0 [] text_eq no_sub
      (grid_disk $"/src/") nowhere no_disk $"/m" (grid_headers $"/src/") $"utf-8" $"lib.cache" true (grid_headers $"/src/") [unit_text; grid_text]
      None grid_kw (opened_by grid_writer) (written_by grid_writer)
      (grid_disk $"/usr/") nowhere (with_cache (grid_headers $"/usr/") (written_by grid_writer)) $"/m" (grid_headers $"/usr/") $"utf-8" $"lib.cache"
      $"lib.cache" true (grid_headers $"/usr/")).
    - constructor; [intros []|constructor].
    - intros k d [E|[]]. injection E as <- <-. constructor; [intros []|constructor].
    - discriminate.
    - intros []; try reflexivity. apply eqb_refl.
    - repeat constructor.
    - constructor; [|constructor; [|constructor]]; eexists; split; reflexivity.
    - discriminate.
    - constructor; [intros [E|[]]; vm_compute in E; discriminate E|]. constructor; [intros []|constructor].
    - exact grid_separate.
    - intros c [F _]. discriminate F.
    - vm_compute. reflexivity.
    - repeat constructor.
    - intros f [<-|[<-|[]]]; discriminate.
    - reflexivity.
    - intros c p po U P. unfold with_cache in U. cbn [unpickle] in U. destruct (eqb c $"lib.cache"); [|discriminate U].
      assert (p = written_by grid_writer) as -> by congruence.
      assert (P' : Some (ctor_opts {| a_files := grid_headers $"/src/"; a_copy := []; a_replace := None; a_encoding := $"utf-8"; a_kw := grid_kw |}) = Some po).
      { rewrite <- P. vm_compute. reflexivity. }
      injection P' as <-. split; [|split; [|split]].
      + constructor; [intros []|constructor].
      + constructor; [intros [E|[]]; vm_compute in E; discriminate E|]. constructor; [intros []|constructor].
      + intros k d [E|[]]. injection E as <- <-. constructor; [intros []|constructor].
      + intros k d I1. vm_compute in I1. destruct I1 as [E|[E|[]]]; discriminate E.
    - split; [reflexivity|left; reflexivity].
    - reflexivity.
    - intros _ f [<-|[<-|[]]] _; vm_compute; discriminate. }
  destruct X as (r & E & S1 & S2). exists r. split; [exact E|]. split; [exact S1|]. split; [exact S2|].
  destruct S1 as [D _]. unfold defined. rewrite !D. split; [|split]; vm_compute; reflexivity.
Qed.

(** The full statement fails.  The second header undefines a macro of the first; the macro is back when the
    cache is read. *)
Definition tried (d : str) (a ta b tb : str) (fs : fsys entry) := opening (on_disk2 (d ++ a) ta (d ++ b) tb) fs [d ++ a; d ++ b] [].
Theorem c91_undef_refuted :
  exists ta tb n w pk r, readable ta /\ readable tb
    /\ tried $"/s/" $"a.h" ta $"b.h" tb no_disk = Some (Ok (w, Some pk))
    /\ tried $"/s/" $"a.h" ta $"b.h" tb (with_cache [$"/s/a.h"; $"/s/b.h"] pk) = Some (Ok (r, None))
    /\ defined (p_store w) Macros n = None /\ defined (p_store r) Macros n = Some (EText $"1").
Proof.
  exists $"#define OLD 1", $"#undef OLD", $"OLD". do 3 eexists.
  split; [apply (readable_code _ (code $"#define OLD 1")); vm_compute; reflexivity|].
  split; [apply (readable_code _ (code $"#undef OLD")); vm_compute; reflexivity|].
  split; [vm_compute; reflexivity|]. split; [vm_compute; reflexivity|]. split; vm_compute; reflexivity.
Qed.
Print Assumptions c91_undef_refuted.
(** With three headers, of which the first and the last have the same base name, the definition in between wins
    when the cache is read. *)
Definition three (t1 t2 t3 : str) (fs : fsys entry) :=
  opening (fun h => if eqb h $"/s/x.h" then Some t1 else if eqb h $"/s/y.h" then Some t2 else if eqb h $"/t/x.h" then Some t3 else None) fs
    [$"/s/x.h"; $"/s/y.h"; $"/t/x.h"] [].
Theorem c91_base_names_refuted :
  exists t1 t2 t3 w pk r t t', separate (fun _ => False) [t1; t2; t3]
    /\ three t1 t2 t3 no_disk = Some (Ok (w, Some pk))
    /\ three t1 t2 t3 (with_cache [$"/s/x.h"; $"/s/y.h"; $"/t/x.h"] pk) = Some (Ok (r, None))
    /\ defined (p_store w) Types $"T" = Some t /\ defined (p_store r) Types $"T" = Some t' /\ t <> t'.
Proof.
  exists $"typedef char A;", $"typedef char T;", $"typedef int T;". do 5 eexists. split; [|split; [vm_compute; reflexivity|split; [vm_compute; reflexivity|]]].
  - assert (R : forall t, readsb (code t) = true -> parts_text (code t) = t -> undef_names t = [] -> readable t /\ forall n, ~ undefines_macro n t).
    { intros t R1 R2 R3. split; [apply (readable_code t (code t)); [symmetry; exact R2|exact R1]|]. intros n U. apply undef_found in U. rewrite R3 in U. destruct U as [[] _]. }
    destruct (R $"typedef char A;" ltac:(vm_compute; reflexivity) ltac:(vm_compute; reflexivity) ltac:(vm_compute; reflexivity)) as [A1 A2].
    destruct (R $"typedef char T;" ltac:(vm_compute; reflexivity) ltac:(vm_compute; reflexivity) ltac:(vm_compute; reflexivity)) as [B1 B2].
    destruct (R $"typedef int T;" ltac:(vm_compute; reflexivity) ltac:(vm_compute; reflexivity) ltac:(vm_compute; reflexivity)) as [C1 C2].
    split; [exact A1|]. split; [intros n U; contradiction (A2 n U)|]. split; [exact B1|]. split; [intros n U; contradiction (B2 n U)|].
    split; [exact C1|]. split; [intros n U; contradiction (C2 n U)|exact I].
  - split; [vm_compute; reflexivity|]. split; [vm_compute; reflexivity|]. discriminate.
Qed.
Print Assumptions c91_base_names_refuted.
(** The cache is also used for headers that are different, but not newer: another version of the headers, say. *)
Theorem c91_stale_refuted :
  exists t1 t2 w pk r fresh t t',
    opening (one_file $"/v1/lib.h" t1) no_disk [$"/v1/lib.h"] [] = Some (Ok (w, Some pk))
    /\ opening (one_file $"/v2/lib.h" t2) (with_cache [$"/v2/lib.h"] pk) [$"/v2/lib.h"] [] = Some (Ok (r, None))
    /\ (exists pk', opening (one_file $"/v2/lib.h" t2) no_disk [$"/v2/lib.h"] [] = Some (Ok (fresh, Some pk')))
    /\ defined (p_store fresh) Types $"T" = Some t /\ defined (p_store r) Types $"T" = Some t' /\ t <> t'.
Proof.
  exists $"typedef char T;", $"typedef int T;". do 6 eexists. split; [vm_compute; reflexivity|]. split; [vm_compute; reflexivity|].
  split; [eexists; vm_compute; reflexivity|]. split; [vm_compute; reflexivity|]. split; [vm_compute; reflexivity|]. discriminate.
Qed.
Print Assumptions c91_stale_refuted.
(** The texts that are kept are not the same: [find_text] finds comments and directives behind a cache, and
    not otherwise. *)
Theorem c91_texts_refuted :
  exists t x w pk r,
    opening (one_file $"/s/lib.h" t) no_disk [$"/s/lib.h"] [] = Some (Ok (w, Some pk))
    /\ opening (one_file $"/s/lib.h" t) (with_cache [$"/s/lib.h"] pk) [$"/s/lib.h"] [] = Some (Ok (r, None))
    /\ find_text (p_files w) x = Ok [] /\ find_text (p_files r) x = Ok [($"/s/lib.h", 0, $"int n; // number")].
Proof.
  exists $"int n; // number", $"number". do 3 eexists. split; [vm_compute; reflexivity|]. split; [vm_compute; reflexivity|].
  split; vm_compute; reflexivity.
Qed.
Print Assumptions c91_texts_refuted.
