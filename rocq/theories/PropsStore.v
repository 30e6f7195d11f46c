(** Properties C10-C18: the definition tables and the cache. *)
From Coq Require Import Ascii String Bool Arith ZArith List.
Import ListNotations.
From Verif Require Import PyBase PyStr StoreModel StoreSpec StoreProofs.

(** A history used in the examples: [X] defined in a.h and b.h, [Y] in a.h. *)
Definition h0 : list (op nat) :=
  [Add Macros $"K" 9; Switch (Some $"/x/a.h"); Add Macros $"X" 1; Add Values $"X" 1;
   Add Types $"Y" 2; Switch (Some $"b.h"); Add Macros $"X" 3].

(** C10: without removals the global tables hold the value added last, the tables of a
    file the value added last while the file was current, and a name is defined globally
    exactly if it is defined in some file. *)
Theorem c10_tables_agree :
  forall (V : Type) (h : list (op V)), no_removal h ->
    let s := run init_store h in
    (forall k n v, defined s k n = Some v <-> latest (names k n) (additions None h) v)
    /\ (forall f k n v, defined_in s f k n = Some v
                        <-> latest (names_in f k n) (additions None h) v)
    /\ (forall k n, (exists v, defined s k n = Some v)
                    <-> exists f v, defined_in s f k n = Some v).
Proof. exact (fun V h NR => history_tables h NR). Qed.
Print Assumptions c10_tables_agree.

Lemma h0_no_removal : no_removal h0.
Proof. intros k n I. repeat (destruct I as [I|I]; [discriminate|]). destruct I. Qed.
Example c10_example :
  no_removal h0
  /\ defined (run init_store h0) Macros $"X" = Some 3
  /\ defined_in (run init_store h0) (Some $"a.h") Macros $"X" = Some 1
  /\ defined_in (run init_store h0) (Some $"b.h") Macros $"X" = Some 3
  /\ defined_in (run init_store h0) None Macros $"K" = Some 9
  /\ defined (run init_store h0) Macros $"Y" = None.
Proof. split; [exact h0_no_removal|]. vm_compute. repeat split. Qed.

(** C11: after a removal the name is not defined globally any more, nor in the current
    file, and if no other file had defined it, in no file.  Nothing else changes. *)
Theorem c11_removal_partial :
  forall (V : Type) (h : list (op V)) (k : kind) (n : str),
    let s := run init_store h in
    let s' := fst (rem_def s k n) in
    defined s' k n = None
    /\ (forall k' n', (k', n') <> (k, n) -> defined s' k' n' = defined s k' n')
    /\ ((exists v, defined s k n = Some v) ->
        defined_in s' (option_map basename (cur s)) k n = None)
    /\ (forall f k' n', (f, k', n') <> (option_map basename (cur s), k, n) ->
          defined_in s' f k' n' = defined_in s f k' n')
    /\ ((exists v, defined s k n = Some v) ->
        (forall f, f <> option_map basename (cur s) -> defined_in s f k n = None) ->
        forall f, defined_in s' f k n = None).
Proof. exact (fun V h k n => removal h k n). Qed.
Print Assumptions c11_removal_partial.

Example c11_example :
  let s := run init_store h0 in
  (exists v, defined s Macros $"X" = Some v)
  /\ defined (fst (rem_def s Macros $"X")) Macros $"X" = None
  /\ defined (fst (rem_def s Macros $"X")) Values $"X" = Some 1
  /\ (exists v, defined_in s (Some $"b.h") Macros $"X" = Some v)
  /\ defined_in (fst (rem_def s Macros $"X")) (Some $"b.h") Macros $"X" = None.
Proof. vm_compute. repeat split; eexists; reflexivity. Qed.

(** The full statement fails: a macro defined in a.h and undefined while b.h is read
    stays in the tables of a.h, from which the cache and [copy_from] are built. *)
Theorem c11_refuted :
  exists (h : list (op nat)) (k : kind) (n : str),
    let s' := run init_store (h ++ [Rem k n]) in
    defined s' k n = None
    /\ exists f v, defined_in s' f k n = Some v
                   /\ defined (fst (import_dict init_store (to_data (fdefs s')))) k n = Some v.
Proof.
  exists [Switch (Some $"a.h"); Add Macros $"X" 1; Switch (Some $"b.h")], Macros, $"X".
  split; [reflexivity|]. exists (Some $"a.h"), 1. split; reflexivity.
Qed.
Print Assumptions c11_refuted.

(** C12 *)
Theorem c12_find_exact :
  forall (V : Type) (h : list (op V)) (name : str),
    let s := run init_store h in
    NoDup (find_name s name)
    /\ forall f k, In (f, k) (find_name s name) <-> exists v, defined_in s f k name = Some v.
Proof.
  exact (fun V h name => conj (find_name_NoDup _ name (wfs_reach h))
                              (fun f k => find_name_In _ name f k (wfs_reach h))).
Qed.
Print Assumptions c12_find_exact.
Theorem c12_find_pattern_exact :
  forall (V : Type) (h : list (op V)) (p : str -> bool),
    let s := run init_store h in
    NoDup (find_pat s p)
    /\ forall f k n, In (f, k, n) (find_pat s p)
                     <-> p n = true /\ exists v, defined_in s f k n = Some v.
Proof.
  exact (fun V h p => conj (find_pat_NoDup _ p (wfs_reach h))
                           (fun f k n => find_pat_In _ p f k n (wfs_reach h))).
Qed.
Print Assumptions c12_find_pattern_exact.

Example c12_example :
  find_name (run init_store h0) $"X"
  = [(Some $"a.h", Macros); (Some $"a.h", Values); (Some $"b.h", Macros)].
Proof. vm_compute. reflexivity. Qed.

(** C13: the per file tables of the copy are those of the source, always; a global value
    is that of the source if the source never removed a definition and the file that
    defined the name last is the one, among those defining it, that came last. *)
Theorem c13_copy :
  forall (V : Type) (a : ctor_args V) (h : list (op V)),
    a_kw a = [] -> a_copy a = [run init_store h] ->
    let s := run init_store h in
    exists r, ctor a = Ok r
    /\ (forall f k n, defined_in r f k n = defined_in s f k n)
    /\ (no_removal h -> forall k n, last_is_newest (additions None h) k n ->
          defined r k n = defined s k n).
Proof. exact (fun V a h => ctor_copy a h). Qed.
Print Assumptions c13_copy.
(** C13 for files read one after the other, where removals concern the current file. *)
Theorem c13_copy_one_pass :
  forall (V : Type) (a : ctor_args V) (h : list (op V)),
    a_kw a = [] -> a_copy a = [run init_store h] ->
    one_pass [] None h -> local_removals [] None h ->
    let s := run init_store h in
    exists r, ctor a = Ok r
    /\ (forall k n, defined r k n = defined s k n)
    /\ (forall f k n, defined_in r f k n = defined_in s f k n).
Proof. exact (fun V a h => ctor_copy_one_pass a h). Qed.
Print Assumptions c13_copy_one_pass.

Example c13_example :
  last_is_newest (additions None h0) Macros $"X"
  /\ one_pass [] None (h0 ++ [Add Types $"Z" 4; Rem Types $"Z"])
  /\ local_removals [] None (h0 ++ [Add Types $"Z" 4; Rem Types $"Z"])
  /\ defined (fst (import_dict init_store (to_data (fdefs (run init_store h0)))))
             Macros $"X" = Some 3.
Proof.
  split.
  { intros a f v b E N f' w I.
    assert (f = Some $"b.h") as ->.
    { destruct a as [|x1 a]; [discriminate E|]. destruct a as [|x2 a].
      { exfalso. apply (N (Some $"b.h", Macros, $"X", 3)); [|split; reflexivity].
        injection E as _ _ _ <-. cbn. auto 10. }
      destruct a as [|x3 a]; [discriminate E|]. destruct a as [|x4 a]; [discriminate E|].
      destruct a as [|x5 a]; [injection E; intros; subst; reflexivity|].
      destruct a; discriminate E. }
    cbn in I. change (first_seen [] (additions None h0)) with [None; Some $"a.h"; Some $"b.h"].
    destruct I as [I|[I|[I|[I|[I|[]]]]]]; injection I; intros; subst; try discriminate.
    - right. exists [None], [], []. reflexivity.
    - left. reflexivity. }
  split.
  { cbn. repeat split; right; intros I; repeat (destruct I as [I|I]; [discriminate|]); destruct I. }
  split; [|vm_compute; reflexivity].
  cbn. split; [|exact I]. intros f v I.
  repeat (destruct I as [I|I]; [try discriminate I; try (injection I; congruence)|]). destruct I.
Qed.

(** Without the proviso the copy may give another value. *)
Theorem c13_without_proviso_refuted :
  exists (h : list (op nat)) (k : kind) (n : str), no_removal h
    /\ defined (run init_store h) k n = Some 3
    /\ defined (fst (import_dict init_store (to_data (fdefs (run init_store h))))) k n = Some 2.
Proof.
  exists [Switch (Some $"a.h"); Add Macros $"X" 1; Switch (Some $"b.h"); Add Macros $"X" 2;
          Switch (Some $"a.h"); Add Macros $"X" 3], Macros, $"X".
  split; [|split; reflexivity].
  intros k n I. repeat (destruct I as [I|I]; [discriminate|]). destruct I.
Qed.
Print Assumptions c13_without_proviso_refuted.

(** C14 *)
Theorem c14_import_idempotent :
  forall (V : Type) (s : store V) (d : fdata V), complete d ->
    let s1 := fst (import_dict s d) in
    let s2 := fst (import_dict s1 d) in
    snd (import_dict s d) = None /\ snd (import_dict s1 d) = None
    /\ (forall k n, defined s2 k n = defined s1 k n)
    /\ (forall f k n, defined_in s2 f k n = defined_in s1 f k n)
    /\ (forall k n v, latest (names k n) (listed d) v -> defined s1 k n = Some v)
    /\ (forall f k n v, latest (names_in f k n) (listed d) v -> defined_in s1 f k n = Some v)
    /\ (forall k n, (forall e, In e (listed d) -> ~ names k n e) ->
          defined s1 k n = defined s k n)
    /\ (forall f k n, (forall e, In e (listed d) -> ~ names_in f k n e) ->
          defined_in s1 f k n = defined_in s f k n).
Proof. exact (fun V s d C => import_twice s d C). Qed.
Print Assumptions c14_import_idempotent.

Example c14_example :
  let d := to_data (fdefs (run init_store h0)) in
  let s : store nat := run init_store [Switch (Some $"a.h"); Add Macros $"Q" 7; Add Macros $"X" 8] in
  complete d
  /\ defined (fst (import_dict s d)) Macros $"X" = Some 3
  /\ defined (fst (import_dict s d)) Macros $"Q" = Some 7
  /\ length (listed d) = 5.
Proof.
  split; [apply complete_to_data|]. vm_compute. repeat split.
Qed.

(** ** The cache *)
(** A disk for the examples: the cache /m/headers/c with the definitions of [h0]. *)
Definition o0 : opts nat :=
  {| o_kw := [($"macros", [($"K", 9)])]; o_files := [$"a.h"; $"b.h"];
     o_replace := [($"a.h", None); ($"b.h", None)] |}.
Definition p0 : pickled nat := write_cache o0 (run init_store h0).
Definition fs0 (t : Z) (p : pickled nat) : fsys nat :=
  {| isfile := fun f => mem f [$"/m/headers/c"; $"/x/a.h"; $"b.h"];
     mtime := fun f => if eqb f $"/m/headers/c" then 10%Z else t;
     unpickle := fun f => if eqb f $"/m/headers/c" then Some p else None |}.
Lemma wf_o0 : wf_opts o0.
Proof.
  assert (N : forall (l : list str), NoDup l -> NoDup l) by auto.
  repeat split.
  - repeat constructor; intros [].
  - constructor; [intros [E|[]]; discriminate|]. constructor; [intros []|constructor].
  - intros k d [E|[]]. injection E as <- <-. repeat constructor; intros [].
  - intros k d [E|[E|[]]]; discriminate.
Qed.
Lemma wf_fs0 t p : p_opts p = Some o0 -> wf_disk (fs0 t p).
Proof.
  intros P c q po U O. cbn [fs0 unpickle] in U. destruct (eqb c _); [|discriminate].
  injection U as <-. rewrite P in O. injection O as <-. exact wf_o0.
Qed.

(** C15: a cache is loaded only if it is valid, and then it is imported. *)
Theorem c15_loaded_only_if_valid :
  forall (V : Type) (veq : V -> V -> bool) (fs : fsys V) moddir files o cache_file s s',
    wf_opts o -> wf_disk fs ->
    load_cache veq fs moddir files o true cache_file s = (s', true) ->
    exists c p d, cache_at fs moddir cache_file c /\ unpickle fs c = Some p
      /\ valid_cache veq fs files o c p /\ p_defs p = Some d /\ import_dict s d = (s', None).
Proof. exact (fun V veq => load_cache_valid veq). Qed.
Print Assumptions c15_loaded_only_if_valid.
(** C15: an invalid cache is rejected and nothing changes. *)
Theorem c15_rejected_unchanged :
  forall (V : Type) (veq : V -> V -> bool) (fs : fsys V) moddir files o cache_file s c p,
    wf_opts o -> wf_disk fs ->
    cache_at fs moddir cache_file c -> unpickle fs c = Some p ->
    ~ valid_cache veq fs files o c p ->
    load_cache veq fs moddir files o true cache_file s = (s, false).
Proof. exact (fun V veq => load_cache_invalid veq). Qed.
Print Assumptions c15_rejected_unchanged.
(** C15: a valid cache is accepted. *)
Theorem c15_valid_accepted :
  forall (V : Type) (veq : V -> V -> bool) (fs : fsys V) moddir files o cache_file s c p d
         (check : bool),
    wf_opts o -> wf_disk fs ->
    cache_at fs moddir cache_file c -> unpickle fs c = Some p ->
    (check = true -> valid_cache veq fs files o c p) ->
    p_defs p = Some d -> complete d ->
    load_cache veq fs moddir files o check cache_file s = (fst (import_dict s d), true).
Proof. exact (fun V veq => load_cache_accepts veq). Qed.
Print Assumptions c15_valid_accepted.

Example c15_example :
  wf_opts o0 /\ wf_disk (fs0 5 p0)
  /\ cache_at (fs0 5 p0) $"/m" $"c" $"/m/headers/c"
  /\ snd (load_cache Nat.eqb (fs0 5 p0) $"/m" [$"/x/a.h"; $"b.h"] o0 true $"c" init_store) = true
  /\ load_cache Nat.eqb (fs0 11 p0) $"/m" [$"/x/a.h"; $"b.h"] o0 true $"c" init_store
     = (init_store, false)
  /\ load_cache Nat.eqb (fs0 5 p0) $"/m" [$"/x/a.h"; $"b.h"]
       {| o_kw := []; o_files := o_files o0; o_replace := o_replace o0 |} true $"c" init_store
     = (init_store, false)
  /\ load_cache Nat.eqb
       (fs0 5 {| p_opts := Some o0; p_version := Some (Some 1%Z); p_defs := p_defs p0 |})
       $"/m" [$"/x/a.h"; $"b.h"] o0 true $"c" init_store = (init_store, false).
Proof.
  split; [exact wf_o0|]. split; [apply wf_fs0; reflexivity|].
  split; [split; [reflexivity|right; split; reflexivity]|].
  split; [vm_compute; reflexivity|]. split; [vm_compute; reflexivity|].
  split; vm_compute; reflexivity.
Qed.

(** C16 for caches whose file entries have all their tables. *)
Theorem c16_failed_load_partial :
  forall (V : Type) (veq : V -> V -> bool) (fs : fsys V) moddir files o check cache_file s s',
    (forall c p d, cache_at fs moddir cache_file c -> unpickle fs c = Some p ->
       p_defs p = Some d -> complete d) ->
    load_cache veq fs moddir files o check cache_file s = (s', false) -> s' = s.
Proof. exact (fun V veq => load_cache_failed veq). Qed.
Print Assumptions c16_failed_load_partial.

Example c16_example :
  let p := {| p_opts := Some o0; p_version := None; p_defs := p_defs p0 |} in
  (forall c q d, cache_at (fs0 5 p) $"/m" $"c" c -> unpickle (fs0 5 p) c = Some q ->
     p_defs q = Some d -> complete d)
  /\ load_cache Nat.eqb (fs0 5 p) $"/m" [] o0 true $"c" (run init_store h0)
     = (run init_store h0, false).
Proof.
  split; [|vm_compute; reflexivity].
  intros c q d _ U D. cbn [fs0 unpickle] in U. destruct (eqb c _); [|discriminate].
  injection U as <-. assert (d = to_data (fdefs (run init_store h0))) as -> by (injection D; intros <-; reflexivity).
  apply complete_to_data.
Qed.

(** The full statement fails: a cache with a file entry lacking a kind leaves the
    definitions imported before the failure. *)
Theorem c16_refuted :
  exists (fs : fsys nat) moddir files o check cache_file s s',
    load_cache Nat.eqb fs moddir files o check cache_file s = (s', false)
    /\ defined s Types $"T" = None /\ defined s' Types $"T" = Some 1.
Proof.
  exists (fs0 5 {| p_opts := Some o0; p_version := Some (Some 2%Z);
                   p_defs := Some [(Some $"a.h", [(Types, [($"T", 1)])])] |}),
         $"/m", [], o0, true, $"c", init_store.
  eexists. split; [|split; [reflexivity|]].
  - vm_compute. reflexivity.
  - vm_compute. reflexivity.
Qed.
Print Assumptions c16_refuted.

(** C17: [kw] are the definitions given by keyword, [h] what parsing the files does to
    the tables.  The writer finds no usable cache, parses and writes one.  A parser with the
    same keyword definitions that reads it parses nothing and has the same definitions, if
    the files are read one after the other and a name is removed only in the file that
    defined it. *)
Theorem c17_roundtrip_partial :
  forall (V : Type) (veq : V -> V -> bool) (fs1 fs : fsys V) md1 moddir fl1 files o o' cf1 cache_file c
         (kw : list (op V)) (f : str) (h : list (op V)) (ck1 check : bool) parse' writer p,
    (forall x, In x kw -> exists k n v, x = Add k n v) ->
    one_pass [] None (Switch (Some f) :: h) ->
    local_removals [] None (kw ++ Switch (Some f) :: h) ->
    let s0 := run init_store kw in
    let parse := fun s => run s (Switch (Some f) :: h) in
    load_cache veq fs1 md1 fl1 o ck1 cf1 s0 = (s0, false) ->
    process_all veq parse fs1 md1 fl1 o (Some cf1) ck1 s0 = (writer, Some p) ->
    wf_opts o' -> wf_disk fs ->
    cache_at fs moddir cache_file c -> unpickle fs c = Some p ->
    (check = true -> same_opts veq o o'
       /\ forall f, In f files -> isfile fs f = true -> (mtime fs f <= mtime fs c)%Z) ->
    writer = parse s0
    /\ exists reader,
      process_all veq parse' fs moddir files o' (Some cache_file) check s0 = (reader, None)
      /\ (forall k n, defined reader k n = defined writer k n)
      /\ (forall g k n, defined_in reader g k n = defined_in writer g k n).
Proof. exact (fun V veq => cache_processed veq). Qed.
Print Assumptions c17_roundtrip_partial.

Example c17_example :
  let kw := [Add Macros $"K" 9] in
  let h := tl (tl h0) ++ [Add Types $"Z" 4; Rem Types $"Z"] in
  let s0 := run init_store kw in
  let parse := fun s => run s (Switch (Some $"/x/a.h") :: h) in
  let files := [$"/x/a.h"; $"b.h"] in
  (forall x, In x kw -> exists k n v, x = Add k n v)
  /\ one_pass [] None (Switch (Some $"/x/a.h") :: h)
  /\ local_removals [] None (kw ++ Switch (Some $"/x/a.h") :: h)
  /\ load_cache Nat.eqb (fs0 15 p0) $"/m" files o0 true $"c" s0 = (s0, false)
  /\ exists writer p, process_all Nat.eqb parse (fs0 15 p0) $"/m" files o0 (Some $"c") true s0 = (writer, Some p)
     /\ defined (fst (process_all Nat.eqb parse (fs0 5 p) $"/m" files o0 (Some $"c") true s0)) Macros $"X" = Some 3.
Proof.
  split; [intros x [<-|[]]; eauto|]. split; [|split; [|split; [vm_compute; reflexivity|]]].
  - cbn. repeat split; right; intros I; repeat (destruct I as [I|I]; [discriminate|]); destruct I.
  - cbn. split; [|exact I]. intros f v I.
    repeat (destruct I as [I|I]; [try discriminate I; try (injection I; congruence)|]). destruct I.
  - do 2 eexists. split; [vm_compute; reflexivity|vm_compute; reflexivity].
Qed.

(** The full statement fails: a.h defines X, b.h undefines it, and the reader has X. *)
Theorem c17_refuted :
  exists (h : list (op nat)) (k : kind) (n : str),
    let writer := run init_store h in
    let fs := fs0 5 (write_cache o0 writer) in
    defined writer k n = None
    /\ exists reader,
        load_cache Nat.eqb fs $"/m" [$"/x/a.h"; $"b.h"] o0 true $"c" init_store = (reader, true)
        /\ defined reader k n = Some 1.
Proof.
  exists [Switch (Some $"/x/a.h"); Add Macros $"X" 1; Switch (Some $"b.h"); Rem Macros $"X"],
         Macros, $"X".
  split; [reflexivity|]. eexists. split; [vm_compute; reflexivity|vm_compute; reflexivity].
Qed.
Print Assumptions c17_refuted.

(** C18: two parsers have equal options exactly if they got the same keyword definitions,
    files of the same base names in the same order, and (with at least one file) the same
    replacements. *)
Theorem c18_arguments_partial :
  forall (V : Type) (veq : V -> V -> bool) (a b : ctor_args V),
    NoDup (keys (a_kw a)) -> NoDup (keys (a_kw b)) ->
    (forall k d, In (k, d) (a_kw a ++ a_kw b) -> NoDup (keys d)) ->
    (forall d, a_replace a = Some d \/ a_replace b = Some d -> NoDup (keys d)) ->
    (opts_eqb veq (ctor_opts a) (ctor_opts b) = true
     <-> same_map (same_map (fun x y => veq x y = true)) (a_kw a) (a_kw b)
         /\ map basename (a_files a) = map basename (a_files b)
         /\ (a_files a <> [] -> same_replace (a_replace a) (a_replace b))).
Proof. exact (fun V veq a b => ctor_opts_eq veq a b). Qed.
Print Assumptions c18_arguments_partial.

Definition a0 (p : list (store nat)) (r : option (dict str str)) (n : nat) : ctor_args nat :=
  {| a_files := [$"/x/a.h"]; a_copy := p; a_replace := r; a_encoding := $"utf-8";
     a_kw := [($"macros", [($"K", n); ($"L", 1)])] |}.
Example c18_example :
  opts_eqb Nat.eqb (ctor_opts (a0 [] None 1)) (ctor_opts (a0 [] None 1)) = true
  /\ opts_eqb Nat.eqb (ctor_opts (a0 [] None 1)) (ctor_opts (a0 [] None 2)) = false
  /\ opts_eqb Nat.eqb (ctor_opts (a0 [] None 1)) (ctor_opts (a0 [] (Some [($"x", $"y")]) 1)) = false.
Proof. vm_compute. repeat split. Qed.

(** The full statement fails: [copy_from] is no part of the options, so a parser given
    other definitions by [copy_from] accepts the cache. *)
Theorem c18_copy_from_refuted :
  exists (a b : ctor_args nat) (k : kind) (n : str) (sa sb : store nat),
    opts_eqb Nat.eqb (ctor_opts a) (ctor_opts b) = true
    /\ a_copy a <> a_copy b
    /\ ctor a = Ok sa /\ ctor b = Ok sb
    /\ defined sa k n = Some 1 /\ defined sb k n = None.
Proof.
  exists (a0 [run init_store [Add Types $"T" 1]] None 1), (a0 [] None 1), Types, $"T".
  eexists. eexists. split; [vm_compute; reflexivity|]. split; [discriminate|].
  split; [reflexivity|]. split; [reflexivity|]. split; vm_compute; reflexivity.
Qed.
Print Assumptions c18_copy_from_refuted.

(** C70: what is passed by keyword is found under its kind and name; a kind that does not
    exist, with names, raises KeyError. *)
Theorem c70_keywords :
  forall (V : Type) (a : ctor_args V),
    a_copy a = [] -> NoDup (keys (a_kw a)) -> (forall t d, In (t, d) (a_kw a) -> NoDup (keys d)) ->
    ((forall t d, In (t, d) (a_kw a) -> d <> [] -> exists k, kind_name k = t) ->
     exists s, ctor a = Ok s
       /\ forall k n, defined s k n = match dget (a_kw a) (kind_name k) with Some d => dget d n | None => None end)
    /\ (forall t d, In (t, d) (a_kw a) -> d <> [] -> (forall k, kind_name k <> t) -> ctor a = Err KeyError).
Proof. exact (fun V a => ctor_keywords a). Qed.
Print Assumptions c70_keywords.
Example c70_example :
  let a := a0 [] None 7 in
  (exists s, ctor a = Ok s /\ defined s Macros $"K" = Some 7 /\ defined s Types $"K" = None)
  /\ ctor {| a_files := []; a_copy := []; a_replace := None; a_encoding := $"utf-8";
             a_kw := [($"macro", [($"K", 1)])] |} = Err KeyError.
Proof. split; [eexists; split; [vm_compute; reflexivity|split; reflexivity]|reflexivity]. Qed.
