(** Properties C61-C65 and C69: initialisation, searches, architecture of a library. *)
From Coq Require Import Ascii String Bool Arith ZArith Lia List.
Import ListNotations.
From Verif Require Import PyBase PyStr UtilModel InitModel UtilSpec UtilProofs.

(** ** C61: initialisation happens once *)
(** Whatever the first call is, it succeeds; all later explicit initialisations raise
    RuntimeError; everything that was set is what the first call set. *)
Theorem c61_init_once : forall platform ge312 first rest,
  fst (run platform ge312 (first :: rest) fresh) = Ok tt :: map later rest
  /\ snd (run platform ge312 (first :: rest) fresh) = snd (run platform ge312 [first] fresh).
Proof. exact run_fresh. Qed.
Print Assumptions c61_init_once.

Example c61_case :
  run $"linux" false [CInit (Some [($"foo_t", TyC $"c_int")]) None; CAuto None (Some [$"__bar"]) None;
                      CNewParser; CInit None None] fresh
  = ([Ok tt; Err RuntimeError; Ok tt; Err RuntimeError],
     {| w_parser := true; w_library := true; w_extra := [$"foo_t"]; w_mods := [];
        w_types := std_types ++ [($"foo_t", TyC $"c_int")] |}).
Proof. reflexivity. Qed.

(** ** C62: the arguments of the caller *)
(** False as stated: each of the four functions can modify what it is given. *)
Definition no_files : fsys :=
  {| fs_join := fun a b => a ++ $"/" ++ b; fs_isfile := fun _ => false; fs_isdir := fun _ => true;
     fs_system := fun _ => None |}.
Theorem c62_arguments_refuted :
  (exists fs platform registered name dirs,
      snd (find_header fs platform registered name (Some dirs)) <> Some dirs)
  /\ (exists fs registered name dirs, snd (find_library fs registered name (Some dirs)) <> Some dirs)
  /\ (exists platform t m, snd (do_call platform false (CAuto (Some t) (Some m) None) fresh)
                           <> (Some t, Some m))
  /\ (exists platform t m, snd (do_call platform true (CInit (Some t) (Some m)) fresh)
                           <> (Some t, Some m)).
Proof.
  split; [|split; [|split]].
  - exists no_files, $"linux", [$"/pkg/headers"], $"a.h", [$"/home"]. discriminate.
  - exists no_files, [$"/opt"], $"liba.so", [$"/home"]. discriminate.
  - exists $"win32", [($"foo_t", TyC $"c_int")], [$"__bar"]. discriminate.
  - exists $"linux", [($"foo_t", TyC $"c_int")], [$"__bar"]. discriminate.
Qed.
Print Assumptions c62_arguments_refuted.

(** Exactly when a search leaves the list of the caller unchanged. *)
Theorem c62_search_partial :
  (forall fs platform registered name dirs,
      snd (find_header fs platform registered name dirs) = dirs
      <-> callers dirs = [] \/ (registered = [] /\ platform <> $"darwin" /\ platform <> $"linux2"))
  /\ (forall fs registered name dirs,
      snd (find_library fs registered name dirs) = dirs <-> callers dirs = [] \/ registered = []).
Proof. exact (conj header_arg library_arg). Qed.
Print Assumptions c62_search_partial.

Example c62_search_case :
  snd (find_library no_files [] $"liba.so" (Some [$"/home"])) = Some [$"/home"]
  /\ snd (find_library no_files [$"/opt"; $"/lib"] $"liba.so" (Some [$"/home"]))
     = Some [$"/home"; $"/lib"; $"/opt"].
Proof. split; reflexivity. Qed.

(** Before Python 3.12, and not initialising for Windows, initialisations leave their arguments
    unchanged; [init] never changes the list of modifiers. *)
Theorem c62_init_partial :
  (forall platform c w, platform <> $"win32" -> ~ windows platform c ->
     snd (do_call platform false c w) = (given_types c, given_mods c))
  /\ (forall platform ge312 t m w, snd (snd (do_call platform ge312 (CInit t m) w)) = m).
Proof. exact (conj call_args_unchanged init_mods_unchanged). Qed.
Print Assumptions c62_init_partial.

Example c62_init_case :
  ~ windows $"linux" (CAuto (Some [($"foo_t", TyC $"c_int")]) (Some [$"__bar"]) None).
Proof. intros [H|H]; discriminate H. Qed.

(** ** C63: header search order *)
(** False on Linux: the standard directories are searched only if sys.platform is linux2, which
    no Python 3 reports. *)
Definition usr_include : fsys :=
  {| fs_join := fun a b => a ++ $"/" ++ b; fs_isfile := fun p => eqb p $"/usr/include/stdio.h";
     fs_isdir := fun _ => true; fs_system := fun _ => None |}.
Theorem c63_header_order_refuted : exists fs platform initial regs name dirs p,
  found_in fs name (search_order fs initial regs dirs (standard_dirs platform)) p
  /\ fst (find_header fs platform (fold_left (add_locations fs) regs initial) name dirs) = Err OSError.
Proof.
  exists usr_include, $"linux", [$"/pkg/headers"], [], $"stdio.h", None, $"/usr/include/stdio.h".
  split; [|reflexivity].
  exists [$"/pkg/headers"; $"/usr/local/include"; $"/usr/target/include"], $"/usr/include", [].
  split; [reflexivity|]. split; [reflexivity|]. split; [reflexivity|].
  intros x [<-|[<-|[<-|[]]]]; reflexivity.
Qed.
Print Assumptions c63_header_order_refuted.

(** The full statement on platforms other than Linux, and on the "linux2" of Python 2; on the
    other names of Linux without the standard directories. *)
Theorem c63_header_order_partial : forall fs platform initial regs name dirs std,
  (std = standard_dirs platform /\ (starts_with $"linux" platform = false \/ platform = $"linux2"))
  \/ (std = [] /\ starts_with $"linux" platform = true /\ platform <> $"linux2") ->
  let r := fst (find_header fs platform (fold_left (add_locations fs) regs initial) name dirs) in
  let order := search_order fs initial regs dirs std in
  (forall p, r = Ok p <-> found_in fs name order p)
  /\ (r = Err OSError <-> nowhere fs name order)
  /\ (r = Err OSError \/ exists p, r = Ok p).
Proof. exact header_order. Qed.
Print Assumptions c63_header_order_partial.

(** Two registered directories hold the file; the one registered last wins. *)
Definition two_dirs : fsys :=
  {| fs_join := fun a b => a ++ $"/" ++ b;
     fs_isfile := fun p => mem p [$"/one/a.h"; $"/two/a.h"; $"/usr/include/a.h"];
     fs_isdir := fun _ => true; fs_system := fun _ => None |}.
Example c63_case :
  fst (find_header two_dirs $"darwin" (fold_left (add_locations two_dirs) [[$"/one"]; [$"/two"]] [$"/pkg"])
                   $"a.h" (Some [$"/home"])) = Ok $"/two/a.h"
  /\ fst (find_header two_dirs $"darwin" [$"/pkg"] $"a.h" None) = Ok $"/usr/include/a.h"
  /\ starts_with $"linux" $"darwin" = false
  /\ fst (find_header usr_include $"linux2" [$"/pkg"] $"stdio.h" None) = Ok $"/usr/include/stdio.h"
  /\ starts_with $"linux" $"linux" = true /\ $"linux" <> $"linux2".
Proof. repeat split; discriminate. Qed.

(** ** C64: library search order *)
Theorem c64_library_order : forall fs initial regs name dirs,
  let r := fst (find_library fs (fold_left (add_locations fs) regs initial) name dirs) in
  let order := search_order fs initial regs dirs [] in
  (forall p, found_in fs name order p -> r = Ok p)
  /\ (nowhere fs name order -> forall p, fs_system fs name = Some p -> p <> [] -> r = Ok p)
  /\ (r = Err OSError <-> nowhere fs name order /\ (fs_system fs name = None \/ fs_system fs name = Some []))
  /\ (r = Err OSError \/ exists p, r = Ok p).
Proof. exact library_order. Qed.
Print Assumptions c64_library_order.

Definition lib_fs : fsys :=
  {| fs_join := fun a b => a ++ $"/" ++ b;
     fs_isfile := fun p => mem p [$"/one/a.so"; $"/two/a.so"];
     fs_isdir := fun p => negb (eqb p $"/none"); fs_system := fun n => if eqb n $"m.so" then Some $"/lib/m.so" else None |}.
Example c64_case :
  fst (find_library lib_fs (fold_left (add_locations lib_fs) [[$"/one"; $"/none"]; [$"/two"]] []) $"a.so" None)
  = Ok $"/two/a.so"
  /\ fst (find_library lib_fs [$"/two"] $"a.so" (Some [$"/one"])) = Ok $"/one/a.so"
  /\ fst (find_library lib_fs [$"/two"] $"m.so" (Some [$"/one"])) = Ok $"/lib/m.so"
  /\ fst (find_library lib_fs [$"/two"] $"z.so" (Some [$"/one"])) = Err OSError.
Proof. repeat split. Qed.

(** ** C65: the PE header *)
(** A file with the PE header at 64. *)
Definition pe_sample (sig : str) (m0 m1 : nat) : str :=
  $"MZ" ++ repeat "000"%char 58 ++ map ascii_of_nat [64; 0; 0; 0] ++ sig ++ [ascii_of_nat m0; ascii_of_nat m1].
(** False as stated: only the first two bytes of the signature are compared. *)
Theorem c65_pe_refuted : exists file out,
  arch $"win32" (Some file) out = [32] /\ forall m, ~ pe_file file m.
Proof.
  exists (pe_sample $"PEXX" 76 1), (Err OSError). split; [reflexivity|].
  intros m (p & _ & _ & (b0 & b1 & b2 & b3 & (c0 & C0 & <-) & (c1 & C1 & <-) & (c2 & C2 & <-) & (c3 & C3 & <-) & _ & P)
            & (s0 & s1 & s2 & s3 & E & _ & _ & (d & D & X) & _) & _).
  cbn in C0, C1, C2, C3. injection C0 as <-. injection C1 as <-. injection C2 as <-. injection C3 as <-.
  assert (Q : p = 64) by (cbn in P; lia). subst p. injection E as _ _ <- _.
  vm_compute in D. injection D as <-. discriminate X.
Qed.
Print Assumptions c65_pe_refuted.

(** The full statement but for the last two bytes of the signature. *)
Theorem c65_pe_partial : forall platform file out,
  starts_with $"win" platform = true ->
  (arch platform (Some file) out = [32] <-> pe_like file 332)
  /\ (arch platform (Some file) out = [64] <-> pe_like file 512 \/ pe_like file 34404)
  /\ (arch platform (Some file) out = [] <->
      ~ pe_like file 332 /\ ~ pe_like file 512 /\ ~ pe_like file 34404)
  /\ arch platform None out = [].
Proof. exact arch_windows_iff. Qed.
Print Assumptions c65_pe_partial.

Example c65_case :
  arch $"win32" (Some (pe_sample [" "%char] 0 0)) (Err OSError) = []
  /\ arch $"win32" (Some (pe_sample ($"PE" ++ ["000"; "000"]%char) 100 134)) (Err OSError) = [64]
  /\ arch $"win32" (Some $"MZ") (Err OSError) = []
  /\ pe_file (pe_sample ($"PE" ++ ["000"; "000"]%char) 100 134) 34404.
Proof.
  repeat split. exists 64. split; [|split; [|split; [|split]]].
  - eexists. split; reflexivity.
  - eexists. split; reflexivity.
  - exists 64, 0, 0, 0. repeat split; try (eexists; split; reflexivity). lia.
  - exists 80, 69, 0, 0. repeat split; eexists; split; reflexivity.
  - exists 100, 134. repeat split; try (eexists; split; reflexivity).
Qed.

(** ** C69: what is declared at initialisation is known afterwards *)
(** False as stated: from Python 3.12 on a type time_t of the caller is replaced; and
    initialising for Windows on another system leaves the backend with None for a type of the
    parser. *)
Theorem c69_declared_refuted :
  (exists platform t m v, opt_get (Some t) $"time_t" = Some v
      /\ dget (w_types (snd (run platform true [CInit (Some t) m] fresh))) $"time_t" <> Some v)
  /\ (exists platform, let w := snd (run platform false [CAuto None None (Some $"win32")] fresh) in
      In $"__int64" (w_extra w) /\ dget (w_types w) $"__int64" = Some TyNone).
Proof.
  split.
  - exists $"linux", [($"time_t", TyC $"c_int")], None, (TyC $"c_int"). split; [reflexivity|discriminate].
  - exists $"linux". split; [left; reflexivity|reflexivity].
Qed.
Print Assumptions c69_declared_refuted.

(** After [init] the parser knows exactly the given names and modifiers, and the backend maps
    the given names to the given types, but for time_t from Python 3.12 on and the names the
    backend itself defines on Windows, and keeps all other standard types. *)
Theorem c69_declared_partial : forall platform ge312 t m,
  NoDup (keys (opt_list t)) ->
  let w := snd (run platform ge312 [CInit t m] fresh) in
  w_extra w = keys (opt_list t) /\ w_mods w = opt_list m
  /\ (forall k v, opt_get t k = Some v -> ~ (ge312 = true /\ k = $"time_t") ->
      (platform = $"win32" -> dget ct_win_types k = None) -> dget (w_types w) k = Some v)
  /\ (forall k, opt_get t k = None -> ~ (ge312 = true /\ k = $"time_t") ->
      dget (w_types w) k = dget std_types k).
Proof. exact init_sets. Qed.
Print Assumptions c69_declared_partial.

(** The same for [auto_init], which adds the Windows modifiers and __int64 if [os] or the
    platform is Windows. *)
Theorem c69_auto_partial : forall platform ge312 t m os,
  NoDup (keys (opt_list t)) ->
  let win := os = Some $"win32" \/ platform = $"win32" in
  let w := snd (run platform ge312 [CAuto t m os] fresh) in
  (win -> w_mods w = opt_list m ++ win_modifiers /\ forall k, In k (w_extra w) <-> In k (keys (opt_list t)) \/ k = $"__int64")
  /\ (~ win -> w_mods w = opt_list m /\ w_extra w = keys (opt_list t))
  /\ (forall k v, opt_get t k = Some v -> ~ (ge312 = true /\ k = $"time_t") -> ~ (win /\ k = $"__int64") ->
      (platform = $"win32" -> dget ct_win_types k = None) -> dget (w_types w) k = Some v)
  /\ (forall k, opt_get t k = None -> ~ (ge312 = true /\ k = $"time_t") -> ~ (win /\ k = $"__int64") ->
      dget (w_types w) k = dget std_types k)
  /\ (platform = $"win32" -> dget (w_types w) $"__int64" = Some (TyC $"c_longlong")).
Proof. exact auto_sets. Qed.
Print Assumptions c69_auto_partial.
(** The first parser initialises the package as [auto_init] does. *)
Theorem c69_first_parser : forall platform ge312 w, w_parser w = false ->
  run platform ge312 [CNewParser] w = run platform ge312 [CAuto None None None] w.
Proof. exact parser_is_auto. Qed.
Print Assumptions c69_first_parser.
Example c69_auto_case :
  let t := Some [($"foo_t", TyC $"c_int")] in
  let w := snd (run $"linux" true [CAuto t (Some [$"__mine"]) (Some $"win32")] fresh) in
  NoDup (keys (opt_list t)) /\ w_extra w = [$"foo_t"; $"__int64"] /\ w_mods w = $"__mine" :: win_modifiers
  /\ dget (w_types w) $"foo_t" = Some (TyC $"c_int").
Proof. repeat split. repeat constructor; cbn; intuition discriminate. Qed.

Example c69_case :
  let t := Some [($"foo_t", TyC $"c_int"); ($"bool", TyOther 1)] in
  NoDup (keys (opt_list t))
  /\ dget (w_types (snd (run $"linux" true [CInit t None] fresh))) $"foo_t" = Some (TyC $"c_int")
  /\ dget (w_types (snd (run $"linux" true [CInit t None] fresh))) $"bool" = Some (TyOther 1)
  /\ dget (w_types (snd (run $"linux" true [CInit t None] fresh))) $"long" = Some (TyC $"c_long").
Proof.
  repeat split. cbn. repeat constructor; cbn; intuition discriminate.
Qed.
