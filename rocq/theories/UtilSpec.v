(** What C62-C65 say, independently of the model's algorithms. *)
From Coq Require Import Ascii String Bool Arith ZArith List.
Import ListNotations.
From Verif Require Import PyBase PyStr UtilModel InitModel.

(** [p] is the first file called [name] in the directories [dirs]. *)
Definition found_in (fs : fsys) (name : str) (dirs : list str) (p : str) : Prop :=
  exists before d after, dirs = before ++ d :: after /\ p = fs_join fs d name /\ fs_isfile fs p = true
    /\ forall x, In x before -> fs_isfile fs (fs_join fs x name) = false.
Definition nowhere (fs : fsys) (name : str) (dirs : list str) : Prop :=
  forall d, In d dirs -> fs_isfile fs (fs_join fs d name) = false.

(** The registered directories after the registrations [regs], those of the package included,
    the last one first. *)
Definition registered (fs : fsys) (initial : list str) (regs : list (list str)) : list str :=
  initial ++ filter (fs_isdir fs) (concat regs).
(** The standard directories for headers of the platforms. *)
Definition standard_dirs (platform : str) : list str :=
  if eqb platform $"darwin" then
    [$"/usr/local/include"; $"/usr/include"; $"/System/Library/Frameworks"; $"/Library/Frameworks"]
  else if starts_with $"linux" platform then
    [$"/usr/local/include"; $"/usr/target/include"; $"/usr/include"]
  else [].
Definition callers (dirs : option (list str)) : list str :=
  match dirs with Some l => l | None => [] end.
(** The directories in the order in which they are to be searched. *)
Definition search_order (fs : fsys) (initial : list str) (regs : list (list str))
           (dirs : option (list str)) (standard : list str) : list str :=
  callers dirs ++ rev (registered fs initial regs) ++ standard.

(** ** PE files *)
Definition byte_at (file : str) (n : nat) (v : nat) : Prop :=
  exists c, nth_error file n = Some c /\ nat_of_ascii c = v.
(** The file has the magic number MZ, a complete DOS header whose last four bytes (60 to 63)
    give the non-negative place [p] of the PE header; there stands a signature of four bytes
    and the number [m] of the machine. *)
Definition pe_at (file : str) (p : nat) (sig : list nat) (m : Z) : Prop :=
  byte_at file 0 77 /\ byte_at file 1 90
  /\ (exists b0 b1 b2 b3, byte_at file 60 b0 /\ byte_at file 61 b1 /\ byte_at file 62 b2 /\ byte_at file 63 b3
      /\ b3 < 128 /\ Z.of_nat p = (Z.of_nat b0 + 256 * Z.of_nat b1 + 65536 * Z.of_nat b2 + 16777216 * Z.of_nat b3)%Z)
  /\ (exists s0 s1 s2 s3, sig = [s0; s1; s2; s3] /\ byte_at file p s0 /\ byte_at file (p + 1) s1
      /\ byte_at file (p + 2) s2 /\ byte_at file (p + 3) s3)
  /\ (exists m0 m1, byte_at file (p + 4) m0 /\ byte_at file (p + 5) m1 /\ m = (Z.of_nat m0 + 256 * Z.of_nat m1)%Z).
(** A PE file for the machine [m]. *)
Definition pe_file (file : str) (m : Z) : Prop := exists p, pe_at file p [80; 69; 0; 0] m.
(** The same with any last two bytes of the signature. *)
Definition pe_like (file : str) (m : Z) : Prop := exists p x y, pe_at file p [80; 69; x; y] m.

(** The architecture a file should be reported to have on Windows. *)
Definition machine_bits (m : Z) : list nat :=
  if (m =? 332)%Z then [32] else if ((m =? 512) || (m =? 34404))%Z then [64] else [].

(** ** Initialisation *)
(** What is expected of a call after the first one: creating a parser works, an explicit
    initialisation is refused. *)
Definition later (c : call) : res unit :=
  match c with CNewParser => Ok tt | _ => Err RuntimeError end.
(** The dictionary of types and the list of modifiers a call is given. *)
Definition given_types (c : call) : option (dict str tyval) :=
  match c with CInit t _ => t | CAuto t _ _ => t | CNewParser => None end.
Definition given_mods (c : call) : option (list str) :=
  match c with CInit _ m => m | CAuto _ m _ => m | CNewParser => None end.
Definition windows (platform : str) (c : call) : Prop :=
  match c with
  | CInit _ _ => False
  | CAuto _ _ os => os = Some $"win32" \/ platform = $"win32"
  | CNewParser => platform = $"win32"
  end.
Definition opt_get {A} (o : option (dict str A)) (k : str) : option A :=
  match o with Some d => dget d k | None => None end.
Definition opt_list {A} (o : option (list A)) : list A := match o with Some l => l | None => [] end.
