(** C102: what a library path tells about the architecture of the library. *)
From Coq Require Import Ascii String Bool Arith ZArith Lia List.
Import ListNotations.
From Verif Require Import PyBase PyStr TextSpec UtilModel UtilSpec LibModel LibSpec LibProofs PathModel PathSpec PathProofs.
From Verif Require PpExamples PropsUtil.

(** The attributes of a path never raise, agree with each other, and keep telling what was found at the
    first look, whatever happens to the file afterwards; n/a is told exactly when nothing was found. *)
Theorem c102_looks :
  forall platform w l, exists a b,
    (a = true <-> shows platform (w 0) 32) /\ (b = true <-> shows platform (w 0) 64)
    /\ looks platform w l new_path = map (tells a b) l.
Proof. exact all_looks. Qed.
Print Assumptions c102_looks.

(** On Linux the architecture is that of the kind of file which the program file prints, and libraries
    are refused exactly if that is the other one only.  Missing: paths that contain the words 32-bit or
    64-bit, files whose kind contains them for other reasons (links). *)
Theorem c102_kind_partial :
  forall platform path kind out file n, on_linux platform -> silent path -> prints path kind out ->
  (shows platform (file, Ok out) n <-> occurs (linux_word n) kind).
Proof. exact shows_kind. Qed.
Print Assumptions c102_kind_partial.
Theorem c102_opened_partial :
  forall e s p kind out,
  on_linux (e_platform e) -> e_bits e = 32 \/ e_bits e = 64 ->
  designates e (ByName s) p -> silent p -> e_file e p = Ok out -> prints p kind out ->
  (lib_path e (ByName s) = Ok p <-> occurs (linux_word (e_bits e)) kind \/ ~ occurs (linux_word (other_bits (e_bits e))) kind)
  /\ (lib_path e (ByName s) = Err OSError <-> occurs (linux_word (other_bits (e_bits e))) kind /\ ~ occurs (linux_word (e_bits e)) kind).
Proof. exact opened_iff. Qed.
Print Assumptions c102_opened_partial.

(** A machine with the library libm.so in the directory /opt, of which the program file says [kind]. *)
Definition opt_fs : fsys :=
  {| fs_isdir := fun _ => true; fs_isfile := fun p => eqb p $"/opt/libm.so"; fs_join := fun d n => d ++ $"/" ++ n; fs_system := fun _ => None |}.
Definition machine (files : list (str * str)) (real : str -> str) (bits : nat) : surroundings :=
  {| e_fs := opt_fs; e_libdirs := [$"/opt"]; e_platform := $"linux"; e_bits := bits; e_real := real; e_content := fun _ => None;
     e_file := fun p => match dget files p with Some kind => Ok (p ++ $": " ++ kind) | None => Err OtherError end; e_init := fun _ => Ok tt |}.
Definition elf32 : str := $"ELF 32-bit LSB shared object, Intel 80386, version 1 (SYSV), dynamically linked, stripped".
Definition elf64 : str := $"ELF 64-bit LSB shared object, x86-64, version 1 (SYSV), dynamically linked, stripped".
Definition here : surroundings := machine [($"/opt/libm.so", elf32)] (fun p => p) 64.
Lemma not_occurs x s : contains x s = false -> ~ occurs x s.
Proof. intros C O. apply contains_occurs in O. congruence. Qed.
Example c102_example :
  on_linux (e_platform here) /\ designates here (ByName $"libm.so") $"/opt/libm.so" /\ silent $"/opt/libm.so"
  /\ (exists out, e_file here $"/opt/libm.so" = Ok out /\ prints $"/opt/libm.so" elf32 out)
  /\ occurs (linux_word 32) elf32 /\ ~ occurs (linux_word 64) elf32
  /\ lib_path here (ByName $"libm.so") = Err OSError
  /\ looks $"linux" (fun n => (None, if Nat.eqb n 0 then e_file here $"/opt/libm.so" else Err OSError)) [Ask32; Ask64; AskBitness; AskArch] new_path
     = [TBool true; TBool false; TText $"32"; TArch [32]]
  /\ looks $"win32" (fun n => (Some (PropsUtil.pe_sample ($"PE" ++ ["000"; "000"]%char) 100 134), Err OSError)) [Ask32; Ask64; AskBitness] new_path
     = [TBool false; TBool true; TText $"64"].
Proof.
  split; [left; reflexivity|]. split; [apply DesName; [cbn; intros I1; repeat (destruct I1 as [I1|I1]; [discriminate I1|]); exact I1|vm_compute; reflexivity]|].
  split; [split; apply not_occurs; vm_compute; reflexivity|].
  split; [eexists; split; [vm_compute; reflexivity|exists [" "%char]; split; [reflexivity|vm_compute; reflexivity]]|].
  split; [apply contains_occurs; vm_compute; reflexivity|]. split; [apply not_occurs; vm_compute; reflexivity|].
  split; [vm_compute; reflexivity|]. split; [vm_compute; reflexivity|vm_compute; reflexivity].
Qed.

(** A machine where every file is a library for 32 bits. *)
Definition there : surroundings :=
  {| e_fs := {| fs_isdir := fun _ => true; fs_isfile := fun _ => true; fs_join := fun d n => d ++ $"/" ++ n; fs_system := fun _ => None |};
            e_libdirs := []; e_platform := $"linux"; e_bits := 64; e_real := fun p => p; e_content := fun _ => None;
            e_file := fun p => Ok (p ++ $": " ++ elf32); e_init := fun _ => Ok tt |}.
(** The path is read together with the kind: a library for 32 bits in a directory called 64-bit is taken
    for a library for both. *)
Theorem c102_path_refuted :
  exists e s p kind, on_linux (e_platform e) /\ e_bits e = 64 /\ designates e (ByName s) p
    /\ (exists out, e_file e p = Ok out /\ prints p kind out)
    /\ occurs (linux_word 32) kind /\ ~ occurs (linux_word 64) kind /\ lib_path e (ByName s) = Ok p.
Proof.
  exists there, $"/opt/my-64-bit-app/libm.so", $"/opt/my-64-bit-app/libm.so", elf32.
  split; [left; reflexivity|]. split; [reflexivity|]. split; [apply (DesPath there $"/opt/my-64-bit-app/libm.so"); [cbn; auto|reflexivity]|].
  split; [eexists; split; [reflexivity|exists [" "%char]; split; [reflexivity|vm_compute; reflexivity]]|].
  split; [apply contains_occurs; vm_compute; reflexivity|]. split; [apply not_occurs; vm_compute; reflexivity|]. vm_compute. reflexivity.
Qed.
Print Assumptions c102_path_refuted.
(** Libraries found by name are not resolved: for a link the program file prints where it leads.  A
    library for the word size of the interpreter is refused because of the name of the file behind
    the link. *)
Theorem c102_link_refuted :
  exists e s p kind, on_linux (e_platform e) /\ e_bits e = 64 /\ designates e (ByName s) p /\ silent p
    /\ (exists out, e_file e (e_real e p) = Ok out /\ prints (e_real e p) kind out)
    /\ occurs (linux_word 64) kind /\ ~ occurs (linux_word 32) kind /\ lib_path e (ByName s) = Err OSError.
Proof.
  exists (machine [($"/opt/libm.so", $"symbolic link to libm-32-bit-floats.so"); ($"/opt/libm-32-bit-floats.so", elf64)]
            (fun p => if eqb p $"/opt/libm.so" then $"/opt/libm-32-bit-floats.so" else p) 64), $"libm.so", $"/opt/libm.so", elf64.
  split; [left; reflexivity|]. split; [reflexivity|].
  split; [apply DesName; [cbn; intros I1; repeat (destruct I1 as [I1|I1]; [discriminate I1|]); exact I1|vm_compute; reflexivity]|].
  split; [split; apply not_occurs; vm_compute; reflexivity|].
  split; [eexists; split; [vm_compute; reflexivity|exists [" "%char]; split; [reflexivity|vm_compute; reflexivity]]|].
  split; [apply contains_occurs; vm_compute; reflexivity|]. split; [apply not_occurs; vm_compute; reflexivity|]. vm_compute. reflexivity.
Qed.
Print Assumptions c102_link_refuted.
(** On macOS only what is printed for libraries with several architectures is understood: a library for
    64 bits alone is unknown. *)
Theorem c102_single_refuted :
  exists path kind out, prints path kind out /\ occurs $"64-bit" kind
    /\ looks $"darwin" (fun _ => (None, Ok out)) [Ask64; AskBitness] new_path = [TText $"n/a"; TText $"n/a"].
Proof.
  exists $"/opt/libm.dylib", $"Mach-O 64-bit dynamically linked shared library x86_64". eexists.
  split; [exists [" "%char]; split; reflexivity|]. split; [apply contains_occurs; vm_compute; reflexivity|]. vm_compute. reflexivity.
Qed.
Print Assumptions c102_single_refuted.
