(** C87: finding a library by its name on Linux. *)
From Coq Require Import Ascii String Bool Arith List.
Import ListNotations.
From Verif Require Import PyBase PyStr FindModel FindSpec FindProofs.

(** C87: the library is the first path with lib<name>. in the list of ldconfig, else of ldd, else of the
    linker, and none is found only if there is none in all three; whatever the commands print.
    The file name of the path need not be lib<name>. and more, see below. *)
Theorem c87_first :
  forall real ldconfig ldd gcc name,
  match find_lib real ldconfig ldd gcc name with
  | Some r => exists p, r = real p
      /\ (first_listed true name ldconfig p
          \/ not_listed true name ldconfig /\ first_listed true name ldd p
          \/ not_listed true name ldconfig /\ not_listed true name ldd /\ first_listed false name gcc p)
  | None => not_listed true name ldconfig /\ not_listed true name ldd /\ not_listed false name gcc
  end.
Proof. exact found_first. Qed.
Print Assumptions c87_first.
(** There is but one such path. *)
Theorem c87_one_path :
  forall absolute name text p p', first_listed absolute name text p -> first_listed absolute name text p' -> p = p'.
Proof. exact first_unique. Qed.
Print Assumptions c87_one_path.
Definition cache : str := $(
"2 libs found in cache `/etc/ld.so.cache'
	libzip.so.4 (libc6,x86-64) => /lib/x86_64-linux-gnu/libzip.so.4
	libz.so.1 (libc6,x86-64) => /lib/x86_64-linux-gnu/libz.so.1
")%string.
Example c87_example :
  find_lib (fun p => p) cache [] [] $"z" = Some $"/lib/x86_64-linux-gnu/libz.so.1"
  /\ find_lib (fun p => p) cache [] $"/usr/bin/ld: libxyz.so" $"xyz" = Some $"libxyz.so"
  /\ find_lib (fun p => p) cache [] [] $"m" = None.
Proof. repeat split; vm_compute; reflexivity. Qed.

(** Another library is taken if the path of a library that comes first contains the name
    anywhere, here [mylibz.so] for the name z. *)
Theorem c87_file_name_refuted :
  exists ldconfig name p r, listed true name ldconfig ($"	libz.so (libc6) => /opt/mylibz.so" ++ [nl] ++ $"	libz.so (libc6) => ") p []
    /\ file_name p = $"libz.so" /\ find_lib (fun p => p) ldconfig [] [] name = Some r /\ file_name r = $"mylibz.so".
Proof.
  exists ($"	libz.so (libc6) => /opt/mylibz.so" ++ [nl] ++ $"	libz.so (libc6) => /lib/libz.so"), $"z", $"/lib/libz.so", $"/opt/mylibz.so".
  split; [|repeat split; vm_compute; reflexivity]. split; [vm_compute; reflexivity|]. exists $"lib/", $"so". split; [vm_compute; reflexivity|].
  split; repeat (constructor; [split; [reflexivity|split; discriminate]|]); constructor.
Qed.
Print Assumptions c87_file_name_refuted.
