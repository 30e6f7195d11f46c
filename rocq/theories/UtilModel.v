(** Model of pyclibrary/utils.py: searching headers and libraries, reading the architecture of
    a library. *)
From Coq Require Import Ascii String Bool Arith ZArith List.
Import ListNotations.
From Verif Require Import PyBase PyStr.

(** ** Searches *)
(** The file system as the code sees it: [os.path.join], [os.path.isfile], [os.path.isdir] and
    the search of [thirdparty.find_library] (None, or the path it found).
    Simplification: the file system does not change during a call (utils.py:37, 92-93, 143-147). *)
Record fsys := {
  fs_join : str -> str -> str;
  fs_isfile : str -> bool;
  fs_isdir : str -> bool;
  fs_system : str -> option str }.

(** [add_header_locations], [add_library_locations], utils.py:35-42, 102-109: the new list of
    directories.  The warning is not modelled. *)
Definition add_locations (fs : fsys) (dirs : list str) (l : list str) : list str :=
  dirs ++ filter (fs_isdir fs) l.

(** The loops utils.py:91-94, 142-145. *)
Fixpoint first_file (fs : fsys) (name : str) (dirs : list str) : option str :=
  match dirs with
  | [] => None
  | d :: r => let path := fs_join fs d name in
              if fs_isfile fs path then Some path else first_file fs name r
  end.

(** Lines 70-73 and 137-140: the list that is searched.  With a non-empty list of the caller
    it is that very list, extended in place. *)
Definition work_list (registered : list str) (dirs : option (list str)) : list str :=
  match dirs with
  | Some (d :: r) => (d :: r) ++ rev registered
  | _ => rev registered
  end.
(** What the list of the caller contains afterwards (utils.py:71, 138). *)
Definition callers_list (work : list str) (dirs : option (list str)) : option (list str) :=
  match dirs with
  | Some (_ :: _) => Some work
  | _ => dirs
  end.

(** [find_header], utils.py:45-96: the result and the list of the caller after the call.
    [platform]: [sys.platform]. *)
Definition darwin_dirs : list str :=
  [$"/usr/local/include"; $"/usr/include"; $"/System/Library/Frameworks"; $"/Library/Frameworks"].
(** utils.py:89. *)
Definition linux_dirs : list str := [$"/usr/local/include"; $"/usr/target/include"; $"/usr/include"].
(** [find_header], utils.py:70-96. *)
Definition find_header (fs : fsys) (platform : str) (header_dirs : list str) (name : str)
           (dirs : option (list str)) : res str * option (list str) :=
  let w1 := work_list header_dirs dirs in
  let w2 := if eqb platform $"darwin" then w1 ++ darwin_dirs else w1 in
  let w3 := if eqb platform $"linux2" then w2 ++ linux_dirs else w2 in
  (match first_file fs name w3 with Some p => Ok p | None => Err OSError end, callers_list w3 dirs).

(** [find_library], utils.py:112-151. *)
Definition find_library (fs : fsys) (library_dirs : list str) (name : str)
           (dirs : option (list str)) : res str * option (list str) :=
  let w := work_list library_dirs dirs in
  (match first_file fs name w with
   | Some p => Ok p
   | None => match fs_system fs name with
             | Some (c :: p) => Ok (c :: p)
             | _ => Err OSError
             end
   end, callers_list w dirs).

(** ** Architecture *)
(** utils.py:265, 273. *)
Definition byte (c : ascii) : Z := Z.of_nat (code c).
(** Little-endian numbers of two and of four bytes, the latter signed ([struct] formats H and
    l on Windows) (utils.py:273). *)
Definition le16 (a b : ascii) : Z := (byte a + 256 * byte b)%Z.
(** The format l of [struct], utils.py:265. *)
Definition le32s (a b c d : ascii) : Z :=
  let u := (le16 a b + 65536 * le16 c d)%Z in
  (if u <? 2147483648 then u else u - 4294967296)%Z.
(** [machine_types], utils.py:227-257. *)
Definition machine_types : list (Z * str) :=
  [(0%Z, $"UNKNOWN");
   (332%Z, $"I386");
   (354%Z, $"R3000");
   (358%Z, $"R4000");
   (360%Z, $"R10000");
   (361%Z, $"WCEMIPSV2");
   (388%Z, $"ALPHA");
   (418%Z, $"SH3");
   (419%Z, $"SH3DSP");
   (420%Z, $"SH3E");
   (422%Z, $"SH4");
   (424%Z, $"SH5");
   (448%Z, $"ARM");
   (450%Z, $"THUMB");
   (452%Z, $"ARMNT");
   (467%Z, $"AM33");
   (496%Z, $"POWERPC");
   (497%Z, $"POWERPCFP");
   (512%Z, $"IA64");
   (614%Z, $"MIPS16");
   (644%Z, $"ALPHA64");
   (870%Z, $"MIPSFPU");
   (1126%Z, $"MIPSFPU16");
   (1312%Z, $"TRICORE");
   (3311%Z, $"CEF");
   (3772%Z, $"EBC");
   (34404%Z, $"AMD64");
   (36929%Z, $"M32R");
   (49390%Z, $"CEE")].
(** [machine_types.get(machine, "UNKNOWN")], utils.py:278. *)
Fixpoint machine_get (l : list (Z * str)) (m : Z) : str :=
  match l with
  | [] => $"UNKNOWN"
  | (k, n) :: r => if (k =? m)%Z then n else machine_get r m
  end.
(** [machine_types.get(machine, "UNKNOWN")], utils.py:278. *)
Definition machine_name (m : Z) : str := machine_get machine_types m.
(** [get_shared_library_arch], utils.py:260-278, on the bytes of the file, on Windows (native
    long of four bytes).  [struct.error], and the failures of [seek] with a negative offset, are
    [OtherError]. *)
Definition pe_machine (file : str) : res str :=
  let dos := firstn 64 file in
  if negb (length dos =? 64) then Err OtherError
  else
    let at_ n := nth n dos "000"%char in
    if negb (eqb (firstn 2 dos) $"MZ") then Err OtherError
    else
      let offset := le32s (at_ 60) (at_ 61) (at_ 62) (at_ 63) in
      if (offset <? 0)%Z then Err OtherError
      else
        match firstn 6 (skipn (Z.to_nat offset) file) with
        | [s1; s2; _; _; m1; m2] =>
            if negb (eqb [s1; s2] $"PE") then Err OtherError
            else Ok (machine_name (le16 m1 m2))
        | _ => Err OtherError
        end.

(** [get_arch], utils.py:197-224.  [file]: the bytes of the file (None: it cannot be read);
    [out]: what the program [file] prints, decoded, or the exception of running it. *)
Definition get_arch (platform : str) (file : option str) (out : res str) : res (list nat) :=
  if starts_with $"win" platform then
    match file with
    | None => Err OSError
    | Some f =>
        do m <- pe_machine f;
        if eqb m $"I386" then Ok [32]
        else if mem m [$"IA64"; $"AMD64"] then Ok [64]
        else Ok []
    end
  else if negb (mem platform [$"linux2"; $"linux3"; $"linux"; $"darwin"]) then Err OSError
  else
    do o <- out;
    if starts_with $"linux" platform then
      Ok ((if contains $"32-bit" o then [32] else []) ++ (if contains $"64-bit" o then [64] else []))
    else
      Ok ((if contains $"(for architecture i386)" o then [32] else [])
          ++ (if contains $"(for architecture x86_64)" o then [64] else [])).
(** [LibraryPath.arch], utils.py:168-176. *)
Definition arch (platform : str) (file : option str) (out : res str) : list nat :=
  match get_arch platform file out with Ok l => l | Err _ => [] end.
(** [is_32bit], [is_64bit], utils.py:178-188; None stands for the text n/a. *)
Definition is_bits (bits : nat) (a : list nat) : option bool :=
  match a with [] => None | _ => Some (existsb (Nat.eqb bits) a) end.
