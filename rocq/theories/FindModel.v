(** Model of pyclibrary/thirdparty/find_library.py:13-62 (Linux). *)
From Coq Require Import Ascii String Bool Arith List.
Import ListNotations.
From Verif Require Import PyBase PyStr.

(** The class [[^\(\)\s]] of the regular expressions, find_library.py:19, 44. *)
Definition open_class (c : ascii) : bool := negb (is_space c || cheq c "(" || cheq c ")").
(** [class*] followed by [k]: as many characters as possible such that [k] matches behind them
    (find_library.py:19, 44). *)
Fixpoint star_then (k : str -> option str) (s : str) : option str :=
  match s with
  | [] => k []
  | c :: r =>
      if open_class c then match star_then k r with Some m => Some (c :: m) | None => k s end
      else k s
  end.
(** [[^\(\)\s]*], find_library.py:19, 44. *)
Fixpoint take_class (s : str) : str :=
  match s with [] => [] | c :: r => if open_class c then c :: take_class r else [] end.
(** [lib%s\.[^\(\)\s]*] with [re.escape(name)], which matches the name itself (find_library.py:19, 44). *)
Definition lib_part (name s : str) : option str :=
  let p := $"lib" ++ name ++ $"." in
  match strip_prefix p s with Some r => Some (p ++ take_class r) | None => None end.
(** The expressions of line 20 ([slash] false) and line 45 ([slash] true), at the start of [s]. *)
Definition match_at (slash : bool) (name s : str) : option str :=
  if slash then
    match s with
    | c :: r => if cheq c "/" then match star_then (lib_part name) r with Some m => Some (c :: m) | None => None end else None
    | [] => None
    end
  else star_then (lib_part name) s.
(** [re.search(expr, s)] and [res.group(0)] (find_library.py:37-40, 45-52). *)
Fixpoint search (slash : bool) (name s : str) : option str :=
  match match_at slash name s with
  | Some m => Some m
  | None => match s with [] => None | _ :: r => search slash name r end
  end.

(** [_findlib_ldconfig], find_library.py:42-52, and [_findlib_gcc], 18-40.  [ldconfig], [ldd] and [gcc] are
    the outputs of the three commands.
    Simplification: the commands can be started and the temporary file can be removed. *)
Definition findlib_ldconfig (ldconfig ldd name : str) : option str :=
  match search true name ldconfig with
  | Some p => Some p
  | None => search true name ldd
  end.
(** [_findlib_gcc], find_library.py:18-40. *)
Definition findlib_gcc (gcc name : str) : option str := search false name gcc.
(** [_find_library], find_library.py:54-58; [real] is [os.path.realpath].  A path that has been found is
    not empty. *)
Definition find_lib (real : str -> str) (ldconfig ldd gcc name : str) : option str :=
  match (match findlib_ldconfig ldconfig ldd name with Some p => Some p | None => findlib_gcc gcc name end) with
  | Some p => Some (real p)
  | None => None
  end.
