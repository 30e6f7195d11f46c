(** Model of what a library object takes from its headers, pyclibrary/c_library.py:171-207. *)
From Coq Require Import Ascii String Bool Arith ZArith List.
Import ListNotations.
From Verif Require Import PyBase PyStr PyExpr StoreModel DeclModel.
From Verif Require LibModel.

(** [self._defs_ = self._headers_.defs] and [self._prefix_], c_library.py:182, 190-196, in the form
    LibModel.v uses: [_make_obj_] takes the value of a name as it is (line 278), and asks the
    other tables whether the name is there (lines 272-275).  [build] is what the backend makes of the
    other definitions.
    Simplification: LibModel.v does not look into values; [show] is any way to write them down,
    and must not be used for None. *)
Definition library_of (show : pobj -> str) (prefix : list str) (build : kind -> str -> res LibModel.made)
  (s : store entry) : LibModel.headers :=
  {| LibModel.h_prefix := prefix;
     LibModel.h_defs := fun k n =>
       match dget (defs s k) n with
       | None => None
       | Some (EVal ONone) => Some None
       | Some (EVal v) => Some (Some (show v))
       | Some _ => Some None
       end;
     LibModel.h_build := build |}.
