(** What C86 says about arguments a caller leaves out or gives as None. *)
From Coq Require Import Ascii String Bool Arith ZArith List.
Import ListNotations.
From Verif Require Import PyBase PyStr TypeModel InitModel DeclSpec CtModel.

(** Which objects ctypes takes for a parameter: [accepts p a], an object of type [a] for a parameter of
    type [p] (the methods from_param of ctypes).  A parameter of pointer type takes pointers, arrays and
    objects of the type pointed to; one of type c_void_p all pointers, arrays and strings; one of type c_char_p pointers to and
    arrays of characters. *)
Inductive accepts : pyt -> pyt -> Prop :=
| ac_same c : accepts c c
| ac_array c n : accepts (PPtr c) (PArr c n)
| ac_object c : accepts (PPtr c) c
| ac_void a : accepts (PBase $"c_void_p") (PPtr a)
| ac_void_array a n : accepts (PBase $"c_void_p") (PArr a n)
| ac_void_text p : In p [$"c_char_p"; $"c_wchar_p"] -> accepts (PBase $"c_void_p") (PBase p)
| ac_void_fun w r l : accepts (PBase $"c_void_p") (PFun w r l)
| ac_text p c : In (p, c) [($"c_char_p", $"c_char"); ($"c_wchar_p", $"c_wchar")] -> accepts (PBase p) (PPtr (PBase c))
| ac_text_array p c n : In (p, c) [($"c_char_p", $"c_char"); ($"c_wchar_p", $"c_wchar")] -> accepts (PBase p) (PArr (PBase c) n).

(** A C type made of so many pointers to a base type. *)
Inductive pointers : nat -> cty -> Prop :=
| ps_base q n : pointers 0 (TBase q n)
| ps_more k q t : pointers k t -> pointers (S k) (TPtr q t).

(** Pointers to characters. *)
Fixpoint innermost (c : pyt) : pyt := match c with PPtr c => innermost c | _ => c end.
Definition characters (c : pyt) : Prop :=
  innermost c = PBase $"c_char" \/ innermost c = PBase $"c_wchar" \/ c = PBase $"c_char_p" \/ c = PBase $"c_wchar_p".

(** Types whose objects are null pointers when nothing is given. *)
Definition null_when_new (c : pyt) : Prop :=
  match c with
  | PPtr _ | PFun _ _ _ => True
  | PBase p => In p [$"c_char_p"; $"c_wchar_p"; $"c_void_p"]
  | _ => False
  end.
