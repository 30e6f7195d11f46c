(** Model of calls of functions of a library with the ctypes backend, pyclibrary/c_library.py:422-506:
    the argument lists of FunModel.v with the objects CtModel.v and LinkModel.v make, on the library
    of ObjModel.v. *)
From Coq Require Import Ascii String Bool Arith ZArith List.
Import ListNotations.
From Verif Require Import PyBase PyStr PyExpr TypeModel InitModel StoreModel DeclModel CtModel LinkModel ObjModel.
From Verif Require FunModel LibModel.

(** What the C function is given: an object of the caller, a null pointer of a type, a pointer of a
    type to a new object (c_library.py:435-483). *)
Inductive carg : Type := Own (id : nat) | NullOf (c : pyt) | NewOf (c : pyt).
(** A call is refused with an exception, or the C function is run with these arguments
    (c_library.py:448, 478, 489, 491-505). *)
Inductive outcome : Type := Refused (x : exc) | Called (args : list carg).

(** Equality of ctypes types, which are made once each (POINTER, the multiplication of types and
    CFUNCTYPE of ctypes keep what they make).
    Simplification: array types are, like in CtModel.v, compared by their elements (ctypes). *)
Fixpoint same_type (a b : pyt) : bool :=
  match a, b with
  | PVoid, PVoid => true
  | PBase m, PBase n => eqb m n
  | POther i, POther j => Nat.eqb i j
  | PClass i, PClass j => Nat.eqb i j
  | PPtr a, PPtr b => same_type a b
  | PArr a m, PArr b n => same_type a b && Z.eqb m n
  | PFun v a l, PFun w b r =>
      Bool.eqb v w && same_type a b
      && (fix all (l r : list pyt) : bool :=
            match l, r with
            | [], [] => true
            | x :: l, y :: r => same_type x y && all l r
            | _, _ => false
            end) l r
  | _, _ => false
  end.
(** Whether ctypes takes an object of type [a] for a parameter of type [p]: the methods [from_param] of
    ctypes, which [argtypes] stands for (backends/ctypes.py:388-391). *)
Definition object_taken (p a : pyt) : bool :=
  same_type p a
  || match p with
     | PPtr c => same_type c a || match a with PArr x _ => same_type c x | _ => false end
     | PBase n =>
         if eqb n $"c_void_p" then
           match a with
           | PPtr _ | PArr _ _ | PFun _ _ _ => true
           | PBase m => eqb m $"c_char_p" || eqb m $"c_wchar_p"
           | _ => false
           end
         else if eqb n $"c_char_p" then
           match a with PPtr x | PArr x _ => same_type x (PBase $"c_char") | _ => false end
         else if eqb n $"c_wchar_p" then
           match a with PPtr x | PArr x _ => same_type x (PBase $"c_wchar") | _ => false end
         else false
     | _ => false
     end.
(** An argument of a call.  [takes] tells which objects of the caller ctypes takes for a parameter of a
    type, or for an argument without parameter (c_library.py:494-496, backends/ctypes.py:390). *)
Definition arg_taken (takes : option pyt -> nat -> bool) (p : option pyt) (a : carg) : bool :=
  match a with
  | Own id => takes p id
  | NullOf c | NewOf c => match p with Some p => object_taken p c | None => true end
  end.
(** All arguments, each with its entry of [argtypes] (backends/ctypes.py:390), if there is one. *)
Fixpoint args_taken (takes : option pyt -> nat -> bool) (cs : list pyt) (l : list carg) : bool :=
  match l with
  | [] => true
  | a :: l => arg_taken takes (hd_error cs) a && args_taken takes (tl cs) l
  end.

(** The names and the defaults of the parameters, all the lines 434-457 look at ([req_args] and
    [arg_inds], c_library.py:416-418); no lock. *)
Definition names_only (sig : rty) : FunModel.cfun :=
  {| FunModel.f_lock := false; FunModel.f_ret := CT (SName []) [] [];
     FunModel.f_params := map (fun p => (fst (fst p), CT (SName []) [] [], snd p)) (sig_params sig) |}.
(** Lines 468-489 for one argument. *)
Definition fill_arg (e : cenv) (fuel : nat) (sig : rty) (i : nat) (s : FunModel.slot) : M carg :=
  match s with
  | FunModel.Absent => c <-- auto_arg e fuel sig i ;; ret (NewOf c)
  | FunModel.Null => c <-- null_arg e fuel sig i ;; ret (NullOf c)
  | FunModel.Given id => ret (Own id)
  | _ => fail OtherError
  end.
(** The loop over the missing arguments, c_library.py:463-489. *)
Fixpoint fill_args (e : cenv) (fuel : nat) (sig : rty) (i : nat) (l : list FunModel.slot) : M (list carg) :=
  match l with
  | [] => ret []
  | s :: l => a <-- fill_arg e fuel sig i s ;; r <-- fill_args e fuel sig (S i) l ;; ret (a :: r)
  end.
(** ["".join(self.sig[0])] in [pretty_signature], c_library.py:521-527, while an exception of the call is
    reported: a TypeError takes its place unless the type of the result consists of strings. *)
Definition reported (sig : rty) (x : exc) : exc :=
  match t_spec sig with
  | SType r =>
      if match t_spec r with SName _ => true | SType _ => false end
         && forallb (fun d => match d with DStr _ => true | _ => false end) (t_decls r)
      then x else TypeError
  | SName _ => x
  end.
(** [CFunction.__call__], c_library.py:422-506, for a function with the [argtypes] [cs]: ctypes raises TypeError
    for fewer arguments than [argtypes], then ctypes.ArgumentError (here OtherError) for objects it does not take. *)
Definition call_function (e : cenv) (fuel : nat) (takes : option pyt -> nat -> bool) (sig : rty) (cs : list pyt)
  (args : list FunModel.pyval) (kwargs : list (str * FunModel.pyval)) (st : cst) : outcome * cst :=
  let f := names_only sig in
  match FunModel.keywords f kwargs (FunModel.positional f args) with
  | Err x => (Refused x, st)
  | Ok l =>
      let (r, st1) := fill_args e fuel sig 0 l st in
      match r with
      | Err x => (Refused x, st1)
      | Ok l' =>
          if length l' <? length cs then (Refused (reported sig TypeError), st1)
          else if args_taken takes cs l' then (Called l', st1) else (Refused (reported sig OtherError), st1)
      end
  end.

(** [lib.name(args, kwargs)].
    Simplification: only calls of functions, OtherError for all else (c_library.py:209-247, 422-506). *)
Definition invoke (b : clib) (fuel : nat) (takes : option pyt -> nat -> bool) (a : LibModel.access)
  (args : list FunModel.pyval) (kwargs : list (str * FunModel.pyval)) (st : lstate) : outcome * lstate :=
  let (r, st1) := do_access b fuel a st in
  match r with
  | Err x => (Refused x, st1)
  | Ok (VFunction n _ cs) =>
      match dget (l_functions (b_lib b)) n with
      | Some sig => let (o, ct) := call_function (l_env (b_lib b)) fuel takes sig cs args kwargs (q_ct st1) in (o, with_ct st1 ct)
      | None => (Refused OtherError, st1)
      end
  | Ok _ => (Refused OtherError, st1)
  end.

(** A use of a library: an access, or a call (c_library.py:209-247, 422-506). *)
Inductive use : Type :=
| Get (a : LibModel.access)
| Invoke (a : LibModel.access) (args : list FunModel.pyval) (kwargs : list (str * FunModel.pyval)).
(** The access which a use begins with (c_library.py:209-247). *)
Definition used (u : use) : LibModel.access := match u with Get a => a | Invoke a _ _ => a end.
(** c_library.py:209-247, 422-506. *)
Definition do_use (b : clib) (fuel : nat) (takes : option pyt -> nat -> bool) (u : use) (st : lstate) : lstate :=
  match u with
  | Get a => snd (do_access b fuel a st)
  | Invoke a args kwargs => snd (invoke b fuel takes a args kwargs st)
  end.
(** One after the other.  Not in /repo: what a program may do. *)
Definition uses (b : clib) (fuel : nat) (takes : option pyt -> nat -> bool) (l : list use) (st : lstate) : lstate :=
  fold_left (fun st u => do_use b fuel takes u st) l st.
