(** Model of the results of calls, pyclibrary/c_library.py:505-506 and 530-626, with the objects the ctypes
    backend makes (InvokeModel.v). *)
From Coq Require Import Ascii String Bool Arith ZArith List.
Import ListNotations.
From Verif Require Import PyBase PyStr PyExpr TypeModel InitModel StoreModel DeclModel CtModel LinkModel ObjModel InvokeModel.
From Verif Require FunModel LibModel.

(** What a program sees: None, a number or a text (told apart by a number), an object of a ctypes type, an
    object the caller gave (c_library.py:578-595, backends/ctypes.py:161-171). *)
Inductive pyres : Type := PyNone | Raw (v : nat) | Obj (c : pyt) (id : nat) | Mine (id : nat).
(** What the C function and the objects of the caller contribute: the value returned; what is stored in the new
    object made for argument [i] when the function has run; the pointer made for argument [i]; which of the types the
    user put in the table ctypes converts to Python values, and which have objects with an attribute [value]; which objects of the caller have one; and
    the values of these attributes (c_library.py:494-496). *)
Record world := {
  w_ret : nat;
  w_stored : nat -> nat;
  w_made : nat -> nat;
  w_plain : nat -> bool;
  w_valued : nat -> bool;
  w_mine : nat -> bool;
  w_value : pyres -> pyres }.

(** ctypes converts objects of its simple types to Python values, in results and in [p[0]]
    (backends/ctypes.py:391, c_library.py:593). *)
Definition converts (w : world) (c : pyt) : bool :=
  match c with PBase _ => true | POther j => w_plain w j | _ => false end.
(** The Python object for an object of type [c]: ctypes.py:391 (results), c_library.py:593. *)
Definition seen (w : world) (c : pyt) (id : nat) : pyres :=
  match c with PVoid => PyNone | _ => if converts w c then Raw id else Obj c id end.
(** The arguments as objects (c_library.py:505). *)
Definition arg_object (w : world) (i : nat) (a : carg) : pyres :=
  match a with Own id => Mine id | NullOf c | NewOf c => Obj c (w_made w i) end.
(** [arg[0]]; objects that are no pointers cannot be indexed.  Simplification: only asked for automatic arguments,
    which are pointers to objects (backends/ctypes.py:362). *)
Definition item0 (w : world) (i : nat) (a : carg) : res pyres :=
  match a with NewOf (PPtr c) => Ok (seen w c (w_stored w i)) | _ => Err TypeError end.

(** Whether instances of a class have an attribute [value]: a field of that name, also inside of anonymous
    fields (ctypes makes these attributes of the outer class).  Anonymous fields are nested less deeply than there are classes
    (backends/ctypes.py:168). *)
Fixpoint class_has (fuel : nat) (ks : list cls) (i : nat) : bool :=
  match fuel with
  | O => false
  | S fuel =>
      match nth_error ks i with
      | Some k =>
          match k_fields k with
          | Some fs => existsb (fun f => eqb (fd_name f) $"value"
              || (existsb (eqb (fd_name f)) (k_anon k) && match fd_type f with PClass j => class_has fuel ks j | _ => false end)) fs
          | None => false
          end
      | None => false
      end
  end.
(** [_extract_val_], backends/ctypes.py:161-171: [obj.value] if there is such an attribute.  Objects of simple types
    are null pointers here, of which [value] is None; arrays of characters have a value, other arrays and pointers have none. *)
Definition extract (w : world) (ks : list cls) (x : pyres) : pyres :=
  match x with
  | PyNone | Raw _ => x
  | Mine id => if w_mine w id then w_value w x else x
  | Obj c _ =>
      match c with
      | PBase _ => PyNone
      | POther j => if w_valued w j then w_value w x else x
      | PClass i => if class_has (length ks) ks i then w_value w x else x
      | PArr (PBase n) _ => if eqb n $"c_char" || eqb n $"c_wchar" then w_value w x else x
      | _ => x
      end
  end.

(** [CallResult], c_library.py:571-576: the type of the result, the arguments, the names of the parameters
    ([sig]) and the places of the automatic arguments. *)
Record result := { r_type : pyt; r_args : list carg; r_names : list (option str); r_guessed : list nat }.
(** [guessed_args], c_library.py:483. *)
Fixpoint guessed_from (i : nat) (l : list carg) : list nat :=
  match l with
  | [] => []
  | NewOf _ :: r => i :: guessed_from (S i) r
  | _ :: r => guessed_from (S i) r
  end.
(** [find_arg], c_library.py:606-613. *)
Fixpoint find_name (ns : list (option str)) (name : str) (i : nat) : res nat :=
  match ns with
  | [] => Err KeyError
  | n :: r => if eqb n (Some name) then Ok i else find_name r name (S i)
  end.
Section Read.
  Context (w : world) (ks : list cls) (r : result).
  (** [__call__], c_library.py:578-581; the type of the result is a [Type], never equal to the list compared with. *)
  Definition returned : pyres := extract w ks (seen w (r_type r) (w_ret w)).
  (** [__getitem__], c_library.py:583-595. *)
  Definition item (n : FunModel.index) : res pyres :=
    do z <- match n with
            | FunModel.Int z => Ok z
            | FunModel.Name s => do i <- find_name (r_names r) s 0; Ok (Z.of_nat i)
            | FunModel.OtherIndex => Err ValueError
            end;
    match FunModel.py_index (length (r_args r)) z with
    | None => Err IndexError
    | Some i => match nth_error (r_args r) i with
                | Some a => do x <- (if existsb (fun g => (Z.of_nat g =? z)%Z) (r_guessed r) then item0 w i a else Ok (arg_object w i a));
                            Ok (extract w ks x)
                | None => Err IndexError
                end
    end.
  (** [auto], c_library.py:619-625. *)
  Definition auto : res (list pyres) := mapM (fun g => item (FunModel.Int (Z.of_nat g))) (r_guessed r).
  (** The second part of [__iter__], c_library.py:615-617. *)
  Definition all_items : res (list pyres) := mapM (fun i => item (FunModel.Int (Z.of_nat i))) (seq 0 (length (r_args r))).
End Read.

(** [lib.name(args, kwargs)] with its result, c_library.py:505-506. *)
Definition call_result (b : clib) (fuel : nat) (takes : option pyt -> nat -> bool) (a : LibModel.access)
  (args : list FunModel.pyval) (kwargs : list (str * FunModel.pyval)) (st : lstate) : res result * lstate :=
  let (o, st1) := invoke b fuel takes a args kwargs st in
  match o with
  | Refused x => (Err x, st1)
  | Called l =>
      match fst (do_access b fuel a st) with
      | Ok (VFunction n c _) =>
          match dget (l_functions (b_lib b)) n with
          | Some sig => (Ok {| r_type := c; r_args := l; r_names := map (fun p => fst (fst p)) (sig_params sig); r_guessed := guessed_from 0 l |}, st1)
          | None => (Err OtherError, st1)
          end
      | _ => (Err OtherError, st1)
      end
  end.
