(** Model of [CFunction] and [CallResult], pyclibrary/c_library.py:396-626. *)
From Coq Require Import Ascii String Bool Arith ZArith List.
Import ListNotations.
From Verif Require Import PyBase PyStr TypeModel.

(** A parameter of a signature: name, type, default (the text of its value), c_library.py:404-406. *)
Notation param := (option str * ctype (list Z) * option str)%type.
(** [s[0]], c_library.py:416, 418. *)
Definition p_name (p : param) : option str := fst (fst p).
(** [s[1]], c_library.py:409, 415, 470. *)
Definition p_type (p : param) : ctype (list Z) := snd (fst p).
(** [x[2]], c_library.py:416. *)
Definition p_default (p : param) : option str := snd p.

(** The surroundings of a function object: the word lists and the type table of the headers (for
    [eval_type]), whether the backend finds a type for a signature type ([_get_type]) and makes a
    null pointer [_get_type(sig)()], and an automatic pointer past its assertion.
    Simplification: the table of types does not change after the function has been wrapped
    (c_library.py:471, 479, 482). *)
Record backend := {
  b_conf : tconf;
  b_types : dict str (tentry (list Z));
  b_type : ctype (list Z) -> res unit;
  b_null : ctype (list Z) -> res unit;
  b_pointer : ctype (list Z) -> res unit }.

(** What [CFunction.__init__] stores, c_library.py:399-420. *)
Record cfun := {
  f_lock : bool;
  f_ret : ctype (list Z);
  f_params : list param }.

(** [s[1] != ("void",)], c_library.py:409; qualifiers are not compared with a plain tuple. *)
Definition is_void (t : ctype (list Z)) : bool :=
  match t with CT (SName s) [] _ => eqb s $"void" | _ => false end.
(** [conv in self.sig[0]], c_library.py:411. *)
Definition elem_of (s : str) (t : ctype (list Z)) : bool :=
  match t_spec t with SName x => eqb s x | SType _ => false end
  || existsb (fun d => match d with DStr x => eqb s x | _ => false end) (t_decls t).

(** [CFunction.__init__], c_library.py:399-420, for a signature as recorded in the headers.  A
    [Type] has no method [remove].
    Simplification: [_init_function] sets attributes of a ctypes function, which succeeds. *)
Definition wrap (b : backend) (lock : bool) (sig : ctype (list Z)) : res cfun :=
  match sig with
  | CT (SType ret) [DFun params] _ =>
      let ps := filter (fun p => negb (is_void (p_type p))) params in
      if elem_of $"__stdcall" ret || elem_of $"__cdecl" ret then Err AttributeError
      else
        do _ <- b_type b ret;
        do _ <- mapM (fun p => b_type b (p_type p)) ps;
        Ok {| f_lock := lock; f_ret := ret; f_params := ps |}
  | _ => Err OtherError
  end.

(** A Python argument: None or an object (c_library.py:439, 454). *)
Inductive pyval : Type := PNone | PVal (id : nat).
(** An entry of [arg_list]: None, [Null], an object of the caller, a null pointer of the type
    of a parameter, an automatic pointer for it (c_library.py:435-457, 479, 482). *)
Inductive slot : Type := Absent | Null | Given (id : nat) | NullPtr (t : ctype (list Z)) | AutoPtr (t : ctype (list Z)).
(** [self.lib.Null] for None, the object itself otherwise, c_library.py:439-442, 454-457. *)
Definition of_py (v : pyval) : slot := match v with PNone => Null | PVal i => Given i end.

(** [self.arg_inds], c_library.py:418: the last position of a name. *)
Fixpoint last_index (ps : list param) (k : str) (i : nat) : option nat :=
  match ps with
  | [] => None
  | p :: r => match last_index r k (S i) with
              | Some j => Some j
              | None => if eqb (p_name p) (Some k) then Some i else None
              end
  end.
(** [arg_list[i] = x], c_library.py:440-442, 455-457. *)
Fixpoint set_nth {A} (l : list A) (n : nat) (x : A) : list A :=
  match l, n with
  | [], _ => []
  | _ :: r, O => x :: r
  | y :: r, S m => y :: set_nth r m x
  end.

(** Lines 435-444. *)
Definition positional (f : cfun) (args : list pyval) : list slot :=
  let req := length (filter (fun p => match p_default p with None => true | _ => false end) (f_params f)) in
  map of_py args ++ repeat Absent (req - length args).
(** Lines 446-459. *)
Fixpoint keywords (f : cfun) (kwargs : list (str * pyval)) (l : list slot) : res (list slot) :=
  match kwargs with
  | [] => Ok l
  | (k, v) :: r =>
      match last_index (f_params f) k 0 with
      | None => Err TypeError
      | Some i =>
          let l' := if length l <=? i then l ++ repeat Absent (i - length l + 1) else l in
          keywords f r (set_nth l' i (of_py v))
      end
  end.

(** [set(arg_type[1:]) == {"*"}] with lengths 2 or 3, ctypes.py:353: AssertionError if not; a
    list, or a tuple holding types, cannot be hashed: TypeError. *)
Definition hashable (d : decl (list Z)) : bool :=
  match d with DStr _ => true | DArr _ => false | DFun [] => true | DFun _ => false end.
(** An element of the set compared with [{"*"}], ctypes.py:353. *)
Definition is_star (d : decl (list Z)) : bool := match d with DStr s => eqb s $"*" | _ => false end.
(** ctypes.py:353. *)
Definition assert_pointer (t : ctype (list Z)) : res unit :=
  let ds := t_decls t in
  if (1 <=? length ds) && (length ds <=? 2) then
    if forallb hashable ds then if forallb is_star ds then Ok tt else Err AssertionError
    else Err TypeError
  else Err AssertionError.

(** Lines 469-489 for one missing argument; an AssertionError becomes a TypeError. *)
Definition fill_one (b : backend) (f : cfun) (i : nat) (s : slot) : res slot :=
  match s with
  | Absent | Null =>
      match nth_error (f_params f) i with
      | None => Err IndexError
      | Some p =>
          match (do t <- eval_type (b_conf b) (b_types b) (p_type p);
                 match s with
                 | Null => if length (t_decls t) <? 1 then Err TypeError
                           else do _ <- b_null b (p_type p); Ok (NullPtr (p_type p))
                 | _ => do _ <- assert_pointer t; do _ <- b_pointer b (p_type p); Ok (AutoPtr (p_type p))
                 end) with
          | Err AssertionError => Err TypeError
          | r => r
          end
      end
  | _ => Ok s
  end.
(** The loop over the missing arguments, c_library.py:463-489, in the order of their positions. *)
Fixpoint fill (b : backend) (f : cfun) (i : nat) (l : list slot) : res (list slot) :=
  match l with
  | [] => Ok []
  | s :: r => do s' <- fill_one b f i s; do r' <- fill b f (S i) r; Ok (s' :: r')
  end.
(** [guessed_args]: the places of the automatic pointers (c_library.py:483). *)
Fixpoint guessed_from (i : nat) (l : list slot) : list nat :=
  match l with
  | [] => []
  | AutoPtr _ :: r => i :: guessed_from (S i) r
  | _ :: r => guessed_from (S i) r
  end.

(** ["".join(self.sig[0])] in [pretty_signature], c_library.py:521-527, run while the exception of
    a failed call is reported: TypeError unless the return type consists of strings. *)
Definition joinable (t : ctype (list Z)) : bool :=
  match t_spec t with SName _ => true | SType _ => false end
  && forallb (fun d => match d with DStr _ => true | _ => false end) (t_decls t).

(** [CFunction.__call__], c_library.py:422-506: the call is refused with an exception, or the C
    function is run with these arguments.  [self.lib.lock] is no attribute (NameError, unless the
    headers define something of that name); ctypes raises TypeError for fewer arguments than
    [argtypes].
    Simplification: the conversion of the objects given by the caller by ctypes, which can also
    refuse the call, succeeds. *)
Inductive outcome : Type := Refused (e : exc) | Called (args : list slot) (guessed : list nat).
(** [CFunction.__call__], c_library.py:422-506. *)
Definition call (b : backend) (f : cfun) (args : list pyval) (kwargs : list (str * pyval)) : outcome :=
  match keywords f kwargs (positional f args) with
  | Err e => Refused e
  | Ok l =>
      match fill b f 0 l with
      | Err e => Refused e
      | Ok l' =>
          if f_lock f then Refused (if joinable (f_ret f) then NameError else TypeError)
          else if length l' <? length (f_params f) then Refused TypeError
          else Called l' (guessed_from 0 l')
      end
  end.

(** ** [CallResult], c_library.py:530-626 *)
Record result := { r_args : list slot; r_params : list param; r_guessed : list nat }.
(** What [result[n]] shows: the Python value of the argument, or of what the argument points
    to ([_extract_val_] of arg, of arg[0]) (c_library.py:592-595). *)
Inductive shown : Type := Plain (s : slot) | Deref (s : slot).
(** What may be given as index, c_library.py:584-590, 598-604. *)
Inductive index : Type := Int (z : Z) | Name (s : str) | OtherIndex.

(** [list[n]] for Python lists: negative indices count from the end (c_library.py:585, 588). *)
Definition py_index (len : nat) (z : Z) : option nat :=
  (if 0 <=? z then if z <? Z.of_nat len then Some (Z.to_nat z) else None
   else if 0 <=? z + Z.of_nat len then Some (Z.to_nat (z + Z.of_nat len)) else None)%Z.
(** [find_arg], c_library.py:606-613 *)
Fixpoint find_arg (ps : list param) (name : str) (i : nat) : res nat :=
  match ps with
  | [] => Err KeyError
  | p :: r => if eqb (p_name p) (Some name) then Ok i else find_arg r name (S i)
  end.
(** [n in self.guessed] (c_library.py:592). *)
Definition in_guessed (r : result) (z : Z) : bool := existsb (fun g => (Z.of_nat g =? z)%Z) (r_guessed r).

(** [__getitem__], c_library.py:583-595 *)
Definition get_item (r : result) (n : index) : res shown :=
  do z <- match n with
          | Int z => Ok z
          | Name s => do i <- find_arg (r_params r) s 0; Ok (Z.of_nat i)
          | OtherIndex => Err ValueError
          end;
  match py_index (length (r_args r)) z with
  | None => Err IndexError
  | Some i => match nth_error (r_args r) i with
              | Some s => Ok (if in_guessed r z then Deref s else Plain s)
              | None => Err IndexError
              end
  end.
(** [__setitem__], c_library.py:597-604 *)
Definition set_item (r : result) (n : index) (v : slot) : res result :=
  do z <- match n with
          | Int z => Ok z
          | Name s => do i <- find_arg (r_params r) s 0; Ok (Z.of_nat i)
          | OtherIndex => Err ValueError
          end;
  match py_index (length (r_args r)) z with
  | None => Err IndexError
  | Some i => Ok {| r_args := set_nth (r_args r) i v; r_params := r_params r; r_guessed := r_guessed r |}
  end.
(** [auto], c_library.py:619-625 *)
Definition auto (r : result) : res (list shown) := mapM (fun g => get_item r (Int (Z.of_nat g))) (r_guessed r).
(** The second part of [__iter__], c_library.py:615-617. *)
Definition iterate (r : result) : res (list shown) :=
  mapM (fun i => get_item r (Int (Z.of_nat i))) (seq 0 (length (r_args r))).
