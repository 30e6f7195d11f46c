(** Model of the helpers a caller makes arguments with: build_array and cast_to,
    pyclibrary/c_library.py:628-669, backends/ctypes.py:364-386, and [CFunction.arg_c_type],
    c_library.py:508-519, on the library of ObjModel.v. *)
From Coq Require Import Ascii String Bool Arith ZArith List.
Import ListNotations.
From Verif Require Import PyBase PyStr PyExpr TypeModel InitModel StoreModel DeclModel CtModel LinkModel ObjModel InvokeModel.
From Verif Require FunModel LibModel.

(** What the caller gives as [typ]: a ctypes type, or a string (backends/ctypes.py:366, 373). *)
Inductive typ_arg : Type := AsType (c : pyt) | AsName (n : str).
(** backends/ctypes.py:366-367, 373-374: [self._get_type((typ,))] unless it is a type. *)
Definition helper_type (e : cenv) (fuel : nat) (t : typ_arg) : M pyt :=
  match t with
  | AsType c => ret c
  | AsName n => t0 <-- lift (mk_type (SName n) [] []) ;; get_type e fuel true t0
  end.

(** An object that is made: its type, and the objects of the caller its first elements are set to; the other
    elements are zero (backends/ctypes.py:384, 386). *)
Record made : Type := { m_class : pyt; m_set : list nat }.
(** [new( *vals)] of ctypes for an array type: element after element is set; [sets] is what ctypes says
    to the value [v] for an element of a type (backends/ctypes.py:384). *)
Fixpoint set_elements (sets : pyt -> nat -> option exc) (c : pyt) (n i : Z) (vals : list nat) : res unit :=
  match vals with
  | [] => Ok tt
  | v :: r =>
      if (n <=? i)%Z then Err IndexError
      else match sets c v with Some x => Err x | None => set_elements sets c n (i + 1)%Z r end
  end.
(** backends/ctypes.py:383-386.
    Simplification: values for an object which is no array (with the size ()) are not modelled, OtherError. *)
Definition make_new (sets : pyt -> nat -> option exc) (c : pyt) (vals : list nat) : res made :=
  match c with
  | PVoid => Err TypeError
  | PArr x n => do _ <- set_elements sets x n 0%Z vals; Ok {| m_class := c; m_set := vals |}
  | _ => match vals with [] => Ok {| m_class := c; m_set := [] |} | _ => Err OtherError end
  end.
(** A request of the backend, on the classes of the library (backends/ctypes.py:367, 374). *)
Definition on_classes {A} (m : M A) (st : lstate) : res A * lstate := let (r, ct) := m (q_ct st) in (r, with_ct st ct).
(** [build_array(lib, typ, size, vals)], c_library.py:648-669, backends/ctypes.py:371-386. *)
Definition build_array (b : clib) (fuel : nat) (sets : pyt -> nat -> option exc) (t : typ_arg) (sz : size) (vals : list nat)
  (st : lstate) : res made * lstate :=
  on_classes (c <-- helper_type (l_env (b_lib b)) fuel t ;; lift (do a <- get_array c sz; make_new sets a vals)) st.

(** The types [ctypes.cast] takes: pointers, function pointers and the simple types that are pointers
    (backends/ctypes.py:369). *)
Definition cast_target (c : pyt) : bool :=
  match c with
  | PPtr _ | PFun _ _ _ => true
  | PBase n => eqb n $"c_void_p" || eqb n $"c_char_p" || eqb n $"c_wchar_p"
  | _ => false
  end.
(** [cast_to(lib, obj, typ)], c_library.py:628-645, backends/ctypes.py:364-369: the type of the object made.
    [ctypes.cast] takes what a parameter of type c_void_p takes (else ArgumentError, here OtherError),
    then looks at the type. *)
Definition cast_to (b : clib) (fuel : nat) (takes : option pyt -> nat -> bool) (id : nat) (t : typ_arg) (st : lstate) : res pyt * lstate :=
  on_classes (c <-- helper_type (l_env (b_lib b)) fuel t ;;
              lift (if negb (takes (Some (PBase $"c_void_p")) id) then Err OtherError
                    else if cast_target c then Ok c else Err TypeError)) st.

(** An argument of a function, by position or by name (c_library.py:517-519). *)
Inductive which : Type := AtIndex (i : Z) | AtName (n : str).
(** c_library.py:517-519: [self.arg_inds[arg]], and the index of Python in a list of that length. *)
Definition arg_position (ps : list (option str * rty * option str)) (w : which) : res nat :=
  match w with
  | AtName n =>
      match FunModel.last_index (map (fun p => (fst (fst p), CT (SName []) [] [], snd p)) ps) n 0 with
      | Some i => Ok i
      | None => Err KeyError
      end
  | AtIndex z =>
      let len := Z.of_nat (length ps) in
      if ((0 <=? z) && (z <? len))%Z then Ok (Z.to_nat z)
      else if ((- len <=? z) && (z <? 0))%Z then Ok (Z.to_nat (len + z))
      else Err IndexError
  end.
(** [self.lib._get_type(self.sig[1][arg][1])], c_library.py:519. *)
Definition arg_type (e : cenv) (fuel : nat) (sig : rty) (w : which) : M pyt :=
  i <-- lift (arg_position (sig_params sig) w) ;;
  match nth_error (sig_params sig) i with
  | Some p => get_type e fuel true (snd (fst p))
  | None => fail IndexError
  end.
(** [lib.f.arg_c_type(arg)], c_library.py:508-519.
    Simplification: only of functions, OtherError for all else. *)
Definition arg_c_type (b : clib) (fuel : nat) (a : LibModel.access) (w : which) (st : lstate) : res pyt * lstate :=
  let (r, st1) := do_access b fuel a st in
  match r with
  | Err x => (Err x, st1)
  | Ok (VFunction n _ _) =>
      match dget (l_functions (b_lib b)) n with
      | Some sig => on_classes (arg_type (l_env (b_lib b)) fuel sig w) st1
      | None => (Err OtherError, st1)
      end
  | Ok _ => (Err OtherError, st1)
  end.

(** What may be done with a library: accesses and calls, and these helpers
    (c_library.py:209-247, 422-519, 628-669). *)
Inductive deed : Type :=
| Use (u : use)
| Build (t : typ_arg) (sz : size) (vals : list nat)
| Cast (id : nat) (t : typ_arg)
| ArgType (a : LibModel.access) (w : which).
(** One of these, c_library.py:209-247, 422-506, 508-519, 628-669. *)
Definition do_deed (b : clib) (fuel : nat) (takes : option pyt -> nat -> bool) (sets : pyt -> nat -> option exc) (d : deed) (st : lstate) : lstate :=
  match d with
  | Use u => do_use b fuel takes u st
  | Build t sz vals => snd (build_array b fuel sets t sz vals st)
  | Cast id t => snd (cast_to b fuel takes id t st)
  | ArgType a w => snd (arg_c_type b fuel a w st)
  end.
(** One after the other.  Not in /repo: what a program may do. *)
Definition deeds (b : clib) (fuel : nat) (takes : option pyt -> nat -> bool) (sets : pyt -> nat -> option exc) (l : list deed) (st : lstate) : lstate :=
  fold_left (fun st d => do_deed b fuel takes sets d st) l st.
