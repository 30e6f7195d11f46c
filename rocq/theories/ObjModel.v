(** Model of a library object with the ctypes backend, pyclibrary/c_library.py:202-345: the attribute
    access of LibModel.v with the objects CtModel.v and LinkModel.v make. *)
From Coq Require Import Ascii String Bool Arith ZArith List.
Import ListNotations.
From Verif Require Import PyBase PyStr PyExpr TypeModel InitModel StoreModel DeclModel CtModel LinkModel.
From Verif Require LibModel.

(** What an access gives: a value, a wrapped function with its types, a ctypes type or class, the
    enumerators of an enum (c_library.py:277-300). *)
Inductive lobj : Type :=
| VValue (v : pobj)
| VFunction (n : str) (ret : pyt) (args : list pyt)
| VType (t : pyt)
| VEnum (l : dict str pobj).
(** [obj is None]: a value None, or [void], for which the backend has None (ctypes.py:210-211). *)
Definition is_none (o : lobj) : bool :=
  match o with VValue ONone => true | VType PVoid => true | _ => false end.

(** The library: what it takes from the headers (c_library.py:174-182), the prefixes (190-196) and
    whether the shared library has a symbol, [getattr(self._lib_, func_name)] (333-337). *)
Record clib := { b_lib : library; b_store : store entry; b_prefix : list str; b_exports : str -> bool }.
(** [_objs_], [_all_objs_] (c_library.py:202-205), and the state of the backend. *)
Record lstate := { q_objs : kind -> dict str lobj; q_all : dict str lobj; q_ct : cst }.
(** A library object at the beginning, c_library.py:202-207. *)
Definition opened (b : clib) : lstate :=
  {| q_objs := fun _ => []; q_all := [];
     q_ct := {| st_heap := l_heap (b_lib b); st_structs := []; st_classes := [] |} |}.

(** [_all_names_], c_library.py:255-260 *)
Definition all_names (b : clib) (name : str) : list str := name :: map (fun p => p ++ name) (b_prefix b).
(** [n in self._defs_[typ]], c_library.py:241, 272. *)
Definition is_defined (b : clib) (k : kind) (n : str) : bool := dmem (defs (b_store b) k) n.
(** c_library.py:272-275 *)
Definition acceptable (b : clib) (k : kind) (n : str) : bool :=
  is_defined b k n || (mem k [Structs; Unions; Enums] && is_defined b Types n).

(** The enumerators of the enum [n], also if [n] is a typedef for it, c_library.py:289-300. *)
Definition enum_of (b : clib) (n : str) : res lobj :=
  let e := l_env (b_lib b) in
  let look m := match dget (defs (b_store b) Enums) m with
                | Some (EEnum l) => Ok (VEnum l)
                | Some _ => Err OtherError
                | None => Err KeyError
                end in
  if is_defined b Enums n then look n
  else if negb (is_defined b Types n) then Err KeyError
  else
    do t0 <- mk_type (SName n) [] [];
    do t <- eval_type (e_conf e) (e_types e) t0;
    match t_spec t with
    | SName x => if starts_with $"enum " x then do m <- tag_entry e x; look m else Err KeyError
    | SType _ => Err OtherError
    end.
(** c_library.py:277-302 for the name [n]; 331-345 ([_get_function]) for functions. *)
Definition build (b : clib) (fuel : nat) (k : kind) (n : str) : M lobj :=
  let e := l_env (b_lib b) in
  match k with
  | Values => match dget (defs (b_store b) Values) n with
              | Some (EVal v) => ret (VValue v)
              | Some _ => fail OtherError
              | None => fail KeyError
              end
  | Functions =>
      if b_exports b n then
        match dget (l_functions (b_lib b)) n with
        | Some sig => p <-- wrap_types e fuel sig ;; ret (VFunction n (fst p) (snd p))
        | None => fail KeyError
        end
      else fail KeyError
  | Types => match dget (e_types e) n with
             | Some (TyE t) => c <-- get_type e fuel true t ;; ret (VType c)
             | Some RawE => fail OtherError
             | None => fail KeyError
             end
  | Structs => i <-- get_struct e fuel false n ;; ret (VType (PClass i))
  | Unions => i <-- get_struct e fuel true n ;; ret (VType (PClass i))
  | Enums => lift (enum_of b n)
  | _ => fail KeyError
  end.
(** A new state of the backend (c_library.py:206-207, ctypes.py:315). *)
Definition with_ct (st : lstate) (ct : cst) : lstate := {| q_objs := q_objs st; q_all := q_all st; q_ct := ct |}.

(** [_make_obj_], c_library.py:262-304; [self.objs] in line 269 as in LibModel.v. *)
Definition make_obj (b : clib) (fuel : nat) (k : kind) (name : str) (st : lstate) : res lobj * lstate :=
  let names := all_names b name in
  if existsb (dmem (q_objs st k)) names then (Err NameError, st)
  else match find (acceptable b k) names with
       | Some n => let (r, ct) := build b fuel k n (q_ct st) in (r, with_ct st ct)
       | None => (Err NameError, st)
       end.
(** [CLibrary.__call__], c_library.py:209-217 *)
Definition lib_call (b : clib) (fuel : nat) (k : kind) (name : str) (st : lstate) : res lobj * lstate :=
  if negb (mem k LibModel.access_kinds) then (Err KeyError, st)
  else match dget (q_objs st k) name with
       | Some o => (Ok o, st)
       | None =>
           let (r, st1) := make_obj b fuel k name st in
           match r with
           | Err x => (Err x, st1)
           | Ok o => (Ok o, {| q_objs := fun k' => if eqb k' k then dset (q_objs st1 k) name o else q_objs st1 k';
                               q_all := q_all st1; q_ct := q_ct st1 |})
           end
       end.
(** The loop of [CLibrary.__getattr__], c_library.py:226-245. *)
Fixpoint search_kinds (b : clib) (fuel : nat) (names : list str) (ks : list kind) (st : lstate) : res lobj * lstate :=
  match ks with
  | [] => (Err NameError, st)
  | k :: r =>
      match find (is_defined b k) names with
      | None => search_kinds b fuel names r st
      | Some n =>
          let (x, st1) := lib_call b fuel k n st in
          match x with
          | Err e => (Err e, st1)
          | Ok o => if is_none o then search_kinds b fuel names r st1 else (Ok o, st1)
          end
      end
  end.
(** [CLibrary.__getattr__], c_library.py:219-247, for a name that is no attribute of the library
    object itself. *)
Definition lib_attr (b : clib) (fuel : nat) (name : str) (st : lstate) : res lobj * lstate :=
  match dget (q_all st) name with
  | Some o => (Ok o, st)
  | None =>
      let (r, st1) := search_kinds b fuel (all_names b name) LibModel.access_kinds st in
      match r with
      | Err x => (Err x, st1)
      | Ok o => (Ok o, {| q_objs := q_objs st1; q_all := dset (q_all st1) name o; q_ct := q_ct st1 |})
      end
  end.
(** c_library.py:209-247. *)
Definition do_access (b : clib) (fuel : nat) (a : LibModel.access) (st : lstate) : res lobj * lstate :=
  match a with LibModel.Attr n => lib_attr b fuel n st | LibModel.Call k n => lib_call b fuel k n st end.
(** One after the other.  Not in /repo: what a program may do. *)
Definition accesses (b : clib) (fuel : nat) (l : list LibModel.access) (st : lstate) : lstate :=
  fold_left (fun st a => snd (do_access b fuel a st)) l st.
(** A library opened with the tables [s] (c_library.py:161-207). *)
Definition open_with (cf : tconf) (table : dict str tyval) (win : bool) (s : store entry)
  (prefix : list str) (exports : str -> bool) : clib :=
  {| b_lib := load cf table win s; b_store := s; b_prefix := prefix; b_exports := exports |}.
