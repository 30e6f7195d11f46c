(** Model of the construction of ctypes types, pyclibrary/backends/ctypes.py:173-386. *)
From Coq Require Import Ascii String Bool Arith ZArith List.
Import ListNotations.
From Verif Require Import PyBase PyStr PyExpr TypeModel InitModel StoreModel DeclModel.

(** Types whose array lists are objects of their own, told apart by a number: [_get_type]
    extends such lists in place (ctypes.py:227). *)
Notation rty := (ctype nat).
Notation rdecl := (decl nat).

(** The ctypes types.  ctypes caches POINTER(c), c * n and CFUNCTYPE(...), hence equal terms stand
    for one object.  [PClass i]: the i-th class statement executed (ctypes.py:303-312).
    Simplification: objects the user put in the table of types are ctypes types. *)
Inductive pyt : Type :=
| PVoid
| PBase (name : str)
| POther (id : nat)
| PClass (i : nat)
| PPtr (t : pyt)
| PArr (t : pyt) (n : Z)
| PFun (win : bool) (ret : pyt) (args : list pyt).
(** An entry of [_types_] as a type, ctypes.py:198-199, 211 (None is void). *)
Definition of_tyval (v : tyval) : pyt :=
  match v with TyNone => PVoid | TyC n => PBase n | TyOther i => POther i end.

(** The definitions: a member of a structure is a tuple of name, type, value and, if declared, bit
    width (c_parser.py:1576-1587); [_defs_] and [_types_]; whether the platform is win32. *)
Record smember := { sm_name : option str; sm_type : rty; sm_val : pobj; sm_bit : option Z }.
(** A structure or union as recorded, c_parser.py:265-270; read in ctypes.py:299-302, 317. *)
Record sdef := { sd_members : list smember; sd_pack : option Z }.
(** What the backend works on: [_defs_] (c_library.py:182), [_types_] (ctypes.py:137) and the platform (57-58). *)
Record cenv := {
  e_conf : tconf;
  e_types : dict str (tentry nat);
  e_structs : dict str sdef;
  e_unions : dict str sdef;
  e_table : dict str tyval;
  e_win : bool }.
(** [self._defs_[str_type]], ctypes.py:299. *)
Definition e_comps (e : cenv) (union : bool) : dict str sdef := if union then e_unions e else e_structs e.

(** A class made by [_get_struct]; the fields are None until [_fields_] is assigned.  A field: name,
    type and third element, if any (ctypes.py:340-345). *)
Record field := { fd_name : str; fd_type : pyt; fd_width : option pobj }.
(** A class, ctypes.py:303-346. *)
Record cls := { k_union : bool; k_pack : option Z; k_anon : list str; k_fields : option (list field) }.
(** What requests change: the contents of the array lists, [_structs_] and the classes (ctypes.py:227, 315). *)
Record cst := { st_heap : list (list pobj); st_structs : dict str nat; st_classes : list cls }.

(** Computations which keep the state reached when an exception is raised (ctypes.py:181, 290-292). *)
Definition M (A : Type) : Type := cst -> res A * cst.
(** [return x] (ctypes.py:288, 348). *)
Definition ret {A} (x : A) : M A := fun st => (Ok x, st).
(** [raise e] (ctypes.py:213, 260, 274, 287). *)
Definition fail {A} (e : exc) : M A := fun st => (Err e, st).
(** A computation which changes nothing (ctypes.py:182). *)
Definition lift {A} (r : res A) : M A := fun st => (r, st).
(** One statement after the other; an exception ends them (ctypes.py:181, 290-292 raise it again). *)
Definition mbind {A B} (a : M A) (f : A -> M B) : M B :=
  fun st => match a st with (Ok x, st') => f x st' | (Err e, st') => (Err e, st') end.
Notation "x <-- a ;; b" := (mbind a (fun x => b)) (at level 80, a at level 70, right associativity).
(** A list comprehension, ctypes.py:282, 340-345. *)
Fixpoint mapMM {A B} (f : A -> M B) (l : list A) : M (list B) :=
  match l with
  | [] => ret []
  | x :: r => y <-- f x ;; ys <-- mapMM f r ;; ret (y :: ys)
  end.

(** ** Array lists *)
(** ctypes.py:226-227, 244. *)
Definition content (h : list (list pobj)) (a : nat) : list pobj := nth a h [].
(** [seen += m] writes the list with number [a], ctypes.py:227. *)
Fixpoint put (h : list (list pobj)) (a : nat) (l : list pobj) : list (list pobj) :=
  match h, a with
  | [], _ => []
  | _ :: r, O => l :: r
  | x :: r, S a' => x :: put r a' l
  end.
(** ctypes.py:218-232: consecutive arrays are merged by [seen += m]. *)
Fixpoint merge (h : list (list pobj)) (seen : rdecl) (mods : list rdecl) : list (list pobj) * list rdecl :=
  match mods with
  | [] => (h, [seen])
  | m :: r =>
      match seen, m with
      | DArr a, DArr b => merge (put h a (content h a ++ content h b)) seen r
      | _, _ => let (h', l) := merge h m r in (h', seen :: l)
      end
  end.
(** ctypes.py:218-232; there is nothing to merge without modifiers (223). *)
Definition merge_all (h : list (list pobj)) (mods : list rdecl) : list (list pobj) * list rdecl :=
  match mods with [] => (h, []) | m :: r => merge h m r end.

(** ** Modifiers *)
(** [POINTER(cls)]; POINTER(None) is c_void_p (ctypes.py:240, 249, 361). *)
Definition ptr (c : pyt) : pyt := match c with PVoid => PBase $"c_void_p" | _ => PPtr c end.
(** [cls * i]: a length below zero raises ValueError, None * i and a length that is no integer
    TypeError.  Simplification: no length is too large (ctypes.py:251, 381). *)
Definition times (c : pyt) (d : pobj) : res pyt :=
  match c, d with
  | PVoid, _ => Err TypeError
  | _, ONum (VInt z) => if (z <? 0)%Z then Err ValueError else Ok (PArr c z)
  | _, ONum (VBool b) => Ok (PArr c (if b then 1 else 0))
  | _, _ => Err TypeError
  end.
(** [i == -1]; a quotient of integers is a float (ctypes.py:247). *)
Definition is_unknown (d : pobj) : bool :=
  match d with
  | ONum (VInt z) => (z =? -1)%Z
  | ONum (VQuot n d) => (n =? - d)%Z
  | _ => false
  end.
(** ctypes.py:242-251 *)
Definition add_dim (c : pyt) (d : pobj) : res pyt := if is_unknown d then Ok (ptr c) else times c d.
(** The loop over an array list, already reversed, ctypes.py:244-251. *)
Fixpoint add_dims (c : pyt) (l : list pobj) : res pyt :=
  match l with [] => Ok c | d :: r => do c' <- add_dim c d; add_dims c' r end.
(** ctypes.py:237-240: other strings, such as calling conventions, are skipped. *)
Definition add_str (c : pyt) (s : str) : pyt :=
  match s with
  | x :: _ => if (cheq x "*" || cheq x "&")%bool then fold_left (fun t _ => ptr t) s c else c
  | [] => c
  end.
(** [mkfn(cls, *args)], ctypes.py:276-283: None as argument type raises TypeError; WINFUNCTYPE is
    only imported on win32. *)
Definition mk_fun (win : bool) (r : pyt) (args : list pyt) : res pyt :=
  if existsb (fun a => match a with PVoid => true | _ => false end) args then Err TypeError
  else Ok (PFun win r args).

(** What the loop of ctypes.py:235-288 does to a modifier, looking at most two modifiers ahead
    behind a function (256-274). *)
Inductive step : Type := StStr (s : str) | StArr (a : nat) | StFun (args : list (option str * rty * option str)) (std : bool) | StBad (e : exc).
(** What ctypes.py:264-270 tells apart: a star, a calling convention, anything else. *)
Inductive look : Type := LStar | LConv (std : bool) | LOther.
(** [mods[0] == "*"], [mods[0] in [...]], ctypes.py:264, 267. *)
Definition look_at (d : rdecl) : look :=
  match d with
  | DStr s => if eqb s $"*" then LStar
              else if eqb s $"__stdcall" then LConv true
              else if eqb s $"__cdecl" then LConv false else LOther
  | _ => LOther
  end.
(** The loop of ctypes.py:235-287; behind a function at most two modifiers are taken off (261-270). *)
Fixpoint steps (mods : list rdecl) : list step :=
  match mods with
  | [] => []
  | DStr s :: r => StStr s :: steps r
  | DArr a :: r => StArr a :: steps r
  | DFun args :: r =>
      match r with
      | [] => [StBad DefinitionError]
      | d1 :: r1 =>
          match look_at d1 with
          | LStar =>
              match r1 with
              | [] => [StFun args false]
              | d2 :: r2 =>
                  match look_at d2 with
                  | LStar => StFun args false :: steps r2
                  | LConv std => StFun args std :: steps r2
                  | LOther => StFun args false :: steps r1
                  end
              end
          | LConv std =>
              match r1 with
              | d2 :: r2 => match look_at d2 with
                            | LStar => StFun args std :: steps r2
                            | _ => [StBad DefinitionError]
                            end
              | [] => [StBad DefinitionError]
              end
          | LOther => [StBad DefinitionError]
          end
      end
  end.
Section Steps.
  Context (e : cenv) (arg_type : rty -> M pyt).
  (** The body of the loop, ctypes.py:237-287.  WINFUNCTYPE is only imported on win32 (57-58): NameError. *)
  Definition do_step (c : pyt) (s : step) : M pyt :=
    match s with
    | StStr s => ret (add_str c s)
    | StArr a => fun st => (add_dims c (rev (content (st_heap st) a)), st)
    | StFun args std =>
        if std && negb (e_win e) then fail NameError
        else ts <-- mapMM (fun a => arg_type (snd (fst a))) args ;; lift (mk_fun std c ts)
    | StBad x => fail x
    end.
  (** The loop, ctypes.py:235. *)
  Fixpoint do_steps (c : pyt) (l : list step) : M pyt :=
    match l with [] => ret c | s :: r => c' <-- do_step c s ;; do_steps c' r end.
End Steps.

(** ** Structures *)
(** [_resolve_struct_alias], c_library.py:378-393, and [self._defs_["types"][typ][1]]. *)
Definition tag_entry (e : cenv) (s : str) : res str :=
  match dget (e_types e) s with
  | Some (TyE (CT _ (DStr n :: _) _)) => Ok n
  | Some (TyE (CT _ (_ :: _) _)) => Err TypeError
  | Some (TyE (CT _ [] _)) => Err IndexError
  | Some RawE => Err OtherError
  | None => Err KeyError
  end.
(** [_resolve_struct_alias], c_library.py:378-393. *)
Definition resolve_alias (e : cenv) (union : bool) (n : str) : res str :=
  if dmem (e_comps e union) n then Ok n
  else if negb (dmem (e_types e) n) then Err KeyError
  else
    do t0 <- mk_type (SName n) [] [];
    do t <- eval_type (e_conf e) (e_types e) t0;
    match t_spec t with
    | SName s => if starts_with $"struct " s || starts_with $"union " s then tag_entry e s else Err KeyError
    | SType _ => Err OtherError
    end.

(** The names of the members, ctypes.py:320-334: an anonymous one gets the first name anon_memberN
    which no earlier member has.  Second component: the names given. *)
Fixpoint name_members (before : list str) (l : list smember) : res (list str * list str) :=
  match l with
  | [] => Ok ([], [])
  | m :: r =>
      match sm_name m with
      | Some n => do x <- name_members (before ++ [n]) r; Ok (n :: fst x, snd x)
      | None =>
          do n <- fresh $"anon_member" (map (fun x => (x, tt)) before);
          do x <- name_members (before ++ [n]) r; Ok (n :: fst x, n :: snd x)
      end
  end.
(** Assigning [_fields_], ctypes.py:340-345: each name in [_anonymous_] must belong to a structure
    or union that has fields, or AttributeError is raised.
    Simplification: the other checks of ctypes (types that are not complete, bit fields of types that
    are no integers) are not modelled. *)
Definition has_fields (cs : list cls) (t : pyt) : bool :=
  match t with
  | PClass i => match nth_error cs i with Some k => match k_fields k with Some _ => true | None => false end | None => false end
  | _ => false
  end.
(** The field with a name, as ctypes looks for those of [_anonymous_] (ctypes.py:336, 340). *)
Definition field_of (fs : list field) (n : str) : option field :=
  find (fun f => eqb (fd_name f) n) (rev fs).
(** The check of ctypes on [_anonymous_], ctypes.py:336, 340. *)
Definition anon_ok (cs : list cls) (anon : list str) (fs : list field) : bool :=
  forallb (fun n => match field_of fs n with Some f => has_fields cs (fd_type f) | None => false end) anon.
(** Assignments to attributes of the class, ctypes.py:317-346. *)
Fixpoint set_class (cs : list cls) (i : nat) (k : cls) : list cls :=
  match cs, i with
  | [], _ => []
  | _ :: r, O => k :: r
  | x :: r, S i' => x :: set_class r i' k
  end.
Section Struct.
  Context (e : cenv) (member_type : rty -> M pyt).
  (** The comprehension of ctypes.py:340-345: a value (m[2]) is taken as bit width. *)
  Fixpoint make_fields (names : list str) (ms : list smember) : M (list field) :=
    match names, ms with
    | n :: ns, m :: r =>
        t <-- member_type (sm_type m) ;;
        fs <-- make_fields ns r ;;
        ret ({| fd_name := n; fd_type := t;
                fd_width := match sm_val m with ONone => None | v => Some v end |} :: fs)
    | _, _ => ret []
    end.
  (** [s._fields_ = ...], ctypes.py:340-345. *)
  Definition assign_fields (i : nat) (k : cls) (fs : list field) : M unit := fun st =>
    if anon_ok (st_classes st) (k_anon k) fs then
      (Ok tt, {| st_heap := st_heap st; st_structs := st_structs st;
                 st_classes := set_class (st_classes st) i
                   {| k_union := k_union k; k_pack := k_pack k; k_anon := k_anon k; k_fields := Some fs |} |})
    else (Err AttributeError, st).
  (** [_get_struct], ctypes.py:294-348. *)
  Definition get_struct_with (union : bool) (n : str) : M nat := fun st =>
    match dget (st_structs st) n with
    | Some i => (Ok i, st)
    | None =>
        match resolve_alias e union n with
        | Err x => (Err x, st)
        | Ok n' =>
            match dget (e_comps e union) n' with
            | None => (Err KeyError, st)
            | Some d =>
                let i := length (st_classes st) in
                match name_members [] (sd_members d) with
                | Err x => (Err x, st)
                | Ok (names, anon) =>
                    let k := {| k_union := union; k_pack := sd_pack d; k_anon := anon; k_fields := None |} in
                    let st1 := {| st_heap := st_heap st; st_structs := dset (st_structs st) n' i;
                                  st_classes := st_classes st ++ [k] |} in
                    (fs <-- make_fields names (sd_members d) ;;
                     _ <-- assign_fields i k fs ;;
                     fun st2 => match dget (st_structs st2) n' with
                                | Some j => (Ok j, st2) | None => (Err KeyError, st2) end) st1
                end
            end
        end
    end.
End Struct.

(** ** Types *)
(** [_ptr_types_], ctypes.py:140-145. *)
Definition ptr_types : dict str str :=
  [($"char", $"c_char_p"); ($"wchar", $"c_wchar_p"); ($"wchar_t", $"c_wchar_p"); ($"void", $"c_void_p")].
(** [len(typ) > 1 and typ[1] == "*"], ctypes.py:190-191. *)
Definition starts_ptr (ds : list rdecl) : bool :=
  match ds with DStr s :: _ => eqb s $"*" | _ => false end.
(** ctypes.py:185-213: the initial type and the modifiers that remain. *)
Definition base_type (e : cenv) (rec : rty -> M pyt) (pointers : bool) (s : str) (ds : list rdecl)
  : M (pyt * list rdecl) :=
  match (if pointers && starts_ptr ds then dget ptr_types s else None) with
  | Some p => ret (PBase p, tl ds)
  | None =>
      match dget (e_table e) s with
      | Some v => ret (of_tyval v, ds)
      | None =>
          if starts_with $"struct " s then
            n <-- lift (tag_entry e s) ;; i <-- get_struct_with e rec false n ;; ret (PClass i, ds)
          else if starts_with $"union " s then
            n <-- lift (tag_entry e s) ;; i <-- get_struct_with e rec true n ;; ret (PClass i, ds)
          else if starts_with $"enum " s then ret (PBase $"c_int", ds)
          else if eqb s $"void" then ret (PVoid, ds)
          else fail KeyError
      end
  end.
(** [_get_type], ctypes.py:173-292.  Python's recursion limit is not modelled; [fuel] bounds the
    nesting of requests. *)
Definition modified (e : cenv) (rec : rty -> M pyt) (c : pyt) (ds : list rdecl) : M pyt := fun st =>
  let (h, mods) := merge_all (st_heap st) ds in
  do_steps e rec c (steps mods)
    {| st_heap := h; st_structs := st_structs st; st_classes := st_classes st |}.
(** [_get_type], ctypes.py:173-292. *)
Fixpoint get_type (e : cenv) (fuel : nat) (pointers : bool) (t : rty) : M pyt :=
  match fuel with
  | O => fail OutOfFuel
  | S f =>
      t' <-- lift (eval_type (e_conf e) (e_types e) t) ;;
      match t' with
      | CT (SType _) _ _ => fail OtherError
      | CT (SName s) ds _ =>
          b <-- base_type e (get_type e f true) pointers s ds ;;
          if pointers then modified e (get_type e f true) (fst b) (snd b) else ret (fst b)
      end
  end.
(** [_get_struct], ctypes.py:294-348. *)
Definition get_struct (e : cenv) (fuel : nat) (union : bool) (n : str) : M nat :=
  get_struct_with e (get_type e fuel true) union n.

(** [_get_pointer], ctypes.py:350-362, for the resolved type: the type of the object pointed to. *)
Definition get_pointer (e : cenv) (fuel : nat) (resolved sig : rty) : M pyt :=
  let ds := t_decls resolved in
  let hashable d := match d with DStr _ => true | DArr _ => false | DFun [] => true | DFun _ => false end in
  let star (d : rdecl) := match d with DStr s => eqb s $"*" | _ => false end in
  if (1 <=? length ds) && (length ds <=? 2) then
    if forallb hashable ds then
      if forallb star ds then
        c <-- get_type e fuel false sig ;;
        let special := match c with
                       | PVoid => Some $"c_void_p"
                       | PBase n => if eqb n $"c_char" then Some $"c_char_p"
                                    else if eqb n $"c_wchar" then Some $"c_wchar_p" else None
                       | _ => None
                       end in
        match special with
        | Some p => ret (Nat.iter (length ds - 2) ptr (PBase p))
        | None => ret (Nat.iter (length ds - 1) ptr c)
        end
      else fail AssertionError
    else fail TypeError
  else fail AssertionError.

(** [_get_array], ctypes.py:371-386, [build_array], c_library.py:648-669: the type of the array
    made, for a ctypes type as element type; [size] is an integer or a tuple. *)
Inductive size : Type := SInt (d : pobj) | STuple (l : list pobj).
(** [for s in size[::-1]: new *= s], ctypes.py:380-381. *)
Fixpoint times_all (c : pyt) (l : list pobj) : res pyt :=
  match l with [] => Ok c | d :: r => do c' <- times c d; times_all c' r end.
(** ctypes.py:376-381. *)
Definition get_array (c : pyt) (s : size) : res pyt :=
  times_all c (rev match s with SInt d => [d] | STuple l => l end).
