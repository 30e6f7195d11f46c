(** Model of the classes in which the parser stores types, structures, unions and enums as Python
    objects: their constructors and [repr], pyclibrary/c_parser.py:115-125, 248-335. *)
From Coq Require Import Ascii String Bool Arith ZArith List.
Import ListNotations.
From Verif Require Import PyBase PyStr PyExpr TypeModel DeclModel.

(** Python objects.  [PType]: the items of the tuple and [type_quals] (c_parser.py:115-125); [PComp]: a
    Struct or Union with its members and packing (265-270); [PEnum]: an Enum (326-327), the keys in the order
    of insertion; [POpaque]: any other object, with what [repr] gives for it. *)
Inductive py : Type :=
| PNone | PBool (b : bool) | PInt (z : Z) | PStr (s : str)
| PList (l : list py) | PTuple (l : list py)
| PType (items : list py) (quals : py)
| PComp (u : bool) (members : list py) (pack : py)
| PEnum (d : list (str * py))
| POpaque (text : str).

(** ** Built-in objects *)
(** [repr] of a string of code points below 256 (c_parser.py:253, 277, 333). *)
Definition hex_digit (n : nat) : ascii := ascii_of_nat (if n <? 10 then 48 + n else 87 + n).
(** A character inside of the quotes [q] (Python; c_parser.py:253). *)
Definition repr_char (q c : ascii) : str :=
  if cheq c q || cheq c bslash then [bslash; c]
  else if cheq c tab then $"\t" else if cheq c nl then $"\n" else if cheq c cr then $"\r"
  else if (code c <? 32) || between 127 160 c || (code c =? 173)
  then $"\x" ++ [hex_digit (code c / 16); hex_digit (code c mod 16)]
  else [c].
(** The quotes Python chooses (Python; c_parser.py:253). *)
Definition quote_for (s : str) : ascii :=
  if existsb (fun c => cheq c squote) s && negb (existsb (fun c => cheq c dquote) s) then dquote else squote.
(** [repr] of a string (Python; c_parser.py:253). *)
Definition repr_str (s : str) : str := let q := quote_for s in [q] ++ flat_map (repr_char q) s ++ [q].
(** [repr] of an integer.  Simplification: no limit on the number of digits (Python; c_parser.py:253, 273). *)
Fixpoint zdec_aux (fuel : nat) (n : Z) (acc : str) : str :=
  match fuel with
  | O => acc
  | S f =>
      let d := ascii_of_nat (48 + Z.to_nat (n mod 10)) in
      if (n <? 10)%Z then d :: acc else zdec_aux f (n / 10) (d :: acc)
  end.
(** The digits of a natural number (Python; c_parser.py:253, 273). *)
Definition zdec (n : Z) : str := zdec_aux (S (Z.to_nat (Z.log2 n))) n [].
(** [repr] of an integer (Python; c_parser.py:253, 273). *)
Definition repr_int (z : Z) : str := if (z <? 0)%Z then $"-" ++ zdec (- z) else zdec z.
(** [repr] of a tuple, given that of its items (Python; c_parser.py:253, 277). *)
Definition repr_tuple (l : list str) : str :=
  match l with [x] => $"(" ++ x ++ $",)" | _ => $"(" ++ join $", " l ++ $")" end.
(** [bool(o)], as [any] (c_parser.py:250) and [or] (122) use it.  Simplification: other objects are true. *)
Definition truth (o : py) : bool :=
  match o with
  | PNone => false | PBool b => b | PInt z => negb (z =? 0)%Z | PStr s => negb (eqb s [])
  | PList l | PTuple l => match l with [] => false | _ => true end
  | PType _ _ | PComp _ _ _ | POpaque _ => true
  | PEnum d => match d with [] => false | _ => true end
  end.
(** Iterating over an object.  Simplification: other objects are taken as empty; they
    cannot be the qualifiers of a type, since [len] fails on them or they are dicts (c_parser.py:250). *)
Definition elements (o : py) : list py :=
  match o with PList l | PTuple l => l | PStr s => map (fun c => PStr [c]) s | _ => [] end.
(** [len(o)], c_parser.py:123. *)
Definition py_len (o : py) : res nat :=
  match o with
  | PList l | PTuple l => Ok (length l) | PStr s => Ok (length s)
  | PType l _ => Ok (length l) | PComp _ _ _ => Ok 2 | PEnum d => Ok (length d)
  | PNone | PBool _ | PInt _ | POpaque _ => Err TypeError
  end.

(** ** Sorting *)
(** [<=] on strings, and [sorted(self.items())], c_parser.py:333.  Keys are distinct, so values are never
    compared. *)
Fixpoint str_leb (a b : str) : bool :=
  match a, b with
  | [], _ => true
  | _ :: _, [] => false
  | c :: a', d :: b' => (code c <? code d) || ((code c =? code d) && str_leb a' b')
  end.
(** Insertion by key, for [sorted], c_parser.py:333. *)
Fixpoint insert_item {V} (x : str * V) (l : list (str * V)) : list (str * V) :=
  match l with
  | [] => [x]
  | y :: r => if str_leb (fst x) (fst y) then x :: l else y :: insert_item x r
  end.
(** [sorted(self.items())], c_parser.py:333. *)
Definition sort_items {V} (l : list (str * V)) : list (str * V) := fold_right insert_item [] l.

(** ** The classes *)
(** The value of a keyword argument, taken out of the others: [argv.pop(name, None)] (c_parser.py:122, 267). *)
Definition pop_kw (name : str) (kw : list (str * py)) : py * list (str * py) :=
  (match dget kw name with Some v => v | None => PNone end, ddel kw name).
(** [len(argv) == 0], c_parser.py:125, 268. *)
Definition empty {A} (l : list A) : bool := match l with [] => true | _ => false end.
(** Calling [Type] with positional and keyword arguments, c_parser.py:115-125. *)
Definition new_type (args : list py) (kw : list (str * py)) : res py :=
  match args with
  | [] => Err TypeError                                                             (* 117 *)
  | _ =>
      let (q, kw') := pop_kw $"type_quals" kw in
      let quals := if truth q then q else PTuple (repeat (PTuple []) (length args)) in   (* 122 *)
      do n <- py_len quals;
      if negb (n =? length args) then Err ValueError                                (* 123-124 *)
      else if negb (empty kw') then Err AssertionError                              (* 125 *)
      else Ok (PType args quals)
  end.
(** Calling [Struct] or [Union], c_parser.py:265-270. *)
Definition new_comp (u : bool) (args : list py) (kw : list (str * py)) : res py :=
  let (p, kw') := pop_kw $"pack" kw in
  if negb (empty kw') then Err AssertionError else Ok (PComp u args p).
(** Calling [Enum], c_parser.py:326-327: positional arguments, and one named [self], are
    TypeErrors. *)
Definition new_enum (args : list py) (kw : list (str * py)) : res py :=
  match args with
  | _ :: _ => Err TypeError
  | [] => if mem $"self" (map fst kw) then Err TypeError else Ok (PEnum kw)
  end.

(** [repr], c_parser.py:248-254 (Type), 272-280 (Struct, Union), 329-335 (Enum). *)
Fixpoint repr (o : py) : str :=
  match o with
  | PNone => $"None"
  | PBool true => $"True"
  | PBool false => $"False"
  | PInt z => repr_int z
  | PStr s => repr_str s
  | PList l => $"[" ++ join $", " (map repr l) ++ $"]"
  | PTuple l => repr_tuple (map repr l)
  | PType items quals =>
      let type_qual_str := if existsb truth (elements quals) then $", type_quals=" ++ repr quals else [] in
      $"Type(" ++ join $", " (map repr items) ++ type_qual_str ++ $")"
  | PComp u members pack =>
      let pack_param := match pack with PNone => [] | _ => $", pack=" ++ repr pack end in
      (if u then $"Union" else $"Struct") ++ $"(" ++ join $", " (map repr members) ++ pack_param ++ $")"
  | PEnum d =>
      $"Enum(" ++ join $", " (map (fun x => fst x ++ $"=" ++ snd x) (sort_items (map (fun x => (fst x, repr (snd x))) d))) ++ $")"
  | POpaque text => text
  end.

(** ** The objects of the parser *)
Section Objects.
  (** [repr] of floats and of objects outside of the model. *)
  Context (show : pobj -> str).
  (** None or an object, c_parser.py:1412, 1577. *)
  Definition opt_py (o : option str) : py := match o with Some s => PStr s | None => PNone end.
  (** Values as [eval_expr] gives them, c_parser.py:1641-1656. *)
  Fixpoint of_obj (v : pobj) : py :=
    match v with
    | ONone => PNone
    | ONum (VInt z) => PInt z
    | ONum (VBool b) => PBool b
    | OStr s => PStr s
    | OList l => PList (map of_obj l)
    | _ => POpaque (show v)
    end.
  (** An entry of [type_quals], c_parser.py:1392, 1398, 1402. *)
  Definition of_qual (q : qual) : py := match q with None => PNone | Some ws => PTuple (map PStr ws) end.
  (** A type of the parser (TypeModel.v), c_parser.py:1405, 1413-1421, 1467-1472. *)
  Fixpoint of_type (t : aty) : py :=
    match t with
    | CT sp ds qs => PType (of_spec sp :: map of_decl ds) (PTuple (map of_qual qs))
    end
  with of_spec (sp : tspec (list pobj)) : py :=
    match sp with SName s => PStr s | SType t => of_type t end
  with of_decl (d : adecl) : py :=
    match d with
    | DStr s => PStr s
    | DArr a => PList (map of_obj a)
    | DFun args => PTuple (map (fun x => match x with (n, t, v) => PTuple [opt_py n; of_type t; opt_py v] end) args)
    end.
  (** The tuple of a member, c_parser.py:1576-1587. *)
  Definition of_member (m : member) : py :=
    PTuple ([opt_py (m_name m); of_type (m_type m); of_obj (m_val m)] ++ match m_bit m with Some z => [PInt z] | None => [] end).
  (** A structure or union, c_parser.py:1592-1593. *)
  Definition of_comp (u : bool) (ms : list member) (pack : option Z) : py :=
    PComp u (map of_member ms) (match pack with Some z => PInt z | None => PNone end).
End Objects.
