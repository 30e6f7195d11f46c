(** Model of the parse actions of [CParser]: declarators, structures, enums, variables,
    functions and typedefs (c_parser.py:1384-1656), on the trees which the grammar of
    c_parser.py:1184-1382 hands to them.
    Simplifications: the grammar itself is not modelled here but in GramModel.v; a parse action
    is run once per declaration (pyparsing also runs it in alternatives it gives up later). *)
From Coq Require Import Ascii String Bool Arith ZArith List.
Import ListNotations.
From Verif Require Import PyBase PyStr PyExpr TypeModel StoreModel.

(** Python objects that evaluating an expression can give, c_parser.py:1641-1665: None,
    numbers, strings, lists, and other objects, told apart by a number. *)
Inductive pobj : Type :=
| ONone | ONum (v : pyval) | OStr (s : str) | OList (l : list pobj) | OOther (n : nat).

(** [i + 1], c_parser.py:1504.  Simplification: for other objects it raises TypeError. *)
Definition plus_one (v : pobj) : res pobj :=
  match v with
  | ONum (VInt z) => Ok (ONum (VInt (z + 1)))
  | ONum (VBool b) => Ok (ONum (VInt ((if b then 1 else 0) + 1)))
  | ONum (VQuot n d) => Ok (ONum (VQuot (n + d) d))
  | _ => Err TypeError
  end.

(** ** Declarators *)
(** The tree of a type specifier, c_parser.py:1203: qualifiers and recombined name.
    Simplification: a qualifier is a string (see TypeModel.v). *)
Record bspec := { b_qual : list str; b_name : str }.

(** The tree of a declarator, c_parser.py:1223-1285: [first_typequal], [call_conv], [ptrs] (the
    qualifiers after each star), the identifier (with [ref] if preceded by an ampersand), or
    nothing (abstract), or a parenthesised declarator ([center]); [args] (None: no
    parentheses; Some []: empty parentheses, for which the tree holds [None]), each with type,
    declarator and default text; [arrays] (the expressions in brackets, "-1" if empty).
    The parenthesised alternative of abstract declarators is not reachable since
    [Optional("&")], tried before it, always matches (c_parser.py:1226-1229). *)
Inductive dtree :=
| DNode (firstq : list str) (conv : option str) (ptrs : list (list str)) (core : dcore)
        (args : option (list darg)) (arrays : list str)
with dcore :=
| Named (ref : bool) (n : str)
| Abstract (ref : bool)
| Center (d : dtree)
with darg :=
| Arg (t : bspec) (d : dtree) (dflt : option str).

(** Array lists hold one Python object each (c_parser.py:1405). *)
Notation aty := (ctype (list pobj)).
Notation adecl := (decl (list pobj)).

Section Declarator.
  (** [self.eval_expr] on the text in brackets. *)
  Context (dim : str -> pobj).

  (** [process_type], c_parser.py:1467-1472, on the result of [process_declarator]. *)
  Definition finish (b : bspec) (r : option str * list adecl * list qual)
    : res (option str * aty) :=
    match r with
    | (n, ds, Some q :: qs) =>
        do t <- mk_type (SName (b_name b)) ds (Some (b_qual b ++ q) :: qs); Ok (n, t)
    | (_, _, None :: _) => Err TypeError
    | (_, _, []) => Err IndexError
    end.

  (** [quals[:-1], quals[-1] + q[0], q[1:]], c_parser.py:1431. *)
  Definition join_quals (quals q : list qual) : res (list qual) := merge_quals quals q.

  (** [process_declarator], c_parser.py:1384-1436. *)
  Fixpoint process_declarator (d : dtree) : res (option str * list adecl * list qual) :=
    match d with
    | DNode firstq conv ptrs core args arrays =>
        let toks1 := match conv with Some c => [DStr c] | None => [] end in        (* 1396-1398 *)
        let quals1 := Some firstq :: match conv with Some _ => [None] | None => [] end in
        let toks2 := toks1 ++ repeat (DStr $"*") (length ptrs) in                  (* 1400-1402 *)
        let quals2 := quals1 ++ map Some ptrs in
        let toks3 := toks2 ++ map (fun x => DArr [dim x]) arrays in                (* 1404-1406 *)
        let quals3 := quals2 ++ repeat (Some []) (length arrays) in
        do ta <- match args with                                                   (* 1408-1421 *)
                 | None => Ok ([], [])
                 | Some l =>
                     do l' <- (fix each (l : list darg) : res (list (option str * aty * option str)) :=
                                 match l with
                                 | [] => Ok []
                                 | Arg b a v :: l1 =>
                                     do r <- process_declarator a;
                                     do nt <- finish b r;
                                     do rest <- each l1;
                                     Ok ((fst nt, snd nt, v) :: rest)
                                 end) l;
                     Ok ([DFun l'], [Some []])
                 end;
        let toks4 := toks3 ++ fst ta in
        let quals4 := quals3 ++ snd ta in
        match core with
        | Named ref n =>                                                           (* 1422-1424, 1433 *)
            let r := if ref then [DStr $"&"] else [] in
            Ok (Some n, toks4 ++ r, quals4 ++ (if ref then [Some []] else []))
        | Abstract ref =>
            let r := if ref then [DStr $"&"] else [] in
            Ok (None, toks4 ++ r, quals4 ++ (if ref then [Some []] else []))
        | Center c =>                                                              (* 1426-1431 *)
            do r <- process_declarator c;
            match r with
            | (n, t, q) => do qs <- join_quals quals4 q; Ok (n, toks4 ++ t, qs)
            end
        end
    end.

  (** The loop over the arguments, c_parser.py:1413-1420. *)
  Definition process_args : list darg -> res (list (option str * aty * option str)) :=
    fix each (l : list darg) :=
      match l with
      | [] => Ok []
      | Arg b a v :: l1 =>
          do r <- process_declarator a;
          do nt <- finish b r;
          do rest <- each l1;
          Ok ((fst nt, snd nt, v) :: rest)
      end.

  (** [process_type], c_parser.py:1438-1472. *)
  Definition process_type (b : bspec) (d : dtree) : res (option str * aty) :=
    do r <- process_declarator d; finish b r.
End Declarator.

(** [type(typ[-1]) is tuple], c_parser.py:1518, 1608. *)
Definition ends_in_tuple (t : aty) : bool :=
  match rev (t_decls t) with DFun _ :: _ => true | _ => false end.

(** ** Definitions *)
(** A member of a structure: name, type, value, bit width if any, c_parser.py:1576-1587. *)
Record member := { m_name : option str; m_type : aty; m_val : pobj; m_bit : option Z }.
(** The values of the tables, c_parser.py:1506-1507, 1524, 1593-1594, 1612-1617, 1629, and the
    texts of macros and function-like macros (1049-1065; FileModel.v). *)
Inductive entry : Type :=
| EType (t : aty)
| EComp (members : list member) (pack : option Z)
| EEnum (l : dict str pobj)
| EFun (t : aty)
| EVar (v : pobj) (t : aty)
| EVal (v : pobj)
| EText (s : str)
| EFnmacro (t : str) (order : list nat).

(** An initialiser, c_parser.py:1303-1313. *)
Inductive init := NoInit | IVal (e : str) | IArr (l : list str).

Section Actions.
  (** [self.eval(text, None, values)], c_parser.py:1658-1665: a value or an exception. *)
  Context (ev : dict str pobj -> str -> res pobj).

  (** [self.defs["values"]] (c_parser.py:1643). *)
  Definition values (s : store entry) : dict str pobj :=
    flat_map (fun p => match snd p with EVal v => [(fst p, v)] | _ => [] end) (defs s Values).

  (** [eval_expr] on a text, c_parser.py:1642-1643, 1652-1656. *)
  Definition eval_text (s : store entry) (e : str) : pobj :=
    match ev (values s) e with Ok v => v | Err _ => ONone end.
  (** [eval_expr] on the tree of a declaration, c_parser.py:1644-1656. *)
  Definition eval_init (s : store entry) (i : init) : pobj :=
    match i with
    | IArr l => match mapM (ev (values s)) l with Ok vs => OList vs | Err _ => ONone end
    | IVal e => eval_text s e
    | NoInit => ONone
    end.

  (** The first of the names [prefix ++ "0"], [prefix ++ "1"], ... that is not a key,
      c_parser.py:1478-1484, 1548-1554.  [fuel] bounds the number of names tried. *)
  Fixpoint fresh_from {V} (fuel n : nat) (prefix : str) (d : dict str V) : res str :=
    match fuel with
    | O => Err OutOfFuel
    | S f => let name := prefix ++ dec n in
             if dmem d name then fresh_from f (S n) prefix d else Ok name
    end.
  (** The loops of c_parser.py:1480-1484 and 1550-1554; one more try than there are keys is enough. *)
  Definition fresh {V} (prefix : str) (d : dict str V) : res str :=
    fresh_from (S (length d)) 0 prefix d.

  (** The loop over the enumerators, c_parser.py:1494-1504: the tables, the enum so far and
      the exception that ended it, if any. *)
  Fixpoint enum_loop (s : store entry) (i : pobj) (enum : dict str pobj)
           (l : list (str * option str)) : store entry * dict str pobj * option exc :=
    match l with
    | [] => (s, enum, None)
    | (n, v) :: l' =>
        let i1 := match v with Some e => eval_text s e | None => i end in
        let enum1 := dset enum n i1 in
        let s1 := add_def s Values n (EVal i1) in
        match plus_one i1 with
        | Ok i2 => enum_loop s1 i2 enum1 l'
        | Err e => (s1, enum1, Some e)
        end
    end.
  (** [process_enum], c_parser.py:1474-1510: the tables and the text that replaces the
      specifier (None: an exception has been logged). *)
  Definition process_enum (s : store entry) (name : option str) (l : list (str * option str))
    : store entry * option str :=
    match match name with Some n => Ok n | None => fresh $"anon_enum" (defs s Enums) end with
    | Err _ => (s, None)
    | Ok n =>
        if dmem (defs s Enums) n then (s, Some ($"enum " ++ n))
        else
          match enum_loop s (ONum (VInt 0)) [] l with
          | (s1, _, Some _) => (s1, None)
          | (s1, enum, None) =>
              let s2 := add_def s1 Enums n (EEnum enum) in
              (add_def s2 Types ($"enum " ++ n)
                       (EType (CT (SName $"enum") [DStr n] [Some []; Some []])),
               Some ($"enum " ++ n))
          end
    end.

  (** A line of a structure, c_parser.py:1334-1346. *)
  Record mline := { l_type : bspec; l_decls : list dtree; l_init : init; l_bit : option str }.

  (** [int(text)] on the text of a bit width, c_parser.py:1579, 1586: decimal digits with an
      optional sign in front; anything else the grammar allows (hexadecimal numbers, blanks
      after the sign) raises ValueError. *)
  Definition py_int (t : str) : res Z :=
    let num d := match d with
                 | [] => Err ValueError
                 | _ => if forallb is_digit d then Ok (zval d) else Err ValueError
                 end in
    match t with
    | c :: r => if cheq c "-" then do z <- num r; Ok (- z)%Z
                else if cheq c "+" then num r else num t
    | [] => Err ValueError
    end.
  (** [if m[0].bit: member.append(int(m[0].bit))], c_parser.py:1578-1579, 1585-1586. *)
  Definition bit_of (b : option str) : res (option Z) :=
    match b with None => Ok None | Some t => do z <- py_int t; Ok (Some z) end.

  (** One line, c_parser.py:1569-1587.  A member without declarator gets the first token of
      the specifier as its type ([typ[0]]), be it a qualifier. *)
  Fixpoint members_of (dim : str -> pobj) (b : bspec) (v : pobj) (bit : option str)
           (l : list dtree) : res (list member) :=
    match l with
    | [] => Ok []
    | d :: l' =>
        do nt <- process_type dim b d;
        do z <- bit_of bit;
        do rest <- members_of dim b v bit l';
        Ok ({| m_name := fst nt; m_type := snd nt; m_val := v; m_bit := z |} :: rest)
    end.
  (** One turn of the loop over the members, c_parser.py:1569-1587. *)
  Definition line_members (s : store entry) (l : mline) : res (list member) :=
    let v := match l_init l with IVal e => eval_text s e | _ => ONone end in
    match l_decls l with
    | [] =>
        do z <- bit_of (l_bit l);
        do t <- mk_type (SName (hd (b_name (l_type l)) (b_qual (l_type l)))) [] [];
        Ok [{| m_name := None; m_type := t; m_val := ONone; m_bit := z |}]
    | ds => members_of (eval_text s) (l_type l) v (l_bit l) ds
    end.
  (** The loop over the members, c_parser.py:1568-1587. *)
  Fixpoint all_members (s : store entry) (l : list mline) : res (list member) :=
    match l with
    | [] => Ok []
    | x :: l' => do a <- line_members s x; do b <- all_members s l'; Ok (a ++ b)
    end.

  (** The two kinds of compounds, c_parser.py:1542, 1592. *)
  Inductive comp := CStruct | CUnion.
  (** [str_typ], c_parser.py:1542. *)
  Definition comp_kw (c : comp) : str := match c with CStruct => $"struct" | CUnion => $"union" end.
  (** [str_typ + "s"], c_parser.py:1552, 1564, 1593. *)
  Definition comp_kind (c : comp) : kind := match c with CStruct => Structs | CUnion => Unions end.

  (** [process_struct], c_parser.py:1539-1598.  [pack]: the packing at the line.  The last
      condition of line 1565 holds for an entry that is an empty dictionary. *)
  Definition process_struct (s : store entry) (c : comp) (name : option str) (l : list mline)
             (pack : option Z) : store entry * option str :=
    let k := comp_kind c in
    match match name with
          | Some n => Ok n
          | None => fresh ($"anon_" ++ comp_kw c) (defs s k)
          end with
    | Err _ => (s, None)
    | Ok n =>
        let new := match l with _ :: _ => true | [] => false end
                   || negb (dmem (defs s k) n)
                   || match dget (defs s k) n with Some (EEnum []) => true | _ => false end in
        if new then
          match all_members s l with
          | Err _ => (s, None)
          | Ok ms =>
              let s1 := add_def s k n (EComp ms pack) in
              (add_def s1 Types (comp_kw c ++ $" " ++ n)
                       (EType (CT (SName (comp_kw c)) [DStr n] [Some []; Some []])),
               Some (comp_kw c ++ $" " ++ n))
          end
        else (s, Some (comp_kw c ++ $" " ++ n))
    end.

  (** [process_variable], c_parser.py:1600-1620.  A declarator of a declaration always has a
      name; without one the model stops as if an exception was raised. *)
  Fixpoint declare (s : store entry) (b : bspec) (v : pobj) (l : list dtree) : store entry :=
    match l with
    | [] => s
    | d :: l' =>
        match process_type (eval_text s) b d with
        | Ok (Some n, t) =>
            let s1 := if ends_in_tuple t then add_def s Functions n (EFun (add_hack t))
                      else add_def (add_def s Variables n (EVar v t)) Values n (EVal v) in
            declare s1 b v l'
        | _ => s
        end
    end.
  (** [process_variable], c_parser.py:1600-1620: the value is evaluated once, for all declarators. *)
  Definition process_variable (s : store entry) (b : bspec) (l : list dtree) (i : init)
    : store entry := declare s b (eval_init s i) l.

  (** [process_function], c_parser.py:1512-1527. *)
  Definition process_function (s : store entry) (b : bspec) (d : dtree) : store entry :=
    match process_type (eval_text s) b d with
    | Ok (Some n, t) =>
        if ends_in_tuple t then add_def s Functions n (EFun (add_hack t)) else s
    | _ => s
    end.

  (** [process_typedef], c_parser.py:1622-1629: exceptions are not caught. *)
  Fixpoint process_typedef (s : store entry) (b : bspec) (l : list dtree)
    : store entry * option exc :=
    match l with
    | [] => (s, None)
    | d :: l' =>
        match process_type (eval_text s) b d with
        | Ok (Some n, t) => process_typedef (add_def s Types n (EType t)) b l'
        | Ok (None, _) => (s, Some OtherError)
        | Err e => (s, Some e)
        end
    end.

  (** The declarations of a file as the sequence of the parse actions they trigger
      (c_parser.py:1295, 1317, 1329, 1358, 1378); an exception in a typedef ends it. *)
  Inductive action :=
  | AEnum (name : option str) (l : list (str * option str))
  | AComp (c : comp) (name : option str) (l : list mline) (pack : option Z)
  | AVar (b : bspec) (l : list dtree) (i : init)
  | AFun (b : bspec) (d : dtree)
  | ATypedef (b : bspec) (l : list dtree).
  (** One parse action, c_parser.py:1474-1629. *)
  Definition act (s : store entry) (a : action) : store entry * option exc :=
    match a with
    | AEnum n l => (fst (process_enum s n l), None)
    | AComp c n l p => (fst (process_struct s c n l p), None)
    | AVar b l i => (process_variable s b l i, None)
    | AFun b d => (process_function s b d, None)
    | ATypedef b l => process_typedef s b l
    end.
  (** The parse actions of a file one after the other, c_parser.py:1182. *)
  Fixpoint acts (s : store entry) (l : list action) : store entry * option exc :=
    match l with
    | [] => (s, None)
    | a :: l' => match act s a with
                 | (s1, None) => acts s1 l'
                 | (s1, Some e) => (s1, Some e)
                 end
    end.
End Actions.
