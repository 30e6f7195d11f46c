(** What C90 says: reading what [repr] prints, as Python reads expressions. *)
From Coq Require Import Ascii String Bool Arith ZArith List Permutation.
Import ListNotations.
From Verif Require Import PyBase PyStr PyExpr MacroSpec TypeModel DeclModel ReprModel.

(** ** Reading Python *)
(** Expressions: constants, lists, tuples and calls of a name with positional and keyword arguments. *)
Inductive px : Type :=
| XNone | XBool (b : bool) | XInt (z : Z) | XStr (s : str)
| XList (l : list px) | XTuple (l : list px)
| XCall (f : str) (args : list px) (kw : list (str * px)).
Definition keywords : list str :=
  [$"False"; $"None"; $"True"; $"and"; $"as"; $"assert"; $"async"; $"await"; $"break"; $"class"; $"continue"; $"def"; $"del";
   $"elif"; $"else"; $"except"; $"finally"; $"for"; $"from"; $"global"; $"if"; $"import"; $"in"; $"is"; $"lambda"; $"nonlocal";
   $"not"; $"or"; $"pass"; $"raise"; $"return"; $"try"; $"while"; $"with"; $"yield"].
Definition is_blank (c : ascii) : bool := cheq c sp.
Definition skip (s : str) : str := drop_while is_blank s.
Definition hex_val (c : ascii) : option nat :=
  if is_digit c then Some (code c - 48)
  else if between 97 102 c then Some (code c - 87) else if between 65 70 c then Some (code c - 55) else None.
(** The text behind an opening quote [q] up to the closing one.  Escapes: backslash, quotes, t, n, r and x with
    two digits; None: anything else, or a line break. *)
Fixpoint read_body (q : ascii) (s : str) : option (str * str) :=
  match s with
  | [] => None
  | c :: r =>
      if cheq c q then Some ([], r)
      else if cheq c nl || cheq c cr then None
      else if cheq c bslash then
        match r with
        | [] => None
        | e :: r1 =>
            if cheq e "x" then
              match r1 with
              | a :: b :: r2 =>
                  match hex_val a, hex_val b, read_body q r2 with
                  | Some x, Some y, Some (t, r3) => Some (ascii_of_nat (16 * x + y) :: t, r3)
                  | _, _, _ => None
                  end
              | _ => None
              end
            else
              match (if cheq e bslash || cheq e squote || cheq e dquote then Some e
                     else if cheq e "t" then Some tab else if cheq e "n" then Some nl else if cheq e "r" then Some cr else None),
                    read_body q r1 with
              | Some x, Some (t, r3) => Some (x :: t, r3)
              | _, _ => None
              end
        end
      else match read_body q r with Some (t, r3) => Some (c :: t, r3) | None => None end
  end.
Definition read_digits (s : str) : option (Z * str) :=
  let (d, r) := span is_digit s in if good_digits d then Some (zval d, r) else None.
(** The name in front of a single equal sign, and what is behind that. *)
Definition keyword_argument (s : str) : option (str * str) :=
  match s with
  | c :: _ =>
      if is_idstart c then
        let (w, r) := span is_idchar s in
        match skip r with
        | e :: r1 => if cheq e "=" && negb (starts_with $"=" r1) then Some (w, r1) else None
        | [] => None
        end
      else None
  | [] => None
  end.
(** An expression at the beginning of a text and the rest of the text; None: a syntax error, or something
    outside of this subset of Python.  [read_items]: also, whether a comma follows the last item. *)
Fixpoint read (fuel : nat) (s : str) : option (px * str) :=
  match fuel with
  | O => None
  | S f =>
      match skip s with
      | [] => None
      | c :: r =>
          if cheq c squote || cheq c dquote then
            match read_body c r with Some (b, r1) => Some (XStr b, r1) | None => None end
          else if is_digit c then match read_digits (c :: r) with Some (z, r1) => Some (XInt z, r1) | None => None end
          else if cheq c "-" then match read_digits (skip r) with Some (z, r1) => Some (XInt (- z), r1) | None => None end
          else if cheq c "[" then match read_items f "]" r with Some (l, _, r1) => Some (XList l, r1) | None => None end
          else if cheq c "(" then
            match read_items f ")" r with
            | Some ([x], false, r1) => Some (x, r1)
            | Some (l, _, r1) => Some (XTuple l, r1)
            | None => None
            end
          else if is_idstart c then
            let (w, r1) := span is_idchar (c :: r) in
            if eqb w $"None" then Some (XNone, r1) else if eqb w $"True" then Some (XBool true, r1)
            else if eqb w $"False" then Some (XBool false, r1) else if mem w keywords then None
            else match skip r1 with
                 | d :: r2 =>
                     if cheq d "(" then
                       match read_args f r2 with Some (a, k, r3) => Some (XCall w a k, r3) | None => None end
                     else None
                 | [] => None
                 end
          else None
      end
  end
with read_items (fuel : nat) (close : ascii) (s : str) : option (list px * bool * str) :=
  match fuel with
  | O => None
  | S f =>
      match skip s with
      | [] => None
      | c :: r =>
          if cheq c close then Some ([], false, r)
          else
            match read f (c :: r) with
            | Some (x, r1) =>
                match skip r1 with
                | d :: r2 =>
                    if cheq d close then Some ([x], false, r2)
                    else if cheq d "," then
                      match read_items f close r2 with
                      | Some ([], _, r3) => Some ([x], true, r3)
                      | Some (l, b, r3) => Some (x :: l, b, r3)
                      | None => None
                      end
                    else None
                | [] => None
                end
            | None => None
            end
      end
  end
with read_args (fuel : nat) (s : str) : option (list px * list (str * px) * str) :=
  match fuel with
  | O => None
  | S f =>
      match skip s with
      | [] => None
      | c :: r =>
          if cheq c ")" then Some ([], [], r)
          else
            match (match keyword_argument (c :: r) with
                   | Some (w, r0) => if mem w keywords then None else match read f r0 with Some (x, r1) => Some (Some w, x, r1) | None => None end
                   | None => match read f (c :: r) with Some (x, r1) => Some (None, x, r1) | None => None end
                   end) with
            | Some (w, x, r1) =>
                match (match skip r1 with
                       | d :: r2 => if cheq d ")" then Some ([], [], r2) else if cheq d "," then read_args f r2 else None
                       | [] => None
                       end) with
                | Some (a, k, r3) =>
                    match w with
                    | None => Some (x :: a, k, r3)
                    | Some w => match a with
                                | [] => if mem w (map fst k) then None else Some ([], (w, x) :: k, r3)
                                | _ => None                       (* a positional argument behind it *)
                                end
                    end
                | None => None
                end
            | None => None
            end
      end
  end.

(** ** Evaluating it, with the classes of the module *)
Definition construct (f : str) (args : list py) (kw : list (str * py)) : res py :=
  if eqb f $"Type" then new_type args kw
  else if eqb f $"Struct" then new_comp false args kw
  else if eqb f $"Union" then new_comp true args kw
  else if eqb f $"Enum" then new_enum args kw
  else Err NameError.
Fixpoint evaluate (x : px) : res py :=
  match x with
  | XNone => Ok PNone
  | XBool b => Ok (PBool b)
  | XInt z => Ok (PInt z)
  | XStr s => Ok (PStr s)
  | XList l => do vs <- (fix each l := match l with [] => Ok [] | x :: r => do v <- evaluate x; do vs <- each r; Ok (v :: vs) end) l; Ok (PList vs)
  | XTuple l => do vs <- (fix each l := match l with [] => Ok [] | x :: r => do v <- evaluate x; do vs <- each r; Ok (v :: vs) end) l; Ok (PTuple vs)
  | XCall f args kw =>
      do vs <- (fix each l := match l with [] => Ok [] | x :: r => do v <- evaluate x; do vs <- each r; Ok (v :: vs) end) args;
      do ks <- (fix each (l : list (str * px)) := match l with [] => Ok [] | (n, x) :: r => do v <- evaluate x; do vs <- each r; Ok ((n, v) :: vs) end) kw;
      construct f vs ks
  end.
(** [eval(text)]; None: a syntax error, or outside of the subset. *)
Definition python_eval (text : str) : option (res py) :=
  match read (2 * length text + 2) text with
  | Some (x, r) => if forallb is_blank r then Some (evaluate x) else None
  | None => None
  end.

(** ** Equality *)
(** Objects are alike if they differ at most in the order of the keys of Enums. *)
Inductive alike : py -> py -> Prop :=
| al_same o : alike o o
| al_list l l' : Forall2 alike l l' -> alike (PList l) (PList l')
| al_tuple l l' : Forall2 alike l l' -> alike (PTuple l) (PTuple l')
| al_type l l' q q' : Forall2 alike l l' -> alike q q' -> alike (PType l q) (PType l' q')
| al_comp u l l' p p' : Forall2 alike l l' -> alike p p' -> alike (PComp u l p) (PComp u l' p')
| al_enum d d1 d' : Permutation d d1 -> Forall2 (fun x y => fst x = fst y /\ alike (snd x) (snd y)) d1 d' -> alike (PEnum d) (PEnum d').

(** ** Objects that the constructors give *)
(** Types have qualifiers for each of their items; all of these are empty, or one of them is not false.
    Structures have members, or no packing.  The names of enumerators are not keywords of Python. *)
Inductive printable : py -> Prop :=
| pr_none : printable PNone
| pr_bool b : printable (PBool b)
| pr_int z : printable (PInt z)
| pr_str s : printable (PStr s)
| pr_list l : Forall printable l -> printable (PList l)
| pr_tuple l : Forall printable l -> printable (PTuple l)
| pr_type l qs : l <> [] -> Forall printable l -> Forall printable qs -> length qs = length l ->
    existsb truth qs = true \/ Forall (fun q => q = PTuple []) qs -> printable (PType l (PTuple qs))
| pr_comp u l p : Forall printable l -> printable p -> l <> [] \/ p = PNone -> printable (PComp u l p)
| pr_enum d : NoDup (map fst d) -> Forall (fun x => ident (fst x) /\ ~ In (fst x) keywords /\ fst x <> $"self" /\ printable (snd x)) d ->
    printable (PEnum d).
(** Types that the parser records: one tuple of qualifiers for each level, none of them that of a calling
    convention; lengths of arrays are integers, or None. *)
Inductive plain_type : aty -> Prop :=
| pl_type sp ds qs : plain_spec sp -> Forall plain_decl ds -> length qs = S (length ds) -> Forall (fun q => q <> None) qs -> plain_type (CT sp ds qs)
with plain_spec : tspec (list pobj) -> Prop :=
| pl_name s : plain_spec (SName s)
| pl_inner t : plain_type t -> plain_spec (SType t)
with plain_decl : adecl -> Prop :=
| pl_str s : plain_decl (DStr s)
| pl_arr a : Forall plain_value a -> plain_decl (DArr a)
| pl_fun args : Forall (fun x => plain_type (snd (fst x))) args -> plain_decl (DFun args)
with plain_value : pobj -> Prop :=
| pv_none : plain_value ONone
| pv_int z : plain_value (ONum (VInt z))
| pv_bool b : plain_value (ONum (VBool b))
| pv_str s : plain_value (OStr s)
| pv_list l : Forall plain_value l -> plain_value (OList l).
(** No calling convention. *)
Definition no_conv (d : dtree) : bool := match d with DNode _ (Some _) _ _ _ _ => false | _ => true end.
