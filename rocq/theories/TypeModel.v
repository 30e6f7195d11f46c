(** Model of class [Type] of pyclibrary/c_parser.py (lines 62-257). *)
From Coq Require Import Ascii String Bool Arith ZArith List.
Import ListNotations.
From Verif Require Import PyBase PyStr.

(** One entry of [Type.type_quals]: a tuple of qualifier words, or [None] for a
    calling convention (c_parser.py:97-101, 1398).
    Simplification: a qualifier token is a string; the nested token list recorded for
    [__name(...)] modifiers is treated as one opaque string. *)
Notation qual := (option (list str)).

(** c_parser.py:62-118.  A [Type] is a tuple [type_spec, declarators...] with
    [type_quals].  The base is a string, or a [Type] once the compatibility hack has been
    applied (217-236).  A declarator is a string ("*", "&", a calling convention, or
    the name of a structure in [Type("struct", name)]), a list (array) or a tuple of
    (name, type, default) arguments (function).
    [A] is the representation of an array list: its content where values suffice, a
    reference where object identity matters (ctypes backend). *)
Inductive ctype (A : Type) : Type :=
| CT (spec : tspec A) (decls : list (decl A)) (quals : list qual)
with tspec (A : Type) : Type :=
| SName (s : str)
| SType (t : ctype A)
with decl (A : Type) : Type :=
| DStr (s : str)
| DArr (a : A)
| DFun (args : list (option str * ctype A * option str)).

Arguments CT {A}. Arguments SName {A}. Arguments SType {A}.
Arguments DStr {A}. Arguments DArr {A}. Arguments DFun {A}.

Definition t_spec {A} (t : ctype A) := match t with CT s _ _ => s end.      (* 141-144 *)
Definition t_decls {A} (t : ctype A) := match t with CT _ d _ => d end.     (* 136-139 *)
Definition t_quals {A} (t : ctype A) := match t with CT _ _ q => q end.     (* 122 *)

(** [Type.__init__], c_parser.py:120-125: an empty or missing qualifier list is
    replaced by one empty tuple per level, a list of wrong length raises ValueError. *)
Definition mk_type {A} (s : tspec A) (ds : list (decl A)) (qs : list qual)
  : res (ctype A) :=
  let qs' : list qual := match qs with [] => repeat (Some []) (1 + length ds) | _ => qs end in
  if length qs' =? 1 + length ds then Ok (CT s ds qs') else Err ValueError.

(** What the word lists of c_parser.py:1809-1842 and [_init_cparser] (1855) depend on. *)
Record tconf := { extra_types : list str; py312 : bool; win32 : bool }.

(** c_parser.py:1824-1842 *)
Definition num_types (cf : tconf) : list str :=
  [$"int"; $"float"; $"double"; $"int8_t"; $"uint8_t"; $"int16_t"; $"uint16_t";
   $"int32_t"; $"uint32_t"; $"int64_t"; $"uint64_t"; $"size_t"; $"ssize_t"]
  ++ (if py312 cf then [$"time_t"] else [])
  ++ (if win32 cf then [$"__int64"] else []).
(** c_parser.py:1836 *)
Definition nonnum_types : list str :=
  [$"char"; $"wchar"; $"wchar_t"; $"bool"; $"void"].
(** c_parser.py:1809-1810 *)
Definition size_modifiers : list str := [$"short"; $"long"].
(** c_parser.py:1810. *)
Definition sign_modifiers : list str := [$"signed"; $"unsigned"].
(** c_parser.py:159-161 *)
Definition type_words (cf : tconf) : list str :=
  num_types cf ++ nonnum_types ++ size_modifiers ++ sign_modifiers ++ extra_types cf.

(** [Type.is_fund_type], c_parser.py:146-165, on the base string. *)
Definition is_fund (cf : tconf) (s : str) : bool :=
  if starts_with $"struct " s || starts_with $"union " s || starts_with $"enum " s
  then true
  else forallb (fun w => mem w (type_words cf)) (split_ws s).

(** Does the text begin with a non word character, or end? (c_parser.py:187). *)
Definition nonword_head (s : str) : bool :=
  match s with [] => true | c :: _ => negb (is_word c) end.

(** [re.sub(r"\bsigned\b", "", s)], c_parser.py:187: left to right scan; [skip] counts the
    characters of a match still to be dropped, [prevw] tells whether the previous
    character is a word character. *)
Fixpoint rm_signed (skip : nat) (prevw : bool) (s : str) : str :=
  match s with
  | [] => []
  | c :: r =>
      match skip with
      | S k => rm_signed k (is_word c) r
      | O =>
          if negb prevw && starts_with $"signed" s && nonword_head (skipn 6 s)
          then rm_signed 5 (is_word c) r
          else c :: rm_signed 0 (is_word c) r
      end
  end.
(** [re.sub(r"\bsigned\b", "", self.type_spec).strip()], c_parser.py:187 *)
Definition canon (s : str) : str := strip (rm_signed 0 false s).

(** A value of the type table: a [Type], or any other object given by the user through
    the [types=] keyword (c_parser.py:430-432, 530-532); the latter has no attribute
    [type_spec]. *)
Inductive tentry (A : Type) : Type := TyE (t : ctype A) | RawE.
Arguments TyE {A}. Arguments RawE {A}.

(** c_parser.py:206-212: [pt.type_quals[:-1], pt.type_quals[-1] + self.type_quals[0],
    self.type_quals[1:]].  [None + tuple] raises TypeError. *)
Definition merge_quals (pq sq : list qual) : res (list qual) :=
  match rev pq, sq with
  | [], _ => Err IndexError
  | _ :: _, [] => Err IndexError
  | Some a :: ri, Some b :: r => Ok (rev ri ++ [Some (a ++ b)] ++ r)
  | _ :: _, _ :: _ => Err TypeError
  end.

Section Eval.
  Context {A : Type} (cf : tconf) (m : dict str (tentry A)).

  (** [Type.eval], c_parser.py:167-215.  Python's recursion limit is not modelled. *)
  Fixpoint eval_fuel (fuel : nat) (used : list str) (t : ctype A) : res (ctype A) :=
    match t with
    | CT (SType _) _ _ => Err AttributeError   (* a Type has no method startswith *)
    | CT (SName s) ds qs =>
        if is_fund cf s then mk_type (SName (canon s)) ds qs
        else if mem s used then Err DefinitionError
        else match dget m s with
             | None => Err DefinitionError
             | Some RawE => Err AttributeError
             | Some (TyE (CT ps pds pqs)) =>
                 match fuel with
                 | O => Err OutOfFuel
                 | S f =>
                     do qs' <- merge_quals pqs qs;
                     do t' <- mk_type ps (pds ++ ds) qs';
                     eval_fuel f (used ++ [s]) t'
                 end
             end
    end.

  (** [CParser.eval_type], c_parser.py:1705-1714 *)
  Definition eval_type (t : ctype A) : res (ctype A) := eval_fuel (length m) [] t.
End Eval.

(** [Type.add_compatibility_hack], c_parser.py:217-236: [self[-1]] is the last
    declarator, or the base when there is none. *)
Definition add_hack {A} (t : ctype A) : ctype A :=
  match t with
  | CT s ds qs =>
      match rev ds with
      | DFun args :: rds =>
          CT (SType (CT s (rev rds) (removelast qs))) [DFun args]
             [Some []; last qs None]
      | _ => t
      end
  end.

(** [Type.remove_compatibility_hack], c_parser.py:238-246; the qualifiers are not
    handed to the constructor and so become empty. *)
Definition remove_hack {A} (t : ctype A) : ctype A :=
  match t with
  | CT (SType (CT s ds _)) [d] _ =>
      CT s (ds ++ [d]) (repeat (Some []) (1 + length (ds ++ [d])))
  | _ => t
  end.

(** Python objects as far as [==] on types and tuples looks at them (c_parser.py:127-131). *)
Inductive pyo : Type :=
| PStr (s : str)
| PNone
| PInt (z : Z)
| PList (l : list pyo)
| PTuple (l : list pyo)
| PType (l : list pyo) (quals : list qual).

(** [==], c_parser.py:127-131 and tuple/list equality.  [Type.__eq__] is tried first also
    when the plain tuple is the left operand, as [Type] is a subclass of tuple.
    Simplification: [type_quals] is a tuple of tuples on both sides. *)
Fixpoint py_eq (a b : pyo) {struct a} : bool :=
  let fix all (l m : list pyo) {struct l} : bool :=
      match l, m with
      | [], [] => true
      | x :: l', y :: m' => py_eq x y && all l' m'
      | _, _ => false
      end in
  match a, b with
  | PStr s, PStr t => eqb s t
  | PNone, PNone => true
  | PInt x, PInt y => Z.eqb x y
  | PList l, PList m => all l m
  | PTuple l, PTuple m => all l m
  | PTuple l, PType m _ => all l m
  | PType l _, PTuple m => all l m
  | PType l p, PType m q => if eqb p q then all l m else false
  | _, _ => false
  end.

(** [!=] with a [Type] as left operand, c_parser.py:133-134: [not self.__eq__(other)].
    When [other] is no tuple, [tuple.__eq__] returns [NotImplemented], which is true,
    so that the result is False. *)
Definition type_ne (l : list pyo) (quals : list qual) (other : pyo) : bool :=
  match other with
  | PTuple _ | PType _ _ => negb (py_eq (PType l quals) other)
  | _ => false
  end.
