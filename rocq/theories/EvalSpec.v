(** Values of C constant expressions (C41, C68), independently of the model's algorithms. *)
From Coq Require Import Ascii String Bool Arith ZArith List.
Import ListNotations.
From Verif Require Import PyBase PyStr PyExpr MacroModel MacroSpec PpModel PpSpec ExprSpec DeclModel EvalModel.

(** A number as an expression. *)
Definition zlit (z : Z) : cx :=
  if (z <? 0)%Z then CPar (CNeg (CNum (zdec (- z)))) else CNum (zdec z).
(** The expression with the values of its names in their places. *)
Fixpoint put (val : str -> Z) (e : cx) : cx :=
  match e with
  | CNum d => CNum d | CId w => zlit (val w) | CDefined w => CDefined w
  | CNot a => CNot (put val a) | CNeg a => CNeg (put val a) | CPos a => CPos (put val a)
  | CInv a => CInv (put val a) | CBin o a b => CBin o (put val a) (put val b)
  | CRel o a b => CRel o (put val a) (put val b) | CAnd a b => CAnd (put val a) (put val b)
  | COr a b => COr (put val a) (put val b) | CPar a => CPar (put val a)
  end.

(** No logical operator, no [defined]. *)
Definition value_tok (k : ctok) : bool :=
  match k with TNot | TAnd | TOr | TDefined _ => false | _ => true end.
(** No name alone in parentheses. *)
Fixpoint no_lone (e : cx) : bool :=
  match e with
  | CNum _ | CId _ | CDefined _ => true
  | CPar (CId _) => false
  | CNot a | CNeg a | CPos a | CInv a | CPar a => no_lone a
  | CBin _ a b | CRel _ a b | CAnd a b | COr a b => no_lone a && no_lone b
  end.
(** No digit with a U or an L somewhere behind it. *)
Definition no_suffix (w : str) : Prop :=
  forall a d b, w = a ++ d :: b -> is_digit d = true -> ~ In "U"%char b /\ ~ In "L"%char b.
(** Names that are read as names: no type names, no qualifiers, no words of Python. *)
Definition value_name (fund mods : list str) (w : str) : Prop :=
  no_suffix w /\ ~ In w fund /\ ~ In w py_keywords
  /\ ~ In w (map (fun s : string => $s) ["struct"; "union"; "enum"; "const"; "volatile"; "restrict"; "near"; "far"]%string)
  /\ ~ In w mods /\ starts_with $"__" w = false.

(** The C meaning of an expression (ISO C 6.6, 64 bits): [e], written [text], has the value [z]
    when the names have the values [known]. *)
Definition val_of (known : dict str Z) (w : str) : Z :=
  match dget known w with Some z => z | None => 0%Z end.
Definition means (known : dict str Z) (e : cx) (text : str) (z : Z) : Prop :=
  spells (toks e) text /\ grammatical e
  /\ (forall w, In w (ids e) -> exists x, dget known w = Some x)
  /\ cvalue (put (val_of known) e) = Some z.
Definition c_value (known : dict str Z) (text : str) (z : Z) : Prop := exists e, means known e text z.

(** Expressions of which Python computes the C value: no division, no remainder of
    negative numbers, no inequality (the conditions of [plain]), no logical operators, no name
    alone in parentheses, no odd name. *)
Definition py_like (fund mods : list str) (known : dict str Z) (e : cx) : Prop :=
  forallb value_tok (toks e) = true /\ no_lone e = true
  /\ (forall w, In w (ids e) -> value_name fund mods w) /\ plain (put (val_of known) e).
Definition c_const (fund mods : list str) (known : dict str Z) (text : str) (z : Z) : Prop :=
  exists e, means known e text z /\ py_like fund mods known e.

(** The Python values [env] of the names are the C values [known]. *)
Definition agrees (env : dict str pobj) (known : dict str Z) : Prop :=
  forall w z, dget known w = Some z -> exists v, dget env w = Some (ONum v) /\ as_int v = Some z.

(** The C values of the enumerators [l] (ISO C 6.7.2.2), [i] that of a first one without
    expression, given what the value of an expression is. *)
Inductive c_enum (cv : dict str Z -> str -> Z -> Prop)
  : dict str Z -> Z -> list (str * option str) -> list (str * Z) -> Prop :=
| ce_end known i : c_enum cv known i [] []
| ce_next known i n l zs :
    c_enum cv (dset known n i) (i + 1) l zs -> c_enum cv known i ((n, None) :: l) ((n, i) :: zs)
| ce_given known i n e z l zs :
    cv known e z -> c_enum cv (dset known n z) (z + 1) l zs ->
    c_enum cv known i ((n, Some e) :: l) ((n, z) :: zs).

(** Integer literals of C (ISO C 6.4.4.1) and their values. *)
Definition is_octal (c : ascii) : bool := between 48 55 c.
Definition octval (d : str) : Z := fold_left (fun v c => (8 * v + Z.of_nat (digit_val c))%Z) d 0%Z.
Definition int_suffixes : list str :=
  let us := [$"u"; $"U"] in
  let ls := [$"l"; $"L"; $"ll"; $"LL"] in
  [] :: us ++ ls ++ flat_map (fun u => map (fun l => u ++ l) ls) us ++ flat_map (fun l => map (fun u => l ++ u) us) ls.
Inductive c_literal : str -> Z -> Prop :=
| lit_dec d u : number d -> In u int_suffixes -> c_literal (d ++ u) (zval d)
| lit_oct d u : d <> [] -> forallb is_octal d = true -> In u int_suffixes -> c_literal ("0"%char :: d ++ u) (octval d)
| lit_hex x h u : In x ["x"; "X"]%char -> h <> [] -> forallb is_hex h = true -> In u int_suffixes ->
    c_literal ("0"%char :: x :: h ++ u) (hexval h).
