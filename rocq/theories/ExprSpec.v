(** Conditions of #if lines as C reads them (C29, C31): expressions, their spelling, their C
    value, and the expressions on which Python agrees. *)
From Coq Require Import Ascii String Bool Arith ZArith List.
Import ListNotations.
From Verif Require Import PyBase PyStr PyExpr MacroModel MacroSpec PpModel PpSpec.

(** Expressions; [CPar] is a pair of parentheses.  Operators are those of PyExpr.v, [OFloor]
    excepted, which is no C operator. *)
Inductive cx :=
| CNum (d : str) | CId (w : str) | CDefined (w : str)
| CNot (a : cx) | CNeg (a : cx) | CPos (a : cx) | CInv (a : cx)
| CBin (o : bop) (a b : cx) | CRel (o : cop) (a b : cx)
| CAnd (a b : cx) | COr (a b : cx) | CPar (a : cx).

(** ** Spelling *)
Inductive ctok :=
| TNum (d : str) | TId (w : str) | TDefined (w : str)
| TNot | TAnd | TOr | TInv | TOpen | TClose | TBin (o : bop) | TRel (o : cop).
Fixpoint toks (e : cx) : list ctok :=
  match e with
  | CNum d => [TNum d] | CId w => [TId w] | CDefined w => [TDefined w]
  | CNot a => TNot :: toks a
  | CNeg a => TBin OSub :: toks a
  | CPos a => TBin OAdd :: toks a
  | CInv a => TInv :: toks a
  | CBin o a b => toks a ++ TBin o :: toks b
  | CRel o a b => toks a ++ TRel o :: toks b
  | CAnd a b => toks a ++ TAnd :: toks b
  | COr a b => toks a ++ TOr :: toks b
  | CPar a => TOpen :: toks a ++ [TClose]
  end.

Definition gap (s : str) : Prop := forall c, In c s -> c = sp \/ c = PyStr.tab.
Definition bop_text (o : bop) : str :=
  match o with
  | OOr => $"|" | OXor => $"^" | OAnd => $"&" | OShl => $"<<" | OShr => $">>" | OAdd => $"+"
  | OSub => $"-" | OMul => $"*" | ODiv => $"/" | OFloor => $"//" | OMod => $"%"
  end.
Definition cop_text (o : cop) : str :=
  match o with
  | CLt => $"<" | CGt => $">" | CLe => $"<=" | CGe => $">=" | CEq => $"==" | CNe => $"!="
  end.
Definition number (d : str) : Prop := forallb is_digit d = true /\ good_digits d = true.
Inductive tok_text : ctok -> str -> Prop :=
| tt_num d : number d -> tok_text (TNum d) d
| tt_id w : ident w -> w <> $"defined" -> tok_text (TId w) w
| tt_defined g w : ident w -> gap g -> g <> [] -> tok_text (TDefined w) ($"defined" ++ g ++ w)
| tt_defined_paren g g' g'' w :
    ident w -> blanks g -> blanks g' -> blanks g'' ->
    tok_text (TDefined w) ($"defined" ++ g ++ "("%char :: g' ++ w ++ g'' ++ [")"%char])
| tt_not : tok_text TNot $"!"
| tt_and : tok_text TAnd $"&&"
| tt_or : tok_text TOr $"||"
| tt_inv : tok_text TInv $"~"
| tt_open : tok_text TOpen $"("
| tt_close : tok_text TClose $")"
| tt_bin o : o <> OFloor -> tok_text (TBin o) (bop_text o)
| tt_rel o : tok_text (TRel o) (cop_text o).
(** The character after a token does not extend it. *)
Definition apart (k : ctok) (c : ascii) : Prop :=
  match k with
  | TNum _ | TId _ | TDefined _ => is_word c = false /\ ~ In c ["."; "$"]%char
  | TNot => c <> "="%char
  | TBin o => ~ In c ["="; "<"; ">"; "&"; "|"; "*"; "/"]%char /\ bop_text o <> [c]
  | TRel _ => ~ In c ["="; "<"; ">"]%char
  | _ => True
  end.
Inductive spells : list ctok -> str -> Prop :=
| spells_end g : gap g -> spells [] g
| spells_tok g k s ts r :
    gap g -> tok_text k s -> (forall c r', r = c :: r' -> apart k c) -> spells ts r ->
    spells (k :: ts) (g ++ s ++ r).

(** ** C's grammar: binding strength, weakest first *)
Definition bop_level (o : bop) : nat :=
  match o with
  | OOr => 2 | OXor => 3 | OAnd => 4 | OShl | OShr => 7 | OAdd | OSub => 8
  | OMul | ODiv | OFloor | OMod => 9
  end.
Definition cop_level (o : cop) : nat := match o with CEq | CNe => 5 | _ => 6 end.
Definition level (e : cx) : nat :=
  match e with
  | COr _ _ => 0 | CAnd _ _ => 1 | CBin o _ _ => bop_level o | CRel o _ _ => cop_level o
  | CNot _ | CNeg _ | CPos _ | CInv _ => 10
  | CNum _ | CId _ | CDefined _ | CPar _ => 11
  end.
(** The expression is what C reads from its tokens.  Chains of || and of && are grouped to the
    right, which has the same value as C's grouping to the left. *)
Fixpoint grammatical (e : cx) : Prop :=
  match e with
  | CNum _ | CId _ | CDefined _ => True
  | CNot a | CNeg a | CPos a | CInv a => 10 <= level a /\ grammatical a
  | CBin o a b => bop_level o <= level a /\ bop_level o < level b /\ grammatical a /\ grammatical b
  | CRel o a b => cop_level o <= level a /\ cop_level o < level b /\ grammatical a /\ grammatical b
  | CAnd a b => 1 < level a /\ 1 <= level b /\ grammatical a /\ grammatical b
  | COr a b => 0 < level a /\ grammatical a /\ grammatical b
  | CPar a => grammatical a
  end.

(** ** C values: 64 bit signed arithmetic; None if undefined.  Remaining identifiers are 0. *)
Definition fit (z : Z) : option Z :=
  if ((- 2 ^ 63 <=? z) && (z <? 2 ^ 63))%Z then Some z else None.
Definition c_bin (o : bop) (x y : Z) : option Z :=
  match o with
  | OOr => Some (Z.lor x y) | OXor => Some (Z.lxor x y) | OAnd => Some (Z.land x y)
  | OShl => if ((0 <=? x) && (0 <=? y) && (y <? 64))%Z then fit (x * 2 ^ y) else None
  | OShr => if ((0 <=? x) && (0 <=? y) && (y <? 64))%Z then Some (x / 2 ^ y)%Z else None
  | OAdd => fit (x + y) | OSub => fit (x - y) | OMul => fit (x * y)
  | ODiv => if (y =? 0)%Z then None else fit (Z.quot x y)
  | OMod => if (y =? 0)%Z then None else fit (Z.rem x y)
  | OFloor => None
  end.
Definition c_rel (o : cop) (x y : Z) : bool :=
  match o with
  | CLt => (x <? y)%Z | CGt => (y <? x)%Z | CLe => (x <=? y)%Z | CGe => (y <=? x)%Z
  | CEq => (x =? y)%Z | CNe => negb (x =? y)%Z
  end.
Definition c_bool (b : bool) : Z := if b then 1%Z else 0%Z.
Fixpoint cvalue (e : cx) : option Z :=
  let un f a := match cvalue a with Some x => f x | None => None end in
  match e with
  | CNum d => fit (zval d)
  | CId _ | CDefined _ => Some 0%Z
  | CNot a => un (fun x => Some (c_bool (x =? 0)%Z)) a
  | CNeg a => un (fun x => fit (- x)) a
  | CPos a => un Some a
  | CInv a => un (fun x => Some (Z.lnot x)) a
  | CBin o a b => un (fun x => un (fun y => c_bin o x y) b) a
  | CRel o a b => un (fun x => un (fun y => Some (c_bool (c_rel o x y))) b) a
  | CAnd a b =>
      un (fun x => if (x =? 0)%Z then Some 0%Z
                   else un (fun y => Some (c_bool (negb (y =? 0)%Z))) b) a
  | COr a b =>
      un (fun x => if (x =? 0)%Z then un (fun y => Some (c_bool (negb (y =? 0)%Z))) b
                   else Some 1%Z) a
  | CPar a => cvalue a
  end.

(** ** Macros in conditions: [defined] becomes 1 or 0, the name of an object-like macro the
    expression [m] gives for its text. *)
Fixpoint resolve (t : mtab) (m : str -> cx) (e : cx) : cx :=
  match e with
  | CNum d => CNum d
  | CId w => match dget (macros t) w with Some _ => m w | None => CId w end
  | CDefined w =>
      match dget (macros t) w, dget (fnmacros t) w with
      | None, None => CNum $"0"
      | _, _ => CNum $"1"
      end
  | CNot a => CNot (resolve t m a)
  | CNeg a => CNeg (resolve t m a)
  | CPos a => CPos (resolve t m a)
  | CInv a => CInv (resolve t m a)
  | CBin o a b => CBin o (resolve t m a) (resolve t m b)
  | CRel o a b => CRel o (resolve t m a) (resolve t m b)
  | CAnd a b => CAnd (resolve t m a) (resolve t m b)
  | COr a b => COr (resolve t m a) (resolve t m b)
  | CPar a => CPar (resolve t m a)
  end.
(** The identifiers of an expression, outside of [defined]. *)
Definition ids (e : cx) : list str :=
  concat (map (fun k => match k with TId w => [w] | _ => [] end) (toks e)).
(** A number, or anything in parentheses, without [defined]. *)
Definition closed (e : cx) : Prop :=
  match e with CNum _ | CPar _ => grammatical e /\ forall w, ~ In (TDefined w) (toks e) | _ => False end.
(** The names of [e] are no function-like macros, and the text of each object-like macro spells
    the expression [m] gives, with nothing before or after, and mentions no macro. *)
Definition readable (t : mtab) (m : str -> cx) (e : cx) : Prop :=
  forall w, In w (ids e) ->
    dget (fnmacros t) w = None
    /\ forall v, dget (macros t) w = Some v ->
         closed (m w) /\ spells (toks (m w)) v /\ strip v = v
         /\ forall w', In w' (ids (m w)) -> dget (macros t) w' = None /\ dget (fnmacros t) w' = None.
(** Macro names are identifiers. *)
Definition names_ident (t : mtab) : Prop :=
  forall w, dmem (macros t) w = true \/ dmem (fnmacros t) w = true -> ident w.

(** ** Where Python agrees *)
(** The value is C's, not only its being zero. *)
Fixpoint exact (e : cx) : Prop :=
  match e with CAnd _ _ | COr _ _ => False | CPar a => exact a | _ => True end.
(** An operand of an arithmetic operator or of a comparison. *)
Definition operand (e : cx) : Prop :=
  match e with CNot _ | CRel _ _ _ => False | CPar a => exact a | _ => True end.
(** No negative value appears. *)
Fixpoint unsigned (e : cx) : Prop :=
  match e with
  | CNeg _ | CInv _ => False
  | CBin o a b => o <> OSub /\ unsigned a /\ unsigned b
  | CPos a | CPar a => unsigned a
  | CNum _ | CId _ | CDefined _ => True
  | CNot _ | CRel _ _ _ | CAnd _ _ | COr _ _ => True
  end.
(** No division, no inequality, no % of negative numbers; ! and comparisons are not operands
    unless in parentheses; && and || are not operands even then. *)
Fixpoint plain (e : cx) : Prop :=
  match e with
  | CNum _ | CId _ | CDefined _ => True
  | CNot a | CPar a => plain a
  | CNeg a | CPos a | CInv a => operand a /\ plain a
  | CBin o a b =>
      o <> ODiv /\ (o = OMod -> unsigned a /\ unsigned b)
      /\ operand a /\ operand b /\ plain a /\ plain b
  | CRel o a b => o <> CNe /\ operand a /\ operand b /\ plain a /\ plain b
  | CAnd a b | COr a b => plain a /\ plain b
  end.

(** The test of [x] on the line [l]; [b] says whether it asks for a definition. *)
Inductive tests (x : str) : bool -> str -> Prop :=
| ts_ifdef g g' l : gap g -> g <> [] -> gap g' -> written $"ifdef" (g ++ x ++ g') l -> tests x true l
| ts_ifndef g g' l : gap g -> g <> [] -> gap g' -> written $"ifndef" (g ++ x ++ g') l -> tests x false l
| ts_if rest l : spells [TDefined x] rest -> written $"if" rest l -> tests x true l
| ts_ifnot rest l : spells [TNot; TDefined x] rest -> written $"if" rest l -> tests x false l.
