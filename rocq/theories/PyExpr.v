(** Python's [eval] on integer expressions, as used by c_parser.py:1037 (conditions) and
    c_parser.py:1665 (values).  Covered: decimal integers, parentheses, the operators
    not, and, or, comparisons (chained), bitwise, shift and arithmetic operators except
    power.  A text with anything else is reported as outside of the subset (None).
    Simplifications: no limit on the number of digits, on nesting or on memory. *)
From Coq Require Import Ascii String Bool Arith ZArith List.
Import ListNotations.
From Verif Require Import PyBase PyStr.

(** Tokens of the subset.  [KAssign] is a single equal sign (c_parser.py:1037, 1665). *)
Inductive bop := OOr | OXor | OAnd | OShl | OShr | OAdd | OSub | OMul | ODiv | OFloor | OMod.
(** Comparisons (Python; c_parser.py:1037, 1665). *)
Inductive cop := CLt | CGt | CLe | CGe | CEq | CNe.
(** Tokens (Python; c_parser.py:1037, 1665). *)
Inductive ptok :=
| KNum (digits : str) | KNot | KAnd | KOr | KOpen | KClose
| KBin (o : bop) | KCmp (o : cop) | KTilde | KAssign.

(** Operators of Python's tokenizer, longest match first; None: an operator outside of the
    subset (c_parser.py:1037, 1665). *)
Definition operators : list (str * option ptok) :=
  [($"**=", None); ($"//=", None); ($"<<=", None); ($">>=", None);
   ($"**", None); ($"+=", None); ($"-=", None); ($"*=", None); ($"/=", None); ($"%=", None);
   ($"&=", None); ($"|=", None); ($"^=", None); ($"->", None); ($"<>", None);
   ($"//", Some (KBin OFloor)); ($"<<", Some (KBin OShl)); ($">>", Some (KBin OShr));
   ($"<=", Some (KCmp CLe)); ($">=", Some (KCmp CGe)); ($"==", Some (KCmp CEq)); ($"!=", Some (KCmp CNe));
   ($"+", Some (KBin OAdd)); ($"-", Some (KBin OSub)); ($"*", Some (KBin OMul)); ($"/", Some (KBin ODiv));
   ($"%", Some (KBin OMod)); ($"&", Some (KBin OAnd)); ($"|", Some (KBin OOr)); ($"^", Some (KBin OXor));
   ($"<", Some (KCmp CLt)); ($">", Some (KCmp CGt)); ($"~", Some KTilde);
   ($"(", Some KOpen); ($")", Some KClose); ($"=", Some KAssign)].
(** The operator at the beginning of the text (Python; c_parser.py:1037, 1665). *)
Fixpoint operator (ops : list (str * option ptok)) (s : str) : option (ptok * str) :=
  match ops with
  | [] => None
  | (o, t) :: ops' =>
      match strip_prefix o s with
      | Some r => match t with Some t => Some (t, r) | None => None end
      | None => operator ops' s
      end
  end.

(** A decimal literal: zeros only, or not beginning with a zero (c_parser.py:1037, 1665). *)
Definition good_digits (d : str) : bool :=
  match d with
  | [] => false
  | c :: r => negb (cheq c "0") || forallb (fun x => cheq x "0") r
  end.
(** The value of decimal digits (Python; c_parser.py:1037, 1665). *)
Definition zval (d : str) : Z :=
  fold_left (fun v c => (10 * v + Z.of_nat (digit_val c))%Z) d 0%Z.

(** The tokens of a text; None: outside of the subset (c_parser.py:1037, 1665). *)
Fixpoint py_lex (fuel : nat) (s : str) : option (list ptok) :=
  match fuel with
  | O => None
  | S f =>
      match s with
      | [] => Some []
      | c :: r =>
          if cheq c sp || cheq c tab then py_lex f r
          else if is_digit c then
            let (d, r') := span is_digit s in
            match r' with
            | x :: _ => if is_word x || cheq x "." then None
                        else if good_digits d then option_map (cons (KNum d)) (py_lex f r') else None
            | [] => if good_digits d then option_map (cons (KNum d)) (py_lex f r') else None
            end
          else if is_word c then
            let (w, r') := span is_word s in
            if eqb w $"not" then option_map (cons KNot) (py_lex f r')
            else if eqb w $"and" then option_map (cons KAnd) (py_lex f r')
            else if eqb w $"or" then option_map (cons KOr) (py_lex f r')
            else None
          else
            match operator operators s with
            | Some (t, r') => option_map (cons t) (py_lex f r')
            | None => None
            end
      end
  end.

(** ** Syntax *)
(** c_parser.py:1037, 1665. *)
Inductive pexp :=
| EInt (z : Z)
| ENeg (e : pexp) | EPos (e : pexp) | EInv (e : pexp)
| EBin (o : bop) (a b : pexp)
| ECmp (a : pexp) (l : list (cop * pexp))
| ENot (e : pexp) | EAnd (a b : pexp) | EOr (a b : pexp).

(** Binding strength of the binary operators, weakest first (c_parser.py:1037, 1665). *)
Definition prec (o : bop) : nat :=
  match o with
  | OOr => 0 | OXor => 1 | OAnd => 2 | OShl | OShr => 3 | OAdd | OSub => 4
  | OMul | ODiv | OFloor | OMod => 5
  end.

(** What is being parsed: the levels of Python's grammar, and the loops of the left
    associative ones with the operand read so far (c_parser.py:1037, 1665). *)
Inductive lvl :=
| LOr | LAnd | LNot | LCmp | LBin (k : nat) | LFactor
| LLoop (k : nat) (acc : pexp) | LCmps (a : pexp) (l : list (cop * pexp)).

(** Recursive descent.  Chains of [or] and [and] associate to the right, which has the same
    value.  None: not an expression of the subset (c_parser.py:1037, 1665). *)
Fixpoint parse (fuel : nat) (l : lvl) (ts : list ptok) : option (pexp * list ptok) :=
  match fuel with
  | O => None
  | S f =>
      match l with
      | LOr =>
          match parse f LAnd ts with
          | Some (a, KOr :: r) =>
              match parse f LOr r with Some (b, r') => Some (EOr a b, r') | None => None end
          | x => x
          end
      | LAnd =>
          match parse f LNot ts with
          | Some (a, KAnd :: r) =>
              match parse f LAnd r with Some (b, r') => Some (EAnd a b, r') | None => None end
          | x => x
          end
      | LNot =>
          match ts with
          | KNot :: r =>
              match parse f LNot r with Some (a, r') => Some (ENot a, r') | None => None end
          | _ => parse f LCmp ts
          end
      | LCmp =>
          match parse f (LBin 0) ts with Some (a, r) => parse f (LCmps a []) r | None => None end
      | LCmps a l =>
          match ts with
          | KCmp o :: r =>
              match parse f (LBin 0) r with
              | Some (b, r') => parse f (LCmps a (l ++ [(o, b)])) r'
              | None => None
              end
          | _ => Some (match l with [] => a | _ => ECmp a l end, ts)
          end
      | LBin k =>
          match (if k =? 5 then parse f LFactor ts else parse f (LBin (S k)) ts) with
          | Some (a, r) => parse f (LLoop k a) r
          | None => None
          end
      | LLoop k a =>
          match ts with
          | KBin o :: r =>
              if prec o =? k then
                match (if k =? 5 then parse f LFactor r else parse f (LBin (S k)) r) with
                | Some (b, r') => parse f (LLoop k (EBin o a b)) r'
                | None => None
                end
              else Some (a, ts)
          | _ => Some (a, ts)
          end
      | LFactor =>
          match ts with
          | KNum d :: r => Some (EInt (zval d), r)
          | KOpen :: r =>
              match parse f LOr r with
              | Some (a, KClose :: r') => Some (a, r')
              | _ => None
              end
          | KBin OSub :: r =>
              match parse f LFactor r with Some (a, r') => Some (ENeg a, r') | None => None end
          | KBin OAdd :: r =>
              match parse f LFactor r with Some (a, r') => Some (EPos a, r') | None => None end
          | KTilde :: r =>
              match parse f LFactor r with Some (a, r') => Some (EInv a, r') | None => None end
          | _ => None
          end
      end
  end.

(** ** Values *)
(** A quotient is the exact rational, never used as an operand (simplification: rounding to
    a float is not modelled) (c_parser.py:1037, 1665). *)
Inductive pyval := VInt (z : Z) | VBool (b : bool) | VQuot (n d : Z).
(** [bool(v)], c_parser.py:1037. *)
Definition truth (v : pyval) : bool :=
  match v with VInt z => negb (z =? 0)%Z | VBool b => b | VQuot n _ => negb (n =? 0)%Z end.
(** A value as an integer (Python; c_parser.py:1037, 1665). *)
Definition as_int (v : pyval) : option Z :=
  match v with VInt z => Some z | VBool b => Some (if b then 1 else 0)%Z | VQuot _ _ => None end.

(** Results: None outside of the subset (c_parser.py:1037, 1665). *)
Definition obind {A B} (x : option (res A)) (f : A -> option (res B)) : option (res B) :=
  match x with Some (Ok a) => f a | Some (Err e) => Some (Err e) | None => None end.
(** A value (Python; c_parser.py:1037, 1665). *)
Definition ret {A} (a : A) : option (res A) := Some (Ok a).

(** The operators on integers (Python; c_parser.py:1037, 1665). *)
Definition bin (o : bop) (x y : Z) : res pyval :=
  match o with
  | OOr => Ok (VInt (Z.lor x y)) | OXor => Ok (VInt (Z.lxor x y)) | OAnd => Ok (VInt (Z.land x y))
  | OShl => if (y <? 0)%Z then Err ValueError else Ok (VInt (Z.shiftl x y))
  | OShr => if (y <? 0)%Z then Err ValueError else Ok (VInt (Z.shiftr x y))
  | OAdd => Ok (VInt (x + y)) | OSub => Ok (VInt (x - y)) | OMul => Ok (VInt (x * y))
  | ODiv => if (y =? 0)%Z then Err ZeroDivisionError else Ok (VQuot x y)
  | OFloor => if (y =? 0)%Z then Err ZeroDivisionError else Ok (VInt (x / y))
  | OMod => if (y =? 0)%Z then Err ZeroDivisionError else Ok (VInt (x mod y))
  end.
(** The comparisons of integers (Python; c_parser.py:1037, 1665). *)
Definition cmp (o : cop) (x y : Z) : bool :=
  match o with
  | CLt => (x <? y)%Z | CGt => (y <? x)%Z | CLe => (x <=? y)%Z | CGe => (y <=? x)%Z
  | CEq => (x =? y)%Z | CNe => negb (x =? y)%Z
  end.

(** The value of an operand (Python; c_parser.py:1037, 1665). *)
Definition with_int (v : pyval) (f : Z -> option (res pyval)) : option (res pyval) :=
  match as_int v with Some z => f z | None => None end.

(** Evaluation from left to right; [and], [or] and comparison chains stop early (c_parser.py:1037, 1665). *)
Fixpoint py_value (e : pexp) : option (res pyval) :=
  match e with
  | EInt z => ret (VInt z)
  | ENeg a => obind (py_value a) (fun v => with_int v (fun z => ret (VInt (- z))))
  | EPos a => obind (py_value a) (fun v => with_int v (fun z => ret (VInt z)))
  | EInv a => obind (py_value a) (fun v => with_int v (fun z => ret (VInt (Z.lnot z))))
  | EBin o a b =>
      obind (py_value a) (fun v => obind (py_value b) (fun w =>
        with_int v (fun x => with_int w (fun y => Some (bin o x y)))))
  | ECmp a l =>
      obind (py_value a) (fun v =>
        (fix chain (v : pyval) (l : list (cop * pexp)) {struct l} : option (res pyval) :=
           match l with
           | [] => ret (VBool true)
           | (o, b) :: l' =>
               obind (py_value b) (fun w =>
                 with_int v (fun x => with_int w (fun y =>
                   if cmp o x y then chain w l' else ret (VBool false))))
           end) v l)
  | ENot a => obind (py_value a) (fun v => ret (VBool (negb (truth v))))
  | EAnd a b => obind (py_value a) (fun v => if truth v then py_value b else ret v)
  | EOr a b => obind (py_value a) (fun v => if truth v then ret v else py_value b)
  end.

(** Texts of known tokens that are certainly no expressions: the empty one, and a [not]
    followed by an equal sign (c_parser.py:1037, 1665). *)
Fixpoint not_assign (ts : list ptok) : bool :=
  match ts with
  | KNot :: (KAssign :: _) => true
  | _ :: r => not_assign r
  | [] => false
  end.

(** [eval(text)]: None outside of the subset (c_parser.py:1037, 1665). *)
Definition py_eval (text : str) : option (res pyval) :=
  match py_lex (S (length text)) text with
  | None => None
  | Some ts =>
      match ts with
      | [] => Some (Err SyntaxError)
      | _ =>
          if not_assign ts then Some (Err SyntaxError)
          else
            match parse (16 * S (length ts)) LOr ts with
            | Some (e, []) => py_value e
            | _ => None
            end
      end
  end.
