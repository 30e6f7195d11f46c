(** Model of [CParser.eval] (c_parser.py:1658-1665): the text of a value is stripped, the
    suffixes of numbers and the casts are removed by a pyparsing scan, the rest is evaluated by
    Python with the known values as local variables. *)
From Coq Require Import Ascii String Bool Arith NArith ZArith List.
Import ListNotations.
From Verif Require Import PyBase PyStr PyExpr DeclModel.

(** ** Numbers, c_parser.py:1795-1801 *)
Definition is_sign (c : ascii) : bool := cheq c "+" || cheq c "-".
(** [[eE]], c_parser.py:1800. *)
Definition is_exp (c : ascii) : bool := cheq c "e" || cheq c "E".
(** [hexnums], c_parser.py:1795. *)
Definition is_hex (c : ascii) : bool := is_digit c || between 65 70 c || between 97 102 c.
(** [[UL]], c_parser.py:1794-1796. *)
Definition is_suffix (c : ascii) : bool := cheq c "U" || cheq c "L".

(** A non-empty run of digits (c_parser.py:1800). *)
Definition digits1 (s : str) : option (str * str) :=
  match span is_digit s with ([], _) => None | p => Some p end.
(** The exponent [[eE][+-]?\d+] (c_parser.py:1800). *)
Definition exponent (s : str) : option (str * str) :=
  match s with
  | e :: r =>
      if is_exp e then
        match r with
        | g :: r' => if is_sign g
                     then match digits1 r' with Some (d, x) => Some (e :: g :: d, x) | None => None end
                     else match digits1 r with Some (d, x) => Some (e :: d, x) | None => None end
        | [] => None
        end
      else None
  | [] => None
  end.
(** A digit with an optional point and digits behind it, or a point and digits; and whether
    there was a point (c_parser.py:1800). *)
Definition mantissa (s : str) : option (str * bool * str) :=
  match s with
  | c :: r =>
      if is_digit c then
        match r with
        | p :: r' => if cheq p "." then let (d, x) := span is_digit r' in Some (c :: p :: d, true, x)
                     else Some ([c], false, r)
        | [] => Some ([c], false, r)
        end
      else if cheq c "." then
        match digits1 r with Some (d, x) => Some (c :: d, true, x) | None => None end
      else None
  | [] => None
  end.
(** [floating] after its sign, c_parser.py:1800: a mantissa with an exponent, or one with a
    point. *)
Definition floating (s : str) : option (str * str) :=
  match mantissa s with
  | Some (m, p, r) =>
      match exponent r with
      | Some (e, x) => Some (m ++ e, x)
      | None => if p then Some (m, r) else None
      end
  | None => None
  end.
(** [hexint] after its sign, without suffix, c_parser.py:1795. *)
Definition hexint (s : str) : option (str * str) :=
  match s with
  | z :: x :: r =>
      if cheq z "0" && (cheq x "x" || cheq x "X") then
        match span is_hex r with
        | ([], _) => None
        | (h, r') => Some (z :: x :: h, snd (span is_suffix r'))
        end
      else None
  | _ => None
  end.
(** [decint] after its sign, without suffix, c_parser.py:1796. *)
Definition decint (s : str) : option (str * str) :=
  match digits1 s with Some (d, r) => Some (d, snd (span is_suffix r)) | None => None end.
(** [number] at the beginning of the text, c_parser.py:1801: the text that replaces it
    ([int_strip] removes the suffix, c_parser.py:1794) and the rest. *)
Definition number_at (s : str) : option (str * str) :=
  let (g, s1) := match s with c :: r => if is_sign c then ([c], r) else ([], s) | [] => ([], s) end in
  let (b, s2) := span is_space s1 in
  match match floating s2 with
        | Some p => Some p
        | None => match hexint s2 with Some p => Some p | None => decint s2 end
        end with
  | Some (n, r) => Some (g ++ b ++ n, r)
  | None => None
  end.

(** ** Casts, c_parser.py:1661 *)
(** Result of trying the cast: [NoCast], the text after the cast, or not modelled (c_parser.py:1661). *)
Inductive scan := NoCast | Cast (r : str) | Unknown.

(** The white space skipped by pyparsing (c_parser.py:1661). *)
Definition skip_blank (s : str) : str :=
  drop_while (fun c => cheq c sp || cheq c tab || cheq c nl || cheq c cr) s.

Section Eval.
  (** The words of [fund_type] (c_parser.py:1906-1908) and the extra modifiers. *)
  Context (fund mods : list str).

  (** Words that begin something not modelled here: structures, enums, qualifiers, [__name]
      (c_parser.py:1883-1893); and words with letters outside of ASCII. *)
  Definition odd_word (w : str) : bool :=
    mem w (map (fun s : string => $s)
             ["struct"; "union"; "enum"; "const"; "volatile"; "restrict"; "near"; "far"]%string)
    || mem w mods || starts_with $"__" w || negb (forallb is_idchar w).

  (** [fund_type] after its first word (c_parser.py:1906-1908). *)
  Fixpoint skip_fund (fuel : nat) (s : str) : str :=
    match fuel with
    | O => s
    | S f => let (w, r) := span is_word (skip_blank s) in
             if mem w fund then skip_fund f r else s
    end.
  (** Stars, c_parser.py:1225. *)
  Fixpoint skip_stars (fuel : nat) (s : str) : str :=
    match fuel with
    | O => s
    | S f => match skip_blank s with
             | c :: r => if cheq c "*" then skip_stars f r else s
             | [] => s
             end
    end.

  (** [type_spec] (c_parser.py:1192-1203) and [abstract_declarator] (c_parser.py:1223-1249);
      [args] reads the parameters.  Not modelled: structures, enums, qualifiers, brackets,
      default values. *)
  Definition name_body (args : str -> scan) (f : nat) (s : str) : scan :=
    match skip_blank s with
    | c :: _ =>
        if is_word c && negb (is_digit c) then
          let (w, r) := span is_word (skip_blank s) in
          if odd_word w then Unknown
          else
            let r1 := if mem w fund then skip_fund f r else r in
            match skip_blank r1 with
            | x :: _ =>
                (* a qualifier, or the rest of a name *)
                if is_word x && negb (is_digit x) && odd_word (fst (span is_word (skip_blank r1)))
                   || cheq x "$" then Unknown
                else
                  let r2 := skip_stars f r1 in
                  match skip_blank r2 with
                  | y :: _ =>
                      if is_word y && negb (is_digit y) && odd_word (fst (span is_word (skip_blank r2)))
                      then Unknown
                      else
                        let r3 := if cheq y "&" then tl (skip_blank r2) else r2 in
                        match skip_blank r3 with
                        | z :: r4 =>
                            if cheq z "(" then
                              match args r4 with
                              | NoCast => Cast r3
                              | Cast r5 =>
                                  match skip_blank r5 with
                                  | q :: _ => if cheq q "[" || cheq q dquote || cheq q squote
                                              then Unknown else Cast r5
                                  | [] => Cast r5
                                  end
                              | Unknown => Unknown
                              end
                            else if cheq z "[" || cheq z dquote || cheq z squote then Unknown
                            else Cast r3
                        | [] => Cast r3
                        end
                  | [] => Cast r2
                  end
            | [] => Cast r1
            end
        else if cheq c dquote || cheq c squote then Unknown else NoCast
    | [] => NoCast
    end.
  (** The parameters after an opening parenthesis and the closing one, c_parser.py:1231-1244. *)
  Definition args_body (more : str -> scan) (s : str) : scan :=
    match skip_blank s with
    | c :: r => if cheq c ")" then Cast r
                else if cheq c dquote || cheq c squote then Unknown
                else more s
    | [] => NoCast
    end.
  (** [delimitedList] of parameters, c_parser.py:1233-1241. *)
  Definition more_body (name more : str -> scan) (s : str) : scan :=
    match name s with
    | Cast r =>
        match skip_blank r with
        | c :: r' =>
            if cheq c ")" then Cast r'
            else if cheq c "," then more r'
            else if cheq c dquote || cheq c squote then Unknown
            else if cheq c "=" then
              (* a default value, unless the sign is doubled *)
              match r' with d :: _ => if cheq d "=" then NoCast else Unknown | [] => Unknown end
            else NoCast
        | [] => NoCast
        end
    | x => x
    end.
  (** The recursion of the three (c_parser.py:1192-1203, 1223-1249). *)
  Fixpoint type_name (fuel : nat) (s : str) : scan :=
    match fuel with O => Unknown | S f => name_body (type_args f) f s end
  with type_args (fuel : nat) (s : str) : scan :=
    match fuel with O => Unknown | S f => args_body (type_more f) s end
  with type_more (fuel : nat) (s : str) : scan :=
    match fuel with O => Unknown | S f => more_body (type_name f) (type_more f) s end.
  (** The cast after its opening parenthesis (c_parser.py:1661). *)
  Definition cast_at (s : str) : scan :=
    match type_name (S (length s + length s)) s with
    | Cast r =>
        match skip_blank r with
        | c :: r' => if cheq c ")" then Cast r'
                     else if cheq c dquote || cheq c squote then Unknown else NoCast
        | [] => NoCast
        end
    | x => x
    end.

  (** [(quotedString | number | cast).transformString], c_parser.py:1662.  None: not modelled
      (string literals).  White space is copied as it is (the scan skips it or it is part of
      a number, c_parser.py:1795-1800). *)
  Fixpoint transform (fuel : nat) (s : str) : option str :=
    match fuel with
    | O => None
    | S f =>
        match s with
        | [] => Some []
        | c :: r =>
            if is_space c then option_map (cons c) (transform f r)
            else if cheq c dquote || cheq c squote then None
            else
              match number_at s with
              | Some (n, r') => option_map (app n) (transform f r')
              | None =>
                  if cheq c "(" then
                    match cast_at r with
                    | Cast r' => transform f r'
                    | NoCast => option_map (cons c) (transform f r)
                    | Unknown => None
                    end
                  else option_map (cons c) (transform f r)
              end
        end
    end.

  (** ** Python's [eval] with names, c_parser.py:1665 *)
  (** Decimal digits (Python; c_parser.py:1665). *)
  Fixpoint ndec (fuel : nat) (n : N) : str :=
    match fuel with
    | O => []
    | S f => let (q, r) := N.div_eucl n 10 in
             (if N.eqb q 0 then [] else ndec f q) ++ [ascii_of_nat (48 + N.to_nat r)]
    end.
  (** Decimal digits (Python; c_parser.py:1665). *)
  Definition zdec (z : Z) : str := ndec (S (N.size_nat (Z.to_N z))) (Z.to_N z).
  (** Tokens that stand for a number (c_parser.py:1643, 1665). *)
  Definition ztoks (z : Z) : list ptok :=
    if (z <? 0)%Z then [KOpen; KBin OSub; KNum (zdec (- z)); KClose] else [KNum (zdec z)].
  (** Simplification: True and False are read as 1 and 0, to which they are equal (c_parser.py:1643, 1665). *)
  Definition vtoks (v : pyval) : option (list ptok) := option_map ztoks (as_int v).
  (** The value Python gives to hexadecimal digits, c_parser.py:1665. *)
  Definition hexval (d : str) : Z :=
    fold_left (fun v c => (16 * v + Z.of_nat (if is_digit c then code c - 48
                                              else if between 65 70 c then code c - 55
                                              else code c - 87))%Z) d 0%Z.

  (** Python's keywords: no variables (Python; c_parser.py:1665). *)
  Definition py_keywords : list str :=
    map (fun s : string => $s)
      ["False"; "None"; "True"; "and"; "as"; "assert"; "async"; "await"; "break"; "class";
       "continue"; "def"; "del"; "elif"; "else"; "except"; "finally"; "for"; "from"; "global"; "if";
       "import"; "in"; "is"; "lambda"; "nonlocal"; "not"; "or"; "pass"; "raise"; "return"; "try";
       "while"; "with"; "yield"]%string.

  (** A letter that makes a number a syntax error (Python; c_parser.py:1665). *)
  Definition is_lsuffix (c : ascii) : bool :=
    cheq c "u" || cheq c "U" || cheq c "l" || cheq c "L".
  (** The end of a number: [ok] if nothing of a word or of a number follows (Python; c_parser.py:1665). *)
  Definition number_end {A} (r : str) (ok : option (res A)) : option (res A) :=
    match r with
    | x :: _ => if is_lsuffix x then Some (Err SyntaxError)
                else if is_word x || cheq x "." then None else ok
    | [] => ok
    end.
  (** The tokens of a text, with the numbers in place of the names: None outside of the
      subset; a decimal number with a leading zero, or one with a suffix of C, is a syntax
      error (Python; c_parser.py:1643, 1665). *)
  Fixpoint lex_env (env : dict str pobj) (fuel : nat) (s : str) : option (res (list ptok)) :=
    let next k r := match r with Some (Ok l) => Some (Ok (k ++ l)) | x => x end in
    match fuel with
    | O => None
    | S f =>
        match s with
        | [] => Some (Ok [])
        | c :: r =>
            if cheq c sp || cheq c tab then lex_env env f r
            else if is_digit c then
              let (d, r') := span is_digit s in
              let dec := number_end r' (if good_digits d then next [KNum d] (lex_env env f r')
                                        else Some (Err SyntaxError)) in
              match r' with
              | x :: r1 =>
                  if eqb d $"0" && (cheq x "x" || cheq x "X") then
                    let (h, r2) := span is_hex r1 in
                    match h with
                    | [] => None
                    | _ => number_end r2 (next (ztoks (hexval h)) (lex_env env f r2))
                    end
                  else dec
              | [] => dec
              end
            else if is_word c then
              let (w, r') := span is_word s in
              if eqb w $"not" then next [KNot] (lex_env env f r')
              else if eqb w $"and" then next [KAnd] (lex_env env f r')
              else if eqb w $"or" then next [KOr] (lex_env env f r')
              else if mem w py_keywords || negb (forallb is_idchar w) then None
              else
                match dget env w with
                | Some (ONum v) =>
                    match vtoks v with
                    | Some k => next k (lex_env env f r')
                    | None => None
                    end
                | _ => None
                end
            else
              match operator operators s with
              | Some (t, r') => next [t] (lex_env env f r')
              | None => None
              end
        end
    end.

  (** A text that is one name only (c_parser.py:1665). *)
  Definition lone_name (s : str) : option str :=
    match strip s with
    | c :: r => if is_idstart c && forallb is_idchar r && negb (mem (c :: r) py_keywords)
                then Some (c :: r) else None
    | [] => None
    end.

  (** Names visible besides the values: builtins and globals of the module c_parser. *)
  Context (visible : str -> bool).

  (** [eval(text, None, env)]: None outside of the subset (c_parser.py:1665). *)
  Definition py_eval_env (env : dict str pobj) (text : str) : option (res pobj) :=
    match lone_name text with
    | Some w =>
        match dget env w with
        | Some v => Some (Ok v)
        | None => if visible w then None else Some (Err NameError)
        end
    | None =>
        match lex_env env (S (length text)) text with
        | None => None
        | Some (Err e) => Some (Err e)
        | Some (Ok []) => Some (Err SyntaxError)
        | Some (Ok ts) =>
            match parse (16 * S (length ts)) LOr ts with
            | Some (e, []) =>
                match py_value e with
                | Some (Ok v) => Some (Ok (ONum v))
                | Some (Err e) => Some (Err e)
                | None => None
                end
            | _ => if existsb (cheq "(") text then None else Some (Err SyntaxError)
            end
        end
    end.

  (** What is not modelled. *)
  Context (ext : dict str pobj -> str -> res pobj).

  (** [self.eval], c_parser.py:1658-1665. *)
  Definition c_eval (env : dict str pobj) (text : str) : res pobj :=
    match transform (S (length (strip text))) (strip text) with
    | None => ext env text
    | Some [] => Ok ONone
    | Some t => match py_eval_env env t with Some r => r | None => ext env text end
    end.
End Eval.
