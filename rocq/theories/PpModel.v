(** Model of the preprocessor: comments, line joining, conditionals, definitions and
    packing pragmas (c_parser.py:802-1042, 1529-1537). *)
From Coq Require Import Ascii String Bool Arith ZArith List.
Import ListNotations.
From Verif Require Import PyBase PyStr PyExpr MacroModel.

(** ** Comments, c_parser.py:802-814 *)

(** [cStyleComment] of pyparsing after its opening: the text after the first closing (c_parser.py:812). *)
Fixpoint comment_end (s : str) : option str :=
  match s with
  | [] => None
  | c :: r =>
      match r with
      | d :: r' => if cheq c "*" && cheq d "/" then Some r' else comment_end r
      | [] => None
      end
  end.
(** [transformString] with quotedString, the C comment and the line comment tried in this
    order at each position; white space skipped before a match is kept (c_parser.py:809-814). *)
Fixpoint remove_comments_aux (fuel : nat) (s : str) : str :=
  match fuel with
  | O => s
  | S f =>
      match s with
      | [] => []
      | c :: r =>
          match quoted_string s with
          | Some (q, r') => q ++ remove_comments_aux f r'
          | None =>
              let line_comment :=
                match r with
                | d :: r' =>
                    if cheq c "/" && cheq d "/"
                    then remove_comments_aux f (drop_while (fun x => negb (cheq x nl)) r')
                    else c :: remove_comments_aux f r
                | [] => [c]
                end in
              match r with
              | d :: r' =>
                  if cheq c "/" && cheq d "*" then
                    match comment_end r' with
                    | Some e => remove_comments_aux f e
                    | None => line_comment
                    end
                  else line_comment
              | [] => line_comment
              end
          end
      end
  end.
(** [remove_comments], c_parser.py:802-814. *)
Definition remove_comments (s : str) : str := remove_comments_aux (length s) s.

(** ** Line joining, c_parser.py:842-843 *)
Fixpoint join_lines (s : str) : str :=
  match s with
  | [] => []
  | c :: r =>
      match r with
      | d :: r' => if cheq c bslash && cheq d nl then join_lines r' else c :: join_lines r
      | [] => [c]
      end
  end.

(** ** Directives *)

(** The match of the regular expression of c_parser.py:860, 865: white space, a hash sign,
    white space, letters; the directive and the rest of the line. *)
Definition directive (line : str) : option (str * str) :=
  match drop_while is_space line with
  | c :: r =>
      if cheq c "#" then
        let (d, rest) := span is_alpha (drop_while is_space r) in
        match d with [] => None | _ => Some (d, rest) end
      else None
  | [] => None
  end.

(** The match of the regular expression of c_parser.py:901: white space, an identifier; the
    identifier and the rest. *)
Definition macro_name (rest : str) : option (str * str) :=
  match drop_while is_space rest with
  | c :: r => if is_idstart c then let (a, b) := span is_idchar r in Some (c :: a, b) else None
  | [] => None
  end.

(** Identifier characters of pyparsing's [Keyword] (c_parser.py:895). *)
Definition is_kwchar (c : ascii) : bool := is_idchar c || cheq c "$".
(** What follows the keyword [defined], c_parser.py:895: a name, or a name in parentheses. *)
Definition defined_arg (s : str) : option (str * str) :=
  match pp_name s with
  | Some x => Some x
  | None =>
      match open_at (drop_while is_ppws s) with
      | None => None
      | Some r =>
          match pp_name r with
          | None => None
          | Some (n, r') => match paren ")" r' with Some r'' => Some (n, r'') | None => None end
          end
      end
  end.
(** [t["name"] in self.defs["macros"]] or in fnmacros, c_parser.py:890-892. *)
Definition is_defined (t : mtab) (n : str) : bool := dmem (macros t) n || dmem (fnmacros t) n.
(** The rewriting of [defined], c_parser.py:894-898.  [prev] is the character before [s]. *)
Fixpoint rewrite_defined (fuel : nat) (t : mtab) (prev : option ascii) (s : str) : str :=
  match fuel with
  | O => s
  | S f =>
      match s with
      | [] => []
      | c :: r =>
          let other := c :: rewrite_defined f t (Some c) r in
          if match prev with Some p => is_kwchar p | None => false end then other
          else
            match strip_prefix $"defined" s with
            | None => other
            | Some a =>
                if match a with x :: _ => is_kwchar x | [] => false end then other
                else
                  match defined_arg a with
                  | None => other
                  | Some (n, e) =>
                      (if is_defined t n then "1"%char else "0"%char)
                      :: rewrite_defined f t (hd_error (rev (firstn (length s - length e) s))) e
                  end
            end
      end
  end.
(** c_parser.py:894-898. *)
Definition defined_values (t : mtab) (s : str) : str := rewrite_defined (length s) t None s.

(** ** Conditions, c_parser.py:1026-1042 *)

(** [macro_diffs.transformString] (c_parser.py:1028-1034). *)
Fixpoint translate (fuel : nat) (s : str) : str :=
  match fuel with
  | O => s
  | S f =>
      match s with
      | [] => []
      | c :: r =>
          if cheq c "!" then $" not " ++ translate f r
          else
            match strip_prefix $"&&" s with
            | Some r' => $" and " ++ translate f r'
            | None =>
                match strip_prefix $"||" s with
                | Some r' => $" or " ++ translate f r'
                | None =>
                    if is_idstart c then "0"%char :: translate f (snd (span is_idchar r))
                    else c :: translate f r
                end
            end
      end
  end.
(** c_parser.py:1028-1034. *)
Definition pp_translate (s : str) : str := strip (translate (length s) s).

Section Pp.
  (** [str.format] outside of the subset of MacroModel.v, and the truth of Python expressions
      outside of the subset of PyExpr.v (false if evaluation raises). *)
  Context (fo : str -> list str -> option str) (ext : str -> bool).

  (** [eval_preprocessor_expr] (c_parser.py:1026-1042). *)
  Definition eval_pp (s : str) : bool :=
    match py_eval (pp_translate s) with
    | Some (Ok v) => truth v
    | Some (Err _) => false
    | None => ext (pp_translate s)
    end.

  (** The variables of [preprocess].  Conditional stacks with the innermost level first;
      pack_stack as in the code, bottom first.  Left out: the tables of values and the
      per-file tables (StoreModel.v) (c_parser.py:835-838, 858-862). *)
  Record pst := {
    tab : mtab;
    ift : list bool;                      (* if_true *)
    ifh : list bool;                      (* if_hit *)
    pstack : list (option Z * option str);(* pack_stack: packing, identifier *)
    plist : list (nat * option Z);        (* pack_list: line index, packing *)
    outp : list str                       (* result *)
  }.
  (** The tables of macros after c_parser.py:954, 965. *)
  Definition set_tab s x := {| tab := x; ift := ift s; ifh := ifh s; pstack := pstack s; plist := plist s; outp := outp s |}.
  (** [if_true] and [if_hit] after c_parser.py:918-919, 925-926, 929-930, 941-942. *)
  Definition set_if s t h := {| tab := tab s; ift := t; ifh := h; pstack := pstack s; plist := plist s; outp := outp s |}.
  (** [pack_stack] and [pack_list] after c_parser.py:999-1017. *)
  Definition set_pack s k l := {| tab := tab s; ift := ift s; ifh := ifh s; pstack := k; plist := l; outp := outp s |}.
  (** [result.append(new_line)], c_parser.py:1023 *)
  Definition emit s x := {| tab := tab s; ift := ift s; ifh := ifh s; pstack := pstack s; plist := plist s; outp := outp s ++ [x] |}.

  (** [all(if_true)], c_parser.py:905, 909, 925, 934. *)
  Definition all_true (l : list bool) : bool := forallb (fun b => b) l.
  (** [if_true[-1]] (c_parser.py:871, 945, 962, 980). *)
  Definition active (s : pst) : bool := hd false (ift s).

  (** ** #pragma pack, c_parser.py:979-1017 *)
  (** The match of the regular expression of c_parser.py:982 (white space, the word pack,
      text in parentheses) and the options. *)
  Definition pack_opts (rest : str) : option (list str) :=
    match rest with
    | c :: _ =>
        if is_space c then
          match strip_prefix $"pack" (drop_while is_space rest) with
          | None => None
          | Some a =>
              match drop_while is_space a with
              | p :: b =>
                  if cheq p "(" then
                    match split_first ")" b with
                    | Some (o, _) => Some (map strip (split_on "," o))
                    | None => None
                    end
                  else None
              | [] => None
              end
          end
        else None
    | [] => None
    end.
  (** c_parser.py:988-995: last push/pop, last number, last other word.  [int] refuses the
      superscript digits that [isdigit] accepts. *)
  Record popts := { o_pp : option str; o_val : option Z; o_id : option str }.
  (** [o.isdigit()], c_parser.py:992. *)
  Definition is_pydigits (o : str) : bool := negb (eqb o []) && forallb is_pydigit o.
  (** The loop of c_parser.py:988-995. *)
  Fixpoint read_opts (l : list str) (p : popts) : res popts :=
    match l with
    | [] => Ok p
    | o :: l' =>
        if eqb o $"push" || eqb o $"pop" then
          read_opts l' {| o_pp := Some o; o_val := o_val p; o_id := o_id p |}
        else if is_pydigits o then
          if forallb is_digit o then
            read_opts l' {| o_pp := o_pp p; o_val := Some (zval o); o_id := o_id p |}
          else Err ValueError
        else read_opts l' {| o_pp := o_pp p; o_val := o_val p; o_id := Some o |}
    end.
  (** c_parser.py:1005-1011: the stack below the first record with the identifier. *)
  Fixpoint cut_at (i : str) (l : list (option Z * option str)) : option (list (option Z * option str)) :=
    match l with
    | [] => None
    | r :: l' => if eqb (snd r) (Some i) then Some [] else option_map (cons r) (cut_at i l')
    end.
  (** The new stack and packing (c_parser.py:997-1017). *)
  Definition pack (st : list (option Z * option str)) (opts : list str)
    : res (list (option Z * option str) * option Z) :=
    do p <- read_opts opts {| o_pp := None; o_val := None; o_id := None |};
    if eqb (o_pp p) (Some $"push") then Ok (st ++ [(o_val p, o_id p)], o_val p)
    else if eqb (hd [] opts) $"pop" then
      do st' <- match o_id p with
                | None => match st with [] => Err IndexError | _ => Ok (removelast st) end
                | Some i => Ok (match cut_at i st with Some x => x | None => st end)
                end;
      match o_val p with
      | Some v => Ok (st', Some v)
      | None =>
          match rev st' with
          | [] => Err IndexError
          | r :: _ => Ok (st', fst r)
          end
      end
    else Ok (st, o_val p).

  (** ** One line, c_parser.py:863-1023 *)
  (** The text of a condition after rewriting of [defined] and expansion, c_parser.py:879-906. *)
  Definition condition (t : mtab) (rest : str) : res str :=
    expand_macros fo t (defined_values t rest).

  (** The body of the loop, c_parser.py:864-1023. *)
  Definition line_step (i : nat) (s : pst) (line : str) : res pst :=
    match directive line with
    | None =>
        if active s then do x <- expand_macros fo (tab s) line; Ok (emit s x)
        else Ok (emit s [])
    | Some (d0, rest0) =>
        let (d, rest) :=
          if eqb d0 $"ifdef" then ($"if", $"defined " ++ rest0)
          else if eqb d0 $"ifndef" then ($"if", $"!defined " ++ rest0)
          else (d0, rest0) in
        if eqb d $"if" || eqb d $"elif" then
          do c <- condition (tab s) rest;
          if eqb d $"elif" then
            match ifh s, ift s with
            | h :: hs, _ :: ts =>
                let ev := if h || negb (all_true ts) then false else eval_pp c in
                Ok (emit (set_if s (ev :: ts) ((h || ev) :: hs)) [])
            | _, _ => Err IndexError
            end
          else
            let ev := if all_true (ift s) then eval_pp c else false in
            Ok (emit (set_if s (ev :: ift s) (ev :: ifh s)) [])
        else if eqb d $"define" || eqb d $"undef" then
          match macro_name rest with
          | None => Err AttributeError
          | Some (n, rest') =>
              do r <- (if all_true (ift s) then expand_macros fo (tab s) rest' else Ok rest');
              if active s then
                if eqb d $"define" then Ok (emit (set_tab s (define (tab s) n r)) [])
                else Ok (emit (set_tab s {| macros := ddel (macros (tab s)) (strip n);
                                            fnmacros := fnmacros (tab s) |}) [])
              else Ok s
          end
        else
          do r <- (if all_true (ift s) then expand_macros fo (tab s) rest else Ok rest);
          if eqb d $"else" then
            match ifh s, ift s with
            | h :: hs, _ :: ts =>
                Ok (emit (set_if s ((negb h && all_true ts) :: ts) (true :: hs)) [])
            | _, _ => Err IndexError
            end
          else if eqb d $"endif" then
            match ift s, ifh s with
            | _ :: ts, _ :: hs => Ok (emit (set_if s ts hs) [])
            | _, _ => Err IndexError
            end
          else if eqb d $"pragma" then
            if active s then
              match pack_opts r with
              | None => Ok s
              | Some opts =>
                  do p <- pack (pstack s) opts;
                  Ok (emit (set_pack s (fst p) (plist s ++ [(i, snd p)])) [])
              end
            else Ok s
          else Ok (emit s [])
    end.

  (** The loop over the lines, c_parser.py:863. *)
  Fixpoint run_lines (i : nat) (s : pst) (lines : list str) : res pst :=
    match lines with
    | [] => Ok s
    | l :: r => do s' <- line_step i s l; run_lines (S i) s' r
    end.

  (** c_parser.py:835-862: the state before the first line. *)
  Definition start (t : mtab) : pst :=
    {| tab := t; ift := [true]; ifh := []; pstack := [(None, None)]; plist := [(0, None)]; outp := [] |}.

  (** [preprocess] (c_parser.py:818-1024). *)
  Definition preprocess (t : mtab) (text : str) : res (pst * str) :=
    do s <- run_lines 0 (start t) (split_on nl (join_lines text));
    Ok (s, join [nl] (outp s)).
End Pp.

(** [packing_at], c_parser.py:1529-1537. *)
Fixpoint packing_at_aux (l : list (nat * option Z)) (line : nat) (packing : option Z) : option Z :=
  match l with
  | [] => packing
  | (i, p) :: l' => if i <=? line then packing_at_aux l' line p else packing
  end.
(** [packing_at], c_parser.py:1529-1537. *)
Definition packing_at (l : list (nat * option Z)) (line : nat) : option Z :=
  packing_at_aux l line None.
