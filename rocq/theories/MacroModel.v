(** Model of macro definition and macro expansion (c_parser.py:1044-1152 and the
    [pp_define] grammar, c_parser.py:845-853). *)
From Coq Require Import Ascii String Bool Arith ZArith List.
Import ListNotations.
From Verif Require Import PyBase PyStr.

(** What the regular expressions of c_parser.py:1077 and 1098 find: a string literal or a
    word. *)
Inductive tok := TLit (s : str) | TWord (w : str).

(** The part after the opening quote of the regular expression for string literals,
    ["(\\"|[^"])*"], c_parser.py:1077, 1098: the matched text (with the closing quote) and
    what follows.  Greedy, a backslash and a quote are taken together if possible; if then
    no closing quote is found, backtracking ends the literal at the last such pair. *)
Fixpoint lit_close (s : str) : option (str * str) :=
  match s with
  | [] => None
  | c :: r =>
      if cheq c dquote then Some ([c], r)
      else
        match r with
        | d :: r' =>
            if cheq c bslash && cheq d dquote then
              match lit_close r' with
              | Some (a, b) => Some (c :: d :: a, b)
              | None => Some ([c; d], r')
              end
            else
              match lit_close r with
              | Some (a, b) => Some (c :: a, b)
              | None => None
              end
        | [] => None
        end
  end.

(** [reg.search(line)] of c_parser.py:1098-1106: text before the match, match, text after.
    The first word character met is at a word boundary, and the greedy [\w+] extends to
    the next one. *)
Fixpoint re_search (s : str) : option (str * tok * str) :=
  match s with
  | [] => None
  | c :: r =>
      let next :=
        match re_search r with
        | Some (b, t, a) => Some (c :: b, t, a)
        | None => None
        end in
      if cheq c dquote then
        match lit_close r with
        | Some (l, a) => Some ([], TLit (c :: l), a)
        | None => next
        end
      else if is_word c then
        let (w, a) := span is_word s in Some ([], TWord w, a)
      else next
  end.

(** ** Function-like macros *)

(** [str.format] with positional arguments, for format strings made of text, doubled
    braces and empty replacement fields: [Some (Some r)] is the text, [Some None] a raised
    exception, [None] a format string outside of this subset.  Used c_parser.py:1150. *)
Fixpoint fmt (t : str) (args : list str) : option (option str) :=
  let cons c x := match x with Some (Some r) => Some (Some (c :: r)) | y => y end in
  match t with
  | [] => Some (Some [])
  | c :: r =>
      if cheq c "{" then
        match r with
        | [] => Some None
        | d :: r' =>
            if cheq d "{" then cons c (fmt r' args)
            else if cheq d "}" then
              match args with
              | [] => Some None
              | a :: args' =>
                  match fmt r' args' with
                  | Some (Some x) => Some (Some (a ++ x))
                  | y => y
                  end
              end
            else None
        end
      else if cheq c "}" then
        match r with
        | [] => Some None
        | d :: r' => if cheq d "}" then cons c (fmt r' args) else Some None
        end
      else cons c (fmt r args)
  end.

(** [compile_fn_macro], c_parser.py:1073-1090: the scan of [text] by [arg_regex]; whole words
    that are parameters are replaced by an empty field. *)
Fixpoint index_of (w : str) (l : list str) : option nat :=
  match l with
  | [] => None
  | x :: r => if eqb w x then Some 0 else option_map S (index_of w r)
  end.
(** The loop of c_parser.py:1083-1089. *)
Fixpoint compile_scan (fuel : nat) (params : list str) (text : str) : str * list nat :=
  match fuel with
  | O => ([], [])
  | S f =>
      match text with
      | [] => ([], [])
      | c :: r =>
          let keep (s rest : str) :=
            let (t, o) := compile_scan f params rest in (s ++ t, o) in
          if cheq c dquote then
            match lit_close r with
            | Some (l, a) => keep (c :: l) a
            | None => keep [c] r
            end
          else if is_word c then
            let (w, a) := span is_word text in
            match index_of w params with
            | Some i => let (t, o) := compile_scan f params a in ($"{}" ++ t, i :: o)
            | None => keep w a
            end
          else keep [c] r
      end
  end.
(** [fuel]: each step consumes a character ([compile_fn_macro], c_parser.py:1073-1090). *)
Definition compile_fn_macro (text : str) (params : list str) : str * list nat :=
  compile_scan (length text) params text.

(** The two tables read by [expand_macros] (c_parser.py:1102-1103). *)
Record mtab := { macros : dict str str; fnmacros : dict str (str * list nat) }.

Section Expand.
  (** What [str.format] does outside of the subset of [fmt]; None: it raises. *)
  Context (fmt_other : str -> list str -> option str).

  (** c_parser.py:1150 *)
  Definition format (t : str) (args : list str) : res str :=
    match (match fmt t args with Some r => r | None => fmt_other t args end) with
    | Some r => Ok r
    | None => Err ValueError
    end.

  (** [expand_fn_macro], c_parser.py:1136-1152; [exp] expands an argument. *)
  Definition expand_fn_macro (exp : str -> res str) (defn : str * list nat) (text : str)
    : res (str * str) :=
    match split_first ")" text with
    | None => Err DefinitionError
    | Some (a, e) =>
        match split_first "(" a with
        | None => Err DefinitionError
        | Some (_, al) =>
            do args <- mapM exp (map strip (split_on "," al));
            do picked <- mapM (fun i => match nth_error args i with
                                        | Some x => Ok x
                                        | None => Err IndexError
                                        end) (snd defn);
            do r <- format (fst defn) picked;
            Ok (r, e)
        end
    end.

  (** [expand_macros], c_parser.py:1092-1134; one unit of fuel for each turn of the loop.
      After a string literal, group 3 has not matched, [m.end(3)] is -1 and the line is cut
      before its last character.  Simplification: no RecursionError. *)
  Fixpoint expand (t : mtab) (fuel : nat) (line : str) : res str :=
    match fuel with
    | O => Err OutOfFuel
    | S f =>
        match re_search line with
        | None => Ok line
        | Some (_, TLit _, _) =>
            do r <- expand t f (last1 line); Ok (but_last line ++ r)
        | Some (b, TWord w, a) =>
            match dget (macros t) w with
            | Some v => do r <- expand t f a; Ok (b ++ v ++ r)
            | None =>
                match dget (fnmacros t) w with
                | Some d =>
                    match expand_fn_macro (expand t f) d a with
                    | Ok (x, e) => do r <- expand t f e; Ok (b ++ x ++ r)
                    | Err OutOfFuel => Err OutOfFuel
                    | Err _ => do r <- expand t f a; Ok (b ++ w ++ r)
                    end
                | None => do r <- expand t f a; Ok (b ++ w ++ r)
                end
            end
        end
    end.
  (** [expand_macros], c_parser.py:1092-1134; every turn uses up a character. *)
  Definition expand_macros (t : mtab) (line : str) : res str :=
    expand t (S (length line)) line.
End Expand.

(** ** Definitions *)

(** [str.expandtabs()], applied by [parseString] (pyparsing) to the text of a definition (c_parser.py:954, 1182). *)
Fixpoint spaces (n : nat) : str := match n with O => [] | S n' => sp :: spaces n' end.
(** [str.expandtabs], from column [col] on (pyparsing, called by c_parser.py:954, 1182). *)
Fixpoint expandtabs_aux (col : nat) (s : str) : str :=
  match s with
  | [] => []
  | c :: r =>
      if cheq c tab then
        let k := 8 - col mod 8 in spaces k ++ expandtabs_aux 0 r
      else if cheq c nl || cheq c cr then c :: expandtabs_aux 0 r
      else c :: expandtabs_aux (S col) r
  end.
(** [str.expandtabs()] (c_parser.py:954, 1182). *)
Definition expandtabs (s : str) : str := expandtabs_aux 0 s.

(** The default white space of pyparsing (pyparsing). *)
Definition is_ppws (c : ascii) : bool :=
  cheq c sp || cheq c tab || cheq c nl || cheq c cr.
(** [" \t"], c_parser.py:849-850. *)
Definition is_blank (c : ascii) : bool := cheq c sp || cheq c tab.

(** [quotedString] of pyparsing after the opening quote [q]: the text up to and including
    the closing quote, and the rest.  No backtracking: the body is a greedy regular
    expression followed by a literal quote (c_parser.py:812). *)
Definition is_hex (c : ascii) : bool :=
  is_digit c || between 65 70 c || between 97 102 c.
(** [quotedString] behind the opening quote, as used by c_parser.py:812, 1662, 1783-1791, 1920. *)
Fixpoint qs_body (fuel : nat) (q : ascii) (s : str) : option (str * str) :=
  let cons p x := match x with Some (a, b) => Some (p ++ a, b) | None => None end in
  match fuel with
  | O => None
  | S f =>
      match s with
      | [] => None
      | c :: r =>
          if cheq c q then
            match r with
            | d :: r' => if cheq d q then cons [c; d] (qs_body f q r') else Some ([c], r)
            | [] => Some ([c], r)
            end
          else if cheq c bslash then
            match r with
            | [] => None
            | d :: r' =>
                if cheq d "x" then
                  let (h, r'') := span is_hex r' in
                  match h with [] => None | _ => cons (c :: d :: h) (qs_body f q r'') end
                else cons [c; d] (qs_body f q r')
            end
          else if cheq c nl || cheq c cr then None
          else cons [c] (qs_body f q r)
      end
  end.
(** [quotedString], as used by c_parser.py:812, 1662, 1783-1791, 1920. *)
Definition quoted_string (s : str) : option (str * str) :=
  match s with
  | c :: r =>
      if cheq c dquote || cheq c squote then
        match qs_body (S (length r)) c r with
        | Some (a, b) => Some (c :: a, b)
        | None => None
        end
      else None
  | [] => None
  end.

(** [Literal(x).ignore(quotedString)], c_parser.py:1790-1791: quoted strings and white space
    before the parenthesis are skipped, unless it is the first element of a sequence, whose
    white space the sequence skips itself. *)
Fixpoint skip_ignorables (fuel : nat) (s : str) : str :=
  match fuel with
  | O => s
  | S f =>
      match quoted_string (drop_while is_ppws s) with
      | Some (_, r) => skip_ignorables f r
      | None => s
      end
  end.
(** [lparen] and [rparen], c_parser.py:1790-1791. *)
Definition paren (p : ascii) (s : str) : option str :=
  match drop_while is_ppws (skip_ignorables (length s) s) with
  | c :: r => if cheq c p then Some r else None
  | [] => None
  end.

(** [lparen] as the first element of a sequence, c_parser.py:847. *)
Definition open_at (s : str) : option str :=
  match s with
  | c :: r => if cheq c "(" then Some r else None
  | [] => None
  end.

(** [name], c_parser.py:846, 849: white space before it is blanks only. *)
Definition pp_name (s : str) : option (str * str) :=
  match drop_while is_blank s with
  | c :: r => if is_idstart c then let (a, b) := span is_idchar r in Some (c :: a, b) else None
  | [] => None
  end.
(** [delimitedList(name)] after its first element (c_parser.py:847). *)
Fixpoint pp_names (fuel : nat) (s : str) : list str * str :=
  match fuel with
  | O => ([], s)
  | S f =>
      match drop_while is_ppws s with
      | c :: r =>
          if cheq c "," then
            match pp_name r with
            | Some (n, r') => let (l, e) := pp_names f r' in (n :: l, e)
            | None => ([], s)
            end
          else ([], s)
      | [] => ([], s)
      end
  end.
(** [deli_list], c_parser.py:847, 850; None: the optional list is absent. *)
Definition pp_args (s : str) : option (list str * str) :=
  match open_at (drop_while is_blank s) with
  | None => None
  | Some r =>
      match pp_name (drop_while is_ppws r) with
      | None => None
      | Some (n, r') =>
          let (l, e) := pp_names (length r') r' in
          match paren ")" e with Some r'' => Some (n :: l, r'') | None => None end
      end
  end.
(** [SkipTo(LineEnd())], c_parser.py:851 *)
Definition pp_value (s : str) : str :=
  fst (span (fun c => negb (cheq c nl)) (drop_while is_ppws s)).
(** [pp_define.parseString], c_parser.py:848-853, 954: macro name, parameters, stripped text. *)
Definition pp_define (text : str) : option (str * option (list str) * str) :=
  match pp_name (expandtabs text) with
  | None => None
  | Some (n, r) =>
      match pp_args r with
      | Some (l, r') => Some (n, Some l, strip (pp_value r'))
      | None => Some (n, None, strip (pp_value r))
      end
  end.

(** [process_macro_defn], c_parser.py:1044-1071.  The table of values, written by line 1056 and
    never read by the preprocessor, is left out. *)
Definition process_macro_defn (t : mtab) (n : str) (args : option (list str)) (v : str) : mtab :=
  match dget (fnmacros t) v with
  | Some d => {| macros := macros t; fnmacros := dset (fnmacros t) n d |}
  | None =>
      match args with
      | None => {| macros := dset (macros t) n v; fnmacros := fnmacros t |}
      | Some l => {| macros := macros t; fnmacros := dset (fnmacros t) n (compile_fn_macro v l) |}
      end
  end.
(** c_parser.py:952-959: a definition; [rest] has been expanded.  A failure is logged. *)
Definition define (t : mtab) (name rest : str) : mtab :=
  match pp_define (name ++ sp :: rest) with
  | Some (n, args, v) => process_macro_defn t n args v
  | None => t
  end.

(** c_parser.py:900-906, 944-959: the text after the name in an active [#define] is expanded,
    then the definition is registered. *)
Definition define_line (fmt_other : str -> list str -> option str) (t : mtab) (name rest : str)
  : res mtab :=
  do r <- expand_macros fmt_other t rest; Ok (define t name r).
(** A sequence of active definitions (c_parser.py:944-959). *)
Fixpoint define_lines (fmt_other : str -> list str -> option str) (t : mtab)
  (l : list (str * str)) : res mtab :=
  match l with
  | [] => Ok t
  | (n, rest) :: l' => do t' <- define_line fmt_other t n rest; define_lines fmt_other t' l'
  end.
