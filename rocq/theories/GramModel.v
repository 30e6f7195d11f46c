(** Model of the grammar of [CParser.build_parser] (c_parser.py:1184-1382, 1746-1945) and of
    [parse_defs] (c_parser.py:1156-1182): from the preprocessed text of a file to the trees of
    its declarations, and from these to the parse actions of DeclModel.v.

    The grammar is a parsing expression grammar, run by pyparsing: alternatives are tried in
    order, an alternative that matched is never revised, repetitions are greedy.
    Simplifications: parse actions run once, for the declarations that are matched in the end
    (pyparsing runs those of structures and enums as soon as they are complete, even if the
    surrounding declaration fails, and again if the declaration is tried again and its results
    are no longer cached); extra types and extra modifiers are words. *)
From Coq Require Import Ascii String Bool Arith ZArith List.
Import ListNotations.
From Verif Require Import PyBase PyStr PyExpr TypeModel StoreModel MacroModel PpModel DeclModel EvalModel.

(** ** Positions and results *)
(** The character before a position (a line break at the beginning of the text) and the text
    behind it (pyparsing). *)
Definition pos : Type := (ascii * str)%type.
(** A match with the position behind it, no match, or the recursion was cut off (pyparsing). *)
Inductive pres (A : Type) : Type := POk (a : A) (p : pos) | PNo | POut.
Arguments POk {A} a p. Arguments PNo {A}. Arguments POut {A}.

(** Sequences ([And]) (pyparsing; "+" in c_parser.py:1184-1382). *)
Definition pbind {A B} (e : pres A) (k : A -> pos -> pres B) : pres B :=
  match e with POk a p => k a p | PNo => PNo | POut => POut end.
Notation "'get' ( x , p ) <- e ; k" := (pbind e (fun x p => k))
  (at level 60, x name, p name, e at level 59, k at level 60, right associativity).
(** Alternatives ([MatchFirst]). *)
Notation "e <|> k" := (match e with PNo => k | r => r end) (at level 55, right associativity).
(** [Optional].  The white space it consumes without a match is skipped by what follows
    (pyparsing; c_parser.py:1230, 1266, 1302 and others). *)
Definition popt {A} (e : pos -> pres A) (p : pos) : pres (option A) :=
  match e p with POk a q => POk (Some a) q | PNo => POk None p | POut => POut end.
(** [ZeroOrMore] and [OneOrMore]; no expression of the grammar that is repeated matches the
    empty text (pyparsing). *)
Fixpoint many_n {A} (f : nat) (e : pos -> pres A) (p : pos) : pres (list A) :=
  match f with
  | O => POut
  | S f' => match e p with
            | POk a q => get (l, q') <- many_n f' e q; POk (a :: l) q'
            | PNo => POk [] p
            | POut => POut
            end
  end.
(** [ZeroOrMore] of pyparsing (c_parser.py:1225, 1246, 1912, 1924, 1944 and others). *)
Definition many {A} (e : pos -> pres A) (p : pos) : pres (list A) := many_n (S (length (snd p))) e p.
(** [OneOrMore] of pyparsing (c_parser.py:1352, 1906, 1917). *)
Definition many1 {A} (e : pos -> pres A) (p : pos) : pres (list A) :=
  get (a, q) <- e p; get (l, q') <- many e q; POk (a :: l) q'.

(** ** Lexemes *)
(** The white space skipped before every element (pyparsing). *)
Fixpoint skip_from (c : ascii) (s : str) : pos :=
  match s with
  | d :: r => if is_ppws d then skip_from d r else (c, s)
  | [] => (c, [])
  end.
(** The same from a position on (pyparsing). *)
Definition skip (p : pos) : pos := skip_from (fst p) (snd p).
(** The position before the rest [r] of the text behind [p] (pyparsing). *)
Definition upto (p : pos) (r : str) : pos :=
  (last (firstn (length (snd p) - length r) (snd p)) (fst p), r).

(** [Literal] (pyparsing; c_parser.py:1225, 1238, 1783-1791). *)
Definition lit (x : str) (p : pos) : pres str :=
  let q := skip p in
  match strip_prefix x (snd q) with Some r => POk x (upto q r) | None => PNo end.
(** The delimiters of c_parser.py:1783-1791 where they are not the first element of a
    sequence: quoted strings before them are skipped. *)
Definition delim (x : str) (p : pos) : pres str :=
  lit x (upto p (skip_ignorables (length (snd p)) (snd p))).
(** [DelimitedList], with a comma that is not one of these delimiters
    (c_parser.py:1233, 1269, 1286, 1309, 1372, 1916). *)
Definition delimited {A} (e : pos -> pres A) (p : pos) : pres (list A) :=
  get (a, q) <- e p;
  get (l, q') <- many (fun p => get (u0, q) <- lit $"," p; e q) q;
  POk (a :: l) q'.

(** [kwl], c_parser.py:1746-1748: a whole word (regex [\w]) of the list. *)
Definition kwl (l : list str) (p : pos) : pres str :=
  let q := skip p in
  let (w, r) := span is_word (snd q) in
  if negb (is_word (fst q)) && mem w l then POk w (upto q r) else PNo.
(** [Keyword], with letters, digits, "_" and "$" as word characters (c_parser.py:1290, 1333, 1368, 1881). *)
Definition keyword (w : str) (p : pos) : pres str :=
  let q := skip p in
  let (v, r) := span is_kwchar (snd q) in
  if negb (is_kwchar (fst q)) && eqb v w then POk w (upto q r) else PNo.
(** [oneOf]: the longest of the texts; [two]: those of more than one character (c_parser.py:1804-1806). *)
Definition one_of (two one : list str) (p : pos) : pres str :=
  let q := skip p in
  match find (fun x => starts_with x (snd q)) (two ++ one) with
  | Some x => POk x (upto q (skipn (length x) (snd q)))
  | None => PNo
  end.
(** [nestedExpr], here behind its opening parenthesis or brace: everything up to the matching
    closing one, quoted strings apart (c_parser.py:1327, 1347-1348, 1892, 1899). *)
Fixpoint nested_body (f : nat) (o c : ascii) (depth : nat) (s : str) : option str :=
  match f with
  | O => None
  | S f' =>
      match quoted_string s with
      | Some (_, r) => nested_body f' o c depth r
      | None =>
          match s with
          | [] => None
          | d :: r =>
              if cheq d o then nested_body f' o c (S depth) r
              else if cheq d c then
                match depth with O => Some r | S n => nested_body f' o c n r end
              else nested_body f' o c depth r
          end
      end
  end.
(** Simplification: the nested tokens are represented by their text (c_parser.py:1327, 1347-1348, 1892, 1899). *)
Definition nested (o c : ascii) (p : pos) : pres str :=
  let q := skip p in
  match snd q with
  | d :: r =>
      if cheq d o then
        match nested_body (S (length r)) o c 0 r with
        | Some r' => POk (firstn (length (snd q) - length r') (snd q)) (upto q r')
        | None => PNo
        end
      else PNo
  | [] => PNo
  end.
(** [number] and [quotedString] in expressions, c_parser.py:1795-1801. *)
Definition number (p : pos) : pres str :=
  let q := skip p in
  match number_at (snd q) with Some (t, r) => POk t (upto q r) | None => PNo end.
(** [quotedString], c_parser.py:1920. *)
Definition quoted (p : pos) : pres str :=
  let q := skip p in
  match quoted_string (snd q) with Some (t, r) => POk t (upto q r) | None => PNo end.
(** [integer], c_parser.py:1795-1797. *)
Definition integer (p : pos) : pres str :=
  let q := skip p in
  let (g, s1) := match snd q with
                 | c :: r => if is_sign c then ([c], r) else ([], snd q)
                 | [] => ([], [])
                 end in
  let (b, s2) := span is_space s1 in
  match match hexint s2 with Some x => Some x | None => decint s2 end with
  | Some (n, r) => POk (g ++ b ++ n) (upto q r)
  | None => PNo
  end.

(** c_parser.py:1804-1806 *)
Definition bi_two : list str := [$"||"; $"&&"; $"=="; $"!="; $">="; $"<="; $"->"; $"::"; $"<<"; $">>"].
(** The other operators of c_parser.py:1804. *)
Definition bi_one : list str :=
  [$"+"; $"-"; $"/"; $"*"; $"|"; $"&"; $"!"; $"~"; $"^"; $"%"; $">"; $"<"; $"."; $"="; $"?"; $":"].
(** c_parser.py:1804: longer operators are tried first ([oneOf] sees to it). *)
Definition bi_operator : pos -> pres str := one_of bi_two bi_one.
(** c_parser.py:1805. *)
Definition uni_right_operator : pos -> pres str := one_of [$"++"; $"--"] [].
(** c_parser.py:1806. *)
Definition uni_left_operator : pos -> pres str := one_of [$"++"; $"--"] [$"-"; $"+"; $"*"; $"sizeof"; $"new"].
(** c_parser.py:1809-1810, 1857-1858 *)
Definition modifiers : list str := [$"short"; $"long"; $"signed"; $"unsigned"].
(** c_parser.py:1857. *)
Definition storage_classes : list str := [$"inline"; $"static"; $"extern"].
(** c_parser.py:1858. *)
Definition qualifiers : list str := [$"const"; $"volatile"; $"restrict"; $"near"; $"far"].

(** ** Trees *)
(** As in DeclModel.v, with the definitions of structures and enums in the specifiers
    (c_parser.py:1192-1285, 1334-1378). *)
Inductive gdecl :=
| GNode (firstq : list str) (conv : option str) (ptrs : list (list str)) (core : gcore)
        (args : option (list garg)) (arrays : list str)
with gcore :=
| GNamed (ref : bool) (n : str)
| GAbstract (ref : bool)
| GCenter (d : gdecl)
with garg :=
| GArg (t : gspec) (d : gdecl) (dflt : option str)
with gspec :=
| GSpec (q : list str) (n : gname)
with gname :=
| GWord (t : str)
| GComp (c : comp) (name : option str) (body : list gline) (pack : option Z)
| GEnum (name : option str) (body : list (str * option str))
with gline :=
| GLine (t : gspec) (ds : list gdecl) (i : init) (bit : option str)
| GMethod.
(** Declarations outside of structures (c_parser.py:1289-1328). *)
Inductive gtop :=
| GTypedef (t : gspec) (ds : list gdecl)
| GVar (t : gspec) (ds : list gdecl) (i : init)
| GFun (t : gspec) (d : gdecl).

Section Grammar.
  (** [base_types], c_parser.py:1856, the extra modifiers, and the packing of a structure whose
      keyword is followed by the given text (c_parser.py:1545). *)
  Context (base mods : list str) (pk : str -> option Z).

  (** c_parser.py:1860-1870 *)
  Definition keywords : list str :=
    [$"struct"; $"enum"; $"union"; $"__stdcall"; $"__cdecl"] ++ qualifiers ++ base ++ modifiers.
  (** [ident], c_parser.py:1874-1879. *)
  Definition ident (p : pos) : pres str :=
    let q := skip p in
    match snd q with
    | c :: r =>
        if negb (is_kwchar (fst q)) && is_kwchar c then
          match kwl keywords q with
          | PNo => if is_idstart c then
                     let (w, r') := span is_kwchar r in POk (c :: w) (upto q r')
                   else PNo
          | _ => PNo
          end
        else PNo
    | [] => PNo
    end.
  (** [call_conv], c_parser.py:1881. *)
  Definition call_conv (p : pos) : pres (option str) :=
    popt (fun p => keyword $"__cdecl" p <|> keyword $"__stdcall" p) p.
  (** [underscore_2_ident], c_parser.py:1884-1890: the word is represented by "__". *)
  Definition under2 (p : pos) : pres str :=
    let q := skip p in
    match snd q with
    | c :: _ =>
        if negb (is_kwchar (fst q)) && is_kwchar c then
          match kwl keywords q with
          | PNo =>
              match strip_prefix $"__" (snd q) with
              | Some r =>
                  match drop_while is_ppws r with
                  | d :: r' => if is_alnum d then POk $"__" (upto q (snd (span is_kwchar r'))) else PNo
                  | [] => PNo
                  end
              | None => PNo
              end
          | _ => PNo
          end
        else PNo
    | [] => PNo
    end.
  (** [type_qualifier], c_parser.py:1891-1893. *)
  Definition qualifier (p : pos) : pres (list str) :=
    (get (u, q) <- under2 p;
     get (n, q') <- popt (nested "(" ")") q;
     POk (u :: match n with Some t => [t] | None => [] end) q')
    <|> (get (w, q) <- kwl qualifiers p; POk [w] q).
  (** [ZeroOrMore] of these, c_parser.py:1891-1893. *)
  Definition quals (p : pos) : pres (list str) :=
    get (l, q) <- many qualifier p; POk (concat l) q.
  (** [extra_modifier], c_parser.py:1897-1903. *)
  Definition extra (p : pos) : pres unit :=
    get (l, q) <- many (fun p => get (w, q) <- kwl mods p; popt (nested "(" ")") q) p; POk tt q.

  (** *** Expressions, c_parser.py:1910-1945: the tokens joined by blanks ([recombine],
      c_parser.py:1761-1763). *)
  Section Expr.
    Context (E : pos -> pres str).
    (** ["[" + expression + "]"], c_parser.py:1917, 1932. *)
    Definition index (p : pos) : pres (list str) :=
      get (o, q) <- lit $"[" p; get (e, q) <- E q; get (c, q) <- lit $"]" q; POk [o; e; c] q.
    (** c_parser.py:1916, 1931. *)
    Definition call (p : pos) : pres (list str) :=
      get (i, q) <- ident p; get (o, q) <- lit $"(" q;
      get (a, q) <- popt (delimited E) q; get (c, q) <- lit $")" q;
      POk (i :: o :: match a with Some l => l | None => [] end ++ [c]) q.
    (** c_parser.py:1917, 1932. *)
    Definition indexed (p : pos) : pres (list str) :=
      get (i, q) <- ident p; get (l, q) <- many1 index q; POk (i :: concat l) q.
    (** An alternative with a single token, c_parser.py:1918-1920, 1933-1935. *)
    Definition one (e : pos -> pres str) (p : pos) : pres (list str) :=
      get (t, q) <- e p; POk [t] q.
    (** ["(" + expression + ")"], c_parser.py:1922, 1937. *)
    Definition parens (p : pos) : pres (list str) :=
      get (o, q) <- lit $"(" p; get (e, q) <- E q; get (c, q) <- lit $")" q; POk [o; e; c] q.
    (** c_parser.py:1914-1923, 1929-1938. *)
    Definition primary (p : pos) : pres (list str) :=
      call p <|> indexed p <|> one ident p <|> one number p <|> one quoted p <|> parens p.
    (** ["(" + ident + ")"], c_parser.py:1913. *)
    Definition cast (p : pos) : pres str :=
      get (o, q) <- lit $"(" p; get (i, q) <- ident q; get (c, q) <- lit $")" q; POk i q.
    (** c_parser.py:1911-1925. *)
    Definition cast_atom (p : pos) : pres (list str) :=
      get (u, q) <- many uni_left_operator p;
      get (c, q) <- popt cast q;
      get (e, q) <- primary q;
      get (v, q) <- many uni_right_operator q;
      POk (u ++ e ++ v) q.
    (** c_parser.py:1927-1940. *)
    Definition uncast_atom (p : pos) : pres (list str) :=
      get (u, q) <- many uni_left_operator p;
      get (e, q) <- primary q;
      get (v, q) <- many uni_right_operator q;
      POk (u ++ e ++ v) q.
    (** c_parser.py:1942. *)
    Definition atom (p : pos) : pres (list str) := cast_atom p <|> uncast_atom p.
    (** c_parser.py:1944-1945. *)
    Definition expr_body (p : pos) : pres str :=
      get (a, q) <- atom p;
      get (l, q) <- many (fun p => get (o, q) <- bi_operator p; get (b, q) <- atom q; POk (o :: b) q) q;
      POk (join [sp] (a ++ concat l)) q.
  End Expr.
  (** [expression] is a Forward, c_parser.py:1813; [f] bounds the recursion. *)
  Fixpoint expr (f : nat) (p : pos) : pres str :=
    match f with O => POut | S f' => expr_body (expr f') p end.
  (** [expression], c_parser.py:1944; every recursion uses up a character. *)
  Definition expression (p : pos) : pres str := expr (S (length (snd p))) p.

  (** *** Declarations *)
  (** [Optional("=" + expression)], c_parser.py:1237-1239, 1273-1275. *)
  Definition default (p : pos) : pres (option str) :=
    popt (fun p => get (u0, q) <- lit $"=" p; expression q) p.
  (** c_parser.py:1246-1248, 1282-1284 *)
  Definition array (p : pos) : pres str :=
    get (u0, q) <- lit $"[" p;
    get (e, q) <- popt expression q;
    get (u0, q) <- delim $"]" q;
    POk match e with Some t => t | None => $"-1" end q.
  (** The enumerators, c_parser.py:1363-1365. *)
  Definition enumerator (p : pos) : pres (str * option str) :=
    get (n, q) <- ident p; get (v, q) <- default q; POk (n, v) q.
  (** [enum_type], c_parser.py:1367-1378. *)
  Definition enum_type (p : pos) : pres gname :=
    get (u0, q) <- keyword $"enum" p;
    (get (n, q) <- popt ident q;
     get (u0, q) <- delim $"{" q;
     get (l, q) <- delimited enumerator q;
     get (u0, q) <- popt (delim $",") q;
     get (u0, q) <- delim $"}" q;
     POk (GEnum n l) q)
    <|> (get (n, q) <- ident q; POk (GEnum (Some n) []) q).
  (** [fund_type], c_parser.py:1906-1908. *)
  Definition fund_type (p : pos) : pres gname :=
    get (l, q) <- many1 (kwl (modifiers ++ base)) p; POk (GWord (join [sp] l)) q.
  (** The second alternative of [type_], c_parser.py:1196. *)
  Definition named_type (p : pos) : pres gname :=
    get (m, q) <- popt (kwl modifiers) p;
    get (n, q) <- ident q;
    POk (GWord match m with Some t => t ++ sp :: n | None => n end) q.

  (** The three mutually recursive rules [type_spec], [declarator] and
      [abstract_declarator] (c_parser.py:1203, 1213-1214). *)
  Record rules := {
    r_spec : pos -> pres gspec;
    r_decl : pos -> pres gdecl;
    r_abstract : pos -> pres gdecl
  }.
  Section Rules.
    Context (R : rules).
    (** c_parser.py:1225, 1261 *)
    Definition star (p : pos) : pres (list str) := get (u0, q) <- lit $"*" p; quals q.
    (** The parameters, c_parser.py:1230-1245, 1266-1281. *)
    Definition arg (d : pos -> pres gdecl) (p : pos) : pres garg :=
      get (t, q) <- r_spec R p; get (x, q) <- d q; get (v, q) <- default q; POk (GArg t x v) q.
    (** The parentheses around them, c_parser.py:1230-1245, 1266-1281. *)
    Definition args (d : pos -> pres gdecl) (p : pos) : pres (list garg) :=
      get (u0, q) <- lit $"(" p;
      get (l, q) <- popt (delimited (arg d)) q;
      get (u0, q) <- delim $")" q;
      POk match l with Some l => l | None => [] end q.
    (** [abstract_declarator], c_parser.py:1223-1249.  The alternative with parentheses comes
        after one that always matches. *)
    Definition abstract_body (p : pos) : pres gdecl :=
      get (fq, q) <- quals p;
      get (ps, q) <- many star q;
      get (r, q) <- popt (lit $"&") q;
      get (a, q) <- popt (args (r_abstract R)) q;
      get (ar, q) <- many array q;
      POk (GNode fq None ps (GAbstract match r with Some _ => true | None => false end) a ar) q.
    (** [declarator], c_parser.py:1258-1285. *)
    Definition core (p : pos) : pres gcore :=
      (get (r, q) <- popt (lit $"&") p; get (n, q) <- ident q;
       POk (GNamed match r with Some _ => true | None => false end n) q)
      <|> (get (u0, q) <- lit $"(" p; get (d, q) <- r_decl R q; get (u0, q) <- delim $")" q;
           POk (GCenter d) q).
    (** [declarator], c_parser.py:1258-1285. *)
    Definition decl_body (p : pos) : pres gdecl :=
      get (fq, q) <- quals p;
      get (cc, q) <- call_conv q;
      get (ps, q) <- many star q;
      get (c, q) <- core q;
      get (a, q) <- popt (args (fun p => r_decl R p <|> r_abstract R p)) q;
      get (ar, q) <- many array q;
      POk (GNode fq cc ps c a ar) q.
    (** [variable_decl], c_parser.py:1298-1316. *)
    Definition initialiser (p : pos) : pres init :=
      get (u0, q) <- lit $"=" p;
      (get (e, q) <- expression q; POk (IVal e) q)
      <|> (get (u0, q) <- lit $"{" q;
           get (l, q) <- delimited expression q;
           get (u0, q) <- delim $"}" q;
           POk (IArr l) q).
    (** [variable_decl], c_parser.py:1298-1316. *)
    Definition variable (p : pos) : pres gline :=
      get (u0, q) <- popt (kwl storage_classes) p;
      get (t, q) <- r_spec R q;
      get (l, q) <- popt (delimited (r_decl R)) q;
      get (i, q) <- popt initialiser q;
      get (u0, q) <- delim $";" q;
      POk (GLine t match l with Some l => l | None => [] end
                 match i with Some i => i | None => NoInit end None) q.
    (** [struct_member], c_parser.py:1334-1349. *)
    Definition bit_field (p : pos) : pres gline :=
      get (t, q) <- r_spec R p;
      get (l, q) <- popt (delimited (r_decl R)) q;
      get (u0, q) <- delim $":" q;
      get (b, q) <- integer q;
      get (u0, q) <- delim $";" q;
      POk (GLine t match l with Some l => l | None => [] end NoInit (Some b)) q.
    (** The last two alternatives of [struct_member], c_parser.py:1347-1348. *)
    Definition method (p : pos) : pres gline :=
      (get (t, q) <- r_spec R p; get (d, q) <- r_decl R q; get (b, q) <- nested "{" "}" q; POk GMethod q)
      <|> (get (d, q) <- r_decl R p; get (b, q) <- nested "{" "}" q; POk GMethod q).
    (** [struct_member], c_parser.py:1334-1349. *)
    Definition member_rule (p : pos) : pres gline := variable p <|> bit_field p <|> method p.
    (** [struct_type], c_parser.py:1351-1358. *)
    Definition struct_type (p : pos) : pres gname :=
      get (k, q) <- (keyword $"struct" p <|> keyword $"union" p);
      let c := if eqb k $"struct" then CStruct else CUnion in
      let pack := pk (snd (skip p)) in
      (get (n, q) <- popt ident q;
       get (u0, q) <- delim $"{" q;
       get (l, q) <- many1 member_rule q;
       get (u0, q) <- delim $"}" q;
       POk (GComp c n l pack) q)
      <|> (get (n, q) <- ident q; POk (GComp c (Some n) [] pack) q).
    (** [type_spec], c_parser.py:1192-1203. *)
    Definition spec_body (p : pos) : pres gspec :=
      get (qs, q) <- quals p;
      get (n, q) <- (fund_type q <|> named_type q <|> struct_type q <|> enum_type q);
      get (u0, q) <- extra q;
      POk (GSpec qs n) q.
  End Rules.
  (** The rules are Forwards, c_parser.py:1192, 1213-1214; [f] bounds the recursion. *)
  Fixpoint rules_n (f : nat) : rules :=
    match f with
    | O => {| r_spec := fun _ => POut; r_decl := fun _ => POut; r_abstract := fun _ => POut |}
    | S f' => let R := rules_n f' in
              {| r_spec := spec_body R; r_decl := decl_body R; r_abstract := abstract_body R |}
    end.

  (** [type_decl], [variable_decl] and [function_decl], c_parser.py:1289-1328, 1381. *)
  Definition top (R : rules) (p : pos) : pres gtop :=
    (get (u0, q) <- keyword $"typedef" p;
     get (t, q) <- r_spec R q;
     get (l, q) <- delimited (r_decl R) q;
     get (u0, q) <- delim $";" q;
     POk (GTypedef t l) q)
    <|> (get (v, q) <- variable R p;
         match v with GLine t l i _ => POk (GVar t l i) q | GMethod => PNo end)
    <|> (get (u0, q) <- popt (kwl storage_classes) p;
         get (t, q) <- r_spec R q;
         get (d, q) <- r_decl R q;
         get (u0, q) <- nested "{" "}" q;
         POk (GFun t d) q).
  (** [self.parser], c_parser.py:1381; every recursion uses up a character. *)
  Definition top_at (p : pos) : pres gtop := top (rules_n (S (length (snd p)))) p.

  (** [scanString]: where nothing matches, one character is left out.  None: cut off (pyparsing; c_parser.py:1182). *)
  Fixpoint scan_n (f : nat) (p : pos) : option (list gtop) :=
    match f with
    | O => None
    | S f' =>
        let q := skip p in
        match top_at q with
        | POk t q' => match scan_n f' q' with Some l => Some (t :: l) | None => None end
        | POut => None
        | PNo => match snd q with
                 | [] => Some []
                 | c :: r => scan_n f' (c, r)
                 end
        end
    end.
  (** [parser.scanString(text)], c_parser.py:1182. *)
  Definition scan_text (s : str) : option (list gtop) := scan_n (S (length s)) (nl, s).
End Grammar.

(** The packing at the line of a structure, c_parser.py:1545: [text] is the whole text, [r] the
    text from the structure on, [l] the packing list of the file. *)
Definition line_at (text r : str) : nat :=
  S (count_occ ascii_dec text nl - count_occ ascii_dec r nl).
(** [self.packing_at(lineno(line, s))], c_parser.py:1545. *)
Definition pack_of (l : list (nat * option Z)) (text r : str) : option Z :=
  packing_at l (line_at text r).
(** [parse_defs], c_parser.py:1177-1182, without the parse actions: tabs are expanded by
    [scanString]. *)
Definition parse_defs (base mods : list str) (l : list (nat * option Z)) (text : str)
  : option (list gtop) :=
  let t := expandtabs text in scan_text base mods (pack_of l t) t.

(** ** From the trees to the parse actions *)
Section Run.
  Context (ev : dict str pobj -> str -> res pobj).

  (** The actions of the structures and enums in a tree, in their order in the text, and the
      tree with their texts in the place of the definitions.  None: an action failed (the
      tokens then stay as they are; not modelled) (c_parser.py:1358, 1378). *)
  Fixpoint elab_decl (s : store entry) (d : gdecl) : store entry * option dtree :=
    match d with
    | GNode fq conv ptrs core args arrays =>
        let '(s1, c) :=
          match core with
          | GNamed r n => (s, Some (Named r n))
          | GAbstract r => (s, Some (Abstract r))
          | GCenter d' => let '(s', o) := elab_decl s d' in (s', option_map Center o)
          end in
        match c with
        | None => (s1, None)
        | Some c =>
            match args with
            | None => (s1, Some (DNode fq conv ptrs c None arrays))
            | Some l =>
                let '(s2, o) :=
                  (fix each (s : store entry) (l : list garg) : store entry * option (list darg) :=
                     match l with
                     | [] => (s, Some [])
                     | GArg t a v :: l' =>
                         let '(s1, ot) := elab_spec s t in
                         match ot with
                         | None => (s1, None)
                         | Some b =>
                             let '(s2, oa) := elab_decl s1 a in
                             match oa with
                             | None => (s2, None)
                             | Some a' => let '(s3, ol) := each s2 l' in
                                          (s3, option_map (cons (Arg b a' v)) ol)
                             end
                         end
                     end) s1 l in
                (s2, option_map (fun l' => DNode fq conv ptrs c (Some l') arrays) o)
            end
        end
    end
  with elab_spec (s : store entry) (t : gspec) : store entry * option bspec :=
    match t with
    | GSpec q n =>
        let '(s1, o) :=
          match n with
          | GWord t => (s, Some t)
          | GComp c name body pack =>
              let '(s1, ol) :=
                (fix each (s : store entry) (l : list gline) : store entry * option (list mline) :=
                   match l with
                   | [] => (s, Some [])
                   | GMethod :: l' => each s l'
                   | GLine t ds i bit :: l' =>
                       let '(s1, ot) := elab_spec s t in
                       match ot with
                       | None => (s1, None)
                       | Some b =>
                           let '(s2, od) :=
                             (fix decls (s : store entry) (l : list gdecl) : store entry * option (list dtree) :=
                                match l with
                                | [] => (s, Some [])
                                | d :: l' =>
                                    let '(s1, o) := elab_decl s d in
                                    match o with
                                    | None => (s1, None)
                                    | Some d' => let '(s2, ol) := decls s1 l' in
                                                 (s2, option_map (cons d') ol)
                                    end
                                end) s1 ds in
                           match od with
                           | None => (s2, None)
                           | Some ds' =>
                               let '(s3, ol) := each s2 l' in
                               (s3, option_map (cons {| l_type := b; l_decls := ds'; l_init := i; l_bit := bit |}) ol)
                           end
                       end
                   end) s body in
              match ol with
              | None => (s1, None)
              | Some l => process_struct ev s1 c name l pack
              end
          | GEnum name body => process_enum ev s name body
          end in
        (s1, option_map (fun t => {| b_qual := q; b_name := t |}) o)
    end.
  (** The declarators of a list, c_parser.py:1286, from left to right. *)
  Fixpoint elab_decls (s : store entry) (l : list gdecl) : store entry * option (list dtree) :=
    match l with
    | [] => (s, Some [])
    | d :: l' =>
        let '(s1, o) := elab_decl s d in
        match o with
        | None => (s1, None)
        | Some d' => let '(s2, ol) := elab_decls s1 l' in (s2, option_map (cons d') ol)
        end
    end.

  (** One declaration: what it contains, then its own action (c_parser.py:1295, 1317, 1329). *)
  Definition run_top (s : store entry) (g : gtop) : store entry * option exc :=
    match g with
    | GTypedef t ds =>
        match elab_spec s t with
        | (s1, None) => (s1, None)
        | (s1, Some b) =>
            match elab_decls s1 ds with
            | (s2, None) => (s2, None)
            | (s2, Some l) => act ev s2 (ATypedef b l)
            end
        end
    | GVar t ds i =>
        match elab_spec s t with
        | (s1, None) => (s1, None)
        | (s1, Some b) =>
            match elab_decls s1 ds with
            | (s2, None) => (s2, None)
            | (s2, Some l) => act ev s2 (AVar b l i)
            end
        end
    | GFun t d =>
        match elab_spec s t with
        | (s1, None) => (s1, None)
        | (s1, Some b) =>
            match elab_decl s1 d with
            | (s2, None) => (s2, None)
            | (s2, Some x) => act ev s2 (AFun b x)
            end
        end
    end.
  (** The declarations of a file, c_parser.py:1182. *)
  Fixpoint run_tops (s : store entry) (l : list gtop) : store entry * option exc :=
    match l with
    | [] => (s, None)
    | g :: l' => match run_top s g with
                 | (s1, None) => run_tops s1 l'
                 | (s1, Some e) => (s1, Some e)
                 end
    end.
End Run.

(** [parse_defs] with its parse actions, c_parser.py:1175-1182, on the preprocessed text of the
    file [path]. *)
Definition parse_file (ev : dict str pobj -> str -> res pobj) (base mods : list str)
  (l : list (nat * option Z)) (s : store entry) (path : option str) (text : str)
  : option (store entry * option exc) :=
  match parse_defs base mods l text with
  | Some ds => Some (run_tops ev (set_cur s path) ds)
  | None => None
  end.
