(** What the properties on the reading of declarations say: how the declarations of C that are
    supported are written, as sequences of tokens in any layout. *)
From Coq Require Import Ascii String Bool Arith ZArith List.
Import ListNotations.
From Verif Require Import PyBase PyStr PpModel DeclModel GramModel.

(** ** Words *)
(** The words of C (and those of old compilers) that are supported. *)
Definition c_qualifiers : list str := [$"const"; $"volatile"; $"restrict"; $"near"; $"far"].
Definition c_modifiers : list str := [$"short"; $"long"; $"signed"; $"unsigned"].
Definition c_storage : list str := [$"inline"; $"static"; $"extern"].
Definition c_keywords (base : list str) : list str :=
  [$"struct"; $"enum"; $"union"; $"__stdcall"; $"__cdecl"] ++ c_qualifiers ++ base ++ c_modifiers.

(** ** Tokens *)
Definition ops2 : list str :=
  [$"||"; $"&&"; $"=="; $"!="; $">="; $"<="; $"->"; $"::"; $"<<"; $">>"; $"++"; $"--"].
Definition puncts : list str :=
  [$"("; $")"; $"["; $"]"; $"{"; $"}"; $","; $";"; $":"; $"="; $"*"; $"&"; $"+"; $"-"; $"/"; $"|";
   $"^"; $"%"; $">"; $"<"; $"?"] ++ ops2.
Definition is_quote (c : ascii) : bool := cheq c dquote || cheq c squote.
(** Characters that separate tokens. *)
Definition is_ws (c : ascii) : bool := cheq c sp || cheq c nl || cheq c cr || cheq c PyStr.tab.

(** Identifiers and keywords of C. *)
Definition word (t : str) : Prop :=
  match t with c :: r => is_idstart c = true /\ forallb is_idchar r = true | [] => False end.
(** Integer constants: decimal or hexadecimal digits, with a suffix of U and L. *)
Definition is_hexdigit (c : ascii) : bool := is_digit c || between 65 70 c || between 97 102 c.
Definition is_suffix_char (c : ascii) : bool := cheq c "U" || cheq c "L".
Definition digits (t : str) : Prop :=
  (t <> [] /\ forallb is_digit t = true)
  \/ exists x h, (x = "x"%char \/ x = "X"%char) /\ h <> [] /\ forallb is_hexdigit h = true
                 /\ t = "0"%char :: x :: h.
(** [num t v]: [t] is the constant [v] with a suffix. *)
Definition num (t v : str) : Prop :=
  digits v /\ exists u, forallb is_suffix_char u = true /\ t = v ++ u.
(** String and character literals without escapes. *)
Definition literal (t : str) : Prop :=
  exists q b, is_quote q = true /\ t = q :: b ++ [q]
              /\ forall c, In c b -> c <> q /\ c <> bslash /\ c <> nl /\ c <> cr.
(** The body of a function: balanced braces, without regard to those in literals. *)
Inductive balanced : str -> Prop :=
| bal_nil : balanced []
| bal_char c s : is_quote c = false -> c <> "{"%char -> c <> "}"%char -> balanced s -> balanced (c :: s)
| bal_literal q s : literal q -> balanced s ->
    (forall c r, s = c :: r -> is_quote c = false) -> balanced (q ++ s)
| bal_braces a s : balanced a -> balanced s -> balanced ("{"%char :: a ++ "}"%char :: s).
Definition fun_body (t : str) : Prop := exists b, balanced b /\ t = "{"%char :: b ++ $"}".

Definition token (t : str) : Prop :=
  word t \/ (exists v, num t v) \/ In t puncts \/ literal t \/ fun_body t.

(** ** Layout *)
(** Whether two tokens must be kept apart, given the last character of the first and the
    first one of the second. *)
Definition glue (c d : ascii) : bool :=
  (is_kwchar c && is_kwchar d) || mem [c; d] ops2 || (is_quote c && is_quote d).
(** [lay c ts s]: the text [s], behind the character [c], consists of the tokens [ts] with
    white space around them wherever one likes, and where it is needed. *)
Inductive lay : ascii -> list str -> str -> Prop :=
| lay_end c b : forallb is_ws b = true -> lay c [] b
| lay_tok c b t d r ts s :
    forallb is_ws b = true -> token t -> t = d :: r ->
    (b = [] -> glue c d = false) -> lay (last t c) ts s ->
    lay c (t :: ts) (b ++ t ++ s).
(** [s] consists of the tokens [ts]. *)
Definition written (ts : list str) (s : str) : Prop := lay nl ts s.

(** Tabs are used for white space and in function bodies only. *)
Definition tabs_outside (ts : list str) : Prop := Forall (fun t => ~ In PyStr.tab t \/ fun_body t) ts.

(** ** Lists *)
Inductive sep_list {A} (P : A -> list str -> Prop) : list A -> list str -> Prop :=
| sl_one a t : P a t -> sep_list P [a] t
| sl_more a t l ts : P a t -> sep_list P l ts -> sep_list P (a :: l) (t ++ $"," :: ts).
Inductive seq_list {A} (P : A -> list str -> Prop) : list A -> list str -> Prop :=
| sq_nil : seq_list P [] []
| sq_cons a t l ts : P a t -> seq_list P l ts -> seq_list P (a :: l) (t ++ ts).

(** Tokens with matching parentheses, other than function bodies. *)
Inductive group : list str -> Prop :=
| gr_nil : group []
| gr_tok t ts : t <> $"(" -> t <> $")" -> ~ fun_body t -> group ts -> group (t :: ts)
| gr_paren a ts : group a -> group ts -> group ($"(" :: a ++ $")" :: ts).

Section Spelling.
  Context (base mods : list str) (pack : option Z).

  (** Names a declaration may introduce or refer to: not reserved, and without two underscores
      in front. *)
  Definition plain_name (n : str) : Prop :=
    word n /\ ~ In n (c_keywords base) /\ ~ In n mods /\ ~ In n c_storage
    /\ n <> $"typedef" /\ starts_with $"__" n = false.
  (** Names in expressions. *)
  Definition operand (n : str) : Prop :=
    plain_name n /\ starts_with $"sizeof" n = false /\ starts_with $"new" n = false.

  (** ** Expressions *)
  (** [sp_expr o ts]: the tokens [ts] are an expression, [o] are the tokens with the numbers
      without their suffixes. *)
  Definition unary : list str := [$"-"; $"+"; $"*"; $"++"; $"--"].
  Definition binary : list str :=
    [$"+"; $"-"; $"/"; $"*"; $"|"; $"&"; $"||"; $"&&"; $"^"; $"%"; $"=="; $"!="; $">"; $"<"; $">=";
     $"<="; $"<<"; $">>"; $"?"; $":"].
  Inductive sp_prim : list str -> list str -> Prop :=
  | sp_name n : operand n -> sp_prim [n] [n]
  | sp_num t v : num t v -> sp_prim [v] [t]
  | sp_literal t : literal t -> sp_prim [t] [t]
  | sp_paren o ts : sp_expr o ts -> (forall n, operand n -> ts <> [n]) ->
      sp_prim ($"(" :: o ++ [$")"]) ($"(" :: ts ++ [$")"])
  | sp_index n o ts : operand n -> sp_expr o ts ->
      sp_prim (n :: $"[" :: o ++ [$"]"]) (n :: $"[" :: ts ++ [$"]"])
  with sp_atom : list str -> list str -> Prop :=
  | sp_unary us o ts : Forall (fun u => In u unary) us -> sp_prim o ts -> sp_atom (us ++ o) (us ++ ts)
  with sp_expr : list str -> list str -> Prop :=
  | sp_single o ts : sp_atom o ts -> sp_expr o ts
  | sp_binary o ts op o' ts' :
      sp_atom o ts -> In op binary -> sp_expr o' ts' -> sp_expr (o ++ op :: o') (ts ++ op :: ts').
  (** The text of an expression. *)
  Definition sp_text (e : str) (ts : list str) : Prop := exists o, sp_expr o ts /\ e = join [sp] o.

  (** ** Declarations *)
  Definition quals_ok (q : list str) : Prop := Forall (fun w => In w c_qualifiers) q.
  Definition sp_conv (c : option str) (ts : list str) : Prop :=
    match c with None => ts = [] | Some w => (w = $"__cdecl" \/ w = $"__stdcall") /\ ts = [w] end.
  Definition sp_star (q : list str) (ts : list str) : Prop := quals_ok q /\ ts = $"*" :: q.
  Definition sp_array (e : str) (ts : list str) : Prop :=
    (e = $"-1" /\ ts = [$"["; $"]"]) \/ exists tx, sp_text e tx /\ ts = $"[" :: tx ++ [$"]"].
  Definition sp_default (v : option str) (ts : list str) : Prop :=
    match v with None => ts = [] | Some e => exists tx, sp_text e tx /\ ts = $"=" :: tx end.
  Definition sp_ref (r : bool) (ts : list str) : Prop := ts = if r then [$"&"] else [].
  Definition sp_init (i : init) (ts : list str) : Prop :=
    match i with
    | NoInit => ts = []
    | IVal e => exists tx, sp_text e tx /\ ts = $"=" :: tx
    | IArr l => exists tx, sep_list sp_text l tx /\ ts = $"=" :: $"{" :: tx ++ [$"}"]
    end.
  Definition sp_enumerator (x : str * option str) (ts : list str) : Prop :=
    plain_name (fst x) /\ exists td, sp_default (snd x) td /\ ts = fst x :: td.
  Definition sp_tag (n : option str) (ts : list str) : Prop :=
    match n with None => ts = [] | Some w => plain_name w /\ ts = [w] end.
  Definition sp_storage (ts : list str) : Prop := ts = [] \/ exists w, In w c_storage /\ ts = [w].

  (** Extra modifiers behind a type, with or without something in parentheses. *)
  Inductive sp_extra : list str -> Prop :=
  | sp_no_extra : sp_extra []
  | sp_bare w ts : In w mods -> sp_extra ts -> sp_extra (w :: ts)
  | sp_parens w a ts : In w mods -> group a -> sp_extra ts -> sp_extra (w :: $"(" :: a ++ $")" :: ts).
  (** A parenthesis behind a modifier belongs to the modifier: a declarator [td] with one in front
      cannot follow a type [tt] with a modifier at its end. *)
  Definition apart (tt td : list str) : Prop :=
    In (last tt []) mods -> match td with w :: _ => w <> $"(" | [] => True end.

  (** Declarators without a name, as in the parameter list of a prototype.  Those with
      parentheses are not supported. *)
  Inductive sp_abstract : gdecl -> list str -> Prop :=
  | sp_abs fq ps r ar tp tr ta :
      quals_ok fq -> seq_list sp_star ps tp -> sp_ref r tr -> seq_list sp_array ar ta ->
      sp_abstract (GNode fq None ps (GAbstract r) None ar) (fq ++ tp ++ tr ++ ta).

  Inductive sp_decl : gdecl -> list str -> Prop :=
  | sp_node fq cc ps c a ar tc tp tn ta tr :
      quals_ok fq -> sp_conv cc tc -> seq_list sp_star ps tp -> sp_core c tn ->
      sp_args a ta -> seq_list sp_array ar tr ->
      sp_decl (GNode fq cc ps c a ar) (fq ++ tc ++ tp ++ tn ++ ta ++ tr)
  with sp_core : gcore -> list str -> Prop :=
  | sp_named r n tr : sp_ref r tr -> plain_name n -> sp_core (GNamed r n) (tr ++ [n])
  | sp_center d td : sp_decl d td -> sp_core (GCenter d) ($"(" :: td ++ [$")"])
  with sp_args : option (list garg) -> list str -> Prop :=
  | sp_no_args : sp_args None []
  | sp_empty_args : sp_args (Some []) [$"("; $")"]
  | sp_some_args l tl : sep_list sp_arg l tl -> sp_args (Some l) ($"(" :: tl ++ [$")"])
  with sp_arg : garg -> list str -> Prop :=
  | sp_named_arg t d v tt td tv :
      sp_spec t tt -> sp_decl d td -> apart tt td -> sp_default v tv -> sp_arg (GArg t d v) (tt ++ td ++ tv)
  | sp_unnamed_arg t d v tt td tv :
      sp_spec t tt -> sp_abstract d td -> sp_default v tv -> sp_arg (GArg t d v) (tt ++ td ++ tv)
  with sp_spec : gspec -> list str -> Prop :=
  | sp_spec_q q n tn tm : quals_ok q -> sp_type n tn -> sp_extra tm -> sp_spec (GSpec q n) (q ++ tn ++ tm)
  with sp_type : gname -> list str -> Prop :=
  | sp_fund l : l <> [] -> Forall (fun w => In w (c_modifiers ++ base)) l -> sp_type (GWord (join [sp] l)) l
  | sp_defined n : plain_name n -> sp_type (GWord n) [n]
  | sp_comp_ref c n : plain_name n -> sp_type (GComp c (Some n) [] pack) [comp_kw c; n]
  | sp_comp_def c n l tn tl :
      sp_tag n tn -> l <> [] -> seq_list sp_line l tl ->
      sp_type (GComp c n l pack) (comp_kw c :: tn ++ $"{" :: tl ++ [$"}"])
  | sp_enum_ref n : plain_name n -> sp_type (GEnum (Some n) []) [$"enum"; n]
  | sp_enum_def n l tn tl tc :
      sp_tag n tn -> sep_list sp_enumerator l tl -> (tc = [] \/ tc = [$","]) ->
      sp_type (GEnum n l) ($"enum" :: tn ++ $"{" :: tl ++ tc ++ [$"}"])
  with sp_line : gline -> list str -> Prop :=
  | sp_member t ds i tt td ti :
      sp_spec t tt -> sp_decls ds td -> apart tt td -> sp_init i ti -> sp_line (GLine t ds i None) (tt ++ td ++ ti ++ [$";"])
  | sp_bits t ds b tt td tb :
      sp_spec t tt -> sp_decls ds td -> apart tt td -> num tb b ->
      sp_line (GLine t ds NoInit (Some b)) (tt ++ td ++ [$":"; tb; $";"])
  with sp_decls : list gdecl -> list str -> Prop :=
  | sp_no_decls : sp_decls [] []
  | sp_some_decls l tl : sep_list sp_decl l tl -> sp_decls l tl.

  Inductive sp_top : gtop -> list str -> Prop :=
  | sp_typedef t ds tt td :
      sp_spec t tt -> sep_list sp_decl ds td -> apart tt td -> sp_top (GTypedef t ds) ($"typedef" :: tt ++ td ++ [$";"])
  | sp_var t ds i ts tt td ti :
      sp_storage ts -> sp_spec t tt -> sp_decls ds td -> apart tt td -> sp_init i ti ->
      sp_top (GVar t ds i) (ts ++ tt ++ td ++ ti ++ [$";"])
  | sp_fun t d ts tt td b :
      sp_storage ts -> sp_spec t tt -> sp_decl d td -> apart tt td -> fun_body b ->
      sp_top (GFun t d) (ts ++ tt ++ td ++ [b]).
End Spelling.

(** Base types and modifiers: words of their own. *)
Definition reserved : list str :=
  [$"struct"; $"enum"; $"union"; $"__stdcall"; $"__cdecl"; $"typedef"] ++ c_qualifiers ++ c_storage.
Definition good_config (base mods : list str) : Prop :=
  Forall word base /\ Forall word mods
  /\ (forall w, In w base \/ In w mods -> ~ In w reserved) /\ (forall w, In w mods -> ~ In w (c_modifiers ++ base)).
