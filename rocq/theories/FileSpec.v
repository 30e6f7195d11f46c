(** What the properties on whole files say: C's preprocessor on macros and
    conditionals, and the tables a file leaves behind. *)
From Coq Require Import Ascii String Bool Arith ZArith List.
Import ListNotations.
From Verif Require Import PyBase PyStr PyExpr MacroModel MacroSpec TypeModel StoreModel StoreSpec PpModel PpSpec TextSpec ExprSpec DeclModel EvalModel EvalSpec.
From Verif Require Import FileModel.

(** ** C's preprocessor *)
(** The macros defined at some point: the object-like ones with their replacement lists, the
    names of the function-like ones, and the parameters and replacement lists of those that
    may be called. *)
Record cmac := { obj : str -> option str; fns : list str; fdef : str -> option (list str * str) }.
Definition no_macros : cmac := {| obj := fun _ => None; fns := []; fdef := fun _ => None |}.
Definition set_obj (m : cmac) (n : str) (b : option str) : cmac :=
  {| obj := fun w => if eqb w n then b else obj m w; fns := fns m; fdef := fdef m |}.
Definition add_fn (m : cmac) (n : str) (d : option (list str * str)) : cmac :=
  {| obj := obj m; fns := n :: fns m; fdef := fun w => if eqb w n then d else fdef m w |}.
Definition known_to (m : cmac) (w : str) : Prop := obj m w <> None \/ In w (fns m).
Definition mentioned (m : cmac) (n : str) : Prop :=
  (exists w b, obj m w = Some b /\ name_in n b) \/ (exists w ps b, fdef m w = Some (ps, b) /\ name_in n b).
(** What follows a word. *)
Definition edge (s : str) : Prop := forall c r, s = c :: r -> is_word c = false.
(** An argument, as it is written, and a value of an argument that is one argument again. *)
Definition argument (a : str) : Prop := free_of ["("; ")"; ","; dquote]%char a.
Definition single (v : str) : Prop := v <> [] /\ strip v = v /\ free_of ["("; ")"; ","]%char v.
(** [complete m s o]: C replaces the macros in [s], those in the result, and so on, and [o],
    without any macro, is left (ISO C 6.10.3).  The arguments of a call are expanded before they
    take the place of the parameters.  There is no result for recursive macros, for a function-like
    macro without its arguments, and for arguments with parentheses.  Texts are put next to each
    other without a blank.  If the macro that is called calls another one, values of arguments
    have no parentheses and commas. *)
Inductive complete (m : cmac) : str -> str -> Prop :=
| co_nil : complete m [] []
| co_char c s o : is_word c = false -> complete m s o -> complete m (c :: s) (c :: o)
| co_word w s o : word w -> edge s -> ~ known_to m w -> complete m s o -> complete m (w ++ s) (w ++ o)
| co_object w b v s o :
    word w -> edge s -> obj m w = Some b -> complete m b v -> complete m s o -> complete m (w ++ s) (v ++ o)
| co_call w ps b ws gap args vals v s o :
    word w -> edge s -> obj m w = None -> In w (fns m) -> fdef m w = Some (ps, b) -> blanks gap ->
    length args = length ps -> Forall argument args -> completes m (map strip args) vals ->
    Forall single vals \/ (forall x, name_in x b -> ~ In x (fns m)) ->
    words_of b ws -> complete m (subst (bound ps vals) ws) v -> complete m s o ->
    complete m (w ++ gap ++ "("%char :: join [","%char] args ++ ")"%char :: s) (v ++ o)
with completes (m : cmac) : list str -> list str -> Prop :=
| cos_nil : completes m [] []
| cos_cons a v l vs : complete m a v -> completes m l vs -> completes m (a :: l) (v :: vs).
(** [uses m s x]: while [s] is expanded, [x] comes from the replacement list of a macro. *)
Inductive uses (m : cmac) : str -> str -> Prop :=
| us_object s w b x : name_in w s -> obj m w = Some b -> name_in x b -> uses m s x
| us_within s w b x : name_in w s -> obj m w = Some b -> uses m b x -> uses m s x
| us_function s w ps b x : name_in w s -> fdef m w = Some (ps, b) -> name_in x b -> ~ In x ps -> uses m s x
| us_inside s w ps b x : name_in w s -> fdef m w = Some (ps, b) -> uses m b x -> uses m s x.
(** [expands m s o]: C replaces the macros in [s], which gives [o].  Either there is no string
    literal in [s], or no macro at all. *)
Inductive expands (m : cmac) : str -> str -> Prop :=
| ex_macros s o : no_literal s -> complete m s o -> expands m s o
| ex_none s :
    (forall w, name_in w s -> ~ known_to m w) -> (forall a c, s = a ++ [c] -> ~ known_to m [c]) -> expands m s s.

(** The compiled macro [d] is the text [v] with the parameters [ps]: filled in, it is [v] with the
    parameters replaced. *)
Definition fills (d : str * list nat) (ps : list str) (v : str) : Prop :=
  forall args ws, length args = length ps -> words_of v ws ->
  exists picked,
    mapM (fun i => match nth_error args i with Some x => Ok x | None => Err IndexError end) (snd d) = Ok picked
    /\ fmt (fst d) picked = Some (Some (subst (bound ps args) ws)).
(** [t] holds the macros [m], with the texts C gives for their names. *)
Definition stands_for (t : mtab) (m : cmac) : Prop :=
  (forall w, dget (macros t) w = None <-> obj m w = None)
  /\ (forall w v, dget (macros t) w = Some v -> exists b, obj m w = Some b /\ complete m b v)
  /\ (forall w, dget (fnmacros t) w <> None <-> In w (fns m))
  /\ (forall w ps b, fdef m w = Some (ps, b) ->
        ps <> [] /\ (forall p, In p ps -> ~ uses m b p /\ (name_in p b -> ~ known_to m p))
        /\ exists d v, dget (fnmacros t) w = Some d /\ complete m b v /\ fills d ps v)
  /\ names_ident t.

(** [decides m l b]: the condition of the line [l] has the truth value [b].  Conditions are
    tests for a name, and the expressions of C31. *)
Inductive decides (m : cmac) : str -> bool -> Prop :=
| de_yes x b l : ident x -> tests x b l -> known_to m x -> decides m l b
| de_no x b l : ident x -> tests x b l -> ~ known_to m x -> decides m l (negb b)
| de_expr d rest l e t f z :
    In d [$"if"; $"elif"] -> written d rest l -> grammatical e -> spells (toks e) rest ->
    stands_for t m -> readable t f e -> plain (resolve t f e) -> cvalue (resolve t f e) = Some z ->
    decides m l (negb (z =? 0)%Z).

(** Lines [#define n body], with blanks [a] and [b] around the replacement list. *)
Definition object_line (n body l : str) : Prop :=
  exists g a b, written $"define" (g ++ n ++ a ++ body ++ b) l
    /\ forallb is_space g = true /\ g <> [] /\ blanks a /\ blanks b /\ (a <> [] \/ body = [])
    /\ ident n /\ strip body = body /\ plain_line body.
(** The definition of [n], perhaps again, may be expanded at once, with the result [v]: no text so
    far mentions the name, and the result does not look like a parameter list. *)
Definition usable (m : cmac) (n body v : str) : Prop :=
  ~ In n (fns m) /\ ~ mentioned m n /\ ~ name_in n body /\ expands m body v
  /\ strip v = v /\ plain_line v /\ ~ In v (fns m)
  /\ ((forall x, v <> "("%char :: x) \/ (free_of quotes v /\ forall l r, ~ begins_with_names v l r)).
(** Lines [#define n(parameters) body].  Those without any macro in them may have any replacement
    list, but they are not called.  In the others no string literal, brace and [#] is left in the
    replacement list, and no parameter is hidden by a macro or comes from one. *)
Inductive function_line (m : cmac) (n : str) : option (list str * str) -> str -> Prop :=
| fl_uncalled g rest ps body l :
    written $"define" (g ++ n ++ rest) l -> forallb is_space g = true -> g <> [] -> ident n ->
    (exists r, rest = "("%char :: r) -> plain_line rest -> begins_with_names rest ps body ->
    (forall w, name_in w rest -> ~ known_to m w) -> (forall a c, rest = a ++ [c] -> ~ known_to m [c]) ->
    ~ In (strip body) (fns m) -> function_line m n None l
| fl_called g params ps a body b v l :
    written $"define" (g ++ n ++ "("%char :: params) l -> forallb is_space g = true -> g <> [] -> ident n ->
    name_list params ps (a ++ body ++ b) -> blanks a -> blanks b -> ~ In n ps ->
    (forall p, In p ps -> ~ known_to m p /\ ~ uses m body p) ->
    strip body = body -> free_of [dquote; "#"]%char body -> ~ name_in n body ->
    complete m body v -> strip v = v -> plain_line v -> free_of [dquote; "{"; "}"]%char v ->
    function_line m n (Some (ps, body)) l.
Definition undef_line (n l : str) : Prop :=
  exists g r, written $"undef" (g ++ n ++ r) l /\ forallb is_space g = true /\ g <> [] /\ ident n
    /\ (forall c r', r = c :: r' -> is_idchar c = false).
(** Directives without a meaning here: #include, #error, #line, and pragmas other than packing. *)
Definition idle_line (m : cmac) (l : str) : Prop :=
  (dname l <> [] /\ ~ In (dname l) [$"if"; $"ifdef"; $"ifndef"; $"elif"; $"else"; $"endif"; $"define"; $"undef"; $"pragma"])
  \/ exists r, directive l = Some ($"pragma", r) /\ ~ name_in $"pack" r
       /\ (forall w, name_in w r -> ~ known_to m w) /\ (forall a c, r = a ++ [c] -> ~ known_to m [c]).

(** [cpp m b out m']: the lines of the block [b], where the macros [m] are defined, are replaced
    by the lines [out]; afterwards the macros [m'] are defined. *)
Inductive cpp : cmac -> block -> list str -> cmac -> Prop :=
| cpp_nil m : cpp m BNil [] m
| cpp_text m l o b out m' :
    directive l = None -> expands m l o -> cpp m b out m' -> cpp m (BLine l b) (o :: out) m'
| cpp_define m l n body v b out m' :
    object_line n body l -> usable m n body v ->
    cpp (set_obj m n (Some body)) b out m' -> cpp m (BLine l b) out m'
| cpp_function m l n d b out m' :
    function_line m n d l -> obj m n = None -> ~ mentioned m n ->
    cpp (add_fn m n d) b out m' -> cpp m (BLine l b) out m'
| cpp_undef m l n b out m' :
    undef_line n l -> ~ In n (fns m) -> ~ mentioned m n ->
    cpp (set_obj m n None) b out m' -> cpp m (BLine l b) out m'
| cpp_idle m l b out m' : idle_line m l -> cpp m b out m' -> cpp m (BLine l b) out m'
| cpp_taken m l body t rest o1 m1 o2 m2 :
    opens l -> decides m l true -> cpp m body o1 m1 -> bwell_formed t -> cpp m1 rest o2 m2 ->
    cpp m (BCond l body t rest) (o1 ++ o2) m2
| cpp_skipped m l body t rest o1 m1 o2 m2 :
    opens l -> decides m l false -> well_formed body -> cpp_branches m t o1 m1 -> cpp m1 rest o2 m2 ->
    cpp m (BCond l body t rest) (o1 ++ o2) m2
with cpp_branches : cmac -> branches -> list str -> cmac -> Prop :=
| cpp_end m l : dname l = $"endif" -> cpp_branches m (REnd l) [] m
| cpp_else m l body e out m' :
    dname l = $"else" -> dname e = $"endif" -> cpp m body out m' -> cpp_branches m (RElse l body e) out m'
| cpp_elif_taken m l body t out m' :
    dname l = $"elif" -> decides m l true -> cpp m body out m' -> bwell_formed t ->
    cpp_branches m (RElif l body t) out m'
| cpp_elif_skipped m l body t out m' :
    dname l = $"elif" -> decides m l false -> well_formed body -> cpp_branches m t out m' ->
    cpp_branches m (RElif l body t) out m'.

(** ** Tables *)
(** The entries of the tables of macros are macros, each name once. *)
Definition macro_tables (s : store entry) : Prop :=
  (forall n e, In (n, e) (defs s Macros) -> exists v, e = EText v)
  /\ (forall n e, In (n, e) (defs s Fnmacros) -> exists v o, e = EFnmacro v o)
  /\ NoDup (keys (defs s Macros)).
(** The tables that do not belong to the preprocessor. *)
Definition same_declarations (s s' : store entry) : Prop :=
  forall k, k <> Macros -> k <> Fnmacros -> k <> Values -> defs s' k = defs s k.
(** The values of macros are related to their texts. *)
Definition valued (Q : str -> pobj -> Prop) (s : store entry) : Prop :=
  forall n v, defined s Macros n = Some (EText v) -> exists x, defined s Values n = Some (EVal x) /\ Q v x.

(** ** Whole files *)
(** [translated m text out m']: phases 2 to 4 of the translation of [text] by C (ISO C
    5.1.1.2), where comments are removed first: [out] are the lines that are left. *)
Definition translated (m : cmac) (text : str) (out : list str) (m' : cmac) : Prop :=
  exists ps segs b, text = parts_text ps /\ reads_as ps
    /\ without_comments ps = join continuation segs /\ segs <> []
    /\ Forall (fun s => ~ occurs continuation s) segs
    /\ split_on nl (concat segs) = lines b /\ cpp m b out m'.
(** The value of a macro with the text [v]: that of a constant expression of C; None without a
    text. *)
Definition text_value (fund mods : list str) (v : str) (x : pobj) : Prop :=
  (forall z, c_const fund mods [] v z -> exists y, x = ONum y /\ as_int y = Some z)
  /\ (forallb is_space v = true -> x = ONone).
