(** Properties C22-C28 and C33: macro expansion and macro definition. *)
From Coq Require Import Ascii String Bool Arith ZArith List.
Import ListNotations.
From Verif Require Import PyBase PyBaseFacts PyStr MacroModel MacroSpec MacroProofs MacroDefProofs.

(** Tables and settings used in the examples. *)
Definition no_fmt (t : str) (args : list str) : option str := None.
Definition t0 : mtab :=
  {| macros := [($"N", $"10"); ($"X", $"X+Y"); ($"Y", $"X")];
     fnmacros := [($"SQ", compile_fn_macro $"((a)*(a))" [$"a"])] |}.
Definition empty_tab : mtab := {| macros := []; fnmacros := [] |}.

(** C22: a line whose words are all unknown as macros is emitted as it is, provided that it
    has no string literal or that its last character is not the name of a macro. *)
Theorem c22_verbatim_partial :
  forall fo (t : mtab) (line : str),
    (forall w, name_in w line -> dget (macros t) w = None /\ dget (fnmacros t) w = None) ->
    no_literal line \/ (forall a c, line = a ++ [c] -> dget (macros t) [c] = None) ->
    expand_macros fo t line = Ok line.
Proof. exact (fun fo t line U L => eq_trans (expand_macros_ok fo t line) (f_equal Ok (xm_unknown fo t line U L))). Qed.
Print Assumptions c22_verbatim_partial.

(** Without the proviso it is false: only the words of the line matter in C, here the last
    character of [fooX] is taken for the macro [X]. *)
Theorem c22_verbatim_refuted :
  exists t line,
    (forall w, name_in w line -> dget (macros t) w = None /\ dget (fnmacros t) w = None)
    /\ expand_macros no_fmt t line <> Ok line.
Proof.
  exists {| macros := [($"X", $"7")]; fnmacros := [] |}, (dquote :: dquote :: $"fooX"). split.
  - intros w I. apply name_in_list in I. vm_compute in I. repeat (destruct I as [<-|I]; [split; reflexivity|]). destruct I.
  - vm_compute. discriminate.
Qed.
Print Assumptions c22_verbatim_refuted.

Definition line0 : str := $"int NN=f(SQX,_N1);".
Example c22_example :
  (forall w, name_in w line0 -> dget (macros t0) w = None /\ dget (fnmacros t0) w = None)
  /\ no_literal line0
  /\ expand_macros no_fmt t0 line0 = Ok line0.
Proof.
  split; [|split; [|vm_compute; reflexivity]].
  - intros w I. apply name_in_list in I. vm_compute in I.
    repeat (destruct I as [<-|I]; [split; reflexivity|]). destruct I.
  - intros a b E. assert (N : ~ In dquote line0).
    { vm_compute. intros I. repeat (destruct I as [I|I]; [discriminate|]). exact I. }
    exfalso. apply N. rewrite E. apply in_or_app. right. left. reflexivity.
Qed.

(** C23: expansion always finishes, with a text.  If no macro is function-like the text is at
    most [1 + M] times as long as the line, where [M] is the length of the longest macro. *)
Theorem c23_expansion_finishes :
  forall fo (t : mtab) (line : str), exists out, expand_macros fo t line = Ok out
    /\ forall M, fnmacros t = [] -> (forall n v, dget (macros t) n = Some v -> length v <= M) ->
                 length out <= length line * (1 + M).
Proof.
  exact (fun fo t line => ex_intro _ (xm fo t line)
           (conj (expand_macros_ok fo t line) (fun M NF B => xm_size fo t M NF B line))).
Qed.
Print Assumptions c23_expansion_finishes.

Example c23_example :
  expand_macros no_fmt t0 $"X SQ(X) SQ(SQ(Y)) SQ" = Ok $"X+Y ((X+Y)*(X+Y)) ((SQ(X)*(SQ(X))) SQ".
Proof. vm_compute. reflexivity. Qed.

(** C24: on a line without string literals and function-like macros the words that are
    object-like macros are replaced by their text and nothing else changes.  Each line has
    such a decomposition into words. *)
Theorem c24_whole_words :
  forall fo (t : mtab) (line : str),
    (exists ps, words_of line ps)
    /\ forall ps, words_of line ps -> no_literal line ->
       (forall w, In (PWord w) ps -> dget (fnmacros t) w = None \/ dget (macros t) w <> None) ->
       expand_macros fo t line = Ok (subst (replaced (macros t)) ps).
Proof.
  exact (fun fo t line => conj (words_exist line)
    (fun ps W L F => eq_trans (expand_macros_ok fo t line) (f_equal Ok (xm_line fo t line ps W L F)))).
Qed.
Print Assumptions c24_whole_words.

Example c24_example :
  words_of $"a[] N*NN+Y"
    [PWord $"a"; PGap $"[] "; PWord $"N"; PGap $"*"; PWord $"NN"; PGap $"+"; PWord $"Y"]
  /\ expand_macros no_fmt t0 $"a[] N*NN+Y" = Ok $"a[] 10*NN+X".
Proof.
  split; [|vm_compute; reflexivity]. split; [reflexivity|]. split; [cbn; exact I|].
  intros p H. repeat (destruct H as [<-|H]; [
    cbn; (split; [discriminate|]; intros c IC; vm_compute in IC;
          repeat (destruct IC as [<-|IC]; [reflexivity|]); destruct IC) |]). destruct H.
Qed.

(** C25: nothing inside the first string literal is replaced, and the text before it is
    expanded as if it stood alone. *)
Theorem c25_literals_partial :
  forall fo (t : mtab) (before after body : str) (ps : list piece),
    words_of before ps -> ~ In dquote before -> lit_body body ->
    (forall w, name_in w before -> dget (fnmacros t) w = None \/ dget (macros t) w <> None) ->
    exists before' last',
      expand_macros fo t before = Ok before'
      /\ expand_macros fo t (last1 after) = Ok last'
      /\ expand_macros fo t (before ++ dquote :: body ++ dquote :: after)
         = Ok (before' ++ dquote :: body ++ dquote :: but_last after ++ last').
Proof. exact literal_line. Qed.
Print Assumptions c25_literals_partial.

(** Text after a string literal is not expanded. *)
Theorem c25_literals_refuted :
  exists t before lit after before' after',
    expand_macros no_fmt t before = Ok before'
    /\ expand_macros no_fmt t after = Ok after'
    /\ expand_macros no_fmt t (before ++ dquote :: lit ++ dquote :: after)
       <> Ok (before' ++ dquote :: lit ++ dquote :: after').
Proof.
  exists t0, $"f(N, ", $"N", $", N);", $"f(10, ", $", 10);". repeat split; vm_compute; congruence.
Qed.
Print Assumptions c25_literals_refuted.

Example c25_example_body : lit_body ($"N \" ++ dquote :: $"N").
Proof. repeat (first [apply lb_nil | apply lb_char; [discriminate|discriminate|] | apply lb_esc; [discriminate|]]). Qed.
Example c25_example_line :
  expand_macros no_fmt t0 ($"g(N, " ++ dquote :: $"N \" ++ dquote :: $"N" ++ dquote :: $");")
  = Ok ($"g(10, " ++ dquote :: $"N \" ++ dquote :: $"N" ++ dquote :: $");").
Proof. vm_compute. reflexivity. Qed.

(** C26: after [#define NAME(params) body], whose text mentions no macro defined before, a
    call with as many arguments gives the body in which each parameter outside of string
    literals is replaced by its (expanded) argument, all at once.  Proviso: no braces in the
    body. *)
Theorem c26_simultaneous_partial :
  forall fo (t : mtab) (name : str) (params : list str) (body : str) (ps : list piece)
         (args args' : list str) (gap rest rest' : str),
    let rhs := "("%char :: join [","%char] params ++ ")"%char :: body in
    let t' := define t name rhs in
    ident name -> params <> [] -> (forall p, In p params -> ident p) -> plain_line body ->
    dget (macros t) name = None -> dget (fnmacros t) (strip body) = None ->
    expand_macros fo t rhs = Ok rhs ->
    code_of (strip body) ps -> free_of ["{"; "}"]%char (strip body) ->
    blanks gap -> length args = length params ->
    (forall a, In a args -> free_of ["("; ")"; ","]%char a) ->
    Forall2 (fun a a' => expand_macros fo t' (strip a) = Ok a') args args' ->
    expand_macros fo t' rest = Ok rest' ->
    define_line fo t name rhs = Ok t'
    /\ expand_macros fo t' (name ++ gap ++ "("%char :: join [","%char] args ++ ")"%char :: rest)
       = Ok (subst (bound params args') ps ++ rest').
Proof. exact fn_call. Qed.
Print Assumptions c26_simultaneous_partial.

(** With braces in the body it is false: they are format fields. *)
Theorem c26_braces_refuted :
  exists body arg,
    let t := define empty_tab $"F" ($"(x)" ++ body) in
    code_of body [PGap $"{"; PWord $"x"; PGap $"}"]
    /\ expand_macros no_fmt t ($"F(" ++ arg ++ $")")
       <> Ok (subst (bound [$"x"] [arg]) [PGap $"{"; PWord $"x"; PGap $"}"]).
Proof.
  exists $"{x}", $"1". split.
  - split; [reflexivity|]. split; [exact I|]. intros p H. destruct H as [<-|[<-|[<-|[]]]].
    + split; [discriminate|]. split; [intros c [<-|[]]; reflexivity|intros [E|[]]; discriminate].
    + split; [discriminate|]. intros c [<-|[]]; reflexivity.
    + split; [discriminate|]. split; [intros c [<-|[]]; reflexivity|intros [E|[]]; discriminate].
  - vm_compute. discriminate.
Qed.
Print Assumptions c26_braces_refuted.

Example c26_example :
  let rhs := "("%char :: join [","%char] [$"a"; $"b"] ++ ")"%char :: $" a*b+ab " ++ [dquote; "a"%char; dquote] in
  let t := define t0 $"F" rhs in
  expand_macros no_fmt t0 rhs = Ok rhs
  /\ code_of (strip ($" a*b+ab " ++ [dquote; "a"%char; dquote]))
       [PWord $"a"; PGap $"*"; PWord $"b"; PGap $"+"; PWord $"ab"; PGap $" "; PStr [dquote; "a"%char; dquote]]
  /\ expand_macros no_fmt t $"F(b, N);" = Ok ($"b*10+ab " ++ [dquote; "a"%char; dquote] ++ $";").
Proof.
  split; [vm_compute; reflexivity|]. split; [|vm_compute; reflexivity].
  split; [vm_compute; reflexivity|]. split; [cbn; exact I|].
  intros p H.
  destruct H as [<-|[<-|[<-|[<-|[<-|[<-|[<-|[]]]]]]]];
    try (split; [discriminate|]; intros c IC; vm_compute in IC;
         repeat (destruct IC as [<-|IC]; [reflexivity|]); destruct IC);
    try (split; [discriminate|]; split; [intros c [<-|[]]; reflexivity|intros [E|[]]; discriminate]).
  exists $"a". split; [reflexivity|]. apply lb_char; [discriminate|discriminate|constructor].
Qed.

(** C27: a use of a function-like macro without a closing parenthesis, without an opening
    parenthesis before it, or with too few arguments for a parameter of the body, is kept;
    expansion goes on after the name. *)
Theorem c27_faulty_calls_partial :
  forall fo (t : mtab) (name : str) (params : list str) (body : str) (ps : list piece) (r : str),
    let rhs := "("%char :: join [","%char] params ++ ")"%char :: body in
    let t' := define t name rhs in
    ident name -> params <> [] -> (forall p, In p params -> ident p) -> NoDup params -> plain_line body ->
    dget (macros t) name = None -> dget (fnmacros t) (strip body) = None ->
    expand_macros fo t rhs = Ok rhs ->
    code_of (strip body) ps ->
    (forall c r', r = c :: r' -> is_word c = false) ->
    (~ In ")"%char r)
    \/ (exists a b, r = a ++ ")"%char :: b /\ free_of ["("; ")"]%char a)
    \/ (exists gap args rest i w,
          r = gap ++ "("%char :: join [","%char] args ++ ")"%char :: rest
          /\ blanks gap /\ args <> [] /\ (forall a, In a args -> free_of ["("; ")"; ","]%char a)
          /\ length args <= i /\ nth_error params i = Some w /\ In (PWord w) ps) ->
    exists r', expand_macros fo t' r = Ok r' /\ expand_macros fo t' (name ++ r) = Ok (name ++ r').
Proof. exact faulty_line. Qed.
Print Assumptions c27_faulty_calls_partial.

(** Surplus arguments are dropped. *)
Theorem c27_surplus_arguments_refuted :
  exists line, expand_macros no_fmt t0 line = Ok $"((1)*(1))" /\ line = $"SQ(1, 2)".
Proof. exists $"SQ(1, 2)". split; [vm_compute|]; reflexivity. Qed.
Print Assumptions c27_surplus_arguments_refuted.
(** A name that is not followed by a parenthesis is taken for a call if one follows
    anywhere on the line; the text in between is lost. *)
Theorem c27_no_parenthesis_refuted :
  exists line, line = $"p = SQ; q = f(2);" /\ expand_macros no_fmt t0 line = Ok $"p = ((2)*(2));".
Proof. exists $"p = SQ; q = f(2);". split; [|vm_compute]; reflexivity. Qed.
Print Assumptions c27_no_parenthesis_refuted.

Example c27_example :
  expand_macros no_fmt t0 $"a = SQ; N)" = Ok $"a = SQ; 10)"
  /\ expand_macros no_fmt t0 $"a = SQ(N" = Ok $"a = SQ(10"
  /\ expand_macros no_fmt (define t0 $"F" $"(x,y)y") $"F(N);" = Ok $"F(10);".
Proof. vm_compute. repeat split. Qed.

(** C28: after definitions none of which mentions a name defined on the same or a later line,
    each name expands to what C's preprocessor gives. *)
Theorem c28_late_expansion_partial :
  forall fo (defs : list (str * str)),
    NoDup (map fst defs) -> (forall n rest, In (n, rest) defs -> ident n /\ simple_body rest) ->
    defined_first defs ->
    exists t, define_lines fo {| macros := []; fnmacros := [] |} defs = Ok t
      /\ forall n, In n (map fst defs) ->
         exists o, cexp (bodies defs) [] n o /\ expand_macros fo t n = Ok o.
Proof. exact define_first. Qed.
Print Assumptions c28_late_expansion_partial.

(** In the other order of definition the result differs from C's. *)
Theorem c28_late_expansion_refuted :
  exists defs t o,
    define_lines no_fmt empty_tab defs = Ok t
    /\ cexp (bodies defs) [] $"A" o /\ expand_macros no_fmt t $"A" <> Ok o.
Proof.
  exists [($"A", $" B"); ($"B", $" 1")].
  eexists. exists (concat [concat [concat [$"1"]]]). split; [vm_compute; reflexivity|]. split.
  - assert (W : forall c, is_word c = true -> words_of [c] [PWord [c]]).
    { intros c E. split; [reflexivity|]. split; [exact I|]. intros p [<-|[]]. split; [discriminate|].
      intros d [<-|[]]. exact E. }
    apply (cexp_text _ _ _ [PWord $"A"]); [apply W; reflexivity|].
    apply (cexps_macro _ _ _ $"B"); [reflexivity|intros []| |constructor].
    apply (cexp_text _ _ _ [PWord $"B"]); [apply W; reflexivity|].
    apply (cexps_macro _ _ _ $"1"); [reflexivity|intros [E|[]]; discriminate| |constructor].
    apply (cexp_text _ _ _ [PWord $"1"]); [apply W; reflexivity|].
    apply cexps_plain; [left; reflexivity|constructor].
  - vm_compute. discriminate.
Qed.
Print Assumptions c28_late_expansion_refuted.

Definition defs0 : list (str * str) := [($"B", $" 1 + c"); ($"A", $" [B, B2] ")].
Example c28_example :
  NoDup (map fst defs0) /\ (forall n rest, In (n, rest) defs0 -> ident n /\ simple_body rest)
  /\ defined_first defs0
  /\ exists t, define_lines no_fmt empty_tab defs0 = Ok t
               /\ expand_macros no_fmt t $"A" = Ok $"[1 + c, B2]".
Proof.
  split; [|split; [|split]].
  - repeat constructor; cbn; intuition discriminate.
  - intros n rest [E|[E|[]]]; injection E as <- <-; (split; [split; [reflexivity|intros d []]|]);
      (split; [|vm_compute; discriminate]); intros c IC IR; vm_compute in IC, IR;
      repeat (destruct IC as [<-|IC]; [repeat (destruct IR as [IR|IR]; [discriminate|]); destruct IR|]); destruct IC.
  - intros before n rest after ps w E W IW. pose proof (words_of_name_in _ _ _ W IW) as NI. clear W IW.
    apply name_in_list in NI.
    destruct before as [|? before]; [|destruct before as [|? before]; [|destruct before; discriminate E]].
    + injection E as <- <- <-. vm_compute in NI. cbn [map fst In].
      repeat (destruct NI as [<-|NI]; [intuition discriminate|]). destruct NI.
    + injection E as _ <- <- <-. vm_compute in NI. cbn [map fst In].
      repeat (destruct NI as [<-|NI]; [intuition discriminate|]). destruct NI.
  - eexists. split; [vm_compute; reflexivity|]. vm_compute. reflexivity.
Qed.

(** C33: a definition whose expanded text [r] is on one line, without tabs, and either does
    not begin with an opening parenthesis (after blanks), or has no quotes and does not begin with a parenthesised list of
    names, makes the name object-like, with the stripped text; if it begins with such a list
    the name becomes function-like (unless the remaining text is itself the name of a
    function-like macro).  Nothing else changes. *)
Theorem c33_definitions_partial :
  forall fo (t : mtab) (name rest r : str),
    ident name -> expand_macros fo t rest = Ok r -> plain_line r ->
    (((forall b x, blanks b -> r <> b ++ "("%char :: x) \/ (free_of quotes r /\ forall l b, ~ begins_with_names r l b)) ->
     dget (fnmacros t) (strip r) = None ->
     exists t', define_line fo t name rest = Ok t'
       /\ dget (macros t') name = Some (strip r)
       /\ (forall n, n <> name -> dget (macros t') n = dget (macros t) n)
       /\ fnmacros t' = fnmacros t)
    /\ (forall l b, begins_with_names r l b -> dget (fnmacros t) (strip b) = None ->
        exists t', define_line fo t name rest = Ok t'
          /\ macros t' = macros t
          /\ (exists d, dget (fnmacros t') name = Some d)
          /\ forall n, n <> name -> dget (fnmacros t') n = dget (fnmacros t) n).
Proof. exact definition_line. Qed.
Print Assumptions c33_definitions_partial.

(** In C a parenthesis that does not follow the name immediately belongs to the text. *)
Theorem c33_space_before_parenthesis_refuted :
  exists t, define_line no_fmt empty_tab $"X" $" (Y)" = Ok t
    /\ dget (macros t) $"X" = None /\ dget (fnmacros t) $"X" <> None.
Proof. eexists. split; [vm_compute; reflexivity|]. split; [reflexivity|discriminate]. Qed.
Print Assumptions c33_space_before_parenthesis_refuted.
(** A string literal before the closing parenthesis is skipped: this is no list of names. *)
Theorem c33_literal_in_parentheses_refuted :
  exists t, define_line no_fmt empty_tab $"X" ($" (Y " ++ dquote :: $"s" ++ dquote :: $")") = Ok t
    /\ dget (macros t) $"X" = None /\ dget (fnmacros t) $"X" <> None.
Proof. eexists. split; [vm_compute; reflexivity|]. split; [reflexivity|discriminate]. Qed.
Print Assumptions c33_literal_in_parentheses_refuted.
(** Parameters that are macros are replaced before the definition is read. *)
Theorem c33_parameter_expanded_refuted :
  exists t, define_lines no_fmt empty_tab [($"x", $" 3"); ($"F", $"(x) x+1")] = Ok t
    /\ dget (fnmacros t) $"F" = None /\ dget (macros t) $"F" = Some $"(3) 3+1".
Proof. eexists. split; [vm_compute; reflexivity|]. split; reflexivity. Qed.
Print Assumptions c33_parameter_expanded_refuted.

Example c33_example :
  plain_line $" (10 + 1)*2" /\ free_of quotes $" (10 + 1)*2"
  /\ expand_macros no_fmt t0 $" (N + 1)*2" = Ok $" (10 + 1)*2"
  /\ (exists t, define_line no_fmt t0 $"M" $" (N + 1)*2" = Ok t /\ dget (macros t) $"M" = Some $"(10 + 1)*2")
  /\ begins_with_names $"(a, b) a-b" [$"a"; $"b"] $" a-b".
Proof.
  assert (FF : forall cs s, forallb (fun c => negb (existsb (fun d => cheq c d) s)) cs = true -> free_of cs s).
  { intros cs s F c IC IS. rewrite forallb_forall in F. specialize (F c IC). apply negb_true_iff in F.
    assert (T : existsb (fun d => cheq c d) s = true).
    { apply existsb_exists. exists c. split; [exact IS|]. apply PyStrFacts.cheq_refl. }
    congruence. }
  split; [apply FF; vm_compute; reflexivity|]. split; [apply FF; vm_compute; reflexivity|].
  split; [vm_compute; reflexivity|]. split; [eexists; split; vm_compute; reflexivity|].
  exists [], $"a, b) a-b". split; [reflexivity|]. split; [intros c []|].
  apply (nl_more [] $"a" [] $" b) a-b"); [intros c []|split; [reflexivity|intros d []]|intros c []|].
  apply (nl_last [sp] $"b" [] $" a-b"); [intros c [<-|[]]; reflexivity|split; [reflexivity|intros d []]|intros c []].
Qed.
