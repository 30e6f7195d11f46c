(** Properties C19-C21, C29-C32 and C34-C38: the preprocessor. *)
From Coq Require Import Ascii String Bool Arith ZArith Lia List.
Import ListNotations.
From Verif Require Import PyBase PyBaseFacts PyStr MacroModel MacroSpec MacroDefProofs PropsMacro.
From Verif Require Import PyExpr PpModel PpSpec CondProofs ExprSpec ExprText PpProofs TextSpec TextProofs PackProofs PpExamples.

(** C19: processing the lines of a properly nested file has the effect of processing, in place
    of each conditional, the first branch that holds under the macros of that point. *)
Theorem c19_selected_branch :
  forall fo ext (b : block) (t : mtab), well_formed b ->
    same_result (run_lines fo ext 0 (start t) (lines b)) (exec fo ext (start t) b).
Proof. exact refine_file. Qed.
Print Assumptions c19_selected_branch.
(** The directives that delimit the conditionals above are those that are written: blanks, the sharp,
    blanks, the letters of the directive, and then no letter. *)
Theorem c19_directives :
  forall l d, d <> [] -> (dname l = d <-> forallb is_alpha d = true /\ exists rest, written d rest l).
Proof. exact dname_iff. Qed.
Print Assumptions c19_directives.
(** And the name of a definition is the identifier behind the blanks, to its end. *)
Theorem c19_names :
  forall r n r', macro_name r = Some (n, r') <->
  ident n /\ (exists g, forallb is_space g = true /\ r = g ++ n ++ r') /\ forall c x, r' = c :: x -> is_idchar c = false.
Proof. exact macro_name_iff. Qed.
Print Assumptions c19_names.

Definition file0 : block :=
  BLine $"#define A 1"
    (BCond $"#if A > 2" (BLine $"one" BNil)
       (RElif $" # elif A" (BLine $"two A" (BCond $"#ifndef B" (BLine $"#define B 7" BNil) (REnd $"#endif") (BLine $"B" BNil)))
          (RElif $"#elif 1" (BLine $"three" BNil) (RElse $"#else" (BLine $"#pragma pack(1)" BNil) $"#endif")))
       (BLine $"end B" BNil)).
Example c19_example :
  well_formed file0 /\ shown (run_lines no_fmt no_ext 0 (start empty_tab) (lines file0)) = Some [$"two 1"; $"7"; $"end 7"].
Proof.
  split; [|vm_compute; reflexivity]. cbn [well_formed bwell_formed file0].
  assert (NC : forall l, ~ In (dname l) [$"if"; $"ifdef"; $"ifndef"; $"elif"; $"else"; $"endif"] ->
              (forall d r, directive l = Some (d, r) -> macro_name r <> None \/ ~ In d [$"define"; $"undef"]) ->
              ~ conditional l /\ ~ nameless l).
  { intros l A B. split; [exact A|]. intros (d & r & D & I & M). destruct (B d r D); tauto. }
  assert (OP : forall l, In (dname l) [$"if"; $"ifdef"; $"ifndef"] -> opens l) by auto.
  repeat split; try reflexivity; try (apply OP; vm_compute; tauto);
    try (apply NC; [no_in|intros d r D; vm_compute in D; try discriminate D; injection D as <- <-; try (left; vm_compute; discriminate); right; no_in]).
Qed.

(** C20: a region that is not selected, balanced and where each definition or removal has a
    name, adds nothing but blank lines and does not fail, whatever its text. *)
Theorem c20_skipped_inert_partial :
  forall fo ext i (s : pst) (l : str) (region : list str) (e : str),
    active s = true -> all_true (ift s) = true -> opens l -> holds fo ext (tab s) l = false ->
    balanced region -> (forall x, In x region -> ~ nameless x) -> dname e = $"endif" ->
    exists s', run_lines fo ext i s (l :: region ++ [e]) = Ok s' /\ quiet s s'.
Proof. exact skip_region. Qed.
Print Assumptions c20_skipped_inert_partial.

(** In general it is false: a definition without a name in a skipped region raises. *)
Theorem c20_skipped_inert_refuted :
  exists l region e,
    opens l /\ holds no_fmt no_ext empty_tab l = false /\ balanced region /\ dname e = $"endif"
    /\ run_lines no_fmt no_ext 0 (start empty_tab) (l :: region ++ [e]) = Err AttributeError.
Proof.
  exists $"#if 0", [$"#define"], $"#endif". repeat split; try (vm_compute; reflexivity). left. reflexivity.
Qed.
Print Assumptions c20_skipped_inert_refuted.

Definition region0 : list str :=
  [$"#define X 1"; $"#if X"; $"#undef"  ++ $" Y"; $"#else"; $"#error (("; $"#endif"; $"#pragma pack(pop)"; $"'unbalanced"].
Example c20_example :
  opens $"#ifdef NOTHING" /\ holds no_fmt no_ext empty_tab $"#ifdef NOTHING" = false
  /\ balanced region0 /\ (forall x, In x region0 -> ~ nameless x).
Proof.
  repeat split; try (vm_compute; reflexivity); [right; left; reflexivity|].
  intros x I (d & r & D & J & M). vm_compute in I.
  repeat (destruct I as [<-|I]; [vm_compute in D; try discriminate D; injection D as <- <-; vm_compute in M, J;
    first [discriminate M | repeat (destruct J as [J|J]; [discriminate J|]); exact J]|]). exact I.
Qed.

(** C21: lines with an #elif, #else or #endif without #if raise; others raise only because of
    a definition without a name or of a pragma. *)
Theorem c21_unbalanced_detected :
  forall fo ext (t : mtab) (ls : list str),
    (unmatched ls -> exists e, run_lines fo ext 0 (start t) ls = Err e)
    /\ (~ unmatched ls -> forall e, run_lines fo ext 0 (start t) ls = Err e ->
        exists l, In l ls /\ (nameless l \/ dname l = $"pragma")).
Proof. exact nesting_file. Qed.
Print Assumptions c21_unbalanced_detected.
Example c21_example :
  unmatched [$"#ifdef A"; $"#else"; $"#endif"; $"int x;"; $"#else"]
  /\ ~ unmatched [$"#if 0"; $"#if 1"; $"#endif"; $"#elif 1"]
  /\ shown (run_lines no_fmt no_ext 0 (start empty_tab) [$"#if 1"; $"int x;"]) = Some [$"int x;"].
Proof. repeat split; try (vm_compute; reflexivity). vm_compute. discriminate. Qed.

(** C29: #ifdef X, #ifndef X, #if defined X, #if defined(X) and their negations process the
    lines up to #endif exactly if X is an object-like or function-like macro, or is none. *)
Theorem c29_defined_tests :
  forall fo ext (t : mtab) (x : str) (b : bool) (l : str) (body : block) (e : str),
    names_ident t -> ident x -> tests x b l -> well_formed body -> dname e = $"endif" ->
    (((In x (keys (macros t)) \/ In x (keys (fnmacros t))) <-> b = true) ->
       same_result (run_lines fo ext 0 (start t) (l :: lines body ++ [e])) (run_lines fo ext 0 (start t) (lines body)))
    /\ (((In x (keys (macros t)) \/ In x (keys (fnmacros t))) <-> b = false) ->
       same_result (run_lines fo ext 0 (start t) (l :: lines body ++ [e])) (Ok (start t))).
Proof. exact tests_region. Qed.
Print Assumptions c29_defined_tests.
(** The hypothesis on macro names is met after any file: definitions give names to macros that
    are identifiers. *)
Theorem c29_names_are_identifiers :
  forall fo ext (t : mtab) (ls : list str) (s : pst),
    names_ident t -> run_lines fo ext 0 (start t) ls = Ok s -> names_ident (tab s).
Proof. exact (fun fo ext t ls s NI R => run_names fo ext ls 0 (start t) s R NI). Qed.
Print Assumptions c29_names_are_identifiers.
Example c29_example :
  names_ident t0 /\ ident $"SQ" /\ tests $"SQ" true $" # ifdef SQ " /\ tests $"SQ" false $"#if !defined ( SQ )"
  /\ shown (run_lines no_fmt no_ext 0 (start t0) ([$"#ifdef SQ"; $"yes"; $"#endif"])) = Some [$"yes"]
  /\ shown (run_lines no_fmt no_ext 0 (start t0) ([$"#if !defined ( SQ )"; $"yes"; $"#endif"])) = Some [].
Proof.
  split; [apply names_identb_ok; reflexivity|].
  - split; [apply identb_ok; reflexivity|]. split; [|split; [|split; vm_compute; reflexivity]].
    + apply (ts_ifdef _ $" " $" "); try gap_ok; [discriminate|]. exists $" ", $" ". repeat split; try reflexivity.
      intros c r E. injection E as <- _. reflexivity.
    + apply (ts_ifnot _ $" !defined ( SQ )").
      * change $" !defined ( SQ )" with ($" " ++ $"!" ++ $"defined ( SQ )"). apply spells_tok; [gap_ok|constructor| |].
        { intros c r E. injection E as <- _. discriminate. }
        change $"defined ( SQ )" with ([] ++ ($"defined" ++ $" " ++ "("%char :: $" " ++ $"SQ" ++ $" " ++ [")"%char]) ++ []).
        apply spells_tok; [gap_ok| |intros c r E; discriminate|apply spells_end; gap_ok].
        apply tt_defined_paren; [apply identb_ok; reflexivity|gap_ok|gap_ok|gap_ok].
      * exists [], []. repeat split; try reflexivity. intros c r E. injection E as <- _. reflexivity.
Qed.

(** C30: after an active #undef of a name that is no function-like macro, and as long as no
    line defines it, it is no macro: tests say so and it is not replaced. *)
Theorem c30_undef_partial :
  forall fo ext i (s : pst) (x r l : str) (ls : list str) (s' : pst),
    active s = true -> ident x -> (forall c r', r = c :: r' -> is_idchar c = false) ->
    (exists g, forallb is_space g = true /\ g <> [] /\ written $"undef" (g ++ x ++ r) l) ->
    (forall l', In l' ls -> ~ defines x l') ->
    NoDup (keys (macros (tab s))) -> dget (fnmacros (tab s)) x = None -> names_ident (tab s) ->
    run_lines fo ext i s (l :: ls) = Ok s' ->
    (forall b l', tests x b l' -> holds fo ext (tab s') l' = negb b)
    /\ forall line ps, words_of line ps -> no_literal line ->
         (forall w, In (PWord w) ps -> dget (fnmacros (tab s')) w = None) ->
         expand_macros fo (tab s') line
         = Ok (subst (fun w => if eqb w x then x else replaced (macros (tab s')) w) ps).
Proof. exact undef_effect. Qed.
Print Assumptions c30_undef_partial.
(** It is false of function-like macros. *)
Theorem c30_undef_refuted :
  exists x l line, defines x l
    /\ shown (run_lines no_fmt no_ext 0 (start empty_tab) [l; $"#undef " ++ x; $"#ifdef " ++ x; line; $"#endif"])
       <> Some []
    /\ shown (run_lines no_fmt no_ext 0 (start empty_tab) [l; $"#undef " ++ x; line]) <> Some [line].
Proof.
  exists $"F", $"#define F(x) (x+1)", $"F(2)". split; [|split; vm_compute; discriminate].
  exists $" F(x) (x+1)", $"(x) (x+1)". split; vm_compute; reflexivity.
Qed.
Print Assumptions c30_undef_refuted.
Example c30_example :
  (exists g, forallb is_space g = true /\ g <> [] /\ written $"undef" (g ++ $"N" ++ []) $"#undef  N")
  /\ NoDup (keys (macros t0)) /\ dget (fnmacros t0) $"N" = None
  /\ shown (run_lines no_fmt no_ext 0 (start t0)
             [$"N"; $"#undef  N"; $"#define M N"; $"#ifdef N"; $"no"; $"#endif"; $"N M"; $"#define N 5"; $"N"])
     = Some [$"10"; $"N N"; $"5"].
Proof.
  split; [|split; [|split; vm_compute; reflexivity]].
  - exists $"  ". repeat split; try discriminate. exists [], []. repeat split.
    intros c r E. injection E as <- _. reflexivity.
  - vm_compute. repeat constructor; cbn; intros I; repeat (destruct I as [I|I]; [discriminate I|]); exact I.
Qed.

(** C31: an #if line whose text spells a C expression [e] processes the lines up to #endif
    exactly if the C value is not zero.  Proved for expressions where Python agrees ([plain]:
    no division, no !=, no % of negative numbers, ! and comparisons as operands only in
    parentheses, && and || not as operands), with decimal numbers without suffix; macros that
    occur must have a number or a text in parentheses as their text ([readable]). *)
Theorem c31_if_value_partial :
  forall fo ext (t : mtab) (m : str -> cx) (e : cx) (rest : str) (z : Z) (l : str) (body : block) (el : str),
    names_ident t -> grammatical e -> spells (toks e) rest -> readable t m e ->
    plain (resolve t m e) -> cvalue (resolve t m e) = Some z ->
    written $"if" rest l -> well_formed body -> dname el = $"endif" ->
    same_result (run_lines fo ext 0 (start t) (l :: lines body ++ [el]))
                (if (z =? 0)%Z then Ok (start t) else run_lines fo ext 0 (start t) (lines body)).
Proof. exact if_region. Qed.
Print Assumptions c31_if_value_partial.
Definition t1 : mtab :=
  {| macros := [($"VER", $"0302"); ($"MINOR", $"( 3 + LEVEL )"); ($"OLD", $"12")]; fnmacros := fnmacros t0 |}.
Definition m1 (w : str) : cx :=
  if eqb w $"MINOR" then CPar (CBin OAdd (CNum $"3") (CId $"LEVEL")) else CNum $"12".
(** !defined FOO && OLD * 2 < 7 << ( 1 | MINOR ) || UNKNOWN *)
Definition e1 : cx :=
  COr (CAnd (CNot (CDefined $"FOO"))
            (CRel CLt (CBin OMul (CId $"OLD") (CNum $"2"))
                      (CBin OShl (CNum $"7") (CPar (CBin OOr (CNum $"1") (CId $"MINOR"))))))
      (CId $"UNKNOWN").
Example c31_example :
  names_ident t1 /\ grammatical e1 /\ spells (toks e1) (canon (toks e1)) /\ readable t1 m1 e1
  /\ plain (resolve t1 m1 e1) /\ cvalue (resolve t1 m1 e1) = Some 1%Z
  /\ written $"if" (canon (toks e1)) ($"#if" ++ canon (toks e1))
  /\ shown (run_lines no_fmt no_ext 0 (start t1) [$"#if" ++ canon (toks e1); $"yes"; $"#endif"]) = Some [$"yes"].
Proof.
  split; [apply names_identb_ok; reflexivity|]. split; [cbn; lia|]. split; [apply canon_spells; reflexivity|].
  split.
  { intros w I. vm_compute in I.
    repeat (destruct I as [<-|I]; [split; [reflexivity|]; intros v D; vm_compute in D; try discriminate D; injection D as <-|]);
      [| |destruct I].
    - split; [split; [exact Logic.I|intros w J; vm_compute in J; destruct J as [J|[]]; discriminate]|].
      split; [|split; [reflexivity|intros w []]].
      change ["1"%char; "2"%char] with ([] ++ $"12" ++ []).
      apply spells_tok; [gap_ok|constructor; split; reflexivity|intros c r E; discriminate|apply spells_end; gap_ok].
    - split; [split; [cbn; lia|intros w J; vm_compute in J; repeat (destruct J as [J|J]; [discriminate J|]); exact J]|].
      split; [|split; [reflexivity|intros w J; vm_compute in J; destruct J as [<-|[]]; split; reflexivity]].
      change (spells (toks (m1 $"MINOR")) ([] ++ $"(" ++ canon [TNum $"3"; TBin OAdd; TId $"LEVEL"; TClose])).
      apply spells_tok; [gap_ok|constructor|intros c r E; exact Logic.I|apply canon_spells; reflexivity]. }
  split; [cbn; repeat split; try discriminate; auto|]. split; [reflexivity|]. split; [apply written_if; discriminate|].
  vm_compute. reflexivity.
Qed.

(** It is false in general.  The witness is an inequality; other ones are below. *)
Definition disagrees (e : cx) (z : Z) : Prop :=
  grammatical e /\ spells (toks e) (canon (toks e)) /\ cvalue e = Some z
  /\ forall ext, shown (run_lines no_fmt ext 0 (start empty_tab) [$"#if" ++ canon (toks e); $"yes"; $"#endif"])
                 = Some (if (z =? 0)%Z then [$"yes"] else []).
Theorem c31_if_value_refuted : exists e z, disagrees e z.
Proof.
  exists (CRel CNe (CNum $"1") (CNum $"2")), 1%Z. split; [cbn; lia|]. split; [apply canon_spells; reflexivity|].
  split; [reflexivity|]. intros ext. vm_compute. reflexivity.
Qed.
Print Assumptions c31_if_value_refuted.
(** 1 / 2 ; !0 == 2 ; (2 || 0) == 1 ; -7 % 3 == 0 - 1 *)
Theorem c31_if_value_other_refuted :
  disagrees (CBin ODiv (CNum $"1") (CNum $"2")) 0
  /\ disagrees (CRel CEq (CNot (CNum $"0")) (CNum $"2")) 0
  /\ disagrees (CRel CEq (CPar (COr (CNum $"2") (CNum $"0"))) (CNum $"1")) 1
  /\ disagrees (CRel CEq (CBin OMod (CNeg (CNum $"7")) (CNum $"3")) (CBin OSub (CNum $"0") (CNum $"1"))) 1.
Proof.
  repeat (match goal with |- _ /\ _ => split | |- disagrees _ _ => split end);
    try (cbn; lia); try (apply canon_spells; reflexivity); try reflexivity; intros ext; vm_compute; reflexivity.
Qed.
Print Assumptions c31_if_value_other_refuted.
(** Hexadecimal numbers and suffixes: the letters are taken for an identifier, which is replaced
    by the digit 0, so that 0x10 is read as 00 and 5L as 50. *)
Theorem c31_hexadecimal_refuted :
  forall ext, shown (run_lines no_fmt ext 0 (start empty_tab) [$"#if 0x10"; $"yes"; $"#endif"]) = Some []
    /\ shown (run_lines no_fmt ext 0 (start empty_tab) [$"#if 5L == 5"; $"yes"; $"#endif"]) = Some [].
Proof. intros ext. split; vm_compute; reflexivity. Qed.
Print Assumptions c31_hexadecimal_refuted.

(** C32: an #if line never raises, nor does an #elif line in a conditional; a condition whose
    evaluation raises is false: the lines up to #endif are not processed. *)
Theorem c32_conditions_never_raise :
  forall fo ext i (s : pst) (l : str),
    (opens l -> exists s', line_step fo ext i s l = Ok s')
    /\ (dname l = $"elif" -> length (ift s) = S (length (ifh s)) -> ifh s <> [] ->
        exists s', line_step fo ext i s l = Ok s').
Proof. exact (fun fo ext i s l => conj (if_ok fo ext i s l) (elif_ok fo ext i s l)). Qed.
Print Assumptions c32_conditions_never_raise.
Theorem c32_raising_is_false :
  forall fo ext (t : mtab) (l rest : str) (body : block) (e c : str) (x : exc),
    written $"if" rest l -> condition fo t rest = Ok c -> py_eval (pp_translate c) = Some (Err x) ->
    well_formed body -> dname e = $"endif" ->
    same_result (run_lines fo ext 0 (start t) (l :: lines body ++ [e])) (Ok (start t)).
Proof. exact raising_region. Qed.
Print Assumptions c32_raising_is_false.
Example c32_example :
  written $"if" $" N != UNDEFINED" $"#if N != UNDEFINED"
  /\ (exists c x, condition no_fmt t0 $" 7 % (X - X)" = Ok c /\ py_eval (pp_translate c) = Some (Err x))
  /\ (exists c x, condition no_fmt t0 $" N != UNDEFINED" = Ok c /\ py_eval (pp_translate c) = Some (Err x))
  /\ shown (run_lines no_fmt no_ext 0 (start t0) [$"#if 1 % NONE"; $"yes"; $"#else"; $"no"; $"#endif"]) = Some [$"no"].
Proof.
  split; [|split; [|split]].
  - exists [], []. repeat split. intros c r E. injection E as <- _. reflexivity.
  - eexists. eexists. split; [vm_compute; reflexivity|vm_compute; reflexivity].
  - eexists. eexists. split; [vm_compute; reflexivity|vm_compute; reflexivity].
  - vm_compute. reflexivity.
Qed.

(** C34: after pack pragmas that are [disciplined], the packing in force is the documented
    one. *)
Theorem c34_pack_stack_partial :
  forall fo ext (t : mtab) (ls : list str) (os : list pop),
    history t ls os -> disciplined initial None os ->
    exists s', run_lines fo ext 0 (start t) ls = Ok s' /\ in_force s' = current (fold_left documented os initial).
Proof. exact pack_history. Qed.
Print Assumptions c34_pack_stack_partial.
(** pack(4), push 8, pop: the default instead of 4; push without a number: the default instead
    of 4; pops of two records by the first of two equal identifiers. *)
Theorem c34_pack_stack_refuted :
  exists ls os s', history empty_tab ls os /\ run_lines no_fmt no_ext 0 (start empty_tab) ls = Ok s'
    /\ in_force s' <> current (fold_left documented os initial).
Proof.
  exists [$"#pragma pack(4)"; $"#pragma pack(push,8)"; $"#pragma pack(pop)"], [PSet (Some 4%Z); PPush None (Some 8%Z); PPop None None].
  eexists. split; [|split; [vm_compute; reflexivity|vm_compute; discriminate]].
  pragma_history.
Qed.
Print Assumptions c34_pack_stack_refuted.
Theorem c34_push_without_number_refuted :
  exists ls os s', history empty_tab ls os /\ run_lines no_fmt no_ext 0 (start empty_tab) ls = Ok s'
    /\ in_force s' <> current (fold_left documented os initial).
Proof.
  exists [$"#pragma pack(4)"; $"#pragma pack(push)"], [PSet (Some 4%Z); PPush None None].
  eexists. split; [|split; [vm_compute; reflexivity|vm_compute; discriminate]].
  pragma_history.
Qed.
Print Assumptions c34_push_without_number_refuted.
Definition pack_lines : list str :=
  [$"#pragma pack(2)"; $"struct a;"; $"#pragma pack()"; $"#pragma pack(push, outer, 8)"; $"#pragma pack( push ,4 )";
   $"#pragma pack(1)"; $"#pragma pack(pop)"; $"#pragma  pack (push, 16)"; $"#pragma pack(pop, outer)"].
Definition pack_ops : list pop :=
  [PSet (Some 2%Z); PSet None; PPush (Some $"outer") (Some 8%Z); PPush None (Some 4%Z); PSet (Some 1%Z); PPop None None;
   PPush None (Some 16%Z); PPop (Some $"outer") None].
Example c34_example : history empty_tab pack_lines pack_ops /\ disciplined initial None pack_ops.
Proof.
  split; [unfold pack_lines, pack_ops; pragma_history|].
  cbn. repeat split; try discriminate; intros x E; try discriminate E; injection E as <-; intros [].
Qed.

(** C35: pops never fail as long as each matches an earlier push. *)
Theorem c35_pops_matched_partial :
  forall fo ext (t : mtab) (ls : list str) (os : list pop),
    history t ls os -> matched 0 os -> exists s', run_lines fo ext 0 (start t) ls = Ok s'.
Proof. exact pack_matched. Qed.
Print Assumptions c35_pops_matched_partial.
(** A pop with nothing pushed raises. *)
Theorem c35_unmatched_pop_refuted :
  exists ls os, history empty_tab ls os /\ run_lines no_fmt no_ext 0 (start empty_tab) ls = Err IndexError.
Proof.
  exists [$"#pragma pack(pop)"], [PPop None None]. split; [pragma_history|vm_compute; reflexivity].
Qed.
Print Assumptions c35_unmatched_pop_refuted.
Example c35_example : matched 0 [PPush None None; PSet None; PPop None (Some 4%Z); PPush (Some $"a") None; PPop None None].
Proof. exact I. Qed.

(** C36: the line at index [length pre] (line number one more) gets the packing in force before it,
    provided that the lines before it have given one line of output each and that the next line
    is no pragma.  [packing_at] is given the line number of the structure in the output. *)
Theorem c36_packing_of_line_partial :
  forall fo ext (t : mtab) (pre : list str) (l : str) (post : list str) (s1 s' : pst),
    run_lines fo ext 0 (start t) pre = Ok s1 -> length (outp s1) = length pre ->
    active s1 = true -> directive l = None -> dname (hd [] post) <> $"pragma" ->
    run_lines fo ext 0 (start t) (pre ++ l :: post) = Ok s' ->
    exists x, expand_macros fo (tab s1) l = Ok x /\ nth_error (outp s') (length pre) = Some x
      /\ packing_at (plist s') (S (length pre)) = in_force s1.
Proof. exact packing_line. Qed.
Print Assumptions c36_packing_of_line_partial.
(** A pragma on the next line applies; so does one further down if lines before the structure
    have given no output. *)
Theorem c36_packing_of_line_refuted :
  exists pre l post s1 s', run_lines no_fmt no_ext 0 (start empty_tab) pre = Ok s1
    /\ run_lines no_fmt no_ext 0 (start empty_tab) (pre ++ l :: post) = Ok s'
    /\ nth_error (outp s') (length (outp s1)) = Some l
    /\ packing_at (plist s') (S (length (outp s1))) <> in_force s1.
Proof.
  exists [$"#pragma pack(4)"], $"struct s { char c; int i; };", [$"#pragma pack(1)"].
  eexists. eexists. split; [vm_compute; reflexivity|]. split; [vm_compute; reflexivity|]. split; [vm_compute; reflexivity|].
  vm_compute. discriminate.
Qed.
Print Assumptions c36_packing_of_line_refuted.
(** Here the packing set before the structure is lost: two pragmas that are not emitted come first. *)
Theorem c36_drift_refuted :
  exists pre l s', run_lines no_fmt no_ext 0 (start empty_tab) (pre ++ [l]) = Ok s'
    /\ in_force s' = Some 4%Z /\ exists n, nth_error (outp s') n = Some l /\ packing_at (plist s') (S n) = None.
Proof.
  exists [$"#pragma once"; $"#pragma warning"; $"#pragma message"; $"#pragma pack(4)"], $"struct s { char c; int i; };".
  eexists. split; [vm_compute; reflexivity|]. split; [vm_compute; reflexivity|]. exists 1. split; vm_compute; reflexivity.
Qed.
Print Assumptions c36_drift_refuted.
Example c36_example :
  exists s1 s', run_lines no_fmt no_ext 0 (start empty_tab) [$"#pragma pack(push, 2)"; $"int x;"] = Ok s1
  /\ length (outp s1) = 2 /\ active s1 = true
  /\ run_lines no_fmt no_ext 0 (start empty_tab) ([$"#pragma pack(push, 2)"; $"int x;"] ++ $"struct s {"
        :: [$"int i; };"; $"#pragma pack(pop)"]) = Ok s' /\ packing_at (plist s') 3 = Some 2%Z.
Proof. eexists. eexists. repeat split; vm_compute; reflexivity. Qed.

(** C37: a text that C reads as code, literals and comments is left without its comments and
    otherwise unchanged.  Not covered: line comments continued by a backslash. *)
Theorem c37_comments_partial :
  forall ps, reads_as ps -> remove_comments (parts_text ps) = without_comments ps.
Proof. exact remove_comments_reads. Qed.
Print Assumptions c37_comments_partial.
(** A comment does not separate words; a line comment continued on the next line leaves its
    second line. *)
Theorem c37_separator_refuted :
  exists a b body, word a /\ word b /\ reads_as (map ACode a ++ ABlock body :: map ACode b)
    /\ word (remove_comments (parts_text (map ACode a ++ ABlock body :: map ACode b))).
Proof.
  exists $"int", $"x", $" c ". split; [|split; [|split]].
  - split; [discriminate|apply forallb_forall; reflexivity].
  - split; [discriminate|apply forallb_forall; reflexivity].
  - cbn [reads_as map app list_ascii_of_string]. repeat split; try (intros [X|[X|[]]]; discriminate X); try discriminate.
    intros (a & b & E). repeat (destruct a as [|? a]; [discriminate E|injection E as _ E]). destruct a; discriminate E.
  - split; [vm_compute; discriminate|apply forallb_forall; vm_compute; reflexivity].
Qed.
Print Assumptions c37_separator_refuted.
Theorem c37_continued_comment_refuted :
  exists body code, join_lines (remove_comments ($"//" ++ body ++ continuation ++ code)) = nl :: code /\ code <> [].
Proof. exists $" c ", $"int x;". split; [vm_compute; reflexivity|discriminate]. Qed.
Print Assumptions c37_continued_comment_refuted.
Definition parts0 : list part :=
  [ACode "c"%char; ACode "="%char; AQuoted squote [bslash; squote]; AQuoted squote $"/"; AQuoted dquote ($"//" ++ [bslash; dquote]);
   ABlock $"/**"; ACode "/"%char; ACode " "%char; ABlock $"'"; ACode ";"%char; ALine $"* /* "; ACode nl; ACode "/"%char].
Example c37_example :
  reads_as parts0 /\ remove_comments (parts_text parts0)
    = $"c=" ++ [squote; bslash; squote; squote; squote] ++ $"/" ++ [squote; dquote] ++ $"//" ++ [bslash; dquote; dquote] ++ $"/ ;" ++ [nl] ++ $"/".
Proof.
  split; [|vm_compute; reflexivity]. unfold parts0.
  assert (NO : forall b, forallb (fun n => negb (starts_with $"*/" (skipn n b))) (seq 0 (S (length b))) = true -> ~ occurs $"*/" b).
  { intros b H (x & y & ->). rewrite forallb_forall in H. specialize (H (length x)).
    rewrite skipn_app, skipn_all, Nat.sub_diag in H. cbn [app skipn] in H. rewrite PyStrFacts.starts_with_app in H.
    assert (false = true) by (apply H; apply in_seq; rewrite !app_length; lia). discriminate. }
  cbn [reads_as]. repeat split;
    try (intros [X|[X|[]]]; discriminate X); try (cbn; tauto); try (apply NO; reflexivity); try discriminate;
    try match goal with E : parts_text _ = _ :: _ |- _ => vm_compute in E; try discriminate E; injection E as <- _; discriminate end.
  - apply qb_esc; [discriminate|constructor].
  - apply qb_char; [no_in|constructor].
  - apply qb_char; [no_in|]. apply qb_char; [no_in|]. apply qb_esc; [discriminate|constructor].
  - no_in.
  - intros a E. apply (f_equal (@rev _)) in E. rewrite rev_app_distr in E. discriminate E.
  - intros d s E. vm_compute in E. injection E as <- _. reflexivity.
Qed.

(** C38: line joining removes each backslash-newline and nothing else. *)
Theorem c38_lines_joined :
  forall text, exists segs, segs <> [] /\ text = join continuation segs
    /\ Forall (fun s => ~ occurs continuation s) segs /\ join_lines text = concat segs.
Proof. exact joined_segs. Qed.
Print Assumptions c38_lines_joined.
Example c38_example :
  join_lines (join continuation [$"#define A 1 + "; $"  2" ++ [bslash]; []; [nl] ++ $"int x;"; $"y"])
  = $"#define A 1 +   2" ++ [bslash; nl] ++ $"int x;y".
Proof. vm_compute. reflexivity. Qed.
