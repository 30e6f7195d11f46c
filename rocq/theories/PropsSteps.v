(** C99: headers that are read in steps. *)
From Coq Require Import Ascii String Bool Arith ZArith Lia List.
Import ListNotations.
From Verif Require Import PyBase PyBaseFacts PyStr PyStrFacts PyExpr TypeModel StoreModel StoreSpec DeclModel EvalModel.
From Verif Require Import MacroModel MacroSpec PpModel PpSpec TextSpec PropsMacro PropsDecl.
From Verif Require Import FileModel FilesSpec PpExamples FileExamples PropsFile ConstSpec PropsConst CachedModel CachedSpec CachedProofs PropsCached.
From Verif Require Import StepsSpec StepsProofs.
From Verif Require GramExamples.

(** C99: a parser is made with some headers, the next one with further headers and copy_from the first, and so
    on; the first one may write a cache file, or read the one that was written before.  The last one has the same definitions, in the same order and for each file, and makes the same library, as the single
    parser that is given all the headers in one list.  The chain is of any length, the headers have any texts.
    Missing: headers that undefine macros of others ([c99_undef_refuted]), or have equal base names
    ([c99_base_names_refuted]); keyword definitions given at later steps ([c99_keywords_refuted]); a cache file of the
    later steps, which takes no notice of copy_from. *)
Theorem c99_steps_partial :
  forall fo ext ev base mods veq sub contents find replace kw hss w paths texts fs md enc (ck : bool),
  let rs := match replace with Some d => d | None => [] end in
  stepwise fo ext ev base mods veq sub contents find replace kw hss w ->
  Forall2 (resolves contents find) (concat hss) paths -> Forall2 (has_text sub contents rs) paths texts ->
  NoDup (map basename paths) -> separate (given_macro kw) texts ->
  exists r, open_headers fo ext ev base mods veq sub contents find fs md (concat hss) [] replace enc kw None ck = Some (Ok (r, None))
    /\ same_definitions (p_store w) (p_store r) /\ same_library_of (p_store w) (p_store r).
Proof. exact steps_whole. Qed.
Print Assumptions c99_steps_partial.

(** The next step, whether or not it ends with an exception: it ends as the single parser with all the headers. *)
Theorem c99_next_partial :
  forall fo ext ev base mods veq sub contents find replace kw hss w hs paths texts fs md enc (ck : bool) fs' md' enc' (ck' : bool),
  let rs := match replace with Some d => d | None => [] end in
  stepwise fo ext ev base mods veq sub contents find replace kw hss w ->
  Forall2 (resolves contents find) (concat hss ++ hs) paths -> Forall2 (has_text sub contents rs) paths texts ->
  NoDup (map basename paths) -> separate (given_macro kw) texts ->
  let whole := open_headers fo ext ev base mods veq sub contents find fs md (concat hss ++ hs) [] replace enc kw None ck in
  match open_headers fo ext ev base mods veq sub contents find fs' md' hs [p_store w] replace enc' [] None ck' with
  | None => whole = None
  | Some (Err e) => whole = Some (Err e)
  | Some (Ok (p, _)) => exists r, whole = Some (Ok (r, None)) /\ same_definitions (p_store p) (p_store r) /\ same_library_of (p_store p) (p_store r)
  end.
Proof. exact steps_next. Qed.
Print Assumptions c99_next_partial.

(** Helpers of the examples. *)
Definition disk_of (l : list (str * str)) (h : str) : option str := dget l h.
Notation first_step l kw hs :=
  (open_headers no_fmt no_ext ev0 GramExamples.base0 [] text_eq no_sub (disk_of l) nowhere no_disk $"/m" hs [] None $"utf-8" kw None true).
Notation next_step l kw w hs :=
  (open_headers no_fmt no_ext ev0 GramExamples.base0 [] text_eq no_sub (disk_of l) nowhere no_disk $"/m" hs [p_store w] None $"utf-8" kw None true).
Notation steps_of l := (stepwise no_fmt no_ext ev0 GramExamples.base0 [] text_eq no_sub (disk_of l) nowhere None).
Definition use_text : str := $"row *last;" ++ [nl] ++ $"int area(struct grid *g, row r);".
Definition three : list (str * str) := [($"/s/unit.h", unit_text); ($"/s/grid.h", grid_text); ($"/s/use.h", use_text)].
Definition bad_text : str := $"#ifdef N" ++ [nl] ++ $"int n;" ++ [nl] ++ $"#endif" ++ [nl] ++ $"#endif".
Definition bad_two : list (str * str) := [($"/s/unit.h", unit_text); ($"/s/bad.h", bad_text)].
Notation step1 := (first_step three grid_kw [$"/s/unit.h"]).
Notation step2 := (next_step three [] (opened_by step1) [$"/s/grid.h"]).
Notation step3 := (next_step three [] (opened_by step2) [$"/s/use.h"]).
Notation one_step := (first_step three grid_kw (keys three)).
Lemma no_undef text : undef_names text = [] -> forall n, ~ undefines_macro n text.
Proof. intros E n U. apply undef_found in U. destruct U as [U _]. rewrite E in U. exact U. Qed.
Lemma three_separate : separate (given_macro grid_kw) (map snd three).
Proof.
  destruct grid_separate as (R1 & U1 & R2 & U2 & _). split; [exact R1|]. split; [exact U1|]. split; [exact R2|]. split; [exact U2|].
  split; [|split; [|exact I]].
  - apply (readable_code _ (code use_text)); vm_compute; reflexivity.
  - intros n U. exfalso. revert U. apply no_undef. vm_compute. reflexivity.
Qed.
Lemma three_texts l : NoDup (keys l) -> Forall2 (has_text no_sub (disk_of l) []) (keys l) (map snd l).
Proof.
  intros N. assert (A : forall f t, In (f, t) l -> has_text no_sub (disk_of l) [] f t).
  { intros f t I1. exists t. split; [|reflexivity]. unfold disk_of. apply NoDup_dget; assumption. }
  clear N. revert A. generalize (disk_of l). intros d A. induction l as [|[f t] l IH]; constructor.
  - apply A. left. reflexivity.
  - apply IH. intros g u I1. apply A. right. exact I1.
Qed.
Lemma step_opened x : (exists p, x = Some (Ok (p, None))) -> x = Some (Ok (opened_by x, None)).
Proof. intros (p & ->). reflexivity. Qed.
Lemma step1_ok : step1 = Some (Ok (opened_by step1, None)).
Proof. apply step_opened. eexists. vm_compute. reflexivity. Qed.
Lemma step2_ok : step2 = Some (Ok (opened_by step2, None)).
Proof. apply step_opened. eexists. vm_compute. reflexivity. Qed.
Lemma step3_ok : step3 = Some (Ok (opened_by step3, None)).
Proof. apply step_opened. eexists. vm_compute. reflexivity. Qed.
Example c99_example :
  exists w r, steps_of three grid_kw [[$"/s/unit.h"]; [$"/s/grid.h"]; [$"/s/use.h"]] w
    /\ one_step = Some (Ok (r, None)) /\ same_definitions (p_store w) (p_store r) /\ same_library_of (p_store w) (p_store r)
    /\ map fst (defs (p_store w) Macros) = [$"K"; $"N"] /\ map fst (defs (p_store w) Types) = [$"row"; $"struct grid"; $"enum anon_enum0"]
    /\ map fst (defs (p_store w) Functions) = [$"area"]
    /\ defined (p_store w) Values $"LAST" = Some (EVal (ONum (VInt 7))) /\ defined_in (p_store w) (Some $"unit.h") Values $"N" = Some (EVal (ONum (VInt 7))).
Proof.
  pose proof step1_ok as E1. pose proof step2_ok as E2. pose proof step3_ok as E3.
  assert (SW : steps_of three grid_kw [[$"/s/unit.h"]; [$"/s/grid.h"]; [$"/s/use.h"]] (opened_by step3)).
  { refine (sw_next _ _ _ _ _ _ _ _ _ _ _ [[$"/s/unit.h"]; [$"/s/grid.h"]] (opened_by step2) no_disk $"/m" [$"/s/use.h"] $"utf-8" true _ _ E3).
    refine (sw_next _ _ _ _ _ _ _ _ _ _ _ [[$"/s/unit.h"]] (opened_by step1) no_disk $"/m" [$"/s/grid.h"] $"utf-8" true _ _ E2).
    exact (sw_first _ _ _ _ _ _ _ _ _ _ _ no_disk $"/m" [$"/s/unit.h"] $"utf-8" true _ E1). }
  exists (opened_by step3).
  assert (N0 : NoDup (keys three)) by (constructor; [intros [X|[X|[]]]; discriminate X|]; constructor; [intros [X|[]]; discriminate X|]; constructor; [intros []|constructor]).
  assert (RE : Forall2 (resolves (disk_of three) nowhere) (concat [[$"/s/unit.h"]; [$"/s/grid.h"]; [$"/s/use.h"]]) (keys three)) by (repeat constructor).
  assert (NB : NoDup (map basename (keys three))).
  { vm_compute. constructor; [intros [X|[X|[]]]; discriminate X|]. constructor; [intros [X|[]]; discriminate X|]. constructor; [intros []|constructor]. }
  destruct (c99_steps_partial _ _ _ _ _ _ _ _ _ _ _ _ _ (keys three) (map snd three) no_disk $"/m" $"utf-8" true SW RE (three_texts three N0) NB three_separate) as (r & ER & S1 & S2).
  exists r. split; [exact SW|]. split; [exact ER|]. split; [exact S1|]. split; [exact S2|].
  split; [vm_compute; reflexivity|]. split; [vm_compute; reflexivity|]. split; [vm_compute; reflexivity|]. split; vm_compute; reflexivity.
Qed.
(** The first parser reads a cache file, as the headers of Windows are read. *)
Notation cached_step fs :=
  (open_headers no_fmt no_ext ev0 GramExamples.base0 [] text_eq no_sub (disk_of three) nowhere fs $"/m" [$"/s/unit.h"] [] None $"utf-8" grid_kw (Some $"lib.cache") true).
Notation writing := (cached_step no_disk).
Notation cache_disk := (with_cache [$"/s/unit.h"] (written_by writing)).
Notation reading := (cached_step cache_disk).
Notation after_cache := (next_step three [] (opened_by reading) [$"/s/grid.h"; $"/s/use.h"]).
Example c99_cache_example :
  exists w r, steps_of three grid_kw [[$"/s/unit.h"]; [$"/s/grid.h"; $"/s/use.h"]] w
    /\ one_step = Some (Ok (r, None)) /\ same_definitions (p_store w) (p_store r) /\ map fst (defs (p_store w) Functions) = [$"area"].
Proof.
  assert (E1 : writing = Some (Ok (opened_by writing, Some (written_by writing)))) by (vm_compute; reflexivity).
  assert (E2 : reading = Some (Ok (opened_by reading, None))) by (vm_compute; reflexivity).
  assert (E3 : after_cache = Some (Ok (opened_by after_cache, None))) by (vm_compute; reflexivity).
  assert (SW : steps_of three grid_kw [[$"/s/unit.h"]; [$"/s/grid.h"; $"/s/use.h"]] (opened_by after_cache)).
  { refine (sw_next _ _ _ _ _ _ _ _ _ _ _ [[$"/s/unit.h"]] (opened_by reading) no_disk $"/m" [$"/s/grid.h"; $"/s/use.h"] $"utf-8" true _ _ E3).
    refine (sw_loaded _ _ _ _ _ _ _ _ _ _ _ cache_disk $"/m" [$"/s/unit.h"] $"utf-8" true $"lib.cache" $"lib.cache" (written_by writing) _
              no_disk $"/m" $"utf-8" true $"lib.cache" _ _ _ E1 _ _ E2).
    - discriminate.
    - intros c [F _]. discriminate F.
    - split; [reflexivity|left; reflexivity].
    - reflexivity. }
  exists (opened_by after_cache).
  assert (N0 : NoDup (keys three)) by (constructor; [intros [X|[X|[]]]; discriminate X|]; constructor; [intros [X|[]]; discriminate X|]; constructor; [intros []|constructor]).
  assert (RE : Forall2 (resolves (disk_of three) nowhere) (concat [[$"/s/unit.h"]; [$"/s/grid.h"; $"/s/use.h"]]) (keys three)) by (repeat constructor).
  assert (NB : NoDup (map basename (keys three))).
  { vm_compute. constructor; [intros [X|[X|[]]]; discriminate X|]. constructor; [intros [X|[]]; discriminate X|]. constructor; [intros []|constructor]. }
  destruct (c99_steps_partial _ _ _ _ _ _ _ _ _ _ _ _ _ (keys three) (map snd three) no_disk $"/m" $"utf-8" true SW RE (three_texts three N0) NB three_separate) as (r & ER & S1 & _).
  exists r. split; [exact SW|]. split; [exact ER|]. split; [exact S1|]. vm_compute. reflexivity.
Qed.
Notation bad1 := (first_step bad_two grid_kw [$"/s/unit.h"]).
(** The second step ends with the exception that the single parser ends with. *)
Example c99_next_example :
  exists w e, first_step bad_two grid_kw [$"/s/unit.h"] = Some (Ok (w, None)) /\ next_step bad_two [] w [$"/s/bad.h"] = Some (Err e)
    /\ first_step bad_two grid_kw (keys bad_two) = Some (Err e).
Proof.
  assert (E1 : bad1 = Some (Ok (opened_by bad1, None))) by (vm_compute; reflexivity).
  assert (E2 : exists e, next_step bad_two [] (opened_by bad1) [$"/s/bad.h"] = Some (Err e)) by (eexists; vm_compute; reflexivity).
  destruct E2 as [e E2]. exists (opened_by bad1), e. split; [exact E1|]. split; [exact E2|].
  assert (SW : steps_of bad_two grid_kw [[$"/s/unit.h"]] (opened_by bad1)) by exact (sw_first _ _ _ _ _ _ _ _ _ _ _ no_disk $"/m" [$"/s/unit.h"] $"utf-8" true _ E1).
  assert (N0 : NoDup (keys bad_two)) by (constructor; [intros [X|[]]; discriminate X|]; constructor; [intros []|constructor]).
  assert (RE : Forall2 (resolves (disk_of bad_two) nowhere) (concat [[$"/s/unit.h"]] ++ [$"/s/bad.h"]) (keys bad_two)) by (repeat constructor).
  assert (NB : NoDup (map basename (keys bad_two))) by (vm_compute; constructor; [intros [X|[]]; discriminate X|]; constructor; [intros []|constructor]).
  assert (SP : separate (given_macro grid_kw) (map snd bad_two)).
  { destruct grid_separate as (R1 & U1 & _). split; [exact R1|]. split; [exact U1|]. split; [apply (readable_code _ (code bad_text)); vm_compute; reflexivity|].
    split; [|exact I]. intros n U. exfalso. revert U. apply no_undef. vm_compute. reflexivity. }
  pose proof (c99_next_partial _ _ _ _ _ _ _ _ _ _ _ _ _ [$"/s/bad.h"] (keys bad_two) (map snd bad_two) no_disk $"/m" $"utf-8" true no_disk $"/m" $"utf-8" true SW RE (three_texts bad_two N0) NB SP) as C.
  cbv zeta in C. rewrite E2 in C. exact C.
Qed.

(** The full statement fails.  A macro that was undefined by a later header of the first parser is back in
    the parser that copies from it. *)
Definition undef_three : list (str * str) :=
  [($"/s/a.h", $"#define A 1"); ($"/s/b.h", $"#undef A"); ($"/s/c.h", $"#ifdef A" ++ [nl] ++ $"int x;" ++ [nl] ++ $"#endif")].
Theorem c99_undef_refuted :
  exists l a b c w p r, Forall readable (map snd l) /\ NoDup (map basename (keys l)) /\ keys l = [a; b; c]
    /\ first_step l [] [a; b] = Some (Ok (w, None)) /\ next_step l [] w [c] = Some (Ok (p, None)) /\ first_step l [] [a; b; c] = Some (Ok (r, None))
    /\ defined (p_store p) Variables $"x" <> None /\ defined (p_store r) Variables $"x" = None.
Proof.
  exists undef_three, $"/s/a.h", $"/s/b.h", $"/s/c.h". do 3 eexists.
  split.
  { constructor; [|constructor; [|constructor; [|constructor]]].
    - apply (readable_code _ (code $"#define A 1")); vm_compute; reflexivity.
    - apply (readable_code _ (code $"#undef A")); vm_compute; reflexivity.
    - apply (readable_code _ (code ($"#ifdef A" ++ [nl] ++ $"int x;" ++ [nl] ++ $"#endif"))); vm_compute; reflexivity. }
  split; [vm_compute; constructor; [intros [X|[X|[]]]; discriminate X|]; constructor; [intros [X|[]]; discriminate X|]; constructor; [intros []|constructor]|].
  split; [reflexivity|]. split; [vm_compute; reflexivity|]. split; [vm_compute; reflexivity|]. split; [vm_compute; reflexivity|].
  split; [vm_compute; discriminate|vm_compute; reflexivity].
Qed.
Print Assumptions c99_undef_refuted.
(** Headers of equal base names: their definitions are kept together and come first when they are copied. *)
Definition same_four : list (str * str) :=
  [($"/s/x.h", $"#define A 1"); ($"/s/b.h", $"#define A 2"); ($"/t/x.h", $"#define A 3"); ($"/s/c.h", $"int v[A];")].
Theorem c99_base_names_refuted :
  exists l a b c d w p r, separate (fun _ => False) (map snd l) /\ NoDup (keys l) /\ keys l = [a; b; c; d]
    /\ first_step l [] [a; b; c] = Some (Ok (w, None)) /\ next_step l [] w [d] = Some (Ok (p, None)) /\ first_step l [] [a; b; c; d] = Some (Ok (r, None))
    /\ defined (p_store p) Values $"A" = Some (EVal (ONum (VInt 2))) /\ defined (p_store r) Values $"A" = Some (EVal (ONum (VInt 3)))
    /\ defined (p_store p) Variables $"v" <> defined (p_store r) Variables $"v".
Proof.
  exists same_four, $"/s/x.h", $"/s/b.h", $"/t/x.h", $"/s/c.h". do 3 eexists.
  split.
  { split; [apply (readable_code _ (code $"#define A 1")); vm_compute; reflexivity|]. split; [intros n U _; revert U; apply no_undef; vm_compute; reflexivity|].
    split; [apply (readable_code _ (code $"#define A 2")); vm_compute; reflexivity|]. split; [intros n U _; revert U; apply no_undef; vm_compute; reflexivity|].
    split; [apply (readable_code _ (code $"#define A 3")); vm_compute; reflexivity|]. split; [intros n U _; revert U; apply no_undef; vm_compute; reflexivity|].
    split; [apply (readable_code _ (code $"int v[A];")); vm_compute; reflexivity|]. split; [intros n U _; revert U; apply no_undef; vm_compute; reflexivity|exact I]. }
  split; [constructor; [intros [X|[X|[X|[]]]]; discriminate X|]; constructor; [intros [X|[X|[]]]; discriminate X|]; constructor; [intros [X|[]]; discriminate X|]; constructor; [intros []|constructor]|].
  split; [reflexivity|]. split; [vm_compute; reflexivity|]. split; [vm_compute; reflexivity|]. split; [vm_compute; reflexivity|].
  split; [vm_compute; reflexivity|]. split; [vm_compute; reflexivity|]. vm_compute. discriminate.
Qed.
Print Assumptions c99_base_names_refuted.
(** A keyword definition that is given at a later step is overridden by the definition that is copied; the single
    parser has it before it reads the first header. *)
Definition kw_two : list (str * str) := [($"/s/a.h", $"#ifndef A" ++ [nl] ++ $"#define A 1" ++ [nl] ++ $"#endif"); ($"/s/b.h", $"int v[A];")].
Theorem c99_keywords_refuted :
  exists l a b kw w p r, separate (given_macro kw) (map snd l) /\ NoDup (map basename (keys l)) /\ keys l = [a; b]
    /\ first_step l [] [a] = Some (Ok (w, None)) /\ next_step l kw w [b] = Some (Ok (p, None)) /\ first_step l kw [a; b] = Some (Ok (r, None))
    /\ defined (p_store p) Macros $"A" = Some (EText $"1") /\ defined (p_store r) Macros $"A" = Some (EText $"5").
Proof.
  exists kw_two, $"/s/a.h", $"/s/b.h", [($"macros", [($"A", EText $"5")])]. do 3 eexists.
  split.
  { split; [apply (readable_code _ (code ($"#ifndef A" ++ [nl] ++ $"#define A 1" ++ [nl] ++ $"#endif"))); vm_compute; reflexivity|]. split; [intros n U _; revert U; apply no_undef; vm_compute; reflexivity|].
    split; [apply (readable_code _ (code $"int v[A];")); vm_compute; reflexivity|]. split; [intros n U _; revert U; apply no_undef; vm_compute; reflexivity|exact I]. }
  split; [vm_compute; constructor; [intros [X|[]]; discriminate X|]; constructor; [intros []|constructor]|].
  split; [reflexivity|]. split; [vm_compute; reflexivity|]. split; [vm_compute; reflexivity|]. split; [vm_compute; reflexivity|].
  split; vm_compute; reflexivity.
Qed.
Print Assumptions c99_keywords_refuted.
