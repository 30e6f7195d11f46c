(** C100: headers that are added to others. *)
From Coq Require Import Ascii String Bool Arith ZArith Lia List.
Import ListNotations.
From Verif Require Import PyBase PyBaseFacts PyStr PyStrFacts PyExpr TypeModel StoreModel StoreSpec DeclModel EvalModel.
From Verif Require Import MacroModel MacroSpec PpModel PpSpec TextSpec PropsMacro PropsDecl.
From Verif Require Import FileModel FilesSpec PpExamples FileExamples PropsFile ConstSpec PropsConst CachedModel CachedSpec PropsCached.
From Verif Require Import StepsSpec PropsSteps GrowSpec GrowProofs.
From Verif Require GramExamples.

(** C100: headers of any texts are added at the end of the list of headers.  An exception that ended the shorter
    list ends the longer one.  Otherwise, if the longer list is read: each header of the shorter list, and the keyword definitions,
    have the definitions they had; and a name has the definition of the last added header that defines it, or else the one
    it had.
    Missing: the names of macros that an added header undefines ([c100_undef_refuted]) and headers of equal base
    names ([c100_base_names_refuted]). *)
Theorem c100_added_partial :
  forall fo ext ev base mods veq sub contents find (replace : option (dict str str)) kw hs1 hs2 paths1 paths2 texts1 texts2 fs md enc (ck : bool) fs' md' enc' (ck' : bool),
  let rs := match replace with Some d => d | None => [] end in
  Forall2 (resolves contents find) hs1 paths1 -> Forall2 (resolves contents find) hs2 paths2 ->
  Forall2 (has_text sub contents rs) paths1 texts1 -> Forall2 (has_text sub contents rs) paths2 texts2 ->
  NoDup (map basename (paths1 ++ paths2)) -> Forall readable (texts1 ++ texts2) ->
  let longer := open_headers fo ext ev base mods veq sub contents find fs' md' (hs1 ++ hs2) [] replace enc' kw None ck' in
  match open_headers fo ext ev base mods veq sub contents find fs md hs1 [] replace enc kw None ck with
  | None => longer = None
  | Some (Err e) => longer = Some (Err e)
  | Some (Ok (p, _)) => forall q w, longer = Some (Ok (q, w)) ->
      (forall f k n, In f (None :: map (fun x => Some (basename x)) paths1) -> defined_in (p_store q) f k n = defined_in (p_store p) f k n)
      /\ (forall k n, (k = Macros -> forall t, In t texts2 -> ~ undefines_macro n t) ->
          defined (p_store q) k n = last_definition (p_store q) k n (defined (p_store p) k n) paths2)
  end.
Proof. intros fo ext ev base mods veq sub contents find replace. exact (add_headers fo ext ev base mods veq sub contents find replace). Qed.
Print Assumptions c100_added_partial.

(** [over.h] defines [N] and [row] again and adds a function. *)
Definition over_text : str := $"#define N 9" ++ [nl] ++ $"typedef long row;" ++ [nl] ++ $"int fill(row r);".
Definition over_two : list (str * str) := [($"/s/unit.h", unit_text); ($"/s/grid.h", grid_text); ($"/s/over.h", over_text)].
Notation shorter := (first_step over_two grid_kw [$"/s/unit.h"; $"/s/grid.h"]).
Notation longer := (first_step over_two grid_kw [$"/s/unit.h"; $"/s/grid.h"; $"/s/over.h"]).
Example c100_example :
  exists p q, shorter = Some (Ok (p, None)) /\ longer = Some (Ok (q, None))
    /\ (forall k n, defined_in (p_store q) (Some $"unit.h") k n = defined_in (p_store p) (Some $"unit.h") k n)
    /\ (forall k n, defined (p_store q) k n = match defined_in (p_store q) (Some $"over.h") k n with Some v => Some v | None => defined (p_store p) k n end)
    /\ defined (p_store p) Values $"N" = Some (EVal (ONum (VInt 7))) /\ defined (p_store q) Values $"N" = Some (EVal (ONum (VInt 9)))
    /\ defined_in (p_store q) (Some $"unit.h") Values $"N" = Some (EVal (ONum (VInt 7)))
    /\ defined (p_store q) Values $"LAST" = Some (EVal (ONum (VInt 7))) /\ defined (p_store p) Functions $"fill" = None /\ defined (p_store q) Functions $"fill" <> None.
Proof.
  assert (E1 : shorter = Some (Ok (opened_by shorter, None))) by (vm_compute; reflexivity).
  assert (E2 : longer = Some (Ok (opened_by longer, None))) by (vm_compute; reflexivity).
  exists (opened_by shorter), (opened_by longer). split; [exact E1|]. split; [exact E2|].
  assert (N0 : NoDup (keys over_two)) by (constructor; [intros [X|[X|[]]]; discriminate X|]; constructor; [intros [X|[]]; discriminate X|]; constructor; [intros []|constructor]).
  pose proof (three_texts over_two N0) as HT. inversion HT as [|? ? ? ? T1 HT1]; subst. inversion HT1 as [|? ? ? ? T2 HT2]; subst. inversion HT2 as [|? ? ? ? T3 HT3]; subst.
  assert (RE1 : Forall2 (resolves (disk_of over_two) nowhere) [$"/s/unit.h"; $"/s/grid.h"] [$"/s/unit.h"; $"/s/grid.h"]) by (repeat constructor).
  assert (RE2 : Forall2 (resolves (disk_of over_two) nowhere) [$"/s/over.h"] [$"/s/over.h"]) by (repeat constructor).
  assert (NB : NoDup (map basename ([$"/s/unit.h"; $"/s/grid.h"] ++ [$"/s/over.h"]))).
  { vm_compute. constructor; [intros [X|[X|[]]]; discriminate X|]. constructor; [intros [X|[]]; discriminate X|]. constructor; [intros []|constructor]. }
  assert (RD : Forall readable ([unit_text; grid_text] ++ [over_text])).
  { destruct grid_separate as (R1 & _ & R2 & _). constructor; [exact R1|]. constructor; [exact R2|]. constructor; [|constructor].
    apply (readable_code _ (code over_text)); vm_compute; reflexivity. }
  pose proof (c100_added_partial no_fmt no_ext ev0 GramExamples.base0 [] text_eq no_sub (disk_of over_two) nowhere None grid_kw _ _ _ _ _ _ no_disk $"/m" $"utf-8" true no_disk $"/m" $"utf-8" true
    RE1 RE2 (Forall2_cons _ _ T1 (Forall2_cons _ _ T2 (Forall2_nil _))) (Forall2_cons _ _ T3 (Forall2_nil _)) NB RD) as C.
  cbv zeta in C. rewrite E1 in C. destruct (C _ _ E2) as [C1 C2]. clear C.
  split; [intros k n; apply C1; right; left; reflexivity|].
  split.
  { intros k n. rewrite C2; [reflexivity|]. intros _ t [<-|[]]. apply no_undef. vm_compute. reflexivity. }
  split; [vm_compute; reflexivity|]. split; [vm_compute; reflexivity|]. split; [vm_compute; reflexivity|]. split; [vm_compute; reflexivity|].
  split; [vm_compute; reflexivity|]. vm_compute. discriminate.
Qed.
(** An exception of the shorter list: nothing that is added prevents it. *)
Definition bad_first : list (str * str) := [($"/s/bad.h", bad_text); ($"/s/unit.h", unit_text)].
Example c100_failing_example :
  exists e, first_step bad_first [] [$"/s/bad.h"] = Some (Err e) /\ first_step bad_first [] [$"/s/bad.h"; $"/s/unit.h"] = Some (Err e).
Proof.
  assert (E1 : exists e, first_step bad_first [] [$"/s/bad.h"] = Some (Err e)) by (eexists; vm_compute; reflexivity).
  destruct E1 as [e E1]. exists e. split; [exact E1|].
  assert (N0 : NoDup (keys bad_first)) by (constructor; [intros [X|[]]; discriminate X|]; constructor; [intros []|constructor]).
  pose proof (three_texts bad_first N0) as HT. inversion HT as [|? ? ? ? T1 HT1]; subst. inversion HT1 as [|? ? ? ? T2 HT2]; subst.
  assert (RE1 : Forall2 (resolves (disk_of bad_first) nowhere) [$"/s/bad.h"] [$"/s/bad.h"]) by (repeat constructor).
  assert (RE2 : Forall2 (resolves (disk_of bad_first) nowhere) [$"/s/unit.h"] [$"/s/unit.h"]) by (repeat constructor).
  assert (NB : NoDup (map basename ([$"/s/bad.h"] ++ [$"/s/unit.h"]))) by (vm_compute; constructor; [intros [X|[]]; discriminate X|]; constructor; [intros []|constructor]).
  assert (RD : Forall readable ([bad_text] ++ [unit_text])).
  { destruct grid_separate as (R1 & _). constructor; [apply (readable_code _ (code bad_text)); vm_compute; reflexivity|]. constructor; [exact R1|constructor]. }
  pose proof (c100_added_partial no_fmt no_ext ev0 GramExamples.base0 [] text_eq no_sub (disk_of bad_first) nowhere None [] _ _ _ _ _ _ no_disk $"/m" $"utf-8" true no_disk $"/m" $"utf-8" true
    RE1 RE2 (Forall2_cons _ _ T1 (Forall2_nil _)) (Forall2_cons _ _ T2 (Forall2_nil _)) NB RD) as C.
  cbv zeta in C. rewrite E1 in C. exact C.
Qed.

(** The full statement fails.  An added header that undefines a macro it does not define: the definition is gone,
    though the header that made it still has it. *)
Definition undef_two : list (str * str) := [($"/s/a.h", $"#define A 1"); ($"/s/b.h", $"#undef A")].
Theorem c100_undef_refuted :
  exists l a b p q, Forall readable (map snd l) /\ NoDup (map basename (keys l)) /\ keys l = [a; b]
    /\ first_step l [] [a] = Some (Ok (p, None)) /\ first_step l [] [a; b] = Some (Ok (q, None))
    /\ (forall k, defined_in (p_store q) (Some (basename b)) k $"A" = None)
    /\ defined_in (p_store q) (Some (basename a)) Macros $"A" = Some (EText $"1")
    /\ defined (p_store p) Macros $"A" = Some (EText $"1") /\ defined (p_store q) Macros $"A" = None.
Proof.
  exists undef_two, $"/s/a.h", $"/s/b.h". do 2 eexists.
  split.
  { constructor; [|constructor; [|constructor]].
    - apply (readable_code _ (code $"#define A 1")); vm_compute; reflexivity.
    - apply (readable_code _ (code $"#undef A")); vm_compute; reflexivity. }
  split; [vm_compute; constructor; [intros [X|[]]; discriminate X|]; constructor; [intros []|constructor]|].
  split; [reflexivity|]. split; [vm_compute; reflexivity|]. split; [vm_compute; reflexivity|].
  split; [intros []; vm_compute; reflexivity|]. split; [vm_compute; reflexivity|]. split; vm_compute; reflexivity.
Qed.
Print Assumptions c100_undef_refuted.
(** An added header with the base name of another one: the definitions of the two are kept in the same tables. *)
Definition same_two : list (str * str) := [($"/s/x.h", $"#define A 1"); ($"/t/x.h", $"#define A 3")].
Theorem c100_base_names_refuted :
  exists l a b p q, Forall readable (map snd l) /\ NoDup (keys l) /\ keys l = [a; b] /\ (forall t n, In t (map snd l) -> ~ undefines_macro n t)
    /\ first_step l [] [a] = Some (Ok (p, None)) /\ first_step l [] [a; b] = Some (Ok (q, None))
    /\ defined_in (p_store p) (Some (basename a)) Macros $"A" = Some (EText $"1") /\ defined_in (p_store q) (Some (basename a)) Macros $"A" = Some (EText $"3").
Proof.
  exists same_two, $"/s/x.h", $"/t/x.h". do 2 eexists.
  split.
  { constructor; [|constructor; [|constructor]].
    - apply (readable_code _ (code $"#define A 1")); vm_compute; reflexivity.
    - apply (readable_code _ (code $"#define A 3")); vm_compute; reflexivity. }
  split; [constructor; [intros [X|[]]; discriminate X|]; constructor; [intros []|constructor]|].
  split; [reflexivity|].
  split; [intros t n [<-|[<-|[]]]; apply no_undef; vm_compute; reflexivity|].
  split; [vm_compute; reflexivity|]. split; [vm_compute; reflexivity|]. split; vm_compute; reflexivity.
Qed.
Print Assumptions c100_base_names_refuted.
