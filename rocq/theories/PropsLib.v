(** Properties C47-C50: opening libraries, access to definitions. *)
From Coq Require Import Ascii String Bool Arith ZArith Lia List.
Import ListNotations.
From Verif Require Import PyBase PyStr StoreModel UtilModel UtilSpec UtilProofs PropsUtil LibModel LibSpec LibProofs.

(** ** C47: one library object per library *)
(** A system with /lib/m.so, a link to /lib/m.so.6, found by the system search for m.so. *)
Definition linked_lib : surroundings :=
  {| e_fs := {| fs_join := fun a b => a ++ $"/" ++ b;
                fs_isfile := fun p => mem p [$"/lib/m.so"; $"/lib/m.so.6"];
                fs_isdir := fun _ => true;
                fs_system := fun n => if eqb n $"m.so" then Some $"/lib/m.so" else None |};
     e_libdirs := []; e_platform := $"linux"; e_bits := 64;
     e_real := fun p => if eqb p $"/lib/m.so" then $"/lib/m.so.6" else p;
     e_content := fun _ => None; e_file := fun _ => Ok $"ELF 64-bit"; e_init := fun _ => Ok tt |}.
(** False as stated: a library found by name is not resolved, a path is. *)
Theorem c47_one_object_refuted : exists e r1 r2 p1 p2 o1 o2 s1,
  designates e r1 p1 /\ designates e r2 p2 /\ e_real e p1 = e_real e p2
  /\ open_lib e r1 none_opened = (Ok o1, s1) /\ fst (open_lib e r2 s1) = Ok o2 /\ o1 <> o2.
Proof.
  exists linked_lib, (ByName $"m.so"), (ByName $"/lib/m.so"), $"/lib/m.so", $"/lib/m.so.6", 0, 1,
    {| o_libs := [($"/lib/m.so", 0)]; o_next := 1 |}.
  split; [|split; [|repeat split; try discriminate]].
  - apply DesName; [|reflexivity]. cbn. intuition discriminate.
  - apply (DesPath linked_lib $"/lib/m.so"); [now left|reflexivity].
Qed.
Print Assumptions c47_one_object_refuted.

(** Requests for the same path: in every history of openings and of disappearances of objects,
    as long as the object lives a request for its path gives it and a request for another path
    does not. *)
Theorem c47_one_object_partial : forall e evs1 r1 o s1 evs2 r2 p,
  open_lib e r1 (history e evs1 none_opened) = (Ok o, s1) ->
  designates e r1 p ->
  ~ In (Collect o) evs2 ->
  let s2 := history e evs2 s1 in
  (designates e r2 p -> (checked r2 -> fits e p) -> open_lib e r2 s2 = (Ok o, s2))
  /\ (forall q, designates e r2 q -> q <> p -> fst (open_lib e r2 s2) <> Ok o).
Proof. exact one_object. Qed.
Print Assumptions c47_one_object_partial.

Example c47_case :
  let s1 := snd (open_lib linked_lib (ByName $"m.so") none_opened) in
  open_lib linked_lib (ByName $"m.so") none_opened = (Ok 0, s1)
  /\ designates linked_lib (ByName $"m.so") $"/lib/m.so"
  /\ ~ In (Collect 0) [Open (ByName $"/lib/m.so.6"); Collect 1]
  /\ designates linked_lib (ByHandle $"/lib/m.so") $"/lib/m.so"
  /\ fst (open_lib linked_lib (ByHandle $"/lib/m.so")
           (history linked_lib [Open (ByName $"/lib/m.so.6"); Collect 1] s1)) = Ok 0
  /\ fst (open_lib linked_lib (ByName $"m.so")
           (history linked_lib [Open (ByName $"/lib/m.so.6"); Collect 0] s1)) = Ok 2.
Proof.
  split; [reflexivity|]. split; [apply DesName; [cbn; intuition discriminate|reflexivity]|].
  split; [cbn; intuition discriminate|]. split; [now apply DesFile|]. split; reflexivity.
Qed.

(** If searched names and the names of loaded libraries are resolved paths, the full statement
    holds: requests for the same file get the same object. *)
Theorem c47_same_file_partial : forall e evs1 r1 o s1 evs2 r2 p1 p2,
  canonical e ->
  open_lib e r1 (history e evs1 none_opened) = (Ok o, s1) ->
  designates e r1 p1 -> designates e r2 p2 -> e_real e p1 = e_real e p2 ->
  (checked r2 -> fits e p2) ->
  ~ In (Collect o) evs2 ->
  open_lib e r2 (history e evs2 s1) = (Ok o, history e evs2 s1).
Proof.
  intros e evs1 r1 o s1 evs2 r2 p1 p2 [_ C] O D1 D2 R F NC.
  rewrite (C _ _ D1), (C _ _ D2) in R. subst p2.
  exact (proj1 (one_object e evs1 r1 o s1 evs2 r2 p1 O D1 NC) D2 F).
Qed.
Print Assumptions c47_same_file_partial.

Definition plain_lib : surroundings :=
  {| e_fs := {| fs_join := fun a b => a ++ $"/" ++ b;
                fs_isfile := fun p => mem p [$"/lib/m.so"; $"/lib/c.so"];
                fs_isdir := fun _ => true;
                fs_system := fun n => if eqb n $"m.so" then Some $"/lib/m.so" else None |};
     e_libdirs := []; e_platform := $"linux"; e_bits := 64; e_real := fun p => p;
     e_content := fun _ => None; e_file := fun _ => Ok $"ELF 64-bit"; e_init := fun _ => Ok tt |}.
Example c47_same_file_case :
  canonical plain_lib
  /\ fst (open_lib plain_lib (ByName $"/lib/m.so") (history plain_lib [Open (ByName $"m.so"); Open (ByName $"/lib/c.so")] none_opened)) = Ok 0.
Proof. split; [split; reflexivity|reflexivity]. Qed.

(** ** C48: a library of the wrong word size is never wrapped *)
Theorem c48_word_size : forall e s st,
  (forall p, designates e (ByName s) p -> ~ fits e p -> open_lib e (ByName s) st = (Err OSError, st))
  /\ (forall o, fst (open_lib e (ByName s) st) = Ok o -> exists p, designates e (ByName s) p /\ fits e p).
Proof. intros e s st. split; [intros p; apply open_refused|apply open_fits]. Qed.
Print Assumptions c48_word_size.

Example c48_case :
  let e := {| e_fs := e_fs plain_lib; e_libdirs := []; e_platform := $"win32"; e_bits := 64;
              e_real := fun p => p;
              e_content := fun _ => Some (pe_sample ($"PE" ++ ["000"; "000"]%char) 76 1);
              e_file := fun _ => Err OSError; e_init := fun _ => Ok tt |} in
  designates e (ByName $"/lib/m.so") $"/lib/m.so" /\ known_arch e $"/lib/m.so" = [32]
  /\ ~ fits e $"/lib/m.so" /\ fst (open_lib e (ByName $"/lib/m.so") none_opened) = Err OSError.
Proof.
  intros e. split; [apply (DesPath e $"/lib/m.so"); [now left|reflexivity]|].
  split; [reflexivity|]. split; [|reflexivity]. intros [H|H]; [discriminate H|].
  vm_compute in H. intuition discriminate.
Qed.

(** ** C49: attribute access finds the first matching kind *)
(** Headers from a list of definitions; everything but values is made anew by the backend. *)
Definition head_of (prefix : list str) (l : list (kind * str * option str)) : headers :=
  {| h_prefix := prefix;
     h_defs := fun k n => match find (fun d => eqb (fst (fst d)) k && eqb (snd (fst d)) n) l with
                          | Some d => Some (snd d) | None => None end;
     h_build := fun k n => Ok MNew |}.
(** False as stated: a name without value hides the prefixed one; a typedef of void is not
    found. *)
Theorem c49_first_kind_refuted :
  (exists h name k n, first_match h name k n /\ h_build h k n = Ok MNew
     /\ fst (do_access h (Attr name) no_cache) = Err NameError)
  /\ (exists h name k n, first_match h name k n /\ h_build h k n = Ok MNone
     /\ fst (do_access h (Attr name) no_cache) = Err NameError).
Proof.
  split.
  - exists (head_of [$"P_"] [(Values, $"A", None); (Values, $"P_A", Some $"5")]), $"A", Values, $"P_A".
    split; [|split; reflexivity]. split; [|split].
    + exists [], (tl documented_order). split; [reflexivity|]. intros k' n' [].
    + exists [$"A"], []. split; [reflexivity|]. intros n' [<-|[]] [v V]. discriminate V.
    + exists $"5". reflexivity.
  - exists {| h_prefix := []; h_defs := fun k n => if eqb k Types && eqb n $"V" then Some None else None;
              h_build := fun k n => Ok MNone |}, $"V", Types, $"V".
    split; [|split; reflexivity]. split; [|split].
    + exists [Values; Functions], [Structs; Unions; Enums]. split; [reflexivity|].
      intros k' n' [<-|[<-|[]]] _ V.
      * destruct V as [v V]. discriminate V.
      * apply V. reflexivity.
    + exists [], []. split; [reflexivity|]. intros n' [].
    + discriminate.
Qed.
Print Assumptions c49_first_kind_refuted.

(** The full statement when no null value hides a value, and the backend makes something of the
    definition; for a fresh library, and after any accesses if no definition is called like
    another one with a prefix. *)
Theorem c49_first_kind_partial : forall h name, clear h name ->
  let r := fst (do_access h (Attr name) no_cache) in
  (forall k n, first_match h name k n -> h_build h k n <> Ok MNone -> is_object h k n r)
  /\ (no_match h name -> r = Err NameError).
Proof. exact attr_first_match_fresh. Qed.
Print Assumptions c49_first_kind_partial.

Theorem c49_first_kind_later_partial : forall h l name,
  no_clash h -> Forall (complete h) l -> clear h name ->
  let r := fst (do_access h (Attr name) (accesses h l no_cache)) in
  (forall k n, first_match h name k n -> h_build h k n <> Ok MNone -> is_object h k n r)
  /\ (no_match h name -> r = Err NameError).
Proof. exact attr_first_match. Qed.
Print Assumptions c49_first_kind_later_partial.

(** A function f with prefix and a structure f: the function is found. *)
Definition sample_head : headers :=
  head_of [$"p_"] [(Functions, $"p_f", None); (Structs, $"f", None); (Values, $"N", Some $"3")].
Example c49_case :
  clear sample_head $"f" /\ first_match sample_head $"f" Functions $"p_f"
  /\ fst (do_access sample_head (Attr $"f") no_cache) = Ok (OMade 0 Functions $"p_f")
  /\ fst (do_access sample_head (Attr $"g") no_cache) = Err NameError
  /\ Forall (complete sample_head) [Attr $"N"; Call Structs $"f"]
  /\ fst (do_access sample_head (Attr $"f") (accesses sample_head [Attr $"N"; Call Structs $"f"] no_cache))
     = Ok (OMade 1 Functions $"p_f").
Proof.
  split.
  { intros n n' [->|(p & [<-|[]] & ->)] _ V; discriminate V. }
  split; [|split; [reflexivity|split; [reflexivity|split; [|reflexivity]]]].
  - split; [|split].
    + exists [Values], [Types; Structs; Unions; Enums]. split; [reflexivity|].
      intros k' n' [<-|[]] [->|(p & [<-|[]] & ->)] [v V]; discriminate V.
    + exists [$"f"], []. split; [reflexivity|]. intros n' [<-|[]] V. apply V. reflexivity.
    + discriminate.
  - constructor; [exact Logic.I|]. constructor; [left; left; discriminate|]. repeat constructor.
Qed.
Lemma sample_defined k n : h_defs sample_head k n <> None ->
  (k = Functions /\ n = $"p_f") \/ (k = Structs /\ n = $"f") \/ (k = Values /\ n = $"N").
Proof.
  unfold sample_head, head_of. cbn [h_defs find fst snd].
  destruct (eqb Functions k && eqb $"p_f" n) eqn:A.
  { intros _. apply andb_true_iff in A. destruct A as [A B]. apply eqb_eq in A, B. auto. }
  destruct (eqb Structs k && eqb $"f" n) eqn:B.
  { intros _. apply andb_true_iff in B. destruct B as [C D]. apply eqb_eq in C, D. auto. }
  destruct (eqb Values k && eqb $"N" n) eqn:C.
  { intros _. apply andb_true_iff in C. destruct C as [C D]. apply eqb_eq in C, D. auto. }
  intros X. destruct (X eq_refl).
Qed.
Example c49_no_clash : no_clash sample_head.
Proof.
  intros k n p [<-|[]] _ U V.
  assert (X : forall k n, usable sample_head k n ->
     (k = Functions /\ n = $"p_f") \/ (k = Structs /\ n = $"f") \/ (k = Values /\ n = $"N")).
  { intros k' n' [D|[_ D]]; apply sample_defined in D; [exact D|].
    destruct D as [[D _]|[[D _]|[D _]]]; discriminate D. }
  apply X in U. apply X in V.
  destruct U as [[-> ->]|[[-> ->]|[-> ->]]], V as [[V1 V2]|[[V1 V2]|[V1 V2]]]; discriminate.
Qed.

(** ** C50: access order does not matter *)
(** False as stated: with definitions f and p_f and prefix p_, lib.f fails after lib.p_f. *)
Theorem c50_order_refuted : exists h earlier a o,
  fst (do_access h a no_cache) = Ok o
  /\ fst (do_access h a (accesses h earlier no_cache)) = Err NameError.
Proof.
  exists (head_of [$"p_"] [(Functions, $"p_f", None); (Functions, $"f", None)]), [Attr $"p_f"],
    (Attr $"f"), (OMade 0 Functions $"f"). split; reflexivity.
Qed.
Print Assumptions c50_order_refuted.

(** If no definition is called like another one with a prefix, and lib(kind, name) is used with
    complete names, what an access gives does not depend on the accesses before. *)
Theorem c50_order_partial : forall h l a,
  no_clash h -> Forall (complete h) l -> complete h a ->
  alike (fst (do_access h a (accesses h l no_cache))) (fst (do_access h a no_cache)).
Proof. exact access_order. Qed.
Print Assumptions c50_order_partial.
(** Meets the hypotheses: [c49_no_clash] and the accesses of [c49_case]. *)
Example c50_case :
  no_clash sample_head /\ Forall (complete sample_head) [Attr $"N"; Call Structs $"f"; Attr $"g"]
  /\ complete sample_head (Call Functions $"p_f").
Proof.
  split; [exact c49_no_clash|]. split.
  - constructor; [exact Logic.I|]. constructor; [left; left; discriminate|]. repeat constructor.
  - left. left. discriminate.
Qed.

(** Repeated accesses give the same object: for all headers and histories. *)
Theorem c50_repeated_access : forall h a c o between,
  fst (do_access h a c) = Ok o ->
  fst (do_access h a (accesses h between (snd (do_access h a c)))) = Ok o.
Proof. intros h a c o between. exact (access_repeat h a c o between). Qed.
Print Assumptions c50_repeated_access.

(** An attribute is the same object as lib(kind, name) gives for its definition. *)
Theorem c50_attribute_is_call : forall h l name o,
  let c := accesses h l no_cache in
  fst (do_access h (Attr name) c) = Ok o ->
  exists k n, In k documented_order /\ candidate h name n
    /\ fst (do_access h (Call k n) (snd (do_access h (Attr name) c))) = Ok o.
Proof. exact attr_is_call. Qed.
Print Assumptions c50_attribute_is_call.

Example c50_repeat_case :
  fst (do_access sample_head (Attr $"f") (accesses sample_head [Attr $"N"; Call Structs $"f"] no_cache))
     = Ok (OMade 1 Functions $"p_f")
  /\ fst (do_access sample_head (Call Functions $"p_f")
        (accesses sample_head [Attr $"N"; Call Structs $"f"; Attr $"f"; Attr $"zz"] no_cache))
     = Ok (OMade 1 Functions $"p_f").
Proof. split; reflexivity. Qed.
