(** Properties C01-C05, C07-C09, C66: types and typedef resolution. *)
From Coq Require Import Ascii String Bool Arith ZArith List.
Import ListNotations.
From Verif Require Import PyBase PyStr TypeModel TypeSpec WordFacts TypeProofs.

(** A table used in the examples: [typedef const int *A; typedef A volatile B[2];
    typedef C D; typedef D C; typedef E *F;] *)
Definition cf0 : tconf := {| extra_types := [$"ULONG"]; py312 := false; win32 := false |}.
Definition tab0 : dict str (tentry (list nat)) :=
  [($"A", TyE (CT (SName $"signed int") [DStr $"*"] [Some [$"const"]; Some []]));
   ($"B", TyE (CT (SName $"A") [DArr [2]] [Some [$"volatile"]; Some []]));
   ($"C", TyE (CT (SName $"D") [] [Some []]));
   ($"D", TyE (CT (SName $"C") [] [Some []]));
   ($"F", TyE (CT (SName $"E") [DStr $"*"] [Some []; Some []]))].
Definition tB : ctype (list nat) := CT (SName $"B") [DStr $"*"] [Some []; Some [$"const"]].
Definition tC : ctype (list nat) := CT (SName $"C") [] [Some []].
Definition tF : ctype (list nat) := CT (SName $"F") [] [Some []].

(** C01: resolution finishes; the table's number of entries bounds the number of typedefs
    followed, since allowing more steps changes nothing. *)
Theorem c01_resolution_finishes :
  forall (A : Type) (cf : tconf) (m : dict str (tentry A)) (t : ctype A),
    eval_type cf m t <> Err OutOfFuel
    /\ (forall k, eval_fuel cf m (length m + k) [] t = eval_type cf m t).
Proof.
  exact (fun A cf m t => conj (eval_type_not_fuel cf m t) (fun k => eval_type_stable cf m t k)).
Qed.
Print Assumptions c01_resolution_finishes.

Example c01_example :
  eval_type cf0 tab0 tC = Err DefinitionError
  /\ eval_fuel cf0 tab0 1 [] tC = Err OutOfFuel
  /\ (exists r, eval_type cf0 tab0 tB = Ok r).
Proof. vm_compute. repeat split. eexists. reflexivity. Qed.

(** C02: resolution returns [r] exactly when the name leads by typedefs to a fundamental
    type, and [r] is then the type read off the chain. *)
Theorem c02_typedef_chain :
  forall (A : Type) (cf : tconf) (m : dict str (tentry A)) (s : str) ds qs (r : ctype A),
    (forall k t, dget m k = Some (TyE t) -> qual_ok t) ->
    qual_ok (CT (SName s) ds qs) ->
    (eval_type cf m (CT (SName s) ds qs) = Ok r <->
     exists path b, chain cf (typedefs m) s path b
       /\ t_spec r = SName (canon b)
       /\ t_decls r = chain_decls path ++ ds
       /\ levels r = glue_all path (CT (SName s) ds qs)
       /\ qual_ok r).
Proof. exact (fun A cf m s ds qs r => eval_type_chain cf m s ds qs r). Qed.
Print Assumptions c02_typedef_chain.

(** C02, the base: the words other than [signed], in order; a tagged name is kept. *)
Theorem c02_base_words :
  forall cf b,
    plain_conf cf -> (forall w, is_word_of w b -> In w (type_words cf)) ->
    split_ws (canon b) = filter (fun w => negb (eqb w $"signed")) (split_ws b).
Proof. exact canon_words. Qed.
Print Assumptions c02_base_words.
Theorem c02_base_tag :
  forall p r, In p tag_prefixes -> identifier r -> r <> $"signed" -> canon (p ++ r) = p ++ r.
Proof. exact canon_tag. Qed.
Print Assumptions c02_base_tag.

Lemma tab0_ok : forall k t, dget tab0 k = Some (TyE t) -> qual_ok t.
Proof.
  intros k t. unfold tab0. cbn [dget].
  repeat (match goal with |- context [if ?c then _ else _] => destruct c end);
    intros E; try discriminate; injection E as <-;
    (split; [reflexivity|repeat constructor; discriminate]).
Qed.
Example c02_example :
  qual_ok tB /\ (forall k t, dget tab0 k = Some (TyE t) -> qual_ok t)
  /\ eval_type cf0 tab0 tB
     = Ok (CT (SName $"int") [DStr $"*"; DArr [2]; DStr $"*"]
              [Some [$"const"]; Some [$"volatile"]; Some []; Some [$"const"]]).
Proof.
  split; [split; [reflexivity|repeat constructor; discriminate]|].
  split; [exact tab0_ok|vm_compute; reflexivity].
Qed.
Example c02_base_example :
  plain_conf cf0 /\ (forall w, is_word_of w $"long signed  int" -> In w (type_words cf0))
  /\ canon $"long signed  int" = $"long   int"
  /\ canon $"struct signed_thing" = $"struct signed_thing".
Proof.
  split. { intros w [<-|[]]. simpl. auto. }
  split.
  { intros w W. apply is_word_of_split in W. vm_compute in W.
    destruct W as [<-|[<-|[<-|[]]]]; apply mem_In; reflexivity. }
  split; reflexivity.
Qed.

(** C03 *)
Theorem c03_definition_error :
  forall (A : Type) (cf : tconf) (m : dict str (tentry A)) (s : str) ds qs,
    (forall k e, dget m k = Some e ->
       exists n ds qs, e = TyE (CT (SName n) ds qs) /\ qual_ok (CT (SName n) ds qs)) ->
    qual_ok (CT (SName s) ds qs) ->
    (eval_type cf m (CT (SName s) ds qs) = Err DefinitionError
     <-> circular cf (typedefs m) s \/ dangling cf (typedefs m) s)
    /\ ((exists r, eval_type cf m (CT (SName s) ds qs) = Ok r)
        \/ eval_type cf m (CT (SName s) ds qs) = Err DefinitionError).
Proof. exact (fun A cf m s ds qs => eval_type_deferr cf m s ds qs). Qed.
Print Assumptions c03_definition_error.

Example c03_example :
  (forall k e, dget tab0 k = Some e ->
     exists n ds qs, e = TyE (CT (SName n) ds qs) /\ qual_ok (CT (SName n) ds qs))
  /\ circular cf0 (typedefs tab0) $"C" /\ dangling cf0 (typedefs tab0) $"F"
  /\ eval_type cf0 tab0 tC = Err DefinitionError
  /\ eval_type cf0 tab0 tF = Err DefinitionError.
Proof.
  assert (NF : forall s, is_fund cf0 s = false -> ~ fundamental cf0 s).
  { intros s E. rewrite <- is_fund_iff. congruence. }
  split; [|split; [|split; [|split; vm_compute; reflexivity]]].
  - intros k e E. pose proof E as E'. unfold tab0 in E. cbn [dget] in E.
    repeat (match goal with [ H : (if ?c then _ else _) = _ |- _ ] => destruct c end);
      try discriminate; injection E as <-; do 3 eexists; (split; [reflexivity|]);
      eapply tab0_ok; exact E'.
  - exists $"C", $"D". split; [constructor|]. split.
    + split; [apply NF; reflexivity|do 2 eexists; reflexivity].
    + apply meets_next with (n := $"C"); [|constructor].
      split; [apply NF; reflexivity|do 2 eexists; reflexivity].
  - exists $"E". split.
    + apply meets_next with (n := $"E"); [|constructor].
      split; [apply NF; reflexivity|do 2 eexists; reflexivity].
    + split; [apply NF; reflexivity|reflexivity].
Qed.

(** A type level carrying a calling convention makes resolution fail with TypeError:
    [typedef int __stdcall X; const X v;] *)
Theorem c03_calling_convention_refuted :
  exists (m : dict str (tentry (list nat))) t,
    (exists s path b, t_spec t = SName s /\ chain cf0 (typedefs m) s path b)
    /\ eval_type cf0 m t = Err TypeError.
Proof.
  exists [($"X", TyE (CT (SName $"int") [DStr $"__stdcall"] [Some []; None]))],
    (CT (SName $"X") [] [Some [$"const"]]).
  split; [|vm_compute; reflexivity].
  exists $"X". eexists. exists $"int". split; [reflexivity|].
  apply chain_step.
  - rewrite <- is_fund_iff. vm_compute. discriminate.
  - reflexivity.
  - apply chain_base. apply is_fund_iff. reflexivity.
Qed.
Print Assumptions c03_calling_convention_refuted.

(** C04 *)
Theorem c04_qualifiers_kept :
  forall (A : Type) (cf : tconf) (m : dict str (tentry A)) (t r : ctype A),
    (forall k t, dget m k = Some (TyE t) -> qual_ok t) -> qual_ok t ->
    eval_type cf m t = Ok r ->
    exists s path b, t_spec t = SName s /\ chain cf (typedefs m) s path b
      /\ levels r = glue_all path t
      /\ concat (levels r)
         = flat_map (fun t => concat (levels t)) (rev path) ++ concat (levels t)
      /\ length (levels r) = 1 + length (t_decls r).
Proof. exact (fun A cf m t r => eval_type_quals cf m t r). Qed.
Print Assumptions c04_qualifiers_kept.
Example c04_example :
  (forall k t, dget tab0 k = Some (TyE t) -> qual_ok t) /\ qual_ok tB
  /\ exists r, eval_type cf0 tab0 tB = Ok r
      /\ levels r = [[$"const"]; [$"volatile"]; []; [$"const"]].
Proof.
  split; [exact tab0_ok|]. split; [split; [reflexivity|repeat constructor; discriminate]|].
  eexists. split; vm_compute; reflexivity.
Qed.

(** C05: for C type names (see [c_like]: a tag is followed by an identifier). *)
Theorem c05_resolution_idempotent :
  forall (A : Type) (cf : tconf) (m m' : dict str (tentry A)) (t r : ctype A),
    plain_conf cf ->
    length (t_quals t) = 1 + length (t_decls t) ->
    (forall s, t_spec t = SName s -> c_like s) ->
    (forall k n ds qs, dget m k = Some (TyE (CT (SName n) ds qs)) -> c_like n) ->
    eval_type cf m t = Ok r -> eval_type cf m' r = Ok r.
Proof. exact (fun A cf m m' t r => eval_idem cf m m' t r). Qed.
Print Assumptions c05_resolution_idempotent.
(** Without the restriction it fails: the base [struct ] (no name) is fundamental, its
    resolved form is not. *)
Theorem c05_free_text_refuted :
  exists (t r : ctype (list nat)), eval_type cf0 [] t = Ok r /\ eval_type cf0 [] r <> Ok r.
Proof.
  exists (CT (SName $"struct ") [] [Some []]), (CT (SName $"struct") [] [Some []]).
  vm_compute. split; [reflexivity|discriminate].
Qed.
Print Assumptions c05_free_text_refuted.

Lemma no_tag s : (forall p, In p tag_prefixes -> starts_with p s = false) -> c_like s.
Proof.
  intros H p r I ->. specialize (H p I). rewrite PyStrFacts.starts_with_app in H. discriminate.
Qed.
Ltac not_tagged :=
  apply no_tag; let p := fresh in let I := fresh in
  intros p I; repeat (destruct I as [<-|I]; [reflexivity|]); destruct I.
Example c05_example :
  plain_conf cf0
  /\ (forall s, t_spec tB = SName s -> c_like s)
  /\ (forall k n ds qs, dget tab0 k = Some (TyE (CT (SName n) ds qs)) -> c_like n)
  /\ (exists r, eval_type cf0 tab0 tB = Ok r)
  /\ c_like $"struct node".
Proof.
  split. { intros w [<-|[]]. simpl. auto. }
  split. { intros s E. injection E as <-. not_tagged. }
  split.
  { intros k n ds qs. unfold tab0. cbn [dget].
    repeat (match goal with |- context [if ?c then _ else _] => destruct c end);
      intros E; try discriminate; injection E as <- <- <-; not_tagged. }
  split. { eexists. vm_compute. reflexivity. }
  intros p r I E. cbn [tag_prefixes In] in I.
  destruct I as [<-|[<-|[<-|[]]]]; try discriminate E.
  change $"struct node" with ($"struct " ++ $"node") in E. apply app_inv_head in E. subst r.
  split; [simpl; auto|discriminate].
Qed.

(** C07 *)
Theorem c07_hack_undone_partial :
  forall (A : Type) (t : ctype A) s args ds,
    t_spec t = SName s -> t_decls t = ds ++ [DFun args] ->
    length (t_quals t) = 1 + length (t_decls t) ->
    t_spec (remove_hack (add_hack t)) = t_spec t
    /\ t_decls (remove_hack (add_hack t)) = t_decls t
    /\ (Forall (fun q => q = Some []) (t_quals t) -> remove_hack (add_hack t) = t).
Proof. exact (fun A t s args ds => remove_add_hack t s args ds). Qed.
Print Assumptions c07_hack_undone_partial.
Theorem c07_hack_nonfunction :
  forall (A : Type) (t : ctype A) s,
    (forall args, last (t_decls t) (DStr []) <> DFun args) -> t_spec t = SName s ->
    add_hack t = t /\ remove_hack t = t.
Proof. exact (fun A t s N S => conj (add_hack_nonfun t N) (remove_hack_named t s S)). Qed.
Print Assumptions c07_hack_nonfunction.
(** [const int f(int)] loses its qualifier. *)
Theorem c07_hack_undone_refuted :
  exists t : ctype (list nat),
    length (t_quals t) = 1 + length (t_decls t) /\ remove_hack (add_hack t) <> t.
Proof.
  exists (CT (SName $"int") [DFun []] [Some [$"const"]; Some []]).
  vm_compute. split; [reflexivity|discriminate].
Qed.
Print Assumptions c07_hack_undone_refuted.
Example c07_example :
  let t : ctype (list nat) :=
    CT (SName $"char") [DStr $"*"; DFun [(Some $"x", CT (SName $"int") [] [Some []], None)]]
       [Some []; Some []; Some []] in
  Forall (fun q => q = Some []) (t_quals t) /\ add_hack t <> t /\ remove_hack (add_hack t) = t.
Proof. split; [repeat constructor|]. split; [discriminate|reflexivity]. Qed.

(** C08 *)
Theorem c08_equality_refl : forall a, py_eq a a = true.
Proof. exact py_eq_refl. Qed.
Print Assumptions c08_equality_refl.
Theorem c08_equality_sym : forall a b, py_eq a b = py_eq b a.
Proof. exact py_eq_sym. Qed.
Print Assumptions c08_equality_sym.
(** On the objects built by the parser equality is identity, hence transitive too. *)
Theorem c08_equality_types_partial :
  forall k a b, kinded k a -> kinded k b -> (py_eq a b = true <-> a = b).
Proof.
  exact (fun k a b Ka Kb => conj (kinded_eq a k b Ka Kb)
           (fun E => eq_trans (f_equal (py_eq a) (eq_sym E)) (py_eq_refl a))).
Qed.
Print Assumptions c08_equality_types_partial.
(** With plain tuples it is not transitive: [const int] and [int] both equal [("int",)]. *)
Theorem c08_equality_trans_refuted :
  exists a b c, py_eq a b = true /\ py_eq b c = true /\ py_eq a c = false.
Proof.
  exists (PType [PStr $"int"] [Some [$"const"]]), (PTuple [PStr $"int"]),
    (PType [PStr $"int"] [Some []]).
  repeat split.
Qed.
Print Assumptions c08_equality_trans_refuted.
Example c08_example :
  kinded KType (PType [PStr $"int"; PTuple [PTuple [PStr $"a"; PType [PStr $"char"; PStr $"*"]
      [Some [$"const"]; Some []]; PNone]]; PList [PInt 3]] [Some []; Some []; Some []]).
Proof. repeat constructor. Qed.

(** C09 *)
Theorem c09_fundamental :
  forall cf s, is_fund cf s = true <-> fundamental cf s.
Proof. exact is_fund_iff. Qed.
Print Assumptions c09_fundamental.
Theorem c09_words :
  forall cf w, In w (type_words cf) <-> known_word cf w.
Proof. exact word_iff. Qed.
Print Assumptions c09_words.
Theorem c09_spacing :
  forall cf n ws, (forall w, In w ws -> w <> [] /\ forallb (fun c => negb (is_space c)) w = true) ->
    is_fund cf (join (repeat sp (S n)) ws) = is_fund cf (join [sp] ws).
Proof. exact is_fund_spacing. Qed.
Print Assumptions c09_spacing.
Example c09_example :
  is_fund cf0 $"unsigned   long ULONG" = true /\ is_fund cf0 $"unsigned foo" = false
  /\ is_fund cf0 $"struct foo" = true /\ is_fund cf0 $"structfoo" = false.
Proof. vm_compute. auto. Qed.

(** C66 *)
Theorem c66_ne_negates_eq_partial :
  forall l q o, (exists l', o = PTuple l' \/ exists q', o = PType l' q') ->
    type_ne l q o = negb (py_eq (PType l q) o).
Proof. exact type_ne_tuple. Qed.
Print Assumptions c66_ne_negates_eq_partial.
Theorem c66_ne_negates_eq_refuted :
  exists l q o, py_eq (PType l q) o = false /\ type_ne l q o = false.
Proof. exists [PStr $"int"], [Some []], (PInt 5). split; reflexivity. Qed.
Print Assumptions c66_ne_negates_eq_refuted.
Example c66_example :
  type_ne [PStr $"int"] [Some []] (PTuple [PStr $"int"]) = false
  /\ type_ne [PStr $"int"] [Some []] (PType [PStr $"int"] [Some [$"const"]]) = true.
Proof. split; reflexivity. Qed.
