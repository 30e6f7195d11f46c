(** C86: arguments a caller leaves out or gives as None. *)
From Coq Require Import Ascii String Bool Arith ZArith Lia List.
Import ListNotations.
From Verif Require Import PyBase PyBaseFacts PyStr PyExpr TypeModel InitModel StoreModel StoreSpec DeclModel DeclSpec RunSpec
  CtModel LinkModel LinkSpec LinkExamples AutoSpec AutoProofs PropsLink.
From Verif Require CtSpec PropsGram TypeSpec.

(** C86: an argument that is left out is replaced by a pointer to a new object if its type is a pointer or a
    pointer to a pointer, and that pointer is of the very type of the parameter (for a parameter of type
    pointer to void, which takes all pointers, a pointer to such a pointer); all other arguments must be given, or the call is
    refused with TypeError.  None is replaced by a null pointer of the type of the parameter, and refused
    for parameters which are no pointers.  [cs] are the types the function has been given by C82.
    Missing: pointers to characters, arrays given as None, and the types that C82 leaves out. *)
Theorem c86_left_out_partial :
  forall cf table win s D, closed cf table s D -> tagged s -> usual_table table ->
  let L := load cf table win s in
  forall n u q args r st cs, defined s Functions n = Some (EFun u) -> read_function u = Some (TFun q args r) ->
  all_represented cf table s D (classes st) (parameters args) cs -> ready (l_heap L) st ->
  exists sig, dget (l_functions L) n = Some sig
    /\ forall i name t v t' c, nth_error (parameters args) i = Some (name, t, v) -> nth_error cs i = Some c -> expanded cf s t t' ->
       (forall k, pointers k t' -> 1 <= k <= 2 -> ~ characters c ->
          exists fuel a st', (forall f, fuel <= f -> auto_arg (l_env L) f sig i st = (Ok a, st'))
            /\ (a = c \/ c = PBase $"c_void_p" /\ a = PPtr c) /\ grown cf table s D st st')
       /\ ((forall k, 1 <= k <= 2 -> ~ pointers k t') -> forall f, auto_arg (l_env L) f sig i st = (Err TypeError, st))
       /\ ((exists q u, t' = TPtr q u \/ t' = TRef q u) ->
          exists fuel st', (forall f, fuel <= f -> null_arg (l_env L) f sig i st = (Ok c, st')) /\ null_when_new c /\ grown cf table s D st st')
       /\ ((exists q b, t' = TBase q b) -> forall f, null_arg (l_env L) f sig i st = (Err TypeError, st)).
Proof. exact left_out. Qed.
Print Assumptions c86_left_out_partial.
(** The function insert of C82 once it has been wrapped: a node for its first argument can be made, its third
    one must be given, and None is a null pointer for the second and the fourth, but not for the third. *)
Definition wrapped_st : cst :=
  match dget (l_functions lib) $"insert" with
  | Some sig => snd (wrap_types (l_env lib) 9 sig (CtSpec.start (l_heap lib)))
  | None => CtSpec.start (l_heap lib)
  end.
Definition insert_types : list pyt :=
  [PPtr (PClass 0); PBase $"c_char_p"; PBase $"c_ulong"; PFun false (PBase $"c_int") [PPtr (PClass 0); PBase $"c_void_p"]].
Example c86_example :
  closed words0 std_types list_s (listed comps) /\ tagged list_s /\ usual_table std_types
  /\ (exists u args, defined list_s Functions $"insert" = Some (EFun u)
        /\ read_function u = Some (TFun [] args (TPtr [] (TBase [] $"node")))
        /\ all_represented words0 std_types list_s (listed comps) (classes wrapped_st) (parameters args) insert_types
        /\ nth_error (parameters args) 0 = Some (Some $"list", TPtr [] (TBase [] $"node"), None))
  /\ st_heap wrapped_st = l_heap lib /\ ~ characters (PPtr (PClass 0))
  /\ expanded words0 list_s (TPtr [] (TBase [] $"node")) (TPtr [] (TBase [] $"struct node"))
  /\ exists sig, dget (l_functions lib) $"insert" = Some sig
       /\ map (fun i => fst (auto_arg (l_env lib) 9 sig i wrapped_st)) [0; 2; 3; 4] = [Ok (PPtr (PClass 0)); Err TypeError; Err TypeError; Err IndexError]
       /\ map (fun i => fst (null_arg (l_env lib) 9 sig i wrapped_st)) [0; 1; 2; 3]
          = [Ok (PPtr (PClass 0)); Ok (PBase $"c_char_p"); Err TypeError; Ok (nth 3 insert_types PVoid)].
Proof.
  split; [exact list_closed|]. split; [exact list_tagged|]. split; [exact usual0|]. split; [|split; [vm_compute; reflexivity|split; [|split]]].
  - do 2 eexists. split; [vm_compute; reflexivity|]. split; [vm_compute; reflexivity|]. split; [|vm_compute; reflexivity].
    apply (rep_all_ok words0 std_types list_s comps (classes wrapped_st)). vm_compute. reflexivity.
  - intros [E|[E|[E|E]]]; vm_compute in E; discriminate E.
  - apply (expand_ok words0 list_s 20). vm_compute. reflexivity.
  - eexists. split; [vm_compute; reflexivity|]. split; vm_compute; reflexivity.
Qed.

(** False for pointers to characters: the object made for an argument of type char * that is left out is none
    that ctypes takes for it, so the call fails. *)
Theorem c86_text_refuted :
  exists text sig t c a st', let L := lib_of text in
    dget (l_functions L) $"f" = Some sig
    /\ read_function (fill (l_heap L) sig) = Some (TFun [] [(Some $"s", t, None)] (TBase [] $"void")) /\ pointers 1 t
    /\ wrap_types (l_env L) 9 sig (CtSpec.start (l_heap L)) = (Ok (PVoid, [c]), st')
    /\ fst (auto_arg (l_env L) 9 sig 0 st') = Ok a /\ ~ accepts c a.
Proof.
  exists $"void f(char *s);". do 5 eexists. split; [vm_compute; reflexivity|]. split; [vm_compute; reflexivity|].
  split; [repeat constructor|]. split; [vm_compute; reflexivity|]. split; [vm_compute; reflexivity|].
  intros A. inversion A as [| | | | | | |p c I|]. cbn [In] in I. destruct I as [E|[E|[]]]; vm_compute in E; discriminate E.
Qed.
Print Assumptions c86_text_refuted.
(** And for arrays: None for a parameter int x[3], which C takes for a pointer, becomes a new array. *)
Theorem c86_null_refuted :
  exists text sig t c st', let L := lib_of text in
    dget (l_functions L) $"f" = Some sig
    /\ read_function (fill (l_heap L) sig) = Some (TFun [] [(Some $"x", t, None)] (TBase [] $"void")) /\ is_array t = true
    /\ wrap_types (l_env L) 9 sig (CtSpec.start (l_heap L)) = (Ok (PVoid, [c]), st')
    /\ fst (null_arg (l_env L) 9 sig 0 st') = Ok c /\ ~ null_when_new c.
Proof.
  exists $"void f(int x[3]);". do 4 eexists. split; [vm_compute; reflexivity|]. split; [vm_compute; reflexivity|].
  split; [vm_compute; reflexivity|]. split; [vm_compute; reflexivity|]. split; [vm_compute; reflexivity|]. intros X. exact X.
Qed.
Print Assumptions c86_null_refuted.
