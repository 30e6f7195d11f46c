(** What C96 says about the results of calls, independently of the algorithms. *)
From Coq Require Import Ascii String Bool Arith ZArith Sorted List.
Import ListNotations.
From Verif Require Import PyBase PyStr TypeModel InitModel StoreModel DeclModel DeclSpec CtModel LinkSpec AutoSpec.
From Verif Require Import FunModel ObjModel InvokeModel InvokeSpec ResultModel.
From Verif Require ObjSpec LibModel.

(** Instances of the class have an attribute [value]: a member of that name, or inside of anonymous members. *)
Inductive has_value (ks : list cls) : nat -> Prop :=
| hv_own i k fs f : nth_error ks i = Some k -> k_fields k = Some fs -> In f fs -> fd_name f = $"value" -> has_value ks i
| hv_inner i k fs f j : nth_error ks i = Some k -> k_fields k = Some fs -> In f fs -> In (fd_name f) (k_anon k) ->
    fd_type f = PClass j -> has_value ks j -> has_value ks i.

Section Results.
  (** As in InvokeSpec.v; what the C function does; the classes of the library. *)
  Context (cf : tconf) (s : store entry) (ps : list (option str * cty * option str)) (cs : list pyt)
    (args : list pyval) (kwargs : list (str * pyval)) (w : world) (ks : list cls).

  (** What is stored in an object of type [c]: a Python value if it is one of the simple types, or an object: a structure or
      union without a member called value, or a pointer. *)
  Inductive content : pyt -> nat -> pyres -> Prop :=
  | ct_simple n id : content (PBase n) id (Raw id)
  | ct_plain j id : w_plain w j = true -> content (POther j) id (Raw id)
  | ct_other j id : w_plain w j = false -> w_valued w j = false -> content (POther j) id (Obj (POther j) id)
  | ct_class i id : ~ has_value ks i -> content (PClass i) id (Obj (PClass i) id)
  | ct_pointer c id : content (PPtr c) id (Obj (PPtr c) id)
  | ct_function b c l id : content (PFun b c l) id (Obj (PFun b c l) id).
  (** [result()] *)
  Inductive gives_back : pyt -> pyres -> Prop :=
  | gb_void : gives_back PVoid PyNone
  | gb_value c x : content c (w_ret w) x -> gives_back c x.
  (** [result[i]]: for a parameter left out what the C function has stored in the new object; for others what the caller
      gave, the value of it if it has one; a null pointer for None, which is None for pointers ctypes converts. *)
  Inductive shows (i : nat) : pyres -> Prop :=
  | sh_object id : gives ps args kwargs i (PVal id) -> w_mine w id = false -> shows i (Mine id)
  | sh_value id : gives ps args kwargs i (PVal id) -> w_mine w id = true -> shows i (w_value w (Mine id))
  | sh_none t n : gives ps args kwargs i PNone -> type_at cf s ps cs i t (PBase n) -> shows i PyNone
  | sh_null t c : gives ps args kwargs i PNone -> type_at cf s ps cs i t c ->
      match c with PPtr _ | PFun _ _ _ => True | _ => False end -> shows i (Obj c (w_made w i))
  | sh_new t c c0 x : gives_nothing ps args kwargs i -> type_at cf s ps cs i t c ->
      (c = PPtr c0 \/ c = PBase $"c_void_p" /\ c0 = c) -> content c0 (w_stored w i) x -> shows i x.
  (** [n] is the name of the parameter [i], and of none in front of it. *)
  Definition first_named (n : str) (i : nat) : Prop :=
    (exists t v, nth_error ps i = Some (Some n, t, v)) /\ forall j t v, j < i -> nth_error ps j <> Some (Some n, t, v).
  (** The result [r] of the call of a function with results of type [c]. *)
  Definition good_result (c : pyt) (r : result) : Prop :=
    (forall x, gives_back c x -> returned w ks r = x)
    /\ (forall i x, shows i x -> item w ks r (Int (Z.of_nat i)) = Ok x /\ forall n, first_named n i -> item w ks r (Name n) = Ok x)
    /\ (exists l, StronglySorted lt l /\ (forall i, In i l <-> i < length ps /\ gives_nothing ps args kwargs i)
         /\ auto w ks r = mapM (fun i => item w ks r (Int (Z.of_nat i))) l)
    /\ all_items w ks r = mapM (fun i => item w ks r (Int (Z.of_nat i))) (seq 0 (Nat.max (length args) (length ps))).
End Results.

(** The access [a] gives the function [n], and the results of its calls are good, after any uses of the library. *)
Definition results_well cf table win s D prefix exports takes (a : LibModel.access) (n : str)
  (ps : list (option str * cty * option str)) (r : cty) : Prop :=
  forall l, Forall (orderly_use cf table s D prefix) l ->
  let b := open_with cf table win s prefix exports in
  exists st c cs st', ObjSpec.gives (fun f => uses b f takes l (opened b)) st
    /\ ObjSpec.gives (fun f => do_access b f a st) (Ok (VFunction n c cs), st')
    /\ represents cf table s D (classes (q_ct st')) r c /\ all_represented cf table s D (classes (q_ct st')) ps cs
    /\ (no_defaults ps -> forall args kwargs, NoDup (map fst kwargs) -> well_called cf s takes ps cs args kwargs ->
        exists res st1, ObjSpec.gives (fun f => call_result b f takes a args kwargs st) (Ok res, st1)
          /\ forall w, good_result cf s ps cs args kwargs w (st_classes (q_ct st1)) c res).
