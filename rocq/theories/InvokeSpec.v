(** What C95 says about calls of functions of a library, independently of the algorithms. *)
From Coq Require Import Ascii String Bool Arith ZArith List.
Import ListNotations.
From Verif Require Import PyBase PyStr TypeModel InitModel StoreModel DeclModel DeclSpec CtModel LinkSpec AutoSpec.
From Verif Require Import FunModel ObjModel InvokeModel.
From Verif Require ObjSpec LibModel.


Section Call.
  (** The words of the parser, the tables of the headers, the objects ctypes takes for parameters, the parameters
      of the function with their ctypes types, and a call. *)
  Context (cf : tconf) (s : store entry) (takes : option pyt -> nat -> bool)
    (ps : list (option str * cty * option str)) (cs : list pyt) (args : list pyval) (kwargs : list (str * pyval)).

  (** The keyword [k] names the parameter at [i], the last one of that name. *)
  Definition names_param (k : str) (i : nat) : Prop :=
    (exists t v, nth_error ps i = Some (Some k, t, v)) /\ forall j t v, i < j -> nth_error ps j <> Some (Some k, t, v).
  Definition unknown (k : str) : Prop := forall j t v, nth_error ps j <> Some (Some k, t, v).
  (** The caller gives [v] for position [i]: by a keyword, or else by position; or nothing. *)
  Definition gives (i : nat) (v : pyval) : Prop :=
    (exists k, In (k, v) kwargs /\ names_param k i)
    \/ (nth_error args i = Some v /\ forall k w, In (k, w) kwargs -> ~ names_param k i).
  Definition gives_nothing (i : nat) : Prop :=
    nth_error args i = None /\ forall k w, In (k, w) kwargs -> ~ names_param k i.
  (** The type of a parameter, typedefs replaced. *)
  Definition type_at (i : nat) (t : cty) (c : pyt) : Prop :=
    nth_error cs i = Some c /\ exists name t0 v, nth_error ps i = Some (name, t0, v) /\ expanded cf s t0 t.

  (** What is passed for the parameter [i]: the object that is given; for None a null pointer; for nothing a
      pointer to a new object, if the parameter is a pointer or a pointer to a pointer (a pointer to a pointer for a parameter
      that takes every pointer). *)
  Inductive passes (i : nat) : carg -> Prop :=
  | pa_object id c : gives i (PVal id) -> nth_error cs i = Some c -> takes (Some c) id = true -> passes i (Own id)
  | pa_null t c : gives i PNone -> type_at i t c -> (exists q u, t = TPtr q u \/ t = TRef q u) -> passes i (NullOf c)
  | pa_new t c k a : gives_nothing i -> type_at i t c -> pointers k t -> 1 <= k <= 2 -> ~ characters c ->
      (exists c0, a = PPtr c0) -> (a = c \/ c = PBase $"c_void_p" /\ a = PPtr c) -> passes i (NewOf a).
  (** Arguments without parameter. *)
  Definition extra : Prop :=
    forall i v, length ps <= i -> nth_error args i = Some v -> exists id, v = PVal id /\ takes None id = true.
  Definition well_called : Prop :=
    (forall k v, In (k, v) kwargs -> ~ unknown k) /\ extra /\ forall i, i < length ps -> exists a, passes i a.
  (** The arguments [l] the C function gets. *)
  Definition passed (l : list carg) : Prop :=
    length l = Nat.max (length args) (length ps)
    /\ (forall i, i < length ps -> exists a, nth_error l i = Some a /\ passes i a)
    /\ forall i id, length ps <= i -> nth_error args i = Some (PVal id) -> nth_error l i = Some (Own id).

  (** Calls refused with TypeError: a keyword that names nothing, nothing given for a parameter that is no pointer, None
      for one that is none. *)
  Inductive ill_called : Prop :=
  | il_keyword k v : In (k, v) kwargs -> unknown k -> ill_called
  | il_nothing i t c : gives_nothing i -> type_at i t c -> (forall k, 1 <= k <= 2 -> ~ pointers k t) -> ill_called
  | il_null i q b c : gives i PNone -> type_at i (TBase q b) c -> ill_called.
  (** An object ctypes does not take. *)
  Definition untaken : Prop :=
    (exists i id c, gives i (PVal id) /\ nth_error cs i = Some c /\ takes (Some c) id = false)
    \/ (exists i id, length ps <= i /\ nth_error args i = Some (PVal id) /\ takes None id = false).
End Call.
(** No parameter has a default, as in C. *)
Definition no_defaults (ps : list (option str * cty * option str)) : Prop := Forall (fun p => snd p = None) ps.

(** Uses that only concern settled definitions (C94), and what a call is about. *)
Definition orderly_use cf table s D prefix (u : use) : Prop :=
  match u with
  | Get a => ObjSpec.orderly cf table s D prefix a
  | Invoke a _ _ => exists k n, ObjSpec.about cf table s D prefix a k n
  end.
(** How the call [a](args, kwargs) of a function with the parameters [ps] ends in the state [st] of the library [b]. *)
Definition calls_well cf s takes b st a ps cs : Prop :=
  no_defaults ps -> forall args kwargs, NoDup (map fst kwargs) ->
  (well_called cf s takes ps cs args kwargs ->
     exists l, ObjSpec.gives (fun f => fst (invoke b f takes a args kwargs st)) (Called l) /\ passed cf s takes ps cs args kwargs l)
  /\ (ill_called cf s ps cs args kwargs -> ObjSpec.gives (fun f => fst (invoke b f takes a args kwargs st)) (Refused TypeError))
  /\ (untaken takes ps cs args kwargs -> exists x, ObjSpec.gives (fun f => fst (invoke b f takes a args kwargs st)) (Refused x)).
(** The access [a] gives the function [n] with parameters of the types [cs], which stand for those of the parameters [ps];
    its calls end so in any state of the library, i.e. after any uses. *)
Definition callable cf table win s D prefix exports takes (a : LibModel.access) (n : str)
  (ps : list (option str * cty * option str)) (r : cty) : Prop :=
  forall l, Forall (orderly_use cf table s D prefix) l ->
  let b := open_with cf table win s prefix exports in
  exists st c cs st', ObjSpec.gives (fun f => uses b f takes l (opened b)) st
    /\ ObjSpec.gives (fun f => do_access b f a st) (Ok (VFunction n c cs), st')
    /\ represents cf table s D (classes (q_ct st')) r c /\ all_represented cf table s D (classes (q_ct st')) ps cs
    /\ calls_well cf s takes b st a ps cs.
