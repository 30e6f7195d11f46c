(** What C97 says about arguments a caller makes, independently of the algorithms. *)
From Coq Require Import Ascii String Bool Arith ZArith List.
Import ListNotations.
From Verif Require Import PyBase PyStr PyExpr TypeModel InitModel StoreModel StoreSpec DeclModel DeclSpec CtModel LinkSpec AutoSpec ObjModel InvokeModel InvokeSpec ObjSpec HelpModel.
From Verif Require TypeSpec CtSpec LibModel.

(** A type without its qualifiers. *)
Fixpoint unqualified (t : cty) : cty :=
  match t with
  | TBase _ s => TBase [] s
  | TPtr _ t => TPtr [] (unqualified t)
  | TRef _ t => TRef [] (unqualified t)
  | TArr _ n t => TArr [] n (unqualified t)
  | TFun _ l t => TFun [] l (unqualified t)
  | TConv c t => TConv c (unqualified t)
  end.
(** C takes an array of these dimensions with elements of type [u] for a parameter of type [t]. *)
Inductive takes_array : cty -> list Z -> cty -> Prop :=
| ta_pointer q u n : takes_array (TPtr q u) [n] u
| ta_rows q q' m u n : (0 <= m)%Z -> takes_array (TPtr q (TArr q' (ONum (VInt m)) u)) [n; m] u
| ta_void q q' ns u : ns <> [] -> takes_array (TPtr q (TBase q' $"void")) ns u
| ta_open q u n : takes_array (TArr q (ONum (VInt (-1))) u) [n] u
| ta_array q u n : (0 <= n)%Z -> takes_array (TArr q (ONum (VInt n)) u) [n] u.

(** How giving values for the elements of an array of [n] elements of the type [c] ends. *)
Definition values_fit (sets : pyt -> nat -> option exc) (c : pyt) (n : Z) (vals : list nat) : Prop :=
  (Z.of_nat (length vals) <= n)%Z /\ Forall (fun v => sets c v = None) vals.
Definition first_refused (sets : pyt -> nat -> option exc) (c : pyt) (n : Z) (vals : list nat) (x : exc) : Prop :=
  (exists l v r, vals = l ++ v :: r /\ values_fit sets c n l /\ (Z.of_nat (length l) < n)%Z /\ sets c v = Some x)
  \/ (x = IndexError /\ (n < Z.of_nat (length vals))%Z /\ Forall (fun v => sets c v = None) (firstn (Z.to_nat n) vals)).

(** The parameter an argument of arg_c_type stands for. *)
Definition stands_at (ps : list (option str * cty * option str)) (w : which) (i : nat) : Prop :=
  match w with
  | AtName n => names_param ps n i
  | AtIndex z => i < length ps /\ (z = Z.of_nat i \/ z = Z.of_nat i - Z.of_nat (length ps))%Z
  end.

Section Helpers.
  Context (cf : tconf) (table : dict str tyval) (s : store entry) (D : bool -> str -> Prop) (prefix : list str) (exports : str -> bool)
    (takes : option pyt -> nat -> bool) (sets : pyt -> nat -> option exc).
  (** Deeds that only concern settled definitions; types are given by names that can be represented. *)
  Definition orderly_deed (d : deed) : Prop :=
    match d with
    | Use u => orderly_use cf table s D prefix u
    | Build (AsName n) _ _ | Cast _ (AsName n) => representable cf table s D (TBase [] n)
    | Build (AsType _) _ _ | Cast _ (AsType _) => True
    | ArgType a _ => exists k n, about cf table s D prefix a k n
    end.
  (** The name [n] of a type and the definition [m] of kind [k] are the same type. *)
  Definition same_name (n : str) (k : kind) (m : str) : Prop :=
    (k = Types /\ exists t t', typedef_of s m = Some t /\ expanded cf s t t' /\ expanded cf s (TBase [] n) t')
    \/ (exists u q, k = comp_table u /\ D u m /\ expanded cf s (TBase [] n) (TBase q (CtSpec.tag_of u ++ m))).

  Context (b : clib).
  (** The type [c] with the name [n], in the state [st] of the library: it is what the library gives for every other name of the type, and
      what its functions want: arrays of it are taken for parameters C takes them for. *)
  Definition is_type (n : str) (c : pyt) (st : lstate) : Prop :=
    represents cf table s D (classes (q_ct st)) (TBase [] n) c
    /\ (forall a k m, about cf table s D prefix a k m -> same_name n k m -> gives (fun f => fst (do_access b f a st)) (Ok (VType c)))
    /\ forall a m args r, about cf table s D prefix a Functions m -> exports m = true -> signature cf table s D m args r ->
       exists c' cs, gives (fun f => fst (do_access b f a st)) (Ok (VFunction m c' cs))
         /\ forall i p t ns u u', type_at cf s (parameters args) cs i t p -> takes_array t ns u ->
              expanded cf s (TBase [] n) u' -> unqualified u = unqualified u' -> c <> PVoid -> accepts p (CtSpec.nested ns c).
  (** Afterwards that stays so, whatever is done. *)
  Definition stays_type (n : str) (c : pyt) (st : lstate) : Prop :=
    forall l, Forall orderly_deed l -> exists st', gives (fun f => deeds b f takes sets l st) st' /\ is_type n c st'.

  (** The array [typ] [size], in a state of the library. *)
  Definition builds (n : str) (st : lstate) : Prop :=
    exists c st', stays_type n c st'
      /\ let build sz vals f := build_array b f sets (AsName n) sz vals st in
         (forall sz vals, exists r, gives (build sz vals) (r, st'))
         /\ (c = PVoid -> forall sz vals, gives (build sz vals) (Err TypeError, st'))
         /\ (c <> PVoid -> forall ns sz, sz = STuple (map (fun n => ONum (VInt n)) ns) \/ (exists n, ns = [n] /\ sz = SInt (ONum (VInt n))) ->
             (Forall (fun n => 0 <= n)%Z ns ->
                gives (build sz []) (Ok {| m_class := CtSpec.nested ns c; m_set := [] |}, st')
                /\ forall n ns', ns = n :: ns' -> forall vals,
                   (values_fit sets (CtSpec.nested ns' c) n vals -> gives (build sz vals) (Ok {| m_class := CtSpec.nested ns c; m_set := vals |}, st'))
                   /\ forall x, first_refused sets (CtSpec.nested ns' c) n vals x -> gives (build sz vals) (Err x, st'))
             /\ (Exists (fun n => n < 0)%Z ns -> forall vals, gives (build sz vals) (Err ValueError, st'))).
  (** Types whose objects are addresses: pointers, references, arrays of unknown length, and names the backend has
      pointers for. *)
  Definition address (t : cty) : Prop :=
    match t with
    | TPtr _ _ | TRef _ _ => True
    | TArr _ n _ => n = ONum (VInt (-1))
    | TBase _ w => TypeSpec.identifier w /\ w <> $"signed" /\ exists p, dget table w = Some (TyC p) /\ In p [$"c_void_p"; $"c_char_p"; $"c_wchar_p"]
    | TFun _ _ _ | TConv _ _ => False
    end.
  (** The object as a pointer of the type [n]: if ctypes takes the object for a void * at all, and the type is one of addresses. *)
  Definition casts (n : str) (st : lstate) : Prop :=
    exists c st', stays_type n c st'
      /\ forall id t, expanded cf s (TBase [] n) t -> let cast f := cast_to b f takes id (AsName n) st in
         (takes (Some (PBase $"c_void_p")) id = true -> address t -> gives cast (Ok c, st'))
         /\ (takes (Some (PBase $"c_void_p")) id = true -> ~ address t -> gives cast (Err TypeError, st'))
         /\ (takes (Some (PBase $"c_void_p")) id = false -> gives cast (Err OtherError, st')).
  (** The type of an argument. *)
  Definition tells (a : LibModel.access) (m : str) (args : list (option str * cty * option str)) (st : lstate) : Prop :=
    exists c' cs st', gives (fun f => do_access b f a st) (Ok (VFunction m c' cs), st')
      /\ all_represented cf table s D (classes (q_ct st')) (parameters args) cs
      /\ forall w,
        (forall i, stands_at (parameters args) w i -> exists c, nth_error cs i = Some c /\ gives (fun f => fst (arg_c_type b f a w st)) (Ok c))
        /\ ((forall i, ~ stands_at (parameters args) w i) ->
            gives (fun f => fst (arg_c_type b f a w st)) (Err match w with AtName _ => KeyError | AtIndex _ => IndexError end)).
End Helpers.
(** All that, in any state of the library. *)
Definition helpers cf table win s D prefix exports takes sets : Prop :=
  forall l, Forall (orderly_deed cf table s D prefix) l ->
  let b := open_with cf table win s prefix exports in
  exists st, gives (fun f => deeds b f takes sets l (opened b)) st
    /\ (forall n, representable cf table s D (TBase [] n) ->
          builds cf table s D prefix exports takes sets b n st /\ casts cf table s D prefix exports takes sets b n st)
    /\ forall a n args r, about cf table s D prefix a Functions n -> exports n = true -> signature cf table s D n args r ->
         tells cf table s D b a n args st
         /\ exists c cs, gives (fun f => fst (do_access b f a st)) (Ok (VFunction n c cs)) /\ calls_well cf s takes b st a (parameters args) cs.
