(** Properties C51-C54: calls of C functions and their results. *)
From Coq Require Import Ascii String Bool Arith ZArith Lia List.
Import ListNotations.
From Verif Require Import PyBase PyStr TypeModel FunModel FunSpec FunProofs.

(** A backend knowing the fundamental types, pointers to them and INTP, a pointer to int. *)
Definition fun_conf : tconf := {| extra_types := []; py312 := false; win32 := false |}.
Definition int_t : ctype (list Z) := CT (SName $"int") [] [Some []].
Definition int_p : ctype (list Z) := CT (SName $"int") [DStr $"*"] [Some []; Some []].
Definition fun_types : dict str (tentry (list Z)) := [($"INTP", TyE int_p)].
Definition intp_t : ctype (list Z) := CT (SName $"INTP") [] [Some []].
Definition fun_backend : backend :=
  {| b_conf := fun_conf; b_types := fun_types;
     b_type := fun t => match eval_type fun_conf fun_types t with Ok _ => Ok tt | Err _ => Err KeyError end;
     b_null := fun _ => Ok tt; b_pointer := fun _ => Ok tt |}.
Lemma fun_backend_reliable : reliable fun_backend.
Proof.
  intros t. cbn [b_type b_null b_pointer b_conf b_types fun_backend].
  destruct (eval_type fun_conf fun_types t) as [t'|]; [|discriminate]. intros _. split; [eauto|]. split; reflexivity.
Qed.
(** int f(int a, int *b, INTP c) *)
Definition sample_params : list param :=
  [(Some $"a", int_t, None); (Some $"b", int_p, None); (Some $"c", intp_t, None)].
Definition sample_fun : cfun := {| f_lock := false; f_ret := int_t; f_params := sample_params |}.
Lemma wrapped_sample : wrap fun_backend false (signature int_t sample_params [Some []; Some []]) = Ok sample_fun.
Proof. vm_compute. reflexivity. Qed.

(** ** C51: arguments reach the parameter they name *)
Theorem c51_arguments : forall b f args kwargs l g,
  NoDup (map fst kwargs) -> call b f args kwargs = Called l g ->
  (forall k v, In (k, v) kwargs -> exists i s, names_param f k i /\ nth_error l i = Some s /\ receives f i v s)
  /\ (forall i v, nth_error args i = Some v -> (forall k w, In (k, w) kwargs -> ~ names_param f k i) ->
      exists s, nth_error l i = Some s /\ receives f i v s)
  /\ (forall i p, nth_error (f_params f) i = Some p -> exists s, nth_error l i = Some s /\ has_arg p s).
Proof. exact args_delivered. Qed.
Print Assumptions c51_arguments.

(** f(7, c=None): b is created. *)
Example c51_case :
  NoDup (map fst [($"c", PNone)])
  /\ call fun_backend sample_fun [PVal 7] [($"c", PNone)] = Called [Given 7; AutoPtr int_p; NullPtr intp_t] [1].
Proof. split; [repeat constructor; intros []|vm_compute; reflexivity]. Qed.

(** ** C52: bad calls are refused *)
(** f(int *a = 0, int b) with locked calls: without b the lock is looked up before ctypes counts
    the arguments, and the lookup raises NameError. *)
Definition locked_params : list param := [(Some $"a", int_p, Some $"0"); (Some $"b", int_t, None)].
Definition locked_fun : cfun := {| f_lock := true; f_ret := int_t; f_params := locked_params |}.
Theorem c52_bad_calls_refuted : exists b sig f p,
  reliable b /\ wrap b true sig = Ok f /\ nth_error (f_params f) 1 = Some p /\ required p /\ not_pointer b p
  /\ gives_nothing f [] [] 1 /\ call b f [] [] = Refused NameError.
Proof.
  exists fun_backend, (signature int_t locked_params [Some []; Some []]), locked_fun, (Some $"b", int_t, None).
  split; [exact fun_backend_reliable|]. split; [vm_compute; reflexivity|]. split; [reflexivity|].
  split; [reflexivity|]. split; [exists (SName $"int"), [Some []]; vm_compute; reflexivity|].
  split; [|vm_compute; reflexivity]. split; [reflexivity|]. intros k w [].
Qed.
Print Assumptions c52_bad_calls_refuted.

(** Missing from the full statement: with locked calls, a missing parameter raises some
    exception, not always TypeError.  The C function is never run. *)
Theorem c52_bad_calls_partial : forall b lock sig f args kwargs,
  reliable b -> wrap b lock sig = Ok f -> NoDup (map fst kwargs) ->
  (forall k v, In (k, v) kwargs -> unknown f k -> call b f args kwargs = Refused TypeError)
  /\ (forall i p, nth_error (f_params f) i = Some p -> not_pointer b p ->
        gives f args kwargs i PNone -> call b f args kwargs = Refused TypeError)
  /\ (forall i p, nth_error (f_params f) i = Some p -> not_pointer b p ->
        gives_nothing f args kwargs i ->
        exists e, call b f args kwargs = Refused e /\ (lock = false -> e = TypeError)).
Proof.
  intros b lock sig f args kwargs R W ND. split; [|split].
  - intros k v. exact (unknown_refused b f args kwargs k v).
  - intros i p. exact (null_refused b lock sig f args kwargs i p R W ND).
  - intros i p. exact (missing_refused b lock sig f args kwargs i p R W ND).
Qed.
Print Assumptions c52_bad_calls_partial.

Example c52_case :
  reliable fun_backend
  /\ wrap fun_backend false (signature int_t sample_params [Some []; Some []]) = Ok sample_fun
  /\ (unknown sample_fun $"z" /\ call fun_backend sample_fun [PVal 1] [($"z", PVal 2)] = Refused TypeError)
  /\ (gives sample_fun [PNone] [] 0 PNone /\ call fun_backend sample_fun [PNone] [] = Refused TypeError)
  /\ (gives_nothing sample_fun [] [($"b", PVal 3)] 0
      /\ call fun_backend sample_fun [] [($"b", PVal 3)] = Refused TypeError).
Proof.
  split; [exact fun_backend_reliable|]. split; [exact wrapped_sample|]. split; [|split].
  - split; [|vm_compute; reflexivity]. intros j p N. do 3 (destruct j as [|j]; [injection N as <-; discriminate|]).
    destruct j; discriminate N.
  - split; [|vm_compute; reflexivity]. right. split; [reflexivity|]. intros k w [].
  - split; [|vm_compute; reflexivity]. split; [reflexivity|]. intros k w [E|[]]. injection E as <- _.
    intros [(p & P & K) _]. injection P as <-. discriminate K.
Qed.

(** ** C53: results *)
(** False as stated: the index -1 of an automatic pointer is not dereferenced although the
    index of the same argument counted from the front is, and an automatic argument that has
    been overwritten is still dereferenced when read. *)
Theorem c53_results_refuted : exists b f args kwargs l g,
  call b f args kwargs = Called l g /\ distinct_names (f_params f)
  /\ (exists s, get_item (result_of f l g) (Int (Z.of_nat (length l - 1))) = Ok (Deref s)
         /\ get_item (result_of f l g) (Int (-1)) = Ok (Plain s))
  /\ (exists r', set_item (result_of f l g) (Int 2) (Given 5) = Ok r'
         /\ get_item r' (Int 2) = Ok (Deref (Given 5))).
Proof.
  exists fun_backend, sample_fun, [PVal 7; PVal 8], [], [Given 7; Given 8; AutoPtr intp_t], [2].
  split; [vm_compute; reflexivity|]. split.
  - intros i j p q k P Q.
    do 3 (destruct i as [|i]; [injection P as <-; do 3 (destruct j as [|j]; [injection Q as <-; cbn; try reflexivity; congruence|]);
      destruct j; discriminate Q|]). destruct i; discriminate P.
  - split; [exists (AutoPtr intp_t); vm_compute; auto|]. eexists. split; [reflexivity|vm_compute; reflexivity].
Qed.
Print Assumptions c53_results_refuted.

(** Indices counted from the front, and writing to arguments of the caller.  Missing: negative
    indices, writing to automatic arguments, several parameters of one name. *)
Theorem c53_results_partial : forall b f args kwargs l g,
  call b f args kwargs = Called l g -> distinct_names (f_params f) ->
  let r := result_of f l g in
  (forall i p k, nth_error (f_params f) i = Some p -> p_name p = Some k ->
      exists s, nth_error l i = Some s /\ get_item r (Name k) = Ok (show s) /\ get_item r (Int (Z.of_nat i)) = Ok (show s))
  /\ (forall k, unknown f k -> get_item r (Name k) = Err KeyError)
  /\ (forall i, get_item r (Int (Z.of_nat i)) = match nth_error l i with Some s => Ok (show s) | None => Err IndexError end)
  /\ iterate r = Ok (map show l)
  /\ auto r = Ok (map Deref (filter is_auto l))
  /\ (forall i v r', set_item r (Int (Z.of_nat i)) v = Ok r' ->
        (forall s, nth_error l i = Some s -> ~ automatic s -> get_item r' (Int (Z.of_nat i)) = Ok (Plain v))
        /\ (forall j, j <> i -> get_item r' (Int (Z.of_nat j)) = get_item r (Int (Z.of_nat j)))).
Proof. exact results. Qed.
Print Assumptions c53_results_partial.

Example c53_case :
  let l := [Given 7; AutoPtr int_p; NullPtr intp_t] in
  call fun_backend sample_fun [PVal 7] [($"c", PNone)] = Called l [1]
  /\ distinct_names (f_params sample_fun)
  /\ get_item (result_of sample_fun l [1]) (Name $"b") = Ok (Deref (AutoPtr int_p))
  /\ iterate (result_of sample_fun l [1]) = Ok [Plain (Given 7); Deref (AutoPtr int_p); Plain (NullPtr intp_t)]
  /\ auto (result_of sample_fun l [1]) = Ok [Deref (AutoPtr int_p)].
Proof.
  split; [vm_compute; reflexivity|]. split; [|vm_compute; auto].
  intros i j p q k P Q.
  do 3 (destruct i as [|i]; [injection P as <-; do 3 (destruct j as [|j]; [injection Q as <-; cbn; try reflexivity; congruence|]);
    destruct j; discriminate Q|]). destruct i; discriminate P.
Qed.

(** ** C54: wrapping and calling *)
(** False as stated: int __stdcall f(int a) cannot be wrapped, and with locked calls no call
    succeeds. *)
Definition stdcall_int : ctype (list Z) := CT (SName $"int") [DStr $"__stdcall"] [Some []; Some []].
Theorem c54_wrapping_refuted :
  (exists b ret params q, reliable b /\ b_type b ret = Ok tt
     /\ (forall p, In p params -> b_type b (p_type p) = Ok tt)
     /\ wrap b false (signature ret params q) = Err AttributeError)
  /\ (exists b ret params q f, reliable b /\ b_type b ret = Ok tt
     /\ (forall p, In p params -> b_type b (p_type p) = Ok tt)
     /\ wrap b true (signature ret params q) = Ok f
     /\ forall args kwargs, exists e, call b f args kwargs = Refused e).
Proof.
  split.
  - exists fun_backend, stdcall_int, [(Some $"a", int_t, None)], [Some []; Some []].
    split; [exact fun_backend_reliable|]. split; [vm_compute; reflexivity|].
    split; [|vm_compute; reflexivity]. intros p [<-|[]]. vm_compute. reflexivity.
  - exists fun_backend, int_t, [(Some $"a", int_t, None)], [Some []; Some []],
      {| f_lock := true; f_ret := int_t; f_params := [(Some $"a", int_t, None)] |}.
    split; [exact fun_backend_reliable|]. split; [vm_compute; reflexivity|].
    split; [intros p [<-|[]]; vm_compute; reflexivity|]. split; [vm_compute; reflexivity|].
    intros args kwargs. unfold call. destruct (keywords _ _ _) as [l|]; [|eauto].
    destruct (fill _ _ _ _); [|eauto]. cbn [f_lock]. eauto.
Qed.
Print Assumptions c54_wrapping_refuted.

(** Without a calling convention, and unlocked: the function is wrapped with its parameters,
    and called whenever each parameter is given an object.  Missing: calling conventions and
    locked calls. *)
Theorem c54_wrapping_partial : forall b ret params q lock,
  ~ mentions ret $"__stdcall" -> ~ mentions ret $"__cdecl" ->
  b_type b ret = Ok tt -> (forall p, In p params -> ~ void_param p -> b_type b (p_type p) = Ok tt) ->
  exists f, wrap b lock (signature ret params q) = Ok f /\ f_lock f = lock
    /\ f_ret f = ret /\ wraps params f.
Proof. exact (fun b ret params q lock H H0 H1 H2 => wrap_ok b ret params q H H0 H1 H2 lock). Qed.
Print Assumptions c54_wrapping_partial.
Theorem c54_calling_partial : forall b f args kwargs,
  f_lock f = false -> NoDup (map fst kwargs) ->
  (forall k v, In (k, v) kwargs -> ~ unknown f k) ->
  (forall i, i < length (f_params f) -> exists id, gives f args kwargs i (PVal id)) ->
  length args <= length (f_params f) ->
  exists l, call b f args kwargs = Called l [] /\ length l = length (f_params f).
Proof. exact call_ok. Qed.
Print Assumptions c54_calling_partial.

(** int f(void), and f(7, c=9, b=8) for the f above. *)
Example c54_case :
  (exists f, wrap fun_backend true (signature int_t [(None, CT (SName $"void") [] [Some []], None)] [Some []; Some []]) = Ok f
     /\ f_params f = [])
  /\ NoDup (map fst [($"c", PVal 9); ($"b", PVal 8)])
  /\ call fun_backend sample_fun [PVal 7] [($"c", PVal 9); ($"b", PVal 8)] = Called [Given 7; Given 8; Given 9] [].
Proof.
  split; [eexists; split; vm_compute; reflexivity|]. split; [|vm_compute; reflexivity].
  constructor; [intros [E|[]]; discriminate E|]. repeat constructor. intros [].
Qed.
