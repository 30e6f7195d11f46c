(** What C51-C54 say, independently of the model's algorithms. *)
From Coq Require Import Ascii String Bool Arith ZArith List.
Import ListNotations.
From Verif Require Import PyBase PyStr TypeModel FunModel.

(** The keyword [k] names the parameter at [i], the last one of that name. *)
Definition names_param (f : cfun) (k : str) (i : nat) : Prop :=
  (exists p, nth_error (f_params f) i = Some p /\ p_name p = Some k)
  /\ forall j p, i < j -> nth_error (f_params f) j = Some p -> p_name p <> Some k.
Definition unknown (f : cfun) (k : str) : Prop :=
  forall j p, nth_error (f_params f) j = Some p -> p_name p <> Some k.
(** The caller gives [v] for position [i]: by a keyword, or else by position. *)
Definition gives (f : cfun) (args : list pyval) (kwargs : list (str * pyval)) (i : nat) (v : pyval) : Prop :=
  (exists k, In (k, v) kwargs /\ names_param f k i)
  \/ (nth_error args i = Some v /\ forall k w, In (k, w) kwargs -> ~ names_param f k i).
Definition gives_nothing (f : cfun) (args : list pyval) (kwargs : list (str * pyval)) (i : nat) : Prop :=
  nth_error args i = None /\ forall k w, In (k, w) kwargs -> ~ names_param f k i.
(** What the C function receives for [v] at [i]: the object, or for None a null pointer of the
    type of the parameter. *)
Definition receives (f : cfun) (i : nat) (v : pyval) (s : slot) : Prop :=
  match v with
  | PVal id => s = Given id
  | PNone => exists p, nth_error (f_params f) i = Some p /\ s = NullPtr (p_type p)
  end.
(** The parameter has a value: of the caller, null or automatic. *)
Definition has_arg (p : param) (s : slot) : Prop :=
  (exists id, s = Given id) \/ s = NullPtr (p_type p) \/ s = AutoPtr (p_type p).
(** The resolved type of a parameter is no pointer, array or function. *)
Definition not_pointer (b : backend) (p : param) : Prop :=
  exists s q, eval_type (b_conf b) (b_types b) (p_type p) = Ok (CT s [] q).
Definition pointer (b : backend) (p : param) : Prop :=
  exists s ds q, eval_type (b_conf b) (b_types b) (p_type p) = Ok (CT s ds q)
    /\ (ds = [DStr $"*"] \/ ds = [DStr $"*"; DStr $"*"]).
Definition required (p : param) : Prop := p_default p = None.

(** A type the backend finds can be resolved, and null and automatic pointers can be made for
    it. *)
Definition reliable (b : backend) : Prop :=
  forall t, b_type b t = Ok tt ->
    (exists t', eval_type (b_conf b) (b_types b) t = Ok t') /\ b_null b t = Ok tt /\ b_pointer b t = Ok tt.

(** The recorded signature of a function. *)
Definition signature (ret : ctype (list Z)) (params : list param) (q : list qual) : ctype (list Z) :=
  CT (SType ret) [DFun params] q.
(** A word among the elements of a type. *)
Definition mentions (t : ctype (list Z)) (s : str) : Prop := t_spec t = SName s \/ In (DStr s) (t_decls t).
(** A parameter list written (void). *)
Definition void_param (p : param) : Prop := exists q, p_type p = CT (SName $"void") [] q.

(** The parameters wrapped for a declared parameter list: all of them, none for (void). *)
Definition wraps (params : list param) (f : cfun) : Prop :=
  (Forall (fun p => ~ void_param p) params -> f_params f = params)
  /\ (forall p, params = [p] -> void_param p -> f_params f = []).

(** ** Results *)
Definition result_of (f : cfun) (l : list slot) (g : list nat) : result :=
  {| r_args := l; r_params := f_params f; r_guessed := g |}.
Definition automatic (s : slot) : Prop := exists t, s = AutoPtr t.
(** How an argument is shown: automatic pointers dereferenced. *)
Definition show (s : slot) : shown := match s with AutoPtr _ => Deref s | _ => Plain s end.
Definition is_auto (s : slot) : bool := match s with AutoPtr _ => true | _ => false end.
Definition distinct_names (ps : list param) : Prop :=
  forall i j p q k, nth_error ps i = Some p -> nth_error ps j = Some q ->
    p_name p = Some k -> p_name q = Some k -> i = j.
