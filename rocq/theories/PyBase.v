(** Python basics: exceptions as values, decidable keys, dictionaries. *)
From Coq Require Import Ascii String Bool Arith ZArith Lia List.
Import ListNotations.

(** Python [str] restricted to code points below 256. *)
Notation str := (list ascii).
Notation "$ s" := (list_ascii_of_string s%string) (at level 1, format "$ s").

(** Python exception classes met in the modelled code.  [OutOfFuel] is not a
    Python exception: it marks exhausted fuel and is excluded by theorems. *)
Inductive exc : Type :=
| IndexError | KeyError | TypeError | ValueError | AttributeError | NameError
| DefinitionError | RuntimeError | OSError | AssertionError | SyntaxError
| ZeroDivisionError | NotImplementedErr | OtherError | OutOfFuel.

(** Outcome of a Python computation: a value or a raised exception. *)
Inductive res (A : Type) : Type :=
| Ok (a : A)
| Err (e : exc).
Arguments Ok {A} a.
Arguments Err {A} e.

Definition bind {A B} (x : res A) (f : A -> res B) : res B :=
  match x with Ok a => f a | Err e => Err e end.
Notation "'do' x <- a ; b" := (bind a (fun x => b))
  (at level 200, x name, a at level 100, b at level 200).

Definition is_ok {A} (r : res A) : bool :=
  match r with Ok _ => true | Err _ => false end.

(** Sequential map with early exit on the first exception, as a Python list
    comprehension does. *)
Fixpoint mapM {A B} (f : A -> res B) (l : list A) : res (list B) :=
  match l with
  | [] => Ok []
  | a :: r => do b <- f a; do bs <- mapM f r; Ok (b :: bs)
  end.

(** Types with a decidable (Python) equality usable as dictionary keys. *)
Class Eqb (K : Type) := {
  eqb : K -> K -> bool;
  eqb_true : forall a b, eqb a b = true <-> a = b
}.

Lemma eqb_refl {K} `{Eqb K} (a : K) : eqb a a = true.
Proof. apply eqb_true. reflexivity. Qed.

Lemma eqb_eq {K} `{Eqb K} (a b : K) : eqb a b = true -> a = b.
Proof. apply eqb_true. Qed.

Lemma eqb_false {K} `{Eqb K} (a b : K) : eqb a b = false <-> a <> b.
Proof.
  split.
  - intros E N. apply eqb_true in N. congruence.
  - intros N. destruct (eqb a b) eqn:E; auto. apply eqb_eq in E. contradiction.
Qed.

Lemma eqb_spec {K} `{Eqb K} (a b : K) : reflect (a = b) (eqb a b).
Proof.
  destruct (eqb a b) eqn:E; constructor.
  - apply eqb_true; exact E.
  - apply eqb_false; exact E.
Qed.

Lemma eqb_sym {K} `{Eqb K} (a b : K) : eqb a b = eqb b a.
Proof.
  destruct (eqb_spec a b), (eqb_spec b a); auto; congruence.
Qed.

Fixpoint list_eqb {A} (f : A -> A -> bool) (l m : list A) : bool :=
  match l, m with
  | [], [] => true
  | a :: l', b :: m' => f a b && list_eqb f l' m'
  | _, _ => false
  end.

Lemma list_eqb_true {A} (f : A -> A -> bool)
      (Hf : forall a b, f a b = true <-> a = b) :
  forall l m, list_eqb f l m = true <-> l = m.
Proof.
  induction l as [|a l IH]; destruct m as [|b m]; simpl; split; intro E;
    try reflexivity; try discriminate.
  - apply andb_true_iff in E. destruct E as [E1 E2].
    apply Hf in E1. apply IH in E2. subst. reflexivity.
  - injection E as E1 E2. subst. apply andb_true_iff. split.
    + apply Hf; reflexivity.
    + apply IH; reflexivity.
Qed.

#[global] Instance Eqb_nat : Eqb nat := {| eqb := Nat.eqb; eqb_true := Nat.eqb_eq |}.
#[global] Instance Eqb_Z : Eqb Z := {| eqb := Z.eqb; eqb_true := Z.eqb_eq |}.
#[global] Instance Eqb_ascii : Eqb ascii :=
  {| eqb := Ascii.eqb; eqb_true := Ascii.eqb_eq |}.
#[global] Instance Eqb_bool : Eqb bool :=
  {| eqb := Bool.eqb; eqb_true := Bool.eqb_true_iff |}.
#[global] Instance Eqb_list {A} `{Eqb A} : Eqb (list A) :=
  {| eqb := list_eqb eqb; eqb_true := list_eqb_true eqb eqb_true |}.

Definition option_eqb {A} (f : A -> A -> bool) (x y : option A) : bool :=
  match x, y with
  | Some a, Some b => f a b
  | None, None => true
  | _, _ => false
  end.
Lemma option_eqb_true {A} (f : A -> A -> bool)
      (Hf : forall a b, f a b = true <-> a = b) :
  forall x y, option_eqb f x y = true <-> x = y.
Proof.
  intros [a|] [b|]; simpl; split; intro E; try discriminate; try reflexivity.
  - apply Hf in E. subst. reflexivity.
  - injection E as E. apply Hf. exact E.
Qed.
#[global] Instance Eqb_option {A} `{Eqb A} : Eqb (option A) :=
  {| eqb := option_eqb eqb; eqb_true := option_eqb_true eqb eqb_true |}.

Definition mem {K} `{Eqb K} (a : K) (l : list K) : bool := existsb (eqb a) l.

Lemma mem_In {K} `{Eqb K} (a : K) l : mem a l = true <-> In a l.
Proof.
  unfold mem. rewrite existsb_exists. split.
  - intros (x & I & E). apply eqb_eq in E. subst. exact I.
  - intros I. exists a. split; [exact I | apply eqb_refl].
Qed.

Lemma mem_not_In {K} `{Eqb K} (a : K) l : mem a l = false <-> ~ In a l.
Proof.
  rewrite <- mem_In. destruct (mem a l); split; intro X; congruence.
Qed.

(** Python dictionaries, in insertion order: assigning to an existing key keeps
    its place, assigning to a new key appends, deleting removes the entry. *)
Definition dict (K V : Type) : Type := list (K * V).

Section Dict.
  Context {K V : Type} `{Eqb K}.

  Fixpoint dget (d : dict K V) (k : K) : option V :=
    match d with
    | [] => None
    | (k', v) :: r => if eqb k k' then Some v else dget r k
    end.

  Fixpoint dset (d : dict K V) (k : K) (v : V) : dict K V :=
    match d with
    | [] => [(k, v)]
    | (k', v') :: r => if eqb k k' then (k', v) :: r else (k', v') :: dset r k v
    end.

  Fixpoint ddel (d : dict K V) (k : K) : dict K V :=
    match d with
    | [] => []
    | (k', v') :: r => if eqb k k' then r else (k', v') :: ddel r k
    end.

  Definition dmem (d : dict K V) (k : K) : bool :=
    match dget d k with Some _ => true | None => false end.

  Definition keys (d : dict K V) : list K := map fst d.
  Definition items (d : dict K V) : list (K * V) := d.
End Dict.
