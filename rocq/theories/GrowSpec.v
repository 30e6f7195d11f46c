(** What C100 says: headers that are added to others. *)
From Coq Require Import Ascii String Bool List.
Import ListNotations.
From Verif Require Import PyBase PyStr StoreModel StoreSpec.

Section Grow.
  Context {V : Type}.
  (** The definition of [n] in the last of the [files] that has one, or else [before]. *)
  Fixpoint last_definition (s : store V) (k : kind) (n : str) (before : option V) (files : list str) : option V :=
    match files with
    | [] => before
    | f :: r => last_definition s k n (match defined_in s (Some (basename f)) k n with Some v => Some v | None => before end) r
    end.
End Grow.
