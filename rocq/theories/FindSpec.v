(** What C87 says: where the path of a library is found in the output of a command. *)
From Coq Require Import Ascii String Bool Arith List.
Import ListNotations.
From Verif Require Import PyBase PyStr.

(** Characters that may be part of a path: no blanks and no parentheses. *)
Definition path_char (c : ascii) : Prop := is_space c = false /\ c <> "("%char /\ c <> ")"%char.
(** The path [p] contains lib<name>. and is written in [text] between [a] and [b]; an absolute one starts
    with a slash. *)
Definition listed (absolute : bool) (name text a p b : str) : Prop :=
  text = a ++ p ++ b
  /\ exists u v, p = (if absolute then $"/" else []) ++ u ++ $"lib" ++ name ++ $"." ++ v
                 /\ Forall path_char u /\ Forall path_char v.
(** The first one of them, from its first character to its last. *)
Definition first_listed (absolute : bool) (name text p : str) : Prop :=
  exists a b, listed absolute name text a p b
    /\ forall a' p' b', listed absolute name text a' p' b' ->
         length a < length a' \/ a' = a /\ length p' <= length p.
Definition not_listed (absolute : bool) (name text : str) : Prop :=
  forall a p b, ~ listed absolute name text a p b.

(** The file name of a path. *)
Fixpoint file_name_of (acc p : str) : str :=
  match p with
  | [] => acc
  | c :: r => if Ascii.eqb c "/" then file_name_of r r else file_name_of acc r
  end.
Definition file_name (p : str) : str := file_name_of p p.
