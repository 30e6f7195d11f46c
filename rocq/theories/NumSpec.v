(** The values of digits and numerals (C68), written down without the model. *)
From Coq Require Import Ascii String Bool Arith ZArith List.
Import ListNotations.
From Verif Require Import PyBase PyStr.

Definition digit_table : list (ascii * Z) :=
  [("0", 0); ("1", 1); ("2", 2); ("3", 3); ("4", 4); ("5", 5); ("6", 6); ("7", 7); ("8", 8); ("9", 9);
   ("a", 10); ("b", 11); ("c", 12); ("d", 13); ("e", 14); ("f", 15);
   ("A", 10); ("B", 11); ("C", 12); ("D", 13); ("E", 14); ("F", 15)]%char%Z.
(** [c] is a digit for the base, with the value [v]. *)
Definition digit_of (base : Z) (c : ascii) (v : Z) : Prop := In (c, v) digit_table /\ (v < base)%Z.
(** The number that digits stand for: each further digit multiplies by the base and adds its value. *)
Inductive numeral (base : Z) : str -> Z -> Prop :=
| num_none : numeral base [] 0
| num_digit d n c v : numeral base d n -> digit_of base c v -> numeral base (d ++ [c]) (base * n + v)%Z.
(** The bases of C and what stands in front of their digits. *)
Definition bases : list (Z * str) := [(10%Z, []); (8%Z, $"0"); (16%Z, $"0x"); (16%Z, $"0X")].
