(** What C102 says, independently of the model's algorithms. *)
From Coq Require Import Ascii String Bool Arith ZArith List.
Import ListNotations.
From Verif Require Import PyBase PyStr TextSpec UtilModel UtilSpec PathModel.

(** The platforms on which the program file is asked. *)
Definition on_linux (platform : str) : Prop := In platform [$"linux"; $"linux2"; $"linux3"].
Definition linux_word (bits : nat) : str := if Nat.eqb bits 32 then $"32-bit" else $"64-bit".
Definition darwin_word (bits : nat) : str :=
  if Nat.eqb bits 32 then $"(for architecture i386)" else $"(for architecture x86_64)".
(** What is found is a library for [bits] (32 or 64). *)
Definition shows (platform : str) (v : view) (bits : nat) : Prop :=
  (starts_with $"win" platform = true /\ exists file m, fst v = Some file /\ pe_like file m /\ In bits (machine_bits m))
  \/ (on_linux platform /\ exists text, snd v = Ok text /\ occurs (linux_word bits) text)
  \/ (platform = $"darwin" /\ exists text, snd v = Ok text /\ occurs (darwin_word bits) text).
(** What a path tells about a library for 32 bits ([a]) and for 64 bits ([b]). *)
Definition tells (a b : bool) (q : asked) : told :=
  match q with
  | AskArch => TArch ((if a then [32] else []) ++ (if b then [64] else []))
  | Ask32 => if a || b then TBool a else TText $"n/a"
  | Ask64 => if a || b then TBool b else TText $"n/a"
  | AskBitness => TText (match a, b with true, true => $"32, 64" | true, false => $"32" | false, true => $"64" | false, false => $"n/a" end)
  end.
(** The program file prints the path, a colon, blanks and the kind of the file. *)
Definition prints (path kind out : str) : Prop :=
  exists blanks, forallb is_space blanks = true /\ out = path ++ ":"%char :: blanks ++ kind.
(** The path says nothing about bits itself. *)
Definition silent (path : str) : Prop := ~ occurs $"32-bit" path /\ ~ occurs $"64-bit" path.
Definition other_bits (n : nat) : nat := if Nat.eqb n 32 then 64 else 32.
