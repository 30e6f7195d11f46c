(** Model of the class LibraryPath, pyclibrary/utils.py:157-194. *)
From Coq Require Import Ascii String Bool Arith ZArith List.
Import ListNotations.
From Verif Require Import PyBase PyStr UtilModel.

(** What is found at a path at one moment: the bytes of the file, and what the program file prints
    about it (utils.py:197-224). *)
Definition view : Type := (option str * res str)%type.
(** The attributes of a path that are computed, utils.py:168-194. *)
Inductive asked : Type := AskArch | Ask32 | Ask64 | AskBitness.
(** Their values: a tuple of numbers, a boolean, a text, utils.py:168-194. *)
Inductive told : Type := TArch (l : list nat) | TBool (b : bool) | TText (s : str).
(** A path object: [_arch] (None at first, utils.py:159), and how often its [arch] was read so far.
    The file may be another one each time. *)
Record lpath := { lp_arch : option (list nat); lp_reads : nat }.
(** [LibraryPath.__new__], utils.py:161-166. *)
Definition new_path : lpath := {| lp_arch := None; lp_reads := 0 |}.

(** [LibraryPath.arch], utils.py:168-176.  [w]: what is found at each reading. *)
Definition read_arch (platform : str) (w : nat -> view) (p : lpath) : list nat * lpath :=
  match lp_arch p with
  | None =>
      let v := w (lp_reads p) in
      let a := match get_arch platform (fst v) (snd v) with Ok l => l | Err _ => [] end in
      (a, {| lp_arch := Some a; lp_reads := S (lp_reads p) |})
  | Some a => (a, {| lp_arch := Some a; lp_reads := S (lp_reads p) |})
  end.
(** [str(a)] of the two numbers there are, utils.py:194. *)
Definition bits_str (n : nat) : str := if Nat.eqb n 32 then $"32" else if Nat.eqb n 64 then $"64" else [].
(** [is_32bit], [is_64bit], [bitness], utils.py:178-194: each reads [arch] twice. *)
Definition look (platform : str) (w : nat -> view) (a : asked) (p : lpath) : told * lpath :=
  let (x, p1) := read_arch platform w p in
  match a with
  | AskArch => (TArch x, p1)
  | _ =>
      match x with
      | [] => (TText $"n/a", p1)
      | _ =>
          let (y, p2) := read_arch platform w p1 in
          (match a with
           | Ask32 => TBool (existsb (Nat.eqb 32) y)
           | Ask64 => TBool (existsb (Nat.eqb 64) y)
           | _ => TText (join $", " (map bits_str y))
           end, p2)
      end
  end.
(** A program that reads the attributes one after the other, utils.py:157-194. *)
Fixpoint looks (platform : str) (w : nat -> view) (l : list asked) (p : lpath) : list told :=
  match l with
  | [] => []
  | a :: r => let (x, p1) := look platform w a p in x :: looks platform w r p1
  end.
