(** Python string primitives on Latin-1 text. *)
From Coq Require Import Ascii String Bool Arith List.
Import ListNotations.
From Verif Require Import PyBase.

Definition code (c : ascii) : nat := nat_of_ascii c.
Definition between (a b : nat) (c : ascii) : bool := (a <=? code c) && (code c <=? b).
Definition cheq (c d : ascii) : bool := Ascii.eqb c d.

(** [str.isspace] and regex [\s] on code points below 256. *)
Definition is_space (c : ascii) : bool :=
  between 9 13 c || between 28 32 c || (code c =? 133) || (code c =? 160).

Definition is_digit (c : ascii) : bool := between 48 57 c.           (* [0-9], \d *)
Definition is_alpha (c : ascii) : bool := between 65 90 c || between 97 122 c. (* [a-zA-Z] *)
Definition is_alnum (c : ascii) : bool := is_alpha c || is_digit c.
Definition is_under (c : ascii) : bool := code c =? 95.
(** First and following characters of an ASCII identifier:
    [Word(alphas + "_", alphanums + "_")]. *)
Definition is_idstart (c : ascii) : bool := is_alpha c || is_under c.
Definition is_idchar (c : ascii) : bool := is_alnum c || is_under c.

(** regex [\w] on code points below 256. *)
Definition is_word (c : ascii) : bool :=
  is_idchar c || (code c =? 170) || (code c =? 178) || (code c =? 179) || (code c =? 181)
  || (code c =? 185) || (code c =? 186) || between 188 190 c || between 192 214 c
  || between 216 246 c || between 248 255 c.

(** [str.isdigit] on one character (includes the superscripts of Latin-1). *)
Definition is_pydigit (c : ascii) : bool :=
  is_digit c || (code c =? 178) || (code c =? 179) || (code c =? 185).

Definition nl : ascii := "010"%char.
Definition tab : ascii := "009"%char.
Definition cr : ascii := "013"%char.
Definition sp : ascii := " "%char.
Definition dquote : ascii := """"%char.
Definition squote : ascii := "'"%char.
Definition bslash : ascii := "\"%char.

(** Longest prefix satisfying [p], and the rest. *)
Fixpoint span (p : ascii -> bool) (s : str) : str * str :=
  match s with
  | [] => ([], [])
  | c :: r => if p c then let (a, b) := span p r in (c :: a, b) else ([], s)
  end.

Fixpoint drop_while (p : ascii -> bool) (s : str) : str :=
  match s with
  | [] => []
  | c :: r => if p c then drop_while p r else s
  end.

Definition lstrip (s : str) : str := drop_while is_space s.
Definition rstrip (s : str) : str := rev (drop_while is_space (rev s)).
(** [str.strip()] *)
Definition strip (s : str) : str := rstrip (lstrip s).

Fixpoint starts_with (p s : str) : bool :=
  match p, s with
  | [], _ => true
  | c :: p', d :: s' => cheq c d && starts_with p' s'
  | _ :: _, [] => false
  end.

(** [s[len(p):]] when [s.startswith(p)]. *)
Fixpoint strip_prefix (p s : str) : option str :=
  match p, s with
  | [], _ => Some s
  | c :: p', d :: s' => if cheq c d then strip_prefix p' s' else None
  | _ :: _, [] => None
  end.

(** [p in s] *)
Fixpoint contains (p s : str) : bool :=
  starts_with p s || match s with [] => false | _ :: s' => contains p s' end.

(** [s.split()] : maximal runs of non-space characters. *)
Fixpoint split_ws_aux (cur : str) (s : str) : list str :=
  match s with
  | [] => match cur with [] => [] | _ => [rev cur] end
  | c :: r =>
      if is_space c
      then match cur with
           | [] => split_ws_aux [] r
           | _ => rev cur :: split_ws_aux [] r
           end
      else split_ws_aux (c :: cur) r
  end.
Definition split_ws (s : str) : list str := split_ws_aux [] s.

(** [s.split(c)] for a one character separator: never empty. *)
Fixpoint split_on (sep : ascii) (s : str) : list str :=
  match s with
  | [] => [[]]
  | c :: r =>
      if cheq c sep then [] :: split_on sep r
      else match split_on sep r with
           | [] => [[c]]
           | w :: ws => (c :: w) :: ws
           end
  end.

(** [s.split(c, 1)]: [Some (before, after)] if [c] occurs, [None] if the result
    has a single element. *)
Fixpoint split_first (sep : ascii) (s : str) : option (str * str) :=
  match s with
  | [] => None
  | c :: r =>
      if cheq c sep then Some ([], r)
      else match split_first sep r with
           | Some (a, b) => Some (c :: a, b)
           | None => None
           end
  end.

(** [sep.join(l)] *)
Fixpoint join (sep : str) (l : list str) : str :=
  match l with
  | [] => []
  | [w] => w
  | w :: ws => w ++ sep ++ join sep ws
  end.

(** [s[-1:]] and [s[:-1]] *)
Definition last1 (s : str) : str :=
  match rev s with [] => [] | c :: _ => [c] end.
Definition but_last (s : str) : str := removelast s.

(** [os.path.basename] on POSIX: what follows the last slash. *)
Fixpoint basename_aux (cur s : str) : str :=
  match s with
  | [] => rev cur
  | c :: r => if cheq c "/" then basename_aux [] r else basename_aux (c :: cur) r
  end.
Definition basename (s : str) : str := basename_aux [] s.

(** Decimal digits of a natural number ([str(n)], ["%d" % n]). *)
Fixpoint dec_aux (fuel n : nat) (acc : str) : str :=
  match fuel with
  | O => acc
  | S f =>
      let d := ascii_of_nat (48 + n mod 10) in
      if n <? 10 then d :: acc else dec_aux f (n / 10) (d :: acc)
  end.
Definition dec (n : nat) : str := dec_aux (S n) n [].

(** [int(s)] on a non empty string of ASCII digits. *)
Definition digit_val (c : ascii) : nat := code c - 48.
