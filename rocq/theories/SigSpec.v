(** What C101 says: what the text of a signature tells. *)
From Coq Require Import Ascii String Bool Arith ZArith List.
Import ListNotations.
From Verif Require Import PyBase PyStr MacroSpec TypeModel DeclModel ReprSpec.

(** A type that functions return: words with blanks between them, then stars and ampersands. *)
Definition type_char (c : ascii) : bool := is_idchar c || cheq c sp.
Definition returned (t : aty) : Prop :=
  exists s ds qs, t = CT (SName s) ds qs /\ forallb type_char s = true /\ Forall (fun d => d = DStr $"*" \/ d = DStr $"&") ds.
(** A parameter: unnamed, or with a name other than None. *)
Definition parameter (p : option str * aty * option str) : Prop :=
  plain_type (snd (fst p)) /\ match fst (fst p) with Some n => ident n /\ n <> $"None" | None => True end.
(** The recorded signature of a function that returns [ret] and has the parameters [params]. *)
Inductive signature : aty -> aty -> list (option str * aty * option str) -> Prop :=
| sg_function ret params qs : signature (CT (SType ret) [DFun params] qs) ret params.
(** A function: its name, what it returns and its parameters without those of type void. *)
Definition is_void (t : aty) : Prop := exists qs, t = CT (SName $"void") [] qs.
Inductive proper : list (option str * aty * option str) -> list (option str * aty) -> Prop :=
| pr_none : proper [] []
| pr_void n t v l l' : is_void t -> proper l l' -> proper ((n, t, v) :: l) l'
| pr_param n t v l l' : ~ is_void t -> proper l l' -> proper ((n, t, v) :: l) ((n, t) :: l').
