(** What the property on text around declarations says: headers with words and marks between the
    declarations that are no part of them. *)
From Coq Require Import Ascii String Bool Arith ZArith List.
Import ListNotations.
From Verif Require Import PyBase PyStr MacroModel PpModel DeclModel GramModel GramSpec.

(** The literal of a linkage specification. *)
Definition c_linkage : str := $"""C""".
(** The characters up to the end of the line. *)
Definition rest_of_line (s : str) : str := fst (span (fun c => negb (cheq c nl || cheq c cr)) s).
(** No other string, and no backslash, stands behind a linkage specification on its line. *)
Definition one_string (text : str) : Prop :=
  forall a b, text = a ++ c_linkage ++ b ->
  ~ In dquote (rest_of_line b) /\ ~ In bslash (rest_of_line b).

Section Noise.
  Context (base mods : list str) (pack : option Z).
  (** The tokens begin as declarations do: qualifiers and then a keyword of a type, or a name with
      another word or an asterisk behind it. *)
  Definition opens (ts : list str) : Prop :=
    exists q r, ts = q ++ r /\ quals_ok q
    /\ ((exists w r', r = w :: r' /\ In w ([$"struct"; $"union"; $"enum"] ++ c_modifiers ++ base))
        \/ exists n x r', r = n :: x :: r'
             /\ (plain_name base mods n \/ n = $"typedef" \/ In n c_storage) /\ (word x \/ x = $"*")).
  (** [noisy lk tail ds ts]: the tokens [ts] are the declarations [ds], with other things before and
      between them, and then the tokens [tail]:
      - semicolons and braces;
      - the words [extern "C"], if [lk] allows them;
      - names that are not declared anywhere, in front of a declaration. *)
  Inductive noisy (lk : Prop) (tail : list str) : list gtop -> list str -> Prop :=
  | nz_end : noisy lk tail [] tail
  | nz_decl g t ds ts : sp_top base mods pack g t -> noisy lk tail ds ts -> noisy lk tail (g :: ds) (t ++ ts)
  | nz_mark m ds ts : In m [$";"; $"{"; $"}"] -> noisy lk tail ds ts -> noisy lk tail ds (m :: ts)
  | nz_linkage ds ts : lk -> noisy lk tail ds ts -> noisy lk tail ds ($"extern" :: c_linkage :: ts)
  | nz_word w ds ts : plain_name base mods w -> opens ts -> noisy lk tail ds ts -> noisy lk tail ds (w :: ts).
  (** The text [text] consists of these tokens; where linkage is specified, there are no other strings. *)
  Definition noisy_header (tail : list str) (ds : list gtop) (text : str) : Prop :=
    exists (lk : Prop) ts, noisy lk tail ds ts /\ tabs_outside ts /\ written ts text /\ (lk -> one_string text).
End Noise.
