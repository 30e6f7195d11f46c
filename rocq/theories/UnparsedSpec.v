(** What the property on the text that was not parsed says. *)
From Coq Require Import Ascii String Bool Arith ZArith List.
Import ListNotations.
From Verif Require Import PyBase PyStr MacroModel PpModel DeclModel GramModel GramSpec NoiseSpec.

(** A text cut into pieces that are kept, each with the piece behind it that is taken out. *)
Definition whole (l : list (str * str)) (last : str) : str := flat_map (fun x => fst x ++ snd x) l ++ last.
Definition kept (l : list (str * str)) (last : str) : str := flat_map fst l ++ last.
(** Two texts with the same characters but for white space. *)
Definition same_ink (a b : str) : Prop :=
  filter (fun c => negb (is_space c)) a = filter (fun c => negb (is_space c)) b.
(** Two line breaks with nothing but white space between them. *)
Definition blank_line (s : str) : Prop :=
  exists a b c, s = a ++ nl :: b ++ nl :: c /\ forallb is_space b = true.

Section Left.
  Context (base mods : list str) (pack : option Z).
  (** [noise_of lk ns ds ts]: as [noisy] in NoiseSpec.v, with nothing at the end: the tokens [ts] are the
      declarations [ds] with the tokens [ns] before, between and behind them. *)
  Inductive noise_of (lk : Prop) : list str -> list gtop -> list str -> Prop :=
  | no_end : noise_of lk [] [] []
  | no_decl g t ns ds ts : sp_top base mods pack g t -> noise_of lk ns ds ts -> noise_of lk ns (g :: ds) (t ++ ts)
  | no_mark m ns ds ts : In m [$";"; $"{"; $"}"] -> noise_of lk ns ds ts -> noise_of lk (m :: ns) ds (m :: ts)
  | no_linkage ns ds ts : lk -> noise_of lk ns ds ts -> noise_of lk ($"extern" :: c_linkage :: ns) ds ($"extern" :: c_linkage :: ts)
  | no_word w ns ds ts : plain_name base mods w -> opens base mods ts -> noise_of lk ns ds ts -> noise_of lk (w :: ns) ds (w :: ts).
  Definition noise_header (ns : list str) (ds : list gtop) (text : str) : Prop :=
    exists (lk : Prop) ts, noise_of lk ns ds ts /\ tabs_outside ts /\ written ts text /\ (lk -> one_string text).
End Left.
