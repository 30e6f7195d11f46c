(** What the properties C34-C38 say: packing pragmas, comments and line joining. *)
From Coq Require Import Ascii String Bool Arith ZArith List.
Import ListNotations.
From Verif Require Import PyBase PyStr PyExpr MacroModel MacroSpec PpModel.

(** ** Packing (C34, C35) *)
(** Operations: pack() or pack(n), pack(push[, id][, n]), pack(pop[, id][, n]).  The default
    packing is None. *)
Inductive pop := PSet (n : option Z) | PPush (i : option str) (n : option Z) | PPop (i : option str) (n : option Z).
(** The documented state: the packing in force, and the saved ones with their identifiers,
    last saved first. *)
Record packing := { current : option Z; saved : list (option Z * option str) }.
Definition initial : packing := {| current := None; saved := [] |}.
(** The records below the last one named [i], and its packing. *)
Fixpoint unwind (i : str) (l : list (option Z * option str)) : option (option Z * list (option Z * option str)) :=
  match l with
  | [] => None
  | (p, j) :: l' => if eqb j (Some i) then Some (p, l') else unwind i l'
  end.
Definition or_else (n d : option Z) : option Z := match n with Some _ => n | None => d end.
(** Push saves the packing in force, pop restores a saved one; a pop without a matching record
    is ignored. *)
Definition documented (p : packing) (o : pop) : packing :=
  match o with
  | PSet n => {| current := n; saved := saved p |}
  | PPush i n => {| current := or_else n (current p); saved := (current p, i) :: saved p |}
  | PPop i n =>
      match (match i with
             | Some i => unwind i (saved p)
             | None => match saved p with [] => None | (x, _) :: l => Some (x, l) end
             end) with
      | Some (x, l) => {| current := or_else n x; saved := l |}
      | None => p
      end
  end.

(** Spelling of an operation. *)
Definition digits (s : str) : Prop := s <> [] /\ forallb is_digit s = true.
Inductive num_arg : option Z -> list str -> Prop :=
| na_none : num_arg None []
| na_some d : digits d -> num_arg (Some (zval d)) [d].
Inductive id_arg : option str -> list str -> Prop :=
| ia_none : id_arg None []
| ia_some w : ident w -> w <> $"push" -> w <> $"pop" -> id_arg (Some w) [w].
Inductive args_of : pop -> list str -> Prop :=
| ao_reset : args_of (PSet None) [[]]
| ao_set n a : num_arg (Some n) a -> args_of (PSet (Some n)) a
| ao_push i n a b : id_arg i a -> num_arg n b -> args_of (PPush i n) ($"push" :: a ++ b)
| ao_pop i n a b : id_arg i a -> num_arg n b -> args_of (PPop i n) ($"pop" :: a ++ b).
(** Blanks around a text. *)
Definition padded (w s : str) : Prop := exists a b, s = a ++ w ++ b /\ blanks a /\ blanks b.
Definition pragma_line (o : pop) (l : str) : Prop :=
  exists ws ss g g' tail, args_of o ws /\ Forall2 padded ws ss /\ blanks g /\ g <> [] /\ blanks g' /\ blanks tail
    /\ l = $"#pragma" ++ g ++ $"pack" ++ g' ++ $"(" ++ join [","%char] ss ++ $")" ++ tail.
(** No word of the line is a macro. *)
Definition no_macro (t : mtab) (l : str) : Prop :=
  forall w, name_in w l -> dget (macros t) w = None /\ dget (fnmacros t) w = None.
(** Lines with the operations they contain: pack pragmas and lines without directive. *)
Inductive history (t : mtab) : list str -> list pop -> Prop :=
| hi_nil : history t [] []
| hi_op l o ls os : pragma_line o l -> no_macro t l -> history t ls os -> history t (l :: ls) (o :: os)
| hi_text l ls os : directive l = None -> history t ls os -> history t (l :: ls) os.
(** The packing in force after a run. *)
Definition in_force (s : pst) : option Z := snd (last (plist s) (0, None)).

(** Histories where each push sets a packing, and is done while the packing in force is the one
    set by the enclosing push ([r]; the default outside of any), with an identifier not in use,
    and each pop has a record. *)
Fixpoint disciplined (p : packing) (r : option Z) (os : list pop) : Prop :=
  match os with
  | [] => True
  | o :: os' =>
      match o with
      | PSet _ => disciplined (documented p o) r os'
      | PPush i n =>
          n <> None /\ current p = r /\ (forall x, i = Some x -> ~ In (Some x) (map snd (saved p)))
          /\ disciplined (documented p o) n os'
      | PPop i _ =>
          match (match i with
                 | Some i => unwind i (saved p)
                 | None => match saved p with [] => None | (x, _) :: l => Some (x, l) end
                 end) with
          | Some (x, _) => disciplined (documented p o) x os'
          | None => False
          end
      end
  end.
(** Each pop matches an earlier push; identifiers of pops are left out. *)
Fixpoint matched (n : nat) (os : list pop) : Prop :=
  match os with
  | [] => True
  | PSet _ :: os' => matched n os'
  | PPush _ _ :: os' => matched (S n) os'
  | PPop (Some _) _ :: _ => False
  | PPop None _ :: os' => match n with O => False | S n' => matched n' os' end
  end.

(** ** Comments (C37) *)
Inductive part := ACode (c : ascii) | AQuoted (q : ascii) (body : str) | ABlock (body : str) | ALine (body : str).
Definition part_text (p : part) : str :=
  match p with
  | ACode c => [c]
  | AQuoted q b => q :: b ++ [q]
  | ABlock b => $"/*" ++ b ++ $"*/"
  | ALine b => $"//" ++ b
  end.
Definition parts_text (ps : list part) : str := concat (map part_text ps).
(** The inside of a string or character literal with quote [q]. *)
Inductive quoted_body (q : ascii) : str -> Prop :=
| qb_nil : quoted_body q []
| qb_char c s : ~ In c [q; bslash; nl; cr] -> quoted_body q s -> quoted_body q (c :: s)
| qb_esc c s : c <> "x"%char -> quoted_body q s -> quoted_body q (bslash :: c :: s)
| qb_hex h s : h <> [] -> (forall c, In c h -> is_hex c = true) ->
    (forall c s', s = c :: s' -> is_hex c = false) -> quoted_body q s ->
    quoted_body q (bslash :: "x"%char :: h ++ s).
Definition occurs (p s : str) : Prop := exists a b, s = a ++ p ++ b.
(** The parts are what C reads: comments end at the first chance, and no other part begins
    a comment or a literal.  Line comments do not end with a backslash. *)
Fixpoint reads_as (ps : list part) : Prop :=
  match ps with
  | [] => True
  | p :: r =>
      (match p with
       | ACode c =>
           ~ In c quotes /\ (c = "/"%char -> forall d s, parts_text r = d :: s -> d <> "/"%char /\ d <> "*"%char)
       | AQuoted q b => In q quotes /\ quoted_body q b
       | ABlock b => ~ occurs $"*/" b
       | ALine b => ~ In nl b /\ (forall a, b <> a ++ [bslash]) /\ (forall d s, parts_text r = d :: s -> d = nl)
       end)
      /\ reads_as r
  end.
Definition without_comments (ps : list part) : str :=
  concat (map (fun p => match p with ABlock _ | ALine _ => [] | p => part_text p end) ps).

(** ** Continuation lines (C38) *)
Definition continuation : str := [bslash; nl].
