(** What the property on packing in whole headers says (C81). *)
From Coq Require Import Ascii String Bool Arith ZArith List.
Import ListNotations.
From Verif Require Import PyBase PyStr PyExpr MacroModel MacroSpec PpModel PpSpec TextSpec FileSpec.
From Verif Require GramModel RunSpec.

(** ** The lines of a file *)
(** What becomes of a line of the file: a line of text, blank for a directive; nothing at all,
    so that the lines below move up; or, for a pragma, an operation on the packing and a blank
    line. *)
Inductive event := Put (x : str) | Lost | Op (o : pop).
Definition ops (es : list event) : list pop := flat_map (fun e => match e with Op o => [o] | _ => [] end) es.
Definition printed (es : list event) : list str :=
  flat_map (fun e => match e with Put x => [x] | Lost => [] | Op _ => [[]] end) es.
(** The documented state behind the lines [es]. *)
Definition after (p : packing) (es : list event) : packing := fold_left documented (ops es) p.
(** Lines in a group that is skipped. *)
Definition unused (l : str) : event :=
  if existsb (eqb (dname l)) [$"define"; $"undef"; $"pragma"] then Lost else Put [].
(** [traced m b es m']: as [cpp], with all lines, and with pragmas for the packing. *)
Inductive traced : cmac -> block -> list event -> cmac -> Prop :=
| tr_nil m : traced m BNil [] m
| tr_line m l o m1 b es m' :
    cpp m (BLine l BNil) o m1 -> dname l <> $"pragma" -> ~ In nl (hd [] o) ->
    traced m1 b es m' -> traced m (BLine l b) (Put (hd [] o) :: es) m'
| tr_pragma m l b es m' :
    dname l = $"pragma" -> idle_line m l -> traced m b es m' -> traced m (BLine l b) (Lost :: es) m'
| tr_pack m l o b es m' :
    pragma_line o l -> (forall w, name_in w l -> ~ known_to m w) ->
    traced m b es m' -> traced m (BLine l b) (Op o :: es) m'
| tr_taken m l body t rest e1 m1 e2 m2 :
    opens l -> decides m l true -> traced m body e1 m1 -> bwell_formed t -> traced m1 rest e2 m2 ->
    traced m (BCond l body t rest) (Put [] :: e1 ++ map unused (blines t) ++ e2) m2
| tr_skipped m l body t rest e1 m1 e2 m2 :
    opens l -> decides m l false -> well_formed body -> traced_branches m t e1 m1 -> traced m1 rest e2 m2 ->
    traced m (BCond l body t rest) (Put [] :: map unused (lines body) ++ e1 ++ e2) m2
with traced_branches : cmac -> branches -> list event -> cmac -> Prop :=
| tb_end m l : dname l = $"endif" -> traced_branches m (REnd l) [Put []] m
| tb_else m l body e es m' :
    dname l = $"else" -> dname e = $"endif" -> traced m body es m' ->
    traced_branches m (RElse l body e) (Put [] :: es ++ [Put []]) m'
| tb_elif_taken m l body t es m' :
    dname l = $"elif" -> decides m l true -> traced m body es m' -> bwell_formed t ->
    traced_branches m (RElif l body t) (Put [] :: es ++ map unused (blines t)) m'
| tb_elif_skipped m l body t es m' :
    dname l = $"elif" -> decides m l false -> well_formed body -> traced_branches m t es m' ->
    traced_branches m (RElif l body t) (Put [] :: map unused (lines body) ++ es) m'.
(** Phases 2 to 4 of the translation of [text], as in [translated]. *)
Definition traced_text (m : cmac) (text : str) (es : list event) (m' : cmac) : Prop :=
  exists ps segs b, text = parts_text ps /\ reads_as ps
    /\ without_comments ps = join continuation segs /\ segs <> []
    /\ Forall (fun s => ~ occurs continuation s) segs
    /\ split_on nl (concat segs) = lines b /\ traced m b es m'.

(** ** Declarations and packing *)
(** The line may contain the keyword of a structure or union. *)
Definition may_open (x : str) : Prop := occurs $"struct" x \/ occurs $"union" x.
(** The lines [es], with the packing [p] in front, are groups of declarations, [ds] altogether;
    the structures and unions of a group have the packing documented for the lines their
    keywords are on. *)
Inductive grouped (base mods : list str) : packing -> list event -> list GramModel.gtop -> Prop :=
| gr_last p P ds es :
    RunSpec.header base mods P ds (join [nl] (printed es)) ->
    (forall a x b, es = a ++ Put x :: b -> may_open x -> current (after p a) = P) ->
    grouped base mods p es ds
| gr_more p P ds es ds' es' :
    printed es <> [] -> printed es' <> [] -> RunSpec.header base mods P ds (join [nl] (printed es)) ->
    (forall a x b, es = a ++ Put x :: b -> may_open x -> current (after p a) = P) ->
    grouped base mods (after p es) es' ds' -> grouped base mods p (es ++ es') (ds ++ ds').
(** The restriction of the theorem: for each line with a structure, the [n]-th of the output, the
    packing is the same as behind the first [n + 1] lines of the file. *)
Definition aligned (es : list event) : Prop :=
  forall a x b, es = a ++ Put x :: b -> may_open x ->
    current (after initial (firstn (S (length (printed (a ++ [Put x])))) es)) = current (after initial a).
