(** Helpers of the examples in PropsPp.v. *)
From Coq Require Import Ascii String Bool Arith ZArith Lia List.
Import ListNotations.
From Verif Require Import PyBase PyBaseFacts PyStr MacroModel MacroSpec MacroDefProofs PropsMacro.
From Verif Require Import PyExpr PpModel PpSpec ExprSpec TextSpec.

Definition no_ext (s : str) : bool := false.
(** What is left of a run: text without blank lines. *)
Definition shown (r : res pst) : option (list str) :=
  match r with Ok s => Some (filter (fun l => negb (eqb l [])) (outp s)) | Err _ => None end.
Ltac gap_ok := let c := fresh in let I := fresh in
  intros c I; vm_compute in I;
  repeat (destruct I as [I|I]; [rewrite <- I; first [reflexivity | left; reflexivity | right; reflexivity]|]); destruct I.
Ltac no_in := let I := fresh in vm_compute; intros I; repeat (destruct I as [I|I]; [discriminate|]); exact I.

Definition identb (w : str) : bool := match w with [] => false | c :: r => is_idstart c && forallb is_idchar r end.
Lemma identb_ok w : identb w = true -> ident w.
Proof.
  destruct w as [|c r]; [discriminate|]. intros H. apply andb_prop in H. destruct H as [A B].
  split; [exact A|]. apply forallb_forall. exact B.
Qed.
Definition names_identb (t : mtab) : bool := forallb identb (keys (macros t)) && forallb identb (keys (fnmacros t)).
Lemma names_identb_ok t : names_identb t = true -> names_ident t.
Proof.
  intros H. apply andb_prop in H. destruct H as [A B]. rewrite forallb_forall in A, B.
  intros w [I|I]; apply dmem_In in I; apply identb_ok; auto.
Qed.

(** Tokens written with a blank before each. *)
Definition tok_canon (k : ctok) : str :=
  match k with
  | TNum d => d | TId w => w | TDefined w => $"defined " ++ w | TNot => $"!" | TAnd => $"&&" | TOr => $"||"
  | TInv => $"~" | TOpen => $"(" | TClose => $")" | TBin o => bop_text o | TRel o => cop_text o
  end.
Definition tok_okb (k : ctok) : bool :=
  match k with
  | TNum d => forallb is_digit d && good_digits d
  | TId w => identb w && negb (eqb w $"defined")
  | TDefined w => identb w
  | TBin OFloor => false
  | _ => true
  end.
Definition canon (ts : list ctok) : str := concat (map (fun k => sp :: tok_canon k) ts).
Lemma canon_tok k : tok_okb k = true -> tok_text k (tok_canon k).
Proof.
  destruct k as [d|w|w| | | | | | |o|o]; cbn [tok_okb tok_canon]; intros H; try constructor.
  - apply andb_prop in H. exact H.
  - apply andb_prop in H. apply identb_ok, H.
  - apply andb_prop in H. destruct H as [_ H]. intros ->. discriminate.
  - apply identb_ok, H.
  - gap_ok.
  - discriminate.
  - intros ->. discriminate.
Qed.
Lemma canon_spells ts : forallb tok_okb ts = true -> spells ts (canon ts).
Proof.
  induction ts as [|k ts IH]; intros H; [constructor; intros c []|]. cbn in H. apply andb_prop in H. destruct H as [A B].
  change (canon (k :: ts)) with ([sp] ++ tok_canon k ++ canon ts). apply spells_tok; [gap_ok|apply canon_tok; exact A| |auto].
  intros c r E. destruct ts as [|k' ts]; [discriminate|]. injection E as <- _.
  destruct k as [d|w|w| | | | | | |o|o]; cbn [apart]; auto.
  - split; [reflexivity|no_in].
  - split; [reflexivity|no_in].
  - split; [reflexivity|no_in].
  - discriminate.
  - split; [no_in|]. destruct o; discriminate.
  - no_in.
Qed.
Lemma written_if d ts : ts <> [] -> written d (canon ts) ($"#" ++ d ++ canon ts).
Proof.
  intros N. exists [], []. repeat split. intros c r E. destruct ts as [|k ts]; [congruence|]. injection E as <- _. reflexivity.
Qed.

(** Block of lines that are no directive. *)
Fixpoint texts (ls : list str) : block := match ls with [] => BNil | l :: r => BLine l (texts r) end.
Lemma texts_ok ls : (forall l, In l ls -> directive l = None) -> well_formed (texts ls).
Proof.
  induction ls as [|l ls IH]; intros H; [exact I|]. assert (D := H l (or_introl eq_refl)). cbn [texts well_formed]. split; [|split].
  - unfold conditional, dname. rewrite D. no_in.
  - intros (d & r & E & _). congruence.
  - apply IH. intros x J. apply H. right. exact J.
Qed.

(** A checker for pack pragmas. *)
Definition numb (z : Z) (d : str) : bool := negb (eqb d []) && forallb is_digit d && (zval d =? z)%Z.
Definition idb (w x : str) : bool := eqb w x && identb w && negb (eqb w $"push") && negb (eqb w $"pop").
Definition tailb (i : option str) (n : option Z) (rest : list str) : bool :=
  match i, n, rest with
  | None, None, [] => true
  | None, Some z, [d] => numb z d
  | Some w, None, [x] => idb w x
  | Some w, Some z, [x; d] => idb w x && numb z d
  | _, _, _ => false
  end.
Definition args_ofb (o : pop) (ws : list str) : bool :=
  match o, ws with
  | PSet None, [[]] => true
  | PSet (Some z), [d] => numb z d
  | PPush i n, w :: rest => eqb w $"push" && tailb i n rest
  | PPop i n, w :: rest => eqb w $"pop" && tailb i n rest
  | _, _ => false
  end.
Lemma numb_ok z d : numb z d = true -> num_arg (Some z) [d].
Proof.
  intros H. unfold numb in H. apply andb_prop in H. destruct H as [H Z]. apply andb_prop in H. destruct H as [A B].
  apply Z.eqb_eq in Z. subst z. constructor. split; [|exact B]. intros ->. discriminate.
Qed.
Lemma idb_ok w x : idb w x = true -> id_arg (Some w) [x].
Proof.
  intros H. unfold idb in H. apply andb_prop in H. destruct H as [H C]. apply andb_prop in H. destruct H as [H B].
  apply andb_prop in H. destruct H as [A I]. apply eqb_eq in A. subst x. constructor; [apply identb_ok; exact I| |].
  - intros ->. discriminate.
  - intros ->. discriminate.
Qed.
Lemma tailb_ok i n rest : tailb i n rest = true -> exists a b, rest = a ++ b /\ id_arg i a /\ num_arg n b.
Proof.
  destruct i as [w|], n as [z|]; cbn [tailb]; intros H.
  - destruct rest as [|x [|d [|]]]; try discriminate. apply andb_prop in H. destruct H as [A B].
    exists [x], [d]. split; [reflexivity|]. split; [apply idb_ok; exact A|apply numb_ok; exact B].
  - destruct rest as [|x [|]]; try discriminate. exists [x], []. split; [reflexivity|]. split; [apply idb_ok; exact H|constructor].
  - destruct rest as [|x [|]]; try discriminate. exists [], [x]. split; [reflexivity|]. split; [constructor|apply numb_ok; exact H].
  - destruct rest; try discriminate. exists [], []. repeat split; constructor.
Qed.
Lemma args_ofb_ok o ws : args_ofb o ws = true -> args_of o ws.
Proof.
  destruct o as [[z|]|i n|i n]; cbn [args_ofb]; intros H.
  - destruct ws as [|d [|]]; try discriminate. constructor. apply numb_ok. exact H.
  - destruct ws as [|[|] [|]]; try discriminate. constructor.
  - destruct ws as [|w rest]; [discriminate|]. apply andb_prop in H. destruct H as [A B]. apply eqb_eq in A. subst w.
    destruct (tailb_ok _ _ _ B) as (a & b & -> & X & Y). constructor; assumption.
  - destruct ws as [|w rest]; [discriminate|]. apply andb_prop in H. destruct H as [A B]. apply eqb_eq in A. subst w.
    destruct (tailb_ok _ _ _ B) as (a & b & -> & X & Y). constructor; assumption.
Qed.
Definition only_sp (s : str) : bool := forallb (fun c => negb (is_space c) || cheq c sp) s.
Definition isp (c : ascii) : bool := cheq c sp.
Definition pragmab (o : pop) (l : str) : bool :=
  match strip_prefix $"#pragma" l with
  | None => false
  | Some r =>
      let (g, r1) := span isp r in
      match strip_prefix $"pack" r1 with
      | None => false
      | Some r2 =>
          let (g', r3) := span isp r2 in
          match strip_prefix $"(" r3 with
          | None => false
          | Some r4 =>
              match split_first ")" r4 with
              | None => false
              | Some (inner, tl) =>
                  negb (eqb g []) && forallb isp tl && forallb only_sp (split_on "," inner)
                  && args_ofb o (map strip (split_on "," inner))
              end
          end
      end
  end.
Lemma isp_blanks s : forallb isp s = true -> blanks s.
Proof. intros H c I. rewrite forallb_forall in H. apply PyStrFacts.cheq_true. exact (H c I). Qed.
Lemma only_sp_padded s : only_sp s = true -> padded (strip s) s.
Proof.
  intros H. destruct (strip_parts s) as (a & b & E & A & B). exists a, b. split; [exact E|]. unfold only_sp in H.
  assert (X : forall c, In c s -> is_space c = true -> c = sp).
  { intros c I Q. rewrite forallb_forall in H. specialize (H c I). rewrite Q in H. apply PyStrFacts.cheq_true. exact H. }
  rewrite forallb_forall in A, B. split; intros c I; apply X.
  - rewrite E. apply in_or_app. auto.
  - apply A. exact I.
  - rewrite E. apply in_or_app. right. apply in_or_app. auto.
  - apply B. exact I.
Qed.
Lemma pragmab_ok o l : pragmab o l = true -> pragma_line o l.
Proof.
  unfold pragmab. destruct (strip_prefix $"#pragma" l) as [r|] eqn:E1; [|discriminate]. apply PyStrFacts.strip_prefix_iff in E1.
  pose proof (PyStrFacts.span_app isp r) as S1. pose proof (PyStrFacts.span_all isp r) as A1.
  destruct (span isp r) as [g r1]. cbn [fst] in A1.
  destruct (strip_prefix $"pack" r1) as [r2|] eqn:E2; [|discriminate]. apply PyStrFacts.strip_prefix_iff in E2.
  pose proof (PyStrFacts.span_app isp r2) as S2. pose proof (PyStrFacts.span_all isp r2) as A2.
  destruct (span isp r2) as [g' r3]. cbn [fst] in A2.
  destruct (strip_prefix $"(" r3) as [r4|] eqn:E3; [|discriminate]. apply PyStrFacts.strip_prefix_iff in E3.
  destruct (split_first ")" r4) as [[inner tl]|] eqn:E4; [|discriminate]. apply PyStrFacts.split_first_iff in E4. destruct E4 as [E4 _].
  intros H. apply andb_prop in H. destruct H as [H AO]. apply andb_prop in H. destruct H as [H OS]. apply andb_prop in H. destruct H as [NG TB].
  exists (map strip (split_on "," inner)), (split_on "," inner), g, g', tl.
  split; [apply args_ofb_ok; exact AO|]. split.
  - clear -OS. induction (split_on "," inner) as [|s ss IH]; [constructor|]. cbn in OS. apply andb_prop in OS. destruct OS as [A B].
    constructor; [apply only_sp_padded; exact A|apply IH; exact B].
  - split; [apply isp_blanks; exact A1|]. split; [intros ->; discriminate|]. split; [apply isp_blanks; exact A2|].
    split; [apply isp_blanks; exact TB|]. rewrite E1, S1, E2, S2, E3, E4. rewrite PyStrFacts.join_split_on. reflexivity.
Qed.
Lemma no_macro_empty l : no_macro empty_tab l.
Proof. intros w _. split; reflexivity. Qed.
Ltac pragma_history :=
  repeat first [ apply hi_nil
               | apply hi_op; [apply pragmab_ok; vm_compute; reflexivity|apply no_macro_empty|]
               | apply hi_text; [vm_compute; reflexivity|] ].
