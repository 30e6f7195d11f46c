(** Reading declarations. *)
From Coq Require Import Ascii String Bool Arith ZArith Lia List.
Import ListNotations.
From Verif Require Import PyBase PyBaseFacts PyStr PyStrFacts MacroModel PpModel DeclModel EvalModel
  GramModel GramSpec GramLex GramExpr.

Ltac isin := cbv beta delta [efol ofol] iota; cbn [first]; apply mem_str; reflexivity.

Section Declarations.
  Context (base mods : list str) (pk : str -> option Z) (pack : option Z)
    (GC : good_config base mods) (PK : forall r, pk r = pack).
  Notation plain_name := (plain_name base mods).

  (** ** The configuration *)
  Lemma nil_not_word : ~ word [].
  Proof. intros []. Qed.
  Lemma no_nil (l : list str) : Forall word l -> ~ In [] l.
  Proof. intros F I. rewrite Forall_forall in F. apply (nil_not_word (F _ I)). Qed.
  Lemma words (l : list str) : forallb word_b l = true -> Forall word l.
  Proof. intros H. apply Forall_forall. intros t I. apply word_b_iff. apply (In_all _ l t H I). Qed.
  Lemma base_words : Forall word base.
  Proof. apply GC. Qed.
  Lemma mods_words : Forall word mods.
  Proof. apply GC. Qed.
  Lemma keyword_words : Forall word (keywords base).
  Proof.
    unfold keywords. apply Forall_app. split; [apply words; reflexivity|]. apply Forall_app. split; [apply words; reflexivity|].
    apply Forall_app. split; [apply base_words|apply words; reflexivity].
  Qed.
  Lemma NB : ~ In [] (keywords base).
  Proof. apply no_nil. apply keyword_words. Qed.
  Lemma fund_words : Forall word (modifiers ++ base).
  Proof. apply Forall_app. split; [apply words; reflexivity|apply base_words]. Qed.
  Lemma reserved_free t : In t reserved -> ~ In t base /\ ~ In t mods.
  Proof. intros R. split; intros I; destruct GC as (_ & _ & H & _); apply (H t); auto. Qed.
  Lemma not_word_free t : ~ word t -> ~ In t base /\ ~ In t mods /\ ~ In t modifiers.
  Proof.
    intros N. split; [|split]; intros I; apply N.
    - apply (proj1 (Forall_forall _ _) base_words t I).
    - apply (proj1 (Forall_forall _ _) mods_words t I).
    - assert (W : Forall word modifiers) by (apply words; reflexivity). apply (proj1 (Forall_forall _ _) W t I).
  Qed.
  Lemma fund_keyword t : In t (modifiers ++ base) -> In t (keywords base).
  Proof.
    intros I. unfold keywords. apply in_app_iff in I. rewrite !in_app_iff. tauto.
  Qed.
  Lemma qual_keyword t : In t qualifiers -> In t (keywords base).
  Proof. intros I. unfold keywords. rewrite !in_app_iff. tauto. Qed.

  (** Punctuation of a list of tokens. *)
  Lemma puncts_no_word (l : list str) t : forallb (fun t => negb (word_b t)) l = true -> In t l -> ~ word t.
  Proof.
    intros H I W. apply word_b_iff in W. pose proof (In_all _ l t H I) as Z. cbv beta in Z. rewrite W in Z. discriminate.
  Qed.
  Lemma plain_word n : plain_name n -> word n.
  Proof. intros H. apply H. Qed.
  Lemma word_no_start d t : is_idchar d = false -> word t -> ~ starts d t.
  Proof. intros D W (r & ->). destruct W as [W _]. apply idstart_idchar in W. congruence. Qed.
  Lemma word_no_quote t : word t -> no_quote t.
  Proof.
    destruct t as [|c r]; [intros []|]. intros [W _]. cbn [no_quote]. unfold is_quote. apply orb_false_iff.
    split; apply cheq_false; intros ->; discriminate.
  Qed.

  (** ** Qualifiers *)
  (** Tokens that are not qualifiers. *)
  Definition nq (t : str) : Prop := ~ In t qualifiers /\ (In t (keywords base) \/ starts_with $"__" t = false).
  Lemma nq_plain n : plain_name n -> nq n.
  Proof.
    intros (W & K & _ & _ & _ & U). split; [|right; exact U]. intros I. apply K. apply qual_keyword. exact I.
  Qed.
  Definition nq_b (t : str) : bool := negb (mem t qualifiers) && negb (starts_with $"__" t).
  Lemma nq_in (l : list str) t : forallb nq_b l = true -> In t l -> nq t.
  Proof.
    intros H I. pose proof (In_all _ l t H I) as Z. unfold nq_b in Z. apply andb_true_iff in Z. destruct Z as [Z1 Z2].
    apply negb_true_iff in Z1, Z2. split; [|right; exact Z2]. intros J. apply mem_str in J. congruence.
  Qed.
  Lemma nq_fund t : In t (modifiers ++ base) -> nq t.
  Proof.
    intros I. split; [|left; apply fund_keyword; exact I]. intros Q. apply in_app_iff in I. destruct I as [I|I].
    - pose proof (In_all (fun t => negb (mem t modifiers)) qualifiers t eq_refl Q) as Z. cbv beta in Z.
      apply mem_str in I. rewrite I in Z. discriminate.
    - assert (R : In t reserved) by (unfold reserved; rewrite !in_app_iff; tauto). apply reserved_free in R. tauto.
  Qed.
  Lemma nq_conv t : t = $"__cdecl" \/ t = $"__stdcall" -> nq t.
  Proof.
    intros H. split.
    - intros I. apply mem_str in I. destruct H as [->| ->]; discriminate.
    - left. unfold keywords. apply in_or_app. left. destruct H as [->| ->]; cbn [In]; tauto.
  Qed.
  Lemma nq_tag t : In t [$"struct"; $"union"; $"enum"] -> nq t.
  Proof. apply nq_in. reflexivity. Qed.

  Lemma qualifier_yes w p rest : In w qualifiers -> view p (w :: rest) -> reads (qualifier base p) p [w] 1 rest.
  Proof.
    intros I V. unfold qualifier. right_alt.
    { apply bind_no. apply (under2_no base p (w :: rest) V). left. apply qual_keyword. exact I. }
    eapply reads_bind; [apply (kwl_yes qualifiers p w rest V)|intros q Vq Lq; apply reads_ret; exact Vq|apply Nat.le_refl].
    - assert (W : Forall word qualifiers) by (apply words; reflexivity). apply (proj1 (Forall_forall _ _) W w I).
    - exact I.
  Qed.
  Lemma qualifier_no p rest : view p rest -> first rest nq -> qualifier base p = PNo.
  Proof.
    intros V F. unfold qualifier. no_alt.
    - apply bind_no. apply (under2_no base p rest V). revert F. apply first_imp. intros t [_ H]. exact H.
    - apply bind_no. apply (kwl_no qualifiers p rest V).
      + apply no_nil. apply words. reflexivity.
      + revert F. apply first_imp. intros t [H _]. exact H.
  Qed.
  Lemma quals_reads q p rest : quals_ok q -> view p (q ++ rest) -> first rest nq -> reads (quals base p) p q (length q) rest.
  Proof.
    intros Q V F. unfold quals.
    eapply reads_bind.
    - apply (many_seq (qualifier base) (S (length (snd p))) (fun l t => exists w, In w qualifiers /\ l = [w] /\ t = [w]) (fun _ => True)
        (map (fun w => [w]) q) q rest p).
      + intros l t r p' (w & I & -> & ->) V' _ _. apply qualifier_yes; assumption.
      + intros l t (w & _ & _ & ->). discriminate.
      + auto.
      + exact Logic.I.
      + intros q' V' _. apply (qualifier_no q' rest V' F).
      + clear V F. induction Q as [|w q I Q IH]; [constructor|]. change (w :: q) with ([w] ++ q) at 2. cbn [map]. constructor; [exists w; auto|exact IH].
      + exact V.
      + lia.
    - intros q' V' L'. assert (E : concat (map (fun w : str => [w]) q) = q).
      { clear. induction q as [|w q IH]; [reflexivity|]. cbn [map concat app]. rewrite IH. reflexivity. }
      rewrite E. apply reads_ret. exact V'.
    - lia.
  Qed.

  (** ** Pointers, arrays, defaults *)
  Lemma star_reads : forall n, parses (star base) n (fun a t => sp_star a t) (fun r => first r nq).
  Proof.
    intros n q t rest p (Q & ->) V F L. unfold star. cbn [app] in V.
    eapply reads_bind; [apply lit_yes; exact V|intros q' V' L'; apply (quals_reads q q' rest Q V' F)|]. len.
  Qed.
  Lemma stars_reads ps t rest p : seq_list sp_star ps t -> view p (t ++ rest) -> first rest nq ->
    first rest (fun t => ~ starts "*" t) -> reads (many (star base) p) p ps (length t) rest.
  Proof.
    intros H V F N. apply (many_seq (star base) (S (length (snd p))) sp_star (fun r => first r nq) ps t rest p); auto; try lia.
    - apply star_reads.
    - intros a u (_ & ->). discriminate.
    - intros a u r (_ & ->). cbn [app first]. apply (nq_in [$"*"]); [reflexivity|left; reflexivity].
    - intros q V' _. apply bind_no. apply (lit_no "*" [] q rest V' N).
  Qed.
  Lemma array_reads : forall n, parses (array base) n (fun a t => sp_array base mods a t) (fun _ => True).
  Proof.
    intros n e t rest p H V _ L. unfold array. destruct H as [(-> & ->)|(tx & H & ->)]; assoc V.
    - eapply reads_bind; [apply lit_yes; exact V|intros q1 V1 L1|apply Nat.le_refl].
      eapply reads_bind; [apply reads_none; [apply (expression_no base q1 _ V1); left; reflexivity|exact V1]|intros q2 V2 L2|apply Nat.le_refl].
      eapply reads_bind; [apply (delim_yes _ _ _ _ V2); reflexivity|intros q3 V3 L3; apply reads_ret; exact V3|]. cbn [length]. lia.
    - eapply reads_bind; [apply lit_yes; exact V|intros q1 V1 L1|].
      + eapply reads_bind; [apply reads_opt; apply (expression_reads base mods NB e tx _ q1 H V1); isin|intros q2 V2 L2|apply Nat.le_refl].
        eapply reads_bind; [apply (delim_yes _ _ _ _ V2); reflexivity|intros q3 V3 L3; apply reads_ret; exact V3|apply Nat.le_refl].
      + len.
  Qed.
  Lemma arrays_reads ar t rest p : seq_list (sp_array base mods) ar t -> view p (t ++ rest) ->
    first rest (fun t => ~ starts "[" t) -> reads (many (array base) p) p ar (length t) rest.
  Proof.
    intros H V N. apply (many_seq (array base) (S (length (snd p))) (sp_array base mods) (fun _ => True) ar t rest p); auto; try lia.
    - apply array_reads.
    - intros a u [(_ & ->)|(tx & _ & ->)]; discriminate.
    - intros q V' _. apply bind_no. apply (lit_no "[" [] q rest V' N).
  Qed.
  Lemma default_reads v t rest p : sp_default base mods v t -> view p (t ++ rest) -> efol rest -> reads (default base p) p v (length t) rest.
  Proof.
    intros H V F. unfold default. destruct v as [e|]; cbn [sp_default] in H.
    - destruct H as (tx & H & ->). cbn [app] in V. apply reads_opt.
      eapply reads_bind; [apply lit_yes; exact V|intros q V' L'; apply (expression_reads base mods NB e tx rest q H V' F)|]. len.
    - subst t. cbn [app] in V. apply reads_none; [|exact V]. apply bind_no. apply (lit_no_in _ _ _ _ _ V F). reflexivity.
  Qed.

  (** ** Enums *)
  Definition efol2 (rest : list str) : Prop := first rest (fun t => In t [$","; $"}"]).
  Lemma enumerator_reads : forall n, parses (enumerator base) n (sp_enumerator base mods) efol2.
  Proof.
    intros n [x v] t rest p (PN & td & D & ->) V F L. cbn [fst snd app] in *. unfold enumerator.
    eapply reads_bind; [apply (ident_yes base NB p x _ V); apply PN|intros q V' L'|].
    - eapply reads_bind; [apply (default_reads v td rest q D V')|intros q2 V2 L2; apply reads_ret; exact V2|apply Nat.le_refl].
      revert F. apply first_imp. intros t I. apply (In_sub [$","; $"}"]); [reflexivity|exact I].
    - len.
  Qed.
  Lemma tag_reads n t rest p : sp_tag base mods n t -> view p (t ++ rest) -> first rest (fun t => ~ word t) ->
    reads (popt (ident base) p) p n (length t) rest.
  Proof.
    intros H V F. destruct n as [w|]; cbn [sp_tag] in H.
    - destruct H as (PN & ->). apply reads_opt. apply (ident_yes base NB p w rest V); apply PN.
    - subst t. apply reads_none; [|exact V]. apply (ident_no base p rest V). revert F. apply first_imp. tauto.
  Qed.
  Lemma not_word_in (l : list str) t : In t l -> forallb (fun t => negb (word_b t)) l = true -> ~ word t.
  Proof. intros I H. apply (puncts_no_word l t H I). Qed.
  Lemma sep_nonempty {A} (P : A -> list str -> Prop) l t : sep_list P l t -> l <> [].
  Proof. intros []; discriminate. Qed.

  (** What may follow a type. *)
  Definition sf_toks : list str :=
    qualifiers ++ [$"__cdecl"; $"__stdcall"; $"*"; $"&"; $"("; $"["; $","; $")"; $";"; $"="; $":"].
  Definition sft (t : str) : Prop := In t sf_toks \/ plain_name t.
  Definition sfol (rest : list str) : Prop := first rest sft.
  Lemma sft_fund t : sft t -> ~ In t (modifiers ++ base).
  Proof.
    intros [I|P] J.
    - apply in_app_iff in J. destruct J as [J|J].
      + pose proof (In_all (fun t => negb (mem t modifiers)) sf_toks t eq_refl I) as Z. cbv beta in Z. apply mem_str in J. rewrite J in Z. discriminate.
      + pose proof (In_all (fun t => mem t reserved || negb (word_b t)) sf_toks t eq_refl I) as Z. cbv beta in Z.
        apply orb_true_iff in Z. destruct Z as [Z|Z].
        * apply mem_str in Z. apply reserved_free in Z. tauto.
        * assert (N : ~ word t) by (intros W; apply word_b_iff in W; rewrite W in Z; discriminate). apply not_word_free in N. tauto.
    - destruct P as (_ & K & _). apply K. apply fund_keyword. exact J.
  Qed.
  Lemma sft_mods t : sft t -> ~ In t mods.
  Proof.
    intros [I|P] J.
    - pose proof (In_all (fun t => mem t reserved || negb (word_b t)) sf_toks t eq_refl I) as Z. cbv beta in Z.
      apply orb_true_iff in Z. destruct Z as [Z|Z].
      + apply mem_str in Z. apply reserved_free in Z. tauto.
      + assert (N : ~ word t) by (intros W; apply word_b_iff in W; rewrite W in Z; discriminate). apply not_word_free in N. tauto.
    - destruct P as (_ & _ & M & _). tauto.
  Qed.
  Lemma sft_brace t : sft t -> ~ starts "{" t.
  Proof.
    intros [I|P].
    - apply starts_b_no. pose proof (In_all (fun t => negb (starts_b "{" t)) sf_toks t eq_refl I) as Z. apply negb_true_iff. exact Z.
    - apply word_no_start; [reflexivity|apply P].
  Qed.
  Lemma sft_quote t : sft t -> no_quote t.
  Proof.
    intros [I|P].
    - pose proof (In_all (fun t => match t with d :: _ => negb (is_quote d) | [] => true end) sf_toks t eq_refl I) as Z. cbv beta in Z.
      destruct t as [|d r]; [exact Logic.I|]. apply negb_true_iff. exact Z.
    - apply word_no_quote. apply P.
  Qed.

  (** The same, or a modifier. *)
  Definition tfol (rest : list str) : Prop := first rest (fun t => sft t \/ In t mods).
  Lemma tft_fund t : sft t \/ In t mods -> ~ In t (modifiers ++ base).
  Proof. intros [H|H]; [apply sft_fund; exact H|]. destruct GC as (_ & _ & _ & H4). apply H4. exact H. Qed.
  Lemma tft_brace t : sft t \/ In t mods -> ~ starts "{" t.
  Proof.
    intros [H|H]; [apply sft_brace; exact H|]. apply word_no_start; [reflexivity|]. apply (proj1 (Forall_forall _ _) mods_words t H).
  Qed.
  Lemma tft_quote t : sft t \/ In t mods -> no_quote t.
  Proof. intros [H|H]; [apply sft_quote; exact H|]. apply word_no_quote. apply (proj1 (Forall_forall _ _) mods_words t H). Qed.

  Lemma enum_reads g t rest p : sp_type base mods pack g t -> first t (fun w => w = $"enum") ->
    view p (t ++ rest) -> tfol rest -> reads (enum_type base p) p g (length t) rest.
  Proof.
    intros H E V F. unfold enum_type. destruct H as [l NL FL|n PN|c n PN|c n l tn tl TG NL SL|n PN|n l tn tl tc TG SL TC].
    1,2,3,4: exfalso; cbn [first app] in E.
    - destruct l as [|w l]; [congruence|]. cbn [first] in E. subst w. inversion FL as [|x y I _]; subst.
      assert (R : In $"enum" reserved) by (right; left; reflexivity). apply in_app_iff in I. destruct I as [I|I].
      + apply mem_str in I. discriminate.
      + apply reserved_free in R. tauto.
    - subst n. destruct PN as (_ & K & _). apply K. right. left. reflexivity.
    - destruct c; discriminate.
    - destruct c; discriminate.
    - cbn [app] in V. eapply reads_bind; [apply (keyword_yes $"enum" p _ V); split; reflexivity|intros q1 V1 L1|].
      + right_alt.
        { eapply bind_then_no; [apply reads_opt; apply (ident_yes base NB q1 n rest V1); apply PN|]. intros q2 V2 L2. apply bind_no.
          apply (delim_no "{" [] q2 rest V2); [revert F; apply first_imp; apply tft_quote|revert F; apply first_imp; apply tft_brace]. }
        eapply reads_bind; [apply (ident_yes base NB q1 n rest V1); apply PN|intros q2 V2 L2; apply reads_ret; exact V2|apply Nat.le_refl].
      + cbn [length]. lia.
    - assoc V. eapply reads_bind; [apply (keyword_yes $"enum" p _ V); split; reflexivity|intros q1 V1 L1|].
      + left_alt. eapply reads_bind; [apply (tag_reads n tn _ q1 TG V1); intros []; discriminate|intros q2 V2 L2|apply Nat.le_refl].
        eapply reads_bind; [apply (delim_yes _ _ _ _ V2); reflexivity|intros q3 V3 L3|apply Nat.le_refl].
        eapply (reads_bind _ _ _ _ _ _ (length tc + 1));
          [apply (delimited_sep (enumerator base) (S (length (snd q3))) (sp_enumerator base mods) efol2 l tl (tc ++ $"}" :: rest) q3)|intros q4 V4 L4|apply Nat.le_refl].
        * apply enumerator_reads.
        * intros r. left. reflexivity.
        * destruct TC as [->| ->]; cbn [app]; [right|]; left; reflexivity.
        * intros q V' _. destruct TC as [->| ->]; cbn [app] in V'.
          -- apply bind_no. apply (lit_no "," [] q _ V'). intros (r & Z). discriminate.
          -- eapply bind_then_no; [apply lit_yes; exact V'|]. intros q' V2' L2'. apply bind_no. apply (ident_no base q' _ V2'). left.
             intros []; discriminate.
        * exact SL.
        * exact V3.
        * lia.
        * destruct TC as [->| ->]; cbn [app length] in *.
          -- eapply reads_bind; [apply reads_none; [apply (delim_no "," [] q4 _ V4); [reflexivity|intros (r & Z); discriminate]|exact V4]|intros q5 V5 L5|].
             ++ eapply reads_bind; [apply (delim_yes _ _ _ _ V5); reflexivity|intros q6 V6 L6; apply reads_ret; exact V6|apply Nat.le_refl].
             ++ lia.
          -- eapply reads_bind; [apply reads_opt; apply (delim_yes _ _ _ _ V4); reflexivity|intros q5 V5 L5|].
             ++ eapply reads_bind; [apply (delim_yes _ _ _ _ V5); reflexivity|intros q6 V6 L6; apply reads_ret; exact V6|apply Nat.le_refl].
             ++ lia.
      + len.
  Qed.

  (** ** Declarators *)
  Notation sp_decl := (sp_decl base mods pack).
  Notation sp_spec := (sp_spec base mods pack).
  Notation sp_abstract := (sp_abstract base mods).
  Definition ends_toks : list str := [$","; $";"; $")"; $"="; $":"; $"}"].
  Definition dfol (rest : list str) : Prop := first rest (fun t => In t ends_toks \/ fun_body t).
  Definition afol (rest : list str) : Prop := first rest (fun t => In t ends_toks).
  Definition stop_toks : list str := [$")"; $"}"].

  (** No token of these begins so. *)
  Lemma no_start (d : ascii) (l : list str) t : forallb (fun t => negb (starts_b d t)) l = true -> In t l -> ~ starts d t.
  Proof. intros H I. apply starts_b_no. pose proof (In_all _ l t H I) as Z. apply negb_true_iff. exact Z. Qed.
  Lemma body_start d t : fun_body t -> d <> "{"%char -> ~ starts d t.
  Proof. intros (b & _ & ->) N (r & Z). injection Z as Z _. congruence. Qed.
  Lemma dfol_start d rest : forallb (fun t => negb (starts_b d t)) ends_toks = true -> d <> "{"%char -> dfol rest ->
    first rest (fun t => ~ starts d t).
  Proof.
    intros H N. apply first_imp. intros t [I|B]; [apply (no_start d _ t H I)|apply body_start; assumption].
  Qed.
  Lemma body_nq t : fun_body t -> nq t.
  Proof.
    intros (b & _ & ->). split; [|right; reflexivity]. intros I.
    assert (W : Forall word qualifiers) by (apply words; reflexivity).
    pose proof (proj1 (Forall_forall _ _) W _ I) as [Z _]. discriminate.
  Qed.

  (** The tokens a declarator begins with. *)
  Definition decl_toks : list str := [$"*"; $"&"; $"("].
  Definition core_head (t : str) : Prop := In t [$"&"; $"("] \/ plain_name t.
  Lemma core_first c t rest : sp_core base mods pack c t -> first (t ++ rest) core_head.
  Proof.
    intros [r n tr TR PN|d td H]; [|left; right; left; reflexivity]. unfold sp_ref in TR. destruct r; subst tr; cbn [app first].
    - left. left. reflexivity.
    - right. exact PN.
  Qed.
  Lemma core_head_nq t : core_head t -> nq t.
  Proof. intros [I|P]; [apply (nq_in [$"&"; $"("] t eq_refl I)|apply nq_plain; exact P]. Qed.
  Lemma core_head_star t : core_head t -> ~ starts "*" t.
  Proof. intros [I|P]; [apply (no_start "*" [$"&"; $"("] t eq_refl I)|apply word_no_start; [reflexivity|apply P]]. Qed.
  Lemma core_head_sft t : core_head t -> sft t.
  Proof. intros [I|P]; [left; apply (In_sub [$"&"; $"("]); [reflexivity|exact I]|right; exact P]. Qed.
  Lemma stars_first ps t rest (P : str -> Prop) : seq_list sp_star ps t -> P $"*" -> first rest P -> first (t ++ rest) P.
  Proof. intros [|a u l us (_ & ->) _] H F; [exact F|exact H]. Qed.
  Lemma quals_first q rest (P : str -> Prop) : quals_ok q -> (forall t, In t qualifiers -> P t) -> first rest P -> first (q ++ rest) P.
  Proof. intros [|w l I _] H F; [exact F|apply H; exact I]. Qed.
  Lemma arrays_first ar t rest (P : str -> Prop) : seq_list (sp_array base mods) ar t -> P $"[" -> first rest P -> first (t ++ rest) P.
  Proof. intros [|a u l us HA _] H F; [exact F|]. destruct HA as [(_ & ->)|(tx & _ & ->)]; exact H. Qed.
  Lemma args_first a t rest (P : str -> Prop) : sp_args base mods pack a t -> P $"(" -> first rest P -> first (t ++ rest) P.
  Proof. intros [| |l tl _] H F; [exact F|exact H|exact H]. Qed.
  Lemma conv_first c t rest (P : str -> Prop) : sp_conv c t -> (forall w, w = $"__cdecl" \/ w = $"__stdcall" -> P w) ->
    first rest P -> first (t ++ rest) P.
  Proof. intros H HP F. destruct c as [w|]; cbn [sp_conv] in H; [destruct H as (H & ->); apply HP; exact H|subst t; exact F]. Qed.
  Lemma decl_sfol d t rest : sp_decl d t -> sfol (t ++ rest).
  Proof.
    intros [fq cc ps c a ar tc tp tn ta tr Q C ST CO A AR]. unfold sfol. rewrite <- !app_assoc.
    apply quals_first; [exact Q|intros w I; left; unfold sf_toks; apply in_or_app; left; exact I|].
    apply (conv_first cc); [exact C|intros w [->| ->]; left; apply mem_str; reflexivity|].
    apply (stars_first ps); [exact ST|left; apply mem_str; reflexivity|].
    eapply first_imp; [apply core_head_sft|]. apply (core_first c). exact CO.
  Qed.
  Lemma decl_nonempty d t : sp_decl d t -> t <> [].
  Proof.
    intros [fq cc ps c a ar tc tp tn ta tr Q C ST CO A AR] Z.
    apply app_eq_nil in Z. destruct Z as [_ Z]. apply app_eq_nil in Z. destruct Z as [_ Z]. apply app_eq_nil in Z. destruct Z as [_ Z].
    apply app_eq_nil in Z. destruct Z as [Z _]. destruct CO as [r n tr' TR PN|d' td H]; [|discriminate].
    apply app_eq_nil in Z. destruct Z as [_ Z]. discriminate.
  Qed.
  Lemma ends_sft t : In t [$","; $";"; $")"; $"="; $":"] -> sft t.
  Proof. intros I. left. apply (In_sub [$","; $";"; $")"; $"="; $":"]); [reflexivity|exact I]. Qed.
  Lemma abstract_sfol d t rest : sp_abstract d t -> sfol rest -> sfol (t ++ rest).
  Proof.
    intros [fq ps r ar tp tr ta Q ST TR AR] F. unfold sfol. rewrite <- !app_assoc.
    apply quals_first; [exact Q|intros w I; left; unfold sf_toks; apply in_or_app; left; exact I|].
    apply (stars_first ps); [exact ST|left; apply mem_str; reflexivity|].
    unfold sp_ref in TR. destruct r; subst tr; cbn [app first]; [left; apply mem_str; reflexivity|].
    apply (arrays_first ar); [exact AR|left; apply mem_str; reflexivity|exact F].
  Qed.

  Lemma conv_reads c t rest p : sp_conv c t -> view p (t ++ rest) ->
    first rest (fun t => t <> $"__cdecl" /\ t <> $"__stdcall") -> reads (call_conv p) p c (length t) rest.
  Proof.
    intros H V F. unfold call_conv. destruct c as [w|]; cbn [sp_conv] in H.
    - destruct H as (H & ->). cbn [app] in V. apply reads_opt. destruct H as [->| ->].
      + left_alt. apply (keyword_yes $"__cdecl" p rest V). split; reflexivity.
      + right_alt; [apply (keyword_no $"__cdecl" p _ V); discriminate|]. apply (keyword_yes $"__stdcall" p rest V). split; reflexivity.
    - subst t. cbn [app] in V. apply reads_none; [|exact V]. no_alt.
      + apply (keyword_no $"__cdecl" p _ V); [discriminate|]. revert F. apply first_imp. tauto.
      + apply (keyword_no $"__stdcall" p _ V); [discriminate|]. revert F. apply first_imp. tauto.
  Qed.
  Lemma not_conv t : nq t -> ~ In t [$"__cdecl"; $"__stdcall"] -> t <> $"__cdecl" /\ t <> $"__stdcall".
  Proof. intros _ N. split; intros ->; apply N; [left|right; left]; reflexivity. Qed.
  Lemma core_head_conv t : core_head t -> t <> $"__cdecl" /\ t <> $"__stdcall".
  Proof.
    intros [I|P].
    - split; intros ->; apply mem_str in I; discriminate.
    - destruct P as (_ & _ & _ & _ & _ & U). split; intros ->; discriminate.
  Qed.
  Lemma ref_reads r t rest p : sp_ref r t -> view p (t ++ rest) -> first rest (fun t => ~ starts "&" t) ->
    exists x, reads (popt (lit $"&") p) p x (length t) rest /\ match x with Some _ => true | None => false end = r.
  Proof.
    intros H V F. unfold sp_ref in H. destruct r; subst t; cbn [app] in V.
    - exists (Some $"&"). split; [|reflexivity]. apply reads_opt. apply lit_yes. exact V.
    - exists None. split; [|reflexivity]. apply reads_none; [apply (lit_no "&" [] p rest V F)|exact V].
  Qed.

  (** ** Types and what follows them *)
  Notation apart := (apart mods).
  Definition spec_parses (e : pos -> pres gspec) (n : nat) : Prop :=
    forall a t rest p, sp_spec a t -> view p (t ++ rest) -> sfol rest -> apart t rest -> length (snd p) < n ->
      reads (e p) p a (length t) rest.
  Lemma apart_app tt td rest : apart tt td -> (td = [] -> first rest (fun w => w <> $"(")) -> apart tt (td ++ rest).
  Proof. intros A H I. destruct td as [|w td]; [apply H; reflexivity|apply (A I)]. Qed.
  Lemma apart_first tt rest : first rest (fun w => w <> $"(") -> apart tt rest.
  Proof. intros H _. exact H. Qed.
  Lemma apart_decl d tt td rest : sp_decl d td -> apart tt td -> apart tt (td ++ rest).
  Proof. intros H A. apply apart_app; [exact A|]. intros Z. exfalso. apply (decl_nonempty d td H Z). Qed.
  Lemma not_paren l t : forallb (fun t => negb (eqb t $"(")) l = true -> In t l -> t <> $"(".
  Proof. intros H I ->. rewrite forallb_forall in H. specialize (H _ I). rewrite eqb_refl in H. discriminate H. Qed.
  Lemma abstract_paren d t rest : sp_abstract d t -> first rest (fun w => w <> $"(") -> first (t ++ rest) (fun w => w <> $"(").
  Proof.
    intros [fq ps r ar tp tr ta Q ST TR AR] F. rewrite <- !app_assoc.
    apply quals_first; [exact Q|intros w I; apply (not_paren qualifiers); [reflexivity|exact I]|].
    apply (stars_first ps); [exact ST|discriminate|].
    unfold sp_ref in TR. destruct r; subst tr; cbn [app first]; [discriminate|].
    apply (arrays_first ar); [exact AR|discriminate|exact F].
  Qed.

  Section Bodies.
    Context (R : rules) (n : nat)
      (HS : spec_parses (r_spec R) n)
      (HSN : forall p ts, view p ts -> first ts (fun t => In t stop_toks) -> length (snd p) < n -> r_spec R p = PNo)
      (HD : parses (r_decl R) n sp_decl dfol)
      (HDN : forall d td rest p, sp_abstract d td -> view p (td ++ rest) -> afol rest -> length (snd p) < n -> r_decl R p = PNo)
      (HA : parses (r_abstract R) n sp_abstract afol).

    Lemma afol_efol rest : first rest (fun t => In t [$","; $")"]) -> efol rest /\ afol rest.
    Proof.
      intros F. split; revert F; apply first_imp; intros t I; [apply (In_sub [$","; $")"]); [reflexivity|exact I]|].
      apply (In_sub [$","; $")"]); [reflexivity|exact I].
    Qed.
    (** A parameter. *)
    Lemma default_afol v t rest : sp_default base mods v t -> first rest (fun t => In t [$","; $")"]) -> afol (t ++ rest).
    Proof.
      intros H F. destruct v as [e|]; cbn [sp_default] in H; [destruct H as (tx & _ & ->); apply mem_str; reflexivity|].
      subst t. apply afol_efol. exact F.
    Qed.
    Lemma afol_dfol rest : afol rest -> dfol rest.
    Proof. apply first_imp. auto. Qed.
    Lemma arg_sfol v t rest : sp_default base mods v t -> first rest (fun t => In t [$","; $")"]) -> sfol (t ++ rest).
    Proof.
      intros H F. destruct v as [e|]; cbn [sp_default] in H; [destruct H as (tx & _ & ->); left; apply mem_str; reflexivity|].
      subst t. revert F. apply first_imp. intros t I. left. apply (In_sub [$","; $")"]); [reflexivity|exact I].
    Qed.
    Lemma arg_paren v t rest : sp_default base mods v t -> first rest (fun t => In t [$","; $")"]) -> first (t ++ rest) (fun w => w <> $"(").
    Proof.
      intros H F. destruct v as [e|]; cbn [sp_default] in H; [destruct H as (tx & _ & ->); discriminate|].
      subst t. revert F. apply first_imp. intros t I. apply (not_paren [$","; $")"]); [reflexivity|exact I].
    Qed.
    Lemma arg_reads : parses (arg base R (fun p => r_decl R p <|> r_abstract R p)) n (sp_arg base mods pack)
      (fun r => first r (fun t => In t [$","; $")"])).
    Proof.
      intros a t rest p H V F L. destruct (afol_efol rest F) as [EF AF]. unfold arg.
      destruct H as [s d v tt td tv H1 H2 AP H3|s d v tt td tv H1 H2 H3]; assoc V.
      - eapply reads_bind; [apply (HS s tt _ p H1 V); [apply (decl_sfol d); exact H2|apply (apart_decl d); assumption|exact L]|intros q1 V1 L1|].
        + eapply reads_bind; [left_alt; apply (HD d td _ q1 H2 V1); [apply afol_dfol; apply (default_afol v); assumption|lia]|intros q2 V2 L2|apply Nat.le_refl].
          eapply reads_bind; [apply (default_reads v tv rest q2 H3 V2 EF)|intros q3 V3 L3; apply reads_ret; exact V3|apply Nat.le_refl].
        + len.
      - eapply reads_bind; [apply (HS s tt _ p H1 V); [apply (abstract_sfol d); [exact H2|apply (arg_sfol v); assumption]|apply apart_first; apply (abstract_paren d); [exact H2|apply (arg_paren v); assumption]|exact L]|intros q1 V1 L1|].
        + assert (AF' : afol (tv ++ rest)) by (apply (default_afol v); assumption).
          eapply reads_bind; [right_alt; [apply (HDN d td _ q1 H2 V1 AF'); lia|apply (HA d td _ q1 H2 V1 AF'); lia]|intros q2 V2 L2|apply Nat.le_refl].
          eapply reads_bind; [apply (default_reads v tv rest q2 H3 V2 EF)|intros q3 V3 L3; apply reads_ret; exact V3|apply Nat.le_refl].
        + len.
    Qed.
    (** The parameters, from a longer text: an opening parenthesis comes first. *)
    Lemma args_reads a t rest p : sp_args base mods pack a t -> view p (t ++ rest) -> length (snd p) < S n ->
      first rest (fun t => ~ starts "(" t) ->
      reads (popt (args base R (fun p => r_decl R p <|> r_abstract R p)) p) p a (length t) rest.
    Proof.
      intros H V L F. destruct H as [| |l tl SL]; assoc V.
      - apply reads_none; [|exact V]. apply bind_no. apply (lit_no "(" [] p rest V F).
      - apply reads_opt. unfold args. eapply reads_bind; [apply lit_yes; exact V|intros q1 V1 L1|apply Nat.le_refl].
        eapply reads_bind; [apply reads_none; [|exact V1]|intros q2 V2 L2|apply Nat.le_refl].
        + unfold delimited. apply bind_no. unfold arg. apply bind_no. apply (HSN q1 _ V1); [left; reflexivity|lia].
        + eapply reads_bind; [apply (delim_yes _ _ _ _ V2); reflexivity|intros q3 V3 L3; apply reads_ret; exact V3|]. cbn [length]. lia.
      - apply reads_opt. unfold args. eapply reads_bind; [apply lit_yes; exact V|intros q1 V1 L1|].
        + eapply reads_bind; [apply reads_opt; eapply (delimited_sep _ n (sp_arg base mods pack) _ l tl ($")" :: rest) q1)|intros q2 V2 L2|apply Nat.le_refl].
          * apply arg_reads.
          * intros r. left. reflexivity.
          * right. left. reflexivity.
          * intros q V' _. apply bind_no. apply (lit_no "," [] q _ V'). intros (r & Z). discriminate.
          * exact SL.
          * exact V1.
          * lia.
          * eapply reads_bind; [apply (delim_yes _ _ _ _ V2); reflexivity|intros q3 V3 L3; apply reads_ret; exact V3|apply Nat.le_refl].
        + len.
    Qed.
    Lemma core_reads c t rest p : sp_core base mods pack c t -> view p (t ++ rest) -> length (snd p) < S n ->
      reads (core base R p) p c (length t) rest.
    Proof.
      intros H V L. unfold core. destruct H as [r m tr TR PN|d td H]; assoc V.
      - left_alt. destruct (ref_reads r tr _ p TR V) as (x & RX & EX); [apply word_no_start; [reflexivity|apply PN]|].
        eapply reads_bind; [exact RX|intros q1 V1 L1|].
        + eapply reads_bind; [apply (ident_yes base NB q1 m rest V1); apply PN|intros q2 V2 L2; rewrite EX; apply reads_ret; exact V2|apply Nat.le_refl].
        + len.
      - right_alt.
        { eapply bind_then_no; [apply reads_none; [apply (lit_no "&" [] p _ V); intros (r & Z); discriminate|exact V]|]. intros q1 V1 L1.
          apply bind_no. apply (ident_no base q1 _ V1). left. intros []; discriminate. }
        eapply reads_bind; [apply lit_yes; exact V|intros q1 V1 L1|].
        + eapply reads_bind; [apply (HD d td _ q1 H V1); [left; apply mem_str; reflexivity|lia]|intros q2 V2 L2|apply Nat.le_refl].
          eapply reads_bind; [apply (delim_yes _ _ _ _ V2); reflexivity|intros q3 V3 L3; apply reads_ret; exact V3|apply Nat.le_refl].
        + len.
    Qed.
    Lemma decl_body_reads : parses (decl_body base R) (S n) sp_decl dfol.
    Proof.
      intros d t rest p [fq cc ps c a ar tc tp tn ta tr Q C ST CO A AR] V F L. assoc V. unfold decl_body.
      assert (CF : first (tn ++ ta ++ tr ++ rest) core_head) by (apply (core_first c); exact CO).
      assert (SN : first (tp ++ tn ++ ta ++ tr ++ rest) nq).
      { apply (stars_first ps); [exact ST|apply (nq_in [$"*"]); [reflexivity|left; reflexivity]|].
        eapply first_imp; [apply core_head_nq|exact CF]. }
      eapply reads_bind; [apply (quals_reads fq p _ Q V)|intros q1 V1 L1|].
      - apply (conv_first cc); [exact C|apply nq_conv|exact SN].
      - eapply reads_bind; [apply (conv_reads cc tc _ q1 C V1)|intros q2 V2 L2|apply Nat.le_refl].
        + apply (stars_first ps); [exact ST|split; discriminate|]. eapply first_imp; [apply core_head_conv|exact CF].
        + eapply reads_bind; [apply (stars_reads ps tp _ q2 ST V2)|intros q3 V3 L3|apply Nat.le_refl].
          * eapply first_imp; [apply core_head_nq|exact CF].
          * eapply first_imp; [apply core_head_star|exact CF].
          * eapply reads_bind; [apply (core_reads c tn _ q3 CO V3); lia|intros q4 V4 L4|apply Nat.le_refl].
            eapply reads_bind; [apply (args_reads a ta _ q4 A V4)|intros q5 V5 L5|apply Nat.le_refl].
            -- lia.
            -- apply (arrays_first ar); [exact AR|intros (r & Z); discriminate|apply dfol_start; [reflexivity|discriminate|exact F]].
            -- eapply reads_bind; [apply (arrays_reads ar tr rest q5 AR V5)|intros q6 V6 L6; apply reads_ret; exact V6|apply Nat.le_refl].
               apply dfol_start; [reflexivity|discriminate|exact F].
      - len.
    Qed.
    Definition abs_rest (rest : list str) (P : str -> Prop) := first rest P.
    Lemma ends_nq t : In t ends_toks -> nq t.
    Proof. apply nq_in. reflexivity. Qed.
    Lemma afol_start d rest : forallb (fun t => negb (starts_b d t)) ends_toks = true -> afol rest -> first rest (fun t => ~ starts d t).
    Proof. intros H. apply first_imp. intros t I. apply (no_start d _ t H I). Qed.
    (** What follows the stars of a declarator without a name. *)
    Lemma abs_after_first r ar tr ta rest (P : str -> Prop) : sp_ref r tr -> seq_list (sp_array base mods) ar ta ->
      P $"&" -> P $"[" -> first rest P -> first (tr ++ ta ++ rest) P.
    Proof.
      intros TR AR H1 H2 F. unfold sp_ref in TR. destruct r; subst tr; [exact H1|]. apply (arrays_first ar ta rest P AR H2 F).
    Qed.
    Lemma decl_body_no d td rest p : sp_abstract d td -> view p (td ++ rest) -> afol rest -> decl_body base R p = PNo.
    Proof.
      intros [fq ps r ar tp tr ta Q ST TR AR] V F. assoc V. unfold decl_body.
      assert (NQ : first (tr ++ ta ++ rest) nq).
      { apply (abs_after_first r ar); [exact TR|exact AR|apply (nq_in [$"&"]); [reflexivity|left; reflexivity]|apply (nq_in [$"["]); [reflexivity|left; reflexivity]|].
        revert F. apply first_imp. apply ends_nq. }
      assert (NS : forall d, In d ["*"%char; "("%char] -> first (tr ++ ta ++ rest) (fun t => ~ starts d t)).
      { intros e I. apply (abs_after_first r ar); [exact TR|exact AR| | |].
        - intros (x & Z). injection Z as <- _. destruct I as [I|[I|[]]]; discriminate.
        - intros (x & Z). injection Z as <- _. destruct I as [I|[I|[]]]; discriminate.
        - apply afol_start; [destruct I as [<-|[<-|[]]]; reflexivity|exact F]. }
      assert (NW : first (ta ++ rest) (fun t => ~ word t)).
      { apply (arrays_first ar); [exact AR|intros []; discriminate|]. revert F. apply first_imp. intros t I. apply (not_word_in ends_toks); [exact I|reflexivity]. }
      eapply bind_then_no; [apply (quals_reads fq p _ Q V)|intros q1 V1 L1].
      { apply (stars_first ps); [exact ST|apply (nq_in [$"*"]); [reflexivity|left; reflexivity]|exact NQ]. }
      eapply bind_then_no; [apply (conv_reads None [] _ q1 eq_refl V1)|intros q2 V2 L2].
      { apply (stars_first ps); [exact ST|split; discriminate|]. apply (abs_after_first r ar); [exact TR|exact AR|split; discriminate|split; discriminate|].
        revert F. apply first_imp. intros t I. split; intros ->; apply mem_str in I; discriminate. }
      eapply bind_then_no; [apply (stars_reads ps tp _ q2 ST V2 NQ); apply NS; left; reflexivity|intros q3 V3 L3].
      apply bind_no. unfold core. no_alt.
      - destruct (ref_reads r tr _ q3 TR V3) as (x & RX & EX).
        + apply (arrays_first ar); [exact AR|intros (z & Z); discriminate|apply afol_start; [reflexivity|exact F]].
        + eapply bind_then_no; [exact RX|intros q4 V4 L4]. apply bind_no. apply (ident_no base q4 _ V4). revert NW. apply first_imp. auto.
      - apply bind_no. apply (lit_no "(" [] q3 _ V3). apply NS. right. left. reflexivity.
    Qed.
    Lemma abstract_body_reads m : parses (abstract_body base R) m sp_abstract afol.
    Proof.
      intros d t rest p [fq ps r ar tp tr ta Q ST TR AR] V F _. assoc V. unfold abstract_body.
      assert (NQ : first (tr ++ ta ++ rest) nq).
      { apply (abs_after_first r ar); [exact TR|exact AR|apply (nq_in [$"&"]); [reflexivity|left; reflexivity]|apply (nq_in [$"["]); [reflexivity|left; reflexivity]|].
        revert F. apply first_imp. apply ends_nq. }
      eapply reads_bind; [apply (quals_reads fq p _ Q V)|intros q1 V1 L1|].
      - apply (stars_first ps); [exact ST|apply (nq_in [$"*"]); [reflexivity|left; reflexivity]|exact NQ].
      - eapply reads_bind; [apply (stars_reads ps tp _ q1 ST V1 NQ)|intros q2 V2 L2|apply Nat.le_refl].
        + apply (abs_after_first r ar); [exact TR|exact AR|intros (z & Z); discriminate|intros (z & Z); discriminate|apply afol_start; [reflexivity|exact F]].
        + destruct (ref_reads r tr _ q2 TR V2) as (x & RX & EX).
          { apply (arrays_first ar); [exact AR|intros (z & Z); discriminate|apply afol_start; [reflexivity|exact F]]. }
          eapply reads_bind; [exact RX|intros q3 V3 L3|apply Nat.le_refl].
          eapply reads_bind; [apply reads_none; [|exact V3]|intros q4 V4 L4|apply Nat.le_refl].
          * apply bind_no. apply (lit_no "(" [] q3 _ V3). apply (arrays_first ar); [exact AR|intros (z & Z); discriminate|apply afol_start; [reflexivity|exact F]].
          * eapply reads_bind; [apply (arrays_reads ar ta rest q4 AR V4); apply afol_start; [reflexivity|exact F]|intros q5 V5 L5; rewrite EX; apply reads_ret; exact V5|apply Nat.le_refl].
      - len.
    Qed.

    (** *** Variables and members *)
    Lemma init_none rest p : view p rest -> first rest (fun t => In t [$";"; $":"] \/ fun_body t) -> popt (initialiser base) p = POk None p.
    Proof.
      intros V F. unfold popt, initialiser. rewrite (lit_no "=" [] p rest V : _ -> lit $"=" p = PNo); [reflexivity|].
      revert F. apply first_imp. intros t [I|B]; [apply (no_start "=" [$";"; $":"] t eq_refl I)|apply body_start; [exact B|discriminate]].
    Qed.
    Lemma init_reads i t rest p : sp_init base mods i t -> view p (t ++ $";" :: rest) ->
      exists x, reads (popt (initialiser base) p) p x (length t) ($";" :: rest) /\ match x with Some i => i | None => NoInit end = i.
    Proof.
      intros H V. destruct i as [|e|l]; cbn [sp_init] in H.
      - subst t. exists None. split; [|reflexivity]. rewrite (init_none _ p V); [apply reads_ret; exact V|]. left. left. reflexivity.
      - destruct H as (tx & H & ->). exists (Some (IVal e)). split; [|reflexivity]. apply reads_opt. cbn [app] in V. unfold initialiser.
        eapply reads_bind; [apply lit_yes; exact V|intros q1 V1 L1|].
        + left_alt. eapply reads_bind; [apply (expression_reads base mods NB e tx _ q1 H V1); isin|intros q2 V2 L2; apply reads_ret; exact V2|apply Nat.le_refl].
        + len.
      - destruct H as (tx & H & ->). exists (Some (IArr l)). split; [|reflexivity]. apply reads_opt. assoc V. unfold initialiser.
        eapply reads_bind; [apply lit_yes; exact V|intros q1 V1 L1|].
        + right_alt. { apply bind_no. apply (expression_no base q1 _ V1). isin. }
          eapply reads_bind; [apply lit_yes; exact V1|intros q2 V2 L2|apply Nat.le_refl].
          eapply reads_bind; [apply (delimited_sep (expression base) (S (length (snd q2))) (sp_text base mods) efol l tx ($"}" :: $";" :: rest) q2)|intros q3 V3 L3|apply Nat.le_refl].
          * intros e tt r q' HE V' F' _. apply (expression_reads base mods NB e tt r q' HE V' F').
          * intros r. isin.
          * isin.
          * intros q V' _. apply bind_no. apply (lit_no "," [] q _ V'). intros (r & Z). discriminate.
          * exact H.
          * exact V2.
          * lia.
          * eapply reads_bind; [apply (delim_yes _ _ _ _ V3); reflexivity|intros q4 V4 L4; apply reads_ret; exact V4|apply Nat.le_refl].
        + len.
    Qed.
    Definition vfol (rest : list str) : Prop := first rest (fun t => In t [$";"; $":"; $"="] \/ fun_body t).
    Lemma vfol_dfol rest : vfol rest -> dfol rest.
    Proof. apply first_imp. intros t [I|B]; [left; apply (In_sub [$";"; $":"; $"="]); [reflexivity|exact I]|right; exact B]. Qed.
    Lemma no_abstract : sp_abstract (GNode [] None [] (GAbstract false) None []) [].
    Proof. apply (sp_abs base mods [] [] false [] [] [] []); constructor. Qed.
    Lemma decl_no p ts : view p ts -> afol ts -> length (snd p) < n -> r_decl R p = PNo.
    Proof. intros V F L. apply (HDN _ [] ts p no_abstract V F L). Qed.
    Lemma decls_more rest q : view q rest -> vfol rest -> (get (u0, q') <- lit $"," q; r_decl R q') = PNo.
    Proof.
      intros V F. apply bind_no. apply (lit_no "," [] q _ V). revert F. apply first_imp.
      intros t [I|B]; [apply (no_start "," [$";"; $":"; $"="] t eq_refl I)|apply body_start; [exact B|discriminate]].
    Qed.
    Lemma some_decls_reads ds td rest p : sep_list sp_decl ds td -> view p (td ++ rest) -> vfol rest -> length (snd p) < n ->
      reads (delimited (r_decl R) p) p ds (length td) rest.
    Proof.
      intros H V F L. apply (delimited_sep (r_decl R) n sp_decl dfol ds td rest p); auto.
      - intros r. left. apply mem_str. reflexivity.
      - apply vfol_dfol. exact F.
      - intros q V' _. apply (decls_more rest q V' F).
    Qed.
    Lemma decls_reads ds td rest p : sp_decls base mods pack ds td -> view p (td ++ rest) ->
      first rest (fun t => In t [$";"; $":"; $"="]) -> length (snd p) < n ->
      exists x, reads (popt (delimited (r_decl R)) p) p x (length td) rest /\ match x with Some l => l | None => [] end = ds.
    Proof.
      intros H V F L. destruct H as [|l tl H].
      - exists None. split; [|reflexivity]. apply reads_none; [|exact V]. unfold delimited. apply bind_no. apply (decl_no p rest V); [|exact L].
        revert F. apply first_imp. intros t I. apply (In_sub [$";"; $":"; $"="]); [reflexivity|exact I].
      - exists (Some l). split; [|reflexivity]. apply reads_opt. apply some_decls_reads; auto. revert F. apply first_imp. auto.
    Qed.
    (** The tokens a type begins with. *)
    Definition spec_head (t : str) : Prop :=
      In t qualifiers \/ In t (modifiers ++ base) \/ plain_name t \/ In t [$"struct"; $"union"; $"enum"].
    Lemma type_first g t rest : sp_type base mods pack g t ->
      first (t ++ rest) (fun t => In t (modifiers ++ base) \/ plain_name t \/ In t [$"struct"; $"union"; $"enum"]).
    Proof.
      intros [l NL FL|m PN|c m PN|c m l tn tl TG NL SL|m PN|m l tn tl tc TG SL TC]; cbn [app first].
      - destruct l as [|w l]; [congruence|]. cbn [app first]. inversion FL. auto.
      - auto.
      - right. right. destruct c; apply mem_str; reflexivity.
      - right. right. destruct c; apply mem_str; reflexivity.
      - right. right. apply mem_str. reflexivity.
      - right. right. apply mem_str. reflexivity.
    Qed.
    Lemma spec_first s t rest : sp_spec s t -> first (t ++ rest) spec_head.
    Proof.
      intros [q g tn tm Q TY EX]. rewrite <- !app_assoc. apply quals_first; [exact Q|intros w I; left; exact I|].
      eapply first_imp; [|apply (type_first g); exact TY]. intros w H. right. exact H.
    Qed.
    Lemma spec_nonempty s t : sp_spec s t -> t <> [].
    Proof.
      intros [q g tn tm Q TY EX] Z. apply app_eq_nil in Z. destruct Z as [_ Z]. apply app_eq_nil in Z. destruct Z as [-> _].
      inversion TY; congruence.
    Qed.
    Lemma spec_head_storage t : spec_head t -> ~ In t storage_classes /\ t <> $"typedef".
    Proof.
      assert (CK : forall l, forallb (fun t => negb (mem t ($"typedef" :: storage_classes))) l = true -> In t l -> ~ In t storage_classes /\ t <> $"typedef").
      { intros l H I. pose proof (In_all _ l t H I) as Z. cbv beta in Z. apply negb_true_iff in Z.
        assert (N : ~ In t ($"typedef" :: storage_classes)) by (intros J; apply mem_str in J; congruence).
        split; [intros J; apply N; right; exact J|intros ->; apply N; left; reflexivity]. }
      intros [I|[I|[P|I]]].
      - apply (CK qualifiers eq_refl I).
      - apply in_app_iff in I. destruct I as [I|I]; [apply (CK modifiers eq_refl I)|].
        destruct GC as (_ & _ & H & _). specialize (H t (or_introl I)). unfold reserved in H. rewrite !in_app_iff in H.
        split; [tauto|]. intros ->. apply H. left. apply mem_str. reflexivity.
      - destruct P as (_ & _ & _ & S1 & T1 & _). auto.
      - apply (CK [$"struct"; $"union"; $"enum"] eq_refl I).
    Qed.
    Lemma storage_nil : ~ In [] storage_classes.
    Proof. apply no_nil. apply words. reflexivity. Qed.
    Lemma storage_reads ts s tt rest p : sp_storage ts -> sp_spec s tt -> view p (ts ++ tt ++ rest) ->
      exists x, reads (popt (kwl storage_classes) p) p x (length ts) (tt ++ rest).
    Proof.
      intros [->|(w & I & ->)] H V; cbn [app] in V.
      - exists None. apply reads_none; [|exact V]. apply (kwl_no _ p _ V storage_nil).
        eapply first_imp; [|apply (spec_first s); exact H]. intros t HT. apply spec_head_storage in HT. tauto.
      - exists (Some w). apply reads_opt. apply (kwl_yes storage_classes p w _ V); [|exact I].
        assert (W : Forall word storage_classes) by (apply words; reflexivity). apply (proj1 (Forall_forall _ _) W w I).
    Qed.
    Lemma decls_sfol ds td rest : sp_decls base mods pack ds td -> sfol rest -> sfol (td ++ rest).
    Proof.
      intros [|l tl H] F; [exact F|]. destruct H as [d t H|d t l ts H _]; [apply (decl_sfol d); exact H|].
      rewrite <- app_assoc. apply (decl_sfol d). exact H.
    Qed.
    Lemma init_sfol i ti rest : sp_init base mods i ti -> sfol (ti ++ $";" :: rest) /\ first (ti ++ $";" :: rest) (fun t => In t [$";"; $":"; $"="]).
    Proof.
      intros H. destruct i as [|e|l]; cbn [sp_init] in H.
      - subst ti. split; [left; apply mem_str; reflexivity|left; reflexivity].
      - destruct H as (tx & _ & ->). split; [left; apply mem_str; reflexivity|apply mem_str; reflexivity].
      - destruct H as (tx & _ & ->). split; [left; apply mem_str; reflexivity|apply mem_str; reflexivity].
    Qed.
    Lemma variable_reads ts t ds i tt td ti rest p :
      sp_storage ts -> sp_spec t tt -> sp_decls base mods pack ds td -> apart tt td -> sp_init base mods i ti ->
      view p (ts ++ tt ++ td ++ ti ++ $";" :: rest) -> length (snd p) < n ->
      reads (variable base R p) p (GLine t ds i None) (length ts + (length tt + (length td + (length ti + 1)))) rest.
    Proof.
      intros H1 H2 H3 AP H4 V L. destruct (init_sfol i ti rest H4) as [SF VF]. unfold variable.
      destruct (storage_reads ts t tt _ p H1 H2 V) as (x0 & R0). eapply reads_bind; [exact R0|intros q1 V1 L1|apply Nat.le_refl].
      eapply reads_bind; [apply (HS t tt _ q1 H2 V1); [apply (decls_sfol ds); assumption|apply apart_app; [exact AP|intros _]|lia]|intros q2 V2 L2|apply Nat.le_refl].
      { revert VF. apply first_imp. intros w I. apply (not_paren [$";"; $":"; $"="]); [reflexivity|exact I]. }
      destruct (decls_reads ds td _ q2 H3 V2 VF) as (x1 & R1 & E1); [lia|].
      eapply reads_bind; [exact R1|intros q3 V3 L3|apply Nat.le_refl].
      destruct (init_reads i ti rest q3 H4 V3) as (x2 & R2 & E2).
      eapply reads_bind; [exact R2|intros q4 V4 L4|apply Nat.le_refl].
      eapply reads_bind; [apply (delim_yes _ _ _ _ V4); reflexivity|intros q5 V5 L5; rewrite E1, E2; apply reads_ret; exact V5|]. lia.
    Qed.
    (** Where the declarators are followed by something else, it is not a variable. *)
    Lemma variable_no ts t ds tt td rest p :
      sp_storage ts -> sp_spec t tt -> sp_decls base mods pack ds td -> apart tt td ->
      view p (ts ++ tt ++ td ++ rest) -> first rest (fun t => t = $":" \/ (fun_body t /\ ds <> [])) -> rest <> [] -> length (snd p) < n ->
      variable base R p = PNo.
    Proof.
      intros H1 H2 H3 AP V F NR L. unfold variable.
      destruct (storage_reads ts t tt _ p H1 H2 V) as (x0 & R0). eapply bind_then_no; [exact R0|intros q1 V1 L1].
      eapply bind_then_no; [apply (HS t tt _ q1 H2 V1); [|apply apart_app; [exact AP|intros Z]|lia]|intros q2 V2 L2].
      { destruct H3 as [|l tl H3].
        - destruct rest as [|w r]; [congruence|]. destruct F as [->|[_ F]]; [|congruence]. left. apply mem_str. reflexivity.
        - destruct H3 as [d t' H3|d t' l ts' H3 _]; [apply (decl_sfol d); exact H3|]. rewrite <- app_assoc. apply (decl_sfol d). exact H3. }
      { revert F. apply first_imp. intros w [->|[(b & _ & ->) _]]; discriminate. }
      assert (RD : exists x, reads (popt (delimited (r_decl R)) q2) q2 x (length td) rest).
      { destruct H3 as [|l tl H3].
        - destruct (decls_reads [] [] rest q2) as (x & RX & _); [constructor|exact V2| |lia|exists x; exact RX].
          revert F. apply first_imp. intros w [->|[_ F]]; [apply mem_str; reflexivity|congruence].
        - exists (Some l). apply reads_opt. apply some_decls_reads; auto; [|lia]. revert F. apply first_imp.
          intros w [->|[F _]]; [left; apply mem_str; reflexivity|right; exact F]. }
      destruct RD as (x1 & R1). eapply bind_then_no; [exact R1|intros q3 V3 L3].
      rewrite (init_none rest q3 V3).
      - cbn [pbind]. apply bind_no. apply (delim_no ";" [] q3 rest V3).
        + revert F. apply first_imp. intros w [->|[(b & _ & ->) _]]; reflexivity.
        + revert F. apply first_imp. intros w [->|[B _]]; [intros (r & Z); discriminate|apply body_start; [exact B|discriminate]].
      - revert F. apply first_imp. intros w [->|[F _]]; [left; apply mem_str; reflexivity|right; exact F].
    Qed.
    Lemma line_reads : parses (member_rule base R) n (sp_line base mods pack) (fun _ => True).
    Proof.
      intros g t rest p H V _ L. unfold member_rule. destruct H as [s ds i tt td ti H1 H2 AP H3|s ds b tt td tb H1 H2 AP H3]; assoc V.
      - left_alt. eapply reads_weaken; [apply (variable_reads [] s ds i tt td ti rest p); auto|len]. left. reflexivity.
      - right_alt. { apply (variable_no [] s ds tt td _ p (or_introl eq_refl) H1 H2 AP V); [left; reflexivity|discriminate|exact L]. }
        left_alt. unfold bit_field.
        eapply reads_bind; [apply (HS s tt _ p H1 V); [| |exact L]|intros q1 V1 L1|].
        + apply (decls_sfol ds); [exact H2|]. left. apply mem_str. reflexivity.
        + apply apart_app; [exact AP|]. intros _. discriminate.
        + destruct (decls_reads ds td _ q1 H2 V1) as (x & RX & EX); [apply mem_str; reflexivity|lia|].
          eapply reads_bind; [exact RX|intros q2 V2 L2|apply Nat.le_refl].
          eapply reads_bind; [apply (delim_yes _ _ _ _ V2); reflexivity|intros q3 V3 L3|apply Nat.le_refl].
          eapply reads_bind; [apply (integer_yes q3 tb b _ V3 H3)|intros q4 V4 L4|apply Nat.le_refl].
          eapply reads_bind; [apply (delim_yes _ _ _ _ V4); reflexivity|intros q5 V5 L5; rewrite EX; apply reads_ret; exact V5|apply Nat.le_refl].
        + len.
    Qed.
    Lemma stop_storage t : In t stop_toks -> ~ In t storage_classes.
    Proof.
      intros I. pose proof (In_all (fun t => negb (mem t storage_classes)) stop_toks t eq_refl I) as Z. cbv beta in Z.
      intros J. apply mem_str in J. rewrite J in Z. discriminate.
    Qed.
    Lemma storage_no p ts : view p ts -> first ts (fun t => In t stop_toks) -> popt (kwl storage_classes) p = POk None p.
    Proof.
      intros V F. unfold popt. rewrite (kwl_no storage_classes p ts V storage_nil); [reflexivity|].
      revert F. apply first_imp. apply stop_storage.
    Qed.
    Lemma line_no p ts : view p ts -> first ts (fun t => In t stop_toks) -> length (snd p) < n -> member_rule base R p = PNo.
    Proof.
      intros V F L. assert (SN := HSN p ts V F L). unfold member_rule. no_alt; [|no_alt].
      - unfold variable. rewrite (storage_no p ts V F). cbn [pbind]. rewrite SN. reflexivity.
      - unfold bit_field. rewrite SN. reflexivity.
      - unfold method. rewrite SN. cbn [pbind]. apply bind_no. apply (decl_no p ts V); [|exact L].
        revert F. apply first_imp. intros t I. apply (In_sub stop_toks); [reflexivity|exact I].
    Qed.
    Lemma line_nonempty g t : sp_line base mods pack g t -> t <> [].
    Proof.
      intros [s ds i tt td ti H1 H2 AP H3|s ds b tt td tb H1 H2 AP H3] Z; apply app_eq_nil in Z; destruct Z as [Z _]; apply (spec_nonempty _ _ H1 Z).
    Qed.

    (** *** Structures *)
    Lemma comp_words c : word (comp_kw c).
    Proof. destruct c; split; reflexivity. Qed.
    Lemma struct_keyword c p rest : view p (comp_kw c :: rest) ->
      reads (keyword $"struct" p <|> keyword $"union" p) p (comp_kw c) 1 rest.
    Proof.
      intros V. destruct c.
      - left_alt. apply (keyword_yes $"struct" p rest V). split; reflexivity.
      - right_alt; [apply (keyword_no $"struct" p _ V); discriminate|]. apply (keyword_yes $"union" p rest V). split; reflexivity.
    Qed.
    Lemma struct_reads g t rest p : sp_type base mods pack g t -> first t (fun w => w = $"struct" \/ w = $"union") ->
      view p (t ++ rest) -> tfol rest -> length (snd p) < S n -> reads (struct_type base pk R p) p g (length t) rest.
    Proof.
      intros H E V F L. destruct H as [l NL FL|m PN|c m PN|c m l tn tl TG NL SL|m PN|m l tn tl tc TG SL TC].
      - exfalso. destruct l as [|w l]; [congruence|]. cbn [first] in E. inversion FL as [|x y I _]; subst.
        apply in_app_iff in I. destruct I as [I|I].
        + apply mem_str in I. destruct E as [->| ->]; discriminate.
        + assert (RS : In w reserved) by (apply mem_str; destruct E as [->| ->]; reflexivity). apply reserved_free in RS. tauto.
      - exfalso. cbn [first] in E. destruct PN as (_ & K & _). apply K. unfold keywords. apply in_or_app. left. apply mem_str.
        destruct E as [->| ->]; reflexivity.
      - cbn [app] in V. unfold struct_type. rewrite PK.
        assert (EC : (if eqb (comp_kw c) $"struct" then CStruct else CUnion) = c) by (destruct c; reflexivity).
        eapply reads_bind; [apply (struct_keyword c p _ V)|intros q1 V1 L1|].
        + cbv zeta. rewrite EC. right_alt.
          { eapply bind_then_no; [apply reads_opt; apply (ident_yes base NB q1 m rest V1); apply PN|]. intros q2 V2 L2. apply bind_no.
            apply (delim_no "{" [] q2 rest V2); [revert F; apply first_imp; apply tft_quote|revert F; apply first_imp; apply tft_brace]. }
          eapply reads_bind; [apply (ident_yes base NB q1 m rest V1); apply PN|intros q2 V2 L2; apply reads_ret; exact V2|apply Nat.le_refl].
        + cbn [length]. lia.
      - destruct SL as [|g0 t0 l0 tl0 HL SL]; [congruence|]. assoc V. unfold struct_type. rewrite PK.
        assert (EC : (if eqb (comp_kw c) $"struct" then CStruct else CUnion) = c) by (destruct c; reflexivity).
        eapply reads_bind; [apply (struct_keyword c p _ V)|intros q1 V1 L1|].
        + cbv zeta. rewrite EC. left_alt.
          eapply reads_bind; [apply (tag_reads m tn _ q1 TG V1); intros []; discriminate|intros q2 V2 L2|apply Nat.le_refl].
          eapply reads_bind; [apply (delim_yes _ _ _ _ V2); reflexivity|intros q3 V3 L3|apply Nat.le_refl].
          eapply (reads_bind _ _ _ _ _ _ 1); [|intros q4 V4 L4|apply Nat.le_refl].
          * unfold many1. eapply reads_bind; [apply (line_reads g0 t0 _ q3 HL V3 Logic.I); lia|intros q5 V5 L5|apply Nat.le_refl].
            eapply reads_bind; [apply (many_seq (member_rule base R) n (sp_line base mods pack) (fun _ => True) l0 tl0 ($"}" :: rest) q5)|intros q6 V6 L6; apply reads_ret; exact V6|apply Nat.le_refl].
            -- apply line_reads.
            -- apply line_nonempty.
            -- auto.
            -- exact Logic.I.
            -- intros q V' L'. apply (line_no q _ V'); [right; left; reflexivity|exact L'].
            -- exact SL.
            -- exact V5.
            -- lia.
          * eapply reads_bind; [apply (delim_yes _ _ _ _ V4); reflexivity|intros q5 V5 L5; apply reads_ret; exact V5|lia].
        + len.
      - exfalso. destruct E; discriminate.
      - exfalso. destruct E; discriminate.
    Qed.

    (** *** Types *)
    Lemma fund_nil : ~ In [] (modifiers ++ base).
    Proof. apply no_nil. apply fund_words. Qed.
    Lemma fund_reads l rest p : l <> [] -> Forall (fun w => In w (modifiers ++ base)) l -> view p (l ++ rest) -> tfol rest ->
      reads (fund_type base p) p (GWord (join [sp] l)) (length l) rest.
    Proof.
      intros NL FL V F. destruct l as [|w l]; [congruence|]. inversion FL as [|x y IW FL']; subst. cbn [app] in V. unfold fund_type, many1.
      assert (YES : forall v r q, In v (modifiers ++ base) -> view q (v :: r) -> reads (kwl (modifiers ++ base) q) q v 1 r).
      { intros v r q I V'. apply (kwl_yes _ q v r V'); [apply (proj1 (Forall_forall _ _) fund_words v I)|exact I]. }
      eapply reads_bind; [eapply reads_bind; [apply (YES w _ p IW V)|intros q1 V1 L1|]|intros q2 V2 L2; apply reads_ret; exact V2|].
      - eapply reads_bind; [apply (many_seq (kwl (modifiers ++ base)) (S (length (snd q1))) (fun v t => In v (modifiers ++ base) /\ t = [v]) (fun _ => True) l l rest q1)|intros q2 V2 L2; apply reads_ret; exact V2|apply Nat.le_refl].
        + intros v t r q (I & ->) V' _ _. apply YES; assumption.
        + intros v t (_ & ->). discriminate.
        + auto.
        + exact Logic.I.
        + intros q V' _. apply (kwl_no _ q rest V' fund_nil). revert F. apply first_imp. apply tft_fund.
        + clear -FL'. induction FL' as [|v l I FL IH]; [constructor|]. change (v :: l) with ([v] ++ l) at 2. constructor; auto.
        + exact V1.
        + lia.
      - apply Nat.le_refl.
      - len.
    Qed.
    Lemma fund_no p ts : view p ts -> first ts (fun t => ~ In t (modifiers ++ base)) -> fund_type base p = PNo.
    Proof. intros V F. unfold fund_type, many1. apply bind_no. apply bind_no. apply (kwl_no _ p ts V fund_nil F). Qed.
    Lemma modifiers_nil : ~ In [] modifiers.
    Proof. apply no_nil. apply words. reflexivity. Qed.
    Lemma named_no p ts : view p ts -> first ts (fun t => ~ In t modifiers /\ (~ word t \/ In t (keywords base))) -> named_type base p = PNo.
    Proof.
      intros V F. unfold named_type. eapply bind_then_no; [apply reads_none; [apply (kwl_no _ p ts V modifiers_nil)|exact V]|intros q Vq Lq].
      - revert F. apply first_imp. tauto.
      - apply bind_no. apply (ident_no base q ts Vq). revert F. apply first_imp. tauto.
    Qed.
    Lemma tag_facts t : In t [$"struct"; $"union"; $"enum"] -> ~ In t (modifiers ++ base) /\ In t (keywords base).
    Proof.
      intros I. assert (RS : In t reserved) by (apply (In_sub [$"struct"; $"union"; $"enum"]); [reflexivity|exact I]). split.
      - intros J. apply in_app_iff in J. destruct J as [J|J].
        + pose proof (In_all (fun t => negb (mem t modifiers)) [$"struct"; $"union"; $"enum"] t eq_refl I) as Z. cbv beta in Z. apply mem_str in J. rewrite J in Z. discriminate.
        + apply reserved_free in RS. tauto.
      - unfold keywords. apply in_or_app. left. apply (In_sub [$"struct"; $"union"; $"enum"]); [reflexivity|exact I].
    Qed.
    Lemma struct_no p ts : view p ts -> first ts (fun t => t <> $"struct" /\ t <> $"union") -> struct_type base pk R p = PNo.
    Proof.
      intros V F. unfold struct_type. apply bind_no. no_alt.
      - apply (keyword_no $"struct" p ts V); [discriminate|]. revert F. apply first_imp. tauto.
      - apply (keyword_no $"union" p ts V); [discriminate|]. revert F. apply first_imp. tauto.
    Qed.
    Lemma type_reads g t rest p : sp_type base mods pack g t -> view p (t ++ rest) -> tfol rest -> length (snd p) < S n ->
      reads (fund_type base p <|> named_type base p <|> struct_type base pk R p <|> enum_type base p) p g (length t) rest.
    Proof.
      intros H V F L. assert (TAG : forall w r, t = w :: r -> In w [$"struct"; $"union"; $"enum"] -> fund_type base p = PNo /\ named_type base p = PNo).
      { intros w r -> I. destruct (tag_facts w I) as [NF K]. split; [apply (fund_no p _ V); exact NF|]. apply (named_no p _ V). split; [|right; exact K].
        intros J. apply NF. apply in_or_app. left. exact J. }
      assert (H' := H). destruct H' as [l NL FL|m PN|c m PN|c m l tn tl TG NL SL|m PN|m l tn tl tc TG SL TC].
      - left_alt. apply fund_reads; assumption.
      - cbn [app] in V. assert (NK : ~ In m (modifiers ++ base)) by (intros J; apply fund_keyword in J; destruct PN as (_ & K & _); contradiction).
        right_alt; [apply (fund_no p _ V); exact NK|]. left_alt. unfold named_type.
        eapply reads_bind; [apply reads_none; [apply (kwl_no _ p _ V modifiers_nil); intros J; apply NK; apply in_or_app; left; exact J|exact V]|intros q1 V1 L1|].
        + eapply reads_bind; [apply (ident_yes base NB q1 m rest V1); apply PN|intros q2 V2 L2; apply reads_ret; exact V2|apply Nat.le_refl].
        + cbn [length]. lia.
      - destruct (TAG _ _ eq_refl) as [T1 T2]; [destruct c; apply mem_str; reflexivity|]. right_alt; [exact T1|]. right_alt; [exact T2|]. left_alt.
        apply struct_reads; auto. destruct c; [left|right]; reflexivity.
      - destruct (TAG _ _ eq_refl) as [T1 T2]; [destruct c; apply mem_str; reflexivity|]. right_alt; [exact T1|]. right_alt; [exact T2|]. left_alt.
        apply struct_reads; auto. destruct c; [left|right]; reflexivity.
      - destruct (TAG _ _ eq_refl) as [T1 T2]; [apply mem_str; reflexivity|]. right_alt; [exact T1|]. right_alt; [exact T2|].
        right_alt; [apply (struct_no p _ V); split; discriminate|]. apply enum_reads; auto. reflexivity.
      - destruct (TAG _ _ eq_refl) as [T1 T2]; [apply mem_str; reflexivity|]. right_alt; [exact T1|]. right_alt; [exact T2|].
        right_alt; [apply (struct_no p _ V); split; discriminate|]. apply enum_reads; auto. reflexivity.
    Qed.
    Lemma last_app (l m : list str) : m <> [] -> last (l ++ m) [] = last m [].
    Proof.
      intros N. destruct (exists_last N) as (x & y & ->). rewrite app_assoc, !last_snoc. reflexivity.
    Qed.
    Lemma apart_tail l tm rest : apart (l ++ tm) rest -> apart tm rest.
    Proof.
      intros A I. destruct tm as [|w tm]; [exfalso; apply (no_nil mods mods_words); exact I|]. apply A. rewrite last_app by discriminate. exact I.
    Qed.
    Lemma extra_paren ts rest : sp_extra mods ts -> ts <> [] -> first (ts ++ rest) (fun w => w <> $"(").
    Proof.
      assert (K : forall w, In w mods -> w <> $"(").
      { intros w I ->. pose proof (proj1 (Forall_forall _ _) mods_words _ I) as [W _]. discriminate W. }
      intros [|w ts' I H|w a ts' I G H] N; [congruence| |]; cbn [app first]; apply K; exact I.
    Qed.
    Lemma extra_reads tm rest p : sp_extra mods tm -> view p (tm ++ rest) -> sfol rest -> apart tm rest ->
      reads (extra mods p) p tt (length tm) rest.
    Proof.
      intros H V F A. unfold extra.
      set (e := fun p0 => pbind (kwl mods p0) (fun w q => popt (nested "(" ")") q)).
      enough (K : exists l, reads (many e p) p l (length tm) rest).
      { destruct K as (l & K). eapply reads_bind; [exact K|intros q V1 L1; apply reads_ret; exact V1|lia]. }
      unfold many. enough (K : forall f, length (snd p) < f -> exists l, reads (many_n f e p) p l (length tm) rest) by (apply K; lia).
      revert p V A. induction H as [|w ts I1 H IH|w a ts I1 G H IH]; intros p V A f LF; (destruct f as [|f]; [lia|]); cbn [many_n].
      - exists []. unfold e at 1. rewrite (kwl_no mods p rest V (no_nil mods mods_words)); [cbn [pbind]; apply reads_ret; exact V|].
        revert F. apply first_imp. apply sft_mods.
      - cbn [app] in V. assert (NP : first (ts ++ rest) (fun w => w <> $"(")).
        { destruct ts as [|w' ts]; [apply A; exact I1|apply extra_paren; [exact H|discriminate]]. }
        assert (R1 : reads (e p) p None 1 (ts ++ rest)).
        { unfold e. eapply reads_bind; [apply (kwl_yes mods p w _ V (proj1 (Forall_forall _ _) mods_words w I1) I1)|intros q Vq Lq|].
          - apply reads_none; [apply (paren_no q _ Vq NP)|exact Vq].
          - lia. }
        destruct R1 as (q & -> & Vq & Lq). destruct (IH q Vq (apart_tail [w] ts rest A) f) as (l & q' & -> & V' & L'); [lia|].
        exists (None :: l), q'. cbn [pbind length]. split; [reflexivity|]. split; [exact V'|lia].
      - cbn [app] in V. rewrite <- app_assoc in V. cbn [app] in V.
        destruct (kwl_yes mods p w _ V (proj1 (Forall_forall _ _) mods_words w I1) I1) as (q & E1 & Vq & Lq).
        destruct (nested_group q a _ Vq G) as (x & q2 & E2 & V2 & L2).
        assert (E3 : e p = POk (Some x) q2) by (unfold e; rewrite E1; cbn [pbind]; unfold popt; rewrite E2; reflexivity). rewrite E3.
        assert (A' : apart ts rest).
        { apply (apart_tail (w :: $"(" :: a ++ [$")"])). cbn [app]. rewrite <- app_assoc. exact A. }
        destruct (IH q2 V2 A' f) as (l & q' & -> & V' & L'); [lia|].
        exists (Some x :: l), q'. cbn [pbind length]. split; [reflexivity|]. split; [exact V'|]. rewrite app_length. cbn [length]. lia.
    Qed.
    Lemma spec_body_reads : spec_parses (spec_body base mods pk R) (S n).
    Proof.
      intros s t rest p [q g tn tm Q TY EX] V F A L. assoc V. unfold spec_body.
      eapply reads_bind; [apply (quals_reads q p _ Q V)|intros q1 V1 L1|].
      - eapply first_imp; [|apply (type_first g); exact TY]. intros w [I|[P|I]]; [apply nq_fund; exact I|apply nq_plain; exact P|apply nq_tag; exact I].
      - eapply reads_bind; [apply (type_reads g tn (tm ++ rest) q1 TY V1); [|lia]|intros q2 V2 L2|apply Nat.le_refl].
        { destruct EX as [|w ts I EX|w a ts I G EX]; [|right; exact I|right; exact I]. revert F. apply first_imp. auto. }
        eapply reads_bind; [apply (extra_reads tm rest q2 EX V2 F)|intros q3 V3 L3; apply reads_ret; exact V3|apply Nat.le_refl].
        apply (apart_tail (q ++ tn)). rewrite <- app_assoc. exact A.
      - len.
    Qed.
    Lemma spec_body_no p ts : view p ts -> first ts (fun t => In t stop_toks) -> spec_body base mods pk R p = PNo.
    Proof.
      intros V F. unfold spec_body. eapply bind_then_no; [apply (quals_reads [] p ts); [constructor|exact V|]|intros q Vq Lq].
      { revert F. apply first_imp. intros t I. revert I. apply nq_in. reflexivity. }
      assert (NW : first ts (fun t => ~ word t)) by (revert F; apply first_imp; intros t I; apply (not_word_in stop_toks); [exact I|reflexivity]).
      apply bind_no. no_alt; [|no_alt; [|no_alt]].
      - apply (fund_no q ts Vq). revert NW. apply first_imp. intros t W I. apply W. apply (proj1 (Forall_forall _ _) fund_words t I).
      - apply (named_no q ts Vq). revert NW. apply first_imp. intros t W. split; [|left; exact W]. intros I. apply not_word_free in W. tauto.
      - apply (struct_no q ts Vq). revert F. apply first_imp. intros t I. split; intros ->; apply mem_str in I; discriminate.
      - unfold enum_type. apply bind_no. apply (keyword_no $"enum" q ts Vq); [discriminate|]. revert F. apply first_imp. intros t I ->. apply mem_str in I. discriminate.
    Qed.
  End Bodies.

  (** ** The rules *)
  Definition rules_ok (R : rules) (n : nat) : Prop :=
    spec_parses (r_spec R) n
    /\ (forall p ts, view p ts -> first ts (fun t => In t stop_toks) -> length (snd p) < n -> r_spec R p = PNo)
    /\ parses (r_decl R) n sp_decl dfol
    /\ (forall d td rest p, sp_abstract d td -> view p (td ++ rest) -> afol rest -> length (snd p) < n -> r_decl R p = PNo)
    /\ parses (r_abstract R) n sp_abstract afol.
  Lemma rules_n_ok n : rules_ok (rules_n base mods pk n) n.
  Proof.
    induction n as [|n (I1 & I2 & I3 & I4 & I5)].
    - split; [intros a t r p _ _ _ _ L; lia|]. split; [intros p ts _ _ L; lia|]. split; [intros a t r p _ _ _ L; lia|].
      split; [intros d td r p _ _ _ L; lia|intros a t r p _ _ _ L; lia].
    - split; [apply (spec_body_reads _ n I1 I2 I3 I4)|]. split; [intros p ts V F _; apply (spec_body_no _ p ts V F)|].
      split; [apply (decl_body_reads _ n I1 I2 I3 I4 I5)|]. split; [intros d td r p A V F _; apply (decl_body_no _ d td r p A V F)|].
      apply (abstract_body_reads _ (S n)).
  Qed.

  (** ** Declarations *)
  Lemma top_reads g t rest p : sp_top base mods pack g t -> view p (t ++ rest) -> reads (top_at base mods pk p) p g (length t) rest.
  Proof.
    intros H V. unfold top_at. set (n := S (length (snd p))). assert (L : length (snd p) < n) by (unfold n; lia).
    destruct (rules_n_ok n) as (I1 & I2 & I3 & I4 & I5). generalize dependent (rules_n base mods pk n). intros R I1 I2 I3 I4 I5.
    assert (NT : forall ts s tt r, sp_storage ts -> sp_spec s tt -> view p (ts ++ tt ++ r) -> keyword $"typedef" p = PNo).
    { intros ts s tt r [->|(w & I & ->)] S1 V'; cbn [app] in V'.
      - apply (keyword_no $"typedef" p _ V'); [discriminate|]. eapply first_imp; [|apply (spec_first s); exact S1].
        intros w HW. apply spec_head_storage in HW. tauto.
      - apply (keyword_no $"typedef" p _ V'); [discriminate|]. intros ->. apply mem_str in I. discriminate. }
    unfold top. destruct H as [s ds tt td H1 H2 AP|s ds i ts tt td ti H0 H1 H2 AP H3|s d ts tt td b H0 H1 H2 AP H3]; assoc V.
    - left_alt. eapply reads_bind; [apply (keyword_yes $"typedef" p _ V); split; reflexivity|intros q1 V1 L1|].
      + assert (SD : sp_decls base mods pack ds td) by (constructor; exact H2).
        eapply reads_bind; [apply (I1 s tt _ q1 H1 V1); [apply (decls_sfol ds); [exact SD|left; apply mem_str; reflexivity]|apply apart_app; [exact AP|intros _; discriminate]|lia]|intros q2 V2 L2|apply Nat.le_refl].
        eapply reads_bind; [apply (some_decls_reads R n I3 ds td _ q2 H2 V2); [left; left; reflexivity|lia]|intros q3 V3 L3|apply Nat.le_refl].
        eapply reads_bind; [apply (delim_yes _ _ _ _ V3); reflexivity|intros q4 V4 L4; apply reads_ret; exact V4|apply Nat.le_refl].
      + len.
    - right_alt. { apply bind_no. apply (NT ts s tt _ H0 H1 V). }
      left_alt. eapply reads_bind; [apply (variable_reads R n I1 I3 I4 ts s ds i tt td ti rest p); assumption|intros q1 V1 L1; apply reads_ret; exact V1|]. len.
    - right_alt. { apply bind_no. apply (NT ts s tt _ H0 H1 V). }
      right_alt.
      { apply bind_no. apply (variable_no R n I1 I3 I4 ts s [d] tt td (b :: rest) p H0 H1).
        - constructor. constructor. exact H2.
        - exact AP.
        - exact V.
        - right. split; [exact H3|discriminate].
        - discriminate.
        - exact L. }
      destruct (storage_reads ts s tt _ p H0 H1 V) as (x0 & R0). eapply reads_bind; [exact R0|intros q1 V1 L1|].
      + eapply reads_bind; [apply (I1 s tt _ q1 H1 V1); [apply (decl_sfol d); exact H2|apply (apart_decl d); assumption|lia]|intros q2 V2 L2|apply Nat.le_refl].
        eapply reads_bind; [apply (I3 d td _ q2 H2 V2); [right; exact H3|lia]|intros q3 V3 L3|apply Nat.le_refl].
        eapply reads_bind; [apply (nested_yes q3 b rest V3 H3)|intros q4 V4 L4; apply reads_ret; exact V4|apply Nat.le_refl].
      + len.
  Qed.
  Lemma top_none p : view p [] -> top_at base mods pk p = PNo.
  Proof.
    intros V. unfold top_at. set (n := S (length (snd p))). assert (L : length (snd p) < n) by (unfold n; lia).
    destruct (rules_n_ok n) as (I1 & I2 & I3 & I4 & I5). generalize dependent (rules_n base mods pk n). intros R I1 I2 I3 I4 I5.
    assert (SN := I2 p [] V Logic.I L). unfold top. no_alt; [|no_alt].
    - apply bind_no. apply (keyword_no $"typedef" p [] V); [discriminate|exact Logic.I].
    - apply bind_no. unfold variable. rewrite (storage_no p [] V Logic.I). cbn [pbind]. rewrite SN. reflexivity.
    - rewrite (storage_no p [] V Logic.I). cbn [pbind]. rewrite SN. reflexivity.
  Qed.
  Lemma view_skip p ts : view p ts -> view (skip p) ts.
  Proof.
    intros V. destruct ts as [|t ts].
    - assert (E := view_end p V). destruct V as [L P]. destruct p as [c s]. cbn [fst snd] in *. inversion L as [c' b B|]; subst.
      split; [rewrite E; constructor; reflexivity|]. apply (forallb_imp is_ws is_ppws) in B; [|intros x X; rewrite <- is_ws_pp; exact X].
      assert (SK : skip (c, s) = (last s c, [])).
      { unfold skip. cbn [fst snd]. rewrite <- (app_nil_r s) at 1. apply skip_from_ws; auto. }
      rewrite SK. cbn [fst]. destruct s as [|d s]; [exact P|]. apply prev_ws. rewrite forallb_forall in B. apply B. apply last_in. discriminate.
    - destruct (view_tok p t ts V) as (c & s & E & T & G & PO & V' & LE). rewrite E. split; [|exact PO]. cbn [fst snd].
      destruct (token_head t T) as (d & r & -> & _). change ((d :: r) ++ s) with ([] ++ (d :: r) ++ s). apply (lay_tok c [] (d :: r) d r).
      + reflexivity.
      + exact T.
      + reflexivity.
      + intros _. exact G.
      + exact (proj1 V').
  Qed.
  Lemma skip_length p : length (snd (skip p)) <= length (snd p).
  Proof.
    rewrite skip_snd. destruct (drop_while_suffix is_ppws (snd p)) as (a & E & _). rewrite E at 2. rewrite app_length. lia.
  Qed.
  Lemma scan_reads ds ts : seq_list (sp_top base mods pack) ds ts -> forall f p, view p ts -> length (snd p) < f ->
    scan_n base mods pk f p = Some ds.
  Proof.
    induction 1 as [|g t l ts H SL IH]; intros f p V L; (destruct f as [|f]; [lia|]); cbn [scan_n].
    - apply view_skip in V. rewrite (top_none _ V). pose proof (view_end _ V) as E.
      rewrite skip_idem in E. rewrite E. reflexivity.
    - apply view_skip in V. pose proof (skip_length p) as SL'. destruct (top_reads g t ts _ H V) as (q & -> & V' & L').
      rewrite (IH f q V'); [reflexivity|]. assert (1 <= length t); [|lia].
      destruct t as [|w t]; [|cbn [length]; lia]. exfalso.
      inversion H as [s x tt td H1 H2 AP E1 E2|s x i us tt td ti H0 H1 H2 AP H3 E1 E2|s d us tt td b H0 H1 H2 AP H3 E1 E2].
      + apply app_eq_nil in E2. destruct E2 as [_ E2]. apply app_eq_nil in E2. destruct E2 as [E2 _]. apply (spec_nonempty _ _ H1 E2).
      + apply app_eq_nil in E2. destruct E2 as [_ E2]. apply app_eq_nil in E2. destruct E2 as [E2 _]. apply (spec_nonempty _ _ H1 E2).
  Qed.
  Theorem scan_written ds ts s : seq_list (sp_top base mods pack) ds ts -> written ts s -> scan_text base mods pk s = Some ds.
  Proof.
    intros H W. unfold scan_text. apply (scan_reads ds ts H).
    - split; [exact W|]. intros _. reflexivity.
    - cbn [snd]. lia.
  Qed.
End Declarations.
