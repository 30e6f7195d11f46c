(** Reading headers with other things between the declarations. *)
From Coq Require Import Ascii String Bool Arith ZArith Lia List.
Import ListNotations.
From Verif Require Import PyBase PyBaseFacts PyStr PyStrFacts MacroModel MacroDefProofs PpModel TextSpec DeclModel EvalModel
  GramModel GramSpec GramLex GramExpr GramProofs GramTotal GramTabs RunSpec GramPack NoiseSpec.

(** ** Positions where no word begins *)
Definition dead (p : pos) : Prop :=
  exists c d r, skip p = (c, d :: r)
  /\ ((is_word d = false /\ is_kwchar d = false) \/ (is_word c = true /\ is_kwchar c = true)).
Lemma dead_kwl l p : dead p -> ~ In [] l -> kwl l p = PNo.
Proof.
  intros (c & d & r & E & H) N. unfold kwl. rewrite E. cbn [fst snd]. destruct H as [[W _]|[W _]].
  - rewrite span_sym by exact W. rewrite mem_str_false by exact N. rewrite andb_false_r. reflexivity.
  - rewrite W. destruct (span is_word (d :: r)). reflexivity.
Qed.
Lemma dead_keyword w p : dead p -> w <> [] -> keyword w p = PNo.
Proof.
  intros (c & d & r & E & H) N. unfold keyword. rewrite E. cbn [fst snd]. destruct H as [[_ W]|[_ W]].
  - rewrite span_sym by exact W. replace (eqb [] w) with false; [rewrite andb_false_r; reflexivity|].
    symmetry. destruct (eqb [] w) eqn:Q; [|reflexivity]. apply eqb_eq in Q. congruence.
  - rewrite W. destruct (span is_kwchar (d :: r)). reflexivity.
Qed.
Lemma dead_ident base p : dead p -> ident base p = PNo.
Proof.
  intros (c & d & r & E & H). unfold ident. rewrite E. cbn [fst snd]. destruct H as [[_ W]|[_ W]]; rewrite W; [rewrite andb_false_r|]; reflexivity.
Qed.
Lemma dead_under2 base p : dead p -> under2 base p = PNo.
Proof.
  intros (c & d & r & E & H). unfold under2. rewrite E. cbn [fst snd]. destruct H as [[_ W]|[_ W]]; rewrite W; [rewrite andb_false_r|]; reflexivity.
Qed.
Lemma qualifiers_nil : ~ In [] qualifiers.
Proof. intros I. apply mem_str in I. discriminate I. Qed.
Lemma dead_quals base p : dead p -> quals base p = POk [] p.
Proof.
  intros D. unfold quals, many. cbn [many_n]. unfold qualifier. rewrite (dead_under2 base p D). cbn [pbind].
  rewrite (dead_kwl _ p D qualifiers_nil). reflexivity.
Qed.

(** ** Strings that do not end on their line *)
Lemma line_cons c s : rest_of_line (c :: s) = if cheq c nl || cheq c cr then [] else c :: rest_of_line s.
Proof. unfold rest_of_line. cbn [span]. destruct (cheq c nl || cheq c cr); cbn [negb]; [reflexivity|]. destruct (span _ s). reflexivity. Qed.
Lemma qs_open f : forall s, ~ In dquote (rest_of_line s) -> ~ In bslash (rest_of_line s) -> qs_body f dquote s = None.
Proof.
  induction f as [|f IH]; intros s N1 N2; [reflexivity|]. destruct s as [|c s]; [reflexivity|]. cbn [qs_body]. rewrite line_cons in N1, N2.
  destruct (cheq_spec c dquote) as [->|D]; [exfalso; apply N1; left; reflexivity|].
  destruct (cheq_spec c bslash) as [->|B]; [exfalso; apply N2; left; reflexivity|].
  destruct (cheq c nl || cheq c cr); [reflexivity|]. rewrite IH; [reflexivity| |]; intros I; [apply N1|apply N2]; right; exact I.
Qed.
Lemma open_quote s : ~ In dquote (rest_of_line s) -> ~ In bslash (rest_of_line s) -> quoted_string (dquote :: s) = None.
Proof. intros N1 N2. unfold quoted_string. change (cheq dquote dquote || cheq dquote squote) with true. cbv iota. rewrite (qs_open _ s N1 N2). reflexivity. Qed.
Lemma open_delim c s : ~ In dquote (rest_of_line s) -> ~ In bslash (rest_of_line s) -> delim $";" (c, dquote :: s) = PNo.
Proof.
  intros N1 N2. unfold delim. cbn [snd length skip_ignorables]. change (drop_while is_ppws (dquote :: s)) with (dquote :: s).
  rewrite (open_quote s N1 N2). reflexivity.
Qed.

Section Scan.
  Context (base mods : list str) (pk : str -> option Z) (pack : option Z)
    (GC : good_config base mods) (PK : forall r, pk r = pack).
  Lemma mods_nil : ~ In [] mods.
  Proof. apply no_nil. apply GC. Qed.
  Lemma base_nil : ~ In [] base.
  Proof. apply no_nil. apply GC. Qed.
  Lemma fund_nil' : ~ In [] (modifiers ++ base).
  Proof. rewrite in_app_iff. intros [I|I]; [apply mem_str in I; discriminate I|apply (base_nil I)]. Qed.
  Lemma dead_spec R p : dead p -> spec_body base mods pk R p = PNo.
  Proof.
    intros D. unfold spec_body. rewrite (dead_quals base p D). cbn [pbind].
    unfold fund_type, many1. rewrite (dead_kwl _ p D fund_nil'). cbn [pbind].
    unfold named_type, popt. rewrite (dead_kwl _ p D modifiers_nil). cbn [pbind]. rewrite (dead_ident base p D). cbn [pbind].
    unfold struct_type. rewrite (dead_keyword $"struct" p D) by discriminate. rewrite (dead_keyword $"union" p D) by discriminate. cbn [pbind].
    unfold enum_type. rewrite (dead_keyword $"enum" p D) by discriminate. reflexivity.
  Qed.
  Lemma dead_top p : dead p -> top_at base mods pk p = PNo.
  Proof.
    intros D. unfold top_at. cbn [rules_n]. unfold top. cbn [r_spec r_decl]. rewrite (dead_keyword $"typedef" p D) by discriminate. cbn [pbind].
    unfold variable, popt. cbn [r_spec r_decl]. rewrite (dead_kwl _ p D storage_nil). cbn [pbind]. rewrite (dead_spec _ p D). reflexivity.
  Qed.
  Lemma dead_decl R p c d r : skip p = (c, d :: r) -> is_word d = false -> is_kwchar d = false ->
    d <> "*"%char -> d <> "&"%char -> d <> "("%char -> decl_body base R p = PNo.
  Proof.
    intros E W K N1 N2 N3. assert (D : dead p) by (exists c, d, r; auto). unfold decl_body. rewrite (dead_quals base p D). cbn [pbind].
    unfold call_conv, popt at 1. rewrite (dead_keyword $"__cdecl" p D), (dead_keyword $"__stdcall" p D) by discriminate. cbn [pbind].
    assert (L : forall x, x <> d -> lit [x] p = PNo).
    { intros x N. unfold lit. rewrite E. cbn [snd strip_prefix]. destruct (cheq_spec x d) as [->|_]; [congruence|reflexivity]. }
    assert (L1 : lit $"*" p = PNo) by (apply (L "*"%char); congruence). assert (L2 : lit $"&" p = PNo) by (apply (L "&"%char); congruence).
    assert (L3 : lit $"(" p = PNo) by (apply (L "("%char); congruence).
    unfold many. cbn [many_n]. unfold star. rewrite L1. cbn [pbind]. unfold core, popt at 1.
    rewrite L2. cbn [pbind]. rewrite (dead_ident base p D). cbn [pbind]. rewrite L3. reflexivity.
  Qed.

  (** ** Names in front of declarations *)
  Lemma opens_first ts : opens base mods ts -> first ts (fun t => ~ In t mods /\ no_quote t /\ ~ starts ";" t /\ ~ starts "=" t /\ ~ starts "{" t).
  Proof.
    assert (K : forall w, word w -> ~ In w mods -> ~ In w mods /\ no_quote w /\ ~ starts ";" w /\ ~ starts "=" w /\ ~ starts "{" w).
    { intros w W M. split; [exact M|]. split; [apply word_no_quote; exact W|]. split; [|split]; apply word_no_start; auto. }
    intros (q & r & -> & Q & H). destruct q as [|w q].
    - cbn [app]. destruct H as [(w & r' & -> & I)|(n & x & r' & -> & PN & _)]; cbn [first]; apply K.
      + apply in_app_iff in I. destruct I as [I|I].
        * apply (proj1 (Forall_forall word [$"struct"; $"union"; $"enum"])); [repeat constructor|exact I].
        * apply (proj1 (Forall_forall word (modifiers ++ base)) (fund_words base mods GC) w I).
      + apply in_app_iff in I. destruct I as [I|I].
        * apply (reserved_free base mods GC). unfold reserved. apply in_app_iff. left. apply mem_str. apply mem_str in I. revert I.
          destruct w as [|c w]; [discriminate|]. intros I. apply mem_str in I. cbn [In] in I. destruct I as [<-|[<-|[<-|[]]]]; reflexivity.
        * intros J. destruct GC as (_ & _ & _ & H). apply (H w J I).
      + destruct PN as [PN|[->|I]]; [apply PN|split; reflexivity|].
        apply (proj1 (Forall_forall word storage_classes)); [repeat constructor|exact I].
      + destruct PN as [PN|[->|I]]; [apply PN|apply (reserved_free base mods GC); apply mem_str; reflexivity|].
        apply (reserved_free base mods GC). unfold reserved. rewrite !in_app_iff. auto.
    - cbn [app first]. inversion Q as [|x y I Q']; subst. apply K.
      + apply (proj1 (Forall_forall word qualifiers)); [repeat constructor|exact I].
      + apply (reserved_free base mods GC). unfold reserved. rewrite !in_app_iff. auto.
  Qed.
  Lemma spec_name R w ts p : plain_name base mods w -> first ts (fun t => ~ In t mods) -> view p (w :: ts) ->
    reads (spec_body base mods pk R p) p (GSpec [] (GWord w)) 1 ts.
  Proof.
    intros PN F V. unfold spec_body. eapply reads_bind; [apply (quals_reads base [] p (w :: ts)); [constructor|exact V|apply nq_plain with (mods := mods); exact PN]|intros q Vq Lq|].
    - eapply (reads_bind _ _ _ _ _ 1 0 1); [|intros q2 V2 L2|apply Nat.le_refl].
      + assert (NF : ~ In w (modifiers ++ base)) by (destruct PN as (_ & NK & _); intros I; apply NK; apply fund_keyword; exact I).
        right_alt; [apply (fund_no base mods GC q _ Vq NF)|].
        left_alt. unfold named_type. eapply reads_bind.
        * apply reads_none; [|exact Vq]. apply (kwl_no _ q _ Vq modifiers_nil). intros I. apply NF. apply in_app_iff. left. exact I.
        * intros q1 V1 L1. eapply reads_bind; [apply (ident_yes base (NB base mods GC) q1 w ts V1); apply PN|intros q3 V3 L3; apply reads_ret; exact V3|apply Nat.le_refl].
        * lia.
      + eapply reads_bind.
        * unfold extra, many. cbn [many_n]. rewrite (kwl_no mods q2 ts V2 mods_nil F). cbn [pbind]. apply reads_ret. exact V2.
        * intros q3 V3 L3. apply reads_ret. exact V3.
        * lia.
    - cbn [length]. lia.
  Qed.
  Definition other (x : str) : Prop := word x \/ x = $"*".
  Lemma other_start d x : is_idchar d = false -> d <> "*"%char -> other x -> ~ starts d x.
  Proof. intros D N [W| ->]; [apply word_no_start; assumption|]. intros (r & E). injection E as E _. congruence. Qed.
  Lemma decl_opens R q ts : opens base mods ts -> view q ts ->
    decl_body base R q = PNo \/ exists d x r, reads (decl_body base R q) q d 1 (x :: r) /\ other x.
  Proof.
    intros (qs & r & -> & Q & H) V. destruct H as [(w & r' & -> & I)|(n & x & r' & -> & PN & X)].
    - left. assert (WK : In w (keywords base)).
      { unfold keywords. rewrite !in_app_iff. rewrite !in_app_iff in I. destruct I as [I|[I|I]]; [left|auto|auto].
        cbn [In] in I. destruct I as [<-|[<-|[<-|[]]]]; apply mem_str; reflexivity. }
      assert (WW : word w) by (apply (proj1 (Forall_forall _ _) (keyword_words base mods GC) w WK)).
      assert (NW : ~ In w ([$"__stdcall"; $"__cdecl"] ++ qualifiers)).
      { intros J. rewrite !in_app_iff in I. destruct I as [I|[I|I]].
        - cbn [In] in I. destruct I as [<-|[<-|[<-|[]]]]; apply mem_str in J; discriminate J.
        - cbn [In modifiers] in I. destruct I as [<-|[<-|[<-|[<-|[]]]]]; apply mem_str in J; discriminate J.
        - apply (proj1 (reserved_free base mods GC w ltac:(unfold reserved; rewrite !in_app_iff in *; cbn [In] in *; tauto)) I). }
      assert (NQ : nq base w) by (split; [intros J; apply NW; apply in_app_iff; right; exact J|left; exact WK]).
      unfold decl_body. eapply bind_then_no; [apply (quals_reads base qs q _ Q V NQ)|intros q1 V1 L1].
      eapply bind_then_no; [apply (conv_reads None [] (w :: r') q1); [reflexivity|exact V1|]|intros q2 V2 L2].
      { cbn [first]. split; intros ->; apply NW; apply mem_str; reflexivity. }
      eapply bind_then_no; [apply (stars_reads base [] [] (w :: r') q2); [constructor|exact V2|exact NQ|apply word_no_start; [reflexivity|exact WW]]|intros q3 V3 L3].
      apply bind_no. unfold core. no_alt.
      + eapply bind_then_no; [apply reads_none; [apply (lit_no "&" [] q3 _ V3); apply word_no_start; [reflexivity|exact WW]|exact V3]|intros q4 V4 L4].
        apply bind_no. apply (ident_no base q4 _ V4). right. exact WK.
      + apply bind_no. apply (lit_no "(" [] q3 _ V3). apply word_no_start; [reflexivity|exact WW].
    - right. exists (GNode qs None [] (GNamed false n) None []), x, r'. split; [|exact X].
      assert (NN : word n /\ ~ In n (keywords base) /\ nq base n).
      { destruct PN as [PN|PN].
        - split; [apply PN|]. split; [apply PN|]. apply (nq_plain base mods n PN).
        - assert (IR : In n ([$"typedef"] ++ storage_classes)) by (apply in_app_iff; destruct PN as [->|PN]; [left; left; reflexivity|right; exact PN]).
          assert (NR : In n reserved) by (unfold reserved; rewrite !in_app_iff in *; cbn [In] in *; tauto).
          split; [apply (proj1 (Forall_forall word ([$"typedef"] ++ storage_classes))); [repeat constructor|exact IR]|].
          split; [|apply (nq_in base ([$"typedef"] ++ storage_classes)); [reflexivity|exact IR]].
          unfold keywords. rewrite !in_app_iff. intros J. destruct (reserved_free base mods GC n NR) as [NB' _].
          destruct J as [J|[J|[J|J]]]; [| |contradiction|];
            cbn [In app storage_classes] in IR; destruct IR as [<-|[<-|[<-|[<-|[]]]]]; apply mem_str in J; discriminate J. }
      destruct NN as (WN & KN & NQ).
      assert (NC : n <> $"__cdecl" /\ n <> $"__stdcall") by (split; intros ->; apply KN; apply in_app_iff; left; apply mem_str; reflexivity).
      unfold decl_body. eapply reads_bind; [apply (quals_reads base qs q _ Q V NQ)|intros q1 V1 L1|apply Nat.le_add_l].
      eapply (reads_bind _ _ _ _ _ 0 1 1); [apply (conv_reads None [] (n :: x :: r') q1); [reflexivity|exact V1|exact NC]|intros q2 V2 L2|lia].
      eapply (reads_bind _ _ _ _ _ 0 1 1); [apply (stars_reads base [] [] (n :: x :: r') q2); [constructor|exact V2|exact NQ|apply word_no_start; [reflexivity|exact WN]]|intros q3 V3 L3|lia].
      eapply (reads_bind _ _ _ _ _ 1 0 1); [|intros q5 V5 L5|lia].
      { unfold core. left_alt.
        eapply (reads_bind _ _ _ _ _ 0 1 1); [apply reads_none; [apply (lit_no "&" [] q3 _ V3); apply word_no_start; [reflexivity|exact WN]|exact V3]|intros q4 V4 L4|lia].
        eapply reads_bind; [apply (ident_yes base (NB base mods GC) q4 n _ V4 WN KN)|intros q5 V5 L5; apply reads_ret; exact V5|apply Nat.le_refl]. }
      eapply (reads_bind _ _ _ _ _ 0 0 0); [apply reads_none; [|exact V5]|intros q6 V6 L6|lia].
      { unfold args. apply bind_no. apply (lit_no "(" [] q5 _ V5). apply other_start; [reflexivity|discriminate|exact X]. }
      eapply (reads_bind _ _ _ _ _ 0 0 0); [apply (arrays_reads base mods GC [] [] (x :: r') q6); [constructor|exact V6|apply other_start; [reflexivity|discriminate|exact X]]|intros q7 V7 L7|lia].
      apply reads_ret. exact V7.
  Qed.
  Lemma foreign_top w ts p : plain_name base mods w -> opens base mods ts -> view p (w :: ts) -> top_at base mods pk p = PNo.
  Proof.
    intros PN OP V. pose proof (opens_first ts OP) as F. assert (FM : first ts (fun t => ~ In t mods)) by (revert F; apply first_imp; tauto).
    unfold top_at. cbn [rules_n]. unfold top. cbn [r_spec r_decl]. no_alt; [|no_alt].
    - apply bind_no. apply (keyword_no $"typedef" p _ V); [discriminate|]. apply PN.
    - apply bind_no. unfold variable. cbn [r_spec r_decl].
      eapply bind_then_no; [apply reads_none; [apply (kwl_no _ p _ V storage_nil); apply PN|exact V]|intros q1 V1 L1].
      eapply bind_then_no; [apply (spec_name _ w ts q1 PN FM V1)|intros q2 V2 L2].
      set (R := rules_n base mods pk (length (snd p))) in *. destruct (decl_opens R q2 ts OP V2) as [E|(d & x & r & RD & X)].
      + eapply bind_then_no; [apply reads_none; [unfold delimited; rewrite E; reflexivity|exact V2]|intros q3 V3 L3].
        eapply bind_then_no; [apply reads_none; [|exact V3]|intros q4 V4 L4].
        { unfold initialiser. apply bind_no. apply (lit_no "=" [] q3 _ V3). revert F. apply first_imp. tauto. }
        apply bind_no. apply (delim_no ";" [] q4 _ V4); revert F; apply first_imp; tauto.
      + assert (ST : forall c, is_idchar c = false -> c <> "*"%char -> first (x :: r) (fun t => ~ starts c t)) by (intros c I N; apply other_start; assumption).
        assert (RL : reads (delimited (decl_body base R) q2) q2 [d] 1 (x :: r)).
        { unfold delimited. eapply reads_bind; [exact RD|intros q3 V3 L3|apply Nat.le_refl]. unfold many. cbn [many_n].
          assert (E : lit $"," q3 = PNo) by (apply (lit_no "," [] q3 _ V3); apply ST; [reflexivity|discriminate]). rewrite E. cbn [pbind]. apply reads_ret. exact V3. }
        eapply bind_then_no; [apply (reads_opt _ _ _ _ _ RL)|intros q3 V3 L3].
        eapply bind_then_no; [apply reads_none; [|exact V3]|intros q4 V4 L4].
        { unfold initialiser. apply bind_no. apply (lit_no "=" [] q3 _ V3). apply ST; [reflexivity|discriminate]. }
        apply bind_no. apply (delim_no ";" [] q4 _ V4); [|apply ST; [reflexivity|discriminate]].
        cbn [first]. destruct X as [W| ->]; [apply word_no_quote; exact W|]. reflexivity.
    - eapply bind_then_no; [apply reads_none; [apply (kwl_no _ p _ V storage_nil); apply PN|exact V]|intros q1 V1 L1].
      eapply bind_then_no; [apply (spec_name _ w ts q1 PN FM V1)|intros q2 V2 L2].
      set (R := rules_n base mods pk (length (snd p))) in *. destruct (decl_opens R q2 ts OP V2) as [E|(d & x & r & RD & X)]; [apply bind_no; exact E|].
      eapply bind_then_no; [exact RD|intros q3 V3 L3]. apply bind_no. apply (nested_no q3 _ V3). apply other_start; [reflexivity|discriminate|exact X].
  Qed.

  (** ** Linkage specifications *)
  Lemma quote_dead c s : dead (c, dquote :: s).
  Proof. exists c, dquote, s. split; [reflexivity|]. left. split; reflexivity. Qed.
  Lemma extern_top ts p : view p ($"extern" :: c_linkage :: ts) -> top_at base mods pk p = PNo.
  Proof.
    intros V. assert (K : forall q, view q (c_linkage :: ts) -> dead q).
    { intros q Vq. destruct (view_tok q _ ts Vq) as (c & s & E & _). exists c, dquote, ($"C""" ++ s). split; [exact E|]. left. split; reflexivity. }
    assert (R1 : reads (popt (kwl storage_classes) p) p (Some $"extern") 1 (c_linkage :: ts)).
    { apply reads_opt. apply (kwl_yes _ p _ _ V); [split; reflexivity|apply mem_str; reflexivity]. }
    unfold top_at. cbn [rules_n]. unfold top. cbn [r_spec r_decl]. no_alt; [|no_alt].
    - apply bind_no. apply (keyword_no $"typedef" p _ V); discriminate.
    - apply bind_no. unfold variable. cbn [r_spec r_decl]. eapply bind_then_no; [exact R1|intros q1 V1 L1]. apply bind_no. apply dead_spec. apply K. exact V1.
    - eapply bind_then_no; [exact R1|intros q1 V1 L1]. apply bind_no. apply dead_spec. apply K. exact V1.
  Qed.
  Section Letter.
    Context (s : str) (N1 : ~ In dquote (rest_of_line s)) (N2 : ~ In bslash (rest_of_line s)).
    Let p : pos := (dquote, "C"%char :: dquote :: s).
    Let q : pos := ("C"%char, dquote :: s).
    Lemma letter_upto : upto p (dquote :: s) = q.
    Proof. unfold p, q. apply (upto_app dquote $"C" (dquote :: s)). discriminate. Qed.
    Lemma letter_kwl l : kwl l p = if mem $"C" l then POk $"C" q else PNo.
    Proof.
      unfold kwl. change (skip p) with p. change (span is_word (snd p)) with ($"C", dquote :: s). cbv iota beta.
      change (negb (is_word (fst p))) with true. cbn [andb]. rewrite letter_upto. reflexivity.
    Qed.
    Lemma letter_keyword w : w <> $"C" -> keyword w p = PNo.
    Proof.
      intros N. unfold keyword. change (skip p) with p. change (span is_kwchar (snd p)) with ($"C", dquote :: s). cbv iota beta.
      replace (eqb $"C" w) with false; [rewrite andb_false_r; reflexivity|]. symmetry. destruct (eqb $"C" w) eqn:Q; [|reflexivity]. apply eqb_eq in Q. congruence.
    Qed.
    Lemma letter_quals : quals base p = POk [] p.
    Proof.
      unfold quals, many. cbn [many_n]. unfold qualifier. assert (U : under2 base p = PNo).
      { unfold under2. change (skip p) with p. rewrite letter_kwl. unfold p. cbn [fst snd]. change (negb (is_kwchar dquote) && is_kwchar "C") with true. cbv iota.
        destruct (mem $"C" (keywords base)); reflexivity. }
      rewrite U. cbn [pbind]. rewrite letter_kwl. reflexivity.
    Qed.
    Lemma letter_spec R : exists g, spec_body base mods pk R p = POk g q.
    Proof.
      assert (EX : extra mods q = POk tt q).
      { unfold extra, many. cbn [many_n]. rewrite (dead_kwl mods q (quote_dead _ _) mods_nil). reflexivity. }
      unfold spec_body. rewrite letter_quals. cbn [pbind]. unfold fund_type, many1. rewrite letter_kwl.
      destruct (mem $"C" (modifiers ++ base)) eqn:M.
      - cbn [pbind]. unfold many. cbn [many_n]. rewrite (dead_kwl _ q (quote_dead _ _) fund_nil'). cbn [pbind]. rewrite EX. eexists. reflexivity.
      - cbn [pbind]. unfold named_type, popt. rewrite letter_kwl. change (mem $"C" modifiers) with false. cbn [pbind].
        assert (ID : ident base p = POk $"C" q).
        { unfold ident. change (skip p) with p. rewrite letter_kwl.
          assert (MK : mem $"C" (keywords base) = false).
          { apply mem_str_false. intros I. assert (NI : ~ In $"C" (modifiers ++ base)) by (intros J; apply mem_str in J; congruence).
            apply NI. unfold keywords in I. rewrite !in_app_iff in I. apply in_app_iff. destruct I as [I|[I|[I|I]]]; [| |auto|]; apply mem_str in I; discriminate I. }
          rewrite MK. unfold p. cbn [fst snd]. change (negb (is_kwchar dquote) && is_kwchar "C") with true. cbv iota.
          change (span is_kwchar (dquote :: s)) with (@nil ascii, dquote :: s). change (is_idstart "C") with true. cbv iota beta. change (dquote, "C"%char :: dquote :: s) with p. rewrite letter_upto. reflexivity. }
        rewrite ID. cbn [pbind]. rewrite EX. eexists. reflexivity.
    Qed.
    Lemma letter_top : top_at base mods pk p = PNo.
    Proof.
      unfold top_at. cbn [rules_n]. set (R := rules_n base mods pk (length (snd p))). destruct (letter_spec R) as (g & SP).
      assert (DE : decl_body base R q = PNo) by (apply (dead_decl R q "C" dquote s); try reflexivity; discriminate).
      unfold top. cbn [r_spec r_decl]. rewrite (letter_keyword $"typedef") by discriminate. cbn [pbind].
      assert (ST : popt (kwl storage_classes) p = POk None p) by (unfold popt; rewrite letter_kwl; reflexivity).
      unfold variable. cbn [r_spec r_decl]. rewrite ST. cbn [pbind]. rewrite SP. cbn [pbind].
      unfold popt at 1, delimited. rewrite DE. cbn [pbind]. unfold popt at 1, initialiser.
      assert (EQ : lit $"=" q = PNo) by reflexivity. rewrite EQ. cbn [pbind]. unfold q at 1. rewrite (open_delim _ s N1 N2). reflexivity.
    Qed.
  End Letter.

  (** ** Scanning *)
  Context (tail : list str).
  Definition scans (p : pos) (ds : list gtop) : Prop :=
    forall f, length (snd p) < f -> exists r, scan_n base mods pk f p = Some (ds ++ r) /\ (tail = [] -> r = []).
  Lemma scans_step p c d r ds : skip p = (c, d :: r) -> top_at base mods pk (skip p) = PNo -> scans (d, r) ds -> scans p ds.
  Proof.
    intros E T H f L. destruct f as [|f]; [lia|]. cbn [scan_n]. rewrite T, E. cbn [snd]. apply H. cbn [snd].
    pose proof (skip_length p) as SL. rewrite E in SL. cbn [snd length] in SL. lia.
  Qed.
  Lemma dead_skip p : dead p -> dead (skip p).
  Proof. intros (c & d & r & E & H). exists c, d, r. rewrite skip_idem. split; [exact E|exact H]. Qed.
  Lemma scans_word ds s w : forall c, forallb is_idchar (c :: w) = true -> scans (last w c, s) ds -> scans (c, w ++ s) ds.
  Proof.
    induction w as [|d w IH]; intros c F H; [exact H|]. cbn [forallb] in F. apply andb_true_iff in F. destruct F as [C F].
    assert (D : is_idchar d = true) by (apply andb_true_iff in F; apply F).
    assert (E : skip (c, (d :: w) ++ s) = (c, d :: w ++ s)).
    { unfold skip. cbn [fst snd app skip_from]. rewrite (kwchar_not_ws d (idchar_kw d D)). reflexivity. }
    apply (scans_step _ c d (w ++ s) ds E).
    - apply dead_top. apply dead_skip. exists c, d, (w ++ s). split; [exact E|]. right. split; [apply idchar_word; exact C|apply idchar_kw; exact C].
    - apply IH; [exact F|]. replace (last w d) with (last (d :: w) c); [exact H|]. destruct w as [|e w]; [reflexivity|]. cbn [last]. apply (last_default (e :: w)). discriminate.
  Qed.
  Lemma one_string_end s r : one_string s -> ends_text s r -> one_string r.
  Proof. intros O (a & ->) x b ->. apply (O (a ++ x) b). rewrite app_assoc. reflexivity. Qed.
  Lemma noisy_scan lk ds ts : noisy base mods pack lk tail ds ts -> forall p, view p ts -> (lk -> one_string (snd p)) -> scans p ds.
  Proof.
    induction 1 as [|g t ds ts HT NZ IH|m ds ts HM NZ IH|ds ts LK NZ IH|w ds ts PN OP NZ IH]; intros p V O.
    - intros f L. destruct tail as [|t0 tl].
      + exists []. split; [|reflexivity]. destruct f as [|f]; [lia|]. cbn [scan_n app]. apply view_skip in V. rewrite (top_none base mods pk pack GC PK _ V).
        pose proof (view_end _ V) as E. rewrite skip_idem in E. rewrite E. reflexivity.
      + destruct (scan_n base mods pk f p) as [r|] eqn:E; [exists r; split; [reflexivity|discriminate]|].
        exfalso. apply (scan_total base mods pk base_nil mods_nil f p L E).
    - intros f L. destruct f as [|f]; [lia|]. cbn [scan_n]. pose proof (view_skip _ _ V) as V1. pose proof (skip_length p) as SL.
      destruct (top_reads base mods pk pack GC PK g t ts _ HT V1) as (q & E & V' & L').
      pose proof (same_top_at pk pk base mods (skip p)) as IN. rewrite E in IN. destruct IN as (_ & IN & _). rewrite E.
      destruct (IH q V' (fun k => one_string_end _ _ (O k) (et_trans _ _ _ (et_skip p) IN)) f) as (r & -> & R0).
      + pose proof (ends_top base mods pk base_nil mods_nil (skip p)) as EN. rewrite E in EN. cbn [ends] in EN. lia.
      + exists r. split; [reflexivity|exact R0].
    - destruct (view_tok p m ts V) as (c & s & E & _ & _ & _ & V' & _). assert (X : exists x, m = [x] /\ is_word x = false /\ is_kwchar x = false).
      { cbn [In] in HM. destruct HM as [<-|[<-|[<-|[]]]]; eexists; repeat split; reflexivity. }
      destruct X as (x & -> & W & K). apply (scans_step p c x s ds E).
      + apply dead_top. apply dead_skip. exists c, x, s. auto.
      + apply IH; [exact V'|]. intros LK. apply (one_string_end _ s (O LK)). apply (et_trans _ _ _ (et_skip p)). rewrite E. exists [x]. reflexivity.
    - destruct (view_tok p _ _ V) as (c & s & E & _ & _ & _ & V' & _). apply (scans_step p c "e" ($"xtern" ++ s) ds E).
      + apply (extern_top ts). apply view_skip. exact V.
      + apply scans_word; [reflexivity|]. destruct (view_tok _ _ _ V') as (c2 & s2 & E2 & _ & _ & _ & V2 & _).
        assert (ET : exists a, snd p = a ++ c_linkage ++ s2).
        { assert (ET : ends_text (snd p) (c_linkage ++ s2)); [|exact ET]. apply (et_trans _ s).
          - apply (et_trans _ _ _ (et_skip p)). rewrite E. exists $"extern". reflexivity.
          - pose proof (et_skip (last $"extern" c, s)) as ET. rewrite E2 in ET. exact ET. }
        destruct ET as (a & ET). destruct (O LK a s2 ET) as [N1 N2].
        apply (scans_step _ c2 dquote ("C"%char :: dquote :: s2) ds E2); [apply dead_top; apply dead_skip; exists c2, dquote, ("C"%char :: dquote :: s2); split; [exact E2|left; split; reflexivity]|].
        apply (scans_step _ dquote "C" (dquote :: s2)); [reflexivity|exact (letter_top s2 N1 N2)|].
        apply (scans_step _ "C" dquote s2); [reflexivity|apply dead_top; apply quote_dead|].
        apply IH; [exact V2|]. intros _. apply (one_string_end _ _ (O LK)). exists (a ++ c_linkage). rewrite ET, <- app_assoc. reflexivity.
    - destruct (view_tok p w ts V) as (c & s & E & _ & _ & _ & V' & _). destruct PN as (W & PN'). pose proof (word_alpha w W) as [_ F].
      destruct w as [|d w]; [destruct W|]. apply (scans_step p c d (w ++ s) ds E).
      + apply (foreign_top (d :: w) ts); [split; [exact W|exact PN']|exact OP|apply view_skip; exact V].
      + apply scans_word; [exact F|]. replace (last w d) with (last (d :: w) c).
        * apply IH; [exact V'|]. intros LK. apply (one_string_end _ s (O LK)). apply (et_trans _ _ _ (et_skip p)). rewrite E. exists (d :: w). reflexivity.
        * destruct w as [|e w]; [reflexivity|]. cbn [last]. apply (last_default (e :: w)). discriminate.
  Qed.
End Scan.

(** ** Tabs *)
Section Tabs.
  Context (base mods : list str) (pack : option Z) (GC : good_config base mods).
  Lemma same_plain ts ts' : Forall2 same_tok ts ts' -> Forall brace_free ts -> ts' = ts.
  Proof. apply same_bf. Qed.
  Lemma same_cons t ts u : Forall2 same_tok (t :: ts) u -> brace_free t -> exists us, u = t :: us /\ Forall2 same_tok ts us.
  Proof.
    intros F B. inversion F as [|x y xs ys S1 S2]; subst. destruct S1 as [<-|[S1 _]]; [exists ys; auto|contradiction].
  Qed.
  Lemma storage_word n : In n storage_classes -> word n.
  Proof. intros I. apply (proj1 (Forall_forall word storage_classes)); [repeat constructor|exact I]. Qed.
  Lemma opens_same ts ts' : opens base mods ts -> Forall2 same_tok ts ts' -> opens base mods ts'.
  Proof.
    intros (q & r & -> & Q & H) F. apply Forall2_app_inv_l in F. destruct F as (u & v & F1 & F2 & ->).
    rewrite (same_bf _ _ F1 (quals_bf q Q)). exists q, v. split; [reflexivity|]. split; [exact Q|].
    destruct H as [(w & r' & -> & I)|(n & x & r' & -> & PN & X)].
    - left. destruct (same_cons _ _ _ F2) as (us & -> & _); [|eauto]. apply in_app_iff in I. destruct I as [I|I].
      + apply (in_bf [$"struct"; $"union"; $"enum"]); [reflexivity|exact I].
      + apply word_bf. apply (proj1 (Forall_forall _ _) (fund_words base mods GC) w I).
    - right. assert (WN : word n) by (destruct PN as [PN|[->|I]]; [apply PN|split; reflexivity|apply storage_word; exact I]).
      destruct (same_cons _ _ _ F2 (word_bf n WN)) as (us & -> & F3).
      destruct (same_cons _ _ _ F3) as (us' & -> & F4); [|exists n, x, us'; auto].
      destruct X as [X| ->]; [apply word_bf; exact X|apply (in_bf [$"*"]); [reflexivity|left; reflexivity]].
  Qed.
  Lemma noisy_same lk tail ds ts : noisy base mods pack lk tail ds ts -> forall ts', Forall2 same_tok ts ts' ->
    exists tail', (tail = [] -> tail' = []) /\ noisy base mods pack lk tail' ds ts'.
  Proof.
    induction 1 as [|g t ds ts HT NZ IH|m ds ts HM NZ IH|ds ts LK NZ IH|w ds ts PN OP NZ IH]; intros ts' F.
    - exists ts'. split; [|constructor]. intros ->. inversion F. reflexivity.
    - apply Forall2_app_inv_l in F. destruct F as (u & v & F1 & F2 & ->). destruct (IH v F2) as (tl & T0 & N'). exists tl. split; [exact T0|].
      constructor; [apply (top_same base mods pack GC g t u HT F1)|exact N'].
    - destruct (same_cons _ _ _ F) as (us & -> & F2); [apply (in_bf [$";"; $"{"; $"}"]); [reflexivity|exact HM]|].
      destruct (IH us F2) as (tl & T0 & N'). exists tl. split; [exact T0|]. constructor; assumption.
    - destruct (same_cons _ _ _ F) as (us & -> & F2); [apply word_bf; split; reflexivity|].
      destruct (same_cons _ _ _ F2) as (us' & -> & F3); [apply (in_bf [c_linkage]); [reflexivity|left; reflexivity]|].
      destruct (IH us' F3) as (tl & T0 & N'). exists tl. split; [exact T0|]. constructor; assumption.
    - destruct (same_cons _ _ _ F) as (us & -> & F2); [apply word_bf; apply PN|].
      destruct (IH us F2) as (tl & T0 & N'). exists tl. split; [exact T0|]. constructor; [exact PN|apply (opens_same ts us OP F2)|exact N'].
  Qed.
End Tabs.
(** Where a text without blanks and tabs stands in the expanded text, it stands in the text. *)
Lemma expand_prefix m : forall s k b, expandtabs_aux k s = m ++ b -> ~ In sp m -> exists s' k', s = m ++ s' /\ b = expandtabs_aux k' s'.
Proof.
  induction m as [|c m IH]; intros s k b E N; [exists s, k; auto|]. destruct s as [|d s]; [discriminate|]. cbn [expandtabs_aux app] in E.
  assert (NM : ~ In sp m) by (intros I; apply N; right; exact I). destruct (cheq_spec d PyStr.tab) as [->|ND].
  - destruct (spaces_cons k) as (r & E2 & _). rewrite E2 in E. injection E as <- _. exfalso. apply N. left. reflexivity.
  - destruct (cheq d nl || cheq d cr); injection E as <- E; destruct (IH _ _ _ E NM) as (s' & k' & -> & ->); exists s', k'; auto.
Qed.
Lemma expand_find m b : ~ In sp m -> m <> [] -> forall s k a, expandtabs_aux k s = a ++ m ++ b -> exists a' b' k', s = a' ++ m ++ b' /\ b = expandtabs_aux k' b'.
Proof.
  intros N NE. assert (SP : forall n a s k, spaces n ++ expandtabs_aux k s = a ++ m ++ b -> exists a2, expandtabs_aux k s = a2 ++ m ++ b).
  { induction n as [|n IH]; intros a s k E; [exists a; exact E|]. destruct a as [|c a].
    - destruct m as [|c m]; [congruence|]. injection E as <- _. exfalso. apply N. left. reflexivity.
    - injection E as _ E. apply (IH a s k E). }
  induction s as [|d s IH]; intros k a E.
  - destruct a; [destruct m; [congruence|discriminate]|discriminate].
  - cbn [expandtabs_aux] in E. destruct (cheq_spec d PyStr.tab) as [->|ND].
    + destruct (SP _ _ _ _ E) as (a2 & E2). destruct (IH _ _ E2) as (a' & b' & k' & -> & ->). exists (PyStr.tab :: a'), b', k'. auto.
    + destruct a as [|c a].
      * assert (E3 : expandtabs_aux k (d :: s) = m ++ b).
        { cbn [expandtabs_aux]. destruct (cheq_spec d PyStr.tab) as [X|_]; [contradiction|]. exact E. }
        destruct (expand_prefix m (d :: s) k b E3 N) as (s' & k' & E4 & ->). exists [], s', k'. auto.
      * destruct (cheq d nl || cheq d cr); injection E as _ E; destruct (IH _ _ E) as (a' & b' & k' & -> & ->); exists (d :: a'), b', k'; auto.
Qed.
Lemma line_spaces n s : rest_of_line (spaces n ++ s) = spaces n ++ rest_of_line s.
Proof. induction n as [|n IH]; [reflexivity|]. cbn [spaces app]. rewrite line_cons, IH. reflexivity. Qed.
Lemma expand_line s : forall k c, In c (rest_of_line (expandtabs_aux k s)) -> c = sp \/ In c (rest_of_line s).
Proof.
  induction s as [|d s IH]; intros k c I; [destruct I|]. cbn [expandtabs_aux] in I. destruct (cheq_spec d PyStr.tab) as [->|ND].
  - rewrite line_spaces in I. apply in_app_iff in I. destruct I as [I|I]; [left; apply (spaces_in _ _ I)|]. destruct (IH _ _ I) as [->|J]; [auto|].
    right. rewrite line_cons. right. exact J.
  - destruct (cheq d nl || cheq d cr) eqn:X; rewrite line_cons, X in I; [destruct I|]. rewrite line_cons, X. destruct I as [<-|I]; [right; left; reflexivity|].
    destruct (IH _ _ I) as [->|J]; [auto|right; right; exact J].
Qed.
Lemma one_string_expand s : one_string s -> one_string (expandtabs s).
Proof.
  intros O a b E. destruct (expand_find c_linkage b) with (s := s) (k := 0) (a := a) as (a' & b' & k' & E' & ->); [|discriminate|exact E|].
  - intros I. cbn in I. destruct I as [I|[I|[I|[]]]]; discriminate I.
  - destruct (O a' b' E') as [N1 N2]. split; intros I; apply expand_line in I; (destruct I as [I|I]; [discriminate I|contradiction]).
Qed.

(** ** Headers *)
Lemma noisy_parse base mods pack l tail ds text : good_config base mods -> (forall n, packing_at l n = pack) ->
  noisy_header base mods pack tail ds text ->
  exists r, parse_defs base mods l text = Some (ds ++ r) /\ (tail = [] -> r = []).
Proof.
  intros GC PK (lk & ts & NZ & TO & W & O). unfold parse_defs. destruct (lay_expand nl ts text W TO 0) as (ts' & S1 & L').
  destruct (noisy_same base mods pack GC lk tail ds ts NZ ts' S1) as (tl & T0 & NZ').
  pose proof (noisy_scan base mods (pack_of l (expandtabs text)) pack GC (fun r => PK _) tl lk ds ts' NZ' (nl, expandtabs text)) as SC.
  destruct (SC (conj L' (fun _ => eq_refl)) (fun k => one_string_expand text (O k)) (S (length (expandtabs text)))) as (r & E & R0); [cbn; lia|].
  exists r. split; [exact E|auto].
Qed.
Lemma noisy_defs base mods pack l ds text : good_config base mods -> (forall n, packing_at l n = pack) ->
  noisy_header base mods pack [] ds text -> parse_defs base mods l text = Some ds.
Proof.
  intros GC PK H. destruct (noisy_parse base mods pack l [] ds text GC PK H) as (r & E & R0). rewrite (R0 eq_refl), app_nil_r in E. exact E.
Qed.
(** ** Headers without such things *)
Lemma seq_noisy base mods pack lk tail ds ts : seq_list (sp_top base mods pack) ds ts -> noisy base mods pack lk tail ds (ts ++ tail).
Proof. induction 1 as [|g t l ts H SL IH]; [constructor|]. rewrite <- app_assoc. constructor; assumption. Qed.
Lemma bare_noisy base mods pack ds text : bare_header base mods pack ds text -> header base mods pack ds text.
Proof.
  intros (ts & SL & TO & W). exists False, ts. split; [rewrite <- (app_nil_r ts); apply seq_noisy; exact SL|]. split; [exact TO|]. split; [exact W|intros []].
Qed.
Lemma noise_free ev base mods pack l l' ds text text' s path : good_config base mods ->
  (forall n, packing_at l n = pack) -> (forall n, packing_at l' n = pack) ->
  header base mods pack ds text -> bare_header base mods pack ds text' ->
  parse_file ev base mods l s path text = parse_file ev base mods l' s path text'.
Proof.
  intros GC P1 P2 H1 H2. unfold parse_file.
  rewrite (noisy_defs base mods pack l ds text GC P1 H1), (noisy_defs base mods pack l' ds text' GC P2 (bare_noisy _ _ _ _ _ H2)). reflexivity.
Qed.
(** The declarations alone, with blanks between the tokens. *)
Definition spaced (ts : list str) : str := flat_map (fun t => sp :: t) ts.
Lemma spaced_lay ts : Forall token ts -> forall c, lay c ts (spaced ts).
Proof.
  induction 1 as [|t ts T F IH]; intros c; [constructor; reflexivity|]. destruct (token_head t T) as (d & r & E & _).
  change (spaced (t :: ts)) with ([sp] ++ t ++ spaced ts). apply (lay_tok c [sp] t d r); [reflexivity|exact T|exact E|discriminate|apply IH].
Qed.
Lemma lay_token c ts s : lay c ts s -> Forall token ts.
Proof. induction 1; constructor; assumption. Qed.
Lemma noisy_decls base mods pack lk ds ts : noisy base mods pack lk [] ds ts ->
  exists ts', seq_list (sp_top base mods pack) ds ts' /\ (forall Q : str -> Prop, Forall Q ts -> Forall Q ts').
Proof.
  induction 1 as [|g t ds ts HT NZ (u & S1 & F1)|m ds ts HM NZ (u & S1 & F1)|ds ts LK NZ (u & S1 & F1)|w ds ts PN OP NZ (u & S1 & F1)].
  - exists []. split; [constructor|auto].
  - exists (t ++ u). split; [constructor; assumption|]. intros Q F. apply Forall_app in F. apply Forall_app. split; [apply F|apply F1; apply F].
  - exists u. split; [exact S1|]. intros Q F. inversion F. auto.
  - exists u. split; [exact S1|]. intros Q F. inversion F as [|x y _ F2]. inversion F2. auto.
  - exists u. split; [exact S1|]. intros Q F. inversion F. auto.
Qed.
Lemma noisy_bare base mods pack ds text : header base mods pack ds text -> exists text', bare_header base mods pack ds text'.
Proof.
  intros (lk & ts & NZ & TO & W & _). destruct (noisy_decls base mods pack lk ds ts NZ) as (u & S1 & F). exists (spaced u), u.
  split; [exact S1|]. split; [apply F; exact TO|]. apply spaced_lay. apply F. apply (lay_token _ _ _ W).
Qed.
Lemma noise_removed base mods pack ds text : good_config base mods -> header base mods pack ds text ->
  exists text', bare_header base mods pack ds text'
  /\ forall ev l l' s path, (forall n, packing_at l n = pack) -> (forall n, packing_at l' n = pack) ->
     parse_file ev base mods l s path text = parse_file ev base mods l' s path text'.
Proof.
  intros GC H. destruct (noisy_bare base mods pack ds text H) as (text' & B). exists text'. split; [exact B|].
  intros ev l l' s path P1 P2. apply (noise_free ev base mods pack l l' ds text text' s path GC P1 P2 H B).
Qed.
