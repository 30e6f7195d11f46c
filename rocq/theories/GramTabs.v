(** Tabs: [parse_defs] reads the text with its tabs expanded. *)
From Coq Require Import Ascii String Bool Arith ZArith Lia List.
Import ListNotations.
From Verif Require Import PyBase PyBaseFacts PyStr PyStrFacts MacroModel MacroDefProofs PpModel DeclModel EvalModel
  GramModel GramSpec GramLex GramExpr GramProofs.

(** ** Tokens and function bodies *)
(** Tokens other than function bodies. *)
Definition brace_free (t : str) : Prop := ~ fun_body t.
Lemma body_head t : fun_body t -> exists d r, t = "{"%char :: d :: r.
Proof. intros (b & _ & ->). destruct b as [|c b]; do 2 eexists; reflexivity. Qed.
Lemma word_bf t : word t -> brace_free t.
Proof. intros W B. destruct (body_head t B) as (d & r & ->). destruct W as [W _]. discriminate. Qed.
Lemma in_bf l t : forallb (fun t => match t with c :: _ :: _ => negb (cheq c "{") | _ => true end) l = true -> In t l -> brace_free t.
Proof.
  intros H I B. rewrite forallb_forall in H. specialize (H t I). destruct (body_head t B) as (d & r & ->). discriminate.
Qed.
Lemma num_bf t v : num t v -> brace_free t.
Proof.
  intros (D & u & _ & ->) B. destruct (body_head _ B) as (d & r & E).
  destruct D as [[N D]|(x & h & _ & _ & _ & ->)].
  - destruct v as [|c v]; [congruence|]. injection E as -> _. discriminate.
  - injection E as E _. discriminate.
Qed.
Lemma literal_bf t : literal t -> brace_free t.
Proof. intros (q & b & Q & -> & _) B. destruct (body_head _ B) as (d & r & E). injection E as -> _. discriminate. Qed.

Section Tokens.
  Context (base mods : list str) (pack : option Z) (GC : good_config base mods).
  Notation bf := (Forall brace_free).
  Lemma punct_bf t : In t puncts -> brace_free t.
  Proof. apply in_bf. reflexivity. Qed.
  Ltac p1 := apply Forall_cons; [apply punct_bf; apply mem_str; reflexivity|].
  Ltac cat := apply Forall_app; split.
  Lemma plain_bf n : plain_name base mods n -> brace_free n.
  Proof. intros H. apply word_bf. apply H. Qed.
  Lemma sep_bf {A} (P : A -> list str -> Prop) l t : (forall a t, P a t -> bf t) -> sep_list P l t -> bf t.
  Proof. intros H. induction 1 as [a t HP|a t l ts HP SL IH]; [apply (H a t HP)|]. cat; [apply (H a t HP)|]. p1. exact IH. Qed.
  Lemma seq_bf {A} (P : A -> list str -> Prop) l t : (forall a t, P a t -> bf t) -> seq_list P l t -> bf t.
  Proof. intros H. induction 1 as [|a t l ts HP SL IH]; [constructor|]. cat; [apply (H a t HP)|exact IH]. Qed.
  Lemma expr_bf o ts : sp_expr base mods o ts -> bf ts.
  Proof.
    apply (sp_expr_i base mods (fun o ts _ => bf ts) (fun o ts _ => bf ts) (fun o ts _ => bf ts)).
    - intros n H. constructor; [apply (plain_bf n); apply H|constructor].
    - intros t v H. constructor; [apply (num_bf t v H)|constructor].
    - intros t H. constructor; [apply (literal_bf t H)|constructor].
    - intros o0 ts0 _ IH _. p1. cat; [exact IH|]. p1. constructor.
    - intros n o0 ts0 H _ IH. constructor; [apply (plain_bf n); apply H|]. p1. cat; [exact IH|]. p1. constructor.
    - intros us o0 ts0 H _ IH. cat; [|exact IH]. eapply Forall_impl; [|exact H]. intros u I. apply (in_bf unary u); [reflexivity|exact I].
    - intros o0 ts0 _ IH. exact IH.
    - intros o0 ts0 op o' ts' _ IH I _ IH'. cat; [exact IH|]. constructor; [|exact IH']. apply (in_bf binary op); [reflexivity|exact I].
  Qed.
  Lemma text_bf e ts : sp_text base mods e ts -> bf ts.
  Proof. intros (o & H & _). apply (expr_bf o ts H). Qed.
  Lemma quals_bf q : quals_ok q -> bf q.
  Proof. intros H. eapply Forall_impl; [|exact H]. intros w I. apply (in_bf qualifiers w); [reflexivity|exact I]. Qed.
  Lemma conv_bf c ts : sp_conv c ts -> bf ts.
  Proof.
    destruct c as [w|]; cbn [sp_conv]; [intros ([ -> | -> ] & ->)|intros ->; constructor].
    - constructor; [apply word_bf; split; reflexivity|constructor].
    - constructor; [apply word_bf; split; reflexivity|constructor].
  Qed.
  Lemma star_bf q ts : sp_star q ts -> bf ts.
  Proof. intros (H & ->). p1. apply quals_bf. exact H. Qed.
  Lemma array_bf e ts : sp_array base mods e ts -> bf ts.
  Proof. intros [(_ & ->)|(tx & H & ->)]; p1; [p1; constructor|]. cat; [apply (text_bf e tx H)|]. p1. constructor. Qed.
  Lemma default_bf v ts : sp_default base mods v ts -> bf ts.
  Proof. destruct v as [e|]; cbn [sp_default]; [intros (tx & H & ->); p1; apply (text_bf e tx H)|intros ->; constructor]. Qed.
  Lemma ref_bf r ts : sp_ref r ts -> bf ts.
  Proof. intros ->. destruct r; [p1|]; constructor. Qed.
  Lemma init_bf i ts : sp_init base mods i ts -> bf ts.
  Proof.
    destruct i as [|e|l]; cbn [sp_init]; [intros ->; constructor|intros (tx & H & ->); p1; apply (text_bf e tx H)|].
    intros (tx & H & ->). p1. p1. cat; [|p1; constructor]. apply (sep_bf _ l tx text_bf H).
  Qed.
  Lemma tag_bf n ts : sp_tag base mods n ts -> bf ts.
  Proof. destruct n as [w|]; cbn [sp_tag]; [intros (H & ->); constructor; [apply plain_bf; exact H|constructor]|intros ->; constructor]. Qed.
  Lemma enumerator_bf x ts : sp_enumerator base mods x ts -> bf ts.
  Proof. intros (H & td & D & ->). constructor; [apply plain_bf; exact H|apply (default_bf _ _ D)]. Qed.
  Lemma abstract_bf d ts : sp_abstract base mods d ts -> bf ts.
  Proof.
    intros [fq ps r ar tp tr ta H1 H2 H3 H4]. cat; [apply quals_bf; exact H1|]. cat; [apply (seq_bf _ _ _ star_bf H2)|].
    cat; [apply (ref_bf r tr H3)|apply (seq_bf _ _ _ array_bf H4)].
  Qed.
  Lemma comp_bf c : brace_free (comp_kw c).
  Proof. destruct c; apply word_bf; split; reflexivity. Qed.
  Lemma fund_bf l : Forall (fun w => In w (modifiers ++ base)) l -> bf l.
  Proof.
    apply Forall_impl. intros w I. apply word_bf. apply in_app_iff in I. destruct I as [I|I].
    - apply (proj1 (Forall_forall word modifiers)); [|exact I]. repeat constructor; split; reflexivity.
    - apply (proj1 (Forall_forall word base) (proj1 GC) w I).
  Qed.
  Lemma group_bf a : group a -> bf a.
  Proof.
    induction 1 as [|t ts N1 N2 NB G IH|a ts G1 IH1 G2 IH2]; [constructor|constructor; [exact NB|exact IH]|].
    p1. cat; [exact IH1|]. p1. exact IH2.
  Qed.
  Lemma extra_bf tm : sp_extra mods tm -> bf tm.
  Proof.
    assert (K : forall w, In w mods -> brace_free w).
    { intros w I. apply word_bf. destruct GC as (_ & WM & _). apply (proj1 (Forall_forall _ _) WM w I). }
    induction 1 as [|w ts I H IH|w a ts I G H IH]; [constructor|constructor; [apply K; exact I|exact IH]|].
    constructor; [apply K; exact I|]. p1. cat; [apply group_bf; exact G|]. p1. exact IH.
  Qed.
  Lemma sep_in {A} (P : A -> list str -> Prop) l t n : sep_list P l t -> length t < n ->
    sep_list (fun a t => P a t /\ length t < n) l t.
  Proof.
    intros SL. revert n. induction SL as [a t HP|a t l ts HP SL IH]; intros n L; [constructor; auto|].
    rewrite app_length in L. cbn [length] in L. constructor; [split; [exact HP|lia]|apply IH; lia].
  Qed.
  Lemma seq_in {A} (P : A -> list str -> Prop) l t n : seq_list P l t -> length t < n ->
    seq_list (fun a t => P a t /\ length t < n) l t.
  Proof.
    intros SL. revert n. induction SL as [|a t l ts HP SL IH]; intros n L; [constructor|].
    rewrite app_length in L. constructor; [split; [exact HP|lia]|apply IH; lia].
  Qed.
  Ltac shorter := repeat (match goal with H : _ < _ |- _ => rewrite app_length in H | H : _ < _ |- _ => progress cbn [length] in H end); lia.
  Lemma decl_spec_bf n : (forall d t, sp_decl base mods pack d t -> length t < n -> bf t)
    /\ (forall s t, sp_spec base mods pack s t -> length t < n -> bf t).
  Proof.
    induction n as [|n [ID IS]]; [split; intros; lia|].
    assert (DS : forall ds t, sp_decls base mods pack ds t -> length t < n -> bf t).
    { intros ds t H L. destruct H as [|l tl H]; [constructor|]. apply (sep_in _ _ _ n) in H; [|exact L].
      eapply sep_bf; [|exact H]. intros d t1 (HD & L1). apply (ID d t1 HD L1). }
    assert (HS : forall s t, sp_spec base mods pack s t -> length t < S n -> bf t).
    { intros s t [q g tn tm Q T EX] L. cat; [apply quals_bf; exact Q|]. cat; [|apply extra_bf; exact EX].
      destruct T as [l NL F|m PN|c m PN|c m l tg tl TG NL SL|m PN|m l tg tl tc TG SL TC].
      - apply fund_bf. exact F.
      - constructor; [apply plain_bf; exact PN|constructor].
      - constructor; [apply comp_bf|]. constructor; [apply plain_bf; exact PN|constructor].
      - constructor; [apply comp_bf|]. cat; [apply (tag_bf m tg TG)|]. p1. cat; [|p1; constructor].
        apply (seq_in _ _ _ n) in SL; [|shorter]. eapply seq_bf; [|exact SL]. intros x t1 (HL & Lt).
        destruct HL as [s1 ds i ts td ti H1 H2 AP H3|s1 ds b ts td tb H1 H2 AP H3].
        + cat; [apply (IS s1 ts H1); shorter|]. cat; [apply (DS ds td H2); shorter|]. cat; [apply (init_bf i ti H3)|p1; constructor].
        + cat; [apply (IS s1 ts H1); shorter|]. cat; [apply (DS ds td H2); shorter|]. p1. constructor; [apply (num_bf tb b H3)|p1; constructor].
      - constructor; [apply word_bf; split; reflexivity|]. constructor; [apply plain_bf; exact PN|constructor].
      - constructor; [apply word_bf; split; reflexivity|]. cat; [apply (tag_bf m tg TG)|]. p1. cat; [apply (sep_bf _ _ _ enumerator_bf SL)|].
        cat; [|p1; constructor]. destruct TC as [ -> | -> ]; [constructor|p1; constructor]. }
    assert (HA : forall a t, sp_args base mods pack a t -> length t < S n -> bf t).
    { intros a t H L. destruct H as [| |l tl SL]; [constructor|p1; p1; constructor|]. p1. cat; [|p1; constructor].
      apply (sep_in _ _ _ n) in SL; [|shorter]. eapply sep_bf; [|exact SL]. intros x t1 (HL & Lt).
      destruct HL as [s1 d1 v ts td tv H1 H2 AP H3|s1 d1 v ts td tv H1 H2 H3].
      - cat; [apply (IS s1 ts H1); shorter|]. cat; [apply (ID d1 td H2); shorter|apply (default_bf v tv H3)].
      - cat; [apply (IS s1 ts H1); shorter|]. cat; [apply (abstract_bf d1 td H2)|apply (default_bf v tv H3)]. }
    split; [|exact HS]. intros d t [fq cc ps c a ar tc tp tn ta tr H1 H2 H3 H4 H5 H6] L.
    cat; [apply quals_bf; exact H1|]. cat; [apply (conv_bf cc tc H2)|]. cat; [apply (seq_bf _ _ _ star_bf H3)|].
    cat.
    { destruct H4 as [r m ts R PN|d1 td HD].
      - cat; [apply (ref_bf r ts R)|]. constructor; [apply plain_bf; exact PN|constructor].
      - p1. cat; [|p1; constructor]. apply (ID d1 td HD). shorter. }
    cat; [apply (HA a ta H5); shorter|apply (seq_bf _ _ _ array_bf H6)].
  Qed.
  Lemma decl_bf d t : sp_decl base mods pack d t -> bf t.
  Proof. intros H. apply (proj1 (decl_spec_bf (S (length t))) d t H). lia. Qed.
  Lemma spec_bf s t : sp_spec base mods pack s t -> bf t.
  Proof. intros H. apply (proj2 (decl_spec_bf (S (length t))) s t H). lia. Qed.
  Lemma storage_bf ts : sp_storage ts -> bf ts.
  Proof. intros [->|(w & I & ->)]; [constructor|]. constructor; [apply (in_bf storage_classes w); [reflexivity|exact I]|constructor]. Qed.

  (** *** Other texts of the function bodies *)
  Definition same_tok (t t' : str) : Prop := t = t' \/ (fun_body t /\ fun_body t').
  Lemma same_bf ts ts' : Forall2 same_tok ts ts' -> bf ts -> ts' = ts.
  Proof.
    induction 1 as [|t t' ts ts' H _ IH]; [reflexivity|]. intros F. inversion F as [|x y B F']; subst. rewrite (IH F').
    destruct H as [->|[H _]]; [reflexivity|contradiction].
  Qed.
  Lemma top_same g t t' : sp_top base mods pack g t -> Forall2 same_tok t t' -> sp_top base mods pack g t'.
  Proof.
    intros H F. assert (H' := H). destruct H' as [s ds tt td H1 H2 AP|s ds i ts tt td ti H0 H1 H2 AP H3|s d ts tt td b H0 H1 H2 AP H3].
    - rewrite (same_bf _ _ F); [exact H|]. constructor; [apply word_bf; split; reflexivity|]. cat; [apply (spec_bf s tt H1)|].
      cat; [apply (sep_bf _ ds td decl_bf H2)|p1; constructor].
    - rewrite (same_bf _ _ F); [exact H|]. cat; [apply storage_bf; exact H0|]. cat; [apply (spec_bf s tt H1)|].
      cat; [|cat; [apply (init_bf i ti H3)|p1; constructor]]. destruct H2 as [|l tl SL]; [constructor|apply (sep_bf _ l tl decl_bf SL)].
    - rewrite !app_assoc in F. apply Forall2_app_inv_l in F. destruct F as (u & v & F1 & F2 & ->).
      apply same_bf in F1.
      + inversion F2 as [|x y z w S1 S2 E1]; subst. inversion S2; subst. rewrite <- !app_assoc. constructor; try assumption.
        destruct S1 as [<-|[_ S1]]; assumption.
      + cat; [cat|]; [apply storage_bf; exact H0|apply (spec_bf s tt H1)|apply (decl_bf d td H2)].
  Qed.
  Lemma tops_same l t : seq_list (sp_top base mods pack) l t -> forall t', Forall2 same_tok t t' -> seq_list (sp_top base mods pack) l t'.
  Proof.
    induction 1 as [|a t l ts HP SL IH]; intros t' F.
    - inversion F; subst. constructor.
    - apply Forall2_app_inv_l in F. destruct F as (u & v & F1 & F2 & ->). constructor; [apply (top_same a t u HP F1)|apply IH; exact F2].
  Qed.
End Tokens.

(** ** Expanding tabs *)
Lemma expand_app a : forall s k, exists k', expandtabs_aux k (a ++ s) = expandtabs_aux k a ++ expandtabs_aux k' s.
Proof.
  induction a as [|c a IH]; intros s k; [exists k; reflexivity|]. cbn [app expandtabs_aux]. destruct (cheq c PyStr.tab).
  - destruct (IH s 0) as (k' & E). exists k'. rewrite E, app_assoc. reflexivity.
  - destruct (cheq c nl || cheq c cr).
    + destruct (IH s 0) as (k' & E). exists k'. rewrite E. reflexivity.
    + destruct (IH s (S k)) as (k' & E). exists k'. rewrite E. reflexivity.
Qed.
Lemma spaces_cons k : exists r, spaces (8 - k mod 8) = sp :: r /\ forall c, In c r -> c = sp.
Proof.
  assert (L : k mod 8 < 8) by (apply Nat.mod_upper_bound; discriminate). destruct (8 - k mod 8) as [|m] eqn:E; [lia|].
  exists (spaces m). split; [reflexivity|]. clear. induction m as [|m IH]; intros c []; auto.
Qed.
Lemma spaces_in m c : In c (spaces m) -> c = sp.
Proof. induction m as [|m IH]; intros []; auto. Qed.
(** The characters of the expanded text are blanks and those of the text, without the tabs. *)
Lemma expand_in s : forall k c, In c (expandtabs_aux k s) -> c = sp \/ (In c s /\ c <> PyStr.tab).
Proof.
  induction s as [|d s IH]; intros k c I; [destruct I|]. cbn [expandtabs_aux] in I. destruct (cheq_spec d PyStr.tab) as [->|N].
  - apply in_app_iff in I. destruct I as [I|I]; [left; apply (spaces_in _ c I)|]. destruct (IH _ _ I) as [H|[H H']]; [left; exact H|right; split; [right; exact H|exact H']].
  - destruct (cheq d nl || cheq d cr); (destruct I as [<-|I]; [right; split; [left; reflexivity|exact N]|]);
      (destruct (IH _ _ I) as [H|[H H']]; [left; exact H|right; split; [right; exact H|exact H']]).
Qed.
Lemma expand_ws b k : forallb is_ws b = true -> forallb is_ws (expandtabs_aux k b) = true.
Proof.
  intros H. apply forallb_forall. intros c I. rewrite forallb_forall in H. destruct (expand_in b k c I) as [->|[J _]]; [reflexivity|auto].
Qed.
Lemma expand_nonempty b k : expandtabs_aux k b = [] -> b = [].
Proof.
  destruct b as [|c b]; [reflexivity|]. cbn [expandtabs_aux]. destruct (cheq c PyStr.tab).
  - destruct (spaces_cons k) as (r & -> & _). discriminate.
  - destruct (_ || _); discriminate.
Qed.
Lemma expand_char c s k : c <> PyStr.tab -> exists k', expandtabs_aux k (c :: s) = c :: expandtabs_aux k' s.
Proof. intros N. cbn [expandtabs_aux]. destruct (cheq_spec c PyStr.tab) as [E|_]; [contradiction|]. destruct (_ || _); eauto. Qed.
Lemma expand_literal t k : literal t -> literal (expandtabs_aux k t).
Proof.
  intros (q & b & Q & -> & H). assert (NT : q <> PyStr.tab) by (intros ->; discriminate).
  destruct (expand_char q (b ++ [q]) k NT) as (k1 & ->). destruct (expand_app b [q] k1) as (k2 & ->).
  destruct (expand_char q [] k2 NT) as (k3 & ->). exists q, (expandtabs_aux k1 b). split; [exact Q|]. split; [reflexivity|].
  intros c I. destruct (expand_in b k1 c I) as [->|[J _]]; [|apply H; exact J].
  split; [intros <-; discriminate|]. repeat split; discriminate.
Qed.
Lemma expand_head s k c r : expandtabs_aux k s = c :: r -> is_quote c = true -> exists x, s = c :: x.
Proof.
  destruct s as [|d s]; [discriminate|]. cbn [expandtabs_aux]. destruct (cheq d PyStr.tab).
  - destruct (spaces_cons k) as (x & -> & _). intros E. injection E as <- _. discriminate.
  - destruct (_ || _); intros E _; injection E as <- _; eauto.
Qed.
Lemma balanced_spaces m s : balanced s -> balanced (spaces m ++ s).
Proof. intros B. induction m as [|m IH]; [exact B|]. cbn [spaces app]. apply bal_char; [reflexivity|discriminate|discriminate|exact IH]. Qed.
Lemma expand_balanced s : balanced s -> forall k, balanced (expandtabs_aux k s).
Proof.
  induction 1 as [|c s Q B1 B2 B IH|q s L B IH H|a s Ba IHa Bs IHs]; intros k.
  - constructor.
  - cbn [expandtabs_aux]. destruct (cheq c PyStr.tab); [apply balanced_spaces; apply IH|]. destruct (_ || _); apply bal_char; auto.
  - destruct (expand_app q s k) as (k' & ->). apply bal_literal; [apply expand_literal; exact L|apply IH|].
    intros c r E. destruct (is_quote c) eqn:Q; [|reflexivity]. destruct (expand_head s k' c r E Q) as (x & ->). rewrite (H c x eq_refl) in Q. discriminate Q.
  - destruct (expand_char "{" (a ++ "}"%char :: s) k) as (k1 & ->); [discriminate|]. destruct (expand_app a ("}"%char :: s) k1) as (k2 & ->).
    destruct (expand_char "}" s k2) as (k3 & ->); [discriminate|]. apply bal_braces; auto.
Qed.
Lemma expand_body t k : fun_body t -> fun_body (expandtabs_aux k t).
Proof.
  intros (b & B & ->). destruct (expand_char "{" (b ++ $"}") k) as (k1 & ->); [discriminate|]. destruct (expand_app b $"}" k1) as (k2 & ->).
  exists (expandtabs_aux k1 b). split; [apply expand_balanced; exact B|]. reflexivity.
Qed.
Lemma body_token t : fun_body t -> token t.
Proof. intros H. right. right. right. right. exact H. Qed.
Lemma body_last t c : fun_body t -> last t c = "}"%char.
Proof. intros (b & _ & ->). change ("{"%char :: b ++ $"}") with (("{"%char :: b) ++ ["}"%char]). apply last_last. Qed.
Lemma lay_expand c ts s : lay c ts s -> tabs_outside ts -> forall k, exists ts', Forall2 same_tok ts ts' /\ lay c ts' (expandtabs_aux k s).
Proof.
  induction 1 as [c b W|c b t d r ts s W T E G L IH]; intros F k.
  - exists []. split; [constructor|]. constructor. apply expand_ws. exact W.
  - inversion F as [|x y FT F']; subst. destruct (expand_app b ((d :: r) ++ s) k) as (k1 & ->). destruct (expand_app (d :: r) s k1) as (k2 & ->).
    destruct (IH F' k2) as (ts' & S1 & L'). assert (G' : expandtabs_aux k b = [] -> glue c d = false).
    { intros E. apply G. apply (expand_nonempty b k E). }
    destruct FT as [NT|BT].
    + rewrite (expandtabs_aux_id _ NT). exists ((d :: r) :: ts'). split; [constructor; [left; reflexivity|exact S1]|].
      apply (lay_tok c _ (d :: r) d r); [apply expand_ws; exact W|exact T|reflexivity|exact G'|exact L'].
    + pose proof (expand_body _ k1 BT) as B'. exists (expandtabs_aux k1 (d :: r) :: ts'). split; [constructor; [right; auto|exact S1]|].
      destruct (body_head _ B') as (x & y & E). destruct (body_head _ BT) as (x' & y' & E').
      injection E' as -> _. apply (lay_tok c _ _ "{"%char (x :: y)); [apply expand_ws; exact W|apply body_token; exact B'|exact E|exact G'|].
      rewrite (body_last _ c B'). rewrite (body_last _ c BT) in L'. exact L'.
Qed.

(** ** Reading headers *)
Theorem parse_written base mods pack l ds ts text :
  good_config base mods -> (forall n, packing_at l n = pack) ->
  seq_list (sp_top base mods pack) ds ts -> tabs_outside ts -> written ts text ->
  parse_defs base mods l text = Some ds.
Proof.
  intros GC PK SL TO W. unfold parse_defs. destruct (lay_expand nl ts text W TO 0) as (ts' & S1 & L').
  apply (scan_written base mods _ pack GC) with (ts := ts').
  - intros r. apply PK.
  - apply (tops_same base mods pack GC ds ts SL ts' S1).
  - exact L'.
Qed.
