(** Proofs about the text that was not parsed. *)
From Coq Require Import Ascii String Bool Arith ZArith Lia List.
Import ListNotations.
From Verif Require Import PyBase PyBaseFacts PyStr PyStrFacts PyExpr TypeModel StoreModel MacroModel MacroDefProofs PpModel DeclModel EvalModel
  GramModel FileModel GramSpec GramLex GramExpr GramProofs GramPack GramTotal GramTabs NoiseSpec NoiseProofs UnparsedModel UnparsedSpec.

(** ** Blank lines *)
Lemma nl_space : is_space nl = true.
Proof. reflexivity. Qed.
Lemma ws_space c : is_ws c = true -> is_space c = true.
Proof.
  unfold is_ws. intros H. rewrite !orb_true_iff, !cheq_true in H. destruct H as [[[H|H]|H]|H]; rewrite H; reflexivity.
Qed.
Lemma blank_some s : forall r, blank_lines s = Some r -> exists a, s = a ++ nl :: r /\ forallb is_space a = true /\ blank_lines r = None.
Proof.
  induction s as [|c s IH]; intros r E; [discriminate|]. cbn [blank_lines] in E. destruct (is_space c) eqn:C; [|discriminate].
  destruct (blank_lines s) as [r'|] eqn:B.
  - injection E as <-. destruct (IH r' eq_refl) as (a & -> & F & N). exists (c :: a). split; [reflexivity|]. split; [|exact N]. cbn [forallb]. rewrite C. exact F.
  - destruct (cheq_spec c nl) as [->|NC]; [|discriminate]. injection E as <-. exists []. auto.
Qed.
Lemma blank_app b c : forallb is_space b = true -> blank_lines (b ++ nl :: c) <> None.
Proof.
  induction b as [|d b IH]; intros F.
  - cbn [app blank_lines]. rewrite nl_space. destruct (blank_lines c); [discriminate|]. rewrite cheq_refl. discriminate.
  - cbn [forallb] in F. apply andb_true_iff in F. destruct F as [D F]. cbn [app blank_lines]. rewrite D.
    specialize (IH F). destruct (blank_lines (b ++ nl :: c)); congruence.
Qed.
Lemma blank_keep f : forall s, blank_lines s = None -> blank_lines (sub_blank f s) = None.
Proof.
  induction f as [|f IH]; intros s E; [exact E|]. destruct s as [|c r]; [reflexivity|]. cbn [blank_lines] in E. cbn [sub_blank].
  destruct (is_space c) eqn:C.
  - destruct (blank_lines r) eqn:B; [discriminate|]. destruct (cheq_spec c nl) as [->|NC]; [discriminate|].
    cbn [blank_lines]. rewrite C, (IH r B). destruct (cheq_spec c nl); [contradiction|reflexivity].
  - destruct (cheq_spec c nl) as [->|NC]; [discriminate|]. cbn [blank_lines]. rewrite C. reflexivity.
Qed.
Lemma sub_no_blank f : forall s, length s <= f -> forall a r, sub_blank f s = a ++ nl :: r -> blank_lines r = None.
Proof.
  induction f as [|f IH]; intros s L a r E.
  - destruct s; [|cbn in L; lia]. destruct a; discriminate.
  - destruct s as [|c s]; [destruct a; discriminate|]. cbn [length] in L. cbn [sub_blank] in E. destruct (cheq_spec c nl) as [->|NC].
    + destruct (blank_lines s) as [r'|] eqn:B.
      * destruct (blank_some s r' B) as (x & EQ & _ & N). assert (L' : length r' <= f).
        { rewrite EQ, app_length in L. cbn [length] in L. lia. }
        destruct a as [|d a]; injection E as E.
        -- subst r. apply blank_keep. exact N.
        -- apply (IH r' L' a r). assumption.
      * destruct a as [|d a]; injection E as E.
        -- subst r. apply blank_keep. exact B.
        -- apply (IH s ltac:(lia) a r). assumption.
    + destruct a as [|d a]; injection E as E; [contradiction|]. apply (IH s ltac:(lia) a r). assumption.
Qed.
Lemma no_blank s : ~ blank_line (sub_blank (length s) s).
Proof.
  intros (a & b & c & E & F). pose proof (sub_no_blank _ s (Nat.le_refl _) a _ E) as N. exact (blank_app b c F N).
Qed.
Notation ink_of := (filter (fun c => negb (is_space c))).
Lemma ink_spaces a : forallb is_space a = true -> ink_of a = [].
Proof.
  induction a as [|c a IH]; intros F; [reflexivity|]. cbn [forallb] in F. apply andb_true_iff in F. destruct F as [C F]. cbn [filter]. rewrite C. apply IH. exact F.
Qed.
Lemma sub_ink f : forall s, ink_of (sub_blank f s) = ink_of s.
Proof.
  induction f as [|f IH]; intros s; [reflexivity|]. destruct s as [|c s]; [reflexivity|]. cbn [sub_blank].
  destruct (cheq_spec c nl) as [->|NC].
  - destruct (blank_lines s) as [r|] eqn:B.
    + destruct (blank_some s r B) as (x & -> & F & _). cbn [filter]. rewrite nl_space. cbn [negb]. rewrite IH, filter_app, (ink_spaces x F).
      cbn [filter app]. rewrite nl_space. reflexivity.
    + cbn [filter]. rewrite nl_space. apply IH.
  - cbn [filter]. rewrite IH. reflexivity.
Qed.

(** The layout is kept. *)
Lemma blank_ws b x : forallb is_ws b = true -> match x with c :: _ => is_space c = false | [] => True end ->
  blank_lines (b ++ x) = option_map (fun r => r ++ x) (blank_lines b).
Proof.
  intros F X. induction b as [|c b IH].
  - destruct x as [|c x]; [reflexivity|]. cbn [app blank_lines]. rewrite X. reflexivity.
  - cbn [forallb] in F. apply andb_true_iff in F. destruct F as [C F]. cbn [app blank_lines]. rewrite (ws_space c C), (IH F).
    destruct (blank_lines b); cbn [option_map]; [reflexivity|]. destruct (cheq c nl); reflexivity.
Qed.
Lemma sub_ws f : forall b x, forallb is_ws b = true -> match x with c :: _ => is_space c = false | [] => True end -> length (b ++ x) <= f ->
  exists b' f', sub_blank f (b ++ x) = b' ++ sub_blank f' x /\ forallb is_ws b' = true /\ (b' = [] -> b = []) /\ length x <= f'.
Proof.
  induction f as [|f IH]; intros b x F X L.
  - destruct b; [|cbn in L; lia]. exists [], 0. cbn [app] in *. auto.
  - destruct b as [|c b]; [exists [], (S f); auto|]. cbn [app length] in L. cbn [forallb] in F. apply andb_true_iff in F. destruct F as [C F].
    cbn [app sub_blank]. destruct (cheq_spec c nl) as [->|NC].
    + rewrite (blank_ws b x F X). destruct (blank_lines b) as [r|] eqn:B; cbn [option_map].
      * destruct (blank_some b r B) as (y & -> & _ & _). rewrite forallb_app in F. apply andb_true_iff in F. destruct F as [_ F].
        cbn [forallb] in F. apply andb_true_iff in F. destruct F as [_ F].
        assert (L2 : length (r ++ x) <= f).
        { rewrite !app_length in L. cbn [length] in L. rewrite app_length. lia. }
        destruct (IH r x F X L2) as (b' & f' & -> & F' & _ & L'). exists (nl :: b'), f'.
        split; [reflexivity|]. split; [cbn [forallb]; rewrite C; exact F'|]. split; [discriminate|exact L'].
      * destruct (IH b x F X ltac:(lia)) as (b' & f' & -> & F' & _ & L'). exists (nl :: b'), f'.
        split; [reflexivity|]. split; [cbn [forallb]; rewrite C; exact F'|]. split; [discriminate|exact L'].
    + destruct (IH b x F X ltac:(lia)) as (b' & f' & -> & F' & _ & L'). exists (c :: b'), f'.
      split; [reflexivity|]. split; [cbn [forallb]; rewrite C; exact F'|]. split; [discriminate|exact L'].
Qed.
Lemma sub_tok t : forall f s, ~ In nl t -> length (t ++ s) <= f -> exists f', sub_blank f (t ++ s) = t ++ sub_blank f' s /\ length s <= f'.
Proof.
  induction t as [|c t IH]; intros f s N L; [exists f; auto|]. destruct f as [|f]; [cbn in L; lia|]. cbn [app length] in L. cbn [app sub_blank].
  destruct (cheq_spec c nl) as [->|NC]; [exfalso; apply N; left; reflexivity|].
  destruct (IH f s) as (f' & -> & L'); [intros I; apply N; right; exact I|lia|]. exists f'. auto.
Qed.
(** Tokens that no line break is in, and that do not begin with white space of any kind. *)
Definition solid (t : str) : Prop := ~ In nl t /\ match t with c :: _ => is_space c = false | [] => False end.
Lemma sub_lay c ts s : lay c ts s -> Forall solid ts -> forall f, length s <= f -> lay c ts (sub_blank f s).
Proof.
  induction 1 as [c b W|c b t d r ts s W T E G L IH]; intros F f LE.
  - rewrite <- (app_nil_r b) in LE |- *. destruct (sub_ws f b [] W Logic.I LE) as (b' & f' & -> & W' & _). constructor.
    destruct f'; cbn [sub_blank]; rewrite app_nil_r; exact W'.
  - inversion F as [|x y [N1 N2] F']; subst. destruct (sub_ws f b ((d :: r) ++ s) W N2 LE) as (b' & f' & -> & W' & NE & L').
    destruct (sub_tok (d :: r) f' s N1 L') as (f2 & -> & L2). apply (lay_tok c b' (d :: r) d r); [exact W'|exact T|reflexivity| |].
    + intros Z. apply G. apply NE. exact Z.
    + apply (IH F' f2 L2).
Qed.

(** ** Matches *)
Lemma between_app a b : between (a ++ b) b = a.
Proof. unfold between. rewrite app_length. replace (length a + length b - length b) with (length a) by lia. rewrite firstn_app, Nat.sub_diag, firstn_O, app_nil_r. apply firstn_all. Qed.

Section Spans.
  Context (base mods : list str) (pk : str -> option Z).
  Notation spans := (spans_n base mods pk).
  Lemma spans_scan f : forall p, option_map (map fst) (spans f p) = scan_n base mods pk f p.
  Proof.
    induction f as [|f IH]; intros p; [reflexivity|]. cbn [spans_n scan_n]. destruct (top_at base mods pk (skip p)) as [t q| |]; [| |reflexivity].
    - rewrite <- IH. destruct (spans f q); reflexivity.
    - destruct (snd (skip p)) as [|c r]; [reflexivity|apply IH].
  Qed.
  Definition starts (s : str) (m : list (gtop * (str * str))) : Prop :=
    match m with [] => True | (_, (b, _)) :: _ => ends_text s b end.
  Lemma spans_starts f : forall p m, spans f p = Some m -> starts (snd p) m.
  Proof.
    induction f as [|f IH]; intros p m E; [discriminate|]. cbn [spans_n] in E. pose proof (et_skip p) as SK.
    destruct (top_at base mods pk (skip p)) as [t q| |]; [| |discriminate].
    - destruct (spans f q) as [l|]; [|discriminate]. injection E as <-. exact SK.
    - destruct (snd (skip p)) as [|c r]; [injection E as <-; exact Logic.I|]. specialize (IH (c, r) m E).
      destruct m as [|[g [b e]] m]; [exact Logic.I|]. cbn [starts snd] in *. apply (et_trans _ _ _ SK). apply (et_trans _ r); [exists [c]; reflexivity|exact IH].
  Qed.
  Lemma around_app x s m : starts s m -> around (x ++ s) m = x ++ around s m.
  Proof.
    intros H. destruct m as [|[g [b e]] m]; [reflexivity|]. cbn [starts] in H. destruct H as (a & ->). cbn [around].
    rewrite (app_assoc x a b), !between_app, <- app_assoc. reflexivity.
  Qed.
  Lemma skip_ws p : exists b, snd p = b ++ snd (skip p) /\ forallb is_ws b = true.
  Proof.
    destruct p as [c s]. unfold skip. cbn [fst snd]. revert c. induction s as [|d s IH]; intros c; [exists []; auto|]. cbn [skip_from].
    destruct (is_ppws d) eqn:D; [|exists []; auto]. destruct (IH d) as (b & E & F). exists (d :: b). cbn [app forallb]. rewrite <- E, F, is_ws_pp, D. auto.
  Qed.

  Lemma spans_pieces (NB : ~ In [] base) (NM : ~ In [] mods) f : forall p m, spans f p = Some m ->
    exists l last, snd p = whole l last /\ around (snd p) m = kept l last /\ length l = length m
      /\ Forall (fun x => exists c r, snd x = c :: r /\ is_ws c = false) l.
  Proof.
    induction f as [|f IH]; intros p m E; [discriminate|]. cbn [spans_n] in E. destruct (skip_ws p) as (b & EB & _).
    pose proof (same_top_at pk pk base mods (skip p)) as IN. pose proof (ends_top base mods pk NB NM (skip p)) as EN.
    destruct (top_at base mods pk (skip p)) as [t q| |]; [| |discriminate].
    - destruct (spans f q) as [m'|] eqn:M; [|discriminate]. injection E as <-. destruct (IH q m' M) as (l & last & E1 & E2 & E3 & E4).
      destruct IN as (_ & (x & EX) & _). unfold GramTotal.ends in EN. exists ((b, x) :: l), last. unfold whole, kept. cbn [flat_map fst snd around length].
      rewrite E3. split; [|split; [|split]].
      + rewrite EB, EX, E1. unfold whole. rewrite <- !app_assoc. reflexivity.
      + rewrite EB at 1. rewrite between_app, E2. unfold kept. rewrite <- app_assoc. reflexivity.
      + reflexivity.
      + constructor; [|exact E4]. cbn [snd]. destruct x as [|c x]; [exfalso; apply (f_equal (@length _)) in EX; cbn [app] in EX; lia|]. exists c, x. split; [reflexivity|].
        assert (SI : skip (skip p) = skip p) by apply skip_idem. destruct (is_ws c) eqn:C; [exfalso|reflexivity].
        rewrite is_ws_pp in C. pose proof (f_equal snd SI) as SN. rewrite skip_snd, EX in SN. cbn [app drop_while] in SN. rewrite C in SN.
        destruct (drop_while_suffix is_ppws (x ++ snd q)) as (y & EY & _). rewrite SN in EY. apply (f_equal (@length _)) in EY. rewrite (app_length y) in EY. cbn [length] in EY. lia.
    - destruct (snd (skip p)) as [|c r] eqn:SK.
      + injection E as <-. exists [], (snd p). repeat split. constructor.
      + pose proof (spans_starts f _ _ E) as ST. destruct (IH (c, r) m E) as (l & last & E1 & E2 & E3 & E4). cbn [snd] in *.
        assert (EB' : snd p = (b ++ [c]) ++ r) by (rewrite EB, <- app_assoc; reflexivity). rewrite EB', (around_app _ _ _ ST), E2.
        destruct l as [|[k x] l].
        * exists [], ((b ++ [c]) ++ last). unfold whole, kept in *. cbn [flat_map app] in *. rewrite E1. repeat split; [exact E3|constructor].
        * exists (((b ++ [c]) ++ k, x) :: l), last. unfold whole, kept in *. cbn [flat_map fst snd] in *. split; [|split; [|split]].
          -- rewrite E1. rewrite <- !app_assoc. reflexivity.
          -- rewrite <- !app_assoc. reflexivity.
          -- exact E3.
          -- inversion E4; subst. constructor; assumption.
  Qed.
End Spans.

(** ** Headers with other things in them *)
Section Leaves.
  Context (base mods : list str) (pk : str -> option Z) (pack : option Z)
    (GC : good_config base mods) (PK : forall r, pk r = pack).
  Notation spans := (spans_n base mods pk).
  Definition leaves (p : pos) (ds : list gtop) (K : str -> Prop) : Prop :=
    forall f, length (snd p) < f -> exists m, spans f p = Some m /\ map fst m = ds /\ K (around (snd p) m).
  Lemma leaves_imp p ds (K K' : str -> Prop) : (forall k, K k -> K' k) -> leaves p ds K -> leaves p ds K'.
  Proof. intros H L f LT. destruct (L f LT) as (m & E1 & E2 & E3). exists m. auto. Qed.
  Lemma leaves_step p c d r ds (K K' : str -> Prop) : skip p = (c, d :: r) -> top_at base mods pk (skip p) = PNo -> leaves (d, r) ds K' ->
    (forall b k, snd p = b ++ d :: r -> forallb is_ws b = true -> K' k -> K (b ++ d :: k)) -> leaves p ds K.
  Proof.
    intros E T H HK f L. destruct f as [|f]; [lia|]. pose proof (skip_length p) as SL. destruct (skip_ws p) as (b & EB & WB). rewrite E in SL, EB. cbn [snd length] in SL, EB.
    destruct (H f) as (m & E1 & E2 & E3); [cbn [snd]; lia|]. exists m. cbn [spans_n]. rewrite T, E. cbn [snd]. split; [exact E1|]. split; [exact E2|].
    rewrite EB. replace (b ++ d :: r) with ((b ++ [d]) ++ r) by (rewrite <- app_assoc; reflexivity).
    pose proof (spans_starts base mods pk f _ _ E1) as ST. cbn [snd] in ST, E3. rewrite (around_app _ _ _ ST), <- app_assoc. apply (HK b _ EB WB E3).
  Qed.
  Lemma leaves_word ds s w : forall c (K' : str -> Prop), forallb is_idchar (c :: w) = true -> leaves (last w c, s) ds K' ->
    leaves (c, w ++ s) ds (fun x => exists k, x = w ++ k /\ K' k).
  Proof.
    induction w as [|d w IH]; intros c K' F H; [eapply leaves_imp; [|exact H]; intros k HK; exists k; auto|]. cbn [forallb] in F. apply andb_true_iff in F. destruct F as [C F].
    assert (D : is_idchar d = true) by (apply andb_true_iff in F; apply F).
    assert (E : skip (c, (d :: w) ++ s) = (c, d :: w ++ s)).
    { unfold skip. cbn [fst snd app skip_from]. rewrite (kwchar_not_ws d (idchar_kw d D)). reflexivity. }
    apply (leaves_step _ c d (w ++ s) ds _ (fun x => exists k, x = w ++ k /\ K' k) E).
    - apply dead_top; [exact GC|]. apply dead_skip. exists c, d, (w ++ s). split; [exact E|]. right. split; [apply idchar_word; exact C|apply idchar_kw; exact C].
    - apply IH; [exact F|]. replace (last w d) with (last (d :: w) c); [exact H|]. destruct w as [|e w]; [reflexivity|]. cbn [last]. apply (last_default (e :: w)). discriminate.
    - intros b k EB _ (k' & -> & HK). exists k'. split; [|exact HK]. cbn [snd app] in EB. assert (b = []); [|subst b; reflexivity].
      apply (f_equal (@length _)) in EB. rewrite app_length in EB. cbn [length] in EB. destruct b; [reflexivity|cbn [length] in EB; lia].
  Qed.
  Lemma storage_first ts r : sp_storage ts -> first (ts ++ r) (fun w => word w) \/ ts = [].
  Proof. intros [->|(w & I & ->)]; [right; reflexivity|left]. cbn [app first]. apply storage_word. exact I. Qed.
  Lemma spec_word w : spec_head base mods w -> word w.
  Proof.
    intros [I|[I|[I|I]]].
    - apply (proj1 (Forall_forall word qualifiers)); [repeat constructor|exact I].
    - apply (proj1 (Forall_forall _ _) (fund_words base mods GC) w I).
    - apply I.
    - apply (proj1 (Forall_forall word [$"struct"; $"union"; $"enum"])); [repeat constructor|exact I].
  Qed.
  Lemma top_word g t : sp_top base mods pack g t -> exists w r, t = w :: r /\ word w.
  Proof.
    assert (ST : forall ts s tt r, sp_storage ts -> sp_spec base mods pack s tt -> exists w x, ts ++ tt ++ r = w :: x /\ word w).
    { intros ts s tt r [->|(w & I & ->)] S1; [|exists w, (tt ++ r); split; [reflexivity|apply storage_word; exact I]].
      pose proof (spec_first base mods pack s tt [] S1) as F. pose proof (spec_nonempty base mods pack s tt S1) as NE.
      destruct tt as [|w tt]; [contradiction|]. exists w, (tt ++ r). split; [reflexivity|]. apply spec_word. exact F. }
    intros [s ds tt td H1 H2 AP|s ds i ts tt td ti H0 H1 H2 AP H3|s d ts tt td b H0 H1 H2 AP H3].
    - exists $"typedef". eexists. split; [reflexivity|]. split; reflexivity.
    - apply (ST ts s tt _ H0 H1).
    - apply (ST ts s tt _ H0 H1).
  Qed.
  (** White space before a layout. *)
  Lemma lay_blank c c' b ts s : forallb is_ws b = true -> b <> [] -> lay c' ts s -> lay c ts (b ++ s).
  Proof.
    intros B NE L. destruct L as [c' e W|c' e t d r ts s W T E G L]; subst.
    - constructor. rewrite forallb_app, B, W. reflexivity.
    - rewrite app_assoc. apply (lay_tok c (b ++ e) (d :: r) d r); [rewrite forallb_app, B, W; reflexivity|exact T|reflexivity| |].
      + intros Z. apply app_eq_nil in Z. destruct Z. contradiction.
      + rewrite (last_default (d :: r) c c'); [exact L|discriminate].
  Qed.
  (** The last character that was kept: the one before the position, or none that could be part of a word. *)
  Definition prev (c : ascii) (p : pos) : Prop := c = fst p \/ is_kwchar c = false.
  Lemma glue_second c d : is_kwchar c = false -> mem d [";"; "{"; "}"]%char = true \/ is_idchar d = true -> glue c d = false.
  Proof.
    intros C D. unfold glue. rewrite C. cbn [andb orb].
    assert (X : mem [c; d] ops2 = false /\ is_quote d = false).
    { destruct D as [D|D].
      - apply mem_In in D. cbn [In] in D. destruct D as [<-|[<-|[<-|[]]]]; (split; [|reflexivity]); apply mem_str_false; intros I; cbn [In ops2] in I;
          repeat (destruct I as [I|I]; [discriminate I|]); exact I.
      - assert (K : is_kwchar d = true) by (apply idchar_kw; exact D). split.
        + apply mem_str_false. intros I. cbn [In ops2] in I. repeat (destruct I as [I|I]; [injection I as _ <-; discriminate K|]). exact I.
        + unfold is_quote. destruct (cheq_spec d dquote) as [->|_]; [discriminate|]. destruct (cheq_spec d squote) as [->|_]; [discriminate|reflexivity]. }
    destruct X as [-> ->]. rewrite andb_false_r. reflexivity.
  Qed.
  Lemma glue_kept c p d b t s : prev c p -> snd p = b ++ d :: t -> forallb is_ws b = true -> sep_from (fst (skip p)) (d :: s) ->
    mem d [";"; "{"; "}"]%char = true \/ is_idchar d = true -> is_ws d = false -> b = [] -> glue c d = false.
  Proof.
    intros [->|C] E B S1 D ND ->; [|apply glue_second; assumption]. cbn [app] in E. destruct p as [c0 s0]. cbn [fst snd] in *. subst s0.
    unfold skip in S1. cbn [fst snd skip_from] in S1. rewrite <- is_ws_pp, ND in S1. exact S1.
  Qed.
  Lemma idchar_ws d : is_idchar d = true -> is_ws d = false.
  Proof. intros D. rewrite is_ws_pp. apply kwchar_not_ws. apply idchar_kw. exact D. Qed.
  Lemma noise_leaves lk ns ds ts : noise_of base mods pack lk ns ds ts -> forall p c, view p ts -> (lk -> one_string (snd p)) -> prev c p ->
    leaves p ds (lay c ns).
  Proof.
    induction 1 as [|g t ns ds ts HT NZ IH|m ns ds ts HM NZ IH|ns ds ts LK NZ IH|w ns ds ts PN OP NZ IH]; intros p c0 V O PV.
    - intros f L. destruct f as [|f]; [lia|]. exists []. cbn [spans_n map around]. pose proof (view_end _ V) as E.
      rewrite (top_none base mods pk pack GC PK _ (view_skip _ _ V)), E. split; [reflexivity|]. split; [reflexivity|].
      destruct V as [V _]. inversion V as [c' b B|]; subst. constructor. exact B.
    - intros f L. destruct f as [|f]; [lia|]. cbn [spans_n]. pose proof (view_skip _ _ V) as V1. pose proof (skip_length p) as SL.
      destruct (top_word g t HT) as (w & rt & EW & WW). destruct (skip_ws p) as (b & EB & WB).
      destruct (top_reads base mods pk pack GC PK g t ts _ HT V1) as (q & E & V' & L').
      pose proof (same_top_at pk pk base mods (skip p)) as IN. rewrite E in IN. destruct IN as (_ & IN & _). rewrite E.
      assert (OQ : lk -> one_string (snd q)) by (intros LK; apply (one_string_end _ _ (O LK)); apply (et_trans _ _ _ (et_skip p) IN)).
      assert (LQ : length (snd q) < f).
      { pose proof (ends_top base mods pk (base_nil base mods GC) (mods_nil base mods GC) (skip p)) as EN. rewrite E in EN. unfold GramTotal.ends in EN. lia. }
      assert (KB : b = [] -> is_kwchar c0 = false).
      { intros ->. destruct PV as [->|C]; [|exact C]. subst t. destruct (view_tok p w (rt ++ ts) V) as (c & s & E1 & _ & S1 & _).
        destruct (word_alpha w WW) as [_ F]. destruct w as [|d w]; [destruct WW|]. cbn [forallb] in F. apply andb_true_iff in F. destruct F as [D _].
        rewrite E1 in EB. cbn [snd app] in EB. destruct p as [x y]. cbn [fst snd] in *. subst y. unfold skip in E1. cbn [fst snd skip_from] in E1.
        rewrite (kwchar_not_ws d (idchar_kw d D)) in E1. injection E1 as <-. cbn [sep_from] in S1. unfold glue in S1.
        apply orb_false_iff in S1. destruct S1 as [S1 _]. apply orb_false_iff in S1. destruct S1 as [S1 _].
        rewrite (idchar_kw d D), andb_true_r in S1. exact S1. }
      destruct b as [|b0 b].
      + destruct (IH q c0 V' OQ (or_intror (KB eq_refl)) f LQ) as (m & -> & <- & K). eexists. split; [reflexivity|]. split; [reflexivity|].
        cbn [around]. rewrite EB at 1. rewrite between_app. exact K.
      + destruct (IH q nl V' OQ (or_intror eq_refl) f LQ) as (m & -> & <- & K). eexists. split; [reflexivity|]. split; [reflexivity|].
        cbn [around]. rewrite EB at 1. rewrite between_app. apply (lay_blank c0 nl (b0 :: b)); [exact WB|discriminate|exact K].
    - destruct (view_tok p m ts V) as (c & s & E & T & S1 & _ & V' & _). assert (X : exists x, m = [x] /\ is_word x = false /\ is_kwchar x = false /\ mem x [";"; "{"; "}"]%char = true /\ is_ws x = false).
      { cbn [In] in HM. destruct HM as [<-|[<-|[<-|[]]]]; eexists; repeat split; reflexivity. }
      destruct X as (x & -> & W & K & M & NW). apply (leaves_step p c x s ds _ (lay x ns) E).
      + apply dead_top; [exact GC|]. apply dead_skip. exists c, x, s. auto.
      + apply IH; [exact V'| |left; reflexivity]. intros LK. apply (one_string_end _ s (O LK)). apply (et_trans _ _ _ (et_skip p)). rewrite E. exists [x]. reflexivity.
      + intros b k EB WB HK. apply (lay_tok c0 b [x] x []); [exact WB|exact T|reflexivity| |exact HK].
        apply (glue_kept c0 p x b s []); [exact PV|exact EB|exact WB|rewrite E; exact S1|left; exact M|exact NW].
    - destruct (view_tok p _ _ V) as (c & s & E & T1 & S1 & _ & V' & _).
      destruct (view_tok _ _ _ V') as (c2 & s2 & E2 & T2 & S2 & _ & V2 & _).
      apply (leaves_step p c "e" ($"xtern" ++ s) ds _ (fun x => exists k, x = $"xtern" ++ k /\ lay "n" (c_linkage :: ns) k) E).
      + apply (extern_top base mods pk GC ts). apply view_skip. exact V.
      + apply leaves_word; [reflexivity|].
        assert (ET : exists a, snd p = a ++ c_linkage ++ s2).
        { assert (ET : ends_text (snd p) (c_linkage ++ s2)); [|exact ET]. apply (et_trans _ s).
          - apply (et_trans _ _ _ (et_skip p)). rewrite E. exists $"extern". reflexivity.
          - pose proof (et_skip (last $"extern" c, s)) as ET. rewrite E2 in ET. exact ET. }
        destruct ET as (a & ET). destruct (O LK a s2 ET) as [N1 N2].
        apply (leaves_step _ c2 dquote ("C"%char :: dquote :: s2) ds _ (fun x => exists k, x = $"C""" ++ k /\ lay dquote ns k) E2).
        * apply dead_top; [exact GC|]. apply dead_skip; exists c2, dquote, ("C"%char :: dquote :: s2); split; [exact E2|left; split; reflexivity].
        * apply (leaves_step _ dquote "C" (dquote :: s2) ds _ (fun x => exists k, x = $"""" ++ k /\ lay dquote ns k)); [reflexivity|exact (letter_top base mods pk GC s2 N1 N2)| |].
          -- apply (leaves_step _ "C" dquote s2 ds _ (lay dquote ns)); [reflexivity|apply dead_top; [exact GC|]; apply quote_dead| |].
             ++ apply IH; [exact V2| |left; reflexivity]. intros _. apply (one_string_end _ _ (O LK)). exists (a ++ c_linkage). rewrite ET, <- app_assoc. reflexivity.
             ++ intros b k EB WB HK. exists k. split; [|exact HK]. cbn [snd] in EB. assert (b = []); [|subst b; reflexivity].
                apply (f_equal (@length _)) in EB. rewrite app_length in EB. destruct b; [reflexivity|cbn [length] in EB; lia].
          -- intros b k EB WB (k' & -> & HK). exists k'. split; [|exact HK]. cbn [snd] in EB. assert (b = []); [|subst b; reflexivity].
             apply (f_equal (@length _)) in EB. rewrite app_length in EB. destruct b; [reflexivity|cbn [length] in EB; lia].
        * intros b k EB WB (k' & -> & HK). change (b ++ dquote :: $"C""" ++ k') with (b ++ c_linkage ++ k').
          apply (lay_tok _ b c_linkage dquote $"C"""); [exact WB|exact T2|reflexivity|reflexivity|exact HK].
      + intros b k EB WB (k' & -> & HK). change (b ++ "e"%char :: $"xtern" ++ k') with (b ++ $"extern" ++ k').
        apply (lay_tok c0 b $"extern" "e" $"xtern"); [exact WB|exact T1|reflexivity| |exact HK].
        apply (glue_kept c0 p "e" b ($"xtern" ++ s) $"xtern"); [exact PV|exact EB|exact WB|rewrite E; exact S1|right; reflexivity|reflexivity].
    - destruct (view_tok p w ts V) as (c & s & E & T & S1 & _ & V' & _). destruct PN as (W & PN'). pose proof (word_alpha w W) as [_ F].
      destruct w as [|d w]; [destruct W|]. assert (D : is_idchar d = true) by (cbn [forallb] in F; apply andb_true_iff in F; apply F).
      assert (LW : last w d = last (d :: w) c).
      { destruct w as [|e w]; [reflexivity|]. cbn [last]. apply (last_default (e :: w)). discriminate. }
      apply (leaves_step p c d (w ++ s) ds _ (fun x => exists k, x = w ++ k /\ lay (last w d) ns k) E).
      + apply (foreign_top base mods pk GC (d :: w) ts); [split; [exact W|exact PN']|exact OP|apply view_skip; exact V].
      + apply leaves_word; [exact F|]. rewrite LW.
        apply IH; [exact V'| |left; reflexivity]. intros LK. apply (one_string_end _ s (O LK)). apply (et_trans _ _ _ (et_skip p)). rewrite E. exists (d :: w). reflexivity.
      + intros b k EB WB (k' & -> & HK). change (b ++ d :: w ++ k') with (b ++ (d :: w) ++ k').
        apply (lay_tok c0 b (d :: w) d w); [exact WB|exact T|reflexivity| |].
        * apply (glue_kept c0 p d b (w ++ s) w); [exact PV|exact EB|exact WB|rewrite E; exact S1|right; exact D|apply idchar_ws; exact D].
        * rewrite (last_default (d :: w) c0 c) by discriminate. rewrite <- LW. exact HK.
  Qed.
End Leaves.

(** ** The results *)
Lemma noise_noisy base mods pack lk ns ds ts : noise_of base mods pack lk ns ds ts -> noisy base mods pack lk [] ds ts.
Proof. induction 1; constructor; assumption. Qed.
Lemma word_solid base mods w : plain_name base mods w -> solid w.
Proof.
  intros [W _]. pose proof (word_alpha w W) as [_ F]. destruct w as [|d w]; [destruct W|]. split.
  - intros I. rewrite forallb_forall in F. specialize (F nl I). discriminate.
  - cbn [forallb] in F. apply andb_true_iff in F. destruct F as [D _]. destruct (is_space d) eqn:E; [|reflexivity]. exfalso.
    revert D E. destruct d as [[] [] [] [] [] [] [] []]; vm_compute; congruence.
Qed.
Lemma noise_solid base mods pack lk ns ds ts : noise_of base mods pack lk ns ds ts -> Forall solid ns.
Proof.
  assert (LIT : forall t, negb (mem nl t) && match t with c :: _ => negb (is_space c) | [] => false end = true -> solid t).
  { intros t H. apply andb_true_iff in H. destruct H as [H1 H2]. split.
    - intros I. apply mem_In in I. rewrite I in H1. discriminate.
    - destruct t; [discriminate|]. apply negb_true_iff. exact H2. }
  induction 1 as [|g t ns ds ts HT NZ IH|m ns ds ts HM NZ IH|ns ds ts LK NZ IH|w ns ds ts PN OP NZ IH]; [constructor|exact IH| | |].
  - constructor; [|exact IH]. apply LIT. cbn [In] in HM. destruct HM as [<-|[<-|[<-|[]]]]; reflexivity.
  - constructor; [apply LIT; reflexivity|]. constructor; [apply LIT; reflexivity|exact IH].
  - constructor; [apply (word_solid base mods w PN)|exact IH].
Qed.
Lemma unparsed_noise ev base mods pack l ns ds text s path : good_config base mods -> (forall n, packing_at l n = pack) ->
  noise_header base mods pack ns ds text ->
  exists r u, parse_file ev base mods l s path text = Some r /\ parse_unparsed ev base mods l s path text = Some (r, u) /\ written ns u.
Proof.
  intros GC PK (lk & ts & NZ & TO & W & O).
  assert (H : noisy_header base mods pack [] ds text) by (exists lk, ts; split; [apply (noise_noisy base mods pack lk ns ds ts NZ)|auto]).
  unfold parse_file. rewrite (noisy_defs base mods pack l ds text GC PK H). unfold parse_unparsed.
  destruct (noise_leaves base mods (pack_of l text) pack GC (fun r => PK _) lk ns ds ts NZ (nl, text) nl) with (f := S (length text)) as (m & E & <- & K).
  - split; [exact W|]. intros _. reflexivity.
  - exact O.
  - left. reflexivity.
  - cbn [snd]. lia.
  - rewrite E. do 2 eexists. split; [reflexivity|]. split; [reflexivity|]. cbn [snd] in K.
    apply (sub_lay nl ns _ K (noise_solid base mods pack lk ns _ ts NZ)). apply Nat.le_refl.
Qed.
Lemma seq_noise base mods pack lk ds ts : seq_list (sp_top base mods pack) ds ts -> noise_of base mods pack lk [] ds ts.
Proof. induction 1; constructor; assumption. Qed.
Lemma written_nil u : written [] u -> forallb is_ws u = true.
Proof. intros W. inversion W. assumption. Qed.
Lemma unparsed_pieces ev base mods l s path text : ~ In [] base -> ~ In [] mods ->
  exists ds u ps last, parse_unparsed ev base mods l s path text = Some (run_tops ev (set_cur s path) ds, u)
    /\ text = whole ps last /\ same_ink u (kept ps last) /\ ~ blank_line u /\ length ps = length ds
    /\ Forall (fun x => exists c r, snd x = c :: r /\ is_ws c = false) ps.
Proof.
  intros NB NM. unfold parse_unparsed. pose proof (spans_scan base mods (pack_of l text) (S (length text)) (nl, text)) as SS.
  pose proof (scan_total base mods (pack_of l text) NB NM (S (length text)) (nl, text)) as ST.
  destruct (spans_n base mods (pack_of l text) (S (length text)) (nl, text)) as [m|] eqn:E.
  - destruct (spans_pieces base mods _ NB NM _ _ _ E) as (ps & last & E1 & E2 & E3 & E4). cbn [snd] in E1, E2.
    exists (map fst m). do 3 eexists. split; [reflexivity|]. split; [exact E1|]. split; [|split; [|split]].
    + unfold same_ink. rewrite sub_ink, E2. reflexivity.
    + apply no_blank.
    + rewrite map_length. exact E3.
    + exact E4.
  - exfalso. cbn [option_map] in SS. apply ST; [cbn [snd]; lia|]. symmetry. exact SS.
Qed.
Lemma unparsed_tables ev base mods l s path text : ~ In PyStr.tab text ->
  option_map fst (parse_unparsed ev base mods l s path text) = parse_file ev base mods l s path text.
Proof.
  intros NT. unfold parse_unparsed, parse_file, parse_defs, scan_text. rewrite (expandtabs_id text NT).
  rewrite <- (spans_scan base mods (pack_of l text)). destruct (spans_n base mods (pack_of l text) (S (length text)) (nl, text)); reflexivity.
Qed.

(** ** Several files *)
Section Files.
  Context (fo : str -> list str -> option str) (ext : str -> bool)
          (ev : dict str pobj -> str -> res pobj) (base mods : list str).
  Notation process := (process_files fo ext ev base mods).
  Notation unparsed := (unparsed_files fo ext ev base mods).
  Lemma files_kept order : forall p p' f, process p order = Some (Ok p') -> ~ In f order -> dget (p_files p') f = dget (p_files p) f.
  Proof.
    induction order as [|g r IH]; intros p p' f E N; [injection E as <-; reflexivity|]. cbn [process_files] in E.
    destruct (dget (p_files p) g) as [[t|]|]; [|discriminate|discriminate].
    destruct (process_file fo ext ev base mods (p_store p) g t) as [[[s' t']|e]|]; [|discriminate|discriminate].
    rewrite (IH _ _ f E); [|intros I; apply N; right; exact I]. cbn [p_files]. apply dget_dset_other. intros ->. apply N. left. reflexivity.
  Qed.
  Lemma unparsed_kept order : forall p p' us f, unparsed p order = Some (Ok (p', us)) -> ~ In f order -> dget (p_files p') f = dget (p_files p) f.
  Proof.
    induction order as [|g r IH]; intros p p' us f E N; [injection E as <- _; reflexivity|]. cbn [unparsed_files] in E.
    destruct (dget (p_files p) g) as [[t|]|]; [|discriminate|discriminate].
    destruct (unparsed_file fo ext ev base mods (p_store p) g t) as [[[[s' t'] u]|e]|]; [|discriminate|discriminate].
    destruct (unparsed _ r) as [[[p2 us2]|e]|] eqn:U; [|discriminate|discriminate]. injection E as <- _.
    rewrite (IH _ _ _ f U); [|intros I; apply N; right; exact I]. cbn [p_files]. apply dget_dset_other. intros ->. apply N. left. reflexivity.
  Qed.
  Lemma one_process s path text s' t' : ~ In PyStr.tab t' ->
    process_file fo ext ev base mods s path text = Some (Ok (s', t')) <->
    exists u, unparsed_file fo ext ev base mods s path text = Some (Ok (s', t', u)).
  Proof.
    intros NT. unfold process_file, unparsed_file. destruct (preprocess_file fo ext ev s path (remove_comments text)) as [[[l s1] t1]|e].
    - destruct (in_dec ascii_dec PyStr.tab t1) as [I|N1].
      + split.
        * destruct (parse_file ev base mods l s1 (Some path) t1) as [[s2 [e|]]|]; intros E; [discriminate| |discriminate]. injection E as _ ->. contradiction.
        * intros (u & E). destruct (parse_unparsed ev base mods l s1 (Some path) t1) as [[[s2 [e|]] u']|]; [discriminate| |discriminate]. injection E as _ -> _. contradiction.
      + pose proof (unparsed_tables ev base mods l s1 (Some path) t1 N1) as ET. rewrite <- ET.
        destruct (parse_unparsed ev base mods l s1 (Some path) t1) as [[[s2 [e|]] u']|]; cbn [option_map fst].
        * split; [discriminate|]. intros (u & E). discriminate.
        * split; [intros E; injection E as <- <-; exists u'; reflexivity|intros (u & E); injection E as <- <- _; reflexivity].
        * split; [discriminate|]. intros (u & E). discriminate.
    - split; [discriminate|]. intros (u & E). discriminate.
  Qed.
  Lemma files_same order : NoDup order -> forall p p', (forall f t, In f order -> dget (p_files p') f = Some (Some t) -> ~ In PyStr.tab t) ->
    process p order = Some (Ok p') <-> exists us, unparsed p order = Some (Ok (p', us)) /\ length us = length order.
  Proof.
    induction 1 as [|g r NI ND IH]; intros p p' NT.
    - cbn [process_files unparsed_files]. split.
      + intros E. injection E as <-. exists []. split; reflexivity.
      + intros (us & E & _). injection E as <- _. reflexivity.
    - cbn [process_files unparsed_files]. destruct (dget (p_files p) g) as [[t|]|].
      + assert (NT' : forall f t0, In f r -> dget (p_files p') f = Some (Some t0) -> ~ In PyStr.tab t0) by (intros f t0 I; apply NT; right; exact I).
        split.
        * intros E. destruct (process_file fo ext ev base mods (p_store p) g t) as [[[s' t']|e]|] eqn:P; [|discriminate|discriminate].
          assert (N1 : ~ In PyStr.tab t').
          { apply (NT g); [left; reflexivity|]. rewrite (files_kept r _ _ g E NI). cbn [p_files]. apply dget_dset_same. }
          destruct (proj1 (one_process _ _ _ _ _ N1) P) as (u & ->). destruct (proj1 (IH _ p' NT') E) as (us & -> & L).
          exists (u :: us). split; [reflexivity|]. cbn [length]. rewrite L. reflexivity.
        * intros (us & E & L). destruct (unparsed_file fo ext ev base mods (p_store p) g t) as [[[[s' t'] u]|e]|] eqn:P; [|discriminate|discriminate].
          destruct (unparsed {| p_files := dset (p_files p) g (Some t'); p_order := p_order p; p_store := s' |} r) as [[[p2 us2]|e]|] eqn:U; [|discriminate|discriminate].
          injection E as -> <-. assert (N1 : ~ In PyStr.tab t').
          { apply (NT g); [left; reflexivity|]. rewrite (unparsed_kept r _ _ _ g U NI). cbn [p_files]. apply dget_dset_same. }
          rewrite (proj2 (one_process _ _ _ _ _ N1) (ex_intro _ u P)). apply (IH _ p' NT'). exists us2. split; [exact U|]. cbn [length] in L. lia.
      + split; [discriminate|]. intros (us & E & _). discriminate.
      + split; [discriminate|]. intros (us & E & _). discriminate.
  Qed.
End Files.
