(** Proofs about single directives: conditions in place, #define and #undef. *)
From Coq Require Import Ascii String Bool Arith ZArith Lia List.
Import ListNotations.
From Verif Require Import PyBase PyBaseFacts PyStr PyStrFacts WordFacts.
From Verif Require Import MacroModel MacroSpec MacroProofs MacroDefProofs PyExpr PpModel PpSpec CondProofs.
From Verif Require Import ExprSpec ExprText.

Lemma alpha_not_space c : is_alpha c = true -> is_space c = false.
Proof.
  intros A. assert (H := ascii_all (fun c => negb (is_alpha c) || negb (is_space c))).
  specialize (H ltac:(vm_compute; reflexivity) c). cbn beta in H. rewrite A in H. cbn in H.
  apply negb_true_iff. exact H.
Qed.
Lemma directive_written d rest l : d <> [] -> forallb is_alpha d = true -> written d rest l ->
  directive l = Some (d, rest).
Proof.
  intros NE A (a & b & -> & SA & SB & H). unfold directive.
  rewrite drop_while_app_all by exact SA. cbn [drop_while]. change (is_space "#"%char) with false. cbv iota.
  rewrite cheq_refl. rewrite drop_while_app_all by exact SB.
  assert (D : drop_while is_space (d ++ rest) = d ++ rest).
  { destruct d as [|c d]; [congruence|]. cbn in A. apply andb_prop in A. destruct A as [A _].
    cbn [app drop_while]. rewrite (alpha_not_space c A). reflexivity. }
  rewrite D. rewrite span_run; [destruct d; [congruence|reflexivity]|exact A|].
  destruct rest as [|c r]; [reflexivity|]. cbn. rewrite (H c r eq_refl). reflexivity.
Qed.
Lemma drop_while_split (p : ascii -> bool) s : exists a, forallb p a = true /\ s = a ++ drop_while p s.
Proof.
  induction s as [|c s (a & A & E)]; [exists []; split; reflexivity|]. cbn [drop_while]. destruct (p c) eqn:P.
  - exists (c :: a). cbn [forallb app]. rewrite P. split; [exact A|]. rewrite <- E. reflexivity.
  - exists []. split; reflexivity.
Qed.
Lemma directive_iff l d rest : directive l = Some (d, rest) <-> d <> [] /\ forallb is_alpha d = true /\ written d rest l.
Proof.
  split.
  - unfold directive. intros H.
    destruct (drop_while_split is_space l) as (a & SA & EA).
    destruct (drop_while is_space l) as [|c r]; [discriminate H|].
    destruct (cheq c "#") eqn:C; [|discriminate H]. apply cheq_true in C. subst c.
    destruct (drop_while_split is_space r) as (b & SB & EB).
    pose proof (span_app is_alpha (drop_while is_space r)) as SP. pose proof (span_all is_alpha (drop_while is_space r)) as SL.
    pose proof (span_head is_alpha (drop_while is_space r)) as SH.
    destruct (span is_alpha (drop_while is_space r)) as [x y]. cbn [fst snd] in SL, SH.
    assert (NE : x <> []) by (intros ->; discriminate H).
    assert (E : Some (x, y) = Some (d, rest)) by (destruct x; [congruence|exact H]). injection E as -> ->.
    split; [exact NE|]. split; [exact SL|]. exists a, b. split; [rewrite EA, EB, SP; reflexivity|].
    split; [exact SA|]. split; [exact SB|]. exact SH.
  - intros (NE & A & W). exact (directive_written d rest l NE A W).
Qed.
Lemma dname_iff l d : d <> [] -> (dname l = d <-> forallb is_alpha d = true /\ exists rest, written d rest l).
Proof.
  intros NE. unfold dname. split.
  - destruct (directive l) as [[x r]|] eqn:D; [|congruence]. intros <-. apply directive_iff in D. destruct D as (_ & A & W). eauto.
  - intros (A & r & W). rewrite (directive_written d r l NE A W). reflexivity.
Qed.

(** ** Results *)
Lemma same_effect_refl s : same_effect s s.
Proof. repeat split. Qed.
Lemma same_result_refl r : same_result r r.
Proof. destruct r; [apply same_effect_refl|reflexivity]. Qed.
Lemma same_effect_sym a b : same_effect a b -> same_effect b a.
Proof. intros (A & B & C & D). repeat split; congruence. Qed.
Lemma same_result_sym a b : same_result a b -> same_result b a.
Proof. destruct a, b; cbn; auto. apply same_effect_sym. Qed.
Lemma same_effect_trans a b c : same_effect a b -> same_effect b c -> same_effect a c.
Proof. intros (A & B & C & D) (A' & B' & C' & D'). repeat split; congruence. Qed.
Lemma same_result_trans a b c : same_result a b -> same_result b c -> same_result a c.
Proof. destruct a, b, c; cbn; try tauto; try congruence. apply same_effect_trans. Qed.

(** ** Names *)
Lemma macro_name_ident r n r' : macro_name r = Some (n, r') -> ident n.
Proof.
  unfold macro_name. destruct (drop_while is_space r) as [|c x]; [discriminate|].
  destruct (is_idstart c) eqn:S; [|discriminate]. destruct (span is_idchar x) as [a b] eqn:SP. intros E.
  assert (n = c :: a) by congruence. subst n. split; [exact S|].
  pose proof (span_all is_idchar x) as F. rewrite SP in F. cbn [fst] in F. intros d I.
  rewrite forallb_forall in F. exact (F d I).
Qed.
Lemma macro_name_iff r n r' : macro_name r = Some (n, r') <->
  ident n /\ (exists g, forallb is_space g = true /\ r = g ++ n ++ r') /\ forall c x, r' = c :: x -> is_idchar c = false.
Proof.
  split.
  - intros M. split; [exact (macro_name_ident r n r' M)|]. unfold macro_name in M.
    destruct (drop_while_split is_space r) as (g & G & E). destruct (drop_while is_space r) as [|c x] eqn:D; [discriminate M|].
    destruct (is_idstart c) eqn:S; [|discriminate M].
    pose proof (span_app is_idchar x) as SP. pose proof (span_head is_idchar x) as SH. destruct (span is_idchar x) as [a b].
    injection M as <- <-. split; [|exact SH]. exists g. split; [exact G|]. rewrite E, SP. reflexivity.
  - intros (I & (g & G & ->) & H). unfold macro_name. rewrite drop_while_app_all by exact G.
    destruct n as [|c a]; [destruct I|]. destruct I as [S F]. cbn [app drop_while].
    assert (NS : is_space c = false) by (destruct (is_space c) eqn:X; [exfalso; destruct c as [[|] [|] [|] [|] [|] [|] [|] [|]]; discriminate X || discriminate S|reflexivity]).
    rewrite NS, S. rewrite span_run; [reflexivity| |].
    + apply forallb_forall. exact F.
    + destruct r' as [|d y]; [reflexivity|]. cbn. rewrite (H d y eq_refl). reflexivity.
Qed.
Lemma expandtabs_prefix n : ident n -> forall k s, exists k', expandtabs_aux k (n ++ s) = n ++ expandtabs_aux k' s.
Proof.
  intros I. apply ident_idchars in I. destruct I as [_ F]. induction n as [|c n IH]; intros k s; [exists k; reflexivity|].
  cbn in F. apply andb_prop in F. destruct F as [C F]. destruct (IH F (S k) s) as [k' E]. exists k'.
  cbn [app expandtabs_aux]. pose proof (idchar_not_ppws c C) as W. unfold is_ppws in W.
  apply orb_false_iff in W. destruct W as [W W3]. apply orb_false_iff in W. destruct W as [W W2].
  apply orb_false_iff in W. destruct W as [_ W1]. rewrite W1, W2, W3. cbn [orb]. rewrite E. reflexivity.
Qed.
Lemma pp_define_name n rest m args v : ident n -> pp_define (n ++ sp :: rest) = Some (m, args, v) -> m = n.
Proof.
  intros I E. unfold pp_define, expandtabs in E. destruct (expandtabs_prefix n I 0 (sp :: rest)) as [k X].
  rewrite X in E. change (n ++ ?y) with ([] ++ n ++ y) in E. rewrite pp_name_ident in E.
  - destruct (pp_args _) as [[l r']|]; congruence.
  - intros c [].
  - exact I.
  - cbn [expandtabs_aux]. change (cheq sp PyStr.tab) with false. change (cheq sp nl || cheq sp cr) with false.
    reflexivity.
Qed.
Lemma define_other t n r x : ident n -> x <> n ->
  dget (macros (define t n r)) x = dget (macros t) x
  /\ dget (fnmacros (define t n r)) x = dget (fnmacros t) x.
Proof.
  intros I N. unfold define. destruct (pp_define (n ++ sp :: r)) as [[[m args] v]|] eqn:E; [|split; reflexivity].
  apply (pp_define_name n r m args v I) in E. subst m. unfold process_macro_defn.
  destruct (dget (fnmacros t) v); [|destruct args]; cbn [macros fnmacros]; rewrite ?dget_dset_other by auto; split; reflexivity.
Qed.
Lemma dmem_get {V} (d : dict str V) k : dmem d k = true <-> dget d k <> None.
Proof. rewrite dmem_In. rewrite <- dget_keys. destruct (dget d k); split; intros H; [discriminate|eauto|destruct H; discriminate|congruence]. Qed.
Lemma dmem_get_false {V} (d : dict str V) k : dmem d k = false <-> dget d k = None.
Proof.
  pose proof (dmem_get d k) as H. destruct (dmem d k), (dget d k); split; intros; try congruence.
  - exfalso. apply (proj1 H eq_refl). assumption.
  - exfalso. assert (X : false = true) by (apply H; discriminate). discriminate.
Qed.
Lemma define_names_ident t n r : ident n -> names_ident t -> names_ident (define t n r).
Proof.
  intros I NI w H. destruct (eqb w n) eqn:E; [apply eqb_eq in E; subst w; exact I|].
  assert (N : w <> n) by (intros ->; rewrite eqb_refl in E; discriminate).
  destruct (define_other t n r w I N) as [A B].
  apply NI. destruct H as [H|H]; [left|right]; rewrite dmem_get in *; congruence.
Qed.
Lemma strip_ident n : ident n -> strip n = n.
Proof.
  intros I. apply ident_word in I. assert (T := word_trimmed n I).
  pose proof (strip_trimmed [] n [] eq_refl eq_refl T) as E. cbn [app] in E. rewrite app_nil_r in E. exact E.
Qed.
Lemma ddel_names t n : names_ident t -> names_ident {| macros := ddel (macros t) n; fnmacros := fnmacros t |}.
Proof.
  intros NI w [H|H]; cbn [macros fnmacros] in H; apply NI; [left|right; exact H].
  rewrite dmem_In in *. apply keys_ddel_incl in H. exact H.
Qed.

Section Lines.
  Context (fo : str -> list str -> option str) (ext : str -> bool).
  Notation line_step := (line_step fo ext).
  Notation run_lines := (run_lines fo ext).
  Notation holds := (holds fo ext).

  Lemma region t l body e : opens l -> well_formed body -> dname e = $"endif" ->
    same_result (run_lines 0 (start t) (l :: lines body ++ [e]))
                (if holds t l then run_lines 0 (start t) (lines body) else Ok (start t)).
  Proof.
    intros O W E.
    pose proof (refine_file fo ext (BCond l body (REnd e) BNil) t) as R.
    assert (WB : well_formed (BCond l body (REnd e) BNil)) by (cbn; auto).
    specialize (R WB). change (lines (BCond l body (REnd e) BNil)) with (l :: lines body ++ [e] ++ []) in R.
    rewrite app_nil_r in R. eapply same_result_trans; [exact R|].
    change (exec fo ext (start t) (BCond l body (REnd e) BNil))
      with (bind (if holds (tab (start t)) l then exec fo ext (start t) body else Ok (start t))
                 (fun s' => Ok s')).
    cbn [start tab]. destruct (holds t l).
    - apply same_result_sym. eapply same_result_trans; [apply refine_file; exact W|].
      destruct (exec fo ext (start t) body); apply same_result_refl.
    - apply same_result_refl.
  Qed.

  (** Conditional lines in terms of their text. *)
  Definition cond_text (d rest : str) : str :=
    if eqb d $"ifdef" then $"defined " ++ rest else if eqb d $"ifndef" then $"!defined " ++ rest else rest.
  Lemma holds_written t d rest l : In d [$"if"; $"ifdef"; $"ifndef"; $"elif"] -> written d rest l ->
    dname l = d /\ holds t l = match condition fo t (cond_text d rest) with Ok c => eval_pp ext c | Err _ => false end.
  Proof.
    intros I W. assert (D : directive l = Some (d, rest)).
    { apply directive_written; [| |exact W]; destruct I as [<-|[<-|[<-|[<-|[]]]]]; try discriminate; reflexivity. }
    unfold dname, PpSpec.holds. rewrite D. split; reflexivity.
  Qed.

  Lemma if_region t m e rest z l body el :
    names_ident t -> grammatical e -> spells (toks e) rest -> readable t m e ->
    plain (resolve t m e) -> cvalue (resolve t m e) = Some z ->
    written $"if" rest l -> well_formed body -> dname el = $"endif" ->
    same_result (run_lines 0 (start t) (l :: lines body ++ [el]))
                (if (z =? 0)%Z then Ok (start t) else run_lines 0 (start t) (lines body)).
  Proof.
    intros NI G SP R P V W WB E.
    destruct (holds_written t $"if" rest l) as [D H]; [cbn; auto|exact W|].
    destruct (condition_value fo ext t m e rest z NI G SP R P V) as (c & C1 & C2).
    change (cond_text $"if" rest) with rest in H. rewrite C1, C2 in H.
    pose proof (region t l body el) as RG. rewrite H in RG.
    assert (O : opens l) by (unfold opens; rewrite D; cbn; auto).
    specialize (RG O WB E). destruct (z =? 0)%Z; exact RG.
  Qed.

  (** ** #ifdef and the like (C29) *)
  Definition known (t : mtab) (x : str) : bool := dmem (macros t) x || dmem (fnmacros t) x.
  Lemma resolve_defined t m x : resolve t m (CDefined x) = CNum (if known t x then $"1" else $"0").
  Proof.
    cbn [resolve]. unfold known. destruct (dmem (macros t) x) eqn:A, (dmem (fnmacros t) x) eqn:B;
      rewrite ?dmem_get_false, ?dmem_get in *; destruct (dget (macros t) x), (dget (fnmacros t) x);
      try congruence; reflexivity.
  Qed.
  Lemma defined_holds t x rest :
    names_ident t -> spells [TDefined x] rest ->
    exists c, condition fo t rest = Ok c /\ eval_pp ext c = known t x.
  Proof.
    intros NI SP.
    destruct (condition_value fo ext t CId (CDefined x) rest (if known t x then 1 else 0)%Z) as (c & A & B); auto.
    - exact I.
    - intros w [].
    - rewrite resolve_defined. exact I.
    - rewrite resolve_defined. destruct (known t x); reflexivity.
    - exists c. split; [exact A|]. rewrite B. destruct (known t x); reflexivity.
  Qed.
  Lemma not_defined_holds t x rest :
    names_ident t -> spells [TNot; TDefined x] rest ->
    exists c, condition fo t rest = Ok c /\ eval_pp ext c = negb (known t x).
  Proof.
    intros NI SP.
    destruct (condition_value fo ext t CId (CNot (CDefined x)) rest (if known t x then 0 else 1)%Z) as (c & A & B); auto.
    - cbn [grammatical level]. split; [lia|exact I].
    - intros w [].
    - change (resolve t CId (CNot (CDefined x))) with (CNot (resolve t CId (CDefined x))).
      rewrite resolve_defined. exact I.
    - change (resolve t CId (CNot (CDefined x))) with (CNot (resolve t CId (CDefined x))).
      rewrite resolve_defined. destruct (known t x); reflexivity.
    - exists c. split; [exact A|]. rewrite B. destruct (known t x); reflexivity.
  Qed.

  Lemma gap_apart g c r : gap g -> g = c :: r -> is_word c = false /\ ~ In c ["."; "$"]%char.
  Proof.
    intros G ->. destruct (G c (or_introl eq_refl)) as [-> | ->]; split; try reflexivity; intros [X|[X|[]]]; discriminate.
  Qed.
  Lemma spells_one k s g : tok_text k s -> gap g -> (forall c r, g = c :: r -> apart k c) -> spells [k] (s ++ g).
  Proof.
    intros T G A. change (s ++ g) with ([] ++ s ++ g). apply spells_tok; auto; [intros c []|constructor; exact G].
  Qed.
  Lemma spells_defined x g g' : ident x -> gap g -> g <> [] -> gap g' -> spells [TDefined x] ($"defined " ++ g ++ x ++ g').
  Proof.
    intros I G NE G'. change ($"defined ") with ($"defined" ++ [sp]).
    replace (($"defined" ++ [sp]) ++ g ++ x ++ g') with (($"defined" ++ (sp :: g) ++ x) ++ g') by (rewrite <- !app_assoc; reflexivity).
    apply spells_one; [constructor; auto; [|discriminate]|exact G'|].
    - intros c [<-|J]; [left; reflexivity|exact (G c J)].
    - intros c r E. exact (gap_apart _ _ _ G' E).
  Qed.

  Lemma tests_holds t x b l : names_ident t -> ident x -> tests x b l ->
    opens l /\ holds t l = (if b then known t x else negb (known t x)).
  Proof.
    intros NI I T. destruct T as [g g' l G NE G' W|g g' l G NE G' W|rest l SP W|rest l SP W].
    - destruct (holds_written t _ _ _ (or_intror (or_introl eq_refl)) W) as [D H].
      split; [unfold opens; rewrite D; cbn; auto|]. rewrite H.
      destruct (defined_holds t x (cond_text $"ifdef" (g ++ x ++ g')) NI) as (c & -> & ->); [|reflexivity].
      apply spells_defined; auto.
    - destruct (holds_written t _ _ _ (or_intror (or_intror (or_introl eq_refl))) W) as [D H].
      split; [unfold opens; rewrite D; cbn; auto|]. rewrite H.
      destruct (not_defined_holds t x (cond_text $"ifndef" (g ++ x ++ g')) NI) as (c & -> & ->); [|reflexivity].
      change (cond_text $"ifndef" (g ++ x ++ g')) with ([] ++ $"!" ++ ($"defined " ++ g ++ x ++ g')).
      apply spells_tok; [intros c []|constructor| |apply spells_defined; auto].
      intros c r E. injection E as <- _. discriminate.
    - destruct (holds_written t _ _ _ (or_introl eq_refl) W) as [D H].
      split; [unfold opens; rewrite D; cbn; auto|]. rewrite H.
      destruct (defined_holds t x rest NI SP) as (c & A & B). change (cond_text $"if" rest) with rest. rewrite A. exact B.
    - destruct (holds_written t _ _ _ (or_introl eq_refl) W) as [D H].
      split; [unfold opens; rewrite D; cbn; auto|]. rewrite H.
      destruct (not_defined_holds t x rest NI SP) as (c & A & B). change (cond_text $"if" rest) with rest. rewrite A. exact B.
  Qed.

  Lemma known_iff t x : known t x = true <-> In x (keys (macros t)) \/ In x (keys (fnmacros t)).
  Proof. unfold known. rewrite orb_true_iff, !dmem_In. tauto. Qed.

  Lemma tests_region t x b l body e : names_ident t -> ident x -> tests x b l -> well_formed body -> dname e = $"endif" ->
    (((In x (keys (macros t)) \/ In x (keys (fnmacros t))) <-> b = true) ->
       same_result (run_lines 0 (start t) (l :: lines body ++ [e])) (run_lines 0 (start t) (lines body)))
    /\ (((In x (keys (macros t)) \/ In x (keys (fnmacros t))) <-> b = false) ->
       same_result (run_lines 0 (start t) (l :: lines body ++ [e])) (Ok (start t))).
  Proof.
    intros NI I T W E. destruct (tests_holds t x b l NI I T) as [O H].
    pose proof (region t l body e O W E) as R. rewrite H in R. rewrite <- known_iff.
    split; intros K; destruct b; destruct (known t x); try exact R; exfalso; destruct K as [K1 K2];
      solve [discriminate (K1 eq_refl) | discriminate (K2 eq_refl)].
  Qed.

  (** ** Steps and tables *)
  Lemma step_table i s l s' : line_step i s l = Ok s' ->
    tab s' = tab s
    \/ (exists n r, ident n /\ tab s' = define (tab s) n r /\ defines n l)
    \/ (exists n, tab s' = {| macros := ddel (macros (tab s)) n; fnmacros := fnmacros (tab s) |}).
  Proof.
    intros E. unfold PpModel.line_step in E. destruct (directive l) as [[d0 rest0]|] eqn:DL.
    2:{ left. destruct (active s); [rewrite expand_macros_ok in E; cbn [bind] in E|]; injection E as <-; reflexivity. }
    destruct (if eqb d0 $"ifdef" then ($"if", $"defined " ++ rest0)
              else if eqb d0 $"ifndef" then ($"if", $"!defined " ++ rest0) else (d0, rest0)) as [d rest] eqn:DD.
    destruct (eqb d $"if" || eqb d $"elif").
    { rewrite condition_ok in E. cbn [bind] in E. left. destruct (eqb d $"elif").
      - destruct (ifh s) as [|h hs]; [discriminate|]. destruct (ift s) as [|x ts]; [discriminate|].
        injection E as <-. reflexivity.
      - injection E as <-. reflexivity. }
    destruct (eqb d $"define" || eqb d $"undef") eqn:DU.
    { destruct (macro_name rest) as [[n rest']|] eqn:M; [|discriminate].
      assert (R : exists r, (if all_true (ift s) then expand_macros fo (tab s) rest' else Ok rest') = Ok r).
      { destruct (all_true (ift s)); [rewrite expand_macros_ok|]; eauto. }
      destruct R as [r R]. rewrite R in E. cbn [bind] in E. destruct (active s); [|left; congruence].
      destruct (eqb d $"define") eqn:DF.
      - right. left. exists n, r. split; [exact (macro_name_ident _ _ _ M)|]. split; [injection E as <-; reflexivity|].
        apply eqb_eq in DF. subst d. exists rest, rest'. split; [|exact M].
        destruct (eqb d0 $"ifdef"); [injection DD as X _; discriminate|].
        destruct (eqb d0 $"ifndef"); [injection DD as X _; discriminate|]. injection DD as -> ->. exact DL.
      - right. right. exists (strip n). injection E as <-. reflexivity. }
    left.
    assert (R : exists r, (if all_true (ift s) then expand_macros fo (tab s) rest else Ok rest) = Ok r).
    { destruct (all_true (ift s)); [rewrite expand_macros_ok|]; eauto. }
    destruct R as [r R]. rewrite R in E. cbn [bind] in E.
    destruct (eqb d $"else").
    { destruct (ifh s) as [|h hs]; [discriminate|]. destruct (ift s) as [|x ts]; [discriminate|].
      injection E as <-. reflexivity. }
    destruct (eqb d $"endif").
    { destruct (ift s) as [|h hs]; [discriminate|]. destruct (ifh s) as [|x ts]; [discriminate|].
      injection E as <-. reflexivity. }
    destruct (eqb d $"pragma"); [|injection E as <-; reflexivity].
    destruct (active s); [|injection E as <-; reflexivity].
    destruct (pack_opts r) as [o|]; [|injection E as <-; reflexivity].
    destruct (pack (pstack s) o); [|discriminate]. injection E as <-. reflexivity.
  Qed.

  Lemma run_names ls : forall i s s', run_lines i s ls = Ok s' -> names_ident (tab s) -> names_ident (tab s').
  Proof.
    induction ls as [|l ls IH]; intros i s s' R NI; cbn [PpModel.run_lines] in R; [injection R as <-; exact NI|].
    destruct (line_step i s l) as [s1|] eqn:E; [|discriminate]. cbn [bind] in R. apply (IH _ _ _ R).
    destruct (step_table _ _ _ _ E) as [->|[(n & r & I & -> & _)|(n & ->)]];
      [exact NI|apply define_names_ident; auto|apply ddel_names; exact NI].
  Qed.

  (** ** #undef (C30) *)
  Lemma undef_step i s x r l : active s = true -> ident x ->
    (forall c r', r = c :: r' -> is_idchar c = false) ->
    (exists g, forallb is_space g = true /\ g <> [] /\ written $"undef" (g ++ x ++ r) l) ->
    exists s', line_step i s l = Ok s'
      /\ tab s' = {| macros := ddel (macros (tab s)) x; fnmacros := fnmacros (tab s) |}.
  Proof.
    intros A I H (g & G & NE & W). apply directive_written in W; [|discriminate|reflexivity].
    unfold PpModel.line_step. rewrite W.
    change (eqb $"undef" $"ifdef") with false. change (eqb $"undef" $"ifndef") with false. cbv iota.
    change (eqb $"undef" $"if" || eqb $"undef" $"elif") with false.
    change (eqb $"undef" $"define" || eqb $"undef" $"undef") with true. cbv iota.
    assert (M : macro_name (g ++ x ++ r) = Some (x, r)).
    { unfold macro_name. rewrite drop_while_app_all by exact G.
      destruct x as [|c x]; [destruct I|]. destruct I as [I1 I2]. cbn [app drop_while].
      rewrite (word_not_space c) by (apply idchar_word, idstart_idchar; exact I1). rewrite I1.
      rewrite span_run; [reflexivity|apply forallb_forall; exact I2|].
      destruct r as [|d r]; [reflexivity|]. cbn. rewrite (H d r eq_refl). reflexivity. }
    rewrite M.
    assert (R : exists y, (if all_true (ift s) then expand_macros fo (tab s) r else Ok r) = Ok y).
    { destruct (all_true (ift s)); [rewrite expand_macros_ok|]; eauto. }
    destruct R as [y R]. rewrite R. cbn [bind]. rewrite A. change (eqb $"undef" $"define") with false. cbv iota.
    eexists. split; [reflexivity|]. cbn [emit set_tab tab]. rewrite strip_ident by exact I. reflexivity.
  Qed.

  Lemma stays_undefined ls x : (forall l, In l ls -> ~ defines x l) -> forall i s s',
    run_lines i s ls = Ok s' -> NoDup (keys (macros (tab s))) ->
    dget (macros (tab s)) x = None -> dget (fnmacros (tab s)) x = None ->
    dget (macros (tab s')) x = None /\ dget (fnmacros (tab s')) x = None.
  Proof.
    induction ls as [|l ls IH]; intros ND i s s' R N M F; cbn [PpModel.run_lines] in R; [injection R as <-; auto|].
    destruct (line_step i s l) as [s1|] eqn:E; [|discriminate]. cbn [bind] in R.
    assert (X : NoDup (keys (macros (tab s1))) /\ dget (macros (tab s1)) x = None /\ dget (fnmacros (tab s1)) x = None).
    { destruct (step_table _ _ _ _ E) as [->|[(n & r & I & -> & D)|(n & ->)]]; [auto| |].
      - assert (x <> n) by (intros ->; exact (ND l (or_introl eq_refl) D)).
        destruct (define_other (tab s) n r x I H) as [A B]. rewrite A, B. split; [|auto].
        unfold define. destruct (pp_define _) as [[[m args] v]|]; [|exact N]. unfold process_macro_defn.
        destruct (dget (fnmacros (tab s)) v); [exact N|]. destruct args; [exact N|]. cbn [macros]. apply NoDup_dset. exact N.
      - cbn [macros fnmacros]. split; [apply NoDup_ddel; exact N|]. split; [|exact F].
        apply dget_None. intros J. apply keys_ddel_incl in J. apply dget_None in M. exact (M J). }
    destruct X as (X1 & X2 & X3). apply (IH (fun l' J => ND l' (or_intror J)) _ _ _ R X1 X2 X3).
  Qed.

  Lemma undef_run i s x r l ls s' : active s = true -> ident x ->
    (forall c r', r = c :: r' -> is_idchar c = false) ->
    (exists g, forallb is_space g = true /\ g <> [] /\ written $"undef" (g ++ x ++ r) l) ->
    (forall l', In l' ls -> ~ defines x l') ->
    NoDup (keys (macros (tab s))) -> dget (fnmacros (tab s)) x = None ->
    run_lines i s (l :: ls) = Ok s' ->
    dget (macros (tab s')) x = None /\ dget (fnmacros (tab s')) x = None.
  Proof.
    intros A I H W D N F R. destruct (undef_step i s x r l A I H W) as (s1 & S1 & T1).
    cbn [PpModel.run_lines] in R. rewrite S1 in R. cbn [bind] in R.
    apply (stays_undefined ls x D _ _ _ R); rewrite T1; cbn [macros fnmacros].
    - apply NoDup_ddel. exact N.
    - apply dget_ddel_same. exact N.
    - exact F.
  Qed.
  Lemma undef_unexpanded t x line ps : dget (macros t) x = None -> dget (fnmacros t) x = None ->
    words_of line ps -> no_literal line ->
    (forall w, In (PWord w) ps -> dget (fnmacros t) w = None) ->
    expand_macros fo t line = Ok (subst (fun w => if eqb w x then x else replaced (macros t) w) ps).
  Proof.
    intros M F W NL NF. rewrite expand_macros_ok. f_equal. rewrite (xm_line fo t line ps W NL) by auto.
    unfold subst. f_equal. apply map_ext. intros [g|w|q]; try reflexivity.
    destruct (eqb w x) eqn:E; [|reflexivity]. apply eqb_eq in E. subst w. unfold replaced. rewrite M. reflexivity.
  Qed.
  Lemma undef_effect i (s : pst) (x r l : str) (ls : list str) (s' : pst) :
    active s = true -> ident x -> (forall c r', r = c :: r' -> is_idchar c = false) ->
    (exists g, forallb is_space g = true /\ g <> [] /\ written $"undef" (g ++ x ++ r) l) ->
    (forall l', In l' ls -> ~ defines x l') ->
    NoDup (keys (macros (tab s))) -> dget (fnmacros (tab s)) x = None -> names_ident (tab s) ->
    run_lines i s (l :: ls) = Ok s' ->
    (forall b l', tests x b l' -> holds (tab s') l' = negb b)
    /\ forall line ps, words_of line ps -> no_literal line ->
         (forall w, In (PWord w) ps -> dget (fnmacros (tab s')) w = None) ->
         expand_macros fo (tab s') line
         = Ok (subst (fun w => if eqb w x then x else replaced (macros (tab s')) w) ps).
  Proof.
    intros A I H W D N F NI R.
    destruct (undef_run i s x r l ls s' A I H W D N F R) as [X Y]. split.
    - intros b l' T. destruct (tests_holds (tab s') x b l' (run_names _ _ _ _ R NI) I T) as [_ E]. rewrite E.
      assert (K : known (tab s') x = false).
      { unfold known. apply dmem_get_false in X. apply dmem_get_false in Y. rewrite X, Y. reflexivity. }
      rewrite K. destruct b; reflexivity.
    - intros line ps W1 NL NF. exact (undef_unexpanded (tab s') x line ps X Y W1 NL NF).
  Qed.

  (** ** Conditions never raise (C32) *)
  Lemma if_ok i s l : opens l -> exists s', line_step i s l = Ok s'.
  Proof. intros O. rewrite step_open by exact O. eauto. Qed.
  Lemma elif_ok i s l : dname l = $"elif" -> length (ift s) = S (length (ifh s)) -> ifh s <> [] ->
    exists s', line_step i s l = Ok s'.
  Proof.
    intros O L N. rewrite step_elif by exact O. destruct (ifh s); [congruence|]. destruct (ift s); [discriminate|]. eauto.
  Qed.
  Lemma raising_region t l rest body e c x :
    written $"if" rest l -> condition fo t rest = Ok c -> py_eval (pp_translate c) = Some (Err x) ->
    well_formed body -> dname e = $"endif" ->
    same_result (run_lines 0 (start t) (l :: lines body ++ [e])) (Ok (start t)).
  Proof.
    intros W C X WB E. destruct (holds_written t _ _ _ (or_introl eq_refl) W) as [D H].
    change (cond_text $"if" rest) with rest in H. rewrite C in H.
    assert (EV : eval_pp ext c = false) by (unfold eval_pp; rewrite X; reflexivity). rewrite EV in H.
    pose proof (region t l body e) as R. rewrite H in R. apply R; auto. unfold opens. rewrite D. cbn. auto.
  Qed.
End Lines.
