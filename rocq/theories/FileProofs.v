(** Proofs about whole files: C's preprocessor and the loop over the lines. *)
From Coq Require Import Ascii String Bool Arith ZArith Lia List.
Import ListNotations.
From Verif Require Import PyBase PyBaseFacts PyStr PyStrFacts PyExpr TypeModel TypeSpec WordFacts StoreModel StoreSpec StoreProofs.
From Verif Require Import MacroModel MacroSpec MacroProofs MacroDefProofs PpModel PpSpec CondProofs ExprSpec ExprText PpProofs.
From Verif Require Import DeclModel EvalModel FileModel FileSpec CallProofs.

(** ** Expansion by the tables *)
Section Tables.
  Context (fo : str -> list str -> option str).
  Notation xm := (xm fo).

  Lemma stands_fns t m : stands_for t m -> forall w ps b, fdef m w = Some (ps, b) -> In w (fns m).
  Proof. intros (_ & _ & F & G & _) w ps b FD. destruct (G w ps b FD) as (_ & _ & d & v & D & _). apply F. congruence. Qed.
  Lemma unknown_tables t m w : stands_for t m -> ~ known_to m w -> dget (macros t) w = None /\ dget (fnmacros t) w = None.
  Proof.
    intros (K & _ & F & _) N. unfold known_to in N. split.
    - apply K. destruct (obj m w); [exfalso; apply N; left; discriminate|reflexivity].
    - destruct (dget (fnmacros t) w) eqn:E; [|reflexivity]. exfalso. apply N. right. apply F. congruence.
  Qed.
  Lemma no_literal_part a s b : no_literal (a ++ s ++ b) -> no_literal s.
  Proof.
    intros N x y -> I. apply (N (a ++ x) (y ++ b)); [rewrite <- !app_assoc; reflexivity|]. apply in_or_app. left. exact I.
  Qed.
  Lemma no_literal_quote s : ~ In dquote s -> no_literal s.
  Proof. intros N a b -> _. apply N. apply in_or_app. right. left. reflexivity. Qed.
  Lemma gap_edge c s : no_literal (c :: s) -> c <> dquote \/ ~ In dquote s.
  Proof. intros N. destruct (ascii_dec c dquote) as [->|E]; [right; apply (N [] s); reflexivity|left; exact E]. Qed.
  Lemma xm_complete t m : stands_for t m ->
    (forall s o, complete m s o -> no_literal s -> xm t s = o)
    /\ (forall l vs, completes m l vs -> (forall a, In a l -> no_literal a) -> map (xm t) l = vs).
  Proof.
    intros ST. pose proof (stands_fns t m ST) as DF. pose proof ST as (K & V & F & G & NI).
    apply (complete_both_ind m (fun s o => no_literal s -> xm t s = o) (fun l vs => (forall a, In a l -> no_literal a) -> map (xm t) l = vs)).
    - intros _. apply xm_nil.
    - intros c s o N _ IH NL. rewrite xm_gap; [|exact N|apply gap_edge; exact NL]. rewrite IH; [reflexivity|]. apply (no_literal_tail c). exact NL.
    - intros w s o W E U _ IH NL. destruct (unknown_tables t m w ST U) as [M1 M2]. rewrite xm_word; [|exact W|apply edge_head; exact E].
      rewrite M1, M2, IH; [reflexivity|]. apply (no_literal_app w). exact NL.
    - intros w b v s o W E O HB _ _ IH NL. rewrite xm_word; [|exact W|apply edge_head; exact E].
      destruct (dget (macros t) w) as [v'|] eqn:D; [|apply K in D; congruence]. destruct (V w v' D) as (b' & O' & HB').
      assert (b' = b) by congruence. subst b'. rewrite (proj1 (complete_unique m) b v HB v' HB'), IH; [reflexivity|]. apply (no_literal_app w). exact NL.
    - intros w ps b ws gap args vals v s o W E O KN FD GP L A CV IHV SN WO HS _ _ IH NL.
      destruct (G w ps b FD) as (NE & HY & d & u & D & CB & FI).
      assert (AN : args <> []) by (intros ->; destruct ps; [contradiction|discriminate L]).
      rewrite (xm_call fo t w _ W) with (d := d); [|apply edge_head; apply edge_call; exact GP|apply K; exact O|exact D].
      rewrite call_split; [|intros c I J; rewrite (GP c J) in I; destruct I as [I|[I|[]]]; discriminate I|exact AN|intros a I c C; apply (args_free args A a c I C)].
      assert (EV : map (fun a => xm t (strip a)) args = vals).
      { rewrite <- map_map. apply IHV. intros a I. apply in_map_iff in I. destruct I as (a0 & <- & I). apply no_literal_quote. intros J.
        rewrite Forall_forall in A. apply (A a0 I dquote); [cbn; auto|]. destruct (strip_parts a0) as (x & y & -> & _). apply in_or_app. right. apply in_or_app. left. exact J. }
      rewrite EV. assert (LV : length vals = length ps) by (rewrite (completes_length m _ _ CV), map_length; exact L).
      destruct (words_exist u) as [wu WU]. destruct (FI vals wu LV WU) as (picked & M & FM). rewrite M. cbn [bind]. unfold format. rewrite FM. cbn [bind].
      f_equal.
      + apply (sb_fun (bound ps vals) u); [|apply sb_subst; exact WU].
        apply (proj1 (commute m DF ps vals LV (proj2 (complete_inert m) _ _ CV)) b u CB HY SN (subst (bound ps vals) ws)); [apply sb_subst; exact WO|exact HS].
      + apply IH. apply (no_literal_part (w ++ gap ++ "("%char :: join [","%char] args ++ [")"%char]) s []).
        rewrite app_nil_r. repeat (rewrite <- !app_assoc; cbn [app]). exact NL.
    - reflexivity.
    - intros a v l vs _ IHA _ IHL NL. cbn [map]. rewrite IHA, IHL; [reflexivity| |]; [intros x I; apply NL; right; exact I|apply NL; left; reflexivity].
  Qed.
  Lemma xm_expands t m s o : stands_for t m -> expands m s o -> xm t s = o.
  Proof.
    intros ST E. destruct E as [s o NL C|s N L].
    - apply (proj1 (xm_complete t m ST)); assumption.
    - apply xm_unknown; [intros w I; apply (unknown_tables t m w ST (N w I))|].
      right. intros a c E. apply (unknown_tables t m [c] ST (L a c E)).
  Qed.
  Lemma expands_complete m s o : expands m s o -> complete m s o.
  Proof. intros [s' o' NL C|s' N L]; [exact C|]. apply complete_same. exact N. Qed.

  Lemma stands_other t m n b x : stands_for t m -> ~ mentioned m n -> b = None \/ ident n ->
    (forall w, dget (macros x) w = if eqb w n then match b with Some (_, v) => Some v | None => None end else dget (macros t) w) ->
    fnmacros x = fnmacros t -> (forall y v, b = Some (y, v) -> complete m y v /\ ~ name_in n y) -> names_ident x ->
    stands_for x (set_obj m n (option_map fst b)).
  Proof.
    intros ST NM IN DM EF CB NX. pose proof (stands_fns t m ST) as DF. destruct ST as (K & V & F & G & _). set (m' := set_obj m n (option_map fst b)).
    assert (AG : forall w, w <> n -> obj m' w = obj m w).
    { intros w N. cbn [obj m' set_obj]. rewrite (proj2 (eqb_false w n) N). reflexivity. }
    assert (AB : forall w c, w <> n -> obj m w = Some c -> ~ name_in n c).
    { intros w c _ B I. apply NM. left. exists w, c. auto. }
    assert (AF : forall w ps c, w <> n -> fdef m w = Some (ps, c) -> ~ name_in n c).
    { intros w ps c _ B I. apply NM. right. exists w, ps, c. auto. }
    pose proof (proj1 (complete_without n m m' DF AG (fun w _ => eq_refl) (fun w _ => iff_refl _) AB AF)) as CW.
    split; [|split; [|split; [|split]]].
    - intros w. rewrite DM. cbn [obj m' set_obj]. destruct (eqb_spec w n) as [->|N]; [destruct b as [[y v]|]; cbn; split; congruence|apply K].
    - intros w v. rewrite DM. destruct (eqb_spec w n) as [->|N].
      + destruct b as [[y v']|]; [|discriminate]. intros E. injection E as <-. exists y. cbn [obj m' set_obj option_map fst]. rewrite eqb_refl. split; [reflexivity|].
        destruct (CB y v' eq_refl) as [C N]. apply CW; assumption.
      + intros E. destruct (V w v E) as (c & B & C). exists c. split; [rewrite (AG w N); exact B|]. apply CW; [exact C|]. intros I. apply NM. left. exists w, c. auto.
    - rewrite EF. exact F.
    - intros w ps c FD. destruct (G w ps c FD) as (NE & HY & d & v & D & C & FI).
      assert (NC : ~ name_in n c) by (intros I; apply NM; right; exists w, ps, c; auto).
      split; [exact NE|]. split.
      + intros p I. destruct (HY p I) as [U KP]. split.
        * intros X. apply U. apply (uses_back n m m' AG (fun w _ => eq_refl) AB AF c p X NC).
        * intros J. assert (PN : p <> n) by (intros ->; contradiction).
          rewrite (known_without n m m' AG (fun w _ => iff_refl _) p PN). apply KP. exact J.
      + exists d, v. split; [rewrite EF; exact D|]. split; [apply CW; assumption|exact FI].
    - exact NX.
  Qed.
  Lemma stands_object t m n body v : stands_for t m -> ident n -> usable m n body v ->
    stands_for {| macros := dset (macros t) n v; fnmacros := fnmacros t |} (set_obj m n (Some body)).
  Proof.
    intros ST IN (NK & NM & NB & EX & _). apply (stands_other t m n (Some (body, v))); auto.
    - intros w. cbn [macros]. apply dget_dset.
    - intros y v' E. injection E as <- <-. split; [apply expands_complete; exact EX|exact NB].
    - destruct ST as (_ & _ & _ & _ & NI). intros w. cbn [macros fnmacros]. unfold dmem. rewrite dget_dset. destruct (eqb_spec w n) as [->|N]; [intros _; exact IN|apply NI].
  Qed.
  Lemma stands_undef t m n : stands_for t m -> NoDup (keys (macros t)) -> ~ mentioned m n ->
    stands_for {| macros := ddel (macros t) n; fnmacros := fnmacros t |} (set_obj m n None).
  Proof.
    intros ST ND NM. apply (stands_other t m n None); auto.
    - intros w. cbn [macros]. destruct (eqb_spec w n) as [->|N]; [apply dget_ddel_same; exact ND|apply dget_ddel_other; exact N].
    - intros y v' E. discriminate E.
    - apply ddel_names. apply ST.
  Qed.
  (** A definition of a function-like macro. *)
  Definition sound_fn (m : cmac) (n : str) (d : option (list str * str)) (x : str * list nat) : Prop :=
    forall ps body, d = Some (ps, body) ->
      ps <> [] /\ ~ name_in n body /\ (forall p, In p ps -> ~ uses m body p /\ ~ known_to m p)
      /\ exists v, complete m body v /\ fills x ps v.
  Lemma stands_fn t m n d x : stands_for t m -> ident n -> ~ mentioned m n -> sound_fn m n d x ->
    stands_for {| macros := macros t; fnmacros := dset (fnmacros t) n x |} (add_fn m n d).
  Proof.
    intros ST IN NM SF. pose proof (stands_fns t m ST) as DF. destruct ST as (K & V & F & G & NI). set (m' := add_fn m n d).
    assert (AG : forall w, w <> n -> obj m' w = obj m w) by reflexivity.
    assert (EF : forall w, w <> n -> fdef m' w = fdef m w).
    { intros w N. cbn [fdef m' add_fn]. rewrite (proj2 (eqb_false w n) N). reflexivity. }
    assert (EN : forall w, w <> n -> (In w (fns m') <-> In w (fns m))).
    { intros w N. cbn [fns m' add_fn In]. split; [intros [E|I]; [congruence|exact I]|auto]. }
    assert (AB : forall w c, w <> n -> obj m w = Some c -> ~ name_in n c).
    { intros w c _ B I. apply NM. left. exists w, c. auto. }
    assert (AF : forall w ps c, w <> n -> fdef m w = Some (ps, c) -> ~ name_in n c).
    { intros w ps c _ B I. apply NM. right. exists w, ps, c. auto. }
    pose proof (proj1 (complete_without n m m' DF AG EF EN AB AF)) as CW.
    assert (HY' : forall ps c, ~ name_in n c -> (forall p, In p ps -> ~ uses m c p /\ (name_in p c -> ~ known_to m p)) ->
                    forall p, In p ps -> ~ uses m' c p /\ (name_in p c -> ~ known_to m' p)).
    { intros ps c NC HY p I. destruct (HY p I) as [U KP]. split.
      - intros X. apply U. apply (uses_back n m m' AG EF AB AF c p X NC).
      - intros J. assert (PN : p <> n) by (intros ->; contradiction). rewrite (known_without n m m' AG EN p PN). apply KP. exact J. }
    split; [exact K|]. split; [|split; [|split]].
    - intros w v E. destruct (V w v E) as (c & B & C). exists c. split; [exact B|]. apply CW; [exact C|]. intros I. apply NM. left. exists w, c. auto.
    - intros w. cbn [fnmacros fns m' add_fn In]. rewrite dget_dset. destruct (eqb_spec w n) as [->|N]; [split; [auto|discriminate]|].
      rewrite F. split; [auto|]. intros [E|I]; [congruence|exact I].
    - intros w ps c FD. cbn [fdef m' add_fn] in FD. cbn [fnmacros]. rewrite dget_dset. destruct (eqb_spec w n) as [->|N].
      + destruct (SF ps c FD) as (NE & NB & HY & v & C & FI). split; [exact NE|]. split; [apply HY'; [exact NB|]|].
        * intros p I. destruct (HY p I) as [U KP]. auto.
        * exists x, v. split; [reflexivity|]. split; [apply CW; assumption|exact FI].
      + destruct (G w ps c FD) as (NE & HY & d' & v & D & C & FI).
        assert (NC : ~ name_in n c) by (intros I; apply NM; right; exists w, ps, c; auto).
        split; [exact NE|]. split; [apply HY'; assumption|]. exists d', v. split; [exact D|]. split; [apply CW; assumption|exact FI].
    - intros w. cbn [macros fnmacros]. unfold dmem. rewrite dget_dset. destruct (eqb_spec w n) as [->|N]; [intros _; exact IN|apply NI].
  Qed.
  Lemma compiled_fills v ps : ~ In dquote v -> free_of ["{"; "}"]%char v -> fills (compile_fn_macro v ps) ps v.
  Proof.
    intros NQ NB args ws L W. assert (C : code_of v ws).
    { destruct W as (T & M & FW). split; [exact T|]. split; [exact M|]. intros p I. specialize (FW p I). destruct p as [g|w|q]; [|exact FW|contradiction].
      destruct FW as [NE NW]. split; [exact NE|]. split; [exact NW|]. intros J. apply NQ. rewrite T. unfold text. apply in_concat. exists g. split; [|exact J].
      apply in_map_iff. exists (PGap g). auto. }
    pose proof (proj1 C) as T. rewrite T in C, NB |- *. unfold compile_fn_macro. rewrite compile_text by (auto; lia). cbn [fst snd].
    destruct (fmt_tmpl ps args ws L NB) as (pk & M & FM). exists pk. split; [exact M|]. specialize (FM []). rewrite app_nil_r in FM. exact FM.
  Qed.
  (** The parameter list is left as it is. *)
  Lemma names_complete m s l r r' : name_list s l r -> (forall p, In p l -> ~ known_to m p) -> complete m r r' ->
    exists s', name_list s' l r' /\ complete m s s'.
  Proof.
    assert (BC : forall b s s', blanks b -> complete m s s' -> complete m (b ++ s) (b ++ s')).
    { intros b s0 s0' B C. induction b as [|c b IH]; [exact C|]. cbn [app]. apply co_char; [rewrite (B c (or_introl eq_refl)); reflexivity|].
      apply IH. intros d I. apply B. right. exact I. }
    assert (BE : forall b c s0, blanks b -> is_word c = false -> edge (b ++ c :: s0)).
    { intros b c s0 B N. destruct b as [|d b]; [apply edge_cons; exact N|]. apply edge_cons. rewrite (B d (or_introl eq_refl)). reflexivity. }
    intros H. revert r'. induction H as [b n b' r B I B'|b n b' s l r B I B' H IH]; intros r' U C.
    - exists (b ++ n ++ b' ++ ")"%char :: r'). split; [apply nl_last; assumption|]. apply BC; [exact B|].
      apply co_word; [apply ident_word; exact I|apply BE; [exact B'|reflexivity]|apply U; left; reflexivity|]. apply BC; [exact B'|]. apply co_char; [reflexivity|exact C].
    - destruct (IH r') as (s' & N' & C'); [intros p J; apply U; right; exact J|exact C|].
      exists (b ++ n ++ b' ++ ","%char :: s'). split; [apply nl_more; assumption|]. apply BC; [exact B|].
      apply co_word; [apply ident_word; exact I|apply BE; [exact B'|reflexivity]|apply U; left; reflexivity|]. apply BC; [exact B'|]. apply co_char; [reflexivity|exact C'].
  Qed.
End Tables.

(** ** Conditions *)
Lemma stands_lookup t t' m : stands_for t m -> stands_for t' m ->
  (forall w, dget (macros t) w = dget (macros t') w)
  /\ (forall w, dget (fnmacros t) w = None <-> dget (fnmacros t') w = None).
Proof.
  intros (K & V & F & _) (K' & V' & F' & _). split; intros w.
  - destruct (dget (macros t) w) as [v|] eqn:D, (dget (macros t') w) as [v'|] eqn:D'.
    + destruct (V w v D) as (b & B & C), (V' w v' D') as (b' & B' & C'). assert (b' = b) by congruence. subst b'.
      f_equal. apply (proj1 (complete_unique m) b v' C' v C).
    + apply K' in D'. apply K in D'. congruence.
    + apply K in D. apply K' in D. congruence.
    + reflexivity.
  - specialize (F w). specialize (F' w). destruct (dget (fnmacros t) w), (dget (fnmacros t') w); split; intros E; try reflexivity; try discriminate E.
    + exfalso. assert (X : In w (fns m)) by (apply F; discriminate). apply F' in X. congruence.
    + exfalso. assert (X : In w (fns m)) by (apply F'; discriminate). apply F in X. congruence.
Qed.
Lemma resolve_same t t' f e : (forall w, dget (macros t) w = dget (macros t') w) ->
  (forall w, dget (fnmacros t) w = None <-> dget (fnmacros t') w = None) -> resolve t f e = resolve t' f e.
Proof.
  intros M F. induction e as [d|w|w|a IH|a IH|a IH|a IH|o a IHa b IHb|o a IHa b IHb|a IHa b IHb|a IHa b IHb|a IH]; cbn [resolve];
    try (rewrite ?IH, ?IHa, ?IHb; reflexivity).
  - rewrite M. reflexivity.
  - rewrite M. specialize (F w). destruct (dget (macros t') w), (dget (fnmacros t) w), (dget (fnmacros t') w); try reflexivity;
      destruct F as [F1 F2]; try (discriminate (F1 eq_refl)); try (discriminate (F2 eq_refl)).
Qed.
Lemma readable_same t t' f e : (forall w, dget (macros t) w = dget (macros t') w) ->
  (forall w, dget (fnmacros t) w = None <-> dget (fnmacros t') w = None) -> readable t f e -> readable t' f e.
Proof.
  intros M F R w I. destruct (R w I) as [R1 R2]. split; [apply F; exact R1|]. intros v D. rewrite <- M in D.
  destruct (R2 v D) as (A & B & C & X). split; [exact A|]. split; [exact B|]. split; [exact C|]. intros w' I'. rewrite <- M, <- F. apply X. exact I'.
Qed.
Lemma known_stands t m x : stands_for t m -> (known t x = true <-> known_to m x).
Proof.
  intros (K & _ & F & _). unfold known, known_to. rewrite orb_true_iff, !dmem_get, F. specialize (K x).
  destruct (dget (macros t) x), (obj m x); split; intros [H|H]; auto; left; intros E; try discriminate E; try (now apply H);
    try (apply K in E; discriminate E).
Qed.
Section Conditions.
  Context (fo : str -> list str -> option str) (ext : str -> bool).
  Lemma decides_holds t m l b : stands_for t m -> decides m l b -> holds fo ext t l = b.
  Proof.
    intros ST D. pose proof ST as (_ & _ & _ & _ & NI). destruct D as [x b l I T K|x b l I T K|d rest l e t' f z I W G SP ST' R P V].
    - destruct (tests_holds fo ext t x b l NI I T) as [_ ->]. apply (known_stands t m x ST) in K. rewrite K. destruct b; reflexivity.
    - destruct (tests_holds fo ext t x b l NI I T) as [_ ->].
      assert (K' : known t x = false) by (destruct (known t x) eqn:E; [exfalso; apply K; apply (known_stands t m x ST); exact E|reflexivity]).
      rewrite K'. destruct b; reflexivity.
    - destruct (stands_lookup t t' m ST ST') as [M F].
      assert (F' : forall w, dget (fnmacros t') w = None <-> dget (fnmacros t) w = None) by (intros w; symmetry; apply F).
      assert (M' : forall w, dget (macros t') w = dget (macros t) w) by (intros w; symmetry; apply M).
      pose proof (readable_same t' t f e M' F' R) as R'. rewrite (resolve_same t' t f e M' F') in P, V.
      destruct (holds_written fo ext t d rest l) as [_ H]; [destruct I as [<-|[<-|[]]]; cbn; auto|exact W|]. rewrite H.
      destruct (condition_value fo ext t f e rest z NI G SP R' P V) as (c & C1 & C2).
      assert (CT : cond_text d rest = rest) by (destruct I as [<-|[<-|[]]]; reflexivity).
      rewrite CT, C1. exact C2.
  Qed.
End Conditions.

(** ** Definitions *)
Lemma blanks_space a : blanks a -> forallb is_space a = true.
Proof. intros B. apply forallb_forall. intros c I. rewrite (B c I). reflexivity. Qed.
Lemma blanks_plain a : blanks a -> plain_line a.
Proof. intros B c I J. rewrite (B c J) in I. destruct I as [I|[I|[I|[]]]]; discriminate I. Qed.
Lemma name_in_blank c s w : is_word c = false -> name_in w (c :: s) -> name_in w s.
Proof.
  intros N (a & b & E & W & H1 & H2). destruct a as [|d a].
  - exfalso. destruct W as [NE F]. destruct w as [|x w]; [contradiction|]. injection E as <- _. rewrite (F c (or_introl eq_refl)) in N. discriminate N.
  - injection E as <- ->. exists a, b. split; [reflexivity|]. split; [exact W|]. split; [exact H1|]. intros d a' ->. apply (H2 d (c :: a')). reflexivity.
Qed.
Lemma name_in_before a s w : blanks a -> name_in w (a ++ s) -> name_in w s.
Proof.
  induction a as [|c a IH]; intros B N; [exact N|]. apply IH; [intros d I; apply B; right; exact I|].
  apply (name_in_blank c); [rewrite (B c (or_introl eq_refl)); reflexivity|exact N].
Qed.
Lemma name_in_last c s w : is_word c = false -> name_in w (s ++ [c]) -> name_in w s.
Proof.
  intros N (a & b & E & W & H1 & H2). destruct (rev b) as [|d x] eqn:RB.
  - exfalso. apply (f_equal (@rev _)) in RB. rewrite rev_involutive in RB. cbn in RB. subst b. rewrite app_nil_r in E.
    destruct W as [NE F]. destruct (exists_last NE) as (w' & x & EW). rewrite EW, app_assoc in E. apply app_inj_tail in E. destruct E as [_ <-].
    rewrite F in N; [discriminate N|]. rewrite EW. apply in_or_app. right. left. reflexivity.
  - apply (f_equal (@rev _)) in RB. rewrite rev_involutive in RB. cbn in RB. subst b. rewrite !app_assoc in E. apply app_inj_tail in E. destruct E as [E <-].
    exists a, (rev x). split; [rewrite app_assoc; exact E|]. split; [exact W|]. split; [|exact H2].
    intros e y Y. apply (H1 e (y ++ [c])). rewrite Y. reflexivity.
Qed.
Lemma name_in_after s b w : blanks b -> name_in w (s ++ b) -> name_in w s.
Proof.
  induction b as [|c b IH] using rev_ind; intros B N; [rewrite app_nil_r in N; exact N|].
  apply IH; [intros d I; apply B; apply in_or_app; left; exact I|]. rewrite app_assoc in N.
  apply (name_in_last c) in N; [exact N|]. rewrite (B c); [reflexivity|apply in_or_app; right; left; reflexivity].
Qed.
Lemma cut_common (c : ascii) (x b p q : str) : ~ In c b -> p ++ c :: q = x ++ b -> exists x', x = p ++ c :: x' /\ q = x' ++ b.
Proof.
  revert p. induction x as [|d x IH]; intros p N E.
  - exfalso. apply N. cbn in E. rewrite <- E. apply in_or_app. right. left. reflexivity.
  - destruct p as [|e p].
    + injection E as <- ->. exists x. auto.
    + injection E as <- E. destruct (IH p N E) as (x' & -> & ->). exists x'. auto.
Qed.
Lemma names_before s l r : name_list s l r -> forall x b, s = x ++ b -> blanks b -> exists r', name_list x l r'.
Proof.
  induction 1 as [b1 n b2 r B1 I1 B2|b1 n b2 s l r B1 I1 B2 NL IH]; intros x b E B.
  - rewrite !app_assoc in E. assert (NB : ~ In ")"%char b) by (intros I; apply B in I; discriminate I).
    destruct (cut_common ")"%char x b _ r NB E) as (x' & -> & _).
    exists x'. rewrite <- !app_assoc. apply nl_last; assumption.
  - rewrite !app_assoc in E. assert (NB : ~ In ","%char b) by (intros I; apply B in I; discriminate I).
    destruct (cut_common ","%char x b _ s NB E) as (x' & -> & ES).
    destruct (IH x' b ES B) as (r' & NL'). exists r'. rewrite <- !app_assoc. apply nl_more; assumption.
Qed.
Lemma begins_inside a v b l r : blanks a -> blanks b -> strip v = v -> begins_with_names (a ++ v ++ b) l r ->
  exists r', begins_with_names v l r'.
Proof.
  intros A B SV (g & s' & E & G & NL).
  destruct (cut_common "("%char (a ++ v) b g s') as (x & EX & ES).
  { intros I. apply B in I. discriminate I. }
  { rewrite <- app_assoc. symmetry. exact E. }
  destruct (names_before s' l r NL x b ES B) as (r' & NL').
  (* the parenthesis is the first character of v *)
  assert (V : exists g', v = g' ++ "("%char :: x /\ blanks g').
  { clear - EX A G. revert g EX G. induction a as [|c a IH]; intros g EX G; [exists g; auto|].
    destruct g as [|d g]; [injection EX as E _; rewrite (A c (or_introl eq_refl)) in E; discriminate E|].
    injection EX as _ EX. apply (IH (fun d I => A d (or_intror I)) g EX). intros y I. apply G. right. exact I. }
  destruct V as (g' & -> & G'). exists r'. exists g', x. auto.
Qed.
Lemma object_macro m n body v a b : blanks a -> blanks b -> usable m n body v ->
  (forall g x, blanks g -> a ++ v ++ b <> g ++ "("%char :: x)
  \/ (free_of quotes (a ++ v ++ b) /\ forall l r, ~ begins_with_names (a ++ v ++ b) l r).
Proof.
  intros A B (_ & _ & _ & _ & SV & _ & _ & H). destruct H as [H|[H1 H2]].
  - left. intros g x G E. destruct (cut_common "("%char (a ++ v) b g x) as (x' & EX & _).
    { intros I. apply B in I. discriminate I. }
    { rewrite <- app_assoc. symmetry. exact E. }
    assert (V : exists g', v = g' ++ "("%char :: x' /\ blanks g').
    { clear - EX A G. revert g EX G. induction a as [|c a IH]; intros g EX G; [exists g; auto|].
      destruct g as [|d g]; [injection EX as E _; rewrite (A c (or_introl eq_refl)) in E; discriminate E|].
      injection EX as _ EX. apply (IH (fun d I => A d (or_intror I)) g EX). intros y I. apply G. right. exact I. }
    destruct V as (g' & EV & G'). destruct g' as [|c g']; [apply (H x'); exact EV|].
    pose proof (strip_trim v) as [T _]. rewrite SV, EV in T. cbn in T. rewrite (G' c (or_introl eq_refl)) in T. discriminate T.
  - right. split.
    + apply free_app. split; [|apply free_app; split; [exact H1|]];
        intros c I J; [rewrite (A c J) in I|rewrite (B c J) in I]; destruct I as [I|[I|[]]]; discriminate I.
    + intros l r X. destruct (begins_inside a v b l r A B SV X) as (r' & X'). exact (H2 l r' X').
Qed.
Section Padding.
  Context (fo : str -> list str -> option str).
  Lemma xm_pad t m a s b o : stands_for t m -> blanks a -> blanks b -> expands m s o -> xm fo t (a ++ s ++ b) = a ++ o ++ b.
  Proof.
    intros ST A B E. assert (NW : forall x, blanks x -> no_word x).
    { intros x H c I. rewrite (H c I). reflexivity. }
    destruct E as [s o NL C|s N L].
    - apply (proj1 (xm_complete fo t m ST)); [apply complete_around; [apply NW; exact A|apply NW; exact B|exact C]|].
      intros x y E I. assert (NQ : forall z, blanks z -> ~ In dquote z) by (intros z H J; apply H in J; discriminate J).
      assert (E' : x ++ dquote :: y = (a ++ s) ++ b) by (rewrite <- app_assoc; symmetry; exact E).
      destruct (cut_common dquote (a ++ s) b x y (NQ b B) E') as (y1 & EA & EY).
      assert (X : exists x2, s = x2 ++ dquote :: y1).
      { clear - EA A NQ. revert x EA. induction a as [|c a IH]; intros x EA; [exists x; exact EA|].
        destruct x as [|d x]; [exfalso; injection EA as E _; specialize (A c (or_introl eq_refl)); rewrite A in E; discriminate E|].
        injection EA as _ EA. apply (IH (fun d I => A d (or_intror I)) x EA). }
      destruct X as (x2 & ES). apply (NL x2 y1 ES). rewrite EY in I. apply in_app_or in I. destruct I as [I|I]; [exact I|]. exfalso. exact (NQ b B I).
    - apply xm_unknown.
      + intros w I. apply (unknown_tables t m w ST). apply N. apply (name_in_after s b w B). apply (name_in_before a (s ++ b) w A). exact I.
      + right. intros x c E. pose proof ST as (K & V & F & _ & NI).
        destruct (is_word c) eqn:WC.
        * (* the last character belongs to s *)
          apply (unknown_tables t m [c] ST).
          assert (BE : b = []).
          { destruct (rev b) as [|d y] eqn:RB; [apply (f_equal (@rev _)) in RB; rewrite rev_involutive in RB; exact RB|].
            apply (f_equal (@rev _)) in RB. rewrite rev_involutive in RB. cbn in RB. rewrite RB, !app_assoc in E. apply app_inj_tail in E. destruct E as [_ ->].
            rewrite (B c) in WC; [discriminate WC|]. rewrite RB. apply in_or_app. right. left. reflexivity. }
          subst b. rewrite app_nil_r in E. destruct (rev s) as [|d y] eqn:RS.
          -- apply (f_equal (@rev _)) in RS. rewrite rev_involutive in RS. cbn in RS. subst s. rewrite app_nil_r in E. exfalso.
             rewrite (A c) in WC; [discriminate WC|]. rewrite E. apply in_or_app. right. left. reflexivity.
          -- apply (f_equal (@rev _)) in RS. rewrite rev_involutive in RS. cbn in RS. rewrite RS, app_assoc in E. apply app_inj_tail in E. destruct E as [_ ->].
             apply (L (rev y) c). exact RS.
        * destruct (dget (macros t) [c]) eqn:D; [|reflexivity]. exfalso. assert (I : ident [c]).
          { apply NI. left. unfold dmem. rewrite D. reflexivity. }
          destruct I as [I _]. rewrite (idchar_word c (idstart_idchar c I)) in WC. discriminate WC.
  Qed.
End Padding.

(** ** The loop over the lines follows C *)
Scheme cpp_ind2 := Minimality for cpp Sort Prop
with cpp_branches_ind2 := Minimality for cpp_branches Sort Prop.
Combined Scheme cpp_both_ind from cpp_ind2, cpp_branches_ind2.

Lemma macro_name_read g n rest : forallb is_space g = true -> ident n -> (forall c r, rest = c :: r -> is_idchar c = false) ->
  macro_name (g ++ n ++ rest) = Some (n, rest).
Proof.
  intros G I H. unfold macro_name. rewrite drop_while_app_all by exact G.
  destruct n as [|c x]; [destruct I|]. destruct I as [I1 I2]. cbn [app drop_while].
  rewrite (word_not_space c) by (apply idchar_word, idstart_idchar; exact I1). rewrite I1.
  rewrite span_run; [reflexivity|apply forallb_forall; exact I2|].
  destruct rest as [|d r]; [reflexivity|]. cbn. rewrite (H d r eq_refl). reflexivity.
Qed.
Section Lines.
  Context (fo : str -> list str -> option str) (ext : str -> bool).
  Notation line_step := (line_step fo ext).
  Notation run_lines := (run_lines fo ext).
  Notation other_step := (other_step fo).

  Lemma other_define i p l g n rest r : directive l = Some ($"define", g ++ n ++ rest) -> macro_name (g ++ n ++ rest) = Some (n, rest) ->
    all_true (ift p) = true -> active p = true -> xm fo (tab p) rest = r ->
    line_step i p l = Ok (emit (set_tab p (define (tab p) n r)) []).
  Proof.
    intros D M AT AC X. rewrite step_other.
    - unfold CondProofs.other_step. rewrite D. change (eqb $"define" $"define" || eqb $"define" $"undef") with true. cbv iota.
      rewrite M, AT, AC, X. reflexivity.
    - unfold conditional, dname. rewrite D. intros [E|[E|[E|[E|[E|[E|[]]]]]]]; discriminate E.
  Qed.
  Lemma step_object i p m n body v l : stands_for (tab p) m -> all_true (ift p) = true -> active p = true ->
    object_line n body l -> usable m n body v ->
    line_step i p l = Ok (emit (set_tab p {| macros := dset (macros (tab p)) n v; fnmacros := fnmacros (tab p) |}) []).
  Proof.
    intros ST AT AC (g & a & b & W & G & NE & A & B & AB & IN & SB & PL) U.
    apply directive_written in W; [|discriminate|reflexivity].
    assert (H : forall c r, a ++ body ++ b = c :: r -> is_idchar c = false).
    { intros c r E. destruct a as [|d a].
      - destruct AB as [AB| ->]; [congruence|]. cbn in E. rewrite (B c) by (rewrite E; left; reflexivity). reflexivity.
      - injection E as <- _. rewrite (A d (or_introl eq_refl)). reflexivity. }
    pose proof U as (NK & NM & NB & EX & SV & PV & NF & _).
    rewrite (other_define i p l g n (a ++ body ++ b) (a ++ v ++ b) W (macro_name_read g n _ G IN H) AT AC (xm_pad fo (tab p) m a body b v ST A B EX)).
    rewrite define_object; [|exact IN| |apply (object_macro m n body v a b A B U)|].
    - rewrite strip_blanks by (apply blanks_space; exact A).
      assert (SS : strip (v ++ b) = v); [|rewrite SS; reflexivity].
      destruct v as [|c v]; [cbn [app]; rewrite <- (app_nil_r b), strip_blanks by (apply blanks_space; exact B); reflexivity|].
      assert (X := strip_trimmed [] (c :: v) b eq_refl (blanks_space b B)). cbn [app] in X. apply X.
      split; [discriminate|]. rewrite <- SV. apply strip_trim.
    - unfold plain_line. rewrite !free_app. split; [apply blanks_plain; exact A|]. split; [exact PV|apply blanks_plain; exact B].
    - assert (SS : strip (a ++ v ++ b) = v).
      { rewrite strip_blanks by (apply blanks_space; exact A).
        destruct v as [|c v]; [cbn [app]; rewrite <- (app_nil_r b), strip_blanks by (apply blanks_space; exact B); reflexivity|].
        assert (X := strip_trimmed [] (c :: v) b eq_refl (blanks_space b B)). cbn [app] in X. apply X.
        split; [discriminate|]. rewrite <- SV. apply strip_trim. }
      rewrite SS. destruct ST as (_ & _ & F & _). destruct (dget (fnmacros (tab p)) v) eqn:D; [|reflexivity]. exfalso. apply NF. apply F. congruence.
  Qed.
  Lemma step_function i p m n d l : stands_for (tab p) m -> all_true (ift p) = true -> active p = true -> function_line m n d l ->
    exists x, line_step i p l = Ok (emit (set_tab p {| macros := macros (tab p); fnmacros := dset (fnmacros (tab p)) n x |}) []) /\ ident n /\ sound_fn m n d x.
  Proof.
    intros ST AT AC FL. destruct FL as [g rest ps body l W G NE IN (r & ER) PL BN NK NL NF|g params ps a body b v l W G NE IN NP A B NN HP SB FB NB C SV PV FV].
    - apply directive_written in W; [|discriminate|reflexivity].
      assert (H : forall c r, rest = c :: r -> is_idchar c = false) by (intros c r' E; rewrite ER in E; injection E as <- _; reflexivity).
      rewrite (other_define i p l g n rest rest W (macro_name_read g n _ G IN H) AT AC (xm_expands fo (tab p) m rest rest ST (ex_none m rest NK NL))).
      rewrite (define_function _ n rest ps body IN PL BN); [eexists; split; [reflexivity|split; [exact IN|intros qs c E; discriminate E]]|].
      destruct ST as (_ & _ & F & _). destruct (dget (fnmacros (tab p)) (strip body)) eqn:D; [|reflexivity]. exfalso. apply NF. apply F. congruence.
    - apply directive_written in W; [|discriminate|reflexivity].
      assert (NWB : forall x, blanks x -> no_word x) by (intros x X c I; rewrite (X c I); reflexivity).
      destruct (names_complete m params ps (a ++ body ++ b) (a ++ v ++ b) NP (fun q I => proj1 (HP q I))) as (params' & NP' & CP);
        [apply complete_around; [apply NWB; exact A|apply NWB; exact B|exact C]|].
      assert (XR : xm fo (tab p) ("("%char :: params) = "("%char :: params').
      { apply (proj1 (xm_complete fo (tab p) m ST)); [apply co_char; [reflexivity|exact CP]|]. apply no_literal_quote.
        assert (X : forall s l r, name_list s l r -> ~ In dquote r -> ~ In dquote s).
        { assert (NI : forall x, ident x -> ~ In dquote x).
          { intros x I J. destruct (ident_idchars x I) as [_ FI]. rewrite forallb_forall in FI. specialize (FI dquote J). discriminate FI. }
          assert (NBL : forall x, blanks x -> ~ In dquote x) by (intros x X J; apply X in J; discriminate J).
          clear - NI NBL. induction 1 as [x y z r X Y Z|x y z s l r X Y Z H IH]; intros N J.
          - apply in_app_or in J. destruct J as [J|J]; [exact (NBL x X J)|]. apply in_app_or in J. destruct J as [J|J]; [exact (NI y Y J)|].
            apply in_app_or in J. destruct J as [J|[J|J]]; [exact (NBL z Z J)|discriminate J|exact (N J)].
          - apply in_app_or in J. destruct J as [J|J]; [exact (NBL x X J)|]. apply in_app_or in J. destruct J as [J|J]; [exact (NI y Y J)|].
            apply in_app_or in J. destruct J as [J|[J|J]]; [exact (NBL z Z J)|discriminate J|exact (IH N J)]. }
        intros [J|J]; [discriminate J|]. revert J. apply (X params ps _ NP). intros J.
        assert (NBL : forall x, blanks x -> ~ In dquote x) by (intros x X' J'; apply X' in J'; discriminate J').
        apply in_app_or in J. destruct J as [J|J]; [exact (NBL a A J)|]. apply in_app_or in J. destruct J as [J|J]; [|exact (NBL b B J)].
        apply (FB dquote); [left; reflexivity|exact J]. }
      rewrite (other_define i p l g n ("("%char :: params) ("("%char :: params') W) ; [|apply macro_name_read; [exact G|exact IN|intros c r E; injection E as <- _; reflexivity]|exact AT|exact AC|exact XR].
      assert (SS : strip (a ++ v ++ b) = v).
      { rewrite strip_blanks by (apply blanks_space; exact A).
        destruct v as [|c v]; [cbn [app]; rewrite <- (app_nil_r b), strip_blanks by (apply blanks_space; exact B); reflexivity|].
        assert (X := strip_trimmed [] (c :: v) b eq_refl (blanks_space b B)). cbn [app] in X. apply X.
        split; [discriminate|]. rewrite <- SV. apply strip_trim. }
      rewrite (define_function _ n ("("%char :: params') ps (a ++ v ++ b) IN).
      + rewrite SS. eexists. split; [reflexivity|]. split; [exact IN|]. intros qs c E. injection E as <- <-.
        split; [clear - NP; destruct NP; discriminate|]. split; [exact NB|]. split; [intros q I; split; apply HP; exact I|].
        exists v. split; [exact C|]. apply (compiled_fills fo); [exact (FV dquote (or_introl eq_refl))|]. intros c I. exact (FV c (or_intror I)).
      + assert (X : forall s l r, name_list s l r -> plain_line r -> plain_line s).
        { assert (NI : forall x, ident x -> plain_line x).
          { intros x I c C' J. destruct (ident_idchars x I) as [_ FI]. rewrite forallb_forall in FI. specialize (FI c J). destruct C' as [<-|[<-|[<-|[]]]]; discriminate FI. }
          clear - NI. induction 1 as [x y z r X Y Z|x y z s l r X Y Z H IH]; intros N; unfold plain_line; rewrite !free_app, free_cons;
            (split; [apply blanks_plain; exact X|]); (split; [apply NI; exact Y|]); (split; [apply blanks_plain; exact Z|]);
            (split; [intros [J|[J|[J|[]]]]; discriminate J|]); [exact N|apply IH; exact N]. }
        unfold plain_line. rewrite free_cons. split; [intros [J|[J|[J|[]]]]; discriminate J|]. apply (X params' ps _ NP').
        unfold plain_line. rewrite !free_app. split; [apply blanks_plain; exact A|]. split; [exact PV|apply blanks_plain; exact B].
      + exists [], params'. split; [reflexivity|]. split; [intros c []|exact NP'].
      + rewrite SS. destruct (dget (fnmacros (tab p)) v) as [e|] eqn:D; [|reflexivity]. exfalso. destruct ST as (_ & _ & F & _ & NI).
        assert (IV : ident v) by (apply NI; right; unfold dmem; rewrite D; reflexivity).
        apply (proj1 (complete_inert m) body v C v (word_name v (ident_word v IV))). right. apply F. congruence.
  Qed.
  Lemma step_undef i p n l : active p = true -> undef_line n l ->
    line_step i p l = Ok (emit (set_tab p {| macros := ddel (macros (tab p)) n; fnmacros := fnmacros (tab p) |}) []).
  Proof.
    intros AC (g & r & W & G & NE & IN & H). apply directive_written in W; [|discriminate|reflexivity].
    rewrite step_other.
    - unfold CondProofs.other_step. rewrite W. change (eqb $"undef" $"define" || eqb $"undef" $"undef") with true. change (eqb $"undef" $"define") with false. cbv iota.
      rewrite (macro_name_read g n r G IN H), AC, (strip_ident n IN). reflexivity.
    - unfold conditional, dname. rewrite W. intros [E|[E|[E|[E|[E|[E|[]]]]]]]; discriminate E.
  Qed.
  (** A pragma that is not about packing is left out. *)
  Lemma pack_word r o : pack_opts r = Some o -> name_in $"pack" r.
  Proof.
    unfold pack_opts. destruct r as [|c r]; [discriminate|]. destruct (is_space c) eqn:SC; [|discriminate].
    destruct (drop_while_suffix is_space (c :: r)) as (a & E & F).
    destruct (strip_prefix $"pack" (drop_while is_space (c :: r))) as [x|] eqn:SP; [|discriminate].
    apply strip_prefix_iff in SP. intros H. exists a, x. rewrite E, SP at 1.
    split; [reflexivity|]. split; [split; [discriminate|apply forallb_forall; reflexivity]|]. split.
    - intros d b' ->. cbn [drop_while] in H. destruct (is_space d) eqn:SD; [apply space_not_word; exact SD|].
      destruct (cheq d "(") eqn:CD; [apply cheq_true in CD; subst d; reflexivity|discriminate H].
    - intros d a' ->. rewrite forallb_app in F. apply andb_true_iff in F. destruct F as [_ F]. cbn in F. apply space_not_word. destruct (is_space d); [reflexivity|discriminate F].
  Qed.
  Lemma step_idle i p m l : stands_for (tab p) m -> all_true (ift p) = true -> active p = true -> idle_line m l ->
    line_step i p l = Ok (emit p []) \/ line_step i p l = Ok p.
  Proof.
    intros ST AT AC [[NE NI]|(r & D & NP & NK & NL)].
    - left. rewrite step_other.
      + unfold CondProofs.other_step. unfold dname in NE, NI. destruct (directive l) as [[d r]|]; [|congruence].
        assert (X : forall x, In x [$"if"; $"ifdef"; $"ifndef"; $"elif"; $"else"; $"endif"; $"define"; $"undef"; $"pragma"] -> eqb d x = false).
        { intros x I. apply eqb_false. intros ->. exact (NI I). }
        rewrite (X $"define"), (X $"undef"), (X $"pragma") by (cbn; auto 10). reflexivity.
      + intros C. apply NI. unfold conditional in C. cbn [In] in C |- *. intuition.
    - right. rewrite step_other.
      + unfold CondProofs.other_step. rewrite D. change (eqb $"pragma" $"define" || eqb $"pragma" $"undef") with false.
        change (eqb $"pragma" $"pragma") with true. cbv iota. rewrite AC, AT, (xm_expands fo (tab p) m r r ST (ex_none m r NK NL)).
        destruct (pack_opts r) as [o|] eqn:PO; [|reflexivity]. exfalso. apply NP. apply (pack_word r o PO).
      + unfold conditional, dname. rewrite D. intros [E|[E|[E|[E|[E|[E|[]]]]]]]; discriminate E.
  Qed.

  (** Between [p] and [p'] the lines [out] have been written; blank lines do not matter. *)
  Definition wrote (p p' : pst) (out : list str) : Prop :=
    plist p' = plist p /\ pstack p' = pstack p /\ filter nb (outp p') = filter nb (outp p) ++ filter nb out.
  Lemma wrote_nil p p' : plist p' = plist p -> pstack p' = pstack p -> (exists n, outp p' = outp p ++ repeat [] n) -> wrote p p' [].
  Proof.
    intros A B (n & C). split; [exact A|]. split; [exact B|]. rewrite C, filter_app, filter_repeat. reflexivity.
  Qed.
  Lemma wrote_trans a b c o o' : wrote a b o -> wrote b c o' -> wrote a c (o ++ o').
  Proof.
    intros (A1 & A2 & A3) (B1 & B2 & B3). split; [congruence|]. split; [congruence|]. rewrite B3, A3, filter_app, app_assoc. reflexivity.
  Qed.
  Lemma wrote_kept a b : kept a b -> wrote a b [].
  Proof. intros (_ & A & B & C). apply wrote_nil; auto. Qed.
  Definition ok_at (p : pst) (m : cmac) : Prop := stands_for (tab p) m /\ NoDup (keys (macros (tab p))).
  Lemma ok_kept p p' m : ok_at p m -> tab p' = tab p -> ok_at p' m.
  Proof. intros O E. unfold ok_at. rewrite E. exact O. Qed.

  Lemma cpp_run :
    (forall m b out m', cpp m b out m' -> forall i p, ok_at p m -> all_true (ift p) = true -> active p = true ->
       exists p', run_lines i p (lines b) = Ok p' /\ ok_at p' m' /\ ift p' = ift p /\ ifh p' = ifh p /\ wrote p p' out)
    /\ (forall m t out m', cpp_branches m t out m' -> forall i p x ts hs, ok_at p m -> ift p = x :: ts -> ifh p = false :: hs ->
       all_true ts = true -> hd false ts = true ->
       exists p', run_lines i p (blines t) = Ok p' /\ ok_at p' m' /\ ift p' = ts /\ ifh p' = hs /\ wrote p p' out).
  Proof.
    apply cpp_both_ind.
    - intros m i p O AT AC. exists p. split; [reflexivity|]. split; [exact O|]. split; [reflexivity|]. split; [reflexivity|].
      apply wrote_nil; auto. exists 0. rewrite app_nil_r. reflexivity.
    - intros m l o b out m' D E _ IH i p O AT AC. cbn [lines PpModel.run_lines].
      assert (ST : line_step i p l = Ok (emit p o)).
      { rewrite step_other; [|unfold conditional, dname; rewrite D; intros [X|[X|[X|[X|[X|[X|[]]]]]]]; discriminate X].
        unfold CondProofs.other_step. rewrite D, AC, (xm_expands fo (tab p) m l o (proj1 O) E). reflexivity. }
      rewrite ST. cbn [bind]. destruct (IH (S i) (emit p o) O AT AC) as (p' & R & O' & T' & H' & W'). exists p'.
      split; [exact R|]. split; [exact O'|]. split; [exact T'|]. split; [exact H'|].
      apply (wrote_trans p (emit p o) p' [o] out); [|exact W']. split; [reflexivity|]. split; [reflexivity|]. cbn [outp emit]. rewrite filter_app. reflexivity.
    - intros m l n body v b out m' L U _ IH i p O AT AC. cbn [lines PpModel.run_lines].
      rewrite (step_object i p m n body v l (proj1 O) AT AC L U). cbn [bind].
      set (p1 := emit _ []). destruct (IH (S i) p1) as (p' & R & O' & T' & H' & W'); [|exact AT|exact AC|].
      + destruct L as (g & a & b0 & _ & _ & _ & _ & _ & _ & IN & _). split; [exact (stands_object (tab p) m n body v (proj1 O) IN U)|].
        cbn [p1 emit set_tab tab macros]. apply NoDup_dset. apply O.
      + exists p'. split; [exact R|]. split; [exact O'|]. split; [exact T'|]. split; [exact H'|].
        apply (wrote_trans p p1 p' [] out); [|exact W']. apply wrote_nil; auto. exists 1. reflexivity.
    - intros m l n d b out m' L NK NM _ IH i p O AT AC. cbn [lines PpModel.run_lines].
      destruct (step_function i p m n d l (proj1 O) AT AC L) as (x & ST & IN & SF). rewrite ST. cbn [bind].
      set (p1 := emit _ []). destruct (IH (S i) p1) as (p' & R & O' & T' & H' & W'); [|exact AT|exact AC|].
      + split; [exact (stands_fn (tab p) m n d x (proj1 O) IN NM SF)|apply O].
      + exists p'. split; [exact R|]. split; [exact O'|]. split; [exact T'|]. split; [exact H'|].
        apply (wrote_trans p p1 p' [] out); [|exact W']. apply wrote_nil; auto. exists 1. reflexivity.
    - intros m l n b out m' L NF NM _ IH i p O AT AC. cbn [lines PpModel.run_lines].
      rewrite (step_undef i p n l AC L). cbn [bind].
      set (p1 := emit _ []). destruct (IH (S i) p1) as (p' & R & O' & T' & H' & W'); [|exact AT|exact AC|].
      + split; [exact (stands_undef (tab p) m n (proj1 O) (proj2 O) NM)|]. cbn [p1 emit set_tab tab macros]. apply NoDup_ddel. apply O.
      + exists p'. split; [exact R|]. split; [exact O'|]. split; [exact T'|]. split; [exact H'|].
        apply (wrote_trans p p1 p' [] out); [|exact W']. apply wrote_nil; auto. exists 1. reflexivity.
    - intros m l b out m' L _ IH i p O AT AC. cbn [lines PpModel.run_lines].
      destruct (step_idle i p m l (proj1 O) AT AC L) as [ST|ST]; rewrite ST; cbn [bind].
      + destruct (IH (S i) (emit p []) O AT AC) as (p' & R & O' & T' & H' & W'). exists p'.
        split; [exact R|]. split; [exact O'|]. split; [exact T'|]. split; [exact H'|].
        apply (wrote_trans p (emit p []) p' [] out); [|exact W']. apply wrote_nil; auto. exists 1. reflexivity.
      + exact (IH (S i) p O AT AC).
    - intros m l body t rest o1 m1 o2 m2 OP D _ IH1 WF _ IH2 i p O AT AC. cbn [lines PpModel.run_lines].
      rewrite step_open by exact OP. rewrite AT, (decides_holds fo ext (tab p) m l true (proj1 O) D). cbv zeta. cbn [bind].
      rewrite !run_app. set (p1 := emit (set_if p (true :: ift p) (true :: ifh p)) []).
      destruct (IH1 (S i) p1 O) as (p2 & R2 & O2 & T2 & H2 & W2); [exact AT|reflexivity|]. rewrite R2. cbn [bind].
      destruct (dead_branches fo ext t WF (S i + length (lines body)) p2 true (ift p) (ifh p) T2 H2) as (p3 & R3 & K3 & T3 & H3).
      rewrite run_app, R3. cbn [bind].
      destruct (IH2 (S i + length (lines body) + length (blines t)) p3) as (p' & R & O' & T' & H' & W');
        [apply (ok_kept p2); [exact O2|apply K3]|rewrite T3; exact AT|unfold active; rewrite T3; exact AC|].
      exists p'. split; [exact R|]. split; [exact O'|]. split; [congruence|]. split; [congruence|].
      apply (wrote_trans p p3 p' o1 o2); [|exact W']. rewrite <- (app_nil_r o1). apply (wrote_trans p p2 p3 o1 []); [|apply wrote_kept; exact K3].
      apply (wrote_trans p p1 p2 [] o1); [|exact W2]. apply wrote_kept. apply kept_emit.
    - intros m l body t rest o1 m1 o2 m2 OP D WF _ IH1 _ IH2 i p O AT AC. cbn [lines PpModel.run_lines].
      rewrite step_open by exact OP. rewrite AT, (decides_holds fo ext (tab p) m l false (proj1 O) D). cbv zeta. cbn [bind].
      rewrite !run_app. set (p1 := emit (set_if p (false :: ift p) (false :: ifh p)) []).
      destruct (skip_block fo ext body WF (S i) p1) as (p2 & R2 & K2 & T2 & H2); [reflexivity|reflexivity|]. rewrite R2. cbn [bind].
      rewrite run_app.
      destruct (IH1 (S i + length (lines body)) p2 false (ift p) (ifh p)) as (p3 & R3 & O3 & T3 & H3 & W3);
        [apply (ok_kept p); [exact O|rewrite (proj1 K2); reflexivity]|exact T2|exact H2|exact AT|exact AC|]. rewrite R3. cbn [bind].
      destruct (IH2 (S i + length (lines body) + length (blines t)) p3) as (p' & R & O' & T' & H' & W');
        [exact O3|rewrite T3; exact AT|unfold active; rewrite T3; exact AC|].
      exists p'. split; [exact R|]. split; [exact O'|]. split; [congruence|]. split; [congruence|].
      apply (wrote_trans p p3 p' o1 o2); [|exact W']. apply (wrote_trans p p2 p3 [] o1); [|exact W3].
      apply (wrote_trans p p1 p2 [] []); [apply wrote_kept; apply kept_emit|apply wrote_kept; exact K2].
    - intros m l E i p x ts hs O ET EH AT HD. cbn [blines PpModel.run_lines]. rewrite step_endif by exact E. rewrite ET, EH. cbn [bind].
      eexists. split; [reflexivity|]. split; [exact O|]. split; [reflexivity|]. split; [reflexivity|]. apply wrote_kept. apply kept_emit.
    - intros m l body e out m' E1 E2 _ IH i p x ts hs O ET EH AT HD. cbn [blines PpModel.run_lines]. rewrite step_else by exact E1. rewrite ET, EH, AT.
      cbn [bind negb andb]. rewrite run_app. set (p1 := emit (set_if p (true :: ts) (true :: hs)) []).
      destruct (IH (S i) p1 O) as (p2 & R2 & O2 & T2 & H2 & W2); [cbn; exact AT|reflexivity|]. rewrite R2. cbn [bind PpModel.run_lines].
      rewrite step_endif by exact E2. rewrite T2, H2. cbn [ift ifh p1 emit set_if bind].
      eexists. split; [reflexivity|]. split; [exact O2|]. split; [reflexivity|]. split; [reflexivity|].
      rewrite <- (app_nil_r out). apply (wrote_trans p p2); [|apply wrote_kept; apply kept_emit].
      apply (wrote_trans p p1 p2 [] out); [|exact W2]. apply wrote_kept. apply kept_emit.
    - intros m l body t out m' E1 D _ IH WF i p x ts hs O ET EH AT HD. cbn [blines PpModel.run_lines]. rewrite step_elif by exact E1. rewrite ET, EH, AT.
      cbn [negb orb]. rewrite (decides_holds fo ext (tab p) m l true (proj1 O) D). cbv zeta. cbn [bind]. rewrite run_app.
      set (p1 := emit (set_if p (true :: ts) (true :: hs)) []).
      destruct (IH (S i) p1 O) as (p2 & R2 & O2 & T2 & H2 & W2); [cbn; exact AT|reflexivity|]. rewrite R2. cbn [bind].
      destruct (dead_branches fo ext t WF (S i + length (lines body)) p2 true ts hs T2 H2) as (p3 & R3 & K3 & T3 & H3).
      exists p3. split; [exact R3|]. split; [apply (ok_kept p2); [exact O2|apply K3]|]. split; [exact T3|]. split; [exact H3|].
      rewrite <- (app_nil_r out). apply (wrote_trans p p2); [|apply wrote_kept; exact K3].
      apply (wrote_trans p p1 p2 [] out); [|exact W2]. apply wrote_kept. apply kept_emit.
    - intros m l body t out m' E1 D WF _ IH i p x ts hs O ET EH AT HD. cbn [blines PpModel.run_lines]. rewrite step_elif by exact E1. rewrite ET, EH, AT.
      cbn [negb orb]. rewrite (decides_holds fo ext (tab p) m l false (proj1 O) D). cbv zeta. cbn [bind]. rewrite run_app.
      set (p1 := emit (set_if p (false :: ts) (false :: hs)) []).
      destruct (skip_block fo ext body WF (S i) p1) as (p2 & R2 & K2 & T2 & H2); [reflexivity|reflexivity|]. rewrite R2. cbn [bind].
      destruct (IH (S i + length (lines body)) p2 false ts hs) as (p3 & R3 & O3 & T3 & H3 & W3);
        [apply (ok_kept p); [exact O|rewrite (proj1 K2); reflexivity]|exact T2|exact H2|exact AT|exact HD|].
      exists p3. split; [exact R3|]. split; [exact O3|]. split; [exact T3|]. split; [exact H3|].
      apply (wrote_trans p p2 p3 [] out); [|exact W3]. apply (wrote_trans p p1 p2 [] []); [apply wrote_kept; apply kept_emit|apply wrote_kept; exact K2].
  Qed.
End Lines.
