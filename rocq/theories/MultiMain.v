(** Proofs for C98: libraries that do not disturb each other. *)
From Coq Require Import Ascii String Bool Arith ZArith Lia List.
Import ListNotations.
From Verif Require Import PyBase PyBaseFacts PyStr PyStrFacts PyExpr TypeModel InitModel StoreModel StoreSpec DeclModel UtilModel CtModel LinkModel LinkSpec.
From Verif Require Import LibModel InvokeModel InvokeSpec MultiModel MultiSpec MultiProofs.
From Verif Require LibSpec LibProofs CtSpec ObjModel ObjSpec ObjProofs InvokeProofs.

Section Main.
  Context (W : setting).
  Notation run := (run W).
  Notation step := (step W).

  (** ** Settings *)
  Lemma makes_asks fuel b1 c o b2 : makes W fuel b1 c o -> exists path q s m,
    opens W c path /\ asks W (parsers_of (run fuel b1)) path c (Ok (s, wanted_prefixes c))
    /\ nth_error (w_libs (run fuel (b1 ++ Open c :: b2))) o = Some m /\ static m = (q, path, wanted_prefixes c)
    /\ nth_error (parsers_of (run fuel (b1 ++ Open c :: b2))) q = Some s.
  Proof.
    intros MK. destruct (makes_new W fuel b1 c o MK) as (-> & p & q & s & O & G & S & (u & L) & N & T & _).
    assert (EX : extends (run fuel (b1 ++ [Open c])) (run fuel (b1 ++ Open c :: b2))).
    { change (Open c :: b2) with ([Open c] ++ b2). rewrite app_assoc. apply run_extends. }
    destruct (extends_static _ _ _ _ EX N) as (m & M & SM). exists p, q, s, m. split; [exact O|]. split.
    - apply as_new; [exact S|]. apply (link_loaded W c p O). destruct u. exact L.
    - split; [exact M|]. split; [exact SM|]. exact (extends_tables _ _ _ _ EX T).
  Qed.
  (** The call that made an object is the only one. *)
  Lemma makes_once fuel evs b1 c b2 b1' c' b2' o : evs = b1 ++ Open c :: b2 -> evs = b1' ++ Open c' :: b2' ->
    makes W fuel b1 c o -> makes W fuel b1' c' o -> b1 = b1' /\ c = c' /\ b2 = b2'.
  Proof.
    assert (X : forall x y z b1 c b2 b1' c' b2', x = b1 ++ Open c :: b2 -> x = b1' ++ Open c' :: b2' -> b1' = b1 ++ y :: z ->
      makes W fuel b1 c o -> makes W fuel b1' c' o -> False).
    { intros x y z d1 d d2 d1' d' d2' E E' -> M M'. assert (y = Open d) as ->.
      { subst x. rewrite <- app_assoc in E'. apply app_inv_head in E'. cbn in E'. injection E' as E' _. auto. }
      destruct (makes_new W fuel _ _ _ M') as (EQ & _). destruct M as (R & _). pose proof (returned_lib W fuel d1 d o z R) as L. lia. }
    intros E E' M M'. assert (T : (exists y z, b1' = b1 ++ y :: z) \/ (exists y z, b1 = b1' ++ y :: z) \/ b1 = b1').
    { clear -E E'. subst evs. revert b1' E'. induction b1 as [|x b1 IH]; intros [|y b1'] E; cbn in *; auto.
      - left. exists y, b1'. reflexivity.
      - right. left. exists x, b1. reflexivity.
      - injection E as <- E. destruct (IH b1' E) as [(y & z & ->)|[(y & z & ->)| ->]]; eauto 6. }
    destruct T as [(y & z & T)|[(y & z & T)| ->]].
    - exfalso. exact (X evs y z b1 c b2 b1' c' b2' E E' T M M').
    - exfalso. exact (X evs y z b1' c' b2' b1 c b2 E' E T M' M).
    - rewrite E in E'. apply app_inv_head in E'. injection E' as -> ->. auto.
  Qed.
  (** Every object has been made by a call. *)
  Lemma made_somewhere fuel evs : forall o m, nth_error (w_libs (run fuel evs)) o = Some m ->
    exists b1 c b2, evs = b1 ++ Open c :: b2 /\ makes W fuel b1 c o.
  Proof.
    induction evs as [|ev evs IH] using rev_ind; intros o m N; [destruct o; discriminate N|].
    destruct (nth_error (w_libs (run fuel evs)) o) as [m0|] eqn:N0.
    - destruct (IH o m0 N0) as (b1 & c & b2 & -> & M). exists b1, c, (b2 ++ [ev]). split; [rewrite <- app_assoc; reflexivity|exact M].
    - rewrite run_snoc in N. apply nth_error_None in N0.
      assert (L : o < length (w_libs (snd (step fuel ev (run fuel evs))))) by (apply nth_error_Some; congruence).
      destruct ev as [kw l|a|o1 u|o1].
      + exfalso. cbn [MultiModel.step] in L. unfold MultiModel.new_parser in L. destruct (w_parse W kw l); cbn in L; lia.
      + exists evs, a, []. split; [reflexivity|]. rewrite step_open in L. cbn [snd] in L. pose proof (open_cases W a (run fuel evs)) as C.
        assert (NW : length (w_libs (snd (open_library W a (run fuel evs)))) <= length (w_libs (run fuel evs)) ->
                     makes W fuel evs a o) by lia.
        assert (R : fst (open_library W a (run fuel evs)) = Ok (length (w_libs (run fuel evs)))
                    /\ length (w_libs (snd (open_library W a (run fuel evs)))) = S (length (w_libs (run fuel evs))) -> makes W fuel evs a o).
        { intros (R & LL). assert (o = length (w_libs (run fuel evs))) as -> by lia. split.
          - unfold returns. rewrite step_open, R. reflexivity.
          - intros b0 c' b' -> R'. pose proof (returned_lib W fuel b0 c' _ b' R'). lia. }
        destruct C; cbn [w_libs] in *; try (apply NW; lia); apply R; (split; [reflexivity|]); rewrite app_length; cbn; lia.
      + exfalso. cbn [MultiModel.step] in L. destruct (used_cases W fuel o1 u (run fuel evs)) as [(E & _)|(m1 & p & _ & _ & E)].
        * rewrite E in L. cbn in L. lia.
        * cbv zeta in E. rewrite E in L. cbn in L. rewrite replace_length in L. lia.
      + exfalso. cbn in L. lia.
  Qed.

  (** ** The state of one library *)
  Lemma state_with m s' t : as_state (lib_with m s') {| p_tables := t; p_lists := CtModel.st_heap (ObjModel.q_ct s') |} = s'.
  Proof. destruct s' as [a b [c d e]]. reflexivity. Qed.
  Lemma clib_own m p path s prefix q : static m = (q, path, prefix) -> p_tables p = s -> as_clib W m p = own_library W path s prefix.
  Proof. intros E <-. unfold static in E. injection E as _ <- <-. reflexivity. Qed.
  (** Events that do not touch a library and its parser. *)
  Lemma untouched fuel ev st o m p : nth_error (w_libs st) o = Some m -> nth_error (w_parsers st) (m_parser m) = Some p ->
    (forall o' u m', ev = Use o' u -> nth_error (w_libs st) o' = Some m' -> o' <> o /\ m_parser m' <> m_parser m) ->
    nth_error (w_libs (snd (step fuel ev st))) o = Some m /\ nth_error (w_parsers (snd (step fuel ev st))) (m_parser m) = Some p.
  Proof.
    intros M P NU. destruct ev as [kw l|a|o1 u|o1].
    - cbn [MultiModel.step]. unfold MultiModel.new_parser. destruct (w_parse W kw l); cbn; [|auto]. split; [exact M|]. apply nth_app_some. exact P.
    - rewrite step_open. cbn [snd]. destruct (open_cases W a st); cbn [w_libs w_parsers]; auto; unfold added; auto using nth_app_some.
    - cbn [MultiModel.step]. destruct (used_cases W fuel o1 u st) as [(E & _)|(m1 & p1 & M1 & _ & E)].
      + rewrite E. auto.
      + cbv zeta in E. rewrite E. cbn [snd w_libs w_parsers]. destruct (NU o1 u m1 eq_refl M1) as (N1 & N2). rewrite !replace_other by assumption. auto.
    - auto.
  Qed.
  (** The library [b] after the uses [l]. *)
  Definition holds (fuel : nat) (st : world) (o : nat) (b : ObjModel.clib) (l : list use) : Prop :=
    exists m p, nth_error (w_libs st) o = Some m /\ nth_error (w_parsers st) (m_parser m) = Some p
      /\ as_clib W m p = b /\ as_state m p = uses b fuel (w_takes W o) l (ObjModel.opened b).
  Lemma holds_as_if fuel evs o b l : holds fuel (run fuel evs) o b l -> as_if_alone W fuel evs o b l.
  Proof.
    intros (m & p & M & P & B & S) u. cbn [MultiModel.step]. unfold use_library. rewrite M, P, B, S. reflexivity.
  Qed.
  Lemma holds_use fuel st o b l u : holds fuel st o b l -> holds fuel (snd (step fuel (Use o u) st)) o b (l ++ [u]).
  Proof.
    intros (m & p & M & P & B & S). cbn [MultiModel.step]. unfold use_library. rewrite M, P. cbn [snd].
    set (s' := do_use (as_clib W m p) fuel (w_takes W o) u (as_state m p)).
    exists (lib_with m s'), {| p_tables := p_tables p; p_lists := CtModel.st_heap (ObjModel.q_ct s') |}. cbn [w_libs w_parsers].
    split; [apply replace_same; apply nth_error_Some; congruence|]. split; [cbn [lib_with m_parser]; apply replace_same; apply nth_error_Some; congruence|].
    split; [exact B|]. rewrite state_with. unfold s', uses. rewrite fold_left_app. cbn [fold_left]. rewrite B, S. reflexivity.
  Qed.
  Lemma own_uses_snoc o l ev : own_uses o (l ++ [ev]) = own_uses o l ++ match ev with Use o' u => if Nat.eqb o' o then [u] else [] | _ => [] end.
  Proof. unfold own_uses. rewrite flat_map_app. cbn. rewrite app_nil_r. reflexivity. Qed.
  Lemma parser_of_static st o m : nth_error (w_libs st) o = Some m -> parser_of st o = Some (m_parser m).
  Proof. intros N. unfold parser_of. rewrite N. reflexivity. Qed.
  Lemma extends_parser st st' o q : extends st st' -> parser_of st o = Some q -> parser_of st' o = Some q.
  Proof.
    intros EX. unfold parser_of. destruct (nth_error (w_libs st) o) as [m|] eqn:N; [|discriminate]. cbn. intros E. injection E as <-.
    destruct (extends_static _ _ _ _ EX N) as (m' & -> & S). cbn. unfold static in S. injection S as -> _ _. reflexivity.
  Qed.

  (** A parser no library has is as it was read. *)
  Definition as_loaded (p : wparser) : Prop := p_lists p = l_heap (load (w_conf W) (w_table W) (on_windows W) (p_tables p)).
  Lemma unused_parser fuel evs : forall q p, nth_error (w_parsers (run fuel evs)) q = Some p ->
    (forall o m, nth_error (w_libs (run fuel evs)) o = Some m -> m_parser m <> q) -> as_loaded p.
  Proof.
    induction evs as [|ev evs IH] using rev_ind; intros q p P NU; [destruct q; discriminate P|].
    rewrite run_snoc in *. pose proof (step_extends W fuel ev (run fuel evs)) as EX.
    assert (NU0 : forall o m, nth_error (w_libs (run fuel evs)) o = Some m -> m_parser m <> q).
    { intros o m M E. destruct (extends_static _ _ _ _ EX M) as (m' & M' & S). unfold static in S. injection S as S _ _. apply (NU o m' M'). congruence. }
    assert (AD : forall s, nth_error (added W (run fuel evs) s) q = Some p -> as_loaded p).
    { intros s Q. unfold added in Q. destruct (Nat.lt_ge_cases q (length (w_parsers (run fuel evs)))) as [L|L].
      - rewrite nth_error_app1 in Q by exact L. exact (IH q p Q NU0).
      - rewrite nth_error_app2 in Q by exact L. destruct (q - length (w_parsers (run fuel evs))) as [|n]; [|destruct n; discriminate Q].
        injection Q as <-. reflexivity. }
    destruct ev as [kw l|a|o1 u|o1].
    - cbn [MultiModel.step] in P. unfold MultiModel.new_parser in P. destruct (w_parse W kw l) as [s|x]; cbn in P; [exact (AD s P)|exact (IH q p P NU0)].
    - rewrite step_open in P. cbn [snd] in P. destruct (open_cases W a (run fuel evs)); cbn [w_parsers] in P; eauto.
    - cbn [MultiModel.step] in P. destruct (used_cases W fuel o1 u (run fuel evs)) as [(E & _)|(m1 & p1 & M1 & _ & E)].
      + rewrite E in P. exact (IH q p P NU0).
      + cbv zeta in E. rewrite E in P. cbn [snd w_parsers] in P. rewrite replace_other in P by (exact (NU0 o1 m1 M1)). exact (IH q p P NU0).
    - exact (IH q p P NU0).
  Qed.

  (** ** C98: a library with a parser of its own *)
  Theorem alone_ok fuel b1 c b2 o path s prefix : makes W fuel b1 c o -> opens W c path ->
    asks W (parsers_of (run fuel b1)) path c (Ok (s, prefix)) ->
    alone (run fuel (b1 ++ Open c :: b2)) o ->
    as_if_alone W fuel (b1 ++ Open c :: b2) o (own_library W path s prefix) (own_uses o b2).
  Proof.
    intros MK O AS AL. apply holds_as_if.
    destruct (makes_new W fuel b1 c o MK) as (EO & p0 & q0 & s0 & O0 & G0 & S0 & (u0 & L0) & N0 & T0 & PC).
    assert (p0 = path) as -> by (eapply opens_det; eassumption).
    assert (X : s0 = s /\ wanted_prefixes c = prefix).
    { assert (Y : Ok (s, prefix) = Ok (s0, wanted_prefixes c)).
      { eapply asks_det; [exact O|exact AS|]. apply as_new; [exact S0|]. apply (link_loaded W c path O). destruct u0. exact L0. }
      injection Y as -> ->. auto. }
    destruct X as (-> & <-). set (b := own_library W path s (wanted_prefixes c)).
    induction b2 as [|ev b2 IH] using rev_ind.
    - destruct PC as [(-> & PP)|(Lq & PP)].
      + exists (fresh_lib (length (w_parsers (run fuel b1))) path (wanted_prefixes c)), {| p_tables := s; p_lists := l_heap (load (w_conf W) (w_table W) (on_windows W) s) |}.
        split; [exact N0|]. split; [exact PP|]. split; reflexivity.
      + destruct (nth_error (w_parsers (run fuel b1)) q0) as [p|] eqn:P; [|apply nth_error_None in P; lia].
        exists (fresh_lib q0 path (wanted_prefixes c)), p. cbn [m_parser fresh_lib]. rewrite PP.
        assert (TP : p_tables p = s).
        { unfold parsers_of in T0. rewrite nth_error_map, PP, P in T0. injection T0 as T0. exact T0. }
        split; [exact N0|]. split; [exact P|]. split; [exact (clib_own (fresh_lib q0 path (wanted_prefixes c)) p path s (wanted_prefixes c) q0 eq_refl TP)|].
        assert (LD : as_loaded p).
        { apply (unused_parser fuel b1 q0 p P). intros o' m' M' E. assert (o' = o) as ->.
          { apply AL. rewrite (extends_parser (run fuel b1) _ o' q0 (run_extends W fuel b1 [Open c])); [|rewrite (parser_of_static _ _ _ M'), E; reflexivity].
            rewrite (parser_of_static _ _ _ N0). reflexivity. }
          assert (o < length (w_libs (run fuel b1))) by (apply nth_error_Some; congruence). lia. }
        unfold as_loaded in LD. rewrite TP in LD. unfold as_state. rewrite LD. reflexivity.
    - assert (EX : extends (run fuel (b1 ++ Open c :: b2)) (run fuel (b1 ++ Open c :: b2 ++ [ev]))).
      { change (Open c :: b2 ++ [ev]) with ((Open c :: b2) ++ [ev]). rewrite app_assoc. apply run_extends. }
      assert (AL0 : alone (run fuel (b1 ++ Open c :: b2)) o).
      { destruct (makes_asks fuel b1 c o b2 MK) as (_ & _ & _ & m & _ & _ & M & _).
        intros o' E. apply AL. rewrite (parser_of_static _ _ _ M) in E. rewrite (extends_parser _ _ o' _ EX E).
        symmetry. apply (extends_parser _ _ o _ EX). apply parser_of_static. exact M. }
      specialize (IH AL0). change (Open c :: b2 ++ [ev]) with ((Open c :: b2) ++ [ev]). rewrite app_assoc, run_snoc, own_uses_snoc.
      assert (OTHER : (forall u, ev <> Use o u) -> holds fuel (snd (step fuel ev (run fuel (b1 ++ Open c :: b2)))) o b (own_uses o b2)).
      { intros NE. destruct IH as (m & p & M & P & B & S). exists m, p.
        destruct (untouched fuel ev _ o m p M P) as (M' & P'); [|auto].
        intros o' u m' -> M'. assert (NO : o' <> o) by (intros ->; exact (NE u eq_refl)). split; [exact NO|]. intros E. apply NO, AL0.
        rewrite (parser_of_static _ _ _ M), (parser_of_static _ _ _ M'), E. reflexivity. }
      destruct ev as [kw l|a|o1 u|o1]; try (rewrite app_nil_r; apply OTHER; discriminate).
      destruct (Nat.eqb_spec o1 o) as [->|N]; [apply holds_use; exact IH|]. rewrite app_nil_r. apply OTHER. intros u' E. injection E as E _. contradiction.
  Qed.

  (** ** The nesting depth does not matter for calls *)
  Definition alike (st st' : world) : Prop :=
    parsers_of st = parsers_of st' /\ map static (w_libs st) = map static (w_libs st') /\ w_open st = w_open st'.
  Lemma alike_open a st st' : alike st st' -> fst (open_library W a st) = fst (open_library W a st') /\ alike (snd (open_library W a st)) (snd (open_library W a st')).
  Proof.
    intros (A & B & C). assert (LP : length (w_parsers st) = length (w_parsers st')).
    { apply (f_equal (@length _)) in A. unfold parsers_of in A. rewrite !map_length in A. exact A. }
    assert (LL : length (w_libs st) = length (w_libs st')).
    { apply (f_equal (@length _)) in B. rewrite !map_length in B. exact B. }
    unfold open_library. destruct (lib_key W a) as [p|x]; [|split; [reflexivity|split; auto]]. rewrite <- C.
    destruct (dget (w_open st) p) as [o|]; [split; [reflexivity|split; auto]|].
    unfold construct, take_headers, MultiModel.new_parser. rewrite <- LP.
    assert (BA : forall m, map static (w_libs st ++ [m]) = map static (w_libs st' ++ [m])) by (intros m; rewrite !map_app, B; reflexivity).
    assert (PA : forall m, map p_tables (w_parsers st ++ [m]) = map p_tables (w_parsers st' ++ [m])).
    { intros m. unfold parsers_of in A. rewrite !map_app, A. reflexivity. }
    destruct (a_headers a) as [l|q|].
    - destruct (w_parse W (a_kwargs a) l) as [s|x]; [|split; [reflexivity|split; auto]].
      destruct (link W a p) as [u|x]; cbn [fst snd w_libs]; rewrite ?LL.
      + split; [reflexivity|]. split; [apply PA|]. split; [apply BA|]. cbn [w_open]. rewrite C. reflexivity.
      + split; [reflexivity|]. split; [apply PA|]. split; [exact B|exact C].
    - destruct (q <? length (w_parsers st)); [|split; [reflexivity|split; auto]].
      destruct (link W a p) as [u|x]; cbn [fst snd]; [|split; [reflexivity|split; auto]]. rewrite ?LL.
      split; [reflexivity|]. split; [exact A|]. split; [apply BA|]. cbn [w_open]. rewrite C. reflexivity.
    - split; [reflexivity|split; auto].
  Qed.
  Lemma alike_use f o u st : alike st (snd (step f (Use o u) st)).
  Proof.
    cbn [MultiModel.step]. destruct (used_cases W f o u st) as [(-> & _)|(m & p & M & P & E)]; [split; auto|].
    cbv zeta in E. rewrite E. cbn [snd]. split; [|split; [|reflexivity]].
    - unfold parsers_of. cbn [w_parsers]. symmetry. apply (map_replace p_tables _ _ _ p); [exact P|reflexivity].
    - cbn [w_libs]. symmetry. apply (map_replace static _ _ _ m); [exact M|reflexivity].
  Qed.
  Lemma alike_run f f' evs : alike (run f evs) (run f' evs).
  Proof.
    induction evs as [|ev evs IH] using rev_ind; [split; auto|]. rewrite !run_snoc. destruct ev as [kw l|a|o u|o].
    - destruct IH as (A & B & C). cbn [MultiModel.step]. unfold MultiModel.new_parser. destruct (w_parse W kw l); cbn [snd]; [|split; auto].
      split; [|split; [exact B|exact C]]. unfold parsers_of in *. cbn [w_parsers]. rewrite !map_app, A. reflexivity.
    - rewrite !step_open. cbn [snd]. apply alike_open. exact IH.
    - destruct (alike_use f o u (run f evs)) as (A1 & B1 & C1), (alike_use f' o u (run f' evs)) as (A2 & B2 & C2), IH as (A & B & C).
      split; [congruence|split; congruence].
    - destruct IH as (A & B & C). split; [exact A|]. split; [exact B|]. cbn. rewrite C. reflexivity.
  Qed.
  Lemma returns_any f f' b a o : returns W f b a o -> returns W f' b a o.
  Proof.
    unfold returns. rewrite !step_open. cbn [fst]. destruct (alike_open a _ _ (alike_run f f' b)) as (-> & _). auto.
  Qed.
  Lemma makes_any f f' b a o : makes W f b a o -> makes W f' b a o.
  Proof. intros (R & N). split; [exact (returns_any f f' b a o R)|]. intros b0 c b' E R'. exact (N b0 c b' E (returns_any f' f b0 c o R')). Qed.
  Lemma parsers_any f f' b : parsers_of (run f b) = parsers_of (run f' b).
  Proof. apply alike_run. Qed.
  Lemma parser_any f f' b o : parser_of (run f b) o = parser_of (run f' b) o.
  Proof.
    destruct (alike_run f f' b) as (_ & B & _). apply (f_equal (fun l => option_map (fun x => fst (fst x)) (nth_error l o))) in B.
    rewrite !nth_error_map in B. unfold parser_of. destruct (nth_error (w_libs (run f b)) o), (nth_error (w_libs (run f' b)) o); cbn in *; congruence.
  Qed.

  (** ** C98: libraries with a common parser *)
  Section Shared.
    Context (q : nat) (s : store entry) (D : bool -> str -> Prop)
      (CL : closed (w_conf W) (w_table W) s D) (TA : tagged s) (EA : ObjSpec.enum_tagged s) (UT : usual_table (w_table W)).
    Let h0 := l_heap (load (w_conf W) (w_table W) (on_windows W) s).
    Lemma own_heap o path prefix l : ObjSpec.no_clash s prefix -> Forall (orderly_use (w_conf W) (w_table W) s D prefix) l ->
      exists F, forall f, F <= f -> CtModel.st_heap (ObjModel.q_ct (uses (own_library W path s prefix) f (w_takes W o) l (ObjModel.opened (own_library W path s prefix)))) = h0.
    Proof.
      intros NC FO.
      destruct (InvokeProofs.uses_ok (w_conf W) (w_table W) (on_windows W) s D prefix (w_exports W path) (w_takes W o) CL TA EA UT NC l
        (ObjModel.opened (own_library W path s prefix)) FO
        (ObjProofs.good_opened (w_conf W) (w_table W) (on_windows W) s D prefix (w_exports W path))) as (st & (F & E) & GD).
      exists F. intros f Lf. specialize (E f Lf). cbv beta in E. change (own_library W path s prefix) with (ObjModel.open_with (w_conf W) (w_table W) (on_windows W) s prefix (w_exports W path)) in *. rewrite E.
      destruct GD as ((GH & _) & _). rewrite GH. reflexivity.
    Qed.
    Definition tidy (fuel : nat) (evs : list event) : Prop :=
      (forall p, nth_error (w_parsers (run fuel evs)) q = Some p -> as_loaded p)
      /\ forall b1 c b2 o path prefix, evs = b1 ++ Open c :: b2 -> makes W fuel b1 c o -> opens W c path ->
           asks W (parsers_of (run fuel b1)) path c (Ok (s, prefix)) -> parser_of (run fuel evs) o = Some q ->
           holds fuel (run fuel evs) o (own_library W path s prefix) (own_uses o b2).
    Lemma orderly_before f0 evs ev : orderly_parser W f0 (evs ++ [ev]) q s D -> orderly_parser W f0 evs q s D.
    Proof.
      intros OP b1 c b2 o path prefix -> MK O AS PQ.
      destruct (OP b1 c (b2 ++ [ev]) o path prefix) as (NC & FO); [rewrite <- app_assoc; reflexivity|exact MK|exact O|exact AS| |].
      - apply (extends_parser _ _ _ _ (run_extends W f0 _ [ev])). exact PQ.
      - split; [exact NC|]. rewrite own_uses_snoc in FO. apply Forall_app in FO. apply FO.
    Qed.
    Lemma own_settings fuel b1 c b2 o : makes W fuel b1 c o -> parser_of (run fuel (b1 ++ Open c :: b2)) o = Some q ->
      nth_error (parsers_of (run fuel (b1 ++ Open c :: b2))) q = Some s ->
      exists path, opens W c path /\ asks W (parsers_of (run fuel b1)) path c (Ok (s, wanted_prefixes c)).
    Proof.
      intros MK PQ PS. destruct (makes_asks fuel b1 c o b2 MK) as (path & q' & s' & m & O & AS & M & SM & T). exists path. split; [exact O|].
      rewrite (parser_of_static _ _ _ M) in PQ. unfold static in SM. injection SM as E _ _. assert (q' = q) as -> by congruence.
      rewrite PS in T. injection T as <-. exact AS.
    Qed.
    Lemma tidy_untouched fuel evs ev : tidy fuel evs ->
      (forall o' u m', ev = Use o' u -> nth_error (w_libs (run fuel evs)) o' = Some m' -> m_parser m' <> q) ->
      (forall c, ev <> Open c) -> (forall kw l, ev <> NewParser kw l) -> tidy fuel (evs ++ [ev]).
    Proof.
      intros (LD & HO) NU NO NP.
      assert (PR : nth_error (w_parsers (run fuel (evs ++ [ev]))) q = nth_error (w_parsers (run fuel evs)) q).
      { rewrite run_snoc. destruct ev as [kw l|a|o1 u|o1]; [destruct (NP kw l eq_refl)|destruct (NO a eq_refl)| |reflexivity].
        cbn [MultiModel.step]. destruct (used_cases W fuel o1 u (run fuel evs)) as [(-> & _)|(m & p & M & P & E)]; [reflexivity|].
        cbv zeta in E. rewrite E. cbn [snd w_parsers]. apply replace_other. exact (NU o1 u m eq_refl M). }
      split; [intros p P; apply LD; rewrite <- PR; exact P|].
      intros b1 c b2 o path prefix E MK O AS PQ. apply split_snoc in E. destruct E as [(-> & -> & EV)|(b2' & -> & ->)]; [destruct (NO c EV)|].
      assert (PQ0 : parser_of (run fuel (b1 ++ Open c :: b2')) o = Some q).
      { destruct (makes_asks fuel b1 c o b2' MK) as (_ & _ & _ & m & _ & _ & M & _). rewrite (parser_of_static _ _ _ M).
        rewrite (extends_parser _ _ _ _ (run_extends W fuel _ [ev]) (parser_of_static _ _ _ M)) in PQ. exact PQ. }
      destruct (HO b1 c b2' o path prefix eq_refl MK O AS PQ0) as (m & p & M & P & B & S).
      assert (MQ : m_parser m = q) by (rewrite (parser_of_static _ _ _ M) in PQ0; congruence).
      assert (OU : own_uses o (b2' ++ [ev]) = own_uses o b2').
      { rewrite own_uses_snoc. destruct ev as [kw l|a|o1 u|o1]; try apply app_nil_r. destruct (Nat.eqb_spec o1 o) as [->|N]; [|apply app_nil_r].
        destruct (NU o u m eq_refl M MQ). }
      rewrite OU, run_snoc. exists m, p. destruct (untouched fuel ev _ o m p M P) as (M' & P'); [|auto].
      intros o' u m' EV M'. pose proof (NU o' u m' EV M') as X. split; [intros ->; congruence|congruence].
    Qed.
    Theorem shared_tidy f0 evs : (forall s', nth_error (parsers_of (run f0 evs)) q = Some s' -> s' = s) ->
      orderly_parser W f0 evs q s D -> exists F, forall fuel, F <= fuel -> tidy fuel evs.
    Proof.
      induction evs as [|ev evs IH] using rev_ind; intros PS OP.
      - exists 0. intros fuel _. split; [intros p P; destruct q; discriminate P|]. intros [|x b1] c b2 o path prefix E; discriminate E.
      - assert (PS0 : forall s', nth_error (parsers_of (run f0 evs)) q = Some s' -> s' = s).
        { intros s' N. apply PS. exact (extends_tables _ _ _ _ (run_extends W f0 evs [ev]) N). }
        destruct (IH PS0 (orderly_before f0 evs ev OP)) as (F & HF).
        assert (OLD : forall fuel b1 c b2 o, makes W fuel b1 c o -> evs = b1 ++ Open c :: b2 ->
          parser_of (run fuel (evs ++ [ev])) o = Some q -> parser_of (run fuel evs) o = Some q).
        { intros fuel b1 c b2 o MK -> PQ. destruct (makes_asks fuel b1 c o b2 MK) as (_ & _ & _ & m & _ & _ & M & _). rewrite (parser_of_static _ _ _ M).
          rewrite (extends_parser _ _ _ _ (run_extends W fuel _ [ev]) (parser_of_static _ _ _ M)) in PQ. exact PQ. }
        destruct ev as [kw l|a|o1 u|o1].
        + exists F. intros fuel Lf. destruct (HF fuel Lf) as (LD & HO). split.
          * intros p. rewrite run_snoc. cbn [MultiModel.step]. unfold MultiModel.new_parser. destruct (w_parse W kw l) as [s1|x]; cbn [snd w_parsers]; [|apply LD].
            intros P. destruct (Nat.lt_ge_cases q (length (w_parsers (run fuel evs)))) as [L|L].
            -- rewrite nth_error_app1 in P by exact L. exact (LD p P).
            -- rewrite nth_error_app2 in P by exact L. destruct (q - length (w_parsers (run fuel evs))) as [|n]; [|destruct n; discriminate P].
               injection P as <-. reflexivity.
          * intros b1 c b2 o path prefix E MK O AS PQ. apply split_snoc in E. destruct E as [(_ & _ & EV)|(b2' & -> & E)]; [discriminate EV|].
            destruct (HO b1 c b2' o path prefix E MK O AS (OLD fuel b1 c b2' o MK E PQ)) as (m & p & M & P & B & S).
            rewrite own_uses_snoc, app_nil_r, run_snoc. exists m, p. destruct (untouched fuel (NewParser kw l) _ o m p M P) as (M' & P'); [discriminate|auto].
        + exists F. intros fuel Lf. destruct (HF fuel Lf) as (LD & HO). split.
          * intros p. rewrite run_snoc, step_open. cbn [snd].
            assert (AD : forall s1, nth_error (added W (run fuel evs) s1) q = Some p -> as_loaded p).
            { intros s1 P. unfold added in P. destruct (Nat.lt_ge_cases q (length (w_parsers (run fuel evs)))) as [L|L].
              - rewrite nth_error_app1 in P by exact L. exact (LD p P).
              - rewrite nth_error_app2 in P by exact L. destruct (q - length (w_parsers (run fuel evs))) as [|n]; [|destruct n; discriminate P].
                injection P as <-. reflexivity. }
            destruct (open_cases W a (run fuel evs)); cbn [w_parsers]; eauto.
          * intros b1 c b2 o path prefix E MK O AS PQ. apply split_snoc in E. destruct E as [(-> & -> & EV)|(b2' & -> & E)].
            -- injection EV as ->.
               destruct (makes_new W fuel b1 c o MK) as (EO & p0 & q0 & s0 & O0 & G0 & S0 & (u0 & L0) & N0 & T0 & PC).
               assert (p0 = path) as -> by (eapply opens_det; eassumption).
               assert (Y : Ok (s, prefix) = Ok (s0, wanted_prefixes c)).
               { eapply asks_det; [exact O|exact AS|]. apply as_new; [exact S0|]. apply (link_loaded W c path O). destruct u0. exact L0. }
               injection Y as <- ->. assert (q0 = q) as -> by (rewrite (parser_of_static _ _ _ N0) in PQ; cbn in PQ; congruence).
               destruct PC as [(_ & PP)|(Lq & PP)].
               ++ exists (fresh_lib q path (wanted_prefixes c)), {| p_tables := s; p_lists := h0 |}.
                  split; [exact N0|]. split; [exact PP|]. split; reflexivity.
               ++ destruct (nth_error (w_parsers (run fuel b1)) q) as [p|] eqn:P; [|apply nth_error_None in P; lia].
                  exists (fresh_lib q path (wanted_prefixes c)), p. cbn [m_parser fresh_lib]. rewrite PP.
                  assert (TP : p_tables p = s).
                  { unfold parsers_of in T0. rewrite nth_error_map, PP, P in T0. injection T0 as T0. exact T0. }
                  split; [exact N0|]. split; [exact P|].
                  split; [exact (clib_own (fresh_lib q path (wanted_prefixes c)) p path s (wanted_prefixes c) q eq_refl TP)|].
                  pose proof (LD p eq_refl) as LP. unfold as_loaded in LP. rewrite TP in LP. unfold as_state. rewrite LP. reflexivity.
            -- destruct (HO b1 c b2' o path prefix E MK O AS (OLD fuel b1 c b2' o MK E PQ)) as (m & p & M & P & B & S).
               rewrite own_uses_snoc, app_nil_r, run_snoc. exists m, p. destruct (untouched fuel (Open a) _ o m p M P) as (M' & P'); [discriminate|auto].
        + destruct (parser_of (run f0 evs) o1) as [q1|] eqn:PQ1; [destruct (Nat.eq_dec q1 q) as [->|NQ]|].
          * (* a library of this parser is used *)
            destruct (nth_error (w_libs (run f0 evs)) o1) as [m1|] eqn:M1; [|unfold parser_of in PQ1; rewrite M1 in PQ1; discriminate PQ1].
            destruct (made_somewhere f0 evs o1 m1 M1) as (b1 & c & b2 & E & MK).
            assert (NS : nth_error (parsers_of (run f0 evs)) q = Some s).
            { destruct (makes_asks f0 b1 c o1 b2 MK) as (pa & q' & s' & m & _ & _ & M & SM & T). rewrite <- E in M, T.
              assert (EQ : q' = q) by (rewrite (parser_of_static _ _ _ M) in PQ1; unfold static in SM; congruence).
              clear SM. subst q'. rewrite T. f_equal. exact (PS0 s' T). }
            destruct (own_settings f0 b1 c b2 o1 MK) as (path & O & AS); [rewrite <- E; exact PQ1|rewrite <- E; exact NS|].
            destruct (OP b1 c (b2 ++ [Use o1 u]) o1 path (wanted_prefixes c)) as (NC & FO);
              [rewrite E, <- app_assoc; reflexivity|exact MK|exact O|exact AS|apply (extends_parser _ _ _ _ (run_extends W f0 evs [Use o1 u])); exact PQ1|].
            rewrite own_uses_snoc, Nat.eqb_refl in FO.
            destruct (own_heap o1 path (wanted_prefixes c) (own_uses o1 b2 ++ [u]) NC FO) as (F1 & HE).
            exists (Nat.max F F1). intros fuel Lf. destruct (HF fuel ltac:(lia)) as (LD & HO).
            assert (PQf : parser_of (run fuel evs) o1 = Some q) by (rewrite (parser_any fuel f0); exact PQ1).
            assert (MKf : makes W fuel b1 c o1) by (exact (makes_any f0 fuel b1 c o1 MK)).
            assert (ASf : asks W (parsers_of (run fuel b1)) path c (Ok (s, wanted_prefixes c))) by (rewrite (parsers_any fuel f0); exact AS).
            pose proof (HO b1 c b2 o1 path (wanted_prefixes c) E MKf O ASf PQf) as H1.
            pose proof (holds_use fuel (run fuel evs) o1 _ _ u H1) as H2. rewrite <- run_snoc in H2.
            assert (LD' : forall p, nth_error (w_parsers (run fuel (evs ++ [Use o1 u]))) q = Some p -> as_loaded p).
            { intros p P. destruct H2 as (m2 & p2 & M2 & P2 & B2 & S2).
              assert (MQ : m_parser m2 = q).
              { pose proof (parser_of_static _ _ _ M2) as X. rewrite (extends_parser _ _ _ _ (run_extends W fuel evs [Use o1 u]) PQf) in X. congruence. }
              rewrite MQ, P in P2. injection P2 as <-. unfold as_loaded.
              assert (TP : p_tables p = s).
              { assert (X : nth_error (parsers_of (run fuel (evs ++ [Use o1 u]))) q = Some s).
                { apply (extends_tables _ _ _ _ (run_extends W fuel evs [Use o1 u])). rewrite (parsers_any fuel f0). exact NS. }
                unfold parsers_of in X. rewrite nth_error_map, P in X. injection X as X. exact X. }
              rewrite TP. apply (f_equal (fun st => CtModel.st_heap (ObjModel.q_ct st))) in S2. cbn [as_state ObjModel.q_ct CtModel.st_heap] in S2.
              rewrite S2. apply HE. lia. }
            split; [exact LD'|]. intros d1 d d2 o path' prefix' E' MK' O' AS' PQ'.
            apply split_snoc in E'. destruct E' as [(_ & _ & EV)|(d2' & -> & E')]; [discriminate EV|].
            destruct (Nat.eq_dec o1 o) as [<-|NO].
            -- destruct (makes_once fuel evs b1 c b2 d1 d d2' o1 E E' MKf MK') as (<- & <- & <-).
               assert (path' = path) as -> by (eapply opens_det; eassumption).
               pose proof (asks_det W _ _ _ _ _ O AS' ASf) as X. injection X as ->. rewrite own_uses_snoc, Nat.eqb_refl. exact H2.
            -- destruct (HO d1 d d2' o path' prefix' E' MK' O' AS' (OLD fuel d1 d d2' o MK' E' PQ')) as (m & p & M & P & B & S).
               rewrite own_uses_snoc. destruct (Nat.eqb_spec o1 o) as [|_]; [contradiction|]. rewrite app_nil_r.
               assert (MQ : m_parser m = q).
               { pose proof (parser_of_static _ _ _ M) as X. rewrite (OLD fuel d1 d d2' o MK' E' PQ') in X. congruence. }
               assert (M' : nth_error (w_libs (run fuel (evs ++ [Use o1 u]))) o = Some m).
               { rewrite run_snoc. cbn [MultiModel.step]. destruct (used_cases W fuel o1 u (run fuel evs)) as [(-> & _)|(m3 & p3 & _ & _ & E3)]; [exact M|].
                 cbv zeta in E3. rewrite E3. cbn [snd w_libs]. rewrite replace_other by exact NO. exact M. }
               exists m, p. split; [exact M'|]. split; [|auto].
               rewrite MQ in *. pose proof (LD p P) as LP.
               assert (X : nth_error (parsers_of (run fuel (evs ++ [Use o1 u]))) q = Some (p_tables p)).
               { apply (extends_tables _ _ _ _ (run_extends W fuel evs [Use o1 u])). unfold parsers_of. rewrite nth_error_map, P. reflexivity. }
               unfold parsers_of in X. rewrite nth_error_map in X. destruct (nth_error (w_parsers (run fuel (evs ++ [Use o1 u]))) q) as [p'|] eqn:P'; [|discriminate X].
               injection X as X. pose proof (LD' p' eq_refl) as LP'. unfold as_loaded in LP, LP'. f_equal. destruct p as [t1 l1], p' as [t2 l2]. cbn in *. congruence.
          * exists F. intros fuel Lf. apply tidy_untouched; [exact (HF fuel Lf)| |discriminate|discriminate].
            intros o' u' m' EV M'. injection EV as <- _. pose proof (parser_of_static _ _ _ M') as X. rewrite (parser_any fuel f0), PQ1 in X. congruence.
          * exists F. intros fuel Lf. apply tidy_untouched; [exact (HF fuel Lf)| |discriminate|discriminate].
            intros o' u' m' EV M'. injection EV as <- _. pose proof (parser_of_static _ _ _ M') as X. rewrite (parser_any fuel f0), PQ1 in X. discriminate X.
        + exists F. intros fuel Lf. apply tidy_untouched; [exact (HF fuel Lf)|discriminate|discriminate|discriminate].
    Qed.
    Theorem shared_ok f0 evs : nth_error (parsers_of (run f0 evs)) q = Some s -> orderly_parser W f0 evs q s D ->
      exists F, forall fuel, F <= fuel -> forall b1 c b2 o path prefix, evs = b1 ++ Open c :: b2 -> makes W fuel b1 c o -> opens W c path ->
        asks W (parsers_of (run fuel b1)) path c (Ok (s, prefix)) -> parser_of (run fuel evs) o = Some q ->
        as_if_alone W fuel evs o (own_library W path s prefix) (own_uses o b2).
    Proof.
      intros PS OP. destruct (shared_tidy f0 evs) as (F & HF); [intros s' N; congruence|exact OP|].
      exists F. intros fuel Lf b1 c b2 o path prefix E MK O AS PQ. apply holds_as_if. exact (proj2 (HF fuel Lf) b1 c b2 o path prefix E MK O AS PQ).
    Qed.
  End Shared.
End Main.
