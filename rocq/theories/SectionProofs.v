(** Headers in which the packing changes between the declarations. *)
From Coq Require Import Ascii String Bool Arith ZArith Lia List.
Import ListNotations.
From Verif Require Import PyBase PyBaseFacts PyStr PyStrFacts MacroModel MacroDefProofs PpModel TextSpec DeclModel EvalModel
  GramModel GramSpec GramLex GramProofs GramTotal GramTabs NoiseSpec NoiseProofs RunSpec GramPack PackedSpec.

(** ** Characters other than white space *)
Definition ink (s : str) : nat := length (filter (fun c => negb (is_ws c)) s).
Lemma ink_app a b : ink (a ++ b) = ink a + ink b.
Proof. unfold ink. rewrite filter_app, app_length. reflexivity. Qed.
Lemma ink_ws b : forallb is_ws b = true -> ink b = 0.
Proof.
  induction b as [|c b IH]; [reflexivity|]. cbn [forallb]. intros F. apply andb_true_iff in F. unfold ink in *. cbn [filter].
  rewrite (proj1 F). apply IH. apply F.
Qed.
Lemma ink_lay c ts s : lay c ts s -> ink s = ink (concat ts).
Proof.
  induction 1 as [c b W|c b t d r ts s W T E G L IH]; [apply ink_ws; exact W|]. cbn [concat]. rewrite !ink_app, (ink_ws b W), IH. reflexivity.
Qed.
Lemma ink_pos c s : is_ws c = false -> 0 < ink (c :: s).
Proof. intros W. unfold ink. cbn [filter]. rewrite W. cbn. lia. Qed.
Lemma et_split s t r : ends_text (s ++ t) r -> ends_text t r \/ exists r1, r1 <> [] /\ r = r1 ++ t /\ ends_text s r1.
Proof.
  intros [a E]. revert a E. induction s as [|c s IH]; intros a E; [left; exists a; exact E|]. cbn [app] in E. destruct a as [|d a].
  - right. exists (c :: s). split; [discriminate|]. split; [symmetry; exact E|]. apply et_refl.
  - injection E as <- E. destruct (IH a E) as [L|(r1 & NE & E1 & X)]; [left; exact L|]. right. exists r1. split; [exact NE|]. split; [exact E1|apply et_cons; exact X].
Qed.
Lemma keyed_ink r x : keyed (x ++ r) -> x <> [] -> 0 < ink x.
Proof.
  intros K N. destruct x as [|c x]; [contradiction|]. apply ink_pos.
  destruct K as [K|K]; apply starts_with_iff in K; destruct K as [y K]; injection K as -> _; reflexivity.
Qed.
Lemma lay_ws c b ts s : forallb is_ws b = true -> lay nl ts s -> lay c ts (b ++ nl :: s).
Proof.
  intros W L. inversion L as [c' b' W'|c' b' t d r ts' s' W' T E G L']; subst.
  - constructor. rewrite forallb_app, W. exact W'.
  - change (nl :: b' ++ (d :: r) ++ s') with ((nl :: b') ++ (d :: r) ++ s'). rewrite app_assoc. apply (lay_tok c (b ++ nl :: b') (d :: r) d r ts' s').
    + rewrite forallb_app, W. exact W'.
    + exact T.
    + reflexivity.
    + intros X. destruct b; discriminate X.
    + destruct r as [|d2 r]; [exact L'|]. rewrite (last_default _ c nl) by discriminate. exact L'.
Qed.
Lemma lay_app c ts t ts' s : lay c ts t -> lay nl ts' s -> lay c (ts ++ ts') (t ++ nl :: s).
Proof.
  intros L L2. induction L as [c b W|c b x d r ts t W T E G L IH]; [apply lay_ws; assumption|].
  cbn [app]. rewrite <- !app_assoc. apply (lay_tok c b x d r); auto.
Qed.

Lemma prefix_of_line w v y z : ~ In nl w -> v ++ y = w ++ z -> (y = [] \/ exists u, y = nl :: u) -> exists z', v = w ++ z'.
Proof.
  revert v. induction w as [|c w IH]; intros v N E Y; [exists v; reflexivity|]. destruct v as [|d v].
  - exfalso. cbn [app] in E. destruct Y as [->|(u & ->)]; [discriminate E|]. injection E as E _. apply N. left. symmetry. exact E.
  - injection E as -> E. destruct (IH v ltac:(intros X; apply N; right; exact X) E Y) as (z' & ->). exists z'. reflexivity.
Qed.

(** [sections base mods l n ds ls]: the lines [ls], of which the first has the number [n], are
    sections with the declarations [ds]; the structures of a section all have the packing [l]
    gives for the lines of their keywords. *)
Inductive sections (base mods : list str) (l : list (nat * option Z)) : nat -> list gtop -> list str -> Prop :=
| sec_last n P ds o :
    header base mods P ds (join [nl] o) ->
    (forall k x, nth_error o k = Some x -> may_open x -> packing_at l (n + k) = P) ->
    sections base mods l n ds o
| sec_more n P ds o ds' o' :
    o <> [] -> o' <> [] -> header base mods P ds (join [nl] o) ->
    (forall k x, nth_error o k = Some x -> may_open x -> packing_at l (n + k) = P) ->
    sections base mods l (n + length o) ds' o' -> sections base mods l n (ds ++ ds') (o ++ o').

Section Sections.
  Context (base mods : list str) (pk : str -> option Z) (GC : good_config base mods).
  Inductive laid : str -> list gtop -> list str -> Prop :=
  | laid_last P (lk : Prop) ds ts t :
      noisy base mods P lk [] ds ts -> lay nl ts t -> (lk -> one_string t) ->
      (forall r, ends_text t r -> keyed r -> pk r = P) -> laid t ds ts
  | laid_more P (lk : Prop) ds ts t s ds' ts' :
      noisy base mods P lk [] ds ts -> lay nl ts t -> (lk -> one_string t) ->
      (forall r, ends_text t r -> r <> [] -> keyed (r ++ nl :: s) -> pk (r ++ nl :: s) = P) ->
      laid s ds' ts' -> laid (t ++ nl :: s) (ds ++ ds') (ts ++ ts').
  Lemma laid_lay s ds ts : laid s ds ts -> lay nl ts s.
  Proof. induction 1 as [P lk ds ts t SL L O PK|P lk ds ts t s ds' ts' SL L O PK LD IH]; [exact L|apply lay_app; assumption]. Qed.
  Lemma skip_head p : snd (skip p) = [] \/ exists c r, snd (skip p) = c :: r /\ is_ws c = false.
  Proof.
    pose proof (skip_snd p) as E. assert (X : snd (skip (skip p)) = snd (skip p)) by (rewrite skip_idem; reflexivity).
    rewrite (skip_snd (skip p)) in X. destruct (snd (skip p)) as [|c r]; [left; reflexivity|]. right. exists c, r. split; [reflexivity|].
    rewrite is_ws_pp. destruct (is_ppws c) eqn:W; [|reflexivity]. exfalso. cbn [drop_while] in X. rewrite W in X.
    destruct (drop_while_suffix is_ppws r) as (a & E' & _). rewrite X in E'. apply (f_equal (@length _)) in E'. rewrite app_length in E'. cbn in E'. lia.
  Qed.
  Lemma top_nonempty P g t : sp_top base mods P g t -> 1 <= length t.
  Proof.
    intros H. destruct t as [|w t]; [|cbn [length]; lia]. exfalso.
    inversion H as [s x tt td H1 H2 AP E1 E2|s x i us tt td ti H0 H1 H2 AP H3 E1 E2|s d us tt td b H0 H1 H2 AP H3 E1 E2].
    + apply app_eq_nil in E2. destruct E2 as [_ E2]. apply app_eq_nil in E2. destruct E2 as [E2 _]. apply (spec_nonempty base mods P _ _ H1 E2).
    + apply app_eq_nil in E2. destruct E2 as [_ E2]. apply app_eq_nil in E2. destruct E2 as [E2 _]. apply (spec_nonempty base mods P _ _ H1 E2).
  Qed.
  Lemma noisy_more P lk tsR ds ts : noisy base mods P lk [] ds ts -> noisy base mods P lk tsR ds (ts ++ tsR).
  Proof.
    induction 1 as [|g t ds ts HT NZ IH|m ds ts HM NZ IH|ds ts LK NZ IH|w ds ts PN OP NZ IH].
    - apply nz_end.
    - rewrite <- app_assoc. apply nz_decl; assumption.
    - apply nz_mark; assumption.
    - apply nz_linkage; assumption.
    - apply nz_word; [exact PN| |exact IH]. destruct OP as (q & r & -> & Q & H). exists q, (r ++ tsR). split; [symmetry; apply app_assoc|]. split; [exact Q|].
      destruct H as [(x & r' & -> & H)|(n & x & r' & -> & H)]; [left; exists x, (r' ++ tsR); auto|right; exists n, x, (r' ++ tsR); auto].
  Qed.
  Lemma noisy_tail P lk tsR ds ts : noisy base mods P lk tsR ds ts -> exists a, ts = a ++ tsR.
  Proof.
    induction 1 as [|g t ds ts HT NZ [a ->]|m ds ts HM NZ [a ->]|ds ts LK NZ [a ->]|w ds ts PN OP NZ [a ->]].
    - exists []. reflexivity.
    - exists (t ++ a). apply app_assoc.
    - exists (m :: a). reflexivity.
    - exists ($"extern" :: c_linkage :: a). reflexivity.
    - exists (w :: a). reflexivity.
  Qed.
  (** The declarations found from a position. *)
  Definition reach (p : pos) (ds : list gtop) : Prop := forall f, length (snd p) < f -> scan_n base mods pk f p = Some ds.
  Lemma reach_step p c d r ds : skip p = (c, d :: r) -> top_at base mods pk (skip p) = PNo -> reach (d, r) ds -> reach p ds.
  Proof.
    intros E T H f L. destruct f as [|f]; [lia|]. cbn [scan_n]. rewrite T, E. cbn [snd]. apply H. cbn [snd].
    pose proof (skip_length p) as SL. rewrite E in SL. cbn [snd length] in SL. lia.
  Qed.
  Lemma reach_word ds s w : forall c, forallb is_idchar (c :: w) = true -> reach (last w c, s) ds -> reach (c, w ++ s) ds.
  Proof.
    induction w as [|d w IH]; intros c F H; [exact H|]. cbn [forallb] in F. apply andb_true_iff in F. destruct F as [C F].
    assert (D : is_idchar d = true) by (apply andb_true_iff in F; apply F).
    assert (E : skip (c, (d :: w) ++ s) = (c, d :: w ++ s)).
    { unfold skip. cbn [fst snd app skip_from]. rewrite (kwchar_not_ws d (idchar_kw d D)). reflexivity. }
    apply (reach_step _ c d (w ++ s) ds E).
    - apply (dead_top base mods pk GC). apply dead_skip. exists c, d, (w ++ s). split; [exact E|]. right. split; [apply idchar_word; exact C|apply idchar_kw; exact C].
    - apply IH; [exact F|]. replace (last w d) with (last (d :: w) c); [exact H|]. destruct w as [|e w]; [reflexivity|]. cbn [last]. apply (last_default (e :: w)). discriminate.
  Qed.
  (** A rest of the text with more to read than what follows begins in the section. *)
  Lemma in_section t tail r : ends_text (t ++ tail) r -> ink tail < ink r -> exists r1, r1 <> [] /\ r = r1 ++ tail /\ ends_text t r1.
  Proof.
    intros ET L. destruct (et_split _ _ _ ET) as [[y B]|X]; [|exact X]. exfalso. apply (f_equal ink) in B. rewrite ink_app in B. lia.
  Qed.
  Lemma line_app z tail : tail = [] \/ (exists s, tail = nl :: s) -> rest_of_line (z ++ tail) = rest_of_line z.
  Proof.
    intros T. induction z as [|c z IH].
    - destruct T as [->|(s & ->)]; [reflexivity|]. cbn [app]. rewrite line_cons. reflexivity.
    - cbn [app]. rewrite !line_cons, IH. reflexivity.
  Qed.
  Lemma section_scan P lk t tail ds ts dsR tsR : noisy base mods P lk tsR ds ts -> (lk -> one_string t) ->
    tail = [] \/ (exists s, tail = nl :: s) ->
    (forall r, ends_text t r -> r <> [] -> keyed (r ++ tail) -> pk (r ++ tail) = P) -> ink tail = ink (concat tsR) ->
    (forall p, view p tsR -> ends_text (t ++ tail) (snd (skip p)) -> reach p dsR) ->
    forall p, view p ts -> ends_text (t ++ tail) (snd (skip p)) -> reach p (ds ++ dsR).
  Proof.
    intros NZ O TL PK IT K. induction NZ as [|g tg ds ts H NZ IH|m ds ts HM NZ IH|ds ts LK NZ IH|w ds ts PN OP NZ IH]; intros p V ET.
    - apply K; assumption.
    - intros f L. destruct f as [|f]; [lia|]. cbn [scan_n]. pose proof (view_skip _ _ V) as V1. pose proof (skip_length p) as SL'.
      destruct (top_reads base mods (fun _ => P) P GC (fun _ => eq_refl) g tg ts _ H V1) as (q & E & V' & L').
      assert (AG : agree pk (fun _ => P) (snd (skip p)) q).
      { intros r R LR KR. pose proof (et_trans _ _ _ ET R) as RT.
        pose proof (same_top_at (fun _ => P) (fun _ => P) base mods (skip p)) as IN. rewrite E in IN. destruct IN as (_ & IN & _).
        assert (X : exists x, x <> [] /\ r = x ++ snd q).
        { destruct R as [a Ra]. destruct IN as [b Rb].
          assert (EQ : r = skipn (length a) (snd (skip p))) by (rewrite Ra, skipn_app, skipn_all, Nat.sub_diag; reflexivity).
          assert (LL : length a <= length b).
          { apply (f_equal (@length _)) in Ra. apply (f_equal (@length _)) in Rb. rewrite app_length in Ra, Rb. lia. }
          exists (skipn (length a) b). split.
          - intros X0. apply (f_equal (@length _)) in X0. rewrite skipn_length in X0. cbn in X0.
            apply (f_equal (@length _)) in Ra. apply (f_equal (@length _)) in Rb. rewrite app_length in Ra, Rb. lia.
          - rewrite EQ, Rb, skipn_app. f_equal. replace (length a - length b) with 0 by lia. reflexivity. }
        destruct X as (x & NE & ->). pose proof (keyed_ink _ _ KR NE) as IX. destruct (noisy_tail P lk tsR ds ts NZ) as (y & Y).
        destruct (in_section t tail (x ++ snd q) RT) as (r1 & N1 & E1 & ET1).
        { rewrite ink_app, IT, (ink_lay _ _ _ (proj1 V')), Y, concat_app, ink_app. lia. }
        rewrite E1 in KR |- *. apply PK; assumption. }
      destruct (top_at_agrees pk (fun _ => P) base mods (skip p) g q E AG) as (-> & IN). cbn [app].
      rewrite (IH q V'); [reflexivity| |pose proof (top_nonempty P g tg H); lia].
      apply (et_trans _ _ _ ET). apply (et_trans _ _ _ IN). apply et_skip.
    - destruct (view_tok p m ts V) as (c & s & E & _ & _ & _ & V' & _). assert (X : exists x, m = [x] /\ is_word x = false /\ is_kwchar x = false).
      { cbn [In] in HM. destruct HM as [<-|[<-|[<-|[]]]]; eexists; repeat split; reflexivity. }
      destruct X as (x & -> & W & KW). apply (reach_step p c x s _ E).
      + apply (dead_top base mods pk GC). apply dead_skip. exists c, x, s. auto.
      + apply IH; [exact V'|]. rewrite E in ET. apply (et_trans _ _ _ ET). apply (et_trans _ s); [exists [x]; reflexivity|apply (et_skip (x, s))].
    - destruct (view_tok p _ _ V) as (c & s & E & _ & _ & _ & V' & _). apply (reach_step p c "e" ($"xtern" ++ s) _ E).
      + apply (extern_top base mods pk GC ts). apply view_skip. exact V.
      + apply reach_word; [reflexivity|]. destruct (view_tok _ _ _ V') as (c2 & s2 & E2 & _ & _ & _ & V2 & _).
        assert (ET2 : ends_text (t ++ tail) (c_linkage ++ s2)).
        { apply (et_trans _ _ _ ET). rewrite E. apply (et_trans _ s); [exists $"extern"; reflexivity|].
          pose proof (et_skip (last $"extern" c, s)) as X. rewrite E2 in X. exact X. }
        destruct (noisy_tail P lk tsR ds ts NZ) as (y & Y).
        destruct (in_section t tail _ ET2) as (r1 & N1 & E1 & ET1).
        { pose proof (ink_lay _ _ _ (proj1 V2)) as IL. cbn [snd] in IL. rewrite ink_app, IT, IL, Y, concat_app, ink_app. change (ink c_linkage) with 3. lia. }
        destruct (prefix_of_line c_linkage r1 tail s2) as (z & ->); [intros X; cbn in X; destruct X as [X|[X|[X|[]]]]; discriminate X|symmetry; exact E1|exact TL|].
        rewrite <- app_assoc in E1. apply app_inv_head in E1. destruct ET1 as (a & EA). destruct (O LK a z EA) as [M1 M2].
        rewrite <- (line_app z tail TL), <- E1 in M1, M2.
        apply (reach_step _ c2 dquote ("C"%char :: dquote :: s2) _ E2); [apply (dead_top base mods pk GC); apply dead_skip; exists c2, dquote, ("C"%char :: dquote :: s2); split; [exact E2|left; split; reflexivity]|].
        apply (reach_step _ dquote "C" (dquote :: s2)); [reflexivity|exact (letter_top base mods pk GC s2 M1 M2)|].
        apply (reach_step _ "C" dquote s2); [reflexivity|apply (dead_top base mods pk GC); apply quote_dead|].
        apply IH; [exact V2|]. apply (et_trans _ _ _ ET2). apply (et_trans _ s2); [exists c_linkage; reflexivity|apply (et_skip (dquote, s2))].
    - destruct (view_tok p w ts V) as (c & s & E & _ & _ & _ & V' & _). destruct PN as (W & PN'). pose proof (word_alpha w W) as [_ F].
      destruct w as [|d w]; [destruct W|]. apply (reach_step p c d (w ++ s) _ E).
      + apply (foreign_top base mods pk GC (d :: w) ts); [split; [exact W|exact PN']|exact OP|apply view_skip; exact V].
      + apply reach_word; [exact F|]. replace (last w d) with (last (d :: w) c).
        * apply IH; [exact V'|]. rewrite E in ET. apply (et_trans _ _ _ ET). apply (et_trans _ s); [exists (d :: w); reflexivity|apply (et_skip (last (d :: w) c, s))].
        * destruct w as [|e w]; [reflexivity|]. cbn [last]. apply (last_default (e :: w)). discriminate.
  Qed.
  Lemma laid_scan s ds ts : laid s ds ts -> forall p, view p ts -> ends_text s (snd (skip p)) -> reach p ds.
  Proof.
    induction 1 as [P lk ds ts t SL L O PK|P lk ds ts t s ds' ts' SL L O PK LD IH].
    - intros p V ET. rewrite <- (app_nil_r ds). rewrite <- (app_nil_r ts) in V. rewrite <- (app_nil_r t) in ET.
      apply (section_scan P lk t [] ds (ts ++ []) [] []); try assumption.
      + apply noisy_more. exact SL.
      + left. reflexivity.
      + intros r ER _ KR. rewrite app_nil_r in *. apply PK; assumption.
      + reflexivity.
      + intros p' V' ET' f' LF'. destruct f' as [|f']; [lia|]. cbn [scan_n]. apply view_skip in V'.
        rewrite (top_at_no pk (fun _ => None) base mods _ (top_none base mods (fun _ => None) None GC (fun _ => eq_refl) _ V')).
        pose proof (view_end _ V') as E. rewrite skip_idem in E. rewrite E. reflexivity.
    - apply (section_scan P lk t (nl :: s) ds (ts ++ ts') ds' ts'); try assumption.
      + apply noisy_more. exact SL.
      + right. exists s. reflexivity.
      + change (nl :: s) with ([nl] ++ s). rewrite ink_app, (ink_lay _ _ _ (laid_lay _ _ _ LD)). reflexivity.
      + intros p V ET. apply IH; try assumption. change (nl :: s) with ([nl] ++ s) in ET. rewrite app_assoc in ET.
        destruct (et_split _ _ _ ET) as [B|(r1 & NE & E & _)]; [exact B|]. exfalso.
        pose proof (view_skip _ _ V) as V1. pose proof (ink_lay _ _ _ (proj1 V1)) as I1. rewrite E, ink_app in I1. rewrite <- (ink_lay _ _ _ (laid_lay _ _ _ LD)) in I1.
        destruct (skip_head p) as [X|(c & r & X & W)]; [rewrite E in X; apply app_eq_nil in X; apply NE; apply X|].
        rewrite E in X. destruct r1 as [|d r1]; [apply NE; reflexivity|]. injection X as -> _. pose proof (ink_pos c r1 W). lia.
  Qed.
  Lemma laid_text s ds ts : laid s ds ts -> scan_text base mods pk s = Some ds.
  Proof.
    intros LD. unfold scan_text. apply (laid_scan s ds ts LD); [|apply (et_skip (nl, s))|cbn; lia].
    split; [exact (laid_lay _ _ _ LD)|]. intros _. reflexivity.
  Qed.
End Sections.

(** ** Lines and tabs *)
Notation breaks s := (count_occ ascii_dec s nl).
Lemma breaks_app a b : breaks (a ++ b) = breaks a + breaks b.
Proof. apply count_occ_app. Qed.
Lemma breaks_none s : ~ In nl s -> breaks s = 0.
Proof. apply count_occ_not_In. Qed.
Lemma expand_line a s : forall k, expandtabs_aux k (a ++ nl :: s) = expandtabs_aux k a ++ nl :: expandtabs s.
Proof.
  induction a as [|c a IH]; intros k; [reflexivity|]. cbn [app expandtabs_aux]. destruct (cheq c PyStr.tab).
  - rewrite IH, app_assoc. reflexivity.
  - destruct (cheq c nl || cheq c cr); rewrite IH; reflexivity.
Qed.
Lemma expand_join ls : expandtabs (join [nl] ls) = join [nl] (map expandtabs ls).
Proof.
  induction ls as [|a ls IH]; [reflexivity|]. destruct ls as [|b ls]; [reflexivity|].
  change (join [nl] (a :: b :: ls)) with (a ++ nl :: join [nl] (b :: ls)). unfold expandtabs at 1. rewrite expand_line, IH. reflexivity.
Qed.
Lemma expand_occurs w : w <> [] -> ~ In sp w -> ~ In PyStr.tab w -> forall x k, occurs w (expandtabs_aux k x) -> occurs w x.
Proof.
  intros NE NS NT. assert (PRE : forall x k b, ~ In sp w -> expandtabs_aux k x = w ++ b -> exists b', x = w ++ b').
  { clear NE. induction w as [|c w IH]; intros x k b N E; [exists x; reflexivity|]. destruct x as [|d x]; [discriminate E|]. cbn [expandtabs_aux] in E.
    destruct (cheq d PyStr.tab).
    - exfalso. destruct (spaces_cons k) as (y & X & _). rewrite X in E. injection E as E _. apply N. left. symmetry. exact E.
    - assert (X : exists k', c = d /\ expandtabs_aux k' x = w ++ b).
      { destruct (cheq d nl || cheq d cr); injection E as -> E; eauto. }
      destruct X as (k' & -> & X). destruct (IH ltac:(intros Y; apply NS; right; exact Y) ltac:(intros Y; apply NT; right; exact Y) x k' b ltac:(intros Y; apply N; right; exact Y) X) as (b' & ->).
      exists b'. reflexivity. }
  induction x as [|d x IH]; intros k (a & b & E).
  - destruct a, w; try discriminate E. contradiction.
  - destruct a as [|e a].
    + destruct (PRE (d :: x) k b NS E) as (b' & ->). exists [], b'. reflexivity.
    + cbn [expandtabs_aux] in E. destruct (cheq d PyStr.tab).
      * assert (SP : forall n y, spaces n ++ y = (e :: a) ++ w ++ b -> occurs w y).
        { clear - NE NS. intros n. generalize (e :: a). intros u y. revert u. induction n as [|n IH]; intros u E.
          - exists u, b. exact E.
          - cbn [spaces app] in E. destruct u as [|c u].
            + destruct w as [|c w]; [contradiction|]. injection E as E _. exfalso. apply NS. left. symmetry. exact E.
            + injection E as _ E. exact (IH u E). }
        destruct (IH 0 (SP _ _ E)) as (a' & b' & ->). exists (d :: a'), b'. reflexivity.
      * assert (X : exists k', occurs w (expandtabs_aux k' x)).
        { destruct (cheq d nl || cheq d cr); injection E as _ E; eexists; exists a, b; exact E. }
        destruct X as (k' & X). destruct (IH k' X) as (a' & b' & ->). exists (d :: a'), b'. reflexivity.
Qed.
Lemma line_of_place ls : Forall (fun x => ~ In nl x) ls -> ls <> [] -> forall a r, join [nl] ls = a ++ r ->
  exists x v y, nth_error ls (breaks a) = Some x /\ r = v ++ y /\ ~ In nl v /\ (y = [] \/ exists z, y = nl :: z) /\ exists u, x = u ++ v.
Proof.
  induction 1 as [|l ls N F IH]; intros NE a r E; [contradiction|]. destruct ls as [|l2 ls].
  - cbn [join] in E. assert (Na : ~ In nl a) by (intros X; apply N; rewrite E; apply in_or_app; left; exact X).
    assert (Nr : ~ In nl r) by (intros X; apply N; rewrite E; apply in_or_app; right; exact X).
    exists l, r, []. rewrite breaks_none by exact Na. rewrite app_nil_r. split; [reflexivity|]. split; [reflexivity|]. split; [exact Nr|]. split; [left; reflexivity|exists a; exact E].
  - change (join [nl] (l :: l2 :: ls)) with (l ++ nl :: join [nl] (l2 :: ls)) in E.
    destruct (le_lt_dec (length a) (length l)) as [LE|GT].
    + assert (X : exists v, l = a ++ v /\ r = v ++ nl :: join [nl] (l2 :: ls)).
      { exists (skipn (length a) l). assert (A1 : a = firstn (length a) l).
        { apply (f_equal (firstn (length a))) in E. rewrite firstn_app in E. replace (length a - length l) with 0 in E by lia. cbn [firstn] in E.
          rewrite app_nil_r in E. rewrite E, firstn_app, firstn_all, Nat.sub_diag. cbn. rewrite app_nil_r. reflexivity. }
        split; [rewrite A1 at 1; rewrite firstn_skipn; reflexivity|]. apply (f_equal (skipn (length a))) in E.
        rewrite !skipn_app in E. replace (length a - length l) with 0 in E by lia. rewrite skipn_all, Nat.sub_diag in E. cbn [skipn app] in E. symmetry. exact E. }
      destruct X as (v & El & Er). exists l, v, (nl :: join [nl] (l2 :: ls)).
      rewrite breaks_none by (intros X; apply N; rewrite El; apply in_or_app; left; exact X).
      split; [reflexivity|]. split; [exact Er|]. split; [intros X; apply N; rewrite El; apply in_or_app; right; exact X|]. split; [right; eauto|]. exists a. exact El.
    + assert (X : exists a', a = l ++ nl :: a' /\ join [nl] (l2 :: ls) = a' ++ r).
      { exists (skipn (S (length l)) a). assert (Q : a = firstn (S (length l)) a ++ skipn (S (length l)) a) by (symmetry; apply firstn_skipn).
        assert (A1 : firstn (S (length l)) a = l ++ [nl]).
        { apply (f_equal (firstn (S (length l)))) in E. rewrite firstn_app in E. rewrite (firstn_all2 l) in E by lia. replace (S (length l) - length l) with 1 in E by lia.
          change (firstn 1 (nl :: join [nl] (l2 :: ls))) with [nl] in E. rewrite E, firstn_app. replace (S (length l) - length a) with 0 by lia.
          change (firstn 0 r) with (@nil ascii). rewrite app_nil_r. reflexivity. }
        split; [rewrite Q at 1; rewrite A1, <- app_assoc; reflexivity|]. rewrite Q, A1, <- !app_assoc in E. apply app_inv_head in E. injection E as E. exact E. }
      destruct X as (a' & -> & E'). destruct (IH ltac:(discriminate) a' r E') as (x & v & y & NX & R). exists x, v, y. split; [|exact R].
      rewrite breaks_app, (breaks_none l N). cbn [count_occ]. destruct (ascii_dec nl nl) as [_|X]; [|contradiction]. cbn [plus nth_error]. exact NX.
Qed.
Lemma keyed_opens r v y : keyed r -> r = v ++ y -> (y = [] \/ exists u, y = nl :: u) -> may_open v.
Proof.
  intros K -> Y. destruct K as [K|K]; apply starts_with_iff in K; destruct K as [z K].
  - left. destruct (prefix_of_line $"struct" _ _ _ ltac:(intros X; vm_compute in X; repeat (destruct X as [X|X]; [discriminate X|]); exact X) K Y) as (z' & ->). exists [], z'. reflexivity.
  - right. destruct (prefix_of_line $"union" _ _ _ ltac:(intros X; vm_compute in X; repeat (destruct X as [X|X]; [discriminate X|]); exact X) K Y) as (z' & ->). exists [], z'. reflexivity.
Qed.
Lemma may_expand u v x : may_open v -> expandtabs x = u ++ v -> may_open x.
Proof.
  intros M E. assert (O : forall w, occurs w v -> occurs w (expandtabs x)).
  { intros w (a & b & ->). exists (u ++ a), b. rewrite E, <- app_assoc. reflexivity. }
  destruct M as [M|M]; [left|right]; refine (expand_occurs _ _ _ _ x 0 (O _ M)); try discriminate;
    intros X; vm_compute in X; repeat (destruct X as [X|X]; [discriminate X|]); exact X.
Qed.
Lemma expand_breaks ls : Forall (fun x => ~ In nl x) ls -> Forall (fun x => ~ In nl x) (map expandtabs ls).
Proof.
  intros F. apply Forall_map. eapply Forall_impl; [|exact F]. intros x N X. destruct (expand_in x 0 nl X) as [E|[E _]]; [discriminate E|contradiction].
Qed.
Section Text.
  Context (base mods : list str) (GC : good_config base mods) (l : list (nat * option Z)) (T : str).
  Lemma place_packing n P o tail y0 : Forall (fun x => ~ In nl x) o -> o <> [] -> 1 <= n ->
    (forall k x, nth_error o k = Some x -> may_open x -> packing_at l (n + k) = P) ->
    (tail = [] /\ y0 = 0 \/ (exists s, tail = nl :: s) /\ y0 = breaks tail) ->
    breaks T + 1 = n + breaks (expandtabs (join [nl] o)) + y0 ->
    forall r, ends_text (expandtabs (join [nl] o)) r -> keyed (r ++ tail) -> pack_of l T (r ++ tail) = P.
  Proof.
    intros N NE N1 PK TL BT r [a E] KR. rewrite expand_join in E.
    destruct (line_of_place (map expandtabs o) (expand_breaks o N)) with (a := a) (r := r) as (x' & v & y & NX & -> & NV & Y & u & EX);
      [destruct o; [contradiction|discriminate]|exact E|].
    rewrite nth_error_map in NX. destruct (nth_error o (breaks a)) as [x|] eqn:NX'; [|discriminate NX]. injection NX as NX.
    unfold pack_of, line_at. rewrite expand_join, E in BT. rewrite breaks_app in BT. rewrite (breaks_app (v ++ y) tail).
    assert (BQ : breaks tail = y0) by (destruct TL as [[-> ->]|[_ ->]]; reflexivity).
    replace (S (breaks T - (breaks (v ++ y) + breaks tail))) with (n + breaks a) by lia.
    apply (PK _ x NX'). assert (MO : may_open v).
    { apply (keyed_opens ((v ++ y) ++ tail) v (y ++ tail) KR); [rewrite app_assoc; reflexivity|].
      destruct Y as [->|(z & ->)]; [|right; eexists; reflexivity]. destruct TL as [[-> _]|[(s & ->) _]]; [left; reflexivity|right; eexists; reflexivity]. }
    apply (may_expand u v); [exact MO|]. rewrite NX. exact EX.
  Qed.
  Lemma sections_laid n ds ls : sections base mods l n ds ls -> 1 <= n -> Forall (fun x => ~ In nl x) ls -> ls <> [] ->
    breaks T + 1 = n + breaks (expandtabs (join [nl] ls)) ->
    exists ts, laid base mods (pack_of l T) (expandtabs (join [nl] ls)) ds ts.
  Proof.
    induction 1 as [n P ds o HD PK|n P ds o ds' o' NE NE' HD PK SC IH]; intros N1 F N BT.
    - destruct HD as (lk & ts & SL & TO & L & O). destruct (lay_expand nl ts _ L TO 0) as (ts' & S1 & L'). exists ts'.
      destruct (noisy_same base mods P GC lk [] ds ts SL ts' S1) as (tl & T0 & SL'). rewrite (T0 eq_refl) in SL'.
      apply (laid_last _ _ _ P lk); [exact SL'|exact L'|intros K; apply one_string_expand; apply O; exact K|].
      intros r ER KR. rewrite <- (app_nil_r r). apply (place_packing n P o [] 0); try assumption; [left; auto|lia|rewrite app_nil_r; exact KR].
    - apply Forall_app in F. destruct F as [F F']. assert (J : join [nl] (o ++ o') = join [nl] o ++ nl :: join [nl] o').
      { clear - NE NE'. induction o as [|a o IH]; [contradiction|]. destruct o as [|b o].
        - cbn [app]. rewrite join_cons by exact NE'. reflexivity.
        - cbn [app] in *. rewrite (join_cons _ a (b :: o ++ o')), (join_cons _ a (b :: o)) by discriminate. rewrite IH by discriminate. rewrite <- ?app_assoc. reflexivity. }
      rewrite J in *. unfold expandtabs in BT |- *. rewrite expand_line in BT |- *. change (expandtabs_aux 0 (join [nl] o)) with (expandtabs (join [nl] o)) in *.
      rewrite breaks_app in BT. assert (BN : breaks (nl :: expandtabs (join [nl] o')) = S (breaks (expandtabs (join [nl] o')))).
      { cbn [count_occ]. destruct (ascii_dec nl nl); [reflexivity|contradiction]. }
      rewrite BN in BT. assert (BO : S (breaks (expandtabs (join [nl] o))) = length o).
      { clear - F NE. rewrite expand_join, <- (map_length expandtabs o). pose proof (expand_breaks o F) as F2.
        assert (NE2 : map expandtabs o <> []) by (destruct o; [contradiction|discriminate]). revert F2 NE2. generalize (map expandtabs o). clear.
        induction 1 as [|a m N F IH]; intros NE; [contradiction|]. destruct m as [|b m].
        - cbn [join length]. rewrite breaks_none by exact N. reflexivity.
        - rewrite join_cons by discriminate. rewrite !breaks_app, (breaks_none a N). change (breaks [nl]) with 1. cbn [plus]. rewrite IH by discriminate. reflexivity. }
      destruct HD as (lk & ts & SL & TO & L & O). destruct (lay_expand nl ts _ L TO 0) as (ts' & S1 & L').
      destruct (noisy_same base mods P GC lk [] ds ts SL ts' S1) as (tl & T0 & SL'). rewrite (T0 eq_refl) in SL'.
      destruct IH as (ts2 & LD); [lia|exact F'|exact NE'|lia|]. exists (ts' ++ ts2).
      apply (laid_more _ _ _ P lk); [exact SL'|exact L'|intros K; apply one_string_expand; apply O; exact K| |exact LD].
      intros r ER _ KR. apply (place_packing n P o _ (S (breaks (expandtabs (join [nl] o'))))); try assumption; [right; split; [eauto|symmetry; exact BN]|lia].
  Qed.
End Text.
Theorem parse_sections base mods l ds ls : good_config base mods -> Forall (fun x => ~ In nl x) ls -> ls <> [] ->
  sections base mods l 1 ds ls -> parse_defs base mods l (join [nl] ls) = Some ds.
Proof.
  intros GC F NE SC. unfold parse_defs. set (T := expandtabs (join [nl] ls)).
  destruct (sections_laid base mods GC l T 1 ds ls SC (le_n 1) F NE) as (ts & LD); [unfold T; lia|].
  apply (laid_text base mods _ GC _ _ _ LD).
Qed.
