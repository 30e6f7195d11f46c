(** Proofs about macro expansion. *)
From Coq Require Import Ascii String Bool Arith ZArith Lia List.
Import ListNotations.
From Verif Require Import PyBase PyBaseFacts PyStr PyStrFacts TypeModel TypeSpec WordFacts.
From Verif Require Import MacroModel MacroSpec.

Lemma dquote_not_word : is_word dquote = false. Proof. reflexivity. Qed.

(** ** Searching *)
Lemma lit_close_app s a b : lit_close s = Some (a, b) -> s = a ++ b /\ a <> [].
Proof.
  remember (length s) as n eqn:L. assert (LE : length s <= n) by lia. clear L.
  revert s a b LE. induction n as [|n IH]; intros s a b LE E; (destruct s as [|c r]; [discriminate|]).
  { cbn in LE. lia. }
  cbn [length] in LE. cbn [lit_close] in E. destruct (cheq c dquote).
  { injection E as <- <-. split; [reflexivity|discriminate]. }
  destruct r as [|d r']; [discriminate|]. destruct (cheq c bslash && cheq d dquote).
  - destruct (lit_close r') as [[a' b']|] eqn:R.
    + injection E as <- <-. apply IH in R; [|cbn in LE; lia]. destruct R as [-> _].
      split; [reflexivity|discriminate].
    + injection E as <- <-. split; [reflexivity|discriminate].
  - destruct (lit_close (d :: r')) as [[a' b']|] eqn:R; [|discriminate].
    injection E as <- <-. apply IH in R; [|lia]. destruct R as [-> _]. split; [reflexivity|discriminate].
Qed.

Lemma lit_close_some s : In dquote s -> lit_close s <> None.
Proof.
  remember (length s) as n eqn:L. assert (LE : length s <= n) by lia. clear L.
  revert s LE. induction n as [|n IH]; intros s LE I; (destruct s as [|c r]; [destruct I|]).
  { cbn in LE. lia. }
  cbn [length] in LE. cbn [lit_close]. destruct (cheq_spec c dquote) as [->|N]; [discriminate|].
  destruct I as [E|I]; [congruence|].
  destruct r as [|d r']; [destruct I|]. destruct (cheq_spec c bslash) as [B|B]; cbn [andb].
  - destruct (cheq_spec d dquote) as [D|D].
    + destruct (lit_close r') as [[a' b']|]; discriminate.
    + pose proof (IH (d :: r') ltac:(lia) I) as X. destruct (lit_close (d :: r')) as [[a b]|]; [discriminate|congruence].
  - pose proof (IH (d :: r') ltac:(lia) I) as X. destruct (lit_close (d :: r')) as [[a b]|]; [discriminate|congruence].
Qed.

Lemma lit_close_none s : ~ In dquote s -> lit_close s = None.
Proof.
  induction s as [|c r IH]; intros N; [reflexivity|]. cbn [lit_close].
  destruct (cheq_spec c dquote) as [->|NC]; [exfalso; apply N; left; reflexivity|].
  destruct r as [|d r']; [reflexivity|].
  destruct (cheq_spec d dquote) as [->|ND]; [exfalso; apply N; right; left; reflexivity|].
  rewrite andb_false_r. rewrite IH; [reflexivity|]. intros I. apply N. right. exact I.
Qed.

Lemma re_search_gap c r :
  is_word c = false -> c <> dquote \/ ~ In dquote r ->
  re_search (c :: r) = match re_search r with
                       | Some (b, t, a) => Some (c :: b, t, a) | None => None end.
Proof.
  intros W D. cbn [re_search]. rewrite W. destruct (cheq_spec c dquote) as [->|N]; [|reflexivity].
  destruct D as [D|D]; [congruence|]. rewrite lit_close_none by exact D. reflexivity.
Qed.

Lemma span_run p w r :
  forallb p w = true -> head_not p r = true -> span p (w ++ r) = (w, r).
Proof.
  intros F H. apply span_app_all; assumption.
Qed.

Lemma word_forallb w : word w -> w <> [] /\ forallb is_word w = true.
Proof. intros [N F]. split; [exact N|]. apply forallb_forall. exact F. Qed.
Lemma forallb_word w : w <> [] -> forallb is_word w = true -> word w.
Proof. intros N F. split; [exact N|]. apply forallb_forall. exact F. Qed.

Lemma re_search_word w r :
  word w -> head_not is_word r = true -> re_search (w ++ r) = Some ([], TWord w, r).
Proof.
  intros W H. apply word_forallb in W. destruct W as [NE F].
  destruct w as [|c w]; [congruence|]. cbn [app re_search].
  assert (WC : is_word c = true) by (cbn in F; apply andb_true_iff in F; tauto).
  assert (NQ : cheq c dquote = false).
  { destruct (cheq_spec c dquote) as [->|]; [|reflexivity]. rewrite dquote_not_word in WC. discriminate. }
  rewrite NQ, WC. rewrite app_comm_cons, (span_run is_word (c :: w) r F H). reflexivity.
Qed.

Lemma re_search_lit r : In dquote r -> exists l a, re_search (dquote :: r) = Some ([], TLit l, a).
Proof.
  intros I. cbn [re_search]. rewrite cheq_refl. pose proof (lit_close_some r I) as N.
  destruct (lit_close r) as [[l a]|]; [|congruence]. eauto.
Qed.

(** What a successful search says. *)
Lemma re_search_spec s b t a :
  re_search s = Some (b, t, a) ->
  match t with
  | TWord w => s = b ++ w ++ a /\ word w /\ head_not is_word a = true
  | TLit l => 2 <= length s /\ length a < length s
  end.
Proof.
  revert b t a. induction s as [|c r IH]; intros b t a E; [discriminate|]. cbn [re_search] in E.
  assert (NEXT : match re_search r with
                 | Some (b, t, a) => Some (c :: b, t, a) | None => None end = Some (b, t, a) ->
                 match t with
                 | TWord w => c :: r = b ++ w ++ a /\ word w /\ head_not is_word a = true
                 | TLit l => 2 <= length (c :: r) /\ length a < length (c :: r)
                 end).
  { intros X. destruct (re_search r) as [[[b' t'] a']|]; [|discriminate]. injection X as <- -> ->.
    specialize (IH _ _ _ eq_refl). destruct t as [l|w].
    - cbn [length]. lia.
    - destruct IH as (-> & W & H). auto. }
  destruct (cheq c dquote).
  - destruct (lit_close r) as [[l x]|] eqn:L; [|exact (NEXT E)].
    injection E as <- <- <-. apply lit_close_app in L. destruct L as [-> NE].
    cbn [length]. rewrite app_length. destruct l; [congruence|]. cbn [length]. lia.
  - destruct (is_word c) eqn:W; [|exact (NEXT E)].
    pose proof (span_app is_word (c :: r)) as S1. pose proof (span_all is_word (c :: r)) as S2.
    pose proof (span_head is_word (c :: r)) as S3.
    destruct (span is_word (c :: r)) as [w x] eqn:SP. cbn [fst snd] in *.
    injection E as <- <- <-. split; [exact S1|]. split.
    + apply forallb_word; [|exact S2]. intros ->. cbn in SP. rewrite W in SP.
      destruct (span is_word r). discriminate.
    + destruct x as [|d x]; [reflexivity|]. cbn. rewrite (S3 d x eq_refl). reflexivity.
Qed.

(** ** Expansion as an equation *)
Section Expand.
  Context (fo : str -> list str -> option str).
  Local Notation expand := (expand fo).
  Local Notation expand_macros := (expand_macros fo).
  Local Notation expand_fn_macro := (expand_fn_macro fo).

  Lemma split_first_length sep s a b : split_first sep s = Some (a, b) -> length s = length a + S (length b).
  Proof. intros E. apply split_first_iff in E. destruct E as [-> _]. rewrite app_length. reflexivity. Qed.

  Lemma split_on_lengths sep s w : In w (split_on sep s) -> length w <= length s.
  Proof.
    revert w. induction s as [|c r IH]; intros w I; cbn [split_on] in I.
    - destruct I as [<-|[]]. cbn. lia.
    - destruct (cheq c sep).
      + destruct I as [<-|I]; [cbn; lia|]. apply IH in I. cbn [length]. lia.
      + destruct (split_on sep r) as [|x xs].
        * destruct I as [<-|[]]. cbn. lia.
        * destruct I as [<-|I].
          -- specialize (IH x (or_introl eq_refl)). cbn [length]. lia.
          -- specialize (IH w (or_intror I)). cbn [length]. lia.
  Qed.

  Lemma strip_length s : length (strip s) <= length s.
  Proof.
    unfold strip. destruct (lstrip_spec s) as (a & E & _). destruct (rstrip_spec (lstrip s)) as (b & E' & _).
    assert (L1 : length s = length a + length (lstrip s)) by (rewrite E at 1; apply app_length).
    assert (L2 : length (lstrip s) = length (rstrip (lstrip s)) + length b) by (rewrite E' at 1; apply app_length).
    lia.
  Qed.

  Lemma mapM_ext {A B} (f g : A -> res B) l :
    (forall x, In x l -> f x = g x) -> mapM f l = mapM g l.
  Proof.
    induction l as [|x l IH]; intros H; [reflexivity|]. cbn [mapM]. rewrite (H x) by (left; reflexivity).
    rewrite IH; [reflexivity|]. intros y I. apply H. right. exact I.
  Qed.

  Lemma expand_fn_ext f g d a :
    (forall x, length x < length a -> f x = g x) -> expand_fn_macro f d a = expand_fn_macro g d a.
  Proof.
    intros H. unfold MacroModel.expand_fn_macro. destruct (split_first ")" a) as [[x e]|] eqn:E1; [|reflexivity].
    destruct (split_first "(" x) as [[y al]|] eqn:E2; [|reflexivity].
    rewrite (mapM_ext f g); [reflexivity|].
    intros z I. apply H. apply in_map_iff in I. destruct I as (u & <- & I).
    apply split_on_lengths in I. pose proof (strip_length u).
    apply split_first_length in E1, E2. lia.
  Qed.

  Lemma expand_fn_end f d a r e : expand_fn_macro f d a = Ok (r, e) -> length e < length a.
  Proof.
    unfold MacroModel.expand_fn_macro. destruct (split_first ")" a) as [[x e']|] eqn:E1; [|discriminate].
    destruct (split_first "(" x) as [[y al]|]; [|discriminate].
    destruct (mapM f _); [|discriminate]. cbn [bind]. destruct (mapM _ (snd d)); [|discriminate]. cbn [bind].
    destruct (format fo _ _); [|discriminate]. cbn [bind]. intros E. injection E as <- <-.
    apply split_first_length in E1. lia.
  Qed.

  Lemma expand_fn_fuel f d a :
    (forall x, length x < length a -> f x <> Err OutOfFuel) -> expand_fn_macro f d a <> Err OutOfFuel.
  Proof.
    intros H. unfold MacroModel.expand_fn_macro. destruct (split_first ")" a) as [[x e]|] eqn:E1; [|discriminate].
    destruct (split_first "(" x) as [[y al]|] eqn:E2; [|discriminate].
    assert (M : forall l, (forall z, In z l -> f z <> Err OutOfFuel) -> mapM f l <> Err OutOfFuel).
    { induction l as [|z l IH]; intros Z; [discriminate|]. cbn [mapM].
      pose proof (Z z (or_introl eq_refl)). destruct (f z) as [v|e']; cbn [bind]; [|congruence].
      specialize (IH (fun y I => Z y (or_intror I))). destruct (mapM f l); cbn [bind]; congruence. }
    assert (LT : forall z, In z (map strip (split_on "," al)) -> f z <> Err OutOfFuel).
    { intros z I. apply H. apply in_map_iff in I. destruct I as (u & <- & I).
      apply split_on_lengths in I. pose proof (strip_length u). apply split_first_length in E1, E2. lia. }
    specialize (M _ LT). destruct (mapM f _) as [args|e']; cbn [bind]; [|congruence].
    assert (P : forall l, mapM (fun i => match nth_error args i with Some x => Ok x | None => Err IndexError end) l <> Err OutOfFuel).
    { induction l as [|z l IH]; [discriminate|]. cbn [mapM]. destruct (nth_error args z); cbn [bind]; [|discriminate].
      destruct (mapM _ l); cbn [bind]; congruence. }
    specialize (P (snd d)). destruct (mapM _ (snd d)) as [pk|e']; cbn [bind]; [|congruence].
    unfold format. destruct (match fmt (fst d) pk with Some r => r | None => fo (fst d) pk end); discriminate.
  Qed.

  Lemma last1_last s : 1 <= length s -> length (last1 s) = 1.
  Proof.
    unfold last1. intros L. destruct (rev s) as [|c r] eqn:E; [|reflexivity].
    apply (f_equal (@length _)) in E. rewrite rev_length in E. cbn in E. lia.
  Qed.

  Lemma expand_stable t : forall n line f,
    length line < n -> n <= f -> expand t f line = expand t n line.
  Proof.
    induction n as [|n IH]; intros line f L F; [lia|]. destruct f as [|f]; [lia|].
    cbn [MacroModel.expand]. destruct (re_search line) as [[[b [l|w]] a]|] eqn:S; [| |reflexivity].
    - apply re_search_spec in S. destruct S as [S1 S2].
      rewrite (IH _ f); [reflexivity|rewrite last1_last; lia|lia].
    - apply re_search_spec in S. destruct S as (S1 & [NE _] & _).
      assert (LA : length a < n).
      { rewrite S1, !app_length in L. destruct w; [congruence|]. cbn [length] in L. lia. }
      assert (RA : forall x, length x <= length a -> expand t f x = expand t n x).
      { intros x LX. apply IH; lia. }
      rewrite (RA a) by lia. destruct (dget (macros t) w); [reflexivity|].
      destruct (dget (fnmacros t) w) as [d|]; [|reflexivity].
      rewrite (expand_fn_ext (expand t f) (expand t n) d a) by (intros x LX; apply RA; lia).
      destruct (expand_fn_macro (expand t n) d a) as [[x e]|ex] eqn:FN; [|reflexivity].
      rewrite RA; [reflexivity|]. apply expand_fn_end in FN. lia.
  Qed.

  Lemma expand_total t : forall n line, length line < n -> exists r, expand t n line = Ok r.
  Proof.
    induction n as [|n IH]; intros line L; [lia|].
    cbn [MacroModel.expand]. destruct (re_search line) as [[[b [l|w]] a]|] eqn:S; [| |eauto].
    - apply re_search_spec in S. destruct S as [S1 S2].
      destruct (IH (last1 line)) as [r R]; [rewrite last1_last; lia|]. rewrite R. cbn. eauto.
    - apply re_search_spec in S. destruct S as (S1 & [NE _] & _).
      assert (LA : length a < n).
      { rewrite S1, !app_length in L. destruct w; [congruence|]. cbn [length] in L. lia. }
      destruct (IH a LA) as [r R]. rewrite R. cbn [bind].
      destruct (dget (macros t) w); [eauto|]. destruct (dget (fnmacros t) w) as [d|]; [|eauto].
      pose proof (expand_fn_fuel (expand t n) d a) as FF.
      destruct (expand_fn_macro (expand t n) d a) as [[x e]|ex] eqn:FN.
      + apply expand_fn_end in FN. destruct (IH e) as [r' R']; [lia|]. rewrite R'. cbn. eauto.
      + assert (EX : ex <> OutOfFuel).
        { intros ->. apply FF; [|reflexivity]. intros x LX. destruct (IH x) as [y Y]; [lia|]. rewrite Y. discriminate. }
        destruct ex; try congruence; eauto.
  Qed.

  (** [expand_macros] always returns text; [xm] is that text. *)
  Definition xm (t : mtab) (line : str) : str :=
    match expand_macros t line with Ok r => r | Err _ => [] end.
  Lemma expand_macros_ok t line : expand_macros t line = Ok (xm t line).
  Proof.
    unfold xm, MacroModel.expand_macros. destruct (expand_total t (S (length line)) line) as [r R]; [lia|].
    rewrite R. reflexivity.
  Qed.
  Lemma expand_enough t n line : length line < n -> expand t n line = Ok (xm t line).
  Proof.
    intros L. rewrite <- expand_macros_ok. unfold MacroModel.expand_macros. apply expand_stable; lia.
  Qed.

  (** The call of a function-like macro. *)
  Definition call (t : mtab) (d : str * list nat) (a : str) : res (str * str) :=
    expand_fn_macro (fun x => Ok (xm t x)) d a.

  Lemma xm_eq t line :
    xm t line =
    match re_search line with
    | None => line
    | Some (_, TLit _, _) => but_last line ++ xm t (last1 line)
    | Some (b, TWord w, a) =>
        match dget (macros t) w with
        | Some v => b ++ v ++ xm t a
        | None =>
            match dget (fnmacros t) w with
            | Some d =>
                match call t d a with
                | Ok (x, e) => b ++ x ++ xm t e
                | Err _ => b ++ w ++ xm t a
                end
            | None => b ++ w ++ xm t a
            end
        end
    end.
  Proof.
    assert (G : expand_macros t line = Ok
      match re_search line with
    | None => line
    | Some (_, TLit _, _) => but_last line ++ xm t (last1 line)
    | Some (b, TWord w, a) =>
        match dget (macros t) w with
        | Some v => b ++ v ++ xm t a
        | None =>
            match dget (fnmacros t) w with
            | Some d =>
                match call t d a with
                | Ok (x, e) => b ++ x ++ xm t e
                | Err _ => b ++ w ++ xm t a
                end
            | None => b ++ w ++ xm t a
            end
        end
    end).
    2:{ rewrite expand_macros_ok in G. injection G as G. exact G. }
    unfold MacroModel.expand_macros. cbn [MacroModel.expand].
    destruct (re_search line) as [[[b [l|w]] a]|] eqn:S; [| |reflexivity].
    - apply re_search_spec in S. destruct S as [S1 S2].
      rewrite expand_enough by (rewrite last1_last; lia). reflexivity.
    - apply re_search_spec in S. destruct S as (S1 & [NE _] & _).
      assert (LA : length a < length line).
      { rewrite S1, !app_length. destruct w; [congruence|]. cbn [length]. lia. }
      rewrite (expand_enough t (length line) a) by lia. cbn [bind].
      destruct (dget (macros t) w); [reflexivity|]. destruct (dget (fnmacros t) w) as [d|]; [|reflexivity].
      rewrite (expand_fn_ext (expand t (length line)) (fun x => Ok (xm t x)) d a)
        by (intros x LX; apply expand_enough; lia).
      fold (call t d a). destruct (call t d a) as [[x e]|ex] eqn:C.
      + apply expand_fn_end in C. rewrite expand_enough by lia. reflexivity.
      + assert (EX : ex <> OutOfFuel).
        { intros ->. revert C. apply expand_fn_fuel. intros x _. discriminate. }
        destruct ex; try congruence; reflexivity.
  Qed.

  Lemma xm_nil t : xm t [] = [].
  Proof. rewrite xm_eq. reflexivity. Qed.

  Lemma last1_cons c r : r <> [] -> last1 (c :: r) = last1 r.
  Proof.
    unfold last1. intros N. cbn [rev]. destruct (rev r) as [|d x] eqn:E; [|reflexivity].
    apply (f_equal (@rev _)) in E. rewrite rev_involutive in E. cbn in E. congruence.
  Qed.
  Lemma but_last_cons (c : ascii) r : r <> [] -> but_last (c :: r) = c :: but_last r.
  Proof. destruct r; [congruence|reflexivity]. Qed.

  Lemma xm_gap t c r :
    is_word c = false -> c <> dquote \/ ~ In dquote r -> xm t (c :: r) = c :: xm t r.
  Proof.
    intros W D. rewrite xm_eq, (xm_eq t r). rewrite re_search_gap by assumption.
    destruct (re_search r) as [[[b [l|w]] a]|] eqn:S.
    - apply re_search_spec in S. destruct S as [S1 S2]. assert (r <> []) by (intros ->; cbn in S1; lia).
      rewrite last1_cons, but_last_cons by assumption. reflexivity.
    - destruct (dget (macros t) w); [reflexivity|]. destruct (dget (fnmacros t) w); [|reflexivity].
      destruct (call t p a) as [[x e]|]; reflexivity.
    - reflexivity.
  Qed.

  Lemma xm_word t w r :
    word w -> head_not is_word r = true ->
    xm t (w ++ r) =
      match dget (macros t) w with
      | Some v => v ++ xm t r
      | None =>
          match dget (fnmacros t) w with
          | Some d =>
              match call t d r with
              | Ok (x, e) => x ++ xm t e
              | Err _ => w ++ xm t r
              end
          | None => w ++ xm t r
          end
      end.
  Proof. intros W H. rewrite xm_eq, re_search_word by assumption. reflexivity. Qed.

  Lemma xm_lit t r : In dquote r -> xm t (dquote :: r) = dquote :: but_last r ++ xm t (last1 r).
  Proof.
    intros I. rewrite xm_eq. destruct (re_search_lit r I) as (l & a & ->).
    assert (r <> []) by (intros ->; destruct I). rewrite last1_cons, but_last_cons by assumption. reflexivity.
  Qed.

  Lemma call_nil t d : call t d [] = Err DefinitionError.
  Proof. reflexivity. Qed.

  (** The last character. *)
  Lemma xm_char t c :
    xm t [c] = if is_word c then replaced (macros t) [c] else [c].
  Proof.
    destruct (is_word c) eqn:W.
    - rewrite <- (app_nil_r [c]) at 1. rewrite xm_word; [|split; [discriminate|intros d [<-|[]]; exact W]|reflexivity].
      unfold replaced. destruct (dget (macros t) [c]) as [v|]; [rewrite xm_nil, app_nil_r; reflexivity|].
      destruct (dget (fnmacros t) [c]); [rewrite call_nil|]; rewrite xm_nil, app_nil_r; reflexivity.
    - rewrite xm_gap; [rewrite xm_nil; reflexivity|exact W|]. right. intros [].
  Qed.

  (** ** Words (C22, C24) *)
  Lemma no_literal_tail c r : no_literal (c :: r) -> no_literal r.
  Proof. intros N a b E. apply (N (c :: a) b). rewrite E. reflexivity. Qed.
  Lemma no_literal_app a b : no_literal (a ++ b) -> no_literal b.
  Proof.
    induction a as [|c a IH]; [auto|]. intros N. apply IH. eapply no_literal_tail. exact N.
  Qed.

  Lemma words_head ps :
    maximal ps ->
    (forall p, In p ps -> match p with PGap g => g <> [] /\ no_word g | PWord w => word w | PStr _ => False end) ->
    match ps with PWord _ :: _ => True | _ => head_not is_word (text ps) = true end.
  Proof.
    intros _ F. destruct ps as [|[g|w|l] ps]; [reflexivity| |exact I|].
    - destruct (F _ (or_introl eq_refl)) as [NE NW]. destruct g as [|c g]; [congruence|].
      cbn. rewrite (NW c (or_introl eq_refl)). reflexivity.
    - destruct (F _ (or_introl eq_refl)).
  Qed.

  Lemma words_of_cons p ps : words_of (text (p :: ps)) (p :: ps) -> words_of (text ps) ps.
  Proof.
    intros (_ & M & F). split; [reflexivity|]. split.
    - destruct p; [exact M| |exact M]. cbn in M. destruct ps as [|[]]; auto. destruct M.
    - intros q I. apply F. right. exact I.
  Qed.
  Lemma words_of_next w ps : words_of (text (PWord w :: ps)) (PWord w :: ps) -> head_not is_word (text ps) = true.
  Proof.
    intros W. pose proof (words_of_cons _ _ W) as (_ & M & F). destruct W as (_ & M' & _).
    pose proof (words_head ps M F) as H. destruct ps as [|[]]; try exact H. cbn in M'. destruct M'.
  Qed.

  Lemma xm_gaps t g r : no_word g -> no_literal (g ++ r) -> xm t (g ++ r) = g ++ xm t r.
  Proof.
    induction g as [|c g IH]; intros W N; [reflexivity|]. cbn [app]. rewrite xm_gap.
    - rewrite IH; [reflexivity| |eapply no_literal_tail; exact N]. intros d I. apply W. right. exact I.
    - apply W. left. reflexivity.
    - destruct (cheq_spec c dquote) as [->|NC]; [right|left; exact NC]. apply (N []). reflexivity.
  Qed.

  Lemma text_cons p ps : text (p :: ps) = piece_text p ++ text ps.
  Proof. reflexivity. Qed.
  Lemma subst_cons f p ps :
    subst f (p :: ps) = (match p with PWord w => f w | p => piece_text p end) ++ subst f ps.
  Proof. reflexivity. Qed.

  Lemma xm_words t ps :
    words_of (text ps) ps -> no_literal (text ps) ->
    (forall w, In (PWord w) ps -> dget (fnmacros t) w = None \/ dget (macros t) w <> None) ->
    xm t (text ps) = subst (replaced (macros t)) ps.
  Proof.
    induction ps as [|p ps IH]; intros W N F; [apply xm_nil|].
    pose proof (words_of_cons _ _ W) as W'.
    rewrite text_cons in N. pose proof (no_literal_app _ _ N) as N'.
    specialize (IH W' N' (fun w I => F w (or_intror I))).
    rewrite text_cons, subst_cons. destruct p as [g|w|l]; cbn [piece_text] in *.
    - destruct W as (_ & _ & P). destruct (P _ (or_introl eq_refl)) as [_ NW].
      rewrite xm_gaps by assumption. rewrite IH. reflexivity.
    - pose proof (words_of_next _ _ W) as H. destruct W as (_ & _ & P). pose proof (P _ (or_introl eq_refl)) as WW.
      rewrite xm_word by assumption. rewrite IH.
      change (replaced (macros t) w) with (match dget (macros t) w with Some v => v | None => w end).
      destruct (dget (macros t) w) as [v|] eqn:G; [reflexivity|].
      destruct (F w (or_introl eq_refl)) as [E|E]; [rewrite E; reflexivity|congruence].
    - destruct W as (_ & _ & P). destruct (P _ (or_introl eq_refl)).
  Qed.

  Lemma words_exist s : exists ps, words_of s ps.
  Proof.
    induction s as [|c r E [ps (T & M & F)]|w r NE FW H [ps (T & M & F)]] using (run_ind is_word).
    - exists []. split; [reflexivity|]. split; [exact I|]. intros p [].
    - exists (PGap [c] :: ps). split; [rewrite T; reflexivity|]. split; [exact M|].
      intros p [<-|I]; [|apply F; exact I]. split; [discriminate|]. intros d [<-|[]]. exact E.
    - exists (PWord w :: ps). split; [rewrite T; reflexivity|]. split.
      + destruct ps as [|[g|w'|l] ps]; [exact I|exact M| |exact M]. exfalso.
        pose proof (F _ (or_introl eq_refl)) as [NE' W']. rewrite T in H. cbn in H.
        destruct w' as [|d w']; [congruence|]. cbn in H. rewrite (W' d (or_introl eq_refl)) in H. discriminate.
      + intros p [<-|I]; [|apply F; exact I]. apply forallb_word; assumption.
  Qed.

  Lemma subst_id f ps : (forall w, In (PWord w) ps -> f w = w) -> subst f ps = text ps.
  Proof.
    induction ps as [|p ps IH]; intros F; [reflexivity|]. rewrite subst_cons, text_cons, IH.
    - destruct p; cbn [piece_text]; auto. rewrite F by (left; reflexivity). reflexivity.
    - intros w I. apply F. right. exact I.
  Qed.

  Lemma xm_verbatim t line ps :
    words_of line ps -> no_literal line ->
    (forall w, In (PWord w) ps -> dget (macros t) w = None /\ dget (fnmacros t) w = None) ->
    xm t line = line.
  Proof.
    intros W N F. pose proof (proj1 W) as ->. rewrite xm_words; [|exact W|exact N|].
    - apply subst_id. intros w I. unfold replaced. rewrite (proj1 (F w I)). reflexivity.
    - intros w I. left. apply F. exact I.
  Qed.

  (** ** String literals (C25) *)
  Lemma xm_before_literal t ps b :
    words_of (text ps) ps -> ~ In dquote (text ps) -> In dquote b ->
    (forall w, In (PWord w) ps -> dget (fnmacros t) w = None \/ dget (macros t) w <> None) ->
    xm t (text ps ++ dquote :: b)
    = subst (replaced (macros t)) ps ++ dquote :: but_last b ++ xm t (last1 b).
  Proof.
    induction ps as [|p ps IH]; intros W N B F; [apply xm_lit; exact B|].
    pose proof (words_of_cons _ _ W) as W'.
    rewrite text_cons in N.
    assert (N' : ~ In dquote (text ps)) by (intros I; apply N; apply in_or_app; right; exact I).
    specialize (IH W' N' B (fun w I => F w (or_intror I))).
    rewrite text_cons, subst_cons, <- !app_assoc. destruct p as [g|w|l]; cbn [piece_text] in *.
    - destruct W as (_ & _ & P). destruct (P _ (or_introl eq_refl)) as [_ NW].
      assert (NG : ~ In dquote g) by (intros I; apply N; apply in_or_app; left; exact I).
      rewrite <- IH. clear - NW NG. induction g as [|c g IHg]; [reflexivity|]. cbn [app].
      rewrite xm_gap; [|apply NW; left; reflexivity|left; intros ->; apply NG; left; reflexivity].
      rewrite IHg; [reflexivity| |].
      + intros d I. apply NW. right. exact I.
      + intros I. apply NG. right. exact I.
    - pose proof (words_of_next _ _ W) as H. destruct W as (_ & _ & P). pose proof (P _ (or_introl eq_refl)) as WW.
      assert (H' : head_not is_word (text ps ++ dquote :: b) = true).
      { destruct (text ps); [reflexivity|exact H]. }
      rewrite xm_word by assumption. rewrite IH.
      change (replaced (macros t) w) with (match dget (macros t) w with Some v => v | None => w end).
      destruct (dget (macros t) w) as [v|] eqn:G; [reflexivity|].
      destruct (F w (or_introl eq_refl)) as [E|E]; [rewrite E; reflexivity|congruence].
    - destruct W as (_ & _ & P). destruct (P _ (or_introl eq_refl)).
  Qed.

  (** ** Size (C23) *)
  Lemma xm_size t M :
    fnmacros t = [] -> (forall n v, dget (macros t) n = Some v -> length v <= M) ->
    forall line, length (xm t line) <= length line * S M.
  Proof.
    intros NF BM line. remember (length line) as n eqn:L. assert (LE : length line <= n) by lia.
    enough (length (xm t line) <= length line * S M) by (rewrite L; assumption).
    clear L. revert line LE. induction n as [|n IH]; intros line LE.
    { destruct line; [rewrite xm_nil; cbn; lia|cbn in LE; lia]. }
    rewrite xm_eq. destruct (re_search line) as [[[b [l|w]] a]|] eqn:S.
    - apply re_search_spec in S. destruct S as [S1 _].
      pose proof (but_last_last1 line) as BL. apply (f_equal (@length _)) in BL. rewrite app_length in BL.
      rewrite last1_last in BL by lia. rewrite app_length.
      assert (X : length (xm t (last1 line)) <= S M).
      { pose proof (last1_last line ltac:(lia)) as L1. destruct (last1 line) as [|c [|]]; try discriminate L1.
        rewrite xm_char. unfold replaced. destruct (is_word c); [|cbn; lia].
        destruct (dget (macros t) [c]) as [v|] eqn:G; [apply BM in G; lia|cbn; lia]. }
      nia.
    - apply re_search_spec in S. destruct S as (S1 & [NE _] & _).
      assert (LW : 1 <= length w) by (destruct w; [congruence|cbn; lia]).
      rewrite S1, !app_length in LE. rewrite NF.
      assert (IA : length (xm t a) <= length a * Datatypes.S M) by (apply IH; lia).
      assert (LL : length line = length b + (length w + length a)) by (rewrite S1, !app_length; reflexivity).
      rewrite LL. cbn [dget].
      destruct (dget (macros t) w) as [v|] eqn:G.
      + apply BM in G. rewrite !app_length. nia.
      + rewrite !app_length. nia.
    - nia.
  Qed.

  (** ** Function-like macros (C26) *)
  Lemma lit_close_body b r : lit_body b -> lit_close (b ++ dquote :: r) = Some (b ++ [dquote], r).
  Proof.
    intros L. induction L as [|c s NQ NB L IH|c s NB L IH].
    - cbn [app lit_close]. rewrite cheq_refl. reflexivity.
    - cbn [app lit_close]. apply cheq_false in NQ, NB. rewrite NQ, NB. cbn [andb]. rewrite IH.
      destruct (s ++ dquote :: r) eqn:E; [destruct s; discriminate|reflexivity].
    - cbn [app lit_close]. change (cheq bslash dquote) with false. rewrite cheq_refl. cbn [andb].
      destruct (cheq_spec c dquote) as [->|NQ].
      + rewrite IH. reflexivity.
      + apply cheq_false in NB. rewrite NB. cbn [andb]. rewrite IH.
        destruct (s ++ dquote :: r) eqn:E; [destruct s; discriminate|reflexivity].
  Qed.

  (** The template and the order which [compile_fn_macro] should give. *)
  Definition tmpl params ps : str :=
    subst (fun w => match index_of w params with Some _ => $"{}" | None => w end) ps.
  Definition order params ps : list nat :=
    flat_map (fun p => match p with
                       | PWord w => match index_of w params with Some i => [i] | None => [] end
                       | _ => [] end) ps.

  Lemma compile_gap f params g r :
    no_word g -> ~ In dquote g -> length g <= f ->
    compile_scan f params (g ++ r) = (let (t, o) := compile_scan (f - length g) params r in (g ++ t, o)).
  Proof.
    revert f. induction g as [|c g IH]; intros f W Q L.
    - cbn [app length]. rewrite Nat.sub_0_r. destruct (compile_scan f params r). reflexivity.
    - cbn [length] in *. destruct f as [|f]; [lia|]. cbn [app compile_scan].
      rewrite (W c (or_introl eq_refl)).
      assert (NC : cheq c dquote = false) by (apply cheq_false; intros ->; apply Q; left; reflexivity).
      rewrite NC. rewrite IH.
      + replace (S f - S (length g)) with (f - length g) by lia.
        destruct (compile_scan (f - length g) params r). reflexivity.
      + intros d I. apply W. right. exact I.
      + intros I. apply Q. right. exact I.
      + lia.
  Qed.

  Lemma code_of_cons p ps : code_of (text (p :: ps)) (p :: ps) -> code_of (text ps) ps.
  Proof.
    intros (_ & M & F). split; [reflexivity|]. split.
    - destruct p; [exact M| |exact M]. cbn in M. destruct ps as [|[]]; auto. destruct M.
    - intros q I. apply F. right. exact I.
  Qed.
  Lemma code_of_next w ps : code_of (text (PWord w :: ps)) (PWord w :: ps) -> head_not is_word (text ps) = true.
  Proof.
    intros (_ & M & F). destruct ps as [|[g|w'|l] ps]; [reflexivity| |destruct M|].
    - destruct (F (PGap g)) as (NE & NW & _); [right; left; reflexivity|].
      destruct g as [|c g]; [congruence|]. cbn. rewrite (NW c (or_introl eq_refl)). reflexivity.
    - destruct (F (PStr l)) as (b & -> & _); [right; left; reflexivity|]. reflexivity.
  Qed.

  Lemma compile_text params ps : forall f,
    code_of (text ps) ps -> length (text ps) <= f ->
    compile_scan f params (text ps) = (tmpl params ps, order params ps).
  Proof.
    induction ps as [|p ps IH]; intros f C L.
    - destruct f; reflexivity.
    - pose proof (code_of_cons _ _ C) as C'. rewrite text_cons in *. rewrite app_length in L.
      unfold tmpl, order. rewrite subst_cons. cbn [flat_map]. fold (tmpl params ps) (order params ps).
      destruct p as [g|w|l]; cbn [piece_text] in *.
      + destruct C as (_ & _ & F). destruct (F _ (or_introl eq_refl)) as (NE & NW & NQ).
        rewrite compile_gap by (auto; lia). rewrite IH by (auto; lia). reflexivity.
      + pose proof (code_of_next _ _ C) as H. destruct C as (_ & _ & F).
        pose proof (F _ (or_introl eq_refl)) as W. apply word_forallb in W. destruct W as [NE FW].
        destruct w as [|c w]; [congruence|]. cbn [length] in L. destruct f as [|f]; [lia|].
        cbn [app compile_scan].
        assert (WC : is_word c = true) by (cbn in FW; apply andb_true_iff in FW; tauto).
        assert (NQ : cheq c dquote = false).
        { destruct (cheq_spec c dquote) as [->|]; [|reflexivity]. rewrite dquote_not_word in WC. discriminate. }
        rewrite NQ, WC, app_comm_cons, (span_run is_word (c :: w) _ FW H).
        rewrite IH by (auto; lia). destruct (index_of (c :: w) params); reflexivity.
      + destruct C as (_ & _ & F). destruct (F _ (or_introl eq_refl)) as (b & -> & LB).
        cbn [length app] in L. destruct f as [|f]; [lia|]. cbn [app compile_scan]. rewrite cheq_refl.
        rewrite <- app_assoc. cbn [app]. rewrite lit_close_body by exact LB.
        rewrite IH; [reflexivity|auto|]. rewrite app_length in L. cbn in L. lia.
  Qed.

  Lemma fmt_text s t args :
    free_of ["{"; "}"]%char s ->
    fmt (s ++ t) args = match fmt t args with Some (Some x) => Some (Some (s ++ x)) | y => y end.
  Proof.
    induction s as [|c s IH]; intros F.
    - cbn [app]. destruct (fmt t args) as [[x|]|]; reflexivity.
    - cbn [app fmt].
      assert (F' : free_of ["{"; "}"]%char s) by (intros d I J; apply (F d I); right; exact J).
      assert (N1 : cheq c "{" = false) by (apply cheq_false; intros ->; apply (F "{"%char); [left; reflexivity|left; reflexivity]).
      assert (N2 : cheq c "}" = false) by (apply cheq_false; intros ->; apply (F "}"%char); [right; left; reflexivity|left; reflexivity]).
      rewrite N1, N2, IH by exact F'. destruct (fmt t args) as [[x|]|]; reflexivity.
  Qed.

  Lemma index_of_bound params args w :
    length args = length params ->
    match index_of w params with
    | Some i => nth_error args i = Some (bound params args w)
    | None => bound params args w = w
    end.
  Proof.
    unfold bound, replaced. revert args. induction params as [|p params IH]; intros [|a args] L; try discriminate L.
    - reflexivity.
    - cbn [index_of combine dget]. destruct (eqb w p); [reflexivity|].
      injection L as L. specialize (IH args L). destruct (index_of w params); exact IH.
  Qed.

  Lemma fmt_tmpl params args ps :
    length args = length params -> free_of ["{"; "}"]%char (text ps) ->
    exists picked,
      mapM (fun i => match nth_error args i with Some x => Ok x | None => Err IndexError end)
           (order params ps) = Ok picked
      /\ forall extra, fmt (tmpl params ps) (picked ++ extra) = Some (Some (subst (bound params args) ps)).
  Proof.
    intros L. induction ps as [|p ps IH]; intros F.
    - exists []. split; reflexivity.
    - rewrite text_cons in F.
      assert (F1 : free_of ["{"; "}"]%char (piece_text p)) by (intros d I J; apply (F d I); apply in_or_app; left; exact J).
      assert (F2 : free_of ["{"; "}"]%char (text ps)) by (intros d I J; apply (F d I); apply in_or_app; right; exact J).
      destruct (IH F2) as (pk & M & FM). unfold tmpl, order. rewrite !subst_cons. cbn [flat_map].
      fold (tmpl params ps) (order params ps).
      destruct p as [g|w|l]; cbn [piece_text] in *.
      + exists pk. split; [exact M|]. intros e. rewrite fmt_text by exact F1. rewrite FM. reflexivity.
      + pose proof (index_of_bound params args w L) as B. destruct (index_of w params) as [i|].
        * exists (bound params args w :: pk). cbn [app mapM]. rewrite B. cbn [bind]. rewrite M. cbn [bind].
          split; [reflexivity|]. intros e. change ($"{}" ++ tmpl params ps) with ("{" :: "}" :: tmpl params ps)%char.
          cbn [app fmt]. change (cheq "{" "{") with true. change (cheq "}" "{") with false.
          change (cheq "}" "}") with true. cbn [app]. rewrite FM. reflexivity.
        * exists pk. split; [exact M|]. intros e. rewrite fmt_text by exact F1. rewrite FM, B. reflexivity.
      + exists pk. split; [exact M|]. intros e. rewrite fmt_text by exact F1. rewrite FM. reflexivity.
  Qed.

  Lemma join_free c sep (l : list str) :
    (forall x, In x l -> ~ In c x) -> ~ In c sep -> ~ In c (join sep l).
  Proof.
    intros F N. induction l as [|x l IH]; [intros []|].
    destruct l as [|y l].
    - cbn [join]. apply F. left. reflexivity.
    - rewrite join_cons by discriminate. intros I. apply in_app_or in I. destruct I as [I|I].
      + apply (F x); [left; reflexivity|exact I].
      + apply in_app_or in I. destruct I as [I|I]; [apply N; exact I|].
        apply IH; [|exact I]. intros z J. apply F. right. exact J.
  Qed.

  Lemma mapM_ok {A B} (f : A -> B) l : mapM (fun x => Ok (f x)) l = Ok (map f l).
  Proof. induction l as [|x l IH]; [reflexivity|]. cbn [mapM map]. rewrite IH. reflexivity. Qed.

  Lemma call_split t d between args rest :
    free_of ["("; ")"]%char between -> args <> [] ->
    (forall a, In a args -> free_of ["("; ")"; ","]%char a) ->
    call t d (between ++ "("%char :: join [","%char] args ++ ")"%char :: rest)
    = do picked <- mapM (fun i => match nth_error (map (fun a => xm t (strip a)) args) i with
                                  | Some x => Ok x | None => Err IndexError end) (snd d);
      do r <- format fo (fst d) picked; Ok (r, rest).
  Proof.
    intros FB NE FA. unfold call, MacroModel.expand_fn_macro.
    assert (S1 : split_first ")" (between ++ "("%char :: join [","%char] args ++ ")"%char :: rest)
                 = Some (between ++ "("%char :: join [","%char] args, rest)).
    { apply split_first_iff. split; [rewrite <- app_assoc; reflexivity|].
      intros I. apply in_app_or in I. destruct I as [I|[I|I]].
      - apply (FB ")"%char); [right; left; reflexivity|exact I].
      - discriminate.
      - revert I. apply join_free; [|intros [E|[]]; discriminate].
        intros x J. apply (FA x J). right. left. reflexivity. }
    rewrite S1.
    assert (S2 : split_first "(" (between ++ "("%char :: join [","%char] args)
                 = Some (between, join [","%char] args)).
    { apply split_first_iff. split; [reflexivity|]. apply FB. left. reflexivity. }
    rewrite S2. rewrite split_on_join; [|exact NE|].
    - rewrite mapM_ok. cbn [bind]. rewrite map_map. reflexivity.
    - intros x J. apply (FA x J). right. right. left. reflexivity.
  Qed.

  Lemma call_fn t body ps params args between rest :
    code_of body ps -> free_of ["{"; "}"]%char body ->
    length args = length params -> args <> [] ->
    free_of ["("; ")"]%char between ->
    (forall a, In a args -> free_of ["("; ")"; ","]%char a) ->
    call t (compile_fn_macro body params) (between ++ "("%char :: join [","%char] args ++ ")"%char :: rest)
    = Ok (subst (bound params (map (fun a => xm t (strip a)) args)) ps, rest).
  Proof.
    intros C B L NE FB FA. rewrite call_split by assumption.
    pose proof (proj1 C) as ->. unfold compile_fn_macro. rewrite compile_text by (auto; lia). cbn [fst snd].
    destruct (fmt_tmpl params (map (fun a => xm t (strip a)) args) ps) as (pk & M & FM);
      [rewrite map_length; exact L|exact B|].
    rewrite M. cbn [bind]. unfold format. specialize (FM []). rewrite app_nil_r in FM. rewrite FM. reflexivity.
  Qed.

  (** ** Faulty calls (C27) *)
  Lemma call_no_close t d r : ~ In ")"%char r -> call t d r = Err DefinitionError.
  Proof.
    intros N. unfold call, MacroModel.expand_fn_macro. apply split_first_None in N. rewrite N. reflexivity.
  Qed.
  Lemma call_no_open t d a b : free_of ["("; ")"]%char a -> call t d (a ++ ")"%char :: b) = Err DefinitionError.
  Proof.
    intros F. unfold call, MacroModel.expand_fn_macro.
    assert (S1 : split_first ")" (a ++ ")"%char :: b) = Some (a, b)).
    { apply split_first_iff. split; [reflexivity|]. apply F. right. left. reflexivity. }
    rewrite S1. assert (S2 : split_first "(" a = None) by (apply split_first_None; apply F; left; reflexivity).
    rewrite S2. reflexivity.
  Qed.

  Lemma index_of_lt w l i : index_of w l = Some i -> i < length l /\ nth_error l i = Some w.
  Proof.
    revert i. induction l as [|x l IH]; intros i E; [discriminate|]. cbn [index_of] in E.
    destruct (eqb_spec w x) as [->|N].
    - injection E as <-. cbn. split; [lia|reflexivity].
    - destruct (index_of w l) as [j|]; [|discriminate]. injection E as <-. specialize (IH j eq_refl).
      cbn. split; [lia|apply IH].
  Qed.
  Lemma index_of_NoDup l i w : NoDup l -> nth_error l i = Some w -> index_of w l = Some i.
  Proof.
    revert i. induction l as [|x l IH]; intros i ND E; [destruct i; discriminate|].
    inversion ND as [|? ? NI ND']; subst. cbn [index_of]. destruct i as [|i].
    - injection E as ->. rewrite eqb_refl. reflexivity.
    - cbn in E. destruct (eqb_spec w x) as [->|N].
      + exfalso. apply NI. eapply nth_error_In. exact E.
      + rewrite (IH i ND' E). reflexivity.
  Qed.

  Lemma call_too_few t body ps params args between rest i w :
    code_of body ps -> NoDup params -> nth_error params i = Some w -> In (PWord w) ps ->
    length args <= i -> args <> [] ->
    free_of ["("; ")"]%char between ->
    (forall a, In a args -> free_of ["("; ")"; ","]%char a) ->
    call t (compile_fn_macro body params) (between ++ "("%char :: join [","%char] args ++ ")"%char :: rest)
    = Err IndexError.
  Proof.
    intros C ND NP IW L NE FB FA. rewrite call_split by assumption.
    pose proof (proj1 C) as ->. unfold compile_fn_macro. rewrite compile_text by (auto; lia). cbn [fst snd].
    assert (IO : In i (order params ps)).
    { unfold order. apply in_flat_map. exists (PWord w). split; [exact IW|].
      rewrite (index_of_NoDup _ _ _ ND NP). left. reflexivity. }
    assert (ERR : forall l, In i l ->
              mapM (fun i => match nth_error (map (fun a => xm t (strip a)) args) i with
                                  | Some x => Ok x | None => Err IndexError end) l = Err IndexError).
    { induction l as [|j l IHl]; intros IL; [destruct IL|]. cbn [mapM].
      destruct (nth_error (map _ args) j) as [v|] eqn:NJ; cbn [bind]; [|reflexivity].
      destruct IL as [->|IL].
      - exfalso. apply nth_error_Some in L || idtac.
        assert (X : nth_error (map (fun a => xm t (strip a)) args) i = None)
          by (apply nth_error_None; rewrite map_length; exact L).
        congruence.
      - rewrite (IHl IL). reflexivity. }
    rewrite (ERR _ IO). reflexivity.
  Qed.

  Lemma xm_call t name r :
    word name -> head_not is_word r = true -> dget (macros t) name = None ->
    forall d, dget (fnmacros t) name = Some d ->
    xm t (name ++ r) = match call t d r with Ok (x, e) => x ++ xm t e | Err _ => name ++ xm t r end.
  Proof. intros W H M d F. rewrite xm_word by assumption. rewrite M, F. reflexivity. Qed.
End Expand.
