(** Proofs about whole files: empty lines between declarations do not matter. *)
From Coq Require Import Ascii String Bool Arith ZArith Lia List.
Import ListNotations.
From Verif Require Import PyBase PyBaseFacts PyStr PyStrFacts PpModel CondProofs DeclModel GramModel GramSpec GramLex GramTabs NoiseSpec NoiseProofs RunSpec.

(** [sq b s]: [s] without the newlines behind a newline; [b] holds at the beginning of a line. *)
Fixpoint sq (b : bool) (s : str) : str :=
  match s with
  | [] => []
  | c :: r => if cheq c nl then (if b then sq true r else nl :: sq true r) else c :: sq false r
  end.
Definition no_nl (s : str) : Prop := ~ In nl s.
Lemma cheq_nl c : c <> nl -> cheq c nl = false.
Proof. intros N. destruct (cheq_spec c nl); [contradiction|reflexivity]. Qed.
Lemma sq_char b c s : c <> nl -> sq b (c :: s) = c :: sq false s.
Proof. intros N. cbn [sq]. rewrite (cheq_nl c N). reflexivity. Qed.
Lemma sq_plain t : forall b c s, c <> nl -> no_nl t -> sq b (c :: t ++ s) = c :: t ++ sq false s.
Proof.
  induction t as [|d t IH]; intros b c s N F; [apply sq_char; exact N|]. rewrite sq_char by exact N. cbn [app]. f_equal.
  apply IH; [intros ->; apply F; left; reflexivity|]. intros I. apply F. right. exact I.
Qed.
Lemma sq_line a : forall b r, sq b (a ++ nl :: r) = sq b (a ++ [nl]) ++ sq true r.
Proof.
  induction a as [|c a IH]; intros b r.
  - cbn [app sq]. change (cheq nl nl) with true. cbv iota. destruct b; reflexivity.
  - cbn [app sq]. destruct (cheq c nl); [destruct b|]; rewrite IH; reflexivity.
Qed.
(** *** Squeezing a layout *)
Lemma sq_ws w : forall b, forallb is_ws w = true -> forallb is_ws (sq b w) = true.
Proof.
  induction w as [|c w IH]; intros b F; [reflexivity|]. cbn [forallb] in F. apply andb_true_iff in F. destruct F as [F1 F2]. cbn [sq].
  destruct (cheq c nl); [destruct b|]; cbn [forallb]; rewrite ?F1, IH by exact F2; reflexivity.
Qed.
Lemma sq_split a : forall b s, exists b', sq b (a ++ s) = sq b a ++ sq b' s /\ (a = [] -> b' = b).
Proof.
  induction a as [|c a IH]; intros b s; [exists b; auto|]. cbn [app sq].
  destruct (cheq c nl); [destruct b|].
  - destruct (IH true s) as (b' & E & _). exists b'. split; [exact E|discriminate].
  - destruct (IH true s) as (b' & E & _). exists b'. rewrite E. split; [reflexivity|discriminate].
  - destruct (IH false s) as (b' & E & _). exists b'. rewrite E. split; [reflexivity|discriminate].
Qed.
Lemma literal_nl t : literal t -> exists q r, t = q :: r /\ q <> nl /\ no_nl r.
Proof.
  intros (q & b & Q & -> & F). exists q, (b ++ [q]). split; [reflexivity|]. assert (N : q <> nl) by (intros ->; discriminate Q). split; [exact N|].
  intros I. apply in_app_iff in I. destruct I as [I|[I|[]]]; [|contradiction]. destruct (F nl I) as (_ & _ & X & _). congruence.
Qed.
Lemma sq_literal t b s : literal t -> sq b (t ++ s) = t ++ sq false s.
Proof. intros L. destruct (literal_nl t L) as (q & r & -> & N & F). apply (sq_plain r b q s N F). Qed.
Lemma sq_head b s c r : sq false s = c :: r -> b = false -> exists x, s = c :: x.
Proof.
  intros E _. destruct s as [|d s]; [discriminate|]. cbn [sq] in E. destruct (cheq_spec d nl) as [->|_]; injection E as <- _; eauto.
Qed.
Lemma sq_balanced s : balanced s -> forall b, balanced (sq b s).
Proof.
  induction 1 as [|c s Q B1 B2 B IH|q s L B IH H|a s Ba IHa Bs IHs]; intros b.
  - constructor.
  - cbn [sq]. destruct (cheq_spec c nl) as [->|_]; [destruct b; [apply IH|]|]; apply bal_char; auto.
  - rewrite (sq_literal q b s L). apply bal_literal; [exact L|apply IH|]. intros c r E. destruct (sq_head false s c r E eq_refl) as (x & ->). apply (H c x eq_refl).
  - rewrite sq_char by discriminate. destruct (sq_split a false ("}"%char :: s)) as (b' & -> & _). rewrite sq_char by discriminate.
    apply bal_braces; auto.
Qed.
Lemma sq_body t b s : fun_body t -> exists t', fun_body t' /\ sq b (t ++ s) = t' ++ sq false s.
Proof.
  intros (x & B & ->). exists ("{"%char :: sq false x ++ $"}"). split; [exists (sq false x); split; [apply sq_balanced; exact B|reflexivity]|].
  cbn [app]. rewrite sq_char by discriminate. rewrite <- app_assoc. destruct (sq_split x false ($"}" ++ s)) as (b' & E & _).
  cbn [app] in E |- *. rewrite E. change ($"}" ++ s) with ("}"%char :: s). rewrite sq_char by discriminate. rewrite <- app_assoc. reflexivity.
Qed.
Lemma word_nl t : word t -> no_nl t.
Proof.
  intros W I. destruct t as [|c r]; [destruct W|]. destruct W as [W1 W2]. destruct I as [->|I]; [discriminate W1|].
  rewrite forallb_forall in W2. specialize (W2 nl I). discriminate W2.
Qed.
Lemma num_nl t v : num t v -> no_nl t.
Proof.
  intros (D & u & U & ->) I. apply in_app_iff in I. destruct I as [I|I].
  - destruct D as [[_ D]|(x & h & X & _ & H & ->)].
    + rewrite forallb_forall in D. specialize (D nl I). discriminate D.
    + destruct I as [I|[I|I]]; [discriminate I|destruct X as [X|X]; rewrite X in I; discriminate I|]. rewrite forallb_forall in H. specialize (H nl I). discriminate H.
  - rewrite forallb_forall in U. specialize (U nl I). discriminate U.
Qed.
Lemma punct_nl t : In t puncts -> no_nl t.
Proof.
  assert (F : forallb (fun t => negb (mem nl t)) puncts = true) by reflexivity. rewrite forallb_forall in F.
  intros I J. specialize (F t I). apply mem_In in J. rewrite J in F. discriminate F.
Qed.
Lemma token_nl t : token t -> (exists d r, t = d :: r /\ d <> nl /\ no_nl r) \/ fun_body t.
Proof.
  assert (P : no_nl t -> t <> [] -> exists d r, t = d :: r /\ d <> nl /\ no_nl r).
  { intros N E. destruct t as [|d r]; [congruence|]. exists d, r. split; [reflexivity|]. split; [intros ->; apply N; left; reflexivity|]. intros I. apply N. right. exact I. }
  intros [T|[(v & T)|[T|[T|T]]]]; [left; apply P|left; apply P|left; apply P|left|right; exact T].
  - apply word_nl. exact T.
  - intros ->. destruct T.
  - apply (num_nl t v T).
  - intros ->. destruct T as (D & u & _ & E). symmetry in E. apply app_eq_nil in E. destruct E as [-> _]. destruct D as [[D _]|(x & h & _ & _ & _ & D)]; [congruence|discriminate].
  - apply punct_nl. exact T.
  - intros ->. apply mem_str in T. discriminate T.
  - apply literal_nl. exact T.
Qed.
Lemma last_cons (d : ascii) r c : last (d :: r) c = last r d.
Proof. revert d. induction r as [|e r IH]; intros d; [reflexivity|]. cbn [last]. destruct r; [reflexivity|]. rewrite <- (IH d). reflexivity. Qed.
Lemma glue_nl d : glue nl d = false.
Proof.
  unfold glue. change (is_kwchar nl) with false. change (is_quote nl) with false. cbn [andb orb]. rewrite orb_false_r.
  destruct (mem [nl; d] ops2) eqn:M; [|reflexivity]. apply mem_str in M. repeat (destruct M as [M|M]; [discriminate M|]). destruct M.
Qed.
Lemma lay_sq c ts s : lay c ts s -> forall b, (b = true -> c = nl) -> exists ts', Forall2 same_tok ts ts' /\ lay c ts' (sq b s).
Proof.
  induction 1 as [c w W|c w t d r ts s W T E G L IH]; intros b B.
  - exists []. split; [constructor|]. constructor. apply sq_ws. exact W.
  - destruct (sq_split w b (t ++ s)) as (b' & -> & E').
    assert (G' : sq b w = [] -> glue c d = false).
    { intros X. destruct w as [|x w]; [apply G; reflexivity|]. destruct b; [rewrite (B eq_refl); apply glue_nl|].
      cbn [sq] in X. destruct (cheq x nl); discriminate X. }
    destruct (IH false) as (ts' & S1 & L'); [discriminate|]. destruct (token_nl t T) as [(d' & r' & E2 & N & F)|BT].
    + rewrite E2 in E. injection E as -> ->. subst t. cbn [app]. rewrite (sq_plain r b' d s N F).
      exists ((d :: r) :: ts'). split; [constructor; [left; reflexivity|exact S1]|].
      apply (lay_tok c _ (d :: r) d r ts' (sq false s)); [apply sq_ws; exact W|exact T|reflexivity|exact G'|exact L'].
    + destruct (sq_body t b' s BT) as (t' & BT' & ->). exists (t' :: ts'). split; [constructor; [right; auto|exact S1]|].
      destruct (body_head _ BT') as (x & y & E3). destruct (body_head _ BT) as (x' & y' & E4). rewrite E in E4. injection E4 as -> _.
      apply (lay_tok c _ t' "{"%char (x :: y)); [apply sq_ws; exact W|apply body_token; exact BT'|exact E3|exact G'|].
      rewrite (body_last _ c BT'). rewrite (body_last _ c BT) in L'. exact L'.
Qed.
(** *** The other way around *)
Lemma sq_at u : forall b s c v, c <> nl -> sq b s = u ++ c :: v ->
  exists u' v', s = u' ++ c :: v' /\ sq b u' = u /\ sq false v' = v.
Proof.
  intros b s. revert u b. induction s as [|d s IH]; intros u b c v N E; [destruct u; discriminate E|]. cbn [sq] in E.
  destruct (cheq_spec d nl) as [->|ND].
  - destruct b.
    + destruct (IH u true c v N E) as (u' & v' & -> & E1 & E2). exists (nl :: u'), v'. split; [reflexivity|]. split; [exact E1|exact E2].
    + destruct u as [|x u]; [injection E as X _; congruence|]. injection E as <- E.
      destruct (IH u true c v N E) as (u' & v' & -> & E1 & E2). exists (nl :: u'), v'. split; [reflexivity|]. split; [|exact E2].
      cbn [sq]. change (cheq nl nl) with true. cbv iota. rewrite E1. reflexivity.
  - destruct u as [|x u].
    + injection E as -> E. exists [], s. auto.
    + injection E as <- E. destruct (IH u false c v N E) as (u' & v' & -> & E1 & E2). exists (d :: u'), v'. split; [reflexivity|]. split; [|exact E2].
      cbn [sq]. rewrite (cheq_nl d ND), E1. reflexivity.
Qed.
Lemma sq_run r : forall s v, no_nl r -> sq false s = r ++ v -> exists v', s = r ++ v' /\ sq false v' = v.
Proof.
  induction r as [|c r IH]; intros s v N E; [exists s; auto|]. destruct s as [|d s]; [discriminate E|]. cbn [sq] in E.
  destruct (cheq_spec d nl) as [->|ND]; [injection E as <- _; exfalso; apply N; left; reflexivity|]. injection E as -> E.
  destruct (IH s v) as (v' & -> & E'); [intros I; apply N; right; exact I|exact E|]. exists v'. auto.
Qed.
Lemma unsq_ws b s : forallb is_ws (sq b s) = true -> forallb is_ws s = true.
Proof.
  revert b. induction s as [|c s IH]; intros b F; [reflexivity|]. cbn [sq] in F. cbn [forallb]. destruct (cheq_spec c nl) as [->|N].
  - change (is_ws nl) with true. destruct b; [exact (IH _ F)|]. cbn [forallb] in F. apply andb_true_iff in F. exact (IH _ (proj2 F)).
  - cbn [forallb] in F. apply andb_true_iff in F. rewrite (proj1 F), (IH _ (proj2 F)). reflexivity.
Qed.
Lemma sq_nils b u : sq b u = [] -> forall c, In c u -> c = nl.
Proof.
  revert b. induction u as [|d u IH]; intros b E c I; [destruct I|]. cbn [sq] in E. destruct (cheq_spec d nl) as [->|N]; [|discriminate E].
  destruct b; [|discriminate E]. destruct I as [<-|I]; [reflexivity|exact (IH true E c I)].
Qed.
Lemma balanced_nls u s : (forall c, In c u -> c = nl) -> balanced s -> balanced (u ++ s).
Proof.
  intros H B. induction u as [|c u IH]; [exact B|]. cbn [app]. rewrite (H c (or_introl eq_refl)).
  apply bal_char; [reflexivity|discriminate|discriminate|]. apply IH. intros d I. apply H. right. exact I.
Qed.
Lemma unsq_balanced x : balanced x -> forall b s, sq b s = x -> balanced s.
Proof.
  induction 1 as [|c x Q B1 B2 B IH|q x L B IH H|a x Ba IHa Bs IHs]; intros b s E.
  - rewrite <- (app_nil_r s). apply balanced_nls; [apply (sq_nils b s E)|constructor].
  - destruct (cheq_spec c nl) as [->|N].
    + revert b E. induction s as [|d s IHs]; intros b E; [discriminate E|]. cbn [sq] in E. destruct (cheq_spec d nl) as [->|ND].
      * destruct b; [apply bal_char; [reflexivity|discriminate|discriminate|]; exact (IHs true E)|].
        injection E as E. apply bal_char; [reflexivity|discriminate|discriminate|]. exact (IH true s E).
      * injection E as -> _. congruence.
    + destruct (sq_at [] b s c x N E) as (u & v & -> & E1 & E2). apply balanced_nls; [apply (sq_nils b u E1)|].
      apply bal_char; [exact Q|exact B1|exact B2|]. exact (IH false v E2).
  - destruct (literal_nl q L) as (d & r & -> & N & F). destruct (sq_at [] b s d (r ++ x) N E) as (u & v & -> & E1 & E2).
    destruct (sq_run r v x F E2) as (v' & -> & E3). apply balanced_nls; [apply (sq_nils b u E1)|].
    change (d :: r ++ v') with ((d :: r) ++ v'). apply bal_literal; [exact L|exact (IH false v' E3)|].
    intros e w ->. cbn [sq] in E3. destruct (cheq e nl) eqn:EN; [apply cheq_true in EN; subst e; reflexivity|]. apply (H e (sq false w)). symmetry. exact E3.
  - destruct (sq_at [] b s "{"%char (a ++ "}"%char :: x)) as (u & v & -> & E1 & E2); [discriminate|exact E|].
    destruct (sq_at a false v "}"%char x) as (a' & v' & -> & E3 & E4); [discriminate|exact E2|].
    apply balanced_nls; [apply (sq_nils b u E1)|]. apply bal_braces; [exact (IHa false a' E3)|exact (IHs false v' E4)].
Qed.
Lemma lay_unsq c ts x : lay c ts x -> forall b s, sq b s = x -> exists ts', Forall2 same_tok ts ts' /\ lay c ts' s.
Proof.
  induction 1 as [c w W|c w t d r ts x W T E G L IH]; intros b s ES.
  - exists []. split; [constructor|]. constructor. apply (unsq_ws b). rewrite ES. exact W.
  - destruct (token_nl t T) as [(d' & r' & E2 & N & F)|BT].
    + rewrite E2 in E. injection E as -> ->. subst t. cbn [app] in ES. destruct (sq_at w b s d (r ++ x) N ES) as (w' & v & -> & E1 & E3).
      destruct (sq_run r v x F E3) as (v' & -> & E4). destruct (IH false v' E4) as (ts' & S1 & L').
      exists ((d :: r) :: ts'). split; [constructor; [left; reflexivity|exact S1]|].
      apply (lay_tok c w' (d :: r) d r ts' v'); [apply (unsq_ws b); rewrite E1; exact W|exact T|reflexivity| |exact L'].
      intros ->. apply G. symmetry. exact E1.
    + pose proof BT as (y & BY & ET). rewrite E in ET. injection ET as -> ER. rewrite E, ER in ES. cbn [app] in ES. rewrite <- app_assoc in ES.
      destruct (sq_at w b s "{"%char (y ++ $"}" ++ x)) as (w' & v & -> & E1 & E3); [discriminate|exact ES|].
      destruct (sq_at y false v "}"%char x) as (y' & v' & -> & E4 & E5); [discriminate|exact E3|].
      assert (BT' : fun_body ("{"%char :: y' ++ $"}")) by (exists y'; split; [exact (unsq_balanced y BY false y' E4)|reflexivity]).
      destruct (IH false v' E5) as (ts' & S1 & L'). exists (("{"%char :: y' ++ $"}") :: ts'). split; [constructor; [right; auto|exact S1]|].
      replace (w' ++ "{"%char :: y' ++ "}"%char :: v') with (w' ++ ("{"%char :: y' ++ $"}") ++ v') by (cbn [app]; rewrite <- app_assoc; reflexivity).
      apply (lay_tok c w' _ "{"%char (y' ++ $"}")); [apply (unsq_ws b); rewrite E1; exact W|apply body_token; exact BT'|reflexivity| |].
      * intros ->. apply G. symmetry. exact E1.
      * rewrite (body_last _ c BT'). rewrite (body_last _ c BT) in L'. exact L'.
Qed.
(** *** A newline at the end *)
Lemma lay_add c ts s : lay c ts s -> lay c ts (s ++ [nl]).
Proof.
  induction 1 as [c w W|c w t d r ts s W T E G L IH].
  - constructor. rewrite forallb_app, W. reflexivity.
  - rewrite <- !app_assoc. apply (lay_tok c w t d r); assumption.
Qed.
Lemma token_last t : token t -> forall x, t <> x ++ [nl].
Proof.
  intros T x E. destruct (token_nl t T) as [(d & r & E2 & N & F)|BT].
  - rewrite E2 in E. destruct x as [|y x]; [injection E as -> _; congruence|]. injection E as _ E. apply F. rewrite E. apply in_app_iff. right. left. reflexivity.
  - destruct BT as (b & _ & ->). change ("{"%char :: b ++ $"}") with (("{"%char :: b) ++ ["}"%char]) in E. apply app_inj_tail in E. destruct E as [_ E]. discriminate E.
Qed.
Lemma app_last {A} (a b x : list A) c : a ++ b = x ++ [c] -> b = [] \/ exists y, b = y ++ [c] /\ x = a ++ y.
Proof.
  destruct b as [|d b] using rev_ind; [auto|]. intros E. right. exists b. rewrite app_assoc in E. apply app_inj_tail in E. destruct E as [<- <-]. auto.
Qed.
Lemma lay_drop c ts x : lay c ts x -> forall s, x = s ++ [nl] -> lay c ts s.
Proof.
  induction 1 as [c w W|c w t d r ts x W T E G L IH]; intros s ES.
  - constructor. rewrite ES, forallb_app in W. apply andb_true_iff in W. apply W.
  - rewrite app_assoc in ES. destruct (app_last (w ++ t) x s nl ES) as [->|(y & -> & ->)].
    + exfalso. rewrite app_nil_r in ES. destruct (app_last w t s nl ES) as [->|(y & -> & _)]; [discriminate E|]. exact (token_last _ T y eq_refl).
    + rewrite <- app_assoc. apply (lay_tok c w t d r); try assumption. apply IH. reflexivity.
Qed.
(** *** Strings *)
Lemma line_sq s : rest_of_line (sq false s) = rest_of_line s.
Proof.
  induction s as [|c s IH]; [reflexivity|]. cbn [sq]. destruct (cheq_spec c nl) as [->|N]; [reflexivity|].
  rewrite !line_cons, IH. reflexivity.
Qed.
Lemma line_end s : rest_of_line (s ++ [nl]) = rest_of_line s.
Proof. induction s as [|c s IH]; [reflexivity|]. cbn [app]. rewrite !line_cons, IH. reflexivity. Qed.
Lemma one_string_sq s : one_string s -> one_string (sq true (s ++ [nl])).
Proof.
  intros O a b E. destruct (sq_at a true (s ++ [nl]) dquote (["C"%char; dquote] ++ b)) as (a' & v & E1 & _ & E2); [discriminate|exact E|].
  destruct (sq_run ["C"%char; dquote] v b) as (b' & -> & E3); [intros [X|[X|[]]]; discriminate X|exact E2|].
  change (dquote :: ["C"%char; dquote] ++ b') with (c_linkage ++ b') in E1. rewrite app_assoc in E1. symmetry in E1.
  destruct (app_last (a' ++ c_linkage) b' s nl E1) as [->|(y & -> & ->)].
  - exfalso. rewrite app_nil_r in E1. change c_linkage with ([dquote; "C"%char] ++ [dquote]) in E1. rewrite app_assoc in E1. apply app_inj_tail in E1. destruct E1 as [_ E1]. discriminate E1.
  - rewrite <- E3, line_sq, line_end. apply (O a' y). rewrite <- app_assoc. reflexivity.
Qed.
Lemma one_string_unsq s : one_string (sq true (s ++ [nl])) -> one_string s.
Proof.
  intros O a b ->. rewrite <- app_assoc in O. destruct (sq_split a true ((c_linkage ++ b) ++ [nl])) as (b' & E & _).
  assert (E2 : sq b' ((c_linkage ++ b) ++ [nl]) = c_linkage ++ sq false (b ++ [nl])).
  { rewrite <- app_assoc. apply sq_literal. exists dquote, $"C". split; [reflexivity|]. split; [reflexivity|]. intros c [<-|[]]. repeat split; discriminate. }
  rewrite E2 in E. destruct (O _ _ E) as [N1 N2]. rewrite line_sq, line_end in N1, N2. auto.
Qed.
(** *** Headers *)
Section Header.
  Context (base mods : list str) (pack : option Z) (GC : good_config base mods) (ds : list gtop).
  Notation header := (header base mods pack ds).
  Lemma tabs_same ts ts' : Forall2 same_tok ts ts' -> tabs_outside ts -> tabs_outside ts'.
  Proof.
    induction 1 as [|t t' ts ts' H _ IH]; intros F; [constructor|]. inversion F as [|x y F1 F2]; subst. constructor; [|exact (IH F2)].
    destruct H as [<-|[_ H]]; [exact F1|right; exact H].
  Qed.
  Lemma header_sq s : header s -> header (sq true (s ++ [nl])).
  Proof.
    intros (lk & ts & SL & TO & W & O). apply lay_add in W. destruct (lay_sq nl ts _ W true (fun _ => eq_refl)) as (ts' & S1 & L').
    destruct (noisy_same base mods pack GC lk [] ds ts SL ts' S1) as (tl & T0 & SL'). rewrite (T0 eq_refl) in SL'.
    exists lk, ts'. split; [exact SL'|]. split; [exact (tabs_same ts ts' S1 TO)|]. split; [exact L'|].
    intros K. apply one_string_sq. apply O. exact K.
  Qed.
  Lemma header_unsq s : header (sq true (s ++ [nl])) -> header s.
  Proof.
    intros (lk & ts & SL & TO & W & O). destruct (lay_unsq nl ts _ W true (s ++ [nl]) eq_refl) as (ts' & S1 & L').
    destruct (noisy_same base mods pack GC lk [] ds ts SL ts' S1) as (tl & T0 & SL'). rewrite (T0 eq_refl) in SL'.
    exists lk, ts'. split; [exact SL'|]. split; [exact (tabs_same ts ts' S1 TO)|].
    split; [exact (lay_drop nl ts' _ L' s eq_refl)|]. intros K. apply one_string_unsq. apply O. exact K.
  Qed.
  Lemma sq_lines ls : sq true (join [nl] ls ++ [nl]) = concat (map (fun l => sq true (l ++ [nl])) (filter nb ls)).
  Proof.
    induction ls as [|l ls IH]; [reflexivity|]. destruct ls as [|l' ls].
    - cbn [join filter]. destruct l as [|c l]; [reflexivity|]. change (nb (c :: l)) with true. cbv iota. cbn [map concat]. rewrite app_nil_r. reflexivity.
    - change (join [nl] (l :: l' :: ls)) with (l ++ [nl] ++ join [nl] (l' :: ls)). rewrite <- !app_assoc. cbn [app]. rewrite sq_line.
      change ([] ++ (join [nl] (l' :: ls) ++ [nl])) with (join [nl] (l' :: ls) ++ [nl]) in *. rewrite IH.
      destruct l as [|c l]; [reflexivity|]. change (filter nb ((c :: l) :: l' :: ls)) with ((c :: l) :: filter nb (l' :: ls)). reflexivity.
  Qed.
  Lemma header_lines ls ls' : filter nb ls = filter nb ls' -> header (join [nl] ls) -> header (join [nl] ls').
  Proof. intros E H. apply header_unsq. rewrite sq_lines, <- E, <- sq_lines. apply header_sq. exact H. Qed.
End Header.
