(** Proofs about C's complete expansion: it has one result, without macros; names that do not
    appear do not matter; and it may be done before parameters are replaced. *)
From Coq Require Import Ascii String Bool Arith ZArith Lia List.
Import ListNotations.
From Verif Require Import PyBase PyBaseFacts PyStr PyStrFacts PyExpr TypeModel TypeSpec WordFacts StoreModel.
From Verif Require Import MacroModel MacroSpec MacroProofs MacroDefProofs PpModel PpSpec ExprSpec.
From Verif Require Import DeclModel EvalModel FileModel FileSpec.

(** ** Words and what is between them *)
Lemma edge_head s : edge s <-> head_not is_word s = true.
Proof.
  split; [|intros H c r ->; cbn in H; destruct (is_word c); [discriminate H|reflexivity]].
  intros E. destruct s as [|c r]; [reflexivity|]. cbn. rewrite (E c r eq_refl). reflexivity.
Qed.
Lemma edge_nil : edge [].
Proof. intros c r E. discriminate E. Qed.
Lemma edge_cons c s : is_word c = false -> edge (c :: s).
Proof. intros N d r E. injection E as <- _. exact N. Qed.
Lemma edge_app a s : edge a -> edge s -> edge (a ++ s).
Proof. intros A S. destruct a as [|c a]; [exact S|]. apply edge_cons. apply (A c a eq_refl). Qed.
Lemma edge_call gap (r : str) : blanks gap -> edge (gap ++ "("%char :: r).
Proof.
  intros B. destruct gap as [|c g]; [apply edge_cons; reflexivity|]. apply edge_cons. rewrite (B c (or_introl eq_refl)). reflexivity.
Qed.
Lemma span_unique (p : ascii -> bool) a : forall s b s',
  forallb p a = true -> forallb p b = true -> head_not p s = true -> head_not p s' = true -> a ++ s = b ++ s' -> a = b /\ s = s'.
Proof.
  induction a as [|c a IH]; intros s b s' A B H H' E.
  - destruct b as [|d b]; [auto|]. cbn in E. subst s. cbn in B, H. apply andb_true_iff in B. destruct B as [B _]. rewrite B in H. discriminate H.
  - destruct b as [|d b].
    + cbn in E. subst s'. cbn in A, H'. apply andb_true_iff in A. destruct A as [A _]. rewrite A in H'. discriminate H'.
    + cbn in E. injection E as <- E. cbn in A, B. apply andb_true_iff in A, B. destruct (IH s b s' (proj2 A) (proj2 B) H H' E) as [-> ->]. auto.
Qed.
Lemma word_unique w w' s s' : word w -> word w' -> edge s -> edge s' -> w ++ s = w' ++ s' -> w = w' /\ s = s'.
Proof.
  intros [_ W] [_ W'] E E' Q. apply (span_unique is_word w s w' s'); try assumption; try (apply edge_head; assumption);
    apply forallb_forall; assumption.
Qed.
Lemma char_word c s w r : is_word c = false -> word w -> c :: s = w ++ r -> False.
Proof.
  intros N [NE F] E. destruct w as [|d w]; [contradiction|]. injection E as -> _. rewrite (F d (or_introl eq_refl)) in N. discriminate N.
Qed.
Lemma nil_word w r : word w -> [] = w ++ r -> False.
Proof. intros [NE _] E. destruct w; [contradiction|discriminate E]. Qed.
(** A text is empty, or begins with a character between words, or with a word. *)
Lemma text_cases (P : str -> Prop) : P [] -> (forall c s, is_word c = false -> P s -> P (c :: s)) ->
  (forall w s, word w -> edge s -> P s -> P (w ++ s)) -> forall s, P s.
Proof.
  intros P0 PC PW s. destruct (words_exist s) as [ps W]. pose proof (proj1 W) as T. rewrite T in W |- *. clear T s.
  induction ps as [|p ps IH]; [exact P0|]. specialize (IH (words_of_cons _ _ W)). rewrite text_cons.
  pose proof W as (_ & _ & F). specialize (F p (or_introl eq_refl)). destruct p as [g|w|q]; [| |contradiction].
  - destruct F as [_ NW]. cbn [piece_text]. clear W. induction g as [|c g IHg]; [exact IH|].
    cbn [app]. apply PC; [apply NW; left; reflexivity|]. apply IHg. intros d I. apply NW. right. exact I.
  - cbn [piece_text]. apply PW; [exact F|apply edge_head; exact (words_of_next _ _ W)|exact IH].
Qed.
Lemma name_in_char x c s : is_word c = false -> (name_in x (c :: s) <-> name_in x s).
Proof.
  intros N. split.
  - intros (a & b & E & W & H1 & H2). destruct a as [|d a].
    + exfalso. apply (char_word c s x b N W E).
    + injection E as <- ->. exists a, b. split; [reflexivity|]. split; [exact W|]. split; [exact H1|]. intros d a' ->. apply (H2 d (c :: a')). reflexivity.
  - intros (a & b & -> & W & H1 & H2). exists (c :: a), b. split; [reflexivity|]. split; [exact W|]. split; [exact H1|].
    intros d a' E. destruct a' as [|e a']; [injection E as <- _; exact N|]. injection E as _ E. apply (H2 d a' E).
Qed.
Lemma name_in_nil x : ~ name_in x [].
Proof. intros (a & b & E & [NE _] & _). destruct a; [|discriminate E]. destruct x; [contradiction|discriminate E]. Qed.
Lemma name_in_word x w s : word w -> edge s -> (name_in x (w ++ s) <-> x = w \/ name_in x s).
Proof.
  intros W E. split.
  - intros (a & b & EQ & WX & H1 & H2). destruct a as [|d a].
    + left. cbn [app] in EQ. destruct (word_unique w x s b W WX E H1 EQ) as [-> _]. reflexivity.
    + right. destruct W as [NE F].
      assert (X : exists k, d :: a = w ++ k).
      { clear - EQ F H2 WX. remember (d :: a) as da eqn:ED.
        assert (G : forall w da, (forall c, In c w -> is_word c = true) -> (forall c a', da = a' ++ [c] -> is_word c = false) -> da <> [] -> w ++ s = da ++ x ++ b -> exists k, da = w ++ k).
        { clear. induction w as [|c w IH]; intros da F H NE EQ; [exists da; reflexivity|]. destruct da as [|d da]; [contradiction|].
          cbn in EQ. injection EQ as <- EQ. destruct da as [|d' da].
          - exfalso. specialize (H c [] eq_refl). rewrite (F c (or_introl eq_refl)) in H. discriminate H.
          - destruct (IH (d' :: da)) as [k ->]; [intros e I; apply F; right; exact I| |discriminate|exact EQ|exists k; reflexivity].
            intros e a' EA. apply (H e (c :: a')). rewrite EA. reflexivity. }
        apply (G w da F); [intros c a'; apply H2|subst da; discriminate|exact EQ]. }
      destruct X as [k EK]. rewrite EK, <- app_assoc in EQ. apply app_inv_head in EQ. exists k, b. split; [exact EQ|]. split; [exact WX|]. split; [exact H1|].
      intros c a' ->. apply (H2 c (w ++ a')). rewrite EK, app_assoc. reflexivity.
  - intros [->|(a & b & -> & WX & H1 & H2)].
    + exists [], s. split; [reflexivity|]. split; [exact W|]. split; [exact E|]. intros c a' X. destruct a'; discriminate X.
    + exists (w ++ a), b. split; [rewrite app_assoc; reflexivity|]. split; [exact WX|]. split; [exact H1|].
      intros c a' EA. destruct (rev a) as [|d k] eqn:RA.
      * apply (f_equal (@rev _)) in RA. rewrite rev_involutive in RA. cbn in RA. subst a.
        destruct WX as [NX FX]. destruct x as [|y x]; [contradiction|]. exfalso. cbn [app] in E. specialize (E y (x ++ b) eq_refl). rewrite (FX y (or_introl eq_refl)) in E. discriminate E.
      * apply (f_equal (@rev _)) in RA. rewrite rev_involutive in RA. cbn in RA. rewrite RA, app_assoc in EA. apply app_inj_tail in EA. destruct EA as [_ <-].
        apply (H2 d (rev k)). exact RA.
Qed.
Lemma name_in_app x a s : edge s -> (name_in x (a ++ s) <-> name_in x a \/ name_in x s).
Proof.
  intros E. revert a. apply (text_cases (fun a => name_in x (a ++ s) <-> name_in x a \/ name_in x s)).
  - cbn. split; [auto|]. intros [H|H]; [exfalso; exact (name_in_nil x H)|exact H].
  - intros c r N IH. cbn [app]. rewrite !name_in_char by exact N. exact IH.
  - intros w r W ER IH. rewrite <- app_assoc. rewrite (name_in_word x w (r ++ s) W (edge_app r s ER E)), (name_in_word x w r W ER), IH. tauto.
Qed.
Lemma name_in_inside x l s r : (forall c l', l = l' ++ [c] -> is_word c = false) -> edge r -> name_in x s -> name_in x (l ++ s ++ r).
Proof.
  intros L R (a & b & -> & W & H1 & H2). exists (l ++ a), (b ++ r). split; [rewrite <- !app_assoc; reflexivity|]. split; [exact W|]. split.
  - intros c b' E. destruct b as [|d b]; [apply (R c b' E)|]. injection E as <- _. apply (H1 d b eq_refl).
  - intros c a' E. destruct (rev a) as [|d k] eqn:RA; apply (f_equal (@rev _)) in RA; rewrite rev_involutive in RA; cbn in RA; subst a.
    + rewrite app_nil_r in E. apply (L c a' E).
    + rewrite app_assoc in E. apply app_inj_tail in E. destruct E as [_ <-]. apply (H2 d (rev k) eq_refl).
Qed.
Lemma name_in_strip x a : name_in x (strip a) -> name_in x a.
Proof.
  intros N. destruct (strip_parts a) as (l & r & E & FL & FR). rewrite E. apply name_in_inside; [| |exact N].
  - intros c l' ->. apply space_not_word. rewrite forallb_app in FL. apply andb_true_iff in FL. destruct FL as [_ FL]. cbn in FL. destruct (is_space c); [reflexivity|discriminate FL].
  - intros c r' ->. apply space_not_word. cbn in FR. apply andb_true_iff in FR. apply FR.
Qed.
Lemma join_head (a : str) l : l <> [] -> join [","%char] (a :: l) = a ++ ","%char :: join [","%char] l.
Proof. intros N. rewrite join_cons by exact N. reflexivity. Qed.
Lemma name_in_join x a args : In a args -> name_in x a -> name_in x (join [","%char] args).
Proof.
  induction args as [|b l IH]; intros I N; [destruct I|]. destruct l as [|c l].
  - destruct I as [<-|[]]. exact N.
  - rewrite join_head by discriminate. apply name_in_app; [apply edge_cons; reflexivity|].
    destruct I as [<-|I]; [left; exact N|]. right. apply name_in_char; [reflexivity|]. apply IH; assumption.
Qed.
Lemma name_in_call x w gap args s : word w -> blanks gap ->
  (name_in x (w ++ gap ++ "("%char :: join [","%char] args ++ ")"%char :: s) <-> x = w \/ name_in x (join [","%char] args) \/ name_in x s).
Proof.
  intros W B. rewrite name_in_word by (try apply edge_call; assumption). rewrite name_in_app by (apply edge_cons; reflexivity).
  rewrite name_in_char by reflexivity. rewrite name_in_app by (apply edge_cons; reflexivity). rewrite name_in_char by reflexivity.
  split; [|tauto]. intros [H|[H|H]]; try tauto. exfalso. clear - B H. induction gap as [|c g IH]; [exact (name_in_nil x H)|].
  apply IH; [intros d I; apply B; right; exact I|]. apply (proj1 (name_in_char x c g ltac:(rewrite (B c (or_introl eq_refl)); reflexivity)) H).
Qed.

(** ** Replacing words *)
Inductive sb (f : str -> str) : str -> str -> Prop :=
| sb_nil : sb f [] []
| sb_char c s t : is_word c = false -> sb f s t -> sb f (c :: s) (c :: t)
| sb_word w s t : word w -> edge s -> sb f s t -> sb f (w ++ s) (f w ++ t).
Lemma sb_subst f s ps : words_of s ps -> sb f s (subst f ps).
Proof.
  intros W. pose proof (proj1 W) as T. rewrite T in W |- *. clear T s. induction ps as [|p ps IH]; [apply sb_nil|].
  specialize (IH (words_of_cons _ _ W)). rewrite text_cons, subst_cons.
  pose proof W as (_ & _ & F). specialize (F p (or_introl eq_refl)). destruct p as [g|w|q]; [| |contradiction]; cbn [piece_text].
  - destruct F as [_ NW]. clear W. induction g as [|c g IHg]; [exact IH|]. cbn [app]. apply sb_char; [apply NW; left; reflexivity|].
    apply IHg. intros d I. apply NW. right. exact I.
  - apply sb_word; [exact F|apply edge_head; exact (words_of_next _ _ W)|exact IH].
Qed.
Lemma sb_total f s : exists t, sb f s t.
Proof. destruct (words_exist s) as [ps W]. exists (subst f ps). apply sb_subst. exact W. Qed.
Lemma sb_char_inv f c s t : is_word c = false -> sb f (c :: s) t -> exists t', t = c :: t' /\ sb f s t'.
Proof.
  intros N H. inversion H as [|c' s' t' N' H' E1 E2|w s' t' W E H' E1 E2]; subst; [exists t'; auto|].
  exfalso. apply (char_word c s w s' N W). congruence.
Qed.
Lemma sb_word_inv f w s t : word w -> edge s -> sb f (w ++ s) t -> exists t', t = f w ++ t' /\ sb f s t'.
Proof.
  intros W E H. inversion H as [E1 E2|c' s' t' N' H' E1 E2|w' s' t' W' E' H' E1 E2]; subst.
  - exfalso. apply (nil_word w s W). assumption.
  - exfalso. apply (char_word c' s' w s N' W). assumption.
  - destruct (word_unique w' w s' s W' W E' E E1) as [-> ->]. exists t'. auto.
Qed.
Lemma sb_fun f s t t' : sb f s t -> sb f s t' -> t' = t.
Proof.
  intros H. revert t'. induction H as [|c s t N H IH|w s t W E H IH]; intros t' H'.
  - inversion H' as [| |w s t W E X E1 E2]; [reflexivity|]. exfalso. destruct W as [NE _]. destruct w; [contradiction|discriminate E1].
  - destruct (sb_char_inv f c s t' N H') as (x & -> & H2). rewrite (IH x H2). reflexivity.
  - destruct (sb_word_inv f w s t' W E H') as (x & -> & H2). rewrite (IH x H2). reflexivity.
Qed.
Lemma sb_apart f s t : edge s -> sb f s t -> edge t.
Proof.
  intros E H. destruct H as [|c s t N H|w s t W E' H]; [apply edge_nil|apply edge_cons; exact N|].
  exfalso. destruct W as [NE F]. destruct w as [|c w]; [contradiction|]. specialize (E c (w ++ s) eq_refl). rewrite (F c (or_introl eq_refl)) in E. discriminate E.
Qed.
Lemma sb_app f a a' s s' : edge s -> sb f a a' -> sb f s s' -> sb f (a ++ s) (a' ++ s').
Proof.
  intros E A S. induction A as [|c r t N A IH|w r t W ER A IH]; [exact S|cbn [app]; apply sb_char; assumption|].
  rewrite <- !app_assoc. apply sb_word; [exact W|apply edge_app; assumption|exact IH].
Qed.
Lemma sb_id f s : (forall w, name_in w s -> f w = w) -> sb f s s.
Proof.
  revert s. apply (text_cases (fun s => (forall w, name_in w s -> f w = w) -> sb f s s)).
  - intros _. apply sb_nil.
  - intros c s N IH H. apply sb_char; [exact N|]. apply IH. intros w I. apply H. apply name_in_char; assumption.
  - intros w s W E IH H. assert (FW : f w = w) by (apply H; apply name_in_word; auto). rewrite <- FW at 2. apply sb_word; [exact W|exact E|].
    apply IH. intros x I. apply H. apply name_in_word; auto.
Qed.
(** The words of a text with words replaced. *)
Lemma sb_names f s t x : sb f s t -> name_in x t -> exists w, name_in w s /\ name_in x (f w).
Proof.
  intros H. induction H as [|c s t N H IH|w s t W E H IH]; intros I.
  - exfalso. exact (name_in_nil x I).
  - apply name_in_char in I; [|exact N]. destruct (IH I) as (w & A & B). exists w. split; [apply name_in_char; assumption|exact B].
  - apply name_in_app in I; [|exact (sb_apart f s t E H)]. destruct I as [I|I].
    + exists w. split; [apply name_in_word; auto|exact I].
    + destruct (IH I) as (w' & A & B). exists w'. split; [apply name_in_word; auto|exact B].
Qed.
Lemma word_name w : word w -> name_in w w.
Proof. intros W. rewrite <- (app_nil_r w) at 2. apply name_in_word; [exact W|apply edge_nil|left; reflexivity]. Qed.
Lemma name_in_self x w : word w -> name_in x w -> x = w.
Proof.
  intros W I. rewrite <- (app_nil_r w) in I. apply name_in_word in I; [|exact W|apply edge_nil].
  destruct I as [I|I]; [exact I|exfalso; exact (name_in_nil x I)].
Qed.
Lemma name_word x s : name_in x s -> word x.
Proof. intros (a & b & _ & W & _). exact W. Qed.

(** ** One result *)
Scheme complete_ind2 := Minimality for complete Sort Prop
with completes_ind2 := Minimality for completes Sort Prop.
Combined Scheme complete_both_ind from complete_ind2, completes_ind2.

Lemma complete_char m c s o : is_word c = false -> complete m (c :: s) o -> exists o', o = c :: o' /\ complete m s o'.
Proof.
  intros N H. remember (c :: s) as t eqn:ET. destruct H as [|c' s' o' N' H|w s' o' W E K H|w b v s' o' W E O B H|w ps b ws gap args vals v s' o' W E O KN FD G L A V SN WO S H].
  - discriminate ET.
  - injection ET as -> ->. exists o'. auto.
  - exfalso. exact (char_word c s w s' N W (eq_sym ET)).
  - exfalso. exact (char_word c s w s' N W (eq_sym ET)).
  - exfalso. exact (char_word c s w _ N W (eq_sym ET)).
Qed.
Lemma complete_nil m o : complete m [] o -> o = [].
Proof.
  intros H. remember (@nil ascii) as t eqn:ET. destruct H as [|c' s' o' N' H|w s' o' W E K H|w b v s' o' W E O B H|w ps b ws gap args vals v s' o' W E O KN FD G L A V SN WO S H].
  - reflexivity.
  - discriminate ET.
  - exfalso. exact (nil_word w s' W (eq_sym ET)).
  - exfalso. exact (nil_word w s' W (eq_sym ET)).
  - exfalso. exact (nil_word w _ W (eq_sym ET)).
Qed.
Lemma complete_word m w s o : word w -> edge s -> complete m (w ++ s) o ->
  (~ known_to m w /\ exists o', o = w ++ o' /\ complete m s o')
  \/ (exists b v o', obj m w = Some b /\ complete m b v /\ o = v ++ o' /\ complete m s o')
  \/ (exists ps b ws gap args vals v s' o', s = gap ++ "("%char :: join [","%char] args ++ ")"%char :: s' /\ edge s' /\ obj m w = None /\ In w (fns m)
        /\ fdef m w = Some (ps, b) /\ blanks gap /\ length args = length ps /\ Forall argument args /\ completes m (map strip args) vals
        /\ (Forall single vals \/ (forall x, name_in x b -> ~ In x (fns m))) /\ words_of b ws /\ complete m (subst (bound ps vals) ws) v
        /\ complete m s' o' /\ o = v ++ o').
Proof.
  intros W E H. remember (w ++ s) as t eqn:ET. destruct H as [|c' s' o' N' H|w' s' o' W' E' K H|w' b v s' o' W' E' O B H|w' ps b ws gap args vals v s' o' W' E' O KN FD G L A V SN WO S H].
  - exfalso. exact (nil_word w s W ET).
  - exfalso. exact (char_word c' s' w s N' W ET).
  - destruct (word_unique w' w s' s W' W E' E ET) as [-> ->]. left. eauto.
  - destruct (word_unique w' w s' s W' W E' E ET) as [-> ->]. right. left. exists b, v, o'. auto.
  - destruct (word_unique w' w _ s W' W (edge_call gap _ G) E ET) as [-> <-]. right. right. exists ps, b, ws, gap, args, vals, v, s', o'. auto 16.
Qed.
Lemma cut_unique (c : ascii) (a b a' b' : str) : ~ In c a -> ~ In c a' -> a ++ c :: b = a' ++ c :: b' -> a = a' /\ b = b'.
Proof.
  revert a'. induction a as [|d a IH]; intros a' N N' E.
  - destruct a' as [|d a']; [injection E as ->; auto|]. injection E as <- _. exfalso. apply N'. left. reflexivity.
  - destruct a' as [|d' a']; [injection E as -> _; exfalso; apply N; left; reflexivity|]. injection E as <- E.
    destruct (IH a') as [-> ->]; [intros I; apply N; right; exact I|intros I; apply N'; right; exact I|exact E|auto].
Qed.
Lemma argument_free a c : argument a -> In c ["("; ")"; ","]%char -> ~ In c a.
Proof. intros A I. apply A. destruct I as [<-|[<-|[<-|[]]]]; cbn; auto. Qed.
Lemma args_unique args args' : length args = length args' -> (forall a, In a args -> ~ In ","%char a) -> (forall a, In a args' -> ~ In ","%char a) ->
  join [","%char] args = join [","%char] args' -> args = args'.
Proof.
  intros L F F' E. destruct args as [|a l]; [destruct args'; [reflexivity|discriminate L]|]. destruct args' as [|a' l']; [discriminate L|].
  rewrite <- (split_on_join ","%char (a :: l)), <- (split_on_join ","%char (a' :: l')), E by (discriminate || assumption). reflexivity.
Qed.
Lemma call_unique gap gap' args args' s s' : blanks gap -> blanks gap' -> length args = length args' ->
  (forall a c, In a args -> In c ["("; ")"; ","]%char -> ~ In c a) -> (forall a c, In a args' -> In c ["("; ")"; ","]%char -> ~ In c a) ->
  gap ++ "("%char :: join [","%char] args ++ ")"%char :: s = gap' ++ "("%char :: join [","%char] args' ++ ")"%char :: s' ->
  args = args' /\ s = s'.
Proof.
  intros G G' L A A' E. apply cut_unique in E; [|intros I; apply G in I; discriminate I|intros I; apply G' in I; discriminate I].
  destruct E as [_ E]. assert (X : forall l, (forall a c, In a l -> In c ["("; ")"; ","]%char -> ~ In c a) -> ~ In ")"%char (join [","%char] l)).
  { intros l F. apply join_free; [|intros [Q|[]]; discriminate Q]. intros a I. apply (F a); [exact I|cbn; auto]. }
  apply cut_unique in E; [|apply X; exact A|apply X; exact A']. destruct E as [E ->]. split; [|reflexivity].
  apply args_unique; [exact L| | |exact E]; intros a I; [apply (A a)|apply (A' a)]; cbn; auto.
Qed.
Lemma args_free args : Forall argument args -> forall a c, In a args -> In c ["("; ")"; ","]%char -> ~ In c a.
Proof. intros F a c I C. rewrite Forall_forall in F. apply argument_free; auto. Qed.
Lemma words_cut s ps ps' : words_of s ps -> words_of s ps' -> forall f, subst f ps' = subst f ps.
Proof. intros W W' f. apply (sb_fun f s); apply sb_subst; assumption. Qed.
Lemma complete_unique m :
  (forall s o, complete m s o -> forall o', complete m s o' -> o' = o)
  /\ (forall l vs, completes m l vs -> forall vs', completes m l vs' -> vs' = vs).
Proof.
  apply (complete_both_ind m (fun s o => forall o', complete m s o' -> o' = o) (fun l vs => forall vs', completes m l vs' -> vs' = vs)).
  - intros o'. apply complete_nil.
  - intros c s o N _ IH o' H. destruct (complete_char m c s o' N H) as (x & -> & C). rewrite (IH x C). reflexivity.
  - intros w s o W E K _ IH o' H. destruct (complete_word m w s o' W E H) as [(_ & x & -> & C)|[(b & v & x & O & _)|(ps & b & ws & gap & args & vals & v & s' & x & _ & _ & _ & KN & _)]].
    + rewrite (IH x C). reflexivity.
    + exfalso. apply K. left. congruence.
    + exfalso. apply K. right. exact KN.
  - intros w b v s o W E O _ IHB _ IH o' H. destruct (complete_word m w s o' W E H) as [(K & _)|[(b' & v' & x & O' & B' & -> & C)|(ps & b' & ws & gap & args & vals & v' & s' & x & _ & _ & O' & _)]].
    + exfalso. apply K. left. congruence.
    + assert (b' = b) by congruence. subst b'. rewrite (IHB v' B'), (IH x C). reflexivity.
    + congruence.
  - intros w ps b ws gap args vals v s o W E O KN FD G L A _ IHV SN WO _ IHS _ IH o' H.
    destruct (complete_word m w _ o' W (edge_call gap _ G) H) as [(K & _)|[(b' & v' & x & O' & _)|(ps' & b' & ws' & gap' & args' & vals' & v' & s' & x & EQ & E' & O' & KN' & FD' & G' & L' & A' & V' & SN' & WO' & S' & H' & ->)]].
    + exfalso. apply K. right. exact KN.
    + congruence.
    + assert (Q : (ps', b') = (ps, b)) by congruence. injection Q as -> ->.
      destruct (call_unique gap gap' args args' s s' G G' ltac:(congruence) (args_free args A) (args_free args' A') EQ) as [<- <-].
      rewrite (IHV vals' V') in S'. rewrite (words_cut b ws ws' WO WO') in S'. rewrite (IHS v' S'), (IH x H'). reflexivity.
  - intros vs' H. inversion H. reflexivity.
  - intros a v l vs _ IHA _ IHL vs' H. inversion H as [|a' v' l' vs0 HA HL E1 E2]; subst. rewrite (IHA v' HA), (IHL vs0 HL). reflexivity.
Qed.

(** ** No macro is left *)
Definition inert (m : cmac) (s : str) : Prop := forall w, name_in w s -> ~ known_to m w.
Lemma complete_edge m s o : edge s -> complete m s o -> edge o.
Proof.
  intros E H. destruct s as [|c s]; [rewrite (complete_nil m o H); apply edge_nil|].
  destruct (complete_char m c s o (E c s eq_refl) H) as (o' & -> & _). apply edge_cons. apply (E c s eq_refl).
Qed.
Lemma inert_app m a s : edge s -> inert m a -> inert m s -> inert m (a ++ s).
Proof. intros E A S w I. apply name_in_app in I; [|exact E]. destruct I as [I|I]; [apply A|apply S]; exact I. Qed.
Lemma complete_inert m :
  (forall s o, complete m s o -> inert m o) /\ (forall l vs, completes m l vs -> Forall (inert m) vs).
Proof.
  apply (complete_both_ind m (fun _ o => inert m o) (fun _ vs => Forall (inert m) vs)).
  - intros w I. exfalso. exact (name_in_nil w I).
  - intros c s o N _ IH w I. apply name_in_char in I; [|exact N]. apply IH. exact I.
  - intros w s o W E K H IH. apply inert_app; [exact (complete_edge m s o E H)| |exact IH]. intros x I. rewrite (name_in_self x w W I). exact K.
  - intros w b v s o W E O _ IHB H IH. apply inert_app; [exact (complete_edge m s o E H)|exact IHB|exact IH].
  - intros w ps b ws gap args vals v s o W E O KN FD G L A _ IHV SN WO _ IHS H IH. apply inert_app; [exact (complete_edge m s o E H)|exact IHS|exact IH].
  - constructor.
  - intros. constructor; assumption.
Qed.
Lemma inert_prefix m a : forall s o, inert m a -> edge s -> complete m (a ++ s) o -> exists o', o = a ++ o' /\ complete m s o'.
Proof.
  revert a. apply (text_cases (fun a => forall s o, inert m a -> edge s -> complete m (a ++ s) o -> exists o', o = a ++ o' /\ complete m s o')).
  - intros s o _ _ H. exists o. auto.
  - intros c a N IH s o A E H. destruct (complete_char m c (a ++ s) o N H) as (x & -> & C).
    destruct (IH s x) as (o' & -> & C'); [intros w I; apply A; apply name_in_char; assumption|exact E|exact C|]. exists o'. auto.
  - intros w a W EA IH s o A E H. rewrite <- app_assoc in H.
    assert (K : ~ known_to m w) by (apply A; apply name_in_word; auto).
    destruct (complete_word m w (a ++ s) o W (edge_app a s EA E) H) as [(_ & x & -> & C)|[(b & v & x & O & _)|(ps & b & ws & gap & args & vals & v & s' & x & _ & _ & _ & KN & _)]].
    + destruct (IH s x) as (o' & -> & C'); [intros y I; apply A; apply name_in_word; auto|exact E|exact C|]. exists o'. rewrite app_assoc. auto.
    + exfalso. apply K. left. congruence.
    + exfalso. apply K. right. exact KN.
Qed.
Lemma complete_same m s : inert m s -> complete m s s.
Proof.
  revert s. apply (text_cases (fun s => inert m s -> complete m s s)).
  - intros _. apply co_nil.
  - intros c s N IH A. apply co_char; [exact N|]. apply IH. intros w I. apply A. apply name_in_char; assumption.
  - intros w s W E IH A. apply co_word; [exact W|exact E|apply A; apply name_in_word; auto|]. apply IH. intros x I. apply A. apply name_in_word; auto.
Qed.
Lemma complete_around m a s b o : no_word a -> no_word b -> complete m s o -> complete m (a ++ s ++ b) (a ++ o ++ b).
Proof.
  intros A B H. induction a as [|c a IH].
  - cbn [app]. clear A. assert (E : edge b) by (intros c r ->; apply B; left; reflexivity).
    assert (CB : complete m b b) by (apply complete_same; intros w I; exfalso; clear - B I; induction b as [|c b IH];
      [exact (name_in_nil w I)|apply IH; [intros d J; apply B; right; exact J|apply (proj1 (name_in_char w c b (B c (or_introl eq_refl)))); exact I]]).
    induction H as [|c s o N H IH|w s o W ES K H IH|w x v s o W ES O HB IHB H IH|w ps x ws gap args vals v s o W ES O KN FD G L A V SN WO HS IHS H IH].
    + exact CB.
    + cbn [app]. apply co_char; assumption.
    + rewrite <- !app_assoc. apply co_word; [exact W|apply edge_app; assumption|exact K|exact IH].
    + rewrite <- !app_assoc. apply (co_object m w x); [exact W|apply edge_app; assumption|exact O|exact HB|exact IH].
    + rewrite <- !app_assoc. cbn [app]. rewrite <- !app_assoc. cbn [app].
      apply (co_call m w ps x ws gap args vals); try assumption. apply edge_app; assumption.
  - cbn [app]. apply co_char; [apply A; left; reflexivity|]. apply IH. intros d I. apply A. right. exact I.
Qed.

(** ** Where the words of the result come from *)
Lemma bound_cases (ps vals : list str) y : length vals = length ps ->
  (In y ps /\ In (bound ps vals y) vals) \/ (~ In y ps /\ bound ps vals y = y).
Proof.
  unfold bound, replaced. revert vals. induction ps as [|p ps IH]; intros [|v vals] L; try discriminate L; [right; auto|].
  injection L as L. cbn [combine dget]. destruct (eqb_spec y p) as [->|N]; [left; split; left; reflexivity|].
  destruct (IH vals L) as [[A B]|[A B]]; [left; split; right; assumption|right; split; [intros [E|E]; [congruence|contradiction]|exact B]].
Qed.
Lemma completes_length m l vs : completes m l vs -> length vs = length l.
Proof. induction 1 as [|a v l vs _ _ IH]; [reflexivity|]. cbn [length]. rewrite IH. reflexivity. Qed.
Lemma uses_more m s s' x : (forall w, name_in w s -> name_in w s') -> uses m s x -> uses m s' x.
Proof. 
  intros H U. destruct U as [s w b x I O D|s w b x I O D|s w ps b x I FD D NI|s w ps b x I FD D];
    [apply (us_object m s' w b)|apply (us_within m s' w b)|apply (us_function m s' w ps b)|apply (us_inside m s' w ps b)]; auto.
Qed.
Lemma uses_inert m s x : (forall w ps b, fdef m w = Some (ps, b) -> In w (fns m)) -> inert m s -> ~ uses m s x.
Proof.
  intros F A U. destruct U as [s w b x I O D|s w b x I O D|s w ps b x I FD D NI|s w ps b x I FD D]; apply (A w I);
    [left; congruence|left; congruence|right; apply (F w ps b FD)|right; apply (F w ps b FD)].
Qed.
Section Names.
  Context (m : cmac) (DF : forall w ps b, fdef m w = Some (ps, b) -> In w (fns m)).
  (** A word in a replacement list with its parameters replaced. *)
  Lemma replaced_names ps b ws vals x : length vals = length ps -> words_of b ws -> name_in x (subst (bound ps vals) ws) ->
    (name_in x b /\ ~ In x ps) \/ exists v, In v vals /\ name_in x v.
  Proof.
    intros L W I. destruct (sb_names _ _ _ x (sb_subst (bound ps vals) b ws W) I) as (y & IY & IX).
    destruct (bound_cases ps vals y L) as [[A B]|[A B]]; [right; exists (bound ps vals y); auto|].
    left. rewrite B in IX. rewrite (name_in_self x y (name_word y b IY) IX). auto.
  Qed.
  Lemma replaced_uses s w ps b ws vals x : length vals = length ps -> words_of b ws -> Forall (inert m) vals -> fdef m w = Some (ps, b) -> name_in w s ->
    uses m (subst (bound ps vals) ws) x -> uses m s x.
  Proof.
    intros L W A FD IW U. assert (X : uses m b x).
    { assert (Y : forall y, known_to m y -> name_in y (subst (bound ps vals) ws) -> name_in y b).
      { intros y K I. destruct (replaced_names ps b ws vals y L W I) as [[I' _]|(v & IV & I')]; [exact I'|].
        exfalso. rewrite Forall_forall in A. apply (A v IV y I' K). }
      destruct U as [t y c x I O D|t y c x I O D|t y qs c x I FD' D NI|t y qs c x I FD' D].
      - apply (us_object m b y c); [apply Y; [left; congruence|exact I]|exact O|exact D].
      - apply (us_within m b y c); [apply Y; [left; congruence|exact I]|exact O|exact D].
      - apply (us_function m b y qs c); [apply Y; [right; apply (DF y qs c FD')|exact I]|exact FD'|exact D|exact NI].
      - apply (us_inside m b y qs c); [apply Y; [right; apply (DF y qs c FD')|exact I]|exact FD'|exact D]. }
    apply (us_inside m s w ps b); auto.
  Qed.
  Lemma complete_names :
    (forall s o, complete m s o -> forall x, name_in x o -> name_in x s \/ uses m s x)
    /\ (forall l vs, completes m l vs -> forall v x, In v vs -> name_in x v -> exists a, In a l /\ (name_in x a \/ uses m a x)).
  Proof.
    apply (complete_both_ind m (fun s o => forall x, name_in x o -> name_in x s \/ uses m s x)
      (fun l vs => forall v x, In v vs -> name_in x v -> exists a, In a l /\ (name_in x a \/ uses m a x))).
    - intros x I. left. exact I.
    - intros c s o N _ IH x I. apply name_in_char in I; [|exact N]. rewrite (name_in_char x c s N). destruct (IH x I) as [D|D]; [left; exact D|right].
      apply (uses_more m s); [|exact D]. intros w. apply name_in_char. exact N.
    - intros w s o W E K H IH x I. apply name_in_word in I; [|exact W|exact (complete_edge m s o E H)]. rewrite (name_in_word x w s W E).
      destruct I as [I|I]; [left; left; exact I|]. destruct (IH x I) as [D|D]; [left; right; exact D|right].
      apply (uses_more m s); [|exact D]. intros y J. apply name_in_word; auto.
    - intros w b v s o W E O _ IHB H IH x I. apply name_in_app in I; [|exact (complete_edge m s o E H)]. destruct I as [I|I].
      + right. destruct (IHB x I) as [D|D]; [apply (us_object m (w ++ s) w b)|apply (us_within m (w ++ s) w b)]; try assumption; apply name_in_word; auto.
      + destruct (IH x I) as [D|D]; [left; apply name_in_word; auto|right]. apply (uses_more m s); [|exact D]. intros y J. apply name_in_word; auto.
    - intros w ps b ws gap args vals v s o W E O KN FD G L A V IHV SN WO _ IHS H IH x I.
      assert (LV : length vals = length ps) by (rewrite (completes_length m _ _ V), map_length; exact L).
      set (t := w ++ gap ++ "("%char :: join [","%char] args ++ ")"%char :: s).
      assert (IW : name_in w t) by (apply name_in_call; auto).
      apply name_in_app in I; [|exact (complete_edge m s o E H)]. destruct I as [I|I].
      + destruct (IHS x I) as [D|D].
        * destruct (replaced_names ps b ws vals x LV WO D) as [[D1 D2]|(y & IY & D1)].
          -- right. apply (us_function m t w ps b); auto.
          -- destruct (IHV y x IY D1) as (a & IA & D2). apply in_map_iff in IA. destruct IA as (a0 & <- & IA).
             assert (M : forall z, name_in z (strip a0) -> name_in z t).
             { intros z J. apply name_in_call; [exact W|exact G|]. right. left. apply (name_in_join z a0); [exact IA|apply name_in_strip; exact J]. }
             destruct D2 as [D2|D2]; [left; apply M; exact D2|right; apply (uses_more m (strip a0)); assumption].
        * right. apply (replaced_uses t w ps b ws vals x LV WO (proj2 (complete_inert m) _ _ V) FD IW D).
      + destruct (IH x I) as [D|D]; [left; apply name_in_call; auto|right]. apply (uses_more m s); [|exact D]. intros y J. apply name_in_call; auto.
    - intros v x [].
    - intros a v l vs _ IHA _ IHL y x [<-|I] J.
      + exists a. split; [left; reflexivity|apply IHA; exact J].
      + destruct (IHL y x I J) as (a' & IA & D). exists a'. split; [right; exact IA|exact D].
  Qed.
End Names.

(** ** Names that do not appear do not matter *)
Section Without.
  Context (n : str) (m m' : cmac).
  Hypothesis DF : forall w ps b, fdef m w = Some (ps, b) -> In w (fns m).
  Hypothesis EO : forall w, w <> n -> obj m' w = obj m w.
  Hypothesis EF : forall w, w <> n -> fdef m' w = fdef m w.
  Hypothesis EN : forall w, w <> n -> (In w (fns m') <-> In w (fns m)).
  Hypothesis BO : forall w b, w <> n -> obj m w = Some b -> ~ name_in n b.
  Hypothesis BF : forall w ps b, w <> n -> fdef m w = Some (ps, b) -> ~ name_in n b.
  Lemma known_without w : w <> n -> (known_to m' w <-> known_to m w).
  Proof. intros N. unfold known_to. rewrite (EO w N), (EN w N). reflexivity. Qed.
  Lemma uses_without s x : uses m s x -> ~ name_in n s -> x <> n.
  Proof.
    induction 1 as [s w b x I O D|s w b x I O D IH|s w ps b x I FD D NI|s w ps b x I FD D IH]; intros N;
      (assert (NW : w <> n) by (intros ->; contradiction)).
    - intros ->. apply (BO w b NW O D).
    - apply IH. apply (BO w b NW O).
    - intros ->. apply (BF w ps b NW FD D).
    - apply IH. apply (BF w ps b NW FD).
  Qed.
  Lemma uses_back s x : uses m' s x -> ~ name_in n s -> uses m s x.
  Proof.
    induction 1 as [s w b x I O D|s w b x I O D IH|s w ps b x I FD D NI|s w ps b x I FD D IH]; intros N;
      (assert (NW : w <> n) by (intros ->; contradiction)).
    - rewrite (EO w NW) in O. apply (us_object m s w b); assumption.
    - rewrite (EO w NW) in O. apply (us_within m s w b); [assumption|assumption|]. apply IH. apply (BO w b NW O).
    - rewrite (EF w NW) in FD. apply (us_function m s w ps b); assumption.
    - rewrite (EF w NW) in FD. apply (us_inside m s w ps b); [assumption|assumption|]. apply IH. apply (BF w ps b NW FD).
  Qed.
  Lemma complete_without :
    (forall s o, complete m s o -> ~ name_in n s -> complete m' s o)
    /\ (forall l vs, completes m l vs -> (forall a, In a l -> ~ name_in n a) -> completes m' l vs).
  Proof.
    apply (complete_both_ind m (fun s o => ~ name_in n s -> complete m' s o) (fun l vs => (forall a, In a l -> ~ name_in n a) -> completes m' l vs)).
    - intros _. apply co_nil.
    - intros c s o N _ IH NI. apply co_char; [exact N|]. apply IH. intros I. apply NI. apply name_in_char; assumption.
    - intros w s o W E K _ IH NI. assert (NW : w <> n) by (intros ->; apply NI; apply name_in_word; auto).
      apply co_word; [exact W|exact E|rewrite (known_without w NW); exact K|]. apply IH. intros I. apply NI. apply name_in_word; auto.
    - intros w b v s o W E O _ IHB _ IH NI. assert (NW : w <> n) by (intros ->; apply NI; apply name_in_word; auto).
      apply (co_object m' w b); [exact W|exact E|rewrite (EO w NW); exact O|apply IHB; apply (BO w b NW O)|]. apply IH. intros I. apply NI. apply name_in_word; auto.
    - intros w ps b ws gap args vals v s o W E O KN FD G L A V IHV SN WO _ IHS _ IH NI.
      assert (NW : w <> n) by (intros ->; apply NI; apply name_in_call; auto).
      assert (NA : forall a, In a (map strip args) -> ~ name_in n a).
      { intros a I J. apply in_map_iff in I. destruct I as (a0 & <- & I). apply NI. apply name_in_call; [exact W|exact G|]. right. left.
        apply (name_in_join n a0); [exact I|apply name_in_strip; exact J]. }
      assert (NB : ~ name_in n b) by (apply (BF w ps b NW FD)).
      apply (co_call m' w ps b ws gap args vals); try assumption.
      + rewrite (EO w NW). exact O.
      + apply (EN w NW). exact KN.
      + rewrite (EF w NW). exact FD.
      + apply IHV. exact NA.
      + destruct SN as [SN|SN]; [left; exact SN|right]. intros x I J. assert (NX : x <> n) by (intros ->; contradiction). apply (SN x I). apply (EN x NX). exact J.
      + apply IHS. intros I. assert (LV : length vals = length ps) by (rewrite (completes_length m _ _ V), map_length; exact L).
        destruct (replaced_names ps b ws vals n LV WO I) as [[I1 _]|(y & IY & I1)]; [contradiction|].
        destruct (proj2 (complete_names m DF) _ _ V y n IY I1) as (a & IA & [D|D]); [exact (NA a IA D)|].
        exact (uses_without a n D (NA a IA) eq_refl).
      + apply IH. intros I. apply NI. apply name_in_call; auto.
    - intros _. apply cos_nil.
    - intros a v l vs _ IHA _ IHL NI. apply cos_cons; [apply IHA; apply NI; left; reflexivity|]. apply IHL. intros x I. apply NI. right. exact I.
  Qed.
End Without.

(** ** Replacement of parameters after the expansion *)
Lemma sb_chars f s t c : sb f s t -> In c t -> In c s \/ exists w, name_in w s /\ In c (f w).
Proof.
  intros H. induction H as [|d s t N H IH|w s t W E H IH]; intros I.
  - destruct I.
  - destruct I as [<-|I]; [left; left; reflexivity|]. destruct (IH I) as [D|(w & D1 & D2)]; [left; right; exact D|].
    right. exists w. split; [apply name_in_char; assumption|exact D2].
  - apply in_app_or in I. destruct I as [I|I].
    + right. exists w. split; [apply name_in_word; auto|exact I].
    + destruct (IH I) as [D|(x & D1 & D2)]; [left; apply in_or_app; right; exact D|]. right. exists x. split; [apply name_in_word; auto|exact D2].
Qed.
Lemma name_chars x s c : name_in x s -> In c x -> In c s.
Proof. intros (a & b & -> & _) I. apply in_or_app. right. apply in_or_app. left. exact I. Qed.
Lemma sb_two f g h s t t' : sb f s t -> sb g s t' -> (forall w, name_in w s -> sb h (f w) (g w)) -> sb h t t'.
Proof.
  intros H. revert t'. induction H as [|c s t N H IH|w s t W E H IH]; intros t' H' R.
  - rewrite (sb_fun g [] [] t' (sb_nil g) H'). apply sb_nil.
  - destruct (sb_char_inv g c s t' N H') as (x & -> & H2). apply sb_char; [exact N|]. apply IH; [exact H2|]. intros w I. apply R. apply name_in_char; assumption.
  - destruct (sb_word_inv g w s t' W E H') as (x & -> & H2). apply sb_app; [exact (sb_apart f s t E H)|apply R; apply name_in_word; auto|].
    apply IH; [exact H2|]. intros y I. apply R. apply name_in_word; auto.
Qed.
Definition last_ok (s : str) : Prop := exists a c, s = a ++ [c] /\ is_space c = false.
Lemma last_ok_app a s : last_ok s -> last_ok (a ++ s).
Proof. intros (x & c & -> & N). exists (a ++ x), c. split; [rewrite app_assoc; reflexivity|exact N]. Qed.
Lemma sb_last f s t : sb f s t -> (forall w, name_in w s -> last_ok (f w)) -> last_ok s -> last_ok t.
Proof.
  intros H. induction H as [|c s t N H IH|w s t W E H IH]; intros F L.
  - exact L.
  - destruct s as [|d s].
    + rewrite (sb_fun f [] [] t (sb_nil f) H). exact L.
    + apply (last_ok_app [c] t). apply IH; [intros w I; apply F; apply name_in_char; assumption|].
      destruct L as (x & e & EQ & NS). destruct x as [|y x]; [destruct s; discriminate EQ|]. injection EQ as _ EQ. exists x, e. auto.
  - destruct s as [|d s].
    + rewrite (sb_fun f [] [] t (sb_nil f) H), app_nil_r. apply F. apply name_in_word; auto.
    + apply last_ok_app. apply IH; [intros x I; apply F; apply name_in_word; auto|].
      destruct L as (x & e & EQ & NS). rewrite (app_removelast_last d (l := d :: s)) in EQ |- * by discriminate.
      rewrite app_assoc in EQ. apply app_inj_tail in EQ. destruct EQ as [_ EQ]. exists (removelast (d :: s)), (last (d :: s) d). rewrite EQ. auto.
Qed.
Lemma sb_first f s t : sb f s t -> (forall w, name_in w s -> f w <> [] /\ head_not is_space (f w) = true) -> head_not is_space s = true -> head_not is_space t = true.
Proof.
  intros H F HS. destruct H as [|c s t N H|w s t W E H]; [exact HS|exact HS|].
  destruct (F w) as [NE HF]; [apply name_in_word; auto|]. destruct (f w) as [|c x]; [contradiction|exact HF].
Qed.
Lemma last_trim s : s <> [] -> head_not is_space (rev s) = true -> last_ok s.
Proof.
  intros N H. destruct (exists_last N) as (a & c & ->). rewrite rev_app_distr in H. cbn in H. exists a, c. split; [reflexivity|]. destruct (is_space c); [discriminate H|reflexivity].
Qed.
Lemma sb_strip f a t : sb f a t -> (forall w, name_in w a -> f w <> [] /\ strip (f w) = f w) -> sb f (strip a) (strip t).
Proof.
  intros H F. destruct (strip_parts a) as (l & r & E & FL & FR). destruct (sb_total f (strip a)) as [u SU].
  assert (NW : forall x, forallb is_space x = true -> forall w, ~ name_in w x).
  { clear. intros x F w. induction x as [|c x IH]; intros I; [exact (name_in_nil w I)|]. cbn in F. apply andb_true_iff in F.
    apply IH; [apply F|]. apply (proj1 (name_in_char w c x (space_not_word c (proj1 F)))). exact I. }
  assert (ER : edge r) by (intros c x ->; apply space_not_word; cbn in FR; apply andb_true_iff in FR; apply FR).
  assert (SR : sb f (strip a ++ r) (u ++ r)) by (apply sb_app; [exact ER|exact SU|apply sb_id; intros w I; exfalso; exact (NW r FR w I)]).
  assert (SA : sb f a (l ++ u ++ r)).
  { rewrite E at 1. clear - FL SR. induction l as [|c l IH]; [exact SR|]. cbn in FL. apply andb_true_iff in FL. cbn [app].
    apply sb_char; [apply space_not_word; apply FL|]. apply IH. apply FL. }
  assert (ET : t = l ++ u ++ r) by (apply (sb_fun f a); assumption). rewrite ET. clear ET.
  assert (SS : strip (l ++ u ++ r) = u); [|rewrite SS; exact SU].
  assert (FS : forall w, name_in w (strip a) -> f w <> [] /\ strip (f w) = f w) by (intros w I; apply F; apply name_in_strip; exact I).
  destruct (strip a) as [|c s] eqn:EA.
  - rewrite (sb_fun f [] [] u (sb_nil f) SU). cbn [app]. rewrite strip_blanks by exact FL. rewrite <- (app_nil_r r), strip_blanks by exact FR. reflexivity.
  - pose proof (strip_trim a) as [T1 T2]. rewrite EA in T1, T2.
    assert (LU : last_ok u).
    { apply (sb_last f (c :: s) u SU); [|apply last_trim; [discriminate|exact T2]]. intros w I. destruct (FS w I) as [N S].
      apply last_trim; [exact N|]. rewrite <- S. apply strip_trim. }
    apply strip_trimmed; [exact FL|exact FR|]. destruct LU as (x & d & EU & ND). split; [rewrite EU; destruct x; discriminate|]. split.
    + apply (sb_first f (c :: s) u SU); [|exact T1]. intros w I. destruct (FS w I) as [N S]. split; [exact N|]. rewrite <- S. apply strip_trim.
    + rewrite EU, rev_app_distr. cbn. rewrite ND. reflexivity.
Qed.
Lemma bound_rel (R : str -> str -> Prop) ps vals vals' y : Forall2 R vals vals' -> length vals = length ps -> In y ps ->
  R (bound ps vals y) (bound ps vals' y).
Proof.
  unfold bound, replaced. intros F. revert ps. induction F as [|v v' l l' H F IH]; intros [|p ps] L I; try discriminate L; [destruct I|].
  cbn [combine dget]. destruct (eqb_spec y p) as [->|N]; [exact H|]. apply IH; [injection L as L; exact L|]. destruct I as [E|I]; [congruence|exact I].
Qed.
Lemma sb_join f args args' : Forall2 (sb f) args args' -> sb f (join [","%char] args) (join [","%char] args').
Proof.
  induction 1 as [|a a' l l' H F IH]; [apply sb_nil|]. destruct F as [|b b' l l' H' F]; [exact H|].
  rewrite !join_head by discriminate. apply sb_app; [apply edge_cons; reflexivity|exact H|]. apply sb_char; [reflexivity|exact IH].
Qed.
Lemma sb_blanks f g s t : blanks g -> sb f s t -> sb f (g ++ s) (g ++ t).
Proof.
  intros B H. induction g as [|c g IH]; [exact H|]. cbn [app]. apply sb_char; [rewrite (B c (or_introl eq_refl)); reflexivity|].
  apply IH. intros d I. apply B. right. exact I.
Qed.
Lemma Forall2_total f (l : list str) : exists l', Forall2 (sb f) l l'.
Proof. induction l as [|a l (l' & IH)]; [exists []; constructor|]. destruct (sb_total f a) as [t T]. exists (t :: l'). constructor; assumption. Qed.
Lemma Forall2_len {A B} (R : A -> B -> Prop) l l' : Forall2 R l l' -> length l' = length l.
Proof. induction 1; cbn; congruence. Qed.
Section Commute.
  Context (m : cmac) (DF : forall w ps b, fdef m w = Some (ps, b) -> In w (fns m)).
  Context (ps vals : list str) (LV : length vals = length ps) (VI : Forall (inert m) vals).
  Notation f := (bound ps vals).
  Definition hygienic (s : str) : Prop := forall p, In p ps -> ~ uses m s p /\ (name_in p s -> ~ known_to m p).
  Definition callable (s : str) : Prop := Forall single vals \/ (forall x, name_in x s -> ~ In x (fns m)).
  Lemma hygienic_part s s' : (forall w, name_in w s' -> name_in w s) -> hygienic s -> hygienic s'.
  Proof. intros M H p I. destruct (H p I) as [U K]. split; [intros X; apply U; apply (uses_more m s'); assumption|]. intros J. apply K. apply M. exact J. Qed.
  Lemma callable_part s s' : (forall w, name_in w s' -> name_in w s) -> callable s -> callable s'.
  Proof. intros M [H|H]; [left; exact H|right]. intros x I. apply H. apply M. exact I. Qed.
  Lemma known_same s w : hygienic s -> name_in w s -> known_to m w -> f w = w.
  Proof.
    intros H I K. destruct (bound_cases ps vals w LV) as [[A _]|[_ E]]; [|exact E]. exfalso. apply (proj2 (H w A)); assumption.
  Qed.
  Lemma single_image w : Forall single vals -> word w -> f w <> [] /\ strip (f w) = f w.
  Proof.
    intros S W. destruct (bound_cases ps vals w LV) as [[_ I]|[_ ->]].
    - rewrite Forall_forall in S. destruct (S _ I) as (A & B & _). auto.
    - split; [apply W|]. pose proof (strip_trimmed [] w [] eq_refl eq_refl (word_trimmed w W)) as X. cbn [app] in X. rewrite app_nil_r in X. exact X.
  Qed.
  Lemma commute :
    (forall s v, complete m s v -> hygienic s -> callable s -> forall s2 v2, sb f s s2 -> complete m s2 v2 -> sb f v v2)
    /\ (forall l vs, completes m l vs -> (forall a, In a l -> hygienic a /\ callable a) ->
          forall l2 vs2, Forall2 (sb f) l l2 -> completes m l2 vs2 -> Forall2 (sb f) vs vs2).
  Proof.
    apply (complete_both_ind m
      (fun s v => hygienic s -> callable s -> forall s2 v2, sb f s s2 -> complete m s2 v2 -> sb f v v2)
      (fun l vs => (forall a, In a l -> hygienic a /\ callable a) -> forall l2 vs2, Forall2 (sb f) l l2 -> completes m l2 vs2 -> Forall2 (sb f) vs vs2)).
    - intros _ _ s2 v2 S C. rewrite (sb_fun f [] [] s2 (sb_nil f) S) in C. rewrite (complete_nil m v2 C). apply sb_nil.
    - intros c s o N _ IH HY CA s2 v2 S C. destruct (sb_char_inv f c s s2 N S) as (t & -> & S'). destruct (complete_char m c t v2 N C) as (x & -> & C').
      assert (M : forall w, name_in w s -> name_in w (c :: s)) by (intros w I; apply name_in_char; assumption).
      apply sb_char; [exact N|]. apply (IH (hygienic_part _ _ M HY) (callable_part _ _ M CA) t x S' C').
    - intros w s o W E K H IH HY CA s2 v2 S C. destruct (sb_word_inv f w s s2 W E S) as (t & -> & S').
      assert (M : forall x, name_in x s -> name_in x (w ++ s)) by (intros x I; apply name_in_word; auto).
      assert (AI : inert m (f w)).
      { destruct (bound_cases ps vals w LV) as [[_ I]|[_ ->]]; [rewrite Forall_forall in VI; apply VI; exact I|]. intros x I. rewrite (name_in_self x w W I). exact K. }
      destruct (inert_prefix m (f w) t v2 AI (sb_apart f s t E S') C) as (x & -> & C').
      apply sb_word; [exact W|exact (complete_edge m s o E H)|]. apply (IH (hygienic_part _ _ M HY) (callable_part _ _ M CA) t x S' C').
    - intros w b v s o W E O HB IHB H IH HY CA s2 v2 S C. destruct (sb_word_inv f w s s2 W E S) as (t & -> & S').
      assert (M : forall x, name_in x s -> name_in x (w ++ s)) by (intros x I; apply name_in_word; auto).
      assert (IW : name_in w (w ++ s)) by (apply name_in_word; auto).
      rewrite (known_same (w ++ s) w HY IW ltac:(left; congruence)) in C.
      destruct (complete_word m w t v2 W (sb_apart f s t E S') C) as [(K & _)|[(b' & v' & x & O' & B' & -> & C')|(qs & b' & ws & gap & args & vs & v' & s' & x & _ & _ & O' & _)]].
      + exfalso. apply K. left. congruence.
      + assert (b' = b) by congruence. subst b'. rewrite (proj1 (complete_unique m) b v HB v' B').
        apply sb_app; [exact (complete_edge m s o E H)| |apply (IH (hygienic_part _ _ M HY) (callable_part _ _ M CA) t x S' C')].
        apply sb_id. intros y I. destruct (bound_cases ps vals y LV) as [[A _]|[_ EQ]]; [|exact EQ]. exfalso.
        apply (proj1 (HY y A)). destruct (proj1 (complete_names m DF) b v HB y I) as [D|D]; [apply (us_object m _ w b)|apply (us_within m _ w b)]; assumption.
      + congruence.
    - intros w qs b ws gap args vs v s o W E O KN FD G L A V IHV SN WO HS IHS H IH HY CA s2 v2 S C.
      set (t0 := w ++ gap ++ "("%char :: join [","%char] args ++ ")"%char :: s) in *.
      assert (IW : name_in w t0) by (apply name_in_call; auto).
      assert (SG : Forall single vals) by (destruct CA as [CA|CA]; [exact CA|exfalso; exact (CA w IW KN)]).
      destruct (sb_word_inv f w _ s2 W (edge_call gap _ G) S) as (t & -> & S').
      rewrite (known_same t0 w HY IW (or_intror KN)) in C.
      destruct (Forall2_total f args) as [args2 F2]. destruct (sb_total f s) as [s3 S3].
      assert (ET : t = gap ++ "("%char :: join [","%char] args2 ++ ")"%char :: s3).
      { apply (sb_fun f (gap ++ "("%char :: join [","%char] args ++ ")"%char :: s)); [|exact S']. apply sb_blanks; [exact G|]. apply sb_char; [reflexivity|].
        apply sb_app; [apply edge_cons; reflexivity|apply sb_join; exact F2|]. apply sb_char; [reflexivity|exact S3]. }
      subst t. assert (A2 : forall a c, In a args2 -> In c ["("; ")"; ","]%char -> ~ In c a).
      { clear - F2 A SG LV. induction F2 as [|a a' l l' H F IH]; intros x c I IC; [destruct I|]. inversion A as [|? ? A1 A3]; subst.
        destruct I as [<-|I]; [|apply (IH A3 x c I IC)]. intros J. destruct (sb_chars f a a' c H J) as [D|(w & D1 & D2)]; [exact (argument_free a c A1 IC D)|].
        destruct (bound_cases ps vals w LV) as [[_ IV]|[_ EQ]].
        - rewrite Forall_forall in SG. destruct (SG _ IV) as (_ & _ & FR). exact (FR c IC D2).
        - rewrite EQ in D2. apply (argument_free a c A1 IC). apply (name_chars w a c D1 D2). }
      destruct (complete_word m w _ v2 W (edge_call gap _ G) C) as [(K & _)|[(b' & v' & x & O' & _)|(qs' & b' & ws' & gap' & args' & vs2 & v' & s' & x & EQ & E' & O' & KN' & FD' & G' & L' & A' & V' & SN' & WO' & HS' & H' & ->)]].
      + exfalso. apply K. right. exact KN.
      + congruence.
      + assert (Q : (qs', b') = (qs, b)) by congruence. injection Q as -> ->.
        assert (LA : length args2 = length args') by (rewrite (Forall2_len _ _ _ F2); congruence).
        destruct (call_unique gap gap' args2 args' s3 s' G G' LA A2 (args_free args' A') EQ) as [<- <-].
        rewrite (words_cut b ws ws' WO WO') in HS'.
        assert (MA : forall a0, In a0 args -> forall z, name_in z (strip a0) -> name_in z t0).
        { intros a0 I z J. apply name_in_call; [exact W|exact G|]. right. left. apply (name_in_join z a0); [exact I|apply name_in_strip; exact J]. }
        assert (R : Forall2 (sb f) vs vs2).
        { apply (IHV) with (l2 := map strip args2).
          - intros a I. apply in_map_iff in I. destruct I as (a0 & <- & I). split; [apply (hygienic_part t0); [apply MA; exact I|exact HY]|left; exact SG].
          - clear - F2 SG LV. induction F2 as [|a a' l l' H F IH]; [constructor|]. cbn [map]. constructor; [|exact IH].
            apply sb_strip; [exact H|]. intros w I. apply single_image; [exact SG|apply (name_word w a I)].
          - exact V'. }
        assert (LQ : length vs = length qs) by (rewrite (completes_length m _ _ V), map_length; exact L).
        assert (LQ2 : length vs2 = length qs) by (rewrite (Forall2_len _ _ _ R); exact LQ).
        pose proof (proj2 (complete_inert m) _ _ V) as IN.
        assert (NC : forall y, name_in y b -> ~ In y qs -> ~ In y ps).
        { intros y I1 I2 I3. apply (proj1 (HY y I3)). apply (us_function m t0 w qs b); assumption. }
        apply sb_app; [exact (complete_edge m s o E H)| |].
        * apply (IHS) with (s2 := subst (bound qs vs2) ws); [|left; exact SG| |exact HS'].
          -- intros p I. split.
             ++ intros U. apply (proj1 (HY p I)). apply (replaced_uses m DF t0 w qs b ws vs p LQ WO IN FD IW U).
             ++ intros J. destruct (replaced_names qs b ws vs p LQ WO J) as [[J1 J2]|(y & IY & J1)]; [exfalso; exact (NC p J1 J2 I)|].
                rewrite Forall_forall in IN. apply (IN y IY p J1).
          -- apply (sb_two (bound qs vs) (bound qs vs2) f b); [apply sb_subst; exact WO|apply sb_subst; exact WO|]. intros y I.
             destruct (bound_cases qs vs y LQ) as [[I1 _]|[I1 EQ1]]; [apply (bound_rel (sb f) qs vs vs2 y R LQ I1)|].
             destruct (bound_cases qs vs2 y LQ2) as [[I2 _]|[_ EQ2]]; [contradiction|]. rewrite EQ1, EQ2.
             apply sb_id. intros z J. rewrite (name_in_self z y (name_word y b I) J).
             destruct (bound_cases ps vals y LV) as [[I3 _]|[_ EQ3]]; [exfalso; exact (NC y I I1 I3)|exact EQ3].
        * assert (M : forall z, name_in z s -> name_in z t0) by (intros z I; apply name_in_call; auto).
          apply (IH (hygienic_part _ _ M HY) (callable_part _ _ M CA) s3 x S3 H').
    - intros _ l2 vs2 F C. inversion F; subst. inversion C; subst. constructor.
    - intros a v l vs _ IHA _ IHL HY l2 vs2 F C. inversion F as [|a0 a2 l0 l3 FA FL]; subst. inversion C as [|a1 v2 l1 vs3 CA CL]; subst. constructor.
      + destruct (HY a (or_introl eq_refl)) as [H1 H2]. apply (IHA H1 H2 a2 v2 FA CA).
      + apply (IHL (fun x I => HY x (or_intror I)) l3 vs3 FL CL).
  Qed.
End Commute.
