(** Proofs about several headers. *)
From Coq Require Import Ascii String Bool Arith ZArith Lia List.
Import ListNotations.
From Verif Require Import PyBase PyBaseFacts PyStr PyStrFacts PyExpr MacroModel MacroSpec TypeModel StoreModel DeclModel EvalModel.
From Verif Require GramModel GramSpec RunSpec.
From Verif Require Import PpModel PpSpec TextSpec ExprSpec FileModel FileSpec FileWhole FilesSpec.

Section Files.
  Context (fo : str -> list str -> option str) (ext : str -> bool) (ev : dict str pobj -> str -> res pobj) (base mods : list str).
  Lemma process_program fs : GramSpec.good_config base mods ->
    forall p m, NoDup (map f_path fs) ->
    (forall f, In f fs -> dget (p_files p) (f_path f) = Some (Some (f_text f))) ->
    macro_tables (p_store p) -> stands_for (macros_of (p_store p)) m -> program base mods m fs ->
    exists p', process_files fo ext ev base mods p (map f_path fs) = Some (Ok p') /\ read_all ev base mods (p_store p) fs (p_store p')
      /\ p_order p' = p_order p.
  Proof.
    intros GC. induction fs as [|f fs IH]; intros p m ND FI MT ST PR; [exists p; repeat split; reflexivity|].
    destruct PR as (TR & HD & HL & PR). inversion ND as [|? ? NI ND']; subst. cbn [map process_files].
    rewrite (FI f (or_introl eq_refl)).
    destruct (process_header fo ext ev base mods (fun _ _ => True) (fun _ _ => Logic.I) (p_store p) m (f_path f) (f_text f) (f_out f) (f_macros f) (f_decls f) GC MT ST TR HD HL)
      as (s1 & s2 & text' & E & SD & ST1 & M1 & _ & PF & MO & M2).
    rewrite E.
    destruct (IH {| p_files := dset (p_files p) (f_path f) (Some text'); p_order := p_order p; p_store := s2 |} (f_macros f)) as (p' & E' & RA & PO).
    - exact ND'.
    - intros g I1. cbn [p_files]. rewrite dget_dset. destruct (eqb_spec (f_path g) (f_path f)) as [X|X]; [|apply FI; right; exact I1].
      exfalso. apply NI. rewrite <- X. apply in_map. exact I1.
    - exact M2.
    - cbn [p_store]. rewrite MO. exact ST1.
    - exact PR.
    - exists p'. split; [exact E'|]. split; [|exact PO]. exists s1, s2. auto.
  Qed.

  Context (sub : str -> str -> str -> str) (contents find : str -> option str) (rs : list (str * str)).
  Notation isfile := (fun h => match contents h with Some _ => true | None => false end).
  Lemma find_all headers paths : Forall2 (resolves contents find) headers paths -> find_headers isfile find headers = Ok paths.
  Proof.
    induction 1 as [|h x hs xs R F IH]; [reflexivity|]. cbn [find_headers]. unfold resolves in R. destruct (contents h).
    - subst x. cbn [bind]. rewrite IH. reflexivity.
    - rewrite R. cbn [bind]. rewrite IH. reflexivity.
  Qed.
  Lemma find_none headers h : In h headers -> contents h = None -> find h = None -> find_headers isfile find headers = Err OSError.
  Proof.
    intros I1 C F. induction headers as [|x hs IH]; [destruct I1|]. cbn [find_headers]. destruct I1 as [->|I1]; [rewrite C, F; reflexivity|].
    destruct (contents x); [|destruct (find x); [|reflexivity]]; cbn [bind]; rewrite IH by exact I1; reflexivity.
  Qed.
  Lemma replace_in_turn l : forall t, replace_all sub l t = fold_left (fun t r => sub (fst r) (snd r) t) l t.
  Proof. induction l as [|[a b] l IH]; intros t; [reflexivity|]. cbn [replace_all fold_left fst snd]. apply IH. Qed.
  Lemma load_all l : forall p, (forall x, In x l -> contents x <> None) ->
    let p' := fold_left (load_file sub contents rs) l p in
    p_order p' = p_order p ++ l /\ p_store p' = p_store p
    /\ (forall x, In x l -> dget (p_files p') x = match contents x with Some t => Some (Some (fold_left (fun t r => sub (fst r) (snd r) t) rs t)) | None => None end)
    /\ (forall x, ~ In x l -> dget (p_files p') x = dget (p_files p) x).
  Proof.
    induction l as [|x l IH]; intros p H; cbn [fold_left]; [rewrite app_nil_r; repeat split; intros x []|].
    destruct (contents x) as [t|] eqn:C; [|destruct (H x (or_introl eq_refl) C)].
    destruct (IH (load_file sub contents rs p x)) as (H1 & H2 & H3 & H4); [intros y I1; apply H; right; exact I1|].
    assert (L : load_file sub contents rs p x = {| p_files := dset (p_files p) x (Some (fold_left (fun t r => sub (fst r) (snd r) t) rs t)); p_order := p_order p ++ [x]; p_store := p_store p |})
      by (unfold load_file; rewrite C, replace_in_turn; reflexivity).
    rewrite L in *. cbn [p_order p_store p_files] in H1, H2, H4.
    split; [rewrite H1, <- app_assoc; reflexivity|]. split; [exact H2|]. split.
    - intros y I1. destruct (in_dec (list_eq_dec ascii_dec) y l) as [I2|I2]; [apply H3; exact I2|].
      rewrite H4 by exact I2. destruct I1 as [<-|I1]; [|contradiction]. rewrite C, dget_dset, eqb_refl. reflexivity.
    - intros y N. rewrite H4 by (intros I1; apply N; right; exact I1). rewrite dget_dset.
      destruct (eqb_spec y x) as [->|_]; [destruct N; left; reflexivity|reflexivity].
  Qed.
  Lemma read_program headers s m fs : GramSpec.good_config base mods ->
    macro_tables s -> stands_for (macros_of s) m ->
    Forall2 (resolves contents find) headers (map f_path fs) -> Forall (on_disk sub contents rs) fs -> NoDup (map f_path fs) ->
    program base mods m fs ->
    exists p, parse_headers fo ext ev base mods sub contents find rs headers s = Some (Ok p)
      /\ p_order p = map f_path fs /\ read_all ev base mods s fs (p_store p).
  Proof.
    intros GC MT ST RE OD ND PR. unfold parse_headers. rewrite (find_all _ _ RE). rewrite Forall_forall in OD.
    destruct (load_all (map f_path fs) (new_parser s)) as (H1 & H2 & H3 & _).
    { intros x I1. apply in_map_iff in I1. destruct I1 as (f & <- & I1). destruct (OD f I1) as (raw & C & _). congruence. }
    set (p0 := fold_left (load_file sub contents rs) (map f_path fs) (new_parser s)) in *.
    destruct (process_program fs GC p0 m) as (p & E & RA & PO).
    - exact ND.
    - intros f I1. rewrite H3 by (apply in_map; exact I1). destruct (OD f I1) as (raw & C & ->). rewrite C. reflexivity.
    - rewrite H2. exact MT.
    - rewrite H2. exact ST.
    - exact PR.
    - exists p. unfold process_all. rewrite H1. split; [exact E|]. split; [rewrite PO, H1; reflexivity|]. rewrite H2 in RA. exact RA.
  Qed.
  Lemma read_missing headers h s : In h headers -> contents h = None -> find h = None ->
    parse_headers fo ext ev base mods sub contents find rs headers s = Some (Err OSError).
  Proof. intros I1 C F. unfold parse_headers. rewrite (find_none headers h I1 C F). reflexivity. Qed.
End Files.

(** ** Guards *)
Lemma guarded_file fo ext ev base mods s m path x text : GramSpec.good_config base mods ->
  macro_tables s -> stands_for (macros_of s) m -> guarded x text -> known_to m x ->
  exists text', process_file fo ext ev base mods s path text = Some (Ok (set_cur s (Some path), text')).
Proof.
  intros GC MT ST (ps & segs & b1 & l & body & e & b2 & E & R & W & NE & F & SL & G1 & G2 & I1 & OP & T & WF & DE) K.
  exact (skipped_file fo ext ev base mods s m path text ps segs b1 l body e b2 E R W NE F SL G1 G2 MT ST OP (de_yes m x false l I1 T K) WF DE GC).
Qed.

(** ** Search *)
Lemma contains_occurs x s : contains x s = true <-> occurs x s.
Proof.
  induction s as [|c s IH]; cbn [contains].
  - rewrite orb_false_r. split.
    + destruct x; [|discriminate]. intros _. exists [], []. reflexivity.
    + intros (a & b & E). destruct a; [|discriminate]. destruct x; [reflexivity|discriminate].
  - split.
    + intros H. apply orb_true_iff in H. destruct H as [H|H].
      * apply starts_with_iff in H. destruct H as (r & ->). exists [], r. reflexivity.
      * apply IH in H. destruct H as (a & b & ->). exists (c :: a), b. reflexivity.
    + intros (a & b & E). apply orb_true_iff. destruct a as [|d a].
      * left. apply starts_with_iff. exists b. exact E.
      * right. injection E as -> ->. apply IH. exists a, b. reflexivity.
Qed.
Lemma number_nth {A} (l : list A) : forall i k x, In (k, x) (number_lines i l) <-> exists j, k = i + j /\ nth_error l j = Some x.
Proof.
  induction l as [|y l IH]; intros i k x; cbn [number_lines In].
  - split; [intros []|]. intros (j & _ & E). destruct j; discriminate.
  - split.
    + intros [E|H]; [injection E as <- <-; exists 0; split; [lia|reflexivity]|]. apply IH in H. destruct H as (j & -> & E). exists (S j). split; [lia|exact E].
    + intros (j & -> & E). destruct j as [|j]; [left; injection E as ->; f_equal; lia|]. right. apply IH. exists j. split; [lia|exact E].
Qed.
Lemma find_text_found files x : NoDup (keys files) -> forall res, find_text files x = Ok res ->
  (forall f i l, In (f, i, l) res <-> exists t, dget files f = Some (Some t) /\ line_of t i l /\ occurs x l) /\ NoDup res.
Proof.
  induction files as [|[g [t|]] files IH]; cbn [find_text]; intros ND res E.
  - injection E as <-. split; [|constructor]. intros f i l. split; [intros []|]. intros (t & D & _). discriminate D.
  - inversion ND as [|? ? NI ND']; subst. destruct (find_text files x) as [r|e]; [|discriminate E]. cbn [bind] in E. injection E as <-.
    destruct (IH ND' r eq_refl) as [H1 H2].
    assert (A : forall f i l, In (f, i, l) (map (fun p => (g, fst p, snd p)) (filter (fun p => contains x (snd p)) (number_lines 0 (split_on nl t))))
                <-> f = g /\ line_of t i l /\ occurs x l).
    { intros f i l. rewrite in_map_iff. split.
      - intros ([k y] & E & I1). apply filter_In in I1. destruct I1 as [I1 C]. cbn [fst snd] in E, C. injection E as <- <- <-.
        apply number_nth in I1. destruct I1 as (j & -> & N). split; [reflexivity|]. split; [exact N|]. apply contains_occurs. exact C.
      - intros (-> & N & C). exists (i, l). split; [reflexivity|]. apply filter_In. split; [|apply contains_occurs; exact C].
        apply number_nth. exists i. split; [reflexivity|exact N]. }
    split.
    + intros f i l. rewrite in_app_iff, A, H1. cbn [dget]. destruct (eqb_spec f g) as [->|N].
      * split.
        -- intros [(_ & N & C)|(t' & D & _)]; [exists t; auto|]. exfalso. apply NI. apply dget_In in D. apply in_map_iff. exists (g, Some t'). auto.
        -- intros (t' & D & N & C). injection D as <-. left. auto.
      * split; [intros [(? & _)|H]; [contradiction|exact H]|]. intros H. right. exact H.
    + assert (NN : forall l : list (nat * str), NoDup l -> NoDup (map (fun p => (g, fst p, snd p)) l)).
      { intros l. induction 1 as [|[a b] l' N1 N2 IH2]; cbn [map]; constructor; [|exact IH2].
        intros I1. apply in_map_iff in I1. destruct I1 as ([a' b'] & E & I1). cbn in E. injection E as <- <-. contradiction. }
      assert (NL : forall (l : list str) i, NoDup (number_lines i l)).
      { induction l as [|y l IHl]; intros i; cbn [number_lines]; constructor; [|apply IHl]. intros I1. apply number_nth in I1. destruct I1 as (j & E & _). lia. }
      assert (AP : forall a b : list (str * nat * str), NoDup a -> NoDup b -> (forall y, In y a -> ~ In y b) -> NoDup (a ++ b)).
      { induction 1 as [|y a N1 N2 IHa]; intros B D; [exact B|]. cbn [app]. constructor.
        - intros I1. apply in_app_iff in I1. destruct I1 as [I1|I1]; [contradiction|]. exact (D y (or_introl eq_refl) I1).
        - apply IHa; [exact B|]. intros z I1. apply D. right. exact I1. }
      apply AP; [apply NN, NoDup_filter, NL|exact H2|]. intros [[f i] l] I1 I2. apply A in I1. destruct I1 as (-> & _). apply H1 in I2.
      destruct I2 as (t' & D & _). apply NI. apply dget_In in D. apply in_map_iff. exists (g, Some t'). auto.
  - discriminate E.
Qed.
Lemma find_text_total files x : (forall f, dget files f <> Some None) -> NoDup (keys files) -> exists res, find_text files x = Ok res.
Proof.
  induction files as [|[g o] files IH]; intros H ND; cbn [find_text]; [eexists; reflexivity|]. inversion ND as [|? ? NI ND']; subst.
  destruct o as [t|]; [|exfalso; apply (H g); cbn [dget]; rewrite eqb_refl; reflexivity].
  destruct IH as (r & ->); [|exact ND'|eexists; reflexivity]. intros f D. apply (H f). cbn [dget]. destruct (eqb_spec f g) as [->|N]; [|exact D].
  exfalso. apply NI. apply dget_In in D. apply in_map_iff. exists (g, None). auto.
Qed.
Lemma find_text_missing files x f : dget files f = Some None -> find_text files x = Err AttributeError.
Proof.
  induction files as [|[g o] files IH]; cbn [dget find_text]; [discriminate|]. destruct (eqb_spec f g) as [->|N].
  - intros E. injection E as ->. reflexivity.
  - intros D. destruct o as [t|]; [|reflexivity]. rewrite IH by exact D. reflexivity.
Qed.
Lemma text_found files x res : NoDup (keys files) -> find_text files x = Ok res ->
  (forall f i l, In (f, i, l) res <-> exists t, dget files f = Some (Some t) /\ line_of t i l /\ occurs x l) /\ NoDup res.
Proof. intros ND. exact (find_text_found files x ND res). Qed.
Lemma text_raises files x : NoDup (keys files) ->
  ((exists res, find_text files x = Ok res) <-> forall f, dget files f <> Some None)
  /\ forall e, find_text files x = Err e -> e = AttributeError.
Proof.
  intros ND. split; [split|].
  - intros (res & E) f D. rewrite (find_text_missing files x f D) in E. discriminate E.
  - intros H. apply find_text_total; assumption.
  - clear ND. induction files as [|[g [t|]] files IH]; cbn [find_text]; intros e E; [discriminate E| |injection E as <-; reflexivity].
    destruct (find_text files x) as [r|e']; [discriminate E|]. apply IH. exact E.
Qed.
