(** Proofs for C98. *)
From Coq Require Import Ascii String Bool Arith ZArith Lia List.
Import ListNotations.
From Verif Require Import PyBase PyBaseFacts PyStr PyStrFacts PyExpr TypeModel InitModel StoreModel StoreSpec DeclModel UtilModel CtModel LinkModel LinkSpec.
From Verif Require Import LibModel InvokeModel InvokeSpec MultiModel MultiSpec.
From Verif Require LibSpec LibProofs CtSpec ObjModel ObjSpec ObjProofs InvokeProofs.

(** ** Lists *)
Lemma replace_length {A} (l : list A) i x : length (replace l i x) = length l.
Proof. revert i. induction l as [|y l IH]; intros [|i]; cbn; auto. Qed.
Lemma replace_same {A} (l : list A) i x : i < length l -> nth_error (replace l i x) i = Some x.
Proof. revert i. induction l as [|y l IH]; intros [|i]; cbn; intros L; try lia; [reflexivity|]. apply IH. lia. Qed.
Lemma replace_other {A} (l : list A) i j x : i <> j -> nth_error (replace l i x) j = nth_error l j.
Proof. revert i j. induction l as [|y l IH]; intros [|i] [|j] N; cbn; auto; try lia. Qed.
Lemma map_replace {A B} (f : A -> B) (l : list A) i x y : nth_error l i = Some y -> f x = f y -> map f (replace l i x) = map f l.
Proof.
  revert i. induction l as [|z l IH]; intros [|i] N E; cbn in *; try discriminate.
  - injection N as ->. rewrite E. reflexivity.
  - rewrite (IH i N E). reflexivity.
Qed.
Lemma split_snoc {A} (l b1 b2 : list A) (x y : A) : l ++ [x] = b1 ++ y :: b2 ->
  (b2 = [] /\ l = b1 /\ x = y) \/ (exists b2', b2 = b2' ++ [x] /\ l = b1 ++ y :: b2').
Proof.
  intros E. destruct b2 as [|z b2] using rev_ind.
  - left. apply app_inj_tail in E. destruct E as (-> & ->). auto.
  - right. clear IHb2. exists b2. change (b1 ++ y :: b2 ++ [z]) with (b1 ++ (y :: b2) ++ [z]) in E. rewrite app_assoc in E.
    apply app_inj_tail in E. destruct E as (-> & ->). auto.
Qed.
Lemma nth_app_some {A} (l r : list A) i x : nth_error l i = Some x -> nth_error (l ++ r) i = Some x.
Proof. intros N. rewrite nth_error_app1; [exact N|]. apply nth_error_Some. congruence. Qed.

Section Multi.
  Context (W : setting).
  Notation opens := (opens W).
  Notation run := (run W).
  Notation step := (step W).

  (** ** The path of a call *)
  Lemma found_designates s p : found_path W s = Ok p <-> LibSpec.designates (w_env W) (ByName s) p.
  Proof.
    unfold found_path. destruct (existsb (Ascii.eqb sep) s) eqn:S; cbn [negb].
    - apply LibProofs.sep_In in S. destruct (fs_isfile (e_fs (w_env W)) (e_real (w_env W) s)) eqn:F; split; intros H.
      + injection H as <-. apply LibSpec.DesPath; assumption.
      + inversion H; subst; [contradiction|reflexivity].
      + discriminate H.
      + inversion H; subst; [contradiction|congruence].
    - assert (NI : ~ In "/"%char s) by (intros I; apply LibProofs.sep_In in I; congruence). split; intros H.
      + apply LibSpec.DesName; assumption.
      + inversion H; subst; [assumption|contradiction].
  Qed.
  Lemma key_Ok a p : lib_key W a = Ok p <-> opens a p.
  Proof.
    unfold lib_key, MultiSpec.opens. destruct (a_lib a) as [s|n|] eqn:A.
    - destruct (eqb_spec (a_backend a) $"ctypes") as [B|B].
      + rewrite LibProofs.lib_path_Ok. cbn [LibSpec.checked]. tauto.
      + split; [destruct (found_path W s); discriminate|]. intros (_ & H). exfalso. apply B. apply H. exact Logic.I.
    - rewrite LibProofs.lib_path_Ok. cbn [LibSpec.checked]. tauto.
    - rewrite LibProofs.lib_path_Ok. cbn [LibSpec.checked]. tauto.
  Qed.
  Lemma opens_det a p q : opens a p -> opens a q -> p = q.
  Proof. intros (A & _) (B & _). exact (LibProofs.designates_det _ _ _ _ A B). Qed.
  Lemma refused_key a x : refused W a x -> lib_key W a = Err x.
  Proof.
    intros R. destruct R as [A|s p A D B|s p A D B F|s A I F|s x A NI F|n x A NF F]; unfold lib_key; rewrite A.
    - reflexivity.
    - destruct (eqb_spec (a_backend a) $"ctypes") as [B'|_]; [contradiction|]. rewrite (proj2 (found_designates s p) D). reflexivity.
    - rewrite B, eqb_refl. apply (LibProofs.lib_path_unfit _ s p D F).
    - apply LibProofs.sep_In in I. destruct (eqb (a_backend a) $"ctypes").
      + cbn [lib_path]. rewrite I. cbn [negb]. rewrite F. reflexivity.
      + unfold found_path. rewrite I. cbn [negb]. rewrite F. reflexivity.
    - assert (S : existsb (Ascii.eqb sep) s = false) by (apply not_true_iff_false; rewrite LibProofs.sep_In; exact NI).
      destruct (eqb (a_backend a) $"ctypes").
      + cbn [lib_path]. rewrite S. cbn [negb]. rewrite F. reflexivity.
      + unfold found_path. rewrite S. cbn [negb]. rewrite F. reflexivity.
    - cbn [lib_path]. rewrite NF, F. reflexivity.
  Qed.

  (** ** One event *)
  Lemma run_snoc fuel evs ev : run fuel (evs ++ [ev]) = snd (step fuel ev (run fuel evs)).
  Proof. unfold MultiModel.run. rewrite fold_left_app. reflexivity. Qed.
  (** What a call does, with the cases of c_library.py told apart. *)
  Definition added (st : world) (s : store entry) : list wparser :=
    w_parsers st ++ [{| p_tables := s; p_lists := l_heap (load (w_conf W) (w_table W) (on_windows W) s) |}].
  Definition fresh_lib (q : nat) (p : str) (prefix : list str) : wlib :=
    {| m_parser := q; m_path := p; m_prefix := prefix; m_objs := fun _ => []; m_all := []; m_structs := []; m_classes := [] |}.
  Inductive opened_by (a : cargs) (st : world) : res nat -> world -> Prop :=
  | ob_refused x : lib_key W a = Err x -> opened_by a st (Err x) st
  | ob_again p o : opens a p -> dget (w_open st) p = Some o -> opened_by a st (Ok o) st
  | ob_no_headers p : opens a p -> dget (w_open st) p = None -> a_headers a = HOther -> opened_by a st (Err ValueError) st
  | ob_no_parser p q : opens a p -> dget (w_open st) p = None -> a_headers a = HParser q -> length (w_parsers st) <= q ->
      opened_by a st (Err OtherError) st
  | ob_unread p l x : opens a p -> dget (w_open st) p = None -> a_headers a = HList l -> w_parse W (a_kwargs a) l = Err x ->
      opened_by a st (Err x) st
  | ob_unlinked p l s x : opens a p -> dget (w_open st) p = None -> a_headers a = HList l -> w_parse W (a_kwargs a) l = Ok s ->
      link W a p = Err x -> opened_by a st (Err x) {| w_parsers := added st s; w_libs := w_libs st; w_open := w_open st |}
  | ob_unlinked2 p q x : opens a p -> dget (w_open st) p = None -> a_headers a = HParser q -> q < length (w_parsers st) ->
      link W a p = Err x -> opened_by a st (Err x) st
  | ob_list p l s u : opens a p -> dget (w_open st) p = None -> a_headers a = HList l -> w_parse W (a_kwargs a) l = Ok s ->
      link W a p = Ok u -> opened_by a st (Ok (length (w_libs st)))
        {| w_parsers := added st s; w_libs := w_libs st ++ [fresh_lib (length (w_parsers st)) p (wanted_prefixes a)];
           w_open := dset (w_open st) p (length (w_libs st)) |}
  | ob_parser p q u : opens a p -> dget (w_open st) p = None -> a_headers a = HParser q -> q < length (w_parsers st) ->
      link W a p = Ok u -> opened_by a st (Ok (length (w_libs st)))
        {| w_parsers := w_parsers st; w_libs := w_libs st ++ [fresh_lib q p (wanted_prefixes a)];
           w_open := dset (w_open st) p (length (w_libs st)) |}.
  Lemma open_cases a st : opened_by a st (fst (open_library W a st)) (snd (open_library W a st)).
  Proof.
    unfold open_library. destruct (lib_key W a) as [p|x] eqn:K; [|apply ob_refused; exact K]. apply key_Ok in K.
    destruct (dget (w_open st) p) as [o|] eqn:G; [apply (ob_again _ _ p); assumption|].
    unfold construct, take_headers. destruct (a_headers a) as [l|q|] eqn:H.
    - unfold MultiModel.new_parser. destruct (w_parse W (a_kwargs a) l) as [s|x] eqn:P; [|cbn; apply (ob_unread _ _ p l); assumption].
      destruct (link W a p) as [u|x] eqn:L; cbn [fst snd].
      + apply (ob_list a st p l s u); assumption.
      + apply (ob_unlinked a st p l s); assumption.
    - destruct (Nat.ltb_spec q (length (w_parsers st))) as [Lq|Lq].
      + destruct (link W a p) as [u|x] eqn:L; cbn [fst snd].
        * apply (ob_parser a st p q u); assumption.
        * apply (ob_unlinked2 a st p q); assumption.
      + apply (ob_no_parser a st p q); assumption.
    - apply (ob_no_headers a st p); assumption.
  Qed.
  Lemma step_open fuel a st : step fuel (Open a) st = (SLib (fst (open_library W a st)), snd (open_library W a st)).
  Proof. cbn [MultiModel.step]. destruct (open_library W a st) as [r st1]. reflexivity. Qed.

  (** ** What stays *)
  Definition static (m : wlib) : nat * str * list str := (m_parser m, m_path m, m_prefix m).
  Definition extends (st st' : world) : Prop :=
    (exists l, parsers_of st' = parsers_of st ++ l) /\ (exists l, map static (w_libs st') = map static (w_libs st) ++ l).
  Lemma extends_refl st : extends st st.
  Proof. split; exists []; rewrite app_nil_r; reflexivity. Qed.
  Lemma extends_trans a b c : extends a b -> extends b c -> extends a c.
  Proof.
    intros ((l1 & A1) & (l2 & A2)) ((r1 & B1) & (r2 & B2)).
    split; [exists (l1 ++ r1); rewrite B1, A1, app_assoc|exists (l2 ++ r2); rewrite B2, A2, app_assoc]; reflexivity.
  Qed.
  Lemma used_cases fuel o u st :
    (use_library W fuel o u st = (None, st) /\ (nth_error (w_libs st) o = None \/
        exists m, nth_error (w_libs st) o = Some m /\ nth_error (w_parsers st) (m_parser m) = None))
    \/ exists m p, nth_error (w_libs st) o = Some m /\ nth_error (w_parsers st) (m_parser m) = Some p
       /\ let b := as_clib W m p in let s' := do_use b fuel (w_takes W o) u (as_state m p) in
          use_library W fuel o u st = (Some (answer_of b fuel (w_takes W o) u (as_state m p)),
             {| w_parsers := replace (w_parsers st) (m_parser m) {| p_tables := p_tables p; p_lists := CtModel.st_heap (ObjModel.q_ct s') |};
                w_libs := replace (w_libs st) o (lib_with m s'); w_open := w_open st |}).
  Proof.
    unfold use_library. destruct (nth_error (w_libs st) o) as [m|] eqn:M; [|left; auto].
    destruct (nth_error (w_parsers st) (m_parser m)) as [p|] eqn:P; [|left; split; [reflexivity|]; right; exists m; auto].
    right. exists m, p. auto.
  Qed.
  Lemma step_extends fuel ev st : extends st (snd (step fuel ev st)).
  Proof.
    destruct ev as [kw l|a|o u|o].
    - cbn [MultiModel.step]. unfold MultiModel.new_parser. destruct (w_parse W kw l) as [s|x]; [|apply extends_refl]. cbn [snd].
      split; cbn; [exists [s]; unfold parsers_of; cbn; apply map_app|exists []; rewrite app_nil_r; reflexivity].
    - rewrite step_open. cbn [snd]. destruct (open_cases a st) as
        [x K|p o O G|p O G H|p q O G H L|p l x O G H P|p l s x O G H P L|p q x O G H Lq L|p l s u O G H P L|p q u O G H Lq L]; try apply extends_refl.
      + split; cbn; [exists [s]; unfold parsers_of, added; cbn; apply map_app|exists []; rewrite app_nil_r; reflexivity].
      + split; cbn; [exists [s]; unfold parsers_of, added; cbn; apply map_app|]. eexists. apply map_app.
      + split; cbn; [exists []; rewrite app_nil_r; reflexivity|]. eexists. apply map_app.
    - cbn [MultiModel.step]. destruct (used_cases fuel o u st) as [(-> & _)|(m & p & M & P & E)]; [apply extends_refl|].
      cbv zeta in E. rewrite E. cbn [snd]. split; exists []; rewrite app_nil_r.
      + unfold parsers_of. cbn [w_parsers]. apply (map_replace p_tables _ _ _ p); [exact P|reflexivity].
      + cbn [w_libs]. apply (map_replace static _ _ _ m); [exact M|reflexivity].
    - split; exists []; rewrite app_nil_r; reflexivity.
  Qed.
  Lemma run_extends fuel b1 b2 : extends (run fuel b1) (run fuel (b1 ++ b2)).
  Proof.
    induction b2 as [|ev b2 IH] using rev_ind; [rewrite app_nil_r; apply extends_refl|].
    rewrite app_assoc, run_snoc. eapply extends_trans; [exact IH|apply step_extends].
  Qed.
  Lemma extends_static st st' o m : extends st st' -> nth_error (w_libs st) o = Some m ->
    exists m', nth_error (w_libs st') o = Some m' /\ static m' = static m.
  Proof.
    intros (_ & (l & E)) N. assert (X : nth_error (map static (w_libs st')) o = Some (static m)).
    { rewrite E. apply nth_app_some. apply map_nth_error. exact N. }
    rewrite nth_error_map in X. destruct (nth_error (w_libs st') o) as [m'|]; [|discriminate X]. injection X as X. exists m'. unfold static. split; congruence.
  Qed.
  Lemma extends_length st st' : extends st st' -> length (w_libs st) <= length (w_libs st').
  Proof. intros (_ & (l & E)). apply (f_equal (@length _)) in E. rewrite app_length, !map_length in E. lia. Qed.
  Lemma extends_tables st st' q s : extends st st' -> nth_error (parsers_of st) q = Some s -> nth_error (parsers_of st') q = Some s.
  Proof. intros ((l & ->) & _) N. apply nth_app_some. exact N. Qed.

  (** ** Which objects are in the dictionary *)
  Lemma open_step fuel ev st p o : NoDup (keys (w_open st)) ->
    dget (w_open (snd (step fuel ev st))) p = Some o <->
    (exists c, ev = Open c /\ opens c p /\ fst (step fuel ev st) = SLib (Ok o)) \/ (dget (w_open st) p = Some o /\ ev <> Drop o).
  Proof.
    intros ND. destruct ev as [kw l|a|o1 u|o1].
    - assert (E : w_open (snd (step fuel (NewParser kw l) st)) = w_open st).
      { cbn [MultiModel.step]. unfold MultiModel.new_parser. destruct (w_parse W kw l); reflexivity. }
      rewrite E. split; [intros G; right; split; [exact G|discriminate]|]. intros [(c & X & _)|(G & _)]; [discriminate X|exact G].
    - rewrite step_open. cbn [fst snd].
      assert (NL : forall x, fst (open_library W a st) = Err x -> w_open (snd (open_library W a st)) = w_open st).
      { intros x. destruct (open_cases a st); cbn [w_open]; try discriminate; reflexivity. }
      destruct (open_library W a st) as [r st1] eqn:E. cbn [fst snd] in *. destruct r as [o1|x].
      + pose proof (open_cases a st) as C. rewrite E in C. cbn [fst snd] in C.
        assert (X : exists q, opens a q /\ ((st1 = st /\ dget (w_open st) q = Some o1) \/ (dget (w_open st) q = None /\ w_open st1 = dset (w_open st) q o1))).
        { inversion C; subst; exists p0; split; auto. }
        destruct X as (q & O & X). split.
        * intros G. destruct X as [(-> & G1)|(G1 & E1)].
          -- right. split; [exact G|discriminate].
          -- rewrite E1, dget_dset in G. destruct (eqb_spec p q) as [->|N].
             ++ injection G as <-. left. exists a. auto.
             ++ right. split; [exact G|discriminate].
        * intros [(c & EQ & OC & R)|(G & _)].
          -- injection EQ as <-. injection R as <-. assert (p = q) as -> by (eapply opens_det; eassumption).
             destruct X as [(-> & G1)|(G1 & E1)]; [exact G1|]. rewrite E1. apply dget_dset_same.
          -- destruct X as [(-> & G1)|(G1 & E1)]; [exact G|]. rewrite E1, dget_dset. destruct (eqb_spec p q) as [->|N]; [congruence|exact G].
      + rewrite (NL x eq_refl). split; [intros G; right; split; [exact G|discriminate]|].
        intros [(c & EQ & _ & R)|(G & _)]; [discriminate R|exact G].
    - assert (E : w_open (snd (step fuel (Use o1 u) st)) = w_open st).
      { cbn [MultiModel.step]. destruct (used_cases fuel o1 u st) as [(-> & _)|(m & q & _ & _ & E)]; [reflexivity|]. cbv zeta in E. rewrite E. reflexivity. }
      rewrite E. split; [intros G; right; split; [exact G|discriminate]|]. intros [(c & X & _)|(G & _)]; [discriminate X|exact G].
    - cbn [MultiModel.step snd fst w_open]. rewrite LibProofs.dget_filter by exact ND. cbn [snd]. split.
      + intros (G & N). right. split; [exact G|]. intros X. injection X as ->. rewrite Nat.eqb_refl in N. discriminate N.
      + intros [(c & X & _)|(G & N)]; [discriminate X|]. split; [exact G|]. destruct (Nat.eqb_spec o o1) as [->|]; [congruence|reflexivity].
  Qed.
  Lemma keys_step fuel ev st : NoDup (keys (w_open st)) -> NoDup (keys (w_open (snd (step fuel ev st)))).
  Proof.
    intros ND. destruct ev as [kw l|a|o1 u|o1].
    - cbn [MultiModel.step]. unfold MultiModel.new_parser. destruct (w_parse W kw l); exact ND.
    - rewrite step_open. cbn [snd]. destruct (open_cases a st); cbn [w_open]; try exact ND; apply NoDup_dset; exact ND.
    - cbn [MultiModel.step]. destruct (used_cases fuel o1 u st) as [(-> & _)|(m & q & _ & _ & E)]; [exact ND|]. cbv zeta in E. rewrite E. exact ND.
    - cbn [MultiModel.step snd w_open]. apply LibProofs.NoDup_filter_keys. exact ND.
  Qed.
  Lemma keys_run fuel evs : NoDup (keys (w_open (run fuel evs))).
  Proof. induction evs as [|ev evs IH] using rev_ind; [constructor|]. rewrite run_snoc. apply keys_step. exact IH. Qed.
  Lemma alive_open fuel evs p o : dget (w_open (run fuel evs)) p = Some o <-> alive W fuel evs p o.
  Proof.
    induction evs as [|ev evs IH] using rev_ind.
    - split; [discriminate|]. intros (b1 & c & b2 & E & _). destruct b1; discriminate E.
    - rewrite run_snoc, open_step by apply keys_run. rewrite IH. split.
      + intros [(c & -> & O & R)|((b1 & c & b2 & -> & O & R & N) & ND)].
        * exists evs, c, []. split; [reflexivity|]. split; [exact O|]. split; [exact R|]. intros [].
        * exists b1, c, (b2 ++ [ev]). split; [rewrite <- app_assoc; reflexivity|]. split; [exact O|]. split; [exact R|].
          intros I. apply in_app_or in I. destruct I as [I|[->|[]]]; auto.
      + intros (b1 & c & b2 & E & O & R & N). apply split_snoc in E. destruct E as [(-> & -> & ->)|(b2' & -> & ->)].
        * left. exists c. auto.
        * right. split; [|intros ->; apply N; apply in_or_app; right; left; reflexivity].
          exists b1, c, b2'. split; [reflexivity|]. split; [exact O|]. split; [exact R|]. intros I. apply N. apply in_or_app. left. exact I.
  Qed.

  (** ** New objects *)
  Lemma returned_lib fuel b1 c o b2 : returns W fuel b1 c o -> o < length (w_libs (run fuel (b1 ++ Open c :: b2))).
  Proof.
    intros R. assert (X : o < length (w_libs (run fuel (b1 ++ [Open c])))).
    { rewrite run_snoc. unfold returns in R. rewrite step_open in *. cbn [fst snd] in *. injection R as R.
      pose proof (open_cases c (run fuel b1)) as C. rewrite R in C. inversion C; subst; cbn [w_libs]; try (rewrite app_length; cbn; lia).
      match goal with H : dget _ _ = Some _ |- _ => apply alive_open in H; rename H into AL end.
      clear -AL. destruct AL as (b1' & c' & b2 & -> & O & R & _).
      assert (Y : forall n b', length b' = n -> forall c o b2, returns W fuel b' c o -> o < length (w_libs (run fuel (b' ++ Open c :: b2)))).
      2:{ apply (Y (length b1') b1' eq_refl c' o b2 R). }
      clear. induction n as [n IH] using lt_wf_ind. intros b' Ln c o b2 R.
      change (Open c :: b2) with ([Open c] ++ b2). rewrite app_assoc.
      eapply Nat.lt_le_trans; [|apply extends_length, run_extends].
      rewrite run_snoc. unfold returns in R. rewrite step_open in *. cbn [fst snd] in *. injection R as R.
      pose proof (open_cases c (run fuel b')) as C. rewrite R in C. inversion C; subst; cbn [w_libs]; try (rewrite app_length; cbn; lia).
      match goal with H : dget _ _ = Some _ |- _ => apply alive_open in H; rename H into AL end.
      destruct AL as (b1' & c' & b2' & -> & O & R' & _). eapply IH; [|reflexivity|exact R']. rewrite app_length. cbn. lia. }
    change (Open c :: b2) with ([Open c] ++ b2). rewrite app_assoc. eapply Nat.lt_le_trans; [exact X|apply extends_length, run_extends].
  Qed.
  (** A call that makes an object. *)
  Lemma makes_new fuel b1 c o : makes W fuel b1 c o ->
    o = length (w_libs (run fuel b1)) /\ exists p q s, opens c p /\ dget (w_open (run fuel b1)) p = None
      /\ source W (parsers_of (run fuel b1)) c s /\ (exists u, link W c p = Ok u)
      /\ nth_error (w_libs (run fuel (b1 ++ [Open c]))) o = Some (fresh_lib q p (wanted_prefixes c))
      /\ nth_error (parsers_of (run fuel (b1 ++ [Open c]))) q = Some s
      /\ ((q = length (w_parsers (run fuel b1)) /\ nth_error (w_parsers (run fuel (b1 ++ [Open c]))) q
             = Some {| p_tables := s; p_lists := l_heap (load (w_conf W) (w_table W) (on_windows W) s) |})
          \/ (q < length (w_parsers (run fuel b1)) /\ w_parsers (run fuel (b1 ++ [Open c])) = w_parsers (run fuel b1))).
  Proof.
    intros (R & N). rewrite run_snoc. unfold returns in R. rewrite step_open in *. cbn [fst snd] in *. injection R as R.
    pose proof (open_cases c (run fuel b1)) as C. rewrite R in C. inversion C as
        [ |p o' O G| | | | | |p l s u O G H P L EO|p q u O G H Lq L EO]; subst.
    - exfalso. apply alive_open in G. destruct G as (b0 & c' & b' & E & _ & R' & _). exact (N _ _ _ E R').
    - split; [reflexivity|]. exists p, (length (w_parsers (run fuel b1))), s. cbn [w_libs w_parsers].
      split; [exact O|]. split; [exact G|]. split; [apply (so_list _ _ _ l); assumption|]. split; [exists u; exact L|].
      split; [rewrite nth_error_app2, Nat.sub_diag by lia; reflexivity|].
      assert (X : nth_error (added (run fuel b1) s) (length (w_parsers (run fuel b1)))
        = Some {| p_tables := s; p_lists := l_heap (load (w_conf W) (w_table W) (on_windows W) s) |}).
      { unfold added. rewrite nth_error_app2, Nat.sub_diag by lia. reflexivity. }
      split; [|left; split; [reflexivity|exact X]]. unfold parsers_of. cbn [w_parsers]. rewrite nth_error_map, X. reflexivity.
    - split; [reflexivity|]. destruct (nth_error (w_parsers (run fuel b1)) q) as [pp|] eqn:PP; [|apply nth_error_None in PP; lia].
      assert (X : nth_error (parsers_of (run fuel b1)) q = Some (p_tables pp)) by (unfold parsers_of; rewrite nth_error_map, PP; reflexivity).
      exists p, q, (p_tables pp). cbn [w_libs w_parsers].
      split; [exact O|]. split; [exact G|]. split; [apply (so_parser _ _ _ q); assumption|]. split; [exists u; exact L|].
      split; [rewrite nth_error_app2, Nat.sub_diag by lia; reflexivity|]. split; [exact X|]. right. split; [exact Lq|reflexivity].
  Qed.
  Lemma link_loaded a p : opens a p -> forall r, loaded W a p r <-> link W a p = r.
  Proof.
    intros O. unfold link, on_windows. destruct (a_lib a) as [s|n|] eqn:A.
    - destruct (eqb_spec (a_convention a) $"cdll") as [C|C].
      + intros r. split; [|intros <-; apply (lo_cdll _ _ _ s); assumption]. intros L. inversion L; subst; try congruence; exfalso;
        match goal with
        | H : _ \/ _ |- _ => destruct H as [H|H]; rewrite H in C; discriminate C
        | H : ~ In _ _ |- _ => apply H; left; symmetry; exact C
        end.
      + destruct (mem (a_convention a) [$"windll"; $"oledll"]) eqn:M.
        * assert (V : a_convention a = $"windll" \/ a_convention a = $"oledll").
          { apply mem_In in M. destruct M as [M|[M|[]]]; auto. }
          destruct (eqb_spec (e_platform (w_env W)) $"win32") as [P|P]; intros r.
          -- split; [|intros <-; apply (lo_windows _ _ _ s); assumption]. intros L. inversion L; subst; try congruence; exfalso;
             match goal with H : ~ In _ _ |- _ => apply H; destruct V as [V|V]; rewrite V; cbn; auto end.
          -- split; [|intros <-; apply (lo_elsewhere _ _ _ s); assumption]. intros L. inversion L; subst; try congruence; exfalso;
             match goal with H : ~ In _ _ |- _ => apply H; destruct V as [V|V]; rewrite V; cbn; auto end.
        * assert (V : ~ In (a_convention a) [$"windll"; $"oledll"]) by (intros I; apply mem_In in I; congruence). intros r. split.
          -- intros L. inversion L; subst; try congruence; exfalso; apply V;
             match goal with H : _ \/ _ |- _ => destruct H as [H|H]; rewrite H; cbn; auto end.
          -- intros <-. apply (lo_unknown _ _ _ s); [assumption|]. intros [I|I]; [congruence|]. apply V. exact I.
    - intros r. split; [|intros <-; apply (lo_handle _ _ _ n); assumption]. intros L. inversion L; subst; congruence.
    - exfalso. destruct O as (D & _). rewrite A in D. inversion D.
  Qed.
  Lemma source_det ps a s s' : source W ps a s -> source W ps a s' -> s = s'.
  Proof. intros A B. destruct A; inversion B; subst; congruence. Qed.
  Lemma asks_det ps p a r r' : opens a p -> asks W ps p a r -> asks W ps p a r' -> r = r'.
  Proof.
    intros O A B. pose proof (link_loaded a p O) as LL.
    assert (NS : forall s, a_headers a = HOther -> source W ps a s -> False) by (intros s H S; destruct S; congruence).
    assert (NU : forall s l x, a_headers a = HList l -> w_parse W (a_kwargs a) l = Err x -> source W ps a s -> False) by (intros s l x H P S; destruct S; congruence).
    assert (LD : forall u v, loaded W a p u -> loaded W a p v -> u = v) by (intros u v U V; apply LL in U; apply LL in V; congruence).
    inversion A as [H|l x H P|s x S L|s S L]; subst; inversion B as [H'|l' x' H' P'|s' x' S' L'|s' S' L']; subst; try congruence;
      try (exfalso; eapply NS; eassumption); try (exfalso; eapply NU; eassumption).
    - pose proof (LD _ _ L L'). congruence.
    - pose proof (LD _ _ L L'). discriminate.
    - pose proof (LD _ _ L L'). discriminate.
    - rewrite (source_det ps a s s' S S'). reflexivity.
  Qed.

  (** ** C98, the calls *)
  Theorem calls fuel before a : let st := run fuel before in
    (forall x, refused W a x -> step fuel (Open a) st = (SLib (Err x), st))
    /\ forall p, opens a p ->
       (forall o, alive W fuel before p o -> step fuel (Open a) st = (SLib (Ok o), st))
       /\ ((forall o, ~ alive W fuel before p o) -> forall r, asks W (parsers_of st) p a r ->
           match r with
           | Ok _ => exists o, makes W fuel before a o
           | Err x => exists st', step fuel (Open a) st = (SLib (Err x), st')
               /\ w_libs st' = w_libs st /\ w_open st' = w_open st /\ exists l, w_parsers st' = w_parsers st ++ l
           end).
  Proof.
    intros st. split; [|intros p O; split].
    - intros x R. apply refused_key in R. rewrite step_open. unfold open_library. rewrite R. reflexivity.
    - intros o AL. apply alive_open in AL. fold st in AL. rewrite step_open. unfold open_library. rewrite (proj2 (key_Ok a p) O), AL. reflexivity.
    - intros NA r AS. assert (G : dget (w_open st) p = None).
      { destruct (dget (w_open st) p) as [o|] eqn:G; [|reflexivity]. exfalso. apply alive_open in G. exact (NA o G). }
      rewrite step_open. pose proof (open_cases a st) as C.
      assert (LI : forall q v, opens a q -> loaded W a p v -> link W a q = v).
      { intros q v Oq Lv. rewrite (opens_det a q p Oq O). apply (link_loaded a p O). exact Lv. }
      assert (PO : forall q s, a_headers a = HParser q -> source W (parsers_of st) a s -> q < length (w_parsers st)).
      { intros q s H S. destruct S as [l s H' _|q' s H' N]; [congruence|]. rewrite H in H'. injection H' as <-.
        assert (q < length (parsers_of st)) by (apply nth_error_Some; congruence). unfold parsers_of in *. rewrite map_length in *. assumption. }
      assert (NK : forall x, lib_key W a <> Err x) by (intros x; rewrite (proj2 (key_Ok a p) O); discriminate).
      assert (SAME : forall q, opens a q -> q = p) by (intros q Oq; exact (opens_det a q p Oq O)).
      assert (MK : fst (open_library W a st) = Ok (length (w_libs st)) -> exists o, makes W fuel before a o).
      { intros E. exists (length (w_libs st)). split; [unfold returns; fold st; rewrite step_open, E; reflexivity|].
        intros b0 c' b' -> R. pose proof (returned_lib fuel b0 c' _ b' R). unfold st in *. lia. }
      destruct r as [v|x].
      + apply MK. inversion AS as [ | | |s S L]; subst.
        destruct C as [x K|q o Oq Gq|q Oq Gq H|q q0 Oq Gq H Lq|q l x Oq Gq H P|q l s0 x Oq Gq H P K|q q0 x Oq Gq H Lq K| | ]; try reflexivity; exfalso.
        * exact (NK x K).
        * rewrite (SAME q Oq), G in Gq. discriminate Gq.
        * destruct S; congruence.
        * pose proof (PO _ _ H S). lia.
        * destruct S; congruence.
        * rewrite (LI q _ Oq L) in K. discriminate K.
        * rewrite (LI q _ Oq L) in K. discriminate K.
      + assert (X : fst (open_library W a st) = Err x).
        { destruct C as [y K|q o Oq Gq|q Oq Gq H|q q0 Oq Gq H Lq|q l y Oq Gq H P|q l s0 y Oq Gq H P K|q q0 y Oq Gq H Lq K|q l s0 y Oq Gq H P K|q q0 y Oq Gq H Lq K].
          - exfalso. exact (NK y K).
          - exfalso. rewrite (SAME q Oq), G in Gq. discriminate Gq.
          - inversion AS as [H'|l x' H' P'|s x' S L|]; subst; try congruence. destruct S; congruence.
          - inversion AS as [H'|l x' H' P'|s x' S L|]; subst; try congruence. pose proof (PO _ _ H S). lia.
          - inversion AS as [H'|l' x' H' P'|s x' S L|]; subst; try congruence. destruct S; congruence.
          - inversion AS as [H'|l' x' H' P'|s x' S L|]; subst; try congruence. rewrite (LI q _ Oq L) in K. congruence.
          - inversion AS as [H'|l' x' H' P'|s x' S L|]; subst; try congruence. rewrite (LI q _ Oq L) in K. congruence.
          - exfalso. inversion AS as [H'|l' x' H' P'|s x' S L|]; subst; try congruence. rewrite (LI q _ Oq L) in K. congruence.
          - exfalso. inversion AS as [H'|l' x' H' P'|s x' S L|]; subst; try congruence. rewrite (LI q _ Oq L) in K. congruence. }
        rewrite X. exists (snd (open_library W a st)). split; [reflexivity|].
        rewrite X in C. inversion C; subst; cbn [w_libs w_open w_parsers]; (split; [reflexivity|split; [reflexivity|]]);
          try (exists []; rewrite app_nil_r; reflexivity). eexists. reflexivity.
  Qed.
End Multi.
