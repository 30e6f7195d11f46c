(** Proofs for C47-C50. *)
From Coq Require Import Ascii String Bool Arith ZArith Lia List.
Import ListNotations.
From Verif Require Import PyBase PyBaseFacts PyStr PyStrFacts StoreModel UtilModel UtilSpec LibModel LibSpec.

(** ** Opening *)
Lemma sep_In s : existsb (Ascii.eqb sep) s = true <-> In "/"%char s.
Proof.
  rewrite existsb_exists. unfold sep. split.
  - intros (x & I & E). apply Ascii.eqb_eq in E. now subst.
  - intros I. exists "/"%char. split; [exact I|reflexivity].
Qed.
Lemma fits_dec e p :
  match known_arch e p with
  | [] => true | _ => existsb (Nat.eqb (e_bits e)) (known_arch e p) end = true <-> fits e p.
Proof.
  unfold fits. destruct (known_arch e p) as [|x l]; [tauto|]. rewrite existsb_exists. split.
  - intros (y & I & E). apply Nat.eqb_eq in E. subst. auto.
  - intros [X|I]; [discriminate|]. exists (e_bits e). split; [exact I|apply Nat.eqb_refl].
Qed.
Lemma arch_check e p :
  match known_arch e p with
  | [] => Ok p
  | _ => if existsb (Nat.eqb (e_bits e)) (known_arch e p) then Ok p else Err OSError
  end = Ok p /\ fits e p
  \/ match known_arch e p with
     | [] => Ok p
     | _ => if existsb (Nat.eqb (e_bits e)) (known_arch e p) then Ok p else Err OSError
     end = Err OSError /\ ~ fits e p.
Proof.
  pose proof (fits_dec e p) as F. destruct (known_arch e p) as [|x l].
  - left. split; [reflexivity|]. now apply F.
  - destruct (existsb _ _).
    + left. split; [reflexivity|]. now apply F.
    + right. split; [reflexivity|]. rewrite <- F. discriminate.
Qed.

Lemma lib_path_Ok e r p : lib_path e r = Ok p <-> designates e r p /\ (checked r -> fits e p).
Proof.
  destruct r as [s|n|]; cbn [lib_path checked].
  - destruct (existsb (Ascii.eqb sep) s) eqn:S; cbn [negb].
    + apply sep_In in S. destruct (fs_isfile (e_fs e) (e_real e s)) eqn:F; cbn [bind].
      * destruct (arch_check e (e_real e s)) as [[E Ft]|[E Ft]]; unfold known_arch in E; rewrite E.
        -- split.
           ++ intros X. injection X as <-. split; [now constructor|auto].
           ++ intros [D _]. inversion D; subst; [contradiction|reflexivity].
        -- split; [discriminate|]. intros [D K]. inversion D; subst; [contradiction|]. exfalso. auto.
      * split; [discriminate|]. intros [D _]. inversion D; subst; [contradiction|congruence].
    + assert (N : ~ In "/"%char s) by (rewrite <- sep_In; congruence).
      destruct (fst (find_library (e_fs e) (e_libdirs e) s None)) as [q|x] eqn:Q; cbn [bind].
      * destruct (arch_check e q) as [[E Ft]|[E Ft]]; unfold known_arch in E; rewrite E.
        -- split.
           ++ intros X. injection X as <-. split; [now constructor|auto].
           ++ intros [D _]. inversion D; subst; [congruence|contradiction].
        -- split; [discriminate|]. intros [D K]. inversion D; subst; [|contradiction].
           exfalso. apply Ft. assert (q = p) by congruence. subst. auto.
      * split; [discriminate|]. intros [D _]. inversion D; subst; [congruence|contradiction].
  - destruct (fs_isfile (e_fs e) n) eqn:F.
    + split.
      * intros X. injection X as <-. split; [now constructor|tauto].
      * intros [D _]. inversion D; subst; congruence.
    + split.
      * intros X. split; [now constructor|tauto].
      * intros [D _]. inversion D; subst; congruence.
  - split; [discriminate|]. intros [D _]. inversion D.
Qed.
Lemma designates_det e r p q : designates e r p -> designates e r q -> p = q.
Proof. intros D D'. inversion D; subst; inversion D'; subst; congruence || contradiction. Qed.

Lemma lib_path_unfit e s p : designates e (ByName s) p -> ~ fits e p -> lib_path e (ByName s) = Err OSError.
Proof.
  intros D N. cbn [lib_path]. inversion D as [s' p' NI F|s' I F| |]; subst.
  - assert (S : existsb (Ascii.eqb sep) s = false).
    { apply not_true_iff_false. now rewrite sep_In. }
    rewrite S, F. cbn [negb bind].
    destruct (arch_check e p) as [[E Ft]|[E Ft]]; unfold known_arch in E; rewrite E; [contradiction|reflexivity].
  - apply sep_In in I. rewrite I, F. cbn [negb bind].
    destruct (arch_check e (e_real e s)) as [[E Ft]|[E Ft]]; unfold known_arch in E; rewrite E; [contradiction|reflexivity].
Qed.

Lemma open_refused e s p st :
  designates e (ByName s) p -> ~ fits e p -> open_lib e (ByName s) st = (Err OSError, st).
Proof. intros D N. unfold open_lib. now rewrite (lib_path_unfit e s p D N). Qed.
Lemma open_fits e s st o :
  fst (open_lib e (ByName s) st) = Ok o -> exists p, designates e (ByName s) p /\ fits e p.
Proof.
  unfold open_lib. destruct (lib_path e (ByName s)) as [p|] eqn:L; [|discriminate]. intros _.
  apply lib_path_Ok in L. destruct L as [D F]. exists p. split; [exact D|]. apply F. exact Logic.I.
Qed.

(** The cache: distinct paths have distinct objects, all older than the counter. *)
Definition sound (s : opened) : Prop :=
  NoDup (keys (o_libs s))
  /\ (forall p o, dget (o_libs s) p = Some o -> o < o_next s)
  /\ (forall p q o, dget (o_libs s) p = Some o -> dget (o_libs s) q = Some o -> p = q).
Lemma dget_filter (l : dict str nat) (f : str * nat -> bool) p o : NoDup (keys l) ->
  dget (filter f l) p = Some o <-> dget l p = Some o /\ f (p, o) = true.
Proof.
  induction l as [|[k v] l IH]; intros ND; [cbn; split; [discriminate|intros [X _]; discriminate]|].
  cbn [keys map fst] in ND. inversion ND as [|? ? NI ND']; subst. cbn [filter].
  assert (NK : dget (filter f l) k = None).
  { apply dget_None. intros I. apply NI. unfold keys in *. apply in_map_iff in I.
    destruct I as ([k' v'] & E & I). apply filter_In in I. apply in_map_iff. exists (k', v'). tauto. }
  destruct (eqb_spec p k) as [->|N].
  - cbn [dget]. rewrite eqb_refl. destruct (f (k, v)) eqn:F.
    + cbn [dget]. rewrite eqb_refl. split; [intros E; injection E as <-; auto|]. intros [E _]. exact E.
    + rewrite NK. split; [discriminate|]. intros [E X]. injection E as <-. congruence.
  - apply eqb_false in N. cbn [dget]. rewrite N. rewrite <- (IH ND').
    destruct (f (k, v)); [cbn [dget]; rewrite N|]; reflexivity.
Qed.
Lemma NoDup_filter_keys (l : dict str nat) f : NoDup (keys l) -> NoDup (keys (filter f l)).
Proof.
  induction l as [|[k v] l IH]; cbn; intros ND; [constructor|]. inversion ND as [|? ? NI ND']; subst.
  destruct (f (k, v)); cbn; auto. constructor; auto. intros I. apply NI.
  apply in_map_iff in I. destruct I as ([k' v'] & E & I). apply filter_In in I.
  apply in_map_iff. exists (k', v'). tauto.
Qed.

Lemma sound_none : sound none_opened.
Proof. split; [constructor|]. split; cbn; discriminate. Qed.
Lemma sound_happen e ev s : sound s -> sound (happen e ev s) /\ o_next s <= o_next (happen e ev s).
Proof.
  intros (ND & B & U). destruct ev as [r|o]; cbn [happen].
  - unfold open_lib. destruct (lib_path e r) as [p|]; cbn [snd]; [|repeat split; auto].
    destruct (dget (o_libs s) p) eqn:G; cbn [snd]; [repeat split; auto|].
    destruct (e_init e p); cbn [snd]; [|repeat split; auto].
    cbn [o_libs o_next]. split; [|lia]. split; [now apply NoDup_dset|]. split.
    + intros q o. cbn [o_libs o_next]. rewrite dget_dset. destruct (eqb q p).
      * intros E. injection E as <-. lia.
      * intros E. apply B in E. lia.
    + intros q q' o. cbn [o_libs]. rewrite !dget_dset.
      destruct (eqb_spec q p) as [->|N], (eqb_spec q' p) as [->|N']; intros E E'; auto.
      * injection E as <-. apply B in E'. lia.
      * injection E' as <-. apply B in E. lia.
      * exact (U _ _ _ E E').
  - unfold collect. cbn [o_next o_libs]. split; [|lia]. split; [now apply NoDup_filter_keys|]. split.
    + intros p v E. apply dget_filter in E; [|exact ND]. destruct E as [E _]. cbn [o_next]. eauto.
    + intros p q v E E'. apply dget_filter in E; [|exact ND]. apply dget_filter in E'; [|exact ND].
      destruct E as [E _], E' as [E' _]. eauto.
Qed.
Lemma sound_history e evs s : sound s -> sound (history e evs s) /\ o_next s <= o_next (history e evs s).
Proof.
  revert s. induction evs as [|ev evs IH]; intros s H; cbn [history fold_left].
  - auto.
  - destruct (sound_happen e ev s H) as [H' L]. destruct (IH _ H') as [H'' L']. split; [exact H''|].
    unfold history in L'. lia.
Qed.
Lemma alive_happen e ev s p o : sound s -> ev <> Collect o -> dget (o_libs s) p = Some o ->
  dget (o_libs (happen e ev s)) p = Some o.
Proof.
  intros (ND & B & U) N G. destruct ev as [r|o']; cbn [happen].
  - unfold open_lib. destruct (lib_path e r) as [q|]; cbn [snd]; [|exact G].
    destruct (dget (o_libs s) q) eqn:G'; cbn [snd]; [exact G|].
    destruct (e_init e q); cbn [snd]; [|exact G]. cbn [o_libs].
    rewrite dget_dset_other; [exact G|congruence].
  - cbn [o_libs collect]. apply dget_filter; [exact ND|]. split; [exact G|]. cbn [snd].
    apply negb_true_iff, Nat.eqb_neq. congruence.
Qed.
Lemma alive_history e evs s p o : sound s -> ~ In (Collect o) evs -> dget (o_libs s) p = Some o ->
  dget (o_libs (history e evs s)) p = Some o.
Proof.
  revert s. induction evs as [|ev evs IH]; intros s H N G; cbn [history fold_left]; [exact G|].
  apply IH.
  - now apply sound_happen.
  - intros X. apply N. now right.
  - apply alive_happen; auto. intros ->. apply N. now left.
Qed.

Lemma open_cached e r s o s1 : open_lib e r s = (Ok o, s1) ->
  exists p, lib_path e r = Ok p /\ dget (o_libs s1) p = Some o.
Proof.
  unfold open_lib. destruct (lib_path e r) as [p|]; [|discriminate]. intros E. exists p. split; [reflexivity|].
  destruct (dget (o_libs s) p) as [o'|] eqn:G.
  - injection E as <- <-. exact G.
  - destruct (e_init e p); [|discriminate]. injection E as <- <-. cbn [o_libs]. apply dget_dset_same.
Qed.

Lemma one_object e evs1 r1 o s1 evs2 r2 p :
  open_lib e r1 (history e evs1 none_opened) = (Ok o, s1) ->
  designates e r1 p ->
  ~ In (Collect o) evs2 ->
  let s2 := history e evs2 s1 in
  (designates e r2 p -> (checked r2 -> fits e p) -> open_lib e r2 s2 = (Ok o, s2))
  /\ (forall q, designates e r2 q -> q <> p -> fst (open_lib e r2 s2) <> Ok o).
Proof.
  intros O D1 NC s2. destruct (open_cached _ _ _ _ _ O) as (p' & L & G).
  apply lib_path_Ok in L. destruct L as [D1' _]. assert (p' = p) by exact (designates_det _ _ _ _ D1' D1). subst p'.
  assert (H1 : sound s1).
  { assert (H0 : sound (history e evs1 none_opened)) by apply sound_history, sound_none.
    pose proof (sound_happen e (Open r1) _ H0) as [H _]. cbn [happen] in H. rewrite O in H. exact H. }
  pose proof (alive_history e evs2 s1 p o H1 NC G) as G2. fold s2 in G2.
  assert (H2 : sound s2) by (apply sound_history; exact H1).
  split.
  - intros D2 F. assert (L : lib_path e r2 = Ok p) by (apply lib_path_Ok; auto).
    unfold open_lib. now rewrite L, G2.
  - intros q D2 N X. destruct (open_lib e r2 s2) as [x s3] eqn:O2. cbn [fst] in X. subst x.
    destruct (open_cached _ _ _ _ _ O2) as (q' & L & G3). apply lib_path_Ok in L. destruct L as [D2' _].
    assert (q' = q) by exact (designates_det _ _ _ _ D2' D2). subst q'.
    assert (H3 : sound s3).
    { pose proof (sound_happen e (Open r2) _ H2) as [H _]. cbn [happen] in H. rewrite O2 in H. exact H. }
    assert (G3' : dget (o_libs s3) p = Some o).
    { pose proof (alive_happen e (Open r2) s2 p o H2) as A. cbn [happen] in A. rewrite O2 in A.
      apply A; [discriminate|exact G2]. }
    apply N. destruct H3 as (_ & _ & U). exact (U _ _ _ G3 G3').
Qed.

(** ** Access *)
Lemma candidates_In h name n : candidate h name n <-> In n (candidates h name).
Proof.
  unfold candidate, candidates. cbn [In]. rewrite in_map_iff. split.
  - intros [->|(p & I & ->)]; eauto.
  - intros [->|(p & <- & I)]; eauto.
Qed.
Lemma all_names_eq h name : all_names h name = candidates h name.
Proof. reflexivity. Qed.
Lemma access_kinds_eq : access_kinds = documented_order.
Proof. reflexivity. Qed.

Lemma is_defined_iff h k n : is_defined h k n = true <-> h_defs h k n <> None.
Proof. unfold is_defined. destruct (h_defs h k n); split; congruence. Qed.
Lemma acceptable_iff h k n : acceptable h k n = true <-> usable h k n.
Proof.
  unfold acceptable, usable. rewrite orb_true_iff, andb_true_iff, !is_defined_iff, mem_In. reflexivity.
Qed.

Lemma find_first {A} (f : A -> bool) l x :
  find f l = Some x -> exists a b, l = a ++ x :: b /\ f x = true /\ forall y, In y a -> f y = false.
Proof.
  induction l as [|y l IH]; cbn [find]; [discriminate|]. destruct (f y) eqn:F.
  - intros E. injection E as <-. exists [], l. repeat split; auto. intros z [].
  - intros E. destruct (IH E) as (a & b & -> & Fx & N). exists (y :: a), b. repeat split; auto.
    intros z [<-|I]; auto.
Qed.
Lemma find_split {A} (f : A -> bool) a x b :
  f x = true -> (forall y, In y a -> f y = false) -> find f (a ++ x :: b) = Some x.
Proof.
  intros F N. induction a as [|y a IH]; cbn [find app].
  - now rewrite F.
  - rewrite (N y) by now left. apply IH. intros z I. apply N. now right.
Qed.
Lemma find_all_false {A} (f : A -> bool) l : (forall y, In y l -> f y = false) -> find f l = None.
Proof.
  induction l as [|y l IH]; intros N; cbn [find]; [reflexivity|]. rewrite (N y) by now left.
  apply IH. intros z I. apply N. now right.
Qed.

(** *** What repeated access gives *)
(** Nothing is ever removed from or replaced in the caches. *)
Definition extends (c c' : cache) : Prop :=
  (forall k n o, dget (c_objs c k) n = Some o -> dget (c_objs c' k) n = Some o)
  /\ (forall n o, dget (c_all c) n = Some o -> dget (c_all c') n = Some o).
Lemma extends_refl c : extends c c.
Proof. split; auto. Qed.
Lemma extends_trans a b c : extends a b -> extends b c -> extends a c.
Proof. intros [A B] [A' B']. split; auto. Qed.

Lemma build_one_cache h k n c :
  c_objs (snd (build_one h k n c)) = c_objs c /\ c_all (snd (build_one h k n c)) = c_all c.
Proof.
  destruct k; cbn [build_one].
  9: destruct (h_defs h Values n) as [[v|]|]; split; reflexivity.
  all: destruct (h_build h _ n) as [[| |e]|]; split; reflexivity.
Qed.
Lemma make_obj_cache h k n c :
  c_objs (snd (make_obj h k n c)) = c_objs c /\ c_all (snd (make_obj h k n c)) = c_all c.
Proof.
  unfold make_obj. destruct (existsb _ _); [split; reflexivity|].
  destruct (find _ _) as [m|]; [apply build_one_cache|split; reflexivity].
Qed.
Lemma lib_call_extends h k n c : extends c (snd (lib_call h k n c)).
Proof.
  unfold lib_call. destruct (negb (mem k access_kinds)); [apply extends_refl|].
  destruct (dget (c_objs c k) n) as [o|] eqn:G; [apply extends_refl|].
  pose proof (make_obj_cache h k n c) as [A B].
  destruct (make_obj h k n c) as [[o|x] c1]; cbn [snd] in *.
  - split; cbn [c_objs c_all].
    + intros k' n' o' E. destruct (eqb_spec k' k) as [->|N].
      * rewrite A, dget_dset_other; [exact E|congruence].
      * rewrite A. exact E.
    + intros n' o' E. rewrite B. exact E.
  - split; [rewrite A|rewrite B]; auto.
Qed.
Lemma lib_call_all h k n c : c_all (snd (lib_call h k n c)) = c_all c.
Proof.
  unfold lib_call. destruct (negb (mem k access_kinds)); [reflexivity|].
  destruct (dget (c_objs c k) n) as [o|] eqn:G; [reflexivity|].
  pose proof (make_obj_cache h k n c) as [A B].
  destruct (make_obj h k n c) as [[o|x] c1]; exact B.
Qed.
Lemma lib_call_stored h k n c o : fst (lib_call h k n c) = Ok o ->
  dget (c_objs (snd (lib_call h k n c)) k) n = Some o.
Proof.
  unfold lib_call. destruct (negb (mem k access_kinds)); [discriminate|].
  destruct (dget (c_objs c k) n) as [o'|] eqn:G.
  - cbn. intros E. injection E as <-. exact G.
  - destruct (make_obj h k n c) as [[o'|x] c1]; cbn [fst snd]; [|discriminate].
    intros E. injection E as <-. cbn [c_objs]. rewrite eqb_refl. apply dget_dset_same.
Qed.
Lemma lib_call_hit h k n c o : mem k access_kinds = true -> dget (c_objs c k) n = Some o ->
  lib_call h k n c = (Ok o, c).
Proof. intros M G. unfold lib_call. now rewrite M, G. Qed.

Lemma search_kinds_extends h names ks c : extends c (snd (search_kinds h names ks c)).
Proof.
  revert c. induction ks as [|k ks IH]; intros c; cbn [search_kinds]; [apply extends_refl|].
  destruct (find _ names) as [n|]; [|apply IH].
  pose proof (lib_call_extends h k n c) as X. destruct (lib_call h k n c) as [[o|x] c1]; cbn [snd] in *; [|exact X].
  destruct o; cbn [snd]; try exact X. eapply extends_trans; [exact X|apply IH].
Qed.
Lemma search_kinds_all h names ks c : c_all (snd (search_kinds h names ks c)) = c_all c.
Proof.
  revert c. induction ks as [|k ks IH]; intros c; cbn [search_kinds]; [reflexivity|].
  destruct (find _ names) as [n|]; [|apply IH].
  pose proof (lib_call_all h k n c) as X. destruct (lib_call h k n c) as [[o|x] c1]; cbn [snd] in *; [|exact X].
  destruct o; cbn [snd]; try exact X. now rewrite IH.
Qed.
Lemma lib_attr_extends h n c : extends c (snd (lib_attr h n c)).
Proof.
  unfold lib_attr. destruct (dget (c_all c) n) as [o|] eqn:G; [apply extends_refl|].
  pose proof (search_kinds_extends h (all_names h n) access_kinds c) as [A B].
  destruct (search_kinds h (all_names h n) access_kinds c) as [[o|x] c1]; cbn [snd] in *.
  - split; cbn [c_objs c_all]; auto. intros n' o' E. rewrite dget_dset_other; [auto|].
    intros ->. rewrite G in E. discriminate.
  - split; auto.
Qed.
Lemma do_access_extends h a c : extends c (snd (do_access h a c)).
Proof. destruct a; [apply lib_attr_extends|apply lib_call_extends]. Qed.
Lemma accesses_extends h l c : extends c (accesses h l c).
Proof.
  revert c. induction l as [|a l IH]; intros c; cbn [accesses fold_left]; [apply extends_refl|].
  eapply extends_trans; [apply do_access_extends|apply IH].
Qed.

Lemma access_repeat h a c o later :
  fst (do_access h a c) = Ok o ->
  fst (do_access h a (accesses h later (snd (do_access h a c)))) = Ok o.
Proof.
  intros E. destruct (accesses_extends h later (snd (do_access h a c))) as [A B].
  destruct a as [n|k n]; cbn [do_access] in *.
  - assert (G : dget (c_all (snd (lib_attr h n c))) n = Some o).
    { unfold lib_attr in *. destruct (dget (c_all c) n) as [o'|] eqn:G.
      - cbn in *. congruence.
      - destruct (search_kinds h (all_names h n) access_kinds c) as [[o'|x] c1]; cbn [fst snd] in *; [|discriminate].
        injection E as <-. cbn [c_all]. apply dget_dset_same. }
    apply B in G. unfold lib_attr at 1. now rewrite G.
  - assert (M : mem k access_kinds = true).
    { unfold lib_call in E. destruct (mem k access_kinds); [reflexivity|discriminate]. }
    pose proof (lib_call_stored h k n c o E) as G. apply A in G.
    now rewrite (lib_call_hit h k n _ o M G).
Qed.

(** *** Attribute access gives the object of a kind *)
Lemma search_kinds_found h names ks c o :
  fst (search_kinds h names ks c) = Ok o ->
  exists k n, In k ks /\ In n names /\ dget (c_objs (snd (search_kinds h names ks c)) k) n = Some o.
Proof.
  revert c. induction ks as [|k ks IH]; intros c; cbn [search_kinds]; [discriminate|].
  destruct (find _ names) as [n|] eqn:F.
  - pose proof (lib_call_stored h k n c) as X. destruct (lib_call h k n c) as [[o'|x] c1]; cbn [fst snd] in *; [|discriminate].
    destruct o'; cbn [fst snd].
    + intros E. destruct (IH c1 E) as (k' & n' & I & J & G). exists k', n'. repeat split; auto. now right.
    + intros E. exists k, n. repeat split; [now left|now apply find_some in F|auto].
    + intros E. exists k, n. repeat split; [now left|now apply find_some in F|auto].
    + intros E. exists k, n. repeat split; [now left|now apply find_some in F|auto].
  - intros E. destruct (IH c E) as (k' & n' & I & J & G). exists k', n'. repeat split; auto. now right.
Qed.
(** Every object found as an attribute is also cached under its kind. *)
Definition linked (h : headers) (c : cache) : Prop :=
  forall name o, dget (c_all c) name = Some o ->
    exists k n, In k access_kinds /\ In n (all_names h name) /\ dget (c_objs c k) n = Some o.
Lemma linked_access h a c : linked h c -> linked h (snd (do_access h a c)).
Proof.
  intros L. destruct a as [n|k n]; cbn [do_access].
  - unfold lib_attr. destruct (dget (c_all c) n) as [o|] eqn:G; [exact L|].
    pose proof (search_kinds_extends h (all_names h n) access_kinds c) as [A B].
    pose proof (search_kinds_all h (all_names h n) access_kinds c) as AL.
    pose proof (search_kinds_found h (all_names h n) access_kinds c) as X.
    destruct (search_kinds h (all_names h n) access_kinds c) as [[o|x] c1]; cbn [fst snd] in *.
    + intros name o'. cbn [c_all c_objs]. rewrite dget_dset. destruct (eqb_spec name n) as [->|N].
      * intros E. injection E as <-. exact (X o eq_refl).
      * rewrite AL. intros E. destruct (L _ _ E) as (k' & n' & I & J & G'). eauto 8.
    + intros name o'. rewrite AL. intros E. destruct (L _ _ E) as (k' & n' & I & J & G'). eauto 8.
  - pose proof (lib_call_extends h k n c) as [A B]. pose proof (lib_call_all h k n c) as AL.
    intros name o'. rewrite AL. intros E. destruct (L _ _ E) as (k' & n' & I & J & G'). eauto 8.
Qed.
Lemma linked_accesses h l c : linked h c -> linked h (accesses h l c).
Proof.
  revert c. induction l as [|a l IH]; intros c L; cbn [accesses fold_left]; [exact L|].
  apply IH. now apply linked_access.
Qed.
Lemma linked_none h : linked h no_cache.
Proof. intros name o E. discriminate. Qed.

Lemma attr_is_call h l name o :
  let c := accesses h l no_cache in
  fst (do_access h (Attr name) c) = Ok o ->
  exists k n, In k documented_order /\ candidate h name n
    /\ fst (do_access h (Call k n) (snd (do_access h (Attr name) c))) = Ok o.
Proof.
  intros c E. assert (L : linked h (snd (do_access h (Attr name) c))).
  { apply linked_access, linked_accesses, linked_none. }
  assert (G : dget (c_all (snd (do_access h (Attr name) c))) name = Some o).
  { cbn [do_access] in *. unfold lib_attr in *. destruct (dget (c_all c) name) as [o'|] eqn:G.
    - cbn in *. congruence.
    - destruct (search_kinds h (all_names h name) access_kinds c) as [[o'|x] c1]; cbn [fst snd] in *; [|discriminate].
      injection E as <-. cbn [c_all]. apply dget_dset_same. }
  destruct (L _ _ G) as (k & n & I & J & G'). exists k, n. split; [exact I|].
  split; [now apply candidates_In|]. cbn [do_access].
  rewrite (lib_call_hit h k n _ o); [reflexivity| |exact G']. now apply mem_In.
Qed.

(** *** The order of accesses *)
(** What an access gives, up to the identity of made objects. *)
Definition erase (r : res obj) : res obj :=
  match r with Ok (OMade _ k n) => Ok (OMade 0 k n) | _ => r end.
Definition erase_o (o : obj) : obj := match o with OMade _ k n => OMade 0 k n | _ => o end.
Lemma alike_erase a b : alike a b <-> erase a = erase b.
Proof.
  destruct a as [[]|], b as [[]|]; cbn; split; intros E; try discriminate; try congruence.
  - destruct E; subst; reflexivity.
  - injection E; auto.
Qed.
(** The pure results. *)
Definition pure_call (h : headers) (k : kind) (name : str) : res obj :=
  if negb (mem k access_kinds) then Err KeyError
  else match find (acceptable h k) (all_names h name) with
       | Some n => fst (build_one h k n no_cache)
       | None => Err NameError
       end.
Fixpoint pure_search (h : headers) (names : list str) (ks : list kind) : res obj :=
  match ks with
  | [] => Err NameError
  | k :: r =>
      match find (is_defined h k) names with
      | None => pure_search h names r
      | Some n => match pure_call h k n with
                  | Err e => Err e
                  | Ok ONone => pure_search h names r
                  | Ok o => Ok o
                  end
      end
  end.
Definition pure (h : headers) (a : access) : res obj :=
  match a with
  | Attr n => pure_search h (all_names h n) access_kinds
  | Call k n => pure_call h k n
  end.

Lemma build_one_erase h k n c : erase (fst (build_one h k n c)) = fst (build_one h k n no_cache).
Proof.
  destruct k; cbn [build_one].
  9: destruct (h_defs h Values n) as [[v|]|]; reflexivity.
  all: destruct (h_build h _ n) as [[| |e]|]; reflexivity.
Qed.
Lemma pure_call_erase h k n : erase (pure_call h k n) = pure_call h k n.
Proof.
  unfold pure_call. destruct (negb _); [reflexivity|]. destruct (find _ _); [|reflexivity].
  apply build_one_erase.
Qed.

Definition good (h : headers) (c : cache) : Prop :=
  (forall k n o, dget (c_objs c k) n = Some o -> Ok (erase_o o) = pure_call h k n
                 /\ (usable h k n \/ h_prefix h = []))
  /\ (forall name o, dget (c_all c) name = Some o -> Ok (erase_o o) = pure h (Attr name)).
Lemma good_none h : good h no_cache.
Proof. split; discriminate. Qed.
Lemma erase_Ok o : erase (Ok o) = Ok (erase_o o).
Proof. destruct o; reflexivity. Qed.

Lemma call_good h k n c : no_clash h -> good h c -> complete h (Call k n) ->
  erase (fst (lib_call h k n c)) = pure_call h k n /\ good h (snd (lib_call h k n c)).
Proof.
  intros NC G CO. cbn [complete] in CO. unfold lib_call, pure_call.
  destruct (mem k access_kinds) eqn:M; cbn [negb]; [|split; [reflexivity|exact G]].
  destruct (dget (c_objs c k) n) as [o|] eqn:H.
  - cbn [fst snd]. split; [|exact G]. rewrite erase_Ok. destruct G as [G1 _].
    destruct (G1 _ _ _ H) as [E _]. rewrite E. unfold pure_call. rewrite M. reflexivity.
  - assert (X : existsb (dmem (c_objs c k)) (all_names h n) = false).
    { apply not_true_iff_false. intros X. apply existsb_exists in X. destruct X as (m & I & D).
      unfold dmem in D. destruct (dget (c_objs c k) m) as [o|] eqn:Hm; [|discriminate].
      rewrite all_names_eq in I. apply candidates_In in I. destruct I as [->|(p & I & ->)]; [congruence|].
      destruct G as [G1 _]. destruct (G1 _ _ _ Hm) as [_ U].
      destruct p as [|a p]; [cbn in Hm; congruence|].
      assert (P : h_prefix h <> []) by (intros P; rewrite P in I; destruct I).
      destruct CO as [CO|CO]; [|contradiction]. destruct U as [U|U]; [|contradiction].
      exact (NC _ _ _ I ltac:(discriminate) CO U). }
    unfold make_obj. rewrite X.
    assert (R : erase (fst (match find (acceptable h k) (all_names h n) with
                 | Some m => build_one h k m c | None => (Err NameError, c) end))
                = match find (acceptable h k) (all_names h n) with
                  | Some m => fst (build_one h k m no_cache) | None => Err NameError end).
    { destruct (find _ _); [apply build_one_erase|reflexivity]. }
    assert (C : forall r c1, match find (acceptable h k) (all_names h n) with
                 | Some m => build_one h k m c | None => (Err NameError, c) end = (r, c1) ->
                 c_objs c1 = c_objs c /\ c_all c1 = c_all c).
    { intros r c1 E. destruct (find _ _) as [m|].
      - pose proof (build_one_cache h k m c) as Y. rewrite E in Y. exact Y.
      - injection E as _ <-. auto. }
    destruct (match find (acceptable h k) (all_names h n) with
              | Some m => build_one h k m c | None => (Err NameError, c) end) as [[o|x] c1] eqn:Y.
    + cbn [fst snd] in *. split; [exact R|]. destruct (C _ _ eq_refl) as [C1 C2]. destruct G as [G1 G2].
      split; cbn [c_objs c_all].
      * intros k' n' o'. destruct (eqb_spec k' k) as [->|N].
        -- rewrite C1, dget_dset. destruct (eqb_spec n' n) as [->|N'].
           ++ intros E. injection E as <-. split; [|exact CO]. rewrite <- erase_Ok, R.
              unfold pure_call. rewrite M. reflexivity.
           ++ apply G1.
        -- rewrite C1. apply G1.
      * rewrite C2. exact G2.
    + cbn [fst snd] in *. split; [exact R|]. destruct (C _ _ eq_refl) as [C1 C2]. destruct G as [G1 G2].
      split; [rewrite C1|rewrite C2]; assumption.
Qed.

Lemma search_good h names ks c : no_clash h -> good h c ->
  erase (fst (search_kinds h names ks c)) = pure_search h names ks
  /\ good h (snd (search_kinds h names ks c)).
Proof.
  intros NC. revert c. induction ks as [|k ks IH]; intros c G; cbn [search_kinds pure_search].
  - split; [reflexivity|exact G].
  - destruct (find (is_defined h k) names) as [n|] eqn:F; [|now apply IH].
    apply find_some in F. destruct F as [_ F]. apply is_defined_iff in F.
    destruct (call_good h k n c NC G) as [E G']; [left; left; exact F|].
    destruct (lib_call h k n c) as [[o|x] c1]; cbn [fst snd] in *.
    + rewrite erase_Ok in E. rewrite <- E. destruct o; cbn [erase_o fst snd erase].
      * now apply IH.
      * auto.
      * auto.
      * auto.
    + rewrite <- E. auto.
Qed.
Lemma pure_search_erase h names ks : erase (pure_search h names ks) = pure_search h names ks.
Proof.
  induction ks as [|k ks IH]; cbn [pure_search]; [reflexivity|].
  destruct (find _ names) as [n|]; [|exact IH]. pose proof (pure_call_erase h k n) as E.
  destruct (pure_call h k n) as [[]|]; auto.
Qed.

Lemma access_good h a c : no_clash h -> good h c -> complete h a ->
  erase (fst (do_access h a c)) = pure h a /\ good h (snd (do_access h a c)).
Proof.
  intros NC G CO. destruct a as [n|k n]; cbn [do_access].
  - unfold lib_attr. destruct (dget (c_all c) n) as [o|] eqn:H.
    + cbn [fst snd]. split; [|exact G]. rewrite erase_Ok. now apply G.
    + destruct (search_good h (all_names h n) access_kinds c NC G) as [E G'].
      pose proof (search_kinds_all h (all_names h n) access_kinds c) as AL.
      destruct (search_kinds h (all_names h n) access_kinds c) as [[o|x] c1]; cbn [fst snd] in *.
      * split; [exact E|]. destruct G' as [G1 G2]. split; cbn [c_objs c_all]; [exact G1|].
        intros name o'. rewrite dget_dset. destruct (eqb_spec name n) as [->|N]; [|apply G2].
        intros X. injection X as <-. rewrite <- erase_Ok. exact E.
      * auto.
  - now apply call_good.
Qed.
Lemma accesses_good h l c : no_clash h -> Forall (complete h) l -> good h c -> good h (accesses h l c).
Proof.
  intros NC F. revert c. induction l as [|a l IH]; intros c G; cbn [accesses fold_left]; [exact G|].
  inversion F; subst. apply IH; [assumption|]. now apply access_good.
Qed.

Lemma access_order h l a : no_clash h -> Forall (complete h) l -> complete h a ->
  alike (fst (do_access h a (accesses h l no_cache))) (fst (do_access h a no_cache)).
Proof.
  intros NC F CO. apply alike_erase.
  rewrite (proj1 (access_good h a _ NC (accesses_good h l no_cache NC F (good_none h)) CO)).
  now rewrite (proj1 (access_good h a _ NC (good_none h) CO)).
Qed.

(** *** The first matching kind *)
Lemma is_object_erase h k n r : is_object h k n r <-> is_object h k n (erase r).
Proof.
  destruct k; cbn [is_object];
  try (destruct (h_build h _ n) as [[| |e]|]; destruct r as [[]|]; cbn; split;
       try (intros [s E]; try discriminate; injection E as _ -> ->; eexists; reflexivity);
       try (intros E; discriminate E); try (intros E; exact E);
       try (intros [s E]; discriminate E)).
  destruct r as [[]|]; cbn; split; intros E; try exact E.
  - destruct E as (v & _ & X). discriminate.
  - destruct E as (v & _ & X). discriminate.
Qed.

Lemma pure_call_defined h k n : In k documented_order -> h_defs h k n <> None ->
  pure_call h k n = fst (build_one h k n no_cache).
Proof.
  intros I D. unfold pure_call. rewrite <- access_kinds_eq in I. apply mem_In in I. rewrite I. cbn [negb].
  unfold all_names. cbn [find].
  assert (A : acceptable h k n = true) by (apply acceptable_iff; left; exact D). now rewrite A.
Qed.

(** One kind without a value is passed. *)
Lemma pass_kind h name k :
  (forall n', candidate h name n' -> ~ has_value h k n') -> In k documented_order ->
  forall ks, pure_search h (candidates h name) (k :: ks) = pure_search h (candidates h name) ks.
Proof.
  intros N I ks. cbn [pure_search]. destruct (find (is_defined h k) (candidates h name)) as [n|] eqn:F; [|reflexivity].
  apply find_some in F. destruct F as [J F]. apply candidates_In in J. apply is_defined_iff in F.
  rewrite pure_call_defined by assumption.
  destruct k; try (exfalso; apply (N n J); exact F).
  cbn [build_one]. destruct (h_defs h Values n) as [[v|]|] eqn:V; [|reflexivity|congruence].
  exfalso. apply (N n J). exists v. exact V.
Qed.

Lemma build_is_object h k n : In k documented_order -> has_value h k n ->
  is_object h k n (fst (build_one h k n no_cache)).
Proof.
  intros I V. destruct k; cbn [build_one is_object];
    try (destruct (h_build h _ n) as [[| |e]|]; cbn; eauto; fail).
  destruct V as [v V]. exists v. rewrite V. auto.
Qed.

Lemma pure_first_match h name k n :
  clear h name -> first_match h name k n -> h_build h k n <> Ok MNone ->
  pure_search h (candidates h name) documented_order = fst (build_one h k n no_cache).
Proof.
  intros CL ((bk & ak & EK & NK) & (bn & an & EN & NN) & V) NB.
  assert (IK : In k documented_order) by (rewrite EK; apply in_or_app; right; now left).
  assert (IB : forall x, In x bk -> In x documented_order) by (intros x X; rewrite EK; apply in_or_app; now left).
  rewrite EK. clear EK. induction bk as [|b bk IH]; cbn [app].
  - cbn [pure_search]. assert (CN : candidate h name n).
    { apply candidates_In. rewrite EN. apply in_or_app. right. now left. }
    assert (F : find (is_defined h k) (candidates h name) = Some n).
    { rewrite EN. apply find_split.
      - apply is_defined_iff. destruct k; try exact V. destruct V as [v V]. congruence.
      - intros y Y. apply not_true_iff_false. rewrite is_defined_iff. intros D.
        assert (CY : candidate h name y).
        { apply candidates_In. rewrite EN. apply in_or_app. now left. }
        apply (NN y Y). destruct k; try exact D. cbn. destruct (h_defs h Values y) as [[v|]|] eqn:Vy.
        + now exists v.
        + exfalso. exact (CL y n CY CN Vy V).
        + congruence. }
    rewrite F. assert (D : h_defs h k n <> None).
    { destruct k; try exact V. destruct V as [v V]. congruence. }
    rewrite pure_call_defined by assumption.
    destruct k; cbn [build_one] in *; try (destruct (h_build h _ n) as [[| |e]|]; try reflexivity; congruence).
    destruct V as [v V]. rewrite V. reflexivity.
  - rewrite pass_kind.
    + apply IH; intros; [eapply NK; eauto; now right|apply IB; now right].
    + intros n' C. apply NK; [now left|exact C].
    + apply IB. now left.
Qed.
Lemma pure_no_match h name : no_match h name ->
  pure_search h (candidates h name) documented_order = Err NameError.
Proof.
  intros N. assert (X : forall ks, incl ks documented_order -> pure_search h (candidates h name) ks = Err NameError).
  { induction ks as [|k ks IH]; intros I; [reflexivity|]. rewrite pass_kind.
    - apply IH. intros x X. apply I. now right.
    - intros n' C. apply N; [apply I; now left|exact C].
    - apply I. now left. }
  apply X. apply incl_refl.
Qed.

(** In any state reached by accesses. *)
Lemma attr_first_match h l name :
  no_clash h -> Forall (complete h) l -> clear h name ->
  let r := fst (do_access h (Attr name) (accesses h l no_cache)) in
  (forall k n, first_match h name k n -> h_build h k n <> Ok MNone -> is_object h k n r)
  /\ (no_match h name -> r = Err NameError).
Proof.
  intros NC F CL r.
  pose proof (proj1 (access_good h (Attr name) _ NC (accesses_good h l no_cache NC F (good_none h)) Logic.I)) as E.
  fold r in E. cbn [pure] in E. rewrite all_names_eq, access_kinds_eq in E. split.
  - intros k n M B. apply is_object_erase. rewrite E, (pure_first_match h name k n CL M B).
    apply build_is_object; [|apply M]. destruct M as ((bk & ak & EK & _) & _). rewrite EK.
    apply in_or_app. right. now left.
  - intros N. rewrite (pure_no_match h name N) in E. destruct r as [[]|]; cbn in E; congruence.
Qed.
(** In a fresh library the clash of names does not matter. *)
Lemma call_empty h k n c : c_objs c k = [] ->
  erase (fst (lib_call h k n c)) = pure_call h k n
  /\ forall k', k' <> k -> c_objs (snd (lib_call h k n c)) k' = c_objs c k'.
Proof.
  intros E. unfold lib_call, pure_call. destruct (negb (mem k access_kinds)); [split; auto|].
  rewrite E. cbn [dget]. unfold make_obj. rewrite E.
  assert (X : existsb (dmem (K := str) (V := obj) []) (all_names h n) = false).
  { apply not_true_iff_false. intros X. apply existsb_exists in X. destruct X as (m & _ & D). discriminate. }
  rewrite X. destruct (find (acceptable h k) (all_names h n)) as [m|].
  - pose proof (build_one_erase h k m c) as R. pose proof (build_one_cache h k m c) as [C _].
    destruct (build_one h k m c) as [[o|x] c1]; cbn [fst snd] in *; split; auto.
    + intros k' N. cbn [c_objs]. apply eqb_false in N. rewrite N, C. reflexivity.
    + intros k' N. now rewrite C.
  - split; auto.
Qed.
Lemma search_empty h names ks c : NoDup ks -> (forall k, In k ks -> c_objs c k = []) ->
  erase (fst (search_kinds h names ks c)) = pure_search h names ks.
Proof.
  revert c. induction ks as [|k ks IH]; intros c ND E; cbn [search_kinds pure_search]; [reflexivity|].
  inversion ND as [|? ? NI ND']; subst.
  destruct (find (is_defined h k) names) as [n|].
  - destruct (call_empty h k n c (E k (or_introl eq_refl))) as [R C].
    assert (IH' : erase (fst (search_kinds h names ks (snd (lib_call h k n c)))) = pure_search h names ks).
    { apply IH; [exact ND'|]. intros k' I. rewrite C; [apply E; now right|]. intros ->. contradiction. }
    destruct (lib_call h k n c) as [[o|x] c1]; cbn [fst snd] in *.
    + rewrite erase_Ok in R. rewrite <- R. destruct o; cbn [erase_o fst erase]; auto.
    + rewrite <- R. reflexivity.
  - apply IH; [exact ND'|]. intros k' I. apply E. now right.
Qed.
Lemma attr_first_match_fresh h name :
  clear h name ->
  let r := fst (do_access h (Attr name) no_cache) in
  (forall k n, first_match h name k n -> h_build h k n <> Ok MNone -> is_object h k n r)
  /\ (no_match h name -> r = Err NameError).
Proof.
  intros CL r.
  assert (E : erase r = pure_search h (candidates h name) documented_order).
  { unfold r. cbn [do_access]. unfold lib_attr. cbn [dget no_cache c_all].
    assert (ND : NoDup access_kinds) by (repeat constructor; cbn; intuition discriminate).
    pose proof (search_empty h (all_names h name) access_kinds no_cache ND (fun _ _ => eq_refl)) as X.
    destruct (search_kinds h (all_names h name) access_kinds no_cache) as [[o|x] c1]; exact X. }
  split.
  - intros k n M B. apply is_object_erase. rewrite E, (pure_first_match h name k n CL M B).
    apply build_is_object; [|apply M]. destruct M as ((bk & ak & EK & _) & _). rewrite EK.
    apply in_or_app. right. now left.
  - intros N. rewrite (pure_no_match h name N) in E. destruct r as [[]|]; cbn in E; congruence.
Qed.
