(** Proofs for C82 and C83: from the tables of the headers to ctypes. *)
From Coq Require Import Ascii String Bool Arith ZArith Lia List.
Import ListNotations.
From Verif Require Import PyBase PyBaseFacts PyStr PyStrFacts PyExpr TypeModel InitModel StoreModel StoreSpec DeclModel DeclSpec CtModel LinkModel LinkSpec.
From Verif Require TypeSpec TypeProofs CtSpec CtMono CtProofs CtOne CtFinish CtWords.

(** ** Types as objects *)
Section CtypeInd.
  Context {A : Type} (P : ctype A -> Prop)
    (H : forall s ds qs, (forall u, s = SType u -> P u) ->
       (forall args a, In (DFun args) ds -> In a args -> P (snd (fst a))) -> P (CT s ds qs)).
  Lemma ctype_nested : forall t, P t.
  Proof.
    fix IH 1. intros [s ds qs].
    assert (F : Forall (fun d => match d with DFun args => Forall (fun a => P (snd (fst a))) args | _ => True end) ds).
    { revert ds. fix IHd 1. intros [|d ds]; constructor; [|apply IHd]. destruct d as [x|x|l]; try exact Logic.I.
      revert l. fix IHl 1. intros [|b l]; constructor; [|apply IHl]. destruct b as [[x u] y]. apply IH. }
    assert (G : match s with SType v => P v | SName _ => True end).
    { destruct s as [n|v]; [exact Logic.I|apply IH]. }
    clear IH. apply H.
    - intros u E. rewrite E in G. exact G.
    - intros args a I Ia. rewrite Forall_forall in F. specialize (F _ I). cbn beta in F. rewrite Forall_forall in F. auto.
  Qed.
End CtypeInd.

(** [f] opens [x]: lists are added, and the view of the result in any larger heap is [x] again. *)
Definition opens {A B} (f : A -> heap -> B * heap) (v : heap -> B -> A) (x : A) : Prop :=
  forall h, exists new, snd (f x h) = h ++ new /\ forall more, v ((h ++ new) ++ more) (fst (f x h)) = x.
Lemma open_list_ok {A B} (f : A -> heap -> B * heap) v l : (forall x, In x l -> opens f v x) ->
  opens (open_list f) (fun h => map (v h)) l.
Proof.
  induction l as [|x l IH]; intros H h; cbn [open_list].
  - exists []. split; [now rewrite app_nil_r|reflexivity].
  - destruct (H x (or_introl eq_refl) h) as (n1 & E1 & V1). destruct (f x h) as [y h1]. cbn [fst snd] in *. subst h1.
    destruct (IH (fun z I => H z (or_intror I)) (h ++ n1)) as (n2 & E2 & V2).
    destruct (open_list f l (h ++ n1)) as [ys h2]. cbn [fst snd] in *. subst h2. exists (n1 ++ n2). split; [now rewrite app_assoc|].
    intros more. cbn [map]. rewrite app_assoc. rewrite V2. rewrite <- (app_assoc (h ++ n1)). now rewrite V1.
Qed.
Lemma content_new (h : heap) l x : content ((h ++ [l]) ++ x) (length h) = l.
Proof. unfold content. rewrite <- app_assoc. rewrite app_nth2 by lia. now rewrite Nat.sub_diag. Qed.
Lemma open_ok : forall t, opens open fill t.
Proof.
  induction t as [s ds qs IHs IHd] using ctype_nested. intros h. cbn [open].
  assert (X : exists s' n1, match s with SName n => (SName n, h) | SType u => let (u', h') := open u h in (SType u', h') end = (s', h ++ n1)
     /\ forall more, match s' with SName n => SName n | SType u => SType (fill ((h ++ n1) ++ more) u) end = s).
  { destruct s as [n|u].
    - exists (SName n), []. rewrite app_nil_r. split; reflexivity.
    - destruct (IHs u eq_refl h) as (new & E & V). destruct (open u h) as [u' h']. cbn [fst snd] in *. subst h'.
      exists (SType u'), new. split; [reflexivity|]. intros more. now rewrite V. }
  destruct X as (s' & n1 & -> & V1).
  match goal with |- context [open_list ?f ds ?h1] => pose (F := f); pose proof (open_list_ok F (fun h d =>
     match d with DStr x => DStr x | DArr a => DArr (content h a)
     | DFun args => DFun (map (fun a => (fst (fst a), fill h (snd (fst a)), snd a)) args) end) ds) as O; fold F end.
  destruct O with (h := h ++ n1) as (n2 & E2 & V2).
  { intros d I h0. unfold F. destruct d as [x|x|args].
    - exists []. rewrite app_nil_r. split; reflexivity.
    - exists [x]. split; [reflexivity|]. intros more. cbn [fst]. now rewrite content_new.
    - pose proof (open_list_ok (fun (a : option str * aty * option str) h => let (u, h') := open (snd (fst a)) h in ((fst (fst a), u, snd a), h'))
        (fun h a => (fst (fst a), fill h (snd (fst a)), snd a)) args) as O3.
      destruct O3 with (h := h0) as (n3 & E3 & V3).
      { intros a Ia h3. destruct (IHd args a I Ia h3) as (n4 & E4 & V4). destruct (open (snd (fst a)) h3) as [u h4]. cbn [fst snd] in *.
        subst h4. exists n4. split; [reflexivity|]. intros more. rewrite V4. destruct a as [[? ?] ?]. reflexivity. }
      destruct (open_list _ args h0) as [args' h3]. cbn [fst snd] in *. subst h3. exists n3. split; [reflexivity|]. intros more. now rewrite V3. }
  destruct (open_list F ds (h ++ n1)) as [ds' h2]. cbn [fst snd] in *. subst h2. exists (n1 ++ n2). split; [now rewrite app_assoc|].
  intros more. cbn [fill]. rewrite app_assoc, V2, <- (app_assoc (h ++ n1)), V1. reflexivity.
Qed.
(** Looking up what was opened. *)
Lemma open_dict {A B} (f : str * A -> heap -> (str * B) * heap) : (forall x h, fst (fst (f x h)) = fst x) ->
  (forall x h, exists new, snd (f x h) = h ++ new) ->
  forall d h, (exists new, snd (open_list f d h) = h ++ new)
    /\ forall n a, dget d n = Some a -> exists h0 b new, dget (fst (open_list f d h)) n = Some b
         /\ fst (f (n, a) h0) = (n, b) /\ snd (open_list f d h) = snd (f (n, a) h0) ++ new.
Proof.
  intros K G. induction d as [|[m a] d IH]; intros h; cbn [open_list].
  - split; [exists []; now rewrite app_nil_r|discriminate].
  - pose proof (K (m, a) h) as K1. destruct (G (m, a) h) as (n1 & G1). destruct (f (m, a) h) as [[m' b] h1] eqn:F. cbn [fst snd] in *. subst m' h1.
    destruct (IH (h ++ n1)) as ((n2 & E2) & L). destruct (open_list f d (h ++ n1)) as [ys h2]. cbn [fst snd] in *. subst h2.
    split; [exists (n1 ++ n2); now rewrite app_assoc|]. intros n a' E. cbn [dget] in *. destruct (eqb n m) eqn:Q.
    + injection E as ->. apply eqb_eq in Q. subst m. exists h, b, n2. rewrite F. cbn [fst snd]. auto.
    + destruct (L n a' E) as (h0 & b' & new & X). eauto.
Qed.

(** The tables of the backend are those of the headers. *)
Record linked (s : store entry) (e : cenv) (h : heap) : Prop := {
  lk_types : forall n u, defined s Types n = Some (EType u) -> exists t, dget (e_types e) n = Some (TyE t) /\ fill h t = u;
  lk_comps : forall u n ms p, defined s (comp_table u) n = Some (EComp ms p) ->
    exists d, dget (e_comps e u) n = Some d /\ sd_pack d = p
      /\ map (fun m => {| m_name := sm_name m; m_type := fill h (sm_type m); m_val := sm_val m; m_bit := sm_bit m |}) (sd_members d) = ms }.
Lemma open_grows t h : exists new, snd (open t h) = h ++ new.
Proof. destruct (open_ok t h) as (new & E & _). eauto. Qed.
Lemma member_opens m : opens open_member (fun h m => {| m_name := sm_name m; m_type := fill h (sm_type m); m_val := sm_val m; m_bit := sm_bit m |}) m.
Proof.
  intros h. unfold open_member. destruct (open_ok (m_type m) h) as (new & E & V). destruct (open (m_type m) h) as [u h']. cbn [fst snd] in *. subst h'.
  exists new. split; [reflexivity|]. intros more. cbn [sm_name sm_type sm_val sm_bit]. rewrite V. now destruct m.
Qed.
Lemma members_open ms : opens (open_list open_member) (fun h => map (fun m => {| m_name := sm_name m; m_type := fill h (sm_type m); m_val := sm_val m; m_bit := sm_bit m |})) ms.
Proof. apply open_list_ok. intros m _. apply member_opens. Qed.
Lemma open_type_grows x h : exists new, snd (open_type x h) = h ++ new.
Proof.
  destruct x as [n [t|ms p|l|t|v t|v|v|v o]]; unfold open_type; cbn [snd]; try (exists []; now rewrite app_nil_r).
  destruct (open_grows t h) as (new & E). destruct (open t h) as [u h']. exists new. exact E.
Qed.
Lemma open_comp_grows x h : exists new, snd (open_comp x h) = h ++ new.
Proof.
  destruct x as [n [t|ms p|l|t|v t|v|v|v o]]; unfold open_comp; cbn [snd]; try (exists []; now rewrite app_nil_r).
  destruct (members_open ms h) as (new & E & _). destruct (open_list open_member ms h) as [u h']. exists new. exact E.
Qed.
Lemma open_function_grows x h : exists new, snd (open_function x h) = h ++ new.
Proof.
  destruct x as [n [t|ms p|l|t|v t|v|v|v o]]; unfold open_function; cbn [snd]; try (exists []; now rewrite app_nil_r).
  destruct (open_grows t h) as (new & E). destruct (open t h) as [u h']. exists new. exact E.
Qed.
Lemma open_type_key x h : fst (fst (open_type x h)) = fst x.
Proof. destruct x as [n [t|ms p|l|t|v t|v|v|v o]]; unfold open_type; cbn [snd]; try reflexivity. destruct (open t h). reflexivity. Qed.
Lemma open_comp_key x h : fst (fst (open_comp x h)) = fst x.
Proof. destruct x as [n [t|ms p|l|t|v t|v|v|v o]]; unfold open_comp; cbn [snd]; try reflexivity. destruct (open_list open_member ms h). reflexivity. Qed.
Lemma open_function_key x h : fst (fst (open_function x h)) = fst x.
Proof. destruct x as [n [t|ms p|l|t|v t|v|v|v o]]; unfold open_function; cbn [snd]; try reflexivity. destruct (open t h). reflexivity. Qed.
Lemma load_linked cf table win s : let L := load cf table win s in
  linked s (l_env L) (l_heap L) /\ (forall n u, defined s Functions n = Some (EFun u) -> exists t, dget (l_functions L) n = Some t /\ fill (l_heap L) t = u)
  /\ e_conf (l_env L) = cf /\ e_table (l_env L) = table.
Proof.
  unfold load.
  destruct (open_dict open_type open_type_key open_type_grows (defs s Types) []) as (_ & L1).
  destruct (open_list open_type (defs s Types) []) as [types h1].
  destruct (open_dict open_comp open_comp_key open_comp_grows (defs s Structs) h1) as ((n2 & G2) & L2).
  destruct (open_list open_comp (defs s Structs) h1) as [structs h2].
  destruct (open_dict open_comp open_comp_key open_comp_grows (defs s Unions) h2) as ((n3 & G3) & L3).
  destruct (open_list open_comp (defs s Unions) h2) as [unions h3].
  destruct (open_dict open_function open_function_key open_function_grows (defs s Functions) h3) as ((n4 & G4) & L4).
  destruct (open_list open_function (defs s Functions) h3) as [funs h4]. cbn [fst snd l_env l_heap l_functions e_conf e_table] in *.
  assert (CO : forall (d : dict str entry) (r : dict str sdef) h hx,
    (exists new, h4 = hx ++ new) ->
    (forall n a, dget d n = Some a -> exists h0 b new, dget r n = Some b /\ fst (open_comp (n, a) h0) = (n, b) /\ hx = snd (open_comp (n, a) h0) ++ new) ->
    h = h4 -> forall n ms p, dget d n = Some (EComp ms p) -> exists d', dget r n = Some d' /\ sd_pack d' = p
      /\ map (fun m => {| m_name := sm_name m; m_type := fill h (sm_type m); m_val := sm_val m; m_bit := sm_bit m |}) (sd_members d') = ms).
  { intros d r h hx (nx & Ex) L -> n ms p E. destruct (L _ _ E) as (h0 & b & new & D & F & X). exists b. split; [exact D|].
    unfold open_comp in F, X. cbn [fst snd] in F, X. destruct (members_open ms h0) as (n0 & E0 & V0).
    destruct (open_list open_member ms h0) as [ms' h']. cbn [fst snd] in *. injection F as <-. cbn [sd_pack sd_members].
    split; [reflexivity|]. rewrite Ex, X, E0, <- app_assoc. apply V0. }
  split; [split|split; [|split; reflexivity]].
  - intros n u E. destruct (L1 _ _ E) as (h0 & b & new & D & F & X). unfold open_type in F, X. cbn [fst snd] in F, X.
    destruct (open_ok u h0) as (n0 & E0 & V0). destruct (open u h0) as [u' h']. cbn [fst snd] in *. injection F as <-.
    exists u'. split; [exact D|]. rewrite G4, G3, G2, X, E0, <- !app_assoc. rewrite (app_assoc h0). apply V0.
  - intros [|] n ms p E.
    + apply (CO (defs s Unions) unions h4 h3); eauto.
    + apply (CO (defs s Structs) structs h4 h2); auto. exists (n3 ++ n4). rewrite G4, G3, app_assoc. reflexivity.
  - intros n u E. destruct (L4 _ _ E) as (h0 & b & new & D & F & X). unfold open_function in F, X. cbn [fst snd] in F, X.
    destruct (open_ok u h0) as (n0 & E0 & V0). destruct (open u h0) as [u' h']. cbn [fst snd] in *. injection F as <-.
    exists u'. split; [exact D|]. rewrite X, E0. apply V0.
Qed.
