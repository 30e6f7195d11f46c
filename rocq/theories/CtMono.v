(** More nesting depth does not change what a request gives. *)
From Coq Require Import Ascii String Bool Arith ZArith Lia List.
Import ListNotations.
From Verif Require Import PyBase PyBaseFacts PyStr PyExpr TypeModel InitModel StoreModel DeclModel CtModel CtSpec.

Definition upto {A} (a b : M A) : Prop := forall st, fst (a st) = Err OutOfFuel \/ b st = a st.
Lemma upto_refl {A} (a : M A) : upto a a. Proof. intros st. now right. Qed.
Lemma upto_bind {A B} (a b : M A) (f g : A -> M B) : upto a b -> (forall x, upto (f x) (g x)) -> upto (mbind a f) (mbind b g).
Proof.
  intros U F st. unfold mbind. destruct (U st) as [E|E].
  - left. destruct (a st) as [[x|x] st1]; cbn [fst] in *; [discriminate|congruence].
  - rewrite E. destruct (a st) as [[x|x] st1]; [apply F|now right].
Qed.
Lemma upto_mapMM {A B} (f g : A -> M B) l : (forall x, upto (f x) (g x)) -> upto (mapMM f l) (mapMM g l).
Proof.
  intros F. induction l as [|x l IH]; cbn [mapMM]; [apply upto_refl|].
  apply upto_bind; [apply F|]. intros y. apply upto_bind; [exact IH|]. intros ys. apply upto_refl.
Qed.
Section Upto.
  Context (e : cenv) (f g : rty -> M pyt) (F : forall t, upto (f t) (g t)).
  Lemma upto_do_steps l : forall c, upto (do_steps e f c l) (do_steps e g c l).
  Proof.
    induction l as [|s l IH]; intros c; cbn [do_steps]; [apply upto_refl|].
    apply upto_bind; [|exact IH]. destruct s as [s|a|args std|x]; cbn [do_step]; try apply upto_refl.
    destruct (std && negb (e_win e)); [apply upto_refl|].
    apply upto_bind; [apply upto_mapMM; intros a; apply F|intros ts; apply upto_refl].
  Qed.
  Lemma upto_make_fields : forall ms names, upto (make_fields f names ms) (make_fields g names ms).
  Proof.
    induction ms as [|m ms IH]; intros names; destruct names as [|n names]; cbn [make_fields]; try apply upto_refl.
    apply upto_bind; [apply F|]. intros t. apply upto_bind; [apply IH|]. intros fs. apply upto_refl.
  Qed.
  Lemma upto_struct u n : upto (get_struct_with e f u n) (get_struct_with e g u n).
  Proof.
    intros st. unfold get_struct_with. destruct (dget (st_structs st) n); [now right|].
    destruct (resolve_alias e u n) as [n'|]; [|now right]. destruct (dget (e_comps e u) n') as [d|]; [|now right].
    destruct (name_members [] (sd_members d)) as [[names anon]|]; [|now right].
    match goal with |- fst (?a ?s) = _ \/ ?b ?s = _ => assert (U : upto a b); [|apply (U s)] end.
    apply upto_bind; [apply upto_make_fields|]. intros fs. apply upto_refl.
  Qed.
  Lemma upto_base p s ds : upto (base_type e f p s ds) (base_type e g p s ds).
  Proof.
    unfold base_type. destruct (if p && starts_ptr ds then dget ptr_types s else None); [apply upto_refl|].
    destruct (dget (e_table e) s); [apply upto_refl|].
    destruct (starts_with $"struct " s).
    { apply upto_bind; [apply upto_refl|]. intros n. apply upto_bind; [apply upto_struct|]. intros i. apply upto_refl. }
    destruct (starts_with $"union " s).
    { apply upto_bind; [apply upto_refl|]. intros n. apply upto_bind; [apply upto_struct|]. intros i. apply upto_refl. }
    apply upto_refl.
  Qed.
  Lemma upto_modified c ds : upto (modified e f c ds) (modified e g c ds).
  Proof. intros st. unfold modified. destruct (merge_all (st_heap st) ds) as [h mods]. apply upto_do_steps. Qed.
End Upto.
Lemma upto_get_type e : forall f f' p t, f <= f' -> upto (get_type e f p t) (get_type e f' p t).
Proof.
  induction f as [|f IH]; intros f' p t L; [intros st; now left|]. destruct f' as [|f']; [lia|]. cbn [get_type].
  assert (R : forall t, upto (get_type e f true t) (get_type e f' true t)) by (intros t'; apply IH; lia).
  apply upto_bind; [apply upto_refl|]. intros [[s|u] ds q]; [|apply upto_refl].
  apply upto_bind; [now apply upto_base|]. intros b. destruct p; [now apply upto_modified|apply upto_refl].
Qed.
Lemma get_type_mono e f f' p t st r : f <= f' -> get_type e f p t st = r -> fst r <> Err OutOfFuel -> get_type e f' p t st = r.
Proof. intros L E N. destruct (upto_get_type e f f' p t L st) as [X|X]; congruence. Qed.
Lemma get_struct_mono e f f' u n st r : f <= f' -> get_struct e f u n st = r -> fst r <> Err OutOfFuel -> get_struct e f' u n st = r.
Proof.
  intros L E N. destruct (upto_struct e (get_type e f true) (get_type e f' true) (fun t => upto_get_type e f f' true t L) u n st) as [X|X];
    unfold get_struct in *; congruence.
Qed.
