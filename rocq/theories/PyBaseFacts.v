(** Facts about dictionaries. *)
From Coq Require Import Bool Arith Lia List.
Import ListNotations.
From Verif Require Import PyBase.

Section DictFacts.
  Context {K V : Type} `{Eqb K}.
  Implicit Types d : dict K V.

  Lemma dget_dset_same d k v : dget (dset d k v) k = Some v.
  Proof.
    induction d as [|[k' v'] d IH]; simpl.
    - rewrite eqb_refl. reflexivity.
    - destruct (eqb k k') eqn:E; simpl; rewrite E; auto.
  Qed.

  Lemma dget_dset_other d k k' v : k' <> k -> dget (dset d k v) k' = dget d k'.
  Proof.
    intros N. induction d as [|[k0 v0] d IH]; simpl.
    - apply eqb_false in N. rewrite N. reflexivity.
    - destruct (eqb_spec k k0) as [->|N0]; simpl.
      + apply eqb_false in N. rewrite N. reflexivity.
      + destruct (eqb k' k0); auto.
  Qed.

  Lemma dget_dset d k k' v :
    dget (dset d k v) k' = if eqb k' k then Some v else dget d k'.
  Proof.
    destruct (eqb_spec k' k) as [->|N].
    - apply dget_dset_same.
    - apply dget_dset_other. exact N.
  Qed.

  Lemma dget_In d k v : dget d k = Some v -> In (k, v) d.
  Proof.
    induction d as [|[k' v'] d IH]; simpl; [discriminate|].
    destruct (eqb_spec k k') as [->|N]; intros E.
    - injection E as E. subst. left. reflexivity.
    - right. auto.
  Qed.

  Lemma dget_keys d k : (exists v, dget d k = Some v) <-> In k (keys d).
  Proof.
    induction d as [|[k' v'] d IH]; simpl.
    - split; [intros [v E]; discriminate | intros []].
    - destruct (eqb_spec k k') as [->|N]; split.
      + intros _. left. reflexivity.
      + intros _. exists v'. reflexivity.
      + intros E. right. apply IH. exact E.
      + intros [E|I]; [congruence|]. apply IH. exact I.
  Qed.

  Lemma dget_None d k : dget d k = None <-> ~ In k (keys d).
  Proof.
    rewrite <- dget_keys. destruct (dget d k) as [v|]; split.
    - discriminate.
    - intros N. exfalso. apply N. exists v. reflexivity.
    - intros _ [v E]. discriminate.
    - reflexivity.
  Qed.

  Lemma dmem_In d k : dmem d k = true <-> In k (keys d).
  Proof.
    rewrite <- dget_keys. unfold dmem. destruct (dget d k) as [v|]; split; intro X;
      try discriminate; try reflexivity.
    - exists v. reflexivity.
    - destruct X as [v E]. discriminate.
  Qed.

  Lemma dmem_dset d k k' v : dmem (dset d k v) k' = eqb k' k || dmem d k'.
  Proof.
    unfold dmem. rewrite dget_dset. destruct (eqb k' k); reflexivity.
  Qed.

  Lemma NoDup_dget d k v : NoDup (keys d) -> In (k, v) d -> dget d k = Some v.
  Proof.
    induction d as [|[k' v'] d IH]; simpl; intros ND I; [contradiction|].
    inversion ND as [|? ? NI ND']; subst.
    destruct I as [E|I].
    - injection E as -> ->. rewrite eqb_refl. reflexivity.
    - destruct (eqb_spec k k') as [->|N]; auto.
      exfalso. apply NI. apply in_map_iff. exists (k', v). auto.
  Qed.

  Lemma keys_dset d k v :
    keys (dset d k v) = if dmem d k then keys d else keys d ++ [k].
  Proof.
    unfold dmem. induction d as [|[k' v'] d IH]; simpl; [reflexivity|].
    destruct (eqb_spec k k') as [->|N]; simpl; [reflexivity|].
    fold (keys (dset d k v)). fold (keys d). rewrite IH.
    destruct (dget d k); reflexivity.
  Qed.

  Lemma NoDup_dset d k v : NoDup (keys d) -> NoDup (keys (dset d k v)).
  Proof.
    intros ND. rewrite keys_dset. destruct (dmem d k) eqn:E; auto.
    assert (N : ~ In k (keys d)).
    { rewrite <- dmem_In. rewrite E. discriminate. }
    clear E. induction (keys d) as [|a l IH]; simpl.
    - constructor; auto.
    - inversion ND; subst. constructor.
      + rewrite in_app_iff. simpl. intros [I|[I|[]]]; subst; auto.
        apply N. left. reflexivity.
      + apply IH; auto. intros I. apply N. right. exact I.
  Qed.

  Lemma dget_ddel_other d k k' : k' <> k -> dget (ddel d k) k' = dget d k'.
  Proof.
    intros N. induction d as [|[k0 v0] d IH]; simpl; [reflexivity|].
    destruct (eqb_spec k k0) as [->|N0]; simpl.
    - apply eqb_false in N. rewrite N. reflexivity.
    - destruct (eqb k' k0); auto.
  Qed.

  Lemma keys_ddel_incl d k x : In x (keys (ddel d k)) -> In x (keys d).
  Proof.
    induction d as [|[k0 v0] d IH]; simpl; [auto|].
    destruct (eqb k k0); simpl; auto. intros [E|I]; auto.
  Qed.

  Lemma NoDup_ddel d k : NoDup (keys d) -> NoDup (keys (ddel d k)).
  Proof.
    induction d as [|[k0 v0] d IH]; simpl; intros ND; [constructor|].
    inversion ND; subst. destruct (eqb k k0); simpl; auto.
    constructor; auto. intros I. apply keys_ddel_incl in I. contradiction.
  Qed.

  Lemma dget_ddel_same d k : NoDup (keys d) -> dget (ddel d k) k = None.
  Proof.
    induction d as [|[k0 v0] d IH]; simpl; intros ND; [reflexivity|].
    inversion ND; subst. destruct (eqb_spec k k0) as [->|N]; simpl.
    - apply dget_None. assumption.
    - apply eqb_false in N. rewrite N. auto.
  Qed.

  Lemma dset_same_value d k v : dget d k = Some v -> dset d k v = d.
  Proof.
    induction d as [|[k0 v0] d IH]; simpl; [discriminate|].
    destruct (eqb_spec k k0) as [->|N]; intros E.
    - injection E as ->. reflexivity.
    - rewrite IH; auto.
  Qed.
End DictFacts.
