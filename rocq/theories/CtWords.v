(** Proofs for C06: spellings of the integer types. *)
From Coq Require Import Ascii String Bool Arith ZArith Lia List Permutation.
Import ListNotations.
From Verif Require Import PyBase PyBaseFacts PyStr PyStrFacts PyExpr TypeModel TypeProofs InitModel StoreModel DeclModel CtModel CtSpec.

Definition count (w : str) (l : list str) : nat := length (filter (eqb w) l).
Definition same_bag (a b : list str) : bool := forallb (fun w => Nat.eqb (count w a) (count w b)) (a ++ b).
Lemma count_perm a b : Permutation a b -> forall w, count w a = count w b.
Proof.
  unfold count. induction 1 as [|x a b P IH|x y a|a b c P1 IH1 P2 IH2]; intros w; cbn [filter].
  - reflexivity.
  - destruct (eqb w x); cbn [length]; now rewrite IH.
  - destruct (eqb w x), (eqb w y); reflexivity.
  - now rewrite IH1.
Qed.
Definition candidates (ws : list str) : list str :=
  flat_map (fun p => if existsb (fun m => same_bag m ws) (fst p) then [snd p] else []) integer_types.
Lemma spells_candidate ws c : spells ws c -> In c (candidates ws).
Proof.
  intros (sets & m & I & Im & P). unfold candidates. apply in_flat_map. exists (sets, c). split; [exact I|]. cbn [fst snd].
  replace (existsb (fun m => same_bag m ws) sets) with true; [now left|]. symmetry. apply existsb_exists. exists m.
  split; [exact Im|]. unfold same_bag. apply forallb_forall. intros w _. apply Nat.eqb_eq. now apply count_perm.
Qed.
Definition all_in_order : list (list str) :=
  flat_map (fun sign => flat_map (fun sz => map (fun base => sign ++ sz ++ base) [[]; [$"int"]; [$"char"]])
    [[]; [$"short"]; [$"long"]; [$"long"; $"long"]]) [[]; [$"signed"]; [$"unsigned"]].
Lemma in_order_all ws : in_order ws -> In ws all_in_order.
Proof.
  intros (sign & sz & base & -> & I1 & I2 & I3). unfold all_in_order.
  apply in_flat_map. exists sign. split; [exact I1|]. apply in_flat_map. exists sz. split; [exact I2|].
  apply in_map_iff. exists base. auto.
Qed.
Definition excluded (ws : list str) : bool := eqb ws [$"signed"] || eqb ws [$"signed"; $"char"].
Definition right_class (ws : list str) (c : str) : bool :=
  match dget std_types (canon (words_of ws)) with Some (TyC d) => eqb d c | _ => false end.
Definition ok_words (ws : list str) : bool :=
  excluded ws || forallb (right_class ws) (candidates ws).
Lemma all_ok : forallb ok_words all_in_order = true.
Proof. vm_compute. reflexivity. Qed.
Lemma all_fund : forall cf, forallb (fun ws => is_fund cf (words_of ws)) all_in_order = true.
Proof. intros [x p w]. destruct p, w; vm_compute; reflexivity. Qed.

Lemma spelling_ok e st fuel ws c : knows_standard e -> in_order ws -> spells ws c ->
  ws <> [$"signed"] -> ws <> [$"signed"; $"char"] ->
  get_type e (S fuel) true (plain_spelling ws) st = (Ok (PBase c), st).
Proof.
  intros KS IO Sp N1 N2. apply in_order_all in IO. apply spells_candidate in Sp.
  pose proof (proj1 (forallb_forall _ _) all_ok ws IO) as OK.
  pose proof (proj1 (forallb_forall _ _) (all_fund (e_conf e)) ws IO) as FU. cbn beta in FU.
  unfold ok_words in OK. apply orb_true_iff in OK. destruct OK as [X|OK].
  { unfold excluded in X. apply orb_true_iff in X. destruct X as [X|X]; apply eqb_eq in X; contradiction. }
  pose proof (proj1 (forallb_forall _ _) OK c Sp) as RC. unfold right_class in RC.
  destruct (dget std_types (canon (words_of ws))) as [[|d|]|] eqn:D; try discriminate. apply eqb_eq in RC. subst d.
  apply KS in D. cbn [get_type].
  assert (E : eval_type (e_conf e) (e_types e) (plain_spelling ws) = Ok (CT (SName (canon (words_of ws))) [] [Some []])).
  { unfold eval_type, plain_spelling. destruct (length (e_types e)); cbn [eval_fuel]; rewrite FU; reflexivity. }
  unfold mbind, lift. rewrite E. unfold base_type. cbn [starts_ptr andb]. rewrite D. cbn [fst snd].
  unfold ret, modified. destruct st. reflexivity.
Qed.
