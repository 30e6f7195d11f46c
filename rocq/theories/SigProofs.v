(** Proofs about the texts of signatures. *)
From Coq Require Import Ascii String Bool Arith ZArith Lia List.
Import ListNotations.
From Verif Require Import PyBase PyStr PyExpr MacroSpec TypeModel StoreModel DeclModel DeclSpec ReprModel ReprSpec ReprProofs SigModel.
From Verif Require SigSpec.

(** ** Types are what they print *)
Section Injective.
  Context (show : pobj -> str).
  Lemma value_inj : forall v, plain_value v -> forall w, plain_value w -> of_obj show v = of_obj show w -> v = w.
  Proof.
    fix IH 2. intros v P. destruct P as [|z|b|s|l F]; intros w Q E; destruct Q as [|z'|b'|s'|l' F']; cbn [of_obj] in E; try discriminate E; try reflexivity; try congruence.
    f_equal. injection E as E. revert l' F' E. induction F as [|v l P F IHF]; intros l' F' E; destruct F' as [|w l' Q F']; cbn [map] in E; try discriminate E; [reflexivity|].
    injection E as E1 E2. f_equal; [exact (IH v P w Q E1)|exact (IHF l' F' E2)].
  Qed.
  Lemma opt_inj a b : opt_py a = opt_py b -> a = b.
  Proof. destruct a, b; cbn; congruence. Qed.
  Lemma strs_inj (a : list str) : forall b, map PStr a = map PStr b -> a = b.
  Proof. induction a as [|x a IH]; intros [|y b] E; cbn [map] in E; try discriminate E; [reflexivity|]. injection E as E1 E2. f_equal; auto. Qed.
  Lemma quals_inj (a : list qual) : forall b, Forall (fun q => q <> None) a -> Forall (fun q => q <> None) b -> map of_qual a = map of_qual b -> a = b.
  Proof.
    induction a as [|x a IH]; intros [|y b] A B E; cbn [map] in E; try discriminate E; [reflexivity|]. injection E as E1 E2. inversion A; inversion B; subst.
    f_equal; [|apply IH; assumption]. destruct x as [x|], y as [y|]; try contradiction. cbn [of_qual] in E1. injection E1 as E1. f_equal. apply strs_inj. exact E1.
  Qed.
  Lemma type_inj : forall t, plain_type t -> forall u, plain_type u -> of_type show t = of_type show u -> t = u.
  Proof.
    fix IH 2. intros t P. destruct P as [sp ds qs S1 F L N]. intros u Q. destruct Q as [sp' ds' qs' S2 F' L' N']. cbn [of_type]. intros E. injection E as E1 E2 E3.
    f_equal.
    - destruct S1 as [s|t P], S2 as [s'|t' P']; cbn [of_spec] in E1.
      + congruence.
      + destruct t'; discriminate E1.
      + destruct t; discriminate E1.
      + f_equal. exact (IH t P t' P' E1).
    - clear L L' N N' E1 E3 S1 S2. revert ds' F' E2. induction F as [|d ds P F IHF]; intros ds' F' E2; destruct F' as [|d' ds' P' F']; cbn [map] in E2; try discriminate E2; [reflexivity|].
      injection E2 as E2 E3. f_equal; [|exact (IHF ds' F' E3)]. clear IHF E3 F F'.
      destruct P as [s|a PA|args PA], P' as [s'|a' PA'|args' PA']; cbn [of_decl] in E2; try discriminate E2.
      + congruence.
      + f_equal. injection E2 as E2. revert a' PA' E2. induction PA as [|v a P PA IHP]; intros a' PA' E2; destruct PA' as [|v' a' P' PA']; cbn [map] in E2; try discriminate E2; [reflexivity|].
        injection E2 as E2 E3. f_equal; [exact (value_inj v P v' P' E2)|exact (IHP a' PA' E3)].
      + f_equal. injection E2 as E2. revert args' PA' E2. induction PA as [|[[n t] v] args P PA IHP]; intros args' PA' E2; destruct PA' as [|[[n' t'] v'] args' P' PA']; cbn [map] in E2; try discriminate E2; [reflexivity|].
        injection E2 as E2 E3 E4 E5. cbn [fst snd] in P, P'. f_equal; [|exact (IHP args' PA' E5)].
        rewrite (opt_inj _ _ E2), (opt_inj _ _ E4), (IH t P t' P' E3). reflexivity.
    - apply quals_inj; [exact N|exact N'|]. exact E3.
  Qed.
End Injective.

(** ** Reading signatures *)
(** A call is read whatever follows it. *)
Lemma reads_call n a k : good (XCall n a k) -> forall f rest, 2 * length (print (XCall n a k) ++ rest) + 1 <= f -> read f (print (XCall n a k) ++ rest) = Some (XCall n a k, rest).
Proof.
  intros G f rest L. destruct f as [|f]; [lia|]. inversion G as [| | | | | |n' a' k' [N1 N2] GA ND GK]; subst.
  cbn [print] in L |- *. rewrite <- !app_assoc in L |- *. change ($"(" ++ ?y) with ("("%char :: y) in L |- *. change ($")" ++ rest) with (")"%char :: rest) in L |- *.
  rewrite read_word; [|exact N1|intros c y E; injection E as <- _; reflexivity].
  destruct (not_keyword n N2) as (K1 & K2 & K3 & K4). rewrite K1, K2, K3, K4. change (skip ("("%char :: ?y)) with ("("%char :: y). cbv iota. change (cheq "(" "(") with true. cbv iota.
  assert (RA : Forall reads a) by (rewrite Forall_forall in *; intros y I1; apply reads_print; auto).
  assert (RK : Forall (fun y => reads (snd y)) k) by (rewrite Forall_forall in *; intros y I1; apply reads_print; apply GK; auto).
  change (map (fun y => fst y ++ $"=" ++ print (snd y)) k) with (map print_kw k) in *.
  rewrite (reads_args a k GA RA ND GK RK f _ rest); [reflexivity| |lengths].
  destruct (map print a ++ map print_kw k) as [|t l] eqn:E; [reflexivity|]. apply starts_skip. apply starts_app. apply join_starts; [discriminate|]. rewrite <- E. apply Forall_app. split.
  + apply Forall_forall. intros y I1. apply in_map_iff in I1. destruct I1 as (z & <- & I1). rewrite Forall_forall in GA. apply starts_print. auto.
  + apply Forall_forall. intros y I1. apply in_map_iff in I1. destruct I1 as (z & <- & I1). rewrite Forall_forall in GK. destruct (GK z I1) as [[N3 _] _].
    unfold print_kw. apply starts_app. apply starts_ident. exact N3.
Qed.
(** Types are read whatever follows them. *)
Lemma type_apart show t u r r' : plain_type t -> plain_type u -> repr (of_type show t) ++ r = repr (of_type show u) ++ r' -> t = u /\ r = r'.
Proof.
  intros P Q E. destruct (fine_type show t P) as [A _]. destruct (fine_type show u Q) as [B _].
  pose proof (good_syn _ A) as GA. pose proof (good_syn _ B) as GB.
  assert (SA : exists a k, syn (of_type show t) = XCall $"Type" a k) by (destruct t; eexists _, _; reflexivity).
  assert (SB : exists a k, syn (of_type show u) = XCall $"Type" a k) by (destruct u; eexists _, _; reflexivity).
  destruct SA as (a & k & SA), SB as (b & l & SB). rewrite (repr_print _ A), (repr_print _ B) in E. rewrite SA in GA. rewrite SB in GB. rewrite SA, SB in E.
  pose proof (reads_call _ _ _ GA _ r (le_n _)) as RA. rewrite E in RA. pose proof (reads_call _ _ _ GB _ r' (le_n _)) as RB. rewrite RB in RA.
  assert (X : XCall $"Type" a k = XCall $"Type" b l) by congruence. split; [|congruence].
  apply (type_inj show t P u Q). pose proof (type_repr show t P) as TA. pose proof (type_repr show u Q) as TB.
  rewrite (repr_print _ A), SA, X, <- SB, <- (repr_print _ B), TB in TA. congruence.
Qed.

(** ** Signatures *)
(** Texts that agree up to a character that neither has are the same. *)
Lemma split_same (c : ascii) a : forall b r r', ~ In c a -> ~ In c b -> a ++ c :: r = b ++ c :: r' -> a = b /\ r = r'.
Proof.
  induction a as [|x a IH]; intros [|y b] r r' A B E; cbn [app] in E.
  - split; [reflexivity|congruence].
  - exfalso. apply B. left. congruence.
  - exfalso. apply A. left. congruence.
  - assert (a = b /\ r = r') as [-> ->]; [|split; [congruence|reflexivity]].
    apply IH; [intros I1; apply A; right; exact I1|intros I1; apply B; right; exact I1|congruence].
Qed.
Lemma split_last (c : ascii) a b n m : ~ In c n -> ~ In c m -> a ++ c :: n = b ++ c :: m -> a = b /\ n = m.
Proof.
  intros N M E. apply (f_equal (@rev ascii)) in E. rewrite !rev_app_distr in E. cbn [rev] in E. rewrite <- !app_assoc in E. cbn [app] in E.
  destruct (split_same c (rev n) (rev m) (rev a) (rev b)) as [X Y]; [rewrite <- in_rev; exact N|rewrite <- in_rev; exact M|exact E|].
  split; [rewrite <- (rev_involutive a), Y; apply rev_involutive|rewrite <- (rev_involutive n), X; apply rev_involutive].
Qed.
Lemma ident_chars n : ident n -> forall c, In c n -> is_idchar c = true.
Proof. intros H c I1. destruct (ident_head n H) as (_ & _ & _ & _ & F & _). rewrite forallb_forall in F. auto. Qed.
Definition shown_name (o : option str) : str := match o with Some n => n | None => $"None" end.
Definition nameable (o : option str) : Prop := match o with Some n => ident n /\ n <> $"None" | None => True end.
Lemma shown_ident o : nameable o -> ident (shown_name o).
Proof. destruct o as [n|]; [intros [A _]; exact A|]. intros _. apply ident_check. vm_compute. reflexivity. Qed.
Lemma shown_inj o p : nameable o -> nameable p -> shown_name o = shown_name p -> o = p.
Proof. destruct o as [n|], p as [m|]; cbn [nameable shown_name]; intros A B E; try reflexivity; [congruence|destruct A; contradiction|destruct B; congruence]. Qed.
Lemma idents_apart (p : ascii -> bool) (a : str) : forall b r r', forallb p a = true -> forallb p b = true ->
  match r with c :: _ => p c = false | [] => True end -> match r' with c :: _ => p c = false | [] => True end ->
  a ++ r = b ++ r' -> a = b /\ r = r'.
Proof.
  induction a as [|x a IH]; intros [|y b] r r' A B R R' E; cbn [app forallb] in *.
  - split; [reflexivity|exact E].
  - subst r. apply andb_true_iff in B. destruct B as [B _]. congruence.
  - subst r'. apply andb_true_iff in A. destruct A as [A _]. congruence.
  - apply andb_true_iff in A, B. destruct A as [_ A], B as [_ B]. destruct (IH b r r' A B R R') as [-> ->]; [congruence|]. split; [congruence|reflexivity].
Qed.
Lemma kept {A} (P : A -> Prop) f l : Forall P l -> Forall P (filter f l).
Proof. rewrite !Forall_forall. intros H x I1. apply filter_In in I1. apply H. tauto. Qed.
Section Arguments.
  Context (show : pobj -> str).
  Definition behind (l : list (option str * aty * option str)) : str :=
    match l with [] => $")" | _ => $", " ++ join $", " (map (arg_text show) l) ++ $")" end.
  Lemma join_behind p l : join $", " (map (arg_text show) (p :: l)) ++ $")" = repr (of_type show (snd (fst p))) ++ " "%char :: shown_name (fst (fst p)) ++ behind l.
  Proof.
    destruct l as [|p' l]; cbn [map behind].
    - change (join $", " [arg_text show p]) with (arg_text show p). unfold arg_text. rewrite <- !app_assoc. reflexivity.
    - rewrite join_cons by discriminate. unfold arg_text at 1. rewrite <- !app_assoc. reflexivity.
  Qed.
  Lemma behind_head l : match behind l with c :: _ => is_idchar c = false | [] => True end.
  Proof. destruct l; reflexivity. Qed.
  Lemma args_apart l : Forall SigSpec.parameter l -> forall m, Forall SigSpec.parameter m ->
    join $", " (map (arg_text show) l) ++ $")" = join $", " (map (arg_text show) m) ++ $")" -> map fst l = map fst m.
  Proof.
    assert (NE : forall t s, $")" <> repr (of_type show t) ++ s) by (intros [] s E; discriminate E).
    induction 1 as [|p l [P N] F IH]; intros [|q m] G E.
    - reflexivity.
    - rewrite join_behind in E. exfalso. exact (NE _ _ E).
    - rewrite join_behind in E. exfalso. exact (NE _ _ (eq_sym E)).
    - rewrite !join_behind in E. inversion G as [|? ? [Q M] G']; subst. fold (nameable (fst (fst p))) in N. fold (nameable (fst (fst q))) in M.
      destruct (type_apart show _ _ _ _ P Q E) as [ET E1]. injection E1 as E1.
      destruct (idents_apart is_idchar (shown_name (fst (fst p))) (shown_name (fst (fst q))) (behind l) (behind m)) as [EN E2].
      { apply forallb_forall. apply ident_chars. apply shown_ident. exact N. }
      { apply forallb_forall. apply ident_chars. apply shown_ident. exact M. }
      { apply behind_head. } { apply behind_head. } { exact E1. }
      cbn [map]. f_equal.
      + destruct p as [[n t] v], q as [[n' t'] v']. cbn [fst snd] in *. rewrite (shown_inj _ _ N M EN), ET. reflexivity.
      + apply IH; [exact G'|]. destruct l as [|p' l], m as [|q' m]; cbn [behind] in E2; try discriminate E2; [reflexivity|].
        change ($", " ++ ?y) with (","%char :: " "%char :: y) in E2. congruence.
  Qed.
End Arguments.
Lemma void_filter l l' : SigSpec.proper l l' -> map fst (filter (fun p => negb (void_arg (snd (fst p)))) l) = l'.
Proof.
  induction 1 as [|n t v l l' [qs ->] P IH|n t v l l' NV P IH]; [reflexivity|exact IH|].
  cbn [filter fst snd]. destruct (void_arg t) eqn:V.
  - exfalso. apply NV. unfold void_arg in V. destruct t as [[s|s] [|d ds] qs]; try discriminate V. apply eqb_eq in V. subst s. exists qs. reflexivity.
  - cbn [negb map fst]. rewrite IH. reflexivity.
Qed.
Lemma stars_texts ds : Forall (fun d => d = DStr $"*" \/ d = DStr $"&") ds ->
  exists l, texts ds = Ok l /\ ds = map DStr l /\ Forall (fun s => s = $"*" \/ s = $"&") l.
Proof.
  induction 1 as [|d ds [->| ->] F (l & E & D & G)]; [exists []; repeat split; constructor| |]; cbn [texts]; rewrite E; cbn [bind]; eexists; (split; [reflexivity|]);
    (split; [cbn [map]; rewrite D; reflexivity|constructor; [auto|exact G]]).
Qed.
Lemma stars_apart l : Forall (fun s => s = $"*" \/ s = $"&") l -> forall m, Forall (fun s => s = $"*" \/ s = $"&") m -> concat l = concat m -> l = m.
Proof.
  induction 1 as [|s l A F IH]; intros m G E; destruct G as [|s' m B G]; cbn [concat] in E.
  - reflexivity.
  - destruct B as [->| ->]; discriminate E.
  - destruct A as [->| ->]; discriminate E.
  - destruct A as [->| ->], B as [->| ->]; try discriminate E; f_equal; apply IH; try exact G; injection E as E; exact E.
Qed.
Lemma stars_no c l : Forall (fun s => s = $"*" \/ s = $"&") l -> cheq c "*" = false -> cheq c "&" = false -> ~ In c (concat l).
Proof.
  intros F A B I1. apply in_concat in I1. destruct I1 as (s & I1 & I2). rewrite Forall_forall in F.
  destruct (F s I1) as [->| ->]; destruct I2 as [<-|[]]; discriminate.
Qed.
Lemma stars_head l : Forall (fun s => s = $"*" \/ s = $"&") l -> match concat l with c :: _ => SigSpec.type_char c = false | [] => True end.
Proof. intros [|s l' [->| ->] G]; exact Logic.I || reflexivity. Qed.
Lemma returned_text t : SigSpec.returned t -> exists s l qs, t = CT (SName s) (map DStr l) qs /\ forallb SigSpec.type_char s = true
  /\ Forall (fun s => s = $"*" \/ s = $"&") l /\ join_type t = Ok (s ++ concat l).
Proof.
  intros (s & ds & qs & -> & C & F). destruct (stars_texts ds F) as (l & E & D & G). exists s, l, qs. split; [congruence|]. split; [exact C|]. split; [exact G|].
  cbn [join_type]. rewrite E. reflexivity.
Qed.
Theorem signatures_apart show n n' sig sig' ret ret' params params' ps ps' text :
  SigSpec.signature sig ret params -> SigSpec.signature sig' ret' params' -> SigSpec.returned ret -> SigSpec.returned ret' ->
  Forall SigSpec.parameter params -> Forall SigSpec.parameter params' -> SigSpec.proper params ps -> SigSpec.proper params' ps' -> ident n -> ident n' ->
  pretty_signature show n sig = Ok text -> pretty_signature show n' sig' = Ok text ->
  n = n' /\ t_spec ret = t_spec ret' /\ t_decls ret = t_decls ret' /\ ps = ps'.
Proof.
  intros S1 S2 R1 R2 F1 F2 P1 P2 N1 N2 E1 E2. destruct S1 as [ret params qs], S2 as [ret' params' qs'].
  destruct (returned_text ret R1) as (s & l & q & -> & C & G & J). destruct (returned_text ret' R2) as (s' & l' & q' & -> & C' & G' & J').
  cbn [pretty_signature] in E1, E2. rewrite J in E1. rewrite J' in E2. cbn [bind] in E1, E2.
  set (fl := fun p : option str * aty * option str => negb (void_arg (snd (fst p)))) in *.
  assert (E : (s ++ concat l) ++ $" " ++ n ++ $"(" ++ join $", " (map (arg_text show) (filter fl params)) ++ $")"
            = (s' ++ concat l') ++ $" " ++ n' ++ $"(" ++ join $", " (map (arg_text show) (filter fl params')) ++ $")") by congruence.
  clear E1 E2 J J'.
  assert (NI : forall s l n, forallb SigSpec.type_char s = true -> Forall (fun s => s = $"*" \/ s = $"&") l -> ident n -> ~ In "("%char ((s ++ concat l) ++ " "%char :: n)).
  { clear. intros s l n C G N I1. apply in_app_iff in I1. destruct I1 as [I1|[X|I1]]; [apply in_app_iff in I1; destruct I1 as [I1|I1]|discriminate X|].
    - rewrite forallb_forall in C. discriminate (C _ I1).
    - revert I1. apply stars_no; [exact G|reflexivity|reflexivity].
    - discriminate (ident_chars n N _ I1). }
  destruct (split_same "("%char ((s ++ concat l) ++ " "%char :: n) ((s' ++ concat l') ++ " "%char :: n')
              (join $", " (map (arg_text show) (filter fl params)) ++ $")") (join $", " (map (arg_text show) (filter fl params')) ++ $")")) as [EH ET].
  { apply NI; assumption. } { apply NI; assumption. }
  { rewrite <- !app_assoc. rewrite <- !app_assoc in E. exact E. }
  assert (NS : forall n, ident n -> ~ In " "%char n) by (intros m N I1; discriminate (ident_chars m N _ I1)).
  destruct (split_last " "%char _ _ n n' (NS n N1) (NS n' N2) EH) as [ER ->].
  destruct (idents_apart SigSpec.type_char s s' (concat l) (concat l') C C' (stars_head l G) (stars_head l' G') ER) as [-> EL].
  rewrite (stars_apart l G l' G' EL). split; [reflexivity|]. split; [reflexivity|]. split; [reflexivity|].
  rewrite <- (void_filter _ _ P1), <- (void_filter _ _ P2). apply (args_apart show); [apply kept; exact F1|apply kept; exact F2|exact ET].
Qed.
Theorem signature_answers show n sig ret params : SigSpec.signature sig ret params -> SigSpec.returned ret -> exists text, pretty_signature show n sig = Ok text.
Proof. intros S1 R1. destruct S1 as [ret params qs]. destruct (returned_text ret R1) as (s & l & q & _ & _ & _ & J). cbn [pretty_signature]. rewrite J. eexists. reflexivity. Qed.
