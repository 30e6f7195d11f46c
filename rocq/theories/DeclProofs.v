(** Lemmas on declarators (C39, C40, C46). *)
From Coq Require Import Ascii String Bool Arith ZArith Lia List.
Import ListNotations.
From Verif Require Import PyBase PyBaseFacts PyStr PyExpr TypeModel StoreModel StoreSpec DeclModel DeclSpec.

Section Ind.
  Context (P : dtree -> Prop)
          (H : forall fq cv ps core args arrs,
              (forall c, core = Center c -> P c) ->
              (forall l, args = Some l -> Forall (fun a => match a with Arg _ d _ => P d end) l) ->
              P (DNode fq cv ps core args arrs)).
  Fixpoint dtree_nested (d : dtree) : P d.
  Proof.
    destruct d as [fq cv ps core args arrs]. apply H.
    - destruct core as [r n|r|c]; intros c' E; [discriminate|discriminate|].
      pose proof (dtree_nested c) as Q. injection E as <-. exact Q.
    - destruct args as [l|]; intros l' E; [|discriminate].
      assert (Q : Forall (fun a => match a with Arg _ d _ => P d end) l).
      { clear E l'. induction l as [|[b d v] l IH]; constructor; [apply dtree_nested|exact IH]. }
      injection E as <-. exact Q.
  Defined.
End Ind.

Lemma finish_ok b n ds q qs :
  length qs = length ds ->
  finish b (n, ds, Some q :: qs) = Ok (n, CT (SName (b_name b)) ds (Some (b_qual b ++ q) :: qs)).
Proof.
  intros L. unfold finish, mk_type. cbn [length]. rewrite L. cbn [Nat.add].
  rewrite Nat.eqb_refl. reflexivity.
Qed.

Lemma merge_snoc (a : list qual) x y (r : list qual) :
  merge_quals (a ++ [Some x]) (Some y :: r) = Ok (a ++ Some (x ++ y) :: r).
Proof.
  unfold merge_quals. rewrite rev_app_distr. cbn [rev app]. rewrite rev_involutive. reflexivity.
Qed.
Lemma merge_none (a : list qual) y (r : list qual) :
  merge_quals (a ++ [None]) (y :: r) = Err TypeError.
Proof. unfold merge_quals. rewrite rev_app_distr. reflexivity. Qed.

(** The unparenthesised part of a declarator: modifiers and qualifiers. *)
Section Node.
  Context (dim : str -> pobj).
  Definition head_toks (cv : option str) (ps : list (list str)) (arrs : list str) : list adecl :=
    (match cv with Some c => [DStr c] | None => [] end ++ repeat (DStr $"*") (length ps))
      ++ map (fun x => DArr [dim x]) arrs.
  Definition head_quals (cv : option str) (ps : list (list str)) (arrs : list str) : list qual :=
    (match cv with Some _ => [None] | None => [] end ++ map Some ps) ++ repeat (Some []) (length arrs).
  Lemma head_length cv ps arrs : length (head_quals cv ps arrs) = length (head_toks cv ps arrs).
  Proof.
    unfold head_quals, head_toks. rewrite !app_length, !map_length, !repeat_length.
    destruct cv; reflexivity.
  Qed.

  Definition args_part (args : option (list darg)) : res (list adecl * list qual) :=
    match args with
    | None => Ok ([], [])
    | Some l => do l' <- process_args dim l; Ok ([DFun l'], [Some []])
    end.

  Lemma process_node fq cv ps core args arrs :
    process_declarator dim (DNode fq cv ps core args arrs) =
    (do ta <- args_part args;
     match core with
     | Named ref n =>
         Ok (Some n, (head_toks cv ps arrs ++ fst ta) ++ (if ref : bool then [DStr $"&"] else []),
             ((Some fq :: head_quals cv ps arrs) ++ snd ta) ++ (if ref : bool then [Some []] else []))
     | Abstract ref =>
         Ok (None, (head_toks cv ps arrs ++ fst ta) ++ (if ref : bool then [DStr $"&"] else []),
             ((Some fq :: head_quals cv ps arrs) ++ snd ta) ++ (if ref : bool then [Some []] else []))
     | Center c =>
         do r <- process_declarator dim c;
         match r with
         | (n, t, q) =>
             do qs <- join_quals ((Some fq :: head_quals cv ps arrs) ++ snd ta) q;
             Ok (n, (head_toks cv ps arrs ++ fst ta) ++ t, qs)
         end
     end).
  Proof. reflexivity. Qed.

  (** ** C40 *)
  Definition good (d : dtree) : Prop :=
    exists n ds q qs, process_declarator dim d = Ok (n, ds, Some q :: qs) /\ length qs = length ds.

  Lemma args_good l :
    Forall (fun a => match a with Arg _ d _ => every no_bare_conv d = true -> good d end) l ->
    forallb (fun a => match a with Arg _ d' _ => every no_bare_conv d' end) l = true ->
    exists l', process_args dim l = Ok l'.
  Proof.
    induction 1 as [|[b d v] l H _ IH]; intros E.
    - exists []. reflexivity.
    - cbn [forallb] in E. apply andb_true_iff in E. destruct E as [E1 E2].
      destruct (H E1) as (n & ds & q & qs & P & L).
      destruct (IH E2) as [l' Q].
      eexists. cbn [process_args]. rewrite P. cbn [bind]. rewrite (finish_ok b n ds q qs L).
      cbn [bind]. fold (process_args dim). rewrite Q. reflexivity.
  Qed.

  Lemma snoc_case {A} (x : A) (l : list A) : exists a y, x :: l = a ++ [y].
  Proof.
    exists (removelast (x :: l)), (last (x :: l) x). apply app_removelast_last. discriminate.
  Qed.

  (** When the last level before a parenthesis is a calling convention. *)
  Lemma last_level fq cv ps arrs (x : list qual) :
    (x = [] \/ x = [Some []]) ->
    (exists a y, (Some fq :: head_quals cv ps arrs) ++ x = a ++ [Some y])
    \/ ((exists c, cv = Some c) /\ ps = [] /\ arrs = [] /\ x = []).
  Proof.
    intros [-> | ->].
    2: { left. eexists _, []. reflexivity. }
    rewrite app_nil_r. unfold head_quals.
    destruct arrs as [|e arrs].
    - cbn [length repeat]. rewrite app_nil_r. destruct ps as [|p ps].
      + cbn [map]. rewrite app_nil_r. destruct cv as [c|].
        * right. eauto.
        * left. exists [], fq. reflexivity.
      + left. destruct (snoc_case p ps) as (a & y & E). rewrite E, map_app.
        exists (Some fq :: match cv with Some _ => [None] | None => [] end ++ map Some a), y.
        cbn [map app]. rewrite app_assoc. reflexivity.
    - left. replace (repeat (Some []) (length (e :: arrs))) with
        (repeat (@Some (list str) []) (length arrs) ++ [Some []]).
      + eexists (Some fq :: _), []. rewrite app_assoc. reflexivity.
      + cbn [length]. clear. induction (length arrs) as [|k IH]; [reflexivity|].
        cbn [repeat app]. rewrite IH. reflexivity.
  Qed.

  Lemma every_node p fq cv ps core args arrs :
    every p (DNode fq cv ps core args arrs) = true ->
    p (DNode fq cv ps core args arrs) = true
    /\ (forall c, core = Center c -> every p c = true)
    /\ (forall l, args = Some l ->
          forallb (fun a => match a with Arg _ d' _ => every p d' end) l = true).
  Proof.
    intros E. cbn [every] in E. apply andb_true_iff in E. destruct E as [E E3].
    apply andb_true_iff in E. destruct E as [E1 E2]. split; [exact E1|]. split.
    - intros c ->. exact E2.
    - intros l ->. exact E3.
  Qed.

  Lemma every_node_false p fq cv ps core args arrs :
    p (DNode fq cv ps core args arrs) = true ->
    (forall c, core = Center c -> every p c = true) ->
    (forall l, args = Some l ->
          forallb (fun a => match a with Arg _ d' _ => every p d' end) l = true) ->
    every p (DNode fq cv ps core args arrs) = true.
  Proof.
    intros E1 E2 E3. cbn [every]. rewrite E1. destruct core as [| |c]; destruct args as [l|];
      rewrite ?(E2 _ eq_refl), ?(E3 _ eq_refl); reflexivity.
  Qed.

  Lemma process_good d : every no_bare_conv d = true -> good d.
  Proof.
    induction d as [fq cv ps core args arrs IHc IHa] using dtree_nested. intros E.
    destruct (every_node _ _ _ _ _ _ _ E) as (E1 & E2 & E3).
    assert (T : exists ta, (args_part args = Ok ta) /\ (snd ta = [] /\ args = None \/ snd ta = [Some []])
                           /\ length (snd ta) = length (fst ta)).
    { destruct args as [l|].
      - destruct (args_good l) as [l' Q]; [apply IHa; reflexivity|apply E3; reflexivity|].
        unfold args_part. rewrite Q. eexists. split; [reflexivity|]. split; [right; reflexivity|reflexivity].
      - eexists. split; [reflexivity|]. split; [left; split; reflexivity|reflexivity]. }
    destruct T as ([t4 q4] & T & X & L). cbn [fst snd] in *.
    unfold good. rewrite process_node, T. cbn [bind fst snd].
    pose proof (head_length cv ps arrs) as HL.
    destruct core as [ref n|ref|c].
    - do 4 eexists. split; [reflexivity|]. rewrite !app_length, HL, L. destruct ref; reflexivity.
    - do 4 eexists. split; [reflexivity|]. rewrite !app_length, HL, L. destruct ref; reflexivity.
    - destruct (IHc c eq_refl (E2 c eq_refl)) as (n & ds & q & qs & P & L').
      rewrite P. cbn [bind].
      destruct (last_level fq cv ps arrs q4) as [(a & y & Q)|((c' & ->) & -> & -> & ->)].
      + tauto.
      + unfold join_quals. rewrite Q, merge_snoc. cbn [bind].
        destruct a as [|z a].
        * do 4 eexists. split; [reflexivity|].
          assert (length (head_quals cv ps arrs ++ q4) = 0).
          { apply (f_equal (@length qual)) in Q. cbn in Q. cbn. lia. }
          rewrite !app_length in *. lia.
        * cbn [app] in Q. injection Q as <- Q. do 4 eexists. split; [reflexivity|].
          apply (f_equal (@length qual)) in Q. rewrite !app_length in *. cbn [length] in *. lia.
      + exfalso. destruct X as [[_ ->]|X]; [|discriminate]. cbn in E1. discriminate.
  Qed.

  Lemma args_bad l l' :
    Forall (fun a => match a with
      Arg _ d _ => forall x, process_declarator dim d = Ok x -> every no_bare_conv d = true end) l ->
    process_args dim l = Ok l' ->
    forallb (fun a => match a with Arg _ d' _ => every no_bare_conv d' end) l = true.
  Proof.
    intros F. revert l'. induction F as [|[b d v] l H _ IH]; intros l' E; [reflexivity|].
    cbn [process_args] in E. destruct (process_declarator dim d) as [r|] eqn:P; [|discriminate].
    cbn [bind] in E. destruct (finish b r) as [nt|]; [|discriminate]. cbn [bind] in E.
    fold (process_args dim) in E. destruct (process_args dim l) as [rest|] eqn:R; [|discriminate].
    cbn [forallb]. rewrite (H _ eq_refl). cbn [andb]. eapply IH. reflexivity.
  Qed.

  Lemma process_ok d x : process_declarator dim d = Ok x -> every no_bare_conv d = true.
  Proof.
    revert x. induction d as [fq cv ps core args arrs IHc IHa] using dtree_nested. intros x E.
    rewrite process_node in E.
    assert (EA : forall l, args = Some l ->
          forallb (fun a => match a with Arg _ d' _ => every no_bare_conv d' end) l = true).
    { intros l ->. unfold args_part in E. destruct (process_args dim l) as [l'|] eqn:P; [|discriminate].
      eapply args_bad; [|exact P]. apply IHa. reflexivity. }
    apply every_node_false; [|intros c ->|exact EA].
    - destruct core as [| |c]; destruct cv as [cc|]; destruct ps; destruct args; destruct arrs;
        try reflexivity.
      cbn [args_part bind fst snd] in E.
      destruct (process_declarator dim c) as [[[n t] q]|] eqn:P; [|discriminate].
      cbn [bind] in E. unfold join_quals in E. rewrite app_nil_r in E.
      change (Some fq :: head_quals (Some cc) [] []) with ([Some fq] ++ [@None (list str)]) in E.
      destruct q as [|y r]; [discriminate|]. rewrite merge_none in E. discriminate.
    - destruct (args_part args) as [ta|]; [|discriminate].
      cbn [bind] in E. destruct (process_declarator dim c) as [r|] eqn:P; [|discriminate].
      exact (IHc c eq_refl _ P).
  Qed.

  (** Every failure is a TypeError. *)
  Lemma args_error l e :
    Forall (fun a => match a with
      Arg _ d _ => forall e, process_declarator dim d = Err e -> e = TypeError end) l ->
    process_args dim l = Err e -> e = TypeError.
  Proof.
    induction 1 as [|[b d v] l H _ IH]; intros E; [discriminate|].
    cbn [process_args] in E. destruct (process_declarator dim d) as [r|e'] eqn:P.
    - cbn [bind] in E. pose proof (process_good d (process_ok _ _ P)) as (n & ds & q & qs & P' & L).
      rewrite P in P'. injection P' as ->. rewrite (finish_ok b n ds q qs L) in E. cbn [bind] in E.
      fold (process_args dim) in E. destruct (process_args dim l) as [rest|e'] eqn:R; [discriminate|].
      cbn [bind] in E. injection E as ->. apply IH. reflexivity.
    - cbn [bind] in E. injection E as ->. apply H. reflexivity.
  Qed.
  Lemma process_error d e : process_declarator dim d = Err e -> e = TypeError.
  Proof.
    revert e. induction d as [fq cv ps core args arrs IHc IHa] using dtree_nested. intros e E.
    rewrite process_node in E. unfold args_part in E.
    destruct args as [l|].
    - destruct (process_args dim l) as [l'|e'] eqn:P.
      + cbn [bind fst snd] in E. destruct core as [| |c]; try discriminate.
        destruct (process_declarator dim c) as [[[n t] q]|e'] eqn:Pc.
        * cbn [bind] in E. pose proof (process_good c (process_ok _ _ Pc)) as (n' & ds & q' & qs & P' & L).
          rewrite Pc in P'. injection P' as -> -> ->.
          destruct (last_level fq cv ps arrs [Some []]) as [(a & y & Q)|(_ & _ & _ & Q)];
            [tauto| |discriminate].
          unfold join_quals in E. rewrite Q, merge_snoc in E. discriminate.
        * cbn [bind] in E. injection E as ->. exact (IHc c eq_refl _ Pc).
      + cbn [bind] in E. injection E as ->. eapply args_error; [|exact P]. apply IHa. reflexivity.
    - cbn [bind fst snd] in E. destruct core as [| |c]; try discriminate.
      destruct (process_declarator dim c) as [[[n t] q]|e'] eqn:Pc.
      + cbn [bind] in E. pose proof (process_good c (process_ok _ _ Pc)) as (n' & ds & q' & qs & P' & L).
        rewrite Pc in P'. injection P' as -> -> ->.
        destruct (last_level fq cv ps arrs []) as [(a & y & Q)|((c' & ->) & -> & -> & _)].
        * tauto.
        * unfold join_quals in E. rewrite Q, merge_snoc in E. discriminate.
        * unfold join_quals in E. rewrite app_nil_r in E.
          change (Some fq :: head_quals (Some c') [] []) with ([Some fq] ++ [@None (list str)]) in E.
          rewrite merge_none in E. cbn [bind] in E. injection E as <-. reflexivity.
      + cbn [bind] in E. injection E as ->. exact (IHc c eq_refl _ Pc).
  Qed.

  Lemma process_type_iff b d :
    (exists n t, process_type dim b d = Ok (n, t) /\ length (t_quals t) = 1 + length (t_decls t))
    <-> every no_bare_conv d = true.
  Proof.
    split.
    - intros (n & t & E & _). unfold process_type in E.
      destruct (process_declarator dim d) as [x|] eqn:P; [|discriminate]. exact (process_ok _ _ P).
    - intros E. destruct (process_good d E) as (n & ds & q & qs & P & L).
      exists n, (CT (SName (b_name b)) ds (Some (b_qual b ++ q) :: qs)).
      unfold process_type. rewrite P. cbn [bind]. rewrite (finish_ok b n ds q qs L).
      split; [reflexivity|]. cbn [t_quals t_decls length]. lia.
  Qed.
  Lemma process_type_error b d e :
    process_type dim b d = Err e -> e = TypeError.
  Proof.
    unfold process_type. intros E. destruct (process_declarator dim d) as [x|e'] eqn:P.
    - pose proof (process_good d (process_ok _ _ P)) as (n & ds & q & qs & P' & L).
      rewrite P in P'. injection P' as ->. cbn [bind] in E.
      rewrite (finish_ok b n ds q qs L) in E. discriminate.
    - cbn [bind] in E. injection E as ->. exact (process_error _ _ P).
  Qed.
End Node.

(** ** C39 *)
Lemma qualify_nil t : qualify [] t = t.
Proof. induction t; cbn [qualify]; rewrite ?app_nil_r, ?IHt; reflexivity. Qed.

Definition unq (d : dtree) : dtree :=
  match d with DNode _ cv ps core args arrs => DNode [] cv ps core args arrs end.
Definition firstq (d : dtree) : list str := match d with DNode fq _ _ _ _ _ => fq end.
Lemma c_type_unq dim d t : c_type dim d t = c_type dim (unq d) (qualify (firstq d) t).
Proof. destruct d. cbn [c_type unq firstq]. rewrite qualify_nil. reflexivity. Qed.

Lemma read_app R ds1 : forall qs1 ds2 qs2 t run, length qs1 = length ds1 ->
  read_decls R (ds1 ++ ds2) (qs1 ++ qs2) t run =
  match read_decls R ds1 qs1 t run with
  | Some (t', run') => read_decls R ds2 qs2 t' run'
  | None => None
  end.
Proof.
  induction ds1 as [|d ds1 IH]; intros [|q qs1] ds2 qs2 t run L; try discriminate; [reflexivity|].
  injection L as L. cbn [app read_decls]. destruct d as [s|[|n [|? ?]]|args]; destruct q as [q|]; try reflexivity.
  - destruct (eqb s $"*"); [apply IH; exact L|]. destruct (eqb s $"&"); [apply IH; exact L|reflexivity].
  - apply IH. exact L.
  - apply IH. exact L.
  - destruct (read_args R args); [apply IH; exact L|reflexivity].
Qed.

Lemma read_ptrs R ps : forall t, ps <> [] ->
  forall run, read_decls R (repeat (DStr $"*") (length ps)) (map Some ps) t run
              = Some (fold_left (fun u q => TPtr q u) ps (close_run run t), []).
Proof.
  induction ps as [|p ps IH]; intros t N run; [congruence|].
  cbn [length repeat map read_decls fold_left]. rewrite eqb_refl.
  destruct ps as [|p' ps]; [reflexivity|].
  rewrite IH by discriminate. reflexivity.
Qed.
Lemma read_arrays R (dim : str -> pobj) arrs : forall t run,
  read_decls R (map (fun x => DArr [dim x]) arrs) (repeat (Some []) (length arrs)) t run
  = Some (t, run ++ map (fun x => ([], dim x)) arrs).
Proof.
  induction arrs as [|a arrs IH]; intros t run; cbn [length repeat map read_decls].
  - rewrite app_nil_r. reflexivity.
  - rewrite IH, <- app_assoc. reflexivity.
Qed.
Lemma close_arrays (dim : str -> pobj) arrs t :
  close_run (map (fun x => ([], dim x)) arrs) t = fold_right (fun x u => TArr [] (dim x) u) t arrs.
Proof. induction arrs as [|a arrs IH]; [reflexivity|]. cbn. rewrite <- IH. reflexivity. Qed.

(** The part before the parameters, read from any state: either everything read before is
    closed, or nothing but arrays has been added. *)
Lemma read_head dim R cv ps arrs t run :
  (cv <> None \/ ps <> [] \/ arrs <> [] -> (cv = None /\ ps = [] /\ arrs <> [] -> run = []) ->
   exists t' run', read_decls R (head_toks dim cv ps arrs) (head_quals cv ps arrs) t run = Some (t', run')
     /\ close_run run' t' = fold_right (fun x u => TArr [] (dim x) u)
          (fold_left (fun u q => TPtr q u) ps
             (match cv with Some c => TConv c (close_run run t) | None => close_run run t end)) arrs
     /\ (arrs = [] -> run' = []))
  /\ (cv = None -> ps = [] -> arrs = [] ->
      read_decls R (head_toks dim cv ps arrs) (head_quals cv ps arrs) t run = Some (t, run)).
Proof.
  split.
  2: { intros -> -> ->. reflexivity. }
  intros N A. unfold head_toks, head_quals.
  rewrite read_app by (destruct cv; cbn; rewrite ?map_length, ?repeat_length; reflexivity).
  rewrite read_app by (destruct cv; reflexivity).
  destruct cv as [c|].
  - cbn [read_decls]. destruct ps as [|p ps].
    + cbn [length repeat map read_decls]. rewrite read_arrays.
      eexists _, _. split; [reflexivity|]. rewrite app_nil_l, close_arrays.
      split; [reflexivity|]. intros ->. reflexivity.
    + rewrite read_ptrs by discriminate. rewrite read_arrays.
      eexists _, _. split; [reflexivity|]. rewrite app_nil_l, close_arrays.
      split; [reflexivity|]. intros ->. reflexivity.
  - cbn [read_decls]. destruct ps as [|p ps].
    + cbn [length repeat map read_decls fold_left]. rewrite read_arrays.
      destruct arrs as [|a arrs]; [destruct N as [N|[N|N]]; congruence|].
      rewrite A by (repeat split; discriminate).
      eexists _, _. split; [reflexivity|]. rewrite app_nil_l, close_arrays.
      split; [reflexivity|]. discriminate.
    + rewrite read_ptrs by discriminate. rewrite read_arrays.
      eexists _, _. split; [reflexivity|]. rewrite app_nil_l, close_arrays.
      split; [reflexivity|]. intros ->. reflexivity.
Qed.

Definition reads (dim : str -> pobj) (d : dtree) : Prop :=
  exists ds qs, process_declarator dim d = Ok (c_name d, ds, Some (firstq d) :: qs)
    /\ length qs = length ds
    /\ forall t run, (is_array d = true -> run = []) ->
       exists t' run', read_decls read_type ds qs t run = Some (t', run')
         /\ close_run run' t' = c_type dim (unq d) (close_run run t).

Definition c_args (dim : str -> pobj) (l : list darg) : list (option str * cty * option str) :=
  map (fun a => match a with
                | Arg b d' v => (c_name d', c_type dim d' (TBase (b_qual b) (b_name b)), v)
                end) l.

Lemma reads_type dim b d : reads dim d ->
  exists t, process_type dim b d = Ok (c_name d, t)
    /\ read_type t = Some (c_type dim d (TBase (b_qual b) (b_name b))).
Proof.
  intros (ds & qs & P & L & R). unfold process_type. rewrite P. cbn [bind].
  rewrite (finish_ok b _ ds _ qs L). eexists. split; [reflexivity|].
  cbn [read_type]. destruct (R (TBase (b_qual b ++ firstq d) (b_name b)) []) as (t' & run' & E & C); [reflexivity|].
  rewrite E, C, (c_type_unq dim d). reflexivity.
Qed.

Lemma reads_args dim l :
  Forall (fun a => match a with Arg _ d _ => every c_syntax d = true -> reads dim d end) l ->
  forallb (fun a => match a with Arg _ d' _ => every c_syntax d' end) l = true ->
  exists l', process_args dim l = Ok l' /\ read_args read_type l' = Some (c_args dim l).
Proof.
  induction 1 as [|[b d v] l H _ IH]; intros E.
  - exists []. split; reflexivity.
  - cbn [forallb] in E. apply andb_true_iff in E. destruct E as [E1 E2].
    destruct (IH E2) as (l' & Q & R). destruct (reads_type dim b d (H E1)) as (t & P & RT).
    exists ((c_name d, t, v) :: l'). cbn [process_args]. fold (process_args dim).
    unfold process_type in P. destruct (process_declarator dim d) as [r|]; [|discriminate].
    cbn [bind] in *. rewrite P. cbn [bind fst snd]. rewrite Q. split; [reflexivity|].
    cbn [read_args]. rewrite RT, R. reflexivity.
Qed.

Lemma is_array_center cv ps args arrs fq c :
  cv = None -> ps = [] -> args = None -> arrs = [] ->
  is_array (DNode fq cv ps (Center c) args arrs) = is_array c.
Proof. intros -> -> -> ->. reflexivity. Qed.

Lemma process_reads dim d : every c_syntax d = true -> reads dim d.
Proof.
  induction d as [fq cv ps core args arrs IHc IHa] using dtree_nested. intros E.
  destruct (every_node _ _ _ _ _ _ _ E) as (E1 & E2 & E3).
  apply andb_true_iff in E1. destruct E1 as [E1 NS]. apply andb_true_iff in E1. destruct E1 as [NB NI].
  assert (T : exists ta qa, args_part dim args = Ok (ta, qa) /\ length qa = length ta
             /\ (args = None /\ ta = [] /\ qa = []
                 \/ exists l, args = Some l /\ qa = [Some []]
                    /\ forall t run, read_decls read_type ta qa t run
                                     = Some (TFun [] (c_args dim l) (close_run run t), []))).
  { destruct args as [l|].
    - destruct (reads_args dim l) as (l' & Q & R); [apply IHa; reflexivity|apply E3; reflexivity|].
      exists [DFun l'], [Some []]. cbn [args_part]. rewrite Q. split; [reflexivity|].
      split; [reflexivity|]. right. exists l. split; [reflexivity|]. split; [reflexivity|].
      intros t run. cbn [read_decls]. rewrite R. reflexivity.
    - exists [], []. split; [reflexivity|]. split; [reflexivity|]. left. repeat split; reflexivity. }
  destruct T as (ta & qa & T & LA & TA).
  pose proof (head_length dim cv ps arrs) as HL.
  (* head and parameters *)
  assert (HA : forall t run, (is_array (DNode fq cv ps core args arrs) = true -> run = []) ->
    exists t' run',
      read_decls read_type (head_toks dim cv ps arrs ++ ta) (head_quals cv ps arrs ++ qa) t run = Some (t', run')
      /\ close_run run' t' =
         (let t3 := fold_right (fun x u => TArr [] (dim x) u)
          (fold_left (fun u q => TPtr q u) ps
             (match cv with Some c => TConv c (close_run run t) | None => close_run run t end)) arrs in
          match args with None => t3 | Some l => TFun [] (c_args dim l) t3 end)
      /\ (args <> None -> run' = [])
      /\ (args = None -> arrs = [] -> cv <> None \/ ps <> [] -> run' = [])
      /\ (args = None -> arrs = [] -> cv = None -> ps = [] -> run' = run)).
  { intros t run HR. rewrite read_app by exact HL.
    destruct (read_head dim read_type cv ps arrs t run) as [H1 H2].
    assert (D : (cv = None /\ ps = [] /\ arrs = []) \/ (cv <> None \/ ps <> [] \/ arrs <> [])).
    { clear. destruct cv as [c|]; [right; left; discriminate|].
      destruct ps as [|p ps]; [|right; right; left; discriminate].
      destruct arrs as [|a arrs]; [left; auto|right; right; right; discriminate]. }
    destruct D as [(-> & -> & ->)|D].
    - rewrite H2 by reflexivity. destruct TA as [(-> & -> & ->)|(l & -> & -> & R)].
      + exists t, run. cbn. repeat split; try congruence. intros _ _ [C|C]; congruence.
      + rewrite R. eexists _, _. split; [reflexivity|]. repeat split; try congruence.
    - destruct H1 as (t' & run' & RD & CL & EM); [exact D| |].
      { intros (-> & -> & NA). apply HR. destruct arrs; [congruence|reflexivity]. }
      rewrite RD. destruct TA as [(-> & -> & ->)|(l & -> & -> & R)].
      + exists t', run'. split; [reflexivity|]. split; [exact CL|].
        split; [congruence|]. split; [intros _ A _; exact (EM A)|].
        intros _ -> -> ->. destruct D as [D|[D|D]]; congruence.
      + rewrite R. eexists _, _. split; [reflexivity|]. rewrite CL. repeat split; congruence. }
  unfold reads. rewrite process_node, T. cbn [bind fst snd].
  destruct core as [ref n|ref|c].
  - exists ((head_toks dim cv ps arrs ++ ta) ++ (if ref then [DStr $"&"] else [])),
      ((head_quals cv ps arrs ++ qa) ++ (if ref then [Some []] else [])).
    split; [reflexivity|]. split; [rewrite !app_length, HL, LA; destruct ref; reflexivity|].
    intros t run HR. destruct (HA t run HR) as (t' & run' & RD & CL & _).
    rewrite (read_app read_type (head_toks dim cv ps arrs ++ ta) (head_quals cv ps arrs ++ qa))
      by (rewrite !app_length; lia).
    rewrite RD. cbn [unq c_type]. rewrite qualify_nil. destruct ref.
    + cbn [read_decls]. eexists _, _. split; [reflexivity|]. cbn [close_run fold_right].
      rewrite CL. destruct args; reflexivity.
    + eexists _, _. split; [reflexivity|]. rewrite CL. destruct args; reflexivity.
  - exists ((head_toks dim cv ps arrs ++ ta) ++ (if ref then [DStr $"&"] else [])),
      ((head_quals cv ps arrs ++ qa) ++ (if ref then [Some []] else [])).
    split; [reflexivity|]. split; [rewrite !app_length, HL, LA; destruct ref; reflexivity|].
    intros t run HR. destruct (HA t run HR) as (t' & run' & RD & CL & _).
    rewrite (read_app read_type (head_toks dim cv ps arrs ++ ta) (head_quals cv ps arrs ++ qa))
      by (rewrite !app_length; lia).
    rewrite RD. cbn [unq c_type]. rewrite qualify_nil. destruct ref.
    + cbn [read_decls]. eexists _, _. split; [reflexivity|]. cbn [close_run fold_right].
      rewrite CL. destruct args; reflexivity.
    + eexists _, _. split; [reflexivity|]. rewrite CL. destruct args; reflexivity.
  - destruct (IHc c eq_refl (E2 c eq_refl)) as (ds & qs & P & L & R).
    rewrite P. cbn [bind].
    assert (FQ : firstq c = []).
    { destruct c as [[|q0 q1] ? ? ? ? ?]; [reflexivity|discriminate]. }
    rewrite FQ in *.
    assert (UQ : unq c = c). { destruct c. cbn in FQ. subst. reflexivity. }
    rewrite UQ in R.
    assert (J : join_quals ((Some fq :: head_quals cv ps arrs) ++ qa) (Some [] :: qs)
                = Ok ((Some fq :: head_quals cv ps arrs ++ qa) ++ qs)).
    { destruct (last_level fq cv ps arrs qa) as [(a & y & Q)|((c' & ->) & -> & -> & ->)].
      - destruct TA as [(_ & _ & ->)|(l & _ & -> & _)]; tauto.
      - unfold join_quals. cbn [app] in *. rewrite Q, merge_snoc, app_nil_r. f_equal.
        change (Some fq :: (head_quals cv ps arrs ++ qa) ++ qs)
          with ((Some fq :: head_quals cv ps arrs ++ qa) ++ qs).
        rewrite Q, <- app_assoc. reflexivity.
      - exfalso. destruct TA as [(-> & _)|(l & _ & Q & _)]; [|discriminate]. cbn in NB. discriminate. }
    rewrite J. cbn [bind].
    exists ((head_toks dim cv ps arrs ++ ta) ++ ds), ((head_quals cv ps arrs ++ qa) ++ qs).
    split; [reflexivity|]. split; [rewrite !app_length; lia|].
    intros t run HR. destruct (HA t run HR) as (t' & run' & RD & CL & X1 & X2 & X3).
    rewrite (read_app read_type (head_toks dim cv ps arrs ++ ta) (head_quals cv ps arrs ++ qa))
      by (rewrite !app_length; lia).
    rewrite RD. destruct (R t' run') as (t2 & run2 & RD2 & CL2).
    { intros IA. destruct args as [l|]; [apply X1; discriminate|].
      destruct arrs as [|a arrs].
      - destruct cv as [cc|]; [apply X2; try reflexivity; left; discriminate|].
        destruct ps as [|p ps]; [|apply X2; try reflexivity; right; discriminate].
        rewrite X3 by reflexivity. apply HR. cbn [is_array]. exact IA.
      - exfalso. cbn in NS. rewrite IA in NS. discriminate. }
    exists t2, run2. split; [exact RD2|]. rewrite CL2, CL. cbn [unq c_type].
    rewrite qualify_nil. destruct args; reflexivity.
Qed.
