(** Definitions used by the examples of PropsCt, and ways of checking their hypotheses. *)
From Coq Require Import Ascii String Bool Arith ZArith Lia List.
Import ListNotations.
From Verif Require Import PyBase PyBaseFacts PyStr PyStrFacts PyExpr TypeModel InitModel StoreModel DeclModel CtModel CtSpec CtProofs.

Fixpoint check (e : cenv) (P : rty -> bool) (n : nat) (t : rty) : bool :=
  match n with
  | O => false
  | S k => match eval_type (e_conf e) (e_types e) t with
           | Ok r => P r && forallb (check e P k) (params_of r)
           | Err _ => true
           end
  end.
Lemma check_reached e P n t : check e P n t = true -> forall u r, reached e t u ->
  eval_type (e_conf e) (e_types e) u = Ok r -> P r = true.
Proof.
  intros C u r R. assert (X : exists k, check e P k u = true).
  { induction R as [|u r' p R [k IH] E I]; [eauto|]. destruct k as [|k]; [discriminate|]. cbn [check] in IH. rewrite E in IH.
    apply andb_true_iff in IH. destruct IH as [_ IH]. exists k. exact (proj1 (forallb_forall _ _) IH p I). }
  destruct X as [[|k] X]; [discriminate|]. intros E. cbn [check] in X. rewrite E in X. now apply andb_true_iff in X.
Qed.
Lemma check_flat e n t : check e (fun r => no_adjacent (t_decls r)) n t = true -> flat e t.
Proof. intros C u r R E. exact (check_reached _ _ _ _ C u r R E). Qed.
Definition nonvoid (e : cenv) (p : rty) : bool :=
  match eval_type (e_conf e) (e_types e) p with Ok (CT (SName s) [] _) => negb (eqb s $"void") | _ => true end.
Lemma check_supported e n t :
  check e (fun r => no_adjacent (t_decls r) && simple_functions (e_win e) (t_decls r) && forallb (nonvoid e) (params_of r)) n t = true ->
  supported e t.
Proof.
  intros C u r R E. pose proof (check_reached _ _ _ _ C u r R E) as H. cbn beta in H. apply andb_true_iff in H. destruct H as [H NV].
  apply andb_true_iff in H. destruct H as [H1 H2]. repeat (split; [assumption|]). intros p I (q & Ep).
  pose proof (proj1 (forallb_forall _ _) NV p I) as X. unfold nonvoid in X. rewrite Ep in X. discriminate X.
Qed.
Lemma check_members e n : forallb (check e (fun r => no_adjacent (t_decls r)) n) (member_types e) = true -> flat_members e.
Proof. intros F m I. eapply check_flat. exact (proj1 (forallb_forall _ _) F m I). Qed.

Definition tag_ok (e : cenv) (u : bool) (p : str * tentry nat) : bool :=
  let tag := if u then $"union " else $"struct " in
  negb (starts_with tag (fst p))
  || match snd p with
     | TyE (CT _ (DStr n :: _) _) => eqb (fst p) (tag ++ n) && dmem (e_comps e u) n
     | _ => true
     end.
Lemma check_tags e : forallb (tag_ok e false) (e_types e) = true -> forallb (tag_ok e true) (e_types e) = true ->
  forallb (fun n => negb (dmem (e_unions e) n)) (keys (e_structs e)) = true -> tags_known e.
Proof.
  intros F1 F2 F3. split; [|split].
  - intros s n W T. unfold tag_entry in T. destruct (dget (e_types e) s) as [[[x [|[d|?|?] ?] y]|]|] eqn:D; try discriminate.
    injection T as ->. apply dget_In in D. pose proof (proj1 (forallb_forall _ _) F1 _ D) as C. unfold tag_ok in C.
    cbn [fst snd] in C. rewrite W in C. cbn [negb orb] in C. apply andb_true_iff in C. destruct C as [E K].
    apply eqb_eq in E. split; [exact E|exact K].
  - intros s n W T. unfold tag_entry in T. destruct (dget (e_types e) s) as [[[x [|[d|?|?] ?] y]|]|] eqn:D; try discriminate.
    injection T as ->. apply dget_In in D. pose proof (proj1 (forallb_forall _ _) F2 _ D) as C. unfold tag_ok in C.
    cbn [fst snd] in C. rewrite W in C. cbn [negb orb] in C. apply andb_true_iff in C. destruct C as [E K].
    apply eqb_eq in E. split; [exact E|exact K].
  - intros n K. apply dmem_In in K. pose proof (proj1 (forallb_forall _ _) F3 n K) as C. now apply negb_true_iff in C.
Qed.

(** typedef struct node { int v; struct node *next; } node_t;
    struct pair { struct node a; node_t *b; union u c; };
    union u { int i; struct pair *p; };
    struct bits { int a : 3; };
    struct anon { struct node; struct node anon_member0; };
    struct anon2 { struct node; int anon_member0; };
    struct anon3 { int x; union u; struct node; int anon_membr; };
    typedef int (*cmp)(node_t *, const void *);
    typedef int M[2][3];
    The array lists: 0: [2], 1: [3]. *)
Definition plain (s : str) (ds : list rdecl) : rty := CT (SName s) ds (repeat (Some []) (S (length ds))).
Definition mem_of (n : option str) (t : rty) : smember := {| sm_name := n; sm_type := t; sm_val := ONone; sm_bit := None |}.
Definition star : rdecl := DStr $"*".
Definition int_r : rty := plain $"int" [].
Definition par (t : rty) : option str * rty * option str := (None, t, None).
Definition sample : cenv := {|
  e_conf := {| extra_types := []; py312 := false; win32 := false |};
  e_types := [($"struct node", TyE (plain $"struct" [DStr $"node"]));
              ($"node_t", TyE (plain $"struct node" []));
              ($"struct pair", TyE (plain $"struct" [DStr $"pair"]));
              ($"union u", TyE (plain $"union" [DStr $"u"]));
              ($"struct bits", TyE (plain $"struct" [DStr $"bits"]));
              ($"struct anon", TyE (plain $"struct" [DStr $"anon"]));
              ($"struct anon2", TyE (plain $"struct" [DStr $"anon2"]));
              ($"struct anon3", TyE (plain $"struct" [DStr $"anon3"]));
              ($"cmp", TyE (plain $"int" [DFun [par (plain $"node_t" [star]); par (plain $"void" [star])]; star]));
              ($"M", TyE (plain $"int" [DArr 0; DArr 1]))];
  e_structs := [($"node", {| sd_members := [mem_of (Some $"v") int_r; mem_of (Some $"next") (plain $"struct node" [star])]; sd_pack := None |});
                ($"pair", {| sd_members := [mem_of (Some $"a") (plain $"struct node" []); mem_of (Some $"b") (plain $"node_t" [star]);
                                            mem_of (Some $"c") (plain $"union u" [])]; sd_pack := Some 4%Z |});
                ($"bits", {| sd_members := [{| sm_name := Some $"a"; sm_type := int_r; sm_val := ONone; sm_bit := Some 3%Z |}]; sd_pack := None |});
                ($"anon", {| sd_members := [mem_of None (plain $"struct node" []); mem_of (Some $"anon_member0") (plain $"struct node" [])]; sd_pack := None |});
                ($"anon2", {| sd_members := [mem_of None (plain $"struct node" []); mem_of (Some $"anon_member0") int_r]; sd_pack := None |});
                ($"anon3", {| sd_members := [mem_of (Some $"x") int_r; mem_of None (plain $"union u" []); mem_of None (plain $"struct node" []);
                                             mem_of (Some $"anon_membr") int_r]; sd_pack := None |})];
  e_unions := [($"u", {| sd_members := [mem_of (Some $"i") int_r; mem_of (Some $"p") (plain $"struct pair" [star])]; sd_pack := None |})];
  e_table := std_types;
  e_win := false |}.
Definition sample_heap : list (list pobj) := [[ONum (VInt 2)]; [ONum (VInt 3)]].
Lemma sample_tags : tags_known sample.
Proof. apply check_tags; vm_compute; reflexivity. Qed.
Lemma sample_flat : flat_members sample.
Proof. apply (check_members sample 3). vm_compute. reflexivity. Qed.
Lemma sample_ordered : ordered_typedefs sample.
Proof.
  exists (fun s => if eqb s $"cmp" then 2 else if eqb s $"node_t" then 1 else 0). intros s t n F D I N.
  apply dget_In in D. cbn [sample e_types] in D.
  repeat (destruct D as [D|D];
          [injection D as <- <-; cbn [names_in plain flat_map par fst snd app] in I;
           repeat (destruct I as [I|I]; [subst n; try discriminate N; try discriminate F; vm_compute; lia|]); destruct I|]).
  destruct D.
Qed.
Lemma sample_standard : knows_standard sample.
Proof. intros s v D. exact D. Qed.
