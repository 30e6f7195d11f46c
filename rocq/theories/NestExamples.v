(** Checks of the hypotheses on definitions inside of definitions, and a header for the examples. *)
From Coq Require Import Ascii String Bool Arith ZArith List.
Import ListNotations.
From Verif Require Import PyBase PyBaseFacts PyStr PyExpr TypeModel StoreModel StoreSpec PpModel DeclModel DeclSpec GramModel GramSpec RunSpec GramRun GramExamples.

Definition plain_lineb (l : mline) : bool :=
  forallb (every c_syntax) (l_decls l)
  && match l_bit l with Some [] => false | Some t => forallb is_digit t | None => true end
  && match l_decls l, b_qual (l_type l) with [], _ :: _ => false | _, _ => true end.
Fixpoint plain_specb (t : gspec) : bool :=
  refers t
  || match t with
     | GSpec _ (GComp _ _ body _) =>
         match lines_of body with [] => false | _ => true end
         && forallb (fun x => match x with
                              | GLine t ds i w => plain_specb t && forallb plain_params ds
                                  && plain_lineb {| l_type := spec_of t; l_decls := map tree ds; l_init := i; l_bit := w |}
                              | GMethod => true
                              end) body
     | _ => false
     end.
Lemma plain_line_check l : plain_lineb l = true -> plain_line l.
Proof.
  unfold plain_lineb. intros H. apply andb_true_iff in H. destruct H as [H H3]. apply andb_true_iff in H. destruct H as [H1 H2].
  split; [exact H1|]. split.
  - destruct (l_bit l) as [[|c t]|]; [discriminate H2|split; [discriminate|exact H2]|exact Logic.I].
  - intros E. rewrite E in H3. destruct (b_qual (l_type l)); [reflexivity|discriminate H3].
Qed.
Lemma plain_spec_check ev t v : plain_specb t = true -> plain_spec ev v t v.
Proof.
  apply (gspec_nested (fun _ => True) (fun t => plain_specb t = true -> plain_spec ev v t v)); [intros; exact Logic.I|]. clear t.
  intros q n IH H. cbn [plain_specb] in H. apply orb_true_iff in H. destruct H as [H|H]; [apply ps_ref; exact H|].
  destruct n as [w|c m body p|m body]; try discriminate H. specialize (IH c m body p eq_refl). apply andb_true_iff in H. destruct H as [NE H].
  apply ps_comp; [|intros E; rewrite E in NE; discriminate NE]. clear NE. induction IH as [|[t ds i w|] l HX _ IHl]; [constructor| |].
  - cbn [forallb] in H. apply andb_true_iff in H. destruct H as [HL H]. apply andb_true_iff in HL. destruct HL as [HL H3]. apply andb_true_iff in HL. destruct HL as [H1 H2].
    apply (pb_line ev v t v); [apply HX; exact H1|exact H2| |apply IHl; exact H]. constructor; [|constructor]. apply plain_line_check. exact H3.
  - constructor. apply IHl. exact H.
Qed.
Definition same_tag (x y : comp * option str) : bool :=
  match fst x, fst y with CStruct, CStruct | CUnion, CUnion => true | _, _ => false end
  && match snd x, snd y with Some a, Some b => eqb a b | None, None => true | _, _ => false end.
Lemma same_tag_refl x : same_tag x x = true.
Proof. destruct x as [[] [n|]]; unfold same_tag; cbn [fst snd andb]; try reflexivity; apply eqb_refl. Qed.
Fixpoint no_dup (l : list (comp * option str)) : bool :=
  match l with [] => true | x :: l' => negb (existsb (same_tag x) l') && no_dup l' end.
Lemma no_dup_check l : no_dup l = true -> NoDup l.
Proof.
  induction l as [|x l IH]; intros H; [constructor|]. cbn [no_dup] in H. apply andb_true_iff in H. destruct H as [H1 H2]. constructor; [|apply IH; exact H2].
  intros I1. apply negb_true_iff in H1. assert (X : existsb (same_tag x) l = true) by (apply existsb_exists; exists x; split; [exact I1|apply same_tag_refl]). congruence.
Qed.
Definition apartb (l : list (comp * option str)) : bool :=
  no_dup (filter (fun x => match snd x with Some _ => true | None => false end) l)
  && (forallb (fun x => match snd x with Some _ => true | None => false end) l
      || forallb (fun x => match snd x with Some n => negb (starts_with $"anon_" n) | None => true end) l).
Lemma apart_check l : apartb l = true -> told_apart l.
Proof.
  unfold apartb. intros H. apply andb_true_iff in H. destruct H as [H1 H2]. split; [apply no_dup_check; exact H1|]. intros c c' n I1 I2.
  apply orb_true_iff in H2. destruct H2 as [H|H]; rewrite forallb_forall in H.
  - specialize (H _ I1). discriminate H.
  - specialize (H _ I2). cbn [snd] in H. apply negb_true_iff in H. exact H.
Qed.
Definition staysb (g : gtop) (ds : list gtop) : bool :=
  forallb (fun y => forallb (fun x => match x with
                                      | GComp c (Some n) (_ :: _) _ =>
                                          negb (same_tag y (c, Some n)) && match snd y with None => negb (starts_with $"anon_" n) | Some _ => true end
                                      | _ => true
                                      end) (flat_map inside ds)) (defined_tags (spec_part g)).
Lemma stays_check g ds : staysb g ds = true -> stays g ds.
Proof.
  unfold staysb, stays. intros H. rewrite forallb_forall in H. apply Forall_forall. intros [c m] I1. specialize (H _ I1). cbn beta in H. rewrite forallb_forall in H.
  apply Forall_forall. intros x I2. specialize (H x I2). cbn [fst snd] in *. destruct m as [n|].
  - intros (l & p & -> & NE). destruct l as [|y l]; [congruence|]. apply andb_true_iff in H. destruct H as [H _]. rewrite same_tag_refl in H. discriminate H.
  - intros n A (l & p & -> & NE). destruct l as [|y l]; [congruence|]. apply andb_true_iff in H. destruct H as [_ H]. rewrite A in H. discriminate H.
Qed.

Fixpoint newb (s : store entry) (seen : list (option str)) (l : list gname) : bool :=
  match l with
  | [] => true
  | GEnum m body :: l' =>
      match m, body with
      | Some n, _ :: _ =>
          match defined s Enums n with None => true | Some _ => false end
          && forallb (fun x => match x with Some y => negb (eqb y n) | None => negb (starts_with $"anon_" n) end) seen
      | _, _ => true
      end && newb s (seen ++ [m]) l'
  | _ :: l' => newb s seen l'
  end.
Lemma new_check s l : forall seen, newb s seen l = true -> new_enums s seen l.
Proof.
  induction l as [|x l IH]; intros seen H l1 n y body l2 E; [destruct l1; discriminate E|]. destruct l1 as [|z l1].
  - injection E as -> ->. cbn [newb] in H. apply andb_true_iff in H. destruct H as [H _]. apply andb_true_iff in H. destruct H as [H1 H2].
    cbn [enum_keys flat_map]. rewrite app_nil_r. rewrite forallb_forall in H2. split; [destruct (defined s Enums n); [discriminate H1|reflexivity]|]. split.
    + intros I1. specialize (H2 _ I1). cbn beta iota in H2. rewrite eqb_refl in H2. discriminate H2.
    + intros I1. specialize (H2 _ I1). cbn beta iota in H2. apply negb_true_iff. exact H2.
  - injection E as -> ->. destruct z as [w|c m b p|m b]; cbn [newb] in H; [exact (IH seen H l1 n y body l2 eq_refl)|exact (IH seen H l1 n y body l2 eq_refl)|].
    apply andb_true_iff in H. destruct H as [_ H]. specialize (IH _ H l1 n y body l2 eq_refl). rewrite <- app_assoc in IH. exact IH.
Qed.
Lemma known_check ev s t v : plain_spec ev (values s) t v -> apartb (defined_tags t) = true -> newb s [] (inside_spec t) = true -> known_spec ev s t.
Proof. intros P A N. split; [exists v; exact P|]. split; [apply apart_check; exact A|apply new_check; exact N]. Qed.
Lemma known_plain ev s t : plain_specb t = true -> apartb (defined_tags t) = true -> newb s [] (inside_spec t) = true -> known_spec ev s t.
Proof. intros P. apply (known_check ev s t (values s)). apply plain_spec_check. exact P. Qed.

(** ** A header *)
Definition node (ptrs : nat) (n : str) : gdecl := GNode [] None (repeat [] ptrs) (GNamed false n) None [].
Definition field (t : gname) (ds : list gdecl) : gline := GLine (GSpec [] t) ds NoInit None.
Definition shape_h : str := $(
"struct shape {" ++ nl1 ++
"  enum kind { BOX = 3, ROUND } kind;" ++ nl1 ++
"  union {" ++ nl1 ++
"    struct { double w[ROUND], h; };" ++ nl1 ++
"    double r;" ++ nl1 ++
"    struct shape *next;" ++ nl1 ++
"  };" ++ nl1 ++
"  struct edge { int n; } first, *rest;" ++ nl1 ++
"};" ++ nl1 ++
"typedef struct edge edge;")%string.
Definition rectangle : list gline := [field (GWord $"double") [GNode [] None [] (GNamed false $"w") None [$"ROUND"]; node 0 $"h"]].
Definition part : list gline :=
  [field (GComp CStruct None rectangle None) [];
   field (GWord $"double") [node 0 $"r"];
   field (GComp CStruct (Some $"shape") [] None) [node 1 $"next"]].
Definition body_shape : list gline :=
  [field (GEnum (Some $"kind") [($"BOX", Some $"3"); ($"ROUND", None)]) [node 0 $"kind"];
   field (GComp CUnion None part None) [];
   field (GComp CStruct (Some $"edge") [field (GWord $"int") [node 0 $"n"]] None) [node 0 $"first"; node 1 $"rest"]].
Definition top_shape : gtop := GVar (GSpec [] (GComp CStruct (Some $"shape") body_shape None)) [] NoInit.
Definition top_edge : gtop := GTypedef (GSpec [] (GComp CStruct (Some $"edge") [] None)) [node 0 $"edge"].
Lemma shape_written : header base0 [] None [top_shape; top_edge] shape_h.
Proof.
  apply header_check; [|vm_compute; reflexivity|vm_compute; reflexivity|vm_compute; reflexivity|vm_compute; reflexivity].
  eapply seq_conv; [unfold top_shape, top_edge, body_shape, part, rectangle, field, node; cbn [repeat]; spell|vm_compute; reflexivity].
Qed.
Lemma shape_plain ev v : ev v $"3" = Ok (ONum (VInt 3)) ->
  plain_spec ev v (spec_part top_shape) (with_values v [($"BOX", ONum (VInt 3)); ($"ROUND", ONum (VInt 4))]).
Proof.
  intros E. apply ps_comp; [|discriminate]. eapply pb_line; [|reflexivity| |].
  - apply ps_enum; [discriminate|repeat constructor; cbn; intuition discriminate|]. eapply counts_given; [exact E|reflexivity|]. eapply counts_next; [reflexivity|]. apply counts_end.
  - constructor; [|constructor]. apply plain_line_check. vm_compute. reflexivity.
  - eapply pb_line; [apply plain_spec_check; vm_compute; reflexivity|reflexivity|constructor; [apply plain_line_check; vm_compute; reflexivity|constructor]|].
    eapply pb_line; [apply plain_spec_check; vm_compute; reflexivity|reflexivity|constructor; [apply plain_line_check; vm_compute; reflexivity|constructor]|constructor].
Qed.
