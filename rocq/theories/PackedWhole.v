(** Proofs about packing in whole headers: the declarations (C81). *)
From Coq Require Import Ascii String Bool Arith ZArith Lia List.
Import ListNotations.
From Verif Require Import PyBase PyBaseFacts PyStr PyStrFacts PyExpr TypeModel StoreModel StoreSpec StoreProofs.
From Verif Require Import MacroModel MacroSpec MacroProofs MacroDefProofs PpModel CondProofs TextProofs DeclModel DeclSpec DeclStore EvalModel EvalProofs GramModel GramSpec RunSpec GramRun SectionProofs.
From Verif Require Import MacroSpec PpSpec TextSpec PackProofs EvalSpec FileModel FileSpec FileProofs FileTables FileLayout FileWhole PackedSpec PackedProofs.

(** ** The packing the parser sees *)
Lemma after_cons k e es : after k (e :: es) = after (after k [e]) es.
Proof. apply (after_app k [e] es). Qed.
Lemma marks_low es : forall i k n, n < i -> packing_at_aux (marks i k es) n (current k) = current k.
Proof.
  induction es as [|e es IH]; intros i k n L; [reflexivity|]. destruct e as [x| |o]; cbn [marks]; try (apply IH; lia).
  cbn [packing_at_aux]. destruct (i <=? n) eqn:E; [apply Nat.leb_le in E; lia|reflexivity].
Qed.
Lemma marks_force es : forall i k n, i <= S n -> packing_at_aux (marks i k es) n (current k) = current (after k (firstn (S n - i) es)).
Proof.
  induction es as [|e es IH]; intros i k n L; [rewrite firstn_nil; reflexivity|].
  destruct (Nat.eq_dec i (S n)) as [->|NE].
  - rewrite Nat.sub_diag. rewrite marks_low by lia. reflexivity.
  - replace (S n - i) with (S (S n - S i)) by lia. rewrite firstn_cons, after_cons.
    destruct e as [x| |o]; cbn [marks]; try (rewrite IH by lia; reflexivity).
    cbn [packing_at_aux]. rewrite (proj2 (Nat.leb_le i n)) by lia. rewrite IH by lia. reflexivity.
Qed.
Lemma file_force es n : packing_at ((0, None) :: marks 0 initial es) n = current (after initial (firstn (S n) es)).
Proof.
  unfold packing_at. cbn [packing_at_aux]. change (0 <=? n) with true. cbv iota.
  rewrite <- (Nat.sub_0_r (S n)). rewrite <- marks_force by lia. reflexivity.
Qed.

(** ** Sections *)
Lemma occurs_some x : may_open x -> x <> [].
Proof. intros [(a & b & E)|(a & b & E)] ->; destruct a; discriminate E. Qed.
Lemma printed_at es : forall k x, nth_error (printed es) k = Some x -> x <> [] ->
  exists a b, es = a ++ Put x :: b /\ length (printed a) = k.
Proof.
  induction es as [|e es IH]; intros k x N NE; [destruct k; discriminate N|]. destruct e as [y| |o].
  - destruct k as [|k]; [injection N as ->; exists [], es; auto|]. destruct (IH k x N NE) as (a & b & -> & L). exists (Put y :: a), b. split; [reflexivity|cbn; f_equal; exact L].
  - destruct (IH k x N NE) as (a & b & -> & L). exists (Lost :: a), b. auto.
  - destruct k as [|k]; [injection N as E; congruence|]. destruct (IH k x N NE) as (a & b & -> & L). exists (Op o :: a), b. split; [reflexivity|cbn; f_equal; exact L].
Qed.
Lemma grouped_packing whole pre p P es rest : aligned whole -> whole = pre ++ es ++ rest -> p = after initial pre ->
  (forall a x b, es = a ++ Put x :: b -> may_open x -> current (after p a) = P) ->
  forall k x, nth_error (printed es) k = Some x -> may_open x ->
    packing_at ((0, None) :: marks 0 initial whole) (S (length (printed pre)) + k) = P.
Proof.
  intros A E -> H k x N MO. destruct (printed_at es k x N (occurs_some x MO)) as (a & b & EE & L).
  rewrite file_force. rewrite <- (H a x b EE MO), <- after_app.
  rewrite <- (A (pre ++ a) x (b ++ rest)); [|rewrite E, EE, <- !app_assoc; reflexivity|exact MO].
  do 4 f_equal. rewrite !printed_app, !app_length, L. cbn. lia.
Qed.
Lemma grouped_sections base mods p es ds : grouped base mods p es ds -> forall whole pre, aligned whole -> whole = pre ++ es -> p = after initial pre ->
  sections base mods ((0, None) :: marks 0 initial whole) (S (length (printed pre))) ds (printed es).
Proof.
  induction 1 as [p P ds es HD HP|p P ds es ds' es' N1 N2 HD HP G IH]; intros whole pre A E EP.
  - apply (sec_last _ _ _ _ P); [exact HD|]. apply (grouped_packing whole pre p P es []); [exact A|rewrite app_nil_r; exact E|exact EP|exact HP].
  - rewrite printed_app. apply (sec_more _ _ _ _ P); [exact N1|exact N2|exact HD|apply (grouped_packing whole pre p P es es'); assumption|].
    replace (S (length (printed pre)) + length (printed es)) with (S (length (printed (pre ++ es)))) by (rewrite printed_app, app_length; reflexivity).
    apply IH; [exact A|rewrite E, app_assoc; reflexivity|rewrite after_app, EP; reflexivity].
Qed.
Lemma grouped_names base mods p es ds : grouped base mods p es ds -> Forall good_names ds.
Proof.
  induction 1 as [p P ds es HD HP|p P ds es ds' es' N1 N2 HD HP G IH]; [exact (header_names _ _ _ _ _ HD)|].
  apply Forall_app. split; [exact (header_names _ _ _ _ _ HD)|exact IH].
Qed.
Lemma traced_plain :
  (forall m b es m', traced m b es m' -> Forall (fun x => ~ In nl x) (printed es))
  /\ (forall m t es m', traced_branches m t es m' -> Forall (fun x => ~ In nl x) (printed es)).
Proof.
  assert (U : forall ls, Forall (fun x => ~ In nl x) (printed (map unused ls))).
  { induction ls as [|l ls IH]; [constructor|]. cbn [map]. unfold printed in *. cbn [flat_map]. apply Forall_app. split; [|exact IH].
    unfold unused. destruct (existsb _ _); [constructor|]. constructor; [intros []|constructor]. }
  assert (B : ~ In nl []) by (intros []).
  apply traced_both_ind; intros.
  - constructor.
  - constructor; assumption.
  - assumption.
  - constructor; assumption.
  - constructor; [exact B|]. fold (printed (e1 ++ map unused (blines t) ++ e2)). rewrite !printed_app. apply Forall_app. split; [assumption|]. apply Forall_app. split; [apply U|assumption].
  - constructor; [exact B|]. fold (printed (map unused (lines body) ++ e1 ++ e2)). rewrite !printed_app. apply Forall_app. split; [apply U|]. apply Forall_app. split; assumption.
  - constructor; [exact B|constructor].
  - constructor; [exact B|]. fold (printed (es ++ [Put []])). rewrite printed_app. apply Forall_app. split; [assumption|]. constructor; [exact B|constructor].
  - constructor; [exact B|]. fold (printed (es ++ map unused (blines t))). rewrite printed_app. apply Forall_app. split; [assumption|apply U].
  - constructor; [exact B|]. fold (printed (map unused (lines body) ++ es)). rewrite printed_app. apply Forall_app. split; [apply U|assumption].
Qed.
Lemma parse_grouped base mods es ds : good_config base mods -> grouped base mods initial es ds -> aligned es ->
  Forall (fun x => ~ In nl x) (printed es) ->
  parse_defs base mods ((0, None) :: marks 0 initial es) (join [nl] (printed es)) = Some ds.
Proof.
  intros GC G A F. destruct (printed es) as [|x l] eqn:E.
  - change (join [nl] []) with (join [nl] [@nil ascii]). inversion G as [p P ds' es' HD HP|p P ds' es1 ds2 es2 N1 N2 HD HP G']; subst.
    + apply parse_sections; [exact GC|constructor; [intros []|constructor]|discriminate|].
      apply (sec_last _ _ _ _ P); [rewrite E in HD; exact HD|]. intros k x N MO. destruct k as [|[|k]]; try discriminate N.
      injection N as <-. destruct (occurs_some [] MO eq_refl).
    + rewrite printed_app in E. apply app_eq_nil in E. destruct E as [E _]. contradiction.
  - rewrite <- E in *. apply parse_sections; [exact GC|exact F|congruence|].
    exact (grouped_sections base mods initial es ds G es [] A eq_refl eq_refl).
Qed.

(** ** Files *)
Section Whole.
  Context (fo : str -> list str -> option str) (ext : str -> bool) (ev : dict str pobj -> str -> res pobj) (base mods : list str).
  Notation preprocess_file := (preprocess_file fo ext ev).
  Notation process_file := (process_file fo ext ev base mods).
  Lemma preprocess_traced s m path text b es m' : macro_tables s -> stands_for (macros_of s) m ->
    split_on nl (join_lines text) = lines b -> traced m b es m' -> disciplined initial None (ops es) ->
    exists s1, preprocess_file s path text = Ok ((0, None) :: marks 0 initial es, s1, join [nl] (printed es)) /\ stands_for (macros_of s1) m'.
  Proof.
    intros M ST SL C DI. unfold FileModel.preprocess_file. set (s0 := set_cur s (Some path)).
    destruct (proj1 (traced_run fo ext) m b es m' C 0 (start (macros_of s0))) with (k := initial) (r := @None Z) (os := @nil pop)
      as (p' & r' & R & O' & T' & H' & (W1 & W2) & _).
    - split; [exact ST|]. cbn [start tab macros macros_of]. rewrite texts_keys by exact M. apply M.
    - reflexivity.
    - reflexivity.
    - split; [reflexivity|]. constructor.
    - rewrite app_nil_r. exact DI.
    - rewrite SL. destruct (file_run ev (fun _ _ => True) (fun _ _ => Logic.I) fo ext _ 0 (start (macros_of s0)) s0 p' eq_refl M R) as (s' & E' & TT & _).
      rewrite E'. cbn [bind fst snd]. rewrite W1, W2. exists s'. split; [reflexivity|]. rewrite <- TT. apply O'.
  Qed.
  Theorem process_packed s m path text es m' ds : good_config base mods ->
    macro_tables s -> stands_for (macros_of s) m -> traced_text m text es m' -> disciplined initial None (ops es) ->
    grouped base mods initial es ds -> aligned es -> Forall harmless ds ->
    exists s1 s' text', process_file s path text = Some (Ok (s', text'))
      /\ same_declarations s s1 /\ stands_for (macros_of s1) m' /\ macros_of s' = macros_of s1
      /\ (forall k n, ~ mentions k n ds -> defined s' k n = defined s1 k n)
      /\ forall ds1 g ds2, ds = ds1 ++ g :: ds2 -> typed_values s1 ->
         let tables x := fst (run_tops ev (set_cur s1 (Some path)) (ds1 ++ x)) in
         known_spec ev (tables []) (spec_part g) -> plain_decls g -> stays g ds2 ->
         exists b, denotes ev (tables []) s' (spec_part g) b
           /\ forall l1 d l2 n, decls_part g = l1 ++ d :: l2 -> c_name (tree d) = Some n ->
              every c_syntax (tree d) = true -> no_conv_name (tree d) = true ->
              Forall (fun g' => ~ In (Some n) (declared_names g')) ds2 ->
              declared_as ev (tables [up_to g []]) s' g l2 n
                (c_type (eval_text ev (tables [up_to g l1])) (tree d) (base_type b)).
  Proof.
    intros GC M ST (ps & segs & b & -> & R & W & NE & F & SL & C) DI G A HL.
    assert (SL' : split_on nl (join_lines (remove_comments (parts_text ps))) = lines b).
    { rewrite remove_comments_reads, W, join_lines_segs by assumption. exact SL. }
    destruct (preprocess_traced s m path (remove_comments (parts_text ps)) b es m' M ST SL' C DI) as (s1 & E & ST').
    destruct (preprocess_tables fo ext ev (fun _ _ => True) (fun _ _ => Logic.I) s path _ _ _ _ M E) as (M1 & SD & CU & V1).
    pose proof (parse_grouped base mods es ds GC G A (proj1 traced_plain _ _ _ _ C)) as PE.
    pose proof (grouped_names base mods initial es ds G) as GN.
    set (text1 := join [nl] (printed es)) in *. set (lst := (0, None) :: marks 0 initial es) in *.
    assert (PF : parse_file ev base mods lst s1 (Some path) text1 = Some (run_tops ev (set_cur s1 (Some path)) ds)) by (unfold parse_file; rewrite PE; reflexivity).
    assert (EN : snd (run_tops ev (set_cur s1 (Some path)) ds) = None).
    { apply run_tops_ends; [exact HL|]. eapply Forall_impl; [|exact GN]. apply good_named. }
    set (s' := fst (run_tops ev (set_cur s1 (Some path)) ds)).
    assert (ES : run_tops ev (set_cur s1 (Some path)) ds = (s', None)) by (unfold s'; destruct (run_tops ev _ ds); cbn in *; congruence).
    exists s1, s', text1. split; [unfold FileModel.process_file; rewrite E, PF, ES; reflexivity|].
    split; [exact SD|]. split; [exact ST'|]. split; [apply (run_macros_of ev ds (set_cur s1 (Some path)))|].
    split; [intros k n NM; apply (tops_other ev k n ds (set_cur s1 (Some path)) NM)|].
    intros ds1 g ds2 ED TV tables KS PD SY. subst ds.
    destruct (trees_recorded ev base mods lst s1 (Some path) text1 ds1 g ds2 PE GN HL TV KS PD SY) as (s2 & b' & P2 & D2 & D3).
    rewrite PF, ES in P2. injection P2 as <-. exists b'. split; [exact D2|exact D3].
  Qed.
End Whole.
