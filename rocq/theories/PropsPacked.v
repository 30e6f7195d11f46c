(** Property C81: packing in whole headers. *)
From Coq Require Import Ascii String Bool Arith ZArith Lia List.
Import ListNotations.
From Verif Require Import PyBase PyBaseFacts PyStr PyStrFacts PyExpr TypeModel StoreModel StoreSpec DeclModel DeclSpec EvalModel EvalSpec.
From Verif Require GramModel GramSpec RunSpec GramRun GramExamples PropsGram.
From Verif Require Import MacroModel MacroSpec MacroDefProofs PpModel PpSpec ExprSpec TextSpec PropsMacro PropsDecl.
From Verif Require Import FileModel FileSpec PackedSpec PackedProofs PackedWhole PpExamples FileExamples PropsFile.

(** Helpers of the example: ways of checking the hypotheses. *)
Definition may_openb (x : str) : bool :=
  existsb (fun n => starts_with $"struct" (skipn n x) || starts_with $"union" (skipn n x)) (seq 0 (S (length x))).
Lemma may_open_check x : may_openb x = false -> ~ may_open x.
Proof.
  intros H M. assert (X : may_openb x = true); [|congruence]. apply existsb_exists.
  destruct M as [(a & b & ->)|(a & b & ->)]; exists (length a); (split; [apply in_seq; rewrite !app_length; lia|]);
    rewrite skipn_app, skipn_all, Nat.sub_diag; cbn [app skipn]; rewrite PyStrFacts.starts_with_app; [reflexivity|apply orb_true_r].
Qed.
Fixpoint opensb (p : packing) (P : option Z) (es : list event) : bool :=
  match es with
  | [] => true
  | e :: r => (match e with Put x => negb (may_openb x) || eqb (current p) P | _ => true end) && opensb (after p [e]) P r
  end.
Lemma opens_check es : forall p P, opensb p P es = true -> forall a x b, es = a ++ Put x :: b -> may_open x -> current (after p a) = P.
Proof.
  induction es as [|e es IH]; intros p P H a x b E MO; [destruct a; discriminate E|]. cbn [opensb] in H. apply andb_true_iff in H. destruct H as [H1 H2].
  destruct a as [|e' a]; cbn [app] in E; injection E as -> E.
  - cbn in H1. apply orb_true_iff in H1. destruct H1 as [H1|H1]; [|apply eqb_eq; exact H1]. apply negb_true_iff in H1. destruct (may_open_check x H1 MO).
  - change (e' :: a) with ([e'] ++ a). rewrite after_app. apply (IH (after p [e']) P H2 a x b E MO).
Qed.
Fixpoint alignedb (whole pre es : list event) : bool :=
  match es with
  | [] => true
  | e :: r =>
      (match e with
       | Put x => negb (may_openb x)
                  || eqb (current (after initial (firstn (S (length (printed (pre ++ [e])))) whole))) (current (after initial pre))
       | _ => true
       end) && alignedb whole (pre ++ [e]) r
  end.
Lemma aligned_check es : alignedb es [] es = true -> aligned es.
Proof.
  intros H a x b E MO.
  assert (G : forall l pre, alignedb es pre l = true -> forall a' , l = a' ++ Put x :: b ->
            current (after initial (firstn (S (length (printed ((pre ++ a') ++ [Put x])))) es)) = current (after initial (pre ++ a'))).
  { induction l as [|e l IH]; intros pre K a' E'; [destruct a'; discriminate E'|]. cbn [alignedb] in K. apply andb_true_iff in K. destruct K as [K1 K2].
    destruct a' as [|e' a']; cbn [app] in E'; injection E' as -> E'.
    - rewrite app_nil_r. cbn in K1. apply orb_true_iff in K1. destruct K1 as [K1|K1]; [|apply eqb_eq; exact K1]. apply negb_true_iff in K1. destruct (may_open_check x K1 MO).
    - specialize (IH (pre ++ [e']) K2 a' E'). replace (pre ++ e' :: a') with ((pre ++ [e']) ++ a') by (rewrite <- app_assoc; reflexivity). exact IH. }
  exact (G es [] H a E).
Qed.
(** The header of the example. *)
Definition wire_lines : list str :=
  [$"#ifndef WIRE_H"; $"#define WIRE_H"; $"#pragma once"; $"#pragma pack(push, 1)"; $"struct head { char kind; int size; };";
   $"#pragma pack(pop)"; $"struct body { char kind; int size; };"; $"#endif"].
Definition wire : str := join [nl] wire_lines.
Definition wire_block : block :=
  BCond $"#ifndef WIRE_H"
    (BLine $"#define WIRE_H" (BLine $"#pragma once" (BLine $"#pragma pack(push, 1)" (BLine $"struct head { char kind; int size; };"
      (BLine $"#pragma pack(pop)" (BLine $"struct body { char kind; int size; };" BNil))))))
    (REnd $"#endif") BNil.
Definition wire_macros : cmac := mac [($"WIRE_H", [])].
Definition wire_first : list event :=
  [Put []; Put []; Lost; Op (PPush None (Some 1%Z)); Put $"struct head { char kind; int size; };"].
Definition wire_second : list event := [Op (PPop None None); Put $"struct body { char kind; int size; };"; Put []].
Definition wire_decl (n : str) (P : option Z) : GramModel.gtop :=
  GramModel.GVar (GramModel.GSpec [] (GramModel.GComp CStruct (Some n)
    [GramModel.GLine (GramModel.GSpec [] (GramModel.GWord $"char")) [GramModel.GNode [] None [] (GramModel.GNamed false $"kind") None []] NoInit None;
     GramModel.GLine (GramModel.GSpec [] (GramModel.GWord $"int")) [GramModel.GNode [] None [] (GramModel.GNamed false $"size") None []] NoInit None] P)) [] NoInit.
Lemma once_idle m : wire_macros = m -> idle_line m $"#pragma once".
Proof.
  intros <-. right. exists $" once". split; [vm_compute; reflexivity|]. split; [apply not_named; vm_compute; reflexivity|].
  split.
  - intros w I1. apply name_in_list in I1. vm_compute in I1. repeat (destruct I1 as [<-|I1]; [apply unknown_check; vm_compute; reflexivity|]). contradiction.
  - intros a c E. change $" once" with ($" onc" ++ ["e"%char]) in E. apply app_inj_tail in E. destruct E as [_ <-]. apply unknown_check; vm_compute; reflexivity.
Qed.
Lemma wire_traced : traced_text no_macros wire (wire_first ++ wire_second) wire_macros.
Proof.
  exists (code wire), [wire], wire_block.
  split; [vm_compute; reflexivity|]. split; [apply reads_check; vm_compute; reflexivity|]. split; [vm_compute; reflexivity|]. split; [discriminate|].
  split; [constructor; [apply occurs_check; vm_compute; reflexivity|constructor]|]. split; [vm_compute; reflexivity|].
  unfold wire_block.
  refine (tr_taken no_macros _ _ _ _ [Put []; Lost; Op (PPush None (Some 1%Z)); Put $"struct head { char kind; int size; };";
            Op (PPop None None); Put $"struct body { char kind; int size; };"] wire_macros [] wire_macros _ _ _ _ _).
  - right. right. left. vm_compute. reflexivity.
  - apply (de_no no_macros $"WIRE_H" false); [apply identb_ok; reflexivity| |apply unknown_check; vm_compute; reflexivity].
    apply (ts_ifndef $"WIRE_H" [sp] []); [gap_ok|discriminate|gap_ok|].
    exists [], []. repeat split. intros c r E. injection E as <- _. reflexivity.
  - assert (NP : forall s, pragmab (PPush None (Some 1%Z)) s = true \/ pragmab (PPop None None) s = true -> True) by auto.
    apply (tr_line no_macros _ [] wire_macros).
    { apply (cpp_define no_macros _ $"WIRE_H" [] []); [object_ok (@nil ascii) $"WIRE_H" (@nil ascii) (@nil ascii)| |apply cpp_nil].
      split; [apply unlisted_check; vm_compute; reflexivity|]. split; [unmentioned|]. split; [apply not_named; reflexivity|]. split; [apply expands_check; vm_compute; reflexivity|].
      split; [reflexivity|]. split; [apply free_check; reflexivity|]. split; [intros []|]. left. discriminate. }
    { vm_compute. discriminate. }
    { intros []. }
    apply tr_pragma; [vm_compute; reflexivity|apply once_idle; reflexivity|].
    apply tr_pack; [apply pragmab_ok; vm_compute; reflexivity| |].
    { intros w I1. apply name_in_list in I1. vm_compute in I1. repeat (destruct I1 as [<-|I1]; [apply unknown_check; vm_compute; reflexivity|]). contradiction. }
    apply (tr_line wire_macros _ [$"struct head { char kind; int size; };"] wire_macros).
    { apply cpp_text; [vm_compute; reflexivity|apply expands_check; vm_compute; reflexivity|apply cpp_nil]. }
    { vm_compute. discriminate. }
    { intros I1. vm_compute in I1. repeat (destruct I1 as [I1|I1]; [discriminate I1|]). exact I1. }
    apply tr_pack; [apply pragmab_ok; vm_compute; reflexivity| |].
    { intros w I1. apply name_in_list in I1. vm_compute in I1. repeat (destruct I1 as [<-|I1]; [apply unknown_check; vm_compute; reflexivity|]). contradiction. }
    apply (tr_line wire_macros _ [$"struct body { char kind; int size; };"] wire_macros).
    { apply cpp_text; [vm_compute; reflexivity|apply expands_check; vm_compute; reflexivity|apply cpp_nil]. }
    { vm_compute. discriminate. }
    { intros I1. vm_compute in I1. repeat (destruct I1 as [I1|I1]; [discriminate I1|]). exact I1. }
    apply tr_nil.
  - vm_compute. reflexivity.
  - apply tr_nil.
Qed.
Lemma wire_grouped : grouped GramExamples.base0 [] initial (wire_first ++ wire_second) ([wire_decl $"head" (Some 1%Z)] ++ [wire_decl $"body" None]).
Proof.
  apply (gr_more _ _ initial (Some 1%Z)); [discriminate|discriminate| |apply opens_check; vm_compute; reflexivity|].
  - apply GramExamples.header_check; [|vm_compute; reflexivity|vm_compute; reflexivity|vm_compute; reflexivity|vm_compute; reflexivity].
    eapply GramExamples.seq_conv; [unfold wire_decl; GramExamples.spell|vm_compute; reflexivity].
  - apply (gr_last _ _ _ None); [|apply opens_check; vm_compute; reflexivity].
    apply GramExamples.header_check; [|vm_compute; reflexivity|vm_compute; reflexivity|vm_compute; reflexivity|vm_compute; reflexivity].
    eapply GramExamples.seq_conv; [unfold wire_decl; GramExamples.spell|vm_compute; reflexivity].
Qed.

(** C81: in a header with conditionals, macros and packing pragmas each structure and union has
    the packing the pragmas in front of it have set, and everything is recorded as in C73, C74
    and C77.  Missing: pragmas used in other ways than those of C34, and files where the lines
    have moved, or that have a pragma on the line behind a structure ([aligned]). *)
Theorem c81_packed_partial :
  forall fo ext ev base mods s m path text es m' ds, GramSpec.good_config base mods ->
  macro_tables s -> stands_for (macros_of s) m -> traced_text m text es m' -> disciplined initial None (ops es) ->
  grouped base mods initial es ds -> aligned es -> Forall RunSpec.harmless ds ->
  exists s1 s' text', process_file fo ext ev base mods s path text = Some (Ok (s', text'))
    /\ same_declarations s s1 /\ stands_for (macros_of s1) m' /\ macros_of s' = macros_of s1
    /\ (forall k n, ~ RunSpec.mentions k n ds -> defined s' k n = defined s1 k n)
    /\ forall ds1 g ds2, ds = ds1 ++ g :: ds2 -> typed_values s1 ->
       let tables x := fst (GramModel.run_tops ev (set_cur s1 (Some path)) (ds1 ++ x)) in
       RunSpec.known_spec ev (tables []) (RunSpec.spec_part g) -> RunSpec.plain_decls g -> RunSpec.stays g ds2 ->
       exists b, RunSpec.denotes ev (tables []) s' (RunSpec.spec_part g) b
         /\ forall l1 d l2 n, RunSpec.decls_part g = l1 ++ d :: l2 -> c_name (RunSpec.tree d) = Some n ->
            every c_syntax (RunSpec.tree d) = true -> no_conv_name (RunSpec.tree d) = true ->
            Forall (fun g' => ~ In (Some n) (RunSpec.declared_names g')) ds2 ->
            RunSpec.declared_as ev (tables [RunSpec.up_to g []]) s' g l2 n
              (c_type (eval_text ev (tables [RunSpec.up_to g l1])) (RunSpec.tree d) (base_type b)).
Proof. exact process_packed. Qed.
Print Assumptions c81_packed_partial.
(** A pragma on the next line applies to a structure. *)
Theorem c81_next_line_refuted :
  exists text ms, defined (read_header $"a.h" text) Structs $"s" = Some (EComp ms (Some 1%Z))
    /\ exists l r, text = l ++ [nl] ++ r /\ occurs $"struct" l /\ occurs $"pragma" r /\ ~ occurs $"pragma" l.
Proof.
  exists ($"struct s { char c; int i; };" ++ [nl] ++ $"#pragma pack(1)"). eexists. split; [vm_compute; reflexivity|].
  exists $"struct s { char c; int i; };", $"#pragma pack(1)". split; [reflexivity|]. split; [exists [], $" s { char c; int i; };"; reflexivity|].
  split; [exists $"#", $" pack(1)"; reflexivity|]. intros (a & b & E).
  assert (X : existsb (fun n => starts_with $"pragma" (skipn n $"struct s { char c; int i; };")) (seq 0 29) = true); [|discriminate X].
  apply existsb_exists. exists (length a). rewrite E at 1. rewrite skipn_app, skipn_all, Nat.sub_diag. cbn [app skipn]. rewrite PyStrFacts.starts_with_app.
  split; [|reflexivity]. apply in_seq. apply (f_equal (@length _)) in E. rewrite !app_length in E. change (length $"struct s { char c; int i; };") with 28 in E. lia.
Qed.
Print Assumptions c81_next_line_refuted.
(** Three macros defined in a group that is skipped undo a pragma. *)
Theorem c81_skipped_refuted :
  exists text ms, defined (read_header $"a.h" text) Structs $"s" = Some (EComp ms None)
    /\ text = join [nl] [$"#ifdef UNKNOWN"; $"#define A 1"; $"#define B 2"; $"#define C 3"; $"#endif"; $"#pragma pack(1)"; $"struct s { char c; int i; };"].
Proof.
  exists (join [nl] [$"#ifdef UNKNOWN"; $"#define A 1"; $"#define B 2"; $"#define C 3"; $"#endif"; $"#pragma pack(1)"; $"struct s { char c; int i; };"]).
  eexists. split; [vm_compute; reflexivity|reflexivity].
Qed.
Print Assumptions c81_skipped_refuted.
Example c81_example :
  traced_text no_macros wire (wire_first ++ wire_second) wire_macros /\ disciplined initial None (ops (wire_first ++ wire_second))
  /\ grouped GramExamples.base0 [] initial (wire_first ++ wire_second) ([wire_decl $"head" (Some 1%Z)] ++ [wire_decl $"body" None])
  /\ aligned (wire_first ++ wire_second)
  /\ Forall RunSpec.harmless ([wire_decl $"head" (Some 1%Z)] ++ [wire_decl $"body" None])
  /\ exists ms, defined (read_header $"wire.h" wire) Structs $"head" = Some (EComp ms (Some 1%Z))
       /\ defined (read_header $"wire.h" wire) Structs $"body" = Some (EComp ms None).
Proof.
  split; [exact wire_traced|]. split; [cbn; repeat split; try discriminate; congruence|]. split; [exact wire_grouped|].
  split; [apply aligned_check; vm_compute; reflexivity|].
  split; [constructor; [intros E; discriminate E|constructor; [intros E; discriminate E|constructor]]|].
  eexists. split; vm_compute; reflexivity.
Qed.
