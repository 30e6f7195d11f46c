(** Proofs about numerals, for C68. *)
From Coq Require Import Ascii String Bool Arith ZArith Lia List.
Import ListNotations.
From Verif Require Import PyBase PyBaseFacts PyStr PyStrFacts PyExpr TypeModel StoreModel DeclModel ExprSpec EvalModel EvalSpec EvalProofs NumSpec.

Definition hexdigit (c : ascii) : Z :=
  Z.of_nat (if is_digit c then code c - 48 else if between 65 70 c then code c - 55 else code c - 87).
Lemma dec_digit c v : digit_of 10 c v <-> is_digit c = true /\ v = Z.of_nat (digit_val c).
Proof.
  split.
  - intros (I1 & L). unfold digit_table in I1. cbn [In] in I1.
    repeat (destruct I1 as [I1|I1]; [injection I1 as <- <-; first [split; reflexivity|exfalso; clear - L; lia]|]). destruct I1.
  - intros (D & ->). destruct c as [[|] [|] [|] [|] [|] [|] [|] [|]]; try discriminate D; (split; [vm_compute; tauto|vm_compute; reflexivity]).
Qed.
Lemma oct_digit c v : digit_of 8 c v <-> is_octal c = true /\ v = Z.of_nat (digit_val c).
Proof.
  split.
  - intros (I1 & L). unfold digit_table in I1. cbn [In] in I1.
    repeat (destruct I1 as [I1|I1]; [injection I1 as <- <-; first [split; reflexivity|exfalso; clear - L; lia]|]). destruct I1.
  - intros (D & ->). destruct c as [[|] [|] [|] [|] [|] [|] [|] [|]]; try discriminate D; (split; [vm_compute; tauto|vm_compute; reflexivity]).
Qed.
Lemma hex_digit c v : digit_of 16 c v <-> is_hex c = true /\ v = hexdigit c.
Proof.
  split.
  - intros (I1 & L). unfold digit_table in I1. cbn [In] in I1.
    repeat (destruct I1 as [I1|I1]; [injection I1 as <- <-; split; reflexivity|]). destruct I1.
  - intros (D & ->). destruct c as [[|] [|] [|] [|] [|] [|] [|] [|]]; try discriminate D; (split; [vm_compute; tauto|vm_compute; reflexivity]).
Qed.
Lemma fold_numeral (base : Z) (isd : ascii -> bool) (val : ascii -> Z) :
  (forall c v, digit_of base c v <-> isd c = true /\ v = val c) ->
  forall d n, numeral base d n <-> forallb isd d = true /\ n = fold_left (fun v c => (base * v + val c)%Z) d 0%Z.
Proof.
  intros H d n. split.
  - induction 1 as [|d n c v N (A & E) D]; [split; reflexivity|]. apply H in D. destruct D as (D & ->).
    rewrite forallb_app, fold_left_app. cbn [forallb fold_left]. rewrite A, D, <- E. split; reflexivity.
  - intros (A & ->). induction d as [|c d IH] using rev_ind; [apply num_none|].
    rewrite forallb_app in A. apply andb_true_iff in A. destruct A as (A & D). cbn in D. rewrite andb_true_r in D.
    rewrite fold_left_app. cbn [fold_left]. apply num_digit; [exact (IH A)|apply H; split; [exact D|reflexivity]].
Qed.
Lemma dec_numeral d n : numeral 10 d n <-> forallb is_digit d = true /\ n = zval d.
Proof. exact (fold_numeral 10 is_digit (fun c => Z.of_nat (digit_val c)) dec_digit d n). Qed.
Lemma oct_numeral d n : numeral 8 d n <-> forallb is_octal d = true /\ n = octval d.
Proof. exact (fold_numeral 8 is_octal (fun c => Z.of_nat (digit_val c)) oct_digit d n). Qed.
Lemma hex_numeral d n : numeral 16 d n <-> forallb is_hex d = true /\ n = hexval d.
Proof. exact (fold_numeral 16 is_hex hexdigit hex_digit d n). Qed.

Lemma suffix_letters u : incl u ["U"%char; "L"%char] -> forallb is_suffix u = true.
Proof.
  intros I. apply forallb_forall. intros c In. destruct (I c In) as [<-|[<-|[]]]; reflexivity.
Qed.
Lemma eval_dec_numeral fund mods visible ext env d u n : number d -> numeral 10 d n -> incl u ["U"%char; "L"%char] ->
  c_eval fund mods visible ext env (d ++ u) = Ok (ONum (VInt n)).
Proof. intros D N U. apply dec_numeral in N. destruct N as (_ & ->). exact (eval_decimal fund mods visible ext env d u D (suffix_letters u U)). Qed.
Lemma eval_hex_numeral fund mods visible ext env x h u n :
  x = "x"%char \/ x = "X"%char -> h <> [] -> numeral 16 h n -> incl u ["U"%char; "L"%char] ->
  c_eval fund mods visible ext env ("0"%char :: x :: h ++ u) = Ok (ONum (VInt n)).
Proof. intros X NE N U. apply hex_numeral in N. destruct N as (H & ->). exact (eval_hex fund mods visible ext env x h u X NE H (suffix_letters u U)). Qed.
Lemma literal_numeral t z : c_literal t z <->
  (exists d u, t = d ++ u /\ In u int_suffixes /\ number d /\ numeral 10 d z)
  \/ (exists base pre d u, In (base, pre) (tl bases) /\ t = pre ++ d ++ u /\ In u int_suffixes /\ d <> [] /\ numeral base d z).
Proof.
  split.
  - destruct 1 as [d u N U|d u NE A U|x h u X NE A U].
    + left. exists d, u. split; [reflexivity|]. split; [exact U|]. split; [exact N|]. apply dec_numeral. split; [exact (proj1 N)|reflexivity].
    + right. exists 8%Z, $"0", d, u. split; [cbn; auto|]. split; [reflexivity|]. split; [exact U|]. split; [exact NE|]. apply oct_numeral. auto.
    + right. exists 16%Z, ("0"%char :: [x]), h, u. split; [destruct X as [<-|[<-|[]]]; cbn; auto|]. split; [reflexivity|].
      split; [exact U|]. split; [exact NE|]. apply hex_numeral. auto.
  - intros [(d & u & -> & U & N & V)|(base & pre & d & u & I1 & -> & U & NE & V)].
    + apply dec_numeral in V. destruct V as (_ & ->). apply lit_dec; auto.
    + cbn [tl bases In] in I1. destruct I1 as [I1|[I1|[I1|[]]]]; injection I1 as <- <-.
      * apply oct_numeral in V. destruct V as (A & ->). apply (lit_oct d u); auto.
      * apply hex_numeral in V. destruct V as (A & ->). apply (lit_hex "x"%char d u); cbn; auto.
      * apply hex_numeral in V. destruct V as (A & ->). apply (lit_hex "X"%char d u); cbn; auto.
Qed.
