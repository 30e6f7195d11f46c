(** Proofs about the searches, the architecture and the initialisation. *)
From Coq Require Import Ascii String Bool Arith ZArith Lia List.
Import ListNotations.
From Verif Require Import PyBase PyBaseFacts PyStr PyStrFacts UtilModel InitModel UtilSpec.

(** ** Searches *)
Lemma registered_eq fs initial regs :
  fold_left (add_locations fs) regs initial = registered fs initial regs.
Proof.
  unfold registered. revert initial. induction regs as [|r regs IH]; intros initial; simpl.
  - now rewrite app_nil_r.
  - rewrite IH. unfold add_locations. rewrite filter_app, app_assoc. reflexivity.
Qed.

Lemma first_file_Some fs name dirs p : first_file fs name dirs = Some p <-> found_in fs name dirs p.
Proof.
  induction dirs as [|d r IH]; cbn [first_file].
  - split; [discriminate|]. intros (b & x & a & E & _). destruct b; discriminate E.
  - destruct (fs_isfile fs (fs_join fs d name)) eqn:F.
    + split.
      * intros E. injection E as <-. exists [], d, r. repeat split; auto. intros x [].
      * intros (b & x & a & E & P & Fp & N). destruct b as [|y b]; cbn in E; injection E as E1 E2.
        -- subst. reflexivity.
        -- exfalso. specialize (N y (or_introl eq_refl)). subst y. congruence.
    + rewrite IH. split.
      * intros (b & x & a & E & P & Fp & N). exists (d :: b), x, a. subst r. repeat split; auto.
        intros y [<-|Y]; auto.
      * intros (b & x & a & E & P & Fp & N). destruct b as [|y b]; cbn in E; injection E as E1 E2.
        -- subst. congruence.
        -- exists b, x, a. repeat split; auto. intros z Z. apply N. now right.
Qed.
Lemma first_file_None fs name dirs : first_file fs name dirs = None <-> nowhere fs name dirs.
Proof.
  unfold nowhere. induction dirs as [|d r IH]; cbn [first_file].
  - split; auto. intros _ d [].
  - destruct (fs_isfile fs (fs_join fs d name)) eqn:F.
    + split; [discriminate|]. intros N. specialize (N d (or_introl eq_refl)). congruence.
    + rewrite IH. split.
      * intros N x [<-|X]; auto.
      * intros N x X. apply N. now right.
Qed.

Lemma work_list_eq l dirs : work_list l dirs = callers dirs ++ rev l.
Proof. destruct dirs as [[|d r]|]; reflexivity. Qed.

Lemma header_search fs platform hdirs name dirs std :
  (std = standard_dirs platform /\ (starts_with $"linux" platform = false \/ platform = $"linux2"))
  \/ (std = [] /\ starts_with $"linux" platform = true /\ platform <> $"linux2") ->
  fst (find_header fs platform hdirs name dirs)
  = match first_file fs name (callers dirs ++ rev hdirs ++ std) with Some p => Ok p | None => Err OSError end.
Proof.
  intros H. unfold find_header. cbn [fst]. rewrite work_list_eq.
  destruct H as [[-> L]|[-> [L N]]].
  - destruct L as [L|E]; [|subst platform; change (eqb $"linux2" $"darwin") with false; change (eqb $"linux2" $"linux2") with true; cbv iota; rewrite <- ?app_assoc; reflexivity].
    unfold standard_dirs. rewrite L. assert (N : eqb platform $"linux2" = false).
    { destruct (eqb_spec platform $"linux2") as [->|]; [discriminate L|reflexivity]. }
    rewrite N. destruct (eqb platform $"darwin"); rewrite ?app_nil_r, <- ?app_assoc; reflexivity.
  - apply eqb_false in N. rewrite N. assert (D : eqb platform $"darwin" = false).
    { destruct (eqb_spec platform $"darwin") as [->|]; [discriminate L|reflexivity]. }
    rewrite D, app_nil_r. reflexivity.
Qed.

Lemma header_order fs platform initial regs name dirs std :
  (std = standard_dirs platform /\ (starts_with $"linux" platform = false \/ platform = $"linux2"))
  \/ (std = [] /\ starts_with $"linux" platform = true /\ platform <> $"linux2") ->
  let r := fst (find_header fs platform (fold_left (add_locations fs) regs initial) name dirs) in
  let order := search_order fs initial regs dirs std in
  (forall p, r = Ok p <-> found_in fs name order p)
  /\ (r = Err OSError <-> nowhere fs name order)
  /\ (r = Err OSError \/ exists p, r = Ok p).
Proof.
  intros H r order. unfold r. rewrite (header_search _ _ _ _ _ std H), registered_eq.
  unfold order, search_order. set (l := callers dirs ++ _). clearbody l.
  repeat split.
  - intros E. apply first_file_Some. destruct (first_file fs name l); congruence.
  - intros F. apply first_file_Some in F. now rewrite F.
  - intros E. apply first_file_None. destruct (first_file fs name l); congruence.
  - intros N. apply first_file_None in N. now rewrite N.
  - destruct (first_file fs name l) as [p|]; [right; exists p|left]; reflexivity.
Qed.

Lemma library_order fs initial regs name dirs :
  let r := fst (find_library fs (fold_left (add_locations fs) regs initial) name dirs) in
  let order := search_order fs initial regs dirs [] in
  (forall p, found_in fs name order p -> r = Ok p)
  /\ (nowhere fs name order -> forall p, fs_system fs name = Some p -> p <> [] -> r = Ok p)
  /\ (r = Err OSError <-> nowhere fs name order /\ (fs_system fs name = None \/ fs_system fs name = Some []))
  /\ (r = Err OSError \/ exists p, r = Ok p).
Proof.
  intros r order. unfold r, find_library. cbn [fst]. rewrite registered_eq, work_list_eq.
  unfold order, search_order. rewrite app_nil_r. set (l := callers dirs ++ _). clearbody l.
  split; [|split; [|split]].
  - intros p F. apply first_file_Some in F. now rewrite F.
  - intros N p S NE. apply first_file_None in N. rewrite N, S. destruct p; congruence.
  - rewrite <- first_file_None. destruct (first_file fs name l) as [p|].
    + split; [discriminate|]. intros [X _]. discriminate.
    + destruct (fs_system fs name) as [[|c q]|]; split; auto; try discriminate.
      intros [_ [X|X]]; discriminate.
  - destruct (first_file fs name l) as [p|]; [right; exists p; reflexivity|].
    destruct (fs_system fs name) as [[|c q]|]; auto. right. now exists (c :: q).
Qed.

(** What the caller's list holds afterwards. *)
Lemma header_arg fs platform hdirs name dirs :
  snd (find_header fs platform hdirs name dirs) = dirs
  <-> callers dirs = [] \/ (hdirs = [] /\ platform <> $"darwin" /\ platform <> $"linux2").
Proof.
  unfold find_header. cbn [snd].
  destruct dirs as [[|d r]|]; cbn [callers_list callers work_list].
  - split; auto.
  - split.
    + intros E. right.
      assert (L : length (rev hdirs ++ (if eqb platform $"darwin" then darwin_dirs else [])
                          ++ (if eqb platform $"linux2" then linux_dirs else [])) = 0).
      { rewrite !app_length.
        destruct (eqb platform $"darwin"), (eqb platform $"linux2"); apply (f_equal callers) in E;
          cbn [callers] in E; apply (f_equal (@length str)) in E; cbn [app length] in E |- *;
          rewrite ?app_length in E; cbn [length] in *; rewrite ?app_length in E; lia. }
      rewrite !app_length, rev_length in L.
      destruct hdirs; [|cbn [length] in L; lia].
      destruct (eqb_spec platform $"darwin") as [->|N1]; [cbn in L; lia|].
      destruct (eqb_spec platform $"linux2") as [->|N2]; [cbn in L; lia|]. auto.
    + intros [E|(-> & N1 & N2)]; [discriminate|].
      apply eqb_false in N1, N2. rewrite N1, N2. cbn [rev]. now rewrite app_nil_r.
  - split; auto.
Qed.
Lemma library_arg fs ldirs name dirs :
  snd (find_library fs ldirs name dirs) = dirs <-> callers dirs = [] \/ ldirs = [].
Proof.
  unfold find_library. cbn [snd]. destruct dirs as [[|d r]|]; cbn [callers_list callers work_list].
  - split; auto.
  - split.
    + intros E. right. injection E as E. apply (f_equal (@length str)) in E.
      rewrite app_length, rev_length in E. destruct ldirs; [reflexivity|]. cbn [length] in E. lia.
    + intros [E| ->]; [discriminate|]. cbn [rev]. now rewrite app_nil_r.
  - split; auto.
Qed.

(** ** Architecture *)
Lemma nth_error_firstn {A} n k (l : list A) : k < n -> nth_error (firstn n l) k = nth_error l k.
Proof.
  revert k l. induction n as [|n IH]; intros k l L; [lia|].
  destruct l as [|x l]; [now destruct k|]. destruct k as [|k]; cbn; auto. apply IH. lia.
Qed.
Lemma nth_error_skipn {A} n k (l : list A) : nth_error (skipn n l) k = nth_error l (n + k).
Proof.
  revert l. induction n as [|n IH]; intros l; cbn [skipn Nat.add]; auto.
  destruct l as [|x l]; [now destruct k|]. apply IH.
Qed.
Lemma byte_at_len file n v : byte_at file n v -> n < length file.
Proof. intros (c & E & _). apply nth_error_Some. congruence. Qed.
Lemma byte_range c : (0 <= byte c < 256)%Z.
Proof. unfold byte, code. pose proof (nat_ascii_bounded c). lia. Qed.
Lemma byte_inj c n : nat_of_ascii c = n -> c = ascii_of_nat n.
Proof. intros <-. symmetry. apply ascii_nat_embedding. Qed.

Lemma six_at (file : str) p c0 c1 c2 c3 c4 c5 :
  firstn 6 (skipn p file) = [c0; c1; c2; c3; c4; c5]
  <-> nth_error file p = Some c0 /\ nth_error file (p + 1) = Some c1 /\ nth_error file (p + 2) = Some c2
      /\ nth_error file (p + 3) = Some c3 /\ nth_error file (p + 4) = Some c4 /\ nth_error file (p + 5) = Some c5.
Proof.
  assert (K : forall k, nth_error file (p + k) = nth_error (skipn p file) k).
  { intros k. now rewrite nth_error_skipn. }
  rewrite <- (Nat.add_0_r p) at 2. rewrite !K. generalize (skipn p file). clear K. intros l. split.
  - intros E.
    assert (K : forall k, k < 6 -> nth_error l k = nth_error [c0; c1; c2; c3; c4; c5] k).
    { intros k L. rewrite <- E. symmetry. now apply nth_error_firstn. }
    rewrite !K by lia. cbn. auto 10.
  - intros (E0 & E1 & E2 & E3 & E4 & E5).
    destruct l as [|x0 [|x1 [|x2 [|x3 [|x4 [|x5 l]]]]]]; cbn in *; try discriminate.
    congruence.
Qed.

(** The place of the header, as a number. *)
Lemma le32s_nonneg a b c d :
  (0 <= le32s a b c d)%Z <-> nat_of_ascii d < 128.
Proof.
  unfold le32s, le16. pose proof (byte_range a). pose proof (byte_range b).
  pose proof (byte_range c). pose proof (byte_range d).
  assert (D : byte d = Z.of_nat (nat_of_ascii d)) by reflexivity.
  destruct (Z.ltb_spec (byte a + 256 * byte b + 65536 * (byte c + 256 * byte d)) 2147483648); lia.
Qed.
Lemma le32s_val a b c d : nat_of_ascii d < 128 ->
  le32s a b c d = (byte a + 256 * byte b + 65536 * byte c + 16777216 * byte d)%Z.
Proof.
  intros L. unfold le32s, le16. pose proof (byte_range a). pose proof (byte_range b).
  pose proof (byte_range c). pose proof (byte_range d).
  assert (D : byte d = Z.of_nat (nat_of_ascii d)) by reflexivity.
  destruct (Z.ltb_spec (byte a + 256 * byte b + 65536 * (byte c + 256 * byte d)) 2147483648); lia.
Qed.

Lemma nth_firstn_some n k (l : str) c d : k < n -> nth_error l k = Some c -> nth k (firstn n l) d = c.
Proof.
  intros L E. apply nth_error_nth. now rewrite nth_error_firstn.
Qed.
Lemma nth_error_firstn_nth n k (l : str) d :
  length (firstn n l) = n -> k < n -> nth_error l k = Some (nth k (firstn n l) d).
Proof.
  intros E L. rewrite <- (nth_error_firstn n k l L). apply nth_error_nth'. lia.
Qed.

Lemma firstn2_eq (l : str) a b : firstn 2 l = [a; b] <-> nth_error l 0 = Some a /\ nth_error l 1 = Some b.
Proof.
  destruct l as [|x [|y l]]; cbn; split; try (intros E; discriminate E).
  - intros [E _]. discriminate E.
  - intros [_ E]. discriminate E.
  - intros E. injection E as -> ->. auto.
  - intros [E1 E2]. congruence.
Qed.

Lemma pe_machine_ok file n :
  pe_machine file = Ok n <-> exists m, pe_like file m /\ n = machine_name m.
Proof.
  unfold pe_machine. set (dos := firstn 64 file). split.
  - destruct (Nat.eqb_spec (length dos) 64) as [L|]; [|discriminate]. cbn [negb].
    destruct (eqb_spec (firstn 2 dos) $"MZ") as [M|]; [|discriminate]. cbn [negb].
    pose proof (fun k H => nth_error_firstn_nth 64 k file "000"%char L H) as K. fold dos in K.
    set (b0 := nth 60 dos _). set (b1 := nth 61 dos _). set (b2 := nth 62 dos _). set (b3 := nth 63 dos _).
    destruct (Z.ltb_spec (le32s b0 b1 b2 b3) 0) as [|P]; [discriminate|].
    destruct (firstn 6 (skipn _ file)) as [|s0 [|s1 [|s2 [|s3 [|m0 [|m1 [|]]]]]]] eqn:S6; try discriminate.
    destruct (eqb_spec [s0; s1] $"PE") as [G|]; [|discriminate]. cbn [negb].
    intros E. injection E as <-. apply six_at in S6. destruct S6 as (A0 & A1 & A2 & A3 & A4 & A5).
    apply le32s_nonneg in P. pose proof (le32s_val b0 b1 b2 b3 P) as V.
    set (p := Z.to_nat (le32s b0 b1 b2 b3)) in *.
    exists (le16 m0 m1). split; [|reflexivity]. exists p, (nat_of_ascii s2), (nat_of_ascii s3).
    apply firstn2_eq in M. destruct M as [M0 M1].
    assert (B0 : nth_error file 0 = Some "M"%char) by (rewrite <- (nth_error_firstn 64 0 file) by lia; exact M0).
    assert (B1 : nth_error file 1 = Some "Z"%char) by (rewrite <- (nth_error_firstn 64 1 file) by lia; exact M1).
    injection G as -> ->.
    split; [|split; [|split; [|split]]].
    + eexists. split; [exact B0|reflexivity].
    + eexists. split; [exact B1|reflexivity].
    + exists (nat_of_ascii b0), (nat_of_ascii b1), (nat_of_ascii b2), (nat_of_ascii b3).
      split; [eexists; split; [apply K; lia|reflexivity]|].
      split; [eexists; split; [apply K; lia|reflexivity]|].
      split; [eexists; split; [apply K; lia|reflexivity]|].
      split; [eexists; split; [apply K; lia|reflexivity]|].
      split; [exact P|]. unfold p. rewrite Z2Nat.id by (apply le32s_nonneg; exact P). exact V.
    + exists 80, 69, (nat_of_ascii s2), (nat_of_ascii s3). split; [reflexivity|].
      split; [eexists; split; [exact A0|reflexivity]|].
      split; [eexists; split; [exact A1|reflexivity]|].
      split; [eexists; split; [exact A2|reflexivity]|]. eexists; split; [exact A3|reflexivity].
    + exists (nat_of_ascii m0), (nat_of_ascii m1).
      split; [eexists; split; [exact A4|reflexivity]|].
      split; [eexists; split; [exact A5|reflexivity]|]. reflexivity.
  - intros (m & (p & x & y & H0 & H1 & HP & HS & HM) & ->).
    destruct HP as (b0 & b1 & b2 & b3 & (c0 & C0 & <-) & (c1 & C1 & <-) & (c2 & C2 & <-) & (c3 & C3 & <-) & B3 & P).
    destruct HS as (s0 & s1 & s2 & s3 & E & (d0 & D0 & <-) & (d1 & D1 & <-) & (d2 & D2 & _) & (d3 & D3 & _)).
    injection E as E0 E1 _ _. symmetry in E0, E1. apply byte_inj in E0, E1.
    destruct HM as (m0 & m1 & (k0 & K0 & <-) & (k1 & K1 & <-) & ->).
    assert (L64 : 64 <= length file). { enough (63 < length file) by lia. apply nth_error_Some. congruence. }
    assert (L : length dos = 64) by (unfold dos; now rewrite firstn_length_le).
    rewrite L. cbn [Nat.eqb negb].
    assert (M : firstn 2 dos = $"MZ").
    { destruct H0 as (z0 & Z0 & Y0), H1 as (z1 & Z1 & Y1). apply byte_inj in Y0, Y1. subst z0 z1.
      apply firstn2_eq. unfold dos. rewrite !nth_error_firstn by lia. split; assumption. }
    rewrite M, eqb_refl. cbn [negb].
    unfold dos. rewrite (nth_firstn_some 64 60 file c0), (nth_firstn_some 64 61 file c1),
      (nth_firstn_some 64 62 file c2), (nth_firstn_some 64 63 file c3) by (auto; lia).
    assert (PN : le32s c0 c1 c2 c3 = Z.of_nat p).
    { rewrite le32s_val by exact B3. symmetry. exact P. }
    rewrite PN. destruct (Z.ltb_spec (Z.of_nat p) 0) as [X|_]; [lia|].
    rewrite Nat2Z.id.
    assert (S6 : firstn 6 (skipn p file) = [d0; d1; d2; d3; k0; k1]) by (apply six_at; auto 10).
    rewrite S6, E0, E1. reflexivity.
Qed.

Lemma pe_like_det file m m' : pe_like file m -> pe_like file m' -> m = m'.
Proof.
  assert (D : forall f n v v', byte_at f n v -> byte_at f n v' -> v = v').
  { intros f n v v' (c & E & <-) (c' & E' & <-). congruence. }
  intros (p & x & y & _ & _ & HP & _ & HM) (p' & x' & y' & _ & _ & HP' & _ & HM').
  destruct HP as (b0 & b1 & b2 & b3 & C0 & C1 & C2 & C3 & _ & P).
  destruct HP' as (b0' & b1' & b2' & b3' & C0' & C1' & C2' & C3' & _ & P').
  pose proof (D _ _ _ _ C0 C0'). pose proof (D _ _ _ _ C1 C1'). pose proof (D _ _ _ _ C2 C2').
  pose proof (D _ _ _ _ C3 C3'). subst. assert (p = p') by lia. subst p'.
  destruct HM as (m0 & m1 & K0 & K1 & ->), HM' as (m0' & m1' & K0' & K1' & ->).
  pose proof (D _ _ _ _ K0 K0'). pose proof (D _ _ _ _ K1 K1'). subst. reflexivity.
Qed.

Lemma machine_get_bits m :
  let n := machine_name m in
  (if eqb n $"I386" then [32] else if mem n [$"IA64"; $"AMD64"] then [64] else []) = machine_bits m.
Proof.
  unfold machine_name, machine_bits, machine_types. cbn [machine_get].
  repeat lazymatch goal with
         | |- context [if (?k =? m)%Z then _ else _] =>
             destruct (Z.eqb_spec k m) as [<-|]; [reflexivity|]
         end.
  destruct (Z.eqb_spec m 332) as [->|]; [congruence|].
  destruct (Z.eqb_spec m 512) as [->|]; [congruence|].
  destruct (Z.eqb_spec m 34404) as [->|]; [congruence|]. reflexivity.
Qed.

Lemma arch_windows platform file out :
  starts_with $"win" platform = true ->
  (forall m, pe_like file m -> arch platform (Some file) out = machine_bits m)
  /\ ((forall m, ~ pe_like file m) -> arch platform (Some file) out = []).
Proof.
  intros W. unfold arch, get_arch. rewrite W. split.
  - intros m H. assert (E : pe_machine file = Ok (machine_name m)) by (apply pe_machine_ok; eauto).
    rewrite E. cbn [bind]. rewrite <- machine_get_bits. cbn zeta.
    destruct (eqb (machine_name m) $"I386"); [reflexivity|].
    destruct (mem (machine_name m) [$"IA64"; $"AMD64"]); reflexivity.
  - intros N. destruct (pe_machine file) as [n|] eqn:E; [|reflexivity].
    apply pe_machine_ok in E. destruct E as (m & H & _). destruct (N m H).
Qed.

Lemma arch_windows_iff platform file out :
  starts_with $"win" platform = true ->
  (arch platform (Some file) out = [32] <-> pe_like file 332)
  /\ (arch platform (Some file) out = [64] <-> pe_like file 512 \/ pe_like file 34404)
  /\ (arch platform (Some file) out = [] <->
      ~ pe_like file 332 /\ ~ pe_like file 512 /\ ~ pe_like file 34404)
  /\ arch platform None out = [].
Proof.
  intros W. destruct (arch_windows platform file out W) as [A B].
  assert (X : (exists m, pe_like file m) \/ forall m, ~ pe_like file m).
  { destruct (pe_machine file) as [n|] eqn:E.
    - left. apply pe_machine_ok in E. destruct E as (m & H & _). now exists m.
    - right. intros m H. assert (Y : pe_machine file = Ok (machine_name m)) by (apply pe_machine_ok; eauto).
      congruence. }
  assert (Y : arch platform None out = []) by (unfold arch, get_arch; rewrite W; reflexivity).
  destruct X as [[m H]|N].
  - rewrite (A m H). unfold machine_bits.
    assert (D : forall k, pe_like file k <-> k = m).
    { intros k. split; [intros K; exact (pe_like_det _ _ _ K H)|intros ->; exact H]. }
    rewrite !D. destruct (Z.eqb_spec m 332) as [->|]; [repeat split; try discriminate; auto; try lia|].
    destruct (Z.eqb_spec m 512) as [->|]; [repeat split; try discriminate; auto; try lia|].
    destruct (Z.eqb_spec m 34404) as [->|]; cbn [orb]; repeat split; try discriminate; auto; try lia.
  - rewrite (B N). repeat split; try discriminate; auto.
    + intros H. destruct (N _ H).
    + intros [H|H]; destruct (N _ H).
Qed.

(** ** Initialisation *)
Definition ready (w : world) : Prop := w_parser w = true /\ w_library w = true.

Lemma do_call_fresh platform ge c :
  exists w a, do_call platform ge c fresh = (Ok tt, w, a) /\ ready w.
Proof.
  destruct c as [t m|t m os|]; cbn [do_call w_parser fresh].
  - unfold init. cbn [w_parser w_library fresh orb].
    destruct (init_clibrary platform ge (or_empty t)) as [tb et]. do 2 eexists. split; [reflexivity|].
    split; reflexivity.
  - unfold auto_init, init. cbn [w_parser w_library fresh orb].
    destruct (init_clibrary platform ge _) as [tb et]. do 2 eexists. split; [reflexivity|].
    split; reflexivity.
  - unfold auto_init, init. cbn [w_parser w_library fresh orb].
    destruct (init_clibrary platform ge _) as [tb et]. do 2 eexists. split; [reflexivity|].
    split; reflexivity.
Qed.
Lemma do_call_ready platform ge c w : ready w ->
  exists a, do_call platform ge c w = (later c, w, a).
Proof.
  intros [P L]. destruct c as [t m|t m os|]; cbn [do_call later].
  - unfold init. rewrite P. eexists. reflexivity.
  - unfold auto_init, init. rewrite P. cbn [orb]. eexists. reflexivity.
  - rewrite P. eexists. reflexivity.
Qed.
Lemma run_ready platform ge cs w : ready w -> run platform ge cs w = (map later cs, w).
Proof.
  intros R. induction cs as [|c cs IH]; cbn [run map]; [reflexivity|].
  destruct (do_call_ready platform ge c w R) as [a ->]. now rewrite IH.
Qed.
Lemma run_fresh platform ge c cs :
  fst (run platform ge (c :: cs) fresh) = Ok tt :: map later cs
  /\ snd (run platform ge (c :: cs) fresh) = snd (run platform ge [c] fresh).
Proof.
  cbn [run]. destruct (do_call_fresh platform ge c) as (w & a & -> & R).
  rewrite (run_ready _ _ _ _ R). auto.
Qed.

(** The dictionary of the caller. *)
Lemma clib_dict_unchanged platform extra :
  platform <> $"win32" -> snd (init_clibrary platform false extra) = extra.
Proof. intros N. apply eqb_false in N. unfold init_clibrary. rewrite N. reflexivity. Qed.

Lemma call_args_unchanged platform c w :
  platform <> $"win32" -> ~ windows platform c ->
  snd (do_call platform false c w) = (given_types c, given_mods c).
Proof.
  intros N W. destruct c as [t m|t m os|]; cbn [do_call given_types given_mods].
  - unfold init. destruct (w_parser w || w_library w); [reflexivity|].
    pose proof (clib_dict_unchanged platform (or_empty t) N) as U.
    destruct (init_clibrary platform false (or_empty t)) as [tb et]. cbn [snd] in *. subst et.
    destruct t as [[|kv t]|]; reflexivity.
  - cbn [windows] in W. unfold auto_init.
    assert (E : eqb os (Some $"win32") || eqb platform $"win32" = false).
    { apply orb_false_iff. split; apply eqb_false; tauto. }
    rewrite E. unfold init. destruct (w_parser w || w_library w).
    + destruct t as [[|kv t]|], m as [[|x m]|]; reflexivity.
    + cbn [or_empty]. pose proof (clib_dict_unchanged platform (or_empty t) N) as U.
      destruct (init_clibrary platform false (or_empty t)) as [tb et]. cbn [snd] in *. subst et.
      destruct t as [[|kv t]|], m as [[|x m]|]; reflexivity.
  - destruct (w_parser w); [reflexivity|]. unfold auto_init.
    destruct (init _ _ _ _ _) as [[r w'] [t' m']]. reflexivity.
Qed.
Lemma init_mods_unchanged platform ge t m w :
  snd (snd (do_call platform ge (CInit t m) w)) = m.
Proof.
  cbn [do_call]. unfold init. destruct (w_parser w || w_library w); [reflexivity|].
  destruct (init_clibrary platform ge (or_empty t)). reflexivity.
Qed.

(** ** What an initialisation sets *)
Lemma dget_dupdate {A} (d e : dict str A) k : NoDup (keys e) ->
  dget (dupdate d e) k = match dget e k with Some v => Some v | None => dget d k end.
Proof.
  unfold dupdate. revert d. induction e as [|[k0 v0] e IH]; intros d ND; cbn [fold_left dget fst snd].
  - reflexivity.
  - cbn [keys map fst] in ND. inversion ND as [|? ? NI ND']; subst.
    rewrite IH by exact ND'. destruct (eqb_spec k k0) as [->|N].
    + assert (E : dget e k0 = None) by (apply dget_None; exact NI). rewrite E.
      apply dget_dset_same.
    + destruct (dget e k); [reflexivity|]. now apply dget_dset_other.
Qed.
Lemma keys_win e :
  keys (map (fun kv : str * tyval => match dget ct_win_types (fst kv) with
                       | Some v => (fst kv, v) | None => kv end) e) = keys e.
Proof.
  unfold keys. rewrite map_map. apply map_ext. intros [k v]. cbn [fst].
  destruct (dget ct_win_types k); reflexivity.
Qed.
Lemma dget_win e k :
  dget (map (fun kv : str * tyval => match dget ct_win_types (fst kv) with
                       | Some v => (fst kv, v) | None => kv end) e) k
  = match dget e k with
    | Some v => match dget ct_win_types k with Some v' => Some v' | None => Some v end
    | None => None
    end.
Proof.
  induction e as [|[k0 v0] e IH]; [reflexivity|]. cbn [map fst].
  destruct (eqb_spec k k0) as [->|N].
  - cbn [dget]. rewrite (eqb_refl k0). destruct (dget ct_win_types k0); cbn [dget]; now rewrite eqb_refl.
  - apply eqb_false in N. cbn [dget]. rewrite N, <- IH.
    destruct (dget ct_win_types k0); cbn [dget]; now rewrite N.
Qed.

Lemma clib_table platform ge extra k : NoDup (keys extra) ->
  dget (fst (init_clibrary platform ge extra)) k
  = if ge && eqb k $"time_t" then Some (TyC $"c_time_t")
    else match dget extra k with
         | Some v => match (if eqb platform $"win32" then dget ct_win_types k else None) with
                     | Some v' => Some v' | None => Some v end
         | None => dget std_types k
         end.
Proof.
  intros ND. unfold init_clibrary. cbn [fst].
  set (e1 := if eqb platform $"win32" then
               map (fun kv : str * tyval => match dget ct_win_types (fst kv) with
                       | Some v => (fst kv, v) | None => kv end) extra else extra).
  assert (K : keys e1 = keys extra).
  { unfold e1. destruct (eqb platform $"win32"); [apply keys_win|reflexivity]. }
  assert (G : forall j, dget e1 j = match dget extra j with
         | Some v => match (if eqb platform $"win32" then dget ct_win_types j else None) with
                     | Some v' => Some v' | None => Some v end
         | None => None end).
  { intros j. unfold e1. destruct (eqb platform $"win32"); [apply dget_win|].
    destruct (dget extra j); reflexivity. }
  clearbody e1. rewrite <- K in ND. destruct ge; cbn [andb].
  - rewrite dget_dupdate by (apply NoDup_dset; exact ND). rewrite dget_dset.
    destruct (eqb k $"time_t"); [reflexivity|]. rewrite G. destruct (dget extra k) as [v|]; [|reflexivity].
    destruct (if eqb platform $"win32" then dget ct_win_types k else None); reflexivity.
  - rewrite dget_dupdate by exact ND. rewrite G. destruct (dget extra k) as [v|]; [|reflexivity].
    destruct (if eqb platform $"win32" then dget ct_win_types k else None); reflexivity.
Qed.

(** [init] on a fresh package. *)
Lemma init_sets platform ge t m :
  NoDup (keys (opt_list t)) ->
  let w := snd (run platform ge [CInit t m] fresh) in
  w_extra w = keys (opt_list t) /\ w_mods w = opt_list m
  /\ (forall k v, opt_get t k = Some v -> ~ (ge = true /\ k = $"time_t") ->
      (platform = $"win32" -> dget ct_win_types k = None) -> dget (w_types w) k = Some v)
  /\ (forall k, opt_get t k = None -> ~ (ge = true /\ k = $"time_t") ->
      dget (w_types w) k = dget std_types k).
Proof.
  intros ND. cbn [run do_call]. unfold init. cbn [fresh w_parser w_library orb].
  pose proof (clib_table platform ge (or_empty t)) as T.
  assert (E : or_empty t = opt_list t) by (destruct t; reflexivity).
  rewrite E in *. assert (G : forall k, opt_get t k = dget (opt_list t) k) by (destruct t; reflexivity).
  destruct (init_clibrary platform ge (opt_list t)) as [tb et]. cbn [fst snd w_extra w_mods w_types] in *.
  split; [reflexivity|]. split; [destruct m; reflexivity|]. split.
  - intros k v H NT NW. rewrite T by exact ND. rewrite <- G, H.
    assert (X : ge && eqb k $"time_t" = false).
    { apply not_true_iff_false. intros X. apply andb_true_iff in X. destruct X as [X Y]. apply eqb_eq in Y. tauto. }
    rewrite X. destruct (eqb_spec platform $"win32") as [P|]; [|reflexivity]. now rewrite (NW P).
  - intros k H NT. rewrite T by exact ND. rewrite <- G, H.
    assert (X : ge && eqb k $"time_t" = false).
    { apply not_true_iff_false. intros X. apply andb_true_iff in X. destruct X as [X Y]. apply eqb_eq in Y. tauto. }
    now rewrite X.
Qed.

(** [auto_init] on a fresh package. *)
Lemma auto_is_init platform ge t m os :
  let win := eqb os (Some $"win32") || eqb platform $"win32" in
  snd (run platform ge [CAuto t m os] fresh)
  = snd (run platform ge [CInit (Some (if win then dset (opt_list t) $"__int64" TyNone else opt_list t))
                            (Some (if win then opt_list m ++ win_modifiers else opt_list m))] fresh).
Proof.
  intros win. assert (E : or_empty t = opt_list t) by (destruct t; reflexivity). assert (E' : or_empty m = opt_list m) by (destruct m; reflexivity).
  cbn [run do_call]. unfold auto_init. fold win. rewrite E, E'.
  change (dupdate (opt_list t) win_types) with (dset (opt_list t) $"__int64" TyNone).
  destruct (init platform ge _ _ fresh) as [[r w'] [t' m']]. reflexivity.
Qed.
Lemma auto_sets platform ge t m os :
  NoDup (keys (opt_list t)) ->
  let win := os = Some $"win32" \/ platform = $"win32" in
  let w := snd (run platform ge [CAuto t m os] fresh) in
  (win -> w_mods w = opt_list m ++ win_modifiers /\ forall k, In k (w_extra w) <-> In k (keys (opt_list t)) \/ k = $"__int64")
  /\ (~ win -> w_mods w = opt_list m /\ w_extra w = keys (opt_list t))
  /\ (forall k v, opt_get t k = Some v -> ~ (ge = true /\ k = $"time_t") -> ~ (win /\ k = $"__int64") ->
      (platform = $"win32" -> dget ct_win_types k = None) -> dget (w_types w) k = Some v)
  /\ (forall k, opt_get t k = None -> ~ (ge = true /\ k = $"time_t") -> ~ (win /\ k = $"__int64") ->
      dget (w_types w) k = dget std_types k)
  /\ (platform = $"win32" -> dget (w_types w) $"__int64" = Some (TyC $"c_longlong")).
Proof.
  intros ND win w. unfold w. rewrite auto_is_init.
  assert (W : (eqb os (Some $"win32") || eqb platform $"win32") = true <-> win).
  { unfold win. destruct (eqb_spec os (Some $"win32")) as [A|A], (eqb_spec platform $"win32") as [B|B]; cbn [orb]; split; auto; try discriminate; tauto. }
  destruct (eqb os (Some $"win32") || eqb platform $"win32").
  - assert (WT : win) by (apply W; reflexivity). set (t1 := dset (opt_list t) $"__int64" TyNone).
    assert (ND1 : NoDup (keys t1)) by (apply NoDup_dset; exact ND).
    assert (G : forall k, k <> $"__int64" -> opt_get (Some t1) k = opt_get t k).
    { intros k N. change (opt_get (Some t1) k) with (dget t1 k). unfold t1. rewrite dget_dset_other by exact N. destruct t; reflexivity. }
    destruct (init_sets platform ge (Some t1) (Some (opt_list m ++ win_modifiers)) ND1) as (H1 & H2 & H3 & H4).
    split; [|split; [tauto|split; [|split]]].
    + intros _. split; [exact H2|]. intros k. rewrite H1. change (opt_list (Some t1)) with t1. unfold t1. rewrite <- !dmem_In. unfold dmem. rewrite dget_dset.
      destruct (eqb_spec k $"__int64") as [->|N]; [tauto|]. split; [auto|]. intros [H|H]; [exact H|contradiction].
    + intros k v E NT NI NW. apply H3; [|exact NT|exact NW]. rewrite G; [exact E|]. intros ->. tauto.
    + intros k E NT NI. apply H4; [|exact NT]. rewrite G; [exact E|]. intros ->. tauto.
    + intros P. cbn [run do_call]. unfold init. cbn [fresh w_parser w_library orb or_empty].
      pose proof (clib_table platform ge t1) as T. destruct (init_clibrary platform ge t1) as [tb et]. cbn [fst snd w_types] in *.
      rewrite T by exact ND1. unfold t1. rewrite dget_dset_same, P. destruct ge; reflexivity.
  - assert (WF : ~ win) by (intros X; apply W in X; discriminate X).
    destruct (init_sets platform ge (Some (opt_list t)) (Some (opt_list m)) ND) as (H1 & H2 & H3 & H4).
    assert (G : forall k, opt_get (Some (opt_list t)) k = opt_get t k) by (intros k; destruct t; reflexivity).
    split; [tauto|]. split; [intros _; split; [exact H2|exact H1]|]. split; [|split].
    + intros k v E NT _ NW. apply H3; [rewrite G; exact E|exact NT|exact NW].
    + intros k E NT _. apply H4; [rewrite G; exact E|exact NT].
    + intros P. exfalso. apply WF. right. exact P.
Qed.
Lemma parser_is_auto platform ge w : w_parser w = false -> run platform ge [CNewParser] w = run platform ge [CAuto None None None] w.
Proof. intros H. cbn [run do_call]. rewrite H. reflexivity. Qed.
