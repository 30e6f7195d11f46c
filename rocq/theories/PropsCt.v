(** C06 and C55-C60: ctypes types. *)
From Coq Require Import Ascii String Bool Arith ZArith Lia List Permutation.
Import ListNotations.
From Verif Require Import PyBase PyBaseFacts PyStr PyExpr TypeModel InitModel StoreModel DeclModel CtModel CtSpec
  CtProofs CtFinish CtOne CtShape CtFields CtData CtWords CtExamples.

(** ** C06: spellings of integer types *)
Ltac pick := first [left; reflexivity | right; pick].
(** False as stated: signed is not known; signed char gives char; long signed int is not known. *)
Theorem c06_spellings_refuted :
  (exists e ws c st, knows_standard e /\ spells ws c /\ forall fuel, fst (get_type e (S fuel) true (plain_spelling ws) st) = Err KeyError)
  /\ (exists e ws c st d, knows_standard e /\ spells ws c /\ c <> d
       /\ forall fuel, fst (get_type e (S fuel) true (plain_spelling ws) st) = Ok (PBase d))
  /\ (exists e ws c st, knows_standard e /\ spells ws c /\ length ws = 3
       /\ forall fuel, fst (get_type e (S fuel) true (plain_spelling ws) st) = Err KeyError).
Proof.
  split; [|split].
  - exists sample, [$"signed"], $"c_int", (start []). split; [exact sample_standard|]. split; [|intros fuel; reflexivity].
    eexists _, [$"signed"]. split; [|split; [|apply Permutation_refl]]; pick.
  - exists sample, [$"signed"; $"char"], $"c_byte", (start []), $"c_char". split; [exact sample_standard|].
    split; [|split; [discriminate|intros fuel; reflexivity]].
    eexists _, [$"signed"; $"char"]. split; [|split; [|apply Permutation_refl]]; pick.
  - exists sample, [$"long"; $"signed"; $"int"], $"c_long", (start []). split; [exact sample_standard|].
    split; [|split; [reflexivity|intros fuel; reflexivity]].
    eexists _, [$"signed"; $"long"; $"int"]. split; [|split; [|apply perm_swap]]; pick.
Qed.
Print Assumptions c06_spellings_refuted.

(** Spellings with the sign first, then the size.  Missing: signed alone, signed char, other orders. *)
Theorem c06_spellings_partial : forall e st fuel ws c,
  knows_standard e -> in_order ws -> spells ws c -> ws <> [$"signed"] -> ws <> [$"signed"; $"char"] ->
  get_type e (S fuel) true (plain_spelling ws) st = (Ok (PBase c), st).
Proof. exact spelling_ok. Qed.
Print Assumptions c06_spellings_partial.
Example c06_case :
  in_order [$"signed"; $"long"; $"long"; $"int"] /\ spells [$"signed"; $"long"; $"long"; $"int"] $"c_longlong"
  /\ get_type sample 1 true (plain_spelling [$"signed"; $"long"; $"long"; $"int"]) (start []) = (Ok (PBase $"c_longlong"), start []).
Proof.
  split; [|split].
  - exists [$"signed"], [$"long"; $"long"], [$"int"]. cbn. tauto.
  - eexists _, [$"signed"; $"long"; $"long"; $"int"]. split; [|split; [|apply Permutation_refl]]; pick.
  - vm_compute. reflexivity.
Qed.

(** ** C55: shapes *)
Definition pp_fun : rty := plain $"int" [DFun [par int_r]; star; star].
Definition void_fun : rty := plain $"void" [DFun [par (plain $"void" [])]; star].
Definition two_m : rty := plain $"int" [DFun [par (plain $"M" []); par (plain $"M" [])]; star].
Definition m_shape : pyt := PArr (PArr (PBase $"c_int") 3) 2.
(** False as stated: a pointer to a function pointer loses a star; a function without parameters
    cannot be built; the second of two parameters of type M gets one dimension too many. *)
Theorem c55_shape_refuted :
  (exists e h t c c', shape e (start h) t c /\ c <> c' /\ forall fuel, 2 <= fuel -> fst (get_type e fuel true t (start h)) = Ok c')
  /\ (exists e h t c, shape e (start h) t c /\ forall fuel, 2 <= fuel -> fst (get_type e fuel true t (start h)) = Err TypeError)
  /\ (exists e h t c c', shape e (start h) t c /\ c <> c' /\ e_types e <> []
       /\ forall fuel, 2 <= fuel -> fst (get_type e fuel true t (start h)) = Ok c').
Proof.
  assert (IS : shape sample (start sample_heap) int_r (PBase $"c_int")).
  { eapply sh_type; [vm_compute; reflexivity|apply (ba_table _ _ $"int" (TyC $"c_int")); reflexivity|intros [X _]; discriminate X|constructor]. }
  assert (MS : shape sample (start sample_heap) (plain $"M" []) m_shape).
  { eapply sh_type; [vm_compute; reflexivity|apply (ba_table _ _ $"int" (TyC $"c_int")); reflexivity|intros [X _]; discriminate X|].
    apply (ap_arr sample (start sample_heap) (PBase $"c_int") [0; 1] [2%Z; 3%Z] []); try discriminate; [|reflexivity|constructor].
    repeat constructor; discriminate. }
  split; [|split].
  - exists sample, sample_heap, pp_fun, (PPtr (PFun false (PBase $"c_int") [PBase $"c_int"])), (PFun false (PBase $"c_int") [PBase $"c_int"]).
    split; [|split; [discriminate|]].
    + eapply sh_type; [vm_compute; reflexivity|apply (ba_table _ _ $"int" (TyC $"c_int")); reflexivity|intros [X _]; discriminate X|].
      eapply ap_fun; [constructor; [exact IS|discriminate|constructor]|]. apply ap_ptr. constructor.
    + intros [|[|fuel]] L; try lia. reflexivity.
  - exists sample, sample_heap, void_fun, (PFun false PVoid []). split.
    + eapply sh_type; [vm_compute; reflexivity|apply (ba_void sample); reflexivity|intros [X _]; discriminate X|].
      eapply ap_fun; [eapply ss_void; vm_compute; reflexivity|]. constructor.
    + intros [|[|fuel]] L; try lia. reflexivity.
  - exists sample, sample_heap, two_m, (PFun false (PBase $"c_int") [m_shape; m_shape]),
      (PFun false (PBase $"c_int") [m_shape; PArr (PArr (PArr (PBase $"c_int") 3) 3) 2]).
    split; [|split; [discriminate|split; [discriminate|]]].
    + eapply sh_type; [vm_compute; reflexivity|apply (ba_table _ _ $"int" (TyC $"c_int")); reflexivity|intros [X _]; discriminate X|].
      eapply ap_fun; [constructor; [exact MS|discriminate|constructor; [exact MS|discriminate|constructor]]|]. constructor.
    + intros [|[|fuel]] L; try lia. reflexivity.
Qed.
Print Assumptions c55_shape_refuted.

(** Without arrays of arrays, pointers to function pointers and functions without parameters: the type
    of that shape is given, and nothing changes.  Missing: those. *)
Theorem c55_shape_partial : forall e st t c, supported e t -> shape e st t c ->
  exists F, forall fuel, F <= fuel -> get_type e fuel true t st = (Ok c, st).
Proof. exact supported_shape. Qed.
Print Assumptions c55_shape_partial.
(** Structures met for the first time are built; the shape is then the one with the new classes. *)
Theorem c55_given_partial : forall e, tags_known e -> flat_members e -> forall fuel t st c st' c',
  supported e t -> get_type e fuel true t st = (Ok c, st') -> shape e st' t c' -> c' = c.
Proof. exact shape_given. Qed.
Print Assumptions c55_given_partial.
(** Types without functions, in which each array list occurs once, the first time they are asked for. *)
Theorem c55_arrays_partial : forall e st t r c,
  eval_type (e_conf e) (e_types e) t = Ok r -> is_data (t_decls r) = true -> NoDup (refs (t_decls r)) ->
  shape e st t c -> exists st', (forall fuel, get_type e (S fuel) true t st = (Ok c, st'))
    /\ st_structs st' = st_structs st /\ st_classes st' = st_classes st
    /\ forall a, ~ In a (refs (t_decls r)) -> content (st_heap st') a = content (st_heap st) a.
Proof. exact data_shape. Qed.
Print Assumptions c55_arrays_partial.

(** cmp *x[2], an array of two comparison functions, and M *p after struct node has been built. *)
Definition node_built : cst := snd (get_struct sample 3 false $"node" (start sample_heap)).
Definition cmp_array : rty := plain $"cmp" [DArr 0].
Example c55_case :
  supported sample cmp_array
  /\ shape sample node_built cmp_array (PArr (PFun false (PBase $"c_int") [PPtr (PClass 0); PBase $"c_void_p"]) 2)
  /\ get_type sample 4 true cmp_array node_built = (Ok (PArr (PFun false (PBase $"c_int") [PPtr (PClass 0); PBase $"c_void_p"]) 2), node_built)
  /\ fst (get_type sample 4 true (plain $"M" [star]) node_built) = Ok (PPtr m_shape).
Proof.
  split; [apply (check_supported sample 3); vm_compute; reflexivity|]. split; [|split; vm_compute; reflexivity].
  eapply sh_type; [vm_compute; reflexivity|apply (ba_table _ _ $"int" (TyC $"c_int")); reflexivity|intros [X _]; discriminate X|].
  eapply (ap_fun _ _ _ _ [PPtr (PClass 0); PBase $"c_void_p"]).
  - constructor; [|discriminate|constructor; [|discriminate|constructor]].
    + eapply (sh_type _ _ _ _ _ _ (PClass 0)); [vm_compute; reflexivity| |intros [_ X]; cbn in X; intuition discriminate|apply ap_ptr; constructor].
      apply (ba_struct sample node_built $"node" 0 (repeat (Some []) 2)); vm_compute; reflexivity.
    + eapply sh_special; [vm_compute; reflexivity|cbn; tauto|constructor].
  - apply (ap_arr sample node_built (PFun false (PBase $"c_int") [PPtr (PClass 0); PBase $"c_void_p"]) [0] [2%Z] []); try discriminate; [|reflexivity|constructor].
    constructor; [split; [vm_compute; reflexivity|lia]|constructor].
Qed.

(** ** C56: requests and definitions *)
(** False as stated: asking for M changes its definition and asking again gives another type. *)
Theorem c56_unchanged_refuted :
  exists e h t c c' st', get_type e 1 true t (start h) = (Ok c, st')
    /\ st_heap st' <> h /\ fst (get_type e 1 true t st') = Ok c' /\ c <> c'.
Proof.
  exists sample, sample_heap, (plain $"M" []), m_shape, (PArr (PArr (PArr (PBase $"c_int") 3) 3) 2),
    (snd (get_type sample 1 true (plain $"M" []) (start sample_heap))).
  split; [vm_compute; reflexivity|]. split; [vm_compute; discriminate|]. split; [vm_compute; reflexivity|]. discriminate.
Qed.
Print Assumptions c56_unchanged_refuted.

(** When no type involved has an array of arrays.  Missing: those types. *)
Theorem c56_unchanged_partial : forall e, tags_known e -> flat_members e ->
  forall fuel p t st, flat e t -> st_heap (snd (get_type e fuel p t st)) = st_heap st.
Proof. exact request_keeps. Qed.
Print Assumptions c56_unchanged_partial.
Theorem c56_again_partial : forall e, tags_known e -> flat_members e ->
  forall fuel t st c st' fuel' rs, flat e t -> (forall r, In r rs -> plain_request e r) ->
  get_type e fuel true t st = (Ok c, st') ->
  get_type e fuel true t (history e fuel' rs st') = (Ok c, history e fuel' rs st').
Proof. exact request_again. Qed.
Print Assumptions c56_again_partial.
Example c56_case :
  tags_known sample /\ flat_members sample /\ flat sample cmp_array
  /\ plain_request sample (RComp true $"u") /\ plain_request sample (RType (plain $"struct pair" [star]))
  /\ fst (get_type sample 5 true cmp_array (start sample_heap))
     = Ok (PArr (PFun false (PBase $"c_int") [PPtr (PClass 0); PBase $"c_void_p"]) 2)
  /\ length (st_classes (history sample 5 [RComp true $"u"; RType (plain $"struct pair" [star])] (snd (get_type sample 5 true cmp_array (start sample_heap))))) = 3.
Proof.
  split; [exact sample_tags|]. split; [exact sample_flat|]. split; [apply (check_flat sample 3); vm_compute; reflexivity|].
  split; [reflexivity|]. split; [apply (check_flat sample 3); vm_compute; reflexivity|]. split; vm_compute; reflexivity.
Qed.

(** ** C57: classes *)
(** False as stated: asking for a structure by a typedef makes another class every time. *)
Theorem c57_one_class_refuted :
  exists e h n i j st1 st2 q, tags_known e
    /\ eval_type (e_conf e) (e_types e) (plain n []) = Ok (CT (SName $"struct node") [] q)
    /\ get_struct e 3 false n (start h) = (Ok i, st1) /\ get_struct e 3 false n st1 = (Ok j, st2) /\ i <> j.
Proof.
  exists sample, [], $"node_t", 0, 1. eexists. eexists. eexists. split; [exact sample_tags|].
  split; [vm_compute; reflexivity|]. split; [vm_compute; reflexivity|]. split; [vm_compute; reflexivity|]. discriminate.
Qed.
Print Assumptions c57_one_class_refuted.

(** Asked for by their own names, or as a type: every later request gives the class of the first.
    Missing: requests for a structure by the name of a typedef. *)
Theorem c57_one_class_partial : forall e, tags_known e -> forall u n fuel st i st' fuel' rs,
  dmem (e_comps e u) n = true -> (forall r, In r rs -> by_name e r) ->
  get_struct e fuel u n st = (Ok i, st') ->
  let st2 := history e fuel' rs st' in
  (forall f, get_struct e f u n st2 = (Ok i, st2))
  /\ (forall f t q, eval_type (e_conf e) (e_types e) t = Ok (CT (SName (tag_of u ++ n)) [] q) ->
        dget (e_table e) (tag_of u ++ n) = None -> tag_entry e (tag_of u ++ n) = Ok n ->
        get_type e (S f) true t st2 = (Ok (PClass i), st2)).
Proof. exact one_class. Qed.
Print Assumptions c57_one_class_partial.
(** The first request by the name of a typedef does what the request by the name of the structure or union does. *)
Theorem c57_typedef_partial : forall e u n m ds q fuel st,
  dmem (e_comps e u) n = false -> dmem (e_types e) n = true -> dmem (e_comps e u) m = true ->
  eval_type (e_conf e) (e_types e) (CT (SName n) [] [Some []]) = Ok (CT (SName (tag_of u ++ m)) ds q) ->
  tag_entry e (tag_of u ++ m) = Ok m ->
  dget (st_structs st) n = None -> dget (st_structs st) m = None ->
  get_struct e fuel u n st = get_struct e fuel u m st.
Proof. exact typedef_request. Qed.
Print Assumptions c57_typedef_partial.
Example c57_typedef_case :
  dmem (e_comps sample false) $"node_t" = false /\ dmem (e_types sample) $"node_t" = true /\ dmem (e_comps sample false) $"node" = true
  /\ eval_type (e_conf sample) (e_types sample) (CT (SName $"node_t") [] [Some []]) = Ok (CT (SName (tag_of false ++ $"node")) [] [Some []])
  /\ tag_entry sample (tag_of false ++ $"node") = Ok $"node"
  /\ get_struct sample 3 false $"node_t" (start []) = get_struct sample 3 false $"node" (start []).
Proof. vm_compute. repeat split. Qed.
Theorem c57_distinct_partial : forall e, tags_known e -> forall h fuel rs fu fv u v n m i j s s',
  dmem (e_comps e u) n = true -> dmem (e_comps e v) m = true -> (forall r, In r rs -> by_name e r) ->
  get_struct e fu u n (history e fuel rs (start h)) = (Ok i, s) -> get_struct e fv v m s = (Ok j, s') ->
  (i = j <-> n = m).
Proof. exact two_classes. Qed.
Print Assumptions c57_distinct_partial.
(** The class has a field for each member, with the type asking for the type of the member gives. *)
Theorem c57_fields_partial : forall e, tags_known e -> flat_members e -> forall h fuel rs n i,
  (forall r, In r rs -> plain_request e r) ->
  let st := history e fuel rs (start h) in
  dget (st_structs st) n = Some i ->
  exists u d k, dget (e_comps e u) n = Some d /\ nth_error (st_classes st) i = Some k
    /\ k_union k = u /\ k_pack k = sd_pack d
    /\ forall fs, k_fields k = Some fs ->
         Forall2 (fun m f => (forall x, sm_name m = Some x -> fd_name f = x)
           /\ exists fuel, get_type e fuel true (sm_type m) st = (Ok (fd_type f), st)) (sd_members d) fs.
Proof. exact class_fields. Qed.
Print Assumptions c57_fields_partial.
(** Construction finishes, whichever structures refer to each other. *)
Theorem c57_types_finish : forall e, ordered_typedefs e -> tags_known e -> forall p t st,
  exists r, (exists F, forall fuel, F <= fuel -> get_type e fuel p t st = r) /\ fst r <> Err OutOfFuel.
Proof. exact types_finish. Qed.
Print Assumptions c57_types_finish.
Theorem c57_structures_finish : forall e, ordered_typedefs e -> tags_known e -> forall u n st, dmem (e_comps e u) n = true ->
  exists r, (exists F, forall fuel, F <= fuel -> get_struct e fuel u n st = r) /\ fst r <> Err OutOfFuel.
Proof. exact structs_finish. Qed.
Print Assumptions c57_structures_finish.
Theorem c57_complete : forall e, tags_known e -> forall fuel u n st i st',
  dmem (e_comps e u) n = true -> dget (st_structs st) n = None ->
  get_struct e fuel u n st = (Ok i, st') -> exists k fs, nth_error (st_classes st') i = Some k /\ k_fields k = Some fs.
Proof. exact struct_finished. Qed.
Print Assumptions c57_complete.
(** struct pair, struct node and union u refer to each other. *)
Example c57_case :
  tags_known sample /\ flat_members sample /\ ordered_typedefs sample
  /\ (forall r, In r [RComp false $"pair"; RType (plain $"node_t" [])] -> plain_request sample r /\ by_name sample r)
  /\ (let st := history sample 5 [RComp false $"pair"; RType (plain $"node_t" [])] (start sample_heap) in
      st_structs st = [($"pair", 0); ($"node", 1); ($"u", 2)]
      /\ map (fun k => option_map (map fd_type) (k_fields k)) (st_classes st)
         = [Some [PClass 1; PPtr (PClass 1); PClass 2]; Some [PBase $"c_int"; PPtr (PClass 1)]; Some [PBase $"c_int"; PPtr (PClass 0)]]).
Proof.
  split; [exact sample_tags|]. split; [exact sample_flat|]. split; [exact sample_ordered|]. split; [|split; vm_compute; reflexivity].
  intros r [<-|[<-|[]]]; split; try reflexivity; apply (check_flat sample 3); vm_compute; reflexivity.
Qed.

(** ** C58: bit widths *)
(** False as stated: the declared width of struct bits is not used, and a value is taken for a width. *)
Definition valued : cenv := {|
  e_conf := e_conf sample; e_types := []; e_unions := []; e_table := std_types; e_win := false;
  e_structs := [($"v", {| sd_members := [{| sm_name := Some $"a"; sm_type := int_r; sm_val := ONum (VInt 5); sm_bit := None |}]; sd_pack := None |})] |}.
Theorem c58_widths_refuted :
  (exists e h n i st' d m k fs, get_struct e 3 false n (start h) = (Ok i, st') /\ dget (e_structs e) n = Some d
    /\ sd_members d = [m] /\ sm_bit m = Some 3%Z
    /\ nth_error (st_classes st') i = Some k /\ k_fields k = Some fs /\ map fd_width fs = [None])
  /\ (exists e h n i st' d m k fs, get_struct e 3 false n (start h) = (Ok i, st') /\ dget (e_structs e) n = Some d
    /\ sd_members d = [m] /\ sm_bit m = None
    /\ nth_error (st_classes st') i = Some k /\ k_fields k = Some fs /\ map fd_width fs = [Some (ONum (VInt 5))]).
Proof.
  split.
  - exists sample, [], $"bits", 0. eexists. eexists. eexists. eexists. eexists.
    split; [vm_compute; reflexivity|]. repeat (split; [reflexivity|]). reflexivity.
  - exists valued, [], $"v", 0. eexists. eexists. eexists. eexists. eexists.
    split; [vm_compute; reflexivity|]. repeat (split; [reflexivity|]). reflexivity.
Qed.
Print Assumptions c58_widths_refuted.
(** The width of a field is the value of the member, if any.  Missing: members declared with a width. *)
Theorem c58_widths_partial : forall e, tags_known e -> forall fuel u n st i st',
  dmem (e_comps e u) n = true -> dget (st_structs st) n = None -> get_struct e fuel u n st = (Ok i, st') ->
  exists d fs k, dget (e_comps e u) n = Some d /\ nth_error (st_classes st') i = Some k /\ k_fields k = Some fs
    /\ Forall2 (fun m f => (sm_val m = ONone -> fd_width f = None) /\ (sm_val m <> ONone -> fd_width f = Some (sm_val m)))
         (sd_members d) fs.
Proof. exact plain_fields. Qed.
Print Assumptions c58_widths_partial.
Example c58_case : exists i st', get_struct sample 5 false $"pair" (start sample_heap) = (Ok i, st')
  /\ dmem (e_comps sample false) $"pair" = true /\ dget (st_structs (start sample_heap)) $"pair" = None
  /\ exists k fs, nth_error (st_classes st') i = Some k /\ k_fields k = Some fs /\ map fd_width fs = [None; None; None].
Proof.
  exists 0. eexists. split; [vm_compute; reflexivity|]. split; [reflexivity|]. split; [reflexivity|].
  eexists. eexists. split; [reflexivity|]. split; reflexivity.
Qed.

(** ** C59: names of fields *)
(** False as stated: two fields of struct anon are called anon_member0; struct anon2 cannot even be
    built. *)
Theorem c59_names_refuted :
  (exists e h n i st' d k fs, get_struct e 3 false n (start h) = (Ok i, st') /\ dget (e_structs e) n = Some d
    /\ NoDup (declared_names (sd_members d))
    /\ nth_error (st_classes st') i = Some k /\ k_fields k = Some fs /\ map fd_name fs = [$"anon_member0"; $"anon_member0"])
  /\ (exists e h n d, dget (e_structs e) n = Some d /\ NoDup (declared_names (sd_members d))
    /\ forall fuel, 2 <= fuel -> fst (get_struct e fuel false n (start h)) = Err AttributeError).
Proof.
  split.
  - exists sample, [], $"anon", 0. eexists. eexists. eexists. eexists.
    split; [vm_compute; reflexivity|]. split; [reflexivity|]. split; [repeat constructor; intros []|].
    repeat (split; [reflexivity|]). reflexivity.
  - exists sample, [], $"anon2". eexists. split; [reflexivity|]. split; [repeat constructor; intros []|].
    intros [|[|fuel]] L; try lia. reflexivity.
Qed.
Print Assumptions c59_names_refuted.
(** When no member behind an anonymous one is called anon_memberN.  Missing: those names. *)
Theorem c59_names_partial : forall e, tags_known e -> forall fuel u n st i st',
  dmem (e_comps e u) n = true -> dget (st_structs st) n = None -> get_struct e fuel u n st = (Ok i, st') ->
  exists d fs k, dget (e_comps e u) n = Some d /\ nth_error (st_classes st') i = Some k /\ k_fields k = Some fs
    /\ Forall2 (fun m f => match sm_name m with Some x => fd_name f = x | None => In (fd_name f) (k_anon k) end) (sd_members d) fs
    /\ (NoDup (declared_names (sd_members d)) -> no_clash (sd_members d) -> NoDup (map fd_name fs)).
Proof. exact field_names. Qed.
Print Assumptions c59_names_partial.
Example c59_case : exists i st' d, get_struct sample 5 false $"anon3" (start sample_heap) = (Ok i, st')
  /\ dget (e_comps sample false) $"anon3" = Some d /\ NoDup (declared_names (sd_members d)) /\ no_clash (sd_members d)
  /\ exists k fs, nth_error (st_classes st') i = Some k /\ k_fields k = Some fs
     /\ map fd_name fs = [$"x"; $"anon_member0"; $"anon_member1"; $"anon_membr"].
Proof.
  exists 0. eexists. eexists. split; [vm_compute; reflexivity|]. split; [reflexivity|].
  split; [repeat constructor; cbn; intuition discriminate|]. split.
  - intros l1 m l2 n E A I [j R]. assert (X : In n [$"x"; $"anon_membr"]).
    { change [$"x"; $"anon_membr"] with (declared_names [mem_of (Some $"x") int_r; mem_of None (plain $"union u" []);
        mem_of None (plain $"struct node" []); mem_of (Some $"anon_membr") int_r]). cbn [sd_members] in E. rewrite E.
      unfold declared_names. rewrite flat_map_app. apply in_or_app. right. cbn [flat_map]. apply in_or_app. now right. }
    destruct X as [<-|[<-|[]]]; discriminate R.
  - eexists. eexists. split; [reflexivity|]. split; reflexivity.
Qed.

(** ** C60: arrays *)
(** The first index belongs to the first length. *)
Theorem c60_arrays : forall c ns, c <> PVoid -> Forall (fun n => 0 <= n)%Z ns ->
  exists t, get_array c (STuple (map (fun n => ONum (VInt n)) ns)) = Ok t
  /\ (forall n, ns = [n] -> get_array c (SInt (ONum (VInt n))) = Ok t)
  /\ t = nested ns c
  /\ forall is, length is = length ns ->
       (element t is = Some c <-> Forall2 (fun i n => 0 <= i < n)%Z is ns)
       /\ (element t is = None <-> ~ Forall2 (fun i n => 0 <= i < n)%Z is ns).
Proof. exact array_built. Qed.
Print Assumptions c60_arrays.
Example c60_case :
  get_array (PBase $"c_int") (STuple [ONum (VInt 2); ONum (VInt 3); ONum (VInt 5)])
  = Ok (PArr (PArr (PArr (PBase $"c_int") 5) 3) 2)
  /\ element (PArr (PArr (PArr (PBase $"c_int") 5) 3) 2) [1; 2; 4]%Z = Some (PBase $"c_int")
  /\ element (PArr (PArr (PArr (PBase $"c_int") 5) 3) 2) [2; 0; 0]%Z = None.
Proof. repeat split. Qed.
