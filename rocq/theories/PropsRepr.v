(** C90: [repr] of types, structures, unions and enums. *)
From Coq Require Import Ascii String Bool Arith ZArith Lia List.
Import ListNotations.
From Verif Require Import PyBase PyStr PyExpr MacroSpec TypeModel StoreModel DeclModel DeclSpec ReprModel ReprSpec ReprProofs.

(** C90: evaluating what [repr] prints for an object gives an equal object.
    Missing: objects in which all qualifiers of a type are false and one is not an empty tuple
    ([c90_convention_refuted]), empty structures with packing ([c90_empty_refuted]), enumerators named like keywords of
    Python ([c90_keyword_refuted]), floats and objects of other classes. *)
Theorem c90_repr_partial : forall o, printable o -> exists o', python_eval (repr o) = Some (Ok o') /\ alike o o'.
Proof. exact repr_eval. Qed.
Print Assumptions c90_repr_partial.

Definition menu : py := PEnum [($"OPEN", PInt 2); ($"CLOSE", PInt (-17)); ($"HOLD", PNone)].
Definition parcel : py :=
  PComp true
    [PTuple [PStr $"kind"; PType [PStr $"unsigned int"] (PTuple [PTuple [PStr $"const"; PStr $"volatile"]]); PNone; PInt 3];
     PTuple [PNone; PType [PStr $"char"; PStr $"*"; PList [PInt 120]] (PTuple [PTuple []; PTuple []; PTuple []]); PStr ($"it's" ++ [nl])]]
    (PInt 4).
Example c90_example :
  printable menu /\ repr menu = $"Enum(CLOSE=-17, HOLD=None, OPEN=2)"
  /\ python_eval (repr menu) = Some (Ok (PEnum [($"CLOSE", PInt (-17)); ($"HOLD", PNone); ($"OPEN", PInt 2)]))
  /\ printable parcel
  /\ repr parcel = $"Union(('kind', Type('unsigned int', type_quals=(('const', 'volatile'),)), None, 3), (None, Type('char', '*', [120]), ""it's\n""), pack=4)"
  /\ python_eval (repr parcel) = Some (Ok parcel).
Proof.
  split.
  { apply pr_enum; [repeat constructor; cbn; intuition discriminate|].
    repeat (apply Forall_cons; [split; [apply ident_check; vm_compute; reflexivity|split; [apply keyword_check; vm_compute; reflexivity|split; [discriminate|constructor]]]|]). apply Forall_nil. }
  split; [vm_compute; reflexivity|]. split; [vm_compute; reflexivity|]. split; [|split; vm_compute; reflexivity].
  apply pr_comp; [|constructor|left; discriminate].
  apply Forall_cons; [apply pr_tuple|apply Forall_cons; [apply pr_tuple|apply Forall_nil]].
  - repeat (apply Forall_cons; [try (constructor; fail)|]); try apply Forall_nil.
    apply pr_type; [discriminate|repeat constructor|repeat constructor|reflexivity|left; reflexivity].
  - repeat (apply Forall_cons; [try (constructor; fail)|]); try apply Forall_nil.
    apply pr_type; [discriminate|repeat constructor|repeat constructor|reflexivity|right; repeat constructor].
Qed.

(** The types that the parser gives to declarations without calling conventions: the object is the same. *)
Theorem c90_types : forall show dim b d n t, (forall e, plain_value (dim e)) -> every no_conv d = true -> process_type dim b d = Ok (n, t) ->
  python_eval (repr (of_type show t)) = Some (Ok (of_type show t)).
Proof. exact declared_repr. Qed.
Print Assumptions c90_types.
(** [const char *names[3](int flags = 1)] and so on. *)
Definition tree_names : dtree :=
  DNode [] None [[]; [$"const"]] (Named false $"names")
    (Some [Arg {| b_qual := [$"const"]; b_name := $"int" |} (DNode [] None [] (Named false $"flags") None []) (Some $"1")]) [$"3"].
Example c90_types_example :
  every no_conv tree_names = true
  /\ exists t, process_type (fun _ => ONum (VInt 3)) {| b_qual := [$"const"]; b_name := $"char" |} tree_names = Ok (Some $"names", t)
       /\ repr (of_type (fun _ => []) t)
          = $"Type('char', '*', '*', [3], (('flags', Type('int', type_quals=(('const',),)), '1'),), type_quals=(('const',), (), ('const',), (), ()))".
Proof. split; [reflexivity|]. eexists. split; [vm_compute; reflexivity|vm_compute; reflexivity]. Qed.

(** Structures and unions with members, or without packing. *)
Theorem c90_structures : forall show u ms pack, Forall (fun m => plain_type (m_type m) /\ plain_value (m_val m)) ms -> ms <> [] \/ pack = None ->
  python_eval (repr (of_comp show u ms pack)) = Some (Ok (of_comp show u ms pack)).
Proof. exact comp_repr. Qed.
Print Assumptions c90_structures.
Definition two_members : list member :=
  [{| m_name := Some $"a"; m_type := CT (SName $"int") [] [Some []]; m_val := ONone; m_bit := Some 3%Z |};
   {| m_name := Some $"b"; m_type := CT (SName $"struct s") [DStr $"*"; DArr [ONum (VInt 2)]] [Some []; Some [$"const"]; Some []]; m_val := ONum (VInt 5); m_bit := None |}].
Example c90_structures_example :
  Forall (fun m => plain_type (m_type m) /\ plain_value (m_val m)) two_members
  /\ repr (of_comp (fun _ => []) false two_members (Some 8%Z))
     = $"Struct(('a', Type('int'), None, 3), ('b', Type('struct s', '*', [2], type_quals=((), ('const',), ())), 5), pack=8)".
Proof.
  split; [|vm_compute; reflexivity].
  repeat (apply Forall_cons; [split; [apply pl_type; [apply pl_name| |reflexivity|repeat (apply Forall_cons; [discriminate|]); apply Forall_nil]|constructor]|]); try apply Forall_nil.
  apply Forall_cons; [apply pl_str|]. apply Forall_cons; [apply pl_arr; repeat constructor|apply Forall_nil].
Qed.

(** [int __stdcall f(int)]: the qualifier of the convention, which is None, is not printed, and becomes an
    empty tuple. *)
Theorem c90_convention_refuted : exists dim b d n t o',
  process_type dim b d = Ok (n, t) /\ python_eval (repr (of_type (fun _ => []) t)) = Some (Ok o') /\ ~ alike (of_type (fun _ => []) t) o'.
Proof.
  exists (fun _ => ONone), {| b_qual := []; b_name := $"int" |},
    (DNode [] (Some $"__stdcall") [] (Named false $"f") (Some [Arg {| b_qual := []; b_name := $"int" |} (DNode [] None [] (Abstract false) None []) None]) []).
  eexists _, _, _. split; [vm_compute; reflexivity|]. split; [vm_compute; reflexivity|].
  intros A. apply alike_flat in A; [|vm_compute; reflexivity]. vm_compute in A. discriminate A.
Qed.
Print Assumptions c90_convention_refuted.
(** A structure without members under [#pragma pack(2)]. *)
Theorem c90_empty_refuted : exists o, new_comp false [] [($"pack", PInt 2)] = Ok o /\ repr o = $"Struct(, pack=2)" /\ python_eval (repr o) = None.
Proof. eexists. split; [reflexivity|]. split; vm_compute; reflexivity. Qed.
Print Assumptions c90_empty_refuted.
(** An enumerator that is a keyword of Python. *)
Theorem c90_keyword_refuted : exists o, new_enum [] [($"lambda", PInt 0)] = Ok o /\ repr o = $"Enum(lambda=0)" /\ python_eval (repr o) = None.
Proof. eexists. split; [reflexivity|]. split; vm_compute; reflexivity. Qed.
Print Assumptions c90_keyword_refuted.
