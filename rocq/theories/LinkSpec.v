(** What C82 and C83 say: the ctypes type of a C type, independently of the algorithms. *)
From Coq Require Import Ascii String Bool Arith ZArith List.
Import ListNotations.
From Verif Require Import PyBase PyStr PyExpr TypeModel InitModel StoreModel StoreSpec DeclModel DeclSpec CtModel.
From Verif Require TypeSpec CtSpec.

(** ** Typedefs *)
(** The name at the bottom of a type, and the type [t] with the type [b] in place of that name. *)
Fixpoint base_name (t : cty) : str :=
  match t with
  | TBase _ s => s
  | TPtr _ t | TRef _ t | TArr _ _ t | TFun _ _ t | TConv _ t => base_name t
  end.
Fixpoint put_base (t b : cty) : cty :=
  match t with
  | TBase q _ => qualify q b
  | TPtr q t => TPtr q (put_base t b)
  | TRef q t => TRef q (put_base t b)
  | TArr q n t => TArr q n (put_base t b)
  | TFun q l t => TFun q l (put_base t b)
  | TConv c t => TConv c (put_base t b)
  end.
Definition is_array (t : cty) : bool := match t with TArr _ _ _ => true | _ => false end.
Definition is_function_pointer (t : cty) : bool := match t with TPtr _ (TFun _ _ _) => true | _ => false end.

Section Link.
  (** The words of the parser, the table of types of the backend, the tables of the headers, the
      structures (false) and unions (true) with all that they need. *)
  Context (cf : tconf) (table : dict str tyval) (s : store entry) (D : bool -> str -> Prop).
  Definition typedef_of (n : str) : option cty :=
    match defined s Types n with Some (EType u) => read_type u | _ => None end.
  (** Replacing typedef names by what they stand for, until a type of C is reached. *)
  Inductive expanded : cty -> cty -> Prop :=
  | ex_done t : TypeSpec.fundamental cf (base_name t) -> expanded t t
  | ex_step t b t' :
      ~ TypeSpec.fundamental cf (base_name t) -> typedef_of (base_name t) = Some b ->
      expanded (put_base t b) t' -> expanded t t'.

  (** ** The ctypes type of a C type; [cl]: the classes made for structures and unions. *)
  Section Numbered.
    Context (cl : str -> option nat).
    Inductive of_base : str -> pyt -> Prop :=
    | ob_int ws c :
        CtSpec.in_order ws -> CtSpec.spells ws c -> ws <> [$"signed"] -> ws <> [$"signed"; $"char"] ->
        of_base (CtSpec.words_of ws) (PBase c)
    | ob_named w v : TypeSpec.identifier w -> w <> $"signed" -> dget table w = Some v -> of_base w (of_tyval v)
    | ob_double : of_base $"long double" (PBase $"c_longdouble")
    | ob_void : of_base $"void" PVoid
    | ob_comp u n i : D u n -> cl n = Some i -> of_base (CtSpec.tag_of u ++ n) (PClass i)
    | ob_enum n : TypeSpec.identifier n -> n <> $"signed" -> of_base ($"enum " ++ n) (PBase $"c_int").
    (** char *, void * and so on have ctypes types of their own. *)
    Definition special (t : cty) (p : str) : Prop := exists q n, t = TBase q n /\ In (n, p) CtSpec.special_pointers.
    Inductive represents : cty -> pyt -> Prop :=
    | re_type t t' c : expanded t t' -> direct t' c -> represents t c
    with direct : cty -> pyt -> Prop :=
    | di_base q n c : of_base n c -> direct (TBase q n) c
    | di_special q t p : special t p -> direct (TPtr q t) (PBase p)
    | di_ptr q t c : (forall p, ~ special t p) -> is_function_pointer t = false -> direct t c ->
        direct (TPtr q t) (CtSpec.pointer_to c)
    | di_ref q t c : direct t c -> direct (TRef q t) (CtSpec.pointer_to c)
    | di_arr q n t c : (-1 <= n)%Z -> is_array t = false -> direct t c -> c <> PVoid ->
        direct (TArr q (ONum (VInt n)) t) (CtSpec.arrays [n] c)
    | di_fun q q' l t c cs : direct t c -> all_represented l cs ->
        direct (TPtr q (TFun q' l t)) (PFun false c cs)
    with all_represented : list (option str * cty * option str) -> list pyt -> Prop :=
    | ar_nil : all_represented [] []
    | ar_cons n t v l c cs : represents t c -> c <> PVoid -> all_represented l cs -> all_represented ((n, t, v) :: l) (c :: cs).
  End Numbered.
  Definition representable (t : cty) : Prop := exists cl c, represents cl t c.

  (** ** Structures and unions *)
  Definition comp_table (u : bool) : kind := if u then Unions else Structs.
  Definition keyword (u : bool) : str := if u then $"union" else $"struct".
  (** An anonymous member, of the structure or union [x]. *)
  Definition unnamed (v : bool) (x : str) (m : member) : Prop :=
    m_name m = None /\ exists q, read_type (m_type m) = Some (TBase q (CtSpec.tag_of v ++ x)).
  (** The structures and unions of [D], and those inside them as anonymous members. *)
  Inductive needed : bool -> str -> Prop :=
  | ne_own u n : D u n -> needed u n
  | ne_part u n ms p m v x :
      needed u n -> defined s (comp_table u) n = Some (EComp ms p) -> In m ms -> unnamed v x m -> needed v x.
  Definition part_of (x n : str) : Prop :=
    exists v u ms p m, needed u n /\ defined s (comp_table u) n = Some (EComp ms p) /\ In m ms /\ unnamed v x m.
  (** A member without bit width, which has a name and a type that can be represented or is anonymous. *)
  Definition usual_member (m : member) : Prop :=
    m_val m = ONone /\ m_bit m = None
    /\ ((exists x, m_name m = Some x /\ exists t, read_type (m_type m) = Some t /\ representable t)
        \/ exists v x, unnamed v x m).
  (** Names given to anonymous members are no names of other members. *)
  Definition names_apart (ms : list member) : Prop :=
    (exists m, In m ms /\ m_name m = None) ->
    forall m x, In m ms -> m_name m = Some x -> ~ CtSpec.reserved x.
  (** The structures and unions of [D] are recorded with their members, and use nothing else.  No name
      is that of a structure and of a union.  What is an anonymous member of one of them is used
      nowhere else. *)
  Definition closed : Prop :=
    (forall u n, needed u n ->
       TypeSpec.identifier n /\ n <> $"signed"
       /\ exists ms p, defined s (comp_table u) n = Some (EComp ms p) /\ Forall usual_member ms /\ names_apart ms)
    /\ (forall n, needed false n -> ~ needed true n)
    /\ forall x n, part_of x n -> (forall v, ~ D v x) /\ forall n', part_of x n' -> n' = n.
  (** The standard types are known; no name of a structure, union, enumeration or void means anything else. *)
  Definition usual_table : Prop :=
    (forall x v, dget std_types x = Some v -> dget table x = Some v)
    /\ (forall p n, In p TypeSpec.tag_prefixes -> dget table (p ++ n) = None)
    /\ (forall v, dget table $"void" = Some v -> v = TyNone).

  (** ** Classes *)
  Definition classes (st : cst) (n : str) : option nat := dget (st_structs st) n.
  (** The field for a member, which is given by its name, if any, and its type. *)
  Definition field_for (cl : str -> option nat) (x : option str * cty) (f : field) : Prop :=
    fd_width f = None
    /\ match fst x with
       | Some n => fd_name f = n /\ represents cl (snd x) (fd_type f)
       | None => exists q v n i, snd x = TBase q (CtSpec.tag_of v ++ n) /\ cl n = Some i /\ fd_type f = PClass i
       end.
  (** The names of the fields for anonymous members. *)
  Definition given_names (xs : list (option str * cty)) (fs : list field) : list str :=
    flat_map (fun y => match fst (fst y) with None => [fd_name (snd y)] | Some _ => [] end) (combine xs fs).
  (** A field for each member in the same order, with its name and the ctypes type of its type.  Anonymous
      members have names of their own. *)
  Definition fields_for (cl : str -> option nat) (xs : list (option str * cty)) (fs : list field) : Prop :=
    Forall2 (field_for cl) xs fs
    /\ NoDup (given_names xs fs) /\ forall n, In (Some n) (map fst xs) -> ~ In n (given_names xs fs).
  (** The class [k] is that of the structure or union [n]: the same packing, the fields for its members, and
      the anonymous ones are those ctypes looks through. *)
  Definition class_of (cl : str -> option nat) (u : bool) (n : str) (k : cls) : Prop :=
    exists ms p xs fs, defined s (comp_table u) n = Some (EComp ms p)
      /\ Forall2 (fun m x => m_name m = fst x /\ read_type (m_type m) = Some (snd x)) ms xs
      /\ k = {| k_union := u; k_pack := p; k_anon := given_names xs fs; k_fields := Some fs |}
      /\ fields_for cl xs fs.
  (** What a request changes: classes are added, for structures and unions of [D] and inside them, and are complete. *)
  Definition grown (st st' : cst) : Prop :=
    st_heap st' = st_heap st
    /\ (forall n i, classes st n = Some i -> classes st' n = Some i)
    /\ (exists new, st_classes st' = st_classes st ++ new)
    /\ forall n i, classes st' n = Some i -> classes st n = None ->
         length (st_classes st) <= i
         /\ exists u k, needed u n /\ nth_error (st_classes st') i = Some k /\ class_of (classes st') u n k.
End Link.
(** Between requests: the lists are as loaded, and no class is half-made. *)
Definition ready (h : list (list pobj)) (st : cst) : Prop :=
  st_heap st = h
  /\ forall n i, classes st n = Some i -> exists k fs, nth_error (st_classes st) i = Some k /\ k_fields k = Some fs.

(** Every structure and union of the tables can be found by its tag. *)
Definition tagged (s : store entry) : Prop :=
  forall u n ms p, defined s (comp_table u) n = Some (EComp ms p) ->
    defined s Types (CtSpec.tag_of u ++ n) = Some (EType (CT (SName (keyword u)) [DStr n] [Some []; Some []])).

(** The parameters of a function; (void) means none. *)
Definition parameters (l : list (option str * cty * option str)) : list (option str * cty * option str) :=
  match l with [(_, TBase _ n, _)] => if eqb n $"void" then [] else l | _ => l end.
(** The names of calling conventions. *)
Definition convention_names : list str := [$"__stdcall"; $"__cdecl"].
