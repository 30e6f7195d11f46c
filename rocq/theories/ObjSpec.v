(** What C94 says about the attributes of a library, independently of the algorithms. *)
From Coq Require Import Ascii String Bool Arith ZArith List.
Import ListNotations.
From Verif Require Import PyBase PyStr PyExpr TypeModel InitModel StoreModel StoreSpec DeclModel DeclSpec CtModel LinkSpec ObjModel.
From Verif Require TypeSpec CtSpec RunSpec LibModel.

Section Objects.
  (** The words of the parser, the types of the backend, the tables of the headers, structures and unions that are
      recorded with all they need (C82), the prefixes, the symbols of the shared library. *)
  Context (cf : tconf) (table : dict str tyval) (s : store entry) (D : bool -> str -> Prop)
    (prefix : list str) (exports : str -> bool).

  (** The kinds in the order of the documentation. *)
  Definition order : list kind := [Values; Functions; Types; Structs; Unions; Enums].
  (** The names a name may stand for: itself, then with the prefixes in their order. *)
  Definition candidates (name : str) : list str := name :: map (fun p => p ++ name) prefix.
  (** Nothing of that kind, or a macro without a value. *)
  Definition null (k : kind) (n : str) : Prop :=
    defined s k n = None \/ (k = Values /\ defined s Values n = Some (EVal ONone)).
  (** Something that is neither that nor another name for void. *)
  Definition something (k : kind) (n : str) : Prop :=
    ~ null k n /\ (k = Types -> exists t cl c, typedef_of s n = Some t /\ represents cf table s D cl t c /\ c <> PVoid).
  (** [lib.name] stands for the definition [n] of kind [k]: it is the first in the order of kinds and candidates. *)
  Definition found_in (ks : list kind) (name : str) (k : kind) (n : str) : Prop :=
    (exists before after, ks = before ++ k :: after
       /\ forall k' n', In k' before -> In n' (candidates name) -> null k' n')
    /\ (exists before after, candidates name = before ++ n :: after
       /\ forall n', In n' before -> defined s k n' = None)
    /\ something k n.
  Definition found : str -> kind -> str -> Prop := found_in order.

  (** ** The definitions the theorem is about *)
  Definition signature (n : str) (args : list (option str * cty * option str)) (r : cty) : Prop :=
    exists u q, defined s Functions n = Some (EFun u) /\ RunSpec.read_function u = Some (TFun q args r)
      /\ representable cf table s D r /\ ~ In (base_name r) convention_names
      /\ exists cl cs, all_represented cf table s D cl (parameters args) cs.
  Definition settled (k : kind) (n : str) : Prop :=
    defined s k n <> None ->
    match k with
    | Values => exists v, defined s Values n = Some (EVal v)
    | Functions => exists args r, signature n args r
    | Types => exists t, typedef_of s n = Some t /\ representable cf table s D t
    | Structs => D false n
    | Unions => D true n
    | Enums => exists l, defined s Enums n = Some (EEnum l)
    | _ => True
    end.
  (** The typedef [n] is another name for the enum [m]. *)
  Definition enum_alias (n m : str) : Prop :=
    (exists q, expanded cf s (TBase [] n) (TBase q ($"enum " ++ m))) /\ TypeSpec.identifier m /\ m <> $"signed"
    /\ defined s Types n <> None /\ defined s Enums n = None /\ exists l, defined s Enums m = Some (EEnum l).

  (** ** What an access may give *)
  Definition is_object (ct : cst) (k : kind) (n : str) (o : lobj) : Prop :=
    match k with
    | Values => exists v, defined s Values n = Some (EVal v) /\ o = VValue v
    | Functions => exists args r c cs, signature n args r /\ o = VFunction n c cs
        /\ represents cf table s D (classes ct) r c /\ all_represented cf table s D (classes ct) (parameters args) cs
    | Types => exists t c, typedef_of s n = Some t /\ o = VType c /\ represents cf table s D (classes ct) t c
    | Structs => exists i c, o = VType (PClass i) /\ classes ct n = Some i /\ nth_error (st_classes ct) i = Some c
        /\ class_of cf table s D (classes ct) false n c
    | Unions => exists i c, o = VType (PClass i) /\ classes ct n = Some i /\ nth_error (st_classes ct) i = Some c
        /\ class_of cf table s D (classes ct) true n c
    | Enums => exists m l, (m = n \/ enum_alias n m) /\ defined s Enums m = Some (EEnum l) /\ o = VEnum l
    | _ => False
    end.

  (** ** Prefixes and earlier accesses *)
  Definition usable (k : kind) (n : str) : Prop :=
    defined s k n <> None \/ (In k [Structs; Unions; Enums] /\ defined s Types n <> None).
  (** No definition is called like another one of its kind after a (non-empty) prefix. *)
  Definition no_clash : Prop :=
    forall k n p, In p prefix -> p <> [] -> usable k n -> ~ usable k (p ++ n).
  (** [lib(kind, name)] with the name of a definition of that kind, or a typedef for an enum. *)
  Definition own (k : kind) (n : str) : Prop :=
    In k order /\ (defined s k n <> None \/ (k = Enums /\ exists m, enum_alias n m)).
  (** Accesses that only concern settled definitions; [lib(kind, name)] is used with complete names or with
      names that mean nothing. *)
  Definition orderly (a : LibModel.access) : Prop :=
    match a with
    | LibModel.Attr name => forall k n, In n (candidates name) -> settled k n
    | LibModel.Call k n => (own k n /\ settled k n) \/ (In k order /\ forall m, In m (candidates n) -> ~ usable k m)
    end.
  (** The access [a] is about the definition [n] of kind [k]. *)
  Definition about (a : LibModel.access) (k : kind) (n : str) : Prop :=
    match a with
    | LibModel.Attr name => (forall k' n', In n' (candidates name) -> settled k' n') /\ found name k n
    | LibModel.Call k' n' => k' = k /\ n' = n /\ own k n /\ settled k n
    end.
  (** Two definitions that stand for the same type: two typedefs that expand to the same, or a typedef and the
      structure or union it is for. *)
  Inductive same_thing : kind -> str -> kind -> str -> Prop :=
  | sm_refl k n : same_thing k n k n
  | sm_types n1 n2 t1 t2 t : typedef_of s n1 = Some t1 -> typedef_of s n2 = Some t2 ->
      expanded cf s t1 t -> expanded cf s t2 t -> same_thing Types n1 Types n2
  | sm_tag n t q u m : typedef_of s n = Some t -> expanded cf s t (TBase q (CtSpec.tag_of u ++ m)) -> D u m ->
      same_thing Types n (comp_table u) m
  | sm_sym k n k' n' : same_thing k n k' n' -> same_thing k' n' k n.
End Objects.
(** Requests given enough nesting depth. *)
Definition gives {A} (m : nat -> A) (x : A) : Prop := exists F, forall fuel, F <= fuel -> m fuel = x.
(** In the state [st] of the library [b], the access [a] gives an object for the definition [n] of kind [k]. After
    any more accesses, every access about the same thing gives the same object. *)
Definition obtains cf table s D (b : clib) (st : lstate) (a : LibModel.access) (k : kind) (n : str) : Prop :=
  exists o st', gives (fun f => do_access b f a st) (Ok o, st') /\ is_object cf table s D (q_ct st') k n o
  /\ forall l, Forall (orderly cf table s D (b_prefix b)) l ->
     exists st2, gives (fun f => accesses b f l st') st2 /\ is_object cf table s D (q_ct st2) k n o
       /\ forall a' k' n', about cf table s D (b_prefix b) a' k' n' -> same_thing cf s D k n k' n' ->
          gives (fun f => fst (do_access b f a' st2)) (Ok o).
(** What an access gives in any state of the library [B], i.e. after any accesses. *)
Definition given cf table win s D prefix exports (a : LibModel.access) (o : lobj -> cst -> Prop) : Prop :=
  forall l, Forall (orderly cf table s D prefix) l ->
  let B := open_with cf table win s prefix exports in
  exists st x st', gives (fun f => accesses B f l (opened B)) st /\ gives (fun f => do_access B f a st) (Ok x, st') /\ o x (q_ct st').
(** Every enum can be found by its tag. *)
Definition enum_tagged (s : store entry) : Prop :=
  forall n l, defined s Enums n = Some (EEnum l) ->
    defined s Types ($"enum " ++ n) = Some (EType (CT (SName $"enum") [DStr n] [Some []; Some []])).
