(** What the properties on whole headers say: the names and types the declarations of a header
    declare. *)
From Coq Require Import Ascii String Bool Arith ZArith List.
Import ListNotations.
From Verif Require Import PyBase PyStr PyExpr TypeModel StoreModel StoreSpec PpModel DeclModel DeclSpec GramModel GramSpec NoiseSpec.

(** ** The trees without the definitions *)
(** The text of a type: words, or keyword and tag. *)
Definition type_text (n : gname) : str :=
  match n with
  | GWord t => t
  | GComp c (Some n) _ _ => tag_name (comp_kw c) n
  | GEnum (Some n) _ => tag_name $"enum" n
  | _ => []
  end.
Definition spec_of (t : gspec) : bspec :=
  match t with GSpec q n => {| b_qual := q; b_name := type_text n |} end.
Fixpoint tree (d : gdecl) : dtree :=
  match d with
  | GNode fq cv ps core args ar =>
      DNode fq cv ps
        match core with GNamed r n => Named r n | GAbstract r => Abstract r | GCenter c => Center (tree c) end
        match args with
        | None => None
        | Some l => Some (map (fun a => match a with GArg t d v => Arg (spec_of t) (tree d) v end) l)
        end ar
  end.
Definition lines_of (l : list gline) : list mline :=
  flat_map (fun x => match x with
                     | GLine t ds i b => [{| l_type := spec_of t; l_decls := map tree ds; l_init := i; l_bit := b |}]
                     | GMethod => []
                     end) l.
(** The specifier refers to a type by words or by a tag, without defining it. *)
Definition refers (t : gspec) : bool :=
  match t with
  | GSpec _ (GWord _) | GSpec _ (GComp _ (Some _) [] _) | GSpec _ (GEnum (Some _) []) => true
  | _ => false
  end.
(** No types are defined in parameter lists. *)
Fixpoint plain_params (d : gdecl) : bool :=
  match d with
  | GNode _ _ _ core args _ =>
      match core with GCenter c => plain_params c | _ => true end
      && match args with
         | None => true
         | Some l => forallb (fun a => match a with GArg t d _ => refers t && plain_params d end) l
         end
  end.
(** ** Declarations *)
Definition spec_part (g : gtop) : gspec :=
  match g with GTypedef t _ | GVar t _ _ | GFun t _ => t end.
Definition decls_part (g : gtop) : list gdecl :=
  match g with GTypedef _ l | GVar _ l _ => l | GFun _ d => [d] end.
Definition init_part (g : gtop) : init := match g with GVar _ _ i => i | _ => NoInit end.
Definition is_typedef (g : gtop) : bool := match g with GTypedef _ _ => true | _ => false end.
Definition declared_names (g : gtop) : list (option str) := map (fun d => c_name (tree d)) (decls_part g).
(** The declaration does not end the parse by an exception: see C40. *)
Definition harmless (g : gtop) : Prop :=
  is_typedef g = true -> Forall (fun d => every no_bare_conv (tree d) = true) (decls_part g).
(** [n] is not a type name declared by [g]. *)
Definition not_typedef (n : str) (g : gtop) : Prop :=
  is_typedef g = true -> ~ In (Some n) (declared_names g).
(** The part of the declaration in front of one of its declarators. *)
Definition up_to (g : gtop) (l1 : list gdecl) : gtop :=
  match g with GTypedef t _ => GTypedef t l1 | GVar t _ i => GVar t l1 i | GFun t _ => GVar t [] NoInit end.
(** The declarators of a declaration. *)
Definition plain_decls (g : gtop) : Prop :=
  Forall (fun d => plain_params d = true /\ every no_bare_conv (tree d) = true) (decls_part g)
  /\ NoDup (declared_names g).

(** ** The recorded type of a function: that of its result, and the parameters. *)
Definition read_function (t : aty) : option cty :=
  match t with
  | CT (SType r) [DFun l] [Some []; Some q] =>
      match read_type r, read_args read_type l with
      | Some u, Some a => Some (TFun q a u)
      | _, _ => None
      end
  | _ => None
  end.

(** ** Definitions in a tree *)
Fixpoint inside_decl (d : gdecl) : list gname :=
  match d with
  | GNode _ _ _ core args _ =>
      match core with GCenter c => inside_decl c | _ => [] end
      ++ match args with
         | None => []
         | Some l => flat_map (fun a => match a with GArg t d _ => inside_spec t ++ inside_decl d end) l
         end
  end
with inside_spec (t : gspec) : list gname :=
  match t with
  | GSpec _ n =>
      n :: match n with
           | GComp _ _ l _ =>
               flat_map (fun x => match x with
                                  | GLine t ds _ _ => inside_spec t ++ flat_map inside_decl ds
                                  | GMethod => []
                                  end) l
           | _ => []
           end
  end.
Definition inside (g : gtop) : list gname := inside_spec (spec_part g) ++ flat_map inside_decl (decls_part g).
(** The definition, with members, of a structure or union. *)
Definition defines (c : comp) (n : str) (g : gname) : Prop :=
  exists l p, g = GComp c (Some n) l p /\ l <> [].
(** The kinds of tables, the names in them and the parts of a header that may add them. *)
Definition mentions (k : kind) (n : str) (ds : list gtop) : Prop :=
  match k with
  | Functions | Variables => exists g, In g ds /\ In (Some n) (declared_names g)
  | Types => (exists g, In g ds /\ is_typedef g = true /\ In (Some n) (declared_names g)) \/ In sp n
  | Structs => (exists l p, In (GComp CStruct (Some n) l p) (flat_map inside ds)) \/ starts_with $"anon_" n = true
  | Unions => (exists l p, In (GComp CUnion (Some n) l p) (flat_map inside ds)) \/ starts_with $"anon_" n = true
  | Enums => (exists l, In (GEnum (Some n) l) (flat_map inside ds)) \/ starts_with $"anon_" n = true
  | Values => (exists g, In g ds /\ In (Some n) (declared_names g))
              \/ exists m l, In (GEnum m l) (flat_map inside ds) /\ In n (map fst l)
  | _ => False
  end.

(** ** Headers *)
(** [text] is a header with the declarations [ds], in some layout, and perhaps with the other things of
    NoiseSpec.v before and between them. *)
Definition header (base mods : list str) (pack : option Z) (ds : list gtop) (text : str) : Prop :=
  noisy_header base mods pack [] ds text.
(** [text] consists of the declarations [ds] and nothing else. *)
Definition bare_header (base mods : list str) (pack : option Z) (ds : list gtop) (text : str) : Prop :=
  exists ts, seq_list (sp_top base mods pack) ds ts /\ tabs_outside ts /\ written ts text.
(** The structures and unions the specifier defines, with their names. *)
Definition tags_of (l : list gname) : list (comp * option str) :=
  flat_map (fun x => match x with GComp c m (_ :: _) _ => [(c, m)] | _ => [] end) l.
Definition defined_tags (t : gspec) : list (comp * option str) := tags_of (inside_spec t).
(** Their names differ from each other, and from those given to the ones without a name. *)
Definition told_apart (l : list (comp * option str)) : Prop :=
  NoDup (filter (fun x => match snd x with Some _ => true | None => false end) l)
  /\ forall c c' n, In (c, None) l -> In (c', Some n) l -> starts_with $"anon_" n = false.
(** The structures and unions the declaration [g] defines are not defined again in [ds]. *)
Definition stays (g : gtop) (ds : list gtop) : Prop :=
  Forall (fun y => Forall (fun x => match snd y with
                                    | Some n => ~ defines (fst y) n x
                                    | None => forall n, starts_with $"anon_" n = true -> ~ defines (fst y) n x
                                    end) (flat_map inside ds)) (defined_tags (spec_part g)).

(** The enums a tree mentions. *)
Definition enum_keys (l : list gname) : list (option str) :=
  flat_map (fun x => match x with GEnum m _ => [m] | _ => [] end) l.
(** The enums defined in [l] have new names, where [s] are the tables in front and [seen] the enums
    mentioned since then. *)
Definition new_enums (s : store entry) (seen : list (option str)) (l : list gname) : Prop :=
  forall l1 n x body l2, l = l1 ++ GEnum (Some n) (x :: body) :: l2 ->
    defined s Enums n = None /\ ~ In (Some n) (seen ++ enum_keys l1)
    /\ (In None (seen ++ enum_keys l1) -> starts_with $"anon_" n = false).
(** Values of names, with those of enumerators added. *)
Definition with_values (v : dict str pobj) (vs : list (str * pobj)) : dict str pobj :=
  fold_left (fun d x => dset d (fst x) (snd x)) vs v.

Section Meaning.
  Context (ev : dict str pobj -> str -> res pobj).
  (** The value of an expression, given those of the names in it. *)
  Definition value_of_text (v : dict str pobj) (e : str) : pobj := match ev v e with Ok x => x | Err _ => ONone end.

  (** The specifiers the theorems are about, [v] and [v']: the values in front and behind.
      References; structures and unions with members of such types, which may be defined in their
      place; enums all values of which can be computed. *)
  Inductive plain_spec : dict str pobj -> gspec -> dict str pobj -> Prop :=
  | ps_ref v t : refers t = true -> plain_spec v t v
  | ps_comp v v' q c m body p :
      plain_body v body v' -> lines_of body <> [] -> plain_spec v (GSpec q (GComp c m body p)) v'
  | ps_enum v q m body vs :
      body <> [] -> NoDup (map fst body) -> counts ev v (ONum (VInt 0)) body vs ->
      plain_spec v (GSpec q (GEnum m body)) (with_values v vs)
  with plain_body : dict str pobj -> list gline -> dict str pobj -> Prop :=
  | pb_nil v : plain_body v [] v
  | pb_method v l v' : plain_body v l v' -> plain_body v (GMethod :: l) v'
  | pb_line v t v1 ds i w l v' :
      plain_spec v t v1 -> forallb plain_params ds = true -> Forall plain_line (lines_of [GLine t ds i w]) ->
      plain_body v1 l v' -> plain_body v (GLine t ds i w :: l) v'.
  (** [s]: the tables in front. *)
  Definition known_spec (s : store entry) (t : gspec) : Prop :=
    (exists v, plain_spec (values s) t v) /\ told_apart (defined_tags t) /\ new_enums s [] (inside_spec t).

  (** [meaning s' v t v' b]: [b] is the type of the specifier [t], where [v] and [v'] are the values of
      names in front of it and behind, and [s'] are the tables behind the header.  What the specifier
      defines has been recorded in [s']. *)
  Inductive meaning (s' : store entry) : dict str pobj -> gspec -> dict str pobj -> bspec -> Prop :=
  | me_ref v t : refers t = true -> meaning s' v t v (spec_of t)
  | me_comp v v' q c m body p n ms ls :
      (m = Some n \/ m = None /\ starts_with $"anon_" n = true) ->
      body <> [] -> lines_meaning s' v body v' ls ->
      defined s' (comp_kind c) n = Some (EComp ms p) ->
      Forall2 (fun x y => recorded (fst y) x (snd y)) ms (declared_all (value_of_text v') ls) ->
      meaning s' v (GSpec q (GComp c m body p)) v' {| b_qual := q; b_name := tag_name (comp_kw c) n |}
  | me_enum v q m body n vs :
      (m = Some n \/ m = None) ->
      defined s' Enums n = Some (EEnum vs) -> counts ev v (ONum (VInt 0)) body vs ->
      meaning s' v (GSpec q (GEnum m body)) (with_values v vs) {| b_qual := q; b_name := tag_name $"enum" n |}
  (** The lines of a structure, with the types of their specifiers. *)
  with lines_meaning (s' : store entry) : dict str pobj -> list gline -> dict str pobj -> list mline -> Prop :=
  | lm_nil v : lines_meaning s' v [] v []
  | lm_method v l v' ls : lines_meaning s' v l v' ls -> lines_meaning s' v (GMethod :: l) v' ls
  | lm_line v t v1 b ds i w l v' ls :
      meaning s' v t v1 b -> lines_meaning s' v1 l v' ls ->
      lines_meaning s' v (GLine t ds i w :: l) v'
        ({| l_type := b; l_decls := map tree ds; l_init := i; l_bit := w |} :: ls).
  (** [denotes s s' t b]: [b] is the type of the specifier [t], where [s] are the tables in
      front of the declaration and [s'] those behind the header. *)
  Definition denotes (s s' : store entry) (t : gspec) (b : bspec) : Prop :=
    exists v, meaning s' (values s) t v b.
  (** [n] has been recorded in [s'] with the type [ty], as declared by [g]; [s]: the tables
      behind the specifier of [g], [l2]: the declarators behind that of [n]. *)
  Definition declared_as (s s' : store entry) (g : gtop) (l2 : list gdecl) (n : str) (ty : cty) : Prop :=
    match g with
    | GTypedef _ _ => exists u, defined s' Types n = Some (EType u) /\ read_type u = Some ty
    | GVar _ _ i =>
        if is_function ty then exists u, defined s' Functions n = Some (EFun u) /\ read_function u = Some ty
        else l2 = [] \/ i = NoInit ->
             exists u, defined s' Variables n = Some (EVar (eval_init ev s i) u) /\ read_type u = Some ty
    | GFun _ _ =>
        is_function ty = true -> exists u, defined s' Functions n = Some (EFun u) /\ read_function u = Some ty
    end.
End Meaning.
