(** What the properties C01-C09 say, independently of the model's algorithms. *)
From Coq Require Import Ascii String Bool Arith List.
Import ListNotations.
From Verif Require Import PyBase PyStr TypeModel.

(** [w] is one of the whitespace separated words of [s]. *)
Definition starts_blank (s : str) : Prop :=
  match s with [] => True | c :: _ => is_space c = true end.
Definition is_word_of (w s : str) : Prop :=
  exists a b, s = a ++ w ++ b /\ w <> [] /\ (forall c, In c w -> is_space c = false)
              /\ starts_blank (rev a) /\ starts_blank b.

(** The type words of the C parser. *)
Definition tag_prefixes : list str := [$"struct "; $"union "; $"enum "].

(** The type words known to the parser: those of C and of its standard headers, those of the Python version and the
    platform, and those given at initialisation. *)
Definition c_words : list str :=
  [$"char"; $"wchar"; $"wchar_t"; $"bool"; $"void"; $"int"; $"float"; $"double"; $"short"; $"long"; $"signed"; $"unsigned";
   $"int8_t"; $"int16_t"; $"int32_t"; $"int64_t"; $"uint8_t"; $"uint16_t"; $"uint32_t"; $"uint64_t"; $"size_t"; $"ssize_t"].
Definition known_word (cf : tconf) (w : str) : Prop :=
  In w c_words \/ (py312 cf = true /\ w = $"time_t") \/ (win32 cf = true /\ w = $"__int64") \/ In w (extra_types cf).

(** Fundamental base text. *)
Definition fundamental (cf : tconf) (s : str) : Prop :=
  (exists p r, In p tag_prefixes /\ s = p ++ r)
  \/ (forall w, is_word_of w s -> known_word cf w).

(** The typedefs of a type table. *)
Definition typedefs {A} (m : dict str (tentry A)) (s : str) : option (ctype A) :=
  match dget m s with Some (TyE t) => Some t | _ => None end.

Section Chain.
  Context {A : Type} (cf : tconf) (m : str -> option (ctype A)).

  (** [chain s path b]: following typedefs from the name [s] meets the typedef entries
      [path], in this order, and ends at the fundamental type text [b]. *)
  Inductive chain : str -> list (ctype A) -> str -> Prop :=
  | chain_base s : fundamental cf s -> chain s [] s
  | chain_step s n ds qs path b :
      ~ fundamental cf s ->
      m s = Some (CT (SName n) ds qs) ->
      chain n path b ->
      chain s (CT (SName n) ds qs :: path) b.

  (** One typedef step between names. *)
  Definition leads (s n : str) : Prop :=
    ~ fundamental cf s /\ exists ds qs, m s = Some (CT (SName n) ds qs).
  (** The names met from [s] on, in any number of steps. *)
  Inductive meets : str -> str -> Prop :=
  | meets_here s : meets s s
  | meets_next s n x : leads s n -> meets n x -> meets s x.
  (** The chain from [s] comes back to a name already met. *)
  Definition circular (s : str) : Prop :=
    exists x n, meets s x /\ leads x n /\ meets n x.
  (** The chain from [s] reaches a name that is not defined. *)
  Definition dangling (s : str) : Prop :=
    exists x, meets s x /\ ~ fundamental cf x /\ m x = None.
End Chain.

(** Qualifiers, one list of words per level. *)
Definition levels {A} (t : ctype A) : list (list str) :=
  map (fun q => match q with Some l => l | None => [] end) (t_quals t).
(** Typedef [inner] used by [outer]: the last level of the typedef and the first level of
    its user are the same level. *)
Definition glue (inner outer : list (list str)) : list (list str) :=
  removelast inner ++ [last inner [] ++ hd [] outer] ++ tl outer.
Definition glue_all {A} (path : list (ctype A)) (t : ctype A) : list (list str) :=
  fold_left (fun q pt => glue (levels pt) q) path (levels t).
(** Declarators along a chain, innermost (last met) first. *)
Definition chain_decls {A} (path : list (ctype A)) : list (decl A) :=
  flat_map t_decls (rev path).

(** A type as the constructor builds them, none of its levels being a calling
    convention. *)
Definition qual_ok {A} (t : ctype A) : Prop :=
  length (t_quals t) = 1 + length (t_decls t) /\ Forall (fun q => q <> None) (t_quals t).

(** The base text is a C type name: a tag is followed by an identifier. *)
Definition identifier (w : str) : Prop :=
  match w with
  | [] => False
  | c :: r => is_idstart c = true /\ forallb is_idchar r = true
  end.
Definition c_like (s : str) : Prop :=
  forall p r, In p tag_prefixes -> s = p ++ r -> identifier r /\ r <> $"signed".
Definition plain_conf (cf : tconf) : Prop :=
  forall w, In w (extra_types cf) -> identifier w.

(** The shape of the objects the parser builds: a [Type] is a base followed by
    declarators, a declarator is a string, a list of plain values (array) or a tuple of
    (name, type, default) triples (function).  (c_parser.py:62-118, 1384-1472.)
    Simplification: default values and array lengths are strings, integers or None. *)
Inductive kind := KBase | KDecl | KArg | KAtom | KType.
Inductive kinded : kind -> pyo -> Prop :=
| kb_name s : kinded KBase (PStr s)
| kd_str s : kinded KDecl (PStr s)
| kd_arr l : Forall (kinded KAtom) l -> kinded KDecl (PList l)
| kd_fun l : Forall (kinded KArg) l -> kinded KDecl (PTuple l)
| ka_arg n t d : kinded KAtom n -> kinded KType t -> kinded KAtom d ->
                 kinded KArg (PTuple [n; t; d])
| kt_type b ds q : kinded KBase b -> Forall (kinded KDecl) ds -> kinded KType (PType (b :: ds) q)
| kb_type t : kinded KType t -> kinded KBase t
| ka_str s : kinded KAtom (PStr s)
| ka_none : kinded KAtom PNone
| ka_int z : kinded KAtom (PInt z).
