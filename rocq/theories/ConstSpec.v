(** What C89 says: the constants of headers, as C knows them. *)
From Coq Require Import Ascii String Bool Arith ZArith List.
Import ListNotations.
From Verif Require Import PyBase PyStr PyExpr MacroModel TypeModel StoreModel DeclModel EvalSpec.
From Verif Require Import GramModel RunSpec MacroSpec PpModel PpSpec TextSpec FileModel FileSpec PackedSpec ChainSpec.
From Verif Require LibModel.

(** ** Enumerators *)
(** The values of more enumerators, the last of them first. *)
Definition record_all (K : dict str Z) (zs : list (str * Z)) : dict str Z :=
  fold_left (fun K x => dset K (fst x) (snd x)) zs K.
(** The enumerators [n] in a list of definitions. *)
Definition enumerator_in (n : str) (l : list gname) : Prop := exists m b, In (GEnum m b) l /\ In n (map fst b).
(** The tags of enums in a declaration. *)
Definition enum_tags (g : gtop) : list str :=
  flat_map (fun x => match x with GEnum (Some n) _ => [n] | _ => [] end) (inside g).
(** [enumerates cv K T ds K']: [K] are the enumerators with known values, and [T] the tags of enums, in
    front of the declarations [ds], and [K'] the enumerators behind them.  [cv]: the
    value of an expression, given those of the names in it.  Enums have new tags, not of the form
    the parser invents; a name that is known is not declared as something else.  In other
    declarations there may be more enumerators, which do not belong to [K']. *)
Inductive enumerates (cv : dict str Z -> str -> Z -> Prop) : dict str Z -> list str -> list gtop -> dict str Z -> Prop :=
| en_end K T : enumerates cv K T [] K
| en_enum K T g q m body zs ds K' :
    spec_part g = GSpec q (GEnum m body) ->
    (forall n, m = Some n -> ~ In n T /\ starts_with $"anon_" n = false) -> NoDup (map fst body) ->
    c_enum cv K 0 body zs ->
    (forall n, dget (record_all K zs) n <> None ->
       ~ In (Some n) (declared_names g) /\ ~ enumerator_in n (flat_map inside_decl (decls_part g))) ->
    enumerates cv (record_all K zs) (enum_tags g ++ T) ds K' -> enumerates cv K T (g :: ds) K'
| en_other K T g ds K' :
    (forall n, dget K n <> None -> ~ In (Some n) (declared_names g) /\ ~ enumerator_in n (inside g)) ->
    enumerates cv K (enum_tags g ++ T) ds K' -> enumerates cv K T (g :: ds) K'.

(** ** Macros *)
(** The line [l] is the directive [#define n ...]. *)
Definition defining (n l : str) : Prop :=
  exists g rest, directive l = Some ($"define", g ++ n ++ rest) /\ forallb is_space g = true
    /\ forall c r, rest = c :: r -> is_idchar c = false.
(** [text], without comments and with continued lines joined, has such a line. *)
Definition defines_macro (n text : str) : Prop :=
  exists ps segs l, text = parts_text ps /\ reads_as ps
    /\ without_comments ps = join continuation segs /\ segs <> []
    /\ Forall (fun s => ~ occurs continuation s) segs
    /\ In l (split_on nl (concat segs)) /\ defining n l.

(** ** Headers *)
(** The enumerators of a list of headers.  A name is an enumerator or a macro: no header defines a macro
    with the name of an enumerator of the headers before it, and macros that are defined at the end of a
    header are not declared in it. *)
Fixpoint enumerators (cv : dict str Z -> str -> Z -> Prop) (K : dict str Z) (T : list str) (us : list unit) (K' : dict str Z) : Prop :=
  match us with
  | [] => K' = K
  | f :: r =>
      (forall n, dget K n <> None -> ~ defines_macro n (u_text f))
      /\ (forall n, obj (u_macros f) n <> None -> ~ mentions Values n (u_decls f))
      /\ exists K1, enumerates cv K T (u_decls f) K1
         /\ enumerators cv K1 (flat_map enum_tags (u_decls f) ++ T) r K'
  end.
(** The macros that are defined behind the headers. *)
Definition macros_behind (m : cmac) (us : list unit) : cmac := fold_left (fun _ f => u_macros f) us m.
(** [lib.name], after the accesses [l], is a number of Python with the integer value [z]. *)
Definition attribute_is (show : pobj -> str) (h : LibModel.headers) (l : list LibModel.access) (name : str) (z : Z) : Prop :=
  exists y, as_int y = Some z
    /\ fst (LibModel.do_access h (LibModel.Attr name) (LibModel.accesses h l LibModel.no_cache)) = Ok (LibModel.OValue (show (ONum y))).
(** The same for [lib.n] and for [n] without one of the prefixes of the library, if the name is not a value with a prefix
    in front of that one. *)
Definition constant_is (show : pobj -> str) (prefix : list str) (s : store entry) (h : LibModel.headers) (l : list LibModel.access) (n : str) (z : Z) : Prop :=
  attribute_is show h l n z
  /\ forall before p after short, prefix = before ++ p :: after -> n = p ++ short ->
       (forall q, In q before -> dget (defs s Values) (q ++ short) = None) -> attribute_is show h l short z.
