(** What C99 says: headers that are read in steps, each step copying from the one before. *)
From Coq Require Import Ascii String Bool List.
Import ListNotations.
From Verif Require Import PyBase PyStr PyExpr TypeModel StoreModel StoreSpec DeclModel EvalModel FileModel CachedModel.

Section Steps.
  Context (fo : str -> list str -> option str) (ext : str -> bool) (ev : dict str pobj -> str -> res pobj) (base mods : list str)
          (veq : entry -> entry -> bool) (sub : str -> str -> str -> str) (contents : str -> option str) (find : str -> option str)
          (replace : option (dict str str)) (kw : dict str (dict str entry)).
  (** [w] is the last parser of a chain p1 = CParser(hs1, replace=…, and the keyword definitions),
      p2 = CParser(hs2, copy_from=p1, replace=…), …, and [hss] is hs1, hs2, …  The first one may be given a cache
      file: one that does not exist and is written, or the one that another parser of the same headers has
      written and that is accepted (so nothing is written). *)
  Inductive stepwise : list (list str) -> parser -> Prop :=
  | sw_first fs moddir hs encoding check p :
      open_headers fo ext ev base mods veq sub contents find fs moddir hs [] replace encoding kw None check = Some (Ok (p, None)) ->
      stepwise [hs] p
  | sw_written fs moddir hs encoding check cf pk p :
      (forall c, ~ cache_at fs moddir cf c) ->
      open_headers fo ext ev base mods veq sub contents find fs moddir hs [] replace encoding kw (Some cf) check = Some (Ok (p, Some pk)) ->
      stepwise [hs] p
  | sw_loaded fs moddir hs encoding check cf c pk p fs0 moddir0 encoding0 check0 cf0 w :
      hs <> [] -> (forall c, ~ cache_at fs0 moddir0 cf0 c) ->
      open_headers fo ext ev base mods veq sub contents find fs0 moddir0 hs [] replace encoding0 kw (Some cf0) check0 = Some (Ok (w, Some pk)) ->
      cache_at fs moddir cf c -> unpickle fs c = Some pk ->
      open_headers fo ext ev base mods veq sub contents find fs moddir hs [] replace encoding kw (Some cf) check = Some (Ok (p, None)) ->
      stepwise [hs] p
  | sw_next hss w fs moddir hs encoding check p :
      stepwise hss w ->
      open_headers fo ext ev base mods veq sub contents find fs moddir hs [p_store w] replace encoding [] None check = Some (Ok (p, None)) ->
      stepwise (hss ++ [hs]) p.
End Steps.
