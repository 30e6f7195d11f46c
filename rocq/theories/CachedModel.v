(** Model of the constructor of the parser with headers and a cache file, pyclibrary/c_parser.py:509-610.
    The parts are in FileModel.v (loading and reading of headers) and StoreModel.v (keyword arguments,
    recorded options, the cache file). *)
From Coq Require Import Ascii String Bool Arith ZArith List.
Import ListNotations.
From Verif Require Import PyBase PyStr PyExpr TypeModel StoreModel DeclModel EvalModel FileModel.

Section Cached.
  (** As in FileModel.v; [veq] is [==] on the values given by keyword. *)
  Context (fo : str -> list str -> option str) (ext : str -> bool)
          (ev : dict str pobj -> str -> res pobj) (base mods : list str) (veq : entry -> entry -> bool).

  (** [process_all], c_parser.py:544-610: the parser behind it and what has been written to the cache
      file, if anything.  [o] is [init_opts].  None: out of fuel.
      Simplification: writing the cache file succeeds; the list of results that is returned is not
      described. *)
  Definition process_all_cached (fs : fsys entry) (moddir : str) (o : opts entry) (cache : option str)
    (check : bool) (p : parser) : option (res (parser * option (pickled entry))) :=
    match cache with
    | None =>
        match FileModel.process_all fo ext ev base mods p with
        | None => None
        | Some (Err e) => Some (Err e)
        | Some (Ok p') => Some (Ok (p', None))
        end
    | Some c =>
        let (s', hit) := load_cache veq fs moddir (p_order p) o check c (p_store p) in     (* 573-575 *)
        let p1 := {| p_files := p_files p; p_order := p_order p; p_store := s' |} in
        if hit then Some (Ok (p1, None))                                                   (* 576-578 *)
        else
          match FileModel.process_all fo ext ev base mods p1 with                         (* 580-604 *)
          | None => None
          | Some (Err e) => Some (Err e)
          | Some (Ok p') => Some (Ok (p', Some (write_cache o (p_store p'))))              (* 606-608 *)
          end
    end.

  (** [CParser.__init__] with a list of headers, c_parser.py:509-542.  [contents] are the texts of the files in
      the encoding that is asked for, [find] is [find_header], [fs] the disk as [load_cache] sees it. *)
  Definition open_headers (sub : str -> str -> str -> str) (contents : str -> option str) (find : str -> option str)
    (fs : fsys entry) (moddir : str) (headers : list str) (copy : list (store entry)) (replace : option (dict str str))
    (encoding : str) (kw : dict str (dict str entry)) (cache : option str) (check : bool)
    : option (res (parser * option (pickled entry))) :=
    match find_headers (fun h => match contents h with Some _ => true | None => false end) find headers with
    | Err e => Some (Err e)
    | Ok l =>
        let rs := match replace with Some d => d | None => [] end in
        let p := fold_left (load_file sub contents rs) l (new_parser init_store) in        (* 514-518 *)
        let a := {| a_files := p_order p; a_copy := copy; a_replace := replace; a_encoding := encoding; a_kw := kw |} in
        match ctor a with                                                                  (* 520-539 *)
        | Err e => Some (Err e)
        | Ok s => process_all_cached fs moddir (ctor_opts a) cache check
                    {| p_files := p_files p; p_order := p_order p; p_store := s |}         (* 541-542 *)
        end
    end.
End Cached.
