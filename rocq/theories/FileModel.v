(** Model of the processing of whole files: search and loading of headers, and for each file
    removal of comments, preprocessing with its effect on the tables, and parsing; search in the
    texts (c_parser.py:541-610, 714-770, 802-1071, 1156-1182, 1732-1740).
    Simplifications: the text of a file is what [open] in text mode gives (line ends are
    newlines); when an exception is raised the tables are not described; the cache and the
    recorded options are in StoreModel.v; [return_unparsed] is false. *)
From Coq Require Import Ascii String Bool Arith ZArith List.
Import ListNotations.
From Verif Require Import PyBase PyStr PyExpr MacroModel TypeModel StoreModel PpModel DeclModel EvalModel GramModel.

(** The tables of macros seen by [expand_macros], c_parser.py:1102-1103. *)
Definition macro_texts (s : store entry) : dict str str :=
  flat_map (fun p => match snd p with EText v => [(fst p, v)] | _ => [] end) (defs s Macros).
(** [self.defs["fnmacros"]], c_parser.py:1103. *)
Definition fn_macros (s : store entry) : dict str (str * list nat) :=
  flat_map (fun p => match snd p with EFnmacro t o => [(fst p, (t, o))] | _ => [] end) (defs s Fnmacros).
(** Both tables, c_parser.py:1102-1103. *)
Definition macros_of (s : store entry) : mtab := {| macros := macro_texts s; fnmacros := fn_macros s |}.

Section File.
  (** [str.format] and the truth of Python expressions outside of the subsets (PpModel.v),
      [eval] (EvalModel.v), the type words and the modifiers (GramModel.v). *)
  Context (fo : str -> list str -> option str) (ext : str -> bool)
          (ev : dict str pobj -> str -> res pobj) (base mods : list str).

  (** [process_macro_defn], c_parser.py:1044-1071. *)
  Definition record_macro (s : store entry) (n : str) (args : option (list str)) (v : str) : store entry :=
    match dget (fn_macros s) v with
    | Some (t, o) => add_def s Fnmacros n (EFnmacro t o)                            (* 1048-1049 *)
    | None =>
        match args with
        | None =>                                                                  (* 1053-1056 *)
            let val := eval_text ev s v in
            add_def (add_def s Macros n (EText v)) Values n (EVal val)
        | Some l =>                                                                (* 1060-1065 *)
            let (t, o) := compile_fn_macro v l in add_def s Fnmacros n (EFnmacro t o)
        end
    end.
  (** [self.pp_define.parseString], c_parser.py:952-959; a failure is logged. *)
  Definition record_define (s : store entry) (name rest : str) : store entry :=
    match pp_define (name ++ sp :: rest) with
    | Some (n, args, v) => record_macro s n args v
    | None => s
    end.
  (** What a line does to the tables, c_parser.py:900-906, 944-969.  [p] is the state of
      [preprocess] before the line.  The loop of PpModel.v keeps its own copy of the tables of
      macros, in [tab p]; FileProofs.v shows that both stay the same. *)
  Definition line_effect (p : pst) (s : store entry) (line : str) : store entry :=
    match directive line with
    | None => s
    | Some (d, rest) =>
        if active p then
          if eqb d $"define" then
            match macro_name rest with
            | None => s
            | Some (n, rest') =>
                match (if all_true (ift p) then expand_macros fo (tab p) rest' else Ok rest') with
                | Ok r => record_define s n r
                | Err _ => s
                end
            end
          else if eqb d $"undef" then
            match macro_name rest with
            | None => s
            | Some (n, _) => fst (rem_def s Macros (strip n))
            end
          else s
        else s
    end.
  (** The loop over the lines, c_parser.py:863. *)
  Fixpoint file_lines (i : nat) (p : pst) (s : store entry) (ls : list str) : res (pst * store entry) :=
    match ls with
    | [] => Ok (p, s)
    | l :: r => do p' <- line_step fo ext i p l; file_lines (S i) p' (line_effect p s l) r
    end.
  (** [preprocess], c_parser.py:818-1024: the packing list, the tables and the new text. *)
  Definition preprocess_file (s : store entry) (path text : str)
    : res (list (nat * option Z) * store entry * str) :=
    let s0 := set_cur s (Some path) in
    do r <- file_lines 0 (start (macros_of s0)) s0 (split_on nl (join_lines text));
    Ok (plist (fst r), snd r, join [nl] (outp (fst r))).

  (** The body of the loop of [process_all], c_parser.py:592-604: the tables and the text that is
      kept for the file.  None: out of fuel (excluded by C71). *)
  Definition process_file (s : store entry) (path text : str) : option (res (store entry * str)) :=
    match preprocess_file s path (remove_comments text) with
    | Err e => Some (Err e)
    | Ok (l, s1, text') =>
        match parse_file ev base mods l s1 (Some path) text' with
        | None => None
        | Some (s2, None) => Some (Ok (s2, text'))
        | Some (_, Some e) => Some (Err e)
        end
    end.

  (** The parser: [files], [file_order] and the tables, c_parser.py:509-510, 520-527. *)
  Record parser := { p_files : dict str (option str); p_order : list str; p_store : store entry }.
  (** A parser without files, c_parser.py:509-510. *)
  Definition new_parser (s : store entry) : parser := {| p_files := []; p_order := []; p_store := s |}.

  (** The loop of [process_all], c_parser.py:585-604. *)
  Fixpoint process_files (p : parser) (order : list str) : option (res parser) :=
    match order with
    | [] => Some (Ok p)
    | f :: r =>
        match dget (p_files p) f with
        | None => Some (Err KeyError)
        | Some None => Some (Err OSError)
        | Some (Some text) =>
            match process_file (p_store p) f text with
            | None => None
            | Some (Err e) => Some (Err e)
            | Some (Ok (s', text')) =>
                process_files {| p_files := dset (p_files p) f (Some text'); p_order := p_order p;
                                 p_store := s' |} r
            end
        end
    end.
  (** [process_all] without cache, c_parser.py:544-610. *)
  Definition process_all (p : parser) : option (res parser) := process_files p (p_order p).

  (** [find_headers], c_parser.py:714-726: [isfile] and [find_header] (UtilModel.v). *)
  Fixpoint find_headers (isfile : str -> bool) (find : str -> option str) (hs : list str) : res (list str) :=
    match hs with
    | [] => Ok []
    | h :: r =>
        do x <- (if isfile h then Ok h else match find h with Some x => Ok x | None => Err OSError end);
        do l <- find_headers isfile find r;
        Ok (x :: l)
    end.
  (** [load_file], c_parser.py:728-770: [contents] is the file system, None for what is no file;
      [sub] is [re.sub] with pattern, replacement and text. *)
  Fixpoint replace_all (sub : str -> str -> str -> str) (rs : list (str * str)) (t : str) : str :=
    match rs with
    | [] => t
    | (a, b) :: r => replace_all sub r (sub a b t)
    end.
  (** [load_file], c_parser.py:746-770. *)
  Definition load_file (sub : str -> str -> str -> str) (contents : str -> option str)
    (rs : list (str * str)) (p : parser) (path : str) : parser :=
    match contents path with
    | None => {| p_files := dset (p_files p) path None; p_order := p_order p; p_store := p_store p |}
    | Some t => {| p_files := dset (p_files p) path (Some (replace_all sub rs t));
                   p_order := p_order p ++ [path]; p_store := p_store p |}
    end.
  (** The constructor with a list of headers, c_parser.py:514-542; [s] are the tables made from
      the other arguments (StoreModel.v). *)
  Definition parse_headers (sub : str -> str -> str -> str) (contents : str -> option str)
    (find : str -> option str) (rs : list (str * str)) (headers : list str) (s : store entry)
    : option (res parser) :=
    match find_headers (fun h => match contents h with Some _ => true | None => false end) find headers with
    | Err e => Some (Err e)
    | Ok l => process_all (fold_left (load_file sub contents rs) l (new_parser s))
    end.
End File.

(** [find_text], c_parser.py:1732-1740.  A file that is missing raises. *)
Fixpoint contains (x s : str) : bool :=
  starts_with x s || match s with [] => false | _ :: r => contains x r end.
(** [enumerate(lines)], c_parser.py:1737. *)
Fixpoint number_lines {A} (i : nat) (l : list A) : list (nat * A) :=
  match l with [] => [] | x :: r => (i, x) :: number_lines (S i) r end.
(** The loop over the files, c_parser.py:1734-1740. *)
Fixpoint find_text (files : dict str (option str)) (x : str) : res (list (str * nat * str)) :=
  match files with
  | [] => Ok []
  | (_, None) :: _ => Err AttributeError
  | (f, Some t) :: r =>
      do l <- find_text r x;
      Ok (map (fun p => (f, fst p, snd p)) (filter (fun p => contains x (snd p)) (number_lines 0 (split_on nl t))) ++ l)
  end.
