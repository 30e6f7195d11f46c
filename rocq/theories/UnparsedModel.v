(** Model of [parse_defs] when the unparsed text is asked for, pyclibrary/c_parser.py:1156-1182, and of
    [transformString] as it is used there (pyparsing/core.py:1285-1323). *)
From Coq Require Import Ascii String Bool Arith ZArith List.
Import ListNotations.
From Verif Require Import PyBase PyStr PyExpr TypeModel StoreModel MacroModel PpModel DeclModel EvalModel GramModel FileModel.

Section Spans.
  Context (base mods : list str) (pk : str -> option Z).
  (** [scanString] with the places of the matches, core.py:1247-1277, on the same grammar as
      [scan_n] in GramModel.v ([Suppress] only drops the tokens, its parse actions have run): for
      every match the tree, the text from its beginning on and the text behind it.  None: cut off. *)
  Fixpoint spans_n (f : nat) (p : pos) : option (list (gtop * (str * str))) :=
    match f with
    | O => None
    | S f' =>
        let q := skip p in
        match top_at base mods pk q with
        | POk t q' => match spans_n f' q' with
                      | Some l => Some ((t, (snd q, snd q')) :: l)
                      | None => None
                      end
        | POut => None
        | PNo => match snd q with
                 | [] => Some []
                 | c :: r => spans_n f' (c, r)
                 end
        end
    end.
End Spans.

(** [instring[a:b]], where the text from [a] on and from [b] on is given (pyparsing/core.py:1305-1323). *)
Definition between (a b : str) : str := firstn (length a - length b) a.
(** The text around the matches, core.py:1305-1323 (the matches themselves give no tokens).  [last] is
    the text from [lastE] on. *)
Fixpoint around (last : str) (l : list (gtop * (str * str))) : str :=
  match l with
  | [] => last
  | (_, (s, e)) :: l' => between last s ++ around e l'
  end.

(** The longest match of [\s*\n] at the beginning of the text: the text behind it (c_parser.py:1180). *)
Fixpoint blank_lines (s : str) : option str :=
  match s with
  | [] => None
  | c :: r =>
      if is_space c
      then match blank_lines r with
           | Some r' => Some r'
           | None => if cheq c nl then Some r else None
           end
      else None
  end.
(** [re.sub(r"\n\s*\n", "\n", text)], c_parser.py:1180.  Every step uses up a character: the fuel is
    the length of the text. *)
Fixpoint sub_blank (f : nat) (s : str) : str :=
  match f with
  | O => s
  | S f' =>
      match s with
      | [] => []
      | c :: r =>
          if cheq c nl
          then match blank_lines r with
               | Some r' => nl :: sub_blank f' r'
               | None => nl :: sub_blank f' r
               end
          else c :: sub_blank f' r
      end
  end.

(** [parse_defs] with [return_unparsed], c_parser.py:1177-1180: the tables with the exception of a parse
    action, if there was one, and the text that is returned otherwise.  [transformString] does not expand
    tabs. *)
Definition parse_unparsed (ev : dict str pobj -> str -> res pobj) (base mods : list str)
  (l : list (nat * option Z)) (s : store entry) (path : option str) (text : str)
  : option (store entry * option exc * str) :=
  match spans_n base mods (pack_of l text) (S (length text)) (nl, text) with
  | Some m =>
      let u := around text m in
      Some (run_tops ev (set_cur s path) (map fst m), sub_blank (length u) u)
  | None => None
  end.

Section Files.
  (** As in FileModel.v and CachedModel.v. *)
  Context (fo : str -> list str -> option str) (ext : str -> bool)
          (ev : dict str pobj -> str -> res pobj) (base mods : list str) (veq : entry -> entry -> bool).
  (** The body of the loop of [process_all] with [return_unparsed], c_parser.py:592-604: the tables, the text
      that is kept for the file, and the result of [parse_defs].  None: out of fuel. *)
  Definition unparsed_file (s : store entry) (path text : str) : option (res (store entry * str * str)) :=
    match preprocess_file fo ext ev s path (remove_comments text) with
    | Err e => Some (Err e)
    | Ok (l, s1, text') =>
        match parse_unparsed ev base mods l s1 (Some path) text' with
        | None => None
        | Some (s2, None, u) => Some (Ok (s2, text', u))
        | Some (_, Some e, _) => Some (Err e)
        end
    end.
  (** The loop, c_parser.py:580-604, with the list of the results. *)
  Fixpoint unparsed_files (p : parser) (order : list str) : option (res (parser * list str)) :=
    match order with
    | [] => Some (Ok (p, []))
    | f :: r =>
        match dget (p_files p) f with
        | None => Some (Err KeyError)
        | Some None => Some (Err OSError)
        | Some (Some text) =>
            match unparsed_file (p_store p) f text with
            | None => None
            | Some (Err e) => Some (Err e)
            | Some (Ok (s', text', u)) =>
                match unparsed_files {| p_files := dset (p_files p) f (Some text'); p_order := p_order p; p_store := s' |} r with
                | Some (Ok (p', us)) => Some (Ok (p', u :: us))
                | x => x
                end
            end
        end
    end.
  (** [process_all(cache, return_unparsed=True)], c_parser.py:544-610: the parser behind it, what is returned,
      and what has been written to the cache file. *)
  Definition process_all_unparsed (fs : fsys entry) (moddir : str) (o : opts entry) (cache : option str)
    (check : bool) (p : parser) : option (res (parser * option (list str) * option (pickled entry))) :=
    match cache with
    | None =>
        match unparsed_files p (p_order p) with
        | None => None
        | Some (Err e) => Some (Err e)
        | Some (Ok (p', us)) => Some (Ok (p', Some us, None))
        end
    | Some c =>
        let (s', hit) := load_cache veq fs moddir (p_order p) o check c (p_store p) in     (* 573-575 *)
        let p1 := {| p_files := p_files p; p_order := p_order p; p_store := s' |} in
        if hit then Some (Ok (p1, None, None))                                             (* 576-578 *)
        else
          match unparsed_files p1 (p_order p) with
          | None => None
          | Some (Err e) => Some (Err e)
          | Some (Ok (p', us)) => Some (Ok (p', Some us, Some (write_cache o (p_store p'))))
          end
    end.
End Files.
