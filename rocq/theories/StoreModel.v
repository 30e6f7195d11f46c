(** Model of the definition tables of [CParser] and of its cache
    (c_parser.py:464-713, 728-770, 1667-1730). *)
From Coq Require Import Ascii String Bool Arith ZArith List.
Import ListNotations.
From Verif Require Import PyBase PyStr.

(** [CParser.data_list], c_parser.py:497-507: the kinds of definitions, in this order. *)
Inductive kind :=
| Types | Variables | Fnmacros | Macros | Structs | Unions | Enums | Functions | Values.
(** [data_list], c_parser.py:497-507. *)
Definition all_kinds : list kind :=
  [Types; Variables; Fnmacros; Macros; Structs; Unions; Enums; Functions; Values].
(** The dictionary keys of c_parser.py:497-507. *)
Definition kind_name (k : kind) : str :=
  match k with
  | Types => $"types" | Variables => $"variables" | Fnmacros => $"fnmacros"
  | Macros => $"macros" | Structs => $"structs" | Unions => $"unions"
  | Enums => $"enums" | Functions => $"functions" | Values => $"values"
  end.
(** Equality of the keys of c_parser.py:497-507. *)
Definition kind_eqb (a b : kind) : bool :=
  match a, b with
  | Types, Types | Variables, Variables | Fnmacros, Fnmacros | Macros, Macros
  | Structs, Structs | Unions, Unions | Enums, Enums | Functions, Functions
  | Values, Values => true
  | _, _ => false
  end.
Lemma kind_eqb_true : forall a b, kind_eqb a b = true <-> a = b.
Proof. intros [] []; simpl; split; intro E; try reflexivity; try discriminate. Qed.
#[global] Instance Eqb_kind : Eqb kind := {| eqb := kind_eqb; eqb_true := kind_eqb_true |}.
(** Which kind a keyword argument names, if any (c_parser.py:530-532 with 1672). *)
Definition kind_of (s : str) : option kind :=
  find (fun k => eqb (kind_name k) s) all_kinds.

Section Store.
  (** [V]: the recorded values; what they are does not matter here. *)
  Context {V : Type}.

  (** One dictionary per kind; always all nine of them (c_parser.py:520-522, 1677-1680). *)
  Definition tables := kind -> dict str V.
  (** Empty tables, c_parser.py:520-522, 1677-1680. *)
  Definition no_tables : tables := fun _ => [].
  (** A table takes the place of the old one, c_parser.py:1672, 1681, 1692-1693. *)
  Definition upd (t : tables) (k : kind) (d : dict str V) : tables :=
    fun k' => if eqb k' k then d else t k'.

  (** The state of a [CParser] that matters here: [defs], [file_defs] (keyed by the base
      name of the file, [None] for definitions made while no file is current) and
      [current_file] (c_parser.py:486-491, 527).
      Simplification: values are immutable, as pickling and copying do not share. *)
  Record store := { defs : tables; fdefs : dict (option str) tables; cur : option str }.

  (** c_parser.py:486-527 *)
  Definition init_store : store := {| defs := no_tables; fdefs := []; cur := None |}.

  (** c_parser.py:1673-1676, 1688-1691 *)
  Definition base_name (c : option str) : option str := option_map basename c.

  (** [self.current_file = ...], c_parser.py:698, 833, 1175. *)
  Definition set_cur (s : store) (c : option str) : store :=
    {| defs := defs s; fdefs := fdefs s; cur := c |}.

  (** The tables of a file, empty ones if the file is new (c_parser.py:1677-1680). *)
  Definition file_tables (s : store) (f : option str) : tables :=
    match dget (fdefs s) f with Some t => t | None => no_tables end.

  (** [add_def], c_parser.py:1667-1681 *)
  Definition add_def (s : store) (k : kind) (n : str) (v : V) : store :=
    let b := base_name (cur s) in
    let t := file_tables s b in
    {| defs := upd (defs s) k (dset (defs s k) n v);
       fdefs := dset (fdefs s) b (upd t k (dset (t k) n v));
       cur := cur s |}.

  (** [rem_def], c_parser.py:1683-1693: the global entry is deleted first; a missing entry
      raises KeyError and leaves what has been done so far. *)
  Definition rem_def (s : store) (k : kind) (n : str) : store * option exc :=
    let b := base_name (cur s) in
    if dmem (defs s k) n then
      let s1 := {| defs := upd (defs s) k (ddel (defs s k) n); fdefs := fdefs s; cur := cur s |} in
      match dget (fdefs s) b with
      | None => (s1, Some KeyError)
      | Some t =>
          if dmem (t k) n then
            ({| defs := defs s1; fdefs := dset (fdefs s) b (upd t k (ddel (t k) n));
                cur := cur s |}, None)
          else (s1, Some KeyError)
      end
    else (s, Some KeyError).

  (** What a parser does to its tables while it runs: definitions found in the files, the
      [#undef] directive (c_parser.py:961-969, where KeyError is swallowed) and the change of
      the current file (c_parser.py:833, 1175, 698). *)
  Inductive op :=
  | Add (k : kind) (n : str) (v : V)
  | Rem (k : kind) (n : str)
  | Switch (f : option str).
  (** One of these, c_parser.py:698, 833, 961-969, 1175, 1667-1693. *)
  Definition step (s : store) (o : op) : store :=
    match o with
    | Add k n v => add_def s k n v
    | Rem k n => fst (rem_def s k n)
    | Switch f => set_cur s f
    end.
  (** One after the other (c_parser.py:585-604). *)
  Definition run (s : store) (h : list op) : store := fold_left step h s.

  (** A dictionary with the layout of [file_defs], as found in a cache file or another
      parser.  A file's entry may lack kinds if the cache is damaged (c_parser.py:690-701). *)
  Definition fdata := dict (option str) (dict kind (dict str V)).
  (** [file_defs] itself as such a dictionary (c_parser.py:539, 707). *)
  Definition to_data (fd : dict (option str) tables) : fdata :=
    map (fun p => (fst p, map (fun k => (k, snd p k)) all_kinds)) fd.

  (** The two inner loops of [import_dict], c_parser.py:699-701. *)
  Fixpoint import_kinds (s : store) (ks : list kind) (d : dict kind (dict str V))
    : store * option exc :=
    match ks with
    | [] => (s, None)
    | k :: ks' =>
        match dget d k with
        | None => (s, Some KeyError)
        | Some t => import_kinds (fold_left (fun s p => add_def s k (fst p) (snd p)) t s) ks' d
        end
    end.
  (** [import_dict], c_parser.py:690-701 *)
  Fixpoint import_dict (s : store) (data : fdata) : store * option exc :=
    match data with
    | [] => (s, None)
    | (f, d) :: r =>
        match import_kinds (set_cur s f) all_kinds d with
        | (s', None) => import_dict s' r
        | (s', Some e) => (s', Some e)
        end
    end.

  (** [find] with a string, c_parser.py:1716-1726 *)
  Definition find_name (s : store) (name : str) : list (option str * kind) :=
    flat_map (fun p =>
      flat_map (fun k =>
        flat_map (fun e => if eqb (fst e) name then [(fst p, k)] else []) (snd p k))
        all_kinds) (fdefs s).
  (** [find] with a pattern, c_parser.py:1728-1730; [p] tells whether the pattern matches. *)
  Definition find_pat (s : store) (p : str -> bool) : list (option str * kind * str) :=
    flat_map (fun f =>
      flat_map (fun k =>
        flat_map (fun e => if p (fst e) then [(fst f, k, fst e)] else []) (snd f k))
        all_kinds) (fdefs s).

  (** ** Options and cache *)

  (** [init_opts], c_parser.py:493-495, 765-769: the keyword arguments, the base names of
      the files and, for each base name, the replacements. *)
  Record opts := {
    o_kw : dict str (dict str V);
    o_files : list str;
    o_replace : dict str (option (dict str str))
  }.

  (** Python's [==] on dictionaries: same keys, equal values, in any order (c_parser.py:665). *)
  Definition dict_eqb {A K} `{Eqb K} (veq : A -> A -> bool) (a b : dict K A) : bool :=
    (length a =? length b) &&
    forallb (fun p => match dget b (fst p) with Some w => veq (snd p) w | None => false end) a.

  Section WithEq.
    (** [==] on the values given by keyword. *)
    Context (veq : V -> V -> bool).

    (** [cache["opts"] != self.init_opts], c_parser.py:665 (negated). *)
    Definition opts_eqb (a b : opts) : bool :=
      dict_eqb (dict_eqb veq) (o_kw a) (o_kw b)
      && eqb (o_files a) (o_files b)
      && dict_eqb (option_eqb (dict_eqb eqb)) (o_replace a) (o_replace b).

    (** What unpickling a cache file gives: the three entries, each of which may be missing;
        a version that is no number makes the comparison raise (c_parser.py:661, 706-708). *)
    Record pickled := {
      p_opts : option opts;
      p_version : option (option Z);
      p_defs : option fdata
    }.

    (** The file system as [load_cache] uses it.  [unpickle] gives None when opening,
        reading or decoding the file raises (c_parser.py:639-661). *)
    Record fsys := {
      isfile : str -> bool;
      mtime : str -> Z;
      unpickle : str -> option pickled
    }.

    (** c_parser.py:464 *)
    Definition cache_version : Z := 2.

    (** [os.path.join] on POSIX, second argument possibly absolute (c_parser.py:642). *)
    Definition path_join (d f : str) : str :=
      match f with
      | c :: _ => if cheq c "/" then f else d ++ "/"%char :: f
      | [] => d ++ $"/"
      end.

    (** [load_cache], c_parser.py:612-688; [moddir] is the directory of c_parser.py, [files] is
        [file_order].  The result tells whether the cache has been loaded; exceptions after
        the time check are turned into False. *)
    Definition load_cache (fs : fsys) (moddir : str) (files : list str) (o : opts)
               (check : bool) (cache_file : str) (s : store) : store * bool :=
      let found :=
        if isfile fs cache_file then Some cache_file
        else let c := path_join (path_join moddir $"headers") cache_file in
             if isfile fs c then Some c else None in
      match found with
      | None => (s, false)
      | Some c =>
          if check && existsb (fun f => isfile fs f && (mtime fs c <? mtime fs f)%Z) files
          then (s, false)
          else
            match unpickle fs c with
            | None => (s, false)
            | Some p =>
                let continue :=
                  if check then
                    match p_opts p with
                    | None => false
                    | Some po =>
                        if opts_eqb po o then
                          match p_version p with
                          | Some (Some v) => negb (v <? cache_version)%Z
                          | _ => false
                          end
                        else false
                    end
                  else true in
                if continue then
                  match p_defs p with
                  | None => (s, false)
                  | Some d =>
                      match import_dict s d with
                      | (s', None) => (s', true)
                      | (s', Some _) => (s', false)
                      end
                  end
                else (s, false)
            end
      end.

    (** [write_cache], c_parser.py:703-712 *)
    Definition write_cache (o : opts) (s : store) : pickled :=
      {| p_opts := Some o; p_version := Some (Some cache_version);
         p_defs := Some (to_data (fdefs s)) |}.

    (** [process_all], c_parser.py:544-610, with [parse] standing for the loop over the files:
        the new tables and the cache file written, if any. *)
    Definition process_all (parse : store -> store) (fs : fsys) (moddir : str)
               (files : list str) (o : opts) (cache : option str) (check : bool) (s : store)
      : store * option pickled :=
      match cache with
      | None => (parse s, None)
      | Some c =>
          match load_cache fs moddir files o check c s with
          | (s', true) => (s', None)
          | (s', false) => (parse s', Some (write_cache o (parse s')))
          end
      end.

    (** The arguments of the constructor (c_parser.py:469-479); [a_files] are the paths found by
        [find_headers]. *)
    Record ctor_args := {
      a_files : list str;
      a_copy : list store;
      a_replace : option (dict str str);
      a_encoding : str;
      a_kw : dict str (dict str V)
    }.
    (** [init_opts] after the loop over the files, c_parser.py:493-495, 514-518, 764-769. *)
    Definition ctor_opts (a : ctor_args) : opts :=
      {| o_kw := a_kw a;
         o_files := map basename (a_files a);
         o_replace := fold_left (fun d f => dset d (basename f) (a_replace a)) (a_files a) [] |}.
    (** c_parser.py:530-532: the keyword arguments; an unknown kind raises KeyError unless it
        brings no names. *)
    Fixpoint add_kw (s : store) (kw : dict str (dict str V)) : res store :=
      match kw with
      | [] => Ok s
      | (t, d) :: r =>
          match kind_of t, d with
          | Some k, _ => add_kw (fold_left (fun s p => add_def s k (fst p) (snd p)) d s) r
          | None, [] => add_kw s r
          | None, _ => Err KeyError
          end
      end.
    (** c_parser.py:529-539: the tables before [process_all]. *)
    Fixpoint copy_all (s : store) (l : list store) : res store :=
      match l with
      | [] => Ok s
      | p :: r =>
          match import_dict s (to_data (fdefs p)) with
          | (s', None) => copy_all s' r
          | (_, Some e) => Err e
          end
      end.
    (** [CParser.__init__] up to [process_all], c_parser.py:486-539. *)
    Definition ctor (a : ctor_args) : res store :=
      do s <- add_kw init_store (a_kw a); copy_all s (a_copy a).
  End WithEq.
End Store.

Arguments tables : clear implicits. Arguments store : clear implicits.
Arguments op : clear implicits. Arguments fdata : clear implicits.
Arguments opts : clear implicits. Arguments pickled : clear implicits.
Arguments fsys : clear implicits. Arguments ctor_args : clear implicits.
