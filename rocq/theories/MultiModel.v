(** Model of a program that opens several libraries: the arguments of [CLibrary(...)],
    pyclibrary/c_library.py:54-85, 161-207, and parsers that are shared between libraries. *)
From Coq Require Import Ascii String Bool Arith ZArith List.
Import ListNotations.
From Verif Require Import PyBase PyStr PyExpr TypeModel InitModel StoreModel DeclModel UtilModel CtModel LinkModel ObjModel InvokeModel.
From Verif Require Import LibModel.
From Verif Require ObjModel.

(** ** Arguments *)
(** The argument [headers], c_library.py:174-181: a list of paths, a parser (by its number), anything else. *)
Inductive harg : Type := HList (l : list str) | HParser (p : nat) | HOther.
(** The argument [prefix], c_library.py:191-196: None, one prefix, a list.
    Simplification: prefixes are strings, and a list is not changed later (the library keeps the
    caller's list itself, line 194). *)
Inductive parg : Type := NoPrefix | OnePrefix (p : str) | Prefixes (l : list str).
(** The arguments of [CLibrary(...)], c_library.py:161-171; [a_kwargs] are the remaining keyword
    arguments, meant for the parser.
    Simplification: [lock_calls] is not given (see FunModel.v); [backend] is given as a keyword or not at all (line 64 does not see it otherwise). *)
Record cargs := {
  a_lib : request; a_headers : harg; a_prefix : parg;
  a_convention : str; a_backend : str; a_kwargs : list (str * pobj) }.

(** The surroundings of the program: those of LibModel.v (without its [e_init]), the words of the
    parsers, the table of types, what [CParser(headers, **kwargs)] records or raises
    (c_library.py:309-311), whether a shared library can be loaded (backends/ctypes.py:153-157), the
    symbols of its path (c_library.py:334) and which objects of the caller ctypes takes (InvokeModel.v),
    for each library object as its classes are its own. *)
Record setting := {
  w_env : surroundings;
  w_conf : tconf;
  w_table : dict str tyval;
  w_parse : list (str * pobj) -> list str -> res (store entry);
  w_load : str -> res unit;
  w_exports : str -> str -> bool;
  w_takes : nat -> option pyt -> nat -> bool }.

(** ** The state of the program *)
(** A parser: its tables and the contents of the array lists in them, which requests to a library change
    (backends/ctypes.py:227). *)
Record wparser := { p_tables : store entry; p_lists : list (list pobj) }.
(** A library object, c_library.py:174-207: its parser, the path it was opened with, the
    prefixes, the dictionaries of objects, and the classes made for its structures and unions. *)
Record wlib := {
  m_parser : nat; m_path : str; m_prefix : list str;
  m_objs : kind -> dict str lobj; m_all : dict str lobj;
  m_structs : dict str nat; m_classes : list cls }.
(** All parsers and library objects, each in the order of their creation, and [CLibraryMeta.libs]
    (c_library.py:38). *)
Record world := { w_parsers : list wparser; w_libs : list wlib; w_open : dict str nat }.
(** A program at its beginning (c_library.py:38). *)
Definition start : world := {| w_parsers := []; w_libs := []; w_open := [] |}.

Section Program.
  Context (W : setting).
  (** [sys.platform == "win32"], backends/ctypes.py:57. *)
  Definition on_windows : bool := eqb (e_platform (w_env W)) $"win32".

  (** c_library.py:57-62: the path a string stands for. *)
  Definition found_path (s : str) : res str :=
    if negb (existsb (Ascii.eqb sep) s) then fst (find_library (e_fs (w_env W)) (e_libdirs (w_env W)) s None)
    else let p := e_real (w_env W) s in if fs_isfile (e_fs (w_env W)) p then Ok p else Err AssertionError.
  (** c_library.py:56-76: the path under which the library is looked up; [cls.backends[...]] raises KeyError
      for an unknown backend (line 64), before the architecture is checked (66-69).  A library that has been
      loaded already tells its backend itself (73). *)
  Definition lib_key (a : cargs) : res str :=
    match a_lib a with
    | ByName s => if eqb (a_backend a) $"ctypes" then lib_path (w_env W) (a_lib a)
                  else do _ <- found_path s; Err KeyError
    | r => lib_path (w_env W) r
    end.

  (** [CParser(...)], c_library.py:309-311: a new parser. *)
  Definition new_parser (kw : list (str * pobj)) (l : list str) (st : world) : res nat * world :=
    match w_parse W kw l with
    | Err x => (Err x, st)
    | Ok s =>
        (Ok (length (w_parsers st)),
         {| w_parsers := w_parsers st ++ [{| p_tables := s; p_lists := l_heap (load (w_conf W) (w_table W) on_windows s) |}];
            w_libs := w_libs st; w_open := w_open st |})
    end.
  (** c_library.py:174-181: the parser of the library.  A parser that does not exist cannot be given: OtherError. *)
  Definition take_headers (a : cargs) (st : world) : res nat * world :=
    match a_headers a with
    | HList l => new_parser (a_kwargs a) l st
    | HParser p => if p <? length (w_parsers st) then (Ok p, st) else (Err OtherError, st)
    | HOther => (Err ValueError, st)
    end.
  (** [_link_library], backends/ctypes.py:150-159, if the library is given as a string (c_library.py:185-188);
      windll and oledll are only imported on win32 (backends/ctypes.py:57-58). *)
  Definition link (a : cargs) (path : str) : res unit :=
    match a_lib a with
    | ByName _ =>
        if eqb (a_convention a) $"cdll" then w_load W path
        else if mem (a_convention a) [$"windll"; $"oledll"] then if on_windows then w_load W path else Err NameError
        else Err ValueError
    | _ => Ok tt
    end.
  (** c_library.py:191-196. *)
  Definition prefix_list (p : parg) : list str :=
    match p with NoPrefix => [] | OnePrefix x => [x] | Prefixes l => l end.
  (** [CLibrary.__init__], c_library.py:161-207: a new library object. *)
  Definition construct (a : cargs) (path : str) (st : world) : res nat * world :=
    match take_headers a st with
    | (Err x, st1) => (Err x, st1)
    | (Ok p, st1) =>
        match link a path with
        | Err x => (Err x, st1)
        | Ok _ =>
            (Ok (length (w_libs st1)),
             {| w_parsers := w_parsers st1;
                w_libs := w_libs st1 ++ [{| m_parser := p; m_path := path; m_prefix := prefix_list (a_prefix a);
                                            m_objs := fun _ => []; m_all := []; m_structs := []; m_classes := [] |}];
                w_open := w_open st1 |})
        end
    end.
  (** [CLibraryMeta.__call__], c_library.py:54-85. *)
  Definition open_library (a : cargs) (st : world) : res nat * world :=
    match lib_key a with
    | Err x => (Err x, st)
    | Ok path =>
        match dget (w_open st) path with
        | Some o => (Ok o, st)
        | None =>
            match construct a path st with
            | (Err x, st1) => (Err x, st1)
            | (Ok o, st1) => (Ok o, {| w_parsers := w_parsers st1; w_libs := w_libs st1; w_open := dset (w_open st1) path o |})
            end
        end
    end.

  (** ** Using a library *)
  (** The library object [m] in the form of ObjModel.v, with the tables of its parser (c_library.py:182). *)
  Definition as_clib (m : wlib) (p : wparser) : clib :=
    ObjModel.open_with (w_conf W) (w_table W) on_windows (p_tables p) (m_prefix m) (w_exports W (m_path m)).
  (** Its state (c_library.py:202-207), with the array lists of its parser. *)
  Definition as_state (m : wlib) (p : wparser) : lstate :=
    {| q_objs := m_objs m; q_all := m_all m;
       q_ct := {| st_heap := p_lists p; st_structs := m_structs m; st_classes := m_classes m |} |}.
  (** The library object with a new state (c_library.py:202-207). *)
  Definition lib_with (m : wlib) (s : lstate) : wlib :=
    {| m_parser := m_parser m; m_path := m_path m; m_prefix := m_prefix m;
       m_objs := q_objs s; m_all := q_all s; m_structs := st_structs (q_ct s); m_classes := st_classes (q_ct s) |}.
  (** The item [i] of a list is replaced: the library and the parser are changed in place (backends/ctypes.py:227, 315). *)
  Fixpoint replace {A} (l : list A) (i : nat) (x : A) : list A :=
    match l, i with
    | [], _ => []
    | _ :: l, 0 => x :: l
    | y :: l, S i => y :: replace l i x
    end.
  (** What a use of a library gives: an object or an exception, or the outcome of a call (InvokeModel.v;
      c_library.py:209-247, 422-506). *)
  Inductive answer : Type := Gave (r : res lobj) | Ended (o : InvokeModel.outcome).
  (** c_library.py:209-247, 422-506. *)
  Definition answer_of (b : clib) (fuel : nat) (takes : option pyt -> nat -> bool) (u : use) (st : lstate) : answer :=
    match u with
    | Get a => Gave (fst (ObjModel.do_access b fuel a st))
    | Invoke a args kwargs => Ended (fst (invoke b fuel takes a args kwargs st))
    end.
  (** The library object number [o] is used (c_library.py:209-247, 422-506); None if there is none. *)
  Definition use_library (fuel : nat) (o : nat) (u : use) (st : world) : option answer * world :=
    match nth_error (w_libs st) o with
    | Some m =>
        match nth_error (w_parsers st) (m_parser m) with
        | Some p =>
            let b := as_clib m p in
            let s' := do_use b fuel (w_takes W o) u (as_state m p) in
            (Some (answer_of b fuel (w_takes W o) u (as_state m p)),
             {| w_parsers := replace (w_parsers st) (m_parser m) {| p_tables := p_tables p; p_lists := st_heap (q_ct s') |};
                w_libs := replace (w_libs st) o (lib_with m s'); w_open := w_open st |})
        | None => (None, st)
        end
    | None => (None, st)
    end.

  (** ** Programs *)
  (** What a program may do: [CParser(...)], [CLibrary(...)], a use of a library object, and an object that is
      dropped disappears from the WeakValueDictionary (c_library.py:38). *)
  Inductive event : Type :=
  | NewParser (kw : list (str * pobj)) (l : list str)
  | Open (a : cargs)
  | Use (o : nat) (u : use)
  | Drop (o : nat).
  (** What it sees of it: a parser, a library, an answer (c_library.py:54-85, 209-247, 309-311, 422-506). *)
  Inductive seen : Type := SParser (r : res nat) | SLib (r : res nat) | SUse (a : option answer) | SNothing.
  (** c_library.py:38, 54-85, 161-247, 422-506. *)
  Definition step (fuel : nat) (ev : event) (st : world) : seen * world :=
    match ev with
    | NewParser kw l => let (r, st1) := new_parser kw l st in (SParser r, st1)
    | Open a => let (r, st1) := open_library a st in (SLib r, st1)
    | Use o u => let (r, st1) := use_library fuel o u st in (SUse r, st1)
    | Drop o => (SNothing, {| w_parsers := w_parsers st; w_libs := w_libs st;
                              w_open := filter (fun kv => negb (Nat.eqb (snd kv) o)) (w_open st) |})
    end.
  (** One after the other.  Not in /repo: what a program may do. *)
  Definition run (fuel : nat) (evs : list event) : world := fold_left (fun st ev => snd (step fuel ev st)) evs start.
End Program.
