(** Model of the opening of libraries and of the access to their definitions,
    pyclibrary/c_library.py:31-330. *)
From Coq Require Import Ascii String Bool Arith ZArith List.
Import ListNotations.
From Verif Require Import PyBase PyStr StoreModel UtilModel.

(** ** Opening a library *)
(** The surroundings: file system, [LIBRARY_DIRS], [sys.platform], the word size of the
    interpreter, [os.path.realpath], the contents of files and the output of the program file
    (for the architecture), and whether the constructor of the library object
    (CLibrary.__init__ with parsing and linking) raises.
    Simplification: the surroundings do not change while the program runs (c_library.py:54-83). *)
Record surroundings := {
  e_fs : fsys;
  e_libdirs : list str;
  e_platform : str;
  e_bits : nat;
  e_real : str -> str;
  e_content : str -> option str;
  e_file : str -> res str;
  e_init : str -> res unit }.

(** The first argument of [CLibrary(...)]: a string, a ctypes library with its [_name], or
    another object (c_library.py:56, 71-76). *)
Inductive request : Type := ByName (s : str) | ByHandle (name : str) | ByOther.

(** c_library.py:56-76 and backends/ctypes.py:457-461, backends/__init__.py:20-32: the path
    under which the library is looked up.  [find_library(x).path] is the path itself.  An unknown
    library object gives [cls.backends[None]]: KeyError.
    Simplification: the backend is always ctypes, the only one there is. *)
Definition sep : ascii := "/"%char.
(** [lib_path], c_library.py:56-76. *)
Definition lib_path (e : surroundings) (r : request) : res str :=
  match r with
  | ByName s =>
      do p <- (if negb (existsb (Ascii.eqb sep) s) then fst (find_library (e_fs e) (e_libdirs e) s None)
               else let p := e_real e s in
                    if fs_isfile (e_fs e) p then Ok p else Err AssertionError);
      let a := arch (e_platform e) (e_content e p) (e_file e p) in
      match a with
      | [] => Ok p
      | _ => if existsb (Nat.eqb (e_bits e)) a then Ok p else Err OSError
      end
  | ByHandle n => if fs_isfile (e_fs e) n then Ok n
                  else fst (find_library (e_fs e) (e_libdirs e) n None)
  | ByOther => Err KeyError
  end.

(** [CLibraryMeta.libs], a WeakValueDictionary: the live library objects by path.  Objects are
    numbered in the order of their creation (c_library.py:38). *)
Record opened := { o_libs : dict str nat; o_next : nat }.
(** [libs] at the beginning, c_library.py:38. *)
Definition none_opened : opened := {| o_libs := []; o_next := 0 |}.

(** [CLibraryMeta.__call__], c_library.py:54-85. *)
Definition open_lib (e : surroundings) (r : request) (s : opened) : res nat * opened :=
  match lib_path e r with
  | Err x => (Err x, s)
  | Ok p =>
      match dget (o_libs s) p with
      | Some o => (Ok o, s)
      | None => match e_init e p with
                | Err x => (Err x, s)
                | Ok _ => (Ok (o_next s), {| o_libs := dset (o_libs s) p (o_next s); o_next := S (o_next s) |})
                end
      end
  end.
(** An object nobody refers to any more disappears from the WeakValueDictionary (c_library.py:38). *)
Definition collect (o : nat) (s : opened) : opened :=
  {| o_libs := filter (fun kv => negb (Nat.eqb (snd kv) o)) (o_libs s); o_next := o_next s |}.

(** What happens to [libs]: a library is opened (c_library.py:54-85), an object is collected (38). *)
Inductive event : Type := Open (r : request) | Collect (o : nat).
(** c_library.py:38, 54-85. *)
Definition happen (e : surroundings) (ev : event) (s : opened) : opened :=
  match ev with Open r => snd (open_lib e r s) | Collect o => collect o s end.
(** Events one after the other.  Not in /repo: what a program may do. *)
Definition history (e : surroundings) (evs : list event) (s : opened) : opened :=
  fold_left (fun s ev => happen e ev s) evs s.

(** ** Access to definitions *)
(** What access yields: Python's None, the value recorded in the headers, the recorded
    dictionary of an enumeration, or an object made by the backend; the latter are numbered, to
    tell apart different objects for one definition (c_library.py:277-300). *)
Inductive obj : Type :=
| ONone
| OValue (v : str)
| OEnum (name : str)
| OMade (serial : nat) (k : kind) (name : str).

(** What the backend does for a definition: nothing but None (a typedef of void), a new object,
    or, for enumerations, the recorded dictionary of the given name (c_library.py:279-300). *)
Inductive made : Type := MNone | MNew | MEnum (name : str).

(** What a library object knows: the prefixes, the recorded definitions (for values: None or a
    value; for the other kinds only whether there is one), and what the backend makes of them
    ([_get_function], [_get_type], [_get_struct] and the lines c_library.py:289-300 for
    enumerations), possibly an exception.
    Simplification: the outcome of the backend depends on the definition only. *)
Record headers := {
  h_prefix : list str;
  h_defs : kind -> str -> option (option str);
  h_build : kind -> str -> res made }.

(** [_objs_], [_all_objs_] and the counter for object numbers, c_library.py:202-207. *)
Record cache := {
  c_objs : kind -> dict str obj;
  c_all : dict str obj;
  c_next : nat }.
(** c_library.py:202-205. *)
Definition no_cache : cache := {| c_objs := fun _ => []; c_all := []; c_next := 0 |}.

(** c_library.py:202-207 *)
Definition access_kinds : list kind := [Values; Functions; Types; Structs; Unions; Enums].

(** [_all_names_], c_library.py:255-260 *)
Definition all_names (h : headers) (name : str) : list str := name :: map (fun p => p ++ name) (h_prefix h).

(** [n in self._defs_[typ]], c_library.py:241, 272. *)
Definition is_defined (h : headers) (k : kind) (n : str) : bool :=
  match h_defs h k n with Some _ => true | None => false end.
(** c_library.py:272-275 *)
Definition acceptable (h : headers) (k : kind) (n : str) : bool :=
  is_defined h k n || (mem k [Structs; Unions; Enums] && is_defined h Types n).

(** c_library.py:277-302 for the name [n]. *)
Definition build_one (h : headers) (k : kind) (n : str) (c : cache) : res obj * cache :=
  match k with
  | Values => match h_defs h Values n with
              | Some (Some v) => (Ok (OValue v), c)
              | Some None => (Ok ONone, c)
              | None => (Err KeyError, c)
              end
  | _ => match h_build h k n with
         | Err x => (Err x, c)
         | Ok MNone => (Ok ONone, c)
         | Ok (MEnum e) => (Ok (OEnum e), c)
         | Ok MNew => (Ok (OMade (c_next c) k n),
                       {| c_objs := c_objs c; c_all := c_all c; c_next := S (c_next c) |})
         end
  end.

(** [_make_obj_], c_library.py:262-304.  The [self.objs] of line 269 is no attribute, so that it
    is looked up in the headers.
    Simplification: taken to raise NameError, as it does unless the headers define something
    called objs. *)
Definition make_obj (h : headers) (k : kind) (name : str) (c : cache) : res obj * cache :=
  let names := all_names h name in
  if existsb (dmem (c_objs c k)) names then (Err NameError, c)
  else match find (acceptable h k) names with
       | Some n => build_one h k n c
       | None => (Err NameError, c)
       end.

(** [CLibrary.__call__], c_library.py:209-217 *)
Definition lib_call (h : headers) (k : kind) (name : str) (c : cache) : res obj * cache :=
  if negb (mem k access_kinds) then (Err KeyError, c)
  else match dget (c_objs c k) name with
       | Some o => (Ok o, c)
       | None =>
           let (r, c1) := make_obj h k name c in
           match r with
           | Err x => (Err x, c1)
           | Ok o => (Ok o, {| c_objs := fun k' => if eqb k' k then dset (c_objs c1 k) name o else c_objs c1 k';
                               c_all := c_all c1; c_next := c_next c1 |})
           end
       end.

(** The loop of [CLibrary.__getattr__], c_library.py:226-245. *)
Fixpoint search_kinds (h : headers) (names : list str) (ks : list kind) (c : cache) : res obj * cache :=
  match ks with
  | [] => (Err NameError, c)
  | k :: r =>
      match find (is_defined h k) names with
      | None => search_kinds h names r c
      | Some n =>
          let (x, c1) := lib_call h k n c in
          match x with
          | Err e => (Err e, c1)
          | Ok ONone => search_kinds h names r c1
          | Ok o => (Ok o, c1)
          end
      end
  end.
(** [CLibrary.__getattr__], c_library.py:219-247, for a name that is no attribute of the library
    object itself. *)
Definition lib_attr (h : headers) (name : str) (c : cache) : res obj * cache :=
  match dget (c_all c) name with
  | Some o => (Ok o, c)
  | None =>
      let (r, c1) := search_kinds h (all_names h name) access_kinds c in
      match r with
      | Err x => (Err x, c1)
      | Ok o => (Ok o, {| c_objs := c_objs c1; c_all := dset (c_all c1) name o; c_next := c_next c1 |})
      end
  end.

(** The ways to get at a definition: [lib.name] (c_library.py:219-247) and [lib(kind, name)] (209-217). *)
Inductive access : Type := Attr (name : str) | Call (k : kind) (name : str).
(** c_library.py:209-247. *)
Definition do_access (h : headers) (a : access) (c : cache) : res obj * cache :=
  match a with Attr n => lib_attr h n c | Call k n => lib_call h k n c end.
(** One after the other.  Not in /repo: what a program may do. *)
Definition accesses (h : headers) (l : list access) (c : cache) : cache :=
  fold_left (fun c a => snd (do_access h a c)) l c.
