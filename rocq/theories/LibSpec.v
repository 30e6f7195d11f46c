(** What C47-C50 say, independently of the model's algorithms. *)
From Coq Require Import Ascii String Bool Arith ZArith List.
Import ListNotations.
From Verif Require Import PyBase PyStr StoreModel UtilModel UtilSpec LibModel.

(** ** Opening *)
(** The file a request stands for: a name without slash is searched, a path is resolved, a loaded
    library is known by its name if that is a file, else that name is searched. *)
Inductive designates (e : surroundings) : request -> str -> Prop :=
| DesName : forall s p, ~ In "/"%char s ->
    fst (find_library (e_fs e) (e_libdirs e) s None) = Ok p -> designates e (ByName s) p
| DesPath : forall s, In "/"%char s -> fs_isfile (e_fs e) (e_real e s) = true ->
    designates e (ByName s) (e_real e s)
| DesFile : forall n, fs_isfile (e_fs e) n = true -> designates e (ByHandle n) n
| DesLoaded : forall n p, fs_isfile (e_fs e) n = false ->
    fst (find_library (e_fs e) (e_libdirs e) n None) = Ok p -> designates e (ByHandle n) p.

(** The architecture of the file is unknown or contains the word size of the interpreter. *)
Definition known_arch (e : surroundings) (p : str) : list nat := arch (e_platform e) (e_content e p) (e_file e p).
Definition fits (e : surroundings) (p : str) : Prop := known_arch e p = [] \/ In (e_bits e) (known_arch e p).
(** Is the file checked when it is opened this way? *)
Definition checked (r : request) : Prop := match r with ByName _ => True | _ => False end.
(** Searched names and names of loaded libraries are already resolved paths. *)
Definition canonical (e : surroundings) : Prop :=
  (forall s, e_real e (e_real e s) = e_real e s)
  /\ forall r p, designates e r p -> e_real e p = p.

(** ** Access *)
(** The names under which a definition is looked for: as given, or after a prefix. *)
Definition candidate (h : headers) (name n : str) : Prop := n = name \/ exists p, In p (h_prefix h) /\ n = p ++ name.
(** [n] is defined in the kind, with a value if it is the kind of values. *)
Definition has_value (h : headers) (k : kind) (n : str) : Prop :=
  match k with
  | Values => exists v, h_defs h Values n = Some (Some v)
  | _ => h_defs h k n <> None
  end.
(** The kinds in the order of the documentation. *)
Definition documented_order : list kind := [Values; Functions; Types; Structs; Unions; Enums].
(** The order of the candidates: the name itself, then with the prefixes in their order. *)
Definition candidates (h : headers) (name : str) : list str := name :: map (fun p => p ++ name) (h_prefix h).
(** [k], [n]: the first kind and in it the first candidate with a value. *)
Definition first_match (h : headers) (name : str) (k : kind) (n : str) : Prop :=
  (exists before after, documented_order = before ++ k :: after
     /\ forall k' n', In k' before -> candidate h name n' -> ~ has_value h k' n')
  /\ (exists before after, candidates h name = before ++ n :: after
     /\ forall n', In n' before -> ~ has_value h k n')
  /\ has_value h k n.
Definition no_match (h : headers) (name : str) : Prop :=
  forall k n, In k documented_order -> candidate h name n -> ~ has_value h k n.
(** The result for the definition [n] of kind [k]. *)
Definition is_object (h : headers) (k : kind) (n : str) (r : res obj) : Prop :=
  match k with
  | Values => exists v, h_defs h Values n = Some (Some v) /\ r = Ok (OValue v)
  | _ => match h_build h k n with
         | Err x => r = Err x
         | Ok MNone => r = Ok ONone
         | Ok (MEnum e) => r = Ok (OEnum e)
         | Ok MNew => exists s, r = Ok (OMade s k n)
         end
  end.

(** No null value hides a value. *)
Definition clear (h : headers) (name : str) : Prop :=
  forall n n', candidate h name n -> candidate h name n' ->
    h_defs h Values n = Some None -> ~ has_value h Values n'.

(** Equal up to the identity of made objects. *)
Definition alike (a b : res obj) : Prop :=
  match a, b with
  | Ok (OMade _ k n), Ok (OMade _ k' n') => k = k' /\ n = n'
  | _, _ => a = b
  end.

(** No definition is called like another one of its kind after a (non-empty) prefix. *)
Definition usable (h : headers) (k : kind) (n : str) : Prop :=
  h_defs h k n <> None \/ (In k [Structs; Unions; Enums] /\ h_defs h Types n <> None).
Definition no_clash (h : headers) : Prop :=
  forall k n p, In p (h_prefix h) -> p <> [] -> usable h k n -> ~ usable h k (p ++ n).
(** With prefixes, lib(kind, name) is used with complete names only. *)
Definition complete (h : headers) (a : access) : Prop :=
  match a with Attr _ => True | Call k n => usable h k n \/ h_prefix h = [] end.
