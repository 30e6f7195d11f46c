(** What C98 says about programs with several libraries, independently of the algorithms. *)
From Coq Require Import Ascii String Bool Arith ZArith List.
Import ListNotations.
From Verif Require Import PyBase PyStr PyExpr TypeModel InitModel StoreModel StoreSpec DeclModel UtilModel CtModel LinkModel LinkSpec.
From Verif Require Import LibModel InvokeModel InvokeSpec MultiModel.
From Verif Require LibSpec ObjModel ObjSpec.

Section Programs.
  Context (W : setting).

  (** ** Opening *)
  (** The call is for the library file [p] (C47), which fits the interpreter (C48), with the only backend there is. *)
  Definition opens (a : cargs) (p : str) : Prop :=
    LibSpec.designates (w_env W) (a_lib a) p
    /\ (LibSpec.checked (a_lib a) -> a_backend a = $"ctypes" /\ LibSpec.fits (w_env W) p).
  (** Calls that are refused for their first argument or the backend. *)
  Inductive refused (a : cargs) : exc -> Prop :=
  | rf_object : a_lib a = ByOther -> refused a KeyError
  | rf_backend s p : a_lib a = ByName s -> LibSpec.designates (w_env W) (ByName s) p -> a_backend a <> $"ctypes" -> refused a KeyError
  | rf_word_size s p : a_lib a = ByName s -> LibSpec.designates (w_env W) (ByName s) p -> a_backend a = $"ctypes" ->
      ~ LibSpec.fits (w_env W) p -> refused a OSError
  | rf_no_file s : a_lib a = ByName s -> In "/"%char s -> fs_isfile (e_fs (w_env W)) (e_real (w_env W) s) = false ->
      refused a AssertionError
  | rf_name s x : a_lib a = ByName s -> ~ In "/"%char s ->
      fst (find_library (e_fs (w_env W)) (e_libdirs (w_env W)) s None) = Err x -> refused a x
  | rf_handle n x : a_lib a = ByHandle n -> fs_isfile (e_fs (w_env W)) n = false ->
      fst (find_library (e_fs (w_env W)) (e_libdirs (w_env W)) n None) = Err x -> refused a x.

  (** Where the definitions come from: a list of headers is read, a parser has been made before. *)
  Inductive source (parsers : list (store entry)) (a : cargs) : store entry -> Prop :=
  | so_list l s : a_headers a = HList l -> w_parse W (a_kwargs a) l = Ok s -> source parsers a s
  | so_parser p s : a_headers a = HParser p -> nth_error parsers p = Some s -> source parsers a s.
  (** Only a file that is given as a string is loaded, in one of the three ways. *)
  Inductive loaded (a : cargs) (path : str) : res unit -> Prop :=
  | lo_handle n : a_lib a = ByHandle n -> loaded a path (Ok tt)
  | lo_cdll s : a_lib a = ByName s -> a_convention a = $"cdll" -> loaded a path (w_load W path)
  | lo_windows s : a_lib a = ByName s -> a_convention a = $"windll" \/ a_convention a = $"oledll" ->
      e_platform (w_env W) = $"win32" -> loaded a path (w_load W path)
  | lo_elsewhere s : a_lib a = ByName s -> a_convention a = $"windll" \/ a_convention a = $"oledll" ->
      e_platform (w_env W) <> $"win32" -> loaded a path (Err NameError)
  | lo_unknown s : a_lib a = ByName s -> ~ In (a_convention a) [$"cdll"; $"windll"; $"oledll"] -> loaded a path (Err ValueError).
  (** The prefixes a call asks for. *)
  Definition wanted_prefixes (a : cargs) : list str :=
    match a_prefix a with NoPrefix => [] | OnePrefix p => [p] | Prefixes l => l end.
  (** What a new library is like: its definitions and its prefixes; or the exception instead of it. *)
  Inductive asks (parsers : list (store entry)) (path : str) (a : cargs) : res (store entry * list str) -> Prop :=
  | as_no_headers : a_headers a = HOther -> asks parsers path a (Err ValueError)
  | as_unread l x : a_headers a = HList l -> w_parse W (a_kwargs a) l = Err x -> asks parsers path a (Err x)
  | as_unloaded s x : source parsers a s -> loaded a path (Err x) -> asks parsers path a (Err x)
  | as_new s : source parsers a s -> loaded a path (Ok tt) -> asks parsers path a (Ok (s, wanted_prefixes a)).

  (** ** Histories *)
  (** The call [a] after [before] gives the library object [o]. *)
  Definition returns (fuel : nat) (before : list event) (a : cargs) (o : nat) : Prop :=
    fst (step W fuel (Open a) (run W fuel before)) = SLib (Ok o).
  (** An earlier call for the same file gave the object [o], which has not been dropped since. *)
  Definition alive (fuel : nat) (before : list event) (p : str) (o : nat) : Prop :=
    exists b1 c b2, before = b1 ++ Open c :: b2 /\ opens c p /\ returns fuel b1 c o /\ ~ In (Drop o) b2.
  (** The call [c] after [b1] makes the object [o]: no earlier call gave it. *)
  Definition makes (fuel : nat) (b1 : list event) (c : cargs) (o : nat) : Prop :=
    returns fuel b1 c o /\ forall b0 c' b', b1 = b0 ++ Open c' :: b' -> ~ returns fuel b0 c' o.
  (** The definitions of the parsers that have been made. *)
  Definition parsers_of (st : world) : list (store entry) := map p_tables (w_parsers st).
  (** The uses of one library among the events. *)
  Definition own_uses (o : nat) (evs : list event) : list use :=
    flat_map (fun ev => match ev with Use o' u => if Nat.eqb o' o then [u] else [] | _ => [] end) evs.
  (** The parser of a library object. *)
  Definition parser_of (st : world) (o : nat) : option nat := option_map m_parser (nth_error (w_libs st) o).
  (** No other library has the same parser. *)
  Definition alone (st : world) (o : nat) : Prop := forall o', parser_of st o' = parser_of st o -> o' = o.

  (** The library that is opened for the file [path] with these definitions and prefixes, on its own (C94, C95). *)
  Definition own_library (path : str) (s : store entry) (prefix : list str) : ObjModel.clib :=
    ObjModel.open_with (w_conf W) (w_table W) (eqb (e_platform (w_env W)) $"win32") s prefix (w_exports W path).
  (** After the program [evs], each use of the object [o] ends as in that library, of which only [l] has been used. *)
  Definition as_if_alone (fuel : nat) (evs : list event) (o : nat) (b : ObjModel.clib) (l : list use) : Prop :=
    forall u, fst (step W fuel (Use o u) (run W fuel evs))
      = SUse (Some (answer_of b fuel (w_takes W o) u (uses b fuel (w_takes W o) l (ObjModel.opened b)))).

  (** All libraries of the parser [q], with the definitions [s], are only used for what C94 and C95 are about. *)
  Definition orderly_parser (fuel : nat) (evs : list event) (q : nat) (s : store entry) (D : bool -> str -> Prop) : Prop :=
    forall b1 c b2 o path prefix, evs = b1 ++ Open c :: b2 -> makes fuel b1 c o -> opens c path ->
      asks (parsers_of (run W fuel b1)) path c (Ok (s, prefix)) -> parser_of (run W fuel evs) o = Some q ->
      ObjSpec.no_clash s prefix /\ Forall (orderly_use (w_conf W) (w_table W) s D prefix) (own_uses o b2).
End Programs.
