(** Model of what a library object makes of the tables of its headers: pyclibrary/c_library.py:174-182
    (the definitions are those of the parser) and 399-415 (functions). *)
From Coq Require Import Ascii String Bool Arith ZArith List.
Import ListNotations.
From Verif Require Import PyBase PyStr PyExpr TypeModel InitModel StoreModel StoreSpec DeclModel CtModel.

(** ** The objects in the tables
    c_library.py:182, [self._defs_ = self._headers_.defs]: the backend works on the very objects the
    parser recorded.  The tables of the parser hold the contents of array lists, those of the
    backend refer to lists by number; [open] gives each list of a type a number of its own.
    Simplification: no two recorded types share a list (each is made by its own parse action,
    c_parser.py:1405; types read from a cache are separate as well). *)
Definition heap : Type := list (list pobj).
Section OpenList.
  Context {A B : Type} (f : A -> heap -> B * heap).
  (** The same for the elements of a list (c_library.py:182). *)
  Fixpoint open_list (l : list A) (h : heap) : list B * heap :=
    match l with
    | [] => ([], h)
    | x :: r => let (y, h1) := f x h in let (ys, h2) := open_list r h1 in (y :: ys, h2)
    end.
End OpenList.
(** A type of the parser (c_parser.py:1405, 1413-1421) with numbers in the place of its array lists. *)
Fixpoint open (t : aty) (h : heap) : rty * heap :=
  match t with
  | CT s ds qs =>
      let (s', h1) := match s with
                      | SName n => (SName n, h)
                      | SType u => let (u', h') := open u h in (SType u', h')
                      end in
      let (ds', h2) :=
        open_list (fun d h =>
          match d with
          | DStr x => (DStr x, h)
          | DArr l => (DArr (length h), h ++ [l])
          | DFun args =>
              let (args', h') := open_list (fun a h =>
                let (u, h') := open (snd (fst a)) h in ((fst (fst a), u, snd a), h')) args h in
              (DFun args', h')
          end) ds h1 in
      (CT s' ds' qs, h2)
  end.
(** The way back: the contents of the lists (c_library.py:182). *)
Fixpoint fill (h : heap) (t : rty) : aty :=
  match t with
  | CT s ds qs =>
      CT match s with SName n => SName n | SType u => SType (fill h u) end
         (map (fun d => match d with
                        | DStr x => DStr x
                        | DArr a => DArr (content h a)
                        | DFun args => DFun (map (fun a => (fst (fst a), fill h (snd (fst a)), snd a)) args)
                        end) ds)
         qs
  end.
(** An entry of the table of types, c_parser.py:1507, 1594, 1629; other objects come from the keyword [types] (530-532). *)
Definition open_type (x : str * entry) (h : heap) : (str * tentry nat) * heap :=
  match snd x with
  | EType t => let (u, h') := open t h in ((fst x, TyE u), h')
  | _ => ((fst x, RawE), h)
  end.
(** A member, c_parser.py:1576-1587. *)
Definition open_member (m : member) (h : heap) : smember * heap :=
  let (u, h') := open (m_type m) h in
  ({| sm_name := m_name m; sm_type := u; sm_val := m_val m; sm_bit := m_bit m |}, h').
(** The tables of structures and unions only hold structures and unions (c_parser.py:1593). *)
Definition open_comp (x : str * entry) (h : heap) : (str * sdef) * heap :=
  match snd x with
  | EComp ms p => let (ms', h') := open_list open_member ms h in ((fst x, {| sd_members := ms'; sd_pack := p |}), h')
  | _ => ((fst x, {| sd_members := []; sd_pack := None |}), h)
  end.
(** The table of functions only holds functions (c_parser.py:1524, 1612). *)
Definition open_function (x : str * entry) (h : heap) : (str * rty) * heap :=
  match snd x with
  | EFun t => let (u, h') := open t h in ((fst x, u), h')
  | _ => ((fst x, CT (SName []) [] []), h)
  end.
(** A library object: definitions, lists and signatures.  [cf], [table] and [win]: the words of the
    parser, the table [_types_] and the platform (c_library.py:174-182). *)
Record library := { l_env : cenv; l_heap : heap; l_functions : dict str rty }.
(** c_library.py:174-182 with the tables of the parser. *)
Definition load (cf : tconf) (table : dict str tyval) (win : bool) (s : store entry) : library :=
  let (types, h1) := open_list open_type (defs s Types) [] in
  let (structs, h2) := open_list open_comp (defs s Structs) h1 in
  let (unions, h3) := open_list open_comp (defs s Unions) h2 in
  let (funs, h4) := open_list open_function (defs s Functions) h3 in
  {| l_env := {| e_conf := cf; e_types := types; e_structs := structs; e_unions := unions;
                 e_table := table; e_win := win |};
     l_heap := h4; l_functions := funs |}.

(** ** Functions *)
(** [s[1] != ("void",)], c_library.py:409; qualifiers are not compared with a plain tuple. *)
Definition void_type (t : rty) : bool :=
  match t with CT (SName s) [] _ => eqb s $"void" | _ => false end.
(** [conv in self.sig[0]], c_library.py:411. *)
Definition has_elem (s : str) (t : rty) : bool :=
  match t_spec t with SName x => eqb s x | SType _ => false end
  || existsb (fun d => match d with DStr x => eqb s x | _ => false end) (t_decls t).
(** [CFunction.__init__], c_library.py:399-415, for a signature as recorded: the types of the result
    and of the arguments, [res_type] and [arg_types], which [_init_function] hands to ctypes
    (backends/ctypes.py:388-391).  A [Type] has no method [remove]. *)
Definition wrap_types (e : cenv) (fuel : nat) (sig : rty) : M (pyt * list pyt) :=
  match sig with
  | CT (SType r) [DFun params] _ =>
      if has_elem $"__stdcall" r || has_elem $"__cdecl" r then fail AttributeError
      else
        c <-- get_type e fuel true r ;;
        cs <-- mapMM (fun p => get_type e fuel true (snd (fst p)))
                 (filter (fun p => negb (void_type (snd (fst p)))) params) ;;
        ret (c, cs)
  | _ => fail OtherError
  end.

(** ** Arguments left out *)
(** [self.sig[1]], c_library.py:409. *)
Definition sig_params (sig : rty) : list (option str * rty * option str) :=
  match sig with
  | CT _ [DFun params] _ => filter (fun p => negb (void_type (snd (fst p)))) params
  | _ => []
  end.
(** An AssertionError is reported as TypeError, c_library.py:485-489. *)
Definition no_assertion {A} (m : M A) : M A := fun st =>
  match m st with (Err AssertionError, st') => (Err TypeError, st') | x => x end.
(** c_library.py:470-471, 481-483 and backends/ctypes.py:350-362, for argument [i] of a call which does
    not give it: the type of the object [pointer(cls())] that is made. *)
Definition auto_arg (e : cenv) (fuel : nat) (sig : rty) (i : nat) : M pyt :=
  match nth_error (sig_params sig) i with
  | None => fail IndexError
  | Some p => no_assertion (r <-- lift (eval_type (e_conf e) (e_types e) (snd (fst p))) ;;
                            c <-- get_pointer e fuel r (snd (fst p)) ;; ret (PPtr c))
  end.
(** c_library.py:470-479, for an argument given as None: the type of the object [_get_type(sig)()]. *)
Definition null_arg (e : cenv) (fuel : nat) (sig : rty) (i : nat) : M pyt :=
  match nth_error (sig_params sig) i with
  | None => fail IndexError
  | Some p => no_assertion (r <-- lift (eval_type (e_conf e) (e_types e) (snd (fst p))) ;;
                            match t_decls r with
                            | [] => fail TypeError
                            | _ => get_type e fuel true (snd (fst p))
                            end)
  end.
