(** Model of pyclibrary/init.py and of what it sets in the parser and in the ctypes backend. *)
From Coq Require Import Ascii String Bool Arith ZArith List.
Import ListNotations.
From Verif Require Import PyBase PyStr.

(** The values of the table of types of the backend: None, a class of the module ctypes (given
    by the name the code uses for it) or another object, given by the caller.
    Simplification: names such as c_int32 and c_int, that ctypes may bind to one class, are kept
    apart. *)
Inductive tyval : Type := TyNone | TyC (name : str) | TyOther (id : nat).

(** The standard types, backends/ctypes.py:404-439. *)
Definition std_types : dict str tyval :=
  [($"bool", TyC $"c_bool"); ($"char", TyC $"c_char"); ($"wchar", TyC $"c_wchar");
   ($"wchar_t", TyC $"c_wchar"); ($"unsigned char", TyC $"c_ubyte"); ($"short", TyC $"c_short");
   ($"short int", TyC $"c_short"); ($"unsigned short", TyC $"c_ushort");
   ($"unsigned short int", TyC $"c_ushort"); ($"int", TyC $"c_int"); ($"unsigned", TyC $"c_uint");
   ($"unsigned int", TyC $"c_uint"); ($"long", TyC $"c_long"); ($"long int", TyC $"c_long");
   ($"unsigned long", TyC $"c_ulong"); ($"unsigned long int", TyC $"c_ulong");
   ($"long unsigned int", TyC $"c_ulong"); ($"long long", TyC $"c_longlong");
   ($"long long int", TyC $"c_longlong"); ($"unsigned long long", TyC $"c_ulonglong");
   ($"unsigned long long int", TyC $"c_ulonglong"); ($"float", TyC $"c_float");
   ($"double", TyC $"c_double"); ($"long double", TyC $"c_longdouble"); ($"uint8_t", TyC $"c_uint8");
   ($"int8_t", TyC $"c_int8"); ($"uint16_t", TyC $"c_uint16"); ($"int16_t", TyC $"c_int16");
   ($"uint32_t", TyC $"c_uint32"); ($"int32_t", TyC $"c_int32"); ($"uint64_t", TyC $"c_uint64");
   ($"int64_t", TyC $"c_int64"); ($"size_t", TyC $"c_size_t"); ($"ssize_t", TyC $"c_ssize_t")].
(** [WIN_TYPES] of backends/ctypes.py:395-399. *)
Definition ct_win_types : dict str tyval :=
  [($"__int64", TyC $"c_longlong"); ($"unsigned __int64", TyC $"c_ulonglong"); ($"HRESULT", TyC $"HRESULT")].

(** [d.update(e)] (init.py:78, backends/ctypes.py:450). *)
Definition dupdate {A} (d e : dict str A) : dict str A := fold_left (fun a kv => dset a (fst kv) (snd kv)) e d.

(** [init_clibrary], backends/ctypes.py:402-450: the table [_types_] and the dictionary given as
    argument, after the call. *)
Definition init_clibrary (platform : str) (ge312 : bool) (extra : dict str tyval)
  : dict str tyval * dict str tyval :=
  let e1 := if eqb platform $"win32" then
              map (fun kv => match dget ct_win_types (fst kv) with
                             | Some v => (fst kv, v) | None => kv end) extra
            else extra in
  let e2 := if ge312 then dset e1 $"time_t" (TyC $"c_time_t") else e1 in
  (dupdate std_types e2, e2).

(** What the module variables and class attributes hold: the flags [CParser._init] and
    [CLibrary._init], [extra_type_list] and the modifiers of the parser (c_parser.py:1846-1903),
    and [CTypesCLibrary._types_].
    Simplification: of the grammar elements [_init_cparser] builds only these lists are kept. *)
Record world := {
  w_parser : bool;
  w_library : bool;
  w_extra : list str;
  w_mods : list str;
  w_types : dict str tyval }.
(** After importing the package (c_parser.py:467, c_library.py:156, backends/ctypes.py:137). *)
Definition fresh : world :=
  {| w_parser := false; w_library := false; w_extra := []; w_mods := []; w_types := [] |}.

(** [x if x else ...] (init.py:36-37, 74-75). *)
Definition truthy {A} (o : option (list A)) : bool := match o with Some (_ :: _) => true | _ => false end.
(** [x if x else {}], [x if x else []], init.py:36-37, 74-75. *)
Definition or_empty {A} (o : option (list A)) : list A := match o with Some l => l | None => [] end.

(** [init], init.py:22-43: outcome, new state, and the arguments of the caller after the call. *)
Definition init (platform : str) (ge312 : bool) (types : option (dict str tyval))
           (mods : option (list str)) (w : world)
  : res unit * world * (option (dict str tyval) * option (list str)) :=
  if w_parser w || w_library w then (Err RuntimeError, w, (types, mods))
  else
    let et := or_empty types in
    let em := or_empty mods in
    let '(table, et') := init_clibrary platform ge312 et in
    (Ok tt,
     {| w_parser := true; w_library := true; w_extra := keys et; w_mods := em; w_types := table |},
     (if truthy types then Some et' else types, mods)).

(** [WIN_TYPES] and [WIN_MODIFIERS], init.py:46-57. *)
Definition win_types : dict str tyval := [($"__int64", TyNone)].
(** [WIN_MODIFIERS], init.py:47-57. *)
Definition win_modifiers : list str :=
  [$"__based"; $"__declspec"; $"__fastcall"; $"__restrict"; $"__sptr"; $"__uptr"; $"__w64";
   $"__unaligned"; $"__nullterminated"].

(** [auto_init], init.py:60-81.  The dictionary passed on to [init] is the one of the caller if
    that is not empty; what [init] does to it is seen by the caller only then. *)
Definition auto_init (platform : str) (ge312 : bool) (types : option (dict str tyval))
           (mods : option (list str)) (os : option str) (w : world)
  : res unit * world * (option (dict str tyval) * option (list str)) :=
  let win := eqb os (Some $"win32") || eqb platform $"win32" in
  let et := if win then dupdate (or_empty types) win_types else or_empty types in
  let em := if win then or_empty mods ++ win_modifiers else or_empty mods in
  let '(r, w', (t', _)) := init platform ge312 (Some et) (Some em) w in
  (r, w', (if truthy types then t' else types, if truthy mods then Some em else mods)).

(** The calls that initialise: [init], [auto_init], and the creation of a parser, which runs
    [auto_init()] if the flag is not set, c_parser.py:480-484. *)
Inductive call : Type :=
| CInit (types : option (dict str tyval)) (mods : option (list str))
| CAuto (types : option (dict str tyval)) (mods : option (list str)) (os : option str)
| CNewParser.
(** init.py:22-43, 60-81 and c_parser.py:480-484. *)
Definition do_call (platform : str) (ge312 : bool) (c : call) (w : world)
  : res unit * world * (option (dict str tyval) * option (list str)) :=
  match c with
  | CInit t m => init platform ge312 t m w
  | CAuto t m os => auto_init platform ge312 t m os w
  | CNewParser => if w_parser w then (Ok tt, w, (None, None))
                  else auto_init platform ge312 None None None w
  end.
(** The calls one after the other.  Not in /repo: what a program may do. *)
Fixpoint run (platform : str) (ge312 : bool) (cs : list call) (w : world) : list (res unit) * world :=
  match cs with
  | [] => ([], w)
  | c :: r => let '(o, w1, _) := do_call platform ge312 c w in
              let (os, w2) := run platform ge312 r w1 in (o :: os, w2)
  end.
