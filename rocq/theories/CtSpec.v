(** What C06 and C55-C60 say, independently of the model's algorithms. *)
From Coq Require Import Ascii String Bool Arith ZArith List.
Import ListNotations.
From Coq Require Import Permutation.
From Verif Require Import PyBase PyStr PyExpr TypeModel InitModel StoreModel DeclModel CtModel.

(** ** C06: spellings of the integer types, ISO C 6.7.2 *)
Definition words_of (ws : list str) : str := join $" " ws.
(** The multisets of words naming each type, and the ctypes type of the same C type. *)
Definition integer_types : list (list (list str) * str) :=
  [([[$"char"]], $"c_char"); ([[$"signed"; $"char"]], $"c_byte"); ([[$"unsigned"; $"char"]], $"c_ubyte");
   ([[$"short"]; [$"signed"; $"short"]; [$"short"; $"int"]; [$"signed"; $"short"; $"int"]], $"c_short");
   ([[$"unsigned"; $"short"]; [$"unsigned"; $"short"; $"int"]], $"c_ushort");
   ([[$"int"]; [$"signed"]; [$"signed"; $"int"]], $"c_int");
   ([[$"unsigned"]; [$"unsigned"; $"int"]], $"c_uint");
   ([[$"long"]; [$"signed"; $"long"]; [$"long"; $"int"]; [$"signed"; $"long"; $"int"]], $"c_long");
   ([[$"unsigned"; $"long"]; [$"unsigned"; $"long"; $"int"]], $"c_ulong");
   ([[$"long"; $"long"]; [$"signed"; $"long"; $"long"]; [$"long"; $"long"; $"int"];
     [$"signed"; $"long"; $"long"; $"int"]], $"c_longlong");
   ([[$"unsigned"; $"long"; $"long"]; [$"unsigned"; $"long"; $"long"; $"int"]], $"c_ulonglong")].
Definition spells (ws : list str) (c : str) : Prop :=
  exists sets m, In (sets, c) integer_types /\ In m sets /\ Permutation m ws.
(** Sign, then size, then int or char. *)
Definition in_order (ws : list str) : Prop :=
  exists sign sz base, ws = sign ++ sz ++ base
    /\ In sign [[]; [$"signed"]; [$"unsigned"]]
    /\ In sz [[]; [$"short"]; [$"long"]; [$"long"; $"long"]]
    /\ In base [[]; [$"int"]; [$"char"]].
Definition plain_spelling (ws : list str) : rty := CT (SName (words_of ws)) [] [Some []].

(** ** C55: the shape of a type *)
Definition special_pointers : list (str * str) :=
  [($"char", $"c_char_p"); ($"wchar", $"c_wchar_p"); ($"wchar_t", $"c_wchar_p"); ($"void", $"c_void_p")].
Definition pointer_to (c : pyt) : pyt := match c with PVoid => PBase $"c_void_p" | _ => PPtr c end.
(** The first length is that of the outermost array; -1: not known. *)
Definition arrays (ns : list Z) (c : pyt) : pyt :=
  fold_right (fun n u => if (n =? -1)%Z then pointer_to u else PArr u n) c ns.
Section Shape.
  Context (e : cenv) (st : cst).
  Inductive base_of : str -> pyt -> Prop :=
  | ba_table s v : dget (e_table e) s = Some v -> base_of s (of_tyval v)
  | ba_struct n i q : dget (e_table e) ($"struct " ++ n) = None ->
      dget (e_types e) ($"struct " ++ n) = Some (TyE (CT (SName $"struct") [DStr n] q)) ->
      dget (st_structs st) n = Some i -> base_of ($"struct " ++ n) (PClass i)
  | ba_union n i q : dget (e_table e) ($"union " ++ n) = None ->
      dget (e_types e) ($"union " ++ n) = Some (TyE (CT (SName $"union") [DStr n] q)) ->
      dget (st_structs st) n = Some i -> base_of ($"union " ++ n) (PClass i)
  | ba_enum n : dget (e_table e) ($"enum " ++ n) = None -> base_of ($"enum " ++ n) (PBase $"c_int")
  | ba_void : dget (e_table e) $"void" = None -> base_of $"void" PVoid.
  Definition starts_arr (ds : list rdecl) : bool := match ds with DArr _ :: _ => true | _ => false end.
  (** The array list [a] holds the one length [n]. *)
  Definition length_is (a : nat) (n : Z) : Prop := content (st_heap st) a = [ONum (VInt n)] /\ (-1 <= n)%Z.
  (** [shape t c]: [c] is the ctypes type of the shape of [t]; [applies c ds c']: the declarators [ds],
      applied to [c] from left to right, give [c']; a run of arrays is read with the first length
      outermost; a function only occurs behind a pointer; (void) means no parameters. *)
  Inductive shape : rty -> pyt -> Prop :=
  | sh_type t s ds q b c :
      eval_type (e_conf e) (e_types e) t = Ok (CT (SName s) ds q) ->
      base_of s b -> ~ (starts_ptr ds = true /\ In s (map fst special_pointers)) -> applies b ds c -> shape t c
  | sh_special t s ds q p c :
      eval_type (e_conf e) (e_types e) t = Ok (CT (SName s) (DStr $"*" :: ds) q) ->
      In (s, p) special_pointers -> applies (PBase p) ds c -> shape t c
  with applies : pyt -> list rdecl -> pyt -> Prop :=
  | ap_nil c : applies c [] c
  | ap_ptr c ds c' : applies (pointer_to c) ds c' -> applies c (DStr $"*" :: ds) c'
  | ap_ref c ds c' : applies (pointer_to c) ds c' -> applies c (DStr $"&" :: ds) c'
  | ap_arr c run ns ds c' :
      run <> [] -> Forall2 length_is run ns -> starts_arr ds = false -> c <> PVoid ->
      applies (arrays ns c) ds c' -> applies c (map DArr run ++ ds) c'
  | ap_fun c args cs ds c' :
      shapes args cs -> applies (PFun false c cs) ds c' -> applies c (DFun args :: DStr $"*" :: ds) c'
  | ap_conv c args cs ds c' conv :
      In conv [$"__cdecl"; $"__stdcall"] -> shapes args cs ->
      applies (PFun (eqb conv $"__stdcall") c cs) ds c' ->
      applies c (DFun args :: DStr conv :: DStr $"*" :: ds) c'
  with shapes : list (option str * rty * option str) -> list pyt -> Prop :=
  | ss_nil : shapes [] []
  | ss_void t v q : eval_type (e_conf e) (e_types e) t = Ok (CT (SName $"void") [] q) -> shapes [(None, t, v)] []
  | ss_cons n t v c args cs : shape t c -> c <> PVoid -> shapes args cs -> shapes ((n, t, v) :: args) (c :: cs).
End Shape.

(** The types of parameters in a type, and the types reached from a type by resolving and by
    looking at parameters. *)
Definition params_of (t : rty) : list rty :=
  flat_map (fun d => match d with DFun args => map (fun a => snd (fst a)) args | _ => [] end) (t_decls t).
Inductive reached (e : cenv) (t : rty) : rty -> Prop :=
| re_self : reached e t t
| re_param u r p : reached e t u -> eval_type (e_conf e) (e_types e) u = Ok r -> In p (params_of r) -> reached e t p.
(** No array directly of arrays. *)
Fixpoint no_adjacent (ds : list rdecl) : bool :=
  match ds with
  | DArr _ :: r => negb (starts_arr r) && no_adjacent r
  | _ :: r => no_adjacent r
  | [] => true
  end.
Definition flat (e : cenv) (t : rty) : Prop :=
  forall u r, reached e t u -> eval_type (e_conf e) (e_types e) u = Ok r -> no_adjacent (t_decls r) = true.
(** No pointer to a function pointer; the calling convention __stdcall only on Windows. *)
Definition one_star (d : rdecl) : bool := match look_at d with LOther => true | _ => false end.
Fixpoint simple_functions (win : bool) (ds : list rdecl) : bool :=
  match ds with
  | DFun _ :: DStr a :: r =>
      if eqb a $"*" then match r with d :: _ => one_star d | [] => true end && simple_functions win r
      else if eqb a $"__stdcall" then win && simple_functions win r else simple_functions win r
  | _ :: r => simple_functions win r
  | [] => true
  end.
Definition supported (e : cenv) (t : rty) : Prop :=
  forall u r, reached e t u -> eval_type (e_conf e) (e_types e) u = Ok r ->
    no_adjacent (t_decls r) = true /\ simple_functions (e_win e) (t_decls r) = true
    /\ forall p, In p (params_of r) -> ~ exists q, eval_type (e_conf e) (e_types e) p = Ok (CT (SName $"void") [] q).
Definition is_data (ds : list rdecl) : bool := forallb (fun d => match d with DFun _ => false | _ => true end) ds.
Definition refs (ds : list rdecl) : list nat := flat_map (fun d => match d with DArr a => [a] | _ => [] end) ds.
(** Requests given enough nesting depth. *)
Definition gives {A} (m : nat -> M A) (st : cst) (r : res A * cst) : Prop :=
  exists F, forall fuel, F <= fuel -> m fuel st = r.

(** ** C56, C57: definitions and classes *)
(** The tagged names of the type table belong to definitions; no tag is used twice. *)
Definition tags_known (e : cenv) : Prop :=
  (forall s n, starts_with $"struct " s = true -> tag_entry e s = Ok n -> s = $"struct " ++ n /\ dmem (e_structs e) n = true)
  /\ (forall s n, starts_with $"union " s = true -> tag_entry e s = Ok n -> s = $"union " ++ n /\ dmem (e_unions e) n = true)
  /\ (forall n, dmem (e_structs e) n = true -> dmem (e_unions e) n = false).
Definition member_types (e : cenv) : list rty :=
  flat_map (fun p => map sm_type (sd_members (snd p))) (e_structs e ++ e_unions e).
(** No definition contains arrays of arrays. *)
Definition flat_members (e : cenv) : Prop := forall m, In m (member_types e) -> flat e m.

Inductive request : Type := RType (t : rty) | RComp (union : bool) (n : str).
Definition serve (e : cenv) (fuel : nat) (r : request) (st : cst) : cst :=
  match r with
  | RType t => snd (get_type e fuel true t st)
  | RComp u n => snd (get_struct e fuel u n st)
  end.
Definition history (e : cenv) (fuel : nat) (rs : list request) (st : cst) : cst :=
  fold_left (fun s r => serve e fuel r s) rs st.
Definition plain_request (e : cenv) (r : request) : Prop :=
  match r with RType t => flat e t | RComp u n => dmem (e_comps e u) n = true end.
(** Structures and unions are asked for by their own names. *)
Definition by_name (e : cenv) (r : request) : Prop :=
  match r with RType _ => True | RComp u n => dmem (e_comps e u) n = true end.
Definition tag_of (u : bool) : str := if u then $"union " else $"struct ".
(** The state after the headers have been read. *)
Definition start (h : list (list pobj)) : cst := {| st_heap := h; st_structs := []; st_classes := [] |}.

(** Names occurring in a type, also in its parameters. *)
Fixpoint names_in (t : rty) : list str :=
  match t with
  | CT s ds _ =>
      match s with SName n => [n] | SType u => names_in u end
      ++ flat_map (fun d => match d with DFun args => flat_map (fun a => names_in (snd (fst a))) args | _ => [] end) ds
  end.
(** Every typedef only uses typedefs of lower rank, as when each is declared before its use. *)
Definition ordered_typedefs (e : cenv) : Prop :=
  exists rank : str -> nat, forall s t n,
    is_fund (e_conf e) s = false -> dget (e_types e) s = Some (TyE t) ->
    In n (names_in t) -> is_fund (e_conf e) n = false -> rank n < rank s.

(** ** C58, C59: fields *)
(** The fields of a class made for a definition. *)
Definition widths (fs : list field) : list (option pobj) := map fd_width fs.
Definition declared_names (ms : list smember) : list str :=
  flat_map (fun m => match sm_name m with Some n => [n] | None => [] end) ms.
Definition reserved (n : str) : Prop := exists k : nat, n = $"anon_member" ++ dec k.
(** No declared member behind an anonymous one has a name of the form anon_memberN. *)
Definition no_clash (ms : list smember) : Prop :=
  forall l1 m l2 n, ms = l1 ++ m :: l2 -> sm_name m = None -> In n (declared_names l2) -> ~ reserved n.

(** ** C60: indexing *)
(** An array of length n1 of arrays of length n2 ... *)
Definition nested (ns : list Z) (c : pyt) : pyt := fold_right (fun n u => PArr u n) c ns.
(** The type of [x[i1]...[ik]] for an [x] of type [t]; None: an index out of range. *)
Fixpoint element (t : pyt) (is : list Z) {struct is} : option pyt :=
  match is with
  | [] => Some t
  | i :: r => match t with PArr u n => if (0 <=? i)%Z && (i <? n)%Z then element u r else None | _ => None end
  end.

(** ** C06: the table holds the standard types *)
Definition knows_standard (e : cenv) : Prop := forall s v, dget std_types s = Some v -> dget (e_table e) s = Some v.
