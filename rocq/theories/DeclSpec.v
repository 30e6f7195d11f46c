(** What the properties C39-C46 say, independently of the model's algorithms. *)
From Coq Require Import Ascii String Bool Arith ZArith List.
Import ListNotations.
From Verif Require Import PyBase PyStr PyExpr TypeModel StoreModel StoreSpec DeclModel.

(** ** C types *)
(** Qualifiers, array lengths and function parameters (name, type, default text) included.
    [TConv c t]: the type [t] marked with a calling convention. *)
Inductive cty :=
| TBase (q : list str) (s : str)
| TPtr (q : list str) (t : cty)
| TRef (q : list str) (t : cty)
| TArr (q : list str) (n : pobj) (t : cty)
| TFun (q : list str) (args : list (option str * cty * option str)) (t : cty)
| TConv (c : str) (t : cty).

(** Qualifying a type. *)
Fixpoint qualify (q : list str) (t : cty) : cty :=
  match t with
  | TBase p s => TBase (p ++ q) s
  | TPtr p t => TPtr (p ++ q) t
  | TRef p t => TRef (p ++ q) t
  | TArr p n t => TArr (p ++ q) n t
  | TFun p a t => TFun (p ++ q) a t
  | TConv c t => TConv c (qualify q t)
  end.

(** The name a declarator declares. *)
Fixpoint c_name (d : dtree) : option str :=
  match d with
  | DNode _ _ _ core _ _ =>
      match core with Named _ n => Some n | Abstract _ => None | Center c => c_name c end
  end.
(** The type C gives to the name declared by [d] after a specifier of type [t] (ISO C 6.7.6,
    with C++ references): a star makes the rest declare with a pointer to [t]; brackets
    behind the rest make it declare with an array of [t], parameters behind it with a
    function returning [t]; suffixes bind stronger than stars and the last of them is
    applied first; parentheses only group.  [dim] gives the lengths. *)
Fixpoint c_type (dim : str -> pobj) (d : dtree) (t : cty) : cty :=
  match d with
  | DNode firstq conv ptrs core args arrays =>
      let t0 := qualify firstq t in
      let t1 := match conv with Some c => TConv c t0 | None => t0 end in
      let t2 := fold_left (fun u q => TPtr q u) ptrs t1 in
      let t3 := fold_right (fun x u => TArr [] (dim x) u) t2 arrays in
      let t4 := match args with
                | None => t3
                | Some l => TFun [] (map (fun a => match a with
                                                   | Arg b d' v => (c_name d', c_type dim d' (TBase (b_qual b) (b_name b)), v)
                                                   end) l) t3
                end in
      match core with
      | Named ref _ | Abstract ref => if ref then TRef [] t4 else t4
      | Center c => c_type dim c t4
      end
  end.

(** ** Reading a recorded type *)
(** The modifiers apply from left to right to the base; the arrays of a run are given in the
    order in which they are indexed (ctypes backend: first dimension outermost).  [run]: the
    arrays met since the last other modifier. *)
Definition close_run (run : list (list str * pobj)) (t : cty) : cty :=
  fold_right (fun x u => TArr (fst x) (snd x) u) t run.
Section Read.
  Context (rdt : aty -> option cty).
  Fixpoint read_args (l : list (option str * aty * option str))
    : option (list (option str * cty * option str)) :=
    match l with
    | [] => Some []
    | (n, a, v) :: l' =>
        match rdt a, read_args l' with
        | Some t, Some r => Some ((n, t, v) :: r)
        | _, _ => None
        end
    end.
  Fixpoint read_decls (ds : list adecl) (qs : list qual) (t : cty) (run : list (list str * pobj))
    : option (cty * list (list str * pobj)) :=
    match ds with
    | [] => match qs with [] => Some (t, run) | _ => None end
    | d :: ds' =>
        match qs with
        | [] => None
        | q :: qs' =>
            match d, q with
            | DArr [n], Some q => read_decls ds' qs' t (run ++ [(q, n)])
            | DFun args, Some q =>
                match read_args args with
                | Some l => read_decls ds' qs' (TFun q l (close_run run t)) []
                | None => None
                end
            | DStr s, Some q =>
                if eqb s $"*" then read_decls ds' qs' (TPtr q (close_run run t)) []
                else if eqb s $"&" then read_decls ds' qs' (TRef q (close_run run t)) []
                else None
            | DStr s, None => read_decls ds' qs' (TConv s (close_run run t)) []
            | _, _ => None
            end
        end
    end.
End Read.
Fixpoint read_type (t : aty) : option cty :=
  match t with
  | CT (SName s) ds (Some q :: qs) =>
      match read_decls read_type ds qs (TBase q s) [] with
      | Some (u, run) => Some (close_run run u)
      | None => None
      end
  | _ => None
  end.

(** ** Shapes of declarators *)
(** [p] holds of the declarator, of the parenthesised ones inside and of the parameters. *)
Fixpoint every (p : dtree -> bool) (d : dtree) : bool :=
  match d with
  | DNode _ _ _ core args _ =>
      p d
      && match core with Center c => every p c | _ => true end
      && match args with
         | None => true
         | Some l => forallb (fun a => match a with Arg _ d' _ => every p d' end) l
         end
  end.
(** No qualifier at the beginning of a parenthesised declarator (C allows none there). *)
Definition no_inner_qual (d : dtree) : bool :=
  match d with
  | DNode _ _ _ (Center (DNode (_ :: _) _ _ _ _ _)) _ _ => false
  | _ => true
  end.
(** An array as in [x[2]], [(x[2])], [(x)[2]]: brackets and no star. *)
Fixpoint is_array (d : dtree) : bool :=
  match d with
  | DNode _ None [] core args arrays =>
      match arrays with
      | _ :: _ => true
      | [] => match args, core with None, Center c => is_array c | _, _ => false end
      end
  | _ => false
  end.
(** Not of the form [(x[2])[3]]: brackets behind a parenthesised array. *)
Definition no_split_array (d : dtree) : bool :=
  match d with
  | DNode _ _ _ (Center c) None (_ :: _) => negb (is_array c)
  | _ => true
  end.
(** Not of the form [__stdcall (...)]: a calling convention directly before a parenthesis that
    nothing follows. *)
Definition no_bare_conv (d : dtree) : bool :=
  match d with
  | DNode _ (Some _) [] (Center _) None [] => false
  | _ => true
  end.
(** The type is a function type. *)
Fixpoint is_function (t : cty) : bool :=
  match t with TFun _ _ _ => true | TConv _ u => is_function u | _ => false end.
(** Not of the form [(__stdcall f)(...)]: no parenthesised declarator consisting of a calling
    convention and the name. *)
Definition conv_and_name (d : dtree) : bool :=
  match d with
  | DNode _ (Some _) [] (Named false _ | Abstract false) None [] => true
  | _ => false
  end.
Fixpoint no_conv_name (d : dtree) : bool :=
  match d with
  | DNode _ _ _ (Center c) _ _ => negb (conv_and_name c) && no_conv_name c
  | _ => true
  end.
(** Declarators of C: every one the grammar produces, but for the forms above. *)
Definition c_syntax (d : dtree) : bool := no_bare_conv d && no_inner_qual d && no_split_array d.
Definition names_of (l : list dtree) : list (option str) := map c_name l.

(** ** Definitions *)
(** The kinds of tagged definitions: keyword and table. *)
Definition tag_kinds : list (str * kind) :=
  [($"struct", Structs); ($"union", Unions); ($"enum", Enums)].
Definition tag_name (kw n : str) : str := kw ++ $" " ++ n.

(** A tagged entry of the type table belongs to a definition. *)
Definition tags_ok (s : store entry) : Prop :=
  forall kw k n v, In (kw, k) tag_kinds -> defined s Types (tag_name kw n) = Some v ->
    exists w, defined s k n = Some w.
(** The type is a function type, given the recorded type definitions. *)
Inductive c_function (s : store entry) : cty -> Prop :=
| cf_fun q a t : c_function s (TFun q a t)
| cf_conv c t : c_function s t -> c_function s (TConv c t)
| cf_name q m t u :
    defined s Types m = Some (EType t) -> read_type t = Some u -> c_function s u ->
    c_function s (TBase q m).

(** Declared names contain no blanks. *)
Definition plain_names (a : action) : Prop :=
  match a with
  | ATypedef _ l => forall d n, In d l -> c_name d = Some n -> ~ In sp n
  | _ => True
  end.
(** [a] is a definition, with members, of the structure or union [n]. *)
Definition defines_comp (c : comp) (n : str) (a : action) : Prop :=
  exists x l p, a = AComp c (Some n) (x :: l) p.

(** The members a line declares: names and types in the order of the declarators, all with
    the bit width of the line. *)
Definition base_type (b : bspec) : cty := TBase (b_qual b) (b_name b).
Definition declared (dim : str -> pobj) (l : mline) : list (option str * cty) :=
  match l_decls l with
  | [] => [(None, base_type (l_type l))]
  | ds => map (fun d => (c_name d, c_type dim d (base_type (l_type l)))) ds
  end.
(** A width in decimal digits. *)
Definition width_of (b : option str) (w : option Z) : Prop :=
  match b, w with
  | None, None => True
  | Some t, Some z => t <> [] /\ forallb is_digit t = true /\ z = zval t
  | _, _ => False
  end.
Definition recorded (b : option str) (m : member) (x : option str * cty) : Prop :=
  m_name m = fst x /\ read_type (m_type m) = Some (snd x) /\ width_of b (m_bit m).

(** The members of all lines, each with the text of its bit width. *)
Definition declared_all (dim : str -> pobj) (ls : list mline) : list (option str * (option str * cty)) :=
  flat_map (fun l => map (pair (l_bit l)) (declared dim l)) ls.
(** Lines the theorem on members is about: declarators of C, widths in decimal digits; an
    anonymous member has no qualifier. *)
Definition plain_line (l : mline) : Prop :=
  forallb (every c_syntax) (l_decls l) = true
  /\ match l_bit l with Some t => t <> [] /\ forallb is_digit t = true | None => True end
  /\ (l_decls l = [] -> b_qual (l_type l) = []).

(** The value an initialiser gives: that of its expression, or the list of those of its expressions; None if
    there is none, or if one of them cannot be evaluated. *)
Inductive initial_value (value : str -> res pobj) : init -> pobj -> Prop :=
| iv_none : initial_value value NoInit ONone
| iv_value t v : value t = Ok v -> initial_value value (IVal t) v
| iv_failed t e : value t = Err e -> initial_value value (IVal t) ONone
| iv_values ts vs : Forall2 (fun t v => value t = Ok v) ts vs -> initial_value value (IArr ts) (OList vs)
| iv_failed_one ts t e : In t ts -> value t = Err e -> initial_value value (IArr ts) ONone.

(** The initialiser of a declarator, given those behind it in its declaration: the grammar
    (c_parser.py:1303-1313) has at most one initialiser, behind the last declarator. *)
Definition own_init (behind : list dtree) (i : init) : init :=
  match behind with [] => i | _ => NoInit end.

(** Everything recorded as a value is a Python value. *)
Definition typed_values (s : store entry) : Prop :=
  forall n e, In (n, e) (defs s Values) -> exists v, e = EVal v.

(** [vs] are the values of the enumerators [l], each with the value Python computes for its
    expression, given the values before it, or else one more than its predecessor; [next] is the
    value of a first enumerator without expression. *)
Section Enum.
  Context (ev : dict str pobj -> str -> res pobj).
  Inductive counts : dict str pobj -> pobj -> list (str * option str) -> list (str * pobj) -> Prop :=
  | counts_end env i : counts env i [] []
  | counts_next env i n l v vs :
      plus_one i = Ok v -> counts (dset env n i) v l vs ->
      counts env i ((n, None) :: l) ((n, i) :: vs)
  | counts_given env i n e l w v vs :
      ev env e = Ok w -> plus_one w = Ok v -> counts (dset env n w) v l vs ->
      counts env i ((n, Some e) :: l) ((n, w) :: vs).
End Enum.
