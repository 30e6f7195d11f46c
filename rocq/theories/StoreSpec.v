(** What the properties C10-C18 say, independently of the model's tables. *)
From Coq Require Import Ascii String Bool Arith ZArith List.
Import ListNotations.
From Verif Require Import PyBase PyStr StoreModel.

Section Spec.
  Context {V : Type}.

  (** Looking up a definition: globally, and in the tables of one file. *)
  Definition defined (s : store V) (k : kind) (n : str) : option V := dget (defs s k) n.
  Definition defined_in (s : store V) (f : option str) (k : kind) (n : str) : option V :=
    match dget (fdefs s) f with Some t => dget (t k) n | None => None end.

  (** The additions of a history, each with the base name of the file that was current;
      [c] is the base name at the beginning. *)
  Definition addition := (option str * kind * str * V)%type.
  Fixpoint additions (c : option str) (h : list (op V)) : list addition :=
    match h with
    | [] => []
    | Add k n v :: r => (c, k, n, v) :: additions c r
    | Rem _ _ :: r => additions c r
    | Switch f :: r => additions (option_map basename f) r
    end.

  (** [v] is the value of the last element of [l] satisfying [P]. *)
  Definition latest (P : addition -> Prop) (l : list addition) (v : V) : Prop :=
    exists a f k n b, l = a ++ (f, k, n, v) :: b /\ P (f, k, n, v)
                      /\ forall e, In e b -> ~ P e.
  Definition names (k : kind) (n : str) (e : addition) : Prop :=
    match e with (_, k', n', _) => k' = k /\ n' = n end.
  Definition names_in (f : option str) (k : kind) (n : str) (e : addition) : Prop :=
    match e with (f', k', n', _) => f' = f /\ k' = k /\ n' = n end.

  Definition no_removal (h : list (op V)) : Prop := forall k n, ~ In (Rem k n) h.

  (** The files in the order in which they got their first definition. *)
  Fixpoint first_seen (seen : list (option str)) (l : list addition) : list (option str) :=
    match l with
    | [] => seen
    | (f, _, _, _) :: r => first_seen (if mem f seen then seen else seen ++ [f]) r
    end.

  (** A file that has been left is never returned to ([c]: current file, [seen]: files
      left). *)
  Fixpoint one_pass (seen : list (option str)) (c : option str) (h : list (op V)) : Prop :=
    match h with
    | [] => True
    | Switch f :: r =>
        let b := option_map basename f in
        (b = c \/ ~ In b (c :: seen)) /\ one_pass (if eqb b c then seen else c :: seen) b r
    | _ :: r => one_pass seen c r
    end.
  (** A name is removed only in the file which made all its definitions so far. *)
  Fixpoint local_removals (past : list addition) (c : option str) (h : list (op V)) : Prop :=
    match h with
    | [] => True
    | Add k n v :: r => local_removals (past ++ [(c, k, n, v)]) c r
    | Rem k n :: r =>
        (forall f v, In (f, k, n, v) past -> f = c) /\ local_removals past c r
    | Switch f :: r => local_removals past (option_map basename f) r
    end.

  (** Every file entry has all nine tables. *)
  Definition complete (d : fdata V) : Prop :=
    forall f t, In (f, t) d -> forall k, dget t k <> None.
  (** The definitions listed in a dictionary laid out as [file_defs], in the order in which
      they are imported. *)
  Definition listed (d : fdata V) : list addition :=
    flat_map (fun p => flat_map (fun k =>
        map (fun e => (option_map basename (fst p), k, fst e, snd e))
            (match dget (snd p) k with Some t => t | None => [] end)) all_kinds) d.

  (** Same mapping, whatever the order of the entries. *)
  Definition same_map {K A} `{Eqb K} (R : A -> A -> Prop) (a b : dict K A) : Prop :=
    forall k, match dget a k, dget b k with
              | Some x, Some y => R x y
              | None, None => True
              | _, _ => False
              end.

  (** Equal options: the same keyword arguments with equal values, the same base names in
      the same order, the same replacements for each of them. *)
  Definition same_replace (a b : option (dict str str)) : Prop :=
    match a, b with
    | Some x, Some y => same_map eq x y
    | None, None => True
    | _, _ => False
    end.
  Definition same_opts (veq : V -> V -> bool) (a b : opts V) : Prop :=
    same_map (same_map (fun x y => veq x y = true)) (o_kw a) (o_kw b)
    /\ o_files a = o_files b
    /\ same_map same_replace (o_replace a) (o_replace b).
  (** The dictionaries have no key twice, as every Python dictionary. *)
  Definition wf_opts (o : opts V) : Prop :=
    NoDup (keys (o_kw o)) /\ NoDup (keys (o_replace o))
    /\ (forall k d, In (k, d) (o_kw o) -> NoDup (keys d))
    /\ (forall k d, In (k, Some d) (o_replace o) -> NoDup (keys d)).

  Definition wf_disk (fs : fsys V) : Prop :=
    forall c p po, unpickle fs c = Some p -> p_opts p = Some po -> wf_opts po.

  (** Validity of a cache found at path [c] with content [p]. *)
  Definition valid_cache (veq : V -> V -> bool) (fs : fsys V) (files : list str) (o : opts V)
             (c : str) (p : pickled V) : Prop :=
    (forall f, In f files -> isfile fs f = true -> (mtime fs f <= mtime fs c)%Z)
    /\ (exists po, p_opts p = Some po /\ same_opts veq po o)
    /\ (exists v, p_version p = Some (Some v) /\ (2 <= v)%Z).
  (** Where a cache file is looked for: as given, then in the headers directory. *)
  Definition cache_at (fs : fsys V) (moddir cache_file c : str) : Prop :=
    isfile fs c = true
    /\ (c = cache_file
        \/ isfile fs cache_file = false
           /\ c = path_join (path_join moddir $"headers") cache_file).
End Spec.

(** [x] comes before [y] in [l]. *)
Definition before {A} (x y : A) (l : list A) : Prop :=
  exists a b c, l = a ++ x :: b ++ y :: c.
(** The file that defined a name last is, among the files defining it, the one that got
    its first definition last. *)
Definition last_is_newest {V} (l : list (@addition V)) (k : kind) (n : str) : Prop :=
  forall a f v b, l = a ++ (f, k, n, v) :: b -> (forall e, In e b -> ~ names k n e) ->
  forall f' w, In (f', k, n, w) l -> f' = f \/ before f' f (first_seen [] l).
