(** Model of [CFunction.pretty_signature], pyclibrary/c_library.py:521-527. *)
From Coq Require Import Ascii String Bool Arith ZArith List.
Import ListNotations.
From Verif Require Import PyBase PyStr TypeModel DeclModel ReprModel.

(** [s[1] != ("void",)], c_library.py:409; qualifiers are not compared with a plain tuple. *)
Definition void_arg (t : aty) : bool :=
  match t with CT (SName s) [] _ => eqb s $"void" | _ => false end.
(** The elements of a type that are texts, c_library.py:523: [join] raises TypeError for any other one. *)
Fixpoint texts (ds : list adecl) : res (list str) :=
  match ds with
  | [] => Ok []
  | DStr s :: r => do l <- texts r; Ok (s :: l)
  | _ :: _ => Err TypeError
  end.
(** ["".join(self.sig[0])], c_library.py:523. *)
Definition join_type (t : aty) : res str :=
  match t with
  | CT (SName s) ds _ => do l <- texts ds; Ok (concat (s :: l))
  | CT (SType _) _ _ => Err TypeError
  end.
Section Pretty.
  (** [repr] of floats and of objects outside of the model (ReprModel.v). *)
  Context (show : pobj -> str).
  (** ["{} {}".format(s[1], s[0])], c_library.py:525: the text of a type is its [repr]. *)
  Definition arg_text (p : option str * aty * option str) : str :=
    repr (of_type show (snd (fst p))) ++ $" " ++ match fst (fst p) with Some n => n | None => $"None" end.
  (** [pretty_signature], c_library.py:521-527, for a signature as recorded in the headers; the
      parameters of type void have been removed (409).
      Simplification: signatures with a calling convention never get here (411-412 raises). *)
  Definition pretty_signature (name : str) (sig : aty) : res str :=
    match sig with
    | CT (SType ret) [DFun params] _ =>
        do r <- join_type ret;
        let ps := filter (fun p => negb (void_arg (snd (fst p)))) params in
        Ok (r ++ $" " ++ name ++ $"(" ++ join $", " (map arg_text ps) ++ $")")
    | _ => Err OtherError
    end.
End Pretty.
