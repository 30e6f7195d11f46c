(** C98: programs with several libraries. *)
From Coq Require Import Ascii String Bool Arith ZArith Lia List.
Import ListNotations.
From Verif Require Import PyBase PyBaseFacts PyStr PyStrFacts PyExpr TypeModel InitModel StoreModel StoreSpec DeclModel UtilModel CtModel LinkModel LinkSpec.
From Verif Require GramExamples PropsLink PropsFile PropsObj PropsInvoke PropsLib LinkExamples.
From Verif Require Import LibModel InvokeModel InvokeSpec MultiModel MultiSpec MultiProofs MultiMain.
From Verif Require LibSpec LibProofs CtSpec ObjModel ObjSpec.

(** C98, the calls of [CLibrary(...)]: after any program, a call for a file of which there is a library object gives this
    object, whatever the other arguments are (even impossible ones), and changes nothing; otherwise it makes a new object
    from its arguments or raises the exception that stands for what is wrong with them, in which case no later call sees it. *)
Theorem c98_calls : forall W fuel before a, let st := run W fuel before in
  (forall x, refused W a x -> step W fuel (Open a) st = (SLib (Err x), st))
  /\ forall p, opens W a p ->
     (forall o, alive W fuel before p o -> step W fuel (Open a) st = (SLib (Ok o), st))
     /\ ((forall o, ~ alive W fuel before p o) -> forall r, asks W (parsers_of st) p a r ->
         match r with
         | Ok _ => exists o, makes W fuel before a o
         | Err x => exists st', step W fuel (Open a) st = (SLib (Err x), st')
             /\ w_libs st' = w_libs st /\ w_open st' = w_open st /\ exists l, w_parsers st' = w_parsers st ++ l
         end).
Proof. exact calls. Qed.
Print Assumptions c98_calls.

(** A library with a parser of its own behaves, whatever is done with all other libraries, as the library of the definitions
    and prefixes of the call that made it, used alone (C94 to C97 are about these). *)
Theorem c98_alone : forall W fuel b1 c b2 o path s prefix, makes W fuel b1 c o -> opens W c path ->
  asks W (parsers_of (run W fuel b1)) path c (Ok (s, prefix)) ->
  alone (run W fuel (b1 ++ Open c :: b2)) o ->
  as_if_alone W fuel (b1 ++ Open c :: b2) o (own_library W path s prefix) (own_uses o b2).
Proof. exact alone_ok. Qed.
Print Assumptions c98_alone.

(** So do libraries that are made from one parser, as long as they are only used for what C94 and C95 are about. *)
Theorem c98_shared_partial : forall W q s D, closed (w_conf W) (w_table W) s D -> tagged s -> ObjSpec.enum_tagged s -> usual_table (w_table W) ->
  forall f0 evs, nth_error (parsers_of (run W f0 evs)) q = Some s -> orderly_parser W f0 evs q s D ->
  exists F, forall fuel, F <= fuel -> forall b1 c b2 o path prefix, evs = b1 ++ Open c :: b2 -> makes W fuel b1 c o -> opens W c path ->
    asks W (parsers_of (run W fuel b1)) path c (Ok (s, prefix)) -> parser_of (run W fuel evs) o = Some q ->
    as_if_alone W fuel evs o (own_library W path s prefix) (own_uses o b2).
Proof. exact shared_ok. Qed.
Print Assumptions c98_shared_partial.

(** ** Examples *)
(** A system with two shared libraries, /lib/a.so, which is found as a, and /lib/b.so; the headers api.h of C94 and grid.h. *)
Definition grid_s : store entry := PropsFile.read_header $"grid.h" $"typedef int grid[2][3];".
Definition two_env : surroundings :=
  {| e_fs := {| fs_join := fun a b => a ++ $"/" ++ b; fs_isfile := fun p => mem p [$"/lib/a.so"; $"/lib/b.so"];
                fs_isdir := fun _ => true; fs_system := fun n => if eqb n $"a" then Some $"/lib/a.so" else None |};
     e_libdirs := []; e_platform := $"linux"; e_bits := 64; e_real := fun p => p;
     e_content := fun _ => None; e_file := fun _ => Ok $"ELF 64-bit"; e_init := fun _ => Ok tt |}.
Definition two : setting :=
  {| w_env := two_env; w_conf := PropsLink.words0; w_table := InitModel.std_types;
     w_parse := fun _ l => if eqb l [$"api.h"] then Ok PropsObj.api_s else if eqb l [$"grid.h"] then Ok grid_s else Err OSError;
     w_load := fun _ => Ok tt; w_exports := fun _ => PropsObj.api_exports; w_takes := fun _ => PropsInvoke.api_takes |}.
Definition opening (r : request) (h : harg) (p : parg) : cargs :=
  {| a_lib := r; a_headers := h; a_prefix := p; a_convention := $"cdll"; a_backend := $"ctypes"; a_kwargs := [] |}.
Definition with_convention (c : str) (a : cargs) : cargs :=
  {| a_lib := a_lib a; a_headers := a_headers a; a_prefix := a_prefix a; a_convention := c; a_backend := a_backend a; a_kwargs := a_kwargs a |}.
Definition lib_a := ByName $"a".
Definition lib_b := ByName $"/lib/b.so".
Lemma opens_a h p c : opens two (with_convention c (opening lib_a h p)) $"/lib/a.so".
Proof. apply key_Ok. vm_compute. reflexivity. Qed.
Lemma opens_b h p c : opens two (with_convention c (opening lib_b h p)) $"/lib/b.so".
Proof. apply key_Ok. vm_compute. reflexivity. Qed.

Example c98_calls_example :
  let first := opening lib_a (HList [$"api.h"]) (OnePrefix $"api_") in
  let wrong := with_convention $"fastcall" (opening lib_b (HList [$"api.h"]) NoPrefix) in
  let before := [Open first; Open wrong] in
  refused two (opening ByOther HOther NoPrefix) KeyError
  /\ opens two (opening (ByHandle $"/lib/a.so") HOther NoPrefix) $"/lib/a.so"
  /\ alive two 20 before $"/lib/a.so" 0
  /\ (forall o, ~ alive two 20 before $"/lib/b.so" o)
  /\ asks two (parsers_of (run two 20 before)) $"/lib/b.so" wrong (Err ValueError)
  /\ asks two (parsers_of (run two 20 before)) $"/lib/b.so" (with_convention $"windll" (opening lib_b (HParser 0) NoPrefix)) (Err NameError)
  /\ asks two (parsers_of (run two 20 before)) $"/lib/b.so" (opening lib_b (HList [$"no.h"]) NoPrefix) (Err OSError)
  /\ asks two (parsers_of (run two 20 before)) $"/lib/b.so" (opening lib_b (HParser 0) NoPrefix) (Ok (PropsObj.api_s, []))
  /\ map (fun a => fst (step two 20 (Open a) (run two 20 before)))
       [opening (ByHandle $"/lib/a.so") HOther NoPrefix; wrong; opening lib_b (HParser 0) NoPrefix; opening ByOther HOther NoPrefix]
     = [SLib (Ok 0); SLib (Err ValueError); SLib (Ok 1); SLib (Err KeyError)].
Proof.
  cbv zeta. split; [apply rf_object; reflexivity|]. split; [apply key_Ok; vm_compute; reflexivity|].
  split; [apply alive_open; vm_compute; reflexivity|]. split; [intros o A; apply alive_open in A; vm_compute in A; discriminate A|].
  split; [eapply as_unloaded; [eapply so_list; reflexivity|]; eapply lo_unknown; [reflexivity|]; intros [E|[E|[E|[]]]]; discriminate E|].
  split; [eapply as_unloaded; [eapply so_parser; vm_compute; reflexivity|]; eapply lo_elsewhere; [reflexivity|left; reflexivity|discriminate]|].
  split; [eapply as_unread; reflexivity|].
  split; [apply (as_new two _ _ (opening lib_b (HParser 0) NoPrefix)); [eapply so_parser; [reflexivity|vm_compute; reflexivity]|eapply lo_cdll; reflexivity]|].
  vm_compute. reflexivity.
Qed.

(** Two libraries with the same header grid.h, each with a parser of its own: asking one for the type does not change the
    other. *)
Lemma makes_check W fuel b1 c o : fst (step W fuel (Open c) (run W fuel b1)) = SLib (Ok o) -> o = length (w_libs (run W fuel b1)) -> makes W fuel b1 c o.
Proof.
  intros R ->. split; [exact R|]. intros b0 c' b' -> R'. pose proof (returned_lib W fuel b0 c' _ b' R'). lia.
Qed.
Example c98_alone_example :
  let a := opening lib_a (HList [$"grid.h"]) NoPrefix in let b := opening lib_b (HList [$"grid.h"]) NoPrefix in
  let u := Get (Attr $"grid") in let b2 := [Use 0 u; Use 0 u; Use 1 u] in
  makes two 20 [Open a] b 1 /\ opens two b $"/lib/b.so"
  /\ asks two (parsers_of (run two 20 [Open a])) $"/lib/b.so" b (Ok (grid_s, []))
  /\ alone (run two 20 ([Open a] ++ Open b :: b2)) 1
  /\ own_uses 1 b2 = [u]
  /\ map (fun ev => fst (step two 20 ev (run two 20 ([Open a] ++ Open b :: [Use 0 u; Use 0 u])))) [Use 1 u]
     = [SUse (Some (Gave (Ok (ObjModel.VType (PArr (PArr (PBase $"c_int") 3) 2)))))].
Proof.
  cbv zeta. split; [apply makes_check; vm_compute; reflexivity|]. split; [apply key_Ok; vm_compute; reflexivity|].
  split; [apply (as_new two _ _ (opening lib_b (HList [$"grid.h"]) NoPrefix)); [eapply so_list; reflexivity|eapply lo_cdll; reflexivity]|].
  split; [|split; vm_compute; reflexivity].
  intros [|[|[|o]]] E; [vm_compute in E; discriminate E|reflexivity|vm_compute in E; discriminate E|].
  vm_compute in E. discriminate E.
Qed.
Lemma asked_prefixes W ps path a s prefix : asks W ps path a (Ok (s, prefix)) -> prefix = wanted_prefixes a.
Proof. inversion 1. reflexivity. Qed.

(** Two libraries made from one parser of api.h: after one is asked for the structure node, a call of push through the other
    ends as if it were the only one. *)
Example c98_shared_example :
  let a := opening lib_a (HParser 0) (OnePrefix $"api_") in let b := opening lib_b (HParser 0) (Prefixes [$"api_"]) in
  let node := Get (Attr $"node") in let call := Invoke PropsInvoke.push [] [] in
  let evs := [NewParser [] [$"api.h"]; Open a; Open b; Use 0 node; Use 1 call; Use 0 call] in
  closed (w_conf two) (w_table two) PropsObj.api_s PropsObj.api_D /\ tagged PropsObj.api_s /\ ObjSpec.enum_tagged PropsObj.api_s
  /\ usual_table (w_table two)
  /\ nth_error (parsers_of (run two 20 evs)) 0 = Some PropsObj.api_s
  /\ orderly_parser two 20 evs 0 PropsObj.api_s PropsObj.api_D
  /\ map (parser_of (run two 20 evs)) [0; 1] = [Some 0; Some 0]
  /\ makes two 20 [NewParser [] [$"api.h"]; Open a] b 1
  /\ asks two (parsers_of (run two 20 [NewParser [] [$"api.h"]; Open a])) $"/lib/b.so" b (Ok (PropsObj.api_s, [$"api_"]))
  /\ fst (step two 20 (Use 1 (Invoke PropsInvoke.push [] [($"n", FunModel.PVal 7)])) (run two 20 evs))
     = SUse (Some (Ended (InvokeModel.Called [InvokeModel.NewOf (PPtr (PClass 0)); InvokeModel.Own 7]))).
Proof.
  cbv zeta. split; [exact PropsObj.api_closed|]. split; [apply LinkExamples.tagged_check_ok; vm_compute; reflexivity|].
  split; [apply PropsObj.enum_tagged_ok; vm_compute; reflexivity|]. split; [exact PropsLink.usual0|].
  split; [vm_compute; reflexivity|]. split.
  { assert (NC : ObjSpec.no_clash PropsObj.api_s [$"api_"]) by (apply PropsObj.clash_check; vm_compute; reflexivity).
    assert (AB : ObjSpec.about PropsLink.words0 InitModel.std_types PropsObj.api_s PropsObj.api_D [$"api_"] PropsInvoke.push Functions $"api_push")
      by exact (proj1 PropsInvoke.c95_example).
    assert (ON : orderly_use PropsLink.words0 InitModel.std_types PropsObj.api_s PropsObj.api_D [$"api_"] (Get (Attr $"node")))
      by (refine (PropsObj.api_attr _ _); vm_compute; reflexivity).
    assert (OC : orderly_use PropsLink.words0 InitModel.std_types PropsObj.api_s PropsObj.api_D [$"api_"] (Invoke PropsInvoke.push [] []))
      by (exists Functions, $"api_push"; exact AB).
    intros b1 c b2 o path prefix E (M & _) _ A _. destruct b1 as [|e1 [|e2 [|e3 [|e4 [|e5 [|e6 [|e7 b1]]]]]]]; try discriminate E; injection E as; subst;
      rewrite (asked_prefixes _ _ _ _ _ _ A); vm_compute in M; injection M as <-; (split; [exact NC|]).
    - constructor; [exact ON|constructor; [exact OC|constructor]].
    - constructor; [exact OC|constructor]. }
  split; [vm_compute; reflexivity|]. split; [apply makes_check; vm_compute; reflexivity|].
  split; [apply (as_new two _ _ (opening lib_b (HParser 0) (Prefixes [$"api_"]))); [eapply so_parser; [reflexivity|vm_compute; reflexivity]|eapply lo_cdll; reflexivity]|].
  vm_compute. reflexivity.
Qed.

(** False for a parser that two libraries share, if the type is an array of arrays: the second library is given another
    type than the first, and than it would be given on its own. *)
Theorem c98_shared_refuted :
  exists W b1 c b2 o path s prefix u, (forall fuel, makes W fuel b1 c o) /\ opens W c path
  /\ (forall fuel, asks W (parsers_of (run W fuel b1)) path c (Ok (s, prefix)))
  /\ own_uses o b2 = []
  /\ forall fuel, fst (step W (6 + fuel) (Use o u) (run W (6 + fuel) (b1 ++ Open c :: b2)))
      <> SUse (Some (answer_of (own_library W path s prefix) (6 + fuel) (w_takes W o) u (ObjModel.opened (own_library W path s prefix)))).
Proof.
  exists two, [NewParser [] [$"grid.h"]; Open (opening lib_a (HParser 0) NoPrefix)], (opening lib_b (HParser 0) NoPrefix),
    [Use 0 (Get (Attr $"grid"))], 1, $"/lib/b.so", grid_s, [], (Get (Attr $"grid")).
  split; [intros fuel; apply makes_check; vm_compute; reflexivity|]. split; [apply key_Ok; vm_compute; reflexivity|].
  split; [intros fuel; apply (as_new two _ _ (opening lib_b (HParser 0) NoPrefix)); [eapply so_parser; [reflexivity|vm_compute; reflexivity]|eapply lo_cdll; reflexivity]|].
  split; [reflexivity|]. intros fuel E. vm_compute in E. discriminate E.
Qed.
Print Assumptions c98_shared_refuted.

(** What one might expect of a call, that the library that is returned has the definitions of the headers that are given, is
    false when the file is open already. *)
Theorem c98_headers_refuted :
  exists W before a o path s prefix n, (forall fuel, returns W fuel before a o) /\ opens W a path
  /\ (forall fuel, asks W (parsers_of (run W fuel before)) path a (Ok (s, prefix)))
  /\ defined s Types n <> None
  /\ forall fuel, fst (step W fuel (Use o (Get (Attr n))) (run W fuel (before ++ [Open a]))) = SUse (Some (Gave (Err NameError))).
Proof.
  exists two, [Open (opening lib_a (HList [$"api.h"]) NoPrefix)], (opening lib_a (HList [$"grid.h"]) NoPrefix), 0, $"/lib/a.so", grid_s, [], $"grid".
  split; [intros fuel; vm_compute; reflexivity|]. split; [apply key_Ok; vm_compute; reflexivity|].
  split; [intros fuel; apply (as_new two _ _ (opening lib_a (HList [$"grid.h"]) NoPrefix)); [eapply so_list; reflexivity|eapply lo_cdll; reflexivity]|].
  split; [vm_compute; discriminate|]. intros fuel. vm_compute. reflexivity.
Qed.
Print Assumptions c98_headers_refuted.
