(* The project's own test header for libraries, run through the model from its text to the types given to ctypes.

   This file proves no property: as RepoTests.v, it is a check that the model is faithful. The examples are those
   assertions of /repo/tests/backends/test_ctypes.py which speak of values and types; the values held by ctypes
   objects and the results of calls are not modelled. *)
From Coq Require Import Ascii String Bool Arith ZArith Lia List.
Import ListNotations.
From Verif Require Import PyBase PyStr PyExpr TypeModel InitModel StoreModel DeclModel
  EvalModel GramModel MacroModel PpModel FileModel CtModel LinkModel PropsMacro PropsDecl PpExamples.
Open Scope Z_scope.

(* tests/headers/ctypes_test.h, 1-129, the whole file. *)
Definition ctypes_test_h : str := $"/********************************************************************
 Hand written header file for the _ctype_test library used in testing
 ********************************************************************/

#if defined(MS_WIN32) || defined(__CYGWIN__)
#define EXPORT(x) __declspec(dllexport) x
#else
#define EXPORT(x) x
#endif


// Test basic global variable and basic function call.

EXPORT(int) an_integer = 42;

EXPORT(int) get_an_integer(void)
{
    return an_integer;
}

// Test function calls returning type that needs to be correctly interpreted
// to make sense (if restype is wrong won't work.
EXPORT(char *) my_strdup(char *src);

// Bunch of structure to test structure creation and access to global variables
// made of complex structures.

typedef struct {
    char names[10][20];
} T;

typedef struct {
    char *name;
    char *value;
} SPAM;

typedef struct {
    char *name;
    int num_spams;
    SPAM *spams;
} EGG;

SPAM my_spams[2] = {
    { ""name1"", ""value1"" },
    { ""name2"", ""value2"" },
};

EGG my_eggs[1] = {
    { ""first egg"", 1, my_spams }
};


// Functions used to test passing no pointer and getting the right object out.

EXPORT(int) getSPAMANDEGGS(EGG **eggs)
{
    *eggs = my_eggs;
    return 1;
}

typedef struct tagpoint {
    int x;
    int y;
} point;

EXPORT(int) _testfunc_byval(point in, point *pout)
{
    if (pout) {
        pout->x = in.x;
        pout->y = in.y;
    }
    return in.x + in.y;
}


// Bit fields manipulations.

struct BITS {
    int A: 1, B:2, C:3, D:4, E: 5, F: 6, G: 7, H: 8, I: 9;
    short M: 1, N: 2, O: 3, P: 4, Q: 5, R: 6, S: 7;
};

EXPORT(void) set_bitfields(struct BITS *bits, char name, int value)
{
    switch (name) {
    case 'A': bits->A = value; break;
    case 'B': bits->B = value; break;
    case 'C': bits->C = value; break;
    case 'D': bits->D = value; break;
    case 'E': bits->E = value; break;
    case 'F': bits->F = value; break;
    case 'G': bits->G = value; break;
    case 'H': bits->H = value; break;
    case 'I': bits->I = value; break;

    case 'M': bits->M = value; break;
    case 'N': bits->N = value; break;
    case 'O': bits->O = value; break;
    case 'P': bits->P = value; break;
    case 'Q': bits->Q = value; break;
    case 'R': bits->R = value; break;
    case 'S': bits->S = value; break;
    }
}

EXPORT(int) unpack_bitfields(struct BITS *bits, char name)
{
    switch (name) {
    case 'A': return bits->A;
    case 'B': return bits->B;
    case 'C': return bits->C;
    case 'D': return bits->D;
    case 'E': return bits->E;
    case 'F': return bits->F;
    case 'G': return bits->G;
    case 'H': return bits->H;
    case 'I': return bits->I;

    case 'M': return bits->M;
    case 'N': return bits->N;
    case 'O': return bits->O;
    case 'P': return bits->P;
    case 'Q': return bits->Q;
    case 'R': return bits->R;
    case 'S': return bits->S;
    }
    return 0;
}
".

(* The configuration of a Linux system without extra types or modifiers. *)
Definition linux : tconf := {| extra_types := []; py312 := true; win32 := false |}.
Definition linux_base : list str := nonnum_types ++ num_types linux.
(* The tables of "CParser(['ctypes_test.h'])"; literals with strings are outside the modelled expressions and fail. *)
Definition test_store : store entry :=
  match process_file no_fmt no_ext (c_eval (GramModel.modifiers ++ linux_base) [] (fun _ => false) (fun _ _ => Err OtherError))
          linux_base [] init_store $"h" ctypes_test_h with
  | Some (Ok (s, _)) => s
  | _ => init_store
  end.
(* The fields of the class that is made for a structure asked for by name, and the types of a function. *)
Definition fields (L : library) (n : str) : option (list (str * pyt)) :=
  let (r, st) := get_struct (l_env L) 20 false n {| st_heap := l_heap L; st_structs := []; st_classes := [] |} in
  match r with
  | Ok i => match nth_error (st_classes st) i with
            | Some k => option_map (map (fun f => (fd_name f, fd_type f))) (k_fields k)
            | None => None
            end
  | Err _ => None
  end.
Definition signature (L : library) (n : str) : res (pyt * list pyt) :=
  match dget (l_functions L) n with
  | Some sig => fst (wrap_types (l_env L) 20 sig {| st_heap := l_heap L; st_structs := []; st_classes := [] |})
  | None => Err KeyError
  end.
Definition int_t : pyt := PBase $"c_int".
Definition text_t : pyt := PBase $"c_char_p".

(* tests/backends/test_ctypes.py, 44-66 (test_call, test_getitem, test_make_struct, test_make_ndarray), and the types the
   calls of 68-100 depend on: the pointers to pointers to EGG, the point by value and by address, the strings of my_strdup.
   The class of BITS has no fields: a line with several bit fields is outside the grammar, the structure is only known from the
   argument of a function; its test asks for nothing but the class. *)
Example test_ctypes :
  let s := test_store in
  let L := load linux std_types false s in
  (dget (defs s Values) $"an_integer", fields L $"tagpoint", fields L $"point", fields L $"T", fields L $"BITS",
   (signature L $"get_an_integer", signature L $"getSPAMANDEGGS", signature L $"_testfunc_byval", signature L $"my_strdup"))
  = (Some (EVal (ONum (VInt 42))), Some [($"x", int_t); ($"y", int_t)], Some [($"x", int_t); ($"y", int_t)],
     Some [($"names", PArr (PArr (PBase $"c_char") 20) 10)], Some [],
     (Ok (int_t, []), Ok (int_t, [PPtr (PPtr (PClass 0))]), Ok (int_t, [PClass 0; PPtr (PClass 0)]), Ok (text_t, [text_t]))).
Proof. vm_compute. reflexivity. Qed.
