(* The project's own tests of the parser, run on the model.

   This file proves no property: it is a check that the model is faithful.
   The texts below are the headers of /repo/tests/headers, word for word, and
   the examples are the assertions of /repo/tests/test_parser.py, evaluated on
   the model by the kernel. *)
From Coq Require Import Ascii String Bool Arith ZArith Lia List.
Import ListNotations.
From Verif Require Import PyBase PyStr PyExpr TypeModel StoreModel DeclModel
  EvalModel GramModel MacroModel PpModel FileModel PropsMacro PropsDecl PpExamples.
Open Scope Z_scope.

(* tests/test_init.py, 38-39: the last test of initialisation, which runs before those of the parser,
   leaves it configured by "auto_init" with the type new_type, the modifier __modifier and the words of
   Windows (init.py, 45-82). *)
Definition test_conf : tconf :=
  {| extra_types := [$"new_type"; $"__int64"]; py312 := true; win32 := false |}.

(* init.py, 46-56, and the name given in tests/test_init.py, 39. *)
Definition test_mods : list str :=
  [$"__modifier"; $"__based"; $"__declspec"; $"__fastcall"; $"__restrict";
   $"__sptr"; $"__uptr"; $"__w64"; $"__unaligned"; $"__nullterminated"].

Definition test_base : list str := nonnum_types ++ num_types test_conf ++ extra_types test_conf.
Definition test_fund : list str := GramModel.modifiers ++ test_base.

(* The values Python's eval() gives to the texts with strings and floats that
   the headers contain: such literals are outside the expressions of the model
   (EvalModel), which asks for them here. A text not listed fails. *)
Definition test_literals : list (str * pobj) :=
  [($"+ 1.0", ONum (VQuot 1 1));
   ($"1e-1", ONum (VQuot 1 10));
   ($"- 1E1", ONum (VQuot (-10) 1));
   ($"( 5 + 3 * 0x1 ) / 8.0", ONum (VQuot 8 8));
   ($"3.1415e6", ONum (VQuot 3141500 1));
   ($"1.0", ONum (VQuot 1 1));
   ($"1.1e1", ONum (VQuot 11 1));
   ($"-1.1E-1", ONum (VQuot (-11) 100));
   ($"""test""", OStr $"test");
   ($"""normal string""", OStr $"normal string");
   ($"""string with macro: INT""", OStr $"string with macro: INT");
   ($"""string with comment: /*comment inside string*/""",
    OStr $"string with comment: /*comment inside string*/");
   ($"""string with define #define MACRO5 macro5_in_string """,
    OStr $"string with define #define MACRO5 macro5_in_string ");
   ($"""string with \""escaped quotes\"" """, OStr $"string with ""escaped quotes"" ");
   ($"""brace }  \0""", OStr ($"brace }  " ++ [zero]))].

Definition test_ext (_ : dict str pobj) (t : str) : res pobj :=
  match dget test_literals t with Some v => Ok v | None => Err OtherError end.

Definition test_ev : dict str pobj -> str -> res pobj :=
  c_eval test_fund test_mods (fun _ => false) test_ext.

(* `load_file(path)` and `process_all()`. *)
Definition tables (text : str) : kind -> dict str entry :=
  match process_file no_fmt no_ext test_ev test_base test_mods init_store $"h" text with
  | Some (Ok (s, _)) => defs s
  | _ => fun _ => []
  end.

(* tests/headers/enums.h, 1-27, the whole file. *)
Definition enums_h : str := $"/* Test header for parsing enumerations. */

#define VALUE 128

enum enum_name
{
    enum1= (VALUE | 1),
    enum2=6,
    enum3,
    enum4,
}  enum_inst;


enum {
    x = 0,
    y
} no_name_enum_inst;


typedef enum
{
    typedef_enum1 = 1,
    typedef_enum2
} no_name_enum_typeddef;

void function_taking_enum(enum enum_name e);
".

(* tests/headers/functions.h, 1-31, the whole file. *)
Definition functions_h : str := $"/* Header testing function definitions parsing. */

//Defining a standard function.
void f(int, int);

// Defining a function with its implementation following
inline int g(char *ch, char **str)
{
     JUNK
     switch (str){
        case 'r': return 0;
     }
     int localVariable = 1;
}

// Defining a function pointer.
int(*fnPtr)(char, float);


// Adding dllexport and stdcall annotation to a function.
int __declspec(dllexport) __stdcall function1();

#define EXPORT(x) x __declspec(dllexport)

EXPORT(int) function2();

extern int externFunc(void);

//define typequals in abstract typedef
int typeQualedFunc(int volatile * const *);
".

(* tests/headers/structs.h, 1-68, the whole file. *)
Definition structs_h : str := $"/* Test header for parsing struct. */

typedef int type_int;
typedef type_int type_type_int;

// Test creating a structure using only base types.
// Test for default values, array handling and bit length specifications.
struct struct_name
{
  int x = 1;
  type_type_int y:2;
  char str[10]; /* commented brace } */
} struct_inst;


// Test creating a structure using only base types.
// Test for default values, array handling and bit length specifications.
struct struct_arr
{
  char str[10][20]; /* commented brace } */
} struct_arr;

// Test creating a pointer type from a structure.
typedef struct struct_name *struct_name_ptr;

typedef struct {
    int x;
    int y;
} *struct_name2_ptr;

// Test declaring a recursive structure.
struct recursive_struct {
    struct recursive_struct *next;
};

// Test declaring near and far pointers.
typedef struct tagWNDCLASSEXA {
    int         cbClsExtra;
    int         cbWndExtra;
} WNDCLASSEXA, *PWNDCLASSEXA, near *NPWNDCLASSEXA, far *LPWNDCLASSEXA;

// Test altering the packing of a structure.
#pragma pack(16)
struct struct_name_p
{
  int x; type_type_int y;
  char str[10] = ""brace }  \0""; /* commented brace } */
};

// Test a nested structure

typedef enum root_nested_enum
{
  NESTED_STRUCT_ENUM_0,
  NESTED_STRUCT_ENUM_1,
  NESTED_STRUCT_ENUM_2
} root_nested_enum_type;

struct root_nested_structure
{
  struct leaf1_nested_structure{
    char x;
  } x[NESTED_STRUCT_ENUM_2];
  root_nested_enum_type y;
  struct leaf2_nested_structure{
    char x;        
  } z;
};".

(* tests/headers/unions.h, 1-29, the whole file. *)
Definition unions_h : str := $"/* Test header for unions declaration */

// Test declaring an union.
typedef union union_name {
    int x = 1;
    int y;
} *union_name_ptr;

// Test defining an unnamed union
#pragma pack(push)
#pragma pack(16)
union
{
    int x;
    int y;
} no_name_union_inst;

#pragma pack(pop)
// Test defining a structure using an unnamed union internally.
typedef struct tagRID_DEVICE_INFO {
    DWORD cbSize;
    DWORD dwType;
    union {
        RID_DEVICE_INFO_MOUSE mouse;
        RID_DEVICE_INFO_KEYBOARD keyboard;
        RID_DEVICE_INFO_HID hid;
    };
} RID_DEVICE_INFO, *PRID_DEVICE_INFO, *LPRID_DEVICE_INFO;
".

(* tests/headers/typedefs.h, 1-25, the whole file. *)
Definition typedefs_h : str := $"/* Header file to test the parsing of typedef based on simple type, enum,
struct and union will be treated later. */

// Standard type defintion
typedef char **typeChar;
typedef int typeInt, *typeIntPtr, typeIntArr[10], typeIntDArr[5][6];
typedef typeInt typeTypeInt;
typedef unsigned long ULONG;

// Typedef using type anotations.
typedef void const *voidpc;
typedef char far charf;

// test using newly defined type.
typeTypeInt *ttip5[5];

// Handling of undefined types.
typedef someType SomeOtherType;
undefined x;

// Recursive type definitions
typedef recType1 recType2;
typedef recType2 recType3;
typedef recType3 recType1;
".

(* tests/headers/variables.h, 1-74, the whole file. *)
Definition variables_h : str := $"/* Test the parsing of variables of standard types in a header*/

#define INT 1
#define SQUARE(i) i*i
// Test defining standard variables.
// Integers
signed short short1 = 1;
short int short_int = INT;
unsigned short short_un = 1;
unsigned short int short_int_un = 1;
int int1 = 0x1;
unsigned un = 1;
unsigned int int_un = +1;
long long1 = 1;
long int long_int = 1;
unsigned long long_un = 1;
unsigned long int long_int_un = 1;
__int64 int64 = 1;
unsigned __int64 int64_un = 1;
long long long_long = 1;
long long int long_long_int = 1;
unsigned long long long_long_un = 1;
unsigned long long int long_long_int_un = 1;

// stddef integers
size_t size = 1;
ssize_t ssize = 1;

// C99 integers
int8_t i8 = 1;
int16_t i16 = 1;
int32_t i32 = 1;
int64_t i64 = 1;
uint8_t u8 = 1;
uint16_t u16 = 1;
uint32_t u32 = 1;
uint64_t u64 = 1;

// Floating points numbers
float fl = + 1.0;
double db = 1e-1;
long double dbl = - 1E1;

// Static and const modifiers
const int int_const = SQUARE(2);
static int int_stat = SQUARE(2);
static const int int_con_stat = SQUARE(2);
extern int int_extern = SQUARE(2);

// String
char* str1 = ""normal string"";
char** str2 = ""string with macro: INT"";
static const char* const str3 = ""string with comment: /*comment inside string*/"";
char* str4 = ""string with define #define MACRO5 macro5_in_string "";
char* str5 = ""string with \""escaped quotes\"" "";

// Test complex evaluation.
float x1 = (5 + 3 * 0x1) / 8.0;

// Test type casting handling.
int x2 = (typeCast)0x544 <<16;

// Test array
float array[2] = {0x1, 3.1415e6};
static const int * const (**intJunk[4]);

// time_t
time_t time = 1;

const int * volatile * typeQualedIntPtrPtr, volatile * typeQualedIntPtr;

// Test type definition precedence
int (*prec_ptr_of_arr)[1], *(prec_arr_of_ptr[1]), *prec_arr_of_ptr2[1];
".

(* tests/headers/macros/macro_values.h, 1-44, the whole file. *)
Definition macro_values_h : str := $"/* This is file is used to test the processing of macro values. */

#define M
#define N n

// Decimal values
#define MACRO_D1 1
#define MACRO_D2 -2U
#define MACRO_D3 + 3UL

// Bit shifted decimal values
#define MACRO_SD1 (1 << 1)
#define MACRO_SD2 (2U << 2)
#define MACRO_SD3 (3UL << 3)

// Hexadecimal values
#define MACRO_H1 +0x000000
#define MACRO_H2 - 0x000001U
#define MACRO_H3 0X000002UL

// Bit shifted hexadecimal values
#define MACRO_SH1 (0x000000 << 1)
#define MACRO_SH2 (0x000001U << 2)
#define MACRO_SH3 (0X000002UL << 3)

// Floating values
#define MACRO_F1 1.0
#define MACRO_F2 1.1e1
#define MACRO_F3 -1.1E-1

// String macro
#define MACRO_S ""test""

// Nested macro
#define MACRO 1
#define MACRO2 2
#define NESTED MACRO
#define NESTED2 NESTED
#define MACRO_N MACRO + MACRO2

// Multiline macro
#define MACRO_ML MACRO\
                  *MACRO2
".

(* tests/headers/macros/macro_conditionals.h, 1-103, the whole file. *)
Definition macro_conditionals_h : str := $"/* This file is used to test the processing of conditional macros. */

#define MACRO

// Test if defined
#if defined MACRO
    #define DEFINE_IF
    int DECLARE_IF;
#endif

#if defined UNDEFINED
  #define NO_DEFINE_IF
  int NO_DECLARE_IF;
#endif

// Test ifdef
#ifdef MACRO
  #define DEFINE_IFDEF
  int DECLARE_IFDEF;
#endif

#ifdef UNDEFINED
  #define NO_DEFINE_IFDEF
  int NO_DECLARE_IFDEF;
#endif

// Test if !defined
#if !defined UNDEFINED
  #define DEFINE_IFN
  int DECLARE_IFN;
#endif

#if !defined MACRO
  #define NO_DEFINE_IFN
  int NO_DECLARE_IFN;
#endif

// Test ifndef
#ifndef UNDEFINED
  #define DEFINE_IFNDEF
  int DECLARE_IFNDEF;
#endif

#ifndef MACRO
  #define NO_DEFINE_IFNDEF
  int NO_DECLARE_IFNDEF;
#endif

// Test elif
#ifdef UNDEFINED
  #define NO_DEFINE_ELIF
  int NO_DECLARE_ELIF;
#elif defined MACRO
  #define DEFINE_ELIF
  int DECLARE_ELIF;
#endif

// Test else
#ifdef UNDEFINED
  #define NO_DEFINE_ELSE
  int NO_DECLARE_ELSE;
#else
  #define DEFINE_ELSE
  int DECLARE_ELSE;
#endif

// Test nested
#if !defined MACRO_N1
#  define DEFINE_N1
   int DECLARE_N1;
#  ifdef DEFINE_N2
#    define NO_DEFINE_N2
#  endif
#else
#  define DEFINE_N2
#endif

#ifndef DEFINE_N3
  #define DEFINE_N3 10
  #ifndef DEFINE_N3
    #define NO_DEFINE_N3
    int NO_DECLARE_N3;
  #endif
#endif

// Test logical operations
#define VAL1 6

#if defined MACRO && VAL1 < 5
  #define NO_DEFINE_LOG
  int NO_DECLARE_LOG;
#elif defined MACRO && VAL1 > 5
  #define DEFINE_LOG
  int DECLARE_LOG;
#endif

// Test undef
#define UNDEF
#ifdef UNDEF
    #define DEFINE_UNDEF
#endif
#undef UNDEF
".

(* tests/headers/macros/macro_functions.h, 1-40, the whole file. *)
Definition macro_functions_h : str := $"/* This file is used to test the preprocessing of macro functions*/

// Test macro function definition
#define CARRE(a) a*a
int carre = CARRE(2);

#define EXPORT(x) x __declspec(dllexport)
EXPORT(int) function2();

#define EXPORT(x) __declspec(dllexport) x
EXPORT(int) function3();

#define EXPORT(x) __declspec(dllexport) x
EXPORT(int *) function4();

// Test defining a macro function as an alias for another one.
#define MAKEINTRESOURCEA(i) ((LPSTR)((ULONG_PTR)((WORD)(i))))
#define MAKEINTRESOURCEW(i) ((LPWSTR)((ULONG_PTR)((WORD)(i))))

#ifdef UNICODE
  #define MAKEINTRESOURCE  MAKEINTRESOURCEW
#else
  #define MAKEINTRESOURCE  MAKEINTRESOURCEA
#endif // !UNICODE
int x = MAKEINTRESOURCE(4);

// Test using a macro value in a macro function call
#define BIT 0x01
#define SETBIT(x, b)   ((x) |= (b))
int y = 0;
SETBIT(y, BIT);

// Test defining a macro function calling other macros (values and functions)
#define SETBITS(x, y) (SETBIT(x, BIT), SETBIT(y, BIT))
int z1, z2 = SETBITS(1, 2); // This is incorrect but can be preprocessed.

// Test defining a macro function calling nested macro functions
#define SETBIT_AUTO(x) (SETBITS(x, x))
int z3 = SETBIT_AUTO(3);
".

(* tests/headers/macros/pragmas.h, 1-26, the whole file. *)
Definition pragmas_h : str := $"/* File used to test the handling of the pragma pack*/

// Use default packing
#pragma pack()   // n defaults to 8; equivalent to /Zp8

// Change default packing
#pragma pack(4)   // n = 4

// Push and select custom packing
#define PACKING 16
#pragma pack(push, r1, PACKING)   // n = 16, pushed to stack

// Change packing back to default
#pragma pack()

// Push current packing to stack (twice for pop test)
#pragma pack(push, r2)
#pragma pack(push, r3, 4)

// Remove packing
#pragma pack(pop, r2)
#pragma pack(pop)

// Test handling of unknown pragmas
#pragma omp parallel
".

(* tests/headers/file_handling/c_comments.h, 1-18, the whole file. *)
Definition c_comments_h : str := $"/* This is file is used to test the removal of C style comments */

# define MACRO 1 /* inline comment */

/* before comment */ int between_comments /* comments */

/*char* str4 = ""string inside comment""*/

/*char* str5 = ""commented string with \""escaped quotes\"" ""*/

char* str3 = ""/*zzz*/"" /*Comments inside a string*/

struct structName
{
  int x; typeTypeInt y;
  char str[10] = ""brace }  \0""; /* commented brace } */
} structInst;
".

(* tests/headers/file_handling/c_comments_removed.h, 1-18, the whole file. *)
Definition c_comments_removed_h : str := $"

# define MACRO 1

 int between_comments





char* str3 = ""/*zzz*/""

struct structName
{
  int x; typeTypeInt y;
  char str[10] = ""brace }  \0"";
} structInst;
".

(* tests/headers/file_handling/cpp_comments.h, 1-16, the whole file. *)
Definition cpp_comments_h : str := $"// This is file is used to test the removal of C++ style comments

# define MACRO 1 // inline comment

//char* str4 = ""string inside comment""

//char* str5 = ""commented string with \""escaped quotes\"" ""

char* str3 = ""//zzz"" //Comments inside a string*/

struct structName
{
  int x; typeTypeInt y;
  char str[10] = ""brace }  \0""; // commented brace }
} structInst;
".

(* tests/headers/file_handling/cpp_comments_removed.h, 1-15, the whole file. *)
Definition cpp_comments_removed_h : str := $"

# define MACRO 1





char* str3 = ""//zzz""

struct structName
{
  int x; typeTypeInt y;
  char str[10] = ""brace }  \0"";
} structInst;".

(* The types of the tests: Type("char", "*", [10]) is [T "char" [DStr $"*"; DArr [ONum (VInt 10)]]]; with
   qualifiers, [TQ]. *)
Definition T (s : string) (ds : list (decl (list pobj))) : aty := CT (SName $s) ds (repeat (Some []) (S (length ds))).
Definition TQ (s : string) (ds : list (decl (list pobj))) (qs : list (list str)) : aty := CT (SName $s) ds (map Some qs).
(* The type of a function, with its result inside: Type(Type("int"), args). *)
Definition TF (r : aty) (args : list (option str * aty * option str)) : entry :=
  EFun (CT (SType r) [DFun args] [Some []; Some []]).
(* A member without a bit width. *)
Definition M (n : option str) (t : aty) (v : pobj) : member := {| m_name := n; m_type := t; m_val := v; m_bit := None |}.

(* The names are in the table, with these entries. *)
Definition holds (text : str) (k : kind) (l : list (str * entry)) : Prop :=
  let table := tables text k in map (fun p => dget table (fst p)) l = map (fun p => Some (snd p)) l.
(* The names that are in the table of the header and those that are not. *)
Definition has (text : str) (k : kind) (names : list str) : Prop :=
  let table := tables text k in map (fun n => dmem table n) names = map (fun _ => true) names.
Definition lacks (text : str) (k : kind) (names : list str) : Prop :=
  let table := tables text k in map (fun n => dmem table n) names = map (fun _ => false) names.
(* What is left of the text in parser.files[path], and whether it contains these texts. *)
Definition stream (text : str) : str :=
  match process_file no_fmt no_ext test_ev test_base test_mods init_store $"h" text with
  | Some (Ok (_, t)) => t
  | _ => []
  end.
Fixpoint contains (t s : str) : bool := starts_with t s || match s with [] => false | _ :: r => contains t r end.

(* tests/test_parser.py, 542-719 *)
Example test_variables :
  holds variables_h Variables
    [($"short1", EVar (ONum (VInt 1)) (T "signed short" []));
     ($"short_int", EVar (ONum (VInt 1)) (T "short int" []));
     ($"short_un", EVar (ONum (VInt 1)) (T "unsigned short" []));
     ($"short_int_un", EVar (ONum (VInt 1)) (T "unsigned short int" []));
     ($"int1", EVar (ONum (VInt 1)) (T "int" []));
     ($"un", EVar (ONum (VInt 1)) (T "unsigned" []));
     ($"int_un", EVar (ONum (VInt 1)) (T "unsigned int" []));
     ($"long1", EVar (ONum (VInt 1)) (T "long" []));
     ($"long_int", EVar (ONum (VInt 1)) (T "long int" []));
     ($"long_un", EVar (ONum (VInt 1)) (T "unsigned long" []));
     ($"long_int_un", EVar (ONum (VInt 1)) (T "unsigned long int" []));
     ($"int64", EVar (ONum (VInt 1)) (T "__int64" []));
     ($"int64_un", EVar (ONum (VInt 1)) (T "unsigned __int64" []));
     ($"long_long", EVar (ONum (VInt 1)) (T "long long" []));
     ($"long_long_int", EVar (ONum (VInt 1)) (T "long long int" []));
     ($"long_long_un", EVar (ONum (VInt 1)) (T "unsigned long long" []));
     ($"long_long_int_un", EVar (ONum (VInt 1)) (T "unsigned long long int" []));
     ($"size", EVar (ONum (VInt 1)) (T "size_t" []));
     ($"ssize", EVar (ONum (VInt 1)) (T "ssize_t" []));
     ($"i8", EVar (ONum (VInt 1)) (T "int8_t" []));
     ($"i16", EVar (ONum (VInt 1)) (T "int16_t" []));
     ($"i32", EVar (ONum (VInt 1)) (T "int32_t" []));
     ($"i64", EVar (ONum (VInt 1)) (T "int64_t" []));
     ($"u8", EVar (ONum (VInt 1)) (T "uint8_t" []));
     ($"u16", EVar (ONum (VInt 1)) (T "uint16_t" []));
     ($"u32", EVar (ONum (VInt 1)) (T "uint32_t" []));
     ($"u64", EVar (ONum (VInt 1)) (T "uint64_t" []));
     ($"fl", EVar (ONum (VQuot 1 1)) (T "float" []));
     ($"db", EVar (ONum (VQuot 1 10)) (T "double" []));
     ($"dbl", EVar (ONum (VQuot (-10) 1)) (T "long double" []));
     ($"int_const", EVar (ONum (VInt 4)) (TQ "int" [] [[$"const"]]));
     ($"int_stat", EVar (ONum (VInt 4)) (T "int" []));
     ($"int_con_stat", EVar (ONum (VInt 4)) (TQ "int" [] [[$"const"]]));
     ($"int_extern", EVar (ONum (VInt 4)) (T "int" []));
     ($"str1", EVar (OStr $"normal string") (T "char" [(DStr $"*")]));
     ($"str2", EVar (OStr $"string with macro: INT") (T "char" [(DStr $"*"); (DStr $"*")]));
     ($"str3", EVar (OStr $"string with comment: /*comment inside string*/") (TQ "char" [(DStr $"*")] [[$"const"]; [$"const"]]));
     ($"str4", EVar (OStr $"string with define #define MACRO5 macro5_in_string ") (T "char" [(DStr $"*")]));
     ($"str5", EVar (OStr $"string with ""escaped quotes"" ") (T "char" [(DStr $"*")]));
     ($"x1", EVar (ONum (VQuot 8 8)) (T "float" []));
     ($"x2", EVar (ONum (VInt 88342528)) (T "int" []));
     ($"array", EVar (OList [ONum (VInt 1); ONum (VQuot 3141500 1)]) (T "float" [(DArr [ONum (VInt 2)])]));
     ($"intJunk", EVar ONone (TQ "int" [(DStr $"*"); (DStr $"*"); (DStr $"*"); (DArr [ONum (VInt 4)])] [[$"const"]; [$"const"]; []; []; []]));
     ($"time", EVar (ONum (VInt 1)) (T "time_t" []));
     ($"typeQualedIntPtrPtr", EVar ONone (TQ "int" [(DStr $"*"); (DStr $"*")] [[$"const"]; [$"volatile"]; []]));
     ($"typeQualedIntPtr", EVar ONone (TQ "int" [(DStr $"*")] [[$"const"; $"volatile"]; []]));
     ($"prec_ptr_of_arr", EVar ONone (T "int" [(DArr [ONum (VInt 1)]); (DStr $"*")]));
     ($"prec_arr_of_ptr", EVar ONone (T "int" [(DStr $"*"); (DArr [ONum (VInt 1)])]));
     ($"prec_arr_of_ptr2", EVar ONone (T "int" [(DStr $"*"); (DArr [ONum (VInt 1)])]))].
Proof. vm_compute; reflexivity. Qed.

(* The types of the header, as eval_type sees them. *)
Definition types_of (text : str) : dict str (tentry (list pobj)) :=
  map (fun p => (fst p, match snd p with EType t => TyE t | _ => RawE end)) (tables text Types).
Definition is_err {X} (r : res X) : bool := match r with Ok _ => false | Err _ => true end.

(* tests/test_parser.py, 722-765 *)
Example test_typedef :
  holds typedefs_h Types
    [($"typeChar", EType (T "char" [(DStr $"*"); (DStr $"*")]));
     ($"typeInt", EType (T "int" []));
     ($"typeIntPtr", EType (T "int" [(DStr $"*")]));
     ($"typeIntArr", EType (T "int" [(DArr [ONum (VInt 10)])]));
     ($"typeIntDArr", EType (T "int" [(DArr [ONum (VInt 5)]); (DArr [ONum (VInt 6)])]));
     ($"typeTypeInt", EType (T "typeInt" []));
     ($"ULONG", EType (T "unsigned long" []));
     ($"voidpc", EType (TQ "void" [(DStr $"*")] [[$"const"]; []]));
     ($"charf", EType (TQ "char" [] [[$"far"]]));
     ($"SomeOtherType", EType (T "someType" []))]
  /\
  has typedefs_h Types [$"recType1"; $"recType2"; $"recType3"]
  /\
  holds typedefs_h Variables
    [($"ttip5", EVar ONone (T "typeTypeInt" [(DStr $"*"); (DArr [ONum (VInt 5)])]));
     ($"x", EVar ONone (T "undefined" []))]
  /\
  map (is_fund test_conf) [$"typeTypeInt"; $"SomeOtherType"] = [false; false]
  /\
  eval_type test_conf (types_of typedefs_h) (T "typeTypeInt" []) = Ok (T "int" [])
  /\
  is_err (eval_type test_conf (types_of typedefs_h) (T "undefined" [])) = true
  /\
  is_err (eval_type test_conf (types_of typedefs_h) (T "recType3" [])) = true.
Proof.
  split; [vm_compute; reflexivity|].
  split; [vm_compute; reflexivity|].
  split; [vm_compute; reflexivity|].
  split; [vm_compute; reflexivity|].
  split; [vm_compute; reflexivity|].
  split; [vm_compute; reflexivity|].
  vm_compute; reflexivity.
Qed.

(* tests/test_parser.py, 767-800 *)
Example test_enums :
  holds enums_h Enums
    [($"enum_name", EEnum [($"enum1", ONum (VInt 129)); ($"enum2", ONum (VInt 6)); ($"enum3", ONum (VInt 7)); ($"enum4", ONum (VInt 8))])]
  /\
  has enums_h Enums [$"anon_enum0"; $"anon_enum1"]
  /\
  holds enums_h Types
    [($"enum enum_name", EType (CT (SName $"enum") [DStr $"enum_name"] [Some []; Some []]))]
  /\
  has enums_h Types [$"no_name_enum_typeddef"]
  /\
  holds enums_h Variables
    [($"enum_inst", EVar ONone (T "enum enum_name" []))]
  /\
  holds enums_h Functions
    [($"function_taking_enum", TF (T "void" []) [(Some $"e", T "enum enum_name" [], None)])].
Proof.
  split; [vm_compute; reflexivity|].
  split; [vm_compute; reflexivity|].
  split; [vm_compute; reflexivity|].
  split; [vm_compute; reflexivity|].
  split; [vm_compute; reflexivity|].
  vm_compute; reflexivity.
Qed.

(* tests/test_parser.py, 802-886 *)
Example test_struct :
  holds structs_h Structs
    [($"struct_name", EComp [M (Some $"x") (T "int" []) (ONum (VInt 1));
       {| m_name := Some $"y"; m_type := T "type_type_int" []; m_val := ONone; m_bit := Some 2 |};
       M (Some $"str") (T "char" [(DArr [ONum (VInt 10)])]) ONone] None);
     ($"struct_arr", EComp [M (Some $"str") (T "char" [(DArr [ONum (VInt 10)]); (DArr [ONum (VInt 20)])]) ONone] None);
     ($"recursive_struct", EComp [M (Some $"next") (T "struct recursive_struct" [(DStr $"*")]) ONone] None);
     ($"struct_name_p", EComp [M (Some $"x") (T "int" []) ONone; M (Some $"y") (T "type_type_int" []) ONone;
       M (Some $"str") (T "char" [(DArr [ONum (VInt 10)])]) (OStr ($"brace }  " ++ [zero]))] (Some 16));
     ($"root_nested_structure", EComp [M (Some $"x") (T "struct leaf1_nested_structure" [(DArr [ONum (VInt 2)])]) ONone;
       M (Some $"y") (T "root_nested_enum_type" []) ONone; M (Some $"z") (T "struct leaf2_nested_structure" []) ONone] (Some 16))]
  /\
  has structs_h Structs [$"tagWNDCLASSEXA"]
  /\
  has structs_h Types [$"struct struct_name"; $"struct struct_arr"; $"struct recursive_struct"; $"struct struct_name_p"; $"struct root_nested_structure"]
  /\
  holds structs_h Types
    [($"struct_name_ptr", EType (T "struct struct_name" [(DStr $"*")]));
     ($"struct_name2_ptr", EType (T "struct anon_struct0" [(DStr $"*")]));
     ($"NPWNDCLASSEXA", EType (TQ "struct tagWNDCLASSEXA" [(DStr $"*")] [[$"near"]; []]))]
  /\
  holds structs_h Variables
    [($"struct_inst", EVar ONone (T "struct struct_name" []))]
  /\
  holds structs_h Enums
    [($"root_nested_enum", EEnum [($"NESTED_STRUCT_ENUM_0", ONum (VInt 0)); ($"NESTED_STRUCT_ENUM_1", ONum (VInt 1)); ($"NESTED_STRUCT_ENUM_2", ONum (VInt 2))])].
Proof.
  split; [vm_compute; reflexivity|].
  split; [vm_compute; reflexivity|].
  split; [vm_compute; reflexivity|].
  split; [vm_compute; reflexivity|].
  split; [vm_compute; reflexivity|].
  vm_compute; reflexivity.
Qed.

(* tests/test_parser.py, 888-931 *)
Example test_unions :
  holds unions_h Unions
    [($"union_name", EComp [M (Some $"x") (T "int" []) (ONum (VInt 1)); M (Some $"y") (T "int" []) ONone] None)]
  /\
  has unions_h Types [$"union union_name"]
  /\
  holds unions_h Types
    [($"union_name_ptr", EType (T "union union_name" [(DStr $"*")]));
     ($"RID_DEVICE_INFO", EType (T "struct tagRID_DEVICE_INFO" []));
     ($"PRID_DEVICE_INFO", EType (T "struct tagRID_DEVICE_INFO" [(DStr $"*")]));
     ($"LPRID_DEVICE_INFO", EType (T "struct tagRID_DEVICE_INFO" [(DStr $"*")]))]
  /\
  holds unions_h Variables
    [($"no_name_union_inst", EVar ONone (T "union anon_union0" []))]
  /\
  holds unions_h Structs
    [($"tagRID_DEVICE_INFO", EComp [M (Some $"cbSize") (T "DWORD" []) ONone; M (Some $"dwType") (T "DWORD" []) ONone;
       M None (T "union anon_union1" []) ONone] None)].
Proof.
  split; [vm_compute; reflexivity|].
  split; [vm_compute; reflexivity|].
  split; [vm_compute; reflexivity|].
  split; [vm_compute; reflexivity|].
  vm_compute; reflexivity.
Qed.

(* tests/test_parser.py, 933-963 *)
Example test_functions :
  holds functions_h Functions
    [($"f", TF (T "void" []) [(None, T "int" [], None); (None, T "int" [], None)]);
     ($"g", TF (T "int" []) [(Some $"ch", (T "char" [(DStr $"*")]), None); (Some $"str", (T "char" [(DStr $"*"); (DStr $"*")]), None)]);
     ($"function1", TF (CT (SName $"int") [DStr $"__stdcall"] [Some []; None]) []);
     ($"function2", TF (T "int" []) []);
     ($"typeQualedFunc", TF (T "int" []) [(None, (TQ "int" [(DStr $"*"); (DStr $"*")] [[$"volatile"]; [$"const"]; []]), None)])]
  /\
  has functions_h Functions [$"externFunc"]
  /\
  holds functions_h Variables
    [($"fnPtr", EVar ONone (T "int" [(DFun [(None, T "char" [], None); (None, T "float" [], None)]); (DStr $"*")]))].
Proof.
  split; [vm_compute; reflexivity|].
  split; [vm_compute; reflexivity|].
  vm_compute; reflexivity.
Qed.

(* tests/test_parser.py, 286-401 *)
Example test_values :
  holds macro_values_h Macros
    [($"M", EText []);
     ($"N", EText $"n");
     ($"MACRO_D1", EText $"1");
     ($"MACRO_D2", EText $"-2U");
     ($"MACRO_D3", EText $"+ 3UL");
     ($"MACRO_SD1", EText $"(1 << 1)");
     ($"MACRO_SD2", EText $"(2U << 2)");
     ($"MACRO_SD3", EText $"(3UL << 3)");
     ($"MACRO_H1", EText $"+0x000000");
     ($"MACRO_H2", EText $"- 0x000001U");
     ($"MACRO_H3", EText $"0X000002UL");
     ($"MACRO_SH1", EText $"(0x000000 << 1)");
     ($"MACRO_SH2", EText $"(0x000001U << 2)");
     ($"MACRO_SH3", EText $"(0X000002UL << 3)");
     ($"MACRO_F1", EText $"1.0");
     ($"MACRO_F2", EText $"1.1e1");
     ($"MACRO_F3", EText $"-1.1E-1");
     ($"MACRO_S", EText $"""test""");
     ($"NESTED", EText $"1");
     ($"NESTED2", EText $"1");
     ($"MACRO_N", EText $"1 + 2")]
  /\
  holds macro_values_h Values
    [($"N", EVal ONone);
     ($"MACRO_D1", EVal (ONum (VInt 1)));
     ($"MACRO_D2", EVal (ONum (VInt (-2))));
     ($"MACRO_D3", EVal (ONum (VInt 3)));
     ($"MACRO_SD1", EVal (ONum (VInt 2)));
     ($"MACRO_SD2", EVal (ONum (VInt 8)));
     ($"MACRO_SD3", EVal (ONum (VInt 24)));
     ($"MACRO_H1", EVal (ONum (VInt 0)));
     ($"MACRO_H2", EVal (ONum (VInt (-1))));
     ($"MACRO_H3", EVal (ONum (VInt 2)));
     ($"MACRO_SH1", EVal (ONum (VInt 0)));
     ($"MACRO_SH2", EVal (ONum (VInt 4)));
     ($"MACRO_SH3", EVal (ONum (VInt 16)));
     ($"MACRO_F1", EVal (ONum (VQuot 1 1)));
     ($"MACRO_F2", EVal (ONum (VQuot 11 1)));
     ($"MACRO_F3", EVal (ONum (VQuot (-11) 100)));
     ($"MACRO_S", EVal (OStr $"test"));
     ($"NESTED", EVal (ONum (VInt 1)));
     ($"NESTED2", EVal (ONum (VInt 1)));
     ($"MACRO_N", EVal (ONum (VInt 3)));
     ($"MACRO_ML", EVal (ONum (VInt 2)))]
  /\
  has macro_values_h Macros [$"MACRO_ML"].
Proof.
  split; [vm_compute; reflexivity|].
  split; [vm_compute; reflexivity|].
  vm_compute; reflexivity.
Qed.

(* tests/test_parser.py, 403-463 *)
Example test_conditionals :
  has macro_conditionals_h Macros [$"DEFINE_IF"; $"DEFINE_IFDEF"; $"DEFINE_IFN"; $"DEFINE_IFNDEF"; $"DEFINE_ELIF"; $"DEFINE_ELSE"; $"DEFINE_N1"; $"DEFINE_LOG"; $"DEFINE_N3"; $"DEFINE_UNDEF"]
  /\
  lacks macro_conditionals_h Macros [$"NO_DEFINE_IF"; $"NO_DEFINE_IFDEF"; $"NO_DEFINE_IFN"; $"NO_DEFINE_IFNDEF"; $"NO_DEFINE_ELIF"; $"NO_DEFINE_ELSE"; $"NO_DEFINE_N2"; $"NO_DEFINE_N3"; $"NO_DEFINE_LOG"; $"DEFINE_N2"; $"UNDEF"]
  /\
  (let s := stream macro_conditionals_h in
   forallb (fun t => contains t s) [$"  int DECLARE_IF;" ++ [nl]; $"  int DECLARE_IFDEF;" ++ [nl]; $"  int DECLARE_IFN;" ++ [nl]; $"  int DECLARE_IFNDEF;" ++ [nl]; $"  int DECLARE_ELIF;" ++ [nl]; $"  int DECLARE_ELSE;" ++ [nl]; $"  int DECLARE_N1;" ++ [nl]; $"  int DECLARE_LOG;" ++ [nl]] = true)
  /\
  (let s := stream macro_conditionals_h in
   existsb (fun t => contains t s) [$"  int NO_DECLARE_IF;" ++ [nl]; $"  int NO_DECLARE_IFDEF;" ++ [nl]; $"  int NO_DECLARE_IFN;" ++ [nl]; $"  int NO_DECLARE_IFNDEF;" ++ [nl]; $"  int NO_DECLARE_ELIF;" ++ [nl]; $"  int NO_DECLARE_ELSE;" ++ [nl]; $"  int NO_DECLARE_N3;" ++ [nl]] = false).
Proof.
  split; [vm_compute; reflexivity|].
  split; [vm_compute; reflexivity|].
  split; [vm_compute; reflexivity|].
  vm_compute; reflexivity.
Qed.

(* tests/test_parser.py, 465-505 *)
Example test_macro_function :
  has macro_functions_h Fnmacros [$"CARRE"; $"MAKEINTRESOURCEA"; $"MAKEINTRESOURCEW"; $"MAKEINTRESOURCE"; $"SETBITS"; $"SETBIT_AUTO"]
  /\
  (let t := tables macro_functions_h Fnmacros in dget t $"MAKEINTRESOURCE" = dget t $"MAKEINTRESOURCEA")
  /\
  holds macro_functions_h Values
    [($"BIT", EVal (ONum (VInt 1)))]
  /\
  (let s := stream macro_functions_h in
   forallb (fun t => contains t s)
     [$"int carre = 2*2;";
      $"int __declspec(dllexport) function2()";
      $"__declspec(dllexport) int function3()";
      $"__declspec(dllexport) int * function4()";
      $"((y) |= (0x01))";
      $"int z1, z2 = (((1) |= (0x01)), ((2) |= (0x01)));";
      $"int z3 = ((((3) |= (0x01)), ((3) |= (0x01))));"] = true).
Proof.
  split; [vm_compute; reflexivity|].
  split; [vm_compute; reflexivity|].
  split; [vm_compute; reflexivity|].
  vm_compute; reflexivity.
Qed.

(* The packings of parser.pack_list[path], without the lines. *)
Definition packings (text : str) : list (option Z) :=
  match preprocess_file no_fmt no_ext test_ev init_store $"h" (remove_comments text) with
  | Ok (l, _, _) => map snd l
  | Err _ => []
  end.

(* tests/test_parser.py, 507-531 *)
Example test_pragmas :
  strip (stream pragmas_h) = []
  /\
  tl (packings pragmas_h) = [None; Some 4; Some 16; None; None; Some 4; Some 16; None].
Proof.
  split; [vm_compute; reflexivity|].
  vm_compute; reflexivity.
Qed.

(* The lines that compare_lines (21-24) compares: stripped, up to the end of the shorter list. *)
Fixpoint same_lines (a b : list str) : bool :=
  match a, b with x :: a, y :: b => eqb (strip x) (strip y) && same_lines a b | _, _ => true end.
Definition lines (t : str) : list str := split_on nl t.

(* tests/test_parser.py, 263-268 *)
Example test_removing_c_comments :
  same_lines (lines (remove_comments c_comments_h)) (lines c_comments_removed_h) = true.
Proof. vm_compute; reflexivity. Qed.

(* tests/test_parser.py, 270-275 *)
Example test_removing_cpp_comments :
  same_lines (lines (remove_comments cpp_comments_h)) (lines cpp_comments_removed_h) = true.
Proof. vm_compute; reflexivity. Qed.

(* tests/test_parser.py, 57-112 *)
Example test_is_fund_type :
  forallb (is_fund test_conf)
    [$"int"; $"struct test"; $"unsigned"; $"short"; $"unsigned short int"; $"bool"; $"char"; $"wchar"; $"wchar_t"; $"unsigned char"; $"short int"; $"unsigned short"; $"unsigned int"; $"long"; $"long int"; $"unsigned long"; $"unsigned long int"; $"long unsigned int"; $"long long"; $"long long int"; $"unsigned long long"; $"unsigned long long int"; $"float"; $"double"; $"long double"; $"uint8_t"; $"int8_t"; $"uint16_t"; $"int16_t"; $"uint32_t"; $"int32_t"; $"uint64_t"; $"int64_t"; $"size_t"; $"ssize_t"; $"time_t"; $"__int64"; $"unsigned __int64"] = true
  /\
  is_fund test_conf $"custom_typedef" = false.
Proof.
  split; [vm_compute; reflexivity|].
  vm_compute; reflexivity.
Qed.

(* The type map of test_eval. *)
Definition type_map : dict str (tentry (list pobj)) :=
  [($"tq_parent_type", TyE (TQ "int" [(DStr $"*")] [[$"__tq1"]; [$"__tq2"]])); ($"parent_type", TyE (T "int" [(DStr $"*"); (DStr $"*"); (DArr [ONum (VInt 2)])])); ($"child_type", TyE (T "parent_type" [(DStr $"*"); (DArr [ONum (VInt 3)])]))].

(* tests/test_parser.py, 114-133 *)
Example test_eval :
  eval_type test_conf type_map (T "parent_type" [(DStr $"*"); (DArr [ONum (VInt 1)])]) = Ok (T "int" [(DStr $"*"); (DStr $"*"); (DArr [ONum (VInt 2)]); (DStr $"*"); (DArr [ONum (VInt 1)])])
  /\
  eval_type test_conf type_map (T "child_type" [(DFun []); (DStr $"*")]) = Ok (T "int" [(DStr $"*"); (DStr $"*"); (DArr [ONum (VInt 2)]); (DStr $"*"); (DArr [ONum (VInt 3)]); (DFun []); (DStr $"*")])
  /\
  eval_type test_conf type_map (TQ "tq_parent_type" [(DArr [ONum (VInt 1)])] [[$"__tq3"]; [$"__tq4"]]) = Ok (TQ "int" [(DStr $"*"); (DArr [ONum (VInt 1)])] [[$"__tq1"]; [$"__tq2"; $"__tq3"]; [$"__tq4"]]).
Proof.
  split; [vm_compute; reflexivity|].
  split; [vm_compute; reflexivity|].
  vm_compute; reflexivity.
Qed.

(* tests/test_parser.py, 135-159 *)
Example test_compatibility_hack :
  add_hack (T "int" [(DStr $"*"); (DFun [])]) = CT (SType (T "int" [(DStr $"*")])) [DFun []] [Some []; Some []]
  /\
  add_hack (T "int" [(DStr $"*"); (DFun []); (DStr $"*")]) = (T "int" [(DStr $"*"); (DFun []); (DStr $"*")])
  /\
  add_hack (TQ "int" [(DFun [])] [[$"const"]; [$"__interrupt"]]) = CT (SType (TQ "int" [] [[$"const"]])) [DFun []] [Some []; Some [$"__interrupt"]]
  /\
  remove_hack (CT (SType (T "int" [(DStr $"*")])) [DFun []] [Some []; Some []]) = (T "int" [(DStr $"*"); (DFun [])])
  /\
  remove_hack (T "int" [(DStr $"*"); (DFun [])]) = (T "int" [(DStr $"*"); (DFun [])]).
Proof.
  split; [vm_compute; reflexivity|].
  split; [vm_compute; reflexivity|].
  split; [vm_compute; reflexivity|].
  split; [vm_compute; reflexivity|].
  vm_compute; reflexivity.
Qed.

(* With the configuration of a user who does not call auto_init for Windows, the same header gives function1 two
   qualifiers, none of which is the word that is written: the word is recorded as "__" (c_parser.py, 1884-1893). *)
Example function1_elsewhere :
  match process_file no_fmt no_ext (c_eval test_fund [] (fun _ => false) test_ext) (nonnum_types ++ num_types test_conf) []
          init_store $"h" functions_h with
  | Some (Ok (s, _)) => dget (defs s Functions) $"function1"
  | _ => None
  end = Some (TF (CT (SName $"int") [DStr $"__stdcall"] [Some [$"__"; $"(dllexport)"]; None]) []).
Proof. vm_compute; reflexivity. Qed.
