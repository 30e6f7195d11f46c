# Formal model of pyclibrary in Rocq/Coq 8.16.1

## 1. Method

Every modelled Python function is a total, computable Gallina function that follows
the Python branch by branch.  Exceptions are values (`res A := Ok a | Err e`, `e` naming
the Python exception class).  Mutable objects are explicit state.  Loops whose
termination is not structural take fuel and return a dedicated `OutOfFuel` error, and a
theorem excludes it.  Things outside the repository (file system, pickle, the C function
being called, Python's `eval` on arbitrary text) are parameters of Sections, so that the
theorems quantify over all of their behaviours; after the sections are closed nothing
remains as an axiom.

Files come in groups, one per area of the code:

* `XModel.v` – definitions only, each with a comment citing the lines of /repo it models;
* `XSpec.v` – the small, independent specification used in statements;
* `XProofs.v` – lemmas;
* `PropsX.v` – the property theorems, each closed by `exact`, followed by
  `Print Assumptions`, with an `Example` showing that its hypotheses are met by a
  concrete non trivial case.

A theorem name starts with the id of the property it belongs to (`c19_...`).  When the
full property is false of the faithful model, a theorem `..._refuted` exhibits a witness
and a theorem `..._partial` proves the strongest version found that does hold.

## 2. Text

Python `str` is modelled by `list ascii`, i.e. text whose code points are below 256
(Latin-1).  `isspace`, `\s`, `\w`, `isdigit`, `\d` are the exact Latin-1 tables of CPython.
Text with code points >= 256 is not modelled.

## 3. pyparsing

The repository requires `pyparsing>=2.3.1,<4`; its source is not in /repo.  What the
modelled functions use of it (`transformString` on small alternations, `Word`, `Literal`,
`Keyword`, `quotedString`, `cStyleComment`, `SkipTo(LineEnd())`, `delimitedList`) is
modelled after the text of pyparsing 3.1.0.  The parse actions are modelled on trees
(DeclModel); the grammar built by `build_parser` is modelled as a parsing expression grammar
from text to these trees (GramModel): ordered alternatives, greedy repetition, white space
skipped before each element, keywords and literals as in pyparsing.

## 4. Plan per property

| id | what is modelled | how it is proved |
|----|------------------|------------------|
| C01 | `Type.eval` with fuel = entries+1, `used` list | pigeonhole on `used`: no `OutOfFuel`; more fuel changes nothing |
| C02 | same; spec = inductive typedef chain | induction on chain / fuel, both directions |
| C03 | same | chain determinism + C01 |
| C04 | same, with qualifier levels `option (list str)` | induction on chain |
| C05 | `\bsigned\b` removal and `strip` on text | idempotence of both text functions, then one evaluation step |
| C06 | the backend's table of base types | refutation by witness (`signed`, `long signed int`, `signed char`); partial: finite table of spellings that work for any pointer/array suffix |
| C07 | both hack functions | case analysis; refutation with qualifiers |
| C08 | `Type.__eq__` on nested types and tuples | induction on nested types; refutation of transitivity |
| C09 | `is_fund_type`, `str.split` | lemmas on split |
| C10 | `add_def`, histories | induction on histories |
| C11 | `rem_def` | refutation (macro of another file), partial (same file) |
| C12 | `find` | induction, membership |
| C13 | `import_dict`, copy_from | replay lemma; order of files |
| C14 | `import_dict` | replay lemma |
| C15 | `load_cache` over an abstract file system and unpickler | case analysis |
| C16 | same with exceptions in the import loop | refutation; partial for complete dictionaries |
| C17 | `write_cache`/`load_cache` over histories | refutation; partial for histories with contiguous files and no cross-file removal |
| C18 | `init_opts` construction | injectivity; refutation for `copy_from` |
| C19 | `preprocess` loop with the two stacks | refinement to a structured conditional AST, induction on the AST |
| C20 | same | refutation (`#define` without name in a skipped region raises), partial |
| C21 | same | depth counting invariant |
| C22 | `expand_macros` | well-founded induction on the line |
| C23 | same | length decreases, fuel exclusion |
| C24 | same | induction against a word-substitution spec |
| C25 | same | exact characterisation; refutation of the "after" half |
| C26 | `compile_fn_macro`, `str.format`, `expand_fn_macro` | segment lemma; refutation with braces |
| C27 | same | refutation; partial for missing parentheses |
| C28 | definition-time expansion | refutation; partial for bodies made of already defined or never defined names |
| C29 | `defined` rewriting, condition translation, Python condition evaluation | computation on the shape of the line |
| C30 | `#undef` | refutation for function-like macros; partial for object-like |
| C31 | condition translation and evaluation | refutations (`!=`, hexadecimal, suffix, precedence of `!`); partial on a fragment |
| C32 | same | by construction of the handler, totality theorem |
| C33 | `process_macro_defn` and the `pp_define` grammar | refutation for `(Y)` bodies; partial |
| C34 | pragma handling | refutation against an MSVC stack machine; simulation for push-with-value/pop histories |
| C35 | same | refutation |
| C36 | `packing_at`, `pack_list` | sortedness invariant; refutation |
| C37 | `remove_comments` | scanner vs. independent lexer spec; refutation of separator |
| C38 | line joining | induction |
| C39 | `process_declarator`, `process_type` | induction on declarator trees vs. C denotation; refutation for parenthesised arrays |
| C40 | same | invariant; refutation for parenthesised calling convention |
| C41, C42 | `process_enum` | induction on member list; refutation of atomicity |
| C43, C44 | `process_struct`, `process_enum` | pigeonhole for fresh names; history induction |
| C45, C46 | `process_variable`, `process_function` | refutation; case analysis with C39 |
| C47 | `CLibraryMeta.__call__` | history induction; refutation for handles |
| C48 | `CLibraryMeta.__call__`, `LibraryPath.arch` | case analysis |
| C49, C50 | `__getattr__`, `__call__`, `_make_obj_` with both caches | cache coherence invariant over access histories; refutation with prefixes |
| C51–C54 | `CFunction`, `CallResult` | invariants of the argument list; refutations |
| C55, C56 | `_get_type` on a heap of array lists | induction; refutation of repeatability |
| C57–C59 | `_get_struct` | termination measure; refutations |
| C60 | `_get_array` | induction on dimensions |
| C61, C62 | `init`, `auto_init` | history induction; refutations |
| C63, C64 | `find_header`, `find_library`, `add_*_locations` over an abstract file system | induction; refutations |
| C65 | `get_shared_library_arch` at byte level, `get_arch`, `LibraryPath.arch` | decoding lemma |
| C66 | `Type.__ne__` | case analysis |
| C67 | `process_struct` | induction on the member list |
| C68 | `eval_expr`, `CParser.eval` on text | the text of a literal is what the scan leaves; refutations |
| C69 | `init`, `init_clibrary` | table lookup lemmas |
| C70 | the constructor before any file is read | proved |
| C71 | the grammar with its recursion bounded by the length of the text | every match of a recursive rule consumes characters; the bound is never reached |
| C72 | the grammar; specification: spellings as token sequences in any layout | each rule reads its spelling whatever follows; uniqueness and independence of layout follow |
| C73 | grammar, elaboration of trees, parse actions | C72, then frame lemmas for elaboration and later declarations; structures and enums defined inside of others by induction over their definition (what an inner one records is kept by the members behind it and by the outer one; the values of enumerators are passed on); refutations (variadic prototypes, unnamed function pointers, reserved names, two initialisers) |
| C74 | same | frame lemma over all tables; refutation (contents of unsupported functions and structures) |
| C75 | the expression rules | special case of C72; refutations (name in parentheses, commas of calls) |
| C76 | macro tables of `preprocess_file`, values | invariant over the lines of any text; composition with C77; refutations (enumerators, `#undef`) |
| C77 | `process_file` against an inductive semantics of C's preprocessor | simulation over the derivation, then C71-C73 on the text that is left; calls of function-like macros: expansion commutes with the substitution of parameters no replacement list brings in (CallProofs) |
| C78 | one skipped region | C20 with the effect on the tables; refutation (same path twice) |
| C79 | `parse_headers` | induction over the list of headers with C77 |
| C80 | `find_text` | induction over files and lines; refutation (line numbers) |
| C81 | `process_file`, `packing_at` | trace of the lines with the documented packing; sections of the grammar; refutation (next line, moved lines) |
| C82 | `CFunction.__init__` with `_get_type` on the tables of the parser | specification: the ctypes type of a C type as an inductive relation; simulation by induction on the depth of types and the set of structures not yet made; refutations ((void) callbacks, arrays of arrays) |
| C83 | `_get_struct` on the same tables | same induction: a class is registered before its members are made, so references to it are found; an anonymous member is complete when its structure is finished, since what it consists of is under construction only inside of that structure; refutation (the inner union asked for first) |
| C84 | text to call types | C73 and C82 composed; the tags by induction over the declarations |
| C85 | `extra_modifier` in the grammar | spellings of C72 with modifiers; nested parentheses by induction over groups of tokens; refutation (function pointers) |
| C86 | `CFunction.__call__` for left out arguments and None, `_get_pointer` | specification: which objects ctypes takes for a parameter; on top of C82; refutations (`char *`, arrays) |
| C87 | `find_library` on Linux | the regular expression as a search with longest match; induction over the text; refutation (file name) |
| C88 | `parse_headers`, `process_file`, `load`, `wrap_types`, `get_struct` | C73, C79, C81, C82 and C83 composed; what a header records is kept by the later ones (induction over headers) |
| C89 | `parse_headers`, `enum_loop`, `record_macro`, attributes of LibModel | enumerators and their values by induction over declarations and headers; macros as in C79; attributes by the cache invariant of C49; refutation (tags that look invented) |
| C90 | `repr`, `new_type`, `new_comp`, `new_enum`, `of_type`, `of_comp` | a reader of Python's literal and call syntax written apart from the printer; round trip by induction over objects; that declared types are printable by induction over declarators; refutations (calling conventions, empty packed structures, keywords) |
| C91 | `process_all_cached`, `open_headers` | reading any headers is a history of additions, removals and changes of file, one segment per header; the tables are the per-file tables merged in order (CachedOrder); removals by the names in `#undef` lines; the library by extensionality; refutations (`#undef` of other headers, equal base names, other headers that are not newer, kept texts) |
| C92 | `scan_n`, `top_at` | no rule matches inside a word, at a mark, at `extern "C"`, inside its string or at an undefined word in front of a declaration (by the views of GramLex and by computation on the characters); induction over the placing; the `header` of RunSpec.v allows such text, so that C72-C79, C81, C84, C88 and C89 hold with it; refutations (`int API f(int)`, two strings on a line) |
| C93 | `spans_n`, `around`, `sub_blank`, `unparsed_files` | the matches are those of `scan_n`; induction over the scan for the pieces; the induction of C92 again, carrying the layout of what is kept; refutations (tab in a literal, leftover words that come together, nothing returned from a cache) |
| C94 | `do_access`, `build`, `enum_of` | invariant of the library object: what is cached is an object for its definition in the present state of the backend; that state only grows (C82), and objects stay objects when it grows; a state of the library is reached by a list of accesses (induction); one class by uniqueness of the represented type; from texts by C88, with the tags of enums kept as those of structures in C84; refutation (another name for void) |
| C95 | `invoke`, `call_function`, `fill_args` | the list of arguments before filling by C51 (names and defaults only); every slot of it ends in an argument or in a known exception, and the backend's state only grows, so the invariant of C94 survives calls that fail; composition with C82, C86 and C94; from texts by C88; refutations (pointers to characters left out, None as an extra argument) |
| C96 | `call_result`, `item`, `auto` | the arguments of C95 are determined by what the caller gives (one value per position, NewOf exactly for what is left out); the recorded places are these, in order; then by cases on what is shown; from texts by C88; refutations (structures with a member called value, negative indices) |
| C97 | `build_array`, `cast_to`, `arg_c_type` | each request only adds classes to the library (the invariant of C94), so types stay what they are; the ctypes type of a C type does not depend on qualifiers and is unique, hence arrays are taken for the parameters of C; arrays by induction on dimensions and values; refutations (parameters declared with a length, strings that spell pointers) |
| C98 | several libraries | a run of a program keeps, for the table of open files, that it lists the objects given and not dropped; for a library with a parser of its own, a simulation with the library used alone; for libraries of one parser, C95's invariant holds of each through the uses of the others (classes are their own, the parser's lists only grow); refutations (arrays of arrays of a shared parser; headers of a second call) |
| C99 | headers in steps | two tables that show the same definitions (all kinds in order, all lookups per file, the file being read) are told apart by no part of the model: congruence of add_def, rem_def, each action of the grammar (nested induction over trees), directives, lines, files; a chain keeps that its tables are in the order of their files, that its files are those read and its macros those given or defined so far, so a copy shows the same definitions (C91's order lemmas), also when the first parser read a cache file; the single parser's run splits at the steps; refutations (undefined macros come back, equal base names, keyword definitions of later steps) |
| C100 | added headers | each header read is a history of add_def / rem_def under its own file name (from C91); by induction over that history the tables of other files are untouched, and a definition is the one of the file being read or else the earlier one; the first part of the longer list is read from a store that differs only in texts not yet read (congruence of C99); refutations (macros undefined by an added header, equal base names) |
| C101 | signatures | the reader of C90 reads a type whatever follows it, so that equal texts have equal types argument by argument; the part before the parenthesis is split at the last blank; refutations (qualifiers of the returned type, defaults, a parameter called None, functions returning pointers to functions) |
| C102 | architectures | after the first reading the tuple is kept, induction on the readings; a word without colon occurs in what is printed only on one side of the colon behind the path; refutations (paths and links with 32-bit or 64-bit in them, macOS) |

## 5. Trusted base

* The kernel of Coq 8.16.1 (`coqc`, with `vm_compute` in examples, refutations and a few finite
  tables).
* No axioms: under every property theorem `Print Assumptions` answers "Closed under the global
  context".  The constants `Coq.ssr.ssrunder.*` which a checker may list belong to a functor of the
  standard library that is loaded with ssreflect; no theorem depends on them.
* That the model says what the Python code does.  The code was read as text and never run.  Python's
  string methods, regular expressions and ctypes operations are modelled from the language reference
  and the behaviour of CPython 3.11; pyparsing from the text of version 3.1.0.
* That the specifications (`*Spec.v`) say what the English statements say.

### 5.1 Modelled

| file | lines | where |
|------|-------|-------|
| c_parser.py | 62-246 (`Type`, `Compound`, `Struct`, `Union`, `Enum`: equality and hacks) | TypeModel |
| c_parser.py | 464-712, 728-767, 1667-1735 (tables, cache, `find`, `import_dict`) | StoreModel |
| c_parser.py | 802-1042, 1529-1537 (comments, line joining, conditionals, pragmas, packing) | PpModel |
| c_parser.py | 1044-1151 (definition and expansion of macros) | MacroModel |
| c_parser.py | 1156-1382, 1748-1945 (the grammar, `parse_defs`) | GramModel |
| c_parser.py | 1384-1671 (parse actions) | DeclModel |
| c_parser.py | 502-541, 581-612, 715-770, 863, 903-969, 1044-1071 (reading of headers: the passes together, effect on the tables), 1732-1741 (`find_text`) | FileModel |
| c_parser.py | 1651-1680 (`eval_expr`, `eval`), Python arithmetic of both `eval` calls | EvalModel, PyExpr |
| init.py | all | InitModel |
| utils.py | 35-151, 168-278 | UtilModel |
| c_library.py | 31-330 | LibModel |
| c_library.py | 178-194, 272-279 (tables of the parser as seen by attributes) | ConstModel |
| c_parser.py | 115-125, 248-254, 265-335 (`Type`, `Compound`, `Enum`: construction and `repr`) | ReprModel |
| c_parser.py | 509-610 (the constructor with headers and a cache file, `process_all` with a cache) | CachedModel |
| c_parser.py | 544-610, 1156-1181 with `return_unparsed` (pyparsing's `transformString` without tokens, core.py:1285-1323) | UnparsedModel |
| c_library.py | 197-346 with the ctypes backend (backends/ctypes.py:186-346 as in LinkModel) | ObjModel |
| c_library.py | 396-420, 422-506 with the ctypes backend and LinkModel; what `argtypes` takes (`from_param` of ctypes) | InvokeModel |
| c_library.py, backends/ctypes.py | 503-504, 571-595, 606-625; 161-171: results of calls, with what ctypes shows for objects of its types | ResultModel |
| c_library.py, backends/ctypes.py | 508-519, 628-669; 364-386: build_array, cast_to, arg_c_type | HelpModel |
| c_library.py, backends/ctypes.py | 53-85, 161-207, 309-311; 57-58, 150-159, 453-461: opening with all arguments, the table of open libraries | MultiModel |
| c_library.py | 174-182, 399-415 (tables of the parser as seen by the backend, types of a call) | LinkModel |
| c_library.py | 471-491 (arguments left out, None) with ctypes.py 350-362 | LinkModel |
| c_library.py | 374-391, 647-668 | CtModel |
| thirdparty/find_library.py | 13-62 | FindModel |
| c_library.py | 396-626 | FunModel |
| c_library.py | 409, 521-527 (`pretty_signature`) | SigModel |
| utils.py | 157-194 (`LibraryPath`) | PathModel |
| backends/ctypes.py | 140-145, 173-386 | CtModel |
| backends/ctypes.py | 395-449 | InitModel |

Each definition cites its lines and names its simplifications.

### 5.2 Not modelled

* pyparsing's machinery beyond its matching rules: packrat caching, and the parse actions of
  structures and enums inside declarations that fail later (the model runs the actions of the
  declarations that are matched, once); the tokens that stay when an action failed.
* Decoding of files (the text of a file is a parameter), `re.sub` of the replacements (a parameter),
  the tables left behind when an exception ends `process_all`, logging, printing
  (`print_all`).
* Text with code points of 256 and above; integers as floats (a quotient is kept as an exact pair).
* In C98: `lock_calls` (C54), the prefix list being the caller's own list (a later change of it is seen), changes of the settings between
  events (files, configuration), other backends.
* The values held by ctypes objects; calling conventions of the machine; Python's recursion limit.
* The output of the commands run by `thirdparty/find_library.py` (parameters), `headers/update_WinDefs.py`.

### 5.3 The project's tests, run on the model

`RepoTests.v` proves no property.  It holds the headers of `/repo/tests/headers` word for word and the assertions of
`tests/test_parser.py` (types 57-159, comments 263-275, preprocessing 286-531, parsing 542-963), evaluated on the model:
every one of them holds.  The values of the literals with floats and strings are given by a table, since these are outside
the modelled expressions.  Not covered: file handling, `repr` and pickling.
`RepoLibrary.v` does the same with `tests/headers/ctypes_test.h`, from its text to the classes and signatures of the library, for
the assertions of `tests/backends/test_ctypes.py` that speak of values and types.

## 6. Where the code and the properties disagree

Each entry is either a `_refuted` theorem or is noted at the definition concerned.

### Types (c_parser.py:62-246)
* A calling convention sets a qualifier level to None: `typedef int __stdcall X;` then resolving X
  raises TypeError.
* `signed` alone becomes the empty name, `long signed int` becomes `long  int` (two spaces): neither
  is known to the backend; `signed char` becomes `char`.
* The dimensions of nested array typedefs are concatenated in the wrong order.
* `remove_compatibility_hack` drops the qualifiers; equality of types is not transitive.
- `repr` of a type omits `type_quals` when all of them are false, so the None that stands for a calling convention is lost: the type of `int __stdcall f(int)` does not read back equal (`c90_convention_refuted`).
- A structure without members but with a packing prints `Struct(, pack=2)`, which is no Python (`c90_empty_refuted`); an enum with an enumerator named like a keyword prints text that is no Python either (`c90_keyword_refuted`). The parser stores enums as plain dictionaries, `Enum` is only for its users.

### Tables and cache
* `#undef` in one file of a macro of another one is forgotten by a cache: the macro reappears.
* With three headers x.h, y.h, x.h (of two directories) a later definition in the third loses to one in
  the second when the cache is read.
* Neither contents nor directories of headers are part of the cache key: other headers of the same base names that
  are not newer than the cache file are taken for the cached ones.
* The texts a parser keeps are the raw ones when it read a cache, the preprocessed ones when not:
  `find_text` gives different results.
* Files of the same base name share a table; `copy_from`, the encoding and the directories are not
  part of the cache key; an exception during an import leaves a part of the definitions behind.
* Copying (c_parser.py:535-539, 690-701) goes through the per-file tables: a macro that another header undefined is back in the parser that copies (C99, `c99_undef_refuted`), headers of equal base names are copied as one file at the place of the first (`c99_base_names_refuted`), and copied definitions override keyword definitions of the new parser (`c99_keywords_refuted`).
* A path that is given twice (or `process_all` called again) is read a second time from the preprocessed text, c_parser.py:581-602, 837: structures lose their packing, since the pragmas are gone and `pack_list` starts anew, and names are expanded with the macros that were defined after them (C79, `c79_same_path_refuted`; C78, `c78_same_path_refuted`).
* `#undef` (c_parser.py:1683-1693) removes the macro from the global table but not from the table of the header that defined it, unless that is the header being read: `defs` and `file_defs` disagree afterwards (C100, `c100_undef_refuted`). A header with the base name of an earlier one writes into the same `file_defs` entry (`c100_base_names_refuted`).

### Preprocessor
* A `#define` without a name raises, even in a skipped region; unbalanced `#endif`, `#else`, `#elif`
  raise IndexError; so does `pack(pop)` on an empty stack.  `pack(push)`, `pack(show)` reset the packing.
* Line numbers drift, and packing is off by one line.
  A `#pragma pack` on the line behind a structure applies to it, and definitions in a skipped group above
  a pragma can undo it (C81, refuted); a `#pragma once` happens to make up for the line.
* `#undef` leaves function-like macros and values; redefining an object-like macro as a function-like
  one (or back) leaves the old one.
* Replacement lists are expanded when the macro is defined: after `#define F(a) a + x` and
  `#define G(x) F(x)`, `G(3)` gives `3 + 3` and not `3 + x` (C77, refuted).
* `#define A(x) F` with F function-like copies F; parameters that are macros are expanded in the
  parameter list; `"abc"(Y)` as a body is read as a parameter list.
* In conditions: `!=`, hexadecimal numbers, suffixes (5L is 50), the precedence of `!`, Python's `/`
  and `%`, and `(2||0)==1` are wrong.
* Macros behind a string literal on the same line are not expanded; macros in a body that are
  defined later never are; braces in bodies, surplus arguments, text between a name and its
  parenthesis and nested calls in arguments are mishandled.
* Comments are removed without leaving a space.

### Headers
* Macros are evaluated when they are defined, before the declarations of their header are parsed: a
  macro that uses an enumerator of the same header has the value None.
* A header that is listed twice, or `process_all` called twice, reads the preprocessed text again:
  guards and packing are gone, anonymous structures are recorded a second time.
* The check for missing files in `process_all` can never be true: `load_file` does not add them to the
  order; without a cache a header removed between the search and the loading is silently ignored.
* `find_text` searches the preprocessed text: its line numbers are not those of the header.

### Declarations
* `int __stdcall (f);` raises TypeError; `int a = 1, b = 2;` is not parsed; one value is shared by all
  declarators; `(x[2])[3]` swaps the dimensions; qualifiers of a parenthesised declarator may
  attach to the wrong level; typedef'd function types and `(__stdcall f)(int)` are recorded as variables.
* An enumerator whose value cannot be evaluated drops the enum and leaks its earlier values; an
  existing enum name is not redefined; a structure named `anon_struct0` replaces an anonymous one;
  an enum named `anon_enum0` behind an anonymous enum is dropped with its enumerators.
* Bit widths such as `0x3` drop the whole structure; `010` is read as 10.

### Grammar
* A line with several bit fields (`int A: 1, B: 2;`) is outside the grammar, and the whole structure with it: `struct BITS` of
  `tests/headers/ctypes_test.h` becomes a class without fields, known only from the argument of a function (RepoLibrary.v).
* A qualifier written `__word` is recorded as `"__"`: `int __declspec(dllexport) f();` gets the qualifiers `"__"` and the
  nested tokens (`function1_elsewhere` in RepoTests.v).  The test of this declaration passes on Linux only because
  `tests/test_init.py`, which runs before, leaves the parser configured with the Windows modifiers.
* Not parsed, and silently missing: prototypes with `...`, parameters such as `int (*)(int)`,
  names that begin with two underscores (`typedef int __u32;`; `__u32 x;` declares nothing),
  two initialisers in one declaration, lengths that use names beginning with `new` or `sizeof`,
  `sizeof(int)`, prefix `~` and `!`, numbers with lower case suffixes.
* The parser then goes on inside: local variables of such a function and members of such a
  structure are recorded as global variables.
* `(N) + 1` is read as a cast of `+ 1`: N is dropped.  `10.5` is read as `10 . 5`; the commas of
  calls in expressions are lost; tabs in string literals become blanks.
* An extra modifier in front of a declarator in parentheses takes the parentheses; `int API (*f)(int)`
  is then read as a function pointer with result type `API` (C85, refuted).
* An undefined word behind a type takes its place: `int API f(int);` gives f the result type `API`
  (C92, refuted).  `extern "C" int f(int); const char *s = ";";` on one line records s only: from the
  `C` on, the text is read as a type, a string and a semicolon (C92, refuted).
* `return_unparsed` changes the tables if there are tabs in literals (they are not expanded then); it
  returns characters and not, as documented, lines, so that words come together which were apart; with
  a valid cache file nothing is returned (C93, refuted).

### Values
* A macro whose text has an enumerator of the same header has no value: all macros of a header are evaluated
  before its enums (C89, refuted); with an enumerator of an earlier header it has one.
* Suffixes are also removed inside identifiers (`X1L`); `(A)-1` and `(A * (B))` are taken for casts;
  `/` is a float division; octal numbers, lower case suffixes, `&&`, `||`, `!` fail; the evaluation sees the
  names of the module and Python's builtins.

### Searches and initialisation
* `find_library` takes a path that contains `lib<name>.` anywhere: `mylibz.so` for `z` (C87, refuted).
* The searches extend the caller's list; the Linux header directories are only used for
  `sys.platform == "linux2"`; two bytes of the PE signature are checked; `auto_init` changes the
  caller's lists; from Python 3.12 on `time_t` is added to the caller's dictionary, and the parser
  does not learn of it.

### Libraries and calls
* Two paths to one library give two objects; handles are not checked for their architecture; later
  headers are ignored.
* A definition whose value is None hides the prefixed one; a cached prefixed alias raises NameError.
* Another name for void (`typedef void nothing;`) is a type of the library, but `lib.nothing` raises NameError (C94,
  refuted): the ctypes backend has None for it and the search takes that for nothing.
* Calling conventions in the return type raise AttributeError when wrapping; `lock_calls` raises on each
  call; keywords override positional arguments; defaults are never used; `(void)` parameters are
  recognised only in one spelling.
* One positional argument too many raises IndexError if it is None, and is passed to the C function otherwise (C95,
  `c95_extra_refuted`). Leaving out an argument of type `char *` fails in ctypes with ArgumentError (C95, `c95_text_refuted`; cf. C86).
* The value shown for an argument that was left out, or returned, is its attribute `value` if it has one: a structure with a
  member called `value` cannot be seen in a result, only that member (C96, `c96_value_refuted`). `result[-1]` of such an argument is the
  pointer, not what it points to (`c96_negative_refuted`).
* A parameter declared as `int v[3]` takes only arrays of exactly 3 elements, where C takes any (C97, `c97_length_refuted`). `cast_to` and
  `build_array` take names of types, not spellings of types like `int *`, though a cast needs a pointer type (`c97_pointer_refuted`).
* A second call for an open file returns the first object: its headers, prefixes, convention and keywords are ignored, even headers that
  are of no allowed type (C98, `c98_headers_refuted`). Keywords for the parser are ignored when a parser is given; the backend is only
  looked at when the library is given as a string.
* The architecture of a library is searched in everything the program `file` prints, the path included: a 32 bit library below a
  directory with `64-bit` in its name is accepted by a 64 bit Python; libraries found by name are not resolved, so that a link to
  `libm-32-bit-floats.so` is refused though the library fits; on macOS libraries with one architecture are never recognised (C102).
* `pretty_signature` raises TypeError for a function that returns a pointer to a function, and its text has neither the qualifiers of
  the returned type nor default values (C101, refuted).  It is called when a call of a C function raises: the exception is then replaced.
* Libraries made from one `CParser` share its lists: asking one for an array of arrays changes the type the other gives
  (C98, `c98_shared_refuted`, as asking twice does in one library).

### ctypes
* An argument of type `char *` that is left out gets a pointer to a c_char_p, which ctypes refuses; None for a
  parameter `int x[3]` becomes a new array instead of a null pointer (C86, refuted).  For `void *` a pointer to a
  `void *` is made.
* Building a type with an array of arrays extends the recorded list: the type grows with each request.
* `int (**f)(int)` loses a star; `void (*f)(void)` raises TypeError.
* Two functions with the same prototype get different types when a typedef of an array of arrays is
  involved (C82, refuted); a callback without parameters cannot be passed.
* A request by typedef name makes a new class each time; a failed construction leaves a class without
  fields registered.
* In `struct s { union { struct s *next; ... }; };`, asking for the union (`lib.anon_union0`) before the
  structure raises AttributeError, and leaves the class of the structure without members (C83, refuted).
* The width of bit fields is ignored and a value would be taken as the width; the names of anonymous members may
  clash with later ones.
