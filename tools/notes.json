{
 "C03": "PROVED: Exact for tables without calling conventions in typedefs, as quantified; c03_calling_convention_refuted documents that a calling convention on a typedef makes resolution raise TypeError.",
 "C05": "PROVED: Proved for C type names as quantified; c05_free_text_refuted shows it fails for free text such as 'struct ' without a name.",
 "C06": "False as stated: `signed` alone and `long signed int` are not in the table, `signed char` gives c_char. Proved for spellings in the order sign, size, int/char except `signed` and `signed char`.",
 "C07": "Full statement refuted (qualifiers are dropped by remove_compatibility_hack); base and declarators always come back, and the whole type when it has no qualifiers.",
 "C08": "Transitivity refuted when plain tuples are mixed in; reflexivity and symmetry hold for all objects, and on the objects the parser builds equality is identity.",
 "C11": "Refuted across files (a macro of a.h undefined while b.h is read stays in the tables of a.h); proved for the global tables and for names defined in the current file only.",
 "C13": "PROVED: Proved with its proviso (and for files read one after the other without any proviso on names); c13_without_proviso_refuted shows the proviso is needed.",
 "C16": "Refuted for damaged caches in which a file entry lacks a kind; proved for every other reason of failure.",
 "C17": "Refuted when a file undefines a macro of another file; proved when files are read one after the other and names are removed only in the file that defined them.",
 "C18": "Exact characterisation of equal options: keyword definitions, base names and replacements are all compared; refuted for copy_from, which is not compared (nor are the encoding and the directories).",
 "C20": "Proved for balanced regions in which every #define/#undef has a name; refuted otherwise: a nameless #define in a skipped region raises AttributeError.",
 "C22": "Refuted for lines with a string literal whose last character is a macro name; proved for all other lines.",
 "C25": "Refuted: text after a string literal is not expanded, only its last character is looked at; the text before and inside is proved.",
 "C26": "Refuted for bodies with braces (they are read as format fields); proved for every brace-free body, parameter list and argument list.",
 "C27": "Refuted for surplus arguments (dropped) and for a name without parenthesis followed by another parenthesis on the line (text lost); proved for missing parentheses and missing arguments.",
 "C28": "Refuted (bodies are expanded when defined, not when used); proved to agree with C's expansion when every name is defined before it is mentioned.",
 "C30": "Proved for object-like macros (tests and expansion, until redefined). Refuted for function-like macros, which #undef leaves in place.",
 "C31": "Proved for a grammar of C expressions where the translation to Python agrees with C (decimal numbers, identifiers, defined, ! && ||, comparisons except !=, arithmetic except /). Refuted for !=, division, ! before a comparison, || as an operand, % of negatives, hexadecimal and suffixed numbers.",
 "C33": "Refuted for a blank before the parenthesis, a string literal before the closing parenthesis and for parameters that are macros; proved for all other one-line definitions.",
 "C34": "Proved for disciplined histories (each push gives a packing and is done while the packing set by the enclosing push is in force; distinct identifiers; no underflow). Refuted in general.",
 "C35": "Proved as long as every pop matches an earlier push; refuted for an unmatched pop, which raises IndexError.",
 "C36": "Proved when earlier lines produced one output line each and the next line is no pragma. Refuted: a pragma on the following line applies, and lines without output shift line numbers.",
 "C37": "Proved: comments are removed, everything else incl. literals kept in order, for texts C reads as parts. Refuted: a comment does not separate words; a line comment continued by a backslash leaves its second line.",
 "C39": "Proved for every declarator of C except brackets behind a parenthesised array ([int (x[2])[3]], refuted: dimensions swapped) and a calling convention directly before a parenthesis.",
 "C40": "Exact characterisation proved: processing fails (always with TypeError) exactly when a calling convention stands directly before a parenthesis; refuted in general by that form.",
 "C41": "Counting and availability proved for every evaluator; C values proved for constant expressions on which Python agrees with C; refuted for division and for a name in parentheses (read as a cast).",
 "C42": "Proved: recorded exactly when all values can be computed, then completely; on failure no other table than the values changes. Refuted: values recorded before the failure stay.",
 "C43": "PROVED: for all histories of declarations, starting from any tables in which tagged type names belong to definitions.",
 "C44": "PROVED: for all histories of declarations.",
 "C45": "Proved for the last declarator and for declarations without initialiser; refuted for other declarators, which get the value of the last one.",
 "C46": "Proved for specifiers that do not name function types and without a calling convention alone with the name in parentheses; refuted for these two forms.",
 "C47": "False as stated: a library found by name is not resolved to its real path. Proved per path for every history of openings and collections; in full when searched names are resolved paths.",
 "C48": "Real header bytes are read by the functions of C65; the file command is a parameter.",
 "C49": "False as stated: a value None hides the prefixed name and a void typedef is not found. Proved: the first kind in order wins, unprefixed before prefixed.",
 "C50": "False as stated: with definitions f and p_f and prefix p_, lib.f fails after lib.p_f (an attribute cached under one kind or prefix decides later lookups). Proved for repeated accesses and attribute/call agreement; order independence proved where no name has two kinds.",
 "C51": "Conversion of the objects by ctypes is not modelled.",
 "C52": "False only with lock_calls and a missing parameter (NameError). Proved otherwise.",
 "C53": "False for negative indices and for automatic arguments that were overwritten. Proved for indices from the front and other writes.",
 "C54": "False: a recorded calling convention makes wrapping raise AttributeError and lock_calls makes each call raise. Proved without both.",
 "C55": "False as stated: `int (**f)(int)` loses a star, `void (*f)(void)` raises TypeError, the second parameter of a typedef'd two-dimensional array type gets an extra dimension. Proved for types without arrays of arrays, pointers to function pointers and (void); and for data types with arrays of arrays the first time they are asked for.",
 "C56": "False as stated: each request for `typedef int M[2][3]` changes its definition. Proved for types (and members) without arrays directly of arrays.",
 "C57": "False as stated: asking for a structure by a typedef name makes a new class every time. Proved: one class per structure when asked for by name or through types; distinct structures have distinct classes; fields agree with member types; construction finishes when typedefs are declared before use.",
 "C58": "False as stated: the declared width is never used and a value is taken as width. Proved: members without value have no bit field.",
 "C59": "False as stated: a later member called anon_member0 clashes. Proved when no member behind an anonymous one has such a name; declared names are always kept.",
 "C60": "Lengths that are integers >= 0 and an element type other than None.",
 "C61": "Calls include the implicit initialisation by creating a parser.",
 "C62": "False as stated: all four functions can modify their arguments (witnesses). Proved: exactly when the searches leave the caller's list unchanged; initialisation leaves its arguments unchanged before Python 3.12 when not initialising for Windows.",
 "C63": "False on Linux: standard directories are only searched when sys.platform is linux2. Proved in full for the other platforms and for linux2 and, without standard directories, for the other names of Linux.",
 "C64": "The system search (thirdparty/find_library.py) is a parameter.",
 "C65": "False as stated: only two of the four signature bytes are checked. Proved with that relaxation, for every byte sequence.",
 "C66": "Refuted for operands that are not tuples; holds for types and tuples.",
 "C67": "Proved for declarators of C and decimal widths; refuted for a qualified anonymous member (type const) and a hexadecimal width (structure lost).",
 "C68": "Proved for decimal and hexadecimal literals with upper-case suffixes; refuted for octal literals and lower-case suffixes (SyntaxError).",
 "C69": "False as stated: time_t is replaced from 3.12 on, and auto_init(os='win32') elsewhere leaves None. Proved for init with exactly these exceptions.",
 "C71": "In the model of the grammar the recursion is bounded by the length of the text; the bound is never reached. Python's recursion limit is not modelled.",
 "C72": "Supported declarations and layouts: GramSpec.v; what may stand between them: NoiseSpec.v.",
 "C73": "Proved for headers of supported declarations (GramSpec.v) in any layout, with structures, unions and enums defined inside of others, with or without names; refuted for variadic prototypes, unnamed function pointer parameters, names with two leading underscores and declarations with two initialisers. Missing: types defined in parameter lists, structures or enums defined twice.",
 "C74": "Proved for headers of supported declarations; refuted: local variables of unsupported functions and members of unsupported structures become global variables.",
 "C75": "Proved for the expressions of GramSpec.v (names, names with one index, numbers, strings, parentheses, operators; no calls, and no second index); refuted for a name in parentheses, which is dropped, and for calls, whose commas are lost.",
 "C76": "Proved after preprocessing any text (value of the recorded text), and for headers as in C77 (the text is C's); refuted for texts that use enumerators of the same header and for #undef, which leaves the value.",
 "C77": "Proved for comments, continuation lines, object-like macros, calls of function-like macros (arguments without parentheses and string literals), conditionals, and directives without effect; missing: packing (C81) and macros defined again after others have mentioned them. Refuted for macros whose replacement list brings in the name of a parameter of a macro defined later (capture).",
 "C78": "Proved for every guarded header; refuted when the same path is listed twice (the preprocessed text, without its guard, is read again).",
 "C79": "Proved for headers as in C77 with distinct paths, and for missing headers. Refuted for a path that is given twice: the second reading is of the preprocessed text, without the packing directives and with the macros defined later.",
 "C80": "Proved for the texts that are kept; refuted for the line numbers of the header on disk (preprocessing moves lines).",
 "C81": "Proved for disciplined pragmas (C34) and headers where the packing for the line number the code looks up is the one in force (aligned). Refuted otherwise: a pragma on the next line applies, and lines that have been dropped undo a pragma.",
 "C82": "Proved for prototypes without arrays of arrays, calling conventions, pointers to function pointers, (void) in the parameters of function pointers, signed/signed char and '...', and when no earlier request has merged adjacent arrays or failed half-way (ready). Refuted in general: (void) callbacks raise TypeError, and arrays of arrays behind a typedef change between functions. A structure that contains itself by value is not rejected by the specification of classes.",
 "C83": "Proved for the types of C82 and members without bit width, anonymous ones included when the structure or union they consist of is used nowhere else and is not asked for before the structure it is in. Refuted otherwise: a request for the inner union first fails, and leaves the outer structure without members.",
 "C84": "The tags are proved for every supported header; the types of a call under the conditions of C73 and C82. Without them it is false: a function with a calling convention is recorded but cannot be wrapped (c84_from_text_refuted).",
 "C85": "Proved for modifiers behind a type. Refuted in front of a declarator in parentheses: the modifier takes the parentheses. Missing: modifiers behind the stars of a declarator, which the grammar does not read.",
 "C86": "Proved on top of C82. Refuted for char * left out (the object made is refused by ctypes) and for arrays given as None (a new array instead of a null pointer). Missing: pointers to characters, arrays given as None, the types C82 leaves out.",
 "C87": "PROVED: the statement holds for every output of the commands. Beyond it, a refutation records that the file name of the path need not be lib<name>. and more: a path that merely contains lib<name>. is taken.",
 "C88": "Proved for headers as in C77 and C81 with distinct paths, declarations as in C73, calls and classes as in C82 and C83. Without them it is false: a structure declared again in a later header changes the calls of the functions of the earlier one (c88_library_refuted).",
 "C89": "Proved for headers as in C77 and C81, enumerators with expressions as in C41 and object-like macros, also with enumerators of earlier headers; refuted for macros with enumerators of the same header and for tags of the form the parser invents.",
 "C90": "Round trip proved for every object built of None, booleans, integers, strings, lists, tuples, types, structures, unions and enums whose types do not have a None among otherwise empty qualifiers, and for the types of all declarators without calling conventions. Refuted for calling conventions, empty packed structures and enumerators named like keywords. Missing: floats, objects of other classes.",
 "C91": "Proved for all headers with distinct base names in which no #undef names a macro of another header or of a keyword, without copy_from. Refuted for #undef of macros of other headers, equal base names, different headers that are not newer, and the texts find_text searches. Missing: copy_from (see C18), failures when the cache file is written.",
 "C92": "Proved for linkage specifications, semicolons, braces and undefined words in front of declarations that begin with a keyword of a type, or with a name and another word or an asterisk; and for any tokens behind the declarations. Refuted for words behind the type (the word becomes the type) and for a second string on the line of a linkage specification (a declaration can be lost). The theorems on whole files, several headers, packing, calls and constants (C76-C89) allow these things between declarations too. Missing: declarations that begin with a name and a parenthesis, words with two underscores in front (read as qualifiers).",
 "C93": "Proved for all texts: the pieces, the blank lines, and (without tabs) the tables, also for several files. What exactly is left is proved for headers with the things of C92 between declarations; for these with tabs outside of literals too. Refuted: tabs in literals are expanded only if the text is not asked for; the text that is left may contain declarations again; nothing is returned when the definitions come from a cache file.",
 "C94": "Proved for all accesses to definitions whose types ctypes can represent as in C82 and C83, after any accesses of that sort, with prefixes that make no two names of a kind clash; and from the texts of lists of headers as in C88. Refuted: another name for void is a type but cannot be reached as an attribute. Missing: what C82 and C83 leave out; lib(kind, name) with a shortened name (C50) or with a typedef of a structure (C57).",
 "C95": "Proved for all functions whose prototypes ctypes can represent as in C82, all arguments and keywords, after any accesses and calls of that sort, and from the texts of lists of headers as in C88. What ctypes takes from the caller is a parameter of the theorem. Refuted: a pointer to characters that is left out makes ctypes refuse the call; None as an argument too many is an IndexError. Missing: what C82 leaves out, None for array parameters (C86), parameters with defaults (C++), lock_calls (C54).",
 "C96": "Proved for all functions whose prototypes ctypes can represent as in C82 and all calls that C95 says run the C function, after any accesses and calls, and from the texts of lists of headers as in C88. What the C function returns and stores, and the values of the caller's objects, are parameters of the theorem. Refuted: a structure with a member called value is shown as this member; result[-1] is a pointer where result[n-1] is what it points to. Missing: what C95 leaves out, and setting items of a result (C53).",
 "C97": "Proved for all names of types and all functions ctypes can represent as in C82, after and before any accesses, calls and uses of these helpers, and for the libraries of lists of headers as in C88. What ctypes says to values for elements, and which objects of the caller it takes, are parameters of the theorem. Refuted: arrays of another length for parameters declared with a length; strings that spell pointers. Missing: sizes that are no integers, values for objects that are no arrays.",
 "C98": "Calls are proved for all programs and arguments; independence for all libraries whose parser no other library has (unconditionally), and for libraries of one parser that are used as in C94 and C95. Refuted: arrays of arrays of a shared parser; the headers of a second call for a file that is open. Missing: lock_calls (C54), changes of the files between calls.",
 "C99": "Proved for chains of any length (the first parser may write a cache file or read one, as win_defs does) and for the next step whether it succeeds or raises; texts are arbitrary. Refuted: a header that undefines another header's macro, equal base names, keyword definitions at later steps. Missing: a cache file at later steps (its key takes no notice of copy_from).",
 "C100": "Proved for all texts, including the exceptions of the shorter list. Refuted: a macro that an added header undefines (gone from defs, kept in file_defs), and added headers with the base name of another one.",
 "C101": "Proved for returned types of words and pointers and parameters of any types (without calling conventions). Refuted: qualifiers of the returned type and default values are not shown, a parameter called None looks unnamed, and TypeError for functions that return pointers to functions.",
 "C102": "The attributes are proved in full; the kind of file and the refusal on Linux for paths without the words 32-bit and 64-bit. Refuted: such paths, links (libraries found by name are not resolved), libraries of macOS with one architecture."
}