{"id": "C01", "title": "Typedef resolution always answers", "statement": "Resolving any type against any typedef table (including tables with cycles, self references and missing names) finishes: it either returns a type or raises, after following at most one typedef more than the table has entries.", "quantifier": "for every typedef table and every type", "why_tests_cant": "The set of typedef tables is infinite and the interesting ones (long chains, cycles of every length, cycles entered from outside) cannot be enumerated.", "anchors": ["pyclibrary/c_parser.py: Type.eval", "pyclibrary/c_parser.py: CParser.eval_type"]}
{"id": "C02", "title": "Typedef resolution follows the typedef chain and keeps every declarator", "statement": "Resolution succeeds with result r exactly when the name of the type leads, by successive typedef entries, to a fundamental type; the declarators of r are then those of the typedefs met, innermost first, followed by the declarators of the type asked for, and the base of r is that fundamental type with the word 'signed' removed.", "quantifier": "for every typedef table whose entries are types, every type", "why_tests_cant": "Needs a statement about chains of any length; a test fixes one chain.", "anchors": ["pyclibrary/c_parser.py: Type.eval", "pyclibrary/c_parser.py: Type.is_fund_type"]}
{"id": "C03", "title": "Unknown and circular typedefs are reported, never mis-resolved", "statement": "Resolution raises DefinitionError exactly when the typedef chain of the type reaches a name that is not defined or comes back to a name already met; in particular a type that names itself through any cycle is never returned half resolved.", "quantifier": "for every typedef table whose entries are types without calling convention, every type", "why_tests_cant": "Cycles of every length and entry point.", "anchors": ["pyclibrary/c_parser.py: Type.eval"]}
{"id": "C04", "title": "No qualifier is lost by typedef resolution", "statement": "For every resolved type, each qualifier (const, volatile, ...) written on any level of any typedef of the chain or on the type itself is present in the result at the level it qualified: the qualifier sequence of the result is the concatenation of the sequences met, merging the last level of the typedef with the first level of its user, and there is always exactly one qualifier level more than declarators.", "quantifier": "for every typedef table and type whose levels carry qualifier tuples", "why_tests_cant": "The merge happens at each step of an arbitrarily long chain.", "anchors": ["pyclibrary/c_parser.py: Type.eval", "pyclibrary/c_parser.py: Type.__init__"]}
{"id": "C05", "title": "Resolving a resolved type changes nothing", "statement": "If resolution of a type succeeds with r then resolving r again succeeds with r, whatever the typedef table.", "quantifier": "for every typedef table and every type whose names are C type names (struct/union/enum tags and extra types are identifiers)", "why_tests_cant": "Universally quantified over tables and over arbitrary base-type strings (the removal of 'signed' works on free text).", "anchors": ["pyclibrary/c_parser.py: Type.eval", "pyclibrary/c_parser.py: Type.is_fund_type"]}
{"id": "C06", "title": "Every C integer type spelled with 'signed' resolves to a type the ctypes backend knows", "statement": "For every legal C spelling of an integer type (any order of signed/unsigned, short/long, int, char), resolving it and asking the backend for the base type yields the ctypes type of that C type.", "quantifier": "for every legal spelling of the C integer types", "why_tests_cant": "The spellings form a combinatorial family; the test headers use a few of them.", "anchors": ["pyclibrary/c_parser.py: Type.eval", "pyclibrary/backends/ctypes.py: CTypesCLibrary._get_type", "pyclibrary/backends/ctypes.py: init_clibrary"]}
{"id": "C07", "title": "Function type wrapping can be undone", "statement": "Wrapping a function type for backward compatibility and unwrapping it gives back an equal type (base, declarators and qualifiers), and types that are not functions are left alone by both.", "quantifier": "for every type", "why_tests_cant": "All shapes of declarators and qualifiers.", "anchors": ["pyclibrary/c_parser.py: Type.add_compatibility_hack", "pyclibrary/c_parser.py: Type.remove_compatibility_hack"]}
{"id": "C08", "title": "Comparing types is an equivalence", "statement": "Equality between types, and between types and the plain tuples users compare them with, is reflexive, symmetric and transitive.", "quantifier": "for every three types or tuples", "why_tests_cant": "Transitivity over nested types, tuples and qualifier lists needs induction on types.", "anchors": ["pyclibrary/c_parser.py: Type.__eq__", "pyclibrary/c_parser.py: Type.__ne__"]}
{"id": "C09", "title": "Fundamental type test", "statement": "A type is fundamental exactly when its base text starts with 'struct ', 'union ' or 'enum ', or all its whitespace separated words are type words known to the parser; the answer does not depend on the amount of whitespace between the words.", "quantifier": "for every base text and every list of extra types", "why_tests_cant": "Free text input.", "anchors": ["pyclibrary/c_parser.py: Type.is_fund_type"]}
{"id": "C10", "title": "The definition tables agree with the per file tables", "statement": "After any sequence of additions and file switches, a name is defined in a global table exactly when it is defined in the same table of some file, the global value is the value most recently added, and the file's value is the value most recently added while this file was current.", "quantifier": "for every history of add/switch operations", "why_tests_cant": "Histories are unbounded.", "anchors": ["pyclibrary/c_parser.py: CParser.add_def", "pyclibrary/c_parser.py: CParser.file_defs"]}
{"id": "C11", "title": "Removing a definition removes it everywhere", "statement": "After #undef of a macro the macro is neither in the global tables nor in the tables from which the cache and copy_from are built.", "quantifier": "for every history of add/remove/switch operations", "why_tests_cant": "The failure needs a particular interleaving of files and operations.", "anchors": ["pyclibrary/c_parser.py: CParser.rem_def", "pyclibrary/c_parser.py: CParser.add_def", "pyclibrary/c_parser.py: CParser.preprocess"]}
{"id": "C12", "title": "find reports exactly the places where a name is defined", "statement": "find(name) returns the pair (file, kind) once for each file and kind in which name is defined, and nothing else.", "quantifier": "for every history and every name", "why_tests_cant": "Soundness and completeness over all histories.", "anchors": ["pyclibrary/c_parser.py: CParser.find"]}
{"id": "C13", "title": "copy_from gives the definitions of the source parser", "statement": "A parser created with copy_from=p, and nothing else, finds for each kind and name exactly the value which p finds, provided p never removed a definition and each name is defined in one file only or the file defining it last was seen first last.", "quantifier": "for every source parser reachable by additions", "why_tests_cant": "The import replays the tables in another order than the one in which they were filled.", "anchors": ["pyclibrary/c_parser.py: CParser.import_dict", "pyclibrary/c_parser.py: CParser.__init__"]}
{"id": "C14", "title": "Copying definitions is idempotent and loses nothing already present", "statement": "Importing the same definitions twice gives the same tables as importing them once; names which are not in the imported definitions keep their value.", "quantifier": "for every state and every imported dictionary", "why_tests_cant": "All states and dictionaries.", "anchors": ["pyclibrary/c_parser.py: CParser.import_dict"]}
{"id": "C15", "title": "A cache is used only when it is valid", "statement": "With validity checking, loading a cache succeeds only if the options recorded in it equal those of the parser, its format version is not older than the parser's, and no header file of the parser is newer than it; when the cache is rejected for one of those reasons the definitions of the parser are unchanged.", "quantifier": "for every parser, cache content and set of file times", "why_tests_cant": "Quantifies over file system states and cache contents.", "anchors": ["pyclibrary/c_parser.py: CParser.load_cache"]}
{"id": "C16", "title": "A failed cache load leaves no trace", "statement": "If loading a cache fails (for any reason) the definitions of the parser are those before the attempt, so that parsing can start afresh.", "quantifier": "for every cache content, including damaged ones", "why_tests_cant": "Every possible damaged cache; crash points inside the import loop.", "anchors": ["pyclibrary/c_parser.py: CParser.load_cache", "pyclibrary/c_parser.py: CParser.import_dict"]}
{"id": "C17", "title": "Parsing and reloading the cache give the same definitions", "statement": "A parser that loads the cache written by another parser ends with the same definitions as the parser that wrote it.", "quantifier": "for every history of the writing parser", "why_tests_cant": "Depends on the interleaving of files, removals and redefinitions.", "anchors": ["pyclibrary/c_parser.py: CParser.write_cache", "pyclibrary/c_parser.py: CParser.load_cache", "pyclibrary/c_parser.py: CParser.import_dict"]}
{"id": "C18", "title": "Every argument of the constructor that influences the result invalidates the cache", "statement": "Two parsers built with different definitions passed by keyword, different file names or different replacements never share a cache; more generally no argument which changes the definitions found is ignored by the validity test.", "quantifier": "for every pair of argument lists", "why_tests_cant": "Quantifies over pairs of configurations.", "anchors": ["pyclibrary/c_parser.py: CParser.__init__", "pyclibrary/c_parser.py: CParser.load_file", "pyclibrary/c_parser.py: CParser.load_cache"]}
{"id": "C19", "title": "Conditional compilation selects the branch C selects", "statement": "For every properly nested arrangement of #if/#ifdef/#ifndef/#elif/#else/#endif, the lines processed are exactly those of the first branch whose condition holds (or of #else if none does), conditions being evaluated with the macros defined at that point; all other branches contribute no text, no macro and no packing change, and their conditions have no effect.", "quantifier": "for every nesting depth, number of branches, and condition evaluation", "why_tests_cant": "Unbounded nesting; a test exercises a fixed nesting.", "anchors": ["pyclibrary/c_parser.py: CParser.preprocess"]}
{"id": "C20", "title": "Code in a skipped region is inert", "statement": "Whatever text is written between an #if that does not hold and the matching #elif/#else/#endif, preprocessing neither fails because of it nor lets it define, undefine, pack or emit anything.", "quantifier": "for every text of the skipped region", "why_tests_cant": "All texts.", "anchors": ["pyclibrary/c_parser.py: CParser.preprocess"]}
{"id": "C21", "title": "Unbalanced conditionals are detected", "statement": "Preprocessing raises whenever an #elif, #else or #endif has no matching #if, and never because of a balanced file; an unterminated #if is not an error.", "quantifier": "for every sequence of lines", "why_tests_cant": "All sequences of directives.", "anchors": ["pyclibrary/c_parser.py: CParser.preprocess"]}
{"id": "C22", "title": "Ordinary lines without macro names are passed through verbatim", "statement": "A line outside directives whose words are all unknown as macros is emitted unchanged, character for character.", "quantifier": "for every line and every macro table", "why_tests_cant": "Free text.", "anchors": ["pyclibrary/c_parser.py: CParser.expand_macros", "pyclibrary/c_parser.py: CParser.preprocess"]}
{"id": "C23", "title": "Macro expansion always finishes", "statement": "Expanding a line finishes with a text, never an exception, for every macro table, including tables with macros that mention themselves or each other. If no macro is function-like, the text is at most (1 + length of the longest macro) times as long as the line.", "quantifier": "for every macro table and line", "why_tests_cant": "Divergence cannot be excluded by running.", "anchors": ["pyclibrary/c_parser.py: CParser.expand_macros", "pyclibrary/c_parser.py: CParser.expand_fn_macro"]}
{"id": "C24", "title": "Object-like macros are replaced as whole words", "statement": "On a line without string literals and function-like macro names, each maximal word that is an object-like macro is replaced by its text, all other characters are kept in order; parts of longer identifiers are never replaced.", "quantifier": "for every line and macro table", "why_tests_cant": "Free text, all positions.", "anchors": ["pyclibrary/c_parser.py: CParser.expand_macros"]}
{"id": "C25", "title": "String literals are not expanded, the code around them is", "statement": "On a line containing a string literal, nothing inside the literal is replaced and the text before and after it is expanded as if it stood alone.", "quantifier": "for every line with a string literal and every macro table", "why_tests_cant": "Free text; the defect concerns what follows the literal.", "anchors": ["pyclibrary/c_parser.py: CParser.expand_macros"]}
{"id": "C26", "title": "Function-like macro calls substitute all parameters simultaneously", "statement": "Calling a function-like macro of n parameters with n arguments free of parentheses and commas gives the body in which each whole-word occurrence of a parameter outside string literals is replaced by the corresponding argument, everything else unchanged; substituted text is not substituted again.", "quantifier": "for every body, parameter list and argument list", "why_tests_cant": "Binding structure over free text.", "anchors": ["pyclibrary/c_parser.py: CParser.compile_fn_macro", "pyclibrary/c_parser.py: CParser.expand_fn_macro"]}
{"id": "C27", "title": "Faulty function-like macro calls are left untouched", "statement": "A use of a function-like macro that is not a well formed call (no parenthesis after the name, unbalanced parentheses, wrong number of arguments) leaves the line as it was.", "quantifier": "for every line and macro table", "why_tests_cant": "All malformed uses.", "anchors": ["pyclibrary/c_parser.py: CParser.expand_macros", "pyclibrary/c_parser.py: CParser.expand_fn_macro"]}
{"id": "C28", "title": "Macros defined through other macros follow C's late expansion", "statement": "After a list of #define lines, expanding the name of an object-like macro gives what a C preprocessor would give: names in its body are expanded with the definitions in force at the place of use.", "quantifier": "for every sequence of definitions", "why_tests_cant": "Depends on the order of definitions.", "anchors": ["pyclibrary/c_parser.py: CParser.preprocess", "pyclibrary/c_parser.py: CParser.process_macro_defn", "pyclibrary/c_parser.py: CParser.expand_macros"]}
{"id": "C29", "title": "#ifdef and #ifndef test whether the macro is defined", "statement": "#ifdef X takes its branch exactly when X is currently an object-like or function-like macro, #ifndef X exactly when it is not, and #if defined(X) agrees with #ifdef X.", "quantifier": "for every identifier and every macro table", "why_tests_cant": "All identifiers (including those that collide with the words used in the translation) and tables.", "anchors": ["pyclibrary/c_parser.py: CParser.preprocess", "pyclibrary/c_parser.py: CParser.eval_preprocessor_expr"]}
{"id": "C30", "title": "#undef makes a macro undefined", "statement": "After an active #undef X, #ifdef X is false and X is no longer expanded, until X is defined again.", "quantifier": "for every macro table and name, object-like or function-like", "why_tests_cant": "All histories of define/undef.", "anchors": ["pyclibrary/c_parser.py: CParser.preprocess", "pyclibrary/c_parser.py: CParser.rem_def"]}
{"id": "C31", "title": "#if expressions have their C value", "statement": "For every integer constant expression made of decimal and hexadecimal numbers, identifiers, defined, ! && || and the comparison and arithmetic operators, #if takes the branch exactly when the C value is non zero.", "quantifier": "for every expression and macro table", "why_tests_cant": "The expression grammar is infinite.", "anchors": ["pyclibrary/c_parser.py: CParser.eval_preprocessor_expr"]}
{"id": "C32", "title": "Preprocessing never lets one bad condition escape", "statement": "Evaluating a condition never raises: a condition that cannot be evaluated is false.", "quantifier": "for every condition text", "why_tests_cant": "All texts.", "anchors": ["pyclibrary/c_parser.py: CParser.eval_preprocessor_expr"]}
{"id": "C33", "title": "Object-like definitions keep their text", "statement": "#define NAME body, where body does not begin with a parenthesised list of names, makes NAME an object-like macro whose text is the stripped, expanded body; #define NAME(params) body makes it function-like.", "quantifier": "for every name and body", "why_tests_cant": "All bodies, in particular those beginning with a parenthesis.", "anchors": ["pyclibrary/c_parser.py: CParser.process_macro_defn", "pyclibrary/c_parser.py: CParser.preprocess"]}
{"id": "C34", "title": "#pragma pack follows the documented (MSVC) stack discipline", "statement": "After any sequence of pack(n), pack(), pack(push[,id][,n]) and pack(pop[,id][,n]) pragmas, the packing in force is the one prescribed by the MSVC documentation which the code claims to follow.", "quantifier": "for every sequence of pack pragmas", "why_tests_cant": "Unbounded stack histories.", "anchors": ["pyclibrary/c_parser.py: CParser.preprocess"]}
{"id": "C35", "title": "Unmatched #pragma pack(pop) is harmless", "statement": "A pack(pop) with nothing pushed does not make parsing fail.", "quantifier": "for every sequence of pack pragmas", "why_tests_cant": "All histories.", "anchors": ["pyclibrary/c_parser.py: CParser.preprocess"]}
{"id": "C36", "title": "A structure gets the packing in force where it is written", "statement": "The packing recorded for a structure is the one set by the last pack pragma on a line before the structure's line.", "quantifier": "for every file, every placement of pragmas and structures", "why_tests_cant": "Off-by-one errors at every pair of positions; line numbering drifts with the directives met before.", "anchors": ["pyclibrary/c_parser.py: CParser.packing_at", "pyclibrary/c_parser.py: CParser.preprocess", "pyclibrary/c_parser.py: CParser.process_struct"]}
{"id": "C37", "title": "Comment removal removes comments and nothing else", "statement": "Removing comments from a file deletes every /*...*/ and //... comment that is outside string literals, keeps all other characters in order, keeps the text of string literals untouched, and treats a comment as a separator of the words around it.", "quantifier": "for every file text", "why_tests_cant": "Free text with interacting delimiters.", "anchors": ["pyclibrary/c_parser.py: CParser.remove_comments"]}
{"id": "C38", "title": "Continuation lines are joined", "statement": "Every backslash-newline is removed and nothing else is changed, so that the lines seen by the directive recogniser are the logical lines of C.", "quantifier": "for every file text", "why_tests_cant": "Free text.", "anchors": ["pyclibrary/c_parser.py: CParser.preprocess"]}
{"id": "C39", "title": "Declarators are read as C reads them", "statement": "The type recorded for a declarator is, for every nesting of pointers, arrays, functions and parentheses, the type C gives it.", "quantifier": "for every declarator tree", "why_tests_cant": "Recursive structure of unbounded depth.", "anchors": ["pyclibrary/c_parser.py: CParser.process_declarator", "pyclibrary/c_parser.py: CParser.process_type"]}
{"id": "C40", "title": "Processing a declarator never fails and keeps one qualifier list per level", "statement": "Every declarator the grammar can produce is processed without exception and yields exactly one more qualifier tuple than modifiers.", "quantifier": "for every declarator tree", "why_tests_cant": "Recursive structure of unbounded depth.", "anchors": ["pyclibrary/c_parser.py: CParser.process_declarator", "pyclibrary/c_parser.py: CParser.process_type", "pyclibrary/c_parser.py: Type.__init__"]}
{"id": "C41", "title": "Enumerators have their C values", "statement": "Each enumerator of a recorded enum without explicit value is one more than its predecessor, starting at 0, explicit values are honoured, and every enumerator is also available as a value.", "quantifier": "for every list of enumerators", "why_tests_cant": "Unbounded lists, all mixes of explicit and implicit values.", "anchors": ["pyclibrary/c_parser.py: CParser.process_enum"]}
{"id": "C42", "title": "An enum is recorded completely or not at all", "statement": "If an enum definition cannot be processed (an enumerator's value is not computable) nothing of it is recorded; if it is recorded all of its enumerators are.", "quantifier": "for every list of enumerators", "why_tests_cant": "All failure points.", "anchors": ["pyclibrary/c_parser.py: CParser.process_enum"]}
{"id": "C43", "title": "Anonymous structures, unions and enums get fresh names", "statement": "The name invented for an anonymous structure, union or enum is never one already in use, so that recording it never destroys a definition.", "quantifier": "for every set of existing definitions", "why_tests_cant": "All sets of existing names.", "anchors": ["pyclibrary/c_parser.py: CParser.process_struct", "pyclibrary/c_parser.py: CParser.process_enum"]}
{"id": "C44", "title": "A forward reference never destroys a structure definition", "statement": "Once a structure or union with members has been recorded under a name, any number of later references to it without members leaves the members and packing as recorded; a reference before the definition does not prevent it from being recorded.", "quantifier": "for every history of references and definitions", "why_tests_cant": "Histories are unbounded.", "anchors": ["pyclibrary/c_parser.py: CParser.process_struct"]}
{"id": "C45", "title": "A variable is recorded with its own initial value", "statement": "In a declaration of several variables each variable is recorded with the value of its own initialiser, or None if it has none.", "quantifier": "for every declaration", "why_tests_cant": "All declarator lists.", "anchors": ["pyclibrary/c_parser.py: CParser.process_variable"]}
{"id": "C46", "title": "Function prototypes and variables are told apart", "statement": "A declared name is recorded as a function exactly when its C type is a function type, otherwise as a variable (pointers to functions are variables).", "quantifier": "for every declarator tree", "why_tests_cant": "All declarators.", "anchors": ["pyclibrary/c_parser.py: CParser.process_variable", "pyclibrary/c_parser.py: CParser.process_function"]}
{"id": "C47", "title": "One library object per library", "statement": "While a library object is alive, asking for the same library returns the same object.", "quantifier": "for every sequence of openings, by path, by name or by already loaded handle", "why_tests_cant": "All histories and path spellings.", "anchors": ["pyclibrary/c_library.py: CLibraryMeta.__call__", "pyclibrary/backends/__init__.py: get_library_path"]}
{"id": "C48", "title": "A library of the wrong word size is never wrapped", "statement": "Opening a library by path or name raises whenever the architecture of the file is known and does not contain the word size of the interpreter.", "quantifier": "for every file and interpreter word size", "why_tests_cant": "All file contents.", "anchors": ["pyclibrary/c_library.py: CLibraryMeta.__call__", "pyclibrary/utils.py: LibraryPath.arch", "pyclibrary/utils.py: get_arch"]}
{"id": "C49", "title": "Attribute access finds the first matching kind", "statement": "lib.name is the object for the first of values, functions, types, structs, unions, enums in which name, or a prefix followed by name, is defined (with a value); if there is none NameError is raised.", "quantifier": "for every set of definitions, prefixes and every name", "why_tests_cant": "All definition sets.", "anchors": ["pyclibrary/c_library.py: CLibrary.__getattr__", "pyclibrary/c_library.py: CLibrary._all_names_"]}
{"id": "C50", "title": "Access order does not matter", "statement": "The object obtained by lib.name or lib(kind, name) does not depend on what has been accessed before, and repeated accesses give the same object.", "quantifier": "for every history of accesses", "why_tests_cant": "Histories are unbounded; the failing history needs a prefixed and an unprefixed access in a given order.", "anchors": ["pyclibrary/c_library.py: CLibrary.__call__", "pyclibrary/c_library.py: CLibrary.__getattr__", "pyclibrary/c_library.py: CLibrary._make_obj_"]}
{"id": "C51", "title": "Arguments reach the parameter they name", "statement": "In a call that succeeds every keyword argument is passed at the position of the parameter of that name, every positional argument at its position unless a keyword names the same parameter, and every parameter required by the signature receives a value.", "quantifier": "for every signature and every mix of positional and keyword arguments", "why_tests_cant": "All signatures and argument mixes.", "anchors": ["pyclibrary/c_library.py: CFunction.__call__"]}
{"id": "C52", "title": "Bad calls are refused before the C function runs", "statement": "A call with an unknown keyword, with None for a parameter that is not a pointer, or without a value for a required non pointer parameter raises TypeError and the C function is not executed.", "quantifier": "for every signature and argument mix", "why_tests_cant": "All argument mixes.", "anchors": ["pyclibrary/c_library.py: CFunction.__call__", "pyclibrary/backends/ctypes.py: CTypesCLibrary._get_pointer"]}
{"id": "C53", "title": "A call result gives the same argument by name, index and iteration", "statement": "For a call result, result[name] equals result[index of name]; automatically created pointers are dereferenced and only those; auto() lists exactly the dereferenced automatic arguments in order; writing then reading an argument gives what was written.", "quantifier": "for every signature, call and index", "why_tests_cant": "All signatures including repeated or missing names and negative indices.", "anchors": ["pyclibrary/c_library.py: CallResult.__getitem__", "pyclibrary/c_library.py: CallResult.find_arg", "pyclibrary/c_library.py: CallResult.auto"]}
{"id": "C54", "title": "Functions with a calling convention can be wrapped and locked libraries can be called", "statement": "Every function found in the headers whose types are known to the backend can be wrapped, whatever its calling convention, and called, whether or not lock_calls was requested.", "quantifier": "for every signature and option", "why_tests_cant": "All signatures.", "anchors": ["pyclibrary/c_library.py: CFunction.__init__", "pyclibrary/c_library.py: CFunction.__call__"]}
{"id": "C55", "title": "The ctypes type has the shape of the C type", "statement": "For every resolved type built from pointers, arrays and function pointers over a known base type the backend returns the ctypes type of the same shape: pointers for '*' and for arrays of unknown size, arrays with the first dimension outermost, function types with the same argument and result types.", "quantifier": "for every type", "why_tests_cant": "Unbounded nesting.", "anchors": ["pyclibrary/backends/ctypes.py: CTypesCLibrary._get_type"]}
{"id": "C56", "title": "Asking for a type does not change the definitions", "statement": "Building the ctypes type of a definition leaves all definitions as they were; asking twice gives the same type.", "quantifier": "for every definition and every number of requests", "why_tests_cant": "Needs two requests on an aliased structure of a particular shape.", "anchors": ["pyclibrary/backends/ctypes.py: CTypesCLibrary._get_type"]}
{"id": "C57", "title": "One ctypes class per structure", "statement": "Each structure or union of the headers is represented by one ctypes class, whichever names, typedefs or enclosing structures lead to it; construction of recursive structures finishes.", "quantifier": "for every set of mutually referring structures and every order of requests", "why_tests_cant": "All reference graphs and request orders.", "anchors": ["pyclibrary/backends/ctypes.py: CTypesCLibrary._get_struct", "pyclibrary/c_library.py: CLibrary._resolve_struct_alias"]}
{"id": "C58", "title": "Structure fields carry the declared bit widths", "statement": "A member declared with a bit width appears in the ctypes class as a bit field of that width and no other member does.", "quantifier": "for every member list", "why_tests_cant": "All member lists.", "anchors": ["pyclibrary/backends/ctypes.py: CTypesCLibrary._get_struct", "pyclibrary/c_parser.py: CParser.process_struct"]}
{"id": "C59", "title": "Structure fields have distinct names", "statement": "The names given to anonymous members never collide with another member of the structure.", "quantifier": "for every member list", "why_tests_cant": "All member lists.", "anchors": ["pyclibrary/backends/ctypes.py: CTypesCLibrary._get_struct"]}
{"id": "C60", "title": "Arrays are built with the requested dimensions", "statement": "build_array with size (n1,...,nk) gives an array indexed by n1 first, and nk last.", "quantifier": "for every list of dimensions", "why_tests_cant": "Unbounded number of dimensions.", "anchors": ["pyclibrary/backends/ctypes.py: CTypesCLibrary._get_array", "pyclibrary/c_library.py: build_array"]}
{"id": "C61", "title": "Initialisation happens once", "statement": "In any sequence of init/auto_init calls at most the first one succeeds; all later ones raise RuntimeError and leave the tables set by the first one unchanged.", "quantifier": "for every sequence of initialisation calls", "why_tests_cant": "All sequences.", "anchors": ["pyclibrary/init.py: init", "pyclibrary/init.py: auto_init", "pyclibrary/backends/ctypes.py: init_clibrary"]}
{"id": "C62", "title": "Initialisation and searches do not modify the caller's arguments", "statement": "init, auto_init, find_header and find_library leave the dictionaries and lists they are given unchanged.", "quantifier": "for every argument", "why_tests_cant": "All arguments and platforms.", "anchors": ["pyclibrary/init.py: auto_init", "pyclibrary/backends/ctypes.py: init_clibrary", "pyclibrary/utils.py: find_header", "pyclibrary/utils.py: find_library"]}
{"id": "C63", "title": "Header search order", "statement": "find_header returns the first existing file among: the directories given by the caller in order, then the registered directories most recently registered first, then the platform's standard directories (for example /usr/include on Linux); it raises OSError exactly when there is none.", "quantifier": "for every file system and list of directories", "why_tests_cant": "All file systems.", "anchors": ["pyclibrary/utils.py: find_header", "pyclibrary/utils.py: add_header_locations"]}
{"id": "C64", "title": "Library search order", "statement": "find_library returns the first existing file among the caller's directories, then the registered directories most recently registered first, then the system search, and raises OSError exactly when nothing is found.", "quantifier": "for every file system and list of directories", "why_tests_cant": "All file systems.", "anchors": ["pyclibrary/utils.py: find_library", "pyclibrary/utils.py: add_library_locations"]}
{"id": "C65", "title": "The PE header is decoded for every file", "statement": "On Windows the architecture of a file is 32 bit exactly when it is a PE file for I386, 64 bit exactly when it is a PE file for AMD64 or IA64, and unknown otherwise; reading never fails.", "quantifier": "for every byte sequence", "why_tests_cant": "All byte sequences.", "anchors": ["pyclibrary/utils.py: get_shared_library_arch", "pyclibrary/utils.py: get_arch", "pyclibrary/utils.py: LibraryPath.arch"]}
{"id": "C66", "title": "!= is the negation of == for types", "statement": "For a type t and any object o, t != o is true exactly when t == o is false.", "quantifier": "for every type and every object", "why_tests_cant": "Tests compare a few types with a few tuples; the claim ranges over all objects, and fails only for operands of other classes that tests do not try.", "anchors": ["pyclibrary/c_parser.py: Type.__eq__, Type.__ne__ (127-134)"]}
{"id": "C67", "title": "A recorded structure has exactly the declared members", "statement": "The members recorded for a structure or union are exactly the declared ones, in order of declaration, each with its name (None if anonymous), its C type and its bit width.", "quantifier": "for every list of member declarations", "why_tests_cant": "All lists of lines, declarators and widths; tests check a few layouts.", "anchors": ["pyclibrary/c_parser.py: CParser.process_struct (1539-1598)", "pyclibrary/c_parser.py: CParser.process_type"]}
{"id": "C68", "title": "Every integer literal evaluates to its C value", "statement": "A C integer literal used as the value of a macro, an enumerator, a variable or an array length is evaluated to the number it denotes in C.", "quantifier": "for every integer literal of C", "why_tests_cant": "Infinitely many literals, with three bases and all suffixes.", "anchors": ["pyclibrary/c_parser.py: CParser.eval (1673-1680)", "pyclibrary/c_parser.py: number, hexint, decint (1795-1801)"]}
{"id": "C69", "title": "What is declared at initialisation is known to parser and backend", "statement": "After init(extra_types, extra_modifiers) the parser accepts exactly the given extra type names and modifiers, the backend maps every given name to the given type and every other standard name to its standard ctypes type; no name known to the parser is left without a type in the backend.", "quantifier": "for every dictionary of types, list of modifiers, platform and Python version", "why_tests_cant": "initialisation can be run once per process, so a test run only sees one combination of arguments, platform and version", "anchors": ["pyclibrary/init.py: init", "pyclibrary/init.py: auto_init", "pyclibrary/backends/ctypes.py: init_clibrary", "pyclibrary/c_parser.py: _init_cparser"]}
{"id": "C70", "title": "Definitions passed by keyword to the constructor are found", "statement": "A parser created with definitions passed by keyword (types=..., macros=..., ...) and nothing else finds each of them under its kind and name and finds nothing else; a keyword that is no kind of definition and brings names raises KeyError.", "quantifier": "for every set of keyword definitions", "why_tests_cant": "Quantifies over all kinds, names and values passed.", "anchors": ["pyclibrary/c_parser.py: CParser.__init__", "pyclibrary/c_parser.py: CParser.add_def"]}
{"id": "C71", "title": "Parsing ends on every text", "statement": "Whatever the text of a file contains, the parser reads it to its end and returns: no rule of the grammar recurses for ever.", "quantifier": "for every text, every configuration of types and modifiers (no empty names) and every state of the tables", "why_tests_cant": "The grammar is recursive and skips what it does not understand; no set of inputs excludes an endless recursion.", "anchors": ["pyclibrary/c_parser.py: CParser.parse_defs", "pyclibrary/c_parser.py: CParser.build_parser"]}
{"id": "C72", "title": "Layout does not matter", "statement": "A header made of supported declarations is read as exactly these declarations in whatever way its tokens are spread over lines, blanks and tabs; no text has two readings, and two layouts of the same declarations leave the same tables.", "quantifier": "for every sequence of supported declarations and every layout", "why_tests_cant": "Layouts and declarations are unbounded; tests fix one layout of a few declarations.", "anchors": ["pyclibrary/c_parser.py: CParser.parse_defs", "pyclibrary/c_parser.py: CParser.build_parser", "pyclibrary/c_parser.py: _init_cparser"]}
{"id": "C73", "title": "Every declaration of a header is recorded with its C type", "statement": "After parsing a header, each function prototype or definition, variable and typedef in it is found under its name with the type that C gives it (and a variable with its own initial value), and each structure, union or enum it defines is found with its members or values, unless declared again later.", "quantifier": "for every header, every declaration in it and every declarator of the declaration", "why_tests_cant": "Needs the composition of grammar and parse actions for all declarations, positions and contexts.", "anchors": ["pyclibrary/c_parser.py: CParser.parse_defs", "pyclibrary/c_parser.py: CParser.build_parser", "pyclibrary/c_parser.py: CParser.process_function", "pyclibrary/c_parser.py: CParser.process_variable", "pyclibrary/c_parser.py: CParser.process_typedef", "pyclibrary/c_parser.py: CParser.process_struct", "pyclibrary/c_parser.py: CParser.process_enum"]}
{"id": "C74", "title": "Parsing records nothing but what the header declares", "statement": "Parsing a header changes no entry of any table except those of names the header declares or defines.", "quantifier": "for every header, every table and every name", "why_tests_cant": "A universal statement about names that do not occur.", "anchors": ["pyclibrary/c_parser.py: CParser.parse_defs", "pyclibrary/c_parser.py: CParser.build_parser", "pyclibrary/c_parser.py: CParser.add_def"]}
{"id": "C75", "title": "Expressions are evaluated as they are written", "statement": "The length recorded for an array is computed from the tokens between its brackets, unchanged but for the suffixes of numbers.", "quantifier": "for every expression and layout", "why_tests_cant": "Expressions are unbounded and the grammar rewrites some of them.", "anchors": ["pyclibrary/c_parser.py: CParser.build_parser", "pyclibrary/c_parser.py: CParser.eval_expr", "pyclibrary/c_parser.py: recombine"]}
{"id": "C76", "title": "Macros have the values C gives them", "statement": "After a header has been read, an object-like macro whose text is a constant expression of C (after all macros in it are replaced) has that value in the table of values; a macro without a text has the value None; removing a macro removes its value.", "quantifier": "for every header and every macro in it", "why_tests_cant": "Values depend on the macros defined before, on the order of definition and on what the header declares; the texts are unbounded.", "anchors": ["pyclibrary/c_parser.py: CParser.process_macro_defn", "pyclibrary/c_parser.py: CParser.preprocess", "pyclibrary/c_parser.py: CParser.eval_expr"]}
{"id": "C77", "title": "A header is read as C translates it", "statement": "Reading a header records exactly the declarations in the text C's preprocessor leaves of it: comments removed, lines joined, conditionals resolved with the macros defined at that point, macros replaced.", "quantifier": "for every header, every macro table at its beginning and every layout", "why_tests_cant": "The four passes work on text and interact through the tables of macros; the number of their combinations is unbounded.", "anchors": ["pyclibrary/c_parser.py: CParser.process_all", "pyclibrary/c_parser.py: CParser.remove_comments", "pyclibrary/c_parser.py: CParser.preprocess", "pyclibrary/c_parser.py: CParser.parse_defs"]}
{"id": "C78", "title": "Include guards work", "statement": "A header enclosed in an include guard adds no definition when the guard macro is already defined.", "quantifier": "for every header with a guard, whatever it contains, and every state in which the guard is defined", "why_tests_cant": "The contents of the skipped region are arbitrary text.", "anchors": ["pyclibrary/c_parser.py: CParser.preprocess", "pyclibrary/c_parser.py: CParser.process_all"]}
{"id": "C79", "title": "Headers are read in the order given", "statement": "The headers are read in the order of the list; the macros defined in one are known in the following ones; each declaration is recorded under its header; a header that cannot be found is reported and nothing is read.", "quantifier": "for every list of headers, file system, search result and replacement", "why_tests_cant": "The list of headers is unbounded and each header can change how the following ones are read.", "anchors": ["pyclibrary/c_parser.py: CParser.__init__", "pyclibrary/c_parser.py: CParser.find_headers", "pyclibrary/c_parser.py: CParser.load_file", "pyclibrary/c_parser.py: CParser.process_all"]}
{"id": "C80", "title": "Text search finds exactly the matching lines", "statement": "find_text reports each line of the loaded headers that contains the text, once, with its file and its line number in that file.", "quantifier": "for every set of loaded files and every text", "why_tests_cant": "Files and texts are unbounded.", "anchors": ["pyclibrary/c_parser.py: CParser.find_text"]}
{"id": "C81", "title": "Packing in whole headers", "statement": "Reading a header with conditionals, macros and packing pragmas records each structure and union with the packing that the pragmas in front of it, in the branches that are read, have set; everything declared in the header is recorded as without pragmas.", "quantifier": "for every header with any number of lines, nested conditionals, pragmas and declarations", "why_tests_cant": "Headers, their pragmas and their conditionals are unbounded, and the packing of a declaration depends on everything in front of it.", "anchors": ["pyclibrary/c_parser.py: CParser.process_file", "pyclibrary/c_parser.py: CParser.preprocess", "pyclibrary/c_parser.py: CParser.process_pragma", "pyclibrary/c_parser.py: CParser.packing_at", "pyclibrary/c_parser.py: CParser.process_compound"]}
{"id": "C82", "title": "From prototype to call", "statement": "When a function of the headers is wrapped, the types of its result and of its arguments that are handed to ctypes are the ctypes types of the prototype: typedef names are replaced by what they stand for, integer types by those of the same spelling, structures by their classes, pointers and arrays by pointers and arrays of the type they refer to, function pointers by function types, and a lone void parameter by no argument. There is only one such list of types, and making them changes no class made before.", "quantifier": "for all tables of headers with any number of typedefs, structures that refer to each other and functions, and any earlier requests", "why_tests_cant": "Typedef chains, nesting of declarators and recursion between structures are unbounded, and the result depends on what has been asked before.", "anchors": ["pyclibrary/c_library.py: CFunction.__init__", "pyclibrary/backends/ctypes.py: CTypesCLibrary._get_type", "pyclibrary/backends/ctypes.py: CTypesCLibrary._get_struct", "pyclibrary/c_parser.py: CParser.eval_type"]}
{"id": "C83", "title": "From definition to class", "statement": "The class made for a structure or union has the packing of its definition and one field per member, in the order of the definition, with the ctypes type of the declared type, also when the structure refers to itself or to others through pointers; every class made on the way is complete as well.", "quantifier": "for all tables of headers whose structures may refer to each other in any way, and any earlier requests", "why_tests_cant": "Structures may be nested and mutually recursive to any depth, and classes are shared between requests.", "anchors": ["pyclibrary/backends/ctypes.py: CTypesCLibrary._get_struct", "pyclibrary/backends/ctypes.py: CTypesCLibrary._get_type"]}
{"id": "C84", "title": "From the text of a header to a call", "statement": "After reading the text of a header, every structure and union recorded in it is found by its tag, and a function declared in it is called with the ctypes types of the declaration as written.", "quantifier": "for every header of any number of supported declarations in any layout and every prototype in it", "why_tests_cant": "The chain from text to call goes through grammar, parse actions, type resolution and class construction, each unbounded in its input.", "anchors": ["pyclibrary/c_parser.py: CParser.parse_defs", "pyclibrary/c_parser.py: CParser.process_compound", "pyclibrary/c_library.py: CFunction.__init__", "pyclibrary/backends/ctypes.py: CTypesCLibrary._get_type"]}
{"id": "C85", "title": "Extra modifiers", "statement": "Words registered as extra modifiers, with or without an argument in parentheses, are ignored behind a type: a header that uses them records what the same header without them records.", "quantifier": "for every header of any number of supported declarations in any layout, with any sequence of modifiers and any nesting of parentheses in their arguments", "why_tests_cant": "Headers, modifier sequences and the nesting of their arguments are unbounded.", "anchors": ["pyclibrary/c_parser.py: _init_cparser (extra_modifier)", "pyclibrary/c_parser.py: CParser.build_parser", "pyclibrary/init.py: init"]}
{"id": "C86", "title": "Arguments left out or given as None", "statement": "An argument left out of a call is replaced by a pointer to a new object if the parameter is a pointer or a pointer to a pointer, and that pointer is of the type of the parameter; all others must be given or the call is refused with TypeError. None becomes a null pointer of the type of a pointer parameter and is refused for parameters that are no pointers.", "quantifier": "for every set of recorded declarations, every function in it, every position of an argument and every state of the class tables reached by earlier requests", "why_tests_cant": "Types of parameters, chains of typedefs and the structures they lead to are unbounded.", "anchors": ["pyclibrary/c_library.py: CFunction.__call__", "pyclibrary/c_library.py: CFunction.arg_c_type", "pyclibrary/backends/ctypes.py: CTypesCLibrary._get_pointer"]}
{"id": "C87", "title": "Finding a library by name on Linux", "statement": "The library found for a name is the first path with lib<name>. in the list of ldconfig, else of ldd, else of the linker; none is found only if none of the three lists has one.", "quantifier": "for every name and every output of the three commands", "why_tests_cant": "The outputs differ between machines and are arbitrary text; a test sees the one of its machine.", "anchors": ["pyclibrary/thirdparty/find_library.py: _findlib_ldconfig", "pyclibrary/thirdparty/find_library.py: _findlib_gcc", "pyclibrary/thirdparty/find_library.py: _find_library"]}
{"id": "C88", "title": "A library with several headers", "statement": "A library that is given several headers with macros, conditionals and packing pragmas records every declaration of each of them with the type it has in C, given the macros and declarations in front of it, and nothing read later changes that. ctypes is given these types for calls of functions of any header, and the classes of structures and unions have the packing in force at their definition and the members in order.", "quantifier": "for every list of headers of any number of supported declarations, in any layout, and every declaration in them", "why_tests_cant": "The number of headers, their texts, their macros and the types they declare are unbounded; a test fixes one library.", "anchors": ["pyclibrary/c_parser.py: CParser.process_all", "pyclibrary/c_parser.py: CParser.preprocess", "pyclibrary/c_parser.py: CParser.parse_defs", "pyclibrary/c_library.py: CLibrary", "pyclibrary/backends/ctypes.py: CTypesCLibrary._get_struct"]}
{"id": "C89", "title": "The constants of headers as attributes", "statement": "When the headers of a library have been read, lib.NAME is the value C gives the constant: for an enumerator, also one whose expression uses enumerators of the same or an earlier header, and for an object-like macro whose complete expansion is a constant expression, also one with enumerators, whatever else has been accessed before; also when one of the prefixes the library was opened with is left out of the name.", "quantifier": "for every list of headers of any number of enums and macros, every constant in them, every list of prefixes and every sequence of earlier accesses", "why_tests_cant": "Enumerators and macros may be chained through any number of definitions and headers; a test fixes a few values.", "anchors": ["pyclibrary/c_parser.py: CParser.process_macro_defn", "pyclibrary/c_parser.py: CParser.process_enum", "pyclibrary/c_parser.py: CParser.process_all", "pyclibrary/c_library.py: CLibrary.__getattr__", "pyclibrary/c_library.py: CLibrary._make_obj_"]}
{"id": "C90", "title": "repr of types, structures, unions and enums reads back", "statement": "Evaluating the text repr(x) prints, with Type, Struct, Union and Enum in scope, gives an object equal to x, with the same qualifiers, members and packing.", "quantifier": "for every Type, Struct, Union or Enum object, of any nesting and with any strings and integers in it; in particular for the type of every declarator without calling conventions", "why_tests_cant": "Strings with quotes and escapes, nested types and qualifiers may be combined without bound; a test prints a few objects.", "anchors": ["pyclibrary/c_parser.py: Type.__repr__", "pyclibrary/c_parser.py: Type.__init__", "pyclibrary/c_parser.py: Compound.__repr__", "pyclibrary/c_parser.py: Compound.__init__", "pyclibrary/c_parser.py: Enum.__repr__", "pyclibrary/c_parser.py: Enum.__init__"]}
{"id": "C91", "title": "A library opened from a cache equals one read from its headers", "statement": "When a parser reads headers and writes a cache file, a later parser with the same keyword definitions and replacements and with headers of the same base names, none of them newer than the cache file, parses nothing and has the same definitions in the same order; a library object made of it has the same types and signatures and answers every attribute access in the same way.", "quantifier": "for all texts of the headers that the first parser gets through, provided that base names are distinct and no header undefines a macro of another one or of a keyword; for all keyword definitions, replacements, directories and sequences of attribute accesses", "why_tests_cant": "The texts of the headers and the order of definitions, redefinitions and #undef lines in them are unbounded; tests compare a cache for one or two given headers.", "anchors": ["pyclibrary/c_parser.py: CParser.__init__", "pyclibrary/c_parser.py: CParser.process_all", "pyclibrary/c_parser.py: CParser.load_cache", "pyclibrary/c_parser.py: CParser.write_cache", "pyclibrary/c_parser.py: CParser.import_dict", "pyclibrary/c_library.py: CLibrary.__init__"]}
{"id": "C92", "title": "Text around declarations does not disturb them", "statement": "A header may contain, before and between its declarations, `extern \"C\"` with or without a block, stray semicolons and braces, and words that nothing defines (such as an export macro) in front of declarations: parsing records exactly what it records for the declarations alone. Whatever follows the declarations of a header, even if it is no C, does not change how they are read.", "quantifier": "for all supported declarations and all placings of these things before, between and behind them, in every layout with one string at most on the line of a linkage specification; for what follows: for all sequences of tokens; for all tables the parser has before", "why_tests_cant": "Where nothing matches, the parser goes on one character further, inside of words and strings; what it finds there depends on all the text that follows. Tests show single headers.", "anchors": ["pyclibrary/c_parser.py: CParser.parse_defs", "pyclibrary/c_parser.py: CParser.build_parser"]}
{"id": "C93", "title": "The unparsed text is what the declarations leave", "statement": "Asking for the text that was not parsed returns the preprocessed text without one piece per declaration that was found; apart from that only white space is lost, and no blank lines are left. For a header of declarations with other things between them (see C92) it consists of just these things, and of white space if there are none. The tables are the same as without asking, and for several files there is one text per file.", "quantifier": "for all texts, all configurations and all tables the parser has before; for what exactly is left: for all placings of the things of C92 between supported declarations; equal tables: for all texts without tabs, and for all such headers with tabs outside of literals", "why_tests_cant": "The option takes another way through the parsing library (without expanding tabs) and the result is spliced from positions; a test shows that one piece is missing in one text, not that nothing else is missing in any.", "anchors": ["pyclibrary/c_parser.py: CParser.parse_defs", "pyclibrary/c_parser.py: CParser.process_all"]}
{"id": "C94", "title": "Types, classes, enums and functions as attributes of a library", "statement": "`lib.name` is the first definition, in the documented order of kinds and prefixes, that the name stands for, as the object of the backend: a value, a function with the ctypes types of its prototype, the ctypes type of a typedef, the class of a structure or union with its fields, or the enumerators of an enum. `lib(kind, name)` gives the same object for the same definition, also for a typedef of an enum. Once given, every later access to the same thing gives the same object, whatever is accessed in between; a structure and all its typedefs give one and the same class, whichever was asked for first. A function of the headers that the shared library does not have is a KeyError. All this holds for the texts of the headers: the types, members and enumerators are those the C declarations mean.", "quantifier": "for all lists of headers as in C88, all prefixes that do not make two definitions of a kind clash, all shared libraries, all sequences of accesses before and in between that concern supported definitions, all definitions whose types ctypes can represent (C82, C83)", "why_tests_cant": "The objects are made on demand and cached in four places (by name, by kind and name, by tag, and in ctypes); whether a class is made twice depends on the order of accesses and on what refers to what. Tests use a few orders.", "anchors": ["pyclibrary/c_library.py: CLibrary.__getattr__", "pyclibrary/c_library.py: CLibrary.__call__", "pyclibrary/c_library.py: CLibrary._make_obj_", "pyclibrary/backends/ctypes.py: CTypesCLibrary._get_type", "pyclibrary/backends/ctypes.py: CTypesCLibrary._get_struct", "pyclibrary/backends/ctypes.py: CTypesCLibrary._get_function"]}
{"id": "C95", "title": "What a C function is given when it is called through a library", "statement": "`lib.f(args, kwargs)` runs the C function at most once, with one argument per parameter of the prototype in the header and in its order: the object the caller gives by keyword, or else by position, unchanged; for None a null pointer of the parameter's type; and for a parameter of pointer (or pointer to pointer) type that is left out a pointer to a new object, of a type ctypes takes for the parameter. Further positional arguments follow. Otherwise the C function is not run: TypeError for a keyword that names no parameter, for a parameter left out that is no such pointer, and for None where no pointer is wanted; an exception for an object ctypes does not take. This holds after any accesses and calls made before, however these ended, and for the prototypes of the header texts.", "quantifier": "for all lists of headers as in C88, all prototypes with types ctypes can represent (C82), all positional and keyword arguments, all objects and whatever ctypes takes for which type, all sequences of accesses and calls before", "why_tests_cant": "The combinations of positions, keywords, None and missing arguments are unbounded, each interacting with typedef resolution and with the classes made by earlier calls; tests call a handful of functions of one library.", "anchors": ["pyclibrary/c_library.py: CFunction.__call__", "pyclibrary/c_library.py: CFunction.__init__", "pyclibrary/backends/ctypes.py: CTypesCLibrary._get_pointer", "pyclibrary/backends/ctypes.py: CTypesCLibrary._init_function"]}
{"id": "C96", "title": "What the result of a call shows", "statement": "After `result = lib.f(...)`, `result()` is the value the C function returned (None for functions without result). `result[i]` is, for a pointer parameter that was left out, what the C function stored in the object made for it, and for every other parameter what the caller gave, as a Python value if it has one; for None it is a null pointer of the parameter's type. `result['name']` is the same for the first parameter of that name. `result.auto()` lists exactly the parameters that were left out, in their order, and unpacking gives all arguments in order. Values of simple types are Python values; structures, unions and pointers are objects of the classes of the library.", "quantifier": "for all lists of headers as in C88, all prototypes with types ctypes can represent (C82), all calls that C95 says run the C function, whatever the C function returns and stores, all sequences of accesses and calls before", "why_tests_cant": "Which positions are automatic depends on how positions, keywords and None are mixed, and what is shown on the type behind typedefs and on the attributes of classes built on demand; tests look at single calls of single functions.", "anchors": ["pyclibrary/c_library.py: CallResult.__call__", "pyclibrary/c_library.py: CallResult.__getitem__", "pyclibrary/c_library.py: CallResult.find_arg", "pyclibrary/c_library.py: CallResult.__iter__", "pyclibrary/c_library.py: CallResult.auto", "pyclibrary/backends/ctypes.py: CTypesCLibrary._extract_val_"]}
{"id": "C97", "title": "Arguments made with build_array and cast_to, and the types arg_c_type tells", "statement": "After anything done with a library, `build_array(lib, name, size, vals)` makes an array of these dimensions whose elements are of the C type called `name` (the very type `lib.name` gives, and that functions of the library want), its first elements set to the values in order; too many values are an IndexError, negative sizes a ValueError, void a TypeError. Such an array can be passed to every function of the library for a parameter C takes it for: a pointer to the element type however it is called and qualified, a pointer to rows, void *. `cast_to(lib, obj, name)` makes a pointer of the type called `name`, a TypeError if that is no pointer. `lib.f.arg_c_type(i)` and `arg_c_type(name)` tell the type that ctypes wants for that parameter (IndexError, KeyError if there is none). None of this changes how functions are called.", "quantifier": "for all lists of headers as in C88, all names of types ctypes can represent (C82), all dimensions and values, all sequences of accesses, calls and uses of these helpers before and after", "why_tests_cant": "Whether ctypes takes an array depends on the identity of classes and pointer types that are built on demand, in the order in which names are used, through any chain of typedefs; tests build single arrays of built-in types.", "anchors": ["pyclibrary/c_library.py: build_array", "pyclibrary/c_library.py: cast_to", "pyclibrary/c_library.py: CFunction.arg_c_type", "pyclibrary/backends/ctypes.py: CTypesCLibrary._get_array", "pyclibrary/backends/ctypes.py: CTypesCLibrary._cast_to", "pyclibrary/backends/ctypes.py: CTypesCLibrary._get_type"]}
{"id": "C98", "title": "Several libraries in one program", "statement": "A call `CLibrary(lib, headers, ...)` for a library file of which the program still holds a library object returns this very object, whatever its other arguments are, and changes nothing. Otherwise it makes a new object from the headers (a list that is read, or a parser made before) and the prefixes it is given, or raises the exception that stands for what is wrong: KeyError for an unknown backend or handle, AssertionError for a path without file, OSError for the wrong word size, ValueError for headers that are neither a list nor a parser and for unknown calling conventions, NameError for Windows conventions elsewhere; after which the program goes on as if the call had not been made. A library object behaves in all accesses and calls as if it were the only library of the program: as the library of the definitions and prefixes of the call that made it, of which only its own uses happened.", "quantifier": "for all programs (sequences of parsers made, libraries opened in all ways, uses of any of the libraries, and objects dropped), all files, headers, prefixes, conventions and backends, all settings of the system", "why_tests_cant": "Libraries share a class-wide table of open files and may share parsers whose tables they change while types are built; whether one library sees another depends on the order of calls; tests open one library.", "anchors": ["pyclibrary/c_library.py: CLibraryMeta.__call__", "pyclibrary/c_library.py: CLibrary.__init__", "pyclibrary/backends/ctypes.py: CTypesCLibrary._link_library", "pyclibrary/backends/ctypes.py: identify_library", "pyclibrary/backends/ctypes.py: get_library_path"]}
{"id": "C99", "title": "Headers can be read in steps with copy_from", "statement": "A chain of parsers, `p1 = CParser(hs1, macros=..., ...)` (possibly with a cache file that is written, or was written before), `p2 = CParser(hs2, copy_from=p1)`, `p3 = CParser(hs3, copy_from=p2)` and so on, ends as the single `CParser(hs1 + hs2 + hs3 + ..., macros=..., ...)` does: with the same exception if the last step raises one, otherwise with the same definitions, in the same order and for each file, and with the same library made of them.", "quantifier": "for all lengths of the chain, all lists of headers, all texts of headers (as long as no header undefines a macro that does not come from itself, and base names differ), all keyword definitions, replacements and encodings", "why_tests_cant": "The definitions of the first headers reach the later ones through a copy of the per-file tables, in another order and without what was removed; that preprocessing, evaluation and declarations of arbitrary further text cannot tell the copy from the original is a statement about all texts.", "anchors": ["pyclibrary/c_parser.py: win_defs", "pyclibrary/c_parser.py: CParser.__init__", "pyclibrary/c_parser.py: CParser.import_dict", "pyclibrary/c_parser.py: CParser.process_all", "pyclibrary/c_parser.py: CParser.add_def", "pyclibrary/c_parser.py: CParser.rem_def"]}
{"id": "C100", "title": "Adding headers leaves the definitions of the others", "statement": "When headers are added at the end of the list given to `CParser` (or `CLibrary`), an exception that ended the shorter list ends the longer one; and if the longer list is read, `file_defs` has for each header of the shorter list, and for the definitions given as keyword arguments, exactly the definitions it had, and `defs` has for each kind and name the definition of the last added header that defines it, or else the one it had.", "quantifier": "for all lists of headers and of added headers with different base names, all texts of them, all kinds and all names (for macros: those that no added header undefines), all keyword definitions, replacements and encodings", "why_tests_cant": "Every header is read with the definitions of all the headers before it, by the same preprocessor, grammar and evaluator that wrote them, and into shared tables; that no text of a later header reaches back to the definitions of an earlier file is a statement about all texts.", "anchors": ["pyclibrary/c_parser.py: CParser.__init__", "pyclibrary/c_parser.py: CParser.process_all", "pyclibrary/c_parser.py: CParser.preprocess", "pyclibrary/c_parser.py: CParser.parse_defs", "pyclibrary/c_parser.py: CParser.add_def", "pyclibrary/c_parser.py: CParser.rem_def"]}
{"id": "C101", "title": "The text of a signature tells the function", "statement": "`pretty_signature()` of a wrapped function answers with a text, and functions with the same text have the same name, return the same type (with its qualifiers), and have the same parameters: names, types and default values, in order.", "quantifier": "for all pairs of functions, all names, all returned types, all lists of parameters of any types", "why_tests_cant": "That no two different functions share a text depends on how names, the joined words of the returned type and the representations of nested types can be told apart in one flat text, for unbounded nesting.", "anchors": ["pyclibrary/c_library.py: CFunction.pretty_signature", "pyclibrary/c_library.py: CFunction.__init__", "pyclibrary/c_parser.py: Type.__repr__"]}
{"id": "C102", "title": "What a path tells about the architecture", "statement": "The attributes arch, is_32bit, is_64bit and bitness of a library path never raise, agree with each other and always tell the architecture the file had when one of them was first read ('n/a' exactly if none was found); and opening a library by name or path is refused with OSError exactly if the library is built for the other word size only.", "quantifier": "for all platforms, all contents of files and outputs of the program file, all sequences of readings, whatever happens to the file between them", "why_tests_cant": "All sequences of readings with a file that changes in between, and all paths and kinds of files; a test sees the libraries of one machine.", "anchors": ["pyclibrary/utils.py: LibraryPath", "pyclibrary/utils.py: get_arch", "pyclibrary/c_library.py: CLibraryMeta.__call__"]}
