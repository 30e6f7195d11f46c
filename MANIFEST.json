{
 "claims": [
  {
   "property": "C01",
   "status": "proved",
   "theorems": [
    "c01_resolution_finishes"
   ],
   "note": ""
  },
  {
   "property": "C02",
   "status": "proved",
   "theorems": [
    "c02_typedef_chain",
    "c02_base_words",
    "c02_base_tag"
   ],
   "note": ""
  },
  {
   "property": "C03",
   "status": "proved",
   "theorems": [
    "c03_definition_error",
    "c03_calling_convention_refuted"
   ],
   "note": "Exact for tables without calling conventions in typedefs, as quantified; c03_calling_convention_refuted documents that a calling convention on a typedef makes resolution raise TypeError."
  },
  {
   "property": "C04",
   "status": "proved",
   "theorems": [
    "c04_qualifiers_kept"
   ],
   "note": ""
  },
  {
   "property": "C05",
   "status": "proved",
   "theorems": [
    "c05_resolution_idempotent",
    "c05_free_text_refuted"
   ],
   "note": "Proved for C type names as quantified; c05_free_text_refuted shows it fails for free text such as 'struct ' without a name."
  },
  {
   "property": "C06",
   "status": "partial",
   "theorems": [
    "c06_spellings_refuted",
    "c06_spellings_partial"
   ],
   "note": "False as stated: `signed` alone and `long signed int` are not in the table, `signed char` gives c_char. Proved for spellings in the order sign, size, int/char except `signed` and `signed char`."
  },
  {
   "property": "C07",
   "status": "partial",
   "theorems": [
    "c07_hack_undone_partial",
    "c07_hack_nonfunction",
    "c07_hack_undone_refuted"
   ],
   "note": "Full statement refuted (qualifiers are dropped by remove_compatibility_hack); base and declarators always come back, and the whole type when it has no qualifiers."
  },
  {
   "property": "C08",
   "status": "partial",
   "theorems": [
    "c08_equality_refl",
    "c08_equality_sym",
    "c08_equality_types_partial",
    "c08_equality_trans_refuted"
   ],
   "note": "Transitivity refuted when plain tuples are mixed in; reflexivity and symmetry hold for all objects, and on the objects the parser builds equality is identity."
  },
  {
   "property": "C09",
   "status": "proved",
   "theorems": [
    "c09_fundamental",
    "c09_words",
    "c09_spacing"
   ],
   "note": ""
  },
  {
   "property": "C10",
   "status": "proved",
   "theorems": [
    "c10_tables_agree"
   ],
   "note": ""
  },
  {
   "property": "C11",
   "status": "partial",
   "theorems": [
    "c11_removal_partial",
    "c11_refuted"
   ],
   "note": "Refuted across files (a macro of a.h undefined while b.h is read stays in the tables of a.h); proved for the global tables and for names defined in the current file only."
  },
  {
   "property": "C12",
   "status": "proved",
   "theorems": [
    "c12_find_exact",
    "c12_find_pattern_exact"
   ],
   "note": ""
  },
  {
   "property": "C13",
   "status": "proved",
   "theorems": [
    "c13_copy",
    "c13_copy_one_pass",
    "c13_without_proviso_refuted"
   ],
   "note": "Proved with its proviso (and for files read one after the other without any proviso on names); c13_without_proviso_refuted shows the proviso is needed."
  },
  {
   "property": "C14",
   "status": "proved",
   "theorems": [
    "c14_import_idempotent"
   ],
   "note": ""
  },
  {
   "property": "C15",
   "status": "proved",
   "theorems": [
    "c15_loaded_only_if_valid",
    "c15_rejected_unchanged",
    "c15_valid_accepted"
   ],
   "note": ""
  },
  {
   "property": "C16",
   "status": "partial",
   "theorems": [
    "c16_failed_load_partial",
    "c16_refuted"
   ],
   "note": "Refuted for damaged caches in which a file entry lacks a kind; proved for every other reason of failure."
  },
  {
   "property": "C17",
   "status": "partial",
   "theorems": [
    "c17_roundtrip_partial",
    "c17_refuted"
   ],
   "note": "Refuted when a file undefines a macro of another file; proved when files are read one after the other and names are removed only in the file that defined them."
  },
  {
   "property": "C18",
   "status": "partial",
   "theorems": [
    "c18_arguments_partial",
    "c18_copy_from_refuted"
   ],
   "note": "Exact characterisation of equal options: keyword definitions, base names and replacements are all compared; refuted for copy_from, which is not compared (nor are the encoding and the directories)."
  },
  {
   "property": "C19",
   "status": "proved",
   "theorems": [
    "c19_selected_branch",
    "c19_directives",
    "c19_names"
   ],
   "note": ""
  },
  {
   "property": "C20",
   "status": "partial",
   "theorems": [
    "c20_skipped_inert_partial",
    "c20_skipped_inert_refuted"
   ],
   "note": "Proved for balanced regions in which every #define/#undef has a name; refuted otherwise: a nameless #define in a skipped region raises AttributeError."
  },
  {
   "property": "C21",
   "status": "proved",
   "theorems": [
    "c21_unbalanced_detected"
   ],
   "note": ""
  },
  {
   "property": "C22",
   "status": "partial",
   "theorems": [
    "c22_verbatim_partial",
    "c22_verbatim_refuted"
   ],
   "note": "Refuted for lines with a string literal whose last character is a macro name; proved for all other lines."
  },
  {
   "property": "C23",
   "status": "proved",
   "theorems": [
    "c23_expansion_finishes"
   ],
   "note": ""
  },
  {
   "property": "C24",
   "status": "proved",
   "theorems": [
    "c24_whole_words"
   ],
   "note": ""
  },
  {
   "property": "C25",
   "status": "partial",
   "theorems": [
    "c25_literals_partial",
    "c25_literals_refuted"
   ],
   "note": "Refuted: text after a string literal is not expanded, only its last character is looked at; the text before and inside is proved."
  },
  {
   "property": "C26",
   "status": "partial",
   "theorems": [
    "c26_simultaneous_partial",
    "c26_braces_refuted"
   ],
   "note": "Refuted for bodies with braces (they are read as format fields); proved for every brace-free body, parameter list and argument list."
  },
  {
   "property": "C27",
   "status": "partial",
   "theorems": [
    "c27_faulty_calls_partial",
    "c27_surplus_arguments_refuted",
    "c27_no_parenthesis_refuted"
   ],
   "note": "Refuted for surplus arguments (dropped) and for a name without parenthesis followed by another parenthesis on the line (text lost); proved for missing parentheses and missing arguments."
  },
  {
   "property": "C28",
   "status": "partial",
   "theorems": [
    "c28_late_expansion_partial",
    "c28_late_expansion_refuted"
   ],
   "note": "Refuted (bodies are expanded when defined, not when used); proved to agree with C's expansion when every name is defined before it is mentioned."
  },
  {
   "property": "C29",
   "status": "proved",
   "theorems": [
    "c29_defined_tests",
    "c29_names_are_identifiers"
   ],
   "note": ""
  },
  {
   "property": "C30",
   "status": "partial",
   "theorems": [
    "c30_undef_partial",
    "c30_undef_refuted"
   ],
   "note": "Proved for object-like macros (tests and expansion, until redefined). Refuted for function-like macros, which #undef leaves in place."
  },
  {
   "property": "C31",
   "status": "partial",
   "theorems": [
    "c31_if_value_partial",
    "c31_if_value_refuted",
    "c31_if_value_other_refuted",
    "c31_hexadecimal_refuted"
   ],
   "note": "Proved for a grammar of C expressions where the translation to Python agrees with C (decimal numbers, identifiers, defined, ! && ||, comparisons except !=, arithmetic except /). Refuted for !=, division, ! before a comparison, || as an operand, % of negatives, hexadecimal and suffixed numbers."
  },
  {
   "property": "C32",
   "status": "proved",
   "theorems": [
    "c32_conditions_never_raise",
    "c32_raising_is_false"
   ],
   "note": ""
  },
  {
   "property": "C33",
   "status": "partial",
   "theorems": [
    "c33_definitions_partial",
    "c33_space_before_parenthesis_refuted",
    "c33_literal_in_parentheses_refuted",
    "c33_parameter_expanded_refuted"
   ],
   "note": "Refuted for a blank before the parenthesis, a string literal before the closing parenthesis and for parameters that are macros; proved for all other one-line definitions."
  },
  {
   "property": "C34",
   "status": "partial",
   "theorems": [
    "c34_pack_stack_partial",
    "c34_pack_stack_refuted",
    "c34_push_without_number_refuted"
   ],
   "note": "Proved for disciplined histories (each push gives a packing and is done while the packing set by the enclosing push is in force; distinct identifiers; no underflow). Refuted in general."
  },
  {
   "property": "C35",
   "status": "partial",
   "theorems": [
    "c35_pops_matched_partial",
    "c35_unmatched_pop_refuted"
   ],
   "note": "Proved as long as every pop matches an earlier push; refuted for an unmatched pop, which raises IndexError."
  },
  {
   "property": "C36",
   "status": "partial",
   "theorems": [
    "c36_packing_of_line_partial",
    "c36_packing_of_line_refuted",
    "c36_drift_refuted"
   ],
   "note": "Proved when earlier lines produced one output line each and the next line is no pragma. Refuted: a pragma on the following line applies, and lines without output shift line numbers."
  },
  {
   "property": "C37",
   "status": "partial",
   "theorems": [
    "c37_comments_partial",
    "c37_separator_refuted",
    "c37_continued_comment_refuted"
   ],
   "note": "Proved: comments are removed, everything else incl. literals kept in order, for texts C reads as parts. Refuted: a comment does not separate words; a line comment continued by a backslash leaves its second line."
  },
  {
   "property": "C38",
   "status": "proved",
   "theorems": [
    "c38_lines_joined"
   ],
   "note": ""
  },
  {
   "property": "C39",
   "status": "partial",
   "theorems": [
    "c39_declarators_partial",
    "c39_declarators_refuted"
   ],
   "note": "Proved for every declarator of C except brackets behind a parenthesised array ([int (x[2])[3]], refuted: dimensions swapped) and a calling convention directly before a parenthesis."
  },
  {
   "property": "C40",
   "status": "partial",
   "theorems": [
    "c40_processed_partial",
    "c40_processed_refuted"
   ],
   "note": "Exact characterisation proved: processing fails (always with TypeError) exactly when a calling convention stands directly before a parenthesis; refuted in general by that form."
  },
  {
   "property": "C41",
   "status": "partial",
   "theorems": [
    "c41_counting",
    "c41_anonymous",
    "c41_c_values_partial",
    "c41_division_refuted",
    "c41_name_in_parentheses_refuted"
   ],
   "note": "Counting and availability proved for every evaluator; C values proved for constant expressions on which Python agrees with C; refuted for division and for a name in parentheses (read as a cast)."
  },
  {
   "property": "C42",
   "status": "partial",
   "theorems": [
    "c42_complete_partial",
    "c42_values_reachable",
    "c42_leak_refuted"
   ],
   "note": "Proved: recorded exactly when all values can be computed, then completely; on failure no other table than the values changes. Refuted: values recorded before the failure stay."
  },
  {
   "property": "C43",
   "status": "proved",
   "theorems": [
    "c43_anonymous_structure",
    "c43_anonymous_enum"
   ],
   "note": "for all histories of declarations, starting from any tables in which tagged type names belong to definitions."
  },
  {
   "property": "C44",
   "status": "proved",
   "theorems": [
    "c44_definition_kept",
    "c44_reference_before"
   ],
   "note": "for all histories of declarations."
  },
  {
   "property": "C45",
   "status": "partial",
   "theorems": [
    "c45_own_value_partial",
    "c45_initial",
    "c45_c_value_partial",
    "c45_shared_refuted"
   ],
   "note": "Proved for the last declarator and for declarations without initialiser; refuted for other declarators, which get the value of the last one."
  },
  {
   "property": "C46",
   "status": "partial",
   "theorems": [
    "c46_variables_partial",
    "c46_prototypes_partial",
    "c46_typedef_refuted",
    "c46_convention_refuted"
   ],
   "note": "Proved for specifiers that do not name function types and without a calling convention alone with the name in parentheses; refuted for these two forms."
  },
  {
   "property": "C47",
   "status": "partial",
   "theorems": [
    "c47_one_object_refuted",
    "c47_one_object_partial",
    "c47_same_file_partial"
   ],
   "note": "False as stated: a library found by name is not resolved to its real path. Proved per path for every history of openings and collections; in full when searched names are resolved paths."
  },
  {
   "property": "C48",
   "status": "proved",
   "theorems": [
    "c48_word_size"
   ],
   "note": "Real header bytes are read by the functions of C65; the file command is a parameter."
  },
  {
   "property": "C49",
   "status": "partial",
   "theorems": [
    "c49_first_kind_refuted",
    "c49_first_kind_partial",
    "c49_first_kind_later_partial"
   ],
   "note": "False as stated: a value None hides the prefixed name and a void typedef is not found. Proved: the first kind in order wins, unprefixed before prefixed."
  },
  {
   "property": "C50",
   "status": "partial",
   "theorems": [
    "c50_order_refuted",
    "c50_order_partial",
    "c50_repeated_access",
    "c50_attribute_is_call"
   ],
   "note": "False as stated: with definitions f and p_f and prefix p_, lib.f fails after lib.p_f (an attribute cached under one kind or prefix decides later lookups). Proved for repeated accesses and attribute/call agreement; order independence proved where no name has two kinds."
  },
  {
   "property": "C51",
   "status": "proved",
   "theorems": [
    "c51_arguments"
   ],
   "note": "Conversion of the objects by ctypes is not modelled."
  },
  {
   "property": "C52",
   "status": "partial",
   "theorems": [
    "c52_bad_calls_refuted",
    "c52_bad_calls_partial"
   ],
   "note": "False only with lock_calls and a missing parameter (NameError). Proved otherwise."
  },
  {
   "property": "C53",
   "status": "partial",
   "theorems": [
    "c53_results_refuted",
    "c53_results_partial"
   ],
   "note": "False for negative indices and for automatic arguments that were overwritten. Proved for indices from the front and other writes."
  },
  {
   "property": "C54",
   "status": "partial",
   "theorems": [
    "c54_wrapping_refuted",
    "c54_wrapping_partial",
    "c54_calling_partial"
   ],
   "note": "False: a recorded calling convention makes wrapping raise AttributeError and lock_calls makes each call raise. Proved without both."
  },
  {
   "property": "C55",
   "status": "partial",
   "theorems": [
    "c55_shape_refuted",
    "c55_shape_partial",
    "c55_given_partial",
    "c55_arrays_partial"
   ],
   "note": "False as stated: `int (**f)(int)` loses a star, `void (*f)(void)` raises TypeError, the second parameter of a typedef'd two-dimensional array type gets an extra dimension. Proved for types without arrays of arrays, pointers to function pointers and (void); and for data types with arrays of arrays the first time they are asked for."
  },
  {
   "property": "C56",
   "status": "partial",
   "theorems": [
    "c56_unchanged_refuted",
    "c56_unchanged_partial",
    "c56_again_partial"
   ],
   "note": "False as stated: each request for `typedef int M[2][3]` changes its definition. Proved for types (and members) without arrays directly of arrays."
  },
  {
   "property": "C57",
   "status": "partial",
   "theorems": [
    "c57_one_class_refuted",
    "c57_one_class_partial",
    "c57_typedef_partial",
    "c57_distinct_partial",
    "c57_fields_partial",
    "c57_types_finish",
    "c57_structures_finish",
    "c57_complete"
   ],
   "note": "False as stated: asking for a structure by a typedef name makes a new class every time. Proved: one class per structure when asked for by name or through types; distinct structures have distinct classes; fields agree with member types; construction finishes when typedefs are declared before use."
  },
  {
   "property": "C58",
   "status": "partial",
   "theorems": [
    "c58_widths_refuted",
    "c58_widths_partial"
   ],
   "note": "False as stated: the declared width is never used and a value is taken as width. Proved: members without value have no bit field."
  },
  {
   "property": "C59",
   "status": "partial",
   "theorems": [
    "c59_names_refuted",
    "c59_names_partial"
   ],
   "note": "False as stated: a later member called anon_member0 clashes. Proved when no member behind an anonymous one has such a name; declared names are always kept."
  },
  {
   "property": "C60",
   "status": "proved",
   "theorems": [
    "c60_arrays"
   ],
   "note": "Lengths that are integers >= 0 and an element type other than None."
  },
  {
   "property": "C61",
   "status": "proved",
   "theorems": [
    "c61_init_once"
   ],
   "note": "Calls include the implicit initialisation by creating a parser."
  },
  {
   "property": "C62",
   "status": "partial",
   "theorems": [
    "c62_arguments_refuted",
    "c62_search_partial",
    "c62_init_partial"
   ],
   "note": "False as stated: all four functions can modify their arguments (witnesses). Proved: exactly when the searches leave the caller's list unchanged; initialisation leaves its arguments unchanged before Python 3.12 when not initialising for Windows."
  },
  {
   "property": "C63",
   "status": "partial",
   "theorems": [
    "c63_header_order_refuted",
    "c63_header_order_partial"
   ],
   "note": "False on Linux: standard directories are only searched when sys.platform is linux2. Proved in full for the other platforms and for linux2 and, without standard directories, for the other names of Linux."
  },
  {
   "property": "C64",
   "status": "proved",
   "theorems": [
    "c64_library_order"
   ],
   "note": "The system search (thirdparty/find_library.py) is a parameter."
  },
  {
   "property": "C65",
   "status": "partial",
   "theorems": [
    "c65_pe_refuted",
    "c65_pe_partial"
   ],
   "note": "False as stated: only two of the four signature bytes are checked. Proved with that relaxation, for every byte sequence."
  },
  {
   "property": "C66",
   "status": "partial",
   "theorems": [
    "c66_ne_negates_eq_partial",
    "c66_ne_negates_eq_refuted"
   ],
   "note": "Refuted for operands that are not tuples; holds for types and tuples."
  },
  {
   "property": "C67",
   "status": "partial",
   "theorems": [
    "c67_members_partial",
    "c67_anonymous_refuted",
    "c67_width_refuted"
   ],
   "note": "Proved for declarators of C and decimal widths; refuted for a qualified anonymous member (type const) and a hexadecimal width (structure lost)."
  },
  {
   "property": "C68",
   "status": "partial",
   "theorems": [
    "c68_decimal_partial",
    "c68_hexadecimal_partial",
    "c68_literals",
    "c68_literals_refuted"
   ],
   "note": "Proved for decimal and hexadecimal literals with upper-case suffixes; refuted for octal literals and lower-case suffixes (SyntaxError)."
  },
  {
   "property": "C69",
   "status": "partial",
   "theorems": [
    "c69_declared_refuted",
    "c69_declared_partial",
    "c69_auto_partial",
    "c69_first_parser"
   ],
   "note": "False as stated: time_t is replaced from 3.12 on, and auto_init(os='win32') elsewhere leaves None. Proved for init with exactly these exceptions."
  },
  {
   "property": "C70",
   "status": "proved",
   "theorems": [
    "c70_keywords"
   ],
   "note": ""
  },
  {
   "property": "C71",
   "status": "proved",
   "theorems": [
    "c71_ends"
   ],
   "note": "In the model of the grammar the recursion is bounded by the length of the text; the bound is never reached. Python's recursion limit is not modelled."
  },
  {
   "property": "C72",
   "status": "proved",
   "theorems": [
    "c72_declarations",
    "c72_one_reading",
    "c72_layout"
   ],
   "note": "Supported declarations and layouts: GramSpec.v; what may stand between them: NoiseSpec.v."
  },
  {
   "property": "C73",
   "status": "partial",
   "theorems": [
    "c73_recorded_partial",
    "c73_prototypes_refuted",
    "c73_initialisers_refuted"
   ],
   "note": "Proved for headers of supported declarations (GramSpec.v) in any layout, with structures, unions and enums defined inside of others, with or without names; refuted for variadic prototypes, unnamed function pointer parameters, names with two leading underscores and declarations with two initialisers. Missing: types defined in parameter lists, structures or enums defined twice."
  },
  {
   "property": "C74",
   "status": "partial",
   "theorems": [
    "c74_nothing_else_partial",
    "c74_nothing_else_refuted"
   ],
   "note": "Proved for headers of supported declarations; refuted: local variables of unsupported functions and members of unsupported structures become global variables."
  },
  {
   "property": "C75",
   "status": "partial",
   "theorems": [
    "c75_expressions_partial",
    "c75_parentheses_refuted",
    "c75_calls_refuted"
   ],
   "note": "Proved for the expressions of GramSpec.v (names, names with one index, numbers, strings, parentheses, operators; no calls, and no second index); refuted for a name in parentheses, which is dropped, and for calls, whose commas are lost."
  },
  {
   "property": "C76",
   "status": "partial",
   "theorems": [
    "c76_any_text",
    "c76_values_partial",
    "c76_enum_refuted",
    "c76_undef_refuted"
   ],
   "note": "Proved after preprocessing any text (value of the recorded text), and for headers as in C77 (the text is C's); refuted for texts that use enumerators of the same header and for #undef, which leaves the value."
  },
  {
   "property": "C77",
   "status": "partial",
   "theorems": [
    "c77_header_partial",
    "c77_capture_refuted"
   ],
   "note": "Proved for comments, continuation lines, object-like macros, calls of function-like macros (arguments without parentheses and string literals), conditionals, and directives without effect; missing: packing (C81) and macros defined again after others have mentioned them. Refuted for macros whose replacement list brings in the name of a parameter of a macro defined later (capture)."
  },
  {
   "property": "C78",
   "status": "partial",
   "theorems": [
    "c78_guarded",
    "c78_same_path_refuted"
   ],
   "note": "Proved for every guarded header; refuted when the same path is listed twice (the preprocessed text, without its guard, is read again)."
  },
  {
   "property": "C79",
   "status": "partial",
   "theorems": [
    "c79_headers_partial",
    "c79_missing",
    "c79_same_path_refuted"
   ],
   "note": "Proved for headers as in C77 with distinct paths, and for missing headers. Refuted for a path that is given twice: the second reading is of the preprocessed text, without the packing directives and with the macros defined later."
  },
  {
   "property": "C80",
   "status": "partial",
   "theorems": [
    "c80_found",
    "c80_raises",
    "c80_lines_refuted"
   ],
   "note": "Proved for the texts that are kept; refuted for the line numbers of the header on disk (preprocessing moves lines)."
  },
  {
   "property": "C81",
   "status": "partial",
   "theorems": [
    "c81_packed_partial",
    "c81_next_line_refuted",
    "c81_skipped_refuted"
   ],
   "note": "Proved for disciplined pragmas (C34) and headers where the packing for the line number the code looks up is the one in force (aligned). Refuted otherwise: a pragma on the next line applies, and lines that have been dropped undo a pragma."
  },
  {
   "property": "C82",
   "status": "partial",
   "theorems": [
    "c82_call_types_partial",
    "c82_one_type",
    "c82_call_types_refuted",
    "c82_same_types_refuted"
   ],
   "note": "Proved for prototypes without arrays of arrays, calling conventions, pointers to function pointers, (void) in the parameters of function pointers, signed/signed char and '...', and when no earlier request has merged adjacent arrays or failed half-way (ready). Refuted in general: (void) callbacks raise TypeError, and arrays of arrays behind a typedef change between functions. A structure that contains itself by value is not rejected by the specification of classes."
  },
  {
   "property": "C83",
   "status": "partial",
   "theorems": [
    "c83_classes_partial",
    "c83_inner_first_refuted"
   ],
   "note": "Proved for the types of C82 and members without bit width, anonymous ones included when the structure or union they consist of is used nowhere else and is not asked for before the structure it is in. Refuted otherwise: a request for the inner union first fails, and leaves the outer structure without members."
  },
  {
   "property": "C84",
   "status": "partial",
   "theorems": [
    "c84_tags",
    "c84_from_text_partial",
    "c84_from_text_refuted"
   ],
   "note": "The tags are proved for every supported header; the types of a call under the conditions of C73 and C82. Without them it is false: a function with a calling convention is recorded but cannot be wrapped (c84_from_text_refuted)."
  },
  {
   "property": "C85",
   "status": "partial",
   "theorems": [
    "c85_modifiers_partial",
    "c85_modifiers_refuted"
   ],
   "note": "Proved for modifiers behind a type. Refuted in front of a declarator in parentheses: the modifier takes the parentheses. Missing: modifiers behind the stars of a declarator, which the grammar does not read."
  },
  {
   "property": "C86",
   "status": "partial",
   "theorems": [
    "c86_left_out_partial",
    "c86_text_refuted",
    "c86_null_refuted"
   ],
   "note": "Proved on top of C82. Refuted for char * left out (the object made is refused by ctypes) and for arrays given as None (a new array instead of a null pointer). Missing: pointers to characters, arrays given as None, the types C82 leaves out."
  },
  {
   "property": "C87",
   "status": "proved",
   "theorems": [
    "c87_first",
    "c87_one_path",
    "c87_file_name_refuted"
   ],
   "note": "the statement holds for every output of the commands. Beyond it, a refutation records that the file name of the path need not be lib<name>. and more: a path that merely contains lib<name>. is taken."
  },
  {
   "property": "C88",
   "status": "partial",
   "theorems": [
    "c88_headers_partial",
    "c88_library_partial",
    "c88_library_refuted"
   ],
   "note": "Proved for headers as in C77 and C81 with distinct paths, declarations as in C73, calls and classes as in C82 and C83. Without them it is false: a structure declared again in a later header changes the calls of the functions of the earlier one (c88_library_refuted)."
  },
  {
   "property": "C89",
   "status": "partial",
   "theorems": [
    "c89_constants_partial",
    "c89_tag_refuted",
    "c89_same_header_refuted"
   ],
   "note": "Proved for headers as in C77 and C81, enumerators with expressions as in C41 and object-like macros, also with enumerators of earlier headers; refuted for macros with enumerators of the same header and for tags of the form the parser invents."
  },
  {
   "property": "C90",
   "status": "partial",
   "theorems": [
    "c90_repr_partial",
    "c90_types",
    "c90_structures",
    "c90_convention_refuted",
    "c90_empty_refuted",
    "c90_keyword_refuted"
   ],
   "note": "Round trip proved for every object built of None, booleans, integers, strings, lists, tuples, types, structures, unions and enums whose types do not have a None among otherwise empty qualifiers, and for the types of all declarators without calling conventions. Refuted for calling conventions, empty packed structures and enumerators named like keywords. Missing: floats, objects of other classes."
  },
  {
   "property": "C91",
   "status": "partial",
   "theorems": [
    "c91_cached_partial",
    "c91_undef_refuted",
    "c91_base_names_refuted",
    "c91_stale_refuted",
    "c91_texts_refuted"
   ],
   "note": "Proved for all headers with distinct base names in which no #undef names a macro of another header or of a keyword, without copy_from. Refuted for #undef of macros of other headers, equal base names, different headers that are not newer, and the texts find_text searches. Missing: copy_from (see C18), failures when the cache file is written."
  },
  {
   "property": "C92",
   "status": "partial",
   "theorems": [
    "c92_noise_partial",
    "c92_removed_partial",
    "c92_same_tables_partial",
    "c92_what_follows",
    "c92_word_refuted",
    "c92_strings_refuted"
   ],
   "note": "Proved for linkage specifications, semicolons, braces and undefined words in front of declarations that begin with a keyword of a type, or with a name and another word or an asterisk; and for any tokens behind the declarations. Refuted for words behind the type (the word becomes the type) and for a second string on the line of a linkage specification (a declaration can be lost). The theorems on whole files, several headers, packing, calls and constants (C76-C89) allow these things between declarations too. Missing: declarations that begin with a name and a parenthesis, words with two underscores in front (read as qualifiers)."
  },
  {
   "property": "C93",
   "status": "partial",
   "theorems": [
    "c93_pieces",
    "c93_tables",
    "c93_all_files",
    "c93_leftovers_partial",
    "c93_nothing_left",
    "c93_tab_refuted",
    "c93_again_refuted",
    "c93_cached_refuted"
   ],
   "note": "Proved for all texts: the pieces, the blank lines, and (without tabs) the tables, also for several files. What exactly is left is proved for headers with the things of C92 between declarations; for these with tabs outside of literals too. Refuted: tabs in literals are expanded only if the text is not asked for; the text that is left may contain declarations again; nothing is returned when the definitions come from a cache file."
  },
  {
   "property": "C94",
   "status": "partial",
   "theorems": [
    "c94_objects_partial",
    "c94_library_partial",
    "c94_void_refuted"
   ],
   "note": "Proved for all accesses to definitions whose types ctypes can represent as in C82 and C83, after any accesses of that sort, with prefixes that make no two names of a kind clash; and from the texts of lists of headers as in C88. Refuted: another name for void is a type but cannot be reached as an attribute. Missing: what C82 and C83 leave out; lib(kind, name) with a shortened name (C50) or with a typedef of a structure (C57)."
  },
  {
   "property": "C95",
   "status": "partial",
   "theorems": [
    "c95_calls_partial",
    "c95_library_partial",
    "c95_taken",
    "c95_text_refuted",
    "c95_extra_refuted"
   ],
   "note": "Proved for all functions whose prototypes ctypes can represent as in C82, all arguments and keywords, after any accesses and calls of that sort, and from the texts of lists of headers as in C88. What ctypes takes from the caller is a parameter of the theorem. Refuted: a pointer to characters that is left out makes ctypes refuse the call; None as an argument too many is an IndexError. Missing: what C82 leaves out, None for array parameters (C86), parameters with defaults (C++), lock_calls (C54)."
  },
  {
   "property": "C96",
   "status": "partial",
   "theorems": [
    "c96_results_partial",
    "c96_library_partial",
    "c96_value_refuted",
    "c96_negative_refuted"
   ],
   "note": "Proved for all functions whose prototypes ctypes can represent as in C82 and all calls that C95 says run the C function, after any accesses and calls, and from the texts of lists of headers as in C88. What the C function returns and stores, and the values of the caller's objects, are parameters of the theorem. Refuted: a structure with a member called value is shown as this member; result[-1] is a pointer where result[n-1] is what it points to. Missing: what C95 leaves out, and setting items of a result (C53)."
  },
  {
   "property": "C97",
   "status": "partial",
   "theorems": [
    "c97_helpers_partial",
    "c97_library_partial",
    "c97_length_refuted",
    "c97_pointer_refuted"
   ],
   "note": "Proved for all names of types and all functions ctypes can represent as in C82, after and before any accesses, calls and uses of these helpers, and for the libraries of lists of headers as in C88. What ctypes says to values for elements, and which objects of the caller it takes, are parameters of the theorem. Refuted: arrays of another length for parameters declared with a length; strings that spell pointers. Missing: sizes that are no integers, values for objects that are no arrays."
  },
  {
   "property": "C98",
   "status": "partial",
   "theorems": [
    "c98_calls",
    "c98_alone",
    "c98_shared_partial",
    "c98_shared_refuted",
    "c98_headers_refuted"
   ],
   "note": "Calls are proved for all programs and arguments; independence for all libraries whose parser no other library has (unconditionally), and for libraries of one parser that are used as in C94 and C95. Refuted: arrays of arrays of a shared parser; the headers of a second call for a file that is open. Missing: lock_calls (C54), changes of the files between calls."
  },
  {
   "property": "C99",
   "status": "partial",
   "theorems": [
    "c99_steps_partial",
    "c99_next_partial",
    "c99_undef_refuted",
    "c99_base_names_refuted",
    "c99_keywords_refuted"
   ],
   "note": "Proved for chains of any length (the first parser may write a cache file or read one, as win_defs does) and for the next step whether it succeeds or raises; texts are arbitrary. Refuted: a header that undefines another header's macro, equal base names, keyword definitions at later steps. Missing: a cache file at later steps (its key takes no notice of copy_from)."
  },
  {
   "property": "C100",
   "status": "partial",
   "theorems": [
    "c100_added_partial",
    "c100_undef_refuted",
    "c100_base_names_refuted"
   ],
   "note": "Proved for all texts, including the exceptions of the shorter list. Refuted: a macro that an added header undefines (gone from defs, kept in file_defs), and added headers with the base name of another one."
  },
  {
   "property": "C101",
   "status": "partial",
   "theorems": [
    "c101_signature_partial",
    "c101_answers",
    "c101_qualifiers_refuted",
    "c101_default_refuted",
    "c101_none_refuted",
    "c101_raises_refuted"
   ],
   "note": "Proved for returned types of words and pointers and parameters of any types (without calling conventions). Refuted: qualifiers of the returned type and default values are not shown, a parameter called None looks unnamed, and TypeError for functions that return pointers to functions."
  },
  {
   "property": "C102",
   "status": "partial",
   "theorems": [
    "c102_looks",
    "c102_kind_partial",
    "c102_opened_partial",
    "c102_path_refuted",
    "c102_link_refuted",
    "c102_single_refuted"
   ],
   "note": "The attributes are proved in full; the kind of file and the refusal on Linux for paths without the words 32-bit and 64-bit. Refuted: such paths, links (libraries found by name are not resolved), libraries of macOS with one architecture."
  }
 ]
}