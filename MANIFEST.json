{
 "claims": [
  {
   "property": "C01",
   "status": "proved",
   "theorems": [
    "C01_lossless"
   ],
   "note": "lexer model; all documents"
  },
  {
   "property": "C02",
   "status": "proved",
   "theorems": [
    "C02_bounds"
   ],
   "note": "begin/end offsets of every token of a complete run"
  },
  {
   "property": "C03",
   "status": "partial",
   "theorems": [
    "C03_terminates_partial",
    "C03_terminates_refuted",
    "C03_C04_finishes"
   ],
   "note": "the code loops forever on a string containing {$ followed by a digit after a variable; proved for all other documents"
  },
  {
   "property": "C04",
   "status": "partial",
   "theorems": [
    "C04_reads_partial",
    "C04_reads_refuted"
   ],
   "note": "the yield look-ahead reads past the end when yield is at the end of the document; proved for all other documents"
  },
  {
   "property": "C05",
   "status": "proved",
   "theorems": [
    "C05_modes"
   ],
   "note": ""
  },
  {
   "property": "C06",
   "status": "partial",
   "theorems": [
    "C06_lines_increasing",
    "C06_lines_exact_partial",
    "C06_lines_refuted"
   ],
   "note": "newlines inside casts, yield from and unterminated strings are not recorded exactly; proved when no such token contains a newline"
  },
  {
   "property": "C07",
   "status": "proved",
   "theorems": [
    "C07_single_quoted",
    "C07_single_unclosed"
   ],
   "note": ""
  },
  {
   "property": "C08",
   "status": "proved",
   "theorems": [
    "C08_constant",
    "C08_unclosed",
    "C08_interpolated"
   ],
   "note": ""
  },
  {
   "property": "C09",
   "status": "proved",
   "theorems": [
    "C09_block",
    "C09_block_unclosed",
    "C09_hash",
    "C09_slashes",
    "C09_doc_slashes"
   ],
   "note": "An unterminated block comment ends the token stream."
  },
  {
   "property": "C10",
   "status": "proved",
   "theorems": [
    "C10_operators"
   ],
   "note": "\"(\" is C16; \"<<<\", comments and \".digit\" are excluded because they are not operators."
  },
  {
   "property": "C11",
   "status": "partial",
   "theorems": [
    "C11_keyword",
    "C11_identifier",
    "C11_static",
    "C11_yield_from",
    "C11_yield_partial"
   ],
   "note": "yield with fewer than three characters behind it is an out-of-bounds read (C04_reads_refuted)."
  },
  {
   "property": "C12",
   "status": "proved",
   "theorems": [
    "C12_nowdoc",
    "C12_nowdoc_empty",
    "C12_nowdoc_unclosed"
   ],
   "note": ""
  },
  {
   "property": "C13",
   "status": "proved",
   "theorems": [
    "C13_halt",
    "C13_independent",
    "C13_document",
    "C13_document_ends"
   ],
   "note": "Assumes the character database does not class blanks as letters or digits. Text behind the semicolon may still be read (undefined behaviour of C04 possible), so the document theorem speaks of runs that end."
  },
  {
   "property": "C14",
   "status": "proved",
   "theorems": [
    "C14_open",
    "C14_text",
    "C14_document"
   ],
   "note": ""
  },
  {
   "property": "C15",
   "status": "partial",
   "theorems": [
    "C15_decimal",
    "C15_float",
    "C15_exponent",
    "C15_hex_partial",
    "C15_hex_refuted",
    "C15_binary_partial",
    "C15_binary_refuted"
   ],
   "note": "The code misclassifies hexadecimal literals whose digits start with 0b and binary literals of 20 or more digits."
  },
  {
   "property": "C16",
   "status": "proved",
   "theorems": [
    "C16_cast",
    "C16_paren"
   ],
   "note": "Under the hypothesis that no blank is a letter (true of Unicode)."
  },
  {
   "property": "C17",
   "status": "proved",
   "theorems": [
    "C17_stream",
    "C17_one_end",
    "C17_finishes"
   ],
   "note": "tokenize() of the parser over the lexer model"
  },
  {
   "property": "C18",
   "status": "proved",
   "theorems": [
    "C18_map",
    "C18_balance",
    "C18_frame"
   ],
   "note": "for every behaviour of the embedded item list meeting its contract; fewer than 2^32 calls (the code's count is 32 bit)"
  },
  {
   "property": "C19",
   "status": "proved",
   "theorems": [
    "C19_inheritance_acyclic",
    "C19_parent_walk_terminates",
    "C19_declared_base_is_ancestor"
   ],
   "note": "Histories of atomic builder actions (each under the DUChain write lock). Platform DUContext::imports is modelled as reflexive-transitive reachability; reopening a class context clears its imports only while its base list is empty."
  },
  {
   "property": "C20",
   "status": "proved",
   "theorems": [
    "C20_properly_nested",
    "C20_end_of_file",
    "C20_one_context_per_component",
    "C20_statements_in_their_namespace"
   ],
   "note": "Files are lists of namespace statements and statement trees as the grammar allows (no nested namespace statements)."
  },
  {
   "property": "C21",
   "status": "proved",
   "theorems": [
    "C21_union",
    "C21_distinct",
    "C21_any"
   ],
   "note": "declareVariable's merge; the search for the existing declaration is not modelled"
  },
  {
   "property": "C22",
   "status": "partial",
   "theorems": [
    "C22_fixed_partial",
    "C22_fixed_refuted",
    "C22_union_partial",
    "C22_distinct_partial",
    "C22_infer_refuted",
    "C22_mixed_refuted"
   ],
   "note": "the code keeps one flag for all nested functions, and keeps mixed when it comes later: refuted by witness; proved for uniformly hinted nestings without callable/function pairs"
  },
  {
   "property": "C23",
   "status": "partial",
   "theorems": [
    "C23_hint_partial",
    "C23_fallback",
    "C23_refuted",
    "C23_property_partial",
    "C23_property_fallback"
   ],
   "note": "a union hint naming an unknown class dereferences null; proved for all other parameters"
  },
  {
   "property": "C24",
   "status": "partial",
   "theorems": [
    "C24_safe",
    "C24_values_partial",
    "C24_refuted"
   ],
   "note": "a tag followed only by blanks takes its value from the next line; proved for all other comments"
  },
  {
   "property": "C25",
   "status": "partial",
   "theorems": [
    "C25_scalar",
    "C25_self",
    "C25_class",
    "C25_array",
    "C25_simple",
    "C25_union",
    "C25_member",
    "C25_split",
    "C25_trimmed",
    "C25_nested_refuted"
   ],
   "note": "T[][] is read as array of mixed; all other forms proved"
  },
  {
   "property": "C26",
   "status": "partial",
   "theorems": [
    "C26_method_access",
    "C26_method_static",
    "C26_method_abstract",
    "C26_method_abstract_without_checks",
    "C26_method_final",
    "C26_method_errors",
    "C26_no_errors_without_checks",
    "C26_property",
    "C26_property_errors",
    "C26_constant",
    "C26_constant_errors",
    "C26_order_free",
    "C26_visibility_errors_refuted",
    "C26_spurious_body_error_refuted",
    "C26_reparse_refuted"
   ],
   "note": "Exact for newly created declarations. Refuted: contradicting visibility keywords are not reported; an abstract method in a non-abstract class also gets 'must contain body'; flags of a declaration reused on reparse are never cleared."
  },
  {
   "property": "C27",
   "status": "partial",
   "theorems": [
    "C27_own_members_kept",
    "C27_added_are_copies",
    "C27_declared_name_wins",
    "C27_names_stay_unique",
    "C27_all_members_partial",
    "C27_first_trait_provides",
    "C27_collisions",
    "C27_collision_meaning",
    "C27_insteadof_partial",
    "C27_alias",
    "C27_unresolved_trait_refuted",
    "C27_alias_hides_original_refuted",
    "C27_own_method_after_use_refuted",
    "C27_property_hides_method_refuted",
    "C27_insteadof_namespace_refuted",
    "C27_alias_of_property_refuted"
   ],
   "note": "Holds for traits up to the first unresolved one, members declared before the use statement and traits outside namespaces; six deviations are proved as refutations."
  },
  {
   "property": "C28",
   "status": "partial",
   "theorems": [
    "C28_spellings",
    "C28_constants",
    "C28_groups",
    "C28_lookup",
    "C28_declared_found",
    "C28_variables",
    "C28_members",
    "C28_pair",
    "C28_redeclaration_refuted"
   ],
   "note": "Proved for every lookup path; fails for the redeclaration check, which looks up the spelled name (refuted theorem)."
  },
  {
   "property": "C29",
   "status": "partial",
   "theorems": [
    "C29_found",
    "C29_not_found",
    "C29_kind_partial",
    "C29_kind_class_function",
    "C29_constant_refuted",
    "C29_global_in_namespace_refuted",
    "C29_self",
    "C29_self_in_methods",
    "C29_self_refuted",
    "C29_parent_partial",
    "C29_parent_refuted"
   ],
   "note": "Kinds are exact for classes, functions and namespaces. The code violates the property for variables holding a constant, for global variables in namespaces, for self in closures and for parent in classes without a base class."
  },
  {
   "property": "C30",
   "status": "partial",
   "theorems": [
    "C30_resolves",
    "C30_unresolved",
    "C30_remote",
    "C30_never_missing",
    "C30_literal",
    "C30_directory",
    "C30_concat_refuted"
   ],
   "note": "Complete for literal include paths; a concatenated path is resolved by its last literal alone (refuted theorem)."
  },
  {
   "property": "C31",
   "status": "partial",
   "theorems": [
    "C31_operators_partial",
    "C31_state_independent",
    "C31_takes",
    "C31_exact",
    "C31_names",
    "C31_members",
    "C31_refuted",
    "C31_new_variable_refuted",
    "C31_no_class_refuted",
    "C31_declarations_refuted"
   ],
   "note": "Every operator the plugin has a rule for gets a PHP type; int/unset casts, *,/,%,**, shifts, logic, unary, isset, empty, print take the operand's type (refuted)."
  },
  {
   "property": "C32",
   "status": "proved",
   "theorems": [
    "C32_tokens",
    "C32_texts"
   ],
   "note": "Constructor, parent contexts, evaluateExpression; assertions count as failures. Type evaluation and class lookup are parameters."
  },
  {
   "property": "C33",
   "status": "partial",
   "theorems": [
    "C33_block",
    "C33_line_partial",
    "C33_doc_refuted"
   ],
   "note": "Block, # and // comments proved. For comments started by three slashes the code offers completion (refuted)."
  },
  {
   "property": "C34",
   "status": "proved",
   "theorems": [
    "C34_arguments",
    "C34_unique"
   ],
   "note": ""
  },
  {
   "property": "C35",
   "status": "partial",
   "theorems": [
    "C35_sound",
    "C35_items",
    "C35_exact_partial",
    "C35_private_refuted",
    "C35_protected_refuted"
   ],
   "note": "Offered implies allowed, for all class graphs; exact outside classes, in the accessed class and in its subclasses; refuted inside a base class of the accessed class."
  },
  {
   "property": "C36",
   "status": "proved",
   "theorems": [
    "C36_offered",
    "C36_once",
    "C36_complete",
    "C36_keywords"
   ],
   "note": "allDeclarations of the platform must list the class' own declarations first (ownFirst)."
  },
  {
   "property": "C37",
   "status": "partial",
   "theorems": [
    "C37_terminates",
    "C37_only",
    "C37_exact_partial",
    "C37_refuted"
   ],
   "note": "Exact when no two class declarations share an identifier; refuted otherwise."
  },
  {
   "property": "C38",
   "status": "partial",
   "theorems": [
    "C38_visible",
    "C38_offered_partial",
    "C38_instances",
    "C38_namespaces",
    "C38_refuted",
    "C38_forbidden_refuted"
   ],
   "note": "Exact for declarations visible at the cursor; classes of other project files are added unfiltered (refuted)."
  },
  {
   "property": "C39",
   "status": "partial",
   "theorems": [
    "C39_exact_partial",
    "C39_refuted"
   ],
   "note": "Exact as suffix words; the code does not check that a word starts at a word boundary (refuted)."
  },
  {
   "property": "C40",
   "status": "partial",
   "theorems": [
    "C40_text",
    "C40_cursor_partial",
    "C40_selection_partial",
    "C40_builtin_partial",
    "C40_refuted",
    "C40_static_refuted"
   ],
   "note": "Inserted text exact for every well-formed template; cursor and selection exact when no line end precedes the marker or the word starts in column 0; refuted otherwise and for the static template."
  },
  {
   "property": "C41",
   "status": "partial",
   "theorems": [
    "C41_total",
    "C41_text",
    "C41_segments_partial",
    "C41_refuted"
   ],
   "note": "Text exact, never reads past the defaults; last highlight segment too long (refuted)."
  },
  {
   "property": "C42",
   "status": "proved",
   "theorems": [
    "C42_all_uses",
    "C42_refused",
    "C42_unused",
    "C42_declarations",
    "C42_text",
    "C42_text_refuted",
    "C42_uses_exist"
   ],
   "note": "For every tree of contexts, every acceptance behaviour of the change set and every revision transform. C42_text_refuted records that the text is not looked at (self used for a three-letter class)."
  },
  {
   "property": "C43",
   "status": "proved",
   "theorems": [
    "C43_once",
    "C43_when",
    "C43_priority",
    "C43_features",
    "C43_stored",
    "C43_no_flags",
    "C43_history",
    "C43_quiet",
    "C43_finishes",
    "C43_ready"
   ],
   "note": "Histories of requests and runs of one document with the background parser's merging queue."
  },
  {
   "property": "C44",
   "status": "partial",
   "theorems": [
    "C44_nothing_before",
    "C44_count",
    "C44_once_partial",
    "C44_refuted"
   ],
   "note": "Exact number of examinations for every history; once each when the declarations file is read once. Refuted when it is read again: m_pendingContexts is never cleared, so pending contexts are examined again."
  },
  {
   "property": "C45",
   "status": "proved",
   "theorems": [
    "C45_case_passed",
    "C45_case_failed",
    "C45_case_none",
    "C45_suite",
    "C45_batches"
   ],
   "note": "For every character database, case list and sequence of output lines."
  },
  {
   "property": "C46",
   "status": "partial",
   "theorems": [
    "C46_nonempty_partial",
    "C46_refuted",
    "C46_local",
    "C46_method",
    "C46_class",
    "C46_function",
    "C46_shown",
    "C46_none"
   ],
   "note": "Refuted for $_SERVER, which is missing from the list of reserved variables; proved for everything else. Lower-casing is per character and assumed idempotent."
  },
  {
   "property": "C47",
   "status": "partial",
   "theorems": [
    "C47_word_partial",
    "C47_no_word",
    "C47_reads",
    "C47_magic_partial",
    "C47_line_start_refuted"
   ],
   "note": "Everything except that the range of a word at column 0 starts at -1, so a magic constant there is not recognised (refuted theorem)."
  },
  {
   "property": "C48",
   "status": "partial",
   "theorems": [
    "C48_scopes",
    "C48_class",
    "C48_function",
    "C48_namespace_partial",
    "C48_method_partial",
    "C48_method_loops",
    "C48_method_refuted"
   ],
   "note": "Values are right where the search ends; the search for __METHOD__ never ends in functions that are not methods (proved), and __NAMESPACE__ shows only the last component."
  },
  {
   "property": "C49",
   "status": "partial",
   "theorems": [
    "C49_name",
    "C49_use_statement",
    "C49_group_member_partial",
    "C49_group_no_end",
    "C49_group_late",
    "C49_group_refuted",
    "C49_expression"
   ],
   "note": "Proved for names in code, use statements, names in expressions and group members of one component. Refuted for longer group members: the index into the member's components is not reduced by the prefix length, so uses are one node late (prefix of one) or the search in the circular list does not end (prefix of two or more)."
  },
  {
   "property": "C50",
   "status": "proved",
   "theorems": [
    "C50_equal",
    "C50_refl",
    "C50_sym",
    "C50_trans",
    "C50_hash",
    "C50_clone",
    "C50_contents",
    "C50_add",
    "C50_replace",
    "C50_string",
    "C50_const"
   ],
   "note": "Equality is exactly sameness of class, modifiers, referent and contents; hashes respect it for any platform hash functions of the compared data."
  },
  {
   "property": "C51",
   "status": "proved",
   "theorems": [
    "C51_variable",
    "C51_blanks"
   ],
   "note": ""
  },
  {
   "property": "C52",
   "status": "partial",
   "theorems": [
    "C52_once",
    "C52_local",
    "C52_offered_partial",
    "C52_refuted",
    "C52_before_partial",
    "C52_not_after",
    "C52_other_files",
    "C52_property_refuted"
   ],
   "note": "At most once, no foreign locals; a variable redeclared after the cursor is not offered (refuted). Nor is a parameter or local variable whose name is that of a property of the class (refuted)."
  },
  {
   "property": "C53",
   "status": "partial",
   "theorems": [
    "C53_redeclaration_partial",
    "C53_namespace_refuted",
    "C28_redeclaration_refuted"
   ],
   "note": "Exact outside namespaces for lower-case names; wrong otherwise (refuted theorems)."
  },
  {
   "property": "C54",
   "status": "proved",
   "theorems": [
    "C54_sound",
    "C54_complete"
   ],
   "note": "Soundness and completeness against an inductive description; DUChainUtils::inheriters is a parameter, its bound of 100 steps is left out, recursion is by fuel (C54_complete: some fuel suffices)."
  },
  {
   "property": "C55",
   "status": "partial",
   "theorems": [
    "C55_rows",
    "C55_rows_exist",
    "C55_others",
    "C55_index",
    "C55_refuted"
   ],
   "note": "Refuted when the internal function file is updated again: rows are appended, never cleared."
  },
  {
   "property": "C56",
   "status": "partial",
   "theorems": [
    "C56_offers",
    "C56_nothing",
    "C56_html",
    "C56_implements_refuted",
    "C56_namespace_refuted"
   ],
   "note": "For all texts whose end matches one of the listed forms. Missing because the code does not do it: implements behind extends, namespace names behind a backslash. Not covered: include paths."
  },
  {
   "property": "C57",
   "status": "partial",
   "theorems": [
    "C57_member",
    "C57_static",
    "C57_call",
    "C57_comma_refuted",
    "C57_inner_refuted",
    "C57_nested_refuted"
   ],
   "note": "Proved for expressions without a comma that follow a statement boundary, comma or parenthesis. The refuted theorems give the cases where the code takes a wrong expression or none."
  },
  {
   "property": "C58",
   "status": "proved",
   "theorems": [
    "C58_parsing_ends",
    "C58_text"
   ],
   "note": "for everything the parser generator leaves open (resynchronisation sets, blocking of errors)"
  },
  {
   "property": "C59",
   "status": "proved",
   "theorems": [
    "C59_placed",
    "C59_problems"
   ],
   "note": "node fields are not modelled, the tree has rule names, token indexes and start/end"
  },
  {
   "property": "C60",
   "status": "partial",
   "theorems": [
    "C60_sound_partial",
    "C60_closure_refuted"
   ],
   "note": "full if the generated try/recover unblocks errors; otherwise for files without closures, and the refutation shows why: an error in a closure argument is hidden by the try/rollback around the call"
  },
  {
   "property": "C61",
   "status": "partial",
   "theorems": [
    "C61_round_trip_partial",
    "C61_power_refuted",
    "C61_tower_refuted",
    "C61_product_refuted",
    "C61_instanceof_refuted",
    "C61_include_refuted",
    "C61_list_refuted",
    "C61_target_refuted",
    "C61_call_refuted",
    "C61_closure_refuted",
    "C61_static_function_refuted"
   ],
   "note": "Round trip for all expressions over variables, literals, interpolated strings, heredocs, constants, arrays, calls, static members, indices, properties, new, closures (with use lists, nested to any depth, also called where they are written), isset/empty/eval/exit/clone, ++/--, list(), yield, include, instanceof, unary/binary operators incl. **, assignments, ternaries, print, as long as every operand stands where the grammar reads its level (plain). Refuted outside: **, instanceof, include and list() group differently than PHP; calls of call results, assignments to members of a new object, static closures, members of closures and calls of by-reference closures are rejected. Missing: argument unpacking, by-reference arguments, anonymous classes."
  },
  {
   "property": "C62",
   "status": "partial",
   "theorems": [
    "C62_constant_partial",
    "C62_refuted",
    "C62_reference_refuted"
   ],
   "note": "Reported for every left side built from numbers, literals, arrays and operators; refuted in general: a variable anywhere on the left side silences the check, and =& accepts any expression. Missing: left sides with names or calls in them."
  },
  {
   "property": "C63",
   "status": "partial",
   "theorems": [
    "C63_effort_refuted"
   ],
   "note": "The property is false: rollback makes the effort exponential in the nesting of indices."
  },
  {
   "property": "C64",
   "status": "partial",
   "theorems": [
    "C64_body_partial",
    "C64_rest_refuted",
    "C64_braces_refuted"
   ],
   "note": "proved for function bodies without braces, for every generator whose recovery stops at }; refuted at top level (start has no try/recover) and for errors inside nested braces"
  },
  {
   "property": "C65",
   "status": "partial",
   "theorems": [
    "C65_round_trip_partial",
    "C65_one_meaning_partial",
    "C65_initial_value_refuted"
   ],
   "note": "All statements, functions, classes, traits, imports, namespaces, unbounded; the expressions inside are those of C61, closures with statements in them included. Violated: a static variable or property may not be initialised with an operation."
  },
  {
   "property": "C66",
   "status": "partial",
   "theorems": [
    "C66_variables_partial",
    "C66_functions_partial",
    "C66_types_partial",
    "C66_function_types_partial",
    "C66_left_refuted",
    "C66_shadowed_refuted",
    "C66_property_refuted",
    "C66_index_refuted",
    "C66_method_refuted",
    "C66_global_refuted",
    "C66_foreach_type_refuted",
    "C66_catch_type_refuted",
    "C66_closure_type_refuted"
   ],
   "note": "For all programs of ok, whose exclusions are listed in VarSpec.v: scopes declare exactly the names given values, for any types of expressions; types assigned stay, also in the scopes of functions, which keep the types of their parameters. Outside: refuted. Not covered: building a file again, namespaces, properties of other objects."
  },
  {
   "property": "C67",
   "status": "partial",
   "theorems": [
    "C67_only_partial",
    "C67_declared_partial",
    "C67_method_partial",
    "C67_parameter_refuted",
    "C67_global_refuted",
    "C67_local_refuted",
    "C67_closure_refuted",
    "C67_call_refuted",
    "C67_this_refuted",
    "C67_type_refuted"
   ],
   "note": "For all classes whose methods are okP (exclusions in PropertySpec.v). The code finds any variable with the name of the property instead of the property: refuted with a parameter, a local and a global variable. Also refuted: closures, method calls as reference arguments, properties called this, types. Not covered: other objects than $this, building a file again."
  },
  {
   "property": "C68",
   "status": "partial",
   "theorems": [
    "C68_tokens",
    "C68_one_reading",
    "C68_text_partial",
    "C68_every_program_partial",
    "C68_dollar_expression_refuted",
    "C68_curly_dollar_refuted",
    "C68_braces_heredoc_refuted",
    "C68_member_blank_refuted",
    "C68_yield_from_refuted"
   ],
   "note": "Lexing is complete for the spelled texts; the tree is proved for the programs of C65. Missing: text behind __halt_compiler, what C65 misses. Refuted: ${expr}, {$$x}, heredoc in braces, keyword member behind a blank, yield FROM."
  },
  {
   "property": "C69",
   "status": "partial",
   "theorems": [
    "C69_reported",
    "C69_reported_partial",
    "C69_positional",
    "C69_positional_refuted",
    "C69_union_default_refuted",
    "C69_union_null_refuted",
    "C69_prefix_refuted",
    "C69_grouped_refuted",
    "C69_twice_refuted",
    "C69_self_refuted",
    "C69_setting_refuted"
   ],
   "note": "Eight of the rules hold in every file; the other four in files without unions, grouped use statements and names that begin with a builtin type, and for positional arguments up to the first of a call. The rest is refuted: the code reports valid union types, misses names like int\\A, groups, later arguments and class self, reports twice in foreach targets."
  },
  {
   "property": "C70",
   "status": "partial",
   "theorems": [
    "C70_own",
    "C70_types_partial",
    "C70_constant_refuted",
    "C70_this_refuted",
    "C70_second_refuted",
    "C70_catch_refuted",
    "C70_key_refuted",
    "C70_namespace_refuted"
   ],
   "note": "Ordinary declarations proved for every file; constants, properties and caught exceptions under the condition that no doc comment read for something else comes directly before; the excluded cases are refuted. Types of expressions and parsed doc types are inputs of the model."
  },
  {
   "property": "C71",
   "status": "partial",
   "theorems": [
    "C71_text",
    "C71_modifiers",
    "C71_program_partial",
    "C71_function_refuted",
    "C71_property_refuted",
    "C71_copy_refuted"
   ],
   "note": "The text is exactly the documented one and the modifiers may override, for every document and member; the new document is read as the class with the method. Refuted: function typed alone, properties behind function, and the replaced range where Range::start() is a copy. Missing: references, variadics and return types, which the inserted text drops."
  },
  {
   "property": "C72",
   "status": "partial",
   "theorems": [
    "C72_unknown_partial",
    "C72_marked_partial",
    "C72_declaration_partial",
    "C72_connected_partial",
    "C72_covered_partial",
    "C72_this_partial",
    "C72_class_partial",
    "C72_index_refuted",
    "C72_global_refuted"
   ],
   "note": "Programs of expressions, assignments, lists, references, foreach, static, global, catch and nested function declarations. Left out: closures, class bodies, namespaces; indexes on the left of = (refuted) and aliases of declarations in other files (refuted)."
  },
  {
   "property": "C73",
   "status": "partial",
   "theorems": [
    "C73_members_partial",
    "C73_named",
    "C73_marked_named",
    "C73_index_class_refuted",
    "C73_variable_name_class_refuted",
    "C73_static_of_object_refuted",
    "C73_shadowed_refuted",
    "C73_constant_as_property_refuted",
    "C73_static_call_refuted",
    "C73_missing_unmarked_refuted",
    "C73_lost_index_refuted"
   ],
   "note": "Proved for the expressions and classes without the refuted oddities (plain); e->n[i](args), dynamic names in braces and encapsed strings are left out."
  },
  {
   "property": "C74",
   "status": "partial",
   "theorems": [
    "C74_text_partial",
    "C74_cursor",
    "C74_offered_partial",
    "C74_offered_dirname_partial",
    "C74_offered_slash",
    "C74_once",
    "C74_only",
    "C74_expression_refuted",
    "C74_dir_refuted",
    "C74_next_line_refuted",
    "C74_blank_refuted",
    "C74_quote_refuted",
    "C74_no_slash_refuted",
    "C74_up_refuted",
    "C74_up_twice_refuted"
   ],
   "note": "Proved for statements opened as include/require, optional parenthesis, optional dirname(__FILE__) . and with what is left of an old name without blanks. Missing because the code violates it: include inside an expression, __DIR__ ., blanks and quotes in names, semicolon in the next line, .. without slash, names without slash behind dirname(__FILE__) . (all refuted)."
  },
  {
   "property": "C75",
   "status": "partial",
   "theorems": [
    "C75_only",
    "C75_found_partial",
    "C75_once_partial",
    "C75_null_partial",
    "C75_alias_refuted",
    "C75_foreach_refuted",
    "C75_new_refuted",
    "C75_member_refuted",
    "C75_lost_refuted",
    "C75_closure_refuted",
    "C75_closure_static"
   ],
   "note": "Every use is of a written name; every written name is used, but for the class in C::$f(), values of static variables, and in closures classes caught, extended, implemented, used as traits (Missed); once, but for trait alias blocks, indexes in the variables of foreach and unset, static members of unknown classes or behind new and instanceof (single). Each exception is shown to occur by a refutation."
  },
  {
   "property": "C76",
   "status": "partial",
   "theorems": [
    "C76_only_partial",
    "C76_found_partial",
    "C76_this",
    "C76_inherited_refuted",
    "C76_below_refuted",
    "C76_above_refuted",
    "C76_same_name_refuted",
    "C76_variable_refuted",
    "C76_closure_refuted"
   ],
   "note": "Both directions proved for objects in global variables, when the property is no private one of a base class, the code is not in a base class of the declaring class (nothing allowed is reported), no variable or other member has the same name and the code is not in a class below the one with a private property (nothing forbidden is missed). Each condition is shown necessary by a refutation."
  },
  {
   "property": "C77",
   "status": "partial",
   "theorems": [
    "C77_read_partial",
    "C77_assigned_partial",
    "C77_captured_partial",
    "C77_no_closures",
    "C77_only",
    "C77_once",
    "C77_echo_refuted",
    "C77_mistaken_refuted",
    "C77_behind_refuted",
    "C77_typed_refuted",
    "C77_captured_refuted"
   ],
   "note": "Files without closures: in full. With closures: arguments, assignments, returned values (no return types) and what is outside of closures, up to the first closure in the piece; refuted elsewhere."
  },
  {
   "property": "C78",
   "status": "partial",
   "theorems": [
    "C78_text_means_partial",
    "C78_one_meaning",
    "C78_offered_partial",
    "C78_only_usable",
    "C78_line",
    "C78_typing",
    "C78_static_method_no_meaning",
    "C78_closure_other_meaning",
    "C78_constant_other_meaning",
    "C78_static_method_refuted",
    "C78_closure_refuted",
    "C78_constant_refuted",
    "C78_own_property_refuted"
   ],
   "note": "Proved for methods with $this and for everything that is no member; one text has one meaning; the line is replaced exactly. Refuted: static methods ($this-> is written), closures (no prefix is written), static properties whose type carries the const modifier (self::p without $), own property hidden behind a private one of the base class. Missing: trait members, namespaces, case of names."
  },
  {
   "property": "C79",
   "status": "partial",
   "theorems": [
    "C79_members_partial",
    "C79_ends_partial",
    "C79_crash",
    "C79_index_class_refuted",
    "C79_index_variable_refuted",
    "C79_lost_index_refuted",
    "C79_braces_refuted",
    "C79_unsure_refuted",
    "C79_crash_refuted"
   ],
   "note": "Proved for chains of names of any length with indices at the end, properties of one class or none, no other member of the name; no crash without ::${e}. Missing: what the refutations show to be false (names behind indices, braces, $$, unsure types, ::${e})."
  },
  {
   "property": "C80",
   "status": "partial",
   "theorems": [
    "C80_tips_partial",
    "C80_order",
    "C80_abort",
    "C80_function_refuted",
    "C80_inherited_refuted",
    "C80_own_refuted",
    "C80_namespace_refuted",
    "C80_outer_refuted"
   ],
   "note": "Tips are proved right for classes as written today (constructors called __construct, no name shared with the class). Refuted: a class without constructor shows a function with its name, old-style constructors that are inherited or own, methods named as their class in namespaces, and outer calls around a call of an unknown function. How the platform searches contexts is an assumption stated in the model."
  },
  {
   "property": "C81",
   "status": "partial",
   "theorems": [
    "C81_offered_partial",
    "C81_reached_partial",
    "C81_once_partial",
    "C81_hidden_refuted",
    "C81_twice_refuted",
    "C81_reference_refuted",
    "C81_order_refuted"
   ],
   "note": "The set of members is exact for histories of plain types; each is offered once for a value of one class. Refuted: overridden members are offered too, members two possible classes inherit are offered twice, a reference assigned a second class offers nothing, and a value of several possible classes assigned after one of a single class does not count. Visibility is C35."
  },
  {
   "property": "C82",
   "status": "partial",
   "theorems": [
    "C82_reported",
    "C82_whole_partial",
    "C82_element_partial",
    "C82_array_refuted",
    "C82_undefined",
    "C82_inherited_refuted",
    "C82_methods_refuted",
    "C82_elsewhere_refuted"
   ],
   "note": "Exact for classes that implement ArrayAccess themselves and for those that do not at all. Refuted: arrays or objects assigned to $this in a class that implements ArrayAccess (not reported; an unchecked cast), classes that inherit the interface or the methods, and $this in closures and functions."
  }
 ]
}
