{
 "claims": [
  {
   "property": "C01",
   "status": "proved",
   "theorems": [
    "C01_flatten_is_leaf_sequence",
    "C01_flatten_exact",
    "C01_flatten_idempotent",
    "C01_flatten_one_level"
   ],
   "note": "flatten in both modes, for every nested list"
  },
  {
   "property": "C02",
   "status": "proved",
   "theorems": [
    "C02_gensym_unique",
    "C02_gensym_returns"
   ],
   "note": "for every call sequence and every uuid source; the format is proved for the hexadecimal text the uuid source supplies"
  },
  {
   "property": "C03",
   "status": "proved",
   "theorems": [
    "C03_scrub_gensym",
    "C03_scrub_removes_one_suffix",
    "C03_scrub_else_unchanged"
   ],
   "note": ""
  },
  {
   "property": "C04",
   "status": "proved",
   "theorems": [
    "C04_tracker_lexical",
    "C04_levels_never_negative",
    "C04_negative_rejected"
   ],
   "note": "for every program over the tracker API, with exceptions raised and caught anywhere"
  },
  {
   "property": "C05",
   "status": "partial",
   "theorems": [
    "C05_refines_dict_partial",
    "C05_attribute_is_item",
    "C05_copy_refuted",
    "C05_equality"
   ],
   "note": "Refinement of dict proved for every sequence of operations outside copy/replace on awkward keys; C05_copy_refuted: a key named self (or a non-string key) makes copy and replace raise TypeError."
  },
  {
   "property": "C06",
   "status": "proved",
   "theorems": [
    "C06_methods_stay",
    "C06_reserved_assignment_raises",
    "C06_items_reachable"
   ],
   "note": ""
  },
  {
   "property": "C07",
   "status": "proved",
   "theorems": [
    "C07_delete_markers_exact",
    "C07_delete_markers_identity",
    "C07_empty_marker_raises"
   ],
   "note": "for trees whose markers carry a body made of nodes; an empty marker makes the call raise (proved separately)"
  },
  {
   "property": "C08",
   "status": "proved",
   "theorems": [
    "C08_get_markers_order",
    "C08_get_markers_complete",
    "C08_check_exact"
   ],
   "note": ""
  },
  {
   "property": "C09",
   "status": "proved",
   "theorems": [
    "C09_fix_locations_exact",
    "C09_no_reference_location",
    "C09_lists_elementwise"
   ],
   "note": ""
  },
  {
   "property": "C10",
   "status": "proved",
   "theorems": [
    "C10_ctx_as_demanded",
    "C10_nothing_but_ctx",
    "C10_initial_ctx_irrelevant",
    "C10_twice"
   ],
   "note": "In the heap model of ASTs, for sound trees and lists of trees in which no object occurs twice (fieldless nodes such as Load() excepted); both modes; exact result, frame, ctx-only change, independence of initial ctx, idempotence."
  },
  {
   "property": "C11",
   "status": "partial",
   "theorems": [
    "C11_shared_names_partial",
    "C11_shared_names_in_list_partial",
    "C11_same_instance_in_one_statement_refuted",
    "C11_tuple_between_statements_refuted"
   ],
   "note": "Proved for Name instances shared between constructs (any number, any ctx). The full claim is false: C11_same_instance_in_one_statement_refuted (x = x with one instance), C11_tuple_between_statements_refuted (shallow copy shares the elts list)."
  },
  {
   "property": "C12",
   "status": "partial",
   "theorems": [
    "C12_stack_restored_partial",
    "C12_toplevel_partial",
    "C12_withstate_then_visit_partial",
    "C12_emptied_state_refuted",
    "C12_list_elements_in_order"
   ],
   "note": "Proved for every user method that does not empty a state, with exceptions raised and caught anywhere; C12_emptied_state_refuted: self.state.clear() in a visit with temporary state leaves that state on the stack."
  },
  {
   "property": "C13",
   "status": "partial",
   "theorems": [
    "C13_no_leak_partial",
    "C13_withstate_visit_partial",
    "C13_empty_state_refuted"
   ],
   "note": "Proved when the temporary state has at least one binding and methods use self.state only; C13_empty_state_refuted: with an empty state, assignments leak outward."
  },
  {
   "property": "C14",
   "status": "proved",
   "theorems": [
    "C14_rename_exact",
    "C14_rename_list",
    "C14_rename_names",
    "C14_rename_absent",
    "C14_rename_back",
    "C14_all_places_refuted"
   ],
   "note": "the documented positions; C14_all_places_refuted shows identifiers of the grammar that rename does not cover"
  },
  {
   "property": "C15",
   "status": "proved",
   "theorems": [
    "C15_extract_bindings_exact"
   ],
   "note": ""
  },
  {
   "property": "C16",
   "status": "partial",
   "theorems": [
    "C16_inject_partial",
    "C16_single_statement",
    "C16_only_futures_refuted",
    "C16_empty_docstring_refuted"
   ],
   "note": "Proved: the result is the body with the statements inserted at one place, below the docstring and all future-imports, unless the docstring is empty or everything after the docstring is a future-import. The full claim is false: C16_only_futures_refuted, C16_empty_docstring_refuted."
  },
  {
   "property": "C17",
   "status": "partial",
   "theorems": [
    "C17_getdocstring_partial",
    "C17_getdocstring_refuted"
   ],
   "note": "refuted: a body that starts with a non-string constant expression statement yields that constant instead of None; soundness and completeness for string docstrings proved"
  },
  {
   "property": "C18",
   "status": "proved",
   "theorems": [
    "C18_splice_expression",
    "C18_edge_cases"
   ],
   "note": "For well-formed templates; copies are modelled by an arbitrary relabelling of node identities."
  },
  {
   "property": "C19",
   "status": "partial",
   "theorems": [
    "C19_splice_statements_partial",
    "C19_single_statement_body",
    "C19_edge_cases",
    "C19_single_node_template_refuted"
   ],
   "note": "Proved for templates given as a list; for a single-node template the claim is false: C19_single_node_template_refuted."
  },
  {
   "property": "C20",
   "status": "partial",
   "theorems": [
    "C20_layout_partial",
    "C20_docstring_lost_refuted",
    "C20_valid_module_refused_refuted",
    "C20_empty_block_refuted"
   ],
   "note": "C20_layout_partial gives the exact layout, for any docstrings in the two modules (none, one or both), when user code remains below the imports. The full claim is false: C20_docstring_lost_refuted, C20_valid_module_refused_refuted, C20_empty_block_refuted."
  },
  {
   "property": "C21",
   "status": "proved",
   "theorems": [
    "C21_statements_read",
    "C21_find_macros_exact",
    "C21_find_macros_returns",
    "C21_again_finds_nothing",
    "C21_untransformed_body",
    "C21_failure"
   ],
   "note": "For any body, any process state and any outcome of resolving and importing; importing may change the process state in any way. A self-macro-import is replaced by a coverage dummy, or deleted if it has no location."
  },
  {
   "property": "C22",
   "status": "proved",
   "theorems": [
    "C22_uninvolved_code_unchanged",
    "C22_uninvolved_suite_unchanged",
    "C22_no_bindings_unchanged",
    "C22_entry_points_unchanged"
   ],
   "note": "For every tree whose nodes have the fields of Python's grammar, and every non-empty suite; both modes; nothing assumed about macros."
  },
  {
   "property": "C23",
   "status": "proved",
   "theorems": [
    "C23_mode_restored",
    "C23_entry_points_restore_mode"
   ],
   "note": "Macros are arbitrary programs that may re-enter the expander, catch errors, loop."
  },
  {
   "property": "C24",
   "status": "proved",
   "theorems": [
    "C24_with_first_macro_first",
    "C24_decorator_last_macro_first"
   ],
   "note": "First application at each with or definition, for any mix of macro and other items; the rest is expanded as the result of that macro."
  },
  {
   "property": "C25",
   "status": "proved",
   "theorems": [
    "C25_once_expands_one_layer",
    "C25_visit_in_once_mode_one_layer",
    "C25_calls_are_outermost_parts",
    "C25_result_protected"
   ],
   "note": "For arbitrary macros, including ones that change the bindings; trees are values (a macro that keeps and later edits a tree is not modelled)."
  },
  {
   "property": "C26",
   "status": "partial",
   "theorems": [
    "C26_recursive_expansion_complete_partial",
    "C26_visit_recursively_complete_partial",
    "C26_new_invocation_left_refuted",
    "C26_async_def_left_refuted"
   ],
   "note": "Proved for macros that do not change the bindings, ASTs of Python's grammar, and expansions that are not themselves a bare name of a bound macro or a call of one. The full claim is false: C26_new_invocation_left_refuted ((m1[x])[y] with m1 returning a macro name), C26_async_def_left_refuted."
  },
  {
   "property": "C27",
   "status": "partial",
   "theorems": [
    "C27_other_values_raise",
    "C27_values_land",
    "C27_values_land_recursive",
    "C27_suite_spliced",
    "C27_suite_visited_as_list",
    "C27_list_in_expression_slot_refuted"
   ],
   "note": "Proved for every value and every kind of invocation, in both modes. False in one case: C27_list_in_expression_slot_refuted (a list returned by an expression macro becomes the value of the field)."
  },
  {
   "property": "C28",
   "status": "partial",
   "theorems": [
    "C28_report_lists_all_sites",
    "C28_no_error_swallowed",
    "C28_base_exceptions_pass",
    "C28_own_report_lost_refuted"
   ],
   "note": "Proved for any depth of nesting (a use site encloses the error if its macro function is running) and any original error except a MacroApplicationError that has a cause: C28_own_report_lost_refuted."
  },
  {
   "property": "C29",
   "status": "partial",
   "theorems": [
    "C29_registry",
    "C29_hooks_run_in_order_partial",
    "C29_no_hook_after_error",
    "C29_self_removing_hook_refuted"
   ],
   "note": "The registry is proved exact after any sequence of additions and removals. Hooks run in order, each once, if hooks do not change the registry while they run; otherwise false: C29_self_removing_hook_refuted."
  },
  {
   "property": "C30",
   "status": "partial",
   "theorems": [
    "C30_collected_exactly_invoked",
    "C30_collected_accumulates",
    "C30_collector_returns_partial",
    "C30_collector_fails_on_plain_call_refuted",
    "C30_collector_fails_on_type_comment_refuted"
   ],
   "note": "The collected list is exact whenever the collector returns; it returns on every tree without subscripts of calls such as foo()[x], bad macro calls, or type comments on decorated definitions. Otherwise false: C30_collector_fails_on_plain_call_refuted, C30_collector_fails_on_type_comment_refuted."
  },
  {
   "property": "C31",
   "status": "partial",
   "theorems": [
    "C31_invocation_recognised",
    "C31_other_code_not_invoked",
    "C31_invocation_unique",
    "C31_empty_subscript_accepted_refuted",
    "C31_bad_call_not_ordinary_refuted"
   ],
   "note": "Recognition proved exact for the rules as implemented. The rules of the statement fail for m[()][...] of a non-parametric macro, and m() is an error, not ordinary code: C31_empty_subscript_accepted_refuted, C31_bad_call_not_ordinary_refuted."
  },
  {
   "property": "C32",
   "status": "partial",
   "theorems": [
    "C32_phases_compiled_partial",
    "C32_tuple_phase_number_refuted"
   ],
   "note": "Proved for blocks whose number is written as a plain literal, any numbers in any order; invalid blocks stay in the final program, where the phase macro raises (the raising is C69). False for the literal in a one-element tuple: C32_tuple_phase_number_refuted."
  },
  {
   "property": "C33",
   "status": "partial",
   "theorems": [
    "C33_restored_on_success_partial",
    "C33_failed_phase_leaves_module_refuted"
   ],
   "note": "Proved for successful compilation (any number of phases, any user code). False on failure: C33_failed_phase_leaves_module_refuted."
  },
  {
   "property": "C34",
   "status": "partial",
   "theorems": [
    "C34_detect_highest_partial",
    "C34_no_phase_gives_false_refuted"
   ],
   "note": "Highest phase number proved; that phases run from it down to 0, each once, is part of C32_phases_compiled_partial. Without phase blocks the answer is False instead of None: C34_no_phase_gives_false_refuted."
  },
  {
   "property": "C35",
   "status": "partial",
   "theorems": [
    "C35_dialects_applied_in_order",
    "C35_no_dialect_import_left",
    "C35_each_import_once",
    "C35_postprocess_in_order",
    "C35_source_dialects_applied_refuted"
   ],
   "note": "transform_ast and postprocess_ast: proved as stated, for all dialects (any effect on the process), including the order, NotImplemented, imports added by dialects, nothing left, and, for dialects that leave the imports alone, each import once and termination. transform_source: refuted (C35_source_dialects_applied_refuted): of two dialect-imports on consecutive lines, the second is swallowed by the regular expression match of the first and never loaded."
  },
  {
   "property": "C36",
   "status": "partial",
   "theorems": [
    "C36_recognised_whatever_follows_refuted",
    "C36_dialect_import_recognised_partial",
    "C36_module_name_refuted"
   ],
   "note": "As stated it is refuted (C36_recognised_whatever_follows_refuted): the match, and the statement given to ast.parse, extends over the following lines up to a parenthesis or backslash. Proved when only whitespace follows or the next line contains a parenthesis or a backslash, for all texts before whose lines do not begin with 'from'. C36_module_name_refuted: a module name with a non-English letter is not recognised at all."
  },
  {
   "property": "C37",
   "status": "proved",
   "theorems": [
    "C37_mtime_is_newest",
    "C37_returns_on_acyclic_graph",
    "C37_import_hook",
    "C37_others_untouched"
   ],
   "note": "For every dependency graph with a result, with any coherent import statement cache; and on acyclic graphs of usable files there is a result. Floats (st_mtime_ns * 1e-9) are represented by integers of the same order; find_spec is taken to have no effects."
  },
  {
   "property": "C38",
   "status": "proved",
   "theorems": [
    "C38_cache_transparent",
    "C38_history_transparent",
    "C38_stale_entry_replaced",
    "C38_reused_mtime_refuted"
   ],
   "note": "Any two coherent caches give the same result; every history of edits (each giving a modification time the file never had before), deletions, queries with any configuration and lost cache files leads to coherent caches; entries are rewritten. C38_reused_mtime_refuted shows that the condition on modification times is needed."
  },
  {
   "property": "C39",
   "status": "partial",
   "theorems": [
    "C39_terminates_refuted",
    "C39_returns_if_acyclic_partial",
    "C39_result_only_if_acyclic"
   ],
   "note": "Refuted for cyclic imports (C39_terminates_refuted). Proved: it returns when no infinite chain of imports starts in the file, and gives a result only then."
  },
  {
   "property": "C40",
   "status": "partial",
   "theorems": [
    "C40_create_module_success",
    "C40_create_module_succeeds",
    "C40_create_module_failure",
    "C40_temporary_module_partial",
    "C40_unnamed_temporary_module_leaks_refuted",
    "C40_existing_module_lost_refuted",
    "C40_refused_temporary_module_deletes_refuted"
   ],
   "note": "create_module: proved. temporary_module: proved for a name not in sys.modules before; otherwise false: C40_unnamed_temporary_module_leaks_refuted, C40_existing_module_lost_refuted, C40_refused_temporary_module_deletes_refuted."
  },
  {
   "property": "C41",
   "status": "partial",
   "theorems": [
    "C41_quote_faithful_refuted",
    "C41_quote_faithful_partial",
    "C41_astify_faithful_partial",
    "C41_unquotes_uncompiled"
   ],
   "note": "C41_unquotes_uncompiled: uncompiling the compiled form gives back the quoted tree with its unquotes, for all trees covered. C41_quote_faithful_refuted: a complex constant (1j) makes q raise TypeError, and {**d} compiles but raises TypeError when run. C41_quote_faithful_partial: for every tree without unquotes, without complex constants and whose reached lists hold nodes only, running the quasiquote gives the tree without locations. C41_astify_faithful_partial: the same for astify alone on every value, and unastify gives the value back with locations."
  },
  {
   "property": "C42",
   "status": "partial",
   "theorems": [
    "C42_unquotes_refuted",
    "C42_unquotes_partial",
    "C42_u_value"
   ],
   "note": "C42_unquotes_refuted: {**a[t]} raises TypeError when run. C42_unquotes_partial: where the relation subst (stated in QuoteSpec2.v, one clause for each operator) gives a result, the quasiquote compiles and evaluates to exactly that. C42_u_value: the AST put in by u[] evaluates to the value. Missing: h[] (C44, C45), nested quotes, splices in places that subst leaves out."
  },
  {
   "property": "C43",
   "status": "partial",
   "theorems": [
    "C43_splices_anywhere_refuted",
    "C43_no_splice_left",
    "C43_splices_anywhere_partial"
   ],
   "note": "C43_splices_anywhere_refuted: f(a[lst]) splices, but f(a[lst]) + 1 raises RuntimeError. C43_no_splice_left (unconditional on AST shaped trees): when the splicer returns, no splice node remains and the result is the tree with each splice node replaced by its nodes. C43_splices_anywhere_partial: it returns when splices are in lists reached through list fields."
  },
  {
   "property": "C44",
   "status": "partial",
   "theorems": [
    "C44_same_object_refuted",
    "C44_value_refuted",
    "C44_value_partial",
    "C44_value_kept_partial",
    "C44_other_process_partial",
    "C44_lookup_again",
    "C44_captures_independent_partial"
   ],
   "note": "The full statement is refuted: C44_same_object_refuted (a lookup gives a copy, not the captured object, also in the same process), C44_value_refuted (the lookup cache is keyed by the address of the pickled value; a reused address gives an older value). Proved for every history in which no address is used twice (in particular when nothing is deallocated): equal value, in the same and in another process; different captures, different objects. Unconditionally: repeated lookups give the same object. Pickling is an oracle with a round trip; merging of equal constants by the compiler is not modelled."
  },
  {
   "property": "C45",
   "status": "partial",
   "theorems": [
    "C45_captured_macro_refuted",
    "C45_captured_macro_partial",
    "C45_unique_names",
    "C45_undisturbed",
    "C45_lookup_again"
   ],
   "note": "C45_captured_macro_refuted: functions are pickled by reference, so when the module is reloaded between capture and first lookup another function is found. C45_captured_macro_partial: proved for every history in which the module keeps holding the function. Uniqueness of the names, not disturbing other bindings, and repeated lookups: proved for all histories (the latter two unconditionally)."
  },
  {
   "property": "C46",
   "status": "partial",
   "theorems": [
    "C46_root_contains_file_refuted",
    "C46_deepest_refuted",
    "C46_filesystem_root_refuted",
    "C46_deepest_directory_partial",
    "C46_package_name_partial"
   ],
   "note": "The full statement is refuted: C46_root_contains_file_refuted (entry /a/b matches /a/bc/x.py by text), C46_deepest_refuted (entry '' for the current directory), C46_filesystem_root_refuted (entry /). Proved for all sys.path entries none of which denotes /, none of which is only a textual prefix of the file's path, and whose numbers of separators do not mislead about their depth."
  },
  {
   "property": "C47",
   "status": "partial",
   "theorems": [
    "C47_expression_round_trip_partial",
    "C47_no_space_around",
    "C47_dict_unpacking_refuted",
    "C47_empty_subscript_refuted",
    "C47_fstring_refuted",
    "C47_fstring_set_refuted",
    "C47_fstring_backslash_refuted"
   ],
   "note": "No whitespace around the text: C47_no_space_around, for all trees. Round trip through a model of Python's tokenizer and PEG expression grammar proved for every covered expression tree (C47_expression_round_trip_partial), f-strings included, which are read as in Python 3.12 (older versions refuse a quote of the same kind inside a field, as in f'{d['k']}', which is what is printed). The full statement is refuted: {**a} raises UnparserError, a[()] prints a[]; braces (C47_fstring_refuted) and backslashes (C47_fstring_backslash_refuted) in the text of an f-string, and a set display in a field (C47_fstring_set_refuted), print text that reads differently."
  },
  {
   "property": "C48",
   "status": "partial",
   "theorems": [
    "C48_module_round_trip_partial",
    "C48_indentation_partial",
    "C48_with_tuple_refuted",
    "C48_nested_as_refuted",
    "C48_nested_or_refuted",
    "C48_negative_key_refuted"
   ],
   "note": "Proved through a model of Python's tokenizer, indentation rules and statement grammar: the text of every covered module reads back as the same statements (C48_module_round_trip_partial), and its lines are indented by four spaces per nesting level (C48_indentation_partial). Match statements with their patterns, type aliases and variables named match, case or type are covered; type parameters of functions and classes are not. The full statement is refuted: with ((a, b)): is printed as with (a, b):, which Python reads as two items (C48_with_tuple_refuted); case (y as a) as b: and case {-1: y}: are printed as text that is no Python (C48_nested_as_refuted, C48_negative_key_refuted), and case (None | True) | False: as another pattern (C48_nested_or_refuted)."
  },
  {
   "property": "C49",
   "status": "partial",
   "theorems": [
    "C49_no_error_partial",
    "C49_nothing_dropped_partial",
    "C49_unparser_error_refuted",
    "C49_type_parameters_refuted",
    "C49_eval_mode_refuted"
   ],
   "note": "No exception for any module, of all node classes, without double-starred items in dict displays (C49_no_error_partial), and nothing is dropped from covered modules (C49_nothing_dropped_partial: equal texts, equal modules). The full statement is refuted: {**a} raises UnparserError, the type parameters of def f[T]() and class C[T] are not written, and a tree from mode='eval' raises TypeError."
  },
  {
   "property": "C50",
   "status": "partial",
   "theorems": [
    "C50_deletes_only_pycache_refuted",
    "C50_deletes_exactly_pycache_partial",
    "C50_lists_exactly_pycache_partial",
    "C50_what_is_left_partial"
   ],
   "note": "The full statement is refuted by C50_deletes_only_pycache_refuted: a symbolic link named __pycache__ to a directory has the files of its target deleted, and then an error is raised. Proved for every file system without symbolic links: exactly the __pycache__ directories are listed, exactly they are deleted, everything else is as before. Permissions and concurrent changes are not modelled."
  },
  {
   "property": "C51",
   "status": "partial",
   "theorems": [
    "C51_shows_each_step_once",
    "C51_same_expansion_partial",
    "C51_stepping_ends_partial",
    "C51_same_expansion_refuted",
    "C51_new_invocation_refuted",
    "C51_errors",
    "C51_bad_option_refused"
   ],
   "note": "Each step shown exactly once, in order, the last one being the result: proved for all macros (C51_shows_each_step_once). Same result as visit_recursively: refuted in general (C51_same_expansion_refuted: foo()[x] makes stepping raise SyntaxError; C51_new_invocation_refuted: (tom[x])[y] is expanded further when stepping). Proved (C51_same_expansion_partial) for macros that only compute a tree from their input, when no node becomes an invocation by an expansion inside it: if stepping returns, the expander returns the same tree; conversely (C51_stepping_ends_partial), if the expander returns a tree and no tree on the way contains what makes the collector fail (C30), stepping ends and returns that tree."
  },
  {
   "property": "C52",
   "status": "partial",
   "theorems": [
    "C52_erroneous_input_partial",
    "C52_unparseable_input_partial",
    "C52_session_survives_partial",
    "C52_incomplete_input",
    "C52_bindings_after_failure",
    "C52_only_these_escape",
    "C52_question_mark_refuted",
    "C52_bindings_kept_refuted",
    "C52_broken_ast_refuted",
    "C52_qualified_name_refuted",
    "C52_successful_input",
    "C52_special_commands"
   ],
   "note": "C52_successful_input says what successful input does, C52_special_commands what the special commands do. Refuted: C52_question_mark_refuted (any input ending in '?', even correct Python with a comment, is wrapped in a call whose SyntaxError is not caught), C52_bindings_kept_refuted (macro-imports stay when the rest of the input fails), C52_broken_ast_refuted (TypeError of compile escapes), C52_qualified_name_refuted (a macro with a dotted qualified name). Proved for inputs that are no special commands and fail with the expected exception classes, before macro-imports take effect; inputs that do not parse have no effect in any session; C52_only_these_escape lists every way an exception gets out. Parser, compiler, macro expansion are arguments of the model."
  },
  {
   "property": "C53",
   "status": "partial",
   "theorems": [
    "C53_recognise_total_refuted",
    "C53_recognise_captures",
    "C53_recognise_sound",
    "C53_value_exact",
    "C53_macro_exact",
    "C53_negative_exact",
    "C53_raises_exact",
    "C53_never_both"
   ],
   "note": "C53_recognise_total_refuted: a call such as mcpyrate.quotes.lookup_value(key) makes the test raise instead of answering. Proved: everything that the quasiquote system makes is recognised with the right contents (C53_recognise_captures); positive answers of both tests are given exactly to captures (C53_value_exact, C53_macro_exact), never both for one tree (C53_never_both); the answer False is never given to a call of the functions concerned (C53_negative_exact); and an exception is raised only for such a call that is no capture, or where the module is written `__import__()` (C53_raises_exact)."
  },
  {
   "property": "C54",
   "status": "partial",
   "theorems": [
    "C54_dump_reads_back_partial",
    "C54_dump_injective_partial",
    "C54_layout_partial",
    "C54_color_partial",
    "C54_rejects_other_values",
    "C54_infinity_refuted"
   ],
   "note": "Proved for every tree of finite numbers, strings, bytes and constants whose names are identifiers, through the model of Python's tokenizer and grammar with implicit line joining: the dump reads back as the tree (C54_dump_reads_back_partial), different trees have different dumps (C54_dump_injective_partial), lines are aligned with the innermost open bracket (C54_layout_partial), color only adds escape sequences (C54_color_partial). TypeError exactly for what is neither a node nor a list (C54_rejects_other_values). Refuted in general: an infinite float is dumped as the name inf (C54_infinity_refuted)."
  },
  {
   "property": "C55",
   "status": "partial",
   "theorems": [
    "C55_nested_expr_partial",
    "C55_nested_block_partial",
    "C55_nested_value_partial",
    "C55_inner_quote_kept",
    "C55_unquote_outside",
    "C55_level_restored",
    "C55_coverage_refuted",
    "C55_other_items_refuted",
    "C55_quote_in_unquote_refuted"
   ],
   "note": "Proved for source trees in which the operators are used by name, as the only item of a with, and not as decorators: what q returns, at any nesting depth, is the code of the tree with exactly the unquotes of the right level replaced (C55_nested_expr_partial, C55_nested_block_partial, C55_nested_value_partial for what it evaluates to); trees with balanced quotes are kept (C55_inner_quote_kept); an unquote outside is a SyntaxError (C55_unquote_outside); the level is always restored (C55_level_restored). Refuted in general: an inner quote in block mode puts a coverage statement into the quoted code (C55_coverage_refuted), duplicates other context managers (C55_other_items_refuted), and a quote inside an unquote does not see the macros, so h[macro] there captures a value (C55_quote_in_unquote_refuted)."
  },
  {
   "property": "C56",
   "status": "partial",
   "theorems": [
    "C56_expands_partial",
    "C56_expandsq_partial",
    "C56_value_partial",
    "C56_block_raises",
    "C56_level",
    "C56_block_refuted",
    "C56_not_quoted_refuted"
   ],
   "note": "Expression mode proved: the result is the code for what the expander makes of the quoted tree (C56_expands_partial, C56_expandsq_partial) and evaluates to it (C56_value_partial), for source trees without unquotes that reach outside, used outside any quote, when the expansion leaves a source tree (no Done marker); the last step of the expander, local postprocessing, is left out. The quote level is kept (C56_level). The block variants are refuted for all inputs: outside a quote they never return (C56_block_raises, witness C56_block_refuted: TypeError). The documented TypeError for input that is not quoted code is refuted too (C56_not_quoted_refuted: NotImplementedError)."
  },
  {
   "property": "C57",
   "status": "partial",
   "theorems": [
    "C57_restricted_expansion",
    "C57_only_given_called",
    "C57_other_macros_left",
    "C57_given_macros_gone_partial",
    "C57_wrong_use",
    "C57_bad_argument",
    "C57_captured_macro_refuted",
    "C57_name_macro_refuted",
    "C57_captured_not_left_refuted"
   ],
   "note": "For arguments that are bare names of macros (no name macros): the outcome is that of the expander with only those functions bound, and the bindings are restored (C57_restricted_expansion), only given macros and hygienically captured ones are called (C57_only_given_called), code that invokes others is kept (C57_other_macros_left), none of the given is left, under the conditions of C26 (C57_given_macros_gone_partial), other arguments are a SyntaxError (C57_bad_argument). Refuted: the documented form q[h[m]] is a SyntaxError, too (C57_captured_macro_refuted), and so is the bare name of a name macro (C57_name_macro_refuted); a hygienically captured macro is expanded although it is not given (C57_captured_not_left_refuted)."
  },
  {
   "property": "C58",
   "status": "partial",
   "theorems": [
    "C58_macro_bindings",
    "C58_unpicklable",
    "C58_expandr",
    "C58_expandrq_partial",
    "C58_expandrq_block_partial",
    "C58_expandr_block_no_code",
    "C58_expandr_block_refuted"
   ],
   "note": "Proved if the bound functions can be pickled: the snapshot is exactly the bindings (C58_macro_bindings); the result of expandr and expand1r in expr mode (C58_expandr), of expandrq and expand1rq outside quotes in both modes (C58_expandrq_partial, C58_expandrq_block_partial), for the trees of C55 and the unquotes of C42. One bound function that cannot be pickled makes all of them raise (C58_unpicklable). Refuted: block mode of expandr makes a call with a list of statements as an argument, which is no code (C58_expandr_block_no_code for every block, C58_expandr_block_refuted). Not proved: use inside quotes."
  },
  {
   "property": "C59",
   "status": "partial",
   "theorems": [
    "C59_never_outdated_partial",
    "C59_cache_used",
    "C59_same_second_refuted",
    "C59_older_version_refuted"
   ],
   "note": "Proved for every history in which changes are at least two seconds apart and set the modification time to the time of the change (C59_never_outdated_partial); bytecode is used when nothing it depends on has changed (C59_cache_used, unconditional). The full statement is refuted: a change within the second of the newest modification time goes unnoticed, even if the size changes (C59_same_second_refuted), and so does a replacement by a version whose modification time is older than that of another file in the graph (C59_older_version_refuted). SourceLoader.get_code of the standard library is modelled for timestamp-based pycs; the compilation is an argument of the model that may depend only on the files in the graph."
  },
  {
   "property": "C60",
   "status": "partial",
   "theorems": [
    "C60_multiphase_mode",
    "C60_no_markers_left",
    "C60_stages",
    "C60_run_rejects",
    "C60_compile",
    "C60_dynamic_ast_partial",
    "C60_text",
    "C60_bytes",
    "C60_multiphase_needs_name",
    "C60_expand_rejects",
    "C60_run_partial",
    "C60_run_code",
    "C60_run_failure",
    "C60_run_new_module",
    "C60_docstring_refuted",
    "C60_source_transformer_refuted",
    "C60_compile_rejects_refuted",
    "C60_no_file_refuted"
   ],
   "note": "Proved: mode selection (C60_multiphase_mode), no markers left (C60_no_markers_left), what compile returns and raises (C60_compile), refusals of expand (C60_expand_rejects), the stages of single-phase expansion (C60_stages), running of code objects, failures, refusals (C60_run_rejects), new modules. C60_dynamic_ast_partial: for an AST without dialect-imports that survives unparsing and parsing (C48). C60_run_partial: the docstring, if the expanded program does not begin with a constant that is no string. Refuted: running the text 42 sets the docstring to 42 (C60_docstring_refuted); source transformers are applied to ASTs, too (C60_source_transformer_refuted); compile and run accept nodes and lists that expand refuses (C60_compile_rejects_refuted); a module without __file__ is refused (C60_no_file_refuted)."
  },
  {
   "property": "C61",
   "status": "partial",
   "theorems": [
    "C61_stepr",
    "C61_stepr_refused",
    "C61_value_of_expandr_partial",
    "C61_stepr_ends_partial",
    "C61_fill_refused",
    "C61_fill_location",
    "C61_value_of_expandr_refuted",
    "C61_end_position_refuted"
   ],
   "note": "Proved: stepr does what step_expansion does with a new expander (C61_stepr); fill_location, completely (C61_fill_location, C61_fill_refused). C61_value_of_expandr_partial: same value as expandr for the trees and macros of C51; C61_stepr_ends_partial: for these, where expandr returns a tree, stepr ends and returns it too. Refuted: (tom[x])[y], where an expansion makes the enclosing subscript an invocation, gives different values (C61_value_of_expandr_refuted); the end position of the invocation is not copied (C61_end_position_refuted)."
  },
  {
   "property": "C62",
   "status": "partial",
   "theorems": [
    "C62_program_runs",
    "C62_package_runs",
    "C62_not_found",
    "C62_refused",
    "C62_script_module_partial",
    "C62_no_such_file",
    "C62_module_syspath",
    "C62_main_replaced_refuted",
    "C62_subpackage_refuted",
    "C62_namespace_package_refuted",
    "C62_propagates_refuted",
    "C62_exit_refuted",
    "C62_script_refuted",
    "C62_dotted_script_refuted"
   ],
   "note": "Proved: what is executed for modules and scripts (C62_program_runs) and for top-level packages (C62_package_runs), refusals (C62_not_found, C62_refused, C62_no_such_file), sys.path (C62_module_syspath). C62_script_module_partial: the name of a script, with the sys.path entries of C46. Refuted: sys.modules[\"__main__\"] is not replaced for packages (C62_main_replaced_refuted); the __main__ of a package in a package is not run (C62_subpackage_refuted); namespace packages fail (C62_namespace_package_refuted); missing modules in __main__.py are misreported (C62_propagates_refuted); sys.exit (C62_exit_refuted); a script can be mistaken for another one (C62_script_refuted) or refused for its name (C62_dotted_script_refuted)."
  },
  {
   "property": "C63",
   "status": "partial",
   "theorems": [
    "C63_view_partial",
    "C63_shared",
    "C63_accepts",
    "C63_reserved_key_refuted",
    "C63_other_key_refuted",
    "C63_hasattr_missing",
    "C63_hasattr_refuted",
    "C63_replace_refuted"
   ],
   "note": "C63_view_partial: every program of dicts and bunches behaves as on dictionaries that are merely referred to, under the conditions of C05 on copies and reserved names. C63_shared: the contents of the bunch and of the dict agree for ever, in every state, unless b.replace is called. C63_accepts: exactly what is accepted and what the ValueError lists. Refuted: the key keys is accepted but the attribute is the method (C63_reserved_key_refuted); a key that is no string gives AttributeError (C63_other_key_refuted); hasattr and getattr with a default raise KeyError for absent names (C63_hasattr_missing for all, C63_hasattr_refuted); after replace the dict is no longer updated (C63_replace_refuted). Mappings other than dict are not modelled."
  },
  {
   "property": "C64",
   "status": "partial",
   "theorems": [
    "C64_loaded",
    "C64_stays_installed",
    "C64_cell_expanded",
    "C64_rejected_cell",
    "C64_accepted_cell",
    "C64_macros_stay",
    "C64_help",
    "C64_load_again",
    "C64_variables_kept_refuted",
    "C64_unload_refuted",
    "C64_reload_refuted"
   ],
   "note": "Proved of all sessions without unloading, with no other AST transformers: every cell is looked through with the session as __self__ and expanded with the right macros (C64_cell_expanded), rejected cells do not run and change only variables named as macros (C64_rejected_cell), accepted cells run once as their expansion (C64_accepted_cell), macros stay (C64_macros_stay), help works (C64_help). Of all sessions, with any transformers of other tools: the transformer is never removed (C64_stays_installed), loading again does nothing (C64_load_again). Refuted: a later macro-import overwrites a user variable that has the name of a macro (C64_variables_kept_refuted); unloading leaves the transformer in place and %macros then raises AttributeError (C64_unload_refuted); after reloading, %macros lists nothing although the macros are still expanded (C64_reload_refuted)."
  },
  {
   "property": "C65",
   "status": "partial",
   "theorems": [
    "C65_report",
    "C65_report_faithful",
    "C65_report_color",
    "C65_show_bindings",
    "C65_colorize",
    "C65_show_bindings_refuted"
   ],
   "note": "C65_report: exactly the bindings in effect, sorted. C65_report_faithful: equal reports mean equal bindings, up to functions with the same full name, for names that are identifiers and texts without line breaks. C65_report_color, C65_colorize: colors add only escape sequences. Refuted for show_bindings: the bindings of hygienically unquoted macros, which its docstring says are shown, are global and left out (C65_show_bindings_refuted)."
  },
  {
   "property": "C66",
   "status": "partial",
   "theorems": [
    "C66_lineno",
    "C66_context",
    "C66_location",
    "C66_validator",
    "C66_validator_suite",
    "C66_validator_parsed_refuted",
    "C66_validator_end_refuted"
   ],
   "note": "C66_lineno: the first line number depth first, None iff there is none, for trees whose line numbers are not 0 or None and markers with nodes in their body only. C66_context, C66_location: the texts, up to escape sequences. C66_validator and C66_validator_suite: every node in depth-first order gets exactly its verdict. Refuted: a tree from Python's parser passes (C66_validator_parsed_refuted: contexts, operators and the like, which never have a location, are all collected); checking end_lineno finds the nodes without it (C66_validator_end_refuted: the class default counts as present)."
  },
  {
   "property": "C67",
   "status": "partial",
   "theorems": [
    "C67_hooks",
    "C67_imports_without_bytecode",
    "C67_imports_always_active",
    "C67_mixed_bytecode_refuted",
    "C67_other_tools_refuted"
   ],
   "note": "C67_hooks: both hooks, at every point of every sequence without other tools' installations in between. C67_imports_without_bytecode: the code run by each import, where no bytecode files are written or present. C67_imports_always_active: with bytecode files, if mcpyrate is never deactivated and the bytecode files present were made by it. Refuted: an import while active is expanded also if the module was imported before while inactive (C67_mixed_bytecode_refuted: its bytecode file is taken as up to date); deactivate restores hooks that other tools installed after mcpyrate was first imported (C67_other_tools_refuted)."
  },
  {
   "property": "C68",
   "status": "partial",
   "theorems": [
    "C68_without_color",
    "C68_color_shows_the_text_partial",
    "C68_module_exact_partial",
    "C68_escape_in_fstring_refuted"
   ],
   "note": "C68_without_color: no color codes with color=False, for all trees. C68_color_shows_the_text_partial: for all trees whose names and f-string texts have no ESC and no line end, the text shown equals the text without colors up to white space at the ends, no style is on at a line end, and the same exception is raised. C68_module_exact_partial: exactly the same text for the modules of C48. Refuted: an f-string with color codes in its own text (f'ESC[31m{x}ESC[0m', C68_escape_in_fstring_refuted), since the unparser does not escape ESC in f-strings. debug=True and AST markers are not modelled."
  },
  {
   "property": "C69",
   "status": "partial",
   "theorems": [
    "C69_leftover_use_never_expands",
    "C69_leftover_use_reported",
    "C69_every_mention_of_step_phases_refused",
    "C69_misplaced_block_message",
    "C69_async_refuted"
   ],
   "note": "C69_leftover_use_never_expands: with any other macros in the program, a use outside other invocations never gives a result. C69_leftover_use_reported: if nothing else is invoked, the error is MacroApplicationError with the place, caused by SyntaxError with the exact message. C69_misplaced_block_message: the exact error for a misplaced block. C69_every_mention_of_step_phases_refused. Refuted: `@phase async def` and `async with phase:`, without brackets, are left in the program (C69_async_refuted), since the expander has no visitor for async definitions and blocks."
  },
  {
   "property": "C70",
   "status": "partial",
   "theorems": [
    "C70_captures_shown",
    "C70_debug_module",
    "C70_debug_statements",
    "C70_debug_statement",
    "C70_debug_expression",
    "C70_line_numbers_readable",
    "C70_tags_line_up",
    "C70_debug_total_refuted"
   ],
   "note": "C70_debug_module, C70_debug_statements, C70_debug_statement, C70_debug_expression: the text, line by line, for every program. C70_captures_shown: captures by name. C70_line_numbers_readable, C70_tags_line_up: the numbers. Refuted as a total function: `mcpyrate.quotes.lookup_value(key)` has source code but cannot be shown in debug mode (C70_debug_total_refuted); the theorems name this exception. Without AST markers and color; the plain side is unparse of the program with captures by name."
  },
  {
   "property": "C71",
   "status": "partial",
   "theorems": [
    "C71_without_color",
    "C71_color_shows_debug_text_partial",
    "C71_capture_highlighted",
    "C71_captured_macro_highlighted",
    "C71_escape_in_fstring_refuted"
   ],
   "note": "C71_color_shows_debug_text_partial: for every tree whose names and f-strings have no ESC and no line end in them. C71_without_color: in general. C71_capture_highlighted, C71_captured_macro_highlighted: captures. Refuted for f-strings with color codes in their text (C71_escape_in_fstring_refuted). Without AST markers."
  },
  {
   "property": "C72",
   "status": "partial",
   "theorems": [
    "C72_source_code",
    "C72_only_these_escape",
    "C72_always_a_text",
    "C72_dump_instead_partial",
    "C72_messages_differ_partial",
    "C72_dump_in_color_partial",
    "C72_not_a_tree",
    "C72_other_exception_refuted"
   ],
   "note": "C72_only_these_escape: exactly which exceptions get out of unparse_with_fallbacks; C72_always_a_text: none, if exceptions are ordinary and their str works. C72_dump_instead_partial, C72_messages_differ_partial, C72_dump_in_color_partial: the dump, for the trees of C54. C72_not_a_tree: other values. C72_source_code: the text without failure. Refuted: unparse raises AssertionError for an empty set display (C72_other_exception_refuted), and then the text has nothing of the tree. The unparser is an arbitrary function."
  },
  {
   "property": "C73",
   "status": "proved",
   "theorems": [
    "C73_steps_shown",
    "C73_postprocessing_shown",
    "C73_no_other_effect",
    "C73_no_other_effect_post",
    "C73_nothing_left_out"
   ],
   "note": "C73_steps_shown, C73_postprocessing_shown: the output, for every run that ends; C73_nothing_left_out: the numbers and programs in it. C73_no_other_effect, C73_no_other_effect_post: equality with the dialect expander of C35 without debug mode. The search for dialect-imports is a parameter, as is the text shown for a program (C71, C72). User dialects are taken to leave debugmode and _step alone."
  },
  {
   "property": "C74",
   "status": "partial",
   "theorems": [
    "C74_result_partial",
    "C74_plain_program_unchanged",
    "C74_failure_propagates",
    "C74_ctx_step",
    "C74_empty_suite_raises",
    "C74_empty_suite_refuted"
   ],
   "note": "C74_result_partial: for postprocessors that leave the registry alone, inputs and macro results without a list directly in a list, and (for the ctx) trees of Python's grammar. C74_plain_program_unchanged and C74_failure_propagates: in full, for nodes. C74_ctx_step: that the model's correction of ctx is the result of fix_ctx on node objects (C10). The claim about suites is false: C74_empty_suite_raises and C74_empty_suite_refuted - an empty list raises AttributeError as soon as there is any binding, because visit turns it into None, which delete_markers does not accept."
  },
  {
   "property": "C75",
   "status": "partial",
   "theorems": [
    "C75_a_node",
    "C75_a_many",
    "C75_a_block",
    "C75_a_syntax",
    "C75_s_and_t",
    "C75_single_node_refused",
    "C75_n",
    "C75_only_the_kind",
    "C75_through_markers",
    "C75_plain_values_refused_partial",
    "C75_plain_values_refused_refuted"
   ],
   "note": "Proved in full for nodes, collections, n[] and the syntax argument (C75_a_node, C75_a_many, C75_a_block, C75_s_and_t, C75_n, C75_a_syntax, C75_only_the_kind, C75_through_markers). That every other value is refused is false: the empty string (and empty bytes) is iterable and accepted as an empty splice, C75_plain_values_refused_refuted; C75_plain_values_refused_partial covers all other plain values. Iterators and user-defined iterables are not modelled; a marker without any field is refused by the model with TypeError, by the code with AttributeError."
  },
  {
   "property": "C76",
   "status": "partial",
   "theorems": [
    "C76_clean_runs_nothing",
    "C76_dry_run_tells_partial",
    "C76_clean_no_directory",
    "C76_interactive",
    "C76_one_program",
    "C76_module",
    "C76_file",
    "C76_script_partial",
    "C76_clean_empty_refuted",
    "C76_dry_run_tells_refuted"
   ],
   "note": "C76_clean_runs_nothing, C76_clean_no_directory, C76_interactive, C76_one_program, C76_module, C76_file: for options that are not the empty string. C76_script_partial: the module of the script is run, with its directory first in sys.path, for the entries of sys.path of C62_script_module_partial. C76_dry_run_tells_partial: for file systems without symbolic links. Refuted: C76_clean_empty_refuted (-c with an empty string is ignored, and a program is run), C76_dry_run_tells_refuted (a symbolic link named __pycache__ is printed, but the deletion fails at it and deletes files elsewhere). argparse, readline and its history file are not modelled."
  },
  {
   "property": "C77",
   "status": "proved",
   "theorems": [
    "C77_debug_mode",
    "C77_only_prints",
    "C77_quiet",
    "C77_shows_what_is_compiled",
    "C77_headings"
   ],
   "note": "C77_debug_mode, C77_only_prints, C77_quiet, C77_shows_what_is_compiled: for programs whose import statements import something (Python's grammar). C77_headings: moreover for programs as in C32. How a program is rendered, and the colours, are not modelled; printing is taken to succeed."
  },
  {
   "property": "C78",
   "status": "partial",
   "theorems": [
    "C78_only_imports",
    "C78_imports_it",
    "C78_nothing_to_do",
    "C78_ends",
    "C78_docstring_refuted"
   ],
   "note": "Proved, except for string literals: what is found (C78_only_imports, C78_imports_it), with its line; C78_nothing_to_do; C78_ends, for dialects that leave the text and do not remove what has been processed. Refuted: such a line in a docstring is taken for a dialect-import (C78_docstring_refuted). That the statement can extend over more lines, and which imports are missed, is C36."
  }
 ]
}