# Formal model of mcpyrate in Rocq: design

Source: Technologicat/mcpyrate, version 3.6.4, in `/repo`. Python is read as text only; nothing is executed.
Prover: Coq 8.16.1, standard library only.

## Layout

`rocq/theories/` holds, per topic `X`:

- `XModel.v`: the executable model, function by function, each definition citing file and lines. No proofs.
- `XSpec.v` (or a `Spec` part at the top of `XProofs.v` when small): the independent specification.
- `XProofs.v`: lemmas.
- `XProps.v`: only the property theorems (`exact lemma`), `Print Assumptions`, and the `Example`s showing that
  the hypotheses are satisfiable.

`Base.v` holds what is shared: results with exceptions, the generic AST, induction principles.

## Modelling decisions

- An AST is `tree M`: a node has metadata of type `M` (locations, identity, or `unit`, depending on what the code
  at hand looks at), a class name (string), and an ordered list of named fields; a field is a node, a list, or an atom
  (None, str, int, ...). This is what `ast.iter_fields` and `NodeTransformer.generic_visit` see, so code that is generic
  in the node type (walkers, markers, expander, quotes) is modelled for all node types at once, also user-defined ones.
- In-place mutation becomes returning the new value. Where aliasing matters (fix_ctx on shared nodes, splice copies)
  the metadata carries the object identity.
- Exceptions are values (`Ok`/`Err`). Loops without an a-priori bound take fuel and return `OutOfFuel`, which the theorems
  treat as `the call has not returned`; it is never a normal-looking value.
- User code (macro functions, dialects, walker methods, postprocessors) is universally quantified: either a function or a
  free program (interaction tree) over the API it may call. uuid4, pickle, the import system, the file system and `ast.parse`
  are arguments (oracles), never axioms.

## Findings policy

If a claim is false of the faithful model, the theorem is `..._refuted : exists ..., ...` with a witness that can be traced
through the Python code, and the strongest true version is proved next to it.

## Per property plan

| id | model | proof |
|----|-------|-------|
| C01 | `flatten` on nested lists | induction on nesting |
| C02, C03 | strings, uuid stream as oracle, set of earlier names as state | invariant over call histories; string lemmas |
| C04 | free programs over the tracker API, interpreter with the explicit stack | induction on programs, vs. a lexical-scope semantics without a stack |
| C05, C06 | Bunch as class dictionary + instance data; dict as association list | refinement, induction over operation lists |
| C07, C08 | generic AST, `ASTTransformer`/`ASTVisitor` specialised to the two walkers | tree induction vs. occurrence predicates |
| C09 | locations as optional attributes | tree induction vs. a path-based (nearest ancestor) spec |
| C10, C11 | trees with identities, the walker override table explicit | simulation by a positional spec; refutation by witness for sharing |
| C12, C13 | free programs for user methods, full walker state | induction on fuel/program; witness for the empty state |
| C14 | `rename` | tree induction vs. list of name positions |
| C15 | association lists | list induction |
| C16, C17 | statement lists | list induction; witness for the boundary cases |
| C18-C20 | templates as trees | tree/list induction; witnesses |
| C21 | import resolution as oracle | list induction |
| C22-C28, C30, C31 | the expander: fuelled interpreter, macros as interaction trees over the expander API, with a call log | induction on fuel; witnesses |
| C29 | hook registry; error telescoping as string list model | induction |
| C32-C34 | module bodies, `with phase[n]` blocks, sys.modules as map, singlephase expansion as oracle | list induction |
| C35, C36 | dialect loop with user transformers as oracles; regex as a matcher on character lists | fuel induction; witness |
| C37-C39 | file system as map from path to (mtime, text, dependencies) | well-founded induction on acyclic graphs; invariant over histories; witness for cycles |
| C40 | sys.modules as map | case analysis; witnesses |
| C41-C43 | astify into ASTs of `ast.X(...)` calls; an evaluator for those | tree induction; witnesses |
| C44, C45 | capture tables, object identities and lifetimes as state | invariant over histories; witness |
| C53 | the recognisers on the generic AST | case analysis, inversion; witness |
| C46 | paths as strings | string lemmas; witness |
| C47-C49 | unparser on an expression/statement subset to tokens; a recursive descent parser as spec | simulation; witnesses |
| C50 | directory trees with symlinks | tree induction; witness |
| C51, C52 | step loop, runsource decision logic | fuel induction; witness |

## Trusted base

- Coq 8.16.1's kernel (`coqc`, and `coqchk` as run by the gate), with `vm_compute` in the examples and in some proofs.
- Axioms: none. `Print Assumptions` stands beneath every theorem of the list below and prints `Closed under the global context`
  for each of the 412 theorems. `coqchk` lists seven constants of the standard library module `Coq.ssr.ssrunder` (`Over_rel`,
  `Under_rel_from_rel`, `over_rel`, `over_rel_done`, `Under_rel`, `Under_relE`, `under_rel_done`): they are loaded with the standard
  library and no theorem uses them.
- That the definitions in the model files say what the cited lines of Python do. This was checked by reading, and by seeding errors (`seeded/LOG.jsonl`).
- That the definitions in the specification files and the statements of the theorems say what the English properties say.
- For C47-C49 and C54: that `PyGrammar.v` and `PyStmt.v` read text as Python does. They are written from the language reference
  and only cover a part of the language; what they do not cover, they refuse, so an error there could only make a theorem about reading back
  wrong if they accept text and read it differently than Python.

## What is modelled

| source | model | what is simplified or left out |
|--------|-------|--------------------------------|
| utils.py: gensym, scrub_uuid, flatten, rename, extract_bindings, getdocstring, NestingLevelTracker | UtilsModel.v, RenameModel.v | uuid4 is a stream; strings are byte strings |
| bunch.py | BunchModel.v | the mixin methods of collections.abc are written out from their documented definitions |
| markers.py, walkers.py | MarkersModel.v, WalkerModel.v | user methods are free programs over the walker API |
| astfixers.py | CtxModel.v, FixLocModel.v | objects have identities, so that sharing shows |
| splicing.py: splice_expression, splice_statements, splice_dialect; coreutils.py: split_futureimports, inject_after_futureimports | SpliceModel.v | |
| coreutils.py: ismacroimport, get_macros; expander.py: find_macros | ImportsModel.v | the import system is an oracle |
| core.py, expander.py: BaseMacroExpander, MacroExpander, MacroCollector | ExpanderModel.v, CollectorModel.v, PostModel.v | macros are interaction trees over the expander API; locations and error text are left out, except in the theorems on error reports |
| quotes.py: astify, unastify, capture tables, recognisers | QuoteModel.v, HygieneModel.v | pickle and uuid4 are arguments |
| quotes.py: the macros q, u, n, a, s, t, h, quote levels, the second expander | NestModel.v | run by the expander of ExpanderModel.v; local postprocessing left out; the second expander does not see hygienically captured macros |
| metatools.py: expand1s, expands, expand1sq, expandsq, expand_first | MetaModel.v | run by the expander of ExpanderModel.v; the second expander of expand_first is the same one with other bindings, among them the hygienically captured macros, which do not change meanwhile |
| metatools.py: macro_bindings, expand1r, expandr, expand1rq, expandrq, runtime_expand, runtime_expand1 | RuntimeModel.v | pickle is a pair of functions; the expander at run time runs the same macro functions, outside any quote |
| dialects.py | DialectModel.v | regular expressions are matchers on character lists |
| multiphase.py | PhaseModel.v | singlephase expansion is an oracle |
| importer.py, pycachecleaner.py, coreutils.py: paths | StatsModel.v, PycacheModel.v, SyspathModel.v | the file system is a map |
| activate.py, importer.py: the hooks, as used by SourceLoader.get_code of the standard library | PycModel.v | timestamp-based pycs; compiling a file is a function of the files it depends on |
| compiler.py: create_module, temporary_module | ModulesModel.v | sys.modules is a map |
| debug.py: step_expansion | StepModel.v | what is printed is a log of trees, without colours |
| astdumper.py, colorizer.py: colorize | DumpModel.v | values of attributes are no nodes or lists; floats and complex numbers are given by their repr |
| repl/console.py | ReplModel.v | what the code run in the session does is an oracle |
| unparser.py | UnparseModel.v | output without colours; locations of AST markers and invocations are left out; code points are bytes |
| compiler.py: expand, compile, singlephase_expand, run; multiphase.py: ismultiphase | CompileModel.v | parser, built-in compile, exec, macro expansion are arguments; a Module node stands for its body |
| metatools.py: stepr, fill_location | RuntimeStepModel.v | as for expandr |
| repl/macropython.py: import_module_as_main, main | MainModel.v | command-line parsing left out; finders, loaders and normal imports are arguments |
| bunch.py: bunchify; hasattr and getattr on bunches | BunchifyModel.v | mappings other than dict left out; str.isidentifier is an argument; operations on dicts are arbitrary functions of the contents |
| repl/iconsole.py: the IPython extension but for the magic dump_ast; repl/utils.py: the function macro | IpyModel.v | find_macros, expander, postprocessing, the code of cells, imports and other tools' transformers are arguments; IPython's run_cell and transform_ast as documented there |
| debug.py: format_bindings, show_bindings; utils.py: format_macrofunction; colorizer.py: setcolor, colorize | ShowModel.v | objects without the needed attributes are represented by their repr |
| utils.py: get_lineno, format_location, format_context; debug.py: SourceLocationInfoValidator | LocateModel.v | the text of a tree (unparse_with_fallbacks) is an argument; numbers of lines are not negative |
| activate.py | ActivateModel.v | the compilation, modification times and sizes under each hook are arguments; only timestamp-based bytecode files; sys.modules left out (every import loads anew) |
| unparser.py, color=True | ColorModel.v | debug=False, no AST markers; the sets of builtin names, the bindings and the color scheme are arguments; the terminal is the function `screen` (ColorSpec.v): SGR codes only |
| multiphase.py phase, step_phases (the macro functions) | MisplacedModel.v | the message texts are the source's |
| unparser.py fill, dispatch, toplevelnode, _Expr and all methods with `debug=True` | DebugModel.v | no AST markers, no color; the line number of a node is a function of its place |
| unparser.py with `debug=True, color=True` | DebugColorModel.v | no AST markers; the color scheme is a parameter |
| unparser.py unparse (fallbacks), unparse_with_fallbacks | FallbackModel.v | the unparser is an argument; exceptions' str and type may call user code |
| dialects.py StepExpansion, DialectExpander._transform, postprocess_ast with debug output | StepDialectModel.v | messages are structured; the search for dialect-imports is a parameter |
| expander.py expand_macros, core.py global_postprocess as a whole | ExpandModel.v | fix_ctx on trees that are not of Python's grammar is arbitrary |
| quotes.py 127-207, 250-259: run-time checks of unquotes | QuoteModel.v (stated in KindSpec.v, KindProps.v) | iterators and user-defined iterables left out |
| repl/macropython.py main 173-283 | CliModel.v | argparse, readline and history left out; running a program and the console are arbitrary functions (modelled in MainModel.v, ReplModel.v) |
| multiphase.py isdebug, and the output of multiphase_expand | PhaseDebugModel.v | rendering and colours left out; printing succeeds |
| dialects.py find_dialectimport_source with line numbers | DialectTextModel.v | match positions added to DialectModel.v; characters up to 255 |

Each definition names the lines it models and, where it leaves something out, says so.

## What is not modelled

Performance, memory, the CPython compiler, `ast.parse` (but for the part of the grammar in PyGrammar.v and PyStmt.v), terminal output and colours
(ansi.py, colorizer.py, but for setcolor and colorize), threads, the rest of repl/utils.py and the magic dump_ast of repl/iconsole.py, the parsing of the command line (argparse, in repl/macropython.py), astcompat.py.

## Theorems

`Print Assumptions` of each: `Closed under the global context`.

- C01 (proved): `C01_flatten_is_leaf_sequence` (UtilsProps.v), `C01_flatten_exact` (UtilsProps.v), `C01_flatten_idempotent` (UtilsProps.v), `C01_flatten_one_level` (UtilsProps.v)
- C02 (proved): `C02_gensym_unique` (UtilsProps.v), `C02_gensym_returns` (UtilsProps.v)
- C03 (proved): `C03_scrub_gensym` (UtilsProps.v), `C03_scrub_removes_one_suffix` (UtilsProps.v), `C03_scrub_else_unchanged` (UtilsProps.v)
- C04 (proved): `C04_tracker_lexical` (UtilsProps.v), `C04_levels_never_negative` (UtilsProps.v), `C04_negative_rejected` (UtilsProps.v)
- C05 (partial): `C05_refines_dict_partial` (BunchProps.v), `C05_attribute_is_item` (BunchProps.v), `C05_copy_refuted` (BunchProps.v), `C05_equality` (BunchProps2.v)
- C06 (proved): `C06_methods_stay` (BunchProps.v), `C06_reserved_assignment_raises` (BunchProps.v), `C06_items_reachable` (BunchProps.v)
- C07 (proved): `C07_delete_markers_exact` (MarkersProps.v), `C07_delete_markers_identity` (MarkersProps.v), `C07_empty_marker_raises` (MarkersProps.v)
- C08 (proved): `C08_get_markers_order` (MarkersProps.v), `C08_get_markers_complete` (MarkersProps.v), `C08_check_exact` (MarkersProps.v)
- C09 (proved): `C09_fix_locations_exact` (FixLocProps.v), `C09_no_reference_location` (FixLocProps.v), `C09_lists_elementwise` (FixLocProps.v)
- C10 (proved): `C10_ctx_as_demanded` (CtxProps.v), `C10_nothing_but_ctx` (CtxProps.v), `C10_initial_ctx_irrelevant` (CtxProps.v), `C10_twice` (CtxProps.v)
- C11 (partial): `C11_shared_names_partial` (CtxProps.v), `C11_shared_names_in_list_partial` (CtxProps.v), `C11_same_instance_in_one_statement_refuted` (CtxProps.v), `C11_tuple_between_statements_refuted` (CtxProps.v)
- C12 (partial): `C12_stack_restored_partial` (WalkerProps.v), `C12_toplevel_partial` (WalkerProps.v), `C12_withstate_then_visit_partial` (WalkerProps.v), `C12_emptied_state_refuted` (WalkerProps.v), `C12_list_elements_in_order` (WalkerProps2.v)
- C13 (partial): `C13_no_leak_partial` (WalkerProps.v), `C13_withstate_visit_partial` (WalkerProps.v), `C13_empty_state_refuted` (WalkerProps.v)
- C14 (proved): `C14_rename_exact` (RenameProps.v), `C14_rename_list` (RenameProps.v), `C14_rename_names` (RenameProps.v), `C14_rename_absent` (RenameProps.v), `C14_rename_back` (RenameProps.v), `C14_all_places_refuted` (RenameProps.v)
- C15 (proved): `C15_extract_bindings_exact` (UtilsProps.v)
- C16 (partial): `C16_inject_partial` (SpliceProps.v), `C16_single_statement` (SpliceProps.v), `C16_only_futures_refuted` (SpliceProps.v), `C16_empty_docstring_refuted` (SpliceProps.v)
- C17 (partial): `C17_getdocstring_partial` (UtilsProps.v), `C17_getdocstring_refuted` (UtilsProps.v)
- C18 (proved): `C18_splice_expression` (SpliceProps.v), `C18_edge_cases` (SpliceProps.v)
- C19 (partial): `C19_splice_statements_partial` (SpliceProps.v), `C19_single_statement_body` (SpliceProps.v), `C19_edge_cases` (SpliceProps.v), `C19_single_node_template_refuted` (SpliceProps.v)
- C20 (partial): `C20_layout_partial` (SpliceProps.v), `C20_docstring_lost_refuted` (SpliceProps.v), `C20_valid_module_refused_refuted` (SpliceProps.v), `C20_empty_block_refuted` (SpliceProps.v)
- C21 (proved): `C21_statements_read` (ImportsProps.v), `C21_find_macros_exact` (ImportsProps.v), `C21_find_macros_returns` (ImportsProps.v), `C21_again_finds_nothing` (ImportsProps.v), `C21_untransformed_body` (ImportsProps.v), `C21_failure` (ImportsProps.v)
- C22 (proved): `C22_uninvolved_code_unchanged` (ExpanderProps.v), `C22_uninvolved_suite_unchanged` (ExpanderProps.v), `C22_no_bindings_unchanged` (ExpanderProps.v), `C22_entry_points_unchanged` (ExpanderProps.v)
- C23 (proved): `C23_mode_restored` (ExpanderProps.v), `C23_entry_points_restore_mode` (ExpanderProps.v)
- C24 (proved): `C24_with_first_macro_first` (ExpanderProps.v), `C24_decorator_last_macro_first` (ExpanderProps.v)
- C25 (proved): `C25_once_expands_one_layer` (ExpanderProps2.v), `C25_visit_in_once_mode_one_layer` (ExpanderProps2.v), `C25_calls_are_outermost_parts` (ExpanderProps2.v), `C25_result_protected` (ExpanderProps2.v)
- C26 (partial): `C26_recursive_expansion_complete_partial` (ExpanderProps3.v), `C26_visit_recursively_complete_partial` (ExpanderProps3.v), `C26_new_invocation_left_refuted` (ExpanderProps3.v), `C26_async_def_left_refuted` (ExpanderProps3.v)
- C27 (partial): `C27_other_values_raise` (ExpanderProps2.v), `C27_values_land` (ExpanderProps2.v), `C27_values_land_recursive` (ExpanderProps2.v), `C27_suite_spliced` (ExpanderProps2.v), `C27_suite_visited_as_list` (ExpanderProps2.v), `C27_list_in_expression_slot_refuted` (ExpanderProps2.v)
- C28 (partial): `C28_report_lists_all_sites` (ExpanderProps2.v), `C28_no_error_swallowed` (ExpanderProps2.v), `C28_base_exceptions_pass` (ExpanderProps2.v), `C28_own_report_lost_refuted` (ExpanderProps2.v)
- C29 (partial): `C29_registry` (PostProps.v), `C29_hooks_run_in_order_partial` (PostProps.v), `C29_no_hook_after_error` (PostProps.v), `C29_self_removing_hook_refuted` (PostProps.v)
- C30 (partial): `C30_collected_exactly_invoked` (CollectorProps.v), `C30_collected_accumulates` (CollectorProps.v), `C30_collector_returns_partial` (CollectorProps.v), `C30_collector_fails_on_plain_call_refuted` (CollectorProps.v), `C30_collector_fails_on_type_comment_refuted` (CollectorProps.v)
- C31 (partial): `C31_invocation_recognised` (ExpanderProps.v), `C31_other_code_not_invoked` (ExpanderProps.v), `C31_invocation_unique` (ExpanderProps.v), `C31_empty_subscript_accepted_refuted` (ExpanderProps.v), `C31_bad_call_not_ordinary_refuted` (ExpanderProps.v)
- C32 (partial): `C32_phases_compiled_partial` (PhaseProps.v), `C32_tuple_phase_number_refuted` (PhaseProps.v)
- C33 (partial): `C33_restored_on_success_partial` (PhaseProps.v), `C33_failed_phase_leaves_module_refuted` (PhaseProps.v)
- C34 (partial): `C34_detect_highest_partial` (PhaseProps.v), `C34_no_phase_gives_false_refuted` (PhaseProps.v)
- C35 (partial): `C35_dialects_applied_in_order` (DialectProps.v), `C35_no_dialect_import_left` (DialectProps.v), `C35_each_import_once` (DialectProps.v), `C35_postprocess_in_order` (DialectProps.v), `C35_source_dialects_applied_refuted` (DialectProps.v)
- C36 (partial): `C36_recognised_whatever_follows_refuted` (DialectProps.v), `C36_dialect_import_recognised_partial` (DialectProps.v), `C36_module_name_refuted` (DialectProps.v)
- C37 (proved): `C37_mtime_is_newest` (StatsProps.v), `C37_returns_on_acyclic_graph` (StatsProps.v), `C37_import_hook` (StatsProps.v), `C37_others_untouched` (StatsProps.v)
- C38 (proved): `C38_cache_transparent` (StatsProps.v), `C38_history_transparent` (StatsProps.v), `C38_stale_entry_replaced` (StatsProps.v), `C38_reused_mtime_refuted` (StatsProps.v)
- C39 (partial): `C39_terminates_refuted` (StatsProps.v), `C39_returns_if_acyclic_partial` (StatsProps.v), `C39_result_only_if_acyclic` (StatsProps.v)
- C40 (partial): `C40_create_module_success` (ModulesProps.v), `C40_create_module_succeeds` (ModulesProps.v), `C40_create_module_failure` (ModulesProps.v), `C40_temporary_module_partial` (ModulesProps.v), `C40_unnamed_temporary_module_leaks_refuted` (ModulesProps.v), `C40_existing_module_lost_refuted` (ModulesProps.v), `C40_refused_temporary_module_deletes_refuted` (ModulesProps.v)
- C41 (partial): `C41_quote_faithful_refuted` (QuoteProps.v), `C41_quote_faithful_partial` (QuoteProps.v), `C41_astify_faithful_partial` (QuoteProps.v), `C41_unquotes_uncompiled` (QuoteProps2.v)
- C42 (partial): `C42_unquotes_refuted` (QuoteProps.v), `C42_unquotes_partial` (QuoteProps.v), `C42_u_value` (QuoteProps.v)
- C43 (partial): `C43_splices_anywhere_refuted` (QuoteProps.v), `C43_no_splice_left` (QuoteProps.v), `C43_splices_anywhere_partial` (QuoteProps.v)
- C44 (partial): `C44_same_object_refuted` (HygieneProps.v), `C44_value_refuted` (HygieneProps.v), `C44_value_partial` (HygieneProps.v), `C44_value_kept_partial` (HygieneProps.v), `C44_other_process_partial` (HygieneProps.v), `C44_lookup_again` (HygieneProps.v), `C44_captures_independent_partial` (HygieneProps.v)
- C45 (partial): `C45_captured_macro_refuted` (HygieneProps.v), `C45_captured_macro_partial` (HygieneProps.v), `C45_unique_names` (HygieneProps.v), `C45_undisturbed` (HygieneProps.v), `C45_lookup_again` (HygieneProps.v)
- C46 (partial): `C46_root_contains_file_refuted` (SyspathProps.v), `C46_deepest_refuted` (SyspathProps.v), `C46_filesystem_root_refuted` (SyspathProps.v), `C46_deepest_directory_partial` (SyspathProps.v), `C46_package_name_partial` (SyspathProps.v)
- C47 (partial): `C47_expression_round_trip_partial` (UnparseProps.v), `C47_no_space_around` (UnparseProps.v), `C47_dict_unpacking_refuted` (UnparseProps.v), `C47_empty_subscript_refuted` (UnparseProps.v), `C47_fstring_refuted` (UnparseProps.v), `C47_fstring_set_refuted` (UnparseProps.v), `C47_fstring_backslash_refuted` (UnparseProps.v)
- C48 (partial): `C48_module_round_trip_partial` (StmtProps.v), `C48_indentation_partial` (StmtProps.v), `C48_with_tuple_refuted` (StmtProps.v), `C48_nested_as_refuted` (StmtProps.v), `C48_nested_or_refuted` (StmtProps.v), `C48_negative_key_refuted` (StmtProps.v)
- C49 (partial): `C49_no_error_partial` (StmtProps.v), `C49_nothing_dropped_partial` (StmtProps.v), `C49_unparser_error_refuted` (StmtProps.v), `C49_type_parameters_refuted` (StmtProps.v), `C49_eval_mode_refuted` (StmtProps.v)
- C50 (partial): `C50_deletes_only_pycache_refuted` (PycacheProps.v), `C50_deletes_exactly_pycache_partial` (PycacheProps.v), `C50_lists_exactly_pycache_partial` (PycacheProps.v), `C50_what_is_left_partial` (PycacheProps.v)
- C51 (partial): `C51_shows_each_step_once` (StepProps.v), `C51_same_expansion_partial` (StepProps.v), `C51_stepping_ends_partial` (StepProps.v), `C51_same_expansion_refuted` (StepProps.v), `C51_new_invocation_refuted` (StepProps.v), `C51_errors` (StepProps.v), `C51_bad_option_refused` (StepProps.v)
- C52 (partial): `C52_erroneous_input_partial` (ReplProps.v), `C52_unparseable_input_partial` (ReplProps.v), `C52_session_survives_partial` (ReplProps.v), `C52_incomplete_input` (ReplProps.v), `C52_bindings_after_failure` (ReplProps.v), `C52_only_these_escape` (ReplProps.v), `C52_question_mark_refuted` (ReplProps.v), `C52_bindings_kept_refuted` (ReplProps.v), `C52_broken_ast_refuted` (ReplProps.v), `C52_qualified_name_refuted` (ReplProps.v), `C52_successful_input` (ReplProps2.v), `C52_special_commands` (ReplProps2.v)
- C53 (partial): `C53_recognise_total_refuted` (HygieneProps.v), `C53_recognise_captures` (HygieneProps.v), `C53_recognise_sound` (HygieneProps.v), `C53_value_exact` (HygieneProps2.v), `C53_macro_exact` (HygieneProps2.v), `C53_negative_exact` (HygieneProps2.v), `C53_raises_exact` (HygieneProps2.v), `C53_never_both` (HygieneProps2.v)
- C54 (partial): `C54_dump_reads_back_partial` (DumpProps.v), `C54_dump_injective_partial` (DumpProps.v), `C54_layout_partial` (DumpProps.v), `C54_color_partial` (DumpProps.v), `C54_rejects_other_values` (DumpProps.v), `C54_infinity_refuted` (DumpProps.v)
- C55 (partial): `C55_nested_expr_partial` (NestProps.v), `C55_nested_block_partial` (NestProps.v), `C55_nested_value_partial` (NestProps.v), `C55_inner_quote_kept` (NestProps.v), `C55_unquote_outside` (NestProps.v), `C55_level_restored` (NestProps.v), `C55_coverage_refuted` (NestProps.v), `C55_other_items_refuted` (NestProps.v), `C55_quote_in_unquote_refuted` (NestProps.v)
- C56 (partial): `C56_expands_partial` (MetaProps.v), `C56_expandsq_partial` (MetaProps.v), `C56_value_partial` (MetaProps.v), `C56_block_raises` (MetaProps.v), `C56_level` (MetaProps.v), `C56_block_refuted` (MetaProps.v), `C56_not_quoted_refuted` (MetaProps.v)
- C57 (partial): `C57_restricted_expansion` (FirstProps.v), `C57_only_given_called` (FirstProps.v), `C57_other_macros_left` (FirstProps.v), `C57_given_macros_gone_partial` (FirstProps.v), `C57_wrong_use` (FirstProps.v), `C57_bad_argument` (FirstProps.v), `C57_captured_macro_refuted` (FirstProps.v), `C57_name_macro_refuted` (FirstProps.v), `C57_captured_not_left_refuted` (FirstProps.v)
- C58 (partial): `C58_macro_bindings` (RuntimeProps.v), `C58_unpicklable` (RuntimeProps.v), `C58_expandr` (RuntimeProps.v), `C58_expandrq_partial` (RuntimeProps.v), `C58_expandrq_block_partial` (RuntimeProps.v), `C58_expandr_block_no_code` (RuntimeProps.v), `C58_expandr_block_refuted` (RuntimeProps.v)
- C59 (partial): `C59_never_outdated_partial` (PycProps.v), `C59_cache_used` (PycProps.v), `C59_same_second_refuted` (PycProps.v), `C59_older_version_refuted` (PycProps.v)
- C60 (partial): `C60_multiphase_mode` (CompileProps.v), `C60_no_markers_left` (CompileProps.v), `C60_stages` (CompileProps.v), `C60_run_rejects` (CompileProps.v), `C60_compile` (CompileProps.v), `C60_dynamic_ast_partial` (CompileProps.v), `C60_text` (CompileProps.v), `C60_bytes` (CompileProps.v), `C60_multiphase_needs_name` (CompileProps.v), `C60_expand_rejects` (CompileProps.v), `C60_run_partial` (CompileProps.v), `C60_run_code` (CompileProps.v), `C60_run_failure` (CompileProps.v), `C60_run_new_module` (CompileProps.v), `C60_docstring_refuted` (CompileProps.v), `C60_source_transformer_refuted` (CompileProps.v), `C60_compile_rejects_refuted` (CompileProps.v), `C60_no_file_refuted` (CompileProps.v)
- C61 (partial): `C61_stepr` (RuntimeStepProps.v), `C61_stepr_refused` (RuntimeStepProps.v), `C61_value_of_expandr_partial` (RuntimeStepProps.v), `C61_stepr_ends_partial` (RuntimeStepProps.v), `C61_fill_refused` (RuntimeStepProps.v), `C61_fill_location` (RuntimeStepProps.v), `C61_value_of_expandr_refuted` (RuntimeStepProps.v), `C61_end_position_refuted` (RuntimeStepProps.v)
- C62 (partial): `C62_program_runs` (MainProps.v), `C62_package_runs` (MainProps.v), `C62_not_found` (MainProps.v), `C62_refused` (MainProps.v), `C62_script_module_partial` (MainProps.v), `C62_no_such_file` (MainProps.v), `C62_module_syspath` (MainProps.v), `C62_main_replaced_refuted` (MainProps.v), `C62_subpackage_refuted` (MainProps.v), `C62_namespace_package_refuted` (MainProps.v), `C62_propagates_refuted` (MainProps.v), `C62_exit_refuted` (MainProps.v), `C62_script_refuted` (MainProps.v), `C62_dotted_script_refuted` (MainProps.v)
- C63 (partial): `C63_view_partial` (BunchifyProps.v), `C63_shared` (BunchifyProps.v), `C63_accepts` (BunchifyProps.v), `C63_reserved_key_refuted` (BunchifyProps.v), `C63_other_key_refuted` (BunchifyProps.v), `C63_hasattr_missing` (BunchifyProps.v), `C63_hasattr_refuted` (BunchifyProps.v), `C63_replace_refuted` (BunchifyProps.v)
- C64 (partial): `C64_loaded` (IpyProps.v), `C64_stays_installed` (IpyProps.v), `C64_cell_expanded` (IpyProps.v), `C64_rejected_cell` (IpyProps.v), `C64_accepted_cell` (IpyProps.v), `C64_macros_stay` (IpyProps.v), `C64_help` (IpyProps.v), `C64_load_again` (IpyProps.v), `C64_variables_kept_refuted` (IpyProps.v), `C64_unload_refuted` (IpyProps.v), `C64_reload_refuted` (IpyProps.v)
- C65 (partial): `C65_report` (ShowProps.v), `C65_report_faithful` (ShowProps.v), `C65_report_color` (ShowProps.v), `C65_show_bindings` (ShowProps.v), `C65_colorize` (ShowProps.v), `C65_show_bindings_refuted` (ShowProps.v)
- C66 (partial): `C66_lineno` (LocateProps.v), `C66_context` (LocateProps.v), `C66_location` (LocateProps.v), `C66_validator` (LocateProps.v), `C66_validator_suite` (LocateProps.v), `C66_validator_parsed_refuted` (LocateProps.v), `C66_validator_end_refuted` (LocateProps.v)
- C67 (partial): `C67_hooks` (ActivateProps.v), `C67_imports_without_bytecode` (ActivateProps.v), `C67_imports_always_active` (ActivateProps.v), `C67_mixed_bytecode_refuted` (ActivateProps.v), `C67_other_tools_refuted` (ActivateProps.v)
- C68 (partial): `C68_without_color` (ColorProps.v), `C68_color_shows_the_text_partial` (ColorProps.v), `C68_module_exact_partial` (ColorProps.v), `C68_escape_in_fstring_refuted` (ColorProps.v)
- C69 (partial): `C69_leftover_use_never_expands` (MisplacedProps.v), `C69_leftover_use_reported` (MisplacedProps.v), `C69_every_mention_of_step_phases_refused` (MisplacedProps.v), `C69_misplaced_block_message` (MisplacedProps.v), `C69_async_refuted` (MisplacedProps.v)
- C70 (partial): `C70_captures_shown` (DebugProps.v), `C70_debug_module` (DebugProps.v), `C70_debug_statements` (DebugProps.v), `C70_debug_statement` (DebugProps.v), `C70_debug_expression` (DebugProps.v), `C70_line_numbers_readable` (DebugProps.v), `C70_tags_line_up` (DebugProps.v), `C70_debug_total_refuted` (DebugProps.v)
- C71 (partial): `C71_without_color` (DebugColorProps.v), `C71_color_shows_debug_text_partial` (DebugColorProps.v), `C71_capture_highlighted` (DebugColorProps.v), `C71_captured_macro_highlighted` (DebugColorProps.v), `C71_escape_in_fstring_refuted` (DebugColorProps.v)
- C72 (partial): `C72_source_code` (FallbackProps.v), `C72_only_these_escape` (FallbackProps.v), `C72_always_a_text` (FallbackProps.v), `C72_dump_instead_partial` (FallbackProps.v), `C72_messages_differ_partial` (FallbackProps.v), `C72_dump_in_color_partial` (FallbackProps.v), `C72_not_a_tree` (FallbackProps.v), `C72_other_exception_refuted` (FallbackProps.v)
- C73 (proved): `C73_steps_shown` (StepDialectProps.v), `C73_postprocessing_shown` (StepDialectProps.v), `C73_no_other_effect` (StepDialectProps.v), `C73_no_other_effect_post` (StepDialectProps.v), `C73_nothing_left_out` (StepDialectProps.v)
- C74 (partial): `C74_result_partial` (ExpandProps.v), `C74_plain_program_unchanged` (ExpandProps.v), `C74_failure_propagates` (ExpandProps.v), `C74_ctx_step` (ExpandProps.v), `C74_empty_suite_raises` (ExpandProps.v), `C74_empty_suite_refuted` (ExpandProps.v)
- C75 (partial): `C75_a_node` (KindProps.v), `C75_a_many` (KindProps.v), `C75_a_block` (KindProps.v), `C75_a_syntax` (KindProps.v), `C75_s_and_t` (KindProps.v), `C75_single_node_refused` (KindProps.v), `C75_n` (KindProps.v), `C75_only_the_kind` (KindProps.v), `C75_through_markers` (KindProps.v), `C75_plain_values_refused_partial` (KindProps.v), `C75_plain_values_refused_refuted` (KindProps.v)
- C76 (partial): `C76_clean_runs_nothing` (CliProps.v), `C76_dry_run_tells_partial` (CliProps.v), `C76_clean_no_directory` (CliProps.v), `C76_interactive` (CliProps.v), `C76_one_program` (CliProps.v), `C76_module` (CliProps.v), `C76_file` (CliProps.v), `C76_script_partial` (CliProps.v), `C76_clean_empty_refuted` (CliProps.v), `C76_dry_run_tells_refuted` (CliProps.v)
- C77 (proved): `C77_debug_mode` (PhaseDebugProps.v), `C77_only_prints` (PhaseDebugProps.v), `C77_quiet` (PhaseDebugProps.v), `C77_shows_what_is_compiled` (PhaseDebugProps.v), `C77_headings` (PhaseDebugProps.v)
- C78 (partial): `C78_only_imports` (DialectTextProps.v), `C78_imports_it` (DialectTextProps.v), `C78_nothing_to_do` (DialectTextProps.v), `C78_ends` (DialectTextProps.v), `C78_docstring_refuted` (DialectTextProps.v)
