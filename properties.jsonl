{"id": "C01", "title": "flatten yields exactly the leaves, in order", "statement": "mcpyrate.utils.flatten(lst) returns a list that contains no None and no list, and whose elements are exactly the non-None, non-list elements found at any nesting depth of lst, in left-to-right order; flattening the result again returns it unchanged; with recursive=False exactly one level of nesting is removed, top-level None elements are dropped and inner lists are kept as they are.", "quantifier": "every finite nested list, of any depth and shape, with None anywhere", "why_tests_cant": "the set of nested lists is infinite; order and completeness at unbounded nesting depth need induction", "anchors": ["mcpyrate/utils.py:flatten"]}
{"id": "C02", "title": "gensym never returns the same name twice", "statement": "In any sequence of gensym(basename) calls in one process, with any basenames, in any order, no two calls return the same string, even if the uuid source repeats values; every returned string is the basename (or 'gensym' if None), an underscore, and a 32-digit lowercase hexadecimal value (just the value when basename is the empty string).", "quantifier": "every call history and every (possibly colliding) uuid stream on which the calls terminate", "why_tests_cant": "uuid collisions cannot be provoked by a test and the guarantee is about unbounded histories", "anchors": ["mcpyrate/utils.py:gensym", "mcpyrate/utils.py:_previous_gensyms"]}
{"id": "C03", "title": "scrub_uuid undoes gensym, and changes nothing else", "statement": "scrub_uuid(gensym(b)) == b for every non-empty basename b; scrub_uuid returns its argument unchanged unless the text after the last underscore is exactly 32 characters long and int(_, 16) accepts it, in which case it removes that text and that one underscore.", "quantifier": "every basename and every uuid value; every string", "why_tests_cant": "ranges over all strings and all uuids, including basenames that themselves look like gensyms", "anchors": ["mcpyrate/utils.py:scrub_uuid", "mcpyrate/utils.py:gensym"]}
{"id": "C04", "title": "NestingLevelTracker follows stack discipline on every exit path", "statement": "For every program that nests `with t.set_to(n)` and `with t.changed_by(d)` blocks, reads t.value, raises and catches exceptions: inside a block t.value is the level requested by the innermost enclosing block, after the block (left normally or by exception) t.value is what it was before, t.value is never negative if it started non-negative, and a negative request raises ValueError without changing the level.", "quantifier": "every finite program over the tracker API, with exceptions raised and caught anywhere", "why_tests_cant": "arbitrary nesting combined with arbitrary exception points", "anchors": ["mcpyrate/utils.py:NestingLevelTracker"]}
{"id": "C05", "title": "Bunch refines a dictionary, through both access syntaxes", "statement": "Starting from equal contents, every sequence of Bunch operations (item and attribute get/set/delete, in, len, iteration, get, pop, popitem, setdefault, update, clear, copy, replace) produces the same results, the same KeyErrors, and the same iteration order as the corresponding dict operations; attribute reads and item reads agree for every name that is not an attribute of the class.", "quantifier": "every operation sequence, every key and value, every initial content", "why_tests_cant": "refinement over unbounded operation histories", "anchors": ["mcpyrate/bunch.py:Bunch"]}
{"id": "C06", "title": "Bunch attribute assignment cannot shadow its own API", "statement": "After any sequence of public operations (attribute assignment included), b.get, b.pop, b.keys etc. still denote the methods: assigning to a reserved name raises AttributeError and leaves the contents unchanged; data stored under a reserved name by item access stays reachable by item access.", "quantifier": "every operation sequence and every reserved name", "why_tests_cant": "the guarantee concerns all histories and all names at once", "anchors": ["mcpyrate/bunch.py:Bunch.__setattr__", "mcpyrate/bunch.py:Bunch.__getattr__"]}
{"id": "C07", "title": "delete_markers removes every marker of the class and nothing else", "statement": "delete_markers(tree, cls) returns a tree in which no node is an instance of cls, in which each deleted marker has been replaced by its (recursively cleaned) body - spliced into the enclosing statement list when the body is a list - and in which every other node keeps its type, its fields and its order; a tree without such markers is returned unchanged.", "quantifier": "every AST, every nesting of markers, each with a body made of nodes, every marker class", "why_tests_cant": "arbitrary nesting of markers inside markers, lists and nodes", "anchors": ["mcpyrate/markers.py:delete_markers", "mcpyrate/walkers.py:ASTTransformer.visit"]}
{"id": "C08", "title": "get_markers finds exactly the markers; the final check is exact", "statement": "get_markers(tree, cls) returns exactly the nodes of the tree that are instances of cls, each once per occurrence, in depth-first source order, including markers nested in other markers; check_no_markers_remaining(tree) raises MacroExpansionError if and only if some marker occurs anywhere in the tree, however deep.", "quantifier": "every AST and every marker class", "why_tests_cant": "completeness over all tree shapes; a missed position would let a marker reach the Python compiler", "anchors": ["mcpyrate/markers.py:get_markers", "mcpyrate/markers.py:check_no_markers_remaining"]}
{"id": "C09", "title": "fix_locations implements its three documented modes", "statement": "fix_locations(tree, ref, mode) never changes anything but location attributes. In mode 'reference', afterwards every node that supports locations and lacked one has exactly ref's; nodes that had one keep it. In mode 'overwrite' every such node has ref's. In mode 'update' a node lacking a location gets that of its nearest enclosing node that had one, or ref's if none had. If ref has no location, nothing changes.", "quantifier": "every AST with every combination of present and missing location attributes, every reference node, all three modes", "why_tests_cant": "the nearest-enclosing-node rule is over unbounded depth", "anchors": ["mcpyrate/astfixers.py:fix_locations"]}
{"id": "C10", "title": "fix_ctx gives every expression the ctx its position demands", "statement": "After fix_ctx, every Name, Attribute, Subscript, Starred, List and Tuple in the tree has ctx Store exactly at binding positions (assignment, for, with, comprehension, walrus, annotated and augmented assignment targets, type alias names, and tuple/list/starred elements inside them), Del exactly at del targets, and Load everywhere else, including inside the value and slice of a subscripted or dotted target; nothing but ctx changes; the initial ctx values do not matter; running it twice equals running it once.", "quantifier": "every syntactically valid AST in which no node instance occurs twice, with arbitrary (wrong or missing) initial ctx values", "why_tests_cant": "all nesting combinations of targets, subscripts, attributes and comprehensions", "anchors": ["mcpyrate/astfixers.py:fix_ctx", "mcpyrate/astfixers.py:_CtxFixer"]}
{"id": "C11", "title": "fix_ctx with copy_seen_nodes=True is correct also for shared node instances", "statement": "When the same node instance has been spliced into several positions that need different ctx values, fix_ctx(tree, copy_seen_nodes=True) still yields the ctx each position demands.", "quantifier": "every AST with arbitrary sharing of node instances", "why_tests_cant": "sharing patterns are unbounded; the documented purpose of the flag is exactly this guarantee", "anchors": ["mcpyrate/astfixers.py:fix_ctx", "mcpyrate/walkers.py:BaseASTWalker.withstate"]}
{"id": "C12", "title": "AST walkers restore their state stack on every path", "statement": "For every user-written examine/transform method - which may call visit, generic_visit, withstate, generic_withstate, read, mutate or replace self.state, collect values, raise and catch exceptions - after each visit returns or raises, self.state is the object that was current before the call (up to explicit rebinding/mutation of that state by the method), and a subtree registered with withstate is visited with a copy of the registering state updated with the given bindings, exactly once per registration.", "quantifier": "every user-defined method, every tree, every point at which an exception is raised", "why_tests_cant": "the walker is an open framework: the claim is about all possible user code", "anchors": ["mcpyrate/walkers.py:BaseASTWalker", "mcpyrate/walkers.py:ASTVisitor.visit", "mcpyrate/walkers.py:ASTTransformer.visit"]}
{"id": "C13", "title": "A subtree visited with temporary state cannot leak state changes outward", "statement": "If a subtree is registered with withstate (or generic_withstate), then assignments that code visiting the subtree makes to self.state attributes are not visible in self.state after the subtree has been visited.", "quantifier": "every initial state, including the empty one, and every registered subtree", "why_tests_cant": "depends on the contents of the state, including the empty state", "anchors": ["mcpyrate/walkers.py:BaseASTWalker.withstate", "mcpyrate/walkers.py:ASTTransformer.visit", "mcpyrate/bunch.py:Bunch.__len__"]}
{"id": "C14", "title": "rename replaces the old name at every listed position, and only there", "statement": "rename(old, new, tree) changes exactly the documented name positions (identifiers, attributes, function/class names, parameters, keyword arguments, import module/name/asname, exception handler names, global/nonlocal lists, as-pattern and star-pattern captures) holding exactly `old`, and leaves everything else, including string constants, unchanged; afterwards no such position holds `old` (if new != old); if `new` was not used in the tree, renaming back restores the tree.", "quantifier": "every AST and every pair of names", "why_tests_cant": "every node type at every depth; the round trip is over all trees", "anchors": ["mcpyrate/utils.py:rename"]}
{"id": "C15", "title": "extract_bindings keeps exactly the requested macro functions under all their names", "statement": "extract_bindings(bindings, f1, ..., fn) returns a dict that maps a name to a function if and only if bindings does and the function is one of f1..fn, in the same order.", "quantifier": "every dictionary of bindings and every set of functions, including aliases bound several times", "why_tests_cant": "arbitrary aliasing", "anchors": ["mcpyrate/utils.py:extract_bindings"]}
{"id": "C16", "title": "inject_after_futureimports keeps docstring and future-imports first", "statement": "inject_after_futureimports(stmts, body) returns a body that consists of the same statements in the same order with stmts inserted, where the docstring and all future-imports that started the body still come before everything else, i.e. the result is accepted by Python's rule that future-imports may be preceded only by the docstring.", "quantifier": "every module body, with and without docstring, with any number of future-imports and other statements, including none", "why_tests_cant": "the loop's boundary cases (nothing after the last future-import, empty docstring) lie outside typical tests", "anchors": ["mcpyrate/coreutils.py:split_futureimports", "mcpyrate/coreutils.py:inject_after_futureimports"]}
{"id": "C17", "title": "getdocstring agrees with Python's definition of a docstring", "statement": "getdocstring(body) returns the string iff the first statement of body is an expression statement consisting of a string constant, and None otherwise.", "quantifier": "every statement list", "why_tests_cant": "all constant types in first position", "anchors": ["mcpyrate/utils.py:getdocstring"]}
{"id": "C18", "title": "splice_expression replaces every tagged hole and nothing else", "statement": "splice_expression(expr, template, tag) returns the template in which every occurrence of the placeholder name tag is replaced by expr (and, when there are several, by independent copies), every other part is unchanged, and no placeholder remains if expr itself contains none.", "quantifier": "every template, every expression, any number of placeholders at any depth", "why_tests_cant": "unbounded number and nesting of placeholders", "anchors": ["mcpyrate/splicing.py:splice_expression"]}
{"id": "C19", "title": "splice_statements replaces every placeholder statement by the body", "statement": "splice_statements(body, template, tag) returns the template with each expression statement consisting of the placeholder replaced by the statements of body, in order, at any nesting depth, everything else unchanged and the user's statements never lost; this holds also when template is a single AST node, as documented.", "quantifier": "every template (list or single node) and every body", "why_tests_cant": "unbounded nesting; the single-node form is a separate branch", "anchors": ["mcpyrate/splicing.py:splice_statements"]}
{"id": "C20", "title": "splice_dialect merges user code and template in the documented layout", "statement": "splice_dialect(body, template, tag, lineno, col_offset) returns: the docstring (user's and template's combined), the future-imports of the template then of the user, the user's __all__, dialect-imports and macro-imports of template then user, then the template's remaining statements with the user's remaining statements at the placeholder; no statement of either is lost or duplicated, the result still has a docstring when the user or template had one, and any valid user module body is accepted.", "quantifier": "every user module body and every template containing the placeholder", "why_tests_cant": "combinations of presence and absence of each statement category, and of order within each, are unbounded", "anchors": ["mcpyrate/splicing.py:splice_dialect"]}
{"id": "C21", "title": "find_macros binds what was imported and removes every macro-import", "statement": "find_macros(tree) returns bindings that map each imported (as-)name to the imported function, the last import of a name winning; replaces each top-level macro-import by a plain import of the module, in place (a self-macro-import, `from __self__ import macros, ...`, by a coverage dummy, or by nothing if it has no source location); leaves all other statements unchanged and in order; running it again on the result finds nothing; and a failing import raises without a partial binding being returned.", "quantifier": "every module body with any number of macro-imports anywhere at top level, every resolution outcome", "why_tests_cant": "all orders and overlaps of import statements", "anchors": ["mcpyrate/expander.py:find_macros", "mcpyrate/coreutils.py:get_macros", "mcpyrate/coreutils.py:ismacroimport"]}
{"id": "C22", "title": "Code that invokes no bound macro passes through the expander unchanged", "statement": "MacroExpander.visit(tree), in either recursive or once mode, returns a tree structurally equal to its input and calls no macro function whenever no bound macro is invoked in it (by name, subscript, call-style arguments, with, or decorator); in particular when there are no bindings at all.", "quantifier": "every AST and every set of bindings that the AST does not invoke", "why_tests_cant": "all surrounding syntax, at all depths", "anchors": ["mcpyrate/core.py:BaseMacroExpander.visit", "mcpyrate/expander.py:MacroExpander"]}
{"id": "C23", "title": "Recursive mode and call context are restored on every exit", "statement": "visit_once and visit_recursively leave the expander's mode exactly as they found it, whether the visit returns, a macro raises, or macros re-enter the expander with any combination of visit, visit_once and visit_recursively, to any depth; in between, the mode is the one requested by the innermost such call.", "quantifier": "every tree, every macro implementation (including ones that re-enter the expander and catch errors), every failure point", "why_tests_cant": "macro code is arbitrary user code", "anchors": ["mcpyrate/core.py:BaseMacroExpander._recursive_mode", "mcpyrate/core.py:BaseMacroExpander.visit_once", "mcpyrate/core.py:BaseMacroExpander.visit_recursively"]}
{"id": "C24", "title": "Stacked block and decorator macros are applied one at a time in documented order", "statement": "In `with m1, m2: body` the macro m1 is applied first and receives the rest `with m2: body` (just body if it is the last item); non-macro context managers stay in their relative order; among stacked decorators the innermost (last) macro is applied first, to the definition with only that decorator removed; macros see the tree before any inner macro has been expanded.", "quantifier": "every list of with-items or decorators mixing macros and ordinary expressions", "why_tests_cant": "arbitrary interleavings of macros and non-macros", "anchors": ["mcpyrate/expander.py:MacroExpander.visit_With", "mcpyrate/expander.py:MacroExpander._visit_Decorated", "mcpyrate/expander.py:MacroExpander._detect_macro_items"]}
{"id": "C25", "title": "Expanding once expands one layer, and protects the result", "statement": "visit_once(tree) expands only the outermost macro invocations of the tree; the output of those macros is not expanded further, even if the result is passed to the expander again in the same pass.", "quantifier": "every tree and every macro implementation", "why_tests_cant": "the guarantee is about arbitrary macro outputs and repeated visits", "anchors": ["mcpyrate/core.py:BaseMacroExpander.visit_once", "mcpyrate/core.py:Done"]}
{"id": "C26", "title": "Recursive expansion leaves no invocation of a bound macro", "statement": "When visit (recursive mode) returns, the result contains no remaining invocation of any bound macro, outside parts explicitly marked as done.", "quantifier": "every tree and every macro implementation for which expansion terminates", "why_tests_cant": "macro outputs are arbitrary; invocations can be created by the interaction of separate expansions", "anchors": ["mcpyrate/core.py:BaseMacroExpander._visit_expansion", "mcpyrate/expander.py:MacroExpander.visit_Subscript"]}
{"id": "C27", "title": "Macro return values are checked and spliced as documented", "statement": "A macro returning None deletes the statement (a block or decorator macro leaves at most a coverage dummy; an expression macro leaves a dummy expression), returning an AST node replaces the invocation, returning an iterable of nodes splices them; any other value raises MacroApplicationError and is never spliced into the tree.", "quantifier": "every macro return value in each invocation position", "why_tests_cant": "all values a user function may return", "anchors": ["mcpyrate/core.py:BaseMacroExpander.expand", "mcpyrate/expander.py:MacroExpander.visit_Subscript", "mcpyrate/expander.py:MacroExpander.visit_With"]}
{"id": "C28", "title": "Expansion errors telescope to one report listing use sites innermost-to-outermost consistently", "statement": "When a macro raises at nesting depth n of expansions, the final MacroApplicationError mentions each enclosing macro use site exactly once, in a consistent order, with the single instruction header once, and chains the original exception as its cause; no error is swallowed.", "quantifier": "every depth of nesting and every original error", "why_tests_cant": "unbounded nesting depth", "anchors": ["mcpyrate/core.py:BaseMacroExpander.expand"]}
{"id": "C29", "title": "Postprocessor registration is idempotent and ordered", "statement": "After any sequence of add_postprocessor and remove_postprocessor calls, global_postprocess runs exactly the hooks that were added and not since removed, each once, in order of (latest) registration, feeding each the previous one's output.", "quantifier": "every sequence of add and remove calls, including duplicates and removals of absent functions", "why_tests_cant": "unbounded histories", "anchors": ["mcpyrate/core.py:add_postprocessor", "mcpyrate/core.py:remove_postprocessor", "mcpyrate/core.py:global_postprocess"]}
{"id": "C30", "title": "Tooling sees exactly the macro invocations the expander would expand", "statement": "MacroCollector.visit(tree) never fails on a tree the expander accepts, and collects exactly the macros invoked in the given source (bound names in macro position), each once.", "quantifier": "every AST and every set of bindings", "why_tests_cant": "two independent implementations of the same recognition rules must agree on every tree", "anchors": ["mcpyrate/expander.py:MacroCollector", "mcpyrate/expander.py:MacroExpander"]}
{"id": "C31", "title": "Macro invocation syntax is recognised by exact rules", "statement": "A candidate denotes macro m with arguments args iff it is the bare name m, or m[a1, ..., an] with m parametric (a tuple subscript giving several arguments), or m(a1, ..., an) with no keywords/starred; bare use of a parametric macro passes an empty argument list; everything else is not a macro invocation.", "quantifier": "every AST in macro position and every binding", "why_tests_cant": "case analysis over all expression shapes", "anchors": ["mcpyrate/expander.py:destructure_candidate", "mcpyrate/expander.py:MacroExpander.ismacrocall"]}
{"id": "C32", "title": "Phase extraction keeps every statement, in source order, in the right phases", "statement": "In a module with `with phase[n]:` blocks, the temporary module for phase k consists, in source order, of exactly the future-imports and the bodies of the blocks with phase >= k; phase 0 (the final program) consists of all statements of the module, with each phase block replaced in place by its body; no statement is lost, duplicated or reordered within a phase; invalid phase numbers raise SyntaxError.", "quantifier": "every module body, any number of phase blocks with any phase numbers in any order", "why_tests_cant": "the loop destructively edits the module from the highest phase down; the claim is over all interleavings", "anchors": ["mcpyrate/multiphase.py:extract_phase", "mcpyrate/multiphase.py:multiphase_expand"]}
{"id": "C33", "title": "Multi-phase compilation leaves sys.modules as it was", "statement": "Compiling a module in multi-phase mode leaves sys.modules exactly as before - the temporary higher-phase modules are not visible afterwards - whether compilation succeeds or fails in any phase.", "quantifier": "every module, every number of phases, every failure point", "why_tests_cant": "failure can strike in any phase", "anchors": ["mcpyrate/multiphase.py:multiphase_expand"]}
{"id": "C34", "title": "Multi-phase mode is chosen and bounded correctly", "statement": "detect_highest_phase(tree) returns the largest phase number used by any top-level phase block, None when there is none, and phases run from that number down to 0, each exactly once.", "quantifier": "every module body", "why_tests_cant": "all mixtures of phase blocks", "anchors": ["mcpyrate/multiphase.py:detect_highest_phase", "mcpyrate/multiphase.py:multiphase_expand"]}
{"id": "C35", "title": "Dialects are applied in import order until none is left; postprocessing runs in registration order", "statement": "transform_ast (and transform_source) apply the dialects in the order in which their imports occur in the (current) program text, each import once, instantiating each with the expander; a dialect whose transformer returns NotImplemented leaves the program unchanged; imports introduced by a dialect are also processed; on return no dialect-import is left in the AST; postprocess_ast runs the same instances' postprocessors in order.", "quantifier": "every program, every dialect implementation for which the loop terminates", "why_tests_cant": "dialects are arbitrary user code that may add further dialect-imports", "anchors": ["mcpyrate/dialects.py:DialectExpander._transform", "mcpyrate/dialects.py:DialectExpander.postprocess_ast", "mcpyrate/dialects.py:DialectExpander.find_dialectimport_ast"]}
{"id": "C36", "title": "A dialect-import is recognised in source text whatever follows it", "statement": "transform_source recognises `from mod import dialects, D` at the start of a line no matter what text follows the statement on later lines, as documented (source transformers exist for surface syntax that need not be Python).", "quantifier": "every source text following a dialect-import", "why_tests_cant": "a regular expression over unbounded text", "anchors": ["mcpyrate/dialects.py:_dialectimport"]}
{"id": "C37", "title": "Cache invalidation mtime is the newest of all transitive macro and dialect dependencies", "statement": "path_xstats(path)['mtime'] is the maximum of the modification times of the file and of all files reachable through macro-imports and dialect-imports (recursively, also inside phase blocks); files of the standard library and files that are not .py keep the result of the standard method.", "quantifier": "every acyclic dependency graph of source files", "why_tests_cant": "graphs of any size and shape; sharing in the graph exercises the memo table", "anchors": ["mcpyrate/importer.py:path_xstats"]}
{"id": "C38", "title": "Cached import statements never change the answer", "statement": "The result of path_xstats is the same whether dependency lists are read from the on-disk cache or recomputed, as long as a cache entry written for a given source mtime describes the source text with that mtime; entries with another mtime are ignored and rewritten.", "quantifier": "every history of file edits (each changing the mtime) and queries", "why_tests_cant": "unbounded histories of edits and lookups", "anchors": ["mcpyrate/importer.py:path_xstats"]}
{"id": "C39", "title": "path_xstats terminates on every import graph", "statement": "path_xstats returns for every set of source files, including files that macro-import each other cyclically.", "quantifier": "every dependency graph", "why_tests_cant": "cyclic graphs of any length", "anchors": ["mcpyrate/importer.py:path_xstats"]}
{"id": "C40", "title": "create_module and temporary_module have exactly their documented effect on sys.modules", "statement": "create_module(name) adds exactly one entry on success and changes nothing on failure (in particular when the parent package is not loaded); temporary_module leaves sys.modules exactly as it was after the block, on normal exit and on exception.", "quantifier": "every prior content of sys.modules, every name (including None and names already present), every exit path", "why_tests_cant": "all prior states and exit paths", "anchors": ["mcpyrate/compiler.py:create_module", "mcpyrate/compiler.py:temporary_module"]}
{"id": "C41", "title": "Quoting is faithful: running quoted code reconstructs the quoted AST", "statement": "For every AST without unquotes, evaluating the expression that q produces for it yields an AST structurally equal to the original (node types, fields, lists, constants of all supported types, and missing fields), and unastify(astify(tree)) returns the tree.", "quantifier": "every AST, including constants nested in lists and all constant types Python's parser produces", "why_tests_cant": "structural induction over all ASTs", "anchors": ["mcpyrate/quotes.py:astify", "mcpyrate/quotes.py:unastify"]}
{"id": "C42", "title": "Unquotes substitute exactly the computed value at exactly their place", "statement": "Evaluating a quasiquote yields the quoted AST in which u[expr] is replaced by an AST that evaluates to the value of expr, n[s] by the identifier or parsed expression s, a[t] by the AST t, s[lst] by ast.List of the items and t[lst] by ast.Tuple, and everything else is unchanged.", "quantifier": "every quoted AST with any number of unquotes anywhere, every value supplied", "why_tests_cant": "structural induction over all templates and values", "anchors": ["mcpyrate/quotes.py:astify", "mcpyrate/quotes.py:lift_sourcecode", "mcpyrate/quotes.py:ast_literal"]}
{"id": "C43", "title": "Multi-node a[] splices leave no splice node behind", "statement": "In block mode, `a[lst]` in statement position or as an argument splices all nodes of lst into the enclosing list, wherever the enclosing list occurs in the quoted code, and no internal splice node remains.", "quantifier": "every quoted block with splices anywhere", "why_tests_cant": "all positions at all depths", "anchors": ["mcpyrate/quotes.py:splice_ast_literals", "mcpyrate/quotes.py:ast_literal"]}
{"id": "C44", "title": "Hygienic capture returns the captured value", "statement": "For every captured value, the AST that h[] produces evaluates, at any later time in the same process, to that same object, however many captures with equal or different names happened in between; for values that pickle supports, it evaluates to an equal value in another process.", "quantifier": "every sequence of captures and lookups, with any names, values and object lifetimes", "why_tests_cant": "object identity reuse and unbounded histories", "anchors": ["mcpyrate/quotes.py:capture_value", "mcpyrate/quotes.py:lookup_value"]}
{"id": "C45", "title": "Hygienically captured macros resolve to the captured macro function", "statement": "A macro captured by h[] is invoked through the captured name no matter what the use site binds under the original name, capturing does not disturb existing bindings of other macros, and repeated lookups return the same function.", "quantifier": "every sequence of captures, lookups and bindings", "why_tests_cant": "unbounded histories, name clashes", "anchors": ["mcpyrate/quotes.py:capture_macro", "mcpyrate/quotes.py:lookup_macro"]}
{"id": "C46", "title": "match_syspath picks the deepest directory that actually contains the file", "statement": "relativize(filename) returns (root, relative) such that root is an entry of sys.path which is an ancestor directory of the file, of maximal depth among those, and root/relative denotes the file; it raises ValueError iff no entry of sys.path contains the file.", "quantifier": "every sys.path and every file path", "why_tests_cant": "all combinations of directory prefixes, including sibling directories sharing a name prefix", "anchors": ["mcpyrate/coreutils.py:match_syspath", "mcpyrate/coreutils.py:relativize"]}
{"id": "C47", "title": "Unparsed expressions parse back to the same AST", "statement": "unparse(tree) of an expression is text that Python's expression grammar parses back to the same AST, whatever operators and nestings it contains (operator precedence never changes the meaning). The text has no whitespace around it.", "quantifier": "every expression AST in the covered node types", "why_tests_cant": "precedence interactions over unbounded nesting", "anchors": ["mcpyrate/unparser.py:Unparser"]}
{"id": "C48", "title": "Unparsed statements have the block structure of the AST", "statement": "unparse of a statement suite produces lines whose indentation nesting is exactly the nesting of the AST: every nested statement is indented one level deeper than its header, indentation returns to the enclosing level after each block, and if/elif/else chains keep their meaning.", "quantifier": "every statement AST in the covered node types", "why_tests_cant": "unbounded nesting", "anchors": ["mcpyrate/unparser.py:Unparser"]}
{"id": "C49", "title": "unparse works for every AST that Python's parser produces", "statement": "unparse raises no UnparserError and drops no part of the program for any AST that Python's own parser can produce.", "quantifier": "every AST produced by ast.parse", "why_tests_cant": "all node types in all field configurations", "anchors": ["mcpyrate/unparser.py:Unparser"]}
{"id": "C50", "title": "Cleaning the bytecode cache deletes exactly the __pycache__ directories", "statement": "deletepycachedirs(path) removes exactly the directories named __pycache__ (with all their contents) at any depth under path, and nothing else; getpycachedirs lists exactly those that will be removed.", "quantifier": "every directory tree", "why_tests_cant": "arbitrary directory trees; deleting a wrong file is irreversible", "anchors": ["mcpyrate/pycachecleaner.py:deletepycachedirs", "mcpyrate/pycachecleaner.py:getpycachedirs"]}
{"id": "C51", "title": "Source text is unchanged by debug and step tools", "statement": "step_expansion (debug macro) returns the same final expansion as the expander without it, showing each intermediate step exactly once.", "quantifier": "every tree and every macro implementation for which expansion terminates", "why_tests_cant": "arbitrary macros and numbers of steps", "anchors": ["mcpyrate/debug.py:step_expansion"]}
{"id": "C52", "title": "The REPL survives every input", "statement": "MacroConsole.runsource(source) returns (does not raise) for every input text that is erroneous only because the input does not parse or its macros fail, and leaves the session's bindings unchanged in that case.", "quantifier": "every input text", "why_tests_cant": "all texts", "anchors": ["mcpyrate/repl/console.py:MacroConsole.runsource"]}
{"id": "C53", "title": "Hygienic captures are recognised exactly", "statement": "is_captured_value and is_captured_macro return, for every AST, whether it is a hygienic capture as made by the quasiquote system (before or after the value is captured), and if so its name and frozen value; neither takes one kind of capture for the other.", "quantifier": "every AST", "why_tests_cant": "all trees, also hand-written near misses", "anchors": ["mcpyrate/quotes.py:is_captured_value", "mcpyrate/quotes.py:is_captured_macro"]}
{"id": "C54", "title": "An AST dump shows the whole tree", "statement": "The text that dump returns is an expression in terms of the node classes whose value is the tree, with attributes if asked for, on one line or on several; on several lines each line is indented to the innermost open bracket, and color=True only adds terminal escape sequences. Other values than nodes and lists are rejected with TypeError.", "quantifier": "every AST or list, every setting of include_attributes, multiline and color, every color scheme", "why_tests_cant": "all trees and string contents; a tree that is dumped ambiguously need not occur in a test", "anchors": ["mcpyrate/astdumper.py:dump", "mcpyrate/colorizer.py:colorize"]}
{"id": "C55", "title": "Nested quotes and unquotes match up", "statement": "Inside a quasiquote, an unquote operator takes effect for the outermost quote exactly if as many unquotes as quotes enclose the place; inner quotes and the unquotes that belong to them stay as they are in the quoted code, and a quote inside an unquote is compiled like one outside any quote. An unquote outside any quote is a SyntaxError. The quote level, the macro bindings and the mode of the expander are restored however the expansion ends.", "quantifier": "every tree, any depth of nesting, every set of macro bindings (operators imported under any names), expression and block mode", "why_tests_cant": "unbounded nesting depth and arbitrary trees; an unquote that is taken for the wrong level gives plausible code", "anchors": ["mcpyrate/quotes.py:q", "mcpyrate/quotes.py:u", "mcpyrate/quotes.py:n", "mcpyrate/quotes.py:a", "mcpyrate/quotes.py:s", "mcpyrate/quotes.py:t", "mcpyrate/quotes.py:h", "mcpyrate/quotes.py:_expand_quasiquotes", "mcpyrate/quotes.py:_replace_tree_in_macro_invocation", "mcpyrate/utils.py:NestingLevelTracker"]}
{"id": "C56", "title": "Expanding quoted code at macro expansion time", "statement": "expands[q[tree]] and expandsq[tree] expand the macros in the quoted code with the bindings of the use site, until none is left (expand1s and expand1sq: one layer), and give code that evaluates, at run time, to the expanded tree; in block mode likewise for a suite. If the expansion raises, so does the use. The quote level is as before afterwards.", "quantifier": "every tree, every set of macro bindings and macro functions, expression and block mode", "why_tests_cant": "arbitrary trees and macros; the result goes through two translations (code to AST and back) whose composition must be the identity for all node types", "anchors": ["mcpyrate/metatools.py:expand1s", "mcpyrate/metatools.py:expands", "mcpyrate/metatools.py:expand1sq", "mcpyrate/metatools.py:expandsq", "mcpyrate/metatools.py:_expandsq_impl"]}
{"id": "C57", "title": "expand_first expands exactly the given macros", "statement": "with expand_first[m, ...]: body expands, in the block, exactly the macros given (under all names they are bound to in the use site's expander), recursively, and no others; invocations of other macros stay for later, and none of the given ones is left. Each argument can be a bare macro name or a hygienically captured macro; anything else is a SyntaxError raised before the block is touched. Afterwards the bindings of the expander are as before.", "quantifier": "every block, every set of macro bindings with aliases, every behaviour of the macro functions", "why_tests_cant": "arbitrary nesting of given and other macros, aliases, and exceptions in the middle of the expansion", "anchors": ["mcpyrate/metatools.py:expand_first", "mcpyrate/utils.py:extract_bindings"]}
{"id": "C58", "title": "Run-time expansion uses the use site's macros on the finished AST", "statement": "macro_bindings evaluates, at run time and also in a later process, to the macro bindings the expander had when the name was reached. expandr[t] and expand1r[t] evaluate t at run time and return (or raise) exactly what a macro expander with the bindings of the use site makes of that AST, until no macros remain or one layer of them. expandrq[...] and with expandrq as name: ... do that for the quoted code, after the unquoted values have been spliced in. expandr and expand1r can be used as expr and as block macros.", "quantifier": "every tree with unquotes, every run-time value of the unquoted expressions, every set of bindings, every behaviour of the macros", "why_tests_cant": "the result depends on run-time values, on all macros bound at the use site, and on a pickle round trip; tests see single combinations", "anchors": ["mcpyrate/metatools.py:macro_bindings", "mcpyrate/metatools.py:expandr", "mcpyrate/metatools.py:expand1r", "mcpyrate/metatools.py:expandrq", "mcpyrate/metatools.py:expand1rq", "mcpyrate/metatools.py:runtime_expand", "mcpyrate/quotes.py:capture_value"]}
{"id": "C59", "title": "Imports never use outdated bytecode", "statement": "Importing a source file with mcpyrate activated gives the code made from the present contents of the file and of all files it imports macros or dialects from, recursively, although the bytecode cache (.pyc) is used: if any of those files has changed since the bytecode was written, the file is compiled again. If none has changed, the bytecode is used without compiling.", "quantifier": "every history of edits, deletions, imports of any files with or without writing bytecode, and losses of cache files; every import graph", "why_tests_cant": "histories and import graphs are unbounded; staleness depends on the times of all files in the graph", "anchors": ["mcpyrate/importer.py:path_xstats", "mcpyrate/importer.py:source_to_xcode", "mcpyrate/activate.py:activate"]}
{"id": "C60", "title": "expand, compile and run process every documented kind of source alike", "statement": "expand accepts text, bytes, Module nodes and lists of statements, and refuses everything else with TypeError before doing anything; what it returns contains no AST markers; multi-phase mode is used exactly when phase is macro-imported from mcpyrate.multiphase at the top level. compile gives what the built-in compile makes of what expand returns; a dynamically generated AST (file name not ending in .py) means the same program as its unparsed text. run executes that code once in the namespace of the given module (or of a new one, entered in sys.modules before), sets its docstring to the string at the beginning of the program or to None, and returns the module; if the program cannot be compiled, nothing is executed. Dialect source transformers apply to text only.", "quantifier": "every source, every module argument, every behaviour of macros, dialects and executed code", "why_tests_cant": "arbitrary programs, file names and user code with arbitrary effects and exceptions", "anchors": ["mcpyrate/compiler.py:expand", "mcpyrate/compiler.py:compile", "mcpyrate/compiler.py:singlephase_expand", "mcpyrate/compiler.py:run", "mcpyrate/multiphase.py:ismultiphase"]}
{"id": "C61", "title": "Stepping and filling in locations at run time", "statement": "stepr[args][tree], run, shows and returns (or raises) what step_expansion with these arguments makes of the AST value of tree, in an expander with the macro bindings of the use site; the run-time return value is the same as that of expandr[tree]. fill_location[tree], run, returns the AST value of tree in which every node that can have a source location, but misses it, has the location of the invocation of fill_location; present locations and everything else stay. Both are refused as anything else than expr macros; fill_location is refused if the invocation itself has no location.", "quantifier": "every AST value, every set of bindings and macros, all arguments, every location of the invocation", "why_tests_cant": "arbitrary trees, macros and partial location information; agreement of two expansion procedures", "anchors": ["mcpyrate/metatools.py:stepr", "mcpyrate/metatools.py:fill_location", "mcpyrate/debug.py:step_expansion", "mcpyrate/astfixers.py:fix_locations"]}
{"id": "C62", "title": "macropython runs the given program as the main program", "statement": "macropython file.py runs that file, and macropython -m mod runs that module, once, as sys.modules[\"__main__\"], like python does: the directory of the file (with -m, the current directory) comes first in sys.path; __package__ makes relative imports work; for a package, the package is imported and its __main__ is run. Upon success sys.modules[\"__main__\"] is the module that was imported. Upon failure any exception raised is propagated, and sys.modules[\"__main__\"] is macropython again. What cannot be found is refused without running anything.", "quantifier": "every program and module name, every sys.path and sys.meta_path, every behaviour of the imported code", "why_tests_cant": "arbitrary programs with arbitrary exceptions, arbitrary import configurations and directory layouts", "anchors": ["mcpyrate/repl/macropython.py:import_module_as_main", "mcpyrate/repl/macropython.py:main", "mcpyrate/coreutils.py:relativize"]}
{"id": "C63", "title": "bunchify gives attribute access to the mapping itself", "statement": "`bunchify(d)` returns a bunch that is another name of the mapping `d`: whatever is then done through the bunch or directly to `d` is seen through both, always, and nothing is copied; every key of `d` can be read, assigned and deleted as an attribute, `hasattr` and `getattr` with a default tell whether it is there. A bunch is returned as it is. A mapping with keys that are not identifiers is refused with a ValueError that lists exactly those keys, anything else with a TypeError; refusals change nothing.", "quantifier": "for all programs over any number of dicts and bunches, with any operations on the dicts, all contents and all states of memory", "why_tests_cant": "Aliasing shows only in particular interleavings of reads and writes through several names of one mapping; tests try a few of the infinitely many programs.", "anchors": ["mcpyrate/bunch.py:bunchify", "mcpyrate/bunch.py:Bunch.__getattr__", "mcpyrate/bunch.py:Bunch.replace"]}
{"id": "C64", "title": "Macros in an IPython session", "statement": "Once the extension is loaded into IPython, every cell that the user enters is macro-expanded before it runs: with the macros the session has imported so far and those that the cell itself imports, also from the session itself (`from __self__ import macros, ...` sees the session's variables). A cell whose expansion succeeds runs exactly once, as its expansion; a cell whose expansion fails does not run, leaves the variables as they were, and the session goes on with all its macros: a macro stays bound until a cell binds its name anew. After a macro-import, every importable macro function is a variable, for `name?`. The extension is not lost through errors in cells, in macros or in other tools' transformers; loading it twice is the same as loading it once; unloading it ends macro expansion, and `%macros` lists the macros of the session.", "quantifier": "for all sequences of cells, loads and unloads, all macros, cell contents, session variables and AST transformers of other tools", "why_tests_cant": "The promise is about arbitrarily long sessions, with failures at any point and in any order; the test suite has no test of the IPython extension.", "anchors": ["mcpyrate/repl/iconsole.py:InteractiveMacroTransformer.visit", "mcpyrate/repl/iconsole.py:IMcpyrateExtension", "mcpyrate/repl/iconsole.py:load_ipython_extension", "mcpyrate/repl/iconsole.py:unload_ipython_extension", "mcpyrate/repl/iconsole.py:AstMagics.macros", "mcpyrate/repl/utils.py:get_makemacro_sourcecode"]}
{"id": "C65", "title": "The report of macro bindings is complete and faithful", "statement": "`format_bindings(expander)` has one line for every macro binding of the expander, with its name and the full name of the macro function, and no other line but the heading; the lines are in the order of the names; `globals_too=True` adds the global bindings that no local one hides. From the report, the bindings can be read off. `color=True` adds nothing but escape sequences. `show_bindings` shows all bindings that are in effect when it is expanded.", "quantifier": "for all expanders: any number of bindings, any names and macro functions (also broken bindings to objects that are no functions), any color scheme with nested styles", "why_tests_cant": "Completeness and sorting concern every possible dictionary of bindings; a test shows a few.", "anchors": ["mcpyrate/debug.py:format_bindings", "mcpyrate/debug.py:show_bindings", "mcpyrate/utils.py:format_macrofunction", "mcpyrate/colorizer.py:setcolor", "mcpyrate/colorizer.py:colorize"]}
{"id": "C66", "title": "Diagnostics point at the right place", "statement": "`get_lineno(tree)` gives the line number of the first node, depth first, that has one, looking through nodes, lists and AST markers, and None exactly if no node in the tree has one. `format_location` shows file name and that line number, then the source code, on the same line if it is a single line, else below. `format_context` shows the first n lines of the code, and a line of dots exactly if there are more. `SourceLocationInfoValidator` collects, in the order of the tree, exactly the nodes that lack one of the fields to check, each with the names it lacks, except the nodes to be ignored, whose children are examined all the same; a tree that Python's own parser has made passes (its Module ignored).", "quantifier": "for all trees, lists of statements, markers, sets of nodes to ignore, fields to check, numbers of lines, file names and source texts", "why_tests_cant": "The claims are about trees of any shape and depth, with missing attributes in any combination of places.", "anchors": ["mcpyrate/utils.py:get_lineno", "mcpyrate/utils.py:format_location", "mcpyrate/utils.py:format_context", "mcpyrate/debug.py:SourceLocationInfoValidator"]}
{"id": "C67", "title": "Activating and deactivating", "statement": "The import system uses mcpyrate's compilation and cache validation exactly while mcpyrate is active: from the first `import mcpyrate.activate`, or a later call of `activate()`, until the next call of `deactivate()`; importing `mcpyrate.activate` a second time does nothing. While it is not active, the import system works exactly as it did before mcpyrate was imported, other tools' hooks included. A module imported while mcpyrate is active is macro-expanded, and one imported while it is not is not.", "quantifier": "for all sequences of imports, calls of activate and deactivate, and installations of other tools' hooks; all modules, modification times and bytecode files", "why_tests_cant": "The claim is about sequences of operations of any length, mixed with bytecode files left over from earlier ones.", "anchors": ["mcpyrate/activate.py:activate", "mcpyrate/activate.py:deactivate", "doc/troubleshooting.md"]}
{"id": "C68", "title": "Syntax highlighting shows the same text", "statement": "`unparse(tree, color=True, expander=...)`, printed on a terminal, shows exactly the text of `unparse(tree)`, or raises the same exception; and no color or style is on at the end of any line of it or at its end, so that any line can be printed by itself, as error messages do. With `color=False` no color code is written, whatever the color scheme and the macro bindings.", "quantifier": "for all trees (modules, statement lists, statements, expressions); all color schemes made of the values of `Fore`, `Back` and `Style`, and nested tuples of them; all sets of builtin names and of macro bindings", "why_tests_cant": "Trees nest without bound, each node type has its own places to color, and a code cut in two or left on shows only for some combination of them.", "anchors": ["mcpyrate/unparser.py:unparse", "mcpyrate/unparser.py:Unparser.maybe_colorize", "mcpyrate/colorizer.py:colorize", "mcpyrate/colorizer.py:setcolor", "mcpyrate/ansi.py:code_to_chars"]}
{"id": "C69", "title": "What is left of `phase` and `step_phases` is an error", "statement": "A macro use of `phase` that the multi-phase compiler did not take away (a `with phase[n]` in a function, in a class or under another statement; `phase[...]` in an expression; `phase` as a decorator), and any mention of the name `step_phases` outside its macro-import, stops the compilation of the module: the expander raises, with the place of the use and a SyntaxError as the cause that says what is wrong. Code with such a use is never produced.", "quantifier": "for all programs, all names to which the two are bound, all places and forms of the use, and all behaviours of the other macros in the program that do not change the bindings", "why_tests_cant": "The places where a block may be misplaced are without bound, and other macros expanded before it may do anything.", "anchors": ["mcpyrate/multiphase.py:phase", "mcpyrate/multiphase.py:step_phases", "mcpyrate/expander.py:MacroExpander.visit_With", "mcpyrate/expander.py:MacroExpander.visit_Name"]}
{"id": "C70", "title": "Debug mode of the unparser shows the program", "statement": "unparse(tree, debug=True) shows the same lines as unparse(tree), in the same order and with the same indentation, each after the line number of the statement, handler or decorator it belongs to (or `----` where there is none), with expression statements marked and captured values and macros shown as $h[name]; for a module, one level deeper below a line `$Module:`. The line numbers can be read off, and those with up to five digits keep the code aligned. Debug mode raises only when unparse raises, or the tree has a call of a capture function with other arguments than the quasiquote system gives it.", "quantifier": "for all modules, lists of statements, statements and expressions, all line numbers, present or absent, at every node", "why_tests_cant": "Statements nest without bound, every statement form has lines of its own, and the line numbers are arbitrary.", "anchors": ["mcpyrate/unparser.py:unparse", "mcpyrate/unparser.py:Unparser.fill", "mcpyrate/unparser.py:Unparser.dispatch", "mcpyrate/unparser.py:Unparser.toplevelnode", "mcpyrate/unparser.py:Unparser._Expr", "mcpyrate/quotes.py:is_captured_value", "mcpyrate/quotes.py:is_captured_macro"]}
{"id": "C71", "title": "Highlighted debug text shows the debug text", "statement": "unparse(tree, debug=True, color=True, expander=...) - what error messages of the expander and the steppers show - displays on a terminal exactly the text of unparse(tree, debug=True), up to white space at either end, raises the same exceptions, and leaves no style on at a line end or at the end of the text; with color=False it is that text. The marks around captured values are highlighted, and a captured macro has the style of macro names.", "quantifier": "for all modules, lists of statements, statements and expressions, all line numbers, all color schemes of terminal codes or of empty ones, all sets of macro names bound in the expander", "why_tests_cant": "Every node type switches styles on and off around its own pieces of text, nested without bound, and in debug mode there are line numbers and marks in between.", "anchors": ["mcpyrate/unparser.py:unparse", "mcpyrate/unparser.py:Unparser.maybe_colorize", "mcpyrate/unparser.py:Unparser.nocolor", "mcpyrate/unparser.py:Unparser.fill", "mcpyrate/unparser.py:Unparser.dispatch", "mcpyrate/colorizer.py:colorize", "mcpyrate/colorizer.py:ColorScheme"]}
{"id": "C72", "title": "What is shown of a tree that cannot be unparsed", "statement": "unparse raises UnparserError upon invalid input, and unparse_with_fallbacks returns a text for every value, so that error messages can always be made. When the unparser gives up on an AST, nothing is lost: the text is an explanation followed by an AST dump, an expression whose value is the AST, and different ASTs give different texts; for other values, it has the type and the repr.", "quantifier": "for all values, all behaviours of the unparser, all settings of color", "why_tests_cant": "Which trees make the unparser fail, and how, is open-ended: macros can produce any object in any place, and Python gets new node types.", "anchors": ["mcpyrate/unparser.py:unparse", "mcpyrate/unparser.py:unparse_with_fallbacks", "mcpyrate/unparser.py:UnparserError", "mcpyrate/astdumper.py:dump"]}
{"id": "C73", "title": "StepExpansion shows every dialect step and changes nothing", "statement": "With `from mcpyrate.debug import dialects, StepExpansion`, from the step of this dialect on, every step that a dialect takes (source, AST, postprocessing) is shown, with consecutive numbers and the program after it, in order, also if a dialect raises an exception later; the programs before each stage and the numbers of steps at the end of each stage are shown, too. It has no other effects: the resulting program, the other dialects' objects, exceptions and the state of the process are as if no dialect-import had StepExpansion in it.", "quantifier": "for all programs, all dialects (any transformers, that leave the debug settings of the expander alone), all dialect-imports in any order, debug mode on or off before", "why_tests_cant": "Dialects are arbitrary code and may add dialect-imports themselves; StepExpansion may come at any place among them.", "anchors": ["mcpyrate/dialects.py:StepExpansion", "mcpyrate/dialects.py:DialectExpander.transform_source", "mcpyrate/dialects.py:DialectExpander.transform_ast", "mcpyrate/dialects.py:DialectExpander._transform", "mcpyrate/dialects.py:DialectExpander.postprocess_ast"]}
{"id": "C74", "title": "expand_macros returns a finished program", "statement": "What expand_macros(tree, bindings, filename=...) returns is what the expander made of the tree (all macro invocations expanded recursively), without any Done markers, with nothing lost or reordered by their removal, with the ctx of every expression as its position demands (a name macro that is an assignment target is stored to), and passed through the registered postprocessors in their order, including those that macros registered during the expansion. A program that invokes no bound macro is returned as it is, whatever the bindings, and so is a suite, however short. If the expansion raises, expand_macros raises the same exception and no postprocessor runs.", "quantifier": "for all trees, all bindings, all macro functions (which may call the expander, register postprocessors, and share state), all postprocessors", "why_tests_cant": "The result combines the walk of the expander with arbitrary macros, the removal of markers at any nesting, and the correction of ctx at any position; a marker or a wrong ctx left over makes compile() fail only for particular programs.", "anchors": ["mcpyrate/expander.py:expand_macros", "mcpyrate/core.py:global_postprocess", "mcpyrate/core.py:BaseMacroExpander.__init__", "mcpyrate/core.py:Done"]}
{"id": "C75", "title": "Unquoting lets in only nodes of the right kind", "statement": "When quoted code runs, a[x] accepts an AST node if it is an expression (also when it is wrapped in AST markers, of any class) and inserts it as it is; it accepts a collection (list, tuple, set, keys of a dict) if, after flattening sublists and dropping None, all of its members are expressions, and splices exactly those in order; with a does the same for statements, and always takes a collection. s[] and t[] make a List or a Tuple node of exactly the expressions in a collection. n[] parses a string. Every other value (a node of another kind, a collection with a wrong member, a number, a string, None) raises TypeError, so a quoted tree never gets a wrong node by unquoting.", "quantifier": "for all run-time values, all classes of expressions, statements and AST markers, all nestings of lists and markers", "why_tests_cant": "Values are arbitrary and the check recurses through nested lists and markers; a wrong node that slips through shows up only when the finished tree is compiled, far from the quote.", "anchors": ["mcpyrate/quotes.py:ast_literal", "mcpyrate/quotes.py:_typecheck", "mcpyrate/quotes.py:_flatten_and_typecheck_iterable", "mcpyrate/quotes.py:ast_list", "mcpyrate/quotes.py:ast_tuple", "mcpyrate/quotes.py:lift_sourcecode", "mcpyrate/utils.py:flatten"]}
{"id": "C76", "title": "macropython does one thing per call, and its dry run tells the truth", "statement": "macropython -c dir deletes bytecode caches and exits; it never runs a program or changes sys.path, whatever other options are given. With -n it changes nothing and prints exactly the __pycache__ directories under dir; calling it again without -n makes disappear exactly the printed directories with their contents, and nothing else. If dir is no directory, OSError is raised and nothing happens. Otherwise -i starts the console, with the current directory importable, and ignores file and module. Otherwise exactly one program is run: -m mod as a module, file as a script, with its exception propagated; both at once raise ValueError, a missing file raises FileNotFoundError, and with neither the help text is printed, all without running anything.", "quantifier": "for all option combinations, all file systems, all contents of sys.path, all programs and consoles", "why_tests_cant": "All combinations of options with arbitrary programs and directory trees; that nothing else is deleted, and that no program is run, are statements about everything that does not happen.", "anchors": ["mcpyrate/repl/macropython.py:main", "mcpyrate/pycachecleaner.py:getpycachedirs", "mcpyrate/pycachecleaner.py:deletepycachedirs"]}
{"id": "C77", "title": "Stepping through phases shows exactly what is compiled, and changes nothing", "statement": "The debug mode of the multi-phase compiler is on exactly if step_phases is macro-imported from mcpyrate.debug in the top level of the module (under its own or another name). It changes nothing about the compilation: result, exceptions and effects are the same. Without it nothing is printed. With it, the programs that are printed are exactly those that are compiled, in the same order, including the one that fails; on success the heading of the module comes first, then one heading for each phase from the highest down to 0.", "quantifier": "for all programs with any phases, all behaviours of macros and of the code that is run, success and failure at any phase", "why_tests_cant": "Arbitrary programs and user code with arbitrary effects and exceptions; that debug output never interferes is a statement about all executions.", "anchors": ["mcpyrate/multiphase.py:isdebug", "mcpyrate/multiphase.py:multiphase_expand", "mcpyrate/multiphase.py:step_phases"]}
{"id": "C78", "title": "Source dialects are run only for dialect-imports that are in the text, each once, with the right line number", "statement": "transform_source imports a dialect only for a statement of the form `from mod import dialects, names` that begins in the first column of a line of the text, outside string literals, and gives the dialect the number of that line; a statement that has been processed is not processed again by the same expander. A text without such a line is returned unchanged and nothing is imported or run. If the dialects leave the text as it is, the step ends.", "quantifier": "every source text, every set of statements already processed, all dialects", "why_tests_cant": "A regular expression with backtracking over unbounded text, and a loop whose end depends on user code; tests see a few texts.", "anchors": ["mcpyrate/dialects.py:_dialectimport", "mcpyrate/dialects.py:DialectExpander.find_dialectimport_source", "mcpyrate/dialects.py:DialectExpander.transform_source"]}
