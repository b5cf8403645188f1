{"id": "C01", "title": "Graph traversal always terminates", "statement": "ComparisonGraph.reachable_from returns (never loops) for every graph that contains the start function, including cyclic, self-recursive and duplicate-edge graphs.", "quantifier": "every finite comparison graph, side and start function present in it", "why_tests_cant": "cyclic call graphs are infinitely many; a test that passes on some graphs says nothing about loops on others", "anchors": ["diffkemp/semdiff/caching.py::ComparisonGraph.reachable_from"]}
{"id": "C02", "title": "Everything the traversal reports is really reachable", "statement": "Every function returned by reachable_from is the start function or is the end of a chain of recorded call edges from the start whose last edge is strong, whose targets exist in the graph, and which never enters a .c file other than the start function's own file.", "quantifier": "every graph, side, start function", "why_tests_cant": "quantifies over all graphs and all paths", "anchors": ["diffkemp/semdiff/caching.py::ComparisonGraph.reachable_from"]}
{"id": "C03", "title": "Reachable functions are missed only because of weak calls", "statement": "Every function that can be reached from the start by call edges (within the file-boundary rule) is returned by reachable_from unless some reachable function calls it weakly; on graphs without weak calls the returned functions are exactly the reachable ones; the discovered functions are always exactly the reachable ones.  The stronger wish that every function reachable by strong calls alone is returned does not hold: a weak call seen first hides the function.", "quantifier": "every graph, side, start function, target function", "why_tests_cant": "a missed function is a missed difference; needs all interleavings of weak and strong edges", "anchors": ["diffkemp/semdiff/caching.py::ComparisonGraph.reachable_from", "diffkemp/semdiff/caching.py::ComparisonGraph.DependencyKind"]}
{"id": "C04", "title": "Call stacks are real call chains", "statement": "For every function other than the start that the traversal discovered, the reported call stack is a non-empty chain of recorded call edges that starts at the start function, ends at the reported function, and in which every call is made by the function called just before; computing it always terminates.", "quantifier": "every graph, side, start and discovered function", "why_tests_cant": "the property is about all backtracking maps BFS can build", "anchors": ["diffkemp/semdiff/caching.py::ComparisonGraph.reachable_from", "diffkemp/semdiff/caching.py::ComparisonGraph._get_callstack"]}
{"id": "C05", "title": "Traversal cost is exponential in the worst case", "statement": "The work done by reachable_from is not bounded by any polynomial in the graph size: for every n there is a graph of 3n+1 functions with at most two calls each on which the loop runs and the returned list has at least 2^n elements (functions are marked visited only when taken from the queue).", "quantifier": "every depth n of a diamond-shaped call graph", "why_tests_cant": "the blow-up is a statement about a whole family of graphs", "anchors": ["diffkemp/semdiff/caching.py::ComparisonGraph.reachable_from"]}
{"id": "C06", "title": "Only non-equal functions become reported objects", "statement": "Without --full-diff, graph_to_fun_pair_list never lists a function whose recorded result is EQUAL or ASSUMED_EQUAL, lists only functions reachable on both sides, and reports each listed function with its recorded result; non-function differences are always listed as NOT_EQUAL and belong to a listed function.", "quantifier": "every graph, function pair and full_diff setting", "why_tests_cant": "must hold for every graph", "anchors": ["diffkemp/semdiff/caching.py::ComparisonGraph.graph_to_fun_pair_list"]}
{"id": "C07", "title": "No reachable difference is dropped from the object list", "statement": "Every function whose result is not EQUAL/ASSUMED_EQUAL and that the traversal reaches on both sides appears in graph_to_fun_pair_list exactly once, as do all its non-function differences.", "quantifier": "every graph and function pair", "why_tests_cant": "must hold for every graph; dropping one is a false 'equal' verdict", "anchors": ["diffkemp/semdiff/caching.py::ComparisonGraph.graph_to_fun_pair_list"]}
{"id": "C08", "title": "Merging graphs never forgets a function", "statement": "After absorb_graph, every function known to either graph is still known, every name maps to one of the two original vertices for that name, and names absent from the absorbed graph are untouched.", "quantifier": "every pair of graphs", "why_tests_cant": "all pairs of graphs and key orders", "anchors": ["diffkemp/semdiff/caching.py::ComparisonGraph.absorb_graph", "diffkemp/semdiff/caching.py::ComparisonGraph.Vertex.compare_vertex_priority"]}
{"id": "C09", "title": "When merging graphs keeps a known difference", "statement": "A function already known NOT_EQUAL keeps its record when another graph is absorbed, unless the absorbed record of that name has more calls on some side, or the known one relates two different files and the absorbed one is EQUAL.  It cannot become UNKNOWN or ASSUMED_EQUAL if undecided absorbed records have no more calls than it.  Without that condition a difference can be lost: an undecided record with more callees replaces it.", "quantifier": "every pair of graphs and every function", "why_tests_cant": "depends on the relative shape of two graphs from different runs", "anchors": ["diffkemp/semdiff/caching.py::ComparisonGraph.absorb_graph", "diffkemp/semdiff/caching.py::ComparisonGraph.normalize"]}
{"id": "C10", "title": "Merging resolves undecided results", "statement": "A function whose stored result is UNKNOWN or ASSUMED_EQUAL takes the result of the absorbed graph whenever the absorbed graph has that function; when an ASSUMED_EQUAL function gets a different verdict, every vertex it prevented from being cached becomes cachable again.", "quantifier": "every pair of graphs", "why_tests_cant": "all pairs of graphs", "anchors": ["diffkemp/semdiff/caching.py::ComparisonGraph.absorb_graph"]}
{"id": "C11", "title": "Normalisation removes weak variants", "statement": "If normalize succeeds on a graph built from SimpLL output (whose names carry the .void suffix at most once), no function key ends in .void, no recorded edge in the graph targets a .void name, every function that had only a .void variant is present under its plain name with EQUAL downgraded to ASSUMED_EQUAL, and plain-named vertices keep their results.", "quantifier": "every graph built by edges and vertices in any order", "why_tests_cant": "all build orders and name sets", "anchors": ["diffkemp/semdiff/caching.py::ComparisonGraph.normalize", "diffkemp/semdiff/caching.py::ComparisonGraph.__setitem__", "diffkemp/semdiff/caching.py::ComparisonGraph.add_edge"]}
{"id": "C12", "title": "When normalisation crashes on SimpLL output", "statement": "normalize always terminates; on a graph built from a SimpLL output it succeeds iff every called .void variant has a result of its own and no two results of variants share their name, and raises KeyError otherwise.  Both failures occur for otherwise well-formed outputs.", "quantifier": "every SimpLL output", "why_tests_cant": "all output shapes", "anchors": ["diffkemp/semdiff/caching.py::ComparisonGraph.normalize", "diffkemp/simpll/simpll.py::run_simpll"]}
{"id": "C13", "title": "Header functions depending on assumptions are not cached", "statement": "After mark_uncachable_from_assumed_equal, a vertex is uncachable exactly if it was before or it lives in a header and reaches, through callers that all live in headers, an ASSUMED_EQUAL vertex that is not itself in a header; the marking terminates on every graph.", "quantifier": "every graph", "why_tests_cant": "transitive closure over all graphs", "anchors": ["diffkemp/semdiff/caching.py::ComparisonGraph.mark_uncachable_from_assumed_equal", "diffkemp/semdiff/caching.py::ComparisonGraph.populate_predecessor_lists"]}
{"id": "C14", "title": "Predecessor lists invert the call edges", "statement": "After populate_predecessor_lists on a fresh graph, u is a predecessor of v on a side iff u has a recorded call edge to v on that side.", "quantifier": "every graph", "why_tests_cant": "all graphs", "anchors": ["diffkemp/semdiff/caching.py::ComparisonGraph.populate_predecessor_lists"]}
{"id": "C15", "title": "Only decided, cachable results reach the SimpLL cache", "statement": "Every pair written by SimpLLCache.update comes from a vertex passed in that is cachable, is written to the file for that vertex's pair of source files, and every cachable vertex passed in is written; uncachable vertices are never written.  The update succeeds iff every cachable vertex knows both source files.  What functions_diff passes on contains only decided results.", "quantifier": "every list of vertices and every history of earlier updates", "why_tests_cant": "all histories of cache updates", "anchors": ["diffkemp/semdiff/caching.py::SimpLLCache.update", "diffkemp/semdiff/caching.py::SimpLLCache.CacheFile.add_function_pairs"]}
{"id": "C16", "title": "Cached results are never found by SimpLL", "statement": "One would wish that a function pair Python wrote to the cache is found by SimpLL's ResultsCache for the same files and functions.  It never is: after any history of updates for absolute source paths (no component starting with a dollar sign on the left) SimpLL's lookup fails for every absolute file pair, because Python names the cache file by paths relative to their common prefix and SimpLL by the full paths.", "quantifier": "every pair of absolute file paths", "why_tests_cant": "a statement about all paths; the two halves are in two languages and never run together in a unit test", "anchors": ["diffkemp/semdiff/caching.py::SimpLLCache.CacheFile.__init__", "diffkemp/simpll/ResultsCache.cpp::isFunctionPairCached"]}
{"id": "C17", "title": "Cache file contents round-trip", "statement": "Writing function pairs through SimpLLCache and parsing the file as SimpLL does yields exactly the written pairs (plus the empty line's pair), for all names without ':' and newline; and not for names containing ':' on the left.", "quantifier": "every sequence of appended pair lists", "why_tests_cant": "all strings and histories", "anchors": ["diffkemp/semdiff/caching.py::SimpLLCache.CacheFile.add_function_pairs", "diffkemp/simpll/ResultsCache.cpp::importFileToCacheMap"]}
{"id": "C18", "title": "Cache clearing forgets everything", "statement": "SimpLLCache.clear removes every file written through the cache and the directory, provided no two pairs of source files share a cache file; otherwise it raises FileNotFoundError.  The files in the directory are exactly those the cache object tracks.", "quantifier": "every history of cache operations", "why_tests_cant": "all histories", "anchors": ["diffkemp/semdiff/caching.py::SimpLLCache.clear"]}
{"id": "C19", "title": "Overall verdict is the worst inner verdict", "statement": "After any sequence of add_inner the outer kind equals the maximum of the initial kind and all inner kinds in the documented severity order; in particular an added NOT_EQUAL is never masked by EQUAL (but it is by UNKNOWN).", "quantifier": "every sequence of inner results", "why_tests_cant": "all sequences", "anchors": ["diffkemp/semdiff/result.py::Result.add_inner", "diffkemp/semdiff/result.py::Result.Kind"]}
{"id": "C20", "title": "Kind names round-trip", "statement": "Every verdict spelling SimpLL prints is read back as that verdict, spellings and verdicts correspond one to one, and everything else is rejected; str() of a verdict is read back too (false for the two-word verdicts).", "quantifier": "every string", "why_tests_cant": "all strings", "anchors": ["diffkemp/semdiff/result.py::Result.Kind.from_string"]}
{"id": "C21", "title": "Symbol statistics add up", "statement": "The counts of equal, not-equal, unknown and error results printed by report_symbol_stat partition the compared symbols: their sum plus the results of any other kind equals the total, each count is the number of symbols with that verdict, and the empty-diff count never exceeds the not-equal count.  Listing the unknown symbols is complete; listing the errors omits TIMEOUT results although they are counted.", "quantifier": "every collection of results", "why_tests_cant": "all result sets", "anchors": ["diffkemp/semdiff/result.py::Result.report_symbol_stat"]}
{"id": "C22", "title": "A result is shadowed only by a later one of the same name", "statement": "Looking up a compared function in the overall result yields the last result added under that name, so with pairwise different names no result is lost; two groups containing a function of the same name do lose the earlier result, even a difference.", "quantifier": "every sequence of inner results", "why_tests_cant": "all histories", "anchors": ["diffkemp/semdiff/result.py::Result.add_inner", "diffkemp/diffkemp.py::compare"]}
{"id": "C23", "title": "functions_diff verdict is sound w.r.t. the comparison graph", "statement": "A comparison that returns a result either failed in its last action (SimpLL, cache update or syntactic diff, verdict ERROR), or, without --full-diff, is EQUAL iff the object list of the returned graph is empty and otherwise has the most severe listed verdict and under each name the last listed object.  A failing SimpLL run ends the comparison with ERROR.  An EQUAL verdict without weak calls means that no function reached on both sides is different or undecided.  With --full-diff objects without differing text are dropped, and if nothing remains the verdict is NONE even for an unchanged function.", "quantifier": "every SimpLL behaviour, previous graph and configuration", "why_tests_cant": "ranges over all behaviours of an external comparator and all graphs", "anchors": ["diffkemp/semdiff/function_diff.py::functions_diff"]}
{"id": "C24", "title": "Linking missing definitions terminates", "statement": "The simplify/link loop of functions_diff always ends: each repetition links at least one module that was not linked before, so it runs at most (number of available modules on both sides)+1 times.", "quantifier": "every behaviour of SimpLL and of the symbol finder over a finite set of modules", "why_tests_cant": "all adversarial missing-definition sequences", "anchors": ["diffkemp/semdiff/function_diff.py::functions_diff", "diffkemp/semdiff/function_diff.py::_link_symbol_def", "diffkemp/llvm_ir/llvm_module.py::LlvmModule.link_modules"]}
{"id": "C25", "title": "Known results are reused without re-running SimpLL", "statement": "If the previous graph already holds a decided same-file result for the function, functions_diff neither runs SimpLL nor touches the cache or the modules, and its verdict depends only on the graph.", "quantifier": "every previous graph", "why_tests_cant": "all graphs", "anchors": ["diffkemp/semdiff/function_diff.py::functions_diff"]}
{"id": "C26", "title": "llreve verdict mapping", "statement": "The semantic checker's answer maps to the verdict by the last recognised answer line, and any non-zero exit or expired timer overrides it to ERROR or TIMEOUT respectively; EQUAL is returned only if z3 exited with 0, before the timeout, and the last answer was unsat.", "quantifier": "every output, exit code and timer state", "why_tests_cant": "all outputs and schedules", "anchors": ["diffkemp/semdiff/function_diff.py::_run_llreve_z3"]}
{"id": "C27", "title": "compare covers every common function", "statement": "compare handles every function of the old snapshot exactly once, in the order of group and function names: it skips exactly the functions missing in the same group of the new snapshot, marks functions without a module on either side UNKNOWN, and analyses the others, each with the graph of the last analysis of the same group.  The overall result combines the results of all handled functions.  It fails only if an analysis or the regex filter fails or the old snapshot mixes named and unnamed groups.", "quantifier": "every pair of snapshots", "why_tests_cant": "all snapshots and filters", "anchors": ["diffkemp/diffkemp.py::compare"]}
{"id": "C28", "title": "Regex filter only hides, never reveals", "statement": "With --regex-filter, whatever is said about a function is also said without the filter (with --full-diff up to the verdict), and no further directories are made.  A function keeps its verdict iff the difference text of one of its objects matches (call stacks are not searched), otherwise it becomes EQUAL, even if it was ERROR or UNKNOWN.  The filter raises TypeError exactly if it meets an object without a difference text before a match.", "quantifier": "every result and every matcher", "why_tests_cant": "all matchers", "anchors": ["diffkemp/diffkemp.py::compare"]}
{"id": "C29", "title": "Output directories never overwrite", "statement": "The default output directory is the first one of base, base-0, base-1, ... that is not an existing directory, and the search ends on every finite file system; the output directory is never an existing directory, an explicitly given existing one is an error.  A plain file of that name is not noticed.", "quantifier": "every finite set of existing paths", "why_tests_cant": "all file-system states", "anchors": ["diffkemp/diffkemp.py::default_output_dir"]}
{"id": "C30", "title": "Module caching threshold", "statement": "_get_modules_to_cache returns, each once, exactly the modules referenced at least the threshold number of times by the functions present in both snapshots, where a function refers to its module on each side; so one function can reach the threshold 2 alone.", "quantifier": "every snapshot pair and threshold", "why_tests_cant": "all snapshots", "anchors": ["diffkemp/diffkemp.py::_get_modules_to_cache"]}
{"id": "C31", "title": "Symbol list parsing", "statement": "read_symbol_list returns, in file order, the stripped text of exactly those lines that, stripped, start with a letter or underscore, for LF, CR and CRLF line ends.", "quantifier": "every file contents", "why_tests_cant": "all strings", "anchors": ["diffkemp/diffkemp.py::read_symbol_list"]}
{"id": "C32", "title": "Built-in pattern options", "statement": "After resolving the command line, every built-in pattern has the value determined by: off if named in --disable-pattern, else on if named in --enable-pattern, else off if --disable-all-patterns is given, else on if --enable-all-patterns is given, else its default; control-flow-only forces type-casts on.  Neither the order nor the repetition of options matters, and the options are accepted iff every named pattern is an advertised one.", "quantifier": "every combination of the options", "why_tests_cant": "2^24 combinations with order effects", "anchors": ["diffkemp/config.py::BuiltinPatterns.update_from_args", "diffkemp/config.py::BuiltinPatterns.resolve_dependencies"]}
{"id": "C33", "title": "Every advertised pattern name has an effect", "statement": "Each pattern name accepted by --enable-pattern/--disable-pattern except unused-returns switches the pattern of that name (type-casts stays on under control-flow-only).  Options naming unused-returns are accepted and never have an effect, because the configuration key is spelled unused-return-types; that pattern is off iff all patterns are disabled.", "quantifier": "every accepted name", "why_tests_cant": "cross-file agreement of two enumerations", "anchors": ["diffkemp/cli.py::make_argument_parser", "diffkemp/config.py::BuiltinPatterns"]}
{"id": "C34", "title": "Snapshot YAML round trip", "statement": "Loading the YAML written for a snapshot yields the same groups, functions, modules' paths, global variables and tags, in the same order, for function-list snapshots with a single unnamed group and for sysctl snapshots whose groups are all named; module paths name the same files even when loaded from another working directory.  Other shapes are written without complaint but cannot be loaded (KeyError, TypeError).", "quantifier": "every sequence of add_fun", "why_tests_cant": "all snapshots", "anchors": ["diffkemp/snapshot.py::Snapshot.to_yaml", "diffkemp/snapshot.py::Snapshot._from_yaml"]}
{"id": "C35", "title": "Snapshot lookup is last-writer-wins", "statement": "After any sequence of add_fun, get_by_name returns the description from the last add_fun with that name and group, or None if there was none.", "quantifier": "every history of add_fun", "why_tests_cant": "all histories", "anchors": ["diffkemp/snapshot.py::Snapshot.add_fun", "diffkemp/snapshot.py::Snapshot.get_by_name"]}
{"id": "C36", "title": "Snapshot filtering", "statement": "filter keeps exactly the requested functions of the group in the requested order and leaves other groups alone; it fails iff the group or one of the functions does not exist.", "quantifier": "every snapshot and list", "why_tests_cant": "all inputs", "anchors": ["diffkemp/snapshot.py::Snapshot.filter"]}
{"id": "C37", "title": "End-line detection finds the closing line", "statement": "get_end_line returns, for kind function or type and a start line inside the file, the first line at or after the start that closes such a definition (the closing text alone on the line), and raises EndLineNotFound iff there is none; it terminates on every input.  A start behind the end of the file raises IndexError and any other kind NameError; start line 0 begins at the last line of the file.", "quantifier": "every file and start line", "why_tests_cant": "all files", "anchors": ["diffkemp/utils.py::get_end_line"]}
{"id": "C38", "title": "Extracted code is exactly the requested lines", "statement": "For a start line of at least 1, extract_code writes exactly lines start..end of the file, with newlines normalised, and fails iff the file cannot be read.  For start line 0 the code is lost.", "quantifier": "every file and range", "why_tests_cant": "all files", "anchors": ["diffkemp/syndiff/function_syntax_diff.py::extract_code"]}
{"id": "C39", "title": "Diff line numbers are file line numbers", "statement": "Given a diff utility that quotes its two input texts under their line numbers, the difference of two definitions is empty iff they are the same text, and otherwise consists of hunks that quote the two source files under the line numbers of these files.  This holds for the viewer's unified differences always, and for the context differences of results if no line of the definitions consists only of digits, blanks, commas, asterisks and hyphens: such a line is taken for a hunk header and lost, or makes the comparison fail with ValueError.", "quantifier": "every diff with hunks", "why_tests_cant": "all diffs", "anchors": ["diffkemp/syndiff/function_syntax_diff.py::syntax_diff"]}
{"id": "C40", "title": "Compiler wrapper never changes the native build", "statement": "The wrapper runs the original compiler with the original arguments first; if it fails nothing else is run and the native wrapper fails; if it succeeds the wrapper succeeds, whatever happens to the LLVM generation, and the database is written only after the LLVM generation succeeded.  The exit code itself is not kept (always 1), and the Python script variant of the wrapper reports success even if the compiler failed.", "quantifier": "every command line", "why_tests_cant": "all command lines", "anchors": ["diffkemp/building/cc_wrapper.py::wrapper"]}
{"id": "C41", "title": "Clang command rewriting", "statement": "The clang command of a compilation has every argument that is not on the drop list, in order, with the object output renamed to .ll, then the appended and the required options; linking sources is the same with the output suffixed, leaving out objects; linking objects runs llvm-link on -o with the suffixed output and those LLVM IR files of the objects that exist.  Configure tests and outputs that are no LLVM IR are not repeated.  Without appended options clang gets one empty argument, and with gcc on the drop list an argument is lost.", "quantifier": "every command line and drop list", "why_tests_cant": "all command lines", "anchors": ["diffkemp/building/cc_wrapper.py::wrapper"]}
{"id": "C42", "title": "Candidate sources are complete, duplicate-free and prioritised", "statement": "Looking for the source of a kernel symbol tries each file reported by cscope (and the few fixed locations of kernel parameters, tracepoints, rcu_barrier and vfree) exactly once: the files with definitions, then those with uses at global scope, then the other uses, and inside each class generic files before drivers before x86 before other architectures.  The result does not depend on what was searched before, each search that cscope answers is run at most once, and the search fails with SourceNotFoundException exactly if nothing is reported.  File names starting with a character after '|' are not in that order, and a line of the output without words (for instance after a form feed) ends the search with an IndexError.", "quantifier": "every cscope output", "why_tests_cant": "all outputs", "anchors": ["diffkemp/llvm_ir/kernel_llvm_source_builder.py::KernelLlvmSourceBuilder._find_srcs_with_symbol_def"]}
{"id": "C43", "title": "gcc to clang translation", "statement": "The clang command made from a gcc command of the kernel build keeps exactly the words that are not optimisation, warning, machine or output options, in order and without double quotes, and writes the output next to the last C source; it is a build error exactly if there is none.  The command of an object is the last gcc command that make prints; linker commands become llvm-link commands on the corresponding LLVM IR files; a module takes all its commands in order except those that mention its meta data.  The optimiser is given the passes in order in the syntax of the LLVM version.  A quoted parameter with a blank is cut in two, and a source whose name continues the module name with .mod is left out.", "quantifier": "every gcc command", "why_tests_cant": "all commands", "anchors": ["diffkemp/llvm_ir/kernel_llvm_source_builder.py::KernelLlvmSourceBuilder._gcc_to_llvm"]}
{"id": "C44", "title": "Kernel headers are restored", "statement": "A run of build-kernel that ends restores the headers it disabled asm features in, byte for byte, also after any number of interrupted runs, for headers that do not contain the replacement texts; with the features disabled no asm goto is left.  A header that already contains the replacement text is changed for good, and a run that fails or finds an empty function list leaves the headers changed.", "quantifier": "every header contents", "why_tests_cant": "all file contents", "anchors": ["diffkemp/llvm_ir/kernel_llvm_source_builder.py::KernelLlvmSourceBuilder._disable_asm_features", "diffkemp/llvm_ir/kernel_llvm_source_builder.py::KernelLlvmSourceBuilder._enable_asm_features"]}
{"id": "C45", "title": "Unlinking restores the module", "statement": "After any sequence of link_modules calls (successful or failing) restore_unlinked_llvm brings back the original file name and an empty set of linked modules, and a module is never linked twice.  The original file itself is left alone unless its path already contains -linked, in which case linking overwrites it.", "quantifier": "every sequence of link attempts and outcomes", "why_tests_cant": "all histories", "anchors": ["diffkemp/llvm_ir/llvm_module.py::LlvmModule.link_modules", "diffkemp/llvm_ir/llvm_module.py::LlvmModule.restore_unlinked_llvm"]}
{"id": "C46", "title": "Modules are shared per source", "statement": "SourceTree returns the same module object for the same source path over the whole run, and a module is only returned if its file exists and is not newer than the snapshot.", "quantifier": "every request history and file-system state", "why_tests_cant": "all histories", "anchors": ["diffkemp/llvm_ir/source_tree.py::SourceTree.get_module_for_symbol"]}
{"id": "C47", "title": "YAML report completeness", "statement": "The YAML report has exactly one entry per compared function that is NOT_EQUAL, in the order of the results, listing sorted by name exactly its differing functions with a non-empty diff or not covered by a nested difference, with their call stacks; and it defines exactly the listed functions and types that the graph knows, with paths that lead from the snapshot to the source file.  The report is written iff every name on a listed call stack has at most one space and every such symbol has a source file; otherwise an exception ends it.", "quantifier": "every result, graph and set order", "why_tests_cant": "all results and graphs", "anchors": ["diffkemp/output.py::YamlOutput"]}
{"id": "C48", "title": "Viewer indices are consistent", "statement": "For every report made by DiffKemp (no repeated functions), the viewer's lists contain exactly the compared and differing functions of the report, each once and sorted; f is listed among the differing functions of c iff c is listed among the compared functions of f; the difference shown for a pair is the one of the report; next and previous navigation are inverse to each other and stop exactly at the ends.  With a repeated compared function the views disagree.", "quantifier": "every report", "why_tests_cant": "all reports", "anchors": ["view/src/Result.js::Result"]}
{"id": "C49", "title": "Suffixes of names", "statement": "A name has a suffix exactly if it ends in .void, or in a dot followed only by digits after a part with some character that is neither digit nor dot; dropping it leaves the text before it.  Function names in custom patterns match if they are equal without suffixes and without the prefix diffkemp., diffkemp.old. or diffkemp.new. of the pattern.  Only one suffix is dropped, so dropping is not idempotent (f.1.2), and a dot with no digit counts as a suffix.", "quantifier": "every name", "why_tests_cant": "all strings", "anchors": ["diffkemp/simpll/Utils.cpp::hasSuffix", "diffkemp/simpll/Utils.cpp::dropSuffix", "diffkemp/simpll/Utils.cpp::namesMatch"]}
{"id": "C50", "title": "findAndReplace terminates and replaces all occurrences", "statement": "findAndReplace terminates for every input and its result is obtained by replacing left-to-right all non-overlapping occurrences; nothing is done for an empty pattern.", "quantifier": "all strings", "why_tests_cant": "all strings", "anchors": ["diffkemp/simpll/Utils.cpp::findAndReplace"]}
{"id": "C51", "title": "Matching bracket extraction", "statement": "getSubstringToMatchingBracket returns, from an opening bracket on, the text up to the bracket that closes it, and the whole rest if none does, so an unclosed bracket is not reported.  It returns the character alone if it is no bracket, nothing at the end of the text or for npos, and is undefined for positions after the end.", "quantifier": "all strings and positions", "why_tests_cant": "all strings", "anchors": ["diffkemp/simpll/SourceCodeUtils.cpp::getSubstringToMatchingBracket"]}
{"id": "C52", "title": "Composite macro expansion", "statement": "Expanding a parameter in the ## operators of a macro body terminates exactly if no occurrence it meets continues a word, and then replaces every occurrence that is not one of the two characters skipped after a replacement.  It runs forever on a body such as fname##e with a parameter e, and on a##b of a macro with an empty parameter list.", "quantifier": "all macro bodies, parameters and arguments", "why_tests_cant": "non-termination cannot be observed by a finite test", "anchors": ["diffkemp/simpll/SourceCodeUtils.cpp::expandCompositeMacroNames"]}
{"id": "C53", "title": "Sysctl pattern matching agrees across languages", "statement": "The Python and C++ implementations of sysctl pattern matching accept the same names, for every pattern and every name that is not empty: '*' everything, {a|b|c} its members, any other pattern only itself.  For the empty name C++ disregards an empty last alternative.", "quantifier": "all names and patterns", "why_tests_cant": "two implementations over all strings", "anchors": ["diffkemp/llvm_ir/llvm_sysctl_module.py::matches", "diffkemp/simpll/library/SysctlTable.cpp::SysctlTable::matches"]}
{"id": "C54", "title": "Declaration-only functions are judged consistently", "statement": "A pair with a function without a body gets ASSUMED_EQUAL if the names without suffixes are the same and NOT_EQUAL otherwise; the missing definition of the one side is reported if only one has no body, the names are the same and more than the control flow matters.  A pair known from an earlier run is UNKNOWN.  Nothing else changes: no other result, no body.", "quantifier": "every pair of functions", "why_tests_cant": "all combinations", "anchors": ["diffkemp/simpll/ModuleComparator.cpp::ModuleComparator::compareFunctions"]}
{"id": "C55", "title": "The report keeps the last comparison graph only", "statement": "The graph attached to the overall result is the one of the last added inner result.  The wish that it contains the results of all compared functions does not hold: add_inner always replaces the graph by the last inner result's graph, so one function without a module at the end discards it.", "quantifier": "every sequence of inner results", "why_tests_cant": "all histories", "anchors": ["diffkemp/semdiff/result.py::Result.add_inner", "diffkemp/diffkemp.py::compare"]}
{"id": "C56", "title": "Bodies of macro differences belong to the shown difference", "statement": "For every listed macro or inline-assembly difference a left and a right body is found by its name, and they are its own bodies if no other difference of the same name has other bodies.  With two differences of one name in the list, the bodies of one are shown for both.", "quantifier": "every graph and compared pair", "why_tests_cant": "all graphs and name collisions", "anchors": ["diffkemp/semdiff/caching.py::ComparisonGraph.graph_to_fun_pair_list", "diffkemp/semdiff/function_diff.py::functions_diff"]}
{"id": "C57", "title": "The graph represents SimpLL's output", "statement": "The graph built from a SimpLL output has for every name exactly the last result stored under that name with the reported names, verdict, places, statistics, calls and differences, and no other names; building succeeds on every well-formed output.  A second result for the same name overwrites the first, even a difference.", "quantifier": "every SimpLL output", "why_tests_cant": "all outputs", "anchors": ["diffkemp/simpll/simpll.py::run_simpll", "diffkemp/semdiff/caching.py::ComparisonGraph.Vertex.from_yaml"]}
{"id": "C58", "title": "Graph construction succeeds and its caching marks agree with its calls", "statement": "For every well-formed SimpLL output (variants closed and distinct, files present) building, normalising and marking succeed; the finished graph knows a plain name iff the output has a result for it or its variant; and a function of the graph is cachable iff it does not, being in a header, call through header functions only a function outside headers that is ASSUMED_EQUAL.", "quantifier": "every SimpLL output", "why_tests_cant": "all outputs and call-graph shapes", "anchors": ["diffkemp/simpll/simpll.py::run_simpll", "diffkemp/semdiff/caching.py::ComparisonGraph.mark_uncachable_from_assumed_equal"]}
{"id": "C59", "title": "Differences in callees named differently on the two sides are lost", "statement": "A callee whose names differ between the versions (e.g. different LLVM number suffixes) is stored under one name only.  The wish that a NOT_EQUAL callee called strongly by both versions of the compared function is always listed does not hold: such a callee is not found on the other side and the object list stays empty.", "quantifier": "existence of a well-formed output", "why_tests_cant": "arises only from combinations of renaming, building and traversal", "anchors": ["diffkemp/simpll/simpll.py::run_simpll", "diffkemp/semdiff/caching.py::ComparisonGraph.graph_to_fun_pair_list"]}
{"id": "C60", "title": "Ignoring a result once hides differences where it is used", "statement": "When the compared function calls a changed function both with its result used and ignored (variant EQUAL), normalisation weakens both calls and the difference is not listed, although the compared function depends on it.", "quantifier": "existence of a well-formed output", "why_tests_cant": "arises only from combinations of variants, building and traversal", "anchors": ["diffkemp/semdiff/caching.py::ComparisonGraph.normalize"]}
{"id": "C61", "title": "Cache files of different source pairs are kept apart", "statement": "For snapshots under two fixed roots that differ in some character, distinct pairs of source files (normalised, without dollar signs and colons) get distinct cache files.  Pairs naming the same path on both sides all share one cache file, after which clearing fails.", "quantifier": "all pairs of source paths under two roots", "why_tests_cant": "all strings", "anchors": ["diffkemp/semdiff/caching.py::SimpLLCache.CacheFile.__init__", "diffkemp/semdiff/caching.py::SimpLLCache.clear"]}
{"id": "C62", "title": "Users of a symbol are not found in single-file and wrapper-built projects", "statement": "get_modules_using_symbol is documented to return the modules using a symbol.  For the finders that answer with one file path as a string it iterates over the characters of the path, so unless the tree has files with one-character names no module is ever returned, even if the file exists; and if the finder knows no file, a TypeError is raised.", "quantifier": "every tree state, directory and file path", "why_tests_cant": "all strings and states", "anchors": ["diffkemp/llvm_ir/source_tree.py::SourceTree.get_modules_using_symbol", "diffkemp/llvm_ir/single_llvm_finder.py::SingleLlvmFinder.find_llvm_with_symbol_use", "diffkemp/llvm_ir/wrapper_build_finder.py::WrapperBuildFinder.find_llvm_with_symbol_use"]}
{"id": "C63", "title": "The semantic checker is never applied to functions", "statement": "When a semantic checker is configured it is documented to re-check the non-equal functions.  In fact it is asked only about objects that are not functions (types, macros, inline assembly); every function keeps SimpLL's verdict, even if the checker would prove it equal.", "quantifier": "every SimpLL behaviour, checker behaviour, graph and configuration", "why_tests_cant": "all behaviours of two external tools", "anchors": ["diffkemp/semdiff/function_diff.py::functions_diff", "diffkemp/semdiff/function_diff.py::functions_semdiff"]}
{"id": "C64", "title": "Results of earlier comparisons are handed on", "statement": "A comparison that does not end in ERROR hands over a graph that still knows every function the previous graph knew.  This fails after an error: if SimpLL fails after missing definitions were linked, the returned graph is the partial graph of the first run and all earlier results are forgotten.", "quantifier": "every previous graph and SimpLL behaviour", "why_tests_cant": "all histories", "anchors": ["diffkemp/semdiff/function_diff.py::functions_diff", "diffkemp/diffkemp.py::compare"]}
{"id": "C65", "title": "Snapshots from a function list have an entry for every listed symbol", "statement": "After generating a snapshot from a list of symbols, the unnamed group has exactly the listed symbols, each with the module defining it as a function, or without a module if none was found or it is not a function; there are no other groups.", "quantifier": "every symbol list and every source lookup", "why_tests_cant": "all lists and source trees", "anchors": ["diffkemp/diffkemp.py::generate_from_function_list"]}
{"id": "C66", "title": "Snapshots from a sysctl list hold the handlers and users of each option", "statement": "After generating a snapshot from sysctl patterns, the group of an option holds exactly its proc handler (if its module was found) and the functions using its data variable other than the proc handler, with matching module, variable and tag.  Generation succeeds iff the uses of every data variable can be determined; otherwise the exception ends the whole generation.", "quantifier": "every list and every source-tree behaviour", "why_tests_cant": "all lists and source trees", "anchors": ["diffkemp/diffkemp.py::generate_from_sysctl_list"]}
{"id": "C67", "title": "compare --function needs the function on both sides", "statement": "With --function f the comparison proceeds iff f is in the unnamed group of both snapshots, and then f is the only function of that group on both sides.  Otherwise a KeyError ends the command; in particular it always fails on snapshots of sysctl options.", "quantifier": "every pair of snapshots and every function name", "why_tests_cant": "all snapshots", "anchors": ["diffkemp/diffkemp.py::compare", "diffkemp/snapshot.py::Snapshot.filter"]}
{"id": "C68", "title": "compare shows exactly the differing, unknown and failed functions", "statement": "Without --full-diff the output shows the differences of exactly the NOT_EQUAL functions and one line for exactly the UNKNOWN and ERROR ones; with --full-diff every compared function.  A line stands below the heading of its own group.  The YAML report is written iff some difference was shown.  A function that timed out is not mentioned at all.", "quantifier": "every pair of snapshots, analysis behaviour and option setting", "why_tests_cant": "all snapshots and analyses", "anchors": ["diffkemp/diffkemp.py::compare"]}
{"id": "C69", "title": "The report keeps the result of every compared function", "statement": "If the functions of the old snapshot have pairwise different names, the result of every handled function is in the overall result.  If a function is in two groups, only the result of the last group is kept, so a difference found in another group is missing in report and statistics.", "quantifier": "every pair of snapshots and analysis behaviour", "why_tests_cant": "all snapshots and analyses", "anchors": ["diffkemp/diffkemp.py::compare", "diffkemp/semdiff/result.py::Result.add_inner"]}
{"id": "C70", "title": "SimpLL gets the same configuration as a library and as a binary", "statement": "For ASCII arguments, files that do not look like options, function names without commas and any pattern options, the configuration SimpLL builds from the foreign function call and from the command line agree in every field, and so do the output file names when IR is written with a suffix to files with an extension.  They differ outside: a non-ASCII path makes only the library call raise UnicodeEncodeError, a file without extension below a directory with a dot gets different output names, and without any dot the binary crashes.", "quantifier": "every request and every pattern configuration", "why_tests_cant": "cross-language agreement over all strings and 2^12 settings", "anchors": ["diffkemp/simpll/simpll.py::run_simpll", "diffkemp/simpll/SimpLL.cpp::main", "diffkemp/simpll/library/FFI.cpp::runSimpLL"]}
{"id": "C71", "title": "Custom pattern configurations", "statement": "A configuration file (extension not empty, l or ll) is accepted iff it is readable and has no pattern list or a known failure mode, every listed file is readable and, unless the mode is WARN, is a valid .ll file.  The patterns used are exactly the listed files with extension ll; in WARN mode also invalid ones.  A configuration file without extension is always rejected.", "quantifier": "every file system content, configuration and pattern directory", "why_tests_cant": "all file trees", "anchors": ["diffkemp/semdiff/custom_pattern_config.py::CustomPatternConfig.create_from_file", "diffkemp/semdiff/custom_pattern_config.py::CustomPatternConfig._load_yaml", "diffkemp/semdiff/custom_pattern_config.py::CustomPatternConfig.add_pattern"]}
{"id": "C72", "title": "The report describes symbols by the graph of the last compared function", "statement": "The graph used for the symbol definitions of the report is the one handed over by the comparison that ran last.  If every comparison hands over the functions known before, all listed symbols of all compared functions are looked up in it; if the last comparison failed or was cut off, symbols of earlier comparisons are missing in the report.", "quantifier": "every comparison run", "why_tests_cant": "all histories of comparisons", "anchors": ["diffkemp/output.py::YamlOutput", "diffkemp/diffkemp.py::compare"]}
{"id": "C73", "title": "Printed differences", "statement": "The differences of a function are printed exactly if it is NOT_EQUAL, or with --full-diff if some object has a text; to <function>.diff in the output directory or to standard output; as a heading and one block per listed difference sorted by name with its call stacks (relative to the snapshots) and its text, indented.  Printing fails exactly if a listed difference has no text; without a semantic checker this never happens for results of the comparison, with one it does.  Printed and reported differences are the same.", "quantifier": "every result, directory and option", "why_tests_cant": "all results and texts", "anchors": ["diffkemp/diffkemp.py::print_syntax_diff"]}
{"id": "C74", "title": "Data prepared for the viewer", "statement": "view gives every definition of the report a flag, set exactly if both versions have an end line and their lines differ visibly, in which case the file diffs/<name>.diff holds that difference; every old source file with a definition is copied exactly once to its place below the viewer's data.  Sources inside the snapshot stay inside the viewer's data; sources outside of it are copied outside.", "quantifier": "every report and file system content", "why_tests_cant": "all reports and paths", "anchors": ["diffkemp/diffkemp.py::view"]}
{"id": "C75", "title": "The wrapper database and the lookup of functions", "statement": "A command with an output is recorded exactly if its LLVM generation ran, succeeded and left the file.  Reading the database after any number of commands gives the recorded files in order (paths without colons and line ends); a function is found exactly in the last recorded file defining it; the generated function list names every function found once.  Compilations without -o are not recorded, paths with a colon are lost, and a recorded file that is missing ends the lookup with an AttributeError.", "quantifier": "every sequence of commands, every database and file content", "why_tests_cant": "all build histories and texts", "anchors": ["diffkemp/building/cc_wrapper.py::wrapper", "diffkemp/llvm_ir/wrapper_build_finder.py::WrapperBuildFinder.initialize", "diffkemp/utils.py::get_functions_from_llvm"]}
{"id": "C76", "title": "The build options reach the compiler wrapper", "statement": "Every compiler wrapper started by the build sees the clang and llvm-link programs and the options to append and to drop of the build command, element by element, if the environment has no variable with one of the wrapper's names and no option contains a comma.  A variable of the environment takes precedence over the option, and an option with a comma is split.", "quantifier": "every environment and option setting", "why_tests_cant": "all environments and option lists", "anchors": ["diffkemp/diffkemp.py::build_c_project", "diffkemp/building/cc_wrapper.py::wrapper"]}
{"id": "C77", "title": "config.log is kept and the configure command is repeated", "statement": "config.log survives the cleaning of the project, also if the program is killed while cleaning and started again, as long as the cleaning leaves config.log.bak alone and writes no new config.log before the kill.  The command run to configure again is what follows the first '$ ' of the first line of config.log with a dollar sign, with the compiler setting appended, unless it already has the setting; it fails with an IndexError if that line has no '$ '.", "quantifier": "every config.log, effect of make clean and kill point", "why_tests_cant": "all file contents and crash points", "anchors": ["diffkemp/diffkemp.py::build_c_project"]}
{"id": "C78", "title": "A kernel definition comes from the first candidate that builds and has it", "statement": "The module returned for a symbol of the kernel is the first candidate source that can be built into LLVM IR defining the symbol; earlier candidates have been tried and rejected, later ones are not built, and nothing is found exactly if every candidate has been tried.", "quantifier": "every candidate list, build outcome and file system", "why_tests_cant": "all lists and outcomes", "anchors": ["diffkemp/llvm_ir/kernel_llvm_source_builder.py::KernelLlvmSourceBuilder.find_llvm_with_symbol_def"]}
{"id": "C79", "title": "LLVM IR of a kernel source is never stale", "statement": "Building a kernel source reuses the LLVM IR if it is not older than the source and otherwise compiles and optimises the source as it is; only the IR file is written.  Over every history of edits and builds in which opt does not fail, a successful build leaves the optimised IR of the current source.  If opt fails, the IR without optimisation stays and is taken as up to date by the next run; IR whose source is gone ends the build with a FileNotFoundError.", "quantifier": "every history of edits, builds and tool outcomes", "why_tests_cant": "all histories", "anchors": ["diffkemp/llvm_ir/kernel_llvm_source_builder.py::KernelLlvmSourceBuilder._build_source_to_llvm"]}
{"id": "C80", "title": "LLVM IR of a kernel module is never stale", "statement": "Over every history of edits and successful builds, building a kernel module leaves in every LLVM IR file of the module the compiled or linked code of the sources as they are, changes no source, and compiles and links nothing that is up to date.  After a build that fails in linking, the next build succeeds and returns the module of the old sources.", "quantifier": "every module, history of edits and builds", "why_tests_cant": "all histories", "anchors": ["diffkemp/llvm_ir/kernel_llvm_source_builder.py::KernelLlvmSourceBuilder._build_kernel_mod_to_llvm"]}
{"id": "C81", "title": "Uses of a kernel symbol", "statement": "The modules returned for the uses of a symbol are those of the reported files outside headers and the global scope that can be built, each once, in the order of the first report.  If no use is reported, the search ends with a TypeError instead of the exception the callers handle.", "quantifier": "every cscope output and build outcome", "why_tests_cant": "all outputs", "anchors": ["diffkemp/llvm_ir/kernel_llvm_source_builder.py::KernelLlvmSourceBuilder.find_llvm_with_symbol_use"]}
{"id": "C82", "title": "Arguments are split at top-level commas", "statement": "The arguments of a closed bracket are the texts between its commas that are not inside further brackets, without surrounding blanks; every closed bracket is split this way.  Commas in string literals split too, and an unclosed bracket loses its last argument.", "quantifier": "every text", "why_tests_cant": "all strings", "anchors": ["diffkemp/simpll/SourceCodeUtils.cpp::splitArgumentsList"]}
{"id": "C83", "title": "Macro definitions of a module", "statement": "Collecting the macros of a module terminates; a name is known exactly if some macro file of the module defines it, with the body, line, file and parameters of the first definition in the order of the search (a file before those it includes).  Redefinitions and #undef are ignored.", "quantifier": "every tree of macro files", "why_tests_cant": "all trees", "anchors": ["diffkemp/simpll/SourceCodeUtils.cpp::collectMacroDefs", "diffkemp/simpll/SourceCodeUtils.cpp::MacroDiffAnalysis"]}
{"id": "C84", "title": "Macro uses and macro differences", "statement": "The macros found for a location are those seen on its line or in the body of a macro found, each once with the chain of macros it was found through, and nothing else; the search terminates also for macros that use each other, as long as composite expansion does.  The differences of two locations are exactly the macros found on both sides with different bodies, with both chains; over any history of queries a reported difference is a real one, and at fresh locations none is missed.  The macros of the line before stay attributed to a location, one-character identifiers at the end of a line are missed, and letters after digits count as identifiers.", "quantifier": "every pair of locations, macro table and history of queries", "why_tests_cant": "all macro tables and histories", "anchors": ["diffkemp/simpll/SourceCodeUtils.cpp::MacroDiffAnalysis::collectMacroUsesAtLocation", "diffkemp/simpll/SourceCodeUtils.cpp::MacroDiffAnalysis::findMacroDifferences"]}
{"id": "C85", "title": "Source text of a location", "statement": "The text extracted for a location is a contiguous part of the file that contains the line, starting with the lines it continues and completed while brackets are open or a return statement is unfinished.  Nothing is extracted for the first non-empty line or for an empty line, and the end of the file can be passed.", "quantifier": "every file and line", "why_tests_cant": "all files", "anchors": ["diffkemp/simpll/SourceCodeUtils.cpp::extractLineFromLocation"]}
{"id": "C86", "title": "Inline assembly is matched with its source", "statement": "The assembly of a source text is its quoted sections before the first colon, with operands and escapes replaced, and its operands what follows; of several candidates the one is chosen that is left after the shortest beginning of the compiled assembly with which fewer than two agree, and its arguments are its bracketed groups.  The choice is undefined exactly if two candidates equal the assembly; a single candidate is taken uncompared, %c12 is read as %c1, and adjacent groups are passed over.", "quantifier": "every line, macro set and assembly", "why_tests_cant": "all texts", "anchors": ["diffkemp/simpll/SourceCodeUtils.cpp::convertInlineAsmToLLVMFormat", "diffkemp/simpll/SourceCodeUtils.cpp::findInlineAssemblySourceArguments"]}
{"id": "C87", "title": "Source arguments of a call", "statement": "The arguments found for a call are those of the first bracket from the first occurrence of the function name on, in the last of the texts (the line, then the bodies of its macros) with the name; there are none if no text has it.  The name may be a part of another name, and a mention without brackets hides a call in an earlier text.", "quantifier": "every line, macro set and name", "why_tests_cant": "all texts", "anchors": ["diffkemp/simpll/SourceCodeUtils.cpp::findFunctionCallSourceArguments"]}
{"id": "C88", "title": "Options of a sysctl table are listed and looked up correctly", "statement": "Parsing prefix.pattern of a table lists exactly the entries whose names match, in the order of the table, as prefix.name, and the lookup of an option gives the last entry with its name whatever was asked of the table before; its data, child and handler are the second, fifth and sixth element.  This needs entries that can be read, names without dots and, for '*' and {..}, a prefix without the pattern; a cast around a computed address is not looked through.", "quantifier": "every module, table, pattern, option and history of queries", "why_tests_cant": "all tables and all histories of queries of one table object", "anchors": ["diffkemp/simpll/library/SysctlTable.cpp::SysctlTable::parseSysctls", "diffkemp/simpll/library/SysctlTable.cpp::SysctlTable::getSysctl", "diffkemp/simpll/library/SysctlTable.cpp::SysctlTable::getGlobalVariableAtIndex"]}
{"id": "C89", "title": "The table of a sysctl option is found by following its parts", "statement": "get_sysctl_module returns a module and a table exactly if the parts of the option lead to it: from the table its area stands for, each part but the last names an entry whose child is the next table.  Other areas are SourceNotFoundException, a part without entry or child is an AttributeError, 'net' and 'net.ipv4' an IndexError; a child variable with a dot in its name is taken for a part of another variable.", "quantifier": "every option and every collection of modules", "why_tests_cant": "hierarchies of any depth", "anchors": ["diffkemp/llvm_ir/kernel_source_tree.py::KernelSourceTree.get_sysctl_module"]}
{"id": "C90", "title": "Without inlining, the results are those of all functions reached through calls", "statement": "If no call can be inlined, comparing two functions ends without a crash, lists exactly the pairs of functions reached through calls taken for each other, each once, with a verdict, calls and differing objects that depend on the pair alone, and takes all to be equal if and only if none of these pairs differs.", "quantifier": "every program, recursive or not, and every pair of functions", "why_tests_cant": "call graphs of any shape", "anchors": ["diffkemp/simpll/ModuleComparator.cpp::ModuleComparator::compareFunctions", "diffkemp/simpll/DifferentialFunctionComparator.cpp::DifferentialFunctionComparator::cmpGlobalValues", "diffkemp/simpll/ModuleAnalysis.cpp::preprocessAndCompare"]}
{"id": "C91", "title": "With inlining, every verdict has a reason", "statement": "If a comparison with inlining ends, each listed verdict has a reason: EQUAL and NOT_EQUAL were the answer of a comparison of the bodies as inlining and simplification had left them at some moment, ASSUMED_EQUAL and the other NOT_EQUAL stand for functions without bodies, UNKNOWN for exactly the pairs known from an earlier run; the compared pair is listed.  The results of inlined functions are forgotten even if other functions call them, so a difference may be lost, depending on the order of calls; forgetting a pair under comparison is a crash, and inlining may not end.  The calls suggested for inlining are the last ones suggested by the comparison and not taken back.", "quantifier": "every program and every pair of functions", "why_tests_cant": "all sequences of inlinings", "anchors": ["diffkemp/simpll/ModuleComparator.cpp::ModuleComparator::compareFunctions", "diffkemp/simpll/ModuleComparator.cpp::ModuleComparator::tryToInline"]}
{"id": "C92", "title": "Texts, numbers and paths are read and written as documented", "statement": "White space, letters, digits, names and line ends are those of the documented character classes; stripping removes exactly the white space around a text; a number is written as its only decimal text; a path leads to the directory reached by following its parts from the root or the current directory, a relative path goes up to the last common directory and down to its target; the extension of a file is what follows the last dot of its name in small letters; the value of an option is the word after its first occurrence.", "quantifier": "every character, text, number and path", "why_tests_cant": "all texts of any length", "anchors": ["diffkemp/utils.py", "diffkemp/syndiff/function_syntax_diff.py", "diffkemp/building/cc_wrapper.py", "diffkemp/semdiff/custom_pattern_config.py::CustomPatternConfig._get_extension", "diffkemp/output.py", "diffkemp/llvm_ir/kernel_llvm_source_builder.py"]}
{"id": "C93", "title": "A function is found equal to a copy of itself", "statement": "Comparing a function with a copy in which instructions and blocks are named differently, blocks after the first are in another order and debug information differs ends with EQUAL, for every setting of the patterns, provided no unreachable block leads into the code; longer comparisons do not change an answer.", "quantifier": "every function LLVM accepts, every renaming and every setting", "why_tests_cant": "functions and control flow of any size", "anchors": ["diffkemp/simpll/DifferentialFunctionComparator.cpp::DifferentialFunctionComparator::compare", "diffkemp/simpll/llvm-lib/15/FunctionComparator.cpp::FunctionComparator::compare"]}
{"id": "C94", "title": "Functions found equal do the same", "statement": "If two functions are found equal and the comparison made no exception other than looking through casts and address computations by zero, then for every meaning of instructions in which what compares equal means the same, all arguments and every initial memory, the two functions at each step have returned the same, are both stuck or go on with the same memory.  For functions of one block without loads, casts, allocations and address computations by zero, with all patterns off, nothing is asked of the comparison.", "quantifier": "every pair of functions, meaning of instructions, input and number of steps", "why_tests_cant": "functions, control flow and runs of any size", "anchors": ["diffkemp/simpll/DifferentialFunctionComparator.cpp::DifferentialFunctionComparator::compare", "diffkemp/simpll/llvm-lib/15/FunctionComparator.cpp::FunctionComparator::compare"]}
{"id": "C95", "title": "Which exceptions of the comparison misjudge functions", "statement": "Functions that do different things are found equal: with all patterns off, if branches lead back to different blocks of a loop, if a case of a switch gets a block of its own in the second function, if a PHI node is reached only from another PHI node, if a block leading to a PHI node cannot be reached, if a load in a loop is matched with the one before it, if an address computation by zero takes the number of another, if a load is replaced although a store through a nested address computation, an atomic operation or a load of another type is in between; with relocations, if code moves into a branch, if a second relocation replaces the first, if a store moves over a store or calls change places; with inverse conditions, if the negated value is another one, or if a comparison matched with an inverse one is used both for a branch and in a negation; and if an argument of a call is found equal by the source, for all arguments after it.  A relocated store can also make the comparison read past the end of a block.", "quantifier": "settings and pairs of functions", "why_tests_cant": "each is a property of every sufficiently long comparison and of the meaning of the functions", "anchors": ["diffkemp/simpll/DifferentialFunctionComparator.cpp::DifferentialFunctionComparator::compare", "diffkemp/simpll/llvm-lib/15/FunctionComparator.cpp::FunctionComparator::compare", "diffkemp/simpll/DifferentialFunctionComparator.cpp::DifferentialFunctionComparator::cmpBasicBlocks", "diffkemp/simpll/DifferentialFunctionComparator.cpp::DifferentialFunctionComparator::cmpPHIs"]}
{"id": "C96", "title": "Reordered operations have the same value", "statement": "If two chains of one of the operations xor, add, and, or, mul are found the same up to the order of the operands, the results of the chains are the same, for every meaning in which these operations are associative and commutative and for all values of the operands on which the comparison has found the two sides to agree before.", "quantifier": "every pair of functions, chain, state of the comparison and values of registers", "why_tests_cant": "chains of any length and all values", "anchors": ["diffkemp/simpll/DifferentialFunctionComparator.cpp::DifferentialFunctionComparator::cmpBasicBlocks", "diffkemp/simpll/DifferentialFunctionComparator.cpp::DifferentialFunctionComparator::collectBinaryOperands", "diffkemp/simpll/Utils.cpp::isReorderableBinaryOp"]}
{"id": "C97", "title": "A load that is left out has the value of its replacement", "statement": "If the comparison leaves out a load and puts another value in its place, then whenever a run comes to the load, it would read just that value, provided the block of the load is not on a cycle, no address is computed from another computed address, every place has one type, and only stores and calls change the memory.", "quantifier": "every function LLVM accepts, every load and every run of the function", "why_tests_cant": "control flow and runs of any size", "anchors": ["diffkemp/simpll/DifferentialFunctionComparator.cpp::DifferentialFunctionComparator::maySkipLoad", "diffkemp/simpll/Utils.cpp::mayAlias", "diffkemp/simpll/Utils.cpp::mayStoreTo"]}
{"id": "C98", "title": "Inverse conditions", "statement": "With inverse conditions on: two comparisons are matched only if they have the same value for the same operands, or if they have negated values and are used, possibly through negations, for nothing but branches.  Of two branches by conditions noted as inverse and having negated values, the blocks that are gone to are compared with each other; the targets of other branches are compared as they stand.  A negation that is left out is noted as inverse to the value of the other function exactly if it is so, provided that what was noted for the negated value was right.", "quantifier": "All functions, worlds (predicates, types, constants), states of a comparison, values and memories, and meanings in which the inverse predicate gives the negated value", "why_tests_cant": "The statement is about every use of every condition and about every pair of values.", "anchors": ["diffkemp/simpll/DifferentialFunctionComparator.cpp::DifferentialFunctionComparator::cmpOperations", "diffkemp/simpll/DifferentialFunctionComparator.cpp::DifferentialFunctionComparator::cmpBasicBlocks", "diffkemp/simpll/DifferentialFunctionComparator.cpp::DifferentialFunctionComparator::checkInverseCondUsers"]}
{"id": "C99", "title": "Visible operations are compared whatever patterns are on", "statement": "Whatever patterns are on: if two functions are found equal without a relocation and without an argument compared by the source, then every block of the first function that can be reached has a block of the second that can be reached, in which the calls and the end of the block are the same ones in the same order (the same operation, number of operands and types, and the same function and constants where both are constants), and so are stores and other operations with effects unless group variables are on.", "quantifier": "every pair of functions, of any size and control flow, and all settings", "why_tests_cant": "all patterns and all functions are quantified over", "anchors": ["diffkemp/simpll/DifferentialFunctionComparator.cpp::DifferentialFunctionComparator::cmpBasicBlocks", "diffkemp/simpll/DifferentialFunctionComparator.cpp::DifferentialFunctionComparator::maySkipInstruction", "diffkemp/simpll/llvm-lib/15/FunctionComparator.cpp::FunctionComparator::compare"]}
{"id": "C100", "title": "What a comparison leaves out", "statement": "An instruction is left out of a comparison only if it is an allocation, a cast that may be ignored, an address computation by zeros, a load whose value is had from elsewhere, a store to stack memory whose allocation was left out, an operation used only at such memory, or a reorderable operation used only by the same operation; values replaced are replaced by the operand or the value found, and all others are from then on equal to nothing.", "quantifier": "every instruction, function, block, setting and state of a comparison", "why_tests_cant": "every use of the value is quantified over", "anchors": ["diffkemp/simpll/DifferentialFunctionComparator.cpp::DifferentialFunctionComparator::maySkipInstruction", "diffkemp/simpll/DifferentialFunctionComparator.cpp::DifferentialFunctionComparator::maySkipCast", "diffkemp/simpll/DifferentialFunctionComparator.cpp::DifferentialFunctionComparator::maySkipLoad", "diffkemp/simpll/DifferentialFunctionComparator.cpp::DifferentialFunctionComparator::cmpValues"]}
{"id": "C101", "title": "Relocated code is compared at its new place", "statement": "When a comparison goes back to relocated code, the functions are found equal only if all calls, ends of blocks and (unless group variables are on) stores of that code up to its end are the next ones of the other function, in the same order, or if the end of the relocated code is never found; a comparison that ends with relocated code unmatched does not find the functions equal.", "quantifier": "every pair of functions, position and state of a comparison in which relocated code is being matched", "why_tests_cant": "code of any length and all patterns", "anchors": ["diffkemp/simpll/DifferentialFunctionComparator.cpp::DifferentialFunctionComparator::cmpBasicBlocks", "diffkemp/simpll/DifferentialFunctionComparator.cpp::DifferentialFunctionComparator::compare"]}
{"id": "C102", "title": "What comparing control flow only keeps of a function", "statement": "With the comparison of control flow only, exactly these instructions of a function are kept, unchanged and in their places: ends of blocks, debug information, calls except those of functions without side effects whose results are only stored, uses of functions in a function with indirect calls whose callee is used elsewhere, casts after allocations with their users, and what these are computed from \u2013 provided a cast after an allocation is one of its result.  A function has a side effect if it stores, calls something unknown, or calls a function that has one.  If a bit cast of another value follows an allocation, its operand is lost; atomic operations are not taken for side effects.", "quantifier": "every function and module, with calls and recursion of any shape", "why_tests_cant": "the chains of operands and calls are of any length", "anchors": ["diffkemp/simpll/passes/ControlFlowSlicer.cpp::ControlFlowSlicer::run", "diffkemp/simpll/passes/ControlFlowSlicer.cpp::addWithOperands", "diffkemp/simpll/passes/ControlFlowSlicer.cpp::addWithUsers", "diffkemp/simpll/passes/ControlFlowSlicer.cpp::hasIndirectCall", "diffkemp/simpll/passes/ControlFlowSlicer.cpp::isResultOnlyStored", "diffkemp/simpll/Utils.cpp::hasSideEffect"]}
{"id": "C103", "title": "What a function does with only its control flow kept", "statement": "For every meaning of instructions in which what is kept cannot see the effects of what is left out, a function and its slice by control flow at each step have returned the same, are both stuck or have memories that what is kept cannot tell apart.  Without that assumption the slice can call other functions: a condition can be stored in memory, and the store is left out.", "quantifier": "every function, meaning of instructions, relation of memories, input and number of steps", "why_tests_cant": "functions, control flow and runs of any size", "anchors": ["diffkemp/simpll/passes/ControlFlowSlicer.cpp::ControlFlowSlicer::run"]}
{"id": "C104", "title": "What depends on a variable is kept", "statement": "In the slice by a global variable, everything that depends on the variable is kept in its block, with its operands (a PHI node may have lost incoming values): what uses it, what is computed from that, what is in blocks whose execution is decided by a branch on such a value, PHI nodes that get different values from blocks with dependent instructions, and what uses a local address to which a value was stored, after the store \u2013 in functions without loops in which what is decided by a decided branch is decided by the first branch, if reachability is answered exactly.  Dependence is lost through loops, switches, other global variables, local variables stored to under a branch, short-circuit conditions, PHI nodes reached on other ways, and where the test for reachability gives up.", "quantifier": "every such function and every dependent instruction of it", "why_tests_cant": "chains of dependence, branches and stores of any length", "anchors": ["diffkemp/simpll/passes/VarDependencySlicer.cpp::VarDependencySlicer::run", "diffkemp/simpll/passes/VarDependencySlicer.cpp::VarDependencySlicer::checkDependency", "diffkemp/simpll/passes/VarDependencySlicer.cpp::VarDependencySlicer::affectedBasicBlocks", "diffkemp/simpll/passes/VarDependencySlicer.cpp::VarDependencySlicer::addAllInstrs", "diffkemp/simpll/passes/VarDependencySlicer.cpp::VarDependencySlicer::addToDependent"]}
{"id": "C105", "title": "The slice by a variable is part of the function", "statement": "In the slice by a global variable, every block has only instructions of the same block of the function: unchanged ones, PHI nodes with some of the incoming values, jumps to one of the targets of a branch, and ends that are no branches, with the same targets.  A PHI node loses exactly the values from blocks that no longer go to its block.  Blocks with dependent instructions, except the one that returns, stay reachable from wherever they were.  The returning block may become unreachable although what it returns depends on the variable, and the slice of a function that returns may run forever.", "quantifier": "every function and every instruction of its slice", "why_tests_cant": "the control flow is of any shape", "anchors": ["diffkemp/simpll/passes/VarDependencySlicer.cpp::VarDependencySlicer::run", "diffkemp/simpll/passes/VarDependencySlicer.cpp::VarDependencySlicer::includedSuccessors", "diffkemp/simpll/passes/VarDependencySlicer.cpp::VarDependencySlicer::addAllOpsToIncluded", "diffkemp/simpll/passes/VarDependencySlicer.cpp::VarDependencySlicer::addStoresToIncluded"]}
{"id": "C106", "title": "Merging functions with numbered names", "statement": "Before a comparison, functions whose names differ only in a number or in the suffix for missing results are merged: of those that are neither intrinsics nor abstractions, all with the type of the first one of their name are removed, every use of them is one of the first, and all other functions are as before; with at least two of a name, the first gets the name without suffix, if that is not the name of a function of another type.  If the removed functions do the same as the first and addresses of functions are only called and passed on, what functions do is unchanged.  What they do is not compared: merging changes the meaning of a module if they differ, definitions are lost if the first is a declaration, and suffixes stay or change in the other cases.", "quantifier": "every module, order of a hash table, way of making unique names, and every run of every function", "why_tests_cant": "modules, call graphs and runs of any size", "anchors": ["diffkemp/simpll/passes/MergeNumberedFunctionsPass.cpp::MergeNumberedFunctionsPass::run", "diffkemp/simpll/Utils.cpp::dropSuffix"]}
{"id": "C107", "title": "Functions that may be called", "statement": "The analysis of called functions always ends, and finds exactly the functions that the main function reaches through operands of instructions, constants in them, aliases, casts and the initial values of constant global variables; functions in variables that are not constant are not found.", "quantifier": "every module, with call graphs and initial values of any shape, also cyclic", "why_tests_cant": "chains of calls and constants of any length", "anchors": ["diffkemp/simpll/passes/CalledFunctionsAnalysis.cpp::CalledFunctionsAnalysis::run", "diffkemp/simpll/passes/CalledFunctionsAnalysis.cpp::CalledFunctionsAnalysis::collectCalled", "diffkemp/simpll/passes/CalledFunctionsAnalysis.cpp::CalledFunctionsAnalysis::processValue"]}
{"id": "C108", "title": "Abstractions of indirect calls and inline assembly", "statement": "In functions that may be called, exactly the calls of pointers and of inline assembly are replaced by calls of new declared functions, which get the pointer as last argument or carry the assembly; two calls get the same function exactly if their types and their assembly are the same, provided that types have different names and dollar signs are neither in these nor in constraints (otherwise different assembly can get one function).  Two such functions for assembly are found equal only if the assembly is the same.", "quantifier": "every module, set of called functions, naming of types and pair of functions", "why_tests_cant": "modules of any size and all types and texts of assembly", "anchors": ["diffkemp/simpll/passes/FunctionAbstractionsGenerator.cpp::FunctionAbstractionsGenerator::run", "diffkemp/simpll/passes/FunctionAbstractionsGenerator.cpp::FunctionAbstractionsGenerator::funHash", "diffkemp/simpll/DifferentialFunctionComparator.cpp::DifferentialFunctionComparator::cmpGlobalValues"]}
{"id": "C109", "title": "Results that are not used", "statement": "If a function has a result that the function of the same name in the other module does not have, or is an abstraction, calls of it whose results are not used become calls of a new function that is the same without a result; nothing else is changed but the name of the function, no such call is left in another function of the module, and what every function of the module does is unchanged.  The change of the name can make abstractions of different assembly the same for the comparison.", "quantifier": "every pair of modules and every run of every function", "why_tests_cant": "modules, call graphs and runs of any size", "anchors": ["diffkemp/simpll/passes/RemoveUnusedReturnValuesPass.cpp::RemoveUnusedReturnValuesPass::run", "diffkemp/simpll/DifferentialFunctionComparator.cpp::DifferentialFunctionComparator::cmpGlobalValues"]}
{"id": "C110", "title": "Calls of functions known by their names", "statement": "Calls of functions that print lose their arguments, calls of functions and assembly that warn lose pointers to places and numbers of lines, counters of assembly become 0, calls of the copying function become those of the intrinsic, calls that mark lifetimes are removed, and functions with the name of assertions at compile time in their names become one; all else is kept.  What a function does is unchanged if what such calls do does not depend on these arguments, or if both ways of copying do the same and the result of the call is not used, or if marks of lifetimes have no effect.  It changes if the result of copying is used (the source is put for it, not the destination), if text is printed to memory, and if a function with such a name is no assertion.", "quantifier": "every function and module, every meaning of calls and every run", "why_tests_cant": "functions and runs of any size", "anchors": ["diffkemp/simpll/passes/SimplifyKernelFunctionCallsPass.cpp::SimplifyKernelFunctionCallsPass::run", "diffkemp/simpll/passes/UnifyMemcpyPass.cpp::UnifyMemcpyPass::run", "diffkemp/simpll/passes/RemoveLifetimeCallsPass.cpp::RemoveLifetimeCallsPass::run", "diffkemp/simpll/passes/SimplifyKernelGlobalsPass.cpp::SimplifyKernelGlobalsPass::run"]}
{"id": "C111", "title": "What is loaded from a file of custom patterns", "statement": "Exactly the functions with a body whose names are the prefix for old ones and a name x are loaded, with the function of the prefix for new ones and x, if there is one: as a value pattern if both start with a block of one instruction and no mark forbids it, else as a pattern of instructions, which is rejected unless both functions have as many arguments, as many outputs and all outputs are instructions; arguments and outputs are paired in their order.  Each instruction has the marks the file gives it; the pattern starts at the first one marked so or else at the beginning, and ends where marked or else at the outputs; its inputs are the arguments and what comes before the start without being marked otherwise.  A name that is not known drops all marks of its instruction, and a declared new side or functions that only return make the code read what does not exist.", "quantifier": "every module, marking and pair of functions", "why_tests_cant": "modules and functions of any size and all marks", "anchors": ["diffkemp/simpll/CustomPatternSet.cpp::CustomPatternSet::addPatternFromModule", "diffkemp/simpll/CustomPatternSet.cpp::CustomPatternSet::initializeInstPattern", "diffkemp/simpll/CustomPatternSet.cpp::CustomPatternSet::initializeInstPatternSide", "diffkemp/simpll/CustomPatternSet.cpp::CustomPatternSet::initializeValuePattern", "diffkemp/simpll/CustomPatternSet.cpp::CustomPatternSet::getPatternMetadata", "diffkemp/simpll/CustomPatternSet.cpp::CustomPatternSet::getPatternType"]}
{"id": "C112", "title": "Values equal by a value pattern", "statement": "With value patterns, two values that differ are taken as equal exactly if a pattern has on its old side the first and on its new side the second: the same number, or a load from what has the name of the global variable; of two loads, only if the comparison has paired them.  Loads found different are taken for matched by the first pattern that describes one of them, and noted as a pair if it describes both.  Two globals are compared through a null pointer, a load through a local value of the name is taken for one of the global, and one load is taken for matched although the other instruction is not in the pattern.", "quantifier": "every pair of values, list of patterns, numbering and naming", "why_tests_cant": "all values, names and lists of patterns", "anchors": ["diffkemp/simpll/CustomPatternComparator.cpp::CustomPatternComparator::matchValues", "diffkemp/simpll/CustomPatternComparator.cpp::CustomPatternComparator::matchValuePattern", "diffkemp/simpll/CustomPatternComparator.cpp::CustomPatternComparator::matchLoadInst", "diffkemp/simpll/ValuePatternComparator.cpp::ValuePatternComparator::cmpValues"]}
{"id": "C113", "title": "What a match of a custom pattern means", "statement": "If both sides of a pattern match, each matched instruction is in the code and does what its counterpart in the pattern does, on constants that correspond and on the same value wherever the pattern has the same input; in each side all instructions from the start of the pattern to the end of its first block are matched.  If the pattern has no marks for its start or its inputs, all of what is matched is the code of the pattern with its values renamed.  Finding what the inputs stand for ends, also in code with loops.", "quantifier": "every pattern, pair of functions with any control flow, numbering and pair of instructions", "why_tests_cant": "patterns and functions of any size and shape", "anchors": ["diffkemp/simpll/InstPatternComparator.cpp::InstPatternComparator::compare", "diffkemp/simpll/InstPatternComparator.cpp::InstPatternComparator::matchPattern", "diffkemp/simpll/InstPatternComparator.cpp::InstPatternComparator::cmpOperationsWithOperands", "diffkemp/simpll/InstPatternComparator.cpp::InstPatternComparator::mapInputValues", "diffkemp/simpll/InstPatternComparator.cpp::InstPatternComparator::checkInputMapping", "diffkemp/simpll/CustomPatternComparator.cpp::CustomPatternComparator::matchInstPattern"]}
{"id": "C114", "title": "Code that contains a custom pattern is matched", "statement": "If code contains, from an instruction on and in one block, the instructions of one side of a pattern of one block without groups, in their order and with values renamed one to one, and between them only instructions that do something else than the awaited one and copies of nothing in the pattern, then the side matches there: each instruction of the pattern is matched with its copy, and the inputs stand for what they are renamed to.  If an unrelated instruction does what the awaited one does, the match fails; the rest of a block with one successor may come between the instructions of a group or be passed over at the start; an end marked in such a block is not the end.", "quantifier": "every function, pattern of one block, renaming and place", "why_tests_cant": "code and patterns of any length, with anything in between", "anchors": ["diffkemp/simpll/InstPatternComparator.cpp::InstPatternComparator::compare", "diffkemp/simpll/InstPatternComparator.cpp::InstPatternComparator::matchPattern", "diffkemp/simpll/InstPatternComparator.cpp::InstPatternComparator::cmpBasicBlocks"]}
{"id": "C115", "title": "What a match means for the comparison", "statement": "Patterns of instructions are tried one after the other and before value patterns; what the first that matches has matched is left out of the comparison from then on.  What an argument of the pattern stands for in the old function and in the new one are then a pair of the comparison.  Both numberings grow alike, and the instructions at which the difference was found are among the matched ones if their blocks have not exactly one successor.  But the outputs are noted with old and new exchanged, so that no output gets a number of its own: functions that use the outputs in another order are found equal; and where the two instructions are passed over, the comparison stays at them for ever.", "quantifier": "every list of patterns, pair of functions, numbering and pair of instructions", "why_tests_cant": "functions and patterns of any size, and comparisons of any length", "anchors": ["diffkemp/simpll/CustomPatternComparator.cpp::CustomPatternComparator::matchPattern", "diffkemp/simpll/CustomPatternComparator.cpp::CustomPatternComparator::inputMappingValid", "diffkemp/simpll/CustomPatternComparator.cpp::CustomPatternComparator::processPatternMatch", "diffkemp/simpll/DifferentialFunctionComparator.cpp::DifferentialFunctionComparator::createPatternMapping", "diffkemp/simpll/DifferentialFunctionComparator.cpp::DifferentialFunctionComparator::undoLastInstCompare", "diffkemp/simpll/DifferentialFunctionComparator.cpp::DifferentialFunctionComparator::isPartOfPattern"]}
{"id": "C116", "title": "Indices and names of members of structures", "statement": "The index found for a member by its name is the position of what holds it in the structure of LLVM: bit-fields of one storage share it, padding before members with explicit alignment counts, and a name that is not there gives -1.  Without padding, the name found for an index is that of the first member there, and none past the end.  With padding it is the name of a member behind it, members without size are counted by the one function and not by the other, and the names of unions lose a letter, so that they may become those of structures.", "quantifier": "every structure and every member of it", "why_tests_cant": "structures with any number of members and any layout", "anchors": ["diffkemp/simpll/DebugInfo.cpp::DebugInfo::getTypeMemberIndex", "diffkemp/simpll/DebugInfo.cpp::DebugInfo::getElementNameAtIndex", "diffkemp/simpll/DebugInfo.cpp::DebugInfo::isSameElemIndex", "diffkemp/simpll/DebugInfo.cpp::getStructTypeName"]}
{"id": "C117", "title": "Which address computations are equal", "statement": "Two address computations are found equal exactly if they add the same number of bytes, or have equal types and operands if a number is not known, or, with changed structures allowed, select elements of arrays of different length by variables of enumerations, or are over structures of the same name in C and compute with as many constant indices, each equal to the other or with the same member name noted for both, or with one equal index.  So members at the same index are equal whatever their names and offsets, and the index of the pointer is taken for one of a member: after a member was inserted, p + 1 and p + 2 are equal.", "quantifier": "every pair of address computations, set of types, noted names and outcome of the comparison of values", "why_tests_cant": "types of any nesting and computations with any number of indices", "anchors": ["diffkemp/simpll/DifferentialFunctionComparator.cpp::DifferentialFunctionComparator::cmpGEPs", "diffkemp/simpll/llvm-lib/15/FunctionComparator.cpp::FunctionComparator::cmpGEPs"]}
{"id": "C118", "title": "Which names of members are noted", "statement": "Every name that is noted is that of an index of a structure of the first version in its debug info, noted for this index, or for the index of this name in the debug info of the second version.  If compared functions access members only directly through pointers to structures, and those at the same place are of the same structure, the names are noted for the right structures, all accessed members are noted that are not at the front in the second version, and with structures laid out without padding each name is that of the member at the index, in both versions.  With nested accesses, names are noted for other structures, so that accesses to different members are equal; members moved to the front are not noted; and members that were removed are noted for the index -1.", "quantifier": "every pair of modules and their debug info", "why_tests_cant": "modules with any functions, types and accesses", "anchors": ["diffkemp/simpll/DebugInfo.cpp::DebugInfo::extractAlignmentFromInstructions", "diffkemp/simpll/DebugInfo.cpp::DebugInfo::calculateGEPIndexAlignments", "diffkemp/simpll/DebugInfo.cpp::DebugInfo::getStructTypeInfo"]}
{"id": "C119", "title": "Constants from macros and enumerations", "statement": "Different constants are taken as equal for this reason only if a macro or enumerator has the value of the first one in the first version and that of the second one in the second version, and a compared function uses the first one.  A constant with the value of a macro that changed is equal to the new value if no other macro with this value has another new one.  If two macros with the value change differently, only one change is known, and a macro that becomes empty makes its constant equal to every constant that is no integer.", "quantifier": "every pair of modules with any macros and enumerators, and any order of sets of constants", "why_tests_cant": "any number of macros, compile units and constants", "anchors": ["diffkemp/simpll/DebugInfo.cpp::DebugInfo::calculateMacroAlignments", "diffkemp/simpll/DebugInfo.cpp::DebugInfo::collectMacrosWithValue", "diffkemp/simpll/DebugInfo.cpp::DebugInfo::addAlignment", "diffkemp/simpll/DifferentialFunctionComparator.cpp::DifferentialFunctionComparator::cmpValues", "diffkemp/simpll/Utils.cpp::valueAsString"]}
{"id": "C120", "title": "Accesses to fields in several steps", "statement": "Two sequences of address computations that start with GEPs are found equal exactly if they start from pointers found equal, each computation is applied to the result of the one before, as far as they go, and the offsets have the same sum in 64 bits, each truncated to 32 bits.  If no offset is too large for that, the pointers are the same whenever those at the start are.  They get the same number, and the functions stay in step, if both sequences have a second computation or if the longer one begins with a GEP by zeros.  Otherwise (one computation against several) the functions get out of step and what follows is found different; an offset too large for 32 bits is taken for another one; and the pointers between the computations get the same number although they have different offsets, so that loads from them are found equal.", "quantifier": "every pair of sequences of instructions, pair of functions and state of a comparison", "why_tests_cant": "sequences of any length with any offsets", "anchors": ["diffkemp/simpll/DifferentialFunctionComparator.cpp::DifferentialFunctionComparator::cmpFieldAccess", "diffkemp/simpll/DifferentialFunctionComparator.cpp::DifferentialFunctionComparator::cmpBasicBlocks", "diffkemp/simpll/FieldAccessUtils.cpp::isConstantMemoryAccessToPtr"]}
{"id": "C121", "title": "Calls that differ for changed structures or one more argument", "statement": "Calls whose comparison fails are yet found equal only if both call the same function and, with changed structures allowed, it is an allocator and the sizes are equal or those of structures of the same name, or it sets memory and all but such a size is equal, or, if only the control flow is compared, one call has one more argument that is zero and the others are equal.  For a comparison of values that depends on the values only they are found equal in each of these cases.  The flags of allocations are not compared.  If the second version has the additional argument, the others are compared with the sides exchanged, so that any two values not known on the other side are found equal: f(x) and f(y, 0) are.", "quantifier": "every pair of calls, comparison of values and state", "why_tests_cant": "any functions, operands and structures", "anchors": ["diffkemp/simpll/DifferentialFunctionComparator.cpp::DifferentialFunctionComparator::cmpOperations", "diffkemp/simpll/DifferentialFunctionComparator.cpp::DifferentialFunctionComparator::cmpAllocs", "diffkemp/simpll/DifferentialFunctionComparator.cpp::DifferentialFunctionComparator::cmpMemset", "diffkemp/simpll/DifferentialFunctionComparator.cpp::DifferentialFunctionComparator::cmpCallsWithExtraArg", "diffkemp/simpll/DifferentialFunctionComparator.cpp::DifferentialFunctionComparator::cmpIntWithConstant", "diffkemp/simpll/Utils.cpp::isAllocFunction"]}
{"id": "C122", "title": "Which types are equal", "statement": "Two types are found equal exactly if they have the same structure but for the names of structures, where a pointer may be an integer of its width, a union (with StructAlignment) is equal to all that is not larger, and (with TypeCasts) the lengths of arrays and the widths of integers, but for i1, do not matter.  A type is always equal to itself, without StructAlignment the order of the versions does not matter, and without both patterns types are equal if and only if no function of the structure (size, alignment, ...) differs, so this is an equivalence.  With StructAlignment the order matters, and with either pattern two types may be equal to a third but not to each other.", "quantifier": "every pair of types, setting of the patterns, width of pointers and sizes of types", "why_tests_cant": "types of any nesting", "anchors": ["diffkemp/simpll/DifferentialFunctionComparator.cpp::DifferentialFunctionComparator::cmpTypes", "diffkemp/simpll/llvm-lib/15/FunctionComparator.cpp::FunctionComparator::cmpTypes"]}
{"id": "C123", "title": "Which constants are equal", "statement": "The comparison of constants ends for all finite modules, also if constant variables refer to each other in circles, and finds two constants equal exactly if some relation of global variables, under which related constant variables have equal initialisers and others the same name, makes them equal.  Numbers are equal if width and value are, or with TypeCasts if the values are.  Without patterns, what is read from equal constants in the same way, through elements and initialisers of constant variables, is equal, so numbers are the same.  What an expression does with its operands is not compared; a constant variable is equal to one of the same name that may change; with TypeCasts -1 of different widths differs and arrays with the same bytes are equal.", "quantifier": "every pair of constants and of modules with any constant variables, every outcome for names and sizes", "why_tests_cant": "constants of any nesting, circles of any length", "anchors": ["diffkemp/simpll/DifferentialFunctionComparator.cpp::DifferentialFunctionComparator::cmpConstants", "diffkemp/simpll/DifferentialFunctionComparator.cpp::DifferentialFunctionComparator::cmpGlobalValues", "diffkemp/simpll/DifferentialFunctionComparator.cpp::DifferentialFunctionComparator::cmpAPInts", "diffkemp/simpll/llvm-lib/15/FunctionComparator.cpp::FunctionComparator::cmpConstants"]}
{"id": "C124", "title": "Which source files get into a snapshot", "statement": "If the modules and the sources they name are in the source directory and none is in the output directory, then after the copying every .c and .h file that debug information names by a path beginning with the source directory is at the same relative place in the output directory (a file that was there is kept), every module is there with the moved text and the same relative path, and all other files are as before; this works whenever all these files exist, and fails if one of them is missing.  Making the output directory removes what was in it and nothing else.  But a path that only begins with the same characters is copied to outside of the output directory, files named by relative paths are not copied, and with the source directory as output the sources are lost.", "quantifier": "every file system, list of modules, order of a set and pair of directories", "why_tests_cant": "any number of modules, files and directories", "anchors": ["diffkemp/llvm_ir/source_tree.py::SourceTree.copy_source_files", "diffkemp/llvm_ir/llvm_module.py::LlvmModule.move_to_other_root_dir", "diffkemp/snapshot.py::Snapshot.create_from_source"]}
{"id": "C125", "title": "What is changed in the modules of a snapshot", "statement": "The text of a copied module is the old one with all occurrences of the path of the source directory, without its first slash, replaced by that of the output directory, from left to right, in all lines without the word constant; there is one such text, a text without the path stays as it is, and a line with one path names the one in the output directory afterwards.  As text is replaced, names of values and paths elsewhere are changed, too, if they contain that path, and paths in lines that happen to contain the word are not.", "quantifier": "every text and pair of directories", "why_tests_cant": "texts with any number of lines and occurrences", "anchors": ["diffkemp/llvm_ir/llvm_module.py::LlvmModule.move_to_other_root_dir"]}
{"id": "C126", "title": "Which sources a module is found to include", "statement": "The sources found for a module are exactly the .c and .h files that are the first ones named with their directory in a line of its text, each once, joined with the directory.  Files of other kinds are not found, nor is a second file of a line.", "quantifier": "every text", "why_tests_cant": "texts of any length", "anchors": ["diffkemp/llvm_ir/llvm_module.py::LlvmModule.get_included_sources"]}
{"id": "C127", "title": "Which functions are found to use a parameter", "statement": "The functions found to use a module parameter are exactly those with an instruction that has the variable as an operand, directly or as an operand of a constant expression, and passes the check of indices, each once, without those whose name contains .old.  The check of indices never compares those that are given: if no access has more indices than the list, or the list is empty, all functions using the variable are found whatever the indices, and otherwise what lies in memory behind the list decides.  So functions using other fields of the variable are found, and functions using it in nested expressions are not.", "quantifier": "every module, variable, list of indices and content of memory", "why_tests_cant": "any number of functions, instructions and operands", "anchors": ["diffkemp/simpll/library/DiffKempUtils.cpp::getFunctionsUsingParam", "diffkemp/simpll/library/DiffKempUtils.cpp::checkGEPIndicesCorrespond"]}
{"id": "C128", "title": "Which variable a module parameter stands for", "statement": "What is found for a parameter is where the pointer at the end of the variable __param_NAME leads: through first operands of expressions and, for wrappers of arrays and strings, last elements of their initial values; it leads to one variable at most, parameters of all three kinds of the kernel give their variable, the search ends unless wrappers are made of themselves, and without __param_NAME nothing is found.  But a variable of the module whose own name contains that of a wrapper is taken for one, and a parameter that is only declared makes the search use a value that is not there.", "quantifier": "every module and parameter", "why_tests_cant": "initial values of any nesting, chains of wrappers of any length", "anchors": ["diffkemp/simpll/library/DiffKempUtils.cpp::findParamVar", "diffkemp/simpll/library/DiffKempUtils.cpp::extractParamName", "diffkemp/simpll/library/FFI.cpp::findParamVarC"]}
{"id": "C129", "title": "What the log of a comparison shows", "statement": "If every comparison that is begun in the log is also ended, the log shows, in order and indented by their nesting, exactly the comparisons that found a difference and were only made for comparisons that found one; with all debugging output also those of interest, if all around them found a difference or are of interest, too.  Two places of the comparison return without ending what they began; from then on nothing is shown.", "quantifier": "every sequence of nested comparisons with every outcome", "why_tests_cant": "comparisons of any number and nesting", "anchors": ["diffkemp/simpll/Logger.cpp::Logger::log", "diffkemp/simpll/Logger.cpp::Logger::dump", "diffkemp/simpll/Logger.cpp::Logger::prepLog", "diffkemp/simpll/DifferentialFunctionComparator.cpp::DifferentialFunctionComparator::cmpGEPs", "diffkemp/simpll/DifferentialFunctionComparator.cpp::DifferentialFunctionComparator::cmpGlobalValues"]}
{"id": "C130", "title": "Which structures are found in debug information", "statement": "The structures found are, by name, exactly the named structures that retained types and types of global variables of any compile unit are made of, through base types and elements; each name is given a structure of that name, and the search ends also for types made of themselves.  The structures of a size are exactly those that have it.  But of several structures of one name a declaration without members may be the one that is found, and structures only used by types of functions are not found.", "quantifier": "every graph of types, list of compile units and list of structures", "why_tests_cant": "graphs of any size with any circles", "anchors": ["diffkemp/simpll/passes/StructureDebugInfoAnalysis.cpp::StructureDebugInfoAnalysis::run", "diffkemp/simpll/passes/StructureSizeAnalysis.cpp::StructureSizeAnalysis::run"]}
{"id": "C131", "title": "How anonymous structures are named", "statement": "Structures whose names do not begin like those of anonymous ones or that are only declared keep their names, and names stay different.  An anonymous structure or union without anonymous ones in it gets a name made from its kind and declaration, with a suffix if that is taken: if the hash tells declarations apart, structures of both versions with different declarations have different names, and those of the same kind and declaration the same one if no others in their modules are declared alike.  But anonymous structures in anonymous structures get names from the old numbers of the inner ones, of two declared alike one gets another name, and structures like anon_vma that the program named are renamed, too.", "quantifier": "every list of structures, names, hash and choice of fresh names", "why_tests_cant": "any number of structures and members", "anchors": ["diffkemp/simpll/passes/StructHashGeneratorPass.cpp::StructHashGeneratorPass::run"]}
{"id": "C132", "title": "How the call stacks of a difference are arranged", "statement": "The viewer's arrangement of the old and the new call stack of a difference always ends.  If it is shown, the left side has the compared function and all old calls in their order, the right side the compared function and the first new calls in their order; calls that share a row are the old and the new version of one function, by the names in the definitions, or the last calls, and among calls that are grouped none corresponds to another.  If the last calls correspond to no other calls, both call stacks are shown completely.  Otherwise new calls may be missing at the end, or the viewer reads the name of a call that is not there and shows nothing.", "quantifier": "every pair of call stacks and renaming of functions", "why_tests_cant": "call stacks of any length with any repetitions", "anchors": ["view/src/components/Callstack.jsx::Callstack"]}
{"id": "C133", "title": "What the lists of functions show", "statement": "The lists of compared and of differing functions show every function once per place in the list and in its order, over four columns; the last label before a function is its letter, every label has a function, and labels do not repeat if functions with one letter follow each other.  No column is longer than 20 entries or a quarter of all (rounded up), and a column has entries only if the one before is full.  If functions with one letter do not follow each other, labels repeat.", "quantifier": "every list of functions and assignment of letters", "why_tests_cant": "lists of any length", "anchors": ["view/src/components/FunctionListing.jsx::FunctionListing"]}
{"id": "C134", "title": "Where navigation in the viewer leads", "statement": "Whatever possible clicks a user makes from the start page, the page shown is a difference of the report with the compared and the differing function of the location, or a list with exactly the functions that belong there, and never fails.  Every difference is reached by choosing its compared and then its differing function; from each difference of a compared function the arrows lead to each later one and lead back; the arrow to the next compared function goes to it and to its first difference.  But going to the next compared function and back may end at another difference.", "quantifier": "every report without repetitions, order of names and sequence of possible clicks", "why_tests_cant": "sequences of clicks of any length, reports of any size", "anchors": ["view/src/components/ResultViewer.jsx::ResultViewer", "view/src/components/ResultNavigation.jsx::ResultNavigation"]}
{"id": "C135", "title": "Which code and lines of a difference are shown", "statement": "A difference first shows the last function of its old call stack, or the compared function.  For a symbol, with or without its kind, the files and lines of its definition are shown, or a message if there is no definition or no last line.  Highlighted are the lines of the calls that follow the function in both call stacks, for the compared function those of the first calls; the last function of the old call stack has no highlighted lines, if it is not on it earlier.  But for a renamed function the new line is that of the first new call, for a new name no definition is found, a recursive differing function is shown with calls instead of its differences, and going from one difference to another whose names joined together read the same keeps showing the function of the first.", "quantifier": "every report, difference, function and earlier choice of the user", "why_tests_cant": "call stacks and histories of choices of any length", "anchors": ["view/src/components/Difference.jsx::Difference", "view/src/components/ResultViewer.jsx::ResultViewer"]}
{"id": "C136", "title": "SimpLL's results arrive in the tool", "statement": "Whenever SimpLL finishes comparing two functions, the tool reads its report without an error.  Every entry it then has is the result of a pair of functions, with that pair's names, verdict, differing objects, files, lines and statistics, and with all its calls in the order of their names; a line 0 is no line.  Every pair has an entry, which is its own unless another pair has the same key.  The missing definitions are the ones found, by their names.  This rests on calls being noted for both functions or for none: with calls on one side only the report would be refused or lose them.", "quantifier": "every pair of modules and functions, outcome of the comparison and earlier contents of the tool", "why_tests_cant": "reports of any size, from comparisons of any depth", "anchors": ["diffkemp/simpll/Output.cpp::reportOutputToString", "diffkemp/simpll/Result.h::FunctionInfo::addCall", "diffkemp/semdiff/caching.py::ComparisonGraph.Vertex.from_yaml", "diffkemp/simpll/simpll.py::run_simpll"]}
{"id": "C137", "title": "When a report fits", "statement": "A report of fewer than 1000000 bytes is read by the tool as SimpLL wrote it, and no memory outside of the tool's buffer changes.  A longer report is not read as it was, and all its bytes are written, over whatever is behind the buffer.", "quantifier": "every text without zero bytes, memory and address", "why_tests_cant": "texts of any length", "anchors": ["diffkemp/simpll/library/FFI.cpp::runSimpLL", "diffkemp/simpll/simpll.py::run_simpll"]}
{"id": "C138", "title": "Which definitions are found in the text of a module", "statement": "In the text that LLVM writes for a module, a function whose name has only letters, digits, underscores and hyphens is found exactly if the module defines it (declarations and calls are not taken for definitions), and a global variable with such a name exactly if the module has it.  A name with dots is also found if a name that differs from it only at its dots is defined.  A function whose name contains a dollar sign is never found.  So it is refuted that only what is defined is found and that all that is defined is found.", "quantifier": "every text of a module and every name", "why_tests_cant": "texts and names of any length", "anchors": ["diffkemp/llvm_ir/llvm_module.py::LlvmModule.has_function", "diffkemp/llvm_ir/llvm_module.py::LlvmModule.has_global"]}
{"id": "C139", "title": "Calls of functions through casts", "statement": "Taking casts out of calls does not change what a function does: in any state the run of the function has the same calls with the same arguments and goes through the same blocks, for any number of blocks run.  The casted calls that stay are exactly those with fewer arguments than the function has parameters and those that use a result that the called function does not have.  Every other call of a casted function calls the function itself, with its arguments and its result casted where the types differ.  It is refuted that only casts that LLVM allows are inserted: a call that ignores the result of its function gets a cast to the type without values, and values of different sizes are casted.", "quantifier": "every function with calls, every state and number of steps", "why_tests_cant": "functions with any number of blocks, calls and arguments", "anchors": ["diffkemp/simpll/passes/SeparateCallsToBitcastPass.cpp::SeparateCallsToBitcastPass::run"]}
{"id": "C140", "title": "Arguments of calls compared by their source", "statement": "Arguments that differ are taken for equal because of their source exactly if both are the same one of five macros of the compiler (the line, the file, the counter, date and time), or both are sizeof of something and constant numbers, and either the structures of these sizes (as 32-bit numbers) are those of the same names in both modules, or the types of what is in the brackets have the same name; the type of a name with stars and ampersands is that of C if no local variable has the name of a global one and there are no typedefs and qualifiers.  After such an argument, neither the arguments behind it nor the called functions are compared.  It is refuted that only the sizes of the same type are taken for equal: factors behind the brackets, arrays (whose types have no names), other structures of the same sizes and hidden variables are not told apart; and that calls found equal agree in all other arguments.", "quantifier": "every pair of calls, argument, source, debug info and set of structures", "why_tests_cant": "texts of any length, any number of variables, structures and arguments", "anchors": ["diffkemp/simpll/DifferentialFunctionComparator.cpp::DifferentialFunctionComparator::cmpCallArgumentUsingCSource", "diffkemp/simpll/DifferentialFunctionComparator.cpp::mayIgnoreMacro", "diffkemp/simpll/Utils.cpp::getCSourceIdentifierType", "diffkemp/simpll/DifferentialFunctionComparator.cpp::DifferentialFunctionComparator::cmpOperationsWithOperands"]}
{"id": "C141", "title": "Types recorded as reasons of a difference", "statement": "When instructions differ, the start of an access to fields is found exactly where GEPs and casts lead to it, and the types taken are those of instructions of the access, and all of them up to the end of the block if no result in it is used twice by GEPs and casts.  Recorded as reasons are exactly the structures that have the same name up to a number, differ, stand at the same place of both accesses and have debug info under the name used in the first module; with the files and the lines before those of the debug info.  It is refuted that every differing structure is recorded (not if its name in the first module has a number, and not if another access has the same start), that it is recorded once, that the search always ends and that it does not crash in functions without debug info.", "quantifier": "every pair of functions and instructions, comparison of types and debug info", "why_tests_cant": "functions and accesses of any length", "anchors": ["diffkemp/simpll/DifferentialFunctionComparator.cpp::DifferentialFunctionComparator::findDifference", "diffkemp/simpll/DifferentialFunctionComparator.cpp::DifferentialFunctionComparator::findTypeDifferences", "diffkemp/simpll/FieldAccessUtils.cpp::getFieldAccessStart", "diffkemp/simpll/FieldAccessUtils.cpp::getFieldAccessSourceTypes"]}
{"id": "C142", "title": "Macros and assembly code recorded as reasons of a difference", "statement": "When instructions differ, a function that became a macro (or was one) is recorded exactly if the lines are known and the same and the called function is a macro in the line of the other version only, and then just this call is to be inlined; otherwise both calls are, if both call functions of the program.  Assembly code is recorded exactly if both call some and its text differs, with the arguments, and in the comparison of all functions no two of these get the same name.  What was recorded before stays, and all that is added belongs to the first function.  It crashes exactly for calls of unknown functions, for assembly code that differs in functions without debug info and where the search for types does.  It is refuted that assembly code with other arguments is recorded and that both of two functions are if each is a macro of the other version.", "quantifier": "every pair of instructions and functions, set of macros, and history of comparisons", "why_tests_cant": "histories of any length", "anchors": ["diffkemp/simpll/DifferentialFunctionComparator.cpp::DifferentialFunctionComparator::findDifference", "diffkemp/simpll/DifferentialFunctionComparator.cpp::DifferentialFunctionComparator::findMacroFunctionDifference", "diffkemp/simpll/DifferentialFunctionComparator.cpp::DifferentialFunctionComparator::findAsmDifference", "diffkemp/simpll/DifferentialFunctionComparator.cpp::DifferentialFunctionComparator::processCallInstDifference"]}
{"id": "C143", "title": "The semantic tool in any order of events", "statement": "Whatever the order in which llreve, z3, the timer and DiffKemp itself act, the comparison ends after a bounded number of steps with a result: a timeout exactly if the timer fired before DiffKemp looked at it, and otherwise the last answer in the complete output of z3, or an error if z3 failed or gave none; equal only if z3 ended normally with unsat as its last answer.  Exactly the functions called in both modules are coupled, but the compared ones and debug functions.  It is refuted that every answer counts: output that does not fit into a pipe always ends in a timeout, and the timer may fire after the answer was read; that no process is left (llreve may be); and a name that is no function ends with an error nobody handles.", "quantifier": "every order of events, output of both tools, exit code and size of pipes", "why_tests_cant": "all schedules", "anchors": ["diffkemp/semdiff/function_diff.py::_run_llreve_z3", "diffkemp/semdiff/function_diff.py::functions_semdiff", "diffkemp/llvm_ir/llvm_module.py::LlvmModule.get_functions_called_by"]}
{"id": "C144", "title": "Names of the arguments of assembly code", "statement": "Arguments of assembly code that are expressions of names, arguments of the function, constants, casts, loads, fields and elements of arrays are shown as they are written in C.  It is refuted that only these are shown correctly: an instruction without a name is shown as its last operand if that is an argument, elements of what a named pointer points to lose three letters of the name (so different pointers look the same) or throw for a name of one letter, fields of structures in structures have the names of fields of the outer one, an index that is no constant in a structure and functions without debug info crash, elements of arrays of structures are shown as fields, and fields of what pointers to pointers point to are not shown as in C.", "quantifier": "every value and function", "why_tests_cant": "expressions of any depth", "anchors": ["diffkemp/simpll/Utils.cpp::getIdentifierForValue", "diffkemp/simpll/Utils.cpp::getIdentifierForType"]}
{"id": "C145", "title": "Which snapshots are compared", "statement": "A comparison starts exactly if both snapshots can be read and were made with the version of LLVM in use, the function asked for is in the unnamed group of both, custom patterns can be read and the semantic tool asked for is built; compared are then the functions of the snapshots, of the unnamed group only the one asked for.  An old snapshot that can be read but is of another version stops the run with the exit code EINVAL.  Differences are shown unless --no-show-diff is given without --show-diff, and -v has the same effect however often it is given.", "quantifier": "every state of the disk and all arguments", "why_tests_cant": "all inputs", "anchors": ["diffkemp/config.py::Config.from_args", "diffkemp/snapshot.py::Snapshot.load_from_dir", "diffkemp/snapshot.py::Snapshot._from_yaml", "diffkemp/cli.py::run_from_cli"]}
{"id": "C146", "title": "What a comparison leaves behind", "statement": "However a comparison ends, compiler headers are only written in the directories of kernel snapshots and their sources, and lists of functions only in those of snapshots made with the compiler wrapper; a run refused because of its output directory writes nothing.  After any history of runs that ended in any way, a comparison that reaches its end restores the headers of both snapshots and their sources, also if they share them, if the headers had no replacement texts at first.  It is refuted that a run that is stopped leaves the headers as they were (another version of LLVM is enough), and that lists of functions in the sources are kept: they are replaced by those of the snapshot.", "quantifier": "every history of runs with any versions, snapshots and arguments", "why_tests_cant": "all histories and points of failure", "anchors": ["diffkemp/diffkemp.py::compare", "diffkemp/snapshot.py::Snapshot.finalize", "diffkemp/llvm_ir/source_tree.py::SourceTree.clone_to_dir", "diffkemp/llvm_ir/wrapper_build_finder.py::WrapperBuildFinder.initialize", "diffkemp/llvm_ir/kernel_llvm_source_builder.py::KernelLlvmSourceBuilder.finalize"]}
{"id": "C147", "title": "Modules kept in memory do not change results", "statement": "After any earlier comparisons, also ones that died, a comparison has the outcome it would have on its own (if the files of modules kept in memory do not change).  For functions without a variable and two different module files, the answers are the same with the library and the program, whichever modules are kept in memory.  With a variable, modules kept in memory are sliced after the other simplifications and other modules before them; it is refuted that this never changes the answer.  A module file compared with itself is one object if it is kept in memory and two objects if not.", "quantifier": "every history of comparisons, all module files, configurations and behaviours of the passes and of the comparison", "why_tests_cant": "all histories, all schedules of crashes", "anchors": ["diffkemp/simpll/simpll.py::run_simpll", "diffkemp/simpll/ModuleAnalysis.cpp::preprocessModule", "diffkemp/simpll/library/FFI.cpp::runSimpLL", "diffkemp/simpll/library/FFI.cpp::parseAndRunSimpLL"]}
{"id": "C148", "title": "A comparison that dies", "statement": "With the SimpLL program, and for modules kept in memory, every comparison has an outcome, however many of them die.  With the library and a module that is not kept in memory, a comparison on which the program would fail (it dies, or a module cannot be read) ends the whole run, and nothing is compared after it; unless a module to be kept in memory cannot be read, which is an error of that comparison only.", "quantifier": "every sequence of comparisons and every set of comparisons that die", "why_tests_cant": "all crash points", "anchors": ["diffkemp/simpll/simpll.py::run_simpll", "diffkemp/semdiff/function_diff.py::functions_diff", "diffkemp/simpll/library.py::SimpLLModule", "diffkemp/simpll/library/FFI.cpp::loadModule"]}
{"id": "C149", "title": "Modules are prepared once", "statement": "Over any sequence of preparations of a module, the passes asked for by the configuration are run on every function, in their order and function by function, then the passes on the module; once, at the first preparation.  The slicing by a variable is done at every preparation that asks for it, at the first one before the passes.", "quantifier": "every sequence of preparations, all configurations and functions", "why_tests_cant": "all histories", "anchors": ["diffkemp/simpll/ModuleAnalysis.cpp::preprocessModule", "diffkemp/simpll/library/FFI.cpp::preprocessModuleC"]}
{"id": "C150", "title": "Shown code belongs to the function asked for", "statement": "In whatever order files arrive and functions are chosen, code shown by the viewer is the source and the difference of the function asked for last; before its files have come, nothing is shown.  When all files have come it is shown.  Names of compared functions are taken to have no hyphen; it is refuted without that.", "quantifier": "every interleaving of choices, arrivals and failures of files", "why_tests_cant": "all schedules", "anchors": ["view/src/components/Code.jsx::Code", "view/src/components/Difference.jsx::Difference"]}
{"id": "C151", "title": "Which lines of a function are shown", "statement": "Of the lines of a function, the viewer shows those in a hunk of the difference, the first and the last one, and if the function calls the next one of the call stack, all of them or, for more than 25 lines, those at most 10 lines from the call.  Of the lines around the function, those of a hunk that touches it are shown.  The line of the call is always among them.", "quantifier": "all files, functions, differences and calls", "why_tests_cant": "all inputs", "anchors": ["view/src/components/DiffViewWrapper.jsx::DiffViewWrapper"]}
{"id": "C152", "title": "More lines can be shown", "statement": "After any sequence of presses of the buttons that show more lines, lines shown before are still shown and new ones lie between them.  Every line hidden between two shown lines has a button that shows it; when no button is left none is hidden, and this can always be reached.", "quantifier": "all sets of shown lines and all sequences of presses", "why_tests_cant": "all histories", "anchors": ["view/src/components/DiffViewWrapper.jsx::DiffViewWrapper"]}
{"id": "C153", "title": "Which kernel sources are searched", "statement": "The index of kernel sources has exactly the files that are no symbolic links, end in .c, .h, .x, .s or .S, and are in a directory whose path contains none of /Documentation/, /scripts/ and /tmp.  So files right in Documentation or scripts are searched, and of a kernel with /tmp in its own path nothing is.", "quantifier": "all source trees and source directories", "why_tests_cant": "all inputs", "anchors": ["diffkemp/llvm_ir/kernel_llvm_source_builder.py::KernelLlvmSourceBuilder._build_cscope_database"]}
{"id": "C154", "title": "The index of kernel sources is made once", "statement": "Unless the tool is killed, all searches of all later runs answer with the C files found in the index made at the first search at which it could be made, for the sources as they were then; changed sources are not indexed again.  Before that, a search that cannot make the index fails and leaves none behind.", "quantifier": "every history of searches, restarts, changes of sources and failures of cscope", "why_tests_cant": "all histories", "anchors": ["diffkemp/llvm_ir/kernel_llvm_source_builder.py::KernelLlvmSourceBuilder._cscope_run", "diffkemp/llvm_ir/kernel_llvm_source_builder.py::KernelLlvmSourceBuilder._build_cscope_database"]}
{"id": "C155", "title": "A killed search leaves a useless index", "statement": "If the tool is killed while it makes the index, at whatever point, no search of any later run finds anything (as long as the list of files is not removed by hand), and no error is reported.", "quantifier": "every crash point and every history before and after it", "why_tests_cant": "all crash points", "anchors": ["diffkemp/llvm_ir/kernel_llvm_source_builder.py::KernelLlvmSourceBuilder._build_cscope_database"]}
{"id": "C156", "title": "Removing empty blocks keeps the runs of a slice", "statement": "Slicing by a variable ends with the removal of blocks: those without predecessors, those that only go on, the first one, and those that cannot be reached.  The function has the same complete runs before and after it (the same values returned and the same memory, and it is stuck or does not end in the same cases), if it still starts with its first block or with a block that the first one only goes on to; that is so if something of the first block is kept.  Otherwise the next block in the text becomes the first even if it was not run before.", "quantifier": "all functions, variables, memories, arguments and meanings of instructions", "why_tests_cant": "all inputs and runs", "anchors": ["diffkemp/simpll/passes/VarDependencySlicer.cpp::VarDependencySlicer::run", "diffkemp/simpll/passes/VarDependencySlicer.cpp::VarDependencySlicer::canRemoveBlock", "diffkemp/simpll/passes/VarDependencySlicer.cpp::VarDependencySlicer::canRemoveFirstBlock"]}
{"id": "C157", "title": "What is left of a slice when blocks are removed", "statement": "All blocks that are left can be reached from the first and have the instructions they had in the slice, in the same order (targets, incoming values and values that became undefined aside); PHI nodes have a value for each edge, and none for edges that are not there if that was so before.  What depends on the variable and can be reached in the slice is left, if the function starts as said in the property before.", "quantifier": "all functions and variables", "why_tests_cant": "all inputs", "anchors": ["diffkemp/simpll/passes/VarDependencySlicer.cpp::VarDependencySlicer::deleteUnreachableBlocks", "diffkemp/simpll/passes/VarDependencySlicer.cpp::VarDependencySlicer::run"]}
{"id": "C158", "title": "Functions whose return value is sliced away", "statement": "A function becomes one that returns nothing exactly if it returned something, is not used in its module and its return is not kept in the slice; then it runs as the slice does, except that nothing is returned, and the old function stays beside it.  Empty blocks are removed from the old one, not from the new one.  Slicing gives a function if something of it is kept; a function of one block that does not use the variable loses this block, and slicing then fails.", "quantifier": "all functions, variables and runs", "why_tests_cant": "all inputs and runs", "anchors": ["diffkemp/simpll/passes/VarDependencySlicer.cpp::VarDependencySlicer::changeToVoid", "diffkemp/simpll/passes/VarDependencySlicer.cpp::VarDependencySlicer::run"]}
{"id": "C159", "title": "What a slice reads from local variables", "statement": "If an instruction of the slice by a variable uses a local variable, the stores to it and calls with its address, or with an address computed from it, that may be executed after the local variable is made and before the use are kept as well, and so on with what these are computed from.  This holds for what depends on the variable in functions without loops (see the properties before), and for what is computed from the variable by operands in any function; PHI nodes and what is behind a switch do not count.  Lost are stores behind a switch, stores after the read in a loop, and stores to a part of a local variable that is read through the same address, unless this address is computed right after the variable is made: the slice then does the calls that depend on the variable with other values.", "quantifier": "all functions, variables, answers about reachability and ways through the function", "why_tests_cant": "all inputs and runs", "anchors": ["diffkemp/simpll/passes/VarDependencySlicer.cpp::VarDependencySlicer::addStoresToIncluded", "diffkemp/simpll/passes/VarDependencySlicer.cpp::VarDependencySlicer::addAllOpsToIncluded"]}
{"id": "C160", "title": "The kernel symbol table is not compared", "statement": "Before the comparison, the variables of the kernel symbol table (those with a name that starts with __ksym) are removed from a module, and their entries from the list of used variables.  Nothing refers to them any more; all other variables and functions stay in their order, with null pointers in the place of references to what was removed, and the list of used variables keeps its other entries, or goes if there are none.  Two modules that differ only in the symbols they export become the same.  This works if every symbol has a value that refers to something of its own (the text of its name); it fails for a symbol that is only declared, for a list of used variables without elements, and for two symbols with the same structure as their value.  Functions that use different variables with such names become the same.", "quantifier": "all modules with unique names of variables, all values of variables", "why_tests_cant": "all inputs", "anchors": ["diffkemp/simpll/passes/SimplifyKernelGlobalsPass.cpp::SimplifyKernelGlobalsPass::run"]}
{"id": "C161", "title": "Two instructions are the same", "statement": "Without their operands, two instructions are the same iff they have the same opcode, alike types of the result and of the operands, the same flags, and the same properties that belong to the kind of instruction: allocated type and alignment, volatility, order and scope of accesses, ranges of values, predicates, calling convention, bundles of operands and tail calls, indices, masks and atomic operations; equal sizes are needed everywhere before elements are compared.  Attributes of calls and other metadata do not count, nor does the alignment of atomic operations or the cleanup of landing pads.  The built-in patterns add: comparisons of integers that differ only in their sign (of whatever type), and local variables of structures of the same name with the same alignment (also if both have none).  Assemblies are the same iff code, constraints and flags are, floating-point numbers iff format and bits are.  Which version comes first does not matter.", "quantifier": "all pairs of instructions except for address computations and PHI nodes, and all settings of the patterns", "why_tests_cant": "all inputs", "anchors": ["diffkemp/simpll/llvm-lib/15/FunctionComparator.cpp::FunctionComparator::cmpOperations", "diffkemp/simpll/llvm-lib/15/FunctionComparator.cpp::FunctionComparator::cmpRangeMetadata", "diffkemp/simpll/llvm-lib/15/FunctionComparator.cpp::FunctionComparator::cmpOperandBundlesSchema", "diffkemp/simpll/llvm-lib/15/FunctionComparator.cpp::FunctionComparator::cmpInlineAsm", "diffkemp/simpll/DifferentialFunctionComparator.cpp::DifferentialFunctionComparator::cmpOperations"]}
{"id": "C162", "title": "The custom patterns that were accepted are used", "statement": "The file given for custom patterns is read twice, once when it is checked and once when patterns are loaded for a comparison.  If it is accepted, then a file that ends in .ll is loaded; of a configuration all listed files are loaded, in order, if it has no other keys and warnings were not chosen for failures; with warnings exactly those listed files are loaded that are LLVM IR, also if they were said not to be supported.  Nothing is loaded, without an error, of a file whose extension .ll has capitals, and of a configuration with another key, though both are accepted.", "quantifier": "all files, paths and configurations", "why_tests_cant": "all inputs", "anchors": ["diffkemp/simpll/CustomPatternSet.cpp::CustomPatternSet::CustomPatternSet", "diffkemp/simpll/CustomPatternSet.cpp::CustomPatternSet::addPatternsFromConfig", "diffkemp/semdiff/custom_pattern_config.py::CustomPatternConfig.create_from_file"]}
{"id": "C163", "title": "Python objects keep the LLVM modules they work with", "statement": "In every history of loading modules, asking modules, functions and sysctl tables, taking and dropping references, and garbage collection at any time, each operation works with exactly the module its object was loaded or taken from, and never with freed memory, also when addresses are used again.  A module is freed at most once, with its context still there, not before the last reference to it, to a function or to a table of it is gone, and it can always be freed then; nothing stays in the maps of modules, contexts and tables.  Module objects in use are equal only if they are the same.  Two things are not so: a function object can refer to a function that the preparation of its module erased, and the index arrays of the child and the data of a sysctl are never freed.", "quantifier": "all histories of operations of the Python interface, all allocators, all moments of garbage collection", "why_tests_cant": "all histories", "anchors": ["diffkemp/simpll/library.py::SimpLLModule", "diffkemp/simpll/library.py::SimpLLFunction", "diffkemp/simpll/library.py::SimpLLSysctlTable", "diffkemp/simpll/library/FFI.cpp::loadModule", "diffkemp/simpll/library/FFI.cpp::freeModule"]}
{"id": "C164", "title": "Comparing all modules that use a global variable", "statement": "The verdict about a variable is NOT_EQUAL for different names; else it is the most severe of: NOT_EQUAL for each source that uses the variable in the first version only, ERROR for each source that cannot be built, and the verdict about each function that uses the variable in both modules of a source; NONE if there are none of these.  EQUAL is said only if no source is missing in the second version, all were built and all compared functions are equal.  Each shown verdict is one of these, and each name is shown.  Not reported are: sources and functions that use the variable in the second version only, functions that use it in the first version only, the error of modules one of which lacks the definition of a function (and the functions after it), and all but the last verdict about functions of the same name.", "quantifier": "all sources, modules, functions and verdicts about functions", "why_tests_cant": "all inputs", "anchors": ["diffkemp/semdiff/module_diff.py::diff_all_modules_using_global", "diffkemp/semdiff/module_diff.py::modules_diff"]}
{"id": "C165", "title": "Replaced calls and functions keep their properties", "statement": "A call that replaces another one has its calling convention and location, and is a tail call exactly if the other may or must be one.  Unless it becomes void it has all attributes; if it becomes void, it has exactly the other attributes of the call and the value that a void call can have, and those of the first argument.  A function that replaces another one with as many arguments has all its attributes, its debug information and the names of its arguments.  Lost are the attributes of all arguments but the first when a call becomes void, and that a call must or must not be a tail call; and void variants of functions keep attributes that void functions cannot have.", "quantifier": "all calls, functions, attributes and places of attributes", "why_tests_cant": "all inputs", "anchors": ["diffkemp/simpll/Utils.cpp::copyCallInstProperties", "diffkemp/simpll/Utils.cpp::copyFunctionProperties", "diffkemp/simpll/Utils.cpp::cleanAttributeList"]}
