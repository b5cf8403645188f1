# DESIGN: a machine-checked model of diffkemp (Rocq / Coq 8.16.1)

## 1. Layout

`rocq/theories/` is split by area. An area `X` has

* `X_Model.v`  – executable, total Gallina definitions; each cites the file and lines of `/repo` it
  models and says where it simplifies;
* `X_Spec.v`   – the specification: relations and predicates that describe the English property and do
  not use the functions of the model. Data types are shared with the model, as are the operations of
  `PyBase.v` on dictionaries and strings;
* `X_Proofs.v` – lemmas;
* `X_Props.v`  – the property theorems `Cnn_...`, each with the English claim above it,
  `Print Assumptions` below it, and `Example`s showing that concrete, non-trivial cases meet the
  hypotheses.

`PyBase.v` models the Python run-time pieces used everywhere: exceptions as values (`exn`, `res`),
insertion-ordered dictionaries, string methods. `Path_Model.v` models `os.path`. `Text_Spec.v` and
`Text_Props.v` (C92) pin the elementary functions on characters, numbers and paths that some
specifications mention.

Names: `Cnn_x` proves (part of) property `Cnn`. `Cnn_x_refuted` is a machine-checked witness that a
naturally expected stronger claim is false of the code; the statement of the property in
`properties.jsonl` is then worded so that it is true of the code and mentions the exception.
`Cnn_x_partial` would prove part of a property; there is none at the moment.

## 2. Method

* The code is modelled function by function as Gallina functions over states. Python exceptions and C++
  crashes are values (`Err e`, `None`), so "does not fail" is a theorem, not a typing artefact.
* Loops are structural recursions or folds. Loops whose end is not structural take fuel; the theorems
  exclude running out of it by a termination proof with a measure (graph traversals, linking, inlining,
  replacement loops), or characterise exactly when the loop does not end.
* Everything outside the modelled code is an *oracle*: a parameter (record of functions, or an argument)
  on which the theorems quantify. There are no axioms for it.
* Properties of histories (caches, link state, module tables, kernel builds, queries) are proved for all
  lists of operations by invariants.
* Wrong programs were tried: `seeded/LOG.jsonl` has one line for every attempt, also for edits that went
  unnoticed and for edits that did not compile. `theorems_failed` are the lemmas and theorems that failed
  themselves; `theorems_depending` still check, but only on top of a lemma that failed (the runner admits a
  failed lemma in the scratch copy and goes on); `outcome` says whether the edit was caught, survived, survived
  until a theorem was tightened, or did not compile. Until commit 4cccdfe the log left out three attempts (one
  survivor, two edits that did not compile), did not write survivors, and listed depending theorems as failed.

## 3. Trusted base

* The kernel of Coq 8.16.1 and its standard library as installed. No other library is used.
* `Print Assumptions` says **"Closed under the global context"** for every theorem of every `*_Props.v`
  file (the build prints it after each theorem): no axiom is used, neither own nor of the standard
  library. (Axioms of `Coq.ssr.ssrunder` reported by some tools belong to files the standard library
  loads; no theorem depends on them.)
* No `Admitted`, `admit`, `Axiom`, `Parameter`, functor, module type or switched-off check occurs.
  `Variable`s and `Hypothesis`es occur only inside `Section`s, and are discharged.
* The reading of the Python and C++ sources into Gallina. This is not checked by Coq; the citations beside
  every definition are there so that it can be reviewed. General simplifications:
  * strings are lists of bytes; Python texts are taken as such after decoding (undecodable files are a case
    of their own where files are read); classes of characters are those of ASCII;
  * integers are unbounded (Python) or assumed not to overflow (C++);
  * memory, recursion depth and running time are unlimited, except where the property is about them (C05);
  * the file system is a map or an oracle that nobody else changes during an operation, except where a
    theorem quantifies over what happens in between (C77, C79, C80);
  * Python dictionaries keep insertion order; `std::map`, `std::set` and hash tables are modelled by
    association lists where their order is not observable, and by sorted lists where it is.

## 4. Areas: what is modelled, what is not
### Graph (C01–C14, C57–C60) – `diffkemp/semdiff/caching.py:16-570`, `diffkemp/simpll/simpll.py:166-235`
Modelled: vertices with object identity, dictionaries of vertices and edges, the caches of successors,
breadth-first traversal, weak edges, call stacks by backtracking, `absorb_graph`, `normalize`, predecessor
lists, marking of uncachable functions, the list of objects to compare, construction from SimpLL's YAML.
Not modelled: graph visualisation, YAML parsing itself (the parsed tree is the input).
Method: termination by a lexicographic measure (unvisited vertices, length of the queue); soundness and
completeness by loop invariants; merging by induction over the absorbed dictionary; the exponential family
by induction on its depth.
Findings: the traversal takes exponential time on a family of graphs (C05); a difference may be missed if it
is reached by weak calls only (C03), lost by merging (C09), or if the callee is named differently (C59) or
the result is used elsewhere (C60); normalisation may crash (C12).

### Cache (C15–C18, C61) – `caching.py:573-629`, `diffkemp/simpll/ResultsCache.cpp`
Modelled: file names, contents, update, clearing, and the reader in C++. Not modelled: concurrent access.
Findings: the writer replaces `/` by `$` in another way than the reader expects, so SimpLL never finds a
cached pair (C16); file names with a colon are misread (C17); clearing may fail (C61).

### Result (C19–C22, C55, C56) – `diffkemp/semdiff/result.py`
Modelled: kinds, `add_inner`, verdict, statistics, reading and printing of kinds, symbol listing.
Not modelled: the formatting of the printed statistics.
Findings: C19 (UNKNOWN wins over NOT_EQUAL), C20, C21, C22, C55, C56 `_refuted`.

### Driver (C23–C26, C63, C64) and Module (C45, C46, C62)
`diffkemp/semdiff/function_diff.py`, `diffkemp/llvm_ir/llvm_module.py`, `source_tree.py`,
`llvm_source_finder.py`. Modelled: `functions_diff`, `_link_symbol_def`, the semantic checker and its answers,
module objects with their link state, the cache of modules of a source tree. Oracles: SimpLL, the finder,
`llvm-link`, `opt`, llreve and z3, the clock. Not modelled: the body of `functions_semdiff` beyond its verdict.
Findings: C23, C45, C62, C63, C64 `_refuted`.

### Compare (C27–C31, C67–C69) – `diffkemp/diffkemp.py:213-223, 325-512`
Modelled: the command `compare`: filters, order, groups, module caching, regular expression filter (the
matcher is an oracle), output directories, what is printed and written. Not modelled: argument parsing by
`argparse`, statistics output, profiling.
Findings: C28, C29, C30, C68, C69 `_refuted`.

### Snapshot (C34–C36, C65, C66) – `diffkemp/snapshot.py`, `diffkemp.py:226-322`
Modelled: adding, lookup, filtering, writing and reading of the YAML tree, generation from function and
sysctl lists. Not modelled: the YAML text format, time stamps (for the copying of source files see C124–C126).

### Config (C32, C33, C70, C71) – `config.py`, `cli.py`, `simpll.py:33-163`, `SimpLL.cpp`, `FFI.cpp`, `custom_pattern_config.py`
Modelled: built-in pattern options and their dependences, the two ways they reach SimpLL, custom pattern
files. Not modelled: `argparse`, LLVM's command line library beyond the options used.
Findings: advertised names without effect (C33), C70, C71 `_refuted`.

### Syndiff (C37–C39) – `diffkemp/utils.py:46-79`, `diffkemp/syndiff/function_syntax_diff.py`
Modelled: reading of lines (universal newlines), end of functions, extraction, unified and context
differences with renumbering. Oracle: the program `diff`, constrained by the shape of its output.
Findings: C37–C39 `_refuted` (line zero, numeric lines of context differences are lost).

### Wrapper (C40, C41, C75–C77) – `diffkemp/building/cc_wrapper.py`, `diffkemp.py:44-133`, `llvm_ir/wrapper_build_finder.py`
Modelled: the wrapper's analysis of arguments, both commands, exit status, the data base, the finder,
environment, `config.log` handling. Oracles: gcc, clang, make, the file system, signals.
Findings: C40 (the script hides failures of the compiler), C41, C75, C76, C77 `_refuted`.

### Kernel (C42–C44, C78–C81) – `diffkemp/llvm_ir/kernel_llvm_source_builder.py`, `utils.py:28-46`, `diffkemp.py:160-191`
Modelled: cscope queries with their cache, candidate lists, gcc/ld translation, kernel headers, building of
sources and modules with time stamps, uses. Oracles: cscope, make, clang, opt, llvm-link.
Findings: C42, C43, C44, C79, C80, C81 `_refuted`.

### Output (C47, C48, C72–C74) – `diffkemp/output.py`, `diffkemp.py:515-716`, `view/src/Result.js`
Modelled: the YAML report, printed differences, preparation of the viewer, the index of the viewer.
Not modelled: HTTP server; React components are in the last sections (C132–C135).
Findings: C47, C48, C72, C73, C74 `_refuted`.

### Source (C49–C52, C82–C87) – `diffkemp/simpll/Utils.cpp`, `SourceCodeUtils.cpp`
Modelled: names and suffixes, search and replacement, brackets, arguments, macro tables, macro uses and
differences over histories of queries, source lines of locations, inline assembly, call arguments.
Undefined behaviour (reading past a text, removing from an empty list) is `None`.
Not modelled: LLVM metadata access, the C++ iterator of LLVM's line reader beyond its lines.
Findings: endless expansion (C52), stale macro uses (C84), C49, C51, C82, C83, C85–C87 `_refuted`.

### Sysctl (C53, C88, C89) – `library/SysctlTable.cpp`, `llvm_ir/llvm_sysctl_module.py`, `kernel_source_tree.py`
Modelled: patterns in C++ and Python, tables of constants, lookup with its cache, the hierarchy of tables.
Not modelled: the rest of LLVM's constants. Findings: C53, C88, C89 `_refuted`.

### Modcomp (C54, C90, C91) – `diffkemp/simpll/ModuleComparator.cpp`, `ModuleAnalysis.cpp`, the calls in `DifferentialFunctionComparator.cpp`
Modelled: the table of results, recursion into callees, declarations, the comparison with inlining, erasing
of results, collecting of missing definitions. Oracle: the comparison of two bodies as a tree of questions
about callees (so it may depend on their answers), inlining and simplification of bodies.
Findings (C91): results of inlined functions are erased even if other functions call them, so a difference
may be lost depending on the order of calls; a pair under comparison may be erased, which is a crash;
inlining may not end.

### Funcomp (C93–C101) – `diffkemp/simpll/DifferentialFunctionComparator.cpp`, `llvm-lib/15/FunctionComparator.cpp`, `Utils.cpp`
Modelled: a small LLVM IR (blocks, PHI nodes, branches, memory, calls, casts, GEPs), the numbering of values,
the comparison of values, operations, operands, blocks and PHI nodes, the walk over the blocks, skipped and
replaced instructions, inverse conditions, reordered operations, group variables, ignored casts, relocations.
Oracles: the rest of an instruction (types, flags), constants and globals, arguments compared by the source,
which casts are safe. Fuel bounds the recursion; C93 shows that it does not matter for an answer. `None` is also
undefined behaviour. A ghost log records the exceptions a comparison made; C94 speaks about it.
`Funcomp_Spec.v` has the meaning of functions (small-step over blocks, arbitrary values, memory and operations),
what LLVM's verifier demands, and copies. C94 is a simulation proof over the numbering.
C96 and C97 are about two exceptions by themselves: reordered operations (a chain is what is made of its leaves in
any order), and loads left out (points of a run, `At`; the search backwards gives a region that is entered only
through the replacing instruction; in it no register concerned is defined again, by a dominance argument).
C98 is about inverse conditions, step by step: comparisons, their uses (`feeds`), branches, negations. A whole-program
theorem does not hold (C95). C99 is what does hold for whole functions with every pattern but relocations: calls and
ends of blocks are never left out (an invariant over the walk of the blocks); C100 says in which ways an instruction is left out,
C101 what is compared of relocated code. Not modelled: the walk with custom patterns on (C111–C115 are about each match), the exceptions for changed structures (see Layout and Access), the search for
the source of a difference. Findings: C95 `_refuted`, sixteen ways in which different functions are found equal.

### Slice (C102–C105) – `diffkemp/simpll/passes/ControlFlowSlicer.cpp`, `VarDependencySlicer.cpp`, `Utils.cpp` (hasSideEffect)
Modelled over the IR of Funcomp: side effects with the set of visited functions, the slice by control flow, and the
first, second and fourth phase of the slice by a variable (dependence, branches redirected, operands and stores
included, the rest erased). Oracle: LLVM's test for reachability; the theorems ask that it is exact on the blocks of the
function, and `search_exact` gives one that is. Not modelled: the unification of exits before, the third phase (debug
information), the deletion of empty and unreachable blocks and the change of the return type afterwards.
C102: invariants over the growing set of kept instructions. C103: simulation, block by block. C104: `depends_on` is
defined over the text and the graph of the function; an invariant over the first phase. C105: an invariant over the
redirection of branches, and one over the edges and the incoming values of PHI nodes. Findings: `_refuted`, eleven of them.

### Passes (C106–C110) – `diffkemp/simpll/passes/` (MergeNumberedFunctions, CalledFunctionsAnalysis, FunctionAbstractionsGenerator, RemoveUnusedReturnValues, SimplifyKernelFunctionCalls, UnifyMemcpy, RemoveLifetimeCalls, assertions of SimplifyKernelGlobals)
Modelled over the IR of Funcomp, with modules: functions have an identity, by which they are referred to, a name, a
type, maybe metadata with assembly, and maybe a body. Oracles: the order of a hash table, unique names, new identities,
names of types, types of calls, what is left of the attributes of a call. Not modelled: constant expressions
(except in the analysis of called functions), the simplification of functions without result, alignments of copying,
the variables of SimplifyKernelGlobals (see C160).
`Passes_Spec.v` has the meaning of modules (`does`: calls of functions with a body run it). C106, C109 and C110
combine a description of the new module with simulations between runs (`Passes_Sim.v`; memories and values
correspond up to addresses of merged or new functions). C107: an invariant of the search with two sets, and a measure.
C108: the state of the abstractions only grows; hashes are injective without dollar signs.
Findings: nine `_refuted`, among them that the result of `__memcpy` is replaced by its source.

### Pattern (C111–C115) – `diffkemp/simpll/CustomPatternSet.cpp`, `InstPatternComparator.cpp`, `ValuePatternComparator.cpp`, `CustomPatternComparator.cpp`, and the mapping of matches in `DifferentialFunctionComparator.cpp`
Modelled over the IR of Funcomp: the loading of a module with patterns, the match of one side (numbering of values, inputs, groups,
blocks without conditions, the check of the inputs), the match of both sides, value patterns, and what the comparison does
after a match. Simplified: constants are numbers and globals. Oracles: the comparison of what is not operands, which GEPs
are of structures by name, orders of users. Not modelled: YAML, reading of files, the rest of the comparison between matches.
C111: the folds over the instructions against `marked`, `first_with`, `gives_outputs`. C112: direct. C113: an invariant
(`Inv`) over every step: what is matched is an instance of the pattern under what the inputs stand for, which only grows
(`keeps`); coverage of the first block; a measure for the search of inputs. C114: a simulation – the state is the image of
the numbering of the pattern under the renaming (`agrees`). C115: from C113, and the frame of the maps.
Findings: `_refuted`, eleven: among them that outputs are noted with the sides exchanged and a comparison that does not end.

### Layout (C116–C119) – `diffkemp/simpll/DebugInfo.cpp` (but local variables and types of variables), `DifferentialFunctionComparator.cpp` (`cmpGEPs`, constants of macros), `cmpGEPs` of `llvm-lib/15/FunctionComparator.cpp`
Modelled: members of structures in debug info, their indices and names; types (structures by identity, arrays), GEPs, the walk over the
GEPs of both modules that notes names of members, with the step that adds the next index instead of the present one;
the comparison of GEPs; the collection of constants with values of macros and enumerators and their mapping. Oracles: the
comparison of values and types, offsets of GEPs, whether an index variable is of an enumeration, types by name, the text of numbers,
the first element of a set of pointers. Not modelled: the metadata `idx_align_n`, which nothing reads.
C116: structures as lists of slots (`laid`), by induction over them. C117: an equivalence with `same_access`, which is stated
over paths of indices (`reaches`). C118: an invariant over the walk, with what each index can add (`can_add`); a second one for
completeness. C119: folds over macros. Findings: ten `_refuted`, among them that members with the same index are equal whatever
their names.

### Access (C120–C121) – `DifferentialFunctionComparator.cpp` (`cmpFieldAccess`, the part of `cmpOperations` about calls, `cmpAllocs`, `cmpMemset`, `cmpCallsWithExtraArg`), `FieldAccessUtils.cpp` (`isConstantMemoryAccessToPtr`)
Modelled on the values, instructions and states of Funcomp, with its `cmp_values`; these functions are not part of its walk over
blocks, so C93–C101 are about comparisons without them. Oracles: whether a conversion is to an integer, called functions, debug info of pointers, zero constants,
types. C120: sequences as an inductive relation (`unbroken`), both directions by induction; addresses for any interpretation that
computes them. C121: soundness for any comparison of values with a state, completeness for one without. Findings: truncated offsets,
numbers of pointers in between, functions out of step, flags of allocations, exchanged sides.

### Types (C122–C123) – `DifferentialFunctionComparator.cpp` (`cmpTypes`, `cmpConstants`, `cmpAPInts`, `cmpGlobalValues`), `llvm-lib/15/FunctionComparator.cpp` (`cmpTypes`, `cmpConstants`, `cmpAPInts`, `cmpAPFloats`, `cmpMem`)
Types and constants are trees; only whether the answer is zero is modelled. The names of global values (`same_named`) are an oracle
here: Passes models them for functions. Oracles: sizes of types, widths of vectors, which opcodes are casts. Not modelled: block
addresses, opaque structures, typed pointers. C122: an equivalence with the inductive relation `alike`, and for no patterns with the
agreement of all `structural` functions. C123: comparison with a set of assumed pairs, proved to decide a greatest relation
(`consistent`) by coinduction up to the assumed pairs; the number of steps is bounded by the pairs that are not yet assumed.
Findings: seven `_refuted`, among them that constant expressions are equal whatever they compute.

### Source files of snapshots (C124–C126) – `Copy_Model`, `Copy_Spec`, `Copy_Text`, `Copy_Files`, `Copy_Props`
`copy_source_files`, `move_to_other_root_dir`, `get_included_sources` and the making of the output directory, over a file system that maps the
components of absolute paths to texts. Not modelled: symbolic links, permissions, directories that are files, carriage returns.
C124: induction over the modules with the invariant that nothing outside of the output directory changes; C125: lines and replacement are
characterised by inductive relations with one solution; C126: the regular expression is proved to find the first `Named` place.
Findings: eleven `_refuted`, among them files written outside of the output directory and names of values that are changed.

### Parameters (C127–C128) – `diffkemp/simpll/library/DiffKempUtils.cpp`, `FFI.cpp` (`findParamVarC`)
`getFunctionsUsingParam` from the side of instructions (LLVM's lists of users are those instructions that have the operand), and the walk from
`__param_NAME` to the variable. What is in memory behind the list of indices is an oracle. C127: exact characterisation by `Accepted`; C128: an
inductive relation `Leads` with one result, and termination for chains of wrappers without circles. Findings: six `_refuted`,
the first that indices are never compared.

### Log (C129) – `diffkemp/simpll/Logger.cpp`, `Logger.h`
Comparisons as trees that are begun and ended; the buffer as a stack with erased labels. C129: induction over trees, with a description
(`log_of`, `Logged`) of what a tree prints in a context. Finding: places that begin without ending.

### Structures (C130–C131) – `passes/StructureDebugInfoAnalysis.cpp`, `StructureSizeAnalysis.cpp`, `StructHashGeneratorPass.cpp`
Types of debug info as a graph; the search with fuel and a measure that shows it ends; invariant: what is seen is closed but for the stack.
Names of structures as a map; oracles: the hash and LLVM's fresh names. C131: induction over the structures, names of others stay.
Simplified: the order of types in the module is given. Findings: five `_refuted`.

### Viewer (C132–C135) – `Show_Model`, `Show_Spec`, `Show_Proofs`, `Show_Props`
The components `Callstack`, `FunctionListing`, `ResultViewer`, `ResultNavigation` and `Difference` as functions from their properties to what
they show; a location of the viewer and the clicks that are possible there; the state of `Difference`, which React keeps while the key
stays the same. C132: the loop over two rests of call stacks, whose lengths get smaller; C133: slices that join; C134: the invariant that
locations belong to the report, on top of C48; C135: first occurrences. Not modelled: layout, fetching of files, `DiffViewWrapper` (how
react-diff-view expands lines), the server. Findings: eight `_refuted`, among them differences that crash the viewer's call stack.

### Reports (C136–C137) – `Output.cpp`, `Result.h`, `library/FFI.cpp` (`runSimpLL`), `simpll.py:54, 92-113`
What SimpLL writes for the results of Modcomp_Model, and the composition with what the tool reads (Graph_Model); the buffer as memory with
an address. C136: an invariant of every result during the comparison (both sides have calls, or none), carried through recursion and
inlining, then C57. C137: induction over the text. Simplified: the text of the report is not modelled as a format; LLVM's writer and
PyYAML's reader are trusted to agree on strings and numbers (they need not for names like `on` or `null`). Findings: the buffer overflow.

### Search for definitions (C138) – `llvm_ir/llvm_module.py:115-125`
The two patterns, as items that match a character or any but a newline, over the text of a module. The text is specified apart, as lines of
definitions, globals and others. C138: induction over text and lines. Simplified: quoted names (with other characters) are not specified.
Findings: names are not escaped in the pattern, so a dot stands for any character and functions with a dollar are never found.

### Calls through casts (C139) – `passes/SeparateCallsToBitcastPass.cpp`
The pass on functions of blocks, with an interpreter (of any constants, results of calls and branches) apart. C139: a simulation, where the
states agree up to the values the pass replaces; then which calls stay and which casts are made. Simplified: invokes, and attributes as one
number. Findings: casts that LLVM does not allow.

### Arguments compared by their source (C140) – `DifferentialFunctionComparator.cpp:824-906, 1839-1855`, `Utils.cpp:660-718`
On top of the source arguments of Source_Model, the structures of Info_Model and the comparison of operands of Funcomp_Model. The types of
C are specified apart. C140: both directions, by induction over expressions and the proved characterisations of the parts. Simplified:
types of debug info other than derived ones are opaque. Findings: seven `_refuted`, among them calls found equal with different arguments.

### Reasons of differences (C141, C142) – `DifferentialFunctionComparator.cpp:236-263, 403-463, 1168-1242, 1244-1378, 1875-1933`, `FieldAccessUtils.cpp`
The search for types, macros that are functions and assembly code. Accesses to fields are specified as relations over the instructions. C141:
induction over the order of instructions (which hypothesis excludes instructions that use themselves), both directions. C142: what is added to a
state, and names over any history by the counter, whose digits are specified apart. Simplified: macro differences (C88) and the comparison of
the called functions are inputs. Findings: eight `_refuted`.

### The semantic tool (C143) – `function_diff.py:12-15, 50-157`, `llvm_module.py:203-212`
A transition system of llreve, z3, the pipes, the timer and the tool; the verdict is that of Driver_Model (C26). C143: an invariant over all
steps, a measure for the end, and runs for the `_refuted`. Simplified: what z3 writes is given from the start, and a line is written at once.

### Names of arguments (C144) – `Utils.cpp:458-611`
Values and the texts shown; expressions of C and how they are written are specified apart. C144: mutual induction over values and places.
Findings: eight `_refuted`; the list of indices that selects the type of a field is never filled, the number of a register is read from the end
of the printed instruction, and an ampersand is removed where there is none.

### Start and end of a comparison (C145, C146) – `snapshot.py:86-121, 177-243`, `config.py:111-205`, `diffkemp.py:355-374, 484-497`, `cli.py:190-197`
A run as a function of the disk, the arguments and what is written (headers and lists of functions); functions, settings and headers are those
of Snapshot_Model, Config_Model and Kernel_Model. C145: case analysis of both openings. C146: an invariant (a header is the original one, prepared
any number of times) over all histories of runs. Simplified: one header, absolute paths, custom patterns and the comparison are inputs.

### Modules kept in memory, preparation (C147–C149) – `ModuleAnalysis.cpp:50-118, 246-262`, `simpll.py:39-118`, `library/FFI.cpp:81-89, 238-322`
The process of the tool as a memory of modules and a dictionary of addresses; a forked comparison works on a copy of the memory. The passes, the
reading of files and the comparison proper are arbitrary functions (a comparison may die). C147, C148: an invariant (a kept module is its file,
prepared once) over all sequences of comparisons. C149: the code is taken to be the list of what was done to it. Simplified: the passes run on
the functions present at the start of the preparation; the text of answers is not cut (Report_Model does that).

### Code in the viewer (C150–C152) – `Code.jsx`, `DiffViewWrapper.jsx`, `Difference.jsx:78-98`
C150: a page with the state React keeps for the component and the files asked for; an invariant over all sequences of renderings and arrivals.
C151, C152: the lines of the old file that are in hunks; hunks are the largest runs of them (react-diff-view joins hunks that touch). Filtering by
range is modelled on these runs. Simplified: lines only in the new file, highlighting and colours are not modelled; react-diff-view itself is
taken to add exactly the lines asked for.

### Index of kernel sources (C153–C155) – `kernel_llvm_source_builder.py:168-226`
A state of the source tree (the list of files, the database) and of the process (its cache), with searches, restarts, kills and changes of the
sources as events. cscope is an arbitrary function of the sources and the list. C153: case analysis and the specifications of string functions.
C154: equal to a small reference machine, by an invariant. C155: a list without a database never goes away. Simplified: the source directory has
no slash at its end; a database that cscope was killed at counts as none.

### End of slicing by a variable (C156–C158) – `VarDependencySlicer.cpp:175-232, 419-460, 669-752`
The IR and its runs are those of Funcomp_Spec. Blocks are deleted (their values become undefined, PHI nodes lose edges), merged into the next one,
and searched from the first one. C156: each step keeps the runs (one step of the new function is one or more of the old one), then composed with
the slice (C104), which is shown to have only ends in the blocks that are not included. C157: a relation between blocks kept by each step. C158:
a simulation. Simplified: LLVM replaces PHI nodes with one value by it, here they are kept; DeleteDeadBlock,
TryToSimplifyUncondBranchFromEmptyBlock and removePredecessor are modelled from their documentation. Findings: three `_refuted`.

### Stores to local variables in slices (C159) – `VarDependencySlicer.cpp:329-347, 602-664`
The functions are those of Slice_Model. Specification: ways through the function that do not pass the use, and what may write on them. An
invariant of the search (what was looked at is kept where it writes, and what comes after it was looked at or will be), by induction on its steps
together with the one for operands. For any function: what is computed from the variable in the order of the text is found by the first phase.
Findings: three `_refuted`.

### Kernel symbol table (C160) – `SimplifyKernelGlobalsPass.cpp:36-100`
Modules are variables with initial values (constants are trees, unique) and functions with the constants they use. The removal, symbol after
symbol, is shown to be the replacement of all of them at once, by induction on the symbols; constants by an induction with the elements of
structures and arrays. Failures (no initial value, a constant destroyed while in use, "llvm.used" not an array) are `None`; a sufficient condition for
success is preserved by the steps. Findings: four `_refuted`.

### Instructions without operands (C161) – `llvm-lib/15/FunctionComparator.cpp:53-104, 106-114, 160-207, 521-694, 729-750`, `DifferentialFunctionComparator.cpp:222-225, 281, 346-373`
What is one string in the model of functions (`i_rest`) is modelled here part by part: an instruction has a kind with its properties, types, flags,
metadata. The comparison of types and names of structures are parameters (see C122). The specification is an inductive relation: what has two names may
differ. Proved as an equivalence by cases, with zero of each comparison shown to be equality. Left out: GEP and PHI instructions, calls with special
names, inverse conditions. Findings: two `_refuted`.

### Files of custom patterns (C162) – `CustomPatternSet.cpp:35-42, 70-85, 142-180`
The check in Python is that of Config_Model (C71); both read the same files: an oracle says which can be read, are accepted by opt, are parsed, and which
mapping is in them. That LLVM's reader of YAML fails for unknown keys is taken from LLVM. Findings: three `_refuted`.

### Lifetime of modules behind Python objects (C163) – `library.py:7-158`, `FFI.cpp:26-30, 81-235, 318-322`
A transition system over Python objects, references from variables and the C++ maps; events are the operations of the interface, a reference more or
less, and the collection of one object nothing refers to (when, is left open, which covers reference counting and later collection). The allocator may
give any address not in use, so addresses are used again. Every operation writes to a history where its pointer led; the theorems are about histories,
by an invariant. Simplified: pointers to functions are (loading, function) instead of addresses; which functions the preparation erases is left open;
comparison of modules (`runSimpLL` and others) is not an event here. Findings: two `_refuted`.

### Modules that use a global variable (C164) – `module_diff.py:12-89`
`diff_all_modules_using_global` and `modules_diff` with the results of Result_Model. The search for sources, building, parsing and `functions_diff` are
oracles that may raise; sets are lists without repetition in the order Python goes through them. Nothing in the package calls these functions; they are
an interface for other programs. Findings: four `_refuted`.

### Properties of replaced calls and functions (C165) – `Utils.cpp:43-57, 302-328, 721-775`
Attributes at their places, calling convention, location, kind of tail call; names of arguments. Attributes are kinds with texts; what else
`copyAttributesFrom` copies (linkage sections, alignment and others) is left out. Findings: two `_refuted`.

## 5. Properties and theorems

Full statements are in `properties.jsonl`; the theorems are in the `*_Props.v` file of the area.

| Property | Title | Theorems (`Cnn_...`) |
|---|---|---|
| C01 | Graph traversal always terminates | `traversal_terminates`, `traversal_errors`, `traversal_succeeds` |
| C02 | Everything the traversal reports is really reachable | `reported_functions_are_reachable`, `start_is_reported` |
| C03 | Reachable functions are missed only because of weak calls | `reachable_reported_unless_weakly_called`, `exact_without_weak_calls`, `discovered_iff_reachable`, `strongly_reachable_reported_refuted` |
| C04 | Call stacks are real call chains | `callstacks_are_call_chains`, `callstack_text` |
| C05 | Traversal cost is exponential in the worst case | `polynomial_cost_refuted` |
| C06 | Only non-equal functions become reported objects | `object_list_computed`, `only_nonequal_reachable_functions_listed` |
| C07 | No reachable difference is dropped from the object list | `every_reached_difference_listed_once`, `no_difference_missed_without_weak_calls` |
| C08 | Merging graphs never forgets a function | `merge_keeps_every_function`, `run_keeps_every_function` |
| C09 | When merging graphs keeps a known difference | `difference_kept`, `difference_never_undecided`, `difference_never_lost_refuted` |
| C10 | Merging resolves undecided results | `undecided_results_resolved`, `caching_allowed_again` |
| C11 | Normalisation removes weak variants | `normalisation_removes_variants` |
| C12 | When normalisation crashes on SimpLL output | `normalisation_terminates`, `normalisation_succeeds_iff`, `normalisation_never_fails_refuted` |
| C13 | Header functions depending on assumptions are not cached | `marking_terminates`, `marks_exactly_dependents`, `marking_errors` |
| C14 | Predecessor lists invert the call edges | `predecessors_are_callers`, `fresh_predecessors_are_exactly_callers` |
| C15 | Only decided, cachable results reach the SimpLL cache | `update_writes_exactly_cachable`, `update_succeeds_iff`, `graph_update_only_decided` |
| C16 | Cached results are never found by SimpLL | `cache_never_hit`, `written_pair_found_refuted` |
| C17 | Cache file contents round-trip | `contents_round_trip`, `left_colon_misread` |
| C18 | Cache clearing forgets everything | `clear_removes_everything`, `files_tracked`, `other_file` |
| C19 | Overall verdict is the worst inner verdict | `verdict_is_worst`, `difference_never_masked_by_equal`, `not_equal_wins_over_unknown_refuted` |
| C20 | Kind names round-trip | `simpll_verdicts_read_back`, `from_string_injective`, `from_string_rejects_by_KeyError`, `print_roundtrip_refuted`, `print_roundtrip_exactly` |
| C21 | Symbol statistics add up | `symbol_stats_partition`, `symbol_counts`, `listing_unknown_complete`, `listing_errors_refuted`, `object_stats_partition`, `object_total_counts_names_once` |
| C22 | A result is shadowed only by a later one of the same name | `lookup_is_last_added`, `distinct_names_never_shadow`, `no_shadowing_refuted` |
| C23 | functions_diff verdict is sound w.r.t. the comparison graph | `verdict_from_object_list`, `simpll_failure_is_error`, `full_diff_verdict`, `equal_means_no_reachable_difference`, `full_diff_equal_refuted` |
| C24 | Linking missing definitions terminates | `linking_terminates` |
| C25 | Known results are reused without re-running SimpLL | `known_result_reused`, `otherwise_simpll_runs` |
| C26 | llreve verdict mapping | `verdict_by_last_answer`, `equal_only_if_proved` |
| C27 | compare covers every common function | `every_function_handled_once`, `sorted_order`, `graph_handed_on_within_group`, `overall_result`, `failures` |
| C28 | Regex filter only hides, never reveals | `verdict_kept_iff_match`, `only_hides`, `failures_stay_visible_refuted`, `filter_fails_iff_object_without_text` |
| C29 | Output directories never overwrite | `first_free_directory`, `output_directory_is_new`, `plain_file_refuted` |
| C30 | Module caching threshold | `cached_iff_referenced_often`, `each_module_once`, `two_functions_needed_refuted` |
| C31 | Symbol list parsing | `symbols_of_the_lines`, `lines_unique` |
| C32 | Built-in pattern options | `every_pattern_has_the_wanted_value`, `options_accepted_iff_advertised`, `order_irrelevant` |
| C33 | Every advertised pattern name has an effect | `advertised_names_work`, `unused_returns_has_no_effect`, `unused_return_types_only_with_all`, `every_name_has_an_effect_refuted` |
| C34 | Snapshot YAML round trip | `function_list_round_trip`, `sysctl_round_trip`, `other_shapes_refuted` |
| C35 | Snapshot lookup is last-writer-wins | `lookup_is_last_added`, `lookup_none_iff_never_added`, `modules_of_current_functions` |
| C36 | Snapshot filtering | `filter_keeps_requested`, `filter_fails_iff_missing` |
| C37 | End-line detection finds the closing line | `first_closing_line`, `terminates`, `failures`, `lines`, `lines_exist`, `line_zero_refuted` |
| C38 | Extracted code is exactly the requested lines | `exactly_the_lines`, `nothing_else`, `fails_iff_unreadable`, `line_zero_refuted` |
| C39 | Diff line numbers are file line numbers | `context_differences`, `unified_differences`, `not_obtained`, `numeric_lines_are_lost`, `any_source_refuted` |
| C40 | Compiler wrapper never changes the native build | `native_command_first`, `exit_status`, `missing_environment`, `exit_code_of_the_compiler_refuted`, `script_hides_failures`, `script_used`, `failure_fails_the_build_refuted` |
| C41 | Clang command rewriting | `compilation`, `link_of_sources`, `link_of_sources_and_objects`, `link_of_objects`, `arguments_determined`, `kept_arguments`, `empty_option_refuted`, `gcc_dropped_refuted` |
| C42 | Candidate sources are complete, duplicate-free and prioritised | `candidates`, `not_found`, `no_database`, `failures`, `searched_once`, `independent_of_history`, `tilde_refuted`, `form_feed_refuted` |
| C43 | gcc to clang translation | `gcc`, `gcc_total`, `output_found`, `ld`, `last_command`, `module_commands`, `module_name`, `blank_refuted`, `mod_refuted`, `opt` |
| C44 | Kernel headers are restored | `restored`, `next_run_restores`, `disabled`, `disabled_lines`, `replacement_text_refuted`, `left_changed_refuted` |
| C45 | Unlinking restores the module | `unlinked_after_comparison`, `unlinked_after_failure_refuted`, `restore_after_any_links`, `linked_at_most_once`, `original_overwritten` |
| C46 | Modules are shared per source | `modules_shared_per_source`, `only_existing_and_not_newer` |
| C47 | YAML report completeness | `results`, `definitions`, `paths_resolve`, `succeeds_iff`, `no_graph_no_definitions`, `always_succeeds_refuted` |
| C48 | Viewer indices are consistent | `lists`, `views_agree`, `navigation`, `next_of_unknown_name`, `reports_are_distinct`, `stored_by_name`, `views_agree_with_repetition_refuted` |
| C49 | Suffixes of names | `has_suffix`, `drop_suffix`, `unique`, `names_match`, `base_exists`, `idempotent_refuted`, `number_refuted` |
| C50 | findAndReplace terminates and replaces all occurrences | `terminates`, `replaces_all`, `unique`, `empty_pattern` |
| C51 | Matching bracket extraction | `closed`, `never_closed`, `either`, `elsewhere`, `unclosed_refuted` |
| C52 | Composite macro expansion | `result`, `diverges_iff`, `either`, `terminates`, `termination_refuted`, `neighbour_refuted` |
| C53 | Sysctl pattern matching agrees across languages | `python`, `cpp`, `agree`, `empty_name`, `empty_name_refuted` |
| C54 | Declaration-only functions are judged consistently | `cached`, `declarations`, `one_verdict` |
| C55 | The report keeps the last comparison graph only | `outer_graph_is_last_inner_graph`, `graph_never_lost_refuted` |
| C56 | Bodies of macro differences belong to the shown difference | `bodies_not_mixed_refuted`, `bodies_belong_to_the_difference` |
| C57 | The graph represents SimpLL's output | `graph_represents_output`, `wellformed_output_accepted`, `no_result_overwritten_refuted` |
| C58 | Graph construction succeeds and its caching marks agree with its calls | `construction_succeeds` |
| C59 | Differences in callees named differently on the two sides are lost | `renamed_callee_reported_refuted` |
| C60 | Ignoring a result once hides differences where it is used | `used_result_difference_listed_refuted` |
| C61 | Cache files of different source pairs are kept apart | `distinct_files_for_distinct_pairs`, `same_path_pairs_collide`, `clear_always_succeeds_refuted` |
| C62 | Users of a symbol are not found in single-file and wrapper-built projects | `symbol_users_never_found`, `symbol_users_found_refuted` |
| C63 | The semantic checker is never applied to functions | `checker_never_sees_functions`, `checker_used_for_functions_refuted` |
| C64 | Results of earlier comparisons are handed on | `known_functions_kept`, `known_functions_kept_on_failure_refuted` |
| C65 | Snapshots from a function list have an entry for every listed symbol | `every_symbol_has_an_entry`, `only_the_unnamed_group` |
| C66 | Snapshots from a sysctl list hold the handlers and users of each option | `functions_of_an_option`, `generation_fails_iff_uses_unknown` |
| C67 | compare --function needs the function on both sides | `selected_function_only`, `fails_iff_function_missing` |
| C68 | compare shows exactly the differing, unknown and failed functions | `shown_exactly`, `lines_below_their_group`, `report_written_iff_difference`, `timeout_shown_refuted` |
| C69 | The report keeps the result of every compared function | `results_kept_if_names_differ`, `all_results_kept_refuted` |
| C70 | SimpLL gets the same configuration as a library and as a binary | `same_configuration`, `patterns_reach_simpll`, `any_path_refuted`, `any_file_name_refuted` |
| C71 | Custom pattern configurations | `configuration_accepted_iff`, `files_of_a_configuration`, `only_valid_patterns_used_refuted`, `configuration_needs_extension` |
| C72 | The report describes symbols by the graph of the last compared function | `graph_of_last_function`, `symbols_defined_refuted`, `known_symbols_kept` |
| C73 | Printed differences | `printed_exactly`, `succeeds_iff`, `same_as_report`, `texts_available`, `texts_available_with_checker_refuted` |
| C74 | Data prepared for the viewer | `difference_flags`, `sources_copied_once`, `snapshot_sources_stay_inside`, `copies_inside_refuted` |
| C75 | The wrapper database and the lookup of functions | `recorded`, `read_back`, `lines`, `colon_refuted`, `default_output_refuted`, `lookup`, `missing_file`, `function_list`, `definition_line_refuted` |
| C76 | The build options reach the compiler wrapper | `options_reach_the_wrapper`, `environment_wins`, `option_wins_refuted`, `comma_refuted` |
| C77 | config.log is kept and the configure command is repeated | `log_survives`, `no_log`, `killed_cleaning`, `backup_of_the_user_refuted`, `killed_refuted`, `reconfigure`, `no_configure_line`, `earlier_dollar_refuted` |
| C78 | A kernel definition comes from the first candidate that builds and has it | `found`, `not_found` |
| C79 | LLVM IR of a kernel source is never stale | `reused`, `rebuilt`, `only_the_ir`, `history`, `opt_failure_refuted`, `source_gone` |
| C80 | LLVM IR of a kernel module is never stale | `module_current`, `up_to_date`, `failed_link_refuted` |
| C81 | Uses of a kernel symbol | `uses`, `no_use_refuted` |
| C82 | Arguments are split at top-level commas | `split`, `every_bracket`, `nothing`, `quotes_refuted` |
| C83 | Macro definitions of a module | `definitions`, `parameters`, `keyed`, `redefinition_refuted` |
| C84 | Macro uses and macro differences | `uses`, `nothing_found_yet`, `terminates`, `terminates_without_composites`, `differences`, `reported`, `none_missed`, `sees_refuted`, `previous_line_refuted` |
| C85 | Source text of a location | `text`, `contiguous`, `first_line_refuted`, `empty_line`, `lines`, `past_the_end_refuted` |
| C86 | Inline assembly is matched with its source | `conversion`, `sections_exist`, `choice`, `undefined_iff_refuted`, `arguments`, `groups_exist`, `no_arguments`, `accuracy_refuted` |
| C87 | Source arguments of a call | `arguments`, `none`, `mention_refuted`, `other_function_refuted` |
| C88 | Options of a sysctl table are listed and looked up correctly | `parse`, `parse_defined`, `lookup`, `lookup_defined`, `data`, `child`, `handler`, `cast_of_address_refuted`, `prefix_refuted`, `dotted_name_refuted` |
| C89 | The table of a sysctl option is found by following its parts | `table`, `other`, `other_net`, `net_refuted`, `missing_entry`, `dotted_child_refuted` |
| C90 | Without inlining, the results are those of all functions reached through calls | `results`, `no_crash`, `one_verdict`, `same_verdict_everywhere` |
| C91 | With inlining, every verdict has a reason | `justified`, `unknown`, `main`, `same`, `suggestion`, `keeps_differences_refuted`, `order_independent_refuted`, `no_crash_refuted`, `ends_refuted` |
| C92 | Texts, numbers and paths are read and written as documented | `white_space`, `letters`, `digits`, `name_characters`, `line_breaks`, `ascii`, `strip`, `strip_unique`, `decimal`, `integers`, `decimal_unique`, `place`, `relative`, `extension`, `option_value`, `words` |
| C93 | A function is found equal to a copy of itself | `copy_equal`, `copy_never_differs`, `answer_stays` |
| C94 | Functions found equal do the same | `equal_same_runs`, `straight_same_runs` |
| C95 | Which exceptions of the comparison misjudge functions | `targets_of_branches_refuted`, `split_case_refuted`, `phi_nodes_refuted`, `unreachable_code_refuted`, `loads_refuted`, `zero_geps_refuted`, `relocation_to_branch_refuted`, `relocation_lost_refuted`, `relocation_of_store_refuted`, `relocation_answers_refuted`, `relocation_of_call_refuted`, `inverse_condition_refuted`, `negated_comparison_refuted`, `aliases_refuted`, `atomics_refuted`, `types_of_loads_refuted`, `call_arguments_refuted` |
| C96 | Reordered operations have the same value | `reordered_same_value` |
| C97 | A load that is left out has the value of its replacement | `skipped_load_same_value`, `results_are_reached` |
| C98 | Inverse conditions | `comparisons`, `branches`, `negations` |
| C99 | Visible operations are compared whatever patterns are on | `visible_operations` |
| C100 | What a comparison leaves out | `left_out`, `addresses`, `ignored_values`, `failed_pair` |
| C101 | Relocated code is compared at its new place | `relocated_code`, `no_relocation_left` |
| C102 | What comparing control flow only keeps of a function | `side_effects`, `kept`, `other_cast_refuted`, `atomic_refuted` |
| C103 | What a function does with only its control flow kept | `same_run`, `stored_condition_refuted` |
| C104 | What depends on a variable is kept | `dependent_kept`, `loop_refuted`, `switch_refuted`, `global_refuted`, `local_refuted`, `nested_refuted`, `phi_refuted`, `reachability_refuted` |
| C105 | The slice by a variable is part of the function | `instructions`, `incoming`, `predecessors`, `reachable`, `return_refuted`, `endless_refuted` |
| C106 | Merging functions with numbered names | `kept`, `names`, `same_runs`, `bodies_refuted`, `definition_refuted`, `suffix_refuted` |
| C107 | Functions that may be called | `called`, `terminates` |
| C108 | Abstractions of indirect calls and inline assembly | `abstractions`, `dollar_refuted`, `compared` |
| C109 | Results that are not used | `changes`, `same_runs`, `asm_refuted` |
| C110 | Calls of functions known by their names | `simplified`, `simplified_runs`, `memcpy`, `lifetime`, `asserts`, `sprintf_refuted`, `memcpy_result_refuted`, `asserts_refuted` |
| C111 | What is loaded from a file of custom patterns | `marks`, `start`, `inputs`, `pattern`, `functions`, `unknown_refuted`, `undefined_refuted` |
| C112 | Values equal by a value pattern | `values`, `loads`, `globals_refuted`, `local_refuted`, `one_side_refuted` |
| C113 | What a match of a custom pattern means | `matched`, `covered`, `whole`, `inputs_terminate` |
| C114 | Code that contains a custom pattern is matched | `found`, `between_refuted`, `group_refuted`, `start_refuted`, `end_refuted` |
| C115 | What a match means for the comparison | `inputs`, `first`, `order`, `outputs`, `sizes`, `start`, `outputs_refuted`, `endless_refuted` |
| C116 | Indices and names of members of structures | `index`, `index_missing`, `name`, `name_beyond`, `type_name`, `padding_refuted`, `empty_refuted`, `union_refuted` |
| C117 | Which address computations are equal | `access`, `off`, `index_refuted`, `pointer_refuted` |
| C118 | Which names of members are noted | `noted`, `first`, `second`, `complete`, `fields`, `nested_refuted`, `front_refuted`, `removed_refuted` |
| C119 | Constants from macros and enumerations | `sound`, `complete`, `two_refuted`, `empty_refuted` |
| C120 | Accesses to fields in several steps | `access`, `address`, `longer`, `unpacked`, `large_refuted`, `between_refuted`, `single_refuted` |
| C121 | Calls that differ for changed structures or one more argument | `sound`, `complete`, `off`, `flags_refuted`, `exchanged_refuted`, `extra_refuted` |
| C122 | Which types are equal | `types`, `refl`, `symmetric`, `structure`, `transitive`, `order_refuted`, `casts_refuted`, `unions_refuted` |
| C123 | Which constants are equal | `ends`, `constants`, `numbers`, `reads`, `opcodes_refuted`, `constness_refuted`, `widths_refuted` |
| C124 | Which source files get into a snapshot | `copied`, `succeeds`, `missing`, `setup`, `prefix_refuted`, `relative_refuted`, `missing_refuted`, `same_refuted`, `emptied_refuted` |
| C125 | What is changed in the modules of a snapshot | `moved`, `unique`, `kept`, `path`, `names_refuted`, `elsewhere_refuted`, `constant_refuted`, `root_refuted` |
| C126 | Which sources a module is found to include | `sources`, `once`, `kinds_refuted`, `first_refuted` |
| C127 | Which functions are found to use a parameter | `exact`, `functions`, `once`, `fields_refuted`, `beyond_refuted`, `nested_refuted`, `names_refuted` |
| C128 | Which variable a module parameter stands for | `variable`, `unique`, `ends`, `kinds`, `missing`, `names_refuted`, `declared_refuted` |
| C129 | What the log of a comparison shows | `log`, `messages`, `differences`, `end_refuted` |
| C130 | Which structures are found in debug information | `names`, `structures`, `ends`, `sizes`, `declaration_refuted`, `functions_refuted` |
| C131 | How anonymous structures are named | `others`, `distinct`, `named`, `apart`, `same`, `names_refuted`, `nested_refuted`, `twice_refuted` |
| C132 | How the call stacks of a difference are arranged | `ends`, `shown`, `complete`, `same`, `names`, `missing_refuted`, `crash_refuted` |
| C133 | What the lists of functions show | `buttons`, `labels`, `columns`, `label_again_refuted` |
| C134 | Where navigation in the viewer leads | `pages`, `reach`, `arrows`, `along`, `path`, `compared`, `compared_back_refuted` |
| C135 | Which code and lines of a difference are shown | `first`, `lines`, `code`, `visit`, `stale_refuted`, `renamed_refuted`, `new_name_refuted`, `recursive_refuted` |
| C136 | SimpLL's results arrive in the tool | `results_arrive`, `one_sided_calls_refuted` |
| C137 | When a report fits | `short_text`, `long_text`, `memory_kept_refuted` |
| C138 | Which definitions are found in the text of a module | `function`, `global`, `dots`, `dollar`, `exact_refuted` |
| C139 | Calls of functions through casts | `behaviour`, `left`, `casts`, `calls`, `allowed`, `allowed_refuted` |
| C140 | Arguments of calls compared by their source | `type`, `equal`, `rest`, `factor_refuted`, `array_refuted`, `structure_refuted`, `type_refuted`, `blank_refuted`, `rest_refuted` |
| C141 | Types recorded as reasons of a difference | `start`, `sources`, `types`, `number_refuted`, `once_refuted`, `branch_refuted`, `ends_refuted`, `debug_refuted` |
| C142 | Macros and assembly code recorded as reasons of a difference | `reasons`, `crash`, `kept`, `names`, `arguments_refuted`, `both_refuted` |
| C143 | The semantic tool in any order of events | `verdict`, `equal`, `ends`, `long_output_refuted`, `answer_in_time_refuted`, `nothing_left_refuted`, `couplings`, `missing`, `command`, `timer_kills` |
| C144 | Names of the arguments of assembly code | `expressions`, `unnamed`, `instruction_refuted`, `no_register`, `unnamed_field`, `debug_refuted`, `index_refuted`, `distinct_refuted`, `nested_refuted`, `element_refuted`, `pointer_refuted` |
| C145 | Which snapshots are compared | `started`, `compared`, `version` |
| C146 | What a comparison leaves behind | `only_there`, `restored`, `unchanged`, `lists`, `stopped_refuted`, `own_list_refuted` |
| C147 | Modules kept in memory do not change results | `history`, `modes`, `variable`, `itself`, `variable_refuted` |
| C148 | A comparison that dies | `goes_on`, `ends`, `nothing_after`, `kept` |
| C149 | Modules are prepared once | `once`, `prepared` |
| C150 | Shown code belongs to the function asked for | `right`, `shown`, `hyphen_refuted` |
| C151 | Which lines of a function are shown | `lines`, `call` |
| C152 | More lines can be shown | `expand`, `reach` |
| C153 | Which kernel sources are searched | `indexed`, `tmp` |
| C154 | The index of kernel sources is made once | `answers` |
| C155 | A killed search leaves a useless index | `killed` |
| C156 | Removing empty blocks keeps the runs of a slice | `same_runs`, `first_stays`, `other_first_refuted` |
| C157 | What is left of a slice when blocks are removed | `left`, `edges`, `dependent_stay` |
| C158 | Functions whose return value is sliced away | `when`, `runs`, `blocks_left_refuted`, `defined`, `nothing_left_refuted` |
| C159 | What a slice reads from local variables | `required_kept`, `any_function`, `part_refuted`, `switch_refuted`, `loop_refuted` |
| C160 | The kernel symbol table is not compared | `symbols_gone`, `rest_kept`, `symbols_not_compared`, `works`, `declared_refuted`, `used_refuted`, `shared_refuted`, `uses_refuted` |
| C161 | Two instructions are the same | `floats`, `compared`, `patterns`, `assembly`, `symmetric`, `same_refuted`, `patterns_refuted` |
| C162 | The custom patterns that were accepted are used | `file_loaded`, `all_loaded`, `some_loaded`, `capitals_refuted`, `keys_refuted`, `unsupported_refuted` |
| C163 | Python objects keep the LLVM modules they work with | `access`, `function`, `unprepared`, `function_refuted`, `once`, `own`, `kept`, `released`, `seen`, `seen_function`, `seen_table`, `loaded`, `functions`, `equal`, `arrays`, `arrays_refuted` |
| C164 | Comparing all modules that use a global variable | `names`, `verdict`, `equal`, `inside`, `all_inside`, `function`, `second_refuted`, `use_refuted`, `error_refuted`, `shown_refuted` |
| C165 | Replaced calls and functions keep their properties | `call`, `same`, `void`, `arguments_refuted`, `tail`, `function`, `function_refuted` |

## 6. Not modelled at all

LLVM's libraries, the remaining passes of SimpLL (reduction of metadata), the semantic checker
programs, RPM/kernel download helpers, progress output, the CMake/Nix build, and the layout part of
the viewer. They are either outside of the code base or show no behaviour that can be stated without a full model of
LLVM IR. No property listed in `properties.jsonl` is left without a model; none is "not applicable".
