# Formal model of Pyccel in Rocq (Coq 8.16.1)

## Method

Pyccel is a translator from Python to C, Fortran and Python.  The model
consists of small, total, computable Gallina functions which follow the
functions of `/repo` branch by branch.  Exceptions are values (`option`,
`result`).  Loops that are not structurally recursive use explicit fuel; running
out of fuel is a distinguished value which the theorems exclude.

Each area `X` is made of up to four files in `rocq/theories/`:

* `X_Model.v` – definitions only; every definition cites the file and lines it models;
* `X_Spec.v` – the independent specification (Python / NumPy / C / Fortran
  meaning), written without reference to the model;
* `X_Proofs.v` – lemmas;
* `X_Thms.v` – the property theorems, closed by `exact`, with
  `Print Assumptions` below and an `Example` meeting the hypotheses.

Naming: `..._partial` – part of a property was proved; `..._refuted` – the
property is false of the faithful model, and the theorem exhibits a witness.

`seeded/LOG.jsonl` records edits of the model in scratch copies.  Its field
`failed` lists the theorems that depend on a proof which no longer compiles
after the edit.  That a proof breaks does not by itself show that the statement
is false of the edited model: a script may break on a change of form, and a
theorem in the list may still hold of the edited program.  An edit that breaks
no proof is a survivor; those with an effect on the claim led to the entries
in `tightened`.

## Trusted base

* Coq's kernel (8.16.1), its `vm_compute` evaluator, and the standard library.
* No axioms of our own.  `Print Assumptions` under each theorem: the answer is
  expected to be "Closed under the global context" everywhere; exceptions are listed
  in the section "Axioms used".
* The reading of the Python/C/Fortran source by which the model was made (the
  code cannot be run here).  Each simplification is stated at its definition.
* Semantics of the target languages (C operators, Fortran precedences, `FileLock`,
  `shutil.copytree`, `filecmp.cmpfiles`, ...) is written down in the `*_Spec.v`
  or `*_Model.v` files and is trusted.

### Axioms used

Only axioms of Coq's standard library, by these theorems; all the others are closed
under the global context.

* `FunctionalExtensionality.functional_extensionality_dep`: `C56_loop_partial`,
  `C56_product_partial`, `C57_size_partial`, `C58_reduce_partial` (equality of states
  which are functions).
* `ClassicalDedekindReals.sig_not_dec`, `ClassicalDedekindReals.sig_forall_dec`,
  `FunctionalExtensionality.functional_extensionality_dep`, `Classical_Prop.classic`:
  `C75_size_partial`, `C75_size_exact_partial`, `C75_empty_refuted` (the real numbers of
  the standard library, used by Flocq's model of double precision numbers).

## Plan per property

| id | modelled | how proved |
|----|----------|------------|
| C01 | `create_incremented_string`, `has_clash`, `get_collisionless_name` on strings, with 4-digit zero-padded decimal printing | pigeonhole on pairwise distinct candidate names gives termination; freshness from the loop exit condition; lower-casing for Fortran |
| C02 | scope = chain of (python name → printed name) maps; `insert_symbol`, `get_new_name`, child scopes | invariant over operation lists |
| C03 | the two dictionaries `_used_symbols`, `_original_symbol` | invariant over operation lists |
| C04 | `Scope.find` over a chain of scopes with loop flags | refinement to "first scope in the chain that declares the name" |
| C05 | `get_new_name`, `get_new_incremented_symbol` | freshness lemma; expected refutation for the latter |
| C06–C08 | `syntactic.py` operator visits, `_handle_precedence` and its overrides, the three printers as producers of words (`Expr_*`) | precedence-climbing readers for the three grammars; a text with enough parentheses is read back (induction on the text); induction on the expression shows the printers put enough of them; refutations by witness |
| C09, C10 | `make_simplified` of all operators on a typed expression type | case analysis, semantic evaluation over Z; refutation for product typing |
| C11 | flattening in `PyccelAnd/PyccelOr.__init__` | evaluation with trace of evaluated operands |
| C12 | `?:` vs `merge` | evaluation in an error monad; Fortran refuted |
| C13–C16 | the C macros and Fortran functions on Z with truncating division, and with n-bit wrap | arithmetic, Euclid by well-founded fuel; refutations by witness |
| C17 | sign, lexicographic order, amin/amax folds | order reasoning, induction |
| C18 | triple loops over functions/flat arrays with bounds-checked accesses | induction on loop counters |
| C19 | `_print_AugAssign` dispatch + C operator semantics | case analysis; refutation for `%=` |
| C20–C22 | runtime container methods as list programs | induction, refinement to Python list/set/dict specs |
| C23 | `Managed_memory.h` as a heap machine | invariant over histories |
| C24 | `broadcast` | induction, refinement to NumPy's rule |
| C25 | `__add__`/`__and__` on finite types | exhaustive finite case analysis lifted by `forallb_forall`; induction for array types |
| C26 | `switch_rank` on nested containers | induction; refutation |
| C27 | index printing and strides | induction on rank |
| C28 | slice processing | arithmetic, Python's `slice.indices` as the spec |
| C29 | C `for` and Fortran `do` loops as state machines over arbitrary bodies | induction on trip count |
| C30 | `collect_loops`, `insert_index`, `insert_fors` for blocks of elementwise assignments of any rank | effects on memory, loop fission, induction over the block; refutations |
| C31 | Unpack: the visit of an assignment to a tuple of targets (temporaries, substitution, refusals), elementwise assignment of a tuple variable | simulation between the emitted statements and Python's order of stores, by induction on the targets with an invariant on the substituted expressions; refutations by evaluation |
| C32 | escaping functions and readers of C/Fortran literals | induction on the string |
| C33 | `_wrap_fortran` on strings, joiner for free-form Fortran continuation | induction with fuel |
| C34 | `indent_code` | induction on lines |
| C35 | `_print_PythonPrint` format construction and a `printf` interpreter | induction; refutations |
| C36 | user-node graph | invariant over histories |
| C37 | message registry | invariant over histories |
| C38 | the two pipelines as programs emitting a trace of stages | case analysis/induction over files |
| C39 | the placement loop and cycle search | invariants, termination measure, graph lemmas |
| C40 | processes × locks transition system | invariant and progress over all schedules |
| C41 | `install_to`, folder = finite map | invariant over crash points; refutation |
| C42 | the transitive properties | induction on the dependency DAG |
| C43 | directory trees | tree induction |
| C44 | clock, files, objects | invariant; refutation for equal timestamps/dependencies |
| C45 | tuple element store | induction |
| C46, C47 | `cval`, `fval`: C's and Fortran's evaluation of the text read back by the grammars of C07, C08 | induction on expressions, against Python's evaluation in exact integers |
| C48, C49 | the calls C makes (`ctrace`, all orders C allows) | same induction; refutations |
| C50, C51 | the text and its value | refutations by witness |
| C52 | collective calls of the processes as a transition system | invariant and progress over all schedules; refutation |
| C53 | `epyccel_seq` over lock, stage, register and `sys.path` | all paths out of the function; refutation for `sys.path` |
| C54 | the names of the build targets | injectivity of the join; refutations |
| C55 | `libs`, `_get_property` | position of first occurrences; refutations |
| C56, C57, C58 | `Iter_*`: the loops generated for containers, ranges, enumerate, zip, map and product in C and Fortran; the loops and start values for sum, min, max; the symbolic size of array comprehensions | induction on iterations with an invariant on the lengths, bounds and counter; induction on the nest of loops with a frame condition; refutations for the cases that differ |
| C59 | `Alloc_*`: the Allocate statements and their status for first and later assignments, the frees at returns and at the end, what they do in C and Fortran | invariant of the analysis (status, nodes above the last Allocate, static shapes) and a simulation of Python by the generated code, by mutual induction on statements, blocks and branches, for the programs that an explicit checker accepts; refutations for eleven programs it rejects; in C also no return without a value (it frees nothing: C59_bare_return_refuted) |
| C60, C61 | `Call_*`: parameter lists of all kinds, the binding of arguments in translated calls, the format and names given to PyArg_ParseTupleAndKeywords and what that function does with them | Python's binding rules as a separate specification; equality by induction on the parameters, an invariant of the parsing loop (arguments left, flags seen in the format) for all calls; nine refutations |
| C62 | `View_*`: the checks of an array argument, the base shape, upper bounds and strides computed from NumPy's shape and strides, the sliced array built from them in C and Fortran, arrays made from results | induction on the dimensions from the fastest to the slowest (the current distance is the next stride); slices of arrays without gaps as an instance; five refutations |
| C63 | `Wrap_*`: the type checks, conversion of scalars, strings and containers, results, the copying back of lists and sets | type checks equivalent to a specification of instances by induction on types; UTF-8 round trip; six refutations |
| C64 | `Wrap_*`: the type flags of overloads, the type check function, the choice of the overload; `Interface.point` | the flags are numbers in a mixed radix with bounded digits, hence injective; three refutations |
| C65 | `Flow_*`: the syntactic stage of statements, the semantic stage with `_additional_exprs`, the C and Fortran printers with `_additional_code` | simulation of Python by the printed statements: an invariant on the states (equal but for temporaries) through both stages, by mutual induction on blocks; nine refutations |
| C66 | `Opt_*`: the visit of conditions, `treat_condition`, the tests of presence in C and Fortran | by induction on the splitting of conjunctions, with a total value of conditions as the link between Python and the translation; seven refutations |
| C67 | `Param_*`: the copies `x_loc` of optional arguments, the order in which reads, assignments and tests are visited, the copies made at the start | by mutual induction on statements with an invariant between the Python store and the arguments and copies of the translation; six refutations |
| C68 | `Swap_*`: the temporaries and substitutions of tuple assignments, nodes found by `get_attribute_nodes`, the test for assignments that are too complex | by mutual induction on the items with the invariant that the substituted later expressions have, in the current state, the values of the originals in the first state; four refutations |
| C69 | `Inline_*`: the expansion of calls of inline functions, renaming of local variables, results, use in an expression | by simulation of the body of the function in the caller (the copies hold the values of the local variables, nothing else of the caller changes), then by mutual induction on the caller; nine refutations |
| C70 | `Reduce_*`: shape of a reduction, process_index_for_reduction, indexing of an indexed array, insertion of the loop indices, printed loops in C and intrinsic functions in Fortran | invariant of the inserted indices (axes as flags of the remaining slices) by induction over the dimensions; the elements read are the group of the specification; folds are sums, minima and maxima |
| C71 | `Matmul_*`: shape of a matrix product, insertion of the loop indices in stacks, the functions of the C library, the Fortran expression and the storage of arrays in C order | the inserted indices by induction over the dimensions in front; each element is written once with the sum of the specification, inputs never; refutations for vectors with stacks, broadcast dimensions, orders and in-place products |
| C72 | `Cross_*`: axes and result shape of np.cross, insert_indices, the loops of collect_loops/insert_fors with the index variables of the block, the three assignments | the nested loops are a fold over the indices (induction on the shape, with the values of the index variables in the state); index lists compared with the specification one by one; a block by induction |
| C73 | `Init_*`: initialisation functions, imports at the top level, in functions and in the program, images | invariant over all executions of an image (each module 0 or 1 times), an invariant on prefixes for the order, a simulation of the execution of Python |
| C74 | `Init_*`: the split of the releases between the initialisation and the release function, release functions | the releases of an image as a function of the guards; permutation of the split; refutations of the pop by stale index |
| C75, C76 | `Space_*`: the size of np.arange in double precision (Flocq) and in rationals, the elements in C and Fortran; the loop of np.linspace in C, the array constructor and the last element in Fortran, arrays of starts and stops | relative error of the rounded division against the distance of a quotient to an integer; invariant of the loop of stores; refutations |
| C77 | `Alias_*`: the decisions of the semantic stage on pointers (targets, reallocations, releases at a return, map of the results) for statements with branches and loops; Python with a heap of objects, the generated code with blocks which can be released | simulation with an injection of objects into live blocks; refuted for loops which learn more, returns in a branch, `a = a[1:]` |
| C78 | `Stub_*`: types, the printers of the stub file, the grammar types.tx as a scannerless parser on strings, the scope of names, get_new with its cache, the visitor of annotations | induction on the type: the printed text is parsed (with any rest that cannot continue it) to its syntax; the syntax means the type; the cache has no two entries which are taken for each other as long as no Final is inside of a type |
| C79 | `Sign_*`: the parameters read by the syntactic stage (`Call_Model`), the text of the signature with list.insert; Python's reading of a parameter list as the specification | the text is that of the signature in all cases with at most one of / and bare *, and never in the others |
| C80 | `Stub_*`: as C78, with aliases for several types; the meaning of an annotation is an inductive relation | nested induction on the syntax: the list of types is the set of the meanings |
| C81, C82 | `Life_*`: reference counts of the Python objects, the destructor, the references saved by methods, setters, getters and results, and the memory of the compiled program, for any sequence of operations by the user | an invariant on reference counts, ownership and reachability, kept by every elementary step |
| C83 | `Refs_*`: Python objects with reference counts, the functions of the Python library which the wrapper calls, the type check and the conversion of arguments, the conversion of results, copying lists and sets back | the counts are the references of objects, names and a list of lost references; this is kept by every call, and gives the exact number of references each call loses |
| C84 | `Narr_*`: the node NumpyArray with its shape and order, the nested reshape and transpose calls printed in Fortran (column-major arrays), the element stores and copies printed in C | induction on the nesting of the argument; the column-major position of an element is related to its index by mixed-radix arithmetic; the C stores are shown to go to different places |
| C85 | Lists and sets: assignments, copies, union, intersection, difference, set(), comprehensions, extend and update, with the Allocate statements before them, in C (drop, clear, reserve, lost blocks) and Fortran | simulation of the Python values by induction on the program and on the iterations; the refutations by execution from an arbitrary state |
| C86 | The names chosen for the results of a function, the assignments in front of a return, the C printer which replaces the last assignment by the returned expression, the declaration of the result, the Fortran return | induction on the elements of the tuple and on the iterations of the generator; the refutations by execution from an arbitrary state |
| C87 | the Allocate/Deallocate analysis of local strings, their statements in C (short strings in the variable, long ones on the heap) and in Fortran, comparisons of UTF-8 bytes, the conversion of strings in the wrappers | simulation of Python by C with an ownership invariant, for programs that assign at the top level first and do not share strings; pointwise simulation for Fortran; exact conditions for the wrappers; refutations for copies, self assignments, loops, if statements, literals, concatenation and comparisons |
| C88 | attributes of objects, constructors, destructors and local objects of functions (Obj_Model.v) | the analysis of a class and of a function is run and compared with Python: a simulation over settled classes gives equal output, an invariant over all programs in C shows that nothing is freed, and families of programs are computed for each failure |
| C89 | the variables that names stand for in functions and in the module, the time of the visit of a function, and the C code (Glob_Model.v) | an invariant over the variables found so far shows that the code is the renaming of the source by the scopes of Python, and induction on fuel gives equal runs; the other names are shown to be those of the module by a second invariant; families of programs with wrong output are computed |
| C90 | the overloads of a definition with unions and type variables, their defaults, and calls that leave out arguments (Poly_Model.v) | the list of overloads is a product of products: membership, absence of repetitions and defaults are proved by induction over the parameters and the combinations; the conversions of a literal along a union are an induction over its types |
| C91 | area Rep: sums and products of homogeneous tuples and lists: the shapes, the Allocate statements, the expansion into copies, the memory and the copies of both languages | induction over programs: the arrays have the elements of Python after each statement; symbolic execution for the programs that go wrong |
| C92 | area Deps: get_filename_from_import, Parser.parse, parse_sons, annotate and _annotate_sons, for single files and pyccel make | invariant of the dictionary of parsers (complete, in order), induction over depth and over Acc of the import relation; lookups in merged dictionaries |
| C93 | the body of the bind(c) wrapper of a Fortran function: the nested tests of the optional arguments, the filling of missing arguments, the choice of the overload and the printed call (Bind_Model) | induction over the arguments not yet tested: the leaf reached has exactly the arguments present; the filled and printed call associates each with its own dummy; one call per subset; overloads are compared by position, so an optional argument in the middle can make the generation fail (Bind_Thms) |
| C94 | the literal that replaces a call of isinstance: the class definitions, the loop over the superclasses, tuples and unions of types (Isin_Model) | the loop ends for every hierarchy declared in order and collects exactly the types of the superclasses; induction over the nested target (Isin_Thms) |
| C95 | the choice between a search and the literal False for `x in c`, and the searches printed for C and Fortran (Isin_Model) | induction over the container: each search finds exactly an equal element; equality of two values of one type is that of Python except NaN (Isin_Thms) |
| C96 | extend_tree.py: the grouping of comment lines, the recursive insertion of comments in blocks, the use of the lines of else | induction on the depth of the tree and on blocks; order of lines as an invariant; two universal refutations |
| C97 | finite floats as an integer times a power of two, conversions of integers to floats with rounding to nearest even, conversions to integers of 32 and 64 bits with an arbitrary result out of range; the text of math.pow with the reader of C06/C07 | floor, ceil and truncation defined by inequalities and shown unique; rounding is exact iff the power of two divides; the words of the text are those of another tree, which is the one read |
| C98 | the tree of targets, the kinds of right side and how zip iterates over each, run on a store with the log of the functions called | invariant of the element-wise assignment (each variable is unchanged or has an element of the value); a sequence is not one of its own elements, by size; the order of Python as a separate evaluator |
| C99 | round of floats: fpyc_bankers_round and pyc_bankers_round_float, over integers of 53 bits times powers of two, each operation rounded | uniqueness of the value; case analysis on the exponent; the sum and the difference are computed exactly up to rounding; the exceptions of C are characterised |
| C100 | indices and slices of written tuples and of inhomogeneous tuple variables, with the slices of the Python that runs Pyccel as the loop of CPython | induction on expressions; the loop selects the same positions as a filter (sorted lists with the same members) |
| C101 | `_build_MathSqrt`, the square of `_visit_PyccelPow`, doubles as integers times powers of two with rounding to nearest even, gradual underflow and overflow | the double rounding sqrt(round(x*x)) is |x| by bounds on the rounding of the square and of the root; induction over expressions; overflow and underflow refuted for every such number |
| C102 | `_print_AugAssign` of both printers, `to_basic_assign`, the operators on 64-bit integers, memory, calls with side effects, the order of evaluation as a parameter | case analysis of the operators over the lemmas of C13 and C14; frame lemma for what the target reads; counting of calls by induction over expressions; the wrong cases refuted for all operands |
| C103 | `is_c_pointer`, `_print_Variable`, `_print_ObjectAddress`, elements in `_print_IndexedElement`, `function_signature`, `_print_FunctionCall`, the addresses of `_print_Assign`; memory with frames, pointers and arrays | evaluation of the printed code; induction over parameters and arguments with an invariant for temporaries; the results and the outer variables by splitting the aligned lists; elements for optional parameters refuted for every position |
| C104 | `targets = f(args)` where targets are arguments: the Allocate before the call, the copies of the Fortran printer, parameters by value and by reference, results returned or stored through addresses (Reuse) | memory as a finite map; the invariant of the body is that memory is the memory at the call with the results assigned so far; commutation of updates of different places; what happens otherwise is stated for all functions and states |
| C105 | Calls with array expressions and None as arguments: temporaries, sorting of arguments, the text of the call in C and Fortran, association of arguments in Fortran (Karg) | the sorted call is the binding of Python (induction over parameters, removal of keywords); in Fortran induction over positional arguments, then lookup by name with distinct names; closed forms for lost keywords and dropped None and that they always differ from Python |
| C106 | `a // b`, `a % b` for floats: floor of the rounded quotient, FLOOR to an integer of 64 bits, pyc_fmodulo (Fdiv) | the quotient is computed with a sticky bit and rounded; integer bounds of half a unit in the last place, compared with the integers around the exact quotient; remainder: fmod is exact, sums are rounded once, case split on signs |
| C107 | Text of np.where in C and Fortran, C's conditional-expression over the reader of area Expr, values on integers | C: right at the top and in values of another np.where, for all nestings and texts; refuted in operands (either side) and in conditions, always; Fortran: right anywhere |
| C108 | np.count_nonzero with axis and keepdims, np.nonzero in Fortran: printed intrinsics, meaning of count, reshape and pack, arrays of order C stored in reverse | Proved for all ranks, shapes, axes and both orders: reversal of insertion and removal of an index, positions unchanged by an extent 1, permutation of the indices |
| C109 | Text of np.linalg.norm in Fortran for each order, read with Fortran's grammar (reader of area Expr), values in rationals with any power; in C the pieces of code around a norm | Fortran: right wherever the text binds strongly enough, refuted for every quotient and power by a norm of order -1 and every power of a norm of another order; C: right in assignments and augmented assignments, refuted inside expressions |
| C110 | np.random.randint in Fortran: printed product, sum and floor over doubles (area Root), random numbers k / 2^53 | Proved: one bound gives a number below it for every random number, two bounds never leave a .. b, every number of the range is given; exact condition: in range for all random numbers iff no power of two p has b - a <= p < b (or p <= -b for a < 0); otherwise refuted: the greatest random number gives b |

## What is modelled and what is not

* **Naming** (`naming/*.py`, `utilities/strings.py`): modelled whole; strings are ASCII.
* **Scope** (`parser/scope.py`): symbols, lookup, temporaries, loop scopes; not imports of
  modules, templates, class scopes' methods.
* **Tuple** (`parser/scope.py`): the tuple element store only.
* **RtInt, RtArr** (`stdlib/math`, `stdlib/stc_extensions`, `extensions`): the integer functions on
  n-bit integers, round on exact rationals, matrix products and min/max over flat arrays.  Not
  modelled: trigonometry, complex functions, rounding of floating point sums.
* **Cont** (`stdlib/STC_Extensions`, `stdlib/gFTL_extensions`): the extension functions on
  top of the containers; STC's and gFTL's own functions are taken at their documented meaning.
* **Index**: C and Fortran index text and addressing, slices, range loops; not fancy (array) indices.
* **Expr**: scalar operators, chains, conditional expressions, casts to bool.  Not: strings,
  complex numbers, function arguments, lambda.
* **Types**: `datatypes.py`, `numpytypes.py`, `broadcast`, shapes of operators; NumPy 2
  promotion (NEP 50) is the specification.
* **Simp**: `make_simplified`/`handle_*` of the operators over exact integers and rationals.
* **Sem**: integer and boolean expressions in exact integers, C with 32/64 bit types (ISO C17; `>>`
  of a negative number keeps the sign), Fortran with eager operands, `op=`.  A call has the
  same value each time.  Not: floats, complex numbers, arrays.
* **Pipe** (`errors.py`, `pipeline.py`, `make_pipeline.py`, `wrap_pipeline.py`,
  `python_wrapper.py`, `console.py`, `epyccel.py`): the message register, the gates between
  stages, exceptions, exit status and text.  What a stage does inside is an arbitrary list of
  reports and an arbitrary end; colours of the text, timers and clean-up of folders are left out.
* **Proj** (`codegen/compiling/project.py`, target names of `make_pipeline.py`, order of
  `cmake_gen.py`/`meson_gen.py`): the tree of folders, its order, the report of a circle, the
  names. Paths are lists of components relative to the root; set iteration is any function
  that keeps the members. Not modelled: the text of the generated CMake and Meson files.
* **Comp** (`compiling/basic.py`, `compiling/compilers.py`, `utilities.py`
  get_module_and_compile_dependencies, `pipeline.py` 271-283): objects on a heap with references,
  the text of the three commands. Sets are iterated in any order. The executable is found; the
  user option `modules` and `reset_folder` are left out.
`Files_Model.v` (C41, C43, C44): the installation of support libraries (library_config.py 102-126, 196-232, 571-642) as a sequence of operations on a flat folder that can stop after any of them, with filecmp by size and time; recompile_object (utilities.py 134-171) in a history of edits, compilations and ticks of the clock, an object file being described by the texts it was compiled from; pyccel_clean.py 27-80 on trees of files, folders, links and other entries. Not modelled: permissions other than X_OK, failures of rmtree, sub-folders of stdlib folders (there are none), hard links, other processes that change the folder meanwhile.
`Lock_Model.v` (C40): the FileLock objects of `CompileObj` (basic.py 59, 102-107, 258-312) and of the folders of libraries, as a transition system of any number of processes that each execute sections (compile, check or link under the locks of an object; install a library), with re-entrant counters, owners of lock files, and kills. Not modelled: the lock of epyccel (it is tried with a timeout and another name is taken, nobody waits for it), threads, time-outs, lock files on network file systems.
**Text** (`Text_Model.v`, C32–C34): string literals of both printers, `indent_code` of both printers with the regular expressions of the Fortran one, `doprint`, and `_wrap_fortran` with the negative indices of Python and a fuel for its loop (`Running`: not finished). Text is a list of code points below 256. The specification has a reader of C literals, a reader of Fortran character expressions and a joiner of Fortran continuation lines with the state of the literals. Trigraphs are not modelled (the generated commands do not enable them). Directive lines (`!$omp`, `!$acc`) are modelled, the transparency theorem is about statements.
- **Print** (C35): the list of `printf` calls that the C printer makes from the arguments of `print` (literal and other strings, integers of four widths, booleans, nested tuples/lists/sets, arrays and list variables), the format built from `sep` and `end` and escaped as a C literal. The specification reads the literal as C does and runs a `printf` interpreter (`%%`, `%s`, `%d`, `%ld`, `%hd`, `%hhd`; anything else after `%` is undefined behaviour) and states Python's `str`. The Fortran printer likewise, as a list of `write` statements with `A` and `I0` descriptors. Not modelled: floats, complex numbers, types, calls that return tuples.
- **Graph (C36).** `Graph_Model.v` models `pyccel/ast/basic.py` 50-549: the constructor's registration of users, `invalidate_node`, `remove_user_node`, `substitute` with `prepare_sub`, tuples, `excluded_nodes`, `invalidate`, and the searches `get_attribute_nodes`, `get_user_nodes`, `is_user_of`. A node is an index in a heap and the graph may have cycles; the flags `_recursion_in_progress` are the list of the calls in progress. Python's `==` is a parameter. Not modelled: conversion of Python values to literals, `get_direct_user_nodes`, `clear_syntactic_user_nodes`, `update_pyccel_staging`, which classes have which attributes. Proved for every history that respects the conditions written in `Graph_Spec.v` (`allowed`, `good_sub`): links are consistent, no operation fails, nothing used is freed, nothing unused is kept, a substitution is the simultaneous substitution below its root and nowhere else, substituting back restores every attribute. Refuted: users and originals compared with `==`, attributes of another stage, several originals discarded while their replacements hang below them, reuse of a freed node.
- Loops (`Loops_*.v`, C30): `pyccel/ast/utilities.py` 241-442, 451-792 (elementwise assignments), 902-949, 1032-1089: the compatibility test, insertion of indices in slices, temporaries for calls, the placing of a line in the last loops with matching lengths, the insertion of `for`s (length 1 becomes index 0). Arrays have any rank and any lengths, known or symbolic. Not modelled: transposes, indexable functions (linspace, ...), lists, orders, subscripts that the block assigns; native array statements of the target language are taken to evaluate the right-hand side first.
Unpack (C31): semantic.py `_visit_Assign` 5067-5164 with get_attribute_nodes and substitute of basic.py; the elementwise assignment of a tuple to a tuple variable. Not modelled: function calls with several results, slices as targets, attributes of objects, arrays that share memory.
**Loops and comprehensions** (`Iter_Model.v`): `_visit_For`, `_get_for_iterators`, the classes for enumerate, zip, map, range and product, the For printers in C (`for`, `c_each`) and Fortran (`do`), `_assign_GeneratorComprehension` and the size computed in `_visit_FunctionalFor`. Bodies and expressions are functions of the state. Not modelled: sets and dictionaries as iterables, dynamic steps, slices as iterables, the check of the smallest size of a range (semantic.py 5853-5885), floating point elements, machine overflow.
- `Alloc_*`: `semantic.py` 835-867, 1969-2003, 2366-2470, 2549-2890 (the part for NumPy arrays), 6114-6241, 6269-6340, 6585-6590, the tree links they query (`basic.py` 151-186), and the C and Fortran code of `Allocate` and `Deallocate`. Not modelled: arguments, aliases, stack arrays, lists, classes, slices; the contents of an array are one number; the shape of an expression is that of its first operand.
* Call (C60, C61): a value is None or an integer and every parameter is an int; starred arguments in calls, methods and other types are not modelled. The meaning of `PyArg_ParseTupleAndKeywords` is transcribed from CPython's `vgetargskeywords` and trusted.
* View (C62): types of elements, overflow and reference counts are not modelled; how STC slices a span and what a Fortran pointer slice is are taken as known.
* Wrap (C63, C64): doubles are names with a parameter for rounding to single precision; reference counts, memory and error messages are not modelled; objects of Python and the C API functions (`PyLong_AsLong`, `PyUnicode_AsUTF8`, `PyArray_IsScalar`, ...) are modelled from their documentation.
- `Flow_*` (C65): blocks, if, while, for and return from the syntax tree to the printed statements, with the statements which the semantic stage and the printers put in front of others. Values are integers; two kinds of calls stand for all effects (one prints, one changes a variable); SymPy is modelled as deciding comparisons of constants only. Not modelled: with, assert, try, comprehensions (C56 treats generators), the printed text.
- `Opt_*` (C66): conditions of if on optional arguments: `PythonBool` of an optional argument, `treat_condition` with its search of the uses of variables, the nested ifs and the statements put before the if. Bodies are numbers; SymPy is not modelled here; Fortran evaluates all operands of `.and.` and `.or.`.
- `Param_*` (C67): assignments to optional scalars: `_optional_params` threaded through the visit of statements, `optional_inits`, the constant results of `is None` on a copy, `+=` and results of calls with several results. Values are integers; the only such call returns its two arguments; loops are over range.
- `Swap_*` (C68): `t1, ..., tn = e1, ..., en` with tuples on both sides: the sets of nodes, the temporaries, `substitute` and its effect on the parsed program. Expressions are sums of variables, constants and elements of arrays with one index; no calls; negative indices are not modelled.
- `Inline_*` (C69): `_visit_InlineFunctionCall`. Values are integers; the statements are `y = f(...)` and `y = t + f(...)` with positional arguments, branches and loops; inline functions calling inline functions, several results, arrays and functions of other modules are not modelled.
- `Reduce_*` (C70): bounds and steps of slices are natural numbers (negative ones are in Index/Loops), values are integers without overflow, `where` and `dtype` are not modelled, and whether the size of a slice is known to the compiler is the flag of its dimension. The element expression around a reduction is not modelled; the two-statement model covers only the sharing of loops which refutes the property.
- `Matmul_*` (C71): values are integers without overflow; dtype conversions, booleans, complex conjugation and the argument `order` are not modelled. The left hand side is an array of the result shape; its allocation is not part of the model. Fortran `matmul` is modelled by the standard, evaluated before the assignment.
- `Cross_*` (C72): values are integers without overflow, casts are not modelled; only cross products are in the block (another statement with loops before the product has the same effect as a product: the number of existing indices is a parameter of `unroll`). The fusion of a following elementwise statement into the loops of a product is not modelled.
- Initialisation and release of modules (`Init_*`): `_visit_Module` and `_visit_Import` of the semantic stage for what decides which initialisation and release functions exist, what they contain and who calls them; images with copies of the modules. Statements are labels in a trace; functions have no arguments; stub files, the metavariables of imports and failures of the C API are not modelled. Found wrong: imports are moved before other statements (also in functions), statements after the program block run before it, a name imported twice for two modules leaves the second uninitialised, extension modules have separate copies of common modules, pop with stale indices releases a wrong array or stops the compiler when a module has two temporaries, modules imported with `as` or in the program are never released.
- `Space_*` (C75, C76): numbers are exact rationals except for the size of an arange of integers, which has the double precision operations of the generated code. Not modelled: rounding of the elements and of the sizes for floating point arguments, complex numbers, overflow of 64-bit integers, np.linspace inside of a larger expression.
- `Alias_*`: arrays of one dimension, pointers are to a suffix of an array; one result at most; no classes, containers of arrays, optional arguments or module variables. The size test of the reallocation is the one of the C and Fortran printers (same shape: the memory is used again).
- Stub files (C78-C80): pycode.py 261-397 and 2042-2122, types.tx, headers.py 112-263, semantic.py 3089-3264 and 4486-4538. Not: types of functions, generic types and type variables, the eviction of cache entries, strings in strings; the refutations are in `Stub_Thms` and `Sign_Thms` (empty tuple, float128, Final elements, the dependence on the history, dict of aliases, order of an alias of several types, unknown orders, / with bare *, defaults of positional-only parameters, methods).
- `Life_*` (C81, C82): only arrays and instances are followed; the compiled functions are given by the pointers they store, the arrays they replace and what they return. Attributes of attributes, failing calls, running out of memory and objects of other modules are not modelled. The semantic stage is modelled only as far as `persistent_target` and `result_pointer_map` go.
- C83: leaves stand for numbers and strings; CPython shares small integers, the model makes a new object each time. Arrays and classes are in C81. The memory of the C or Fortran containers is not counted. No call of the Python library fails.
- `Narr` (C84): a Fortran array is its shape and its elements in column-major order; reshape (with order=) and transpose follow the Fortran standard. An element of the argument may be computed from the old content of the array which is assigned (`independent` says that none is). cspan_copy of the STC library is assumed to go through both arrays in the order of the indices. Casts, arguments which are indexed arrays, and empty lists are not modelled. Refuted: a list of one element of rank 2 or more (Fortran), order F with ndmin (Fortran), lists with ndmin (C), x = np.array([x[1], x[0]]) (C).
- Bag (C85): elements are integers and a set is the sorted list of its elements, so the order of iteration over a set is not modelled. Functions called have no effect but their result; variables are not aliases or arguments. A loop over a container which is changed in the loop counts as undefined in C. reserve counts as one block also for the size 0. pop, remove, insert, sort, del and dictionaries are not in this area (Cont has them at runtime level).
- Ret (C86): expressions are integers, strings and array elements; binary operations on integers stand for all scalar operators and functions. Generators have one loop over a range. Tuples have no tuples in them. Calls with side effects, pointers and classes are not in the returned expressions. Reading a freed variable has no value.
- Strings (C87): the string type of STC is not in the repository; the model assumes that short strings are kept in the variable and longer ones in one block from malloc, with the threshold as a parameter, that cstr_drop frees the block, and that reading or dropping a variable without an initial value is undefined. Fortran character variables are allocatable and assignments copy. One function with local strings is modelled; other functions that return strings of their own are arbitrary functions of their arguments.
- Obj (C88): one class, attributes are NumPy arrays given by a shape and one element; sizes and values are functions of the arguments of the method; no loops and no early returns in methods; the methods are analysed in their order after the constructor; an object has one name, no aliases; objects as arguments, results or attributes, and inheritance are not modelled; the order in which local objects are destroyed (a Python set) is a parameter. An exception in a destructor ends the program in the specification, which no settled class can observe. In Fortran the memory of local objects is released by the language at the end; the model counts it only for C.
- **Powers (C50, C51), files `Pow_*`**: integer expressions with `**`, `+`, `-`, `*`, `//`, `%`, `&`, the choice between a product, a root and a power (`_visit_PyccelPow`), the C printed for them (`pow` of doubles whose result is not cast back) and the Fortran. Doubles are modelled by the integers they hold (rounding to 53 bits, ties to even); the C `pow` is any function whose result is a double, and exact if the exact result is one. Not modelled: the float results themselves (`NPowF`, `NSqrt`), complex bases, NumPy types and arrays, the integer result of a sum in doubles that is over 2^63.
- Glob (C89): integers only; functions with one parameter and one return at the end; names of functions differ from those of variables; nested functions, classes, imports and program blocks are left out; the bound of range is a literal. The fuel of the model bounds both runs; a run that needs more is `Late`.
- Poly (C90): parameters are numbers; type variables stand alone or in unions, not inside other types such as list[T]; arguments are given by position; float literals are rational numbers and are not rounded; the bodies of the overloads are not modelled (they are translated like any function); calls from Python are in C64.
- Area Rep (C91): Rep_Model models the semantic stage (shapes of Concatenate and Duplicate, whether a variable is new or reallocated, its memory), collect_loops (the copies with their offsets, loops for repetitions whose number is not a literal) and the execution of the allocations and copies in C and Fortran, in which a write beyond the end of an array and a negative malloc have no result. Programs are sequences of assignments; all variables are tuples of integers or all are lists. Not modelled: inhomogeneous tuples, elements of other types, aliases x = y, control flow, garbage left in reallocated memory other than as an unknown value. Rep_Spec gives the meaning in Python.
- Area Deps (C92): Deps_Model models the search for the file of an import, the recursion that reads all files below a file with its shared dictionary, the dictionaries of names of each parser, and the recursion of the semantic stage. Files are lists of folder names; importlib is an arbitrary function. The limit of the recursion is a number; results are stated for all limits that are large enough. Not modelled: stubs written by hand and those of Pyccel, recognised modules, filtering of __init__.py files, syntax errors.
- Bind (C93): scalars and arrays are alike (a pointer converted if the argument is optional); optional inhomogeneous tuples (an error in pyccel) and the results of the function are not modelled; Fortran's own generic resolution is not modelled.
- Isin (C94, C95): the generic and symbolic types, the user method `__contains__` (never found for built-in containers) and complex elements are not modelled; floats are half-integers or NaN; the searches of the STC and gFTL libraries are modelled by their documented results (position or end, index from 1 or 0, number of equal keys).
- extend_tree.py (C96, Cmt): comments are lines, columns and texts, statements are simple or compound with a body and an orelse; the insertion is modelled branch by branch. Not modelled: reading lines from the text, the joining of directives ended by &, the handlers and finally block of try.
- Math (C97): infinities and NaN are not modelled; the functions floor, ceil, trunc, FLOOR, CEILING and DINT are taken to be exact on finite floats, as C and IEEE 754 require; the value of pow is not modelled, only which numbers it is given.
- Multi (C98): names and tuples of names as targets; displays of values only on the right (names there are C31); no strings, objects, generators, elemental or inlined functions.
- Round: `pyc_math_c.c` 46-63, `pyc_math_f90.F90` 354-376, and the types of the calls. Each floating-point operation is exact and then rounded to 53 bits (`nearest` of Math); exponents have no bounds; the result is taken before the division by the factor, which is 1 without digits.
- Tidx: `_extract_indexed_from_var` (semantic.py 1160-1315) for PythonTuple and variables of inhomogeneous tuple types; scalars stand for their values and a tuple variable for the list of the variables of its elements.
- Root (C101): `math.sqrt` of squares. Infinities and NaN are one value `Other`; the exception of Python for `x**2` that overflows is not modelled (the square is the product); literals are variables; functions return a double that depends on the calls made before.
- Aug (C102): augmented assignments of 64-bit integers. Inside an expression operands are evaluated from left to right; between the parts of a statement the order is any. Indices are not wrapped or checked; `/=`, floats and containers are not modelled.
- Ptr (C103): calls in C. The printed code is a tree, so "starts with ( * and ends with )" is the outermost dereference. Identity of variables is a number; arguments that are other expressions or calls are given by their values.
- **Reuse** (C104): functions do not change their arguments and have no local variables besides results; indices are literals; arrays have one dimension; the status of Allocate is taken to be right (area Alloc). Finite maps of std++ are used for memory, no axioms.
- **Karg** (C105): one type for all parameters; expressions with rank are stored in temporaries and have their value; keywords are distinct (Python rejects others); no positional-only, keyword-only parameters, *args and **kwargs (area Call).
- **Fdiv** (C106): double precision, finite operands, divisor not zero; quotients below 2^53; the sign of zero is modelled for the remainder only; MODULO of Fortran is not modelled. Rounding is the one of area Root.
- np.where (`Where_*`): `_print_NumpyWhere` of ccode.py and fcode.py and the parentheses `_handle_precedence` does not add; one element, integer values, truth values as numbers. Not modelled: np.where inside function calls, conversions to the result type, the loops over elements (area Loops).
- np.count_nonzero (`Cnz_*`): `_print_NumpyCountNonZero`, `_print_NumpyNonZeroElement`, shapes of `NumpyCountNonZero`; Fortran's count, reshape, pack are specified in `Cnz_Spec`, with subscripts from 0. Kinds and overflow of the counts are not modelled; C has no printer for these functions.
- norm (`Norm_*`): `_print_NumpyNorm` of fcode.py and ccode.py with `_handle_numpy_functional`; rationals, `**` and the reductions other than sum are arbitrary functions. In C only the pieces of text and their places are modelled (the loops are in area Reduce). Not modelled: axes, scalars, rounding.
- randint (`Rnd_*`): `_print_NumpyRandint`; the generator is trusted to give multiples of 2^-53 in [0, 1); bounds below 2^53. The distribution and arrays of random numbers are not modelled; C has no printer.

The compiled C and Fortran are read as text by the grammars in `Expr_Spec.v`; the
compilers themselves are outside the model.
