{"id": "C01", "title": "Generated names never clash", "statement": "Whenever Pyccel invents or adapts an identifier (an incremented name or a collisionless name for C, Fortran or Python output), the search terminates and the returned identifier is neither a keyword of the target language nor equal to any identifier already in use; for Fortran this holds even when letter case is ignored.", "quantifier": "every requested name, every prefix, every finite set of used identifiers and every starting counter", "why_tests_cant": "The set of used identifiers is unbounded and adversarial (it may already contain x_0001, X_0002, ...); a test only sees a few sets and cannot show termination.", "anchors": ["pyccel/utilities/strings.py:create_incremented_string", "pyccel/naming/languagenameclashchecker.py", "pyccel/naming/cnameclashchecker.py", "pyccel/naming/fortrannameclashchecker.py", "pyccel/naming/pythonnameclashchecker.py"]}
{"id": "C02", "title": "Distinct Python names stay distinct after translation", "statement": "Two different Python names declared in the same nest of scopes are never printed as the same identifier of the target language (for Fortran: not even up to letter case), and no declared name is printed as a keyword, whatever the order of the declarations.", "quantifier": "every sequence of name insertions and child-scope creations, for every target language", "why_tests_cant": "It is an invariant over all histories of scope operations.", "anchors": ["pyccel/parser/scope.py:Scope.insert_symbol", "pyccel/parser/scope.py:Scope.get_new_name", "pyccel/parser/scope.py:Scope.all_used_symbols"]}
{"id": "C03", "title": "Name translation is invertible", "statement": "After any history of declarations, asking for the printed name of a declared Python name and then asking for the Python name of that printed name gives back the original Python name.", "quantifier": "every history of declarations in a scope tree", "why_tests_cant": "Invariant over histories linking two mutable dictionaries.", "anchors": ["pyccel/parser/scope.py:Scope.get_expected_name", "pyccel/parser/scope.py:Scope.get_python_name", "pyccel/parser/scope.py:Scope.insert_symbol"]}
{"id": "C04", "title": "Name lookup follows lexical scoping", "statement": "Looking up a name returns the object declared under that name in the innermost enclosing scope which declares (or imports) it, loop scopes being transparent; a local-only lookup never returns an object of an outer function scope.", "quantifier": "every scope tree, every history of insertions, every name", "why_tests_cant": "Unbounded nesting and arbitrary shadowing.", "anchors": ["pyccel/parser/scope.py:Scope.find", "pyccel/parser/scope.py:Scope.insert_variable"]}
{"id": "C05", "title": "Compiler temporaries are new", "statement": "Requesting a fresh temporary name from a scope always returns a name which was not used before anywhere in the scope chain, so a temporary never aliases a user variable or another temporary.", "quantifier": "every scope history, every prefix", "why_tests_cant": "Histories and prefixes are unbounded.", "anchors": ["pyccel/parser/scope.py:Scope.get_new_name", "pyccel/parser/scope.py:Scope.get_new_incremented_symbol"]}
{"id": "C06", "title": "Printed Python expressions mean the original expression", "statement": "The Python text printed for an operator expression, read with Python's grammar, is the expression that was printed (same tree), for arbitrarily nested operators.", "quantifier": "every operator expression tree of any depth built by Pyccel's constructors", "why_tests_cant": "Parenthesisation errors depend on specific parent/child operator pairs at arbitrary depth.", "anchors": ["pyccel/ast/operators.py:PyccelOperator._handle_precedence", "pyccel/codegen/printing/pycode.py"]}
{"id": "C07", "title": "Printed C expressions mean the original expression", "statement": "The C text printed for an operator expression, read with C's precedence and associativity rules, is the expression that was printed.", "quantifier": "every operator expression tree of any depth built by Pyccel's constructors", "why_tests_cant": "The tree carries parentheses placed for Python's precedences while the text is read with C's, which differ for comparisons and bit operations; only exhaustive reasoning over parent/child pairs at any depth settles it.", "anchors": ["pyccel/ast/operators.py:_handle_precedence", "pyccel/codegen/printing/ccode.py:_print_PyccelAdd", "pyccel/codegen/printing/ccode.py:_print_PyccelBitAnd", "pyccel/codegen/printing/ccode.py:_print_PyccelEq", "pyccel/codegen/printing/ccode.py:_print_PyccelAnd"]}
{"id": "C08", "title": "Printed Fortran expressions mean the original expression", "statement": "The Fortran text printed for an operator expression, read with Fortran's precedence rules, is the expression that was printed.", "quantifier": "every operator expression tree of any depth built by Pyccel's constructors", "why_tests_cant": "As for C: precedence tables differ between the source and the target grammars.", "anchors": ["pyccel/ast/operators.py:_handle_precedence", "pyccel/codegen/printing/fcode.py:_print_PyccelAnd", "pyccel/codegen/printing/fcode.py:_print_PyccelEq"]}
{"id": "C09", "title": "Simplifying an expression does not change its value", "statement": "Building a sum, product, difference, quotient, comparison, conjunction, disjunction or negation through the simplifying constructors yields an expression with the same value as the unsimplified one.", "quantifier": "every pair of operand expressions and every valuation of the variables", "why_tests_cant": "Quantifies over all expressions and all run-time values.", "anchors": ["pyccel/ast/operators.py:make_simplified"]}
{"id": "C10", "title": "Simplifying an expression does not change its static type", "statement": "The data type of a simplified expression is the type which the unsimplified expression would have had.", "quantifier": "every pair of typed operand expressions", "why_tests_cant": "Depends on combinations of literal values and operand types.", "anchors": ["pyccel/ast/operators.py:PyccelAdd.make_simplified", "pyccel/ast/operators.py:PyccelMul.make_simplified", "pyccel/ast/operators.py:PyccelMinus.make_simplified"]}
{"id": "C11", "title": "and/or chains keep Python's short-circuit meaning", "statement": "A flattened chain of and/or has the value of the nested Python expression and evaluates its operands in the same order, stopping at the same operand.", "quantifier": "every nesting of and/or/not over arbitrary operands and operand outcomes", "why_tests_cant": "Unbounded nesting.", "anchors": ["pyccel/ast/operators.py:PyccelAnd", "pyccel/ast/operators.py:PyccelOr", "pyccel/codegen/printing/ccode.py:_print_PyccelAnd"]}
{"id": "C12", "title": "Conditional expressions evaluate only the selected branch", "statement": "In the generated code `a if c else b` evaluates c and then exactly one of a and b, and yields that value.", "quantifier": "every condition value, every pair of branch expressions including failing ones", "why_tests_cant": "The failing branch can be arbitrary; quantifies over all of them.", "anchors": ["pyccel/codegen/printing/ccode.py:_print_IfTernaryOperator", "pyccel/codegen/printing/fcode.py:_print_IfTernaryOperator"]}
{"id": "C13", "title": "Integer floor division in generated C and Fortran agrees with Python", "statement": "x // y in generated code equals Python's floor division for every pair of machine integers with y != 0 for which Python's result is representable.", "quantifier": "all integer widths and all pairs of representable integers", "why_tests_cant": "2^128 pairs; sign combinations and exact multiples are boundary cases.", "anchors": ["pyccel/stdlib/math/pyc_math_c.h:PY_FLOOR_DIV_TYPE", "pyccel/stdlib/math/pyc_math_f90.F90:pyc_floor_div_i64"]}
{"id": "C14", "title": "Integer modulo in generated C and Fortran agrees with Python", "statement": "x % y in generated code equals Python's x % y for every pair of integers with y != 0 (sign of the divisor), and x == y*(x//y) + x%y holds in generated code.", "quantifier": "all pairs of machine integers with nonzero divisor", "why_tests_cant": "Unbounded pairs.", "anchors": ["pyccel/stdlib/math/pyc_math_c.h:pyc_modulo", "pyccel/codegen/printing/fcode.py:_print_PyccelMod"]}
{"id": "C15", "title": "gcd, lcm and factorial of the support library agree with Python's math module", "statement": "For all arguments for which Python's result is representable, the C and Fortran support routines terminate and return Python's math.gcd, math.lcm and math.factorial.", "quantifier": "all machine integers", "why_tests_cant": "Euclid's loop must be shown to terminate with the right value on every pair, including zeros and negatives.", "anchors": ["pyccel/stdlib/math/pyc_math_c.c:pyc_gcd", "pyccel/stdlib/math/pyc_math_c.c:pyc_lcm", "pyccel/stdlib/math/pyc_math_c.c:pyc_factorial", "pyccel/stdlib/math/pyc_math_f90.F90"]}
{"id": "C16", "title": "Rounding an integer to tens, hundreds, ... agrees with Python", "statement": "round(n, -k) in generated code equals Python's banker's rounding of n to a multiple of 10^k.", "quantifier": "all integers n and all k >= 0", "why_tests_cant": "Ties and negative arguments at every magnitude.", "anchors": ["pyccel/stdlib/math/pyc_math_c.c:ipyc_bankers_round", "pyccel/stdlib/math/pyc_math_f90.F90:pyc_bankers_round_int"]}
{"id": "C17", "title": "sign/min/max helpers agree with NumPy", "statement": "The sign helper returns -1, 0 or 1 according to the order, the complex sign/min/max helpers follow NumPy's lexicographic rule, and the array amin/amax helpers return an extremal element of the array.", "quantifier": "all values and all non-empty arrays", "why_tests_cant": "Arrays of any length.", "anchors": ["pyccel/stdlib/math/pyc_math_c.h:PY_SIGN_TYPE", "pyccel/stdlib/math/pyc_math_c.h:complex_min", "pyccel/stdlib/math/pyc_math_f90.F90:amax"]}
{"id": "C18", "title": "Matrix products of the support library are matrix products", "statement": "The generated matrix-matrix, matrix-vector and vector-matrix products compute the sums of products for every shape, and never access an element outside their arguments.", "quantifier": "all shapes and contents", "why_tests_cant": "All sizes.", "anchors": ["pyccel/stdlib/math/pyc_math_c.h:PYC_MATMUL"]}
{"id": "C19", "title": "Augmented assignment means assignment of the operation", "statement": "x op= e in generated code leaves x with the value of Python's x op e for every operator accepted by the translator.", "quantifier": "all operators, all operand values", "why_tests_cant": "Each target operator has a different semantics from Python's on part of its domain.", "anchors": ["pyccel/codegen/printing/ccode.py:_print_AugAssign", "pyccel/codegen/printing/fcode.py:_print_AugAssign", "pyccel/ast/core.py:AugAssign.to_basic_assign"]}
{"id": "C20", "title": "List methods behave as Python's list methods", "statement": "insert, pop, reverse, min and max on generated lists (C and Fortran runtime) give the same list and result as Python for every index, positive or negative, in or out of range where Python allows it.", "quantifier": "all lists, indices and values, and all sequences of such operations", "why_tests_cant": "Index boundary cases at all lengths.", "anchors": ["pyccel/stdlib/STC_Extensions/List_extensions.h", "pyccel/stdlib/gFTL_functions/Vector_extensions.inc", "pyccel/codegen/printing/ccode.py:_print_ListPop"]}
{"id": "C21", "title": "Set methods behave as Python's set methods", "statement": "pop, union, intersection_update, difference_update, isdisjoint, min and max on generated sets agree with Python's set algebra whatever the iteration order of the container.", "quantifier": "all sets and all iteration orders", "why_tests_cant": "The loop erases while iterating; correctness is for all contents and orders.", "anchors": ["pyccel/stdlib/STC_Extensions/Set_extensions.h", "pyccel/stdlib/gFTL_functions/Set_extensions.inc"]}
{"id": "C22", "title": "Dictionary methods behave as Python's dict methods", "statement": "get, pop (with and without default) and popitem on generated dictionaries return what Python returns and leave the dictionary Python leaves, all other entries untouched.", "quantifier": "all dictionaries and keys, all operation sequences", "why_tests_cant": "All contents; popitem depends on the insertion history.", "anchors": ["pyccel/stdlib/STC_Extensions/Dict_extensions.h", "pyccel/stdlib/gFTL_functions/Map_extensions.inc", "pyccel/codegen/printing/ccode.py:_print_DictGet"]}
{"id": "C23", "title": "Managed memory is freed exactly once", "statement": "Under any sequence of creating, cloning, aliasing, stealing, releasing and dropping managed pointers, no allocation is freed twice, and one with a surviving owner is not freed.", "quantifier": "all operation sequences", "why_tests_cant": "History property.", "anchors": ["pyccel/stdlib/STC_Extensions/Managed_memory.h"]}
{"id": "C24", "title": "Array expressions get NumPy's broadcast shape", "statement": "The shape computed for an elementwise operation on arrays with known shapes is the shape NumPy's broadcasting rule gives, and incompatible shapes are rejected.", "quantifier": "all ranks and all sizes", "why_tests_cant": "All ranks and sizes.", "anchors": ["pyccel/ast/operators.py:broadcast"]}
{"id": "C25", "title": "Result types form a consistent promotion system", "statement": "The type of a mixed arithmetic expression does not depend on the order of the operands, equal operands keep their type (booleans excepted, which become int), promotion is associative, and precision is never lost.", "quantifier": "all pairs/triples of numeric types (Python and NumPy, any precision)", "why_tests_cant": "Lattice laws quantify over all triples.", "anchors": ["pyccel/ast/datatypes.py:PyccelType.__add__", "pyccel/ast/numpytypes.py:NumpyNumericType.__add__", "pyccel/ast/numpytypes.py:NumpyIntType.__and__"]}
{"id": "C26", "title": "Container types keep their rank and element type under indexing", "statement": "Taking away k dimensions from a container type of rank r leaves a type of rank r-k with the same basic element type.", "quantifier": "all container types of any nesting depth, all k", "why_tests_cant": "Arbitrary nesting.", "anchors": ["pyccel/ast/datatypes.py:HomogeneousContainerType.switch_rank", "pyccel/ast/numpytypes.py:NumpyNDArrayType.switch_rank"]}
{"id": "C27", "title": "Elements are addressed correctly in row- and column-major arrays", "statement": "The element a[i0,...,in] of generated code is the same element whichever memory order is used: printed index order and storage order cancel out, and distinct indices address distinct elements within bounds.", "quantifier": "all ranks, shapes and in-range index tuples, both orders", "why_tests_cant": "All ranks and shapes.", "anchors": ["pyccel/codegen/printing/fcode.py:_print_IndexedElement", "pyccel/codegen/printing/ccode.py:_print_IndexedElement", "pyccel/ast/numpytypes.py:NumpyNDArrayType"]}
{"id": "C28", "title": "Negative indices and slices select Python's elements", "statement": "Indexing and slicing in generated C and Fortran select, in order, exactly the elements Python selects for in-range bounds, including negative bounds and steps.", "quantifier": "all lengths, starts, stops and steps within range", "why_tests_cant": "Off-by-one boundaries for each sign combination of start, stop and step.", "anchors": ["pyccel/codegen/printing/ccode.py:_new_slice_with_processed_arguments", "pyccel/codegen/printing/fcode.py:_new_slice_with_processed_arguments"]}
{"id": "C29", "title": "Loops over ranges iterate as in Python", "statement": "for i in range(start, stop, step) in generated C and Fortran executes the body for exactly the values of Python's range, in order, for every nonzero step, also when the body rebinds the loop variable or the variables the bounds were computed from.", "quantifier": "all start, stop, step, and all loop bodies", "why_tests_cant": "All bounds, both signs of step and arbitrary bodies.", "anchors": ["pyccel/codegen/printing/ccode.py:_print_For", "pyccel/codegen/printing/fcode.py:_print_PythonRange", "pyccel/codegen/printing/fcode.py:_print_For"]}
{"id": "C30", "title": "Array statements unrolled to loops keep NumPy's meaning", "statement": "A block of array assignments translated to explicit (possibly fused) loops leaves memory in the state NumPy's statement-by-statement semantics gives.", "quantifier": "all blocks of elementwise assignments, all array lengths and contents", "why_tests_cant": "Fusion is sound only absent cross-iteration dependences; needs all programs.", "anchors": ["pyccel/ast/utilities.py:collect_loops", "pyccel/ast/utilities.py:insert_fors", "pyccel/ast/utilities.py:expand_to_loops"]}
{"id": "C31", "title": "Tuple assignment is simultaneous", "statement": "(a, b, ...) = (e1, e2, ...) evaluates all right-hand sides before any target changes.", "quantifier": "all tuples of expressions and targets", "why_tests_cant": "All overlaps between targets and right-hand sides.", "anchors": ["pyccel/ast/utilities.py:expand_inhomog_tuple_assignments", "pyccel/parser/semantic.py:_visit_Assign"]}
{"id": "C32", "title": "String literals survive translation", "statement": "The C (Fortran) literal printed for a Python string denotes, under the rules of C (Fortran), the same sequence of characters.", "quantifier": "all strings over the character set", "why_tests_cant": "All strings; escapes interact (a backslash followed by n, quotes, control characters).", "anchors": ["pyccel/codegen/printing/ccode.py:_print_LiteralString", "pyccel/codegen/printing/fcode.py:_print_LiteralString"]}
{"id": "C33", "title": "Fortran line wrapping is transparent", "statement": "Joining the continuation lines produced by the wrapper gives back the original statement (string contents exactly, other text up to blanks at the joints); the wrapping terminates and every code line respects the length limit.", "quantifier": "all source lines", "why_tests_cant": "All lines and all positions of quotes relative to the limit.", "anchors": ["pyccel/codegen/printing/fcode.py:_wrap_fortran"]}
{"id": "C34", "title": "Indentation never changes code", "statement": "The indenter changes only leading blanks of lines: line order, number and stripped content are unchanged; indenting twice is the same as indenting once.", "quantifier": "all code texts", "why_tests_cant": "All texts.", "anchors": ["pyccel/codegen/printing/ccode.py:indent_code", "pyccel/codegen/printing/fcode.py:indent_code"]}
{"id": "C35", "title": "print writes what Python prints", "statement": "print of strings and integers and lists/tuples of them writes the characters Python writes, separators and terminator included.", "quantifier": "all argument lists, all strings (including '%'), all container lengths", "why_tests_cant": "All strings and lengths.", "anchors": ["pyccel/codegen/printing/ccode.py:_print_PythonPrint"]}
{"id": "C36", "title": "AST parent links are consistent", "statement": "After any sequence of node constructions, substitutions and invalidations, every node's recorded users are exactly the live nodes that have it as a direct attribute, and a discarded sub-tree is freed only when no live node uses it.", "quantifier": "all construction/substitution histories", "why_tests_cant": "History property over a mutable graph.", "anchors": ["pyccel/ast/basic.py:PyccelAstNode"]}
{"id": "C37", "title": "An error is never lost", "statement": "After any sequence of reports, has_errors() is true exactly if an error or fatal message was reported since the last reset, every reported message is printed, and a fatal report always raises.", "quantifier": "all sequences of reports and resets, in both user and developer mode", "why_tests_cant": "History property.", "anchors": ["pyccel/errors/errors.py:Errors"]}
{"id": "C38", "title": "No later stage runs after an error, and stage flags stop the pipeline", "statement": "If an earlier stage reported an error the pipeline raises before any later stage starts; --syntax-only, --semantic-only and --convert-only stop the pipeline after the named stage.", "quantifier": "all outcomes of the stages and all flag combinations", "why_tests_cant": "Combination of outcomes and flags.", "anchors": ["pyccel/codegen/pipeline.py:execute_pyccel", "pyccel/codegen/make_pipeline.py:execute_pyccel_make"]}
{"id": "C39", "title": "Build targets are emitted in dependency order", "statement": "When generating a multi-file project every directory/target is emitted after those it depends on; the procedure terminates, and it fails exactly if the dependency graph of directories is cyclic, in which case it reports a real cycle.", "quantifier": "all dependency graphs", "why_tests_cant": "All graphs.", "anchors": ["pyccel/codegen/compiling/project.py:DirTarget.__init__"]}
{"id": "C40", "title": "Concurrent compilations do not deadlock and exclude one another", "statement": "Any number of Pyccel processes started in the same folder and compiling objects that share dependencies always make progress, and two of them never hold the same file lock at once; all locks are released at the end.", "quantifier": "all numbers of processes, dependency lists and schedules", "why_tests_cant": "All interleavings.", "anchors": ["pyccel/codegen/compiling/basic.py:CompileObj.__enter__", "pyccel/codegen/compiling/basic.py:CompileObj.acquire_lock", "pyccel/codegen/compiling/basic.py:CompileObj.release_lock"]}
{"id": "C41", "title": "Support libraries are installed completely", "statement": "After the support library has been requested, the output folder contains every file of the library with its current content, whatever was in the folder before, including the leftovers of an interrupted installation.", "quantifier": "all prior folder contents and all crash points of a previous run", "why_tests_cant": "All crash points.", "anchors": ["pyccel/codegen/compiling/library_config.py:StdlibInstaller.install_to"]}
{"id": "C42", "title": "Compiler flags cover all transitive dependencies", "statement": "The include folders, libraries, library folders and object files passed to the compiler are those of the object and of all objects it depends on directly or indirectly, and nothing else.", "quantifier": "all dependency graphs", "why_tests_cant": "All graphs.", "anchors": ["pyccel/codegen/compiling/basic.py:CompileObj.include", "pyccel/codegen/compiling/basic.py:CompileObj.extra_modules", "pyccel/codegen/compiling/compilers.py:Compiler._get_property"]}
{"id": "C43", "title": "pyccel clean removes generated artefacts and nothing else", "statement": "Cleaning a folder removes all generated folders and (on request) libraries and programs at every level, and leaves every other file untouched.", "quantifier": "all directory trees, all flag combinations", "why_tests_cant": "Arbitrary trees.", "anchors": ["pyccel/commands/pyccel_clean.py:pyccel_clean"]}
{"id": "C44", "title": "Stale objects are recompiled", "statement": "After a request to recompile, the object file is the result of compiling the current source and its dependencies.", "quantifier": "all histories of edits and recompilations with non-decreasing timestamps", "why_tests_cant": "History property, including equal timestamps and changes in a dependency.", "anchors": ["pyccel/codegen/utilities.py:recompile_object"]}
{"id": "C45", "title": "Loop scopes for products and tuple bookkeeping are faithful", "statement": "Resolving an inhomogeneous tuple variable to its elements returns, for every nesting of tuples, the stored element at every position, in order.", "quantifier": "all nestings of tuples and all index paths", "why_tests_cant": "Arbitrary nesting.", "anchors": ["pyccel/parser/scope.py:Scope.collect_tuple_element", "pyccel/parser/scope.py:Scope.collect_all_tuple_elements"]}
{"id": "C46", "title": "Integer and boolean expressions keep their value in C", "statement": "The C text generated for an expression of integer and boolean variables, literals and calls evaluates, under C's rules for precedence, promotion and undefined behaviour, to the value Python gives the expression, and storing it in a variable of the type Pyccel assigns keeps it, as long as all intermediate values fit the types C computes in.", "quantifier": "all expressions of any depth over + - * // % shifts, bitwise, comparison (chained too), not/and/or and conditional operators; all values of the atoms", "why_tests_cant": "Unbounded depth and unbounded values; undefined behaviour is silent.", "anchors": ["pyccel/codegen/printing/ccode.py", "pyccel/parser/syntactic.py:_visit_Compare", "pyccel/ast/operators.py"]}
{"id": "C47", "title": "Integer and boolean expressions keep their value in Fortran", "statement": "The Fortran text generated for such an expression evaluates to the value Python gives it when all operands are defined and fit 64 bits.", "quantifier": "all expressions of any depth; all values of the atoms", "why_tests_cant": "Unbounded depth and values.", "anchors": ["pyccel/codegen/printing/fcode.py"]}
{"id": "C48", "title": "Chained comparisons evaluate each operand once", "statement": "In `a < f(x) < b` every operand is evaluated at most once, in order, in the generated code as in Python.", "quantifier": "all chains of comparisons and all operands", "why_tests_cant": "Only observable through the side effects of calls inside long chains.", "anchors": ["pyccel/parser/syntactic.py:_visit_Compare"]}
{"id": "C49", "title": "Bitwise operators evaluate both operands", "statement": "`a & b`, `a | b` and `a ^ b` evaluate both of their operands, whatever their types.", "quantifier": "all operands", "why_tests_cant": "Only observable through side effects in particular positions.", "anchors": ["pyccel/codegen/printing/ccode.py:_print_PyccelBitAnd", "pyccel/codegen/printing/ccode.py:_print_PyccelBitOr"]}
{"id": "C50", "title": "True division yields the quotient for all operand types", "statement": "`a / b` of integers and booleans is the (rounded) quotient, never an integer division.", "quantifier": "all operands of type bool and int", "why_tests_cant": "All type combinations and all values.", "anchors": ["pyccel/codegen/printing/ccode.py:_print_PyccelDiv"]}
{"id": "C51", "title": "Integer powers are exact", "statement": "`a ** b` of integers is exact in the generated C whenever the result fits 64 bits.", "quantifier": "all bases and exponents", "why_tests_cant": "Fails only for large results.", "anchors": ["pyccel/codegen/printing/ccode.py:_print_PyccelPow"]}
{"id": "C52", "title": "epyccel on several MPI processes never leaves a process waiting", "statement": "When epyccel is called by all processes of a communicator, every process returns or raises, whatever the outcome of the compilation on the root process.", "quantifier": "all numbers of processes, all outcomes of the compilation, all schedules", "why_tests_cant": "A test sees one schedule and a few outcomes; a deadlock shows only for the outcome that makes the processes disagree.", "anchors": ["pyccel/commands/epyccel.py:epyccel"]}
{"id": "C53", "title": "epyccel leaves the interpreter as it found it", "statement": "After a call of epyccel, successful or not, its lock is free, no stage is current, the messages have been printed, and sys.path is what it was.", "quantifier": "all options, all behaviours of the stages, all outcomes of the import", "why_tests_cant": "Every place where an exception may arise is a different path out of the function.", "anchors": ["pyccel/commands/epyccel.py:epyccel_seq", "pyccel/codegen/pipeline.py:execute_pyccel"]}
{"id": "C54", "title": "Build targets have different names", "statement": "The libraries, Python modules and programs that pyccel make declares for the files of a project have different names.", "quantifier": "all projects: any number of files, folders and file names", "why_tests_cant": "A collision needs a particular combination of file names; no finite set of projects excludes it.", "anchors": ["pyccel/codegen/make_pipeline.py:execute_pyccel_make", "pyccel/codegen/build_generation/cmake_gen.py"]}
{"id": "C55", "title": "Libraries are given to the linker in order", "statement": "If an object lists a library before another, or depends on an object that lists the other, the first is passed to the linker before the other, as a linker that reads the libraries once requires.", "quantifier": "all dependency graphs and lists of libraries", "why_tests_cant": "Sharing in the graph decides the order; all graphs.", "anchors": ["pyccel/codegen/compiling/basic.py:CompileObj.libs", "pyccel/codegen/compiling/compilers.py:Compiler._get_property"]}
{"id": "C56", "title": "Loops over iterables visit Python's items in order", "statement": "A for loop over an array, tuple, list, range, enumerate, zip, map or itertools.product runs its body for the same items in the same order as Python, with the same effect of break and return, and leaves the same values in variables and containers.", "quantifier": "all iterables, lengths, contents, targets and loop bodies", "why_tests_cant": "Lengths, contents and what the body does to its own iterable are unbounded.", "anchors": ["pyccel/parser/semantic.py:_get_for_iterators", "pyccel/parser/semantic.py:_visit_For", "pyccel/ast/builtins.py:PythonEnumerate", "pyccel/ast/builtins.py:PythonZip", "pyccel/ast/builtins.py:VariableIterator", "pyccel/ast/itertoolsext.py:Product", "pyccel/codegen/printing/ccode.py:_print_For", "pyccel/codegen/printing/fcode.py:_print_For"]}
{"id": "C57", "title": "Array comprehensions are allocated with the right size", "statement": "The array made from a comprehension with any number of nested loops is allocated with exactly as many elements as the loops produce.", "quantifier": "all nests of loops over ranges and containers, all bounds and all values of the variables in them", "why_tests_cant": "The size is a symbolic sum over bounds that depend on other loops; it must be right for all values of the variables.", "anchors": ["pyccel/parser/semantic.py:_visit_FunctionalFor"]}
{"id": "C58", "title": "sum, min and max of a generator have Python's value", "statement": "An assignment of sum, min or max of a generator expression with any number of loops and conditions leaves Python's value in the variable and changes no other variable.", "quantifier": "all generators (loops, conditions, expressions) and states", "why_tests_cant": "The loops, conditions, lengths and values are unbounded.", "anchors": ["pyccel/parser/semantic.py:_assign_GeneratorComprehension", "pyccel/parser/syntactic.py:_visit_GeneratorExp", "pyccel/ast/functionalexpr.py", "pyccel/codegen/printing/ccode.py", "pyccel/codegen/printing/fcode.py"]}
{"id": "C59", "title": "Arrays always have memory of the right shape, and all of it is freed", "statement": "Whatever the order of assignments, branches, loops, breaks and returns in a function, every local array has memory of the shape of its last assignment whenever it is used; the arrays returned are those Python returns; all other memory is freed exactly when the function ends, and no memory is lost on the way.", "quantifier": "all functions made of array assignments, updates, shape queries, if statements, loops, break and return; all arguments and numbers of iterations", "why_tests_cant": "The allocation status is computed once per statement, but it must be right for every path and every number of iterations that leads there.", "anchors": ["pyccel/parser/semantic.py:_assign_lhs_variable", "pyccel/parser/semantic.py:_ensure_inferred_type_matches_existing", "pyccel/parser/semantic.py:_visit_If", "pyccel/parser/semantic.py:_visit_Return", "pyccel/parser/semantic.py:_garbage_collector", "pyccel/codegen/printing/ccode.py:_print_Allocate", "pyccel/codegen/printing/fcode.py:_print_Allocate"]}
{"id": "C60", "title": "A call gives each parameter the argument Python gives it", "statement": "In a call inside translated code, each parameter receives the argument that Python's rules give it: by position, by name, the default, the tuple of further positional arguments or the dictionary of further keyword arguments. A call that is a TypeError in Python is rejected.", "quantifier": "all parameter lists (positional-only, ordinary, *args, keyword-only, **kwargs, with any defaults) and all calls with positional and keyword arguments", "why_tests_cant": "The number of combinations of kinds of parameters, defaults and ways to pass an argument is unbounded.", "anchors": ["pyccel/parser/syntactic.py:_visit_arguments", "pyccel/parser/semantic.py:_sort_function_call_args", "pyccel/parser/semantic.py:_handle_function"]}
{"id": "C61", "title": "A call from Python of a translated function gives each parameter the argument Python gives it", "statement": "When a translated function is called from Python, the wrapper passes to it exactly the arguments that the Python function would have received, with defaults for those that are missing, and raises a TypeError exactly when Python would or when an argument has the wrong type; it never uses an argument that was not set.", "quantifier": "all parameter lists and all calls with positional and keyword arguments", "why_tests_cant": "The format string and list of names handed to the Python C API must be right for every combination of kinds of parameters and for every call.", "anchors": ["pyccel/ast/cwrapper.py:PyArg_ParseTupleNode", "pyccel/codegen/wrapper/c_to_python_wrapper.py:_unpack_python_args", "pyccel/codegen/wrapper/c_to_python_wrapper.py:_wrap_FunctionDefArgument"]}
{"id": "C62", "title": "A NumPy array passed to a translated function is seen with the same shape and elements", "statement": "When a NumPy array is passed to a translated function and accepted, the function reads and writes exactly the elements of that array, each under its own index, whether the array owns its memory or is a view with gaps, in either ordering; an array returned by a translated function can be passed to another.", "quantifier": "all ranks, shapes, item sizes and strides; all slices of arrays; both orderings and target languages", "why_tests_cant": "The shape and strides of a view are unbounded; the integer divisions used to rebuild it are exact only for some of them.", "anchors": ["pyccel/stdlib/cwrapper/cwrapper.c:get_strides_and_shape_from_numpy_array", "pyccel/stdlib/cwrapper/cwrapper.c:pyarray_check", "pyccel/stdlib/cwrapper/cwrapper.c:to_pyarray", "pyccel/codegen/wrapper/c_to_python_wrapper.py:_extract_NumpyNDArrayType_FunctionDefArgument", "pyccel/codegen/wrapper/fortran_to_c_wrapper.py:_extract_NumpyNDArrayType_FunctionDefArgument"]}
{"id": "C63", "title": "Arguments from Python are type-checked and arrive with their values; lists come back with their changes", "statement": "A call from Python of a translated function raises a TypeError without running the function exactly when an argument has not the annotated type; otherwise the function sees the values of its arguments, its result has the annotated type and value, and lists and sets that it changed have their new elements after the call.", "quantifier": "all parameter lists, Python objects, heaps, functions and both target languages", "why_tests_cant": "The objects, their values and the aliasing between arguments are unbounded; tests pass a few values per type.", "anchors": ["pyccel/codegen/wrapper/c_to_python_wrapper.py:_get_type_check_condition", "pyccel/codegen/wrapper/c_to_python_wrapper.py:_wrap_FunctionDefArgument", "pyccel/codegen/wrapper/c_to_python_wrapper.py:_extract_HomogeneousListType_FunctionDefArgument", "pyccel/codegen/wrapper/c_to_python_wrapper.py:_extract_StringType_FunctionDefArgument", "pyccel/stdlib/cwrapper/cwrapper.h"]}
{"id": "C64", "title": "A call of an overloaded function runs the overload with the types of the arguments", "statement": "When a translated function has several overloads, a call (from Python, or in translated code) runs the overload whose parameter types are those of the arguments, and is refused with a TypeError (or an error of the translation) when there is none.", "quantifier": "all lists of overloads, numbers of parameters, types and argument objects", "why_tests_cant": "The overload is found by an integer computed from all arguments; the combinations of types grow without bound.", "anchors": ["pyccel/codegen/wrapper/c_to_python_wrapper.py:_get_type_check_function", "pyccel/codegen/wrapper/c_to_python_wrapper.py:_wrap_Interface", "pyccel/ast/core.py:Interface.point"]}
{"id": "C65", "title": "Branches and iterations run exactly when Python runs them, whatever temporaries are needed", "statement": "The statements of a translated function (assignments, calls, if/elif/else, while, for, break, continue, return) have the same visible effects in the same order as in Python: each branch and iteration is run exactly when Python runs it, and the parts of expressions that the translation computes in statements of their own (calls with arrays as results, arguments of min, pop, conditional expressions of arrays) are evaluated when, as often as and only if Python evaluates them.", "quantifier": "all nestings of statements, expressions, states and numbers of iterations", "why_tests_cant": "The statements put in front of others depend on the whole nesting of blocks and expressions; whether they are right depends on the state when they are reached.", "anchors": ["pyccel/parser/syntactic.py:_visit_If", "pyccel/parser/syntactic.py:_visit_While", "pyccel/parser/syntactic.py:_visit_For", "pyccel/parser/semantic.py:_visit_CodeBlock", "pyccel/parser/semantic.py:_visit_If", "pyccel/parser/semantic.py:_visit_While", "pyccel/parser/semantic.py:_visit_IfTernaryOperator", "pyccel/parser/semantic.py:_visit_Return", "pyccel/codegen/printing/ccode.py:_print_While", "pyccel/codegen/printing/ccode.py:_print_If", "pyccel/codegen/printing/fcode.py:_print_If", "pyccel/codegen/printing/fcode.py:_print_For"]}
{"id": "C66", "title": "Conditions on optional arguments", "statement": "An if (with elif and else) whose conditions test whether optional arguments were given runs the same branch as in Python, whichever arguments are given, and the translated code never reads an argument that was not given; a condition which cannot be translated is refused with an error.", "quantifier": "all ifs, conditions (and, or, not, comparisons), states and subsets of arguments that are given", "why_tests_cant": "Conditions are split into nested ifs and statements put before the if; the number of ways conditions can be combined with absent arguments is unbounded, and reading an absent argument is undefined behaviour that a test may not notice.", "anchors": ["pyccel/parser/semantic.py:_visit_IfSection", "pyccel/parser/semantic.py:_visit_PyccelIs", "pyccel/ast/builtins.py:PythonBool.__new__", "pyccel/codegen/printing/fcode.py:_handle_not_none", "pyccel/codegen/printing/ccode.py:_handle_is_operator"]}
{"id": "C67", "title": "Assigning to an optional argument", "statement": "A function that assigns to one of its optional arguments (with =, += or as one of the results of a call) computes the same result as in Python whether the argument is given or not: every later read and every later test `is None` sees the value Python sees, nothing is read from or written to an argument that was not given, and the caller's variable is not changed.", "quantifier": "all function bodies (assignments, branches, loops, early returns), all states and all subsets of given arguments", "why_tests_cant": "The translation decides by the order of the text which of two variables holds the value, while Python's value depends on the path taken; tests cover a few paths and an uninitialised copy often holds a plausible value.", "anchors": ["pyccel/parser/semantic.py:_visit_Assign", "pyccel/parser/semantic.py:_visit_AugAssign", "pyccel/parser/semantic.py:_visit_FunctionDef (optional_inits)", "pyccel/parser/semantic.py:_visit_PyccelIs", "pyccel/codegen/printing/ccode.py:is_c_pointer"]}
{"id": "C68", "title": "Assigning several values at once", "statement": "`t1, ..., tn = e1, ..., en` (targets are variables, array elements or tuples of these) leaves every variable and array element with the value it has in Python: all expressions are evaluated in the state before the statement, then the targets are assigned from left to right. An assignment that cannot be translated is refused.", "quantifier": "all numbers and nestings of targets, repeated targets, expressions, and states (including equal values of different indices)", "why_tests_cant": "The translation assigns one target after the other and saves old values in temporaries chosen by comparing the text; there are unboundedly many ways for targets to reappear in later expressions, and aliasing depends on run-time values.", "anchors": ["pyccel/parser/semantic.py:_visit_Assign (5064-5151)", "pyccel/ast/basic.py:get_attribute_nodes", "pyccel/ast/basic.py:substitute", "pyccel/ast/variable.py:IndexedElement.__eq__"]}
{"id": "C69", "title": "Inlined functions", "statement": "A call of a function with the decorator `inline`, as the right-hand side of an assignment or inside an expression, has the same result and the same effects as calling the function: the target gets the value returned in Python, no other variable of the caller changes, and calls in the arguments and in the body are made as often and in the same order.", "quantifier": "all bodies (assignments, branches, loops, returns), all arguments, all calling functions with calls in branches and loops, all clashes of names between caller, function and module, and all states", "why_tests_cant": "The body is copied into the caller with names and arguments substituted; whether this captures a name, repeats an effect or loses a value depends on the combination of caller and function, of which there are unboundedly many.", "anchors": ["pyccel/parser/semantic.py:_visit_InlineFunctionCall", "pyccel/parser/semantic.py:_visit_CodeBlock", "pyccel/parser/syntactic.py:_get_unique_name", "pyccel/parser/scope.py:inline_variable_definition", "pyccel/parser/scope.py:symbol_in_use"]}
{"id": "C70", "title": "Reductions along axes", "statement": "np.sum, np.min and np.max of an array or a view, with axis, keepdims and initial, give an array with NumPy's shape whose element with index i is the reduction of exactly the elements of the argument whose other indices agree with i; the argument is unchanged. The result may be broadcast in the statement in which it is used, and the order and sharing of the generated loops is not observable.", "quantifier": "all shapes, all views (indices, slices with bounds and steps), all non-empty lists of axes, keepdims, initial values, left hand sides to which the result is broadcast, both languages", "why_tests_cant": "a test fixes one rank, one shape and one list of axes; the axes are renumbered after each loop index, so that each combination of axes, slices and kept dimensions follows another path, and square arrays hide transposed indices", "anchors": ["pyccel/ast/numpyext.py: process_index_for_reduction, NumpyReduction, NumpySum, NumpyAmin, NumpyAmax", "pyccel/ast/utilities.py: insert_index, collect_loops", "pyccel/ast/variable.py: IndexedElement.__getitem__", "pyccel/codegen/printing/ccode.py: _handle_numpy_functional", "pyccel/codegen/printing/fcode.py: _print_NumpySum, _print_NumpyAmax, _print_NumpyAmin"]}
{"id": "C71", "title": "Matrix products", "statement": "np.matmul(a, b) and a @ b, for vectors, matrices and stacks of matrices of any rank, give an array with NumPy's shape whose elements are the sums of the products of the elements of the rows of a and the columns of b, the dimensions in front being broadcast; a and b are unchanged unless one of them is the result, and the result does not depend on the memory order of the arrays.", "quantifier": "all ranks and shapes, all orders of the arguments and of the result, all contents, both languages", "why_tests_cant": "a test fixes one shape; square or symmetric matrices hide transposed operands, and the loops over stacks exist only for higher ranks", "anchors": ["pyccel/ast/numpyext.py: NumpyMatmul", "pyccel/ast/utilities.py: insert_index, collect_loops", "pyccel/codegen/printing/ccode.py: _print_NumpyMatmul, _inline_vecdot", "pyccel/codegen/printing/fcode.py: _print_NumpyMatmul", "pyccel/stdlib/math/pyc_math_c.c: pyc_matmul, pyc_matvecmul, pyc_vecmatmul"]}
{"id": "C72", "title": "Cross products", "statement": "np.cross(a, b, axisa, axisb, axisc, axis) and np.linalg.cross store, in an array with NumPy's shape, the cross products of the vectors of a and b along the given axes, the other dimensions being broadcast; nothing else changes, and the result does not depend on the other statements of the block or on whether the result is one of the arguments.", "quantifier": "all shapes with the same number of dimensions, all axes, all contents and all sequences of products in a block", "why_tests_cant": "a test has one product per function, arguments along the last axis and sizes larger than 1; the loop indices of a product depend on the statements before it in the block", "anchors": ["pyccel/ast/numpyext.py: NumpyCross.__init__, insert_indices", "pyccel/ast/utilities.py: collect_loops, insert_fors", "pyccel/parser/semantic.py: _build_NumpyCross", "pyccel/ast/operators.py: broadcast", "pyccel/codegen/printing/ccode.py: _print_NumpyCross", "pyccel/stdlib/math/pyc_math_f90.F90: cross_product"]}
{"id": "C73", "title": "Modules are initialised once, in Python's order", "statement": "The statements at the top level of each module of a project run exactly once, all and in order, before any statement of a module which imports it, and an executable (or an extension module imported by Python) shows the same sequence of effects as Python running the same files.", "quantifier": "all projects (any number of modules, any acyclic graph of imports at the top level, in functions and in the block of the program, any statements and calls of functions), all sequences of requests to an image, all programs", "why_tests_cant": "the graphs of imports, the orders in which modules are asked for, and the places of the imports are unbounded", "anchors": ["pyccel/parser/semantic.py:_visit_Module", "pyccel/parser/semantic.py:_visit_Import", "pyccel/parser/syntactic.py:_visit_Module", "pyccel/codegen/wrapper/c_to_python_wrapper.py:_build_module_init_function"]}
{"id": "C74", "title": "The arrays of modules are released once, at the end", "statement": "When a program ends, every array which the top level of a module allocated has been released exactly once; no array which is not a temporary is released while statements remain to be run.", "quantifier": "all projects, all graphs of imports, all sets of arrays and temporaries of each module, all programs", "why_tests_cant": "the graphs of imports and the order of the set of allocated variables are unbounded; the order of a Python set differs from run to run", "anchors": ["pyccel/parser/semantic.py:_visit_Module", "pyccel/parser/semantic.py:_garbage_collector", "pyccel/parser/semantic.py:_visit_Import"]}
{"id": "C75", "title": "np.arange has the values of NumPy", "statement": "For every start, stop and step, the array which a translated np.arange call creates has one element start + k*step for each k >= 0 whose value lies before the stop, and len() of it is that number.", "quantifier": "all integer and rational starts, stops and steps (positive, negative), both element types, C and Fortran", "why_tests_cant": "the size is a rounded-up floating point division which must be exact for every pair of integers; tests try a few ranges", "anchors": ["pyccel/ast/numpyext.py: NumpyArange", "pyccel/codegen/printing/fcode.py: _print_NumpyArange", "pyccel/codegen/printing/ccode.py: _print_PyccelDiv, _print_MathFunctionBase"]}
{"id": "C76", "title": "np.linspace has the values of NumPy", "statement": "For every start, stop, number of values and endpoint, the array which a translated np.linspace call assigns has the values NumPy computes: equally spaced from the start, the last one the stop if the endpoint is included, rounded down for an integer dtype; for arrays of starts and stops this holds in each column.", "quantifier": "all rational starts and stops, numbers of values, literal and computed endpoints, element types, previous contents of the array, C and Fortran", "why_tests_cant": "the values depend on every combination of size, endpoint and dtype, and on whether the arguments read the array being assigned", "anchors": ["pyccel/ast/numpyext.py: NumpyLinspace", "pyccel/codegen/printing/ccode.py: _print_NumpyLinspace", "pyccel/codegen/printing/fcode.py: _print_NumpyLinspace", "pyccel/ast/utilities.py: collect_loops"]}
{"id": "C77", "title": "Pointers to arrays and the lifetime of their targets", "statement": "In a function which is accepted, a variable which is assigned another array (or a slice of it) stays a valid view of it: writes through either are seen through the other, memory is never used after it was released nor released twice, everything allocated is released but the result, an array of the caller which is returned is declared as such, and the output, the arrays of the caller and the result are those of Python.", "quantifier": "all functions made of new arrays, pointers to whole arrays and slices, element reads and writes, conditionals, loops and returns; all arrays and aliasing of the arguments; all branches taken and numbers of iterations", "why_tests_cant": "Which variables are pointed at is decided in one pass over the text, whereas the paths through branches and loops are unbounded; a dangling pointer usually reads the old values, so a test passes.", "anchors": ["pyccel/parser/semantic.py:_indicate_pointer_target", "pyccel/parser/semantic.py:_check_pointer_targets", "pyccel/parser/semantic.py:_ensure_inferred_type_matches_existing", "pyccel/parser/semantic.py:_assign_lhs_variable", "pyccel/parser/semantic.py:_visit_Return", "pyccel/parser/semantic.py:_visit_FunctionDef"]}
{"id": "C78", "title": "Types survive the stub file", "statement": "The annotation written for a type in the stub file of a module (also for a pointer, for an array on the stack and for an argument with several types) is read back, when the module is imported, as the same type, whatever other annotations were read before; two different types never have the same annotation.", "quantifier": "all types built from Python's and NumPy's scalars, strings, classes, arrays of any rank and order, tuples, lists, sets, dictionaries and Final, nested to any depth; all scopes and all histories of annotations read before", "why_tests_cant": "Types nest without bound, the text is read by a grammar with optional parts and white space, and types are shared through caches whose keys identify different types, so that the order in which files are read matters.", "anchors": ["pyccel/codegen/printing/pycode.py:_get_type_annotation", "pyccel/codegen/printing/pycode.py:_print_NumpyNDArrayType", "pyccel/parser/grammar/types.tx", "pyccel/parser/semantic.py:_get_indexed_type", "pyccel/parser/semantic.py:_visit_SyntacticTypeAnnotation", "pyccel/ast/datatypes.py:FinalType"]}
{"id": "C79", "title": "Signatures survive the stub file", "statement": "The signature written for a function or a method in the stub file of its module is valid Python, and Python reads from it the same parameters with the same kinds (positional-only, by position or name, keyword-only, *args, **kwargs) and the same defaults.", "quantifier": "all signatures with any numbers of parameters of each kind and any defaults", "why_tests_cant": "The number of combinations of kinds, numbers of parameters and defaults is unbounded, and the places of / and * are computed from counts.", "anchors": ["pyccel/codegen/printing/pycode.py:_function_signature", "pyccel/codegen/printing/pycode.py:_print_FunctionDef", "pyccel/codegen/printing/pycode.py:_print_FunctionDefArgument", "pyccel/parser/syntactic.py:_visit_arguments"]}
{"id": "C80", "title": "The meaning of type annotations with type aliases", "statement": "An annotation which is accepted gives exactly the types it means: if type aliases in it stand for several types, one type for each choice of a type for each use of an alias, with the rank and the order given; an annotation which means one type is accepted.", "quantifier": "all annotations of any depth and width, all type aliases and all annotations read before", "why_tests_cant": "The number of choices grows with the annotation, which nests without bound, and the results depend on caches of the types made before.", "anchors": ["pyccel/parser/semantic.py:_get_indexed_type", "pyccel/parser/semantic.py:_visit_SyntacticTypeAnnotation", "pyccel/parser/semantic.py:_visit_UnionTypeAnnotation", "pyccel/ast/type_annotations.py:UnionTypeAnnotation"]}
{"id": "C81", "title": "Objects of a compiled module never show released memory", "statement": "Through any array or class instance that Python code still holds, obtained from a compiled module in any way (constructor, function, method, attribute), everything that can be read exists: it has not been released, whatever other names were deleted in between; and no memory is released twice.", "quantifier": "all sequences of creating arrays and instances, calling functions and methods which store or return pointers, reading and setting attributes, copying and deleting names, in C and in Fortran", "why_tests_cant": "the lifetime of an object depends on the whole history of calls and deletions, and released memory often still holds the old values", "anchors": ["pyccel/codegen/wrapper/c_to_python_wrapper.py:_save_referenced_objects", "pyccel/codegen/wrapper/c_to_python_wrapper.py:_incref_return_pointer", "pyccel/codegen/wrapper/c_to_python_wrapper.py:_get_class_destructor", "pyccel/codegen/wrapper/c_to_python_wrapper.py:_wrap_DottedVariable", "pyccel/parser/semantic.py:_check_pointer_targets"]}
{"id": "C82", "title": "Objects of a compiled module are released when they are no longer needed", "statement": "When no name leads to an array or class instance of a compiled module any more, the object and its memory are released; when the program has deleted all its names nothing is left.", "quantifier": "all sequences of creating arrays and instances, calling functions and methods which store or return pointers, reading and setting attributes, copying and deleting names, in C and in Fortran", "why_tests_cant": "a leak does not change any result and depends on the history of the program", "anchors": ["pyccel/codegen/wrapper/c_to_python_wrapper.py:_allocate_class_instance", "pyccel/codegen/wrapper/c_to_python_wrapper.py:_extract_CustomDataType_FunctionDefResult", "pyccel/codegen/wrapper/c_to_python_wrapper.py:_get_class_destructor", "pyccel/stdlib/cwrapper/cwrapper.c:to_pyarray"]}
{"id": "C83", "title": "References to Python objects in calls of compiled functions", "statement": "When a compiled function is called from Python, the objects the user holds stay valid, the result is the value the function computes for the values of the arguments, an exception is raised only for arguments of the wrong type, and every object which is made or looked at on the way is released once nobody holds it.", "quantifier": "all histories in which objects are made, copied, passed to functions and dropped; all functions of numbers, strings, lists, tuples and sets; all results made of numbers, lists, sets, tuples and dictionaries, nested to any depth", "why_tests_cant": "Tests compare results. A reference which is counted once too often is not visible in any result, and one counted too little only shows when the memory happens to be used again.", "anchors": ["pyccel/codegen/wrapper/c_to_python_wrapper.py:CToPythonWrapper._get_type_check_condition", "pyccel/codegen/wrapper/c_to_python_wrapper.py:CToPythonWrapper._wrap_FunctionDef", "pyccel/codegen/wrapper/c_to_python_wrapper.py:CToPythonWrapper._extract_HomogeneousListType_FunctionDefArgument", "pyccel/codegen/wrapper/c_to_python_wrapper.py:CToPythonWrapper._extract_HomogeneousContainerType_FunctionDefResult", "pyccel/codegen/wrapper/c_to_python_wrapper.py:CToPythonWrapper._extract_DictType_FunctionDefResult"]}
{"id": "C84", "title": "np.array puts the elements of its argument in the new array", "statement": "After x = np.array(arg, order=..., ndmin=...), x[i1, ..., in] is arg[i1]...[in] for every index of x (the indices of the dimensions added by ndmin are skipped), whatever the nesting of lists, tuples and arrays in arg and the orders of the arrays in it and of x, in C and in Fortran, and no other memory is changed.", "quantifier": "every nesting of lists, arrays and scalar expressions in which all elements of a list have the same shape, every order, every ndmin, every previous content of x, every index", "why_tests_cant": "The code goes through flattened lists in C and nested reshape calls with permuted orders in Fortran; their correctness depends on the combination of nesting depth, shapes, orders of each part and order requested, an unbounded family.", "anchors": ["pyccel/ast/numpyext.py: NumpyArray, get_shape_of_multi_level_container", "pyccel/codegen/printing/fcode.py: _print_NumpyArray, _get_node_without_gFTL", "pyccel/codegen/printing/ccode.py: copy_NumpyArray_Data, _flatten_list"]}
{"id": "C85", "title": "Assignments to lists and sets give the values of Python", "statement": "When a function assigns lists and sets, literally, by set(), copy(), union, intersection, difference, a list comprehension or a call, and adds to them with append, add, extend, update, |=, &= and -=, every variable has afterwards the elements it has in Python, also when it had been assigned before, in loops, and when the variable which is assigned is used on the right of the assignment. No memory is used after it has been released, and no memory is lost.", "quantifier": "every program of such statements and loops, every number of iterations, every content of the lists and sets, every function called and every condition of a comprehension, C and Fortran", "why_tests_cant": "whether the memory is released before it is read depends on which variables occur in the statement and on the statements before it; a test has one such program, and reading released memory often gives the right answer", "anchors": ["pyccel/parser/semantic.py:SemanticParser._build_ListExtend", "pyccel/parser/semantic.py:SemanticParser._build_SetUpdate", "pyccel/parser/semantic.py:SemanticParser._build_SetUnion", "pyccel/parser/semantic.py:SemanticParser._build_SetIntersection", "pyccel/parser/semantic.py:SemanticParser._build_SetDifference", "pyccel/parser/semantic.py:SemanticParser._build_PythonSetFunction", "pyccel/parser/semantic.py:SemanticParser._visit_FunctionalFor", "pyccel/parser/semantic.py:SemanticParser._assign_lhs_variable", "pyccel/codegen/printing/ccode.py:CCodePrinter._print_Allocate", "pyccel/codegen/printing/fcode.py:FCodePrinter._print_Allocate", "pyccel/codegen/printing/fcode.py:FCodePrinter._print_SetUnion"]}
{"id": "C86", "title": "Functions return the values of the expressions after return", "statement": "A function gives its caller the values that the expressions after return have in Python: single expressions, sum, max and min of generators, conditional expressions of strings and tuples, also when a function has several return statements with other expressions. The variables of the function are freed, but nothing that is returned is read after it was freed, and every variable of the generated function is declared once.", "quantifier": "every set of return statements of a function, every expression in them, every content of the variables, every set of variables to be freed, C and Fortran", "why_tests_cant": "the names of the results depend on the expressions of all the returns together, and the order in which the results are assigned matters only for some expressions; a test has one function", "anchors": ["pyccel/parser/syntactic.py:SyntaxParser._get_unique_name", "pyccel/parser/semantic.py:SemanticParser._visit_Return", "pyccel/parser/semantic.py:SemanticParser._visit_Assign", "pyccel/parser/semantic.py:SemanticParser._visit_FunctionalFor", "pyccel/codegen/printing/ccode.py:CCodePrinter._print_Return", "pyccel/codegen/printing/ccode.py:CCodePrinter._print_FunctionDef", "pyccel/codegen/printing/fcode.py:FCodePrinter._print_Return"]}
{"id": "C87", "title": "Strings have the characters of Python in C and Fortran, and their memory is freed once", "statement": "A function that assigns literals, other strings, str(), concatenations and results of other functions to local strings, compares strings, prints them in loops and if statements and returns one of them gives the string of Python and prints the same; no memory is used after it is freed or before it is initialised, and after the call only the memory of the result is in use. Strings passed to and returned from wrapped functions have the same characters on both sides, and calls do not leave memory behind.", "quantifier": "all programs of assignments, comparisons, prints, if statements and loops over strings, all strings (every code point), all thresholds above which the C library puts a string on the heap, all histories of calls", "why_tests_cant": "Whether a string is freed twice or used after it was freed depends on the length of the string, the branches taken before and the contents of uninitialised memory; which characters survive depends on every code point.", "anchors": ["pyccel/parser/semantic.py: _ensure_inferred_type_matches_existing, _allocate_deallocate, _visit_If, _visit_For", "pyccel/codegen/printing/ccode.py: _print_Allocate, _print_Deallocate, _print_PyccelEq, _print_PythonStr, _print_LiteralString", "pyccel/codegen/printing/fcode.py: _print_PyccelEq, _print_Assign, _print_Deallocate", "pyccel/codegen/wrapper/c_to_python_wrapper.py: _extract_StringType_FunctionDefArgument, _extract_StringType_FunctionDefResult", "pyccel/codegen/wrapper/fortran_to_c_wrapper.py: _extract_StringType_FunctionDefArgument"]}
{"id": "C88", "title": "Objects of classes live and die as in Python", "statement": "A function that makes local objects of a class with NumPy array attributes, calls their methods and replaces them prints the same in Fortran and C as in Python, including what the destructors print, and the memory of the attributes is released when the object is destroyed. This holds for the printed values when the constructor makes every attribute once and later assignments keep its literal shape, and every object is created outside branches and loops. It is false otherwise: the destructors free no attribute, an object cannot be replaced in Fortran, a method that assigns to an attribute and returns a value frees it, an object made only in a branch is destroyed even if it does not exist, the shape of a later assignment is compared with that of the constructor, and destructors run at other times than in Python.", "quantifier": "all classes of the fragment, all programs with local objects, all arguments, both languages and all orders of the set of local objects", "why_tests_cant": "The set of programs and the order in which a set of objects is destroyed are unbounded; leaks and undefined memory are often invisible in a test run.", "anchors": ["pyccel/parser/semantic.py:SemanticParser._create_class_destructor", "pyccel/parser/semantic.py:SemanticParser._garbage_collector", "pyccel/parser/semantic.py:SemanticParser._assign_lhs_variable", "pyccel/parser/semantic.py:SemanticParser._ensure_inferred_type_matches_existing", "pyccel/parser/semantic.py:SemanticParser._visit_Return", "pyccel/parser/semantic.py:SemanticParser._handle_function", "pyccel/naming/cnameclashchecker.py:CNameClashChecker.get_collisionless_name", "pyccel/codegen/printing/ccode.py:CCodePrinter._print_Deallocate", "pyccel/codegen/printing/fcode.py:FCodePrinter._print_Deallocate"]}
{"id": "C89", "title": "Names assigned in functions are local", "statement": "As in Python, a name that a function assigns to (by an assignment or as the variable of a loop) is a variable of that function: calling the function never changes a variable of the module, and what the program prints does not depend on names that functions and the module share. This holds for names that the module never assigns, for parameters and for names declared with a type at the start of the function. It is false for every other name: if the module has a variable of that name when the function is first called (or after the whole module otherwise), the function reads and writes the variable of the module. A loop of the module can end early or never end, because a function it calls has a loop over the same name.", "quantifier": "all modules with any functions and calls, all names and values, all orders of assignments and first calls", "why_tests_cant": "Whether names of the module and of functions meet, and in which order functions are first called, ranges over all programs; tests usually wrap the code in functions of fresh modules.", "anchors": ["pyccel/parser/semantic.py:SemanticParser._assign_lhs_variable", "pyccel/parser/semantic.py:SemanticParser.check_for_variable", "pyccel/parser/semantic.py:SemanticParser._visit_Module", "pyccel/parser/semantic.py:SemanticParser._handle_function", "pyccel/parser/semantic.py:SemanticParser._visit_For", "pyccel/parser/scope.py:Scope.find", "pyccel/parser/scope.py:Scope.insert_variable"]}
{"id": "C90", "title": "Functions of several types have all their overloads, with the defaults of the definition", "statement": "From a function whose parameters have unions of types and type variables, one overload is made for each choice of types (one type for each type variable, one type of the union for each parameter) and no other; no two overloads have the same types; every overload has the default values of the definition; and a call that leaves out arguments passes the defaults of the definition. The first holds in general. The others hold if each type variable is the whole annotation of some parameter, and if the types of a union come in the order bool, int, float, complex from the type of the default. Otherwise: 'T | int' makes two overloads for int, `a: 'float | int' = 1` crashes, `a: 'bool | int' = 5` has the default 1 for int, and f() means f(5) the first time and f(True) afterwards; `a: float = 1` refuses the first call f() and accepts later ones; `a: T, b: T = 5` refuses f(1.5).", "quantifier": "all definitions with any number of parameters, unions and type variables, all literals, all calls by position before and after the function has been analysed", "why_tests_cant": "The number of definitions is unbounded, and the result depends on the order of types in unions and on which call of the function comes first.", "anchors": ["pyccel/parser/semantic.py:SemanticParser._visit_FunctionDef", "pyccel/parser/semantic.py:SemanticParser._visit_FunctionDefArgument", "pyccel/parser/semantic.py:SemanticParser._visit_UnionTypeAnnotation", "pyccel/parser/semantic.py:SemanticParser._visit_FunctionCall", "pyccel/parser/semantic.py:SemanticParser._sort_function_call_args", "pyccel/ast/literals.py:convert_to_literal", "pyccel/ast/core.py:Interface.point", "pyccel/ast/typingext.py:TypingTypeVar"]}
{"id": "C91", "title": "Joined and repeated tuples and lists have the elements of Python", "statement": "After `x = a + b` and `x = a * n` on homogeneous tuples or lists, x has the elements of a followed by those of b, respectively the elements of a n times, in C and in Fortran, whatever the operands are (literals, variables, other sums and products) and whatever x was before.", "quantifier": "all programs of literals, sums and products of tuples or lists assigned to variables, all element values, all lengths, all values of the numbers of repetitions, both languages", "why_tests_cant": "the generated code is a memory allocation followed by copies at computed offsets; whether they fit depends on the lengths and the run-time values of all the operands and on whether the target is one of them", "anchors": ["pyccel/ast/utilities.py:collect_loops", "pyccel/ast/core.py:Concatenate", "pyccel/ast/core.py:Duplicate", "pyccel/parser/semantic.py:SemanticParser._visit_PyccelAdd", "pyccel/parser/semantic.py:SemanticParser._visit_PyccelMul", "pyccel/parser/semantic.py:SemanticParser._infer_type", "pyccel/ast/variable.py:IndexedElement.__getitem__", "pyccel/codegen/printing/ccode.py:CCodePrinter._print_Allocate", "pyccel/codegen/printing/fcode.py:FCodePrinter._print_Allocate"]}
{"id": "C92", "title": "Imports mean the files of Python, and files are analysed after those they import", "statement": "`pyccel file` and `pyccel make files` read every file that is imported, directly or through other files, exactly once and after the files it imports, never use the stub of a file that has changed since, and give each name in an import statement the meaning it has in Python, for all import graphs.", "quantifier": "all sets of files in all folders, all import statements (relative and absolute), all import graphs including cycles, all times of change", "why_tests_cant": "the parsers share a dictionary that is filled by mutual recursion over the import graph; whether it terminates and which file a name means depends on the whole graph, not on one file", "anchors": ["pyccel/parser/parser.py:Parser.parse", "pyccel/parser/parser.py:Parser.parse_sons", "pyccel/parser/parser.py:Parser.annotate", "pyccel/parser/parser.py:Parser._annotate_sons", "pyccel/parser/base.py:get_filename_from_import", "pyccel/codegen/make_pipeline.py:execute_pyccel_make", "pyccel/parser/semantic.py:SemanticParser._visit_Import"]}
{"id": "C93", "title": "A function translated to Fortran receives exactly the optional arguments the caller passed", "statement": "When a function or method translated to Fortran is called from Python, each parameter the caller passed arrives at its own dummy argument, each parameter left out (or passed as None) is absent in Fortran, no null pointer is dereferenced and no default overrides a value, whichever combination of optional arguments is chosen. The same holds for methods with several type signatures.", "quantifier": "every list of parameters with or without defaults, every subset of optional arguments passed and every value", "why_tests_cant": "There are 2^n call patterns for n optional arguments and unboundedly many signatures; tests try a few with one or two optional arguments.", "anchors": ["pyccel/codegen/wrapper/fortran_to_c_wrapper.py: _get_function_def_body, _wrap_FunctionDef, _extract_FunctionDefArgument", "pyccel/ast/core.py: FunctionCall.__init__, Interface.point", "pyccel/codegen/printing/fcode.py: _print_FunctionCall"]}
{"id": "C94", "title": "isinstance has the value it has in Python", "statement": "A call of isinstance in a translated function has the value it has in Python for the object that is passed, for every class hierarchy of the program and every type, tuple of types or union as second argument, and its first argument is evaluated.", "quantifier": "every acyclic class hierarchy, every object, every nesting of tuples and unions of types", "why_tests_cant": "The call is replaced by a literal when the program is translated; hierarchies and nested tuples of types are unbounded, and the objects passed at run time are not known then.", "anchors": ["pyccel/parser/semantic.py: _build_PythonIsInstance, get_cls_base, _find_superclasses", "pyccel/ast/class_defs.py: get_builtin_cls_base", "pyccel/ast/operators.py: PyccelOr.make_simplified"]}
{"id": "C95", "title": "x in c has the value it has in Python", "statement": "The expression x in c, for a list, set or dictionary c, has the value it has in Python in both target languages, and its operands are evaluated once.", "quantifier": "every value x, every container of values of one type, C and Fortran", "why_tests_cant": "Containers and values are unbounded, and the types of the element and of the container can be combined in many ways.", "anchors": ["pyccel/parser/semantic.py: _visit_PyccelIn", "pyccel/codegen/printing/ccode.py: _print_PyccelIn", "pyccel/codegen/printing/fcode.py: _print_PyccelIn"]}
{"id": "C96", "title": "Comments and directives keep their place in the program", "statement": "When a file is read, every comment of the file (and so every OpenMP or OpenACC directive, which is a comment starting with #$) is put back exactly once in the syntax tree, in the order of the file; the statements are unchanged. A comment is placed between the statements which precede and follow it in the file, and a comment at the column of the statement which follows it is in the block of that statement.", "quantifier": "for every tree of statements of any depth and size, every list of comments with any lines and columns, and every list of lines of else", "why_tests_cant": "the place of a comment depends on the whole file: the lines of every else, the comments of later statements, and the nesting of blocks; tests have a few files, most without two else branches or without comments in both", "anchors": ["pyccel/parser/extend_tree.py: get_comments, extend_tree, get_last_lineno, insert_comments", "pyccel/parser/syntactic.py: SyntaxParser.__init__"]}
{"id": "C97", "title": "Functions of math have the values of Python", "statement": "math.floor, math.ceil and math.trunc give the greatest integer not above, the least integer not below and the integer towards zero of their argument, whatever its type, and math.pow(a, b) raises the value of a to the value of b, whatever expressions a and b are.", "quantifier": "for all integers, booleans and finite floats as arguments, for both languages, for the assignment and the printing of the result, and for all expressions as arguments of pow", "why_tests_cant": "Errors appear only beyond 2^53, beyond 32 bits, for particular types of argument or for arguments of pow with particular operators; tests use a few small values and names.", "anchors": ["pyccel/codegen/printing/ccode.py: _print_MathFunctionBase, _print_MathTrunc", "pyccel/codegen/printing/fcode.py: _print_MathFloor, _print_MathCeil, _print_MathTrunc, _print_MathPow", "pyccel/ast/mathext.py: MathCeil, MathFloor, MathTrunc, MathPow"]}
{"id": "C98", "title": "All targets of an assignment get its value", "statement": "After x = y = ... = e every target has the value that e had, e is evaluated once and nothing else changes; after x, y = e each target has the element of e at its place, and a number or a sequence of another length is an error.", "quantifier": "for all numbers of targets, all kinds of right sides (expressions, displays, variables, calls), all values and all previous values of the targets", "why_tests_cant": "Whether the targets are right depends on the kind and length of the right side and on what the targets contained before; no finite set of statements covers these, and the wrong code runs without error.", "anchors": ["pyccel/parser/syntactic.py: _visit_Assign", "pyccel/parser/semantic.py: _visit_Assign", "pyccel/ast/variable.py: Variable.__getitem__, IndexedElement.__getitem__"]}
{"id": "C99", "title": "round of a float is the integer of Python", "statement": "round(x) of a float is the nearest integer, and of two nearest ones the even one; round(x, n) is the nearest decimal with n digits, and of two nearest ones the one with an even last digit; and the result of round(x) is printed and assigned as an integer.", "quantifier": "every float of 64 bits whose result has 64 bits, both languages, every number of digits", "why_tests_cant": "There are 2^64 floats, and the sums and differences of the runtime are rounded themselves: the floats next to a half and the integers above 2^52 behave in another way than those that tests try.", "anchors": ["pyccel/stdlib/math/pyc_math_c.c: fpyc_bankers_round", "pyccel/stdlib/math/pyc_math_f90.F90: pyc_bankers_round_float", "pyccel/codegen/printing/ccode.py: _print_PythonRound", "pyccel/codegen/printing/fcode.py: _print_PythonRound", "pyccel/ast/builtins.py: PythonRound"]}
{"id": "C100", "title": "Elements and slices of inhomogeneous tuples are those of Python", "statement": "t[i] and t[a:b:s], for a tuple that is written out or a variable whose value is a tuple with elements of different types, nested in any way, are the elements Python selects; programs that Python runs are accepted.", "quantifier": "every nesting of tuples, indices and slices, every literal index, bound and step, every length", "why_tests_cant": "Tests try a few tuples with a few indices; bounds beyond the ends, steps, negative numbers and nested slices combine without limit.", "anchors": ["pyccel/parser/semantic.py: _extract_indexed_from_var", "pyccel/parser/semantic.py: _visit_IndexedElement", "pyccel/ast/builtins.py: PythonTuple.__getitem__", "pyccel/ast/variable.py: IndexedElement"]}
{"id": "C101", "title": "The root of a square", "statement": "`math.sqrt(x*x)` and `math.sqrt(e**2)`, which are compiled as `fabs`, have the value that Python computes, and call the functions in their arguments as often and in the same order.", "quantifier": "every expression of products, squares, roots, variables and calls, every double that the variables and functions have", "why_tests_cant": "The identity sqrt(x*x) = |x| has to survive two roundings for each of 2^64 doubles; it does for magnitudes of 2^-511 to 2^512 and no sample shows where it stops.", "anchors": ["pyccel/parser/semantic.py: SemanticParser._build_MathSqrt", "pyccel/parser/semantic.py: SemanticParser._visit_PyccelPow"]}
{"id": "C102", "title": "Augmented assignments with side effects and elements of arrays", "statement": "`x op= e` and `a[i] op= e` with integers leave the memory as Python does and evaluate the index and the operand once, in Python's order.", "quantifier": "all operators that are accepted, all targets, operands and functions called in them, all memories, every order of evaluation that compilers may choose", "why_tests_cant": "The sign combinations of operands, side effects of calls in the index or the operand and the compiler's order of evaluation cannot be enumerated; the tests use positive operands for %= and pure indices.", "anchors": ["pyccel/codegen/printing/ccode.py: CCodePrinter._print_AugAssign", "pyccel/codegen/printing/fcode.py: FCodePrinter._print_AugAssign", "pyccel/ast/core.py: AugAssign.to_basic_assign", "pyccel/parser/semantic.py: SemanticParser._visit_AugAssign"]}
{"id": "C103", "title": "Parameters and results of functions in C", "statement": "In the generated C, every parameter of a called function has the value of its argument, parameters passed by address are the caller's objects, the several results of a function are written to the variables assigned to, and None arrives as None.", "quantifier": "all functions (with or without self, several results, variables of outer functions), all combinations of kinds of parameters and arguments, all memories", "why_tests_cant": "Whether a variable is a pointer depends on its kind, on being optional, an alias, an argument or a result; the combinations of these for parameter and argument, and the positions of results, are unbounded.", "anchors": ["pyccel/codegen/printing/ccode.py: CCodePrinter.is_c_pointer", "pyccel/codegen/printing/ccode.py: CCodePrinter._print_FunctionCall", "pyccel/codegen/printing/ccode.py: CCodePrinter.function_signature", "pyccel/codegen/printing/ccode.py: CCodePrinter._print_ObjectAddress", "pyccel/codegen/printing/ccode.py: CCodePrinter._print_Variable"]}
{"id": "C104", "title": "Results of a function can be assigned to its arguments", "statement": "After `x, y, ... = f(a, b, ...)` the targets have the values that f returns in Python, also when targets are arguments of the same call (`a = f(a)`, `x, y = f(x, y)`, `v[i] = f(v[i])`, `v[:] = f(v)`, `v[0], v[1] = f(v)`), for numbers, arrays and lists, in C and Fortran; and pyccel generates code for it.", "quantifier": "all numbers and kinds of targets and arguments, all functions that do not change their arguments, all values, all states of memory", "why_tests_cant": "Whether the call is right depends on which targets and arguments share memory and in which order the function computes its results; the combinations are not bounded.", "anchors": ["pyccel/codegen/printing/fcode.py:FCodePrinter._print_FunctionCall", "pyccel/codegen/printing/fcode.py:FCodePrinter._print_Allocate", "pyccel/codegen/printing/ccode.py:CCodePrinter._print_Assign", "pyccel/codegen/printing/ccode.py:CCodePrinter._print_Allocate", "pyccel/codegen/printing/ccode.py:CCodePrinter._print_FunctionCall", "pyccel/parser/semantic.py:SemanticParser._ensure_inferred_type_matches_existing"]}
{"id": "C105", "title": "Every parameter of a call gets the argument Python gives it, also arrays by keyword and None", "statement": "For a call `f(e1, ..., en, k1=e1', ...)` in translated code each parameter has, in C and Fortran, the value Python binds to it: the positional argument of its number, otherwise the argument with its name, otherwise its default; also when arguments are expressions with arrays (`x + y`, `np.ones(3)`) and when they are None.", "quantifier": "all signatures, all numbers of positional and keyword arguments in any order, all values including None, both languages", "why_tests_cant": "Which parameter an argument reaches depends on the signature, on which arguments are array expressions and on where None stands among the others; the tests pass arrays by keyword only as variables and None only last or by keyword.", "anchors": ["pyccel/parser/semantic.py: _visit_FunctionCallArgument, _sort_function_call_args, _handle_function", "pyccel/ast/core.py: FunctionDefArgument.default_call_arg", "pyccel/codegen/printing/fcode.py: _print_FunctionCall, _print_FunctionCallArgument", "pyccel/codegen/printing/ccode.py: _print_FunctionCall, _print_Nil"]}
{"id": "C106", "title": "Floor division and remainder of floats", "statement": "For floats a and b, b not zero, a // b is in C and Fortran the value of Python: the greatest integer not above the exact quotient; a % b is the rounded value of a - floor(a / b) * b, and a zero result has the sign of b.", "quantifier": "all pairs of doubles (finite, divisor not zero), including subnormal numbers, both signs and both zeros; quotients below 2^53 in magnitude for //", "why_tests_cant": "There are 2^128 pairs; the generated code rounds the quotient before it takes the floor, so whether the result is right depends on the last bits of both operands; tests use a few values.", "anchors": ["pyccel/codegen/printing/ccode.py: _print_PyccelFloorDiv, _print_PyccelMod", "pyccel/codegen/printing/fcode.py: _print_PyccelFloorDiv", "pyccel/stdlib/math/pyc_math_c.h: pyc_fmodulo"]}
{"id": "C107", "title": "np.where has its value wherever it stands in an expression", "statement": "The value of an expression with np.where(c, a, b) in it is, element by element, that of Python: c selects a or b, and operators around np.where are applied to the selected value. In C this holds when np.where is the whole right-hand side or a value of another np.where; it fails whenever np.where is an operand of an operator or (part of) a condition, as the conditional is printed without parentheses. In Fortran (merge) it holds everywhere.", "quantifier": "all expressions built from np.where, operators and parts without np.where, all values of the variables", "why_tests_cant": "The tests of np.where assign its result directly; which operators take part of its text is a matter of every nesting and every precedence.", "anchors": ["pyccel/codegen/printing/ccode.py:_print_NumpyWhere", "pyccel/codegen/printing/fcode.py:_print_NumpyWhere", "pyccel/ast/operators.py:PyccelOperator._handle_precedence", "pyccel/ast/numpyext.py:NumpyWhere"]}
{"id": "C108", "title": "np.count_nonzero and np.nonzero count and list the elements that are not zero", "statement": "In Fortran np.count_nonzero(a, axis, keepdims=...) has the shape and the elements it has in NumPy: for every axis the elements that are not zero along this axis, with the counted dimension removed or of extent 1, and without axis the number of all of them. np.nonzero of an array of rank 1 gives the indices of the elements that are not zero in increasing order.", "quantifier": "all ranks, shapes (empty ones too), contents, both memory orders, every axis of the array, keepdims true or false", "why_tests_cant": "The number of the dimension depends on rank, axis and order, and reshape depends on the positions of all elements; tests cover ranks 1 and 2 and a few shapes.", "anchors": ["pyccel/codegen/printing/fcode.py:_print_NumpyCountNonZero", "pyccel/codegen/printing/fcode.py:_print_NumpyNonZeroElement", "pyccel/ast/numpyext.py:NumpyCountNonZero"]}
{"id": "C109", "title": "norm has its value wherever it stands in an expression", "statement": "An expression with np.linalg.norm(x, ord) of an array in it has, in exact arithmetic, the value it has in Python, whatever operators stand around it. In Fortran this holds for orders 0, 1, 2 and infinity anywhere, and for other orders where the quotient or power that is printed for the norm needs no parentheses; it fails for a / norm(x, -1), a ** norm(x, -1) and norm(x, p) ** b. In C it holds for assignments and augmented assignments; inside other expressions a norm with a final power gives text that is no expression.", "quantifier": "all expressions of any depth, all arrays and values, all orders", "why_tests_cant": "The tests assign norms directly or add to them; which operators take a part of the text is a matter of all nestings.", "anchors": ["pyccel/codegen/printing/fcode.py:_print_NumpyNorm", "pyccel/codegen/printing/ccode.py:_print_NumpyNorm", "pyccel/codegen/printing/ccode.py:_handle_numpy_functional", "pyccel/ast/operators.py:PyccelOperator._handle_precedence"]}
{"id": "C110", "title": "randint gives integers within its bounds", "statement": "np.random.randint(a) gives an integer n with 0 <= n < a and np.random.randint(a, b) one with a <= n < b, whatever number the generator of the target language gives, and every such integer can be given. In Fortran the first form is right; the second gives the upper bound itself for some random numbers exactly when a power of two is at least b - a and below b (or at most -b for negative a), because the sum with the lower bound is rounded up.", "quantifier": "all bounds (below 2^53), all random numbers in [0, 1)", "why_tests_cant": "The wrong results appear for a few of 2^53 random numbers and small bounds, which no test draws; the bounds are a matter of rounding for every pair.", "anchors": ["pyccel/codegen/printing/fcode.py:_print_NumpyRandint", "pyccel/codegen/printing/fcode.py:_print_NumpyRand", "pyccel/ast/numpyext.py:NumpyRandint"]}
