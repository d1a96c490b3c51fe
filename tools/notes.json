{
 "C13": {
  "note": "C macro (with integer promotion and cast) and Fortran functions, any width."
 },
 "C14": {
  "status": "partial",
  "note": "C: fails at (INT64_MIN, -1) where C's % is undefined; proved everywhere else. Fortran: proved."
 },
 "C15": {
  "status": "partial",
  "note": "gcd undefined for INT_MIN, lcm(0,0) divides by zero (both refuted); proved elsewhere. factorial proved."
 },
 "C16": {
  "status": "partial",
  "note": "Refuted on ties in C and Fortran (round(25,-1) gives 0); exact behaviour on ties and correctness off ties proved."
 },
 "C17": {
  "status": "partial",
  "note": "Integer sign, min/max, complex min/max and Fortran amax/amin proved; NaN and the complex sign are not modelled."
 },
 "C02": {
  "status": "partial",
  "note": "Proved for names of one scope in every history and for all visible names when outer scopes are named first (the parser's order); refuted for other orders."
 },
 "C03": {
  "status": "partial",
  "note": "Same split as C02."
 },
 "C05": {
  "status": "partial",
  "note": "Proved for scopes that are no loops in any state and in loops for usual histories; three refutations for C output at module level."
 },
 "C20": "Computed negative pop index leaves the list in both back ends (refuted); everything else, and all histories without it, proved. c_reverse is STC's own.",
 "C21": "Proved for every iteration order and every reordering an erase may do; STC/gFTL primitives assumed as documented in Cont_Model.v.",
 "C22": "popitem is not last-in first-out (refuted); the rest, and all histories of put/pop/get, proved.",
 "C23": "Without discipline steal makes two owners (refuted, also for copied containers); exact accounting proved for all disciplined histories.",
 "C27": {
  "status": "proved",
  "note": "Element addresses in C and Fortran equal NumPy's for both orders and every rank; size(a,dim) and index/dimension pairing."
 },
 "C28": "Indices and slices within bounds. Refuted: -0 in Fortran; computed negative index beside a slice in C; variable positive step with stop under allow_negative_index in Fortran; length of a[3:1]; negative index of a slice and a[:e:-1][k].",
 "C29": "Loops in both languages for bodies that keep the loop variable (C: and the bounds, without overflow). Refuted: C bounds re-evaluated, loop variable assigned, range(0,i), overflow at the end, value after the loop.",
 "C06": {
  "status": "partial",
  "note": "Proved for every expression tree except a comparison as left operand of a comparison and a conditional expression as condition; both refuted by witness. Tokens, not characters."
 },
 "C07": {
  "status": "partial",
  "note": "Proved outside listed combinations (bitwise operator compared, cast to bool or an operand of and/or, equality under <, & beside boolean ^), each refuted by witness."
 },
 "C08": {
  "status": "partial",
  "note": "Proved outside listed combinations of boolean ==, !=, ^, | under tighter Fortran operators and not not; refuted by witness."
 },
 "C24": {
  "status": "partial",
  "note": "Equal to NumPy's rule for sizes known at compile time and for scalars. With sizes unknown at compile time: same result and same refusals if no unknown size is 1; both refuted otherwise (an unknown size that is 1 at run time). Symbolic sizes are name + constant."
 },
 "C25": {
  "status": "partial",
  "note": "Order independence, idempotence, kind, least safe type (sized types), arrays: proved. Associativity holds except for a Python float/complex with int8/int16 and float32/complex64 (refuted); Python int + int8 loses precision (refuted, NumPy 2's rule). & on arrays of different rank and 1 & 2.0: refuted. NumPy's result_type (NumPy 2, Python scalars weak) is modelled from its documented table."
 },
 "C26": {
  "status": "partial",
  "note": "Indexing one dimension at a time, any number of times: proved; arrays, several dimensions at once: proved; lists/tuples/sets, several dimensions in one step: refuted."
 },
 "C09": {
  "status": "partial",
  "note": "In exact arithmetic: proved for + - * / not > and or, all operands. Refuted: 0*e drops an error of e; in IEEE arithmetic regrouping, cancelling and 0*x change the value. Complex literals with nonzero imaginary part and arrays not modelled."
 },
 "C10": {
  "status": "partial",
  "note": "Proved up to == of types except x*1 (refuted: line 869 tests the wrong operand) and regrouping of mixed small types (refuted)."
 },
 "C11": {
  "status": "partial",
  "note": "C: same calls, stopping at the same operand, in Python's order if no other operator has calls on both sides; truth of and/or on integers. Not the operand's value itself (refuted). Fortran: refuted (.and./.or. may evaluate everything). Calls are assumed to return the same value each time."
 },
 "C12": {
  "status": "partial",
  "note": "C: proved. Fortran: refuted (merge evaluates both branches)."
 },
 "C19": {
  "status": "partial",
  "note": "Proved for bool and int variables in C and Fortran; %= in C only for non-negative operands, refuted otherwise. Floats not modelled here."
 },
 "C46": {
  "status": "partial",
  "note": "Proved under the listed side conditions: c_safe, operands of and/or/is boolean, no minus of a bool, every value fits the width C computes in (32 bits for expressions of booleans only); minus of a bool and the 32 bit width refuted. Left shifts of negative numbers are undefined in ISO C and excluded."
 },
 "C47": {
  "status": "partial",
  "note": "Proved where all operands are defined (Fortran evaluates all); % of booleans refuted."
 },
 "C48": {
  "status": "partial",
  "note": "Proved when the inner operands make no calls; refuted otherwise (the operand is printed twice)."
 },
 "C49": {
  "status": "partial",
  "note": "Proved between integers; between booleans refuted (printed as && and ||)."
 },
 "C50": {
  "status": "partial",
  "note": "Exact characterisation for C (wrong exactly for True / n with |n| >= 2); Fortran converts both operands (fcode.py 3605-3615); int by int is printed as division of doubles, see C07."
 },
 "C51": {
  "status": "partial",
  "note": "C: exact below 2**53, and above it exactly for powers that are doubles; direct printing, &, == and sums of powers are wrong. Fortran: exact for all values of 64 bits unless an operand is a boolean."
 },
 "C37": {
  "status": "partial",
  "note": "The register is proved exact over all histories, and exit status 0 implies no reported error for compile, make and wrap. Refuted: an exception raised without a report (np.where with shapes that do not match) ends with status 0 and no text; errors reported while the wrapper is printed are never shown (TypeError)."
 },
 "C38": {
  "status": "partial",
  "note": "No stage starts after an error in the three pipelines; semantic-only, convert-only and Python proved. Refuted: --syntax-only does not stop the pipeline."
 },
 "C52": {
  "status": "partial",
  "note": "Progress and termination for all schedules unless the compilation raises a PyccelError; refuted in that case (the other processes wait for ever)."
 },
 "C53": {
  "status": "partial",
  "note": "Lock, stage and messages proved; sys.path refuted, with its exact growth."
 },
 "C39": {
  "status": "proved",
  "note": "For all valid projects and all iteration orders of the sets. The circle is one of files and sub-folders of one folder: acyclic imports across folders may be refused (C39_acyclic_imports_refuted), which the statement in terms of directories allows."
 },
 "C54": {
  "status": "partial",
  "note": "Library names differ if the file names differ, or if no component starts with or doubles an underscore. Refuted in general (a/m, a__m, b/m), and for module and program names (a and a_so; so with a program and prog)."
 },
 "C42": {
  "status": "partial",
  "note": "Exact for include folders, libraries, library folders and flags, for all acyclic graphs and set orders, and for the files imported (C42_imports_given). Object files: exact along objects with an object file; refuted behind a header-only object. Folders of a file with ignore_at_import are lost (refuted)."
 },
 "C55": {
  "status": "partial",
  "note": "The order in an object's own list is kept if the later library is listed by no other object; refuted in general, and refuted for the libraries of dependencies."
 },
 "C41": {
  "status": "partial",
  "note": "Proved: a first installation is complete; over an earlier one it is complete iff not (a file is missing and those present are current); a copy interrupted within a file is repaired; numpy_version.h is current; when STC is ready. Refuted: a copy interrupted between two files is never completed, an upgrade that only adds files is not installed, a change that keeps size and time is not installed, an interrupted build of STC makes all later requests fail."
 },
 "C43": {
  "status": "partial",
  "note": "Proved for all trees of files and folders with --recursive, for entries of the folder without it (if no sub-folder has the name of an artefact or counts as a program); for all trees, with links and after exceptions, other files stay and none appears. Refuted: executable files of the user, sub-folders with --remove-programs, dangling links, links to folders, files with the name of a generated folder."
 },
 "C44": {
  "status": "partial",
  "note": "Proved for all histories in which no source is written while it is compiled or at the time stamp of its object file, for the source; for the dependencies if they are not written after the object file was absent. Refuted: equal time stamps, an edit during compilation, an edit of a dependency."
 },
 "C40": {
  "status": "partial",
  "note": "Proved for all systems, schedules and kills: mutual exclusion, no compiler shares a locked file with another, one compiler per folder, locks released, a bound on the number of steps. Progress and completion are proved for processes in one folder whose own lock files do not clash. Refuted without these: deadlock of processes in different folders, deadlock of a process with itself, object files of indirect dependencies written while a linker reads them."
 },
 "C32": {
  "status": "partial",
  "note": "Both literals denote the string for every string (C32_c_literal, C32_fortran_literal); the C literal survives the formatter unless the string has a character 28, 29, 30 or 133 (C32_c_line_partial; refuted for those). Code points above 255 are not modelled."
 },
 "C33": {
  "status": "partial",
  "note": "Transparent, terminating and at most 74 characters for statements indented by less than 65 blanks; words are not cut if every window has a place to cut. Refuted: from 65 blanks on the loop may not end, from 72 blanks on there is an exception, and a name longer than a line is cut. Missing: directive lines."
 },
 "C34": {
  "status": "proved",
  "note": "Only leading blanks change, line by line; indenting twice is indenting once, for lists of lines and for texts; the indentation is the depth of the block for well-nested code, in both languages."
 },
 "C35": {
  "status": "partial",
  "note": "For all strings (in C: no % in literals, no NUL), integers in range, booleans, nested tuples and lists (lists not of length one), sep and end, the printf calls (C) and write statements (Fortran: true booleans only as literals) write what Python prints; arrays of one dimension with equally long elements write what numpy prints. Refuted: % in a literal, [1], an array followed by another argument, alignment of array elements, NUL, and the trailing blank of a true boolean in Fortran. Floats, sets and strings inside containers are not covered."
 },
 "C36": {
  "status": "partial",
  "note": "Proved for all histories of constructions, substitutions and invalidations that respect the stated conditions, for graphs of any shape including cycles, with nodes compared by identity. Refuted when users are compared with == (as list.remove and list.index do), when an attribute is of another stage, when several originals are discarded and a replacement hangs only below one of them, and when a freed node is used again."
 },
 "C30": {
  "status": "partial",
  "note": "C30_loops_partial: for every block of elementwise assignments whose slices go forward, whose repeated lengths are the literal 1 and whose statements that may share a loop meet only at equal positions, the generated (fused) loops leave NumPy's memory, for all lengths and contents, with or without array statements in the target language; C30_defined: NumPy's result exists and is unique. Without the conditions it is false: C30_overlap_refuted, C30_fused_refuted, C30_fused_vectors_refuted, C30_broadcast_refuted, C30_backward_refuted, C30_one_refuted, C30_start_refuted. Missing: transposes, indexable functions such as linspace, lists, subscripts that are themselves assigned in the block."
 },
 "C31": {
  "status": "partial",
  "note": "Assignments without nested tuples leave the same state as Python's simultaneous assignment, under a condition on subscripts (C31_simultaneous_partial; a purely syntactic criterion in C31_separate_partial); exactly when the statement is refused (C31_refused). Refuted: a target used in a later subscript, the same element written in two ways, a subscript replaced by its old value, nested targets, too many values, a tuple variable rebuilt from its own elements."
 },
 "C56": {
  "status": "partial",
  "note": "Loops are proved equal to Python's for bodies that keep the lengths, bounds and counter; product for bodies without break that keep pools and targets, with non-empty pools. Refuted: zip with one literal length, a start or bound changed in the body, a list that grows, too many targets, break in product, assignment to a target of product, an empty pool."
 },
 "C57": {
  "status": "partial",
  "note": "Proved if no range ends before it starts, only names of ranges are used in bounds and only the last loop has several names. Refuted: a range that ends before it starts, a negative length, enumerate with a start, elements used as bounds, zip before other loops."
 },
 "C58": {
  "status": "partial",
  "note": "Proved if the result is not used in its own generator, all names differ and the values are in the range of the start value. Refuted: min and max of nothing, max of the smallest integer in Fortran, the result used in its own generator, names that already exist outside."
 },
 "C59": {
  "status": "partial",
  "note": "Proved for all programs that the checker tidy accepts (variables surely assigned before use; no variable first assigned in a loop or in one branch and used after it; shapes that change in a loop not known before; no np function of the variable itself with a shape that is not a literal), for every rank and no return without a value in C, and rank 1 in Fortran. For any program without return, nothing is left allocated at the end. Refuted outside: twelve programs, among them if True, nested if and else, a loop in else, an assignment after a loop or an if, a shape that changes in a loop, two dimensions in Fortran, a return in a loop, x = np.sin(x), and in C every function with an array that ends with a return without a value: the statements that free its memory are not printed."
 },
 "C60": {
  "status": "partial",
  "note": "Holds for every parameter list and call when no positional-only parameter has a default, positional arguments do not reach keyword-only parameters, and a **kwargs parameter is given something; the code violates the property otherwise (five refutations)."
 },
 "C61": {
  "status": "partial",
  "note": "Holds for every parameter list without variadic parameters and every call, when positional-only parameters have no default, keyword-only parameters all have defaults (or nothing has), and None is not passed for a parameter with an integer default; the code violates the property otherwise (four refutations). Parameters of type int only."
 },
 "C62": {
  "status": "partial",
  "note": "Proved for all arrays whose strides divide one another in the way the wrapper assumes: all arrays without gaps, all results, and all slices with steps only in the first and last dimension or where they divide. Other accepted arrays are seen wrongly or are undefined, and some are refused without need (five refutations)."
 },
 "C63": {
  "status": "partial",
  "note": "Type checks are proved equivalent to the annotated types; values, results and changes of lists are proved except for NumPy booleans, integers beyond 64 bits, strings with 0 or (Fortran) non-ASCII characters, the same list passed twice, and lists in Fortran, each of which is refuted."
 },
 "C64": {
  "status": "partial",
  "note": "Proved for overloads without defaults and arguments that belong to one of the candidate types; the overlapping types are characterised, and the three other cases are refuted. Static choice (Interface.point) is proved in full."
 },
 "C65": {
  "status": "partial",
  "note": "Proved for programs in which the parts computed in statements of their own are moved over nothing that matters, are not in the condition of a while or elif (in Fortran: nor, for those made by the printer, in the head of an if or for), and loops have no else. Refuted: conditions of while and elif that need a temporary, heads of if and for in Fortran that need code of the printer, short-circuit operands, order of calls, conditional expressions of arrays (a call is made twice), the else of loops (dropped without an error), nested temporaries of objects in Fortran."
 },
 "C66": {
  "status": "partial",
  "note": "Proved for conditions without effects and divisions in which each argument used is given or checked in the same condition, and with at most one checked and used argument in branches that are not the last. Acceptance proved for conditions that test arguments only as operands of and. Refuted: two arguments checked and used in a branch that is not the last (an absent argument is read), conditions of elif evaluated early, effects left of the test, optional booleans as conditions, not of an optional argument, or-conditions in Fortran."
 },
 "C67": {
  "status": "partial",
  "note": "Proved for all bodies in which, in the order of the text, an optional argument is not tested after it was assigned, is assigned before += and before a loop that assigns it, and receives no result of a call with several results. The other cases are refuted."
 },
 "C68": {
  "status": "partial",
  "note": "Proved in full for variables and expressions without arrays (C68_scalars). With arrays and nested tuples it is proved under a condition on what later expressions read; without it the property is refuted: an index variable that is assigned, equal indices with different text, targets in nested tuples, and bodies visited twice."
 },
 "C69": {
  "status": "partial",
  "note": "Proved for functions that return at their end an expression or one of their own variables and assign to none of their arguments, called with arguments without effects, whose module variables have other names than the caller's. Outside these conditions the property is refuted: returned arguments, two result variables, early return, a = f(a), assigned arguments, effects evaluated twice, captured names, a call in an expression that cannot be compiled, and the order of effects. Inline functions in inline functions and several results are missing."
 },
 "C70": {
  "status": "partial",
  "note": "Proved for all shapes, views, axes, keepdims and initial values, for C and Fortran and broadcast left hand sides, with the result in another array. Refuted: negative axes with keepdims (assertion), slices of a reduced dimension before a dimension which is kept (dropped or assertion), keepdims without axes, results stored in the argument, a[0] = np.sum(a) in C, initial value inside a Fortran product, loop sharing with the statement which changes the argument."
 },
 "C71": {
  "status": "partial",
  "note": "Vectors, matrices and stacks where one operand has exactly the last stack dimensions of the other; vectors with stacks, broadcast dimensions of size 1, mixed orders in Fortran and in-place products in C are refuted."
 },
 "C72": {
  "status": "partial",
  "note": "One product with loops per block, equal axes, results which are not arguments, and sizes known to be 1 only when the axis is the last; each other case is refuted."
 },
 "C73": {
  "status": "partial",
  "note": "C73_once, C73_asked: in every image each top level runs once or not at all (all projects). C73_order_partial, C73_program_partial, C73_extension_partial: imports first, as Python, for imports at the start of bodies and one module per name. Refuted: imports after statements (top level and functions), statements after the program block, one name for two modules, several extension modules sharing a module."
 },
 "C74": {
  "status": "partial",
  "note": "C74_release_partial: exactly once, for modules reached by top-level imports under their own name. C74_late_partial: never early when a module has at most one temporary. Refuted: two temporaries (wrong array released, or compiler exception), import as, import in the program block."
 },
 "C75": {
  "status": "partial",
  "note": "Proved: exact size for integers below 2^53 in double precision, elements and number of elements in exact arithmetic in C and, for a step which is not a sum, in Fortran. Refuted: len of an empty range in C is negative; a step written as a sum in Fortran; integer dtype with fractional arguments. Missing: rounding of floating point arguments."
 },
 "C76": {
  "status": "partial",
  "note": "Proved in exact arithmetic for C and Fortran and for arrays of starts and stops. Refuted: a single value with the endpoint, an empty array in Fortran, a negative fractional stop with an integer dtype, arguments which read the assigned array. Missing: rounding."
 },
 "C77": {
  "status": "partial",
  "note": "safe and same effect as Python when Return is last, loops learn nothing new the second time and no array is assigned a slice of itself; each of these is refuted"
 },
 "C78": {
  "status": "partial",
  "note": "Proved for all types with a name (no float128/complex256), no empty tuple and no Final inside of a type, after any history of such types; the refutations show each of these exceptions."
 },
 "C79": {
  "status": "partial",
  "note": "Proved without defaults of positional-only parameters and without / together with a bare *; in the latter case it is proved that the signature is always wrong."
 },
 "C80": {
  "status": "partial",
  "note": "Proved for annotations without Final and Annotated, orders C or F (not on aliases of several types), and aliases of one type in dictionaries; the refutations show why."
 },
 "C81": {
  "status": "partial",
  "note": "Proved for all histories in which pointers are stored only by an object's own methods or setters, not through an alias, no attribute that is an instance is read and no array attribute is replaced. Each restriction is needed: five refutations (a function returning a new instance that points at its argument, storing through an alias, a function storing one argument in another, reading an attribute which is an instance, replacing an array attribute)."
 },
 "C82": {
  "status": "partial",
  "note": "Proved for the same histories when references form no cycle and modules in C return no alias of an instance. Refuted for cycles, for aliases in C, and for arrays that were replaced in an attribute (kept as long as the instance)."
 },
 "C83": {
  "status": "partial",
  "note": "Safety, values and acceptance are proved for all histories, and so is the exact number of references lost (C83_cost). Counts are right for functions of numbers and strings with results without sets and dictionaries. Refuted: a list, tuple or set which is passed is never released (the iterators and items of the type check and of the conversion are not released); elements of sets and dictionaries which are returned are never released."
 },
 "C84": {
  "status": "partial",
  "note": "np.array: right in C when no element uses the array being assigned and ndmin adds no dimension to a list; right in Fortran except lists of one element of rank >= 2 and ndmin with order F. The exceptions are refuted."
 },
 "C85": {
  "status": "partial",
  "note": "C85_c_partial: if no statement uses the variable it assigns (precise conditions in Bag_Spec.safe_c), the C program never reads released memory, all variables have the values of Python, and exactly one block is lost per copy of a set. C85_fortran_partial: the same with the weaker conditions safe_fortran. Missing because false of the code: C85_literal_refuted, C85_call_refuted, C85_union_refuted (C: x = [x[1], x[0]], x = f(x), x = x | y read x after its memory is released), C85_copy_refuted, C85_self_refuted (C: x = x.copy(), x = x & b, x = x - b give the empty set), C85_right_refuted (b = a & b gives a, b = a - b gives the empty set), C85_union_fortran_refuted (b = a | b gives a), C85_setof_fortran_refuted (x = set(l) keeps the old elements), C85_filter_refuted (x = [f(i) for i in x if c(i)] keeps the old length), C85_extend_refuted (C: l.extend(l)), C85_extend_literal_refuted (elements of a literal are read one after the other)."
 },
 "C86": {
  "status": "partial",
  "note": "Proved: one return of a tuple in which no variable is an element twice; several returns where no result is changed before it is used; single values in Fortran where the name of the result is not used in the generator; single values in C where the printer keeps what it must keep (plain_c: no freed variable is returned, max/min of a generator and conditional strings only where the assignment is kept); the result is declared where it is used. Refuted: a variable twice in a returned tuple, two returns that give two results one name, a result overwritten before it is used, max/min of a generator in C (one iteration too many) and its missing declaration, conditional strings in C (always the else value), a freed string returned, a generator over the name of the result. Missing: those cases, tuples in tuples, pointers."
 },
 "C87": {
  "status": "partial",
  "note": "Proved in C for programs whose variables are assigned at the top level first, that do not copy strings or use them for their own new value (or have only short strings), and in Fortran for all programs if no string ends with a blank; comparisons and arguments exactly characterised. Refuted in C: y = x and x = str(x) for long strings use freed memory, strings first assigned in a loop or in an if statement that is not executed are freed without a value, long literals passed to functions are not freed, concatenation does not compile; == ignores what follows a 0 in C and trailing blanks in Fortran; non-ASCII arguments are cut in Fortran; wrapped calls do not free long strings."
 },
 "C88": {
  "status": "partial",
  "note": "Proved for settled classes (the constructor makes every attribute once, later assignments keep the literal shape, objects created outside branches and loops; in C they may be replaced if the destructor is silent). Refuted in general: attributes never freed, replaced objects in Fortran, attributes freed by methods that return, objects of branches, shapes of later assignments, times and order of destructors."
 },
 "C89": {
  "status": "partial",
  "note": "Proved for programs with while loops in which no function assigns to a name of the module; names that the module never assigns, parameters and names declared at the start are always local. Refuted otherwise: all other names of the module are written by functions, depending on the order of first calls; a function that reads before assigning does not fail; loops of the module end early or never because a called function has a loop over the same name. Missing: for loops in the positive theorem (the variable after the loop, C29)."
 },
 "C90": {
  "status": "partial",
  "note": "The types of the overloads are exactly characterised, and so are crashes for unions of types. Different overloads, defaults and calls are proved for type variables that stand alone and unions in the order of the numeric types. Refuted: duplicate overloads for 'T | t', default 1 instead of n for 'bool | int', f() that changes its meaning after the first call, refused calls for 'float = 1' and 'T, T = v'."
 },
 "C91": {
  "status": "partial",
  "note": "The elements are those of Python for programs that are translated, if the target is not an operand, lists are not added and repetitions are not negative (C91_elements_partial); C91_translated says which programs are translated. Outside it fails: nested sums and products are never translated, x = x + v and x = x * n write beyond the end, list sums always do, and negative repetitions are an invalid malloc in C."
 },
 "C92": {
  "status": "partial",
  "note": "Which programs are read, in which order, with which stubs: exactly (C92_loads, C92_once, C92_fresh, C92_annotated and for make). Names mean the right files unless a file below uses the same name for another file (C92_names_partial); then the last import wins (C92_names_refuted). Cycles of imports, which Python allows, are never translated (C92_cycle_refuted), and absolute imports mean another file in sub-folders (C92_absolute_refuted)."
 },
 "C93": {
  "status": "partial",
  "note": "C93_given proves the property for functions and methods of one signature, C93_size the number of calls in the text; C93_overload_partial proves it for overloaded methods whose only optional argument is the last, and C93_overload_refuted shows that an optional argument in the middle of an overloaded method makes the generation of the wrapper fail, because the arguments left are matched by position."
 },
 "C94": {
  "status": "partial",
  "note": "C94_isinstance_partial proves the property for objects whose class is that of their static type, except numpy.float64 against float and numpy.complex128 against complex. The refuted theorems show that these are always False (C94_numpy_refuted), that an optional argument which is None counts as an instance of its type (C94_optional_refuted), that objects of derived classes passed from Python are not recognised (C94_derived_refuted) and that calls in the first argument are not made (C94_calls_refuted)."
 },
 "C95": {
  "status": "partial",
  "note": "C95_same_type_partial proves the property for elements of the type of the elements of the container which are not NaN, C95_calls_partial that the operands are then evaluated. C95_other_type_refuted: an element of another type is never found, C95_nan_refuted: NaN is never found, C95_calls_refuted: for different types the operands are not evaluated."
 },
 "C96": {
  "status": "partial",
  "note": "Proved for every tree: no statement or comment is lost, duplicated or reordered among comments (C96_kept), and groups of comment lines are the maximal runs (C96_groups). Without else and elif, statements and comments are in the order of lines (C96_order_partial) and a comment not indented deeper than a compound statement never ends up at the end of its body (C96_block_partial). With else: the comments are shared between body and else branch as written if the else branch has a comment or no else line precedes (C96_else_partial). Refuted: if another else: line comes earlier in the file and the else branch has no comment, all the comments of the body are moved to the else branch (C96_else_refuted); a comment at the end of an else branch takes with it all the following indented comments of the next statements (C96_next_refuted). Missing: general positions in programs with else and elif; the handlers of try."
 },
 "C97": {
  "status": "partial",
  "note": "C is right for floats whose result has 64 bits, for booleans and for integers up to 2^53 (and beyond exactly for the integers that are floats). Fortran is right for floor, for trunc assigned to a variable (integers up to 2^53) and for ceil when the result has 32 bits. Refuted: ceil in Fortran beyond 32 bits, odd integers beyond 2^53 in C, trunc printed (a float with the format of an integer), booleans in Fortran, pow in Fortran of a sum, difference, product or quotient (no parentheses) and of integers with a negative exponent (no conversion)."
 },
 "C98": {
  "status": "partial",
  "note": "One target, and unpacking whenever Python has no exception, are proved right; the calls made and the other variables are those of Python. Refuted: several targets are taken for a tuple of targets, so no target ever gets the value of e (an element of it, or nothing at all when it is a number in a variable or the result of a function; a literal or an operation is refused); unpacking a number, or a sequence of another length, is accepted."
 },
 "C99": {
  "status": "partial",
  "note": "Fortran is right for every float (C99_fortran). C is right exactly outside the odd integers between 2^52 and 2^53 in magnitude (C99_c_exact_partial), where it gives the even integer next to them (C99_c_odd_refuted), and print gets a double (C99_printed_refuted). With digits, a half above an even digit is rounded up in both languages (C99_digits_refuted); missing: round(x, n) for the other floats, the division by 10^n, negative digits, subnormals and overflow of exponents."
 },
 "C100": {
  "status": "partial",
  "note": "Without steps every accepted expression has the value of Python (C100_value_partial), and with literal, non-negative indices exactly the programs that do not raise are accepted (C100_accepted_partial). Written tuples are right with any step (C100_literal_partial). For tuple variables the step is ignored: wrong whenever a step above one meets two elements (C100_step_refuted), t[::-1] is not reversed and t[::0] accepted (C100_reverse_refuted), and negative indices are refused (C100_negative_refuted). Missing: several indices in one bracket, homogeneous tuple variables (C28), indices of written tuples that are not literals."
 },
 "C101": {
  "status": "partial",
  "note": "Proved: dsqrt of the model is the correctly rounded root (C101_root); for magnitudes between 2^-511 and 2^512, zero, infinities and NaN the result is the same to the last bit at any nesting (C101_same_partial); the calls are always the same (C101_calls). Refuted outside: when the square overflows Python has an infinity and the program |x|; when it vanishes Python has 0 and the program |x| (C101_overflow_refuted, C101_underflow_refuted). Missing: magnitudes between 2^-538 and 2^-511, where the square is subnormal; infinities and NaN are one value; x**0.5."
 },
 "C102": {
  "status": "partial",
  "note": "Proved: the operators have the values of Python for integers that fit in 64 bits (C102_operators_partial); %= in C is right exactly when the divisor divides or the signs are equal (C102_mod_partial); a statement whose index makes no calls and whose operand does not change what the target reads is right in every order of evaluation (C102_same_partial); C calls functions as often as Python except for //= (C102_calls_partial). Refuted: x %= b in C for operands of different signs (C102_mod_refuted: ccode prints the operator of C instead of pyc_modulo), calls in the index of the target are made twice in Fortran and for //= in C (C102_twice_refuted), an operand that changes the target (C102_order_refuted). Missing: floats, /=, narrower integers, containers."
 },
 "C103": {
  "status": "partial",
  "note": "Proved: printed variables and addresses are the object of the variable (C103_access); calls give parameters, results and variables of outer functions the values and objects of the caller (C103_call_partial) for all arguments except elements of arrays passed to optional parameters. Refuted for those: the value of the element is passed where a pointer is declared (C103_element_refuted). Missing: managed memory, stack arrays, casts of pointers, functions as arguments; arguments other than variables and elements are given by their values."
 },
 "C104": {
  "status": "partial",
  "note": "Proved for arguments that share no memory with the targets (single targets may be any number or v[:]; in Fortran optional arguments may be targets). Refuted for a = f(a) with arrays and lists: the array is freed before the call (C and Fortran), a list is emptied before the call (Fortran); v[i] = f(v[i]) makes pyccel fail for Fortran; results stored while arguments are still read: optional arguments in C, v[0], v[1] = f(v), x, x = f()."
 },
 "C105": {
  "status": "partial",
  "note": "Calls without array expressions as keyword arguments are bound as in Python, in C always and in Fortran if None is followed by no other positional argument. Refuted otherwise: an array expression passed by keyword loses the keyword (semantic.py 4014) and goes to the parameter after the positional arguments, whatever the keyword; in Fortran None is dropped from the call (fcode.py 4305) and the arguments after it move to earlier parameters. Positional-only and keyword-only parameters, *args and **kwargs are in area Call."
 },
 "C106": {
  "status": "partial",
  "note": "Floor division in C and Fortran gives the floor of the quotient or one more; it is right if the quotient is not close below an integer, in particular for integers and multiples of a power of two of moderate size. Refuted: for every quotient relatively closer than 2^-57 below an integer the result is too large by one (1.0 // 0.1 is 10.0, Python has 9.0). The remainder in C (pyc_fmodulo) has the value of Python for all doubles; refuted for the sign of a zero result: it is the sign of a, not of b. In Fortran there is no result at all for quotients of 2^63 and more. Quotients of 2^53 and more in C, single precision, infinities and MODULO of Fortran are not covered."
 },
 "C107": {
  "status": "partial",
  "note": "C: np.where at the top or as a value of another np.where has its value (C107_where_partial); as an operand or in a condition of another np.where it never does: the operator takes only the last value, or becomes part of the condition (C107_left_refuted, C107_right_refuted, C107_condition_refuted). Fortran: right anywhere (C107_fortran_partial). Not modelled: np.where inside calls of functions, conversions."
 },
 "C108": {
  "status": "proved",
  "note": "Fortran, all ranks, shapes, axes, both orders: C108_axis, C108_keepdims, C108_total, C108_nonzero. C has no printer for these functions. Not modelled: kinds, overflow of counts."
 },
 "C109": {
  "status": "partial",
  "note": "Fortran: right where the text binds strongly enough (C109_norm_partial) and in products (C109_times_partial); never right for a / norm(x, -1) unless the sum of inverses is 1 or -1 or a is 0 (C109_divide_refuted), other values for a ** norm(x, -1) and norm(x, p) ** b (C109_exponent_refuted, C109_base_refuted). C: pieces of code in assignments (C109_c_partial); inside expressions the text starts with another name (C109_c_refuted). Not modelled: axes, scalars, rounding."
 },
 "C110": {
  "status": "partial",
  "note": "One bound: in range for every random number (C110_high_partial). Two bounds, of any sign: never below the lower nor above the upper bound (C110_range_partial). For bounds up to 2^52 randint(a, b) is in range for all random numbers exactly when no power of two p has b - a <= p < b (0 <= a, C110_exact_partial) or b - a <= p <= -b (a < 0, C110_negative_partial); otherwise the greatest random number gives b (C110_upper_refuted), and for b = a + 1 many do (C110_limit_refuted). Every number of the range is given by some random number (C110_every_partial). Missing: bounds above 2^52, the distribution."
 }
}