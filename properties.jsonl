{"id": "C01", "title": "Distinct names get distinct integer identifiers", "statement": "Two different Python names (locals, module-level names, attributes) that occur in a verified program are encoded as two different integers in the generated Viper program, so that marking one name as defined or settable never marks another; and the integer can be decoded back to the name.", "quantifier": "all pairs of non-empty names, of any length and over any characters", "why_tests_cant": "injectivity is about all pairs of strings; any finite set of names can be collision free while another pair collides", "anchors": ["src/nagini_translation/lib/util.py: string_to_int, int_to_string", "src/nagini_translation/translators/common.py: _get_string_value", "src/nagini_translation/translators/expression.py: wrap_definedness_check"]}
{"id": "C02", "title": "Generated names are fresh and stable", "statement": "Every name handed out for a generated Viper entity differs from every name handed out before it in any scope of the same program and from the reserved Viper words, and asking for a name always succeeds after finitely many attempts.", "quantifier": "all sequences of requests in arbitrary nested scopes sharing one name table, and all initial tables", "why_tests_cant": "freshness must hold after every history of requests; tests see only short histories", "anchors": ["src/nagini_translation/lib/program_nodes.py: PythonScope.get_fresh_name, contains_name, _add_name"]}
{"id": "C03", "title": "Simplifying Viper expressions preserves their meaning", "statement": "Building a conjunction, disjunction, implication, comparison, sum, increment or conditional through Nagini's expression builders yields a Viper expression with the same value as the plain mathematical combination of the operands, in every state, although constant operands are folded or dropped.", "quantifier": "all operand expressions and all states assigning values to their variables", "why_tests_cant": "folding depends on which operands are constants; all combinations in all states cannot be enumerated", "anchors": ["src/nagini_translation/lib/silver_nodes/bool_expr.py", "src/nagini_translation/lib/silver_nodes/int_expr.py", "src/nagini_translation/lib/silver_nodes/int_cmp_expr.py", "src/nagini_translation/lib/util.py: join_expressions"]}
{"id": "C04", "title": "Integer division and remainder mean what Python means", "statement": "For integers a and b with b not zero, the value Nagini assigns to a // b and a % b is the value Python computes.", "quantifier": "all integers a and all non-zero integers b", "why_tests_cant": "the domain is infinite and the two definitions agree on every pair with a positive divisor", "anchors": ["src/nagini_translation/resources/bool.sil: int___floordiv__, int___mod__"]}
{"id": "C05", "title": "Integer shifts mean what Python means", "statement": "Whenever the stated preconditions of a shift allow a << n or a >> n, the value Nagini assigns to it is the value Python computes.", "quantifier": "all integers a and all shift amounts allowed by the precondition", "why_tests_cant": "the shift factor is a 65-way table whose correctness must hold for every amount and every operand", "anchors": ["src/nagini_translation/resources/bool.sil: int___lshift__, int___rshift__, __shift_factor"]}
{"id": "C06", "title": "Bitwise operators mean what Python means", "statement": "For every bit width chosen with --int-bitops-size and all operands allowed by the preconditions, a & b, a | b and a ^ b have the value Python computes.", "quantifier": "all bit widths and all integer operands in the permitted range", "why_tests_cant": "width and operands are unbounded; a defect may need a negative operand at one width", "anchors": ["src/nagini_translation/resources/bool.sil: int___and__, int___or__, int___xor__", "src/nagini_translation/main.py: parse_sil_file"]}
{"id": "C07", "title": "Other integer builtins mean what Python means", "statement": "Negation, inversion, absolute value, power with a non-negative exponent, bit_length, max/min of lists and conversion to bool have the value Python computes for every operand their preconditions allow.", "quantifier": "all integers, all exponents >= 0, all non-empty lists", "why_tests_cant": "arithmetical identities over unbounded domains", "anchors": ["src/nagini_translation/resources/bool.sil: int___pow__, int_bit_length, abs, max, min, int___bool__"]}
{"id": "C08", "title": "Sequence slicing selects exactly Python's elements", "statement": "For lists, tuples, bytes and ranges, the slice described by the built-in contract for given start and stop is exactly the slice Python returns; in particular the contract is satisfiable whenever its precondition holds.", "quantifier": "all sequences of any length and all start/stop values, including None, negative and out-of-range ones", "why_tests_cant": "boundary combinations are unbounded in length and offsets, and an unsatisfiable contract makes every later assertion pass silently", "anchors": ["src/nagini_translation/resources/slice.sil", "src/nagini_translation/resources/list.sil", "src/nagini_translation/resources/tuple.sil: tuple___getitem_slice__", "src/nagini_translation/resources/bytes.sil", "src/nagini_translation/resources/range.sil"]}
{"id": "C09", "title": "List operations behave as Python lists", "statement": "For every list and every argument accepted by the precondition, the contracts of append, extend, insert, remove, index, +, *, reverse, copy, item read and item write describe exactly the list and the result Python produces, leaving other lists untouched.", "quantifier": "all lists, elements and indices", "why_tests_cant": "pre/postconditions must agree with Python on lists of all lengths", "anchors": ["src/nagini_translation/resources/list.sil"]}
{"id": "C10", "title": "Ranges contain exactly Python's numbers", "statement": "range(start, stop) and range(start, stop, step) as specified have the length, elements, membership and order Python gives them.", "quantifier": "all integers start, stop and non-zero step", "why_tests_cant": "three unbounded integer parameters", "anchors": ["src/nagini_translation/resources/range.sil"]}
{"id": "C11", "title": "Tuple literals can always be built", "statement": "Creating a tuple of any supported size gives a tuple of that size with the given elements in order; the contract used never contradicts itself.", "quantifier": "all element values, for every arity that has its own constructor and for the general constructor", "why_tests_cant": "a contradictory contract proves anything, so a test which expects success still passes", "anchors": ["src/nagini_translation/resources/tuple.sil: tuple___create*__", "src/nagini_translation/translators/expression.py: create_tuple"]}
{"id": "C12", "title": "Sets and dictionaries behave as Python's", "statement": "Adding, removing, looking up, updating and iterating sets and dictionaries as specified gives the same membership, values and size as Python.", "quantifier": "all sets/dictionaries, keys and values", "why_tests_cant": "histories of operations over unbounded containers", "anchors": ["src/nagini_translation/resources/set_dict.sil"]}
{"id": "C13", "title": "For-loops visit every element once, in order", "statement": "A for-loop over a sequence executes its body once per element, in order, with the elements seen so far equal to the already processed prefix; after normal termination all elements were processed, and the else-branch runs exactly when no break occurred.", "quantifier": "all finite sequences and all loop bodies", "why_tests_cant": "the number of iterations is unbounded; requires an invariant over the iterator", "anchors": ["src/nagini_translation/resources/iterator.sil: Iterator___next__", "src/nagini_translation/translators/statement.py: translate_stmt_For, _create_for_loop_invariant"]}
{"id": "C14", "title": "Operands are evaluated left to right", "statement": "The generated code for binary operators, comparisons, augmented assignments and call arguments gives each operand the value it has when Python evaluates it, although later operands may have side effects.", "quantifier": "all expressions built from variables, heap reads, effectful calls and operators, in all states", "why_tests_cant": "nesting depth and the interplay of side effects are unbounded", "anchors": ["src/nagini_translation/translators/expression.py: translate_BinOp, translate_Compare", "src/nagini_translation/translators/statement.py: translate_stmt_AugAssign", "src/nagini_translation/translators/call.py: translate_args"]}
{"id": "C15", "title": "Short-circuit operators evaluate only what Python evaluates", "statement": "For `and`, `or` and conditional expressions of any arity, the generated code runs the effects of exactly the operands Python evaluates and yields the same value.", "quantifier": "all operand lists, nested arbitrarily, in all states", "why_tests_cant": "truth values, effects and nesting combine in unboundedly many ways", "anchors": ["src/nagini_translation/translators/expression.py: translate_BoolOp, translate_IfExp"]}
{"id": "C16", "title": "Comparison chains are conjunctions of adjacent comparisons", "statement": "a op1 b op2 c ... has the value of (a op1 b) and (b op2 c) and ..., each operand evaluated at most once and only if all previous comparisons hold.", "quantifier": "all chain lengths, operators, operands and states", "why_tests_cant": "chain length is unbounded", "anchors": ["src/nagini_translation/translators/expression.py: translate_Compare"]}
{"id": "C17", "title": "Assignments store the value the right-hand side had before the statement", "statement": "In `t1 = t2 = ... = e` with single, tuple, nested, list or starred targets, e is evaluated once before any target is written and the targets receive its value or the corresponding components.", "quantifier": "all target patterns, right-hand sides and states", "why_tests_cant": "patterns nest arbitrarily and the variables may overlap with the right-hand side", "anchors": ["src/nagini_translation/translators/statement.py: translate_stmt_Assign, assign_to, _assign_to_tuple, _assign_to_starred"]}
{"id": "C18", "title": "Unpacking with a star distributes all elements", "statement": "Unpacking a sequence into targets with at most one starred name is accepted exactly if Python accepts the length, gives the leading targets the first elements, the trailing targets the last ones, and the star all others in order.", "quantifier": "all sequences and all numbers of targets before and after the star", "why_tests_cant": "lengths are unbounded", "anchors": ["src/nagini_translation/translators/statement.py: _assign_to_tuple, _assign_to_starred"]}
{"id": "C19", "title": "Match statements run the first matching case", "statement": "A match statement binds the names and executes the body of exactly the first case whose pattern and guard accept the subject, as Python does, and leaves everything else unchanged.", "quantifier": "all subjects, all lists of cases with nested patterns and guards, all states", "why_tests_cant": "pattern nesting and number of cases are unbounded", "anchors": ["src/nagini_translation/translators/statement.py: translate_stmt_Match, _translate_pattern_condition, _translate_pattern_assignments"]}
{"id": "C20", "title": "Pure functions compute what their Python body returns", "statement": "The Viper expression generated for the body of a @Pure function evaluates, in every state, to the value returned by running the Python body, and is rejected or fails verification if some path returns nothing or reads an unassigned local.", "quantifier": "all bodies built from assignments, nested ifs, matches, asserts and returns, and all argument values", "why_tests_cant": "programs nest arbitrarily; the translation flattens control flow into path conditions", "anchors": ["src/nagini_translation/translators/pure.py: translate_pure, translate_exprs"]}
{"id": "C21", "title": "Exceptions, returns, breaks and continues go where Python sends them", "statement": "For every method body built from loops, conditionals and try/except/else/finally, the generated goto program executes the same statements in the same order, ends the same way (return value, exception or fall through) and runs each finally block exactly when Python does.", "quantifier": "all method bodies, all nestings and all initial states and exception outcomes of calls", "why_tests_cant": "control-flow nesting is unbounded and each nesting of try, loop and abrupt exit is a different path through the encoding", "anchors": ["src/nagini_translation/translators/method.py: translate_finally, translate_handler", "src/nagini_translation/translators/statement.py: translate_stmt_Try, translate_stmt_Break, translate_stmt_Continue, translate_stmt_Return, translate_stmt_While", "src/nagini_translation/translators/expression.py: create_exception_catchers", "src/nagini_translation/lib/util.py: get_surrounding_try_blocks"]}
{"id": "C22", "title": "With-blocks always call __exit__ once, with the right arguments", "statement": "Leaving a with-block in any way (falling through, return, break, continue or an exception) calls the __exit__ method of its context manager exactly once, innermost first, passing the exception if and only if one is propagating, and a true result suppresses it.", "quantifier": "all nestings of with, try and loops and all ways to leave them", "why_tests_cant": "needs all combinations of nesting and exits", "anchors": ["src/nagini_translation/translators/method.py: translate_finally, _assign_exit_vars", "src/nagini_translation/translators/statement.py: translate_stmt_With", "src/nagini_translation/analyzer.py: visit_With"]}
{"id": "C23", "title": "Ghost code does not influence the regular program", "statement": "If the ghost checker accepts a program then the program with all ghost code removed behaves, on all regular variables and outputs, like the original one, including termination of regular code.", "quantifier": "all accepted programs, all initial states", "why_tests_cant": "non-interference relates pairs of runs of all programs", "anchors": ["src/nagini_translation/ghost/ghost_checker.py", "src/nagini_translation/ghost/extraction.py"]}
{"id": "C24", "title": "Every Viper error is reported once with its own explanation", "statement": "Converting the verifier's error list yields one diagnostic per Viper error in the same order, carrying the Python node, the via-chain and the renaming rule registered for exactly the position that failed.", "quantifier": "all error lists, all registered positions and rules", "why_tests_cant": "the mapping is keyed by dynamic identifiers, over arbitrary histories of registrations", "anchors": ["src/nagini_translation/lib/errors/manager.py: ErrorManager", "src/nagini_translation/lib/errors/wrappers.py: Error"]}
{"id": "C25", "title": "Concurrent verification requests do not mix their diagnostics", "statement": "When several requests run concurrently in one service, each request's diagnostics are exactly those it would have got alone, whatever the interleaving; cancelling a token stops only a job submitted under that token; and a reconfiguration does not affect already submitted requests.", "quantifier": "all numbers of requests and all interleavings of their atomic steps with cancel and reconfigure", "why_tests_cant": "races depend on schedules that tests do not control", "anchors": ["src/nagini_translation/service.py: VerificationService._verify_concurrent, cancel, reconfigure", "src/nagini_translation/viper_server.py: ViperServerManager"]}
{"id": "C26", "title": "Comprehensions describe Python's result", "statement": "The facts assumed about the result of a list, set or dict comprehension (with or without filter) are true of the container Python builds, and for unfiltered lists determine it completely.", "quantifier": "all input sequences, element expressions and filters", "why_tests_cant": "quantified facts over unbounded sequences; a false assumption is only visible through a proof of something wrong", "anchors": ["src/nagini_translation/translators/expression.py: translate_ListComp, translate_SetComp, translate_DictComp"]}
{"id": "C27", "title": "Call arguments are bound to the parameters Python binds", "statement": "For every call Python accepts, each parameter (positional, keyword, defaulted, *args, **kwargs) receives the argument Python would bind to it.", "quantifier": "all signatures and all argument lists", "why_tests_cant": "signatures and argument lists are unbounded", "anchors": ["src/nagini_translation/translators/call.py: translate_args, _wrap_kw_args"]}
{"id": "C28", "title": "The class hierarchy is encoded faithfully", "statement": "A class is a subtype of another in the generated type domain exactly if it inherits from it in Python; members are looked up in the nearest ancestor defining them; the common superclass of two classes is their least common ancestor; classes are declared after their superclasses.", "quantifier": "all class hierarchies (finite forests of any depth) and all classes in them", "why_tests_cant": "hierarchies are unbounded; requires induction over the inheritance chain", "anchors": ["src/nagini_translation/lib/program_nodes.py: PythonClass.issubtype, get_method, get_common_superclass, all_subclasses", "src/nagini_translation/translators/type_domain_factory.py", "src/nagini_translation/lib/program_nodes.py: toposort_classes"]}
{"id": "C29", "title": "Obligation measures forbid infinite postponement", "statement": "If every callee's and every loop iteration's obligation passes the generated measure check then there is no infinite chain of calls/iterations that keeps handing on the same obligation, and a termination promise implies termination.", "quantifier": "all call/iteration sequences and all measure expressions", "why_tests_cant": "the claim is about infinite executions", "anchors": ["src/nagini_translation/translators/obligation/measures.py: MeasureMap", "src/nagini_translation/resources/measures.sil", "src/nagini_translation/translators/obligation/inexhale.py", "src/nagini_translation/translators/obligation/loop_node.py", "src/nagini_translation/translators/obligation/method_node.py", "src/nagini_translation/translators/program.py: create_override_check"]}
{"id": "C30", "title": "Obligations cannot be leaked", "statement": "A method body, call or loop that is accepted never loses an obligation: an obligation held before is either discharged, passed on through a contract, or still held after; converting unbounded to bounded obligations keeps their number.", "quantifier": "all permission states and all contracts with bounded, unbounded and credit obligations", "why_tests_cant": "permission accounting over arbitrary amounts", "anchors": ["src/nagini_translation/translators/obligation/inexhale.py: ObligationInhaleExhale", "src/nagini_translation/translators/obligation/method_node.py", "src/nagini_translation/translators/obligation/manager.py"]}
{"id": "C31", "title": "Module code is executed once, and names are usable only after their definition", "statement": "Importing modules in any pattern, including cycles and repeated imports, executes each module's top-level statements at most once and in Python's order, and a program verifies only if no top-level statement reads or imports a global name before Python has bound it.", "quantifier": "all import graphs and all orders of top-level statements", "why_tests_cant": "import graphs are unbounded and may be cyclic", "anchors": ["src/nagini_translation/translators/statement.py: _execute_module_statements, translate_stmt_ImportFrom, translate_stmt_Import", "src/nagini_translation/translators/method.py: translate_main_method", "src/nagini_translation/translators/common.py: _is_defined, _set_global_defined"]}
{"id": "C32", "title": "Composite name tables resolve names by priority", "statement": "Looking up and testing a name in a combined, renamed or filtered name table gives the result of searching the underlying tables in order.", "quantifier": "all lists of tables and all keys", "why_tests_cant": "number and content of the tables are unbounded", "anchors": ["src/nagini_translation/lib/views.py: CombinedDict, ModuleDictView, IOOperationContentDict"]}
{"id": "C33", "title": "String values are faithful", "statement": "String literals are encoded injectively, and concatenation, length, truth value and equality as specified agree with Python for every string expression.", "quantifier": "all strings", "why_tests_cant": "strings are unbounded", "anchors": ["src/nagini_translation/resources/str.sil", "src/nagini_translation/translators/expression.py: translate_string"]}
{"id": "C34", "title": "Byte containers behave as Python's bytes and bytearray", "statement": "Construction, concatenation, indexing, update and slicing of bytes, bytearray and PByteSeq as specified agree with Python for every argument their precondition admits, and the contracts are satisfiable there.", "quantifier": "all byte sequences, indices, and integer arguments admitted by the preconditions", "why_tests_cant": "unbounded sequences; contradictory contracts are invisible to tests expecting success", "anchors": ["src/nagini_translation/resources/bytes.sil", "src/nagini_translation/resources/bytearray.sil", "src/nagini_translation/resources/byteseq.sil"]}
{"id": "C35", "title": "Floating-point facts are consistent", "statement": "The facts assumed about float arithmetic and comparison, including infinities and nan, never contradict each other and agree with IEEE comparison rules.", "quantifier": "all floats allowed by the encoding", "why_tests_cant": "a contradiction is invisible to tests which expect verification to succeed", "anchors": ["src/nagini_translation/resources/float_real.sil", "src/nagini_translation/resources/float_ieee32.sil", "src/nagini_translation/resources/float.sil", "src/nagini_translation/resources/bool.sil: int___eq__, int___ge__, int___lt__", "src/nagini_translation/translators/expression.py: translate_float_literal"]}
{"id": "C36", "title": "Permission amounts and conditional contracts are tracked under the right condition", "statement": "Collecting the condition under which each obligation or access occurs in a contract yields, for every occurrence, exactly the conjunction of the conditions guarding it.", "quantifier": "all contract expressions with nested implications, conditionals and conjunctions", "why_tests_cant": "expressions nest arbitrarily", "anchors": ["src/nagini_translation/lib/guard_collectors.py: GuardCollectingVisitor"]}
{"id": "C37", "title": "Positions shown to the user point at the failing code", "statement": "Translation errors, type errors and verification errors are rendered such that file, line and column can be parsed back to the position of the failing Python node in every output format.", "quantifier": "all positions, file names and messages", "why_tests_cant": "the formats must be inverse to the parsers for all inputs", "anchors": ["src/nagini_translation/lib/errors/wrappers.py: format_translation_error, Error.string", "src/nagini_translation/service.py: _exception_diagnostics", "src/nagini_translation/main.py: TYPE_ERROR_PATTERN"]}
{"id": "C38", "title": "Duplicate suppression never hides a distinct error", "statement": "Removing duplicate messages from the verification output keeps the first occurrence of each message, keeps the order, and drops nothing else.", "quantifier": "all lists of errors", "why_tests_cant": "lists are unbounded", "anchors": ["src/nagini_translation/verifier.py: Failure.to_string", "src/nagini_translation/service.py: _failure_diagnostics"]}
{"id": "C39", "title": "Tuple operations behave as Python's", "statement": "Indexing (with negative indices), membership and equality of tuples as specified to the verifier agree with Python's results.", "quantifier": "all tuples, all indices, all element equalities", "why_tests_cant": "tuples and indices are unbounded", "anchors": ["src/nagini_translation/resources/tuple.sil: tuple___getitem__, tuple___contains__, tuple___eq__"]}
{"id": "C40", "title": "Pure sequences, sets and multisets behave as documented", "statement": "PSeq indexing, take, drop, update, + and ==, PSet literals, membership, size, + and -, PMultiset counts, + and -, and ToMS give the results their documentation describes, and the axioms and contracts behind them never contradict each other.", "quantifier": "all sequences, sets and multisets, indices and values", "why_tests_cant": "the contracts are assumed, so a contradiction or a wrong result is only visible for particular contents among unboundedly many", "anchors": ["src/nagini_translation/resources/seq.sil", "src/nagini_translation/resources/pset.sil", "src/nagini_contracts/contracts.py: PSeq, PSet, PMultiset, ToMS"]}
{"id": "C41", "title": "Forall and Exists range exactly over their domain", "statement": "Forall (with one or more variables) holds exactly if its body holds for every tuple of elements of the domains, and Exists exactly if it holds for some element, where a domain is a type, a container or Old of a container.", "quantifier": "all domains, states and bodies", "why_tests_cant": "quantification over unbounded domains", "anchors": ["src/nagini_translation/translators/contract.py: translate_forall, translate_exists, _create_quantifier_contains_expr"]}
{"id": "C42", "title": "Overriding methods are checked against every method they override", "statement": "If a class redefines a method of a direct or indirect superclass, the verifier checks that the new contract is compatible with the contract of the redefined method, and rejects redefinitions of pure functions; otherwise the program is not accepted.", "quantifier": "all class hierarchies and method names", "why_tests_cant": "class hierarchies of any depth, with the definitions placed anywhere in them", "anchors": ["src/nagini_translation/lib/program_nodes.py: PythonMethod.process, PythonClass.get_contents", "src/nagini_translation/translators/program.py: create_override_check, _check_override_validity"]}
{"id": "C43", "title": "Member access on a union receiver uses the receiver's own class", "statement": "A call, attribute access or assignment on a receiver of union type uses the member of the most specific class of the union that the receiver is an instance of, for any set of classes in the union.", "quantifier": "all class hierarchies, unions and receivers", "why_tests_cant": "unbounded hierarchies and unions; the order in which the classes are tried is a set order", "anchors": ["src/nagini_translation/lib/program_nodes.py: toposort_classes, chain_cond_exp, chain_if_stmts", "src/nagini_translation/translators/common.py: get_function_call, get_method_call"]}
{"id": "C44", "title": "Imported names resolve to the definition that Python's import statements bind", "statement": "For every set of modules and imports (import, from-import with and without aliases, star import, cycles), a name or dotted name used in a module is verified against the definition that Python's import statements bind to it, and resolving a name terminates.", "quantifier": "all import graphs, all names, all orders of import statements", "why_tests_cant": "import graphs are unbounded and may be cyclic", "anchors": ["src/nagini_translation/lib/program_nodes.py: PythonModule.get_included_modules, get_contents", "src/nagini_translation/lib/views.py: PythonModuleView, ModuleDictView", "src/nagini_translation/lib/resolver.py: find_entry, get_target", "src/nagini_translation/analyzer.py: collect_imports, add_module"]}
{"id": "C45", "title": "A call in top-level code needs everything the callee may use", "statement": "A top-level statement that calls a function, method or constructor is accepted only if every global name that the execution of the call may read (through the callee's body and contract and whatever they call) is defined at that point, and computing these names terminates for recursive programs.", "quantifier": "all call graphs, including mutual recursion and calls dispatched on the receiver's class", "why_tests_cant": "call graphs are unbounded and may be cyclic", "anchors": ["src/nagini_translation/lib/program_nodes.py: add_all_call_deps, PythonMethod.add_all_call_deps, PythonClass.call_deps", "src/nagini_translation/translators/common.py: _get_global_definedness_conditions, assert_global_defined, wrap_global_defined_check", "src/nagini_translation/translators/call.py: _add_dependencies, translate_constructor_call, _only_translate_method_call"]}
{"id": "C46", "title": "A termination promise is recognised exactly when it is made", "statement": "A method or loop counts as promising to terminate, in a given state, exactly if its precondition or invariant makes it take on the obligation to terminate in that state.", "quantifier": "all contract expressions, all positions of MustTerminate and TerminatesSif in them, and all states", "why_tests_cant": "the contract expressions nest arbitrarily and the equivalence must hold in every state", "anchors": ["src/nagini_translation/translators/obligation/obligation_info.py: create_termination_check", "src/nagini_translation/lib/guard_collectors.py: GuardCollectingVisitor", "src/nagini_translation/translators/contract.py: translate_terminates_sif"]}
{"id": "C47", "title": "Operators run the method Python selects", "statement": "A binary or unary operator or an augmented assignment is verified against the special method Python runs for it (the left operand's method, the reflected method of the right operand, or the in-place method), with the operands in the right order, and the type given to the expression is the result type of that method.", "quantifier": "all class hierarchies, operators, operand classes and definitions of special methods", "why_tests_cant": "The selection depends on which of arbitrarily many classes in a hierarchy define which of three methods per operator and on their parameter types; a test fixes one hierarchy.", "anchors": ["src/nagini_translation/translators/expression.py: translate_operator, translate_BinOp, translate_UnaryOp", "src/nagini_translation/translators/statement.py: translate_stmt_AugAssign", "src/nagini_translation/lib/resolver.py: get_type (BinOp, UnaryOp)", "src/nagini_translation/lib/constants.py: LEFT_OPERATOR_FUNCTIONS, RIGHT_OPERATOR_FUNCTIONS, INPLACE_OPERATOR_FUNCTIONS", "src/nagini_translation/lib/program_nodes.py: get_compatible_func_or_method"]}
{"id": "C48", "title": "Comparisons are decided as in Python", "statement": "A comparison is verified against the comparison method that decides it in Python (own, default of !=, or reflected), and objects without comparison methods are compared by identity.", "quantifier": "all class hierarchies, comparison operators, operand classes and definitions of comparison methods", "why_tests_cant": "Which method decides depends on both operand classes and all their ancestors; a test fixes one pair.", "anchors": ["src/nagini_translation/translators/expression.py: _translate_comparison", "src/nagini_translation/translators/common.py: get_function_call", "src/nagini_translation/resources/bool.sil: __ObjectEquality"]}
{"id": "C49", "title": "Verified programs do not deadlock", "statement": "If every method of a program is verified, then no execution reaches a state in which a group of threads wait for each other's locks or termination: as long as some thread is not finished, some thread can go on, and a thread only ever takes a lock whose level is above those of all locks it holds.", "quantifier": "all programs with methods, loops, locks and threads, all schedules and all reachable states", "why_tests_cant": "Deadlocks depend on the interleaving of arbitrarily many threads and on locks held by callers at any depth; a test sees one schedule, and a modular check is only right if the residue argument covers every call and loop context.", "anchors": ["src/nagini_translation/translators/obligation/waitlevel.py: create_level_below, initialize_current_wait_level, _translate_waitlevel_loop, _translate_waitlevel_method", "src/nagini_translation/translators/obligation/method_call_node.py: _add_additional_arguments", "src/nagini_translation/translators/obligation/loop_node.py: _add_current_wait_level", "src/nagini_translation/translators/obligation/fork.py: _add_precondition_exhales, _add_waitlevel", "src/nagini_translation/translators/call.py: _translate_thread_join", "src/nagini_contracts/lock.py: Lock"]}
{"id": "C50", "title": "Values of an algebraic data type obey the constructor laws", "statement": "For every declared ADT: a built value has exactly its constructor's class, its fields are the arguments, two built values are equal exactly if they have the same constructor and equal arguments, every value of the ADT has exactly one constructor, fields have their declared types, and a value is determined by its constructor and its fields. Values are finite, and == means what it means in Python.", "quantifier": "all programs with ADTs, all constructors and fields, all interpretations of the generated axioms", "why_tests_cant": "The laws must follow from the generated axioms in every interpretation, for every number of constructors and fields; a passing test shows one entailment the SMT solver happens to find.", "anchors": ["src/nagini_translation/translators/program.py: create_adts_domains_and_functions, _create_adt_equality_axioms, _create_adt_axiom_deconstructors_over_constructors, _create_adt_axiom_constructors_over_deconstructors, _create_adt_func_box_and_unbox", "src/nagini_translation/translators/call.py: translate_adt_cons", "src/nagini_translation/translators/expression.py: translate_adt_decons, translate_Compare"]}
{"id": "C51", "title": "Declaring algebraic data types never makes the program trivially verifiable", "statement": "For every set of accepted ADT declarations the generated axioms have a model, and the generated functions have pairwise different names; the accepted class statements are exactly the documented ones.", "quantifier": "all programs and all their ADT declarations", "why_tests_cant": "Inconsistent axioms make every assertion verify, so positive tests pass all the more; consistency needs a model for every declaration.", "anchors": ["src/nagini_translation/translators/program.py: create_adts_domains_and_functions, _create_adt_func_constructors, _create_adt_func_deconstructors", "src/nagini_translation/analyzer.py: _check_is_adt_well_formed, _visit_ADT", "src/nagini_translation/lib/program_nodes.py: PythonClass.all_subclasses"]}
{"id": "C52", "title": "Everything the user expects to be checked is part of the verified program", "statement": "When a file is verified as a whole, every function, method, property, predicate, override check, inherited method (for the inheriting class), frame check and the top-level code is handed to the verifier; if it accepts, every method body that a call can reach on an object of any class of the program has been verified for that class. With --select, at least the selected members and their checks are verified.", "quantifier": "all programs, class hierarchies and selections", "why_tests_cant": "A check that is never generated or is dropped from the program produces no error: tests with expected errors only notice it for the shapes they contain.", "anchors": ["src/nagini_translation/translators/program.py: translate_program, track_dependencies, _translate_fields, create_inherit_check", "src/nagini_translation/analyzer.py: is_contract_only, analyze_import", "src/nagini_translation/translators/method.py: translate_main_method", "src/nagini_translation/lib/program_nodes.py: PythonModule.process, PythonClass.process"]}
{"id": "C53", "title": "A predicate extended in subclasses means the bodies of all classes of the object", "statement": "A class predicate denotes one and the same resource under every static type of an object; for an object of class C it stands for the bodies given by C and the classes above it, each once, base classes first; unfolding it through a static type gives at least that type's bodies.", "quantifier": "all class hierarchies, predicates, static and dynamic types", "why_tests_cant": "The encoding is one conjunction over all classes of the program guarded by type tests; a member that lands in the wrong family or behind a wrong guard is silently ignored.", "anchors": ["src/nagini_translation/translators/predicate.py: translate_predicate_family", "src/nagini_translation/translators/program.py: translate_program", "src/nagini_translation/translators/contract.py: translate_acc_predicate", "src/nagini_translation/translators/call.py: translate_normal_call", "src/nagini_translation/lib/program_nodes.py: PythonMethod.process, PythonClass.get_predicate"]}
{"id": "C54", "title": "A constructed dataclass object has the attributes Python gives it", "statement": "After calling a dataclass with any arguments Python accepts, the verifier knows of every field exactly the value Python stores: the positional or keyword argument, the declared default, or a fresh list from the default factory, with inherited fields first; and __post_init__ runs, with its precondition checked, whenever Python runs it.", "quantifier": "all programs with dataclasses, all orders of declarations and uses, all inheritance chains and all accepted argument lists", "why_tests_cant": "The constructor is generated from whatever the analyzer has collected when it reaches the end of the class; an unrelated function elsewhere in the file can change its parameters.", "anchors": ["src/nagini_translation/analyzer.py: visit_ClassDef, _add_dataclass_init_method, visit_Name, visit_Attribute, visit_arguments", "src/nagini_translation/lib/program_nodes.py: PythonClass.add_field, PythonClass.get_method", "src/nagini_translation/translators/call.py: translate_constructor_call, translate_args, _translate_default_factory"]}
{"id": "C55", "title": "IntEnum members behave like Python's", "statement": "For every IntEnum class: C(v) is accepted exactly if v is the value of a member and is that member, members are identical exactly if their values are equal, comparisons and membership tests between members and integers mean what they mean in Python, every object of the class is one of its members, and declaring enumerations never makes the assumptions of the verifier contradictory.", "quantifier": "all programs and their IntEnum declarations, all values, all interpretations of the generated functions", "why_tests_cant": "The generated functions are abstract and their postconditions are assumed; a contradiction makes every test that expects success pass, and consistency needs a model for every set of declarations.", "anchors": ["src/nagini_translation/translators/program.py: create_static_field_function, _create_enum_func_box_and_unbox, _register_enum_int_function", "src/nagini_translation/translators/call.py: translate_enum_cons", "src/nagini_translation/translators/common.py: to_int", "src/nagini_translation/translators/expression.py: _translate_comparison, _translate_contains"]}
{"id": "C56", "title": "Threads share memory safely and joins promise only what happened", "statement": "Starting a thread hands over exactly what the target's precondition demands for the arguments given at creation, a thread can be started only once, and all joins together obtain at most what its postcondition promises. So the permissions of all threads never add up to more than one (no data races), and everything the verifier assumes at creation, start and join is true.", "quantifier": "all programs that verify, all targets, arguments and contracts, all interleavings of all threads", "why_tests_cant": "A permission that is counted twice shows only in one interleaving of several joins; tests verify single programs and do not run threads.", "anchors": ["src/nagini_translation/translators/call.py: _handle_thread_constructor_args, _translate_thread_creation, _translate_thread_start, _translate_thread_join, _inhale_possible_thread_post", "src/nagini_translation/translators/obligation/fork.py: _create_join_permission, _remember_old_expressions, _add_precondition_exhales", "src/nagini_translation/translators/contract.py: translate_builtin_predicate, translate_acc_global, translate_may_start, translate_thread_post, _translate_acc_field, _get_field_perm", "src/nagini_translation/translators/common.py: create_predicate_access"]}
{"id": "C57", "title": "Attributes that are read exist and have the value the verifier believes", "statement": "In a program that verifies, every attribute that is read or deleted exists at that moment, and a read gives the value last written as the verifier knows it. Two accesses to one object are the same memory location for the verifier exactly if they are the same attribute in Python, including redefined attributes of subclasses and private (mangled) names. Whoever creates an object may set all of its attributes.", "quantifier": "all class hierarchies and attribute names, all objects, all accesses from all classes, all executions in which attributes are created, written, read, deleted and passed between holders", "why_tests_cant": "It ranges over every hierarchy, every pair of access sites and every history of an object; tests verify single programs and do not execute them.", "anchors": ["src/nagini_translation/lib/program_nodes.py: PythonClass.get_field, add_field, all_fields; PythonField.actual_field, is_mangled", "src/nagini_translation/analyzer.py: visit_Attribute", "src/nagini_translation/translators/expression.py: translate_Attribute, _lookup_field, translate_to_access", "src/nagini_translation/translators/statement.py: translate_stmt_Delete, assign_to", "src/nagini_translation/translators/contract.py: translate_may_set, translate_may_create", "src/nagini_translation/translators/call.py: translate_constructor_call"]}
{"id": "C58", "title": "What is assumed about new objects is true", "statement": "The value that is assumed for a new object of a subclass of int is the value Python computes from the arguments of the constructor call, and a call for which Python raises TypeError is not assumed to succeed. What is assumed about the object that a new lock protects is true as well, and nothing of the kind is assumed about other classes.", "quantifier": "all argument lists, classes with and without __init__, all hierarchies with classes called Lock", "why_tests_cant": "It ranges over all arguments and both kinds of classes.", "anchors": ["src/nagini_translation/translators/call.py: translate_constructor_call"]}
{"id": "C59", "title": "Locks protect their invariants", "statement": "In a program that verifies, whatever the threads do: when a lock is acquired its invariant is true of the object it protects; every field read has the value that the verifier believes; only a lock that is taken is released, and only by whoever acquired it; while a lock is free nobody writes the fields its invariant has permission to, and nobody reads those it has full permission to; two threads never access a field at the same time if one of them writes.", "quantifier": "all hierarchies of lock classes with any framed invariants, any number of locks, objects and activations, all interleavings of reads, writes, creations, acquisitions, releases, folds, unfolds and passing of permissions and obligations", "why_tests_cant": "It ranges over all interleavings of any number of threads; tests verify single programs and run none of them.", "anchors": ["src/nagini_contracts/lock.py: Lock", "src/nagini_translation/translators/call.py: translate_constructor_call, _translate_method_call", "src/nagini_translation/translators/predicate.py: translate_predicate_family", "src/nagini_translation/translators/obligation/types/must_release.py", "src/nagini_translation/translators/obligation/inexhale.py"]}
{"id": "C60", "title": "What is assumed about levels of locks is consistent", "statement": "At every point of an execution there are numbers for the levels of all locks and all wait levels such that everything the verifier has assumed about levels is true, so that deadlock freedom is not proved from a contradiction.", "quantifier": "all sequences of lock creations with any above and below arguments, calls of super().__init__ in constructors, acquisitions and new threads", "why_tests_cant": "It ranges over all orders of creating any number of locks; tests create one or two.", "anchors": ["src/nagini_contracts/lock.py: Lock.__init__", "src/nagini_translation/resources/lock.sil", "src/nagini_translation/translators/call.py: translate_constructor_call", "src/nagini_translation/translators/obligation/waitlevel.py"]}
{"id": "C61", "title": "Local variables are read only after they are assigned", "statement": "A method or pure function that verifies never raises UnboundLocalError, and a pure function has the value in Viper that Python computes.", "quantifier": "all bodies with assignments, conditionals, while and for loops and calls of pure functions, all arguments and numbers of iterations", "why_tests_cant": "Whether a variable is assigned depends on the path, and there are unboundedly many paths through loops; tests run a few of them.", "anchors": ["src/nagini_translation/translators/common.py:is_local_variable, check_var_defined, set_var_defined", "src/nagini_translation/translators/expression.py:translate_Name, wrap_definedness_check", "src/nagini_translation/translators/statement.py:assign_to, translate_stmt_AugAssign, translate_stmt_For, _create_for_loop_invariant", "src/nagini_translation/translators/pure.py:_wrap_with_assuming, _translate_assign_wrapper", "src/nagini_translation/translators/program.py:create_definedness_functions, create_assuming_function", "src/nagini_translation/translators/call.py:inline_method"]}
{"id": "C62", "title": "Global variables have the values the verifier assumes", "statement": "A program that verifies never reads an undefined global variable or imports an undefined name, and what was proved about global variables holds when it runs: final variables keep their only value everywhere, other variables change only where permissions allow it.", "quantifier": "all programs of modules, functions with contracts, assignments, conditionals, loops and from-imports, and all their executions", "why_tests_cant": "Whether a variable is final is decided from the whole program text, and the assumption that it keeps one value must hold in every function, iteration and order of calls.", "anchors": ["src/nagini_translation/analyzer.py:visit_Name, visit_Attribute, track_access", "src/nagini_translation/lib/program_nodes.py:PythonGlobalVar.is_final", "src/nagini_translation/lib/resolver.py:get_target", "src/nagini_translation/translators/program.py:create_global_var_function", "src/nagini_translation/translators/expression.py:translate_global_var_reference", "src/nagini_translation/translators/statement.py:_assign_single_value, translate_stmt_For, translate_stmt_ImportFrom, _get_havocked_module_var_info", "src/nagini_translation/translators/method.py:_initialize_main_state", "src/nagini_translation/translators/contract.py:translate_acc_global"]}
{"id": "C63", "title": "Static fields have the values Python gives them", "statement": "A program that verifies never fails when it reads a static field, and every read of C.x or o.x, and every class body that uses earlier fields, has the value that Python's lookup through the class and its superclasses gives.", "quantifier": "all programs of classes with static fields (inherited and overridden), global variables, objects, assignments to static fields and assertions", "why_tests_cant": "The function of a field gets one postcondition for each class of a hierarchy, and whether these are consistent and true depends on all the classes, values and names of the program.", "anchors": ["src/nagini_translation/translators/program.py:create_static_field_function", "src/nagini_translation/lib/program_nodes.py:get_static_field, PythonGlobalVar.process, is_final", "src/nagini_translation/analyzer.py:create_static_field, visit_Attribute", "src/nagini_translation/translators/expression.py:translate_static_field_access, translate_global_var_reference", "src/nagini_translation/translators/statement.py:translate_stmt_ClassDef, _assign_single_value"]}
{"id": "C64", "title": "I/O operations that are declared to terminate do terminate", "statement": "If the program verifies, an I/O operation whose Terminates condition holds for its arguments does not consist of other operations without end, whatever the environment answers: the termination measure bounds the depth, every operation on the way also satisfies its Terminates condition, and none is gap_io.", "quantifier": "all sets of I/O operations (recursive ones included), all arguments and all results that the environment may give to the operations on the way", "why_tests_cant": "The claim is about infinite behaviour and about all answers of the environment; tests run finitely many steps with a few answers.", "anchors": ["src/nagini_translation/translators/io_operation/definition.py:_create_termination_check, _translate_defining_getters", "src/nagini_translation/translators/io_operation/termination_check.py", "src/nagini_translation/lib/io_checkers.py:IOOperationBodyChecker", "src/nagini_translation/lib/guard_collectors.py"]}
{"id": "C65", "title": "Open gives exactly the meaning of the I/O operation", "statement": "Open(op(args)) succeeds for every accepted definition, and gives the permissions and conditions of its body for the given arguments: the existential variables have the values that the operations in the body yield, and nothing else is assumed.", "quantifier": "all definitions of I/O operations, all argument expressions of the caller, all results of operations and all program states", "why_tests_cant": "Open replaces variables by expressions one after the other; whether variables remain, or an equation gets lost or added, depends on the order of definitions and conditions of every possible body.", "anchors": ["src/nagini_translation/translators/io_operation/opener.py:Opener", "src/nagini_translation/translators/io_operation/result_translator.py", "src/nagini_translation/translators/io_operation/use.py:translate_io_operation_call", "src/nagini_translation/lib/program_nodes.py:PythonVarCreator, PythonIOExistentialVar"]}
{"id": "C66", "title": "Names in counterexamples identify objects", "statement": "In a counterexample an object has the same name everywhere, and two different objects have different names.", "quantifier": "all counterexamples: all sequences of objects that are shown, with all declared and actual types and all class names", "why_tests_cant": "Names are numbered per type and depend on everything shown before; collisions need particular combinations of class names, types and numbers of objects.", "anchors": ["src/nagini_translation/models/converter.py:get_reference_name, get_type_name"]}
{"id": "C67", "title": "Values in counterexamples are those of the solver's model", "statement": "The value shown for an expression is its value in the model that the solver returned; integers are shown as integers with the right sign, and nothing else is.", "quantifier": "all models of the solver (constants and function tables with default values), all terms, all integers", "why_tests_cant": "Values are computed on printed text, by splitting and comparing strings; whether this agrees with the values depends on all nested values and tables.", "anchors": ["src/nagini_translation/models/converter.py:get_func_value, get_parts, evaluate_term, parse_int, parse_bool", "src/nagini_translation/models/extractor.py"]}
{"id": "C68", "title": "Types in counterexamples are those of the objects", "statement": "The class shown for an object is its class in the model, and in any case a superclass of it and a subclass of the declared class.", "quantifier": "all class hierarchies, all objects and declared classes, all models of the solver that describe the hierarchy, whichever classes and answers they mention", "why_tests_cant": "The solver's model may mention any part of the hierarchy; the search depends on which entries it has.", "anchors": ["src/nagini_translation/models/converter.py:get_precise_type, get_basic_type, is_type, ref_get_actual_type"]}
{"id": "C69", "title": "In probabilistic mode accepted programs decide nothing on secrets", "statement": "If no check of the mode --sif=prob fails for a pair of runs, then both runs make the same tests, calls and selections of methods and raise the same classes of exceptions in the same order, and end in the same way, whatever the secrets are.", "quantifier": "all programs of the language, all pairs of initial values, all pairs of results of calls, any number of loop iterations", "why_tests_cant": "A missing check shows only for a pair of runs with particular secrets, and every kind of branch needs its own check.", "anchors": ["src/nagini_translation/translators/statement.py:translate_stmt_If, translate_stmt_While, translate_stmt_For, translate_stmt_Match", "src/nagini_translation/translators/expression.py:translate_IfExp, translate_BoolOp, translate_Compare, _create_list_comp_inhale", "src/nagini_translation/translators/call.py:translate_normal_call", "src/nagini_translation/sif/translators/statement.py:translate_stmt_Raise"]}
{"id": "C70", "title": "The probabilistic mode raises no false alarms", "statement": "If two runs of a program make the same decisions, then no check of the mode --sif=prob fails for them.", "quantifier": "all programs of the language, all pairs of initial values, all pairs of results of calls, any number of loop iterations", "why_tests_cant": "It is a statement about all pairs of runs that decide equally; tests show single programs.", "anchors": ["src/nagini_translation/translators/statement.py:translate_stmt_If, translate_stmt_While, translate_stmt_For", "src/nagini_translation/translators/expression.py:translate_IfExp, translate_BoolOp"]}
{"id": "C71", "title": "Acc asks for the fraction that the program states", "statement": "If Acc(e, a), Rd(e) or Wildcard(e) is accepted, the permission amount in the Viper program has the value of a as a fraction: for literals, variables, attributes and calls combined by +, -, * and /, and for ARP(), ARP(n), getARP(t) and RD_PRED; amounts built in the documented way are accepted.", "quantifier": "all amount expressions of any depth, all values of variables and calls and of the read permissions, all contexts (pure function, method, starting or joining a thread)", "why_tests_cant": "Which Viper operator is chosen depends on the types of both operands at every level of an arbitrarily nested expression.", "anchors": ["src/nagini_translation/translators/permission.py:translate_perm, translate_perm_or_int, translate_perm_BinOp, translate_perm_Call, translate_perm_Name, get_arp_for_context", "src/nagini_translation/translators/contract.py:_get_perm, translate_contractfunc_call"]}
{"id": "C72", "title": "Contracts are exactly the clauses that are written, all other statements are verified", "statement": "The contract of an accepted function consists of exactly the Requires, Ensures, Exsures and Decreases clauses in its text, each once and in order, and every loop has exactly the invariants written in it; all other statements are verified, in order; clauses in places other than the documented ones are rejected, and functions with clauses in the documented places are accepted.", "quantifier": "all function bodies with any nesting of blocks and loops, clauses at any position and inside of expressions, pure, inlined, contract-only and normal functions", "why_tests_cant": "A clause that is lost or a statement that is skipped makes verification succeed; which positions do this is a question about all nestings.", "anchors": ["src/nagini_translation/analyzer.py:visit_Call, visit_loop, visit_FunctionDef", "src/nagini_translation/lib/util.py:get_body_indices, get_func_name, is_pre, is_post, is_invariant", "src/nagini_translation/translators/method.py:_translate_method_body, translate_function", "src/nagini_translation/translators/statement.py:_translate_while_body", "src/nagini_translation/translators/call.py:translate_Call"]}
{"id": "C73", "title": "Verified methods keep their contracts, also when they raise", "statement": "In a verified program a method that is called with its precondition true returns only with all its Ensures clauses true, raises only exceptions of classes named in its Exsures clauses, with all clauses true that name a class of the exception, and no assertion and no precondition of a call is violated on the way, whichever overriding methods the calls run. A method that is correct whenever the methods it calls are, and an override that may replace the overridden method, are accepted.", "quantifier": "all programs of mutually recursive methods with conditionals, while loops with invariants, break, continue, raise, return and nested try statements, all contracts, class hierarchies and overriding chains, all initial states and executions", "why_tests_cant": "The claim is about every execution of every program; it composes the checks of single methods and of overriding methods over call chains of any depth.", "anchors": ["src/nagini_translation/translators/method.py:translate_method, _translate_posts, _translate_exceptional_posts", "src/nagini_translation/translators/expression.py:create_exception_catchers", "src/nagini_translation/translators/common.py:get_error_var", "src/nagini_translation/translators/call.py:translate_normal_call", "src/nagini_translation/translators/statement.py:translate_stmt_Raise, translate_stmt_Try", "src/nagini_translation/translators/program.py:create_override_check, _check_override_validity", "src/nagini_translation/analyzer.py:visit_Call, visit_Try"]}
{"id": "C74", "title": "Type tests for annotations with tuples and unions accept exactly the values of the type", "statement": "The facts about tuple types that every verified program assumes do not contradict each other. The test that a value has an annotated type, built from classes, None, Tuple[t1, ..., tn], Tuple[t, ...], Union and Optional, can be expressed for every annotation and holds of exactly the values that Python's typing gives the type. A starred tuple argument stands for as many arguments as the tuple has elements.", "quantifier": "all class hierarchies with generic classes, all annotations of any nesting, all values with nested tuples, all interpretations of the assumed functions", "why_tests_cant": "Inconsistency of quantified axioms shows up only if the solver happens to instantiate them in the right way; the exactness claim is about all nested annotations and values under all interpretations.", "anchors": ["src/nagini_translation/resources/tuple.sil:tuple_types", "src/nagini_translation/translators/type_domain_factory.py:type_check, translate_type_literal, create_union_subtype_axioms", "src/nagini_translation/translators/type.py:type_check", "src/nagini_translation/lib/program_nodes.py:GenericType.substitute, UnionType.cls, OptionalType", "src/nagini_translation/translators/call.py:translate_args"]}
{"id": "C75", "title": "The editor shows the result of the newest verification of each document, at the right place", "statement": "The diagnostics that the language server shows for a document are the result of a verification of this document that was requested. A verification is reported as cancelled only if a newer one of the same document was requested. When all verifications have ended, the editor shows the result for the content of the document at the last request. No verification is stuck. Diagnostics and hovers refer to the place in the document at which the error was reported, and the hovered word is the whole identifier around the cursor.", "quantifier": "all interleavings of requests, file changes, worker threads and verification jobs, all numbers of documents and requests, all positions and lines of text", "why_tests_cant": "Whether an outdated result overtakes a newer one depends on the schedule of the event loop, the worker threads and the verification server; a test sees a few of the schedules.", "anchors": ["src/nagini_translation/lsp_server.py:run_verification, _to_lsp_diagnostic, verify_method, hover, _word_at", "src/nagini_translation/service.py:verify, cancel, _verify_concurrent, _diagnostic_from_error", "src/nagini_translation/viper_server.py:cancel_job"]}
{"id": "C76", "title": "Verify method verifies the method, and hovering shows its contract", "statement": "The editor offers \"Verify method\" once for every function and method of a file, on the line of its definition. The command verifies the body of this function and of no other one. Hovering over the name of a function shows the contract of this function.", "quantifier": "all files of any nesting of classes, functions and other statements, all names, all functions of the file and of imported files", "why_tests_cant": "Which functions a name selects depends on all names in the file and in imported files; tests use a few names that do not clash.", "anchors": ["src/nagini_translation/lsp_server.py:_functions, code_lens, verify_method, _contract_hover", "src/nagini_translation/analyzer.py:is_contract_only, analyze_import, visit_FunctionDef, visit_ClassDef"]}
{"id": "C77", "title": "The option --select and requests to the server verify what they name", "statement": "With --select and a list of names separated by commas, the bodies that are verified are exactly those of the functions, methods and classes in the list; without it all bodies of the file are. In server mode every request gets one response, in the order of the requests, with what the command line prints for the same file and selection.", "quantifier": "all lists of names, all functions of the file and of imported files, all sequences of requests of clients with any files and options", "why_tests_cant": "Tests use a few lists of names and single requests; the claim is about all lists and about the state of the server after any history of requests.", "anchors": ["src/nagini_translation/client.py:main", "src/nagini_translation/main.py:main (server loop), _parse_client_request, translate_and_verify", "src/nagini_translation/analyzer.py:is_contract_only", "src/nagini_translation/translators/program.py:translate_program (Nothing was selected)"]}
{"id": "C78", "title": "Changed options of a running service take effect and are reported as they are", "statement": "After a request to change options, the reported configuration has the requested values and the old ones for all others. Programs are translated with the built-in resources for the reported options, after any sequence of requests. The same request twice changes nothing more. Every configuration can be reached again, also the default one.", "quantifier": "all sequences of requests with any missing, null or new values, all behaviours of the reader of resources, also failing ones", "why_tests_cant": "The claim is about all histories of requests, including failures in the middle of a request; tests change one or two options of a service that never fails.", "anchors": ["src/nagini_translation/mcp_server.py:configure", "src/nagini_translation/service.py:OPTION_TO_KWARG, options_to_kwargs, reconfigure, current_options", "src/nagini_translation/main.py:load_sil_files, parse_sil_file"]}
