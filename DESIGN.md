# Formal model of Nagini: design

Nagini translates annotated Python programs to Viper and reports Viper's
verdict.  The model is written in Rocq (Coq 8.16.1) under
`rocq/theories`.  It covers the pieces of the translation whose
correctness a user relies on when they read "Verification successful".

## Layout

Every area `X` has four files.

| file | content |
|---|---|
| `XModel.v` | Gallina definitions mirroring the Python/Viper source, branch by branch; each definition cites file and lines |
| `XSpec.v` | an independent reference: Python semantics, or a plain mathematical statement; no reference to the model's helpers |
| `XProofs.v` | lemmas and proofs |
| `XProps.v` | only the property theorems, each closed by `exact`, followed by `Print Assumptions`, and `Example`s which meet the hypotheses |

Naming: `Cnn_...` is a theorem for property `Cnn`.  The suffix `_partial` means
that the theorem adds a hypothesis or covers part of the property only;
`_refuted` means that the full statement is false of the faithful model and
the theorem exhibits a witness.  A refuted property always comes with a partial
theorem that says where the property does hold.

## Modelling conventions

* Python functions become total computable Gallina functions.  Exceptions are
  values (`option`/result types).
* Unbounded Python ints are `Z`; Viper `Int` is `Z` with Euclidean `\` and `%`.
* Viper contracts in `resources/*.sil` become predicates `pre`/`post` over a value
  domain.  "Agrees with Python" means: under `pre`, the Python result
  satisfies `post` (so the contract is satisfiable and sound), and `post`
  determines the result where the property asks for it.
* Translation functions become functions from a source AST to a target AST, both
  with an executable semantics; the theorems are simulations.
* Names are compared by equality only, except in C01/C02 where their spelling
  matters.

## Plan per property

| id | what is modelled | how it is proved |
|---|---|---|
| C01 | `string_to_int`, `int_to_string` on lists of code points | refutation with two identifiers; round trip and injectivity by induction for code points 1..255 |
| C02 | `get_fresh_name` over a shared finite name table | termination by pigeonhole, freshness invariant over request histories |
| C03 | the silver-node builders (`BigAnd`, `BigOr`, `Implies`, comparisons, `Sum`, `Inc`, ...), `join_expressions` | evaluation of the built Viper term equals the plain meaning, by induction over operand lists |
| C04 | contracts of `//` and `%` (Viper Euclidean division) | refuted for negative divisors; equal to Python's floor division otherwise |
| C05 | shift contracts and the factor table | table lemma + `Z.shiftl/shiftr`; refuted for amounts above 64 |
| C06 | int -> n-bit vector -> int conversions, n arbitrary | `Z.testbit` reasoning; refuted for negative results |
| C07 | neg, invert, abs, pow, bit_length, max/min, bool | `Z` lemmas, induction over lists |
| C08 | slice contracts for list/tuple/bytes/range | against a reference slice defined by element positions; satisfiability refuted where contracts contradict |
| C09 | list contracts | against a reference functional list; frame over a heap of lists |
| C10 | range contracts | against a recursive enumeration of Python's range |
| C11 | tuple constructors 0..9 and general | satisfiability and exactness; refuted for 7, 8, 9 |
| C12 | set/dict contracts | against reference association/membership semantics |
| C13 | iterator `__next__` contract + emitted while loop | invariant over iterations: processed prefix |
| C14 | translation of operators to (statements, expression) pairs over a store with effects | refuted with a mutating right operand; simulation by structural induction when expression parts are unaffected by later statements |
| C15 | `BoolOp`, `IfExp` translation | as C14 |
| C16 | comparison chains | as C14; short circuit of effects refuted |
| C17 | `assign_to` and target patterns | refuted (`a, b = b, a`); exact for right-hand sides not overwritten |
| C18 | star index arithmetic and length assertions | list take/drop lemmas |
| C19 | match translation (conditions, captures, guards) | refuted for captures of failing guards and or-patterns; simulation otherwise |
| C20 | `translate_pure`/`translate_exprs` | denotational equality by induction over the wrapper list |
| C21 | statement translation to labels/gotos, finally dispatch, exception catchers, `get_surrounding_try_blocks` | two executable semantics; refutations by evaluation, simulation theorem for a syntactic fragment |
| C22 | with translation, exit variables | same model as C21 |
| C23 | ghost classification and extraction of programs made of functions over a statement language with calls, fields, branches and loops | simulation between the original and the extracted program by induction on fuel for the core language; refutations outside |
| C24 | `ErrorManager` registration/conversion | invariants over histories |
| C25 | service as a transition system with locks | invariant over all interleavings |
| C26 | inhaled comprehension facts | facts hold of the Python result (induction over the input) |
| C27 | `translate_args` binding | equality with a reference binding of parameters |
| C28 | class table functions | induction over superclass chains |
| C29 | measure map checks, method/loop/override checks; a language of calls, loops and jumps | well-founded descent on the measure; no infinite chain |
| C30 | inhale/exhale builders over permission counters; runs as sequences of calls, returns, iterations | conservation invariants over all runs |
| C31 | import execution with defined-flags and name sets, Python's module loading | simulation by induction on fuel; the translation stack bounds the depth |
| C32 | `CombinedDict` and views | equality with first-match lookup |
| C33 | string contracts/literals | list lemmas |
| C34 | byte container contracts | satisfiability + agreement, refutations |
| C35 | contracts of the three float encodings over extended rationals and the standard library SpecFloat | exact characterisation of results by case analysis; comparison of canonical floats as comparison of rationals; contradiction witnesses |
| C36 | guard collecting visitor | induction over expressions |
| C37 | formatting functions | formatted text parses back |
| C38 | duplicate suppression | list induction |
| C39 | tuple contracts | exactness against Python's tuples, refutations |
| C40 | PSeq/PSet/PMultiset contracts, `__toMS` axioms | exactness against position-wise specifications; uniqueness and consistency of `__toMS` |
| C41 | quantifier translation | equivalence with nested iteration over the domains |
| C42 | override registration and checks | induction along the superclass chain |
| C43 | toposort_classes, chain_cond_exp, chain_if_stmts | derived classes come first in every topological order, so the first guard that holds is the most specific |
| C44 | get_included_modules, PythonModuleView, find_entry, Python's import statements | candidates of a lookup by induction on fuel; equality with Python's binding under unique binding |
| C45 | add_all_call_deps, top-level definedness conditions | reachability closure of the call graph |
| C46 | guard collection of MustTerminate, termination condition | equivalence by induction over contract expressions, refutations |
| C47 | operator tables, operator and augmented assignment selection, type of operator expressions | agreement with Python's selection rules over all class tables, refutations |
| C48 | comparison selection, axioms of object equality | agreement with Python's rules for comparisons, refutations |
| C49 | wait-level checks of acquire, calls, loops, thread start and join; small-step semantics of threads and locks | invariant over reachable states relating residues to the locks held by callers and around loops; maximal awaited level; witness runs for the refutations |
| C50 | domain functions and axioms generated per ADT, constructor calls, field reads and equality; meaning of the axioms in an arbitrary interpretation | derivation from the axioms in every model; term model for the refutations |
| C51 | the same axioms; names of the generated functions; accepted class statements | construction of a model for every program without class-typed fields, contradiction otherwise; injectivity of the name scheme |
| C52 | the members emitted by translate_program, the names they get, the names handed to the chopper, contract-only methods | membership in the generated lists for an inductively specified set of expected checks; freshness of names; accepted program implies correctness for every (method, class) reached by lookup |
| C53 | families, their sorted members, guards, abstract rest; resolution of uses to a family | climbing ends at the topmost class; families without gaps contain all classes above; topological sort |
| C54 | the fields the analyzer collects while visiting a program, the generated constructor with its defaults, argument binding, the call of __post_init__ | field lists as functions of the sequence of mentions, induction over members and items; Python rules as an independent specification of inherited fields, defaults and binding |
| C55 | the declarations generated per enumeration with the names handed out by the name table, interpretations of the functions, translated comparisons | Python objects as a model of all declarations; consequences in every interpretation; countermodels |
| C56 | the Viper code for create, start and join; states with a heap, threads and their permissions; steps of any thread in any order | invariant of executions: permissions sum up to at most one, ThreadPost of a finished thread is covered by what its postcondition left, old values and arguments are recorded; induction over executions |
| C57 | the search for a field in the class hierarchy, private names, fields declared in Viper, permissions for fields and for creating them; executions with Python objects (attribute dictionaries) next to the Viper heap | two accesses: by induction over the hierarchy; executions: invariant linking permissions to existing attributes and to their values, induction over steps |
| C58 | the value assumed by the constructor call and the one Python computes | case analysis on the arguments |
| C59 | invariants of locks as assertions with permissions, folding and unfolding them, the calls of Lock.__init__, acquire and release with their obligations; executions over activations with one shared heap, next to the values each activation believes | invariant: permissions held by activations and inside of folded invariants sum to at most one, each lock is either free and owns one invariant or some activation has the obligation; beliefs are right where permission is held; induction over steps |
| C60 | the facts about levels demanded and promised by Lock.__init__, acquired locks and new threads as constraints over the rationals | induction over executions: a new level or wait level always fits between finitely many rationals |
| C61 | stores with missing variables in Python; on the Viper side variables whose value need not be an int, an uninterpreted _isDefined over the identifiers of C01, and weakest preconditions for the translated statements, loops by invariant | simulation of executions by weakest preconditions for a well-chosen interpretation of _isDefined: the variables that have a value at the point of the error, and those of pure functions |
| C62 | namespaces of modules in Python with rebinding from-imports; the analyzer's count of writes, owners of names, functions of final variables with their axioms, permissions, defined names, and weakest preconditions of modules and functions | an execution that fails determines an interpretation of the final variables (their values at the point of failure); simulation by weakest preconditions with frame properties for loops and calls |
| C63 | Python classes as dictionaries with lookup through superclasses; the functions of static fields by root and receiver with their axioms, permissions for fields that are not final, defined names, and weakest preconditions | the values of fields and variables, computed along a rank, are an interpretation that satisfies all axioms; simulation of class bodies and statements |
| C64 | definitions of operations with existential variables, the body checker, defining getters, guards and the conditions of the termination check method; operations with inputs and the relation "consists of" with arbitrary answers | existential variables of unconditional definitions have the values of their getters, so that guards and measures in Viper are those of the operation; well-founded induction on the measure |
| C65 | translation of bodies with equations for results, replacement of the aliases by their definitions in the order of Open; the meaning of a body as a set of permissions under some values of the existential variables | definitions are ordered, replacement preserves the order and the value under their solution, and removes all aliases |
| C66 | the table of names with the search for the next number, types with arguments, objects without a fitting type, None | invariant of the table: form of the names and uniqueness of pairs of name and type; a number is free by the pigeonhole principle; names without a digit at the end are determined by name and number |
| C67 | evaluation of terms on strings as in the code (split, join, splitting of applications, tables), int() and parse_int; models with trees as values and how they are printed | splitting inverts printing, printing is injective, normalising white space is the identity on printed trees; induction on terms |
| C68 | is_type, get_basic_type and get_precise_type for classes without type variables; hierarchies as direct subclasses, models that answer issubtype correctly | induction on the height of the declared class |
| C69 | a Python-like language with and/or, conditional expressions, calls, methods, comprehensions, if, while, for, match, raise, try, finally, return, break, continue; its runs with the sequence of decisions; the translation with the Low checks; the pair of runs as the SIF extension of Viper executes it (assumption) | one induction over expressions and statements for pairs of runs: either the pair proceeds with equal decisions or a check fails where the decisions differ; loops by induction on the number of iterations |
| C70 | as C69 | as C69: a failing check means that the sequences of decisions differ at a position that both have |
| C71 | amount expressions with their value as a rational number; translate_perm with the choice between integer and permission operators; typing of the Viper operators and their values | structural induction over the amount for the value; induction over the derivation of a documented amount for acceptance |
| C72 | statements with clauses, look-alike method calls, blocks and loops; collection by the analyzer with its rejections; the index computation; the translation that rejects clauses | induction over nested statements: collected names equal the written ones; the index computation removes a sorted prefix and a suffix of postconditions; a sorted prefix is removed completely |
| C73 | contracts with Exsures; the dictionary of declared exceptions; the Viper postconditions; variables for exceptions, catchers, calls and try statements as labelled Viper code with weakest preconditions; the check of overrides; Python executions with dynamic dispatch | the weakest precondition of the code of a statement equals the absence of bad outcomes when calls do what contracts allow (mutual induction over statements and handlers); Viper postconditions equal the promise of the contract; induction over executions |
| C74 | the domain of tuple types, together with the axioms of classes (C28), as conditions on an interpretation; type tests and type literals for annotations; substitution in generic types; a specification of membership of values in annotations | derivation of a contradiction from the axioms; a term model for a repaired set of axioms; induction over annotations |
| C75 | a transition system of documents, requests, the bounded pool of workers, the table of cancellable jobs and the published diagnostics; the conversion of positions; the search for the word under the cursor | invariants over all executions; a measure for the end of all runs; schedules as witnesses of the refuted parts |
| C76 | the tree of definitions of a file; the walk that produces lenses; the visit of the analyzer; the selection by names as strings; the lookup of contracts | induction over trees of definitions; splitting of strings at the dot; witnesses for the refuted parts |
| C77 | splitting of the option at commas, the request of the client and its parsing, the loop of the server with its responses; the selection is the one of C76 | induction over lists of names and of requests; witnesses for the refuted parts |
| C78 | the options as a table of keys; the translation of client keys; the assignments of reconfigure and the reload of resources, which may fail | case analysis over keys; an invariant over sequences of requests; a failing reload as witness |

The status of each property is in `MANIFEST.json`.

## Trusted base

* Coq's kernel (8.16.1) and `coqc`.
* Axioms: none. `Print Assumptions` stands below every theorem of the `*Props.v`
  files and answers "Closed under the global context" for each of them, and
  `coqchk -o` on all `*Props.v` files lists no axiom.  No file
  declares an axiom, a parameter or a hypothesis outside of a section, and none
  uses a plugin or a flag that switches off a check.  (Some proofs load `lia`, and
  through other libraries the file `Coq.ssr.ssrunder`, whose module type contains
  parameters; no theorem depends on them.)
* The reading of the Python and Viper sources into Gallina definitions: each
  definition cites the lines it was read from and says where it simplifies.
* The reference semantics of Python, of Viper (the fragment each area needs) and of
  the solver's output that the `*Spec.v` files give.

### What is modelled, file by file

Paths are below `src/nagini_translation`.  A file in the left column is modelled in
part: the definitions in the model files cite the functions and lines.

| source | model files | not modelled |
|---|---|---|
| analyzer.py | Adt, Call, Clause, Cls, Data, Enum, Exs, Flow, Ghost, Glob, Imp, Lens, Mod, Stat, Unit | visitors that only fill tables; decorators other than those of the areas; type comments |
| analyzer_io.py, lib/io_context.py | results are inputs of Io | the visitors themselves |
| ghost/ghost_checker.py, ghost/extraction.py | Ghost | rules for comprehension and lambda bodies beyond the modelled expressions |
| lib/errors/{manager,messages,rules,wrappers}.py | Err, Guard, Svc | wording of the messages |
| lib/guard_collectors.py, lib/io_checkers.py | Guard, Io | |
| lib/program_nodes.py, lib/context.py | Adt, Cls, Data, Dep, Enum, Fam, Flow, Glob, Imp, Io, Names, Obj, Op, Stat, Tup, Unit | module loading, type variables beyond Cls and Tup |
| lib/resolver.py, lib/views.py | Glob, Imp, Op, Tup | types of lambda and comprehension targets |
| lib/silver_nodes/{bool,int,int_cmp}_expr.py, base.py | Sil, Term | permission, location and reference expressions |
| lib/util.py | Adt, Clause, Expr, Flow, Names, Sil, Thr | pprint |
| lib/viper_ast.py | Err, Sil, Svc | constructors that only wrap Java objects |
| lsp_server.py | Lens, Lsp | the text of hovers, command line |
| main.py, service.py, verifier.py, viper_server.py | Conf, Err, Int, Lsp, Sel, Svc | sockets, process handling, command line |
| models/converter.py, models/extractor.py | Ce | sequences, ADTs, tuples, the layout of the text |
| resources/*.sil | Cont, Float, Int, Level, Mod, Names, Seq, Term, Tup, Enum, Op | pytype.sil beyond what the type domain needs |
| translators/call.py | Adt, Call, Cls, Data, Def, Dep, Enum, Exs, Expr, Fam, Flow, Lock, Obj, Seq, Thr, Tup, Wait | print, input and other special functions |
| translators/common.py | Cls, Cont, Def, Dep, Enum, Exs, Flow, Glob, Imp, Mod, Names, Op, Stat, Thr | |
| translators/contract.py, predicate.py | Cont, Fam, Glob, Guard, Lock, Obj, Thr, Unit | magic wands, let, some quantifier triggers |
| translators/expression.py | Adt, Cont, Def, Dep, Enum, Exs, Expr, Float, Flow, Glob, Guard, Obj, Op, Pure, Seq, Stat | f-strings, lambda outside contracts |
| translators/io_operation/*.py | Guard, Io | IOForall, eval_io, get_ghost_output |
| translators/method.py, program.py | Adt, Call, Clause, Cls, Def, Enum, Exs, Fam, Flow, Glob, Mod, Obj, Stat, Term, Thr, Unit | |
| translators/permission.py | Perm | bool and float literals |
| translators/obligation/**/*.py | Err, Guard, Leak, Level, Lock, Term, Thr, Wait | loop.py (dispatch only) |
| translators/pure.py | Def, Pure | |
| translators/statement.py | Clause, Cont, Def, Exs, Expr, Flow, Glob, Match, Mod, Obj, Op, Stat | global/nonlocal declarations, assert messages |
| translators/type_domain_factory.py, translators/type.py | Cls, Tup | types of types |
| sif/** | SifModel.v: the checks of the mode `--sif=prob` in translators/{statement,expression,call}.py, and sif/translators/statement.py (raise, try, return, break, continue). The meaning of the extended nodes (SIFExtendedTransformer, main.py 181-196, an external library) is an assumption: the model runs two executions side by side | sif/translators/contract.py, the `poss` mode, with statements, the heap |
| client.py | Sel | sockets, JSON |
| mcp_server.py | Conf | the tools other than configure (thin wrappers of the service) |
| jvmaccess.py, mypy_patches/**, lib/config.py, lib/typeinfo.py, external/ast_util.py, tests.py, conftest.py | none | front ends, the JVM bridge, calls of mypy, the test runner |

Also outside of the model: the Viper back ends (taken as: a verified Viper program
has no failing execution), the JVM bridge, mypy (programs are assumed to be typed),
the parser of the Python `ast` module, the file system and the network.

## Findings

Each item is a theorem named `..._refuted`: the property in full is false of the
code as modelled. The reading was checked against the cited lines; nothing was
run.

| theorem | finding |
|---|---|
| C01_name_ids_distinct_refuted, C01_definedness_confuses_names_refuted | `string_to_int` uses base 256 for code points above 255, so two local variables can share an id and one counts as defined when the other is |
| C04_floordiv_refuted, C04_mod_refuted | `//` and `%` use Viper's Euclidean division, wrong for negative divisors |
| C05_lshift_refuted, C05_rshift_refuted | shift amounts above 64 are accepted and give 0 |
| C06_bitops_refuted | negative operands are accepted, but the result is read as unsigned |
| C07_max_of_list_undetermined_refuted, C07_max_of_bools_unsatisfiable_refuted, C07_truediv_refuted, C07_sum_contract_unsatisfiable_refuted | `max(list)` is not determined, `max([True])` has no result, `4 / 2` is an int, the helper of `sum` has no interpretation |
| C08_*_slice_refuted | slices of tuples, ranges and bytes with start > stop have no result: everything can be proved afterwards |
| C09_contains_refuted, C09_index_refuted, C09_remove_refuted, C10_range_contains_refuted, C39_tuple_contains_refuted, C12_set_equal_elements_refuted, C12_dict_equal_keys_refuted, C26_dict_equal_keys_refuted | elements are compared by identity, so `True` and `1` are different |
| C09_reverse_refuted | `list.reverse` leaves the list alone and returns a copy |
| C11_seven_elements_refuted | tuple literals with 7 (8, 9) elements have no result |
| C12_keys_is_no_view_refuted | `dict.keys()` is a snapshot instead of a view |
| C26_over_dict_refuted | comprehensions over a dictionary look up `d[i]` instead of taking the i-th key |
| C34_bytearray_negative_refuted, C34_byteseq_update_refuted, C34_byteseq_create_refuted | byte containers can be created or updated with values for which the contract has no result |
| C14_operand_order_refuted | `o.f + m()` reads `o.f` after the call of `m` |
| C15_ifexp_operand_refuted, C15_or_reread_refuted, C15_condition_reread_refuted | `0 or (5 if c else 6)` is `True`; operands and conditions that read the heap are evaluated again after later calls |
| C16_chain_refuted | `1 < 0 < m()` executes `m()` |
| C17_swap_refuted, C17_chained_refuted, C17_augmented_refuted | the right-hand side is evaluated again for every target: `a, b = b, a` does not swap, `x = y = x + x` assigns twice the new `x` to `y`; `o.f += m()` reads `o.f` after `m()` |
| C18_after_star_refuted | `a, *b, c = 10, 20, 30, 40` assigns 30 to `c` |
| C19_failed_guard_binding_refuted, C20_failed_guard_refuted | bindings made by a case whose guard fails are lost (Python keeps them) |
| C19_or_capture_refuted, C20_or_capture_refuted | names captured below an or-pattern are never assigned |
| C19_keyword_guard_refuted | a guard that uses a keyword capture (`case C(f=x) if x > 0`) reads the old variable `x` |
| C20_param_in_branch_refuted | in a pure function, a parameter assigned in one branch is `None` after the other branch |
| C20_empty_body_refuted | a pure function whose body is empty (contract only) becomes an abstract function, its postcondition is not checked |
| C21_return_in_handler_refuted | `return` in an except clause skips the finally clause of the same try |
| C21_inner_loop_break_refuted, C21_inner_break_leaves_outer_refuted | `break` of a loop inside the body of a try with finally jumps to that finally clause: the rest of the body is skipped, and a loop around the try is left too |
| C21_exception_lost_at_finally_refuted, C21_outer_handler_name_refuted | an exception that passes an inner try without being caught is dropped after the finally clause of an outer try, and is not bound to `e` in an outer `except C as e` |
| C21_bare_return_refuted, C21_loop_in_finally_refuted, C21_raise_in_finally_refuted | results of pending returns: kept by a bare `return` in finally, erased by a loop in finally, kept when finally raises and the exception is caught |
| C21_break_in_loop_else_refuted | `break` in the else clause of a loop does not leave the enclosing loop |
| C22_with_in_try_refuted, C22_nested_with_refuted | `__exit__` is not called if an enclosing handler catches the exception, nor for outer with statements on return |
| C22_break_exit_argument_refuted, C22_suppress_refuted | `break` passes an arbitrary exception to `__exit__`; an `__exit__` that returns True does not suppress |
| C24_own_rules_refuted | an error about one conjunct is renamed by the rules registered for another conjunct |
| C24_timeout_diagnostics_refuted | a timeout makes `_failure_diagnostics` raise AttributeError, all diagnostics are lost |
| C24_negated_condition_refuted, C24_branch_condition_refuted | negating `(not a) == (b)` cuts the text; branch conditions are hidden if the path of the program contains `.sil` |
| C37_exception_file_refuted | invalid programs in imported modules are reported with the path of the main file |
| C37_multiline_refuted, C37_colon_file_refuted, C37_no_position_refuted | type errors with two lines are placed at line 1, a colon before a digit in a file name cuts it, verification errors without position cannot be printed in IDE mode |
| C38_reason_refuted | the service drops an error that differs from an earlier one only in its reason |
| C25_reconfigure_submitted_refuted | `reconfigure(sif=True)` after a job was submitted changes how its counterexamples are converted (service.py 413 reads the flag at conversion time). |
| C25_reconfigure_mixes_refuted | A reconfiguration between translation and submission yields an answer that neither configuration would give (the options are read again at lines 372-377, outside the lock). |
| C25_backend_mixed_refuted | Command line and backend are derived from two readings of the configuration, so a job can be sent to Carbon with Silicon's arguments. |
| C25_cancel_lost_refuted | A cancel between submission (377) and registration under the token (380) is lost while the job runs. |
| C25_token_reuse_refuted | Reusing a token makes the older, still running job unreachable for `cancel(token)`. |
| C27_keyword_only_default_refuted, C27_default_lost_refuted | analyzer.py 1077-1080 assigns the defaults of positional parameters to the last parameters including keyword-only ones and ignores kw_defaults: `def f(a, b=1, *, c=2)` called as `f(x, b=y)` is verified with c = 1; `def f(a=1, *, b)` called as `f(b=x)` fails an assertion |
| C27_positional_only_refuted | positional-only parameters are not read: `def f(a, /, b)` called as `f(x, y)` is verified with b = x |
| C27_dict_unpacking_refuted | `f(**d)` is silently ignored if `f` has no **kwargs: parameters get their defaults |
| C27_default_time_refuted | a default that reads a global variable is evaluated at each call instead of at the definition |
| C27_order_refuted | keywords that go to **kwargs are evaluated after all other keywords |
| C28_type_axioms_consistent_refuted | the axioms of the PyType domain are unsatisfiable in every emitted program: A and union_type_1(A) are subtypes of each other (union_subtype, subtype_union), so issubtype_exclusion_2 makes them equal, but get_basic(A) = A and get_basic of a union is union_basic, and both are unique. The same happens for union_type_2(A, B) with A a subclass of B. Whether the SMT solver finds the contradiction depends on triggers |
| C28_issubtype_generic_refuted | GenericType.issubtype compares type arguments by position even if the base is instantiated differently: with `class Sub(Generic[T], Box[A])`, Sub[B] is taken for a Box[B] and not for a Box[A] |
| C28_generic_superclass_refuted | GenericType.superclass does not replace type variables nested in the arguments of the base |
| C28_get_func_or_method_refuted, C42_override_checked_refuted | `overrides` is looked up in the direct superclass only (program_nodes.py 1143 with get_contents): a method that redefines one of an indirect superclass, with a class in between that does not mention it, gets no behavioural subtyping check; a method may so also redefine a pure function, and calls are then resolved to the function |
| C44_order_refuted | The first import of a name wins instead of the last one (`from a import f; from b import f`), and own definitions win over later imports (program_nodes.py get_included_modules order). |
| C44_leak_refuted, C44_unbound_refuted | `from m import f` also exposes everything that m itself imported (views.py 117, 127-131): this can hide a later explicit import, so calls are verified against another function, and unbound names resolve. |
| C44_star_cycle_refuted, C44_mutual_refuted, C32_view_refuted | PythonModule.get_included_modules ignores `exclude` (program_nodes.py 275-288), so cyclic star imports recurse forever, as do mutual from-imports of one name; with cycles, `in` and `[]` of a view may disagree (views.py 54). |
| C31_lookup_refuted | The module of a from-import is the first imported one whose file name begins with the given name (statement.py 219-220): after `from ab import x`, the statement `from a import x as z` executes nothing and checks the names of ab. |
| C31_method_refuted | Methods in a class body are entered into the names of the module (statement.py 355 via 388-389), so a function of the same name may be used before its definition. |
| C31_star_refuted | A star import makes names with a leading underscore count as defined. |
| C31_attribute_refuted | Names that a module defines after it was imported are not visible through the importing name (rejects valid programs). |
| C45_constructor_refuted | PythonClass has no `add_all_call_deps` (program_nodes.py 1033 tests with hasattr), so what a constructor needs is not collected when it is called from a function: top-level `f()` verifies although the constructor of the class that f creates uses a function that is defined later. |
| C45_method_refuted | Calls of methods at top level get no definedness check (call.py 725, 769 `not target.cls`). |
| C45_terminates_refuted | Conditional dependencies (method calls on objects) are never entered into the result, so a top-level call of a function that calls a recursive method recurses forever (program_nodes.py 1022-1034). |
| C45_static_refuted | A function that calls a static method depends on the name `C.m`, which is never defined; every top-level call of it is rejected. |
| C46_forall_refuted | A MustTerminate below a quantifier is collected with an empty guard (guard_collectors.py), so `Requires(Forall(s, lambda x: MustTerminate(1)))` with an empty s counts as a promise to terminate although the body takes on no obligation and may run forever. |
| C46_sif_refuted | Outside the information-flow mode `TerminatesSif(c, m)` takes on the obligation unconditionally (contract.py) while its collected guard contains c; it also lacks the check for impure positions that MustTerminate has. |
| C23_converted_call_refuted, C23_builtin_argument_refuted | `g = f(impure())` with a pure or builtin f and a ghost g is accepted: the call becomes ghost as a whole, and the extraction removes the impure call in the argument and its effects (ghost_checker.py check_call). |
| C23_augmented_refuted | `g += f(x)` with any call on the right is kept by the extraction although `g = 0` is removed; the extracted program fails with an undefined name. |
| C23_match_refuted | match statements are traversed by generic_visit: a ghost subject decides which regular code runs, and the extraction keeps the subject. |
| C23_ghost_result_refuted, C23_ghost_test_refuted | A call statement `f()` or a condition `if f():` with an impure regular function f whose result is ghost is removed with all effects of f. |
| C23_returned_effect_refuted | `return 1 + impure()` in a function with a ghost result loses the effect of the call. |
| C23_mixed_return_refuted | `return x, impure()` in a function with a (regular, ghost) result: the second part is not flagged as ghost, the extracted function still returns the pair while its callers expect the first part. |
| C23_list_target_refuted | `[x, g] = f()` becomes `[x] = f()`, which fails: only tuple targets are unwrapped. |
| C23_nested_argument_refuted | `f(h(x, g))`: the ghost argument of the inner call is kept because only the parameters of the outer call are considered. |
| C23_receiver_refuted, C23_receiver_write_refuted | Receivers of attributes are not classified: `y = gc.val` and `gc.val = 5` with a ghost gc are accepted as regular code. |
| (C23, not modelled) | Seen in the source only: a starred argument can cover a ghost parameter; defaults of ghost keyword-only parameters are misaligned after removal; a lambda makes the checker read `expr.value`, which does not exist; the value of a dict comprehension stays unflagged when its key is ghost; overriding methods may change which parameters are ghost. |
| C35_real_order_refuted | In float_real.sil the clauses of >=, >, <= and < for infinities do not exclude nan: comparing +inf >= nan (and nan >= -inf, and the mirrored cases) has no result, so a program that performs such a comparison verifies whatever it claims. |
| C35_ieee32_int_eq_refuted | int___eq__ (bool.sil) demands exact equality of the ints and, as int is a subclass of float, equality of their single precision images; for 16777216 == 16777217 both clauses contradict each other under --float-encoding ieee32. |
| C35_real_int_refuted, C35_ieee32_int_refuted | int(x) rounds down (SMT-LIB to_int) while Python cuts off towards zero: int(-0.5) is -1 in the contract. In the single precision encoding int() of an infinity or nan is not excluded either. |
| C35_ieee32_zero_refuted | bool(-0.0) is true and x / -0.0 passes the divisor check, because the contracts compare with the bit pattern of +0.0. |
| C35_ieee32_literal_refuted, C35_ieee32_precision_refuted | Literals are rounded to single precision: 1e75 makes struct.pack raise OverflowError during translation, and 16777217.0 == 16777216.0 holds in the encoding but not in Python. |
| C35_real_class_refuted, C35_real_rounding_refuted | The real encoding gives the sum of two ints in float variables the class float, and does not round (2.0**53 + 1.0). The latter is the documented idea of the encoding; it is recorded because facts proved with it need not hold in Python. |
| C47_subclasses_refuted | Operators are resolved on static types: for two operands of static type A, one of them an instance of B(A) with its own `__radd__`, Python runs B.__radd__ but the program is verified against the contract of A.__add__; no override check relates the two. |
| C47_indirect_redefinition_refuted | translate_operator recognises a redefined reflected method by `overrides`, which only looks at the direct base class; for A + C with C(B), B(A), and `__radd__` in A and C, Python runs C.__radd__ and the translation calls A.__add__. |
| C47_inherited_reflected_refuted | Conversely, if the right operand's class merely inherits a `__radd__` that redefines one further up, the translation calls the reflected method although Python first runs the left operand's `__add__`. |
| C47_type_refuted | get_type (resolver.py 361-364) lets the reflected method win whenever it exists (`if right_func` instead of `elif`), while the translation calls the left operand's method: the expression gets the result type of a method that is not called. |
| C48_none_refuted | `None == b` is encoded as object___eq__(null, b), which an axiom makes false for b not null; Python asks b.__eq__(None), which may be True. |
| C48_object_static_type_refuted | With static type object, `o == o` is assumed to be true; Python calls the `__eq__` of the object's class, which may return False (float nan is such an object). |
| C49_start_join_refuted | fork.py sets ignore_waitlevel_constraints while it translates the precondition of the started method, so `WaitLevel() < Level(l)` is neither checked nor compared with the level of the thread. A method that takes l, starts a thread that takes l, and joins it is verified (the start assumes Level(l) < Level(t), the join asserts it) and deadlocks. |
| C49_join_in_loop_refuted | _translate_thread_join compares the level of the thread with the residue of the method (call.py 1646) also inside a loop, where calls use the residue of the loop. Locks held around a terminating loop are forgotten, and a join in the loop can wait for a thread that waits for such a lock. |
| C50_constants_refuted | program.py 891-892 emits no cons-over-decons axiom for constructors without arguments, so `isinstance(x, Null)` does not give `x == Null()`: true programs are rejected. |
| C50_finite_refuted | No axiom excludes cyclic values such as x == Node(0, x); claims that need finiteness of ADT values cannot be proved. |
| C50_python_equality_refuted | Constructors are NamedTuples, which Python compares as tuples: Banana() == Grape() is True at run time and provably False in contracts. |
| C51_class_field_refuted | A constructor field whose type is an ordinary class makes the axioms contradictory: decons-over-cons quantifies over all Refs, including None and objects of other classes, while the type axiom of the projection forces the class. test_adt_3.py contains such a declaration (Pineapple(property: Property)); whether the solver finds the contradiction depends on triggers. |
| C51_names_refuted | A constructor C with a field named `type` gets two functions called A_C_type (projection and constructor constant). |
| C52_main_refuted | A module-level function, class or variable (or any local variable) called `main` takes that name, the method with the top-level statements becomes `main_0` (method.py 990), but program.py 1537 asks the chopper for `main`: the top-level code is silently not verified. |
| C52_init_refuted | program.py 1464 excludes `__init__` from the checks of inherited methods, and bodies are verified for objects of exactly their own class: an inherited constructor is never verified for the subclass, e.g. if the subclass extends a predicate the constructor folds (`B(A)` with `inv` extended by False: `B()` yields inv, unfolding it proves anything). |
| C52_imported_refuted | Methods of imported modules are contract-only, so program.py 1467 emits no check for a class of the main module that inherits them. |
| C52_select_property_refuted | --select C does not verify the getters and setters of C: _translate_fields never calls track_dependencies. |
| C52_select_inherited_refuted | --select B does not verify methods B inherits for B: the base class method is contract-only under the selection, so no check is emitted (and it would be tracked under the base class). |
| C52_select_predicate_refuted | --select B does not verify the well-formedness of a predicate of B that extends one of its base class: frame checks are tracked under the root of the family. |
| C53_gap_refuted | PythonMethod.overrides looks at the direct superclass only, while uses climb to the topmost class: with A.p, B(A) without p, C(B) with p, the body of C.p forms a family of its own that no use refers to and is silently ignored. |
| C53_inherited_refuted | A class that inherits a predicate without extending it needs the abstract rest predicate to fold it (predicate.py 171-184), so a constructor of such a class cannot establish it. |
| C54_order_refuted | PythonClass.fields lists attributes in the order in which the analyzer first sees them, and any read such as `return d.b` in a function above the class adds to it: with `def f(d: D): return d.b` above `@dataclass class D: a: int; b: int`, the generated constructor is `__init__(self, b, a)`, and `D(1, 2).a == 2` verifies. |
| C54_inherited_refuted | The generated constructor ignores the fields of a dataclass base class, and surplus positional arguments are dropped silently (call.py 935): with `A: x: int` and `D(A): y: int`, `D(1, 2).y == 1` verifies. If a method of D reads self.x, x becomes the last parameter instead of the first. |
| C54_unannotated_refuted | An assignment without annotation in a dataclass becomes a constructor parameter with a default, and defaults are aligned to the last parameters: with `k = 3` above `n: int`, `B(10).n == 3` verifies. |
| C54_property_refuted | Properties are entries of PythonClass.fields, too, and become constructor parameters; with `x: int = 3` and a property p of a frozen dataclass, the verifier assumes p == 3 for A(10), which contradicts the body of p in general. |
| C54_post_init_refuted | call.py 343 looks for __post_init__ only if the constructed class is itself a dataclass: for a plain subclass, which runs the inherited constructor and so __post_init__, its precondition is not checked. |
| C55_same_name_refuted | program.py 153 boxes static enum members with `cls.name + "__box__"`, while the function is named after the fresh Viper name (1217): if two modules declare an IntEnum of the same name with a common value, the member of the second is assumed to have both types, and everything verifies. |
| C55_contains_refuted | expression.py 1492-1494 unboxes an enum on the left of `in`, so `flag.a in [flag.a]` asks for the integer box in the list and `flag.a not in [flag.a]` verifies. |
| C55_identity_refuted | Nothing says that an object of an enum class is one of its members: `f == flag.a` does not imply `f is flag.a` (incomplete). |
| C55_arithmetic_refuted | Arithmetic uses int___unbox__ and comparisons the function of the enum; they are related for results of the box function only, so `f + 0 == f` is not provable for a parameter f (incomplete). |
| C56_global_refuted | translate_acc_global (contract.py 256-281) does not use ctx.perm_factor: two threads that each hold half of ThreadPost(t) both get the full permission to a global variable when they join t. |
| C56_maystart_refuted | Nor do translate_may_start and translate_thread_post (contract.py 173-191): two joiners both get MayStart(u), and u can be started twice. |
| C56_duplicate_refuted | t.join(f, f) inhales the postcondition of f twice, as does naming an inherited method through two classes; after it the verifier believes to hold two whole permissions. |
| C56_exception_refuted | Thread targets may declare exceptions; joining a thread that ended with one assumes the normal postcondition (call.py 1692-1769). |
| C56_types_refuted | The type checks of the arguments are combined by EqCmp instead of And (call.py 1553), so an even number of ill-typed arguments passes; start then assumes the declared types. |
| C56_kwargs_refuted | `if kwargs_arg or daemon_arg` (call.py 1456) treats position 0 as absent: Thread(kwargs={...}, target=f, args=()) is accepted and kwargs ignored. |
| C56_no_args_refuted | Thread(target=f) without args crashes with a TypeError (call.py 1471: arg_exprs[None]), although Python accepts it; the later test `args_arg is not None` cannot be reached. |
| C49/C56, not a theorem | inline_method (call.py 1063) sets ctx.ignore_waitlevel_constraints and never resets it; only start and join do. After an inlined call, later WaitLevel constraints in the same module translate to True. |
| C57_clash_refuted | Class A and its subclass _A may both have an attribute __x; Python calls both _A__x, the verifier uses two Viper fields, so that writing one leaves the other unchanged. |
| C57_spelled_refuted | The same happens if class A uses self.__x and self._A__x. |
| C57_del_private_refuted | translate_stmt_Delete (statement.py) does not check that a private field is deleted inside of its class: del a.__x in another class verifies; Python raises AttributeError. |
| C57_union_private_refuted | Nor does translate_Attribute for receivers of a union type (expression.py 1135-1164). |
| C57_may_create_refuted | MayCreate, MaySet and del use the field of the class where the attribute was found, not actual_field: in a subclass that sets an inherited attribute again, MayCreate(self, "x") is about a field that new objects do not have (and that is not declared in Viper). |
| C58_init_refuted | The value of a new object of a subclass of int with an __init__ is assumed to be 0 whatever the argument: MyInt(5) == 0 verifies; Python gives 5. |
| C58_error_refuted | MyInt(5, 2) verifies; int.__new__ raises TypeError. |
| C60_self_refuted | super().__init__(o, self) in the constructor of a lock class verifies and assumes Level(self) < Level(self), that is, false. |
| C60_twice_refuted | A constructor that calls super().__init__ twice with different bounds assumes contradictory levels. |
| C60_early_refuted | A constructor that creates another lock above self before it calls super().__init__ above that one assumes contradictory levels. |
| C58_lock_name_refuted | translate_constructor_call (call.py 227-232, 304-322) recognises locks by the class name Lock alone: after Lock(4) of a user class called Lock with a pure method get_locked that returns 3, get_locked() == 4 is assumed, that is, false. |
| C58_lock_crash_refuted | Creating an object of a user class called Lock without get_locked, or without arguments, crashes the translation. |
| C61_inline_refuted | Local variables of inlined methods are not checked: with `if a: x = 1`, `y = x` in a method marked @Inline, callers verify although x may be unbound (call.py 1065-1095, the alias variables are not in the locals of the inlined method). |
| C61_wildcard_refuted | Reading the variable _ before it is assigned verifies: each read is a new variable without check (expression.py 965-968). |
| C61_leak_refuted | Calling a pure function that assigns a local variable x makes the unassigned local variable x of the caller count as defined: both have the same identifier, and the postcondition of _assuming is visible to callers. |
| C61_leak_function_refuted | The same happens between pure functions that call each other. |
| C62_for_refuted | The target of a for loop in a module is final, since it is written once in the text; it is assumed equal to the first element before the loop and to the last one after it, so everything verifies after `for x in [1, 2]: pass` (program_nodes.py 1680-1686, statement.py 759-893 and 1385-1464). |
| C62_import_refuted | `from m import X` followed by `X = 6` is taken for an assignment to m.X (analyzer.py 1375-1384), while Python only rebinds the name of the importing module. |
| C62_defined_refuted | `m.X = 7` makes the name X of the current module count as defined (statement.py 1447-1448 passes the current module), so reading an own, not yet assigned X verifies. |
| C63_shared_refuted | The function of a static field that is not final is also equal to its initial value (program.py 145-168 does not ask is_final), and that value is the reference that holds the field: two such fields with the same initial value share one location, all permissions for it are inhaled twice (statement.py 373-381), and from then on everything verifies. |
| C63_instance_refuted | `o.X = 6` for a static field X that is not final is translated as an assignment to the field of the class (statement.py 1433-1448), while Python creates an attribute of o. |
| C63_leak_refuted | The assignment of a static field in a class body makes the global name of the same spelling count as defined (statement.py 1447-1448), so reading the global variable before its assignment verifies. |
| C63_scope_refuted | A name in a class body denotes the static field of the class even above its assignment, where Python reads the global variable; the check that the name is defined looks at the names of the module and passes. |
| C63_inherited_refuted | The postconditions of the function of a static field name the class of the field instead of the inheriting class (program.py 161-167), so that `B.X == A.X` does not verify for a class B that inherits X. |
| C64_conditional_refuted | An existential variable stands for the result of the first operation in the text that has it as a result (io_checkers.py 68-84, definition.py 127-145), also if that operation is under a condition that does not hold. The termination check then evaluates guards with wrong values, and a recursive operation that goes on forever passes it. |
| C65_choice_refuted | For the same reason, Open of `Implies(c, first(t, x, t2)) and Implies(not c, second(t, x, t2))` with c false assumes that the results of `second` are equal to those of `first`, which is not part of the meaning of the body. |
| C66_modules_refuted | Names are unique per pair of name and type, not per name (converter.py 546): two objects of classes with the same name from different modules are both shown as e.g. `Cell0`, and their fields are merged in the heap that is shown. |
| C66_digits_refuted | The same happens for the eleventh object of class `Cell` and the first of class `Cell1`: both are `Cell10`. |
| C66_unknown_refuted | Two objects without a fitting type that are declared with different types are both `?0`. |
| C67_negative_refuted | A negative integer literal as an argument is looked up as `-5` (converter.py 160-161), but the solver prints `(- 5)`: the default value of the function is shown instead. |
| C67_strings_refuted | A string constant as an argument is looked up as its quoted text (171-174) instead of the object: the default value of the function is shown. |
| C68_exact_refuted | If the model has an entry of get_basic for the type of the object, get_precise_type looks for subclasses of the class that it found, finds none, and returns the declared class instead of the class (converter.py 579-600). |
| C68_gap_refuted | Classes below a class that is not in the model are not looked at, although they may be in the model. |
| C68_unspecified_refuted | parse_bool gives the string "?" for other answers, which counts as true in is_type (774): an unspecified answer makes an object an instance of a subclass. |
| C69_while_refuted | The condition of a while loop is checked once, before the loop (statement.py 1714-1717 and 1725): if it becomes secret in the body, the number of iterations depends on the secret and the program is accepted. For loops check at the end of every iteration. (Assumes that the SIF extension adds no check of its own.) |
| C69_continue_refuted | In information-flow mode `continue` is a structured statement (sif/translators/statement.py 49-50), but in a for loop __next__, the check and the assignment of the target follow as statements of the body (statement.py 861-866): `continue` jumps over them, so that the loop variable stays and the check is skipped. (Assumes that SIFContinueStmt ends the iteration.) |
| C69_match_refuted | Match statements get no check at all (statement.py 1088-1131). |
| C69_pure_refuted | Branches in pure functions are not checked, neither in the function nor at the call. |
| C69_chain_refuted | Comparison chains get no check, although Python evaluates the later operands only if the earlier comparisons hold. |
| C69_operator_refuted | The class of the receiver is checked for method calls (call.py 1319-1322), but not for operators that call a method of the class. |
| C69_filter_refuted | Only list comprehensions without filter check the length of their source (expression.py 245-249); filtered, set and dict comprehensions check nothing. |
| C70_last_operand_refuted | The last operand of and / or is checked like the others (expression.py 1611-1613), although nothing is decided on it: `y = public and secret` is reported. |
| C70_while_refuted | The checks of and / or and of conditional expressions are statements, so a while loop with such a condition is rejected as impure in this mode, whatever its operands are. |
| C71_every_amount_refuted | A local variable as (part of) an amount is translated without a target type (permission.py 147), so `Acc(x.f, n / 2)` becomes a division of a reference and is rejected by Silver as ill-typed, whereas `self.n / 2` and `f() / 2` work. |
| C71_int_product_refuted | `Acc(x.f, 1 * 1)` becomes an integer product, which is not a permission; only the literal 1 is treated as a permission (permission.py 38-42, 79-82). |
| C71_int_sum_refuted | `+` and `-` take their operands as permissions without looking at their types (permission.py 98-103): `f() + 1/2` is ill-typed. |
| C71_half_read_in_pure_refuted | ARP() is a wildcard in pure functions (permission.py 159-161), so it cannot be part of a larger amount there (assuming Silver rejects wildcards in compound expressions). |
| C72_nothing_skipped_refuted | The statements at the beginning of a function or loop that are skipped as clauses are recognised by the last component of the called name (lib/util.py 111-128, 176-193), but clauses are collected only for plain names (analyzer.py 1210): a call such as `log.Requires(x)`, `self.Invariant()` or `contracts.Ensures(e)` in such a place is neither verified nor part of the contract. The call is silently dropped. |
| C72_loop_end_skipped_refuted | The same at the end of loop bodies for methods called Ensures. |
| C72_in_place_refuted | get_body_indices is also used for loops, so Requires, Ensures, Exsures or Decreases at the beginning of a loop body and Ensures at its end are accepted and become part of the contract of the function. |
| C72_contract_only_refuted | Clauses anywhere in a contract-only function, for instance under an if, become unconditional parts of its contract; in functions with a body this is rejected. |
| C73_override_accepts_refuted | An overriding method without Exsures is rejected if the overridden method has some: the check method has the result _err (program.py 374-375), but the call in it does not assign it (376-377), so Viper must show the exceptional postconditions for an arbitrary value. |
| C73_loop_return_refuted | The variable _err is set to null at the beginning of a method and after loops (statement.py 1756-1776), but not at the beginning of an iteration: if a call in the loop may assign it, Viper forgets its value, and a `return` in the loop body must show the exceptional postconditions for an arbitrary value. `while True: if x: return; f()` with f declaring an exception is rejected although it is correct (the set of variables that a back end forgets is an assumption, so this is conditional on it). |
| C74_axioms_consistent_refuted | The axioms of tuple_types are contradictory together with the other axioms: tuple_args_subtype_2 (tuple.sil 274-279) says that every subtype of Tuple[t, ...], also Tuple[t, ...] itself, is below the tuple type of its own, fixed type arguments; all tuple types are below Tuple[object, ...], so by tuple_args_def all have the same number of elements, 0 = 1. Also C74_arg_def_2_refuted: tuple_arg_def_2 (219-223) has no bound on the index, and the empty tuple is below Tuple[t, ...] for all t, so its element 0 is below NoneType and every other class. Whether a proof uses this depends on triggers. C74_repaired_consistent shows that bounds and a fixed length repair both. |
| C74_type_check_exists_refuted | translate_type_literal (type_domain_factory.py 866-882) decides by the class of a type whether it is a tuple type. The class of Union[Tuple[int], Tuple[int, str]], or of Optional[Tuple[int]] as a type argument, is tuple, so union_type_1 is applied to a sequence of types: ill-typed Viper code. Unions of more than four members have no function union_type_n at all. |
| C74_starred_member_refuted | GenericType.substitute (program_nodes.py 801-802) drops exact_length: a field or result declared as Tuple[T, ...] in a generic class has type Tuple[int] of exact length 1 in a Box[int], so that a starred argument f(*box.items) is translated to exactly one argument instead of being rejected (call.py 873-897). |
| C75_current_refuted | run_verification (lsp_server.py 94-126) first cancels the running job of the document by its token, but a run that is queued, is being translated, or is submitted but not yet registered (service.py 345-380) is not in the table and goes on. Nothing checks that a finished run is the newest before its diagnostics are published, so an outdated result replaces the newer one: the editor shows no errors although the newest verification reported one. C75_current_finished_refuted is the same with a registered job that has already finished when it is cancelled. |
| C75_no_errors_refuted | "Verify method" (lsp_server.py 214-217) replaces the diagnostics of the whole document by those of one function: errors in other functions disappear from the editor. |
| C75_column_refuted | Columns of the Python ast are offsets in UTF-8 bytes (viper_ast.py 542, service.py 505), the protocol of the editor counts UTF-16 units; the comment in lsp_server.py 148-149 takes them as the same. After a non-ASCII character on the line the diagnostic is shown at a wrong column. |
| C75_file_refuted | _to_lsp_diagnostic ignores the file of a diagnostic: errors in other files, for example type errors in imported modules (service.py 519-528), are shown in the verified document at the line of the other file. |
| C76_only_function_refuted | The lens of a top-level function f passes the bare name f, which by is_contract_only (analyzer.py 1991-2002) also selects the methods f of all classes, all members of a class f, and functions f of imported files, which are not verified otherwise (analyze_import sets contract_only to False with a selection, 791). Errors in these are shown for a command on f. |
| C76_hover_refuted | _contract_hover (lsp_server.py 247-266) shows the contract of the first function with the bare name under the cursor: on the definition of B.g it shows the contract of A.g, and nothing if A.g has no contract. |
| C76_lenses_refuted | _functions (169-182) does not look below statements such as if, at the top level or in classes; functions that are defined there are verified but have no lens. |
| C77_blank_refuted | The names of --select are not stripped (main.py 527, 545): with "f, g" the second name is " g" and g is not verified. Names that select nothing are not reported as long as another one selects something. |
| C77_served_exception_refuted | The loop of the server (main.py 485-495) has no handler: an exception that leaves translate_and_verify, e.g. a JException, which is raised again in 643-645, ends the server; the client of this request and of all later ones waits for ever. |
| C77_served_warning_refuted | "Nothing was selected to be verified." is printed with the function print of Python (program.py 1575), not with the one that collects the response: clients of the server see only that the verification was successful. |
| C78_resources_refuted | reconfigure (service.py 318-331) stores the new options before the resources are read. If this raises, e.g. because intBitopsSize is a string (main.py 80), the new options are reported but the old resources are used, and a later request with the same values finds nothing to change and succeeds. |
| C78_default_refuted | options_to_kwargs (service.py 566-568) drops null values, so that configure cannot set floatEncoding back to its default None, although reconfigure allows for this (325-328). |
