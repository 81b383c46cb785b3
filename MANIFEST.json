{
 "claims": [
  {
   "property": "C01",
   "status": "partial",
   "theorems": [
    "C01_name_ids_distinct_refuted",
    "C01_definedness_confuses_names_refuted",
    "C01_name_ids_decode_partial",
    "C01_name_ids_distinct_partial",
    "C01_definedness_exact_partial",
    "C01_dotted_names_distinct_partial"
   ],
   "note": "False as stated: two distinct identifiers can share one numeric id (witness in the refuted theorems). Proved for identifiers whose characters all have code points 1..255."
  },
  {
   "property": "C02",
   "status": "proved",
   "theorems": [
    "C02_fresh_names",
    "C02_free_name_kept",
    "C02_singleton_names"
   ],
   "note": "All histories of name requests on the shared table."
  },
  {
   "property": "C03",
   "status": "proved",
   "theorems": [
    "C03_int_builders_preserve_meaning",
    "C03_bool_builders_preserve_meaning",
    "C03_always_true_sound",
    "C03_always_false_sound",
    "C03_operator_plus",
    "C03_operator_plus_node",
    "C03_operator_minus",
    "C03_operator_minus_node",
    "C03_operator_compare",
    "C03_conditional_increment"
   ],
   "note": "All builder trees, states and both readings of inhale-exhale assertions; accessibility parts are opaque atoms."
  },
  {
   "property": "C04",
   "status": "partial",
   "theorems": [
    "C04_floordiv_refuted",
    "C04_mod_refuted",
    "C04_floordiv_right_iff",
    "C04_mod_right_iff",
    "C04_positive_divisor_partial",
    "C04_zero_division",
    "C04_spec_functional"
   ],
   "note": "False as stated for negative divisors that do not divide exactly (refuted). Exact characterisation of the inputs on which // and % agree with Python."
  },
  {
   "property": "C05",
   "status": "partial",
   "theorems": [
    "C05_lshift_refuted",
    "C05_rshift_refuted",
    "C05_lshift_partial",
    "C05_rshift_partial",
    "C05_lshift_wide_partial",
    "C05_rshift_wide_partial",
    "C05_small_widths"
   ],
   "note": "False as stated for amounts above 64 (refuted at the default width). Proved for amounts up to 64, for right shifts of non-negative operands, and that widths up to 6 exclude larger amounts."
  },
  {
   "property": "C06",
   "status": "partial",
   "theorems": [
    "C06_bitops_refuted",
    "C06_and_right_iff",
    "C06_or_right_iff",
    "C06_xor_right_iff",
    "C06_nonnegative_partial"
   ],
   "note": "False as stated for operands whose Python result is negative (refuted); proved right exactly when Python's result is non-negative, for every width."
  },
  {
   "property": "C07",
   "status": "partial",
   "theorems": [
    "C07_pow",
    "C07_pow_literal_exponent",
    "C07_pow_axioms_consistent",
    "C07_bit_length",
    "C07_invert",
    "C07_truth_value",
    "C07_abs",
    "C07_comparisons",
    "C07_bool_equals_int",
    "C07_max_of_two",
    "C07_min_of_two",
    "C07_max_min_of_list_partial",
    "C07_max_of_list_undetermined_refuted",
    "C07_max_of_bools_unsatisfiable_refuted",
    "C07_sorted",
    "C07_truediv_refuted",
    "C07_truediv_partial",
    "C07_sum_axioms",
    "C07_sum_axioms_consistent",
    "C07_sum_conversion_partial",
    "C07_sum_contract_unsatisfiable_refuted"
   ],
   "note": "pow, bit_length, invert, abs, comparisons, two-argument max/min and sorted proved in full; list max/min only one direction; truediv type and the contract behind sum() refuted."
  },
  {
   "property": "C08",
   "status": "partial",
   "theorems": [
    "C08_list_slice",
    "C08_bytearray_slice",
    "C08_tuple_slice_refuted",
    "C08_range_slice_refuted",
    "C08_bytes_slice_refuted",
    "C08_tuple_slice_partial",
    "C08_range_slice_partial",
    "C08_bytes_slice_partial"
   ],
   "note": "Lists and bytearrays: exact for all bounds. Tuples, ranges and bytes: exact when start <= stop; refuted when start > stop, where the contract has no result although its precondition holds."
  },
  {
   "property": "C09",
   "status": "partial",
   "theorems": [
    "C09_getitem",
    "C09_getitem_precondition",
    "C09_setitem",
    "C09_insert",
    "C09_append",
    "C09_extend",
    "C09_add",
    "C09_mul",
    "C09_copy",
    "C09_eq",
    "C09_truth_value",
    "C09_contains_refuted",
    "C09_index_refuted",
    "C09_remove_refuted",
    "C09_contains_partial",
    "C09_index_partial",
    "C09_remove_partial",
    "C09_reverse_refuted",
    "C09_reverse_partial"
   ],
   "note": "getitem, setitem, insert, append, extend, +, *, copy and == are exact including the frame. Membership, index and remove compare identities instead of ==, which is refuted with True/1; they are right when equal elements are identical. reverse is refuted: the contract returns a copy instead of changing the list."
  },
  {
   "property": "C10",
   "status": "partial",
   "theorems": [
    "C10_range_call",
    "C10_range_getitem",
    "C10_range_eq",
    "C10_range_contains_refuted",
    "C10_range_contains_partial"
   ],
   "note": "One, two and three argument range, indexing and equality are exact under their preconditions. Membership of a bool is refuted."
  },
  {
   "property": "C11",
   "status": "partial",
   "theorems": [
    "C11_seven_elements_refuted",
    "C11_accepted_literals",
    "C11_tuple_literal_partial"
   ],
   "note": "Literals with at most six elements are exact. Literals with seven to nine elements are accepted but their contract has no result (refuted)."
  },
  {
   "property": "C12",
   "status": "partial",
   "theorems": [
    "C12_set_history_partial",
    "C12_set_contains_partial",
    "C12_set_equal_elements_refuted",
    "C12_dict_history_partial",
    "C12_dict_equal_keys_refuted",
    "C12_keys_is_no_view_refuted"
   ],
   "note": "History theorems for sets and dictionaries hold when == agrees with identity on the elements resp. keys used; without that condition they are refuted with True/1. keys() is refuted: it is a snapshot, Python's is a view."
  },
  {
   "property": "C13",
   "status": "proved",
   "theorems": [
    "C13_iterator",
    "C13_for_loop",
    "C13_for_invariant"
   ],
   "note": "Iterator contract exact, loop encoding equivalent to Python's loop for arbitrary bodies, default invariant holds at every reachable loop head."
  },
  {
   "property": "C14",
   "status": "partial",
   "theorems": [
    "C14_operand_order_refuted",
    "C14_operand_order_partial"
   ],
   "note": "Simulation proved for every expression in which no operand that reads the heap is followed by an operand with a call, exceptions included. Refuted in general: o.f + m() reads o.f after m()."
  },
  {
   "property": "C15",
   "status": "partial",
   "theorems": [
    "C15_ifexp_operand_refuted",
    "C15_or_reread_refuted",
    "C15_condition_reread_refuted",
    "C15_short_circuit_partial",
    "C15_and_or_partial",
    "C15_conditional_partial"
   ],
   "note": "Skipping of undecided operands and of the other branch proved without restricting what is skipped. Refuted: conditions and operands that read the heap are re-evaluated after the calls of later operands; a conditional expression used as operand of and/or is reduced to its truth value."
  },
  {
   "property": "C16",
   "status": "partial",
   "theorems": [
    "C16_chain_refuted",
    "C16_chain_partial"
   ],
   "note": "Chains of any length whose third and later operands contain no call. Refuted otherwise: all operands are executed even if an earlier comparison is false."
  },
  {
   "property": "C17",
   "status": "partial",
   "theorems": [
    "C17_swap_refuted",
    "C17_chained_refuted",
    "C17_augmented_refuted",
    "C17_assignment_partial",
    "C17_augmented_partial"
   ],
   "note": "Nested, chained and attribute targets proved when the targets do not overwrite what the right-hand side reads. Refuted: a, b = b, a; x = y = x + x; o.f += m()."
  },
  {
   "property": "C18",
   "status": "partial",
   "theorems": [
    "C18_after_star_refuted",
    "C18_star_partial",
    "C18_star_last_partial"
   ],
   "note": "Number check, targets before the star and the starred list proved for all lengths. Refuted: targets after the star are indexed from the front."
  },
  {
   "property": "C19",
   "status": "partial",
   "theorems": [
    "C19_match_choice",
    "C19_match_unguarded",
    "C19_pattern_condition",
    "C19_failed_guard_binding_refuted",
    "C19_or_capture_refuted",
    "C19_keyword_guard_refuted"
   ],
   "note": "Patterns, guards, captures and definedness markers of match statements. Proved: choice of the case, bindings and definedness for all case lists (with conditions on guards), exact equality without guards, correctness of pattern conditions. Refuted: bindings of a case whose guard fails are lost; captures below or-patterns are never assigned; a guard that reads a keyword capture reads the old variable."
  },
  {
   "property": "C20",
   "status": "partial",
   "theorems": [
    "C20_pure_sound",
    "C20_pure_exact",
    "C20_param_in_branch_refuted",
    "C20_failed_guard_refuted",
    "C20_or_capture_refuted",
    "C20_empty_body_refuted",
    "C20_body_generated",
    "C20_after_return_rejected"
   ],
   "note": "Whole translation of pure function bodies (assign, augmented assign, if, match, assert, return) to let-expressions incl. definedness checks. Proved: soundness for all accepted bodies and exactness for int/bool augmented assignments, under the static conditions no_stale_reads, pats_oks, params_ok. Refuted: parameter assigned in one branch becomes None in the other; failed-guard bindings; or-captures; an empty body is accepted as abstract function. Unfold statements are not modelled."
  },
  {
   "property": "C21",
   "status": "partial",
   "theorems": [
    "C21_control_flow_partial",
    "C21_return_in_handler_refuted",
    "C21_inner_loop_break_refuted",
    "C21_inner_break_leaves_outer_refuted",
    "C21_exception_lost_at_finally_refuted",
    "C21_outer_handler_name_refuted",
    "C21_bare_return_refuted",
    "C21_loop_in_finally_refuted",
    "C21_break_in_loop_else_refuted",
    "C21_raise_in_finally_refuted"
   ],
   "note": "Simulation theorem for the fragment supported (FlowSpec.v): all nestings of loops, if, try/except/else/finally, raise, return, break and continue, except where the refutations show a difference: exits or exceptions in handlers/else of a try with finally, break/continue in a loop inside a try with finally, exceptions passing an inner try before a finally or a named handler, loops, raises and bare returns in finally, break in a loop else."
  },
  {
   "property": "C22",
   "status": "partial",
   "theorems": [
    "C22_exit_partial",
    "C22_with_in_try_refuted",
    "C22_nested_with_refuted",
    "C22_break_exit_argument_refuted",
    "C22_suppress_refuted"
   ],
   "note": "__exit__ is called exactly once with the right argument for with bodies of the fragment (no enclosing handlers or with statements, no break out of the body). Refuted: with inside try/except, nested with, break out of with, suppressing __exit__."
  },
  {
   "property": "C23",
   "status": "partial",
   "theorems": [
    "C23_preserved_partial",
    "C23_ghost_effect_partial",
    "C23_converted_call_refuted",
    "C23_builtin_argument_refuted",
    "C23_augmented_refuted",
    "C23_match_refuted",
    "C23_ghost_result_refuted",
    "C23_ghost_test_refuted",
    "C23_returned_effect_refuted",
    "C23_mixed_return_refuted",
    "C23_list_target_refuted",
    "C23_nested_argument_refuted",
    "C23_receiver_refuted",
    "C23_receiver_write_refuted"
   ],
   "note": "Preservation of outputs, regular fields and results for every accepted program in the core fragment (functions, pure functions, ghost and mixed results, ghost parameters, fields, if, while, tuple targets), for every terminating run; twelve accepted programs outside the fragment are changed by the extraction. Missing: diverging originals (termination of ghost code is left to the verifier), classes, for loops, exceptions, subscripts."
  },
  {
   "property": "C24",
   "status": "partial",
   "theorems": [
    "C24_conversion",
    "C24_positions",
    "C24_fresh_ids",
    "C24_stale_position",
    "C24_own_rules_refuted",
    "C24_timeout_diagnostics_refuted",
    "C24_negated_condition_partial",
    "C24_negated_condition_refuted",
    "C24_branch_condition",
    "C24_branch_condition_refuted"
   ],
   "note": "Conversion over all registration histories and error lists is proved. Refuted: rules of a sibling conjunct, timeouts in the service, texts of negated and hidden branch conditions."
  },
  {
   "property": "C25",
   "status": "partial",
   "theorems": [
    "C25_requests_only",
    "C25_isolation",
    "C25_submitted_partial",
    "C25_reconfigure_submitted_refuted",
    "C25_reconfigure_mixes_refuted",
    "C25_backend_mixed_refuted",
    "C25_cancel_target",
    "C25_cancel_reason",
    "C25_cancel_effective",
    "C25_no_leak",
    "C25_cancel_lost_refuted",
    "C25_token_reuse_refuted",
    "C25_no_deadlock"
   ],
   "note": "Isolation, targets of cancel, effectiveness of cancel, absence of leaked entries and of deadlock are proved for all schedules; independence of later reconfigurations holds up to counterexamples (C25_submitted_partial), the full claim is refuted."
  },
  {
   "property": "C26",
   "status": "partial",
   "theorems": [
    "C26_list",
    "C26_list_filter",
    "C26_set_partial",
    "C26_dict_partial",
    "C26_dict_equal_keys_refuted",
    "C26_over_dict_refuted"
   ],
   "note": "Unfiltered list comprehensions over sequences exact, filtered ones sound, set and dict comprehensions sound when == agrees with identity on elements resp. keys. Refuted: dict comprehensions with keys 1 and True; comprehensions over a dictionary, which look up d[i]."
  },
  {
   "property": "C27",
   "status": "partial",
   "theorems": [
    "C27_binding_partial",
    "C27_keyword_only_default_refuted",
    "C27_default_lost_refuted",
    "C27_positional_only_refuted",
    "C27_dict_unpacking_refuted",
    "C27_default_time_refuted",
    "C27_evaluated_once_partial",
    "C27_order_partial",
    "C27_order_refuted",
    "C27_builtin"
   ],
   "note": "Proved for all signatures without positional-only parameters and all calls without ** unpacking; with keyword-only parameters only if no default is used. The remaining cases are refuted."
  },
  {
   "property": "C28",
   "status": "partial",
   "theorems": [
    "C28_issubtype",
    "C28_issubtype_class",
    "C28_issubtype_generic_partial",
    "C28_issubtype_generic_refuted",
    "C28_generic_superclass_partial",
    "C28_generic_superclass_refuted",
    "C28_common_superclass",
    "C28_union_class",
    "C28_get_member",
    "C28_get_member_none",
    "C28_get_method",
    "C28_get_method_none",
    "C28_get_func_or_method_partial",
    "C28_get_func_or_method_refuted",
    "C28_all_subclasses",
    "C28_domain_subtype",
    "C28_domain_distinct",
    "C28_class_axioms_consistent",
    "C28_type_axioms_consistent_refuted",
    "C28_without_exclusion_2_consistent"
   ],
   "note": "Lookups, class subtyping, common superclasses and subclasses are proved for all hierarchies; the type domain without unions is proved exact and consistent. The full set of axioms of the type domain is proved inconsistent for every program (refuted); it is consistent without issubtype_exclusion_2. Subtyping of generic types and get_func_or_method are right only under the stated conditions. Tuple types are not modelled."
  },
  {
   "property": "C29",
   "status": "proved",
   "theorems": [
    "C29_fresh_once",
    "C29_no_call_chain",
    "C29_no_iteration_chain",
    "C29_promise_terminates",
    "C29_no_infinite_run",
    "C29_loop_terminates",
    "C29_loop_restores"
   ],
   "note": "Termination promises imply termination for every program of a language with dynamically dispatched calls, loops, jumps and exceptions whose generated checks succeed; no infinite chain of calls or of iterations hands on the same obligation. Interface (contract-only) methods are assumed to do what their contracts say."
  },
  {
   "property": "C30",
   "status": "proved",
   "theorems": [
    "C30_none_lost",
    "C30_release_exact",
    "C30_none_invented",
    "C30_all_fulfilled",
    "C30_waiting",
    "C30_exhale_exact",
    "C30_inhale_exact",
    "C30_exhale_possible",
    "C30_bound_keeps",
    "C30_start_bounded"
   ],
   "note": "Exact account of obligations over all runs of calls, returns, loops, iterations and breaks. Permission amounts are whole obligations; credits may be dropped (the code has no leak check for them)."
  },
  {
   "property": "C31",
   "status": "partial",
   "theorems": [
    "C31_terminates",
    "C31_once",
    "C31_order_partial",
    "C31_sound_partial",
    "C31_complete_partial",
    "C31_lookup_refuted",
    "C31_method_refuted",
    "C31_star_refuted",
    "C31_attribute_refuted"
   ],
   "note": "Termination and at-most-once execution are proved for all import graphs; order, soundness and completeness for imports whose module is found exactly and names with a single role (completeness without module attributes). The other cases are refuted. Dotted module names, ignored modules and call dependencies (C45) are not part of this model."
  },
  {
   "property": "C32",
   "status": "partial",
   "theorems": [
    "C32_getitem",
    "C32_contains",
    "C32_view_refuted",
    "C32_view_partial"
   ],
   "note": "Exact for combined and renamed tables; for lazy module views proved on acyclic import graphs, refuted on cyclic ones. Iteration, length and IOOperationContentDict are not modelled."
  },
  {
   "property": "C33",
   "status": "proved",
   "theorems": [
    "C33_value_and_length",
    "C33_denotes",
    "C33_eq",
    "C33_bool"
   ],
   "note": "All string expressions built from literals and +."
  },
  {
   "property": "C34",
   "status": "partial",
   "theorems": [
    "C34_bytes_literal",
    "C34_bytes_add",
    "C34_bytes_mul",
    "C34_bytes_join",
    "C34_bytes_bool",
    "C34_bytes_getitem",
    "C34_bytearray_bounds",
    "C34_bytearray_all",
    "C34_bytearray_getitem",
    "C34_bytearray_from_list",
    "C34_bytearray_setitem",
    "C34_bytearray_append",
    "C34_bytearray_extend",
    "C34_bytearray_reverse",
    "C34_bytearray_contains",
    "C34_bytearray_negative_refuted",
    "C34_bytearray_from_int_partial",
    "C34_byteseq_update_refuted",
    "C34_byteseq_create_refuted",
    "C34_byteseq_partial"
   ],
   "note": "bytes and bytearray operations are exact and bytearrays stay within byte bounds for every history. Refuted: bytearray(n) for negative n and PByteSeq create/update with non-bytes have no result although nothing rules them out."
  },
  {
   "property": "C35",
   "status": "partial",
   "theorems": [
    "C35_real_arithmetic",
    "C35_real_division",
    "C35_real_equality",
    "C35_real_order_partial",
    "C35_real_order_refuted",
    "C35_real_int_comparison",
    "C35_real_literal",
    "C35_real_int_iff",
    "C35_real_int_refuted",
    "C35_real_class_refuted",
    "C35_real_rounding_refuted",
    "C35_ieee32_order_partial",
    "C35_ieee32_int_eq_partial",
    "C35_ieee32_int_eq_refuted",
    "C35_ieee32_literal",
    "C35_ieee32_bits",
    "C35_ieee32_literal_refuted",
    "C35_ieee32_precision_refuted",
    "C35_ieee32_bool_iff",
    "C35_ieee32_zero_refuted",
    "C35_ieee32_int_iff",
    "C35_ieee32_int_refuted",
    "C35_default"
   ],
   "note": "Real encoding: arithmetic, equality, truth value, literals and int/float comparisons exact for all values; order exact except for nan against an infinity, where the contracts contradict themselves. Single precision encoding: comparisons, literals, truth value and int() characterised; equality of large ints is contradictory. IEEE arithmetic itself is taken from the standard library's SpecFloat, as the contracts use SMT-LIB's operations directly."
  },
  {
   "property": "C36",
   "status": "proved",
   "theorems": [
    "C36_exact",
    "C36_taken"
   ],
   "note": "Proved for all contract expressions in both directions."
  },
  {
   "property": "C37",
   "status": "partial",
   "theorems": [
    "C37_type_message",
    "C37_type_diagnostic",
    "C37_ide_translation_error",
    "C37_ide_verification_error",
    "C37_human_format",
    "C37_exception_position_partial",
    "C37_exception_file_refuted",
    "C37_multiline_refuted",
    "C37_colon_file_refuted",
    "C37_no_position_refuted"
   ],
   "note": "Formats and the type error pattern are inverse for one-line messages and file names without colon before digit. Refuted: exceptions from imported modules, multi-line messages, such file names, missing positions."
  },
  {
   "property": "C38",
   "status": "partial",
   "theorems": [
    "C38_messages",
    "C38_diagnostics_partial",
    "C38_reason_refuted"
   ],
   "note": "Printed messages: proved. Service diagnostics: first per key; refuted for errors that differ only in their reason."
  },
  {
   "property": "C39",
   "status": "partial",
   "theorems": [
    "C39_tuple_getitem",
    "C39_tuple_eq",
    "C39_tuple_contains_refuted",
    "C39_tuple_contains_partial"
   ],
   "note": "Indexing and equality exact; membership by identity refuted for True/1."
  },
  {
   "property": "C40",
   "status": "proved",
   "theorems": [
    "C40_pseq",
    "C40_pseq_total",
    "C40_pset",
    "C40_pmultiset",
    "C40_to_multiset"
   ],
   "note": "All contracts exact and satisfiable; the ToMS axioms are consistent and determine the counts."
  },
  {
   "property": "C41",
   "status": "proved",
   "theorems": [
    "C41_forall",
    "C41_exists"
   ],
   "note": "Proved for all domains; the elements of the last domain must have the type of its variable."
  },
  {
   "property": "C42",
   "status": "partial",
   "theorems": [
    "C42_override_checked_partial",
    "C42_check_sound",
    "C42_override_checked_refuted"
   ],
   "note": "Proved when every class between two definitions also defines the method; refuted when a class in between does not."
  },
  {
   "property": "C43",
   "status": "proved",
   "theorems": [
    "C43_toposort",
    "C43_dispatch_expr",
    "C43_dispatch_stmt"
   ],
   "note": "Proved for all hierarchies, unions and receivers; the member looked up in the chosen class is that of C28."
  },
  {
   "property": "C44",
   "status": "partial",
   "theorems": [
    "C44_order_refuted",
    "C44_leak_refuted",
    "C44_unbound_refuted",
    "C44_resolve_partial",
    "C44_candidates",
    "C44_attribute_candidates",
    "C44_terminates",
    "C44_star_cycle_refuted",
    "C44_mutual_refuted"
   ],
   "note": "Proved exact when each name is bound once and explicit imports leak nothing, on acyclic import graphs; candidates and termination are proved for all acyclic graphs. Order of imports, leaking through from-imports and import cycles are refuted."
  },
  {
   "property": "C45",
   "status": "partial",
   "theorems": [
    "C45_exact_partial",
    "C45_terminates_partial",
    "C45_constructor_refuted",
    "C45_method_refuted",
    "C45_terminates_refuted",
    "C45_static_refuted"
   ],
   "note": "Proved exact for all call graphs without constructor or static method calls in function bodies, and terminating when no recursion runs through a method call on an object. Constructor calls in functions, method calls at top level, recursive methods and static methods are refuted."
  },
  {
   "property": "C46",
   "status": "partial",
   "theorems": [
    "C46_promise_partial",
    "C46_forall_refuted",
    "C46_sif_refuted"
   ],
   "note": "Proved when MustTerminate is not under a quantifier and TerminatesSif is not used outside the information-flow mode; both exceptions are refuted."
  },
  {
   "property": "C47",
   "status": "partial",
   "theorems": [
    "C47_names",
    "C47_operator_partial",
    "C47_augassign_partial",
    "C47_subclasses_partial",
    "C47_subclasses_refuted",
    "C47_indirect_redefinition_refuted",
    "C47_inherited_reflected_refuted",
    "C47_type_partial",
    "C47_type_refuted",
    "C47_unary"
   ],
   "note": "Names and unary operators in full. Binary operators and augmented assignments: for operands of exactly the static classes, if redefinitions of reflected methods are direct; for operands of subclasses, if no reflected method takes precedence. The remaining cases are refuted. Generic, union and type variable operand types are not modelled; methods are assumed to handle exactly the arguments of their declared parameter type."
  },
  {
   "property": "C48",
   "status": "partial",
   "theorems": [
    "C48_comparison_partial",
    "C48_own_method",
    "C48_identity",
    "C48_object_equality_axioms",
    "C48_none_refuted",
    "C48_object_static_type_refuted"
   ],
   "note": "Comparison methods of the left operand's class and comparison by identity. Reflected comparisons are never generated: refuted where object equality is used instead. Enums and algebraic data types are not modelled."
  },
  {
   "property": "C49",
   "status": "partial",
   "theorems": [
    "C49_no_deadlock_partial",
    "C49_progress_partial",
    "C49_lock_order_partial",
    "C49_start_join_refuted",
    "C49_join_in_loop_refuted",
    "C49_with_both_checks"
   ],
   "note": "Programs without joins: no deadlock, progress and lock order for every schedule. With joins refuted twice; C49_with_both_checks shows that the two missing checks are the only ones. Wait levels in postconditions of joined threads, inlined methods, exceptional exits, and the heap (fields holding locks) are not modelled."
  },
  {
   "property": "C50",
   "status": "partial",
   "theorems": [
    "C50_field_of_constructor",
    "C50_type_of_constructor",
    "C50_equality",
    "C50_cases",
    "C50_field_types",
    "C50_rebuild_partial",
    "C50_constants_refuted",
    "C50_finite_refuted",
    "C50_python_equality_refuted"
   ],
   "note": "All laws for constructors with fields; for constructors without fields the last one is refuted, and so are finiteness and agreement with Python's ==. Generated ADT box/unbox functions are modelled by their postconditions; triggers are not."
  },
  {
   "property": "C51",
   "status": "partial",
   "theorems": [
    "C51_consistent_iff",
    "C51_consistent_partial",
    "C51_class_field_refuted",
    "C51_names_partial",
    "C51_names_refuted",
    "C51_accepted_classes"
   ],
   "note": "Consistency characterised exactly: the axioms have a model iff every class-typed field accepts every object. Names distinct for identifiers without underscores that avoid the reserved words; refuted in general."
  },
  {
   "property": "C52",
   "status": "partial",
   "theorems": [
    "C52_complete",
    "C52_main_exact",
    "C52_main_refuted",
    "C52_dispatch_partial",
    "C52_init_refuted",
    "C52_imported_refuted",
    "C52_select_module_partial",
    "C52_select_class_partial",
    "C52_unselected_skipped",
    "C52_select_property_refuted",
    "C52_select_inherited_refuted",
    "C52_select_predicate_refuted"
   ],
   "note": "Whole-file verification complete except for top-level code (exact condition C52_main_exact), inherited constructors and methods inherited from imported modules (refuted). Selection: functions, methods, static methods and override checks; refuted for properties, inherited methods and extending predicates. The dependencies added by the chopper are not modelled; names of fields, locals and temporaries are a given set."
  },
  {
   "property": "C53",
   "status": "partial",
   "theorems": [
    "C53_one_predicate",
    "C53_content_partial",
    "C53_unfold_partial",
    "C53_mixed_rejected",
    "C53_gap_refuted",
    "C53_inherited_refuted"
   ],
   "note": "Uses always agree; content proved for families without gaps that are not abstract, refuted otherwise. Bodies are opaque; argument types are not modelled."
  },
  {
   "property": "C54",
   "status": "partial",
   "theorems": [
    "C54_params_exact",
    "C54_construct_partial",
    "C54_post_init_partial",
    "C54_order_refuted",
    "C54_inherited_refuted",
    "C54_unannotated_refuted",
    "C54_property_refuted",
    "C54_post_init_refuted"
   ],
   "note": "Exact characterization of the generated parameters; attributes agree with Python for dataclasses that declare annotated fields above every use and inherit none; refuted otherwise. __post_init__ proved for classes that are dataclasses themselves. Types, field permissions other than those returned by the constructor and explicit constructors are not modelled."
  },
  {
   "property": "C55",
   "status": "partial",
   "theorems": [
    "C55_consistent_partial",
    "C55_cons_checked",
    "C55_members",
    "C55_compare",
    "C55_same_name_refuted",
    "C55_contains_refuted",
    "C55_identity_refuted",
    "C55_arithmetic_refuted"
   ],
   "note": "Consistency for classes whose names are distinct and free, refuted for equal names in two modules; constructor, identity of members and comparisons proved; membership tests refuted; every object being a member is not derivable (refuted). Values are integer literals."
  },
  {
   "property": "C56",
   "status": "partial",
   "theorems": [
    "C56_no_race_partial",
    "C56_assumptions_partial",
    "C56_start_once_partial",
    "C56_global_refuted",
    "C56_maystart_refuted",
    "C56_duplicate_refuted",
    "C56_exception_refuted",
    "C56_arg_types_exact",
    "C56_types_refuted",
    "C56_constructor",
    "C56_kwargs_refuted",
    "C56_no_args_refuted"
   ],
   "note": "Proved for contracts with fields, containers and predicates, sums and Old of fields, for all interleavings; refuted for global variables, MayStart and ThreadPost in postconditions, methods named twice, exceptional ends and ill-typed arguments. MaySet, abstract read permissions, conditional permissions, results of joined methods and predicate contents are not modelled; wait levels are C49."
  },
  {
   "property": "C57",
   "status": "partial",
   "theorems": [
    "C57_same_attribute_partial",
    "C57_private",
    "C57_attributes_partial",
    "C57_create",
    "C57_clash_refuted",
    "C57_spelled_refuted",
    "C57_del_private_refuted",
    "C57_union_private_refuted",
    "C57_may_create_exact",
    "C57_may_create_refuted"
   ],
   "note": "Proved for all class hierarchies without clashing private names and all executions in which private attributes are deleted, or read through unions, only inside of their class; refuted for the rest. Static fields, properties, __getattr__, slots and permissions in predicates are not modelled; values are integers."
  },
  {
   "property": "C58",
   "status": "partial",
   "theorems": [
    "C58_no_lock",
    "C58_lock_name_refuted",
    "C58_lock_crash_refuted",
    "C58_value_partial",
    "C58_no_argument",
    "C58_exact",
    "C58_init_refuted",
    "C58_error_refuted"
   ],
   "note": "Exact condition proved; refuted for classes with __init__. For classes called Lock: nothing is assumed if no class of the hierarchy is called Lock; refuted for classes of the user with this name."
  },
  {
   "property": "C59",
   "status": "proved",
   "theorems": [
    "C59_expected",
    "C59_no_race",
    "C59_exclusive",
    "C59_protected"
   ],
   "note": "Lock.__init__ runs once for each lock (see C60 for what happens otherwise). Predicates and abstract read permissions inside of invariants and wait levels (C49) are not modelled."
  },
  {
   "property": "C60",
   "status": "partial",
   "theorems": [
    "C60_levels_partial",
    "C60_direct",
    "C60_self_refuted",
    "C60_twice_refuted",
    "C60_early_refuted"
   ],
   "note": "Proved for executions in which each lock gets its level once and before it is used, in particular for lock classes without constructors; refuted for constructors that break this."
  },
  {
   "property": "C61",
   "status": "partial",
   "theorems": [
    "C61_locals_partial",
    "C61_functions_partial",
    "C61_inline_refuted",
    "C61_wildcard_refuted",
    "C61_leak_refuted",
    "C61_leak_function_refuted"
   ],
   "note": "Proved for methods that call no inlined methods, do not read _, and share no names with local variables of pure functions; each of these is refuted otherwise. Exceptions, match statements, break, continue and return are not modelled."
  },
  {
   "property": "C62",
   "status": "partial",
   "theorems": [
    "C62_globals_partial",
    "C62_for_refuted",
    "C62_import_refuted",
    "C62_defined_refuted"
   ],
   "note": "Proved for programs without from-imports of variables that change, without final variables assigned in loops and without modules that assign m.x and read their own x; the refuted theorems show that these are needed (for while loops this is open). Functions take no arguments and do not call each other; circular definitions of final variables are excluded."
  },
  {
   "property": "C63",
   "status": "partial",
   "theorems": [
    "C63_statics_partial",
    "C63_shared_refuted",
    "C63_instance_refuted",
    "C63_leak_refuted",
    "C63_scope_refuted",
    "C63_inherited_refuted"
   ],
   "note": "C63_statics_partial covers fields that are assigned outside of class bodies if their initial values are different literals; sharing of references, assignments through objects, shadowing and inherited fields are refuted."
  },
  {
   "property": "C64",
   "status": "partial",
   "theorems": [
    "C64_terminates_partial",
    "C64_bounded_partial",
    "C64_conditional_refuted"
   ],
   "note": "Proved for operations whose existential variables are defined outside of conditions; C64_conditional_refuted shows that this is needed. Missing: IOForall, eval_io and custom measures other than integers over parameters."
  },
  {
   "property": "C65",
   "status": "partial",
   "theorems": [
    "C65_opens",
    "C65_sound",
    "C65_nothing_more_partial",
    "C65_choice_refuted"
   ],
   "note": "C65_opens and C65_sound hold for all accepted bodies; C65_nothing_more_partial for those whose existential variables are defined outside of conditions, which C65_choice_refuted shows to be needed. Missing: IOForall and eval_io."
  },
  {
   "property": "C66",
   "status": "partial",
   "theorems": [
    "C66_same_object",
    "C66_same_type",
    "C66_names_partial",
    "C66_modules_refuted",
    "C66_digits_refuted",
    "C66_unknown_refuted"
   ],
   "note": "C66_same_object and C66_same_type hold for all counterexamples; that different names mean different objects is C66_names_partial, under conditions on the names of types that the refuted theorems show to be needed."
  },
  {
   "property": "C67",
   "status": "partial",
   "theorems": [
    "C67_values_partial",
    "C67_text",
    "C67_integers",
    "C67_only_integers",
    "C67_negative_refuted",
    "C67_strings_refuted"
   ],
   "note": "C67_text, C67_integers and C67_only_integers hold in general; C67_values_partial without negative literals, strings and sequences (refuted for the first two). Missing: PredicateLookup, sequences of values, ADTs, tuples."
  },
  {
   "property": "C68",
   "status": "partial",
   "theorems": [
    "C68_sound",
    "C68_found",
    "C68_exact_partial",
    "C68_exact_refuted",
    "C68_gap_refuted",
    "C68_unspecified_refuted"
   ],
   "note": "C68_sound and C68_found hold for classes without type variables in models that answer issubtype; C68_exact_partial without entries of get_basic. Missing: generic types, tuples and Optional."
  },
  {
   "property": "C69",
   "status": "partial",
   "theorems": [
    "C69_prob_partial",
    "C69_while_refuted",
    "C69_continue_refuted",
    "C69_match_refuted",
    "C69_pure_refuted",
    "C69_chain_refuted",
    "C69_operator_refuted",
    "C69_filter_refuted"
   ],
   "note": "C69_prob_partial covers programs without match, comparison chains, filtered comprehensions, overloaded operators and branching pure functions, whose while loops have the condition as a Low invariant and whose for loops have no continue; each exclusion is refuted separately. Missing: heap, calls that raise, else blocks of loops, with."
  },
  {
   "property": "C70",
   "status": "partial",
   "theorems": [
    "C70_accepts_partial",
    "C70_last_operand_refuted",
    "C70_while_refuted"
   ],
   "note": "C70_accepts_partial excludes and / or and other while loops than those of C69; the former is refuted."
  },
  {
   "property": "C71",
   "status": "partial",
   "theorems": [
    "C71_amount_partial",
    "C71_accepts_partial",
    "C71_pure_read",
    "C71_every_amount_refuted",
    "C71_int_product_refuted",
    "C71_int_sum_refuted",
    "C71_half_read_in_pure_refuted"
   ],
   "note": "C71_amount_partial: literals are integers (bool and float literals are not modelled), attributes and calls are pure and of type int, denominators and the argument of ARP contain no / or ARP. C71_accepts_partial excludes pure functions. That every amount with a meaning is accepted is refuted."
  },
  {
   "property": "C72",
   "status": "partial",
   "theorems": [
    "C72_nothing_lost",
    "C72_nothing_skipped_partial",
    "C72_in_place_partial",
    "C72_accepts_partial",
    "C72_nothing_skipped_refuted",
    "C72_loop_end_skipped_refuted",
    "C72_in_place_refuted",
    "C72_loop_requires_refuted",
    "C72_contract_only_refuted"
   ],
   "note": "C72_nothing_lost holds for all functions. C72_nothing_skipped_partial excludes calls of methods named like clauses, C72_in_place_partial also clauses of the function at the beginning or end of loops; both exclusions are refuted otherwise. C72_accepts_partial: pure functions without loops. Missing: clauses in tests of if and while, the module level, IO operations and predicates."
  },
  {
   "property": "C73",
   "status": "partial",
   "theorems": [
    "C73_contracts_kept_partial",
    "C73_method",
    "C73_method_exact_partial",
    "C73_loop_return_refuted",
    "C73_override",
    "C73_override_accepts_partial",
    "C73_override_accepts_refuted"
   ],
   "note": "C73_contracts_kept_partial: partial correctness of whole programs; C73_method: a verified method is correct relative to the contracts of its callees; C73_method_exact_partial: the converse, without loops (with loops refuted). Missing: for loops, else of loops, finally and with (C21, C22), names of handlers, inlined methods, obligations and permissions; type checking is assumed (calls run the method the verifier sees or one that overrides it through checked overrides, compare C42), as is that loop bodies preserve what Viper frames. C73_override holds for all contracts."
  },
  {
   "property": "C74",
   "status": "partial",
   "theorems": [
    "C74_axioms_consistent_refuted",
    "C74_args_subtype_2_refuted",
    "C74_arg_def_2_refuted",
    "C74_repaired_consistent",
    "C74_type_check_partial",
    "C74_type_check_exists_partial",
    "C74_type_check_exists_refuted",
    "C74_starred_partial",
    "C74_starred_member_partial",
    "C74_starred_member_refuted"
   ],
   "note": "C74_type_check_partial holds under axioms that are weaker than those of the code (the latter are contradictory): bounds for tuple_arg_def_2, a fixed length for tuple_args_subtype_2, and the axiom about unions only for types other than object (C28). C74_type_check_exists_partial excludes unions of tuple types only and of more than four members (refuted). Missing: plain objects of class object as values, type variables in annotations, the types of types, enumerations; triggers are not modelled."
  },
  {
   "property": "C75",
   "status": "partial",
   "theorems": [
    "C75_shown_sound",
    "C75_superseded",
    "C75_current_partial",
    "C75_current_refuted",
    "C75_current_finished_refuted",
    "C75_no_errors_refuted",
    "C75_ends",
    "C75_hover",
    "C75_position",
    "C75_column_partial",
    "C75_column_refuted",
    "C75_file_refuted",
    "C75_word_at",
    "C75_word_at_none"
   ],
   "note": "C75_current_partial requires that every older run of the document has ended, was cancelled, or is registered with an unfinished job when the last request is made, and that the file is not changed afterwards; without the former it is refuted. C75_column_partial is for lines in ASCII. Missing: exceptions in workers, the lazily started service, the serial path, code lenses and the text of contracts in hovers. The order in which the event loop resumes finished runs is over-approximated by any order."
  },
  {
   "property": "C76",
   "status": "partial",
   "theorems": [
    "C76_lenses_partial",
    "C76_lenses_refuted",
    "C76_verifies",
    "C76_only_method",
    "C76_only_function_partial",
    "C76_only_function_refuted",
    "C76_hover_sound",
    "C76_hover_partial",
    "C76_hover_refuted"
   ],
   "note": "C76_lenses_partial and C76_hover_partial exclude definitions below other statements, the latter also several functions of the same name (refuted). C76_only_function_partial says what else is selected. Missing: async functions, the flag of methods that are used before their definition; predicates, pure functions and properties under selection are in C52."
  },
  {
   "property": "C77",
   "status": "partial",
   "theorems": [
    "C77_select",
    "C77_all",
    "C77_blank_refuted",
    "C77_served_partial",
    "C77_served_exception_refuted",
    "C77_served_warning_refuted"
   ],
   "note": "C77_served_partial excludes calls that raise and texts that are printed past the response (both refuted). Missing: the JSON codec, the sockets, several clients at once (a REP socket serves them one after the other)."
  },
  {
   "property": "C78",
   "status": "partial",
   "theorems": [
    "C78_effective",
    "C78_reloads",
    "C78_resources_partial",
    "C78_resources_refuted",
    "C78_twice",
    "C78_default_refuted"
   ],
   "note": "C78_resources_partial is for requests without exceptions (refuted otherwise). Missing: the validity of values (an unknown verifier is stored without a check), the start of ViperServer when useViperServer is set later, interleavings (C25)."
  }
 ]
}