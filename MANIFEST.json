{
 "claims": [
  {
   "property": "C01",
   "status": "proved",
   "theorems": [
    "C01_utf8_round_trip"
   ],
   "note": ""
  },
  {
   "property": "C02",
   "status": "proved",
   "theorems": [
    "C02_utf8_decode_well_formed"
   ],
   "note": ""
  },
  {
   "property": "C03",
   "status": "proved",
   "theorems": [
    "C03_utf8_decode_total"
   ],
   "note": ""
  },
  {
   "property": "C04",
   "status": "partial",
   "theorems": [
    "C04_malformed_keeps_text_refuted",
    "C04_malformed_is_flagged_refuted",
    "C04_decode_replaces_partial",
    "C04_decode_loss_bounded"
   ],
   "note": "False of the code: two refutations; replacement semantics proved when no announced sequence is cut off by the end of input; loss bounded by 2 bytes in general."
  },
  {
   "property": "C05",
   "status": "proved",
   "theorems": [
    "C05_strict_decoder_decides_utf8",
    "C05_dfa_replaces_partial"
   ],
   "note": "Strict decoder: full iff. The replacing DFA decoder theorem is partial (truncated tail)."
  },
  {
   "property": "C06",
   "status": "proved",
   "theorems": [
    "C06_utf8_encode_total",
    "C06_utf8_encode_well_formed",
    "C06_utf8_encode_injective",
    "C06_utf8_encode_out_of_range"
   ],
   "note": ""
  },
  {
   "property": "C07",
   "status": "proved",
   "theorems": [
    "C07_encode_is_rfc4648",
    "C07_base64_round_trip",
    "C07_huge_input_refuted"
   ],
   "note": "Guarded by the 32-bit length counters; truncation beyond the guard is a separate refutation."
  },
  {
   "property": "C08",
   "status": "proved",
   "theorems": [
    "C08_decode_safe",
    "C08_decode_huge_refuted"
   ],
   "note": "Guarded by the 32-bit length counter; refutation beyond it."
  },
  {
   "property": "C09",
   "status": "proved",
   "theorems": [
    "C09_floor_div_mod_is_python",
    "C09_spec_is_unique",
    "C09_mod_always_right",
    "C09_div_min_by_minus_one_refuted",
    "C09_zero_division",
    "C09_mod_mixed"
   ],
   "note": "INT64_MIN // -1 does not fit and wraps (refutation)."
  },
  {
   "property": "C10",
   "status": "proved",
   "theorems": [
    "C10_list_slice",
    "C10_typed_list_slice",
    "C10_bytes_slice",
    "C10_str_slice",
    "C10_bad_step_raises",
    "C10_huge_step_refuted",
    "C10_bytes_step_overflow_refuted"
   ],
   "note": "Huge steps (pointer/index wrap) are outside the quantifier and shown wrong by two refutations."
  },
  {
   "property": "C11",
   "status": "partial",
   "theorems": [
    "C11_list_item",
    "C11_str_item",
    "C11_bytes_item_partial",
    "C11_bytes_high_item_refuted",
    "C11_set_item",
    "C11_item_unique",
    "C11_tuple_item_partial",
    "C11_tuple_negative_index_refuted"
   ],
   "note": "list, str and set_item in full; bytes items >= 128 come back negative (refuted) and tuples reject negative indices (refuted), so those two are proved on the remaining domain."
  },
  {
   "property": "C12",
   "status": "partial",
   "theorems": [
    "C12_set_slice_partial",
    "C12_other_bounds_rejected",
    "C12_negative_bounds_refuted",
    "C12_self_assignment_refuted"
   ],
   "note": "Proved for 0 <= a <= b; negative bounds and self assignment are refuted."
  },
  {
   "property": "C13",
   "status": "proved",
   "theorems": [
    "C13_list_methods_follow_python",
    "C13_python_spec_deterministic",
    "C13_insert",
    "C13_index",
    "C13_contains_count",
    "C13_repeat_concat"
   ],
   "note": "Any sequence of list methods against an independent Python relation."
  },
  {
   "property": "C14",
   "status": "proved",
   "theorems": [
    "C14_equality",
    "C14_order_is_lexicographic",
    "C14_equality_is_equivalence"
   ],
   "note": ""
  },
  {
   "property": "C15",
   "status": "partial",
   "theorems": [
    "C15_sort",
    "C15_ft_sort",
    "C15_reverse_distinct_partial",
    "C15_ft_reverse_distinct_partial",
    "C15_reverse_short_partial",
    "C15_stability_refuted"
   ],
   "note": "sort() and sort(key=) in full for every strict weak order, generic and branchless. reverse=True uses a reflexive comparator: proved for pairwise inequivalent keys and for fewer than 24 elements; beyond that it is refuted (see C16). Stability is refuted. std::make_heap/sort_heap is a hypothesis (heap_sort_ok), satisfied by isort_ok."
  },
  {
   "property": "C16",
   "status": "partial",
   "theorems": [
    "C16_sort_in_bounds",
    "C16_ft_sort_in_bounds",
    "C16_reverse_equal_refuted",
    "C16_ft_reverse_equal_refuted"
   ],
   "note": "In bounds for every asymmetric comparison (NaN included) when reverse is false; reverse=True with 24 or more equivalent keys always reads out of bounds (refuted). A throwing comparator is not modelled."
  },
  {
   "property": "C17",
   "status": "partial",
   "theorems": [
    "C17_py_heapify",
    "C17_py_heap_replace",
    "C17_py_heap_pushpop",
    "C17_py_history",
    "C17_empty",
    "C17_heap_replace",
    "C17_heap_replace_comp",
    "C17_heap_pushpop",
    "C17_heap_pushpop_comp",
    "C17_heapify_comp",
    "C17_history_comp",
    "C17_heapify_refuted",
    "C17_heapify_pushpop_refuted"
   ],
   "note": "Proved for the interpreted functions, for compiled heap_replace/heap_pushpop and for compiled heapify with a comparator, including any call sequence as a refinement of a bag. Compiled heapify without a comparator builds a max-heap: refuted in general. std::sort and std::make_heap are hypotheses shown satisfiable."
  },
  {
   "property": "C18",
   "status": "partial",
   "theorems": [
    "C18_find_partial",
    "C18_find_negative_start_refuted",
    "C18_contains",
    "C18_find_from",
    "C18_find_char",
    "C18_rfind",
    "C18_rfind_char",
    "C18_string_util_find_partial",
    "C18_string_util_find_out_of_bounds_refuted"
   ],
   "note": "find with start >= 0, rfind, contains, single-character forms in full; a start below -len is refuted; the two-argument window form of rfind is not offered by the code; StringUtil::Find reads one past the end (refuted) and is exact otherwise."
  },
  {
   "property": "C19",
   "status": "partial",
   "theorems": [
    "C19_count_partial",
    "C19_count_to_end",
    "C19_count_unique",
    "C19_window_end_refuted",
    "C19_empty_pattern_diverges_refuted"
   ],
   "note": "Count over a window reaching the end of the string is exact; an interior window end is ignored (refuted) and an empty pattern loops forever (refuted)."
  },
  {
   "property": "C20",
   "status": "partial",
   "theorems": [
    "C20_split_partial",
    "C20_split_exact",
    "C20_split_unique",
    "C20_trailing_field_refuted",
    "C20_empty_separator_raises",
    "C20_split_whitespace",
    "C20_split_whitespace_words",
    "C20_join"
   ],
   "note": "Exact except that a trailing empty field is dropped (refuted). Whitespace split and join in full."
  },
  {
   "property": "C21",
   "status": "partial",
   "theorems": [
    "C21_replace_partial",
    "C21_replace_unique",
    "C21_empty_pattern_refuted",
    "C21_string_util_replace_partial",
    "C21_string_util_empty_pattern_refuted"
   ],
   "note": "Exact for a non-empty pattern; empty pattern refuted."
  },
  {
   "property": "C22",
   "status": "proved",
   "theorems": [
    "C22_strip_chars",
    "C22_strip_default_bytes",
    "C22_str_whitespace_set",
    "C22_strip_default_str"
   ],
   "note": "bytes and str, default and explicit character sets."
  },
  {
   "property": "C23",
   "status": "partial",
   "theorems": [
    "C23_startswith_partial",
    "C23_endswith_partial",
    "C23_empty_prefix_refuted",
    "C23_tuple_partial"
   ],
   "note": "Exact for a non-empty prefix or a window inside the string; empty prefix outside the window refuted; tuple form on the same domain."
  },
  {
   "property": "C24",
   "status": "proved",
   "theorems": [
    "C24_lower_upper",
    "C24_case_laws",
    "C24_isdigit_isalpha",
    "C24_empty_classification_refuted"
   ],
   "note": "The iff holds for every byte string; that the code (unlike Python) accepts the empty string is recorded as a separate refutation."
  },
  {
   "property": "C25",
   "status": "partial",
   "theorems": [
    "C25_format_partial",
    "C25_format_unique",
    "C25_int_argument",
    "C25_nul_argument_refuted",
    "C25_bytes_argument_refuted"
   ],
   "note": "Exact for int and NUL-free str arguments; NUL in an argument and bytes arguments are refuted; float and container arguments not modelled."
  },
  {
   "property": "C26",
   "status": "partial",
   "theorems": [
    "C26_bytes_literal_cpp17",
    "C26_bytes_literal_cpp14_partial",
    "C26_trigraph_refuted",
    "C26_bytes_escape_python",
    "C26_bytes_print_partial",
    "C26_list_print_refuted",
    "C26_bytes_escape_injective",
    "C26_str_literal",
    "C26_str_literal_refused",
    "C26_str_escape_injective"
   ],
   "note": "Escaping is injective and reads back as a Python / C++17 literal in full; under the C++14 the project compiles with, constants containing a trigraph are miscompiled (refuted); printed containers of bytes containing a single quote are ambiguous (refuted)."
  },
  {
   "property": "C27",
   "status": "partial",
   "theorems": [
    "C27_dict_refines",
    "C27_dict_memory",
    "C27_set_refines",
    "C27_set_memory",
    "C27_dict_items",
    "C27_set_items",
    "C27_memory_refuted",
    "C27_flood_refuted",
    "C27_reserve_refuted"
   ],
   "note": "Refinement of Python dict/set for every history from every table a program can hold, for every lawful hash and equality, up to allocation failure; a history of n insertions fails only if 2^(n+3) entries are refused. Refuted: keys with one home double the table per insertion and 52 of them exhaust any memory (integers hash to their bits, so such keys are easy to write down); reserve near 2^63 is undefined. Not expressible: the state of a table after bad_alloc."
  },
  {
   "property": "C28",
   "status": "partial",
   "theorems": [
    "C28_construct",
    "C28_construct_partial",
    "C28_duplicates_refuted",
    "C28_copy",
    "C28_eq"
   ],
   "note": "Construction from distinct keys, copies and equality in full. From duplicate keys the first value is kept, Python keeps the last (refuted)."
  },
  {
   "property": "C29",
   "status": "partial",
   "theorems": [
    "C29_make",
    "C29_update",
    "C29_union",
    "C29_difference",
    "C29_difference_update_partial",
    "C29_self_difference_refuted",
    "C29_eq"
   ],
   "note": "set(), update, union, difference, == in full; difference_update in full unless the set is its own argument, where it is undefined or leaves elements (refuted)."
  },
  {
   "property": "C30",
   "status": "partial",
   "theorems": [
    "C30_construct_from_iterator",
    "C30_construct_from_any_range_refuted",
    "C30_slice_partial",
    "C30_empty_slice_refuted",
    "C30_repeat_partial",
    "C30_concat",
    "C30_equality"
   ],
   "note": "Slices and repeats on the domain where the code is right; empty slice and range construction refuted."
  },
  {
   "property": "C31",
   "status": "partial",
   "theorems": [
    "C31_fifo",
    "C31_real_time",
    "C31_exclusive",
    "C31_full_answer",
    "C31_empty_answer",
    "C31_retry",
    "C31_alone_enqueue",
    "C31_alone_dequeue",
    "C31_bulk_refuted"
   ],
   "note": "Every interleaving of any number of threads using enqueue, try_enqueue, dequeue and try_dequeue with spurious compare-exchange failures; every power-of-two size up to 2^62; fewer than 2^62 steps. One FIFO history explains all results and only grows; no two threads touch one slot; what false means; retries mean progress elsewhere; uninterrupted calls behave as a bounded FIFO. Missing: weaker memory orderings, position counters that wrap. enqueue_bulk is refuted: it checks the first slot only."
  },
  {
   "property": "C32",
   "status": "partial",
   "theorems": [
    "C32_fifo",
    "C32_full_answer",
    "C32_empty_answer",
    "C32_wait_free",
    "C32_size_one_useless"
   ],
   "note": "Every interleaving, any number of steps (the counters may wrap), every power-of-two size: FIFO, at most size-1 values, exact meaning of false, wait freedom. A queue of size 1 accepts nothing. Missing: weaker memory orderings than interleaving."
  },
  {
   "property": "C33",
   "status": "partial",
   "theorems": [
    "C33_exactly_once",
    "C33_conserved",
    "C33_destructor_returns",
    "C33_all_run",
    "C33_no_threads_refuted",
    "C33_lock_free_at_most_once_partial",
    "C33_lock_free_all_run_partial",
    "C33_lock_free_stop_refuted",
    "C33_lock_free_lost_refuted"
   ],
   "note": "Lock-based pool: exactly once at shutdown, conservation at every point, and termination under fair scheduling with spurious wakeups. Lock-free pool: at most once, and every task runs while the pool is not destroyed; its destructor throws away whatever has not begun (refuted). A pool of no threads never runs anything (refuted)."
  },
  {
   "property": "C34",
   "status": "proved",
   "theorems": [
    "C34_split",
    "C34_partial_group",
    "C34_threads_refuted"
   ],
   "note": "For every input length and thread number up to 2^59-1 (the maximal size of the task vector). Asking for INT64_MAX threads overflows (refuted)."
  },
  {
   "property": "C35",
   "status": "partial",
   "theorems": [
    "C35_pmap_is_map",
    "C35_pmap_returns",
    "C35_one_runner",
    "C35_no_threads_refuted"
   ],
   "note": "Every interleaving of atomic steps, both pools, nested calls, any callable: result, exception order, no shared task, and termination under fair scheduling. Missing: memory orderings weaker than interleaving, and callables with effects on each other. A pool of no threads hangs or divides by zero (refuted)."
  },
  {
   "property": "C36",
   "status": "proved",
   "theorems": [
    "C36_built_acyclic",
    "C36_topological",
    "C36_returns_only_acyclic",
    "C36_linear_time_refuted",
    "C36_groups"
   ],
   "note": "Every acyclic closed graph, any outputs in any order: topological order with each needed node once; every graph a program builds is acyclic; the visit never returns on a cycle; groups are right for every stored node list, or the list is deadlocked and refused. Found: the visit recurses before it looks at the visited set, so shared nodes cost 2^depth calls (refuted)."
  },
  {
   "property": "C37",
   "status": "partial",
   "theorems": [
    "C37_serial",
    "C37_parallel",
    "C37_agree",
    "C37_answer_unique",
    "C37_inputs_only_refuted",
    "C37_task_size_refuted",
    "C37_zero_options_refuted",
    "C37_name_clash_refuted"
   ],
   "note": "Every graph built by a program with plain distinct input names and fewer than 2^32 operators, every feed, every pure operator behaviour (values, tuples, exceptions), every thread count and task size, every interleaving of the tasks: the serial run and the parallel run return the same unique answer of a denotational specification, or both raise an error some operator raises. Missing: operators with side effects on each other. Refuted: a pipeline of inputs only returns nothing in parallel; max task size above 1 without profiling forms null + 1; zero threads divide by zero; an input named like a generated key is miswired."
  },
  {
   "property": "C38",
   "status": "proved",
   "theorems": [
    "C38_names_unique",
    "C38_indices_unique",
    "C38_signatures_unique",
    "C38_signatures_exhausted_refuted",
    "C38_keys_unique"
   ],
   "note": "Names and indices under every interleaving of fewer than 2^64 requests and every hash function; signatures for fewer than 2^32 requests; the keys of all outputs in every user graph. Found: when 2^32 signatures sharing the low half are taken the search never ends (refuted)."
  },
  {
   "property": "C39",
   "status": "partial",
   "theorems": [
    "C39_round_trip",
    "C39_dumps_accepts",
    "C39_reads_any_encoding",
    "C39_tuple_key_refuted"
   ],
   "note": "Round trip for every value whose dict keys are scalars, str or bytes and whose encoding is shorter than 2^32-1 bytes; any valid encoding is read; every value within the limits is accepted. A dict with a tuple key is packed but cannot be read back (refuted)."
  },
  {
   "property": "C40",
   "status": "partial",
   "theorems": [
    "C40_safe_partial",
    "C40_terminates",
    "C40_trailing",
    "C40_truncated",
    "C40_error_is_final",
    "C40_nesting_limit",
    "C40_timestamp_refuted",
    "C40_timestamp_memory_refuted",
    "C40_recursion_unbounded_refuted",
    "C40_ndarray_refuted"
   ],
   "note": "Termination, trailing data and the nesting limit without restriction; memory safety and truncation for inputs without timestamp extension headers. Timestamps cause type confusion (refuted), set extensions recurse without bound (refuted), NDArray extents may overflow (refuted)."
  },
  {
   "property": "C41",
   "status": "proved",
   "theorems": [
    "C41_shortest",
    "C41_round_trip",
    "C41_reads_any_spelling",
    "C41_uint64_refuted"
   ],
   "note": "Shortest form among all valid spellings, round trip, and every spelling of a 64-bit integer is read. uint64 values of 2^63 and more, which are no 64-bit integers here, come back negative (refuted)."
  },
  {
   "property": "C42",
   "status": "partial",
   "theorems": [
    "C42_fold_partial",
    "C42_accepted_partial",
    "C42_type_partial",
    "C42_exception_refuted",
    "C42_dead_division_refuted",
    "C42_bool_refuted",
    "C42_condition_refuted",
    "C42_int32_refuted",
    "C42_infinity_refuted",
    "C42_signed_zero_refuted",
    "C42_cast_refuted"
   ],
   "note": "Value preserved and compilation accepted for all expressions over bool, int32, int64, float64 with leaves of any value, finite floats, no arithmetic in bool and int64 left shifts. Refuted outside: lost exceptions (0 // x, 0 * f()), arithmetic on bool constants, and/or of constants turning into int32, int32 shifts, infinities, the sign of zero, constant casts."
  },
  {
   "property": "C43",
   "status": "partial",
   "theorems": [
    "C43_will_overflow_add_sub",
    "C43_will_overflow_mul_partial",
    "C43_mul_by_minus_one_refuted"
   ],
   "note": "add/sub exact; mul exact except one boundary case, which is refuted."
  },
  {
   "property": "C44",
   "status": "partial",
   "theorems": [
    "C44_zero_aware_gcd",
    "C44_extended_euclid_partial",
    "C44_lcm_partial",
    "C44_ext_euclid_negative_b_refuted",
    "C44_ext_euclid_overflow_refuted",
    "C44_lcm_refuted"
   ],
   "note": "gcd exact; extended Euclid and lcm proved on the sign/overflow domain where the code is right, refuted outside."
  },
  {
   "property": "C45",
   "status": "partial",
   "theorems": [
    "C45_value_semantics_partial",
    "C45_reads_once",
    "C45_no_garbage_partial",
    "C45_no_leak_partial",
    "C45_self_push_refuted",
    "C45_resize_null_refuted",
    "C45_null_iteration_refuted",
    "C45_mutate_throw_refuted"
   ],
   "note": "Proved for every history over any number of variables in which no array is pushed into itself, a null handle is not resized above 0 nor iterated, and callbacks of MutateByApply neither throw nor use the variable being mutated. Those four are refuted."
  },
  {
   "property": "C46",
   "status": "partial",
   "theorems": [
    "C46_py_nth_element",
    "C46_py_out_of_range",
    "C46_nth_element",
    "C46_range_refuted"
   ],
   "note": "Interpreted version in full; compiled version relative to std::nth_element for n in range; out-of-range n is undefined behaviour in the compiled version (refuted)."
  },
  {
   "property": "C47",
   "status": "partial",
   "theorems": [
    "C47_hash_total",
    "C47_lawful",
    "C47_eq_contents",
    "C47_dict",
    "C47_float_hash",
    "C47_special_hash",
    "C47_int_hash",
    "C47_int_float_partial",
    "C47_int_float_refuted",
    "C47_self_partial",
    "C47_infinity_refuted",
    "C47_approximate_refuted",
    "C47_two_answers_refuted"
   ],
   "note": "In full for keys without floats. Float hashes are exactly the numeric hash of Python; int and float of one value agree exactly below 2^61 - 1. Refuted: larger ones are equal but hash differently; float equality is approximate, so it is not transitive, equal floats hash differently and an answer can depend on the table size; infinity is not equal to itself."
  },
  {
   "property": "C48",
   "status": "partial",
   "theorems": [
    "C48_compiled_function_is_python_function_partial",
    "C48_no_undefined_behaviour_partial",
    "C48_monitor_changes_nothing",
    "C48_range_bound_refuted",
    "C48_folded_range_bound_refuted",
    "C48_zero_step_refuted",
    "C48_counter_overflow_refuted",
    "C48_module_constant_refuted",
    "C48_dropped_clauses_refuted",
    "C48_lost_exception_refuted"
   ],
   "note": "Same value, same exception or both still running, for all functions of the fragment whose ranges have bounds that the loop does not assign, without else/finally/typed except, without locals named like a module constant, accepted with every variable taken for live, in executions where ints fit 64 bits and no raising operand has a constant that folding could use to drop it. Each condition is refuted without it: bounds re-read, step 0, counter overflow, dropped clauses in loops, module constant read for an unbound local, lost exception."
  },
  {
   "property": "C49",
   "status": "partial",
   "theorems": [
    "C49_live_out_is_liveness",
    "C49_verdict_is_liveness",
    "C49_dead_variable_does_not_matter_partial",
    "C49_try_refuted",
    "C49_for_target_refuted",
    "C49_retyped_variable_refuted",
    "C49_retyped_in_try_refuted"
   ],
   "note": "Proved: the iteration ends on every graph and its result is exactly path liveness; the verdict on an assignment is path liveness at the end of its block; a dead verdict lets any literal be stored at the end of the block without changing the function, for functions without try and loop else and for variables that are not for targets. Refuted for try bodies and for targets of for loops; retyping on a dead verdict is refuted as well (variable declared in the inner block shadows the outer one until the end of that block)."
  },
  {
   "property": "C50",
   "status": "partial",
   "theorems": [
    "C50_int_total",
    "C50_int_sound_partial",
    "C50_int_str_sound_partial",
    "C50_int_complete_partial",
    "C50_str_round_trip_partial",
    "C50_smallest_integer_refuted",
    "C50_calls_independent_partial",
    "C50_stale_range_error_refuted",
    "C50_large_digit_refuted",
    "C50_nul_refuted",
    "C50_letters_refuted",
    "C50_python_literals_refuted",
    "C50_float_is_strtod",
    "C50_float_trailing_refuted"
   ],
   "note": "Proved: int() of any bytes gives a 64-bit value or an exception; what it accepts has Python's value, for texts without NUL and without decimal digits too large for the base; it accepts every Python integer text in decimal digits without underscores, magnitude below 2^63 (not an unprefixed zero with base 0), if errno is not ERANGE; round trip with str(); conversions are independent while none goes out of range. Refuted: after one range error every later int() and float() of the thread raises (errno is never reset), int of the smallest 64-bit integer, int('12', 2) == 1, text after NUL ignored, letters never accepted as digits (int('ff', 16)), underscores, int('0', 0), float('1.5abc'). strtod is a parameter; strtoll is modelled after the C standard."
  },
  {
   "property": "C51",
   "status": "partial",
   "theorems": [
    "C51_strings_are_values_partial",
    "C51_no_leak_partial",
    "C51_terminated_partial",
    "C51_unboxed_terminator_refuted",
    "C51_self_insert_refuted",
    "C51_insert_past_end_refuted",
    "C51_cut_view_shares_refuted",
    "C51_cut_view_count_refuted"
   ],
   "note": "Proved for every program: no undefined behaviour, the same exceptions and characters as with strings that own their lists, every live block belongs to a variable, nothing is left at the end; zero-terminated unless a String was taken out of a runtime value. Excluded as misuse and shown to fail: a String taken back out of a runtime value lacks its terminator when stored in place; s.insert of part of s itself reads moved or freed characters; insert past the end is not checked; a view shortened by remove_prefix or remove_suffix still claims to be the whole shared string (writes into the other string, wrong count). Not modelled: threads, size_t overflow, failing allocation, find and compare (C18-C23 treat text functions)."
  },
  {
   "property": "C52",
   "status": "partial",
   "theorems": [
    "C52_arrays_behave_partial",
    "C52_contents_partial",
    "C52_reshape_uneven_refuted",
    "C52_reshape_wraps_refuted",
    "C52_reshape_tensor_refuted",
    "C52_squeeze_negative_refuted",
    "C52_squeeze_truncates_refuted",
    "C52_copy_transposed_refuted",
    "C52_assign_overlap_refuted",
    "C52_memcpy_overlap_refuted",
    "C52_equal_offset_refuted",
    "C52_scalar_array_refuted",
    "C52_set_too_many_refuted",
    "C52_negative_shape_refuted",
    "C52_empty_list_refuted",
    "C52_uint16_times_refuted",
    "C52_slice_step_refuted"
   ],
   "note": "Proved for every program inside the specification's `meaning`, for int8..int64, uint8, uint16 on the CPU. Left out there, each with a refuting program: reshape with an uneven -1, with a product of 2^64 or more, of a tensor that came with strides; squeeze with a negative axis or a dimension of 2^32+1; a copy of a transposed array (elements in memory order); assignment between overlapping views; == of a view with an offset; arrays without dimensions; assigning with too many indexes (reads past the shape); negative dimensions; an empty list with a shape (unset elements); uint16 times a number (signed overflow); slices with a step (wrong number of elements). Not modelled: floats, bool, other devices, failing allocation."
  },
  {
   "property": "C53",
   "status": "partial",
   "theorems": [
    "C53_memory_kept_partial",
    "C53_no_leak_partial"
   ],
   "note": "Same programs as C52. Kept: every element of every held array reads, in unreleased memory. No leak: each unreleased block is the data of an array some variable holds; with all variables dropped all blocks and containers are gone."
  },
  {
   "property": "C54",
   "status": "partial",
   "theorems": [
    "C54_dictionaries_partial",
    "C54_adding",
    "C54_longest_partial",
    "C54_all_partial",
    "C54_update_adds_refuted",
    "C54_value_no_value_refuted",
    "C54_value_no_path_refuted",
    "C54_value_truncated_refuted",
    "C54_value_overflow_refuted",
    "C54_empty_key_refuted",
    "C54_nul_in_text_refuted",
    "C54_many_refuted",
    "C54_nul_in_key_refuted"
   ],
   "note": "Programs of any number of tries: building, updating, searching, saving, loading equal the same programs over dictionaries; longest prefix and all prefixes stated over the dict. Asked: keys non-empty without NUL, values that fit 32 bits and are not -1 or -2, no NUL after a key in the text, at most 64 answers, text keys for str searches. Refuted: update of a present key adds; values -1, -2; truncation; overflow; empty key ends the process; NUL in keys and texts; more than 64 answers."
  },
  {
   "property": "C55",
   "status": "partial",
   "theorems": [
    "C55_loaded_partial",
    "C55_transparent_partial",
    "C55_missing_partial"
   ],
   "note": "Same programs as C54. Loaded answers as saved whatever happened between; save and load back anywhere is invisible to the rest of the program, updates included; missing file. Files are only written by save."
  },
  {
   "property": "C56",
   "status": "partial",
   "theorems": [
    "C56_lines_partial",
    "C56_small",
    "C56_loop_partial",
    "C56_loop_extra_refuted",
    "C56_lost_line_refuted",
    "C56_dropped_refuted"
   ],
   "note": "readline, readlines and (bytes, terminated) read() of files of any size equal Python's if no line but the last ends where a part of the buffer that was filled in advance ends (sound; every file that fits the buffer is sound); the for loop gives the lines and at most one empty one more. Text: UTF-8 without carriage returns. Refuted: extra empty line for empty files and files of one line; lines replaced by later ones; first byte replaced when newlines are dropped."
  },
  {
   "property": "C57",
   "status": "partial",
   "theorems": [
    "C57_programs_partial",
    "C57_read_again_refuted",
    "C57_too_many_refuted",
    "C57_given_back_refuted",
    "C57_text_read_refuted",
    "C57_newlines_refuted"
   ],
   "note": "All programs over files that fit the buffer equal Python's; a for loop asks that the file is not empty and not one line, read(n) that the file ends in a newline and, for text, n >= 0 and no carriage returns. Refuted: last line without newline read twice; read(n) across a buffer end gives too many bytes; line copied from freed memory; read() of text gives nothing; carriage returns kept."
  },
  {
   "property": "C58",
   "status": "partial",
   "theorems": [
    "C58_pickle_partial",
    "C58_session_partial",
    "C58_keys",
    "C58_dtype",
    "C58_function_refuted",
    "C58_session_nonfinite_refuted",
    "C58_array_types_refuted",
    "C58_malformed_refuted"
   ],
   "note": "Pickle and session round trips for all storable values (exact conversion of doubles is a hypothesis; sessions: finite floats); keys equal; names of data types read back. Refuted: functions are written but cannot be read; sessions with NaN or infinity cannot be saved; uint32, uint64, bool and non-contiguous arrays refused; malformed text read outside its memory."
  },
  {
   "property": "C59",
   "status": "partial",
   "theorems": [
    "C59_dumps_loads_partial",
    "C59_compiled_dumps_loads_partial",
    "C59_ascii_partial",
    "C59_last_member_counts",
    "C59_big_int_refuted",
    "C59_top_str_refuted",
    "C59_top_none_refuted",
    "C59_indent_nonfinite_refuted",
    "C59_indent_refuted",
    "C59_compiled_ascii_refuted",
    "C59_bytes_refuted"
   ],
   "note": "Round trip of lists and dicts for every indent and ensure_ascii, also of compiled code; ASCII only with ensure_ascii; of members with the same key the last counts. Refuted: ints from 2^63 become negative; top-level strs are not quoted; None is written as nothing; NaN with an indent raises; indent not used without ensure_ascii; compiled code does not look at ensure_ascii; bytes accepted."
  },
  {
   "property": "C60",
   "status": "partial",
   "theorems": [
    "C60_programs_as_python",
    "C60_results_in_range",
    "C60_getrandbits_refuted",
    "C60_wide_ranges_refuted"
   ],
   "note": "All programs of calls whose arguments and widths are 64-bit ints equal Python's over the sequence (the loops bounded by a number of tries, ending exactly if Python's does within it); results in range. Refuted: getrandbits(64) may be negative, the number of bits is taken modulo 2^32; randint up to the largest int and ranges wider than it overflow."
  },
  {
   "property": "C61",
   "status": "partial",
   "theorems": [
    "C61_draws_are_the_twisters",
    "C61_sequence_unique",
    "C61_key_seeding_as_defined",
    "C61_seed_as_python_partial",
    "C61_long_seed_refuted",
    "C61_smallest_seed_refuted",
    "C61_distinct_seeds_partial",
    "C61_distinct_seeds_refuted",
    "C61_state_saved_and_restored",
    "C61_histories_safe",
    "C61_bad_state_refuted",
    "C61_seed_none_refuted"
   ],
   "note": "Draws are the Mersenne Twister's for every state and number of draws; seeding by any key is the authors' init_by_array; seed(n) is Python's for n of 32 bits; seeds of the same length give different states; getstate/setstate exact; histories never leave the valid states. Refuted: longer seeds use their words the wrong way round; the smallest int; short and long seeds may collide; setstate ignores a word -1; seed() keeps gauss's second variate."
  },
  {
   "property": "C62",
   "status": "partial",
   "theorems": [
    "C62_moves_preserve_partial",
    "C62_references_never_moved",
    "C62_attribute_move_refuted",
    "C62_reassign_move_refuted"
   ],
   "note": "Equal to Python for every module, runtime, argument and state if no attribute is handed over by reference (C63) and no statement copies a by-value parameter it does not use last while another parameter is on its left; without array parameters and rebound ones the second condition falls away. Refuted: self.x = a; return a and b = a; return a return an emptied array."
  },
  {
   "property": "C63",
   "status": "partial",
   "theorems": [
    "C63_reference_exact",
    "C63_by_reference_partial",
    "C63_attribute_refuted"
   ],
   "note": "Exactly the parameters that are neither numbers nor arrays and never rebound are references; equal to Python for every module that passes no attribute by reference. Refuted: self.renew(self.x) where renew assigns self.x."
  },
  {
   "property": "C64",
   "status": "partial",
   "theorems": [
    "C64_override_iff",
    "C64_override_partial",
    "C64_override_refuted"
   ],
   "note": "The virtual call runs Python's choice exactly when the overriding method rebinds the same parameters as the one found from the declared class. Refuted: an override that rebinds a parameter does not override."
  },
  {
   "property": "C65",
   "status": "partial",
   "theorems": [
    "C65_loops_partial",
    "C65_calm_loops",
    "C65_zip",
    "C65_enumerate",
    "C65_append_refuted",
    "C65_append_memory_refuted",
    "C65_pop_refuted",
    "C65_replace_refuted"
   ],
   "note": "Proved: every run that leaves the lists of its loops alone (the strict Python run is not disturbed) is run in the same way by the compiled program, output, lists and exceptions, with no undefined behaviour (C65_loops_partial); programs whose bodies syntactically leave those lists alone need no condition on the run (C65_calm_loops); zip and enumerate show the pairs of the items. Refuted in general: appending to, popping from and storing into the list in the body (missed item, reads of freed memory)."
  },
  {
   "property": "C66",
   "status": "partial",
   "theorems": [
    "C66_extend",
    "C66_min_max_partial",
    "C66_min_empty_refuted",
    "C66_zip_with_itself_refuted",
    "C66_nested_refuted",
    "C66_zip_ahead_refuted"
   ],
   "note": "Proved: extend from iter and reversed, min and max of an iterator that has items, and, inside C65_loops_partial, all uses of shared iterators one after the other. Refuted: zip(it, it), nested loops over one iterator, the item zip takes ahead, min and max of an iterator with nothing left."
  },
  {
   "property": "C67",
   "status": "partial",
   "theorems": [
    "C67_wordpiece_partial",
    "C67_join",
    "C67_empty_word_refuted",
    "C67_unk_none_refuted",
    "C67_many_refuted"
   ],
   "note": "Proved for all vocabularies without NUL in which no byte string has more than 64 prefixes, all prefixes and unknown tokens (str or bytes), limits from 0 on, and sentences of words without NUL (empty ones only when they are skipped; for str words the vocabulary is UTF-8): the constructor succeeds and tokenize and tokenize_with_meta show the greedy pieces (C67_wordpiece_partial), which join to the word (C67_join). Refuted: empty word kept, unk_token=None, more than 64 nested entries. Missing: words with NUL, prefix or unknown token that is not text, reading of the file (C56)."
  },
  {
   "property": "C68",
   "status": "partial",
   "theorems": [
    "C68_filter_partial",
    "C68_check_pos_partial",
    "C68_check_pos_refuted",
    "C68_filter_again_refuted"
   ],
   "note": "Proved for all lists of codes that are not empty, have no NUL and of which at most 64 are prefixes of one byte string, and all texts without NUL: filter and replace follow the one way to cut the text into longest codes (C68_filter_partial); check_pos at any place in bytes, and at the start of a str. Refuted: check_pos in a str from the third character on reads past its end; filtering again may change the text. Missing: texts with NUL, check_pos at the second character of a str."
  },
  {
   "property": "C69",
   "status": "partial",
   "theorems": [
    "C69_greater_partial",
    "C69_less_partial",
    "C69_float_less_partial",
    "C69_equality_partial",
    "C69_equality_floats_partial",
    "C69_max_partial",
    "C69_min_partial",
    "C69_sort_partial",
    "C69_tuple_refuted",
    "C69_nested_tuple_refuted",
    "C69_nan_refuted",
    "C69_infinity_refuted",
    "C69_rounding_refuted",
    "C69_none_refuted"
   ],
   "note": "Proved: > and <= of all values without None, NaN or tuples are Python's, TypeErrors included (C69_greater_partial); >= and < of those that are not floats themselves and of tuples of them (C69_less_partial), all with ints up to 2^53 when floats occur; a >= of finite numbers that holds is never denied; == of values without floats, and no equal values with finite floats are told apart; max, min and sort follow. Refuted: > and <= of every tuple with itself, < of tuples that start with equal tuples, NaN, infinity, rounding of large ints and approximate >=, None in lists. Missing: how far apart two floats may be that >= and == take for equal."
  },
  {
   "property": "C70",
   "status": "partial",
   "theorems": [
    "C70_items_partial",
    "C70_prefix_partial",
    "C70_raises_partial",
    "C70_compiles_partial",
    "C70_left_loop_refuted",
    "C70_ended_refuted",
    "C70_ended_range_refuted",
    "C70_return_refuted",
    "C70_exception_refuted",
    "C70_nested_for_refuted",
    "C70_local_refuted",
    "C70_bound_refuted"
   ],
   "note": "Proved for every compiled body without return, with steps of range not 0 and without assignments to a variable that is the end of its loop's range: a generator that ends hands a loop Python's values (C70_items_partial), one that goes on hands it Python's first k values if there is one more (C70_prefix_partial), one that raises all but the last (C70_raises_partial); and which bodies are compiled (C70_compiles_partial). Refuted: second loop over a left or ended generator, return, exceptions, nested range loops, names first assigned in a range loop, a changed end of range. Missing: loops over containers inside a generator, try, values that are not ints."
  },
  {
   "property": "C71",
   "status": "partial",
   "theorems": [
    "C71_narrow",
    "C71_widen",
    "C71_round_trip",
    "C71_mul",
    "C71_add",
    "C71_sub",
    "C71_store_partial",
    "C71_store_refuted"
   ],
   "note": "Proved for all inputs: float to half correctly rounded (C71_narrow), half to float exact (C71_widen), round trip (C71_round_trip), product, sum and difference correctly rounded (C71_mul, C71_add, C71_sub). Items of lists: proved for numbers that are exactly floats (C71_store_partial), refuted for others, which are rounded twice (C71_store_refuted). Missing: division, the payload and sign of NaN."
  },
  {
   "property": "C72",
   "status": "partial",
   "theorems": [
    "C72_mod",
    "C72_floordiv_partial",
    "C72_div",
    "C72_zero",
    "C72_dynamic_floordiv_partial",
    "C72_dynamic_mod_partial",
    "C72_int_mod_refuted",
    "C72_int_floordiv_refuted",
    "C72_int_zero_refuted",
    "C72_overflow_refuted",
    "C72_int_div_refuted"
   ],
   "note": "Proved for all finite doubles: % (C72_mod), / (C72_div), zero divisors (C72_zero). // is the exact floor when it is at most 2^49 in magnitude (C72_floordiv_partial; beyond that the code is CPython's own algorithm, whose result may be rounded). Dynamic operands: // for whole numbers below 2^53 (C72_dynamic_floordiv_partial), % for operands of the same sign (C72_dynamic_mod_partial). Refuted: the C72_..._refuted theorems. Missing: ties to even (nearest is stated without them), results with infinite operands other than of /."
  },
  {
   "property": "C73",
   "status": "partial",
   "theorems": [
    "C73_get",
    "C73_get_safe",
    "C73_set",
    "C73_set_partial",
    "C73_key_effect_refuted",
    "C73_number_refuted",
    "C73_too_many_keys_refuted",
    "C73_scalar_array_refuted"
   ],
   "note": "Reading: proved for all chains whose keys after the first have no effects (C73_get), reads of arrays stay in the buffer (C73_get_safe). Assignment without effects in its parts: what the compiled code does is what Python does (C73_set), and it finishes when Python does except for numbers put into sub-arrays (C73_set_partial). Refuted: C73_key_effect_refuted, C73_number_refuted, C73_too_many_keys_refuted, C73_scalar_array_refuted. Missing: user objects, file-typed containers, dict keys that are tuples; storing arrays and lists into an array is a parameter (C52, C53)."
  },
  {
   "property": "C74",
   "status": "partial",
   "theorems": [
    "C74_split_partial",
    "C74_split_join",
    "C74_replace_partial",
    "C74_replace_invalid",
    "C74_match_partial",
    "C74_last_piece_refuted",
    "C74_middle_of_character_refuted",
    "C74_failure_refuted",
    "C74_group_number_refuted",
    "C74_match_refuted",
    "C74_names_refuted"
   ],
   "note": "Proved for all matchers that answer inside of the text and all texts in which no empty match lies before a character of several bytes: split (C74_split_partial, up to an empty last piece), nothing lost (C74_split_join), replace with every valid template with group numbers below 2^63 (C74_replace_partial), wrong templates leave the text (C74_replace_invalid), match (C74_match_partial, names of groups below 128). Refuted: C74_last_piece_refuted, C74_middle_of_character_refuted, C74_failure_refuted, C74_group_number_refuted, C74_match_refuted, C74_names_refuted. Missing: PCRE itself is a parameter; the unicode overloads; Python's second try for a longer match where an empty one was found; \\\\K, with which a match may begin before the offset."
  },
  {
   "property": "C75",
   "status": "partial",
   "theorems": [
    "C75_elements_partial",
    "C75_constant_shapes_partial",
    "C75_first_axis_one_refuted",
    "C75_one_element_refuted",
    "C75_stretch_refuted",
    "C75_rank_refuted",
    "C75_same_operand_refuted"
   ],
   "note": "Proved for all operands in whose shapes no axis is the constant 1: a kernel that compiles has NumPy's shape, stays in bounds and computes NumPy's elements for all sizes of the symbols (C75_elements_partial); constant shapes compile exactly when NumPy accepts them (C75_constant_shapes_partial). Refuted for axes of size 1 and for an operation of an array with itself: C75_first_axis_one_refuted, C75_one_element_refuted, C75_stretch_refuted, C75_rank_refuted, C75_same_operand_refuted."
  },
  {
   "property": "C76",
   "status": "proved",
   "theorems": [
    "C76_normalize",
    "C76_unique",
    "C76_idempotent"
   ],
   "note": "Proved for all texts, over any database with non negative combining classes, full decompositions of at most 20 characters and a sound quick check (C76_normalize); uniqueness by the subsequences of each combining class (C76_unique); C76_idempotent."
  },
  {
   "property": "C77",
   "status": "proved",
   "theorems": [
    "C77_compose",
    "C77_unique",
    "C77_after_decomposition",
    "C77_idempotent",
    "C77_hangul"
   ],
   "note": "Proved for all texts, over any database in which the first characters of pairs and the composites are starters and not Hangul, full decompositions have at most 20 characters, and characters with quick check value YES are composed again from their decompositions (C77_compose): the result is that of the composition algorithm D117, also where the quick check answers YES and the decomposition would have to be sorted. C77_unique, C77_idempotent, C77_after_decomposition, C77_hangul. The bound of the array skipped is not modelled."
  },
  {
   "property": "C78",
   "status": "partial",
   "theorems": [
    "C78_lower",
    "C78_lower_unicode_partial",
    "C78_sigma_refuted",
    "C78_upper"
   ],
   "note": "Python's rule is proved for all texts (C78_lower, C78_upper). The rule of the Unicode standard holds for texts without characters that are both cased and case-ignorable (C78_lower_unicode_partial) and fails for those (C78_sigma_refuted), as it does in Python."
  }
 ]
}