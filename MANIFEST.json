{
 "claims": [
  {
   "property": "C01",
   "status": "proved",
   "theorems": [
    "C01_assign_is_pointwise_update",
    "C01_one_more_assign",
    "C01_key_below_lowest_refuted"
   ],
   "note": "Keys are integers (arithmetic keys embed order-preservingly); keys below lowest() are excluded, C01_key_below_lowest_refuted shows why."
  },
  {
   "property": "C02",
   "status": "proved",
   "theorems": [
    "C02_representation_is_canonical",
    "C02_same_function_same_breakpoints"
   ],
   "note": ""
  },
  {
   "property": "C03",
   "status": "proved",
   "theorems": [
    "C03_tokens_skip_empty",
    "C03_tokens_keep_empty",
    "C03_split_is_the_decomposition",
    "C03_next_past_the_end",
    "C03_next_ends"
   ],
   "note": ""
  },
  {
   "property": "C04",
   "status": "proved",
   "theorems": [
    "C04_constructed_path_parses_back",
    "C04_printed_path_parses_back",
    "C04_paths_are_injective",
    "C04_short_name_is_last",
    "C04_which_names_are_valid",
    "C04_constructor_rejects",
    "C04_created_actors",
    "C04_created_paths_differ",
    "C04_created_name"
   ],
   "note": ""
  },
  {
   "property": "C05",
   "status": "proved",
   "theorems": [
    "C05_accepted_path_is_sound",
    "C05_wrong_protocol_rejected",
    "C05_long_strings_are_safe",
    "C05_out_of_bounds_exactly_on_proper_prefixes",
    "C05_short_string_safe_refuted",
    "C05_header_only"
   ],
   "note": "Strings that are a proper prefix of the protocol are read out of bounds; exactly those (C05_out_of_bounds_exactly_on_proper_prefixes)."
  },
  {
   "property": "C06",
   "status": "proved",
   "theorems": [
    "C06_vectors_are_lists"
   ],
   "note": "Programs run on an explicit memory of blocks and cells in which every misuse is a distinct outcome Bad. size_t arithmetic is unbounded except for the growth threshold."
  },
  {
   "property": "C07",
   "status": "proved",
   "theorems": [
    "C07_any_throw",
    "C07_strong_guarantee",
    "C07_no_throw",
    "C07_insert_out_of_memory_refuted"
   ],
   "note": "The state invariant is proved for adaptive programs (reach). C07_insert_out_of_memory_refuted: prepare_insert_ initialises valid_count to 0 and raw_vector::prepare_insert allocates before updating it, so bad_alloc makes the vector forget live elements."
  },
  {
   "property": "C08",
   "status": "proved",
   "theorems": [
    "C08_push_back_alias_in_place",
    "C08_push_back_alias_full",
    "C08_assign_alias",
    "C08_push_back_alias_refuted",
    "C08_insert_alias_refuted"
   ],
   "note": "Two universal theorems settle push_back both ways; witnesses for the unrestricted expectation are the _refuted theorems."
  },
  {
   "property": "C09",
   "status": "proved",
   "theorems": [
    "C09_policy",
    "C09_amortised",
    "C09_amortised_any"
   ],
   "note": "Cost counts element constructions and allocations (tick of the memory)."
  },
  {
   "property": "C10",
   "status": "proved",
   "theorems": [
    "C10_nested_access_is_row_major",
    "C10_injective",
    "C10_onto",
    "C10_lexicographic"
   ],
   "note": "Proved for vector_nd, array_nd and the samplers' Horner scheme, whenever the block fits the address space."
  },
  {
   "property": "C11",
   "status": "proved",
   "theorems": [
    "C11_slices_are_a_list",
    "C11_any_throw",
    "C11_size_is_volume",
    "C11_empty_slices_refuted",
    "C11_empty_insert_iterator_refuted",
    "C11_erase_all_of_default_refuted",
    "C11_insert_out_of_memory_refuted"
   ],
   "note": "Model of the multidimensional vector_nd_impl over the raw_vector model of C06-C09. Refuted outside the regime: slices without elements are not counted (C11_empty_slices_refuted), insert/erase of nothing return an iterator to a wrong slice, erase(first,last) of a default constructed vector divides by zero, an insertion that runs out of memory forgets its elements."
  },
  {
   "property": "C12",
   "status": "proved",
   "theorems": [
    "C12_sum_of_strides",
    "C12_inside_the_block",
    "C12_elements_are_apart",
    "C12_distinct",
    "C12_view_of_proxy",
    "C12_byte_strides",
    "C12_byte_strides_refuted"
   ],
   "note": "Proved for element strides; byte strides proved when each stride leaves room for the dimension below, refuted (C12_byte_strides_refuted) for strides that only pass the constructor's check, which compares elements with bytes."
  },
  {
   "property": "C13",
   "status": "proved",
   "theorems": [
    "C13_nested_traversal",
    "C13_continuous_means_plain",
    "C13_proxy_continuous",
    "C13_dense_is_continuous",
    "C13_vector",
    "C13_byte_strides",
    "C13_byte_strides_refuted"
   ],
   "note": "Proved for element strides (views and proxies), vectors, and byte strides that leave room; refuted for byte strides that only pass the constructor's check."
  },
  {
   "property": "C14",
   "status": "proved",
   "theorems": [
    "C14_moves",
    "C14_forward_difference",
    "C14_order",
    "C14_begin_end",
    "C14_negative_difference",
    "C14_negative_difference_refuted"
   ],
   "note": "Proved; negative differences are proved wrong for every slice size of at least 2 bytes (unsigned division), with C14_negative_difference_refuted as witness."
  },
  {
   "property": "C15",
   "status": "proved",
   "theorems": [
    "C15_filter_list",
    "C15_filter_walk",
    "C15_filter_without_end",
    "C15_heap_cache_refuted",
    "C15_heap_cache_never_works",
    "C15_stack_cache_refuted",
    "C15_stack_cache_never_works"
   ],
   "note": "Any pipeline, predicate and walk. Refuted for the caching policy with heap-stored or non-trivial in-place elements: never works for any sequence."
  },
  {
   "property": "C16",
   "status": "proved",
   "theorems": [
    "C16_zip_list",
    "C16_zip_pairs",
    "C16_does_not_stop_at_the_shorter",
    "C16_different_lengths_read_past_the_end",
    "C16_stops_at_the_shorter_refuted"
   ],
   "note": "n-ary zip. Different lengths: not stopping at the shorter range is proved for every pipeline, reading past the end for every pair of containers."
  },
  {
   "property": "C17",
   "status": "proved",
   "theorems": [
    "C17_list",
    "C17_vector",
    "C17_distance",
    "C17_empty",
    "C17_fold_left",
    "C17_fold_right",
    "C17_walk",
    "C17_reverse_numeric_refuted",
    "C17_reverse_numeric_never_works",
    "C17_backward_numeric_refuted",
    "C17_backward_signed_refuted",
    "C17_wide_numeric_refuted"
   ],
   "note": "Deep embedding of pipelines; induction over all expressions. Refuted outside the regime: reversed numeric ranges (dangling reference), numeric ranges with first > last, distance of int ranges wider than INT_MAX."
  },
  {
   "property": "C18",
   "status": "proved",
   "theorems": [
    "C18_every_step_works",
    "C18_placed",
    "C18_frees_its_block",
    "C18_nothing_leaks",
    "C18_offset_record",
    "C18_contents_kept",
    "C18_offset_type",
    "C18_overflow_refuted",
    "C18_overflow_never_fits"
   ],
   "note": "Count 0 is not covered. C18_overflow_refuted shows the missing overflow check."
  },
  {
   "property": "C19",
   "status": "proved",
   "theorems": [
    "C19_nearest",
    "C19_exact_on_the_grid",
    "C19_shifted",
    "C19_negative_never_works",
    "C19_any_range_refuted",
    "C19_rounded_grid_refuted"
   ],
   "note": "The nearest lookup is wrong for tables that do not start at 0 (C19_any_range_refuted, C19_negative_never_works). Floating-point argument tables are not modelled."
  },
  {
   "property": "C20",
   "status": "proved",
   "theorems": [
    "C20_linear",
    "C20_exact_on_the_grid",
    "C20_monotone",
    "C20_negative_samples_refuted",
    "C20_large_samples_refuted",
    "C20_results_of_32_bits",
    "C20_negative_start_refuted"
   ],
   "note": "C20_negative_samples_refuted, C20_large_samples_refuted, C20_negative_start_refuted delimit the regime. Floating-point tables are not modelled."
  },
  {
   "property": "C21",
   "status": "proved",
   "theorems": [
    "C21_simulation",
    "C21_histories",
    "C21_swap_full_empty",
    "C21_swap_refuted",
    "C21_emplace_own_value",
    "C21_emplace_own_value_refuted",
    "C21_copy_of_bool_refuted"
   ],
   "note": "Refuted without the restrictions: full.swap(empty) empties both; emplace from own value reads a destroyed object; optional<bool> copied from a non-const lvalue holds whether the source is full."
  },
  {
   "property": "C22",
   "status": "proved",
   "theorems": [
    "C22_simulation",
    "C22_histories",
    "C22_no_moves_no_leak",
    "C22_moved_from_leaks_refuted",
    "C22_spent_is_unusable",
    "C22_assign_to_moved_from_refuted",
    "C22_self_move_refuted"
   ],
   "note": "Refuted: moved-from objects leak, moved-from variants cannot be assigned to, self-move assignment loses the value."
  },
  {
   "property": "C23",
   "status": "proved",
   "theorems": [
    "C23_simulation",
    "C23_histories",
    "C23_untouched",
    "C23_copy_of_nonconst_refuted",
    "C23_self_move_refuted"
   ],
   "note": "Histories over arbitrary anys with throwing copies; nesting by the template constructor modelled. Refuted for copies of non-const lvalues and self-move."
  },
  {
   "property": "C24",
   "status": "proved",
   "theorems": [
    "C24_map_histories",
    "C24_map_set_stores",
    "C24_map_last_write",
    "C24_atomic_last_write",
    "C24_atomic_set_keeps_shape",
    "C24_atomic_copy",
    "C24_atomic_cleared_refuted",
    "C24_atomic_reregister_refuted",
    "C24_map_validator_ignored_refuted",
    "C24_map_lvalue_any_refuted"
   ],
   "note": "Refuted expectations: a cleared atomic attribute can be set again; re-registering with another type leaves the attribute alone; set_attribute asks the validator; an lvalue any is stored as its content."
  },
  {
   "property": "C25",
   "status": "proved",
   "theorems": [
    "C25_narrow_cast",
    "C25_rejects",
    "C25_release"
   ],
   "note": "Widths are arbitrary (at least 2 bits); bool is included."
  },
  {
   "property": "C26",
   "status": "proved",
   "theorems": [
    "C26_clamp",
    "C26_zero",
    "C26_default",
    "C26_wide_index_refuted",
    "C26_own_dimension"
   ],
   "note": "Proved for indices representable in the sampler's index type; C26_wide_index_refuted records the deviation for wider ones. C26_own_dimension is about arbitrary samplers."
  },
  {
   "property": "C27",
   "status": "proved",
   "theorems": [
    "C27_array_simulation",
    "C27_array_histories",
    "C27_array_all_destroyed",
    "C27_array_move_assignment_leaks_refuted",
    "C27_array_constructor_leaks_refuted",
    "C27_array_failed_assign_refuted",
    "C27_array_failed_resize_refuted",
    "C27_array_assign_list_refuted",
    "C27_array_assign_own_element_refuted",
    "C27_storage_in_place",
    "C27_storage_on_heap",
    "C27_storage_default_refuted",
    "C27_storage_failed_assignment_refuted",
    "C27_storage_copy_of_moved_refuted"
   ],
   "note": "Simulation theorems for dynamic_array (blocks, places, allocators) and both storage variants, with the failing regimes as _refuted theorems. assign(size, init list) of dynamic_array not modelled."
  },
  {
   "property": "C28",
   "status": "proved",
   "theorems": [
    "C28_made_configs_well_formed",
    "C28_map_builder",
    "C28_multimap_builder",
    "C28_ordered_builder",
    "C28_array_builder",
    "C28_mixed_calls_throw"
   ],
   "note": ""
  },
  {
   "property": "C29",
   "status": "proved",
   "theorems": [
    "C29_with_value",
    "C29_array_on_the_way_throws",
    "C29_with_value_multimap_refuted",
    "C29_with_value_root_refuted"
   ],
   "note": "Proved for configs without duplicate keys and paths with no array on the way (which throws, proved). C29_with_value_multimap_refuted and C29_with_value_root_refuted show that both restrictions are needed."
  },
  {
   "property": "C30",
   "status": "proved",
   "theorems": [
    "C30_without_path",
    "C30_without_path_scalar_refuted"
   ],
   "note": "Proved when the path leads through objects only; C30_without_path_scalar_refuted shows a scalar on the way is replaced by a null config."
  },
  {
   "property": "C31",
   "status": "proved",
   "theorems": [
    "C31_with_only_path",
    "C31_with_only_path_succeeds"
   ],
   "note": ""
  },
  {
   "property": "C32",
   "status": "proved",
   "theorems": [
    "C32_filters_partition"
   ],
   "note": ""
  },
  {
   "property": "C33",
   "status": "proved",
   "theorems": [
    "C33_merge_paths",
    "C33_merge_succeeds",
    "C33_merge_keys",
    "C33_merge_separator_refuted",
    "C33_merge_multimap_refuted",
    "C33_merge_null_entry_refuted"
   ],
   "note": "Proved for configs without multimaps and with plain keys. Refuted theorems show what happens otherwise: separator keys dropped or throwing, multimap keys duplicated, null entries throwing."
  },
  {
   "property": "C34",
   "status": "proved",
   "theorems": [
    "C34_idempotent",
    "C34_neutral",
    "C34_associative",
    "C34_associative_refuted"
   ],
   "note": "Associativity proved under the no-conflict condition; C34_associative_refuted shows it fails without. The flip law is contained in C33, whose theorems cover both priorities."
  },
  {
   "property": "C35",
   "status": "proved",
   "theorems": [
    "C35_clone_equal",
    "C35_clone_any_made"
   ],
   "note": ""
  },
  {
   "property": "C36",
   "status": "proved",
   "theorems": [
    "C36_integer_strings",
    "C36_characters",
    "C36_round_trip",
    "C36_blank_refuted",
    "C36_overflow_refuted",
    "C36_leading_zero_refuted"
   ],
   "note": "strtoll and std::to_string are modelled from their C standard description (C locale, 64-bit long long). Refutations: blank strings, overflow saturation, leading zero."
  },
  {
   "property": "C37",
   "status": "proved",
   "theorems": [
    "C37_letters",
    "C37_boolean_strings",
    "C37_round_trip",
    "C37_one_meaning"
   ],
   "note": "tolower/isspace are those of the C locale."
  },
  {
   "property": "C38",
   "status": "proved",
   "theorems": [
    "C38_iteration",
    "C38_find_single",
    "C38_read_path",
    "C38_read_entry",
    "C38_find_nested_refuted"
   ],
   "note": "C38_find_nested_refuted: find of a nested path denotes an unrelated top-level entry."
  },
  {
   "property": "C39",
   "status": "proved",
   "theorems": [
    "C39_handled_is_prefix_of_accepted",
    "C39_sender_order_preserved",
    "C39_system_messages_first"
   ],
   "note": ""
  },
  {
   "property": "C40",
   "status": "proved",
   "theorems": [
    "C40_no_lost_wakeup",
    "C40_quiescence_means_all_handled"
   ],
   "note": ""
  },
  {
   "property": "C41",
   "status": "proved",
   "theorems": [
    "C41_mutual_exclusion",
    "C41_unscheduled_means_no_activation"
   ],
   "note": ""
  },
  {
   "property": "C42",
   "status": "proved",
   "theorems": [
    "C42_throughput_bounds_activation",
    "C42_activation_requeues_rest"
   ],
   "note": ""
  },
  {
   "property": "C43",
   "status": "proved",
   "theorems": [
    "C43_messages_only_between_start_and_stop",
    "C43_post_stop_at_most_once",
    "C43_post_stop_exactly_once_if_started",
    "C43_stopped_for_good",
    "C43_start_after_stop_refuted"
   ],
   "note": "Start is sent once by the framework; C43_start_after_stop_refuted shows that C43_stopped_for_good needs its proviso about pending senders."
  },
  {
   "property": "C44",
   "status": "proved",
   "theorems": [
    "C44_waits_for_children",
    "C44_no_child_while_stopping",
    "C44_children_closed_first",
    "C44_children_stopped_first",
    "C44_shutdown_completes",
    "C44_comes_to_rest",
    "C44_failed_start_hangs_refuted",
    "C44_early_stop_hangs_refuted"
   ],
   "note": "Two _refuted theorems: failing pre_start, and stop before attach, make the shutdown hang. Handlers are atomic here; C91 lifts that."
  },
  {
   "property": "C45",
   "status": "proved",
   "theorems": [
    "C45_not_told_before_the_stop",
    "C45_told_exactly_once",
    "C45_told_twice_refuted",
    "C45_watch_behind_stop_refuted",
    "C45_failed_start_tells_nobody_refuted"
   ],
   "note": "Stated at the first close of the mailbox; three _refuted theorems show where the unrestricted expectation fails."
  },
  {
   "property": "C46",
   "status": "proved",
   "theorems": [
    "C46_always_a_behaviour",
    "C46_unbecome_undoes_become",
    "C46_discard_replaces_only_top",
    "C46_nested_has_top"
   ],
   "note": ""
  },
  {
   "property": "C47",
   "status": "proved",
   "theorems": [
    "C47_tasks_start_in_submission_order",
    "C47_started_once",
    "C47_destructor_runs_everything",
    "C47_no_lost_wakeup",
    "C47_workers_drain_the_queue",
    "C47_zero_threads_refuted",
    "C47_throwing_task_refuted"
   ],
   "note": "Two _refuted theorems cover the zero-thread pool and the null logger."
  },
  {
   "property": "C48",
   "status": "proved",
   "theorems": [
    "C48_never_early",
    "C48_takes_earliest_pending",
    "C48_each_task_once",
    "C48_soft_stop_runs_everything",
    "C48_no_lost_wakeup",
    "C48_equal_times_fifo_refuted",
    "C48_force_stop_runs_everything_refuted"
   ],
   "note": "Equal due times run in reverse submission order (C48_equal_times_fifo_refuted); a forced stop drops tasks."
  },
  {
   "property": "C49",
   "status": "proved",
   "theorems": [
    "C49_ask_answered_by_first_reply",
    "C49_find_answered_by_first_result",
    "C49_started_helper_always_answers",
    "C49_early_timeout_refuted"
   ],
   "note": "C49_early_timeout_refuted: a helper stopped before it was started never sets the future."
  },
  {
   "property": "C50",
   "status": "proved",
   "theorems": [
    "C50_same_prefix_distinct",
    "C50_collision_needs_digit_extension",
    "C50_counter_wraps_refuted"
   ],
   "note": "Distinct up to 2^64 calls; C50_counter_wraps_refuted beyond."
  },
  {
   "property": "C51",
   "status": "proved",
   "theorems": [
    "C51_named_context_iff_first",
    "C51_default_context_works",
    "C51_named_context_refuted",
    "C51_unknown_default_rejected_refuted"
   ],
   "note": "The positive theorem characterises the lookup exactly; the user's expectation is refuted."
  },
  {
   "property": "C52",
   "status": "proved",
   "theorems": [
    "C52_find_by_own_path",
    "C52_find_any_path",
    "C52_exactly_one_answer",
    "C52_twins_find_refuted",
    "C52_foreign_system_rejected_refuted"
   ],
   "note": "Tree assumed unchanged during the search. Two _refuted theorems: twins, foreign system name."
  },
  {
   "property": "C53",
   "status": "proved",
   "theorems": [
    "C53_quiet_destruction_is_safe",
    "C53_late_sender_refuted"
   ],
   "note": "The safe discipline is proved sufficient; C53_late_sender_refuted shows the code does not enforce it."
  },
  {
   "property": "C54",
   "status": "proved",
   "theorems": [
    "C54_typed_release",
    "C54_typed_debug",
    "C54_truncated"
   ],
   "note": "Doubles are left abstract parameters of the value model."
  },
  {
   "property": "C55",
   "status": "proved",
   "theorems": [
    "C55_reads",
    "C55_text_backend",
    "C55_text_boolean"
   ],
   "note": "C55_text_boolean is an equivalence, so the disagreement for all other integers is part of it."
  },
  {
   "property": "C56",
   "status": "proved",
   "theorems": [
    "C56_reshape_keeps_the_sequence"
   ],
   "note": "Proved."
  },
  {
   "property": "C57",
   "status": "proved",
   "theorems": [
    "C57_bounded_vector",
    "C57_histories",
    "C57_observers",
    "C57_insert_leaves_the_array",
    "C57_insert_into_last_place_refuted",
    "C57_insert_outside_refuted",
    "C57_insert_loses_what_follows",
    "C57_erase_loses_what_follows",
    "C57_erase_refuted",
    "C57_own_element_refuted"
   ],
   "note": "C57_insert_into_last_place_refuted, C57_insert_outside_refuted, C57_erase_refuted and C57_own_element_refuted show the unrestricted claim false."
  },
  {
   "property": "C58",
   "status": "proved",
   "theorems": [
    "C58_lists_of_types",
    "C58_at_and_split",
    "C58_reverse",
    "C58_reverse_empty_refuted",
    "C58_find",
    "C58_unique",
    "C58_sort",
    "C58_sort_by_size",
    "C58_sort_two_voids_refuted",
    "C58_sort_stable_refuted",
    "C58_merge",
    "C58_merge_empty_refuted"
   ],
   "note": "C58_reverse_empty_refuted, C58_merge_empty_refuted, C58_sort_two_voids_refuted and C58_sort_stable_refuted show the limits."
  },
  {
   "property": "C59",
   "status": "proved",
   "theorems": [
    "C59_first_case",
    "C59_empty",
    "C59_right_type",
    "C59_access",
    "C59_dead_cases",
    "C59_first_default_refuted",
    "C59_type_is_enough_refuted",
    "C59_tags"
   ],
   "note": "C59_first_default_refuted and C59_type_is_enough_refuted show two expectations that fail."
  },
  {
   "property": "C60",
   "status": "proved",
   "theorems": [
    "C60_json",
    "C60_xml",
    "C60_yaml",
    "C60_ini",
    "C60_contents",
    "C60_xml_no_root_refuted",
    "C60_yaml_distinct_refuted"
   ],
   "note": "Parsing itself is third-party and not modelled. Refuted for an xml document without a root element (key lookup dereferences null) and, as for distinct keys of a non-multi map, for yaml maps with non-scalar keys."
  },
  {
   "property": "C61",
   "status": "proved",
   "theorems": [
    "C61_lookup",
    "C61_exact",
    "C61_sorted",
    "C61_nested_order_refuted",
    "C61_not_finite_refuted",
    "C61_utf8_refuted",
    "C61_multi_refuted",
    "C61_large_numbers_refuted"
   ],
   "note": "dump and parse of nlohmann::json are modelled by what they do to the tree (reparse_json). Refuted beyond the regime: nested order is lost by default under an array or plain map, non-finite reals become null, invalid UTF-8 throws, repeated keys of a multimap are dropped, unsigned numbers beyond int64 wrap."
  },
  {
   "property": "C62",
   "status": "proved",
   "theorems": [
    "C62_round_trip",
    "C62_typed",
    "C62_array_refuted",
    "C62_blank_text_refuted",
    "C62_plain_refuted",
    "C62_bool_as_string_refuted"
   ],
   "note": "Printing and parsing by tinyxml2 are modelled by what they do to the tree (reparse_xml). Refuted beyond the regime: arrays come back as maps with equal keys, blank text as empty configuration, NUL cuts a string, CR becomes LF, a bool as string is true instead of 1."
  },
  {
   "property": "C63",
   "status": "proved",
   "theorems": [
    "C63_round_trip",
    "C63_typed",
    "C63_readable",
    "C63_repeated_keys_refuted",
    "C63_null_refuted"
   ],
   "note": "Emitting and loading by yaml-cpp are taken to give back the same nodes. Refuted: repeated keys (json keeps the first, yaml the last, xml all), null in an array becomes an empty map."
  },
  {
   "property": "C64",
   "status": "proved",
   "theorems": [
    "C64_contents",
    "C64_lookup",
    "C64_hidden_refuted"
   ],
   "note": "Lines are those inih reports. Refuted: a value outside of sections is hidden from key lookup by a section of the same name."
  },
  {
   "property": "C65",
   "status": "proved",
   "theorems": [
    "C65_round_trip",
    "C65_exact",
    "C65_put",
    "C65_add",
    "C65_cvt",
    "C65_position_refuted",
    "C65_nested_refuted"
   ],
   "note": "float and long double not modelled (the converter of long double returns a reference to a temporary). Refuted: elements keep their position; an empty optional inside an optional can be stored."
  },
  {
   "property": "C66",
   "status": "proved",
   "theorems": [
    "C66_basic",
    "C66_cvt",
    "C66_no_other_failure",
    "C66_vector",
    "C66_vector_fails",
    "C66_map",
    "C66_map_fails",
    "C66_to_vector",
    "C66_to_map",
    "C66_to_multimap",
    "C66_optional_element_refuted"
   ],
   "note": "Refuted: an optional element that cannot be read is empty."
  },
  {
   "property": "C67",
   "status": "proved",
   "theorems": [
    "C67_values",
    "C67_positions",
    "C67_sorted",
    "C67_size",
    "C67_mandatory",
    "C67_declare_safe",
    "C67_declare",
    "C67_bad_text_refuted",
    "C67_duplicate_refuted"
   ],
   "note": "TCLAP is a parameter. C67_bad_text_refuted: unreadable text is silently no value."
  },
  {
   "property": "C68",
   "status": "proved",
   "theorems": [
    "C68_dispatch",
    "C68_only_the_named",
    "C68_last_registration",
    "C68_errors",
    "C68_exit",
    "C68_status",
    "C68_error_code",
    "C68_works_once",
    "C68_second_use_refuted"
   ],
   "note": "TCLAP is a parameter. C68_second_use_refuted: an alternative can be dispatched once only."
  },
  {
   "property": "C69",
   "status": "proved",
   "theorems": [
    "C69_one_thread",
    "C69_in_order",
    "C69_system_first",
    "C69_user_needs_start",
    "C69_no_lost_wakeup",
    "C69_at_rest",
    "C69_closed_for_good",
    "C69_closed_by_stop",
    "C69_no_slot_no_progress",
    "C69_limit_refuted",
    "C69_thread_after_close_refuted",
    "C69_nobody_blocked"
   ],
   "note": "C69_limit_refuted, C69_thread_after_close_refuted: the two expectations that fail. C69_no_slot_no_progress is the general form of the first."
  },
  {
   "property": "C70",
   "status": "proved",
   "theorems": [
    "C70_in_order",
    "C70_calls",
    "C70_empty",
    "C70_no_lost_wakeup",
    "C70_system_messages_kept",
    "C70_nobody_blocked"
   ],
   "note": "Time is abstracted: a check may find the time over or not."
  },
  {
   "property": "C71",
   "status": "proved",
   "theorems": [
    "C71_stream",
    "C71_one_handler",
    "C71_connected_first",
    "C71_closed_last",
    "C71_clean_end",
    "C71_writes",
    "C71_receiving",
    "C71_ends_with_handler",
    "C71_full_socket_refuted",
    "C71_early_write_refuted",
    "C71_spurious_refuted"
   ],
   "note": "The kernel's side (how much is available, how a wait ends, how much a send takes) is chosen by the environment. Refuted: whole writes on a full socket, early writes, spurious wake-ups."
  },
  {
   "property": "C72",
   "status": "proved",
   "theorems": [
    "C72_datagrams",
    "C72_safe",
    "C72_destruction_refuted"
   ],
   "note": "Refuted: safety of a completion between the destruction of the receiver and that of the socket."
  },
  {
   "property": "C73",
   "status": "proved",
   "theorems": [
    "C73_replies",
    "C73_fail",
    "C73_bind",
    "C73_unresolved_refuted",
    "C73_bound_refuted",
    "C73_silent_refuted"
   ],
   "note": "Refuted: the error path of resolve, bound means listening, every command is answered."
  },
  {
   "property": "C74",
   "status": "proved",
   "theorems": [
    "C74_line",
    "C74_whole",
    "C74_ends",
    "C74_filtered",
    "C74_default",
    "C74_zero_refuted"
   ],
   "note": "vsnprintf and snprintf are taken as the standard defines them; encoding errors are left out. Refuted: every message ends with a newline (zero in the text)."
  },
  {
   "property": "C75",
   "status": "proved",
   "theorems": [
    "C75_compiles",
    "C75_data_members",
    "C75_queries",
    "C75_any_memory",
    "C75_public",
    "C75_pointer",
    "C75_member_functions",
    "C75_functions_refuted",
    "C75_method_public",
    "C75_memory_refuted",
    "C75_wrong_type_refuted"
   ],
   "note": "Refuted: the member function list, recovery after bad_alloc, type check of as_ptr."
  },
  {
   "property": "C76",
   "status": "proved",
   "theorems": [
    "C76_safe",
    "C76_once",
    "C76_no_leak",
    "C76_valid",
    "C76_found",
    "C76_move",
    "C76_default",
    "C76_drop",
    "C76_self_refuted"
   ],
   "note": "Refuted: self move assignment keeps the value."
  },
  {
   "property": "C77",
   "status": "proved",
   "theorems": [
    "C77_context",
    "C77_system",
    "C77_failure",
    "C77_counts",
    "C77_debug",
    "C77_wrap_refuted",
    "C77_word_refuted",
    "C77_error_refuted"
   ],
   "note": "The configuration is the object after parsing (C60-C64 cover the formats). Refuted: numbers that do not fit are rejected; unreadable numbers are rejected; the converter's error is reported."
  },
  {
   "property": "C78",
   "status": "proved",
   "theorems": [
    "C78_once",
    "C78_all",
    "C78_destroy",
    "C78_scopes",
    "C78_twice_refuted",
    "C78_assign_refuted",
    "C78_lost_refuted"
   ],
   "note": "Refuted: the unrestricted claim for repeated moves and for move assignment (C78_twice_refuted, C78_assign_refuted, C78_lost_refuted)."
  },
  {
   "property": "C79",
   "status": "proved",
   "theorems": [
    "C79_all_of",
    "C79_any_of",
    "C79_for_each",
    "C79_transform",
    "C79_transform_pure",
    "C79_order_refuted",
    "C79_forward_refuted"
   ],
   "note": "Refuted: one order of calls for transform, extra rvalue arguments equal for each element."
  },
  {
   "property": "C80",
   "status": "proved",
   "theorems": [
    "C80_single",
    "C80_threads",
    "C80_race_refuted"
   ],
   "note": "Refuted: at most one construction with racing first uses."
  },
  {
   "property": "C81",
   "status": "proved",
   "theorems": [
    "C81_case",
    "C81_exact",
    "C81_first_refuted"
   ],
   "note": "Conversion sequences are an abstract total preorder of ranks. Refuted: the first fitting case is called."
  },
  {
   "property": "C82",
   "status": "proved",
   "theorems": [
    "C82_same",
    "C82_one_of",
    "C82_has_trait",
    "C82_unsigned",
    "C82_signed",
    "C82_wider",
    "C82_widest_refuted"
   ],
   "note": "Types are numbers; floating point wider types are left out. Refuted: there is always a wider type."
  },
  {
   "property": "C83",
   "status": "proved",
   "theorems": [
    "C83_one_place",
    "C83_listening",
    "C83_told_once",
    "C83_closed",
    "C83_served",
    "C83_nothing_left",
    "C83_waits",
    "C83_handles",
    "C83_stops",
    "C83_ended",
    "C83_stops_refuted",
    "C83_refused_silently_refuted",
    "C83_same_port_refuted"
   ],
   "note": "Refuted: a listener asked to stop stops (C83_stops_refuted), a connection that is accepted is announced (C83_refused_silently_refuted), each remote ends by itself (C83_same_port_refuted)."
  },
  {
   "property": "C84",
   "status": "proved",
   "theorems": [
    "C84_linearizable",
    "C84_wait_free",
    "C84_clear_refuted",
    "C84_default_refuted",
    "C84_snapshot_refuted"
   ],
   "note": "Refuted: concurrent clear (C84_clear_refuted, C84_default_refuted), copies as snapshots (C84_snapshot_refuted). Sequential behaviour is C24. Memory order seq_cst."
  },
  {
   "property": "C85",
   "status": "proved",
   "theorems": [
    "C85_settles",
    "C85_all_handled",
    "C85_blocked",
    "C85_fair",
    "C85_one_thread",
    "C85_order",
    "C85_all_blocked_refuted"
   ],
   "note": "Cascades are finite trees of messages; handlers do not throw out of a task (C47); parents and children are C44. Refuted: progress with all threads blocked (C85_all_blocked_refuted)."
  },
  {
   "property": "C86",
   "status": "proved",
   "theorems": [
    "C86_histories",
    "C86_like_others",
    "C86_given_is_full_refuted",
    "C86_emplace_own_value",
    "C86_emplace_own_value_refuted",
    "C86_flatten"
   ],
   "note": "Refuted: an optional given a pointer is full (C86_given_is_full_refuted, documented); emplacing the own pointer (C86_emplace_own_value_refuted)."
  },
  {
   "property": "C87",
   "status": "proved",
   "theorems": [
    "C87_any_ptr",
    "C87_any_ptr_to_const_refuted",
    "C87_not_null",
    "C87_not_null_release_refuted",
    "C87_not_null_smart",
    "C87_not_null_smart_refuted",
    "C87_instance_of",
    "C87_instance_of_made",
    "C87_instance_of_copy_refuted"
   ],
   "note": "dynamic_cast is a parameter. Refuted: C87_any_ptr_to_const_refuted, C87_not_null_release_refuted, C87_not_null_smart_refuted, C87_instance_of_copy_refuted."
  },
  {
   "property": "C88",
   "status": "proved",
   "theorems": [
    "C88_values",
    "C88_access",
    "C88_same_default_refuted",
    "C88_rvalue_refuted"
   ],
   "note": "Member types are described by name, emptiness, finality and initial value. Refuted: C88_same_default_refuted, C88_rvalue_refuted."
  },
  {
   "property": "C89",
   "status": "proved",
   "theorems": [
    "C89_stops_exactly",
    "C89_destructors",
    "C89_debug_is_release",
    "C89_debug_stops_legal_refuted"
   ],
   "note": "Refuted: a debug build runs every legal program (C89_debug_stops_legal_refuted, seven calls). Allocations do not fail during insertions, as in C08."
  },
  {
   "property": "C90",
   "status": "proved",
   "theorems": [
    "C90_stops_exactly",
    "C90_constructor",
    "C90_destructor",
    "C90_pop_empty",
    "C90_debug_is_release",
    "C90_assign_nothing_refuted",
    "C90_push_empty_slice_refuted"
   ],
   "note": "Refuted: C90_assign_nothing_refuted, C90_push_empty_slice_refuted. Allocations do not fail during insertions; legality as in C11."
  },
  {
   "property": "C91",
   "status": "proved",
   "theorems": [
    "C91_every_execution",
    "C91_children_stopped_first",
    "C91_shutdown_completes",
    "C91_comes_to_rest",
    "C91_when_shutdown_returns",
    "C91_destroyed_cell_untouched",
    "C91_timers_after_shutdown_refuted",
    "C91_failed_start_hangs_refuted"
   ],
   "note": "Refuted: C91_timers_after_shutdown_refuted (shutdown() returns while the user guardian is still open and the timers run), C91_failed_start_hangs_refuted. The proof is a simulation with the tree of C44, whose handlers are atomic."
  },
  {
   "property": "C92",
   "status": "proved",
   "theorems": [
    "C92_numeric",
    "C92_config",
    "C92_loops",
    "C92_outside",
    "C92_negative_offset_config",
    "C92_negative_offset_numeric",
    "C92_debug_agrees_refuted",
    "C92_subscript_refuted",
    "C92_unsigned_gap_refuted"
   ],
   "note": "Refuted: C92_debug_agrees_refuted (it + (-1) of a config iterator is undefined in a debug build: max() - d overflows), C92_subscript_refuted (it[d] of numeric_iterator returns a reference into a destroyed temporary), C92_unsigned_gap_refuted (uint32_t iterators)."
  },
  {
   "property": "C93",
   "status": "proved",
   "theorems": [
    "C93_optional",
    "C93_optional_simulation",
    "C93_optional_self_refuted",
    "C93_variant",
    "C93_variant_histories",
    "C93_variant_simulation",
    "C93_type",
    "C93_variant_self_refuted",
    "C93_source_unchecked_refuted"
   ],
   "note": "Refuted: C93_optional_self_refuted and C93_variant_self_refuted (self-assignment is right in release builds and stops debug builds), C93_source_unchecked_refuted (copying a variant that was moved from is undefined in debug builds too)."
  },
  {
   "property": "C94",
   "status": "proved",
   "theorems": [
    "C94_rule",
    "C94_right_answer",
    "C94_answered",
    "C94_settles",
    "C94_plain_forward_lost",
    "C94_plain_forward_refuted",
    "C94_move_only_answer_refuted"
   ],
   "note": "C94_rule is the general proof rule, C94_right_answer, C94_answered and C94_settles the network. Refuted: C94_plain_forward_refuted (forward(any&, ...) wraps the message in a second any; C94_plain_forward_lost: no such question is ever answered), C94_move_only_answer_refuted (asking_actor copies the answer into the promise)."
  },
  {
   "property": "C95",
   "status": "proved",
   "theorems": [
    "C95_value",
    "C95_paths",
    "C95_order"
   ],
   "note": "C95_value is the simulation of whole programs, C95_paths the agreement of the ways to an element, C95_order the traversals."
  },
  {
   "property": "C96",
   "status": "proved",
   "theorems": [
    "C96_plain_copy",
    "C96_plain_swap",
    "C96_rows_not_copied",
    "C96_rows_not_swapped",
    "C96_rows_not_reversed",
    "C96_array_rows",
    "C96_rows_copied_refuted",
    "C96_swap_stops_refuted"
   ],
   "note": "Proved for all inputs; the expectation that row iterators work with the algorithms their tag promises is refuted: C96_rows_copied_refuted, C96_swap_stops_refuted. The algorithms are modelled from their definition in the C++ standard, over a record of what the iterators do."
  },
  {
   "property": "C97",
   "status": "proved",
   "theorems": [
    "C97_same_as_release",
    "C97_constructed",
    "C97_confined",
    "C97_confined_vector",
    "C97_brackets",
    "C97_plain_range",
    "C97_checking_samplers",
    "C97_clamp",
    "C97_no_check",
    "C97_no_check_refuted",
    "C97_byte_strides_refuted",
    "C97_view_of_plane_refuted",
    "C97_wrapped_shape_refuted",
    "C97_release",
    "C97_rows",
    "C97_reshape"
   ],
   "note": "Model Dview*, on top of Nd*, with assertions switched by a flag, so the release build is the same text. C97_no_check_refuted, C97_byte_strides_refuted, C97_wrapped_shape_refuted: what the assertions miss. C97_view_of_plane_refuted: an assertion that stops a right program, since a view compares its size with the bytes up to the next plane."
  },
  {
   "property": "C98",
   "status": "proved",
   "theorems": [
    "C98_element",
    "C98_boundary",
    "C98_moved_outside",
    "C98_every_kind",
    "C98_at",
    "C98_ops",
    "C98_compiles",
    "C98_ops_answer",
    "C98_arrays",
    "C98_other_result_type_refuted",
    "C98_few_indices_refuted",
    "C98_many_indices_refuted",
    "C98_owning_rows_refuted",
    "C98_list_refuted",
    "C98_row_of_std_vector_refuted"
   ],
   "note": "Model Own*. C98_element, C98_boundary, C98_moved_outside and C98_at are about samplers that note down their calls; C98_every_kind is about all samplers; C98_compiles, C98_ops_answer and C98_arrays say which calls exist. The five deviations each have a _refuted theorem."
  },
  {
   "property": "C99",
   "status": "proved",
   "theorems": [
    "C99_vectors_are_lists",
    "C99_as_other_elements",
    "C99_any_allocation_fails",
    "C99_insert_own_element",
    "C99_own_element_full",
    "C99_push_back_own_element",
    "C99_insert_own_element_refuted"
   ],
   "note": "Model Triv*, the functions of VecModel over the specialisations for trivial types; a simulation from VecModel carries C06 over. The wrong element inserted by insert(pos, v[k]) is C99_insert_own_element, with the witness C99_insert_own_element_refuted."
  },
  {
   "property": "C100",
   "status": "proved",
   "theorems": [
    "C100_slices_are_a_list",
    "C100_as_other_elements",
    "C100_any_allocation_fails",
    "C100_push_back_own_slice",
    "C100_insert_own_slice",
    "C100_own_slice_full",
    "C100_insert_own_slice_refuted"
   ],
   "note": "Model TrivNd*, the functions of NdVecModel over TrivModel's raw_vector; a simulation carries C11 over, and the leak of C11_insert_out_of_memory_refuted disappears. C100_insert_own_slice_refuted: inserting v[2] in front inserts v[1], inserting v[0] in front is undefined although there is room."
  },
  {
   "property": "C101",
   "status": "proved",
   "theorems": [
    "C101_debug_is_release",
    "C101_fails_exactly_when",
    "C101_needs_two_senders",
    "C101_children_are_there",
    "C101_tree_as_released",
    "C101_children_watched",
    "C101_create_then_tell_refuted",
    "C101_pinned_refuted",
    "C101_detach_twice_refuted",
    "C101_root_message_refuted"
   ],
   "note": "Model Dact*: MailboxModel with its waiting senders kept apart, FlowModel with the assertions of the handlers. C101_create_then_tell_refuted: creating an actor and telling it something can fail the assertion after start was sent; C101_pinned_refuted, C101_detach_twice_refuted and C101_root_message_refuted show the other failures."
  },
  {
   "property": "C102",
   "status": "proved",
   "theorems": [
    "C102_answers_exactly",
    "C102_behaviour_in_force",
    "C102_sender_is_of_this_message",
    "C102_fatal_is_last",
    "C102_careful_actors_are_safe",
    "C102_exceptions_stay_in_the_turn",
    "C102_become_in_constructor_refuted",
    "C102_constructor_calls_refuted",
    "C102_throwing_constructor_refuted",
    "C102_sender_in_hook_refuted",
    "C102_log_in_destructor_refuted",
    "C102_behaviours_are_not_owned_refuted"
   ],
   "note": "Model Self*. C102_become_in_constructor_refuted, C102_constructor_calls_refuted, C102_throwing_constructor_refuted, C102_sender_in_hook_refuted, C102_log_in_destructor_refuted and C102_behaviours_are_not_owned_refuted show what goes wrong without the conditions."
  },
  {
   "property": "C103",
   "status": "proved",
   "theorems": [
    "C103_sizes_are_longest",
    "C103_nested_lists",
    "C103_empty_lists",
    "C103_lists_are_cleaned_up",
    "C103_from_sizes",
    "C103_from_range",
    "C103_from_size_range",
    "C103_from_rows",
    "C103_reshape",
    "C103_reshape_moves",
    "C103_from_std",
    "C103_range_length_checked_refuted",
    "C103_large_sizes_refused_refuted",
    "C103_reshape_keeps_volume_refuted",
    "C103_large_lists_refused_refuted",
    "C103_irregular_lists_refused_refuted",
    "C103_size_range_checked_refuted",
    "C103_conversion_moves_refuted"
   ],
   "note": "Model Make*. C103_range_length_checked_refuted, C103_large_sizes_refused_refuted, C103_reshape_keeps_volume_refuted, C103_large_lists_refused_refuted, C103_irregular_lists_refused_refuted, C103_size_range_checked_refuted and C103_conversion_moves_refuted show the unrestricted expectations that fail."
  },
  {
   "property": "C104",
   "status": "proved",
   "theorems": [
    "C104_which_can_be_made",
    "C104_made_or_rejected",
    "C104_values",
    "C104_copies",
    "C104_conversions",
    "C104_variables",
    "C104_variables_follow_refuted",
    "C104_making",
    "C104_some_never_empty_refuted",
    "C104_any_variable_refuted",
    "C104_flatten",
    "C104_flatten_made",
    "C104_map",
    "C104_map_laws",
    "C104_map_laws_refuted",
    "C104_map_flatten",
    "C104_filter",
    "C104_filter_refuted",
    "C104_assignments",
    "C104_assignments_compile_refuted",
    "C104_get_opt",
    "C104_get_opt_refuted",
    "C104_std_round_trip",
    "C104_from_std",
    "C104_to_std_refuted"
   ],
   "note": "Model Nest*. Overload resolution between the constructors is part of the model. C104_variables_follow_refuted, C104_some_never_empty_refuted, C104_any_variable_refuted, C104_map_laws_refuted, C104_filter_refuted, C104_assignments_compile_refuted, C104_get_opt_refuted and C104_to_std_refuted show the unrestricted expectations that fail. Assignments are proved to agree with constructions when they compile, and to compile when a number is at the bottom."
  },
  {
   "property": "C105",
   "status": "proved",
   "theorems": [
    "C105_paths_as_good_as_identities",
    "C105_equal_references",
    "C105_no_destroyed_cell_used",
    "C105_reuse_after_closing",
    "C105_destroyed_have_stopped",
    "C105_shutdown_completes",
    "C105_comes_to_rest",
    "C105_watchers_by_path",
    "C105_watchers",
    "C105_living_twin_destroyed_refuted",
    "C105_living_subtree_destroyed_refuted",
    "C105_twins_hang_refuted",
    "C105_reuse_after_post_stop_refuted",
    "C105_watcher_twin_refuted",
    "C105_unwatch_twin_refuted"
   ],
   "note": "Model Twin* on top of Flow*. The two regimes (reuse after the cell is gone; reuse after the mailbox is closed, with C91's assumptions) are simulated by FlowModel, so C91 carries over. C105_living_twin_destroyed_refuted, C105_living_subtree_destroyed_refuted, C105_twins_hang_refuted, C105_reuse_after_post_stop_refuted, C105_watcher_twin_refuted and C105_unwatch_twin_refuted show what happens outside them."
  },
  {
   "property": "C106",
   "status": "proved",
   "theorems": [
    "C106_calls",
    "C106_plain_programs_defined",
    "C106_reference_follows",
    "C106_write_one",
    "C106_one_owner",
    "C106_cast_to_reference_refuted",
    "C106_const_object_refuted",
    "C106_const_default_refuted",
    "C106_temporary_default_refuted",
    "C106_cast_moves_refuted",
    "C106_self_assignment_refuted"
   ],
   "note": "Model Cast*. C106_calls gives for every call in every reachable state: undefined iff not allowed, and the exact result and effect. Six _refuted theorems: C106_cast_to_reference_refuted, C106_const_object_refuted, C106_const_default_refuted, C106_temporary_default_refuted, C106_cast_moves_refuted, C106_self_assignment_refuted. Allocation failure is in C23."
  },
  {
   "property": "C107",
   "status": "proved",
   "theorems": [
    "C107_accesses",
    "C107_reading_changes_nothing",
    "C107_get_or_moves_refuted",
    "C107_get_or_throws_refuted",
    "C107_equality_refuted",
    "C107_moved_from_is_true_refuted"
   ],
   "note": "Model Vacc* on top of Var* (C22), same storage and invariant. C107_get_or_moves_refuted, C107_get_or_throws_refuted, C107_equality_refuted and C107_moved_from_is_true_refuted record the expectations that fail."
  },
  {
   "property": "C108",
   "status": "proved",
   "theorems": [
    "C108_stops_exactly",
    "C108_contract",
    "C108_same_as_release",
    "C108_correct_calls",
    "C108_confined",
    "C108_at",
    "C108_erase_beyond_undefined",
    "C108_confined_refuted",
    "C108_release_unchecked_refuted"
   ],
   "note": "Model Vdbg* over View* (C57), with iterators as places of the array. C108_confined_refuted and C108_release_unchecked_refuted record the expectations that fail."
  },
  {
   "property": "C109",
   "status": "proved",
   "theorems": [
    "C109_same_as_release",
    "C109_clone_stops",
    "C109_with_stops",
    "C109_only_stops",
    "C109_without_stops",
    "C109_without_needs",
    "C109_never_stops",
    "C109_debug_configs",
    "C109_builds_agree_refuted"
   ],
   "note": "Model Dconf* over Config*. C109_builds_agree_refuted records the expectation that fails: with_value of a path without names, without_path through a scalar, clone of a config with a null config inside."
  },
  {
   "property": "C110",
   "status": "proved",
   "theorems": [
    "C110_made",
    "C110_made_badly",
    "C110_range",
    "C110_range_badly",
    "C110_total_size",
    "C110_total_wraps",
    "C110_total_signed",
    "C110_total_16",
    "C110_beyond",
    "C110_sub_dims",
    "C110_equal",
    "C110_equal_mixed",
    "C110_programs",
    "C110_written",
    "C110_written_badly",
    "C110_types_stay",
    "C110_accessors",
    "C110_total_is_product_refuted",
    "C110_beyond_refuted",
    "C110_equal_transitive_refuted",
    "C110_assigned"
   ],
   "note": "Model Dims* over the integer arithmetic of Iter*. C110_total_is_product_refuted (extents 0, 65536, 65536 of int), C110_beyond_refuted and C110_equal_transitive_refuted record the expectations that fail."
  },
  {
   "property": "C111",
   "status": "proved",
   "theorems": [
    "C111_content",
    "C111_read_once",
    "C111_plain",
    "C111_readable",
    "C111_no_content",
    "C111_outcomes",
    "C111_json_yaml",
    "C111_xml_ini",
    "C111_null",
    "C111_out_of_bounds",
    "C111_again",
    "C111_pipe",
    "C111_streams_alike_refuted",
    "C111_strings_alike_refuted"
   ],
   "note": "Model Text*. C111_streams_alike_refuted (a pipe: ini reads an empty text where json reads all) and C111_strings_alike_refuted record the expectations that fail."
  },
  {
   "property": "C112",
   "status": "proved",
   "theorems": [
    "C112_same_text",
    "C112_same_tokens",
    "C112_compact",
    "C112_unprintable",
    "C112_padded",
    "C112_default_refuted",
    "C112_fill_refuted"
   ],
   "note": "Model Text* with the serializer of nlohmann::json. C112_default_refuted (indent 0 puts newlines into the string and none into the stream) and C112_fill_refuted record the expectations that fail."
  },
  {
   "property": "C113",
   "status": "proved",
   "theorems": [
    "C113_in_order",
    "C113_new_names",
    "C113_shutdown",
    "C113_waits",
    "C113_hangs",
    "C113_subtree",
    "C113_elder",
    "C113_only_so",
    "C113_equal_names_refuted"
   ],
   "note": "Model Alike*, the tree of Tree* with names. C113_equal_names_refuted: a listener at an address and a connection to it have one name; the end of the connection destroys the listener, and the shutdown hangs."
  },
  {
   "property": "C114",
   "status": "proved",
   "theorems": [
    "C114_lives",
    "C114_remotes",
    "C114_joined",
    "C114_self_join",
    "C114_dead_system",
    "C114_dead_socket",
    "C114_safe",
    "C114_safe_each",
    "C114_can_end",
    "C114_self_join_refuted",
    "C114_dead_system_refuted",
    "C114_dead_socket_refuted"
   ],
   "note": "Model Last*: owners of the context, of connections and of mailboxes, for all interleavings. C114_self_join_refuted, C114_dead_system_refuted and C114_dead_socket_refuted are executions of a shutdown during an accept; C114_safe is the regime without faults, C114_can_end shows that an orderly end exists."
  },
  {
   "property": "C115",
   "status": "proved",
   "theorems": [
    "C115_names",
    "C115_valid",
    "C115_ports",
    "C115_equal_names",
    "C115_bind",
    "C115_running_stays",
    "C115_port_kept",
    "C115_settles",
    "C115_rest",
    "C115_datagrams",
    "C115_reply",
    "C115_port_zero_refuted",
    "C115_bound_refuted",
    "C115_host_refuted",
    "C115_host_name_refuted"
   ],
   "note": "Model Port*: the sockets from the construction of the connection to its destruction, with the manager's system messages. C115_port_zero_refuted, C115_bound_refuted, C115_host_refuted and C115_host_name_refuted are the expectations that fail. In C115_reply from_string and to_string of asio are functions assumed to be inverse."
  },
  {
   "property": "C116",
   "status": "proved",
   "theorems": [
    "C116_listeners",
    "C116_bind",
    "C116_connect",
    "C116_listen",
    "C116_told",
    "C116_running_stays",
    "C116_settles",
    "C116_rest",
    "C116_failed",
    "C116_killed",
    "C116_twins",
    "C116_same_server_refuted",
    "C116_own_server_refuted",
    "C116_bound_refuted",
    "C116_unknown_host_refuted"
   ],
   "note": "Model Dial*: the children of the manager from the command to their destruction. C116_same_server_refuted, C116_own_server_refuted, C116_bound_refuted and C116_unknown_host_refuted are the expectations that fail; C116_twins is the general form of the first two. That the address of a child is used again only when the child is gone is a hypothesis of C116_running_stays, C116_settles and C116_rest only."
  },
  {
   "property": "C117",
   "status": "proved",
   "theorems": [
    "C117_operations",
    "C117_access",
    "C117_release_refuted",
    "C117_failed_allocation_refuted",
    "C117_failed_constructor_refuted"
   ],
   "note": "Model Ddyn* on top of Dyn* (C27): the same memory, with failing assertions as a third outcome. C117_release_refuted, C117_failed_allocation_refuted and C117_failed_constructor_refuted are the expectations that fail."
  },
  {
   "property": "C118",
   "status": "proved",
   "theorems": [
    "C118_access",
    "C118_program",
    "C118_release",
    "C118_inside",
    "C118_axes",
    "C118_unnoticed_refuted",
    "C118_order_refuted"
   ],
   "note": "Model Darr* on top of Arr* (C95). The assertions of views made of an array are C97's and left out here: views, iterators and data() are used inside the arrays only. C118_unnoticed_refuted and C118_order_refuted are the expectations that fail."
  },
  {
   "property": "C119",
   "status": "proved",
   "theorems": [
    "C119_program",
    "C119_tokens",
    "C119_equal",
    "C119_builds",
    "C119_moved",
    "C119_moved_refuted"
   ],
   "note": "Model Curs* on top of Token* (C03). Not modelled: the result of operator++(int), a reference to a local variable. C119_moved_refuted is the expectation that fails."
  },
  {
   "property": "C120",
   "status": "proved",
   "theorems": [
    "C120_program",
    "C120_builds",
    "C120_order_refuted",
    "C120_self_refuted"
   ],
   "note": "Model Zip*: iterators of containers are positions; zips of other iterators are C15-C17 (Range*). C120_order_refuted and C120_self_refuted are the expectations that fail."
  },
  {
   "property": "C121",
   "status": "proved",
   "theorems": [
    "C121_program",
    "C121_filtered",
    "C121_cached",
    "C121_begin_refuted",
    "C121_write_refuted",
    "C121_stale_refuted",
    "C121_end_refuted"
   ],
   "note": "Model Filt*: iterators of the container are positions; filters of other iterators are C15-C17 (Range*). Not modelled: conversions between iterators of different policies. C121_begin_refuted, C121_write_refuted, C121_stale_refuted and C121_end_refuted are the expectations that fail."
  },
  {
   "property": "C122",
   "status": "proved",
   "theorems": [
    "C122_program",
    "C122_functions",
    "C122_all",
    "C122_equal_refuted"
   ],
   "note": "Model Tran*: iterators of the container are positions; transforms of other iterators are C15-C17 (Range*). Functions return values: writing through a function that returns a reference is not modelled. C122_equal_refuted is the expectation that fails."
  },
  {
   "property": "C123",
   "status": "proved",
   "theorems": [
    "C123_program",
    "C123_ends",
    "C123_policies",
    "C123_search",
    "C123_past_refuted"
   ],
   "note": "Model Free*: fuel is explicit and running out of it is a distinct outcome; C123_program, C123_ends and C123_search are for all amounts of it. C123_past_refuted is the expectation that fails."
  },
  {
   "property": "C124",
   "status": "proved",
   "theorems": [
    "C124_program",
    "C124_positions",
    "C124_blank",
    "C124_take",
    "C124_read_refuted",
    "C124_assign_refuted"
   ],
   "note": "Model Mix*, on top of Filt*: C124_program is for programs with a meaning; C124_positions says that, with elements kept in place, programs that do not read are undefined exactly if they have none; C124_blank and C124_take are what happens to reads without a meaning; C124_read_refuted and C124_assign_refuted are the expectations that fail."
  },
  {
   "property": "C125",
   "status": "proved",
   "theorems": [
    "C125_goes_on",
    "C125_program",
    "C125_assigned",
    "C125_stale",
    "C125_blank",
    "C125_end_refuted",
    "C125_rejected_refuted"
   ],
   "note": "Model Loose*, on top of Filt* and Free*: C125_goes_on, C125_program and C125_assigned for the iterators short of their end, C125_blank and C125_stale for those without an element of their own; C125_end_refuted and C125_rejected_refuted are the expectations that fail."
  }
 ]
}
