{
 "C01": {
  "note": "Keys are integers (arithmetic keys embed order-preservingly); keys below lowest() are excluded, C01_key_below_lowest_refuted shows why."
 },
 "C02": {
  "note": ""
 },
 "C43": {
  "note": "Start is sent once by the framework; C43_start_after_stop_refuted shows that C43_stopped_for_good needs its proviso about pending senders."
 },
 "C45": {
  "note": "Stated at the first close of the mailbox; three _refuted theorems show where the unrestricted expectation fails."
 },
 "C49": {
  "note": "C49_early_timeout_refuted: a helper stopped before it was started never sets the future."
 },
 "C53": {
  "note": "The safe discipline is proved sufficient; C53_late_sender_refuted shows the code does not enforce it."
 },
 "C05": {
  "note": "Strings that are a proper prefix of the protocol are read out of bounds; exactly those (C05_out_of_bounds_exactly_on_proper_prefixes)."
 },
 "C47": {
  "note": "Two _refuted theorems cover the zero-thread pool and the null logger."
 },
 "C48": {
  "note": "Equal due times run in reverse submission order (C48_equal_times_fifo_refuted); a forced stop drops tasks."
 },
 "C50": {
  "note": "Distinct up to 2^64 calls; C50_counter_wraps_refuted beyond."
 },
 "C51": {
  "note": "The positive theorem characterises the lookup exactly; the user's expectation is refuted."
 },
 "C44": {
  "note": "Two _refuted theorems: failing pre_start, and stop before attach, make the shutdown hang. Handlers are atomic here; C91 lifts that."
 },
 "C52": {
  "note": "Tree assumed unchanged during the search. Two _refuted theorems: twins, foreign system name."
 },
 "C29": {
  "note": "Proved for configs without duplicate keys and paths with no array on the way (which throws, proved). C29_with_value_multimap_refuted and C29_with_value_root_refuted show that both restrictions are needed."
 },
 "C30": {
  "note": "Proved when the path leads through objects only; C30_without_path_scalar_refuted shows a scalar on the way is replaced by a null config."
 },
 "C33": {
  "note": "Proved for configs without multimaps and with plain keys. Refuted theorems show what happens otherwise: separator keys dropped or throwing, multimap keys duplicated, null entries throwing."
 },
 "C34": {
  "note": "Associativity proved under the no-conflict condition; C34_associative_refuted shows it fails without. The flip law is contained in C33, whose theorems cover both priorities."
 },
 "C38": {
  "note": "C38_find_nested_refuted: find of a nested path denotes an unrelated top-level entry."
 },
 "C06": {
  "note": "Programs run on an explicit memory of blocks and cells in which every misuse is a distinct outcome Bad. size_t arithmetic is unbounded except for the growth threshold."
 },
 "C07": {
  "note": "The state invariant is proved for adaptive programs (reach). C07_insert_out_of_memory_refuted: prepare_insert_ initialises valid_count to 0 and raw_vector::prepare_insert allocates before updating it, so bad_alloc makes the vector forget live elements."
 },
 "C08": {
  "note": "Two universal theorems settle push_back both ways; witnesses for the unrestricted expectation are the _refuted theorems."
 },
 "C09": {
  "note": "Cost counts element constructions and allocations (tick of the memory)."
 },
 "C36": {
  "note": "strtoll and std::to_string are modelled from their C standard description (C locale, 64-bit long long). Refutations: blank strings, overflow saturation, leading zero."
 },
 "C37": {
  "note": "tolower/isspace are those of the C locale."
 },
 "C25": {
  "note": "Widths are arbitrary (at least 2 bits); bool is included."
 },
 "C54": {
  "note": "Doubles are left abstract parameters of the value model."
 },
 "C55": {
  "note": "C55_text_boolean is an equivalence, so the disagreement for all other integers is part of it."
 },
 "C10": {
  "note": "Proved for vector_nd, array_nd and the samplers' Horner scheme, whenever the block fits the address space."
 },
 "C12": {
  "note": "Proved for element strides; byte strides proved when each stride leaves room for the dimension below, refuted (C12_byte_strides_refuted) for strides that only pass the constructor's check, which compares elements with bytes."
 },
 "C13": {
  "note": "Proved for element strides (views and proxies), vectors, and byte strides that leave room; refuted for byte strides that only pass the constructor's check."
 },
 "C14": {
  "note": "Proved; negative differences are proved wrong for every slice size of at least 2 bytes (unsigned division), with C14_negative_difference_refuted as witness."
 },
 "C26": {
  "note": "Proved for indices representable in the sampler's index type; C26_wide_index_refuted records the deviation for wider ones. C26_own_dimension is about arbitrary samplers."
 },
 "C56": {
  "note": "Proved."
 },
 "C11": {
  "note": "Model of the multidimensional vector_nd_impl over the raw_vector model of C06-C09. Refuted outside the regime: slices without elements are not counted (C11_empty_slices_refuted), insert/erase of nothing return an iterator to a wrong slice, erase(first,last) of a default constructed vector divides by zero, an insertion that runs out of memory forgets its elements."
 },
 "C15": {
  "note": "Any pipeline, predicate and walk. Refuted for the caching policy with heap-stored or non-trivial in-place elements: never works for any sequence."
 },
 "C16": {
  "note": "n-ary zip. Different lengths: not stopping at the shorter range is proved for every pipeline, reading past the end for every pair of containers."
 },
 "C17": {
  "note": "Deep embedding of pipelines; induction over all expressions. Refuted outside the regime: reversed numeric ranges (dangling reference), numeric ranges with first > last, distance of int ranges wider than INT_MAX."
 },
 "C18": {
  "note": "Count 0 is not covered. C18_overflow_refuted shows the missing overflow check."
 },
 "C19": {
  "note": "The nearest lookup is wrong for tables that do not start at 0 (C19_any_range_refuted, C19_negative_never_works). Floating-point argument tables are not modelled."
 },
 "C20": {
  "note": "C20_negative_samples_refuted, C20_large_samples_refuted, C20_negative_start_refuted delimit the regime. Floating-point tables are not modelled."
 },
 "C21": {
  "note": "Refuted without the restrictions: full.swap(empty) empties both; emplace from own value reads a destroyed object; optional<bool> copied from a non-const lvalue holds whether the source is full."
 },
 "C22": {
  "note": "Refuted: moved-from objects leak, moved-from variants cannot be assigned to, self-move assignment loses the value."
 },
 "C23": {
  "note": "Histories over arbitrary anys with throwing copies; nesting by the template constructor modelled. Refuted for copies of non-const lvalues and self-move."
 },
 "C27": {
  "note": "Simulation theorems for dynamic_array (blocks, places, allocators) and both storage variants, with the failing regimes as _refuted theorems. assign(size, init list) of dynamic_array not modelled."
 },
 "C24": {
  "note": "Refuted expectations: a cleared atomic attribute can be set again; re-registering with another type leaves the attribute alone; set_attribute asks the validator; an lvalue any is stored as its content."
 },
 "C57": {
  "note": "C57_insert_into_last_place_refuted, C57_insert_outside_refuted, C57_erase_refuted and C57_own_element_refuted show the unrestricted claim false."
 },
 "C58": {
  "note": "C58_reverse_empty_refuted, C58_merge_empty_refuted, C58_sort_two_voids_refuted and C58_sort_stable_refuted show the limits."
 },
 "C59": {
  "note": "C59_first_default_refuted and C59_type_is_enough_refuted show two expectations that fail."
 },
 "C60": {
  "note": "Parsing itself is third-party and not modelled. Refuted for an xml document without a root element (key lookup dereferences null) and, as for distinct keys of a non-multi map, for yaml maps with non-scalar keys."
 },
 "C61": {
  "note": "dump and parse of nlohmann::json are modelled by what they do to the tree (reparse_json). Refuted beyond the regime: nested order is lost by default under an array or plain map, non-finite reals become null, invalid UTF-8 throws, repeated keys of a multimap are dropped, unsigned numbers beyond int64 wrap."
 },
 "C62": {
  "note": "Printing and parsing by tinyxml2 are modelled by what they do to the tree (reparse_xml). Refuted beyond the regime: arrays come back as maps with equal keys, blank text as empty configuration, NUL cuts a string, CR becomes LF, a bool as string is true instead of 1."
 },
 "C63": {
  "note": "Emitting and loading by yaml-cpp are taken to give back the same nodes. Refuted: repeated keys (json keeps the first, yaml the last, xml all), null in an array becomes an empty map."
 },
 "C64": {
  "note": "Lines are those inih reports. Refuted: a value outside of sections is hidden from key lookup by a section of the same name."
 },
 "C65": {
  "note": "float and long double not modelled (the converter of long double returns a reference to a temporary). Refuted: elements keep their position; an empty optional inside an optional can be stored."
 },
 "C66": {
  "note": "Refuted: an optional element that cannot be read is empty."
 },
 "C67": {
  "note": "TCLAP is a parameter. C67_bad_text_refuted: unreadable text is silently no value."
 },
 "C68": {
  "note": "TCLAP is a parameter. C68_second_use_refuted: an alternative can be dispatched once only."
 },
 "C69": {
  "note": "C69_limit_refuted, C69_thread_after_close_refuted: the two expectations that fail. C69_no_slot_no_progress is the general form of the first."
 },
 "C70": {
  "note": "Time is abstracted: a check may find the time over or not."
 },
 "C71": {
  "note": "The kernel's side (how much is available, how a wait ends, how much a send takes) is chosen by the environment. Refuted: whole writes on a full socket, early writes, spurious wake-ups."
 },
 "C72": {
  "note": "Refuted: safety of a completion between the destruction of the receiver and that of the socket."
 },
 "C73": {
  "note": "Refuted: the error path of resolve, bound means listening, every command is answered."
 },
 "C74": {
  "note": "vsnprintf and snprintf are taken as the standard defines them; encoding errors are left out. Refuted: every message ends with a newline (zero in the text)."
 },
 "C75": {
  "note": "Refuted: the member function list, recovery after bad_alloc, type check of as_ptr."
 },
 "C76": {
  "note": "Refuted: self move assignment keeps the value."
 },
 "C77": {
  "note": "The configuration is the object after parsing (C60-C64 cover the formats). Refuted: numbers that do not fit are rejected; unreadable numbers are rejected; the converter's error is reported."
 },
 "C78": {
  "note": "Refuted: the unrestricted claim for repeated moves and for move assignment (C78_twice_refuted, C78_assign_refuted, C78_lost_refuted)."
 },
 "C79": {
  "note": "Refuted: one order of calls for transform, extra rvalue arguments equal for each element."
 },
 "C80": {
  "note": "Refuted: at most one construction with racing first uses."
 },
 "C81": {
  "note": "Conversion sequences are an abstract total preorder of ranks. Refuted: the first fitting case is called."
 },
 "C82": {
  "note": "Types are numbers; floating point wider types are left out. Refuted: there is always a wider type."
 },
 "C83": {
  "note": "Refuted: a listener asked to stop stops (C83_stops_refuted), a connection that is accepted is announced (C83_refused_silently_refuted), each remote ends by itself (C83_same_port_refuted)."
 },
 "C84": {
  "note": "Refuted: concurrent clear (C84_clear_refuted, C84_default_refuted), copies as snapshots (C84_snapshot_refuted). Sequential behaviour is C24. Memory order seq_cst."
 },
 "C85": {
  "note": "Cascades are finite trees of messages; handlers do not throw out of a task (C47); parents and children are C44. Refuted: progress with all threads blocked (C85_all_blocked_refuted)."
 },
 "C86": {
  "note": "Refuted: an optional given a pointer is full (C86_given_is_full_refuted, documented); emplacing the own pointer (C86_emplace_own_value_refuted)."
 },
 "C87": {
  "note": "dynamic_cast is a parameter. Refuted: C87_any_ptr_to_const_refuted, C87_not_null_release_refuted, C87_not_null_smart_refuted, C87_instance_of_copy_refuted."
 },
 "C88": {
  "note": "Member types are described by name, emptiness, finality and initial value. Refuted: C88_same_default_refuted, C88_rvalue_refuted."
 },
 "C89": {
  "note": "Refuted: a debug build runs every legal program (C89_debug_stops_legal_refuted, seven calls). Allocations do not fail during insertions, as in C08."
 },
 "C90": {
  "note": "Refuted: C90_assign_nothing_refuted, C90_push_empty_slice_refuted. Allocations do not fail during insertions; legality as in C11."
 },
 "C91": {
  "note": "Refuted: C91_timers_after_shutdown_refuted (shutdown() returns while the user guardian is still open and the timers run), C91_failed_start_hangs_refuted. The proof is a simulation with the tree of C44, whose handlers are atomic."
 },
 "C92": {
  "note": "Refuted: C92_debug_agrees_refuted (it + (-1) of a config iterator is undefined in a debug build: max() - d overflows), C92_subscript_refuted (it[d] of numeric_iterator returns a reference into a destroyed temporary), C92_unsigned_gap_refuted (uint32_t iterators)."
 },
 "C93": {
  "note": "Refuted: C93_optional_self_refuted and C93_variant_self_refuted (self-assignment is right in release builds and stops debug builds), C93_source_unchecked_refuted (copying a variant that was moved from is undefined in debug builds too)."
 },
 "C94": {
  "note": "C94_rule is the general proof rule, C94_right_answer, C94_answered and C94_settles the network. Refuted: C94_plain_forward_refuted (forward(any&, ...) wraps the message in a second any; C94_plain_forward_lost: no such question is ever answered), C94_move_only_answer_refuted (asking_actor copies the answer into the promise)."
 },
 "C95": {
  "note": "C95_value is the simulation of whole programs, C95_paths the agreement of the ways to an element, C95_order the traversals."
 },
 "C96": {
  "note": "Proved for all inputs; the expectation that row iterators work with the algorithms their tag promises is refuted: C96_rows_copied_refuted, C96_swap_stops_refuted. The algorithms are modelled from their definition in the C++ standard, over a record of what the iterators do."
 },
 "C97": {
  "note": "Model Dview*, on top of Nd*, with assertions switched by a flag, so the release build is the same text. C97_no_check_refuted, C97_byte_strides_refuted, C97_wrapped_shape_refuted: what the assertions miss. C97_view_of_plane_refuted: an assertion that stops a right program, since a view compares its size with the bytes up to the next plane."
 },
 "C98": {
  "note": "Model Own*. C98_element, C98_boundary, C98_moved_outside and C98_at are about samplers that note down their calls; C98_every_kind is about all samplers; C98_compiles, C98_ops_answer and C98_arrays say which calls exist. The five deviations each have a _refuted theorem."
 },
 "C99": {
  "note": "Model Triv*, the functions of VecModel over the specialisations for trivial types; a simulation from VecModel carries C06 over. The wrong element inserted by insert(pos, v[k]) is C99_insert_own_element, with the witness C99_insert_own_element_refuted."
 },
 "C100": {
  "note": "Model TrivNd*, the functions of NdVecModel over TrivModel's raw_vector; a simulation carries C11 over, and the leak of C11_insert_out_of_memory_refuted disappears. C100_insert_own_slice_refuted: inserting v[2] in front inserts v[1], inserting v[0] in front is undefined although there is room."
 },
 "C101": {
  "note": "Model Dact*: MailboxModel with its waiting senders kept apart, FlowModel with the assertions of the handlers. C101_create_then_tell_refuted: creating an actor and telling it something can fail the assertion after start was sent; C101_pinned_refuted, C101_detach_twice_refuted and C101_root_message_refuted show the other failures."
 },
 "C102": {
  "note": "Model Self*. C102_become_in_constructor_refuted, C102_constructor_calls_refuted, C102_throwing_constructor_refuted, C102_sender_in_hook_refuted, C102_log_in_destructor_refuted and C102_behaviours_are_not_owned_refuted show what goes wrong without the conditions."
 },
 "C103": {
  "note": "Model Make*. C103_range_length_checked_refuted, C103_large_sizes_refused_refuted, C103_reshape_keeps_volume_refuted, C103_large_lists_refused_refuted, C103_irregular_lists_refused_refuted, C103_size_range_checked_refuted and C103_conversion_moves_refuted show the unrestricted expectations that fail."
 },
 "C104": {
  "note": "Model Nest*. Overload resolution between the constructors is part of the model. C104_variables_follow_refuted, C104_some_never_empty_refuted, C104_any_variable_refuted, C104_map_laws_refuted, C104_filter_refuted, C104_assignments_compile_refuted, C104_get_opt_refuted and C104_to_std_refuted show the unrestricted expectations that fail. Assignments are proved to agree with constructions when they compile, and to compile when a number is at the bottom."
 },
 "C105": {
  "note": "Model Twin* on top of Flow*. The two regimes (reuse after the cell is gone; reuse after the mailbox is closed, with C91's assumptions) are simulated by FlowModel, so C91 carries over. C105_living_twin_destroyed_refuted, C105_living_subtree_destroyed_refuted, C105_twins_hang_refuted, C105_reuse_after_post_stop_refuted, C105_watcher_twin_refuted and C105_unwatch_twin_refuted show what happens outside them."
 },
 "C106": {
  "note": "Model Cast*. C106_calls gives for every call in every reachable state: undefined iff not allowed, and the exact result and effect. Six _refuted theorems: C106_cast_to_reference_refuted, C106_const_object_refuted, C106_const_default_refuted, C106_temporary_default_refuted, C106_cast_moves_refuted, C106_self_assignment_refuted. Allocation failure is in C23."
 },
 "C107": {
  "note": "Model Vacc* on top of Var* (C22), same storage and invariant. C107_get_or_moves_refuted, C107_get_or_throws_refuted, C107_equality_refuted and C107_moved_from_is_true_refuted record the expectations that fail."
 },
 "C108": {
  "note": "Model Vdbg* over View* (C57), with iterators as places of the array. C108_confined_refuted and C108_release_unchecked_refuted record the expectations that fail."
 },
 "C109": {
  "note": "Model Dconf* over Config*. C109_builds_agree_refuted records the expectation that fails: with_value of a path without names, without_path through a scalar, clone of a config with a null config inside."
 },
 "C110": {
  "note": "Model Dims* over the integer arithmetic of Iter*. C110_total_is_product_refuted (extents 0, 65536, 65536 of int), C110_beyond_refuted and C110_equal_transitive_refuted record the expectations that fail."
 },
 "C111": {
  "note": "Model Text*. C111_streams_alike_refuted (a pipe: ini reads an empty text where json reads all) and C111_strings_alike_refuted record the expectations that fail."
 },
 "C112": {
  "note": "Model Text* with the serializer of nlohmann::json. C112_default_refuted (indent 0 puts newlines into the string and none into the stream) and C112_fill_refuted record the expectations that fail."
 },
 "C113": {
  "note": "Model Alike*, the tree of Tree* with names. C113_equal_names_refuted: a listener at an address and a connection to it have one name; the end of the connection destroys the listener, and the shutdown hangs."
 },
 "C114": {
  "note": "Model Last*: owners of the context, of connections and of mailboxes, for all interleavings. C114_self_join_refuted, C114_dead_system_refuted and C114_dead_socket_refuted are executions of a shutdown during an accept; C114_safe is the regime without faults, C114_can_end shows that an orderly end exists."
 },
 "C115": {
  "note": "Model Port*: the sockets from the construction of the connection to its destruction, with the manager's system messages. C115_port_zero_refuted, C115_bound_refuted, C115_host_refuted and C115_host_name_refuted are the expectations that fail. In C115_reply from_string and to_string of asio are functions assumed to be inverse."
 },
 "C116": {
  "note": "Model Dial*: the children of the manager from the command to their destruction. C116_same_server_refuted, C116_own_server_refuted, C116_bound_refuted and C116_unknown_host_refuted are the expectations that fail; C116_twins is the general form of the first two. That the address of a child is used again only when the child is gone is a hypothesis of C116_running_stays, C116_settles and C116_rest only."
 },
 "C117": {
  "note": "Model Ddyn* on top of Dyn* (C27): the same memory, with failing assertions as a third outcome. C117_release_refuted, C117_failed_allocation_refuted and C117_failed_constructor_refuted are the expectations that fail."
 },
 "C118": {
  "note": "Model Darr* on top of Arr* (C95). The assertions of views made of an array are C97's and left out here: views, iterators and data() are used inside the arrays only. C118_unnoticed_refuted and C118_order_refuted are the expectations that fail."
 },
 "C119": {
  "note": "Model Curs* on top of Token* (C03). Not modelled: the result of operator++(int), a reference to a local variable. C119_moved_refuted is the expectation that fails."
 },
 "C120": {
  "note": "Model Zip*: iterators of containers are positions; zips of other iterators are C15-C17 (Range*). C120_order_refuted and C120_self_refuted are the expectations that fail."
 },
 "C121": {
  "note": "Model Filt*: iterators of the container are positions; filters of other iterators are C15-C17 (Range*). Not modelled: conversions between iterators of different policies. C121_begin_refuted, C121_write_refuted, C121_stale_refuted and C121_end_refuted are the expectations that fail."
 },
 "C122": {
  "note": "Model Tran*: iterators of the container are positions; transforms of other iterators are C15-C17 (Range*). Functions return values: writing through a function that returns a reference is not modelled. C122_equal_refuted is the expectation that fails."
 },
 "C123": {
  "note": "Model Free*: fuel is explicit and running out of it is a distinct outcome; C123_program, C123_ends and C123_search are for all amounts of it. C123_past_refuted is the expectation that fails."
 },
 "C124": {
  "note": "Model Mix*, on top of Filt*: C124_program is for programs with a meaning; C124_positions says that, with elements kept in place, programs that do not read are undefined exactly if they have none; C124_blank and C124_take are what happens to reads without a meaning; C124_read_refuted and C124_assign_refuted are the expectations that fail."
 },
 "C125": {
  "note": "Model Loose*, on top of Filt* and Free*: C125_goes_on, C125_program and C125_assigned for the iterators short of their end, C125_blank and C125_stale for those without an element of their own; C125_end_refuted and C125_rejected_refuted are the expectations that fail."
 }
}
