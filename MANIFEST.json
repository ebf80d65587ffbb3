{
 "claims": [
  {
   "property": "C01",
   "status": "proved",
   "theorems": [
    "C01_alloc_block_sound",
    "C01_all_blocks_disjoint"
   ],
   "note": ""
  },
  {
   "property": "C02",
   "status": "proved",
   "theorems": [
    "C02_calls_keep_live_bytes",
    "C02_write_changes_one_byte"
   ],
   "note": ""
  },
  {
   "property": "C03",
   "status": "proved",
   "theorems": [
    "C03_accounting",
    "C03_footprint"
   ],
   "note": ""
  },
  {
   "property": "C04",
   "status": "proved",
   "theorems": [
    "C04_empty_heap_is_fresh"
   ],
   "note": ""
  },
  {
   "property": "C05",
   "status": "proved",
   "theorems": [
    "C05_first_fit"
   ],
   "note": ""
  },
  {
   "property": "C06",
   "status": "proved",
   "theorems": [
    "C06_failure_is_clean",
    "C06_callback_count"
   ],
   "note": ""
  },
  {
   "property": "C07",
   "status": "proved",
   "theorems": [
    "C07_low_water_mark"
   ],
   "note": ""
  },
  {
   "property": "C08",
   "status": "proved",
   "theorems": [
    "C08_callocate",
    "C08_callocate_succeeds_iff"
   ],
   "note": ""
  },
  {
   "property": "C09",
   "status": "proved",
   "theorems": [
    "C09_huge_requests_refused"
   ],
   "note": ""
  },
  {
   "property": "C10",
   "status": "proved",
   "theorems": [
    "C10_no_undefined_access_and_termination"
   ],
   "note": ""
  },
  {
   "property": "C11",
   "status": "proved",
   "theorems": [
    "C11_null_free_harmless",
    "C11_early_double_free_harmless"
   ],
   "note": ""
  },
  {
   "property": "C12",
   "status": "proved",
   "theorems": [
    "C12_stale_free_refuted"
   ],
   "note": "Existential finding with a concrete session; the hoped-for general property is false for the code."
  },
  {
   "property": "C13",
   "status": "proved",
   "theorems": [
    "C13_construction",
    "C13_tiny_buffer_refuses_all"
   ],
   "note": ""
  },
  {
   "property": "C14",
   "status": "proved",
   "theorems": [
    "C14_small_size_refuted",
    "C14_exactly_when_unsafe"
   ],
   "note": "C14_exactly_when_unsafe is the characterisation for every placement; the other theorem is a witness."
  },
  {
   "property": "C15",
   "status": "proved",
   "theorems": [
    "C15_counters",
    "C15_counts"
   ],
   "note": ""
  },
  {
   "property": "C16",
   "status": "proved",
   "theorems": [
    "C16_allocator_allocate"
   ],
   "note": ""
  },
  {
   "property": "C17",
   "status": "proved",
   "theorems": [
    "C17_allocator_overflow_refuted",
    "C17_wrapped_success_is_short"
   ],
   "note": "Hoped-for property (success covers n*sizeof(T) bytes for every n) is false for the code; the statement says exactly when."
  },
  {
   "property": "C18",
   "status": "proved",
   "theorems": [
    "C18_allocator_equality_refuted",
    "C18_allocator_equality_is_identity"
   ],
   "note": "Violates the C++ Allocator requirements; the statement says what == decides."
  },
  {
   "property": "C19",
   "status": "proved",
   "theorems": [
    "C19_add_answers",
    "C19_remove_answers",
    "C19_bounded_set",
    "C19_calls_return"
   ],
   "note": ""
  },
  {
   "property": "C20",
   "status": "proved",
   "theorems": [
    "C20_notify_exact"
   ],
   "note": ""
  },
  {
   "property": "C21",
   "status": "proved",
   "theorems": [
    "C21_recursion_refused",
    "C21_calls_end"
   ],
   "note": "Termination theorem assumes disconnect handlers do not clear the observable (clear inside disconnect recurses for ever in the code)."
  },
  {
   "property": "C22",
   "status": "proved",
   "theorems": [
    "C22_clear_disconnects"
   ],
   "note": ""
  },
  {
   "property": "C23",
   "status": "proved",
   "theorems": [
    "C23_never_undefined",
    "C23_only_registered_called"
   ],
   "note": ""
  },
  {
   "property": "C24",
   "status": "proved",
   "theorems": [
    "C24_removal_skips_refuted",
    "C24_removing_self_or_earlier",
    "C24_next_one_is_skipped",
    "C24_removing_later",
    "C24_additions_are_safe"
   ],
   "note": "The hoped-for property for removals is false for the code: C24_removal_skips_refuted is the witness."
  },
  {
   "property": "C25",
   "status": "proved",
   "theorems": [
    "C25_add_answers",
    "C25_remove_answers",
    "C25_add_remove_return",
    "C25_notify_exact",
    "C25_clear_disconnects"
   ],
   "note": ""
  },
  {
   "property": "C26",
   "status": "proved",
   "theorems": [
    "C26_reentry_under_lock",
    "C26_renotify_without_lock",
    "C26_no_change_during_notify"
   ],
   "note": "Exceptions thrown by add/remove are modelled as caught by the caller; relocking std::mutex is modelled as undefined."
  },
  {
   "property": "C27",
   "status": "proved",
   "theorems": [
    "C27_chain_notify"
   ],
   "note": ""
  },
  {
   "property": "C28",
   "status": "proved",
   "theorems": [
    "C28_value_wraps",
    "C28_value_of_calls",
    "C28_conv_is_wrap"
   ],
   "note": "vrun models the seven operators over an arbitrary-width integer type with arbitrary reentrant callbacks; invariant proof"
  },
  {
   "property": "C29",
   "status": "proved",
   "theorems": [
    "C29_observed_mirror",
    "C29_operator_returns"
   ],
   "note": "callbacks of the observeds assumed not to use the observable"
  },
  {
   "property": "C30",
   "status": "proved",
   "theorems": [
    "C30_decrement_and_postfix_refuted"
   ],
   "note": "finding; universal over reachable states"
  },
  {
   "property": "C31",
   "status": "proved",
   "theorems": [
    "C31_undefined_iff_overflow",
    "C31_unsigned_never_undefined",
    "C31_where_it_overflows"
   ],
   "note": "exact characterisation"
  },
  {
   "property": "C32",
   "status": "proved",
   "theorems": [
    "C32_removed_gets_nothing",
    "C32_others_keep_receiving",
    "C32_add_remove_answers",
    "C32_clear_disconnects"
   ],
   "note": "delivery theorems for callbacks not using the observable; answers for arbitrary callbacks"
  },
  {
   "property": "C33",
   "status": "proved",
   "theorems": [
    "C33_dynamic_remove_refuted",
    "C33_remove_last_does_nothing_refuted",
    "C33_removal_never_shrinks",
    "C33_remove_answers"
   ],
   "note": "finding; libstdc++ std::remove modelled element by element"
  },
  {
   "property": "C34",
   "status": "proved",
   "theorems": [
    "C34_no_lost_update"
   ],
   "note": "interleaving of atomic read-modify-write and stores, sequentially consistent; registrations fixed meanwhile"
  },
  {
   "property": "C35",
   "status": "proved",
   "theorems": [
    "C35_convergence_refuted",
    "C35_only_published_values",
    "C35_single_writer_converges"
   ],
   "note": "finding plus what does hold"
  },
  {
   "property": "C36",
   "status": "proved",
   "theorems": [
    "C36_routing",
    "C36_send_returns"
   ],
   "note": "handlers and the manager's data() may send (nested dispatch) and throw, but not construct/destroy modules (C93, C94); hash an arbitrary function"
  },
  {
   "property": "C37",
   "status": "proved",
   "theorems": [
    "C37_payload_integrity",
    "C37_manager_convert"
   ],
   "note": "values through an arbitrary object representation enc/dec"
  },
  {
   "property": "C38",
   "status": "proved",
   "theorems": [
    "C38_manager_send_routing"
   ],
   "note": "as C36 for manager::send"
  },
  {
   "property": "C39",
   "status": "proved",
   "theorems": [
    "C39_safe_below_capacity",
    "C39_ordered_registration"
   ],
   "note": "arbitrary handlers; object lifetimes of senders included"
  },
  {
   "property": "C40",
   "status": "proved",
   "theorems": [
    "C40_full_teardown_refuted"
   ],
   "note": "finding"
  },
  {
   "property": "C41",
   "status": "proved",
   "theorems": [
    "C41_over_registration_refuted"
   ],
   "note": "finding"
  },
  {
   "property": "C42",
   "status": "proved",
   "theorems": [
    "C42_right_size",
    "C42_any_hash"
   ],
   "note": "arbitrary, also colliding, hash"
  },
  {
   "property": "C43",
   "status": "proved",
   "theorems": [
    "C43_exactly_once_in_order",
    "C43_never_undefined",
    "C43_destructor_returns"
   ],
   "note": "Machine with arbitrary producers, worker and destructor; arbitrary schedules. Flag reads atomic (see C45)."
  },
  {
   "property": "C44",
   "status": "proved",
   "theorems": [
    "C44_counts_any_load",
    "C44_each_item_once_refuted",
    "C44_prompt_worker_refuted"
   ],
   "note": "Finding: slots are overwritten and never emptied; witnesses are universal in BufferSize and values."
  },
  {
   "property": "C45",
   "status": "proved",
   "theorems": [
    "C45_value_read_race_free",
    "C45_slots_race_free_refuted"
   ],
   "note": "Finding: optional's engaged flag is read unsynchronised."
  },
  {
   "property": "C46",
   "status": "proved",
   "theorems": [
    "C46_statistics_window",
    "C46_reports_mean",
    "C46_overflow_exact"
   ],
   "note": "Division truncates toward zero; absence of int overflow assumed by the bound."
  },
  {
   "property": "C47",
   "status": "proved",
   "theorems": [
    "C47_least_loaded_queue",
    "C47_default_queue"
   ],
   "note": "On a snapshot of the backlogs."
  },
  {
   "property": "C48",
   "status": "proved",
   "theorems": [
    "C48_pool_exactly_once",
    "C48_pool_never_undefined",
    "C48_pool_destructor_returns",
    "C48_order_across_queues_refuted"
   ],
   "note": "The queue of each push is arbitrary, so min_thread races are covered. The order witness follows min_thread."
  },
  {
   "property": "C49",
   "status": "proved",
   "theorems": [
    "C49_orphan_queues_never_processed",
    "C49_small_pool_refuted",
    "C49_large_pool_refuted"
   ],
   "note": "Finding: pool_ always has eight queues."
  },
  {
   "property": "C50",
   "status": "proved",
   "theorems": [
    "C50_last_occurrence_wins",
    "C50_unnamed_unchanged"
   ],
   "note": "Double conversion is an arbitrary function."
  },
  {
   "property": "C51",
   "status": "proved",
   "theorems": [
    "C51_flag_iff_present"
   ],
   "note": "Value positions are scanned as names too."
  },
  {
   "property": "C52",
   "status": "proved",
   "theorems": [
    "C52_registration_order"
   ],
   "note": ""
  },
  {
   "property": "C53",
   "status": "proved",
   "theorems": [
    "C53_other_options_irrelevant"
   ],
   "note": ""
  },
  {
   "property": "C54",
   "status": "proved",
   "theorems": [
    "C54_int_round_trip",
    "C54_int_clamps",
    "C54_any_numeral",
    "C54_no_number_gives_zero",
    "C54_blank_unchanged"
   ],
   "note": "libstdc++ num_get in the C locale."
  },
  {
   "property": "C55",
   "status": "proved",
   "theorems": [
    "C55_first_word",
    "C55_verbatim_without_space",
    "C55_blank_unchanged",
    "C55_verbatim_refuted"
   ],
   "note": "Finding: arguments with blanks are truncated."
  },
  {
   "property": "C56",
   "status": "proved",
   "theorems": [
    "C56_never_past_argv"
   ],
   "note": "argv pointers are valid C strings; argc is an int."
  },
  {
   "property": "C57",
   "status": "proved",
   "theorems": [
    "C57_swap_reverses_bytes",
    "C57_swap_involutive",
    "C57_swap_fits"
   ],
   "note": "Both endiannesses, widths 2, 4, 8 bytes."
  },
  {
   "property": "C58",
   "status": "proved",
   "theorems": [
    "C58_lsb_get",
    "C58_msb_get",
    "C58_default_is_zero"
   ],
   "note": ""
  },
  {
   "property": "C59",
   "status": "proved",
   "theorems": [
    "C59_little_endian_wire"
   ],
   "note": ""
  },
  {
   "property": "C60",
   "status": "proved",
   "theorems": [
    "C60_host_test_constant",
    "C60_every_host_refuted"
   ],
   "note": "Finding: is_lsb is constant."
  },
  {
   "property": "C61",
   "status": "proved",
   "theorems": [
    "C61_lsb_comparisons",
    "C61_msb_comparisons"
   ],
   "note": ""
  },
  {
   "property": "C62",
   "status": "proved",
   "theorems": [
    "C62_round_trip",
    "C62_reads_exactly",
    "C62_serialize_into"
   ],
   "note": "Trivially copyable types given by an arbitrary layout."
  },
  {
   "property": "C63",
   "status": "proved",
   "theorems": [
    "C63_constructed_packet",
    "C63_rebuilt_packet"
   ],
   "note": "Checksum function and layouts arbitrary."
  },
  {
   "property": "C64",
   "status": "proved",
   "theorems": [
    "C64_valid_iff",
    "C64_corrupt_checksum"
   ],
   "note": "Checksum type without padding."
  },
  {
   "property": "C65",
   "status": "proved",
   "theorems": [
    "C65_static_serialize"
   ],
   "note": ""
  },
  {
   "property": "C66",
   "status": "proved",
   "theorems": [
    "C66_accessor_round_trip",
    "C66_empty_payload"
   ],
   "note": "Non-null data; null data only with an empty payload."
  },
  {
   "property": "C67",
   "status": "proved",
   "theorems": [
    "C67_true_iff_fits"
   ],
   "note": ""
  },
  {
   "property": "C68",
   "status": "proved",
   "theorems": [
    "C68_safe_without_wrap",
    "C68_wrap_refuted",
    "C68_wrapping_counts_exist",
    "C68_wrap_without_data"
   ],
   "note": "Finding: the size computation wraps."
  },
  {
   "property": "C69",
   "status": "proved",
   "theorems": [
    "C69_sized_frames",
    "C69_reads_announced_bytes"
   ],
   "note": "Every storage content."
  },
  {
   "property": "C70",
   "status": "proved",
   "theorems": [
    "C70_bad_size_rejected",
    "C70_out_of_bounds_refuted",
    "C70_phantom_payload_refuted"
   ],
   "note": "Finding, with an exact case split."
  },
  {
   "property": "C71",
   "status": "proved",
   "theorems": [
    "C71_object_inside_storage",
    "C71_refused_only_if_unsafe"
   ],
   "note": "Also: the checks refuse nothing that would be safe."
  },
  {
   "property": "C72",
   "status": "proved",
   "theorems": [
    "C72_lifetimes_balance",
    "C72_copies_independent",
    "C72_moves_touch_two",
    "C72_moves_transfer",
    "C72_failure_builds_nothing",
    "C72_values_left",
    "C72_defined_iff"
   ],
   "note": "T's members are arbitrary, may throw."
  },
  {
   "property": "C73",
   "status": "proved",
   "theorems": [
    "C73_no_call_after_stop",
    "C73_worker_out_of_loop"
   ],
   "note": ""
  },
  {
   "property": "C74",
   "status": "proved",
   "theorems": [
    "C74_check_exact",
    "C74_period_last_set",
    "C74_one_call_per_fired_check",
    "C74_nth_call_not_early",
    "C74_due_check_fires"
   ],
   "note": "Finding included: unit mix in the comparison."
  },
  {
   "property": "C75",
   "status": "proved",
   "theorems": [
    "C75_stop_returns",
    "C75_stop_is_bounded"
   ],
   "note": "Stops in turn; overlapping stops can hang, C84."
  },
  {
   "property": "C76",
   "status": "proved",
   "theorems": [
    "C76_stop_in_callback_refuted"
   ],
   "note": "Finding."
  },
  {
   "property": "C77",
   "status": "proved",
   "theorems": [
    "C77_only_unsafe_accesses",
    "C77_notify_after_destruction_refuted",
    "C77_period_read_uninitialised_refuted"
   ],
   "note": "Finding with exact characterisation."
  },
  {
   "property": "C78",
   "status": "proved",
   "theorems": [
    "C78_recency_list",
    "C78_put_moves_to_front",
    "C78_size_zero"
   ],
   "note": "Time of put is a parameter."
  },
  {
   "property": "C79",
   "status": "proved",
   "theorems": [
    "C79_table_never_shrinks_refuted",
    "C79_table_unbounded_refuted",
    "C79_evicted_key_refused_refuted",
    "C79_eviction_permanent_refuted"
   ],
   "note": "Finding."
  },
  {
   "property": "C80",
   "status": "proved",
   "theorems": [
    "C80_first_value_sticks_refuted",
    "C80_put_keeps_old_value_refuted"
   ],
   "note": "Finding."
  },
  {
   "property": "C81",
   "status": "proved",
   "theorems": [
    "C81_get_exact_refuted",
    "C81_never_a_value_refuted"
   ],
   "note": "Finding; lru::get/put modelled by their evident reading, the template does not compile when instantiated."
  },
  {
   "property": "C82",
   "status": "proved",
   "theorems": [
    "C82_no_check_in_range",
    "C82_no_check_agrees"
   ],
   "note": ""
  },
  {
   "property": "C83",
   "status": "proved",
   "theorems": [
    "C83_write_header",
    "C83_write_fields"
   ],
   "note": ""
  },
  {
   "property": "C84",
   "status": "proved",
   "theorems": [
    "C84_late_clear_hangs_refuted",
    "C84_two_stops_refuted",
    "C84_sequential_stops"
   ],
   "note": "Finding with the sequential case proved safe."
  },
  {
   "property": "C85",
   "status": "proved",
   "theorems": [
    "C85_at_most_one_more_call",
    "C85_stop_before_start"
   ],
   "note": ""
  },
  {
   "property": "C86",
   "status": "proved",
   "theorems": [
    "C86_received_value",
    "C86_received_object"
   ],
   "note": ""
  },
  {
   "property": "C87",
   "status": "proved",
   "theorems": [
    "C87_default_packet",
    "C87_fresh_accessor_refuted"
   ],
   "note": ""
  },
  {
   "property": "C88",
   "status": "proved",
   "theorems": [
    "C88_reentrant_never_undefined",
    "C88_what_is_tame",
    "C88_only_added_are_reached",
    "C88_holds_last_told"
   ],
   "note": ""
  },
  {
   "property": "C89",
   "status": "proved",
   "theorems": [
    "C89_unconditional_reaction_never_ends"
   ],
   "note": ""
  },
  {
   "property": "C90",
   "status": "proved",
   "theorems": [
    "C90_limiter_leaves_stale_copies",
    "C90_limiter_last_is_consistent",
    "C90_cleared_observers_still_called"
   ],
   "note": ""
  },
  {
   "property": "C91",
   "status": "proved",
   "theorems": [
    "C91_dynamic_add",
    "C91_dynamic_operator",
    "C91_dynamic_clear"
   ],
   "note": ""
  },
  {
   "property": "C92",
   "status": "proved",
   "theorems": [
    "C92_defined_without_additions",
    "C92_additions_are_undefined",
    "C92_holds_last_told",
    "C92_removal_during_update",
    "C92_who_is_left_out"
   ],
   "note": ""
  },
  {
   "property": "C93",
   "status": "proved",
   "theorems": [
    "C93_newcomers_receive"
   ],
   "note": "handlers may send, construct and throw"
  },
  {
   "property": "C94",
   "status": "proved",
   "theorems": [
    "C94_destroying_skips",
    "C94_destroyed_sender_refuted"
   ],
   "note": "one destroying handler, the others silent; C94_destroyed_sender_refuted is the undefined case"
  },
  {
   "property": "C95",
   "status": "proved",
   "theorems": [
    "C95_exception_stops",
    "C95_only_handlers_throw"
   ],
   "note": "result MExc of the model"
  },
  {
   "property": "C96",
   "status": "proved",
   "theorems": [
    "C96_callback_acts_afterwards",
    "C96_quiet_callback_returns",
    "C96_retry_never_returns"
   ],
   "note": "callbacks run inside the failing call; replacing the callback from inside it is excluded"
  },
  {
   "property": "C97",
   "status": "proved",
   "theorems": [
    "C97_alone",
    "C97_two_threads_refuted"
   ],
   "note": "violated by the code; the interleaving is coarser than the code's own steps"
  },
  {
   "property": "C98",
   "status": "proved",
   "theorems": [
    "C98_statistics",
    "C98_largest_decides",
    "C98_no_block_smallest"
   ],
   "note": "the function names heapPROTECT_BLOCK_POINTER, which is declared nowhere; evident reading"
  },
  {
   "property": "C99",
   "status": "proved",
   "theorems": [
    "C99_chain_in_order",
    "C99_chain_never_undefined",
    "C99_chain_destructors_return",
    "C99_back_to_front_refuted"
   ],
   "note": "In-order part needs at most BufferSize items in all (C44: more can be lost); the other two parts hold at any load."
  },
  {
   "property": "C100",
   "status": "proved",
   "theorems": [
    "C100_setters_race_refuted",
    "C100_setters_safe_after_stop"
   ],
   "note": "A setter call is modelled as possible whenever the object exists; a race is a read the worker is about to make at that moment, unordered with the write."
  },
  {
   "property": "C101",
   "status": "proved",
   "theorems": [
    "C101_any_allocator",
    "C101_each_heap_by_itself",
    "C101_bytes_kept",
    "C101_deallocate_interchangeable"
   ],
   "note": ""
  },
  {
   "property": "C102",
   "status": "proved",
   "theorems": [
    "C102_one_at_a_time",
    "C102_every_call_once",
    "C102_no_deadlock",
    "C102_all_finish",
    "C102_calling_back_undefined",
    "C102_two_way_deadlock_refuted"
   ],
   "note": "Refinement of the interleaved execution to a sequence of atomic calls per observable; deadlock freedom by the lock of lowest rank; termination by a lexicographic measure, for every fair scheduler. The deadlock and the undefined call-back are findings."
  },
  {
   "property": "C103",
   "status": "proved",
   "theorems": [
    "C103_copy_answers_like_original",
    "C103_copy_lives_in_the_original",
    "C103_same_block_twice",
    "C103_fresh_copies_collide",
    "C103_second_release_ignored"
   ],
   "note": "Finding. The implicit copy constructor: members copied one by one, pointers included. Equality of answers by a simulation between the two objects; the heap invariant was generalised to list heads anywhere outside the buffer. Copy assignment does the same to the members and is not modelled separately."
  },
  {
   "property": "C104",
   "status": "proved",
   "theorems": [
    "C104_answers",
    "C104_copy_delivers",
    "C104_copy_destroyed",
    "C104_assigned",
    "C104_copied_while_notifying",
    "C104_destroyed_by_callback_refuted",
    "C104_assigned_by_callback_refuted"
   ],
   "note": "Finding in part: the implicit copy operations copy the pointers and the flag. Invariant tying each object's slots, count and flag to the log; two undefined uses by callbacks stated as theorems for every state they apply to."
  },
  {
   "property": "C105",
   "status": "proved",
   "theorems": [
    "C105_defined",
    "C105_ends",
    "C105_open_between_calls",
    "C105_forwarding_reaches_all"
   ],
   "note": "Definedness and termination by one argument over the callback interpreter (slots once filled stay filled; measure: open observables); reachability by the last visit to the notifying observable on a path."
  },
  {
   "property": "C106",
   "status": "proved",
   "theorems": [
    "C106_when_undefined",
    "C106_observable_first_refuted",
    "C106_observers_first",
    "C106_careful",
    "C106_careful_ends"
   ],
   "note": "Finding in part: the declaration order observable-then-observers is undefined at the end of the scope. The discipline by an invariant on the first count slots (they hold existing observers only), kept by add and remove also beyond the count."
  },
  {
   "property": "C107",
   "status": "proved",
   "theorems": [
    "C107_never_undefined",
    "C107_observers_apart",
    "C107_settles",
    "C107_mirrors"
   ],
   "note": "exact outcome of any update that returns, for every dependency graph; C108 says when it returns"
  },
  {
   "property": "C108",
   "status": "proved",
   "theorems": [
    "C108_returns_iff_acyclic",
    "C108_once_per_way",
    "C108_glitch"
   ],
   "note": "findings: no glitch freedom, no protection against cycles; both characterised exactly"
  },
  {
   "property": "C109",
   "status": "proved",
   "theorems": [
    "C109_undefined_means",
    "C109_only_live_handlers",
    "C109_defined_exactly",
    "C109_lifetimes_exactly",
    "C109_no_dangling",
    "C109_manager_first",
    "C109_redirected"
   ],
   "note": "findings: managers must outlive modules, public mediator_; exact list of reasons for undefined behaviour"
  },
  {
   "property": "C110",
   "status": "proved",
   "theorems": [
    "C110_message",
    "C110_manager_message",
    "C110_copies_never_hear",
    "C110_ending_a_copy",
    "C110_copy_speaks"
   ],
   "note": "copies of modules are never registered"
  },
  {
   "property": "C111",
   "status": "proved",
   "theorems": [
    "C111_copy_keeps_its_list",
    "C111_copy_dangles",
    "C111_assigned"
   ],
   "note": "finding: a copied manager keeps pointers to modules that do not know it"
  },
  {
   "property": "C112",
   "status": "proved",
   "theorems": [
    "C112_stage_progress",
    "C112_catches_up",
    "C112_any_load",
    "C112_stalled_push_blocks",
    "C112_pool_progress"
   ],
   "note": ""
  },
  {
   "property": "C113",
   "status": "proved",
   "theorems": [
    "C113_undefined_means",
    "C113_goes_on",
    "C113_only_live",
    "C113_listed_once",
    "C113_orderly",
    "C113_idle_exactly",
    "C113_observable_ends_first"
   ],
   "note": "by a book of what exists and is listed, computed from the events alone, to which every run is compared"
  },
  {
   "property": "C114",
   "status": "proved",
   "theorems": [
    "C114_ended_while_listed",
    "C114_vector_removed_then_ended_refuted",
    "C114_array_removed_then_ended",
    "C114_same_address_refuted",
    "C114_removed_in_callback_refuted",
    "C114_ends_in_callback_refuted"
   ],
   "note": "findings, for all states of the described kind; the bounded remove-then-end case holds"
  },
  {
   "property": "C115",
   "status": "proved",
   "theorems": [
    "C115_never_undefined",
    "C115_calls",
    "C115_sent_in_order",
    "C115_queues_in_order",
    "C115_one_feeder_in_order",
    "C115_exactly_once",
    "C115_destructors_return",
    "C115_pool_feeds_itself_refuted",
    "C115_cycle_refuted"
   ],
   "note": "networks of stages and pools of any shape; findings: a pool feeding itself can lose items, stages in a cycle cannot be destroyed safely"
  },
  {
   "property": "C116",
   "status": "proved",
   "theorems": [
    "C116_calls_told",
    "C116_backlog",
    "C116_time",
    "C116_undefined_only",
    "C116_never_undefined"
   ],
   "note": "machine with read-by-read search and statistics, arbitrary clock"
  },
  {
   "property": "C117",
   "status": "proved",
   "theorems": [
    "C117_one_pusher",
    "C117_together_refuted",
    "C117_wrapped_refuted"
   ],
   "note": "finding: concurrent pushes can all take one queue; tail - head can wrap"
  },
  {
   "property": "C118",
   "status": "proved",
   "theorems": [
    "C118_reports",
    "C118_during_call",
    "C118_outside_race_refuted",
    "C118_inside_no_race"
   ],
   "note": "finding: the statistics are read without synchronisation outside the function"
  },
  {
   "property": "C119",
   "status": "proved",
   "theorems": [
    "C119_no_call_after_stop",
    "C119_calls_finished",
    "C119_stops_return",
    "C119_circle_refuted",
    "C119_two_stops_refuted"
   ],
   "note": "findings: circles of stop() and two stops of one timer can hang for ever"
  },
  {
   "property": "C120",
   "status": "proved",
   "theorems": [
    "C120_only_the_blocks_matter",
    "C120_allocate_then_free"
   ],
   "note": "the free list is a function of the held blocks"
  },
  {
   "property": "C121",
   "status": "proved",
   "theorems": [
    "C121_freeing_helps",
    "C121_fewer_or_smaller",
    "C121_enough_is_enough",
    "C121_half_free_refuted"
   ],
   "note": "finding: half of the heap can be free in pieces too small to use"
  },
  {
   "property": "C122",
   "status": "proved",
   "theorems": [
    "C122_whole_or_none",
    "C122_in_order",
    "C122_wait_free",
    "C122_rejected_for_another",
    "C122_as_before",
    "C122_both_deliver_refuted"
   ],
   "note": "access-by-access machine of threads; finding: the recursion flag is no lock"
  },
  {
   "property": "C123",
   "status": "proved",
   "theorems": [
    "C123_alone",
    "C123_lost_add_refuted",
    "C123_overflow_refuted",
    "C123_late_call_refuted",
    "C123_missed_refuted",
    "C123_races"
   ],
   "note": "finding: registrations are lost or written behind the array; calls after removal"
  },
  {
   "property": "C124",
   "status": "proved",
   "theorems": [
    "C124_exact_pool",
    "C124_lowest_place",
    "C124_in_places",
    "C124_half_is_sure",
    "C124_small_half_lost_refuted"
   ],
   "note": "The exact pool holds for n > 16; for n <= 16 the hoped-for pool property is false for the code, with a tight bound (one half)."
  },
  {
   "property": "C125",
   "status": "proved",
   "theorems": [
    "C125_larger_keeps_more",
    "C125_refused_by_larger",
    "C125_fewer_refusals",
    "C125_enough",
    "C125_recent_keys_stay"
   ],
   "note": ""
  },
  {
   "property": "C126",
   "status": "proved",
   "theorems": [
    "C126_delivered",
    "C126_wait_free",
    "C126_no_race",
    "C126_one_order_refuted",
    "C126_one_at_a_time_refuted"
   ],
   "note": "access-by-access machine; findings: no common order of messages, handlers run in several threads at once"
  },
  {
   "property": "C127",
   "status": "proved",
   "theorems": [
    "C127_turns",
    "C127_lost_refuted",
    "C127_too_early_refuted",
    "C127_too_late_refuted",
    "C127_left_out_refuted",
    "C127_twice_refuted",
    "C127_own_message_refuted",
    "C127_races_refuted"
   ],
   "note": "findings: lost registrations, pure virtual calls, messages left out, doubled, or returned to their sender"
  },
  {
   "property": "C128",
   "status": "proved",
   "theorems": [
    "C128_up_to_eight",
    "C128_sixteen",
    "C128_sixteen_held",
    "C128_sixteen_mixed_refuted",
    "C128_more_refuted"
   ],
   "note": "finding: alignments above 8 are not provided for; blocks on a grid of 16 by the first-fit specification"
  },
  {
   "property": "C129",
   "status": "proved",
   "theorems": [
    "C129_ends_at_first_throw",
    "C129_notify",
    "C129_clear"
   ],
   "note": "finding: any exception of a callback ends the program; otherwise agreement with ObserverModel"
  },
  {
   "property": "C130",
   "status": "proved",
   "theorems": [
    "C130_exceptions",
    "C130_still_usable",
    "C130_clear",
    "C130_clear_again",
    "C130_destructor",
    "C130_notify"
   ],
   "note": "finding: a throwing disconnect() makes the list impossible to clear"
  },
  {
   "property": "C131",
   "status": "proved",
   "theorems": [
    "C131_narrow",
    "C131_wide",
    "C131_double"
   ],
   "note": "finding: 64-bit operands outside int are applied wrongly"
  },
  {
   "property": "C132",
   "status": "proved",
   "theorems": [
    "C132_publish",
    "C132_exact",
    "C132_decrement",
    "C132_counter",
    "C132_threads",
    "C132_order",
    "C132_fraction",
    "C132_nan"
   ],
   "note": "IEEE arithmetic is the standard library's SpecFloat; no axioms (primitive floats are not used)"
  },
  {
   "property": "C133",
   "status": "proved",
   "theorems": [
    "C133_defined",
    "C133_vectors_are_lists",
    "C133_others_kept",
    "C133_bad_alloc",
    "C133_in_use",
    "C133_length_error",
    "C133_throw_changes_nothing",
    "C133_elsewhere",
    "C133_stays",
    "C133_reserved",
    "C133_no_leak"
   ],
   "note": "std::vector is libstdc++'s, written out in HeapVecModel.v; the heap underneath is HeapModel"
  },
  {
   "property": "C134",
   "status": "proved",
   "theorems": [
    "C134_defined",
    "C134_calls",
    "C134_atomic",
    "C134_each_value_once",
    "C134_counter",
    "C134_value_never_back",
    "C134_order_refuted",
    "C134_overlap_refuted"
   ],
   "note": "finding: functions are called out of order and at the same time"
  },
  {
   "property": "C135",
   "status": "proved",
   "theorems": [
    "C135_in_function",
    "C135_after_return",
    "C135_lag",
    "C135_never_back",
    "C135_two_back_refuted"
   ],
   "note": "single writer; fails with two (C135_two_back_refuted)"
  },
  {
   "property": "C136",
   "status": "proved",
   "theorems": [
    "C136_defined",
    "C136_lists_are_sequences",
    "C136_both_ways",
    "C136_places",
    "C136_erase_next",
    "C136_stays",
    "C136_others_kept",
    "C136_bad_alloc",
    "C136_in_use",
    "C136_throw_changes_nothing",
    "C136_no_leak"
   ],
   "note": "libstdc++ list modelled; splice/merge/swap/move/sort not modelled"
  },
  {
   "property": "C137",
   "status": "proved",
   "theorems": [
    "C137_parses_again",
    "C137_nothing_is_reset",
    "C137_same_again",
    "C137_in_pieces"
   ],
   "note": "double conversion is an arbitrary function"
  },
  {
   "property": "C138",
   "status": "proved",
   "theorems": [
    "C138_turns",
    "C138_same_block_twice",
    "C138_freed_block_lost",
    "C138_races"
   ],
   "note": "negative parts are universal in the reachable state and give a schedule; the class has no locking"
  },
  {
   "property": "C139",
   "status": "proved",
   "theorems": [
    "C139_ends_at_throw",
    "C139_update",
    "C139_notify",
    "C139_clear_or_end"
   ],
   "note": "finding: an exception of an observed's function cannot be caught by whoever uses the operator"
  },
  {
   "property": "C140",
   "status": "proved",
   "theorems": [
    "C140_alone",
    "C140_lost_add_refuted",
    "C140_overflow_refuted",
    "C140_told_after_removal_refuted",
    "C140_told_after_clear_refuted",
    "C140_left_behind_refuted",
    "C140_function_taken_refuted",
    "C140_function_replaced_refuted",
    "C140_races"
   ],
   "note": "finding: the atomic values do not make the class usable by several threads; negative parts are universal in the reachable state and give a schedule"
  },
  {
   "property": "C141",
   "status": "proved",
   "theorems": [
    "C141_alone",
    "C141_from_new",
    "C141_lost_add_refuted",
    "C141_freed_array_read_refuted",
    "C141_mixed_iterators_refuted",
    "C141_freed_twice_refuted",
    "C141_told_after_clear_refuted",
    "C141_races"
   ],
   "note": "finding: the dynamic observable cannot be used by several threads; the vector is modelled as in libstdc++; negative parts are universal in the vector's content and give a schedule"
  },
  {
   "property": "C142",
   "status": "proved",
   "theorems": [
    "C142_goes_on",
    "C142_ends",
    "C142_left_normally",
    "C142_lost",
    "C142_no_orderly_end",
    "C142_dies"
   ],
   "note": "finding: a function that throws ends the program; there is no way for a stage's user to catch"
  },
  {
   "property": "C143",
   "status": "proved",
   "theorems": [
    "C143_goes_on",
    "C143_ends",
    "C143_stop_has_not_returned",
    "C143_safe_after_stop",
    "C143_first_call_is_last"
   ],
   "note": "finding: a timer function that throws ends the program; there is no way for the timer's user to catch"
  }
 ]
}