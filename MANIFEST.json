{
 "claims": [
  {
   "property": "C01",
   "status": "proved",
   "theorems": [
    "rbt_multiset",
    "rbt_ins_correct",
    "rbt_del_correct",
    "rbt_any_comparator"
   ],
   "note": "Pointer-level model; all histories, all total-preorder comparators, all memories."
  },
  {
   "property": "C02",
   "status": "proved",
   "theorems": [
    "rbt_balanced"
   ],
   "note": "Longest path visits at most 2*log2(n+1) nodes, for any comparator."
  },
  {
   "property": "C03",
   "status": "proved",
   "theorems": [
    "rbt_find_exact",
    "rbt_find_glb_exact",
    "rbt_find_lub_exact",
    "rbt_min_max_exact",
    "rbn_succ_pred_exact",
    "rbt_traverse_exact"
   ],
   "note": "On every sorted red/black tree in memory, hence (rbt_multiset) on every tree reached by a history."
  },
  {
   "property": "C04",
   "status": "proved",
   "theorems": [
    "rrbt_history",
    "rrbt_ins_correct",
    "rrbt_del_correct",
    "rrbt_copy",
    "rrbt_find_exact",
    "rrbt_find_glb_lub_exact",
    "rrbt_min_max_exact",
    "rrbn_succ_pred_exact",
    "rrbt_traverse_exact",
    "rrbt_verify_accepts",
    "rrbt_balanced",
    "rrbt_relocatable"
   ],
   "note": "Address-level model with 64-bit wrap-around and the 63-bit field; histories with moves at any point; bisimulation at any two bases."
  },
  {
   "property": "C05",
   "status": "partial",
   "theorems": [
    "ovis_heap_partial",
    "ovis_heap_pop_refuted",
    "ovis_heap_remove_refuted"
   ],
   "note": "Full property is false of the code (float_up and sink_down use different tree shapes): refuted twice with witnesses. Proved: conservation/slot coherence for insert/pop/update histories; top minimal for insert-only histories."
  },
  {
   "property": "C06",
   "status": "proved",
   "theorems": [
    "htbl_ins_defined",
    "htbl_del_defined",
    "htbl_find_latest",
    "htbl_iterate_all",
    "htbl_empty_exact",
    "htbl_depth_zero_undefined"
   ],
   "note": "For any hash function, any depth but 0 and a comparison function that is exact; depth 0 divides by zero."
  },
  {
   "property": "C07",
   "status": "proved",
   "theorems": [
    "str_map_is_map",
    "str_map_defined",
    "str_map_free_all",
    "str_map_ids"
   ],
   "note": "For all sessions and texts and sizes but 0."
  },
  {
   "property": "C08",
   "status": "partial",
   "theorems": [
    "idx_is_ordered_map",
    "idx_traverse_sorted",
    "idx_map_laws",
    "idx_defined_partial",
    "idx_delete_never_returns",
    "idx_delete_aborts_refuted",
    "idx_delete_overread_refuted",
    "idx_add_empty_refuted"
   ],
   "note": "Everything but termination of delete is proved for all sessions; delete aborts for keys with 0xff in an inner position and reads behind keys of one byte (refuted, and characterised exactly)."
  },
  {
   "property": "C09",
   "status": "partial",
   "theorems": [
    "heap_init_defined",
    "heap_live_disjoint",
    "heap_alloc_safe",
    "heap_free_safe",
    "heap_stays_in_its_memory_refuted",
    "heap_block_in_its_memory_refuted",
    "heap_alloc_huge_refuted",
    "heap_init_ends_refuted"
   ],
   "note": "Proved for all histories, sizes and bases if the memory has 8 bytes more than the size, the grain is at most 2^23 and requests do not wrap; refuted for the memory the callers really give, for requests near 2^64 and for larger grains."
  },
  {
   "property": "C10",
   "status": "partial",
   "theorems": [
    "heap_alloc_best_fit",
    "heap_all_freed",
    "heap_info_exact",
    "heap_no_leak_large_refuted"
   ],
   "note": "Proved for all histories of heaps with less than 2^32 grains; refuted at 2^32 grains."
  },
  {
   "property": "C11",
   "status": "partial",
   "theorems": [
    "mm_init_defined_partial",
    "mm_live_disjoint_partial",
    "mm_alloc_safe_partial",
    "mm_free_safe_partial",
    "mm_alloc_best_fit_partial",
    "mm_all_freed_partial",
    "mm_stats_exact_partial",
    "mm_small_grain_in_region_refuted",
    "mm_small_grain_disjoint_refuted",
    "mm_alloc_huge_refuted",
    "mm_alloc_many_grains_refuted",
    "mm_alloc_aligned_refuted",
    "mm_init_ends_refuted"
   ],
   "note": "Proved for grains over 64 bytes, regions and requests below 2^31 grains (all states reachable by alloc, free, resize and writes of users); refuted for grain 64 and for larger requests."
  },
  {
   "property": "C12",
   "status": "partial",
   "theorems": [
    "mm_realloc_in_place_partial",
    "mm_realloc_hangs_always",
    "mm_realloc_large_enough_refuted",
    "mm_realloc_returns_refuted",
    "mm_realloc_zero_refuted"
   ],
   "note": "Resizing in place keeps the contents and the other blocks when the gap behind the block suffices; otherwise it never returns (exact); the size is refuted: the prefix is not counted."
  },
  {
   "property": "C13",
   "status": "proved",
   "theorems": [
    "base64_correct"
   ],
   "note": ""
  },
  {
   "property": "C14",
   "status": "partial",
   "theorems": [
    "base62_injective_partial",
    "base62_length",
    "base62_alphabet",
    "base62_injective_refuted"
   ],
   "note": "Injective except for lengths 4 modulo 5, where it is refuted for every such length; length law and alphabet proved."
  },
  {
   "property": "C15",
   "status": "partial",
   "theorems": [
    "digest_round_trip",
    "digest_small_buffer",
    "digest_parse_partial",
    "digest_parse_refuted"
   ],
   "note": "Round trip proved for every digest; acceptance of non-hexadecimal text refutes the \"exactly\" part."
  },
  {
   "property": "C16",
   "status": "proved",
   "theorems": [
    "message_fragmentation"
   ],
   "note": "All pieces, all transport maxima above the header, messages below 4 GB; the transport send is assumed to succeed."
  },
  {
   "property": "C17",
   "status": "partial",
   "theorems": [
    "accepted_request_well_formed",
    "well_formed_request_accepted",
    "validation_reads_partial",
    "validation_reads_refuted"
   ],
   "note": "Acceptance implies well-formedness for every byte content; the clause that validation itself reads only message bytes is refuted (32-bit offset wraps) and proved when no length wraps."
  },
  {
   "property": "C18",
   "status": "partial",
   "theorems": [
    "config_line_delivered",
    "config_line_unknown_name",
    "config_line_unknown_verb",
    "config_plugin_delivered_partial",
    "config_env_delivered_partial",
    "config_default_auth_delivered_partial",
    "config_plugin_refuted",
    "config_env_refuted",
    "config_default_auth_refuted",
    "config_listen_refuted",
    "config_option_delivered",
    "config_bridge_delivered",
    "config_listen_delivered_partial",
    "config_auth_add_delivered_partial",
    "config_auth_add_refuted"
   ],
   "note": "Proved for every verb with generic syntax; the special verbs have buffer errors shown by the refuted theorems and are delivered under the stated conditions."
  },
  {
   "property": "C19",
   "status": "partial",
   "theorems": [
    "set_create_defined",
    "set_layout_partial",
    "set_layout_align_refuted",
    "set_layout_room_refuted"
   ],
   "note": "Proved for all schemas whose names fit the 8-bit lengths and in which record arrays come after the other data metrics, with 8-byte alignment except for meta values after an odd record type (4 bytes); both exceptions are refuted with witnesses."
  },
  {
   "property": "C20",
   "status": "partial",
   "theorems": [
    "set_refines",
    "set_data_gn",
    "set_meta_gn",
    "set_gn_equal_partial",
    "set_gn_equal_refuted",
    "list_append_seen",
    "list_change_seen_refuted",
    "rec_write",
    "rec_gn_equal_partial",
    "rec_gn_equal_refuted"
   ],
   "note": "The step law holds for every operation on scalar and array metrics, for ldms_list_append_item and for members of records in record arrays. Refuted for removal from lists, purge and append of records. Equal generation implies equal values only when transactions are properly bracketed, and equal members only when no transaction begins without copying (refuted otherwise)."
  },
  {
   "property": "C21",
   "status": "partial",
   "theorems": [
    "set_tx_isolated_partial",
    "set_tx_nested_refuted",
    "rec_tx_isolated_refuted"
   ],
   "note": "Isolation and publication for every bracketed transaction of any operations on scalar and array metrics; nested begins are refuted, and so is isolation of record arrays, which are read from the buffer being written. Lists are read in the same way; no theorem about them here."
  },
  {
   "property": "C22",
   "status": "proved",
   "theorems": [
    "list_calls",
    "list_sequence",
    "list_append_last",
    "list_values",
    "list_shape",
    "list_memory",
    "list_record_once_refuted",
    "list_record_shared_refuted",
    "list_count_refuted",
    "list_record_zeroed_refuted"
   ],
   "note": "All histories of append, remove, purge, lists in lists, records made and appended once, writes of values, copies of the set. The refuted theorems are about what the statement does not promise: a record that is alone in its list is accepted again, counts of 2^24 and more."
  },
  {
   "property": "C23",
   "status": "partial",
   "theorems": [
    "set_write_exact",
    "set_write_shows",
    "set_array_write",
    "set_element_past_end",
    "set_array_range_refuted"
   ],
   "note": "Exact byte frame of every write, exact element effect of range writes, element setters stop past the end; the range setter clamps instead of rejecting (refuted)."
  },
  {
   "property": "C24",
   "status": "partial",
   "theorems": [
    "credit_accounting",
    "credit_conserved_partial",
    "credit_refusal",
    "credit_bounds_flight",
    "credit_unlimited",
    "credit_conserved_refuted"
   ],
   "note": "Exact accounting for every interleaving; conservation fails only by the bytes of publishes whose transport call failed (refuted), and is proved for all other executions."
  },
  {
   "property": "C25",
   "status": "partial",
   "theorems": [
    "rate_limit_sequential_partial",
    "rate_limit_same_second_partial",
    "rate_limit_refuted",
    "rate_limit_late_release_refuted"
   ],
   "note": "Refuted for overlapping calls at a change of second and for late releases; proved for non-overlapping calls and for all interleavings within a second."
  },
  {
   "property": "C26",
   "status": "partial",
   "theorems": [
    "rail_connected",
    "rail_terminal_partial",
    "rail_disconnected",
    "rail_last",
    "rail_verdict",
    "rail_abort",
    "rail_no_abort_partial",
    "rail_closes",
    "rail_freed",
    "rail_held",
    "rail_passive_connected_partial",
    "rail_abort_refuted",
    "rail_silent_refuted",
    "rail_error_and_event_refuted",
    "rail_data_early_refuted",
    "rail_passive_twice_refuted",
    "rail_passive_freed_refuted"
   ],
   "note": "CONNECTED: at most once, exactly when all endpoints connected (proved for all rails). Terminal event: at most one, nothing after it, its kind (proved for active rails and for passive ones that were connected); exactly one is refuted (a rail may stay silent); \"no order aborts\" is refuted, with the exact condition of the abort. Passive rails that fail before they are connected: refuted."
  },
  {
   "property": "C27",
   "status": "partial",
   "theorems": [
    "stream_messages_intact_partial",
    "stream_large_never_intact",
    "stream_large_sends_forever",
    "stream_continuation_always_aborts",
    "stream_sender_refuted",
    "stream_reassembly_refuted"
   ],
   "note": "Proved for messages that fit into one transport message; refuted, universally, for larger ones on both the sending and the receiving side."
  },
  {
   "property": "C28",
   "status": "partial",
   "theorems": [
    "stream_subscribers_partial",
    "stream_bad_json_refuted",
    "stream_bad_pattern_refuted"
   ],
   "note": "Delivery exactly to the matching open subscriptions over all histories; refuted for JSON that does not parse and for patterns that do not compile."
  },
  {
   "property": "C29",
   "status": "partial",
   "theorems": [
    "ev_no_error_partial",
    "ev_exactly_once_partial",
    "ev_references_partial",
    "ev_fifo",
    "ev_timers_in_order",
    "ev_tree_exact",
    "ev_delivered_as_posted_partial",
    "ev_flush_has_cause",
    "ev_no_lost_wakeup",
    "ev_pending_exact",
    "ev_posted_exact",
    "ev_time_order_real",
    "ev_dispatch_last",
    "ev_cancel_unposted_refuted",
    "ev_cancel_twice_refuted",
    "ev_cancel_race_post_refuted",
    "ev_cancel_race_flush_refuted",
    "ev_cancel_refused_post_refuted",
    "ev_cancel_busy_cancels_refuted",
    "ev_flush_misses_refuted",
    "ev_flush_before_start_refuted",
    "ev_repost_race_refuted",
    "ev_ndebug_refuted",
    "ev_sched_to_early_refuted",
    "ev_sched_to_order_refuted",
    "ev_time_diff_refuted",
    "ev_timer_starved_refuted"
   ],
   "note": "Proved for every interleaving of users that cancel only events in the tree of their worker; refuted for other cancels, for flushes, for ev_sched_to with nanoseconds and for builds with NDEBUG."
  },
  {
   "property": "C30",
   "status": "partial",
   "theorems": [
    "timer_heap_partial",
    "timer_heap_holds",
    "timer_heap_refuted"
   ],
   "note": "Earliest-timer property proved for all histories of add/pop/re-arm; with timer deletion it is false of the code (remove sinks but never floats): refuted with a witness; bookkeeping proved for all histories."
  },
  {
   "property": "C31",
   "status": "partial",
   "theorems": [
    "periodic_phase",
    "periodic_next_partial",
    "periodic_after_fire_partial",
    "periodic_future_refuted",
    "periodic_twice_always",
    "periodic_earliest_refuted",
    "periodic_zero_refuted",
    "poll_partial",
    "poll_due",
    "poll_refuted"
   ],
   "note": "In phase and not in the past always; strictly future and earliest exactly under the condition of periodic_next_partial; refuted outside it."
  },
  {
   "property": "C32",
   "status": "partial",
   "theorems": [
    "access_check_partial",
    "access_any_overlap",
    "access_check_refuted"
   ],
   "note": "Exact characterisation of the code; equals the stated rule for single-kind requests; refuted for multi-kind requests."
  },
  {
   "property": "C33",
   "status": "partial",
   "theorems": [
    "env_subst_partial",
    "subst_unique",
    "env_subst_count_refuted",
    "env_subst_name_refuted"
   ],
   "note": "Proved up to 99 references with names of up to 99 characters; beyond that the code provably misbehaves."
  },
  {
   "property": "C34",
   "status": "partial",
   "theorems": [
    "tokenize_exact",
    "words_sorted_total",
    "tokenize_value",
    "idx_of_exact",
    "av_add_exact",
    "av_add_null_refuted"
   ],
   "note": "Tokenising and lookups proved in full; adding a name without a value is refuted."
  },
  {
   "property": "C35",
   "status": "partial",
   "theorems": [
    "mem_size_partial",
    "mem_size_T_refuted",
    "mem_size_no_digits_refuted"
   ],
   "note": "All suffixes but T."
  },
  {
   "property": "C36",
   "status": "partial",
   "theorems": [
    "dstring_session_partial",
    "dstring_session2_partial",
    "dstring_exact",
    "dstring_no_leak",
    "dstring_decimal",
    "dstr_init2_refuted",
    "dstr_set_refuted",
    "dstrcat_refuted"
   ],
   "note": "Proved for all sessions, memory contents and malloc behaviours under the stated limits; three refutations beyond them."
  },
  {
   "property": "C37",
   "status": "partial",
   "theorems": [
    "set_tx_time",
    "time_difference",
    "time_difference_before_partial",
    "time_difference_refuted",
    "timespec_difference",
    "timespec_sum",
    "timespec_order",
    "flush_due",
    "flush_never",
    "microseconds",
    "thread_microseconds",
    "thread_microseconds_first",
    "thread_microseconds_refuted",
    "event_difference_partial",
    "event_difference_refuted",
    "event_schedule_refuted",
    "event_schedule_partial"
   ],
   "note": "Exact for durations, timestamp differences, nanosecond sums, differences and order; the event workers' difference and scheduling are refuted, as is the timestamp difference of a first second minus a later time."
  },
  {
   "property": "C38",
   "status": "proved",
   "theorems": [
    "reference_alive",
    "reference_not_early",
    "reference_once",
    "reference_released",
    "reference_balance",
    "reference_last_put",
    "reference_tracked",
    "reference_tracked_caught",
    "reference_tracked_nonneg"
   ],
   "note": "Every interleaving of atomic steps of any number of threads, fewer than 2^31 references outstanding; tracking variant too."
  },
  {
   "property": "C39",
   "status": "partial",
   "theorems": [
    "reap_not_early",
    "reap_rest",
    "reap_partial",
    "reap_grace",
    "reap_blocked_refuted",
    "reap_starved_refuted",
    "reap_hangs_refuted",
    "reap_held_refuted",
    "reap_delete",
    "reap_put"
   ],
   "note": "Not before the grace period: proved. At the first pass after it: only if all sets at higher addresses are expired as well (exact); otherwise refuted, also for ever; termination refuted."
  },
  {
   "property": "C40",
   "status": "partial",
   "theorems": [
    "message_table_partial",
    "message_assembled_partial",
    "message_order_partial",
    "message_confused_refuted",
    "message_lost_refuted",
    "message_invalid_refuted",
    "message_late_record_refuted",
    "message_no_memory_refuted"
   ],
   "note": "Holds when all outstanding connection and message numbers are within 2^31 of each other, messages are valid and memory does not run out; each exception is refuted with a witness."
  },
  {
   "property": "C41",
   "status": "proved",
   "theorems": [
    "verb_lookup_exact",
    "attribute_lookup_exact"
   ],
   "note": "Both tables as in the source."
  },
  {
   "property": "C42",
   "status": "partial",
   "theorems": [
    "join_partial",
    "join_empty_refuted"
   ],
   "note": "All buffers of at least one byte."
  },
  {
   "property": "C43",
   "status": "partial",
   "theorems": [
    "cmd_plain",
    "cmd_subst_partial",
    "cmd_unmatched_partial",
    "cmd_empty_refuted",
    "cmd_first_refuted",
    "cmd_spaces_refuted",
    "cmd_attributes_refuted",
    "cmd_long_dropped_refuted",
    "cmd_long_overflow_refuted",
    "cmd_output_dropped_refuted",
    "cmd_output_overflow_refuted",
    "cmd_inner_spaces_refuted"
   ],
   "note": "Proved when all that is copied fits in the first buffer, there is text before the first command and no space right before a command; refuted outside of that, including writes beyond the buffer."
  },
  {
   "property": "C44",
   "status": "partial",
   "theorems": [
    "rbt_neighbour_refuted",
    "rbt_neighbour_partial",
    "rrbt_neighbour_refuted"
   ],
   "note": "Refuted for both trees: wrong or NULL answers for nodes without the child on that side; the rest is proved for the pointer tree."
  },
  {
   "property": "C45",
   "status": "partial",
   "theorems": [
    "json_dict_map_refuted",
    "htbl_find_refuted",
    "json_dict_map_partial",
    "json_dict_defined_partial",
    "json_dict_free_partial"
   ],
   "note": "Refuted: a name finds, replaces and removes longer names that begin with it and share its bucket. Proved for names of which none is a proper prefix of another."
  },
  {
   "property": "C46",
   "status": "partial",
   "theorems": [
    "set_described_partial",
    "set_described_refuted"
   ],
   "note": "Proved for all sets whose names fit the 8-bit lengths; refuted for an instance name of 255 characters."
  },
  {
   "property": "C47",
   "status": "partial",
   "theorems": [
    "sampler_partial",
    "sampler_zero_refuted",
    "sampler_negative_always",
    "sampler_negative_refuted",
    "sync_task_partial",
    "sync_task_refuted",
    "sync_task_hint_refuted",
    "task_deadline_exact",
    "updtr_schedule",
    "schedule_order_partial",
    "schedule_shared_refuted",
    "schedule_cycle_refuted"
   ],
   "note": "In phase and future for accepted updaters and for samplers with an offset of zero or more; earliest only under the stated condition; negative offsets and interval 0 of samplers, unchecked hints and the schedule comparison are refuted."
  },
  {
   "property": "C48",
   "status": "partial",
   "theorems": [
    "task_life_partial",
    "task_stop_partial",
    "task_called_partial",
    "task_runs_after_join_refuted",
    "task_stop_lost_refuted",
    "task_null_refuted",
    "task_twice_refuted",
    "task_failed_start_refuted"
   ],
   "note": "Holds if nothing comes between a scheduler taking the event and locking the task; refuted with interleavings otherwise."
  },
  {
   "property": "C49",
   "status": "partial",
   "theorems": [
    "dir_complete_partial",
    "dir_single",
    "dir_empty",
    "dir_vanished",
    "dir_too_big",
    "dir_vanished_refuted",
    "dir_window_refuted",
    "dir_too_big_refuted"
   ],
   "note": "Sizes, order, exactly once and only readable sets are proved for all lists whose last name is still there and whose sets fit in a message; the final reply is then an ENOMEM only in a window of two lengths. Refuted: the last name deleted in between (no final reply), the window (ENOMEM for sets that fit), a set larger than a message (endless loop)."
  },
  {
   "property": "C50",
   "status": "partial",
   "theorems": [
    "info_get_partial",
    "info_listed",
    "info_announced_partial",
    "info_updates",
    "info_set_returns",
    "info_failed_partial",
    "info_chain_partial",
    "info_lookup_partial",
    "info_get_refuted",
    "info_announced_refuted",
    "info_failed_refuted",
    "info_lookup_refuted",
    "info_lookup_exists_refuted"
   ],
   "note": "The map, its listings, announcements and both ways of transport are proved for all sequences, except: directory replies without information (refuted: stale values), replies to directory requests (refuted: not announced), strings above 254 characters in lookups (refuted), failed copies of a value (refuted)."
  },
  {
   "property": "C51",
   "status": "partial",
   "theorems": [
    "json_parse_partial",
    "json_total",
    "json_trailing",
    "json_dump_partial",
    "json_dump_scalar",
    "json_dump_dangling",
    "json_round_trip_partial",
    "json_directory",
    "json_escape_refuted",
    "json_integer_refuted",
    "json_deep_refuted",
    "json_garbage_refuted",
    "json_dump_refuted",
    "json_round_trip_refuted",
    "json_directory_refuted"
   ],
   "note": "Reading and the round trip are proved for all texts and values up to nesting 1999, dumps below 8192 characters for any realloc and of any size if realloc does not move. Refuted: larger dumps (use after free), quotes in strings, escapes, integers beyond 64 bits, deep nesting, texts that are not JSON."
  },
  {
   "property": "C52",
   "status": "partial",
   "theorems": [
    "prdcr_safe",
    "prdcr_safe_passive_partial",
    "prdcr_safe_passive_refuted",
    "prdcr_stop_partial",
    "prdcr_stop_refuted",
    "prdcr_stopping_ends",
    "prdcr_stopping_event",
    "prdcr_retry_partial",
    "prdcr_retry_refuted",
    "prdcr_start_partial",
    "prdcr_start_refuted"
   ],
   "note": "Safety and the single connection are proved for all interleavings of active producers, and for passive ones unless the connection ends while it is taken over (refuted). Stop, retry and start hold under stated orders of steps and are refuted for the others."
  },
  {
   "property": "C53",
   "status": "partial",
   "theorems": [
    "pset_safe_partial",
    "pset_release_partial",
    "pset_group_leak",
    "pset_progress_partial",
    "pset_use_refuted",
    "pset_info_refuted",
    "pset_member_refuted",
    "pset_member_twice_refuted",
    "pset_release_refuted",
    "pset_progress_refuted",
    "pset_progress_sync_refuted",
    "pset_group_lookup_refuted"
   ],
   "note": "Safety, single outstanding operations, exact release of plain sets and progress are proved for the orders in which no set is taken from a thread using it unreferenced, no member is looked up by a group update and no update fails; each of the other cases is refuted with a witness."
  },
  {
   "property": "C54",
   "status": "partial",
   "theorems": [
    "hint_round_trip",
    "hint_message_partial",
    "hint_async",
    "hint_crash_iff",
    "hint_levels_partial",
    "hint_levels_end",
    "hint_get_refuted",
    "hint_message_refuted",
    "hint_async_refuted",
    "hint_removed_refuted",
    "hint_message_crash_refuted",
    "hint_levels_refuted"
   ],
   "note": "The round trip is proved for all values; messages for all sound hints with offset; levels as long as the skews fit the interval. Refuted: hints without offset, hints taken back, texts without number, more levels."
  },
  {
   "property": "C55",
   "status": "partial",
   "theorems": [
    "rec_access",
    "rec_write",
    "rec_keep",
    "rec_gn_equal_partial",
    "rec_index_unchecked",
    "rec_gn_equal_refuted",
    "rec_tx_isolated_refuted",
    "rec_align_refuted",
    "rec_no_instances_refuted",
    "rec_late_member_refuted"
   ],
   "note": "Instances, descriptions and the effect of writes are proved for all histories. Refuted: isolation of transactions, generation numbers over a begin without copy, sets with 0 buffers, members added late, and the check of member indexes."
  },
  {
   "property": "C56",
   "status": "partial",
   "theorems": [
    "time_whole",
    "time_near_partial",
    "time_frac_refuted",
    "time_unknown_unit",
    "time_no_number",
    "time_empty",
    "time_unit_refuted",
    "time_range_refuted",
    "tspec_whole",
    "tspec_near_partial",
    "tspec_unknown_unit",
    "tspec_frac_refuted",
    "tspec_malformed_refuted",
    "tspec_space_refuted",
    "tspec_range_refuted",
    "tspec_add",
    "tspec_diff",
    "tspec_cmp"
   ],
   "note": "Whole numbers are exact below 2^53 units; decimals are exact or one unit less below 2^48 (exactness is refuted). Refused texts are proved for unknown units and missing numbers; refuted for \"msec\", out of range and malformed texts. Arithmetic of timespecs is proved."
  },
  {
   "property": "C57",
   "status": "partial",
   "theorems": [
    "lvl_single",
    "lvl_list",
    "lvl_unknown",
    "lvl_unknown_list",
    "lvl_round",
    "lvl_str_invalid",
    "lvl_default_refuted",
    "lvl_always_refuted",
    "lvl_comma_refuted",
    "log_safe",
    "log_line",
    "log_kept",
    "log_drain",
    "log_set",
    "log_set_name",
    "log_register",
    "log_register_twice",
    "log_regex_partial",
    "log_regex_refuted",
    "log_regex_invalid_refuted",
    "log_again_refuted",
    "log_init_default_refuted",
    "log_rc_refuted",
    "log_get_null",
    "log_goes",
    "log_syslog_refuted",
    "log_close_refuted",
    "log_close_twice_refuted"
   ],
   "note": "Level texts, delivery of messages, safety of handles and setting of levels by handle and name are proved for all histories. Refuted: the result of setting by expression, the level texts ALWAYS and \",\", the returned value of the asynchronous log, and closing or moving the log away from syslog."
  },
  {
   "property": "C58",
   "status": "partial",
   "theorems": [
    "auto_set_updated_partial",
    "manual_set_updated",
    "auto_only_its_task",
    "auto_one_task",
    "auto_once_partial",
    "auto_once_refuted",
    "stop_final",
    "auto_lost_refuted",
    "auto_idle_stays",
    "auto_nohint_refuted",
    "auto_nohint_never",
    "auto_push_refuted",
    "cleanup_never",
    "cleanup_refuted",
    "tasks_grow",
    "cleanup_freed_refuted",
    "cleanup_safe_partial"
   ],
   "note": "Proved for all sequences in which no set gets a hint while the task of that hint is in its function; refuted by witnesses: that race, sets without hint, sets selected by two matches, push updaters started with auto_interval, and the clean up (deletes nothing; reads a freed task)."
  },
  {
   "property": "C59",
   "status": "partial",
   "theorems": [
    "strgp_stored_right",
    "strgp_taken_up_stored",
    "strgp_stop_final",
    "strgp_all_stored_partial",
    "strgp_list_stored_partial",
    "strgp_list_late_refuted",
    "strgp_all_metrics_refuted",
    "strgp_never_stored_refuted",
    "strgp_restart_refuted",
    "strgp_count_refuted",
    "strgp_arrays_grow",
    "strgp_arrays_refuted",
    "strgp_deadlock_refuted"
   ],
   "note": "What is stored is right for all runs, and nothing after a stop; that every selected set is stored is proved for sets with the same metrics and opens that succeed, and refuted in general; the metrics asked for first are what is stored while the list is not changed; restarts leak and overlapping start and stop can deadlock."
  },
  {
   "property": "C60",
   "status": "partial",
   "theorems": [
    "csv_sleep_min",
    "csv_interval_partial",
    "csv_daily_partial",
    "csv_daily_refuted",
    "csv_first_roll_refuted",
    "csv_beyond_day_refuted",
    "csv_again_partial",
    "csv_again_refuted",
    "csv_overflow_refuted",
    "csv_not_empty",
    "csv_lines_buffered_partial",
    "csv_lines_unbounded_refuted"
   ],
   "note": "The documented times hold when rolls end before midnight and the period divides the day, and are refuted otherwise; empty files are not rolled; the bound on buffered lines holds for rolls by volume and is refuted for rolls by time."
  },
  {
   "property": "C61",
   "status": "partial",
   "theorems": [
    "group_members",
    "group_result",
    "group_mirrored_partial",
    "group_last_member_refuted",
    "group_copy_refuted"
   ],
   "note": "Exact where the group is made; the copies agree as long as the group is never emptied, and are refuted to when its last member is removed."
  }
 ]
}