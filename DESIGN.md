# Formal model of ovis-hpc/ovis: design

The model is written in Coq 8.16.1 under `rocq/theories` (logical name `Verif`).
The code in /repo is read as text only; it is never built or run. The link
between model and code is the citation (file and lines) on each definition.

## Method

* Each C function becomes a total, computable Gallina function over the state it
  mutates. Pointers become addresses or list positions, loops become structural
  recursion or recursion on explicit fuel (an exhausted fuel is an error value,
  excluded by the theorems). Failing `assert`, null dereference, out-of-bounds
  access and lock misuse are distinct error outcomes (`None`, `Err`, `UB`),
  never silently totalised.
* Machine arithmetic is explicit (`mod 2^32`, `mod 2^64`) where a property is
  about it, otherwise unbounded; each file header says which.
* Concurrency is modelled by a step relation or by schedules over atomic steps
  (one step per atomic instruction or per critical section), and theorems
  quantify over all schedules.
* Files: `M_*.v` model only, `S_*.v` separate small specifications,
  `L_*.v` lemmas, `P_*.v` property theorems (each closed by `exact`), their
  examples and `Print Assumptions`.
* If the code violates the property, a `*_refuted` theorem gives a witness and a
  `*_partial` theorem states the strongest part that holds.

## Plan per property

| id | model | proof method |
|----|-------|--------------|
| C01-C03 | rbt.c on an explicit pointer heap (nodes with left/right/parent/colour/key), null dereference and assert = error | representation relation to a functional tree/zipper, red-black invariant, induction over histories |
| C04 | rrbt.c as programs over offset loads/stores interpreted at a base | relocation by induction on programs; functional contract as C01 |
| C05 | heap.c arrays | refutation witness, multiset conservation and slot coherence by induction over ops |
| C06, C07 | htbl.c, str_map.c bucket arrays | refinement to association list |
| C08 | idx.c trie | refinement to finite map; abort branch refuted |
| C09, C10 | ldms_heap.c on memory cells, calling the rrbt.c model of C04 | representation of the two free trees by one chunk list, tiling invariant over histories |
| C11, C12 | mmalloc.c likewise | tiling invariant; refutations for small grain and realloc |
| C13-C15 | byte codecs as list functions | round-trip laws |
| C16-C18 | ldmsd_request_util.c, ldmsd_request.c byte buffers | round-trip, soundness of validation |
| C19-C23 | ldms.c set layout, setters, transactions, lists | arithmetic invariants, refinement |
| C24-C26 | ldms_rail.c atomics and endpoint state machine | invariant over schedules |
| C27, C28 | ldms_stream.c fragmentation, reassembly, binding | round-trip, invariant |
| C29 | ovis_ev | invariant over schedules |
| C30, C31 | ovis_event heap and timers | invariant; refutation of remove |
| C32-C36 | util.c, dstring.c | decision rules, refinement to list functions |
| C37 | timestamps | arithmetic |
| C38 | ref.h | schedule invariant |
| C39 | set reaper | refutation, partial |
| C40 | message key comparator | refutation, partial |
| C41, C43 | keyword tables, command substitution | decision rules, refinement |
| C42 | path joining | arithmetic, refutation |
| C44, C45 | red-black tree helpers, JSON dictionary | refinement to finite maps |
| C46 | schema to set construction | refinement |
| C47, C48 | schedules, tasks | arithmetic, schedule invariant |
| C49 | directory replies | refinement to a list of sets, refutations |
| C50 | information of sets | refinement to maps, round trip, refutations |
| C51 | JSON library | round trip, refinement of a grammar, refutations |
| C52 | connection of producers | invariants of a transition system, refutations |
| C53 | sets of producers | invariants of a transition system, refutations |
| C54 | update hints | round trip, induction over levels, refutations |
| C55 | members of record arrays | invariant over histories, frame of writes, refutations |
| C56 | times in configuration texts | error bounds of rounding, exactness, refutations |
| C57 | log levels, messages, destinations | invariant over histories, refutations |
| C58 | tasks of updaters, automatic schedules | invariant over histories, refutations |
| C59 | storage policies: what is stored, restarts, locks | invariant over histories, refutations by witness, interleavings |
| C60 | rollover of CSV files: times, counters, buffers | arithmetic of schedules, invariant over histories, refutations |
| C61 | set groups and their copies | invariant over histories, refutations |

## Trusted base

* The Coq 8.16.1 kernel (coqc) and, for `vm_compute` witnesses, its VM.
* `Print Assumptions` output per theorem: recorded in the section below as the
  development grows.
* The reading of the C sources expressed by the cited model definitions; the C
  compiler, libc, kernel and hardware are not modelled.

## Print Assumptions

Output of `Print Assumptions` for every theorem of the property files. `coqchk` lists in addition seven
constants `Coq.ssr.ssrunder.Under_rel.*`: they belong to the opaque module of that name in the standard library (loaded with
ssreflect) and no theorem here depends on them.

* P_Cmd.v — closed under the global context: cmd_plain, cmd_subst_partial, cmd_unmatched_partial, cmd_empty_refuted, cmd_first_refuted, cmd_spaces_refuted, cmd_attributes_refuted, cmd_long_dropped_refuted, cmd_long_overflow_refuted, cmd_output_dropped_refuted, cmd_output_overflow_refuted, cmd_inner_spaces_refuted.

* P_Codec.v — closed under the global context: base64_correct, base62_injective_partial, base62_injective_refuted, base62_length, base62_alphabet, digest_round_trip, digest_small_buffer, digest_parse_partial, digest_parse_refuted.

* P_Credit.v — closed under the global context: credit_accounting, credit_conserved_partial, credit_refusal, credit_bounds_flight, credit_unlimited, credit_conserved_refuted, rate_limit_sequential_partial, rate_limit_same_second_partial, rate_limit_refuted, rate_limit_late_release_refuted.

* P_CsvRoll.v — closed under the global context: csv_sleep_min, csv_interval_partial, csv_daily_partial, csv_daily_refuted, csv_first_roll_refuted, csv_beyond_day_refuted, csv_again_partial, csv_again_refuted, csv_overflow_refuted, csv_not_empty, csv_lines_buffered_partial, csv_lines_unbounded_refuted.

* P_DStr.v — closed under the global context: dstring_session_partial, dstring_session2_partial, dstring_exact, dstring_no_leak, dstring_decimal, dstr_init2_refuted, dstr_set_refuted, dstrcat_refuted.

* P_Dir.v — closed under the global context: dir_complete_partial, dir_single, dir_empty, dir_vanished, dir_too_big, dir_vanished_refuted, dir_window_refuted, dir_too_big_refuted.

* P_Ev.v — closed under the global context: ev_no_error_partial, ev_exactly_once_partial, ev_references_partial, ev_fifo, ev_timers_in_order, ev_tree_exact, ev_delivered_as_posted_partial, ev_flush_has_cause, ev_no_lost_wakeup, ev_pending_exact, ev_posted_exact, ev_time_order_real, ev_dispatch_last, ev_cancel_unposted_refuted, ev_cancel_twice_refuted, ev_cancel_race_post_refuted, ev_cancel_race_flush_refuted, ev_cancel_refused_post_refuted, ev_cancel_busy_cancels_refuted, ev_flush_misses_refuted, ev_flush_before_start_refuted, ev_repost_race_refuted, ev_ndebug_refuted, ev_sched_to_early_refuted, ev_sched_to_order_refuted, ev_time_diff_refuted, ev_timer_starved_refuted.

* P_Group.v — closed under the global context: group_members, group_result, group_mirrored_partial, group_last_member_refuted, group_copy_refuted.

* P_Hash.v — closed under the global context: htbl_ins_defined, htbl_del_defined, htbl_find_latest, htbl_iterate_all, htbl_empty_exact, htbl_find_refuted, json_dict_map_partial, json_dict_defined_partial, json_dict_free_partial, json_dict_map_refuted, str_map_is_map, str_map_defined, str_map_free_all, str_map_ids, htbl_depth_zero_undefined.

* P_Heap.v — closed under the global context: timer_heap_partial, timer_heap_holds, timer_heap_refuted, ovis_heap_partial, ovis_heap_pop_refuted, ovis_heap_remove_refuted.

* P_Hint.v — closed under the global context: hint_round_trip, hint_get_refuted, hint_message_partial, hint_message_refuted, hint_async, hint_async_refuted, hint_removed_refuted, hint_message_crash_refuted, hint_crash_iff, hint_levels_partial, hint_levels_refuted, hint_levels_end.

* P_Idx.v — closed under the global context: idx_is_ordered_map, idx_traverse_sorted, idx_map_laws, idx_defined_partial, idx_delete_never_returns, idx_delete_aborts_refuted, idx_delete_overread_refuted, idx_add_empty_refuted.

* P_Info.v — closed under the global context: info_get_partial, info_get_refuted, info_listed, info_announced_partial, info_updates, info_announced_refuted, info_set_returns, info_failed_partial, info_failed_refuted, info_chain_partial, info_lookup_partial, info_lookup_refuted, info_lookup_exists_refuted.

* P_Json.v — closed under the global context: json_parse_partial, json_total, json_trailing, json_escape_refuted, json_integer_refuted, json_deep_refuted, json_garbage_refuted, json_dump_partial, json_dump_scalar, json_dump_dangling, json_dump_refuted, json_round_trip_partial, json_round_trip_refuted, json_directory, json_directory_refuted.

* P_LHeap.v — closed under the global context: heap_init_defined, heap_live_disjoint, heap_alloc_safe, heap_free_safe, heap_alloc_best_fit, heap_all_freed, heap_info_exact, heap_stays_in_its_memory_refuted, heap_block_in_its_memory_refuted, heap_alloc_huge_refuted, heap_init_ends_refuted, heap_no_leak_large_refuted.

* P_List.v — closed under the global context: list_calls, list_sequence, list_append_last, list_values, list_shape, list_memory, list_record_once_refuted, list_record_shared_refuted, list_count_refuted, list_change_seen_refuted, list_append_seen, list_record_zeroed_refuted.

* P_Log.v — closed under the global context: lvl_single, lvl_list, lvl_unknown, lvl_unknown_list, lvl_round, lvl_str_invalid, lvl_default_refuted, lvl_always_refuted, lvl_comma_refuted, log_safe, log_line, log_kept, log_drain, log_set, log_set_name, log_register, log_register_twice, log_regex_partial, log_regex_refuted, log_regex_invalid_refuted, log_again_refuted, log_init_default_refuted, log_rc_refuted, log_get_null, log_goes, log_syslog_refuted, log_close_refuted, log_close_twice_refuted.

* P_MM.v — closed under the global context: mm_init_defined_partial, mm_live_disjoint_partial, mm_alloc_safe_partial, mm_free_safe_partial, mm_alloc_best_fit_partial, mm_all_freed_partial, mm_stats_exact_partial, mm_realloc_in_place_partial, mm_realloc_hangs_always, mm_small_grain_in_region_refuted, mm_small_grain_disjoint_refuted, mm_alloc_huge_refuted, mm_alloc_many_grains_refuted, mm_alloc_aligned_refuted, mm_init_ends_refuted, mm_realloc_large_enough_refuted, mm_realloc_returns_refuted, mm_realloc_zero_refuted.

* P_Msg.v — closed under the global context: message_table_partial, message_assembled_partial, message_order_partial, message_confused_refuted, message_lost_refuted, message_invalid_refuted, message_late_record_refuted, message_no_memory_refuted.

* P_PrdSet.v — closed under the global context: pset_safe_partial, pset_use_refuted, pset_info_refuted, pset_member_refuted, pset_member_twice_refuted, pset_release_partial, pset_release_refuted, pset_group_leak, pset_progress_partial, pset_progress_refuted, pset_progress_sync_refuted, pset_group_lookup_refuted.

* P_Prdcr.v — closed under the global context: prdcr_safe, prdcr_safe_passive_partial, prdcr_safe_passive_refuted, prdcr_stop_partial, prdcr_stop_refuted, prdcr_stopping_ends, prdcr_stopping_event, prdcr_retry_partial, prdcr_retry_refuted, prdcr_start_partial, prdcr_start_refuted.

* P_Rail.v — closed under the global context: rail_connected, rail_terminal_partial, rail_disconnected, rail_last, rail_verdict, rail_abort, rail_no_abort_partial, rail_passive_connected_partial, rail_closes, rail_freed, rail_held, rail_abort_refuted, rail_silent_refuted, rail_error_and_event_refuted, rail_data_early_refuted, rail_passive_twice_refuted, rail_passive_freed_refuted.

* P_Rbt.v — closed under the global context: rbt_multiset, rbt_ins_correct, rbt_del_correct, rbt_any_comparator, rbt_balanced, rbt_find_exact, rbt_find_glb_exact, rbt_find_lub_exact, rbt_min_max_exact, rbn_succ_pred_exact, rbt_traverse_exact, rbt_neighbour_refuted, rbt_neighbour_partial.

* P_Reap.v — closed under the global context: reap_not_early, reap_rest, reap_partial, reap_blocked_refuted, reap_starved_refuted, reap_hangs_refuted, reap_held_refuted, reap_grace, reap_delete, reap_put.

* P_Record.v — closed under the global context: rec_access, rec_index_unchecked, rec_write, rec_keep, rec_gn_equal_partial, rec_gn_equal_refuted, rec_tx_isolated_refuted, rec_align_refuted, rec_no_instances_refuted, rec_late_member_refuted.

* P_Ref.v — closed under the global context: reference_alive, reference_not_early, reference_once, reference_released, reference_balance, reference_last_put, reference_tracked, reference_tracked_caught, reference_tracked_nonneg.

* P_Request.v — closed under the global context: message_fragmentation, accepted_request_well_formed, well_formed_request_accepted, validation_reads_partial, validation_reads_refuted, config_line_delivered, config_line_unknown_name, config_line_unknown_verb, config_plugin_delivered_partial, config_env_delivered_partial, config_default_auth_delivered_partial, config_option_delivered, config_bridge_delivered, config_listen_delivered_partial, config_auth_add_delivered_partial, config_auth_add_refuted, config_plugin_refuted, config_env_refuted, config_default_auth_refuted, config_listen_refuted, verb_lookup_exact, attribute_lookup_exact.

* P_Rrbt.v — closed under the global context: rrbt_history, rrbt_ins_correct, rrbt_del_correct, rrbt_copy, rrbt_find_exact, rrbt_find_glb_lub_exact, rrbt_min_max_exact, rrbn_succ_pred_exact, rrbt_traverse_exact, rrbt_verify_accepts, rrbt_balanced, rrbt_relocatable, rrbt_neighbour_refuted.

* P_Set.v — closed under the global context: set_create_defined, set_refines, set_layout_partial, set_layout_align_refuted, set_layout_room_refuted, set_data_gn, set_meta_gn, set_gn_equal_partial, set_gn_equal_refuted, set_tx_isolated_partial, set_tx_nested_refuted, set_write_exact, set_array_write, set_write_shows, set_element_past_end, set_array_range_refuted, set_tx_time, set_described_partial, set_described_refuted.

* P_Stream.v — closed under the global context: stream_messages_intact_partial, stream_large_never_intact, stream_large_sends_forever, stream_continuation_always_aborts, stream_sender_refuted, stream_reassembly_refuted, stream_subscribers_partial, stream_bad_json_refuted, stream_bad_pattern_refuted.

* P_Strgp.v — closed under the global context: strgp_stored_right, strgp_taken_up_stored, strgp_stop_final, strgp_all_stored_partial, strgp_all_metrics_refuted, strgp_never_stored_refuted, strgp_restart_refuted, strgp_list_stored_partial, strgp_list_late_refuted, strgp_count_refuted, strgp_arrays_grow, strgp_arrays_refuted, strgp_deadlock_refuted.

* P_Task.v — closed under the global context: task_life_partial, task_stop_partial, task_called_partial, task_runs_after_join_refuted, task_stop_lost_refuted, task_null_refuted, task_twice_refuted, task_failed_start_refuted.

* P_Time.v — closed under the global context: time_difference, time_difference_before_partial, time_difference_refuted, timespec_difference, timespec_sum, timespec_order, flush_due, flush_never, microseconds, thread_microseconds, thread_microseconds_first, thread_microseconds_refuted, event_difference_partial, event_difference_refuted, event_schedule_refuted, event_schedule_partial.

* P_TimeStr.v — closed under the global context: time_whole, time_near_partial, time_frac_refuted, time_unknown_unit, time_no_number, time_empty, time_unit_refuted, time_range_refuted, tspec_whole, tspec_near_partial, tspec_unknown_unit, tspec_frac_refuted, tspec_malformed_refuted, tspec_space_refuted, tspec_range_refuted, tspec_add, tspec_diff, tspec_cmp.

* P_Timer.v — closed under the global context: periodic_phase, periodic_next_partial, periodic_after_fire_partial, periodic_future_refuted, periodic_twice_always, periodic_earliest_refuted, periodic_zero_refuted, sampler_zero_refuted, sampler_negative_always, sampler_negative_refuted, sampler_partial, poll_partial, poll_due, poll_refuted, sync_task_partial, sync_task_refuted, sync_task_hint_refuted, task_deadline_exact, updtr_schedule, schedule_order_partial, schedule_shared_refuted, schedule_cycle_refuted.

* P_Updtr.v — closed under the global context: auto_set_updated_partial, manual_set_updated, auto_only_its_task, auto_one_task, auto_once_partial, auto_once_refuted, stop_final, auto_lost_refuted, auto_idle_stays, auto_nohint_refuted, auto_nohint_never, auto_push_refuted, cleanup_never, cleanup_refuted, tasks_grow, cleanup_freed_refuted, cleanup_safe_partial.

* P_Util.v — closed under the global context: access_any_overlap, access_check_partial, access_check_refuted, env_subst_partial, subst_unique, env_subst_count_refuted, env_subst_name_refuted, tokenize_exact, words_sorted_total, tokenize_value, idx_of_exact, av_add_exact, av_add_null_refuted, mem_size_partial, mem_size_T_refuted, mem_size_no_digits_refuted, join_partial, join_empty_refuted.

## Modules

Per module: what is modelled, what is not, findings.

### Heaps (M_Heap.v: C05, C30)

Modelled: heap.c (all functions except allocation failure) and the timer heap of ovis_event.c, as arrays
(functions from slot to node) with positions stored in nodes; array overflow on push is an error outcome.
Not modelled: locking, malloc failure, the comparator callback other than by an integer key.
Findings: heap.c places children/parents inconsistently, so pop need not return the minimum
(`ovis_heap_pop_refuted`) and remove may drop a live element (`ovis_heap_remove_refuted`); ovis_event.c sinks but never
floats after a deletion, so a later timer may be delivered first (`timer_heap_refuted`).

### Configuration messages (M_Request.v, M_Parse.v: C16, C17, C18, C41)

Modelled byte by byte: ldmsd_msg_buf_send, ldmsd_msg_gather (with realloc growth), validate_ldmsd_req (32-bit offset,
unbounded pointer, out-of-bounds load = `VUndef`), ldmsd_parse_config_str with all seven special verbs, both keyword
tables (95 verbs, 45 attribute names, generated from the source) and the bsearch over them.
Not modelled: send failures, allocation failures, host byte order (host stores followed by hton are one big-endian
store), the dispatch after validation.
Findings: `validation_reads_refuted` (attr_len = 2^32-12 wraps the 32-bit offset and the validator reads 4 GB past the
message), `config_plugin_refuted` (config line with only the name writes before the scratch buffer; with only options
writes one byte past it; options whose name begins with "name" are refused), `config_env_refuted`,
`config_default_auth_refuted` (default_auth with only plugin= writes before the buffer), `config_listen_refuted`.

### Send credits and rate limit (M_Credit.v: C24, C25)

Modelled: __credit_acquire, __credit_release, __rate_credit_acquire with one transition per atomic instruction and any
number of threads; their callers __rail_send and __rep_publish (what happens to the credit when the rate limit or the
transport refuses); credit return by the peer; __rate_credit_release for non-overlapping calls.
Not modelled: the transport itself, a peer that returns more credit than it was sent, the int conversion of the credit
required by a publish (messages of 2 GB and more), the wire format of the credit-return message.
Findings: `credit_conserved_refuted` (__rep_publish does not give credit back when the transport call fails);
`rate_limit_refuted` (ABA on the credit word: two threads get twice the rate through in one second);
`rate_limit_late_release_refuted` (a release in the next second inflates that second's credit).

### Streams (M_Stream.v: C27, C28)

Modelled: __part_send and __rep_publish byte by byte (including uninitialised padding), __process_stream_msg with its
reassembly buffers and their keys as bytes, full message decoding; ldms_stream_subscribe / close / deliver with name and
regex subscriptions, lazily collected entries, and the JSON parse inside the delivery loop.
Not modelled: source-address resolution, the transport's send_raw failing, regcomp/regexec (a compiled pattern is the set
of names it matches), JSON parsing itself (a flag says whether it fails), callbacks that subscribe or close while a
delivery is in progress, permission filtering by credentials, publish/subscribe over the wire as a configuration.
Findings: `stream_large_never_intact`, `stream_large_sends_forever` (line 178-180 zero the length before advancing by it:
every message larger than one transport message is corrupted or sent for ever); `stream_continuation_always_aborts`
(the key of a reassembly buffer and the probe built from a part are packed differently, so a second part never finds its
buffer and the process aborts); `stream_bad_json_refuted`; `stream_bad_pattern_refuted` (freed client is returned).

### Text encoders (M_Codec.v: C13, C14, C15)

Modelled: base64_encode_block / blockend / value with their state machine; b62_encode including the integer conversions of
the 4-byte tail; ldms_digest_str and ldms_str_digest.
Not modelled: signedness of `char` in base64_encode_block beyond "the low eight bits are used"; the locale (isxdigit is the C
locale's).
Findings: `base62_injective_refuted` (for every length 4 modulo 5 two different inputs share one text);
`digest_parse_refuted` (a pair with one non-hexadecimal character is accepted).

### Utilities (M_Util.v: C32-C35, C42)

Modelled: ovis_access_check and __uid_gid_check (getpwuid_r/getgrouplist are a parameter), str_repl_env_vars with its arrays of
100 matches, 100-byte names and the result buffer (malloc contents arbitrary; getenv a parameter; the regular expression is
modelled by a matcher proved equal to "leftmost ${[A-Za-z0-9_]+}"), tokenize, av_value, av_idx_of, av_add, ovis_get_mem_size
(sscanf "%lu %c" modelled), ovis_join_buf.
Not modelled: allocation failures; the cached substitution strings kept by av_value; str_repl_cmd; locale-dependent character
classes (C locale).
Findings: `access_check_refuted` (read+write of a world-readable object granted: any one overlapping bit suffices),
`env_subst_count_refuted` (100 references overrun the arrays), `env_subst_name_refuted` (a 100-character name fails an
assert), `av_add_null_refuted` (a name added without value shows the slot's old value), `mem_size_T_refuted` (T means
1024^3), `mem_size_no_digits_refuted` (no digits: result computed from uninitialised memory), `join_empty_refuted`
(a zero-length buffer is written).

### Red/black tree (M_Rbt.v: C01-C03, C44)

Modelled at the level of nodes, pointers and single assignments, in the order of the code: a state is the tree header (root,
card) and a memory from addresses to nodes; any access to NULL or to memory holding no node, a failing assert and an endless
loop make the program fail. All of rotate_left/right, rbt_init, rbt_empty, rbt_card, rbn_init, rbt_ins, rbt_find_glb/lub,
rbt_find, rbt_min/max, rbt_traverse, rbn_succ/pred, RBT_FOREACH, rbt_greatest_lt_or_eq, rbt_least_gt_or_eq, rbt_del with
replace_node, sibling and delete_case1-6 (the recursive variant: __unroll_tail_recursion__ is defined nowhere).
The specification (S_Rbt.v) says what a well-formed tree in memory is (parent links, colours, black height, no sharing) and
what list of nodes a history should leave. Proof: zipper representation of the memory (L_RbtTree.v), a weakest-precondition
calculus (L_Rbt.v), insertion (L_RbtIns.v), deletion (L_RbtDel*.v), queries (L_RbtQ.v), histories (L_RbtTop.v).
Loops carry fuel; the theorems need only 2*log2(n+1)+1 units, so they bound the running time too.
Simplified: card is unbounded (a long in the code); the comparator is a pure function of the two keys and does not change the tree.
Not modelled: rbt_verify, rbt_print, find_succ (unused).
Findings: `rbt_neighbour_refuted`: rbt_greatest_lt_or_eq returns the parent - a greater node - for a left child without left
child, and NULL for right leaves; rbt_least_gt_or_eq likewise.

### Relocatable red/black tree (M_Rrbt.v: C04, C44)

rrbt.c modelled at the level of nodes, absolute addresses, offsets and single assignments, with 64-bit pointer arithmetic
(`ptr`, `off`) and the 63-bit field left: rotate_left/right, rrbt_init, rrbt_empty, rrbt_ins, rrbt_find_glb/lub, rrbt_find,
rrbt_min/max, rrbt_traverse, rrbn_succ/pred, rrbt_greatest_lt_or_eq, rrbt_least_gt_or_eq, rrbt_del with its cases, and
rrbt_verify, which insert and delete call on entry and exit.
Preconditions the code relies on, explicit in the theorems: the region does not wrap around the address space and is not
larger than 2^63 (`region`), the nodes are inside it and none is at offset 0. `below_base_lost` and `at_base_lost` show what
happens otherwise.
Proof: the programs of rbt and of rrbt on offsets are instances of one flagged family (L_RbtGen.v), so the insertion and
deletion proofs are shared; L_Rrbt.v is a simulation between addresses and offsets; L_RrbtTop.v lifts the results, proves that
the assertions of rrbt_verify hold, and derives relocation from the simulation (both bases simulate the same offset program).
Not modelled: rrbt_print, rrbn_init's memcpy of the key (the key is a value), RRBT_FOREACH (calls rrbn_succ with one
argument, so it cannot compile).

### Dynamic strings (M_DStr.v: C36)

All of dstring.c: dstr_init, dstr_init2, dstr_set, dstr_set_int, dstrcat, dstrcat_int, dstrcat_uint, dstr_trunc, dstr_free,
dstr_extract, dstrlen, dstrval. Buffers are lists of exactly the bytes that may be written; a store outside one, a string
without terminator and the overflow of the int sum in dstrcat are a distinct outcome (None). malloc is a parameter of every
call: it may fail, and the contents of its blocks are arbitrary. `blocks` counts allocations minus frees.
Simplified: the source text is not part of the string itself (dstrcat(ds, dstrval(ds)) reads freed memory when it grows);
the size of the sprintf buffer (32) is not modelled, texts are shown to have at most 21 bytes.
Findings: `dstr_init2_refuted` (failed malloc leaves the large capacity with the inline buffer; a later dstr_set overflows),
`dstr_set_refuted` (a text of INT_MAX bytes or more always writes out of bounds, the "input_too_big" branch included),
`dstrcat_refuted` (signed overflow for two texts above 1 GB).
Not modelled: big_dstring.h (the same code as macros).

### Heap inside a metric set (M_LHeap.v: C09, C10)

All of ldms_heap.c but ldms_heap_get, ldms_heap_close and debug output: ldms_heap_init, ldms_heap_alloc, ldms_heap_free,
ldms_heap_get_info, ldms_heap_alloc_size, ldms_heap_grain_size, ldms_heap_size, ldms_heap_off, ldms_heap_ptr. Memory is an array
of 32 byte cells; the free trees are the trees of rrbt.c (M_Rrbt.v, the same operations, at any base address) threaded through the
free chunks; the 4 byte count of an allocated chunk lies over the first word of a tree node, bit fields included. A cell the
caller did not give, a failing assert (rrbt_verify runs in every insert and delete) and an endless loop are None.
Arithmetic is of 64 bits, of 32 bits for the count, 24 and 8 bits for the grain fields.
`reach` (S_LHeap.v) are all histories of init, alloc, free of a live block, arbitrary writes of users to their live blocks, and
copying the heap to another base. `good_init` states what the code relies on: 8 byte alignment, a grain of at most 2^23, less than
2^32 grains, and 8 bytes of memory more than the size.
Theorems: live blocks are disjoint, in bounds and undisturbed by alloc and free; alloc fails iff there is no vacant run that is
long enough, else takes a smallest gap; all freed gives the whole heap; the statistics are those of the maximal gaps.
Findings: `heap_stays_in_its_memory_refuted`, `heap_block_in_its_memory_refuted` (the chunks start 8 bytes after the base but the
size is not reduced: the last grain ends 8 bytes outside, in a set over the generation number of the next array element),
`heap_alloc_huge_refuted` (wrap-around), `heap_init_ends_refuted` (grain above 2^23: endless loop), `heap_no_leak_large_refuted`
(2^32 grains: the count is cut to 32 bits and the memory is lost).
Not modelled: the mutex (functions are single steps), the signature, smallest_alloc bookkeeping other than get_info.

### Hash table, string map, JSON dictionary (M_Hash.v: C06, C07, C45)

The LIST macros of sys/queue.h at the level of pointers (le_next, le_prev pointing to a pointer), then htbl.c (alloc, empty, ins,
del, find, first, next), the dictionary functions of ovis_json.c (json_dict_new, json_attr_add, json_attr_rem, json_attr_find,
json_attr_count, json_attr_value, json_dict_free) and str_map.c (create, get, insert, remove, id_init, free). The hash functions
are those of the code: FNV-1a of 64 bits with unsigned bytes, FNV-1a of 32 bits with sign extended bytes. A pointer to memory
that is not allocated, a division by zero and a list that does not end are None. malloc gives any address that is not in use, with
any contents, or fails.
Method: `table` (L_Hash.v) says that every bucket is a well linked list of the entries of that bucket, the last inserted first; it
is kept by insert, remove, malloc and free; lookups and iteration are then read off.
Theorems: htbl for any hash function, depth >= 1 and exact comparison function; the string map for any size >= 1 and all texts:
every session returns what a finite map would. The dictionary is a finite map for names of which none is a proper prefix of
another (`json_dict_map_partial`).
Findings: `json_dict_map_refuted`, `htbl_find_refuted`: attr_cmp compares only strlen(probe) bytes, so a name finds any longer name
in the same of 23 buckets that begins with it: with "schemas" in a dictionary, "schema" is found, and adding "schema" deletes
"schemas". Both C06 and C07 need a size of at least 1: with 0 the code divides by zero (`htbl_depth_zero_undefined`).
Not modelled: the values in a dictionary (they are numbers), json_attr_mod, va_list variants, keys of 2^31 bytes or more in htbl.

### Prefix tree (M_Idx.v: C08)

All of idx.c but idx_destroy and the memory statistics: idx_create, idx_find, idx_add, idx_delete with purge_layers and purge_layer,
idx_traverse, idx_count. A layer is a value with its counters, objects and sub-layers: each layer has one pointer to it. A key is
given with the bytes that follow it in memory; reading beyond them, int overflow of a counter and the wrap of keylen are UB, a
failing assert is Abort; each malloc may fail.
Method: `get` is the map a layer stands for; add, clear and purge are followed along the key; `contents` is the sorted list of
keys and objects, unique for the map. layer_count is the number of sub-layers (invariant), hence purge never frees anything.
Theorems: every session of valid operations (keys not empty, less than 2^31 - 1 operations) returns what an ordered finite map
would, traversal is in lexicographic order; every next operation is defined, a delete if the bytes it checks are not 255;
`idx_delete_never_returns`: otherwise a delete of a key that is there never returns.
Findings: `idx_delete_aborts_refuted` (assert that key bytes are not 0xff), `idx_delete_overread_refuted` (a key of one byte: the
byte behind it is read), `idx_add_empty_refuted` (keylen 0 wraps). Deleted keys' layers are never freed before idx_destroy.

### Metric sets (M_Set.v: C19, C20, C21, C23, C37, C46)

Modelled on the bytes of the block itself (little-endian host, a function from offset to byte with a size; a load or store outside
the block is `Wild`, a failing assert or a missing descriptor is `Abort`): building a schema (schema_new, array_card_set, metric_add,
meta_add, the array variants, record_create, record_metric_add, record_add, record_array_add, list_add), __ldms_set_new's size
computation and its passes over the schema (header, names, digest, dictionary, descriptors, record types, record arrays), the ldms_heap
area only by its size and initial image; every setter (scalar, array element, array range, string, by value and by width), the getters,
the generation numbers, transaction begin/end, copy option, timestamps, duration, owner and permissions, all description queries.
Method: creation is proved by following the writing cursor of each pass (L_SetLay..L_SetMake); from there on a representation relation
(L_SetRep) ties the block to an abstract set (values per buffer, current buffer, counters, times) and each operation preserves it
(L_SetOps, L_SetTx). `set_refines` says every sequence of operations answers as the abstract set, stops exactly where the abstract set
refuses, and never leaves the block. The other theorems are read off the abstract set; where the claim is about bytes (C19,
`set_write_exact`) they are about bytes.
Preconditions made explicit (`fits`, in `create_args`): instance name at most 254 characters, schema name at most 221, a record array only
after all other data metrics, sizes below 2^32; `allowed` lists what each operation needs (source long enough, element width as declared).
Not modelled: list metrics and records after creation (their values are in the heap area), big-endian hosts, the locks, the set
directory and transport, info key/values.
Findings: `set_layout_align_refuted` (a record type with an odd number of members leaves the next meta value 4-byte aligned),
`set_layout_room_refuted` (a data metric after a record array lies outside the block), `set_described_refuted` (an instance name of 255
characters is overwritten by the schema name), `set_gn_equal_refuted` (beginning a transaction changes what is shown, not the generation),
`set_tx_nested_refuted` (a second begin publishes a half-written transaction), `set_array_range_refuted` (a range past the end is clamped,
not rejected). Not stated as theorems: schema names of 222 and more characters and name+unit of 254 and more are corrupted likewise; uid_set,
gid_set and perm_set change the metadata without a new meta generation.

### Message bookkeeping (M_Msg.v: C40)

Modelled: msg_comparator (ldmsd_request.c 604-630) on the bit-fields of the 128-bit key packed as the compiler lays them out; find_req_ctxt,
alloc_req_ctxt, __free_req_ctxt, req_ctxt_ref_get/put, ldmsd_process_config_request, ldmsd_req_cmd_new, ldmsd_process_config_response and
the release of a context by its handler, over the red-black tree of M_Rbt. What gathers records into a message and what checks and runs a
complete message are parameters (they are modelled in M_Rec/M_Line), so the theorems hold for all of them.
Spec: a table from key to what was received so far. `message_table_partial`: every session of operations answers as the table, provided all
keys used are close (connection and message numbers less than 2^31 apart) and messages are valid and released once. `message_assembled_partial`:
what is delivered is exactly the records received under that key since its first one. `message_order_partial`: on close keys the
comparison is the lexicographic order, so the tree is searched correctly.
Findings: `message_confused_refuted` (connections 2^32 apart are one), `message_lost_refuted` (message numbers in a cycle of the non-transitive
order: a continuation is not found), `message_invalid_refuted` (an invalid message unlocks a mutex that is not locked, its context stays in the
tree), `message_late_record_refuted` (a second record for a complete message frees it under its handler), `message_no_memory_refuted` (the error
paths of alloc_req_ctxt remove a node that is not in the tree).
Not modelled: the threads (each operation is one step), the transport, the reply buffers.

### Reference counts (M_Ref.v: C38)

Modelled: _ref_init, _ref_get, _ref_put (lib/src/ovis_ref/ref.h), without tracking at the level of atomic steps (the fetch-and-add, the
sub-and-fetch, the call of free_fn are separate steps of separate threads; an int that wraps), and with _REF_TRACK_ (bodies run under the lock:
one step each; assert is `TAbort`; touching the freed object is `TWild`; counts unbounded).
Spec: who holds how many references. A thread may get, put or hand over only if it holds one. By induction over executions: alive at every
allowed step, not released while anyone holds, released at most once, exactly one release done or due when nobody holds, due in the thread whose
put balances the gets. Bound: fewer than 2^31 references outstanding (in `exec`). With tracking: a use with a reference of the right name at
each put never aborts and releases at total zero; a put under a name without references always aborts.
Not modelled: memory order (the __sync builtins are full barriers), the allocation of tracking entries (calloc is asserted), ref_assert/ref_dump.

### Times (M_Time.v: C37)

Modelled: ldms_difftimestamp, ldmsd_timespec_diff/cmp/add, the flush decision of strgp_update_fn, zap_timespec_diff_us, ldms_timespec_diff_us,
__timespec_diff_us, ev_time_diff, ev_time_cmp, ev_sched_to; signed overflow is an error. Results of type double are given before rounding.
Proved: exactness, normalisation and order against instants. Findings: `time_difference_refuted` (a first time within its first second minus a
slightly later time gives 2^32 seconds), `thread_microseconds_refuted` (a clock set back gives a huge time), `event_difference_refuted`
(ev_time_diff adds the seconds where it means the nanoseconds), `event_schedule_refuted` (ev_sched_to does not carry, so the time is ordered
wrongly).

### Timers (M_Timer.v: C31, C47)

Modelled: the deadline computations of periodic and timeout events (ovis_event.c 374-391, 493-511, uint64_t arithmetic with wrap-around),
the poll timeout (354-363, conversion to int), the argument checks of ldmsd_start_sampler, resched_task for synchronous tasks (long arithmetic,
overflow is an error), the interval/offset of updaters (ldmsd_updtr_new_with_auth, updtr_task_init) and of hints, ldmsd_updtr_schedule_cmp.
Proved: for phase below period the deadline is in phase and not past; `periodic_next_partial` says exactly at which clock values it is the next
instant. Synchronous tasks: in phase, strictly future, next instant exactly if the offset is not beyond the position in the interval.
Findings: `periodic_future_refuted`/`periodic_twice_always` (without phase, a timer firing exactly on a multiple of its period fires again at
once), `periodic_earliest_refuted` (skips an instant), `periodic_zero_refuted`/`sampler_zero_refuted` (interval 0 is accepted and divides by zero),
`sampler_negative_refuted`/`sampler_negative_always` (a negative offset makes the sampler run in a busy loop for the last part of each interval),
`poll_refuted` (deadlines over 24 days ahead are waited for forever), `sync_task_refuted` (skips an instant), `sync_task_hint_refuted` (a set's
hint is not checked), `schedule_shared_refuted`, `schedule_cycle_refuted` (schedules compared by an int difference of microseconds: intervals 72
minutes apart are equal, and 1 s, 30 min, 1 h are in a cycle).

### Tasks (M_Task.v: C48)

Modelled: ldmsd_task_init/start/stop/resched/join, task_cb_fn and the scheduler thread taking a due event, each critical section under task->lock
being one step; any number of scheduler threads; success of adding the event as an input.
Proved for runs in which nothing comes between a scheduler taking the event and locking the task (`expand`), and events can be added: one thread at a
time, stopped means not armed, stop is final, join returns.
Findings, all by interleavings in that gap: `task_runs_after_join_refuted` (runs after join, when the owner has freed it), `task_null_refuted`,
`task_twice_refuted` (two threads at once after a restart); and `task_stop_lost_refuted` (a reschedule while running drops a stop request),
`task_failed_start_refuted` (a failed start is counted for its thread for good).
Removing list elements inside LIST_FOREACH in __updtr_task_tree_cleanup is C58.

### Reclaiming deleted sets (M_Reap.v: C39)

Modelled: the pass of delete_proc (peers are given by whether they are connected; the clean-up of peers' contexts is not modelled), the insertion
into the delete tree by __ldms_set_delete, destruction at the last reference, the grace period from the environment. The tree is given by its sorted
list (M_Rbt is the tree itself).
Proved: nothing is reclaimed early or with a connected peer (`reap_not_early`); `reap_partial` says exactly what a pass reclaims if no set has an
unconnected first push peer.
Findings: `reap_blocked_refuted` and `reap_starved_refuted` (the tree is ordered by address, not by time, and the pass stops at the first young
set: an old set can stay forever), `reap_hangs_refuted` (the loop over push peers does not advance), `reap_held_refuted` (a set is destroyed although
someone holds a reference).

### Allocator of pinned memory (M_MM.v: C11, C12)

Modelled: all of mmalloc.c except the debug blocks, mm_get_info and the environment switch that turns mm_free off: mm_init (for any address that mmap
returns), mm_alloc, mm_free with coalescing, mm_realloc, mm_stats, on the pointer level: both red-black trees (M_Rbt) live in the memory of the region,
which is a partial map from addresses to nodes; size_t arithmetic with wrap-around, the int comparison of counts, and the mutex (waiting for oneself is
an error). Spec (S_MM.v): `reach` = states reachable by alloc/free/resize and arbitrary writes of the users into their live blocks; `vacant`/`gap`
speak only of the live blocks. Proofs: invariant `inv` (L_MM.v: tiling of the region into free and used runs, free ones are exactly the nodes of both
trees, no two neighbours free), then L_MMTop.v.
Proved for grains over 64 bytes and less than 2^31 of them: blocks in the region, large enough, disjoint incl. prefixes, undisturbed by any allocation,
free or resize; NULL exactly if there is no gap; best fit; all freed = whole region; mm_stats exact; resize in place.
Findings: `mm_small_grain_in_region_refuted`, `mm_small_grain_disjoint_refuted` (grain 64: the 96-byte node of a one-grain chunk is outside the region
or overlaps the next block), `mm_alloc_huge_refuted`, `mm_alloc_many_grains_refuted` (4 TB request at grain 1024 writes outside instead of NULL),
`mm_alloc_aligned_refuted` (documented alignment on the grain is off by 96), `mm_init_ends_refuted`; `mm_realloc_large_enough_refuted` (prefix not
counted: the block is 96 bytes short), `mm_realloc_hangs_always`/`mm_realloc_returns_refuted` (unless the gap behind the block suffices mm_realloc calls
mm_alloc with the mutex held: deadlock, even when shrinking), `mm_realloc_zero_refuted`.
Simplified: memory is a cell per node address, so bytes of a node are not addressed singly; cells do not overlap for grains of 96 bytes and more, for
which the theorems are stated. Noted, not modelled: a failing mm_init leaves the global region pointer dangling.

### Command substitution (M_Cmd.v: C43)

Modelled: _scpy and str_repl_cmd of util.c on a buffer with a capacity (an access outside is an error; initial contents arbitrary), size_t arithmetic with
wrap-around, fgets with its int argument (GNU behaviour for sizes below 2); malloc, realloc and strdup do not fail; what a command prints is a function
of its text. Spec (S_Cmd.v): a grammar of balanced commands, `tidy` for putting an output in one line, `result`.
Proved: text without commands is unchanged for every length (`cmd_plain`); substitution (`cmd_subst_partial`) if all that is copied is at most 4095
bytes, no text ends with a space before a command, and there is text before the first command; unclosed commands are errors.
Findings: `cmd_empty_refuted` (the empty string gives an unterminated result), `cmd_first_refuted` (buff[-1] is read), `cmd_spaces_refuted`,
`cmd_attributes_refuted` (spaces before a command that prints nothing are lost, joining two attributes), `cmd_long_dropped_refuted`,
`cmd_output_dropped_refuted` (output silently dropped once the available length is 0 or has wrapped around: _scpy grows the buffer without counting it),
`cmd_long_overflow_refuted`, `cmd_output_overflow_refuted` (heap overflow), `cmd_inner_spaces_refuted` (spaces inside a line lost at the buffer end).

### Event workers (M_Ev.v: C29)

Modelled: ev_new, ev_get, ev_put, ev_post, ev_cancel, ev_posted (ev.c), ev_time_cmp, ev_time_diff, ev_sched_to, process_immediate_events,
process_to_events, worker_proc, ev_flush, ev_pending, ev_dispatch (evw.c). Any number of threads and workers; a step is one critical section or one
atomic operation; ev_post and ev_cancel are two steps each (before and after the lock). The tree is its sorted list. The posting of the semaphore is in the
step of the insertion (the code does it right after the unlock). Use of a freed event, of a field never set, removal from a tree of what is not there: `None`.
Not modelled: names and types of events, ev_worker_new, spurious returns of sem_timedwait (EINTR, or EINVAL for tv_nsec out of range), the rounding of
double in ev_time_diff, memory order outside of the locks, ev_dispatch concurrent with delivery (w_dispatch is moved by realloc without the lock).
Spec (S_Ev.v): `legal`, the rules for users (references; ev_cancel only when the event is in the tree of its worker or less than a "second" away); `posts`,
`deliveries`, `last_post`, `entered`, `delivered_from_list` on the list of observations.
Proved by an invariant over all interleavings: nothing goes wrong (`ev_no_error_partial`), posts = deliveries + pending (`ev_exactly_once_partial`), references
(`ev_references_partial`), order of list events (`ev_fifo`), earliest timer first and not early (`ev_timers_in_order`), EV_OK never before the time asked
for, to the right worker (`ev_delivered_as_posted_partial`, if nobody posts an event between its removal and its delivery), EV_FLUSH only with a cause, no lost
wake-up, `ev_pending`, `ev_posted`, ev_time_cmp is real time for normalised times, ev_dispatch.
Findings: `ev_cancel_unposted_refuted`, `ev_cancel_twice_refuted`, `ev_cancel_race_post_refuted`, `ev_cancel_race_flush_refuted`,
`ev_cancel_refused_post_refuted` (rbt_del of an event that is not in the tree), `ev_cancel_busy_cancels_refuted` (EBUSY, but delivered as EV_FLUSH),
`ev_flush_misses_refuted`, `ev_flush_before_start_refuted`, `ev_repost_race_refuted` (EV_OK before the time), `ev_ndebug_refuted` (the increment of the
reference count is inside assert), `ev_sched_to_early_refuted`, `ev_sched_to_order_refuted` (no carry of nanoseconds), `ev_time_diff_refuted` (tv_sec used
for tv_nsec), `ev_timer_starved_refuted`. Seen and not modelled: ev_type_new does not set errno for a name that exists and leaks nothing but the id;
error paths of ev_worker_new unlock a mutex that is not locked or leave a freed worker in the tree.

### List metrics (M_List.v: C22)

Modelled, on top of the heap of M_LHeap: __list_append, ldms_list_append_item, ldms_list_len, _first, _last, _next, ldms_list_remove_item,
ldms_list_purge (they call each other for lists in lists), ldms_record_alloc, ldms_list_append_record, the memset of a new value, writes of the user
to values, and the copy of the set to other memory. Lists are metrics of the set or values in the heap. Offsets, counts and the two bit fields of an entry have
their widths; access to memory that is not the heap's, a failed assert and exhausted fuel are `None`. Simplified: the memory is words of 64 bits (the cells of
M_LHeap), record types are their instance size and index, a record of another set is not modelled, ldms_record_metric_set is a write.
Spec (S_List.v): `abs` (entries, the sequence of each list, type, count, size, words of each value, generation number), `legal`, `does`, `inside`, `hist`.
Proved for all histories: `list_calls` (every legal call ends, stays in the heap and does what `does` says; NULL only if the heap has no room), `list_sequence`
(length, first, last, next, traversal), `list_append_last`, `list_values` (values are what was written last), `list_shape` (no entry in two lists, no cycle),
`list_memory` (grains of the entries + free grains = grains), `list_append_seen` (C20). `roomy`: fuel for the loops; the heap has at most 4 GB (offsets of 32 bits;
the size of the data of a set has 32 bits as well).
Findings: `list_record_once_refuted` (ldms_list_append_record takes a record that is alone in its list for a detached one: length 2, one element, purge
goes outside), `list_record_shared_refuted` (one record in two lists, use after free), `list_count_refuted` (count cut to 24 bits), `list_change_seen_refuted`
(remove, purge and append_record do not change the data generation number), `list_record_zeroed_refuted` (the value of a new record is not zeroed).

### Rails (M_Rail.v: C26)

Modelled: ldms_rail.c, the life cycle of a rail of n endpoints: __rail_connect with its error path, __rail_close, __rail_cut, __rail_cb with __rail_ev_prep and the
asserts, the references and __rail_ref_free, and for passive rails the tree of rails, the checks and sections of __rail_zap_handle_conn_req and its undo. A step is one
critical section or one call of the application's callback; all interleavings of the endpoints' events, the application's calls and the peer's requests are runs.
A failed assert, an access to the freed rail and a second removal from the tree are outcomes. Simplified: counters are unbounded; the references taken and put
just around a section count with it; the listening rail, messages, credits and quotas are not part of it.
Spec (S_Rail.v), on histories of labels and outputs: `legal` (what transports, threads and the application may do), `joined`, `settled`, `settled_last`,
`rejected_last`, `verdict`.
Proved for all n > 0 and all legal runs (invariant `Inv` in L_Rail.v, one lemma per label in L_RailStep*.v): `rail_connected`, `rail_terminal_partial`,
`rail_disconnected`, `rail_last`, `rail_verdict`, `rail_abort` (the exact condition of the only abort of an active rail), `rail_no_abort_partial`, `rail_closes`,
`rail_freed`, `rail_held`, `rail_passive_connected_partial`.
Findings: `rail_abort_refuted` (an endpoint connects after another was rejected: assert), `rail_silent_refuted` (an endpoint lost before the others connected: no event
at all), `rail_error_and_event_refuted` (connect returns an error, a terminal event follows), `rail_data_early_refuted` (data before CONNECTED),
`rail_passive_twice_refuted` (two terminal events and a second removal from the tree), `rail_passive_freed_refuted` (use after free by a request that found the rail).

### Directory replies (M_Dir.v: C49)

Modelled: process_dir_request (ldms_xprt.c) with the buffer, the restart when a set does not fit, the final reply and the error reply, sizes as size_t, snprintf with
truncation and with a write beyond the buffer as an outcome; __ldms_format_set_meta_as_json (ldms.c) with the early exits and the override of remote information.
Simplified: the text of a set up to its information is any text; sending does not fail; texts are below 2 GB; registration for updates is not part of it.
Spec (S_Dir.v): `visible` (sets found and readable), `entry`, `lists` (a reply's text), `complete`.
Proved for all lists and sizes: `dir_complete_partial` (complete, or all but the last reply, which an ENOMEM replaces when its text leaves less than six bytes),
`dir_single` (a directory that fits in one message is one reply), `dir_empty`, `dir_vanished` (the last name's set is gone: never a final reply), `dir_too_big`
(a visible set too large for a message: the function never returns and sends "]}" over and over).
Findings: `dir_vanished_refuted`, `dir_window_refuted`, `dir_too_big_refuted`.

### Information of sets (M_Info.v: C50)

Modelled: ldms_set_info_set/unset/get with the lists, the return codes and the failure of each allocation; __process_dir_set_info with the test of __process_dir_reply
before it; the encoding of names and information in the lookup message byte by byte (uint8_t lengths that wrap, writes into a buffer of the computed size) and the
receiver that reads it (reads beyond the message are an outcome), the check for an existing set. Simplified: allocations of the receiver succeed; the JSON text between
sender and receiver of a directory is not part of it (see C49 for the text).
Spec (S_Info.v): two maps (`astep`, `view`), `said` (what a listing says), `tells` (each key once, with the value).
Proved: `info_get_partial` (refinement for all sequences without empty replies), `info_listed`, `info_announced_partial`, `info_updates`, `info_set_returns`,
`info_failed_partial`, `info_chain_partial` (process to process), `info_lookup_partial` (round trip of the lookup message, strings up to 254, within bounds).
Findings: `info_get_refuted` (the origin removes its last pair: its value stays), `info_announced_refuted` (a change learnt from a directory reply is not passed on),
`info_failed_refuted` (a failed set loses the old value), `info_lookup_refuted` (a value of 300 characters arrives cut, a key of 255 hides all),
`info_lookup_exists_refuted` (the reply to a lookup names a set that exists: ref_put through NULL).

### The JSON library (M_Json.v: C51)

Modelled: the scanner rule by rule (longest match, unknown characters skipped, strtoll with base 0 and its saturation), the grammar as the generated parser runs it
(stack limit of 10000 states, what follows the value not read), json_attr_add (the former attribute goes), the dump with its buffer: the first 8192 bytes, realloc that
moves or not at each growth (a parameter), which returned pointers the code uses and which it drops. Simplified: a double is the text it was read from (strtod and
%f are not modelled); a dictionary is the list of its attributes (the hash table is C45); no NUL in texts; allocations succeed.
Spec (S_Json.v): the grammar of JSON as trees with white space (`cst`, `render`, `valid`), what a tree denotes (`meaning`), `decode` (escapes). "-0" and \u-decoding are not in it.
Proved: `json_parse_partial` (all texts up to nesting 1999), `json_total`, `json_trailing`, `json_dump_partial`, `json_dump_scalar`, `json_dump_dangling`,
`json_round_trip_partial`, `json_directory` (a reply as of C49 is read as the list of its sets, with a blank or a comma before the first).
Findings: `json_dump_refuted` (a list or dictionary beyond 8191 characters: __entity_dump drops what __list_dump and __dict_dump return, so that after a moving realloc the
freed buffer is used and returned), `json_round_trip_refuted` and `json_directory_refuted` (quotes are not escaped: a value can pass for several), `json_escape_refuted`
(escapes are not decoded), `json_integer_refuted` (saturation), `json_deep_refuted`, `json_garbage_refuted` ("1 2" is accepted).

### The connection of a producer (M_Prdcr.v: C52)

Modelled: the state of a producer, its endpoint, its task (M_Task.v: C48) and the thread in the task function; each step is one critical section: start, stop up to its unlock,
its join, its last part, the scheduler calling the function, prdcr_task_cb, the unlocked gap of a passive producer in prdcr_connect, the return from the function, and the events.
Simplified: access checks, the producer's sets, subscriptions and logging are left out; an endpoint gets the events C26 states; allocations succeed; the scheduler takes an event and
locks the task in one step (C48 has the case in between).
Spec (S_Prdcr.v): counts of connections (`live`) and attempts, `will_retry`, conditions along a run.
Proved: `prdcr_safe` (active producers, all interleavings: no failure, one connection while connecting or connected, none while stopped or disconnected), `prdcr_safe_passive_partial`,
`prdcr_stop_partial`, `prdcr_stopping_ends`, `prdcr_stopping_event`, `prdcr_retry_partial`, `prdcr_start_partial`.
Findings: `prdcr_stop_refuted` (CONNECTED delivered after the stop sets the state back to connected: when that connection ends the producer connects again although the stop returned 0),
`prdcr_retry_refuted` (a connection that is made and lost before the task function has returned: ldmsd_task_start returns EBUSY, which is ignored, and then the task stops: the producer
is disconnected for good), `prdcr_start_refuted` (the last part of a stop, run after a new start, sets "stopped" with the task armed), `prdcr_safe_passive_refuted` (prdcr_connect of a
passive producer drops the lock between publishing its callback and using the endpoint: a disconnect there makes it use NULL or a freed endpoint).

### The sets of a producer (M_PrdSet.v: C53)

Modelled: one set of a producer: its state, reference count, membership of the two trees, outstanding lookups and updates, holders of information, and threads that use the set without
reference behind an unlock; the steps are the critical sections of the directory callbacks, the updater, the callbacks of lookup and update, the reset and the queries.
A use after free or a failing assertion is `Crash`. Simplified: push, storage policies, statistics and allocation failures are left out; other sets appear only as the outcomes of the calls
for the members of a group; lookup and update call back once if they return 0.
Spec (S_PrdSet.v): `holders` (who may still use the set), `calm` (orders the code is safe in).
Proved: `pset_safe_partial`, `pset_release_partial`, `pset_group_leak` (n updates of a group leak n references), `pset_progress_partial` (also after failed lookups).
Findings: `pset_progress_refuted`, `pset_progress_sync_refuted` (after an update that failed, at once or in its callback, the state stays UPDATING and the set is passed over until the producer is reset),
`pset_group_lookup_refuted` (a group with a member that cannot be looked up stays in LOOKUP), `pset_release_refuted` (groups are never freed: the reference of schedule_set_updates is not given back),
`pset_member_refuted`, `pset_member_twice_refuted` (schedule_set_updates looks a member up without reference and state change; the callback gives a reference back),
`pset_use_refuted` (_add_cb and prdcr_dir_cb_upd use the set after unlocking), `pset_info_refuted` (ldmsd_set_info_get takes its reference after unlocking).

### Update hints (M_Hint.v: C54)

Modelled: the text of a hint, strtok_r and strtol (base 0, white space, saturation), ldmsd_set_update_hint_get, __update_set_info with its sanity check, the schedule of the task for a hint and what an
aggregator with automatic schedule publishes for a newly announced set (`aggregate`, `levels`). Simplified: the sum of offset and skew does not wrap; regular expressions and the
default task are left out (its schedule for an equal hint is the same).
Spec (S_Hint.v): `sound`, `same`, `wanted`.
Proved: `hint_round_trip`, `hint_message_partial`, `hint_async`, `hint_crash_iff`, `hint_levels_partial`, `hint_levels_end`.
Findings: `hint_message_refuted` (a hint without offset keeps the offset before, which may exceed the interval), `hint_async_refuted` (of a new set the offset is 0 and not "none": asynchronous
updates become synchronous at the next level), `hint_removed_refuted` (a hint taken back stays), `hint_get_refuted` and `hint_message_crash_refuted` (":" or an empty value: strtol(NULL)),
`hint_levels_refuted` (the offset of the second level of a 0.1 s sampler is rejected as invalid, and the set is never updated there).

### Record arrays (M_Record.v: C55)

Modelled on the memory of M_Set.v: __rec_type, __record_mdesc_get, __record_metric_get, the describing functions (type, card, find, name, unit, member type), all getters and setters of members by
width, the string functions, ldms_record_metric_set and _array_set, ldms_record_array_get_inst and _len, ldms_metric_get, and ldms_record_metric_add on a record that is in a schema already.
Simplified: errno is left out and a NULL instance is not an address.
Spec (S_Record.v): `member`, `rput`, `mshows`, `tells`, `rhistory`. The proof (L_Record.v, L_RecordOps.v) adds to the representation of sets the invariant `intact`: the headers of all instances in all
buffers are the ones written at creation.
Proved: `rec_access`, `rec_write`, `rec_keep`, `rec_gn_equal_partial`, `rec_index_unchecked` (every access with a member index out of range dereferences NULL).
Findings: `rec_gn_equal_refuted` (a transaction that begins without copying changes the members and not the generation number), `rec_tx_isolated_refuted` (members are read from the buffer that is
being written), `rec_align_refuted` (u64 members lie at 4 modulo 8), `rec_no_instances_refuted` (with the number of buffers set to 0 the arrays are left without instances),
`rec_late_member_refuted` (a member added after an array was declared lies over the next instance).

### Times in configuration texts (M_TimeStr.v: C56)

Modelled: ovis_time_str2us and ldmsd_timespec_from_str, _add, _diff, _cmp. strtod is modelled for the "C" locale with signs, decimals, exponents, inf and nan; double is IEEE binary64 (SpecFloat of the
standard library), and the conversion of a double out of the range of long is a distinct outcome. Simplified: hexadecimal numbers have the outcome TOther; the double nearest to m*10^e for e < 0
is the division rounded once; sums of seconds do not overflow. Not modelled: ldmsd_timespec_from_str's own errors of memory.
Spec (S_TimeStr.v): the units with their micro- and nanoseconds, `time`, `denotes`, `normal`, `ns`. L_TimeStr.v proves that integers below 2^53 go through multiplication exactly; L_TimeNear.v bounds
the rounding of division and multiplication by 2^-52, with rationals only.
Proved: `time_whole`, `tspec_whole` (whole numbers exact below 2^53), `time_near_partial`, `tspec_near_partial` (decimals: exact or one unit less, below 2^48), `time_unknown_unit`, `time_no_number`,
`time_empty`, `tspec_unknown_unit`, `tspec_add`, `tspec_diff`, `tspec_cmp`.
Findings: `time_frac_refuted`, `tspec_frac_refuted` ("1.001s" is read one micro- or nanosecond short, because the product is cut instead of rounded), `time_unit_refuted` ("5msec" is 5 minutes),
`time_range_refuted`, `tspec_range_refuted` ("1e30", "inf" have no defined result), `tspec_malformed_refuted` ("s" and "1.2.3s" are accepted), `tspec_space_refuted` ("1 s" is refused by one of
the two functions and taken by the other).

### The log (M_Log.v: C57)

Modelled: the level texts (__str_to_loglevel, ovis_log_str_to_level, ovis_log_level_to_str), subsystems with reference counts (register, destroy, find), the setting and getting of levels by handle, name and
expression, ovis_vlog with and without the worker, log_actor, ovis_log_init, and the destination (ovis_log_open, __log_reopen, __log_close, __cache_stdout_stderr, descriptors 0 to 2).
Simplified: each function is a step of its own (so the lookup and the insertion of ovis_log_register are one step), memory is never short, files open, dup2 succeeds, a regular expression is the set of
names it matches, and the reference taken for the time of ovis_vlog is left out. Not modelled: ovis_log_list, the format of times, the text passed to syslog.
Spec (S_Log.v): `names`, `at_least`, `join`, `pending` (lines written or waiting), `enabled`, `proper` use of handles, `used` states.
Proved: `lvl_single`, `lvl_list`, `lvl_unknown`, `lvl_unknown_list`, `lvl_round`, `lvl_str_invalid`, `log_safe`, `log_line`, `log_kept`, `log_drain`, `log_set`, `log_set_name`, `log_register`,
`log_register_twice`, `log_regex_partial`, `log_goes`.
Findings: `log_regex_refuted` (setting levels by expression fails with 1 although it was done, if the last subsystem by name does not match), `log_regex_invalid_refuted` (an invalid level is accepted),
`log_get_null` (ovis_log_get_level(NULL) dereferences NULL; ldmsd does so if -v is given twice), `log_again_refuted` (a destroyed subsystem cannot be registered again while a message waits),
`log_init_default_refuted`, `log_rc_refuted` (a positive number instead of 0), `lvl_default_refuted`, `lvl_always_refuted`, `lvl_comma_refuted`, `log_syslog_refuted` (a file opened after syslog: fflush
of the pointer 7), `log_close_refuted` (the cached descriptors are both 0: lines go to stderr after closing and standard input is replaced), `log_close_twice_refuted` (a closed FILE is used).

### The tasks of updaters (M_Updtr.v: C58)

Modelled: ldmsd_updtr_tasks_update, updtr_tasks_create, updtr_task_find/new/init, schedule_updates and the choice of sets in schedule_prdcr_updates, __updtr_task_tree_cleanup with updtr_task_next, start and stop
of updaters, ldmsd_prd_set_updtr_task_update and what _add_cb and prdcr_dir_cb_upd do with hints; one updater, the sets of one producer. A task's function and its end are two steps, so that others come between.
Simplified: key comparison is exact (C47 has where it is not), the order of sets of a hint, memory, writing the set information; what is done with a set (C53), and the gap before the function of a task (C48), are elsewhere.
Spec (S_Updtr.v): `asked`, `next_time`, `calm` (no set gets a hint while the task of that hint is in its function), `tidy` (no clean up then), `disjoint`.
Proved: `auto_set_updated_partial` (for calm sequences; missing: the others, refuted below, and sets without hint), `manual_set_updated`, `auto_only_its_task`, `auto_one_task`, `auto_once_partial` (if no two
matches select the set), `stop_final`, `cleanup_safe_partial`.
Findings: `auto_lost_refuted` with `auto_idle_stays` (a set announced while its task is stopping itself is not updated again: EBUSY of ldmsd_task_start is not looked at), `auto_nohint_refuted` with `auto_nohint_never`
(sets without hint are not updated at all although the default schedule is reported), `auto_once_refuted` (a set selected by two matches is gone through twice and counts a skipped update), `auto_push_refuted`
(updtr_start with auto_interval on a push updater), `cleanup_refuted`, `cleanup_never`, `tasks_grow` (no task is ever deleted: F_STOP is cleared when the task stops, and only the first task is looked at),
`cleanup_freed_refuted` (when one is found it is read after the free).

### Storage policies (M_Strgp.v: C59)

Modelled: strgp_open, strgp_close, ldmsd_strgp_update_prdcr_set, ldmsd_prdcr_update, ldmsd_strgp_update, start and stop, metric_add and metric_del, what deleting a set does to its references, the call of the store
when an update completes; policies without decomposition. A second small model has only the locks of a start, a stop and a store, as sequences of lock operations that interleave.
Simplified: in the first model each function is one step; metric names are numbers; digests are equal exactly if the metric names are; memory. Not modelled: decomposition, flush, rotation, row caches, producer matches
being changed, ldmsd_strgp_close (which keeps the lock of policies that are not running: its `goto next` skips the unlock).
Spec (S_Strgp.v): `named` (indices that are those of names), `smooth`, `no_list`, `stored_sets`, `deadlock`.
Proved: `strgp_stored_right` (whatever came before, what is stored is of a selected set of a running policy, and the indices are those of the names of the policy in that set), `strgp_taken_up_stored`,
`strgp_stop_final`, `strgp_all_stored_partial` (if all selected sets have the same metrics, those asked for are among them, and the store opens; missing: the other runs, refuted below), `strgp_list_stored_partial` (metrics asked for before all else are what is stored, in that order; missing: lists changed later).
Refuted: `strgp_list_late_refuted` (after a run for all metrics these are the list, so a metric that is then asked for is refused and all are still stored), `strgp_all_metrics_refuted` (an open that failed leaves the metrics of that set in the list, so that a policy for all metrics stores only these of the next set), `strgp_never_stored_refuted` (... or nothing,
also after a restart), `strgp_restart_refuted` (the digest is kept for ever: sets whose metrics changed while the policy was stopped are refused), `strgp_count_refuted` (prdset_cnt is not decreased by a stop),
`strgp_arrays_refuted` and `strgp_arrays_grow` (each restart leaks an array of metric indices), `strgp_deadlock_refuted` (ldmsd_prdcr_update unlocks the policy while it holds the producer list: a start that overlaps a
stop takes the policy and waits for the list, and the stop waits for the policy).

### Rollover of CSV files (M_CsvRoll.v: C60)

Modelled: the checks of rolltype, rollover and rollagain in config, the time to sleep in rolloverThreadInit (with int overflow as undefined), the sequence of rolls with a delay after each, and the counters store_count,
byte_count and lastflush in store and in the rollover of a file.
Simplified: whole seconds, days of 86400 seconds (no daylight saving), one line for each record, lines are only written out by flushes. Not modelled: names, owners, headers, the second fclose of the new file when the header
file cannot be opened (store_csv.c:338-340 closes it and then err_4 closes it again).
Spec (S_CsvRoll.v): `every`, `at_phase`, `daily`, `timed`, `delays`.
Proved: `csv_sleep_min` (at least 10 seconds), `csv_interval_partial` (type 1; missing: rolls that take time, which come on top), `csv_daily_partial` (type 2: every day at its time; missing: rolls that go on past
midnight, times beyond the day), `csv_again_partial` (type 5 when rollagain divides the day; missing: other periods), `csv_not_empty`, `csv_lines_buffered_partial` (rolled by records or bytes or not at all; missing: by time).
Refuted: `csv_daily_refuted` (a roll at 23:59:59 that takes a second makes the next day go without), `csv_first_roll_refuted` (on the day of the start there is no roll although its time is still to come),
`csv_beyond_day_refuted` (rollover=90000 rolls every second day), `csv_again_refuted` (with rollagain=50000 the roll at midnight is left out), `csv_overflow_refuted` (accepted values overflow int),
`csv_lines_unbounded_refuted` (a roll by time sets the count of lines to 0 but not that of the last flush: as many lines as before stay in the buffer, however many).

### Set groups (M_Group.v: C61)

Modelled: ldmsd_group_set_add, ldmsd_group_set_rm, ldmsd_group_member_name and ldmsd_group_iter, on top of the information of sets (M_Info.v, C50); the group and the copy of one aggregator that gets every directory update.
Simplified: allocations succeed, the callback returns 0. Not modelled: the limits of the lookup message (C50 has them), parsing of the commands setgroup_ins and setgroup_rm, the updates of members.
Spec (S_Group.v): `fits`, `is_member`.
Proved: `group_members`, `group_result`, `group_mirrored_partial` (missing: groups that were emptied). Refuted: `group_last_member_refuted` (an update without information is ignored, so aggregators keep the last member),
`group_copy_refuted` (on a copy, an added member that is there already is given twice, and a removal reports success but the member stays).
