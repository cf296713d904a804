{"id": "C01", "title": "Red-black tree is an ordered multiset under any insert/delete history", "statement": "After any sequence of inserts of fresh nodes and deletes of member nodes, walking the tree from its minimum by successor visits exactly the nodes currently inserted, in comparator order with equal keys in insertion order, and the reported cardinality equals their number; no operation follows a dangling or null link.", "quantifier": "every total-order comparator, every finite history of insert and delete calls on fresh/member nodes", "why_tests_cant": "The fix-up code has dozens of rotation/colour configurations whose reachability depends on the whole history; tests sample a few histories.", "anchors": [{"file": "lib/src/coll/rbt.c", "symbols": ["rbt_ins", "rbt_del", "rotate_left", "rotate_right", "delete_case2"]}, {"file": "lib/src/coll/rbt.h", "symbols": ["struct rbn", "struct rbt"]}]}
{"id": "C02", "title": "Red-black tree stays balanced", "statement": "After any history of inserts and deletes the longest root-to-leaf path visits at most 2*log2(n+1) nodes, where n is the number of nodes in the tree, so every lookup terminates in logarithmic time.", "quantifier": "every history of insert and delete calls, every tree size", "why_tests_cant": "A violated colour invariant costs only performance and shows up after long histories; no finite test set covers all shapes.", "anchors": [{"file": "lib/src/coll/rbt.c", "symbols": ["rbt_ins", "rbt_del"]}]}
{"id": "C03", "title": "Red-black tree queries are exact", "statement": "In any tree obtained by inserts and deletes, find returns a node with an equal key iff one exists; find-greatest-lower-bound returns a node with the greatest key <= the probe iff one exists; find-least-upper-bound a node with the least key >= the probe iff one exists; min/max return the extreme nodes; succ/pred return the in-order neighbours.", "quantifier": "every reachable tree, every probe key (present, absent, outside the range), every node", "why_tests_cant": "Boundary answers (probe outside the range, duplicates, single-child paths) depend on shape, and shapes are unbounded.", "anchors": [{"file": "lib/src/coll/rbt.c", "symbols": ["rbt_find", "rbt_find_glb", "rbt_find_lub", "rbt_min", "rbt_max", "rbn_succ", "rbn_pred"]}]}
{"id": "C04", "title": "Relocatable red-black tree is position independent", "statement": "The relocatable tree stored inside a region gives the same answers after the whole region is copied to any other base address: every insert, delete and query commutes with relocation, and it satisfies the same ordered-multiset contract as the pointer tree.", "quantifier": "every base address, every history of operations, every relocation point in the history", "why_tests_cant": "Tests map the region at a handful of addresses; the claim is about all bases and all histories.", "anchors": [{"file": "ldms/src/core/rrbt.c", "symbols": ["rrbt_ins", "rrbt_del", "rrbt_find", "rrbt_find_lub", "rrbt_find_glb"]}]}
{"id": "C05", "title": "Priority heap pops the minimum", "statement": "Popping from the binary heap always returns an element that no remaining element precedes, after any history of inserts, pops, removes and updates; nothing is lost or duplicated and each element knows its slot.", "quantifier": "every history of insert/pop/remove/update, every key assignment", "why_tests_cant": "Heap-order damage only appears for particular key patterns at particular depths.", "anchors": [{"file": "lib/src/coll/heap.c", "symbols": ["ovis_heap_insert", "ovis_heap_pop", "ovis_heap_remove", "ovis_heap_update"]}]}
{"id": "C06", "title": "Hash table is a stack-per-key multimap", "statement": "With a comparison function that holds exactly for equal keys, a lookup returns the most recently inserted, not yet deleted entry whose key equals the probe, and NULL iff there is none; iteration visits each live entry exactly once; this is independent of table depth, hash function and hash collisions.", "quantifier": "every history of insert/delete, every depth >= 1, every hash function, every key set including colliding keys", "why_tests_cant": "Collision patterns and deletion orders are unbounded.", "anchors": [{"file": "lib/src/coll/htbl.c", "symbols": ["htbl_ins", "htbl_del", "htbl_find", "htbl_first", "htbl_next"]}]}
{"id": "C07", "title": "String map is a finite map with error reporting", "statement": "The string map behaves as a finite map from strings to values: insert of a present key fails with EEXIST and changes nothing, remove of an absent key fails with ENOENT, get returns the value last inserted.", "quantifier": "every history of insert/remove/get, every table size >= 1, all strings including colliding ones", "why_tests_cant": "Unbounded histories and collisions.", "anchors": [{"file": "lib/src/coll/str_map.c", "symbols": ["str_map_insert", "str_map_remove", "str_map_get"]}]}
{"id": "C08", "title": "Byte-string trie is an ordered finite map", "statement": "The radix-256 trie behaves as a finite map from non-empty byte strings to objects: add fails on a present key, delete removes exactly that key and never aborts the process, find returns the object last added, traversal visits keys in lexicographic order, and the object count equals the number of keys.", "quantifier": "every history of add/delete/find on arbitrary non-empty byte strings", "why_tests_cant": "The key space is all byte strings; particular byte values (0xff) select untested branches.", "anchors": [{"file": "lib/src/coll/idx.c", "symbols": ["idx_add", "idx_find", "idx_delete", "idx_traverse", "purge_layer"]}]}
{"id": "C09", "title": "Set-heap blocks are in bounds and disjoint", "statement": "Every block handed out by the in-set heap lies entirely within the region the heap was given and overlaps no other live block and no allocator metadata still in use.", "quantifier": "every history of alloc/free with any sizes, every region size and grain", "why_tests_cant": "Fragmentation states are unbounded; an overlap corrupts user data only in particular histories.", "anchors": [{"file": "ldms/src/core/ldms_heap.c", "symbols": ["ldms_heap_init", "ldms_heap_alloc", "ldms_heap_free"]}]}
{"id": "C10", "title": "Set-heap conserves and coalesces memory", "statement": "At every moment live blocks plus free chunks tile the managed area exactly, no two free chunks are adjacent, an allocation fails only when no free chunk is large enough, and freeing everything restores one chunk of the original size.", "quantifier": "every history of alloc/free", "why_tests_cant": "Leaks and missed merges accumulate over unbounded histories.", "anchors": [{"file": "ldms/src/core/ldms_heap.c", "symbols": ["ldms_heap_alloc", "ldms_heap_free", "ldms_heap_get_size"]}]}
{"id": "C11", "title": "Pinned-memory allocator blocks are in bounds, large enough and disjoint", "statement": "Every block returned by the pinned-memory allocator holds at least the requested number of bytes, lies inside the region, and overlaps no other live block nor the allocator's own free-list nodes, for every grain size the API accepts.", "quantifier": "every history of alloc/free, every region size, every accepted grain", "why_tests_cant": "The free-node overlap depends on grain and on the exact fragmentation.", "anchors": [{"file": "lib/src/mmalloc/mmalloc.c", "symbols": ["mm_init", "mm_alloc", "mm_free"]}]}
{"id": "C12", "title": "Resizing a pinned-memory block", "statement": "Resizing a live block returns a block of at least the requested size that starts with the old contents and leaves the allocator usable.", "quantifier": "every allocator state, every live block, every requested size", "why_tests_cant": "Depends on fragmentation and on the size arithmetic at boundaries.", "anchors": [{"file": "lib/src/mmalloc/mmalloc.c", "symbols": ["mm_realloc"]}]}
{"id": "C13", "title": "Streaming base64 encoder is correct for every chunking", "statement": "Feeding a byte string to the streaming encoder in any split into blocks yields the same text as feeding it at once; removing line breaks and decoding by RFC 4648 gives back the input; no line is longer than 72 characters.", "quantifier": "every byte string, every split into blocks", "why_tests_cant": "Lengths modulo 3, line wrap position and block boundaries interact; the input space is infinite.", "anchors": [{"file": "lib/src/third/cencode.c", "symbols": ["base64_encode_block", "base64_encode_blockend", "base64_encode_value"]}]}
{"id": "C14", "title": "Base-62 text identifies its input", "statement": "Two different byte strings of the same length have different base-62 encodings, and the output length depends only on the input length and fits the documented buffer size.", "quantifier": "every pair of byte strings of equal length", "why_tests_cant": "Collisions are sparse (one 4-byte tail in five has one) and invisible to sampled tests.", "anchors": [{"file": "lib/src/third/b62encode.c", "symbols": ["b62_encode"]}]}
{"id": "C15", "title": "Digest text form round-trips", "statement": "Printing a set digest and parsing the text gives the same digest; parsing accepts exactly the 64-character hexadecimal strings.", "quantifier": "every 32-byte digest; every candidate string", "why_tests_cant": "2^256 digests; malformed strings are unbounded.", "anchors": [{"file": "ldms/src/core/ldms.c", "symbols": ["ldms_digest_str", "ldms_str_digest", "ldms_digest_cmp"]}]}
{"id": "C16", "title": "Configuration messages survive record fragmentation", "statement": "A message appended piecewise to a transport buffer is emitted as records no larger than the transport maximum, the first and only the first marked start, the last and only the last marked end, and gathering the records at the peer yields exactly the concatenation of the pieces with the correct total length.", "quantifier": "every list of pieces (sizes, contents), every transport maximum larger than the header", "why_tests_cant": "Piece sizes relative to the buffer boundary are unbounded combinations.", "anchors": [{"file": "ldms/src/ldmsd/ldmsd_request_util.c", "symbols": ["ldmsd_msg_buf_send", "ldmsd_msg_gather"]}]}
{"id": "C17", "title": "Accepted configuration requests are well formed", "statement": "When the daemon accepts a gathered request as valid, every attribute lies inside the message, every non-empty attribute value is NUL terminated inside the message, the list is terminated inside the message, and validation itself read only bytes of the message.", "quantifier": "every byte content and length of the message received from a peer", "why_tests_cant": "The attacker chooses all bytes; one 32-bit wrap suffices.", "anchors": [{"file": "ldms/src/ldmsd/ldmsd_request.c", "symbols": ["validate_ldmsd_req", "ldmsd_process_config_request"]}]}
{"id": "C18", "title": "Configuration command lines reach the daemon unchanged", "statement": "Parsing a command line into records of any permitted maximum size and gathering them yields a request that passes validation and whose attributes are exactly the name=value words of the line, in order.", "quantifier": "every command line with known attribute names, every transport maximum larger than the header", "why_tests_cant": "Line lengths, word counts and record size combine without bound.", "anchors": [{"file": "ldms/src/ldmsd/ldmsd_request_util.c", "symbols": ["ldmsd_parse_config_str", "__ldmsd_parse_generic", "add_attr_from_attr_str", "__ldmsd_parse_plugin_config"]}]}
{"id": "C19", "title": "Set layout places every metric inside its section without overlap", "statement": "For every schema, the sizes computed for a new set leave room for every metric: each metric's descriptor and value lie inside the meta or data section they belong to, are 8-byte aligned, and no two overlap nor overlap the header, dictionary or names.", "quantifier": "every schema (any number of metrics, any types, array lengths, record definitions, name lengths) and instance name", "why_tests_cant": "The schema space is infinite; an overlap shows only as silent corruption of another metric.", "anchors": [{"file": "ldms/src/core/ldms.c", "symbols": ["ldms_set_create", "compute_set_sizes", "__ldms_value_size_get", "__make_mdesc"]}]}
{"id": "C20", "title": "Generation numbers reveal every change", "statement": "Every successful modification of a data metric strictly increases the set's data generation number, and nothing else changes it; so two snapshots with equal data generation have equal metric values.", "quantifier": "every sequence of metric updates through the public setters, list operations and transactions", "why_tests_cant": "Requires all update paths and all histories.", "anchors": [{"file": "ldms/src/core/ldms.c", "symbols": ["ldms_metric_set", "ldms_list_append_item", "ldms_list_remove_item", "ldms_transaction_begin", "ldms_transaction_end", "__ldms_gn_inc"]}]}
{"id": "C21", "title": "Readers never see a half-updated transaction as consistent", "statement": "In a set with several buffers, while a transaction is open readers of the set see the values of the last completed transaction, and after the transaction ends they see all values written in it; a set copied mid-transaction reports itself inconsistent.", "quantifier": "every history of transactions, every number of buffers, every interleaving of reads", "why_tests_cant": "Depends on the rotation of buffers over unbounded histories and the point at which a reader looks.", "anchors": [{"file": "ldms/src/core/ldms.c", "symbols": ["ldms_transaction_begin", "ldms_transaction_end", "ldms_set_is_consistent", "__mval_to_get", "__mval_to_set"]}]}
{"id": "C22", "title": "List metrics behave as sequences", "statement": "A list metric behaves as a finite sequence: append adds at the end, remove deletes exactly that element, traversal from first by next yields the sequence, the reported length is its length, and purge frees everything.", "quantifier": "every history of append/remove/purge, including appends of detached records", "why_tests_cant": "Linked offsets inside the set's own heap; histories are unbounded.", "anchors": [{"file": "ldms/src/core/ldms.c", "symbols": ["ldms_list_append_item", "ldms_list_remove_item", "ldms_list_first", "ldms_list_next", "ldms_list_purge", "ldms_list_append_record"]}]}
{"id": "C23", "title": "Array metric writes never touch neighbouring metrics", "statement": "Writing count elements at a start index into an array metric changes exactly the elements in range, rejects ranges past the end, and leaves every other byte of the set unchanged.", "quantifier": "every array length, start, count and content", "why_tests_cant": "Boundary arithmetic for all sizes.", "anchors": [{"file": "ldms/src/core/ldms.c", "symbols": ["ldms_metric_array_set", "ldms_metric_array_set_val", "ldms_array_set_u64"]}]}
{"id": "C24", "title": "Send credits are conserved", "statement": "On a rail endpoint with limited credits, available credit plus bytes in flight to the peer equals the limit at all times, credit never goes below zero, and a send that would exceed it fails with ENOBUFS without taking credit.", "quantifier": "every interleaving of any number of concurrent senders and credit returns, every limit and message size", "why_tests_cant": "Thread interleavings of the compare-and-swap loop are unbounded.", "anchors": [{"file": "ldms/src/core/ldms_rail.c", "symbols": ["__credit_acquire", "__credit_release", "__rail_send", "__rail_process_send_credit"]}]}
{"id": "C25", "title": "Rate limit is never exceeded", "statement": "With a byte rate limit, the bytes admitted in any one second never exceed the limit, whatever the number of publishing threads.", "quantifier": "every interleaving of publishers, every sequence of clock readings", "why_tests_cant": "The failing schedule needs a stale compare-and-swap across a second boundary.", "anchors": [{"file": "ldms/src/core/ldms_rail.c", "symbols": ["__rate_credit_acquire", "__rate_credit_release"]}]}
{"id": "C26", "title": "A rail reports connection life-cycle exactly once", "statement": "For a rail of n endpoints the application sees at most one CONNECTED event and only after all n endpoints connected; it sees exactly one terminal event (error, rejected or disconnected), after which no more events; and no endpoint event order aborts the process.", "quantifier": "every n and every order of endpoint events permitted by the transport", "why_tests_cant": "n! orders of endpoint events, mixed failures.", "anchors": [{"file": "ldms/src/core/ldms_rail.c", "symbols": ["__rail_cb", "__rail_ev_prep"]}]}
{"id": "C27", "title": "Stream messages are delivered intact across fragmentation", "statement": "A stream message of any length published to a remote subscriber is cut into fragments no larger than the transport maximum whose reassembly at the peer equals the message name and data, exactly once, even when fragments of different messages are interleaved.", "quantifier": "every message length and content, every transport maximum, every interleaving of fragments of different messages", "why_tests_cant": "Sizes and interleavings are unbounded; failing sizes are just above one fragment.", "anchors": [{"file": "ldms/src/core/ldms_stream.c", "symbols": ["__part_send", "__rep_publish", "__process_stream_msg"]}]}
{"id": "C28", "title": "Each matching stream subscriber gets each message once", "statement": "A message delivered to a stream is passed exactly once to every subscriber whose name or pattern matches at delivery time and to no other, whatever the order in which streams and subscriptions were created.", "quantifier": "every order of stream creation, subscription and closing; every set of patterns", "why_tests_cant": "Creation orders and pattern sets are unbounded.", "anchors": [{"file": "ldms/src/core/ldms_stream.c", "symbols": ["__stream_get", "__client_stream_bind", "__stream_deliver", "__client_subscribe"]}]}
{"id": "C29", "title": "Events are delivered exactly once", "statement": "In the event-worker library each successful post of an event is followed by exactly one delivery to its worker, or one cancelled delivery if it is cancelled, timer events are delivered in time order and not early, and the event's reference count returns to its value before the post.", "quantifier": "every interleaving of post, cancel, flush and worker steps; every set of timeouts", "why_tests_cant": "Concurrent schedules.", "anchors": [{"file": "lib/src/ovis_ev/ev.c", "symbols": ["ev_post", "ev_cancel", "ev_sched_to", "ev_time_diff"]}, {"file": "lib/src/ovis_ev/evw.c", "symbols": ["process_immediate_events", "process_to_events", "ev_flush"]}]}
{"id": "C30", "title": "The scheduler's timer heap always exposes the earliest timer", "statement": "After any sequence of adding, removing and updating timers, the event scheduler's next wake-up is the earliest deadline of all registered timers, and popping yields them in deadline order.", "quantifier": "every history of insert/remove/update/pop, every deadline assignment", "why_tests_cant": "Heap damage after a removal shows only for particular shapes.", "anchors": [{"file": "lib/src/ovis_event/ovis_event.c", "symbols": ["ovis_event_heap_insert", "ovis_event_heap_remove", "ovis_event_heap_update", "ovis_event_heap_pop"]}]}
{"id": "C31", "title": "Periodic timers fire in the future and in phase", "statement": "After a periodic timer fires, its next deadline is strictly in the future, is congruent to the phase modulo the period, and is the earliest such instant.", "quantifier": "every clock value, period and phase", "why_tests_cant": "The failing clock values are isolated points.", "anchors": [{"file": "lib/src/ovis_event/ovis_event.c", "symbols": ["ovis_event_heap_process", "__ovis_event_next_wakeup"]}]}
{"id": "C32", "title": "Access checks grant only what the mode bits allow", "statement": "An access request is granted iff the requester is root, or the object's permission bits of the class the requester belongs to contain every requested bit.", "quantifier": "all uid/gid/permission combinations", "why_tests_cant": "The combination space (2^64 ids, 512x512 modes) with multi-bit requests.", "anchors": [{"file": "lib/src/ovis_util/util.c", "symbols": ["ovis_access_check"]}, {"file": "ldms/src/core/ldms_xprt.c", "symbols": ["ldms_access_check"]}]}
{"id": "C33", "title": "Environment substitution is exact", "statement": "Substituting environment variables in a string replaces exactly the ${NAME} occurrences by their values, leaves all other characters unchanged, and never writes outside the result buffer.", "quantifier": "every input string, every environment", "why_tests_cant": "Number and placement of references is unbounded.", "anchors": [{"file": "lib/src/ovis_util/util.c", "symbols": ["str_repl_env_vars"]}]}
{"id": "C34", "title": "Command words are tokenised without loss", "statement": "Tokenising a command string yields, in order, the words split at blanks; words containing '=' become name/value pairs split at the first '=', the others become keywords; a full list is reported, never overflowed.", "quantifier": "every string, every list capacity", "why_tests_cant": "All strings, all capacities.", "anchors": [{"file": "lib/src/ovis_util/util.c", "symbols": ["tokenize", "av_value", "av_add"]}]}
{"id": "C35", "title": "Size suffixes mean powers of 1024", "statement": "A memory size string with suffix B, K, M, G or T (either case) denotes the number times 1024^0, 1024^1, 1024^2, 1024^3 or 1024^4.", "quantifier": "every decimal number and suffix", "why_tests_cant": "Simple but unbounded in the number; kept because a user relies on each suffix.", "anchors": [{"file": "lib/src/ovis_util/util.c", "symbols": ["ovis_get_mem_size"]}]}
{"id": "C36", "title": "Dynamic strings equal the concatenation of what was appended", "statement": "After any sequence of appends, sets and truncations, the dynamic string's text is the concatenation it should be, its length is exact, and the buffer always has room for the text and its terminator.", "quantifier": "every sequence of operations and every string", "why_tests_cant": "Crossing from inline to heap storage and doubling depends on the history of lengths.", "anchors": [{"file": "lib/src/ovis_util/dstring.c", "symbols": ["dstrcat", "dstr_set", "dstr_trunc", "dstr_init2"]}]}
{"id": "C37", "title": "Timestamp arithmetic is exact", "statement": "The recorded duration of a transaction equals end minus begin as an exact microsecond count with normalised fields whenever end is not before begin; differences and sums of times are exact, and time comparison agrees with the order of instants.", "quantifier": "all normalised timestamps", "why_tests_cant": "Borrow cases at second boundaries.", "anchors": [{"file": "ldms/src/core/ldms.c", "symbols": ["ldms_transaction_end", "ldms_difftimestamp"]}, {"file": "lib/src/ovis_ev/evw.c", "symbols": ["ev_time_cmp", "ev_time_diff", "ev_sched_to"]}, {"file": "ldms/src/ldmsd/ldmsd_strgp.c", "symbols": ["ldmsd_timespec_diff", "ldmsd_timespec_cmp", "ldmsd_timespec_add"]}, {"file": "lib/src/ovis_event/ovis_event.c", "symbols": ["__timespec_diff_us"]}]}
{"id": "C38", "title": "Reference counts free exactly once", "statement": "An object with a reference count is released exactly once, at the put that balances the last get, and never before, under any interleaving of gets and puts by holders.", "quantifier": "every interleaving of get/put sequences in which each put is preceded by its get, with fewer than 2^31 references outstanding", "why_tests_cant": "Interleavings.", "anchors": [{"file": "lib/src/ovis_ref/ref.h", "symbols": ["_ref_get", "_ref_put", "_ref_init"]}]}
{"id": "C39", "title": "Deleted sets are reclaimed in order of deletion", "statement": "A deleted set is reclaimed at the first reaper pass after its grace period has elapsed, irrespective of other deleted sets, and not before; the reaper always terminates its pass.", "quantifier": "every collection of deleted sets and deletion times", "why_tests_cant": "Skipping depends on the relative order of addresses and times.", "anchors": [{"file": "ldms/src/core/ldms.c", "symbols": ["delete_proc", "ldms_set_delete"]}]}
{"id": "C40", "title": "Message bookkeeping distinguishes all outstanding messages", "statement": "The daemon's bookkeeping of partially received messages never confuses two messages with different connection or message numbers, and always finds the one a continuation record belongs to.", "quantifier": "every set of outstanding (connection, message number) pairs", "why_tests_cant": "A comparator that is not a total order fails only for far-apart numbers.", "anchors": [{"file": "ldms/src/ldmsd/ldmsd_request.c", "symbols": ["msg_comparator", "find_req_ctxt", "ldmsd_process_config_request"]}]}
{"id": "C41", "title": "Configuration keywords resolve exactly", "statement": "Looking up a verb or attribute name yields an identifier if and only if the keyword is listed, and then the listed one; no listed keyword is unreachable.", "quantifier": "every byte string used as a verb or attribute name", "why_tests_cant": "The lookup is a binary search over a hand-sorted table; one misplaced entry makes only some keywords unreachable.", "anchors": [{"file": "ldms/src/ldmsd/ldmsd_request_util.c", "symbols": ["ldmsd_req_str2id", "ldmsd_req_attr_str2id", "req_str_id_table", "attr_str_id_table"]}]}
{"id": "C42", "title": "Joining path components never overruns the buffer", "statement": "Joining components with a separator into a caller's buffer yields exactly the components separated by the separator and terminated, or reports that the buffer is too small leaving a terminated prefix; no byte outside the buffer is written.", "quantifier": "every list of components, separator and buffer size", "why_tests_cant": "The boundary depends on all component lengths, separator length and buffer size at once.", "anchors": [{"file": "lib/src/ovis_util/util.c", "symbols": ["ovis_join_buf"]}]}
{"id": "C43", "title": "Command substitution in configuration values", "statement": "In an environment setting of a trusted configuration every $(command) with balanced parentheses is replaced by what the command prints, put in one line, and nothing else of the string changes; an unclosed command is an error; no memory outside the buffers is accessed.", "quantifier": "every string, every output of the commands, of any length", "why_tests_cant": "the failures are at particular total lengths around the buffer size and at particular positions of spaces", "anchors": [{"file": "lib/src/ovis_util/util.c", "symbols": ["str_repl_cmd", "_scpy"]}]}
{"id": "C44", "title": "Neighbour helpers of the red-black tree return what they promise", "statement": "The helper returning the greatest node less than or equal to a node gives a node that is not greater, and NULL only for the minimum; the mirror helper gives a node that is not less, and NULL only for the maximum.", "quantifier": "every tree, every node", "why_tests_cant": "The answer depends on the position of the node in the tree; the helpers have no test at all.", "anchors": [{"file": "lib/src/coll/rbt.c", "symbols": ["rbt_greatest_lt_or_eq", "rbt_least_gt_or_eq"]}]}
{"id": "C45", "title": "JSON dictionary is a finite map", "statement": "A JSON dictionary behaves as a finite map from names to values: adding a name replaces the value of exactly that name, removing a name removes exactly that name and fails with ENOENT iff it is absent, a lookup of a name returns its value and nothing iff it is absent, and freeing the dictionary frees each attribute once.", "quantifier": "every history of add/remove/find/count, all names, including names that are prefixes of each other", "why_tests_cant": "Whether two names disturb each other depends on a hash of both; only some pairs of names out of infinitely many do.", "anchors": [{"file": "lib/src/ovis_json/ovis_json.c", "symbols": ["json_dict_new", "json_attr_add", "json_attr_rem", "json_attr_find", "attr_cmp", "json_dict_free"]}, {"file": "lib/src/coll/htbl.c", "symbols": ["htbl_find"]}]}
{"id": "C46", "title": "A set always describes itself as its schema was built", "statement": "At any time in the life of a set, whatever is written to it, the queries for its instance name, schema name, digest, number of metrics, and for each metric its name, unit, type, flags and array length answer exactly what the schema was built with, and looking a metric up by name gives its index, or -1 for a name that is not in the schema.", "quantifier": "every schema, instance name, metric and sequence of operations on the set", "why_tests_cant": "names, units and descriptors are packed with 8-bit and 16-bit lengths and offsets next to values that are written all the time; only particular lengths or sequences of writes disturb them", "anchors": ["ldms/src/core/ldms.c:ldms_set_instance_name_get", "ldms/src/core/ldms.c:ldms_set_schema_name_get", "ldms/src/core/ldms.c:ldms_metric_by_name", "ldms/src/core/ldms.c:ldms_metric_name_get", "ldms/src/core/ldms.c:ldms_metric_unit_get"]}
{"id": "C47", "title": "Schedules of samplers and updaters", "statement": "A sampler or synchronous updater with an accepted interval and offset runs next at a strictly future instant that is congruent to the offset modulo the interval, at the first such instant, and not before it; sets share an update task exactly when their update hints are equal.", "quantifier": "every clock value, interval, offset and skew accepted by the configuration", "why_tests_cant": "the failing clock values depend on the position inside the interval, and the failing intervals are far apart", "anchors": [{"file": "ldms/src/ldmsd/ldmsd.c", "symbols": ["ldmsd_start_sampler", "resched_task"]}, {"file": "ldms/src/ldmsd/ldmsd_updtr.c", "symbols": ["ldmsd_updtr_new_with_auth", "ldmsd_updtr_schedule_cmp", "updtr_task_init"]}, {"file": "lib/src/ovis_event/ovis_event.c", "symbols": ["ovis_event_heap_process"]}]}
{"id": "C48", "title": "A stopped task does not run", "statement": "A task of the daemon is executed by one thread at a time; once it has been stopped and joined, its function is not executing and is not called again until it is started again; a task that was asked to stop is stopped when its function returns.", "quantifier": "every interleaving of start, stop, reschedule and join calls with the scheduler threads", "why_tests_cant": "the failing interleavings need a scheduler thread to be between two locks at the right moment", "anchors": [{"file": "ldms/src/ldmsd/ldmsd.c", "symbols": ["ldmsd_task_start", "ldmsd_task_stop", "ldmsd_task_resched", "ldmsd_task_join", "task_cb_fn"]}]}
{"id": "C49", "title": "The directory is listed completely and only to those who may read", "statement": "A client that asks a daemon for its directory receives, whatever the number and the sizes of the sets, replies none of which is larger than the transport's message size; the last of them and only the last is marked final; together they list every set that exists at the time and that the client may read exactly once, and no other; the information of a set is that of its own process where a key is defined by both.", "quantifier": "for all lists of names, sets found or gone, texts, key-value information, permissions and message sizes", "why_tests_cant": "The split into replies depends on the exact sum of the text lengths against the message size; tests use a handful of small sets and one message, and do not delete sets between the listing and the formatting.", "anchors": [{"file": "ldms/src/core/ldms_xprt.c", "symbols": ["process_dir_request"]}, {"file": "ldms/src/core/ldms.c", "symbols": ["__ldms_format_set_meta_as_json"]}]}
{"id": "C50", "title": "Key-value information of a set reaches those who use the set", "statement": "The information of a set behaves as a map: a key has the value this process last gave it, else the value the set's origin gives it; unset removes what set added; a call that fails changes nothing. A process that learns of the set by directory or lookup sees its own information and otherwise exactly what the origin shows, for any keys and values; each change visible on a published set is announced to the subscribed peers.", "quantifier": "for all sequences of calls and directory replies, keys, values, chains of processes, and points of allocation failure", "why_tests_cant": "The tests set and unset a few short keys in one process; overlong strings, the removal of the last pair, changes learnt from listings and failing allocations need particular contents and interplay of processes.", "anchors": [{"file": "ldms/src/core/ldms.c", "symbols": ["__ldms_set_info_set", "ldms_set_info_set", "ldms_set_info_unset", "ldms_set_info_get"]}, {"file": "ldms/src/core/ldms_xprt.c", "symbols": ["__copy_set_info_to_lookup_msg", "__get_set_info_sz", "__process_lookup_set_info", "__process_dir_set_info", "__process_dir_reply", "handle_rendezvous_lookup"]}]}
{"id": "C51", "title": "JSON texts are read as what they denote, and written so that they can be read", "statement": "Every JSON text, with any white space, is parsed to the value it denotes (the last attribute of a name counts); a text that is not JSON is rejected; the parser always ends. Dumping a value gives its text, of whatever size, and parsing that gives the value again. So a directory reply, whose entries are written by hand, is read as the list of the sets.", "quantifier": "for all JSON texts and values, all sizes and nestings, and whatever the allocator does when a buffer grows", "why_tests_cant": "The tests parse a handful of short texts; escapes, sizes beyond the first buffer, deep nesting, the behaviour of realloc and texts with quotes inside are not among them.", "anchors": [{"file": "lib/src/ovis_json/ovis_json_lexer.l", "symbols": ["DQUOTED_STRING", "INTEGER", "FLOAT"]}, {"file": "lib/src/ovis_json/ovis_json_parser.y", "symbols": ["json", "dict", "list", "item_list", "attr_list"]}, {"file": "lib/src/ovis_json/ovis_json.c", "symbols": ["jbuf_append_va", "json_entity_dump", "__list_dump", "__dict_dump", "__entity_dump", "json_attr_add"]}]}
{"id": "C52", "title": "A started producer keeps trying to connect, a stopped one does not", "statement": "However the commands to start and stop a producer, its connection task and the events of its connections interleave, the daemon does not fail, and a producer has at most one connection. A producer that was started and is not connected is tried again at its interval. After a stop was accepted the producer ends its connection, reaches the state \"stopped\", and makes no attempt to connect until it is started again; after a start was accepted it is not stopped until told so.", "quantifier": "for all interleavings of start, stop, task calls, connection events and connections of peers, for active and passive producers", "why_tests_cant": "The states depend on which of the configuration thread, the scheduler thread and the transport threads takes the lock first; tests see one order, with a long reconnect interval between.", "anchors": [{"file": "ldms/src/ldmsd/ldmsd_prdcr.c", "symbols": ["__agg_routine", "prdcr_connect_cb", "prdcr_connect", "prdcr_task_cb", "__ldmsd_prdcr_start", "__ldmsd_prdcr_stop", "ldmsd_prdcr_new_with_auth"]}, {"file": "ldms/src/ldmsd/ldmsd.c", "symbols": ["ldmsd_task_start", "ldmsd_task_stop", "ldmsd_task_join"]}]}
{"id": "C53", "title": "The sets of a producer are looked up, updated and released", "statement": "A metric set that a producer lists is looked up, and then updated each time its updater runs and no earlier update is outstanding, also after a failed lookup or update. Its memory is not used after it was freed, however directory changes, disconnects, callbacks and queries interleave, and it is freed when it is gone from the producer and nobody holds it. At most one lookup and one update are outstanding.", "quantifier": "for all interleavings of directory messages, updater runs, lookup and update completions with any outcome, disconnects and queries, for sets and groups of sets", "why_tests_cant": "The failing orders need a disconnect or deletion in a window of a few instructions, an update error without disconnect, or a group whose members are announced late; leaks show only in long runs.", "anchors": [{"file": "ldms/src/ldmsd/ldmsd_prdcr.c", "symbols": ["prdcr_set_new", "ldmsd_prdcr_set_ref_get", "ldmsd_prdcr_set_ref_put", "prdcr_hint_tree_update", "prdcr_reset_set", "_add_cb", "prdcr_dir_cb_upd", "__prdcr_remote_set_delete"]}, {"file": "ldms/src/ldmsd/ldmsd_updtr.c", "symbols": ["updtr_update_cb", "schedule_set_updates", "__setgrp_members_lookup", "__ldmsd_prdset_lookup_cb", "schedule_prdcr_updates"]}, {"file": "ldms/src/ldmsd/ldmsd.c", "symbols": ["ldmsd_set_info_get", "ldmsd_set_info_delete"]}]}
{"id": "C54", "title": "Update hints reach the aggregators as they were given", "statement": "The update hint that a sampler or updater puts on a set is read back with the same interval and offset. A directory message gives the set of the producer the hint that came with it, or none if it has none; no text in it makes the daemon fail. With automatic schedules each level of aggregators updates a set with the interval of the sampler, one skew later than the level below it.", "quantifier": "for all intervals and offsets (64 bit), all texts of hints, all former hints and any number of levels", "why_tests_cant": "Tests use one level with the default skew and second intervals; sequences of changing hints, hints without offset, texts from other versions and short intervals over several levels are not run.", "anchors": [{"file": "ldms/src/ldmsd/ldmsd.c", "symbols": ["ldmsd_set_update_hint_set", "ldmsd_set_update_hint_get"]}, {"file": "ldms/src/ldmsd/ldmsd_prdcr.c", "symbols": ["__update_set_info", "prdcr_set_new"]}, {"file": "ldms/src/ldmsd/ldmsd_updtr.c", "symbols": ["updtr_task_init", "ldmsd_updtr_tasks_update"]}]}
{"id": "C55", "title": "Members of records in record arrays keep what is written to them", "statement": "A record array of a set has exactly the instances it was declared with, and each instance tells the names, units, types and number of members of the record definition. A value written to a member of an instance is read back by every getter of that member; no other member, instance or metric changes, and the data generation number goes up by one. No operation on other metrics changes a member, and equal data generation numbers mean equal members. Writes in an open transaction are not seen before its end. Wrong instance and member indexes are refused.", "quantifier": "for all schemas, record definitions, numbers of buffers, and sequences of operations on the set", "why_tests_cant": "Tests write a few members of one record type and read them back at once; overlaps depend on the layout of all metrics, members and buffers, and stale reads on the order of transactions.", "anchors": [{"file": "ldms/src/core/ldms.c", "symbols": ["__rec_type", "__record_mdesc_get", "__record_metric_get", "ldms_record_metric_find", "ldms_record_metric_set", "ldms_record_array_get_inst", "ldms_record_metric_add"]}]}
{"id": "C56", "title": "A time in a configuration text is read as the time it says", "statement": "Intervals, offsets and timeouts are given as a number and a unit. For every number and unit that is documented, with or without decimals, upper or lower case where allowed, the value used is exactly the time the text denotes; the result is a normalised seconds/nanoseconds pair where one is produced. A text that is no time, has an unknown unit, or denotes a time out of range is refused. Adding, subtracting and comparing such pairs agrees with the numbers of nanoseconds.", "quantifier": "for all numbers of any length, all decimals, all units, all numbers of spaces, and all pairs of normalised times", "why_tests_cant": "Tests try a few round values; the values that are off by one are those whose decimal fractions have no exact double, and no finite set of texts tells which they are or that nothing is off by more.", "anchors": [{"file": "lib/src/ovis_util/util.c", "symbols": ["ovis_time_str2us"]}, {"file": "ldms/src/ldmsd/ldmsd_strgp.c", "symbols": ["ldmsd_timespec_from_str", "ldmsd_timespec_add", "ldmsd_timespec_diff", "ldmsd_timespec_cmp"]}]}
{"id": "C57", "title": "The log writes exactly the messages that are enabled", "statement": "A level name in any case enables that level and the more severe ones, a list of names exactly those named; unknown names are refused, and the text of a level reads back as that level. A message is written exactly once, in order and under the name of its subsystem, if its level is enabled for the subsystem (or by default) when it is logged, and leaves no trace otherwise; destroying a subsystem neither loses its messages nor lets freed memory be used. Setting a level affects the named or matching subsystems only and reports success exactly if it was done. Lines go to the log opened last, and to standard output after it is closed.", "quantifier": "for all sequences of registering, destroying, logging, level changes and steps of the writer, all level texts, and all sequences of opened logs", "why_tests_cant": "Tests log a few messages and look at the file; whether messages survive the destruction of their subsystem depends on how far the writer is, and the result of an expression on the names of all subsystems.", "anchors": [{"file": "lib/src/ovis_log/ovis_log.c", "symbols": ["ovis_log_str_to_level", "ovis_log_level_to_str", "ovis_vlog", "ovis_log_register", "ovis_log_destroy", "ovis_log_set_level", "ovis_log_set_level_by_regex", "ovis_log_open", "ovis_log_close"]}]}
{"id": "C58", "title": "An updater updates each of its sets with the schedule of its hint", "statement": "A running updater with automatic intervals updates every set it was asked to update, of every connected producer, with the schedule of the hint of the set (the default schedule if it has none), once each time and by one task only, also after hints change and sets come and go; without automatic intervals it updates all of them with the default schedule. The schedule reported for a set is the one it is updated with. After a stop nothing is updated until a start. Tasks that no set uses are deleted, without harm to the daemon.", "quantifier": "for all sequences of set announcements, hint changes, deletions, disconnects, task runs, clean ups, starts and stops, and all hints and matches", "why_tests_cant": "The failing orders need a set to be announced while the task of its hint finds that it has none, or the hourly clean up in the same window; the leak shows after many different hints.", "anchors": [{"file": "ldms/src/ldmsd/ldmsd_updtr.c", "symbols": ["ldmsd_updtr_tasks_update", "updtr_tasks_create", "schedule_updates", "schedule_prdcr_updates", "__updtr_task_tree_cleanup", "updtr_task_next", "__ldmsd_updtr_start", "__updtr_tasks_stop"]}, {"file": "ldms/src/ldmsd/ldmsd_prdcr.c", "symbols": ["ldmsd_prd_set_updtr_task_update", "prdcr_hint_tree_update", "_add_cb", "prdcr_dir_cb_upd"]}]}
{"id": "C59", "title": "A storage policy stores the metrics it is configured for, of every set it selects, exactly while it runs", "statement": "While a storage policy runs, each update of a set that it selects (by producer and schema) is given to the store, with the indices of the metrics that the policy names, or of all metrics of the set if it names none; nothing is stored of other sets, nor after the policy is stopped until it is started. Starting and stopping a policy repeatedly leaves nothing behind, and commands that overlap finish.", "quantifier": "for all sequences of starts, stops, metric list changes, sets that come, go and are updated, and for the locks all interleavings of a start and a stop", "why_tests_cant": "A test stores a set or two of one schema and stops; wrong indices would need a particular history of failed opens, restarts and schema changes, and the deadlock a particular interleaving.", "anchors": [{"file": "ldms/src/ldmsd/ldmsd_strgp.c", "symbols": ["strgp_open", "strgp_close", "ldmsd_strgp_update_prdcr_set", "ldmsd_strgp_update", "__ldmsd_strgp_start", "__ldmsd_strgp_stop", "ldmsd_strgp_metric_add", "ldmsd_strgp_metric_del"]}, {"file": "ldms/src/ldmsd/ldmsd_prdcr.c", "symbols": ["ldmsd_prdcr_update", "__prdcr_set_del"]}]}
{"id": "C60", "title": "CSV files are rolled at the documented times, and no more lines than configured stay in buffers", "statement": "With rolltype 1 the CSV store rolls its files every rollover seconds (at least 10), with 2 every day at rollover seconds after midnight, with 5 every day at that time and every rollagain seconds thereafter, for every accepted configuration; with 3 when enough records were written. With rollempty=0 no empty file is rolled. With buffer=N and buffertype=3 data are written out after about N lines.", "quantifier": "for all configurations, start times, delays of rolls, and all sequences of stores and rolls", "why_tests_cant": "The schedule shows over days; the days that are left out depend on the second in which a roll ends, and the lost flushes on how many lines came before a roll.", "anchors": [{"file": "ldms/src/store/store_csv.c", "symbols": ["rolloverThreadInit", "handleRollover", "roll_cb", "config", "store"]}]}
{"id": "C61", "title": "A set group has the members that were added and not removed, also at the aggregators", "statement": "After any sequence of additions and removals, iterating over a set group gives exactly the names that were added and not removed, each once; adding or removing a name reports an error exactly if the name is too long, and then changes nothing. A copy of the group in an aggregator that gets the directory updates has the same members.", "quantifier": "for all sequences of additions and removals, all names", "why_tests_cant": "A test adds and removes a few short names on one daemon; the loss is in the combination of removing the last member with what the peers do with an empty list of information.", "anchors": [{"file": "ldms/src/ldmsd/ldmsd_group.c", "symbols": ["ldmsd_group_set_add", "ldmsd_group_set_rm", "ldmsd_group_member_name", "ldmsd_group_iter"]}]}
