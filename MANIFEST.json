{
 "claims": [
  {
   "property": "C01",
   "status": "proved",
   "theorems": [
    "C01_hashmap_is_finite_map",
    "C01_iterator_visits_all"
   ],
   "note": "Histories up to 2^31 operations."
  },
  {
   "property": "C02",
   "status": "proved",
   "theorems": [
    "C02_hashmap_bookkeeping"
   ],
   "note": "Covers strong and weak maps; exact count for strong maps."
  },
  {
   "property": "C03",
   "status": "proved",
   "theorems": [
    "C03_weak_hashmap"
   ],
   "note": ""
  },
  {
   "property": "C04",
   "status": "proved",
   "theorems": [
    "C04_C05_every_version_is_its_contents",
    "C04_method_for_ip"
   ],
   "note": "Histories shorter than 2^50 insertions of pairwise separated values."
  },
  {
   "property": "C05",
   "status": "proved",
   "theorems": [
    "C04_C05_every_version_is_its_contents",
    "C05_insert_leaves_old_nodes_alone"
   ],
   "note": ""
  },
  {
   "property": "C06",
   "status": "proved",
   "theorems": [
    "C04_C05_every_version_is_its_contents",
    "C06_depth_logarithmic"
   ],
   "note": "The fuel bound in C04_C05 is the number of nodes a lookup visits."
  },
  {
   "property": "C07",
   "status": "proved",
   "theorems": [
    "C07_field_roundtrip",
    "C07_clear_field"
   ],
   "note": "Field widths up to 32 bits (the return type of getBits)."
  },
  {
   "property": "C08",
   "status": "proved",
   "theorems": [
    "C08_length_exact",
    "C08_encoding_is_modified_utf8",
    "C08_decode_modified_utf8",
    "C08_decode_total",
    "C08_roundtrip"
   ],
   "note": ""
  },
  {
   "property": "C09",
   "status": "partial",
   "theorems": [
    "C09_roundtrip_cuts_at_nul",
    "C09_nul_roundtrip_refuted"
   ],
   "note": "Refuted: a string containing U+0000 is cut at it; the exact behaviour is proved."
  },
  {
   "property": "C10",
   "status": "proved",
   "theorems": [
    "C10_stream_safe_and_exact"
   ],
   "note": "The client's handleError is modelled as returning, which covers clients that throw."
  },
  {
   "property": "C11",
   "status": "proved",
   "theorems": [
    "C11_instance_layout",
    "C11_after_superclass",
    "C11_static_layout"
   ],
   "note": "For at most 8190 instance fields along a superclass chain and 8188 static fields per class; beyond, see C74."
  },
  {
   "property": "C12",
   "status": "proved",
   "theorems": [
    "C12_instance",
    "C12_static",
    "C12_arrays"
   ],
   "note": "Same bounds as C11."
  },
  {
   "property": "C13",
   "status": "proved",
   "theorems": [
    "C13_exception_handler_roundtrip",
    "C13_line_number_roundtrip"
   ],
   "note": ""
  },
  {
   "property": "C14",
   "status": "proved",
   "theorems": [
    "C14_line_lookup"
   ],
   "note": ""
  },
  {
   "property": "C15",
   "status": "proved",
   "theorems": [
    "C15_scan_method_spec",
    "C15_parameter_footprint"
   ],
   "note": ""
  },
  {
   "property": "C16",
   "status": "proved",
   "theorems": [
    "C16_static_table",
    "C16_constant_pool"
   ],
   "note": ""
  },
  {
   "property": "C17",
   "status": "proved",
   "theorems": [
    "C17_visits_each_pending_field_once",
    "C17_next_is_least"
   ],
   "note": "Both walkers of collect() and the bitset functions, on arbitrary stale memory."
  },
  {
   "property": "C18",
   "status": "proved",
   "theorems": [
    "C18_collection_preserves_reachable_graph",
    "C18_major_collection_frees_the_rest",
    "C18_collections_are_invisible"
   ],
   "note": "Heaps of any size and shape, with moving and fixed objects; after any program. Memory exhaustion, the immortal heap and the identity-hash word are outside the model."
  },
  {
   "property": "C19",
   "status": "proved",
   "theorems": [
    "C19_remembered_set_complete",
    "C19_minor_collection",
    "C18_collection_preserves_reachable_graph"
   ],
   "note": "Any sequence of allocations, stores through the barrier and collections; ages and tenuring as in the code."
  },
  {
   "property": "C20",
   "status": "proved",
   "theorems": [
    "C20_hash_stable",
    "C20_objects_apart"
   ],
   "note": "Histories of allocations, field writes, hash requests, clones and collections with arbitrary moves; clones of movable arrays with marked headers excluded (C21)."
  },
  {
   "property": "C21",
   "status": "partial",
   "theorems": [
    "C21_array_clone_refuted",
    "C21_clone_marks_refuted"
   ],
   "note": "Refuted for arrays whose hash was taken and which moved; the true part is C77."
  },
  {
   "property": "C22",
   "status": "proved",
   "theorems": [
    "C22_accounting",
    "C22_free",
    "C22_limit",
    "C22_machine"
   ],
   "note": "Any history of the native heap, and any execution of threads, refills, fixed allocations and collections; beyond 4 GB the count wraps (C80)."
  },
  {
   "property": "C23",
   "status": "proved",
   "theorems": [
    "C23_valid",
    "C23_distinct",
    "C23_stays",
    "C23_weak_stays",
    "C23_cleared",
    "C23_delete_others",
    "C23_storage",
    "C23_new_works",
    "C23_delete_works",
    "C23_collect_works"
   ],
   "note": "All histories of creation, deletion, object creation and moving collections on the intrusive list; fewer than 2^32 - 1 outstanding references (the count is 32 bits)."
  },
  {
   "property": "C24",
   "status": "proved",
   "theorems": [
    "C24_exclusion",
    "C24_recursion",
    "C24_balance",
    "C24_no_abort"
   ],
   "note": "One monitor, any number of threads; every access to the queue and to the owner field is one step; sequentially consistent memory."
  },
  {
   "property": "C25",
   "status": "proved",
   "theorems": [
    "C25_sleepers_are_queued",
    "C25_fifo",
    "C25_front",
    "C25_no_lost_wakeup",
    "C25_front_gets_it"
   ],
   "note": "The wake-up is shown as a run of the releasing thread alone from any reachable state with a sleeping front and a free monitor."
  },
  {
   "property": "C26",
   "status": "proved",
   "theorems": [
    "C26_list",
    "C26_fifo",
    "C26_no_lost_wakeup",
    "C26_notified_is_woken",
    "C26_notifyAll",
    "C26_depth_restored"
   ],
   "note": "Time-outs, interrupts and spurious wake-ups at any point."
  },
  {
   "property": "C27",
   "status": "proved",
   "theorems": [
    "C27_exclusion",
    "C27_recursion",
    "C27_wait_keeps_depth",
    "C27_list",
    "C27_fifo",
    "C27_list_exact",
    "C27_no_lost_wakeup",
    "C27_notified_is_woken",
    "C27_no_abort"
   ],
   "note": "One monitor, any number of threads, spurious wake-ups, timeouts and interrupts at any point."
  },
  {
   "property": "C28",
   "status": "proved",
   "theorems": [
    "C28_at_most_once",
    "C28_initialised_on_return",
    "C28_superclass_first",
    "C28_waits_for_another"
   ],
   "note": "Any number of threads and classes, sequentially consistent memory."
  },
  {
   "property": "C29",
   "status": "partial",
   "theorems": [
    "C29_later_requests_fail_partial",
    "C29_waiters_never_woken_refuted",
    "C29_waiter_returns_normally_refuted"
   ],
   "note": "Refuted: threads already waiting are not notified, and return normally if they wake; requests made after the failure do fail."
  },
  {
   "property": "C30",
   "status": "proved",
   "theorems": [
    "C30_exclusion",
    "C30_counters",
    "C30_no_lost_wakeup"
   ],
   "note": "Any number of threads, sequentially consistent memory; every shared access is one step."
  },
  {
   "property": "C31",
   "status": "proved",
   "theorems": [
    "C31_loads",
    "C31_virtual",
    "C31_indices_stable",
    "C31_interface"
   ],
   "note": "Hierarchies of any size with interfaces, any enumeration order of the interface map; one class loader; access rules and default-method selection see C75 and C76."
  },
  {
   "property": "C32",
   "status": "proved",
   "theorems": [
    "C32_assignable"
   ],
   "note": "Loaded classes, primitive and array types of any depth."
  },
  {
   "property": "C33",
   "status": "proved",
   "theorems": [
    "C33_lookup",
    "C33_open",
    "C33_archive_lookup"
   ],
   "note": "ASCII names; archives whose comment does not contain an end record signature. Decompression is not modelled."
  },
  {
   "property": "C34",
   "status": "partial",
   "theorems": [
    "C34_lookup_small_partial",
    "C34_nonascii_refuted"
   ],
   "note": "Holds for at most 256 entries; refuted beyond."
  },
  {
   "property": "C35",
   "status": "proved",
   "theorems": [
    "C35_tokens",
    "C35_first_wins",
    "C35_none",
    "C35_expansion",
    "C35_manifest",
    "C35_manifest_continued"
   ],
   "note": "Expansion for manifests without cycles (see C72)."
  },
  {
   "property": "C36",
   "status": "proved",
   "theorems": [
    "C36_blocks_disjoint",
    "C36_blocks_inside",
    "C36_allocate_total",
    "C36_peek_pop",
    "C36_frees_what_it_got"
   ],
   "note": "As long as the arena holds at most 2^30 bytes and blocks are at least one byte; beyond, see C71."
  },
  {
   "property": "C37",
   "status": "proved",
   "theorems": [
    "C37_vector_is_a_list",
    "C37_integers_read_back"
   ],
   "note": "As long as the vector holds fewer than 2^32 bytes."
  },
  {
   "property": "C38",
   "status": "proved",
   "theorems": [
    "C44_interpreter_refines_jvms",
    "C38_int_binary",
    "C38_long_binary",
    "C38_long_shift",
    "C38_int_unary",
    "C38_int_to_long",
    "C38_long_to_int",
    "C38_long_neg",
    "C38_long_compare",
    "C38_int_compare",
    "C38_int_division",
    "C38_long_division"
   ],
   "note": "Assumes wrapping signed arithmetic (see C66)."
  },
  {
   "property": "C39",
   "status": "proved",
   "theorems": [
    "C44_interpreter_refines_jvms",
    "C39_float_compare",
    "C39_double_compare"
   ],
   "note": ""
  },
  {
   "property": "C40",
   "status": "proved",
   "theorems": [
    "C44_interpreter_refines_jvms"
   ],
   "note": "The specification side (Jvm_Spec.jeval) gives each stack instruction as a list pattern."
  },
  {
   "property": "C41",
   "status": "proved",
   "theorems": [
    "C44_interpreter_refines_jvms",
    "C41_field_roundtrip"
   ],
   "note": ""
  },
  {
   "property": "C42",
   "status": "proved",
   "theorems": [
    "C44_interpreter_refines_jvms"
   ],
   "note": ""
  },
  {
   "property": "C43",
   "status": "proved",
   "theorems": [
    "C44_interpreter_refines_jvms"
   ],
   "note": ""
  },
  {
   "property": "C44",
   "status": "proved",
   "theorems": [
    "C44_interpreter_refines_jvms"
   ],
   "note": ""
  },
  {
   "property": "C45",
   "status": "proved",
   "theorems": [
    "C45_name_length_exact",
    "C45_names_injective"
   ],
   "note": "Names whose segments do not start with 0-3 (all Java-language names); overloads share the plain symbol by design."
  },
  {
   "property": "C46",
   "status": "partial",
   "theorems": [
    "C46_root_exit_refuted"
   ],
   "note": "Refuted: once the first thread has exited with others alive, parent links dangle, walks miss threads and the next collection reads freed memory. The provable part is C81."
  },
  {
   "property": "C47",
   "status": "partial",
   "theorems": [
    "C47_early_refuted"
   ],
   "note": "Refuted as stated: an unreachable reference with a reachable queue is cleared and enqueued although its target is strongly reachable. The provable parts are C83 and C84."
  },
  {
   "property": "C48",
   "status": "proved",
   "theorems": [
    "C48_objects",
    "C48_fresh",
    "C48_buffers",
    "C48_no_overflow"
   ],
   "note": "All interleavings of any number of threads with fast path, backup heap, tracing, refill, fixed allocation, collections, thread creation and death; requests below 2 GB. What Heap::collect leaves behind is a premise."
  },
  {
   "property": "C49",
   "status": "proved",
   "theorems": [
    "C49_equal",
    "C49_hash",
    "C49_equal_hash",
    "C49_chars",
    "C49_intern"
   ],
   "note": "Byte elements below 128 or char arrays, any window; histories of up to 2^30 intern calls. Bytes above 127 see C78."
  },
  {
   "property": "C50",
   "status": "proved",
   "theorems": [
    "C50_accepts_exactly",
    "C50_values"
   ],
   "note": "For option tables with distinct names."
  },
  {
   "property": "C51",
   "status": "partial",
   "theorems": [
    "nextPowerOfTwo_least",
    "nextPowerOfTwo_total_refuted",
    "log_ceil",
    "ceilingDivide_ceil"
   ],
   "note": "Proved up to 2^31; above, nextPowerOfTwo never terminates (refuted)."
  },
  {
   "property": "C52",
   "status": "partial",
   "theorems": [
    "C01_raw_duplicate_insert_refuted"
   ],
   "note": "Refuted: a resize reverses chains, so the older duplicate can resurface."
  },
  {
   "property": "C53",
   "status": "partial",
   "theorems": [
    "C02_weak_count_refuted",
    "C02_hashmap_bookkeeping"
   ],
   "note": "Refuted: a resize drops dead entries without decrementing; proved: the count never falls below the number of entries."
  },
  {
   "property": "C54",
   "status": "partial",
   "theorems": [
    "C54_repeated_pc_diverges_refuted",
    "C54_out_of_order_refuted",
    "C14_line_lookup"
   ],
   "note": "Refuted: repeated pcs make the lookup loop for ever; out-of-order tables give a wrong line."
  },
  {
   "property": "C55",
   "status": "partial",
   "theorems": [
    "C55_digit_segments_collide_refuted",
    "C45_names_injective"
   ],
   "note": "Refuted: a/1.f and a_.f share a symbol."
  },
  {
   "property": "C56",
   "status": "partial",
   "theorems": [
    "C56_truncated_descriptor_refuted",
    "C15_scan_method_spec"
   ],
   "note": "Refuted: a truncated descriptor is scanned past its end."
  },
  {
   "property": "C57",
   "status": "partial",
   "theorems": [
    "C57_symbol_is_jni_symbol_partial",
    "C57_symbol_other_char_refuted"
   ],
   "note": "Proved for letters, digits and / _ ; [ $; refuted for every other character (not escaped as _0xxxx)."
  },
  {
   "property": "C58",
   "status": "partial",
   "theorems": [
    "C58_overflowing_quotient_refuted"
   ],
   "note": "Refuted for idiv; diverges in the model covers irem, ldiv and lrem as well."
  },
  {
   "property": "C59",
   "status": "partial",
   "theorems": [
    "C59_nan_compare_pushes_two_refuted"
   ],
   "note": "Refuted."
  },
  {
   "property": "C60",
   "status": "partial",
   "theorems": [
    "C60_f2l_saturates_refuted"
   ],
   "note": "Refuted."
  },
  {
   "property": "C61",
   "status": "partial",
   "theorems": [
    "C61_boolean_array_refuted",
    "C61_boolean_field_refuted"
   ],
   "note": "Refuted."
  },
  {
   "property": "C62",
   "status": "partial",
   "theorems": [
    "C62_char_field_refuted"
   ],
   "note": "Refuted."
  },
  {
   "property": "C63",
   "status": "partial",
   "theorems": [
    "C63_array_store_check_refuted"
   ],
   "note": "Refuted."
  },
  {
   "property": "C64",
   "status": "partial",
   "theorems": [
    "C64_wide_float_refuted",
    "C64_wide_astore_address_refuted"
   ],
   "note": "Refuted."
  },
  {
   "property": "C65",
   "status": "partial",
   "theorems": [
    "C65_lost_monitor_refuted"
   ],
   "note": "Refuted."
  },
  {
   "property": "C66",
   "status": "partial",
   "theorems": [
    "C66_signed_overflow_refuted"
   ],
   "note": "Refuted."
  },
  {
   "property": "C67",
   "status": "partial",
   "theorems": [
    "C67_error_counts_as_success_refuted"
   ],
   "note": "Refuted."
  },
  {
   "property": "C68",
   "status": "partial",
   "theorems": [
    "C68_notification_lost_to_timeout_refuted"
   ],
   "note": "Refuted."
  },
  {
   "property": "C69",
   "status": "partial",
   "theorems": [
    "C69_notification_lost_to_interrupt_refuted"
   ],
   "note": "Refuted."
  },
  {
   "property": "C70",
   "status": "partial",
   "theorems": [
    "C70_wait_notify",
    "C70_monitorexit_refuted"
   ],
   "note": "wait, notify and notifyAll throw; monitorexit aborts the process or dereferences null."
  },
  {
   "property": "C71",
   "status": "partial",
   "theorems": [
    "C71_large_request_refuted",
    "C71_growth_refuted",
    "C71_set2_refuted"
   ],
   "note": "Refuted."
  },
  {
   "property": "C72",
   "status": "partial",
   "theorems": [
    "C72_cyclic_class_path_refuted"
   ],
   "note": "Refuted; C35_expansion is the positive part."
  },
  {
   "property": "C73",
   "status": "proved",
   "theorems": [
    "C73_initial_statics"
   ],
   "note": "Same bounds as C11; constants are the words found in the pool."
  },
  {
   "property": "C74",
   "status": "partial",
   "theorems": [
    "C74_many_instance_fields_refuted",
    "C74_many_static_fields_refuted"
   ],
   "note": "Refuted."
  },
  {
   "property": "C75",
   "status": "partial",
   "theorems": [
    "C75_default_method_refuted"
   ],
   "note": "Refuted."
  },
  {
   "property": "C76",
   "status": "partial",
   "theorems": [
    "C76_package_private_refuted"
   ],
   "note": "Refuted."
  },
  {
   "property": "C77",
   "status": "proved",
   "theorems": [
    "C77_clone"
   ],
   "note": "Any memory, header and placement."
  },
  {
   "property": "C78",
   "status": "partial",
   "theorems": [
    "C78_high_bytes_refuted",
    "C78_intern_refuted"
   ],
   "note": "Refuted."
  },
  {
   "property": "C79",
   "status": "partial",
   "theorems": [
    "C79_array_memory_refuted",
    "C79_covers",
    "C79_byte_arrays"
   ],
   "note": "Refuted: sizes wrap at 2^32; proved for arrays below 4 GB, hence for all byte and boolean arrays."
  },
  {
   "property": "C80",
   "status": "partial",
   "theorems": [
    "C80_limit_refuted",
    "C80_limit"
   ],
   "note": "Refuted for requests close to 4 GB; proved below 2 GB."
  },
  {
   "property": "C81",
   "status": "proved",
   "theorems": [
    "C81_tree",
    "C81_links",
    "C81_walk",
    "C81_collect",
    "C81_start"
   ],
   "note": "Pointer-level tree; all histories."
  },
  {
   "property": "C82",
   "status": "partial",
   "theorems": [
    "C82_count_refuted",
    "C82_lost_refuted"
   ],
   "note": "Refuted: threadCount is decremented twice (the VM then aborts at exit), and a thread added meanwhile to the same parent is lost."
  },
  {
   "property": "C83",
   "status": "proved",
   "theorems": [
    "C83_kept",
    "C83_no_dangling",
    "C83_cleared",
    "C83_enqueued",
    "C83_only",
    "C83_clears",
    "C83_dropped",
    "C83_jni",
    "C83_once"
   ],
   "note": "Any heap graph, any order of the lists, both kinds of collection; a minor collection is assumed to keep what tenured references point to (the heap map)."
  },
  {
   "property": "C84",
   "status": "proved",
   "theorems": [
    "C84_queued",
    "C84_not_missed",
    "C84_once"
   ],
   "note": "Same model."
  },
  {
   "property": "C85",
   "status": "partial",
   "theorems": [
    "C85_finalizable_refuted"
   ],
   "note": "Refuted: such a reference is cleared before the lists are scanned and is then taken for one whose target is reachable, in this and every later collection."
  },
  {
   "property": "C86",
   "status": "partial",
   "theorems": [
    "C86_dangling_refuted"
   ],
   "note": "Refuted: a young reference without a queue, dropped unvisited, is brought back by a tenured object queued for finalization later in the same collection, with a pointer to a freed target."
  },
  {
   "property": "C87",
   "status": "proved",
   "theorems": [
    "C87_text",
    "C87_round",
    "C87_round_int",
    "C87_unsigned_int",
    "C87_parse",
    "C87_reject"
   ],
   "note": "C87_parse asks that the weight of the first digit is below 2^63; C87_round also covers the most negative number, where it is not."
  },
  {
   "property": "C88",
   "status": "partial",
   "theorems": [
    "C88_accepted_refuted",
    "C88_every_refuted",
    "C88_zeros_refuted"
   ],
   "note": "Refuted: the empty text and a lone minus are 0, too large numbers wrap (every int is the reading of a text out of range), long runs of leading zeros lose the number."
  },
  {
   "property": "C89",
   "status": "proved",
   "theorems": [
    "C89_bitCount",
    "C89_leading"
   ],
   "note": "All ints."
  },
  {
   "property": "C90",
   "status": "proved",
   "theorems": [
    "C90_long",
    "C90_int_near"
   ],
   "note": ""
  },
  {
   "property": "C91",
   "status": "partial",
   "theorems": [
    "C91_int_refuted",
    "C91_cycle_refuted"
   ],
   "note": "Refuted: subtraction overflows; the sign is wrong for exactly the pairs whose difference is not an int, and three ints form a cycle."
  },
  {
   "property": "C92",
   "status": "partial",
   "theorems": [
    "C92_base1_refuted",
    "C92_unsigned_refuted",
    "C92_bytes_refuted"
   ],
   "note": "Refuted: base 1 is accepted and never ends, the unsigned texts of negative longs are signed, reverseBytes masks the second byte with 0xFF00 instead of 0xFF0000 and loses it for every int where it is not 0."
  },
  {
   "property": "C93",
   "status": "proved",
   "theorems": [
    "hash_map_is_a_map"
   ],
   "note": "Size is stated for fewer than 2^31 entries."
  },
  {
   "property": "C94",
   "status": "proved",
   "theorems": [
    "iteration_visits_each_entry_once"
   ],
   "note": "The map is not changed otherwise while the loop runs."
  },
  {
   "property": "C95",
   "status": "partial",
   "theorems": [
    "set_remove_result_refuted",
    "entry_contains_ignores_value_refuted",
    "entry_of_another_value_refuted",
    "huge_capacity_never_returns_refuted",
    "weak_map_keeps_live_entries_refuted",
    "set_add_result"
   ],
   "note": "Refuted: HashSet.remove answers the wrong way round for every set and element; the entry views look at the key only; capacities over 2^30 never return; removing a collected cell drops every live cell before it in its bucket. HashSet.add is proved right."
  },
  {
   "property": "C96",
   "status": "proved",
   "theorems": [
    "heap_walk_announces_each_reachable_object_once"
   ],
   "note": "The reference fields of an object are taken as a list with increasing offsets (walkNext)."
  },
  {
   "property": "C97",
   "status": "proved",
   "theorems": [
    "heap_dump_rebuilds_the_object_graph"
   ],
   "note": "For fewer than 2^32 objects, sizes and name lengths."
  },
  {
   "property": "C98",
   "status": "proved",
   "theorems": [
    "compiled_arithmetic_registers",
    "compiled_arithmetic_constants",
    "compiled_negate",
    "compiled_absolute",
    "compiled_shift_registers",
    "compiled_shift_constants",
    "compiled_divide",
    "compiled_remainder",
    "compiled_divide_by_zero"
   ],
   "note": "The processor is given by X86_Spec: a decoder and the effect of each instruction; x86_deterministic. Temporaries are assumed different from the operands."
  },
  {
   "property": "C99",
   "status": "proved",
   "theorems": [
    "compiled_move_registers",
    "compiled_load",
    "compiled_store",
    "compiled_move_constant",
    "compiled_store_constant",
    "compiled_move_zero_extended",
    "compiled_load_address",
    "compiled_push_pop_swap"
   ],
   "note": "Register moves of 1 or 2 bytes extend to 4 bytes only (as the compiler uses them)."
  },
  {
   "property": "C100",
   "status": "proved",
   "theorems": [
    "compiled_branch_registers",
    "compiled_branch_constant",
    "compiled_branch_memory",
    "compiled_branch_constant_memory"
   ],
   "note": "Constant with memory: constants of 32 bits."
  },
  {
   "property": "C101",
   "status": "proved",
   "theorems": [
    "compiled_float_arithmetic",
    "compiled_float_moves",
    "compiled_float_sign"
   ],
   "note": "Floating-point arithmetic itself is a parameter of the processor."
  },
  {
   "property": "C102",
   "status": "partial",
   "theorems": [
    "compiled_float_branch_partial",
    "compiled_float_move_refuted",
    "compiled_float_compare_refuted",
    "compiled_float_nan_refuted",
    "compiled_divide_refuted",
    "compiled_shift_refuted",
    "compiled_long_compare_refuted"
   ],
   "note": "Float branches are right for registers of the same half and, for < and <=, ordered values; the other cases are refuted."
  },
  {
   "property": "C103",
   "status": "proved",
   "theorems": [
    "frame_map_calculation_ends"
   ],
   "note": "Slots of the instructions lie within the frame (asserted by Frame::set)."
  },
  {
   "property": "C104",
   "status": "proved",
   "theorems": [
    "frame_maps_of_methods_without_handlers"
   ],
   "note": "Method calls of the bytecodes are abstracted to the effects on the slots: which become references, which become other values, where a call is."
  },
  {
   "property": "C105",
   "status": "proved",
   "theorems": [
    "frame_maps_miss_no_reference"
   ],
   "note": "Handlers are entered by exceptions only and can be entered, as in the code of Java compilers."
  },
  {
   "property": "C106",
   "status": "partial",
   "theorems": [
    "frame_maps_have_only_references_refuted",
    "frame_maps_have_only_references_partial"
   ],
   "note": "False: three counterexamples, each violating one of three conditions; proved under the three conditions."
  },
  {
   "property": "C107",
   "status": "proved",
   "theorems": [
    "collector_visits_the_slots_of_the_call"
   ],
   "note": "Calls sorted by address (qsort in finish), sizes within the limits of `fits`; every method of up to 2000 slots and 16000 calls is within them."
  },
  {
   "property": "C108",
   "status": "partial",
   "theorems": [
    "every_call_is_found_refuted"
   ],
   "note": "False: with 65535 locals and 65535 stack slots, eight calls are enough."
  },
  {
   "property": "C109",
   "status": "proved",
   "theorems": [
    "inserted_call_is_found",
    "found_call_was_inserted",
    "lookup_ends"
   ],
   "note": "Addresses of calls are distinct. Memory is sequentially consistent; the barriers of the code are not modelled."
  },
  {
   "property": "C110",
   "status": "proved",
   "theorems": [
    "local_references_denote_their_objects",
    "local_reference_functions_succeed",
    "popping_restores_the_references"
   ],
   "note": "Fewer than 2^32 - 1 references are made. The memory that a new cell gets is any memory not in use."
  },
  {
   "property": "C111",
   "status": "partial",
   "theorems": [
    "every_reference_may_be_deleted_refuted",
    "argument_may_be_deleted_refuted"
   ],
   "note": "False: deleting the newest reference of the outer frame makes PopLocalFrame run off the list; deleting an argument decrements a word of the Java stack. True for references of the newest frame (C110)."
  },
  {
   "property": "C112",
   "status": "partial",
   "theorems": [
    "deleting_frees_the_object_refuted",
    "native_method_leaves_nothing_refuted"
   ],
   "note": "False for an object referenced again in an inner frame, and after a native method that throws."
  },
  {
   "property": "C113",
   "status": "proved",
   "theorems": [
    "deque_is_a_list"
   ],
   "note": "Lengths are mathematical integers. Elements are compared by identity in contains."
  },
  {
   "property": "C114",
   "status": "partial",
   "theorems": [
    "removal_throws_refuted",
    "removal_loses_another_element_refuted",
    "descending_iteration_throws_refuted",
    "empty_capacity_throws_refuted"
   ],
   "note": "False: see the findings. The other calls are right (C113)."
  },
  {
   "property": "C115",
   "status": "proved",
   "theorems": [
    "array_copy_copies",
    "array_copy_rejects",
    "array_copy_rejects_null",
    "array_copy_rejects_objects"
   ],
   "note": "Bodies below 4 GiB; for the exceptions, sums of offset and length that are ints (the others are undefined, C116), and lengths other than 0 (C117)."
  },
  {
   "property": "C116",
   "status": "partial",
   "theorems": [
    "copy_between_primitive_arrays_overflows_refuted",
    "copy_length_overflows_refuted"
   ],
   "note": "False: an int[] copied to a byte[] writes four times as many bytes as the destination has; offset + length may overflow. True for arrays of one class and sums that are ints (C115)."
  },
  {
   "property": "C117",
   "status": "partial",
   "theorems": [
    "long_becomes_a_reference_refuted",
    "element_types_are_not_checked_refuted",
    "empty_range_is_not_checked_refuted"
   ],
   "note": "False in all three respects."
  },
  {
   "property": "C118",
   "status": "proved",
   "theorems": [
    "bitset_is_a_set",
    "bitset_accepts"
   ],
   "note": "Arrays below 2^25 words."
  },
  {
   "property": "C119",
   "status": "partial",
   "theorems": [
    "members_are_missed_refuted",
    "cardinality_refuted",
    "next_clear_bit_refuted",
    "empty_range_sets_bits_refuted",
    "clearing_a_range_throws_refuted",
    "intersects_throws_refuted",
    "length_refuted",
    "or_grows_refuted"
   ],
   "note": "False: see the findings."
  },
  {
   "property": "C120",
   "status": "proved",
   "theorems": [
    "queue_is_linearizable",
    "queue_keeps_everything"
   ],
   "note": "Sequentially consistent accesses (the fields are volatile and written by compare-and-swap). size, contains, iterator and others throw UnsupportedOperationException and are not modelled."
  },
  {
   "property": "C121",
   "status": "proved",
   "theorems": [
    "callable_runs_at_most_once",
    "get_answers",
    "final_states",
    "cancelled_task_never_runs",
    "calls_end"
   ],
   "note": "The callable is any that ends; it may clear its interrupt. done() is not overridden. Each call is made by a thread of its own."
  },
  {
   "property": "C122",
   "status": "partial",
   "theorems": [
    "get_hangs_refuted",
    "run_hangs_refuted",
    "cancel_answer_refuted",
    "finished_task_times_out_refuted"
   ],
   "note": "False in all respects: see the findings. Without cancel(true) no call hangs (C121)."
  },
  {
   "property": "C123",
   "status": "proved",
   "theorems": [
    "tree_set_is_a_sorted_list",
    "tree_set_is_sorted",
    "tree_map_is_a_map"
   ],
   "note": "The nodes are copied before they are changed, so the model is functional: a path is a node and the frames above it. The laws of Comparator are hypotheses, met by an example. Chains of cells (made by nobody) are not modelled."
  },
  {
   "property": "C124",
   "status": "proved",
   "theorems": [
    "tree_set_is_balanced"
   ],
   "note": ""
  },
  {
   "property": "C125",
   "status": "partial",
   "theorems": [
    "iterator_removes_partial",
    "iterator_removes_refuted"
   ],
   "note": "Proved when the first element is kept. Removing the first element fails for every set that is not empty."
  },
  {
   "property": "C126",
   "status": "partial",
   "theorems": [
    "key_set_add_refuted",
    "first_entry_refuted",
    "remove_value_refuted"
   ],
   "note": "False in all respects: see the findings."
  },
  {
   "property": "C127",
   "status": "proved",
   "theorems": [
    "concurrent_map_is_linearizable",
    "order_agrees_with_time",
    "retry_only_if_another_acted"
   ],
   "note": "The field content is volatile and is changed by compare-and-swap and by clear; sequentially consistent accesses. The tree is that of C123. Null values, containsValue, and entry.setValue are not modelled; the number of entries is unbounded."
  },
  {
   "property": "C128",
   "status": "partial",
   "theorems": [
    "same_hash_code_refuted",
    "far_hash_codes_refuted",
    "key_set_of_absent_key_refuted"
   ],
   "note": "False: see the findings. C127 is what holds."
  },
  {
   "property": "C129",
   "status": "proved",
   "theorems": [
    "linked_list_is_a_list",
    "list_iterator_is_a_cursor"
   ],
   "note": "Cells with identities; the count is unbounded (less than 2^31 elements). toArray, equals and descendingIterator are not modelled; addAll and removeAll are loops of modelled calls."
  },
  {
   "property": "C130",
   "status": "partial",
   "theorems": [
    "add_at_index_refuted",
    "remove_occurrence_refuted",
    "poll_last_refuted",
    "remove_null_refuted",
    "remove_all_refuted"
   ],
   "note": "False: see the findings. C129 is what holds."
  },
  {
   "property": "C131",
   "status": "proved",
   "theorems": [
    "blocking_queue_is_linearizable",
    "blocking_queue_order_agrees_with_time",
    "blocking_queue_is_bounded",
    "blocking_queue_is_fifo",
    "gives_up_only_after_the_limit",
    "asleep_only_if_needed"
   ],
   "note": "What a call does while it holds the monitor is one step; the storage is the sequence a LinkedList is (C129); numbers are unbounded; one clock that does not go back. removeAll, containsAll, toArray into a given array and iterator are not modelled."
  },
  {
   "property": "C132",
   "status": "partial",
   "theorems": [
    "add_all_wakes_takers_refuted",
    "clear_wakes_putters_refuted",
    "null_element_refuted"
   ],
   "note": "False: see the findings. C131 is what holds."
  },
  {
   "property": "C133",
   "status": "proved",
   "theorems": [
    "machine_code_in_bytecode_order",
    "method_without_tableswitch_in_order"
   ],
   "note": "A piece of machine code is an event with its bytecode instruction; what is in it, and the padding between blocks, is left out. jsr and ret are not modelled."
  },
  {
   "property": "C134",
   "status": "partial",
   "theorems": [
    "tableswitch_laid_out_refuted"
   ],
   "note": "False: see the findings. machine_code_in_bytecode_order (C133) holds for methods with tableswitch too, unless code of the switch directly follows the code of the instruction before it."
  },
  {
   "property": "C135",
   "status": "proved",
   "theorems": [
    "compile_terminates",
    "exceptions_reach_their_handler_in_order",
    "exceptions_reach_their_handler"
   ],
   "note": "Machine code is a sequence of pieces of any sizes, in the order C133 proves; offsets are unbounded. Whether a type matches is any function. Methods with jsr are left out."
  },
  {
   "property": "C136",
   "status": "partial",
   "theorems": [
    "region_before_dead_code_refuted"
   ],
   "note": "False: see the findings. C135 is what holds."
  },
  {
   "property": "C137",
   "status": "partial",
   "theorems": [
    "line_numbers_kept_partial",
    "line_numbers_kept_refuted"
   ],
   "note": "False: see the findings. What is proved: it holds for every instruction that is not directly followed, one byte on, by the next entry; for the last entry, if the instruction it names is compiled. Looking up an address in the translated table is C14."
  },
  {
   "property": "C138",
   "status": "proved",
   "theorems": [
    "sort_sorts",
    "binary_search_in_range",
    "list_binary_search",
    "reverse_reverses"
   ],
   "note": "An array or List is a sequence with get and set; indices in sort are unbounded, in searches 32-bit. shuffle is not modelled."
  },
  {
   "property": "C139",
   "status": "partial",
   "theorems": [
    "sort_is_stable_partial",
    "sort_is_stable_refuted",
    "sort_of_integers_refuted",
    "binary_search_refuted"
   ],
   "note": "False: see the findings. What is proved: with up to sixteen elements sort is stable."
  },
  {
   "property": "C140",
   "status": "proved",
   "theorems": [
    "array_list_is_a_list",
    "array_list_iterator_is_a_cursor"
   ],
   "note": "Indices and sizes are 32-bit; an array is a sequence and may have any length up to 2^31 - 1. Serialization, addAll and removeAll of other collections are not modelled."
  },
  {
   "property": "C141",
   "status": "partial",
   "theorems": [
    "add_out_of_bounds_refuted",
    "to_array_of_null_refuted",
    "add_all_of_itself_refuted"
   ],
   "note": "False: see the findings."
  },
  {
   "property": "C142",
   "status": "proved",
   "theorems": [
    "field_resolution",
    "field_resolution_sound"
   ],
   "note": "Object is taken to have no fields. Names and descriptors are numbers; one class loader."
  },
  {
   "property": "C143",
   "status": "partial",
   "theorems": [
    "jni_field_resolution_partial",
    "superinterface_field_refuted",
    "hidden_field_refuted",
    "superclass_field_first_refuted",
    "jni_own_field_refuted"
   ],
   "note": "False: see the findings. What is proved: JNI finds the right field if the class does not itself declare a field that an interface declares, and the conditions of C142 hold."
  },
  {
   "property": "C144",
   "status": "proved",
   "theorems": [
    "invokevirtual_runs",
    "invokeinterface_runs"
   ],
   "note": "For invokevirtual no class on the way up may declare a static or private method with the same name and descriptor. Among several interfaces declaring a method, which one is chosen is C75."
  },
  {
   "property": "C145",
   "status": "partial",
   "theorems": [
    "object_method_of_interface_refuted"
   ],
   "note": "False: see the findings."
  },
  {
   "property": "C146",
   "status": "proved",
   "theorems": [
    "class_of_type",
    "one_class_per_type",
    "array_of_elements",
    "array_class_of_class"
   ],
   "note": "Requests are made one after the other: resolveSystemClass holds classLock throughout. Class files are taken to define the class they are found for, and the boot loader to find the classes the VM starts with. The loading of superclasses is left out."
  },
  {
   "property": "C147",
   "status": "partial",
   "theorems": [
    "unknown_letter_aborts_refuted",
    "malformed_names_accepted_refuted",
    "array_of_256_dimensions_refuted"
   ],
   "note": "False: see the findings. C146 holds for every name of a type after any requests with other names that do not abort."
  },
  {
   "property": "C148",
   "status": "partial",
   "theorems": [
    "loadClass_defines_again_refuted",
    "linked_class_changes_refuted",
    "array_not_found_refuted",
    "array_of_foreign_elements_refuted"
   ],
   "note": "False: see the findings."
  },
  {
   "property": "C149",
   "status": "proved",
   "theorems": [
    "multianewarray_full",
    "multianewarray_unshared",
    "multianewarray_negative"
   ],
   "note": "Allocation is taken not to fail. That element names resolve to element classes is C146. Elements of arrays of primitives are zero because new memory is."
  },
  {
   "property": "C150",
   "status": "partial",
   "theorems": [
    "multianewarray_memory_partial",
    "multianewarray_memory_refuted"
   ],
   "note": "False for counts beyond 2^29: see the findings. Proved where every count c has 8 c + 40 <= 2^32."
  },
  {
   "property": "C151",
   "status": "proved",
   "theorems": [
    "builder_answers_as_documented",
    "builder_shows_its_text"
   ],
   "note": "Lengths are below 2^31. The kind of exception of a refused call is not modelled."
  },
  {
   "property": "C152",
   "status": "partial",
   "theorems": [
    "delete_of_one_piece_partial",
    "delete_before_the_last_piece_refuted",
    "setCharAt_refuted",
    "delete_of_a_whole_piece_refuted",
    "setLength_larger_refuted",
    "insert_null_refuted",
    "delete_beyond_refuted"
   ],
   "note": "False: see the findings. Proved for a text appended in one piece."
  },
  {
   "property": "C153",
   "status": "proved",
   "theorems": [
    "indexOf_char_is_first",
    "lastIndexOf_char_is_last",
    "indexOf_is_first",
    "lastIndexOf_is_last",
    "contains_occurs",
    "compareTo_documented",
    "compareTo_orders",
    "equals_same_text",
    "substring_is_part",
    "startsWith_prefix",
    "endsWith_suffix",
    "trim_cuts_blanks",
    "replace_replaces",
    "replace_of_empty",
    "replace_char_replaces"
   ],
   "note": "Lengths and indices are below 2^30. Bytes behind a string are below 128 (for others see C78). Texts that replace builds go through StringBuilder, C151."
  },
  {
   "property": "C154",
   "status": "partial",
   "theorems": [
    "startsWith_at_refuted",
    "charAt_of_length_refuted",
    "replace_char_refuted",
    "indexOf_negative_start_refuted",
    "indexOf_empty_refuted",
    "trim_control_refuted",
    "regionMatches_refuted",
    "replace_char_replaces"
   ],
   "note": "False: see the findings. replace of characters is proved for strings of char arrays and for characters below 128."
  },
  {
   "property": "C155",
   "status": "proved",
   "theorems": [
    "C155_pool_read",
    "C155_pool_layout"
   ],
   "note": "The stream's reads are C10, the decoding of texts C08, the scan of descriptors C15. Byte arrays are compared by contents, interning is left out."
  },
  {
   "property": "C156",
   "status": "partial",
   "theorems": [
    "C156_recursion_refuted",
    "C156_memory_refuted",
    "C156_abort_refuted",
    "C156_refuses_refuted"
   ],
   "note": "False: see the findings. For legal pools C155 shows that nothing outside is touched."
  },
  {
   "property": "C157",
   "status": "proved",
   "theorems": [
    "C157_ids_not_null",
    "C157_one_id",
    "C157_ids_differ",
    "C157_id_finds_field",
    "C157_ids_stay",
    "C157_no_deadlock"
   ],
   "note": "Memory is sequentially consistent, the lock is a monitor (C27); fewer than 2^31 ids; the collector that moves the table is C18. Finding the field by name is C142, the method C144."
  },
  {
   "property": "C158",
   "status": "proved",
   "theorems": [
    "C158_buffered_output_delivers_in_order",
    "C158_byte_array_output_keeps_what_was_written"
   ],
   "note": "The stream underneath takes all bytes given and does not throw; ranges lie inside their arrays; fewer than 2^31 bytes. writeTo is not modelled."
  },
  {
   "property": "C159",
   "status": "proved",
   "theorems": [
    "C159_buffered_input_gives_the_bytes_in_order",
    "C159_buffered_reader_gives_the_characters_in_order",
    "C159_lines_are_the_lines_of_the_text",
    "C159_line_is_right_and_nothing_is_lost"
   ],
   "note": "The stream underneath keeps the contract of InputStream.read: at least one byte, or -1 at the end, for ever. The case of \\r\\n at a boundary is C161."
  },
  {
   "property": "C160",
   "status": "proved",
   "theorems": [
    "C160_data_streams_read_back_what_was_written",
    "C160_bytes_are_big_endian"
   ],
   "note": "Floats and doubles are C161. readUTF and writeUTF, readFully are not modelled; the native UTF-8 conversion is C08."
  },
  {
   "property": "C161",
   "status": "partial",
   "theorems": [
    "C161_floats_are_read_back_refuted",
    "C161_lines_of_any_text_refuted",
    "C161_available_is_not_negative_refuted",
    "C161_buffer_of_size_0_refuted"
   ],
   "note": "False in the code: readFloat applies floatToIntBits to the int instead of intBitsToFloat (1.0f is read back as 1316880384.0), readDouble likewise (not modelled); a \\r that is the last character in the buffer and the \\n that comes next give an extra empty line; available() is -1 after the end; write(int) with a buffer of size 0 throws. What holds is C158-C160."
  },
  {
   "property": "C162",
   "status": "proved",
   "theorems": [
    "C162_bytes_are_the_encoding",
    "C162_string_of_an_encoding",
    "C162_string_of_bytes_of_string",
    "C162_decoding_stays_inside"
   ],
   "note": "Strings kept in a char array; those kept as ASCII bytes are copied by getBytes (C153). ByteArrayOutputStream is C158. Fewer than 2^31 bytes. U+0000 in getBytes is C164."
  },
  {
   "property": "C163",
   "status": "proved",
   "theorems": [
    "C163_reader_gives_the_text",
    "C163_reader_gives_what_the_writer_wrote"
   ],
   "note": "The stream underneath keeps the contract of InputStream.read as in C159. Malformed bytes inside the text are C164."
  },
  {
   "property": "C164",
   "status": "partial",
   "theorems": [
    "C164_text_with_nul_refuted",
    "C164_constructor_ends_refuted",
    "C164_constructor_ends_otherwise",
    "C164_latin1_refuted"
   ],
   "note": "False in the code: encode writes U+0000 as two zero bytes and decode takes a zero byte and its successor for one character but does not shorten byte arrays, so \"A\\0\" comes back as \"A\\0\\0\", [A,0,B] loses B, [A,0] is refused; bytes that end inside a character make the constructor call itself for ever (the message of the exception is built with the same constructor); new String(b, \"ISO-8859-1\") decodes UTF-8. What holds is C162."
  },
  {
   "property": "C165",
   "status": "proved",
   "theorems": [
    "C165_buffer_is_a_window",
    "C165_buffer_round_trip"
   ],
   "note": "Arguments as in `tame` of JBuffer_Spec: the others are C166. Floats go through their bits. put(ByteBuffer) only as compact uses it; FixedArrayByteBuffer is not modelled."
  },
  {
   "property": "C166",
   "status": "partial",
   "theorems": [
    "C166_get_checks_its_index_refuted",
    "C166_put_checks_its_index_refuted",
    "C166_limit_is_checked_refuted",
    "C166_direct_get_advances_refuted",
    "C166_slice_is_writable_refuted",
    "C166_direct_compact_refuted"
   ],
   "note": "False in the code, each shown on the model. What holds is C165."
  },
  {
   "property": "C167",
   "status": "proved",
   "theorems": [
    "C167_linked_map_keeps_the_order",
    "C167_iterator_removes_what_it_gave"
   ],
   "note": "The two HashMaps inside are taken as finite maps; HashMap itself is JMap. Keys compared by equality. Removing a key for the second time is C168."
  },
  {
   "property": "C168",
   "status": "partial",
   "theorems": [
    "C168_remove_twice_refuted",
    "C168_remove_after_clear_refuted",
    "C168_put_fails_refuted"
   ],
   "note": "False in the code: neither remove nor clear removes from `lookup`. What holds is C167."
  },
  {
   "property": "C169",
   "status": "proved",
   "theorems": [
    "C169_states",
    "C169_every_state_is_reached",
    "C169_period",
    "C169_next_below",
    "C169_next_below_is_one",
    "C169_next_below_is_fair",
    "C169_next_double",
    "C169_next_bytes"
   ],
   "note": "One thread. The constructor that takes the time is not modelled; nextLong is modelled, nothing is claimed of it. The division of nextDouble by 2^53 is exact in floating point for its dividends (not proved here)."
  },
  {
   "property": "C170",
   "status": "proved",
   "theorems": [
    "C170_tokenizer_gives_the_tokens",
    "C170_count_with_delimiters"
   ],
   "note": "Without includeDelimiters except for countTokens; delimiters do not change. The others are C171."
  },
  {
   "property": "C171",
   "status": "partial",
   "theorems": [
    "C171_delimiters_as_tokens_refuted",
    "C171_has_more_tokens_changes_nothing_refuted"
   ],
   "note": "False in the code, the first for every text that begins with a delimiter. What holds is C170."
  },
  {
   "property": "C172",
   "status": "proved",
   "theorems": [
    "C172_shuffle_is_a_permutation",
    "C172_every_order_is_possible"
   ],
   "note": "That every order can come out is for some numbers drawn, not for some seed."
  },
  {
   "property": "C173",
   "status": "partial",
   "theorems": [
    "C173_shuffle_is_fair_refuted"
   ],
   "note": "False in the code: a list of three stays as it is in 4 of 27 cases and becomes 1, 3, 2 in 5. What holds is C172."
  },
  {
   "property": "C174",
   "status": "proved",
   "theorems": [
    "C174_crc32_is_the_checksum"
   ],
   "note": "update with offset and length is modelled for a range inside the array."
  },
  {
   "property": "C175",
   "status": "proved",
   "theorems": [
    "C175_load_reads_what_store_wrote",
    "C175_load_reads_a_line"
   ],
   "note": "On characters: the encoding to bytes is left out. store writes UTF-8 and load(InputStream) takes each byte for a character, so that for load(InputStream) this is about ASCII."
  },
  {
   "property": "C176",
   "status": "partial",
   "theorems": [
    "C176_load_reads_what_store_wrote_refuted"
   ],
   "note": "False in the code: store escapes nothing. What holds is C175."
  },
  {
   "property": "C177",
   "status": "partial",
   "theorems": [
    "C177_escapes_refuted"
   ],
   "note": "False in the code: the newline becomes part of the value, and every line beginning with \\# is a comment."
  },
  {
   "property": "C178",
   "status": "proved",
   "theorems": [
    "C178_window_shows_the_file",
    "C178_no_failure_of_its_own"
   ],
   "note": "For start + length below 2^31."
  },
  {
   "property": "C179",
   "status": "partial",
   "theorems": [
    "C179_window_after_a_failure_refuted"
   ],
   "note": "False in the code: the place of the window is set before the file is read. What holds is C178."
  }
 ]
}