{
 "claims": [
  {
   "property": "C01",
   "status": "proved",
   "theorems": [
    "C01_unsigned_mbn_round_trip",
    "C01_unsigned_mbn_encode_minimal"
   ],
   "note": "All 64-bit values, all sizes from the minimum to 10, any surrounding buffer and any following input bytes."
  },
  {
   "property": "C02",
   "status": "proved",
   "theorems": [
    "C02_unsigned_size_least",
    "C02_signed_size_least",
    "C02_unsigned_encode_writes",
    "C02_signed_encode_writes",
    "C02_encode_short_buffer_detected"
   ],
   "note": "Minimality and exact write sets; sizes above 10 of negative numbers shift by a negative count (shown as an example)."
  },
  {
   "property": "C03",
   "status": "proved",
   "theorems": [
    "C03_unsigned_decode_accepts",
    "C03_unsigned_decode_rejects"
   ],
   "note": "Exact acceptance, both directions."
  },
  {
   "property": "C04",
   "status": "proved",
   "theorems": [
    "C04_signed_mbn_round_trip",
    "C04_signed_mbn_encode_minimal"
   ],
   "note": "All 64-bit values; the decoder is taken with wrapping shifts (see C08 for the strict reading)."
  },
  {
   "property": "C05",
   "status": "partial",
   "theorems": [
    "C05_signed_decode_overflow_refuted",
    "C05_signed_decode_accepts",
    "C05_signed_decode_exact_partial"
   ],
   "note": "Full statement refuted: values in [2^63,2^64) and [-2^64,-2^63) are accepted and wrapped. Exact accepted set proved."
  },
  {
   "property": "C06",
   "status": "proved",
   "theorems": [
    "C06_unsigned_decode_frame",
    "C06_signed_decode_frame"
   ],
   "note": "Total on every valid range, no effect on failure, at most 10 bytes consumed, NULL output makes no difference."
  },
  {
   "property": "C07",
   "status": "proved",
   "theorems": [
    "C07_unsigned_decode2",
    "C07_signed_decode2",
    "C07_null_data"
   ],
   "note": "Exact acceptance of whole buffers; signed acceptance is the set found in C05."
  },
  {
   "property": "C08",
   "status": "partial",
   "theorems": [
    "C08_signed_decode_no_ub_refuted",
    "C08_signed_decode_ub_exact_partial"
   ],
   "note": "Refuted: nine byte negative numbers shift into the sign bit. Proved that this is the only undefined case."
  },
  {
   "property": "C09",
   "status": "proved",
   "theorems": [
    "C09_tlv_round_trip"
   ],
   "note": "All tags 1..2^31-1, all values, any surrounding bytes."
  },
  {
   "property": "C10",
   "status": "partial",
   "theorems": [
    "C10_tlv_decode_inside_refuted",
    "C10_tlvs_decode_reads_refuted",
    "C10_tlv_decode_inside_partial",
    "C10_tlv_decode_safe",
    "C10_exact",
    "C10_outside",
    "C10_reads_exact"
   ],
   "note": "Refuted for length fields of 2^63 and more. Proved for smaller ones. C10_exact and C10_outside say what happens with every length, C10_reads_exact where a list is read in front of the input."
  },
  {
   "property": "C11",
   "status": "proved",
   "theorems": [
    "C11_tlvs_decode_success",
    "C11_tlvs_decode_failure",
    "C11_tlvs_decode_exhaustive",
    "C11_exact"
   ],
   "note": "Success result, both failure codes, and exhaustiveness of the cases. C11_exact covers all inputs with any length fields."
  },
  {
   "property": "C12",
   "status": "partial",
   "theorems": [
    "C12_tlvs_decode_terminates_refuted",
    "C12_tlvs_decode_terminates_noskip_partial",
    "C12_tlvs_decode_terminates_partial",
    "C12_exact"
   ],
   "note": "Refuted: an unknown tag with a length near 2^64 is skipped backwards forever. Proved without the skip flag, and in general if no such number occurs. C12_exact says exactly when it never returns."
  },
  {
   "property": "C13",
   "status": "partial",
   "theorems": [
    "C13_tlv_decode_clean_refuted",
    "C13_tlvs_decode_zero_tag_refuted",
    "C13_tlv_decode_clean_partial",
    "C13_tlvs_decode_accepts_only_tlvs_partial"
   ],
   "note": "Refuted: a zero tag is consumed although 0 is returned, and accepted by tlvs_decode at the end of input. Proved otherwise."
  },
  {
   "property": "C14",
   "status": "partial",
   "theorems": [
    "C14_tlv_size_refuted",
    "C14_tlv_size_predicts_encode_partial",
    "C14_exact"
   ],
   "note": "Refuted from 4 GB on (result truncated to 32 bits). Proved below; C14_exact for all sizes."
  },
  {
   "property": "C15",
   "status": "proved",
   "theorems": [
    "C15_ring_is_deque",
    "C15_ring_no_abort"
   ],
   "note": "All call sequences (nested use of the ring by free functions is C21). The allocator delivers at most L < 2^30 cells per block and aborts otherwise; a second theorem bounds when it does not abort."
  },
  {
   "property": "C16",
   "status": "partial",
   "theorems": [
    "C16_ring_memory_safety_refuted",
    "C16_ring_memory_safety_partial",
    "C16_stack_partial"
   ],
   "note": "Refuted: put after flatten writes past the shrunk block. Proved that this is the only fault besides an allocator abort, and that it does not happen to rings where nothing is put to the front or taken from it (C16_stack_partial)."
  },
  {
   "property": "C17",
   "status": "partial",
   "theorems": [
    "C17_ring_size_limit_refuted",
    "C17_ring_size_limit_partial",
    "C17_new_limit_enforced"
   ],
   "note": "Refuted if more is reserved than the maximum. Proved if the reservation is within the limit and the limit is not lowered; a changed limit is enforced at once. C101 says exactly how many elements there can be."
  },
  {
   "property": "C18",
   "status": "partial",
   "theorems": [
    "C18_can_put_predicts_put_refuted",
    "C18_can_put_sufficient",
    "C18_failed_put_changes_nothing",
    "C18_can_put_predicts_put_partial"
   ],
   "note": "Refuted for the same reason as C17. TRUE is always sufficient, a failing put changes nothing; the equivalence is proved under the conditions of C17; C101_can_put says exactly when they differ."
  },
  {
   "property": "C19",
   "status": "proved",
   "theorems": [
    "C19_ring_ownership"
   ],
   "note": "All call sequences with a free function and non-NULL elements; the order of freeing is part of the relation used in C15."
  },
  {
   "property": "C20",
   "status": "proved",
   "theorems": [
    "C20_ring_flatten",
    "C20_contents"
   ],
   "note": "All rings reached by calls which did not fault."
  },
  {
   "property": "C21",
   "status": "partial",
   "theorems": [
    "C21_drop_last_partial",
    "C21_drop_partial",
    "C21_shrink_partial",
    "C21_unref_partial",
    "C21_unref_refuted",
    "C21_drop_last_refuted",
    "C21_drop_front_refuted",
    "C21_free_may_use_ring_refuted",
    "C21_free_may_use_ring_partial"
   ],
   "note": "Refuted for drop and drop_last with a free function which clears the ring (element freed twice, corrupted ring), and for drop with a free function which puts to the front (a freed element stays in the ring). Proved for free functions called by clear, nested to any depth, and for free functions called by drop, drop_last and set_max_size which look at the ring and add to it (at the end, in the case of drop and set_max_size), where the next call may depend on what the previous ones returned. When the last reference goes away exactly the elements present before are released; elements added by the function meanwhile are lost (refuted). Missing: programs of free functions which release elements themselves, outside of clear."
  },
  {
   "property": "C22",
   "status": "proved",
   "theorems": [
    "C22_history_window",
    "C22_history_window_strict"
   ],
   "note": "All call sequences, any clock (also going backwards) in 0..2^63-1. Strict reading of signed overflow: sizes up to 2^30, and averaging may overflow (C24)."
  },
  {
   "property": "C23",
   "status": "proved",
   "theorems": [
    "C23_history_timestamps"
   ],
   "note": "All reachable histories; the interval is negative if the clock has gone back (example)."
  },
  {
   "property": "C24",
   "status": "partial",
   "theorems": [
    "C24_history_median_refuted",
    "C24_history_median_partial",
    "C24_history_median_defined"
   ],
   "note": "Refuted for extreme values: the average of INT_MAX, INT_MAX is an overflow or -1. Proved if 2*B < 2^31 and 2*B*interval < 2^63 for the bound B of the values; 'average' is between min and max and within 3/2 of the exact average. Without restriction on the values: if the behaviour is defined by ISO C, the result is right (C24_history_median_defined)."
  },
  {
   "property": "C25",
   "status": "proved",
   "theorems": [
    "C25_history_safe",
    "C25_history_total"
   ],
   "note": "No division by zero, no access outside the array, termination: for all sizes and values. Signed overflow (C24) is the only fault left, none with wrapping arithmetic."
  },
  {
   "property": "C26",
   "status": "proved",
   "theorems": [
    "C26_hex_round_trip",
    "C26_data2hex"
   ],
   "note": "All byte blocks, lower and upper case; gutil_data2hex of NULL."
  },
  {
   "property": "C27",
   "status": "proved",
   "theorems": [
    "C27_hex_decoding",
    "C27_hex2bytes",
    "C27_hex_null"
   ],
   "note": "Exact acceptance condition and the bytes written, including what is left in the buffer on failure."
  },
  {
   "property": "C28",
   "status": "partial",
   "theorems": [
    "C28_defined",
    "C28_undefined",
    "C28_hexdump_refuted",
    "C28_hexdump_partial"
   ],
   "note": "Refuted under ISO C: isprint is called with a negative char. Proved for libcs whose isprint takes them: fits the buffer, exact layout; right whenever ISO C defines it; undefined exactly if a byte of 128..254 is dumped."
  },
  {
   "property": "C29",
   "status": "partial",
   "theorems": [
    "C29_parse_int_refuted",
    "C29_parse_int64_partial",
    "C29_parse_int_partial",
    "C29_parse_int_null"
   ],
   "note": "Refuted: a blank string is parsed as 0 with glibc. Exact characterisation of what is accepted and the value, for all strings and bases and both behaviours of strtoll."
  },
  {
   "property": "C30",
   "status": "partial",
   "theorems": [
    "C30_parse_uint_refuted",
    "C30_parse_uint64_partial",
    "C30_parse_uint_partial",
    "C30_parse_uint_null"
   ],
   "note": "Refuted: a vertical tab hides the minus sign, so \\v-1 is accepted as 2^64-1. Exact characterisation otherwise."
  },
  {
   "property": "C31",
   "status": "partial",
   "theorems": [
    "C31_data_compare_refuted",
    "C31_data_compare_partial",
    "C31_bytes_compare",
    "C31_null",
    "C31_defined",
    "C31_undefined"
   ],
   "note": "Refuted under ISO C for two empty GUtilData with NULL bytes (memcmp of NULL). Proved otherwise; the GBytes functions without exception; right whenever ISO C defines it, and exactly when it does not."
  },
  {
   "property": "C32",
   "status": "partial",
   "theorems": [
    "C32_bytes_concat_refuted",
    "C32_bytes_concat_partial",
    "C32_defined",
    "C32_undefined"
   ],
   "note": "Refuted under ISO C for an empty GBytes without data among others (memcpy from NULL). Proved otherwise: contents, and a reference to an argument if at most one is not empty; right whenever ISO C defines it; undefined exactly if something is copied and some GBytes has no memory."
  },
  {
   "property": "C33",
   "status": "partial",
   "theorems": [
    "C33_bytes_xor_refuted",
    "C33_bytes_xor_partial",
    "C33_bytes_xor_empty",
    "C33_defined",
    "C33_undefined"
   ],
   "note": "Refuted under ISO C for unaligned data. Proved for any word size and byte order if aligned or if the machine does not care; right whenever ISO C defines it; undefined exactly if a whole word fits and a block is not aligned."
  },
  {
   "property": "C34",
   "status": "partial",
   "theorems": [
    "C34_range_prefix_refuted",
    "C34_range_prefix_partial",
    "C34_range_prefix_null",
    "C34_defined",
    "C34_undefined"
   ],
   "note": "Refuted under ISO C for an empty prefix with a NULL pointer. Proved otherwise, including ranges whose end is before the start; right whenever ISO C defines it; undefined exactly for a prefix without memory and a range that is not empty."
  },
  {
   "property": "C35",
   "status": "partial",
   "theorems": [
    "C35_data_copy_exact",
    "C35_data_copy_refuted",
    "C35_data_copy_partial",
    "C35_data_new"
   ],
   "note": "Refuted for 4 GB blocks (size cut to 32 bits). Proved below that; C35_data_copy_exact for all sizes."
  },
  {
   "property": "C36",
   "status": "partial",
   "theorems": [
    "C36_insert_refuted",
    "C36_find_refuted",
    "C36_int_array_partial",
    "C36_one_call_partial",
    "C36_new",
    "C36_null",
    "C36_single",
    "C36_find_exact"
   ],
   "note": "Refuted: an insertion behind the end extends the array with unspecified values, and an index above 2^31-1 is returned as a negative int. All call sequences otherwise. C36_find_exact: what find does with any array, unspecified elements included."
  },
  {
   "property": "C37",
   "status": "partial",
   "theorems": [
    "C37_remove_refuted",
    "C37_remove_partial",
    "C37_remove_exact",
    "C37_remove_all_exact",
    "C37_remove_all_fast_exact"
   ],
   "note": "Refuted for elements at an index above 2^31-1 (never found). Proved for arrays of up to 2^31 elements; the exact theorems say what is left behind in larger ones."
  },
  {
   "property": "C38",
   "status": "partial",
   "theorems": [
    "C38_remove_range_refuted",
    "C38_remove_range_partial",
    "C38_overflow"
   ],
   "note": "Refuted if pos+count overflows (nothing removed, GLib complains: C38_overflow). Proved otherwise."
  },
  {
   "property": "C39",
   "status": "partial",
   "theorems": [
    "C39_sort_refuted",
    "C39_sort_partial",
    "C39_sort_permutation",
    "C39_sort_defined"
   ],
   "note": "Refuted: the comparison overflows. Proved if differences fit an int, for GLib's merge sort; with wrapping arithmetic always a permutation. Without restriction: if the behaviour is defined by ISO C, the result is right (C39_sort_defined)."
  },
  {
   "property": "C40",
   "status": "partial",
   "theorems": [
    "C40_slices_partial",
    "C40_slices_overflow_refuted",
    "C40_overflow",
    "C40_empty_slice_refuted"
   ],
   "note": "Refuted: offset+count overflow gives a slice outside of the block (proved for all of them, C40_overflow), an empty slice takes a reference. Proved otherwise."
  },
  {
   "property": "C41",
   "status": "proved",
   "theorems": [
    "C41_total_order",
    "C41_transitive"
   ],
   "note": "Both byte orders, all blocks and NULL."
  },
  {
   "property": "C42",
   "status": "partial",
   "theorems": [
    "C42_numeric_order_refuted",
    "C42_numeric_order_partial",
    "C42_order_exact"
   ],
   "note": "Refuted on both byte orders: bytes are compared. Proved for values 0..2^31-1 (big endian) and 0..255 (little endian); C42_order_exact says what the order is for all values."
  },
  {
   "property": "C43",
   "status": "proved",
   "theorems": [
    "C43_hash_consistent"
   ],
   "note": "All blocks and NULL."
  },
  {
   "property": "C44",
   "status": "partial",
   "theorems": [
    "C44_lifetime_partial",
    "C44_given",
    "C44_take_empty_refuted",
    "C44_leak_refuted"
   ],
   "note": "Refuted: an empty slice leaks a reference, gutil_ints_new_take of a block of size 0 leaks the block. Proved for all sequences of calls, slices of slices and empty slices (as one more reference) included, with less than 2^31 references and slices whose end does not overflow."
  },
  {
   "property": "C45",
   "status": "partial",
   "theorems": [
    "C45_unref_to_data_partial",
    "C45_static",
    "C45_static_refuted"
   ],
   "note": "Refuted for the last reference to static data (NULL call, proved for all such calls: C45_static). Proved otherwise, static data with further references or slices included."
  },
  {
   "property": "C46",
   "status": "partial",
   "theorems": [
    "C46_length_exact",
    "C46_find_exact",
    "C46_last_exact",
    "C46_equal_exact",
    "C46_length_partial",
    "C46_length_refuted",
    "C46_at",
    "C46_last_partial",
    "C46_find_partial",
    "C46_equal_partial"
   ],
   "note": "Proved for arrays of less than 2^31 strings; at for all arrays. Longer arrays are refuted for the length (truncated to 32 bits). The _exact theorems say what length, find, last and equal do with any number of strings."
  },
  {
   "property": "C47",
   "status": "partial",
   "theorems": [
    "C47_addv_exact",
    "C47_add_exact",
    "C47_remove_at_exact",
    "C47_add_partial",
    "C47_addv_partial",
    "C47_remove_at_partial",
    "C47_remove_partial",
    "C47_remove_alias_partial",
    "C47_remove_alias_refuted"
   ],
   "note": "Refuted: removing all occurrences of a string of the array itself uses freed memory. Proved when exactly it does (C47_remove_alias_partial), and the result in all other cases, below 2^31 strings. C47_add_exact, C47_addv_exact and C47_remove_at_exact say what is left of longer arrays."
  },
  {
   "property": "C48",
   "status": "partial",
   "theorems": [
    "C48_remove_dups_partial",
    "C48_remove_dups_refuted"
   ],
   "note": "Proved for arrays of less than 2^31 strings. Refuted for 2^32 (nothing is removed)."
  },
  {
   "property": "C49",
   "status": "partial",
   "theorems": [
    "C49_sort_exact",
    "C49_bsearch_exact",
    "C49_sort_partial",
    "C49_bsearch_partial",
    "C49_bsearch_null",
    "C49_sort_refuted",
    "C49_bsearch_refuted"
   ],
   "note": "Proved for arrays of less than 2^31 strings, any qsort meeting its contract, and the bsearch loop of glibc. Refuted for 2^32 strings (not sorted, nothing found). C49_sort_exact and C49_bsearch_exact say what happens with any number of strings."
  },
  {
   "property": "C50",
   "status": "proved",
   "theorems": [
    "C50_strip"
   ],
   "note": "All arrays."
  },
  {
   "property": "C51",
   "status": "partial",
   "theorems": [
    "C51_first_last",
    "C51_find",
    "C51_equal",
    "C51_at_partial",
    "C51_at_refuted",
    "C51_programs",
    "C51_at_endless"
   ],
   "note": "gutil_objv_at refuted for positions of 2^32 and more (does not return exactly if there are as many objects). Everything else proved for all arrays that fit in memory."
  },
  {
   "property": "C52",
   "status": "partial",
   "theorems": [
    "C52_add",
    "C52_insert",
    "C52_append_partial",
    "C52_append_self_refuted",
    "C52_remove",
    "C52_remove_at",
    "C52_new",
    "C52_copy",
    "C52_free",
    "C52_programs"
   ],
   "note": "Refuted: appending an array to itself. Proved for all programs of all other calls."
  },
  {
   "property": "C53",
   "status": "proved",
   "theorems": [
    "C53_run_once",
    "C53_destroy_once",
    "C53_finished",
    "C53_gone",
    "C53_add"
   ],
   "note": "All executions of an arbitrary reentrant client. C53_gone for clients which respect the reference counts."
  },
  {
   "property": "C54",
   "status": "partial",
   "theorems": [
    "C54_order",
    "C54_scope_partial",
    "C54_refuted",
    "C54_pass"
   ],
   "note": "The order is proved for all executions, and that a pass runs only what was waiting when it began. Refuted: a callback which cancels everything, adds an item and runs the main loop gets the new item run before the current pass is over."
  },
  {
   "property": "C55",
   "status": "proved",
   "theorems": [
    "C55_wakeup",
    "C55_ready",
    "C55_no_source",
    "C55_sources"
   ],
   "note": "All executions."
  },
  {
   "property": "C56",
   "status": "proved",
   "theorems": [
    "C56_contains",
    "C56_contains_call",
    "C56_cancel_call",
    "C56_result"
   ],
   "note": "All executions."
  },
  {
   "property": "C57",
   "status": "partial",
   "theorems": [
    "C57_only_queue_partial",
    "C57_safe_partial",
    "C57_careful_partial",
    "C57_refuted"
   ],
   "note": "Refuted: owning a reference at every call is not enough, dropping the last one in a callback makes the pass use the freed queue. Proved if the last reference does not go away during a callback; without any assumption about the client the only possible fault is the use of a freed queue."
  },
  {
   "property": "C58",
   "status": "proved",
   "theorems": [
    "C58_once",
    "C58_order",
    "C58_all",
    "C58_drained",
    "C58_gone"
   ],
   "note": "Once and in order: all executions of any client. Complete after a drain and when the pool is gone: clients which have a reference while they drain the pool (careful)."
  },
  {
   "property": "C59",
   "status": "partial",
   "theorems": [
    "C59_empty",
    "C59_scheduled",
    "C59_pass",
    "C59_wrong_thread_refuted"
   ],
   "note": "Proved for careful clients; that a source is scheduled while items wait is proved if the sources are called on the thread of the pool and refuted otherwise (the source is removed, not called again as the comment in the code says)."
  },
  {
   "property": "C60",
   "status": "partial",
   "theorems": [
    "C60_safe_partial",
    "C60_any_client",
    "C60_kept",
    "C60_freed",
    "C60_refuted"
   ],
   "note": "Refuted: a client which drops its last reference in a callback of its own drain and runs the main loop there makes the drain use the freed pool. Proved if it keeps a reference during its drains, wrong threads included. Without any assumption the only possible fault is the use of a freed pool."
  },
  {
   "property": "C61",
   "status": "partial",
   "theorems": [
    "C61_alive",
    "C61_points",
    "C61_private",
    "C61_self_destroy",
    "C61_wrong_thread_refuted"
   ],
   "note": "The variable: all executions of any client. Self-destruction: proved if sources are called on the thread of the pool, refuted otherwise (the pool is leaked)."
  },
  {
   "property": "C62",
   "status": "partial",
   "theorems": [
    "C62_exact",
    "C62_predicts_partial",
    "C62_refuted",
    "C62_nowhere_refuted"
   ],
   "note": "Proved for any module and for NULL if the default module is neither disabled nor inherits. Refuted for NULL with a disabled default module (logged although not enabled) and for gutil_log_func being NULL (enabled but goes nowhere). C62_exact: all cases of disagreement."
  },
  {
   "property": "C63",
   "status": "proved",
   "theorems": [
    "C63_silenced",
    "C63_level",
    "C63_total"
   ],
   "note": "All chains which end. If modules inherit from one another in a circle neither function returns (example)."
  },
  {
   "property": "C64",
   "status": "partial",
   "theorems": [
    "C64_exact",
    "C64_default_partial",
    "C64_module_partial",
    "C64_rejected_partial",
    "C64_unambiguous",
    "C64_refuted"
   ],
   "note": "Proved if all modules given have names. Refuted otherwise: a module without a name (the default module has none before gutil_log_set_type) is a NULL dereference. C64_exact: any option, any modules."
  },
  {
   "property": "C65",
   "status": "partial",
   "theorems": [
    "C65_known",
    "C65_unknown_partial",
    "C65_custom",
    "C65_refuted",
    "C65_null_refuted",
    "C65_syslog_partial",
    "C65_syslog_refuted"
   ],
   "note": "Known types: proved. Unknown ones: FALSE and the type stays, but the default name changes and syslog is closed while it stays in use (refuted), so that it may be closed twice. NULL selects syslog (refuted)."
  },
  {
   "property": "C66",
   "status": "partial",
   "theorems": [
    "C66_defined",
    "C66_undefined",
    "C66_bytes",
    "C66_bytes_undefined",
    "C66_dump_partial",
    "C66_complete",
    "C66_endless",
    "C66_refuted"
   ],
   "note": "Proved for blocks below 4 GB and bytes isprint knows (see C28), and for any bytes if the dump returns (C66_defined; C66_undefined says when it does not); from 4 GB on the loop does not end (refuted)."
  },
  {
   "property": "C67",
   "status": "partial",
   "theorems": [
    "C67_exact",
    "C67_format_partial",
    "C67_overflow",
    "C67_max",
    "C67_refuted"
   ],
   "note": "Proved for texts shorter than INT_MAX. A text which cannot be formatted, or of INT_MAX characters and more, makes the size overflow (refuted). C67_exact: no other case."
  },
  {
   "property": "C68",
   "status": "proved",
   "theorems": [
    "C68_lifetime",
    "C68_no_leak"
   ],
   "note": "All sequences of calls."
  },
  {
   "property": "C69",
   "status": "partial",
   "theorems": [
    "C69_delivery_partial",
    "C69_finish_partial",
    "C69_incomplete_refuted"
   ],
   "note": "For all executions in which the kernel writes complete events, as it does; of incomplete ones a header is read which is not there (refuted)."
  },
  {
   "property": "C70",
   "status": "partial",
   "theorems": [
    "C70_independent_refuted",
    "C70_independent_partial",
    "C70_kernel_partial"
   ],
   "note": "Refuted: two watches of the same file share a descriptor, so destroying one stops the other. Proved if the client has no two watches of one file at a time."
  },
  {
   "property": "C71",
   "status": "partial",
   "theorems": [
    "C71_one",
    "C71_instance",
    "C71_stays",
    "C71_files",
    "C71_sources",
    "C71_no_foreign_close_partial",
    "C71_closed_once_refuted",
    "C71_foreign_close_refuted"
   ],
   "note": "Lifetime, uniqueness and absence of leaked descriptors proved. Refuted: the descriptor is closed twice, and a file opened by another thread in between is closed. Proved that this does not happen if no thread opens a file in between."
  },
  {
   "property": "C72",
   "status": "partial",
   "theorems": [
    "C72_safe_partial",
    "C72_once_partial",
    "C72_last_partial",
    "C72_held_partial",
    "C72_done_partial",
    "C72_finish_partial",
    "C72_unref_to_data_refuted",
    "C72_many_refuted",
    "C72_many_debug_refuted"
   ],
   "note": "For all schedules and numbers of threads if there are less than 2^31 references to an object at a time; with 2^32 it is freed too early (release build, refuted), with 2^31 an assertion fails (debug build). gutil_ints_unref_to_data reads the integers after its reference is gone (refuted); proved for callers having another reference."
  },
  {
   "property": "C73",
   "status": "proved",
   "theorems": [
    "C73_safe",
    "C73_get",
    "C73_null",
    "C73_weak",
    "C73_dead"
   ],
   "note": "For all sequences of operations, of any threads. Alive means: before the last reference is dropped; during dispose weak references are NULL already."
  },
  {
   "property": "C74",
   "status": "proved",
   "theorems": [
    "C74_accessors",
    "C74_order",
    "C74_others",
    "C74_current"
   ],
   "note": "All triples in range, arguments of any integer type; other arguments lose their upper bits."
  },
  {
   "property": "C75",
   "status": "proved",
   "theorems": [
    "C75_align",
    "C75_unique",
    "C75_limit"
   ],
   "note": "All values for which the sum fits, negative ones as well; within 7 of the maximum the result is 0 (unsigned) or undefined (signed)."
  },
  {
   "property": "C76",
   "status": "proved",
   "theorems": [
    "C76_safe",
    "C76_one",
    "C76_new",
    "C76_life"
   ],
   "note": "For all sequences of operations of one thread, also from inside of handlers. An emission keeps the instance too."
  },
  {
   "property": "C77",
   "status": "proved",
   "theorems": [
    "C77_length",
    "C77_is_empty",
    "C77_free",
    "C77_source_clear",
    "C77_disconnect",
    "C77_source_exact",
    "C77_disconnect_exact"
   ],
   "note": "All arrays and ids, also ids which are gone or occur twice (GLib complains, C77_source_exact and C77_disconnect_exact)."
  },
  {
   "property": "C78",
   "status": "proved",
   "theorems": [
    "C78_views"
   ],
   "note": "All strings and blocks."
  },
  {
   "property": "C79",
   "status": "proved",
   "theorems": [
    "C79_int_array_free"
   ],
   "note": "All arrays and reference counts, also NULL."
  },
  {
   "property": "C80",
   "status": "partial",
   "theorems": [
    "C80_find_exact",
    "C80_find_partial",
    "C80_find_refuted"
   ],
   "note": "gutil_ints_find refuted for positions of 2^31 and more, with the exact result. Proved otherwise."
  },
  {
   "property": "C81",
   "status": "proved",
   "theorems": [
    "C81_cancel_all",
    "C81_pass",
    "C81_only_those"
   ],
   "note": "All executions."
  },
  {
   "property": "C82",
   "status": "proved",
   "theorems": [
    "C82_gone",
    "C82_lifetime"
   ],
   "note": "Clients which respect the reference counts and do not drop the last reference in a callback."
  },
  {
   "property": "C83",
   "status": "partial",
   "theorems": [
    "C83_exact",
    "C83_line_partial",
    "C83_refuted"
   ],
   "note": "Proved if the expanded timestamp has less than 32 characters and the message less than INT_MAX. A longer timestamp is printed from an array with unspecified contents (refuted). C83_exact: no other case."
  },
  {
   "property": "C84",
   "status": "partial",
   "theorems": [
    "C84_exact",
    "C84_syslog_partial",
    "C84_syslog_refuted",
    "C84_severity"
   ],
   "note": "Text: messages shorter than INT_MAX characters (refuted for longer ones). Severity: all levels. C84_exact: what becomes of those, tags or not."
  },
  {
   "property": "C85",
   "status": "proved",
   "theorems": [
    "C85_environment"
   ],
   "note": "All strings, in terms of what gutil_parse_int accepts (C29), including white space only where strtol reports no error."
  },
  {
   "property": "C86",
   "status": "partial",
   "theorems": [
    "C86_specific_partial",
    "C86_excess",
    "C86_table",
    "C86_refuted"
   ],
   "note": "Proved up to 1.0.74. The macros from 1.0.75 on, including that of this version, have a closing parenthesis too many (refuted)."
  },
  {
   "property": "C87",
   "status": "proved",
   "theorems": [
    "C87_connected",
    "C87_destroyed",
    "C87_grows"
   ],
   "note": "For all executions. A destroyed watch still gets the event being delivered: handlers which have not been called yet are."
  },
  {
   "property": "C88",
   "status": "partial",
   "theorems": [
    "C88_polled_partial",
    "C88_deaf_refuted"
   ],
   "note": "Proved while the descriptor has no error. Refuted after one: the instance stays without a source, also for new watches, until all watches are gone."
  },
  {
   "property": "C89",
   "status": "proved",
   "theorems": [
    "C89_file",
    "C89_source",
    "C89_channel",
    "C89_clean"
   ],
   "note": "For all sequences of operations of one thread, also from inside of handlers, and of errors of the file."
  },
  {
   "property": "C90",
   "status": "proved",
   "theorems": [
    "C90_turn",
    "C90_calls",
    "C90_connected",
    "C90_ends"
   ],
   "note": "For all sequences of operations of one thread, also from inside of handlers. An emission is not nested because a GSource whose callback is running is not called again."
  },
  {
   "property": "C91",
   "status": "proved",
   "theorems": [
    "C91_safe",
    "C91_alive",
    "C91_function",
    "C91_all",
    "C91_drained",
    "C91_gone",
    "C91_pass",
    "C91_give",
    "C91_returns"
   ],
   "note": "All clients which use an object only while they or the pool have a reference to it, hand over only their own references, do not confuse types and use the pool as in C60 (with a reference of their own while they drain it). Reference counts have no upper bound; floating references of variants are not modelled."
  },
  {
   "property": "C92",
   "status": "partial",
   "theorems": [
    "C92_safe",
    "C92_created",
    "C92_connected",
    "C92_called",
    "C92_served_partial",
    "C92_silent",
    "C92_others",
    "C92_gone",
    "C92_independent_refuted"
   ],
   "note": "For all sequences of actions of clients, kernel and main loop, also from inside of functions being called. served: the client has no two watches of one object at a time and does not destroy the watch it is given; otherwise it is false (independent_refuted), see C70."
  },
  {
   "property": "C93",
   "status": "partial",
   "theorems": [
    "C93_text_exact",
    "C93_null_exact",
    "C93_first_exact",
    "C93_case_refuted",
    "C93_colon_exact",
    "C93_newline_refuted",
    "C93_layout_partial",
    "C93_levels",
    "C93_options_partial",
    "C93_options_refuted",
    "C93_null_refuted"
   ],
   "note": "Proved: the layout of the description, for any modules with names; that what it lists works as an option (number and word of each level, each module). Refuted for a module with a colon in its name, which is listed but cannot be given, and for a module without a name (%s with NULL is undefined). Refuted also for names which differ in the case of letters only (the first module is set) and for names with newlines (the same text for one module and for two). C93_text_exact, C93_null_exact, C93_first_exact and C93_colon_exact say what happens with any names."
  },
  {
   "property": "C94",
   "status": "partial",
   "theorems": [
    "C94_safe",
    "C94_same",
    "C94_own",
    "C94_alive",
    "C94_once",
    "C94_thread",
    "C94_freed",
    "C94_pass",
    "C94_scheduled_partial",
    "C94_foreign_partial",
    "C94_foreign_refuted",
    "C94_bad_refuted",
    "C94_stuck_refuted",
    "C94_wrong_thread_refuted"
   ],
   "note": "Proved for all interleavings: memory safety, the same pool for a thread until it begins to exit, no sharing, the life of the pool, at most one destruction of each item with what was added, on the thread that added it unless it is exiting, and that everything is destroyed when the last reference is gone; each call of a source on the thread of the pool destroys what was waiting. The claims about sources are false in general: gutil_idle_pool_drain calls g_source_remove, which knows the default context only, so on a thread with its own context it removes an unrelated source (foreign_refuted), one of another pool whose items then wait for ever (stuck_refuted), or none (bad_refuted); and a source called on a wrong thread is removed without destroying anything (wrong_thread_refuted). Partial: with sources called on the thread of their pool and no such removal, items which wait have a source; when no thread has a context of its own, no source of others is removed."
  },
  {
   "property": "C95",
   "status": "partial",
   "theorems": [
    "C95_decode_exact",
    "C95_outside",
    "C95_list_exact",
    "C95_terminates_exact",
    "C95_reads_exact",
    "C95_round_trip",
    "C95_size",
    "C95_decode_exact_partial",
    "C95_length_refuted",
    "C95_inside_refuted",
    "C95_terminates_refuted",
    "C95_reads_refuted",
    "C95_inside_partial",
    "C95_list_success",
    "C95_list_failure",
    "C95_noskip_partial",
    "C95_terminates_partial"
   ],
   "note": "Proved for lengths below 2^31. Refuted for others: the length is cut to 32 bits, so that six bytes of input are enough for a value outside of it, an endless loop or reading in front of it, and a length of 2^32 + 1 is taken for 1. C95_decode_exact, C95_list_exact, C95_terminates_exact and C95_reads_exact say exactly what is accepted, what is returned, and when it does not return or reads in front of the input."
  },
  {
   "property": "C96",
   "status": "partial",
   "theorems": [
    "C96_hex_partial",
    "C96_hex_refuted",
    "C96_concat_partial",
    "C96_concat_refuted",
    "C96_copy_partial",
    "C96_copy_refuted"
   ],
   "note": "Proved for hex conversion of less than 2 GB, total sizes of less than 4 GB and copies of less than 4 GB - 8. Refuted beyond: the sizes are computed modulo 2^32, and what was allocated is overrun (the same block of 1 GB given five times is enough)."
  },
  {
   "property": "C97",
   "status": "partial",
   "theorems": [
    "C97_once",
    "C97_memory_partial",
    "C97_complaints_partial",
    "C97_kept_partial",
    "C97_removes",
    "C97_complaint",
    "C97_complaints_refuted",
    "C97_kept_refuted",
    "C97_memory_refuted"
   ],
   "note": "False in full: the cell is cleared after the removal, hence a notification which calls again for the same identifier makes GLib complain (C97_complaints_refuted), one which stores another identifier in its place loses it (C97_kept_refuted), and one which frees the array makes the function write to freed memory (C97_memory_refuted). At most once and completeness hold (C97_once, C97_removes); complaints come only from calls which meet a cell being cleared (C97_complaint); with clients that stay away from such cells there are none, nothing is lost and memory is not misused (_partial theorems)."
  },
  {
   "property": "C98",
   "status": "partial",
   "theorems": [
    "C98_reads",
    "C98_truncated",
    "C98_extended",
    "C98_exact_partial",
    "C98_inside_partial",
    "C98_writes",
    "C98_round_trip",
    "C98_init",
    "C98_exact_refuted",
    "C98_inside_refuted"
   ],
   "note": "Proved: sizes, round trip, rejection of messages cut off or extended, and the range of a GBytes. That only messages are accepted and that reading stays inside of the GBytes is proved as long as no TLV length of 2^63 or more is met, and refuted otherwise (C98_exact_refuted, C98_inside_refuted), see C10. TLV values are below 4 GB (C14), fixed bytes are not empty; signed numbers as with two's complement (C08)."
  },
  {
   "property": "C99",
   "status": "partial",
   "theorems": [
    "C99_once",
    "C99_safe_partial",
    "C99_value_partial",
    "C99_alive_partial",
    "C99_counts_partial",
    "C99_memory_partial",
    "C99_removing_partial",
    "C99_freeing_partial",
    "C99_remove_refuted",
    "C99_add_refuted",
    "C99_use_refuted",
    "C99_stale_refuted",
    "C99_free_refuted"
   ],
   "note": "Proved for all clients: no object is finalized twice (C99_once). For clients whose finalizers leave the array alone which is being changed: no fault, results of calls, references, what is still to be seen in that array. Refuted for others: the array may not be changed (C99_remove_refuted, C99_add_refuted, C99_free_refuted) and may not be used (C99_use_refuted, C99_stale_refuted) by finalizers of its objects. gutil_objv_insert and gutil_objv_append are left out, they call nobody."
  },
  {
   "property": "C100",
   "status": "partial",
   "theorems": [
    "C100_programs_partial",
    "C100_memory_partial",
    "C100_clear_partial",
    "C100_alias_partial",
    "C100_alias_refuted"
   ],
   "note": "Proved for all programs whose arrays have less than 2^31 strings and which do not remove all strings equal to an element of the array itself (refuted: C100_alias_refuted); such a removal is proved to work if that element is the only one and the last string of the array or right behind the first equal one, and to use freed memory in all other cases (C100_alias_partial)."
  },
  {
   "property": "C101",
   "status": "partial",
   "theorems": [
    "C101_replies",
    "C101_memory",
    "C101_limit",
    "C101_reserve_refuted",
    "C101_reserve_partial",
    "C101_can_put"
   ],
   "note": "Proved: the answers of additions, reservations and gutil_ring_can_put and the size in all runs, the memory sufficient and necessary (unless elements are added after flatten), the bound under moving limits, where can_put and put differ. Refuted: gutil_ring_reserve returns TRUE for more than the limit if the capacity is below the limit (it reserves as many as the limit allows). Proved for reservations within the limit."
  },
  {
   "property": "C102",
   "status": "partial",
   "theorems": [
    "C102_programs",
    "C102_bytes",
    "C102_null",
    "C102_claim_given",
    "C102_claim_refuted",
    "C102_unclaimed"
   ],
   "note": "Proved for all programs which follow the rules of ownership; the contents of a copy; NULL. Refuted: a variant given to the pool floating may not be claimed (g_variant_ref_sink) later, as other variants may; proved for all such programs that freed memory is used. A variant given by gutil_idle_pool_add_variant_ref and never claimed is never freed (proved)."
  },
  {
   "property": "C103",
   "status": "partial",
   "theorems": [
    "C103_messages",
    "C103_dump",
    "C103_nested",
    "C103_safe_partial",
    "C103_free_refuted"
   ],
   "note": "Proved for all runs: where each message goes, when dumps begin, the lines of each dump at the time they are logged, nesting. That nothing fails is proved for clients which do not free what is being dumped and do not make modules inherit in a circle; refuted otherwise: gutil_log_dump_bytes does not reference its GBytes, so a log function which drops the last reference makes it read freed memory."
  }
 ]
}
