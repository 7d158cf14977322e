{"id": "C01", "title": "Unsigned MBN round trip", "statement": "For every 64-bit unsigned value and every size from gutil_unsigned_mbn_size(value) to 10, gutil_unsigned_mbn_encode2 followed by gutil_unsigned_mbn_decode on a range that starts with the written bytes returns TRUE, yields the same value and advances the range by exactly that size, whatever follows the encoding; gutil_unsigned_mbn_encode is the case of the minimal size.", "quantifier": "all 2^64 values, all sizes minimal..10, all buffers and all trailing data", "why_tests_cant": "2^64 values times every padding and every trailing context cannot be enumerated", "anchors": [{"file": "src/gutil_datapack.c", "symbols": ["gutil_unsigned_mbn_encode", "gutil_unsigned_mbn_encode2", "gutil_unsigned_mbn_decode", "gutil_unsigned_mbn_size"]}]}
{"id": "C02", "title": "MBN encoders write exactly the promised bytes, and the promised size is minimal", "statement": "gutil_unsigned_mbn_size/gutil_signed_mbn_size return the least n>=1 such that the value fits in n 7-bit groups (unsigned, resp. two's complement); the encoders write exactly `size` bytes at the buffer (big-endian 7-bit groups, continuation bit on all but the last), touch no other byte, and fault only if the buffer is shorter than `size`.", "quantifier": "all values of both types, all buffers", "why_tests_cant": "Minimality and the frame condition range over all values and all buffers", "anchors": [{"file": "src/gutil_datapack.c", "symbols": ["gutil_unsigned_mbn_size", "gutil_signed_mbn_size", "gutil_unsigned_mbn_encode2", "gutil_signed_mbn_encode2"]}]}
{"id": "C03", "title": "Unsigned MBN decoder accepts exactly the well-formed numbers", "statement": "gutil_unsigned_mbn_decode succeeds iff the range starts with at most nine continuation bytes followed by one final byte and the 7-bit groups denote a number below 2^64; then it returns that number and consumes exactly those bytes; otherwise it returns FALSE and changes neither the range nor the output.", "quantifier": "every byte string (any length) and every position in it", "why_tests_cant": "The input space is all byte strings; overflow boundary cases are a measure-zero subset", "anchors": [{"file": "src/gutil_datapack.c", "symbols": ["gutil_unsigned_mbn_decode"]}]}
{"id": "C04", "title": "Signed MBN round trip", "statement": "For every gint64 value and every size from gutil_signed_mbn_size(value) to 10, encoding with gutil_signed_mbn_encode2 and decoding with gutil_signed_mbn_decode returns TRUE, the same value, and consumes exactly size bytes (two's complement arithmetic), whatever follows.", "quantifier": "all 2^64 values, all sizes minimal..10, all trailing data", "why_tests_cant": "2^64 values; sign extension bugs hide at isolated bit lengths", "anchors": [{"file": "src/gutil_datapack.c", "symbols": ["gutil_signed_mbn_encode", "gutil_signed_mbn_encode2", "gutil_signed_mbn_decode"]}]}
{"id": "C05", "title": "Signed MBN decoder accepts exactly the numbers that fit gint64", "statement": "gutil_signed_mbn_decode succeeds iff the range starts with at most nine continuation bytes and a final byte whose two's complement value fits gint64, and returns that value; sequences whose value does not fit are rejected.", "quantifier": "every byte string", "why_tests_cant": "Input space is all byte strings; the faulty cases are 10-byte sequences with one specific first byte", "anchors": [{"file": "src/gutil_datapack.c", "symbols": ["gutil_signed_mbn_decode"]}]}
{"id": "C06", "title": "MBN decoding never reads outside its range and has no effect on failure", "statement": "For any valid range, both decoders read only bytes inside [ptr,end), move ptr forward by 1..10 bytes within the range on success, leave range and output untouched on failure, and passing NULL for the output changes neither the verdict nor the consumption.", "quantifier": "every range, every content, output pointer NULL or not", "why_tests_cant": "Out-of-range reads are usually invisible to tests", "anchors": [{"file": "src/gutil_datapack.c", "symbols": ["gutil_unsigned_mbn_decode", "gutil_signed_mbn_decode"]}]}
{"id": "C07", "title": "Whole-buffer MBN decoding", "statement": "gutil_unsigned_mbn_decode2/gutil_signed_mbn_decode2 succeed iff the data block as a whole is one encoding accepted by the corresponding decoder (no trailing byte), and leave the output untouched on failure.", "quantifier": "every data block including NULL and empty", "why_tests_cant": "All byte strings", "anchors": [{"file": "src/gutil_datapack.c", "symbols": ["gutil_unsigned_mbn_decode2", "gutil_signed_mbn_decode2"]}]}
{"id": "C08", "title": "Signed MBN decoding is free of C undefined behaviour", "statement": "Decoding any input by gutil_signed_mbn_decode evaluates no C expression whose behaviour is undefined (signed overflow, out of range shift).", "quantifier": "every byte string", "why_tests_cant": "Undefined behaviour is not observable by running one compiler's output", "anchors": [{"file": "src/gutil_datapack.c", "symbols": ["gutil_signed_mbn_decode"]}]}
{"id": "C09", "title": "TLV round trip", "statement": "For every tag in 1..INT_MAX and every value block, gutil_tlv_encode writes exactly the bytes of T, L, V and gutil_tlv_decode on a range starting with them returns the tag, a value block with the same bytes, and consumes exactly the encoding.", "quantifier": "all tags, all values of any length, all trailing data", "why_tests_cant": "Unbounded value lengths, every length-of-length boundary", "anchors": [{"file": "src/gutil_datapack.c", "symbols": ["gutil_tlv_encode", "gutil_tlv_decode"]}]}
{"id": "C10", "title": "TLV decoding stays inside its input", "statement": "Whenever gutil_tlv_decode returns a tag, the value block it reports lies completely inside the input range and the range pointer has moved forward and not beyond the end.", "quantifier": "every byte string (attacker-controlled input)", "why_tests_cant": "Only malicious length fields >= 2^63 expose it", "anchors": [{"file": "src/gutil_datapack.c", "symbols": ["gutil_tlv_decode"]}]}
{"id": "C11", "title": "TLV list decoding returns exactly the listed tags", "statement": "For a concatenation of TLVs with tags in 1..INT_MAX, gutil_tlvs_decode returns the bit mask of the requested tags (first 31) that are present with the corresponding values, DUPLICATE_TAG at the first repeated requested tag, UNKNOWN_TAG at the first unrequested one unless skipping is on; values not present are zeroed; passing NULL vals gives the same code.", "quantifier": "all sequences of TLVs, all tag arrays, both flags", "why_tests_cant": "All sequences of any length", "anchors": [{"file": "src/gutil_datapack.c", "symbols": ["gutil_tlvs_decode"]}]}
{"id": "C12", "title": "TLV list decoding terminates", "statement": "gutil_tlvs_decode returns for every input.", "quantifier": "every byte string and tag array", "why_tests_cant": "Non-termination on crafted input", "anchors": [{"file": "src/gutil_datapack.c", "symbols": ["gutil_tlvs_decode"]}]}
{"id": "C13", "title": "TLV decoding fails cleanly", "statement": "If gutil_tlv_decode returns zero the range is unchanged; consequently gutil_tlvs_decode accepts an input only if all of it is a sequence of TLVs with non-zero tags.", "quantifier": "every byte string", "why_tests_cant": "Requires reasoning about all rejected inputs", "anchors": [{"file": "src/gutil_datapack.c", "symbols": ["gutil_tlv_decode", "gutil_tlvs_decode"]}]}
{"id": "C14", "title": "gutil_tlv_size predicts gutil_tlv_encode", "statement": "gutil_tlv_size(tag,len) equals the number of bytes gutil_tlv_encode writes and returns for a value of len bytes.", "quantifier": "all tags and all lengths representable in gsize", "why_tests_cant": "Lengths above 4 GB cannot be tested", "anchors": [{"file": "src/gutil_datapack.c", "symbols": ["gutil_tlv_size", "gutil_tlv_encode"]}]}
{"id": "C15", "title": "The ring is a double-ended queue", "statement": "For every sequence of operations (put, put_front, get, get_last, drop, drop_last, clear, compact, reserve, set_max_size, set_free_func, data_at, size, can_put), results and contents are those of a list: put appends, get removes the front, data_at(i) is the i-th element, drop/drop_last return how many elements were removed, and the physical reorganisations (growth, compaction) are invisible.", "quantifier": "all finite operation sequences with any parameters, all initial reservations and limits", "why_tests_cant": "Wrap-around states reachable only through long histories", "anchors": [{"file": "src/gutil_ring.c", "symbols": ["gutil_ring_put", "gutil_ring_put_front", "gutil_ring_get", "gutil_ring_get_last", "gutil_ring_drop", "gutil_ring_drop_last", "gutil_ring_reserve", "gutil_ring_compact", "gutil_ring_data_at", "gutil_ring_size"]}]}
{"id": "C16", "title": "Ring memory safety", "statement": "No sequence of ring operations, including gutil_ring_flatten, reads or writes outside the ring's allocated block or reads an uninitialised slot.", "quantifier": "all operation sequences", "why_tests_cant": "A heap overflow after a specific history may go unnoticed", "anchors": [{"file": "src/gutil_ring.c", "symbols": ["gutil_ring_flatten", "gutil_ring_put"]}]}
{"id": "C17", "title": "Ring size limit", "statement": "The number of elements never exceeds the configured maximum size.", "quantifier": "all operation sequences, all reservations, all changes of the limit", "why_tests_cant": "Depends on the history of reservations and limit changes", "anchors": [{"file": "src/gutil_ring.c", "symbols": ["gutil_ring_set_max_size", "gutil_ring_reserve", "gutil_ring_put"]}]}
{"id": "C18", "title": "gutil_ring_can_put predicts gutil_ring_put", "statement": "gutil_ring_put and gutil_ring_put_front succeed iff gutil_ring_can_put(ring,1) was TRUE; a failing put changes nothing.", "quantifier": "all reachable rings", "why_tests_cant": "History-dependent", "anchors": [{"file": "src/gutil_ring.c", "symbols": ["gutil_ring_can_put", "gutil_ring_put", "gutil_ring_put_front"]}]}
{"id": "C19", "title": "Ring ownership conservation", "statement": "With a free function installed, every element successfully put is, exactly once, either returned by a get, or passed to the free function (by clear, drop, drop_last, set_max_size or the last unref), or still in the ring; elements freed together are freed in the documented order.", "quantifier": "all operation sequences", "why_tests_cant": "Double free or leak depends on the whole history", "anchors": [{"file": "src/gutil_ring.c", "symbols": ["gutil_ring_clear", "gutil_ring_drop", "gutil_ring_drop_last", "gutil_ring_unref", "gutil_ring_set_max_size"]}]}
{"id": "C20", "title": "Flatten presents the contents in order", "statement": "gutil_ring_flatten returns a contiguous block holding exactly the elements in queue order and their number, and leaves the observable contents unchanged.", "quantifier": "all reachable rings", "why_tests_cant": "All wrap positions", "anchors": [{"file": "src/gutil_ring.c", "symbols": ["gutil_ring_flatten"]}]}
{"id": "C21", "title": "Ring free callbacks may use the ring", "statement": "A free function that itself calls the ring API on the same ring leaves the ring consistent.", "quantifier": "all callback behaviours", "why_tests_cant": "Reentrancy schedules", "anchors": [{"file": "src/gutil_ring.c", "symbols": ["gutil_ring_drop", "gutil_ring_clear"]}]}
{"id": "C22", "title": "History window", "statement": "For every sequence of timed operations the history holds exactly the samples that a list would hold after: dropping expired samples (older than now-max_interval), replacing the newest sample when the clock has not advanced, and dropping the oldest when max_size is exceeded; gutil_int_history_size reports their number.", "quantifier": "all sequences of operations, all clock sequences, all sizes and intervals", "why_tests_cant": "Circular index states and clock jumps", "anchors": [{"file": "src/gutil_history.c", "symbols": ["gutil_int_history_add", "gutil_int_history_size", "gutil_int_history_clear"]}]}
{"id": "C23", "title": "History timestamps are strictly increasing and span at most the interval", "statement": "In every reachable history the sample times strictly increase, number at most max_size, span at most max_interval, and gutil_int_history_interval is between 0 and max_interval when the clock does not go back.", "quantifier": "all histories, including clocks that go backwards", "why_tests_cant": "All clock behaviours", "anchors": [{"file": "src/gutil_history.c", "symbols": ["gutil_int_history_interval", "gutil_int_history_add"]}]}
{"id": "C24", "title": "History median lies between the smallest and the largest sample", "statement": "The value returned by gutil_int_history_add/gutil_int_history_median is the time-weighted average of the retained samples and lies between their minimum and maximum.", "quantifier": "all histories and all int values", "why_tests_cant": "Overflow needs extreme values; rounding needs all combinations", "anchors": [{"file": "src/gutil_history.c", "symbols": ["gutil_int_history_median", "gutil_int_history_add"]}]}
{"id": "C25", "title": "History never divides by zero or leaves its array", "statement": "No operation sequence makes the history divide by zero or access an entry outside its array, and the expiry scan terminates.", "quantifier": "all histories", "why_tests_cant": "History-dependent", "anchors": [{"file": "src/gutil_history.c", "symbols": ["gutil_int_history_median", "gutil_int_history_add"]}]}
{"id": "C26", "title": "Hex round trip", "statement": "For every non-empty byte block, gutil_hex2bin/gutil_hex2bytes of gutil_bin2hex (either case) gives the block back.", "quantifier": "all byte blocks", "why_tests_cant": "Unbounded blocks", "anchors": [{"file": "src/gutil_misc.c", "symbols": ["gutil_bin2hex", "gutil_hex2bin", "gutil_hex2bytes", "gutil_data2hex"]}]}
{"id": "C27", "title": "Hex decoding accepts exactly hex strings", "statement": "gutil_hex2bin succeeds iff the length is positive and even and all characters are hex digits, and then stores for each pair its value; never indexes its table outside bounds; gutil_hex2bytes allocates exactly len/2 bytes and with negative length uses the string up to its terminator.", "quantifier": "all character strings, all lengths", "why_tests_cant": "All strings", "anchors": [{"file": "src/gutil_misc.c", "symbols": ["gutil_hex2bin", "gutil_hex2bytes"]}]}
{"id": "C28", "title": "Hex dump fits its buffer", "statement": "gutil_hexdump writes a NUL-terminated line of at most GUTIL_HEXDUMP_BUFSIZE (70) bytes for any input, with the documented layout, and reports min(len,16); it reads only the dumped bytes.", "quantifier": "all data blocks and lengths", "why_tests_cant": "Buffer bound for all inputs", "anchors": [{"file": "src/gutil_misc.c", "symbols": ["gutil_hexdump", "GUTIL_HEXDUMP_BUFSIZE"]}, {"file": "include/gutil_misc.h", "symbols": ["gutil_hexdump", "GUTIL_HEXDUMP_BUFSIZE"]}]}
{"id": "C29", "title": "Signed integer parsing", "statement": "gutil_parse_int64/gutil_parse_int return TRUE iff the string is, up to surrounding white space, a numeral of the given base that fits the type, and then store its value; otherwise the output is untouched.", "quantifier": "all strings, all bases", "why_tests_cant": "All strings; libc corner cases", "anchors": [{"file": "src/gutil_misc.c", "symbols": ["gutil_parse_int", "gutil_parse_int64", "gutil_strstrip"]}]}
{"id": "C30", "title": "Unsigned integer parsing", "statement": "gutil_parse_uint64/gutil_parse_uint likewise, and never accept a minus sign.", "quantifier": "all strings, all bases", "why_tests_cant": "All strings", "anchors": [{"file": "src/gutil_misc.c", "symbols": ["gutil_parse_uint", "gutil_parse_uint64"]}]}
{"id": "C31", "title": "Data block comparison", "statement": "gutil_data_equal, gutil_data_has_prefix, gutil_data_has_suffix, gutil_bytes_equal, gutil_bytes_equal_data, gutil_bytes_has_prefix and gutil_bytes_has_suffix decide equality/prefix/suffix of the byte contents with the documented treatment of NULL and empty.", "quantifier": "all blocks, NULL included", "why_tests_cant": "All pairs of blocks", "anchors": [{"file": "src/gutil_misc.c", "symbols": ["gutil_data_equal", "gutil_data_has_prefix", "gutil_data_has_suffix", "gutil_bytes_equal", "gutil_bytes_equal_data", "gutil_bytes_has_prefix", "gutil_bytes_has_suffix"]}]}
{"id": "C32", "title": "Bytes concatenation", "statement": "gutil_bytes_concat returns the concatenation of all its arguments; when at most one is non-empty it returns a reference to an argument instead of a copy.", "quantifier": "any number of blocks", "why_tests_cant": "Any number of arguments of any sizes", "anchors": [{"file": "src/gutil_misc.c", "symbols": ["gutil_bytes_concat"]}]}
{"id": "C33", "title": "Bytes xor", "statement": "gutil_bytes_xor returns the bytewise exclusive-or of the common prefix lengths; the word-at-a-time optimisation is invisible.", "quantifier": "all pairs of blocks", "why_tests_cant": "All lengths modulo word size and all contents", "anchors": [{"file": "src/gutil_misc.c", "symbols": ["gutil_bytes_xor"]}]}
{"id": "C34", "title": "Range prefix skipping", "statement": "gutil_range_has_prefix decides whether the range starts with the block without reading outside the range; gutil_range_skip_prefix advances by exactly the prefix length iff it does.", "quantifier": "all ranges and prefixes", "why_tests_cant": "All contents", "anchors": [{"file": "src/gutil_misc.c", "symbols": ["gutil_range_has_prefix", "gutil_range_skip_prefix", "gutil_range_init_with_bytes"]}]}
{"id": "C35", "title": "Data copies are equal", "statement": "gutil_data_copy of a block with non-NULL bytes yields a block equal to the original and gutil_data_new copies exactly len bytes.", "quantifier": "all blocks with any gsize length", "why_tests_cant": "Blocks above 4 GB cannot be tested", "anchors": [{"file": "src/gutil_misc.c", "symbols": ["gutil_data_copy", "gutil_data_new"]}]}
{"id": "C36", "title": "Int arrays are lists of ints", "statement": "append/prepend/insert/remove_index/remove_index_fast/set_count/find/contains have the effect of the list operation on the array contents and nothing else; out-of-range indices change nothing.", "quantifier": "all operation sequences, all positions", "why_tests_cant": "All sequences", "anchors": [{"file": "src/gutil_intarray.c", "symbols": ["gutil_int_array_append_vals", "gutil_int_array_insert_vals", "gutil_int_array_remove_index", "gutil_int_array_find"]}]}
{"id": "C37", "title": "Removing values from int arrays", "statement": "remove/remove_fast remove one occurrence (the first), remove_all/remove_all_fast remove all occurrences and return how many; the non-fast versions preserve the order of the rest, the fast ones preserve the multiset.", "quantifier": "all arrays and values", "why_tests_cant": "All arrays", "anchors": [{"file": "src/gutil_intarray.c", "symbols": ["gutil_int_array_remove", "gutil_int_array_remove_fast", "gutil_int_array_remove_all", "gutil_int_array_remove_all_fast"]}]}
{"id": "C38", "title": "Range removal clamps to the array", "statement": "gutil_int_array_remove_range(a,pos,count) removes the elements at positions pos..min(pos+count,len)-1 for every pos and count.", "quantifier": "all pos and count in guint", "why_tests_cant": "Counts near G_MAXUINT", "anchors": [{"file": "src/gutil_intarray.c", "symbols": ["gutil_int_array_remove_range"]}]}
{"id": "C39", "title": "Sorting int arrays", "statement": "gutil_int_array_sort_ascending/descending leave the array a permutation of itself ordered numerically.", "quantifier": "all arrays of ints", "why_tests_cant": "Comparator overflow only for far-apart values", "anchors": [{"file": "src/gutil_intarray.c", "symbols": ["gutil_int_array_sort_ascending", "gutil_int_array_sort_descending"]}]}
{"id": "C40", "title": "Int slices stay inside their parent", "statement": "gutil_ints_new_from_ints(ints,offset,count) returns a view of elements offset..min(offset+count,n)-1 of the parent for every offset and count, and NULL otherwise with no side effect on the parent's reference count.", "quantifier": "all offsets and counts in guint", "why_tests_cant": "Counts near G_MAXUINT; leaks invisible", "anchors": [{"file": "src/gutil_ints.c", "symbols": ["gutil_ints_new_from_ints"]}]}
{"id": "C41", "title": "Int block comparison is a total order", "statement": "gutil_ints_compare is antisymmetric, transitive and total, returns 0 exactly when gutil_ints_equal is TRUE.", "quantifier": "all triples of blocks", "why_tests_cant": "Transitivity over all triples", "anchors": [{"file": "src/gutil_ints.c", "symbols": ["gutil_ints_compare", "gutil_ints_equal"]}]}
{"id": "C42", "title": "gutil_ints_compare orders blocks by value", "statement": "gutil_ints_compare returns a negative value if b is greater and positive if a is greater, comparing the ints numerically.", "quantifier": "all pairs of blocks", "why_tests_cant": "All pairs", "anchors": [{"file": "src/gutil_ints.c", "symbols": ["gutil_ints_compare"]}]}
{"id": "C43", "title": "Equal int blocks hash equally", "statement": "gutil_ints_equal(a,b) implies gutil_ints_hash(a)=gutil_ints_hash(b).", "quantifier": "all pairs of blocks", "why_tests_cant": "All pairs", "anchors": [{"file": "src/gutil_ints.c", "symbols": ["gutil_ints_hash", "gutil_ints_equal"]}]}
{"id": "C44", "title": "Int block ownership", "statement": "The data of an int block is released exactly once, when the last reference to it and to every slice of it (transitively) is gone, never while one of them is alive.", "quantifier": "all sequences of new/ref/unref/slice operations", "why_tests_cant": "All orders of release", "anchors": [{"file": "src/gutil_ints.c", "symbols": ["gutil_ints_ref", "gutil_ints_unref", "gutil_ints_new_from_ints", "gutil_ints_new_with_free_func"]}]}
{"id": "C45", "title": "gutil_ints_unref_to_data hands out the contents", "statement": "For every block the caller receives a block with the same contents that the caller can g_free, and the reference is released.", "quantifier": "all blocks however created, any reference count", "why_tests_cant": "Depends on how the block was created", "anchors": [{"file": "src/gutil_ints.c", "symbols": ["gutil_ints_unref_to_data"]}]}
{"id": "C46", "title": "String array queries", "statement": "length, at, last, find, find_last, contains, equal of a NULL-terminated string array agree with the list of strings (NULL treated as empty).", "quantifier": "all string arrays", "why_tests_cant": "All arrays", "anchors": [{"file": "src/gutil_strv.c", "symbols": ["gutil_strv_length", "gutil_strv_at", "gutil_strv_last", "gutil_strv_find", "gutil_strv_find_last", "gutil_strv_contains", "gutil_strv_equal"]}]}
{"id": "C47", "title": "String array updates", "statement": "add/addv append copies; remove_at removes the i-th string; remove removes the first or all occurrences, keeping the order of the rest; each removed string is freed exactly once and no other, and no access leaves the array.", "quantifier": "all arrays, positions and strings", "why_tests_cant": "Index arithmetic over all arrays", "anchors": [{"file": "src/gutil_strv.c", "symbols": ["gutil_strv_add", "gutil_strv_addv", "gutil_strv_remove_at", "gutil_strv_remove"]}]}
{"id": "C48", "title": "Duplicate removal", "statement": "gutil_strv_remove_dups leaves exactly the first occurrence of every string, in the original order, freeing every other occurrence exactly once.", "quantifier": "all string arrays", "why_tests_cant": "All duplicate patterns", "anchors": [{"file": "src/gutil_strv.c", "symbols": ["gutil_strv_remove_dups"]}]}
{"id": "C49", "title": "Sort and binary search", "statement": "gutil_strv_sort yields a sorted permutation; gutil_strv_bsearch on an array sorted in the given direction returns an index holding the string iff the array contains it, else -1.", "quantifier": "all arrays and search strings", "why_tests_cant": "All arrays", "anchors": [{"file": "src/gutil_strv.c", "symbols": ["gutil_strv_sort", "gutil_strv_bsearch"]}]}
{"id": "C50", "title": "Stripping", "statement": "gutil_strv_strip replaces each string by itself without leading and trailing ASCII white space.", "quantifier": "all string arrays", "why_tests_cant": "All strings", "anchors": [{"file": "src/gutil_strv.c", "symbols": ["gutil_strv_strip"]}]}
{"id": "C51", "title": "Object arrays are lists of objects", "statement": "new, copy, add, insert, append, remove (one/all), remove_at, at, first, last, find, find_last, contains, equal act as the list operations.", "quantifier": "all arrays, objects and positions", "why_tests_cant": "All arrays", "anchors": [{"file": "src/gutil_objv.c", "symbols": ["gutil_objv_add", "gutil_objv_insert", "gutil_objv_append", "gutil_objv_remove", "gutil_objv_remove_at", "gutil_objv_find", "gutil_objv_find_last"]}]}
{"id": "C52", "title": "Object array reference balance", "statement": "Every operation changes the reference count of every object by exactly the change in its number of occurrences in the array; freeing the array releases exactly its occurrences.", "quantifier": "all operation sequences", "why_tests_cant": "Leaks and over-releases depend on the whole history", "anchors": [{"file": "src/gutil_objv.c", "symbols": ["gutil_objv_new", "gutil_objv_copy", "gutil_objv_add", "gutil_objv_remove", "gutil_objv_free"]}]}
{"id": "C53", "title": "Idle queue: every item is finished exactly once", "statement": "Every item added to a queue is either run once and then destroyed once, or cancelled: destroyed once and never run; no item is run or destroyed twice.", "quantifier": "all executions: any interleaving of API calls from outside and from inside run/destroy callbacks, and of main loop iterations", "why_tests_cant": "Reentrant schedules are unbounded", "anchors": [{"file": "src/gutil_idlequeue.c", "symbols": ["gutil_idle_queue_run", "gutil_idle_queue_cancel_tag", "gutil_idle_queue_cancel_all", "gutil_idle_queue_add_tag_full"]}]}
{"id": "C54", "title": "Idle queue order", "statement": "Items run in the order they were added, and an item added by a callback is not run before the current idle pass is over.", "quantifier": "all executions", "why_tests_cant": "Reentrant schedules", "anchors": [{"file": "src/gutil_idlequeue.c", "symbols": ["gutil_idle_queue_run"]}]}
{"id": "C55", "title": "Idle queue never loses a wake-up", "statement": "Whenever items are pending, an idle source is scheduled (or the pass that will reschedule is in progress); when nothing is pending and no pass is running no source is left.", "quantifier": "all executions", "why_tests_cant": "Schedules", "anchors": [{"file": "src/gutil_idlequeue.c", "symbols": ["gutil_idle_queue_add_tag_full", "gutil_idle_queue_run", "gutil_idle_queue_cancel_tag", "gutil_idle_queue_cancel_all"]}]}
{"id": "C56", "title": "Idle queue tags", "statement": "gutil_idle_queue_contains_tag tells whether an item with the tag is pending; gutil_idle_queue_cancel_tag cancels exactly the first such item and keeps the order of the others.", "quantifier": "all queues and tags", "why_tests_cant": "All histories", "anchors": [{"file": "src/gutil_idlequeue.c", "symbols": ["gutil_idle_queue_contains_tag", "gutil_idle_queue_cancel_tag"]}]}
{"id": "C57", "title": "Idle queue memory safety", "statement": "No execution in which the client owns a reference whenever it calls the API accesses a freed queue or item.", "quantifier": "all executions", "why_tests_cant": "Use after free in reentrant schedules", "anchors": [{"file": "src/gutil_idlequeue.c", "symbols": ["gutil_idle_queue_unref", "gutil_idle_queue_run", "gutil_idle_queue_cancel_all"]}]}
{"id": "C58", "title": "Idle pool: every item is destroyed exactly once, in order", "statement": "Every pointer added with a destroy function is destroyed at most once, in the order of addition within a batch, and has been destroyed when the pool has been drained or finalised.", "quantifier": "all executions including destroy callbacks that add to or drain the pool", "why_tests_cant": "Reentrant schedules", "anchors": [{"file": "src/gutil_idlepool.c", "symbols": ["gutil_idle_pool_add", "gutil_idle_pool_drain"]}]}
{"id": "C59", "title": "Idle pool: drained means empty", "statement": "When gutil_idle_pool_drain returns (not nested) the pool holds no items and no idle source is scheduled; while items are pending on the right thread an idle source holding a reference is scheduled.", "quantifier": "all executions", "why_tests_cant": "Schedules", "anchors": [{"file": "src/gutil_idlepool.c", "symbols": ["gutil_idle_pool_drain", "gutil_idle_pool_idle", "gutil_idle_pool_add"]}]}
{"id": "C60", "title": "Idle pool memory safety", "statement": "No execution of a client that only uses references it owns frees the pool twice or touches it after it was freed.", "quantifier": "all executions, including idle callbacks arriving on the wrong thread", "why_tests_cant": "Schedules across threads", "anchors": [{"file": "src/gutil_idlepool.c", "symbols": ["gutil_idle_pool_unref", "gutil_idle_pool_idle", "gutil_idle_pool_drain"]}]}
{"id": "C61", "title": "Shared idle pool pointer", "statement": "The variable passed to gutil_idle_pool_get is NULL or points to a live pool at any time; an unreferenced shared pool destroys itself at the next idle pass.", "quantifier": "all executions", "why_tests_cant": "Schedules", "anchors": [{"file": "src/gutil_idlepool.c", "symbols": ["gutil_idle_pool_get", "gutil_idle_pool_unref"]}]}
{"id": "C62", "title": "gutil_log_enabled predicts gutil_log", "statement": "A message is passed to a log function iff gutil_log_enabled(module,level) is TRUE.", "quantifier": "all modules, parent chains, levels and flags", "why_tests_cant": "All configurations", "anchors": [{"file": "src/gutil_log.c", "symbols": ["gutil_log_enabled", "gutil_logv", "gutil_logv_r"]}]}
{"id": "C63", "title": "Log level resolution", "statement": "The effective level of a module is that of its nearest ancestor with an explicit level, else the default; a disabled module on the way silences it; ALWAYS messages pass any level, NONE never.", "quantifier": "all parent chains", "why_tests_cant": "Unbounded chains", "anchors": [{"file": "src/gutil_log.c", "symbols": ["gutil_log_enabled_r", "gutil_logv_r"]}]}
{"id": "C64", "title": "Log option parsing", "statement": "gutil_log_parse_option sets exactly the level named (a digit 0-5 or a non-empty prefix of a level name) on exactly the first module whose name equals (ignoring case) the part before the first colon, or the default level if there is no colon; otherwise it returns FALSE and changes nothing.", "quantifier": "all strings and module lists", "why_tests_cant": "All strings", "anchors": [{"file": "src/gutil_log.c", "symbols": ["gutil_log_parse_option", "gutil_log_parse_level"]}]}
{"id": "C65", "title": "Log type selection", "statement": "gutil_log_set_type returns TRUE iff the type is known (ignoring case) and then gutil_log_get_type returns its canonical name; when it returns FALSE nothing changes.", "quantifier": "all strings and prior states", "why_tests_cant": "All strings", "anchors": [{"file": "src/gutil_log.c", "symbols": ["gutil_log_set_type", "gutil_log_get_type"]}]}
{"id": "C66", "title": "Log dump is complete and terminates", "statement": "gutil_log_dump emits one line per 16 bytes which together contain every byte once, in order, with the right offsets, and terminates.", "quantifier": "all blocks with any gsize length", "why_tests_cant": "Blocks above 4 GB cannot be tested", "anchors": [{"file": "src/gutil_log.c", "symbols": ["gutil_log_dump", "gutil_log_dump2"]}]}
{"id": "C67", "title": "Log messages are never truncated", "statement": "The formatted message passed to the output has the full length of the formatted text whatever that length is, and formatting terminates.", "quantifier": "all formatted lengths", "why_tests_cant": "All lengths", "anchors": [{"file": "src/gutil_log.c", "symbols": ["gutil_log_format"]}]}
{"id": "C68", "title": "Timestamp format lifetime", "statement": "The timestamp format in use is always a live string: the last one set, or the default; replaced copies are freed exactly once.", "quantifier": "all sequences of gutil_log_set_timestamp_format", "why_tests_cant": "Dangling pointers are invisible to tests", "anchors": [{"file": "src/gutil_log.c", "symbols": ["gutil_log_set_timestamp_format"]}]}
{"id": "C69", "title": "Inotify event dispatch", "statement": "Every complete event read is delivered once, in order, to the watch registered for its descriptor at that moment and to no other, even if handlers destroy watches; parsing does not leave the buffer.", "quantifier": "all event buffers and handler behaviours", "why_tests_cant": "All buffers", "anchors": [{"file": "src/gutil_inotify.c", "symbols": ["gutil_inotify_read"]}]}
{"id": "C70", "title": "Inotify watches are independent", "statement": "Destroying or releasing one watch does not stop event delivery to another live watch.", "quantifier": "all sequences of watch creation and destruction", "why_tests_cant": "History-dependent", "anchors": [{"file": "src/gutil_inotify.c", "symbols": ["gutil_inotify_watch_new", "gutil_inotify_watch_destroy", "gutil_inotify_watch_finalize"]}]}
{"id": "C71", "title": "Inotify instance lifetime", "statement": "The shared inotify instance (and its descriptor) exists exactly as long as some watch object exists; it is closed exactly once.", "quantifier": "all sequences of operations", "why_tests_cant": "History-dependent", "anchors": [{"file": "src/gutil_inotify.c", "symbols": ["gutil_inotify_new", "gutil_inotify_unref", "gutil_inotify_watch_finalize"]}]}
{"id": "C72", "title": "Reference counting under concurrency", "statement": "For every interleaving of ref/unref calls by any number of threads, each using only references it owns, the object is finalised exactly once, by the unref that releases the last reference, and is not accessed afterwards.", "quantifier": "all schedules, any number of threads", "why_tests_cant": "Thread schedules", "anchors": [{"file": "src/gutil_ring.c", "symbols": ["gutil_ring_unref", "gutil_ints_unref", "gutil_int_history_unref", "gutil_idle_pool_unref", "gutil_idle_queue_unref", "gutil_weakref_unref"]}, {"file": "src/gutil_ints.c", "symbols": ["gutil_ring_unref", "gutil_ints_unref", "gutil_int_history_unref", "gutil_idle_pool_unref", "gutil_idle_queue_unref", "gutil_weakref_unref"]}, {"file": "src/gutil_history.c", "symbols": ["gutil_ring_unref", "gutil_ints_unref", "gutil_int_history_unref", "gutil_idle_pool_unref", "gutil_idle_queue_unref", "gutil_weakref_unref"]}, {"file": "src/gutil_idlepool.c", "symbols": ["gutil_ring_unref", "gutil_ints_unref", "gutil_int_history_unref", "gutil_idle_pool_unref", "gutil_idle_queue_unref", "gutil_weakref_unref"]}, {"file": "src/gutil_idlequeue.c", "symbols": ["gutil_ring_unref", "gutil_ints_unref", "gutil_int_history_unref", "gutil_idle_pool_unref", "gutil_idle_queue_unref", "gutil_weakref_unref"]}, {"file": "src/gutil_weakref.c", "symbols": ["gutil_ring_unref", "gutil_ints_unref", "gutil_int_history_unref", "gutil_idle_pool_unref", "gutil_idle_queue_unref", "gutil_weakref_unref"]}]}
{"id": "C73", "title": "Weak references", "statement": "gutil_weakref_get returns a new strong reference to the object last set while it is alive and NULL afterwards; the weak reference itself never keeps the object alive.", "quantifier": "all sequences of operations", "why_tests_cant": "History-dependent", "anchors": [{"file": "src/gutil_weakref.c", "symbols": ["gutil_weakref_new", "gutil_weakref_get", "gutil_weakref_set", "gutil_weakref_unref"]}]}
{"id": "C74", "title": "Version words", "statement": "GUTIL_VERSION_ packs major<128, minor<4096 and micro<4096 injectively, the accessors recover them, and numeric order of packed words is version order.", "quantifier": "all triples in range", "why_tests_cant": "2^31 triples", "anchors": [{"file": "include/gutil_version.h", "symbols": ["GUTIL_VERSION_", "GUTIL_VERSION_MAJOR_", "GUTIL_VERSION_MINOR_", "GUTIL_VERSION_MICRO_"]}]}
{"id": "C75", "title": "Alignment macros", "statement": "G_ALIGN2/4/8 round up to the least multiple not below the value.", "quantifier": "all non-negative values not within 7 of the type's maximum", "why_tests_cant": "All values", "anchors": [{"file": "include/gutil_macros.h", "symbols": ["G_ALIGN2", "G_ALIGN4", "G_ALIGN8"]}]}
{"id": "C76", "title": "Time notification singleton", "statement": "gutil_time_notify_new returns the same live instance to all holders; the instance is created anew after the last reference is gone.", "quantifier": "all sequences of new/ref/unref", "why_tests_cant": "History-dependent", "anchors": [{"file": "src/gutil_timenotify.c", "symbols": ["gutil_time_notify_new", "gutil_time_notify_ref", "gutil_time_notify_unref"]}]}
{"id": "C77", "title": "Pointer vector helpers", "statement": "gutil_ptrv_length/is_empty/free treat NULL as empty, stop at the terminator, and free each element and the vector exactly once; gutil_source_clear/gutil_disconnect_handlers release each non-zero id exactly once and clear it.", "quantifier": "all vectors and id arrays", "why_tests_cant": "All arrays", "anchors": [{"file": "src/gutil_misc.c", "symbols": ["gutil_ptrv_length", "gutil_ptrv_is_empty", "gutil_ptrv_free", "gutil_source_clear", "gutil_disconnect_handlers"]}]}
{"id": "C78", "title": "Views and small copies", "statement": "gutil_data_from_string/gutil_data_from_bytes describe exactly the characters before the terminator / the contents of the GBytes (nothing for NULL), gutil_strlen0 is the length with 0 for NULL, and gutil_memdup returns a fresh block with exactly the requested bytes, NULL for a NULL pointer or size 0.", "quantifier": "all strings, blocks and sizes", "why_tests_cant": "All contents and lengths", "anchors": [{"file": "src/gutil_misc.c", "symbols": ["gutil_data_from_string", "gutil_data_from_bytes", "gutil_strlen0", "gutil_memdup"]}]}
{"id": "C79", "title": "Handing over the data of an int array", "statement": "gutil_int_array_free(array,FALSE) and gutil_int_array_free_to_ints deliver exactly the values of the array, NULL if it is empty or NULL; other holders of a reference then see an empty array, while after gutil_int_array_unref they see it unchanged; the array goes away exactly with the last reference.", "quantifier": "all arrays and reference counts", "why_tests_cant": "All contents and counts", "anchors": [{"file": "src/gutil_intarray.c", "symbols": ["gutil_int_array_free", "gutil_int_array_free_to_ints", "gutil_int_array_ref", "gutil_int_array_unref"]}]}
{"id": "C80", "title": "Searching int blocks", "statement": "gutil_ints_find returns the position of the first occurrence of the value, -1 if there is none; gutil_ints_contains is TRUE exactly if the value occurs.", "quantifier": "all blocks (up to 2^32-1 ints) and values", "why_tests_cant": "The int result cannot represent positions of 2^31 and more; needs 8 GB blocks to test", "anchors": [{"file": "src/gutil_ints.c", "symbols": ["gutil_ints_find", "gutil_ints_contains"]}]}
{"id": "C81", "title": "Idle queue: what cancel_all and a pass cover", "statement": "gutil_idle_queue_cancel_all cancels, in the order of addition, items which were waiting when it was called and no others; when it returns none of those is waiting any more, whatever the callbacks do in the meantime. The same holds for an idle pass, which stays scheduled exactly if something is waiting when it ends.", "quantifier": "all executions, including reentrant calls from the callbacks", "why_tests_cant": "Reentrant schedules are unbounded", "anchors": [{"file": "src/gutil_idlequeue.c", "symbols": ["gutil_idle_queue_cancel_all", "gutil_idle_queue_run"]}]}
{"id": "C82", "title": "Idle queue: lifetime and release", "statement": "A queue exists while its client has a reference and is gone when the client has none and no call is in progress; when it has gone no idle source is left which would call it, nothing is waiting, and none of its items is left in memory.", "quantifier": "all executions of clients which respect the reference counts and do not drop the last reference in a callback", "why_tests_cant": "All histories of references and reentrant calls", "anchors": [{"file": "src/gutil_idlequeue.c", "symbols": ["gutil_idle_queue_ref", "gutil_idle_queue_unref", "gutil_idle_queue_free", "gutil_idle_queue_cancel_all"]}]}
{"id": "C83", "title": "Lines of the stdio log", "statement": "A message logged to stdout or stderr appears as one complete line: thread id, timestamp, module name and severity (each if wanted), then the full text; the line is well defined whatever the timestamp format, and no memory is left behind.", "quantifier": "all messages, names, levels and histories of timestamp formats", "why_tests_cant": "All texts and formats", "anchors": [{"file": "src/gutil_log.c", "symbols": ["gutil_log_stdio", "gutil_log_format", "gutil_log_set_timestamp_format"]}]}
{"id": "C84", "title": "Lines and priorities of syslog and GLib", "statement": "A message logged to syslog has its full text, preceded by the thread id, the module name unless it is the default one, and the severity; it is never interpreted as a format again; the priorities are in the order of the levels, and so are the flags passed to GLib.", "quantifier": "all messages, names and levels", "why_tests_cant": "All texts", "anchors": [{"file": "src/gutil_log.c", "symbols": ["gutil_log_syslog", "gutil_log_glib"]}]}
{"id": "C85", "title": "Log settings from the environment", "statement": "The environment variables of the log override the default level and the timestamp and thread id settings exactly if they are integers in range; otherwise the settings stay, also if another variable has been accepted.", "quantifier": "all contents of the variables", "why_tests_cant": "All strings", "anchors": [{"file": "src/gutil_log.c", "symbols": ["gutil_log_init"]}, {"file": "src/gutil_misc.c", "symbols": ["gutil_parse_int"]}]}
{"id": "C86", "title": "Macros of specific versions", "statement": "Each macro GUTIL_VERSION_X_Y_Z can be used wherever a number can and stands for the version its name says.", "quantifier": "all such macros and all places of use", "why_tests_cant": "All places of use; the tests do not use these macros", "anchors": [{"file": "include/gutil_version.h", "symbols": ["GUTIL_VERSION_1_0_75", "GUTIL_VERSION_1_0_79", "GUTIL_VERSION_"]}]}
{"id": "C87", "title": "Inotify handlers of destroyed watches", "statement": "A handler of an inotify watch is called only while it is connected, also if it has been removed by another handler of the same event; no event is passed to a watch after it has been destroyed, however many references to it are left.", "quantifier": "all sequences of operations, also from inside of handlers", "why_tests_cant": "All interleavings of handlers and operations", "anchors": [{"file": "src/gutil_inotify.c", "symbols": ["gutil_inotify_read", "gutil_inotify_watch_destroy", "gutil_inotify_watch_remove_handler"]}]}
{"id": "C88", "title": "Inotify events are read", "statement": "Whenever a watch exists and the main loop is idle, the main loop waits for events of the inotify descriptor and passes what it reads to the watches.", "quantifier": "all sequences of operations and results of reads", "why_tests_cant": "History-dependent, includes errors of the descriptor", "anchors": [{"file": "src/gutil_inotify.c", "symbols": ["gutil_inotify_callback", "gutil_inotify_create", "gutil_inotify_new"]}]}
{"id": "C89", "title": "Time notification resources", "statement": "The timer file of the time notification object is open as long as the object can be used and is closed exactly once, when the object is freed; its event source is in the main loop unless the file had an error, and is removed exactly once; nothing is closed or removed twice.", "quantifier": "all sequences of operations, also from inside of handlers, and of errors of the file", "why_tests_cant": "History-dependent; includes errors, and the last reference dropped inside of a handler", "anchors": [{"file": "src/gutil_timenotify.c", "symbols": ["gutil_time_notify_init", "gutil_time_notify_callback", "gutil_time_notify_finalize"]}]}
{"id": "C90", "title": "Time notification handlers", "statement": "When the system time changes, the handlers connected at that moment are called in the order of connection, each at most once, skipping exactly those removed before their turn; the object stays alive until the last of them returns.", "quantifier": "all sequences of operations, also from inside of handlers", "why_tests_cant": "All interleavings of handlers and operations", "anchors": [{"file": "src/gutil_timenotify.c", "symbols": ["gutil_time_notify_callback", "gutil_time_notify_add_handler", "gutil_time_notify_remove_handler"]}]}
{"id": "C91", "title": "Objects given to an idle pool", "statement": "An object given to an idle pool stays valid until the pool releases it. The functions without _ref take over a reference of the caller and those with _ref take another one, so that the object is freed exactly when neither the client nor the pool has a reference; the pool releases it exactly as often as it was given, with the function for its type, at the latest when it has been drained, when the main loop has called the pool or when the pool is destroyed. NULL is ignored, and the pointer is returned.", "quantifier": "all sequences of operations on the pool and on the objects, also from inside of destructors", "why_tests_cant": "All histories, nested drains and shared references", "anchors": [{"file": "src/gutil_idlepool.c", "symbols": ["gutil_idle_pool_add_strv", "gutil_idle_pool_add_object", "gutil_idle_pool_add_variant", "gutil_idle_pool_add_ptr_array", "gutil_idle_pool_add_bytes", "gutil_idle_pool_add_object_ref", "gutil_idle_pool_add_variant_ref", "gutil_idle_pool_add_ptr_array_ref", "gutil_idle_pool_add_bytes_ref"]}]}
{"id": "C92", "title": "Callbacks of inotify watches", "statement": "gutil_inotify_watch_callback_new returns NULL if there is nothing to watch, otherwise a callback with a watch of its own. Until it is freed, each event the library finds to be for that watch is told to its function before the main loop goes on. After gutil_inotify_watch_callback_free, which may be called from inside the function itself, the function is never called again, others who use the watch are not affected, and nothing (watch, inotify instance, file, event source) is left when all callbacks have been freed. Freeing one callback does not silence another one.", "quantifier": "all sequences of actions of clients, kernel and main loop, including calls from inside of the functions", "why_tests_cant": "All histories, events in flight and nested calls", "anchors": [{"file": "src/gutil_inotify.c", "symbols": ["gutil_inotify_watch_callback_new", "gutil_inotify_watch_callback_free", "gutil_inotify_watch_add_handler", "gutil_inotify_watch_remove_handler"]}]}
{"id": "C93", "title": "The description of log options tells the options that work", "statement": "gutil_log_description lists every level, once, in order, with the number and the word that gutil_log_parse_option accepts for it, marks exactly the default level, and then lists the given modules in order. Any module listed, a colon, and the number or word of any level listed is an option that sets the level of that module and of no other one. Without modules only the levels are described.", "quantifier": "all arrays of modules, counts, configurations and default levels", "why_tests_cant": "All modules and names; two tables must agree with the parser for all of them", "anchors": [{"file": "src/gutil_log.c", "symbols": ["gutil_log_description", "gutil_log_levels", "gutil_log_parse_option", "gutil_log_parse_level"]}]}
{"id": "C94", "title": "Default idle pools of threads", "statement": "gutil_idle_pool_get_default (or a NULL pool) gives each thread a pool of its own: the same one every time until the thread begins to exit, never the one of another thread, and it is not freed before that, nor while the client has references. Whatever the threads, main loops and contexts do and in whatever order, no pool is used after it has been freed, each item is destroyed at most once and with what was added, on the thread which has added it unless that thread is exiting. When the thread has forgotten the pool, no event source is left and the client has no references, then the pool has been freed and everything in it has been destroyed. Items which wait have an event source that is going to destroy them, and a drain removes no event source of others.", "quantifier": "all numbers of threads and contexts, all interleavings of calls, callbacks, main loops and thread exits", "why_tests_cant": "Any number of threads and contexts, all interleavings, calls from inside of destroy functions, thread exit", "anchors": [{"file": "src/gutil_idlepool.c", "symbols": ["gutil_idle_pool_get_default", "gutil_idle_pool_add", "gutil_idle_pool_drain", "gutil_idle_pool_idle", "gutil_idle_pool_unref"]}]}
{"id": "C95", "title": "TLVs on 32-bit platforms", "statement": "Where pointers and gsize have 32 bits, encoding a TLV and decoding it gives back tag and value, gutil_tlv_size predicts gutil_tlv_encode, a value that was decoded is inside of the input and as long as its length field says, gutil_tlvs_decode returns exactly the listed tags, accepts only sequences of TLVs, reads nothing outside of the input and terminates.", "quantifier": "all tags, values, buffers, inputs and lists of tags", "why_tests_cant": "Lengths of 2^31 and more, all padded and malformed inputs; the tests run on one platform", "anchors": [{"file": "src/gutil_datapack.c", "symbols": ["gutil_tlv_size", "gutil_tlv_encode", "gutil_tlv_decode", "gutil_tlvs_decode"]}]}
{"id": "C96", "title": "Allocations on 32-bit platforms", "statement": "Where pointers and gsize have 32 bits, gutil_bin2hex, gutil_data2hex, gutil_bytes_concat, gutil_data_new and gutil_data_copy allocate enough for what they write, and deliver the same as on 64-bit platforms.", "quantifier": "all blocks, sizes and lists of arguments", "why_tests_cant": "Sizes of 1 GB and more; the tests run on one platform", "anchors": [{"file": "src/gutil_misc.c", "symbols": ["gutil_bin2hex", "gutil_data2hex", "gutil_bytes_concat", "gutil_data_new", "gutil_data_copy"]}]}
{"id": "C97", "title": "Removing handlers and sources when destroy notifications run inside", "statement": "gutil_disconnect_handlers and gutil_source_clear remove every identifier that was in their cells when they were called, each identifier is removed at most once, GLib is not asked to remove what is not there, no identifier that is still connected is forgotten, and no freed memory is touched, whatever the destroy notifications of the client (which run inside of the call) do: call the same functions, connect and store other handlers or sources, free the array.", "quantifier": "all arrays, all clients, all nestings of calls and notifications", "why_tests_cant": "Unbounded nesting of calls and notifications and all clients; the tests use no notifications", "anchors": [{"file": "src/gutil_misc.c", "symbols": ["gutil_disconnect_handlers", "gutil_source_clear"]}]}
{"id": "C98", "title": "Messages of several fields", "statement": "A client may put numbers (with any sufficient size), TLVs and fixed bytes into a buffer one after another; they take exactly the sum of the sizes the library promises, and reading a GBytes with these bytes through gutil_range_init_with_bytes, the decoders and gutil_range_skip_prefix delivers the same values in the same order and ends at the end. A message that was cut off anywhere or has something behind it is not accepted. What is accepted is a sequence of encodings of what is delivered, and nothing is read outside of the GBytes.", "quantifier": "all sequences of fields, all GBytes, all sequences of decoding calls", "why_tests_cant": "Unbounded sequences of fields, all values, all places to cut, all malformed inputs", "anchors": [{"file": "src/gutil_misc.c", "symbols": ["gutil_range_init_with_bytes", "gutil_range_has_prefix", "gutil_range_skip_prefix"]}, {"file": "src/gutil_datapack.c", "symbols": ["gutil_unsigned_mbn_encode2", "gutil_unsigned_mbn_decode", "gutil_signed_mbn_encode2", "gutil_signed_mbn_decode", "gutil_tlv_size", "gutil_tlv_encode", "gutil_tlv_decode"]}]}
{"id": "C99", "title": "Finalizers inside of object arrays", "statement": "gutil_objv_remove, gutil_objv_remove_at and gutil_objv_free may finalize objects, and finalizers may use arrays, to any depth. No object is finalized twice. If finalizers leave the array alone which is being changed, nothing goes wrong: each array has what the calls on it are to leave there, objects in arrays may be used, and an object has exactly the references of the client and of arrays and is gone if there are none; no memory is leaked. Meanwhile the array still has the object being removed (the objects being freed), and the other ones may be used. Finalizers may not change or use that array in general.", "quantifier": "all sequences of calls at all depths of finalizers, all numbers of arrays and objects, moving and non-moving reallocation", "why_tests_cant": "Unbounded nesting and numbers of objects; faults depend on whether memory is moved and reused", "anchors": [{"file": "src/gutil_objv.c", "symbols": ["gutil_objv_add", "gutil_objv_copy", "gutil_objv_remove_impl", "gutil_objv_remove", "gutil_objv_remove_at", "gutil_objv_free", "gutil_objv_find", "gutil_objv_find_last_impl"]}]}
{"id": "C100", "title": "Programs with string arrays", "statement": "A program with any number of GStrV variables and strings of its own calls gutil_strv_add, addv, remove_at, remove, remove_dups, sort, strip, length, find, find_last, contains, bsearch, equal and g_strfreev in any order, also with elements of arrays as arguments. Then nothing goes wrong, each array is the list of strings which the same operations on lists give, and so are all answers. Strings which the program passed belong to it still, and those taken out of an array without freeing belong to it then. The strings in memory are exactly those of the arrays and of the program: clearing these leaves nothing. An element may not be the string whose occurrences are all to be removed from its array.", "quantifier": "all programs (sequences of calls), all numbers of arrays and strings, any qsort which sorts, any strcmp which compares", "why_tests_cant": "Unbounded sequences of calls with aliasing between arguments and arrays; leaks and use of freed strings are invisible to results", "anchors": [{"file": "src/gutil_strv.c", "symbols": ["gutil_strv_add", "gutil_strv_addv", "gutil_strv_remove_at", "gutil_strv_remove", "gutil_strv_remove_dups", "gutil_strv_sort", "gutil_strv_strip", "gutil_strv_find", "gutil_strv_find_last", "gutil_strv_contains", "gutil_strv_bsearch", "gutil_strv_equal", "gutil_strv_at", "gutil_strv_length"]}]}
{"id": "C101", "title": "Capacity of the ring", "statement": "Which gutil_ring_put, gutil_ring_put_front, gutil_ring_reserve and gutil_ring_can_put return TRUE is determined by the number of elements, the capacity and the limit, and so is the memory requested: the capacity at least doubles, but does not grow beyond the limit. However the limit is moved about below m, the ring never has more than m elements or more than were reserved at first. gutil_ring_can_put(1) and the next addition differ exactly if the limit is reached and capacity left. If gutil_ring_reserve(k) returns TRUE, then until k elements are inside no addition fails or allocates.", "quantifier": "all sequences of calls, all reservations and limits, all memory limits", "why_tests_cant": "Capacity depends on the whole history of the calls; limits may be moved at any time", "anchors": [{"file": "src/gutil_ring.c", "symbols": ["gutil_ring_reserve", "gutil_ring_put", "gutil_ring_put_front", "gutil_ring_can_put", "gutil_ring_set_max_size", "gutil_ring_compact"]}]}
{"id": "C102", "title": "Variants made of data and floating references", "statement": "gutil_data_copy_as_variant returns NULL for NULL and otherwise a new floating variant whose bytes are those of the data at the time of the call, whatever happens to the data later. Variants and objects which are given to an idle pool (with or without _ref), referenced, claimed and dropped according to the rules of ownership are never used after they are freed, and are freed exactly once, as soon as nobody owns a reference. NULL is tolerated. A new variant given to a pool may afterwards be passed to functions which claim floating variants.", "quantifier": "all sequences of calls, any number of variants, objects and data blocks", "why_tests_cant": "Whether a reference is missing or left over depends on the order of all calls for the variant", "anchors": [{"file": "src/gutil_misc.c", "symbols": ["gutil_data_copy_as_variant", "gutil_object_ref", "gutil_object_unref"]}, {"file": "src/gutil_idlepool.c", "symbols": ["gutil_idle_pool_add_variant", "gutil_idle_pool_add_variant_ref", "gutil_idle_pool_add_object", "gutil_idle_pool_add_object_ref"]}]}
{"id": "C103", "title": "Logging inside of log functions", "statement": "Log functions of the client may themselves log, dump, assign modules and log functions and write to memory. Each message is delivered at once, according to the configuration of that moment, with exactly one call or none. A dump begins only if its level is enabled then; its lines have its module and level, come in order, show the bytes as they are when the line is logged, and when it returns all bytes have been shown, whatever other dumps are nested in it; those return before it goes on. gutil_log_assert logs the expression, the file and the line. No log function can make a dump read outside of the block, unless it frees the block.", "quantifier": "all configurations, all contents of memory, all interleavings of calls of the client and of log functions, nested to any depth", "why_tests_cant": "Tests use log functions which only store the text; what they may do in the middle of a dump is unlimited", "anchors": [{"file": "src/gutil_log.c", "symbols": ["gutil_log", "gutil_logv", "gutil_logv_r", "gutil_log_enabled", "gutil_log_dump", "gutil_log_dump2", "gutil_log_dump_bytes", "gutil_log_assert"]}]}
