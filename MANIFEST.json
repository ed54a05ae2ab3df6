{
 "claims": [
  {
   "property": "C01",
   "status": "proved",
   "theorems": [
    "C01_selection",
    "C01_all",
    "C01_inclusive_max"
   ],
   "note": "all selector forms, all ranks, both build modes"
  },
  {
   "property": "C02",
   "status": "proved",
   "theorems": [
    "C02_resolution",
    "C02_pairs",
    "C02_readers",
    "C02_streams_refuted"
   ],
   "note": "readers and resolution return the error for every rank mismatch; the streams panic instead of erring (C02_streams_refuted)"
  },
  {
   "property": "C03",
   "status": "proved",
   "theorems": [
    "C03_ndarray_slice"
   ],
   "note": "exact characterisation"
  },
  {
   "property": "C04",
   "status": "proved",
   "theorems": [
    "C04_contains",
    "C04_rank"
   ],
   "note": "for boxes representable in u64"
  },
  {
   "property": "C05",
   "status": "proved",
   "theorems": [
    "C05_order"
   ],
   "note": "lexicographic total preorder"
  },
  {
   "property": "C06",
   "status": "partial",
   "theorems": [
    "C06_eq_hash_partial",
    "C06_ord_eq_refuted",
    "C06_ord_eq_within_dataset_partial"
   ],
   "note": "Ord/Eq consistency is false of the code (refuted); holds within one dataset with distinct addresses"
  },
  {
   "property": "C07",
   "status": "proved",
   "theorems": [
    "C07_round_trip",
    "C07_words"
   ],
   "note": "both directions, every rank"
  },
  {
   "property": "C08",
   "status": "proved",
   "theorems": [
    "C08_construction"
   ],
   "note": "strides, zero chunk dims panic"
  },
  {
   "property": "C09",
   "status": "proved",
   "theorems": [
    "C09_chunked",
    "C09_order_irrelevant",
    "C09_contiguous",
    "C09_unsupported"
   ],
   "note": "exact success condition"
  },
  {
   "property": "C10",
   "status": "proved",
   "theorems": [
    "C10_lookup"
   ],
   "note": "unique chunk containing the coordinate"
  },
  {
   "property": "C11",
   "status": "partial",
   "theorems": [
    "C11_segments_partial",
    "C11_exact",
    "C11_release_exact",
    "C11_modes_agree",
    "C11_release_partial",
    "C11_class_exact",
    "C11_class_partial",
    "C11_class_grows",
    "C11_refuted"
   ],
   "note": "proved for every in-bounds selection meeting the decidable condition sel_safe, which is exact in builds with debug assertions (C11_exact: right if and only if sel_safe); in release builds the decidable class is sel_wrap, the same outside single_end selections (C11_release_exact) and strictly larger on those (C11_release_larger); C11_class_exact: in both build modes, right if and only if in the class of the build mode, for every selection whose size stays clear of 2^64; false of the code in general (C11_refuted: silently wrong elements in both build modes)"
  },
  {
   "property": "C12",
   "status": "partial",
   "theorems": [
    "C12_debug_partial",
    "C12_release_partial",
    "C12_release_ends",
    "C12_release_rank3",
    "C12_release_refuted"
   ],
   "note": "debug: every dataset and selection; release: proved to end for every selection that does not take one index in each of the two last dimensions of chunks one wide in the last (C12_release_ends), and for every selection of datasets of up to three dimensions (C12_release_rank3); refuted outside both (C12_release_refuted: an in-bounds full read of four dimensions that never ends)"
  },
  {
   "property": "C13",
   "status": "proved",
   "theorems": [
    "C13_segments",
    "C13_readers"
   ],
   "note": "no segments, no reader touches the destination"
  },
  {
   "property": "C14",
   "status": "partial",
   "theorems": [
    "C14_refuted",
    "C13_readers"
   ],
   "note": "the property is false of the code: an out-of-bounds selection reads successfully and leaves the buffer's old contents"
  },
  {
   "property": "C15",
   "status": "partial",
   "theorems": [
    "C15_bounds_partial",
    "C15_debug_partial",
    "C15_refuted",
    "C15_release_exact"
   ],
   "note": "proved under sel_safe, and in debug builds for every dataset and selection; release refuted; outside single_end, a release build's segments start inside a chunk, are not empty, only the last can overrun the selection, and they are as they should be exactly when a debug build does not panic"
  },
  {
   "property": "C16",
   "status": "partial",
   "theorems": [
    "C16_grouped_partial",
    "C16_debug_partial",
    "C16_release"
   ],
   "note": "proved under sel_safe for every address sort, and in debug builds for every dataset and selection on which iteration ends; release builds outside single_end: the destinations tile [0, total), which is the selection's size if and only if all destinations lie inside it, and whenever a debug build completes"
  },
  {
   "property": "C17",
   "status": "proved",
   "theorems": [
    "C17_unshuffle_shuffle",
    "C17_shuffle_unshuffle"
   ],
   "note": "every word size and buffer"
  },
  {
   "property": "C18",
   "status": "proved",
   "theorems": [
    "C18_shuffle",
    "C18_unshuffle",
    "C18_structured",
    "C18_sized"
   ],
   "note": "exact Ok/panic conditions; undefined behaviour excluded"
  },
  {
   "property": "C19",
   "status": "partial",
   "theorems": [
    "C19_to_native_partial",
    "C19_float_refuted"
   ],
   "note": "proved except floats on big-endian hosts, where it is false"
  },
  {
   "property": "C20",
   "status": "partial",
   "theorems": [
    "C20_decode_partial",
    "C20_refuted",
    "C20_exact"
   ],
   "note": "false for deflate-then-shuffle, repeated filters and odd element sizes; characterised exactly: a filter list the indexer accepts is decoded (for all data, chunk sizes and compressors) if and only if it is none, shuffle, deflate, shuffle then deflate with 1, 2, 4, 8-byte elements if shuffled, or the elements are single bytes and it has at most one deflate"
  },
  {
   "property": "C21",
   "status": "partial",
   "theorems": [
    "C21_cached_partial",
    "C21_cached_right_partial",
    "C21_exact",
    "C21_exact_modes",
    "C21_distinct",
    "C21_class_exact",
    "C21_class_distinct"
   ],
   "note": "proved for every safe selection (sel_safe) and, more generally, whenever the segments are right; the condition is exact in both build modes: for unfiltered datasets right for every file if and only if sel_safe (C21_exact, C21_exact_modes), and with any filters, on each single file whose cells are pairwise distinct, right if and only if sel_safe (C21_distinct), outside single_end selections in release builds; C21_class_exact and C21_class_distinct are the same equivalences for every selection, with the class of the build mode (sel_right)"
  },
  {
   "property": "C22",
   "status": "proved",
   "theorems": [
    "C22_cache_invisible"
   ],
   "note": "any interleaved history over any number of readers, any outcomes"
  },
  {
   "property": "C23",
   "status": "proved",
   "theorems": [
    "C23_bounded",
    "C23_regular"
   ],
   "note": "every reachable cache state"
  },
  {
   "property": "C24",
   "status": "proved",
   "theorems": [
    "C24_agree",
    "C24_errors",
    "C24_exact",
    "C24_exact_modes",
    "C24_distinct",
    "C24_class_exact",
    "C24_class_distinct"
   ],
   "note": "success with the same count and buffer on the same inputs for every dataset and selection; errors in both or none for regular datasets and safe selections"
  },
  {
   "property": "C25",
   "status": "proved",
   "theorems": [
    "C25_schedules",
    "C25_errors",
    "C25_race_free_debug",
    "C25_exact",
    "C25_exact_modes",
    "C25_distinct",
    "C25_class_exact",
    "C25_class_distinct"
   ],
   "note": "byte-level interleavings, any order, early termination"
  },
  {
   "property": "C26",
   "status": "partial",
   "theorems": [
    "C26_debug_partial",
    "C26_safe_partial",
    "C26_release_refuted",
    "C26_release_exact"
   ],
   "note": "debug builds: every input; release builds: safe selections; refuted in general for release builds; outside single_end, with a buffer of the size of the selection: a release build writes outside it only if its segments go beyond the selection, and then always if they are inside their chunks"
  },
  {
   "property": "C27",
   "status": "proved",
   "theorems": [
    "C27_too_small"
   ],
   "note": "all readers"
  },
  {
   "property": "C28",
   "status": "partial",
   "theorems": [
    "C28_values_to_partial",
    "C28_refuted"
   ],
   "note": "false of the code (byte swap of the whole destination); exact effect proved"
  },
  {
   "property": "C29",
   "status": "partial",
   "theorems": [
    "C29_bytes_partial",
    "C29_refuted"
   ],
   "note": "false of the code: bytes are reported"
  },
  {
   "property": "C30",
   "status": "proved",
   "theorems": [
    "C30_truncated",
    "C30_prefix",
    "C30_any",
    "C30_stream"
   ],
   "note": "every reader, state and schedule; safe selections: exactly an error; any selection (C30_any, C30_stream): a read that succeeds gives what the whole file gives"
  },
  {
   "property": "C31",
   "status": "proved",
   "theorems": [
    "C31_cover",
    "C31_sorted"
   ],
   "note": "sorted segments of chunks that end below 2^64 (else the sum overflows); the address is the key, as in the code"
  },
  {
   "property": "C32",
   "status": "proved",
   "theorems": [
    "C32_limits",
    "C32_maximal"
   ],
   "note": "plus: no request is split without need"
  },
  {
   "property": "C33",
   "status": "proved",
   "theorems": [
    "C33_agree",
    "C33_values",
    "C33_errors",
    "C33_empty_chunk_refuted"
   ],
   "note": "any dataset without empty chunks (for which it is false, C33_empty_chunk_refuted) and any selection: same success, count and buffer; error case for safe selections"
  },
  {
   "property": "C34",
   "status": "proved",
   "theorems": [
    "C34_fetch",
    "C34_success_used",
    "C34_rejected",
    "C34_no_wrong_data"
   ],
   "note": "any server; error rather than panic for safe selections, no wrong data for any selection"
  },
  {
   "property": "C35",
   "status": "partial",
   "theorems": [
    "C35_stream_partial",
    "C35_agrees",
    "C35_converse",
    "C35_distinct",
    "C35_class_distinct"
   ],
   "note": "contents proved for safe selections, and this is exact in both build modes (C35_distinct: on a file of pairwise distinct cells a stream is right if and only if sel_safe, outside single_end selections in release builds; C35_class_distinct: for every selection, if and only if sel_right, the class of the build mode); agreement with reads, in both directions, for every dataset and selection"
  },
  {
   "property": "C36",
   "status": "partial",
   "theorems": [
    "C36_xdr_partial",
    "C36_agrees",
    "C36_read",
    "C36_distinct",
    "C36_class_distinct",
    "C36_scalar"
   ],
   "note": "contents: safe selections, all indexed datatypes of known byte order; for every dataset and selection: the XDR stream is item by item the XDR form of the plain stream, and so of what a read gives; if no two elements have the same bytes, the XDR stream delivers the XDR form of the selection if and only if the selection is in sel_safe (release: types XDR does not widen) The class theorems (Properties52, 53) lift the exclusion of single_end in release builds: exact with the class of the build (sel_right); for types XDR widens too, where in release builds the selection is outside single_end and its converted size fits 64 bits (C36_class_wide_case)."
  },
  {
   "property": "C37",
   "status": "partial",
   "theorems": [
    "C37_values_partial",
    "C37_any",
    "C37_items",
    "C37_exact",
    "C37_debug",
    "C37_release_refuted"
   ],
   "note": "selections inside the dataset: exact (values returns an array iff the stream ends after the selected number of bytes, and it is the stream; in debug builds iff the stream ends); outside: values is the stream plus the untouched zeros; refuted in release builds, where a stream can end with too many values while values panics"
  },
  {
   "property": "C38",
   "status": "partial",
   "theorems": [
    "C38_refuted",
    "C35_stream_partial"
   ],
   "note": "false of the code; the stream is in the dataset's byte order (C35)"
  },
  {
   "property": "C39",
   "status": "proved",
   "theorems": [
    "C39_dataset",
    "C39_dataset_any",
    "C39_indexed",
    "C39_divisors"
   ],
   "note": "every typed dataset of every rank, every chunk table; bincode format"
  },
  {
   "property": "C40",
   "status": "partial",
   "theorems": [
    "C40_read_is_typed",
    "C40_chunk_table",
    "C40_chunk_table_ok",
    "C40_truncated",
    "C40_arrays_lenient",
    "C40_shape_refuted",
    "C40_zero_divisor"
   ],
   "note": "the claim about shape and stride arrays is false of the code (refuted, exact behaviour proved); the chunk table part and truncation are proved"
  },
  {
   "property": "C41",
   "status": "proved",
   "theorems": [
    "C41_round_trip",
    "C41_repeated_key",
    "C41_not_utf8",
    "C41_truncated",
    "C41_loaded_is_typed",
    "C41_terminates",
    "C41_indexed",
    "C41_text",
    "C41_injective"
   ],
   "note": "bincode; map iteration order is the list order of the model"
  },
  {
   "property": "C42",
   "status": "proved",
   "theorems": [
    "C42_every_string",
    "C42_dataset",
    "C42_group",
    "C42_slashes",
    "C42_nested",
    "C42_root_refuted",
    "C42_open"
   ],
   "note": "all strings; the empty path does not find the root (finding)"
  },
  {
   "property": "C43",
   "status": "proved",
   "theorems": [
    "C43_exact",
    "C43_groups",
    "C43_succeeds"
   ],
   "note": "every finite tree with distinct slash-free link names"
  },
  {
   "property": "C44",
   "status": "partial",
   "theorems": [
    "C44_selects_partial",
    "C44_exact",
    "C44_backward_refuted",
    "C44_lost_refuted",
    "C44_surplus_refuted",
    "C44_unsupported",
    "C44_single_refuted"
   ],
   "note": "Holds for ints in range other than -1 and forward slices; the full statement is false of the code: -1 and slices with bounds out of order panic, ints out of range select nothing, surplus elements are ignored, an expression that is not a tuple is a TypeError. Exactly: an expression NumPy accepts and that selects something is planned as NumPy selects if and only if no element is -1 (C44_exact)."
  },
  {
   "property": "C45",
   "status": "partial",
   "theorems": [
    "C45_size",
    "C45_values_partial",
    "C45_distinct",
    "C45_exact",
    "C45_class_distinct",
    "C45_class_exact",
    "C45_empty_refuted"
   ],
   "note": "Forward keys without an empty axis and selections in sel_safe: right values whatever the memory held and whatever the schedule; of a file whose cells are all different, exactly those selections (C45_distinct). C45_exact: any expression NumPy accepts is right, whatever the memory held, if and only if no element is -1, it is not empty and it is in sel_safe. False with an empty axis: the array has elements nobody wrote. The class theorems (Properties52, 53) lift the exclusion of single_end in release builds: exact with the class of the build (sel_right)."
  },
  {
   "property": "C46",
   "status": "partial",
   "theorems": [
    "C46_valid_partial",
    "C46_valid_refuted"
   ],
   "note": "the property is false of the code; exact behaviour proved"
  },
  {
   "property": "C47",
   "status": "partial",
   "theorems": [
    "C47_values",
    "C47_length",
    "C47_dyn_partial",
    "C47_dyn_refuted",
    "C47_distinct",
    "C47_distinct_direct",
    "C47_class_distinct",
    "C47_class_distinct_direct"
   ],
   "note": "values/values_par as stated; values_dyn_par fails for T smaller than the element although the size check passes; values of the size of the element are right if and only if the selection is in sel_safe The class theorems (Properties52, 53) lift the exclusion of single_end in release builds: exact with the class of the build (sel_right)."
  },
  {
   "property": "C48",
   "status": "partial",
   "theorems": [
    "C48_factor_partial",
    "C48_refuted",
    "C63_xdr_total",
    "C48_exact"
   ],
   "note": "proved for every type an index can hold (C63_xdr_total: what the indexer makes of any HDF5 type); for hand-made datatypes except unknown-order small integers; false for 16-bit floats, which no index holds"
  },
  {
   "property": "C49",
   "status": "proved",
   "theorems": [
    "C49_fill",
    "C49_nan",
    "C49_type_refuted"
   ],
   "note": "For arguments convertible to the element type, any order of visiting; otherwise the call panics (C49_type_refuted)."
  },
  {
   "property": "C50",
   "status": "proved",
   "theorems": [
    "C50_one_dimension",
    "C50_last_dimension",
    "C50_row",
    "C50_whole_rows",
    "C50_outer",
    "C50_contiguous"
   ],
   "note": "the stated classes, and more"
  },
  {
   "property": "C51",
   "status": "proved",
   "theorems": [
    "C51_handles",
    "C51_listing"
   ],
   "note": "Files as in C43 (finite trees, valid link names)."
  },
  {
   "property": "C52",
   "status": "partial",
   "theorems": [
    "C52_shape_partial",
    "C52_fill_value",
    "C52_nan_refuted",
    "C52_values_partial",
    "C52_distinct",
    "C52_class_distinct",
    "C52_integer_refuted",
    "C52_variables",
    "C52_unwritten_refuted"
   ],
   "note": "Values: selections of the class sel_safe, for every schedule; the shape is characterised exactly (right iff no axis of length one, false otherwise); false for fill values without NaN in the element type, for two NaN attributes, and for unwritten variables, which silently disappear. Outside sel_safe the values of a file whose cells are all different are never returned (C52_distinct). The class theorems (Properties52, 53) lift the exclusion of single_end in release builds: exact with the class of the build (sel_right)."
  },
  {
   "property": "C53",
   "status": "proved",
   "theorems": [
    "C53_other_files",
    "C53_untouched",
    "C53_round_trip",
    "C53_crash",
    "C53_flexbuffers",
    "C53_list_exact",
    "C53_index_exit"
   ],
   "note": "Bincode builds outright; builds with flexbuffers under the stated hypothesis that the crate rejects bincode (C53_round_trip, C53_crash) or reads back what it wrote (C53_flexbuffers)."
  },
  {
   "property": "C54",
   "status": "partial",
   "theorems": [
    "C54_end_to_end_partial",
    "C54_values_partial",
    "C54_size",
    "C54_exact",
    "C54_class_exact",
    "C54_class_values"
   ],
   "note": "The whole chain in one statement, against a specification of the stored file that does not mention the index. Missing: selections outside the class of the build mode (for which the code is wrong, C11, C54_class_exact; C54_class_values and C101 cover the whole class), filter pipelines other than none, shuffle, deflate, shuffle+deflate (C20), partially allocated datasets (indexing fails, C09). C54_exact: from an indexed file, each reader is right if and only if the selection is in sel_safe. The class theorems (Properties52, 53) lift the exclusion of single_end in release builds: exact with the class of the build (sel_right)."
  },
  {
   "property": "C55",
   "status": "proved",
   "theorems": [
    "C55_plane",
    "C55_plane_full",
    "C55_space_full"
   ],
   "note": "exact in both build modes: 2-D for every selection and for full reads, 3-D for full reads"
  },
  {
   "property": "C56",
   "status": "proved",
   "theorems": [
    "C56_local",
    "C56_needed"
   ],
   "note": "any outcome, not only success; S3 through C33"
  },
  {
   "property": "C57",
   "status": "partial",
   "theorems": [
    "C57_length",
    "C57_debug",
    "C57_safe",
    "C57_release",
    "C57_release_refuted"
   ],
   "note": "lengths in every case; the frame in debug builds always and in release builds for safe selections; refuted for other selections in release builds; release builds outside single_end: the bytes of the segments' elements (fewer than the selection plus three boxes of the reach), and exactly the selection's whenever a debug build completes"
  },
  {
   "property": "C58",
   "status": "proved",
   "theorems": [
    "C58_truncated",
    "C58_damaged"
   ],
   "note": "relative to the intact file's read succeeding; elements of 1, 2, 4 or 8 bytes"
  },
  {
   "property": "C59",
   "status": "proved",
   "theorems": [
    "C59_direct",
    "C59_parallel",
    "C59_history",
    "C59_needed",
    "C59_repeat"
   ],
   "note": "file accesses are a trace of the instrumented readers of Trace.v, whose results are proved equal to the plain readers'"
  },
  {
   "property": "C60",
   "status": "proved",
   "theorems": [
    "C60_content",
    "C60_overlap",
    "C60_paging"
   ],
   "note": "safe selections of regular datasets; nothing is assumed of the file"
  },
  {
   "property": "C61",
   "status": "proved",
   "theorems": [
    "C61_limit",
    "C61_ends",
    "C61_refines",
    "C61_cancelled"
   ],
   "note": "the use of one response is atomic (it contains no await)"
  },
  {
   "property": "C62",
   "status": "proved",
   "theorems": [
    "C62_open",
    "C62_missing",
    "C62_missing_error",
    "C62_replaced"
   ],
   "note": "files overwritten in place while open are not modelled"
  },
  {
   "property": "C63",
   "status": "partial",
   "theorems": [
    "C63_types",
    "C63_known",
    "C63_indexed",
    "C63_xdr_total",
    "C63_values_partial",
    "C63_class_values",
    "C63_python_refuted",
    "C63_xdr_refuted"
   ],
   "note": "numbers stored in the other byte order are custom types: typed reads convert them (C63_class_values: for the exact class of selections), Python panics on them and the XDR stream of 8- and 16-bit integers is not widened (refuted)"
  },
  {
   "property": "C64",
   "status": "proved",
   "theorems": [
    "C64_filled",
    "C64_exact",
    "C64_direct",
    "C64_par",
    "C64_dyn",
    "C64_python",
    "C64_python_exact"
   ],
   "note": "in release builds, under the hypothesis (roomy) that the products of sizes stay below 2^64"
  },
  {
   "property": "C65",
   "status": "proved",
   "theorems": [
    "C65_guess",
    "C65_remote_refuted"
   ],
   "note": "os.path.splitext as CPython has it on POSIX"
  },
  {
   "property": "C66",
   "status": "proved",
   "theorems": [
    "C66_series",
    "C66_modes",
    "C66_aligned",
    "C66_column",
    "C66_cube",
    "C66_read",
    "C66_direct"
   ],
   "note": "an exact characterisation in both build modes, including the single_end selections that C11_release_exact leaves out"
  },
  {
   "property": "C67",
   "status": "proved",
   "theorems": [
    "C67_values",
    "C67_values_par",
    "C67_outside"
   ],
   "note": "that reading uninitialised memory is undefined behaviour in Rust is outside the model: the bytes are taken to have some value; in release builds C67_values supposes the selection's bytes, times rank and chunk size, fit in 64 bits (roomy)"
  },
  {
   "property": "C68",
   "status": "proved",
   "theorems": [
    "C68_text",
    "C68_format",
    "C68_files",
    "C68_refuted"
   ],
   "note": "only the dataset lines (24-27), not the two header lines; Formatter::pad and the Debug of [u64] are transcribed from core"
  },
  {
   "property": "C69",
   "status": "proved",
   "theorems": [
    "C69_items",
    "C69_xdr_items",
    "C69_missing",
    "C69_lazy",
    "C69_bounded",
    "C69_once"
   ],
   "note": "files overwritten in place while open are not modelled"
  },
  {
   "property": "C70",
   "status": "proved",
   "theorems": [
    "C70_history",
    "C70_scan",
    "C70_stream",
    "C70_xdr"
   ],
   "note": "the LRU map of the crate lru is modelled by its documentation (get promotes, put evicts the least recently used)"
  },
  {
   "property": "C71",
   "status": "proved",
   "theorems": [
    "C71_handle",
    "C71_everything",
    "C71_numpy"
   ],
   "note": "numbers of elements from 2^64 on (where the product panics or wraps) excluded by fits64_lead"
  },
  {
   "property": "C72",
   "status": "proved",
   "theorems": [
    "C72_fewest",
    "C72_debug",
    "C72_unique",
    "C72_one",
    "C72_whole"
   ],
   "note": "supported selections are those of C11/C50 (sel_safe); others are iterated wrongly (C11_exact)"
  },
  {
   "property": "C73",
   "status": "proved",
   "theorems": [
    "C73_fewest",
    "C73_attained",
    "C73_any",
    "C73_overhead"
   ],
   "note": "C73_any: the same for every selection that is cut into segments, relative to the chunks of those segments"
  },
  {
   "property": "C74",
   "status": "proved",
   "theorems": [
    "C74_stream",
    "C74_xdr",
    "C74_xdr_lazy",
    "C74_xdr_once",
    "C74_xdr_refuted"
   ],
   "note": "C74_xdr_refuted: the plain bound does not hold of XDR streams. Data the caller keeps (the items) is not counted, nor the encoded bytes of the chunk being read during a poll."
  },
  {
   "property": "C75",
   "status": "proved",
   "theorems": [
    "C75_full",
    "C75_one_chunk",
    "C75_layer",
    "C75_readers"
   ],
   "note": "Hypothesis: the last of the dimensions that chunks span is longer than 1 (when there are any). Extends C55 (ranks 2 and 3) to any rank."
  },
  {
   "property": "C76",
   "status": "proved",
   "theorems": [
    "C76_same_completions"
   ],
   "note": "Hypotheses: buffer of the size of the selection, outside single_end, (elements + 4 * reach) * element size < 2^64. A larger buffer can hide the overrun of the last segment."
  },
  {
   "property": "C77",
   "status": "proved",
   "theorems": [
    "C77_memory_safe"
   ],
   "note": "Undefined behaviour in the model: unchecked indexing in the shuffle filters and the raw-pointer copy of the parallel reader (the reinterpretation of chunk tables is modelled as a checked conversion). The parallel reader of release builds is not safe: C26_release_refuted, C26_release_exact."
  },
  {
   "property": "C78",
   "status": "proved",
   "theorems": [
    "C78_lookup",
    "C78_group",
    "C78_open",
    "C78_python",
    "C78_saved",
    "C78_listed",
    "C78_indexed",
    "C78_reached",
    "C78_equivalence",
    "C78_two_runs"
   ],
   "note": "Which error (or panic) is met first, when a file cannot be indexed, does depend on the order; that it cannot be indexed does not."
  },
  {
   "property": "C79",
   "status": "proved",
   "theorems": [
    "C79_rows",
    "C79_direct",
    "C79_stream",
    "C79_s3",
    "C79_values",
    "C79_python"
   ],
   "note": "a proved way around the defect of C11; the case shows a dataset where no single read is right while its twelve rows are"
  },
  {
   "property": "C80",
   "status": "proved",
   "theorems": [
    "C80_dataset",
    "C80_file",
    "C80_reported",
    "C80_modes"
   ],
   "note": "exact success condition and classification of every failure; which failure is reported when several things are wrong depends on the order of the members"
  },
  {
   "property": "C81",
   "status": "proved",
   "theorems": [
    "C81_variable",
    "C81_store"
   ],
   "note": "xarray's pop_to and _ensure_fill_value_valid are modelled from the xarray library; the second is shown to do nothing"
  },
  {
   "property": "C82",
   "status": "proved",
   "theorems": [
    "C82_variables",
    "C82_read",
    "C82_exact"
   ],
   "note": "The three layers (indexing, python.rs, xarray.py) composed; case C82_case."
  },
  {
   "property": "C83",
   "status": "proved",
   "theorems": [
    "C83_output",
    "C83_same",
    "C83_repr",
    "C83_source"
   ],
   "note": "Characters beyond ASCII are taken to be printable (Output.v); case C83_case."
  },
  {
   "property": "C84",
   "status": "proved",
   "theorems": [
    "C84_starts",
    "C84_release_refuted"
   ],
   "note": "C84_release_refuted gives the release-build counterexample; case C84_case."
  },
  {
   "property": "C85",
   "status": "proved",
   "theorems": [
    "C85_truncated",
    "C85_truncated_dataset",
    "C85_panics",
    "C85_crash"
   ],
   "note": "C85_panics is at the level of one dataset's bytes; with flexbuffers compiled in C85_crash needs that crate to refuse bincode indexes with an error; case C85_case."
  },
  {
   "property": "C86",
   "status": "proved",
   "theorems": [
    "C86_size",
    "C86_dataset",
    "C86_file"
   ],
   "note": "case C86_case."
  },
  {
   "property": "C87",
   "status": "proved",
   "theorems": [
    "C87_agree",
    "C87_replaced",
    "C87_dataset"
   ],
   "note": "An open HDF5 file is taken to keep its contents (overwriting in place is not modelled); case C87_case."
  },
  {
   "property": "C88",
   "status": "proved",
   "theorems": [
    "C88_netcdf",
    "C88_leads",
    "C88_tidy",
    "C88_untidy",
    "C88_dots",
    "C88_found"
   ],
   "note": "netCDF4's lookup and Python's normpath/split are modelled after their sources, which are not in /repo. C88_leads covers \".\", \"..\" for netCDF4, C88_dots for the index. Case C88_case."
  },
  {
   "property": "C89",
   "status": "proved",
   "theorems": [
    "C89_bytes",
    "C89_loads",
    "C89_calls",
    "C89_progress",
    "C89_success"
   ],
   "note": "read_exact and lseek as std and POSIX define them; the file does not change meanwhile (C62, C69 treat replaced files). C89_loads shows that the model's one-step load, which all other theorems use, is what these runs give. Case C89_case."
  },
  {
   "property": "C90",
   "status": "proved",
   "theorems": [
    "C90_same",
    "C90_faults",
    "C90_right",
    "C90_ends",
    "C90_progress"
   ],
   "note": "Chunk addresses below 2^63 (seekable; no file is longer). rayon gives runs of groups to a thread, which shares one descriptor over a run: modelled by a descriptor with any position for each group. Case C90_case."
  },
  {
   "property": "C91",
   "status": "proved",
   "theorems": [
    "C91_recovers",
    "C91_result",
    "C91_buffer"
   ],
   "note": "Faults.v has the sequential reads with a list that tells which loads fail; the parallel read is that of ParSys.v (C90) with faults."
  },
  {
   "property": "C92",
   "status": "proved",
   "theorems": [
    "C92_kept",
    "C92_torn",
    "C92_parallel",
    "C92_needed",
    "C92_sequential",
    "C92_append"
   ],
   "note": "A predicate P tells which contents the file takes; a write replaces the contents by any that satisfies it. The sequential readers are modelled with one version of the file per load. Cases C92_case, C92_torn_case."
  },
  {
   "property": "C93",
   "status": "proved",
   "theorems": [
    "C93_same",
    "C93_cut",
    "C93_mixed",
    "C93_mixed_xdr"
   ],
   "note": "Each load is atomic here (torn loads: C92_torn). C93_mixed is for plain, C93_mixed_xdr for XDR streams. Case C93_case."
  },
  {
   "property": "C94",
   "status": "proved",
   "theorems": [
    "C94_cached",
    "C94_direct"
   ],
   "note": "V is the set of versions the file may have; the loads meet those of a list. Torn loads: C92_torn; streams: C93_mixed. Case C94_case (one element old, the next new)."
  },
  {
   "property": "C95",
   "status": "proved",
   "theorems": [
    "C95_torn"
   ],
   "note": "Of a compressed or shuffled dataset the decoded bytes of a torn chunk may be anything: excluded here; that its raw bytes are each from some version is C92_torn. Case C95_case (a run that gives a torn element)."
  },
  {
   "property": "C96",
   "status": "proved",
   "theorems": [
    "C96_locked",
    "C96_among"
   ],
   "note": "Without the locks, elements may be torn (C95). C96_among: reads of a file nobody writes are such reads, and such reads are among those of C92 and C95. Case C96_case (a compressed dataset of which all chunks change when half of them are read)."
  },
  {
   "property": "C97",
   "status": "proved",
   "theorems": [
    "C97_acyclic",
    "C97_cyclic",
    "C97_paths",
    "C97_links"
   ],
   "note": "As elsewhere a group's name is the path it was reached by. Case C97_case (a dataset with three paths; the same file with a link back)."
  },
  {
   "property": "C98",
   "status": "proved",
   "theorems": [
    "C98_alone",
    "C98_plain",
    "C98_right",
    "C98_finish",
    "C98_ends"
   ],
   "note": "Chunks at addresses below 2^63 (other files do not exist). The segments of a selection are computed when the read begins. Case C98_case (three readers begin together and end in another order)."
  },
  {
   "property": "C99",
   "status": "proved",
   "theorems": [
    "C99_anywhere",
    "C99_stuck",
    "C99_none",
    "C99_s3"
   ],
   "note": "tokio's block_in_place and block_on as documented (they panic on a current-thread runtime and in a LocalSet; inside a runtime). Case C99_case."
  },
  {
   "property": "C100",
   "status": "proved",
   "theorems": [
    "C100_plain",
    "C100_failing",
    "C100_items",
    "C100_finish",
    "C100_ends"
   ],
   "note": "Chunks at addresses below 2^63 (other files do not exist); a file that has been opened keeps its contents. Case C100_case (a stream polled across the removal of the file, and one that comes too late)."
  },
  {
   "property": "C101",
   "status": "proved",
   "theorems": [
    "C101_threads",
    "C101_streams",
    "C101_xdr",
    "C101_exact"
   ],
   "note": "The selections are those of the decidable class for which the slicer is right (sel_right, in debug builds sel_safe; for the others it is wrong: C11_class_exact, and C101_exact here). XDR streams: numbers of known byte order (others: C48). Cases C101_case, C101_xdr_case (also of C36's hypotheses), C54_exact_case."
  }
 ]
}