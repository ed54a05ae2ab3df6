# id | status | theorems | note
C01 | proved | C01_selection C01_all C01_inclusive_max | all selector forms, all ranks, both build modes
C02 | proved | C02_resolution C02_pairs C02_readers C02_streams_refuted | readers and resolution return the error for every rank mismatch; the streams panic instead of erring (C02_streams_refuted)
C03 | proved | C03_ndarray_slice | exact characterisation
C04 | proved | C04_contains C04_rank | for boxes representable in u64
C05 | proved | C05_order | lexicographic total preorder
C06 | partial | C06_eq_hash_partial C06_ord_eq_refuted C06_ord_eq_within_dataset_partial | Ord/Eq consistency is false of the code (refuted); holds within one dataset with distinct addresses
C07 | proved | C07_round_trip C07_words | both directions, every rank
C08 | proved | C08_construction | strides, zero chunk dims panic
C09 | proved | C09_chunked C09_order_irrelevant C09_contiguous C09_unsupported | exact success condition
C10 | proved | C10_lookup | unique chunk containing the coordinate
C11 | partial | C11_segments_partial C11_exact C11_release_exact C11_modes_agree C11_release_partial C11_class_exact C11_class_partial C11_class_grows C11_refuted | proved for every in-bounds selection meeting the decidable condition sel_safe, which is exact in builds with debug assertions (C11_exact: right if and only if sel_safe); in release builds the decidable class is sel_wrap, the same outside single_end selections (C11_release_exact) and strictly larger on those (C11_release_larger); C11_class_exact: in both build modes, right if and only if in the class of the build mode, for every selection whose size stays clear of 2^64; false of the code in general (C11_refuted: silently wrong elements in both build modes)
C12 | partial | C12_debug_partial C12_release_partial C12_release_ends C12_release_rank3 C12_release_refuted | debug: every dataset and selection; release: proved to end for every selection that does not take one index in each of the two last dimensions of chunks one wide in the last (C12_release_ends), and for every selection of datasets of up to three dimensions (C12_release_rank3); refuted outside both (C12_release_refuted: an in-bounds full read of four dimensions that never ends)
C13 | proved | C13_segments C13_readers | no segments, no reader touches the destination
C14 | partial | C14_refuted C13_readers | the property is false of the code: an out-of-bounds selection reads successfully and leaves the buffer's old contents
C15 | partial | C15_bounds_partial C15_debug_partial C15_refuted C15_release_exact | proved under sel_safe, and in debug builds for every dataset and selection; release refuted; outside single_end, a release build's segments start inside a chunk, are not empty, only the last can overrun the selection, and they are as they should be exactly when a debug build does not panic
C16 | partial | C16_grouped_partial C16_debug_partial C16_release | proved under sel_safe for every address sort, and in debug builds for every dataset and selection on which iteration ends; release builds outside single_end: the destinations tile [0, total), which is the selection's size if and only if all destinations lie inside it, and whenever a debug build completes
C17 | proved | C17_unshuffle_shuffle C17_shuffle_unshuffle | every word size and buffer
C18 | proved | C18_shuffle C18_unshuffle C18_structured C18_sized | exact Ok/panic conditions; undefined behaviour excluded
C19 | partial | C19_to_native_partial C19_float_refuted | proved except floats on big-endian hosts, where it is false
C20 | partial | C20_decode_partial C20_refuted C20_exact | false for deflate-then-shuffle, repeated filters and odd element sizes; characterised exactly: a filter list the indexer accepts is decoded (for all data, chunk sizes and compressors) if and only if it is none, shuffle, deflate, shuffle then deflate with 1, 2, 4, 8-byte elements if shuffled, or the elements are single bytes and it has at most one deflate
C21 | partial | C21_cached_partial C21_cached_right_partial C21_exact C21_exact_modes C21_distinct C21_class_exact C21_class_distinct | proved for every safe selection (sel_safe) and, more generally, whenever the segments are right; the condition is exact in both build modes: for unfiltered datasets right for every file if and only if sel_safe (C21_exact, C21_exact_modes), and with any filters, on each single file whose cells are pairwise distinct, right if and only if sel_safe (C21_distinct), outside single_end selections in release builds; C21_class_exact and C21_class_distinct are the same equivalences for every selection, with the class of the build mode (sel_right)
C22 | proved | C22_cache_invisible | any interleaved history over any number of readers, any outcomes
C23 | proved | C23_bounded C23_regular | every reachable cache state
C24 | proved | C24_agree C24_errors C24_exact C24_exact_modes C24_distinct C24_class_exact C24_class_distinct | success with the same count and buffer on the same inputs for every dataset and selection; errors in both or none for regular datasets and safe selections
C25 | proved | C25_schedules C25_errors C25_race_free_debug C25_exact C25_exact_modes C25_distinct C25_class_exact C25_class_distinct | byte-level interleavings, any order, early termination
C26 | partial | C26_debug_partial C26_safe_partial C26_release_refuted C26_release_exact | debug builds: every input; release builds: safe selections; refuted in general for release builds; outside single_end, with a buffer of the size of the selection: a release build writes outside it only if its segments go beyond the selection, and then always if they are inside their chunks
C27 | proved | C27_too_small | all readers
C28 | partial | C28_values_to_partial C28_refuted | false of the code (byte swap of the whole destination); exact effect proved
C29 | partial | C29_bytes_partial C29_refuted | false of the code: bytes are reported
C30 | proved | C30_truncated C30_prefix C30_any C30_stream | every reader, state and schedule; safe selections: exactly an error; any selection (C30_any, C30_stream): a read that succeeds gives what the whole file gives
C31 | proved | C31_cover C31_sorted | sorted segments of chunks that end below 2^64 (else the sum overflows); the address is the key, as in the code
C32 | proved | C32_limits C32_maximal | plus: no request is split without need
C33 | proved | C33_agree C33_values C33_errors C33_empty_chunk_refuted | any dataset without empty chunks (for which it is false, C33_empty_chunk_refuted) and any selection: same success, count and buffer; error case for safe selections
C34 | proved | C34_fetch C34_success_used C34_rejected C34_no_wrong_data | any server; error rather than panic for safe selections, no wrong data for any selection
C35 | partial | C35_stream_partial C35_agrees C35_converse C35_distinct C35_class_distinct | contents proved for safe selections, and this is exact in both build modes (C35_distinct: on a file of pairwise distinct cells a stream is right if and only if sel_safe, outside single_end selections in release builds; C35_class_distinct: for every selection, if and only if sel_right, the class of the build mode); agreement with reads, in both directions, for every dataset and selection
C36 | partial | C36_xdr_partial C36_agrees C36_read C36_distinct C36_class_distinct C36_scalar | contents: safe selections, all indexed datatypes of known byte order; for every dataset and selection: the XDR stream is item by item the XDR form of the plain stream, and so of what a read gives; if no two elements have the same bytes, the XDR stream delivers the XDR form of the selection if and only if the selection is in sel_safe (release: types XDR does not widen) The class theorems (Properties52, 53) lift the exclusion of single_end in release builds: exact with the class of the build (sel_right); for types XDR widens too, where in release builds the selection is outside single_end and its converted size fits 64 bits (C36_class_wide_case).
C37 | partial | C37_values_partial C37_any C37_items C37_exact C37_debug C37_release_refuted | selections inside the dataset: exact (values returns an array iff the stream ends after the selected number of bytes, and it is the stream; in debug builds iff the stream ends); outside: values is the stream plus the untouched zeros; refuted in release builds, where a stream can end with too many values while values panics
C38 | partial | C38_refuted C35_stream_partial | false of the code; the stream is in the dataset's byte order (C35)
C39 | proved | C39_dataset C39_dataset_any C39_indexed C39_divisors | every typed dataset of every rank, every chunk table; bincode format
C40 | partial | C40_read_is_typed C40_chunk_table C40_chunk_table_ok C40_truncated C40_arrays_lenient C40_shape_refuted C40_zero_divisor | the claim about shape and stride arrays is false of the code (refuted, exact behaviour proved); the chunk table part and truncation are proved
C41 | proved | C41_round_trip C41_repeated_key C41_not_utf8 C41_truncated C41_loaded_is_typed C41_terminates C41_indexed C41_text C41_injective | bincode; map iteration order is the list order of the model
C42 | proved | C42_every_string C42_dataset C42_group C42_slashes C42_nested C42_root_refuted C42_open | all strings; the empty path does not find the root (finding)
C43 | proved | C43_exact C43_groups C43_succeeds | every finite tree with distinct slash-free link names
C44 | partial | C44_selects_partial C44_exact C44_backward_refuted C44_lost_refuted C44_surplus_refuted C44_unsupported C44_single_refuted | Holds for ints in range other than -1 and forward slices; the full statement is false of the code: -1 and slices with bounds out of order panic, ints out of range select nothing, surplus elements are ignored, an expression that is not a tuple is a TypeError. Exactly: an expression NumPy accepts and that selects something is planned as NumPy selects if and only if no element is -1 (C44_exact).
C45 | partial | C45_size C45_values_partial C45_distinct C45_exact C45_class_distinct C45_class_exact C45_empty_refuted | Forward keys without an empty axis and selections in sel_safe: right values whatever the memory held and whatever the schedule; of a file whose cells are all different, exactly those selections (C45_distinct). C45_exact: any expression NumPy accepts is right, whatever the memory held, if and only if no element is -1, it is not empty and it is in sel_safe. False with an empty axis: the array has elements nobody wrote. The class theorems (Properties52, 53) lift the exclusion of single_end in release builds: exact with the class of the build (sel_right).
C46 | partial | C46_valid_partial C46_valid_refuted | the property is false of the code; exact behaviour proved
C47 | partial | C47_values C47_length C47_dyn_partial C47_dyn_refuted C47_distinct C47_distinct_direct C47_class_distinct C47_class_distinct_direct | values/values_par as stated; values_dyn_par fails for T smaller than the element although the size check passes; values of the size of the element are right if and only if the selection is in sel_safe The class theorems (Properties52, 53) lift the exclusion of single_end in release builds: exact with the class of the build (sel_right).
C48 | partial | C48_factor_partial C48_refuted C63_xdr_total C48_exact | proved for every type an index can hold (C63_xdr_total: what the indexer makes of any HDF5 type); for hand-made datatypes except unknown-order small integers; false for 16-bit floats, which no index holds
C49 | proved | C49_fill C49_nan C49_type_refuted | For arguments convertible to the element type, any order of visiting; otherwise the call panics (C49_type_refuted).
C50 | proved | C50_one_dimension C50_last_dimension C50_row C50_whole_rows C50_outer C50_contiguous | the stated classes, and more
C51 | proved | C51_handles C51_listing | Files as in C43 (finite trees, valid link names).
C52 | partial | C52_shape_partial C52_fill_value C52_nan_refuted C52_values_partial C52_distinct C52_class_distinct C52_integer_refuted C52_variables C52_unwritten_refuted | Values: selections of the class sel_safe, for every schedule; the shape is characterised exactly (right iff no axis of length one, false otherwise); false for fill values without NaN in the element type, for two NaN attributes, and for unwritten variables, which silently disappear. Outside sel_safe the values of a file whose cells are all different are never returned (C52_distinct). The class theorems (Properties52, 53) lift the exclusion of single_end in release builds: exact with the class of the build (sel_right).
C53 | proved | C53_other_files C53_untouched C53_round_trip C53_crash C53_flexbuffers C53_list_exact C53_index_exit | Bincode builds outright; builds with flexbuffers under the stated hypothesis that the crate rejects bincode (C53_round_trip, C53_crash) or reads back what it wrote (C53_flexbuffers).
C54 | partial | C54_end_to_end_partial C54_values_partial C54_size C54_exact C54_class_exact C54_class_values | The whole chain in one statement, against a specification of the stored file that does not mention the index. Missing: selections outside the class of the build mode (for which the code is wrong, C11, C54_class_exact; C54_class_values and C101 cover the whole class), filter pipelines other than none, shuffle, deflate, shuffle+deflate (C20), partially allocated datasets (indexing fails, C09). C54_exact: from an indexed file, each reader is right if and only if the selection is in sel_safe. The class theorems (Properties52, 53) lift the exclusion of single_end in release builds: exact with the class of the build (sel_right).
C55 | proved | C55_plane C55_plane_full C55_space_full | exact in both build modes: 2-D for every selection and for full reads, 3-D for full reads
C56 | proved | C56_local C56_needed | any outcome, not only success; S3 through C33
C57 | partial | C57_length C57_debug C57_safe C57_release C57_release_refuted | lengths in every case; the frame in debug builds always and in release builds for safe selections; refuted for other selections in release builds; release builds outside single_end: the bytes of the segments' elements (fewer than the selection plus three boxes of the reach), and exactly the selection's whenever a debug build completes
C58 | proved | C58_truncated C58_damaged | relative to the intact file's read succeeding; elements of 1, 2, 4 or 8 bytes
C59 | proved | C59_direct C59_parallel C59_history C59_needed C59_repeat | file accesses are a trace of the instrumented readers of Trace.v, whose results are proved equal to the plain readers'
C60 | proved | C60_content C60_overlap C60_paging | safe selections of regular datasets; nothing is assumed of the file
C61 | proved | C61_limit C61_ends C61_refines C61_cancelled | the use of one response is atomic (it contains no await)
C62 | proved | C62_open C62_missing C62_missing_error C62_replaced | files overwritten in place while open are not modelled
C63 | partial | C63_types C63_known C63_indexed C63_xdr_total C63_values_partial C63_class_values C63_python_refuted C63_xdr_refuted | numbers stored in the other byte order are custom types: typed reads convert them (C63_class_values: for the exact class of selections), Python panics on them and the XDR stream of 8- and 16-bit integers is not widened (refuted)
C64 | proved | C64_filled C64_exact C64_direct C64_par C64_dyn C64_python C64_python_exact | in release builds, under the hypothesis (roomy) that the products of sizes stay below 2^64
C65 | proved | C65_guess C65_remote_refuted | os.path.splitext as CPython has it on POSIX
C66 | proved | C66_series C66_modes C66_aligned C66_column C66_cube C66_read C66_direct | an exact characterisation in both build modes, including the single_end selections that C11_release_exact leaves out
C67 | proved | C67_values C67_values_par C67_outside | that reading uninitialised memory is undefined behaviour in Rust is outside the model: the bytes are taken to have some value; in release builds C67_values supposes the selection's bytes, times rank and chunk size, fit in 64 bits (roomy)
C68 | proved | C68_text C68_format C68_files C68_refuted | only the dataset lines (24-27), not the two header lines; Formatter::pad and the Debug of [u64] are transcribed from core
C69 | proved | C69_items C69_xdr_items C69_missing C69_lazy C69_bounded C69_once | files overwritten in place while open are not modelled
C70 | proved | C70_history C70_scan C70_stream C70_xdr | the LRU map of the crate lru is modelled by its documentation (get promotes, put evicts the least recently used)
C71 | proved | C71_handle C71_everything C71_numpy | numbers of elements from 2^64 on (where the product panics or wraps) excluded by fits64_lead
C72 | proved | C72_fewest C72_debug C72_unique C72_one C72_whole | supported selections are those of C11/C50 (sel_safe); others are iterated wrongly (C11_exact)
C73 | proved | C73_fewest C73_attained C73_any C73_overhead | C73_any: the same for every selection that is cut into segments, relative to the chunks of those segments
C74 | proved | C74_stream C74_xdr C74_xdr_lazy C74_xdr_once C74_xdr_refuted | C74_xdr_refuted: the plain bound does not hold of XDR streams. Data the caller keeps (the items) is not counted, nor the encoded bytes of the chunk being read during a poll.
C75 | proved | C75_full C75_one_chunk C75_layer C75_readers | Hypothesis: the last of the dimensions that chunks span is longer than 1 (when there are any). Extends C55 (ranks 2 and 3) to any rank.
C76 | proved | C76_same_completions | Hypotheses: buffer of the size of the selection, outside single_end, (elements + 4 * reach) * element size < 2^64. A larger buffer can hide the overrun of the last segment.
C77 | proved | C77_memory_safe | Undefined behaviour in the model: unchecked indexing in the shuffle filters and the raw-pointer copy of the parallel reader (the reinterpretation of chunk tables is modelled as a checked conversion). The parallel reader of release builds is not safe: C26_release_refuted, C26_release_exact.
C78 | proved | C78_lookup C78_group C78_open C78_python C78_saved C78_listed C78_indexed C78_reached C78_equivalence C78_two_runs | Which error (or panic) is met first, when a file cannot be indexed, does depend on the order; that it cannot be indexed does not.
C79 | proved | C79_rows C79_direct C79_stream C79_s3 C79_values C79_python | a proved way around the defect of C11; the case shows a dataset where no single read is right while its twelve rows are
C80 | proved | C80_dataset C80_file C80_reported C80_modes | exact success condition and classification of every failure; which failure is reported when several things are wrong depends on the order of the members
C81 | proved | C81_variable C81_store | xarray's pop_to and _ensure_fill_value_valid are modelled from the xarray library; the second is shown to do nothing
C82 | proved | C82_variables C82_read C82_exact | The three layers (indexing, python.rs, xarray.py) composed; case C82_case.
C83 | proved | C83_output C83_same C83_repr C83_source | Characters beyond ASCII are taken to be printable (Output.v); case C83_case.
C84 | proved | C84_starts C84_release_refuted | C84_release_refuted gives the release-build counterexample; case C84_case.
C85 | proved | C85_truncated C85_truncated_dataset C85_panics C85_crash | C85_panics is at the level of one dataset's bytes; with flexbuffers compiled in C85_crash needs that crate to refuse bincode indexes with an error; case C85_case.
C86 | proved | C86_size C86_dataset C86_file | case C86_case.
C87 | proved | C87_agree C87_replaced C87_dataset | An open HDF5 file is taken to keep its contents (overwriting in place is not modelled); case C87_case.
C88 | proved | C88_netcdf C88_leads C88_tidy C88_untidy C88_dots C88_found | netCDF4's lookup and Python's normpath/split are modelled after their sources, which are not in /repo. C88_leads covers ".", ".." for netCDF4, C88_dots for the index. Case C88_case.
C89 | proved | C89_bytes C89_loads C89_calls C89_progress C89_success | read_exact and lseek as std and POSIX define them; the file does not change meanwhile (C62, C69 treat replaced files). C89_loads shows that the model's one-step load, which all other theorems use, is what these runs give. Case C89_case.
C90 | proved | C90_same C90_faults C90_right C90_ends C90_progress | Chunk addresses below 2^63 (seekable; no file is longer). rayon gives runs of groups to a thread, which shares one descriptor over a run: modelled by a descriptor with any position for each group. Case C90_case.
C91 | proved | C91_recovers C91_result C91_buffer | Faults.v has the sequential reads with a list that tells which loads fail; the parallel read is that of ParSys.v (C90) with faults.
C92 | proved | C92_kept C92_torn C92_parallel C92_needed C92_sequential C92_append | A predicate P tells which contents the file takes; a write replaces the contents by any that satisfies it. The sequential readers are modelled with one version of the file per load. Cases C92_case, C92_torn_case.
C93 | proved | C93_same C93_cut C93_mixed C93_mixed_xdr | Each load is atomic here (torn loads: C92_torn). C93_mixed is for plain, C93_mixed_xdr for XDR streams. Case C93_case.
C94 | proved | C94_cached C94_direct | V is the set of versions the file may have; the loads meet those of a list. Torn loads: C92_torn; streams: C93_mixed. Case C94_case (one element old, the next new).
C95 | proved | C95_torn | Of a compressed or shuffled dataset the decoded bytes of a torn chunk may be anything: excluded here; that its raw bytes are each from some version is C92_torn. Case C95_case (a run that gives a torn element).
C96 | proved | C96_locked C96_among | Without the locks, elements may be torn (C95). C96_among: reads of a file nobody writes are such reads, and such reads are among those of C92 and C95. Case C96_case (a compressed dataset of which all chunks change when half of them are read).
C97 | proved | C97_acyclic C97_cyclic C97_paths C97_links | As elsewhere a group's name is the path it was reached by. Case C97_case (a dataset with three paths; the same file with a link back).
C98 | proved | C98_alone C98_plain C98_right C98_finish C98_ends | Chunks at addresses below 2^63 (other files do not exist). The segments of a selection are computed when the read begins. Case C98_case (three readers begin together and end in another order).
C99 | proved | C99_anywhere C99_stuck C99_none C99_s3 | tokio's block_in_place and block_on as documented (they panic on a current-thread runtime and in a LocalSet; inside a runtime). Case C99_case.
C100 | proved | C100_plain C100_failing C100_items C100_finish C100_ends | Chunks at addresses below 2^63 (other files do not exist); a file that has been opened keeps its contents. Case C100_case (a stream polled across the removal of the file, and one that comes too late).
C101 | proved | C101_threads C101_streams C101_xdr C101_exact | The selections are those of the decidable class for which the slicer is right (sel_right, in debug builds sel_safe; for the others it is wrong: C11_class_exact, and C101_exact here). XDR streams: numbers of known byte order (others: C48). Cases C101_case, C101_xdr_case (also of C36's hypotheses), C54_exact_case.
