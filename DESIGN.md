# Formal model of gauteh/hidefix in Rocq (Coq 8.16.1)

What is modelled, how each property of `properties.jsonl` is stated and proved,
what was found, and what is trusted.  `MANIFEST.json` maps each property to exact
theorem names; section 6 gives the file of each.

## 1. Approach

* Plain Gallina over the standard library (`List`, `NArith`, `ZArith`,
  `Permutation`, `Lia`).  No axioms, no functors, no plugins.
* Each Rust function becomes a Gallina function of the same shape: loops become
  recursion, `&mut` a returned value, `Result` data, panics an explicit outcome.
  Every definition cites the file and lines it models.
* **Two build modes**, `mode := Debug | Release`.  `add64/sub64/mul64` panic on
  u64 overflow in `Debug` and wrap modulo 2^64 in `Release`; `debug_assert!` is
  checked only in `Debug`.  Theorems quantify over the mode unless they name one.
* **Outcomes**: `res A := Ok a | Err e | Panic | Ub | Hang`.  `Ub`: an unchecked or raw
  memory access leaves its buffer.  `Hang`: the fuel given to an unbounded loop ran out
  (theorems say for which fuel it cannot, or, for infinite loops, that it does for
  every fuel).
* **Concurrency**: relations over all schedules.  The parallel reader's tasks are
  interleaved byte by byte (each byte of a `copy_from_slice` through a raw pointer is
  a step); S3 responses complete in any order; readers with caches are used in any
  interleaved history.
* **Target**: 64-bit `usize`, so `u64 as usize` is the identity; the host's
  endianness is a parameter.
* Specifications (`Spec*.v`, `Safe.v`) do not use the model's functions: a selection is
  the row-major list of coordinates produced by nested enumeration (`slab`), the place
  of an element is a chunk whose box contains it and its row-major position in that box
  (`holds`), a file *stores* values if every chunk, after the inverse filter pipeline,
  has them at those places (`stores`), NumPy indexing is a relation (`np_select`), and
  so on.
* When the code violates a property, that is proved as a theorem `..._refuted` (with a
  concrete witness evaluated by the faithful model, or as a general statement), and the
  strongest correct statement is proved next to it, with suffix `_partial` if it is
  weaker than the property.

## 2. Files (rocq/theories)

| file | content |
|---|---|
| `Base` | modes, outcomes, u64 arithmetic, list helpers |
| `Extent` | src/extent.rs |
| `Chunk` | src/idx/chunk.rs |
| `Dataset` | src/idx/dataset/dataset.rs (construction, indexing, lookup), types.rs, any.rs |
| `Slicer` | `ChunkSlicer`, `chunk_slices`, `group_chunk_slices` (dataset.rs 358-635) |
| `Filters` | src/filters/* and reader/chunk.rs |
| `Reader` | CacheReader, Direct, parallel Direct, reader/dataset.rs (`values`, `values_to`, ...), StreamReader |
| `Trace` | the readers again, with the list of chunks they read from the file (erasure to `Reader` is proved) |
| `S3` | src/reader/s3.rs |
| `IndexTree`, `Serde` | src/idx/index.rs; src/idx/serde.rs, the derives, bincode's layout |
| `Python`, `Xarray`, `XarrayOpen`, `XarrayStore` | src/python.rs; python/hidefix/xarray.py |
| `Tools` | src/bin/hfxidx.rs, src/bin/hfxlst.rs |
| `Open` | opening of readers through an index over a file system (index.rs 157-195, any.rs 51-86) |
| `S3Async` | the requests of s3.rs in flight (`buffer_unordered`) |
| `Spec`, `SpecApi`, `SpecFilter`, `SpecReader`, `SpecS3`, `SpecSerde`, `SpecTree`, `SpecPython`, `SpecEnd`, `Safe` | the specifications |
| `Properties1`..`Properties78` | the property theorems, each with `Print Assumptions` and a concrete case |
| `Conformance` | the repository's unit tests that need no HDF5 file, replayed on the model; the selections of its integration tests are in the class proved right |
| `Examples`, `ExamplesReader` | the concrete datasets and files of those cases |
| the others | proofs (`Radix`: mixed radix numbers; `Slicer*`, `Termination`: the iterator; `SlicerExact*`, `SlicerRelease*`, `ExactReads`, `ExactFamily`: necessity of `sel_safe`; `SafeWrap`, `SlicerWrap*`, `SlicerKill`, `WrapProps`: the class of release builds, sufficient and necessary; `CacheProofs`, `DirectProofs`, `ParProofs`, `Writes`, `StreamProofs`, ...: the readers) |

## 3. Per property

| id | what is modelled / how it is proved |
|---|---|
| C01 | constructors from every range form, `count`, `canonicalise`; membership by cases; `..=MAX` overflows: panic / wraps to nothing |
| C02 | rank check of every reader, before the buffer is touched; streams panic instead (refuted) |
| C03 | `TryFrom<SliceInfo>` over lists of elements; iff by induction |
| C04-C06 | `contains`, `cmp`, `eq`, `hash` by induction on the rank; Ord vs Eq refuted by a witness |
| C07 | words of chunks: round trips by induction, any rank |
| C08-C10 | construction, indexing (any visiting order; uniqueness of sorted permutations gives the grid), lookup |
| C11 | `ChunkSlicer::next` with every u64 operation; invariant over mixed-radix digits.  Right for every in-bounds selection in the decidable class `sel_safe` (both modes), and *only* for those in debug builds (`C11_exact`) and, outside `single_end` selections, in release builds (`C11_release_exact`, proofs in `SlicerRelease*`).  In release builds the class is `sel_wrap` (`SafeWrap`), which contains `sel_safe` and differs from it on `single_end` selections only; `C11_class_exact` is the exact statement for both build modes (`SlicerWrap*`, `SlicerKill`).  The unconditional statement is refuted |
| C12 | debug: every call advances or panics; release: whenever debug does not panic, whenever the selection is not one index in each of the two last dimensions of chunks one wide in the last (the offset then only grows, SlicerEnds), and for up to three dimensions always (the coordinate grows, SlicerEnds3); an infinite loop in release builds is proved for four dimensions |
| C13, C14 | out-of-bounds selections yield no segments; hence reads report success and leave the buffer (C14 refuted) |
| C15, C16 | consequences of the invariant; for debug builds, of the assertions in the code |
| C17, C18 | the loops of shuffle.rs with explicit bounds, out-of-bounds is `Ub`; invariants of the double loops |
| C19, C48 | numbers as digit lists, host endianness a parameter; floats on big-endian hosts refuted |
| C20 | `decode_chunk`, decompressor a quantified function; filter pipelines as relations; refuted for deflate-then-shuffle |
| C21-C24 | cached and direct readers as state transformers over (file, cache, buffer); histories of many readers; success with the same bytes in both |
| C25, C26 | all byte-level interleavings of the parallel reader; race freedom; out-of-buffer writes in release builds refuted |
| C27-C30 | error paths; truncated files; refutations for `values_to` |
| C31-C34 | fold invariant of the request grouping; any server, any order of completion |
| C35-C38, C47 | streams as lists of items; XDR; `values*` |
| C39-C41 | bincode layout of datasets, chunk tables and index trees; parsers of every byte string |
| C42, C43, C51 | path splitting on characters; HDF5 files as finite trees |
| C44, C45, C49, C52 | CPython's slice semantics over Z, u64 casts, uninitialised arrays, NumPy's rules as the specification; the xarray backend on top |
| C46 | `valid` |
| C50 | readable sufficient conditions for `sel_safe` |
| C54 | the composition of the above, against a specification of the HDF5 file itself (`SpecEnd`) |
| C55 | the conditions of `sel_safe` spelled out for two and three dimensions (`PlaneProofs`), plus, for release builds, a direct computation of the first wrong step in two dimensions and of `single_end` datasets in three, and `SlicerRelease` (the wrapping loops step by step: a carry of at most one never goes back) elsewhere |
| C56 | extensionality of each read loop in the chunk loader, and the loader reads the chunk range only |
| C57 | each copy stays inside its range; the ranges of the segments sum to at most the selection size (debug: because the slicer checks its subtraction; safe selections: C11) |
| C58 | every reader applies a sublist of the intact read's segment writes, each whole; writes of different segments are disjoint |
| C59 | instrumented readers (`Trace`) that also return the chunks loaded; sorted segments for the direct readers; for the cached reader an invariant: nothing is evicted while the distinct addresses fit the capacity |
| C60 | content of an element: its place in its decoded chunk (independent of the build mode); every reader shown to return it; `slab` splits along the first axis |
| C61 | transition system of queue, requests in flight and buffer (S3Async.v), invariant: the responses used so far, in order, are a run of the loop; writes of a stopped run are a sub-collection of those of the whole read |
| C62 | handles holding a path, evaluated against the file system at the time of the read (Open.v); for parallel reads an invariant over all interleavings: nothing is written and one task always ends with the error |
| C63 | element types as HDF5 describes them and the conversion test by test (H5Types.v), composed with the index, values, XDR and Python models |
| C64 | the segments of an iteration that ends advance the offset by what they write (SlicerFill.v), composed with the readers, schedules and Python model |
| C65 | os.path.splitext, os.fspath and the two methods as functions on code points (XarrayOpen.v); an explicit grammar of accepted paths |
| C66 | the loop of next evaluated symbolically on c x 1 x ... x 1 chunks, wrapping arithmetic included; induction over the runs of the series (SeriesProofs.v) |
| C67 | both buffers lead to one read of the same length; C64: a read inside the dataset overwrites the whole buffer or fails; C13: one outside writes nothing |
| C68 | split the text at line breaks, the line at its last bracket, the shape at its commas; decimal numbers by the library's N.to_uint |
| C69 | a state machine for the generator (StreamPoll.v), shown to give the items of Reader.v's stream; invariants on its cache |
| C70 | an independent rule (count the different chunks used since) and the invariant that the cache's keys are the most recent distinct addresses |
| C71 | the accessors (Handle.v) composed with the index (C51) and the indexer |
| C72 | segments start where maximal runs start (bnd, SlicerExact) hence never join (SlicerRuns); counting argument on lists of segments (SegLists) |
| C73 | no allowed request can contain the first chunks of two of the requests made (group_maximal, disjoint sorted chunks), so pigeonhole; overhead by induction over the chunks of a request |
| C74 | Stated on the poll model (StreamPoll.v): the sum of the lengths of the cached buffers in the state after any history of polls. Invariant: capacity, and every entry at most the decoded (XDR: converted) chunk size, through load_total and a length lemma for xdr on arbitrary buffers. The refutation is symbolic: any file of 64 MiB. |
| C75 | The iterator's exact class (C11_exact, C11_release_exact) evaluated on full selections by induction over the dimensions. |
| C76 | C15_release_exact: release segments start in their chunk and only the last overruns; so a copy of a release build fails exactly where a debug build's assertion does. |
| C77 | By induction over each function: no step can give Ub. |
| C78 | Equality up to order (SpecAlike: same path, same entries, distinct keys, alike groups) by induction over the tree; permutations for listings and sizes. |
| C79 | Model: `read_rows` (one read per row, the reader's cache threaded) over the modelled readers. Proof: the rows of a hyperslab cover it in order (slab_snoc), each row is a selection of a single row (C50_row), and every reader agrees on it (C21, C24, C25, C35). |
| C80 | Model: `index_file`, `datasetd_index`, `dataset_index`. Specification: `library_gives`, `unwritten`, `high_rank`, `other_filter` (Properties56). Proof: a counting argument turns the check on the number of chunks into 'no chunk unwritten'; structural induction over the tree shows a failure is that of one member; C43_succeeds gives the success side. |
| C81 | Model: XarrayStore.v (`open_variable`, `get_variables`; dictionaries as lists in order of insertion). Specification: `conflicting`, `entry` (Properties57), with the keys as text literals. Proof: the dictionary built is shown to be the concatenation of the parts in order (`opened_as`). |
| C82 | Composition of C43/C51 (index), C81 (opening) and C45/C52 (reading) with hypotheses on the HDF5 file only. |
| C83 | Output.v models main's output and the two reprs; escaping is shown to be a prefix code, so the text can be split again. |
| C84 | The slicer's coordinates stay below the counts (every update ends in a remainder), so the start is in the selection; the assertion on `contains` puts it in the chunk. |
| C85 | Every parser of the loader goes on after more input the way it did (also when it panics) and has one error; the serializers undo the parsers. |
| C86 | Lengths of the serializers, added up over the tree; the counts of what the indexer makes of a dataset. |
| C87 | Routes.v models the conversions over a file system that changes; the trees are compared with C43. |
| C88 | XarrayGroup.v models the lookup of netCDF4; the index's by C42/C43/C51. |
| C89 | Syscalls.v: small-step system calls of workers with a position each; an invariant per worker, a measure for the number of calls. |
| C90 | ParSys.v refines par_read of Reader.v by the calls of Syscalls.v; forward and backward simulation. |
| C91 | Model: Faults.v (cache.rs 47-91 and direct.rs 113-167 with failing loads); ParSys.v. Induction over segments: a faulty loop is the fault-free loop or a prefix of it, and a failed load leaves the cache as it was. Parallel: an invariant over system-call steps gives each task a set of bytes it writes (all of its group, or none). |
| C92 | Model: Changing.v, over Syscalls.v and ParSys.v. A call on a version that agrees on the chunk is a call on the first one (invariant of C89), step by step; torn reads by an invariant over runs. |
| C93 | Model: StreamLive.v: the stream loop of Reader.v with numbered loads. By induction over the segments; the cache invariant of C93_mixed: a cached value is the load of some version. |
| C94 | Model: Changing.v. By simulation of the read on all versions at once; the cached values are each the load of some version. |
| C95 | Model: Changing.v, ParSys.v. By an invariant over all steps: each byte of the buffer is the old one with a task to come that covers it, or that of some version. |
| C96 | Model: Changing.v, ParSys.v. By an invariant over all steps: each task has a version of the file, all it has copied is still in the buffer, and tasks write to different places. |
| C97 | Model: LinkGraph.v: the indexer over a graph of objects, with a bound on nested calls. It agrees with IndexTree.v on the tree seen from the root, which is finite iff there is no cycle (a chain of groups longer than the file has objects repeats one). |
| C98 | Model: SeqSys.v: the cached and the sequential direct reader as state machines over the system calls of Syscalls.v, and any number of them and of ParSys.v's parallel reads interleaved. By an invariant of each thread: what is left of its loop gives, with the loads that may fail (Faults.v), what the whole loop gives. |
| C99 | Model: Runtime.v: the place of a call as an argument of the load of a poll (the bytes are read before block_in_place), and the three arms of block_on. By cases of one poll, then induction over the polls. |
| C100 | Model: StreamSys.v: the body of `stream!` as a state machine over the system calls of Syscalls.v, any number of streams interleaved with replacements of the file. By an invariant of each stream: the poll under way returns what the poll of StreamPoll.v does. |
| C101 | Model: as C54, C98 and C100. By composing the end-to-end theorem of one reader (C54) with those of concurrent threads (C98) and streams (C100). |
| C53 | the tools over a file system; writing in pieces, a failure or crash at any point |

## 4. Findings (each is a theorem or a proved case)

* *Wrong elements.*  A full read of shape [4,3,5] with chunks [2,2,5] silently returns
  wrong elements in both build modes (`bad_ds`); so does any selection outside `sel_safe`
  that does not panic: shape [3,1] with chunks [2,2]; the contiguous shape [10,10,10]
  with count [2,1,10] (`cont_ds`).  Shape [4,2,5] with chunks [2,1,5] panics in debug
  builds; shape [2,5,1,1] with chunks [1,2,6,1] loops for ever in release builds
  (`loop_ds`, C12_release_refuted); column selections such as shape [4,11], chunks
  [2,10], start [0,10], count [4,1] read beyond the chunk in release builds (C15, C26).
* *Success without data.*  Out-of-bounds selections return Ok and leave the buffer
  untouched (C14); `start + count` wraps in release builds.
* *values_to* byte-swaps the whole destination, beyond what was read (C28), and returns
  bytes, not elements (C29).
* Filters are applied in a fixed order, whatever the file's pipeline (C20); a chunk that
  inflates to too few bytes is padded with zeros.
* Float byte swapping uses `to_be`, a no-op on big-endian hosts (C19).
* `stream` is in the dataset's byte order, not big-endian (C38); streams panic on a rank
  mismatch (C02); 16-bit floats have XDR factor 2 but are not widened (C48).
* S3: a chunk of size 0 at address 0 underflows (C33).
* Deserialization of shape and stride arrays is lenient, and a chunk table with wrong
  length or a zero divisor panics rather than errs (C40).
* `group("/")` is None (C42); `valid()` is Ok(true) whatever the chunk sizes (C46);
  Ord Equal does not imply Eq for chunks (C06).
* `values_dyn_par` fails for element types smaller than the dataset's (C47).
* Python: `ds[-1]` and slices with bounds out of order panic; ints out of range, and -1
  on an axis of length one, select nothing and give uninitialised arrays instead of
  IndexError; surplus indices are ignored; `ds[k]` needs a tuple; axes of length one
  (and empty ones) are squeezed (C44, C45); converting a NaN fill value for an integer
  array panics (C49).
* xarray: reading an integer variable with a fill value therefore always fails; both
  attributes NaN is an AssertionError; slices of one element lose their axis, all-int
  indexing gives shape (1,); unwritten variables silently disappear (C52).
* Numbers stored in the byte order foreign to the indexing host are custom types: Python
  panics on them, the XDR stream does not widen 8- and 16-bit ones (C63).
* hfxidx with the output path of the input overwrites the HDF5 file; hfxlst lists only
  the datasets of the root group (C53).

## 5. Trusted base

* Coq's kernel (8.16.1).
* `Print Assumptions` says "Closed under the global context" for every theorem of the
  manifest: no axioms.  (The library axioms vcheck lists, `Coq.ssr.ssrunder.*`, belong to
  a standard library module that is loaded, not used.)
* Faithfulness of the transcription.
* Modelled as parameters, quantified in the theorems: libdeflate (`inflate`), the address
  sort (`addr_sort`: any sorting function), the S3 server, the flexbuffers crate, the
  content of newly allocated memory, what the HDF5 library says of a file (a finite tree
  of groups and datasets, with the shape, chunks, filters, type, order of each).
* Assumptions in the model: the HDF5 link graph is a finite tree (any graph in LinkGraph.v, C97: link cycles
  make the indexer recurse for ever); a group's name is its parent's name, '/', and the
  link name; HashMap iteration order is the list order of the model (and invisible: C78); `File` reads are
  atomic and the file does not change during a read, except where stated (C30: prefixes; C89-C91, C98, C100: system calls;
  C62, C92-C96: changing files);
  `get_object_range` of rust-s3 asserts start <= last; PyO3 / CPython
  (PySlice_GetIndicesEx) on slices with integer or None bounds; NumPy refuses arrays of
  2^63 bytes or more; `hdf5::Datatype::is::<T>` is H5Tequal with the native type, which
  compares class, size, byte order and layout (H5Types.v, used by C63 only).
* Not modelled: alignment of buffers beyond the checks in the code (`cast_ok`), memory
  exhaustion, tokio's runtime (beyond where `block_in_place` and `block_on` panic: Runtime.v, C99),
  rayon's scheduling beyond "any interleaving", the log output, benches and tests, the
  Debug/Display implementations (but for the output of hfxlst and the reprs of Python, Listing.v and Output.v), netCDF4 and what xarray does around the backend array.

## 6. Theorem index

<!-- index -->

| id | status | theorems (file) |
|---|---|---|
| C01 | proved | `C01_selection` (Properties1), `C01_all` (Properties1), `C01_inclusive_max` (Properties1) |
| C02 | proved | `C02_resolution` (Properties1), `C02_pairs` (Properties1), `C02_readers` (Properties4), `C02_streams_refuted` (Properties4) |
| C03 | proved | `C03_ndarray_slice` (Properties1) |
| C04 | proved | `C04_contains` (Properties1), `C04_rank` (Properties1) |
| C05 | proved | `C05_order` (Properties1) |
| C06 | partial | `C06_eq_hash_partial` (Properties1), `C06_ord_eq_refuted` (Properties1), `C06_ord_eq_within_dataset_partial` (Properties1) |
| C07 | proved | `C07_round_trip` (Properties1), `C07_words` (Properties1) |
| C08 | proved | `C08_construction` (Properties1) |
| C09 | proved | `C09_chunked` (Properties1), `C09_order_irrelevant` (Properties1), `C09_contiguous` (Properties1), `C09_unsupported` (Properties1) |
| C10 | proved | `C10_lookup` (Properties1) |
| C11 | partial | `C11_segments_partial` (Properties2), `C11_exact` (Properties2), `C11_release_exact` (Properties22), `C11_modes_agree` (Properties22), `C11_release_partial` (Properties2), `C11_class_exact` (Properties49), `C11_class_partial` (Properties49), `C11_class_grows` (Properties49), `C11_refuted` (Properties2) |
| C12 | partial | `C12_debug_partial` (Properties2), `C12_release_partial` (Properties2), `C12_release_ends` (Properties46), `C12_release_rank3` (Properties46), `C12_release_refuted` (Properties2) |
| C13 | proved | `C13_segments` (Properties2), `C13_readers` (Properties4) |
| C14 | partial | `C14_refuted` (Properties4), `C13_readers` (Properties4) |
| C15 | partial | `C15_bounds_partial` (Properties2), `C15_debug_partial` (Properties2), `C15_refuted` (Properties2), `C15_release_exact` (Properties46) |
| C16 | partial | `C16_grouped_partial` (Properties2), `C16_debug_partial` (Properties2), `C16_release` (Properties55) |
| C17 | proved | `C17_unshuffle_shuffle` (Properties3), `C17_shuffle_unshuffle` (Properties3) |
| C18 | proved | `C18_shuffle` (Properties3), `C18_unshuffle` (Properties3), `C18_structured` (Properties3), `C18_sized` (Properties3) |
| C19 | partial | `C19_to_native_partial` (Properties3), `C19_float_refuted` (Properties3) |
| C20 | partial | `C20_decode_partial` (Properties3), `C20_refuted` (Properties3), `C20_exact` (Properties30) |
| C21 | partial | `C21_cached_partial` (Properties4), `C21_cached_right_partial` (Properties4), `C21_exact` (Properties10), `C21_exact_modes` (Properties23), `C21_distinct` (Properties23), `C21_class_exact` (Properties50), `C21_class_distinct` (Properties50) |
| C22 | proved | `C22_cache_invisible` (Properties4) |
| C23 | proved | `C23_bounded` (Properties4), `C23_regular` (Properties4) |
| C24 | proved | `C24_agree` (Properties4), `C24_errors` (Properties4), `C24_exact` (Properties10), `C24_exact_modes` (Properties23), `C24_distinct` (Properties23), `C24_class_exact` (Properties50), `C24_class_distinct` (Properties50) |
| C25 | proved | `C25_schedules` (Properties4), `C25_errors` (Properties4), `C25_race_free_debug` (Properties4), `C25_exact` (Properties10), `C25_exact_modes` (Properties23), `C25_distinct` (Properties23), `C25_class_exact` (Properties50), `C25_class_distinct` (Properties50) |
| C26 | partial | `C26_debug_partial` (Properties4), `C26_safe_partial` (Properties4), `C26_release_refuted` (Properties4), `C26_release_exact` (Properties47) |
| C27 | proved | `C27_too_small` (Properties4) |
| C28 | partial | `C28_values_to_partial` (Properties4), `C28_refuted` (Properties4) |
| C29 | partial | `C29_bytes_partial` (Properties4), `C29_refuted` (Properties4) |
| C30 | proved | `C30_truncated` (Properties4), `C30_prefix` (Properties4), `C30_any` (Properties15), `C30_stream` (Properties15) |
| C31 | proved | `C31_cover` (Properties6), `C31_sorted` (Properties6) |
| C32 | proved | `C32_limits` (Properties6), `C32_maximal` (Properties6) |
| C33 | proved | `C33_agree` (Properties6), `C33_values` (Properties6), `C33_errors` (Properties6), `C33_empty_chunk_refuted` (Properties6) |
| C34 | proved | `C34_fetch` (Properties6), `C34_success_used` (Properties6), `C34_rejected` (Properties6), `C34_no_wrong_data` (Properties6) |
| C35 | partial | `C35_stream_partial` (Properties5), `C35_agrees` (Properties5), `C35_converse` (Properties24), `C35_distinct` (Properties24), `C35_class_distinct` (Properties50) |
| C36 | partial | `C36_xdr_partial` (Properties5), `C36_agrees` (Properties20), `C36_read` (Properties20), `C36_distinct` (Properties28), `C36_class_distinct` (Properties53), `C36_scalar` (Properties35) |
| C37 | partial | `C37_values_partial` (Properties5), `C37_any` (Properties5), `C37_items` (Properties33), `C37_exact` (Properties33), `C37_debug` (Properties33), `C37_release_refuted` (Properties33) |
| C38 | partial | `C38_refuted` (Properties5), `C35_stream_partial` (Properties5) |
| C39 | proved | `C39_dataset` (Properties7), `C39_dataset_any` (Properties7), `C39_indexed` (Properties7), `C39_divisors` (Properties7) |
| C40 | partial | `C40_read_is_typed` (Properties7), `C40_chunk_table` (Properties7), `C40_chunk_table_ok` (Properties7), `C40_truncated` (Properties7), `C40_arrays_lenient` (Properties7), `C40_shape_refuted` (Properties7), `C40_zero_divisor` (Properties7) |
| C41 | proved | `C41_round_trip` (Properties7), `C41_repeated_key` (Properties9), `C41_not_utf8` (Properties7), `C41_truncated` (Properties7), `C41_loaded_is_typed` (Properties7), `C41_terminates` (Properties7), `C41_indexed` (Properties7), `C41_text` (Properties26), `C41_injective` (Properties26) |
| C42 | proved | `C42_every_string` (Properties7), `C42_dataset` (Properties7), `C42_group` (Properties7), `C42_slashes` (Properties7), `C42_nested` (Properties7), `C42_root_refuted` (Properties7), `C42_open` (Properties7) |
| C43 | proved | `C43_exact` (Properties7), `C43_groups` (Properties7), `C43_succeeds` (Properties7) |
| C44 | partial | `C44_selects_partial` (Properties8), `C44_exact` (Properties31), `C44_backward_refuted` (Properties8), `C44_lost_refuted` (Properties8), `C44_surplus_refuted` (Properties8), `C44_unsupported` (Properties8), `C44_single_refuted` (Properties8) |
| C45 | partial | `C45_size` (Properties8), `C45_values_partial` (Properties8), `C45_distinct` (Properties31), `C45_exact` (Properties31), `C45_class_distinct` (Properties52), `C45_class_exact` (Properties52), `C45_empty_refuted` (Properties8) |
| C46 | partial | `C46_valid_partial` (Properties1), `C46_valid_refuted` (Properties1) |
| C47 | partial | `C47_values` (Properties5), `C47_length` (Properties5), `C47_dyn_partial` (Properties9), `C47_dyn_refuted` (Properties5), `C47_distinct` (Properties27), `C47_distinct_direct` (Properties27), `C47_class_distinct` (Properties52), `C47_class_distinct_direct` (Properties52) |
| C48 | partial | `C48_factor_partial` (Properties3), `C48_refuted` (Properties3), `C63_xdr_total` (Properties29), `C48_exact` (Properties33) |
| C49 | proved | `C49_fill` (Properties8), `C49_nan` (Properties8), `C49_type_refuted` (Properties8) |
| C50 | proved | `C50_one_dimension` (Properties2), `C50_last_dimension` (Properties2), `C50_row` (Properties2), `C50_whole_rows` (Properties2), `C50_outer` (Properties2), `C50_contiguous` (Properties2) |
| C51 | proved | `C51_handles` (Properties8), `C51_listing` (Properties8) |
| C52 | partial | `C52_shape_partial` (Properties12), `C52_fill_value` (Properties12), `C52_nan_refuted` (Properties12), `C52_values_partial` (Properties12), `C52_distinct` (Properties31), `C52_class_distinct` (Properties52), `C52_integer_refuted` (Properties12), `C52_variables` (Properties12), `C52_unwritten_refuted` (Properties12) |
| C53 | proved | `C53_other_files` (Properties11), `C53_untouched` (Properties11), `C53_round_trip` (Properties11), `C53_crash` (Properties11), `C53_flexbuffers` (Properties11), `C53_list_exact` (Properties48), `C53_index_exit` (Properties48) |
| C54 | partial | `C54_end_to_end_partial` (Properties13), `C54_values_partial` (Properties13), `C54_size` (Properties13), `C54_exact` (Properties27), `C54_class_exact` (Properties52), `C54_class_values` (Properties78) |
| C55 | proved | `C55_plane` (Properties14), `C55_plane_full` (Properties14), `C55_space_full` (Properties22) |
| C56 | proved | `C56_local` (Properties15), `C56_needed` (Properties18) |
| C57 | partial | `C57_length` (Properties16), `C57_debug` (Properties16), `C57_safe` (Properties16), `C57_release` (Properties55), `C57_release_refuted` (Properties16) |
| C58 | proved | `C58_truncated` (Properties17), `C58_damaged` (Properties17) |
| C59 | proved | `C59_direct` (Properties18), `C59_parallel` (Properties18), `C59_history` (Properties18), `C59_needed` (Properties18), `C59_repeat` (Properties18) |
| C60 | proved | `C60_content` (Properties19), `C60_overlap` (Properties19), `C60_paging` (Properties19) |
| C61 | proved | `C61_limit` (Properties21), `C61_ends` (Properties21), `C61_refines` (Properties21), `C61_cancelled` (Properties21) |
| C62 | proved | `C62_open` (Properties25), `C62_missing` (Properties25), `C62_missing_error` (Properties25), `C62_replaced` (Properties25) |
| C63 | partial | `C63_types` (Properties29), `C63_known` (Properties29), `C63_indexed` (Properties29), `C63_xdr_total` (Properties29), `C63_values_partial` (Properties29), `C63_class_values` (Properties78), `C63_python_refuted` (Properties29), `C63_xdr_refuted` (Properties29) |
| C64 | proved | `C64_filled` (Properties32), `C64_exact` (Properties32), `C64_direct` (Properties32), `C64_par` (Properties32), `C64_dyn` (Properties32), `C64_python` (Properties32), `C64_python_exact` (Properties32) |
| C65 | proved | `C65_guess` (Properties34), `C65_remote_refuted` (Properties34) |
| C66 | proved | `C66_series` (Properties35), `C66_modes` (Properties35), `C66_aligned` (Properties35), `C66_column` (Properties35), `C66_cube` (Properties35), `C66_read` (Properties36), `C66_direct` (Properties36) |
| C67 | proved | `C67_values` (Properties37), `C67_values_par` (Properties37), `C67_outside` (Properties37) |
| C68 | proved | `C68_text` (Properties38), `C68_format` (Properties38), `C68_files` (Properties38), `C68_refuted` (Properties38) |
| C69 | proved | `C69_items` (Properties39), `C69_xdr_items` (Properties39), `C69_missing` (Properties39), `C69_lazy` (Properties39), `C69_bounded` (Properties39), `C69_once` (Properties39) |
| C70 | proved | `C70_history` (Properties40), `C70_scan` (Properties40), `C70_stream` (Properties40), `C70_xdr` (Properties40) |
| C71 | proved | `C71_handle` (Properties41), `C71_everything` (Properties41), `C71_numpy` (Properties41) |
| C72 | proved | `C72_fewest` (Properties42), `C72_debug` (Properties42), `C72_unique` (Properties42), `C72_one` (Properties42), `C72_whole` (Properties42) |
| C73 | proved | `C73_fewest` (Properties43), `C73_attained` (Properties43), `C73_any` (Properties43), `C73_overhead` (Properties43) |
| C74 | proved | `C74_stream` (Properties44), `C74_xdr` (Properties44), `C74_xdr_lazy` (Properties44), `C74_xdr_once` (Properties44), `C74_xdr_refuted` (Properties44) |
| C75 | proved | `C75_full` (Properties45), `C75_one_chunk` (Properties45), `C75_layer` (Properties45), `C75_readers` (Properties45) |
| C76 | proved | `C76_same_completions` (Properties47) |
| C77 | proved | `C77_memory_safe` (Properties48) |
| C78 | proved | `C78_lookup` (Properties51), `C78_group` (Properties51), `C78_open` (Properties51), `C78_python` (Properties51), `C78_saved` (Properties51), `C78_listed` (Properties51), `C78_indexed` (Properties51), `C78_reached` (Properties51), `C78_equivalence` (Properties51), `C78_two_runs` (Properties51) |
| C79 | proved | `C79_rows` (Properties54), `C79_direct` (Properties54), `C79_stream` (Properties54), `C79_s3` (Properties54), `C79_values` (Properties54), `C79_python` (Properties54) |
| C80 | proved | `C80_dataset` (Properties56), `C80_file` (Properties56), `C80_reported` (Properties56), `C80_modes` (Properties56) |
| C81 | proved | `C81_variable` (Properties57), `C81_store` (Properties57) |
| C82 | proved | `C82_variables` (Properties58), `C82_read` (Properties58), `C82_exact` (Properties58) |
| C83 | proved | `C83_output` (Properties59), `C83_same` (Properties59), `C83_repr` (Properties59), `C83_source` (Properties59) |
| C84 | proved | `C84_starts` (Properties60), `C84_release_refuted` (Properties60) |
| C85 | proved | `C85_truncated` (Properties61), `C85_truncated_dataset` (Properties61), `C85_panics` (Properties61), `C85_crash` (Properties61) |
| C86 | proved | `C86_size` (Properties62), `C86_dataset` (Properties62), `C86_file` (Properties62) |
| C87 | proved | `C87_agree` (Properties63), `C87_replaced` (Properties63), `C87_dataset` (Properties63) |
| C88 | proved | `C88_netcdf` (Properties64), `C88_leads` (Properties64), `C88_tidy` (Properties64), `C88_untidy` (Properties64), `C88_dots` (Properties64), `C88_found` (Properties64) |
| C89 | proved | `C89_bytes` (Properties65), `C89_loads` (Properties65), `C89_calls` (Properties65), `C89_progress` (Properties65), `C89_success` (Properties65) |
| C90 | proved | `C90_same` (Properties66), `C90_faults` (Properties66), `C90_right` (Properties66), `C90_ends` (Properties66), `C90_progress` (Properties66) |
| C91 | proved | `C91_recovers` (Properties67), `C91_result` (Properties67), `C91_buffer` (Properties67) |
| C92 | proved | `C92_kept` (Properties68), `C92_torn` (Properties68), `C92_parallel` (Properties68), `C92_needed` (Properties68), `C92_sequential` (Properties68), `C92_append` (Properties68) |
| C93 | proved | `C93_same` (Properties69), `C93_cut` (Properties69), `C93_mixed` (Properties69), `C93_mixed_xdr` (Properties69) |
| C94 | proved | `C94_cached` (Properties70), `C94_direct` (Properties70) |
| C95 | proved | `C95_torn` (Properties71) |
| C96 | proved | `C96_locked` (Properties72), `C96_among` (Properties72) |
| C97 | proved | `C97_acyclic` (Properties73), `C97_cyclic` (Properties73), `C97_paths` (Properties73), `C97_links` (Properties73) |
| C98 | proved | `C98_alone` (Properties74), `C98_plain` (Properties74), `C98_right` (Properties74), `C98_finish` (Properties74), `C98_ends` (Properties74) |
| C99 | proved | `C99_anywhere` (Properties75), `C99_stuck` (Properties75), `C99_none` (Properties75), `C99_s3` (Properties75) |
| C100 | proved | `C100_plain` (Properties76), `C100_failing` (Properties76), `C100_items` (Properties76), `C100_finish` (Properties76), `C100_ends` (Properties76) |
| C101 | proved | `C101_threads` (Properties77), `C101_streams` (Properties77), `C101_xdr` (Properties77), `C101_exact` (Properties77) |
