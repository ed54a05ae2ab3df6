{"id": "C01", "title": "Range selectors mean what Rust ranges mean", "statement": "Converting an index, a..b, a.., ..b, ..=b, a..=b, .. or a (start,count) pair to a selector and resolving it against a dimension of size n yields a start and a count denoting exactly the index set that the Rust range denotes (a.. and .. being closed by n); reversed ranges denote the empty set; the only inputs that do not resolve are inclusive ranges ending at u64::MAX (panic in debug builds, wrap in release).", "quantifier": "every u64 start/end/count, every dimension size, every selector form, both build modes", "why_tests_cant": "2^64 endpoints per form; the boundary u64::MAX and reversed ranges are exactly what samples miss", "anchors": ["src/extent.rs: From impls for Extent (69-135), Extent::start/count/canonicalise (343-378), Extents::get_start_count (440-445)"]}
{"id": "C02", "title": "Rank mismatch is an error, never garbage and never a panic", "statement": "Resolving a selector with a number of entries different from the dataset's rank returns an error; a matching rank or `..` always resolves, with one (start,count) per dimension and no panic. Reader reads with such a selector return that error with the destination buffer and the reader unchanged.", "quantifier": "every selector, every shape, every buffer", "why_tests_cant": "ranks 0..9 times all selector forms; a test fixes one", "anchors": ["src/extent.rs: Extents::canonicalise, get_counts, get_start_count_sized", "src/reader/cache.rs: read_to", "src/reader/direct.rs: read_to, read_to_par"]}
{"id": "C03", "title": "ndarray slices are converted faithfully or refused", "statement": "Converting an ndarray s![] slice succeeds exactly when every element is a unit-step slice or index with non-negative bounds (no new axis), and then selects the same indices; every other slice is refused with an error.", "quantifier": "every list of SliceInfoElem with every isize start/end/step", "why_tests_cant": "signed 64-bit bounds and all element sequences cannot be enumerated", "anchors": ["src/extent.rs: ndarray_impl (457-506)"]}
{"id": "C04", "title": "Chunk::contains is an exact point-in-box test", "statement": "contains returns Equal exactly for the points of the half-open box [offset, offset+chunk_shape); otherwise Less or Greater according to the first dimension in which the point lies outside the box.", "quantifier": "every chunk offset, chunk shape and point of equal rank (rank unbounded) with no u64 overflow; unequal ranks panic", "why_tests_cant": "all ranks and all u64 coordinates", "anchors": ["src/idx/chunk.rs: Chunk::contains (58-71)"]}
{"id": "C05", "title": "Chunk order is the lexicographic total order on offsets", "statement": "Comparing chunks is a total preorder (reflexive, transitive, total, antisymmetric up to equal offsets) equal to lexicographic comparison of offsets.", "quantifier": "all triples of chunks of the same rank", "why_tests_cant": "order laws quantify over triples of arbitrary values", "anchors": ["src/idx/chunk.rs: Ord for Chunk (152-170)"]}
{"id": "C06", "title": "Chunk equality, hashing and ordering obey Rust's trait contracts", "statement": "Equality is an equivalence and equal chunks hash equally; and comparison says Equal exactly when the chunks are equal, as Ord requires of Eq. (The last part is false of the code: equality compares file addresses, ordering compares offsets.)", "quantifier": "all pairs/triples of chunks", "why_tests_cant": "contract over all pairs", "anchors": ["src/idx/chunk.rs: Hash, Ord, PartialEq for Chunk (146-176)"]}
{"id": "C07", "title": "Chunk/u64 reinterpretation round-trips", "statement": "Viewing a chunk or a slice of chunks as u64 words and viewing the words as chunks again returns the identical chunks, for every rank; word slices whose length is not a multiple of rank+2 are rejected by a panic, all others are accepted and round-trip to the same words.", "quantifier": "every rank, every list of chunks, every word list", "why_tests_cant": "unbounded lists and ranks; the code is unsafe pointer casting", "anchors": ["src/idx/chunk.rs: as_u64s, from_u64s, slice_as_u64s, slice_from_u64s (77-143)"]}
{"id": "C08", "title": "Dataset construction computes row-major strides", "statement": "For every shape and positive chunk shape, the constructed dataset's dimension sizes are the row-major strides of the shape, of the chunk shape, and of the chunk grid (ceiling division), and the element size equals the datatype's size; a zero chunk dimension panics and never yields a dataset.", "quantifier": "every rank, shape and chunk shape whose products fit in u64", "why_tests_cant": "all shapes", "anchors": ["src/idx/dataset/dataset.rs: Dataset::new (167-259)"]}
{"id": "C09", "title": "Indexing yields the complete chunk grid whatever order HDF5 reports chunks in", "statement": "If HDF5 reports distinct, grid-aligned, in-range chunks (in any order), indexing succeeds exactly when every chunk of the grid is reported, and then the indexed chunk table is the full grid in row-major order with each chunk's own address and size; a contiguous dataset becomes the single chunk covering it; missing chunks or unsupported filters give an error.", "quantifier": "every shape/chunk shape and every visiting order (permutation) of every set of chunks", "why_tests_cant": "permutations of unbounded chunk sets", "anchors": ["src/idx/dataset/dataset.rs: Dataset::index (52-165)"]}
{"id": "C10", "title": "Chunk lookup finds the chunk holding an element", "statement": "For every indexed dataset and every in-bounds coordinate, the chunk lookup returns without panic the unique chunk whose box contains the coordinate.", "quantifier": "every dataset with a full grid, every coordinate inside the shape", "why_tests_cant": "all shapes times all coordinates", "anchors": ["src/idx/dataset/dataset.rs: chunk_at_coord (358-371 of the file)"]}
{"id": "C11", "title": "Chunk slices joined together are the requested hyperslab", "statement": "Concatenating the chunk segments produced for a selection visits exactly the selected elements, each once, in row-major order, each at its row-major position inside the chunk containing it.", "quantifier": "every dataset with a full chunk grid, every in-bounds selection, every rank, both build modes", "why_tests_cant": "the iterator carries state across dimensions; the failing combinations are sparse in shape x chunk x selection space", "anchors": ["src/idx/dataset/dataset.rs: chunk_slices, ChunkSlicer::new/next"]}
{"id": "C12", "title": "Slicing terminates", "statement": "Iterating the chunk segments of any selection of any indexed dataset ends after at most as many segments as there are selected elements (or panics); it never loops forever.", "quantifier": "every dataset with a full grid and every selection", "why_tests_cant": "non-termination cannot be observed by a test", "anchors": ["src/idx/dataset/dataset.rs: ChunkSlicer::next (debug message 'stuck indefinitely')"]}
{"id": "C13", "title": "Out-of-bounds and empty selections touch nothing", "statement": "A selection that is empty in some dimension, or whose start+count exceeds the dimension (no u64 overflow), produces no chunk segments and leaves the destination untouched.", "quantifier": "every dataset and every such selection", "why_tests_cant": "all selections", "anchors": ["src/idx/dataset/dataset.rs: chunk_slices (294-306), ChunkSlicer::empty"]}
{"id": "C14", "title": "A successful read returned dataset values", "statement": "If reading a selection succeeds, the returned buffer holds dataset elements. (False of the code for out-of-bounds selections: the read succeeds and the buffer keeps its previous/default contents.)", "quantifier": "every dataset, selection and buffer", "why_tests_cant": "all selections", "anchors": ["src/idx/dataset/dataset.rs: chunk_slices", "src/reader/cache.rs: read_to", "src/reader/dataset.rs: values"]}
{"id": "C15", "title": "Segments are non-empty, inside their chunk, and sum to the selection size", "statement": "Every segment produced has start < end <= number of elements of the chunk, and the segment lengths sum to the number of selected elements.", "quantifier": "every dataset with a full grid and every in-bounds selection", "why_tests_cant": "needed for memory safety of the parallel reader; holds or fails per selection", "anchors": ["src/idx/dataset/dataset.rs: ChunkSlicer::next", "src/reader/direct.rs: read_to_par"]}
{"id": "C16", "title": "Grouped segments tile the destination", "statement": "The grouped segments are a permutation of the segments, ordered by chunk file address, and their destination ranges are pairwise disjoint and tile [0,total) exactly, each where sequential output would put it.", "quantifier": "every list of segments and every address-sorted permutation of it (the sort is unstable)", "why_tests_cant": "all segment lists and all sort outcomes", "anchors": ["src/idx/dataset/dataset.rs: group_chunk_slices (311-357)"]}
{"id": "C17", "title": "Unshuffle inverts shuffle", "statement": "For every word size and every byte buffer that is a whole number of words, unshuffling a shuffled buffer returns it and vice versa, and the structured/sized variants agree with the plain one.", "quantifier": "every word size and every buffer", "why_tests_cant": "unbounded buffers", "anchors": ["src/filters/shuffle.rs"]}
{"id": "C18", "title": "Shuffle filters never touch memory outside their buffers", "statement": "The unchecked loads and stores of shuffle/unshuffle stay inside both buffers for every input that passes the length asserts; the output has the input's length; other inputs panic.", "quantifier": "every pair of buffers and every word size", "why_tests_cant": "undefined behaviour is not observable by tests", "anchors": ["src/filters/shuffle.rs: get_unchecked uses"]}
{"id": "C19", "title": "Byte-order conversion yields the stored number", "statement": "After conversion of values read on any host, each element equals the number whose bytes are stored in the dataset in the dataset's byte order; elements of unknown order are left as they are. (False of the code for floating-point types on big-endian hosts.)", "quantifier": "every element width, value, byte order and host endianness", "why_tests_cant": "all values; no big-endian CI", "anchors": ["src/filters/byteorder.rs"]}
{"id": "C20", "title": "Chunk decoding inverts the HDF5 write pipeline", "statement": "Decoding a stored chunk returns the raw chunk bytes for every pipeline the indexer accepts. (Holds for none, shuffle, deflate, shuffle-then-deflate; false for deflate-then-shuffle, which the indexer accepts because it forgets the filter order.)", "quantifier": "every chunk content, element size, and accepted filter list; every compressor/decompressor pair that round-trips", "why_tests_cant": "all contents and pipelines", "anchors": ["src/reader/chunk.rs: decode_chunk", "src/idx/dataset/dataset.rs: filter loop (57-68)", "src/filters/gzip.rs"]}
{"id": "C21", "title": "Cached reading returns the selected elements", "statement": "Reading a selection with the cached reader writes exactly the selected elements' stored bytes in row-major order to the front of the buffer, leaves the rest of the buffer unchanged, and returns their byte count.", "quantifier": "every file, full-grid dataset, (safe) in-bounds selection, sufficiently large buffer and cache state reachable by earlier reads", "why_tests_cant": "end-to-end over all layouts and histories", "anchors": ["src/reader/cache.rs", "src/reader/chunk.rs"]}
{"id": "C22", "title": "The chunk cache is invisible", "statement": "For any history of reads on any number of readers over an unchanging file, each read returns the same result and bytes as a freshly created reader would, whatever was cached or evicted.", "quantifier": "every operation history and interleaving across readers", "why_tests_cant": "histories are unbounded; eviction order interacts with slice order", "anchors": ["src/reader/cache.rs: read_to", "Cargo.toml: lru (its contract)"]}
{"id": "C23", "title": "The chunk cache is bounded", "statement": "At every point of every history the cached reader holds at most max(1, 32MiB/chunk size) chunks, no chunk twice, hence at most max(32MiB, one chunk) of decoded bytes when stored chunks decode to at most the chunk size.", "quantifier": "every history", "why_tests_cant": "unbounded histories", "anchors": ["src/reader/cache.rs: with_dataset, read_to"]}
{"id": "C24", "title": "The direct reader agrees with the cached reader", "statement": "Direct sequential reads and cached reads of the same selection give the same result and buffer.", "quantifier": "every file, dataset, selection and buffer (where segments are well formed)", "why_tests_cant": "all layouts and all outcomes of the unstable sort", "anchors": ["src/reader/direct.rs: read_to"]}
{"id": "C25", "title": "Parallel reads are schedule independent", "statement": "Under every interleaving of the parallel reader's workers, a parallel read that succeeds leaves the same buffer as a sequential read; workers never write the same byte; if some chunk cannot be read or decoded, every schedule returns an error.", "quantifier": "every interleaving of every number of workers, every selection", "why_tests_cant": "thread schedules", "anchors": ["src/reader/direct.rs: read_to_par"]}
{"id": "C26", "title": "Parallel reads never write outside the caller's buffer", "statement": "The raw pointer copies of the parallel reader stay inside the destination buffer. (Holds when the segments sum to the selection size; false of the code in general: some in-bounds selections make it write past the end of the buffer.)", "quantifier": "every dataset, selection and buffer, both build modes", "why_tests_cant": "memory safety for all inputs", "anchors": ["src/reader/direct.rs: read_to_par (76-90)", "src/idx/dataset/dataset.rs: ChunkSlicer::next"]}
{"id": "C27", "title": "Too-small buffers are refused before anything is written", "statement": "If the destination is shorter than the selection's byte size, every reader returns an error and leaves the destination, and its cache, unchanged.", "quantifier": "every selection, buffer and reader", "why_tests_cant": "all sizes", "anchors": ["src/reader/cache.rs: read_to", "src/reader/direct.rs", "src/reader/s3.rs: read_to_async"]}
{"id": "C28", "title": "Typed reads leave the rest of the buffer alone", "statement": "values_to/values_to_par change only the first count elements of the destination. (False of the code: byte-order conversion is applied to the whole destination, so trailing elements of a longer buffer are byte-swapped.)", "quantifier": "every selection, buffer longer than it, byte order", "why_tests_cant": "needs oversized buffers with foreign byte order", "anchors": ["src/reader/dataset.rs: values_to (46-58), values_to_par"]}
{"id": "C29", "title": "values_to reports the number of values", "statement": "values_to/values_to_par return the number of values read, as documented. (False of the code: they return bytes.)", "quantifier": "every selection and element size", "why_tests_cant": "doc contract for all inputs", "anchors": ["src/reader/dataset.rs: values_to doc comment and body"]}
{"id": "C30", "title": "A truncated file gives an error, not wrong data", "statement": "If some chunk needed by a read extends past the end of the file, the read returns an error in every reader; it never succeeds with other data.", "quantifier": "every file prefix (crash/truncation point) and selection", "why_tests_cant": "every truncation point", "anchors": ["src/reader/chunk.rs: read_chunk_to", "src/reader/cache.rs: read_to", "src/reader/direct.rs: read_to"]}
{"id": "C31", "title": "S3 requests cover every needed chunk exactly once", "statement": "Coalescing produces requests whose byte ranges contain every chunk they carry; all segments of the input appear in the requests exactly once, in order, attached to their chunk; each distinct chunk is carried once; no request is empty.", "quantifier": "every address-sorted list of segments", "why_tests_cant": "unbounded lists; coalescing boundaries", "anchors": ["src/reader/s3.rs: group_requests"]}
{"id": "C32", "title": "S3 requests respect the size and gap limits", "statement": "A request carrying more than one chunk spans at most 8 MiB, and consecutive chunks in it are at most 32 KiB apart and never overlap.", "quantifier": "every address-sorted list of segments", "why_tests_cant": "boundary arithmetic for all addresses", "anchors": ["src/reader/s3.rs: group_requests, COALESCE_GAP, MAX_REQUEST_SZ"]}
{"id": "C33", "title": "S3 reads are independent of response order and agree with local reads", "statement": "For every completion order of the concurrent range requests against a server that honours them, an S3 read gives the same result as a local read of the object.", "quantifier": "every completion order, selection and object", "why_tests_cant": "network schedules", "anchors": ["src/reader/s3.rs: read_to_async"]}
{"id": "C34", "title": "Bad S3 responses are rejected", "statement": "A response is used only if its status is 206, or 200 for a range starting at 0, and it carries at least the requested bytes; every other response makes the read fail with an error instead of wrong data.", "quantifier": "every server behaviour", "why_tests_cant": "arbitrary server responses", "anchors": ["src/reader/s3.rs: fetch (165-189)"]}
{"id": "C35", "title": "Streaming yields the same bytes as reading", "statement": "The concatenation of a stream's items equals the bytes a read of the same selection returns; the first failing chunk ends the stream with exactly one error item after the correct prefix.", "quantifier": "every file, dataset and selection, every cache capacity", "why_tests_cant": "unbounded streams", "anchors": ["src/reader/stream.rs: stream"]}
{"id": "C36", "title": "XDR streaming yields the XDR encoding of the selection", "statement": "The concatenation of an XDR stream is the big-endian encoding of the selected values, with 8/16-bit integers widened to 32 bits preserving value and sign.", "quantifier": "every selection, value, integer width and byte order", "why_tests_cant": "all values and chunkings", "anchors": ["src/reader/stream.rs: stream_xdr", "src/filters/xdr.rs"]}
{"id": "C37", "title": "stream_values agrees with values", "statement": "Flattening the stream of values of a selection gives what values returns for it.", "quantifier": "every selection, type and byte order (aligned allocations)", "why_tests_cant": "all chunkings", "anchors": ["src/reader/dataset.rs: stream_values", "src/reader/stream.rs"]}
{"id": "C38", "title": "stream() is big-endian as documented", "statement": "stream() yields big-endian bytes. (False of the code: bytes are passed through in the dataset's own byte order.)", "quantifier": "every dataset byte order", "why_tests_cant": "doc contract", "anchors": ["src/reader/stream.rs: doc comment line 48"]}
{"id": "C39", "title": "Serialized datasets round-trip", "statement": "Deserializing a serialized dataset (shape, strides, divisors, chunk table, datatype, filters) returns the identical dataset for every rank and chunk table; a divisor array of wrong length is rejected.", "quantifier": "every dataset", "why_tests_cant": "unbounded chunk tables and ranks", "anchors": ["src/idx/serde.rs", "src/idx/dataset/dataset.rs: derive"]}
{"id": "C40", "title": "Malformed serialized arrays are rejected", "statement": "A shape/stride array of the wrong length is rejected at deserialization. (False of the code: it is silently truncated or zero-filled.) Chunk tables of a length that is not a whole number of records never yield a dataset.", "quantifier": "every byte/word array of every length", "why_tests_cant": "all malformed inputs", "anchors": ["src/idx/serde.rs: arr_u64::deserialize, chunks_u64s::deserialize"]}
{"id": "C41", "title": "A serialized index reads back as the same index", "statement": "Serializing a whole index (groups, datasets, path) to the bincode format and deserializing it returns the same index, and consumes exactly the bytes written.", "quantifier": "every index tree", "why_tests_cant": "unbounded trees", "anchors": ["src/idx/index.rs: derive Serialize/Deserialize", "src/bin/hfxidx.rs", "src/bin/hfxlst.rs"]}
{"id": "C42", "title": "Dataset paths resolve through groups", "statement": "dataset(\"g1/.../gn/x\") is dataset x of group g1/.../gn; leading slashes are irrelevant; a path through a missing group, or to a missing dataset, is None; group(p) ignores leading and trailing slashes.", "quantifier": "every index tree and every path string", "why_tests_cant": "all strings", "anchors": ["src/idx/index.rs: dataset, group (131-154)"]}
{"id": "C43", "title": "Indexing a file finds exactly its allocated datasets", "statement": "After indexing, looking up a group path and dataset name succeeds exactly for the allocated datasets of the file's group tree, each with its own index; one dataset that cannot be indexed makes the whole indexing fail.", "quantifier": "every HDF5 group tree", "why_tests_cant": "unbounded trees", "anchors": ["src/idx/index.rs: index_group (96-125)"]}
{"id": "C44", "title": "Python indexing selects what NumPy would", "statement": "ds[k1,...] with unit-step slices/ints selects the elements NumPy basic indexing selects. (Holds for non-negative in-range integers and forward slices; false for negative integers equal to -1, reversed slices, out-of-range ints and surplus indices.)", "quantifier": "every key and shape", "why_tests_cant": "all signed bounds", "anchors": ["src/python.rs: Dataset::__getitem__ (189-234)"]}
{"id": "C45", "title": "Python reads return initialised arrays of the selected size", "statement": "The array returned has exactly as many elements as were selected and all of them were written. (False when some dimension is selected with length 0.)", "quantifier": "every key and shape", "why_tests_cant": "all selections", "anchors": ["src/python.rs: read_py_array (89-124)"]}
{"id": "C46", "title": "valid() detects broken chunk layouts", "statement": "valid() returns Ok(true) only for datasets whose chunk table is a valid layout. (False: it is Ok(true) for every dataset with positive chunk dimensions, and an error as soon as a chunk dimension is 0.)", "quantifier": "every dataset", "why_tests_cant": "all layouts", "anchors": ["src/idx/dataset/dataset.rs: valid (273-283)"]}
{"id": "C47", "title": "Typed reads check the element size", "statement": "values::<T> succeeds only if the dataset's element size is a multiple of T's size, and returns selected-count*element-size/size_of(T) values; otherwise it returns an error without reading.", "quantifier": "every T size, element size, selection", "why_tests_cant": "all combinations", "anchors": ["src/reader/dataset.rs: values, values_par"]}
{"id": "C48", "title": "XDR conversion scales lengths by the XDR factor", "statement": "For every datatype the indexer produces (1,2,4,8 byte integers, 4,8 byte floats, custom), the converted buffer is exactly xdr_factor times as long as the input. (False for sub-32-bit floats, which can be constructed through the API.)", "quantifier": "every datatype and buffer", "why_tests_cant": "all buffers", "anchors": ["src/filters/xdr.rs: xdr_factor, xdr"]}
{"id": "C49", "title": "Fill-value replacement changes exactly the matching elements", "statement": "apply_fill_value replaces each element equal to the condition by the fill value and leaves all others and the length unchanged.", "quantifier": "every array, every element type with decidable equality", "why_tests_cant": "all arrays", "anchors": ["src/python.rs: apply_fill_value_impl"]}
{"id": "C50", "title": "One-dimensional and row-wise reads are always right", "statement": "For one-dimensional datasets, and for selections that do not cover exactly one chunk's extent in the last dimension, segments are correct for every chunk layout and every selection.", "quantifier": "every dataset/selection of that class, both build modes", "why_tests_cant": "all sizes", "anchors": ["src/idx/dataset/dataset.rs: ChunkSlicer::next"]}
{"id": "C51", "title": "Python listing, lookup and handles agree", "statement": "For the index of a file, Index.datasets(group) lists exactly the datasets with storage directly in that group; every listed name is found by Index.dataset(name, group) and the handle gives that dataset; a handle never fails to find its dataset.", "quantifier": "every file (tree of groups and datasets with valid link names), every group path with any leading and trailing slashes", "why_tests_cant": "all trees and paths", "anchors": ["src/python.rs: Index::dataset, Index::datasets, Dataset::dataset (38-87)", "src/idx/index.rs: GroupIndex::dataset, group (131-154)"]}
{"id": "C52", "title": "The xarray backend gives the variables of the file and their values", "statement": "Opening a file (or a group of it) with the xarray backend gives its variables; indexing one with ints and unit-step slices gives, in the shape NumPy prescribes, the values stored in the file, with those equal to _FillValue / missing_value replaced by NaN.", "quantifier": "every file, group, variable, index expression, element type, fill value, thread schedule, both build modes", "why_tests_cant": "all trees, shapes, index expressions and schedules", "anchors": ["python/hidefix/xarray.py: HidefixDataStore.get_variables, HidefixArray (130-197)", "src/python.rs: Index::datasets, Dataset::__getitem__, apply_fill_value"]}
{"id": "C53", "title": "hfxidx writes an index hfxlst lists, and a crash never yields a wrong listing", "statement": "hfxidx changes no file but the output, and not even that if the input cannot be indexed or the format is unknown; after a successful run hfxlst lists the path and the root datasets with storage of the input with their shapes; and stopped at any point (also in the middle of writing), hfxlst on the output either fails or lists exactly that.", "quantifier": "every HDF5 file, output path, format option, set of compiled-in serializers, every point of interruption and every way the bytes are written in pieces", "why_tests_cant": "all crash points", "anchors": ["src/bin/hfxidx.rs: main", "src/bin/hfxlst.rs: main, read_index"]}
{"id": "C54", "title": "End to end: what is read through an index is what the HDF5 file holds", "statement": "Index an HDF5 file, optionally serialize and reload the index, look a dataset up by its path and read a selection with any reader (cached, direct, parallel, stream, S3): the result is, element by element in row-major order, what the file holds at those coordinates according to the HDF5 storage layout and filters; values() gives them in native order; size() is the number of elements.", "quantifier": "every HDF5 file (tree), dataset path, dataset layout (chunked or contiguous, chunks reported in any order), filter pipeline, selection, reader state, thread schedule, S3 server and completion order, both build modes", "why_tests_cant": "all files, selections and schedules", "anchors": ["src/idx/index.rs: Index::index_file, GroupIndex::dataset, reader, streamer", "src/idx/dataset/dataset.rs: Dataset::index, size", "src/reader/cache.rs: read_to", "src/reader/direct.rs: read_to", "src/reader/stream.rs: stream"]}
{"id": "C55", "title": "Which two- and three-dimensional reads are right, in terms of the shapes", "statement": "A read of an in-bounds hyperslab of a two-dimensional dataset, or of all of a three-dimensional one, returns the selected elements for an exactly described set of dataset shapes, chunk shapes, starts and counts: for a full 2-D read, if and only if the chunks are no wider than the dataset, or the dataset has one row, or the chunks are one row high.", "quantifier": "all sizes, chunk sizes and (2-D) selections, both build modes (3-D release builds: twice the dataset plus three chunks below 2^64 elements)", "why_tests_cant": "the wrong cases depend on divisibility and boundary relations between four independent sizes per dimension", "anchors": ["src/idx/dataset/dataset.rs: ChunkSlicer::next", "src/idx/dataset/dataset.rs: Dataset::chunk_slices"]}
{"id": "C56", "title": "A read depends only on the bytes of the dataset's own chunks", "statement": "If two files have the same bytes at the address ranges of the chunks in the dataset's index (whatever else they contain, and whatever their lengths), then every read of every selection has the same result, error or panic, and leaves the same destination: cached reads from any reader state, direct reads, parallel reads under every schedule, and both streams. For a safe selection of a regular dataset it is enough that the files agree on the chunks holding selected elements.", "quantifier": "all datasets (well-formed or not), selections, destinations, files, reader states and schedules, both build modes", "why_tests_cant": "ranges over all files and all interleavings; a stray read outside the chunk ranges shows only for files where the stray bytes matter", "anchors": ["src/reader/cache.rs: CacheReader::read_to", "src/reader/direct.rs: Direct", "src/reader/stream.rs: StreamReader::stream", "src/reader/chunk.rs: read_chunk"]}
{"id": "C57", "title": "A read changes nothing beyond the selection's bytes, also when it fails", "statement": "Whatever a read returns (success, error or panic), the destination keeps its length and no byte after the first (product of the counts) x (element size) bytes changes. (False of the code in release builds: some in-bounds selections make the cached and direct readers overwrite more of a larger buffer than the size they report.)", "quantifier": "every dataset, file (also truncated or corrupt), selection, buffer, reader state and build mode", "why_tests_cant": "depends on every failure point of every layout; a test checks the buffers it thought of", "anchors": ["src/reader/cache.rs: read_to (58-88)", "src/reader/direct.rs: read_to (129-164)", "src/reader/direct.rs: read_to_par"]}
{"id": "C58", "title": "A failed read of a damaged file leaves only old or right elements in the buffer", "statement": "If a file is truncated, or some of its chunks are made unreadable, then after a read - whatever it returns - each element of the destination is what it was before or what a read of the intact file puts there: nothing invented and no element half written. The cached reader leaves a prefix of the intact read followed by the old bytes.", "quantifier": "every dataset with elements of 1, 2, 4 or 8 bytes, every selection, buffer, truncation point or set of damaged chunks, reader state, schedule of the parallel reader, and build mode", "why_tests_cant": "ranges over every crash point of a download or copy and every interleaving", "anchors": ["src/reader/cache.rs: read_to", "src/reader/direct.rs: read_to, read_to_par", "src/reader/chunk.rs: read_chunk"]}
{"id": "C59", "title": "Reads load only the chunks they need, each once", "statement": "The direct reader loads chunks at strictly increasing file addresses, so front to back and none twice; the tasks of the parallel reader load pairwise different chunks. A cached reader of a dataset whose chunks, uncompressed, fit in 32 MiB together loads no chunk twice over any sequence of successful reads. For a safe selection every reader loads only chunks that hold selected elements, and a successful (direct or parallel) read loads all of those; a cached reader, when those fit in 32 MiB, loads each once and needs no file access to read the same selection again, even if the file has changed or gone.", "quantifier": "every dataset (selections safe for the part about needed chunks), sequence of reads, file, buffer and build mode", "why_tests_cant": "the cache and the segment order depend on the whole history of reads and on every layout; results do not show how often a chunk was loaded", "anchors": ["src/reader/cache.rs: CacheReader::read_to", "src/reader/direct.rs: read_to, read_to_par", "src/idx/dataset/dataset.rs: group_chunk_slices"]}
{"id": "C60", "title": "All reads of a file agree with each other, whatever the file holds", "statement": "Each file has one content: a function from coordinates to elements such that every successful read of a safe selection - cached in any state, direct, parallel under any schedule, or over S3, in any build mode - returns exactly the content of the selected elements in row-major order, and a stream yields a prefix of it (all of it unless it ends with an error). So two reads give every element they share the same bytes, and rows read page by page are the rows read at once; the one read succeeds if and only if all pages do.", "quantifier": "every regular dataset with a complete chunk table, every file (well-formed or not), every safe selection, buffer, reader history, schedule and build mode", "why_tests_cant": "ranges over all pairs of selections and all files, also damaged ones for which there is no reference value to compare with", "anchors": ["src/reader/cache.rs: read_to", "src/reader/direct.rs: read_to, read_to_par", "src/reader/stream.rs", "src/reader/s3.rs: read_to"]}
{"id": "C61", "title": "S3 reads: requests in flight, failure and cancellation", "statement": "During an S3 read at most 16 requests are in flight at any time; requests are sent in order and none twice; every run ends (after at most two steps per request), with an outcome of those C33 and C34 describe, and success means that all requests were answered. At every point - in particular where the future is dropped, or where a response fails - each element of the buffer is as it was before or as a local read of the object has it: no element is half written and nothing is invented.", "quantifier": "every dataset with elements of 1, 2, 4 or 8 bytes and without empty chunks, every selection (safe or not) and buffer, every order of completion, every cancellation point, every server that may refuse or cut short any response but sends no wrong bytes, both build modes", "why_tests_cant": "ranges over all completion orders and all points at which a future can be dropped", "anchors": ["src/reader/s3.rs: read_to_async, CONCURRENT_REQUESTS"]}
{"id": "C62", "title": "Readers and the file system: missing, removed and replaced files", "statement": "Opening a cached reader through an index succeeds exactly if the index has a path, the dataset is found and the file can be opened; streamers and parallel readers are made without the file. If the file cannot be opened when a direct, parallel or streaming read of a non-empty selection runs (missing from the start or removed since), the read never succeeds whatever the schedule, the destination stays as it was, and a stream consists of one error. After the file has been replaced (renamed over), a cached reader still gives the values of the file it opened, the other readers those of the new one.", "quantifier": "every index, dataset name, state of the file system at opening and at reading, in-range selection, buffer, schedule, build mode", "why_tests_cant": "ranges over all states of the file system at two times, all schedules and all selections", "anchors": ["src/idx/index.rs: reader, streamer", "src/idx/dataset/any.rs: as_reader, as_streamer, as_par_reader", "src/reader/direct.rs: read_to, read_to_par", "src/reader/stream.rs: stream, stream_xdr"]}
{"id": "C63", "title": "Element types of an index", "statement": "For every element type of an HDF5 file the index records a datatype of the right size and its byte order. Integers of 1, 2, 4 or 8 bytes and 4- or 8-byte IEEE floats stored in the byte order of the indexing host get their class; everything else is a custom type. The XDR conversion succeeds on whole elements of every indexed type, with the length the stream expects, on any host. Numbers are the same numbers whatever byte order they are stored in: for typed reads, for Python and in XDR streams.", "quantifier": "every element type (class, size, byte order, layout), indexing host, reading host, buffer, selection", "why_tests_cant": "ranges over all HDF5 element types, both hosts and all data", "anchors": ["src/idx/dataset/types.rs: From<hdf5::Datatype>", "src/filters/byteorder.rs: From<ByteOrder>", "src/idx/dataset/dataset.rs: index", "src/filters/xdr.rs: xdr, xdr_factor", "src/python.rs: __getitem__"]}
{"id": "C64", "title": "No leftovers of the buffer", "statement": "A successful read of a selection inside the dataset overwrites every byte of the selection's place in the buffer: the result does not depend on what the buffer, or the newly allocated and uninitialised memory of values_dyn_par and of the Python array, held before, even for selections that are read wrongly. A read outside the dataset succeeds without writing anything, and a Python expression with an empty axis returns uninitialised memory: these are the only exceptions.", "quantifier": "every dataset, file, selection, buffer content, memory content, cache history, schedule, index expression, build mode", "why_tests_cant": "ranges over all buffer contents, selections, schedules and index expressions, and over the content of uninitialised memory", "anchors": ["src/reader/cache.rs: read_to", "src/reader/direct.rs: read_to, read_to_par", "src/reader/dataset.rs: values_dyn_par", "src/python.rs: __getitem__, read_py_array", "src/idx/dataset/dataset.rs: ChunkSlicer::next"]}
{"id": "C65", "title": "Which files the xarray backend offers to open", "statement": "guess_can_open never raises and is true exactly for a path given as text (a str or a path object, not bytes) whose last component is a name that is more than dots followed by the extension .nc, .nc4 or .cdf; whatever it accepts, opening does not refuse because of its type. (Remote URLs are accepted too, though they cannot be opened.)", "quantifier": "every Python object passed as a path, every string", "why_tests_cant": "ranges over all strings and path objects", "anchors": ["python/hidefix/xarray.py: HidefixBackendEntrypoint.guess_can_open, HidefixDataStore.open"]}
{"id": "C66", "title": "Time series at a point of a dataset chunked along its first dimension", "statement": "For a dataset chunked along its first dimension only (chunk shape c x 1 x ... x 1), iterating the segments of a series of n elements at one point of the other dimensions visits exactly those elements, in order, if and only if: with overflow checks, every part of the series that lies in one chunk, but the last, has at least as many elements as there are other dimensions; without, more elements than that are left at the start of each such part. So a column of a table is always right, as is a series that starts on a chunk border when chunks are that long; in three dimensions the series goes wrong with one-element chunks, and when it starts on the last element of a chunk (without overflow checks only if just two elements are read). The cached, direct and parallel readers return the series right exactly under these conditions, and otherwise fail: never a wrong value.", "quantifier": "every such dataset, rank, chunk length, start and length of the series, both build modes", "why_tests_cant": "ranges over all ranks, sizes and starts; wrong only at particular alignments", "anchors": ["src/idx/dataset/dataset.rs: Dataset::chunk_slices, ChunkSlicer::next", "src/reader/cache.rs, src/reader/direct.rs: read_to, read_to_par"]}
{"id": "C67", "title": "What the feature `unstable` changes", "statement": "Built with the feature unstable, values and values_par start from memory that was never written instead of zeros. For a selection inside the dataset that changes nothing: they succeed for the same selections and return the same values, whatever the memory held and whatever the schedule. For a non-empty selection past the end of a dimension, where the feature-less build returns zeros, they return the old contents of the memory as the dataset's values, with the cached, the sequential and the parallel reader.", "quantifier": "every dataset the indexer can return, selection, element type, byte order, contents of the fresh memory, schedule, both build modes", "why_tests_cant": "depends on what uninitialised memory happens to hold", "anchors": ["src/reader/dataset.rs: empty_vec, values, values_par"]}
{"id": "C68", "title": "What hfxlst prints says which datasets there are", "statement": "The dataset lines hfxlst prints determine the datasets, their shapes and their order: two listings of names without line breaks and without a space at the end print the same text only if they are the same listing. So if the indexes hfxidx made of two files are listed with the same dataset lines, the two root groups have the same datasets with storage, with the same shapes. For other names it is not so: 'a' and 'a ' print alike, and a name with a line break can print as two datasets. Each line is the name, filled with spaces to 32 characters, a space, and the shape in decimal, in brackets, separated by commas.", "quantifier": "every two listings, all names, shapes of every rank", "why_tests_cant": "ranges over all pairs of listings and all names, including names that look like padding or like shapes", "anchors": ["src/bin/hfxlst.rs: main"]}
{"id": "C69", "title": "Streams are lazy, keep the file they opened and stay within their memory", "statement": "Polling a stream gives, one by one, the items of the file as it was when the stream was first polled (not when it was made), whatever became of the path later; then an error if there is one; then the end, for ever. If the file cannot be opened at the first poll there is one error and then the end, even if the file comes back. Making a stream reads nothing; the k-th poll reads at most one chunk, that of the k-th segment, so a stream dropped after n polls has read at most the chunks of the first n segments. A stream never holds more decoded chunks than fit in 32 MiB (or one), and if the dataset's chunks together fit, it reads none twice.", "quantifier": "every dataset, selection, file, number of polls, and history of the file's path between polls; plain and XDR streams (items)", "why_tests_cant": "ranges over all points at which a consumer stops and all changes of the file between polls", "anchors": ["src/reader/stream.rs: StreamReader::stream, StreamReader::stream_xdr"]}
{"id": "C70", "title": "The cache keeps the most recently used chunks", "statement": "Over any history of successful reads of a cached reader, a chunk is read from the file exactly when it is used for the first time, or when as many different other chunks as fit in 32 MiB (one at least) were used since it was last used; what the reader holds after the history are exactly the chunks for which that is not so. Streams, plain and XDR, follow the same rule. In particular reading a selection twice that uses more chunks than fit, each once, reads every chunk both times, and one whose chunks fit does not read the file the second time (C59).", "quantifier": "every dataset, file, capacity, history of selections and buffers (any length), build mode; for streams every number of polls that give items", "why_tests_cant": "ranges over all histories of uses; eviction shows only after more chunks than fit were used, in a particular order", "anchors": ["src/reader/cache.rs: CacheReader::with_dataset, CacheReader::read_to", "src/reader/stream.rs: StreamReader::stream, StreamReader::stream_xdr"]}
{"id": "C71", "title": "A handle describes the dataset of the file", "statement": "For every dataset an index of a file lists, the Python handle's shape() and chunk_shape() and the Rust accessors are those of the dataset in the file (the chunk shape of an unchunked dataset is its shape), and len(d) is the number of its elements, which is what d[()] selects; from 2^63 elements on it is an OverflowError. It is not NumPy's len, the length of the first axis, unless the other axes have length one (or there are no elements).", "quantifier": "every file tree, group path, dataset, rank and shape, both build modes", "why_tests_cant": "ranges over all trees and shapes; the tests only print one handle", "anchors": ["src/python.rs: Dataset::__len__, shape, chunk_shape, __repr__", "src/idx/dataset/any.rs: DatasetExt for DatasetD, inner", "src/idx/dataset/dataset.rs: Dataset::size"]}
{"id": "C72", "title": "A read copies as few pieces as the layout allows", "statement": "For every selection the chunk iteration supports, the copies (chunk, from, to) it yields are non-empty, no two neighbours could have been one copy, and no list of copies that produces the same elements in the same order is shorter; it is the only such list without empty or joinable copies. A selection one chunk holds in one piece is one copy, and so is a whole unchunked dataset.", "quantifier": "every full dataset and rank, every supported selection, every competing list of copies, both build modes (in debug builds: every selection that is iterated rightly)", "why_tests_cant": "an optimum over all lists of copies, for all shapes and selections", "anchors": ["src/idx/dataset/dataset.rs: ChunkSlicer::next, chunk_slices"]}
{"id": "C73", "title": "S3 reads make as few requests as their limits allow", "statement": "For every supported selection of a dataset whose chunks are not empty and do not overlap, in every state an S3 read can be in (whatever the server answers), it has sent no more range requests than any other set of requests that fetches the chunks holding selected elements, fetches only such chunks, and keeps the limits (at most 32 KiB unneeded between neighbouring chunks, at most 8 MiB for several chunks); the requests of a successful read are such a set. The bytes requested beyond those chunks are at most 32 KiB for each request saved.", "quantifier": "every dataset, selection, server, completion order and moment; every competing set of requests; both build modes", "why_tests_cant": "a minimum over all ways to group chunks, for all layouts of the file and selections", "anchors": ["src/reader/s3.rs: group_requests, S3Reader::read_to_async, COALESCE_GAP, MAX_REQUEST_SZ"]}
{"id": "C74", "title": "Streams use bounded memory, whatever the dataset", "statement": "Between two polls a stream of a dataset keeps at most 32 MiB of decoded chunk data, or one chunk if that is larger, however many chunks and polls there are, whatever the file holds and whatever becomes of its path. An XDR stream keeps at most four (one-byte integers), two (two-byte integers) or one time(s) that - the room is counted before the conversion, and a chunk of 32 MiB of one-byte integers does keep 128 MiB - reads nothing until polled, then at most the one chunk of the segment being polled, and no chunk twice if the decoded chunks fit in 32 MiB.", "quantifier": "every regular dataset, selection, byte order, host, build mode, buffer alignment, file, number of polls and history of the path", "why_tests_cant": "all stream lengths and poll histories; the bound is only reached with chunks of tens of MiB", "anchors": ["src/reader/stream.rs: stream, stream_xdr, CACHE_SZ", "src/filters/xdr.rs: xdr, xdr_factor"]}
{"id": "C75", "title": "Exactly which full reads and which reads of one step are right, for datasets of any rank", "statement": "Reading a whole dataset of any rank, whose chunks span some of the last dimensions (possibly none) and not the dimension d before them, returns the right elements in both build modes if and only if every dimension outside d has one index or chunks one thick, or chunks are shorter than d and, if they span any dimension, neither they nor the last of them is one thick in d. A dataset in one chunk is always read rightly. The same for one index of the first dimension (a time step) with everything inside it.", "quantifier": "every rank, shape, chunk shape, dataset and build mode (release: twice the size plus three chunks below 2^64 elements)", "why_tests_cant": "all ranks and shapes; the boundary depends on divisibility in one dimension and on all outer dimensions together", "anchors": ["src/idx/dataset/dataset.rs: ChunkSlicer", "src/idx/dataset/dataset.rs: Dataset::chunk_slices"]}
{"id": "C76", "title": "Builds with and without debug assertions complete the same reads", "statement": "Reading a selection into a buffer of exactly its size, from a file whose chunks are all readable: if a debug build iterates the selection to its end, then the cached reader (after any earlier reads), the direct reader and every schedule of the parallel reader succeed in both builds with the same bytes; if it does not, the cached and the direct reader panic in both builds, and the parallel reader panics or, in a release build only, writes outside the buffer.", "quantifier": "every full dataset and selection (except single_end selections: count 1 in the last two dimensions with a last chunk dimension of 1), every file with readable chunks, every reader state, every address-sorted order, every schedule of the tasks, both build modes", "why_tests_cant": "release builds compute segments of wrong lengths without noticing; that this is always caught by the copy needs the lengths and the place of every segment, for all shapes and schedules", "anchors": ["src/idx/dataset/dataset.rs: ChunkSlicer", "src/reader/cache.rs: CacheReader::read_to", "src/reader/direct.rs: Direct::read_to, Direct::read_to_par"]}
{"id": "C77", "title": "Whatever an index or a file holds, memory is safe outside the parallel reader of release builds", "statement": "For every dataset there can be (also one loaded from a damaged or hostile index), every file, reader state, selection, buffer and server: loading an index, decoding a chunk, the cached, the direct and the S3 reader, making streams, XDR conversion and typed reads never access memory outside their buffers and never change the length of the caller's buffer, in both builds; neither does the parallel reader in debug builds. Loading an index also always ends.", "quantifier": "every byte string given as an index, every dataset value, file, server, reader state, selection, buffer, sort order and build mode", "why_tests_cant": "all inputs, including those no writer makes", "anchors": ["src/idx/serde.rs", "src/reader/cache.rs: CacheReader::read_to", "src/reader/direct.rs: Direct::read_to", "src/reader/s3.rs", "src/reader/stream.rs", "src/filters/shuffle.rs"]}
{"id": "C78", "title": "The order of hash maps and of group listings is invisible", "statement": "Two indexes with the same entries, whatever the order in which their hash maps list them, find the same dataset (or none) for every path, open the same readers, list the same names, and are saved in the same number of bytes (or neither can be saved); a file whose groups list their members in another order gives an index with the same entries, or cannot be indexed either. So two runs of indexing, saving and loading agree, although the order of every map is random.", "quantifier": "every pair of indexes and of file trees equal up to the order of entries at every level, every path, both build modes", "why_tests_cant": "hash maps are seeded at random: a run shows one order, the property is about all of them", "anchors": ["src/idx/index.rs: GroupIndex, Index", "src/idx/serde.rs", "src/python.rs: Index::datasets", "src/bin/hfxlst.rs"]}
{"id": "C79", "title": "Any selection can be read row by row", "statement": "In both build modes, for every file, every dataset of rank one or more whose chunks are all present and every selection inside it - including the selections a single read answers wrongly, with an error, a panic or not at all - asking for the selection row by row (an index in every dimension but the last, the wanted range in the last) succeeds at every row, and the rows' bytes one after another are exactly the bytes of the selected elements in row-major order. This holds for one cached reader in any state used for all rows, for the direct reader, for parallel reads under every schedule, for streams, for reads from S3 in every order of completion, for typed reads and for indexing from Python.", "quantifier": "all files and datasets, all selections, all reader states, all schedules, both build modes", "why_tests_cant": "the defective selections depend on the shape, the chunk shape and the selection; only a proof shows that no row of any of them is defective whatever was cached before", "anchors": ["src/reader/cache.rs: CacheReader::read_to", "src/reader/direct.rs: Direct::read_to, read_to_par", "src/reader/stream.rs: StreamReader::stream", "src/idx/dataset/dataset.rs: ChunkSlicer::next"]}
{"id": "C80", "title": "Which files can be indexed, and how indexing fails", "statement": "In both build modes and for every HDF5 file as the library describes it (any tree of groups; every dataset with storage chunked or contiguous, sizes within 64 bits): indexing succeeds exactly if every group can be listed and every dataset with storage has at most 9 dimensions, no filter other than shuffle and deflate, and every chunk of its grid written. It panics only if the file has a dataset of more than 9 dimensions, and does panic if that is all that is wrong; otherwise the error says what is wrong with some group or dataset of the file (listing, filter, missing chunks), and if only one kind of thing is wrong it is that one. Builds with and without debug assertions give the same result. Datasets without storage and members that are neither groups nor datasets never matter.", "quantifier": "all group trees, all datasets the library can describe, both build modes", "why_tests_cant": "the trees, ranks, filter lists and sets of written chunks are unbounded; one unsupported dataset anywhere decides the fate of the whole file", "anchors": ["src/idx/index.rs: Index::index, Index::index_file, GroupIndex::index_group", "src/idx/dataset/any.rs: DatasetD::index", "src/idx/dataset/dataset.rs: Dataset::index"]}
{"id": "C81", "title": "The attributes and the encoding of variables opened with xarray", "statement": "For every variable as netCDF4 describes it (any attributes, filter settings, chunking, shape and dtype): opening it through the xarray backend fails (AssertionError) exactly if it has both `_FillValue` and `missing_value` and they differ; otherwise the variable shows exactly the attributes of the file except `_FillValue`, `missing_value` and `least_significant_digit`, with their values; the fill value reads will replace is `_FillValue`, or `missing_value` if there is no `_FillValue`, and none if there is neither; and the encoding holds exactly the filter settings, `contiguous` and `chunksizes` as the variable is chunked, `least_significant_digit` if the file has it, and the source, original shape and dtype. Opening a group succeeds exactly if every dataset the index lists is a variable of netCDF4 without such a conflict, and shows exactly those, in the index's order.", "quantifier": "all variables, all attribute lists and filter settings, all indexes and groups", "why_tests_cant": "attribute dictionaries are unbounded and are mutated while the variable is built; a test sees a few files, not every combination of attributes", "anchors": ["python/hidefix/xarray.py: open_store_variable, get_variables, HidefixArray.__init__"]}
{"id": "C82", "title": "From an HDF5 file to a value in xarray", "statement": "For every HDF5 file and every group of it, opened with the xarray backend: opening succeeds exactly if netCDF4 has a variable without conflicting fill values for each of the group's datasets with storage, and the variables are then exactly these. Indexing one of them with ints other than -1 and non-empty unit-step slices, the selection being one the chunk slicer of the build handles, gives under every schedule the values the file stores for the elements NumPy would select, in row-major order, with those equal to `_FillValue` (or `missing_value` if there is none) replaced by NaN; it fails if that value or NaN is none of the element type. For variables without a missing value whose elements are all distinct, reads are right exactly for these selections and keys.", "quantifier": "all HDF5 files, groups, netCDF4 descriptions, attributes, keys NumPy accepts, schedules, contents of new memory, hosts, and both builds", "why_tests_cant": "ranges over all files, trees of groups, attribute sets, keys and thread schedules", "anchors": ["python/hidefix/xarray.py: HidefixDataStore, HidefixArray", "src/python.rs: Dataset::__getitem__, apply_fill_value", "src/idx/index.rs: Index::index"]}
{"id": "C83", "title": "Everything hfxlst prints, and the texts Python shows of an index and a dataset", "statement": "hfxlst prints the line `Loading index from <argument>..` whatever happens; if the index cannot be read it prints nothing else and fails; otherwise it prints the heading, with the source path in quotes (special characters escaped so that it can be read back and stays on its line), one line per dataset, and succeeds. So the text says everything: two runs that print the same, of arguments without line breaks and indexes with plain dataset names, had the same argument, both or none succeeded, and the source paths, datasets, their order and shapes are the same. After hfxidx has written the index of a file, hfxlst prints that file's path. In Python, repr of two indexes is the same exactly if they have the same path and as many datasets in the root group, and repr of two datasets exactly if they have the same name.", "quantifier": "all arguments, files, source paths (any characters), indexes and names; every combination of compiled-in formats", "why_tests_cant": "ranges over all paths and names, including ones with quotes, backslashes and control characters, and all pairs of indexes", "anchors": ["src/bin/hfxlst.rs: main, read_index", "src/python.rs: Index::__repr__, Dataset::__repr__"]}
{"id": "C84", "title": "With debug assertions every segment starts at a selected element of its chunk, whatever the index says", "statement": "In a build with debug assertions, for any index that can be loaded, right or wrong (chunk table in the wrong order, wrong sizes or strides), every segment chunk_slices produces names a chunk of the dataset, is not empty, ends inside the chunk, and starts at an element that lies both in the selection and in the box of that chunk, at its position by the strides in the index; otherwise the iteration panics. Without debug assertions this is false: with two chunk entries exchanged a debug build stops and a release build takes element (0, 2) for element (1, 0).", "quantifier": "all dataset values a program can hold, of any rank, well-formed or not, all selections and every segment of the iteration", "why_tests_cant": "ranges over all indexes, including inconsistent ones that no test file produces", "anchors": ["src/idx/dataset/dataset.rs: Dataset::chunk_slices, Dataset::chunk_at_coord, ChunkSlicer::next", "src/idx/chunk.rs: Chunk::contains"]}
{"id": "C85", "title": "A cut-off index is an error, not a panic, and what makes the loader panic", "statement": "Loading what is left of a bincode index cut at any byte gives an error: never an index and never a panic; the same for one dataset. So at every point of a run of hfxidx, also after a crash or a failed write, hfxlst of the output either lists the input or fails with an error. On arbitrary bytes the loader of a dataset panics in exactly two cases: the chunk table is not a whole number of entries, or one of the divisors (as many as dimensions) is zero.", "quantifier": "all indexes and datasets, every cut, every state of every run of hfxidx, and all byte strings", "why_tests_cant": "ranges over all indexes, all cut and crash points and all byte strings", "anchors": ["src/idx/serde.rs: sr_u64, arr_u64, chunks_u64s", "src/idx/index.rs: Index", "src/bin/hfxidx.rs: main", "src/bin/hfxlst.rs: main"]}
{"id": "C86", "title": "How large an index is", "statement": "The bincode index of a file has, to the byte, the size of its parts: 16 + 8 x rank bytes for each chunk, 86 + 48 x rank (and one if deflated) for each dataset that has storage, 8 bytes and its characters for each name, and 17 bytes (25 and its characters with a path) for each group, which repeats the path of the file; the size of the data, the chunks, the types and the order of the members do not matter, and members without storage add nothing.", "quantifier": "all indexes, and all HDF5 trees that can be indexed, of any depth, with any names and numbers of chunks; both build profiles", "why_tests_cant": "ranges over all indexes and files", "anchors": ["src/idx/index.rs: Index, GroupIndex", "src/idx/dataset/dataset.rs: Dataset", "src/idx/serde.rs: chunks_u64s, arr_u64, sr_u64", "src/idx/dataset/any.rs: DatasetD"]}
{"id": "C87", "title": "The ways to make an index", "statement": "Index::index of a path, TryFrom<&Path>, Index(p) in Python, index() of an open HDF5 file and index() of an open netCDF file give the same index, or the same failure, while the name stands for the same file. If the file is replaced or removed after it was opened, the index of the open HDF5 file is that of the old contents, while that of an open netCDF file is made from whatever has the name now (or fails); readers and streamers of an index open the file by the stored name at the time, in every group. index() of one open dataset gives what the index of its file has at the path of the dataset; of a dataset without storage, which the index of the file leaves out, it gives an error.", "quantifier": "all file systems before and after, all names, files, trees of groups and datasets, both build profiles", "why_tests_cant": "ranges over all files and all ways they change between opening, indexing and reading", "anchors": ["src/idx.rs: IntoIndex", "src/idx/index.rs: Index::index, TryFrom<&Path>, TryFrom<&hdf5::File>, TryFrom<&netcdf::File>, GroupIndex::reader, GroupIndex::streamer", "src/python.rs: Index::new"]}
{"id": "C88", "title": "The group an xarray dataset is opened with", "statement": "When xarray opens a group of a file with the hidefix engine, attributes and dimensions come from the group netCDF4 finds by the string given and the variables from the group the index finds by it. netCDF4 finds the group at the path of the non-empty pieces of the string, however many slashes are between them, \".\" staying and \"..\" going back by one. If the string has slashes only at its ends and single ones in between, the variables are exactly the datasets with storage of the group netCDF4 found; with any other string (\"a//b\", \"./a\", \"a/../b\") the dataset opens but silently has no variables. Whatever string the index finds a group by, netCDF4 finds the same group.", "quantifier": "all files, all trees of groups with any names, all strings given as group, both build profiles", "why_tests_cant": "ranges over all files and all spellings of a group; the repository's test has one file and four spellings", "anchors": ["python/hidefix/xarray.py: HidefixDataStore.__init__, HidefixDataStore.get_variables", "src/python.rs: Index::datasets", "src/idx/index.rs: GroupIndex::group"]}
{"id": "C89", "title": "Short reads, interrupted system calls and file positions are invisible", "statement": "Any number of readers and workers read the file at once, each with a descriptor of its own, while the operating system may answer every read with fewer bytes than asked for, interrupt it, or order the calls of different workers in any way: each chunk loaded is exactly the bytes at its address and size; a worker stops early only for a chunk that is not inside the file, an address no file has (2^63 or more) or a failure of the operating system. The calls that are not interrupted are at most a seek, one read per byte and a return per chunk, and a worker that is not finished always has one to make.", "quantifier": "all files, all numbers of workers and lists of chunks, all interleavings of system calls, all lengths of short reads and all interruptions", "why_tests_cant": "ranges over all interleavings and all answers of the operating system", "anchors": ["src/reader/chunk.rs: read_chunk_to", "src/reader/direct.rs: Direct::read_to_par, Direct::read_to", "src/reader/cache.rs: CacheReader::read_to", "src/reader/stream.rs: StreamReader::stream"]}
{"id": "C90", "title": "Parallel reads are right down to their system calls", "statement": "In a parallel read every chunk is loaded by a seek and as many reads as the operating system needs, and these calls interleave with those of the other threads and with their copying, byte by byte. Without failing calls the possible outcomes are exactly those of a parallel read in which a chunk is loaded at once. If any call may fail, a read that succeeds still has the result and the buffer of the sequential read; if the sequential read succeeds and no call fails, the parallel one succeeds with the same buffer. Every run has a bounded number of steps that are not interrupted calls, and until a task has ended it can go on without waiting for another.", "quantifier": "all files, datasets, selections, buffers, both build profiles, all interleavings of system calls and copies, all short reads, interruptions and failures", "why_tests_cant": "ranges over all interleavings of the system calls of all threads", "anchors": ["src/reader/direct.rs: ParReader::read_to_par", "src/reader/chunk.rs: read_chunk_to"]}
{"id": "C91", "title": "Reads while calls fail", "statement": "If loads of chunks fail for reasons outside the program (a disk or network that fails at times, a file that cannot be opened), then: the read returns what it would have returned had none failed, or an I/O error (Err), never a wrong success; whatever it returns, each element of the caller's buffer is as it was or as a complete read would have left it, none invented and none half written (the cached reader writes a prefix); and afterwards the same cached reader reads like a new one: nothing of a failed load stays in its cache. The same holds for the buffer of a parallel read of which any system calls fail, under any schedule.", "quantifier": "all build modes, decompressors, address sorts, datasets (elements of 1, 2, 4 or 8 bytes for the buffer), selections, buffers, patterns of failing loads, histories of reads with failures, and schedules of the parallel read's system calls", "why_tests_cant": "tests read files that can be read; which of the loads fails, and when, is not something they can enumerate, and a cache that keeps a failed load shows only in a later read", "anchors": ["src/reader/cache.rs: CacheReader::read_to", "src/reader/direct.rs: Direct::read_to, Direct::read_to_par", "src/reader/chunk.rs: read_chunk, read_chunk_to"]}
{"id": "C92", "title": "Reading a file that is being written", "statement": "Nothing is locked while a read runs, so other processes may write the file between any two of its system calls. If they leave the bytes of the chunks the read loads alone (appending datasets, writing other datasets, other chunks, or metadata), the read has exactly the outcomes it has on the file as it was when it began: sequential and parallel, over any history of reads of a cached reader, with or without failing calls; for safe selections only the chunks with a selected element matter. If they do write to a chunk while it is loaded, the chunk still has its size, and each of its bytes was in the file at its place at some time during the read (it may be half old and half new: nothing detects that).", "quantifier": "all interleavings of the writes of other processes with the system calls and copies of any number of readers and threads, all contents of the file in between, all short, interrupted and failing calls, datasets, selections, buffers and both build modes", "why_tests_cant": "ranges over all interleavings with another process", "anchors": ["src/reader/chunk.rs: read_chunk_to, read_chunk", "src/reader/direct.rs: ParReader::read_to_par, Direct::read_to", "src/reader/cache.rs: CacheReader::read_to"]}
{"id": "C93", "title": "Streams of a failing or changing file", "statement": "A stream opens the file once and loads chunks as its items are asked for, so calls can fail, and other processes can write the file, between any two of its items. If they leave the dataset's chunks alone and no call fails, the stream (plain and XDR) is exactly that of the file as it was when the reader was made. If a call fails, the stream gives a prefix of those items, each complete and right, and then an I/O error as its last item: never a wrong, missing or empty item, and never a silent early end; if the open fails there is that error alone. If the chunks themselves are written between the loads and every version could be streamed, the stream has the same number of items, and each is the item at its place in the stream of one of the versions.", "quantifier": "all contents of the file at every load, all patterns of failing opens and loads, all datasets, chunk maps, extents, cache capacities, filters, hosts and both build modes", "why_tests_cant": "ranges over all failures and all writes of other processes between the items", "anchors": ["src/reader/stream.rs: StreamReader::stream, StreamReader::stream_xdr", "src/reader/chunk.rs: read_chunk"]}
{"id": "C94", "title": "Reads of a dataset that is overwritten meanwhile", "statement": "If another process overwrites the chunks of a dataset between the loads of a sequential read (each load itself undisturbed), in such a way that the selection could be read from each version of the file alone, then the read succeeds with the same result, and every byte of its output is as in the output for one of the versions; if the selection is safe, every element is (a whole element, never halves of two). So an element that is the same in all versions is read right. A cached reader may serve elements from any version the file had since the reader was made, not only during the read; a direct reader only from those during the read.", "quantifier": "all sets of versions of the file, all sequences of versions met by the loads, all histories of the cached reader, datasets, selections, buffers, cache sizes and both build modes", "why_tests_cant": "ranges over all sets of versions and when they are met", "anchors": ["src/reader/cache.rs: CacheReader::read_to", "src/reader/direct.rs: Direct::read_to", "src/reader/chunk.rs: read_chunk"]}
{"id": "C95", "title": "Parallel reads of a dataset that is overwritten during the read", "statement": "If other processes overwrite an unfiltered dataset in any way, at any moment between the system calls of a parallel read, in such a way that the selection could be read from each version of the file alone, then the read ends with the same result or with an error, and the buffer keeps its size. Every byte of it is what it was before or is as in the output for one of the versions; if the read succeeds, every byte is as in the output for one of the versions. It fails only if a system call does. Elements may be torn (first byte old, second new), so no more can be said.", "quantifier": "all sets of versions of the file, all schedules of system calls, writes of other processes and copies, all unfiltered datasets, selections, buffers and both build modes", "why_tests_cant": "ranges over all interleavings of threads and other processes", "anchors": ["src/reader/direct.rs: ParReader::read_to_par", "src/reader/chunk.rs: read_chunk_to"]}
{"id": "C96", "title": "Parallel reads and writers that honour locks", "statement": "If other processes overwrite a dataset (compressed or not) while a parallel read runs, but never a chunk from when a thread is about to read it to when it has, in such a way that the selection could be read from each version of the file alone, then no chunk is torn: the read ends with the same result or with an error, the latter only if a system call fails; every byte of the buffer is what it was or as in the output for one of the versions. If it succeeds, every byte is as in the output for one of the versions, and every element is, if the selection is safe.", "quantifier": "all sets of versions of the file, all schedules of system calls, writes of other processes that spare the chunks being read, and copies, all datasets, selections, buffers and both build modes", "why_tests_cant": "ranges over all interleavings of threads and other processes", "anchors": ["src/reader/direct.rs: ParReader::read_to_par", "src/reader/chunk.rs: read_chunk_to"]}
{"id": "C97", "title": "Link cycles, and objects with several links", "statement": "Indexing a file ends, with calls nested no deeper than the file has objects and one, if no group contains itself, directly or through others; then a file in which objects have several (hard or soft) links is indexed as the tree one sees from its root: a path finds a dataset in the index exactly if the links of the path lead to it and it has storage, and all paths that lead to one dataset find the same. If some group that can be reached contains itself, indexing never succeeds: unless something else makes it fail before, the calls nest without end (in practice the stack overflows).", "quantifier": "all link graphs, of any size and depth, all paths, and both build modes", "why_tests_cant": "ranges over all link graphs, and the other part is about a run that does not end", "anchors": ["src/idx/index.rs: GroupIndex::index_group", "src/idx/index.rs: Index::index_file", "src/idx/index.rs: GroupIndex::dataset"]}
{"id": "C98", "title": "Concurrent readers do not disturb each other, down to their system calls", "statement": "Any number of threads read at once, each making read after read with a reader of its own (a cached reader with its descriptor and cache, a direct reader, or a direct reader in parallel), on any files and datasets. Whatever system calls are short, interrupted or fail, and however the calls and the other steps of the threads interleave, each thread's sequence of reads is one it could have made alone: without failing calls exactly the sequential reads of its reader (for a parallel one, an outcome of its own schedules). A read that succeeds, in whatever run, has the result and the buffer that a direct reader alone gives for the selection, so all successful reads of a selection of one dataset agree. No thread waits for another: from any point each can finish its read, or make any other, by steps of its own; and every read ends after a bounded number of steps that are not interrupted calls.", "quantifier": "all numbers of threads, all files, datasets, sequences of selections and buffers, all interleavings of system calls and other steps, all short reads, interruptions and failures, and both build modes", "why_tests_cant": "ranges over all interleavings of the steps of all threads and all answers of the operating system", "anchors": ["src/reader/cache.rs: CacheReader::read_to", "src/reader/direct.rs: Direct::read_to, Direct::read_to_par", "src/reader/chunk.rs: read_chunk_to", "examples/read_hfx_concurrent.rs", "benches/concurrency.rs"]}
{"id": "C99", "title": "Streams and S3 reads in the runtimes they are called from", "statement": "A stream is polled from various places: outside of any runtime, on a worker of a multi-threaded runtime, in a LocalSet, or on a current-thread runtime, each poll from its own. If no poll that must read a chunk present in the file is made on a current-thread runtime or in a LocalSet, the polls give exactly what they give anywhere else (C69): polls served from the stream's cache, the end, and reads that fail are the same everywhere. Otherwise the polls before the first such poll are right, and that poll and all after it panic. A stream polled only in such places never gives an item. A read of an S3 reader has the same outcomes from all of them, except in a LocalSet of a multi-threaded runtime, where it panics before writing anything.", "quantifier": "all datasets, files, selections, sequences of polls with the file at the path and the place of each, plain and XDR streams, all S3 readers and buffers, and both build modes", "why_tests_cant": "ranges over all sequences of polls and the runtimes they are made in", "anchors": ["src/reader/chunk.rs: read_chunk", "src/reader/stream.rs: StreamReader::stream, StreamReader::stream_xdr", "src/reader/s3.rs: block_on, S3Reader::read_to"]}
{"id": "C100", "title": "Many streams at once, down to their system calls, of a file that is replaced", "statement": "Any number of streams (plain or XDR, of any datasets and selections) of files at one path are polled at once, while the file at the path is replaced, removed or created at any time. Without failing calls every stream's polls return exactly what they return when each is one step (C69), with the file at the path when each began, whatever system calls are short or interrupted and however the calls of the streams interleave. If opens, seeks and reads may fail, that holds up to the first poll in which one of the stream's own calls fails: that poll gives the error and all later ones the end. In whatever run the items a stream has given are the first ones of the stream of the file it opened, and all of them once it has ended without an error. No stream waits for another: a poll under way can return, and any other stream can be polled, by steps of its own; and every poll ends after a bounded number of steps that are not interrupted calls.", "quantifier": "all numbers of streams, all datasets, selections, files, replacements of the file, interleavings of system calls, short reads, interruptions and failures, and both build modes", "why_tests_cant": "ranges over all interleavings of the polls' steps, all replacements of the file and all answers of the operating system", "anchors": ["src/reader/stream.rs: StreamReader::stream, StreamReader::stream_xdr", "src/reader/chunk.rs: read_chunk, read_chunk_to"]}
{"id": "C101", "title": "From an HDF5 file to any number of threads and streams", "statement": "An HDF5 file is indexed (and the index perhaps serialised and loaded), and any number of threads, with cached, direct and parallel readers, and any number of streams read its dataset by that index, interleaved in any way at the system calls, while calls may be short, be interrupted or fail and the path may be replaced. Every read of a selection of the class for which the slicer is right gives the elements the file stores; only if calls may fail may a read fail, and then each element of its buffer is the file's or the old one. The bytes a stream (plain, or XDR of numbers of known byte order) has given that opened the file are the first ones of the selection's elements (in XDR form), and all of them once it has ended without an error. Of no other selections: if the elements of the file all differ, a successful read gives them, and a stream that ended without an error has given them, if and only if the selection is of that class.", "quantifier": "all HDF5 files with a dataset stored in supported chunks, all selections the slicer is right for, all numbers of threads and streams, interleavings, failures and replacements, and both build modes", "why_tests_cant": "ranges over all files, selections, interleavings of threads and streams and answers of the operating system", "anchors": ["src/idx/index.rs: Index::index_file", "src/idx/dataset/dataset.rs: Dataset::index", "src/reader/cache.rs: CacheReader::read_to", "src/reader/direct.rs: Direct::read_to, Direct::read_to_par", "src/reader/stream.rs: StreamReader::stream"]}
