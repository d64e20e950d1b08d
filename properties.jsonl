{"id": "C01", "title": "Single raster: every cell reads back", "statement": "After encoding a two-dimensional integer raster as a snapshot, reading any cell inside the raster's shape returns exactly the value that was encoded, and the read never panics.", "quantifier": "every raster content (all i64 values, including extremes whose differences overflow), every shape other than 1x1, every branching factor k >= 2, every cell", "why_tests_cant": "The tests use a handful of 8x8/9x9 arrays; the breadth-first index arithmetic must be right for every tree shape (every pattern of pruned subtrees).", "anchors": ["dcdf/src/snapshot.rs: Snapshot::build, Snapshot::get, K2TreeNode::build"]}
{"id": "C02", "title": "Single raster: windows read back exactly", "statement": "Filling a window from an encoded raster writes every cell of the window exactly once, with the value the raster has at that position, and writes nothing else.", "quantifier": "every raster, shape, k, and every non-empty window inside the shape", "why_tests_cant": "Window clipping is recursive; correctness depends on window alignment at every level of the tree, an unbounded number of cases.", "anchors": ["dcdf/src/snapshot.rs: Snapshot::fill_window"]}
{"id": "C03", "title": "Single raster: value search is exact", "statement": "Searching a window of an encoded raster for values in [lower, upper] returns each matching cell exactly once and no other cell.", "quantifier": "every raster, shape, k, window and value range", "why_tests_cant": "Pruning by min/max is only sound if the stored bounds are right for every subtree; tests cannot cover all value layouts.", "anchors": ["dcdf/src/snapshot.rs: Snapshot::search_window"]}
{"id": "C04", "title": "Delta-encoded raster: every cell reads back", "statement": "After encoding a raster as a log relative to a reference raster, reading any cell through the log and the reference's snapshot returns the value that was encoded.", "quantifier": "every pair of rasters of the same shape, every cell", "why_tests_cant": "Two independently pruned trees are walked in lock step; the case split (uniform / constant-difference / both / neither, at different depths) is unbounded.", "anchors": ["dcdf/src/log.rs: Log::build, Log::get"]}
{"id": "C05", "title": "Delta-encoded raster: windows read back exactly", "statement": "Filling a window through a log and its reference snapshot writes every window cell exactly once, with the encoded value.", "quantifier": "every pair of rasters, every non-empty window", "why_tests_cant": "As for single-cell reads, times all window alignments.", "anchors": ["dcdf/src/log.rs: Log::fill_window"]}
{"id": "C06", "title": "Delta-encoded raster: value search is exact", "statement": "Searching a window through a log for values in [lower, upper] returns exactly the cells whose encoded value lies in the range.", "quantifier": "every pair of rasters, window and value range", "why_tests_cant": "The pruning bounds come from adding bounds of two differently pruned trees; tests use one data set where the roots never collapse.", "anchors": ["dcdf/src/log.rs: Log::search_window"]}
{"id": "C07", "title": "Time series: every cell of every instant reads back", "statement": "After encoding a series of rasters as a chunk, get(instant,row,col) returns the original value for every instant, whatever the encoder chose (snapshot or log) and however many instants were given.", "quantifier": "every number of instants (including far more than 254), every data, shape, cell", "why_tests_cant": "The choice snapshot/log depends on compressed sizes, and the 254-log roll-over needs long series; tests have 3 to 100 instants of one pattern.", "anchors": ["dcdf/src/chunk.rs: Chunk::build, Chunk::get", "dcdf/src/block.rs: Block::get"]}
{"id": "C08", "title": "Time series: cell history and window reads agree with the data", "statement": "fill_cell over [start,end) yields the cell's values in order, and fill_window over a cube yields each cell of the cube exactly once with its value.", "quantifier": "every chunk, cell, time interval and window", "why_tests_cant": "Iteration crosses block boundaries at data-dependent places.", "anchors": ["dcdf/src/chunk.rs: Chunk::fill_cell, Chunk::fill_window, Chunk::iter"]}
{"id": "C09", "title": "Time series: value search over a cube is exact", "statement": "Searching a cube of a chunk for values between two bounds (given in either order) yields exactly the (instant,row,col) triples whose value lies in the range.", "quantifier": "every chunk, cube and pair of bounds", "why_tests_cant": "Inherits every raster-level case and adds block boundaries.", "anchors": ["dcdf/src/chunk.rs: Chunk::iter_search"]}
{"id": "C10", "title": "Locating an instant terminates and is right", "statement": "Looking up the block that holds an instant terminates and returns the block and the offset inside it, for any block lengths; an instant past the end is never silently mapped to data.", "quantifier": "every sequence of block lengths, every instant", "why_tests_cant": "Binary search boundary behaviour over all length sequences; a non-terminating probe cannot be found by tests that pass.", "anchors": ["dcdf/src/chunk.rs: Chunk::find_block"]}
{"id": "C11", "title": "Bitmap access and rank", "statement": "A bitmap built by pushing bits returns the i-th pushed bit for get(i) and the number of ones among the first i bits for rank(i); ranks out of range are refused.", "quantifier": "every bit sequence of every length, every position", "why_tests_cant": "The block index, word and leftover-bit boundaries repeat at every multiple of 32 and 128.", "anchors": ["dcdf/src/bitmap.rs: BitMapBuilder::push, finish, BitMap::get, BitMap::rank, rank0"]}
{"id": "C12", "title": "Compressed integer arrays give random access", "statement": "A compressed integer array returns at index i the i-th integer it was built from, for every i64, and uses only as many byte levels as the largest value needs.", "quantifier": "every sequence of i64 values, every index", "why_tests_cant": "Variable-length levels with rank-based chaining: all combinations of lengths.", "anchors": ["dcdf/src/dac.rs: Dac::from, Dac::get, zigzag_encode, zigzag_decode"]}
{"id": "C13", "title": "Serialization round trip", "statement": "Writing any chunk-level object (bitmap, compressed array, snapshot, log, block, chunk) to a stream and reading it back yields an equal object and consumes exactly the bytes written, so objects can be concatenated.", "quantifier": "every object whose fields fit the format's field widths, every trailing byte string", "why_tests_cant": "Needs all field values, including those near the width limits.", "anchors": ["dcdf/src/bitmap.rs", "dcdf/src/dac.rs", "dcdf/src/snapshot.rs", "dcdf/src/log.rs", "dcdf/src/block.rs", "dcdf/src/chunk.rs: Serialize impls", "dcdf/src/extio.rs"]}
{"id": "C14", "title": "Reported size is the serialized size", "statement": "The size an object reports (used for the snapshot/log choice and for cache accounting) equals the number of bytes it serializes to.", "quantifier": "every object of every node type", "why_tests_cant": "Off-by-one bookkeeping shows only by comparing against every serialization.", "anchors": ["dcdf/src/*.rs: Cacheable::size impls"]}
{"id": "C15", "title": "Truncated objects are rejected", "statement": "Reading an object from a proper prefix of its serialization (a torn write) reports an error instead of returning an object.", "quantifier": "every object, every truncation point", "why_tests_cant": "One needs every crash point of every object.", "anchors": ["dcdf/src/extio.rs", "dcdf/src/dac.rs: Dac::read_from", "dcdf/src/bitmap.rs: BitMap::read_from"]}
{"id": "C16", "title": "Fixed-point conversion is lossless when it says so", "statement": "If converting a finite float with b fractional bits and rounding off does not panic, converting back gives the same float; NaN survives; no finite value turns into NaN.", "quantifier": "every f32/f64 value, every fractional bit count", "why_tests_cant": "2^64 values times bit counts; sign and NaN corner cases.", "anchors": ["dcdf/src/fixed.rs: to_fixed, from_fixed"]}
{"id": "C17", "title": "Fixed-point rounding is to nearest", "statement": "With rounding on, the value read back differs from the original by at most half a unit of the chosen precision, for positive and negative values alike.", "quantifier": "every finite float in range, every fractional bit count", "why_tests_cant": "Sign-dependent behaviour and halfway cases over the whole float range.", "anchors": ["dcdf/src/fixed.rs: to_fixed, from_fixed"]}
{"id": "C18", "title": "Suggested precision is sufficient", "statement": "When the precision probe answers 'Precise(b)', every value of the array converts with b bits without loss and without panic.", "quantifier": "every float array (NaN, negative, huge values)", "why_tests_cant": "Depends on the joint content of the array.", "anchors": ["dcdf/src/fixed.rs: suggest_fraction", "dcdf/src/mmbuffer.rs: compute_fractional_bits"]}
{"id": "C19", "title": "Large rasters: reads agree with the data", "statement": "An array stored as a superchunk (tree of chunks) returns for get, cell history, window and search exactly what the original array gives, for any choice of tree levels whose sum fits the side length.", "quantifier": "every array, shape, level list and query", "why_tests_cant": "Combination of elided, shared, nested and ragged sub-arrays is unbounded.", "anchors": ["dcdf/src/superchunk.rs: Superchunk::build, get, fill_cell, fill_window, search, subchunks_for"]}
{"id": "C20", "title": "A window read never hides a failed load", "statement": "If some stored object needed by a window read cannot be loaded, the read returns an error rather than data.", "quantifier": "every store state and every window", "why_tests_cant": "Needs every combination of missing objects.", "anchors": ["dcdf/src/superchunk.rs: Superchunk::fill_window"]}
{"id": "C21", "title": "Concurrent sub-reads do not race", "statement": "The sub-reads a superchunk runs concurrently write to pairwise disjoint parts of the output that together cover it, so the result does not depend on their interleaving.", "quantifier": "every window, every tile size, every schedule of sub-reads", "why_tests_cant": "The output slices alias one buffer through unsafe code; only disjointness for all windows makes it sound.", "anchors": ["dcdf/src/superchunk.rs: subchunks_for, fill_window", "dcdf/src/mmbuffer.rs: slice"]}
{"id": "C22", "title": "Uniform sub-arrays may be elided without loss", "statement": "Replacing a sub-array that is constant at each instant by one stored value per instant never changes what is read back, including NaN cells of float data.", "quantifier": "every sub-array, integer and float", "why_tests_cant": "Depends on NaN placement inside the array.", "anchors": ["dcdf/src/superchunk.rs: build", "dcdf/src/mmbuffer.rs: min_max, min_max_float"]}
{"id": "C23", "title": "Span reads address the right sub-span", "statement": "Reading instant t of a span returns instant t mod stride of sub-span t div stride, and ranges that cross sub-spans are split without gap or overlap.", "quantifier": "every span, stride, instant range", "why_tests_cant": "Boundary alignment of ranges with strides.", "anchors": ["dcdf/src/span.rs: get, fill_cell, fill_window, search, find_span"]}
{"id": "C24", "title": "Appending is concatenation", "statement": "After any sequence of appends to a variable, its array has as many instants as were appended in total and each instant reads back the appended data in order, independently of how the data were split into appends.", "quantifier": "every sequence of batch sizes and contents, every chunk size >= 1 and span size >= 2", "why_tests_cant": "The span tree grows and its tail is rewritten differently for each history of batch sizes.", "anchors": ["dcdf/src/dataset.rs: Dataset::append_*, Variable::append, create_open_span, tail_data, tail_spans, save_spans", "dcdf/src/span.rs: append, update"]}
{"id": "C25", "title": "Appending never panics on well-formed input", "statement": "For data of the variable's shape and any valid configuration accepted by add_variable, append succeeds.", "quantifier": "every history of appends and every configuration", "why_tests_cant": "Some panics need particular tree depths or ragged shapes.", "anchors": ["dcdf/src/dataset.rs: Variable::append", "dcdf/src/span.rs: Span::append", "dcdf/src/superchunk.rs: Superchunk::build"]}
{"id": "C26", "title": "Old versions stay readable", "statement": "A dataset value obtained before an append, and every identifier committed before it, keep returning the same data after any later operations, wherever those operations stop (crash point).", "quantifier": "every session (several datasets and versions in use, calls that fail, earlier crashes), every later operation, every crash point", "why_tests_cant": "Needs all interleavings of appends, commits and failures.", "anchors": ["dcdf/src/dataset.rs: append_*, commit", "dcdf/src/resolver.rs: save", "dcdf/src/mapper.rs"]}
{"id": "C27", "title": "Commit and load round trip", "statement": "Committing a dataset and loading the returned identifier gives a dataset with the same coordinates, variables, shape and previous-version link.", "quantifier": "every dataset whose fields fit the format widths", "why_tests_cant": "Names, counts and levels over their whole ranges.", "anchors": ["dcdf/src/dataset.rs: Node for Dataset, Node for Variable, Serialize for Coordinate"]}
{"id": "C28", "title": "Version chain", "statement": "Following previous-version links from a committed dataset visits every committed ancestor, newest first.", "quantifier": "every history of appends and commits", "why_tests_cant": "Depends on the order of appends, commits and re-loads.", "anchors": ["dcdf/src/dataset.rs: append_*, commit, prev", "dcdf/src/resolver.rs: get_dataset"]}
{"id": "C29", "title": "Cache is transparent", "statement": "Getting an object through the cache returns exactly what loading it from the store returns, for every history of gets.", "quantifier": "every history of keys, any limit, any object sizes", "why_tests_cant": "Eviction order and re-loading depend on the whole history.", "anchors": ["dcdf/src/cache.rs: Cache::get, lookup, load, insert"]}
{"id": "C30", "title": "Cache respects its limit and evicts least recently used first", "statement": "After any history of gets, the sum of sizes of cached objects is at most the limit and equals the recorded size, and objects evicted are always the least recently used ones.", "quantifier": "every history of keys and sizes", "why_tests_cant": "Linked-list surgery over all access orders.", "anchors": ["dcdf/src/cache.rs: Entries::push_most_recent, remove, insert"]}
{"id": "C31", "title": "Concurrent gets load once", "statement": "When several tasks get the same missing object concurrently, the object is loaded once, all tasks obtain it, no task waits forever, and the recorded size stays right.", "quantifier": "every interleaving of any number of tasks", "why_tests_cant": "Interleavings at lock granularity.", "anchors": ["dcdf/src/cache.rs: Cache::load, Loader::finish, Loader::wait"]}
{"id": "C32", "title": "Coordinates: get and slice agree", "statement": "For an in-range index, a coordinate range returns start + index*step; slice(a,b) returns exactly get(a), ..., get(b-1); out-of-range access is refused.", "quantifier": "every range, index and interval", "why_tests_cant": "All starts/steps including negative steps and values near the type limits.", "anchors": ["dcdf/src/range.rs: IntRange, FloatRange", "dcdf/src/time.rs: TimeRange"]}
{"id": "C33", "title": "Rectangles: normalisation and iteration", "statement": "A rectangle or cube given with corners in any order denotes the same region, and iterating it yields each of its cells once and then stops.", "quantifier": "every rectangle including empty ones", "why_tests_cant": "Empty and degenerate rectangles over all sizes.", "anchors": ["dcdf/src/geom.rs: Rect, Cube, RectIter", "dcdf/src/helpers.rs"]}
{"id": "C34", "title": "Array reads are bounds checked", "statement": "get, cell, window and search on an array panic when any part of the request lies outside the array, and never return data of another cell.", "quantifier": "every shape and request", "why_tests_cant": "All out-of-range combinations.", "anchors": ["dcdf/src/mmarray.rs: check_bounds, get, cell, window, search"]}
{"id": "C35", "title": "Content identifiers and strings survive streaming", "statement": "A content identifier or a name written to a stream is read back unchanged.", "quantifier": "every CID (v0 and v1) and every string", "why_tests_cant": "Variable-length encodings over all lengths.", "anchors": ["dcdf/src/extio.rs: read_cid, write_cid, read_str, write_str"]}
{"id": "C36", "title": "Stored objects are self-describing", "statement": "An object saved by the resolver loads only as the node type it was saved as; foreign or other-version bytes are refused; listing a node yields exactly its children.", "quantifier": "every node and every byte string", "why_tests_cant": "All mixes of types and headers.", "anchors": ["dcdf/src/resolver.rs: save, retrieve, get_*, ls", "dcdf/src/node.rs", "dcdf/src/mmstruct.rs"]}
{"id": "C37", "title": "Identical sub-arrays are stored once", "statement": "Saving a superchunk stores each distinct encoded sub-array once, and shared references still read back the right data for each position.", "quantifier": "every array", "why_tests_cant": "Depends on equality patterns among sub-arrays.", "anchors": ["dcdf/src/superchunk.rs: build (deduplication by cid)"]}
{"id": "C38", "title": "Element type conversions are faithful", "statement": "Integers read back through the i32 and i64 interfaces equal those written; the encoding tag stored with an array decides how it may be opened.", "quantifier": "every i32/i64 value, every encoding tag", "why_tests_cant": "Whole value range; mismatched append types.", "anchors": ["dcdf/src/mmbuffer.rs: get, set", "dcdf/src/mmstruct.rs: MMEncoding", "dcdf/src/dataset.rs: append_*"]}
{"id": "C39", "title": "Every variable is reached by its name", "statement": "After variables have been added to a dataset, opening one by name or appending to it by name reaches that variable.", "quantifier": "every sequence of added variables and every choice of names", "why_tests_cant": "Depends on which names are in use already.", "anchors": ["dcdf/src/dataset.rs: add_variable, get_variable, append_*"]}
{"id": "C40", "title": "Appending touches one variable", "statement": "Appending to a variable leaves the coordinates, the shape, the other variables and their data, and the settings of the variable as they were.", "quantifier": "every dataset, data, element type and outcome of the append", "why_tests_cant": "Other variables share the store and the list that is rebuilt.", "anchors": ["dcdf/src/dataset.rs: append_*"]}
{"id": "C41", "title": "Giving up one read does not disturb others", "statement": "If a read is given up before it ends, for instance because another part of the same request failed, all other and later reads of the same objects still return.", "quantifier": "every number of readers, every point at which one is given up, every later schedule", "why_tests_cant": "Depends on the point of cancellation and the interleaving.", "anchors": ["dcdf/src/cache.rs: Cache::load, Loader::finish, Loader::wait", "dcdf/src/span.rs: fill_cell, fill_window"]}
{"id": "C42", "title": "What a listing reaches is enough to read", "statement": "If every object met by listing an identifier, then everything listed, and so on, is present with the same bytes in another store, then everything read from the identifier (datasets, their versions, arrays, searches, listings) gives the same there.", "quantifier": "every session of the library with any calls and crashes, every moment of it, every object in the store, every read of every object met, every copy that has at least those objects", "why_tests_cant": "Whether the listing omits something needed depends on the shape of the whole tree of objects.", "anchors": ["dcdf/src/resolver.rs: ls", "dcdf/src/node.rs: ls", "dcdf/src/superchunk.rs: ls, get_subchunk", "dcdf/src/span.rs: ls", "dcdf/src/links.rs: ls", "dcdf/src/dataset.rs: ls"]}
{"id": "C43", "title": "Indexing a variable in Python is indexing its array", "statement": "v[i, j, k].data, with up to three integers and slices, is what numpy gives for the same index of an array that holds the whole variable: the same shape and the same elements; an index it cannot answer raises.", "quantifier": "every array, every number and combination of integers and slices", "why_tests_cant": "Combinations of omitted, scalar and sliced axes with all bounds.", "anchors": ["py-dcdf/dcdf/__init__.py: Variable.__getitem__, _as_slice", "py-dcdf/src/lib.rs: get, cell, window"]}
{"id": "C44", "title": "Indexing a coordinate in Python is indexing its values", "statement": "c[i] and c[i:j] are what numpy gives for the array of the values start, start + step, ...", "quantifier": "every kind of coordinate, every integer and slice", "why_tests_cant": "All bounds, starts, steps and lengths.", "anchors": ["py-dcdf/dcdf/__init__.py: Coordinate.__getitem__", "py-dcdf/src/lib.rs: get, slice, len"]}
{"id": "C45", "title": "Nothing stored lacks a part", "statement": "However many of the writes of a history reached the store when the process ended, whatever is in the store can be listed and loaded, and so can everything it refers to, directly or not.", "quantifier": "every session: several datasets and versions in use at once, adding variables, appending any data, committing and loading in any order, calls that fail, earlier crashes; every number of writes that took effect", "why_tests_cant": "Depends on the crash point and on the order in which whole trees of objects are written.", "anchors": ["dcdf/src/superchunk.rs: build", "dcdf/src/span.rs: append, update", "dcdf/src/dataset.rs: append_*, commit", "dcdf/src/resolver.rs: save"]}
{"id": "C46", "title": "The same history gives the same identifiers anywhere", "statement": "The same operations give the same objects, in the same order, and the same identifiers of the dataset, whatever else is in the store.", "quantifier": "every session: several datasets and versions in use at once, any data, calls that fail, crashes; every other content of the store that gives no identifier to two objects", "why_tests_cant": "Depends on all that may be in the store already.", "anchors": ["dcdf/src/resolver.rs: save, get_mmstruct", "dcdf/src/dataset.rs: append_*, commit", "dcdf/src/mapper.rs: Mapper"]}
{"id": "C47", "title": "The schedule of reads does not change what is written", "statement": "An append reads the last chunk back with concurrent reads; whatever the order in which they finish, the same objects are written and the same dataset results.", "quantifier": "every session, with any data and any calls, from any content of the store; for every call, every order in which the reads within it make their writes", "why_tests_cant": "Depends on the schedule of an executor.", "anchors": ["dcdf/src/span.rs: fill_window", "dcdf/src/superchunk.rs: fill_window", "dcdf/src/mmbuffer.rs: MMBuffer3", "dcdf/src/dataset.rs: append_*"]}
{"id": "C48", "title": "A window read writes each cell of its answer at most once, and nothing else", "statement": "Whatever is in the store, also damaged or forged objects, the concurrent parts of the read of a window or of a cell write to different places of the answer, all within it; a cell that no part has written is zero.", "quantifier": "every content of the store, every structure, every window and cell, every order of the writes", "why_tests_cant": "The parts share one buffer through unsafe code; overlaps depend on the sizes written in stored objects and on the schedule.", "anchors": ["dcdf/src/mmbuffer.rs: MMBuffer3, slice, set, fill_instant", "dcdf/src/superchunk.rs: fill_window, subchunks_for", "dcdf/src/span.rs: fill_window", "dcdf/src/chunk.rs: fill_window", "dcdf/src/snapshot.rs: fill_window", "dcdf/src/log.rs: fill_window"]}
{"id": "C49", "title": "However an object arrives, the same is read", "statement": "When a mapper delivers the bytes of an object in pieces of any sizes, with waits in between, loading gives the same as from bytes that are there at once. If the transfer breaks off before the object is complete, an I/O error is reported; it is never taken for a shorter object.", "quantifier": "every object, every split into pieces, every wait and every point at which the transfer breaks", "why_tests_cant": "There are exponentially many ways to cut the bytes of one object, and tests use a mapper that has all bytes at once.", "anchors": ["dcdf/src/resolver.rs: Resolver::retrieve", "dcdf/src/extio.rs: ExtendedAsyncRead", "dcdf-ipfs/src/lib.rs: IpfsMapper::load"]}
{"id": "C50", "title": "An object is stored whole or not at all", "statement": "Whatever the sizes in which a writer accepts the bytes of an object, and wherever a write fails, either the complete object is stored under its identifier or the call reports an error and the store is as before.", "quantifier": "every object, every store, every sequence of answers of the writer", "why_tests_cant": "Failures can come at any byte of any object.", "anchors": ["dcdf/src/resolver.rs: Resolver::save", "dcdf/src/mapper.rs: StoreWrite", "dcdf-ipfs/src/lib.rs: IpfsStoreWrite"]}
{"id": "C51", "title": "The IPFS mapper reports missing objects", "statement": "An object that the IPFS node has is loaded as from any other store, and for one that it does not have the error says that it was not found.", "quantifier": "every content of the node, every identifier, every message of the node", "why_tests_cant": "Needs a node that lacks objects; what it answers is up to the node.", "anchors": ["dcdf-ipfs/src/lib.rs: IpfsMapper::load", "dcdf/src/resolver.rs: Resolver::retrieve"]}
{"id": "C52", "title": "Storing instants together never takes more space", "statement": "An array of any number of instants is stored in no more bytes than its instants stored each as an array of one instant; the encoder never loses by putting instants together.", "quantifier": "every array, number of instants, arity of the trees and encoding for which the encoder succeeds", "why_tests_cant": "Whether differences or full snapshots are shorter depends on all the data and on the choices made for the instants before.", "anchors": ["dcdf/src/chunk.rs: Chunk::build, write_to", "dcdf/src/block.rs: Block", "dcdf/src/snapshot.rs: Snapshot::build", "dcdf/src/log.rs: Log::build"]}
{"id": "C53", "title": "A dataset keeps what it was created with", "statement": "At any moment of any session a dataset in use has the coordinates and the shape it was created with, and its variables are those that were added, in this order and with the names, encodings, rounding, sizes and levels then given. Appending, committing, loading, failing calls and crashes change none of it.", "quantifier": "every sequence of calls on any number of datasets and versions, with crashes in between", "why_tests_cant": "Depends on the whole history of the dataset and on what a load makes of the stored bytes.", "anchors": ["dcdf/src/dataset.rs: Dataset::new, add_variable, append_*, commit, load_from, write_to"]}
{"id": "C54", "title": "An identifier stands for one content", "statement": "Objects are saved under the same identifier exactly if they are the same. If an identifier is known in two stores that two sessions of the library have written, everything that can be reached from it is in both and gives the same answers to every read, search and listing.", "quantifier": "every two objects; every two sessions with any calls and crashes, every moment of each, every identifier that both stores have", "why_tests_cant": "Ranges over pairs of histories; tests compare at most a few identifiers of one store.", "anchors": ["dcdf/src/resolver.rs: Resolver::save, retrieve", "dcdf/src/dataset.rs: Dataset::commit", "dcdf/src/node.rs: Node"]}
{"id": "C55", "title": "The same data get the same identifier, however they were appended", "statement": "Take two variables with the same settings (chunk size, span size, levels, type), in the same dataset or in different ones, in one store or in two. If they keep values exactly (integers, or floats without rounding) and their data can be stored, they have the same content identifier if and only if the same instants were appended to them, in total: how the data were split into appends, the commits and reloads in between, the name, the other variables and the order of concurrent reads make no difference. Every object is stored under the hash of its bytes, in every session and wherever its last call stopped.", "quantifier": "all pairs of valid histories and of sessions (with failed calls and crashes), all data, splits, settings and orders of concurrent reads", "why_tests_cant": "a test compares a few splits of one array; the claim is about every split, every tree height, every chunk boundary and every history that leads to the same data", "anchors": ["dcdf/src/dataset.rs: Dataset::append_i32, Dataset::append_f64, Variable::append", "dcdf/src/span.rs: Span::append, Span::update", "dcdf/src/resolver.rs: Resolver::save", "dcdf/src/superchunk.rs: build"]}
{"id": "C56", "title": "Loading copes with any bytes", "statement": "Whatever bytes a store returns for an identifier (damaged, foreign or forged objects), loading it ends, with an object or with an error, and an object is accepted from no other bytes than its own.", "quantifier": "every store, every identifier, every sequence of bytes", "why_tests_cant": "Tests try a few damaged objects; a count or a nesting somewhere in the bytes that makes the loader go on for ever, or a byte that makes it panic, can be anywhere.", "anchors": ["dcdf/src/resolver.rs: Resolver::retrieve, read_header, ls", "dcdf/src/mmstruct.rs: MMStruct3::load_from", "dcdf/src/superchunk.rs: Superchunk::load_from, Reference::read_from", "dcdf/src/extio.rs", "dcdf/src/bitmap.rs: BitMap::read_from", "dcdf/src/links.rs: Links::load_from"]}
{"id": "C57", "title": "Versions share the chunks they have in common", "statement": "If two variables with the same settings that keep values exactly, of one dataset or of different ones or of different versions of a dataset, hold the same values in their first n instants, then every chunk that lies within these instants is one and the same stored object for both. So appending never stores again what is already complete.", "quantifier": "every pair of valid histories or of datasets in use in a session, every configuration, every split into appends, every n and every instant", "why_tests_cant": "Whether an append rewrites an old chunk depends on how lengths, chunk sizes and span sizes fall together; no finite set of histories covers that.", "anchors": ["dcdf/src/dataset.rs: Dataset::append_i32, append_f32", "dcdf/src/span.rs: Span::append, Span::update", "dcdf/src/superchunk.rs: Superchunk::build"]}
{"id": "C58", "title": "A dataset used from Python holds what was put into it", "statement": "For every Python program that creates a dataset from coordinates and a shape, adds variables, appends numpy arrays, commits and loads it again, the resulting dataset has the coordinates, shape and variables asked for, each variable reports the settings and the type it was created with, and indexing a variable (by get_variable or as an attribute) gives what numpy gives for the concatenation of the arrays appended to it.", "quantifier": "all sequences of calls of the Python Dataset class, all arrays and settings that can be stored, all indices within the array", "why_tests_cant": "The Python layer picks one of four typed entry points for every call from type tags that cross the language border as numbers; tests try one program per type.", "anchors": ["py-dcdf/dcdf/__init__.py: Dataset, Variable, Coordinate, MMEncoding", "py-dcdf/src/lib.rs: PyDataset, PyVariable, PyCoordinate", "dcdf/src/dataset.rs: Dataset, Variable"]}
{"id": "C59", "title": "The cache changes no answer", "statement": "Opening a variable's data, get, cell, window and search give the same answers whatever the limit of the cache, whatever sizes it counts, whatever was asked before through the same cache, and whatever the interleaving of concurrent gets: those of the store. Only objects that the read asks for are loaded, and with room for all objects of the store none is loaded twice.", "quantifier": "all sequences of reads of any arrays, with any bounds, through one cache of any limit, while the store grows; all sources of objects that answer as the store does; all schedules of concurrent gets", "why_tests_cant": "Tests run with one cache size and few reads; whether an eviction in the middle of a read, or a get that waits for another, can change an answer depends on all histories of the cache.", "anchors": ["dcdf/src/resolver.rs: Resolver::get_mmstruct3, get_links, check_cache, retrieve", "dcdf/src/cache.rs: Cache::get", "dcdf/src/mmarray.rs: get, cell, window, search", "dcdf/src/mmstruct.rs: MMStruct3::get, fill_cell, fill_window, search", "dcdf/src/superchunk.rs: Superchunk::external", "dcdf/src/span.rs: Span::get, fill_cell, fill_window, search"]}
{"id": "C60", "title": "A read loads only what it needs", "statement": "A window, a cell or a search asks the store only for objects that a get of one of the cells in its bounds asks for. A get of a variable that holds T instants asks for at most one object for each level of its tree of spans, and two for each of its levels of sub-arrays; the tree has no more levels than it needs to hold T instants.", "quantifier": "all stores, damaged or not, all arrays and all bounds with at least one cell; all valid histories of a dataset and all cells", "why_tests_cant": "Tests compare answers, not what was loaded for them, and the bound has to hold for every size of the array and every way in which it was appended.", "anchors": ["dcdf/src/span.rs: Span::get, fill_cell, fill_window, search, find_span", "dcdf/src/superchunk.rs: Superchunk::get, fill_cell, fill_window, search, subchunks_for", "dcdf/src/mmarray.rs: get, cell, window, search", "dcdf/src/dataset.rs: Variable::append_*"]}
{"id": "C61", "title": "A search loads only sub-arrays that can hold a match", "statement": "Searching a window of a variable for values between two bounds asks the resolver only for the spans and chunks of the instants searched and, inside a chunk, for an object only if at one of these instants the object holds a cell that is not above the bounds and a cell that is not below them. When all values are out of the bounds, nothing is loaded but spans and chunks.", "quantifier": "all histories of a dataset with integer variables, all windows and bounds, all stores that hold at least what the history wrote", "why_tests_cant": "Which objects are loaded depends on the minima and maxima recorded for every sub-array at every level of the tree; a test sees only that the answer is right, which it also is when too much is loaded.", "anchors": ["dcdf/src/superchunk.rs: Superchunk::search, Superchunk::build", "dcdf/src/span.rs: Span::search", "dcdf/src/mmarray.rs: search"]}
{"id": "C62", "title": "Programs that share a store do not disturb each other", "statement": "When several programs work at the same time on one store - some extending the same dataset, each in its own way - then, however their loads and saves interleave, each of them ends with the datasets, identifiers and data that it would have had alone, none has to wait for another, and at every moment every object in the store has all its parts there, so that it does no harm if some or all of the programs stop.", "quantifier": "every store left by a session, every number of programs, every list of calls of each, every interleaving of their loads and saves, every moment at which some of them stop", "why_tests_cant": "A test runs a few interleavings of a few calls. Programs on several machines that share a store can interleave at every single object that they load or save, and there are too many interleavings to run even for two short appends.", "anchors": ["dcdf/src/dataset.rs: Dataset::append_i32, Variable::append, Variable::create_open_span, Variable::tail_spans", "dcdf/src/span.rs: Span::append, Span::update", "dcdf/src/superchunk.rs: Superchunk::build", "dcdf/src/resolver.rs: Resolver::save, Resolver::retrieve"]}
{"id": "C63", "title": "Loading an object reserves room in proportion to its bytes", "statement": "Loading an object asks in advance for room for a number of elements (blocks, words, names, links ...) that is at most a constant times the number of bytes of the object, so that objects of a store cannot make a reader run out of memory. Holds whenever the load succeeds; does not hold when it fails, for the counts in the bytes are believed before anything is read.", "quantifier": "all sequences of bytes that a store can return for an identifier; all objects stored by all histories of calls", "why_tests_cant": "room that is reserved and not filled shows in no result; the counts that matter are the ones that no writer of the tests produces", "anchors": ["dcdf/src/bitmap.rs: BitMap::read_from", "dcdf/src/dac.rs: Dac::read_from", "dcdf/src/block.rs: Block::read_from", "dcdf/src/chunk.rs: Chunk::read_from", "dcdf/src/extio.rs: ExtendedAsyncRead::read_str", "dcdf/src/span.rs: Span::load_from", "dcdf/src/superchunk.rs: Superchunk::load_from", "dcdf/src/links.rs: Links::load_from", "dcdf/src/dataset.rs: Dataset::load_from, Variable::load_from", "dcdf/src/resolver.rs: Resolver::retrieve"]}
{"id": "C64", "title": "Encoded arrays are never much larger than the data, and constant data are small", "statement": "However unfavourable the values, an array is encoded in at most 16 bytes per cell of the square that covers its rasters, plus 218 bytes per instant. A raster with a single value takes at most 132 bytes whatever its size, and an instant that repeats the first one takes at most 53 bytes whatever its size, apart from the first instant being stored anew after every 255 instants.", "quantifier": "all arrays, shapes, arities and encodings", "why_tests_cant": "the worst case over all values is not a test case; tests compare a few sizes", "anchors": ["dcdf/src/chunk.rs: Chunk::build, Chunk::write_to", "dcdf/src/snapshot.rs: Snapshot::build, K2TreeNode::build", "dcdf/src/log.rs: Log::build, K2PTreeNode::build", "dcdf/src/dac.rs: From<Vec<I>> for Dac", "dcdf/src/bitmap.rs: BitMapBuilder::finish"]}
{"id": "C65", "title": "An append writes few objects", "statement": "After any valid history, appending an array to a variable writes at most: for each chunk that is added or completed, the objects that the levels of the variable cut it into and its root; for each new span of chunks, two paths through the tree of spans; and one more path. A path has as many objects as the tree needs levels for all instants, so what was there before counts only with its logarithm. Adding a variable and committing write one object each.", "quantifier": "all valid histories of a dataset, all appended arrays, all four types", "why_tests_cant": "the number of objects depends on how the whole history filled the tree of spans; tests only count for the sizes they try", "anchors": ["dcdf/src/dataset.rs: Variable::append, save_spans, create_open_span, tail_spans", "dcdf/src/span.rs: append, update", "dcdf/src/superchunk.rs: build"]}
