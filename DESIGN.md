# Formal model of Arbol-Project/dcdf in Rocq (Coq 8.16.1)

Layout: `rocq/theories/*.v`. For each part of the code there is a `*Model.v`
(executable definitions, each citing the Rust lines it models), a `*Proofs.v`
(lemmas), and the property theorems live in `Properties*.v`, each closed by
`exact <lemma>` and followed by `Print Assumptions`.  `Spec.v` holds the small
independent specifications (what a window is, what a search result is, ...).

## 1. Conventions of the model

* `res A = Ok a | Err e | Panic | Diverge`. `Panic` models every Rust panic
  (index out of bounds, `unwrap` on `None`, assertion, `usize` underflow,
  division by zero).  `Diverge` is returned only when a fuelled loop runs out
  of fuel; theorems state an `Ok` result, so they exclude it.
* `usize` values are `nat` (no upper bound); subtractions that can underflow are
  checked and yield `Panic`.  Release builds would wrap instead; the theorems
  that state `Ok` are not affected.
* `i64` values are `Z` with explicit wrap-around modulo 2^64 (release profile).
  In a debug build overflowing `i64` subtraction panics instead; this profile is not
  modelled except where a theorem says so.
* `u8/u32/u64` are `N` with explicit truncation where the code truncates (`as u8`, `as u32`).
* `sidelen.log(k).ceil()` on `f64` is modelled by the least `e` with
  `n <= k^e`; core theorems only need *some* `e` with `rows,cols <= k^e`.
* Callbacks `set(row,col,value)` are modelled by the list of calls made, in order.
* async/await: sequential composition, except where a property is about
  schedules (cache, concurrent window fill), which have their own
  transition-system models.
* A store is the list of the objects written, oldest first. A crash keeps any number of the
  first ones: it is assumed that the mapper makes writes durable in the order of the calls of `save`.
* A session (SessionModel) is a list of actions: create a dataset, load one, call a method of any
  dataset in use, crash. It is what C24, C25, C26 and C45 are stated about in their widest form.
* `Variable::append` builds each new chunk with the operation `super_op`, which writes to the
  store one object at a time as the code does; `super_build` (SuperModel) gives the same objects at
  once, and AppendProofs shows that they agree.
* A CID is modelled as data; hashing is a parameter `cid_of : bytes -> cid`;
  collision freedom is an explicit premise of the theorems that need it.

## 2. Plan per property

| id | model | proof |
|----|-------|-------|
| C01-C03 | BitMap, Dac, K2 tree builder, breadth-first encoder, get / fill_window / search_window of `snapshot.rs` | breadth-first order equation `V = root :: flat_map kids V` gives child positions; induction over tree height; windows and search as permutations of the spec list |
| C04-C06 | `log.rs` likewise | simultaneous induction over both trees; C06 is expected false when a root is collapsed: `_refuted` witness + `_partial` theorem under the exact side condition |
| C07-C09 | `block.rs`, `chunk.rs` | invariant of the build loop (blocks partition the instants), find_block correctness; C09 inherits C06's side condition |
| C10 | `find_block` with fuel | loop invariant; refutation for instants past the end |
| C11, C12 | `bitmap.rs`, `dac.rs` | induction over pushes, word arithmetic lemmas |
| C13-C15 | all `Serialize` impls over byte lists | parser/printer round trip; length equations; truncation (expected false for trailing DAC bytes) |
| C16-C18 | `fixed.rs` over Flocq binary floats (or exact dyadics) | real-number error bounds; refutations for negative values |
| C19-C22, C37 | `superchunk.rs`, `mmbuffer.rs`, `mmstruct.rs` over a content store | structural induction over level list; tiling lemma; refutation for swallowed errors and NaN elision |
| C23-C28 | `span.rs`, `dataset.rs`, `resolver.rs` over a content store | span-tree representation invariant preserved by append; store monotonicity |
| C29-C31 | `cache.rs` sequential state machine refined to an LRU list; lock-granularity transition system for concurrency | invariants over histories / interleavings; refutation of single load |
| C32, C33 | `range.rs`, `time.rs`, `geom.rs`, `helpers.rs` | induction |
| C34 | `mmarray.rs` bounds checks | case analysis |
| C35, C36 | `extio.rs` CID/str, `resolver.rs` headers | round trips |
| C38 | `mmbuffer.rs` conversions | arithmetic |
| C39, C40 | `dataset.rs` look-up by name and replacement of one variable | case analysis over the list of variables |
| C41 | `cache.rs` with tasks dropped at any await | transition system extended with drops; refutation; weakened invariant for what the other keys still get; on one thread, the exact condition under which a run panics |
| C42 | `resolver.rs`, `node.rs` (`ls`), reads | set of identifiers reached by listing; reads in two stores that agree on it, by induction on the depth of the tree; histories keep a store of plain objects |
| C43, C44 | `__getitem__` of the Python package, over the models of reads and coordinates; what numpy's indexing means, as a specification | case analysis over indices, on top of C19 and C32 |
| C45 | the order of the writes of `append_*`, `commit` and `build`, each write appending to the store | an order "children first" kept by every operation (induction over histories and trees); a prefix of such a store is one |
| C26, C45, second round | sessions | an invariant of the store and of every dataset in use that does not ask that the data were kept faithfully, preserved by every call whether or not it succeeds |
| C46 | the same, in two stores | each operation reads only what it or the history wrote before; composition of operations with this frame property |
| C47 | the order of the reads within an append is a parameter of the model | writes to different places commute, so every permutation gives the same array; induction over histories |
| C46, second round | sessions, in an empty store and behind other objects | a frame property of every operation, also of those that fail: what it reads it finds among the objects of the session |
| C47, second round; C48 | the calls that window and cell reads make on their buffers, for any store | induction over the recursion on quadrants: each part writes within its own rectangle, and the rectangles are disjoint, whatever the stored numbers are |
| C49 | the loaders again, as programs that ask a stream for bytes; streams of pieces, waits and breaks | each program does over a whole list of bytes what the reader of the other files does; for any program, a stream that does not break is its bytes, and one that breaks is every continuation of its bytes or an error |
| C50 | `save` as a sequence of writes to a writer that answers anything | induction over the writes and over the answers |
| C51 | `load` of `dcdf-ipfs` | case distinction; refutation for missing objects |
| C15, second round | every kind of object cut at any byte | `NodeStops.v`: for each parser, a prefix that is too short ends in an error, by structure of the writer; datasets, lists of links and spans are always refused |
| C52 | the choice between log and snapshot in `Chunk::build`, and the lengths of what `write_to` gives | invariant of the fold over the instants: the bytes so far are at most the sum of the snapshots' |
| C28, C42, second round | sessions with several versions in use | `PropertiesVersions.v`: a record of which version descends from which, kept beside the session, which the links in the store agree with at every moment; order in the store gives that chains end |
| C53 | sessions with the stories kept beside them | `PropertiesKept.v`: coordinates, shape and settings of the variables follow the story of each dataset, unconditionally; induction over the session with what is stored included |
| C54 | two sessions side by side; `save` | `PropertiesIdentity.v`: stored bytes determine the object (round trip); what is reached from a common identifier is common, as stores are laid out with children first |
| C55 | histories and sessions as in C24; the hash of an object's bytes is its identifier | the span tree of a variable has the least height for its length and full spans before the last, so it is fixed by the length; each chunk is what the encoder makes of its values, whichever way it was rebuilt (DetProofs.v, FloatDet.v); equal bytes have equal hashes |
| C56 | the loaders of the other properties, over any list of bytes | by structure of the readers; local subchunks by the bytes that each takes; refutations, universal where the code allows |
| C57 | histories and sessions as in C24 and C55 | each chunk of the span tree is what the encoder makes of its values (C55); the walk down the spans reaches the chunk of an instant, by induction over the height |
| C58 | PyDatasetModel: the Dataset, Variable and Coordinate classes over the bindings, with the numbers that stand for types and the range checks of arguments | each call of a program does what the call of the library does that it means (simulation, by induction over the program); then C24 and C43 |
| C59 | RequestModel.v: the reads as programs that ask the resolver for objects; answered by the store, by the cache, or by any source | RequestProofs.v: both ways to write the reads agree; simulation between answers that differ in errors; the cache keeps objects of the store; RequestOnce.v: nothing is evicted when all fits |
| C60 | RequestModel.v: `asked`, the objects a read asks for | RequestReach.v: by induction on the depth, through the tiles and spans that a window meets; RequestTree.v: along the path to a cell, with the least height of the tree (CanonProofs.v) |
| C61 | RequestModel.v (reads as questions to the resolver) | the recorded minima and maxima are attained (PruneProofs.v, by induction over the levels that are built), and through the spans (PruneTree.v) and histories |
| C62 | WorkModel.v writes the operations of DatasetModel.v as programs that load and save one object at a time, and lets any number of them take turns on one store; run alone they are the operations of DatasetModel.v (run_work_session) | invariant over the turns: each program has the rest to do that it would have alone with a store that is part of the shared one, and asks only for what is in that part (needs_session) |
| C63 | MemoryModel: every reader once more, with the capacities it asks for | the answers by erasure; every byte pays for nine elements, by structure of the readers; refutation for every count |
| C64 | SnapshotModel, LogModel, DacModel, ChunkModel, StreamModel | nodes of the tree by induction on its depth; what the traversal writes is paid for by the nodes still to be visited; eight levels per compressed list; C52 for several instants |
| C65 | store operations of DatasetModel.v, whose stores list every save | a credit is passed through every operation (costs, CostProofs.v), the length of the path from the invariant of the tree (rest_ok) |

## 3. Trusted base

Coq's kernel; the correspondence between the cited Rust lines and the model;
the conventions above. `Print Assumptions` output per theorem is recorded in
section 5 (kept current).

What is modelled, by source file (tests left out everywhere):

| source (`dcdf/src`) | model | left out |
|---|---|---|
| `bitmap.rs`, `dac.rs` | BitmapModel, DacModel, StreamModel: all functions | |
| `snapshot.rs`, `log.rs` | SnapshotModel, LogModel, StreamModel: all functions | the float logarithm that gives the side length is the parameter `lc` |
| `block.rs`, `chunk.rs` | ChunkModel: all functions | |
| `geom.rs`, `helpers.rs` | GeomModel: all functions | |
| `range.rs`, `time.rs` | RangeModel: all functions | `Array1::range` of ndarray is modelled from what is known of ndarray 0.15, whose source is not in the sandbox |
| `fixed.rs` | FixedModel: all functions | `log2` of the platform is a parameter |
| `extio.rs` | StreamModel: all functions used by the others | `read_u16`, `write_u16` only as part of the header; I/O errors other than the end of the data |
| `errors.rs` | the error constructors in Base | messages |
| `mmstruct.rs`, `mmbuffer.rs`, `superchunk.rs`, `span.rs` | NodeModel, SuperModel, ArrayModel, FloatModel, DatasetModel | aliasing of the unsafe slices: only the disjointness that makes it sound; the order in which concurrent parts end is a parameter |
| `mmarray.rs` | ArrayModel (`MMArray3*`), RangeModel (`MMArray1*` only forwards) | searches of float arrays are `todo!()` in the code |
| `links.rs`, `node.rs`, `resolver.rs`, `mapper.rs` | NodeModel: all functions; MemoryModel: the loads once more, with the room they reserve; a mapper is a list of objects that only grows | a mapper that changes or loses objects, except where a theorem says so |
| `dataset.rs` | NodeModel, DatasetModel, HistoryModel, SessionModel, RangeModel; WorkModel: once more, object by object, for several programs on one store | `External` coordinates (`todo!()` in the code) |
| `cache.rs` | CacheModel: all functions, sequentially and at lock granularity | spurious wake-ups, weak memory |
| `testing.rs` | its in-memory mapper, as the store | the rest |
| `dcdf-ipfs/src/lib.rs` | TransportModel: `load`, the writer and `finish` | HTTP, its status codes, `size_of`, splitting of objects by the node; the node is a store and a message for what it lacks |
| `py-dcdf/dcdf/__init__.py` | PyModel: `Variable.__getitem__`, `Coordinate.__getitem__` and what they call; PyDatasetModel: `Dataset`, `Variable`, `Coordinate`, `MMEncoding` | indices other than integers and slices; `Coordinate.range` of floats; dates as arguments |
| `py-dcdf/src/lib.rs` | PyDatasetModel, PyModel: which call of the library each binding makes, the range checks of its arguments, access to arrays | the text form of identifiers; the class of an exception. That pyo3 and rust-numpy refuse numbers out of range and arrays without write access is known of them, not from `/repo` |

Not modelled at all: the HTTP client of `dcdf-ipfs`, the rest of PyO3's glue, the executor, memory
layout, performance.

## 4. Findings

Claims a user would rely on that are false of the code. Each is a theorem whose
name ends in `_refuted`; the theorem of the same property that ends in `_partial`
says what holds instead.

Rasters and chunks

* `C04_odd_arity_refuted`, `C05_odd_arity_refuted`: with an odd k the last bit of a full node
  map is read one past the end; reads of valid cells panic (`log.rs`, `bitmap.rs` rank).
* `C04_overflow_refuted`, `C07_overflow_refuted`: instants whose difference does not fit 64
  bits read back as other numbers; the encoder's own choice of blocks can lead there.
* `C06_uniform_log_refuted`, `C06_both_uniform_negative_refuted`,
  `C06_uniform_negative_snapshot_refuted`, `C06_constant_decrease_refuted`, `C09_uniform_refuted`:
  searches of instants stored relative to another one miss cells, or return wrong ones, when
  one of the two roots is uniform. `C06_exactly_when` says exactly when: a uniform raster after
  one that varies and whose least value is another; two uniform rasters, the second negative; a raster
  that varies after a uniform negative one; a raster that varies and is everywhere the same amount
  below the one before it, if both fill their whole k^e by k^e square. For values below 2^61 in size
  every such pair has a search with a wrong answer, and no other pair has.
  `C09_exactly_when` says the same of a time series: all its searches are right if and only if no instant and the
  one that it is stored as changes to are such a pair.
* `C10_past_end_diverges_refuted`: a read past the last instant of a chunk loops for ever.
* `C01_one_cell_refuted`: a raster of one cell can be encoded but not read.
* `C11_get_past_end_refuted`, `C12_empty_array_refuted`: reads past the end are answered, not refused.
* `C33_empty_columns_refuted`: iterating over a rectangle with rows but no columns does not end.

Format

* `C14_node_sizes_refuted`: the sizes reported for subchunks, superchunks and datasets are too small.
* `C15_truncated_chunk_refuted`, `C15_truncated_name_refuted`: some truncated data is accepted.
* `C35_long_string_refuted`: strings of more than 255 bytes are never read back.
* `C56_header_panics_refuted`, `C56_body_panics_refuted`: loading bytes that are not an object panics
  instead of reporting an error. `C56_excess_accepted_refuted`, `C56_other_bytes_refuted`: bytes after
  the end of an object are ignored, and the same object is accepted from several byte sequences.
* `C63_forged_refuted`: the loaders reserve room for as many elements as a count in the bytes says, up
  to 2^32, before they read the first one: fourteen bytes ask for room for four billion blocks.

Floating point numbers

* `C16_refuted`, `C16_finite_becomes_nan_refuted`, `C16_62_bits_refuted`: lossless conversion
  accepts negative numbers that it truncates, turns some numbers into NaN, and with 62 bits
  changes signs.
* `C17_gap_refuted`: rounding turns numbers just below -1/2 units into NaN.
* `C18_negative_loses_refuted`, `C18_negative_panics_refuted`, `C18_panics_refuted`: the suggested
  number of bits is wrong for arrays dominated by a negative number.
* `C19_negative_refuted`, `C24_negative_refuted`: so a sub-array of negative numbers is stored with
  too few bits, and -30.25 is read back as -30 without any error, also by a variable that does not round.
* `C22_leading_nan_refuted`, `C22_nan_hides_refuted`: sub-arrays with NaNs and one number are
  read back as that number, and numbers can be read back as NaN.

Large arrays and datasets

* `C19_ragged_levels_refuted`: levels that fit the array but not the sub-arrays at its edge panic.
* `C19_empty_window_refuted`: a window without rows or columns panics at the edge between two sub-arrays.
* `C20_window_hides_failure_refuted`: a window read of a superchunk succeeds with zeros where
  objects could not be loaded. `C24_missing_object_zeroed_refuted`: an append then writes these
  zeros for good.
* `C62_opening_refuted`: of programs that share a store, one that opens what only another writes depends
  on who comes first (expected; it delimits `C62_undisturbed`).
* `C24_float_split_matters_refuted`: how an array with NaNs is split into appends can change
  what is read back (by C22, a chunk is safe or not as a whole).
* `C24_type_unchecked_refuted`: data of another type than the variable's is accepted.
* `C55_rounding_refuted`: with rounding, the identifier depends on how the data were split into appends:
  a chunk that is added to is read back rounded, and the number of bits is chosen anew from that.
* `C25_accepted_configurations_refuted`: `add_variable` accepts settings with which `append` panics.
  `C25_unusable_refuted` says the same for every dataset, every type of variable and all data: with chunks of no
  instants, spans of no parts, spans of one part and data that do not fit in one chunk, or levels that do not add up
  to the depth of the tree, adding the variable is accepted and the first append does not succeed.
* `C28_commit_in_memory_refuted`: a version is left out of the chain of versions if the dataset
  in memory is used on after the commit.
* `C42_nested_refuted`: a listing leaves out what the parts held within an object refer to (the
  library reads such objects but does not write them).
* `C39_same_name_refuted`: two variables may have one name; the second cannot be reached.
  `C39_hidden_refuted`: whatever the dataset and whatever is added, appended, committed or loaded again
  later: a variable added under a name in use stays as empty as it was, and the name finds another.
  `C39_exactly_when`: a variable is found by its name exactly when it is the first with that name.

Stores

* `C51_missing_refuted`: the IPFS mapper never says that an object is missing; the message of the node
  is read as the object, and the program panics.

Coordinates

* `C32_constant_slice_refuted`, `C32_empty_slice_refuted`, `C32_wide_slice_refuted`: slices of
  integer ranges with step 0 panic, so does the empty slice at 0, and a slice whose ends are
  further apart than the type's largest number comes back without elements.
* `C32_float_slice_length_refuted`, `C32_float_slice_differs_refuted`: slices of float ranges can
  have an element too many, and elements that `get` does not return.
  What holds for all float ranges whose step is not tiny compared with the coordinates:
  `C32_float_slice_close_partial` (at most one element too many, none too few, each close to the exact one).

Python

* `C58_hidden_refuted`, `C58_settings_refuted`, `C58_read_only_refuted`: in Python a variable with the name of
  a coordinate or a method is not an attribute; `fractional_bits` without `round` is forgotten; a variable of
  dates can be created but never read; arrays without write access cannot be appended.
* `C43_step_ignored_refuted`, `C43_steps_refuted`: the step of a slice of a variable is ignored.
  `C43_backwards_refuted`, `C43_turned_round_refuted` (the latter whatever the data): a slice that ends before
  it starts is turned round, where numpy's is empty.
* `C43_raises_refuted`, `C44_raises_refuted`, `C44_ends_refuted`: numbers that count from the end, ends
  past the end and some empty slices raise.
  `C43_exactly_when`, `C44_int_exactly_when`, `C44_float_exactly_when`, `C44_time_exactly_when` say which
  indices are answered, `C43_no_answer_outside` that none are that reach out of a variable.

Cache

* `C31_loaded_twice_refuted`, `C31_panics_refuted`: with several threads a look-up can be
  overtaken by a whole load. The object is then loaded and counted twice, and the linked list
  can become a circle, after which gets panic.
* `C41_abandoned_load_refuted`: a get that is dropped while it loads (as `Span::fill_window` does
  with its other parts when one fails) leaves its key blocked: no later get of it returns.
  `C41_abandoned_wait_refuted`: a get dropped while it waits makes the loading task panic.

## 5. Assumptions per theorem

Output of `Print Assumptions` for every theorem of the `Properties*.v` files (each file prints
it for its own theorems at its end).

Closed under the global context (no axioms):

* PropertiesBound: C64_bounded, C64_bounded_by_raster, C64_one_value, C64_unchanged
* PropertiesCache: C29_transparent, C29_resolver, C30_least_recently_used, C30_limit_and_recency, C30_no_needless_eviction, C31_answers_loaded, C31_one_load_at_a_time, C31_no_deadlock, C31_finite_steps, C31_one_thread_partial, C31_loaded_once_partial, C31_loaded_twice_refuted, C31_panics_refuted, C41_others_partial, C41_one_thread_partial, C41_abandoned_load_refuted, C41_abandoned_wait_refuted
* PropertiesChunk: C07_chunk_get_partial, C07_chunk_get_code_depth_partial, C08_chunk_fill_cell_partial, C08_chunk_fill_window_partial, C09_chunk_search_partial, C10_find_block, C10_past_end_no_data, C07_overflow_refuted, C09_uniform_refuted, C10_past_end_diverges_refuted
* PropertiesClosed: C45_order_is_enough
* PropertiesDataset: C39_found_by_name_partial, C40_other_variables_untouched
* PropertiesExact: C06_exactly_when
* PropertiesExactChunk: C09_exactly_when, C09_varied_series_partial
* PropertiesFixed: C16_infinity
* PropertiesIdentity: C54_objects
* PropertiesListing: C42_listing_is_enough, C42_same_reached, C42_nested_refuted
* PropertiesLoad: C56_load_ends_partial, C56_links_partial, C56_header_panics_refuted, C56_body_panics_refuted, C56_excess_accepted_refuted, C56_other_bytes_refuted
* PropertiesLog: C04_log_get_partial, C04_log_get_code_depth_partial, C04_log_get_any_arity_partial, C05_log_fill_window_partial, C06_log_search_partial, C04_odd_arity_refuted, C04_overflow_refuted, C05_odd_arity_refuted, C06_uniform_log_refuted, C06_both_uniform_negative_refuted, C06_uniform_negative_snapshot_refuted, C06_constant_decrease_refuted
* PropertiesMemory: C63_loaded_partial, C63_same_answer, C63_forged_refuted
* PropertiesMissing: C20_opening_reports
* PropertiesNames: C39_exactly_when
* PropertiesNode: C13_mmstruct_round_trip, C13_dataset_round_trip, C13_links_round_trip, C14_node_sizes_partial, C14_node_sizes_refuted, C27_commit_load, C27_commit_adds, C36_loads_as_saved_type, C36_foreign_bytes_refused, C36_missing_reported, C36_ls_exact
* PropertiesPlaces: C48_window_places, C48_cell_places, C48_window_answers
* PropertiesPyDataset: C58_attributes_partial, C58_range_partial, C58_range_accepted, C58_time_partial, C58_hidden_refuted
* PropertiesPyExact: C43_no_answer_outside, C43_exactly_when, C43_turned_round_refuted, C44_int_exactly_when, C44_time_exactly_when
* PropertiesPython: C43_variable_agrees_partial, C43_variable_indexed_partial, C43_too_many_indices, C43_step_ignored_refuted, C43_steps_refuted, C43_backwards_refuted, C43_raises_refuted, C44_int_coordinate_partial, C44_time_coordinate_partial, C44_raises_refuted, C44_ends_refuted
* PropertiesRange: C32_int_get, C32_int_get_refused, C32_int_slice_partial, C32_int_slice_is_get, C32_int_slice_refused, C32_constant_slice_refuted, C32_empty_slice_refuted, C32_wide_slice_refuted, C32_time_get, C32_time_slice, C32_len
* PropertiesReads: C20_window_hides_failure_refuted, C20_get_cell_report_partial, C20_search_reports_partial, C20_missing_objects_partial, C20_span_reports, C21_subreads_partition, C21_positions_once, C21_any_order, C22_elided_int_partial, C23_get, C23_pieces, C23_reads, C34_bounds_checked, C19_empty_window_refuted, C34_no_other_cell, C37_stored_once, C38_integers_unchanged, C38_type_decides
* PropertiesRequests: C59_any_cache, C59_loaded_once, C59_any_source, C59_concurrent, C60_only_for_cells
* PropertiesSize: C52_together_never_larger
* PropertiesSnapshot: C11_bitmap_get_rank, C11_get_past_end_refuted, C12_dac_random_access, C12_empty_array_refuted, C01_snapshot_get_any_depth, C01_snapshot_get, C01_one_cell_refuted, C02_snapshot_fill_window, C02_no_double_write, C03_snapshot_search, C33_rect_corner_order, C33_cube_corner_order, C33_cube_sizes, C33_rect_iteration_partial, C33_empty_columns_refuted
* PropertiesStream: C13_chunk_round_trip, C13_numbers_round_trip, C14_sizes_partial, C15_truncated_bitmap, C15_truncated_cid, C15_truncated_chunk_partial, C35_string_partial, C35_cid, C13_bitmap_round_trip, C13_dac_round_trip, C13_snapshot_round_trip, C13_log_round_trip, C13_block_round_trip, C13_concatenation, C15_truncated_chunk_refuted, C15_truncated_name_refuted, C35_long_string_refuted
* PropertiesSuper: C19_i64_reads_partial, C19_i32_reads_partial, C19_levels, C19_sizes, C19_ragged_levels_refuted, C19_search_partial, C19_search_single_instant
* PropertiesTransport: C49_any_pieces, C49_saved, C49_broken, C49_broken_reported, C49_broken_after, C50_whole_or_not, C50_saved, C51_present_partial, C51_missing_refuted
* PropertiesTruncation: C15_truncated_dataset, C15_truncated_links, C15_truncated_span, C15_truncated_array_partial

Axioms `FunctionalExtensionality.functional_extensionality_dep` (all of the standard library, used by its real numbers and by Flocq and Coquelicot lemmas about them):

* PropertiesPlaces: C47_reads

Axioms `ClassicalDedekindReals.sig_forall_dec`, `FunctionalExtensionality.functional_extensionality_dep` (all of the standard library, used by its real numbers and by Flocq and Coquelicot lemmas about them):

* PropertiesDataset: C24_i32_always_fits, C24_numbers_fit

Axioms `ClassicalDedekindReals.sig_forall_dec`, `ClassicalDedekindReals.sig_not_dec`, `Classical_Prop.classic`, `FunctionalExtensionality.functional_extensionality_dep` (all of the standard library, used by its real numbers and by Flocq and Coquelicot lemmas about them):

* PropertiesAnywhere: C46_sessions
* PropertiesCanon: C55_identifiers, C55_addressed, C55_sessions, C55_rounding_refuted
* PropertiesClose: C32_float_get_close_partial, C32_float_slice_close_partial, C32_float_apart_partial, C32_float_in_order_partial
* PropertiesClosed: C45_children_first_partial, C45_every_moment_partial, C46_any_store_partial, C46_same_identifiers_partial, C47_any_schedule_partial
* PropertiesCost: C65_appends_write_few, C65_others_write_one, C65_one_instant
* PropertiesDataset: C24_appends_concatenate_partial, C24_splits_do_not_matter_partial, C24_float_split_matters_refuted, C24_negative_refuted, C24_type_unchecked_refuted, C24_missing_object_zeroed_refuted, C25_valid_histories_succeed_partial, C25_accepted_configurations_refuted, C26_writes_only_add, C26_old_versions_partial, C28_chain_partial, C28_commit_in_memory_refuted, C39_same_name_refuted
* PropertiesFixed: C16_lossless_partial, C16_representable_partial, C16_refuses_partial, C16_nan, C16_refuted, C16_finite_becomes_nan_refuted, C16_62_bits_refuted, C17_rounding_partial, C17_rounding_nonnegative_partial, C17_gap_refuted, C18_suggestion_partial, C18_negative_loses_refuted, C18_negative_panics_refuted, C18_panics_refuted
* PropertiesFloat: C19_float_exact_partial, C19_float_rounded_partial, C19_float_stored_partial, C19_float_signed_partial, C19_negative_refuted, C22_leading_nan_refuted, C22_nan_hides_refuted
* PropertiesIdentity: C54_sessions
* PropertiesKept: C53_sessions
* PropertiesListing: C42_history_partial
* PropertiesMemory: C63_stored_partial
* PropertiesMissing: C20_datasets_partial
* PropertiesNames: C39_hidden_refuted
* PropertiesPlaces: C47_sessions
* PropertiesPrune: C61_search_needs, C61_nothing_to_find
* PropertiesPyClose: C44_float_close_partial
* PropertiesPyDataset: C58_program_partial, C58_settings_refuted, C58_read_only_refuted
* PropertiesPyExact: C44_float_exactly_when
* PropertiesPython: C44_float_coordinate_partial
* PropertiesRange: C32_float_get_partial, C32_float_slice_partial, C32_float_refused, C32_float_slice_length_refuted, C32_float_slice_differs_refuted, C32_len_is_bound
* PropertiesRequests: C60_gets_ask_few
* PropertiesSession: C45_sessions, C26_sessions, C24_sessions_partial, C25_sessions_partial
* PropertiesShare: C57_histories, C57_sessions
* PropertiesTogether: C62_undisturbed, C62_nobody_waits, C62_every_moment, C62_opening_refuted
* PropertiesUnusable: C25_unusable_refuted
* PropertiesVersions: C28_sessions_partial, C42_sessions
