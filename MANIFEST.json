{
 "claims": [
  {
   "property": "C01",
   "status": "proved",
   "theorems": [
    "C01_snapshot_get",
    "C01_snapshot_get_any_depth",
    "C01_one_cell_refuted"
   ],
   "note": "Premise max(rows,cols) >= 2: a 1x1 raster is encoded but every read panics (C01_one_cell_refuted)."
  },
  {
   "property": "C02",
   "status": "proved",
   "theorems": [
    "C02_snapshot_fill_window",
    "C02_no_double_write"
   ],
   "note": "Non-empty windows inside the raster, raster larger than one cell."
  },
  {
   "property": "C03",
   "status": "proved",
   "theorems": [
    "C03_snapshot_search"
   ],
   "note": "Non-empty windows inside the raster, raster larger than one cell."
  },
  {
   "property": "C11",
   "status": "proved",
   "theorems": [
    "C11_bitmap_get_rank",
    "C11_get_past_end_refuted"
   ],
   "note": "get past the end is not refused inside the last word (C11_get_past_end_refuted)."
  },
  {
   "property": "C12",
   "status": "proved",
   "theorems": [
    "C12_dac_random_access",
    "C12_empty_array_refuted"
   ],
   "note": ""
  },
  {
   "property": "C33",
   "status": "partial",
   "theorems": [
    "C33_rect_corner_order",
    "C33_cube_corner_order",
    "C33_cube_sizes",
    "C33_rect_iteration_partial",
    "C33_empty_columns_refuted"
   ],
   "note": "Iteration of a rectangle with rows but no columns never ends (refuted); proved for all others."
  },
  {
   "property": "C04",
   "status": "partial",
   "theorems": [
    "C04_log_get_partial",
    "C04_log_get_code_depth_partial",
    "C04_log_get_any_arity_partial",
    "C04_odd_arity_refuted",
    "C04_overflow_refuted"
   ],
   "note": "Proved for even k (or node maps whose length is not a multiple of 32) and rasters whose differences fit i64. Outside these premises the property is false of the code: an odd k can panic, an overflowing difference reads another value."
  },
  {
   "property": "C05",
   "status": "partial",
   "theorems": [
    "C05_log_fill_window_partial",
    "C05_odd_arity_refuted"
   ],
   "note": "Same premises as C04."
  },
  {
   "property": "C06",
   "status": "partial",
   "theorems": [
    "C06_log_search_partial",
    "C06_exactly_when",
    "C06_uniform_log_refuted",
    "C06_both_uniform_negative_refuted",
    "C06_uniform_negative_snapshot_refuted",
    "C06_constant_decrease_refuted"
   ],
   "note": "Proved for every k and every pair of rasters except four families with a uniform root; each family is refuted by an example. C06_exactly_when: for values below 2^61 in size the four premises are also necessary, every pair of rasters that breaks one has a search with a wrong answer."
  },
  {
   "property": "C07",
   "status": "partial",
   "theorems": [
    "C07_chunk_get_partial",
    "C07_chunk_get_code_depth_partial",
    "C07_overflow_refuted"
   ],
   "note": "Every number of instants, every data and shape, for even k and instants whose differences fit i64 (the limits of C04; an overflowing difference reads another value through the encoder's own choice, C07_overflow_refuted)."
  },
  {
   "property": "C08",
   "status": "partial",
   "theorems": [
    "C08_chunk_fill_cell_partial",
    "C08_chunk_fill_window_partial"
   ],
   "note": "Same premises as C07."
  },
  {
   "property": "C09",
   "status": "partial",
   "theorems": [
    "C09_chunk_search_partial",
    "C09_varied_series_partial",
    "C09_exactly_when",
    "C09_uniform_refuted"
   ],
   "note": "Every k, cube and pair of bounds; the premises of C06 for every pair of instants, without which cells are missed (C09_uniform_refuted). C09_exactly_when: all searches of a chunk are right if and only if those premises hold for each instant stored as changes and the one it is stored as changes to (values within 61 bits). C09_varied_series_partial: they do if no instant has one value everywhere and the raster does not fill the square of the tree."
  },
  {
   "property": "C10",
   "status": "partial",
   "theorems": [
    "C10_find_block",
    "C10_past_end_no_data",
    "C10_past_end_diverges_refuted"
   ],
   "note": "Right block and offset for every list of blocks and every stored instant; no data for an instant past the end. Termination is false past the end: the search loops for ever (C10_past_end_diverges_refuted)."
  },
  {
   "property": "C13",
   "status": "proved",
   "theorems": [
    "C13_bitmap_round_trip",
    "C13_dac_round_trip",
    "C13_snapshot_round_trip",
    "C13_log_round_trip",
    "C13_block_round_trip",
    "C13_chunk_round_trip",
    "C13_concatenation",
    "C13_numbers_round_trip",
    "C13_mmstruct_round_trip",
    "C13_dataset_round_trip",
    "C13_links_round_trip"
   ],
   "note": "Objects as the encoders build them, of any size whose counts fit the format's fields; also the stored nodes (spans, superchunks, datasets, links)."
  },
  {
   "property": "C14",
   "status": "partial",
   "theorems": [
    "C14_sizes_partial",
    "C14_node_sizes_partial",
    "C14_node_sizes_refuted"
   ],
   "note": "Exact for bitmaps, compressed arrays, snapshots, logs, blocks, chunks, spans and links; the sizes reported for stored subchunks, superchunks and datasets are too small by an amount given exactly (refuted)."
  },
  {
   "property": "C15",
   "status": "partial",
   "theorems": [
    "C15_truncated_bitmap",
    "C15_truncated_cid",
    "C15_truncated_dataset",
    "C15_truncated_links",
    "C15_truncated_span",
    "C15_truncated_array_partial",
    "C15_truncated_chunk_partial",
    "C15_truncated_chunk_refuted",
    "C15_truncated_name_refuted"
   ],
   "note": "Stored datasets, links and spans cut anywhere are refused. Arrays: exact characterisation: every truncation is refused except inside the raw bytes of the last level of the last compressed array, where the code accepts it (refuted)."
  },
  {
   "property": "C35",
   "status": "partial",
   "theorems": [
    "C35_string_partial",
    "C35_cid",
    "C35_long_string_refuted"
   ],
   "note": "Every CID; strings of at most 255 bytes. A longer string is never read back (C35_long_string_refuted)."
  },
  {
   "property": "C16",
   "status": "partial",
   "theorems": [
    "C16_lossless_partial",
    "C16_representable_partial",
    "C16_refuses_partial",
    "C16_nan",
    "C16_infinity",
    "C16_refuted",
    "C16_finite_becomes_nan_refuted",
    "C16_62_bits_refuted"
   ],
   "note": "Exact characterisation for b <= 61: lossless iff the number is non-negative or has at most b+1 fractional bits and is not -2^-(b+1). The full claim is false: the loss check compares the fraction with > 0, so negative numbers are truncated silently, some become NaN, and with 62 bits signs flip."
  },
  {
   "property": "C17",
   "status": "partial",
   "theorems": [
    "C17_rounding_partial",
    "C17_rounding_nonnegative_partial",
    "C17_gap_refuted"
   ],
   "note": "Within half a unit for every finite number in range and b <= 61, except scaled values in (-1,-1/2], which read back as NaN (proved)."
  },
  {
   "property": "C18",
   "status": "partial",
   "theorems": [
    "C18_suggestion_partial",
    "C18_negative_loses_refuted",
    "C18_negative_panics_refuted",
    "C18_panics_refuted"
   ],
   "note": "Holds for arrays in which no magnitude exceeds both 2 and the greatest value, for every logarithm that is not too small; false for larger negative values."
  },
  {
   "property": "C27",
   "status": "proved",
   "theorems": [
    "C27_commit_load",
    "C27_commit_adds"
   ],
   "note": "For every store that keeps growing without hash collisions."
  },
  {
   "property": "C36",
   "status": "proved",
   "theorems": [
    "C36_loads_as_saved_type",
    "C36_foreign_bytes_refused",
    "C36_missing_reported",
    "C36_ls_exact"
   ],
   "note": "Refusal is a panic in the code for foreign headers and wrong types."
  },
  {
   "property": "C19",
   "status": "partial",
   "theorems": [
    "C19_i64_reads_partial",
    "C19_i32_reads_partial",
    "C19_levels",
    "C19_sizes",
    "C19_search_partial",
    "C19_search_single_instant",
    "C19_ragged_levels_refuted",
    "C19_empty_window_refuted",
    "C19_float_exact_partial",
    "C19_float_rounded_partial",
    "C19_float_stored_partial",
    "C19_float_signed_partial",
    "C19_negative_refuted"
   ],
   "note": "Integer arrays of any shape, any tree of levels that fits (every depth), even arity, differences that fit 64 bits; searches under the premises of C09 for each chunk in the tree. Levels whose sum fits the side but not the sub-arrays at the edge make the build panic (refuted). Float arrays, numbers of both signs: if all values are small enough for the bits, the bits are computed, the build succeeds and every value comes back as itself or as its rounding within half a unit, and NaN as NaN, when no sub-array is at risk from NaNs (C22) or has numbers further below zero than above it (false otherwise, refuted: -30.25 is read back as -30). Windows with no rows or columns are not covered: at an edge between two sub-arrays reading one panics (refuted)."
  },
  {
   "property": "C20",
   "status": "partial",
   "theorems": [
    "C20_window_hides_failure_refuted",
    "C20_get_cell_report_partial",
    "C20_search_reports_partial",
    "C20_missing_objects_partial",
    "C20_span_reports",
    "C20_datasets_partial",
    "C20_opening_reports"
   ],
   "note": "False for superchunks: a window read drops the errors of its parts and leaves zeros (refuted). Proved, for single arrays and for all variables after any valid history, with any part of the store missing: get and cell history give the right values or report an object not found; a search ends, lists no wrong cell, reports what is not found, finds every match that get can read and is complete if it reports nothing; a window is refused, or it holds the right value exactly at the cells that get can read and zero at the others. Opening variables and datasets gives what was stored or an object not found."
  },
  {
   "property": "C21",
   "status": "proved",
   "theorems": [
    "C21_subreads_partition",
    "C21_positions_once",
    "C21_any_order"
   ],
   "note": ""
  },
  {
   "property": "C22",
   "status": "partial",
   "theorems": [
    "C22_elided_int_partial",
    "C22_leading_nan_refuted",
    "C22_nan_hides_refuted"
   ],
   "note": "Integers: an elided or repeated sub-array reads as what was written. For floats the claim is false: NaNs before the first number of a sub-array with one value are read back as that value, and a number can be read back as NaN (both refuted); the float theorems of C19 cover arrays without such sub-arrays."
  },
  {
   "property": "C23",
   "status": "proved",
   "theorems": [
    "C23_get",
    "C23_pieces",
    "C23_reads"
   ],
   "note": "Reads of integer arrays of any depth; searches under the premises of C19."
  },
  {
   "property": "C34",
   "status": "proved",
   "theorems": [
    "C34_bounds_checked",
    "C34_no_other_cell"
   ],
   "note": "Bounds are refused for every object, type and store; in bounds, integer arrays return the cells asked for."
  },
  {
   "property": "C37",
   "status": "proved",
   "theorems": [
    "C37_stored_once"
   ],
   "note": ""
  },
  {
   "property": "C38",
   "status": "proved",
   "theorems": [
    "C38_integers_unchanged",
    "C38_type_decides"
   ],
   "note": "Conversions of floats are C16 and C17."
  },
  {
   "property": "C24",
   "status": "partial",
   "theorems": [
    "C24_appends_concatenate_partial",
    "C24_sessions_partial",
    "C24_splits_do_not_matter_partial",
    "C24_i32_always_fits",
    "C24_numbers_fit",
    "C24_type_unchecked_refuted",
    "C24_missing_object_zeroed_refuted",
    "C24_float_split_matters_refuted",
    "C24_negative_refuted"
   ],
   "note": "Every history of adding variables of all four types, appending, committing and reloading: every read (and for integers every search) sees the concatenation, in the final store and every larger one; C24_sessions_partial: also when other datasets and versions are used in between, calls fail and the process crashes. Missing: data the format cannot keep (64-bit differences that overflow; too large floats; sub-arrays at risk from NaNs or with numbers further below zero than above it). Refuted outside: data of another type is accepted, a missing object becomes zeros, how an array with NaNs is split into appends can change what is read, sub-arrays of negative numbers lose precision silently."
  },
  {
   "property": "C25",
   "status": "partial",
   "theorems": [
    "C25_valid_histories_succeed_partial",
    "C25_sessions_partial",
    "C25_accepted_configurations_refuted",
    "C25_unusable_refuted"
   ],
   "note": "Every valid history, with integer and float variables, succeeds. add_variable also accepts span sizes 0 and 1, chunk size 0 and levels that do not fit, with which append panics (refuted, on examples and, in C25_unusable_refuted, for every dataset and all data)."
  },
  {
   "property": "C26",
   "status": "proved",
   "theorems": [
    "C26_sessions",
    "C26_writes_only_add",
    "C26_old_versions_partial"
   ],
   "note": "C26_sessions: every session with several datasets and versions in use, any values (also ones the format cannot keep faithfully), calls that fail, any configuration accepted, crashes with any number of writes kept; identifiers still in the store give the same answers to every read, search and listing. Premises: numbers fit their fields (C21), no hash collision. C26_old_versions_partial says in addition what the data are, for valid histories."
  },
  {
   "property": "C28",
   "status": "partial",
   "theorems": [
    "C28_sessions_partial",
    "C28_chain_partial",
    "C28_commit_in_memory_refuted"
   ],
   "note": "C28_sessions_partial: every session with any number of datasets and versions in use, forks, failed calls and crashes, at every moment. Exact chain: the versions that were loaded again after being committed. A version whose dataset in memory went on being used is left out (refuted)."
  },
  {
   "property": "C39",
   "status": "partial",
   "theorems": [
    "C39_found_by_name_partial",
    "C39_exactly_when",
    "C39_same_name_refuted",
    "C39_hidden_refuted"
   ],
   "note": "A second variable of the same name is accepted and cannot be reached (refuted). C39_exactly_when: a name reaches the first variable that has it and no other. C39_hidden_refuted: for every dataset, a variable added under a name in use stays as it was created whatever is done afterwards, loading it again included."
  },
  {
   "property": "C40",
   "status": "proved",
   "theorems": [
    "C40_other_variables_untouched",
    "C26_writes_only_add"
   ],
   "note": "Every type of variable."
  },
  {
   "property": "C29",
   "status": "proved",
   "theorems": [
    "C29_transparent",
    "C29_resolver"
   ],
   "note": "Every sequence of gets; stored objects do not change. C29_resolver: the resolver over a store that grows between gets."
  },
  {
   "property": "C30",
   "status": "proved",
   "theorems": [
    "C30_least_recently_used",
    "C30_limit_and_recency",
    "C30_no_needless_eviction"
   ],
   "note": "Every sequence of gets, by refinement to a list in order of use."
  },
  {
   "property": "C31",
   "status": "partial",
   "theorems": [
    "C31_answers_loaded",
    "C31_one_load_at_a_time",
    "C31_no_deadlock",
    "C31_finite_steps",
    "C31_one_thread_partial",
    "C31_loaded_once_partial",
    "C31_loaded_twice_refuted",
    "C31_panics_refuted"
   ],
   "note": "Every interleaving at lock granularity: answers are right, at most one load of a key at a time, no deadlock. Loaded once, right sizes and no panic are proved for executors with one thread; with several threads they are false: an object can be loaded twice and counted twice, and the list of entries can break so that later gets panic (refuted)."
  },
  {
   "property": "C41",
   "status": "partial",
   "theorems": [
    "C41_others_partial",
    "C41_one_thread_partial",
    "C41_abandoned_load_refuted",
    "C41_abandoned_wait_refuted",
    "C31_no_deadlock"
   ],
   "note": "False of the code: dropping a get that is loading leaves its key blocked for ever, and dropping a get that waits makes the loading task panic (both proved for every state reached on one thread). What holds, for every interleaving with gets given up at any moments (C41_others_partial): answers are still ones loaded for the key asked, no key is loaded by two tasks at once, and keys of which no get was given up are still served. On one thread (C41_one_thread_partial) the run panics exactly when a task has its turn that loads an object for which a get was waiting when it was given up, and otherwise the recorded sizes and the limit stay right."
  },
  {
   "property": "C32",
   "status": "partial",
   "theorems": [
    "C32_int_get",
    "C32_int_get_refused",
    "C32_int_slice_partial",
    "C32_int_slice_is_get",
    "C32_int_slice_refused",
    "C32_time_get",
    "C32_time_slice",
    "C32_len",
    "C32_len_is_bound",
    "C32_float_get_partial",
    "C32_float_slice_partial",
    "C32_float_refused",
    "C32_float_get_close_partial",
    "C32_float_slice_close_partial",
    "C32_float_apart_partial",
    "C32_float_in_order_partial",
    "C32_constant_slice_refuted",
    "C32_empty_slice_refuted",
    "C32_wide_slice_refuted",
    "C32_float_slice_length_refuted",
    "C32_float_slice_differs_refuted"
   ],
   "note": "Time ranges and get of integer ranges: in full. Slices of integer ranges: when the step is not 0, the interval does not end at 0 and its width fits the type; otherwise false (refuted). Float ranges: exact when start and step are small multiples of one power of two; in general slices differ from get and can be too long (refuted), but every get and every element of a slice is close to the exact value, different indices have different coordinates in the right order, and a slice has no element too few and at most one too many."
  },
  {
   "property": "C42",
   "status": "proved",
   "theorems": [
    "C42_sessions",
    "C42_listing_is_enough",
    "C42_same_reached",
    "C42_history_partial",
    "C42_nested_refuted"
   ],
   "note": "C42_sessions: every object in the store at every moment of every session. C42_listing_is_enough: every store and identifier, provided the listing goes through and no object met holds parts of a superchunk within itself; C42_history_partial shows that this is so for every version committed after a valid history, so that a copy of what is listed has all that was appended. Objects with parts within themselves, which the format allows and the library reads but does not write, are not listed in full (refuted)."
  },
  {
   "property": "C43",
   "status": "partial",
   "theorems": [
    "C43_variable_agrees_partial",
    "C43_variable_indexed_partial",
    "C43_exactly_when",
    "C43_no_answer_outside",
    "C43_too_many_indices",
    "C43_step_ignored_refuted",
    "C43_steps_refuted",
    "C43_backwards_refuted",
    "C43_turned_round_refuted",
    "C43_raises_refuted"
   ],
   "note": "Whatever integers and forward slices in steps of 1: an answer is numpy's answer (C43_variable_agrees_partial), and there is an answer if they are within the array and select something (C43_variable_indexed_partial). Indices that select something are answered exactly when they are within the array (C43_exactly_when), and no indices at all are answered that reach out of it (C43_no_answer_outside). False of the code: steps are ignored, backwards slices are turned round, numbers from the end, ends past the end and empty slices raise."
  },
  {
   "property": "C44",
   "status": "partial",
   "theorems": [
    "C44_int_coordinate_partial",
    "C44_time_coordinate_partial",
    "C44_float_coordinate_partial",
    "C44_float_close_partial",
    "C44_raises_refuted",
    "C44_ends_refuted",
    "C44_int_exactly_when",
    "C44_float_exactly_when",
    "C44_time_exactly_when"
   ],
   "note": "Integer, time and (exactly representable) float coordinates, for integers and slices without step within the coordinate; of any other float coordinate whose numbers stay apart the answer is the array's up to rounding, a slice possibly with one element more (C44_float_close_partial). False of the code: steps, numbers from the end, ends past the end, empty slices at 0, and slices of time without stop raise; and what C32 refutes. Indices of integer and exact float coordinates that select something are answered exactly when they are within the coordinate and have no step (C44_int_exactly_when, C44_float_exactly_when); those of time exactly when not negative, with a stop and no step (C44_time_exactly_when)."
  },
  {
   "property": "C45",
   "status": "proved",
   "theorems": [
    "C45_sessions",
    "C45_order_is_enough",
    "C45_children_first_partial",
    "C45_every_moment_partial"
   ],
   "note": "C45_sessions: every session (several datasets, forks, any values, failing calls, any configuration accepted, crashes), every number of writes: children are written before what refers to them, and nothing that was written lacks a part. Premises: numbers fit their fields (C21), no hash collision. The _partial theorems start valid histories from any store in that order."
  },
  {
   "property": "C46",
   "status": "proved",
   "theorems": [
    "C46_sessions",
    "C46_any_store_partial",
    "C46_same_identifiers_partial"
   ],
   "note": "C46_sessions: every session (several datasets, forks, any values, failing calls, crashes) and every other content of the store, as long as no identifier stands for two objects and the session opens only what it has written. Premises: as for C45. The _partial theorems compare valid histories started in two stores."
  },
  {
   "property": "C47",
   "status": "proved",
   "theorems": [
    "C47_sessions",
    "C47_reads",
    "C47_any_schedule_partial"
   ],
   "note": "C47_sessions: every session from any state, each call with its own order of the writes of its concurrent reads, whatever is in the store. C47_reads: the same for each window read."
  },
  {
   "property": "C48",
   "status": "proved",
   "theorems": [
    "C48_window_places",
    "C48_cell_places",
    "C48_window_answers"
   ],
   "note": "Every content of the store and every structure in memory, also damaged or forged ones, for reads that come to an end."
  },
  {
   "property": "C49",
   "status": "proved",
   "theorems": [
    "C49_any_pieces",
    "C49_saved",
    "C49_broken",
    "C49_broken_reported",
    "C49_broken_after"
   ],
   "note": "Every stream (pieces of any size, waits, a break anywhere) and every object in the store, saved by the library or not."
  },
  {
   "property": "C50",
   "status": "proved",
   "theorems": [
    "C50_whole_or_not",
    "C50_saved"
   ],
   "note": "Every way in which the writes are split, taken in part, delayed or fail, for mappers that keep an object in memory until it is complete (both mappers of the repository do)."
  },
  {
   "property": "C51",
   "status": "partial",
   "theorems": [
    "C51_present_partial",
    "C51_missing_refuted",
    "C36_missing_reported"
   ],
   "note": "Objects that are there are loaded as from any store. A missing object is not reported by the IPFS mapper: the node's error message is read as if it were the object, and the program panics (refuted). C36_missing_reported: the error for stores that answer None. The HTTP client is not modelled."
  },
  {
   "property": "C52",
   "status": "proved",
   "theorems": [
    "C52_together_never_larger"
   ],
   "note": "Every array for which the encoder gives a result, with the same arity and depth of tree on both sides."
  },
  {
   "property": "C53",
   "status": "proved",
   "theorems": [
    "C53_sessions"
   ],
   "note": "Every session within the stated limits, with stores free of hash collisions; crashes, failed calls and repeated names included."
  },
  {
   "property": "C54",
   "status": "proved",
   "theorems": [
    "C54_objects",
    "C54_sessions"
   ],
   "note": "Two sessions of different users, with their own stores, schedules and limits; premise: no hash collision among what they have written. C54_objects: each kind of object, with fields that fit the format."
  },
  {
   "property": "C55",
   "status": "proved",
   "theorems": [
    "C55_identifiers",
    "C55_addressed",
    "C55_sessions",
    "C55_rounding_refuted"
   ],
   "note": "For variables of integers, and of floats without rounding, whose data can be stored (valid, as in C24). With rounding it is false: C55_rounding_refuted. The premise on hashes is that there is no collision among what both stores hold."
  },
  {
   "property": "C56",
   "status": "partial",
   "theorems": [
    "C56_load_ends_partial",
    "C56_links_partial",
    "C56_header_panics_refuted",
    "C56_body_panics_refuted",
    "C56_excess_accepted_refuted",
    "C56_other_bytes_refuted"
   ],
   "note": "Proved: loading, listing and asking for the kind of an object end whatever bytes the store returns, and lists of links give an object or an error. False of the code: for every object a changed first byte makes loading panic, and so do changed bytes within; bytes after the end are never noticed, and one object has several serializations. Memory that is reserved from counts in the bytes is C63."
  },
  {
   "property": "C57",
   "status": "proved",
   "theorems": [
    "C57_histories",
    "C57_sessions"
   ],
   "note": "For variables that keep values exactly (integers, floats without rounding), any two valid histories, and any two datasets in use in a session; a dataset and what further appends made of it as a special case."
  },
  {
   "property": "C58",
   "status": "partial",
   "theorems": [
    "C58_program_partial",
    "C58_attributes_partial",
    "C58_range_partial",
    "C58_range_accepted",
    "C58_time_partial",
    "C58_hidden_refuted",
    "C58_settings_refuted",
    "C58_read_only_refuted"
   ],
   "note": "Programs of any length: add_variable, append, commit, load again. Data that can be stored (as in C24) and indices within the array that do not run backwards or in steps (as in C43). Indices that reach out of a variable are never answered. Attributes: unless the name is a coordinate's or the object's own. Integer and time coordinates (floats: C44). Refuted: variables can be hidden as attributes; fractional_bits without round is forgotten; a variable of dates can be created but never read; read-only arrays are refused."
  },
  {
   "property": "C59",
   "status": "proved",
   "theorems": [
    "C59_any_cache",
    "C59_loaded_once",
    "C59_any_source",
    "C59_concurrent"
   ],
   "note": "Reads as programs that ask for objects one by one. Concurrent parts of a read ask in a fixed order in C59_any_cache; C59_any_source and C59_concurrent are about every interleaving, with errors told apart only as errors."
  },
  {
   "property": "C60",
   "status": "proved",
   "theorems": [
    "C60_only_for_cells",
    "C60_gets_ask_few"
   ],
   "note": "The number of objects is an upper bound: sub-arrays that are elided ask for nothing."
  },
  {
   "property": "C61",
   "status": "proved",
   "theorems": [
    "C61_search_needs",
    "C61_nothing_to_find"
   ],
   "note": "Integer variables of every valid history (searching floats is not written in the code), in the final store and every larger one; any window, any bounds."
  },
  {
   "property": "C62",
   "status": "proved",
   "theorems": [
    "C62_undisturbed",
    "C62_nobody_waits",
    "C62_every_moment",
    "C62_opening_refuted"
   ],
   "note": "Any number of programs, each any list of calls (new, open, add_variable, append, commit, reload, calls that fail among them), on one store, with a turn for every object loaded or saved. The premises are those of C46 for sessions, and that a program opens only identifiers that are in the store or that it has written: C62_opening_refuted shows that a program which opens what only another one writes depends on the turns, as one would expect. The programs have a resolver each and share the store; the cache of one resolver is C59."
  },
  {
   "property": "C63",
   "status": "partial",
   "theorems": [
    "C63_loaded_partial",
    "C63_same_answer",
    "C63_stored_partial",
    "C63_forged_refuted"
   ],
   "note": "Proved for all bytes that load, whoever wrote them, and so for everything that a history of calls stores: the capacities asked for beforehand add up to at most nine elements per byte, and the readers that keep account of them answer as those of the other properties. False of the code for bytes that do not load: fourteen bytes ask for as many blocks as a count of 32 bits can say. Missing: what an element takes in bytes, and vectors that grow as they are filled."
  },
  {
   "property": "C64",
   "status": "proved",
   "theorems": [
    "C64_bounded",
    "C64_bounded_by_raster",
    "C64_one_value",
    "C64_unchanged"
   ],
   "note": "Every array of integers that can be encoded (floats are encoded as integers), every arity. The bounds are on the bytes stored for one subchunk."
  },
  {
   "property": "C65",
   "status": "proved",
   "theorems": [
    "C65_appends_write_few",
    "C65_others_write_one",
    "C65_one_instant"
   ],
   "note": "Bound on the number of objects that an append gives to the store: the objects of the chunks that it adds or completes, two paths through the tree of spans for each span of chunks that it begins, and one more path. C65_example attains the bound. Objects are counted when they are saved, also if the store has them already."
  }
 ]
}