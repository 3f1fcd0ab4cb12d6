{
 "claims": [
  {
   "property": "C01",
   "status": "proved",
   "theorems": [
    "C01_header_load",
    "C01_header_spec_exclusive",
    "C01_header_load_any_schedule"
   ],
   "note": ""
  },
  {
   "property": "C02",
   "status": "proved",
   "theorems": [
    "C02_parser_creation",
    "C02_never_panics",
    "C02_parser_create",
    "C02_writer_versions"
   ],
   "note": "Parser creation and Writer::new accept exactly 7000..=7999."
  },
  {
   "property": "C03",
   "status": "proved",
   "theorems": [
    "C03_schedule_independence",
    "C03_direct_loader_regular"
   ],
   "note": "Two non-failing schedules of short and interrupted reads; loaders that use read_exact/read_to_end (as the crate's own do). The zlib decoder is assumed to read its input through read_exact and bounded read_to_end (type zprog), under the same schedule."
  },
  {
   "property": "C04",
   "status": "partial",
   "theorems": [
    "C04_position_is_offset_seekable",
    "C04_position_is_offset_plain_partial",
    "C04_position_plain_refuted"
   ],
   "note": "proved for seekable readers; false for plain readers (witness): skipping does not advance the cached position"
  },
  {
   "property": "C05",
   "status": "partial",
   "theorems": [
    "C05_events_well_nested",
    "C05_end_fbx_is_last",
    "C05_depth",
    "C05_depth_after_error_partial",
    "C05_depth_after_error_refuted"
   ],
   "note": "nesting proved for every history; the depth claim holds until the first failed next_event and is false after one (witness)"
  },
  {
   "property": "C06",
   "status": "proved",
   "theorems": [
    "C06_errors_are_sticky",
    "C06_already_finished_only_after_end"
   ],
   "note": "skip_current_node is not covered by the property: it ignores the health of the parser"
  },
  {
   "property": "C07",
   "status": "proved",
   "theorems": [
    "C07_end_is_final"
   ],
   "note": ""
  },
  {
   "property": "C08",
   "status": "proved",
   "theorems": [
    "C08_no_panic",
    "C08_no_panic_run",
    "C08_open_no_panic",
    "C08_overflow_refuted"
   ],
   "note": "Streams up to 2^63 bytes; proved for every history, schedule, handler and loader. With overflow checks on and version >= 7500 next_event does panic on a huge attribute length: C08_overflow_refuted gives the witness and C08_no_panic excludes exactly that case."
  },
  {
   "property": "C09",
   "status": "proved",
   "theorems": [
    "C09_event_count_bound"
   ],
   "note": "Bound 2*((n-27)/13)+1, slightly tighter than the listed one."
  },
  {
   "property": "C10",
   "status": "proved",
   "theorems": [
    "C10_accepting_handler",
    "C10_rejecting_handler"
   ],
   "note": "The handler is a function of the whole warning history; a rejected footer warning surfaces as the error inside EndFbx."
  },
  {
   "property": "C11",
   "status": "proved",
   "theorems": [
    "C11_end_marker_warnings"
   ],
   "note": "For every stream, history and handler, when EndNode is returned."
  },
  {
   "property": "C12",
   "status": "proved",
   "theorems": [
    "C12_skip_is_reading_to_end",
    "C12_reading_closes",
    "C12_skip_panics_iff",
    "C12_skip_panics_refuted"
   ],
   "note": "On well-formed documents over seekable readers skipping succeeds and is equivalent to any successful calls that close the node, and enough next_event calls do close it. skip_panics_iff characterises panics for all inputs; the refuted theorem is a witness that a malformed document panics with a node open."
  },
  {
   "property": "C13",
   "status": "proved",
   "theorems": [
    "C13_node_path"
   ],
   "note": ""
  },
  {
   "property": "C14",
   "status": "proved",
   "theorems": [
    "C14_type_codes",
    "C14_writer_codes",
    "C14_encodings",
    "C14_unknown_code_rejected",
    "C14_unknown_encoding_rejected"
   ],
   "note": ""
  },
  {
   "property": "C15",
   "status": "proved",
   "theorems": [
    "C15_written_attribute_reads_back",
    "C15_load_all",
    "C15_any_loader"
   ],
   "note": "Every call of the attribute writer; append_string_from_iter with characters shorter than four bytes is excluded from the property (see C30)."
  },
  {
   "property": "C16",
   "status": "proved",
   "theorems": [
    "C16_load_step",
    "C16_none_forever",
    "C16_start_counts",
    "C16_load_sequence"
   ],
   "note": "Every node, every sequence of loaders, buffered or not."
  },
  {
   "property": "C17",
   "status": "proved",
   "theorems": [
    "C17_boolean",
    "C17_boolean_array"
   ],
   "note": "With an accepting or absent handler (C10 covers rejecting ones). The array warning is only raised if the loader itself succeeds; that is what the theorem states."
  },
  {
   "property": "C18",
   "status": "proved",
   "theorems": [
    "C18_confined",
    "C18_next_attribute"
   ],
   "note": "Confinement for every stream, schedule and loader; next attribute for seekable and plain readers. The next event is covered by C22."
  },
  {
   "property": "C19",
   "status": "partial",
   "theorems": [
    "C19_refuted",
    "C19_direct_partial",
    "C19_wellformed_partial"
   ],
   "note": "Refuted: element reads are not limited to the declared byte length. Holds when the declared length covers the elements (direct) and for well-formed compressed arrays."
  },
  {
   "property": "C20",
   "status": "proved",
   "theorems": [
    "C20_consumed_in_stream",
    "C20_rest_never_matters",
    "C20_truncated",
    "C20_truncated_any_schedule",
    "C20_bundled_loaders_consume"
   ],
   "note": "A loader given the buffered reader must consume the bytes it looks at."
  },
  {
   "property": "C21",
   "status": "partial",
   "theorems": [
    "C21_refuted",
    "C21_truncated_partial"
   ],
   "note": "Refuted: DirectLoader returns the available bytes as if complete. The partial theorem states what is returned."
  },
  {
   "property": "C22",
   "status": "proved",
   "theorems": [
    "C22_events_of_document",
    "C22_events_independent_of_loading"
   ],
   "note": "Events and positions are those listed by doc_trace from the document, for arbitrary loaders."
  },
  {
   "property": "C23",
   "status": "partial",
   "theorems": [
    "C23_plain_equals_seekable_refuted",
    "C23_no_skip_partial",
    "C23_good_end_partial"
   ],
   "note": "The full claim is refuted by a witness. Proved: as long as the plain parser's position is the true offset (nothing was skipped), the seekable parser gives the same results, positions and warnings for the same calls, for every stream and client."
  },
  {
   "property": "C24",
   "status": "proved",
   "theorems": [
    "C24_footer",
    "C24_footer_in_file"
   ],
   "note": "For every file and history of calls (loaders that read whole requests); acceptance iff, returned fields, consumption, and exact warnings."
  },
  {
   "property": "C25",
   "status": "proved",
   "theorems": [
    "C25_footer_read_back",
    "C25_default_padding_aligns"
   ],
   "note": ""
  },
  {
   "property": "C26",
   "status": "proved",
   "theorems": [
    "C26_document_round_trip",
    "C26_opens",
    "C26_no_warnings",
    "C26_reader_agrees_with_document",
    "C26_calls_defined"
   ],
   "note": "append_string_from_iter with characters shorter than four bytes is excluded from the property (see C30)."
  },
  {
   "property": "C27",
   "status": "proved",
   "theorems": [
    "C27_layout",
    "C27_finished"
   ],
   "note": ""
  },
  {
   "property": "C28",
   "status": "partial",
   "theorems": [
    "C28_close_without_open",
    "C28_finalize_with_open",
    "C28_long_name_partial",
    "C28_long_name_refuted"
   ],
   "note": "The claim about too long names is false: the parent is closed as if it had a child (witness)."
  },
  {
   "property": "C29",
   "status": "proved",
   "theorems": [
    "C29_closed_nodes_fit",
    "C29_finished_fits",
    "C29_node_too_large",
    "C29_long_attribute_never_ok",
    "C29_long_attribute_error"
   ],
   "note": "Closing a node whose end does not fit is an error for every history; attribute lengths over u32 are errors."
  },
  {
   "property": "C30",
   "status": "partial",
   "theorems": [
    "C30_string_from_chars_partial",
    "C30_bytes_written",
    "C30_same_iff",
    "C30_string_from_chars_refuted"
   ],
   "note": "False for characters shorter than four bytes of UTF-8 (witness). C30_bytes_written gives the exact bytes for all characters; C30_same_iff shows that the claim holds exactly when every character takes four bytes."
  },
  {
   "property": "C31",
   "status": "partial",
   "theorems": [
    "C31_failures_reported",
    "C31_flush_reported",
    "C31_creation_reported",
    "C31_no_panic_partial",
    "C31_refuted"
   ],
   "note": "Every sink failure is reported by the call it hits. Absence of panics holds as long as no attribute append failed on the sink; C31_refuted shows that close_node panics after a failed append, so the full statement is false of the code."
  },
  {
   "property": "C32",
   "status": "partial",
   "theorems": [
    "C32_round_trip_partial",
    "C32_can_be_written",
    "C32_calls",
    "C32_write_macro",
    "C32_tree_macro",
    "C32_macros_agree",
    "C32_root_attributes_refuted",
    "C32_cycle_refuted"
   ],
   "note": "Round trip proved for every tree without cycles whose root has no attributes, for plain and seekable readers and all schedules. Root attributes are lost (C32_root_attributes_refuted); a tree with a cycle cannot be written (C32_cycle_refuted). Also: both macros make the calls of their document."
  },
  {
   "property": "C33",
   "status": "proved",
   "theorems": [
    "C33_load_reads",
    "C33_reads_load",
    "C33_items_determine_tree",
    "C33_used_parser_refused",
    "C33_fresh_parser_accepted",
    "C33_no_panic",
    "C33_document"
   ],
   "note": "Both directions, for every stream, schedule and handler: same final parser state, same error or the tree of the items read. Panics only where the parser itself does (C08)."
  },
  {
   "property": "C34",
   "status": "partial",
   "theorems": [
    "C34_links_consistent",
    "C34_no_cycle_partial",
    "C34_no_cycle_refuted"
   ],
   "note": "Link consistency holds for every history. Acyclicity holds for every history in which no node is inserted beside its own descendant; without that proviso the code violates it (C34_no_cycle_refuted: insert_after with a grandparent makes a cycle)."
  },
  {
   "property": "C35",
   "status": "partial",
   "theorems": [
    "C35_append",
    "C35_prepend",
    "C35_insert_after",
    "C35_append_new",
    "C35_prepend_new",
    "C35_insert_new_after",
    "C35_insert_new_before",
    "C35_append_panics",
    "C35_insert_after_panics",
    "C35_insert_before_refuted"
   ],
   "note": "All placements proved except Tree::insert_before, which the code gets wrong: it inserts after (C35_insert_before_refuted)."
  },
  {
   "property": "C36",
   "status": "partial",
   "theorems": [
    "C36_detach",
    "C36_panics",
    "C36_root_partial",
    "C36_root_refuted"
   ],
   "note": "Detaching is proved for every history. The no-op claim on the root holds for histories that never move the root or insert beside it, and fails otherwise (C36_root_refuted)."
  },
  {
   "property": "C37",
   "status": "proved",
   "theorems": [
    "C37_lookup",
    "C37_names"
   ],
   "note": "All histories, all strings."
  },
  {
   "property": "C38",
   "status": "partial",
   "theorems": [
    "C38_value_strict_eq",
    "C38_document_unique",
    "C38_document_exists",
    "C38_strict_eq_partial",
    "C38_tree_strict_eq_partial",
    "C38_equivalence_partial",
    "C38_cycle_refuted"
   ],
   "note": "Proved for all pairs of trees in which no node was inserted beside its own descendant. On a tree with a cycle the comparison does not terminate (C38_cycle_refuted)."
  },
  {
   "property": "C39",
   "status": "partial",
   "theorems": [
    "C39_deque_partial",
    "C39_subtree",
    "C39_events",
    "C39_every_event_once_partial",
    "C39_cycle_refuted"
   ],
   "note": "Proved for every interleaving of all six stepping calls, in all trees in which no node was inserted beside its own descendant. In a tree with a cycle the traversal need not end (C39_cycle_refuted)."
  },
  {
   "property": "C40",
   "status": "partial",
   "theorems": [
    "C40_append_attribute",
    "C40_append_attribute_panics",
    "C40_assign_attribute",
    "C40_take_attributes",
    "C40_set_attributes",
    "C40_root_partial",
    "C40_root_refuted"
   ],
   "note": "Editing proved for every history. The claim on the root is false of the code: only append_attribute refuses the root (C40_root_refuted)."
  },
  {
   "property": "C41",
   "status": "proved",
   "theorems": [
    "C41_getters"
   ],
   "note": ""
  },
  {
   "property": "C42",
   "status": "partial",
   "theorems": [
    "C42_refuted",
    "C42_same_entry_points_partial"
   ],
   "note": "Refuted: the buffered iterators call load_next. Holds for loaders whose buffered entry points equal the plain ones."
  },
  {
   "property": "C43",
   "status": "partial",
   "theorems": [
    "C43_refuted",
    "C43_size_hint_partial"
   ],
   "note": "Refuted after a failed load (errors are yielded without counting). Lower bound always, upper bound when no load fails."
  },
  {
   "property": "C44",
   "status": "proved",
   "theorems": [
    "C44_every_document_can_be_written"
   ],
   "note": "Succeeds on every sink that does not fail, for every document within the format limits."
  },
  {
   "property": "C45",
   "status": "proved",
   "theorems": [
    "C45_array_errors_not_hidden"
   ],
   "note": "For every loader and parser state."
  },
  {
   "property": "C46",
   "status": "proved",
   "theorems": [
    "C46_single_type_loaders",
    "C46_type_loader"
   ],
   "note": ""
  },
  {
   "property": "C47",
   "status": "proved",
   "theorems": [
    "C47_digits",
    "C47_order",
    "C47_reader_and_writer_agree"
   ],
   "note": ""
  },
  {
   "property": "C48",
   "status": "proved",
   "theorems": [
    "C48_any_tree",
    "C48_schedule_independence",
    "C48_end_of_file",
    "C48_no_panic"
   ],
   "note": ""
  },
  {
   "property": "C49",
   "status": "proved",
   "theorems": [
    "C49_one_handler_suffices",
    "C49_last_one_decides",
    "C49_accepting_handlers",
    "C49_no_panic"
   ],
   "note": "Client calls extended with set_warning_handler at any point; results are those of a run with one handler."
  },
  {
   "property": "C50",
   "status": "proved",
   "theorems": [
    "C50_component_position",
    "C50_event_error_position",
    "C50_load_error_position",
    "C50_attribute_offset"
   ],
   "note": "The byte where the attribute begins is stated for the first attribute of any node on any reader, and for later ones on seekable readers whose earlier attributes were well formed."
  },
  {
   "property": "C51",
   "status": "proved",
   "theorems": [
    "C51_warnings_in_order",
    "C51_warning_places"
   ],
   "note": "Warnings of the parser's own log, which C49 ties to what handlers receive."
  },
  {
   "property": "C52",
   "status": "proved",
   "theorems": [
    "C52_current_node_name",
    "C52_is_used"
   ],
   "note": ""
  },
  {
   "property": "C53",
   "status": "proved",
   "theorems": [
    "C53_accepted_layout",
    "C53_layout_accepted",
    "C53_accepted_iff",
    "C53_layout_unique"
   ],
   "note": "Exact acceptance for a client that asks for events only, on a seekable reader; uniqueness of the layout. layout_example and accepted_example meet the hypotheses; wrap_example shows the wrapping case."
  },
  {
   "property": "C54",
   "status": "proved",
   "theorems": [
    "C54_events",
    "C54_loads",
    "C54_shipped_loaders",
    "C54_open"
   ],
   "note": "For every state. C54_loads assumes that the compression library hands failures of the reader on (zlib_hands_on; the stored codec meets it, stored_hands_on). Examples: failing_read, failing_load, failing_seek, failing_open."
  },
  {
   "property": "C55",
   "status": "proved",
   "theorems": [
    "C55_events_true"
   ],
   "note": "seekable readers; spec in SpecTruth.v. On plain readers the reported positions are wrong after a skip (C04)"
  },
  {
   "property": "C56",
   "status": "proved",
   "theorems": [
    "C56_values_true"
   ],
   "note": "seekable readers, DirectLoader; spec in SpecStored.v. Of compressed arrays only the header, the element count and the element sizes are described"
  },
  {
   "property": "C57",
   "status": "proved",
   "theorems": [
    "C57_end_through_headers",
    "C57_tree_end",
    "C57_plain_end_partial"
   ],
   "note": "Seekable readers; no skip failed (C57_failed_skip_ex shows that this is needed). Beyond the property: plain readers that skipped nothing (C57_plain_end_partial)."
  },
  {
   "property": "C58",
   "status": "partial",
   "theorems": [
    "C58_unfinished_partial",
    "C58_finalize_partial",
    "C58_tree_unfinished_partial",
    "C58_plain_unfinished_partial",
    "C58_empty_name_refuted",
    "C58_torn_offset_refuted",
    "C58_plain_skip_refuted",
    "C58_overwrite_refuted"
   ],
   "note": "Holds for a sink that was empty at first, for seekable readers, and for plain readers that skip nothing, if the outermost open node has a name and the end offset of a top-level node is written whole or not at all; each condition is needed (refuted by witnesses; C58_overwrite_refuted: over an older file, a mixture of both documents is read as complete)."
  },
  {
   "property": "C59",
   "status": "partial",
   "theorems": [
    "C59_array_items_partial",
    "C59_attributes_fused_partial",
    "C59_array_endless_refuted",
    "C59_attributes_endless_refuted",
    "C59_unfused_refuted"
   ],
   "note": "Element counts, None, size hint of array iterators and fusedness with fused loaders proved; that the iterators end is false after errors, and fusedness is false with loaders that are not fused (witnesses)."
  },
  {
   "property": "C60",
   "status": "partial",
   "theorems": [
    "C60_refuted",
    "C60_capacity_partial",
    "C60_demand_partial"
   ],
   "note": "The claim is refuted for files that end inside a value. Missing from the positive part: the capacity is a loader of its own, not part of the modelled DirectLoader."
  },
  {
   "property": "C61",
   "status": "proved",
   "theorems": [
    "C61_eq",
    "C61_partial_equivalence",
    "C61_strict_and_eq",
    "C61_from"
   ],
   "note": "Floats are bit patterns; their meaning is that of the standard library's SpecFloat."
  },
  {
   "property": "C62",
   "status": "proved",
   "theorems": [
    "C62_ids",
    "C62_handles_work"
   ],
   "note": "IDs are not marked with their tree, so an ID of another tree may be accepted (C62_foreign_ex); the documentation says so."
  },
  {
   "property": "C63",
   "status": "proved",
   "theorems": [
    "C63_reading",
    "C63_reading_old",
    "C63_loading",
    "C63_writing",
    "C63_writing_tree"
   ],
   "note": "Every place of the modelled code whose arithmetic can overflow; the crate's other additions and subtractions are modelled without bound or shown in range by C08 and C31. The zlib implementation is taken to behave alike in both builds."
  },
  {
   "property": "C64",
   "status": "proved",
   "theorems": [
    "C64_reader",
    "C64_reader_total"
   ],
   "note": "with failing sources for successful loads; with sources that do not fail for all loads"
  },
  {
   "property": "C65",
   "status": "proved",
   "theorems": [
    "C65_items",
    "C65_items_total",
    "C65_compressed",
    "C65_determined"
   ],
   "note": "for uncompressed arrays the iterator is over the stream, not confined to the declared byte length (C19); compressed arrays under the zlib contract, for data that suffices for the count and a source that does not fail"
  },
  {
   "property": "C66",
   "status": "proved",
   "theorems": [
    "C66_silent",
    "C66_reported",
    "C66_any_tree"
   ],
   "note": "For all histories. C66_silent covers every loader (hypothesis: no read or seek failed during the calls); C66_reported and C66_any_tree assume that the compression library hands failures on (zlib_hands_on, shown for the stored-block instance). FailCases shows a run with later failures, a reported failure, and a loader outside the class that hides one."
  },
  {
   "property": "C67",
   "status": "partial",
   "theorems": [
    "C67_kinds",
    "C67_kind_says",
    "C67_walk_ends",
    "C67_reading",
    "C67_loading_partial",
    "C67_writing",
    "C67_header_refuted"
   ],
   "note": "Missing because the code does otherwise: an I/O failure while the file header is read is not found by walking along source (C67_header_refuted). Otherwise proved; zlib_hands_on is assumed for compressed arrays as in C54."
  },
  {
   "property": "C68",
   "status": "proved",
   "theorems": [
    "C68_loaded",
    "C68_rewrite",
    "C68_equal_trees_equal_bytes",
    "C68_equal_bytes_equal_trees"
   ],
   "note": "rewrite_ex: the sample document, with a compressed array, loaded and rewritten as version 7500. Whether writing succeeds is the subject of C32_can_be_written."
  },
  {
   "property": "C69",
   "status": "proved",
   "theorems": [
    "C69_causal"
   ],
   "note": "the condition that the calls take nothing of the differing ends is stated on the bytes left in the first reader; both ends are non-empty (the end of the data is something the parser can notice)"
  },
  {
   "property": "C70",
   "status": "partial",
   "theorems": [
    "C70_shows_partial",
    "C70_equal_trees_partial",
    "C70_tells_partial",
    "C70_cycle_refuted"
   ],
   "note": "proved for trees without cycles; insert_after can create a cycle (C34), and then formatting never returns"
  },
  {
   "property": "C71",
   "status": "partial",
   "theorems": [
    "C71_same_below_limit",
    "C71_plain_reader",
    "C71_load_plain",
    "C71_documents",
    "C71_writer",
    "C71_writer_too_long",
    "C71_panic_refuted",
    "C71_position_refuted",
    "C71_hint_refuted",
    "C71_writer_refuted"
   ],
   "note": "Every call sequence whose final position fits in usize gives the results of a 64-bit target; all files shorter than the limit through a plain reader, and all well-formed documents through a seekable one, qualify. Missing, because false of the code: malformed files through a seekable reader (a small file makes a 32-bit target panic), skips over 4 GiB, size hints for 2^32 declared attributes, and binary attributes of 4 GiB or more copied from a reader."
  },
  {
   "property": "C72",
   "status": "proved",
   "theorems": [
    "C72_can_be_rewritten",
    "C72_copy"
   ],
   "note": "Size limits as in the statement; C72_copy assumes the zlib contract zlib_roundtrip (as all reading-back theorems) and a standard footer."
  },
  {
   "property": "C73",
   "status": "proved",
   "theorems": [
    "C73_copy_reads_the_same",
    "C73_same_as_tree"
   ],
   "note": "The first theorem assumes the zlib contract zlib_roundtrip and a standard footer."
  },
  {
   "property": "C74",
   "status": "partial",
   "theorems": [
    "C74_numbers",
    "C74_cause_is_shown_partial",
    "C74_cause_as_debug",
    "C74_reader_partial",
    "C74_warnings",
    "C74_writer",
    "C74_loading_partial",
    "C74_default_errors",
    "C74_cause_refuted",
    "C74_distinct_refuted",
    "C74_magic_refuted",
    "C74_expected_and_got"
   ],
   "note": "The full statement is false of the code in three corners, each with a witness: BrokenCompression and InvalidNodeNameEncoding print their source as {:?}; UnexpectedAttribute texts with commas in the found part can collide; HeaderError::Io has no prefix. Proved with exactly those excluded; the writer's errors, warnings and misuse errors have no exclusion."
  },
  {
   "property": "C75",
   "status": "proved",
   "theorems": [
    "C75_reading",
    "C75_position",
    "C75_tree",
    "C75_archive",
    "C75_writing"
   ],
   "note": ""
  },
  {
   "property": "C76",
   "status": "partial",
   "theorems": [
    "C76_calls",
    "C76_edit_partial",
    "C76_session_partial",
    "C76_growing",
    "C76_passed",
    "C76_detach_opened_refuted",
    "C76_move_refuted"
   ],
   "note": "Proved for every edit that does not move the node of a cursor (or moves the whole traversed subtree along), in particular for all additions and attribute changes (C76_growing) and for nodes already passed (C76_passed). For other edits the code does not have the property: detaching a node just opened makes a later call panic, and moving the node of the other cursor lets the traversal leave its subtree."
  },
  {
   "property": "C77",
   "status": "partial",
   "theorems": [
    "C77_observers",
    "C77_documents",
    "C77_operations",
    "C77_reflexive",
    "C77_partial_equivalence",
    "C77_strict_refuted",
    "C77_history_refuted"
   ],
   "note": "Everything but the last sentence is proved. Trees that stand for the same document compare unequal when their nodes were created in another order (C77_history_refuted); == does not tell 0.0 from -0.0, so it does not imply strict_eq (C77_strict_refuted)."
  },
  {
   "property": "C78",
   "status": "proved",
   "theorems": [
    "C78_pieces",
    "C78_until_failure",
    "C78_no_failure"
   ],
   "note": "For all histories, including calls that fail and trees. C78_pieces assumes that no call fails because the file would exceed 2^63-1 bytes."
  },
  {
   "property": "C79",
   "status": "proved",
   "theorems": [
    "C79_next_document",
    "C79_documents_in_a_row",
    "C79_finished_is_one_document",
    "C79_written_is_one_document",
    "C79_end_of_row"
   ],
   "note": "one_document is defined through any_tree on the bytes alone; finished documents are proved to satisfy it under the zlib_roundtrip hypothesis"
  },
  {
   "property": "C80",
   "status": "proved",
   "theorems": [
    "C80_printing",
    "C80_comparing",
    "C80_comparing_equal",
    "C80_file_bounds_levels",
    "C80_bounded_nesting_refuted"
   ],
   "note": "The statement includes the negative part: the nesting is not bounded independently of the file. What one call takes of the machine stack is not modelled."
  },
  {
   "property": "C81",
   "status": "proved",
   "theorems": [
    "C81_zlib_contracts",
    "C81_document_round_trip",
    "C81_tree_of_document"
   ],
   "note": "For one implementation of RFC 1950 and 1951, with an encoder that writes literals only; it is not a model of libflate. Cases with arrays compressed by zlib 1.2.13 are in PropsDeflate.v."
  },
  {
   "property": "C82",
   "status": "partial",
   "theorems": [
    "C82_next_prev",
    "C82_walk",
    "C82_document_partial",
    "C82_root_end_refuted",
    "C82_orders"
   ],
   "note": "The walk is proved for trees without cycles, its end for a root that was never moved nor given siblings; with a moved root next returns an event for the closing of the root, against the documentation (C82_root_end_refuted), and with a cycle a walk may not end (C39_cycle_refuted)."
  },
  {
   "property": "C83",
   "status": "proved",
   "theorems": [
    "C83_children",
    "C83_first"
   ],
   "note": "the indextree iterator is modelled as its documentation says: a current node that moves to the next sibling"
  },
  {
   "property": "C84",
   "status": "partial",
   "theorems": [
    "C84_documents",
    "C84_brings",
    "C84_edit_partial",
    "C84_session_partial",
    "C84_save_partial",
    "C84_before_refuted"
   ],
   "note": "missing: insert_before (it inserts after, C84_before_refuted), putting a node beside its own descendant (which makes a cycle, C34_no_cycle_refuted), attributes of the root (they are not written, C32)"
  },
  {
   "property": "C85",
   "status": "proved",
   "theorems": [
    "C85_value",
    "C85_events",
    "C85_tree",
    "C85_rewritten",
    "C85_deflate",
    "C85_stored"
   ],
   "note": "the bound of the decoder is a hypothesis (expands_by), proved for a decoder of the whole DEFLATE format; libflate itself is not modelled"
  },
  {
   "property": "C86",
   "status": "proved",
   "theorems": [
    "C86_events",
    "C86_tree_refuted"
   ],
   "note": "Events, version, footer and node warnings of the damaged file are those of the given one. The claim is about reading events without loading attributes: C86_tree_refuted is a file in which one changed byte of an attribute makes tree loading drop a child node without any error, because array loads are not confined (see C19). An unreadable footer stays unreadable; its error is not compared."
  },
  {
   "property": "C87",
   "status": "partial",
   "theorems": [
    "C87_picked_partial",
    "C87_as_in_tree_partial",
    "C87_plain_refuted",
    "C87_any_file_refuted"
   ],
   "note": "Proved for every well-formed document followed by any bytes, over every seekable reader. The full statement is false of the code: over a reader that cannot seek the client gets a wrong answer without an error (C87_plain_refuted), and in a file with an array that claims more elements than bytes it finds a node that the tree does not have (C87_any_file_refuted)."
  },
  {
   "property": "C88",
   "status": "proved",
   "theorems": [
    "C88_same_size_value",
    "C88_overwritten"
   ],
   "note": "All calls, documents and values; the calls that append a string from an iterator of chars are used with 4-byte characters only, as in C26 (see C30)."
  },
  {
   "property": "C89",
   "status": "proved",
   "theorems": [
    "C89_bytes",
    "C89_file",
    "C89_footer"
   ],
   "note": "Under the zlib round trip contract. Strings given as character iterators count as the bytes the writer takes from them, as in C26."
  },
  {
   "property": "C90",
   "status": "proved",
   "theorems": [
    "C90_size",
    "C90_multiple_of_16",
    "C90_versions",
    "C90_fits"
   ],
   "note": "The size of compressed data is what the zlib encoder returns. The statement about what fits is for sinks that do not fail and hold less than 2^63 bytes."
  },
  {
   "property": "C91",
   "status": "proved",
   "theorems": [
    "C91_stays",
    "C91_finished",
    "C91_prefix"
   ],
   "note": "Between calls: within one call, the length fields of the attribute being written are filled in, too. Strings given as character iterators as in C26."
  }
 ]
}