(** The assumptions of every theorem listed in MANIFEST.json. *)
Require Verif.PropsAlloc Verif.PropsAnyTree Verif.PropsAttr Verif.PropsAttrPos Verif.PropsBuild Verif.PropsCausal Verif.PropsCopy Verif.PropsCrash Verif.PropsCrashPlain Verif.PropsDamage Verif.PropsDebug Verif.PropsDeflate Verif.PropsDepth Verif.PropsDoc Verif.PropsEmbed Verif.PropsErr Verif.PropsErrView Verif.PropsEvents Verif.PropsExpand Verif.PropsFail Verif.PropsFooter Verif.PropsForest Verif.PropsHandler Verif.PropsHeader Verif.PropsIds Verif.PropsInARow Verif.PropsItems Verif.PropsIter Verif.PropsIterErr Verif.PropsIterate Verif.PropsLayout Verif.PropsLength Verif.PropsMessages Verif.PropsNorm Verif.PropsOneDoc Verif.PropsPatch Verif.PropsPick Verif.PropsPlain Verif.PropsPos Verif.PropsReader Verif.PropsRel Verif.PropsRewrite Verif.PropsRound Verif.PropsSafety Verif.PropsSettled Verif.PropsSink Verif.PropsSinkRel Verif.PropsStep Verif.PropsStored Verif.PropsTarget Verif.PropsTraverse Verif.PropsTree Verif.PropsTreeCmp Verif.PropsTreeEq Verif.PropsTreeIo Verif.PropsTrunc Verif.PropsTruth Verif.PropsTyped Verif.PropsValue Verif.PropsVersion Verif.PropsWalkEdit Verif.PropsWriter.

(* C01 *)
Print Assumptions Verif.PropsHeader.C01_header_load.
Print Assumptions Verif.PropsHeader.C01_header_spec_exclusive.
Print Assumptions Verif.PropsHeader.C01_header_load_any_schedule.
(* C02 *)
Print Assumptions Verif.PropsHeader.C02_parser_creation.
Print Assumptions Verif.PropsHeader.C02_never_panics.
Print Assumptions Verif.PropsHeader.C02_parser_create.
Print Assumptions Verif.PropsWriter.C02_writer_versions.
(* C03 *)
Print Assumptions Verif.PropsRel.C03_schedule_independence.
Print Assumptions Verif.PropsRel.C03_direct_loader_regular.
(* C04 *)
Print Assumptions Verif.PropsEvents.C04_position_is_offset_seekable.
Print Assumptions Verif.PropsEvents.C04_position_is_offset_plain_partial.
Print Assumptions Verif.PropsEvents.C04_position_plain_refuted.
(* C05 *)
Print Assumptions Verif.PropsEvents.C05_events_well_nested.
Print Assumptions Verif.PropsEvents.C05_end_fbx_is_last.
Print Assumptions Verif.PropsEvents.C05_depth.
Print Assumptions Verif.PropsEvents.C05_depth_after_error_partial.
Print Assumptions Verif.PropsEvents.C05_depth_after_error_refuted.
(* C06 *)
Print Assumptions Verif.PropsEvents.C06_errors_are_sticky.
Print Assumptions Verif.PropsEvents.C06_already_finished_only_after_end.
(* C07 *)
Print Assumptions Verif.PropsEvents.C07_end_is_final.
(* C08 *)
Print Assumptions Verif.PropsSafety.C08_no_panic.
Print Assumptions Verif.PropsSafety.C08_no_panic_run.
Print Assumptions Verif.PropsSafety.C08_open_no_panic.
Print Assumptions Verif.PropsSafety.C08_overflow_refuted.
(* C09 *)
Print Assumptions Verif.PropsSafety.C09_event_count_bound.
(* C10 *)
Print Assumptions Verif.PropsRel.C10_accepting_handler.
Print Assumptions Verif.PropsRel.C10_rejecting_handler.
(* C11 *)
Print Assumptions Verif.PropsSafety.C11_end_marker_warnings.
(* C12 *)
Print Assumptions Verif.PropsDoc.C12_skip_is_reading_to_end.
Print Assumptions Verif.PropsDoc.C12_reading_closes.
Print Assumptions Verif.PropsSafety.C12_skip_panics_iff.
Print Assumptions Verif.PropsSafety.C12_skip_panics_refuted.
(* C13 *)
Print Assumptions Verif.PropsEvents.C13_node_path.
(* C14 *)
Print Assumptions Verif.PropsHeader.C14_type_codes.
Print Assumptions Verif.PropsHeader.C14_writer_codes.
Print Assumptions Verif.PropsHeader.C14_encodings.
Print Assumptions Verif.PropsHeader.C14_unknown_code_rejected.
Print Assumptions Verif.PropsHeader.C14_unknown_encoding_rejected.
(* C15 *)
Print Assumptions Verif.PropsRound.C15_written_attribute_reads_back.
Print Assumptions Verif.PropsAttr.C15_load_all.
Print Assumptions Verif.PropsAttr.C15_any_loader.
(* C16 *)
Print Assumptions Verif.PropsSafety.C16_load_step.
Print Assumptions Verif.PropsSafety.C16_none_forever.
Print Assumptions Verif.PropsSafety.C16_start_counts.
Print Assumptions Verif.PropsSafety.C16_load_sequence.
(* C17 *)
Print Assumptions Verif.PropsAttr.C17_boolean.
Print Assumptions Verif.PropsAttr.C17_boolean_array.
(* C18 *)
Print Assumptions Verif.PropsAttr.C18_confined.
Print Assumptions Verif.PropsAttr.C18_next_attribute.
(* C19 *)
Print Assumptions Verif.PropsAttr.C19_refuted.
Print Assumptions Verif.PropsAttr.C19_direct_partial.
Print Assumptions Verif.PropsAttr.C19_wellformed_partial.
(* C20 *)
Print Assumptions Verif.PropsTrunc.C20_consumed_in_stream.
Print Assumptions Verif.PropsTrunc.C20_rest_never_matters.
Print Assumptions Verif.PropsTrunc.C20_truncated.
Print Assumptions Verif.PropsTrunc.C20_truncated_any_schedule.
Print Assumptions Verif.PropsTrunc.C20_bundled_loaders_consume.
(* C21 *)
Print Assumptions Verif.PropsAttr.C21_refuted.
Print Assumptions Verif.PropsAttr.C21_truncated_partial.
(* C22 *)
Print Assumptions Verif.PropsDoc.C22_events_of_document.
Print Assumptions Verif.PropsDoc.C22_events_independent_of_loading.
(* C23 *)
Print Assumptions Verif.PropsPlain.C23_plain_equals_seekable_refuted.
Print Assumptions Verif.PropsPlain.C23_no_skip_partial.
Print Assumptions Verif.PropsPlain.C23_good_end_partial.
(* C24 *)
Print Assumptions Verif.PropsFooter.C24_footer.
Print Assumptions Verif.PropsFooter.C24_footer_in_file.
(* C25 *)
Print Assumptions Verif.PropsRound.C25_footer_read_back.
Print Assumptions Verif.PropsRound.C25_default_padding_aligns.
(* C26 *)
Print Assumptions Verif.PropsRound.C26_document_round_trip.
Print Assumptions Verif.PropsRound.C26_opens.
Print Assumptions Verif.PropsRound.C26_no_warnings.
Print Assumptions Verif.PropsDoc.C26_reader_agrees_with_document.
Print Assumptions Verif.PropsDoc.C26_calls_defined.
(* C27 *)
Print Assumptions Verif.PropsWriter.C27_layout.
Print Assumptions Verif.PropsWriter.C27_finished.
(* C28 *)
Print Assumptions Verif.PropsWriter.C28_close_without_open.
Print Assumptions Verif.PropsWriter.C28_finalize_with_open.
Print Assumptions Verif.PropsWriter.C28_long_name_partial.
Print Assumptions Verif.PropsWriter.Cases.C28_long_name_refuted.
(* C29 *)
Print Assumptions Verif.PropsWriter.C29_closed_nodes_fit.
Print Assumptions Verif.PropsWriter.C29_finished_fits.
Print Assumptions Verif.PropsSink.C29_node_too_large.
Print Assumptions Verif.PropsSink.C29_long_attribute_never_ok.
Print Assumptions Verif.PropsSink.C29_long_attribute_error.
(* C30 *)
Print Assumptions Verif.PropsWriter.C30_string_from_chars_partial.
Print Assumptions Verif.PropsWriter.C30_bytes_written.
Print Assumptions Verif.PropsWriter.C30_same_iff.
Print Assumptions Verif.PropsWriter.Cases.C30_string_from_chars_refuted.
(* C31 *)
Print Assumptions Verif.PropsSink.C31_failures_reported.
Print Assumptions Verif.PropsSink.C31_flush_reported.
Print Assumptions Verif.PropsSink.C31_creation_reported.
Print Assumptions Verif.PropsSink.C31_no_panic_partial.
Print Assumptions Verif.PropsSink.SinkCases.C31_refuted.
(* C32 *)
Print Assumptions Verif.PropsTreeIo.C32_round_trip_partial.
Print Assumptions Verif.PropsTreeIo.C32_can_be_written.
Print Assumptions Verif.PropsTreeIo.C32_calls.
Print Assumptions Verif.PropsTreeIo.C32_write_macro.
Print Assumptions Verif.PropsTreeIo.C32_tree_macro.
Print Assumptions Verif.PropsTreeIo.C32_macros_agree.
Print Assumptions Verif.PropsTreeIo.TreeIoCases.C32_root_attributes_refuted.
Print Assumptions Verif.PropsTreeIo.TreeIoCases.C32_cycle_refuted.
(* C33 *)
Print Assumptions Verif.PropsTreeIo.C33_load_reads.
Print Assumptions Verif.PropsTreeIo.C33_reads_load.
Print Assumptions Verif.PropsTreeIo.C33_items_determine_tree.
Print Assumptions Verif.PropsTreeIo.C33_used_parser_refused.
Print Assumptions Verif.PropsTreeIo.C33_fresh_parser_accepted.
Print Assumptions Verif.PropsTreeIo.C33_no_panic.
Print Assumptions Verif.PropsTreeIo.C33_document.
(* C34 *)
Print Assumptions Verif.PropsTree.C34_links_consistent.
Print Assumptions Verif.PropsTree.C34_no_cycle_partial.
Print Assumptions Verif.PropsTree.C34_no_cycle_refuted.
(* C35 *)
Print Assumptions Verif.PropsTree.C35_append.
Print Assumptions Verif.PropsTree.C35_prepend.
Print Assumptions Verif.PropsTree.C35_insert_after.
Print Assumptions Verif.PropsTree.C35_append_new.
Print Assumptions Verif.PropsTree.C35_prepend_new.
Print Assumptions Verif.PropsTree.C35_insert_new_after.
Print Assumptions Verif.PropsTree.C35_insert_new_before.
Print Assumptions Verif.PropsTree.C35_append_panics.
Print Assumptions Verif.PropsTree.C35_insert_after_panics.
Print Assumptions Verif.PropsTree.C35_insert_before_refuted.
(* C36 *)
Print Assumptions Verif.PropsTree.C36_detach.
Print Assumptions Verif.PropsTree.C36_panics.
Print Assumptions Verif.PropsTree.C36_root_partial.
Print Assumptions Verif.PropsTree.C36_root_refuted.
(* C37 *)
Print Assumptions Verif.PropsTree.C37_lookup.
Print Assumptions Verif.PropsTree.C37_names.
(* C38 *)
Print Assumptions Verif.PropsTreeEq.C38_value_strict_eq.
Print Assumptions Verif.PropsTreeEq.C38_document_unique.
Print Assumptions Verif.PropsTreeEq.C38_document_exists.
Print Assumptions Verif.PropsTreeEq.C38_strict_eq_partial.
Print Assumptions Verif.PropsTreeEq.C38_tree_strict_eq_partial.
Print Assumptions Verif.PropsTreeEq.C38_equivalence_partial.
Print Assumptions Verif.PropsTreeEq.C38_cycle_refuted.
(* C39 *)
Print Assumptions Verif.PropsTraverse.C39_deque_partial.
Print Assumptions Verif.PropsTraverse.C39_subtree.
Print Assumptions Verif.PropsTraverse.C39_events.
Print Assumptions Verif.PropsTraverse.C39_every_event_once_partial.
Print Assumptions Verif.PropsTraverse.C39_cycle_refuted.
(* C40 *)
Print Assumptions Verif.PropsTree.C40_append_attribute.
Print Assumptions Verif.PropsTree.C40_append_attribute_panics.
Print Assumptions Verif.PropsTree.C40_assign_attribute.
Print Assumptions Verif.PropsTree.C40_take_attributes.
Print Assumptions Verif.PropsTree.C40_set_attributes.
Print Assumptions Verif.PropsTree.C40_root_partial.
Print Assumptions Verif.PropsTree.C40_root_refuted.
(* C41 *)
Print Assumptions Verif.PropsHeader.C41_getters.
(* C42 *)
Print Assumptions Verif.PropsAttr.C42_refuted.
Print Assumptions Verif.PropsAttr.C42_same_entry_points_partial.
(* C43 *)
Print Assumptions Verif.PropsAttr.C43_refuted.
Print Assumptions Verif.PropsAttr.C43_size_hint_partial.
(* C44 *)
Print Assumptions Verif.PropsSink.C44_every_document_can_be_written.
(* C45 *)
Print Assumptions Verif.PropsIterErr.C45_array_errors_not_hidden.
(* C46 *)
Print Assumptions Verif.PropsTyped.C46_single_type_loaders.
Print Assumptions Verif.PropsTyped.C46_type_loader.
(* C47 *)
Print Assumptions Verif.PropsVersion.C47_digits.
Print Assumptions Verif.PropsVersion.C47_order.
Print Assumptions Verif.PropsVersion.C47_reader_and_writer_agree.
(* C48 *)
Print Assumptions Verif.PropsAnyTree.C48_any_tree.
Print Assumptions Verif.PropsAnyTree.C48_schedule_independence.
Print Assumptions Verif.PropsAnyTree.C48_end_of_file.
Print Assumptions Verif.PropsAnyTree.C48_no_panic.
(* C49 *)
Print Assumptions Verif.PropsHandler.C49_one_handler_suffices.
Print Assumptions Verif.PropsHandler.C49_last_one_decides.
Print Assumptions Verif.PropsHandler.C49_accepting_handlers.
Print Assumptions Verif.PropsHandler.C49_no_panic.
(* C50 *)
Print Assumptions Verif.PropsPos.C50_component_position.
Print Assumptions Verif.PropsPos.C50_event_error_position.
Print Assumptions Verif.PropsPos.C50_load_error_position.
Print Assumptions Verif.PropsAttrPos.C50_attribute_offset.
(* C51 *)
Print Assumptions Verif.PropsPos.C51_warnings_in_order.
Print Assumptions Verif.PropsPos.C51_warning_places.
(* C52 *)
Print Assumptions Verif.PropsPos.C52_current_node_name.
Print Assumptions Verif.PropsPos.C52_is_used.
(* C53 *)
Print Assumptions Verif.PropsLayout.C53_accepted_layout.
Print Assumptions Verif.PropsLayout.C53_layout_accepted.
Print Assumptions Verif.PropsLayout.C53_accepted_iff.
Print Assumptions Verif.PropsLayout.C53_layout_unique.
(* C54 *)
Print Assumptions Verif.PropsErr.C54_events.
Print Assumptions Verif.PropsErr.C54_loads.
Print Assumptions Verif.PropsErr.C54_shipped_loaders.
Print Assumptions Verif.PropsErr.C54_open.
(* C55 *)
Print Assumptions Verif.PropsTruth.C55_events_true.
(* C56 *)
Print Assumptions Verif.PropsStored.C56_values_true.
(* C57 *)
Print Assumptions Verif.PropsCrash.C57_end_through_headers.
Print Assumptions Verif.PropsCrash.C57_tree_end.
Print Assumptions Verif.PropsCrashPlain.C57_plain_end_partial.
(* C58 *)
Print Assumptions Verif.PropsCrash.C58_unfinished_partial.
Print Assumptions Verif.PropsCrash.C58_finalize_partial.
Print Assumptions Verif.PropsCrash.C58_tree_unfinished_partial.
Print Assumptions Verif.PropsCrashPlain.C58_plain_unfinished_partial.
Print Assumptions Verif.PropsCrash.CrashCases.C58_empty_name_refuted.
Print Assumptions Verif.PropsCrash.CrashCases.C58_torn_offset_refuted.
Print Assumptions Verif.PropsCrashPlain.PlainCases.C58_plain_skip_refuted.
Print Assumptions Verif.PropsCrash.CrashCases.C58_overwrite_refuted.
(* C59 *)
Print Assumptions Verif.PropsIter.C59_array_items_partial.
Print Assumptions Verif.PropsIter.C59_attributes_fused_partial.
Print Assumptions Verif.PropsIter.IterCases.C59_array_endless_refuted.
Print Assumptions Verif.PropsIter.IterCases.C59_attributes_endless_refuted.
Print Assumptions Verif.PropsIter.IterCases.C59_unfused_refuted.
(* C60 *)
Print Assumptions Verif.PropsAlloc.AllocCases.C60_refuted.
Print Assumptions Verif.PropsAlloc.C60_capacity_partial.
Print Assumptions Verif.PropsAlloc.C60_demand_partial.
(* C61 *)
Print Assumptions Verif.PropsValue.C61_eq.
Print Assumptions Verif.PropsValue.C61_partial_equivalence.
Print Assumptions Verif.PropsValue.C61_strict_and_eq.
Print Assumptions Verif.PropsValue.C61_from.
(* C62 *)
Print Assumptions Verif.PropsIds.C62_ids.
Print Assumptions Verif.PropsIds.C62_handles_work.
(* C63 *)
Print Assumptions Verif.PropsBuild.C63_reading.
Print Assumptions Verif.PropsBuild.C63_reading_old.
Print Assumptions Verif.PropsBuild.C63_loading.
Print Assumptions Verif.PropsBuild.C63_writing.
Print Assumptions Verif.PropsBuild.C63_writing_tree.
(* C64 *)
Print Assumptions Verif.PropsReader.C64_reader.
Print Assumptions Verif.PropsReader.C64_reader_total.
(* C65 *)
Print Assumptions Verif.PropsItems.C65_items.
Print Assumptions Verif.PropsItems.C65_items_total.
Print Assumptions Verif.PropsItems.C65_compressed.
Print Assumptions Verif.PropsItems.C65_determined.
(* C66 *)
Print Assumptions Verif.PropsFail.C66_silent.
Print Assumptions Verif.PropsFail.C66_reported.
Print Assumptions Verif.PropsFail.C66_any_tree.
(* C67 *)
Print Assumptions Verif.PropsErrView.C67_kinds.
Print Assumptions Verif.PropsErrView.C67_kind_says.
Print Assumptions Verif.PropsErrView.C67_walk_ends.
Print Assumptions Verif.PropsErrView.C67_reading.
Print Assumptions Verif.PropsErrView.C67_loading_partial.
Print Assumptions Verif.PropsErrView.C67_writing.
Print Assumptions Verif.PropsErrView.C67_header_refuted.
(* C68 *)
Print Assumptions Verif.PropsNorm.C68_loaded.
Print Assumptions Verif.PropsNorm.C68_rewrite.
Print Assumptions Verif.PropsNorm.C68_equal_trees_equal_bytes.
Print Assumptions Verif.PropsNorm.C68_equal_bytes_equal_trees.
(* C69 *)
Print Assumptions Verif.PropsCausal.C69_causal.
(* C70 *)
Print Assumptions Verif.PropsDebug.C70_shows_partial.
Print Assumptions Verif.PropsDebug.C70_equal_trees_partial.
Print Assumptions Verif.PropsDebug.C70_tells_partial.
Print Assumptions Verif.PropsDebug.C70_cycle_refuted.
(* C71 *)
Print Assumptions Verif.PropsTarget.C71_same_below_limit.
Print Assumptions Verif.PropsTarget.C71_plain_reader.
Print Assumptions Verif.PropsTarget.C71_load_plain.
Print Assumptions Verif.PropsTarget.C71_documents.
Print Assumptions Verif.PropsTarget.C71_writer.
Print Assumptions Verif.PropsTarget.C71_writer_too_long.
Print Assumptions Verif.PropsTarget.C71_panic_refuted.
Print Assumptions Verif.PropsTarget.C71_position_refuted.
Print Assumptions Verif.PropsTarget.C71_hint_refuted.
Print Assumptions Verif.PropsTarget.C71_writer_refuted.
(* C72 *)
Print Assumptions Verif.PropsRewrite.C72_can_be_rewritten.
Print Assumptions Verif.PropsRewrite.C72_copy.
(* C73 *)
Print Assumptions Verif.PropsCopy.C73_copy_reads_the_same.
Print Assumptions Verif.PropsCopy.C73_same_as_tree.
(* C74 *)
Print Assumptions Verif.PropsMessages.C74_numbers.
Print Assumptions Verif.PropsMessages.C74_cause_is_shown_partial.
Print Assumptions Verif.PropsMessages.C74_cause_as_debug.
Print Assumptions Verif.PropsMessages.C74_reader_partial.
Print Assumptions Verif.PropsMessages.C74_warnings.
Print Assumptions Verif.PropsMessages.C74_writer.
Print Assumptions Verif.PropsMessages.C74_loading_partial.
Print Assumptions Verif.PropsMessages.C74_default_errors.
Print Assumptions Verif.PropsMessages.C74_cause_refuted.
Print Assumptions Verif.PropsMessages.C74_distinct_refuted.
Print Assumptions Verif.PropsMessages.C74_magic_refuted.
Print Assumptions Verif.PropsMessages.C74_expected_and_got.
(* C75 *)
Print Assumptions Verif.PropsEmbed.C75_reading.
Print Assumptions Verif.PropsEmbed.C75_position.
Print Assumptions Verif.PropsEmbed.C75_tree.
Print Assumptions Verif.PropsEmbed.C75_archive.
Print Assumptions Verif.PropsEmbed.C75_writing.
(* C76 *)
Print Assumptions Verif.PropsWalkEdit.C76_calls.
Print Assumptions Verif.PropsWalkEdit.C76_edit_partial.
Print Assumptions Verif.PropsWalkEdit.C76_session_partial.
Print Assumptions Verif.PropsWalkEdit.C76_growing.
Print Assumptions Verif.PropsWalkEdit.C76_passed.
Print Assumptions Verif.PropsWalkEdit.C76_detach_opened_refuted.
Print Assumptions Verif.PropsWalkEdit.C76_move_refuted.
(* C77 *)
Print Assumptions Verif.PropsTreeCmp.C77_observers.
Print Assumptions Verif.PropsTreeCmp.C77_documents.
Print Assumptions Verif.PropsTreeCmp.C77_operations.
Print Assumptions Verif.PropsTreeCmp.C77_reflexive.
Print Assumptions Verif.PropsTreeCmp.C77_partial_equivalence.
Print Assumptions Verif.PropsTreeCmp.C77_strict_refuted.
Print Assumptions Verif.PropsTreeCmp.C77_history_refuted.
(* C78 *)
Print Assumptions Verif.PropsSinkRel.C78_pieces.
Print Assumptions Verif.PropsSinkRel.C78_until_failure.
Print Assumptions Verif.PropsSinkRel.C78_no_failure.
(* C79 *)
Print Assumptions Verif.PropsInARow.C79_next_document.
Print Assumptions Verif.PropsInARow.C79_documents_in_a_row.
Print Assumptions Verif.PropsInARow.C79_finished_is_one_document.
Print Assumptions Verif.PropsInARow.C79_written_is_one_document.
Print Assumptions Verif.PropsInARow.C79_end_of_row.
(* C80 *)
Print Assumptions Verif.PropsDepth.C80_printing.
Print Assumptions Verif.PropsDepth.C80_comparing.
Print Assumptions Verif.PropsDepth.C80_comparing_equal.
Print Assumptions Verif.PropsDepth.C80_file_bounds_levels.
Print Assumptions Verif.PropsDepth.DepthCases.C80_bounded_nesting_refuted.
(* C81 *)
Print Assumptions Verif.PropsDeflate.C81_zlib_contracts.
Print Assumptions Verif.PropsDeflate.C81_document_round_trip.
Print Assumptions Verif.PropsDeflate.C81_tree_of_document.
(* C82 *)
Print Assumptions Verif.PropsStep.C82_next_prev.
Print Assumptions Verif.PropsStep.C82_walk.
Print Assumptions Verif.PropsStep.C82_document_partial.
Print Assumptions Verif.PropsStep.C82_root_end_refuted.
Print Assumptions Verif.PropsStep.C82_orders.
(* C83 *)
Print Assumptions Verif.PropsIterate.C83_children.
Print Assumptions Verif.PropsIterate.C83_first.
(* C84 *)
Print Assumptions Verif.PropsForest.C84_documents.
Print Assumptions Verif.PropsForest.C84_brings.
Print Assumptions Verif.PropsForest.C84_edit_partial.
Print Assumptions Verif.PropsForest.C84_session_partial.
Print Assumptions Verif.PropsForest.C84_save_partial.
Print Assumptions Verif.PropsForest.C84_before_refuted.
(* C85 *)
Print Assumptions Verif.PropsExpand.C85_value.
Print Assumptions Verif.PropsExpand.C85_events.
Print Assumptions Verif.PropsExpand.C85_tree.
Print Assumptions Verif.PropsExpand.C85_rewritten.
Print Assumptions Verif.PropsExpand.C85_deflate.
Print Assumptions Verif.PropsExpand.C85_stored.
(* C86 *)
Print Assumptions Verif.PropsDamage.C86_events.
Print Assumptions Verif.PropsDamage.C86_tree_refuted.
(* C87 *)
Print Assumptions Verif.PropsPick.C87_picked_partial.
Print Assumptions Verif.PropsPick.C87_as_in_tree_partial.
Print Assumptions Verif.PropsPick.PickCases.C87_plain_refuted.
Print Assumptions Verif.PropsPick.PickCases.C87_any_file_refuted.
(* C88 *)
Print Assumptions Verif.PropsPatch.C88_same_size_value.
Print Assumptions Verif.PropsPatch.C88_overwritten.
(* C89 *)
Print Assumptions Verif.PropsOneDoc.C89_bytes.
Print Assumptions Verif.PropsOneDoc.C89_file.
Print Assumptions Verif.PropsOneDoc.C89_footer.
(* C90 *)
Print Assumptions Verif.PropsLength.C90_size.
Print Assumptions Verif.PropsLength.C90_multiple_of_16.
Print Assumptions Verif.PropsLength.C90_versions.
Print Assumptions Verif.PropsLength.C90_fits.
(* C91 *)
Print Assumptions Verif.PropsSettled.C91_stays.
Print Assumptions Verif.PropsSettled.C91_finished.
Print Assumptions Verif.PropsSettled.C91_prefix.
