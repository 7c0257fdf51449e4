{
 "claims": [
  {
   "property": "C01",
   "status": "proved",
   "theorems": [
    "C01_compress_decompress",
    "C01_compress_rejects_invalid"
   ],
   "note": ""
  },
  {
   "property": "C02",
   "status": "proved",
   "theorems": [
    "C02_decompress_succeeds_iff",
    "C02_decompress_recompress",
    "C02_decompress_injective"
   ],
   "note": ""
  },
  {
   "property": "C03",
   "status": "proved",
   "theorems": [
    "C03_parse_type",
    "C03_parse_printed_types",
    "C03_parse_types_only_printed"
   ],
   "note": ""
  },
  {
   "property": "C04",
   "status": "proved",
   "theorems": [
    "C04_suffix_of_type",
    "C04_lookup_inverts",
    "C04_lookup_smallest"
   ],
   "note": ""
  },
  {
   "property": "C05",
   "status": "proved",
   "theorems": [
    "C05_quantiles",
    "C05_options_quantiles"
   ],
   "note": ""
  },
  {
   "property": "C06",
   "status": "proved",
   "theorems": [
    "C06_equal_iff_permutation"
   ],
   "note": ""
  },
  {
   "property": "C07",
   "status": "proved",
   "theorems": [
    "C07_storage_policy_text",
    "C07_policy_text",
    "C07_storage_policy_malformed",
    "C07_policy_malformed"
   ],
   "note": ""
  },
  {
   "property": "C08",
   "status": "proved",
   "theorems": [
    "C08_storage_policy_proto",
    "C08_invalid_precision",
    "C08_malformed_message",
    "C08_storage_policies_proto",
    "C08_policy_proto"
   ],
   "note": ""
  },
  {
   "property": "C09",
   "status": "proved",
   "theorems": [
    "C09_drop_priority",
    "C09_idempotent",
    "C09_never_empty"
   ],
   "note": ""
  },
  {
   "property": "C10",
   "status": "proved",
   "theorems": [
    "C10_all_stages_drop",
    "C10_some_stage_survives"
   ],
   "note": ""
  },
  {
   "property": "C11",
   "status": "partial",
   "theorems": [
    "C11_grammar",
    "C11_glob_refuted",
    "C11_glob_partial",
    "C11_glob_overlap",
    "C11_glob_sound",
    "C11_glob_negated_complete"
   ],
   "note": "False as stated (refuted); proved under the condition named in the partial theorem."
  },
  {
   "property": "C12",
   "status": "proved",
   "theorems": [
    "C12_combinators",
    "C12_filter_value"
   ],
   "note": ""
  },
  {
   "property": "C13",
   "status": "proved",
   "theorems": [
    "C13_conjunction",
    "C13_conjunction_malformed",
    "C13_disjunction",
    "C13_edges"
   ],
   "note": ""
  },
  {
   "property": "C14",
   "status": "proved",
   "theorems": [
    "C14_tokens",
    "C14_parse",
    "C14_order",
    "C14_validate"
   ],
   "note": ""
  },
  {
   "property": "C15",
   "status": "proved",
   "theorems": [
    "C15_rollup_id_parses",
    "C15_is_rollup_id"
   ],
   "note": ""
  },
  {
   "property": "C16",
   "status": "proved",
   "theorems": [
    "C16_canonical",
    "C16_collision_free"
   ],
   "note": ""
  },
  {
   "property": "C17",
   "status": "proved",
   "theorems": [
    "C17_split",
    "C17_iterate",
    "C17_lookup",
    "C17_lookup_no_id",
    "C17_well_formed"
   ],
   "note": ""
  },
  {
   "property": "C18",
   "status": "proved",
   "theorems": [
    "C18_pipeline_equality",
    "C18_pipeline_equivalence",
    "C18_applied_equality",
    "C18_applied_equivalence",
    "C18_sub_pipeline"
   ],
   "note": ""
  },
  {
   "property": "C19",
   "status": "proved",
   "theorems": [
    "C19_pipeline_proto",
    "C19_unknown_codes",
    "C19_invalid_operations",
    "C19_marshaler"
   ],
   "note": ""
  },
  {
   "property": "C20",
   "status": "proved",
   "theorems": [
    "C20_staged_metadatas_proto",
    "C20_forward_metadata_proto",
    "C20_timed_metadata_proto"
   ],
   "note": ""
  },
  {
   "property": "C21",
   "status": "partial",
   "theorems": [
    "C21_clone_equal_refuted",
    "C21_clone_equal_partial",
    "C21_clone_list_partial",
    "C21_metadata_equality"
   ],
   "note": "Clone drops the drop policy (refuted); proved for what Clone keeps."
  },
  {
   "property": "C22",
   "status": "proved",
   "theorems": [
    "C22_stages",
    "C22_pairs_preserved",
    "C22_no_repetition",
    "C22_default"
   ],
   "note": ""
  },
  {
   "property": "C23",
   "status": "proved",
   "theorems": [
    "C23_in_effect",
    "C23_not_yet",
    "C23_greatest_cutover"
   ],
   "note": ""
  },
  {
   "property": "C24",
   "status": "proved",
   "theorems": [
    "C24_forward",
    "C24_reverse"
   ],
   "note": ""
  },
  {
   "property": "C25",
   "status": "proved",
   "theorems": [
    "C25_cutovers",
    "C25_next_change"
   ],
   "note": ""
  },
  {
   "property": "C26",
   "status": "proved",
   "theorems": [
    "C26_instant",
    "C26_instant_untagged",
    "C26_provenance",
    "C26_live_exist"
   ],
   "note": ""
  },
  {
   "property": "C27",
   "status": "partial",
   "theorems": [
    "C27_rollup_match_refuted",
    "C27_mapping_partial"
   ],
   "note": "Refuted for rollup matches; proved for mapping matches."
  },
  {
   "property": "C28",
   "status": "proved",
   "theorems": [
    "C28_window",
    "C28_constant",
    "C28_later_window"
   ],
   "note": ""
  },
  {
   "property": "C29",
   "status": "partial",
   "theorems": [
    "C29_existing_refuted",
    "C29_existing_partial",
    "C29_rollup_ids"
   ],
   "note": "False as stated (refuted); the partial theorem names the missing condition."
  },
  {
   "property": "C30",
   "status": "proved",
   "theorems": [
    "C30_accounts",
    "C30_introduced",
    "C30_produced"
   ],
   "note": ""
  },
  {
   "property": "C31",
   "status": "proved",
   "theorems": [
    "C31_presence",
    "C31_id_tags"
   ],
   "note": ""
  },
  {
   "property": "C32",
   "status": "partial",
   "theorems": [
    "C32_reverse_refuted",
    "C32_reverse_partial",
    "C32_non_rollup"
   ],
   "note": "False as stated (refuted); the partial theorem names the missing condition."
  },
  {
   "property": "C33",
   "status": "proved",
   "theorems": [
    "C33_append_only",
    "C33_single",
    "C33_failed",
    "C33_metadata",
    "C33_sequence",
    "C33_ordered",
    "C33_past",
    "C33_in_effect"
   ],
   "note": ""
  },
  {
   "property": "C34",
   "status": "proved",
   "theorems": [
    "C34_names_unique",
    "C34_names_step",
    "C34_ids_unique",
    "C34_live_name_rejected_mapping",
    "C34_live_name_rejected_rollup",
    "C34_revives_mapping",
    "C34_revives_rollup",
    "C34_update_can_rename"
   ],
   "note": ""
  },
  {
   "property": "C35",
   "status": "proved",
   "theorems": [
    "C35_delete",
    "C35_nothing_matches",
    "C35_delete_twice",
    "C35_revive"
   ],
   "note": ""
  },
  {
   "property": "C36",
   "status": "proved",
   "theorems": [
    "C36_write_read",
    "C36_storable",
    "C36_reread",
    "C36_edits",
    "C36_no_targets"
   ],
   "note": ""
  },
  {
   "property": "C37",
   "status": "proved",
   "theorems": [
    "C37_in_order",
    "C37_failure"
   ],
   "note": ""
  },
  {
   "property": "C38",
   "status": "proved",
   "theorems": [
    "C38_add",
    "C38_delete",
    "C38_invariant",
    "C38_histories",
    "C38_set",
    "C38_view",
    "C38_clone"
   ],
   "note": ""
  },
  {
   "property": "C39",
   "status": "proved",
   "theorems": [
    "C39_truncates",
    "C39_round_trip"
   ],
   "note": ""
  },
  {
   "property": "C40",
   "status": "proved",
   "theorems": [
    "C40_write",
    "C40_stale",
    "C40_stale_both",
    "C40_one_winner",
    "C40_one_winner_names",
    "C40_atomic",
    "C40_accepted",
    "C40_read_back",
    "C40_serial"
   ],
   "note": ""
  },
  {
   "property": "C41",
   "status": "proved",
   "theorems": [
    "C41_snapshot",
    "C41_rule_set",
    "C41_pipeline",
    "C41_aggregation_id",
    "C41_storage_policies",
    "C41_config_settings",
    "C41_config_types",
    "C41_config_other",
    "C41_characters",
    "C41_namespaces"
   ],
   "note": ""
  },
  {
   "property": "C42",
   "status": "proved",
   "theorems": [
    "C42_sequence",
    "C42_one_reading",
    "C42_removed"
   ],
   "note": ""
  },
  {
   "property": "C43",
   "status": "proved",
   "theorems": [
    "C43_served"
   ],
   "note": ""
  },
  {
   "property": "C44",
   "status": "proved",
   "theorems": [
    "C44_purged",
    "C44_unregistered"
   ],
   "note": ""
  },
  {
   "property": "C45",
   "status": "proved",
   "theorems": [
    "C45_order",
    "C45_evict",
    "C45_reachable",
    "C45_signalled",
    "C45_deleted",
    "C45_lru",
    "C45_fresh",
    "C45_stale"
   ],
   "note": ""
  },
  {
   "property": "C46",
   "status": "partial",
   "theorems": [
    "C46_refuted",
    "C46_harmless_partial",
    "C46_no_collision",
    "C46_no_deletion",
    "C46_exact"
   ],
   "note": "False of the maps as generated (refuted); C46_exact gives the exact condition."
  },
  {
   "property": "C47",
   "status": "proved",
   "theorems": [
    "C47_latest",
    "C47_removed_only_if",
    "C47_added",
    "C47_not_added",
    "C47_removed",
    "C47_kept",
    "C47_watched",
    "C47_finishes"
   ],
   "note": ""
  },
  {
   "property": "C48",
   "status": "proved",
   "theorems": [
    "C48_frames",
    "C48_stream",
    "C48_cut",
    "C48_exact",
    "C48_sendable_encodes",
    "C48_cut_can_look_clean"
   ],
   "note": ""
  },
  {
   "property": "C49",
   "status": "proved",
   "theorems": [
    "C49_effect",
    "C49_no_panic",
    "C49_relinquished",
    "C49_truncate_back",
    "C49_encoder_limit",
    "C49_decoder_limit"
   ],
   "note": ""
  },
  {
   "property": "C50",
   "status": "partial",
   "theorems": [
    "C50_ends",
    "C50_no_panic_partial",
    "C50_negative_size_refuted",
    "C50_overflow_refuted"
   ],
   "note": "Two inputs make the protobuf decoder panic (refuted). Proved: iteration always ends; without overflowing numbers it panics only on a negative size. Memory use and stack depth are not modelled."
  },
  {
   "property": "C51",
   "status": "proved",
   "theorems": [
    "C51_unaggregated",
    "C51_unaggregated_new",
    "C51_unaggregated_reset",
    "C51_one_outcome",
    "C51_loop_ends",
    "C51_aggregated",
    "C51_aggregated_new",
    "C51_aggregated_one_outcome",
    "C51_resolution_abbreviated",
    "C51_retention_abbreviated",
    "C51_cut",
    "C51_aggregated_cut",
    "C51_cut_can_look_clean"
   ],
   "note": ""
  },
  {
   "property": "C52",
   "status": "proved",
   "theorems": [
    "C52_unaggregated",
    "C52_aggregated",
    "C52_extra_fields",
    "C52_rejects",
    "C52_aggregated_extra_fields",
    "C52_aggregated_rejects"
   ],
   "note": ""
  },
  {
   "property": "C53",
   "status": "partial",
   "theorems": [
    "C53_msgpack_partial",
    "C53_msgpack_refuted",
    "C53_aggregated",
    "C53_protobuf_partial",
    "C53_protobuf_refuted"
   ],
   "note": "A protobuf message with a type and no body is taken for an empty one after an earlier message of its type (refuted); everything else proved. A msgpack metric without policies shows the list of an earlier message (refuted); the rest of what the msgpack iterators show depends on the input only."
  },
  {
   "property": "C54",
   "status": "proved",
   "theorems": [
    "C54_stream",
    "C54_any_form",
    "C54_one_outcome",
    "C54_cut",
    "C54_ends",
    "C54_no_panic",
    "C54_stays_stopped",
    "C54_newer_versions_misread"
   ],
   "note": ""
  },
  {
   "property": "C55",
   "status": "proved",
   "theorems": [
    "C55_any_order",
    "C55_encoded",
    "C55_consistent"
   ],
   "note": ""
  },
  {
   "property": "C56",
   "status": "proved",
   "theorems": [
    "C56_rate_empty",
    "C56_rate",
    "C56_rate_never_negative",
    "C56_absolute",
    "C56_type_codes"
   ],
   "note": ""
  },
  {
   "property": "C57",
   "status": "proved",
   "theorems": [
    "C57_metric_types",
    "C57_metric_type_names",
    "C57_metric_type_strings",
    "C57_drop_policies",
    "C57_aggregation_types",
    "C57_unknown_aggregation_codes"
   ],
   "note": ""
  },
  {
   "property": "C58",
   "status": "proved",
   "theorems": [
    "C58_latest_mapping",
    "C58_latest_rollup",
    "C58_latest_header"
   ],
   "note": ""
  },
  {
   "property": "C59",
   "status": "proved",
   "theorems": [
    "C59_history_mapping",
    "C59_history_rollup",
    "C59_clone"
   ],
   "note": ""
  },
  {
   "property": "C60",
   "status": "proved",
   "theorems": [
    "C60_add_mapping",
    "C60_add_rollup",
    "C60_update_mapping",
    "C60_update_rollup",
    "C60_delete_mapping",
    "C60_delete_rollup",
    "C60_rules_have_snapshots"
   ],
   "note": ""
  },
  {
   "property": "C61",
   "status": "proved",
   "theorems": [
    "C61_gauge",
    "C61_counter",
    "C61_timer",
    "C61_defaults"
   ],
   "note": ""
  },
  {
   "property": "C62",
   "status": "proved",
   "theorems": [
    "C62_legacy_policies",
    "C62_legacy_target"
   ],
   "note": ""
  },
  {
   "property": "C63",
   "status": "partial",
   "theorems": [
    "C63_validated_refuted",
    "C63_validated_partial",
    "C63_session_partial"
   ],
   "note": "False as stated (refuted); the partial theorem names the missing condition."
  },
  {
   "property": "C64",
   "status": "proved",
   "theorems": [
    "C64_served",
    "C64_at_rest",
    "C64_match_at_rest",
    "C64_namespace"
   ],
   "note": ""
  },
  {
   "property": "C65",
   "status": "proved",
   "theorems": [
    "C65_rule_set",
    "C65_edited",
    "C65_message",
    "C65_writes",
    "C65_nil",
    "C65_namespaces_nil",
    "C65_namespaces",
    "C65_namespaces_message",
    "C65_any_bytes"
   ],
   "note": ""
  },
  {
   "property": "C66",
   "status": "proved",
   "theorems": [
    "C66_rule_set",
    "C66_namespaces",
    "C66_metric",
    "C66_written",
    "C66_stored",
    "C66_stored_namespaces",
    "C66_stream"
   ],
   "note": ""
  },
  {
   "property": "C67",
   "status": "proved",
   "theorems": [
    "C67_processed",
    "C67_served",
    "C67_served_at_rest",
    "C67_written",
    "C67_in_effect",
    "C67_catches_up",
    "C67_catches_up_watched",
    "C67_namespace"
   ],
   "note": ""
  },
  {
   "property": "C68",
   "status": "proved",
   "theorems": [
    "C68_view",
    "C68_view_any",
    "C68_latest",
    "C68_changes",
    "C68_namespaces",
    "C68_writable",
    "C68_received",
    "C68_received_changes",
    "C68_newer_writers",
    "C68_text",
    "C68_keys"
   ],
   "note": ""
  },
  {
   "property": "C69",
   "status": "proved",
   "theorems": [
    "C69_mapping_equal",
    "C69_rollup_equal",
    "C69_equivalence",
    "C69_sent",
    "C69_sorted_view",
    "C69_sorted_changes"
   ],
   "note": ""
  },
  {
   "property": "C70",
   "status": "proved",
   "theorems": [
    "C70_answers",
    "C70_closed_for_good",
    "C70_latest",
    "C70_unreadable",
    "C70_close_returns",
    "C70_no_double_close",
    "C70_stopped",
    "C70_static",
    "C70_static_direct"
   ],
   "note": ""
  },
  {
   "property": "C71",
   "status": "proved",
   "theorems": [
    "C71_read",
    "C71_read_namespaces",
    "C71_matches",
    "C71_served",
    "C71_encodes",
    "C71_delivered"
   ],
   "note": ""
  },
  {
   "property": "C72",
   "status": "proved",
   "theorems": [
    "C72_unaggregated",
    "C72_next",
    "C72_unambiguous",
    "C72_aggregated",
    "C72_aggregated_ends",
    "C72_aggregated_next",
    "C72_aggregated_unambiguous",
    "C72_metric",
    "C72_metric_any_order",
    "C72_aggregated_metrics"
   ],
   "note": ""
  },
  {
   "property": "C73",
   "status": "proved",
   "theorems": [
    "C73_rule_set",
    "C73_namespaces",
    "C73_metric",
    "C73_metric_reused",
    "C73_accepted",
    "C73_unambiguous",
    "C73_overflow_accepted"
   ],
   "note": ""
  },
  {
   "property": "C74",
   "status": "proved",
   "theorems": [
    "C74_stream",
    "C74_panics",
    "C74_one_meaning",
    "C74_unambiguous"
   ],
   "note": ""
  },
  {
   "property": "C75",
   "status": "proved",
   "theorems": [
    "C75_staged",
    "C75_versioned",
    "C75_received",
    "C75_invalid_unreadable"
   ],
   "note": ""
  },
  {
   "property": "C76",
   "status": "proved",
   "theorems": [
    "C76_message",
    "C76_rule_set",
    "C76_namespaces",
    "C76_stream",
    "C76_encoder"
   ],
   "note": ""
  },
  {
   "property": "C77",
   "status": "proved",
   "theorems": [
    "C77_sets",
    "C77_views",
    "C77_active",
    "C77_same_things",
    "C77_shows_one",
    "C77_edit_result",
    "C77_no_panic",
    "C77_clone"
   ],
   "note": ""
  },
  {
   "property": "C78",
   "status": "proved",
   "theorems": [
    "C78_msgpack",
    "C78_msgpack_aggregated",
    "C78_protobuf",
    "C78_mixed",
    "C78_reset",
    "C78_reset_aggregated"
   ],
   "note": ""
  },
  {
   "property": "C79",
   "status": "proved",
   "theorems": [
    "C79_message",
    "C79_one_meaning",
    "C79_bytes",
    "C79_namespaces"
   ],
   "note": ""
  },
  {
   "property": "C80",
   "status": "proved",
   "theorems": [
    "C80_accepted",
    "C80_types",
    "C80_quantiles",
    "C80_suffix",
    "C80_lookup",
    "C80_lookup_empty",
    "C80_percentages"
   ],
   "note": ""
  },
  {
   "property": "C81",
   "status": "proved",
   "theorems": [
    "C81_match",
    "C81_history",
    "C81_independent"
   ],
   "note": ""
  },
  {
   "property": "C82",
   "status": "proved",
   "theorems": [
    "C82_results",
    "C82_matches",
    "C82_frozen",
    "C82_sets",
    "C82_views",
    "C82_edit_result"
   ],
   "note": ""
  },
  {
   "property": "C83",
   "status": "proved",
   "theorems": [
    "C83_next",
    "C83_new",
    "C83_reset",
    "C83_close",
    "C83_kept",
    "C83_batch",
    "C83_apart",
    "C83_default",
    "C83_run",
    "C83_stream"
   ],
   "note": ""
  },
  {
   "property": "C84",
   "status": "proved",
   "theorems": [
    "C84_metadatas",
    "C84_parts",
    "C84_dropped",
    "C84_disjoint",
    "C84_policies",
    "C84_policies_equal"
   ],
   "note": ""
  },
  {
   "property": "C85",
   "status": "proved",
   "theorems": [
    "C85_before",
    "C85_after",
    "C85_recorded",
    "C85_session"
   ],
   "note": ""
  },
  {
   "property": "C86",
   "status": "proved",
   "theorems": [
    "C86_no_deadlock",
    "C86_no_endless_run",
    "C86_settled",
    "C86_all_return",
    "C86_no_panic",
    "C86_close",
    "C86_exclusive"
   ],
   "note": ""
  },
  {
   "property": "C87",
   "status": "proved",
   "theorems": [
    "C87_no_race",
    "C87_taken_maps_at_rest"
   ],
   "note": ""
  },
  {
   "property": "C88",
   "status": "proved",
   "theorems": [
    "C88_own_bytes",
    "C88_slices_stay",
    "C88_single_owner",
    "C88_pool",
    "C88_close_twice"
   ],
   "note": ""
  },
  {
   "property": "C89",
   "status": "proved",
   "theorems": [
    "C89_like_alone",
    "C89_new",
    "C89_shown",
    "C89_others",
    "C89_panics",
    "C89_next_returns"
   ],
   "note": ""
  },
  {
   "property": "C90",
   "status": "proved",
   "theorems": [
    "C90_results",
    "C90_returns",
    "C90_one_user"
   ],
   "note": ""
  },
  {
   "property": "C91",
   "status": "proved",
   "theorems": [
    "C91_same_as_json",
    "C91_json_is_yaml",
    "C91_accepted",
    "C91_null_element",
    "C91_strict",
    "C91_texts"
   ],
   "note": ""
  },
  {
   "property": "C92",
   "status": "proved",
   "theorems": [
    "C92_any_bytes",
    "C92_writes",
    "C92_reads",
    "C92_read_back",
    "C92_one_winner",
    "C92_matcher",
    "C92_written"
   ],
   "note": ""
  }
 ]
}