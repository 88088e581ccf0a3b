{
 "claims": [
  {
   "property": "C01",
   "status": "proved",
   "theorems": [
    "interval_overlap_iff_common_point",
    "interval_overlap_symmetric",
    "interval_intersection_exact"
   ],
   "note": ""
  },
  {
   "property": "C02",
   "status": "proved",
   "theorems": [
    "interval_union_is_hull",
    "interval_union_exact_when_overlapping",
    "interval_union_point_set_refuted"
   ],
   "note": ""
  },
  {
   "property": "C03",
   "status": "proved",
   "theorems": [
    "interval_order_strict_total",
    "interval_le_and_hash",
    "interval_order_lexicographic"
   ],
   "note": ""
  },
  {
   "property": "C04",
   "status": "proved",
   "theorems": [
    "sorted_dict_is_sorted_map",
    "sorted_dict_errors"
   ],
   "note": ""
  },
  {
   "property": "C05",
   "status": "proved",
   "theorems": [
    "sorted_interval_dict_lookup",
    "sorted_interval_dict_slice",
    "sorted_interval_dict_never_deletes",
    "C05_delete_slice"
   ],
   "note": ""
  },
  {
   "property": "C06",
   "status": "proved",
   "theorems": [
    "float_interval_order_strict_total",
    "float_interval_order_lexicographic"
   ],
   "note": ""
  },
  {
   "property": "C07",
   "status": "proved",
   "theorems": [
    "float_interval_contains_point_exact",
    "float_interval_overlaps_exact",
    "float_interval_queries_refuted",
    "float_interval_long_is_ordinary",
    "float_interval_overlap_size"
   ],
   "note": ""
  },
  {
   "property": "C08",
   "status": "proved",
   "theorems": [
    "float_interval_containment_is_inclusion",
    "float_interval_containment_order",
    "float_interval_length_nonneg",
    "float_interval_distance",
    "float_interval_distance_to_point",
    "float_interval_comparisons",
    "C08_any_point"
   ],
   "note": ""
  },
  {
   "property": "C09",
   "status": "proved",
   "theorems": [
    "float_interval_copy_roundtrip"
   ],
   "note": ""
  },
  {
   "property": "C10",
   "status": "proved",
   "theorems": [
    "tree_set_semantics",
    "tree_call_outcomes"
   ],
   "note": ""
  },
  {
   "property": "C11",
   "status": "proved",
   "theorems": [
    "tree_boundaries"
   ],
   "note": ""
  },
  {
   "property": "C12",
   "status": "proved",
   "theorems": [
    "tree_insertions_balanced"
   ],
   "note": ""
  },
  {
   "property": "C13",
   "status": "proved",
   "theorems": [
    "tree_remove_always_raises"
   ],
   "note": ""
  },
  {
   "property": "C14",
   "status": "proved",
   "theorems": [
    "C14_note_construction",
    "C14_ranges_invariant"
   ],
   "note": ""
  },
  {
   "property": "C15",
   "status": "proved",
   "theorems": [
    "C15_start_setter",
    "C15_end_setter",
    "C15_setters_keep_valid"
   ],
   "note": ""
  },
  {
   "property": "C16",
   "status": "proved",
   "theorems": [
    "C16_eq_reflexive_symmetric",
    "C16_eq_not_transitive",
    "C16_lt_means",
    "C16_lt_irreflexive_asymmetric",
    "C16_lt_transitive_when_separated",
    "C16_lt_not_transitive",
    "C16_le_means"
   ],
   "note": ""
  },
  {
   "property": "C17",
   "status": "proved",
   "theorems": [
    "C17_overlap_is_shared_instant",
    "C17_overlap_symmetric"
   ],
   "note": ""
  },
  {
   "property": "C18",
   "status": "proved",
   "theorems": [
    "C18_step_total_and_nonnegative",
    "C18_step_monotone",
    "C18_step_near"
   ],
   "note": ""
  },
  {
   "property": "C19",
   "status": "proved",
   "theorems": [
    "C19_quantised_note_valid",
    "C19_quantisation_succeeds",
    "C19_min_step",
    "C19_empty_note"
   ],
   "note": ""
  },
  {
   "property": "C20",
   "status": "proved",
   "theorems": [
    "C20_copy"
   ],
   "note": ""
  },
  {
   "property": "C21",
   "status": "proved",
   "theorems": [
    "C21_shift",
    "C21_stretch"
   ],
   "note": ""
  },
  {
   "property": "C22",
   "status": "proved",
   "theorems": [
    "C22_cc_ranges",
    "C22_cc_quantize_always_raises"
   ],
   "note": ""
  },
  {
   "property": "C23",
   "status": "proved",
   "theorems": [
    "C23_bend_accepts",
    "C23_bend_setters"
   ],
   "note": ""
  },
  {
   "property": "C24",
   "status": "proved",
   "theorems": [
    "C24_default_name",
    "C24_round_trip",
    "C24_eq_hash"
   ],
   "note": ""
  },
  {
   "property": "C25",
   "status": "proved",
   "theorems": [
    "C25_tempo",
    "C25_tempo_to_qpm",
    "C25_bpm_qpm_round_trip",
    "C25_steps_per_second"
   ],
   "note": ""
  },
  {
   "property": "C26",
   "status": "proved",
   "theorems": [
    "C26_total_bounds_notes",
    "C26_add_note",
    "C26_add_history",
    "C26_extend",
    "C26_append"
   ],
   "note": ""
  },
  {
   "property": "C27",
   "status": "proved",
   "theorems": [
    "C27_truncate"
   ],
   "note": ""
  },
  {
   "property": "C28",
   "status": "proved",
   "theorems": [
    "C28_slice",
    "C28_slice_errors"
   ],
   "note": ""
  },
  {
   "property": "C29",
   "status": "proved",
   "theorems": [
    "C29_merge",
    "C29_merge_sorted"
   ],
   "note": ""
  },
  {
   "property": "C30",
   "status": "proved",
   "theorems": [
    "C30_add_never_concatenates",
    "C30_extract_never_extracts",
    "C30_quantised_or_empty_raises",
    "C30_split_always_raises"
   ],
   "note": ""
  },
  {
   "property": "C31",
   "status": "proved",
   "theorems": [
    "C31_shift",
    "C31_stretch"
   ],
   "note": ""
  },
  {
   "property": "C32",
   "status": "proved",
   "theorems": [
    "C32_create_track",
    "C32_get_track",
    "C32_subscript_read"
   ],
   "note": ""
  },
  {
   "property": "C33",
   "status": "proved",
   "theorems": [
    "C33_signature_list"
   ],
   "note": ""
  },
  {
   "property": "C34",
   "status": "proved",
   "theorems": [
    "C34_signature_lookup",
    "C34_key_lookup"
   ],
   "note": ""
  },
  {
   "property": "C35",
   "status": "proved",
   "theorems": [
    "C35_from_sequences"
   ],
   "note": ""
  },
  {
   "property": "C36",
   "status": "proved",
   "theorems": [
    "C36_loaded",
    "C36_scratch",
    "C36_increasing"
   ],
   "note": ""
  },
  {
   "property": "C37",
   "status": "proved",
   "theorems": [
    "C37_loaded",
    "C37_scratch"
   ],
   "note": ""
  },
  {
   "property": "C38",
   "status": "proved",
   "theorems": [
    "C38_ticks"
   ],
   "note": ""
  },
  {
   "property": "C39",
   "status": "proved",
   "theorems": [
    "C39_tempo_map"
   ],
   "note": ""
  },
  {
   "property": "C40",
   "status": "proved",
   "theorems": [
    "C40_notes",
    "C40_instruments"
   ],
   "note": ""
  },
  {
   "property": "C41",
   "status": "proved",
   "theorems": [
    "C41_order",
    "C41_release_first"
   ],
   "note": ""
  },
  {
   "property": "C42",
   "status": "proved",
   "theorems": [
    "C42_tracks",
    "C42_ascending",
    "C42_lost",
    "C42_too_many"
   ],
   "note": ""
  },
  {
   "property": "C43",
   "status": "proved",
   "theorems": [
    "C43_controllers"
   ],
   "note": ""
  },
  {
   "property": "C44",
   "status": "proved",
   "theorems": [
    "C44_groups",
    "C44_partition",
    "C44_unique",
    "C44_close",
    "C44_negative",
    "C44_tolerance"
   ],
   "note": ""
  },
  {
   "property": "C45",
   "status": "proved",
   "theorems": [
    "C45_fresh",
    "C45_onto",
    "C45_total"
   ],
   "note": ""
  },
  {
   "property": "C46",
   "status": "proved",
   "theorems": [
    "C46_succeeds",
    "C46_attributes",
    "C46_connected",
    "C46_stays_connected"
   ],
   "note": ""
  },
  {
   "property": "C47",
   "status": "proved",
   "theorems": [
    "C47_numbered",
    "C47_stable",
    "C47_recorded",
    "C47_notes_to_hash"
   ],
   "note": ""
  },
  {
   "property": "C48",
   "status": "proved",
   "theorems": [
    "C48_chunks"
   ],
   "note": ""
  },
  {
   "property": "C49",
   "status": "proved",
   "theorems": [
    "C49_range",
    "C49_linear",
    "C49_equal",
    "C49_single"
   ],
   "note": ""
  },
  {
   "property": "C50",
   "status": "proved",
   "theorems": [
    "C50_pitches",
    "C50_velocities",
    "C50_one_hot",
    "C50_errors"
   ],
   "note": ""
  },
  {
   "property": "C51",
   "status": "proved",
   "theorems": [
    "C51_first_only",
    "C51_nothing",
    "C51_next_only",
    "C51_sanity"
   ],
   "note": ""
  },
  {
   "property": "C52",
   "status": "proved",
   "theorems": [
    "C52_masks",
    "C52_any_sizes",
    "C52_arguments",
    "C52_errors"
   ],
   "note": ""
  },
  {
   "property": "C53",
   "status": "proved",
   "theorems": [
    "C53_bijection",
    "C53_total",
    "C53_stable",
    "C53_unknown"
   ],
   "note": ""
  },
  {
   "property": "C54",
   "status": "proved",
   "theorems": [
    "C54_same"
   ],
   "note": ""
  },
  {
   "property": "C55",
   "status": "proved",
   "theorems": [
    "C55_degree",
    "C55_reshape",
    "C55_range"
   ],
   "note": ""
  },
  {
   "property": "C56",
   "status": "proved",
   "theorems": [
    "C56_halfway",
    "C56_drop",
    "C56_any_p",
    "C56_filter_adj",
    "C56_numbers"
   ],
   "note": ""
  },
  {
   "property": "C57",
   "status": "proved",
   "theorems": [
    "C57_drop",
    "C57_missing",
    "C57_labels",
    "C57_pos_neg",
    "C57_attribute"
   ],
   "note": ""
  },
  {
   "property": "C58",
   "status": "proved",
   "theorems": [
    "C58_depth",
    "C58_rows",
    "C58_range"
   ],
   "note": ""
  },
  {
   "property": "C59",
   "status": "proved",
   "theorems": [
    "C59_rounds",
    "C59_errors",
    "C59_documented",
    "C59_nearest",
    "C59_truncates",
    "C59_monotone"
   ],
   "note": ""
  },
  {
   "property": "C60",
   "status": "proved",
   "theorems": [
    "C60_nearest",
    "C60_empty",
    "C60_idempotent"
   ],
   "note": ""
  },
  {
   "property": "C61",
   "status": "proved",
   "theorems": [
    "C61_inverse",
    "C61_to_base",
    "C61_from_base"
   ],
   "note": ""
  },
  {
   "property": "C62",
   "status": "proved",
   "theorems": [
    "C62_notes",
    "C62_accepted",
    "C62_transpose",
    "C62_tables",
    "C62_intervals"
   ],
   "note": ""
  },
  {
   "property": "C63",
   "status": "proved",
   "theorems": [
    "C63_name",
    "C63_injective"
   ],
   "note": ""
  },
  {
   "property": "C64",
   "status": "proved",
   "theorems": [
    "C64_C98_latest",
    "C64_none",
    "C64_save",
    "C64_names",
    "C64_ignored",
    "C64_foreign"
   ],
   "note": ""
  },
  {
   "property": "C65",
   "status": "proved",
   "theorems": [
    "C65_remove",
    "C65_ratio"
   ],
   "note": ""
  },
  {
   "property": "C66",
   "status": "proved",
   "theorems": [
    "tree_point_queries_refuted",
    "tree_slices"
   ],
   "note": ""
  },
  {
   "property": "C67",
   "status": "proved",
   "theorems": [
    "tree_merge_overlaps_never_merges",
    "tree_merge_others_never_merge",
    "tree_merge_conditions"
   ],
   "note": ""
  },
  {
   "property": "C68",
   "status": "proved",
   "theorems": [
    "tree_constructor",
    "tree_constructor_rejects_null",
    "tree_constructor_near_interval_never_returns"
   ],
   "note": ""
  },
  {
   "property": "C69",
   "status": "proved",
   "theorems": [
    "C69_time_signature_accepts",
    "C69_beats_per_measure"
   ],
   "note": ""
  },
  {
   "property": "C70",
   "status": "proved",
   "theorems": [
    "C70_cc_copy"
   ],
   "note": ""
  },
  {
   "property": "C71",
   "status": "proved",
   "theorems": [
    "C71_quantise_fails_with_controllers",
    "C71_quantise_succeeds",
    "C71_quantise_step_counter"
   ],
   "note": ""
  },
  {
   "property": "C72",
   "status": "proved",
   "theorems": [
    "C72_clone"
   ],
   "note": ""
  },
  {
   "property": "C73",
   "status": "proved",
   "theorems": [
    "C73_insert",
    "C73_cut"
   ],
   "note": ""
  },
  {
   "property": "C74",
   "status": "proved",
   "theorems": [
    "C74_as_note_seq"
   ],
   "note": ""
  },
  {
   "property": "C75",
   "status": "proved",
   "theorems": [
    "C75_min_step"
   ],
   "note": ""
  },
  {
   "property": "C76",
   "status": "proved",
   "theorems": [
    "C76_slices"
   ],
   "note": ""
  },
  {
   "property": "C77",
   "status": "proved",
   "theorems": [
    "C77_assign_then_read",
    "C77_from_notes"
   ],
   "note": ""
  },
  {
   "property": "C78",
   "status": "proved",
   "theorems": [
    "C78_initial_tempo",
    "C78_initial_tempo_frozen"
   ],
   "note": ""
  },
  {
   "property": "C79",
   "status": "proved",
   "theorems": [
    "C79_truncate_all",
    "C79_is_sorted"
   ],
   "note": ""
  },
  {
   "property": "C81",
   "status": "proved",
   "theorems": [
    "C81_controllers"
   ],
   "note": ""
  },
  {
   "property": "C82",
   "status": "proved",
   "theorems": [
    "C82_cut"
   ],
   "note": ""
  },
  {
   "property": "C80",
   "status": "proved",
   "theorems": [
    "C80_tempo_report"
   ],
   "note": ""
  },
  {
   "property": "C83",
   "status": "proved",
   "theorems": [
    "C83_round_trip"
   ],
   "note": ""
  },
  {
   "property": "C84",
   "status": "proved",
   "theorems": [
    "C84_tempo_round_trip"
   ],
   "note": ""
  },
  {
   "property": "C85",
   "status": "proved",
   "theorems": [
    "C85_channels",
    "C85_reject"
   ],
   "note": ""
  },
  {
   "property": "C86",
   "status": "proved",
   "theorems": [
    "C86_convert",
    "C86_write",
    "C86_exists",
    "C86_arguments"
   ],
   "note": ""
  },
  {
   "property": "C87",
   "status": "proved",
   "theorems": [
    "C87_back"
   ],
   "note": ""
  },
  {
   "property": "C88",
   "status": "proved",
   "theorems": [
    "C88_hash_order",
    "C88_visits"
   ],
   "note": ""
  },
  {
   "property": "C89",
   "status": "proved",
   "theorems": [
    "C89_irrelevant",
    "C89_invalid"
   ],
   "note": ""
  },
  {
   "property": "C90",
   "status": "proved",
   "theorems": [
    "C90_per_instrument",
    "C90_whole",
    "C90_succeeds"
   ],
   "note": ""
  },
  {
   "property": "C91",
   "status": "proved",
   "theorems": [
    "C91_edge_index"
   ],
   "note": ""
  },
  {
   "property": "C92",
   "status": "proved",
   "theorems": [
    "C92_is_connected",
    "C92_get_edge",
    "C92_sets"
   ],
   "note": ""
  },
  {
   "property": "C93",
   "status": "proved",
   "theorems": [
    "C93_merge",
    "C93_missing"
   ],
   "note": ""
  },
  {
   "property": "C94",
   "status": "proved",
   "theorems": [
    "C94_pitch_127",
    "C94_negative_start"
   ],
   "note": ""
  },
  {
   "property": "C95",
   "status": "proved",
   "theorems": [
    "C95_roll",
    "C95_none"
   ],
   "note": ""
  },
  {
   "property": "C96",
   "status": "proved",
   "theorems": [
    "C96_split",
    "C96_ratio"
   ],
   "note": ""
  },
  {
   "property": "C97",
   "status": "proved",
   "theorems": [
    "C97_not_restored",
    "C97_cwd",
    "C97_train_file",
    "C97_test_file",
    "C97_val_file",
    "C97_val_no_dir",
    "C97_lists",
    "C97_when",
    "C97_clear"
   ],
   "note": ""
  },
  {
   "property": "C98",
   "status": "proved",
   "theorems": [
    "C64_C98_latest"
   ],
   "note": ""
  },
  {
   "property": "C99",
   "status": "proved",
   "theorems": [
    "C99_cover",
    "C99_errors",
    "C99_occupied"
   ],
   "note": ""
  },
  {
   "property": "C100",
   "status": "proved",
   "theorems": [
    "C100_multiple",
    "C100_error",
    "C100_idempotent",
    "C100_monotone"
   ],
   "note": ""
  },
  {
   "property": "C101",
   "status": "proved",
   "theorems": [
    "C101_drift",
    "C101_aligned",
    "C101_bounded",
    "C101_order",
    "C101_errors"
   ],
   "note": ""
  },
  {
   "property": "C102",
   "status": "proved",
   "theorems": [
    "C102_offset",
    "C102_value",
    "C102_snap"
   ],
   "note": ""
  },
  {
   "property": "C103",
   "status": "proved",
   "theorems": [
    "C103_nearest",
    "C103_positive",
    "C103_zero"
   ],
   "note": ""
  },
  {
   "property": "C104",
   "status": "proved",
   "theorems": [
    "C104_agree",
    "C104_rounded"
   ],
   "note": ""
  },
  {
   "property": "C105",
   "status": "proved",
   "theorems": [
    "C105_pitches",
    "C105_rejects",
    "C105_case"
   ],
   "note": ""
  },
  {
   "property": "C106",
   "status": "proved",
   "theorems": [
    "C106_sound",
    "C106_complete",
    "C106_agree"
   ],
   "note": ""
  },
  {
   "property": "C107",
   "status": "proved",
   "theorems": [
    "C107_triads",
    "C107_quality",
    "C107_rejects"
   ],
   "note": ""
  },
  {
   "property": "C108",
   "status": "proved",
   "theorems": [
    "C108_from_semitones",
    "C108_compound",
    "C108_inverse"
   ],
   "note": ""
  },
  {
   "property": "C109",
   "status": "proved",
   "theorems": [
    "C109_chord",
    "C109_rejects",
    "C109_empty",
    "C109_extended",
    "C109_list"
   ],
   "note": ""
  },
  {
   "property": "C110",
   "status": "proved",
   "theorems": [
    "C110_converts",
    "C110_never",
    "C110_built",
    "C110_mixed",
    "C110_errors",
    "C110_merged"
   ],
   "note": ""
  },
  {
   "property": "C111",
   "status": "proved",
   "theorems": [
    "C111_contents"
   ],
   "note": ""
  },
  {
   "property": "C112",
   "status": "proved",
   "theorems": [
    "C112_crash"
   ],
   "note": ""
  },
  {
   "property": "C113",
   "status": "proved",
   "theorems": [
    "C113_real",
    "C113_sanity",
    "C113_missing",
    "C113_skipped"
   ],
   "note": ""
  },
  {
   "property": "C114",
   "status": "proved",
   "theorems": [
    "C114_names",
    "C114_distinct",
    "C114_cached",
    "C114_fresh"
   ],
   "note": ""
  },
  {
   "property": "C115",
   "status": "proved",
   "theorems": [
    "tree_operators",
    "tree_inplace_operators",
    "tree_after_operators",
    "tree_operator_len"
   ],
   "note": ""
  },
  {
   "property": "C116",
   "status": "proved",
   "theorems": [
    "tree_comparisons",
    "tree_pop"
   ],
   "note": ""
  },
  {
   "property": "C117",
   "status": "proved",
   "theorems": [
    "tree_intersection_update",
    "tree_symmetric_difference_update"
   ],
   "note": ""
  },
  {
   "property": "C118",
   "status": "proved",
   "theorems": [
    "C118_verify_insertions",
    "C118_verify_discarded",
    "tree_ranges_untouched",
    "tree_ranges_touched",
    "tree_at_interval",
    "tree_split_overlaps"
   ],
   "note": ""
  },
  {
   "property": "C119",
   "status": "proved",
   "theorems": [
    "C119_steps",
    "C119_mapping",
    "C119_symbols"
   ],
   "note": ""
  },
  {
   "property": "C120",
   "status": "proved",
   "theorems": [
    "C120_names",
    "C120_sizes",
    "C120_exceptions"
   ],
   "note": ""
  },
  {
   "property": "C121",
   "status": "proved",
   "theorems": [
    "C121_beats",
    "C121_end",
    "C121_loaded"
   ],
   "note": ""
  },
  {
   "property": "C122",
   "status": "proved",
   "theorems": [
    "C122_one_beat"
   ],
   "note": ""
  },
  {
   "property": "C123",
   "status": "proved",
   "theorems": [
    "C123_period",
    "C123_changes"
   ],
   "note": ""
  },
  {
   "property": "C124",
   "status": "proved",
   "theorems": [
    "C124_subset",
    "C124_bars"
   ],
   "note": ""
  },
  {
   "property": "C125",
   "status": "proved",
   "theorems": [
    "C125_step_lengths",
    "C125_steps_to_seconds",
    "C125_round_trip"
   ],
   "note": ""
  },
  {
   "property": "C126",
   "status": "proved",
   "theorems": [
    "C126_beat_lengths",
    "C126_bpm",
    "C126_four_quarter"
   ],
   "note": ""
  },
  {
   "property": "C127",
   "status": "proved",
   "theorems": [
    "C127_complete",
    "C127_missing",
    "C127_steps"
   ],
   "note": ""
  },
  {
   "property": "C128",
   "status": "proved",
   "theorems": [
    "C128_equal_temperament",
    "C128_pitch",
    "C128_four_eighth",
    "C128_four_eighth_exact"
   ],
   "note": ""
  },
  {
   "property": "C129",
   "status": "proved",
   "theorems": [
    "C129_onsets",
    "C129_tempi",
    "C129_mean",
    "C129_steady"
   ],
   "note": ""
  },
  {
   "property": "C130",
   "status": "proved",
   "theorems": [
    "C130_tempo"
   ],
   "note": ""
  },
  {
   "property": "C131",
   "status": "proved",
   "theorems": [
    "C131_no_notes",
    "C131_beat_start",
    "C131_wide"
   ],
   "note": ""
  },
  {
   "property": "C132",
   "status": "proved",
   "theorems": [
    "C132_bad_times"
   ],
   "note": ""
  },
  {
   "property": "C133",
   "status": "proved",
   "theorems": [
    "C133_notes"
   ],
   "note": ""
  },
  {
   "property": "C134",
   "status": "proved",
   "theorems": [
    "C134_events"
   ],
   "note": ""
  },
  {
   "property": "C135",
   "status": "proved",
   "theorems": [
    "C135_signatures"
   ],
   "note": ""
  },
  {
   "property": "C136",
   "status": "proved",
   "theorems": [
    "C136_musical_time"
   ],
   "note": ""
  },
  {
   "property": "C137",
   "status": "proved",
   "theorems": [
    "C137_late_failure"
   ],
   "note": ""
  },
  {
   "property": "C138",
   "status": "proved",
   "theorems": [
    "C138_order",
    "C138_strict_order",
    "C138_not_weak"
   ],
   "note": ""
  },
  {
   "property": "C139",
   "status": "proved",
   "theorems": [
    "C139_shift",
    "C139_shift_back",
    "C139_base_eq_ne",
    "C139_base",
    "C139_cc_eq"
   ],
   "note": ""
  },
  {
   "property": "C140",
   "status": "proved",
   "theorems": [
    "C140_bend_eq",
    "C140_bend_sort"
   ],
   "note": ""
  },
  {
   "property": "C141",
   "status": "proved",
   "theorems": [
    "C141_key_signature"
   ],
   "note": ""
  },
  {
   "property": "C142",
   "status": "proved",
   "theorems": [
    "C142_ppq_to_qpm"
   ],
   "note": ""
  },
  {
   "property": "C143",
   "status": "proved",
   "theorems": [
    "C143_piano_roll",
    "C143_order"
   ],
   "note": ""
  },
  {
   "property": "C144",
   "status": "proved",
   "theorems": [
    "C144_histogram"
   ],
   "note": ""
  },
  {
   "property": "C145",
   "status": "proved",
   "theorems": [
    "C145_transitions",
    "C145_mean"
   ],
   "note": ""
  },
  {
   "property": "C146",
   "status": "proved",
   "theorems": [
    "C146_chroma"
   ],
   "note": ""
  },
  {
   "property": "C147",
   "status": "proved",
   "theorems": [
    "C147_loaded"
   ],
   "note": ""
  },
  {
   "property": "C148",
   "status": "proved",
   "theorems": [
    "C148_rejected"
   ],
   "note": ""
  },
  {
   "property": "C149",
   "status": "proved",
   "theorems": [
    "C149_instrument_names"
   ],
   "note": ""
  },
  {
   "property": "C150",
   "status": "proved",
   "theorems": [
    "C150_signature_errors",
    "C150_signatures"
   ],
   "note": ""
  },
  {
   "property": "C151",
   "status": "proved",
   "theorems": [
    "C151_score",
    "C151_score_insertions",
    "C151_score_constructor",
    "C151_score_removals_refuted"
   ],
   "note": ""
  },
  {
   "property": "C152",
   "status": "proved",
   "theorems": [
    "C152_accessors",
    "C152_overlaps_refuted",
    "C152_named_methods_refuted"
   ],
   "note": ""
  },
  {
   "property": "C153",
   "status": "proved",
   "theorems": [
    "C153_asking_changes_nothing",
    "C153_last_event",
    "C153_last_event_frozen",
    "C153_no_offset",
    "C153_initial_tempo",
    "C153_initial_tempo_frozen"
   ],
   "note": ""
  },
  {
   "property": "C154",
   "status": "proved",
   "theorems": [
    "C154_sorting_sequences",
    "C154_sorting_instruments",
    "C154_instrument_ne"
   ],
   "note": ""
  },
  {
   "property": "C155",
   "status": "proved",
   "theorems": [
    "C155_counts",
    "C155_track_length",
    "C155_counts_of_list"
   ],
   "note": ""
  },
  {
   "property": "C156",
   "status": "proved",
   "theorems": [
    "C156_resolution"
   ],
   "note": ""
  },
  {
   "property": "C157",
   "status": "proved",
   "theorems": [
    "C157_range",
    "C157_monotone",
    "C157_exact",
    "C157_same_start_refuted"
   ],
   "note": ""
  },
  {
   "property": "C158",
   "status": "proved",
   "theorems": [
    "C158_saved_tempo",
    "C158_drift",
    "C158_kept"
   ],
   "note": ""
  },
  {
   "property": "C159",
   "status": "proved",
   "theorems": [
    "C159_tick_seconds",
    "C159_too_long",
    "C159_negative"
   ],
   "note": ""
  },
  {
   "property": "C160",
   "status": "proved",
   "theorems": [
    "C160_ticks_survive",
    "C160_distinct"
   ],
   "note": ""
  },
  {
   "property": "C161",
   "status": "proved",
   "theorems": [
    "C161_any_time"
   ],
   "note": ""
  },
  {
   "property": "C162",
   "status": "proved",
   "theorems": [
    "C162_piece",
    "C162_savable",
    "C162_key_names",
    "C162_refused"
   ],
   "note": ""
  },
  {
   "property": "C163",
   "status": "proved",
   "theorems": [
    "C163_scratch",
    "C163_early"
   ],
   "note": ""
  },
  {
   "property": "C164",
   "status": "proved",
   "theorems": [
    "C164_reload"
   ],
   "note": ""
  },
  {
   "property": "C165",
   "status": "proved",
   "theorems": [
    "C165_object"
   ],
   "note": ""
  },
  {
   "property": "C166",
   "status": "proved",
   "theorems": [
    "C166_into",
    "C166_loaded"
   ],
   "note": ""
  },
  {
   "property": "C167",
   "status": "proved",
   "theorems": [
    "C167_read"
   ],
   "note": ""
  },
  {
   "property": "C168",
   "status": "proved",
   "theorems": [
    "C168_kept"
   ],
   "note": ""
  },
  {
   "property": "C169",
   "status": "proved",
   "theorems": [
    "C169_graph",
    "C169_all"
   ],
   "note": ""
  },
  {
   "property": "C170",
   "status": "proved",
   "theorems": [
    "C170_tempo_ticks",
    "C170_drift"
   ],
   "note": ""
  },
  {
   "property": "C171",
   "status": "proved",
   "theorems": [
    "C171_rhythm"
   ],
   "note": ""
  },
  {
   "property": "C172",
   "status": "proved",
   "theorems": [
    "C172_linear",
    "C172_file"
   ],
   "note": ""
  },
  {
   "property": "C173",
   "status": "proved",
   "theorems": [
    "C173_tempo"
   ],
   "note": ""
  },
  {
   "property": "C174",
   "status": "proved",
   "theorems": [
    "C174_save_read"
   ],
   "note": ""
  },
  {
   "property": "C175",
   "status": "proved",
   "theorems": [
    "C175_errors",
    "C175_short",
    "C175_reachable"
   ],
   "note": ""
  },
  {
   "property": "C176",
   "status": "proved",
   "theorems": [
    "C176_order",
    "C176_ties"
   ],
   "note": ""
  },
  {
   "property": "C177",
   "status": "proved",
   "theorems": [
    "C177_errors",
    "C177_shifted",
    "C177_constructors"
   ],
   "note": ""
  },
  {
   "property": "C178",
   "status": "proved",
   "theorems": [
    "C178_test"
   ],
   "note": ""
  },
  {
   "property": "C179",
   "status": "proved",
   "theorems": [
    "C179_trainer",
    "C179_raises"
   ],
   "note": ""
  },
  {
   "property": "C180",
   "status": "proved",
   "theorems": [
    "C180_near",
    "C180_identity",
    "C180_loss"
   ],
   "note": ""
  },
  {
   "property": "C181",
   "status": "proved",
   "theorems": [
    "C181_link"
   ],
   "note": ""
  },
  {
   "property": "C182",
   "status": "proved",
   "theorems": [
    "C182_alike"
   ],
   "note": ""
  },
  {
   "property": "C183",
   "status": "proved",
   "theorems": [
    "C183_order",
    "C183_renumber",
    "C183_batch"
   ],
   "note": ""
  },
  {
   "property": "C184",
   "status": "proved",
   "theorems": [
    "C184_field"
   ],
   "note": ""
  },
  {
   "property": "C185",
   "status": "proved",
   "theorems": [
    "C185_formula",
    "C185_network"
   ],
   "note": ""
  },
  {
   "property": "C186",
   "status": "proved",
   "theorems": [
    "C186_copied",
    "C186_distinct",
    "C186_same_name",
    "C186_stale",
    "C186_directories"
   ],
   "note": ""
  },
  {
   "property": "C187",
   "status": "proved",
   "theorems": [
    "C187_missing",
    "C187_retry"
   ],
   "note": ""
  },
  {
   "property": "C188",
   "status": "proved",
   "theorems": [
    "C188_accepts",
    "C188_options_ignored",
    "C188_no_data",
    "C188_from_sequence",
    "C188_from_file",
    "C188_from_file_refuses",
    "C188_from_file_builds",
    "C188_given",
    "C188_from_sequences"
   ],
   "note": ""
  },
  {
   "property": "C189",
   "status": "proved",
   "theorems": [
    "C189_numbered",
    "C189_list",
    "C189_outside",
    "C189_ends",
    "C189_assigned",
    "C189_assigned_consecutive",
    "C189_assigned_lost"
   ],
   "note": ""
  },
  {
   "property": "C190",
   "status": "proved",
   "theorems": [
    "C190_decode",
    "C190_reverse"
   ],
   "note": ""
  },
  {
   "property": "C191",
   "status": "proved",
   "theorems": [
    "C191_again",
    "C191_independent"
   ],
   "note": ""
  },
  {
   "property": "C192",
   "status": "proved",
   "theorems": [
    "C192_check",
    "C192_edges",
    "C192_built"
   ],
   "note": ""
  },
  {
   "property": "C193",
   "status": "proved",
   "theorems": [
    "C193_statistics",
    "C193_no_labels"
   ],
   "note": ""
  },
  {
   "property": "C194",
   "status": "proved",
   "theorems": [
    "C194_controllers"
   ],
   "note": ""
  },
  {
   "property": "C195",
   "status": "proved",
   "theorems": [
    "C195_signatures",
    "C195_order",
    "C195_refused",
    "C195_resolution",
    "C195_error"
   ],
   "note": ""
  },
  {
   "property": "C196",
   "status": "proved",
   "theorems": [
    "C196_track",
    "C196_unique",
    "C196_kept"
   ],
   "note": ""
  },
  {
   "property": "C197",
   "status": "proved",
   "theorems": [
    "C197_piece",
    "C197_scratch"
   ],
   "note": ""
  },
  {
   "property": "C198",
   "status": "proved",
   "theorems": [
    "C198_read",
    "C198_near",
    "C198_ends",
    "C198_refused",
    "C198_callback",
    "C198_callback"
   ],
   "note": ""
  },
  {
   "property": "C199",
   "status": "proved",
   "theorems": [
    "C199_rescale",
    "C199_bounds",
    "C199_again",
    "C199_edges",
    "C199_scale",
    "C199_one",
    "C199_negative"
   ],
   "note": ""
  },
  {
   "property": "C200",
   "status": "proved",
   "theorems": [
    "C200_rounding",
    "C200_groups",
    "C200_negative",
    "C200_close",
    "C200_interval",
    "C200_agrees"
   ],
   "note": ""
  },
  {
   "property": "C201",
   "status": "proved",
   "theorems": [
    "C201_verify",
    "C201_kept",
    "C201_balanced_refused"
   ],
   "note": ""
  },
  {
   "property": "C202",
   "status": "proved",
   "theorems": [
    "C202_fresh",
    "C202_onto",
    "C202_attributes",
    "C202_velocities",
    "C202_single_velocity",
    "C202_succeeds",
    "C202_agrees"
   ],
   "note": ""
  },
  {
   "property": "C203",
   "status": "proved",
   "theorems": [
    "C203_per_instrument",
    "C203_whole",
    "C203_succeeds"
   ],
   "note": ""
  },
  {
   "property": "C204",
   "status": "proved",
   "theorems": [
    "C204_share",
    "C204_exact",
    "C204_product",
    "C204_masks",
    "C204_written",
    "C204_split"
   ],
   "note": ""
  },
  {
   "property": "C205",
   "status": "proved",
   "theorems": [
    "C205_step_errors",
    "C205_step_monotone",
    "C205_step_near",
    "C205_step_agrees",
    "C205_step_exact",
    "C205_valid",
    "C205_keeps",
    "C205_succeeds",
    "C205_practical",
    "C205_copy",
    "C205_min_step"
   ],
   "note": ""
  },
  {
   "property": "C206",
   "status": "proved",
   "theorems": [
    "C206_times",
    "C206_keys"
   ],
   "note": ""
  },
  {
   "property": "C207",
   "status": "proved",
   "theorems": [
    "C207_unchanged",
    "C207_no_marker",
    "C207_inside",
    "C207_note",
    "C207_round_trip",
    "C207_errors"
   ],
   "note": ""
  },
  {
   "property": "C208",
   "status": "proved",
   "theorems": [
    "C208_samples",
    "C208_sum",
    "C208_range",
    "C208_order",
    "C208_louder",
    "C208_silence",
    "C208_none"
   ],
   "note": ""
  },
  {
   "property": "C209",
   "status": "proved",
   "theorems": [
    "C209_gin",
    "C209_example02",
    "C209_no_batch",
    "C209_gae",
    "C209_never_evaluated",
    "C209_evaluate_fails"
   ],
   "note": ""
  },
  {
   "property": "C210",
   "status": "proved",
   "theorems": [
    "C210_reader",
    "C210_own_reader",
    "C210_other_readers"
   ],
   "note": ""
  },
  {
   "property": "C211",
   "status": "proved",
   "theorems": [
    "C211_spelled",
    "C211_roundtrip",
    "C211_injective",
    "C211_labels",
    "C211_from_name",
    "C211_same_note",
    "C211_stale"
   ],
   "note": ""
  },
  {
   "property": "C212",
   "status": "proved",
   "theorems": [
    "C212_shift",
    "C212_shift_order",
    "C212_shift_total",
    "C212_shift_valid",
    "C212_shift_practical",
    "C212_shift_exact",
    "C212_stretch",
    "C212_stretch_order",
    "C212_stretch_exact"
   ],
   "note": ""
  },
  {
   "property": "C213",
   "status": "proved",
   "theorems": [
    "C213_step_errors",
    "C213_self_check",
    "C213_frames",
    "C213_frames_agree",
    "C213_frames_errors",
    "C213_frame_bounds",
    "C213_frame_bounds_pow2",
    "C213_occupied",
    "C213_threshold",
    "C213_threshold_order",
    "C213_threshold_near",
    "C213_threshold_errors",
    "C213_step",
    "C213_step_order",
    "C213_step_idempotent",
    "C213_grid_order",
    "C213_grid_errors",
    "C213_grid_steps",
    "C213_check"
   ],
   "note": ""
  },
  {
   "property": "C214",
   "status": "proved",
   "theorems": [
    "C214_missing",
    "C214_connect",
    "C214_directed",
    "C214_stable",
    "C214_range"
   ],
   "note": ""
  },
  {
   "property": "C215",
   "status": "proved",
   "theorems": [
    "C215_start",
    "C215_changes",
    "C215_order",
    "C215_period",
    "C215_plain",
    "C215_drift",
    "C215_count",
    "C215_exact",
    "C215_returns",
    "C215_absorbed",
    "C215_downbeats",
    "C215_bars",
    "C215_rebarred"
   ],
   "note": ""
  },
  {
   "property": "C216",
   "status": "proved",
   "theorems": [
    "C216_returns",
    "C216_one_beat",
    "C216_drift",
    "C216_count",
    "C216_downbeats"
   ],
   "note": ""
  },
  {
   "property": "C217",
   "status": "proved",
   "theorems": [
    "C217_notes",
    "C217_events",
    "C217_signatures",
    "C217_tempi",
    "C217_failures",
    "C217_ticks"
   ],
   "note": ""
  },
  {
   "property": "C218",
   "status": "proved",
   "theorems": [
    "C218_tempo_to_qpm",
    "C218_signature",
    "C218_ppq",
    "C218_steps",
    "C218_measure",
    "C218_no_tempo",
    "C218_setter"
   ],
   "note": ""
  },
  {
   "property": "C219",
   "status": "proved",
   "theorems": [
    "C219_report"
   ],
   "note": ""
  },
  {
   "property": "C220",
   "status": "proved",
   "theorems": [
    "C220_resaved"
   ],
   "note": ""
  },
  {
   "property": "C221",
   "status": "proved",
   "theorems": [
    "C221_saved",
    "C221_outcome"
   ],
   "note": ""
  },
  {
   "property": "C222",
   "status": "proved",
   "theorems": [
    "C222_double",
    "C222_exact",
    "C222_any_double",
    "C222_any_exact",
    "C222_appended_double",
    "C222_appended_exact"
   ],
   "note": ""
  }
 ]
}