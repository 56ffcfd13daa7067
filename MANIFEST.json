{
 "claims": [
  {
   "property": "C01",
   "status": "proved",
   "theorems": [
    "C01_tags_valid_history"
   ],
   "note": ""
  },
  {
   "property": "C02",
   "status": "proved",
   "theorems": [
    "C02_set_accepts_legal",
    "C02_set_effect",
    "C02_rejected_set_is_noop",
    "C02_reading",
    "C02_removing",
    "C02_indices_tag_restricts",
    "C02_indices_tag_refuted"
   ],
   "note": "C02_indices_tag_refuted gives the exception: a tag named 'indices' shadows the range check."
  },
  {
   "property": "C03",
   "status": "proved",
   "theorems": [
    "C03_infer_accepts",
    "C03_infer_minimal",
    "C03_explicit_accepts"
   ],
   "note": ""
  },
  {
   "property": "C04",
   "status": "proved",
   "theorems": [
    "C04_reachable_well_formed_exact",
    "C04_reachable_well_formed_binary64"
   ],
   "note": ""
  },
  {
   "property": "C05",
   "status": "proved",
   "theorems": [
    "C05_argument_order_irrelevant",
    "C05_equal_starts_refuted"
   ],
   "note": "C05_equal_starts_refuted shows why distinct start times are needed."
  },
  {
   "property": "C06",
   "status": "proved",
   "theorems": [
    "C06_constructor_accepts",
    "C06_constructor_result"
   ],
   "note": ""
  },
  {
   "property": "C07",
   "status": "proved",
   "theorems": [
    "C07_select_channels"
   ],
   "note": ""
  },
  {
   "property": "C08",
   "status": "proved",
   "theorems": [
    "C08_outcome",
    "C08_unknown_identifier",
    "C08_known_identifiers_succeed",
    "C08_select_all_is_identity"
   ],
   "note": ""
  },
  {
   "property": "C09",
   "status": "proved",
   "theorems": [
    "C09_select_runs",
    "C09_out_of_range",
    "C09_select_runs_succeeds",
    "C09_repeated_run"
   ],
   "note": "Also gives the conditions of success and the failure of repeated runs."
  },
  {
   "property": "C10",
   "status": "proved",
   "theorems": [
    "C10_join_when",
    "C10_join_raises",
    "C10_join_aligns",
    "C10_join_different_tags_raises",
    "C10_join_succeeds"
   ],
   "note": ""
  },
  {
   "property": "C11",
   "status": "proved",
   "theorems": [
    "C11_join_commutative",
    "C11_join_associative"
   ],
   "note": ""
  },
  {
   "property": "C12",
   "status": "proved",
   "theorems": [
    "C12_any_window",
    "C12_window_keeps_inside",
    "C12_window_outside_yields_boundary",
    "C12_strict_window"
   ],
   "note": ""
  },
  {
   "property": "C13",
   "status": "proved",
   "theorems": [
    "C13_window_keeps_inside"
   ],
   "note": ""
  },
  {
   "property": "C14",
   "status": "proved",
   "theorems": [
    "C14_nested_windows"
   ],
   "note": ""
  },
  {
   "property": "C15",
   "status": "proved",
   "theorems": [
    "C15_exclusion_keeps_outside",
    "C15_exclusion_of_empty_set_raises",
    "C15_untagged_channel_raises",
    "C15_crossed",
    "C15_crossed_raises"
   ],
   "note": ""
  },
  {
   "property": "C16",
   "status": "proved",
   "theorems": [
    "C16_full_interval_exact",
    "C16_full_interval_binary64",
    "C16_full_interval_binary64_refuted"
   ],
   "note": ""
  },
  {
   "property": "C17",
   "status": "proved",
   "theorems": [
    "C17_runs_are_common_parts",
    "C17_different_rates_are_skipped"
   ],
   "note": ""
  },
  {
   "property": "C18",
   "status": "proved",
   "theorems": [
    "C18_merge_invents_nothing"
   ],
   "note": ""
  },
  {
   "property": "C19",
   "status": "proved",
   "theorems": [
    "C19_merge_loses_nothing_common"
   ],
   "note": ""
  },
  {
   "property": "C20",
   "status": "proved",
   "theorems": [
    "C20_tags_are_the_union",
    "C20_channels_add_up",
    "C20_shared_name_raises"
   ],
   "note": ""
  },
  {
   "property": "C21",
   "status": "proved",
   "theorems": [
    "C21_merge_succeeds_iff",
    "C21_operand_without_runs_raises",
    "C21_alone"
   ],
   "note": ""
  },
  {
   "property": "C22",
   "status": "proved",
   "theorems": [
    "C22_runs_are_maximal_blocks",
    "C22_values_are_conserved",
    "C22_none_left"
   ],
   "note": "Runs with pairwise different start times."
  },
  {
   "property": "C23",
   "status": "proved",
   "theorems": [
    "C23_exact_gaps_keep_times",
    "C23_displacement_is_bounded"
   ],
   "note": ""
  },
  {
   "property": "C24",
   "status": "proved",
   "theorems": [
    "C24_idempotent",
    "C24_untagged_refuted"
   ],
   "note": "For sets whose last channel is tagged; C24_untagged_refuted shows the second call raising KeyError otherwise."
  },
  {
   "property": "C25",
   "status": "proved",
   "theorems": [
    "C25_success",
    "C25_untagged_raises",
    "C25_drift_raises"
   ],
   "note": "Success, KeyError and a witness of the AssertionError."
  },
  {
   "property": "C26",
   "status": "proved",
   "theorems": [
    "C26_groups_are_maximal_blocks",
    "C26_groups_in_order"
   ],
   "note": ""
  },
  {
   "property": "C27",
   "status": "proved",
   "theorems": [
    "C27_index_window"
   ],
   "note": ""
  },
  {
   "property": "C28",
   "status": "proved",
   "theorems": [
    "C28_sync_construction"
   ],
   "note": ""
  },
  {
   "property": "C29",
   "status": "proved",
   "theorems": [
    "C29_concatenation",
    "C29_success",
    "C29_empty_raises"
   ],
   "note": "Numeric kernels universally quantified; also the exact condition of success."
  },
  {
   "property": "C30",
   "status": "proved",
   "theorems": [
    "C30_inventory_history",
    "C30_extend_outcome"
   ],
   "note": ""
  },
  {
   "property": "C31",
   "status": "proved",
   "theorems": [
    "C31_select_channels",
    "C31_filter",
    "C31_success",
    "C31_patterns",
    "C31_get_tag"
   ],
   "note": "Success needs no tag named 'get' (besides the reserved names); C31_patterns ties the name matching to a specification of shell patterns."
  },
  {
   "property": "C32",
   "status": "proved",
   "theorems": [
    "C32_extract_t",
    "C32_select_runs"
   ],
   "note": ""
  },
  {
   "property": "C33",
   "status": "proved",
   "theorems": [
    "C33_every_tag_or_nothing",
    "C33_every_single_tag_or_nothing",
    "C33_single_tags"
   ],
   "note": "Members with positive rates and at least two samples per run; both values of keep_multi_tags."
  },
  {
   "property": "C34",
   "status": "proved",
   "theorems": [
    "C34_no_invented_sample"
   ],
   "note": "The displacement is at most one tolerated gap per merged run before the sample."
  },
  {
   "property": "C35",
   "status": "proved",
   "theorems": [
    "C35_any_order_of_rates"
   ],
   "note": "Success is preserved too; both values of keep_multi_tags."
  },
  {
   "property": "C36",
   "status": "proved",
   "theorems": [
    "C36_aliased_single_tags",
    "C36_no_tag",
    "C36_recorded_twice",
    "C36_two_rates",
    "C36_multi_tag",
    "C36_aliased"
   ],
   "note": "The kind of the error is checked on the sample inventories only."
  },
  {
   "property": "C37",
   "status": "proved",
   "theorems": [
    "C37_parameters",
    "C37_out_of_range",
    "C37_outcome"
   ],
   "note": "Exact rational arithmetic."
  },
  {
   "property": "C38",
   "status": "proved",
   "theorems": [
    "C38_windows",
    "C38_local",
    "C38_one_window_rejected",
    "C38_success"
   ],
   "note": "Counting and locality for every arithmetic; rejection and success in exact arithmetic."
  },
  {
   "property": "C39",
   "status": "proved",
   "theorems": [
    "C39_linear"
   ],
   "note": "Complex data and scalars; rational frequencies and rates."
  },
  {
   "property": "C40",
   "status": "proved",
   "theorems": [
    "C40_pure_tone"
   ],
   "note": "Rational frequencies and rates (every float is one), real amplitude and phase."
  },
  {
   "property": "C41",
   "status": "proved",
   "theorems": [
    "C41_rejected_rows",
    "C41_negative_refuted",
    "C41_outcome"
   ],
   "note": "Initial indices in range and non-negative; C41_negative_refuted shows what happens with negative ones."
  },
  {
   "property": "C42",
   "status": "proved",
   "theorems": [
    "C42_rejections_grow",
    "C42_threshold",
    "C42_fixed_weights"
   ],
   "note": "Weight threshold eps such that a zero weight counts as rejected (eps >= 0). The threshold theorems are about real weights with nan and infinities."
  },
  {
   "property": "C43",
   "status": "proved",
   "theorems": [
    "C43_converges",
    "C43_fails",
    "C43_least_squares",
    "C43_retained_rows"
   ],
   "note": "Numeric kernels universally quantified."
  },
  {
   "property": "C44",
   "status": "proved",
   "theorems": [
    "C44_history",
    "C44_step_history"
   ],
   "note": "All heaps, hence all histories; also for every single step."
  },
  {
   "property": "C45",
   "status": "proved",
   "theorems": [
    "C45_thomson",
    "C45_bounded_influence"
   ],
   "note": "General statements about shared objects plus concrete schedules."
  },
  {
   "property": "C46",
   "status": "proved",
   "theorems": [
    "C46_exact_relation",
    "C46_singular"
   ],
   "note": "Matrices over any field with a conjugation; None models the LinAlgError of a singular matrix."
  },
  {
   "property": "C47",
   "status": "proved",
   "theorems": [
    "C47_least"
   ],
   "note": "Any numerically closed field (the complex numbers)."
  },
  {
   "property": "C48",
   "status": "proved",
   "theorems": [
    "C48_output_scale",
    "C48_output_sum",
    "C48_input_change",
    "C48_row_order"
   ],
   "note": "Also additivity in the output and independence of the order of the rows."
  },
  {
   "property": "C49",
   "status": "proved",
   "theorems": [
    "C49_huber",
    "C49_decreasing",
    "C49_zero_scale",
    "C49_nan"
   ],
   "note": "Real arithmetic with nan and infinities; a zero residual with a zero scale gives nan."
  },
  {
   "property": "C50",
   "status": "proved",
   "theorems": [
    "C50_thomson",
    "C50_value",
    "C50_nan",
    "C50_zero_scale"
   ],
   "note": "Real arithmetic with nan and infinities, for the stored scale."
  },
  {
   "property": "C51",
   "status": "proved",
   "theorems": [
    "C51_value",
    "C51_bound",
    "C51_no_leverage",
    "C51_exceeds_one_iff",
    "C51_at_most_one_refuted"
   ],
   "note": "Exceeds one for every lower threshold below 1 and all large enough upper thresholds; the exact condition is given."
  },
  {
   "property": "C52",
   "status": "proved",
   "theorems": [
    "C52_schedule",
    "C52_factors",
    "C52_mest_stages"
   ],
   "note": "Thresholds as parameters (gammaincinv is not modelled)."
  },
  {
   "property": "C53",
   "status": "proved",
   "theorems": [
    "C53_blocks",
    "C53_partition",
    "C53_succeeds",
    "C53_fails",
    "C53_no_size"
   ],
   "note": "Blocks of the Fourier coefficients, for every coefficient function."
  },
  {
   "property": "C54",
   "status": "proved",
   "theorems": [
    "C54_rejected"
   ],
   "note": "The rejection criterion as a parameter."
  },
  {
   "property": "C55",
   "status": "proved",
   "theorems": [
    "C55_union",
    "C55_no_prefilter",
    "C55_success"
   ],
   "note": ""
  },
  {
   "property": "C56",
   "status": "proved",
   "theorems": [
    "C56_shapes"
   ],
   "note": "Hypotheses: the solver returns one value per input."
  },
  {
   "property": "C57",
   "status": "proved",
   "theorems": [
    "C57_silent",
    "C57_fourier_stage",
    "C57_loud_values",
    "C57_estimator_failure",
    "C57_no_weights_refuted"
   ],
   "note": "The stacking of the results is part of the model; see C109."
  },
  {
   "property": "C58",
   "status": "proved",
   "theorems": [
    "C58_times",
    "C58_not_kept",
    "C58_centre"
   ],
   "note": "C58_times, C58_centre, C58_not_kept."
  },
  {
   "property": "C59",
   "status": "proved",
   "theorems": [
    "C59_carried_over",
    "C59_times"
   ],
   "note": "C59_times gives the observable form."
  },
  {
   "property": "C60",
   "status": "proved",
   "theorems": [
    "C60_real_pb",
    "C60_raises"
   ],
   "note": "TypeError by example; no computed value in any execution."
  },
  {
   "property": "C61",
   "status": "proved",
   "theorems": [
    "C61_solutions",
    "C61_decoding",
    "C61_residuals"
   ],
   "note": "With the estimation: C112."
  },
  {
   "property": "C62",
   "status": "proved",
   "theorems": [
    "C62_combinations",
    "C62_results",
    "C62_outcome",
    "C62_data",
    "C62_single"
   ],
   "note": "Also the data of each combination."
  },
  {
   "property": "C63",
   "status": "proved",
   "theorems": [
    "C63_leftover_tag"
   ],
   "note": "Remotes not themselves called 'Bremote'."
  },
  {
   "property": "C64",
   "status": "proved",
   "theorems": [
    "C64_instances",
    "C64_yielded_iff",
    "C64_unknown_field",
    "C64_refused",
    "C64_spelling",
    "C64_normal",
    "C64_place"
   ],
   "note": "Patterns of the documented form whose text is a normal path; 8 bit characters; sets without special characters."
  },
  {
   "property": "C65",
   "status": "proved",
   "theorems": [
    "C65_unambiguous",
    "C65_values_found"
   ],
   "note": "Also that touching fields are ambiguous, by example."
  },
  {
   "property": "C66",
   "status": "proved",
   "theorems": [
    "C66_repeated_field",
    "C66_normalised_away",
    "C66_braces_and_brackets"
   ],
   "note": "The repeated field for all identifiers and values of one character; the others are witnesses."
  },
  {
   "property": "C67",
   "status": "proved",
   "theorems": [
    "C67_indexing",
    "C67_positive_steps",
    "C67_no_dimension_refuted"
   ],
   "note": "For any reader that agrees with the array on slices. Same exception unless a step is 0. Arrays without dimension differ (refuted witness)."
  },
  {
   "property": "C68",
   "status": "proved",
   "theorems": [
    "C68_size",
    "C68_slices",
    "C68_integers",
    "C68_int32"
   ],
   "note": "Any fixed-size encoding; the 32-bit integers of ATS files are an instance. Opening a missing file is not modelled."
  },
  {
   "property": "C69",
   "status": "proved",
   "theorems": [
    "C69_reversed",
    "C69_negative_step"
   ],
   "note": "Both differences proved for all slices and files."
  },
  {
   "property": "C70",
   "status": "proved",
   "theorems": [
    "C70_fields",
    "C70_refused",
    "C70_layout",
    "C70_decodes",
    "C70_long_header_refuted"
   ],
   "note": "The table of positions, names and kinds is a specification of its own; floats are compared by their bits, the converted coordinates are kept as the integer and its unit. A header of 32768 bytes or more has a negative length field (refuted witness)."
  },
  {
   "property": "C71",
   "status": "proved",
   "theorems": [
    "C71_loads",
    "C71_channels",
    "C71_refused",
    "C71_unreadable"
   ],
   "note": "The equivalence is for exact arithmetic; the content of the channels for any arithmetic. Decoding of the floats and the scaling are parameters; samples are read when loading, the code leaves it to dask."
  },
  {
   "property": "C72",
   "status": "proved",
   "theorems": [
    "C72_names",
    "C72_spelling",
    "C72_lookup",
    "C72_absolute",
    "C72_exists"
   ],
   "note": "File systems without symbolic links; absolute names and inconsistent file systems in separate theorems."
  },
  {
   "property": "C73",
   "status": "proved",
   "theorems": [
    "C73_selection",
    "C73_succeeds",
    "C73_no_section",
    "C73_unknown_version",
    "C73_fails",
    "C73_version",
    "C73_descending_refuted"
   ],
   "note": "loadtxt, np.angle, exp are parameters; refuted for tables whose first row has not the least frequency (in chopper-on mode the extrapolation replaces lower rows)."
  },
  {
   "property": "C74",
   "status": "proved",
   "theorems": [
    "C74_list",
    "C74_shadow",
    "C74_found",
    "C74_loads"
   ],
   "note": "Entry points in load order; plugin objects with a false truth value do not shadow."
  },
  {
   "property": "C75",
   "status": "proved",
   "theorems": [
    "C75_tags_equality"
   ],
   "note": ""
  },
  {
   "property": "C76",
   "status": "proved",
   "theorems": [
    "C76_array_refused"
   ],
   "note": "Relies on numpy integers having __getitem__ and no len."
  },
  {
   "property": "C77",
   "status": "proved",
   "theorems": [
    "C77_exact_never_converges"
   ],
   "note": ""
  },
  {
   "property": "C78",
   "status": "proved",
   "theorems": [
    "C78_leverage",
    "C78_input_change"
   ],
   "note": "Exact arithmetic."
  },
  {
   "property": "C79",
   "status": "proved",
   "theorems": [
    "C79_unit",
    "C79_row_order"
   ],
   "note": ""
  },
  {
   "property": "C80",
   "status": "proved",
   "theorems": [
    "C80_scale_bounded",
    "C80_equal_majority"
   ],
   "note": ""
  },
  {
   "property": "C81",
   "status": "proved",
   "theorems": [
    "C81_value",
    "C81_range",
    "C81_exact_fit",
    "C81_zero_output",
    "C81_exists",
    "C81_units",
    "C81_order"
   ],
   "note": "Exact arithmetic over the complex numbers."
  },
  {
   "property": "C82",
   "status": "proved",
   "theorems": [
    "C82_remotes_have_no_effect",
    "C82_values"
   ],
   "note": ""
  },
  {
   "property": "C83",
   "status": "proved",
   "theorems": [
    "C83_created",
    "C83_cases",
    "C83_in_use",
    "C83_lookup",
    "C83_shown"
   ],
   "note": "File system as a map from paths; no symbolic links, no permissions."
  },
  {
   "property": "C84",
   "status": "proved",
   "theorems": [
    "C84_phoenix",
    "C84_no_level"
   ],
   "note": "From the parsed file; the missing level raises ValueError because of the format code :r in the message."
  },
  {
   "property": "C85",
   "status": "proved",
   "theorems": [
    "C85_remote",
    "C85_local"
   ],
   "note": "Both directions with a remote and without; the estimates themselves are those of transfer_function (C41-C48)."
  },
  {
   "property": "C86",
   "status": "proved",
   "theorems": [
    "C86_run",
    "C86_bounds",
    "C86_failures"
   ],
   "note": "Exact real arithmetic; the leverages are parameters of the hat matrix computation (C78) and the two steps of the iteration are those of MestModel."
  },
  {
   "property": "C87",
   "status": "proved",
   "theorems": [
    "C87_groups",
    "C87_common_content"
   ],
   "note": "Exact arithmetic, recordings as in C34."
  },
  {
   "property": "C88",
   "status": "proved",
   "theorems": [
    "C88_value",
    "C88_exists",
    "C88_after_estimate",
    "C88_degenerate",
    "C88_units",
    "C88_window_order",
    "C88_rejected_windows_refuted"
   ],
   "note": "Closed field with conjugation; the last sentence is C88_rejected_windows_refuted, against the expectation that rejected windows have no influence."
  },
  {
   "property": "C89",
   "status": "proved",
   "theorems": [
    "C89_filter",
    "C89_filter_get",
    "C89_tag_filter",
    "C89_tag_get"
   ],
   "note": "Valid tag tables (C01)."
  },
  {
   "property": "C90",
   "status": "proved",
   "theorems": [
    "C90_prefix",
    "C90_windows",
    "C90_windows_too_many",
    "C90_tone"
   ],
   "note": "Rational frequencies and rates; contiguous arrays; a window of length 1 given directly to ft is not broadcast in the model."
  },
  {
   "property": "C91",
   "status": "proved",
   "theorems": [
    "C91_length",
    "C91_small",
    "C91_large",
    "C91_mean_and_symmetry_refuted"
   ],
   "note": "The last sentence is C91_mean_and_symmetry_refuted. dpss values are a parameter; a dpss window of mean 0 is excluded."
  },
  {
   "property": "C92",
   "status": "proved",
   "theorems": [
    "C92_delete",
    "C92_delete_attribute",
    "C92_set_attribute",
    "C92_pop",
    "C92_popitem",
    "C92_setdefault",
    "C92_clear",
    "C92_update"
   ],
   "note": "Returned values: C111."
  },
  {
   "property": "C93",
   "status": "proved",
   "theorems": [
    "C93_common_content",
    "C93_common_content_single"
   ],
   "note": "C93_common_content (keep_multi_tags=True) and C93_common_content_single (False)."
  },
  {
   "property": "C94",
   "status": "proved",
   "theorems": [
    "C94_no_consecutive_runs",
    "C94_off_grid_refuted"
   ],
   "note": "C94_no_consecutive_runs; C94_off_grid_refuted is the witness off the grid."
  },
  {
   "property": "C95",
   "status": "proved",
   "theorems": [
    "C95_merge_from_members",
    "C95_merge_tags",
    "C95_merge_common_content"
   ],
   "note": "C95_merge_from_members, C95_merge_tags, C95_merge_common_content."
  },
  {
   "property": "C96",
   "status": "proved",
   "theorems": [
    "C96_equivariant"
   ],
   "note": "FullModel.v closes every numeric parameter of MestModel.v; exact complex arithmetic, LinAlgError for a singular matrix."
  },
  {
   "property": "C97",
   "status": "proved",
   "theorems": [
    "C97_least_squares",
    "C97_robust_fails",
    "C97_majority_fails"
   ],
   "note": "The failure comes from 0/0 in the weights and scipy's check_finite; in floating point it occurs when the computed residuals are exactly zero."
  },
  {
   "property": "C98",
   "status": "proved",
   "theorems": [
    "C98_selects",
    "C98_unknown",
    "C98_class",
    "C98_hasattr",
    "C98_blank",
    "C98_copies_refuted"
   ],
   "note": "Copies: copy and pickle build the object without calling the constructor and look up a special method on it."
  },
  {
   "property": "C99",
   "status": "proved",
   "theorems": [
    "C99_divides",
    "C99_default",
    "C99_none"
   ],
   "note": "The division is a parameter; the default only needs x/1 = x."
  },
  {
   "property": "C100",
   "status": "proved",
   "theorems": [
    "C100_text",
    "C100_fails",
    "C100_identifies",
    "C100_identifies_refuted"
   ],
   "note": ""
  },
  {
   "property": "C101",
   "status": "proved",
   "theorems": [
    "C101_text",
    "C101_plain_names",
    "C101_percent_refuted",
    "C101_percent",
    "C101_percent_wrong"
   ],
   "note": "Formatting directives other than %% and %s are outside the model; the witness uses these two."
  },
  {
   "property": "C102",
   "status": "proved",
   "theorems": [
    "C102_row_order"
   ],
   "note": ""
  },
  {
   "property": "C103",
   "status": "proved",
   "theorems": [
    "C103_conjugate"
   ],
   "note": ""
  },
  {
   "property": "C104",
   "status": "proved",
   "theorems": [
    "C104_outputs_alone"
   ],
   "note": ""
  },
  {
   "property": "C105",
   "status": "proved",
   "theorems": [
    "C105_number",
    "C105_date",
    "C105_date_fails",
    "C105_calendar"
   ],
   "note": ""
  },
  {
   "property": "C106",
   "status": "proved",
   "theorems": [
    "C106_set",
    "C106_set_fails",
    "C106_run",
    "C106_run_fails",
    "C106_inventory"
   ],
   "note": ""
  },
  {
   "property": "C107",
   "status": "proved",
   "theorems": [
    "C107_text",
    "C107_fails",
    "C107_nested",
    "C107_sequence",
    "C107_index",
    "C107_name",
    "C107_thomson",
    "C107_mest",
    "C107_bi"
   ],
   "note": ""
  },
  {
   "property": "C108",
   "status": "proved",
   "theorems": [
    "C108_table",
    "C108_no_table",
    "C108_metronix",
    "C108_metronix_succeeds",
    "C108_metronix_fails",
    "C108_phoenix",
    "C108_phoenix_succeeds",
    "C108_phoenix_fails",
    "C108_descending_refuted"
   ],
   "note": ""
  },
  {
   "property": "C109",
   "status": "proved",
   "theorems": [
    "C109_outcome",
    "C109_array",
    "C109_silent_refuted"
   ],
   "note": "C109_silent_refuted: two electric channels, one magnetic channel, one frequency with coefficients and one without."
  },
  {
   "property": "C110",
   "status": "proved",
   "theorems": [
    "C110_open",
    "C110_no_file",
    "C110_place",
    "C110_slices",
    "C110_integers",
    "C110_outside",
    "C110_gone",
    "C110_array"
   ],
   "note": "Names whose absolute form is normal; no symbolic links. A negative step is not read (C69)."
  },
  {
   "property": "C111",
   "status": "proved",
   "theorems": [
    "C111_get",
    "C111_pop",
    "C111_popitem",
    "C111_setdefault",
    "C111_setdefault_members",
    "C111_setdefault_refuted",
    "C111_setdefault_none",
    "C111_changes"
   ],
   "note": "C111_setdefault_refuted: the value returned for a missing tag is not the tuple that the tag gets."
  },
  {
   "property": "C112",
   "status": "proved",
   "theorems": [
    "C112_least_squares",
    "C112_shapes",
    "C112_single_values"
   ],
   "note": "C112_least_squares compares with transfer_function of MestModel.v, closed by FullModel.v."
  },
  {
   "property": "C113",
   "status": "proved",
   "theorems": [
    "C113_same_results",
    "C113_success",
    "C113_failure",
    "C113_reported",
    "C113_mass",
    "C113_values",
    "C113_percent",
    "C113_starting"
   ],
   "note": ""
  },
  {
   "property": "C114",
   "status": "proved",
   "theorems": [
    "C114_rejected",
    "C114_explained",
    "C114_succeeds",
    "C114_fails",
    "C114_units",
    "C114_keeps_all",
    "C114_exact",
    "C114_recordings",
    "C114_recordings_part",
    "C114_recordings_succeeds"
   ],
   "note": "Exact arithmetic over any closed field with a conjugation; blocks of PrefilterModel.v with the coefficient of CodModel.v."
  },
  {
   "property": "C115",
   "status": "proved",
   "theorems": [
    "C115_remote",
    "C115_local",
    "C115_local_bias_refuted"
   ],
   "note": "Complete estimate of WholeModel.v: real samples, exact arithmetic, lists of any length. C115_local_bias_refuted is the witness of the bias without remote."
  },
  {
   "property": "C116",
   "status": "proved",
   "theorems": [
    "C116_units",
    "C116_filter"
   ],
   "note": "Same model; the hypotheses on the weights say that they are objects of weights.py, C116_filter that the determination filter qualifies as prefilter."
  },
  {
   "property": "C117",
   "status": "proved",
   "theorems": [
    "C117_errors",
    "C117_no_noise",
    "C117_no_noise_remote",
    "C117_silent",
    "C117_shapes"
   ],
   "note": "Same model (WholeModel.v). C117_errors is C88 with the kernels on lists: norm of the residual, inverse of the cross products; C117_silent and C117_shapes are C57 and C109 with their hypotheses on the kernels proved."
  },
  {
   "property": "C118",
   "status": "proved",
   "theorems": [
    "C118_tones",
    "C118_shaped",
    "C118_flat",
    "C118_remote"
   ],
   "note": "The hypothesis that the Fourier coefficients exist only says that f is accepted (C37); the lengths of the windows are those reported with them."
  },
  {
   "property": "C119",
   "status": "proved",
   "theorems": [
    "C119_same",
    "C119_selected",
    "C119_values",
    "C119_uncalibrated_refuted"
   ],
   "note": "C119_uncalibrated_refuted shows that calibrations are needed for the channels that are not used too (fourier_coefficients computes all channels; the failure is silent, C57)."
  },
  {
   "property": "C120",
   "status": "proved",
   "theorems": [
    "C120_clock"
   ],
   "note": ""
  },
  {
   "property": "C121",
   "status": "proved",
   "theorems": [
    "C121_frequencies",
    "C121_channels"
   ],
   "note": ""
  },
  {
   "property": "C122",
   "status": "proved",
   "theorems": [
    "C122_values",
    "C122_unusable",
    "C122_call",
    "C122_compute_prefilter"
   ],
   "note": ""
  },
  {
   "property": "C123",
   "status": "proved",
   "theorems": [
    "C123_local",
    "C123_remote",
    "C123_filter"
   ],
   "note": ""
  },
  {
   "property": "C124",
   "status": "proved",
   "theorems": [
    "C124_values",
    "C124_misnamed",
    "C124_misnamed_silent",
    "C124_misnamed_raises",
    "C124_init"
   ],
   "note": ""
  },
  {
   "property": "C125",
   "status": "proved",
   "theorems": [
    "C125_silent",
    "C125_all",
    "C125_raises",
    "C125_error",
    "C125_tones",
    "C125_mest",
    "C125_bi"
   ],
   "note": "C97 on the complete estimate of WholeModel.v. exact_fit speaks of the Fourier coefficients that the program uses at the frequency; C125_tones derives it from the samples."
  },
  {
   "property": "C126",
   "status": "proved",
   "theorems": [
    "C126_moved"
   ],
   "note": "For estimates without prefilters and with weights of the library, in exact arithmetic. runs_moved leaves the starts free, so the order of the runs is free as well. The list of rejected times of the first set and that of the second, reordered, are paired window by window (same_windows)."
  }
 ]
}