{
 "claims": [
  {
   "property": "C01",
   "status": "proved",
   "theorems": [
    "C01_unknown_keyword_rejected"
   ],
   "note": ""
  },
  {
   "property": "C02",
   "status": "proved",
   "theorems": [
    "C02_body_sees_kwargs_over_defaults"
   ],
   "note": ""
  },
  {
   "property": "C03",
   "status": "proved",
   "theorems": [
    "C03_return_value_over_history",
    "C03_task_without_parameters_never_runs",
    "C03_fresh_output_refuted"
   ],
   "note": "the naive reading (a call returns what it produced) is refuted by C03_fresh_output_refuted"
  },
  {
   "property": "C04",
   "status": "proved",
   "theorems": [
    "C04_loaded_dictionary_represents_document",
    "C04_denotation_unique",
    "C04_wellformed_documents_load",
    "C04_element_without_text_fails"
   ],
   "note": "documents without datafile/datadict/config_dict; numbers are exact rationals (rounding of float() not modelled)"
  },
  {
   "property": "C05",
   "status": "proved",
   "theorems": [
    "C05_distinct_repetitions_all_kept",
    "C05_equal_values_are_kept_refuted",
    "C05_first_occurrence_without_value_fails"
   ],
   "note": "equal values collapse: C05_equal_values_are_kept_refuted"
  },
  {
   "property": "C06",
   "status": "proved",
   "theorems": [
    "C06_values_resolved_with_path_in_force",
    "C06_path_after_load",
    "C06_placeholder_without_path_fails"
   ],
   "note": ""
  },
  {
   "property": "C07",
   "status": "proved",
   "theorems": [
    "C07_working_resolution_is_the_last_one_loaded"
   ],
   "note": ""
  },
  {
   "property": "C08",
   "status": "proved",
   "theorems": [
    "C08_vstack_is_the_stack",
    "C08_every_cell_kept",
    "C08_vstack_succeeds",
    "C08_inputs_only_gain_constant_columns",
    "C08_no_tables",
    "C08_leading_empty_tables_dropped",
    "C08_inputs_untouched_refuted"
   ],
   "note": ""
  },
  {
   "property": "C09",
   "status": "proved",
   "theorems": [
    "C09_update_replaces_exactly_the_new_columns",
    "C09_update_twice_is_update_once",
    "C09_previous_object_loses_columns"
   ],
   "note": ""
  },
  {
   "property": "C10",
   "status": "proved",
   "theorems": [
    "C10_max_signal_is_the_sum",
    "C10_estimating_again_counts_the_total"
   ],
   "note": ""
  },
  {
   "property": "C11",
   "status": "proved",
   "theorems": [
    "C11_one_block_per_channel"
   ],
   "note": ""
  },
  {
   "property": "C12",
   "status": "proved",
   "theorems": [
    "C12_automatic_frame_time",
    "C12_given_frame_time_used_unchanged",
    "C12_no_light_infinite_frame_time",
    "C12_no_well_fraction_fails"
   ],
   "note": ""
  },
  {
   "property": "C13",
   "status": "proved",
   "theorems": [
    "C13_gains_in_range",
    "C13_gains_monotone",
    "C13_dependence_on_M"
   ],
   "note": ""
  },
  {
   "property": "C14",
   "status": "proved",
   "theorems": [
    "C14_row_formula",
    "C14_at_least_each_contribution",
    "C14_monotone"
   ],
   "note": ""
  },
  {
   "property": "C15",
   "status": "proved",
   "theorems": [
    "C15_nan_exactly_without_star_signal"
   ],
   "note": ""
  },
  {
   "property": "C16",
   "status": "proved",
   "theorems": [
    "C16_quadrature",
    "C16_order_irrelevant",
    "C16_incomplete_entry_discards_the_rest",
    "C16_contribution_named_total_overwrites"
   ],
   "note": ""
  },
  {
   "property": "C17",
   "status": "proved",
   "theorems": [
    "C17_rows_aligned",
    "C17_depends_on_own_rows_only",
    "C17_estimate_succeeds"
   ],
   "note": ""
  },
  {
   "property": "C18",
   "status": "proved",
   "theorems": [
    "C18_only_the_sum_of_signals_matters",
    "C18_full_contributions_same_noise",
    "C18_element_named_Max_changes_the_maximum"
   ],
   "note": ""
  },
  {
   "property": "C19",
   "status": "proved",
   "theorems": [
    "C19_noise_columns_become_signals",
    "C19_maximum_signal_doubles",
    "C19_frame_time_halves"
   ],
   "note": ""
  },
  {
   "property": "C20",
   "status": "proved",
   "theorems": [
    "C20_built_iff_consistent",
    "C20_units_converted",
    "C20_errors",
    "C20_time_dependence"
   ],
   "note": ""
  },
  {
   "property": "C21",
   "status": "proved",
   "theorems": [
    "C21_values_within_samples",
    "C21_sign_and_unit_interval_kept"
   ],
   "note": ""
  },
  {
   "property": "C22",
   "status": "proved",
   "theorems": [
    "C22_one_value_per_grid_point",
    "C22_ordered_grid_without_duplicates",
    "C22_unordered_grid_kept",
    "C22_nan_target_fails",
    "C22_only_value_error",
    "C22_fails_iff_few_sources",
    "C22_signal_on_increasing_grid",
    "C22_signal_shape_kept_refuted"
   ],
   "note": ""
  },
  {
   "property": "C23",
   "status": "proved",
   "theorems": [
    "C23_interpolation",
    "C23_binning",
    "C23_interior_bins_filled",
    "C23_linear",
    "C23_constant_reproduced_refuted"
   ],
   "note": ""
  },
  {
   "property": "C24",
   "status": "proved",
   "theorems": [
    "C24_paths_are_sampled",
    "C24_total_is_product",
    "C24_element_columns",
    "C24_within_unit_interval",
    "C24_more_elements_less_light",
    "C24_order_irrelevant"
   ],
   "note": ""
  },
  {
   "property": "C25",
   "status": "proved",
   "theorems": [
    "C25_attenuated_by_what_follows",
    "C25_only_emitting_elements",
    "C25_slit_width",
    "C25_fails_iff_slit_without_width"
   ],
   "note": ""
  },
  {
   "property": "C26",
   "status": "proved",
   "theorems": [
    "C26_distinct_names_all_kept",
    "C26_shared_name_takes_common_place",
    "C26_elements_of_a_section"
   ],
   "note": ""
  },
  {
   "property": "C27",
   "status": "proved",
   "theorems": [
    "C27_position_by_type",
    "C27_radiance_position",
    "C27_signal_without_slit",
    "C27_given_solid_angle_used_refuted"
   ],
   "note": ""
  },
  {
   "property": "C28",
   "status": "proved",
   "theorems": [
    "C28_sum_of_element_signals",
    "C28_elements_do_not_interfere",
    "C28_nothing_emits",
    "C28_nonnegative"
   ],
   "note": ""
  },
  {
   "property": "C29",
   "status": "proved",
   "theorems": [
    "C29_product",
    "C29_order",
    "C29_zodi_transparent"
   ],
   "note": ""
  },
  {
   "property": "C30",
   "status": "proved",
   "theorems": [
    "C30_each_foreground_alone",
    "C30_attenuation_by_filters_refuted",
    "C30_foreground_signal",
    "C30_no_foreground_attribute",
    "C30_nonnegative"
   ],
   "note": ""
  },
  {
   "property": "C31",
   "status": "proved",
   "theorems": [
    "C31_accumulates",
    "C31_power",
    "C31_other_length"
   ],
   "note": ""
  },
  {
   "property": "C32",
   "status": "proved",
   "theorems": [
    "C32_photometer_bin"
   ],
   "note": ""
  },
  {
   "property": "C33",
   "status": "proved",
   "theorems": [
    "C33_fixed_resolution_tiles"
   ],
   "note": ""
  },
  {
   "property": "C34",
   "status": "proved",
   "theorems": [
    "C34_slit_bins_conserve_light",
    "C34_star_bins_conserve_light"
   ],
   "note": ""
  },
  {
   "property": "C35",
   "status": "proved",
   "theorems": [
    "C35_table_resolution_tiles",
    "C35_terminates_iff_no_edge_repeats",
    "C35_next_edge",
    "C35_terminates_when_bins_are_wide",
    "C35_needs_three_edges",
    "C35_first_bin_may_be_negative_refuted",
    "C35_always_terminates_refuted"
   ],
   "note": ""
  },
  {
   "property": "C36",
   "status": "proved",
   "theorems": [
    "C36_spectrometer_window",
    "C36_windows_positive",
    "C36_spectral_extents_add_up",
    "C36_prescribed_pixels",
    "C36_native_bins_are_one_pixel",
    "C36_photometer_window"
   ],
   "note": ""
  },
  {
   "property": "C37",
   "status": "proved",
   "theorems": [
    "C37_results_under_their_names",
    "C37_failures_share_one_entry",
    "C37_list_order",
    "C37_outcomes_do_not_depend_on_neighbours"
   ],
   "note": ""
  },
  {
   "property": "C38",
   "status": "proved",
   "theorems": [
    "C38_any_schedule_gives_the_same_dictionary",
    "C38_parallel_equals_sequential",
    "C38_parallel_equals_sequential_unmodified",
    "C38_no_deadlock",
    "C38_every_schedule_ends",
    "C38_parallel_equals_sequential_refuted"
   ],
   "note": ""
  },
  {
   "property": "C39",
   "status": "proved",
   "theorems": [
    "C39_a_prefix_is_saved",
    "C39_saved_targets_are_complete",
    "C39_nothing_saved_after_the_first_failure"
   ],
   "note": ""
  },
  {
   "property": "C40",
   "status": "proved",
   "theorems": [
    "C40_level_after_observing",
    "C40_levels_while_observing",
    "C40_debug_is_kept_refuted"
   ],
   "note": ""
  },
  {
   "property": "C41",
   "status": "proved",
   "theorems": [
    "C41_replace_discards_previous_output",
    "C41_replace_deletes_its_own_payload",
    "C41_without_replace_everything_is_kept",
    "C41_rerun_without_replace_fails",
    "C41_rerun_fails_on_saved_targets"
   ],
   "note": ""
  },
  {
   "property": "C42",
   "status": "proved",
   "theorems": [
    "C42_csv_one_target_per_row",
    "C42_csv_well_formed_loads",
    "C42_mrs_one_target_per_row",
    "C42_mrs_headers",
    "C42_qtable_one_target_per_row",
    "C42_xlsx_one_target_per_row"
   ],
   "note": ""
  },
  {
   "property": "C43",
   "status": "proved",
   "theorems": [
    "C43_dispatch",
    "C43_reader_errors",
    "C43_qtable",
    "C43_no_fallback_for_native_lists"
   ],
   "note": ""
  },
  {
   "property": "C44",
   "status": "proved",
   "theorems": [
    "C44_range_expression_lists_its_integers",
    "C44_interval_is_inclusive",
    "C44_all_and_none",
    "C44_malformed_piece_gives_nothing",
    "C44_malformed_is_always_rejected_refuted"
   ],
   "note": ""
  },
  {
   "property": "C45",
   "status": "proved",
   "theorems": [
    "C45_chunks_partition_the_list",
    "C45_zero_chunk_size_raises",
    "C45_negative_chunk_size_loses_everything"
   ],
   "note": ""
  },
  {
   "property": "C46",
   "status": "proved",
   "theorems": [
    "C46_public_data_is_exported",
    "C46_nothing_else_is_exported",
    "C46_idempotent_without_tables",
    "C46_idempotent_with_tables_refuted"
   ],
   "note": ""
  },
  {
   "property": "C47",
   "status": "proved",
   "theorems": [
    "C47_saved_dictionaries_are_read_back",
    "C47_saved_group_is_read_back",
    "C47_every_quantity_keeps_its_unit_refuted",
    "C47_dotted_table_names_break_loading",
    "C47_tables_are_read_back",
    "C47_unlike_items_are_numbered",
    "C47_unlike_items_are_read_back"
   ],
   "note": ""
  },
  {
   "property": "C48",
   "status": "proved",
   "theorems": [
    "C48_existing_data_is_kept",
    "C48_success_means_no_clash",
    "C48_success_means_no_clash_in_group",
    "C48_clash_raises"
   ],
   "note": ""
  },
  {
   "property": "C49",
   "status": "proved",
   "theorems": [
    "C49_append_keeps_everything",
    "C49_no_append_discards_everything",
    "C49_new_file_has_info",
    "C49_info_is_written_once",
    "C49_every_opened_file_has_info"
   ],
   "note": ""
  },
  {
   "property": "C50",
   "status": "proved",
   "theorems": [
    "C50_inverse_square",
    "C50_luminosity",
    "C50_radius",
    "C50_nonneg"
   ],
   "note": ""
  },
  {
   "property": "C51",
   "status": "proved",
   "theorems": [
    "C51_case_insensitive",
    "C51_name_or_dictionary",
    "C51_unknown_is_planck",
    "C51_what_is_used",
    "C51_incomplete_target",
    "C51_header"
   ],
   "note": ""
  },
  {
   "property": "C52",
   "status": "proved",
   "theorems": [
    "C52_nearest_model",
    "C52_model_of_the_star",
    "C52_a_model_is_found"
   ],
   "note": ""
  },
  {
   "property": "C53",
   "status": "proved",
   "theorems": [
    "C53_positive_and_increasing",
    "C53_rayleigh_jeans",
    "C53_wien",
    "C53_displacement",
    "C53_single_peak",
    "C53_close_to_plancks_law"
   ],
   "note": ""
  },
  {
   "property": "C54",
   "status": "proved",
   "theorems": [
    "C54_kernel_weight",
    "C54_pixel_area",
    "C54_modf"
   ],
   "note": ""
  },
  {
   "property": "C55",
   "status": "proved",
   "theorems": [
    "C55_omega_is_the_solid_angle",
    "C55_circular",
    "C55_slower_beams_see_less",
    "C55_bounds"
   ],
   "note": ""
  },
  {
   "property": "C56",
   "status": "proved",
   "theorems": [
    "C56_slit",
    "C56_slit_multiplies_constant_light",
    "C56_slit_failures",
    "C56_slit_linear",
    "C56_integration_linear"
   ],
   "note": ""
  },
  {
   "property": "C57",
   "status": "proved",
   "theorems": [
    "C57_reports_iff_first_heading_is_another_version",
    "C57_force_raises_iff_reported",
    "C57_reported_version_is_between_the_brackets",
    "C57_bracket_never_closed",
    "C57_reported_changes",
    "C57_newer_only_refuted"
   ],
   "note": ""
  },
  {
   "property": "C58",
   "status": "proved",
   "theorems": [
    "C58_search_returns_the_matches",
    "C58_star_only_lists_fail",
    "C58_search_succeeds"
   ],
   "note": ""
  },
  {
   "property": "C59",
   "status": "proved",
   "theorems": [
    "C59_constant_in_band",
    "C59_defaults_and_choice",
    "C59_emissivity",
    "C59_file_values_in_range",
    "C59_named_wavelength_column_fails"
   ],
   "note": ""
  },
  {
   "property": "C60",
   "status": "proved",
   "theorems": [
    "C60_transmission_at_centres",
    "C60_transmission_between_0_and_1",
    "C60_transmission_in_general",
    "C60_flag_required",
    "C60_constant_quantum_efficiency",
    "C60_tabulated_quantum_efficiency",
    "C60_quantum_efficiency_failures"
   ],
   "note": ""
  },
  {
   "property": "C61",
   "status": "proved",
   "theorems": [
    "C61_own_grid_identity",
    "C61_rebinning_idempotent"
   ],
   "note": ""
  },
  {
   "property": "C62",
   "status": "proved",
   "theorems": [
    "C62_one_bin_per_pixel",
    "C62_no_pixel_fails",
    "C62_linear_solution_tiles",
    "C62_native_bins_tile_refuted"
   ],
   "note": ""
  },
  {
   "property": "C63",
   "status": "proved",
   "theorems": [
    "C63_solution_is_one_to_one",
    "C63_pixels_cover_the_band"
   ],
   "note": ""
  },
  {
   "property": "C64",
   "status": "proved",
   "theorems": [
    "C64_photometer_signal",
    "C64_photometer_bounds",
    "C64_photometer_linear"
   ],
   "note": ""
  },
  {
   "property": "C65",
   "status": "proved",
   "theorems": [
    "C65_spectrometer_signal",
    "C65_spectrometer_bounds",
    "C65_spectrometer_scaling"
   ],
   "note": ""
  },
  {
   "property": "C66",
   "status": "proved",
   "theorems": [
    "C66_aperture_fraction"
   ],
   "note": ""
  },
  {
   "property": "C67",
   "status": "proved",
   "theorems": [
    "C67_sky_dims_the_star",
    "C67_star_columns_ignore_history",
    "C67_reported_sky_may_be_stale"
   ],
   "note": ""
  },
  {
   "property": "C68",
   "status": "proved",
   "theorems": [
    "C68_every_bin_needs_a_pixel",
    "C68_native_bins_have_a_pixel"
   ],
   "note": ""
  },
  {
   "property": "C69",
   "status": "proved",
   "theorems": [
    "C69_binning_bounds",
    "C69_point_becomes_the_pixel",
    "C69_binning_is_linear"
   ],
   "note": ""
  },
  {
   "property": "C70",
   "status": "proved",
   "theorems": [
    "C70_gain",
    "C70_strehl",
    "C70_gain_bounds",
    "C70_gain_table_covers_the_pixels"
   ],
   "note": ""
  },
  {
   "property": "C71",
   "status": "proved",
   "theorems": [
    "C71_nearest_psf"
   ],
   "note": ""
  },
  {
   "property": "C72",
   "status": "proved",
   "theorems": [
    "C72_interpolated_psf",
    "C72_interpolation_fails_at_the_end",
    "C72_paos_psf"
   ],
   "note": ""
  },
  {
   "property": "C73",
   "status": "proved",
   "theorems": [
    "C73_search_ends",
    "C73_radius_holds_the_energy"
   ],
   "note": ""
  },
  {
   "property": "C74",
   "status": "proved",
   "theorems": [
    "C74_last_sample_dropped"
   ],
   "note": ""
  },
  {
   "property": "C75",
   "status": "proved",
   "theorems": [
    "C75_temperature_out_of_range",
    "C75_one_unreadable_name",
    "C75_metal_rich_names_are_unreadable",
    "C75_metal_poor_names_misread_refuted"
   ],
   "note": ""
  },
  {
   "property": "C76",
   "status": "proved",
   "theorems": [
    "C76_wavelengths_of_the_source",
    "C76_order",
    "C76_bare_numbers_are_um",
    "C76_mixed_fails",
    "C76_other_units_refuted"
   ],
   "note": ""
  },
  {
   "property": "C77",
   "status": "proved",
   "theorems": [
    "C77_amount",
    "C77_proportional",
    "C77_positive",
    "C77_always_without_map",
    "C77_failed_fit",
    "C77_other_failures"
   ],
   "note": ""
  },
  {
   "property": "C78",
   "status": "proved",
   "theorems": [
    "C78_sky_filter",
    "C78_bounds",
    "C78_complete_tables_suffice",
    "C78_rows_in_any_order",
    "C78_units",
    "C78_failures",
    "C78_bare_range"
   ],
   "note": ""
  },
  {
   "property": "C79",
   "status": "proved",
   "theorems": [
    "C79_nearest_on_the_sky_refuted",
    "C79_nearest_on_a_parallel",
    "C79_missing_custom_map"
   ],
   "note": ""
  },
  {
   "property": "C80",
   "status": "proved",
   "theorems": [
    "C80_last_wins",
    "C80_all_foregrounds_count_refuted"
   ],
   "note": ""
  },
  {
   "property": "C81",
   "status": "proved",
   "theorems": [
    "C81_as_if_alone"
   ],
   "note": ""
  },
  {
   "property": "C82",
   "status": "proved",
   "theorems": [
    "C82_fails_as_one_alone",
    "C82_same_error"
   ],
   "note": ""
  },
  {
   "property": "C83",
   "status": "proved",
   "theorems": [
    "C83_foreground_columns_refuted",
    "C83_history_free",
    "C83_channels_kept"
   ],
   "note": ""
  },
  {
   "property": "C84",
   "status": "proved",
   "theorems": [
    "C84_no_channels",
    "C84_no_foregrounds_refuted",
    "C84_order"
   ],
   "note": ""
  },
  {
   "property": "C85",
   "status": "proved",
   "theorems": [
    "C85_what_the_table_holds",
    "C85_light_of_the_star",
    "C85_header",
    "C85_header_of_the_star"
   ],
   "note": ""
  },
  {
   "property": "C86",
   "status": "proved",
   "theorems": [
    "C86_noise_follows_from_the_table",
    "C86_brightest_pixel"
   ],
   "note": ""
  },
  {
   "property": "C87",
   "status": "proved",
   "theorems": [
    "C87_an_observation_succeeds"
   ],
   "note": ""
  },
  {
   "property": "C88",
   "status": "proved",
   "theorems": [
    "C88_curve_on_a_grid",
    "C88_photometer_succeeds",
    "C88_spectrometer_succeeds",
    "C88_foregrounds_succeed"
   ],
   "note": ""
  },
  {
   "property": "C89",
   "status": "proved",
   "theorems": [
    "C89_complete_descriptions_observe",
    "C89_working_channels_observe"
   ],
   "note": ""
  },
  {
   "property": "C90",
   "status": "proved",
   "theorems": [
    "C90_built_channels_are_instruments",
    "C90_rows_are_bins",
    "C90_bins"
   ],
   "note": ""
  },
  {
   "property": "C91",
   "status": "proved",
   "theorems": [
    "C91_one_by_one",
    "C91_single_channel",
    "C91_missing"
   ],
   "note": ""
  },
  {
   "property": "C92",
   "status": "proved",
   "theorems": [
    "C92_class_decides",
    "C92_unknown_class",
    "C92_case_does_not_matter",
    "C92_loaded_is_not_built"
   ],
   "note": ""
  },
  {
   "property": "C93",
   "status": "proved",
   "theorems": [
    "C93_path",
    "C93_no_photometer_behind_a_slit",
    "C93_which_slit"
   ],
   "note": ""
  },
  {
   "property": "C94",
   "status": "proved",
   "theorems": [
    "C94_range_unit_ignored",
    "C94_transmission_column",
    "C94_other_units_refuted",
    "C94_warm_needs_overlap",
    "C94_warm_optics_in_other_units_refuted"
   ],
   "note": ""
  },
  {
   "property": "C95",
   "status": "proved",
   "theorems": [
    "C95_built_twice"
   ],
   "note": ""
  },
  {
   "property": "C96",
   "status": "proved",
   "theorems": [
    "C96_photometer_builds",
    "C96_spectrometer_builds",
    "C96_complete_payload_builds"
   ],
   "note": ""
  },
  {
   "property": "C97",
   "status": "proved",
   "theorems": [
    "C97_build_then_observe"
   ],
   "note": ""
  },
  {
   "property": "C98",
   "status": "proved",
   "theorems": [
    "C98_from_the_description",
    "C98_photometer",
    "C98_spectrometer",
    "C98_quantum_efficiency"
   ],
   "note": ""
  },
  {
   "property": "C99",
   "status": "proved",
   "theorems": [
    "C99_emission"
   ],
   "note": ""
  },
  {
   "property": "C100",
   "status": "proved",
   "theorems": [
    "C100_channels_of_a_class",
    "C100_single_channel_fails",
    "C100_class_is_needed",
    "C100_no_channels"
   ],
   "note": ""
  },
  {
   "property": "C101",
   "status": "proved",
   "theorems": [
    "C101_written_channels_are_loaded",
    "C101_order_of_channels_is_kept_refuted",
    "C101_unknown_class",
    "C101_missing_parts"
   ],
   "note": ""
  },
  {
   "property": "C102",
   "status": "proved",
   "theorems": [
    "C102_loaded_channels_cannot_observe",
    "C102_in_memory_they_can"
   ],
   "note": ""
  },
  {
   "property": "C103",
   "status": "proved",
   "theorems": [
    "C103_other_files_are_refused",
    "C103_other_objects_are_refused",
    "C103_xml_files",
    "C103_hdf5_files",
    "C103_dictionaries",
    "C103_range_is_read_last"
   ],
   "note": ""
  },
  {
   "property": "C104",
   "status": "proved",
   "theorems": [
    "C104_parallel_and_sequential_alike",
    "C104_each_target_as_if_alone",
    "C104_every_complete_target_is_observed"
   ],
   "note": ""
  },
  {
   "property": "C105",
   "status": "proved",
   "theorems": [
    "C105_from_descriptions_to_results",
    "C105_a_run_is_read_back",
    "C105_further_targets"
   ],
   "note": ""
  },
  {
   "property": "C106",
   "status": "proved",
   "theorems": [
    "C106_signal_curves",
    "C106_noise_curves",
    "C106_bands",
    "C106_enumeration_does_not_matter",
    "C106_ticks",
    "C106_every_edge_is_labelled_refuted",
    "C106_drawn_exactly_if_complete"
   ],
   "note": ""
  },
  {
   "property": "C107",
   "status": "proved",
   "theorems": [
    "C107_all_targets",
    "C107_numbered_targets",
    "C107_number_out_of_range",
    "C107_named_target",
    "C107_refused",
    "C107_first_failure_ends",
    "C107_figures_of_a_run"
   ],
   "note": ""
  },
  {
   "property": "C108",
   "status": "proved",
   "theorems": [
    "C108_plots_without_directory_lose_every_target",
    "C108_plots_change_no_result",
    "C108_undrawable_target_is_lost",
    "C108_image_of_a_target"
   ],
   "note": ""
  },
  {
   "property": "C109",
   "status": "proved",
   "theorems": [
    "C109_photon_conversion_efficiency",
    "C109_where_the_figure_goes",
    "C109_without_channels",
    "C109_loaded_channels_have_no_figure"
   ],
   "note": ""
  },
  {
   "property": "C110",
   "status": "proved",
   "theorems": [
    "C110_every_complete_target_has_its_image",
    "C110_every_observed_target_is_drawn",
    "C110_one_band_per_channel",
    "C110_plots_change_no_result"
   ],
   "note": ""
  },
  {
   "property": "C111",
   "status": "proved",
   "theorems": [
    "C111_a_run_stays_in_its_directory",
    "C111_no_output_no_file",
    "C111_images_of_a_run"
   ],
   "note": ""
  },
  {
   "property": "C112",
   "status": "proved",
   "theorems": [
    "C112_inputs_are_kept_and_copied",
    "C112_inputs_of_the_same_name",
    "C112_output_over_an_input",
    "C112_a_file_in_place_of_the_directory"
   ],
   "note": ""
  },
  {
   "property": "C113",
   "status": "proved",
   "theorems": [
    "C113_a_failed_run_destroys_former_results",
    "C113_former_results_do_not_matter",
    "C113_the_output_of_a_run",
    "C113_without_replace_nothing_is_lost",
    "C113_what_is_no_archive_is_left_alone",
    "C113_the_command_leaves_a_readable_output"
   ],
   "note": ""
  },
  {
   "property": "C114",
   "status": "proved",
   "theorems": [
    "C114_itemising_leaves_the_noise",
    "C114_itemising_a_payload"
   ],
   "note": ""
  },
  {
   "property": "C115",
   "status": "proved",
   "theorems": [
    "C115_brightness",
    "C115_distance",
    "C115_radius"
   ],
   "note": ""
  },
  {
   "property": "C116",
   "status": "proved",
   "theorems": [
    "C116_log_file",
    "C116_first_log",
    "C116_nothing_is_lost",
    "C116_once_refuted",
    "C116_console",
    "C116_log_file_that_cannot_be_opened"
   ],
   "note": ""
  },
  {
   "property": "C117",
   "status": "proved",
   "theorems": [
    "C117_area"
   ],
   "note": ""
  },
  {
   "property": "C118",
   "status": "proved",
   "theorems": [
    "C118_brighter_foreground"
   ],
   "note": ""
  },
  {
   "property": "C119",
   "status": "proved",
   "theorems": [
    "C119_grey_filter"
   ],
   "note": ""
  },
  {
   "property": "C120",
   "status": "proved",
   "theorems": [
    "C120_automatic_frame_times",
    "C120_noisier_detectors"
   ],
   "note": ""
  },
  {
   "property": "C121",
   "status": "proved",
   "theorems": [
    "C121_lower_quantum_efficiency"
   ],
   "note": ""
  },
  {
   "property": "C122",
   "status": "proved",
   "theorems": [
    "C122_documents_with_files",
    "C122_readable_documents_load",
    "C122_unreadable_table_fails",
    "C122_other_table_types_fail",
    "C122_other_dictionaries_fail",
    "C122_two_files_fail",
    "C122_dictionaries_need_a_path",
    "C122_config_dict_is_the_section",
    "C122_config_dict_keeps_its_siblings_refuted",
    "C122_other_tags_are_untouched"
   ],
   "note": ""
  },
  {
   "property": "C123",
   "status": "proved",
   "theorems": [
    "C123_warmer_optics"
   ],
   "note": ""
  },
  {
   "property": "C124",
   "status": "proved",
   "theorems": [
    "C124_units_refused",
    "C124_agrees_where_interpolating",
    "C124_covered_bins_within_samples",
    "C124_light_conserved",
    "C124_ends_refuted"
   ],
   "note": ""
  },
  {
   "property": "C125",
   "status": "proved",
   "theorems": [
    "C125_automatic_frame_times",
    "C125_noise_where_light_is_counted"
   ],
   "note": ""
  },
  {
   "property": "C126",
   "status": "proved",
   "theorems": [
    "C126_distance",
    "C126_radius",
    "C126_area",
    "C126_fainter_no_less_noise_refuted",
    "C126_grey_filter",
    "C126_quantum_efficiency",
    "C126_warmer_optics",
    "C126_brighter_foreground"
   ],
   "note": ""
  },
  {
   "property": "C127",
   "status": "proved",
   "theorems": [
    "C127_as_asked",
    "C127_any_order",
    "C127_refused",
    "C127_status_of_refusals",
    "C127_help",
    "C127_nothing_passed_over"
   ],
   "note": ""
  },
  {
   "property": "C128",
   "status": "proved",
   "theorems": [
    "C128_a_refused_command_touches_nothing",
    "C128_help_touches_nothing",
    "C128_no_output_no_file",
    "C128_runs_what_is_asked",
    "C128_stays_in_its_directory",
    "C128_failure_is_harmless_refuted"
   ],
   "note": ""
  },
  {
   "property": "C129",
   "status": "proved",
   "theorems": [
    "C129_scatter_then_gather",
    "C129_scatter_returns",
    "C129_scatter_refuses",
    "C129_without_mpi",
    "C129_data_at_the_root_only_refuted",
    "C129_enough_items_refuted"
   ],
   "note": ""
  }
 ]
}