{"claims": [
{"property": "C01", "status": "proved", "theorems": ["C01_shape", "C01_processing_keeps_stages"], "note": ""},
{"property": "C02", "status": "proved", "theorems": ["C02_schedule_independent", "C02_stream_semantics"], "note": ""},
{"property": "C03", "status": "proved", "theorems": ["C03_failure_keeps_data", "C03_type_error_drops"], "note": ""},
{"property": "C04", "status": "proved", "theorems": ["C04_message_step", "C04_message_broadcast", "C04_callmethod_refuted"], "note": "C04_callmethod_refuted is a finding: a defect of the code outside the guarded statement"},
{"property": "C05", "status": "proved", "theorems": ["C05_fires_is_processStage", "C05_accumulate", "C05_nested_accumulate_refuted"], "note": "the _refuted theorem records a case outside the guarded statement"},
{"property": "C06", "status": "proved", "theorems": ["C06_processSingle", "C06_limit_and_removefailed_refuted", "C06_skips_queue_refuted"], "note": "the _refuted theorems record cases outside the guarded statement"},
{"property": "C07", "status": "proved", "theorems": ["C07_processToStage_drains", "C07_repeat_limit", "C07_swallowing_element_refuted"], "note": "the _refuted theorem records a case outside the guarded statement"},
{"property": "C08", "status": "proved", "theorems": ["C08_addElement", "C08_removeElement", "C08_negative_stage_refuted", "C08_negative_remove_refuted"], "note": "the _refuted theorems record negative stage numbers, outside the guarded statement"},
{"property": "C09", "status": "proved", "theorems": ["C09_bijection", "C09_rejected_unchanged", "C09_assignment", "C09_deletion", "C09_overwrite_refuted", "C09_none_refuted", "C09_linked_clear_refuted", "C09_linked_pop_refuted"], "note": "the _refuted theorems record cases outside the guarded statement"},
{"property": "C10", "status": "proved", "theorems": ["C10_forest", "C10_negative_reorder_refuted"], "note": "negative indices in reorderChildren break the property (refuted), outside the guarded statement"},
{"property": "C100", "status": "proved", "theorems": ["C100_read", "C100_default"], "note": ""},
{"property": "C101", "status": "proved", "theorems": ["C101_shape", "C101_unsupported", "C101_nested_resources", "C101_nested_tables", "C101_outside", "C101_empty_name_refuted", "C101_nrows_refuted", "C101_row_space_refuted", "C101_no_data_refuted", "C101_clash_refuted", "C101_short_row_refuted"], "note": ""},
{"property": "C102", "status": "proved", "theorems": ["source_column", "source_order", "source_column_complete_refuted", "source_column_limit_refuted"], "note": ""},
{"property": "C103", "status": "proved", "theorems": ["latex_rows", "deluxe_rows", "ascii_rows", "formats", "latex_empty_refuted", "latex_source_errors_refuted", "ascii_plain_refuted", "deluxe_plain_refuted", "ascii_details_refuted", "sort_refuted", "unknown_format_refuted"], "note": ""},
{"property": "C104", "status": "proved", "theorems": ["log_value", "log_upper", "log_lower_refuted"], "note": ""},
{"property": "C105", "status": "proved", "theorems": ["written_then_read", "set_then_read", "delete_then_read", "no_file_is_empty", "key_with_equals_refuted", "three_quotes_refuted", "three_double_quotes_refuted", "list_element_refuted", "comment_refuted", "read_whole"], "note": ""},
{"property": "C106", "status": "proved", "theorems": ["add_keeps_files", "del_keeps_files", "add_project_result", "add_project_crash", "del_project_result", "project_paths", "default_paths", "given_path", "crash_loses_projects_refuted", "crash_leaves_script_refuted", "one_error_refuted"], "note": ""},
{"property": "C107", "status": "proved", "theorems": ["projects_after_history"], "note": ""},
{"property": "C108", "status": "proved", "theorems": ["orthogonal", "moment_of_profile", "moments_are_parameters", "moment_order", "called_pointwise", "even_symmetric", "cache_kept", "range_hint", "negative_width_refuted", "finite_bounds_refuted", "without_h_refuted"], "note": ""},
{"property": "C109", "status": "proved", "theorems": ["construct_result"], "note": ""},
{"property": "C11", "status": "proved", "theorems": ["C11_setParent", "C11_subtree_moves", "C11_addChild", "C11_new", "C11_removeChild", "C11_reorder", "C11_merge", "C11_removeChild_fieldnode_refuted", "C11_removeChild_equal_refuted", "C11_insertInto_refuted"], "note": "the _refuted theorems record defects outside the guarded statement"},
{"property": "C110", "status": "proved", "theorems": ["wcs_sound", "wcs_complete", "wcs_direction", "header_number_ignored", "no_scale", "error_row_refuted", "no_errors_refuted"], "note": ""},
{"property": "C111", "status": "proved", "theorems": ["deimos_result", "deimos_smoothing_x", "deimos_file_name", "named_spec", "deimos_refused", "sky_aligned", "sky_misplaced_refuted", "one_side_data_refuted", "load_all_result", "load_all_members"], "note": ""},
{"property": "C112", "status": "proved", "theorems": ["smooth_replaces", "smooth_between", "smooth_constant", "smooth_additive", "gaussian_keeps_total", "gaussian_mirrors", "sign_selects", "boxcar_mean", "gaussian_keeps_straight", "boxcar_moves_refuted", "boxcar_total_refuted", "uniform_refuted"], "note": ""},
{"property": "C113", "status": "proved", "theorems": ["lags_same", "lags_range", "zfind_result", "best_over_all", "exact_found", "redshift_found", "lsq_ok", "inv1_ok", "zero_lag_refuted", "masked_refuted", "square_templates_refuted"], "note": ""},
{"property": "C114", "status": "proved", "theorems": ["dx_spacing", "dlogx_spacing", "linear_test", "logarithmic_test", "linearize_linear", "logify_logarithmic", "matched_axes", "other_length", "align_result", "shifted_refuted", "super_refuted", "partly_aligned_refuted", "dx_one_pixel_refuted"], "note": ""},
{"property": "C115", "status": "proved", "theorems": ["feature_measured", "center_inside", "flux_additive", "feature_scaled", "add_range", "remove_location", "remove_location_none", "remove_index", "remove_index_bad", "set_features", "set_features_wrong", "zqual_names", "zqual_invalid", "zqual_always", "location_edges", "location_narrow_refuted", "location_continuum_refuted", "no_continuum_refuted", "remove_name_refuted", "replace_features_refuted", "unmeasured_center"], "note": ""},
{"property": "C116", "status": "proved", "theorems": ["sex_defaults", "every_dump", "sex_params", "unknown_option", "saved_loads", "saved_exact", "next_numbered", "next_first", "next_differs", "run_command", "sex_run_keeps", "last_option_refuted", "next_part_refuted", "two_words_refuted", "last_character_refuted", "nothing_chosen_refuted", "directory_refuted", "default_refuted", "next_file_refuted", "image_name_refuted"], "note": ""},
{"property": "C117", "status": "proved", "theorems": ["noise_set_x", "noise_set_type", "noise_refused", "noise_type_invalid", "noise_constant", "noise_constructor_refuted", "noise_off_refuted", "noise_function_gone_refuted", "noise_list_refuted", "noise_pixels_refuted", "noise_error_refuted", "noise_text_refuted"], "note": ""},
{"property": "C118", "status": "proved", "theorems": ["pattern_selects", "pattern_prefix", "unknown_plot", "interactive_kept", "plots_made", "plots_failed", "plots_other_files", "plots_not_overwritten", "plots_saved", "nothing_saved", "plots_called", "main_passes", "main_saves_nothing", "deco_invalid", "deco_last", "main_draws", "main_unknown", "arguments_by_name", "arguments_missing", "variables_reach", "extensions_default", "extensions_mpl", "extensions_mayavi", "extensions_convert", "variables_hidden_refuted", "pattern_end_refuted", "convert_overwrites_refuted", "convert_lost_refuted", "empty_directory_refuted", "type_refuted", "twice_refuted"], "note": ""},
{"property": "C119", "status": "proved", "theorems": ["table_loads", "table_expression", "delimited_loads", "bad_row", "update_dict", "failure_keeps", "first_line", "no_field_line", "bad_field", "unknown_code", "name_twice", "delimiter_refuted", "derived_chain_refuted"], "note": ""},
{"property": "C12", "status": "proved", "theorems": ["C12_visit", "C12_orders", "C12_level_noself_refuted", "C12_float_refuted", "C12_idstr_refuted"], "note": "the _refuted theorems record defects outside the guarded statement"},
{"property": "C120", "status": "proved", "theorems": ["unit_set", "unit_bad", "unit_history", "unit_forgotten", "unit_first", "unit_new", "copy_unit_refuted", "sum_position", "sum_unit_refuted", "mixed_sum_refuted", "epoch_first", "epoch_icrs", "epoch_gcrs_refuted", "epochstr_refuted", "to_angles", "origin_raises", "from_angles", "near_object_refuted", "distance_au", "distance_pc", "parsec_refuted", "rect_round_trip", "rect_round_trip_direction", "rect_round_trip_au_refuted", "angles_round_trip", "distance_error_refuted", "shift_no_epoch", "shift_no_unit", "shift", "there_and_back_refuted", "convert_no_epoch", "convert_far", "convert_near", "convert_distance_refuted", "gcrs_epoch_far", "gcrs_no_epoch", "gcrs_same_epoch_refuted"], "note": ""},
{"property": "C121", "status": "proved", "theorems": ["registered_rotation", "registered_back", "conversion", "round_trip", "separation_kept", "two_steps", "two_steps_agree", "galactic_poles", "galactic_poles_B1950", "supergalactic_axes", "ecliptic_axes", "same_declination", "distance_lost_refuted", "earth_rotation_refuted", "fk4_label_refuted", "fk4_nearly_kept", "frames_tied"], "note": ""},
{"property": "C122", "status": "proved", "theorems": ["epoch_label", "epoch_separations", "own_epoch", "epochs_compose", "cirs_through_gcrs", "precession_axes", "fk4_there_and_back", "no_precession", "fk5_there_and_back_refuted", "equinox_own_epoch_refuted", "ecliptic_epoch_refuted", "icrs_fk5_precessed", "galactic_precessed", "fk4_by_1950"], "note": ""},
{"property": "C123", "status": "proved", "theorems": ["C123_cardelli_law", "C123_cardelli_range", "C123_cardelli_reference", "C123_ebv", "C123_ebv_set", "C123_linear", "C123_rv_refuted", "C123_magnitudes", "C123_magnitudes_failure", "C123_sequences", "C123_colors", "C123_color_text", "C123_color_minus_refuted", "C123_color_mixed_refuted", "C123_flux_is_magnitude", "C123_flux_composes", "C123_balmer", "C123_given_ratio", "C123_ratio_atomic", "C123_ratio_lists_refuted", "C123_ratio_number_refuted", "C123_reddening", "C123_colour_excess", "C123_lmc_colour_refuted", "C123_calzetti_sign_refuted", "C123_bump", "C123_spectrum", "C123_continuum_refuted", "C123_spectrum_unit_refuted", "C123_spectrum_failure_refuted", "C123_deprecated", "C123_deprecated_refuted", "C123_constructor_refuted"], "note": ""},
{"property": "C124", "status": "proved", "theorems": ["C124_sequence", "C124_single", "C124_lengths", "C124_equal_area", "C124_projection", "C124_single_file_refuted", "C124_single_file_name_refuted", "C124_plane_refuted"], "note": ""},
{"property": "C125", "status": "proved", "theorems": ["C125_made", "C125_response", "C125_shapes_refuted", "C125_width_refuted", "C125_halves_refuted", "C125_norm_refuted", "C125_whole", "C125_units_return", "C125_same_photons", "C125_response_unit_refuted", "C125_unnormalised_refuted", "C125_compare", "C125_order_refuted", "C125_simps_exact", "C125_flux_scale", "C125_mag_scale", "C125_flux_spectrum_kept", "C125_flux_unit", "C125_zpt", "C125_array_refuted", "C125_overlap_refuted", "C125_edge_refuted", "C125_kept_refuted", "C125_overlap"], "note": ""},
{"property": "C126", "status": "proved", "theorems": ["C126_box", "C126_box_outside", "C126_whole", "C126_square", "C126_array", "C126_file", "C126_file_name", "C126_switch", "C126_history", "C126_reading", "C126_apply_whole", "C126_apply_unedited", "C126_apply_box_refuted", "C126_transposed_refuted", "C126_constructor_refuted", "C126_switch_range_refuted", "C126_switch_range_when", "C126_switch_scaled_refuted", "C126_dataless_refuted", "C126_calibration_stale_refuted", "C126_calibration_saved_refuted", "C126_edit_linear", "C126_numbers"], "note": ""},
{"property": "C127", "status": "proved", "theorems": ["C127_zeropoint", "C127_zeropoint_image", "C127_band", "C127_compute", "C127_totalflux_kept", "C127_totalflux_none", "C127_conversions", "C127_totalmag_refuted", "C127_fwhm", "C127_model_flux", "C127_model_mag", "C127_model_error", "C127_model_none", "C127_normparam_string_refuted", "C127_iso_current", "C127_iso_refit", "C127_order_axes", "C127_points", "C127_points_closed", "C127_radius", "C127_given_level_refuted", "C127_fixcenter_refuted", "C127_negative_rotation_refuted", "C127_large_rotation_refuted", "C127_eccentricity_refuted", "C127_points_unfitted_refuted"], "note": ""},
{"property": "C128", "status": "proved", "theorems": ["C128_names", "C128_names_total", "C128_same_object", "C128_new", "C128_failed", "C128_set", "C128_free", "C128_pickle", "C128_pickle_elsewhere", "C128_record_kept", "C128_record_none", "C128_record_fresh", "C128_clear", "C128_copy_refuted", "C128_pickle_refuted", "C128_clear_disabled_refuted"], "note": ""},
{"property": "C129", "status": "proved", "theorems": ["C129_fields", "C129_add", "C129_add_name", "C129_add_failed", "C129_del", "C129_get", "C129_index", "C129_set", "C129_set_get", "C129_setToSource", "C129_setToSource_raise", "C129_deleted_refuted", "C129_missing_refuted", "C129_foreign_refuted", "C129_raise_refuted"], "note": ""},
{"property": "C13", "status": "proved", "theorems": ["C13_unique_sources", "C13_types", "C13_insert_source_refuted", "C13_currentobj_type_refuted"], "note": ""},
{"property": "C130", "status": "proved", "theorems": ["C130_rows", "C130_matched", "C130_failed", "C130_filter", "C130_catalog", "C130_unmatched_refuted", "C130_filter_refuted", "C130_none_refuted", "C130_star_refuted", "C130_stops_refuted"], "note": ""},
{"property": "C131", "status": "proved", "theorems": ["C131_new", "C131_unaltered", "C131_revert", "C131_altered", "C131_revert_keeps_refuted", "C131_refused_refuted"], "note": ""},
{"property": "C132", "status": "proved", "theorems": ["C132_shown", "C132_mask", "C132_history", "C132_getBand", "C132_bands", "C132_nowhere_refuted", "C132_mask_moves_refuted", "C132_negative_refuted"], "note": ""},
{"property": "C133", "status": "proved", "theorems": ["C133_fill", "C133_mask", "C133_skip", "C133_raise", "C133_sources", "C133_locate", "C133_names", "C133_setToSource", "C133_skip_sources_refuted", "C133_filter_refuted", "C133_locate_refuted"], "note": ""},
{"property": "C134", "status": "proved", "theorems": ["C134_cumulative", "C134_edges", "C134_frac", "C134_split", "C134_split_all", "C134_split_errors", "C134_split_accepts", "C134_dims", "C134_below_refuted", "C134_greater_refuted", "C134_empty_refuted"], "note": ""},
{"property": "C135", "status": "proved", "theorems": ["C135_nd_grid"], "note": ""},
{"property": "C136", "status": "proved", "theorems": ["C136_none", "C136_acceptnone_only_none", "C136_no_types", "C136_seq_outcomes", "C136_seq_sound", "C136_seq", "C136_seq_classes", "C136_seq_exact", "C136_seq_empty", "C136_seq_more", "C136_one_class", "C136_one_dtype", "C136_callable", "C136_callable_none", "C136_bad", "C136_order_irrelevant_refuted", "C136_seq_complete_refuted"], "note": ""},
{"property": "C137", "status": "proved", "theorems": ["C137_empty", "C137_flush_unchanged", "C137_blank_line_unchanged", "C137_lines", "C137_block", "C137_second_call", "C137_sets_indentation_refuted"], "note": ""},
{"property": "C14", "status": "proved", "theorems": ["C14_failures_change_nothing", "C14_lookup", "C14_current", "C14_set_current", "C14_assign", "C14_assign_succeeds", "C14_delete", "C14_insert", "C14_two_character_name_refuted", "C14_index_assignment_refuted", "C14_assign_other_source_refuted", "C14_reverse_refuted", "C14_derived_lost_refuted"], "note": ""},
{"property": "C15", "status": "proved", "theorems": ["C15_gregorian", "C15_julian", "C15_time_of_day", "C15_gregorian_none_refuted", "C15_microseconds_refuted", "C15_overwrites_arguments_refuted", "C15_early_years_refuted"], "note": ""},
{"property": "C16", "status": "proved", "theorems": ["C16_date_to_day_to_date", "C16_day_to_date_to_day", "C16_historical", "C16_defaults", "C16_no_rounding", "C16_rounding", "C16_default_rounds_up", "C16_rounding_too_large", "C16_round_trip", "C16_round_trip_default", "C16_default_round_trip_refuted", "C16_early_gregorian_refuted", "C16_defaults_differ_refuted", "C16_fracarray_refuted"], "note": ""},
{"property": "C17", "status": "proved", "theorems": ["C17_lookup", "C17_nondecreasing", "C17_month_of_change_refuted", "C17_usett_refuted", "C17_drift_refuted"], "note": ""},
{"property": "C18", "status": "proved", "theorems": ["C18_epoch_inverse", "C18_jd_inverse", "C18_definition", "C18_letter", "C18_string_array_mjd_refuted", "C18_overwrites_argument_refuted"], "note": ""},
{"property": "C19", "status": "proved", "theorems": ["C19_always_in_range", "C19_failures_change_nothing", "C19_hard_range", "C19_cyclic_range", "C19_triangle_range", "C19_set_range", "C19_dms_sign_refuted", "C19_zero_width_refuted", "C19_copy_range_refuted"], "note": ""},
{"property": "C20", "status": "proved", "theorems": ["C20_hms", "C20_hms_negative", "C20_dms", "C20_set_then_get", "C20_get_then_set", "C20_dms_string", "C20_hms_string", "C20_small_negative_refuted", "C20_negative_carry_refuted", "C20_negative_hms_refuted"], "note": ""},
{"property": "C21", "status": "proved", "theorems": ["C21_always_in_range", "C21_stored", "C21_direction", "C21_over_the_pole_refuted"], "note": ""},
{"property": "C22", "status": "proved", "theorems": ["C22_separation", "C22_metric", "C22_zero", "C22_rotation", "C22_smatrix", "C22_errors_refuted", "C22_unitarycheck_refuted"], "note": ""},
{"property": "C23", "status": "proved", "theorems": ["C23_letter_axes", "C23_axis_vector", "C23_axis_rotation", "C23_degrees", "C23_angle_axis", "C23_products", "C23_opposite_angle_refuted", "C23_sense_refuted", "C23_zero_division_refuted", "C23_angle_axis_refuted", "C23_rotation_matrix_xy_refuted"], "note": ""},
{"property": "C24", "status": "proved", "theorems": ["C24_register", "C24_delete", "C24_reading_keeps", "C24_listings", "C24_path", "C24_convert", "C24_optimized", "C24_no_path_exception_refuted", "C24_self_conversion_refuted", "C24_redefined_type_refuted", "C24_stale_cache_refuted", "C24_mixed_path_refuted"], "note": "networkx.shortest_path is a hypothesis (sp_ok: returns a path with fewest edges, raises otherwise); sp_bfs_ok proves that a breadth-first search satisfies it."},
{"property": "C25", "status": "proved", "theorems": ["C25_nearest", "C25_arrays", "C25_unsorted_refuted"], "note": ""},
{"property": "C26", "status": "proved", "theorems": ["C26_crossings", "C26_found", "C26_symmetry", "C26_alternation_refuted"], "note": ""},
{"property": "C27", "status": "proved", "theorems": ["C27_passes", "C27_iterate", "C27_interval", "C27_never_empty", "C27_constant", "C27_chebyshev", "C27_affine", "C27_order", "C27_convergence_refuted", "C27_termination_refuted"], "note": ""},
{"property": "C28", "status": "proved", "theorems": ["C28_polar", "C28_spherical", "C28_cylindrical", "C28_latitude", "C28_sizes", "C28_geocentric", "C28_cylindrical_degrees_refuted", "C28_negative_size_refuted"], "note": ""},
{"property": "C29", "status": "proved", "theorems": ["C29_masks", "C29_maskexcept", "C29_index", "C29_count", "C29_match2D", "C29_symmetric", "C29_nearest", "C29_nearest_self", "C29_match2D_refuted", "C29_nearest_self_refuted"], "note": "mode 'nearest' takes scipy's KDTree.query as a parameter assumed to return the n nearest points in order (kd_ok; kd_brute_ok shows an exhaustive search satisfies it)"},
{"property": "C30", "status": "proved", "theorems": ["C30_riseset", "C30_utc", "C30_datetimes", "C30_next", "C30_onsky", "C30_utc_date_refuted", "C30_grazing_refuted", "C30_second_transit_refuted"], "note": "exact reals; localSiderialTime at midnight is a parameter of the model"},
{"property": "C31", "status": "proved", "theorems": ["C31_feedMany", "C31_extract", "C31_extract_autoprocess", "C31_clear"], "note": ""},
{"property": "C32", "status": "proved", "theorems": ["C32_arithmetic", "C32_separation3d", "C32_truediv_refuted", "C32_separation_constructor_refuted"], "note": ""},
{"property": "C33", "status": "proved", "theorems": ["C33_vectors", "C33_set_length"], "note": ""},
{"property": "C34", "status": "proved", "theorems": ["C34_observed", "C34_round_trip_refuted"], "note": ""},
{"property": "C35", "status": "proved", "theorems": ["C35_rescale", "C35_constant_refuted"], "note": ""},
{"property": "C36", "status": "proved", "theorems": ["C36_background"], "note": ""},
{"property": "C37", "status": "proved", "theorems": ["C37_era", "C37_sidereal", "C37_equinoxes_refuted"], "note": "precession polynomial and nutation term are parameters"},
{"property": "C38", "status": "proved", "theorems": ["C38_horizontal", "C38_separation", "C38_diurnal", "C38_pole", "C38_siderial", "C38_localTime", "C38_fields", "C38_apparent_refuted", "C38_datetime_refuted"], "note": ""},
{"property": "C39", "status": "proved", "theorems": ["C39_module_variables", "C39_choose", "C39_update", "C39_setattr", "C39_neither_refuted", "C39_unreadable_refuted"], "note": "initializers are modelled by the attributes they leave on the instance"},
{"property": "C40", "status": "proved", "theorems": ["C40_register", "C40_names", "C40_case_refuted"], "note": ""},
{"property": "C41", "status": "proved", "theorems": ["C41_densities", "C41_units", "C41_rho", "C41_deltavir", "C41_eds", "C41_z_to_H", "C41_flux", "C41_rho_refuted"], "note": ""},
{"property": "C42", "status": "proved", "theorems": ["C42_integrals", "C42_increasing", "C42_relations", "C42_closed_forms", "C42_normed_errors", "C42_round_trip", "C42_maximum", "C42_etherington_refuted", "C42_intkwargs_refuted", "C42_angular_refuted"], "note": "scipy quad is the exact Riemann integral (Coquelicot), brenth a parameter with its documented guarantee"},
{"property": "C43", "status": "proved", "theorems": ["C43_pogson", "C43_luminosity", "C43_dictionary", "C43_color", "C43_zeropoint", "C43_observation", "C43_wrong_length", "C43_asinh_refuted", "C43_flux_observation_refuted", "C43_fluxerr_refuted"], "note": ""},
{"property": "C44", "status": "proved", "theorems": ["C44_modulus", "C44_magnitudes", "C44_cosmological", "C44_surface_brightness", "C44_dimming", "C44_intensity", "C44_significance", "C44_default_refuted", "C44_redshift_refuted", "C44_errors_refuted"], "note": ""},
{"property": "C45", "status": "proved", "theorems": ["C45_outcome", "C45_from_sdss", "C45_from_johnson", "C45_second_call", "C45_shift", "C45_there_and_back", "C45_there_and_back_refuted", "C45_needs_z_refuted"], "note": ""},
{"property": "C46", "status": "proved", "theorems": ["C46_gr", "C46_bv", "C46_other"], "note": "numpy poly1d roots are a parameter specified as the exact complex factorisation, proved to exist"},
{"property": "C47", "status": "proved", "theorems": ["C47_spec_unique", "C47_never_stale", "C47_total", "C47_call", "C47_history_independent", "C47_read_again", "C47_pop_refuted", "C47_insert_negative_refuted", "C47_set_node_refuted", "C47_set_node_string_refuted", "C47_ignore_refuted"], "note": ""},
{"property": "C48", "status": "proved", "theorems": ["C48_quadrature", "C48_nonnegative", "C48_each_effect", "C48_exact", "C48_linear", "C48_observed", "C48_own_errors", "C48_symmetric_refuted", "C48_correlated_refuted"], "note": ""},
{"property": "C49", "status": "proved", "theorems": ["C49_case", "C49_reported_name", "C49_reported_name_refuted", "C49_name_result", "C49_same_photons", "C49_flux_density", "C49_round_trip", "C49_compose", "C49_order", "C49_energy"], "note": ""},
{"property": "C50", "status": "proved", "theorems": ["C50_set", "C50_history", "C50_return", "C50_model_lost", "C50_locked", "C50_getUnitFlux", "C50_getUnitFlux_refuted", "C50_nflux", "C50_nflux_refuted", "C50_photons", "C50_photon_number", "C50_x0", "C50_x0_x", "C50_continuum", "C50_continuum_errors", "C50_new"], "note": ""},
{"property": "C51", "status": "proved", "theorems": ["C51_one_change", "C51_alternating", "C51_refuted"], "note": ""},
{"property": "C52", "status": "proved", "theorems": ["C52_resample", "C52_unique", "C52_own_x", "C52_bounds", "C52_straight", "C52_linearize", "C52_logify"], "note": ""},
{"property": "C53", "status": "proved", "theorems": ["C53_uv", "C53_vacuum_longer", "C53_order", "C53_round_trip", "C53_accuracy_refuted", "C53_gap_refuted"], "note": ""},
{"property": "C54", "status": "proved", "theorems": ["C54_pixels", "C54_logarithmic", "C54_zero_refuted"], "note": ""},
{"property": "C55", "status": "proved", "theorems": ["C55_clean", "C55_raise", "C55_warn", "C55_remove", "C55_tolerance_refuted", "C55_last_refuted"], "note": ""},
{"property": "C56", "status": "proved", "theorems": ["C56_feature_units", "C56_center_error_refuted", "C56_getUnitLoc", "C56_getUnitLoc_refuted", "C56_line_flux", "C56_constant", "C56_ends_refuted"], "note": ""},
{"property": "C57", "status": "proved", "theorems": ["C57_conservation", "C57_exact", "C57_round_trip", "C57_declarations", "C57_display_refuted", "C57_declaration_refuted", "C57_left_refuted", "C57_right_refuted", "C57_brackets_refuted"], "note": ""},
{"property": "C58", "status": "proved", "theorems": ["C58_marker", "C58_lines", "C58_comments", "C58_no_comments", "C58_argument_refuted", "C58_first_line_refuted", "C58_no_document_refuted", "C58_class_refuted"], "note": ""},
{"property": "C59", "status": "proved", "theorems": ["C59_visit", "C59_visit_order", "C59_strip", "C59_adjacent_refuted", "C59_paragraph_refuted"], "note": ""},
{"property": "C60", "status": "proved", "theorems": ["C60_arguments", "C60_files", "C60_plotfiddle_refuted", "C60_distinct", "C60_copied", "C60_twice_refuted"], "note": ""},
{"property": "C61", "status": "proved", "theorems": ["C61_units", "C61_energy_refuted", "C61_wien", "C61_hotter", "C61_limits", "C61_wien_inverse", "C61_wien_thz_refuted", "C61_wien_energy_refuted", "C61_peak", "C61_flux", "C61_get_flux", "C61_stefan_boltzmann"], "note": ""},
{"property": "C62", "status": "proved", "theorems": ["C62_hernquist", "C62_jaffe", "C62_plummer", "C62_burkert", "C62_moffat", "C62_nfw", "C62_shell_refuted", "C62_nfw_projected"], "note": ""},
{"property": "C63", "status": "proved", "theorems": ["C63_mean_density_decreases", "C63_mean_density", "C63_density_units_refuted", "C63_virial_unique", "C63_virial_exists", "C63_setC", "C63_stale_c_refuted", "C63_vmax_location", "C63_vmax_bound", "C63_create_vmax_refuted"], "note": ""},
{"property": "C64", "status": "proved", "theorems": ["C64_radius_mass", "C64_mass_velocity", "C64_vmax", "C64_vmax_mass", "C64_concentration", "C64_create", "C64_vmax_radius", "C64_vmax_radius_refuted", "C64_virial_velocity", "C64_virial_velocity_refuted"], "note": ""},
{"property": "C65", "status": "proved", "theorems": ["C65_mag_lum", "C65_lum_derivative", "C65_mag_derivative_refuted", "C65_lum_integral", "C65_mag_integral", "C65_mag_integral_refuted"], "note": ""},
{"property": "C66", "status": "proved", "theorems": ["C66_moffat_fwhm", "C66_moffat_decreases", "C66_sersic", "C66_sersic_decreases", "C66_sersic_index_refuted", "C66_einasto_sersic", "C66_einasto_slope", "C66_bn_cache", "C66_king2d", "C66_king3d", "C66_exp_disk", "C66_sech_disk"], "note": ""},
{"property": "C67", "status": "proved", "theorems": ["C67_direct", "C67_color", "C67_mask", "C67_bands", "C67_accepts", "C67_same_refuted"], "note": ""},
{"property": "C68", "status": "proved", "theorems": ["C68_current", "C68_offsets", "C68_zero", "C68_succeeds", "C68_locations_refuted", "C68_center_refuted", "C68_weights_refuted", "C68_color_only_refuted"], "note": ""},
{"property": "C69", "status": "proved", "theorems": ["C69_data", "C69_names", "C69_groups_refuted", "C69_fiducial", "C69_sequences", "C69_sequences_refuted", "C69_bands", "C69_pair_refuted", "C69_weights", "C69_weights_refuted"], "note": ""},
{"property": "C70", "status": "proved", "theorems": ["C70_history", "C70_many", "C70_one", "C70_warning", "C70_registry"], "note": ""},
{"property": "C71", "status": "proved", "theorems": ["C71_linear", "C71_drastar", "C71_distance", "C71_distance_refuted", "C71_epoch", "C71_output"], "note": ""},
{"property": "C72", "status": "proved", "theorems": ["C72_polynomial", "C72_needed", "C72_angles", "C72_both", "C72_missing_refuted", "C72_kepler", "C72_anomaly", "C72_approximation", "C72_true_anomaly"], "note": ""},
{"property": "C73", "status": "proved", "theorems": ["C73_place", "C73_distance", "C73_ellipse", "C73_newton", "C73_areas", "C73_period", "C73_P", "C73_P_refuted", "C73_tilt"], "note": ""},
{"property": "C74", "status": "proved", "theorems": ["C74_fraction", "C74_range", "C74_defined", "C74_full", "C74_exchange", "C74_moon"], "note": ""},
{"property": "C75", "status": "proved", "theorems": ["C75_velocity_au", "C75_velocity_kms", "C75_barycentric", "C75_rotation"], "note": ""},
{"property": "C76", "status": "proved", "theorems": ["C76_history", "C76_cached", "C76_download", "C76_failure", "C76_crash_others", "C76_crash_first", "C76_crash_refresh_refuted", "C76_collision_refuted", "C76_title_refuted", "C76_localfn_refuted"], "note": ""},
{"property": "C77", "status": "proved", "theorems": ["C77_disjoint", "C77_add", "C77_parse", "C77_layout", "C77_newline_refuted"], "note": ""},
{"property": "C78", "status": "proved", "theorems": ["C78_columns", "C78_accepted", "C78_mark_refuted", "C78_limit_refuted"], "note": ""},
{"property": "C79", "status": "proved", "theorems": ["C79_pickles", "C79_negative_refuted"], "note": ""},
{"property": "C80", "status": "proved", "theorems": ["C80_square", "C80_box", "C80_whole", "C80_refused", "C80_constructor", "C80_constructor_refuted", "C80_negative_refuted"], "note": ""},
{"property": "C81", "status": "proved", "theorems": ["C81_frame", "C81_deferred", "C81_apply", "C81_assign", "C81_shape", "C81_saved", "C81_rescale_refuted", "C81_apply_refuted", "C81_stage_refuted", "C81_log_base_refuted"], "note": ""},
{"property": "C82", "status": "proved", "theorems": ["C82_unedited", "C82_read_back", "C82_surface_brightness", "C82_log", "C82_log_inverse_refuted", "C82_log_negative_refuted", "C82_power_refuted"], "note": ""},
{"property": "C83", "status": "proved", "theorems": ["C83_threshold", "C83_outliers", "C83_percent", "C83_sigma", "C83_median_refuted"], "note": ""},
{"property": "C84", "status": "proved", "theorems": ["C84_offset", "C84_minp1_refuted", "C84_statistics", "C84_stale_refuted"], "note": ""},
{"property": "C85", "status": "proved", "theorems": ["C85_level", "C85_overscan", "C85_invariant", "C85_nothing", "C85_trim_refuted", "C85_axis_refuted"], "note": ""},
{"property": "C86", "status": "proved", "theorems": ["C86_pixels", "C86_refused", "C86_order", "C86_bounds", "C86_copies", "C86_majority", "C86_sum", "C86_equal_weights", "C86_units"], "note": ""},
{"property": "C87", "status": "proved", "theorems": ["C87_kept", "C87_large", "C87_lowers", "C87_bright", "C87_dark_refuted", "C87_weights_refuted"], "note": ""},
{"property": "C88", "status": "proved", "theorems": ["C88_response", "C88_flat", "C88_shape"], "note": ""},
{"property": "C89", "status": "proved", "theorems": ["C89_aligned", "C89_trimmed", "C89_axes_refuted", "C89_negative_refuted"], "note": ""},
{"property": "C90", "status": "proved", "theorems": ["C90_limits", "C90_ccd", "C90_gain_refuted"], "note": ""},
{"property": "C91", "status": "proved", "theorems": ["C91_number", "C91_fields", "C91_rejected", "C91_preferred", "C91_accepted", "C91_angle", "C91_unit_word", "C91_three", "C91_colons", "C91_blanks", "C91_plain", "matcher_spec", "C91_two_numbers_refuted", "C91_empty_refuted", "C91_spaced_units_refuted", "C91_negative_hms_refuted"], "note": ""},
{"property": "C92", "status": "proved", "theorems": ["C92_dms", "C92_str", "C92_canonical", "C92_reprint", "C92_hms", "C92_negative_zero_refuted", "C92_canonical_hours_refuted", "C92_negative_hours_refuted", "C92_degree_sign_refuted"], "note": ""},
{"property": "C93", "status": "proved", "theorems": ["C93_iqr", "C93_iqr_robust", "C93_quartiles", "C93_normal_scale", "C93_mad", "C93_mad_half", "C93_mad_robust", "C93_biweight", "C93_biweight_value", "C93_biweight_outlier", "C93_centre_refuted"], "note": ""},
{"property": "C94", "status": "proved", "theorems": ["C94_default_axes", "C94_refused", "C94_centroid", "C94_shift", "C94_scale", "C94_linear", "C94_point", "C94_separable", "C94_component", "C94_zeroth", "C94_std_uniform", "C94_std_refuted"], "note": ""},
{"property": "C95", "status": "proved", "theorems": ["C95_weights", "C95_total", "C95_equal", "C95_bins_refuted"], "note": ""},
{"property": "C96", "status": "proved", "theorems": ["C96_covariance", "C96_units", "C96_history", "C96_eigenvalues", "C96_round_trip", "C96_uncorrelated", "C96_residual", "C96_refused", "C96_subtract_all", "C96_threshold_refuted", "C96_sigclip_refuted", "C96_subtract_refuted"], "note": ""},
{"property": "C97", "status": "proved", "theorems": ["C97_registered", "C97_lookup", "C97_group_lookup", "C97_wrong_type", "C97_add_to_group", "C97_members", "C97_kept", "C97_typed", "C97_own_name_refuted"], "note": ""},
{"property": "C98", "status": "proved", "theorems": ["C98_all", "C98_commas", "C98_unknown", "C98_single", "C98_group", "C98_characters", "C98_mixed", "C98_lone", "C98_wrong_type", "C98_add_missing", "C98_taken", "C98_present", "C98_generated_refuted", "C98_group_in_list_refuted"], "note": ""},
{"property": "C99", "status": "proved", "theorems": ["C99_read", "C99_warning", "C99_no_dimensions", "C99_dark_refuted"], "note": ""}
]}
