{
 "claims": [
  {
   "property": "C01",
   "status": "proved",
   "theorems": [
    "C01_history_is_map",
    "C01_every_history_has_events",
    "C01_remove_absent",
    "C01_any_column_membership_refuted"
   ],
   "note": "Refinement to an ordered map for all histories under the naming convention (absolute paths only in the path column); refuted without it (membership test looks at every column)."
  },
  {
   "property": "C02",
   "status": "proved",
   "theorems": [
    "C02_returns_best",
    "C02_none_eligible",
    "C02_unreadable_frame",
    "C02_query_changes_nothing"
   ],
   "note": "Exact characterisation of the chosen row, of the error case, and that a query changes nothing."
  },
  {
   "property": "C03",
   "status": "proved",
   "theorems": [
    "C03_shared_file_is_one_database",
    "C03_shared_results",
    "C03_shared_queries",
    "C03_open",
    "C03_shared_from_nothing",
    "C03_memory_session",
    "C03_unsaved_entry_lost_refuted",
    "C03_interleavings",
    "C03_lost_update_refuted",
    "C03_crash_loses_rows",
    "C03_crash_refuted"
   ],
   "note": "refinement for sequential histories; the stated limits (overlap, to_disk=False, crash in save) are _refuted theorems with witnesses"
  },
  {
   "property": "C04",
   "status": "proved",
   "theorems": [
    "C04_new_dataset_linked",
    "C04_new_dataset_contents",
    "C04_frame_reads_cube",
    "C04_write_frame_is_write_cube",
    "C04_write_exact",
    "C04_write_defined",
    "C04_link_survives",
    "C04_update_contents",
    "C04_update_atomic_refuted",
    "C04_link_after_exception_refuted"
   ],
   "note": "link invariant over all histories; exact writes and update contents; the two stated limits are _refuted theorems"
  },
  {
   "property": "C05",
   "status": "proved",
   "theorems": [
    "C05_slice",
    "C05_selected_frames_leave_parent",
    "C05_parent_stays_linked_refuted"
   ],
   "note": "exact effect of slicing on parent and child; the loss of the parent link is proved for every selection and witnessed"
  },
  {
   "property": "C06",
   "status": "proved",
   "theorems": [
    "C06_deep_copy_equal",
    "C06_deep_copy_independent",
    "C06_shallow_pixels_independent",
    "C06_shallow_headers_shared",
    "C06_shallow_headers_independent_refuted"
   ],
   "note": "non-interference in all interleavings for full copies; pixels for shallow copies; header sharing proved in general and witnessed"
  },
  {
   "property": "C07",
   "status": "proved",
   "theorems": [
    "C07_groups",
    "C07_partition",
    "C07_outcome"
   ],
   "note": "Header values are compared as values of one ordered type; numpy's promotion of mixed columns is not modelled."
  },
  {
   "property": "C08",
   "status": "proved",
   "theorems": [
    "C08_one_step",
    "C08_consecutive",
    "C08_chain",
    "C08_mixed_levels_stuck",
    "C08_second_call_raises",
    "C08_l4_without_flux_refuted"
   ],
   "note": "DATALVL handled on the heap with the header sharing of copy(copy_data=False); the version and time stamps of Image.copy are parameters."
  },
  {
   "property": "C09",
   "status": "proved",
   "theorems": [
    "C09_replaces_tag",
    "C09_first_occurrence_only",
    "C09_untagged_unchanged",
    "C09_new_tag_first",
    "C09_injective",
    "C09_chain",
    "C09_tags_match_levels",
    "C09_unconventional_names_refuted"
   ],
   "note": ""
  },
  {
   "property": "C10",
   "status": "proved",
   "theorems": [
    "C10_record",
    "C10_tree",
    "C10_tree_total"
   ],
   "note": "Set iteration order is any function listing each element once. KeyError exactly when an input announces a FILE card it lacks."
  },
  {
   "property": "C11",
   "status": "proved",
   "theorems": [
    "C11_groups",
    "C11_collapse_keyword",
    "C11_group_members",
    "C11_input_unchanged"
   ],
   "note": "combined_from says what each result frame is; its pixels are given by C12. The slices taken for the parent record re-point the input's frames (see C05), but nothing readable of the input changes."
  },
  {
   "property": "C12",
   "status": "proved",
   "theorems": [
    "C12_good_samples",
    "C12_median_unique",
    "C12_flags",
    "C12_depends_on_good_only",
    "C12_with_nans",
    "C12_error_with_nans",
    "C12_unflagged_nan_refuted"
   ],
   "note": "Real arithmetic idealises floats; NaN is None. Exact behaviour with unflagged NaNs in C12_with_nans / C12_error_with_nans / C12_unflagged_nan_refuted."
  },
  {
   "property": "C13",
   "status": "proved",
   "theorems": [
    "C13_monotone",
    "C13_cosmic",
    "C13_nonlinearity",
    "C13_dark",
    "C13_flat",
    "C13_nan_flags",
    "C13_flag_nans",
    "C13_bit8_lost_refuted",
    "C13_flag_nans_refuted"
   ],
   "note": "Monotonicity by induction over step sequences; exact new bits per step. The bits above 7 lost by the uint8 cast of correct_bad_pixels and the overwrite in flag_nans are shown by the _refuted theorems. detect_cosmic_rays enters with arbitrary masks and limits (which ones: C26, C28)."
  },
  {
   "property": "C14",
   "status": "proved",
   "theorems": [
    "C14_bad_pixels",
    "C14_idempotent",
    "C14_flag256_refuted"
   ],
   "note": "Exact pixelwise characterisation over all bit patterns; DQ values above 255 are only seen modulo 256 (C14_flag256_refuted)."
  },
  {
   "property": "C15",
   "status": "proved",
   "theorems": [
    "C15_pack_unpack",
    "C15_unpack_pack",
    "C15_bit_position",
    "C15_unpack_length",
    "C15_pack_fails",
    "C15_pack_pads",
    "C15_bit_flag",
    "C15_value_flag",
    "C15_flag_value",
    "C15_bits_onto"
   ],
   "note": "Element-wise for all arrays; flag maps for all names, bits and values."
  },
  {
   "property": "C16",
   "status": "proved",
   "theorems": [
    "C16_quadrature",
    "C16_order_independent",
    "C16_layers",
    "C16_layer_names",
    "C16_rescale"
   ],
   "note": "over R for the quadrature (standard real axioms); layers and names closed"
  },
  {
   "property": "C17",
   "status": "proved",
   "theorems": [
    "C17_frame_select",
    "C17_code_bits",
    "C17_codes_distinct",
    "C17_sign_bit_refuted"
   ],
   "note": "Reject code bits, order and content of kept frames, IS_BAD marks, ValueError when none is left; sign-bit DQ value counted as good (refuted witness)."
  },
  {
   "property": "C18",
   "status": "proved",
   "theorems": [
    "C18_table",
    "C18_unsupported",
    "C18_other_failure",
    "C18_other_frames"
   ],
   "note": "Full decision table as an iff against an inductive table; NotImplementedError iff level unsupported; only other failure is KeyError (missing card); dependence on other frames only through the number of distinct settings."
  },
  {
   "property": "C19",
   "status": "proved",
   "theorems": [
    "C19_fill",
    "C19_fill_raises",
    "C19_marked",
    "C19_generated",
    "C19_when",
    "C19_skipped_not_run",
    "C19_jit_skip_refuted",
    "C19_refill_refuted"
   ],
   "note": "Iff specification of filling, of its exceptions, and of the skip mark, for arbitrary database lookups; jit_skip and refill limits are _refuted theorems."
  },
  {
   "property": "C20",
   "status": "proved",
   "theorems": [
    "C20_run",
    "C20_run_fails",
    "C20_calls",
    "C20_calls_failing",
    "C20_unknown",
    "C20_save",
    "C20_recipe_kept",
    "C20_settings",
    "C20_settings_leak_refuted",
    "C20_empty_save_refuted"
   ],
   "note": "run_recipe = inductive execution relation (iff), for success and for failure, with step functions, lookups and loaders arbitrary parameters. Settings leak and empty save are _refuted theorems."
  },
  {
   "property": "C21",
   "status": "proved",
   "theorems": [
    "C21_fresh",
    "C21_template_changed_refuted",
    "C21_shared_refuted",
    "C21_failure_keeps_refuted",
    "C21_optional_once_refuted",
    "C21_no_files_refuted"
   ],
   "note": "Store model of shared lists (template.copy() is shallow). Independence holds for freshly loaded templates; for template objects the sharing is characterised exactly (_refuted theorems)."
  },
  {
   "property": "C22",
   "status": "proved",
   "theorems": [
    "C22_name",
    "C22_distinct",
    "C22_underscores",
    "C22_last_extension",
    "C22_no_extension_refuted"
   ],
   "note": "All ASCII strings."
  },
  {
   "property": "C23",
   "status": "proved",
   "theorems": [
    "C23_calendar",
    "C23_stamp",
    "C23_raises",
    "C23_length",
    "C23_order",
    "C23_monotone",
    "C23_grid",
    "C23_unpadded_refuted"
   ],
   "note": "fromisoformat is an arbitrary parser; datetime arithmetic modelled after the standard library and proved against a day-counting calendar."
  },
  {
   "property": "C24",
   "status": "proved",
   "theorems": [
    "C24_slice",
    "C24_embed",
    "C24_slice_embed",
    "C24_embed_slice",
    "C24_embed_shapes",
    "C24_slice_outside",
    "C24_table_fits"
   ],
   "note": "All region tables and contents; the shipped table is checked to fit."
  },
  {
   "property": "C25",
   "status": "proved",
   "theorems": [
    "C25_image_area",
    "C25_full_frame",
    "C25_imaging_area",
    "C25_custom_image",
    "C25_custom_full",
    "C25_custom_imaging",
    "C25_rejects",
    "C25_eng_conv_refuted",
    "C25_tall_imaging_refuted",
    "C25_custom_rows_refuted"
   ],
   "note": "Abstract subtraction, median and standard error. Limits of the amended statement proved as _refuted theorems."
  },
  {
   "property": "C26",
   "status": "proved",
   "theorems": [
    "C26_image",
    "C26_full",
    "C26_box_outside_image_refuted",
    "C26_wrap_short_refuted"
   ],
   "note": "Image mode as documented. Full mode characterised exactly; the documented full-mode behaviour (boxes never in non-image pixels; tail continued in full) is refuted by the two _refuted theorems. NaN pixels and negative parameters are not modelled."
  },
  {
   "property": "C27",
   "status": "proved",
   "theorems": [
    "C27_plateaus",
    "C27_start_unique",
    "C27_start_exists",
    "C27_filter_rank"
   ],
   "note": "Saturated columns are specified by counting bright pixels in the clipped window (rank filter proved equivalent), starts by maximal runs."
  },
  {
   "property": "C28",
   "status": "proved",
   "theorems": [
    "C28_saturation",
    "C28_lower_capacity",
    "C28_measured_gain_refuted",
    "C28_one_unmeasured_refuted",
    "C28_gain_list_length",
    "C28_mixture_refuted",
    "C28_policy",
    "C28_policy_unique",
    "C28_noise",
    "C28_division",
    "C28_division_total",
    "C28_nonlinearity_fails",
    "C28_nonlin_unmeasured",
    "C28_nonlin_checks",
    "C28_nonlin_measured_refuted",
    "C28_kgain_measured",
    "C28_kgain_unmeasured"
   ],
   "note": "Policy, per-frame selection, saturation limits and calibration stacks; deviations proved as _refuted theorems."
  },
  {
   "property": "C29",
   "status": "proved",
   "theorems": [
    "C29_frames",
    "C29_inverse",
    "C29_unique",
    "C29_shape",
    "C29_linear",
    "C29_local",
    "C29_nan"
   ],
   "note": "Exact rationals; NaN columns covered."
  },
  {
   "property": "C30",
   "status": "proved",
   "theorems": [
    "C30_trad_dark",
    "C30_rejects",
    "C30_default_table",
    "C30_half_refuted"
   ],
   "note": "Pixelwise specification of value, error and flag for any stack; the documented 'half or more' refuted at exactly half."
  },
  {
   "property": "C31",
   "status": "proved",
   "theorems": [
    "C31_synthesized",
    "C31_rejects"
   ],
   "note": "Full functional specification, cropping commutes, rejection cases."
  },
  {
   "property": "C32",
   "status": "proved",
   "theorems": [
    "C32_run",
    "C32_counts",
    "C32_mean_nonneg",
    "C32_flags",
    "C32_detection",
    "C32_solution",
    "C32_newton",
    "C32_dark_pixel",
    "C32_inverse",
    "C32_error_defined",
    "C32_error_refuted",
    "C32_safemode_refuted",
    "C32_bins",
    "C32_parents_refuted"
   ],
   "note": "Full iff for get_pc_mean (C32_run). Counts over Z, analog data over Q, estimates over R (Coq reals; IEEE rounding and overflow masks not modelled). Limits stated by the _refuted theorems."
  },
  {
   "property": "C33",
   "status": "proved",
   "theorems": [
    "C33_sort",
    "C33_frame_number",
    "C33_disjoint",
    "C33_largest_refuted",
    "C33_equal_sets_refuted"
   ],
   "note": "Full iff for the whole function. np.argsort is not stable, so ties of frame numbers are excluded by hypothesis. int() of signs and blanks not modelled. History text not modelled."
  },
  {
   "property": "C34",
   "status": "proved",
   "theorems": [
    "C34_crop",
    "C34_sky",
    "C34_outside",
    "C34_odd",
    "C34_own_star_refuted",
    "C34_lsam_refuted",
    "C34_int_centre_refuted"
   ],
   "note": "Full iff for crop, with Python slicing, numpy rounding (half to even) and truncation; values, errors and flags abstract. Own-star, per-frame LSAMNAME and int centre claims refuted by theorems."
  },
  {
   "property": "C35",
   "status": "proved",
   "theorems": [
    "C35_angle",
    "C35_angle_none",
    "C35_angle_python",
    "C35_inverse",
    "C35_inverse_back",
    "C35_offset",
    "C35_polar_dist",
    "C35_wcs",
    "C35_roll",
    "C35_north_up",
    "C35_northup",
    "C35_north_angle",
    "C35_north_recovered",
    "C35_north_angle_refuted",
    "C35_roll_refuted",
    "C35_star_refuted",
    "C35_injection"
   ],
   "note": "Real numbers for floats; rotations of arrays (pyklip, scipy) are section variables. Five limits proved as theorems about the model (refuted for all such inputs)."
  },
  {
   "property": "C36",
   "status": "proved",
   "theorems": [
    "C36_terminates",
    "C36_combinations",
    "C36_unique",
    "C36_count",
    "C36_match",
    "C36_far",
    "C36_columns_refuted",
    "C36_no_fit_refuted",
    "C36_shared_refuted"
   ],
   "note": "Generator on fuel, shown sufficient at n^r. Sky separations, position angles and the WCS prediction are arbitrary functions; the gaussian fit of the target and the sort by VMAG are inputs. Zero-length image sides not covered."
  },
  {
   "property": "C37",
   "status": "proved",
   "theorems": [
    "C37_map",
    "C37_noise_map",
    "C37_shapes",
    "C37_box",
    "C37_no_box",
    "C37_few_hot",
    "C37_units",
    "C37_flat_units",
    "C37_in_use",
    "C37_nan_dark_refuted",
    "C37_nan_flat_refuted"
   ],
   "note": "Reals with NaN; infinities and rounding not modelled. The synthesized dark used for noise maps is an input (C31). Headers, parents and file name of the product: C09, C10."
  },
  {
   "property": "C38",
   "status": "proved",
   "theorems": [
    "C38_throughput",
    "C38_throughput_total",
    "C38_other_method",
    "C38_psf",
    "C38_injected",
    "C38_get_psf",
    "C38_get_psf_error",
    "C38_round_refuted",
    "C38_radius_refuted",
    "C38_azimuth_refuted",
    "C38_crop_refuted",
    "C38_kl",
    "C38_kl_end",
    "C38_kl_zero_refuted",
    "C38_kl_shift_refuted"
   ],
   "note": "Full functional specifications (iff) of get_1d_ct, get_closest_psf, the choice of PSF in inject_psf, GetPSF (nearest-polar) and the KL throughput lookup of the forward model, over real numbers. The position of the mask (GetCTFPMPosition) is an input. Refuted: whole-pixel rounding, azimuth cut, DETPIX0 ignored by inject_psf, KL mode indices from the front."
  },
  {
   "property": "C39",
   "status": "proved",
   "theorems": [
    "C39_done",
    "C39_failed",
    "C39_distinct",
    "C39_terminates",
    "C39_terminates_refuted",
    "C39_map",
    "C39_all_nan",
    "C39_default",
    "C39_box",
    "C39_mask_refuted",
    "C39_small_psf_refuted"
   ],
   "note": "Statement amended to the exact behaviour; _refuted theorems give the limits (infinite loop on a tie with the threshold, off-centre masks). pyklip's correlation and statistic and the nanmedian scale are oracles; the statistic is assumed to keep shape and NaN."
  },
  {
   "property": "C40",
   "status": "proved",
   "theorems": [
    "C40_signals",
    "C40_repeated_unique",
    "C40_second_half_refuted",
    "C40_linear_drift_refuted",
    "C40_no_drift",
    "C40_ratio_refuted"
   ],
   "note": "Signals and fit characterised exactly; the second-half claim is refuted in general and the actual value proved."
  },
  {
   "property": "C41",
   "status": "proved",
   "theorems": [
    "C41_bins_cover",
    "C41_bins_disjoint",
    "C41_bins_size",
    "C41_local",
    "C41_global",
    "C41_median",
    "C41_sum",
    "C41_total",
    "C41_size_error",
    "C41_uniform_light",
    "C41_small_refuted"
   ],
   "note": "Real arithmetic; NaN as missing value. C41_small_refuted shows images smaller than a bin are zeroed."
  },
  {
   "property": "C42",
   "status": "proved",
   "theorems": [
    "C42_dictionaries",
    "C42_at_least",
    "C42_agreeing",
    "C42_distinct_times",
    "C42_shared_times_refuted",
    "C42_refuses",
    "C42_no_shape"
   ],
   "note": "Real arithmetic, finite frames; floating-point rounding of the sum of shares before ceil is outside the model. C42_shared_times_refuted: disagreeing frames of one phase time can hide a dipole."
  },
  {
   "property": "C43",
   "status": "proved",
   "theorems": [
    "C43_code",
    "C43_location",
    "C43_lossless",
    "C43_table",
    "C43_round_trip",
    "C43_rows_distinct",
    "C43_two_digits_refuted",
    "C43_rebuild_accepts",
    "C43_rebuild_contents",
    "C43_again_refuted"
   ],
   "note": "Values of any type. Integer keys; the header of the product is not modelled; int() of strings with blanks or underscores is simplified away. C43_two_digits_refuted and C43_again_refuted state the limits."
  },
  {
   "property": "C44",
   "status": "proved",
   "theorems": [
    "C44_update",
    "C44_applied_once",
    "C44_rejected_refuted",
    "C44_find_star",
    "C44_find_star_refused",
    "C44_one_kind",
    "C44_two_modes",
    "C44_untouched",
    "C44_history",
    "C44_leak",
    "C44_independence_refuted",
    "C44_validate_refuted",
    "C44_validate_raises"
   ],
   "note": "Star location (star_center_from_satellite_spots) is an arbitrary function of guess, science data, spot data and parameters. Proved: exact effect of update_parameters, exact result and state after find_star, state after any history; refuted: independence of calls, atomicity of a rejected override, validate ever accepting."
  },
  {
   "property": "C45",
   "status": "proved",
   "theorems": [
    "C45_binding",
    "C45_shipped",
    "C45_failures",
    "C45_result",
    "C45_all_declared",
    "C45_generated",
    "C45_l2b_to_l4_refuted",
    "C45_bp_map_skip_refuted",
    "C45_optional_jit_refuted"
   ],
   "note": "Assumes the table of step effects (kind and level of results) of RecipeModel; three limits proved as _refuted."
  },
  {
   "property": "C46",
   "status": "proved",
   "theorems": [
    "C46_calibration",
    "C46_rows",
    "C46_inputs",
    "C46_flag_refuted",
    "C46_factor_only_refuted",
    "C46_repeat_refuted"
   ],
   "note": "Photometry, per-frame flux calibration, centroid and stellar irradiance are arbitrary functions (irradiance positive). Exact iff specification of the product; refuted: flag over all targets, factor without dim frames, repeatability."
  },
  {
   "property": "C47",
   "status": "proved",
   "theorems": [
    "C47_relgains",
    "C47_no_table",
    "C47_unique",
    "C47_bounds",
    "C47_nodes"
   ],
   "note": "scipy's linear spline and interp1d are modelled by their formula (searchsorted, clip, line, edge values); table entries finite, pixel values may be infinite or NaN."
  },
  {
   "property": "C48",
   "status": "proved",
   "theorems": [
    "C48_master_dark",
    "C48_noise_maps",
    "C48_other_type",
    "C48_mixed_settings",
    "C48_synth_reuse_refuted"
   ],
   "note": "Exact acceptance condition and effect; reuse of a saved synthesized dark refuted."
  },
  {
   "property": "C49",
   "status": "proved",
   "theorems": [
    "C49_convert_to_electrons",
    "C49_convert_relative",
    "C49_flat_division",
    "C49_flat_relative",
    "C49_photon_noise",
    "C49_divide_by_exptime",
    "C49_exptime_rejects",
    "C49_layers_lost_refuted"
   ],
   "note": "Exact propagation for each step; loss of the other error layers in convert_to_electrons refuted."
  },
  {
   "property": "C50",
   "status": "proved",
   "theorems": [
    "C50_nonlin_stack",
    "C50_nonlin_conserves",
    "C50_kgain_list",
    "C50_kgain_conserves",
    "C50_kgain_shared_time_refuted"
   ],
   "note": "Both functions characterised by an iff."
  },
  {
   "property": "C51",
   "status": "proved",
   "theorems": [
    "C51_header",
    "C51_cards",
    "C51_numbers",
    "C51_others",
    "C51_roundtrip",
    "C51_stale_refuted",
    "C51_move",
    "C51_move_integers",
    "C51_move_missing",
    "C51_move_short",
    "C51_move_error"
   ],
   "note": "Text-valued cards; float() modelled for plain decimal numbers."
  },
  {
   "property": "C52",
   "status": "proved",
   "theorems": [
    "C52_history",
    "C52_unique",
    "C52_order",
    "C52_conserved",
    "C52_numbered",
    "C52_pixels_once",
    "C52_not_four",
    "C52_temps",
    "C52_count",
    "C52_count_refuted"
   ],
   "note": "Proved for all fits and orders of sets; the count of unused fits is refuted (C52_count_refuted) and characterised (C52_count)."
  },
  {
   "property": "C53",
   "status": "proved",
   "theorems": [
    "C53_followed",
    "C53_keys_once",
    "C53_unique",
    "C53_found_one",
    "C53_found_distinct",
    "C53_every_fit",
    "C53_nothing_left",
    "C53_order",
    "C53_two_or_less",
    "C53_noncontinuous",
    "C53_counts_one",
    "C53_located"
   ],
   "note": "Full functional specification with uniqueness; the located traps of C52 are shown to satisfy the hypotheses (C53_located). fit_cs and what follows are not modelled."
  },
  {
   "property": "C54",
   "status": "proved",
   "theorems": [
    "C54_read",
    "C54_refused",
    "C54_accepted",
    "C54_accepted_refs",
    "C54_library_unique",
    "C54_names_distinct",
    "C54_references_unchecked",
    "C54_centre_refuted",
    "C54_file_cards",
    "C54_file_cards_used"
   ],
   "note": "Images and the alignment function (pyklip align_and_scale) are arbitrary; header numbers are exact. C54_centre_refuted: with integer star locations the recorded centre is truncated and is not the one used."
  },
  {
   "property": "C55",
   "status": "proved",
   "theorems": [
    "C55_flat",
    "C55_fails",
    "C55_weights",
    "C55_weights_sum",
    "C55_between",
    "C55_order_refuted",
    "C55_centred",
    "C55_moved",
    "C55_uranus_refuted",
    "C55_edge_refuted",
    "C55_size",
    "C55_mask_irrelevant",
    "C55_mean",
    "C55_kernel"
   ],
   "note": "The full flat is characterised by an iff; the centre of mass and the Gaussian filter are arbitrary functions. Order dependence, displacement of the disc, loss of frames near the edge and the size with the default border are proved as limits."
  },
  {
   "property": "C56",
   "status": "proved",
   "theorems": [
    "C56_simpson",
    "C56_simpson_linear",
    "C56_simpson_exact",
    "C56_simpson_bounds",
    "C56_simpson_negative_refuted",
    "C56_spectrum",
    "C56_spectrum_fails",
    "C56_spectrum_own_grid",
    "C56_spectrum_edge_refuted",
    "C56_band_flux",
    "C56_band_flux_bounds",
    "C56_band_flux_scale",
    "C56_effective",
    "C56_effective_bounds",
    "C56_pivot",
    "C56_pivot_bounds",
    "C56_reference_flux",
    "C56_color",
    "C56_color_same",
    "C56_color_law",
    "C56_color_refuted",
    "C56_filter",
    "C56_filter_shipped",
    "C56_filter_ambiguous_refuted",
    "C56_standard",
    "C56_star",
    "C56_app_mag",
    "C56_app_mag_image",
    "C56_vega_zero",
    "C56_app_mag_scale",
    "C56_vega_mag",
    "C56_color_cards",
    "C56_factor",
    "C56_factor_cards",
    "C56_nd_ignored_refuted",
    "C56_flux",
    "C56_round_trip",
    "C56_error_refuted",
    "C56_irradiance_refuted",
    "C56_magnitudes_refuted",
    "C56_zero_point",
    "C56_convert",
    "C56_convert_relative",
    "C56_convert_first_refuted"
   ],
   "note": "Full functional specifications (iff) of the spectrum, integral, band, magnitude, factor and flux computations; laws and bounds by induction over the grid; limits as _refuted theorems. Photometry, files and downloads are parameters; scipy's simpson is modelled by its formula (1.11 or later)."
  },
  {
   "property": "C57",
   "status": "proved",
   "theorems": [
    "C57_centroid",
    "C57_centroid_fails",
    "C57_centroid_within",
    "C57_centroid_symmetric",
    "C57_centroid_scale",
    "C57_core",
    "C57_core_scale",
    "C57_core_unit",
    "C57_core_nan_refuted",
    "C57_lens",
    "C57_lens_constant",
    "C57_estimate",
    "C57_placement",
    "C57_stamp",
    "C57_stamp_interior",
    "C57_stamp_edge",
    "C57_cube",
    "C57_ragged_refuted",
    "C57_product",
    "C57_pairs",
    "C57_first_frame_refuted",
    "C57_mask",
    "C57_mask_same",
    "C57_interpolate",
    "C57_interpolate_within",
    "C57_interpolate_node",
    "C57_azimuth_refuted",
    "C57_repair_refuted",
    "C57_map",
    "C57_map_file_refuted"
   ],
   "note": "LinearNDInterpolator is an arbitrary function; files with curves are an environment; wavelengths of the lens curves increase. The statement says exactly what holds and the limits (see the _refuted theorems)."
  },
  {
   "property": "C58",
   "status": "proved",
   "theorems": [
    "C58_product",
    "C58_works",
    "C58_frame_order",
    "C58_flagged_values",
    "C58_pattern",
    "C58_exact",
    "C58_signs",
    "C58_plain_prescan",
    "C58_lost_setting_refuted",
    "C58_pooled_error_refuted",
    "C58_sign_refuted",
    "C58_bias_refuted",
    "C58_nan_refuted",
    "C58_gain_check_refuted",
    "C58_settings_refuted",
    "C58_order_refuted"
   ],
   "note": "Equivalence of the model with an independent specification (least squares as minimum, standard deviations as response of the minimiser), exact domain, invariances, and eight refutations of stronger readings."
  },
  {
   "property": "C59",
   "status": "proved",
   "theorems": [
    "C59_settings",
    "C59_settings_absent",
    "C59_settings_read_only",
    "C59_config_kept",
    "C59_config_fresh",
    "C59_config_legacy",
    "C59_config_crash",
    "C59_config_values",
    "C59_defaults_present",
    "C59_defaults_missing",
    "C59_defaults_no_directory",
    "C59_defaults_unset",
    "C59_start_fresh",
    "C59_start_again",
    "C59_start_files",
    "C59_start_present",
    "C59_start_recovers",
    "C59_step_1",
    "C59_step_2",
    "C59_unregistered_refuted",
    "C59_other_database_refuted",
    "C59_damaged_refuted",
    "C59_torn_refuted",
    "C59_torn_path_refuted",
    "C59_legacy_lost_refuted",
    "C59_legacy_reset_refuted",
    "C59_legacy_key_refuted",
    "C59_flag_refuted",
    "C59_percent_refuted",
    "C59_double_percent_refuted"
   ],
   "note": "Settings read from any text of the grammar (settings); creation of the configuration incl. crash states (config_*); default calibrations (defaults_*); fresh, repeated and interrupted starts (start_*); steps 1 and 2 of ops. Exceptions to recovery and other limits are proved as _refuted. configparser modelled for the operations used; %(name)s interpolation refused."
  },
  {
   "property": "C60",
   "status": "proved",
   "theorems": [
    "C60_noise",
    "C60_noise_raises",
    "C60_noise_value",
    "C60_noise_number",
    "C60_noise_local",
    "C60_noise_shift",
    "C60_noise_times",
    "C60_injections",
    "C60_targets_one",
    "C60_clear",
    "C60_background_shift",
    "C60_background",
    "C60_cutout",
    "C60_padded",
    "C60_edge",
    "C60_table",
    "C60_ascending",
    "C60_descending",
    "C60_throughput",
    "C60_blocked",
    "C60_repeated",
    "C60_unsupported",
    "C60_order_refuted",
    "C60_edge_refuted"
   ],
   "note": "injection of the PSF, pyklip and the Gaussian fit are arbitrary functions; the statement includes the limits shown by the refuted theorems"
  },
  {
   "property": "C61",
   "status": "proved",
   "theorems": [
    "C61_reading",
    "C61_node",
    "C61_between",
    "C61_gap",
    "C61_star",
    "C61_curves",
    "C61_flux",
    "C61_succeeds",
    "C61_alone",
    "C61_first",
    "C61_counts",
    "C61_scaled",
    "C61_level",
    "C61_nonneg",
    "C61_nan_refuted",
    "C61_own_refuted",
    "C61_density_refuted",
    "C61_float_refuted",
    "C61_even_refuted",
    "C61_start_refuted"
   ],
   "note": "photutils' fit and the interpolation of the ND calibration are arbitrary functions; the statement includes the limits shown by the refuted theorems"
  },
  {
   "property": "C62",
   "status": "proved",
   "theorems": [
    "C62_settings",
    "C62_missing",
    "C62_wrong",
    "C62_reads",
    "C62_accepted",
    "C62_cells",
    "C62_set",
    "C62_curve",
    "C62_rising",
    "C62_gains",
    "C62_clip",
    "C62_mode",
    "C62_calibrated",
    "C62_clip_few",
    "C62_clip_sub",
    "C62_clip_nonempty",
    "C62_clip_share",
    "C62_clip_affine",
    "C62_mode_near",
    "C62_mode_affine",
    "C62_mode_bounds",
    "C62_positive",
    "C62_five",
    "C62_first_refuted",
    "C62_brightest_refuted",
    "C62_last_refuted",
    "C62_noise_refuted",
    "C62_constant_refuted",
    "C62_quiet_refuted"
   ],
   "note": "Prescan region and Gaussian width arbitrary; six limits refuted with witnesses."
  },
  {
   "property": "C63",
   "status": "proved",
   "theorems": [
    "C63_run",
    "C63_run_object",
    "C63_fails",
    "C63_files",
    "C63_objects",
    "C63_recipes",
    "C63_fresh",
    "C63_name",
    "C63_step3",
    "C63_template_refuted",
    "C63_same_call_refuted"
   ],
   "note": "both limits are refuted in the general form and stated in the property"
  },
  {
   "property": "C64",
   "status": "proved",
   "theorems": [
    "C64_header",
    "C64_order",
    "C64_layers",
    "C64_upper",
    "C64_path",
    "C64_join",
    "C64_new",
    "C64_new_refused",
    "C64_load",
    "C64_load_refused",
    "C64_new_ready",
    "C64_load_ready",
    "C64_extend_ready",
    "C64_save",
    "C64_round_trip",
    "C64_reload",
    "C64_load_twice",
    "C64_same_place",
    "C64_track_on",
    "C64_track_off",
    "C64_extend",
    "C64_extend_refused",
    "C64_extend_round",
    "C64_root_refuted",
    "C64_case_refuted",
    "C64_shape_refuted",
    "C64_axes_refuted",
    "C64_cards_refuted",
    "C64_err_case_refuted"
   ],
   "note": "Image.__init__ (both forms), save, filepath and add_extension_hdu over arbitrary headers, arrays and HDU lists; limits shown by the _refuted theorems. astropy writing and reading an HDU is the identity, in the trusted base."
  },
  {
   "property": "C65",
   "status": "proved",
   "theorems": [
    "C65_tag",
    "C65_one_tag",
    "C65_replace",
    "C65_before",
    "C65_inside",
    "C65_load",
    "C65_exclusive",
    "C65_refused",
    "C65_autoload",
    "C65_autoload_refused",
    "C65_autoload_nd",
    "C65_loaded",
    "C65_save_refused",
    "C65_round_trip",
    "C65_read_again",
    "C65_make",
    "C65_make_can",
    "C65_made",
    "C65_params",
    "C65_params_round",
    "C65_fpam",
    "C65_fpam_round",
    "C65_nd_refuted",
    "C65_untyped_refuted",
    "C65_remark_refuted",
    "C65_gain_refuted",
    "C65_same_name_refuted",
    "C65_dot_refuted",
    "C65_no_input_refuted",
    "C65_overhead_refuted",
    "C65_bare_refuted"
   ],
   "note": "Loading is characterised by an iff, making by the frame it starts from, the format, the sources and the result; products made or read satisfy an invariant under which saving and loading is the identity up to the remarks listed. Abstract: the value type, not-a-number, the text of a card in a history line, the order of a set. Limits are proved as _refuted theorems."
  },
  {
   "property": "C66",
   "status": "proved",
   "theorems": [
    "C66_fit",
    "C66_refused",
    "C66_sound",
    "C66_shape",
    "C66_equal",
    "C66_nearer",
    "C66_label",
    "C66_recover",
    "C66_starts",
    "C66_starts_nonzero",
    "C66_peak",
    "C66_estimate",
    "C66_bounds",
    "C66_top",
    "C66_swap",
    "C66_goodness",
    "C66_estimate_refuted",
    "C66_label_refuted",
    "C66_starts_refuted"
   ],
   "note": "curve_fit is an unconstrained function argument (its None is any exception); a few laws assume that it keeps to its bounds. Real arithmetic. Limits stated in the property are proved as _refuted theorems."
  },
  {
   "property": "C67",
   "status": "proved",
   "theorems": [
    "C67_tau",
    "C67_sigma",
    "C67_scale",
    "C67_shift",
    "C67_positive",
    "C67_energy",
    "C67_colder",
    "C67_determined",
    "C67_fit",
    "C67_refused",
    "C67_within",
    "C67_recovered",
    "C67_perfect",
    "C67_all",
    "C67_all_refused",
    "C67_table",
    "C67_total",
    "C67_poor_refuted"
   ],
   "note": "curve_fit is an unconstrained function argument; real arithmetic, with infinities and NaN lumped as none. The within and total laws assume that curve_fit keeps to its bounds."
  },
  {
   "property": "C68",
   "status": "proved",
   "theorems": [
    "C68_disc",
    "C68_disc_refused",
    "C68_disc_bounds",
    "C68_disc_wider",
    "C68_disc_inside",
    "C68_disc_outside",
    "C68_mask",
    "C68_light",
    "C68_parabola",
    "C68_parabola_exact",
    "C68_parabola_nan",
    "C68_parabola_shape",
    "C68_paraboloid",
    "C68_paraboloid_exact",
    "C68_paraboloid_nan",
    "C68_paraboloid_shape",
    "C68_paraboloid_mask",
    "C68_unique1",
    "C68_unique2",
    "C68_whole",
    "C68_found",
    "C68_star_unique",
    "C68_separation_unique",
    "C68_angle",
    "C68_same_light",
    "C68_follows",
    "C68_nothing",
    "C68_shapes",
    "C68_narrow",
    "C68_no_steps",
    "C68_no_turn",
    "C68_guess",
    "C68_joint",
    "C68_joint_missing",
    "C68_joint_fails",
    "C68_cost",
    "C68_numpy",
    "C68_negative_refuted",
    "C68_mask_refuted",
    "C68_optimum_refuted",
    "C68_spots_refuted"
   ],
   "note": "np.polyfit, np.linalg.lstsq and scipy's minimize are function arguments; the fits are assumed least squares (NaN in, NaN out), which is shown satisfiable; minimize is assumed to keep to its bounds and not to end worse than it began where stated. Real arithmetic, infinities and NaN lumped as none. Limits stated in the property are proved as _refuted theorems."
  },
  {
   "property": "C69",
   "status": "proved",
   "theorems": [
    "C69_image",
    "C69_image_refused",
    "C69_high_order",
    "C69_polynomials",
    "C69_units",
    "C69_moves",
    "C69_shift",
    "C69_identity",
    "C69_dataset",
    "C69_dataset_refused",
    "C69_calibrated",
    "C69_residuals",
    "C69_residuals_refused",
    "C69_angle_unique",
    "C69_perfect",
    "C69_undistorted",
    "C69_no_worse",
    "C69_start",
    "C69_inverse_refuted",
    "C69_units_refuted",
    "C69_order_refuted",
    "C69_opposite_refuted",
    "C69_centre_refuted",
    "C69_flags_refuted"
   ],
   "note": "Real numbers without rounding; map_coordinates and leastsq are unknown functions. Limits refuted with witnesses: not the inverse map, wrapped units, order 0, opposite offsets, two middles, unmoved flags."
  },
  {
   "property": "C70",
   "status": "proved",
   "theorems": [
    "C70_found",
    "C70_refused",
    "C70_unique",
    "C70_count",
    "C70_each",
    "C70_field",
    "C70_located",
    "C70_spurious_refuted",
    "C70_repeated_refuted",
    "C70_oblong_refuted"
   ],
   "note": "Real numbers without rounding; gaussfit2d is an unknown function. Limits refuted with witnesses: spurious sources, repeated sources, oblong images."
  },
  {
   "property": "C71",
   "status": "proved",
   "theorems": [
    "C71_boresight",
    "C71_pointing",
    "C71_north_up",
    "C71_right_ascension_refuted",
    "C71_calibration",
    "C71_refused",
    "C71_no_central",
    "C71_groups",
    "C71_count",
    "C71_combined",
    "C71_combined_distortion",
    "C71_pairs",
    "C71_offset_refuted",
    "C71_north_refuted"
   ],
   "note": "proved for all datasets over reals with NaN, with find_source_locations/match_sources/compute_platescale_and_northangle of one frame, the Gaussian fit, the projection, measure_offset and leastsq as function arguments; the limits are proved as _refuted theorems with witnesses"
  },
  {
   "property": "C72",
   "status": "proved",
   "theorems": [
    "C72_window",
    "C72_window_unique",
    "C72_window_holds",
    "C72_place",
    "C72_inside",
    "C72_symmetric",
    "C72_point",
    "C72_offset",
    "C72_refused",
    "C72_exact",
    "C72_mask",
    "C72_mask_square",
    "C72_mask_turns",
    "C72_mask_default",
    "C72_mask_walls",
    "C72_oblong_refuted",
    "C72_small_refuted",
    "C72_background_refuted"
   ],
   "note": "proved for all images over reals with NaN, with map_coordinates and curve_fit as function arguments; the limits are proved as _refuted theorems with witnesses"
  },
  {
   "property": "C73",
   "status": "proved",
   "theorems": [
    "C73_table",
    "C73_density",
    "C73_refused",
    "C73_still",
    "C73_moves",
    "C73_interpolated",
    "C73_own",
    "C73_own_refuted",
    "C73_carried_refuted"
   ],
   "note": "scipy's interpolations are function arguments; own_refuted and carried_refuted record the limits"
  },
  {
   "property": "C74",
   "status": "proved",
   "theorems": [
    "C74_stamp",
    "C74_refused",
    "C74_zone",
    "C74_order",
    "C74_sorts",
    "C74_same",
    "C74_shape",
    "C74_reading",
    "C74_tenth",
    "C74_collide_refuted"
   ],
   "note": "datetime.fromisoformat is a function argument; the arithmetic of the library's calendar is modelled and proved against an inductive calendar; collide_refuted records the limit"
  },
  {
   "property": "C75",
   "status": "proved",
   "theorems": [
    "C75_rows",
    "C75_refused",
    "C75_places",
    "C75_best",
    "C75_host_law",
    "C75_calibration_law",
    "C75_magnitudes",
    "C75_nd_refuted",
    "C75_zp_refuted"
   ],
   "note": "Full functional specification of the table and of its refusals, laws of the brightness of both stars; C75_nd_refuted and C75_zp_refuted record the two limits."
  },
  {
   "property": "C76",
   "status": "proved",
   "theorems": [
    "C76_centre",
    "C76_centre_refused",
    "C76_aperture",
    "C76_aperture_refused",
    "C76_gauss",
    "C76_gauss_refused_iff",
    "C76_factor",
    "C76_factor_refused",
    "C76_factor_gauss",
    "C76_factor_gauss_refused",
    "C76_defaults",
    "C76_pixels",
    "C76_recovered",
    "C76_brighter",
    "C76_brighter_factor",
    "C76_flagged",
    "C76_sky",
    "C76_flagged_refuted",
    "C76_sky_refuted",
    "C76_wcs_refuted",
    "C76_guess_refuted",
    "C76_input_refuted"
   ],
   "note": "Sums, centres, factor, headers and refusals for all inputs, with the scaling, flag and sky laws. Five _refuted theorems: flagged pixels and sky move the found centre, the WCS pixel is off by one, a guess before the frame, and the relabelled input image."
  },
  {
   "property": "C77",
   "status": "proved",
   "theorems": [
    "C77_product",
    "C77_product_found",
    "C77_refused",
    "C77_apart",
    "C77_order",
    "C77_others",
    "C77_flagged",
    "C77_all_science",
    "C77_references_refuted",
    "C77_flags_refuted",
    "C77_mode_refuted",
    "C77_name_refuted"
   ],
   "note": "pyklip, the crop and the two throughput functions are function arguments that may raise; completeness and refusals for throughput functions that read the header by its cards; four limits proved as _refuted theorems"
  },
  {
   "property": "C78",
   "status": "proved",
   "theorems": [
    "C78_names",
    "C78_names_refused",
    "C78_settings",
    "C78_settings_refused",
    "C78_table",
    "C78_refused",
    "C78_counts",
    "C78_entries",
    "C78_norm",
    "C78_renorm",
    "C78_linear",
    "C78_order_refuted",
    "C78_nan_refuted",
    "C78_norm_refuted",
    "C78_start_refuted",
    "C78_float_refuted"
   ],
   "note": "Regions have no negative numbers; histogram, drift correction (C40), line fit, lowess and interp1d are function arguments. Five refuted claims: order of smoothed gains, NaN limits, a norm above 14000, limits between the counts, floats for rows."
  },
  {
   "property": "C79",
   "status": "proved",
   "theorems": [
    "C79_returns",
    "C79_raises",
    "C79_twice",
    "C79_implied",
    "C79_entries",
    "C79_scalars",
    "C79_names",
    "C79_nan_refuted",
    "C79_inf_refuted",
    "C79_bool_refuted",
    "C79_text_refuted",
    "C79_empty_refuted",
    "C79_ragged_refuted",
    "C79_bytes_refuted",
    "C79_npbool_refuted"
   ],
   "note": "numpy's asarray is modelled up to the kind of the dtype, with lists, tuples and arrays nested to any depth; eight _refuted theorems record what passes against the documented sense"
  },
  {
   "property": "C80",
   "status": "proved",
   "theorems": [
    "C80_pixels",
    "C80_headers",
    "C80_result",
    "C80_linked",
    "C80_values",
    "C80_detached",
    "C80_others_linked",
    "C80_history",
    "C80_headers_refuted",
    "C80_naxis_refuted",
    "C80_gain_refuted",
    "C80_time_refuted",
    "C80_dark_refuted",
    "C80_dark_raise_refuted"
   ],
   "note": "All steps from L1 to L3, any computation inside them, any heap, any history of calls. What holds only for some steps is in the theorems (which steps share headers with the input, which return frames apart from their cubes, which splits its input) with a witness for each exception."
  },
  {
   "property": "C81",
   "status": "proved",
   "theorems": [
    "C81_counts",
    "C81_total",
    "C81_join",
    "C81_width",
    "C81_refused",
    "C81_start",
    "C81_order",
    "C81_outside",
    "C81_moved",
    "C81_moved_width",
    "C81_bell",
    "C81_edges_refuted",
    "C81_nothing_refuted",
    "C81_card_refuted",
    "C81_sign_refuted"
   ],
   "note": "curve_fit is an arbitrary function that may raise; pixels are reals or NaN without rounding. The limits of the statement are the _refuted theorems."
  },
  {
   "property": "C82",
   "status": "proved",
   "theorems": [
    "C82_injected",
    "C82_model",
    "C82_peak",
    "C82_apart",
    "C82_missing",
    "C82_empty",
    "C82_turn",
    "C82_louder",
    "C82_all",
    "C82_sum",
    "C82_order",
    "C82_negative_refuted",
    "C82_blank_refuted"
   ],
   "note": "pyklip's painting is an arbitrary function that may raise; arrays hold reals or NaN without rounding. The limits of the statement are the _refuted theorems."
  },
  {
   "property": "C83",
   "status": "proved",
   "theorems": [
    "C83_others",
    "C83_cards",
    "C83_history",
    "C83_succeeds",
    "C83_product",
    "C83_parents",
    "C83_stale",
    "C83_label",
    "C83_apart",
    "C83_frame_refuted",
    "C83_relabel_refuted",
    "C83_parents_refuted",
    "C83_failed_refuted"
   ],
   "note": "Headers only, from where the first frame's header is taken; the arrays are taken to have the shapes that the constructors accept; primary, error and flag headers are left out. No seeded faults were run against this model. Four limits are refuted with witnesses."
  }
 ]
}