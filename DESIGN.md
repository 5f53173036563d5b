# Formal model of corgidrp: design

The source is `/repo` (roman-corgi/corgidrp, Python).  The model is written in
Rocq (Coq 8.16.1) under `rocq/theories` and built with
`coq_makefile -f _CoqProject -o Makefile && make -j4` in `rocq/`.

## Layout

For each topic `X` there are up to four files:

* `XModel.v`  – executable Gallina functions mirroring the Python functions
  branch by branch; each definition cites the file and lines it models and
  states every simplification.  No proofs.
* `XSpec.v`   – the independent specification the theorems are stated against
  (never mentions helpers of the model).
* `XProofs.v` – lemmas.
* `XProps.v`  – only the property theorems (`exact lemma`), an `Example` beside
  each showing a concrete non-trivial instance, and `Print Assumptions`.

`Base.v` has the result monad (`Ok` / `Raise exn`: Python exceptions as values)
and generic list lemmas.

Theorem names: `..._refuted` exhibits a violation by the unchanged code (with
the witness traced below); `..._partial` proves a part only, with the missing
part named here and in `MANIFEST.json`.

## Modelling conventions

* Floating point is idealised: pixel values are `Q` where only `+ - * /` and
  comparisons occur (axiom free, computable) and `R` where `sqrt`, `exp`, `sin`
  occur.  NaN is `None`.  Rounding error is outside the model.
* numpy arrays are lists (of rows); shapes are explicit where a property
  depends on them; numpy slicing `a[lo:hi]` clips, negative indices wrap.
* Python dictionaries are association lists in insertion order.
* In-place mutation is either a returned new value or, where aliasing is the
  subject (C04-C06, C21, C44), an explicit heap.
* Library calls (astropy FITS I/O, pandas CSV text, scipy filters, pyklip) are
  `Section` variables with the assumed behaviour named at the definition, or
  are replaced by their documented mathematical meaning.

## Trusted base

* Coq's kernel (and `coqchk`).
* The reading of the Python source: nothing ties the model to the code except
  the cited line ranges.
* The assumed meaning of library calls.  They are either arbitrary functions
  (Section variables that become arguments of the theorems, so the theorems hold
  for whatever they compute) or are replaced by their documented meaning:
  * arbitrary: pyklip `klip_dataset`, `calculate_cc`, `get_image_stat_map_perPixMasking`,
    `align_and_scale`; `star_center_from_satellite_spots`; photometry, centroid and
    irradiance of the ND calibration; the order in which Python runs through a set;
    results of curve fits; scipy `center_of_mass` (truncated) and Gaussian filter of
    the flat fields; photometry and file reading of the flux calibration; scipy
    `LinearNDInterpolator`; image rotation; the order pandas uses to sort groups;
    `datetime.fromisoformat`;
  * documented meaning: numpy elementwise arithmetic, slicing, `argmin`, `argsort`
    (stable), `median`, `nanmedian`, `interp`, `std`; pandas `groupby`; scipy
    `simpson` (1.11 or later); `np.stack` of arrays of unequal shapes raises
    (numpy 1.24 or later); Python's round half to even, `str.replace`, `str.format`.
* Axioms: only those of Coq's standard library, listed below.  Theorems over `Z`,
  `Q`, `nat` and lists are closed; theorems over `R` use the axioms of the real
  numbers.  `Print Assumptions` is under each theorem in the `XProps.v` files.

### Axioms listed by `Print Assumptions`, theorem by theorem

Closed under the global context (no axioms) – 423 theorems:
C01: any_column_membership_refuted, every_history_has_events, history_is_map, remove_absent; C02: none_eligible, query_changes_nothing, returns_best, unreadable_frame; C03: crash_loses_rows, crash_refuted, interleavings, lost_update_refuted, memory_session, open, shared_file_is_one_database, shared_from_nothing, shared_queries, shared_results, unsaved_entry_lost_refuted; C04: frame_reads_cube, link_after_exception_refuted, link_survives, new_dataset_contents, new_dataset_linked, update_atomic_refuted, update_contents, write_defined, write_exact, write_frame_is_write_cube; C05: parent_stays_linked_refuted, selected_frames_leave_parent, slice; C06: deep_copy_equal, deep_copy_independent, shallow_headers_independent_refuted, shallow_headers_shared, shallow_pixels_independent; C07: groups, outcome, partition; C08: chain, consecutive, l4_without_flux_refuted, mixed_levels_stuck, one_step, second_call_raises; C09: chain, first_occurrence_only, injective, new_tag_first, replaces_tag, tags_match_levels, unconventional_names_refuted, untagged_unchanged; C10: record, tree, tree_total; C11: collapse_keyword, group_members, input_unchanged; C12: flags; C13: bit8_lost_refuted, cosmic, dark, flag_nans, flag_nans_refuted, flat, monotone, nan_flags, nonlinearity; C14: bad_pixels, flag256_refuted, idempotent; C15: bit_flag, bit_position, bits_onto, flag_value, pack_fails, pack_pads, pack_unpack, unpack_length, unpack_pack, value_flag; C16: layer_names, layers, rescale; C17: code_bits, codes_distinct, frame_select, sign_bit_refuted; C18: other_failure, other_frames, table, unsupported; C19: fill, fill_raises, generated, jit_skip_refuted, marked, refill_refuted, skipped_not_run, when; C20: calls, calls_failing, empty_save_refuted, recipe_kept, run, run_fails, save, settings, settings_leak_refuted, unknown; C21: failure_keeps_refuted, fresh, no_files_refuted, optional_once_refuted, shared_refuted, template_changed_refuted; C22: distinct, last_extension, name, no_extension_refuted, underscores; C23: calendar, grid, length, monotone, order, raises, stamp, unpadded_refuted; C24: embed, embed_shapes, embed_slice, slice, slice_embed, slice_outside, table_fits; C25: custom_full, custom_image, custom_imaging, custom_rows_refuted, eng_conv_refuted, full_frame, image_area, imaging_area, rejects, tall_imaging_refuted; C26: box_outside_image_refuted, full, image, wrap_short_refuted; C27: filter_rank, plateaus, start_exists, start_unique; C28: division, division_total, gain_list_length, kgain_measured, kgain_unmeasured, lower_capacity, measured_gain_refuted, mixture_refuted, noise, nonlin_checks, nonlin_measured_refuted, nonlin_unmeasured, nonlinearity_fails, one_unmeasured_refuted, policy, policy_unique, saturation; C29: frames, inverse, linear, local, nan, shape, unique; C32: bins, counts, parents_refuted; C33: disjoint, equal_sets_refuted, frame_number, largest_refuted, sort; C34: crop, int_centre_refuted, lsam_refuted, odd, outside, own_star_refuted, sky; C36: combinations, count, terminates, unique; C37: box; C40: linear_drift_refuted, no_drift, ratio_refuted, repeated_unique, second_half_refuted, signals; C41: bins_cover, bins_disjoint, bins_size; C43: again_refuted, code, location, lossless, rebuild_accepts, rebuild_contents, round_trip, rows_distinct, table, two_digits_refuted; C44: applied_once, find_star, find_star_refused, history, independence_refuted, leak, one_kind, rejected_refuted, two_modes, untouched, update, validate_raises, validate_refuted; C45: all_declared, binding, bp_map_skip_refuted, failures, generated, l2b_to_l4_refuted, optional_jit_refuted, result, shipped; C47: bounds, no_table, nodes, relgains, unique; C50: kgain_conserves, kgain_list, kgain_shared_time_refuted, nonlin_conserves, nonlin_stack; C51: numbers; C53: counts_one, two_or_less; C54: file_cards, file_cards_used, library_unique; C56: filter, filter_shipped, nd_ignored_refuted, standard, star; C59: config_crash, config_fresh, config_kept, config_legacy, config_values, damaged_refuted, defaults_missing, defaults_no_directory, defaults_present, defaults_unset, double_percent_refuted, flag_refuted, legacy_key_refuted, legacy_lost_refuted, legacy_reset_refuted, other_database_refuted, percent_refuted, settings, settings_absent, settings_read_only, start_again, start_files, start_fresh, start_present, start_recovers, step_1, step_2, torn_path_refuted, torn_refuted, unregistered_refuted; C60: edge; C62: five, missing, settings, wrong; C63: fails, files, fresh, name, objects, recipes, run, run_object, same_call_refuted, step3, template_refuted; C64: axes_refuted, cards_refuted, case_refuted, err_case_refuted, extend, extend_ready, extend_refused, extend_round, header, join, layers, load, load_ready, load_refused, load_twice, new, new_ready, new_refused, order, path, reload, root_refuted, round_trip, same_place, save, shape_refuted, track_off, track_on, upper; C65: autoload, autoload_nd, autoload_refused, bare_refuted, before, dot_refuted, exclusive, fpam, fpam_round, gain_refuted, inside, load, loaded, made, make, make_can, nd_refuted, no_input_refuted, one_tag, overhead_refuted, params, params_round, read_again, refused, remark_refuted, replace, round_trip, same_name_refuted, save_refused, tag, untyped_refuted; C73: interpolated, own, table; C74: collide_refuted, order, reading, refused, same, shape, sorts, stamp, tenth, zone; C79: bool_refuted, bytes_refuted, empty_refuted, entries, implied, inf_refuted, names, nan_refuted, npbool_refuted, ragged_refuted, raises, returns, scalars, text_refuted, twice; C80: dark_raise_refuted, dark_refuted, detached, gain_refuted, headers, headers_refuted, history, linked, naxis_refuted, others_linked, pixels, result, time_refuted, values; C83: apart, cards, failed_refuted, frame_refuted, history, label, others, parents, parents_refuted, product, relabel_refuted, stale, succeeds.

Exactly `ClassicalDedekindReals.sig_forall_dec` – 16 theorems:
C36: shared_refuted; C37: nan_dark_refuted; C52: conserved; C60: edge_refuted; C62: reads; C68: guess; C69: start; C70: count, each; C71: pairs; C72: window_holds; C73: own_refuted; C77: all_science; C78: names, names_refused; C81: start.

Exactly `FunctionalExtensionality.functional_extensionality_dep` – 1 theorems:
C60: cutout.

Exactly `ClassicalDedekindReals.sig_forall_dec`, `FunctionalExtensionality.functional_extensionality_dep` – 220 theorems:
C12: median_unique, unflagged_nan_refuted, with_nans; C36: far, no_fit_refuted; C37: flat_units, nan_flat_refuted, no_box, units; C38: kl, kl_end, kl_shift_refuted, kl_zero_refuted; C39: box; C41: global, local, median, size_error, small_refuted, sum, total, uniform_light; C42: agreeing, at_least, distinct_times; C49: convert_relative, divide_by_exptime, exptime_rejects, flat_relative; C51: cards, move, move_error, move_integers, move_missing, move_short, others, roundtrip, stale_refuted; C52: count, count_refuted, history, not_four, numbered, order, pixels_once, temps, unique; C53: every_fit, followed, found_distinct, found_one, keys_once, located, noncontinuous, nothing_left, order, unique; C55: between, weights, weights_sum; C56: band_flux, band_flux_bounds, band_flux_scale, color, color_law, color_refuted, color_same, convert_relative, effective, effective_bounds, factor, factor_cards, filter_ambiguous_refuted, pivot_bounds, reference_flux, simpson, simpson_bounds, simpson_exact, simpson_linear, simpson_negative_refuted, spectrum, spectrum_edge_refuted, spectrum_fails, spectrum_own_grid; C57: centroid, centroid_fails, centroid_scale, centroid_symmetric, centroid_within, core, core_nan_refuted, core_scale, core_unit, estimate, lens, lens_constant, mask, mask_same, placement, stamp, stamp_edge, stamp_interior; C60: ascending, descending, order_refuted, padded, table; C61: between, gap, nan_refuted, node, reading, star; C62: accepted, clip_affine, clip_few, clip_nonempty, clip_share, clip_sub, constant_refuted, gains, last_refuted, mode, mode_affine, mode_bounds, mode_near, quiet_refuted; C66: goodness; C67: table; C68: disc_bounds, disc_wider, numpy, optimum_refuted, parabola, parabola_exact, parabola_nan, parabola_shape, paraboloid, paraboloid_exact, paraboloid_mask, paraboloid_nan, paraboloid_shape, unique1, unique2; C69: calibrated, dataset, dataset_refused, flags_refuted, high_order, identity, image, image_refused, inverse_refuted, moves, polynomials, shift, units, units_refuted; C70: field, found, located, oblong_refuted, refused, repeated_refuted, spurious_refuted, unique; C71: count, groups, offset_refuted; C72: background_refuted, inside, place, point, small_refuted, symmetric, window, window_unique; C73: carried_refuted, density, moves, refused, still; C75: best; C76: centre, centre_refused, factor_gauss, factor_gauss_refused, gauss, gauss_refused_iff, guess_refuted, input_refuted, pixels, recovered; C77: apart, flagged, flags_refuted, mode_refuted, name_refuted, order, others, product, product_found, references_refuted, refused; C78: settings, settings_refused; C81: counts, edges_refuted, join, moved, moved_width, order, outside, refused, total, width; C82: blank_refuted, empty, negative_refuted, peak.

Exactly `ClassicalDedekindReals.sig_forall_dec`, `ClassicalDedekindReals.sig_not_dec`, `FunctionalExtensionality.functional_extensionality_dep` – 187 theorems:
C11: groups; C12: depends_on_good_only, error_with_nans, good_samples; C16: order_independent, quadrature; C30: default_table, half_refuted, rejects, trad_dark; C31: rejects, synthesized; C32: dark_pixel, flags; C35: injection, north_up, offset, polar_dist, roll, roll_refuted, wcs; C37: few_hot, in_use, map, noise_map, shapes; C38: crop_refuted, injected, other_method, psf, round_refuted, throughput, throughput_total; C39: all_nan, map, mask_refuted; C42: dictionaries, no_shape, refuses, shared_times_refuted; C48: master_dark, mixed_settings, noise_maps, other_type, synth_reuse_refuted; C49: convert_to_electrons, flat_division, layers_lost_refuted, photon_noise; C54: accepted, accepted_refs, centre_refuted, names_distinct, read, references_unchecked, refused; C55: centred, edge_refuted, fails, flat, kernel, mask_irrelevant, mean, moved, order_refuted, size, uranus_refuted; C56: color_cards, convert, convert_first_refuted, pivot; C57: cube, first_frame_refuted, pairs, product, ragged_refuted; C58: bias_refuted, exact, flagged_values, frame_order, gain_check_refuted, lost_setting_refuted, nan_refuted, order_refuted, pattern, plain_prescan, pooled_error_refuted, product, settings_refuted, sign_refuted, signs, works; C60: background, background_shift, clear, injections, noise, noise_local, noise_number, noise_raises, noise_shift, noise_times, noise_value, targets_one; C61: flux, start_refuted; C62: brightest_refuted, calibrated, cells, clip, curve, first_refuted, noise_refuted, positive, rising, set; C66: swap; C68: angle, cost, disc, disc_inside, disc_outside, disc_refused, follows, found, joint, joint_fails, joint_missing, light, mask, mask_refuted, narrow, negative_refuted, no_steps, no_turn, nothing, same_light, separation_unique, shapes, spots_refuted, star_unique, whole; C69: angle_unique; C71: boresight, north_up, pointing, right_ascension_refuted; C72: exact, mask, mask_default, mask_square, mask_turns, mask_walls, oblong_refuted, offset, refused; C75: places; C76: aperture, aperture_refused, brighter, brighter_factor, defaults, factor, factor_refused, flagged, flagged_refuted, sky, sky_refuted, wcs_refuted; C78: float_refuted, nan_refuted, norm_refuted, order_refuted, start_refuted; C81: bell, card_refuted, nothing_refuted, sign_refuted; C82: all, apart, injected, louder, missing, model, order, sum, turn.

Exactly `ClassicalDedekindReals.sig_forall_dec`, `ClassicalDedekindReals.sig_not_dec`, `Classical_Prop.classic`, `FunctionalExtensionality.functional_extensionality_dep` – 135 theorems:
C32: detection, error_defined, error_refuted, inverse, mean_nonneg, newton, run, safemode_refuted, solution; C35: angle, angle_none, angle_python, inverse, inverse_back, north_angle, north_angle_refuted, north_recovered, northup, star_refuted; C36: columns_refuted, match; C38: azimuth_refuted, get_psf, get_psf_error, radius_refuted; C39: default, distinct, done, failed, small_psf_refuted, terminates, terminates_refuted; C46: calibration, factor_only_refuted, flag_refuted, inputs, repeat_refuted, rows; C51: header; C56: app_mag, app_mag_image, app_mag_scale, error_refuted, flux, irradiance_refuted, magnitudes_refuted, round_trip, vega_mag, vega_zero, zero_point; C57: azimuth_refuted, interpolate, interpolate_node, interpolate_within, map, map_file_refuted, repair_refuted; C60: blocked, repeated, throughput, unsupported; C61: alone, counts, curves, density_refuted, even_refuted, first, float_refuted, level, nonneg, own_refuted, scaled, succeeds; C66: bounds, equal, estimate, estimate_refuted, fit, label, label_refuted, nearer, peak, recover, refused, shape, sound, starts, starts_nonzero, starts_refuted, top; C67: all, all_refused, colder, determined, energy, fit, perfect, poor_refuted, positive, recovered, refused, scale, shift, sigma, tau, total, within; C69: centre_refuted, no_worse, opposite_refuted, order_refuted, perfect, residuals, residuals_refused, undistorted; C71: calibration, combined, combined_distortion, no_central, north_refuted, refused; C75: calibration_law, host_law, magnitudes, nd_refuted, refused, rows, zp_refuted; C78: counts, entries, linear, norm, refused, renorm, table.

## What is modelled

The header of each model file, which also names its simplifications; every definition in it cites its lines.

* `Base.v` – Shared vocabulary of the model: Python exceptions as values, and the numpy / Python list primitives used by several modelled functions.
* `CalDBModel.v` – Model of the calibration database, corgidrp/caldb.py.
* `DatasetModel.v` – Heap model of Dataset and Image objects, corgidrp/data.py 19-246, 492-583. numpy arrays are buffers on a heap; an array attribute of a frame is a view (buffer, block index). A buffer is a list of blocks (one per frame), a block is a list of layers (one for data and dq, one or more for err), a layer is the list of its pixels (flattened). Pixel values are abstract; [quad a b] stands for sqrt(a**2 + b**2) and [mul] for multiplication. Only frames with 2-D data are modelled.
* `SplitModel.v` – Dataset.split_dataset, corgidrp/data.py 200-246, on the heap of DatasetModel. Header values are compared as values of one ordered type (the model's header values are strings); the order pandas uses for sorting the groups is the parameter [leb]. numpy's promotion of a mixed-type table to strings and its float/int conversion are not modelled.
* `LevelModel.v` – The data level updates update_to_l2a (l1_to_l2a.py 332-363), update_to_l2b (l2a_to_l2b.py 427-457), update_to_l3 (l2b_to_l3.py 112-143), update_to_l4 (l3_to_l4.py 751-789) and update_to_tda (l4_to_tda.py 397-428), on the heap of DatasetModel.
* `CombineModel.v` – Parent file records (data.py 468-490) and frame combination (combine.py).
* `CosmicModel.v` – Cosmic ray flagging: detector.py find_plateaus 511-551, flag_cosmics 376-509, calc_sat_fwc 553-571, and l1_to_l2a.py detect_cosmic_rays 160-286. Pixel values, thresholds and well capacities are rationals (finite).
* `FloatModel.v` – Floating point values with infinities and NaN: numpy float arithmetic with the finite values taken as exact rationals (no rounding, no overflow) and a single, unsigned zero.
* `NonlinModel.v` – Relative gains: detector.py get_relgains 16-79.
* `DqModel.v` – The steps that write DQ flags or use the EM gain of each frame: l1_to_l2a.py correct_nonlinearity 288-331 and the flag part of detect_cosmic_rays 160-286; l2a_to_l2b.py dark_subtraction 45-116, flat_division 118-155, em_gain_division 288-327, correct_bad_pixels 347-387; detector.py nan_flags 573-594, flag_nans 596-613. A frame is its list of pixels (value, DQ) with the error layers and the header cards the steps read. Frames are values here; what the copies and views of a dataset do is in DatasetModel. Error maps are modelled only in em_gain_division (the error terms of the other steps are C16).
* `BitsModel.v` – data.py unpackbits_64uint 2598-2611, packbits_64uint 2613-2624 and the flag maps 2626-2681. Arrays are one-dimensional (or any axis other than the packed one is fixed): axis must be the last axis, along which .view('u1') expands each element into its 8 bytes.
* `SelectModel.v` – frame_select, corgidrp/l2a_to_l2b.py 157-254. A frame carries its DQ values (64-bit integers, as Z), the header cards the function reads or writes, its HISTORY and any further content (data, err, other cards) of an arbitrary type. The numbers printed in the history message are dropped: an entry records, for each bad frame, its file name and the list of its rejection reasons. Frames are values: the copy at 176 is a deep one (DatasetModel).
* `DesmearModel.v` – desmear, corgidrp/l2a_to_l2b.py 388-425. An image is its list of rows, all of the same length. The header card DESMEAR and the history message are not modelled; errors and DQ are not touched.
* `GeomModel.v` – Detector geometry: detector.py detector_areas 81-235, slice_section 237-262, embed 264-288, unpack_geom 290-316, imaging_area_geom 318-350, imaging_slice 352-375; and l1_to_l2a.py prescan_biassub 6-158. A two-dimensional array is its list of rows (all of the same length). Pixel values are abstract. In prescan_biassub the dataset is a list of frames: that the output shares its headers with the input is in DatasetModel (copy with copy_data False).
* `DarkModel.v` – Master darks and their subtraction: corgidrp/darks.py mean_combine 10-125, build_trad_dark 127-259, build_synthesized_dark 759-871; l2a_to_l2b.py dark_subtraction 45-116; data.py 1071-1079 (planes of the noise maps). Images are lists of rows. Data are [fl] (exact rationals, infinities, NaN); errors are real numbers or NaN ([None]), because of the square roots; only error layer 0 is modelled here (the others: C16). Headers are reduced to the cards read; history, file names and what the constructors write into the headers are not modelled.
* `UnitsModel.v` – The photometric steps with their error maps: corgidrp/l2a_to_l2b.py add_photon_noise 8-43, flat_division 118-155, convert_to_electrons 256-286; l2b_to_l3.py divide_by_exptime 73-110; data.py add_error_term 528-560 and rescale_error 562-583 on values. A frame is its list of pixels, its error layers (layer 0 is the combined error), and the header cards read. Numbers are reals; [None] stands for any value that is not a finite number (NaN or, after a division by zero, infinity). Headers, history and layer names: C08, C16.
* `StackModel.v` – Stacks of calibration frames: corgidrp/calibrate_nonlin.py nonlin_dataset_2_stack 834-931, the checks 265-322 and the illumination drift correction 493-683 of calibrate_nonlin; corgidrp/calibrate_kgain.py kgain_dataset_2_list 796-915. Header numbers are exact rationals. The pixels of a frame are an abstract value; frames of one dataset have one shape, so np.stack and np.vstack only concatenate.
* `DriftModel.v` – Illumination drift correction of calibrate_nonlin, corgidrp/calibrate_nonlin.py 501-683, for one EM gain. A frame is its exposure time, its seconds since the first frame of the set (521) and its signal frame_mean1 (562-576, 592-608, 623-634: masked mean, not modelled; [None] is nan). Exact rationals; [None] also stands for the infinities of divisions by zero.
* `WalkModel.v` – The pipeline walker: corgidrp/walker.py guess_template 230-302, _fill_in_calib_files 183-228, autogen_recipe 106-181, save_data 305-344, run_recipe 348-441. A recipe is the JSON object the functions read: dictionaries are association lists in insertion order. Strings are ASCII (str.upper and str.lower act character by character). What a step computes, loading a file, loading a calibration and looking one up in the database are parameters.
* `RecipeData.v` – The shipped recipe templates and the step functions they may name, as data. Transcribed by a script from corgidrp/recipe_templates/*.json, from walker.all_steps (corgidrp/walker.py 25-61) and from the definitions of the functions listed there.
* `RecipeModel.v` – Calls of step functions from recipes: Python's binding of arguments to parameters for step_func(curr_dataset, *calibs, **keywords) (corgidrp/walker.py 411-440), and what each registered function takes and returns. Simplification: of a dataset only its kind and the data level of its frames are kept here.
* `TimeModel.v` – FTIMEUTC stamps: corgidrp/data.py format_ftimeutc (2504-2546). The part of Python's datetime used there is modelled as documented: a naive datetime is its seven fields; adding a timedelta goes through the proleptic Gregorian ordinal (datetime.toordinal, date.fromordinal, the algorithms of the standard library's datetime.py). datetime.fromisoformat is an arbitrary function from the text to a datetime and a UTC offset.
* `PcModel.v` – Photon counting: corgidrp/photon_counting.py. An image is the list of its pixels (the 2-D shape plays no role here); analog data and their error are rationals or NaN ([None]), counts are integers, corrected means are reals. EXPTIME, EMGAIN_C, KGAINPAR and RN are compared as numbers. Warnings, history and header cards not named are left out. PhotonCountException and plain Exception are both [PyException].
* `SortModel.v` – Sorting of pupil-imaging frames: corgidrp/sorting.py. A dataset is the list of its frames; the selected frames are returned by position. Exposure times and gains are rationals compared by value. np.argsort is a stable sort here (numpy leaves the order of equal ids open). Messages are left out.
* `CropModel.v` – Cropping: corgidrp/l3_to_l4.py crop 271-400. An array of planes is the list of its planes, a plane the list of its rows. A 2-D frame has one plane, a 3-D frame any number. The height and width of the data are fields; the constructor of Image makes the shapes of err and dq agree (data.py). sizexy is absent, one int or a pair, centerxy absent, one int, one float or a pair; other lengths and numpy scalars are not modelled, nor NaN. Frames are copies of the input's (C06). UserWarning is raised as an exception. The history text is left out.
* `AngleModel.v` – Angles: corgidrp/astrom.py angle_between 210-236, get_polar_dist 239-252, seppa2dxdy 255-269, seppa2xy 272-290, the north angle of compute_platescale_and_northangle 763-800; corgidrp/l2b_to_l3.py create_wcs 7-71; corgidrp/l3_to_l4.py northup 645-749; the injected position of corgidrp/klip_fm.py inject_psf 48-89. Floats are real numbers: no rounding, no infinities, no signed zero. NaN is None. [atan] is Coq's, with values strictly between -pi/2 and pi/2.
* `ComboModel.v` – Combinations and star matching: corgidrp/astrom.py compute_combinations 182-208, match_sources 414-572. compute_combinations is modelled for one-dimensional arguments (a range, or a table, the two uses in the code), of length [n], where the pool is 0 .. n-1, and for r >= 0 (a negative r acts like 0). The generator's endless loop runs on fuel; None means the fuel was used up. Its tuples are lists.
* `BpmModel.v` – The bad pixel map: corgidrp/bad_pixel_calibration.py create_bad_pixel_map 5-59, detect_hot_warm_pixels_from_dark 61-82, detect_dead_pixels_from_flat 84-138. Images are lists of rows of equal length with at least one row; a value is a real number or NaN ([None]); infinities and rounding are not modelled. fwidth is an integer. The headers, history, file name and parents of the product (51-57) are not modelled here (C09, C10). A noise map instead of a dark is replaced by the synthesized dark made for the flat's settings (27-29: C31).
* `NearModel.v` – Nearest-neighbour lookups: corgidrp/corethroughput.py get_1d_ct 416-454, klip_fm.py get_closest_psf 12-44, data.py CoreThroughputCalibration.GetPSF 1845-1986, measure_companions.py 436-445 (throughput of a KL mode). Floats are real numbers (no NaN, no rounding). The positions of the table (ct_excam) are a list of points; the PSFs are of any type.
* `FindModel.v` – The source search: corgidrp/l4_to_tda.py find_source 431-494, find_source.py make_snmap 5-38 and psf_scalesub 41-73. Images are lists of rows of equal length; a value is a real number or NaN ([None]); infinities and rounding are not modelled. pyklip's calculate_cc and get_image_stat_map_perPixMasking are oracles ([cc], [stat]), as is the scale np.nanmedian(window / psf) ([scale]). The PSF is a square array.
* `CardModel.v` – The cards of detected sources: written by corgidrp/l4_to_tda.py find_source 490-492, read by measure_companions.py parse_companions 237-255, moved by update_companion_location_in_cropped_image 467-494. A header is the list of its cards with a text value, keywords in capitals as astropy keeps them; cards with another value are not modelled. float() is modelled for an optional sign, digits and at most one point, surrounded by blanks; the exponents, underscores, inf and nan it also accepts are refused by the model. A number formatted .1f is rounded half to even from its exact value.
* `IllModel.v` – Non-uniform illumination: corgidrp/pump_trap_calibration.py illumination_correction 187-262. An image is a list of rows of equal length; a value is a real number or NaN ([None]). Infinities and rounding are not modelled; neither are the checks on the type of the elements and of ill_corr.
* `DipoleModel.v` – Dipoles of trap pumping: corgidrp/pump_trap_calibration.py trap_id 334-549. A frame is a list of rows of equal length of real numbers; NaN, infinities and rounding (also that of the sum of fractions before np.ceil) are not modelled. A dictionary is a list of keys and values; the order of its keys, that of a Python set in the code, is here that of the pixels.
* `TrapModel.v` – The table of traps: corgidrp/pump_trap_calibration.py create_TrapCalibration_from_trap_dict 3178-3299, rebuild_dict 3301-3335. A dictionary is a list of keys and values without two equal keys; the cells of the table that are copied are of any type [V]. Simplified: the first four columns hold integers (as they do if the dictionary comes from tpump_analysis), a trap has all five entries that are read, and the header of the product is not modelled.
* `StarModel.v` – Tuning parameters of the search for the star: corgidrp/star_center.py validate_satellite_spot_parameters 95-138, update_parameters 141-179, corgidrp/l3_to_l4.py find_star 95-268. A dictionary is a list of keys and values without two equal keys. The values [V], the images [D], the guesses [G] and the location [L] are of any type; the median images and star_center.star_center_from_satellite_spots (which does not write to its parameters) are one function [locate] of the science images, the spot images, the guesses and the parameters.
* `NdModel.v` – The ND filter calibration: corgidrp/nd_filter_calibration.py group_by_keyword 33-65, compute_avg_calibration_factor 128-157, _compute_od_for_file 164-222, process_bright_target 225-307, create_nd_sweet_spot_dataset 310-352, create_nd_filter_cal 404-527. Floats are real numbers; NaN is None. The order of header values used by pandas to sort groups is an arbitrary [leb]. Not modelled: the data views that slicing rebuilds (C05), the print-outs and the warning, overall_avg_od (computed, printed, dropped), and the history and parent cards.
* `LocModel.v` – Sub-electrode location of traps at one temperature: corgidrp/pump_trap_calibration.py tpump_analysis 2286-3043 (_el_loc_coords2 2730-2748, _el_loc_coords3 2750-2771, _el_loc_2 2773-2863, _el_loc_3 2865-2966). Floats are real numbers. The dictionaries are lists of keys and values without two equal keys. The curve fits (trap_fit, trap_fit_const) are inputs; the pixels of rc_both are already entered among the pixels above and below (2677-2682). The order in which Python goes through a set of pixels is an arbitrary permutation [order].
* `TrackModel.v` – Traps followed over the temperatures: corgidrp/pump_trap_calibration.py tpump_analysis 3045-3121. Floats are real numbers; dictionaries are lists of keys and values without two equal keys. The fit of the energy and cross section (fit_cs, 3125-3129) and what follows it are not modelled.
* `KlipModel.v` – Input of the PSF subtraction: corgidrp/data.py PyKLIPDataset.readdata 2140-2324, savedata 2326-2408. Images are of an arbitrary type with [align], pyklip.klip.align_and_scale, an arbitrary function of the image, the new and the old centre. Header numbers are integers or rationals (floats); the pixels are floats. The wavelengths are kept exact (2240: astype(float32)).
* `FlatModel.v` – Flat fields: corgidrp/flat.py 17-41 create_flatfield, 43-74 raster_kernel, 76-99 flatfield_residuals, 101-172 combine_flatfield_rasters, 175-266 create_onsky_flatfield; the header cards of data.py 691-714. An array is its shape and its values at the indices; a value is a real number or None: NaN in the data, NaN or infinite after a division. The truncated centre of mass of an image, [centre], and the Gaussian filter, [gauss], are arbitrary functions. Frames do not share arrays. Of the extension header the text cards are kept; not modelled are the history, the parents, the file name, the version and the time.
* `FluxModel.v` – Fluxes and magnitudes: corgidrp/fluxcal.py 18-272 (spectra, band integrals, colour correction), 412-615 (flux calibration factors); l4_to_tda.py determine_app_mag 15-85, determine_color_cor 87-136, convert_to_flux 138-170, determine_flux 320-388, calculate_zero_point 496-536; data.py FluxcalFactor 1362-1402. Numbers are reals; [None] stands for any result that is not a finite number. Once a number has been divided by zero the result is None, also where further arithmetic with infinities would give a number. Files, the network and the photometry of an image are given by an environment. History, parents, file names and the time are not modelled.
* `CtModel.v` – Core throughput: corgidrp/corethroughput.py 11-236 (positions and throughputs of off-axis PSFs), 238-414 (calibration product), 457-541 (throughput map); astrom.py centroid_with_roi 38-82; data.py CoreThroughputCalibration 1530-1690 (construction, position of the mask) and 1692-1843 (interpolation). Arrays and values are those of FlatModel: a value is a real number or None. Files with curves are given by an environment; scipy's LinearNDInterpolator is an arbitrary function. The radius of the region of interest is a natural number. The list of target locations is an array. Frames do not share arrays. Of the headers only the cards named here are modelled; history, comments, parents and file names are not.
* `NoiseModel.v` – Noise maps: corgidrp/darks.py calibrate_darks_lsq 263-757 (with mean_combine 10-125). A frame is its image, an array of FlatModel (a value is a real number or None, NaN), the first layer of its errors, its DQ and the header numbers that are read; EXPTIME, EMGAIN_C and KGAINPAR are present. The frames of a dataset have one shape (its constructor). Numbers are exact reals: no rounding. CalDarksLSQException, numpy's LinAlgError and the plain Exception of slice_section are all [PyException]. A shape that numpy would broadcast to that of the detector is refused. Not modelled: the estimates that are computed and dropped (read noise, correlation, coefficient of determination, variances and means of the image area), warnings, headers other than the bias offset, parents and the file name.
* `SetupModel.v` – Start-up: corgidrp/__init__.py create_config_dir 10-54, update_pipeline_settings 57-76; corgidrp/caldb.py initialize 365-392; corgidrp/ops.py step_1_initialize 7-18, step_2_load_cal 20-33; corgidrp/data.py autoload 2564-2596 as far as it succeeds or raises; and the part of Python's configparser they use. Texts are lists of characters. The disk is ~/.corgidrp (absent, a file of the old kind, or a folder with a configuration file or without), directories with their files, and database files. Each change of the disk is recorded, so that a crash can be put after any of them; a file is open for writing before it is complete. Simplifications: a database file can always be created; directories have no subdirectories; a section DEFAULT is like any other; a value with %(name)s is refused like other uses of a single %; all exceptions of configparser and of the file system are [PyException].
* `ThruModel.v` – Throughput of the PSF subtraction: corgidrp/klip_fm.py measure_noise 93-154, meas_klip_thrupt 157-518. An array is its shape and its values at the indices (FlatModel); a value is a real number or None: NaN, or infinite after a division. Floats are not rounded. Arbitrary are the frames and the PSF injection into one, [inject] (its places and its choice of a PSF are in AngleModel and NearModel), pyklip and the file it leaves, [klip], and pyklip's Gaussian fit, [fit]. A Dataset is not empty.
* `FrnModel.v` – Flux ratio noise curve: corgidrp/l4_to_tda.py compute_flux_ratio_noise 177-316. Values, arrays and measure_noise as in ThruModel. Arbitrary are the star frames with the kernel density estimate and photutils' fit_2dgaussian on one, [gauss]: from the shape fitted and the start position (xypos) to the sources found with their x, y and flux; and the optical density of the ND filter at a point, [od]. scipy's interp1d sorts the abscissae (stable) and extends the outermost lines. The tables have a fixed number of columns, requested_separations is not empty; the warnings and the header of the new extension are left out.
* `KgainModel.v` – K gain calibration: corgidrp/calibrate_kgain.py 32-71 check_kgain_params, 78-130 ptc_bin2, 132-152 diff2std, 228-245 calculate_mode, 247-271 sigma_clip, 275-795 calibrate_kgain. An array is its shape and its values at the indices (FlatModel); a value is a real number or None: NaN, or infinite after a division. Floats are not rounded. Arbitrary are the reliable prescan of a difference, [prescan] (its geometry is in SliceModel), and the width of the Gaussian fitted to its histogram, [width]. The sets of frames, the frames of the mean and the gain are what kgain_dataset_2_list makes of the dataset (StackModel); all frames have one shape. Not modelled: the plots, the warnings, the headers but for the read noise; the constructor of the product.
* `DriveModel.v` – The whole call: corgidrp/walker.py 65-104 walk_corgidrp, corgidrp/ops.py 34-48 step_3_process_data. Built on WalkModel (autogen_recipe, run_recipe). What loading a file gives depends on the files written before; within the run of one recipe it does not change. Template files are not overwritten. The CPGS file is not read (64: the argument is unused).
* `DiskModel.v` – Frames and FITS files: corgidrp/data.py 276-430 Image.__init__, 436-466 save, 601-617 add_extension_hdu. A FITS file is a primary header and a list of HDUs, each a header and an array; what is written is what is read (astropy). Headers are lists of cards, with the HISTORY and COMMENT cards apart; keywords are upper case. Arrays are a shape and the values in C order, of an arbitrary type with a zero.
* `ProdModel.v` – Calibration products: corgidrp/data.py 468-489 _record_parent_filenames, the constructors of the product classes (Dark 632-679, FlatField 691-721, NonLinearityCalibration 766-817, KGain 838-940, BadPixelMap 955-992, DetectorNoiseMaps 1014-1079, DetectorParams 1100-1219, AstrometricCalibration 1254-1292, TrapCalibration 1311-1343, FluxcalFactor 1362-1435, FpamFsamCal 1469-1529, CoreThroughputCalibration 1557-1644, NDFilterSweetSpotDataset 2434-2486), KGain.save 910-940, datatypes and autoload 2549-2596. A constructor is called with a path alone, or with an array and both headers. Values of cards in texts are written by an arbitrary function; the set of parent names is enumerated in an arbitrary order; the default matrices of FpamFsamCal and multiplication by zero are arbitrary.
* `PumpModel.v` – Fits of the trap-pumping amplitudes against the phase time: corgidrp/pump_trap_calibration.py P1..P2_P3 31-186, trap_fit 552-1198, trap_fit_const 1200-1989. Floats are real numbers without rounding. Not modelled: arguments of other types than numbers, lists of numbers and a dictionary with 'amp' and 't' (refused by the checks); infinite and NaN arguments (curve_fit refuses arrays with them); fitted time constants that are exactly zero. scipy's curve_fit is an unknown: it is given the model function, the data, the bounds and the starting point, and either raises or returns as many parameters as the starting point has, and the diagonal of the covariance, where None is the infinity it puts when the covariance cannot be estimated. [curve3] is curve_fit with three parameters (one trap), [curve5] with five (two traps).
* `TauModel.v` – Energy level and cross section of a trap from its release times: corgidrp/pump_trap_calibration.py tau_temp 262-293, sig_tau_temp 295-332, fit_cs 1991-2119, and the end of tpump_analysis 3115-3163. Floats are real numbers without rounding. A result that numpy would make infinite or NaN (division by zero, root of a negative number) is None. Not modelled: arguments of other types than numbers and lists of numbers (refused by the checks); the warnings. scipy's curve_fit is an unknown: it is given the temperatures, the release times, their errors, the bounds, the starting point and absolute_sigma, and either raises (None) or returns two parameters and the diagonal of the covariance, where None is infinity; the entries of that diagonal are not negative.
* `SpotModel.v` – Location of the star between satellite spots: corgidrp/star_center.py circle 182-257, find_optimum_1d 260-294, find_optimum_2d 297-386, _roi_mask_for_spots 389-483, _cost_func_spots 486-505, calc_star_location_and_spot_separation 508-620, calc_star_location_from_spots 623-763, calc_spot_separation 766-903, star_center_from_satellite_spots 906-1036; corgidrp/l3_to_l4.py find_star 235-237. Floats are real numbers without rounding; None is NaN or an infinity, and any arithmetic with it gives None, any comparison with it is false. An array of [ny] rows and [nx] columns is a function of the row and of the column, read inside its shape only. np.polyfit of order 2 and np.linalg.lstsq are unknowns that may raise; so is scipy's minimize. Numbers of steps, of iterations and of subpixels are natural numbers (negative ones are refused by numpy or by range as zero is). The dictionary of tuning parameters has all its keys, except where noted.
* `BendModel.v` – Distortion of images: corgidrp/l3_to_l4.py distortion_correction 20-90; corgidrp/astrom.py fit_distortion_solution 574-668, compute_distortion 961-1001 and the coefficients without distortion of boresight_calibration 1141-1146. Floats are real numbers without rounding; None is NaN or an infinity, and any arithmetic with it gives None. An image is a function of row and column, read inside its shape only (SpotModel). numpy's legval2d is the sum of products of Legendre polynomials; integers of numpy are of 64 bits and wrap. scipy's map_coordinates and leastsq are unknowns. The frames of a dataset have their data, errors, flags and history; other headers are not touched.
* `PeakModel.v` – The search of stars in an image: corgidrp/astrom.py find_source_locations 293-413. Floats are real numbers without rounding; None is NaN. An image is a function of row and column, read inside its shape only (SpotModel). pyklip's gaussfit2d is an unknown function of the frame and the guess. Of the width of the mask only values above -1 are modelled: of others Python's negative slice bounds would have to be followed.
* `BoreModel.v` – The astrometric calibration of a dataset: corgidrp/astrom.py compute_boresight 803-888, format_distortion_inputs 890-959, boresight_calibration 1004-1166. Floats are real numbers without rounding; None is NaN, and any arithmetic with it gives None. Unknown functions: [solve] (find_source_locations, match_sources and compute_platescale_and_northangle of one frame: the matched stars, plate scale and north angle, numbers), [gauss] (pyklip's gaussfit2d), [sky2pix] (astropy's projection of a header), [offset_of] (measure_offset), [sky_sep] and [sky_pa] (separations and position angles of SkyCoord), [leastsq]. The headers and file names of the products are those of C65; the checks of types are not modelled, and CDELT, which a header with CD does not use, is left out. A card of a header refuses a NaN (ValueError): the corrected position of a frame is written as a card with the right ascension as value and the declination as comment (1155-1157), and only the former is looked at. [frames_to_combine] is positive: with others the loop of 1064-1077 does not end or fails.
* `ShiftModel.v` – The offset of two stars in an image, and circular masks: corgidrp/astrom.py centroid 17-36, shift_psf 84-106, measure_offset 108-180, create_circular_mask 1169-1192. Floats are real numbers without rounding; None is NaN or an infinity, and any arithmetic with it gives None. An image is a function of row and column, read inside its shape only (SpotModel); slices with negative bounds are those of Python. scipy's map_coordinates is an unknown function [mapc] of the image and of a row and column, and curve_fit an unknown [fit] of the template as a function of its three parameters, of the data and of the start, that returns the three parameters and the diagonal of the covariance, or raises.
* `OdModel.v` – The optical density of an ND filter at a new place: corgidrp/nd_filter_calibration.py load_transformation_matrix_from_fits 17-31, interpolate_od 68-95, calculate_od_at_new_location 355-402; corgidrp/data.py NDFilterSweetSpotDataset 2454-2465 and interpolate_od 2488-2502. Values are those of FlatModel: a real number or None (NaN). scipy's interpolations are unknown functions of the places, of the values and of the place asked for, that may raise: [linear] (LinearNDInterpolator, which griddata uses for its method 'linear'), [nearest] and [cubic]. Places are asked for one at a time. An HDU has no data, or a matrix of numbers given by its rows; a matrix has rows of one length. The centroid is that of C57.
* `UtcModel.v` – File time stamps: corgidrp/data.py format_ftimeutc 2504-2548. datetime.fromisoformat is an unknown function [parse] that gives a naive date and time with its offset from UTC in microseconds, if any, or nothing where it raises ValueError. The arithmetic of datetime is that of CPython's Lib/datetime.py (_days_before_year, _ymd2ord, _ord2ymd, datetime.__add__); its OverflowError is [PyException]. The rounding 100000 / 2 is exact in floating point. %Y is taken to have four digits for years below 1000 too.
* `CompModel.v` – The measurement of companions: corgidrp/measure_companions.py measure_companions 15-234, measure_counts 258-279, get_photometry_kwargs 281-300. Values are those of FlatModel: a real number or None (NaN or an infinity), and any arithmetic with None gives None. Unknown functions, that may raise: pyklip's gaussfit2d [gauss] of an image, the guessed x, y, width and height (search radius 7, refined); GetPSF of the core throughput calibration [psf_at] (C38) of the place relative to the star; the optical density of the ND calibration [od] (C73); the magnitude of the host star from its spectrum [host_mag] (C42); the two photometries of an image about a place [aper] and [gauss2d]. Positions are real numbers. KL_THRU has a row of separations, which increase, and a row of throughputs for each KL mode. What astropy's Table does with no rows, and printing, are not modelled.
* `PhotModel.v` – Photometry of a star and the flux calibration factor: corgidrp/fluxcal.py aper_phot 275-344, phot_by_gauss2d_fit 347-409, calibrate_fluxcal_aper 412-517, calibrate_fluxcal_gauss2d 520-612; astrom.py centroid_with_roi 38-82 with an initial guess; data.py FluxcalFactor 1345-1436. Values are those of FlatModel: a real number or None (NaN or an infinity). Unknown functions, that may raise: the pixel of the target from its coordinates and the WCS, counted from 0, [wcs_at]; photutils' LocalBackground of the radii [local_back]; the share of each pixel in the aperture [overlap] (None: the aperture misses the image), of the method and the number of subpixels; its Gaussian fit [gauss_fit]; the curves of the filter and the star [curves] (C42), with the flux and the irradiance in the band. do_photometry sums the share times the value over the pixels of positive share that are not masked, and errors in quadrature with the same shares, as in photutils. The radius of the region of interest is a natural number. Of the headers only the cards named here are modelled, those of texts and of one number; history, parents, file names, version and time are not.
* `PsubModel.v` – A PSF subtraction as a whole: corgidrp/l3_to_l4.py do_psf_subtraction 402-643; detector.py nan_flags 573-594 and flag_nans 596-613 as used there; data.py split_dataset 200-246 with the card PSFREF. Unknown functions, that may raise: the cropping of a dataset [crop] (C34), pyklip with the dataset it is given and the file it leaves [klip] (its input is C54), the measurement of the throughput [thrupt] (C60) with the separations in the first row of its table, and the core throughput at separations [core]. Frames are images of two dimensions, their flags integers, their pixels real numbers or None (NaN). Headers are lists of cards with texts or numbers; history, comments, parents, version and times are left out, as is the making of the output directory. PSFREF is a number (NaN: None) or a text; with a text among them numpy makes texts of all. Datasets are copied before they are changed (C06).
* `NlTabModel.v` – The table of nonlinearity: corgidrp/calibrate_nonlin.py check_nonlin_params 46-116 and calibrate_nonlin 235, 325-353, 368-376, 380-397, 444-471, 553-576, 693-733, 761-838. Unknown functions, that may raise: numpy's histogram [hist] (its bins as pairs of left edge and count), the straight line of polyfit [fit] (slope and intercept), the smoothing [lowess] of the gains against the signals (the second column of what it returns, that is ordered by signal) and interp1d with extrapolation [interp]. The checks of stacks and exposure times before (265-322) are C50, the drift correction that gives the corrected signals of a gain in the order of their exposure times is C40. Values are real numbers or None: NaN, or infinite after a division by 0. Settings are integers or floats (of Python), infinities left out, or something else; regions have no negative numbers. CalNonlinException is PyException. Plots, print-outs and warnings are left out.
* `ChkValModel.v` – Checks of arguments: corgidrp/check.py 10-383 (all of it). Values of Python: None, bools, ints, floats, complex numbers, fractions, numpy's scalars, texts, bytes, dictionaries, classes, lists and tuples [PSeq], numpy's arrays and other objects. Left out: Decimal, lists nested deeper than numpy allows, objects that say themselves how they become arrays. numpy's asarray is modelled up to the kind of the dtype: the kinds i, u and f are one, and the entries are as they were given. The kinds form a chain along which numpy promotes.
* `AliasModel.v` – The steps from L1 to L3 as programs on the heap of DatasetModel: corgidrp/l1_to_l2a.py 6-366, l2a_to_l2b.py 8-459, l2b_to_l3.py 7-148. What a step does to arrays, headers and frame objects is modelled in full; what it computes (pixels, values of cards, gains, decisions, texts of messages) is an argument, a function of the heap and the dataset at that moment that may raise. The numbers themselves are the matter of C13, C14, C25, C26, C29, C47, C48 and C49. Left out: file names (C08, C09), extensions beyond data, err and dq, and the file that dark_subtraction writes. If a copy raises, the heap is left as it was.
* `RnHistModel.v` – The read noise from a Gaussian: corgidrp/calibrate_kgain.py 154-226 gauss, sgaussfit, Single_peakfit, histc_roi and their use in calibrate_kgain, 458-459 and 519-524; np.histogram of an array with given edges. A pixel is a real number or None: NaN, or an infinite value, which like NaN is in no bin. Floats are not rounded. The reliable prescan is the list of its pixels (its geometry is in SliceModel). scipy's curve_fit, [fit], is arbitrary: from the locations, the counts and the starting values it makes amplitude, mean and width, or it raises (as for fewer than three bins). Not modelled: the second value of sgaussfit, which Single_peakfit does not use.
* `InjModel.v` – The injection of a PSF: corgidrp/klip_fm.py inject_psf 47-90, and injections one after the other as meas_klip_thrupt makes them. An array is its shape and its values at the indices (FlatModel); a value is a real number or None: NaN, or infinite after a division. Floats are not rounded. The frame is its array and the three cards that are read. The table of core throughput is a list of positions and a list of PSFs. Arbitrary is pyklip's inject_planet, [paint]: from the array, the centre, the model, the separation and the angle it makes the new array, or it raises. The copy of the frame is the value returned (the heap is in DatasetModel). Not modelled: the corners 79-85, which nothing reads.
* `ReuseModel.v` – The ends of four calibrations, on the headers of the caller: corgidrp/calibrate_kgain.py 775-794 calibrate_kgain, corgidrp/calibrate_nonlin.py 825-832 calibrate_nonlin, corgidrp/darks.py 247-259 build_trad_dark, corgidrp/pump_trap_calibration.py 3291-3299 create_TrapCalibration_from_trap_dict, with the constructors they call (corgidrp/data.py 340-425 Image, 632-679 Dark, 766-817 NonLinearityCalibration, 838-905 KGain, 1311-1343 TrapCalibration). These hand the extension header of the first frame, the object itself, to the product, so that it is written to through the frame and through the product. The heap is a function from addresses to extension headers; frames and products hold addresses. Simplified: the arrays are taken to have the shapes that the constructors accept, the other headers (primary, errors, flags) are left out, the numbers are arguments, a set of names is enumerated in an arbitrary order.

## What is not modelled

* Floating point rounding, overflow, dtype widths other than those named above.
* FITS encoding of headers and arrays (an HDU written is the HDU read), header comments, history texts, print-outs, warnings.
* `calibrate_kgain.py`: how scipy fits the Gaussian (an arbitrary function of C81);
  `calibrate_nonlin.py`: plots and warnings (its histogram, line fits, lowess and
  interp1d are arbitrary functions of C78).
* `measure_companions.py` forward_model_psf (not called); how pyklip paints a
  PSF (an argument of C82); what pyklip does in a subtraction (an argument of C77).
* scipy's curve_fit.
* `mocks.py`; photutils' apertures, local background and PSF photometry (arguments of C76).

## Properties, what is modelled and how it is proved

| id | modelled | proof |
|----|----------|-------|
| C01 | `CalDB.create_entry/remove_entry/scan` on a row list | refinement to a finite map ordered by insertion; invariant over operation lists; refutation for the `in _db.values` membership test |
| C02 | `get_calib` | optimality by induction over argmin/argmax scans |
| C03 | disk + several instances, load/save windows, crash inside save | simulation for sequential histories; refutations for interleaving, unsaved entries, crash |
| C04 | heap of arrays, Dataset construction, update/add_error | heap invariant |
| C05 | slicing on the heap | `_refuted` (frames are re-pointed) + exact characterisation |
| C06 | copy / copy_data=False on the heap | non-interference; `_refuted` for shared headers |
| C07 | groupby on key tuples | partition theorem by induction |
| C08 | level state machine over datasets | reachability by induction over call sequences |
| C09 | Python `str.replace(old,new,1)` over strings | string lemmas |
| C10 | parent recording | closure over trees by induction |
| C11 | grouping loop | arithmetic over `n`, `g`, slicing lemmas |
| C12 | combine_images per pixel | pointwise equality with a filter-based spec |
| C13 | DQ updates of each step (bitwise on `N`) | bitwise monotonicity; `_refuted` for uint8 cast, flag_nans |
| C14 | correct_bad_pixels | pointwise iff + idempotence |
| C15 | pack/unpack bits, flag maps | induction on bit lists |
| C16 | add_error_term / rescale_error | induction over term lists (R) |
| C17 | frame_select | decision equivalence, bit decoding |
| C18 | guess_template | decision table equivalence |
| C19 | _fill_in_calib_files + jit | case analysis; `_refuted` for jit + skip |
| C20 | run_recipe | fold semantics |
| C21 | autogen_recipe with shared template objects | heap; `_refuted` for accumulation |
| C22 | save_data names | string lemmas |
| C23 | format_ftimeutc | integer arithmetic |
| C24 | slice/embed | list lemmas |
| C25 | prescan_biassub geometry | pointwise; `_refuted` for ENG_CONV and custom regions |
| C26 | flag_cosmics | pointwise mask characterisation; `_refuted` in full mode |
| C27 | find_plateaus | loop invariant |
| C28 | gain selection loops | map equality; `_refuted` for appended-in-except lists |
| C29 | desmear | induction over rows |
| C30 | build_trad_dark flags | arithmetic; `_refuted` at the half boundary |
| C31 | build_synthesized_dark | pointwise |
| C32 | photon counting | real analysis |
| C33 | sorting | run detection induction |
| C34 | crop | index arithmetic; `_refuted` for multi-frame centre |
| C35 | angles | real trigonometry |
| C36 | compute_combinations | loop = lexicographic successor; completeness |
| C37 | bad pixel map | pointwise |
| C38 | argmin lookups | optimality lemma |
| C39 | find_source loop | step relation; `_refuted` termination at equality |
| C40 | repeated-set halves | index sets; `_refuted` |
| C41 | illumination bins | partition; `_refuted` for small images |
| C42 | trap_id sets and counts | set algebra; `_refuted` for the ceil count |
| C43 | trap table codec | round trip |
| C44 | update_parameters and shared defaults | heap; `_refuted` |
| C45 | shipped templates as data | finite check lifted to the step semantics |
| C46 | ND calibration aggregation | fold; `_refuted` for last-target flag |
| C47 | get_relgains on exact rationals with infinities and NaN | equality with a relational bilinear interpolant, uniqueness, bounds |
| C48 | dark_subtraction and its checks | iff for success, pointwise result; `_refuted` for a saved synthesized dark |
| C49 | convert_to_electrons, flat_division, add_photon_noise, divide_by_exptime with error layers | pointwise real algebra; `_refuted` for the extra layers |
| C50 | nonlin_dataset_2_stack, kgain_dataset_2_list | fold invariants: partition, order, alignment; `_refuted` for shared exposure times |
| C51 | cards written, parsed and moved | round trip through decimal text; `_refuted` for stale cards |
| C52 | `_el_loc_2`, `_el_loc_3` for any set order | greedy specification, independence of the order; `_refuted` for a count |
| C53 | following traps over temperatures | induction over temperatures, relational spec with uniqueness |
| C54 | PyKLIPDataset.readdata / savedata | list alignment by induction; failure iff; `_refuted` for the centre |
| C55 | flat fields: rasters, residuals, combination, on-sky flat | pixelwise spec, failure cascade, frame condition; three `_refuted` |
| C56 | band integrals, colour, flux calibration factors, conversion | Simpson as areas under parabolas, interpolation as a relation, round trips; nine `_refuted` |
| C57 | off-axis positions, throughputs, product, interpolation, map | centroid as weighted moments, laws, iffs; six `_refuted` |
| C58 | noise maps by least squares, their errors, flags and bias offset | least squares as minimum, uniqueness, iff for success, invariances; eight `_refuted` |
| C59 | configuration file, default calibrations, start-up with its crash points | parser against a grammar, disk trace monad, invariants over every prefix of the trace, recovery by cases; eleven `_refuted` |
| C60 | measure_noise and meas_klip_thrupt with injection, subtraction and fit arbitrary | success iff a relational specification of the run; invariances of the noise; two `_refuted` |
| C61 | compute_flux_ratio_noise with the fit and the ND calibration arbitrary | success iff a relational specification, reading of tables by relation and uniqueness, scaling laws; six `_refuted` |
| C62 | check_kgain_params, ptc_bin2, sigma_clip, calculate_mode, calibrate_kgain with the prescan region and the fitted width arbitrary | success iff a relational specification of the run; laws of clipping and mode; six `_refuted` |
| C63 | walk_corgidrp and step_3_process_data on top of the model of the walker; loading of files depends on the history | success iff all recipes generated from the initial state and run in sequence, exact states after failure, invariants of the trace for every outcome; two `_refuted` |
| C64 | Image.__init__ from a file and from an array, save, filepath, add_extension_hdu; headers as lists of cards, arrays of any type | success iff a relational specification; an invariant of every frame; round trip for every frame satisfying it, under all four pairs of settings; six `_refuted` |
| C65 | the constructors of all fourteen classes with a path, and with arrays and input frames; _record_parent_filenames, KGain.save, datatypes, autoload, the regular expression of the level tag | success of loading iff format and label; exclusivity by injectivity of labels; making by a relational specification of cards, parents (no bound on their number) and names; an invariant of every product and a round trip under it; nine `_refuted` |
| C66 | the probability functions, trap_fit and trap_fit_const with curve_fit as a function argument | result iff a specification (attempts, first greatest goodness, threshold), refusal iff the first fault; laws of the peak by factoring polynomials in exp(-x) and by derivatives; exact cases; three `_refuted` |
| C67 | tau_temp, sig_tau_temp, fit_cs and the end of tpump_analysis (fits and densities) | release time iff a specification with the cubic equation of the effective mass; derivatives; result iff a specification; monotone counting for the bins; double counting for the total; one `_refuted` |
| C68 | star_center.py from circle to star_center_from_satellite_spots, and the default guess of find_star, with polyfit, lstsq and minimize as function arguments | masks equal to a count of subpixels; optimum iff a specification of least squares, uniqueness by solving the normal differences on three points; iterations as chains of a relation, sound and complete; invariance by scaling and by reindexing of sums; a least-squares solver constructed by projection to show the assumptions satisfiable; four `_refuted` |
| C69 | distortion_correction, fit_distortion_solution, compute_distortion, the coefficients without distortion, with map_coordinates and leastsq as function arguments | Legendre polynomials by their recursion, unique by induction; series as sums over index pairs; refusals iff; polar form of arctan2 for the residual angles; zero residuals iff offsets along the sky; six `_refuted` |
| C70 | find_source_locations, with gaussfit2d as a function argument | first maximum by sorted order of the pixels; mask bounds case by case equal to a clipped square; sources iff an inductive relation of peaks, unique; star fields by induction on the stars; refusals iff; three `_refuted` |
| C71 | compute_boresight, format_distortion_inputs, boresight_calibration, with the measurements of one frame, gaussfit2d, the projection, measure_offset and leastsq as function arguments | results iff relational specifications of means, middle stars, pairs and summaries; first refusal by induction over the frames; groups by induction on the loop; pointing theorem by inverting the matrix of the header in a flat sky; three `_refuted` |
| C72 | centroid, shift_psf, measure_offset, create_circular_mask, with map_coordinates and curve_fit as function arguments | windows case by case equal to the nearest one; sums over windows shifted and mirrored; the result determines template and data pixel by pixel; exactness by equality of template and data; discs iff; three `_refuted` |
| C73 | load_transformation_matrix_from_fits, interpolate_od, calculate_od_at_new_location and NDFilterSweetSpotDataset, with the interpolations of scipy as function arguments | result iff a relational specification over centroid, matrix, way and table; every refusal iff; tables unique pixel by pixel; two `_refuted` |
| C74 | format_ftimeutc and the calendar arithmetic it uses, with fromisoformat as a function argument | ordinals equal to the day numbers of an inductive calendar (next day) by induction, inverse by division and a check of the months; readings unique; texts iff decimal numbers of fixed width; order of texts equal to the order of instants field by field; one `_refuted` |
| C75 | measure_companions, measure_counts and get_photometry_kwargs; the Gaussian fit, the off-axis PSF, the density, the host magnitude and the two photometries as function arguments | tables iff a relational specification of the fits, places, throughputs and magnitudes; refusals iff, in their order, the first failing companion; homogeneity laws of the two stars by a common lemma on rows; two `_refuted` |
| C76 | aper_phot, phot_by_gauss2d_fit, the two calibrate_fluxcal functions and the FluxcalFactor they build; WCS, local background, overlap, Gaussian fit and band fluxes as function arguments | results and refusals iff relational specifications of centre, background and sums over sieved pixels; headers by their cards; laws by scaling totals; five `_refuted` |
| C77 | do_psf_subtraction with the choice of frames, masks, mode, product header, flags and tables; pyklip, crop and throughputs as function arguments | result sound and complete for a relational specification up to the order of cards; refusals iff; laws by rewriting the choice of frames and the masked frames; four `_refuted` |
| C78 | check_nonlin_params and calibrate_nonlin: checks, regions, mean frame, mask, signals, fits, gains, norm and table; histogram, drift correction, line fit, lowess and interp1d as function arguments | table and refusals iff a relational specification, checks by their order; laws of counts, norm, change of norm and linear detector from it; five `_refuted` |
| C79 | check.py whole: the fourteen checks on values of Python and numpy; np.asarray by shape, kind and entries of nested lists | accepted and raised iff a relational specification, by induction over nested values; laws (twice, implied checks, entries by index) from it; eight `_refuted` |
| C80 | the steps from L1 to L3 as programs on the heap of arrays, headers and frames; what they compute (pixels, cards, gains, decisions) as function arguments of the heap that may raise | one invariant (what existed is extended only, the working copy is new and sound, which frames are views) kept by every primitive write, then by each step; split of the input keeps contents; histories by induction; six `_refuted` |
| C81 | np.histogram with given edges (blocks, sort, search, differences), histc_roi, Single_peakfit and its start; curve_fit an arbitrary function that may raise | sorted search is a count, counts add over blocks, so the result is the relational histogram; success and each error iff; laws; four `_refuted`, one on top of the calibration of C62 |
| C82 | inject_psf and injections one after the other; pyklip's inject_planet an arbitrary function that may raise | result iff a relational specification (polar place, nearest PSF, peak, scaling); laws of turning and scaling; sequences by induction, order by induction on permutations; two `_refuted` |
| C83 | the ends of four calibrations and the constructors they call, as lists of statements on a heap of extension headers shared by frames and products; numbers, names of the enumeration and texts as arguments; no seeded faults were run against it | which statements keep, put or add which cards, then runs and sequences of calls by induction; success iff; four `_refuted` |

## Findings: what the unchanged code does not do

Each line is a theorem, proved of the model with a witness or for a whole class of inputs.

* `C01_any_column_membership_refuted` – Without the naming convention the claim fails: an entry can be lost because the membership test looks at every column.
* `C03_crash_refuted` – A crash while the database is saved leaves a file that is neither the old nor the new database.
* `C03_lost_update_refuted` – Two processes creating an entry at the same time: both return, one entry is lost.
* `C03_unsaved_entry_lost_refuted` – But an unsaved entry is dropped by the next to_disk=True operation.
* `C04_link_after_exception_refuted` – Finding: add_error_term with a too short per-frame array raises IndexError and leaves the first frame disconnected from the cube.
* `C04_update_atomic_refuted` – Finding: an update that raises ValueError for the shape of the error cube has already overwritten the data.
* `C05_parent_stays_linked_refuted` – After a slice is taken, writing to a selected frame of the parent no longer changes the parent cube.
* `C06_shallow_headers_independent_refuted` – A keyword set in a copy made with copy_data=False is set in the original.
* `C08_l4_without_flux_refuted` – Limit: update_to_l4 without a flux calibration raises after it has already moved the first frame (of the input too) to L4.
* `C09_unconventional_names_refuted` – Limit: names that do not follow the convention can collide.
* `C12_unflagged_nan_refuted` – So with NaNs that carry no flag a NaN pixel can come out with DQ 0.
* `C13_bit8_lost_refuted` – correct_bad_pixels casts the DQ to 8 bits: bit 8 is lost.
* `C13_flag_nans_refuted` – flag_nans (used after PSF subtraction) drops earlier flags of NaN pixels.
* `C14_flag256_refuted` – A pixel whose only flag is 256 is neither replaced nor flagged any more.
* `C17_sign_bit_refuted` – A DQ value with the sign bit set counts as a good pixel whatever its other bits, unless the allowed mask clears that bit too.
* `C19_jit_skip_refuted` – With just-in-time resolution a step whose calibration is missing is marked and executed all the same, with None for the calibration.
* `C19_refill_refuted` – An entry that was resolved to None cannot be processed again.
* `C20_empty_save_refuted` – A save step at the head of a recipe without data raises AttributeError.
* `C20_settings_leak_refuted` – ... so a recipe that says nothing is treated differently afterwards.
* `C21_failure_keeps_refuted` – A failed call has appended the files all the same.
* `C21_no_files_refuted` – Making a recipe for no files raises UnboundLocalError.
* `C21_optional_once_refuted` – And a template of which an optional calibration was missing once cannot be used again.
* `C21_shared_refuted` – So after any number of calls with one template object all the recipes have the inputs of all calls.
* `C21_template_changed_refuted` – With a template object: template and recipe share their inputs and steps.
* `C22_no_extension_refuted` – A name without the extension loses its last character; so two of them can be saved to one file.
* `C23_unpadded_refuted` – Where strftime does not pad years below 1000, stamps do not sort by time.
* `C25_custom_rows_refuted` – With custom regions whose image does not start where the shipped one does, the bias subtracted from a row is that of another row.
* `C25_eng_conv_refuted` – ENG_CONV with the shipped table: the bias is the median of no pixel at all (NaN in numpy), whatever the frame.
* `C25_tall_imaging_refuted` – The imaging area of ENG_EM and ENG_CONV starts at row -9: no pixel is left.
* `C26_box_outside_image_refuted` – In full mode the tail box of a hit is flagged outside the image area.
* `C26_wrap_short_refuted` – The tail that continues on the next row misses its last pixel.
* `C28_measured_gain_refuted` – A measured gain is never used: with measured gains only, the step fails; with exactly one frame lacking it, that frame's gain is used for all; with any other mixture the step fails.
* `C28_mixture_refuted` – Frames of which some have a measured gain: cosmic ray detection raises ValueError.
* `C28_nonlin_measured_refuted` – With measured gains there is one gain for each frame, and calibrate_nonlin rejects the stack it has built (n_cal is 20 there).
* `C28_one_unmeasured_refuted` – If exactly one frame lacks a measured gain, its gain limits every frame.
* `C30_half_refuted` – The documented "half or more" is wrong at exactly half: no flag.
* `C32_error_refuted` – The reported error is not a standard deviation: without input errors it is the variance, smaller than the standard deviation for every variance below 1
* `C32_parents_refuted` – A master dark names as parents all frames it used, but also unused ones exactly when the ignored remainder has at least as many frames as there are bins
* `C32_safemode_refuted` – "If safemode is False, a negative count only gives a warning": it raises for either value of safemode, and negative estimates occur
* `C33_equal_sets_refuted` – The K-gain frames need not come in equal numbers per exposure time, nor with consecutive ids.
* `C33_largest_refuted` – Two sequences that both return to an earlier exposure time make the sort fail: the larger one is never chosen.
* `C34_int_centre_refuted` – An int centre never works with a single frame.
* `C34_lsam_refuted` – Cropping checks the mask name of the first frame only.
* `C34_own_star_refuted` – Without a centre, every frame is cropped about the first frame's star, not about its own, and only the first frame's LSAMNAME is looked at.
* `C35_north_angle_refuted` – A north angle beyond 90 degrees is returned half a turn away.
* `C35_roll_refuted` – With unequal plate scales the roll read back is wrong except on the axes.
* `C35_star_refuted` – A star that is not the centre of the rotation is left behind by its header keys.
* `C36_columns_refuted` – A field without RA or DEC is not refused with the documented error.
* `C36_no_fit_refuted` – When no triangle fits the guessed plate scale, the three brightest stars are used all the same.
* `C36_shared_refuted` – Nothing keeps two sources from the same star: a single visible star is given to all of them.
* `C37_nan_dark_refuted` – One NaN in the dark and no pixel is hot; a NaN in the flat and no pixel whose box holds it is dead, not even itself.
* `C37_nan_flat_refuted` – A NaN in the flat hides every dead pixel whose box contains it.
* `C38_azimuth_refuted` – Azimuths are compared without going round: the entry just across the cut loses.
* `C38_crop_refuted` – In a cropped frame inject_psf takes the PSF of the wrong place, off by the corner of the crop.
* `C38_kl_shift_refuted` – A non-negative number of KL modes reads the throughput of the previous mode.
* `C38_kl_zero_refuted` – KL mode 0 returns a separation as the throughput.
* `C38_radius_refuted` – Rounding of the radii makes an entry at another radius win.
* `C38_round_refuted` – The documented tenth of a pixel is a whole pixel: every entry within half a pixel counts as being at the radius asked for, and one at that very radius may lose to one that is not.
* `C39_mask_refuted` – A PSF of another size than the box has its mask off centre, or none.
* `C39_small_psf_refuted` – A PSF smaller than half the box raises IndexError.
* `C39_terminates_refuted` – With a threshold equal to the largest S/N left, the search for sources never ends.
* `C40_linear_drift_refuted` – A linear drift of slope [a] over 2m equally spaced frames is fitted with slope a (m-1)(2m+1) / (2m (2m-1)), never with [a].
* `C40_ratio_refuted` – The correction factor [x] of [drift_result] against the ratio of the fitted illuminations at the mean times of the two groups.
* `C40_second_half_refuted` – The second average is over all repeated frames but the one in the middle.
* `C41_small_refuted` – An image smaller than a bin along either axis is lost: it comes back as zeros.
* `C42_shared_times_refuted` – With several frames at one phase time a trap may go unreported.
* `C43_again_refuted` – What was rebuilt cannot be made a table again.
* `C43_two_digits_refuted` – Two traps of electrodes with more than one digit can become one.
* `C44_independence_refuted` – Overrides passed to one call of find_star change the default parameters of the next.
* `C44_rejected_refuted` – A refused override leaves those before it.
* `C44_validate_refuted` – validate_satellite_spot_parameters never accepts.
* `C45_bp_map_skip_refuted` – bp_map.json: skipping the only step leaves nothing to save.
* `C45_l2b_to_l4_refuted` – l2b_to_l4.json: do_psf_subtraction gets no core throughput calibration and its measurements are on by default (l3_to_l4.py 466-468), so the assertion fails whatever the data.
* `C45_optional_jit_refuted` – A recipe generated while an optional calibration was missing cannot be run with just-in-time resolution.
* `C46_factor_only_refuted` – A calibration factor given instead of frames without filter is never used: the call fails.
* `C46_flag_refuted` – The flag is that of the last target only: here the first one varies by ten thresholds.
* `C46_repeat_refuted` – The frame that lent its header counts as one behind the filter from then on.
* `C48_synth_reuse_refuted` – A synthesized dark is stamped with the gain it was built for, measured or applied, as its commanded gain: saved and used again for the very frames it was made for, it is refused unless that equals their commanded gain.
* `C49_layers_lost_refuted` – An error layer other than the combined one is lost by the conversion to electrons.
* `C50_kgain_shared_time_refuted` – A mean frame taken with the exposure time of the smallest calibration set makes the function fail, whatever the rest.
* `C51_stale_refuted` – But on a header that has been searched before with more sources, the old ones are read back as well.
* `C52_count_refuted` – Unused fits are counted although all were used.
* `C54_centre_refuted` – The centre recorded need not be that to which the images were moved.
* `C55_edge_refuted` – A planet nearer to the first row than the half side contributes nothing to the flat.
* `C55_order_refuted` – The on-sky flat depends on the order of the frames.
* `C55_uranus_refuted` – With default settings the disc of Uranus is displaced from the planet.
* `C56_color_refuted` – Band flux over the colour correction is not the flux at the reference wavelength.
* `C56_convert_first_refuted` – COL_COR of the first frame is used for all frames.
* `C56_error_refuted` – The flux error does not shrink with the number of frames.
* `C56_filter_ambiguous_refuted` – The name 'F' selects a curve by directory order.
* `C56_irradiance_refuted` – A factor made from irradiances is accepted and FLUX is then not the band flux.
* `C56_magnitudes_refuted` – APP_MAG of determine_flux and of determine_app_mag differ for the same star.
* `C56_nd_ignored_refuted` – An ND filter in FSAMNAME is ignored if FPAMNAME exists.
* `C56_simpson_negative_refuted` – On unequal steps a non-negative curve can have a negative integral.
* `C56_spectrum_edge_refuted` – A linear spectrum is flattened between the band edge and the nearest sample inside.
* `C57_azimuth_refuted` – Places at the largest azimuth are evaluated at the smallest.
* `C57_core_nan_refuted` – One pixel that is not a number makes the throughput 0.
* `C57_first_frame_refuted` – The recorded FPAM/FSAM positions are those of the first frame, also if it is a pupil image.
* `C57_map_file_refuted` – No file is written when a file path is given.
* `C57_ragged_refuted` – A PSF near an edge makes the stamps ragged and the product fails.
* `C57_repair_refuted` – Repaired values are written at the index of the table instead of that of the target.
* `C58_bias_refuted` – A constant level of the prescan is fixed pattern, not bias offset.
* `C58_gain_check_refuted` – Settings that determine the maps are refused because the sub-stack of least gain x time has the largest gain.
* `C58_lost_setting_refuted` – A pixel flagged in all frames of a setting enters the fit there as 0 and shifts the maps, unflagged.
* `C58_nan_refuted` – A NaN at a flagged pixel raises ValueError.
* `C58_order_refuted` – The gain is that of the first frame of a sub-stack: the order of frames can decide between success and failure.
* `C58_pooled_error_refuted` – The error of five sub-stacks of error 1 is pooled to more than 1.
* `C58_settings_refuted` – Settings that pass every check leave the fit undetermined, and inversion raises.
* `C58_sign_refuted` – A negative fixed pattern stays negative; the other two maps are raised to 0.
* `C59_damaged_refuted` – A first start interrupted while a default file is being saved: the next start raises, the one after succeeds with the damaged file in place and no calibration entered.
* `C59_double_percent_refuted` – With a double percent sign the path that is read is not the one that was made, and every start raises.
* `C59_flag_refuted` – Values yes, 1 and on of a flag raise KeyError.
* `C59_legacy_key_refuted` – An old configuration file without caldb is removed before KeyError is raised; the next start uses the defaults.
* `C59_legacy_lost_refuted` – The old configuration file is removed before the new one is written: a start interrupted in between loses the path of the database.
* `C59_legacy_reset_refuted` – Other settings of an old configuration file, here track_individual_errors = True, are reset.
* `C59_other_database_refuted` – A configuration file edited to name another database: the default calibrations are not entered into it.
* `C59_percent_refuted` – A single percent sign in the path of the home directory raises ValueError.
* `C59_torn_path_refuted` – A configuration file cut inside a path is used with the path as far as it goes: the default calibrations are put into the home directory.
* `C59_torn_refuted` – A first start interrupted while the configuration file is being written: an empty file stays, and each later start raises TypeError.
* `C59_unregistered_refuted` – A first start interrupted after the two default files are saved and before the database is: the next start succeeds and the database never gets the two calibrations.
* `C60_edge_refuted` – A source whose cutout lies beyond the edge of the image, but by less than the size of the cutout, raises ValueError.
* `C60_order_refuted` – With separations that are not ascending the entries of the table are not those of the separations they stand beside.
* `C61_density_refuted` – The entries of the ND calibration, optical densities, multiply the flux: for a filter that absorbs nothing no value is a number.
* `C61_even_refuted` – A star in the last row or column of a frame with an even number of them is refused.
* `C61_float_refuted` – Positions of the stars given as floats, as documented, are refused.
* `C61_nan_refuted` – At a separation of the table the reading need not be the entry there: it is NaN if the entry before is.
* `C61_own_refuted` – Without separations given, the second frame's curve is at the separations of the first frame's subtraction, not at its own, nor at those of the core throughput.
* `C61_start_refuted` – The fit is not started at the brightest pixel: row and column are swapped.
* `C62_brightest_refuted` – Not every point enters the curve: the brightest one is in no level.
* `C62_constant_refuted` – Where all values of the gain are equal, the mode is larger by 0.05.
* `C62_first_refuted` – In sets of six or more frames the first frame has no part in the result.
* `C62_last_refuted` – Not every level with an average between the limits of the signal enters the gain: the last one below the upper limit does not.
* `C62_noise_refuted` – The read noise is that of the last set only: it does not depend on the others, but for the gain.
* `C62_quiet_refuted` – A variance below that of the read noise is taken for shot noise of the same size.
* `C63_same_call_refuted` – The calibrations are looked up before anything is run: what the first recipe of a call makes is not found for the second, where two calls succeed.
* `C63_template_refuted` – A template object used for two calls: the second one processes the files of the first again.
* `C64_axes_refuted` – An error array given with more axes than layers and pixels is accepted, and gets one axis more.
* `C64_cards_refuted` – Several layers of error without their cards: with individual errors off, the frame cannot be made.
* `C64_case_refuted` – Two extensions whose names differ in case are both accepted, and stored under one name.
* `C64_err_case_refuted` – The presence of ERR is asked with its case, the extension is taken in any case: another extension can be taken for the error.
* `C64_root_refuted` – A file in the root directory, saved again without arguments, goes into the working directory.
* `C64_shape_refuted` – The error and quality arrays of a file may have any shape: only arrays given as arguments are checked.
* `C65_bare_refuted` – Detector parameters come back from disk with two extensions more than they had.
* `C65_dot_refuted` – The tag takes one more character: after _L1 the dot of the suffix is eaten, or the underscore of the product code.
* `C65_gain_refuted` – The quality array of a gain is not written: a loaded one is zero.
* `C65_nd_refuted` – A neutral density product is written under a label the table does not have: it cannot be loaded without naming its class.
* `C65_no_input_refuted` – A flux calibration and a bad pixel map without input frames, though their parents are recorded, fail with the wrong error.
* `C65_overhead_refuted` – Every missing parameter of a file has a former keyword but one.
* `C65_remark_refuted` – Each load of a bad pixel map adds a remark to its headers: loading and saving again and again does not settle.
* `C65_same_name_refuted` – An input without a level tag: a flat gets the name of its last input.
* `C65_untyped_refuted` – A file without DATATYPE whose first array is not an image ends in an unbound variable.
* `C66_estimate_refuted` – With a capture time the amplitude is greatest later: the same estimate is always too large.
* `C66_label_refuted` – With exact amplitudes, an exact fit and exact lists, trap_fit calls the wrong trap 'a'.
* `C66_starts_refuted` – trap_fit_const starts at zero when the range of the capture probability is below one and reaches zero.
* `C67_poor_refuted` – A fit below the threshold is reported like any other.
* `C68_mask_refuted` – The mask is said to hold values between 0 and 1; where spots overlap it holds more.
* `C68_negative_refuted` – The star found need not be bright: in an image of opposite sign, where the spots are holes, it is found at the same place.
* `C68_optimum_refuted` – The point reported as optimum can be a saddle, with greater and smaller values around it.
* `C68_spots_refuted` – The spots are said to be located in the image; they are given about its middle and lie around the star only after adding it.
* `C69_centre_refuted` – The fit has its middle at 511, the correction of an image of 1024 rows at 512: coefficients that fit do not correct.
* `C69_flags_refuted` – The errors and the flags stay where they are while the data move.
* `C69_inverse_refuted` – The correction takes the displacement where the light should come to, not where it comes from: with a magnification of two the light of a pixel is not found where its distortion maps it.
* `C69_opposite_refuted` – An offset the opposite way leaves no residual.
* `C69_order_refuted` – The start of the fit without a guess is refused at order 0.
* `C69_units_refuted` – Powers of 500 wrap in integers of 64 bits: from order 4 on the units are others.
* `C70_oblong_refuted` – Rows and columns are exchanged in the padded frame: images that are not square are refused, whatever they show.
* `C70_repeated_refuted` – One star on zeros: its place is returned three times.
* `C70_spurious_refuted` – One star on a background below zero: the second source returned is a pixel of the background.
* `C71_north_refuted` – The mean north angle of two frames turned by 179 and by -179 degrees is zero.
* `C71_offset_refuted` – An offset of two stars is asked for from the second on: to a place where no star need be.
* `C71_right_ascension_refuted` – A frame that points to right ascension 9 by a header that tells 10 is corrected to 11.
* `C72_background_refuted` – On a background the place found is not that of the star: of a star at column 10 guessed at 8 it is below 9.
* `C72_oblong_refuted` – The default mask of an array of three rows and nine columns is empty.
* `C72_small_refuted` – In a frame of eight by eight pixels the star at row and column 6 is placed at -2 and -2: a window that does not fit is cut from the end of the frame.
* `C73_carried_refuted` – A filter whose densities move over the detector with the matrix: the density returned is not that in front of the star.
* `C73_own_refuted` – Asked for the nearest density, the table gives NaN outside the measured places; the function of the module gives the nearest.
* `C74_collide_refuted` – Two frames of different times have the same stamp: the last of a leap day and one that is later by 80 ms, given in another zone.
* `C75_nd_refuted` – The host star seen through a filter of density d: its peak is divided by d, not by 10^-d, and every ratio is d 10^d times, so at least ten times, too large.
* `C75_zp_refuted` – With a flux calibration but no zero point card, which nothing writes, no companion is ever measured.
* `C76_flagged_refuted` – With the centre found in the image, the default, a flagged pixel moves the aperture off the star: the counts go from 8 to 0.
* `C76_guess_refuted` – A guess whose square lies wholly before the frame is not kept: the centroid is that of nearly the whole frame.
* `C76_input_refuted` – The image given is left as a FluxcalFactor of level CAL in the units of the factor, since it shares its header with the product.
* `C76_sky_refuted` – With the centre found in the image a constant sky moves the aperture off the star, though it is taken away: the counts go from 8 to 0.
* `C76_wcs_refuted` – The pixel of the WCS is counted from 1 and used as if from 0: a star of one pixel where the WCS has it gives no counts in an aperture less than a pixel wide.
* `C77_flags_refuted` – A pixel flagged in every frame has flag 0 in the product wherever pyklip returns a number.
* `C77_mode_refuted` – Reference imaging asked for without any reference is not refused but handed to pyklip.
* `C77_name_refuted` – The product carries the header of the first science frame and the name of the last.
* `C77_references_refuted` – A frame labelled as a reference is subtracted as science when references are also passed apart: two science frames instead of one.
* `C78_float_refuted` – A float for a row is accepted by the checks and raises TypeError later.
* `C78_nan_refuted` – A limit that is NaN is accepted, and gives a table without any count.
* `C78_norm_refuted` – A norm of 14020 within accepted limits raises IndexError.
* `C78_order_refuted` – Smoothed gains come in the order of the signals and are taken to be in the order of the exposure times: with signals that do not ascend with exposure time the entry at 40 is 4 instead of 1/4.
* `C78_start_refuted` – A table for the limits 810 and 15000 starts at 820 and ends at 14000.
* `C79_bool_refuted` – True passes as a positive integer.
* `C79_bytes_refuted` – A name that is bytes is accepted, and then raises TypeError in place of the exception given.
* `C79_empty_refuted` – An empty list passes the check that says it asks for a length above 0.
* `C79_inf_refuted` – Infinity passes as a positive number.
* `C79_nan_refuted` – NaN passes as a positive number.
* `C79_npbool_refuted` – A bool of numpy passes neither as a bool nor as a scalar.
* `C79_ragged_refuted` – A list with rows of different shapes raises ValueError, whatever exception was given.
* `C79_text_refuted` – An array of texts passes as a 1D array: the error for arrays neither real nor complex is never raised.
* `C80_dark_raise_refuted` – So too when it raises.
* `C80_dark_refuted` – After dark_subtraction the frames of its input are no more views of its cubes.
* `C80_gain_refuted` – The frames of what em_gain_division returns are not views of its cubes.
* `C80_headers_refuted` – A change of level changes headers of its input.
* `C80_naxis_refuted` – After prescan_biassub the header of its input gives one column, and the input still has two.
* `C80_time_refuted` – Nor are those of what divide_by_exptime returns.
* `C81_card_refuted` – The calibration then reports a read noise of ten over the root of two times the gain, whatever the noise is.
* `C81_edges_refuted` – The bins are not all open at their upper edge: a pixel on the last edge is counted in the last bin.
* `C81_nothing_refuted` – The width need not come from the pixels: if none is in the bins, as when all are NaN or beyond them, there is no error and the width is the starting value 10, for every fit that stays where nothing is left to gain.
* `C81_sign_refuted` – The width is not known to be positive: its sign does not matter to the curve, so for every fit that finds the least squares there is another that does and gives minus the width, and nothing takes the absolute value.
* `C82_blank_refuted` – A PSF whose largest value is 0, or that is NaN everywhere, is no error: every pixel that is injected is NaN or infinite.
* `C82_negative_refuted` – The peak is not the amplitude asked for if the largest value of the PSF is negative: the sign is turned, and the peak is the least value, which is larger.
* `C83_failed_refuted` – A calibration that fails leaves the frames as they were: no, a dark without a gain card has labelled its first frame before.
* `C83_frame_refuted` – A calibration leaves the type and level of the frames handed in: no, the first is labelled as the product.
* `C83_parents_refuted` – A product names all the frames it was made from: no, a dark whose first frame was used before names those of then.
* `C83_relabel_refuted` – A product keeps its label when further calibrations are made: no, one that starts with the same frame relabels it.
