(** The shipped recipe templates and the step functions they may name, as data.

    Transcribed by a script from corgidrp/recipe_templates/*.json, from
    walker.all_steps (corgidrp/walker.py 25-61) and from the definitions of the
    functions listed there. *)
From Coq Require Import List Bool String.
From Verif Require Import WalkModel.
Import ListNotations.
Local Open Scope string_scope.
Local Open Scope list_scope.

(** data.datatypes, corgidrp/data.py 2549-2562 *)
Definition datatypes : list string :=
  ["Image"; "Dark"; "NonLinearityCalibration"; "KGain"; "BadPixelMap"; "DetectorNoiseMaps"; "FlatField"; "DetectorParams"; "AstrometricCalibration"; "TrapCalibration"; "FluxcalFactor"; "FpamFsamCal"; "CoreThroughputCalibration"; "NDFilterSweetSpot"].

(** A parameter after the first (the dataset): its name, whether it has no
    default; for a parameter that takes a calibration, the classes it takes, whether
    the function does without one, and the keywords that must all be given for
    it to do without (do_psf_subtraction, corgidrp/l3_to_l4.py 466-468). *)
Record param : Type := mkp { p_name : string; p_req : bool; p_cls : list string; p_null : bool; p_unless : list string }.
Definition po (n : string) : param := mkp n false [] true [].

(** walker.all_steps with the signatures; a calibration parameter and what it
    accepts is read off the docstring and body of the function. *)
Definition sigs : list (string * list param) := [
  (* corgidrp/l1_to_l2a.py prescan_biassub, line 6 *)
  ("prescan_biassub", [mkp "noise_maps" false ["DetectorNoiseMaps"] true []; po "return_full_frame"; po "detector_regions"; po "use_imaging_area"]);
  (* corgidrp/l1_to_l2a.py detect_cosmic_rays, line 160 *)
  ("detect_cosmic_rays", [mkp "detector_params" true ["DetectorParams"] false []; mkp "k_gain" false ["KGain"] true []; po "sat_thresh"; po "plat_thresh"; po "cosm_filter"; po "cosm_box"; po "cosm_tail"; po "mode"; po "detector_regions"]);
  (* corgidrp/calibrate_nonlin.py calibrate_nonlin, line 122 *)
  ("calibrate_nonlin", [po "n_cal"; po "n_mean"; po "norm_val"; po "min_write"; po "max_write"; po "lowess_frac"; po "rms_low_limit"; po "rms_upp_limit"; po "pfit_upp_cutoff1"; po "pfit_upp_cutoff2"; po "pfit_low_cutoff1"; po "pfit_low_cutoff2"; po "make_plot"; po "plot_outdir"; po "show_plot"; po "verbose"; po "nonlin_params"]);
  (* corgidrp/l1_to_l2a.py correct_nonlinearity, line 288 *)
  ("correct_nonlinearity", [mkp "non_lin_correction" true ["NonLinearityCalibration"] false []; po "threshold"]);
  (* corgidrp/l1_to_l2a.py update_to_l2a, line 333 *)
  ("update_to_l2a", []);
  (* corgidrp/l2a_to_l2b.py add_photon_noise, line 8 *)
  ("add_photon_noise", []);
  (* corgidrp/l2a_to_l2b.py dark_subtraction, line 45 *)
  ("dark_subtraction", [mkp "dark" true ["Dark"; "DetectorNoiseMaps"] false []; po "detector_regions"; po "outputdir"]);
  (* corgidrp/l2a_to_l2b.py flat_division, line 118 *)
  ("flat_division", [mkp "flat_field" true ["FlatField"] false []]);
  (* corgidrp/l2a_to_l2b.py frame_select, line 157 *)
  ("frame_select", [po "bpix_frac"; po "allowed_bpix"; po "overexp"; po "tt_rms_thres"; po "tt_bias_thres"; po "discard_bad"]);
  (* corgidrp/l2a_to_l2b.py convert_to_electrons, line 256 *)
  ("convert_to_electrons", [mkp "k_gain" true ["KGain"] false []]);
  (* corgidrp/l2a_to_l2b.py em_gain_division, line 288 *)
  ("em_gain_division", []);
  (* corgidrp/l2a_to_l2b.py cti_correction, line 329 *)
  ("cti_correction", [mkp "pump_trap_cal" true ["TrapCalibration"] true []]);
  (* corgidrp/l2a_to_l2b.py correct_bad_pixels, line 347 *)
  ("correct_bad_pixels", [mkp "bp_mask" true ["BadPixelMap"] false []]);
  (* corgidrp/l2a_to_l2b.py desmear, line 388 *)
  ("desmear", [mkp "detector_params" true ["DetectorParams"] false []]);
  (* corgidrp/l2a_to_l2b.py update_to_l2b, line 427 *)
  ("update_to_l2b", []);
  (* corgidrp/astrom.py boresight_calibration, line 1004 *)
  ("boresight_calibration", [po "field_path"; po "field_matches"; po "find_threshold"; po "fwhm"; po "mask_rad"; po "comparison_threshold"; po "search_rad"; po "platescale_guess"; po "platescale_tol"; po "center_radius"; po "frames_to_combine"; po "find_distortion"; po "fitorder"; po "position_error"; po "initial_dist_guess"]);
  (* corgidrp/pump_trap_calibration.py tpump_analysis, line 2122 *)
  ("calibrate_trap_pump", [po "time_head"; po "mean_field"; po "length_lim"; po "thresh_factor"; po "k_prob"; po "ill_corr"; po "tfit_const"; po "tau_fit_thresh"; po "tau_min"; po "tau_max"; po "tauc_min"; po "tauc_max"; po "pc_min"; po "pc_max"; po "offset_min"; po "offset_max"; po "cs_fit_thresh"; po "E_min"; po "E_max"; po "cs_min"; po "cs_max"; po "bins_E"; po "bins_cs"; po "input_T"; po "sample_data"; po "verbose"; po "bin_size"]);
  (* corgidrp/bad_pixel_calibration.py create_bad_pixel_map, line 5 *)
  ("create_bad_pixel_map", [mkp "master_dark" true ["Dark"; "DetectorNoiseMaps"] false []; mkp "master_flat" true ["FlatField"] false []; po "dthresh"; po "ffrac"; po "fwidth"; po "dark_outputdir"]);
  (* corgidrp/calibrate_kgain.py calibrate_kgain, line 275 *)
  ("calibrate_kgain", [po "n_cal"; po "n_mean"; po "min_val"; po "max_val"; po "binwidth"; po "make_plot"; po "plot_outdir"; po "show_plot"; po "logspace_start"; po "logspace_stop"; po "logspace_num"; po "verbose"; po "detector_regions"; po "kgain_params"]);
  (* corgidrp/darks.py calibrate_darks_lsq, line 266 *)
  ("calibrate_darks", [mkp "detector_params" true ["DetectorParams"] false []; po "detector_regions"]);
  (* corgidrp/flat.py create_onsky_flatfield, line 180 *)
  ("create_onsky_flatfield", [po "planet"; po "band"; po "up_radius"; po "im_size"; po "N"; po "rad_mask"; po "planet_rad"; po "n_pix"; po "n_pad"; po "sky_annulus_rin"; po "sky_annulus_rout"]);
  (* corgidrp/combine.py combine_subexposures, line 53 *)
  ("combine_subexposures", [po "num_frames_per_group"; po "collapse"; po "num_frames_scaling"]);
  (* corgidrp/darks.py build_trad_dark, line 127 *)
  ("build_trad_dark", [mkp "detector_params" true ["DetectorParams"] false []; po "detector_regions"; po "full_frame"]);
  (* corgidrp/sorting.py sort_pupilimg_frames, line 22 *)
  ("sort_pupilimg_frames", [po "cal_type"]);
  (* corgidrp/photon_counting.py get_pc_mean, line 64 *)
  ("get_pc_mean", [mkp "pc_master_dark" false ["Dark"] true []; po "T_factor"; po "pc_ecount_max"; po "niter"; po "mask_filepath"; po "safemode"; po "inputmode"; po "bin_size"]);
  (* corgidrp/l2b_to_l3.py divide_by_exptime, line 73 *)
  ("divide_by_exptime", []);
  (* corgidrp/l3_to_l4.py northup, line 645 *)
  ("northup", [po "use_wcs"; po "rot_center"]);
  (* corgidrp/fluxcal.py calibrate_fluxcal_aper, line 412 *)
  ("calibrate_fluxcal_aper", [po "flux_or_irr"; po "phot_kwargs"]);
  (* corgidrp/l2b_to_l3.py update_to_l3, line 112 *)
  ("update_to_l3", []);
  (* corgidrp/l2b_to_l3.py create_wcs, line 7 *)
  ("create_wcs", [mkp "astrom_calibration" true ["AstrometricCalibration"] false []]);
  (* corgidrp/l3_to_l4.py distortion_correction, line 21 *)
  ("distortion_correction", [mkp "astrom_calibration" true ["AstrometricCalibration"] false []]);
  (* corgidrp/l3_to_l4.py find_star, line 95 *)
  ("find_star", [po "star_coordinate_guess"; po "thetaOffsetGuess"; po "satellite_spot_parameters"; po "drop_satspots_frames"]);
  (* corgidrp/l3_to_l4.py do_psf_subtraction, line 402 *)
  ("do_psf_subtraction", [mkp "ct_calibration" false ["CoreThroughputCalibration"] true ["measure_klip_thrupt"; "measure_1d_core_thrupt"]; po "reference_star_dataset"; po "mode"; po "annuli"; po "subsections"; po "movement"; po "numbasis"; po "outdir"; po "fileprefix"; po "do_crop"; po "crop_sizexy"; po "measure_klip_thrupt"; po "measure_1d_core_thrupt"; po "cand_locs"; po "kt_seps"; po "kt_pas"; po "kt_snr"; po "num_processes"]);
  (* corgidrp/l3_to_l4.py update_to_l4, line 751 *)
  ("update_to_l4", [mkp "corethroughput_cal" true ["CoreThroughputCalibration"] true []; mkp "flux_cal" true ["FluxcalFactor"] false []]);
  (* corgidrp/corethroughput.py generate_ct_cal, line 326 *)
  ("generate_ct_cal", [po "roi_radius"; po "cfam_version"])].

(** corgidrp/recipe_templates/bp_map.json *)
Definition t_bp_map : recipe := mkrec "bp_map" true [("track_individual_errors", false)] [] "" [
   mkstep "create_bad_pixel_map" (Some [("Dark", Some "AUTOMATIC"); ("FlatField", Some "AUTOMATIC")]) None None;
   mkstep "save" None None None].

(** corgidrp/recipe_templates/build_trad_dark_full_frame.json *)
Definition t_build_trad_dark_full_frame : recipe := mkrec "build_trad_dark" true [("track_individual_errors", false)] [] "" [
   mkstep "prescan_biassub" (Some [("DetectorNoiseMaps", Some "AUTOMATIC")]) (Some [("return_full_frame", KOther "true")]) None;
   mkstep "detect_cosmic_rays" (Some [("DetectorParams", Some "AUTOMATIC"); ("KGain", Some "AUTOMATIC, OPTIONAL")]) (Some [("mode", KStr "full")]) None;
   mkstep "correct_nonlinearity" (Some [("NonLinearityCalibration", Some "AUTOMATIC")]) None None;
   mkstep "update_to_l2a" None None None;
   mkstep "convert_to_electrons" (Some [("KGain", Some "AUTOMATIC")]) None None;
   mkstep "em_gain_division" None None None;
   mkstep "build_trad_dark" (Some [("DetectorParams", Some "AUTOMATIC")]) (Some [("full_frame", KOther "true")]) None;
   mkstep "save" None None None].

(** corgidrp/recipe_templates/build_trad_dark_image.json *)
Definition t_build_trad_dark_image : recipe := mkrec "build_trad_dark" true [("track_individual_errors", false)] [] "" [
   mkstep "prescan_biassub" (Some [("DetectorNoiseMaps", Some "AUTOMATIC")]) (Some [("return_full_frame", KOther "true")]) None;
   mkstep "detect_cosmic_rays" (Some [("DetectorParams", Some "AUTOMATIC"); ("KGain", Some "AUTOMATIC, OPTIONAL")]) (Some [("mode", KStr "full")]) None;
   mkstep "correct_nonlinearity" (Some [("NonLinearityCalibration", Some "AUTOMATIC")]) None None;
   mkstep "update_to_l2a" None None None;
   mkstep "convert_to_electrons" (Some [("KGain", Some "AUTOMATIC")]) None None;
   mkstep "em_gain_division" None None None;
   mkstep "build_trad_dark" (Some [("DetectorParams", Some "AUTOMATIC")]) None None;
   mkstep "save" None None None].

(** corgidrp/recipe_templates/l1_flat_and_bp.json *)
Definition t_l1_flat_and_bp : recipe := mkrec "l1_flat_and_bp" true [("track_individual_errors", false); ("jit_calib_id", true)] [] "" [
   mkstep "prescan_biassub" None (Some [("return_full_frame", KOther "false")]) None;
   mkstep "detect_cosmic_rays" (Some [("DetectorParams", Some "AUTOMATIC"); ("KGain", Some "AUTOMATIC, OPTIONAL")]) None None;
   mkstep "correct_nonlinearity" (Some [("NonLinearityCalibration", Some "AUTOMATIC")]) None None;
   mkstep "update_to_l2a" None None None;
   mkstep "save" None None None;
   mkstep "frame_select" None None None;
   mkstep "convert_to_electrons" (Some [("KGain", Some "AUTOMATIC")]) None None;
   mkstep "em_gain_division" None None None;
   mkstep "add_photon_noise" None None None;
   mkstep "dark_subtraction" (Some [("DetectorNoiseMaps", Some "AUTOMATIC")]) (Some [("outputdir", KStr "AUTOMATIC")]) None;
   mkstep "desmear" (Some [("DetectorParams", Some "AUTOMATIC")]) None None;
   mkstep "cti_correction" (Some [("TrapCalibration", Some "AUTOMATIC,OPTIONAL")]) None None;
   mkstep "combine_subexposures" None (Some [("num_frames_per_group", KOther "6")]) None;
   mkstep "create_onsky_flatfield" None (Some [("up_radius", KOther "60")]) None;
   mkstep "save" None None None;
   mkstep "create_bad_pixel_map" (Some [("DetectorNoiseMaps", Some "AUTOMATIC"); ("FlatField", Some "AUTOMATIC")]) None None;
   mkstep "save" None None None].

(** corgidrp/recipe_templates/l1_to_boresight.json *)
Definition t_l1_to_boresight : recipe := mkrec "l1_to_boresight" true [("track_individual_errors", false)] [] "" [
   mkstep "prescan_biassub" (Some [("DetectorNoiseMaps", Some "AUTOMATIC")]) (Some [("return_full_frame", KOther "false")]) None;
   mkstep "detect_cosmic_rays" (Some [("DetectorParams", Some "AUTOMATIC"); ("KGain", Some "AUTOMATIC, OPTIONAL")]) None None;
   mkstep "correct_nonlinearity" (Some [("NonLinearityCalibration", Some "AUTOMATIC")]) None None;
   mkstep "update_to_l2a" None None None;
   mkstep "save" None None None;
   mkstep "frame_select" None None None;
   mkstep "convert_to_electrons" (Some [("KGain", Some "AUTOMATIC")]) None None;
   mkstep "em_gain_division" None None None;
   mkstep "add_photon_noise" None None None;
   mkstep "dark_subtraction" (Some [("DetectorNoiseMaps", Some "AUTOMATIC")]) (Some [("outputdir", KStr "AUTOMATIC")]) None;
   mkstep "desmear" (Some [("DetectorParams", Some "AUTOMATIC")]) None None;
   mkstep "cti_correction" (Some [("TrapCalibration", Some "AUTOMATIC,OPTIONAL")]) None None;
   mkstep "flat_division" (Some [("FlatField", Some "AUTOMATIC")]) None None;
   mkstep "correct_bad_pixels" (Some [("BadPixelMap", Some "AUTOMATIC")]) None None;
   mkstep "update_to_l2b" None None None;
   mkstep "save" None None None;
   mkstep "boresight_calibration" None (Some [("frames_to_combine", KOther "24"); ("find_threshold", KOther "5")]) None;
   mkstep "save" None None None].

(** corgidrp/recipe_templates/l1_to_kgain.json *)
Definition t_l1_to_kgain : recipe := mkrec "l1_to_kgain" true [("track_individual_errors", false)] [] "" [
   mkstep "sort_pupilimg_frames" None (Some [("cal_type", KStr "k-gain")]) None;
   mkstep "prescan_biassub" None (Some [("return_full_frame", KOther "true"); ("detector_regions", KOther "{""SCI"": {""frame_rows"": 1200, ""frame_cols"": 2200, ""prescan"": {""rows"": 1200, ""cols"": 1088, ""r0c0"": [0, 0], ""col_start"": 799, ""col_end"": 1000}, ""prescan_reliable"": {""rows"": 901, ""cols"": 201, ""r0c0"": [99, 799]}}}")]) None;
   mkstep "detect_cosmic_rays" (Some [("DetectorParams", Some "AUTOMATIC"); ("KGain", Some "AUTOMATIC, OPTIONAL")]) None None;
   mkstep "calibrate_kgain" None (Some [("detector_regions", KOther "{""SCI"": {""frame_rows"": 1200, ""frame_cols"": 2200, ""prescan"": {""rows"": 1200, ""cols"": 1088, ""r0c0"": [0, 0], ""col_start"": 799, ""col_end"": 1000}, ""prescan_reliable"": {""rows"": 901, ""cols"": 201, ""r0c0"": [99, 799]}}}")]) None;
   mkstep "save" None None None].

(** corgidrp/recipe_templates/l1_to_l2a_basic.json *)
Definition t_l1_to_l2a_basic : recipe := mkrec "l1_to_l2a_basic" true [("track_individual_errors", false)] [] "" [
   mkstep "prescan_biassub" (Some [("DetectorNoiseMaps", Some "AUTOMATIC,OPTIONAL")]) (Some [("return_full_frame", KOther "false")]) None;
   mkstep "detect_cosmic_rays" (Some [("DetectorParams", Some "AUTOMATIC"); ("KGain", Some "AUTOMATIC, OPTIONAL")]) None None;
   mkstep "correct_nonlinearity" (Some [("NonLinearityCalibration", Some "AUTOMATIC")]) None None;
   mkstep "update_to_l2a" None None None;
   mkstep "save" None None None].

(** corgidrp/recipe_templates/l1_to_l2a_eng.json *)
Definition t_l1_to_l2a_eng : recipe := mkrec "l1_to_l2a_eng" true [("track_individual_errors", false)] [] "" [
   mkstep "prescan_biassub" (Some [("DetectorNoiseMaps", Some "AUTOMATIC,OPTIONAL")]) (Some [("return_full_frame", KOther "true")]) None;
   mkstep "detect_cosmic_rays" (Some [("DetectorParams", Some "AUTOMATIC"); ("KGain", Some "AUTOMATIC, OPTIONAL")]) None None;
   mkstep "correct_nonlinearity" (Some [("NonLinearityCalibration", Some "AUTOMATIC")]) None None;
   mkstep "update_to_l2a" None None None;
   mkstep "save" None None None].

(** corgidrp/recipe_templates/l1_to_l2a_noisemap.json *)
Definition t_l1_to_l2a_noisemap : recipe := mkrec "noisemap_generation" true [("track_individual_errors", false)] [] "" [
   mkstep "prescan_biassub" None (Some [("return_full_frame", KOther "true")]) None;
   mkstep "detect_cosmic_rays" (Some [("DetectorParams", Some "AUTOMATIC"); ("KGain", Some "AUTOMATIC, OPTIONAL")]) (Some [("mode", KStr "full")]) None;
   mkstep "correct_nonlinearity" (Some [("NonLinearityCalibration", Some "AUTOMATIC")]) None None;
   mkstep "update_to_l2a" None None None;
   mkstep "save" None None None;
   mkstep "convert_to_electrons" (Some [("KGain", Some "AUTOMATIC")]) None None;
   mkstep "calibrate_darks" (Some [("DetectorParams", Some "AUTOMATIC")]) None None;
   mkstep "save" None None None].

(** corgidrp/recipe_templates/l1_to_l2a_nonlin.json *)
Definition t_l1_to_l2a_nonlin : recipe := mkrec "l1_to_l2a_nonlin" true [("track_individual_errors", false)] [] "" [
   mkstep "sort_pupilimg_frames" None (Some [("cal_type", KStr "non-lin")]) None;
   mkstep "prescan_biassub" None (Some [("return_full_frame", KOther "true"); ("detector_regions", KOther "{""SCI"": {""frame_rows"": 1200, ""frame_cols"": 2200, ""prescan"": {""rows"": 1200, ""cols"": 1088, ""r0c0"": [0, 0], ""col_start"": 799, ""col_end"": 1000}, ""prescan_reliable"": {""rows"": 1200, ""cols"": 201, ""r0c0"": [0, 799]}}}")]) None;
   mkstep "detect_cosmic_rays" (Some [("DetectorParams", Some "AUTOMATIC"); ("KGain", Some "AUTOMATIC, OPTIONAL")]) None None;
   mkstep "calibrate_nonlin" None None None;
   mkstep "save" None None None].

(** corgidrp/recipe_templates/l1_to_l2a_tdd_vap.json *)
Definition t_l1_to_l2a_tdd_vap : recipe := mkrec "l1_to_l2a_basic" true [("track_individual_errors", false)] [] "" [
   mkstep "prescan_biassub" (Some [("DetectorNoiseMaps", Some "AUTOMATIC,OPTIONAL")]) (Some [("return_full_frame", KOther "false"); ("detector_regions", KOther "{""SCI"": {""frame_rows"": 1200, ""frame_cols"": 2200, ""image"": {""rows"": 1024, ""cols"": 1024, ""r0c0"": [13, 1088]}, ""prescan"": {""rows"": 1200, ""cols"": 1088, ""r0c0"": [0, 0], ""col_start"": 800, ""col_end"": 1000}, ""prescan_reliable"": {""rows"": 1200, ""cols"": 1088, ""r0c0"": [0, 0]}, ""parallel_overscan"": {""rows"": 163, ""cols"": 1056, ""r0c0"": [1037, 1088]}, ""serial_overscan"": {""rows"": 1200, ""cols"": 56, ""r0c0"": [0, 2144]}}}")]) None;
   mkstep "detect_cosmic_rays" (Some [("DetectorParams", Some "AUTOMATIC"); ("KGain", Some "AUTOMATIC, OPTIONAL")]) None None;
   mkstep "correct_nonlinearity" (Some [("NonLinearityCalibration", Some "AUTOMATIC")]) None None;
   mkstep "update_to_l2a" None None None;
   mkstep "save" None None None].

(** corgidrp/recipe_templates/l1_to_l2a_tdd_vap_full.json *)
Definition t_l1_to_l2a_tdd_vap_full : recipe := mkrec "l1_to_l2a_basic" true [("track_individual_errors", false)] [] "" [
   mkstep "prescan_biassub" (Some [("DetectorNoiseMaps", Some "AUTOMATIC,OPTIONAL")]) (Some [("return_full_frame", KOther "true"); ("detector_regions", KOther "{""SCI"": {""frame_rows"": 1200, ""frame_cols"": 2200, ""image"": {""rows"": 1024, ""cols"": 1024, ""r0c0"": [13, 1088]}, ""prescan"": {""rows"": 1200, ""cols"": 1088, ""r0c0"": [0, 0], ""col_start"": 800, ""col_end"": 1000}, ""prescan_reliable"": {""rows"": 1200, ""cols"": 1088, ""r0c0"": [0, 0]}, ""parallel_overscan"": {""rows"": 163, ""cols"": 1056, ""r0c0"": [1037, 1088]}, ""serial_overscan"": {""rows"": 1200, ""cols"": 56, ""r0c0"": [0, 2144]}}}")]) None;
   mkstep "detect_cosmic_rays" (Some [("DetectorParams", Some "AUTOMATIC"); ("KGain", Some "AUTOMATIC, OPTIONAL")]) None None;
   mkstep "correct_nonlinearity" (Some [("NonLinearityCalibration", Some "AUTOMATIC")]) None None;
   mkstep "update_to_l2a" None None None;
   mkstep "save" None None None].

(** corgidrp/recipe_templates/l1_to_l2b.json *)
Definition t_l1_to_l2b : recipe := mkrec "l1_to_l2b" true [("track_individual_errors", false)] [] "" [
   mkstep "prescan_biassub" (Some [("DetectorNoiseMaps", Some "AUTOMATIC")]) (Some [("return_full_frame", KOther "false")]) None;
   mkstep "detect_cosmic_rays" (Some [("DetectorParams", Some "AUTOMATIC"); ("KGain", Some "AUTOMATIC, OPTIONAL")]) None None;
   mkstep "correct_nonlinearity" (Some [("NonLinearityCalibration", Some "AUTOMATIC")]) None None;
   mkstep "update_to_l2a" None None None;
   mkstep "save" None None None;
   mkstep "frame_select" None None None;
   mkstep "convert_to_electrons" (Some [("KGain", Some "AUTOMATIC")]) None None;
   mkstep "em_gain_division" None None None;
   mkstep "add_photon_noise" None None None;
   mkstep "dark_subtraction" (Some [("DetectorNoiseMaps", Some "AUTOMATIC")]) (Some [("outputdir", KStr "AUTOMATIC")]) None;
   mkstep "desmear" (Some [("DetectorParams", Some "AUTOMATIC")]) None None;
   mkstep "cti_correction" (Some [("TrapCalibration", Some "AUTOMATIC,OPTIONAL")]) None None;
   mkstep "flat_division" (Some [("FlatField", Some "AUTOMATIC")]) None None;
   mkstep "correct_bad_pixels" (Some [("BadPixelMap", Some "AUTOMATIC")]) None None;
   mkstep "update_to_l2b" None None None;
   mkstep "save" None None None].

(** corgidrp/recipe_templates/l1_to_l2b_pc.json *)
Definition t_l1_to_l2b_pc : recipe := mkrec "l1_to_l2b_pc" true [("track_individual_errors", false)] [] "" [
   mkstep "prescan_biassub" (Some [("DetectorNoiseMaps", Some "AUTOMATIC")]) (Some [("return_full_frame", KOther "false")]) None;
   mkstep "detect_cosmic_rays" (Some [("DetectorParams", Some "AUTOMATIC"); ("KGain", Some "AUTOMATIC")]) None None;
   mkstep "correct_nonlinearity" (Some [("NonLinearityCalibration", Some "AUTOMATIC")]) None None;
   mkstep "update_to_l2a" None None None;
   mkstep "frame_select" None None None;
   mkstep "convert_to_electrons" (Some [("KGain", Some "AUTOMATIC")]) None None;
   mkstep "get_pc_mean" (Some [("Dark", Some "AUTOMATIC")]) None None;
   mkstep "desmear" (Some [("DetectorParams", Some "AUTOMATIC")]) None None;
   mkstep "cti_correction" (Some [("TrapCalibration", Some "AUTOMATIC,OPTIONAL")]) None None;
   mkstep "flat_division" (Some [("FlatField", Some "AUTOMATIC")]) None None;
   mkstep "correct_bad_pixels" (Some [("BadPixelMap", Some "AUTOMATIC")]) None None;
   mkstep "update_to_l2b" None None None;
   mkstep "save" None None None].

(** corgidrp/recipe_templates/l1_to_l2b_pc_dark.json *)
Definition t_l1_to_l2b_pc_dark : recipe := mkrec "l1_to_l2b_pc_dark" true [("track_individual_errors", false)] [] "" [
   mkstep "prescan_biassub" (Some [("DetectorNoiseMaps", Some "AUTOMATIC")]) (Some [("return_full_frame", KOther "false")]) None;
   mkstep "detect_cosmic_rays" (Some [("DetectorParams", Some "AUTOMATIC"); ("KGain", Some "AUTOMATIC")]) None None;
   mkstep "correct_nonlinearity" (Some [("NonLinearityCalibration", Some "AUTOMATIC")]) None None;
   mkstep "update_to_l2a" None None None;
   mkstep "frame_select" None None None;
   mkstep "convert_to_electrons" (Some [("KGain", Some "AUTOMATIC")]) None None;
   mkstep "get_pc_mean" None (Some [("inputmode", KStr "darks")]) None;
   mkstep "save" None None None].

(** corgidrp/recipe_templates/l2a_build_trad_dark_image.json *)
Definition t_l2a_build_trad_dark_image : recipe := mkrec "build_trad_dark_l2a" true [("track_individual_errors", false)] [] "" [
   mkstep "convert_to_electrons" (Some [("KGain", Some "AUTOMATIC")]) None None;
   mkstep "em_gain_division" None None None;
   mkstep "build_trad_dark" (Some [("DetectorParams", Some "AUTOMATIC")]) None None;
   mkstep "save" None None None].

(** corgidrp/recipe_templates/l2a_to_l2a_noisemap.json *)
Definition t_l2a_to_l2a_noisemap : recipe := mkrec "noisemap_generation" true [("track_individual_errors", false)] [] "" [
   mkstep "convert_to_electrons" (Some [("KGain", Some "AUTOMATIC")]) None None;
   mkstep "calibrate_darks" (Some [("DetectorParams", Some "AUTOMATIC")]) None None;
   mkstep "save" None None None].

(** corgidrp/recipe_templates/l2a_to_l2b.json *)
Definition t_l2a_to_l2b : recipe := mkrec "l2a_to_l2b" true [("track_individual_errors", false)] [] "" [
   mkstep "frame_select" None None None;
   mkstep "convert_to_electrons" (Some [("KGain", Some "AUTOMATIC")]) None None;
   mkstep "em_gain_division" None None None;
   mkstep "add_photon_noise" None None None;
   mkstep "dark_subtraction" (Some [("DetectorNoiseMaps", Some "AUTOMATIC")]) (Some [("outputdir", KStr "AUTOMATIC")]) None;
   mkstep "desmear" (Some [("DetectorParams", Some "AUTOMATIC")]) None None;
   mkstep "cti_correction" (Some [("TrapCalibration", Some "AUTOMATIC,OPTIONAL")]) None None;
   mkstep "flat_division" (Some [("FlatField", Some "AUTOMATIC")]) None None;
   mkstep "correct_bad_pixels" (Some [("BadPixelMap", Some "AUTOMATIC")]) None None;
   mkstep "update_to_l2b" None None None;
   mkstep "save" None None None].

(** corgidrp/recipe_templates/l2a_to_l2b_pc.json *)
Definition t_l2a_to_l2b_pc : recipe := mkrec "l2a_to_l2b_pc" true [("track_individual_errors", false)] [] "" [
   mkstep "frame_select" None None None;
   mkstep "convert_to_electrons" (Some [("KGain", Some "AUTOMATIC")]) None None;
   mkstep "get_pc_mean" (Some [("Dark", Some "AUTOMATIC")]) None None;
   mkstep "desmear" (Some [("DetectorParams", Some "AUTOMATIC")]) None None;
   mkstep "cti_correction" (Some [("TrapCalibration", Some "AUTOMATIC,OPTIONAL")]) None None;
   mkstep "flat_division" (Some [("FlatField", Some "AUTOMATIC")]) None None;
   mkstep "correct_bad_pixels" (Some [("BadPixelMap", Some "AUTOMATIC")]) None None;
   mkstep "update_to_l2b" None None None;
   mkstep "save" None None None].

(** corgidrp/recipe_templates/l2a_to_l2b_pc_dark.json *)
Definition t_l2a_to_l2b_pc_dark : recipe := mkrec "l2a_to_l2b_pc_dark" true [("track_individual_errors", false)] [] "" [
   mkstep "frame_select" None None None;
   mkstep "convert_to_electrons" (Some [("KGain", Some "AUTOMATIC")]) None None;
   mkstep "get_pc_mean" None (Some [("inputmode", KStr "darks")]) None;
   mkstep "save" None None None].

(** corgidrp/recipe_templates/l2a_to_l2b_tdd_vap.json *)
Definition t_l2a_to_l2b_tdd_vap : recipe := mkrec "l2a_to_l2b" true [("track_individual_errors", false)] [] "/Users/ygouf/git/cgi-sit/13-tdd/vi_tdd_04_iit_data_processing/output_drp_L2b/" [
   mkstep "frame_select" None None None;
   mkstep "convert_to_electrons" (Some [("KGain", Some "AUTOMATIC")]) None None;
   mkstep "em_gain_division" None None None;
   mkstep "add_photon_noise" None None None;
   mkstep "dark_subtraction" (Some [("DetectorNoiseMaps", Some "AUTOMATIC")]) (Some [("outputdir", KStr "AUTOMATIC")]) None;
   mkstep "desmear" (Some [("DetectorParams", Some "AUTOMATIC")]) None None;
   mkstep "cti_correction" (Some [("TrapCalibration", Some "AUTOMATIC,OPTIONAL")]) None None;
   mkstep "flat_division" (Some [("FlatField", Some "AUTOMATIC")]) None None;
   mkstep "correct_bad_pixels" (Some [("BadPixelMap", Some "AUTOMATIC")]) None None;
   mkstep "update_to_l2b" None None None;
   mkstep "save" None None None].

(** corgidrp/recipe_templates/l2b_to_corethroughput.json *)
Definition t_l2b_to_corethroughput : recipe := mkrec "l2b_to_corethroughput" true [("track_individual_errors", false)] [] "" [
   mkstep "divide_by_exptime" None None None;
   mkstep "generate_ct_cal" None None None;
   mkstep "save" None None None].

(** corgidrp/recipe_templates/l2b_to_fluxcal_factor.json *)
Definition t_l2b_to_fluxcal_factor : recipe := mkrec "l2b_to_fluxcal_factor" true [("track_individual_errors", false)] [] "" [
   mkstep "divide_by_exptime" None None None;
   mkstep "calibrate_fluxcal_aper" None (Some [("phot_kwargs", KOther "{""encircled_radius"": 4}")]) None;
   mkstep "save" None None None].

(** corgidrp/recipe_templates/l2b_to_l3.json *)
Definition t_l2b_to_l3 : recipe := mkrec "l2b_to_l3" true [("track_individual_errors", false)] [] "" [
   mkstep "create_wcs" (Some [("AstrometricCalibration", Some "AUTOMATIC")]) None None;
   mkstep "divide_by_exptime" None None None;
   mkstep "update_to_l3" None None None;
   mkstep "save" None None None].

(** corgidrp/recipe_templates/l2b_to_l4.json *)
Definition t_l2b_to_l4 : recipe := mkrec "l2b_to_l4" true [("track_individual_errors", false)] [] "" [
   mkstep "create_wcs" (Some [("AstrometricCalibration", Some "AUTOMATIC")]) None None;
   mkstep "divide_by_exptime" None None None;
   mkstep "update_to_l3" None None None;
   mkstep "save" None None None;
   mkstep "distortion_correction" (Some [("AstrometricCalibration", Some "AUTOMATIC")]) None None;
   mkstep "find_star" None None None;
   mkstep "do_psf_subtraction" None None None;
   mkstep "update_to_l4" (Some [("CoreThroughputCalibration", Some "AUTOMATIC"); ("FluxcalFactor", Some "AUTOMATIC")]) None None;
   mkstep "save" None None None].

(** corgidrp/recipe_templates/l3_to_l4.json *)
Definition t_l3_to_l4 : recipe := mkrec "l3_to_l4" true [("track_individual_errors", false)] [] "" [
   mkstep "distortion_correction" (Some [("AstrometricCalibration", Some "AUTOMATIC")]) None None;
   mkstep "find_star" None None None;
   mkstep "do_psf_subtraction" (Some [("CoreThroughputCalibration", Some "AUTOMATIC")]) None None;
   mkstep "update_to_l4" (Some [("CoreThroughputCalibration", Some "AUTOMATIC"); ("FluxcalFactor", Some "AUTOMATIC")]) None None;
   mkstep "save" None None None].

(** corgidrp/recipe_templates/l3_to_l4_nopsfsub.json *)
Definition t_l3_to_l4_nopsfsub : recipe := mkrec "l3_to_l4_noncoron" true [("track_individual_errors", false)] [] "" [
   mkstep "distortion_correction" (Some [("AstrometricCalibration", Some "AUTOMATIC")]) None None;
   mkstep "northup" None None None;
   mkstep "combine_subexposures" None (Some [("num_frames_scaling", KOther "false")]) None;
   mkstep "update_to_l4" (Some [("CoreThroughputCalibration", Some "AUTOMATIC,OPTIONAL"); ("FluxcalFactor", Some "AUTOMATIC")]) None None;
   mkstep "save" None None None].

(** corgidrp/recipe_templates/test.json *)
Definition t_test : recipe := mkrec "l1_to_l2a_nonlin" true [("track_individual_errors", false)] [] "" [
   mkstep "prescan_biassub" None (Some [("return_full_frame", KOther "true"); ("detector_regions", KOther "{""SCI"": {""frame_rows"": 1200, ""frame_cols"": 2200, ""prescan"": {""rows"": 1200, ""cols"": 1088, ""r0c0"": [0, 0], ""col_start"": 799, ""col_end"": 1000}, ""prescan_reliable"": {""rows"": 1200, ""cols"": 201, ""r0c0"": [0, 799]}}}")]) None;
   mkstep "detect_cosmic_rays" (Some [("DetectorParams", Some "AUTOMATIC"); ("KGain", Some "AUTOMATIC, OPTIONAL")]) None None;
   mkstep "sort_pupilimg_frames" None (Some [("cal_type", KStr "non-lin")]) None;
   mkstep "calibrate_nonlin" None None None;
   mkstep "save" None None None].

(** corgidrp/recipe_templates/trap_pump_cal.json *)
Definition t_trap_pump_cal : recipe := mkrec "trap_pump_cal" true [("track_individual_errors", false)] [] "" [
   mkstep "prescan_biassub" (Some [("DetectorNoiseMaps", Some "AUTOMATIC,OPTIONAL")]) (Some [("use_imaging_area", KOther "true")]) None;
   mkstep "correct_nonlinearity" (Some [("NonLinearityCalibration", Some "AUTOMATIC")]) None None;
   mkstep "update_to_l2a" None None None;
   mkstep "em_gain_division" None None None;
   mkstep "calibrate_trap_pump" None None None;
   mkstep "save" None None None].

(** the directory: file name -> content *)
Definition templates : list (string * recipe) :=
  [("bp_map.json", t_bp_map);
   ("build_trad_dark_full_frame.json", t_build_trad_dark_full_frame);
   ("build_trad_dark_image.json", t_build_trad_dark_image);
   ("l1_flat_and_bp.json", t_l1_flat_and_bp);
   ("l1_to_boresight.json", t_l1_to_boresight);
   ("l1_to_kgain.json", t_l1_to_kgain);
   ("l1_to_l2a_basic.json", t_l1_to_l2a_basic);
   ("l1_to_l2a_eng.json", t_l1_to_l2a_eng);
   ("l1_to_l2a_noisemap.json", t_l1_to_l2a_noisemap);
   ("l1_to_l2a_nonlin.json", t_l1_to_l2a_nonlin);
   ("l1_to_l2a_tdd_vap.json", t_l1_to_l2a_tdd_vap);
   ("l1_to_l2a_tdd_vap_full.json", t_l1_to_l2a_tdd_vap_full);
   ("l1_to_l2b.json", t_l1_to_l2b);
   ("l1_to_l2b_pc.json", t_l1_to_l2b_pc);
   ("l1_to_l2b_pc_dark.json", t_l1_to_l2b_pc_dark);
   ("l2a_build_trad_dark_image.json", t_l2a_build_trad_dark_image);
   ("l2a_to_l2a_noisemap.json", t_l2a_to_l2a_noisemap);
   ("l2a_to_l2b.json", t_l2a_to_l2b);
   ("l2a_to_l2b_pc.json", t_l2a_to_l2b_pc);
   ("l2a_to_l2b_pc_dark.json", t_l2a_to_l2b_pc_dark);
   ("l2a_to_l2b_tdd_vap.json", t_l2a_to_l2b_tdd_vap);
   ("l2b_to_corethroughput.json", t_l2b_to_corethroughput);
   ("l2b_to_fluxcal_factor.json", t_l2b_to_fluxcal_factor);
   ("l2b_to_l3.json", t_l2b_to_l3);
   ("l2b_to_l4.json", t_l2b_to_l4);
   ("l3_to_l4.json", t_l3_to_l4);
   ("l3_to_l4_nopsfsub.json", t_l3_to_l4_nopsfsub);
   ("test.json", t_test);
   ("trap_pump_cal.json", t_trap_pump_cal)].
