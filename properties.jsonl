{"id": "C01", "title": "Calibration database keeps one row per file", "statement": "After any history of create_entry, remove_entry and scan operations on a CalDB, the table has at most one row for each absolute file path; the row of a path holds the metadata of the last entry created for it (and no row exists if the last operation on it was a removal); rows of other paths are left exactly as they were, in the same order; removing a path that is absent raises ValueError and changes nothing.", "quantifier": "all finite sequences of database operations over all entries, from any database that starts with one row per path", "why_tests_cant": "The property is an invariant over unbounded operation histories; tests exercise one or two operations.", "anchors": ["corgidrp/caldb.py: CalDB.create_entry, CalDB.remove_entry, CalDB.scan_dir_for_new_entries"]}
{"id": "C02", "title": "get_calib returns the best matching calibration", "statement": "get_calib(frame, type) returns the file of a row of the requested type; for Dark the row has exactly the frame's exposure time; no eligible row is strictly closer in observation time to the frame (with no frame: none was created strictly later); ties resolve to the oldest row in the table; if no row is eligible it raises ValueError and never returns a row of another type; the database is not modified.", "quantifier": "all database contents, all frames (including None), all calibration types", "why_tests_cant": "Optimality is a statement about every row of an arbitrary table, including ties and orderings tests do not enumerate.", "anchors": ["corgidrp/caldb.py: CalDB.get_calib"]}
{"id": "C03", "title": "CalDB instances sharing a file behave as one database, except for the documented races", "statement": "Any sequential history of to_disk=True operations issued through any number of CalDB objects opened on the same CSV file has the same results as the same history on one in-memory map, and the file always holds that map. The guarantee stops there, and the boundary is exact: two operations whose load/save windows overlap can lose an update, an entry created with to_disk=False is lost when the same object next loads, and a crash in the middle of a save can leave a file that is neither the old nor the new table.", "quantifier": "all sequential histories over any number of instances; all interleavings of two operations; all crash points inside a save", "why_tests_cant": "Requires quantifying over histories, interleavings and crash points.", "anchors": ["corgidrp/caldb.py: CalDB.__init__, load, save, create_entry, remove_entry, get_calib"]}
{"id": "C04", "title": "Frames of a Dataset are live views of its cubes", "statement": "After constructing a Dataset, writing pixel p of frame i changes exactly element (i,p) of the corresponding all_data/all_err/all_dq cube and nothing else, and vice versa; this link survives every sequence of update_after_processing_step (whether or not it raises), add_error_term and rescale_error calls that return. update_after_processing_step writes exactly the given cubes, the history card and the header entries. Two limits are exact: an update rejected for its error or DQ shape has already replaced the data, and an error method that raises half way leaves the frames it processed disconnected.", "quantifier": "all datasets, all frames and pixels, all sequences of these operations", "why_tests_cant": "An aliasing invariant over arbitrary sequences of mutations.", "anchors": ["corgidrp/data.py: Dataset.__init__, update_after_processing_step, add_error_term, rescale_error"]}
{"id": "C05", "title": "Sub-datasets hold the selected frames; only the selected frames leave the parent", "statement": "Slicing a dataset (also inside split_dataset) gives a linked dataset with the selected frames in order and their pixels; the parent's cubes keep their contents and the frames not selected stay live views of the parent. The selected frames do not: after slicing, every write through a selected frame of the parent is visible in the sub-dataset's cube and never in the parent's (violating what a user of C04 expects).", "quantifier": "all datasets and all index selections", "why_tests_cant": "Depends on object identity across any sequence of slicing operations.", "anchors": ["corgidrp/data.py: Dataset.__getitem__, Dataset.split_dataset, Dataset.__init__", "corgidrp/l2a_to_l2b.py: em_gain_division"]}
{"id": "C06", "title": "Copies are independent of their source", "statement": "Dataset.copy() gives an equal dataset (up to the version stamps) such that, in any interleaving of later operations on the two, no operation on one is visible in data, err, dq or headers of the other. With copy_data=False pixels are still independent for every later history, but headers are the same objects: every keyword set through the copy is set in the original (so step functions that use it change their input's headers, contrary to the documentation).", "quantifier": "all datasets, all subsequent write sequences through the copy", "why_tests_cant": "Non-interference over arbitrary later writes.", "anchors": ["corgidrp/data.py: Image.copy, Dataset.copy", "corgidrp/l1_to_l2a.py: update_to_l2a, prescan_biassub"]}
{"id": "C07", "title": "split_dataset partitions the frames", "statement": "split_dataset returns non-empty groups; two frames are in the same group iff they agree on every listed keyword; every frame appears in exactly one group; inside a group frames keep their order; the returned list of key tuples is duplicate free, sorted, and aligned with the groups.", "quantifier": "all datasets and all non-empty keyword lists (values that compare equal only to themselves)", "why_tests_cant": "Partition laws over every dataset and key set.", "anchors": ["corgidrp/data.py: Dataset.split_dataset"]}
{"id": "C08", "title": "Data level advances one step at a time", "statement": "update_to_l2a/l2b/l3/l4/tda succeed iff every frame is at the immediately preceding level, and then all frames are at the new level with pixels and all other keywords unchanged; otherwise they raise (ValueError, or KeyError for a missing level) and nothing has changed. Consequently in any sequence of calls the successful ones are exactly the consecutive levels in order, and a dataset with mixed levels never advances. Limits, also proved: the result shares its headers with the input, so the input is advanced too and the same call on it raises ValueError the second time; update_to_l4 without a flux calibration raises AttributeError after it has already set the first frame's level to L4.", "quantifier": "all datasets with arbitrary per-frame levels; all sequences of level updates", "why_tests_cant": "State-machine reachability over all call sequences.", "anchors": ["corgidrp/l1_to_l2a.py: update_to_l2a", "corgidrp/l2a_to_l2b.py: update_to_l2b", "corgidrp/l2b_to_l3.py: update_to_l3", "corgidrp/l3_to_l4.py: update_to_l4", "corgidrp/l4_to_tda.py: update_to_tda"]}
{"id": "C09", "title": "File names follow the data level", "statement": "For a name whose first level tag is the frame's level tag, each level update replaces exactly that tag and keeps every other character, the new tag is again the first tag, so distinct input names give distinct output names and the whole chain turns a_L1_b into a_TDA_b; names without the tag are unchanged. Limit, also proved: names that do not follow the convention (one tagged, one already carrying the new tag) can collide.", "quantifier": "all file names, all level updates", "why_tests_cant": "Ranges over all strings, including names containing several tags or overlapping tags.", "anchors": ["corgidrp/l1_to_l2a.py: update_to_l2a", "corgidrp/l2a_to_l2b.py: update_to_l2b", "corgidrp/l2b_to_l3.py: update_to_l3", "corgidrp/l3_to_l4.py: update_to_l4", "corgidrp/l4_to_tda.py: update_to_tda"]}
{"id": "C10", "title": "Parent file records are complete and duplicate free", "statement": "After recording parents, a product's header lists DRPNFILE distinct names FILE0.. which are exactly the names of the input frames plus all names recorded in those frames; hence over any combination tree every raw input is recorded at the root.", "quantifier": "all datasets and all combination trees of any depth", "why_tests_cant": "Transitive closure over arbitrary trees.", "anchors": ["corgidrp/data.py: Image._record_parent_filenames", "corgidrp/combine.py: combine_subexposures"]}
{"id": "C11", "title": "combine_subexposures groups consecutive frames exactly once", "statement": "With n frames and group size g dividing n, the result has n/g frames, frame k being built from input frames k*g..k*g+g-1 and no others, with header of the first and file name of the last of them and NUM_FR = g; if g does not divide n or collapse is not mean/median it raises ValueError (g = 0: ZeroDivisionError; an input announcing a FILE card it lacks: KeyError); no pixel or header of the input changes.", "quantifier": "all dataset lengths and group sizes, all pixel contents", "why_tests_cant": "Index arithmetic for every n and g.", "anchors": ["corgidrp/combine.py: combine_subexposures"]}
{"id": "C12", "title": "combine_images uses exactly the good samples", "statement": "At each pixel the combined value depends only on samples whose DQ is 0, is their mean (median), scaled by the total number of frames if requested, the squared error is the sum of their squared errors over n_good^2 (times pi/2 for the median), the DQ is 0 if any sample was good and otherwise the OR of all flags; a pixel with no good sample is NaN with a non-zero DQ. This holds when unflagged samples are finite; an unflagged NaN is skipped in the value but still counted in the number of samples the error is divided by, and if all unflagged samples are NaN the result is NaN with DQ equal to the OR of the flags (possibly 0).", "quantifier": "all stacks of images of any depth and size with any DQ pattern", "why_tests_cant": "Per-pixel semantics for every combination of flags, including all-bad pixels.", "anchors": ["corgidrp/combine.py: combine_images"]}
{"id": "C13", "title": "DQ flags are never lost along the L1 to L2b steps", "statement": "detect_cosmic_rays, correct_nonlinearity, em_gain_division, dark_subtraction, flat_division and nan_flags only add DQ bits: every bit set in the input DQ of a pixel is still set in the output of any sequence of them, and the only new bits are the documented ones of that step at the documented pixels. correct_bad_pixels keeps the lowest eight bits and clears all higher ones (bit 8, TBD, is lost). flag_nans replaces the DQ of NaN pixels by its flag value.", "quantifier": "all DQ values (any bit pattern), all pixels, any sequence of these steps", "why_tests_cant": "Monotonicity for every bit pattern through arbitrary compositions.", "anchors": ["corgidrp/l1_to_l2a.py: detect_cosmic_rays, correct_nonlinearity", "corgidrp/l2a_to_l2b.py: dark_subtraction, flat_division, correct_bad_pixels", "corgidrp/detector.py: flag_nans, nan_flags"]}
{"id": "C14", "title": "Bad pixels are replaced and recorded", "statement": "After correct_bad_pixels a pixel is NaN with bit 1 set and its old low bits and map bits kept iff one of the lowest eight bits of its DQ or of the bad-pixel map entry was set; other pixels keep their value and get DQ 0 (so a pixel whose only flag is bit 8 is neither replaced nor flagged any more); the step is idempotent; error maps are unchanged.", "quantifier": "all images, DQ cubes and bad pixel maps", "why_tests_cant": "Equivalence over all bit patterns and images.", "anchors": ["corgidrp/l2a_to_l2b.py: correct_bad_pixels"]}
{"id": "C15", "title": "64-bit DQ packing round trip", "statement": "packbits_64uint inverts unpackbits_64uint on every 64-bit array and conversely; element 63-k of the unpacked axis is bit k; the flag/bit/value maps are mutually inverse bijections.", "quantifier": "all arrays of 64-bit unsigned integers, all bit arrays; packing along the last axis", "why_tests_cant": "2^64 values per element and all lengths.", "anchors": ["corgidrp/data.py: unpackbits_64uint, packbits_64uint, get_flag_to_bit_map, get_flag_to_value_map, get_value_to_flag_map, get_bit_to_flag_map"]}
{"id": "C16", "title": "Error terms add in quadrature", "statement": "After any sequence of add_error_term calls the squared total error (layer 1) is the initial squared error plus the sum of squares of the added terms, independent of their order; with individual tracking, layer k+1 is the k-th added term unchanged and its name is recorded as Layer_(k+1); without tracking there is exactly one layer.", "quantifier": "all sequences of error terms of any length and shape", "why_tests_cant": "Unbounded accumulation and order independence.", "anchors": ["corgidrp/data.py: Image.add_error_term, Dataset.add_error_term, Image.rescale_error"]}
{"id": "C17", "title": "frame_select decision and bookkeeping", "statement": "With discard_bad a frame is kept iff none of the enabled criteria rejects it (bad-pixel fraction over disallowed DQ bits > bpix_frac, OVEREXP set, Z2VAR/Z3VAR above tt_rms_thres, Z2RES/Z3RES above tt_bias_thres); kept frames keep their order and content; the reject code's bits identify exactly the criteria violated; if none survives it raises ValueError; with discard_bad False all frames are kept and exactly the rejected ones are marked IS_BAD.", "quantifier": "all datasets with non-negative DQ values, all header values and threshold settings (exact arithmetic)", "why_tests_cant": "Full decision table over unbounded datasets.", "anchors": ["corgidrp/l2a_to_l2b.py: frame_select"]}
{"id": "C18", "title": "Automatic recipe choice is a total decision table on the first frame", "statement": "guess_template returns the documented recipe for each data level / visit type / photon counting / number of distinct (EXPTIME, EMGAIN_C, KGAINPAR) settings, raises NotImplementedError exactly for levels without a recipe, and depends on other frames only through the number of distinct settings of dark data.", "quantifier": "all header values of all frames", "why_tests_cant": "All combinations of header values.", "anchors": ["corgidrp/walker.py: guess_template"]}
{"id": "C19", "title": "Calibrations are resolved for exactly the automatic entries", "statement": "Filling in a recipe step changes only the calibs values that contain AUTOMATIC (in any case): each becomes the best file of that type, or None when missing and OPTIONAL, or None with the step marked skipped when missing and skip_missing_cal_steps is set, or raises ValueError otherwise (entries before it stay filled in); explicit file names are kept. A step marked skipped before it is reached is not executed. Limits proved: with just-in-time resolution a step whose calibration is missing is marked skipped and still executed, with None as its calibration; an entry already resolved to None cannot be processed again.", "quantifier": "all recipes, databases and settings of skip_missing_cal_steps and jit_calib_id", "why_tests_cant": "Interaction of per-step, per-recipe and global settings over all recipes.", "anchors": ["corgidrp/walker.py: _fill_in_calib_files, autogen_recipe, run_recipe"]}
{"id": "C20", "title": "run_recipe executes the steps in order on the running result", "statement": "run_recipe applies exactly the non-skipped steps in list order, each to the result of the previous one, passing calibrations positionally in recipe order and keywords by name; 'save' steps write the frames of the current result in order and change only their file name and directory, then register the calibrations; an unknown step name raises KeyError before that step changes anything (also if it is marked skipped); a failing run has executed exactly the steps before the failing one. The recipe is unchanged unless calibrations are resolved just in time. Limits proved: the settings of a recipe stay in force for later recipes; 'save' with no data raises AttributeError.", "quantifier": "all recipes of any length", "why_tests_cant": "Fold semantics for every step list.", "anchors": ["corgidrp/walker.py: run_recipe, save_data"]}
{"id": "C21", "title": "Generating a recipe does not depend on earlier recipes", "statement": "autogen_recipe without a template returns fresh recipes, one for each template chosen for the files, with the template's inputs followed by exactly that file list, the output directory and calibrations filled in, and changes no other recipe or template object. Limits proved: with a template object given, the recipe shares its inputs and steps with it: after any sequence of calls every recipe returned has the inputs of all the calls, a failing call has appended its files too, and a template in which an optional calibration was missing once is refused afterwards; an empty file list without a template raises UnboundLocalError.", "quantifier": "all templates, all sequences of file lists", "why_tests_cant": "A hyperproperty over call histories.", "anchors": ["corgidrp/walker.py: autogen_recipe"]}
{"id": "C22", "title": "Output file naming with suffix", "statement": "Saving with a suffix writes a frame to <name up to its last .fits, in any case>_<suffix>.fits in the output directory; two names ending in .fits (any case) are given the same output exactly when they are equal up to the case of the extension; leading and trailing underscores of the suffix are irrelevant. Limit proved: a name without .fits loses its last character, so distinct names can collide.", "quantifier": "all file names ending in .fits (any case) and all suffixes", "why_tests_cant": "All strings.", "anchors": ["corgidrp/walker.py: save_data"]}
{"id": "C23", "title": "FTIMEUTC stamps round to the nearest tenth of a second", "statement": "format_ftimeutc(s), for text s meaning a valid calendar time (with an optional UTC offset), returns exactly the text YYYYMMDDThhmmsst of the calendar time that is the nearest multiple of 0.1 s (halves up) to the instant meant, with carries through seconds, minutes, hours, days, months and (leap) years; the fields have fixed width (16 characters from year 1000 on), grid times are kept, and stamps compare as strings exactly as the rounded instants do, so they are monotone and equal only for equal rounded instants. It raises only on unreadable text (ValueError) and when the result would leave the years 1 to 9999 (OverflowError). Limit: below year 1000, where strftime does not pad, order and width fail.", "quantifier": "all valid calendar times with microsecond resolution, all UTC offsets, both paddings of %Y", "why_tests_cant": "All microseconds of all days, including carries at every boundary.", "anchors": ["corgidrp/data.py: format_ftimeutc"]}
{"id": "C24", "title": "embed and slice_section are inverse", "statement": "For a region that fits in its frame (all regions of the shipped table do), slice_section(embed(d)) = d for every sub-frame of the region's shape, pixels of the full frame outside the region equal the pad value, and embedding a slice changes nothing inside the region; a single row or column of data is repeated over the region (numpy broadcasting), data of any other shape raises; slicing a region that starts beyond the frame raises.", "quantifier": "all sub-frames, all regions that fit in the frame", "why_tests_cant": "All geometries and contents.", "anchors": ["corgidrp/detector.py: slice_section, embed, unpack_geom, imaging_area_geom, detector_areas"]}
{"id": "C25", "title": "Prescan bias is taken from the same rows and the declared columns", "statement": "prescan_biassub subtracts from each image row r the median of the declared reliable prescan columns of the same physical detector row, less the bias offset, and crops DQ and errors to the same area: for SCI, ENG and ENG_EM frames with the shipped geometry (image area and full frame; imaging area for SCI and ENG), and in full-frame and imaging mode for every custom detector_regions table. Frames of the wrong shape or array type are rejected. Limits: with a custom table the image-area rows are aligned with the shipped table's row offset, not the custom one; for ENG_CONV the shipped column limits select no pixel so the bias is the median of an empty array; the imaging area of ENG_EM and ENG_CONV starts at row -9 and comes out empty.", "quantifier": "all frames, all array types, all detector_regions", "why_tests_cant": "Geometry must hold for each region table and row.", "anchors": ["corgidrp/l1_to_l2a.py: prescan_biassub", "corgidrp/detector.py: detector_areas, slice_section, imaging_slice"]}
{"id": "C26", "title": "Cosmic ray mask covers plateau, box and tail and nothing else", "statement": "In image mode the mask is exactly the union over detected plateau starts of the row segment [start, start+cosm_filter+cosm_tail] clipped to the row and the (2*cosm_box+1)-square box clipped to the image. In full mode only plateau starts in the image area or in the one row and one column directly after it count; their row segments are masked, their boxes are masked within that extended area (so a box can reach one row and one column beyond the image area), and a segment longer than the row continues on the next row up to but not including its last pixel.", "quantifier": "all frames of any size, all thresholds, filter, box and tail lengths", "why_tests_cant": "All sizes and clipping cases.", "anchors": ["corgidrp/detector.py: flag_cosmics, find_plateaus"]}
{"id": "C27", "title": "Plateau starts are found exactly", "statement": "find_plateaus returns, sorted and without duplicates, for each saturated (median-filtered) column the start of the maximal run of pixels at or above the plateau threshold ending there (the pixel after it if that column itself is below the plateau threshold); it returns None iff nothing is saturated.", "quantifier": "all rows of any length and all thresholds", "why_tests_cant": "While-loop behaviour on all rows.", "anchors": ["corgidrp/detector.py: find_plateaus"]}
{"id": "C28", "title": "One EM gain policy", "statement": "Every step that needs an EM gain uses the measured gain if present, else the applied gain if positive, else the commanded gain, for each frame separately; saturation limits are min(gain*FWC_PP, FWC_EM)*sat_thresh of that frame. Limits: cosmic ray detection forgets measured gains (fails if all are measured, fails or mixes frames for mixtures); division by the gain also needs the commanded gain card; the nonlinearity stack takes one gain per set from its first frame by the same policy when no gain is measured, but one per frame when all are measured, after which calibrate_nonlin always rejects the stack; the K-gain gain is the mean over sets of the first frame's gain when unmeasured, over all frames when measured.", "quantifier": "all datasets with any mixture of headers", "why_tests_cant": "Per-frame selection over mixed datasets.", "anchors": ["corgidrp/l1_to_l2a.py: detect_cosmic_rays, correct_nonlinearity", "corgidrp/l2a_to_l2b.py: em_gain_division, add_photon_noise", "corgidrp/calibrate_nonlin.py: nonlin_dataset_2_stack", "corgidrp/calibrate_kgain.py: kgain_dataset_2_list"]}
{"id": "C29", "title": "Desmear inverts readout smear", "statement": "For every column, desmear returns the unique image whose smeared version (each row plus rowreadtime/exptime times the sum of all rows read through, itself included) is the input; it is linear and acts on each column and frame separately.", "quantifier": "all images of any height, all positive read and exposure times (exact arithmetic)", "why_tests_cant": "An algebraic identity for all heights.", "anchors": ["corgidrp/l2a_to_l2b.py: desmear"]}
{"id": "C30", "title": "Traditional master dark quality flags", "statement": "build_trad_dark's pixel value is the mean of the unmasked samples (0 if there is none and in telemetry rows); its error combines the propagated error of the mean with the standard error of the samples; a pixel never unmasked gets DQ 1; a pixel masked in more than half of the frames gets flag 256; all others (also those masked in exactly half of them) get 0. The cropped dark is the image area of the full-frame one. A telemetry row or a NaN inside the image area of any frame is refused.", "quantifier": "all stacks and masks of any depth", "why_tests_cant": "Boundary cases for every number of frames.", "anchors": ["corgidrp/darks.py: mean_combine, build_trad_dark"]}
{"id": "C31", "title": "Synthesized dark formula", "statement": "The synthesized dark is FPN/g + exptime*dark_current + CIC for the gain g (measured, else applied, else commanded) and exposure time of the frames, with errors in quadrature, DQ the OR of the three maps, and cropping to the image area commutes with the construction. Maps of a wrong shape, negative dark current or clock-induced charge, and gains below 1 are refused.", "quantifier": "all noise maps, gains and exposure times", "why_tests_cant": "Pixelwise law for every input.", "anchors": ["corgidrp/darks.py: build_synthesized_dark", "corgidrp/l2a_to_l2b.py: dark_subtraction"]}
{"id": "C32", "title": "Photon counting: detections, rate estimates, errors and bins", "statement": "get_pc_mean succeeds exactly when its documented conditions hold and then returns, per bin of bin_size consecutive frames (the remainder unused): a detection is an unflagged pixel strictly above T_factor read noises; the rate of a pixel with k detections in n usable frames is niter steps of Newton's method, with the true derivative, for the truncated-Poisson/Erlang detection probability (0 if k = 0); the mean is max(0, rate - dark) with the dark slice of the bin modulo the number of slices; the error combines upper and lower estimates; the pixel is flagged iff it is flagged in every frame, plus the dark's flags. The detection probability is strictly increasing and below its limit, so a rate explaining the counts exists iff k/n is below that limit, is unique, and is the only fixed point of the iteration. Exact limits: a negative estimate raises whatever safemode is; without input errors the reported error is the variance, not its root; a dark names unused frames as parents iff the remainder has at least as many frames as there are bins.", "quantifier": "all datasets, headers, masks, darks, thresholds, gains, bin sizes, numbers of iterations and real rates", "why_tests_cant": "Analytic identities, uniqueness and monotonicity over real parameters, and exact behaviour over all stacks and bin sizes.", "anchors": ["corgidrp/photon_counting.py: photon_count, get_pc_mean, _calc_func, _calc_dfunc, varL23"]}
{"id": "C33", "title": "Mean-frame selection picks the longest run of consecutive frame ids", "statement": "When frames of one gain have different frame numbers, sort_pupilimg_frames succeeds exactly when every frame has a commanded gain, every unity-gain frame an exposure time, the calibration type is one of the accepted spellings, and each selected frame has a readable number and a visit type; then: the MNFRAME frames are those of the most populated unity-gain exposure time (the shortest on a tie) whose numbers lie in the first longest run of consecutive integers; the KGAIN frames are the other unity-gain frames, in order of number, up to and including the only stretch of equal exposure time that returns to an exposure time used before; the NONLIN frames (only for that type) are, for each other gain in increasing order, the first longest stretch of strictly increasing exposure times closed by a return to one of them. With distinct paths no frame gets two labels, and no frame of the mean exposure time outside the run is used. A second returning stretch makes the call raise TypeError (the larger sequence is never chosen), and the K-gain exposure times need not have equal numbers of frames or consecutive numbers.", "quantifier": "all datasets with any frame ids and exposure times", "why_tests_cant": "Run detection over arbitrary id sets.", "anchors": ["corgidrp/sorting.py: extract_frame_id, sort_pupilimg_frames"]}
{"id": "C34", "title": "Cropping keeps coordinates consistent", "statement": "crop of well-shaped 2-D or 3-D frames returns, when it returns, images of exactly the requested even size whose pixel (i,j) in data, every error layer and DQ is the input pixel (i+y1,j+x1), where the window is centred on the pixel corner nearest the centre (the even corner on ties); STARLOC and CRPIX decrease and DETPIX0 increases by (x1,y1), so the star stays at the same detector position, and NAXIS keys follow the new shape. It returns exactly when the sizes are even, the size is given or the first frame is NFOV (then 60x60), the centre is given or the first frame has STARLOCX/Y, every frame contains the window and the header pairs are complete; the first frame that does not contain the window gives ValueError. Limits of the code: all frames are cropped about the first frame's star, not their own; only the first frame's LSAMNAME is checked; an int centre with a single frame always raises.", "quantifier": "all datasets with any star locations and sizes", "why_tests_cant": "All positions, parities and multi-frame datasets.", "anchors": ["corgidrp/l3_to_l4.py: crop"]}
{"id": "C35", "title": "Position angles and pixel offsets are mutually inverse", "statement": "For all distinct points angle_between(p,q) is the position angle of q from p in ]0,360] (counted from +y towards -x, in every quadrant and on the axes), seppa2dxdy(dist(p,q), angle_between(p,q)) = q - p, and conversely up to whole turns; get_polar_dist is the Euclidean distance of the corresponding points. create_wcs writes a CD matrix sending an offset of s pixels at image angle a to sky angle a + northangle + ROLL; with equal plate scales the roll northup reads back is northangle + ROLL in [-180,180[ up to turns, and turning by it puts north up; northup turns data, first error layer and flags by the same angle about the same point and changes nothing else. compute_platescale_and_northangle recovers the common difference of sky and pixel angles when it is within 90 degrees. Limits of the code: equal points give nan (Python numbers with equal y divide by zero); unequal plate scales give a wrong roll off the axes; a star off the rotation centre is left behind by STARLOCX/Y; north angles beyond 90 degrees come back half a turn away; injected sources lie at pa + northangle on the sky.", "quantifier": "all real positions, separations and angles", "why_tests_cant": "Trigonometric identities in all quadrants and on the axes.", "anchors": ["corgidrp/astrom.py: angle_between, seppa2dxdy, seppa2xy, get_polar_dist, compute_platescale_and_northangle", "corgidrp/l2b_to_l3.py: create_wcs", "corgidrp/l3_to_l4.py: northup", "corgidrp/klip_fm.py: inject_psf"]}
{"id": "C36", "title": "Combinations are complete, and star matching uses the best triangle and the nearest star", "statement": "compute_combinations(items, r) yields all strictly increasing index tuples of length r exactly once, in lexicographic order (binomially many), and terminates. match_sources uses them to take the first best-scoring triangle among the brightest field stars within the search box, derives a plate scale and north angle from it, and gives each image source, in order, the coordinates of the first star of the box predicted nearest to it inside the 1024x1024 image; it raises when there is none within 1000 pixels. Limits: a field lacking RA or DEC is not refused with the documented ValueError (only VMAG is tested); when no triangle fits the plate-scale guess the three brightest stars are used anyway; several sources may get the same star.", "quantifier": "all list lengths and all r; all source lists, fields, search boxes, thresholds, guesses and tolerances; all sky geometry and WCS functions", "why_tests_cant": "Completeness for every n and r.", "anchors": ["corgidrp/astrom.py: compute_combinations", "corgidrp/astrom.py: match_sources"]}
{"id": "C37", "title": "Bad pixel map construction", "statement": "create_bad_pixel_map sets bit 3 exactly at pixels whose dark exceeds mean + dthresh*std, bit 2 exactly where the flat is below ffrac times the mean of its local box clipped to the image, and no other bit; the box always contains the pixel itself. At most one pixel in dthresh^2 is hot; the result does not depend on the units or zero of the dark nor on the units of the flat; a dark and a flat of different shapes are refused. Applied by correct_bad_pixels, a pixel becomes NaN exactly when it is hot, dead or already flagged in the low byte, and its flags say which. Limits: one NaN in the dark hides every hot pixel, and a NaN in the flat hides every dead pixel whose box contains it, including itself.", "quantifier": "all darks, flats, thresholds and box widths", "why_tests_cant": "All image sizes and edge positions.", "anchors": ["corgidrp/bad_pixel_calibration.py: create_bad_pixel_map, detect_hot_warm_pixels, detect_dead_pixels_from_flat"]}
{"id": "C38", "title": "Nearest-neighbour lookups are optimal", "statement": "get_1d_ct returns, for each requested separation, the throughput of the first table entry whose distance from the star (STARLOC plus the optional DETPIX0 corner, plus half a pixel) is nearest to it; get_closest_psf returns the PSF of the first entry nearest to the requested place; inject_psf asks for the place STARLOC + offset at the sky angle minus ROLL. CoreThroughputCalibration.GetPSF keeps exactly the targets between the smallest and largest radius of the table, in order, and gives each the PSF that is alone nearest in radius rounded to whole pixels, or else alone nearest in azimuth rounded to a tenth of a pixel of arc, or else the mean of exactly two such; everything else is a ValueError. The KL throughput of the forward model is the entry of the row named by kl_mode_idx at the nearest separation. Limits shown: radii are rounded to a pixel, not to the documented tenth, so an entry at the exact radius can lose to one half a pixel off; azimuths are not compared across the cut at 180 degrees; inject_psf ignores DETPIX0 and so takes the wrong PSF in a cropped frame; a non-negative kl_mode_idx names the mode before, and 0 returns the separation itself.", "quantifier": "all tables, requests, headers, masks and KL mode indices, of any number", "why_tests_cant": "Optimality over arbitrary tables.", "anchors": ["corgidrp/corethroughput.py: get_1d_ct", "corgidrp/klip_fm.py: get_closest_psf", "corgidrp/klip_fm.py: inject_psf", "corgidrp/data.py: CoreThroughputCalibration.GetPSF", "corgidrp/measure_companions.py: forward_model_psf"]}
{"id": "C39", "title": "find_source terminates and reports every detection", "statement": "find_source reports exactly the successive brightest pixels of the S/N map above the threshold, each removed (its PSF subtracted, its core turned into NaN, everything outside the PSF box unchanged) before the next is looked for, and stops only when no pixel of the map reaches the threshold. The positions are distinct pixels that had a value, clear of the edges by half the PSF, so it ends within one round more than there are such pixels. Limits, proved as such: it never ends iff the largest S/N comes to equal the threshold exactly; a brightest pixel nearer to an edge than half the PSF, or an image without any value, is a ValueError; the mask of a supplied PSF larger than the default box is off centre, and a much smaller PSF is an IndexError. A decreasing order of the S/N values is not claimed, since the map is remade after each removal.", "quantifier": "all images of any size with any NaN pixels, all thresholds, widths and odd square PSFs, all S/N statistics that keep the shape and the NaN pixels of the image (the contract assumed of pyklip), all PSF scale factors", "why_tests_cant": "Termination over all inputs.", "anchors": ["corgidrp/l4_to_tda.py: find_source", "corgidrp/find_source.py: make_snmap", "corgidrp/find_source.py: psf_scalesub"]}
{"id": "C40", "title": "Nonlinearity drift correction uses the two halves of the repeated set", "statement": "When the repeated exposures (smallest exposure time with the most frames) correct for source drift, the first average and the signal reported for that time use exactly the first half of the frames in time order and all other exposure times use all their frames; constant illumination leaves every signal unchanged. Limits: the second average is over all repeated frames except the one at the middle index, not the second half, so a linear drift of slope a over 2m equally spaced frames is fitted with slope a(m-1)(2m+1)/(2m(2m-1)), never a; the correction factor is (inter+slope(t-t0))/inter, which equals the ratio of fitted illuminations only if the slope, t0 or t-t0 is zero.", "quantifier": "all numbers of repeated frames", "why_tests_cant": "Index ranges for every stack size.", "anchors": ["corgidrp/calibrate_nonlin.py: calibrate_nonlin, nonlin_dataset_2_stack"]}
{"id": "C41", "title": "Illumination correction covers every pixel exactly once", "statement": "illumination_correction with a bin size no larger than either axis: the bins of an axis cover every pixel once and only once, each at least one bin long and shorter than two; with local correction every pixel is reduced by the median of the one bin (row bin x column bin) it lies in, without it (or without a bin size) by the median of the image; corrected + local = input wherever both are numbers; a NaN in a bin (or NaN pixel) makes its pixels NaN. Light added uniformly to the image changes only the local image, not the corrected one. Limit: an image smaller than a bin along an axis comes back as all zeros, with the input as its local image.", "quantifier": "all image shapes and bin sizes", "why_tests_cant": "Partition for all sizes incl. images smaller than a bin.", "anchors": ["corgidrp/pump_trap_calibration.py: illumination_correction"]}
{"id": "C42", "title": "Dipole classification is a partition", "statement": "trap_id's three dictionaries have distinct keys and are pairwise disjoint: above, below and both hold exactly the pixels that qualify with the dark neighbour in the next row only, in the previous row only, and in both; edge rows never wrap. The entries are the pixel's values in all frames, in order, with the subtracted medians, and for 'both' the values and times of the frames with each dipole. A pixel qualifies iff, summed over the distinct phase times, the shares of the frames at that time with the dipole exceed length_limit - 1. So a reported pixel shows the dipole at at least length_limit phase times, and with one frame per phase time (or agreeing frames) the converse holds; limit: with several disagreeing frames per phase time a dipole seen at length_limit phase times may be missed. Refusals are exactly those of the checks.", "quantifier": "all image stacks and phase time lists", "why_tests_cant": "Counting over arbitrary stacks with repeated phase times.", "anchors": ["corgidrp/pump_trap_calibration.py: trap_id"]}
{"id": "C43", "title": "Trap table encoding is lossless on one-digit electrodes", "statement": "Encoding a trap dictionary gives a table with one row per trap, in order: row, column, code, index, first capture value, first amplitude, energy, cross section, R^2, tau. The code of a location is 10 x side + electrode; reading it back gives the same location iff the electrode is a single digit. So rebuilding the table of a dictionary with such locations gives back the same keys in the same order with the same energy, cross section, R^2, tau and first capture value and amplitude, and different traps have different rows. Any table is rebuilt iff all its codes name a side (else KeyError), keeping for each key its last row. Limits: with electrodes of two digits different traps can become one; a rebuilt dictionary cannot be encoded again (its 'cap' entry has another shape).", "quantifier": "all trap dictionaries, all location strings, all tables", "why_tests_cant": "Round trip over all dictionaries.", "anchors": ["corgidrp/pump_trap_calibration.py: create_TrapCalibration_from_trap_dict, rebuild_dict"]}
{"id": "C44", "title": "Tuning parameter overrides: what they change and how long they last", "statement": "update_parameters sets exactly the listed (section, parameter) pairs that precede the first unknown section or parameter, changes no other value and no name, and raises KeyError iff there is an unknown one. find_star without overrides never changes the shared tuning parameters of any observing mode; with overrides it changes only those of the mode of its frames, and it locates the star with the overridden values. Limits, proved: the shared parameters are never restored, so after any sequence of calls the parameters of a mode are the shipped ones under all overrides of all earlier calls of that mode, in order; a later call without overrides returns what the overridden call did, not what the shipped parameters give; a rejected override leaves the pairs before the unknown one applied for later calls; validate_satellite_spot_parameters accepts no dictionary at all.", "quantifier": "all parameter dictionaries, all overrides, all datasets, all star locators and every finite sequence of calls", "why_tests_cant": "Depends on shared mutable defaults across calls.", "anchors": ["corgidrp/star_center.py: update_parameters, validate_satellite_spot_parameters", "corgidrp/l3_to_l4.py: find_star"]}
{"id": "C45", "title": "Shipped recipes respect step prerequisites", "statement": "Take any shipped recipe template except l2b_to_l4.json, any recipe generated from it (whatever calibrations were found), any data of the template's declared level and settings under which missing-calibration steps are not skipped. At every step reached in a run the step name is registered, the call's positional calibrations and keywords bind to the function's parameters, each calibration is of a class the function expects (or absent only where the function does without it), and the data is of a kind and level the function accepts; so a run can fail only because a file or calibration is missing or unreadable, a file name is unusable, or a correctly called function raises. A run that succeeds ends with frames of the level promised or a calibration product. Every recipe the pipeline guesses for files of one level is such a template. Limits: l2b_to_l4.json can never complete (do_psf_subtraction gets no core-throughput calibration while its measurements default to on); bp_map.json ends in an AttributeError when its step is skipped for a missing Dark; a recipe generated while an optional calibration was missing fails when run with just-in-time resolution.", "quantifier": "all shipped templates, all recipes generated from them with any calibration database, all inputs of the declared level, all step-function behaviours respecting the table of input/output kinds, all points of the run", "why_tests_cant": "Static typing of each whole recipe rather than one run.", "anchors": ["corgidrp/recipe_templates/*.json", "corgidrp/walker.py: all_steps"]}
{"id": "C46", "title": "ND filter calibration: rows, labels, flag and input", "statement": "Every frame is taken as bright (filter name starting with ND, by FPAMNAME, or by FSAMNAME when some frame lacks FPAMNAME) or dim, exactly once. The call succeeds iff both kinds exist, all bright frames name a target, agree in filter and color names and in filter position (within 1.2 of the first of their target, targets within less than 1.2 of the first), and photometry succeeds; the table then has exactly one row per bright frame whose centroid is a number, ordered by target, filter name and input order, each with the density d such that its flux is the expected one times ten to the -d. Limits, proved: the variation flag tells whether the alphabetically last target varies by the threshold or more (and none of its densities is NaN), whatever the others do; a calibration factor given in place of dim frames is never used, the call fails; the last input frame is relabelled in place with the filter name, position, flag and level of the product, so a repeated call on the same frames may count it as bright, and fails if it was the only dim one.", "quantifier": "all lists of frames, any number of targets and filter names, every photometry, centroid and irradiance function, every threshold", "why_tests_cant": "Aggregation over any number of targets.", "anchors": ["corgidrp/nd_filter_calibration.py: create_nd_filter_cal, process_bright_target, group_by_keyword"]}
{"id": "C47", "title": "Relative gains are a clamped bilinear interpolation of the table", "statement": "get_relgains accepts a non-linearity table iff both axes are strictly increasing with at least two points and every gain column contains or straddles 1; each pixel then gets the value of the piecewise bilinear interpolant for the frame's EM gain and its counts, which is uniquely determined, constant outside the axes (also for infinities), NaN for NaN, equal to the table at its nodes and never outside the range of the table; without a table every gain is 1.", "quantifier": "all tables of any size, all gains, all frames", "why_tests_cant": "All axis positions, sizes and out-of-range cases.", "anchors": ["corgidrp/detector.py: get_relgains"]}
{"id": "C48", "title": "Dark subtraction only with a matching dark", "statement": "dark_subtraction with a master dark succeeds iff the dark is analog and every frame has the dark's exposure time, commanded gain and k gain; it then subtracts the dark from each frame, adds its error in quadrature and ORs its DQ, changing nothing else. With noise maps it subtracts the synthesized dark of the frame's format (full frame or image area) and refuses other shapes. Any other type of dark and frames of mixed settings are refused. Limit: a synthesized dark saved by the step is refused for the frames it was made for when their measured or applied gain differs from the commanded one.", "quantifier": "all datasets, darks, noise maps, region tables and header values", "why_tests_cant": "Every combination of settings, shapes and masks must be accepted or refused correctly.", "anchors": ["corgidrp/l2a_to_l2b.py: dark_subtraction", "corgidrp/darks.py: build_synthesized_dark"]}
{"id": "C49", "title": "Error propagation of the photometric steps", "statement": "Converting to electrons multiplies each value by the k gain and gives the combined error the variance (k e)^2+(d s)^2; flat division divides value and error layers by the flat and adds the flat's error, so that for both the relative variances add; photon noise adds the signal (twice with EM gain above 1) to the variance and leaves data and other layers unchanged; dividing by the exposure time divides values and all error layers, and is refused without a non-zero EXPTIME. Negative signal gets an undefined photon noise. Limit: converting to electrons sets every error layer but the combined one to 0.", "quantifier": "all datasets of any size, all error layers, gains, flats and exposure times", "why_tests_cant": "Pixelwise real-number laws for every input.", "anchors": ["corgidrp/l2a_to_l2b.py: add_photon_noise, flat_division, convert_to_electrons", "corgidrp/l2b_to_l3.py: divide_by_exptime", "corgidrp/data.py: add_error_term, rescale_error"]}
{"id": "C50", "title": "Calibration stacks conserve frames", "statement": "Building the nonlinearity and K-gain inputs from a dataset puts every frame's pixels into the stacks exactly once: mean frames into the mean stack, all other calibration frames into the calibration stack, grouped by ascending commanded gain (nonlinearity) or exposure time (K-gain), order kept inside a group, with exposure times and dates aligned with the calibration frames and set lengths summing to their number; success happens exactly for datasets with known frame kinds, positive float exposure times, distinct string dates, gains at least 1 and unit-gain mean frames. K-gain sets are cut into equal pieces of the smallest set's size counted with its mean frames, so a mean frame sharing the exposure time of the smallest set makes the function fail.", "quantifier": "all datasets: any number of frames, any mixture of kinds, gains, times and dates", "why_tests_cant": "Conservation and alignment must hold for every mixture and order of frames.", "anchors": ["corgidrp/calibrate_nonlin.py: nonlin_dataset_2_stack", "corgidrp/calibrate_kgain.py: kgain_dataset_2_list"]}
{"id": "C51", "title": "Cards of detected sources round-trip and move with the host", "statement": "find_source keeps the image data and writes, for source i of its list, one header card whose keyword is SNYX and the number i in at least three digits and whose text holds S/N (to within 0.05), row and column; every other card is kept. parse_companions reads all of them back in order at their exact pixels. update_companion_location_in_cropped_image moves one card by the shift of the host, rounded to the nearest pixel, keeps the S/N as written when it is not negative, changes no other card and neither adds nor reorders cards; a missing keyword is a KeyError and fewer than three fields a ValueError. Limit, proved as such: searching a header that already holds cards of more sources leaves the surplus ones in place and they are read back as sources.", "quantifier": "all lists of sources, all headers, all host positions", "why_tests_cant": "Formatting and parsing must agree for every number, list length and header, not for sampled ones.", "anchors": ["corgidrp/l4_to_tda.py: find_source", "corgidrp/measure_companions.py: parse_companions", "corgidrp/measure_companions.py: update_companion_location_in_cropped_image"]}
{"id": "C52", "title": "Sub-electrode location matches the tightest fits, uses each once, in any order of pixels", "statement": "tpump_analysis, at a temperature measured under exactly the four schemes, goes through the twelve sub-electrode places in a fixed order (three-scheme places first). At each place of each pixel it keeps making a trap from one fit of each list the place needs, the choice whose joint uncertainty window is smallest (the first in loop order among equals), until one of the lists is empty. The trap records the middle and the half-width of that window, which covers the windows of all its fits, the capture values and amplitudes of these fits, and its number 0, 1, 2, ... among the traps of the place. Every fit is in exactly one trap or left over, no place has a fit left in all its lists, pixels do not affect each other, and the result does not depend on the order in which sets of pixels are traversed. Without the four schemes nothing is located. Limits, proved: the reported count of unused fits is the number of (pixel, scheme, orientation, probability function) entries of the last temperature, the same before and after the matching, so it is positive even when every fit was used and ignores the other temperatures.", "quantifier": "all dictionaries of fits of any number of pixels and any number of fits per pixel, scheme, orientation and probability function, all real tau and errors, all traversal orders of sets, all sequences of temperatures", "why_tests_cant": "matching is a greedy search over all combinations of fits, sharing lists between places; tests check a few simulated traps, and set order is fixed in a test run", "anchors": ["corgidrp/pump_trap_calibration.py: tpump_analysis", "corgidrp/pump_trap_calibration.py: _el_loc_2", "corgidrp/pump_trap_calibration.py: _el_loc_3", "corgidrp/pump_trap_calibration.py: _el_loc_coords2", "corgidrp/pump_trap_calibration.py: _el_loc_coords3"]}
{"id": "C53", "title": "Every located fit is followed as exactly one trap over the temperatures", "statement": "Given the traps located at each temperature (temperatures distinct, the fits in one place of one pixel numbered 0,1,2,... as the location step leaves them), the dictionary of traps has, for a pixel, a place and a number n, an entry exactly when some temperature has more than n fits there; its temperatures are those, ascending; at its lowest temperature the trap is the first listed fit not in a trap of smaller number, and at each later one the free fit whose time constant is nearest to the one at the trap's previous temperature, ties to the first listed; time constant, its error and the capture data are those of that fit. This determines the dictionary; keys are distinct; every fit is in exactly one trap, so the reported number of unused temperature fits is always 0; the order of temperatures and pixels changes only the order of the entries; the reported counts of traps with two or fewer temperatures and of traps with a temperature missing in between are exact.", "quantifier": "all sets of temperatures and located traps, all pixels, places and numbers, all orders of temperatures and pixels", "why_tests_cant": "the greedy matching mutates the pool of fits while it loops over traps and temperatures; that nothing is lost, used twice or dependent on the order must hold for every pool", "anchors": ["corgidrp/pump_trap_calibration.py:tpump_analysis"]}
{"id": "C54", "title": "Input of the PSF subtraction: every integration once, in order, with its own header values", "statement": "Reading a dataset for PSF subtraction either raises or yields one entry per integration of the science frames, in frame order and then integration order; every per-integration list (image, name, roll angle, wavelength, sky coordinates, number) is aligned with it and carries that frame's header value. Each image is moved from that frame's star location to the array centre; the outer radius is half the mean dimension and the inner radius follows from the wavelength and the common pixel scale. It raises exactly when there is no frame, a frame is not ROMAN/CGI/filter 1F, is not 2-D or 3-D, lacks a card, shapes or pixel scales differ, or there is no image; the exception is determined by the first failing check. References are put before the science images in the library, moved by their own star locations; only their shape, names and location cards matter: instrument, telescope, filter and pixel scale of references are never compared, and a wrong shape raises ValueError. Names of integrations are distinct exactly when the base names of the frames with images are. The recorded centre is truncated to integers when all the star locations are integers (then it differs from the centre used for even dimensions). The saved product counts the distinct names and lists the first 1000 of them in ascending order.", "quantifier": "all lists of frames (any shapes, numbers of integrations, header cards present or absent), all lists of references, any alignment function, any names", "why_tests_cant": "alignment of the per-integration lists and the order of the checks must hold for every mix of 2-D and 3-D frames, numbers of integrations and missing cards; tests use one or two fixed datasets", "anchors": ["corgidrp/data.py:PyKLIPDataset.readdata", "corgidrp/data.py:PyKLIPDataset.savedata"]}
{"id": "C55", "title": "Flat fields: what each pixel of the on-sky flat is, what the call changes, when it fails", "statement": "create_onsky_flatfield either fails, by one cascade (no target card, no band card, empty band, unknown planet with a sky annulus, frames whose cut-outs differ in shape or whose number the number of groups does not divide, no groups, unknown planet or band, cut-outs not fitting the requested size, no EXPTIME card), or returns a square product of the requested side plus the border on both sides, one on the border and beyond the radius npix from the middle, whose other pixels are the running average of value divided by smoothed group median over exactly those frames whose disc covers the pixel, in the order of the frames; never-covered pixels are NaN; the error is zero everywhere. The running average of positive values is a weighted mean with weights 1/2^k .. 1/4, 1/2 by place, so it stays between the smallest and the largest contribution. The input dataset is changed: each array has its sky median subtracted, and the header of the last frame becomes that of the product (DATATYPE, BUNIT, DATALVL), nothing else. Limits shown by counterexample: the result depends on the order of the frames; the disc sits on the planet only if the half side of the cut-out is the radius plus five pixels (Neptune's default), for Uranus with the default half side it is displaced by 15 pixels; a planet closer than the half side to the first row contributes nothing; with the default border the side is 2048 - n, not 1024; the radius of the mask has no effect on the product. create_flatfield gives the mean of the finite values and the standard error with the number of all frames; the tophat kernel is 1 exactly within half its width, and all 0 if the width is under 2.", "quantifier": "all lists of frames of any shape and content, all arguments, all centre finders and smoothing filters, all pixels", "why_tests_cant": "The running average, the wrap of negative slices and the in-place changes depend on number, order, position and content of the frames; tests look at one raster of Neptune.", "anchors": ["corgidrp/flat.py:create_flatfield", "corgidrp/flat.py:raster_kernel", "corgidrp/flat.py:flatfield_residuals", "corgidrp/flat.py:combine_flatfield_rasters", "corgidrp/flat.py:create_onsky_flatfield", "corgidrp/data.py:FlatField"]}
{"id": "C56", "title": "Fluxes and magnitudes: band integrals, colour correction, calibration factors, round trip, and what the cards do not mean", "statement": "The spectrum of a star is put on the grid of the filter by linear interpolation between the samples of its file that lie between the ends of the grid, constant beyond them; it fails exactly if there are none. Integrals are Simpson's rule: the areas under the parabolas through the points by twos (with an even number of points the last interval under the parabola of the last three), exact for quadratic curves, linear, and on equal steps between h/3 and 4h/3 times the sum of non-negative values. The band flux is the photon-weighted mean, lies between the smallest and the largest flux on the grid and scales with the spectrum; the effective and the pivot wavelength lie within the band. The colour correction is 1 for spectra proportional to the reference, and band flux = K x flux at the reference wavelength x the reference star's ratio of band flux to flux there. Each shipped colour filter name selects its own curve in whatever order the directory is listed. determine_app_mag accepts exactly a dataset of one target and one filter curve; Vega has magnitude 0; scaling by 10^(-0.4 d) adds d magnitudes. A factor made from a standard star is its band flux over the counts of the first frame, with the relative error of the counts; determine_flux of the same frame returns exactly the star's band flux, with sqrt 2 times that relative error. convert_to_flux multiplies pixels and every error layer and adds the error of the factor: relative variances add. Limits shown by counterexample: on unequal steps positive curves can have negative area; a linear spectrum is flattened between band edge and the nearest sample inside; flux over K is not the flux at the reference wavelength; the name 'F' selects a curve by directory order; making a factor writes BUNIT, DATATYPE and DATALVL into the input frame (BUNIT also when the photometry fails); an ND filter in FSAMNAME is ignored if FPAMNAME exists; the error does not shrink with the number of frames; a factor made from irradiances is accepted and FLUX is then not the band flux; APP_MAG by determine_flux and by determine_app_mag differ for the same star; COL_COR of the first frame is used for all; a zero point is a list of two or three numbers, one per number of the photometry.", "quantifier": "all grids, transmissions and spectra of any length, all directories and archives of files, all datasets and headers, all photometry results, all frames with any number of error layers", "why_tests_cant": "Tests check one star, one filter and tolerances of per cents; exactness, bounds and round trip must hold for every grid and spectrum, and the failures need unequal grids, edges, mixed datasets or directory orders that the fixtures do not have.", "anchors": ["corgidrp/fluxcal.py:get_calspec_file", "corgidrp/fluxcal.py:get_filter_name", "corgidrp/fluxcal.py:read_filter_curve", "corgidrp/fluxcal.py:read_cal_spec", "corgidrp/fluxcal.py:calculate_band_flux", "corgidrp/fluxcal.py:calculate_effective_lambda", "corgidrp/fluxcal.py:calculate_pivot_lambda", "corgidrp/fluxcal.py:calculate_flux_ref", "corgidrp/fluxcal.py:calculate_vega_mag", "corgidrp/fluxcal.py:compute_color_cor", "corgidrp/fluxcal.py:calculate_band_irradiance", "corgidrp/fluxcal.py:calibrate_fluxcal_aper", "corgidrp/fluxcal.py:calibrate_fluxcal_gauss2d", "corgidrp/l4_to_tda.py:determine_app_mag", "corgidrp/l4_to_tda.py:determine_color_cor", "corgidrp/l4_to_tda.py:convert_to_flux", "corgidrp/l4_to_tda.py:determine_flux", "corgidrp/l4_to_tda.py:calculate_zero_point", "corgidrp/data.py:FluxcalFactor"]}
{"id": "C57", "title": "Core throughput: positions, throughputs, product, interpolation and map", "statement": "Position of an off-axis PSF: the flux-weighted centroid of the square of half side r (cut off at the edges) around the first brightest finite pixel, the brightest pixel itself if the square sums to 0; ValueError if no pixel is finite. It is invariant under positive scaling, lies in that square when no pixel is negative, and is the brightest pixel when the image is symmetric about it. Throughput: the sum of the pixels at least half the maximum, over the mean total of the pupil images times the ratio of the transmissions of imaging and pupil lens summed over the filter curve; in [0,1] for non-negative images no brighter than the pupil image. estimate/generate succeed exactly when all frames share CFAMNAME, there are pupil and off-axis frames, and the k-th entry of the table and the k-th stamp belong to the k-th off-axis frame; where pupil images stand among the others does not change the table. Stamps: the square of half side ceil(3 lambda/D in pixels) around the rounded position, clipped to the image. Position of the mask: star centre displaced by the matrices applied to the displacement of FPAM and FSAM. Interpolated throughputs: the requested places between the smallest and largest radius, in order, with the interpolator's value in (radius or log radius, azimuth from the smallest one modulo the range of azimuths), ValueError outside [0,1]. Map: on an even grid or the given targets. Limits: one pixel that is not a number makes the throughput 0; a PSF near an edge makes the stamps ragged and the product fails; the recorded FPAM/FSAM positions are those of the first frame even if it is a pupil image; azimuths are folded by the measured range so that places at the largest azimuth are evaluated at the smallest; repaired values are written at the index of the table instead of that of the target, so they go to another target or raise; no file is written when a file path is given.", "quantifier": "for all images, frames, curves, tables, target lists, grids and interpolators", "why_tests_cant": "positions, throughputs and interpolated values depend on real-valued images of any size, on the order of any number of frames and on arbitrary target lists; tests use one simulated data set", "anchors": ["corgidrp/corethroughput.py: get_cfam, di_over_pil_transmission, get_psf_pix, get_psf_ct, estimate_psf_pix_and_ct, generate_psf_cube, generate_ct_cal, CreateCTMap", "corgidrp/astrom.py: centroid_with_roi", "corgidrp/data.py: CoreThroughputCalibration.GetCTFPMPosition, CoreThroughputCalibration.InterpolateCT"]}
{"id": "C58", "title": "Noise maps: what each pixel and the bias offset are, which datasets are taken, what the maps do not depend on", "statement": "The darks are split by exposure time, commanded gain and k gain, in that order. At every pixel outside the telemetry rows the mean over the frames in which it is not flagged is formed per sub-stack; the triple (fixed pattern F, clock-induced charge C, dark current D) is the one that minimises the sum of squares of mean - (F + gC + gtD) over the sub-stacks; C and D are raised to 0, D is 0 outside the image and shielded area, telemetry rows are NaN. Errors are the standard deviations of the fit, for C joined in quadrature with the pooled error of the frames. A pixel is flagged 1 if flagged in every frame of all sub-stacks but at most three, else 256 if flagged in more than half of the frames of all but at most three, else 0. The bias offset is the mean over sub-stacks of the median over the prescan of what the fit leaves, in DN. It succeeds exactly for more than three sub-stacks of equal length, frames of the size of the area with finite values in the image area, at least two gains and two times, gains >= 1, times >= 0, positive k gains, different settings, a gain above that of the first sub-stack of least gain x time, settings that determine the fit, and a prescan pixel with an error in every sub-stack. Data of the exact form are recovered; a fixed pattern added to all frames goes to the fixed pattern map only; values at flagged pixels and (if the gain cards agree within a setting) the order of frames do not matter; C, D and all errors are never negative; the bias offset of a prescan without structure is 0. Limits shown by counterexample: a pixel flagged in all frames of a setting enters the fit there as 0 and shifts the maps unflagged; pooling five errors of 1 gives more than 1; a negative fixed pattern stays negative; a level of the prescan never reaches the bias offset; NaN at a flagged pixel raises ValueError; settings that determine the fit are refused when the least product has the largest gain; settings that pass all checks can leave the fit undetermined, which raises; with gain cards that differ within a setting the order of frames decides between success and failure.", "quantifier": "all lists of frames of any size, values, flags, errors, gains and times, all detector regions and telemetry rows, all pixels", "why_tests_cant": "The fit, its errors, the flags and the checks depend on real values at every pixel and on any number and order of frames and settings; tests simulate one set of settings with tolerances.", "anchors": ["corgidrp/darks.py:calibrate_darks_lsq", "corgidrp/darks.py:mean_combine", "corgidrp/detector.py:imaging_area_geom", "corgidrp/detector.py:unpack_geom", "corgidrp/data.py:DetectorNoiseMaps", "corgidrp/data.py:Dataset.split_dataset"]}
{"id": "C59", "title": "Start-up: configuration, default calibrations and restart after a crash", "statement": "Importing corgidrp (or step_1_initialize) uses exactly what the configuration file says: for every text made of sections, options one to a line, comments and blank lines, the settings are those written (option names without regard to case, '=' or ':', %% for %, missing flags false, flags other than true/false refused). An existing configuration file is never modified, at any crash point; a missing one is written with the default paths; an old-style file is replaced, keeping its database path. Default calibrations are made only if missing; no file of any directory is ever changed or removed, at any crash point. When one was missing, the start succeeds iff all files of the directory load and describe themselves, and then the database has the row of each calibration of the directory and its other rows unchanged; when both exist, no database is touched. A successful start makes every later start a no-op with the same settings. After a first start interrupted at any point, the next start succeeds with the same settings and the default calibrations in the database, except where the crash left a torn configuration file, a damaged default file, or both files saved but not in the database; these three are never repaired (shown by counterexamples), nor is a database newly named in the configuration filled. step_2_load_cal enters exactly the calibrations of the directory.", "quantifier": "all configuration texts of the stated grammar, all home directories (absolute, one line), all disk contents, all crash points, all times and hashes", "why_tests_cant": "tests run in a prepared home directory once; they cannot interrupt the start at each write, nor cover all configuration texts and directory contents", "anchors": ["corgidrp/__init__.py:create_config_dir", "corgidrp/__init__.py:update_pipeline_settings", "corgidrp/caldb.py:initialize", "corgidrp/caldb.py:CalDB.scan_dir_for_new_entries", "corgidrp/caldb.py:CalDB.create_entry", "corgidrp/ops.py:step_1_initialize", "corgidrp/ops.py:step_2_load_cal"]}
{"id": "C60", "title": "Throughput of the PSF subtraction", "statement": "measure_noise gives, for each separation and each image of the cube, the standard deviation (about the mean, population form) of exactly the numeric pixels of the ring of the given half-width around the star that are outside the exclusion discs of all candidates; it raises only for a missing star position, is NaN exactly when the ring has no numeric pixel, does not depend on pixels elsewhere, is unchanged by a constant level and scales with the absolute value of a factor. The throughput run injects into every frame the same sources, one for each separation and position angle (the angles turned with each separation and taken modulo 360), at the required multiple of the noise there, leaving out exactly those nearer to a candidate than the exclusion radius; the result for each KL mode is computed from the subtracted image less its median background: cutouts around each injected source, a Gaussian fit to each and to the frame of its injected model, ratio of the two volumes and FWHM, then the median per separation. The run succeeds iff these steps do. For ascending separations each table entry is the median of the sources at its separation, for descending ones the table is reversed; in another order the entries stand beside wrong separations (counterexample). A repeated separation or one at which every source is excluded makes the run fail; a source whose cutout lies just beyond the edge raises ValueError (counterexample to skipping it).", "quantifier": "all images with any NaN, star positions, separations, half-widths, candidates, rolls, position angles, and all injection, subtraction and fitting functions", "why_tests_cant": "the tests inject into one mock scene with ascending separations and no excluded source", "anchors": ["corgidrp/klip_fm.py:measure_noise", "corgidrp/klip_fm.py:meas_klip_thrupt"]}
{"id": "C61", "title": "Flux ratio noise curve", "statement": "compute_flux_ratio_noise gives each frame a curve: the separations, the separations times the plate scale, and for every KL mode the value (volume of a Gaussian with the noise of the ring as height and the FWHM of the subtraction) / (flux of the star found nearest to its place, times the entry of the ND calibration there) / (throughput of the subtraction times core throughput), the tables being read by straight lines between neighbouring separations and along the outermost ones beyond. It succeeds iff there are as many stars as frames, the half-width given is positive (or else both tables of the first frame are ascending), and every frame has its cards and tables with at least two separations and a star that is found. With separations and half-width given, each frame's curve is what it would be alone. Values scale with the noise and inversely with the star's flux, do not depend on a constant level, and are not negative for positive fluxes and throughputs. Limits, shown by counterexamples: without separations given all frames use those of the first frame's subtraction (not those of the core throughput, as documented); a NaN entry spoils the reading at the next separation; the optical density is used as a transmission; star positions given as floats, or in the last row or column of an even frame, are refused; the fit starts at the transposed position.", "quantifier": "all datasets, tables with different separations, images with NaN, star frames, requested separations and half-widths, and all fitting functions and ND calibrations", "why_tests_cant": "tests use one mock frame with equal tables, a star at the centre and a flat ND calibration", "anchors": ["corgidrp/l4_to_tda.py:compute_flux_ratio_noise", "corgidrp/klip_fm.py:measure_noise"]}
{"id": "C62", "title": "K gain calibration", "statement": "calibrate_kgain succeeds iff the eight settings are present and of their types, every set has the same number of frames, at least five, the limits are accepted, some level of the photon transfer curve lies above the lower limit and some below the upper one, and a value of the gain is left; the result is then determined: points of each set are the means of the frames, and the shot deviations of their differences, over the pixels where the scaled mean frame is at one of the levels; the curve takes the points strictly between equally spaced edges; the gain is the middle of the first of the fullest of ten bins of average / deviation^2 over the used levels after clipping at 2.5 deviations in at most six rounds, its error the deviation of what is left, the read noise the mean fitted width times the gain. The averages of the levels increase, the gain is positive and lies within the values left, clipping never removes everything nor anything from up to seven values, removes at most 1/sigma^2 of the values in a round, and both clipping and mode follow a change of unit and offset. Limits, shown by counterexamples: the first frame of sets of six or more is never used; the brightest point is in no level; the last level below the upper limit is not used; the read noise comes from the last set alone; equal values give a gain 0.05 too large; a variance below the read noise counts as shot noise.", "quantifier": "all settings, numbers of sets and frames, images with NaN, signal limits and widths, prescan regions and fitted widths", "why_tests_cant": "tests run one simulated data set and compare the gain within a tolerance; ties, empty levels, NaN, boundary values and the frames left out are not visible in one number", "anchors": ["corgidrp/calibrate_kgain.py:check_kgain_params", "corgidrp/calibrate_kgain.py:ptc_bin2", "corgidrp/calibrate_kgain.py:diff2std", "corgidrp/calibrate_kgain.py:calculate_mode", "corgidrp/calibrate_kgain.py:sigma_clip", "corgidrp/calibrate_kgain.py:calibrate_kgain"]}
{"id": "C63", "title": "A whole call of the pipeline", "statement": "walk_corgidrp(filelist, CPGS_XML, outputdir, template) makes all recipes first: with no template, those of the templates the headers of the files select; with a text, the one at that path, or in the package's template directory if it has no slash; with an object, the one the object becomes. Calibrations not asked for just in time are looked up then, in the database as it is before the call. The recipes are then run in order, each under the settings left by those before and with the database including what those before registered; the result are the recipes. If a recipe cannot be made, nothing is written, registered or called; if running one fails, those before it are complete, it is done up to the failing step, and those after it are not started. Whatever happens and at every moment, only files in outputdir are written, only files written before are registered, and recipe objects other than the template object are untouched. The result does not depend on objects loaded before. Limits: what the first recipe of a call makes is not found for the second, unless asked for just in time; and a template object used for a second call brings the files of the first along.", "quantifier": "all settings, histories, databases, files, templates, step functions and points of failure", "why_tests_cant": "Tests run a few shipped recipes to completion; the order of generation and running, what remains after a failure at any step of any recipe, and the effect of earlier calls range over all of these.", "anchors": ["corgidrp/walker.py: walk_corgidrp", "corgidrp/walker.py: autogen_recipe", "corgidrp/walker.py: run_recipe", "corgidrp/ops.py: step_3_process_data"]}
{"id": "C64", "title": "Frames survive the disk", "statement": "A frame made from an array, or read from a FITS file, under either setting of track_individual_errors, is exactly what the arguments or the HDUs say: given arrays win over those of the file, those over zeros; the error has a layer axis; with individual errors off only the combined layer is kept and the LAYER_i cards of the others are removed, and no other card; DESMEAR, CTI_CORR and IS_BAD are only set when absent; ORIGIN becomes DRP. Saving and loading under the same setting returns equal headers, data, error, quality and extensions; load, save, load changes nothing any more, and saving again writes the same file. Turning tracking on changes only the flag; turning it off succeeds exactly when all layer cards are there and removes just the layers. A file read is written over itself exactly when its path has a directory other than the root. An extension is refused exactly when its name is known, changes nothing else, and comes back last under its name in upper case. Limits, shown by counterexample: a file of the root directory is written back into the working directory; names differing in case collide; shapes of ERR and DQ in a file are not checked; an error with more axes is accepted; layers without cards cannot be dropped; an extension 'err' can be taken for ERR.", "quantifier": "all frames, arrays of any shape and value type, headers, lists of HDUs, paths and names, both settings of track_individual_errors, and any sequence of load, extend, save", "why_tests_cant": "tests write and read a few frames with one shape and two layers; the law ranges over every header, every number of layers and extensions, all paths and both settings on each side", "anchors": ["corgidrp/data.py:Image.__init__", "corgidrp/data.py:Image.save", "corgidrp/data.py:Image.filepath", "corgidrp/data.py:Image.add_extension_hdu"]}
{"id": "C65", "title": "Calibration products are what they say they are", "statement": "A file opens as a calibration product of a class exactly when its data have the format of that class and its DATATYPE is the name of that class; so it opens as at most one class, and autoload finds that class from the label alone. A product made from arrays and a list of input frames succeeds exactly when the format fits and the sources are there; it then carries the name of its class, level CAL, its unit, the complete duplicate-free list of the inputs and their own parents (not renewed by Dark and DetectorNoiseMaps when already there), one line of history, the default name derived from the last input, and no other card, array or extension is changed. Every product made or read, saved under any name, opens again as the same class with the same contents (the gain curve of KGain, the neutral density name and filter of FluxcalFactor, all parameters of DetectorParams and the matrices of FpamFsamCal included), and as no other class. Detector parameters take the values of the dictionary and the defaults elsewhere. Limits, shown by counterexample: a neutral density product is not found by autoload; a file with neither DATATYPE nor a two-dimensional array ends in UnboundLocalError; each load of NonLinearityCalibration, BadPixelMap, AstrometricCalibration and TrapCalibration adds a comment; KGain does not store its quality; an input name without level tag is reused; _L1. loses the dot; parameters and matrices come back with two unnamed extensions; OVERHEAD has no former name.", "quantifier": "all classes, arrays of any shape and value type, headers, lists of input frames with any recorded parents, names, files with any HDUs, dictionaries of parameters, orders in which a set of names is enumerated, both settings of track_individual_errors", "why_tests_cant": "tests make one product of each class from a few mock frames; the law ranges over every header, format, list of parents and file name, and over all pairs of classes", "anchors": ["corgidrp/data.py:Image._record_parent_filenames", "corgidrp/data.py:Dark", "corgidrp/data.py:FlatField", "corgidrp/data.py:NonLinearityCalibration", "corgidrp/data.py:KGain", "corgidrp/data.py:BadPixelMap", "corgidrp/data.py:DetectorNoiseMaps", "corgidrp/data.py:DetectorParams", "corgidrp/data.py:AstrometricCalibration", "corgidrp/data.py:TrapCalibration", "corgidrp/data.py:FluxcalFactor", "corgidrp/data.py:FpamFsamCal", "corgidrp/data.py:CoreThroughputCalibration", "corgidrp/data.py:NDFilterSweetSpotDataset", "corgidrp/data.py:autoload"]}
{"id": "C66", "title": "Fits of trap-pumping amplitudes report the best model that is good enough", "statement": "trap_fit and trap_fit_const, with the results of the least-squares calls given: a call is refused exactly for the first of fifteen faults of its arguments, with the error of that fault. Otherwise, for a pixel bright one way, every kind of trap the pumping scheme can show is fitted alone from a short and a long release time; when all these fits succeed, the one with the greatest adjusted R squared (the long start and the earlier kind on ties) is reported when it reaches the threshold, else the same is done with pairs of kinds; one failing fit, or none good enough, gives None; equal amplitudes never give a trap. For a pixel bright both ways the best pair is reported with the trap whose peak is nearer to the time of greatest amplitude above called 'a'. Each trap reported is of a kind of its scheme with capture and release values within the caller's bounds, and with the standard deviations of its own fit. Every start lies within the bounds; adjusted R squared is at most one, and one exactly for an exact fit, so an exact fit of exact data is found. With a constant capture probability the time of greatest amplitude over the factor of the kind is the release time, and the label is right for exact data sampled at the peak. Limits, shown by counterexample: with a capture time constant that estimate is always too large and trap_fit can label exact data the wrong way round; trap_fit_const starts at zero when the allowed capture probability is in [0, x] with x < 1, which its own guard wants to avoid; empty lists above raise ValueError.", "quantifier": "all amplitudes, phase times (any number), numbers of pumps, thresholds, bounds, pumping schemes, lists of the pixel bright both ways, and all results of curve_fit", "why_tests_cant": "tests fit a few simulated traps of trap_fit_const; the law covers every result the optimiser can return, ties, failures of single fits, and all bounds", "anchors": ["corgidrp/pump_trap_calibration.py:P1", "corgidrp/pump_trap_calibration.py:P2", "corgidrp/pump_trap_calibration.py:P3", "corgidrp/pump_trap_calibration.py:P1_P1", "corgidrp/pump_trap_calibration.py:P1_P2", "corgidrp/pump_trap_calibration.py:P2_P2", "corgidrp/pump_trap_calibration.py:P3_P3", "corgidrp/pump_trap_calibration.py:P2_P3", "corgidrp/pump_trap_calibration.py:trap_fit", "corgidrp/pump_trap_calibration.py:trap_fit_const"]}
{"id": "C67", "title": "Energy levels, cross sections and densities of traps", "statement": "tau_temp is the release time of thermal emission, exp(E/kT) over cross section times density of states times thermal velocity, for every temperature, energy and cross section where it exists: inversely proportional to the cross section, exponential in the energy, positive, greater for deeper and for colder traps, and its values at two temperatures determine energy and cross section. sig_tau_temp is the first-order propagated deviation with the true derivatives. fit_cs refuses exactly for the first of eleven faults; gives seven Nones exactly for fewer than three temperatures or when either call of curve_fit fails; else it reports the parameters and deviations of the call whose deviations add up to more (the absolute one on ties), in cm^2, the adjusted R squared of these very parameters, and the release time and its deviation at the input temperature for these very parameters. They are within the caller's bounds when curve_fit keeps to them. An exact fit has R squared one, and release times of one trap fitted with R squared one give exactly that trap. tpump_analysis fits every trap separately, and its table of densities has, in order, one row for each cell of energy and cross section with at least one trap of sufficient R squared: their number over the number of pixels and the middle of the cell; the densities add up to the number of such traps over the number of pixels. Limit, shown by counterexample: a fit below cs_fit_thresh is reported like any other.", "quantifier": "all temperatures, energies, cross sections, deviations, lists of release times, bounds, thresholds, numbers of bins, dictionaries of traps and results of curve_fit", "why_tests_cant": "tests fit a few simulated traps and compare with stored numbers; the laws range over all reals and all outcomes of the optimiser", "anchors": ["corgidrp/pump_trap_calibration.py:tau_temp", "corgidrp/pump_trap_calibration.py:sig_tau_temp", "corgidrp/pump_trap_calibration.py:fit_cs", "corgidrp/pump_trap_calibration.py:tpump_analysis"]}
{"id": "C68", "title": "The location of the star between satellite spots", "statement": "star_center_from_satellite_spots works on the difference of the two images. Every pixel of the mask of a spot is the part of the pixel's grid of subpixels that the disc covers: between 0 and 1, growing with the radius, 1 well inside, 0 well outside; the mask of all spots adds up the discs at both sides of the star at every angle, and the quantity sought is the light under it. Each iteration about the star takes the grid of trial positions about the estimate, fits the paraboloid of least squares to the light collected there and moves to its flat point; the separation likewise with a parabola, begun from the brightest trial when there is more than one iteration; these outcomes are unique with three steps or more, are what is returned whenever numbers are returned, and are returned whenever every fit is curved enough beside the most light on its grid (else ValueError). Exact paraboloids and parabolas give their flat points. The result depends only on the difference of the images up to a positive factor (exposure, common background); star and spots follow an image moved by whole pixels with its guess; the position angle of the spots does not touch the star; a NaN pixel, or equal images, gives NaN for the star and every spot; different shapes, one column, no subpixels, no steps and masks that do not count their cells are refused; without iterations the guess is the star and without a guess the middle of the image is. The joint search stays within its tolerances, ends with no less light than at the guess and returns the mask at its end. Limits, shown by counterexample: the shipped parameters lack the tolerances and the method of the joint search, which is refused with KeyError; an image of opposite sign, with holes for spots, gives the same star; the mask exceeds 1 where spots overlap, against its documentation; a saddle is reported as an optimum; the spots are returned about the middle of the image, not in its pixels.", "quantifier": "all images of all sizes with or without NaN, guesses, angles, separations, radii, subpixels, steps, iterations, masks, and all least-squares solvers", "why_tests_cant": "tests locate a star in a few simulated images to a tolerance; the laws range over all images and parameters", "anchors": ["corgidrp/star_center.py:circle", "corgidrp/star_center.py:find_optimum_1d", "corgidrp/star_center.py:find_optimum_2d", "corgidrp/star_center.py:_roi_mask_for_spots", "corgidrp/star_center.py:_cost_func_spots", "corgidrp/star_center.py:calc_star_location_and_spot_separation", "corgidrp/star_center.py:calc_star_location_from_spots", "corgidrp/star_center.py:calc_spot_separation", "corgidrp/star_center.py:star_center_from_satellite_spots", "corgidrp/l3_to_l4.py:find_star"]}
{"id": "C69", "title": "The correction and the fit of distortion", "statement": "distortion_correction gives back a dataset with the same frames in the same order, the same errors and the same flags and one more line of history, in which every pixel is the input image read at that pixel less its displacement: the displacement is the Legendre series of the calibration, of the stated order and coefficients, about the pixel n//2, less the identity. The coefficients without distortion leave every image as it is; constant coefficients move it by whole pixels exactly. A wrong number of coefficients, an order that is no integer from zero on, and images that are not square are refused. The residuals the fit minimises are, for each pair of stars, the difference of the separations and the angle between the measured offset freed of distortion and the direction on the sky, each over its error; they vanish exactly when all offsets lie along the directions of the sky at its separations; offsets as on the sky are fitted without residual from the default start. Limits: the displacement is taken at the place where the light should be, so the correction is not the inverse of the map; powers of 500 are integers of 64 bits, wrong from order 4 on and zero from order 16 on, where every pixel is read at NaN; order 0 has no valid start; an offset the opposite way leaves no residual; the fit has its middle at 511 and the correction of an image of 1024 rows at 512; errors and flags do not move with the data.", "quantifier": "all datasets, coefficients, orders, pairs of stars, plate scales and north angles, all interpolations that give pixel values at pixels, all minimisers that do not increase their objective", "why_tests_cant": "tests correct one mock field of order 3 and compare star positions within a tolerance; the polynomial map, the wrap of integers, the directions and the relation between fit and correction range over all coefficients", "anchors": ["corgidrp/l3_to_l4.py:distortion_correction", "corgidrp/astrom.py:fit_distortion_solution", "corgidrp/astrom.py:compute_distortion", "corgidrp/astrom.py:boresight_calibration"]}
{"id": "C70", "title": "The search of stars in an image", "statement": "find_source_locations looks for the brightest pixel (the first, row by row, among equals; NaN ignored), sets the square of half width int(fwhm * mask_rad) about it to zero, clipped at every edge and corner of the image, and goes on, until it has as many sources as asked for or, once it has three, finds the last one again; each source is then located by the Gaussian fit about it in the frame padded by 25 zeros, 25 subtracted. So every source is as bright as any pixel outside the squares of the earlier ones and lies outside them, as long as something above zero is left; in a field of stars that are apart by more than the half width and brighter than the light around them, the n brightest stars are returned, brightest first. No pixels, only NaN, a negative number and failing fits are refused. Limits: once nothing above zero is left, masked pixels and background pixels are returned as sources; one place may be returned three times; images that are not square are always refused.", "quantifier": "all images, numbers of sources, widths above -1 pixel, all fits", "why_tests_cant": "tests look for the stars of one mock field of 1024 by 1024 pixels; ties, edges and corners, exhausted images and the relation of brightness and distance range over all images", "anchors": ["corgidrp/astrom.py:find_source_locations"]}
{"id": "C71", "title": "The astrometric calibration of datasets", "statement": "The boresight offset of a frame is the mean, over the matched stars in the middle half of the image in both axes, of the fitted place less the place predicted by the header of that pointing, plate scale and north angle, in degrees; the corrected position is the pointing of the frame less it. boresight_calibration gives the corrected position of the first frame, the mean plate scale twice, the mean north angle, the mean offsets, and the distortion coefficients with their order (without a fit those of no distortion), with the corrected position of every frame; it is refused exactly for a wrong number of matches, for a missing RA or DEC, for the first failing frame, and where a corrected right ascension is NaN, as for a frame with no star in its middle. Combining k frames averages consecutive groups of k, the last being what remains, ceil(n/k) in all, each with the pointing of its first frame and the name of the frame after it, and calibrates the means. In a flat sky with north up the corrected declination is the true one. Limits: the right ascension is then corrected away from the true one; a turned detector mixes both; north angles on both sides of 180 degrees average to nonsense; the matches given are counted but not used; distortion with combined frames is refused; pair offsets are asked for starting from the second star.", "quantifier": "all datasets, images, star tables, plate scales, north angles, group sizes, pointings, fits and projections", "why_tests_cant": "tests calibrate one mock field with one pointing error at a fixed angle and compare within a tolerance; signs, angles, groupings of any number of frames and the refusals range over all datasets", "anchors": ["corgidrp/astrom.py:compute_boresight", "corgidrp/astrom.py:format_distortion_inputs", "corgidrp/astrom.py:boresight_calibration"]}
{"id": "C72", "title": "The offset of two stars in an image, and circular masks", "statement": "measure_offset places the first star at the centre of light (in pixels of the frame) of the window of 2 rad + 1 pixels that is as near about the guessed pixel as the edges of the frame allow; the window is unique, lies in the frame and holds the guessed pixel; of light that is nowhere negative the place lies in the window, and of light that is symmetric about its middle pixel it is that pixel. It then fits the frame about that place, shifted and scaled, to the frame about that place plus the guessed offset, and returns the guess less the fitted shift with the square roots of the variances; it is refused only as the fit is. So where the second star is a shifted and scaled copy of the first, a fit that finds the right template yields the true offset whatever the guess, the place of the first star and the background. create_circular_mask is true exactly in the disc about the given centre (column, row), and by default, for square arrays, in the widest disc about the middle, which is symmetric. Limits: a background draws the place of the star to the middle of the window; frames smaller than the window put the star at wrong places; the template has 10 by 10 pixels whatever stamp size is asked for; the default centre of an array that is not square has its coordinates exchanged (the mask of 3 rows and 9 columns is empty).", "quantifier": "all images, guesses, radii and stamps, all fits and interpolations; all shapes, centres and radii of masks", "why_tests_cant": "tests measure one pair of Gaussian stars far from the edges within a tolerance; edges, centres of light and exactness for every shape, guess and background range over all images", "anchors": ["corgidrp/astrom.py:centroid", "corgidrp/astrom.py:shift_psf", "corgidrp/astrom.py:measure_offset", "corgidrp/astrom.py:create_circular_mask"]}
{"id": "C73", "title": "The optical density of a neutral density filter at a new place", "statement": "calculate_od_at_new_location gives the linear interpolation of the densities of the sweet-spot table at the centroid of the star in the clean frame plus the transformation matrix applied to the way of the filter, FPAM_H and FPAM_V of the clean frame less those of the table, absent cards being 0; the matrix is that of the first part of the file, or of the second where the first has no data. With a filter that has not moved this is the density at the star. For a filter of known density whose interpolation is right, it is the density at the shifted place: that in front of the star exactly where the densities move over the detector against the matrix. It is refused exactly for a file of no parts or of one without data, without a clean frame, for a frame of NaN only, without a matrix, for a matrix that has not two columns or not two rows, and as the interpolation is. interpolate_od interpolates the table by the named method and refuses any other. Limits: where the densities move with the matrix the density returned is not that in front of the star; the table's own interpolate_od ignores the method asked for, its default being nearest, and is linear: NaN outside the measured places.", "quantifier": "all tables, frames, cards, transformation files, matrices and interpolations", "why_tests_cant": "the test interpolates one table of four corners at its centre, where every interpolation agrees, with the identity matrix and one way; the place asked for, the order of the matrix, absent cards and the refusals range over all tables, frames and matrices", "anchors": ["corgidrp/nd_filter_calibration.py:calculate_od_at_new_location", "corgidrp/nd_filter_calibration.py:interpolate_od", "corgidrp/nd_filter_calibration.py:load_transformation_matrix_from_fits", "corgidrp/data.py:NDFilterSweetSpotDataset"]}
{"id": "C74", "title": "The time stamps in file names", "statement": "format_ftimeutc gives the text of sixteen characters (year, month, day, T, hour, minute, second, tenth) of the tenth of a second in universal time that is nearest to the instant given, the later of two, whatever roll-over of second, minute, hour, day, month, leap day or year that takes; the text depends on the instant alone and not on the zone it is given in; texts compare as their tenths of seconds do, so stamps sort in the order of time, and two stamps are the same exactly for the same tenth. It is refused exactly for a text that is not an ISO time (ValueError) and for instants that, in universal time or rounded, fall outside the years 1 to 9999. Limit: different times of one tenth of a second get the same stamp.", "quantifier": "all texts, dates, times, zones and readers of ISO times", "why_tests_cant": "tests format a handful of times; roll-overs, leap years, zones and the order of stamps range over all pairs of instants", "anchors": ["corgidrp/data.py:format_ftimeutc"]}
{"id": "C75", "title": "The table of companions is that of the fits, places and throughputs, and does not depend on the brightness of the calibration star", "statement": "measure_companions returns one row for each companion, in order: the companions of the header cards or the candidates, which lie at their separation from the star with position angles counted from +y towards -x. The host star and the PSF of the best core throughput are fitted from the first of their brightest pixels, and the off-axis PSF at each companion is multiplied by the ratio of their peak times squared width. With the L4 throughputs the ratio is the fitted peak at the companion divided by the throughput interpolated at the fitted separation and by the fitted peak of that PSF, and the counts are the volume of the fitted Gaussian; without correction it is the ratio of the two photometries, with the default settings of the method where none are given. The magnitude is that of the host star less 2.5 log10 of the ratio, or the zero point less 2.5 log10 of the counts. Everything else is refused, and with which exception is known: the first failing companion ends the call. Where fits and photometries are homogeneous, a host star q times as bright divides the ratios by q and adds 2.5 log10 q to the magnitudes relative to it, and the brightness of the star of the core throughput calibration cancels. Limits: with a neutral density filter the host peak is divided by the optical density rather than by the transmission, so that ratios are d 10^d times too large; a flux calibration gives no magnitudes, as its zero point card is never written.", "quantifier": "all images, throughput tables, companion cards or candidate lists, settings, and all fitting, PSF, density and photometry functions, which may raise", "why_tests_cant": "tests inject companions of known contrast in simulated images at a few places with one fit and with no neutral density filter; that the calibration brightness cancels for every image, the order of refusals and the size of the error with a filter are statements over all of them", "anchors": ["corgidrp/measure_companions.py: measure_companions, measure_counts, get_photometry_kwargs"]}
{"id": "C76", "title": "Photometry sums the unflagged light in the aperture, and the flux calibration factor turns these counts into the flux of the star", "statement": "aper_phot returns, divided by the encircled energy, the sum over the pixels with a share in the aperture and no flag of the share times the value less the background if asked for, the root of the sum of share times squared error, and the background. The aperture is at the pixel of the WCS, at the centroid of the square around the rounded guess, or at that around the first of the brightest pixels. phot_by_gauss2d_fit returns what the fit gives at the same centre for the image less its background, with the flagged pixels masked, errors of 0 replaced, and by default a region one less than the number of rows. calibrate_fluxcal_aper and calibrate_fluxcal_gauss2d return the flux (or irradiance) of the star in the band over these counts, with error flux/counts^2 times the error of the counts, so that factor times counts is the flux and relative errors agree; the filter is that of the header, the density name that of FPAM or else FSAM if it begins with ND, else ND0; the header is that of the image with the units, type, level and local background. Every refusal and its exception is known; pixels, errors and flags are never changed. Light and errors k times as large give k times the counts and 1/k times the factor. With the centre from the WCS flagged pixels do not matter and a constant sky is taken away exactly. Limits: with the centre found in the image, the default, flagged pixels and a constant sky move the aperture; the pixel of the WCS is counted from 1 but used as if from 0, so the aperture is a pixel off in both directions; a guess whose square lies before the frame is replaced by the centroid of nearly the whole frame; the image passed in is left labelled as the calibration product.", "quantifier": "all images, errors, flags and header cards, all settings, guesses and targets, and all WCS, background, overlap, fitting and flux functions, which may raise", "why_tests_cant": "tests measure one simulated star without flags, background or a WCS at its place; the sum over every set of flags and shares, the scaling laws, the order of refusals and what is left in the image passed in range over all images", "anchors": ["corgidrp/fluxcal.py: aper_phot, phot_by_gauss2d_fit, calibrate_fluxcal_aper, calibrate_fluxcal_gauss2d", "corgidrp/astrom.py: centroid_with_roi", "corgidrp/data.py: FluxcalFactor"]}
{"id": "C77", "title": "A PSF subtraction hands pyklip exactly the unflagged science and reference light, and its product keeps the header, flags and centre that belong to it", "statement": "Without a reference dataset the frames with PSFREF 0 are science and those with PSFREF 1 the references; with one, every frame of the dataset is science. Both are cropped if asked for, and every pixel with a flag is NaN in what pyklip is given; the mode is the one asked for, or ADI without references, RDI for a single science frame and ADI+RDI otherwise. The product has pyklip's planes, flag 1 exactly where a plane is NaN, error 0 elsewhere, the primary header of the first science frame with KLIP_ALG, its extension header with pyklip's cards (the last of a name) except PSFCENTX, PSFCENTY, CREATOR and CTYPE3, and the star at pyklip's centre in STARLOCX and STARLOCY; the KL throughput and core throughput tables are added when asked for, the latter at the separations of the former or else at seven separations. Every refusal and its exception is known. References inside the dataset do what the same references passed apart do; their place among the science frames, frames of other labels and the values of flagged pixels do not matter. Limits: with a reference dataset, frames of the dataset labelled as references are subtracted as science; a pixel flagged in every frame has flag 0 in the product wherever pyklip returns a number; RDI without any reference is handed on to pyklip; the product has the header of the first science frame and the name of the last.", "quantifier": "all datasets, labels, headers, pixels and flags, all settings, and all cropping, subtraction and throughput functions, which may raise", "why_tests_cant": "tests run simulated sequences of a few frames without flags; the selection by label, the masking, the header and the equality of the results for references inside or outside range over all datasets and every answer of pyklip", "anchors": ["corgidrp/l3_to_l4.py: do_psf_subtraction", "corgidrp/data.py: Dataset.split_dataset", "corgidrp/data.py: Image.get_masked_data"]}
{"id": "C78", "title": "The nonlinearity table holds, for every gain, one over the gain at each count relative to the gain at the norm", "statement": "A dictionary of settings is accepted exactly if it has all sixteen names and each is a number; the other settings exactly if the norm is a positive multiple of 20 between the limits, the limits positive and in order, the error limits not negative and in order and the rest numbers; each refusal and its exception is known. The mask is where the mean frame is not below the factor times the first emptiest bin up to the fullest; the signal of a frame is the mean over lit pixels above the mean of the two background regions of what is above it; the corrected signals of a gain are fitted by a line, fitted again to the cut that the relative error asks for, divided by the line, smoothed and interpolated. The table is a row of gains and then, for every multiple of 20 from 20 to 14000 within the limits, in ascending order, the count and one over the gain relative to the norm for every gain. There is a row of the norm and it is 1 wherever the gain is a nonzero number; another norm only divides each column by its entry there; a linear detector gets 1 everywhere. Limits: smoothed gains come in the order of signals but are paired with signals in the order of exposure times, so that signals that do not ascend give wrong entries; NaN limits pass and give an empty table; a norm above 14000 within accepted limits raises IndexError; limits off the multiples of 20 or above 14000 are moved inside; a float for a row or column passes the checks and raises TypeError.", "quantifier": "all settings, frames, gains, exposure times, and all histograms, drift corrections, fits, smoothings and interpolations, which may raise", "why_tests_cant": "the tests compare one simulated detector with one table; the order of checks, the choice of the fit, the mask and the algebra of norms range over all inputs and every answer of the numerical tools", "anchors": ["corgidrp/calibrate_nonlin.py: check_nonlin_params", "corgidrp/calibrate_nonlin.py: calibrate_nonlin", "corgidrp/check.py: real_positive_scalar", "corgidrp/check.py: real_nonnegative_scalar", "corgidrp/check.py: positive_scalar_integer"]}
{"id": "C79", "title": "Each check of an argument accepts exactly the values it names, returns them unchanged and raises the given exception with its message for all others", "statement": "With a name that is text or bytes and an exception class, the fourteen checks (real, positive and nonnegative scalars, integers, positive and nonnegative integers, real, 1D, 2D, square and 3D arrays, strings, bools, dictionaries) return exactly the values that are so; scalars, strings, bools and dictionaries come back as they are, arrays with the same shape and index by index the same entries, and of the widest kind among them. Every other value raises the given exception with the name and a message that depends only on the first condition that fails; a name or exception that is not fit raises CheckException before the value is looked at. What a check returned it returns again; a value that passes a check passes the weaker ones; name and exception do not matter to what passes. Limits: NaN and infinity pass as positive, True as a positive integer, arrays of text as 1D, 2D and 3D arrays (the error for arrays neither real nor complex is never raised), an empty list where a length above 0 is asked for; a ragged list raises ValueError and not the given exception; a name of bytes is accepted and then raises TypeError; a bool of numpy passes neither as a bool nor as a scalar.", "quantifier": "all values (numbers of Python and numpy with NaN and infinities, texts, bytes, dictionaries, classes, other objects, arrays, and lists nested to any depth and length), all names and all exceptions", "why_tests_cant": "the tests try a list of bad values for each check; which values pass, the order of the conditions and the shape and entries of nested lists range over all values", "anchors": ["corgidrp/check.py: real_positive_scalar", "corgidrp/check.py: real_array", "corgidrp/check.py: oneD_array", "corgidrp/check.py: twoD_array", "corgidrp/check.py: twoD_square_array", "corgidrp/check.py: threeD_array", "corgidrp/check.py: real_scalar", "corgidrp/check.py: real_nonnegative_scalar", "corgidrp/check.py: positive_scalar_integer", "corgidrp/check.py: nonnegative_scalar_integer", "corgidrp/check.py: scalar_integer", "corgidrp/check.py: string", "corgidrp/check.py: boolean", "corgidrp/check.py: dictionary", "corgidrp/check.py: _checkname", "corgidrp/check.py: _checkexc"]}
{"id": "C80", "title": "A step from L1 to L3 changes no pixel of any dataset that exists, and what it returns shares no array with them", "statement": "For each of the steps from L1 to L3 (prescan_biassub, detect_cosmic_rays, correct_nonlinearity, the three changes of level, add_photon_noise, dark_subtraction, flat_division, frame_select, convert_to_electrons, em_gain_division, cti_correction, correct_bad_pixels, desmear, create_wcs, divide_by_exptime), whatever it computes and whether it returns or raises: every pixel of the input and of every other dataset reads, by its cubes and by its frames, what it read before. Headers change only with prescan_biassub and the changes of level, and only the extension and error headers of the input's frames. The result has its own frames and arrays, and its own headers except with those steps; its frames and cubes hold the same values, and its frames are views of its cubes, so writing one writes the other. A history of any calls, on the input or on earlier results, keeps all pixels of all datasets, and all headers when none of those steps is among them. Limits: prescan_biassub and the changes of level rewrite headers of their input (after prescan_biassub NAXIS1 of the input disagrees with its data); whatever em_gain_division and divide_by_exptime return, none of its frames has its data in the cube; dark_subtraction, also when it raises, leaves its input with frames that are not views of its cubes.", "quantifier": "all steps with all computations of pixels, cards, gains and decisions, all heaps and datasets with any number of frames and pixels (also with frames that are no views of the cubes), every other dataset sharing anything with the input, all outcomes, and all histories of calls of any length", "why_tests_cant": "the tests compare the result of a step with expected values on a few frames; that nothing else changes ranges over all datasets that may share arrays with the input, all outcomes and all histories", "anchors": ["corgidrp/l1_to_l2a.py: prescan_biassub", "corgidrp/l1_to_l2a.py: detect_cosmic_rays", "corgidrp/l1_to_l2a.py: correct_nonlinearity", "corgidrp/l1_to_l2a.py: update_to_l2a", "corgidrp/l2a_to_l2b.py: add_photon_noise", "corgidrp/l2a_to_l2b.py: dark_subtraction", "corgidrp/l2a_to_l2b.py: flat_division", "corgidrp/l2a_to_l2b.py: frame_select", "corgidrp/l2a_to_l2b.py: convert_to_electrons", "corgidrp/l2a_to_l2b.py: em_gain_division", "corgidrp/l2a_to_l2b.py: cti_correction", "corgidrp/l2a_to_l2b.py: correct_bad_pixels", "corgidrp/l2a_to_l2b.py: desmear", "corgidrp/l2a_to_l2b.py: update_to_l2b", "corgidrp/l2b_to_l3.py: create_wcs", "corgidrp/l2b_to_l3.py: divide_by_exptime", "corgidrp/l2b_to_l3.py: update_to_l3", "corgidrp/data.py: Dataset.copy", "corgidrp/data.py: Dataset.split_dataset"]}
{"id": "C81", "title": "The read noise of a K gain calibration comes from the exact histogram of the prescan and a fit with known start", "statement": "For whole bounds a and b of the bins, histc_roi returns one count for each of the b - a - 1 bins: the number of prescan pixels from its lower edge up to, not including, its upper edge, which belongs only to the last bin; NaN and pixels beyond the edges are in none, whatever the number of pixels and the blocks they are sorted in. The counts add up to the number of pixels from a to b - 1; counts of two sets of pixels add bin by bin; neither the order of the pixels nor pixels outside the bins matter; moving pixels and bins by a whole number keeps the counts, and the width if the fit does not mind where zero is. The width is what the fit makes of the left edges, the counts and the start: the largest count, the left edge of the first bin that has it, and 10; with fewer than two edges there is a ValueError, and every other error is that of the fit. Limits: a pixel on the last edge is counted in the bin below; if no pixel is in the bins there is no error and the width is the start 10, so that the read noise of the calibration is ten over the root of two times the gain, for every fit that stays where nothing is left to gain; the sign of the width is not fixed by least squares and is kept.", "quantifier": "all lists of pixels of any length (also NaN), all bounds of the bins, all fits (any function that returns or raises; least squares, staying or equivariant where named), all calibrations for the read noise", "why_tests_cant": "tests run one simulated detector with well filled bins and fewer frames than a block of the histogram; they do not range over pixels on edges, empty bins, all orders of pixels or all fits", "anchors": ["corgidrp/calibrate_kgain.py:gauss", "corgidrp/calibrate_kgain.py:sgaussfit", "corgidrp/calibrate_kgain.py:Single_peakfit", "corgidrp/calibrate_kgain.py:histc_roi", "corgidrp/calibrate_kgain.py:calibrate_kgain"]}
{"id": "C82", "title": "An injected PSF has the amplitude asked for, at the place that is returned, and injections do not depend on their order", "statement": "inject_psf returns exactly if the frame has ROLL, STARLOCX and STARLOCY, the table has a PSF for the first of its positions nearest to the place, the PSF has pixels and pyklip paints; a missing card is a KeyError, a PSF without pixels a ValueError. The place that is returned is the one that is painted: at the separation from the star and the position angle less the roll, plus 90 degrees, from the axis of x; its distance from the star is the separation. The model is the PSF times the amplitude over its largest number, pixel by pixel, so that for a positive peak its largest number is the amplitude; NaN stays. Turning frame and position angle together changes nothing; a multiple of the amplitude gives the multiple of the model at the same place. Only the array of the frame is new: after any number of injections the cards are those of the first frame, and each model and place is that of an injection into it; if what is painted is added, every pixel is the first one plus all that is painted there, and the order of the injections does not matter to any pixel. Limits: a PSF with a negative peak is turned in sign and its peak is more than the amplitude; one with a peak of zero or with NaN only is injected as NaN or infinity without an error.", "quantifier": "all frames, tables of PSFs (with NaN), amplitudes, separations, angles and rolls; all lists of injections; any painting (one that adds, where named)", "why_tests_cant": "tests inject a few PSFs of one positive simulated table; they do not range over all angles, tables, NaN and sequences of injections", "anchors": ["corgidrp/klip_fm.py:inject_psf", "corgidrp/klip_fm.py:get_closest_psf", "corgidrp/klip_fm.py:meas_klip_thrupt", "corgidrp/astrom.py:seppa2dxdy"]}
{"id": "C83", "title": "What a calibration writes to the header of the first frame handed in, which is also that of its product", "statement": "calibrate_kgain, calibrate_nonlin, build_trad_dark and the end of tpump_analysis give their product the extension header object of the first frame of the dataset. After any sequence of such calls, failed ones included, headers of frames that are first in no call are unchanged; in the others only a fixed list of cards and the cards of the parents change, the history only grows and comments stay. A call gets through these statements exactly if the dataset has a frame, the first has DATETIME (K gain, non-linearity) or EXPTIME and EMGAIN_C (dark), and, where parents are recorded, their cards are complete. The product then has its label, level, version, time, units and measured values. K gain, non-linearity and trap products, and darks whose first frame has no DRPNFILE, name all frames and their parents, each once; other darks keep the parents that are there. After a sequence of successful calls a product still has its own label exactly if the last call with the same first header makes the same kind of product; calls with different first headers all keep their labels. Limits: the first frame of the caller is relabelled as the product; a K gain product becomes a non-linearity one when that is calibrated next from the same first frame; a dark made from a frame used before does not name its own frames; a dark that fails has relabelled the frame.", "quantifier": "all headers and datasets, also with shared headers; all sequences of calls with any outcome; any order in which a set of names is enumerated", "why_tests_cant": "tests make one product from a fresh dataset and look at the product only; they do not look at the frames afterwards, at failures half-way, or at sequences of calibrations on the same frames", "anchors": ["corgidrp/calibrate_kgain.py:calibrate_kgain", "corgidrp/calibrate_nonlin.py:calibrate_nonlin", "corgidrp/darks.py:build_trad_dark", "corgidrp/pump_trap_calibration.py:create_TrapCalibration_from_trap_dict", "corgidrp/data.py:Image.__init__", "corgidrp/data.py:Image._record_parent_filenames"]}
