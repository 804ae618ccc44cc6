{
 "claims": [
  {
   "property": "C01",
   "status": "proved",
   "theorems": [
    "C01_every_text_has_content",
    "C01_blocks_are_entries",
    "C01_version_and_format"
   ],
   "note": "For every text; text_content is a relation proved total and functional. File names resolved by the path model (C08)."
  },
  {
   "property": "C02",
   "status": "proved",
   "theorems": [
    "C02_accepts_iff_well_formed",
    "C02_rejection_class",
    "C02_undecodable_is_type_error"
   ],
   "note": "Exact characterisation of acceptance and of the exception classes. Side finding: undecodable file raises TypeError."
  },
  {
   "property": "C03",
   "status": "proved",
   "theorems": [
    "C03_only_content_matters",
    "C03_insert_comment"
   ],
   "note": "Outcome depends only on the words of meaningful lines; covers comments, blank lines, spacing and line-ending style."
  },
  {
   "property": "C04",
   "status": "proved",
   "theorems": [
    "C04_decimal_comma"
   ],
   "note": ""
  },
  {
   "property": "C05",
   "status": "proved",
   "theorems": [
    "C05_kind_by_count",
    "C05_no_clash",
    "C05_duplicate_raises",
    "C05_fewer_than_two_rejected"
   ],
   "note": ""
  },
  {
   "property": "C06",
   "status": "proved",
   "theorems": [
    "C06_block_order"
   ],
   "note": "For descriptors made of preliminary lines followed by blocks."
  },
  {
   "property": "C07",
   "status": "partial",
   "theorems": [
    "C07_no_image_dropped_refuted",
    "C07_no_image_dropped_partial"
   ],
   "note": "Refuted: an 'i' line after a 'v', 'n' or unknown line is silently ignored. True for descriptors without such stray lines."
  },
  {
   "property": "C08",
   "status": "partial",
   "theorems": [
    "C08_image_location_partial",
    "C08_every_name_refuted",
    "C08_mixed_dotdot_refuted"
   ],
   "note": "Location of every image name with one kind of separator, or with both kinds but without '..' and without a backslash directly before a slash. Refuted for all names by two witnesses (backslash-slash makes the rest absolute; '..' after a component with a backslash)."
  },
  {
   "property": "C09",
   "status": "proved",
   "theorems": [
    "C09_literal_read_to_nearest",
    "C09_nearest_is_nearest",
    "C09_denotation_unique",
    "C09_accepted",
    "C09_same_key"
   ],
   "note": "Every decimal literal, including underscores and exponents; nearest-even is Flocq's round for binary64."
  },
  {
   "property": "C10",
   "status": "proved",
   "theorems": [
    "C10_exact_integers"
   ],
   "note": "int64 wrap-around modelled; exactness for nonempty same-shape series of at most 1000 images of at most 16 bits."
  },
  {
   "property": "C11",
   "status": "proved",
   "theorems": [
    "C11_scaled_sample_variance",
    "C11_nonnegative_zero_iff_constant",
    "C11_offset_invariant"
   ],
   "note": ""
  },
  {
   "property": "C12",
   "status": "proved",
   "theorems": [
    "C12_order_irrelevant",
    "C12_drift_telescopes"
   ],
   "note": "Order irrelevance for every series whose images have one shape; dmean telescopes to mean(first)-mean(last)."
  },
  {
   "property": "C13",
   "status": "proved",
   "theorems": [
    "C13_one_shape_reported",
    "C13_different_shapes_raise"
   ],
   "note": ""
  },
  {
   "property": "C14",
   "status": "proved",
   "theorems": [
    "C14_visiting_order"
   ],
   "note": "Exception class may differ between orders; success, data and shape do not."
  },
  {
   "property": "C15",
   "status": "proved",
   "theorems": [
    "C15_success_iff",
    "C15_exception_class",
    "C15_entries_kept"
   ],
   "note": "Exact success condition, exception classes, and preservation of every key."
  },
  {
   "property": "C16",
   "status": "proved",
   "theorems": [
    "C16_emva_estimators",
    "C16_nonnegative_symmetric",
    "C16_constant_shift_has_no_noise"
   ],
   "note": "For 16-bit pairs of at most 2^29 pixels (beyond that the int64 sums could wrap)."
  },
  {
   "property": "C17",
   "status": "proved",
   "theorems": [
    "C17_sorted_and_aligned",
    "C17_exposures_sorted"
   ],
   "note": "Keys pairwise different and not NaN."
  },
  {
   "property": "C18",
   "status": "partial",
   "theorems": [
    "C18_equal_lengths_iff",
    "C18_dark_aligned_partial",
    "C18_equal_lengths_refuted"
   ],
   "note": "Refuted for several exposures with several bright points; exact characterisation of when lengths agree, and alignment in that case."
  },
  {
   "property": "C19",
   "status": "proved",
   "theorems": [
    "C19_rejected_iff"
   ],
   "note": ""
  },
  {
   "property": "C20",
   "status": "partial",
   "theorems": [
    "C20_temporal_partial",
    "C20_spatial_partial",
    "C20_temporal_refuted",
    "C20_spatial_refuted"
   ],
   "note": "True for non-negative photon counts; refuted for negative ones (temporal and spatial)."
  },
  {
   "property": "C21",
   "status": "proved",
   "theorems": [
    "C21_spatial_statistics"
   ],
   "note": ""
  },
  {
   "property": "C22",
   "status": "proved",
   "theorems": [
    "C22_accepted_iff"
   ],
   "note": ""
  },
  {
   "property": "C23",
   "status": "proved",
   "theorems": [
    "C23_saturation_index",
    "C23_last_point_counts",
    "C23_single_negative_raises"
   ],
   "note": "Arrays of length >= 2, or a single non-negative value (a single negative value, not a variance, raises IndexError: proved)."
  },
  {
   "property": "C24",
   "status": "partial",
   "theorems": [
    "C24_peak_found_partial",
    "C24_peak_refuted",
    "C24_never_index_one"
   ],
   "note": "Every peak position except 1; refuted for 1 (the code compares index 0 with its upper neighbour, so 1 is never returned)."
  },
  {
   "property": "C25",
   "status": "partial",
   "theorems": [
    "C25_history_irrelevant",
    "C25_forced_index_partial",
    "C25_forced_index_refuted"
   ],
   "note": "Access history is irrelevant for all figures; a forced non-zero index is honoured; refuted for forced index 0."
  },
  {
   "property": "C26",
   "status": "proved",
   "theorems": [
    "C26_sensitivity_max",
    "C26_linearity_max",
    "C26_linearity_min",
    "C26_below_saturation"
   ],
   "note": "For data sets whose temporal arrays have one length."
  },
  {
   "property": "C27",
   "status": "proved",
   "theorems": [
    "C27_responsivity",
    "C27_gain",
    "C27_proportional_exact",
    "C27_line",
    "C27_line_exact"
   ],
   "note": "scipy's leastsq is assumed to return the minimiser; optimality over all real slopes."
  },
  {
   "property": "C28",
   "status": "proved",
   "theorems": [
    "C28_identities",
    "C28_u_p_sat",
    "C28_snr",
    "C28_dynamic_range"
   ],
   "note": ""
  },
  {
   "property": "C29",
   "status": "proved",
   "theorems": [
    "C29_sigma_y_dark",
    "C29_sigma_d"
   ],
   "note": ""
  },
  {
   "property": "C30",
   "status": "proved",
   "theorems": [
    "C30_from_mean",
    "C30_from_variance"
   ],
   "note": ""
  },
  {
   "property": "C31",
   "status": "proved",
   "theorems": [
    "C31_relative_least_squares",
    "C31_exactly_linear"
   ],
   "note": "Deviations are finite when the fitted line has no zero at a point of the range; other cases are left open in the model."
  },
  {
   "property": "C32",
   "status": "proved",
   "theorems": [
    "C32_bright",
    "C32_dark",
    "C32_total"
   ],
   "note": ""
  },
  {
   "property": "C33",
   "status": "proved",
   "theorems": [
    "C33_dsnu",
    "C33_prnu"
   ],
   "note": "When the variances are numbers (not NaN)."
  },
  {
   "property": "C34",
   "status": "proved",
   "theorems": [
    "C34_per_area"
   ],
   "note": ""
  },
  {
   "property": "C35",
   "status": "proved",
   "theorems": [
    "C35_ordered",
    "C35_threshold"
   ],
   "note": "Positive K and R, finite DSNU and PRNU for the total curve."
  },
  {
   "property": "C36",
   "status": "partial",
   "theorems": [
    "C36_partition",
    "C36_nothing_to_count",
    "C36_masked_refuted"
   ],
   "note": "Plain integer images: fully proved, plus minimal bin width; refuted for masked images, whose masked pixels are counted."
  },
  {
   "property": "C37",
   "status": "proved",
   "theorems": [
    "C37_dark",
    "C37_bright"
   ],
   "note": "Plain (unmasked) images."
  },
  {
   "property": "C38",
   "status": "proved",
   "theorems": [
    "C38_high_pass",
    "C38_even_size_refused",
    "C38_gradient_is_zero",
    "C38_linear",
    "C38_size_one_refuted"
   ],
   "note": "Border handling of the convolution (mode reflect) is modelled and shown not to matter; size 1 gives an empty image (refuted variant)."
  },
  {
   "property": "C39",
   "status": "proved",
   "theorems": [
    "C39_masked_high_pass",
    "C39_masked_values_irrelevant"
   ],
   "note": ""
  },
  {
   "property": "C40",
   "status": "proved",
   "theorems": [
    "C40_row_compression"
   ],
   "note": ""
  },
  {
   "property": "C41",
   "status": "proved",
   "theorems": [
    "C41_power_spectrum",
    "C41_mirror",
    "C41_sum_of_images",
    "C41_constant",
    "C41_pure_wave",
    "C41_masked"
   ],
   "note": ""
  },
  {
   "property": "C42",
   "status": "partial",
   "theorems": [
    "C42_labels_refuted",
    "C42_labels",
    "C42_odd_width"
   ],
   "note": "Refuted for every even width: labels are k/(w+2) instead of k/w; exact labels proved for all lengths."
  },
  {
   "property": "C43",
   "status": "proved",
   "theorems": [
    "C43_metadata",
    "C43_undocumented"
   ],
   "note": "For doc strings whose block lines are ':Key: value' lines or lines without a colon."
  },
  {
   "property": "C44",
   "status": "proved",
   "theorems": [
    "C44_grouped",
    "C44_succeeds"
   ],
   "note": ""
  },
  {
   "property": "C45",
   "status": "partial",
   "theorems": [
    "C45_round_trip",
    "C45_empty_array_refuted",
    "C45_case_refuted"
   ],
   "note": "Identifiers as names, printable texts, binary64 numbers, no empty array or section: full round trip. Refuted for empty arrays (file unreadable) and for names differing in case only (merged)."
  },
  {
   "property": "C46",
   "status": "partial",
   "theorems": [
    "C46_symmetric",
    "C46_self_partial",
    "C46_self_ok",
    "C46_self_none_refuted",
    "C46_self_nan_refuted",
    "C46_self_new_numpy_refuted"
   ],
   "note": "Symmetry proved. Self-comparison: exact characterisation of the lines that are OK; refuted for None, NaN and, with NumPy >= 1.24, every non-zero number."
  },
  {
   "property": "C47",
   "status": "partial",
   "theorems": [
    "C47_bit_depth",
    "C47_full_well",
    "C47_deep_refuted",
    "C47_64_refuted"
   ],
   "note": "Range and full-well level for every bit depth up to 53 and every draw that gives numbers; refuted for 54..63 bits (2^bits) and 64 bits (conversion unspecified), where 2^bits-1 is not a float."
  },
  {
   "property": "C48",
   "status": "partial",
   "theorems": [
    "C48_available",
    "C48_range",
    "C48_accepted",
    "C48_nearest",
    "C48_granted",
    "C48_idempotent",
    "C48_exact",
    "C48_tie",
    "C48_monotone",
    "C48_far_refuted",
    "C48_monotone_refuted"
   ],
   "note": "Binary64 arithmetic. Available setting after every history, nearest by computed distance, exact-distance nearest, ties, idempotence and monotonicity proved (the last under the stated exactness condition); refuted for far requests, where computed distances are equal after rounding."
  },
  {
   "property": "C49",
   "status": "proved",
   "theorems": [
    "C49_inverse",
    "C49_inverse_photons",
    "C49_formula",
    "C49_proportional",
    "C49_no_exposure"
   ],
   "note": "Real arithmetic."
  },
  {
   "property": "C50",
   "status": "partial",
   "theorems": [
    "C50_mean",
    "C50_even_response",
    "C50_zero_refuted",
    "C50_other_exposure_refuted",
    "C50_negative_refuted"
   ],
   "note": "Proved for m <> 0 at the camera's exposure for a response whose unevenness leaves the mean efficiency unchanged; refuted for m = 0, another exposure, and a mean below the thermal signal (negative radiance)."
  },
  {
   "property": "C51",
   "status": "partial",
   "theorems": [
    "C51_tile",
    "C51_tile_row",
    "C51_line",
    "C51_line_row",
    "C51_bayer",
    "C51_bayer_refuted"
   ],
   "note": "Tiles: all patterns and sizes. Bayer filter: even sizes; refuted for odd sizes."
  },
  {
   "property": "C52",
   "status": "partial",
   "theorems": [
    "C52_gain",
    "C52_offset",
    "C52_failure_refuted"
   ],
   "note": "Proved for every camera history and images that are delivered; refuted when an image fails (exception leaves the tried gain set)."
  },
  {
   "property": "C53",
   "status": "partial",
   "theorems": [
    "C53_exposures",
    "C53_exposure_count",
    "C53_count_refuted",
    "C53_lights",
    "C53_radiances_ignored",
    "C53_radiance_limits_refuted",
    "C53_gain_ignored"
   ],
   "note": "Structure for every argument with steps >= 1; exact number for limits at least 0.2 (steps-1) ns apart (binary64 arithmetic, rounding to one decimal); refuted for equal limits (points coincide) and for the radiance limits, which are never used."
  },
  {
   "property": "C54",
   "status": "proved",
   "theorems": [
    "C54_parses_back",
    "C54_series",
    "C54_generator",
    "C54_two_images",
    "C54_fewer_images",
    "C54_dim_refuted"
   ],
   "note": "Points that print apart; proved that exposure series do. Two images, fewer images and unprintably few photons are shown to be rejected by the parser."
  },
  {
   "property": "C55",
   "status": "proved",
   "theorems": [
    "C55_stopped",
    "C55_completed",
    "C55_saved_once",
    "C55_completes"
   ],
   "note": "Every prefix of the effects with every part of the written text on disk."
  },
  {
   "property": "C56",
   "status": "partial",
   "theorems": [
    "C56_marks",
    "C56_count_refuted"
   ],
   "note": "Exact set of changed pixels; exact number without repeated draws; refuted with repeated draws."
  },
  {
   "property": "C57",
   "status": "partial",
   "theorems": [
    "C57_efficiency",
    "C57_transmission",
    "C57_nominal",
    "C57_normalised",
    "C57_shape",
    "C57_shape_error_refuted"
   ],
   "note": "Ranges and normalisation proved; acceptance condition exact; refuted: the error is TypeError."
  },
  {
   "property": "C58",
   "status": "partial",
   "theorems": [
    "C58_points_in_order",
    "C58_only_failures",
    "C58_shared_dictionary_refuted",
    "C58_second_try_refuted"
   ],
   "note": "Proved for every history of add calls (failing ones included) on pairwise different dictionaries; refuted when a dictionary is added twice and for the name after a failed first try."
  },
  {
   "property": "C59",
   "status": "partial",
   "theorems": [
    "C59_missing",
    "C59_number",
    "C59_integer",
    "C59_nan_refuted"
   ],
   "note": "Numbers, integers below 2^53, None and the np.nan object; refuted: a computed NaN is printed as 'nan'."
  },
  {
   "property": "C60",
   "status": "partial",
   "theorems": [
    "C60_last_test_only",
    "C60_figures",
    "C60_all_tests_refuted"
   ],
   "note": "Exactly what is drawn is proved: the last test only, on every figure; the property is refuted for two tests."
  },
  {
   "property": "C61",
   "status": "partial",
   "theorems": [
    "C61_plain",
    "C61_masked",
    "C61_bracketed",
    "C61_rounding_refuted",
    "C61_no_mask_refuted",
    "C61_masked_middle_refuted"
   ],
   "note": "Exact arithmetic: every plain or masked image. Refuted: binary64 rounding (mean above max), masked array without mask, masked middle row of an image with at most two rows."
  },
  {
   "property": "C62",
   "status": "proved",
   "theorems": [
    "C62_end_to_end",
    "C62_order_free"
   ],
   "note": "Exact arithmetic, leastsq assumed to return the minimiser; finite numbers, 16-bit images, at most 1000 per entry and 2^29 pixels. With several exposures each may have only one bright pair."
  },
  {
   "property": "C63",
   "status": "proved",
   "theorems": [
    "C63_model_curve"
   ],
   "note": "Up to the factor (ymax-ymin)/(n W) of the code, bounded by (n-1)/n and 1."
  },
  {
   "property": "C64",
   "status": "proved",
   "theorems": [
    "C64_dark",
    "C64_bright"
   ],
   "note": "Plain (unmasked) images."
  },
  {
   "property": "C65",
   "status": "proved",
   "theorems": [
    "C65_results",
    "C65_succeeds"
   ],
   "note": ""
  },
  {
   "property": "C66",
   "status": "proved",
   "theorems": [
    "C66_ok_means_close"
   ],
   "note": "For every rounding that is good to one unit of the seventh digit."
  },
  {
   "property": "C67",
   "status": "partial",
   "theorems": [
    "C67_saved_pixels",
    "C67_deep_refuted"
   ],
   "note": "Proved up to 32 bits per pixel (the encoding into the file is left to PIL); refuted above."
  },
  {
   "property": "C68",
   "status": "partial",
   "theorems": [
    "C68_files_lead",
    "C68_same_name_refuted",
    "C68_reuse_fails"
   ],
   "note": "Proved for files with different names that lie outside the upload directory; refuted for equal names and for a reused dictionary."
  },
  {
   "property": "C69",
   "status": "partial",
   "theorems": [
    "C69_profiles",
    "C69_profiles_scaled",
    "C69_counts_refuted",
    "C69_spectrogram",
    "C69_spectrogram_scaled"
   ],
   "note": "Proved for equal numbers of bright and dark images, and with the exact scaling otherwise; refuted for different numbers."
  },
  {
   "property": "C70",
   "status": "partial",
   "theorems": [
    "C70_scale",
    "C70_percent_refuted"
   ],
   "note": "The exact scale is proved: percent times sqrt(mean)/100; the property is refuted."
  },
  {
   "property": "C71",
   "status": "proved",
   "theorems": [
    "C71_evaluates",
    "C71_series"
   ],
   "note": "Composition of the generator model with the evaluation model; PIL is taken to return the stored pixels (lossless formats). Points must be listed differently (C54) and complete; both are derived for exposure series with positive printed photons."
  },
  {
   "property": "C72",
   "status": "proved",
   "theorems": [
    "C72_sensitivity",
    "C72_ptc",
    "C72_linearity",
    "C72_deviation",
    "C72_no_range",
    "C72_end_to_end"
   ],
   "note": "Exact arithmetic; a shaped data set with its saturation point inside the series (derived from the pixels in C72_end_to_end for the first two plots). Colours, legends and labels of axes are not modelled."
  },
  {
   "property": "C73",
   "status": "partial",
   "theorems": [
    "C73_one_test",
    "C73_figure",
    "C73_samples_refuted"
   ],
   "note": "Proved with exact real arithmetic (C73_one_test, C73_figure). Refuted in binary64: numpy's arange may give a 101st sample beyond the saturation (C73_samples_refuted)."
  },
  {
   "property": "C74",
   "status": "partial",
   "theorems": [
    "C74_dark_partial",
    "C74_joined_refuted",
    "C74_apart_refuted"
   ],
   "note": "Proved in exact arithmetic for ascending exposure times (the order get_temporal establishes). Refuted in binary64: the mean of equal times may differ from them and the mean of different times may round to the first."
  },
  {
   "property": "C75",
   "status": "partial",
   "theorems": [
    "C75_levels_partial",
    "C75_outside_refuted",
    "C75_reversed_refuted"
   ],
   "note": "Proved: the average height of the mean curve (bright) and of the min and max curves (dark) is in view when not negative. Refuted for the curves themselves and for the direction of the axis."
  },
  {
   "property": "C76",
   "status": "partial",
   "theorems": [
    "C76_bins",
    "C76_two_tests_refuted"
   ],
   "note": "Proved for one test per figure. Refuted for several: the last test sets the axis."
  },
  {
   "property": "C77",
   "status": "proved",
   "theorems": [
    "C77_mean_correctly_rounded",
    "C77_variance_error",
    "C77_identical_images",
    "C77_all_arrays"
   ],
   "note": "Binary64 arithmetic by Flocq's rounding; any order and grouping of the additions of np.mean; int64 sums are exact (C10)."
  },
  {
   "property": "C78",
   "status": "partial",
   "theorems": [
    "C78_variance_nonnegative_refuted"
   ],
   "note": "Refuted in binary64 (holds in exact arithmetic, C16_nonnegative_symmetric; the amount below zero is bounded by C77)."
  },
  {
   "property": "C79",
   "status": "proved",
   "theorems": [
    "C79_sheets"
   ],
   "note": "All values of the figures; texts without the characters % & { } and backslash (otherwise C83). jinja2 is modelled for the constructs the templates use."
  },
  {
   "property": "C80",
   "status": "proved",
   "theorems": [
    "C80_pictures"
   ],
   "note": "Same scope as C79."
  },
  {
   "property": "C81",
   "status": "proved",
   "theorems": [
    "C81_entries"
   ],
   "note": "Same scope as C79."
  },
  {
   "property": "C82",
   "status": "partial",
   "theorems": [
    "C82_header_vendor_refuted",
    "C82_vendor_ignored"
   ],
   "note": "Refuted: the style sheet does not depend on the vendor (C82_vendor_ignored)."
  },
  {
   "property": "C83",
   "status": "partial",
   "theorems": [
    "C83_percent_refuted"
   ],
   "note": "Refuted; holds for texts without special characters (C81)."
  },
  {
   "property": "C84",
   "status": "partial",
   "theorems": [
    "C84_cover_page_refuted"
   ],
   "note": "Refuted."
  },
  {
   "property": "C85",
   "status": "partial",
   "theorems": [
    "C85_absent_refuted"
   ],
   "note": "Refuted; entries that are None or np.nan show a dash (C81)."
  },
  {
   "property": "C86",
   "status": "proved",
   "theorems": [
    "C86_reference",
    "C86_doubles",
    "C86_fraction",
    "C86_increases",
    "C86_exposure",
    "C86_environment",
    "C86_no_interval"
   ],
   "note": "Real arithmetic."
  },
  {
   "property": "C87",
   "status": "partial",
   "theorems": [
    "C87_documented_refuted"
   ],
   "note": "Refuted: temperature_doubling is an interval."
  },
  {
   "property": "C88",
   "status": "partial",
   "theorems": [
    "C88_factor",
    "C88_units_refuted"
   ],
   "note": "Refuted: wrong unit of area and an extra wavelength; the exact factor is proved."
  },
  {
   "property": "C89",
   "status": "proved",
   "theorems": [
    "C89_electrons",
    "C89_linear",
    "C89_exposure"
   ],
   "note": "Real arithmetic."
  },
  {
   "property": "C90",
   "status": "proved",
   "theorems": [
    "C90_recovered",
    "C90_dark_recovered"
   ],
   "note": "Exact arithmetic; square roots in the reals."
  },
  {
   "property": "C91",
   "status": "proved",
   "theorems": [
    "C91_temporal"
   ],
   "note": "Laws with finitely many outcomes; exact arithmetic."
  },
  {
   "property": "C92",
   "status": "partial",
   "theorems": [
    "C92_unbiased",
    "C92_bright",
    "C92_dark",
    "C92_drift_refuted"
   ],
   "note": "Proved without drift of the light; refuted with drift, where the exact bias is proved. Laws with finitely many outcomes; exact arithmetic."
  },
  {
   "property": "C93",
   "status": "partial",
   "theorems": [
    "C93_mean",
    "C93_variance",
    "C93_average",
    "C93_same",
    "C93_twelfth_refuted"
   ],
   "note": "The mean is exact (C93_mean); the variance 1/12 is refuted, the true variance is proved. Real arithmetic; C93_same links it to the binary64 model."
  },
  {
   "property": "C94",
   "status": "proved",
   "theorems": [
    "C94_mean",
    "C94_variance",
    "C94_variance_exists",
    "C94_transfer",
    "C94_response"
   ],
   "note": "Real arithmetic; the random draws enter by mean, variance and being uncorrelated."
  },
  {
   "property": "C95",
   "status": "proved",
   "theorems": [
    "C95_figures",
    "C95_whole"
   ],
   "note": "Binary64 arithmetic by Flocq's rounding; any order and grouping of the additions; int64 sums are exact (C10)."
  },
  {
   "property": "C96",
   "status": "partial",
   "theorems": [
    "C96_uniform_refuted"
   ],
   "note": "Refuted in binary64 (holds in exact arithmetic, C21; the error is bounded by C95)."
  },
  {
   "property": "C97",
   "status": "proved",
   "theorems": [
    "C97_temporal",
    "C97_spatial"
   ],
   "note": "Any probability space; exact arithmetic (rounding: C77, C95)."
  },
  {
   "property": "C98",
   "status": "proved",
   "theorems": [
    "C98_temporal",
    "C98_transfer",
    "C98_spatial"
   ],
   "note": "Real and exact arithmetic (rounding: C77, C95); the random draws enter by mean, variance and being uncorrelated; no clipping."
  },
  {
   "property": "C99",
   "status": "proved",
   "theorems": [
    "C99_report",
    "C99_nothing",
    "C99_keywords"
   ],
   "note": "Directories can be made; file names are strings; texts without LaTeX special characters, as in C79-C81."
  },
  {
   "property": "C100",
   "status": "partial",
   "theorems": [
    "C100_incomplete_refuted",
    "C100_key_needed"
   ],
   "note": "Refuted: a dictionary without 'qe_plot' raises KeyError (C100_key_needed)."
  },
  {
   "property": "C101",
   "status": "proved",
   "theorems": [
    "C101_near",
    "C101_stable"
   ],
   "note": "Exact and real arithmetic (rounding: C77, C95)."
  },
  {
   "property": "C102",
   "status": "proved",
   "theorems": [
    "C102_mean",
    "C102_variance",
    "C102_measured",
    "C102_enough_pixels",
    "C102_simulated"
   ],
   "note": "Any probability space; exact and real arithmetic (rounding: C77, C95). Bounded variance and bounded fourth moment of the difference of two images; squares of the differences uncorrelated between pixels."
  },
  {
   "property": "C103",
   "status": "proved",
   "theorems": [
    "C103_windows",
    "C103_all_plots",
    "C103_failure",
    "C103_after_failure"
   ],
   "note": "What is drawn is a parameter; tick marks, legends and layout are left out. pyplot's figures by number and both behaviours of add_subplot are modelled."
  },
  {
   "property": "C104",
   "status": "partial",
   "theorems": [
    "C104_calls_refuted",
    "C104_overlaid"
   ],
   "note": "Refuted when figures are still open (backends without windows, where show() returns at once); C104_overlaid says what is shown, C103_windows covers closed figures."
  },
  {
   "property": "C105",
   "status": "partial",
   "theorems": [
    "C105_number_refuted",
    "C105_percent_refuted"
   ],
   "note": "Refuted for both accumulated histograms."
  },
  {
   "property": "C106",
   "status": "partial",
   "theorems": [
    "C106_page",
    "C106_all_or_nothing",
    "C106_distinct_lines_refuted"
   ],
   "note": "Page and failure proved. Refuted: the spatial variances of the bright and the dark image are printed under the same description and symbol."
  },
  {
   "property": "C107",
   "status": "proved",
   "theorems": [
    "C107_file",
    "C107_text"
   ],
   "note": "The tree that is written is modelled, not its characters; arrays without entries excluded (C45_empty_array_refuted)."
  },
  {
   "property": "C108",
   "status": "proved",
   "theorems": [
    "C108_black_level"
   ],
   "note": "From descriptor and pixels to all 48 figures."
  },
  {
   "property": "C109",
   "status": "partial",
   "theorems": [
    "C109_grey_scale",
    "C109_sigma_d",
    "C109_dark_noise_refuted"
   ],
   "note": "Proved for all figures without dark noise, and for those with it (except sigma_d) when the dark variance stays above 0.24; exact drift of sigma_d proved. Refuted for the dark noise in general."
  },
  {
   "property": "C110",
   "status": "proved",
   "theorems": [
    "C110_units"
   ],
   "note": "From descriptor and pixels to all 48 figures."
  },
  {
   "property": "C111",
   "status": "proved",
   "theorems": [
    "C111_rearranged"
   ],
   "note": "From descriptor and pixels to all 48 figures."
  },
  {
   "property": "C112",
   "status": "proved",
   "theorems": [
    "C112_turned"
   ],
   "note": "From descriptor and pixels to all 48 figures."
  },
  {
   "property": "C113",
   "status": "proved",
   "theorems": [
    "C113_measured",
    "C113_enough_pixels",
    "C113_simulated"
   ],
   "note": "From descriptor text and random files to the probability bound."
  },
  {
   "property": "C114",
   "status": "partial",
   "theorems": [
    "C114_same_points",
    "C114_margin",
    "C114_responsivity",
    "C114_at_limit_refuted"
   ],
   "note": "Proved for points further than 2^(b-49) grey values from a limit (and one-sided bounds for all points). Refuted for a point exactly at 70 % of saturation."
  },
  {
   "property": "C115",
   "status": "proved",
   "theorems": [
    "C115_bright",
    "C115_dark",
    "C115_figures",
    "C115_enough_pixels",
    "C115_simulated",
    "C115_electrons"
   ],
   "note": "Spatial variances, means, DSNU and PRNU; number of pixels that suffices; simulated series; with C102 for electrons."
  },
  {
   "property": "C116",
   "status": "proved",
   "theorems": [
    "C116_derived",
    "C116_stable",
    "C116_dark_current",
    "C116_measured",
    "C116_files",
    "C116_files_current"
   ],
   "note": "All temporal figures except the linearity error and the decibel and bit variants of ratios; from errors of the points, from random pairs and from random image files."
  },
  {
   "property": "C117",
   "status": "proved",
   "theorems": [
    "C117_sides",
    "C117_line",
    "C117_stable",
    "C117_measured",
    "C117_files"
   ],
   "note": "The linearity error, left out of C116: for any data near any line, for errors of the means, for random pairs and for random image files."
  },
  {
   "property": "C118",
   "status": "proved",
   "theorems": [
    "C118_figures",
    "C118_dark_current",
    "C118_spatial",
    "C118_per_area",
    "C118_ratio_dB",
    "C118_range_dB",
    "C118_ratio_bit"
   ],
   "note": "All derived figures, the dark current, DSNU and PRNU with their rows, columns and pixels, figures per area, decibels and bits. The rounding inside the straight-line fits is not part of it: their results are inputs, right up to m units."
  },
  {
   "property": "C119",
   "status": "proved",
   "theorems": [
    "C119_near",
    "C119_gain",
    "C119_linearity",
    "C119_figures",
    "C119_current",
    "C119_shown"
   ],
   "note": "Means, variances and spatial averages of the whole chain; gain, responsivity, derived figures, dark current and linearity error of the computed data. The fits and formulas applied to the computed numbers are exact here; C119_shown adds the rounding of the formulas (C118). Pairs with a true variance below the error must be noise-free."
  },
  {
   "property": "C120",
   "status": "proved",
   "theorems": [
    "C120_approximate_light",
    "C120_listed",
    "C120_measured",
    "C120_enough_pixels",
    "C120_simulated"
   ],
   "note": "Gain and responsivity. The law of the deliveries is a hypothesis (means, variances, uncorrelated pixels; C94 derives these from the sampling of the camera), as NumPy's generators are not modelled. Evaluation in exact arithmetic (C119 bounds the effect of double precision)."
  },
  {
   "property": "C121",
   "status": "proved",
   "theorems": [
    "C121_law",
    "C121_figures",
    "C121_current",
    "C121_linearity",
    "C121_float_gain",
    "C121_float_figures"
   ],
   "note": "The double precision part covers the gain and the figures of C119 (not dark current and linearity error). The law of the deliveries is a hypothesis as in C120."
  },
  {
   "property": "C122",
   "status": "proved",
   "theorems": [
    "C122_files",
    "C122_files_electrons",
    "C122_enough_pixels",
    "C122_generated",
    "C122_generated_electrons",
    "C122_simulated"
   ],
   "note": "In exact arithmetic. The law of the images is a hypothesis as in C115 and C120."
  },
  {
   "property": "C123",
   "status": "partial",
   "theorems": [
    "C123_expected",
    "C123_uniform",
    "C123_unbiased_refuted"
   ],
   "note": "Refuted as stated (C123_unbiased_refuted). Proved instead: the exact expected values (C123_expected), and that they are off by at most 2 / min(rows, columns) of all variance (C123_uniform)."
  },
  {
   "property": "C124",
   "status": "partial",
   "theorems": [
    "C124_parts",
    "C124_dsnu",
    "C124_prnu",
    "C124_pixel_refuted"
   ],
   "note": "Refuted (C124_pixel_refuted). Proved instead: the closed form of the three variances for one row, and that the pixel DSNU is NaN for every series that is not constant, the pixel PRNU whenever the bright images vary more than the dark ones."
  },
  {
   "property": "C125",
   "status": "proved",
   "theorems": [
    "C125_files",
    "C125_files_electrons",
    "C125_enough_pixels",
    "C125_generated",
    "C125_generated_electrons",
    "C125_simulated"
   ],
   "note": "The object of computed data (emva_f); the last roundings in DSNU and PRNU themselves are C118_spatial, combined by C119_shown."
  },
  {
   "property": "C126",
   "status": "partial",
   "theorems": [
    "C126_distinct_refuted",
    "C126_shared",
    "C126_others"
   ],
   "note": "Refuted (C126_distinct_refuted). Proved instead: exactly five pairs share a name (C126_shared, C126_others)."
  },
  {
   "property": "C127",
   "status": "proved",
   "theorems": [
    "C127_parts",
    "C127_exact",
    "C127_sum",
    "C127_two_by_two",
    "C127_whole"
   ],
   "note": "C127_parts, C127_exact, C127_sum, C127_two_by_two, C127_whole."
  },
  {
   "property": "C128",
   "status": "proved",
   "theorems": [
    "C128_units",
    "C128_area",
    "C128_shown",
    "C128_no_others"
   ],
   "note": "C128_units, C128_area, C128_shown, C128_no_others. The quantum efficiency is excepted for the photon unit, the dark noise as in C109."
  },
  {
   "property": "C129",
   "status": "partial",
   "theorems": [
    "C129_extremes",
    "C129_reported",
    "C129_one_level",
    "C129_one_point_refuted"
   ],
   "note": "C129_extremes, C129_reported, C129_one_level (exact numbers); refuted in double precision by C129_one_point_refuted."
  },
  {
   "property": "C130",
   "status": "proved",
   "theorems": [
    "C130_accuracy",
    "C130_measurement"
   ],
   "note": "C130_accuracy for any computed signals with a relative error of at most j 2^-53, C130_measurement for image pairs of up to 16 bits. The photon numbers are taken as the binary64 numbers given."
  },
  {
   "property": "C131",
   "status": "proved",
   "theorems": [
    "C131_measured",
    "C131_response"
   ],
   "note": "C131_measured for the DSNU, C131_response for the PRNU. Variances closer to zero than the bounds are left open: there the rounding decides between a number and NaN."
  }
 ]
}