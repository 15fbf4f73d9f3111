{
 "claims": [
  {
   "property": "C01",
   "status": "proved",
   "theorems": [
    "C01_split_tokens",
    "C01_split_single",
    "C01_split_add_tokens",
    "C01_tokens_unique",
    "C01_chop_comment",
    "C01_split_leading_blank_refuted"
   ],
   "note": "A line with no separator after its first token comes back whole, leading blanks included."
  },
  {
   "property": "C02",
   "status": "partial",
   "theorems": [
    "C02_trim_partial",
    "C02_trim_unique",
    "C02_trim_refuted"
   ],
   "note": "The code erases strings with exactly one non-blank character (finding); true for all other strings."
  },
  {
   "property": "C03",
   "status": "proved",
   "theorems": [
    "C03_offset_section",
    "C03_offset_extension_and_section",
    "C03_offset_plain",
    "C03_offset_nonneg_refuted",
    "C03_all_coords_undefined",
    "C03_all_coords_star"
   ],
   "note": "Malformed sections give -1 offsets (finding)."
  },
  {
   "property": "C05",
   "status": "partial",
   "theorems": [
    "C05_vetted_parse_partial",
    "C05_starts_increasing",
    "C05_vet_accepts",
    "C05_trailing_X0_refuted",
    "C05_nameless_function_refuted",
    "C05_early_optional_refuted",
    "C05_comment_misread_refuted",
    "C05_starts_refuted"
   ],
   "note": "Holds for accepted lines that follow the documented layout (Shape); the vetting step itself accepts lines that make the parser read out of range, see the _refuted theorems."
  },
  {
   "property": "C06",
   "status": "proved",
   "theorems": [
    "C06_round_trip",
    "C06_round_trip_labels",
    "C06_label_refuted"
   ],
   "note": "strtod and IsNumeric are arbitrary functions; values are compared as strtod of the written numeral. C06_round_trip_labels covers labels and optional parameters, for both readers. Labels of one character are dropped by the code (refuted)."
  },
  {
   "property": "C07",
   "status": "partial",
   "theorems": [
    "C07_history_partial",
    "C07_limited_version",
    "C07_leak_refuted"
   ],
   "note": "The full version of ReadConfigFile does not clear the optional-parameter vector, so a second reading attaches optional parameters to the wrong function (finding); all other outputs are history-free."
  },
  {
   "property": "C04",
   "status": "proved",
   "theorems": [
    "C04_command_line",
    "C04_missing_value",
    "C04_only_dashes",
    "C04_unknown_rejected",
    "C04_empty_value_refuted",
    "C04_equals_in_value_refuted",
    "C04_unknown_target_undefined"
   ],
   "note": "Well-formed command lines: values attached with = are non-empty and contain no = (see the _refuted witnesses for the others)."
  },
  {
   "property": "C18",
   "status": "partial",
   "theorems": [
    "C18_downsample_partial",
    "C18_nonsquare_tall_refuted",
    "C18_nonsquare_wide_refuted"
   ],
   "note": "Proved for square oversampled images; core/downsample.cpp:79 computes the row count from the column count, so non-square regions are wrong (finding)."
  },
  {
   "property": "C52",
   "status": "proved",
   "theorems": [
    "C52_subpixel_coords",
    "C52_region_image",
    "C52_model_image"
   ],
   "note": "C52_model_image: whole pipeline from the set-up calls to the returned image, including clipping, region PSF convolution, point sources, down-sampling and overlapping regions; square oversampled images."
  },
  {
   "property": "C08",
   "status": "proved",
   "theorems": [
    "C08_layout",
    "C08_labels",
    "C08_image_offsets"
   ],
   "note": ""
  },
  {
   "property": "C09",
   "status": "proved",
   "theorems": [
    "C09_assembly",
    "C09_assembly_function",
    "C09_bad_scale_refuted"
   ],
   "note": "Exact arithmetic for the placement; C09_assembly_function (only centres change) holds in any arithmetic. A non-positive pixel scale silently sends all later centres to (0,0) (finding)."
  },
  {
   "property": "C10",
   "status": "proved",
   "theorems": [
    "C10_similarity",
    "C10_code"
   ],
   "note": ""
  },
  {
   "property": "C35",
   "status": "proved",
   "theorems": [
    "C35_int_range",
    "C35_real_range",
    "C35_reference",
    "C35_reproducible",
    "C35_tempering",
    "C35_seed_array"
   ],
   "note": "All of mersenne_twister.cpp; real draws in binary64; holds for 32- and 64-bit unsigned long."
  },
  {
   "property": "C32",
   "status": "proved",
   "theorems": [
    "C32_formulas",
    "C32_bic_penalty",
    "C32_zero_denominator"
   ],
   "note": ""
  },
  {
   "property": "C33",
   "status": "proved",
   "theorems": [
    "C33_interval"
   ],
   "note": "Binary64, every sample size below 2^31, any library sort meeting the C standard."
  },
  {
   "property": "C34",
   "status": "proved",
   "theorems": [
    "C34_norm",
    "C34_norm_bounds",
    "C34_exact_refuted"
   ],
   "note": "Exact arithmetic. The norm drops components below 3.834e-20 when one of at least 1.304e19/n is present (finding), so the plain equality is refuted; the precise condition and error bound are proved."
  },
  {
   "property": "C56",
   "status": "proved",
   "theorems": [
    "C56_mean_sd",
    "C56_sd_affine",
    "C56_single_sample_refuted"
   ],
   "note": ""
  },
  {
   "property": "C11",
   "status": "partial",
   "theorems": [
    "C11_statistic",
    "C11_statistic_exact",
    "C11_deviates_partial",
    "C11_bootstrap_refuted"
   ],
   "note": "Statistic: every case. Deviates: without bootstrap. With bootstrap and masks the code writes past the end of the deviates vector (finding, refuted)."
  },
  {
   "property": "C26",
   "status": "proved",
   "theorems": [
    "C26_masks",
    "C26_other_types",
    "C26_weights"
   ],
   "note": ""
  },
  {
   "property": "C27",
   "status": "partial",
   "theorems": [
    "C27_masked_pixels_partial",
    "C27_pmlr_nan",
    "C27_pmlr_nan_refuted",
    "C27_overflow_refuted"
   ],
   "note": "Binary64, provided the (zero-weighted) terms of masked pixels are finite; the unrestricted claim is false: see the two refutations (findings)."
  },
  {
   "property": "C28",
   "status": "partial",
   "theorems": [
    "C28_chi_squared",
    "C28_poisson_partial",
    "C28_negative_data_refuted"
   ],
   "note": "Chi-squared: exact or within the bound of C34. Poisson-MLR: positive model counts, non-negative data; otherwise the objectives differ (finding, refuted)."
  },
  {
   "property": "C29",
   "status": "proved",
   "theorems": [
    "C29_error_images"
   ],
   "note": ""
  },
  {
   "property": "C30",
   "status": "proved",
   "theorems": [
    "C30_setup_success",
    "C30_setup_failure",
    "C30_setup_total"
   ],
   "note": "Binary64, all statistics and error models."
  },
  {
   "property": "C31",
   "status": "proved",
   "theorems": [
    "C31_terms",
    "C31_statistic",
    "C31_cash"
   ],
   "note": ""
  },
  {
   "property": "C36",
   "status": "proved",
   "theorems": [
    "C36_resample",
    "C36_after_setup",
    "C36_no_valid_pixel"
   ],
   "note": "Binary64; arbitrary 32-bit generator output; images below 2^31 pixels."
  },
  {
   "property": "C38",
   "status": "partial",
   "theorems": [
    "C38_limits_partial",
    "C38_missing_limits",
    "C38_fixed",
    "C38_no_energy_refuted",
    "C38_rounding_refuted"
   ],
   "note": "Exact arithmetic for the limits; binary64 for fixed parameters. Two findings limit the claim: if the objective is never below 1e20 the returned vector is all zeros (also for fixed parameters), and in binary64 a free parameter can leave its limits by rounding."
  },
  {
   "property": "C39",
   "status": "proved",
   "theorems": [
    "C39_best",
    "C39_best_exact",
    "C39_monotone"
   ],
   "note": "All ten strategies; binary64 with NaN and infinities, and exact arithmetic."
  },
  {
   "property": "C40",
   "status": "partial",
   "theorems": [
    "C40_distinct",
    "C40_memory_safe_partial",
    "C40_index_partial",
    "C40_index_refuted",
    "C40_run_refuted"
   ],
   "note": "Holds while the generator does not return 2^32-1; that word makes genrand_real1() = 1.0 and the index one past the end (finding)."
  },
  {
   "property": "C41",
   "status": "proved",
   "theorems": [
    "C41_limits",
    "C41_rejected",
    "C41_codes"
   ],
   "note": "Binary64 with NaN and infinities; arbitrary deviates, arbitrary number of iterations."
  },
  {
   "property": "C42",
   "status": "partial",
   "theorems": [
    "C42_not_worse",
    "C42_sum_of_squares",
    "C42_reported_partial",
    "C42_bestnorm_refuted"
   ],
   "note": "The result is never worse than the start (binary64, and for the sum of squares in exact arithmetic). The reported best value can be that of a rejected step (finding)."
  },
  {
   "property": "C43",
   "status": "partial",
   "theorems": [
    "C43_derivatives_partial",
    "C43_narrow_refuted",
    "C43_rounding_refuted"
   ],
   "note": "Exact arithmetic, limits at least two steps apart. Outside that the claim is false of the code: two counterexample runs."
  },
  {
   "property": "C44",
   "status": "proved",
   "theorems": [
    "C44_permutation",
    "C44_qr",
    "C44_gradient"
   ],
   "note": "Any arithmetic for memory safety and the permutation; exact arithmetic, with the program's own norm, for R^T R = P^T J^T J P and Q^T f."
  },
  {
   "property": "C15",
   "status": "proved",
   "theorems": [
    "C15_convolution"
   ],
   "note": "Exact arithmetic and exact DFT; the DFT convolution theorem is itself proved from the orthogonality of the roots of unity."
  },
  {
   "property": "C16",
   "status": "proved",
   "theorems": [
    "C16_linear",
    "C16_delta",
    "C16_flux"
   ],
   "note": "Exact arithmetic and exact DFT."
  },
  {
   "property": "C17",
   "status": "proved",
   "theorems": [
    "C17_normalised",
    "C17_add",
    "C17_nonfinite"
   ],
   "note": "Exact arithmetic; the refusal of non-finite pixels for binary64."
  },
  {
   "property": "C12",
   "status": "proved",
   "theorems": [
    "C12_image",
    "C12_no_blur"
   ],
   "note": "Exact arithmetic; with and without PSF."
  },
  {
   "property": "C13",
   "status": "proved",
   "theorems": [
    "C13_sum"
   ],
   "note": "Exact arithmetic; with and without PSF, no oversampled regions."
  },
  {
   "property": "C14",
   "status": "partial",
   "theorems": [
    "C14_history_partial",
    "C14_later_evaluations",
    "C14_point_source_refuted"
   ],
   "note": "Proved in any arithmetic without regions or without point sources. With both, later evaluations keep the oversampling scale of the last region and the image changes (finding, refuted with a witness; C14_later_evaluations says exactly what is computed)."
  },
  {
   "property": "C19",
   "status": "proved",
   "theorems": [
    "C19_mean",
    "C19_sub_pixels"
   ],
   "note": "24 image-function classes, exact arithmetic."
  },
  {
   "property": "C20",
   "status": "proved",
   "theorems": [
    "C20_defined",
    "C20_far",
    "C20_tiny_refuted"
   ],
   "note": "24 classes, exact arithmetic; for scale lengths below about 1e-8 pixels the conversion to int is undefined, as the statement says."
  },
  {
   "property": "C21",
   "status": "proved",
   "theorems": [
    "C21_isophotes",
    "C21_ellipses_cover",
    "C21_half_turn",
    "C21_position_angle",
    "C21_degree"
   ],
   "note": "Exact arithmetic; half a turn in the program's rounded degree."
  },
  {
   "property": "C22",
   "status": "proved",
   "theorems": [
    "C22_monotone",
    "C22_brightest",
    "C22_advertised",
    "C22_e_folding",
    "C22_king_edge",
    "C22_small_index_refuted"
   ],
   "note": "Eight profile classes, exact arithmetic; Sersic index at least 0.06 (below about 0.0508 the claim is false: refuted with a witness)."
  },
  {
   "property": "C23",
   "status": "proved",
   "theorems": [
    "C23_exponential",
    "C23_gaussian"
   ],
   "note": "Improper integrals in polar coordinates, exact arithmetic; to the accuracy of the program's pi."
  },
  {
   "property": "C24",
   "status": "proved",
   "theorems": [
    "C24_broken_exponential",
    "C24_outer_slope",
    "C24_double_broken",
    "C24_edge_on_disk",
    "C24_flat_exponential",
    "C24_flat_refuted"
   ],
   "note": "Exact arithmetic. Holds for BrokenExponential, DoubleBrokenExponential, EdgeOnDisk; FlatExponential violates it (finding)."
  },
  {
   "property": "C53",
   "status": "proved",
   "theorems": [
    "C53_value",
    "C53_exponential",
    "C53_radius",
    "C53_level"
   ],
   "note": "Exact arithmetic."
  },
  {
   "property": "C57",
   "status": "proved",
   "theorems": [
    "C57_description",
    "C57_adjusted_parameters",
    "C57_ignored_refuted",
    "C57_edge_on_disk_refuted"
   ],
   "note": "17 classes follow the description, in exact arithmetic; EdgeOnDisk also scales in brightness and three classes ignore the description (findings)."
  },
  {
   "property": "C25",
   "status": "partial",
   "theorems": [
    "C25_outside",
    "C25_bicubic",
    "C25_point_source",
    "C25_lanczos_formula",
    "C25_lanczos_partial",
    "C25_lanczos_square",
    "C25_lanczos_tall",
    "C25_transposed_refuted",
    "C25_wide_refuted",
    "C25_shared_method",
    "C25_no_psf",
    "C25_region_pixels",
    "C25_method_names"
   ],
   "note": "Holds for bicubic (given that GSL's spline passes through its data) and, up to the decimal pi, for Lanczos on diagonally symmetric square PSFs; refuted for other PSFs with Lanczos: transposed index, out-of-bounds reads when wider than tall. Exact arithmetic."
  },
  {
   "property": "C45",
   "status": "proved",
   "theorems": [
    "C45_bounds",
    "C45_within",
    "C45_one_sided_refuted",
    "C45_defined",
    "C45_stop",
    "C45_report",
    "C45_counts_refuted",
    "C45_names",
    "C45_distinct",
    "C45_unknown",
    "C45_selected",
    "C45_dispatch"
   ],
   "note": "For any arithmetic and any NLopt that meets the stated contracts (NLopt is not modelled). One-sided limits are dropped and evaluation counts accumulate over fits (findings)."
  },
  {
   "property": "C55",
   "status": "proved",
   "theorems": [
    "C55_convolver",
    "C55_fit",
    "C55_defined",
    "C55_regions",
    "C55_region_refuted"
   ],
   "note": "Exact, including int and long overflow. The PSF image of an oversampled region is counted as one byte per pixel (finding)."
  },
  {
   "property": "C37",
   "status": "partial",
   "theorems": [
    "C37_matrix",
    "C37_array",
    "C37_setup_failure",
    "C37_offset_once",
    "C37_summary",
    "C37_all_succeeded_partial",
    "C37_failures_refuted",
    "C37_best_fit_refuted",
    "C37_failed_run_refuted",
    "C37_multi_refuted"
   ],
   "note": "Matrix, file, returned count and starting points: proved for every sequence of outcomes, any arithmetic and any minimiser. The clause about the statistics holds only when every round succeeds; it is refuted otherwise (failed rounds count as zeros; the best fit is not offset-corrected; the summary for several images is undefined unless there are two)."
  },
  {
   "property": "C54",
   "status": "partial",
   "theorems": [
    "C54_round_trip_partial",
    "C54_description_vector",
    "C54_vetting",
    "C54_line_number_refuted",
    "C54_flag_refuted",
    "C54_bad_limits_refuted",
    "C54_comment_refuted",
    "C54_short_pair_refuted",
    "C54_function_limits_refuted"
   ],
   "note": "Values, limits, sizes, file names, oversampling lists and per-image functions of well-formed files are read back exactly. As stated the property is false: rejected lines are reported with an uninitialised number, one-word flags are rejected, bad limits are kept or replaced, a glued comment is read as limits, and some accepted lines read outside a vector."
  },
  {
   "property": "C46",
   "status": "partial",
   "theorems": [
    "C46_limits_partial",
    "C46_limits_resumed",
    "C46_exact",
    "C46_binary64",
    "C46_setup",
    "C46_nan_refuted"
   ],
   "note": "Every state and every line written, new and resumed runs, any generator and likelihood. In binary64 a NaN state passes the program's test (witness: limits whose difference overflows), so the claim is for states that are not NaN."
  },
  {
   "property": "C47",
   "status": "proved",
   "theorems": [
    "C47_metropolis"
   ],
   "note": "Any arithmetic, generator, likelihood and GSL; the only other change of a state is the move of outliers (C51)."
  },
  {
   "property": "C48",
   "status": "proved",
   "theorems": [
    "C48_pair",
    "C48_proposals",
    "C48_crossover",
    "C48_two_chains_refuted",
    "C48_one_chain_refuted"
   ],
   "note": "Every recorded proposal of a run with three or more chains; below three chains the claim is false."
  },
  {
   "property": "C49",
   "status": "partial",
   "theorems": [
    "C49_diagnostic_partial",
    "C49_converged",
    "C49_test",
    "C49_run",
    "C49_last_two_ignored",
    "C49_overflow_refuted",
    "C49_nan_refuted"
   ],
   "note": "Value in exact arithmetic with exact GSL statistics; the decision for any arithmetic. The last two generations are left out; with 5 chains the computation overflows an int from generation 41452 on; NaN variances count as converged (findings)."
  },
  {
   "property": "C50",
   "status": "partial",
   "theorems": [
    "C50_files",
    "C50_run_partial",
    "C50_offset_refuted",
    "C50_crash_refuted"
   ],
   "note": "What is restored is proved for all files a run writes: the printed values, X0/Y0 with the image offset added. It equals the last generation when the offset is 0 and the numbers survive printing; otherwise refuted. Uneven files (a crash between two of them) make the resumed run read unwritten memory."
  },
  {
   "property": "C51",
   "status": "proved",
   "theorems": [
    "C51_outliers"
   ],
   "note": "Any arithmetic and any GSL."
  },
  {
   "property": "C58",
   "status": "proved",
   "theorems": [
    "C58_new",
    "C58_new_start",
    "C58_resumed",
    "C58_burnin_refuted"
   ],
   "note": "Any arithmetic, any generator and GSL meeting the stated contracts. Resuming with a longer burn-in than the files is refuted."
  },
  {
   "property": "C59",
   "status": "proved",
   "theorems": [
    "C59_step"
   ],
   "note": "Exact arithmetic, for every trial of every run; columns and deviates below the size at which mp_enorm drops components."
  },
  {
   "property": "C60",
   "status": "proved",
   "theorems": [
    "C60_gradient"
   ],
   "note": "Exact arithmetic."
  },
  {
   "property": "C61",
   "status": "proved",
   "theorems": [
    "C61_errors"
   ],
   "note": "Exact arithmetic, rank-deficient Jacobians included."
  },
  {
   "property": "C62",
   "status": "proved",
   "theorems": [
    "C62_safe"
   ],
   "note": "Any arithmetic, hence binary64 with NaN and infinity."
  },
  {
   "property": "C63",
   "status": "partial",
   "theorems": [
    "C63_ends_partial"
   ],
   "note": "Exact arithmetic, when the limits of some free parameter exclude 0. Missing: parameters that may all be 0 (then the test on the relative step size never fires), and binary64."
  },
  {
   "property": "C64",
   "status": "partial",
   "theorems": [
    "C64_pixels_partial",
    "C64_rows",
    "C64_history",
    "C64_line_of_sight_refuted",
    "C64_interpolator_refuted"
   ],
   "note": "Proved, in any arithmetic, for functions whose GetValue only reads members; refuted for the seven functions integrated along the line of sight (GetValue stores the address of a local array in a shared member) and for PointSource with a bicubic interpolator (shared accelerators)."
  },
  {
   "property": "C65",
   "status": "proved",
   "theorems": [
    "C65_fluxes",
    "C65_sum_of_shares",
    "C65_no_race",
    "C65_binary64_order_refuted"
   ],
   "note": "Exact arithmetic for the values; in any arithmetic the result is the sum of the threads' sums in some order; in binary64 the order changes the result. Entries of backgrounds in the array are left unset."
  },
  {
   "property": "C66",
   "status": "proved",
   "theorems": [
    "C66_build",
    "C66_known",
    "C66_documented",
    "C66_interpolator",
    "C66_own_method_refuted",
    "C66_null_interpolator_refuted"
   ],
   "note": "Classes of the default build (no USE_EXTRA_FUNCS, USE_TEST_FUNCS). Refuted: that each point source uses the method it asks for (all share the first one's interpolator), and that every accepted point source has an interpolator (PointSourceRot with the spelling Bicubic or Lanczos2 has none)."
  },
  {
   "property": "C67",
   "status": "proved",
   "theorems": [
    "C67_save",
    "C67_rebuild",
    "C67_commented",
    "C67_limits",
    "C67_method_lost_refuted",
    "C67_label_refuted"
   ],
   "note": "C67_limits gives the exact lines of the model description with limits (head of a Markov-chain file). printf and strtod enter through a contract (%.4f and %g correct to half a unit, decimal numerals numeric), shown to be satisfiable by an instance over the reals. Labels must not contain the text X0 (C67_label_refuted) and PointSourceRot loses its interpolation method (C67_method_lost_refuted). The report lines (statistics) are arbitrary one-line texts; the file is assumed to open."
  },
  {
   "property": "C68",
   "status": "proved",
   "theorems": [
    "C68_table",
    "C68_chain_header",
    "C68_chain_line"
   ],
   "note": "header and value lines of bootstrap and Markov-chain files have the same columns, in parameter order, with distinct names"
  },
  {
   "property": "C69",
   "status": "proved",
   "theorems": [
    "C69_options",
    "C69_mistakes",
    "C69_trailing_refuted",
    "C69_wraps_refuted",
    "C69_first_value_wins",
    "C69_zero_gain_refuted",
    "C69_high_byte_refuted",
    "C69_multimfit_statistic_refuted"
   ],
   "note": "Any reading of decimal numbers (strtod, atof) and any number of cores. Values that are neither well formed nor plainly foreign (5x, 0, --5, numbers that do not fit, bytes above 127) are outside the theorem; the _refuted theorems say what happens to them. In multimfit the three statistic switches have no default and stay uninitialised (C69_multimfit_statistic_refuted); the specification says so."
  },
  {
   "property": "C70",
   "status": "proved",
   "theorems": [
    "C70_fit_options",
    "C70_makeimage_options",
    "C70_makeimage_size",
    "C70_ncombined_refuted",
    "C70_flux_size_refuted"
   ],
   "note": "NCOMBINED lines of the file must be positive integers (they are not checked: C70_ncombined_refuted). With --print-fluxes, a reference image and no size the image is 0x0 (C70_flux_size_refuted)."
  },
  {
   "property": "C71",
   "status": "partial",
   "theorems": [
    "C71_start",
    "C71_announcement_partial",
    "C71_announcement_refuted",
    "C71_mcmc_cash_refuted"
   ],
   "note": "Files, images and configuration lines enter as arbitrary functions; decimal numbers through an arbitrary strtod. Numbers must be legal for the model object (positive gain and exposure time, non-negative read noise and sky: otherwise its asserts fail) and the name of the data image must have one of four shapes (name, name[ext], name[section], name[ext][section]). Missing because false: imfit-mcmc refuses --cashstat always (C71_mcmc_cash_refuted), and with --noise and --model-errors imfit announces model errors while it uses the error image (C71_announcement_refuted)."
  },
  {
   "property": "C72",
   "status": "partial",
   "theorems": [
    "C72_regions_partial",
    "C72_shared_psf_refuted",
    "C72_multimfit_refuted"
   ],
   "note": "Proved for imfit and imfit-mcmc, any number type. Missing because false: regions that share a PSF image do not get the same pixels (C72_shared_psf_refuted: the first has the raw, the others the normalised image), and multimfit ignores the image section (C72_multimfit_refuted)."
  },
  {
   "property": "C73",
   "status": "proved",
   "theorems": [
    "C73_imfit",
    "C73_mcmc",
    "C73_one_chain_refuted",
    "C73_header_refuted"
   ],
   "note": "Any arithmetic. Findings: one free parameter gives one chain, with which the sampler aborts (C73_one_chain_refuted); the header of the chain files shows section-relative limits beside whole-image centres (C73_header_refuted)."
  },
  {
   "property": "C74",
   "status": "partial",
   "theorems": [
    "C74_exit",
    "C74_numbers_partial",
    "C74_stat_only",
    "C74_file",
    "C74_bootstrap_refuted"
   ],
   "note": "Solvers enter as arbitrary finite dialogues with the model object, model images through any function giving images of the right size, printf through the contract of C67. Proved without --bootstrap; with it false: the statistic, reduced value, AIC and BIC in the file are those of the last resample (C74_bootstrap_refuted). Opening and writing files always succeeds; saving the parameter file cannot be switched off in imfit."
  },
  {
   "property": "C75",
   "status": "proved",
   "theorems": [
    "C75_images",
    "C75_stat_only_refuted"
   ],
   "note": "For fits, bootstrap included. With --fitstat-only and --bootstrap together (no fit) the saved images are those of the last trial of the last refit (C75_stat_only_refuted)."
  },
  {
   "property": "C76",
   "status": "partial",
   "theorems": [
    "C76_run_partial",
    "C76_expanded_refuted"
   ],
   "note": "Exact arithmetic; regions with oversampled PSFs and PointSourceRot are not covered; FITS writing succeeds. Function values are an argument; reading the configuration file is an argument whose result describes the model (C05, C06 and C67 are about reading). Images are computed by one thread (C64). False for --save-expanded without a PSF: sizes are read from variables that nothing has set (C76_expanded_refuted)."
  },
  {
   "property": "C77",
   "status": "proved",
   "theorems": [
    "C76_run_partial",
    "C77_fractions",
    "C77_background_refuted"
   ],
   "note": "The table itself is part of C76_run_partial. False where the total is 0: the fraction printed for a model of backgrounds is not a number (C77_background_refuted, binary64)."
  },
  {
   "property": "C78",
   "status": "proved",
   "theorems": [
    "C78_nothing",
    "C78_status",
    "C78_counts_refuted",
    "C78_refimage_refuted"
   ],
   "note": "C78_nothing for any arithmetic, C78_status exact. Findings: only the total number of parameters is checked, so that one too few for a function and one too many for another are accepted (C78_counts_refuted, from the text of the file); --print-fluxes with --refimage as the only size ends in a failed assertion (C78_refimage_refuted)."
  },
  {
   "property": "C79",
   "status": "partial",
   "theorems": [
    "C79_saved_partial",
    "C79_fit_partial"
   ],
   "note": "Composition of C67, C74 and C76 with their limits: no --bootstrap, no regions with oversampled PSFs, no PointSourceRot. imfit runs in binary64; makeimage draws in exact arithmetic and reads numerals exactly (such a reader is given). File names are looked up by the reader, not in a modelled file system."
  },
  {
   "property": "C80",
   "status": "partial",
   "theorems": [
    "C80_projection",
    "C80_bar_partial",
    "C80_frame",
    "C80_bar_axis_refuted"
   ],
   "note": "Exact arithmetic; GSL's integrator is an argument of which only its relative accuracy is assumed. Proved as stated for the two discs and the ring (C80_projection). False for FerrersBar3D and DattathriPeanut3D: their major axes are at barPA, as the header file and the unit test of FerrersBar3D have it, not at 90 + barPA from the line of nodes as the manual says (C80_bar_axis_refuted); with that angle the statement holds (C80_bar_partial). TriaxBar3D and BPBar3D, which the programs do not offer by default, are not modelled. One thread (C64)."
  },
  {
   "property": "C81",
   "status": "proved",
   "theorems": [
    "C81_half_turn",
    "C81_mirror",
    "C81_round",
    "C81_face_on"
   ],
   "note": "Exact arithmetic, same argument for the integrator as in C80."
  },
  {
   "property": "C82",
   "status": "partial",
   "theorems": [
    "C82_ferrers",
    "C82_ferrers_outside",
    "C82_disc",
    "C82_ring_refuted"
   ],
   "note": "C82_ferrers and C82_disc are about the integral that C80 relates to the pixels. The claim about rings is false: the interval is twice the ring's radius, so a ring of radius 0 is dark everywhere although its density is positive (C82_ring_refuted). For the broken disc and the peanut bar no bound is proved."
  },
  {
   "property": "C83",
   "status": "partial",
   "theorems": [
    "C83_description_partial",
    "C83_scale_refuted",
    "C83_adjusted"
   ],
   "note": "The brightness is multiplied by pixelScaling as well as by intensityScale (C83_description_partial, C83_scale_refuted), because the depth is measured in pixels; two-dimensional functions are multiplied by intensityScale only (C57)."
  },
  {
   "property": "C84",
   "status": "partial",
   "theorems": [
    "C84_profile_partial",
    "C84_subsampling",
    "C84_half_turn",
    "C84_mirror",
    "C84_intensity_refuted",
    "C84_adjusted_refuted"
   ],
   "note": "Exact arithmetic. The central brightness is multiplied by pixelScaling and not by intensityScale (func_flatbar.cpp:117), so the profile is proved with that factor (C84_profile_partial), the intensity scale has no effect (C84_intensity_refuted) and the reported parameters give another picture (C84_adjusted_refuted)."
  },
  {
   "property": "C85",
   "status": "partial",
   "theorems": [
    "C85_start_partial",
    "C85_undrawable",
    "C85_local_functions_refuted"
   ],
   "note": "For every arithmetic. Functions have no optional parameters, because neither program passes them on. As soon as an image has functions of its own multimfit reads parameterList past its end (multimfit_main.cpp:659), proved for every such input (C85_local_functions_refuted), so the start values are proved without them."
  },
  {
   "property": "C86",
   "status": "proved",
   "theorems": [
    "C86_sections"
   ],
   "note": "Exact arithmetic, no functions of single images (see C85), positive pixel scales."
  },
  {
   "property": "C87",
   "status": "proved",
   "theorems": [
    "C87_statistic",
    "C87_deviates"
   ],
   "note": "Exact arithmetic, positive pixel scales; drawing a model image is an argument; deviates without bootstrap (see C11). The functions of a single image are one per block (see C88)."
  },
  {
   "property": "C88",
   "status": "partial",
   "theorems": [
    "C88_images_partial",
    "C88_two_local_refuted"
   ],
   "note": "Exact arithmetic, positive pixel scales, file names shorter than 1024 characters. With two functions in one block of an image both programs read the block starts past their end (C88_two_local_refuted), so blocks of single images have one function."
  },
  {
   "property": "C89",
   "status": "partial",
   "theorems": [
    "C89_image_info_partial",
    "C89_combined_refuted",
    "C89_lost_refuted",
    "C89_sections_refuted"
   ],
   "note": "For every arithmetic; printf and strtod are arguments with the contracts PrintfOK and IntsOK, which are shown to be satisfiable. Names have no blanks, '#' or section keywords and at most 900 characters. NCOMBINED other than 1 is an int printed with %g, undefined for every such input (C89_combined_refuted); weight, exposure time, mask format, kind of errors, limits and functions of single images are not written (C89_lost_refuted); centres of further images are written in the coordinates of the image section (C89_sections_refuted)."
  },
  {
   "property": "C90",
   "status": "partial",
   "theorems": [
    "C90_files_partial",
    "C90_scale_refuted"
   ],
   "note": "Exact arithmetic, positive pixel scales, models every image can draw (see C88); printf is an argument with the contract PrintfOK, shown to be satisfiable. The last sentence holds only for images with the pixel scale, rotation and flux scale of the reference: sizes, angles and intensities are written as they are in the reference image (C90_scale_refuted)."
  },
  {
   "property": "C91",
   "status": "partial",
   "theorems": [
    "C91_table_partial",
    "C91_single_refuted",
    "C91_own_refuted",
    "C91_sections_refuted"
   ],
   "note": "For every arithmetic; printf is an argument (DecOK, ShowOK as in C68). Holds with two images or more and no functions of single images, except that centres of further images are in coordinates of the fitted sections (C91_sections_refuted). With one image rows have a value too many (C91_single_refuted); parameters of single images are missing in rows, and those of the first image are named nevertheless (C91_own_refuted)."
  },
  {
   "property": "C92",
   "status": "partial",
   "theorems": [
    "C92_everywhere",
    "C92_brightness",
    "C92_far",
    "C92_arms",
    "C92_turn",
    "C92_centre",
    "C92_peak",
    "C92_edge_refuted",
    "C92_seam_refuted"
   ],
   "note": "Exact arithmetic. Holds when the number of arms is a positive whole number; for other values of that parameter the picture is torn along the line of nodes (C92_seam_refuted). The radial profile of LogSpiral3 jumps at its inner truncation radius for every choice of scale lengths with h1 < h2 (C92_edge_refuted). A pitch angle of 0 divides by 0 and is excluded. The source of LogSpiralBrokenExp is not in the repository."
  },
  {
   "property": "C93",
   "status": "partial",
   "theorems": [
    "C93_arc_partial",
    "C93_peak_partial",
    "C93_PA_refuted",
    "C93_negative_refuted"
   ],
   "note": "Exact arithmetic, discs seen face-on, theta_max from 0 to 360 degrees; the ray opposite to theta_max, where the arc is cut, is left out. The angle is measured on the image, not in the disc, so the position angle has no effect on a face-on disc, for all inputs (C93_PA_refuted), and inclined discs are not covered. For every theta_max below 0 (down to -360) the arc is at another radius than r_scale (C93_negative_refuted)."
  },
  {
   "property": "C94",
   "status": "partial",
   "theorems": [
    "C94_board_partial",
    "C94_left_refuted",
    "C94_dark_refuted"
   ],
   "note": "Exact arithmetic, unbounded int. Holds right of and above the centre. / and % of C round towards 0, so left of the centre the first squares are missing (C94_left_refuted) and every second row of squares is dark up to the edge (C94_dark_refuted), both for all inputs."
  },
  {
   "property": "C95",
   "status": "partial",
   "theorems": [
    "C95_major_partial",
    "C95_minor_refuted"
   ],
   "note": "Exact arithmetic. Holds on the major axis. On the minor axis Setup multiplies A_min by I_0 although GaussianRingAz multiplies it by the major-axis amplitude itself, so the ring adds A_min A_maj I_0^2, for all inputs (C95_minor_refuted)."
  },
  {
   "property": "C96",
   "status": "proved",
   "theorems": [
    "C96_bar",
    "C96_floor",
    "C96_subsampling"
   ],
   "note": "Exact arithmetic. Up to a relative error of exp(-100) times the exponent, where the code uses the outer approximation. That SetExtraParams stores the floor is not modelled."
  },
  {
   "property": "C97",
   "status": "partial",
   "theorems": [
    "C97_disc",
    "C97_subsampling",
    "C97_first_refuted",
    "C97_history_refuted"
   ],
   "note": "Exact arithmetic. Holds for EdgeOnDisk_n4762. Refuted for EdgeOnDisk_n4762v2: Setup of a new object reads a member never written (C97_first_refuted), and afterwards the values depend on the height of the last point drawn, for all parameters with b_rb, I_0, h2 and alpha not 0 (C97_history_refuted). Both are commented out of the list of functions compiled in."
  },
  {
   "property": "C98",
   "status": "partial",
   "theorems": [
    "C98_column_partial",
    "C98_reach_refuted"
   ],
   "note": "Exact arithmetic, the integrator an argument. The integrand and the orientation are right at every point; the range of integration is 4 sigma^2 on both sides, so for bars seen face-on with 8 sigma (1+tol) < q_z exp(-1/2) the value at the centre is less than half of the light within one scale height (C98_reach_refuted)."
  },
  {
   "property": "C99",
   "status": "partial",
   "theorems": [
    "C99_density_partial",
    "C99_meant",
    "C99_names_refuted"
   ],
   "note": "Exact arithmetic, the integrator an argument, default description of the image; up to a relative error of exp(-100) times the exponent for the outer part. The three parameters named h_bp, r_bp_max, z_bp_max are used as r_bp_max, z_bp_max, h_bp (C99_density_partial); changing h_bp changes the density at the centre, which must not depend on it (C99_meant, C99_names_refuted), for all inputs."
  },
  {
   "property": "C100",
   "status": "partial",
   "theorems": [
    "C100_rows",
    "C100_words",
    "C100_safe",
    "C100_long_refuted",
    "C100_single_refuted",
    "C100_numbering_refuted"
   ],
   "note": "The conversion of words is an argument. Rows and columns hold for lines of at most 1021 characters and ranges of two rows or more, files without null characters; that nothing is written outside the arrays holds for every file. The rest of a comment longer than the buffer of fgets is stored as a row of data (C100_long_refuted), and a range of one row is refused although the message allows it, for every file (C100_single_refuted). The options count rows from 0 although the help says 1 = first: --x1 1 leaves out the first row, for every file of three rows or more (C100_numbering_refuted)."
  },
  {
   "property": "C101",
   "status": "partial",
   "theorems": [
    "C101_read_partial",
    "C101_longer_refuted",
    "C101_grid"
   ],
   "note": "Lines of at most 1021 characters; grid in exact arithmetic. The number of PSF rows is compared with the number of data rows instead of the size of the PSF arrays, so every PSF file with more rows than the data is refused (C101_longer_refuted)."
  },
  {
   "property": "C102",
   "status": "proved",
   "theorems": [
    "C102_convolution",
    "C102_no_edges"
   ],
   "note": "Exact arithmetic, FFTW an argument taken to be the exact discrete Fourier transform (dft_1d)."
  },
  {
   "property": "C103",
   "status": "partial",
   "theorems": [
    "C103_deviates",
    "C103_bootstrap_partial",
    "C103_masked_refuted"
   ],
   "note": "Deviates in exact arithmetic. Bootstrap rounds are right without a mask only: with a mask in the standard format that masks a point, every round reads behind the array of drawn indices, in every arithmetic (C103_masked_refuted)."
  }
 ]
}