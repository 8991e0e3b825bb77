{
 "claims": [
  {
   "property": "C01",
   "status": "proved",
   "theorems": [
    "C01_lag_axis",
    "C01_odd_rejected",
    "C01_positions"
   ],
   "note": ""
  },
  {
   "property": "C02",
   "status": "proved",
   "theorems": [
    "C02_rings"
   ],
   "note": "exact arithmetic; NaN is None"
  },
  {
   "property": "C03",
   "status": "proved",
   "theorems": [
    "C03_accumulators",
    "C03_reported",
    "C03_odd_rejected"
   ],
   "note": "covers frame sequences with and without bad frames; exact rational arithmetic instead of float64"
  },
  {
   "property": "C04",
   "status": "proved",
   "theorems": [
    "C04_resume",
    "C04_resume_values"
   ],
   "note": ""
  },
  {
   "property": "C05",
   "status": "proved",
   "theorems": [
    "C03_accumulators",
    "C03_reported",
    "C05_pairs_are_good",
    "C05_bad_frames_irrelevant"
   ],
   "note": "C03_accumulators is stated over good_pairs; C05_pairs_are_good says what those are"
  },
  {
   "property": "C06",
   "status": "proved",
   "theorems": [
    "C06_constant_image",
    "C06_uniform_roi_is_one",
    "C06_scaling"
   ],
   "note": ""
  },
  {
   "property": "C07",
   "status": "proved",
   "theorems": [
    "C07_compaction",
    "C07_rank_properties",
    "C03_reported"
   ],
   "note": ""
  },
  {
   "property": "C08",
   "status": "proved",
   "theorems": [
    "C08_matrix",
    "C08_near_diagonal",
    "C08_too_many_frames"
   ],
   "note": "exact rational arithmetic; NaN/inf merged into None"
  },
  {
   "property": "C09",
   "status": "proved",
   "theorems": [
    "C09_superdiagonal_means"
   ],
   "note": "calc_errors=True branch (nanstd) not modelled"
  },
  {
   "property": "C10",
   "status": "proved",
   "theorems": [
    "C10_lag_convention",
    "C10_shift_moves_peak_left",
    "C10_masked",
    "C10_autocorrelation_symmetric",
    "C10_bad_shape",
    "C10_lengths"
   ],
   "note": "1-D values and peak position for all signals; masked 2-D values for all four normalisation choices; fftconvolve as exact convolution"
  },
  {
   "property": "C100",
   "status": "proved",
   "theorems": [
    "C100_never_loads_refuted",
    "C100_only_blank_headers",
    "C100_endless_memory_refuted",
    "C100_split",
    "C100_metadata",
    "C100_box_before_size",
    "C100_entries"
   ],
   "note": "Exact rationals; number parsing is an argument. _amira_data_to_numpy is not modelled: it is never reached."
  },
  {
   "property": "C101",
   "status": "proved",
   "theorems": [
    "C101_shared_parameters",
    "C101_compton_user_refuted",
    "C101_compton_parameters",
    "C101_peak",
    "C101_escape",
    "C101_strategy"
   ],
   "note": "lmfit's composition of models and its expr constraints are specified, not modelled."
  },
  {
   "property": "C102",
   "status": "proved",
   "theorems": [
    "C102_moments",
    "C102_many_modes",
    "C102_formulas_refuted"
   ],
   "note": "Over the reals; scipy's gamma functions on integers and its gamma density are written out. Non-integer M is not covered."
  },
  {
   "property": "C103",
   "status": "proved",
   "theorems": [
    "C103_curve",
    "C103_identified",
    "C103_time_refuted"
   ],
   "note": "Over the reals."
  },
  {
   "property": "C104",
   "status": "proved",
   "theorems": [
    "C104_random_phase",
    "C104_start_error",
    "C104_nearest"
   ],
   "note": "real arithmetic, numpy's fftn and ifftn written out as sums; inversion and Parseval proved in Fourier.v"
  },
  {
   "property": "C105",
   "status": "proved",
   "theorems": [
    "C105_rings",
    "C105_succeeds",
    "C105_raises",
    "C105_later_centres_refuted",
    "C105_image_refuted"
   ],
   "note": "canny edges, RANSAC fits and circle_perimeter are parameters (all outcomes)"
  },
  {
   "property": "C106",
   "status": "proved",
   "theorems": [
    "C106_convolution",
    "C106_area",
    "C106_shape",
    "C106_no_width",
    "C106_default"
   ],
   "note": "real arithmetic; the real part of the Faddeeva function (scipy wofz) is given by its integral formula"
  },
  {
   "property": "C107",
   "status": "proved",
   "theorems": [
    "C107_rows_in_order",
    "C107_first_failure",
    "C107_cleanup_refuted",
    "C107_schedule_free",
    "C107_bounded",
    "C107_no_deadlock",
    "C107_default_raises",
    "C107_map"
   ],
   "note": "transition system of caller, task queue and workers; death of a worker process is not modelled"
  },
  {
   "property": "C108",
   "status": "proved",
   "theorems": [
    "C108_lookup",
    "C108_lookup_energy",
    "C108_iteration",
    "C108_membership_refuted",
    "C108_equality",
    "C108_wrong_class",
    "C108_get",
    "C108_quantities"
   ],
   "note": "the functions of xraylib are parameters; line and shell names are transcribed from the module"
  },
  {
   "property": "C109",
   "status": "proved",
   "theorems": [
    "C109_range",
    "C109_constant",
    "C109_error",
    "C109_order_refuted"
   ],
   "note": "Flocq binary64, round to nearest even; the update formula only (the numbers averaged are taken as computed)"
  },
  {
   "property": "C11",
   "status": "proved",
   "theorems": [
    "C11_write_read",
    "C11_write_rejects",
    "C11_read_effects",
    "C11_read_is_pure_refuted",
    "C11_contains_always",
    "C11_iteration",
    "C11_delete"
   ],
   "note": "every dictionary state for reads/writes, every history for iteration and deletion; the impurity of reads is proved both in general and by a concrete refutation"
  },
  {
   "property": "C110",
   "status": "proved",
   "theorems": [
    "C110_types",
    "C110_bins",
    "C110_rings",
    "C110_average_exact",
    "C110_constant_image_refuted",
    "C110_reference",
    "C110_std",
    "C110_std_refuted",
    "C110_xsvs",
    "C110_xsvs_refuted",
    "C110_xsvs_exact"
   ],
   "note": "numpy.histogram with weights is written out (blocks, sorted running sums in 64 bits, counts in the weights' type); quotients are exact"
  },
  {
   "property": "C111",
   "status": "proved",
   "theorems": [
    "C111_edges",
    "C111_exact",
    "C111_from_min",
    "C111_from_max",
    "C111_from_ends",
    "C111_refuses",
    "C111_tenths_refuted",
    "C111_no_bin_refuted",
    "C111_repeats_refuted"
   ],
   "note": "Binary64 arithmetic by Flocq; python float floor division proved equal to the exact floor below 2^50; refutations by computation in the model. numpy.linspace's fallback for a step that underflows to zero is excluded by a hypothesis."
  },
  {
   "property": "C112",
   "status": "proved",
   "theorems": [
    "C112_total",
    "C112_spread",
    "C112_integers",
    "C112_order",
    "C112_equal",
    "C112_equal_refuted",
    "C112_large_refuted",
    "C112_threads_refuted"
   ],
   "note": "Binary64 arithmetic by Flocq; pow(x, 2) and pow(x, 0.5) of the C library are taken as the rounded product and rounded square root. Refutations by computation in the model."
  },
  {
   "property": "C113",
   "status": "proved",
   "theorems": [
    "C113_one_time",
    "C113_resume_refuted",
    "C113_resume_newest",
    "C113_two_time",
    "C113_two_time_kept_refuted",
    "C113_two_time_stale_refuted"
   ],
   "note": "Numbered arrays as memory, results holding references; positive theorems over all programs, refutations by evaluation. The writes of one image happen at once, at its end; a resuming call repeats the parameters of the call that made the state."
  },
  {
   "property": "C114",
   "status": "proved",
   "theorems": [
    "C114_error",
    "C114_empty",
    "C114_positive",
    "C114_integers",
    "C114_nan",
    "C114_averages",
    "C114_outer_lost_refuted",
    "C114_outer_grown_refuted",
    "C114_double_lost_refuted",
    "C114_infinite_refuted"
   ],
   "note": "Flocq binary floats of any precision; numpy.histogram modelled as blockwise sort, cumsum, searchsorted and diff; positions and edges are exact rationals."
  },
  {
   "property": "C115",
   "status": "proved",
   "theorems": [
    "C115_values",
    "C115_infinite_refuted",
    "C115_averages",
    "C115_g2_error",
    "C115_static",
    "C115_uniform",
    "C115_uniform_refuted"
   ],
   "note": "Flocq binary64; images already converted to float64; np.bincount adds weights in raster order."
  },
  {
   "property": "C116",
   "status": "proved",
   "theorems": [
    "C116_shipped",
    "C116_start",
    "C116_isolated",
    "C116_copies_safe",
    "C116_leak_refuted",
    "C116_leak_builtin_refuted",
    "C116_strategy_alias_refuted",
    "C116_set_default",
    "C116_set_default_raises"
   ],
   "note": "programs on shared objects over the functions of C50 and C79; set_default's inspection of the argument list (getargspec, absent from current Python versions) is given as the list of names"
  },
  {
   "property": "C117",
   "status": "proved",
   "theorems": [
    "C117_values",
    "C117_near",
    "C117_diagonal",
    "C117_bad_pixel_refuted",
    "C117_error",
    "C117_dark",
    "C117_static",
    "C117_uniform",
    "C117_uniform_refuted"
   ],
   "note": "Flocq binary64; images already converted to float64; np.bincount adds weights in raster order."
  },
  {
   "property": "C118",
   "status": "proved",
   "theorems": [
    "C118_g2",
    "C118_two_time",
    "C118_xsvs",
    "C118_mean_intensity",
    "C118_normalisation",
    "C118_mean_intensity_refuted",
    "C118_pixel_values",
    "C118_rings",
    "C118_ring_number_refuted"
   ],
   "note": "Exact arithmetic; composes the models of C03, C08, C25, C28, C29 and C43. g2 and two-time values are stated for lags below num_bufs."
  },
  {
   "property": "C119",
   "status": "proved",
   "theorems": [
    "C119_error_bar",
    "C119_zero",
    "C119_bad_frames",
    "C119_standard_error_refuted",
    "C119_scale",
    "C119_unreported",
    "C119_missing_frames"
   ],
   "note": "Real arithmetic; rounding and infinite entries are not modelled."
  },
  {
   "property": "C12",
   "status": "proved",
   "theorems": [
    "C12_set",
    "C12_delete",
    "C12_iteration",
    "C12_contains"
   ],
   "note": "every operation history"
  },
  {
   "property": "C120",
   "status": "proved",
   "theorems": [
    "C120_radius",
    "C120_radius_nearest",
    "C120_check",
    "C120_rings_close",
    "C120_rings_exact",
    "C120_rings_nearest",
    "C120_rings_ordered",
    "C120_rings_refuted",
    "C120_check_special",
    "C120_open_ring"
   ],
   "note": "Binary64 (Flocq); an integer centre gives int64 coordinates, equal to the doubles here in the stated ranges."
  },
  {
   "property": "C121",
   "status": "proved",
   "theorems": [
    "C121_range",
    "C121_mean",
    "C121_deviation",
    "C121_equal",
    "C121_nan_refuted",
    "C121_table_range",
    "C121_table"
   ],
   "note": "Binary64 (Flocq): the entry theorems and, with the loop over images and levels, the whole tables; the buffers hold integers."
  },
  {
   "property": "C122",
   "status": "proved",
   "theorems": [
    "C122_edges",
    "C122_steps",
    "C122_exact",
    "C122_touching",
    "C122_accepted",
    "C122_two_lists",
    "C122_radius_refuted",
    "C122_empty_refuted",
    "C122_drift_refuted"
   ],
   "note": "Binary64 (Flocq); the conversion of the inner radius by np.insert is modelled for radii up to 2^53."
  },
  {
   "property": "C13",
   "status": "proved",
   "theorems": [
    "C13_subtract_reference"
   ],
   "note": "any image type with a subtraction"
  },
  {
   "property": "C14",
   "status": "proved",
   "theorems": [
    "C14_square",
    "C14_nonsquare_refuted",
    "C14_pixel_sizes"
   ],
   "note": "square images right, every non-square non-empty image wrong"
  },
  {
   "property": "C15",
   "status": "proved",
   "theorems": [
    "C15_bin_1D",
    "C15_defaults",
    "C15_inverted",
    "C15_default_bins_refuted"
   ],
   "note": "exact arithmetic for linspace and histogram"
  },
  {
   "property": "C16",
   "status": "proved",
   "theorems": [
    "C16_rejects",
    "C16_min_max_nbins",
    "C16_min_max_step",
    "C16_min_nbins_step",
    "C16_max_nbins_step",
    "C16_bad_step",
    "C16_negative_step_refuted"
   ],
   "note": "exact arithmetic; nbins/step branches with non-positive step refuted"
  },
  {
   "property": "C17",
   "status": "proved",
   "theorems": [
    "C17_q_d_inverse",
    "C17_twotheta_roundtrip",
    "C17_q_roundtrip",
    "C17_q_too_large",
    "C17_monotone",
    "C17_bragg"
   ],
   "note": "real arithmetic"
  },
  {
   "property": "C18",
   "status": "proved",
   "theorems": [
    "C18_terminates",
    "C18_terms",
    "C18_equal_term_refuted",
    "C18_diverges"
   ],
   "note": "rational ratio and first term"
  },
  {
   "property": "C19",
   "status": "proved",
   "theorems": [
    "C19_cells",
    "C19_spec_functional",
    "C19_thread_independent",
    "C19_mask_stack",
    "C19_mask_image",
    "C19_mask_bad"
   ],
   "note": "standard error is stated squared (no square root in Qc)"
  },
  {
   "property": "C20",
   "status": "proved",
   "theorems": [
    "C20_no_out_of_bounds",
    "C20_cells_distinct"
   ],
   "note": "Flocq binary64"
  },
  {
   "property": "C21",
   "status": "proved",
   "theorems": [
    "C21_negative_max_dropped",
    "C21_small_max_dropped",
    "C21_kept_refuted",
    "C21_exact_range_kept"
   ],
   "note": "Flocq binary64"
  },
  {
   "property": "C22",
   "status": "proved",
   "theorems": [
    "C22_bins_partition",
    "C22_session",
    "C22_order_independent",
    "C22_rejects",
    "C22_rejects_types"
   ],
   "note": ""
  },
  {
   "property": "C23",
   "status": "proved",
   "theorems": [
    "C23_index_below_nbins_refuted",
    "C23_index_at_most_nbins",
    "C23_subnormal_refuted",
    "C23_exact_in_range",
    "C23_outside"
   ],
   "note": "Flocq binary64"
  },
  {
   "property": "C24",
   "status": "proved",
   "theorems": [
    "C24_rectangles",
    "C24_wraps"
   ],
   "note": "integer coordinates; x addresses axis 0 as in the code"
  },
  {
   "property": "C25",
   "status": "proved",
   "theorems": [
    "C25_rings"
   ],
   "note": "real arithmetic; rounding of the radius not modelled"
  },
  {
   "property": "C26",
   "status": "proved",
   "theorems": [
    "C26_ring_edges",
    "C26_two_lists_rejected"
   ],
   "note": "exact arithmetic"
  },
  {
   "property": "C27",
   "status": "proved",
   "theorems": [
    "C27_cells",
    "C27_any_segments",
    "C27_offset_collision",
    "C27_offset_background",
    "C27_offset_collision_neg",
    "C27_distinct_labels_refuted",
    "C27_falling_segments",
    "C27_raises"
   ],
   "note": "real arithmetic; rounding not modelled; angles by their defining equations"
  },
  {
   "property": "C28",
   "status": "proved",
   "theorems": [
    "C28_extract",
    "C28_groups",
    "C28_pixel_values"
   ],
   "note": ""
  },
  {
   "property": "C29",
   "status": "proved",
   "theorems": [
    "C29_max_counts",
    "C29_mean_intensity"
   ],
   "note": "exact arithmetic"
  },
  {
   "property": "C30",
   "status": "proved",
   "theorems": [
    "C30_bar",
    "C30_vertical_ignores_values",
    "C30_vertical_values_refuted",
    "C30_box",
    "C30_box_defaults"
   ],
   "note": "exact arithmetic"
  },
  {
   "property": "C31",
   "status": "proved",
   "theorems": [
    "C31_margin",
    "C31_margin_shape",
    "C31_margin_zero"
   ],
   "note": ""
  },
  {
   "property": "C32",
   "status": "proved",
   "theorems": [
    "C32_threshold"
   ],
   "note": "heap model: the mask is one shared array; images must not be the mask itself"
  },
  {
   "property": "C33",
   "status": "proved",
   "theorems": [
    "C33_outlier",
    "C33_inside_own_bin",
    "C33_edge_bin_below",
    "C33_first_edge_last_bin",
    "C33_own_bin_refuted"
   ],
   "note": "real arithmetic; scipy binned_statistic modelled by its documented bins"
  },
  {
   "property": "C34",
   "status": "proved",
   "theorems": [
    "C34_statistic_per_cell",
    "C34_uniform_edges",
    "C34_bad_edges_raise"
   ],
   "note": "exact arithmetic; standard deviation through its square; median and callables may see the values of a bin in any order"
  },
  {
   "property": "C35",
   "status": "proved",
   "theorems": [
    "C35_right_edge",
    "C35_near_edge_refuted",
    "C35_beyond_edge"
   ],
   "note": "exact arithmetic"
  },
  {
   "property": "C36",
   "status": "proved",
   "theorems": [
    "C36_binmap_equal",
    "C36_binmap_differing_refuted"
   ],
   "note": "numpy's argsort of the bin counts taken as stable (true up to 16 axes)"
  },
  {
   "property": "C37",
   "status": "proved",
   "theorems": [
    "C37_reconstruction_loop",
    "C37_default_average_nan",
    "C37_solution_is_kept"
   ],
   "note": "pixel arithmetic exact; pi_modulus and find_support are arbitrary length-preserving functions in the loop theorem"
  },
  {
   "property": "C38",
   "status": "proved",
   "theorems": [
    "C38_box_support",
    "C38_box_any_radius",
    "C38_too_large_refuted",
    "C38_disk_support"
   ],
   "note": "integer radius for the box; real arithmetic for the disk"
  },
  {
   "property": "C39",
   "status": "proved",
   "theorems": [
    "C39_reduction_whole",
    "C39_reduction_roi",
    "C39_reduction_raises"
   ],
   "note": "exact arithmetic"
  },
  {
   "property": "C40",
   "status": "proved",
   "theorems": [
    "C40_raster_order",
    "C40_too_many",
    "C40_resume",
    "C40_flags",
    "C40_bad_weighting",
    "C40_amplitude"
   ],
   "note": "the fit of one pattern is any function of the reference and the pattern"
  },
  {
   "property": "C41",
   "status": "proved",
   "theorems": [
    "C41_every_pixel",
    "C41_unit_beams",
    "C41_norm_all_frames",
    "C41_in_plane",
    "C41_ub_roundtrip",
    "C41_hkl_to_q_refuted",
    "C41_hkl_to_q_norm"
   ],
   "note": "real arithmetic; buffers as checked lists"
  },
  {
   "property": "C42",
   "status": "proved",
   "theorems": [
    "C42_gisaxs_norm",
    "C42_specular",
    "C42_axes_swapped_refuted",
    "C42_atan2"
   ],
   "note": "real arithmetic; signed zeros of arctan2 not modelled"
  },
  {
   "property": "C43",
   "status": "proved",
   "theorems": [
    "C43_one_set",
    "C43_weights",
    "C43_distinct_frames_refuted",
    "C43_histogram",
    "C43_brightest_dropped",
    "C43_last_set",
    "C43_mean_of_sets_refuted",
    "C43_normalize",
    "C43_regions"
   ],
   "note": "Full loop with ring buffers, levels and running means; the distinct-frames and mean-of-sets readings are refuted."
  },
  {
   "property": "C44",
   "status": "proved",
   "theorems": [
    "C44_in_bounds",
    "C44_negative_xmax_raises",
    "C44_bounds",
    "C44_monotone",
    "C44_terminates",
    "C44_diverges",
    "C44_passes",
    "C44_smooth_constant"
   ],
   "note": "Whole function over the reals, including energies, widths, smoothing, both snipping loops and the log-log transform; rounding and nan not modelled."
  },
  {
   "property": "C45",
   "status": "proved",
   "theorems": [
    "C45_lorentzian",
    "C45_gaussian",
    "C45_pvoigt",
    "C45_lorentzian2",
    "C45_lorentzian2_refuted"
   ],
   "note": "Improper Riemann integrals; the Gaussian integral is proved in Gauss.v."
  },
  {
   "property": "C46",
   "status": "proved",
   "theorems": [
    "C46_below",
    "C46_decreasing",
    "C46_increasing_in_energy",
    "C46_formula"
   ],
   "note": "Real arithmetic."
  },
  {
   "property": "C47",
   "status": "proved",
   "theorems": [
    "C47_L",
    "C47_M",
    "C47_K",
    "C47_K_refuted",
    "C47_area",
    "C47_user",
    "C47_pileup_area",
    "C47_pileup_ignored",
    "C47_components",
    "C47_user_fresh",
    "C47_pileup_fresh"
   ],
   "note": "Cross sections and energies are arbitrary tables. The refuted parts are kb2-kb5 of a K family and three of the four pile-up parameters."
  },
  {
   "property": "C48",
   "status": "proved",
   "theorems": [
    "C48_K",
    "C48_L",
    "C48_M",
    "C48_union",
    "C48_other",
    "C48_L_refuted",
    "C48_K_refuted"
   ],
   "note": "Membership characterised for every table; the slices' defects are the two refutations."
  },
  {
   "property": "C49",
   "status": "proved",
   "theorems": [
    "C49_unbound",
    "C49_rows",
    "C49_fit_scales",
    "C49_residual_unique",
    "C49_goodness_scales",
    "C49_r_squared_invariant",
    "C49_goodness"
   ],
   "note": "scipy's nnls and snip_method are parameters; the former described as a minimiser."
  },
  {
   "property": "C50",
   "status": "proved",
   "theorems": [
    "C50_bound",
    "C50_unknown",
    "C50_register",
    "C50_history",
    "C50_hint",
    "C50_builtin",
    "C50_distinct"
   ],
   "note": ""
  },
  {
   "property": "C51",
   "status": "proved",
   "theorems": [
    "C51_std_round_trip",
    "C51_decades_exist",
    "C51_std_exact",
    "C51_std_scale_lost",
    "C51_std_overflow_refuted"
   ],
   "note": "Characters of the file are modelled; number formatting is exact rational rounding half to even; float log10 and 10**-k are exact here."
  },
  {
   "property": "C52",
   "status": "proved",
   "theorems": [
    "C52_esd_read_back",
    "C52_fxye_read_back",
    "C52_fxye_angles_lost"
   ],
   "note": "Same text model as C51."
  },
  {
   "property": "C53",
   "status": "proved",
   "theorems": [
    "C53_save_output",
    "C53_gsas_writer_effects",
    "C53_failed_write_keeps_file_refuted",
    "C53_reader_refuses"
   ],
   "note": "A file system is a finite map; I/O errors other than a missing directory are not modelled; single-point patterns excluded for gsas_writer."
  },
  {
   "property": "C54",
   "status": "proved",
   "theorems": [
    "C54_read_3d",
    "C54_read_2d",
    "C54_read_1d",
    "C54_nx_respected_refuted",
    "C54_round_trip"
   ],
   "note": "Bytes after the header are a list of decoded elements; dtype decoding by numpy is a parameter."
  },
  {
   "property": "C55",
   "status": "proved",
   "theorems": [
    "C55_value",
    "C55_region_exists",
    "C55_reversed",
    "C55_rejects",
    "C55_constant",
    "C55_overshoot_refuted",
    "C55_spectrum",
    "C55_centres_refuted"
   ],
   "note": "scipy's simpson rule is a parameter; exact rationals."
  },
  {
   "property": "C56",
   "status": "proved",
   "theorems": [
    "C56_solver_exists",
    "C56_window",
    "C56_all",
    "C56_no_window_drops_last_refuted",
    "C56_left_border_refuted"
   ],
   "note": "np.linalg.lstsq is any least squares minimiser (one is constructed); real arithmetic."
  },
  {
   "property": "C57",
   "status": "proved",
   "theorems": [
    "C57_refinement",
    "C57_window",
    "C57_two_arrays_refuted",
    "C57_border_refuted"
   ],
   "note": "The refine function is arbitrary. Negative candidate positions are outside the statement."
  },
  {
   "property": "C58",
   "status": "proved",
   "theorems": [
    "C58_n_largest",
    "C58_n_largest_bad",
    "C58_height"
   ],
   "note": "np.argsort is any function returning a sorting permutation."
  },
  {
   "property": "C59",
   "status": "proved",
   "theorems": [
    "C59_nand",
    "C59_nor",
    "C59_sub",
    "C59_sub_in_place",
    "C59_sub_in_place_refuted"
   ],
   "note": "Arrays live in a store of locations so that aliasing is expressible."
  },
  {
   "property": "C60",
   "status": "proved",
   "theorems": [
    "C60_sorted",
    "C60_wrong_index",
    "C60_indices",
    "C60_from_angles",
    "C60_angles_back",
    "C60_other_wavelength",
    "C60_from_d",
    "C60_all_kept_refuted",
    "C60_cut"
   ],
   "note": "Real arithmetic. The refuted part is that every angle is kept when labels are short."
  },
  {
   "property": "C61",
   "status": "proved",
   "theorems": [
    "C61_loads",
    "C61_lookup",
    "C61_only",
    "C61_comparisons",
    "C61_equal_same"
   ],
   "note": "The data file is transcribed into Elem_Data.v; floats are exact decimals."
  },
  {
   "property": "C62",
   "status": "proved",
   "theorems": [
    "C62_rings",
    "C62_ring_unique",
    "C62_between",
    "C62_default_limits",
    "C62_all_masked",
    "C62_shape_refuted",
    "C62_negative_threshold_refuted"
   ],
   "note": "The radii of the pixels are given numbers; exact rationals."
  },
  {
   "property": "C63",
   "status": "proved",
   "theorems": [
    "C63_line_near",
    "C63_line_once",
    "C63_search",
    "C63_default",
    "C63_all_elements_refuted"
   ],
   "note": "xraylib is a pair of parameters; a failing xraylib call counts as 0, as in the wrapper."
  },
  {
   "property": "C64",
   "status": "proved",
   "theorems": [
    "C64_terms",
    "C64_refused",
    "C64_reproduces",
    "C64_derivatives",
    "C64_derivative_high_order_refuted",
    "C64_ramp",
    "C64_ramp_down_refuted",
    "C64_order_zero"
   ],
   "note": "Exact rationals; fftconvolve is exact convolution and pinv any generalised inverse (A P A = A)."
  },
  {
   "property": "C65",
   "status": "proved",
   "theorems": [
    "C65_one_level",
    "C65_diluted_refuted"
   ],
   "note": "the failing half is a refutation of the naive claim"
  },
  {
   "property": "C66",
   "status": "proved",
   "theorems": [
    "C66_strided_columns_refuted",
    "C66_reads_as_contiguous"
   ],
   "note": ""
  },
  {
   "property": "C67",
   "status": "proved",
   "theorems": [
    "C67_uninterleaved_ok",
    "C67_single_thread",
    "C67_garbage_in_result",
    "C67_out_of_bounds"
   ],
   "note": "sequentially consistent interleavings, one access per step"
  },
  {
   "property": "C68",
   "status": "proved",
   "theorems": [
    "C68_centers_length",
    "C68_centers_midpoint",
    "C68_centers_inside",
    "C68_pairwise"
   ],
   "note": ""
  },
  {
   "property": "C69",
   "status": "proved",
   "theorems": [
    "C69_kymograph"
   ],
   "note": ""
  },
  {
   "property": "C70",
   "status": "proved",
   "theorems": [
    "C70_bad_to_nan",
    "C70_sizes_refuted"
   ],
   "note": ""
  },
  {
   "property": "C71",
   "status": "proved",
   "theorems": [
    "C71_gauss_normalised"
   ],
   "note": "real arithmetic"
  },
  {
   "property": "C72",
   "status": "proved",
   "theorems": [
    "C72_modulus_constraint",
    "C72_error_zero",
    "C72_modulus_fft"
   ],
   "note": "real arithmetic; for any length-preserving homogeneous transform with a right inverse, and for numpy's n-dimensional transform itself (proved to be one in Fourier.v)"
  },
  {
   "property": "C73",
   "status": "proved",
   "theorems": [
    "C73_shrinkwrap"
   ],
   "note": "real arithmetic; the Gaussian filter is any length-preserving map"
  },
  {
   "property": "C74",
   "status": "proved",
   "theorems": [
    "C74_phase_recovered",
    "C74_spectrum",
    "C74_lost_components",
    "C74_band_limited",
    "C74_nyquist_refuted"
   ],
   "note": "real arithmetic; for any transform pair with the properties stated, and for numpy's fft2/ifft2 themselves (padding 0)"
  },
  {
   "property": "C75",
   "status": "proved",
   "theorems": [
    "C75_cost",
    "C75_grid"
   ],
   "note": "real arithmetic"
  },
  {
   "property": "C76",
   "status": "proved",
   "theorems": [
    "C76_small_ub_refuted",
    "C76_large_ub",
    "C76_memory_safe"
   ],
   "note": "buffers as checked lists; malloc failure and int overflow of the detector size not modelled"
  },
  {
   "property": "C77",
   "status": "proved",
   "theorems": [
    "C77_step",
    "C77_tail",
    "C77_fraction",
    "C77_tail_unit_refuted",
    "C77_step_slope"
   ],
   "note": "Closed form of the fraction and strict bounds."
  },
  {
   "property": "C78",
   "status": "proved",
   "theorems": [
    "C78_elastic",
    "C78_compton",
    "C78_compton_short",
    "C78_calibration",
    "C78_shape",
    "C78_superposition"
   ],
   "note": "Areas with calibration x -> x and step weight 0 (the step is not integrable); any other calibration is a change of variable (C78_calibration); with a step, the profile is given pointwise (C78_superposition)."
  },
  {
   "property": "C79",
   "status": "proved",
   "theorems": [
    "C79_areas_fixed",
    "C79_update",
    "C79_update_all",
    "C79_failed_call",
    "C79_add",
    "C79_lines"
   ],
   "note": ""
  },
  {
   "property": "C80",
   "status": "proved",
   "theorems": [
    "C80_sum_area",
    "C80_update"
   ],
   "note": ""
  },
  {
   "property": "C81",
   "status": "proved",
   "theorems": [
    "C81_line",
    "C81_family"
   ],
   "note": ""
  },
  {
   "property": "C82",
   "status": "proved",
   "theorems": [
    "C82_linear",
    "C82_assemble",
    "C82_assemble_inactive",
    "C82_active"
   ],
   "note": "lmfit's addition of None is modelled as an exception."
  },
  {
   "property": "C83",
   "status": "proved",
   "theorems": [
    "C83_ratio",
    "C83_inactive"
   ],
   "note": ""
  },
  {
   "property": "C84",
   "status": "proved",
   "theorems": [
    "C84_weighted"
   ],
   "note": "scipy's nnls assumed to return an unweighted minimiser."
  },
  {
   "property": "C85",
   "status": "proved",
   "theorems": [
    "C85_components",
    "C85_duplicate_refuted",
    "C85_reported",
    "C85_area",
    "C85_extra"
   ],
   "note": "nnls is a parameter; real arithmetic."
  },
  {
   "property": "C86",
   "status": "proved",
   "theorems": [
    "C86_inside",
    "C86_near",
    "C86_sorted",
    "C86_trim",
    "C86_negative"
   ],
   "note": "Exact rationals."
  },
  {
   "property": "C87",
   "status": "proved",
   "theorems": [
    "C87_fit_exact",
    "C87_r2_range",
    "C87_dip_is_a_peak_refuted",
    "C87_refine_quadratic",
    "C87_refine_log_quadratic",
    "C87_threshold",
    "C87_short"
   ],
   "note": "np.linalg.lstsq is any least squares minimiser; real arithmetic."
  },
  {
   "property": "C88",
   "status": "proved",
   "theorems": [
    "C88_aligned"
   ],
   "note": "The peak finder is a parameter; an instance with the default finder is shown."
  },
  {
   "property": "C89",
   "status": "proved",
   "theorems": [
    "C89_radial",
    "C89_angle",
    "C89_angle_unique",
    "C89_twotheta"
   ],
   "note": "Real arithmetic; grids in raster order."
  },
  {
   "property": "C90",
   "status": "proved",
   "theorems": [
    "C90_std",
    "C90_esd",
    "C90_fxye",
    "C90_fxye_refuted"
   ],
   "note": "Exact rationals; characters as written."
  },
  {
   "property": "C91",
   "status": "proved",
   "theorems": [
    "C91_estimate",
    "C91_exact",
    "C91_missing_ring_refuted",
    "C91_unreachable",
    "C91_no_peaks"
   ],
   "note": "Over the reals; the least-squares solver is any function satisfying its specification (one exists: lsq_ok); the standards table is a parameter. A peak at exactly 90 degrees (infinite tangent) is not covered."
  },
  {
   "property": "C92",
   "status": "proved",
   "theorems": [
    "C92_sectors",
    "C92_center",
    "C92_exchanged_refuted",
    "C92_column_error_refuted",
    "C92_centered",
    "C92_dark_sector",
    "C92_ringless",
    "C92_worse_refuted"
   ],
   "note": "Over the reals; the first-order shape of displaced rings is a hypothesis with error eps, met in the worked 4x4 case."
  },
  {
   "property": "C93",
   "status": "proved",
   "theorems": [
    "C93_image",
    "C93_default_size",
    "C93_center_alone",
    "C93_left_right_refuted",
    "C93_symmetric",
    "C93_superposition"
   ],
   "note": "Over the reals; np.interp modelled for ascending radii."
  },
  {
   "property": "C94",
   "status": "proved",
   "theorems": [
    "C94_elected",
    "C94_total",
    "C94_single",
    "C94_crossings",
    "C94_majority",
    "C94_cross",
    "C94_scale",
    "C94_dark_rows_refuted",
    "C94_edge_refuted",
    "C94_offset_refuted"
   ],
   "note": "Exact rational arithmetic."
  },
  {
   "property": "C95",
   "status": "proved",
   "theorems": [
    "C95_image",
    "C95_measured",
    "C95_zero_direction_refuted",
    "C95_caller_changed",
    "C95_twice_refuted",
    "C95_full_turn_refuted",
    "C95_gap_refuted",
    "C95_default_size",
    "C95_refuses"
   ],
   "note": "Over the reals; scipy interpolation restated."
  },
  {
   "property": "C96",
   "status": "proved",
   "theorems": [
    "C96_one_dimension",
    "C96_two_dimensions",
    "C96_two_edges_refuted",
    "C96_radial",
    "C96_polar",
    "C96_shapes",
    "C96_integer_mask_refuted",
    "C96_integer_radii_refuted",
    "C96_integer_positive",
    "C96_caller_array",
    "C96_second_use_refuted"
   ],
   "note": "Exact rationals; radius and angle maps are arguments (the maps themselves: C89)."
  },
  {
   "property": "C97",
   "status": "proved",
   "theorems": [
    "C97_statistics_1D",
    "C97_defaults",
    "C97_agrees_with_bin_1D",
    "C97_equal_positions_refuted",
    "C97_no_bins",
    "C97_rings",
    "C97_mask_true_keeps_refuted",
    "C97_default_bins",
    "C97_default_counts_all",
    "C97_outermost_lost_refuted",
    "C97_one_radius_refuted"
   ],
   "note": "Exact rationals / reals; scipy.stats.binned_statistic taken as documented."
  },
  {
   "property": "C98",
   "status": "proved",
   "theorems": [
    "C98_labels",
    "C98_ends",
    "C98_raises",
    "C98_negative_end_refuted",
    "C98_bent_refuted"
   ],
   "note": "skimage.draw.line is library code, written out as the midpoint algorithm it documents."
  },
  {
   "property": "C99",
   "status": "proved",
   "theorems": [
    "C99_boolean_mask",
    "C99_integer_mask_refuted",
    "C99_every_mask"
   ],
   "note": "fabio's mask files: one bit per pixel, set where the data is not zero."
  }
 ]
}
