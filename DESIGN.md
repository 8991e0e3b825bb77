# Design of the formal model

Subject: `/repo` (scikit-beam at the pinned commit), read as text; nothing in it
is built or executed. Everything below is about Gallina models written by hand
from that text.

## 1. Trusted base

* The Coq 8.16.1 kernel (and `coqc`/`coq_makefile`).
* The axioms that `Print Assumptions` lists beneath every theorem in the
  `*_Props.v` files. Theorems over `nat`, `Z`, `Qc`, lists and strings are
  expected to be closed under the global context. Theorems over `R`
  (kinematics, line shapes, conversions, IEEE rounding through Flocq) depend on
  the standard library's axioms for the reals
  (`ClassicalDedekindReals.sig_forall_dec`,
  `ClassicalDedekindReals.sig_not_dec`,
  `FunctionalExtensionality.functional_extensionality_dep`) and possibly
  `Classical_Prop.classic`. No axiom is added by this development.
* The reading of the Python/Cython/C text: each definition carries a comment
  with the file and lines it models and its simplifications.

## 2. Modelling conventions

* Exceptions are values (`option`, or a `result` type naming the exception).
* Arrays are lists (1-D), lists of rows (2-D), or a flat list with a shape
  (n-D). Out-of-range access is an explicit error, never a silent default, in
  code paths where the real program would raise or write out of bounds.
* Exact arithmetic: `Z` for integers, canonical rationals `Qc` where the code
  adds/multiplies/divides floats and rounding is not the subject, `R` where
  transcendental functions occur. NaN is `None` in an `option`. Models in exact
  arithmetic say nothing about rounding error.
* Floating point is modelled bit-exactly (Flocq binary64 / stdlib `SpecFloat`)
  only where rounding is the subject (histogram index, gridder index, default
  grid bounds).
* Loops become folds or structural recursion; `while` loops use explicit fuel
  with a distinguishable out-of-fuel value, and termination is a theorem.
* External libraries (numpy, scipy, lmfit, xraylib, fabio, the OS) are either
  modelled by small definitions stated in the model file (slicing, digitize,
  histogram, bincount, argsort) or are parameters of the model (cross-section
  tables, least-squares solver).
* A property that is false of the code is settled by a theorem named
  `..._refuted` with a concrete witness, beside the strongest true statement.

Files: for each area `X_Model.v` (model only), `X_Spec.v` (independent
specification, when it is not already elementary), `X_Proofs.v`, and
`X_Props.v`, which contains only the property theorems (closed by `exact`),
`Print Assumptions`, and the concrete examples showing hypotheses are met.

## 3. Properties: what is modelled and how it is proved

| id | model | proof |
|----|-------|-------|
| C01 | `multi_tau_lags` on `Z`/lists | closed form of each level, list concatenation, strict sortedness by induction on levels |
| C02 | ring buffers, cursors, `track_level` of `lazy_one_time`; frames as vectors of `Qc` | invariant over `fold_left` on the frame list: slot contents as function of frame count |
| C03 | `_one_time_process` running means | running mean = mean lemma, induction on frames with the C02 invariant |
| C04 | generator state as record | `fold_left_app` on the faithful state machine, including the per-yield outputs |
| C05 | NaN frames as `None`, norm counters | same invariant with good-pair counts |
| C06 | g2 computation and truncation | corollary of C03 and arithmetic |
| C07 | `extract_label_indices`, in-place renumbering loop | induction on sorted unique labels, no collision |
| C08 | `lazy_two_time` state machine writing a 2-D array | bounds and content invariant |
| C09 | `one_time_from_two_time` | list induction on diagonals |
| C10 | `_cross_corr` as linear correlation (FFT convolution as exact convolution), centring | index arithmetic; refutation of the documented direction for all shifts |
| C11 | `MD_dict` as tree with get/set/del/iter | induction on the path; refutations by computation |
| C12 | `RCParamDict` as tree, keys as strings split at the first delimiter | refinement to a map on paths |
| C13 | `subtract_reference_images` loop | induction with "latest reference" spec |
| C14 | meshgrid/ravel on lists | index arithmetic; general refutation for all non-square shapes |
| C15 | `np.histogram` on explicit edges, `bin_1D` | partition lemma |
| C16 | `bin_edges` on `Qc` with floor | case analysis |
| C17 | conversions on `R` | `asin`/`sin` lemmas |
| C18 | fuelled `while` on `Z` | strict growth; fuel-independence for non-termination |
| C19 | `c_grid3d` loops on `Qc`, chunk merge | permutation/append invariance of sums |
| C20 | index computation in binary64 | Flocq rounding monotonicity and predecessor |
| C21 | `np.spacing`, bounds and position in binary64 | witness by computation in `SpecFloat` |
| C22 | `Histogram` fill loops on `Qc` | fold invariants, permutation invariance |
| C23 | `find_indices` in binary64 | witness; Flocq bound |
| C24 | slices with Python negative index semantics | case analysis; witness |
| C25 | `_make_roi` with `digitize` | counting lemma on sorted edges |
| C26 | `ring_edges` | list induction; refutation for all n |
| C27 | label arithmetic of `segmented_rings` (angle as abstract real/rational) | injectivity; witness |
| C28 | `extract_label_indices`, `roi_pixel_values` | list induction |
| C29 | `roi_max_counts`, `mean_intensity` | list induction |
| C30 | `bar`, `box` | reduction to `_make_roi` |
| C31 | `margin` slices | slice lemma; refutation for every shape |
| C32 | `threshold` as a generator over a heap cell | invariant; aliasing theorem |
| C33 | `digitize(right=True)` against `binned_statistic` bins | counting lemma; refutation |
| C34 | flattening, bincount, reshape, `swapaxes` loop for any dimension | permutation invariants, mixed radix |
| C35 | `on_edge` rounding on `Q` | witness and characterisation |
| C36 | `binmap` div/mod loops | mixed radix; witness |
| C37 | iteration skeleton of `cdi_recon` with abstract update | induction on iterations |
| C38 | slices | as C24 |
| C39 | `image_reduction` | double sums |
| C40 | `lazy_dpc` indexing, flag logic | induction, case analysis |
| C41 | `ctrans.c` kinematics on `R` | trigonometric identities |
| C42 | `gisaxs` on `R` | trigonometric identities |
| C43 | `xsvs` loop | computed witnesses and general loop theorem |
| C44 | `snip_method` on `R`/`Qc` with indices | pointwise monotonicity, termination measure |
| C45 | line shapes on `R` | antiderivatives, limits |
| C46 | `compton_e` on `R` | monotonicity |
| C47 | parameter-name strings | string equality for all names |
| C48 | sorted line list and slices, cross sections as oracle | case analysis over a finite line list for every oracle |
| C49 | `fit_per_line_nnls` with unbound variable as error value | induction; witness |
| C50 | association-list dictionaries | induction |
| C51 | formatting and parsing of fixed-width fields on `ascii` lists | codec round trip |
| C52 | same | length theorem for every N; witnesses |
| C53 | file system as partial map | case analysis |
| C54 | bytes as list, `resize` | index arithmetic |
| C55 | selection masks, validation sequence | list induction |
| C56 | slices and argmax | index arithmetic; witness |
| C57 | window clamps, quadratic least squares | list induction, algebra |
| C58 | argsort selection | permutation/sortedness |
| C59 | two-step in-place evaluation over a heap | case analysis |
| C60 | `PowderStandard`, stable sort by q, conversions; indices as strings or triples | permutation and sortedness; Bragg inverse of C17 |
| C61 | `atomic_constants` file transcribed (`Elem_Data.v`), its parser, `BasicElement` lookups and comparisons | computation over the finite table, case folding lemma |
| C62 | `circular_average` on given radii | ring sums by list induction; witnesses |
| C63 | `emission_line_search`, `line_near` with xraylib as a parameter | list induction; witness |
| C64 | `sgolay2d` on `Qc`, pinv as any generalised inverse, exact convolution | polynomial reproduction through A P A = A; padding by reflection; witnesses |
| C65 | `one_time_from_two_time` over the C08 result | diagonal sums; witness with two levels |
| C66 | `Histogram._fillnd` reading raw memory | address arithmetic; witness |
| C67 | threads of `c_grid3d` as interleaved single accesses | invariant over schedules; witness schedule |
| C68 | `bin_edges_to_centers`, `pairwise` | list induction |
| C69 | `kymograph` | list induction |
| C70 | `bad_to_nan_gen` | index arithmetic; witness |
| C71 | `gauss`, `_dist` over R | sums |
| C72 | `pi_modulus`, `cal_diff_error`; Fourier transform as a parameter, and `fftn`/`ifftn` as sums over all indices | algebra of complex moduli; inversion of the transform by orthogonality of roots of unity, axis by axis |
| C73 | `find_support` | list induction |
| C74 | `recon`; transform pair as a parameter, and `fft2`/`ifft2` as double sums | pointwise algebra in Fourier space; spectra of plane waves by geometric sums |
| C75 | `_rss_factory`, the grids of `dpc_fit` | algebra |
| C76 | `ccdToQ` reading and writing checked buffers | index bounds for every detector size; witness |
| C77 | `gausssian_step`, `gaussian_tail`, erfc as an integral | Coquelicot: derivative, limits, improper integral |
| C78 | `elastic`, `compton` | Coquelicot integrals, change of variable, algebra |
| C79 | `ParamController` as dictionary transformer | invariants over call sequences |
| C80 | `sum_area`, `update_parameter_dict` | list induction |
| C81 | `get_line_energy` with xraylib as a parameter | case analysis on names |
| C82 | `construct_linear_model`, `assemble_models` | list induction |
| C83 | `get_relative_cs_ratio` | algebra |
| C84 | `nnls_fit`, solver as any unweighted minimiser | algebra of weighted residuals |
| C85 | `linear_spectrum_fitting`, `calculate_area` | list induction; witness |
| C86 | `define_range`, `trim` | sorted lists |
| C87 | `fit_quad_to_peak` and refinements, solver as any minimiser | uniqueness of the exact parabola |
| C88 | `align_and_scale` | interpolation algebra |
| C89 | `radial_grid`, `angle_grid`, `radius_to_twotheta` | trigonometry |
| C90 | text of `gsas_writer` | line lengths of all records; witness |
| C91 | `estimate_d_blind` over R | peak list uniqueness, exact Gaussian fit, means |
| C92 | `refine_center` over R, sectors, radial bins, Fourier sums | partition of the circle, discrete orthogonality of sine and cosine; worked 4x4 image |
| C93 | `construct_circ_avg_image` over R, np.interp on ascending points | induction over the samples; pixel grid of C89 |
| C94 | `find_ring_center_acorr_1D`, `_corr_ax1` on `Qc`, np.correlate and np.histogram written out | reindexing of sums, first maximum of a list, counting of votes; images computed |
| C95 | `construct_rphi_avg_image` over R, with the caller's arrays after the call; linear RegularGridInterpolator written out | position on the circle modulo a turn, cells of sorted grids, bilinear algebra |
| C96 | constructor of `BinnedStatisticDD` with the sample array it overwrites (element type included), `BinnedStatistic1D/2D`, `RadialBinnedStatistic`, `RPhiBinnedStatistic` over Qc | reduction to the C34 per-cell theorem with altered samples; rounding of the stored mask value |
| C97 | `statistics_1D` over Qc, `bin_grid` over R; scipy's binned_statistic restated | counting pixels over bins of equal steps by exchanging sums; agreement with C15 through uniqueness of weights |
| C98 | `lines` with skimage's midpoint line and numpy's wrapping indices, on Z | invariant of the midpoint error along the chain; last writer of each pixel |
| C99 | `fit2d_save`, `read_fit2d_msk`, boolean and integer pixels | pixel by pixel |
| C100 | `_read_amira` with fuel, `_clean_amira_header` on python 3, `_create_md_dict`, `load_amiramesh` | induction on fuel; lines without effect on size or box; the marker's own words make the cleaning raise |
| C101 | `element_peak_xrf`, `compute_escape_peak`, `extract_strategy`, `_copy_model_param_hints(_EXPR)`, hints of `setup_compton_model`, `setup_elastic_model`, `setup_element_model`; lmfit: prefix, sum, expr | every name in the hint table traced to its tie; normal curves of C60; induction over association lists |
| C102 | `poisson_dist`, `nbinom_dist`, `gamma_dist` over R (integer M) | exponential and negative binomial series (Cauchy products by induction on M), explicit primitive of the gamma density, squeeze for M ln(1+K/M) |
| C103 | `auto_corr_scat_factor` over R | real analysis; ratio of differences of equally spaced samples |
| C104 | `generate_random_phase_field` for any phases, with `fftn`/`ifftn` | inversion, Parseval, nearest point on a circle for each coefficient |
| C105 | `auto_find_center_rings`; canny, RANSAC and circle_perimeter as parameters | invariant over the rounds: points left, rings painted so far |
| C106 | `voigt` over R, real part of the Faddeeva function by its integral | dominated improper integrals (Coquelicot), exchange of the order of integration |
| C107 | `fit_pixel_multiprocess_nnls`, `_log_and_fit` as a transition system: caller, queue, busy workers, result slots | invariant and decreasing measure over all schedules; progress |
| C108 | `XrayLibWrap`, `XrayLibWrap_Energy`, `XrfElement` lookups; xraylib functions as parameters | name tables by computation; list lemmas for the mapping protocol |
| C109 | update formula of `_one_time_process` and `_process` in binary64 (Flocq) | each update stays between average and new value; standard error bounds summed over the updates |
| C110 | `bin_1D`, `circular_average`, `subtract_reference_images`, `xsvs`, std of `BinnedStatisticDD` with pixels reduced modulo 2^bits; numpy.histogram in blocks | reduction is a ring homomorphism; running sums at sorted edges; reduction to C15, C16, C34, C43 |
| C111 | `bin_edges` in binary64 (Flocq): fmod, floor division, arange times step, linspace | floor division exact for fewer than 2^50 steps; rounding monotone and within half a unit; refutations by evaluation |
| C112 | one cell of `c_grid3d` in binary64 (Flocq): thread sums, gathering, variance, standard error, mean | rounding error per addition summed over points and threads; Cauchy-Schwarz; exactness of integers up to 2^53; refutations by evaluation |
| C113 | `lazy_one_time`, `lazy_two_time`, `two_time_state_to_results` as programs on shared arrays | invariant over all programs: disjoint arrays per series hold the state of the fold over its images, up to the not yet mirrored triangle; refutations by evaluation |
| C114 | `bin_1D` from its edges on and the quotient of `circular_average` in binary32/binary64 (Flocq); numpy.histogram in blocks with any sorting | standard error per addition summed over samples and blocks; NaN absorbing; integers up to 2^p exact; refutations for every sorting by evaluation |
| C115 | `lazy_one_time`, `_one_time_process`, `multi_tau_auto_corr` in binary64 (Flocq) with NaN and infinities | invariant over the image loop: accumulators are stepwise averages of the pairs seen; dyadic exactness of block and ROI sums of counts, C109 for the time average; finiteness absorbing; refutation by evaluation |
| C116 | `default_param`, `get_para`, `set_default`; dictionaries, controllers and strategies as objects | case analysis over statements, induction over programs; the table by evaluation |
| C117 | `two_time_corr`, `lazy_two_time`, `_two_time_process`, `two_time_state_to_results` in binary64 (Flocq) with NaN and infinities | invariant over the image loop as for C15 with doubles; dyadic exactness of block and ROI sums of counts, then three relative roundings; non-finite values absorbing; (1/N)*N by rounding monotonicity and a tie to even |
| C118 | the models of C03, C08, C25, C28, C29 and C43 on one label array | regions as the sorted list of positive labels; renumbering is the rank in it; selection by label commutes with extraction and with the mixing of frames; refutations by evaluation |
| C119 | `one_time_from_two_time` with `calc_errors=True` over R; `two_time_corr` as in C08 | mean and scatter by their defining equations; square roots eliminated by squaring; composition with the entries of C08 |
| C120 | `radial_grid`, `rings`, `_make_roi` in binary64 (Flocq) with NaN and infinities | one relative error per operation, squares and root by the Euclidean norm; half-integer squares exact below 2^53, gap of 2^-28 between a radius and a half-integer edge; refutation by evaluation |
| C121 | one entry of the tables and the whole of `xsvs` / `_process` in binary64 (Flocq): histogram density, running averages, blending, standard deviation | C109 for the running averages, one blending within 3 units, relative errors of square, difference and root; midpoint argument for the bound 1; refutation by evaluation; the loop invariant of C43 with doubles takes each table entry to the entry model |
| C122 | `ring_edges` in binary64 (Flocq), including np.insert's conversion of the inner radius to the type of the spacings | relative error of each addition of non-negative doubles, Bernoulli bounds on (1 ± u)^k; monotone rounding for acceptance by `ringsF` (C120); refutations by evaluation |

## 4. What is and is not modelled

Throughout: exact arithmetic unless a row says binary64; dtype promotion (integer images: C110), memory layout (except C66, C67, C76),
logging, warnings and performance are not modelled; fabio, h5py, netCDF4, xraylib and lmfit are parameters
or absent.

| file | modelled | not modelled |
|------|----------|--------------|
| core/arithmetic.py | all three functions | |
| core/calibration.py | `estimate_d_blind`, `refine_center` | |
| core/cdi.py | `_dist`, `gauss`, `generate_random_phase_field`, `pi_modulus`, `find_support`, `cal_diff_error`, supports, the iteration of `cdi_recon` | FFT rounding, plotting callback |
| core/correlation.py | all functions; one-time and two-time correlation also in binary64 (C115, C117) | progress reports |
| core/dpc.py | image reduction, cost, fit front end, grids, state, `recon`, lazy run | `dpc_runner` (a loop over `lazy_dpc`), scipy minimisation, multiprocessing |
| core/feature.py | all functions | scipy's `argrelmax` is restated |
| core/image.py | all functions; `RegularGridInterpolator` restated for the linear method | |
| core/mask.py | all functions | |
| core/recip.py | `process_to_q`, `hkl_to_q`, `gisaxs`, `src/ctrans.c:ccdToQ` | `calibrated_pixels_to_q` (pyFAI) |
| core/roi.py | all functions; rings and ring edges also in binary64 (C120, C122); canny edges, RANSAC and circle_perimeter in `auto_find_center_rings` are parameters | the scikit-image routines themselves |
| core/smoothing.py | `sgolay2d` | FFT rounding |
| core/speckle.py | `xsvs`, `_process` (also in binary64, C121), `normalize_bin_edges`, `get_bin_edges` | |
| core/spectroscopy.py | all functions | error text of `_formatter_array_regions` |
| core/stats.py | `statistics_1D` | |
| core/utils.py | `MD_dict`, `RCParamDict`, lags, edges, grids, conversions, `bin_1D`, `subtract_reference_images`, `img_to_relative_xyi`, `grid3d`, `bin_grid` | `verbosedict`, `_repr_helper`, `NotInstalledError`, `wedge_integration` (raises NotImplementedError) |
| core/accumulators | `histogram.pyx`; all classes of `binned_statistic.py`; binary64 index (C12) | `argsort_index`; NaN payloads |
| core/constants | element table, line search, powder standards, `XrfElement` lookups used by them, `XrayLibWrap`, `XrayLibWrap_Energy` | xraylib itself |
| core/fitting | `background.py`, `funcs.py`, `lineshapes.py`, `xrf_model.py` parameter handling, model assembly, linear fit, the process pool | the Faddeeva function of `voigt` other than by its integral, the lmfit classes of `models.py` and `ElementModel`, `model_fit` |
| io | gsas reader and writer, `binary.py`, `save_powder_output.py`, `avizo_io.py` headers, `fit2d.py` | `net_cdf_io.py`; `_amira_data_to_numpy` (never reached) |
| src/ctrans.c | gridder accumulation, its threads, `ccdToQ` | argument parsing through the C API |


## 5. Axioms of each theorem

As printed by `Print Assumptions` beneath each theorem; all are the standard library's.

* Closed under the global context: C01_lag_axis, C01_odd_rejected, C01_positions, C02_rings, C03_accumulators, C03_reported, C03_odd_rejected, C04_resume, C04_resume_values, C05_pairs_are_good, C05_bad_frames_irrelevant, C06_constant_image, C06_uniform_roi_is_one, C06_scaling, C07_compaction, C07_rank_properties, C08_matrix, C08_near_diagonal, C08_too_many_frames, C09_superdiagonal_means, C10_lag_convention, C10_shift_moves_peak_left, C10_masked, C10_autocorrelation_symmetric, C10_bad_shape, C10_lengths, C100_never_loads_refuted, C100_only_blank_headers, C100_endless_memory_refuted, C100_split, C100_metadata, C100_box_before_size, C100_entries, C101_compton_user_refuted, C101_compton_parameters, C101_strategy, C105_rings, C105_succeeds, C105_raises, C105_later_centres_refuted, C105_image_refuted, C107_rows_in_order, C107_first_failure, C107_cleanup_refuted, C107_schedule_free, C107_bounded, C107_no_deadlock, C108_lookup, C108_lookup_energy, C108_iteration, C108_membership_refuted, C108_equality, C108_wrong_class, C108_get, C108_quantities, C11_write_read, C11_write_rejects, C11_read_effects, C11_read_is_pure_refuted, C11_contains_always, C11_iteration, C11_delete, C110_types, C110_bins, C110_rings, C110_average_exact, C110_constant_image_refuted, C110_reference, C110_std, C110_std_refuted, C110_xsvs, C110_xsvs_refuted, C110_xsvs_exact, C113_one_time, C113_resume_refuted, C113_resume_newest, C113_two_time, C113_two_time_kept_refuted, C113_two_time_stale_refuted, C116_shipped, C116_start, C116_isolated, C116_copies_safe, C116_leak_refuted, C116_leak_builtin_refuted, C116_strategy_alias_refuted, C116_set_default, C116_set_default_raises, C118_g2, C118_two_time, C118_xsvs, C118_mean_intensity, C118_normalisation, C118_mean_intensity_refuted, C118_pixel_values, C119_missing_frames, C12_set, C12_delete, C12_iteration, C12_contains, C13_subtract_reference, C14_square, C14_nonsquare_refuted, C14_pixel_sizes, C15_bin_1D, C15_defaults, C15_inverted, C15_default_bins_refuted, C16_rejects, C16_min_max_nbins, C16_min_max_step, C16_min_nbins_step, C16_max_nbins_step, C16_bad_step, C16_negative_step_refuted, C18_terminates, C18_terms, C18_equal_term_refuted, C18_diverges, C19_cells, C19_spec_functional, C19_thread_independent, C19_mask_stack, C19_mask_image, C19_mask_bad, C20_cells_distinct, C22_bins_partition, C22_session, C22_order_independent, C22_rejects, C22_rejects_types, C24_rectangles, C24_wraps, C26_ring_edges, C26_two_lists_rejected, C28_extract, C28_groups, C28_pixel_values, C29_max_counts, C29_mean_intensity, C30_bar, C30_vertical_ignores_values, C30_vertical_values_refuted, C30_box, C30_box_defaults, C31_margin, C31_margin_shape, C31_margin_zero, C32_threshold, C34_statistic_per_cell, C34_uniform_edges, C34_bad_edges_raise, C35_right_edge, C35_near_edge_refuted, C35_beyond_edge, C36_binmap_equal, C36_binmap_differing_refuted, C37_reconstruction_loop, C37_default_average_nan, C37_solution_is_kept, C38_box_support, C38_box_any_radius, C38_too_large_refuted, C39_reduction_whole, C39_reduction_roi, C39_reduction_raises, C40_raster_order, C40_too_many, C40_resume, C40_flags, C40_bad_weighting, C40_amplitude, C43_one_set, C43_weights, C43_distinct_frames_refuted, C43_histogram, C43_brightest_dropped, C43_last_set, C43_mean_of_sets_refuted, C43_normalize, C43_regions, C47_L, C47_M, C47_K, C47_K_refuted, C47_area, C47_user, C47_pileup_area, C47_pileup_ignored, C47_components, C47_user_fresh, C47_pileup_fresh, C48_K, C48_L, C48_M, C48_union, C48_other, C48_L_refuted, C48_K_refuted, C49_unbound, C50_bound, C50_unknown, C50_register, C50_history, C50_hint, C50_builtin, C50_distinct, C51_std_round_trip, C51_decades_exist, C51_std_exact, C51_std_scale_lost, C51_std_overflow_refuted, C52_esd_read_back, C52_fxye_read_back, C52_fxye_angles_lost, C53_save_output, C53_gsas_writer_effects, C53_failed_write_keeps_file_refuted, C53_reader_refuses, C54_read_3d, C54_read_2d, C54_read_1d, C54_nx_respected_refuted, C54_round_trip, C55_value, C55_region_exists, C55_reversed, C55_rejects, C55_constant, C55_overshoot_refuted, C55_spectrum, C55_centres_refuted, C57_refinement, C57_window, C57_two_arrays_refuted, C58_n_largest, C58_n_largest_bad, C58_height, C59_nand, C59_nor, C59_sub, C59_sub_in_place, C59_sub_in_place_refuted, C60_indices, C60_cut, C61_loads, C61_lookup, C61_only, C61_comparisons, C61_equal_same, C62_rings, C62_ring_unique, C62_between, C62_default_limits, C62_all_masked, C62_shape_refuted, C62_negative_threshold_refuted, C63_line_near, C63_line_once, C63_search, C63_default, C63_all_elements_refuted, C64_terms, C64_refused, C64_reproduces, C64_derivatives, C64_derivative_high_order_refuted, C64_ramp, C64_ramp_down_refuted, C64_order_zero, C65_one_level, C65_diluted_refuted, C66_strided_columns_refuted, C66_reads_as_contiguous, C67_uninterleaved_ok, C67_single_thread, C67_garbage_in_result, C67_out_of_bounds, C68_centers_length, C68_centers_midpoint, C68_centers_inside, C68_pairwise, C69_kymograph, C70_bad_to_nan, C70_sizes_refuted, C75_grid, C79_areas_fixed, C79_update, C79_update_all, C79_failed_call, C79_add, C79_lines, C80_sum_area, C80_update, C81_line, C81_family, C82_linear, C82_assemble, C82_assemble_inactive, C82_active, C83_ratio, C83_inactive, C86_inside, C86_near, C86_sorted, C86_trim, C86_negative, C90_std, C90_esd, C90_fxye, C90_fxye_refuted, C93_center_alone, C94_elected, C94_total, C94_single, C94_crossings, C94_majority, C94_cross, C94_scale, C94_dark_rows_refuted, C94_edge_refuted, C94_offset_refuted, C96_one_dimension, C96_two_dimensions, C96_two_edges_refuted, C96_radial, C96_polar, C96_shapes, C96_integer_mask_refuted, C96_integer_radii_refuted, C96_integer_positive, C96_caller_array, C96_second_use_refuted, C97_statistics_1D, C97_defaults, C97_agrees_with_bin_1D, C97_equal_positions_refuted, C97_no_bins, C98_labels, C98_ends, C98_raises, C98_negative_end_refuted, C98_bent_refuted, C99_boolean_mask, C99_integer_mask_refuted, C99_every_mask.
* `Classical_Prop.classic`, `FunctionalExtensionality.functional_extensionality_dep`, `ClassicalDedekindReals.sig_forall_dec`, `ClassicalDedekindReals.sig_not_dec`: C101_shared_parameters, C101_peak, C102_moments, C102_many_modes, C102_formulas_refuted, C103_curve, C103_identified, C103_time_refuted, C106_convolution, C106_area, C106_shape, C106_default, C109_range, C109_constant, C109_error, C109_order_refuted, C111_edges, C111_exact, C111_from_min, C111_from_max, C111_from_ends, C111_refuses, C111_tenths_refuted, C111_no_bin_refuted, C111_repeats_refuted, C112_total, C112_spread, C112_integers, C112_order, C112_equal, C112_equal_refuted, C112_large_refuted, C112_threads_refuted, C114_error, C114_empty, C114_positive, C114_integers, C114_nan, C114_averages, C114_outer_lost_refuted, C114_outer_grown_refuted, C114_double_lost_refuted, C114_infinite_refuted, C115_values, C115_infinite_refuted, C115_averages, C115_g2_error, C115_static, C115_uniform, C115_uniform_refuted, C117_values, C117_near, C117_diagonal, C117_bad_pixel_refuted, C117_error, C117_dark, C117_static, C117_uniform, C117_uniform_refuted, C120_radius, C120_radius_nearest, C120_check, C120_rings_close, C120_rings_exact, C120_rings_nearest, C120_rings_ordered, C120_rings_refuted, C120_check_special, C120_open_ring, C121_range, C121_mean, C121_deviation, C121_equal, C121_nan_refuted, C121_table_range, C121_table, C122_edges, C122_steps, C122_exact, C122_touching, C122_accepted, C122_two_lists, C122_radius_refuted, C122_empty_refuted, C122_drift_refuted, C17_twotheta_roundtrip, C17_q_roundtrip, C17_q_too_large, C20_no_out_of_bounds, C21_negative_max_dropped, C21_small_max_dropped, C21_kept_refuted, C21_exact_range_kept, C23_index_below_nbins_refuted, C23_index_at_most_nbins, C23_subnormal_refuted, C23_exact_in_range, C23_outside, C27_cells, C27_any_segments, C27_offset_collision, C27_offset_background, C27_offset_collision_neg, C27_distinct_labels_refuted, C27_falling_segments, C27_raises, C41_every_pixel, C42_gisaxs_norm, C42_specular, C42_axes_swapped_refuted, C42_atan2, C44_in_bounds, C44_negative_xmax_raises, C44_bounds, C44_monotone, C44_terminates, C44_diverges, C44_passes, C45_lorentzian, C45_gaussian, C45_pvoigt, C45_lorentzian2, C45_lorentzian2_refuted, C56_window, C56_all, C56_no_window_drops_last_refuted, C56_left_border_refuted, C57_border_refuted, C60_angles_back, C60_other_wavelength, C71_gauss_normalised, C74_band_limited, C74_nyquist_refuted, C76_small_ub_refuted, C76_large_ub, C76_memory_safe, C77_step, C77_tail, C77_fraction, C77_tail_unit_refuted, C77_step_slope, C78_elastic, C78_compton, C78_compton_short, C78_calibration, C78_shape, C78_superposition, C87_refine_log_quadratic, C87_short, C89_angle, C89_twotheta, C91_estimate, C91_exact, C91_missing_ring_refuted, C91_unreachable, C91_no_peaks, C92_center, C92_exchanged_refuted, C92_column_error_refuted, C92_centered, C92_dark_sector, C92_ringless, C92_worse_refuted, C95_image, C95_measured, C95_caller_changed, C95_twice_refuted, C95_full_turn_refuted, C95_gap_refuted, C95_default_size, C95_refuses.
* `FunctionalExtensionality.functional_extensionality_dep`, `ClassicalDedekindReals.sig_forall_dec`, `ClassicalDedekindReals.sig_not_dec`: C101_escape, C104_random_phase, C104_start_error, C104_nearest, C106_no_width, C107_default_raises, C107_map, C118_rings, C118_ring_number_refuted, C119_error_bar, C119_zero, C119_bad_frames, C119_standard_error_refuted, C119_scale, C119_unreported, C17_q_d_inverse, C17_monotone, C17_bragg, C25_rings, C33_outlier, C33_own_bin_refuted, C38_disk_support, C41_unit_beams, C41_norm_all_frames, C41_in_plane, C41_ub_roundtrip, C41_hkl_to_q_refuted, C41_hkl_to_q_norm, C46_below, C46_decreasing, C46_increasing_in_energy, C46_formula, C49_rows, C49_fit_scales, C49_residual_unique, C60_from_angles, C60_from_d, C60_all_kept_refuted, C72_modulus_constraint, C72_error_zero, C72_modulus_fft, C73_shrinkwrap, C74_phase_recovered, C74_spectrum, C74_lost_components, C75_cost, C84_weighted, C88_aligned, C89_radial, C89_angle_unique, C92_sectors, C93_image, C93_default_size, C93_left_right_refuted, C93_symmetric, C93_superposition, C95_zero_direction_refuted, C97_rings, C97_mask_true_keeps_refuted, C97_default_bins, C97_default_counts_all, C97_outermost_lost_refuted, C97_one_radius_refuted.
* `FunctionalExtensionality.functional_extensionality_dep`, `ClassicalDedekindReals.sig_forall_dec`: C33_inside_own_bin, C33_edge_bin_below, C33_first_edge_last_bin, C44_smooth_constant, C49_goodness_scales, C49_r_squared_invariant, C49_goodness, C56_solver_exists, C60_sorted, C60_wrong_index, C85_components, C85_duplicate_refuted, C85_reported, C85_area, C87_fit_exact, C87_r2_range, C87_dip_is_a_peak_refuted, C87_refine_quadratic, C87_threshold.
* `ClassicalDedekindReals.sig_forall_dec`: C85_extra.
