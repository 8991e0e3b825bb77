{"id": "C01", "title": "Multi-tau lag axis", "statement": "multi_tau_lags(levels, bufs) rejects an odd number of buffers with ValueError; otherwise the returned lag axis has exactly (levels+1)*bufs/2 entries, starts at 0, is strictly increasing, its first `bufs` entries are 0..bufs-1, every later level contributes bufs/2 lags that are multiples of 2^level, and the per-level dictionary concatenates to the axis.", "quantifier": "every levels >= 1 and every even/odd number of buffers", "why_tests_cant": "tests pin a few (levels, bufs) pairs; monotonicity and length are statements over all of them", "anchors": ["skbeam/core/utils.py:multi_tau_lags", "skbeam/core/correlation.py:_init_state_one_time"]}
{"id": "C02", "title": "Multi-tau coarse graining", "statement": "In the one-time multi-tau correlator, after any number of frames the newest entry of every level's buffer ring holds the mean of 2^level consecutive input frames, aligned to multiples of 2^level, and the entry i steps back in the ring holds the block i blocks earlier; no slot is overwritten while it is still needed for a lag of that level.", "quantifier": "every even number of buffers, number of levels, frame sequence and frame count", "why_tests_cant": "the ring wraps only after many frames and each level runs at a different rate; tests only sample short runs", "anchors": ["skbeam/core/correlation.py:lazy_one_time", "skbeam/core/correlation.py:_one_time_process"]}
{"id": "C03", "title": "Multi-tau correlation value", "statement": "For every frame sequence without bad frames, the (G, past_intensity, future_intensity) accumulators reported by lazy_one_time at each lag index equal, per ROI, the arithmetic mean over all pairs of level-blocks separated by that lag of the ROI-averaged product, delayed intensity, and current intensity; unreached lags are zero.", "quantifier": "every frame sequence, ROI labelling, even number of buffers, and number of levels", "why_tests_cant": "the incremental running mean touches every earlier frame; correctness of the closed form is for all histories", "anchors": ["skbeam/core/correlation.py:_one_time_process", "skbeam/core/correlation.py:lazy_one_time"]}
{"id": "C04", "title": "One-time correlator resumption", "statement": "Splitting an image sequence at any point, and feeding the second part with the internal state yielded by the first, yields exactly the same results and state as one run over the concatenated sequence.", "quantifier": "every split point of every frame sequence", "why_tests_cant": "any split point relative to every level's phase must be checked", "anchors": ["skbeam/core/correlation.py:lazy_one_time", "skbeam/core/correlation.py:multi_tau_auto_corr"]}
{"id": "C05", "title": "Bad frames in the one-time correlator", "statement": "Frames listed as bad (NaN pixels) never contribute to G, past or future intensity: each lag's value equals the mean over exactly those block pairs where both blocks are free of bad frames.", "quantifier": "every frame sequence and every pattern of bad frames", "why_tests_cant": "the skip counters interact with lag, level and frame index; only a handful of patterns can be tested", "anchors": ["skbeam/core/correlation.py:_one_time_process", "skbeam/core/mask.py:bad_to_nan_gen"]}
{"id": "C06", "title": "g2 of a constant signal", "statement": "For a time-constant image with positive ROI pixels the returned g2 at every reported lag equals, per ROI, the ROI mean of I^2 divided by the squared ROI mean of I (hence exactly 1 when the image is uniform inside the ROI), and a lag i*2^l is reported exactly when (i+1)*2^l frames have been seen; scaling all intensities of any frame sequence by a nonzero constant leaves the reported g2 and lags unchanged.", "quantifier": "every positive time-constant image, every frame sequence for the scaling law, number of frames, levels, buffers, scale factor", "why_tests_cant": "needs all frame counts and truncation positions", "anchors": ["skbeam/core/correlation.py:lazy_one_time"]}
{"id": "C07", "title": "Label compaction", "statement": "The correlators accept arbitrary positive ROI labels: labels are renumbered to 1..k preserving ascending order and the partition of pixels into ROIs (two pixels share a new label iff they shared an old one), background stays excluded, and per-ROI results come out in ascending order of the original labels.", "quantifier": "every label array", "why_tests_cant": "in-place relabelling can collide with not-yet-processed labels; absence of collisions is for all label sets", "anchors": ["skbeam/core/correlation.py:_validate_and_transform_inputs", "skbeam/core/roi.py:extract_label_indices"]}
{"id": "C08", "title": "Two-time correlation matrix", "statement": "For every frame sequence no longer than num_frames, lazy_two_time writes only inside the num_frames x num_frames array; each entry (t1,t2) whose lag is below the number of buffers equals <I(t1)I(t2)>/(<I(t1)><I(t2)>) per ROI, and the reported matrix is symmetric.", "quantifier": "every frame sequence, ROI labelling, levels and buffers", "why_tests_cant": "index arithmetic over ring buffers and levels; tests use one or two sequences", "anchors": ["skbeam/core/correlation.py:lazy_two_time", "skbeam/core/correlation.py:_two_time_process", "skbeam/core/correlation.py:two_time_state_to_results"]}
{"id": "C09", "title": "One-time from two-time", "statement": "one_time_from_two_time returns, per ROI and lag j, the mean of the j-th superdiagonal of the two-time matrix (ignoring NaNs), for j = 0..n-1.", "quantifier": "every square matrix stack of any size", "why_tests_cant": "all sizes and NaN patterns", "anchors": ["skbeam/core/correlation.py:one_time_from_two_time"]}
{"id": "C10", "title": "Cross-correlator lag convention", "statement": "The value returned by the 1-D cross-correlator at centred lag d is the sum over positions m of img1[m]*img2[m-d] over the overlap, so autocorrelation is symmetric about the centre; consequently shifting the second image to the right by s moves the peak to the LEFT by s, contrary to the docstring. Inputs of different lengths, or not of the length of the mask, raise.", "quantifier": "every pair of 1-D signals of every length", "why_tests_cant": "FFT shift/centre conventions differ for odd and even lengths", "anchors": ["skbeam/core/correlation.py:CrossCorrelator", "skbeam/core/correlation.py:_cross_corr"]}
{"id": "C11", "title": "Dotted metadata dictionary", "statement": "For MD_dict, writing a dotted key then reading it returns the written value and leaves keys that are not path-related unchanged; but reading is not pure: reading a missing dotted key creates branches, and reading below an existing leaf silently destroys that leaf, and `key in md` is true for every key.", "quantifier": "every dictionary state and every dotted key", "why_tests_cant": "needs arbitrary operation histories", "anchors": ["skbeam/core/utils.py:MD_dict", "skbeam/core/utils.py:_iter_helper"]}
{"id": "C12", "title": "RC parameter dictionary", "statement": "RCParamDict behaves as a finite map from dotted paths to values: get after set returns the value, set/delete leave path-unrelated keys unchanged, iteration enumerates exactly the stored leaf paths without repetition, len counts them, deleting makes a later get raise KeyError, and setting below an existing leaf raises KeyError without changing anything.", "quantifier": "every operation sequence over arbitrary dotted keys", "why_tests_cant": "operation histories are unbounded", "anchors": ["skbeam/core/utils.py:RCParamDict"]}
{"id": "C13", "title": "Reference image subtraction", "statement": "subtract_reference_images returns one image per non-reference input in order, each being that image minus the most recent preceding reference; it raises ValueError iff the first image is not a reference.", "quantifier": "every sequence of images and every is_reference pattern starting with anything", "why_tests_cant": "all interleavings of reference and measurement", "anchors": ["skbeam/core/utils.py:subtract_reference_images"]}
{"id": "C14", "title": "Relative pixel coordinates", "statement": "img_to_relative_xyi pairs each intensity with the offset of its own pixel (column-cx, row-cy, times pixel size) for square images of every size; for every non-square non-empty image some intensity is paired with the wrong pixel offset.", "quantifier": "every image shape, centre and pixel size", "why_tests_cant": "tests use specific shapes only", "anchors": ["skbeam/core/utils.py:img_to_relative_xyi"]}
{"id": "C15", "title": "1-D binning", "statement": "bin_1D with at least one bin and an ordered range puts every sample inside [min_x,max_x] into exactly one bin (the last bin closed on the right), samples outside into none, and the per-bin sums and counts add up to the sums and counts over the in-range samples; an inverted range is an error; with the default number of bins, data spanning less than one unit gets no bin at all and every sample is silently dropped.", "quantifier": "every sample list, number of bins and range", "why_tests_cant": "needs all samples including ones on edges", "anchors": ["skbeam/core/utils.py:bin_1D"]}
{"id": "C16", "title": "Bin edges from three of four parameters", "statement": "bin_edges accepts only combinations with three of (range_min, range_max, nbins, step), rejects inverted ranges, a non-positive nbins and a step larger than the range, and for a positive step otherwise returns an increasing grid with uniform spacing, pinned to the given end(s), never exceeding the given other end and stopping less than one step short of it; a non-positive step with both ends given raises an exception other than ValueError, but with one end missing it is accepted and yields edges outside the documented range.", "quantifier": "every combination of present/absent arguments and values", "why_tests_cant": "case explosion with real-valued arguments", "anchors": ["skbeam/core/utils.py:bin_edges"]}
{"id": "C17", "title": "q / d / 2theta conversions", "statement": "q_to_d and d_to_q are mutually inverse on non-zero values; twotheta_to_q and q_to_twotheta are mutually inverse for wavelength>0, 0<=2theta<=pi and |q| <= 4pi/wavelength; twotheta_to_q is strictly increasing there.", "quantifier": "every real q, d, angle and positive wavelength", "why_tests_cant": "continuum of inputs", "anchors": ["skbeam/core/utils.py:q_to_d", "skbeam/core/utils.py:d_to_q", "skbeam/core/utils.py:q_to_twotheta", "skbeam/core/utils.py:twotheta_to_q"]}
{"id": "C18", "title": "Geometric series", "statement": "geometric_series(r, n, a) with r>1 and a>0 terminates and returns exactly a followed by all a*r^k strictly below n in order (so a term equal to n is NOT included although the documentation allows it); with 0<=r<=1, a>0 and a*r<n it never terminates.", "quantifier": "every rational a, r, n", "why_tests_cant": "non-termination cannot be tested", "anchors": ["skbeam/core/utils.py:geometric_series"]}
{"id": "C19", "title": "3-D gridding arithmetic", "statement": "grid3d assigns each point whose fractional position is in [0,1) on all axes to the cell floor(pos*n) and reports per cell the count, total, mean (NaN if empty) and standard error over exactly the non-NaN intensities of those points; the result does not depend on how the points are partitioned over threads, given that each thread starts from cleared arrays (see C67); a mask shaped like the stack or like one image keeps exactly the marked rows and any other mask is an error.", "quantifier": "every point list, grid, and partition of points into thread chunks", "why_tests_cant": "thread schedules and partitions", "anchors": ["src/ctrans.c:c_grid3d", "skbeam/core/utils.py:grid3d"]}
{"id": "C20", "title": "3-D gridding memory safety in floating point", "statement": "In IEEE double arithmetic, a fractional position accepted by the gridder's 0 <= pos < 1 test always yields a cell index strictly below the number of cells, so the gridder never writes out of bounds.", "quantifier": "every double position and every grid dimension up to 2^53", "why_tests_cant": "2^64 positions times all dimensions", "anchors": ["src/ctrans.c:c_grid3d"]}
{"id": "C21", "title": "Default grid bounds lose the extreme point", "statement": "grid3d pads the default upper bound by np.spacing(max) to keep all points in bounds; this fails: the maximal point of an axis is dropped for every negative maximum, and for every maximum whose spacing is lost in the subtraction max - min (including positive ranges, by ties); it is kept when min >= 0 and the width is computed exactly.", "quantifier": "finite double-precision point sets", "why_tests_cant": "existential over doubles; tests with positive ranges never hit it", "anchors": ["skbeam/core/utils.py:grid3d", "src/ctrans.c:c_grid3d"]}
{"id": "C22", "title": "Histogram accumulation", "statement": "Histogram.fill with one or several axes adds to each bin exactly the weights of the points falling into that bin ([low,high) split uniformly), ignores points outside, is independent of the order of points and of splitting into several fill calls, and reset returns all bins to zero. Two coordinate arrays of different element types, or with three or more axes one that is neither integer nor float, are rejected.", "quantifier": "every sequence of fill/reset calls with arbitrary points and weights", "why_tests_cant": "operation histories and orders", "anchors": ["skbeam/core/accumulators/histogram.pyx"]}
{"id": "C23", "title": "Histogram index in floating point", "statement": "In IEEE double arithmetic a coordinate accepted by the histogram's low <= x < high test can round to the index nbins, one past the last bin (so the fill raises or writes past the array); it can never exceed nbins unless the bin width is subnormal, when it can; with exactly computed width and quotient it is below nbins. Points outside the bounds fall in no bin.", "quantifier": "all doubles low<high and positive bin counts", "why_tests_cant": "rounding corner cases are unreachable by sampling", "anchors": ["skbeam/core/accumulators/histogram.pyx:find_indices"]}
{"id": "C24", "title": "Rectangular ROIs", "statement": "roi.rectangles: for rectangles none of which ends before the image, ValueError is raised iff two of them share an image pixel, and otherwise pixel (i,j) carries k+1 iff it lies in the k-th rectangle (x, y, width, height), where x and width address axis 0, and 0 iff in none. A rectangle that ends less than one image height before the first row labels pixels that it does not contain.", "quantifier": "every list of rectangles and every image shape", "why_tests_cant": "clipping corner cases: every position relative to the image", "anchors": ["skbeam/core/roi.py:rectangles"]}
{"id": "C25", "title": "Ring ROIs", "statement": "roi.rings labels a pixel with k+1 iff its distance from the center lies in the half-open k-th ring, and with 0 iff in none, for every even-length non-decreasing edge list (negative edges included); odd-length or decreasing edge lists raise ValueError.", "quantifier": "every list of ring edges and every radius grid", "why_tests_cant": "all edges and radii including ties", "anchors": ["skbeam/core/roi.py:rings", "skbeam/core/roi.py:_make_roi"]}
{"id": "C26", "title": "Ring edge construction", "statement": "roi.ring_edges(inner_radius, width, spacing, num_rings) with at most one of width and spacing a list and consistent lengths yields exactly the requested number of (inner, outer) pairs, each of the requested width and separated by the requested spacing (a list of integer spacings also cuts the fraction off the inner radius, C122); a call with lists for both (the documented example with n widths and n-1 spacings included) always raises.", "quantifier": "every scalar/list combination of widths and spacings", "why_tests_cant": "argument-form explosion", "anchors": ["skbeam/core/roi.py:ring_edges"]}
{"id": "C27", "title": "Segmented ring labels", "statement": "roi.segmented_rings with N equal segments and no offset gives a pixel the label m*N+k+1 iff it lies in ring m and sector k, and 0 iff it lies in no ring. With any non-decreasing segment edges, a pixel of ring m before the first edge gets the last label of ring m-1 (background for m=0), and one at or beyond the last edge gets the first label of ring m+1; so with a non-zero offset (or segments that do not span the circle) pixels of different rings share labels. Falling segment edges are accepted too and count the sectors from above; edges that neither rise nor fall raise.", "quantifier": "every ring, segment edge list, offset and pixel angle", "why_tests_cant": "continuum of angles and offsets", "anchors": ["skbeam/core/roi.py:segmented_rings"]}
{"id": "C28", "title": "Label index extraction", "statement": "extract_label_indices returns the positive labels in raster order with the raster index of each such pixel, so that taking the flattened image at those indices and grouping by label yields exactly each ROI's pixels; roi_pixel_values lists, for each requested label (default 1..max), exactly the pixels carrying it in raster order.", "quantifier": "every 2-D label array", "why_tests_cant": "all label arrays", "anchors": ["skbeam/core/roi.py:extract_label_indices", "skbeam/core/roi.py:roi_pixel_values"]}
{"id": "C29", "title": "ROI statistics", "statement": "roi_max_counts equals the maximum over all images of the pixels with positive label, clipped below at zero; mean_intensity returns the per-label mean of every image for the non-zero labels in ascending order, and raises when the label array has no background pixel; with an index list it returns the means of those labels, NaN for absent ones.", "quantifier": "every image stack and label array", "why_tests_cant": "all images and labels", "anchors": ["skbeam/core/roi.py:roi_max_counts", "skbeam/core/roi.py:mean_intensity"]}
{"id": "C30", "title": "Bar and box ROIs", "statement": "roi.bar rejects odd-length or decreasing edges and otherwise labels each pixel with the number of the half-open interval containing its own row/column value; with horizontal=False user supplied values are ignored. roi.box (non-negative range ends) gives a pixel in the a-th horizontal and b-th vertical range the label a*(number of vertical ranges)+b+1, and 0 otherwise. The vertical ranges serve for both directions if no others are given. Coordinate arrays given to box (documented to select pixels by coordinate, as for GISAXS) are not looked at: only their shape counts, and different shapes raise.", "quantifier": "every shape, edge list and user value array", "why_tests_cant": "all edge lists", "anchors": ["skbeam/core/roi.py:bar", "skbeam/core/roi.py:box"]}
{"id": "C31", "title": "Margin mask", "statement": "mask.margin(shape, e) keeps exactly the pixels at distance at least e from every edge for e>0; for e=0 every pixel is masked.", "quantifier": "every image shape and edge size", "why_tests_cant": "negative slice bounds at all sizes", "anchors": ["skbeam/core/mask.py:margin"]}
{"id": "C32", "title": "Threshold mask accumulation", "statement": "mask.threshold yields the same array object every time (the caller's mask if given, which is modified in place); at the k-th yield a pixel is 0 iff one of the first k images is >= threshold there, else its initial value; a list of the yielded masks shows the final mask in every position.", "quantifier": "every image sequence, threshold and initial mask", "why_tests_cant": "aliasing depends on consumption schedule", "anchors": ["skbeam/core/mask.py:threshold"]}
{"id": "C33", "title": "Radial outlier mask", "statement": "mask.binned_outlier keeps a pixel iff it was unmasked and lies strictly within alpha standard deviations of the mean of the bin it is compared with: its own bin when r is strictly inside a bin, the bin below when r equals an inner edge, and the last bin when r equals the first edge; so a pixel on an edge may be masked although it is within the limits of the bin it was averaged into.", "quantifier": "every radius grid, bins and alpha", "why_tests_cant": "measure-zero edges", "anchors": ["skbeam/core/mask.py:binned_outlier"]}
{"id": "C34", "title": "N-dimensional binned statistics layout", "statement": "BinnedStatisticDD returns, at every multi-index and for every ordering of axis sizes, the requested statistic (mean, std, count, sum, median or callable) over exactly the unmasked samples whose bin along every axis equals that index (the internal sorting of axes is invisible), for strictly increasing edges and samples not within 10^-5 bin widths of, but off, a right edge. n bins over [lo, hi] are n equal steps; edges that do not strictly increase raise.", "quantifier": "every number of dimensions, bin counts and samples", "why_tests_cant": "axis permutation bugs appear only for particular size orderings", "anchors": ["skbeam/core/accumulators/binned_statistic.py:BinnedStatisticDD"]}
{"id": "C35", "title": "Binned statistics right edge", "statement": "BinnedStatisticDD puts samples on the rightmost edge in the last bin; but it also moves samples strictly inside the last bin, within rounding of the right edge, to the second-to-last bin, and counts samples slightly beyond the edge in the last bin.", "quantifier": "all sample values", "why_tests_cant": "needs a sample within 10^-6 of the edge", "anchors": ["skbeam/core/accumulators/binned_statistic.py:BinnedStatisticDD"]}
{"id": "C36", "title": "Per-sample bin map", "statement": "BinnedStatisticDD.binmap recovers each sample's bin along every axis when all axes have the same number of bins; it returns wrong coordinates for some samples when bin counts differ.", "quantifier": "every list of bin counts and samples", "why_tests_cant": "existing tests use equal bin counts", "anchors": ["skbeam/core/accumulators/binned_statistic.py:BinnedStatisticDD.binmap"]}
{"id": "C37", "title": "CDI bookkeeping", "statement": "cdi_recon: every iteration applies the difference map with the support in force; it invokes the callback after every iteration if n_iterations is a multiple of cb_step and never otherwise (not every cb_step iterations); the returned object is the mean of the iterates with n > start_avg*n_iterations, a 0/0 (NaN) exactly for n_iterations<=5 with the default start_avg; sup_error at a refinement is the size of the support of the refinement before (0 at the first and at iterations without refinement); an object satisfying both constraints is kept; the caller's sample_obj is overwritten with the last iterate.", "quantifier": "every n_iterations, cb_step, start_avg", "why_tests_cant": "all iteration counts", "anchors": ["skbeam/core/cdi.py:cdi_recon"]}
{"id": "C38", "title": "CDI box support", "statement": "generate_box_support marks exactly the centred box of half-width sup_radius when it fits into the array in every dimension; on an axis with sup_radius greater than half its size (and less than one and a half) the lowest pixels, which the box contains, are not marked. generate_disk_support marks exactly the pixels nearer to the centre than sup_radius.", "quantifier": "every shape and radius", "why_tests_cant": "negative slice start corner cases", "anchors": ["skbeam/core/cdi.py:generate_box_support"]}
{"id": "C39", "title": "DPC image reduction", "statement": "dpc.image_reduction never modifies its input, sets bad pixels to zero, restricts to the roi (clipped to the image), and returns column and row sums whose totals agree with the sum over the retained pixels; it raises exactly if a bad pixel lies outside the image or roi is an ndarray (which the documentation asks for).", "quantifier": "every image, roi and bad pixel list", "why_tests_cant": "all images", "anchors": ["skbeam/core/dpc.py:image_reduction"]}
{"id": "C40", "title": "DPC scan bookkeeping", "statement": "lazy_dpc fills exactly one cell per diffraction pattern in raster order, raises for a pattern too many, and resuming from a yielded state (with any ref) equals an uninterrupted run; reconstruct_phase_from_partial_info scales exactly when pixel_size and focus_to_det are given and non-zero, ignores `scale`, and fails if neither negate nor pixel scaling applies or the weighting is outside [0, 1]; the amplitude returned is the mean of the two amplitude maps.", "quantifier": "every number of frames, split point and flag combination", "why_tests_cant": "all splits and flag combinations", "anchors": ["skbeam/core/dpc.py:lazy_dpc", "skbeam/core/dpc.py:reconstruct_phase_from_partial_info"]}
{"id": "C41", "title": "Reciprocal-space kinematics", "statement": "process_to_q gives every pixel q = k(kf-ki) with unit beam directions (Ewald sphere), stored image by image and row by row; |q| is the same in the theta, phi and cart frames and independent of chi and phi; the cart frame equals the phi frame; UB times hkl gives q back. hkl_to_q applied to an hkl array is not |q| unless UB preserves lengths.", "quantifier": "every angle, pixel and energy", "why_tests_cant": "continuum", "anchors": ["src/ctrans.c:calcQTheta", "src/ctrans.c:calcQPhiFromQTheta", "src/ctrans.c:processImages", "skbeam/core/recip.py:process_to_q"]}
{"id": "C42", "title": "GISAXS geometry", "statement": "recip.gisaxs: qr >= 0, qr^2 = qx^2+qy^2; q is k times the difference of two unit vectors whatever the tilt, so |q| <= 2k; the specular beam of an untilted sample has q=(0,0,2k sin alpha_i). The first number of detector_size (documented as the x direction) is the number of rows.", "quantifier": "every geometry", "why_tests_cant": "continuum", "anchors": ["skbeam/core/recip.py:gisaxs"]}
{"id": "C43", "title": "XSVS integration levels", "statement": "speckle.xsvs documents that level i integrates 2^i frames. Every level is in fact processed at every frame: for one image set the level-l result is the mean, over the frames at which none of the last l+1 images is bad, of the histogram of the sum of the last l+1 images with binomial weights (total 2^l whatever timebin_num is). Histogram bin b holds the fraction of pixels with exactly b counts among those below max_cts*2^l (last bin two values), so with the default max_cts the brightest pixels are dropped. Several image sets are not averaged: each image of set number i multiplies the earlier sets' influence by i/(i+1). normalize_bin_edges divides edge k by mean*2^i and returns midpoints as centres.", "quantifier": "every number of levels, timebin_num >= 2, label array, sequence of good and bad images and list of image sets", "why_tests_cant": "tests only check a precomputed table", "anchors": ["skbeam/core/speckle.py:xsvs", "skbeam/core/speckle.py:_process"]}
{"id": "C44", "title": "SNIP background", "statement": "snip_method with xmax >= 0 never reads outside the spectrum (with xmax below minus its length it raises IndexError); channel by channel the background lies between the smallest value of the smoothed spectrum and the smoothed spectrum; a pointwise larger spectrum never gives a smaller background; the width loop terminates for decrease_factor>1 and width_threshold>0 and never terminates for 0<decrease_factor<=1 once a window reaches the threshold. The result is the box average (3 channels, 5 with binning, or con_val) taken through ln(ln(x+1)+1), lowered channel by channel to the mean of its two window ends in iter_num passes with the full window width * FWHM(energy) / e_lin (halved with binning) and then in passes with windows shrunk by decrease_factor while any reaches the threshold, and taken back.", "quantifier": "every non-negative spectrum, calibration, width, threshold, binning and decrease factor", "why_tests_cant": "all spectra; non-termination", "anchors": ["skbeam/core/fitting/background.py:snip_method"]}
{"id": "C45", "title": "Peak area normalisation", "statement": "The integral over the real line of gaussian, lorentzian and pvoigt equals `area` for every width > 0; that of lorentzian2 equals area/2, contradicting its docstring.", "quantifier": "every area, centre and positive width", "why_tests_cant": "improper integral over all parameters", "anchors": ["skbeam/core/fitting/lineshapes.py:lorentzian", "skbeam/core/fitting/lineshapes.py:lorentzian2", "skbeam/core/fitting/lineshapes.py:gaussian", "skbeam/core/fitting/lineshapes.py:pvoigt"]}
{"id": "C46", "title": "Compton peak position", "statement": "The Compton peak energy never exceeds the incident energy, and equals it only for forward scattering; it decreases with the scattering angle on [0, 180] degrees.", "quantifier": "every positive energy and angle", "why_tests_cant": "continuum", "anchors": ["skbeam/core/fitting/lineshapes.py:compton"]}
{"id": "C47", "title": "XRF parameter names", "statement": "For L and M families and for user peaks the fit controller adds position, width and ratio parameters under exactly the names the spectrum builder looks up, and the component takes its value and vary flag from them; the area parameter is that of the first line. For K families kb2..kb5 are built but get no parameters. For pile-up peaks only the area is found: the other three names miss an underscore and whatever is stored under them changes nothing. A family is built of one component per excited line, with the energy of the line, its ratio to the first line and its area tied to the area of the first line; K-alpha-2 follows K-alpha-1; every hint is the default overlaid by the parameter of its name. A user peak or pile-up peak without entries in the parameter dictionary starts at 5 keV or at the sum of the two line energies, with a free non-negative area and everything else fixed.", "quantifier": "every element, family, parameter kind, cross-section table and incident energy", "why_tests_cant": "string-level agreement over all names", "anchors": ["skbeam/core/fitting/xrf_model.py:ParamController.add_param", "skbeam/core/fitting/xrf_model.py:ModelSpectrum.setup_element_model"]}
{"id": "C48", "title": "Activated emission lines", "statement": "get_activated_lines returns for a K family exactly the excited lines among ka1,ka2,ka3,kb1 (omitting excited kb2..kb5), for an L family exactly the excited L lines plus any excited kb2..kb5, for an M family exactly the excited M lines, in each case nothing unless the first line is excited; other names contribute nothing.", "quantifier": "every cross-section table and incident energy", "why_tests_cant": "depends on tables and energy", "anchors": ["skbeam/core/fitting/xrf_model.py:_get_activated_line"]}
{"id": "C49", "title": "NNLS row fitting defaults", "statement": "fit_per_line_nnls fails with an unbound variable for every non-empty row when use_snip is False (the default of the multiprocess wrapper), and the goodness-of-fit it reports is not scale invariant.", "quantifier": "every data row", "why_tests_cant": "default path is not covered by tests", "anchors": ["skbeam/core/fitting/xrf_model.py:fit_per_line_nnls"]}
{"id": "C50", "title": "Strategy bounds", "statement": "set_parameter_bound gives every parameter except non_fitting_values the bound of the named strategy, else the extra configuration, else 'fixed', and changes nothing else; register_strategy without overwrite never replaces an existing different strategy. Each built-in strategy frees the two amplitudes and a fixed list of further parameters within their limits and fixes everything else. The built-in strategies are different objects, so none can be registered under the name of another without overwrite.", "quantifier": "every parameter dictionary and registry state", "why_tests_cant": "operation histories", "anchors": ["skbeam/core/fitting/xrf_model.py:set_parameter_bound", "skbeam/core/fitting/xrf_model.py:register_strategy"]}
{"id": "C51", "title": "GSAS STD round trip", "statement": "Writing a pattern in GSAS STD mode and reading the file back returns the same number of points. Each intensity comes back as the nearest integer to intensity / 10^k, negative ones as 0, with k the least power bringing the maximum to at most 999999; integers in [0, 999999] come back exactly, above 999999 the scale is not undone. The third column is 1/intensity or 0. The angles come back as the evenly spaced grid from first to last angle within (1+i)/(2*10^7) degrees. Below -99999 (scaled) a field overflows and later points are wrong.", "quantifier": "every list of at least two intensities, one of them non-negative, every angle list, file name with a stem, directory and file system", "why_tests_cant": "fixed-width formatting must be checked for every value and length", "anchors": ["skbeam/io/save_powder_output.py:gsas_writer", "skbeam/io/gsas_file_reader.py:_get_std_data"]}
{"id": "C52", "title": "GSAS ESD round trip", "statement": "In GSAS ESD mode the reader returns the written points followed by 0 to 4 zero points up to a multiple of 5; intensities are not scaled but errors are, and errors come back as 1/err^2. In FXYE mode the angles, intensities and errors come back divided by 10^k to ten decimals, so when the maximum exceeds 999999 every angle of at least one degree comes back less than a fifth of itself; errors come back as 1/err^2.", "quantifier": "every list length, values whose fields do not overflow", "why_tests_cant": "tests use convenient lengths", "anchors": ["skbeam/io/save_powder_output.py:gsas_writer", "skbeam/io/gsas_file_reader.py:_get_esd_data", "skbeam/io/gsas_file_reader.py:_get_fxye_data"]}
{"id": "C53", "title": "Powder writers and existing files", "statement": "save_output either raises and leaves every file as it was or replaces exactly the output file. gsas_writer changes no other file; with mismatched lengths or a missing directory it leaves the output file alone, but an unknown mode, an error column without a mode, no points or only negative intensities delete an existing output file before raising. Files without a stem before .gsas can be written but not read.", "quantifier": "every input and file-system state", "why_tests_cant": "file-system state times invalid arguments", "anchors": ["skbeam/io/save_powder_output.py:save_output", "skbeam/io/save_powder_output.py:gsas_writer", "skbeam/io/save_powder_output.py:_create_file_path"]}
{"id": "C54", "title": "Raw binary reader", "statement": "read_binary with nz>1 returns element (i,j,k) = raw element (i*ny+j)*nz+k after the header and silently zero-fills or truncates when the file size does not match; likewise for nz=1<ny; with ny=nz=1 the data is returned whole regardless of nx.", "quantifier": "every byte length, shape and header size", "why_tests_cant": "all sizes", "anchors": ["skbeam/io/binary.py:read_binary"]}
{"id": "C55", "title": "ROI spectrum integration", "statement": "integrate_ROI returns the sum over the regions of the integration rule applied to the samples from the first one at or above x_min to the first one at or above x_max, so a limit between samples is moved up (a constant spectrum integrates to too much). It returns a number only for strictly monotone x of at least two samples and ordered limits inside the range, and reversing the spectrum never changes the outcome. integrate_ROI_spectrum places bins at their right edges although centres are documented.", "quantifier": "every spectrum and limits", "why_tests_cant": "all spectra and limits", "anchors": ["skbeam/core/spectroscopy.py:integrate_ROI_spectrum", "skbeam/core/spectroscopy.py:integrate_ROI"]}
{"id": "C56", "title": "Largest peak window", "statement": "find_largest_peak returns exactly centre, height and width of Gaussian samples when the window around the maximum, clipped on the right, does not reach over the left border and holds three distinct positions. A maximum nearer to the left border than the window makes the call raise. Without a window the last data point is left out, so three points are not enough.", "quantifier": "every spectrum and window", "why_tests_cant": "boundary positions", "anchors": ["skbeam/core/spectroscopy.py:find_largest_peak"]}
{"id": "C57", "title": "Peak refinement", "statement": "peak_refinement gives the refine function exactly the samples at most `window` away from each candidate, returns the results of exactly the candidates that were not rejected, in order, and raises exactly when the refine function raises something other than a rejection. With no survivor it returns one empty tuple instead of two arrays. With the package's refiners and window 1 a candidate at position 0 makes the whole call raise.", "quantifier": "every data set, refine function, window >= 0 and list of candidate positions inside the data", "why_tests_cant": "all candidates near borders", "anchors": ["skbeam/core/feature.py:peak_refinement", "skbeam/core/feature.py:refine_quadratic"]}
{"id": "C58", "title": "Peak filters", "statement": "filter_n_largest returns min(N, number of candidates) candidates in order of falling height, each at least as high as every dropped one, and refuses N <= 0; filter_peak_height keeps, in order, exactly the candidates with two samples within `window` whose difference exceeds the threshold.", "quantifier": "every data set, candidate positions inside the data, and every sorting routine", "why_tests_cant": "ties and sizes", "anchors": ["skbeam/core/feature.py:filter_n_largest", "skbeam/core/feature.py:filter_peak_height"]}
{"id": "C59", "title": "Extended logical operations", "statement": "logical_nand, logical_nor and logical_sub compute the pointwise connectives, also when `out` aliases an input, except that logical_sub with `out` aliasing its first operand computes NAND instead of the difference.", "quantifier": "every pair of arrays and every aliasing", "why_tests_cant": "aliasing patterns", "anchors": ["skbeam/core/arithmetic.py"]}
{"id": "C60", "title": "Powder standards", "statement": "A PowderStandard holds its reflections sorted by q, reflections of equal q in their given order, each with its own d, hkl and q; construction raises exactly when some hkl is not a triple. convert_2theta at the construction wavelength returns the sorted construction angles, and at any other wavelength that reaches the reflection the angle satisfies Bragg's law. from_d keeps the spacings, largest first, with q*d = 2 pi. With fewer hkl labels than angles or spacings the rest is dropped silently. Miller indices that are not whole are cut towards zero.", "quantifier": "every list of angles in (0, pi], spacings, labels and wavelength", "why_tests_cant": "continuum and permutations", "anchors": ["skbeam/core/constants/xrs.py:PowderStandard"]}
{"id": "C61", "title": "Element ordering and lookup", "statement": "The table loads with elements 1 to 103 of the data file. Looking up by atomic number, symbol (any case) or name (any case) gives the same element, and any other key gives KeyError. All six comparisons of elements are those of their atomic numbers, and equal elements of the table are identical.", "quantifier": "every pair of elements and every spelling", "why_tests_cant": "case variants", "anchors": ["skbeam/core/constants/basic.py:BasicElement", "skbeam/core/constants/basic.py:read_atomic_constants"]}
{"id": "C62", "title": "Circular average", "statement": "roi.circular_average returns, in order, for exactly the rings with more pixels than a threshold >= 0 the midpoint of the ring and the mean over exactly the selected pixels in it, never dividing by zero, and no mean leaves the range of the pixels used. Default limits are the smallest and largest selected radius; with nothing selected the call raises. The documented shape (nx,) does not hold, and a negative threshold returns nan for empty rings.", "quantifier": "every image, mask, radii, positive bin count and ordered limits", "why_tests_cant": "all images", "anchors": ["skbeam/core/roi.py:circular_average"]}
{"id": "C63", "title": "Emission line search", "statement": "emission_line_search returns exactly the (element, line) pairs with non-zero cross section at the incident energy and line energy within delta_e (open interval) of the target; elements without such a line are absent, and an unknown element in the list raises. Without a list only elements 1 to 100 of the 103 known ones are searched.", "quantifier": "every table of energies and cross sections, energy and element list", "why_tests_cant": "depends on tables", "anchors": ["skbeam/core/constants/xrf.py:emission_line_search", "skbeam/core/constants/xrf.py:XrfElement.line_near"]}
{"id": "C64", "title": "Savitzky-Golay window", "statement": "smoothing.sgolay2d raises ValueError exactly for even windows, windows of 1 or less and windows with fewer pixels than monomials of total degree <= order, and lists each such monomial once. With any generalised inverse of the design matrix it returns the value of any polynomial of that degree seen through the window, and for 1 <= order < window its exact first derivatives ('col' along axis 0, 'row' along axis 1); a higher accepted order can give wrong derivatives. Affine images that do not decrease along either axis come back unchanged up to the borders, decreasing ones do not. A derivative with order 0 is an IndexError.", "quantifier": "every window, order, polynomial, image with more than window/2 rows and columns, and generalised inverse", "why_tests_cant": "all polynomials", "anchors": ["skbeam/core/smoothing.py:sgolay2d"]}
{"id": "C65", "title": "One-time correlation derived from a two-time result", "statement": "Feeding the matrix of two_time_corr (one level, as many images as num_frames) to one_time_from_two_time gives, for every lag below num_bufs, the mean of <I(t)I(t+lag)>/(<I(t)><I(t+lag)>) over all t, and 0 for every longer lag; with more than one level the property fails: never-computed zero cells enter the mean, so even a constant image series can be reported with a value other than 1 at a computed lag.", "quantifier": "all even num_bufs, label arrays, image series; the failing case is existential", "why_tests_cant": "tests compare the two functions only with num_bufs equal to the number of frames", "anchors": ["skbeam/core/correlation.py:two_time_corr", "skbeam/core/correlation.py:one_time_from_two_time"]}
{"id": "C66", "title": "Histogram of three or more axes ignores strides", "statement": "Histogram.fill with three or more coordinate arrays reads each array as if it were contiguous: passing the columns of an N x 3 array (fill(*pts.T)) puts points into wrong bins without an error; the call behaves exactly as the call with unit strides.", "quantifier": "every histogram and argument arrays; the failing case is existential", "why_tests_cant": "tests use freshly created contiguous arrays", "anchors": ["skbeam/core/accumulators/histogram.pyx:Histogram._fillnd"]}
{"id": "C67", "title": "Race in clearing the gridder's per-thread arrays", "statement": "grid3d's clearing loop inside the parallel region uses a loop counter shared by all threads: a thread that is not interleaved with another clears its arrays completely (so one thread is safe), but with two threads, for every grid and every content of the freshly allocated memory, there is a schedule after which uninitialised memory is added to the reported totals and counts, and a schedule that writes past the end of an array.", "quantifier": "all grids, memory contents, points; all schedules for one thread, existential schedules for two", "why_tests_cant": "depends on the thread schedule and on what malloc returns", "anchors": ["src/ctrans.c:c_grid3d", "src/ctrans.c:gridder_3D"]}
{"id": "C68", "title": "Bin centres and neighbouring pairs", "statement": "bin_edges_to_centers returns one value per pair of neighbouring edges, equidistant from both and strictly inside the bin for increasing edges; pairwise lists exactly the neighbouring pairs in order; both return nothing for fewer than two elements.", "quantifier": "every list", "why_tests_cant": "one example array in the tests", "anchors": ["skbeam/core/utils.py:bin_edges_to_centers", "skbeam/core/utils.py:pairwise"]}
{"id": "C69", "title": "Kymograph rows", "statement": "roi.kymograph(images, labels, num) has one row per image, and row t holds exactly the pixels of image t labelled num, in raster order.", "quantifier": "every image stack, label array and label", "why_tests_cant": "all images and labels", "anchors": ["skbeam/core/roi.py:kymograph"]}
{"id": "C70", "title": "Bad images become NaN", "statement": "mask.bad_to_nan_gen yields one array per image: the image itself when its index is not in `bad`, and an all-NaN array when it is; negative indices never match; when images differ in size the NaN array has the size of the first bad image.", "quantifier": "every list of images and bad indices", "why_tests_cant": "all index lists and image sizes", "anchors": ["skbeam/core/mask.py:bad_to_nan_gen"]}
{"id": "C71", "title": "CDI Gaussian kernel", "statement": "cdi.gauss(dims, sigma), sigma non-zero, is positive everywhere, sums to one, and falls off as exp(-D/(2 sigma^2)), D the squared distance from the central pixel dims//2; so it never grows with that distance.", "quantifier": "every shape and width", "why_tests_cant": "continuum of widths, all shapes", "anchors": ["skbeam/core/cdi.py:gauss", "skbeam/core/cdi.py:_dist"]}
{"id": "C72", "title": "CDI modulus constraint", "statement": "cdi.pi_modulus leaves the Fourier coefficients with non-positive measured modulus d unchanged and gives the others their old phase and the modulus d*|y|/(|y|+offset), which is always strictly less than d (a coefficient that is zero stays zero); cal_diff_error is non-negative and zero exactly when the moduli are the measured ones.", "quantifier": "every object and pattern", "why_tests_cant": "continuum of objects", "anchors": ["skbeam/core/cdi.py:pi_modulus", "skbeam/core/cdi.py:cal_diff_error"]}
{"id": "C73", "title": "Shrinkwrap support", "statement": "cdi.find_support marks exactly the pixels whose blurred modulus is at least sw_threshold times the largest one; for sw_threshold <= 1 the support is never empty; raising the threshold never adds pixels.", "quantifier": "every object, threshold and blur", "why_tests_cant": "continuum of objects", "anchors": ["skbeam/core/cdi.py:find_support"]}
{"id": "C74", "title": "DPC phase reconstruction", "statement": "dpc.recon, given gradients whose spectra are those of the x and y derivatives of a phase, returns that phase up to a constant for every weighting strictly between 0 and 1, any steps and any padding; for weighting 0 and 1 all components with zero x or y frequency are lost as well. In particular (padding 0) a sum of plane waves with whole periods over the scan, all below the Nyquist frequency, is recovered from the values of its partial derivatives at the scan points; a wave at the Nyquist frequency is lost.", "quantifier": "every image shape, padding, steps, weighting", "why_tests_cant": "continuum of phases and weightings, all shapes (parity of the frequency shift)", "anchors": ["skbeam/core/dpc.py:recon"]}
{"id": "C75", "title": "DPC cost function", "statement": "The cost minimised by dpc_fit is non-negative and zero exactly when the reduced pattern equals the reference times v0 with a linear phase of slope v1 about pixel L//2, for odd and even lengths.", "quantifier": "every length, pair of patterns, amplitude and gradient", "why_tests_cant": "continuum of parameters", "anchors": ["skbeam/core/dpc.py:_rss_factory", "skbeam/core/dpc.py:dpc_fit"]}
{"id": "C76", "title": "Memory safety of ccdToQ", "statement": "ctrans.ccdToQ called through process_to_q reads and writes only inside its buffers and sets every output cell when UB is 3x3; a 2x2 UB (not rejected by process_to_q) makes the C code read past the end of the inverse, and of a larger matrix only the first nine numbers are used.", "quantifier": "every number of images, detector size and UB matrix", "why_tests_cant": "out of bounds reads need not crash", "anchors": ["src/ctrans.c:ccdToQ", "src/ctrans.c:processImages", "skbeam/core/recip.py:process_to_q"]}
{"id": "C77", "title": "Compton step and tail shapes", "statement": "gausssian_step decreases from area/peak_e to 0 and takes half that value at its centre. The integral of gaussian_tail is area times a factor depending on gamma alone that lies strictly between 1/2 and 1, so the documented 'if area is set as 1, the integral is unity' never holds. Its slope is minus the normal density of area area/peak_e, so the step is that peak's part above x.", "quantifier": "every area, centre, sigma>0 and gamma>0", "why_tests_cant": "improper integral of a clipped product with erfc over all parameters", "anchors": ["skbeam/core/fitting/lineshapes.py:gausssian_step", "skbeam/core/fitting/lineshapes.py:gaussian_tail"]}
{"id": "C78", "title": "Areas of the scatter peaks", "statement": "On the energy axis the elastic peak's integral is its amplitude. Without a step the Compton peak's integral is amplitude*(1+f_tail*t+hi_f_tail*t')/(1+f_tail+hi_f_tail) with t,t' in (1/2,1), so it is the amplitude without tails and strictly less with any tail. Channels become energies by e_offset + e_linear x + e_quadratic x^2; the elastic peak and the plain Compton peak are normal densities whose full width at half maximum f satisfies f^2 = fwhm_offset^2 + 8 ln2 * energy * epsilon * fwhm_fanoprime (the Compton one times the correction). In general (1 + f_step + f_tail + hi_f_tail) times the Compton profile is the plain peak plus f_step times the step, f_tail times the low tail and hi_f_tail times the tail mirrored at the Compton energy.", "quantifier": "every energy, angle, width, gamma and tail weight", "why_tests_cant": "improper integrals over a continuum of parameters", "anchors": ["skbeam/core/fitting/lineshapes.py:elastic", "skbeam/core/fitting/lineshapes.py:compton"]}
{"id": "C79", "title": "Element parameters and strategies", "statement": "After any built-in strategy every elemental area of a freshly constructed ParamController is fixed; update_element_prop on elements already present resets every parameter of every element and kind asked for to its default, records the constraint of its kind, which takes effect only with the next set_strategy, and touches no other parameter; a successful add_param sets exactly the parameters of that element and kind; a call that fails on an unknown element has already added it to element_list. The lines of elements already present are kept.", "quantifier": "every element list, parameter dictionary and strategy", "why_tests_cant": "depends on histories of calls and on all element names", "anchors": ["skbeam/core/fitting/xrf_model.py:ParamController", "skbeam/core/fitting/xrf_model.py:ParamController.set_strategy", "skbeam/core/fitting/xrf_model.py:ParamController.update_element_prop"]}
{"id": "C80", "title": "Areas and fitted values", "statement": "sum_area is the sum of area*ratio*ratio_adjust over the fitted lines of the family; update_parameter_dict takes over the value of exactly the parameters that were fitted and changes nothing else.", "quantifier": "every result dictionary and parameter dictionary", "why_tests_cant": "all dictionaries", "anchors": ["skbeam/core/fitting/xrf_model.py:sum_area", "skbeam/core/fitting/xrf_model.py:update_parameter_dict"]}
{"id": "C81", "title": "Energies of lines", "statement": "get_line_energy('X_line') is the energy of that line for every line name of three letters and of the first line for a family letter; the lines Ll, Ln, Mb and Mg exist in the tables but raise KeyError.", "quantifier": "every element and line, any case", "why_tests_cant": "all elements and lines", "anchors": ["skbeam/core/fitting/xrf_model.py:get_line_energy"]}
{"id": "C82", "title": "Inactive elements", "statement": "construct_linear_model has one column per active elemental line in the given order; assemble_models raises as soon as one line is not active; a K family is active exactly when its ka1 line is excited.", "quantifier": "every list of elemental lines, table and energy", "why_tests_cant": "all lists", "anchors": ["skbeam/core/fitting/xrf_model.py:construct_linear_model", "skbeam/core/fitting/xrf_model.py:ModelSpectrum.assemble_models"]}
{"id": "C83", "title": "Relative cross section", "statement": "get_relative_cs_ratio of an active family is one over the sum of the line ratios of the model built for it; it divides by zero when no line of the family is excited.", "quantifier": "every non-negative table, element, family and energy", "why_tests_cant": "tables and energies", "anchors": ["skbeam/core/fitting/xrf_model.py:get_relative_cs_ratio"]}
{"id": "C84", "title": "Weighted NNLS", "statement": "With weights, nnls_fit returns a non-negative vector minimising the weighted sum of squares, and the square root of that sum.", "quantifier": "every matrix, spectrum and non-negative weights", "why_tests_cant": "optimality over all vectors", "anchors": ["skbeam/core/fitting/xrf_model.py:nnls_fit"]}
{"id": "C85", "title": "Component spectra and area maps", "statement": "The component spectra returned by linear_spectrum_fitting sum to the fitted spectrum when names are distinct, and do not when an element is named twice; calculate_area gives coefficient times column sum, times the share of the first line for elemental lines when first_peak_area, plus background and goodness planes. The area reported for a name is its coefficient times its unit area; a component that sums to zero is left out.", "quantifier": "every non-negative model matrix and coefficient vector", "why_tests_cant": "all matrices and name lists", "anchors": ["skbeam/core/fitting/xrf_model.py:linear_spectrum_fitting", "skbeam/core/fitting/xrf_model.py:calculate_area"]}
{"id": "C86", "title": "Energy range selection", "statement": "define_range with positive slope keeps every channel whose energy is within [low, high], none further than half a channel outside, in order, with its own count; trim keeps exactly the points between the limits, both included; with a negative slope the result is empty.", "quantifier": "every spectrum, limits and calibration", "why_tests_cant": "rounding over all limits", "anchors": ["skbeam/core/fitting/xrf_model.py:define_range", "skbeam/core/fitting/xrf_model.py:trim"]}
{"id": "C87", "title": "Quadratic peak fits", "statement": "fit_quad_to_peak returns curvature, vertex, height and R^2 = 1 of exact parabola samples, and refine_log_quadratic centre and height of exact Gaussian samples; R^2 lies in [0,1], so a threshold above 1 rejects every non-constant window and one of 0 or less none. Fewer than three points raise a plain exception, not a rejection. The sign of the curvature is not looked at: a dip is returned as a peak.", "quantifier": "every set of positions with three distinct values, every parabola, Gaussian and threshold", "why_tests_cant": "continuum of shapes and positions", "anchors": ["skbeam/core/fitting/funcs.py:fit_quad_to_peak", "skbeam/core/feature.py:refine_quadratic", "skbeam/core/feature.py:refine_log_quadratic"]}
{"id": "C88", "title": "Aligning spectra", "statement": "align_and_scale turns spectra with Gaussian peaks into spectra whose peak sits at energy 0 with the width of the first spectrum's peak; counts are returned unchanged and the number of spectra and points is kept.", "quantifier": "every list of spectra on which the peak finder returns the true peak", "why_tests_cant": "continuum of shapes", "anchors": ["skbeam/core/spectroscopy.py:align_and_scale"]}
{"id": "C89", "title": "Pixel grids with non-square pixels", "statement": "radial_grid returns, at every pixel, its distance from the centre with rows measured in pixel heights and columns in pixel widths (pixel_size = (height, width)); angle_grid returns the angle in (-pi, pi] from the +column axis towards the +row axis, 0 at the centre, with the same convention, so that distance times cosine and sine give back the position; radius_to_twotheta returns the angle below a right angle whose tangent is radius / distance, increasing with the radius.", "quantifier": "every centre, pixel size, image shape and pixel", "why_tests_cant": "Tests use square pixels of size 1 or compare with the same formula; a transposed pixel size or axis is invisible there.", "anchors": ["skbeam/core/utils.py: radial_grid, angle_grid, radius_to_twotheta"]}
{"id": "C90", "title": "GSAS files are made of 80-column records", "statement": "A file written by gsas_writer consists of records of exactly 80 characters each ended by CR LF: the title cut or padded to 80 characters naming the scale, a BANK header whose third and fourth words are the number of points and the number of data records that follow, and that many data records. This holds for STD and ESD while the first angle is at most 999 degrees and values fit their fields, for FXYE while the first angle is at most 99 degrees; an FXYE file starting at 100 degrees has a header of 81 characters.", "quantifier": "every pattern of 2 to 10^8 - 1 points with fields in range, every title, mode and directory", "why_tests_cant": "The tests read the file back with the companion reader, which splits on blanks and never looks at record length or the record count.", "anchors": ["skbeam/io/save_powder_output.py: gsas_writer"]}
{"id": "C91", "title": "estimate_d_blind pairs rings and reflections by order", "statement": "estimate_d_blind(name, wavelength, bin_centers, ring_average, window_size, max_peak_count, thresh) finds the peaks of ring_average (strict maxima over window_size samples on either side, not first or last, whose surroundings span more than thresh times the maximum), refines each by a Gaussian fit in its window, and returns the mean and standard deviation of radius / tan(2 theta) where peak k is paired with reflection k of the standard, for the first min(peaks, reflections, max_peak_count). If Gaussian rings lie exactly at D tan(2 theta_k), the result is (D, 0). Counterexample to the use it is meant for: if the innermost ring is not seen (beam stop), every ring is paired with a reflection of smaller angle and the distance returned is strictly larger than D, with no warning. If a used reflection is out of reach of the wavelength (q wl > 4 pi) the result is (nan, nan); with no peak an exception is raised.", "quantifier": "all scans (real data), standards, wavelengths, windows, limits and thresholds; any least-squares solver", "why_tests_cant": "the tests use one synthetic pattern with all rings visible; no finite set of patterns covers all standards and rings, and a blocked ring is never tried", "anchors": ["skbeam/core/calibration.py:estimate_d_blind", "skbeam/core/feature.py:filter_peak_height", "skbeam/core/feature.py:peak_refinement"]}
{"id": "C92", "title": "refine_center exchanges the row and the column correction", "statement": "refine_center cuts the image into phi_steps - 1 sectors around the given centre, every pixel in exactly one; in each it averages the pixels in nx radial bins with summed intensity above 10 and takes the centres of the first max_peaks peaks; with u_k the deviation of sector k from the mean over the sectors, averaged over the rings seen in all sectors, the row is moved by 2/N sum u_k cos(phi_k) / pixel height and the column by 2/N sum u_k sin(phi_k) / pixel width. A ring seen from a centre wrong by dx (columns) and dy (rows) appears at R + dx cos(phi) + dy sin(phi); whenever the traces follow that within eps, the ROW is moved by dx and the COLUMN by dy within 4 eps: the corrections are exchanged. So an error in the columns alone is made worse (concretely, a symmetric 4x4 image started a quarter pixel left of its centre moves the correct row and leaves the wrong column). If all sectors agree, the centre is unchanged; a sector with no intensity raises an exception.", "quantifier": "all images, centres, pixel sizes, numbers of sectors (3 and more), bins, peaks, thresholds and windows", "why_tests_cant": "the test displaces the centre by the same amount in rows and columns, where exchanging the two corrections changes nothing", "anchors": ["skbeam/core/calibration.py:refine_center", "skbeam/core/utils.py:angle_grid", "skbeam/core/utils.py:radial_grid", "skbeam/core/utils.py:bin_1D"]}
{"id": "C93", "title": "An image made from a radial profile holds the profile at every pixel; left and right are ignored", "statement": "construct_circ_avg_image(radii, intensities, dims, center, pixel_size) with ascending radii gives every pixel the value of the piecewise linear profile at its distance (in pixel_size units) from the centre, the middle of the image unless given; a pixel inside the first radius gets the first intensity and a pixel beyond the last gets 0. Without dims each side has 2m+1 pixels, m the largest radius in pixels rounded to nearest, and giving a center then is an error. The image is symmetric about its middle and linear in the profile. The documented left and right arguments have no effect: left=0 does not set pixels inside the first radius to 0.", "quantifier": "all ascending radius lists, intensities, dimensions, centres, pixel sizes; all values of left and right", "why_tests_cant": "tests compare one profile on one size; the ignored arguments only show when a pixel lies inside the first radius and a value other than the default is expected", "anchors": ["skbeam/core/image.py:construct_circ_avg_image", "skbeam/core/utils.py:radial_grid"]}
{"id": "C94", "title": "The ring centre is an election among rows and columns; rings missing most rows or touching the edge are misplaced", "statement": "find_ring_center_acorr_1D returns the row most columns vote for and the column most rows vote for (ties to the smaller index), a row voting for the whole part of half the lag k at which the mean product of its pixels with their mirror images (i+j=k) is first largest; it is invariant under scaling the image. A row with a single lit pixel votes for that pixel, so the crossing of one bright row and one bright column is found exactly. A row with two equally bright pixels votes for their middle only while neither is so near the edge that its own overlap is at most half of the common one, else for that pixel; a dark row votes for pixel 0. Hence a perfectly centred ring leaving most rows dark, or one reaching the edges, is reported at (0, 0), and adding a constant background moves the answer.", "quantifier": "all image sizes and rational pixel values", "why_tests_cant": "tests use one synthetic set of rings filling the frame; the vote of dark rows and the normalisation by the overlap matter only for other images", "anchors": ["skbeam/core/image.py:find_ring_center_acorr_1D", "skbeam/core/image.py:_corr_ax1"]}
{"id": "C95", "title": "Polar data is blended onto the pixel grid, but the call changes its arguments and refuses a closed circle", "statement": "construct_rphi_avg_image(radii, angles, image, mask, center, shape) with ascending radii and angles spanning less than a turn gives each pixel the bilinear blend of the four measurements around its distance and direction (direction 0 towards larger columns, contrary to the documented -x), the last and first angle being neighbours across the wrap; nan outside the radii or next to a masked measurement, and exactly the measurement at a measured point. The caller's angles are shifted in place by the first angle and masked points of the caller's image become nan, so repeating the call gives a rotated image. Angles reaching a full turn, documented as ignored beyond 2 pi, raise an error (with the angles already shifted), while an angle a whole turn further on after a wide gap is silently taken for the smaller one. Radii that are not strictly ascending or fewer than two, and shapes of data or mask that do not match, raise.", "quantifier": "all radii, angles, images, masks, centres, shapes, pixel sizes", "why_tests_cant": "tests call once with fresh arrays starting at angle 0, which the in-place shift leaves unchanged", "anchors": ["skbeam/core/image.py:construct_rphi_avg_image"]}
{"id": "C96", "title": "One- and two-dimensional, radial and polar binned statistics honour bins and masks for float samples, but not for integer ones", "statement": "BinnedStatistic1D/2D, RadialBinnedStatistic and RPhiBinnedStatistic give every bin the statistic of the unmasked values whose sample (radius, angle) lies in it, where bins may be a count, edges, in one dimension a sequence of one count or edge array, or for two dimensions a pair of counts or edge arrays or three and more shared edges, over the given range or the samples' own; masks and images of another shape are refused. Two shared edges, documented, are taken for two bin counts. Masked samples are overwritten in the sample array with a value just below the first edge: with integer samples that value is truncated, so when the bins start at an integer from -98 to 0 every masked sample is counted in the first bin (bins starting above 0 are safe), e.g. a map of integer radii starting at 0. A float (N, D) sample array belonging to the caller stays overwritten, so a later statistic of it without a mask still leaves those samples out; sequences of arrays are copied.", "quantifier": "all samples, values, masks, bins, ranges, statistics", "why_tests_cant": "tests mask float samples only, pass lists of arrays, and never reuse the sample array", "anchors": ["skbeam/core/accumulators/binned_statistic.py:BinnedStatisticDD", "skbeam/core/accumulators/binned_statistic.py:BinnedStatistic1D", "skbeam/core/accumulators/binned_statistic.py:BinnedStatistic2D", "skbeam/core/accumulators/binned_statistic.py:RPhiBinnedStatistic", "skbeam/core/accumulators/binned_statistic.py:RadialBinnedStatistic"]}
{"id": "C97", "title": "Statistics by position agree with bin_1D; integration over given radii loses the outermost pixels with its default bins", "statement": "statistics_1D(x, y, stat, nx, min_x, max_x) splits the interval (default: least to greatest position) into nx (default 100) equal bins and returns the edges and the statistic of the values in each bin, the last one closed; with sums and counts it agrees with bin_1D, but positions that are all equal, which bin_1D accepts, raise. bin_grid(image, r_array, pixel_sizes, ...) returns the mid points of the bins and the statistic of the pixels in each; its mask, documented as the pixels to remove, marks those to keep. Its default bins are as wide as the pixel diagonal and start half a bin below the least radius; they count every pixel when the greatest radius lies at most half a bin past a whole number of bins from the least, and otherwise, in particular at an exact whole number, leave the outermost pixels out; radii that are all equal raise.", "quantifier": "all positions, values, intervals, bin counts, images, radii, masks, pixel sizes, statistics", "why_tests_cant": "the test of bin_grid compares with the same scipy call on the same default edges; whether outer pixels are lost depends on the span of the radii", "anchors": ["skbeam/core/stats.py:statistics_1D", "skbeam/core/utils.py:bin_grid"]}
{"id": "C98", "title": "Line regions are thin chains between their clamped ends; ends off the near sides wrap around", "statement": "lines(end_points, shape): for lines that start inside the near limits of the far sides and end at non-negative coordinates, each line is a connected chain of pixels from its start to its end, every pixel at most half a pixel off the straight line between them, negative start coordinates being clamped to 0 and ends past the far sides to the last row or column; a pixel carries the number of the last line through it, other pixels 0. Anything but four coordinates, a start past the far side or an end below minus the size raises. Ends are not clamped at the near sides: a negative end coordinate is painted on the far side of the image; and clamping bends lines that leave the image, so pixels the straight line does not pass are labelled and pixels it passes are not.", "quantifier": "all image sizes, all lists of lines", "why_tests_cant": "the test draws two lines inside one image and compares label counts", "anchors": ["skbeam/core/roi.py:lines"]}
{"id": "C99", "title": "Fit2D mask files keep boolean masks but turn 0/1 integer masks into all False", "statement": "read_fit2d_msk of a file written by fit2d_save returns the boolean mask that was saved. The saver inverts bits, so for an integer mask of non-negative numbers, zeros and ones included, the mask read is False everywhere; among integers only -1 reads as True.", "quantifier": "all masks of any size, boolean or integer", "why_tests_cant": "the test saves one random boolean mask", "anchors": ["skbeam/io/fit2d.py:fit2d_save", "skbeam/io/fit2d.py:read_fit2d_msk"]}
{"id": "C100", "title": "AmiraMesh metadata gives voxel spacing and isotropy as documented, but no AmiraMesh file can be loaded", "statement": "On the supported pythons load_amiramesh never returns: on a file with the line opening the data section it raises, because words are cleaned with the python 2 form of translate, and on a file without it, it reads empty lines for ever and keeps each of them. The metadata made from a cleaned header has the size of the define line, the bounding box, and per axis the spacing extent / (count - 1), 0 for a count of at most 1; the resolution is isotropic, with the x spacing, when both other spacings lie strictly within 1 % of the x spacing, else it lists z, y, x. An x axis with at most one voxel or no extent raises, as does a bounding box before the size. Content, CoordType, Units (pixels when missing) and Coordinates are taken from their lines. Headers of blank lines are the only ones that can be cleaned at all, and nothing is left of them. The reader takes as header every line up to and with the first line opening the data section; the line after it is dropped and the rest is the data.", "quantifier": "all files, all headers, all number parsers", "why_tests_cant": "avizo_io has no tests; non-termination cannot be observed by a test", "anchors": ["skbeam/io/avizo_io.py:load_amiramesh", "skbeam/io/avizo_io.py:_read_amira", "skbeam/io/avizo_io.py:_clean_amira_header", "skbeam/io/avizo_io.py:_create_md_dict"]}
{"id": "C101", "title": "All peaks of an assembled XRF spectrum share one calibration and one width law, except user peaks named compton...", "statement": "Whatever values a fit of the assembled model gives, every element line, the elastic and the Compton peak are evaluated with the same e_offset, e_linear, e_quadratic, fwhm_offset, fwhm_fanoprime and incident energy, and each line keeps the energy and branching ratio of its table entry; a line is a normal curve around line energy plus shift, of area times ratio times ratio adjustment, with the width of the detector law at that energy plus its own width shift. A user peak whose name starts with \"compton\" is left out: its five calibration and width parameters are free and of its own. compute_escape_peak moves a normal peak down by the escape energy and scales its area. A strategy extracted from a parameter file, registered and applied gives every parameter the bound the file stores under that strategy. The Compton component takes value, limits and bound of each of its fourteen parameters from the parameter dictionary.", "quantifier": "all element lists, parameter dictionaries, fitted values, energies and strategies", "why_tests_cant": "tests run one fit and compare areas; that no parameter set escapes the ties is a statement about all names", "anchors": ["skbeam/core/fitting/xrf_model.py:element_peak_xrf", "skbeam/core/fitting/xrf_model.py:_copy_model_param_hints_EXPR", "skbeam/core/fitting/xrf_model.py:extract_strategy", "skbeam/core/fitting/xrf_model.py:compute_escape_peak", "skbeam/core/fitting/xrf_model.py:ModelSpectrum.assemble_models"]}
{"id": "C102", "title": "Photon count distributions have the stated total, mean and variance; two documented formulas are exchanged", "statement": "For a mean count K and an integer number of modes M >= 1: poisson_dist and nbinom_dist are probability distributions on the counts 0, 1, 2, ... with mean K and variance K, and K + K^2/M; gamma_dist is a probability density on the half line with mean K > 0 and variance K^2/M. For M to infinity nbinom_dist tends to poisson_dist at every count. The formula documented under gamma_dist is the one nbinom_dist evaluates and vice versa; neither function evaluates the formula in its own documentation.", "quantifier": "all real K, all counts, all integers M >= 1", "why_tests_cant": "tests compare a few values with stored numbers; totals, moments and limits are over infinitely many counts", "anchors": ["skbeam/core/fitting/lineshapes.py:gamma_dist", "skbeam/core/fitting/lineshapes.py:nbinom_dist", "skbeam/core/fitting/lineshapes.py:poisson_dist"]}
{"id": "C103", "title": "The one-time correlation model decays from contrast plus baseline to the baseline; its parameter is a rate, not the documented time", "statement": "auto_corr_scat_factor with positive contrast and rate equals contrast times the square of an exponential g1 with g1(0) = 1 and g1' = -rate g1, plus the baseline: beta + baseline at lag 0, strictly falling, tending to the baseline. Its values at three equally spaced lags determine contrast, rate and baseline (contrast and rate not 0). relaxation_rate is documented as the relaxation time of the sample, but acts as its inverse: a sample of relaxation time T has contrast beta/e^2 left at lag T when 1/T is passed, and with T passed only if T = 1.", "quantifier": "all lags, contrasts, rates and baselines", "why_tests_cant": "the test evaluates one parameter set", "anchors": ["skbeam/core/correlation.py:auto_corr_scat_factor"]}
{"id": "C104", "title": "Random phase start objects have exactly the measured moduli; the modulus step goes to the nearest object", "statement": "Whatever phases are drawn, generate_random_phase_field returns an object whose Fourier moduli, scaled as in cal_diff_error, are the absolute values of the measured pattern; so its cal_diff_error is 0 if no entry of the pattern is negative and positive otherwise. pi_modulus moves an object to the nearest one (sum of squared differences over the pixels) among all objects with the Fourier moduli of its result.", "quantifier": "every shape and dimension, every pattern, all phases, all objects", "why_tests_cant": "random phases; the nearest point property quantifies over all objects", "anchors": ["skbeam/core/cdi.py:generate_random_phase_field", "skbeam/core/cdi.py:pi_modulus", "skbeam/core/cdi.py:cal_diff_error"]}
{"id": "C105", "title": "Automatic ring search: successive fits, one centre, image painted over", "statement": "auto_find_center_rings fits each ring to the edge points (as x, y) that are not inliers of an earlier ring; the radii are returned in this order, the centre is the whole part of the centre of the first circle, and the image is the grey image with 1, 2, ... painted over it along the circles, all about that centre. It succeeds if all fits do and raises for no rings or a failed first fit. The image is not that of \"indices of pixels that belong to the rings\": pixels elsewhere keep their grey values, so a white image stays white with one ring, and the centres of later circles have no influence on the result.", "quantifier": "all images, edge maps, numbers of rings, and all outcomes of the random circle fits", "why_tests_cant": "RANSAC is random; tests see a few seeds on clean rings", "anchors": ["skbeam/core/roi.py:auto_find_center_rings"]}
{"id": "C106", "title": "Voigt line shape is the convolution of gaussian and lorentzian", "statement": "voigt(x, area, center, sigma, gamma) is the convolution of gaussian(., area, 0, sigma) with lorentzian(., 1, center, gamma); its area is `area`; it is symmetric about center, positive, highest at center and nowhere higher than the gaussian peak. With gamma = 0 it is the gaussian; gamma defaults to sigma, and then a negative sigma only changes the sign.", "quantifier": "all x, areas, centres, positive widths", "why_tests_cant": "an improper double integral over all parameters", "anchors": ["skbeam/core/fitting/lineshapes.py:voigt", "skbeam/core/fitting/lineshapes.py:gaussian", "skbeam/core/fitting/lineshapes.py:lorentzian"]}
{"id": "C107", "title": "Map fit on several processes", "statement": "fit_pixel_multiprocess_nnls gives the same outcome for every number of processes and every order in which they finish: the results in row order, or the exception of the first row (in row order) that fails; it never blocks for ever. After an exception the pool is left running. With use_snip the result is the fit of every pixel; with the default use_snip=False every map with at least one pixel raises UnboundLocalError.", "quantifier": "all maps, numbers of processes and schedules", "why_tests_cant": "schedules of worker processes cannot be enumerated by a test", "anchors": ["skbeam/core/fitting/xrf_model.py:fit_pixel_multiprocess_nnls", "skbeam/core/fitting/xrf_model.py:_log_and_fit"]}
{"id": "C108", "title": "Mappings of X-ray data", "statement": "A mapping made by XrayLibWrap (or XrayLibWrap_Energy) gives for a line or shell name, in upper or lower case, the value xraylib tabulates for the element (at the energy last set), or 0 if xraylib has none; any other name raises KeyError. Iteration runs over the lower-case names, each once, in alphabetical order, and 'all' pairs them with their values. Two mappings of one quantity are equal exactly if all their values are. What does not hold: a line is 'in' the mapping even if the element does not have it (get never uses its default for it), and in spellings iteration does not give. 'cs' or 'csb' without an energy, or another quantity with one, give an object with names of which every lookup is a TypeError; unknown quantities raise at once. get gives the value of a name the mapping has and the default for any other name, and lets the TypeError through.", "quantifier": "all elements, quantities, energies, keys and tables", "why_tests_cant": "tests look up a few lines of a few elements; the mapping protocol must hold for every key and table", "anchors": ["skbeam/core/constants/xrf.py:XrayLibWrap", "skbeam/core/constants/xrf.py:XrayLibWrap_Energy"]}
{"id": "C109", "title": "Running averages in double precision", "statement": "The running average used by the correlators and the photon statistics (mean += (x - mean)/k for k = 1, 2, ...), in IEEE double precision: the result is finite and never outside the range of the data; data that are all equal are averaged exactly; the distance from the exact average of n numbers of magnitude at most B is at most (n+11)/2 * 2^-53 * B + (n+1)/4 * 2^-1074. What does not hold: the result depends on the order of the data (0, 0, 1 and 0, 1, 0 differ), so it is not always the double nearest to the average.", "quantifier": "all sequences of fewer than 2^53 doubles of magnitude at most 2^1022", "why_tests_cant": "accumulated rounding over arbitrary data and lengths; tests compare with a tolerance", "anchors": ["skbeam/core/correlation.py:_one_time_process", "skbeam/core/speckle.py:_process"]}
{"id": "C110", "title": "Images of integer types", "statement": "Images whose pixels are numpy integers of 8 to 64 bits, signed or not. bin_1D and circular_average divide ring totals that have been reduced modulo 2^bits to the range of the image's type; so an average is right exactly if the total of its ring fits the type, and a constant uint16 image of 40000 counts averages to 7232 on a ring of two pixels. subtract_reference_images gives for unsigned images a - b where the pixel is at least as bright as the reference, and a - b + 2^bits where it is darker. xsvs sums the frames for longer integration times modulo 2^bits: right if the brightest pixel times 2^level fits, otherwise bright pixels are entered with small counts. The standard deviation of the BinnedStatistic classes squares modulo 2^bits: right if every square fits; equal uint16 counts of 300 give the root of a negative number.", "quantifier": "all integer types of numpy, images, masks, bins, block sizes of numpy.histogram and orders of equal samples", "why_tests_cant": "tests use small float or int64 images; whether a sum wraps depends on all pixels of a ring, and the result must not depend on the order of equal samples", "anchors": ["skbeam/core/utils.py:bin_1D", "skbeam/core/utils.py:subtract_reference_images", "skbeam/core/roi.py:circular_average", "skbeam/core/speckle.py:xsvs", "skbeam/core/accumulators/binned_statistic.py:BinnedStatisticDD"]}
{"id": "C111", "title": "Bin edges in double precision", "statement": "In double precision bin_edges still keeps its promises up to rounding. From both ends and a positive step not above the rounded range it returns as many bins as whole steps fit into that rounded range, or exactly one fewer; the edges are finite, in order, start exactly at range_min, never exceed range_max, lie within 2^-51*B of range_min + k*step (B a bound on both ends), leave at most step + 2^-50*B uncovered, and all differ when step > 2^-50*B. When both ends and the step are whole multiples of one power of two the grid is exact and complete. From one end, a step and nbins there are nbins+1 edges in order within 2^-51*B of the exact ones and the given end is exact; from both ends and nbins both ends are exact, the edges are in order and within 2^-50*B. Inverted ranges, a step above the rounded range and nbins below one are refused. It is not so that the documented count is kept: 0 to 1 in steps of 0.1 gives nine bins, -0.1 to 0.3 in one step of 0.4 gives one edge and no bin (the trim the source says should never happen), and a step below the spacing of the doubles repeats edges.", "quantifier": "all finite doubles up to 2^1022 in size, every step with fewer than 2^50 steps in the range, every nbins up to 2^50", "why_tests_cant": "floor division, multiplication and addition each round; the doubles where the last bin is lost or an edge passes the end cannot be enumerated", "anchors": ["skbeam/core/utils.py:bin_edges"]}
{"id": "C112", "title": "Gridder cell statistics in double precision", "statement": "In double precision the gridder's total of a cell is within (N+T)*2^-52 times the sum of the absolute values of the exact total, N the number of points in the cell and T the number of threads, however the points are split over the threads; N is exact. Its variance times N is within (7(N+T)+8)*2^-53 times the sum of squares of the exact spread, so the standard error is a non-negative number, within 2^-51 of the root of variance/N, whenever the exact spread is at least that large. For integer intensities with N times the sum of squares up to 2^53 the total is exact, the mean is the correctly rounded quotient, the standard error is a non-negative number, all of them the same for every order of the data and every number of threads, and the standard error of equal values is exactly 0. It is not so in general: three points of intensity 0.1 give the mean 0.10000000000000002, above every value, and a NaN standard error, three points of intensity 100000001 give a NaN standard error, and 0.1, 0.2, 0.3 have one total on one thread and another on two.", "quantifier": "all finite doubles and all splits over the threads with N+T up to 2^52 (total) or 2^40 (variance), values not below 2^-480 in size unless zero; all integer data within the stated bound", "why_tests_cant": "the cancellation in sum of squares minus squared sum shows only for particular values, orders and thread counts; rounding bounds quantify over all doubles", "anchors": ["src/ctrans.c:c_grid3d", "skbeam/core/utils.py:grid3d"]}
{"id": "C113", "title": "Results kept from the correlation generators", "statement": "Programs may run several one-time and two-time correlation generators at once, feed them images in any order, keep their results and continue from a kept result's state. One-time: every kept result shows, at any later time, the correlation of exactly the images its series had been given when it was yielded; generators of different series never disturb each other. A result is not a checkpoint: a call continuing from an earlier result goes on after the newest image of that series, not after the image of that result. Two-time: all results of a series share one matrix, so a kept result does not keep what it showed; converting any of them (even repeatedly, between images) gives the two-time correlation of all images the series has had, provided each continuation started from the newest result. Continuing from an older two-time result gives a matrix that is neither that of all images nor that of the older result's images plus the new one.", "quantifier": "all programs of generator creations, images, resumptions and conversions, with even num_bufs >= 2, num_levels >= 1, image sizes equal to the label array's, at least one region and no more images than num_frames for two-time", "why_tests_cant": "results share arrays with the running generators; whether some later step of some other generator disturbs a kept result depends on all interleavings", "anchors": ["skbeam/core/correlation.py:lazy_one_time", "skbeam/core/correlation.py:lazy_two_time", "skbeam/core/correlation.py:two_time_state_to_results", "skbeam/core/correlation.py:_init_state_one_time", "skbeam/core/correlation.py:_init_state_two_time"]}
{"id": "C114", "title": "Bin totals and ring averages of floating-point images", "statement": "bin_1D and circular_average add up a floating-point image in the image's own precision (float32 or float64), as differences of one running sum taken outwards. For finite pixels every bin total is within (m+1)*4*2^-p of the true total, relative to the sum of the absolute values of all pixels up to the bin's outer edge (m their number plus the number of 65536-pixel blocks, p = 24 or 53): the error is relative to everything further in, not to the bin itself. An empty bin is exactly zero, non-negative images give non-negative totals, and integer-valued images whose absolute values sum to at most 2^p up to that bin give exact totals, whatever the order of equal positions. Ring averages are these totals over the pixel counts, correctly rounded to float64, one for each ring of more than `threshold` pixels. Beyond that the totals can be wrong altogether: in float32 a pixel of 1 outside one of 2^24 gives total 0 and a pixel of 3 gives 4 (in float64 at 2^53). One NaN pixel turns its own ring and every ring further out into NaN, while rings inside it keep their values; an infinite pixel turns all rings outside it into NaN.", "quantifier": "all binary formats, all finite, NaN and infinite pixels, positions, non-decreasing edges, block lengths and ways of sorting equal positions", "why_tests_cant": "small test images never reach the precision of the running sum, and the order of equal positions is not fixed", "anchors": ["skbeam/core/utils.py:bin_1D", "skbeam/core/roi.py:circular_average"]}
{"id": "C115", "title": "One-time correlation in double precision", "statement": "multi_tau_auto_corr (and lazy_one_time) work in float64. Every reported number is the double obtained by halving sums of consecutive blocks, adding a ROI's pixels in raster order and dividing by their number, averaging the pairs of blocks stepwise in time, and dividing the product average by the product of the two intensity averages; rows stop at the first lag where some ROI's past average is zero. For images of counts up to M, with (pixels of the ROI)*M^2*4^level at most 2^53, the three averages over n pairs are within (n+14)/2 * 2^-53 of the exact ones, relative to M^2, M and M, and g2 is within 10*(n+14)/2*2^-53 * M^2/(P F) * (M/P + M/F) of the exact g2 whenever the exact averages P, F exceed twice those errors. Frames that never change give bit-identical rows at all lags, and exactly the lags with a complete pair of blocks are reported; a ROI of equal counts gives exactly 1.0. A ROI of equal fractions need not: three pixels of 0.1 give a number other than 1 at every lag. An infinite pixel is not skipped as NaN is: every lag using its frame has no finite g2 for that ROI.", "quantifier": "all label images, image sequences (float64 including NaN and infinities), even num_bufs, numbers of levels; the error bounds for all count images within the stated range", "why_tests_cant": "rounding errors over all lags, levels and lengths of series, and equality bit by bit, cannot be sampled", "anchors": ["skbeam/core/correlation.py:lazy_one_time", "skbeam/core/correlation.py:_one_time_process", "skbeam/core/correlation.py:multi_tau_auto_corr"]}
{"id": "C116", "title": "Default fit parameters are shared", "statement": "The default parameter table has distinct names, limits in order with the value between them and a known bound for every parameter, and every built-in strategy covers exactly its names. Copies of the table, ParamControllers and the table itself change only through calls given that object. get_para() returns the table itself, so get_para() keeps returning the shipped defaults if only copies are changed, but after set_parameter_bound(get_para(), strategy) every later get_para(), and every controller and model made from it, starts with that strategy's bounds; each built-in strategy changes some default this way. A registered strategy is the dictionary that was passed, not a snapshot: editing the dictionary later changes what the strategy does. set_default gives hints to exactly the arguments of the function that are parameters, saying free, fixed or limited as get_para() says at that moment, and raises on any bound other than the five words, after hinting the arguments before it.", "quantifier": "all programs of copying, editing, applying strategies, building and using controllers, registering and editing strategies", "why_tests_cant": "effects of one call on later, unrelated calls depend on the whole history of the process", "anchors": ["skbeam/core/fitting/base/parameter_data.py:get_para", "skbeam/core/fitting/base/parameter_data.py:default_param", "skbeam/core/fitting/models.py:set_default", "skbeam/core/fitting/xrf_model.py:set_parameter_bound", "skbeam/core/fitting/xrf_model.py:register_strategy"]}
{"id": "C117", "title": "Two-time correlation in double precision", "statement": "two_time_corr works in float64. For every pair of frames on a reported lag the array holds, to the bit, (sum of products) / (sum * sum) * (number of pixels) of the two frames or blocks of averaged frames, the pixels of the ROI being added in raster order; it is symmetric to the bit and 0.0 at all other pairs; more images than num_frames raise. Frames less than num_bufs apart are always correlated frame by frame. The final mirroring (triangle + transpose - diagonal) changes no finite value below 2^1023 apart from the sign of a zero, but turns an infinite diagonal value into NaN. For images of counts up to M, with (pixels of the ROI)*M^2*4^level at most 2^53, every entry with light in both blocks is within a relative 2^-51 of the exact value, and an entry with a dark block is NaN. Frames of counts that never change give the same double at every reported entry of every level. Bad pixels are not skipped as they are in the one-time correlation: one NaN or infinite pixel makes every entry of its ROI that involves its frame NaN. Frames that are uniform over a ROI of N pixels (exact value 1) give (1/N)*N in doubles, which is 1 or 1 - 2^-53: with 49 pixels it is always 1 - 2^-53.", "quantifier": "all label images, image sequences (float64 including NaN and infinities), numbers of frames, even num_bufs, numbers of levels; the error bounds for all count images within the stated range", "why_tests_cant": "every double of every array for every series, rounding errors over all levels, and equality bit by bit cannot be sampled", "anchors": ["skbeam/core/correlation.py:two_time_corr", "skbeam/core/correlation.py:lazy_two_time", "skbeam/core/correlation.py:_two_time_process", "skbeam/core/correlation.py:two_time_state_to_results"]}
{"id": "C118", "title": "Columns by region across tools", "statement": "For one label array, the columns of g2 (multi_tau_auto_corr), the matrices of two_time_corr and the columns of xsvs all belong to the same regions: column j to the (j+1)-th smallest positive label that occurs, and each value is computed from the pixels with that label. mean_intensity (index=None) has the same columns if there is background (label 0) and no negative label; then the intensity that normalises g2 at lag 0 is the time average of the columns of mean_intensity. A negative label is a region, the first, for mean_intensity only, and without background mean_intensity raises. roi_pixel_values (index=None) goes by label number: entry k holds the pixels labelled k+1, so its entries match the columns exactly when no positive number below the largest label is missing. For the labels made by rings the columns are the rings that hold at least one pixel, in order: if each ring does, column j is ring j+1; a ring that falls between pixels or off the image has no column, and all later rings move up.", "quantifier": "all label arrays, image sequences without NaN (xsvs: with bad images), num_bufs, levels, ring edges, centres and image shapes", "why_tests_cant": "the agreement of independent functions on every label array, with gaps, negative labels or empty rings, cannot be sampled", "anchors": ["skbeam/core/correlation.py:multi_tau_auto_corr", "skbeam/core/correlation.py:two_time_corr", "skbeam/core/correlation.py:_validate_and_transform_inputs", "skbeam/core/speckle.py:xsvs", "skbeam/core/roi.py:mean_intensity", "skbeam/core/roi.py:roi_pixel_values", "skbeam/core/roi.py:rings"]}
{"id": "C119", "title": "Error bars of one-time values from a two-time result", "statement": "one_time_from_two_time with calc_errors=True gives for every region and lag j the mean m of the numbers (not NaN) on the j-th superdiagonal and the error bar e >= 0 with e^2 = sum (x - m)^2 / (n * len), where n counts the numbers and len also the NaN entries; both are NaN exactly when there is no number. The error bar is 0 exactly when the numbers are all equal, hence always at the last lag. It is scaled by |a| when all entries x become a*x + b. It is the standard error of the mean only without NaN: with bad frames e^2*len = s^2*n for the standard error s of the n numbers, so the error bar is smaller than s whenever an entry is NaN and the numbers differ. On the output of two_time_corr, lags that were never computed are reported as 0 with error 0, and frames announced by num_frames but never given count as zeros: the value at a lag below num_bufs is the sum of the numbers over their count plus the missing frames.", "quantifier": "all stacks of square matrices over the reals with NaN, all lags; all label images, image sequences, num_frames, num_bufs and levels", "why_tests_cant": "the scatter law, its comparison with the standard error and the effect of missing frames hold or fail over all arrays of real numbers", "anchors": ["skbeam/core/correlation.py:one_time_from_two_time", "skbeam/core/correlation.py:two_time_corr"]}
{"id": "C120", "title": "Radii and ring labels in double precision", "statement": "radial_grid computes every radius within 2^-50 relative (plus 2^-530) of the distance, for centres and pixel sizes up to 2^200; with unit pixels and a centre on pixel centres or borders (up to 2^24) it is the double nearest to the distance. Hence rings labels a pixel by the ring that holds its exact distance whenever the distance is not within that error of an edge; with whole and half pixel edges (up to 2^25) and centres every label is right, and then pixels at equal distance share a label and labels never fall outward for any finite edges. With other edges the label is that of the double nearest to the distance, which is wrong for a distance that rounds onto an edge: with centre (0, 0) and the ring from 1 to the double nearest to sqrt(2), which is above sqrt(2), the pixel (1, 1) lies inside and is left out. The edge check accepts exactly an even number of non-decreasing edges when they are finite; a NaN edge is refused, one infinite outer edge gives an open ring, and two equal infinite edges side by side are refused although they do not fall.", "quantifier": "all image shapes, centres, pixel sizes and edge lists of doubles within the stated ranges", "why_tests_cant": "rounding errors depend on every bit of centre and edges; only a bound over all doubles shows that no pixel jumps to a neighbouring ring", "anchors": ["skbeam/core/utils.py:radial_grid", "skbeam/core/roi.py:rings", "skbeam/core/roi.py:_make_roi"]}
{"id": "C121", "title": "Photon probabilities and their standard deviation in double precision", "statement": "Every probability reported by xsvs is a number between 0 and 1, for any image sets and at every level, region and bin. For one set of n images every entry of the probability table is within (n + 23)/2 units of 2^-53 of the exact average share of pixels in the bin (C43), and the square of the reported standard deviation is within (2n + 50) units of the exact variance - or the standard deviation is NaN, which happens only when the variance is below (2n + 42) units. Images with equal shares give the nearest double to the share with deviation 0, for any number of sets. The NaN does occur: 80 images of 4 million pixels, with 3997189 pixels in the bin in the first and 3997190 in the others, have standard deviation NaN, because the mean of squares minus the square of the mean rounds below zero.", "quantifier": "all timebin_num >= 2, numbers of levels, label arrays and image sets (bad images included) with fewer than 2^53 pixels and images", "why_tests_cant": "the rounding error of the running averages depends on every count; only a bound over all sequences separates usable from spurious deviations", "anchors": ["skbeam/core/speckle.py:xsvs", "skbeam/core/speckle.py:_process"]}
{"id": "C122", "title": "Ring edges in double precision", "statement": "For finite, non-negative arguments asking for n <= 2^51 rings within a radius of 2^1021, roi.ring_edges returns n rings whose edge number k is within 2k units of 2^-53, relative, of the exact sum; each edge is the double nearest to the edge before it plus the width or spacing asked for; edges are exact when every exact edge is a double; without spacing each ring ends exactly where the next begins; and rings accepts the edges whatever the roundings. But a list of integer spacings cuts off the fraction of the inner radius (1.5 becomes 1); a ring of positive width can be empty (width 1 from radius 2^53); and ten rings of width 0.1 from 0 do not end at 1. Lists for both the widths and the spacings never yield rings, although the documentation shows such a call. Lists for both the widths and the spacings never yield rings, although the documentation shows such a call.", "quantifier": "all scalar/list combinations of arguments that are accepted, all finite non-negative doubles", "why_tests_cant": "the rounding of the running sum depends on every width and spacing, and the type of the list decides whether the radius is cut", "anchors": ["skbeam/core/roi.py:ring_edges", "skbeam/core/roi.py:rings"]}
