{"id": "C01", "title": "Gap bookkeeping is exact", "statement": "Constructing the fill-up process from point indices and values succeeds exactly when the index list is empty, or has the same length as the values, contains no missing value, starts at 0 and is strictly increasing; then the number of grid points is last index + 1, the missing count is grid points minus given points, the missing tag of a grid position is true exactly when the position is not one of the given indices, the forward count at a position is the distance to the next given index, the segment count is the length of the gap containing the position, and filling is needed exactly when something is missing and the grid does not exceed the maximum length.", "quantifier": "every list of indices, every list of values and every maximum length", "why_tests_cant": "the shapes of gap patterns are unbounded; tests only sample a few gap layouts", "anchors": ["src/anomaly_detector/univariate/filling_up/fill_up.py: FillingUpProcess.__init__"]}
{"id": "C02", "title": "Filling never touches observed points", "statement": "Every fill-up method ('last','constant','min','max','median','average','weighted_avg','linear_seg','linear','auto'), when it returns values, returns one entry per grid position and at every given index returns exactly the value supplied for it, together with the missing tags.", "quantifier": "every accepted gap pattern, every value list, every method and argument combination", "why_tests_cant": "must hold for every gap layout and for every way a method can fail half-way", "anchors": ["src/anomaly_detector/univariate/filling_up/fill_up.py: FillingUpProcess.fill_up", "src/anomaly_detector/univariate/filling_up/fill_up_methods.py"]}
{"id": "C03", "title": "'previous' fill carries the last observation forward", "statement": "With impute mode 'previous' (or legacy 'last') each missing position receives the value of the greatest given index below it.", "quantifier": "every accepted gap pattern and value list", "why_tests_cant": "gap layouts are unbounded", "anchors": ["src/anomaly_detector/univariate/model/series_compete_processor.py: fill_up_on_demand", "src/anomaly_detector/univariate/filling_up/fill_up_methods.py: func_last"]}
{"id": "C04", "title": "'linear' fill interpolates between the two neighbouring observations", "statement": "With impute mode 'linear' each missing position p between consecutive given indices a<p<b receives va+(vb-va)*(p-a)/(b-a); in particular it lies between the two neighbouring observations, and the segment variant gives the same numbers.", "quantifier": "every accepted gap pattern and value list (exact arithmetic)", "why_tests_cant": "gap layouts and values are unbounded", "anchors": ["src/anomaly_detector/univariate/filling_up/fill_up_methods.py: func_linear_interpolation_entire, func_linear_interpolation_seg"]}
{"id": "C05", "title": "'auto' fill is complete and stays in the observed range", "statement": "With impute mode 'auto', for every period, fill-up returns a number for every grid position, keeps the observed ones, and every filled number lies between the smallest and the largest observed value, whatever the cubic spline produces between its knots.", "quantifier": "every accepted gap pattern with at least four observations, every period, every spline that reproduces its knots (exact arithmetic)", "why_tests_cant": "the spline overshoots arbitrarily; the clip / weighted-average / linear stages must contain it for every gap layout", "anchors": ["src/anomaly_detector/univariate/filling_up/fill_up.py: FillingUpProcess.__auto_fill_up, __scatter_distribution_fill_up"]}
{"id": "C06", "title": "The documented fill_with_last fallback of 'auto' and 'linear' works", "statement": "Expected: when 'auto' fill-up fails internally and if_exception='fill_with_last', the gap is filled with the last observation. The code violates this: whenever the inner stage fails the call raises TypeError, for every input, because the fallback is invoked without its required argument.", "quantifier": "every input on which the inner stage raises (e.g. every seasonal series with at most three observations)", "why_tests_cant": "the fallback is only reached on inner failures no test provokes", "anchors": ["src/anomaly_detector/univariate/filling_up/fill_up.py: FillingUpProcess.__auto_fill_up, __entire_fill_up"]}
{"id": "C07", "title": "Periodic neighbour lookup terminates and returns only observed same-phase values", "statement": "When averaging over neighbours at multiples of the period, the lookup terminates, and every value it returns is the observed value at a position that differs from the filled position by a positive multiple of the period in the requested direction; without 'try_best' at most n entries are inspected, with 'try_best' exactly the min(n, available) nearest observed same-phase values are returned.", "quantifier": "every array, gap layout, start position, count, period and direction", "why_tests_cant": "the loop skips over gaps with rounding arithmetic; all residues and gap lengths matter", "anchors": ["src/anomaly_detector/univariate/filling_up/fill_up_methods.py: _get_periodical_values"]}
{"id": "C08", "title": "One result per submitted point, in order", "statement": "For every request that returns, the univariate result frame, after removing grid positions that were only filled, has exactly one row per submitted point, in the submitted order, carrying the submitted value and the submitted timestamp; in LATEST mode the reported row is the last submitted point.", "quantifier": "every series, every accepted gap layout, every fill mode", "why_tests_cant": "alignment must hold for every gap layout and every detection outcome", "anchors": ["src/anomaly_detector/univariate/model/detect_model.py: AnomalyDetectionModel.__detect_with_model_selection", "src/anomaly_detector/univariate/univariate_anomaly_detection.py: UnivariateAnomalyDetector.predict"]}
{"id": "C09", "title": "Anomaly flags are mutually consistent", "statement": "In every detection result, a point is an anomaly iff it is exactly one of positive/negative anomaly; a positive anomaly has value > expected value, a negative one value < expected value, and both differ from it by at least 1e-8.", "quantifier": "every series and every outcome of trend, decomposition, score and statistical tests", "why_tests_cant": "must hold for every output the statistical components can produce", "anchors": ["src/anomaly_detector/univariate/model/detect_model.py: detect, merge_with_delta, correct_anomaly_direction", "src/anomaly_detector/univariate/model/dynamic_threshold.py", "src/anomaly_detector/univariate/model/seasonal_series.py", "src/anomaly_detector/univariate/model/spectral_residual_model.py"]}
{"id": "C10", "title": "Reported margins are never negative", "statement": "Every upper_margin and lower_margin returned (boundary V1 for both models, boundary V2) is >= 0 for every sensitivity in [0,100].", "quantifier": "every result frame and every sensitivity", "why_tests_cant": "frames are unbounded; clipping uses global extrema of the frame", "anchors": ["src/anomaly_detector/univariate/util/refine.py: refine_margins, get_margins", "src/anomaly_detector/univariate/util/boundary_utils.py: calculate_margin"]}
{"id": "C11", "title": "V1 band separates normal from anomalous points", "statement": "With boundary version V1 a point is reported as not anomalous iff expected-lower_margin <= value <= expected+upper_margin (exact arithmetic), given detector output whose anomalies differ from their expected value.", "quantifier": "every result frame, model type and sensitivity", "why_tests_cant": "clip/refine interactions over whole frames", "anchors": ["src/anomaly_detector/univariate/util/refine.py: refine_margins"]}
{"id": "C12", "title": "V2 band separates normal from anomalous points", "statement": "With boundary versions V2/V3 a point is reported as anomalous iff it lies strictly outside [expected-lower_margin, expected+upper_margin], and is positive/negative according to the side.", "quantifier": "every result frame and sensitivity", "why_tests_cant": "unbounded frames", "anchors": ["src/anomaly_detector/univariate/util/refine.py: get_margins_v2", "src/anomaly_detector/univariate/util/boundary_utils.py: calculate_margin"]}
{"id": "C13", "title": "Higher sensitivity never removes an anomaly", "statement": "If a point is reported anomalous at sensitivity s1 it is reported anomalous at every sensitivity s2 >= s1 (boundary V1 and V2, same detector output).", "quantifier": "every result frame and every pair of sensitivities", "why_tests_cant": "pairs of sensitivities times unbounded frames; sensitivity 99 and 100 are special-cased", "anchors": ["src/anomaly_detector/univariate/util/boundary_utils.py: factors, calculate_margin", "src/anomaly_detector/univariate/util/refine.py"]}
{"id": "C14", "title": "LATEST agrees with ENTIRE on the last point", "statement": "For the same detector output, the margins, expected value and anomaly flags computed for the latest point equal the last entries of those computed for the entire series (severity in V2 does not: a point flagged by the detector but inside its band gets a positive severity in LATEST and 0 in ENTIRE).", "quantifier": "every result frame and sensitivity", "why_tests_cant": "unbounded frames", "anchors": ["src/anomaly_detector/univariate/util/refine.py: get_margins"]}
{"id": "C15", "title": "Anomaly score is calibrated to sensitivity", "statement": "The V2 anomaly score lies in [0,100], never decreases when the distance from the expected value grows, and for every integer sensitivity s>=1 exceeds 100-s exactly when |value-expected| > unit*factor(s); V1 and V2 severities lie in [0,1].", "quantifier": "every value, expected value, positive unit and sensitivity", "why_tests_cant": "real-valued inputs; bisection boundaries", "anchors": ["src/anomaly_detector/univariate/util/boundary_utils.py: calculate_anomaly_score, calculate_severity_v1, calculate_severity_v2"]}
{"id": "C16", "title": "maxAnomalyRatio bounds the number of reported anomalies", "statement": "With n the number of points the detector sees (the whole grid after filling) and q = max(ceil(n*ratio),1), one answer holds at most 2q anomalies, the spectral-residual model at most q; a point flagged by the dynamic-threshold model has fewer than q points above it or fewer than q below. Expected in addition: the total respects the ratio. The code violates this for dynamic-threshold/seasonal: both tails get the full quota.", "quantifier": "every detector outcome", "why_tests_cant": "all rankings of all detectors", "anchors": ["src/anomaly_detector/univariate/model/detect.py: detect", "src/anomaly_detector/univariate/model/dynamic_threshold.py: detect_anomaly", "src/anomaly_detector/univariate/model/spectral_residual_model.py: spectral_residual_detection"]}
{"id": "C17", "title": "Random-pivot selection returns the k-th smallest", "statement": "quick_select returns the k-th smallest element and leaves a permutation of its input, for every random pivot sequence; fast_median returns the median.", "quantifier": "every list, every k, every pivot sequence", "why_tests_cant": "pivot sequences and duplicates are unbounded", "anchors": ["src/anomaly_detector/univariate/_anomaly_kernel_cython.pyx: partition, select, quick_select, fast_median"]}
{"id": "C18", "title": "Two-halves search computes the median absolute deviation", "statement": "For every sorted (ascending or descending) series and every cut k, the binary search over the two halves around the median returns the median of the absolute deviations of the remaining points, terminates and never reads outside its arrays.", "quantifier": "every sorted list, every k", "why_tests_cant": "binary search boundaries over unbounded lists", "anchors": ["src/anomaly_detector/univariate/_anomaly_kernel_cython.pyx: sorted_median, find_median_sorted_arrays"]}
{"id": "C19", "title": "Outlier tests select a prefix of the extremes", "statement": "generalized_esd_test and dynamic_threshold return a prefix of the tail-ordered indices of length at most max_outliers; in entire mode its length is one more than the largest tested position that is significant; in last mode it is empty or contains the last point; with the caller's quota no access is out of range, also when the series is truncated at its majority value.", "quantifier": "every sorted series, critical values and quota", "why_tests_cant": "all orders of significance", "anchors": ["src/anomaly_detector/univariate/_anomaly_kernel_cython.pyx: generalized_esd_test, dynamic_threshold", "src/anomaly_detector/univariate/detectors/esd_filter.py: ESD.detect"]}
{"id": "C20", "title": "Seasonal cross-validation score is the leave-one-out error", "statement": "gcv returns the per-phase means and the mean squared leave-one-out prediction error of predicting each point by the mean of the other points of its phase, whenever every phase has at least two points; max_gcv returns a candidate with the smallest score.", "quantifier": "every series and period (exact arithmetic)", "why_tests_cant": "algebraic identity over all data", "anchors": ["src/anomaly_detector/univariate/_anomaly_kernel_cython.pyx: gcv, max_gcv"]}
{"id": "C21", "title": "median_filter returns sliding medians", "statement": "median_filter(data, w, True) returns at every position the median of the points within w//2 positions (window truncated at both ends); without two-end mode the interior is the same and the ends are the input; too-short inputs are returned unchanged (all after rounding to single precision). The code violates this at the right end in two-end mode when the data are doubles that are not single-precision numbers: it looks up an unrounded value in a rounded window and removes the wrong element.", "quantifier": "every series and window", "why_tests_cant": "insertion/deletion in a sorted window with ties", "anchors": ["src/anomaly_detector/univariate/_anomaly_kernel_cython.pyx: median_filter"]}
{"id": "C22", "title": "remove_anomaly_in_bucket only replaces spikes", "statement": "Expected: only points more than 3 robust deviations above their phase median are replaced. The code violates this: the deviation it uses is always 1e-8, so every point at least 3e-8 above its phase median is replaced by the median, and never any below.", "quantifier": "every series and period (exact arithmetic)", "why_tests_cant": "the deviation is computed from signed deviations for every input", "anchors": ["src/anomaly_detector/univariate/_anomaly_kernel_cython.pyx: remove_anomaly_in_bucket"]}
{"id": "C23", "title": "average_filter is the documented sliding mean", "statement": "average_filter returns sum of the last t=min(n,i+1) values divided by t at each position i, and with fill_to_n the first n-1 outputs average over n with the absent values replaced by the mean of the previous ones.", "quantifier": "every list and window", "why_tests_cant": "cumulative-sum slicing for all lengths", "anchors": ["src/anomaly_detector/univariate/util/helpers.py: average_filter"]}
{"id": "C24", "title": "interp fills NaN by linear interpolation and leaves the rest", "statement": "interp keeps every non-NaN value, replaces NaNs between two values by the linear interpolant, leading/trailing NaNs by the nearest value; results stay within the range of the non-NaN values.", "quantifier": "every list with at least one value", "why_tests_cant": "all NaN layouts", "anchors": ["src/anomaly_detector/univariate/util/helpers.py: interp"]}
{"id": "C25", "title": "normalize maps onto [0,1] preserving order", "statement": "normalize returns a constant series unchanged, otherwise maps min to 0, max to 1, everything into [0,1], strictly monotonically.", "quantifier": "every non-empty series (exact arithmetic)", "why_tests_cant": "all series", "anchors": ["src/anomaly_detector/univariate/util/helpers.py: normalize"]}
{"id": "C26", "title": "leastsq is the least-squares line", "statement": "leastsq(x,y) returns the slope and intercept minimising the sum of squared residuals whenever x is not constant.", "quantifier": "every pair of lists of equal length, every competing line", "why_tests_cant": "optimality over all lines", "anchors": ["src/anomaly_detector/univariate/util/helpers.py: leastsq"]}
{"id": "C27", "title": "Differencing can be undone", "statement": "For d=1,2 the d-th difference series built by get_delta has the length of the original, and reverse_delta with the right initial value restores the (d-1)-th difference series exactly.", "quantifier": "every series with at least 3 points (exact arithmetic)", "why_tests_cant": "all series", "anchors": ["src/anomaly_detector/univariate/util/helpers.py: get_delta, reverse_delta", "src/anomaly_detector/univariate/model/detect_model.py: should_include_delta, correct_expectedValue_in_delta"]}
{"id": "C28", "title": "Detected periods always fit twice into the series", "statement": "Whenever automatic period detection returns p>0 then 2p < number of points used, so detection with a detected period never fails with 'needs at least 2 periods'; the repeated sub-sampling of the spectrum detector terminates.", "quantifier": "every series, granularity, interval and every outcome of the numeric tests", "why_tests_cant": "period products and sub-sampling lengths interact for all sizes", "anchors": ["src/anomaly_detector/univariate/period/simple.py: SimpleDetector", "src/anomaly_detector/univariate/period/spectrum.py: SpectrumDetector.detect, calculate_period", "src/anomaly_detector/univariate/period/period_detect.py"]}
{"id": "C29", "title": "Period detection answers for every granularity", "statement": "Expected: automatic period detection returns for every granularity (whenever the trend fit answers values of the series' size). The code violates this: for microsecond granularity with more than 2000 points and a confirmed period of 1000 it raises KeyError.", "quantifier": "every series", "why_tests_cant": "needs the rare combination of granularity, length and periodicity", "anchors": ["src/anomaly_detector/univariate/period/simple.py: SimpleDetector.standard_period, verify_period"]}
{"id": "C30", "title": "Correlogram search terminates with candidate periods in range", "statement": "correlogram_detector terminates for every autocorrelation sequence (NaN included) and returns distinct periods strictly between 4 and the maximum lag, in decreasing order of autocorrelation.", "quantifier": "every autocorrelation and confidence sequence", "why_tests_cant": "a while-True loop over float data", "anchors": ["src/anomaly_detector/univariate/period/spectrum.py: SpectrumDetector.correlogram_detector"]}
{"id": "C31", "title": "Calendar difference counts whole months", "statement": "For every start date and every k>=0, the date k months later (clipped to the month's end) is reported as k//12 years, k%12 months and 0 days after the start; 0 days are reported exactly for dates whose day of month agrees up to one of the two being its month's end; otherwise the whole months and the days left over are reported; swapping the dates changes all signs.", "quantifier": "every pair of dates", "why_tests_cant": "all month lengths, leap years, year wraps", "anchors": ["src/anomaly_detector/univariate/util/date_utils.py: get_date_difference"]}
{"id": "C32", "title": "Regular timestamps give the grid indices", "statement": "For granularity secondly..weekly with any custom interval, timestamps on whole seconds are accepted iff every one is a whole number of intervals after the first, and then the index is that number (IEEE double arithmetic, microsecond counts below 2^53); otherwise the first timestamp off the grid is named. For monthly/yearly, timestamps k_i*interval months/years after the first (clipped to the month's end) get index k_i; the position named for a rejected list is not always the first invalid one, contrary to the documentation.", "quantifier": "every timestamp list, granularity and interval", "why_tests_cant": "float division must be exact for all spans; all calendar layouts", "anchors": ["src/anomaly_detector/univariate/util/helpers.py: get_indices_from_timestamps"]}
{"id": "C33", "title": "Microsecond granularity indexes milliseconds exactly", "statement": "Expected: for granularity 'microsecond' (milliseconds), timestamps k_i intervals after the first get index k_i. The code violates this: one millisecond after 2004-03-23 00:00 gets index 0, and interval 4007 is turned into 4006, so a regular series is refused. It holds for all timestamps from November 2004 to January 2038 and all intervals up to 4006.", "quantifier": "every timestamp and interval", "why_tests_cant": "only specific timestamps are hit by rounding", "anchors": ["src/anomaly_detector/univariate/util/helpers.py: get_indices_from_timestamps, get_microsecond_by_granularity"]}
{"id": "C34", "title": "Invalid requests are rejected with a request error", "statement": "Expected: every request failing validation raises AnomalyDetectionRequestError with the documented code. The code violates this: no validation failure ever raises it; parameter failures end in TypeError, most series failures in KeyError or ValueError, and a too-short series for the given period is not stopped by validation at all.", "quantifier": "every request", "why_tests_cant": "validation outcome for every combination of parameters", "anchors": ["src/anomaly_detector/univariate/univariate_anomaly_detection.py: UnivariateAnomalyDetector.parse_arg, series_validator, predict"]}
{"id": "C35", "title": "series_validator classifies exactly the documented series", "statement": "The validator accepts a series iff it has 12..8640 points, every value is a non-NaN number within +-1e100 and, when a granularity is given, timestamps parse, are strictly increasing and lie on the grid and the series covers two periods; otherwise it returns the documented code of the first failing check.", "quantifier": "every series and parameter set", "why_tests_cant": "all combinations of defects", "anchors": ["src/anomaly_detector/univariate/univariate_anomaly_detection.py: UnivariateAnomalyDetector.series_validator, is_timestamp_ascending"]}
{"id": "C36", "title": "Repeating a request gives the same answer", "statement": "Expected: calling predict twice with the same parameter dictionary behaves the same. The code violates this: the dictionary is rewritten in place and the second call always raises TypeError.", "quantifier": "every request that succeeds", "why_tests_cant": "needs a history of two calls", "anchors": ["src/anomaly_detector/univariate/univariate_anomaly_detection.py: UnivariateAnomalyDetector.parse_arg"]}
{"id": "C37", "title": "Detection mode follows the request", "statement": "Expected: a UnivariateAnomalyDetector uses the detect_mode of each request. The code violates this: the mode of the first request that gets past argument parsing is used for every later request; Entire/LatestAnomalyDetector always use their own mode.", "quantifier": "every sequence of requests", "why_tests_cant": "history property", "anchors": ["src/anomaly_detector/univariate/univariate_anomaly_detection.py: UnivariateAnomalyDetector.predict"]}
{"id": "C38", "title": "Impute parameters reach the detector", "statement": "imputeMode/fillUpMode select the documented fill: 'zero' fills with 0, 'previous','linear','auto','notFill' as named; legacy fillUpMode 'fixed' fills with fixedValue. Expected also: imputeMode 'fixed' fills with imputeFixedValue. The code violates this: the value is dropped for every request.", "quantifier": "every request", "why_tests_cant": "all parameter combinations", "anchors": ["src/anomaly_detector/univariate/univariate_anomaly_detection.py: UnivariateAnomalyDetector.parse_arg", "src/anomaly_detector/univariate/model/series_compete_processor.py: fill_up_on_demand"]}
{"id": "C39", "title": "An explicitly chosen detector is honoured", "statement": "Expected: a request naming a detector with parameters is answered by that detector. The code violates this: every such request raises (unless hbos falls back to model selection).", "quantifier": "every request with an explicit detector", "why_tests_cant": "all detector/parameter combinations", "anchors": ["src/anomaly_detector/univariate/model/detect_model.py: AnomalyDetectionModel.__detect_without_model_selection"]}
{"id": "C40", "title": "Suggested window", "statement": "In LATEST mode suggested_window is 4*period+1 for a seasonal series and the granularity's default window + 1 otherwise; it is always positive.", "quantifier": "every request", "why_tests_cant": "all granularities and periods", "anchors": ["src/anomaly_detector/univariate/univariate_anomaly_detection.py: predict", "src/anomaly_detector/univariate/util/enum.py"]}
{"id": "C41", "title": "Sliding windows never leave the data", "statement": "Every training/inference sample uses rows hi-window..hi-1 and target row hi-1+horizon, all inside the data; samples are equally spaced by the interval; with interval 1 and horizon 1 there are exactly max(0,rows-window) of them. For larger intervals the last complete window may be left out although all its rows are present.", "quantifier": "every data length, window, interval and horizon", "why_tests_cant": "all size combinations", "anchors": ["src/anomaly_detector/multivariate/dataset.py: MultiADDataset"]}
{"id": "C42", "title": "Multivariate results are aligned with their rows", "statement": "predict returns one result for each of the last rows-input_size-threshold_window+1 rows in order; the score of the result labelled with row r is the prediction error of row r from the input_size rows before it, for every batch size.", "quantifier": "every data length, window configuration and batch size (index sorted)", "why_tests_cant": "slicing arithmetic for all sizes", "anchors": ["src/anomaly_detector/multivariate/model.py: MultivariateAnomalyDetector.predict, inference, _pack_response"]}
{"id": "C43", "title": "Multivariate results carry the right label for unsorted input", "statement": "Expected: each result's index is the index of the row it scores. The code violates this when the frame's index is not sorted: rows are sorted before scoring but labels are taken in submitted order.", "quantifier": "every frame", "why_tests_cant": "needs an unsorted frame", "anchors": ["src/anomaly_detector/multivariate/model.py: MultivariateAnomalyDetector.predict", "src/anomaly_detector/common/data_processor.py: MultiADDataProcessor.process"]}
{"id": "C44", "title": "Adaptive threshold looks at the window ending at the scored row", "statement": "Expected: a row is compared with the 95% quantile of the threshold_window scores ending at that row. The code violates this: for every threshold_window the window used ends threshold_window-1 rows earlier (and is truncated for the first rows), so decisions agree with the expectation for threshold_window = 1 but not for 2. DetectionResults, the batch variant, uses the expected window.", "quantifier": "every score sequence and window", "why_tests_cant": "index arithmetic for all sizes", "anchors": ["src/anomaly_detector/multivariate/model.py: MultivariateAnomalyDetector.predict", "src/anomaly_detector/multivariate/module.py: DetectionResults.compute_detection_results"]}
{"id": "C45", "title": "Multivariate anomaly decision respects hard thresholds", "statement": "A score above max(0.5, trained threshold) is always an anomaly, a score below min(0.3, trained threshold) never; severity is 0 for non-anomalies, lies in [0,1], and equals score/(e-1) for anomalies.", "quantifier": "every score sequence and threshold", "why_tests_cant": "real-valued inputs", "anchors": ["src/anomaly_detector/multivariate/model.py: predict", "src/anomaly_detector/multivariate/util.py: compute_severity"]}
{"id": "C46", "title": "Missing multivariate values are always filled and observed ones kept", "statement": "After processing no cell is missing, every observed cell keeps its value, and missing cells follow the chosen method (previous else next; next else previous; linear between neighbours with constant ends; fixed; zero; all-missing columns become 0).", "quantifier": "every column and every method", "why_tests_cant": "all NaN layouts", "anchors": ["src/anomaly_detector/common/data_processor.py: MultiADDataProcessor.fill_na"]}
{"id": "C47", "title": "Window sizes derived from sliding_window", "statement": "compute_window_sizes splits sliding_window w into input_size=w//2 and threshold_window=min(200,w-w//2); predict needs exactly input_size+threshold_window rows, which equals w iff w<=400.", "quantifier": "every integer w", "why_tests_cant": "integer boundaries", "anchors": ["src/anomaly_detector/multivariate/model.py: compute_window_sizes, predict"]}
{"id": "C48", "title": "Fitting twice with the same parameters gives the same configuration", "statement": "Expected: fit(data, params) twice with the same dictionary uses the same configuration. The code violates this: sliding_window and the fill settings are removed from the caller's dictionary, so the second call uses window sizes 200/200 and linear fill.", "quantifier": "every parameter dictionary", "why_tests_cant": "history property", "anchors": ["src/anomaly_detector/multivariate/model.py: _process_data_and_params"]}
{"id": "C49", "title": "The checkpoint used after training is the first best epoch", "statement": "After fit the loaded weights are those at the end of the earliest epoch with the smallest validation loss; if no epoch ever improves (no epochs, or all losses NaN) the file left by an earlier run is loaded.", "quantifier": "every sequence of validation losses", "why_tests_cant": "all loss histories", "anchors": ["src/anomaly_detector/multivariate/model.py: fit, save_checkpoint, load_checkpoint"]}
{"id": "C50", "title": "Min-max normalisation is total and bounded", "statement": "minmax_normalize never divides by zero when max>=min, is monotone, returns values within the clip bounds, maps training data into [0,1) without clipping, and constant variables to 0.", "quantifier": "every value and range", "why_tests_cant": "real-valued inputs", "anchors": ["src/anomaly_detector/multivariate/util.py: minmax_normalize"]}
{"id": "C51", "title": "Interpretation lists every variable once, by decreasing contribution", "statement": "Each result's interpretation names every variable exactly once, in decreasing order of contribution_score, each with its own score; at most 10 changed variables per entry, ordered by decreasing magnitude, each carrying the attention change of that (variable, changed variable) pair and exceeding min(0.001, 1/(1.25 n)) in magnitude; for every argsort tie-breaking.", "quantifier": "every score matrix, attention tensor and argsort", "why_tests_cant": "all orders and ties", "anchors": ["src/anomaly_detector/multivariate/model.py: _pack_response"]}
{"id": "C52", "title": "Batching does not change inference", "statement": "Concatenating the per-batch outputs gives, for every batch size >= 1, the same scores in the same order as scoring the samples one by one; with drop_last a training epoch sees exactly (samples div batch)*batch samples.", "quantifier": "every dataset size and batch size", "why_tests_cant": "all sizes", "anchors": ["src/anomaly_detector/multivariate/model.py: inference, train_epoch", "src/anomaly_detector/multivariate/util.py: append_result"]}
{"id": "C53", "title": "Percentage weights", "statement": "get_multiple_variables_pct_weight_score gives every variable weight 1 or the fraction of strongly varying variables; every weight is in (0,1].", "quantifier": "every variability profile", "why_tests_cant": "all profiles", "anchors": ["src/anomaly_detector/multivariate/util.py: get_multiple_variables_pct_weight_score"]}
{"id": "C54", "title": "A saved checkpoint restores a usable detector", "statement": "Expected: a detector restored with load_checkpoint from the file written by fit predicts like the fitted one. The code violates this: the file never contains the threshold computed by that fit, so predict on a fresh restored detector raises TypeError.", "quantifier": "every history of fit/load/predict", "why_tests_cant": "history property", "anchors": ["src/anomaly_detector/multivariate/model.py: fit, save_checkpoint, load_checkpoint, predict"]}
{"id": "C55", "title": "Training threshold lies within the training scores", "statement": "compute_thresholds returns one of the training scores, at most a fraction 1-level of the scores being above it, and min<=threshold<=max, for every level in [0,1); get_threshold never indexes out of range.", "quantifier": "every score list and level", "why_tests_cant": "rounded index arithmetic for all lengths", "anchors": ["src/anomaly_detector/multivariate/model.py: compute_thresholds", "src/anomaly_detector/multivariate/util.py: get_threshold"]}
{"id": "C56", "title": "Losses are non-negative averages", "statement": "The training loss is >= 0 for beta >= 0, the KL term is >= 0 with equality iff mu=0 and logv=0, and the epoch loss reported is the sum of batch losses divided by the number of samples.", "quantifier": "all predictions and latent codes (real arithmetic)", "why_tests_cant": "real-valued inputs", "anchors": ["src/anomaly_detector/multivariate/module.py: AnomalyDetectionCriterion", "src/anomaly_detector/multivariate/util.py: AverageMeter"]}
{"id": "C57", "title": "Attention maps are probability rows", "statement": "GAT.forward's attention map has positive entries, every row sums to 1, and entry (i,j) is the softmax over j of leaky_relu(key_i+query_j); each mixed feature stays within the range of the features it mixes.", "quantifier": "all inputs and weights (real arithmetic)", "why_tests_cant": "real-valued inputs; index layout of repeat/view for all sizes", "anchors": ["src/anomaly_detector/multivariate/module.py: GAT.forward"]}
{"id": "C58", "title": "Recognised timestamp layouts are parsed", "statement": "Expected: every date written in one of the eight recognised layouts is parsed. The code violates this for three layouts ('... +zzzz', 'dd/dd/dddd', 'dddddddd'), for which every text raises ValueError. The texts accepted are exactly the writings of calendar moments in the other five layouts, each read as the moment written.", "quantifier": "every string", "why_tests_cant": "regex/format pairs over all strings", "anchors": ["src/anomaly_detector/univariate/util/date_utils.py: format_timestamp_str"]}
{"id": "C59", "title": "Spectral-residual expected values are local means", "statement": "In entire mode the expected value is the 5-point trailing mean of: the observed value at skeleton points, elsewhere the mean of the skeleton points in positions i//2..i (or of all points up to i if there are none). In latest mode it is the observed value, except at the last point, where it is the mean of the later half of the skeleton points. It always lies in the range of the series.", "quantifier": "every series and score sequence (exact arithmetic)", "why_tests_cant": "prefix-sum arithmetic for all lengths", "anchors": ["src/anomaly_detector/univariate/model/spectral_residual_model.py: spectral_residual_detection"]}
{"id": "C60", "title": "Normalised spectral-residual score is 0 for normal points", "statement": "Expected: raw scores up to the minimum raw score 3.5 normalise to 0 and 15 to 1. The code violates this through operator precedence: every raw score above 7/23 is positive and everything above 30/23 saturates at 1.", "quantifier": "every raw score", "why_tests_cant": "numeric boundary", "anchors": ["src/anomaly_detector/univariate/model/spectral_residual_model.py: spectral_residual_detection"]}
{"id": "C61", "title": "Optimised spectral amplitude equals its reference", "statement": "The running-product amplitude equals exp of the 3-point trailing average of the log magnitudes (zero magnitudes counting as log 0 := 0), so the transform equals the commented reference implementation over the reals. In binary64 it does not: three coefficients of 1e103 overflow the running product for good.", "quantifier": "every magnitude sequence (real arithmetic)", "why_tests_cant": "algebraic identity for all sequences with zeros", "anchors": ["src/anomaly_detector/univariate/_anomaly_kernel_cython.pyx: spectral_residual_transform_core"]}
{"id": "C62", "title": "Delta re-detection only adds anomalies and stays within quota", "statement": "merge_with_delta keeps every previously reported row unchanged, only adds anomalies at rows that had none, and re-detects only when quota is left.", "quantifier": "every detector outcome", "why_tests_cant": "all outcomes", "anchors": ["src/anomaly_detector/univariate/model/detect_model.py: merge_with_delta"]}
{"id": "C63", "title": "Calculated critical values can be shared by position", "statement": "calculate_esd_values depends only on n-i, so the tabulated critical values are used consistently for every series length up to the table length, and the returned slice always has max_outliers entries.", "quantifier": "every n, quota", "why_tests_cant": "all lengths", "anchors": ["src/anomaly_detector/univariate/util/helpers.py: get_critical", "src/anomaly_detector/univariate/_anomaly_kernel_cython.pyx: calculate_esd_values"]}
{"id": "C66", "title": "A point is anomalous exactly when it is outside its reported band, end to end", "statement": "Whenever a univariate request is answered, the answer holds one outcome per submitted point, in the submitted order and beside its own timestamp (LATEST: the last point and the last timestamp); margins are not negative, and a point is reported positive iff its submitted value is above expectedValue+upperMargin, negative iff below expectedValue-lowerMargin, normal iff within.", "quantifier": "every request that is answered, both boundary versions, every integer sensitivity, every fill mode", "why_tests_cant": "quantifies over all series and all outcomes of the numerical routines", "anchors": ["src/anomaly_detector/univariate/univariate_anomaly_detection.py: predict", "src/anomaly_detector/univariate/model/detect_model.py: detect", "src/anomaly_detector/univariate/util/refine.py: get_margins"]}
{"id": "C64", "title": "Statistic fills use exactly the nearest submitted neighbours", "statement": "Filling by min, max, average or median with if_short_of_knowledge='try_best' and without reusing filled values gives every missing position exactly that statistic of the backward_n nearest submitted values before it and the forward_n nearest after it, at distances that are multiples of the period when a period is considered; the weighted average gives the neighbour at rank k its own weight even when others are absent. A position stays empty only when there is no such neighbour, which cannot happen without a period.", "quantifier": "every accepted series, gap, neighbour count, period and positive weight list", "why_tests_cant": "the neighbour sets depend on the whole gap structure", "anchors": ["src/anomaly_detector/univariate/filling_up/fill_up_methods.py: basic_func, _get_backward_forward_values, _get_periodical_values", "src/anomaly_detector/univariate/filling_up/fill_up.py: FillingUpProcess.fill_up"]}
{"id": "C65", "title": "Gap listings are exact", "statement": "get_missing_indices lists exactly the grid positions without a submitted value in ascending order; get_missing_segments lists exactly the maximal gaps as (start, length) in order.", "quantifier": "every accepted series that needs filling", "why_tests_cant": "all gap structures", "anchors": ["src/anomaly_detector/univariate/filling_up/fill_up.py: FillingUpProcess.get_missing_indices, get_missing_segments"]}
{"id": "C67", "title": "Short gaps between steady neighbours are filled within their range", "statement": "Automatic filling with a period fills a gap of at most six positions and a quarter of the period by the spline, or by the straight line when at least three of the four neighbouring submitted values rise or fall steadily and the spline leaves their range, clipped to the submitted range; so such a gap is always filled within the range of its neighbours. Expected for every gap; violated for a gap right behind the first point, whose value is never counted as a neighbour.", "quantifier": "every accepted series, short gap and interpolating spline", "why_tests_cant": "the spline is arbitrary", "anchors": ["src/anomaly_detector/univariate/filling_up/fill_up.py: FillingUpProcess.__scatter_distribution_fill_up, __auto_fill_up"]}
{"id": "C68", "title": "Statistically significant outliers are reported", "statement": "With the dynamic-threshold model in ENTIRE mode and no majority value, if a point at tail position k (k below the quota) is significant for the ESD test against the points further in, it is reported as an anomaly together with every point further out in its tail; adding the z-score detector never displaces it.", "quantifier": "every series of at least 4 points, both tails, every sensitivity of the statistics", "why_tests_cant": "all series and tie orders", "anchors": ["src/anomaly_detector/univariate/model/dynamic_threshold.py: dynamic_threshold_detection", "src/anomaly_detector/univariate/model/detect.py: detect", "src/anomaly_detector/univariate/detectors/esd_filter.py: ESD.detect"]}
{"id": "C69", "title": "Spectral residual reports the highest scores", "statement": "The points the spectral-residual detector reports are those with the highest raw scores among the points whose raw score reaches the threshold, exactly as many as the quota max(1, floor(n*ratio)) admits; in LATEST mode a last value within 1.5 standard deviations of the mean is never reported.", "quantifier": "every series, score sequence, threshold, ratio and order among ties", "why_tests_cant": "all series and tie orders", "anchors": ["src/anomaly_detector/univariate/model/spectral_residual_model.py: spectral_residual_detection", "src/anomaly_detector/univariate/detectors/spectral_residual.py: SpectralResidual._detect"]}
{"id": "C70", "title": "Without validation windows the first epoch wins", "statement": "When the validation share of the rows is too small to hold one window plus its target, every epoch's validation loss is the same 0 and fit returns the weights after the first epoch, whatever the number of epochs.", "quantifier": "every frame, parameter dictionary and training procedure", "why_tests_cant": "history property over epochs and sizes", "anchors": ["src/anomaly_detector/multivariate/model.py: fit, evaluate_epoch", "src/anomaly_detector/multivariate/util.py: AverageMeter"]}
{"id": "C71", "title": "A training set smaller than one batch trains nothing", "statement": "When there are fewer training windows than batch_size, fit succeeds without a single optimisation step and returns the initial weights.", "quantifier": "every frame and parameter dictionary", "why_tests_cant": "needs the drop_last loader and the whole epoch loop", "anchors": ["src/anomaly_detector/multivariate/model.py: fit, train_epoch"]}
{"id": "C72", "title": "Column order is irrelevant", "statement": "fit and predict give the same answer, error or checkpoint for two frames that differ only in the order of their (distinctly named) columns.", "quantifier": "every frame, history and parameter dictionary", "why_tests_cant": "relation between two runs", "anchors": ["src/anomaly_detector/common/data_processor.py: MultiADDataProcessor.process", "src/anomaly_detector/multivariate/model.py: fit, predict"]}
{"id": "C73", "title": "Scores do not depend on the order of the submitted rows", "statement": "Submitting the same rows (distinct index values) in another order gives the same list of scores, decisions, severities and interpretations; only the labels follow the submitted order.", "quantifier": "every frame and every permutation of its rows", "why_tests_cant": "relation between two runs", "anchors": ["src/anomaly_detector/common/data_processor.py: MultiADDataProcessor.process", "src/anomaly_detector/multivariate/model.py: predict"]}
{"id": "C74", "title": "Variables are matched by position, not by name", "statement": "Expected: predict refuses, or matches by name, a frame whose variables differ from the ones it was trained on. The code violates this: only the alphabetical position matters, a frame with entirely different names is scored.", "quantifier": "every frame and trained detector", "why_tests_cant": "relation between two runs", "anchors": ["src/anomaly_detector/multivariate/model.py: predict, load_checkpoint"]}
{"id": "C75", "title": "A column called timestamp cannot be trained on", "statement": "fit fails for every frame of three or more columns of which one is named 'timestamp', because the weight vector skips that column and the data does not.", "quantifier": "every frame and parameter dictionary", "why_tests_cant": "needs the whole training pipeline", "anchors": ["src/anomaly_detector/multivariate/util.py: get_multiple_variables_pct_weight_score", "src/anomaly_detector/multivariate/model.py: fit"]}
{"id": "C76", "title": "Training does not depend on the order of the submitted rows", "statement": "Expected: fit on the same rows in another order gives the same detector. The code violates this: the percentage weights are computed on the unsorted frame; if the weights agree everything agrees.", "quantifier": "every frame and every permutation of its rows", "why_tests_cant": "relation between two runs", "anchors": ["src/anomaly_detector/multivariate/model.py: fit", "src/anomaly_detector/multivariate/util.py: get_multiple_variables_pct_weight_score"]}
{"id": "C77", "title": "Smoothing and pooling keep variables apart", "statement": "The smoothed value of (batch b, step t, variable d) is the mean of the kernel values of that same variable and batch from step t on; a pooled entry is the maximum of the steps overlapping its share of the time axis, and every step is used.", "quantifier": "all sizes and inputs (real arithmetic)", "why_tests_cant": "index layout of permute/view for all sizes", "anchors": ["src/anomaly_detector/multivariate/module.py: MultivariateGraphAttnDetector.forward"]}
{"id": "C78", "title": "Distinct monthly or yearly timestamps get distinct indices", "statement": "Expected: timestamps accepted for granularity monthly or yearly get different indices when they differ. The code violates this: with a start on 28 February, 28 and 31 March both get index 1. Two accepted timestamps share an index exactly when they lie in the same calendar month.", "quantifier": "every accepted list of timestamps", "why_tests_cant": "month ends and leap years", "anchors": ["src/anomaly_detector/univariate/util/helpers.py: get_indices_from_timestamps", "src/anomaly_detector/univariate/util/date_utils.py: get_date_difference"]}
{"id": "C79", "title": "Microseconds do not disturb the grid", "statement": "For granularity secondly..weekly, timestamps with microseconds between 2004-01-10 13:37:04 and 2038-01-19 03:14:08 are accepted iff all are a whole number of intervals after the first, with that number as index. Expected for all times; the code violates this for series that cross the border of that range.", "quantifier": "every timestamp list and interval", "why_tests_cant": "rounding of every timestamp in IEEE doubles", "anchors": ["src/anomaly_detector/univariate/util/helpers.py: get_indices_from_timestamps"]}
{"id": "C80", "title": "A whole request is answered point by point", "statement": "For a request with valid parameters and series and no explicit detector, an ENTIRE answer has one outcome per submitted point, in order, under its timestamp (its position when timestamps are missing), and reports a point as anomalous exactly when its value lies outside its own band; a LATEST answer is the outcome of the last submitted point.", "quantifier": "every valid request and every behaviour of the numerical libraries", "why_tests_cant": "composition of parsing, validation, detection and margins for all inputs", "anchors": ["src/anomaly_detector/univariate/univariate_anomaly_detection.py: UnivariateAnomalyDetector.predict"]}
{"id": "C81", "title": "Request parameters reach the detector as documented", "statement": "The detector is asked about the submitted values with exactly the documented reading of every parameter, omitted ones taking their documented default (alpha 0.05, maxAnomalyRatio 0.25, threshold 3.5, sensitivity 99, fill auto, granularity none, boundary V1); its exception reaches the caller, and its rows are always turned into an answer.", "quantifier": "every valid request", "why_tests_cant": "all parameter combinations", "anchors": ["src/anomaly_detector/univariate/univariate_anomaly_detection.py: UnivariateAnomalyDetector.parse_arg, predict", "src/anomaly_detector/univariate/util/fields.py"]}
{"id": "C82", "title": "Accepted series can be filled", "statement": "The indices of an accepted series without granularity, or with granularity second to week and whole-second or recent timestamps, start at 0 and increase strictly, so the filling process accepts them.", "quantifier": "every accepted series", "why_tests_cant": "calendar order against floating point grid positions", "anchors": ["src/anomaly_detector/univariate/univariate_anomaly_detection.py: UnivariateAnomalyDetector.series_validator", "src/anomaly_detector/univariate/filling_up/fill_up.py: FillingUpProcess.__init__"]}
{"id": "C83", "title": "The detected period does not depend on the unit", "statement": "Replacing every value x by k*x+b with k>0 leaves the detected period (and the stage that found it) unchanged, for every series with two different values.", "quantifier": "every series, positive factor, shift, granularity, and every behaviour of the numerical libraries", "why_tests_cant": "relation between two runs over all inputs", "anchors": ["src/anomaly_detector/univariate/period/period_detect.py: period_detection", "src/anomaly_detector/univariate/period/simple.py: SimpleDetector.is_valid_period", "src/anomaly_detector/univariate/period/spectrum.py: SpectrumDetector.detect"]}
{"id": "C84", "title": "Exactly repeating calendar cycles are recognised", "statement": "A series that repeats exactly every week (three months for weekly, a year for monthly data), covers more than two such cycles and has no spike beyond 2.98 standard deviations is given exactly that period; one that repeats every day and is no longer than two weeks is given the day.", "quantifier": "every such series of at most 10^7 points, every interval", "why_tests_cant": "all lengths, values and intervals", "anchors": ["src/anomaly_detector/univariate/period/simple.py: SimpleDetector"]}
{"id": "C85", "title": "A constant series has no period", "statement": "Period detection on a constant series of 12 or more points returns 0 for every granularity and interval (given that the trend fit of a constant is constant).", "quantifier": "every constant, length, granularity and interval", "why_tests_cant": "all lengths and parameters", "anchors": ["src/anomaly_detector/univariate/period/period_detect.py: period_detection", "src/anomaly_detector/univariate/period/simple.py: SimpleDetector.is_valid_period", "src/anomaly_detector/univariate/period/spectrum.py: SpectrumDetector.fit_seasons"]}
{"id": "C86", "title": "The detector is chosen by period, sampling rate and spread", "statement": "With no detector asked for, the seasonal detector answers exactly when the period used exceeds 1; otherwise the spectral residual answers exactly when the data are minutely or secondly with points less than an hour apart and the robust deviation of the values is at least 1e-8; the dynamic threshold answers everything else. A series more than half of whose values are equal never goes to the spectral residual.", "quantifier": "every answered call without an explicit detector, every behaviour of the numerical libraries", "why_tests_cant": "all series, periods, granularities and intervals", "anchors": ["src/anomaly_detector/univariate/model/detect_model.py: should_trigger_sr", "src/anomaly_detector/univariate/model/detect_model.py: AnomalyDetectionModel.__detect_with_model_selection"]}
{"id": "C87", "title": "The series is padded with its own continuation", "statement": "Before the spectral transform five copies of one predicted value are appended: in ENTIRE mode predicted from the last six inliers (points within 1.5 interquartile ranges of the quartiles; the median where there are fewer), in LATEST mode from the six points before the last. The prediction continues a straight line exactly and follows changes of unit and offset.", "quantifier": "every series (exact arithmetic)", "why_tests_cant": "all lengths, orders and values", "anchors": ["src/anomaly_detector/univariate/detectors/spectral_residual.py: SpectralResidual.predict_next, extend_series"]}
{"id": "C88", "title": "Raw spectral scores are relative deviations", "statement": "For non-negative magnitudes every raw score s of magnitude m satisfies m = a + s*a or m = a - s*a, where a is the average of the last 100 magnitudes (1e-8 where that is the size of the average); scores are never negative and no division by zero occurs.", "quantifier": "every series and magnitude sequence (exact arithmetic)", "why_tests_cant": "all lengths and values including zero averages", "anchors": ["src/anomaly_detector/univariate/detectors/spectral_residual.py: SpectralResidual.generate_spectral_score"]}
{"id": "C89", "title": "Seasonal and trend parts add up to the series without its spikes", "statement": "For a series of more than two cycles the decomposition used by the seasonal detector answers with one entry per point; seasonal part, trend and remainder add up exactly to the series in which every spike (three standard deviations or more off the trend, at a phase that is so in at most half of the complete cycles) takes the nearest earlier ordinary detrended value and all other points are kept. The logarithmic variant is used exactly when the plain one is off by more than 10% on average and the logarithmic one by less than 5%, and never takes the logarithm of a number below 1, whatever the sign of the data. In LATEST mode the series is also decomposed with one more point, the median of its phase, and the variant with the smaller last remainder is used.", "quantifier": "every series, period, mode and every additive decomposition library", "why_tests_cant": "all series and all outputs of the decomposition library", "anchors": ["src/anomaly_detector/univariate/util/r_stl.py: stl_core, stl_log, stl, stl_adjust_trend", "src/anomaly_detector/univariate/util/stl_helpers.py: get_outlier, de_outlier_stl", "src/anomaly_detector/univariate/model/seasonal_series.py: detect_ts"]}
{"id": "C90", "title": "A trend is always found, with a window matched to the period", "statement": "Extracting the trend of a series succeeds with one value per point when a period is given or the values are at least 8192 times smaller than the largest C float. Without a period it fails with a bare Exception as soon as a sliding median over two thirds of the points exceeds the largest C float (3.4e38), although the validator accepts values up to 1e100. Fewer than six points get their mean everywhere. Otherwise the trend is a spline whose number of segments is one more than the number of double windows that fit in the series, with its ends straightened over one window; the window is two periods less a point, or a third of the points (at most 512) when there is no period, and always lies between 2 and n-1. When no period is given it is guessed: the peaks the periodogram finds in what a broad median trend leaves, averaged with their scores as weights and rounded to the nearest integer (ties to even), or a third of the points when there is no peak; the guess never exceeds half of the points.", "quantifier": "every series, given period and library answer", "why_tests_cant": "all series, all peaks and scores the library may report", "anchors": ["src/anomaly_detector/univariate/util/helpers.py: trend_detection, fit_trend, guess_trended_period"]}
{"id": "C91", "title": "Valid requests are answered", "statement": "A request that passes the documented checks, without a detector object, is answered with one outcome per submitted point and no exception, if (a) imputeMode 'fixed' is not combined with gaps, (b) no period is to be searched at microsecond granularity, (c) a given period is 0 or 1, or at most half of the grid is missing and two periods fit into the series looked at, (d) the ratio of anomalies is at most a quarter (the default) or twice the largest number of anomalies per direction plus half a period leaves a point, and (e) a period above 1 is given or the values do not exceed 1e34. In particular 12 to 8640 numbers within 1e34 with default parameters are always answered. REFUTED without (c), (d) and (e): values of 1e40 are accepted by the checks but overflow the C floats of the median trend and end in a bare Exception; the checks accept periods that do not fit when there is no granularity or fillUpMode is the string 'no', and a ratio of 0.49 for which every point may be set aside; both end in a bare ValueError.", "quantifier": "every request, object and every behaviour of the numerical libraries within their documented domains", "why_tests_cant": "totality over all requests, series and library answers; the failures need particular combinations of period, ratio and values", "anchors": ["src/anomaly_detector/univariate/univariate_anomaly_detection.py: UnivariateAnomalyDetector.predict", "src/anomaly_detector/univariate/model/detect_model.py: AnomalyDetectionModel.detect", "src/anomaly_detector/univariate/model/seasonal_series.py: detect_ts", "src/anomaly_detector/univariate/model/series_compete_processor.py: period_detection_with_filled_values"]}
{"id": "C92", "title": "The network takes every batch of full windows and answers between 0 and 1", "statement": "The network of the multivariate detector takes a batch of windows exactly when the windows have as many variables as it was built for and at least as many rows as the smoothing kernel (7 by default) and, in training, the batch has more than one window; otherwise it raises RuntimeError, or ValueError for the lone training window. It then gives every window one prediction and one reconstruction per variable, strictly between 0 and 1 whatever the input and the weights, and attention rows that are probabilities over the variables. In prediction its answers are those of the documented network (smoothing, pooling, two graph attentions, GRU, forecasting layers, variational autoencoder) computed window by window, and for given weights keep a fixed distance from 0 and 1. Hence the smallest sliding window that can be used is twice the kernel size.", "quantifier": "every batch, window length, number of variables, layer sizes and weights (exact real arithmetic)", "why_tests_cant": "all weights, inputs and shapes; a test runs one trained network", "anchors": ["src/anomaly_detector/multivariate/module.py: MultivariateGraphAttnDetector.forward", "src/anomaly_detector/multivariate/module.py: GAT", "src/anomaly_detector/multivariate/module.py: VAE", "src/anomaly_detector/multivariate/model.py: compute_window_sizes"]}
{"id": "C93", "title": "In prediction a window is answered for itself", "statement": "In evaluation mode the prediction, reconstruction, latent code and attention of a window depend only on the window: not on the other windows of the batch, on its position, on the batch size or on the random numbers of dropout and reparameterisation.", "quantifier": "every pair of batches containing the same window, all weights and random draws (exact real arithmetic)", "why_tests_cant": "relation between runs with different batches and random states, over all weights", "anchors": ["src/anomaly_detector/multivariate/module.py: MultivariateGraphAttnDetector.forward", "src/anomaly_detector/multivariate/model.py: MultivariateAnomalyDetector.inference"]}
{"id": "C94", "title": "A row far outside the training range is reported", "statement": "If every variable of a row lies outside its training range by more than half the width of the range, predict reports the row as an anomaly, whatever the learned weights, the threshold and the other rows; its severity is the mean weight of the variables, at least 3/4, and no other row of the request has a larger score or severity. If only some variables are that far off, the score is at least e-1 times their share of the weights, and the row is reported when this exceeds 1/2 and the learned threshold. REFUTED for a single far variable: one of six variables, however far off, may go unreported because every variable's error is capped.", "quantifier": "every trained detector whose network predicts in [0,1] (C92), every frame and parameter dictionary (exact arithmetic)", "why_tests_cant": "all weights, thresholds, frames and positions; the guarantee combines normalisation, the capped error, variable weights and both thresholds", "anchors": ["src/anomaly_detector/multivariate/model.py: MultivariateAnomalyDetector.predict, inference", "src/anomaly_detector/multivariate/util.py: get_multiple_variables_pct_weight_score, minmax_normalize", "src/anomaly_detector/multivariate/dataset.py: MultiADDataset.__getitem__"]}
{"id": "C95", "title": "The name of a period is its largest unit", "statement": "get_period_pattern names the largest unit (millisecond to year, with months of 28 and years of 336 days) that is not longer than the given number of points at the given granularity and interval, and Granularity.none when there is none; a longer period never gets the name of a smaller unit, and a single unit gets its own name.", "quantifier": "every period, granularity and interval", "why_tests_cant": "all integers and all units", "anchors": ["src/anomaly_detector/univariate/util/helpers.py: get_period_pattern, get_pattern_by_second"]}
{"id": "C96", "title": "A constant series is never anomalous", "statement": "A request whose values are all the same and which passes the documented checks (a given period being usable as in C91, gaps not being filled with a different fixed value) is answered: no period is found where none was given, every expected value is the constant, no point is an anomaly in either direction, every severity is 0. This holds in LATEST and ENTIRE mode, for both boundary versions, with and without gaps and for every constant within 1e34, or within the accepted bound of 1e100 when a period above 1 is given. REFUTED for constants beyond the largest C float (3.4e38) without a period: the request fails with a bare Exception.", "quantifier": "every number of points, constant, fill mode, parameter dictionary and every behaviour of the numerical libraries that keeps constants (exact arithmetic)", "why_tests_cant": "all constants, lengths, gap patterns and parameters, through the whole pipeline", "anchors": ["src/anomaly_detector/univariate/univariate_anomaly_detection.py: UnivariateAnomalyDetector.predict", "src/anomaly_detector/univariate/model/detect_model.py: AnomalyDetectionModel.detect", "src/anomaly_detector/univariate/model/dynamic_threshold.py: dynamic_threshold_detection", "src/anomaly_detector/univariate/model/seasonal_series.py: detect_ts", "src/anomaly_detector/univariate/util/refine.py: get_margins"]}
{"id": "C97", "title": "Asking for the spectrum period changes nothing", "statement": "A request that passes the documented checks (values not all the same, or within 1e34) gets the same answer, or the same exception, whether or not needSpectrumPeriod is set, although the flag triggers a second period search. The spectrum period itself, which only the model object returns, is 0 when the period is 0, is present whenever a point is reported, and is then the period the search would have found had the data no granularity.", "quantifier": "every request, period, mode, granularity and library answer (exact arithmetic)", "why_tests_cant": "relation between two runs over all requests; the second search runs only for particular combinations of period, source and anomalies", "anchors": ["src/anomaly_detector/univariate/model/detect_model.py: AnomalyDetectionModel.get_spectrum_period, detect", "src/anomaly_detector/univariate/period/period_detect.py: period_detection"]}
{"id": "C98", "title": "Expected values do not follow the reported points", "statement": "For a seasonal series the expected value of a point is its seasonal component plus a trend in which the reported points, and the whole last half period when at least half of it is reported, are replaced by straight lines between the nearest trusted trend values. For a non-seasonal series handled by the dynamic threshold, the expected values are the trend of the series in which the reported points are replaced by straight lines (the plain trend if nothing is reported); two series that differ only in how extreme their reported points are have the same expected values.", "quantifier": "every series, decomposition, trend extraction, period, ratio, alpha and mode (exact arithmetic)", "why_tests_cant": "all series, decompositions and sets of reported points; the last half period matters only for particular positions", "anchors": ["src/anomaly_detector/univariate/model/seasonal_series.py: detect_ts", "src/anomaly_detector/univariate/model/dynamic_threshold.py: dynamic_threshold_detection", "src/anomaly_detector/univariate/util/helpers.py: interp"]}
{"id": "C99", "title": "The unit of measurement does not decide what is reported", "statement": "Measuring a series in another unit (value k*x, k > 0) gives the same period, the same detector and the same answer in the new unit: expected values and margins scale with k, the flags and the severity of every point stay, unless its deviation from the expected value crosses the absolute tolerance 1e-8 (or, for version 2 margins, the trend is small against the absolute unit 0.3). The raw rows (before margins) of data no finer than a minute also survive a shift of the origin.", "quantifier": "every series, gaps and fill mode, factor k, period, ratio, alpha, sensitivity and mode, for libraries that move along with the unit (exact arithmetic)", "why_tests_cant": "every series times every factor; tests use the scale of their data files", "anchors": ["src/anomaly_detector/univariate/model/detect_model.py: AnomalyDetectionModel.detect", "src/anomaly_detector/univariate/util/refine.py: get_margins", "src/anomaly_detector/univariate/util/helpers.py: normalize", "src/anomaly_detector/univariate/util/boundary_utils.py: calculate_boundary_units", "src/anomaly_detector/univariate/univariate_anomaly_detection.py: predict"]}
{"id": "C100", "title": "The whole detector knows only relative sizes", "statement": "From libraries that only know relative sizes (filters, decomposition, spline and standard deviation scale along; periodogram peaks, spectral transform and stationarity tests do not see the scale) the whole univariate detector does too: multiplying every value by k > 0 it fails the same way or finds the same period, chooses the same detector and reports the same points, with expected values, trend and margins times k. The named exceptions: deviations or spreads that cross 1e-8, and seasonal series whose additive decomposition leaves more than 10% (the logarithms it then tries depend on the unit), and values beyond the largest C float: there one of the two units may get no answer, but two answers always correspond.", "quantifier": "every series with or without gaps, fill mode, factor k, period given or searched, granularity, ratio, alpha, sensitivity, both modes (exact arithmetic)", "why_tests_cant": "every series times every factor; tests use the scale of their data files", "anchors": ["src/anomaly_detector/univariate/model/detect_model.py: AnomalyDetectionModel.detect", "src/anomaly_detector/univariate/util/helpers.py: trend_detection, fit_trend", "src/anomaly_detector/univariate/util/r_stl.py: stl, stl_adjust_trend", "src/anomaly_detector/univariate/util/stl_helpers.py: de_outlier_stl", "src/anomaly_detector/univariate/model/seasonal_series.py", "src/anomaly_detector/univariate/period/period_detect.py: period_detection", "src/anomaly_detector/univariate/_anomaly_kernel_cython.pyx: median_filter"]}
{"id": "C101", "title": "The same series at another time gets the same answer", "statement": "Moving all timestamps of a request by the same amount (another time zone, another year) changes nothing but the labels of the answer: the request fails with the same exception and the same stored code and message, or is answered with the same outcomes, period and window, and leaves the same parameter dictionary. Data by the second to the week may be moved by any amount, milliseconds by whole milliseconds, months and years (up to the 27th) by whole months; the times must be in the ranges where the index arithmetic is exact (C32, C33, C79). Outside of them it is false: a move by a tenth of a second can make a regular series irregular, and a monthly series moved by four weeks is none any more.", "quantifier": "every series, length, granularity, interval, amount, parameter dictionary, detect mode, timestamp notation", "why_tests_cant": "every pair of series and amounts; tests use the timestamps of their data files", "anchors": ["src/anomaly_detector/univariate/univariate_anomaly_detection.py: predict, parse_arg, series_validator, is_timestamp_ascending", "src/anomaly_detector/univariate/util/date_utils.py: get_indices_from_timestamps, get_date_difference"]}
{"id": "C102", "title": "The histogram detector reports the high scores and nothing bounds their number", "statement": "Called on its own, the histogram detector reports exactly the points whose score exceeds the threshold, each in one direction, the one in which it deviates from the expected value; it answers for any series without period, and with one for more than two periods and a fraction up to 0.49. With season the trend at the reported points is interpolated from the others. Expected further: at most the given fraction is reported, and without season the reported points are kept out of the trend. The code violates both: the fraction has no effect on the answer, and a sum is compared with itself so that the trend is always that of the whole series.", "quantifier": "every series, period, threshold, fraction, scores, decomposition and trend", "why_tests_cant": "every series; no test calls the detector at all", "anchors": ["src/anomaly_detector/univariate/model/hbos_detection.py: hbos_detection, hbos_detection_seasonal, hbos_detection_nonseasonal, modify_anomaly_status"]}
{"id": "C103", "title": "Rounding does not spoil the margins, the order of sensitivities or the score", "statement": "In double arithmetic, for numbers up to about 3e150: V1 and V2 margins are finite and not negative, severities lie in 0..1, the V2 score lies in 0..100 and is ordered like the deviation, and raising the sensitivity never removes a report (in V2 also never widens a margin). With V2 below sensitivity 100 a point is reported exactly if it lies outside the band a caller recomputes from expectedValue and the margins, as long as it is not 2^38 units away; with V1 and the decomposition-based detectors the same holds for sensitivities 51 to 99. Expected further: the same at sensitivity 100, at lower sensitivities and after the spectral residual detector. The code violates that by one rounding: e.g. value 1.7, expected 0.4, margin 1.2999999999999998 puts a normal point outside its own band.", "quantifier": "every double value, expected value, unit, score, flag and integer sensitivity within the stated range", "why_tests_cant": "the claim is about all roundings; exact-arithmetic reasoning does not settle it and a test sees a handful of numbers", "anchors": ["src/anomaly_detector/univariate/util/boundary_utils.py: calculate_margin, calculate_anomaly_score, calculate_severity_v1, calculate_severity_v2", "src/anomaly_detector/univariate/util/refine.py: refine_margins, get_spectral_residual_margins, get_anomaly_detector_margins, get_margins_v2"]}
{"id": "C104", "title": "Turning a series upside down exchanges the two directions and nothing else", "statement": "If every value of a series is negated, the whole-series and the latest-point answers report the same points with the same severity, score, period and suggested window; expectedValue is negated and isNegativeAnomaly and isPositiveAnomaly change places. V1 margins change places when the band reaches the data on both sides, V2 margins at every point that is reported or differs from its expected value. This holds for all granularities, fill modes and detectors when no two values tie for a place in the quota and no tolerance of the majority test is touched. Expected further: the same with ties and for all margins. The code violates that: with three equal outliers and a quota of two the negated series reports others of the three; a V1 band entirely above the data is cut to the data while one below it is not; the V2 margins of an unreported point exactly at its expected value are a third and the whole in both.", "quantifier": "every series with four points or more, every detector argument, period, sensitivity and margin version; libraries that commute with negation", "why_tests_cant": "a symmetry relates the answers to two inputs for all series and all branches of the two tails; a test compares a few series", "anchors": ["src/anomaly_detector/univariate/model/detect_model.py: detect", "src/anomaly_detector/univariate/model/dynamic_threshold.py: detect_anomaly", "src/anomaly_detector/univariate/model/seasonal_series.py: detect_anomaly", "src/anomaly_detector/univariate/detectors/esd_filter.py: detect", "src/anomaly_detector/univariate/_anomaly_kernel_cython.pyx: generalized_esd_test, dynamic_threshold", "src/anomaly_detector/univariate/util/refine.py: refine_margins, get_margins_v2"]}
{"id": "C105", "title": "A more tolerant test never drops a point; critical values are in their range", "statement": "For the non-seasonal detector, raising alpha or maxAnomalyRatio never un-flags a point of the whole series, nor the newest point when only that is asked for. The critical values of the generalised ESD test are not negative for alpha up to 1, are below (m-1)/sqrt m for the m points still there (the largest standardised deviation possible), and fall when alpha rises; alpha within tolerance of 0.05 uses the table without breaking that order. Expected further: the same for the reported answer. The code violates that: with a higher maxAnomalyRatio more points are left out of the trend, the expected values move, and a reported point can fall inside its band.", "quantifier": "every series of four points or more, all pairs of levels and ratios, both modes", "why_tests_cant": "monotonicity compares the runs for all pairs of parameters; a test fixes one pair and one series", "anchors": ["src/anomaly_detector/univariate/util/helpers.py: get_critical", "src/anomaly_detector/univariate/_anomaly_kernel_cython.pyx: calculate_esd_values, generalized_esd_test", "src/anomaly_detector/univariate/model/dynamic_threshold.py: detect_anomaly", "src/anomaly_detector/univariate/model/detect.py: detect", "src/anomaly_detector/univariate/detectors/z_score.py: detect"]}
{"id": "C106", "title": "Asking about the newest point only gives it the same verdict", "statement": "The latest-point run of the non-seasonal detector flags the newest point exactly if the whole-series run with the same parameters does, although it tests far fewer positions. Expected further: the same for the reported answers. The code violates that: the two runs leave different other points out of the trend, so the newest point can be outside the band in one answer and inside in the other.", "quantifier": "every series of four points or more, every level and ratio", "why_tests_cant": "needs the two loops to be compared at every possible position of the newest point in either tail", "anchors": ["src/anomaly_detector/univariate/_anomaly_kernel_cython.pyx: generalized_esd_test", "src/anomaly_detector/univariate/detectors/esd_filter.py: detect", "src/anomaly_detector/univariate/model/dynamic_threshold.py: detect_anomaly"]}
{"id": "C107", "title": "The seasonal detector flags what the threshold detector flags without the season, and the newest point no less when asked for it alone", "statement": "Every point that the non-seasonal detector flags on the series minus its seasonal column is flagged by the seasonal detector with the same alpha and maxAnomalyRatio: the test on the remainder only fills places that the tests on the data leave free. If the whole-series run of the seasonal detector flags the newest point, the latest-point run flags it too. Expected further: the converse, and that raising alpha never un-flags a point. The code violates both: in the whole-series run, and at a higher alpha, older points found in the data can take the place of a point found in the remainder only.", "quantifier": "every series of four points or more with a decomposition, every level and ratio, both modes", "why_tests_cant": "needs the ranking of three selections, with labels shared and places limited, to be followed for all series", "anchors": ["src/anomaly_detector/univariate/model/seasonal_series.py: detect_anomaly", "src/anomaly_detector/univariate/model/detect.py: detect", "src/anomaly_detector/univariate/model/dynamic_threshold.py: detect_anomaly", "src/anomaly_detector/univariate/detectors/esd_filter.py: detect", "src/anomaly_detector/univariate/detectors/z_score.py: detect"]}
{"id": "C108", "title": "Training computes the documented network on the batch, and the order of windows in a batch does not matter", "statement": "For every batch of two windows or more the network in training answers what it is documented to: the function used in prediction, with each attention weight either doubled or dropped, every normalisation by the mean and variance over the batch, and fresh noise in place of the stored one. Rearranging the windows of a batch, with their masks and noise, rearranges the forecasts, reconstructions and latent codes in the same way and changes nothing else. Each normalised column has the learned shift as its mean over the batch and gain^2 * v / (v + 1e-5) as its variance, where v is the variance before.", "quantifier": "all weights, sizes, batches, masks and noise", "why_tests_cant": "equality of functions of real tensors of every size; training is random, a test sees a few draws", "anchors": ["src/anomaly_detector/multivariate/module.py: GAT.forward, VAE.forward, MultivariateGraphAttnDetector.forward"]}
{"id": "C109", "title": "Expected values of the residual detector in double arithmetic", "statement": "As computed in doubles, every expected value of the spectral-residual detector, whole series or latest point, is a number and differs from the exact local mean by at most n^2 * 2^-48 times the largest magnitude of the series, for up to 2^24 points of magnitude 2^-1000 to 2^500 and any order in which numpy adds; so it leaves the range of the values by no more than that. For whole numbers of small sum with no outlying point it is the exact mean rounded once and stays in the range. In general it does leave the range (refuted): after one value of 2^53, windows of ones have the expected value 0.", "quantifier": "every series of doubles of these sizes, every choice of skeleton points, every order of summation", "why_tests_cant": "the claim is about all roundings; a test sees a handful of numbers", "anchors": ["src/anomaly_detector/univariate/model/spectral_residual_model.py: spectral_residual_detection", "src/anomaly_detector/univariate/util/helpers.py: average_filter"]}
{"id": "C110", "title": "The outlier tests in single precision decide like the exact ones outside a narrow band", "statement": "The compiled tests compute in C floats. For values scaled to [0, 1], a position whose exact statistic (distance from the median in robust deviations, or from the mean in standard deviations) exceeds its critical value by more than a band of (threshold + 1) * (2^-19 + tau) is always selected along with all before it, where tau bounds what np.mean and np.std are off by; and the selection never ends at a position whose two statistics are within their critical value by more than that (or that does not exceed the median). When no visited position lies in the band the compiled test returns exactly what the test over exact numbers returns. Inside the band it may not (refuted): a value 2.8e-8 above eleven equal values near 1 is significant exactly, but is the same float.", "quantifier": "every list of values in [0, 1], both tails, both modes, every list of critical values, every maximum of outliers", "why_tests_cant": "the claim quantifies over all roundings of all inputs; tests compare a few series against recorded labels", "anchors": ["src/anomaly_detector/univariate/_anomaly_kernel_cython.pyx: generalized_esd_test, dynamic_threshold, check_anomaly_status, find_median_sorted_arrays, sorted_median"]}
{"id": "C111", "title": "Scaling a series to [0, 1] in doubles keeps order and ends, and the tests behind it decide like exact ones", "statement": "normalize computed in doubles on a series of doubles that is not constant returns values in [0, 1]; the least becomes exactly 0 and the greatest exactly 1; a value not above another is scaled to one not above it; each result is within 2^-51 of the exact fraction (v - min) / (max - min). A constant series is returned unchanged. Different values need not stay different (refuted: 1 and 2 between -2^60 and 2^60). When no visited position is in the band of C110, scaling in doubles and testing in C floats gives exactly the outliers of scaling and testing over exact numbers.", "quantifier": "every series of doubles within the accepted bounds, both tails, both modes, every list of critical values", "why_tests_cant": "the claim quantifies over all roundings of subtraction and division; tests compare a few series", "anchors": ["src/anomaly_detector/univariate/util/helpers.py: normalize", "src/anomaly_detector/univariate/model/dynamic_threshold.py: dynamic_threshold_detection", "src/anomaly_detector/univariate/_anomaly_kernel_cython.pyx: generalized_esd_test, dynamic_threshold"]}
{"id": "C112", "title": "The spectral residual transform concentrates a lone spike, and knows no sign", "statement": "With np.fft.fft and np.fft.ifft as defined (they undo each other), the transform of n >= 3 equal values b with c <> 0 added at one position is within 2/n of 1 at that position and within 2/n of 0 elsewhere when the spike points away from zero, within 4/n when it points towards zero and leaves the sum at least as large as the spike; exactly 1 and 0 on a series of zeros. A level series is spread evenly (1/n each). Negating a series does not change its transform. Nor does another unit, when no frequency is missing from the spectrum; when one is (for instance the mean is zero) the transform depends on the unit by more than a factor (refuted).", "quantifier": "every length, position, level, spike and factor", "why_tests_cant": "the transform is a chain of sums of sines and cosines, logarithms and roots; tests compare recorded magnitudes of a few series", "anchors": ["src/anomaly_detector/univariate/_anomaly_kernel_cython.pyx: spectral_residual_transform_core"]}
{"id": "C113", "title": "A lone spike on a level series gets the highest score and is reported", "statement": "n values b with c <> 0 added at one position, where c points away from zero and n >= 12, or 2 |c| <= n |b| and n >= 21. Entire mode: unless the position is the first, the spectral residual detector gives the spike the score 1 and, with a threshold of at most 3.5, reports it or as many points as it may. Latest mode (the spike last, the same condition on half the length): the model id is SpectralResidual, the score is 1, the expected value is b, and the reported direction is that of c. On a level of zero, with any threshold above 1 up to 99, exactly the spike is reported, in its direction, and every expected value is 0. At the first position the spike is not reported (the claim without the exception is refuted).", "quantifier": "every length, position, level and spike; any transform within 1/(2 n) of the exact one on the padded series", "why_tests_cant": "the detector is a chain of padding, Fourier transforms, averages and ranking; tests compare recorded flags of a few series", "anchors": ["src/anomaly_detector/univariate/detectors/spectral_residual.py", "src/anomaly_detector/univariate/model/spectral_residual_model.py: spectral_residual_detection"]}
{"id": "C114", "title": "A lone spike on a level series is the one point the detector reports", "statement": "n >= 12 values b with c added at any one position, |c| >= 1e-8, no gaps to fill, and a period of at most 1 given or found: detection answers with the model id DynamicThreshold at every granularity (also minutes and seconds, where spectral residual is the usual choice), in entire and latest mode; the row of the spike is reported with expected value b and the direction of c; and, if the series counts as stationary, every other row is as expected and not reported. Without stationarity nothing else being reported is refuted: after a spike just before it, the newest point, back on the level, can be reported with the spike as its expected value.", "quantifier": "every length, position, level and spike of either sign, both modes, every granularity, share of anomalies and test level whose critical values are at least 1/2", "why_tests_cant": "the answer is the outcome of a vote of two outlier tests in two tails plus ranking, interpolation, trend and a run on differences; tests compare recorded flags of a few series", "anchors": ["src/anomaly_detector/univariate/model/detect_model.py: detect_with_model_selection, should_trigger_sr", "src/anomaly_detector/univariate/model/dynamic_threshold.py", "src/anomaly_detector/univariate/detectors/z_score.py", "src/anomaly_detector/univariate/detectors/esd_filter.py"]}
{"id": "C115", "title": "At the default level the critical values are a table, between 2 and 4.5414 for every series the service accepts", "statement": "For a level within 5.1e-7 of 0.05 and 12 to 18000 points, the critical values of the ESD test are the entries of the table shipped with the code: as many as outliers may be reported, each above 2 and below 4.5414, each below (m - 1) / sqrt m for the m points it is applied to (the most one of m points can deviate, so the test can fire at every step), strictly falling from one outlier to the next and strictly rising with the length of the series. So a point more than 4.5414 robust or standard deviations from those not more extreme is reported with all more extreme ones, if the share of anomalies allows; where no point deviates by more than 2 the test selects none; and C114 holds with no assumption on critical values.", "quantifier": "every length from 12 to 18000, every number of outliers, every series, both tails, every share of anomalies", "why_tests_cant": "the table has 18000 entries of which a test series touches a handful; a single mistyped or misplaced entry, or an offset by one, changes answers only at one length", "anchors": ["src/anomaly_detector/univariate/detectors/esd_filter.py", "src/anomaly_detector/univariate/util/critical_table_values.py", "src/anomaly_detector/univariate/util/helpers.py: get_critical", "src/anomaly_detector/univariate/model/dynamic_threshold.py"]}
{"id": "C116", "title": "A request for a level series with one deviating point reports that point and no other, at its level, if it is far enough for the sensitivity asked for", "statement": "A request with 12 to 8640 numbers (size up to 10^34) and no granularity, all equal to a level b but one that is b + c, with no period given, and a significance level within 5.1e-7 of 0.05 (the default), whatever the other parameters, is answered: no period is found, every point is expected at b, and the deviating point is an anomaly (positive or negative as it points) exactly if, in boundary version V1, it deviates by more than 100 - sensitivity percent of the level or the sensitivity is 100; in V2, if it deviates by more than the factor of the sensitivity times the size of the level (at least 0.3), or at sensitivity 99 by between a ten-thousandth of that and that; no other point is an anomaly. In the latest mode the answer is about the last point in the same way. The search for a period finds none at any granularity and with any parameters of the search.", "quantifier": "every number of points, position, level and deviation of at least 1e-8, every sensitivity, both modes, every other parameter", "why_tests_cant": "the claim joins a dozen functions (validation, period search, trend, the two tests, the critical table, margins); tests check a few spikes on a few series at the default sensitivity", "anchors": ["src/anomaly_detector/univariate/univariate_anomaly_detection.py", "src/anomaly_detector/univariate/period/period_detect.py", "src/anomaly_detector/univariate/model/detect.py", "src/anomaly_detector/univariate/model/dynamic_threshold.py", "src/anomaly_detector/univariate/detectors/esd_filter.py", "src/anomaly_detector/univariate/util/refine.py"]}
{"id": "C117", "title": "Follow-up requests: more sensitivity never hides an anomaly, and giving the period that was found changes nothing", "statement": "Two requests about the same series that differ in the sensitivity only, the second asking for more: they fail in the same way, or both are answered with the same period, timestamps and expected values (and suggested window), and every anomaly of the first answer is one of the second. A request without a period that was answered with period p is answered in exactly the same way when p is given: p passes the validation of the series and the detection runs alike.", "quantifier": "every accepted series and parameters, both modes; for the sensitivity every detector, for the period every behaviour of the libraries", "why_tests_cant": "a comparison of two whole requests for every series; tests compare single answers with stored ones", "anchors": ["src/anomaly_detector/univariate/univariate_anomaly_detection.py", "src/anomaly_detector/univariate/model/detect_model.py", "src/anomaly_detector/univariate/util/helpers.py", "src/anomaly_detector/univariate/period/period_detect.py", "src/anomaly_detector/univariate/util/refine.py"]}
{"id": "C118", "title": "Raising the sensitivity never widens the band around the expected values", "statement": "Two requests about the same series that differ in the sensitivity only, both answered: with boundary version V2 no upper or lower margin is larger in the answer with the higher sensitivity; with version V1 none of a reported anomaly, and for any other point a margin that does grow is at most 1.01 times the distance of the value from its expectation.", "quantifier": "every detector, every frame of rows, every pair of sensitivities, both versions and modes", "why_tests_cant": "compares two runs for every series; the clipping of boundaries over the whole series and the widening for normal points interact", "anchors": ["src/anomaly_detector/univariate/util/refine.py", "src/anomaly_detector/univariate/util/boundary_utils.py", "src/anomaly_detector/univariate/univariate_anomaly_detection.py"]}
{"id": "C119", "title": "Leaving out a parameter, giving it its default, or adding an unknown one comes to the same", "statement": "A request with a parameter given its documented default (granularity none, alpha 0.05, maxAnomalyRatio 0.25, sensitivity 99, threshold 3.5, fill mode auto or null, boundaryVersion V1 or null) has the outcome of the request without it: the same answer or exception and the same recorded error, whatever the series and the other parameters. So has a request with a further key of no meaning, and one with customInterval 1.", "quantifier": "every detector (customInterval: the detector of the code), every nonempty frame of rows accepted or not, every other parameter, every state of the object", "why_tests_cant": "relates two runs for every series and every combination of the other parameters; defaults are spread over the request code, the validator, the calendar and the detector", "anchors": ["src/anomaly_detector/univariate/univariate_anomaly_detection.py", "src/anomaly_detector/univariate/util/date_utils.py", "src/anomaly_detector/univariate/period/period_detect.py"]}
{"id": "C120", "title": "The network is given the scaled values to float precision, within the limits and in order", "statement": "The values of a window or target handed to the network are C floats within the clipping limits; larger values never become smaller; the training minimum of a variable becomes exactly 0 and its training range lands in [0, 1]; every value is within k float steps (2^-23) of the exactly scaled and clipped one, k the larger limit; a value one or more beyond a limit is the limit exactly, so a variable constant in training that is off by 0.00001001 is at the limit. Expected further from exact arithmetic (C50): the training maximum stays below 1 and different values stay different. Both fail after rounding.", "quantifier": "every row of doubles, every minimum and maximum seen in training, every pair of limits up to 1000", "why_tests_cant": "an error bound over all doubles; rounding in subtraction, addition of 1e-8, division and conversion interact", "anchors": ["src/anomaly_detector/multivariate/util.py", "src/anomaly_detector/multivariate/dataset.py", "src/anomaly_detector/multivariate/contract.py"]}
{"id": "C121", "title": "Timestamps decide the places on the grid and the labels, nothing else", "statement": "Two accepted requests with the same parameters and values, whose timestamps fall on the same places of the grid, fail alike or get the same period, suggested window and outcomes; only the labels differ. So it does not matter in which notation the timestamps are given if they are read as the same moments, and without a granularity it matters neither what they are nor whether there are any: the second series is then accepted because the first is.", "quantifier": "every detector, every pair of readers of timestamps, every accepted series and parameters, every state of the object that can answer", "why_tests_cant": "relates two runs with differently typed timestamps for every series and detector", "anchors": ["src/anomaly_detector/univariate/univariate_anomaly_detection.py", "src/anomaly_detector/univariate/util/date_utils.py"]}
{"id": "C122", "title": "A lower threshold or a larger maxAnomalyRatio never hides what the spectral residual detector reports", "statement": "Lowering the threshold or raising maxAnomalyRatio leaves the values, expected values, trend and scores of the spectral residual detector as they are; a point reported before is reported again, unless one of exactly the same score takes its place; in the answer of boundary version V1 (without such ties) every reported anomaly stays as it is to the last field and only points not reported before change. For the newest point alone the same holds of the threshold. The answer of the whole detector behaves the same when the series is called stationary. Expected further: the same of maxAnomalyRatio for the newest point, of boundary version V2, and of series called non-stationary. The code violates all three: with a larger ratio more of the past is left out before the newest point is scored, the V2 band is measured by the points not reported, and what is found in the differenced series only gets the places left over.", "quantifier": "every series, pair of thresholds and ratios, sensitivity, transform, trend and order among ties, both modes", "why_tests_cant": "compares runs for all pairs of parameters; which points share the quota depends on all scores", "anchors": ["src/anomaly_detector/univariate/model/spectral_residual_model.py", "src/anomaly_detector/univariate/detectors/spectral_residual.py", "src/anomaly_detector/univariate/model/detect_model.py: merge_with_delta", "src/anomaly_detector/univariate/util/refine.py"]}
