{
 "claims": [
  {
   "property": "C01",
   "status": "proved",
   "theorems": [
    "C01_accepts_exactly_well_formed",
    "C01_counts",
    "C01_position_arrays"
   ],
   "note": "All index lists and value lists of any length."
  },
  {
   "property": "C02",
   "status": "proved",
   "theorems": [
    "C02_fill_keeps_submitted_values",
    "C02_fill_terminates",
    "C02_segment_spline_refuted"
   ],
   "note": "Every method except the segment spline keeps observed points and terminates. The spline itself is an oracle that passes through its knots. REFUTED for method spline_seg with if_exception=fill_with_none: it overwrites an observed point and loops forever."
  },
  {
   "property": "C03",
   "status": "proved",
   "theorems": [
    "C03_previous_is_last_observation"
   ],
   "note": ""
  },
  {
   "property": "C04",
   "status": "proved",
   "theorems": [
    "C04_linear_interpolates",
    "C04_segment_variant_agrees"
   ],
   "note": "Over exact rationals."
  },
  {
   "property": "C05",
   "status": "proved",
   "theorems": [
    "C05_auto_complete_and_bounded"
   ],
   "note": "Needs at least 4 submitted points (see C06 for fewer) and a spline oracle passing through its knots."
  },
  {
   "property": "C06",
   "status": "proved",
   "theorems": [
    "C06_auto_fallback_refuted",
    "C06_fallback_never_fills"
   ],
   "note": "REFUTED: the fill_with_last fallback raises TypeError for every series of at most 3 points with a period above 1, and never returns last-observation values."
  },
  {
   "property": "C07",
   "status": "proved",
   "theorems": [
    "C07_periodic_lookup",
    "C07_positions_meaning"
   ],
   "note": ""
  },
  {
   "property": "C08",
   "status": "proved",
   "theorems": [
    "C08_one_row_per_point",
    "C66_latest_answer"
   ],
   "note": "detect_model through detect_with_model_selection; numerical routines are arbitrary functions; for the auto fill the spline is assumed to pass through its knots. Timestamps: C66."
  },
  {
   "property": "C09",
   "status": "proved",
   "theorems": [
    "C09_flags_consistent"
   ],
   "note": "All detectors, the differenced re-detection and the final refinement; numerical routines arbitrary; exact arithmetic."
  },
  {
   "property": "C10",
   "status": "proved",
   "theorems": [
    "C10_margins_nonnegative"
   ],
   "note": "Exact rational arithmetic; every integer sensitivity 0..100, both boundary versions and both model families."
  },
  {
   "property": "C100",
   "status": "proved",
   "theorems": [
    "C100_whole_detector",
    "C100_entire_answer",
    "C100_latest_answer",
    "C100_answers_correspond"
   ],
   "note": "C100_answers_correspond takes C floats with a largest value; the other three theorems are stated for floats without limit. C99 composed with the trend extraction, median filter, seasonal decomposition and period search instead of oracles; hypotheses only on the external libraries and on the series named in the property. The C float cast is assumed to commute with k (true for powers of two). Exact arithmetic."
  },
  {
   "property": "C101",
   "status": "proved",
   "theorems": [
    "C101_indices",
    "C101_answer",
    "C101_any_shift_refuted",
    "C101_months_by_days_refuted"
   ],
   "note": "Relation between two whole requests; only the labels differ (which they are: C80). REFUTED outside the exact ranges and for months moved by days, with witnesses. The requests whose outcome the model leaves open (NaN or infinite values with a stale indices entry, odd detector dictionaries) are assumed to be alike."
  },
  {
   "property": "C102",
   "status": "proved",
   "theorems": [
    "C102_nonseasonal",
    "C102_seasonal",
    "C102_answers",
    "C102_fraction_ignored",
    "C102_share_refuted",
    "C102_trend_without_reported_refuted"
   ],
   "note": "REFUTED: the share of reported points is not bounded by the fraction, and reported points influence the expected values elsewhere. That the scores of pyod do not depend on the contamination is a hypothesis of C102_fraction_ignored only. pyod, the decomposition and the trend are oracles."
  },
  {
   "property": "C103",
   "status": "proved",
   "theorems": [
    "C103_table",
    "C103_v2_margins",
    "C103_v2_reported_outside",
    "C103_v2_sensitivity",
    "C103_v2_score",
    "C103_v1_margins",
    "C103_v1_sensitivity",
    "C103_v1_reported_outside",
    "C103_v2_at_100_refuted",
    "C103_v1_low_sensitivity_refuted",
    "C103_v1_spectral_refuted"
   ],
   "note": "REFUTED in part: at sensitivity 100 (V2), below 51 (V1) and after the spectral residual detector (V1) a normal point can lie outside the band recomputed from the answer, by one rounding. The unit of V2 is any double from 0.3 up; its computation by np.mean is not modelled in doubles."
  },
  {
   "property": "C104",
   "status": "proved",
   "theorems": [
    "C104_rows_exchanged",
    "C104_entire_answer",
    "C104_latest_answer",
    "C104_ties_refuted",
    "C104_v1_margins_refuted",
    "C104_v2_tie_refuted"
   ],
   "note": "REFUTED in part: equal values competing for the quota, the V1 margins of a band beyond the data, and the V2 margins of an unreported point exactly as expected are not treated evenly. Assumes libraries that commute with negation (standard deviation, trend, decomposition, spline, spectral transform, period, stationarity)."
  },
  {
   "property": "C105",
   "status": "proved",
   "theorems": [
    "C105_critical_range",
    "C105_critical_falls",
    "C105_more_with_level_and_ratio",
    "C105_newest_with_level_and_ratio",
    "C105_answer_refuted"
   ],
   "note": "REFUTED for the final answer (the trend, and with it the band, depends on which points are left out). The range and order of critical values assume exact square roots at the arguments used and a rising Student quantile that is not negative above 1/2; the flag theorems assume that order."
  },
  {
   "property": "C106",
   "status": "proved",
   "theorems": [
    "C106_modes_agree_on_newest",
    "C106_answer_refuted"
   ],
   "note": "REFUTED for the final answer, proved for the flags of the detector."
  },
  {
   "property": "C107",
   "status": "proved",
   "theorems": [
    "C107_threshold_points_flagged",
    "C107_newest_kept_by_latest",
    "C107_newest_converse_refuted",
    "C107_level_refuted"
   ],
   "note": "REFUTED for the converse and for the order in alpha, with the decomposition given as an oracle in the witnesses."
  },
  {
   "property": "C108",
   "status": "proved",
   "theorems": [
    "C108_training_computes",
    "C108_order_of_windows",
    "C108_normalised_columns"
   ],
   "note": "Real numbers instead of float32; masks and noise are explicit arguments; updates of running statistics and gradients are not modelled."
  },
  {
   "property": "C109",
   "status": "proved",
   "theorems": [
    "C109_expected_close",
    "C109_latest_close",
    "C109_range",
    "C109_whole_numbers",
    "C109_range_refuted"
   ],
   "note": "The claim that an expected value lies in the range of the values is REFUTED in doubles (C109_range_refuted); it holds up to the tolerance (C109_range). Which points are skeleton points is arbitrary here: the scores come from a Fourier transform that is not modelled in doubles."
  },
  {
   "property": "C11",
   "status": "proved",
   "theorems": [
    "C11_v1_band_separates",
    "C11_v1_full_sensitivity"
   ],
   "note": "Exact arithmetic; rows are the detector output in the shape C09 establishes."
  },
  {
   "property": "C110",
   "status": "proved",
   "theorems": [
    "C110_esd_entire",
    "C110_esd_last",
    "C110_esd_agrees",
    "C110_threshold_agrees",
    "C110_rounding",
    "C110_esd_refuted"
   ],
   "note": "Agreement without the band is REFUTED (C110_esd_refuted). np.mean and np.std on floats are arguments, assumed within tau of the exact ones; the exact standard deviation is assumed to lie between 0 and 1. Overflow of floats cannot happen for these sizes and is not modelled."
  },
  {
   "property": "C111",
   "status": "proved",
   "theorems": [
    "C111_normalize",
    "C111_constant",
    "C111_distinct_refuted",
    "C111_esd_agrees",
    "C111_threshold_agrees"
   ],
   "note": "Keeping different values different is REFUTED (C111_distinct_refuted). Overflow is not modelled: it cannot happen within the bounds the validator accepts. The scaled series handed to the tests is assumed sorted from the tested tail, as the callers sort it; np.mean and np.std on floats are arguments as in C110."
  },
  {
   "property": "C112",
   "status": "proved",
   "theorems": [
    "C112_round_trip",
    "C112_spike",
    "C112_spike_on_zero",
    "C112_constant",
    "C112_upside_down",
    "C112_units",
    "C112_units_refuted"
   ],
   "note": "Independence of the unit without the condition on the spectrum is REFUTED (C112_units_refuted). Over the reals: rounding is not modelled."
  },
  {
   "property": "C113",
   "status": "proved",
   "theorems": [
    "C113_entire",
    "C113_latest",
    "C113_zero_level",
    "C113_first_point_refuted"
   ],
   "note": "Reporting at the first position is REFUTED (C113_first_point_refuted). The transform is an argument that must be within 1/(2 n) of the exact one on the series in question (C113_zero_level: equal to it); np.std an argument at most 1.4 times too large on the series; averages and scores are exact rationals."
  },
  {
   "property": "C114",
   "status": "proved",
   "theorems": [
    "C114_dynamic_threshold",
    "C114_whole",
    "C114_nothing_else_refuted"
   ],
   "note": "Nothing else being reported is REFUTED when the series does not count as stationary (C114_nothing_else_refuted); the row of the spike is proved either way. np.std is an argument within half a percent on lists of zeros and ones (and at most half a percent too small elsewhere), the critical values an argument of at least 1/2, the trend of a level that level (contracts libs_ok and steady, met by the example)."
  },
  {
   "property": "C115",
   "status": "proved",
   "theorems": [
    "C115_critical_values",
    "C115_far_points_reported",
    "C115_near_points_silent",
    "C115_lone_spike"
   ],
   "note": "The table is the real one, generated from critical_table_values.py (single precision entries as exact multiples of 2^-23). np.std, the trend filter and the sort are arguments."
  },
  {
   "property": "C116",
   "status": "proved",
   "theorems": [
    "C116_no_period",
    "C116_detector",
    "C116_request",
    "C116_request_v2"
   ],
   "note": "The series must count as stationary for the statement on the other points (C114_nothing_else_refuted shows why); contracts for np.std, the trend filter, the sort and STL as in C114. The table of critical values is the real one."
  },
  {
   "property": "C117",
   "status": "proved",
   "theorems": [
    "C117_sensitivity",
    "C117_found_period"
   ],
   "note": "No detector dictionary in the parameters. The parameter fillUpMode must not hold the enumeration member FillUpMode.no or .notFill for the second part: the validator then asks for two periods of submitted points."
  },
  {
   "property": "C118",
   "status": "proved",
   "theorems": [
    "C118_margins",
    "C118_request",
    "C118_v1_refuted",
    "C118_request_v1_refuted"
   ],
   "note": "REFUTED as titled for version V1 and points that are no anomalies (refine.py gives such a point 1.01 times its distance on both sides once it leaves its band): witnesses for rows and for a whole request. Proved for V2, for reported anomalies in V1, and the bound of 1.01 times the distance for the rest."
  },
  {
   "property": "C119",
   "status": "proved",
   "theorems": [
    "C119_default",
    "C119_unknown",
    "C119_interval"
   ],
   "note": "Requests without a detector dictionary, microsecond intervals within 4006 (as C81). imputeMode auto equals leaving it out if fillUpMode is not given; imputeMode null always. needSpectrumPeriod counts as a known key: C97 is about it."
  },
  {
   "property": "C12",
   "status": "proved",
   "theorems": [
    "C12_v2_band_separates",
    "C12_v2_fractional_sensitivity_fails"
   ],
   "note": "Exact arithmetic; integer sensitivities, as the request validator requires. The second theorem shows a non-integer sensitivity raises."
  },
  {
   "property": "C120",
   "status": "proved",
   "theorems": [
    "C120_range",
    "C120_close",
    "C120_limit",
    "C120_constant",
    "C120_row",
    "C120_below_one_refuted",
    "C120_distinct_refuted"
   ],
   "note": "REFUTED for the last two expectations (below 1, different): witnesses. IEEE 754 round to nearest even by rne, proved equal to Flocq rounding (rne_round); overflow not modelled."
  },
  {
   "property": "C121",
   "status": "proved",
   "theorems": [
    "C121_grid",
    "C121_notation"
   ],
   "note": "Requests without a detector dictionary, microsecond intervals within 4006 (as C81). C101 compares series moved in time, accepted or not, in one notation; here the notations may differ."
  },
  {
   "property": "C122",
   "status": "proved",
   "theorems": [
    "C122_reported",
    "C122_answer",
    "C122_whole",
    "C122_whole_newest",
    "C122_newest_refuted",
    "C122_version_2_refuted",
    "C122_differences_refuted"
   ],
   "note": "REFUTED for the last three expectations, with the identity as the transform."
  },
  {
   "property": "C13",
   "status": "proved",
   "theorems": [
    "C13_sensitivity_monotone"
   ],
   "note": "Exact arithmetic; both boundary versions."
  },
  {
   "property": "C14",
   "status": "proved",
   "theorems": [
    "C14_latest_is_last_of_entire",
    "C14_severity_refuted"
   ],
   "note": "Every field but severity agrees. REFUTED for severity under the newer boundary version: for a detector anomaly inside its band the latest-point answer has a positive severity where the entire-series answer has 0."
  },
  {
   "property": "C15",
   "status": "proved",
   "theorems": [
    "C15_score_range",
    "C15_score_monotone",
    "C15_score_calibrated",
    "C15_reported_iff_score",
    "C15_severity_range"
   ],
   "note": "Exact arithmetic on the decimal literals of the table; sensitivity 99 is special-cased by the code and excluded in C15_reported_iff_score."
  },
  {
   "property": "C16",
   "status": "proved",
   "theorems": [
    "C16_anomaly_count_bounded",
    "C16_flagged_points_are_extreme",
    "C16_total_refuted"
   ],
   "note": "REFUTED for the total: both tails get the full quota, so 12 points with ratio 0.1 (2 allowed) yield 4 anomalies. The proved bound is twice the allowance (once for spectral residual)."
  },
  {
   "property": "C17",
   "status": "proved",
   "theorems": [
    "C17_quick_select_kth_smallest",
    "C17_fast_median",
    "C17_median_meaning"
   ],
   "note": "Every list, k and pivot sequence. Comparisons are exact (C float rounding of the table not modelled)."
  },
  {
   "property": "C18",
   "status": "proved",
   "theorems": [
    "C18_median_and_mad_of_the_rest"
   ],
   "note": "Exact arithmetic."
  },
  {
   "property": "C19",
   "status": "proved",
   "theorems": [
    "C19_esd_entire",
    "C19_dynamic_entire",
    "C19_esd_last",
    "C19_dynamic_last",
    "C19_esd_detect_in_range",
    "C19_dynamic_detect_in_range",
    "C19_dynamic_detect"
   ],
   "note": "Standard deviation and the normal quantile constant are arbitrary parameters. Exact arithmetic."
  },
  {
   "property": "C20",
   "status": "proved",
   "theorems": [
    "C20_gcv_is_leave_one_out",
    "C20_gcv_fails_on_short_phases",
    "C20_max_gcv_is_minimal"
   ],
   "note": "Exact arithmetic; float32 accumulators not modelled."
  },
  {
   "property": "C21",
   "status": "proved",
   "theorems": [
    "C21_median_filter_two_end",
    "C21_median_filter_interior",
    "C21_median_filter_short",
    "C21_right_end_refuted"
   ],
   "note": "REFUTED at the right end in two-end mode for doubles that are not floats (witness with binary32 rounding); proved for float data, and for all data in the interior."
  },
  {
   "property": "C22",
   "status": "proved",
   "theorems": [
    "C22_bucket_replaces_everything_above_median",
    "C22_only_spikes_refuted"
   ],
   "note": "REFUTED: exact characterisation proved, with a point within one robust deviation that is replaced."
  },
  {
   "property": "C23",
   "status": "proved",
   "theorems": [
    "C23_average_filter_trailing_mean",
    "C23_average_filter_fill_to_n"
   ],
   "note": "Exact arithmetic; window n >= 1."
  },
  {
   "property": "C24",
   "status": "proved",
   "theorems": [
    "C24_interp_interpolates",
    "C24_interp_in_range",
    "C24_interp_nothing_known"
   ],
   "note": "Exact arithmetic."
  },
  {
   "property": "C25",
   "status": "proved",
   "theorems": [
    "C25_normalize"
   ],
   "note": "Exact arithmetic; infinite values not modelled."
  },
  {
   "property": "C26",
   "status": "proved",
   "theorems": [
    "C26_leastsq_minimises",
    "C26_leastsq_constant_x"
   ],
   "note": "Exact arithmetic; numpy returns inf/nan where the model has ZeroDiv."
  },
  {
   "property": "C27",
   "status": "proved",
   "theorems": [
    "C27_differencing_can_be_undone",
    "C27_expected_values_put_back"
   ],
   "note": "For every answer of the stationarity tests; at least 4 points."
  },
  {
   "property": "C28",
   "status": "proved",
   "theorems": [
    "C28_fits_twice",
    "C28_at_least_four",
    "C28_detection_series_long_enough",
    "C29_answers"
   ],
   "note": "C29_answers contains the termination of the sub-sampling loop (for candidates of at least 2)."
  },
  {
   "property": "C29",
   "status": "proved",
   "theorems": [
    "C29_answers",
    "C29_microsecond_characterised",
    "C29_microsecond_refuted"
   ],
   "note": "REFUTED for microseconds, with an exact characterisation of the failure. Other granularities answer when trend fit and acf answer and the standard deviation is at most half a percent too small."
  },
  {
   "property": "C30",
   "status": "proved",
   "theorems": [
    "C30_correlogram_search"
   ],
   "note": "With NaN entries; infinities are not modelled."
  },
  {
   "property": "C31",
   "status": "proved",
   "theorems": [
    "C31_months_later",
    "C31_zero_days",
    "C31_days_left",
    "C31_antisymmetric"
   ],
   "note": ""
  },
  {
   "property": "C32",
   "status": "proved",
   "theorems": [
    "C32_regular",
    "C32_months",
    "C32_months_later",
    "C32_first_invalid_refuted"
   ],
   "note": "IEEE doubles by Flocq. REFUTED part: the first invalid index for months."
  },
  {
   "property": "C33",
   "status": "proved",
   "theorems": [
    "C33_milliseconds",
    "C33_lost_millisecond_refuted",
    "C33_interval_refuted"
   ],
   "note": "REFUTED in general; exact for Nov 2004 to Jan 2038 and intervals up to 4006."
  },
  {
   "property": "C34",
   "status": "proved",
   "theorems": [
    "C34_request_error_refuted",
    "C34_invalid_request_answered_refuted",
    "C34_bad_parameter",
    "C34_bad_series"
   ],
   "note": "REFUTED: no validation failure ever raises the request error; the theorems say what the caller gets instead and that code and message are stored on the object."
  },
  {
   "property": "C35",
   "status": "proved",
   "theorems": [
    "C35_series_checks",
    "C35_accepts_iff"
   ],
   "note": "microsecond intervals up to 4006 (above, see C33)."
  },
  {
   "property": "C36",
   "status": "proved",
   "theorems": [
    "C36_repeated_request_refuted"
   ],
   "note": "REFUTED for every answered request."
  },
  {
   "property": "C37",
   "status": "proved",
   "theorems": [
    "C37_mode_of_request_refuted",
    "C37_requested_modes_ignored",
    "C37_first_mode_taken"
   ],
   "note": "REFUTED; exact characterisation: the mode of the object is the only one used."
  },
  {
   "property": "C38",
   "status": "proved",
   "theorems": [
    "C38_fill_as_asked",
    "C38_fixed_fill_is_constant",
    "C38_fixed_value_refuted",
    "C38_fixed_never_answered"
   ],
   "note": "REFUTED for imputeMode fixed (and fillUpMode zero); proved for the others."
  },
  {
   "property": "C39",
   "status": "proved",
   "theorems": [
    "C39_explicit_detector_refuted",
    "C39_otherwise_ignored"
   ],
   "note": "REFUTED: every request naming a detector with parameters fails; without parameters the name is ignored."
  },
  {
   "property": "C40",
   "status": "proved",
   "theorems": [
    "C40_suggested_window"
   ],
   "note": ""
  },
  {
   "property": "C41",
   "status": "proved",
   "theorems": [
    "C41_windows_inside",
    "C41_one_window_per_row",
    "C41_complete_window_dropped"
   ],
   "note": "Every size; interval >= 1."
  },
  {
   "property": "C42",
   "status": "proved",
   "theorems": [
    "C42_results_aligned",
    "C42_predict_answers"
   ],
   "note": "The network is an arbitrary function of the window and the weights; exact arithmetic. Frames with a sorted index; see C43 for the others. C42_predict_answers excludes rows whose score is exactly 0, for which the contribution shares are 0/0."
  },
  {
   "property": "C43",
   "status": "proved",
   "theorems": [
    "C43_label_and_scored_row",
    "C43_label_refuted"
   ],
   "note": "REFUTED for unsorted frames: result k carries the label of the submitted row at its position but the score of the row at that position after sorting. Witness: index [1;0]."
  },
  {
   "property": "C44",
   "status": "proved",
   "theorems": [
    "C44_window_used",
    "C44_window_one",
    "C44_threshold_window_refuted",
    "C44_detection_results_aligned"
   ],
   "note": "REFUTED: the exact window is proved for every threshold_window; it ends threshold_window-1 rows too early. Witness with threshold_window 2."
  },
  {
   "property": "C45",
   "status": "proved",
   "theorems": [
    "C45_decisions_and_severity",
    "C45_error_function",
    "C45_severity_range"
   ],
   "note": "The decision theorem is over exact rationals with an arbitrary error function bounded by e1; the range of the actual error function exp(min(2|d|,1))-1 is proved over the reals (stdlib axioms of R)."
  },
  {
   "property": "C46",
   "status": "proved",
   "theorems": [
    "C46_preparation",
    "C46_filling"
   ],
   "note": "Exact arithmetic; numeric columns."
  },
  {
   "property": "C47",
   "status": "proved",
   "theorems": [
    "C47_window_sizes",
    "C47_rows_needed"
   ],
   "note": "The checkpoint path must be free before fit; otherwise see C49."
  },
  {
   "property": "C48",
   "status": "proved",
   "theorems": [
    "C48_second_call",
    "C48_untouched_settings",
    "C48_refit_refuted"
   ],
   "note": "REFUTED: the dictionary left by the first call asks for 200/200 and linear fill; witness where the second fit fails."
  },
  {
   "property": "C49",
   "status": "proved",
   "theorems": [
    "C49_first_best_epoch_kept"
   ],
   "note": "Optimiser, network and losses are arbitrary; a NaN loss is None."
  },
  {
   "property": "C50",
   "status": "proved",
   "theorems": [
    "C50_normalisation",
    "C50_constant_variable"
   ],
   "note": "Exact arithmetic."
  },
  {
   "property": "C51",
   "status": "proved",
   "theorems": [
    "C51_interpretation"
   ],
   "note": "Exact arithmetic; argsort may break ties in any way; attention is the arbitrary second output of the network."
  },
  {
   "property": "C52",
   "status": "proved",
   "theorems": [
    "C52_batch_size_irrelevant",
    "C52_batches"
   ],
   "note": "The network scores each sample independently of its batch (in evaluation mode this is C93)."
  },
  {
   "property": "C53",
   "status": "proved",
   "theorems": [
    "C53_weights"
   ],
   "note": "The band between calm and spiky (square roots against 1e-8-shifted means) is left to the code; both sides of it are pinned."
  },
  {
   "property": "C54",
   "status": "proved",
   "theorems": [
    "C54_checkpoint_contents",
    "C54_restored_detector_fails",
    "C54_restored_detector_refuted"
   ],
   "note": "REFUTED: the restored detector has the threshold its writer had before fit, none for a new detector, and every predict on it fails."
  },
  {
   "property": "C55",
   "status": "proved",
   "theorems": [
    "C55_training_threshold",
    "C55_adaptive_threshold",
    "C55_fitted_threshold"
   ],
   "note": "Exact arithmetic; the checkpoint path must be free before fit."
  },
  {
   "property": "C56",
   "status": "proved",
   "theorems": [
    "C56_losses",
    "C56_epoch_loss"
   ],
   "note": "Losses over the reals (stdlib axioms of R); epoch averages over exact rationals with None for NaN."
  },
  {
   "property": "C57",
   "status": "proved",
   "theorems": [
    "C57_attention_map",
    "C57_mixed_features",
    "C57_attention_order"
   ],
   "note": "Over the reals (stdlib axioms of R); dropout is the identity outside training."
  },
  {
   "property": "C58",
   "status": "proved",
   "theorems": [
    "C58_accepted",
    "C58_layouts_refuted"
   ],
   "note": "REFUTED for three layouts; exact characterisation of the accepted texts. ASCII digits only."
  },
  {
   "property": "C59",
   "status": "proved",
   "theorems": [
    "C59_expected_entire",
    "C59_expected_latest"
   ],
   "note": "Exact arithmetic; the Fourier transform is an arbitrary function. Latest mode without any skeleton point (mean of nothing, NaN) is outside the statement."
  },
  {
   "property": "C60",
   "status": "proved",
   "theorems": [
    "C60_score_normalisation_refuted",
    "C60_score_thresholds",
    "C60_reported_scores_saturate"
   ],
   "note": "REFUTED: operator precedence; a raw score of 1 normalises to 16/23 instead of 0. Proved: zero iff raw <= 7/23, one iff raw >= 30/23, so under the default threshold every reported point has score 1."
  },
  {
   "property": "C61",
   "status": "proved",
   "theorems": [
    "C61_amplitude_is_geometric_mean",
    "C61_transform_is_reference",
    "C61_float_overflow_refuted"
   ],
   "note": "Over the reals (stdlib axioms of R). REFUTED in binary64: three coefficients of 1e103, reachable from accepted values, make the running product infinite for every later position."
  },
  {
   "property": "C62",
   "status": "proved",
   "theorems": [
    "C62_delta_only_adds"
   ],
   "note": ""
  },
  {
   "property": "C63",
   "status": "proved",
   "theorems": [
    "C63_critical_values_shared",
    "C63_critical_values_count",
    "C63_esd_detect_total"
   ],
   "note": "The t quantile and sqrt are arbitrary; that the shipped table was generated by the formula for its own length is a hypothesis."
  },
  {
   "property": "C64",
   "status": "proved",
   "theorems": [
    "C64_statistic_fill",
    "C64_weighted_fill",
    "C64_no_period_complete"
   ],
   "note": "For the try_best mode without reuse of filled values; the weighted mean for positive weights."
  },
  {
   "property": "C65",
   "status": "proved",
   "theorems": [
    "C65_missing_indices",
    "C65_missing_segments"
   ],
   "note": ""
  },
  {
   "property": "C66",
   "status": "proved",
   "theorems": [
    "C66_entire_answer",
    "C66_latest_answer"
   ],
   "note": "Composition of C08, C09, C11, C12 and C14; the request parser is not part of this theorem."
  },
  {
   "property": "C67",
   "status": "proved",
   "theorems": [
    "C67_short_gap",
    "C67_steady_stays_between",
    "C67_behind_first_point_refuted"
   ],
   "note": "REFUTED: a gap right behind the first point ignores the value of that point, so an overshooting spline value is kept. Proved with three or more counted neighbours; the spline is any function through the submitted points."
  },
  {
   "property": "C68",
   "status": "proved",
   "theorems": [
    "C68_significant_points_reported"
   ],
   "note": "Exact arithmetic; np.std, the normal quantile and the critical values are arbitrary."
  },
  {
   "property": "C69",
   "status": "proved",
   "theorems": [
    "C69_highest_scores_reported",
    "C69_latest_near_mean_not_reported"
   ],
   "note": "Exact arithmetic; transform and np.std arbitrary; sort_values may order ties in any way."
  },
  {
   "property": "C70",
   "status": "proved",
   "theorems": [
    "C70_no_validation_windows"
   ],
   "note": ""
  },
  {
   "property": "C71",
   "status": "proved",
   "theorems": [
    "C71_too_few_windows_for_a_batch"
   ],
   "note": "The checkpoint path must be free before fit."
  },
  {
   "property": "C72",
   "status": "proved",
   "theorems": [
    "C72_column_order_irrelevant"
   ],
   "note": ""
  },
  {
   "property": "C73",
   "status": "proved",
   "theorems": [
    "C73_scores_ignore_row_order"
   ],
   "note": "Duplicate index values excluded: sort_index may then order them in any way."
  },
  {
   "property": "C74",
   "status": "proved",
   "theorems": [
    "C74_names_ignored",
    "C74_unknown_variables_refuted"
   ],
   "note": "REFUTED: a detector trained on one name scores a frame with another."
  },
  {
   "property": "C75",
   "status": "proved",
   "theorems": [
    "C75_timestamp_column_rejected"
   ],
   "note": "With two columns numpy broadcasting of the single weight would let fit go on; not modelled, hence three or more."
  },
  {
   "property": "C76",
   "status": "proved",
   "theorems": [
    "C76_rows_matter_only_for_weights",
    "C76_row_order_refuted"
   ],
   "note": "REFUTED: interleaving the rows changes the weights and with them the threshold."
  },
  {
   "property": "C77",
   "status": "proved",
   "theorems": [
    "C77_smoothing",
    "C77_pooling"
   ],
   "note": "Over the reals (stdlib axioms of R)."
  },
  {
   "property": "C78",
   "status": "proved",
   "theorems": [
    "C78_same_index",
    "C78_distinct_indices_refuted"
   ],
   "note": "REFUTED; exact characterisation of equal indices."
  },
  {
   "property": "C79",
   "status": "proved",
   "theorems": [
    "C79_recent",
    "C79_all_times_refuted"
   ],
   "note": "REFUTED across the binade border 2^30 s; proved within the binade."
  },
  {
   "property": "C80",
   "status": "proved",
   "theorems": [
    "C80_entire_request",
    "C80_latest_request"
   ],
   "note": ""
  },
  {
   "property": "C81",
   "status": "proved",
   "theorems": [
    "C81_detector_arguments"
   ],
   "note": ""
  },
  {
   "property": "C82",
   "status": "proved",
   "theorems": [
    "C82_usable_indices"
   ],
   "note": "monthly and yearly: C78."
  },
  {
   "property": "C83",
   "status": "proved",
   "theorems": [
    "C83_unit_independent"
   ],
   "note": "Exact arithmetic."
  },
  {
   "property": "C84",
   "status": "proved",
   "theorems": [
    "C84_natural_cycle_found",
    "C84_day_cycle_found"
   ],
   "note": "Exact arithmetic."
  },
  {
   "property": "C85",
   "status": "proved",
   "theorems": [
    "C85_constant_has_no_period"
   ],
   "note": ""
  },
  {
   "property": "C86",
   "status": "proved",
   "theorems": [
    "C86_detector_choice",
    "C86_mostly_equal"
   ],
   "note": "For calls without an explicit detector (C39 covers those with one). External routines arbitrary; the normal quantile constant positive. Exact arithmetic."
  },
  {
   "property": "C87",
   "status": "proved",
   "theorems": [
    "C87_line_continues",
    "C87_units",
    "C87_padding_entire",
    "C87_padding_latest",
    "C87_half_is_median"
   ],
   "note": "Exact arithmetic."
  },
  {
   "property": "C88",
   "status": "proved",
   "theorems": [
    "C88_raw_scores"
   ],
   "note": "The transform is any function with non-negative values. Exact arithmetic."
  },
  {
   "property": "C89",
   "status": "proved",
   "theorems": [
    "C89_decomposition",
    "C89_log",
    "C89_log_domain",
    "C89_last_point",
    "C89_total"
   ],
   "note": "rstl is any additive, length-preserving function that answers series of more than two periods; exp and log arbitrary; the standard deviation non-negative and not 3 times too small. Exact arithmetic."
  },
  {
   "property": "C90",
   "status": "proved",
   "theorems": [
    "C90_guess",
    "C90_total",
    "C90_short",
    "C90_steps",
    "C90_kinds",
    "C90_rounding",
    "C90_large_values_refuted"
   ],
   "note": "REFUTED for values beyond the largest C float when no period is given (the median trend overflows, helpers.py:104-108); proved for values up to 1/8192 of it and for given periods. The filters of the library answer windows from 2 to n-1 and its spline up to n/4+1 segments; its peaks have positive scores and periods up to half of the points. Exact arithmetic."
  },
  {
   "property": "C91",
   "status": "proved",
   "theorems": [
    "C91_detector_answers",
    "C91_request_answered",
    "C91_plain_request",
    "C91_given_period",
    "C91_long_period_fails",
    "C91_any_ratio_refuted",
    "C91_large_values_refuted"
   ],
   "note": "REFUTED also for accepted values beyond the largest C float (1e40, no period): bare Exception. Values up to 1e34 are covered by the positive theorems. REFUTED for periods that do not fit (C91_long_period_fails: every such request without granularity raises ValueError; C91_given_period: exactly these) and for ratios up to 0.49 (C91_any_ratio_refuted, with the critical values of the package). Proved for all other requests; the contracts of the libraries are in libs_ok. Exact arithmetic."
  },
  {
   "property": "C92",
   "status": "proved",
   "theorems": [
    "C92_accepted_batches",
    "C92_computes",
    "C92_answers_in_range",
    "C92_bounded_away",
    "C92_smallest_sliding_window"
   ],
   "note": "Real arithmetic instead of float32 (where the logistic may round to 0 or 1)."
  },
  {
   "property": "C93",
   "status": "proved",
   "theorems": [
    "C93_window_alone"
   ],
   "note": "Discharges the assumption of C52 that the network scores each sample independently of its batch."
  },
  {
   "property": "C94",
   "status": "proved",
   "theorems": [
    "C94_far_row_reported",
    "C94_far_variables",
    "C94_single_variable_refuted",
    "C94_full_error"
   ],
   "note": "REFUTED for a single far variable; proved for rows that are far off in every variable, and quantitatively for some. What is assumed of the error function is C45_error_function, of the network C92_answers_in_range."
  },
  {
   "property": "C95",
   "status": "proved",
   "theorems": [
    "C95_largest_unit",
    "C95_monotone",
    "C95_own_unit"
   ],
   "note": "Lengths are whole milliseconds; the code multiplies by 0.001 in floating point."
  },
  {
   "property": "C96",
   "status": "proved",
   "theorems": [
    "C96_constant_series",
    "C96_request",
    "C96_plain_request",
    "C96_large_constant_refuted"
   ],
   "note": "REFUTED for constants beyond the largest C float without a period: every such request fails. Of the libraries beyond libs_ok (C91): the aglet and spline filters and the STL decomposition answer a constant with that constant (steady). Exact arithmetic."
  },
  {
   "property": "C97",
   "status": "proved",
   "theorems": [
    "C97_same_answer",
    "C97_value",
    "C97_request"
   ],
   "note": "The libraries are as in C91 (libs_ok). Gaps filled with a fixed value that is missing turn into NaN, which is outside the model on both sides."
  },
  {
   "property": "C98",
   "status": "proved",
   "theorems": [
    "C98_seasonal_expected",
    "C98_dynamic_expected",
    "C98_reported_values_irrelevant",
    "C98_seasonal_answer"
   ],
   "note": "Decomposition and trend extraction are arbitrary; sort_values sorts. C98_seasonal_answer is about series without gaps; the other theorems about the detectors themselves, before their differenced second run. Exact arithmetic."
  },
  {
   "property": "C99",
   "status": "proved",
   "theorems": [
    "C99_rows_in_other_unit",
    "C99_rows_in_other_scale",
    "C99_entire_answer",
    "C99_latest_answer",
    "C99_v2_entire_answer",
    "C99_v2_latest_answer",
    "C99_v1_shift_refuted",
    "C99_tiny_unit_refuted",
    "C99_v2_quiet_refuted"
   ],
   "note": "Proved for libraries (trend, decomposition, spline, standard deviation, spectral transform, stationarity tests, period search) that move along with the unit. Without the provisos REFUTED: a shift changes a V1 answer, a tiny unit loses every anomaly, and V2 loses anomalies when the trend is small against 0.3. Exact arithmetic."
  }
 ]
}