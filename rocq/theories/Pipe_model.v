(** The univariate detector as one function of the libraries it calls: the
    detection pipeline (Detect_model) with the trend extraction (Trend_model), the
    seasonal decomposition (Stl_model) and the period search (Period_model) in
    place of its oracles.
    /repo/src/anomaly_detector/univariate/model/detect_model.py *)
From Coq Require Import String List Arith ZArith QArith Qcanon Bool.
From Verif Require Import Base Num Kernel_model Helpers_model Margins_model SR_model Detect_model.
From Verif Require Period_model Trend_model Stl_model.
Import ListNotations.
Open Scope nat_scope.

(** What is left outside: numpy, pandas, scipy, statsmodels, arch, seasonal, rstl. *)
Record libs := mkLibs {
  l_cst : Qc;                                             (* Gaussian.ppf(3/4) *)
  l_std : list Qc -> Qc;                                  (* np.std *)
  l_ppf : Qc -> Z -> Qc; l_sqrt : Qc -> Qc; l_table : list Qc;
  l_sort : list (nat * Qc) -> list (nat * Qc);            (* sort_values *)
  l_sort_desc : list (nat * Qc) -> list (nat * Qc);
  l_transform : list Qc -> list Qc;                       (* FFT round trip *)
  l_stationary : list Qc -> bool;                         (* ADF / KPSS *)
  l_spline : list nat -> list Qc -> nat -> Qc;            (* interpolation of gaps *)
  l_r32 : Qc -> Qc; l_top : option Qc; l_rnd : nat -> nat -> nat -> nat;     (* C float cast, its limit, rand() *)
  l_acf : list Qc -> nat -> res (list (option Qc) * list (option Qc));
  l_peaks : list Qc -> Qc -> option (list Period_model.peak);
  l_aglet : list Qc -> nat -> res (list Qc);
  l_mean_filter : list Qc -> nat -> res (list Qc);
  l_line_filter : list Qc -> nat -> res (list Qc);
  l_spline_filter : list Qc -> nat -> res (list Qc);
  l_stl : list Qc -> nat -> res Stl_model.comps;
  l_exp : Qc -> Qc; l_log : Qc -> Qc }.

Section Whole.
Variable L : libs.

(** helpers.py:110-113: periodogram_peaks with the library's default threshold
    of 0.9; periods and scores of the peaks. *)
Definition trend_peaks (d : list Qc) : res (option (list (nat * Qc))) :=
  Ok (option_map (map (fun k : Period_model.peak => (fst (fst (fst k)), snd (fst (fst k)))))
        (l_peaks L d (Q2Qc (9 # 10)))).

(** helpers.py:74-78 *)
Definition whole_trend : list Qc -> option nat -> res (list Qc) :=
  Trend_model.trend_detection (l_r32 L) (l_top L) (l_aglet L) (l_mean_filter L) (l_line_filter L) (l_spline_filter L) trend_peaks.

(** helpers.py:90-100, the names of the kinds *)
Definition kind_of_name (s : string) : Trend_model.kind :=
  if String.eqb s "median" then Trend_model.KMedian
  else if String.eqb s "mean" then Trend_model.KMean
  else if String.eqb s "line" then Trend_model.KLine
  else if String.eqb s "spline" then Trend_model.KSpline
  else Trend_model.KUnknown.

(** spectrum.py:76 *)
Definition whole_fit (name : string) (data : list Qc) : res (list Qc) :=
  Trend_model.fit_trend (l_r32 L) (l_top L) (l_aglet L) (l_mean_filter L) (l_line_filter L) (l_spline_filter L) trend_peaks
    data (Some (kind_of_name name)) None.

(** series_compete_processor.py:31-32 *)
Definition whole_period (g : granularity) (interval : option nat) : list (option Qc) -> res nat :=
  Period_model.detected_period (l_std L) (l_r32 L) (l_rnd L) (l_acf L) (l_peaks L) whole_fit g
    (option_map Z.of_nat interval) false.

(** detect_model.py:319-333 *)
Definition whole_detect (a : args) (d : detector_arg) (period : option nat) (last_mode : bool)
  : res (list row * nat * model_id * bool) :=
  detect_model (l_cst L) (l_std L) (l_ppf L) (l_sqrt L) (l_table L) (l_sort L) (l_sort_desc L) whole_trend
    (Stl_model.decompose (l_stl L) (l_exp L) (l_log L) (l_std L)) (l_transform L) (l_stationary L) (l_spline L)
    (whole_period (a_gran a) (a_interval a)) a d period last_mode.
End Whole.
