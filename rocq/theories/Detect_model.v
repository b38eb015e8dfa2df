(** Model of the univariate detection pipeline:
    /repo/src/anomaly_detector/univariate/model/detect.py,
    dynamic_threshold.py, seasonal_series.py, detect_model.py,
    series_compete_processor.py and detectors/z_score.py.
    A result frame is a list of rows; the frame's label is the position. *)
From Coq Require Import String List Arith ZArith QArith Qcanon Qround Lia Bool.
From Verif Require Import Base Num Sorting Kernel_model FillUp_model Helpers_model Margins_model SR_model.
Import ListNotations.
Open Scope nat_scope.

(** util/fields.py:70-79 *)
Inductive granularity := GNone | Yearly | Monthly | Weekly | Daily | Hourly | Minutely | Secondly | Microsecond.

(** detect.py:19-24: one step of the ranking dict, kept in insertion order. *)
Fixpoint rank_add (index k fresh : nat) (d : list (nat * nat)) : list (nat * nat) :=
  match d with
  | [] => [(index, fresh)]
  | (j, r) :: t => if j =? index then (j, r + k) :: t else (j, r) :: rank_add index k fresh t
  end.
(** detect.py:19-24, k counting from [k]. *)
Fixpoint rank_selection (num_obs i k : nat) (selected : list nat) (d : list (nat * nat)) : list (nat * nat) :=
  match selected with
  | [] => d
  | x :: t => rank_selection num_obs i (S k) t (rank_add x k (k + i * num_obs) d)
  end.
(** detect.py:14-24, the detectors' selections in order. *)
Fixpoint rank_all (num_obs i : nat) (selections : list (list nat)) (d : list (nat * nat)) : list (nat * nat) :=
  match selections with
  | [] => d
  | s :: t => rank_all num_obs (S i) t (rank_selection num_obs i 0 s d)
  end.
(** sorted(anomaly, key=anomaly.get): stable. *)
Fixpoint rank_insert (x : nat * nat) (l : list (nat * nat)) : list (nat * nat) :=
  match l with
  | [] => [x]
  | y :: t => if snd x <=? snd y then x :: y :: t else y :: rank_insert x t
  end.
Fixpoint rank_sort (l : list (nat * nat)) : list (nat * nat) :=
  match l with [] => [] | x :: t => rank_insert x (rank_sort t) end.
(** detect.py:12-27 for one direction. *)
Definition rank_direction (max_outliers num_obs : nat) (selections : list (list nat)) : list nat :=
  let ranked := map fst (rank_sort (rank_all num_obs 0 selections [])) in
  firstn (Nat.min max_outliers (length ranked)) ranked.

Section Detect.
Variable cst : Qc.                            (* Gaussian.ppf(3/4) *)
Variable std : list Qc -> Qc.                 (* np.std *)
Variable ppf : Qc -> Z -> Qc.                 (* student_t.ppf *)
Variable sqrt : Qc -> Qc.                     (* C sqrt *)
Variable table : list Qc.                     (* critical_table_values *)
Variable sort : list (nat * Qc) -> list (nat * Qc).      (* Series.sort_values: order among ties unspecified *)
Variable sort_desc : list (nat * Qc) -> list (nat * Qc). (* sort_values(ascending=False) *)
Variable trend_detection : list Qc -> option nat -> res (list Qc).
(** de_outlier_stl and the choice by MAPE (seasonal_series.py:44-60): the
    trend and seasonal columns. The flag is adjust_trend. *)
Variable decompose : bool -> list Qc -> nat -> res (list Qc * list Qc).
Variable transform : list Qc -> list Qc.      (* spectral_residual_transform *)

(** z_score.py:12-35; [series] ascending (label, value) pairs. *)
Definition zscore_detect (series : list (nat * Qc)) (max_outliers : nat) (upper : bool) : list nat :=
  let vals := map snd series in
  let med := qmedian vals in
  let mad := (qmedian (map (fun x => Qcabs (x - med)) vals) / cst)%Qc in
  let c := if (mad =? 0)%Qc then (qmean vals, std vals) else (med, mad) in
  if (snd c =? 0)%Qc then [] else
  let data := if upper then rev series else series in
  map fst (filter (fun p => (Q2Qc 3 <? Qcabs (snd p - fst c) / snd c)%Qc) (firstn max_outliers data)).

(** dynamic_threshold.py:53 / seasonal_series.py:108. Python's
    [len // 2 - 1] is negative for fewer than 2 points; not reachable, the
    validator requires 12. *)
Definition dt_quota (n : nat) (ratio : Qc) : nat :=
  Nat.min (Nat.max (Z.to_nat (Qceiling (this (qn n * ratio)%Qc))) 1) (n / 2 - 1).

Definition sorted_series (data : list Qc) : list (nat * Qc) := sort (combine (range (length data)) data).

(** detect.py:14-17 for one direction: every detector's selection. *)
Fixpoint run_detectors (detectors : list (bool -> res (list nat))) (upper : bool) : res (list (list nat)) :=
  match detectors with
  | [] => Ok []
  | d :: t => do s <- d upper; do r <- run_detectors t upper; Ok (s :: r)
  end.
(** detect.py:10-43: upper tail, then lower tail; the labels of the joined
    frame (order irrelevant to the later joins). *)
Definition detect_tails (detectors : list (bool -> res (list nat))) (max_outliers num_obs : nat)
  : res (list nat) :=
  do u <- run_detectors detectors true;
  do l <- run_detectors detectors false;
  let up := rank_direction max_outliers num_obs u in
  let lo := rank_direction max_outliers num_obs l in
  Ok (up ++ filter (fun i => negb (mem_nat i up)) lo).

(** dynamic_threshold.py:50-62 *)
Definition dt_detect_anomaly (data : list Qc) (alpha ratio : Qc) (last_mode : bool) : res (list nat * model_id) :=
  let sorted := sorted_series data in
  let n := length data in
  let maxo := dt_quota n ratio in
  do maj <- get_verified_majority_value cst (map snd sorted);
  do idx <- detect_tails
    [ (fun upper => esd_detect cst std (get_critical ppf sqrt table alpha) sorted maxo maj upper last_mode);
      (fun upper => Ok (zscore_detect sorted maxo upper)) ] maxo n;
  Ok (idx, match maj with None => DynamicThreshold | Some _ => DynamicThresholdMad end).

(** NaN at the anomalous positions *)
Definition blank (idx : list nat) (l : list Qc) : list (option Qc) :=
  mapi (fun i v => if mem_nat i idx then None else Some v) l.

(** dynamic_threshold.py:16-47. [trend_values] is the caller's trend. *)
Definition dynamic_threshold_detection (series trend_values : list Qc) (alpha ratio : Qc)
    (need_trend last_mode : bool) : res (list row * model_id) :=
  do nz <- normalize series;
  do an <- dt_detect_anomaly (fst (fst nz)) alpha ratio last_mode;
  let idx := fst an in
  do trend <- (match idx with
               | [] => Ok trend_values
               | _ => do s <- interp (blank idx series); trend_detection s None
               end);
  do frame <- result_frame series trend (if need_trend then Some trend else None) None idx;
  Ok (frame, snd an).

(** seasonal_series.py:103-126 *)
Definition ts_detect_anomaly (data remainder : list Qc) (alpha ratio : Qc) (last_mode : bool)
  : res (list nat * model_id) :=
  let sorted := sorted_series data in
  let sorted_r := sorted_series remainder in
  let n := length data in
  let maxo := dt_quota n ratio in
  do maj <- get_verified_majority_value cst (map snd sorted);
  do maj_r <- get_verified_majority_value cst (map snd sorted_r);
  do idx <- detect_tails
    [ (fun upper => esd_detect cst std (get_critical ppf sqrt table alpha) sorted maxo maj upper last_mode);
      (fun upper => Ok (zscore_detect sorted maxo upper));
      (fun upper => esd_detect cst std (get_critical ppf sqrt table alpha) sorted_r maxo maj_r upper last_mode) ]
    maxo n;
  Ok (idx, match maj, maj_r with None, None => AnomalyDetector | _, _ => AnomalyDetectorMad end).

(** seasonal_series.py:71-77: blank the anomalies, and the last half period
    when at least half of it is anomalous ([trend[-0:]] is the whole array). *)
Definition blank_trend (idx : list nat) (period : nat) (trend : list Qc) : list (option Qc) :=
  let n := length trend in
  let w := period / 2 in
  let b := blank idx trend in
  if w <=? 2 * length (filter (fun i => n - w <=? i) idx) then
    if w =? 0 then repeat None n else firstn (n - w) b ++ repeat None w
  else b.

(** seasonal_series.py:18-100 (detect_ts through seasonal_series_detection).
    [series - season] of different lengths raises ValueError. *)
Definition seasonal_series_detection (series : list Qc) (period : nat) (alpha ratio : Qc)
    (adjust_trend need_trend last_mode : bool) : res (list row * model_id) :=
  if (Q2Qc (49 # 100) <? ratio)%Qc then Err ValueErr else
  let n := length series in
  if n =? 0 then Err ZeroDiv else
  let clamp := (1 / qn n)%Qc in
  let ratio := if (ratio <? clamp)%Qc then clamp else ratio in
  if n <? period * 2 + 1 then Err ValueErr else
  do ts <- decompose adjust_trend series period;
  let trend := fst ts in
  let season := snd ts in
  if negb ((length trend =? n) && (length season =? n)) then Err ValueErr else
  let de_seasoned := zip_with (fun a b => (a - b)%Qc) series season in
  let remainder := zip_with (fun a b => (a - b)%Qc) de_seasoned trend in
  do nz <- normalize de_seasoned;
  do nr <- normalize remainder;
  do an <- ts_detect_anomaly (fst (fst nz)) (fst (fst nr)) alpha ratio last_mode;
  let idx := fst an in
  do trend <- (match idx with
               | [] => Ok trend
               | _ => interp (blank_trend idx period trend)
               end);
  do frame <- result_frame series (zip_with Qcplus trend season) (if need_trend then Some trend else None) None idx;
  Ok (frame, snd an).

(** detect_model.py:27-32 *)
Definition should_trigger_sr (g : granularity) (interval : nat) (values : list Qc) : bool :=
  let med := qmedian values in
  let mad := (qmedian (map (fun x => Qcabs (x - med)) values) / cst)%Qc in
  let proper_gran := match g with
                     | Minutely => interval <? 60
                     | Secondly => interval <? 60 * 60
                     | _ => false
                     end in
  proper_gran && negb (Qcabs (mad - 0) <? EPS)%Qc.

(** detect_model.py:63-70 on one row *)
Definition correct_anomaly_direction (r : row) : row :=
  if r_anomaly r then
    let pos := (r_expected r <? r_value r)%Qc in
    mkRow (r_value r) (r_expected r) (r_trend r) (r_score r) true (negb pos) pos
  else r.

Variable stationary : list Qc -> bool.        (* ADF / KPSS, detect_model.py:38-44 *)

Definition count_anomalies (rows : list row) : nat := length (filter r_anomaly rows).

(** detect_model.py:72-95. [func series ratio] is the second run of the
    detector on the differenced series with the other arguments unchanged. The
    two frames have the same length, otherwise numpy's & or the fancy
    assignment raises ValueError. The Trend column is only present when
    requested; its entries are 0 otherwise and then not read. *)
Definition merge_with_delta (results : list row) (func : list Qc -> Qc -> res (list row * model_id))
    (series : list Qc) (ratio : Qc) : res (list row) :=
  do dl <- should_include_delta stationary series;
  let delta := fst dl in
  if (delta <=? 0)%Z then Ok results else
  let series' := snd dl in
  let n := length series' in
  let max_outliers := sr_quota n ratio in
  let ori := count_anomalies results in
  if max_outliers <=? ori then Ok results else
  do dr <- func series' (qn (max_outliers - ori) / qn n)%Qc;
  let diff := fst dr in
  if negb (length diff =? length results) then Err ValueErr else
  let new_p := filter (fun i => negb (nth i (map r_anomaly results) true) && nth i (map r_anomaly diff) false)
                      (range (length results)) in
  do trend <- correct_expected_value_in_delta new_p (map r_trend results) (map r_trend diff) delta (map r_value results);
  do expected <- correct_expected_value_in_delta new_p (map r_expected results) (map r_expected diff) delta (map r_value results);
  Ok (mapi (fun i r =>
    if mem_nat i new_p then
      match nth_error diff i with
      | Some d => correct_anomaly_direction
                    (mkRow (r_value r) (nth i expected 0%Qc) (nth i trend 0%Qc) (r_score d) (r_anomaly d) (r_neg d) (r_pos d))
      | None => r
      end
    else r) results).

(** detect_model.py:129-130 *)
Definition refine_max_ratio (majority_ratio max_ratio : Qc) : Qc :=
  Qcmax ((1 - majority_ratio) * max_ratio)%Qc (Qcmin (Q2Qc (5 # 100)) max_ratio).

(** detect_model.py:327-333: un-flag rows whose value and expected value
    almost coincide. *)
Definition refine_row_flags (r : row) : row :=
  if (Qcabs (r_value r - r_expected r) <? EPS)%Qc
  then mkRow (r_value r) (r_expected r) (r_trend r) (r_score r) false false false
  else r.

(** detect_model.py:293-295: drop the rows whose tag is True. *)
Definition drop_filled {A} (tags : list bool) (rows : list A) : list A :=
  map fst (filter (fun p => negb (snd p)) (combine rows tags)).

(** A series with missing entries (None from an unset fixed value) turns into
    NaN; the arithmetic on NaN is not modelled. *)
Fixpoint all_some (l : list (option Qc)) : option (list Qc) :=
  match l with
  | [] => Some []
  | Some v :: t => match all_some t with Some r => Some (v :: r) | None => None end
  | None :: _ => None
  end.

(** What AnomalyDetectionModel is constructed with (detect_model.py:97-125);
    [a_majority] is the histogram majority ratio (-1 when it failed);
    [a_interval] is None when the request gives no custom interval. *)
Record args := mkArgs {
  a_values : list Qc; a_fup : fup; a_mode : fill_mode; a_fixed : option Qc;
  a_ratio : Qc; a_alpha : Qc; a_threshold : Qc; a_need_trend : bool;
  a_majority : Qc; a_gran : granularity; a_interval : option nat }.

Variable spline : list nat -> list Qc -> nat -> Qc.
Variable period_detection : list (option Qc) -> res nat.   (* period/period_detect.py *)

(** fill_up.py:47 *)
Definition missing_ratio (f : fup) : Qc :=
  match f_indices f with [] => 0%Qc | _ => (qz (f_missing f) / qn (f_all f))%Qc end.

(** series_compete_processor.py:21-32 *)
Definition period_detection_with_filled_values (f : fup) (mode : fill_mode) (fixed : option Qc) : res nat :=
  do v <- (if f_need f then
             do r <- fill_up_on_demand spline f (match mode with FMAuto => FMPrevious | m => m end) fixed None;
             Ok (option_map fst r)
           else Ok None);
  period_detection (match v with Some l => l | None => map Some (f_values f) end).

Definition fills_without_period (m : fill_mode) : bool :=
  match m with FMFixed | FMUseLast | FMPrevious | FMLinear => true | _ => false end.

(** detect_model.py:229-297. Result: rows, period, model id, do_fill_up. *)
Definition detect_with_model_selection (a : args) (period : option nat) (last_mode : bool)
  : res (list row * nat * model_id * bool) :=
  let has_majority := (Q2Qc (6 # 10) <? a_majority a)%Qc in
  let max_ratio := if last_mode && has_majority then refine_max_ratio (a_majority a) (a_ratio a) else a_ratio a in
  let f := a_fup a in
  do period <- (match period with
                | Some p => Ok p
                | None => if (Q2Qc (1 # 2) <? missing_ratio f)%Qc then Ok 0
                          else period_detection_with_filled_values f (a_mode a) (a_fixed a)
                end);
  if (1 <? period) && (Q2Qc (1 # 2) <? missing_ratio f)%Qc then Err (RequestErr "InvalidSeries") else
  do filled <- (if (1 <? period) || fills_without_period (a_mode a)
                then fill_up_on_demand spline f (a_mode a) (a_fixed a) (Some (Z.of_nat period))
                else Ok None);
  do series <- (match filled with
                | None => Ok (a_values a)
                | Some (full, _) => match all_some full with Some s => Ok s | None => Err Generic end
                end);
  do rm <- (if 1 <? period then
              seasonal_series_detection series period (a_alpha a) max_ratio last_mode (a_need_trend a) last_mode
            else if should_trigger_sr (a_gran a) (match a_interval a with Some i => i | None => 1 end) series then
              let func s r := spectral_residual_detection transform std trend_detection sort_desc s (a_threshold a) r
                                (a_need_trend a) last_mode in
              do rm <- func series max_ratio;
              do rows <- merge_with_delta (fst rm) func series max_ratio;
              Ok (rows, snd rm)
            else
              do tv <- trend_detection series (Some period);
              let func s r := dynamic_threshold_detection s tv (a_alpha a) r (a_need_trend a) last_mode in
              do rm <- func series max_ratio;
              do rows <- merge_with_delta (fst rm) func series max_ratio;
              Ok (rows, snd rm));
  let rows := match filled with None => fst rm | Some (_, tags) => drop_filled tags (fst rm) end in
  Ok (rows, period, snd rm, match filled with None => false | Some _ => true end).

(** The request's detector argument: the name, and under 'parameters' whether
    a period key is present and its value (detect_model.py:132-147). *)
Inductive detector_name := NSeasonal | NHbos | NSpectral | NDynamic | NOther.
Record detector_arg := mkDet {
  d_name : option detector_name;
  d_params : option (option (option nat)) }.

(** detect_model.py:132-140 *)
Definition should_trigger_model_selection (d : detector_arg) (majority : Qc) : bool :=
  match d_name d, d_params d with
  | None, _ => true
  | _, None => true
  | Some NHbos, _ => (majority <=? 0)%Qc
  | _, _ => false
  end.

(** detect_model.py:142-170: every path ends at the latest in the call
    [print("...", 1, count=...)], which raises TypeError. *)
Definition detect_without_model_selection (a : args) (d : detector_arg) (period : option nat)
  : res (list row * nat * model_id * bool) :=
  match d_params d with
  | None => Err KeyErr
  | Some pp =>
      match period, pp with
      | None, None => Err (RequestErr "InvalidDetector")
      | _, _ =>
          let period := match pp with Some (Some p) => Some p | _ => period end in
          match period with
          | None => Err TypeErr
          | Some p =>
              if (1 <? p) && (Q2Qc (1 # 2) <? missing_ratio (a_fup a))%Qc then Err (RequestErr "InvalidSeries") else
              do _ <- (if (1 <? p) || match a_mode a with FMFixed => true | _ => false end
                       then fill_up_on_demand spline (a_fup a) (a_mode a) (a_fixed a) (Some (Z.of_nat p))
                       else Ok None);
              Err TypeErr
          end
      end
  end.

(** detect_model.py:319-333, without the spectrum period (Spectrum_model; the
    answer does not contain it). *)
Definition detect_model (a : args) (d : detector_arg) (period : option nat) (last_mode : bool)
  : res (list row * nat * model_id * bool) :=
  do r <- (if should_trigger_model_selection d (a_majority a)
           then detect_with_model_selection a period last_mode
           else detect_without_model_selection a d period);
  let '(rows, p, m, filled) := r in
  Ok (map refine_row_flags rows, p, m, filled).

(** util/enum.py default_gran_window and
    univariate_anomaly_detection.py:294-299. Every granularity has an entry. *)
Definition default_gran_window (g : granularity) : nat :=
  match g with
  | Daily => 7 * 4 | Minutely => 1440 | Hourly => 24 * 7 | Weekly => 12 | Monthly => 12 | Yearly => 12
  | Secondly => 1440 | Microsecond => 1000 | GNone => 1440
  end.
Definition suggested_window (g : granularity) (period : nat) : nat :=
  if negb (period =? 0) then 4 * period + 1 else default_gran_window g + 1.

Definition is_sr (m : model_id) : bool := match m with SpectralResidual => true | _ => false end.

Fixpoint zip_pair {A B} (a : list A) (b : list B) : list (A * B) :=
  match a, b with x :: s, y :: t => (x, y) :: zip_pair s t | _, _ => [] end.

(** univariate_anomaly_detection.py:250-289 after a successful parse, entire
    mode. [T] is the timestamp column (row numbers when absent); assigning a
    column of another length raises ValueError. The sensitivity and the
    boundary version come from the request. *)
Definition predict_entire {T} (a : args) (d : detector_arg) (period : option nat) (v1 : bool) (sens : Qc)
    (timestamps : list T) : res (list (T * outcome) * nat) :=
  do r <- detect_model a d period false;
  let '(rows, p, m, _) := r in
  if negb (length timestamps =? length rows) then Err ValueErr else
  do outs <- get_margins_entire v1 (is_sr m) rows sens;
  Ok (zip_pair timestamps outs, p).

(** univariate_anomaly_detection.py:250-257 and 289-315, latest mode. *)
Definition predict_last {T} (a : args) (d : detector_arg) (period : option nat) (v1 : bool) (sens : Qc)
    (timestamps : list T) : res (T * outcome * nat * nat) :=
  do r <- detect_model a d period true;
  let '(rows, p, m, _) := r in
  if negb (length timestamps =? length rows) then Err ValueErr else
  do o <- get_margins_last v1 (is_sr m) rows sens;
  do t <- last_opt timestamps;
  Ok (t, o, p, suggested_window (a_gran a) p).
End Detect.
