(** Model of the spectral residual detector:
    /repo/src/anomaly_detector/univariate/detectors/spectral_residual.py and
    model/spectral_residual_model.py. Floats are exact rationals. *)
From Coq Require Import List Arith ZArith QArith Qcanon Qround Lia Bool.
From Verif Require Import Base Num Sorting Kernel_model Helpers_model Margins_model.
Import ListNotations.
Open Scope nat_scope.

(** util/fields.py:51-63, the members the detectors return. *)
Inductive model_id := AnomalyDetector | AnomalyDetectorMad | DynamicThreshold | DynamicThresholdMad
                    | SpectralResidual | SpectralResidual_ZScore.

(** np.quantile with linear interpolation, for a non-empty array and q < 1. *)
Definition np_quantile (values : list Qc) (q : Qc) : res Qc :=
  let s := qsort values in
  let h := (qn (length values - 1) * q)%Qc in
  let k := Z.to_nat (Qfloor (this h)) in
  do a <- get s k;
  if length values <=? S k then Ok a else
  do b <- get s (S k);
  Ok (a + (h - qn k) * (b - a))%Qc.

(** spectral_residual.py:80-99 *)
Definition predict_next (values : list Qc) : res Qc :=
  let n := length values in
  if n <=? 1 then Err ValueErr else
  let v_last := last values 0%Qc in
  let slopes := mapi (fun i v => (v_last - v) / qn (n - 1 - i))%Qc (firstn (n - 1) values) in
  Ok (qmedian values + qsum slopes * Q2Qc (1 # 2) * qn (n + 1) / qn (n - 1))%Qc.

(** spectral_residual.py:118-126: [rv] are the values from the end backwards,
    [i] the entries of value_ahead still to overwrite, [acc] those overwritten. *)
Fixpoint ahead_loop (rv : list Qc) (minv maxv q50 : Qc) (i : nat) (acc : list Qc) : list Qc :=
  match i, rv with
  | O, _ => acc
  | S _, [] => repeat q50 i ++ acc
  | S i', v :: t => if (minv <=? v)%Qc && (v <=? maxv)%Qc then ahead_loop t minv maxv q50 i' (v :: acc)
                    else ahead_loop t minv maxv q50 i acc
  end.

(** spectral_residual.py:102-131 with extend_num = look_ahead = 5.
    [values[-7:-1]] is the slice n-7 .. n-2 (from 0 if that is negative). *)
Definition extend_series (values : list Qc) (remove : bool) : res (list Qc) :=
  do ahead <- (if remove then
                 do q75 <- np_quantile values (Q2Qc (3 # 4));
                 do q50 <- np_quantile values (Q2Qc (1 # 2));
                 do q25 <- np_quantile values (Q2Qc (1 # 4));
                 let maxv := (q75 + Q2Qc (3 # 2) * (q75 - q25))%Qc in
                 let minv := (q25 - Q2Qc (3 # 2) * (q75 - q25))%Qc in
                 Ok (ahead_loop (rev values) minv maxv q50 6 [])
               else Ok (slice values (length values - 7) (length values - 1)));
  do p <- predict_next ahead;
  Ok (values ++ repeat p 5).

(** position of the first [i] of [is] with score at least [x] *)
Fixpoint first_drop (scores : list Qc) (x : Qc) (is : list nat) (default : nat) : res nat :=
  match is with
  | [] => Ok default
  | i :: t => do s <- get scores i; if (x <=? s)%Qc then Ok i else first_drop scores x t default
  end.

(** util/fields.py: MIN_SR_RAW_SCORE, MAX_SR_RAW_SCORE, SKELETON_POINT_SCORE_THRESHOLD *)
Definition MIN_SR_RAW_SCORE : Qc := Q2Qc (7 # 2).
Definition MAX_SR_RAW_SCORE : Qc := Q2Qc 15.
Definition SKELETON : Qc := 1%Qc.

(** spectral_residual_model.py:54-55. The division binds tighter than the
    subtraction, as written. *)
Definition normalise_score (s : Qc) : Qc :=
  np_clip 0 1 (s - MIN_SR_RAW_SCORE / (MAX_SR_RAW_SCORE - MIN_SR_RAW_SCORE))%Qc.

(** spectral_residual_model.py:30-45, entire mode: the expected values before
    smoothing, from the prefix counts and sums over skeleton points. Iterating
    a boolean pandas Series yields Python bools, so [v is not True] is [not v]. *)
Definition skeleton_expected (series : list Qc) (skel : list bool) : res (list Qc) :=
  let cnt := 0%Qc :: cumsum 0%Qc (map (fun b : bool => if b then 1%Qc else 0%Qc) skel) in
  let sm := 0%Qc :: cumsum 0%Qc (zip_with (fun v (b : bool) => if b then v else 0%Qc) series skel) in
  let one (i : nat) (v : Qc) (b : bool) : res Qc :=
    if b then Ok v else
    do c1 <- get cnt (S i); do c0 <- get cnt (i / 2);
    if (c1 - c0 =? 0)%Qc then Ok (qmean (firstn (S i) series)) else
    do s1 <- get sm (S i); do s0 <- get sm (i / 2);
    Ok ((s1 - s0) / (c1 - c0))%Qc in
  mapM2 (fun iv b => one (fst iv) (snd iv) b) (combine (range (length series)) series) skel.

(** spectral_residual_model.py:27-29, last mode: every expected value is the
    value itself, except the last. With no skeleton point np.mean gives NaN,
    which exact rationals cannot represent: [Err Generic] here. *)
Definition last_expected (series : list Qc) (skel : list bool) : res (list Qc) :=
  let pts := map fst (filter snd (combine series skel)) in
  let half := skipn (length pts / 2) pts in
  match half with
  | [] => Err Generic
  | _ => Ok (firstn (length series - 1) series ++ [qmean half])
  end.

(** dynamic_threshold.py:65-71, seasonal_series.py:129-135,
    spectral_residual_model.py:73-79: (positive, negative). *)
Definition modify_anomaly_status (is_anomaly : bool) (expected value : Qc) : bool * bool :=
  if negb is_anomaly then (false, false)
  else if (value <? expected)%Qc then (false, true) else (true, false).

(** The frames joined on the row label: the label set [idx] of the anomaly
    frame against the value / expected / trend / score columns. Rows without
    an anomaly get False from fillna. Duplicated labels cannot occur. *)
Definition mem_nat (i : nat) (l : list nat) : bool := existsb (Nat.eqb i) l.
Definition result_row (idx : list nat) (i : nat) (v e t s : Qc) : row :=
  let a := mem_nat i idx in
  let st := modify_anomaly_status a e v in
  mkRow v e t s a (snd st) (fst st).
(** Assigning a column of another length raises ValueError; a column that is
    absent from the frame ([None]) is never read, its entries are 0 here. *)
Definition column (n : nat) (c : option (list Qc)) : res (list Qc) :=
  match c with
  | None => Ok (repeat 0%Qc n)
  | Some l => if length l =? n then Ok l else Err ValueErr
  end.
Definition result_frame (series expected : list Qc) (trend score : option (list Qc)) (idx : list nat)
  : res (list row) :=
  let n := length series in
  do sc <- column n score;
  do ex <- column n (Some expected);
  do tr <- column n trend;
  Ok (mapi (fun i v => result_row idx i v (nth i ex 0%Qc) (nth i tr 0%Qc) (nth i sc 0%Qc)) series).

Section SR.
(** pyx:281-325, the FFT round trip; np.std; trend_detection(expected);
    DataFrame.sort_values(ascending=False), whose order among ties is not
    specified. *)
Variable transform : list Qc -> list Qc.
Variable std : list Qc -> Qc.
Variable trend_detection : list Qc -> option nat -> res (list Qc).
Variable sort_desc : list (nat * Qc) -> list (nat * Qc).

(** spectral_residual.py:63-69 *)
Definition generate_spectral_score (series : list Qc) (remove : bool) : res (list Qc) :=
  do ext <- extend_series series remove;
  let mag := firstn (length series) (transform ext) in
  do ave <- average_filter mag 100 true;
  let ave := map (fun x => if isclose x EPS then EPS else x) ave in
  Ok (zip_with (fun m a => (Qcabs (m - a) / a)%Qc) mag ave).

(** spectral_residual.py:23-61. [zscore[-1]] is NaN for a zero deviation and
    then not below the threshold. [series[-1]] of an empty list raises. *)
Definition sr_detect (series : list Qc) (max_outliers : nat) (last_mode : bool)
  : res (list Qc * model_id) :=
  if last_mode then
    let n := length series in
    do scores <- generate_spectral_score series false;
    let max_drop := Nat.min (Nat.max max_outliers (n / 10)) (45 * n / 100) in
    let sd := std series in
    do v_last <- get series (n - 1);
    let drop := Q2Qc (3 # 2) in
    do k <- first_drop scores drop (seq (n - max_drop) max_drop) (n - 1);
    let filtered := firstn k series ++ [v_last] in
    let scores := firstn k scores ++ repeat (SKELETON * Q2Qc 2)%Qc (n - 1 - k) ++ skipn (n - 1) scores in
    do fs <- generate_spectral_score filtered false;
    do f_last <- get fs (length fs - 1);
    if negb (sd =? 0)%Qc && (Qcabs (v_last - qmean series) / sd <? drop)%Qc
    then Ok (upd scores (n - 1) 0%Qc, SpectralResidual_ZScore)
    else Ok (upd scores (n - 1) f_last, SpectralResidual)
  else
    do scores <- generate_spectral_score series true;
    Ok (scores, SpectralResidual).

(** spectral_residual_model.py:14-70. int() truncates, the product is not
    negative. *)
Definition sr_quota (n : nat) (ratio : Qc) : nat :=
  Nat.max (Z.to_nat (Qfloor (this (qn n * ratio)%Qc))) 1.
Definition spectral_residual_detection (series : list Qc) (threshold ratio : Qc) (need_trend last_mode : bool)
  : res (list row * model_id) :=
  let n := length series in
  let max_outliers := sr_quota n ratio in
  do sm <- sr_detect series max_outliers last_mode;
  let scores := fst sm in
  let skel := map (fun s => (s <=? SKELETON)%Qc) scores in
  do expected <- (if last_mode then last_expected series skel
                  else do e <- skeleton_expected series skel; average_filter e 5 false);
  do trend <- (if need_trend then do t <- trend_detection expected None; Ok (Some t) else Ok None);
  let candidates := filter (fun p => (threshold <=? snd p)%Qc) (combine (range n) scores) in
  let idx := map fst (firstn (Nat.min max_outliers (length candidates)) (sort_desc candidates)) in
  do frame <- result_frame series expected trend (Some (map normalise_score scores)) idx;
  Ok (frame, snd sm).
End SR.
