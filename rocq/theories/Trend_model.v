(** Model of the trend extraction,
    /repo/src/anomaly_detector/univariate/util/helpers.py:74-115.
    Floats are exact rationals; the filters of the 'seasonal' library are
    oracles. The median trend is computed in C floats: [r32] rounds as if their
    exponent were unbounded, and [top] is the size from which the result is
    infinite (2^128), so that np.isfinite (107-108) can fail. An infinite entry
    is carried along as the number it stands for; aglet keeps the entries
    between the ends, so what is infinite there stays so. *)
From Coq Require Import List Arith ZArith QArith Qcanon Qround Lia Bool.
From Verif Require Import Base Num Sorting Helpers_model Kernel_model.
Import ListNotations.
Open Scope nat_scope.

Inductive kind := KMedian | KMean | KLine | KSpline | KUnknown.

(** Python's round(): to the nearest integer, ties to the even one. *)
Definition py_round (x : Qc) : Z :=
  let f := Qfloor (this x) in
  let r := (x - qz f)%Qc in
  if (r <? Q2Qc (1 # 2))%Qc then f
  else if (Q2Qc (1 # 2) <? r)%Qc then (f + 1)%Z
  else if Z.even f then f else (f + 1)%Z.

Section Trend.
Variable r32 : Qc -> Qc.                                  (* rounding to C float in median_filter *)
Variable top : option Qc.                                 (* [None]: floats without an upper limit *)
Variable aglet mean_filter line_filter spline_filter : list Qc -> nat -> res (list Qc).
(** periodogram_peaks: periods and scores. *)
Variable peaks : list Qc -> res (option (list (nat * Qc))).

(** helpers.py:86-89; [ptimes] is 2 in every call. *)
Definition fit_window (n period : nat) : nat :=
  if period <=? 1 then Nat.min (n / 3) 512 else (period * 2) / 2 * 2 - 1.

(** helpers.py:90-101 *)
Definition fit_with_period (data : list Qc) (k : kind) (period : nat) : res (list Qc) :=
  let window := fit_window (length data) period in
  match k with
  | KMedian => do m <- median_filter r32 data window false; aglet m window
  | KMean => do m <- mean_filter data window; aglet m window
  | KLine => line_filter data window
  | KSpline =>
      if window =? 0 then Err ZeroDiv else
      do m <- spline_filter data (length data / (window * 2) + 1);
      aglet m window
  | KUnknown => Err Generic
  end.

(** np.all(np.isfinite(broad)), helpers.py:107 *)
Definition finite32 (l : list Qc) : bool :=
  match top with None => true | Some t => forallb (fun x => (Qcabs x <? t)%Qc) l end.

(** helpers.py:104-115. A negative average is <= 1 for the caller like 0. *)
Definition guess_trended_period (data : list Qc) : res nat :=
  let max_period := Nat.min (length data / 3) 512 in
  do broad <- fit_with_period data KMedian max_period;
  if negb (finite32 broad) then Err Generic else
  if negb (length broad =? length data) then Err ValueErr else
  do pk <- peaks (zip_with (fun a b => (a - b)%Qc) data broad);
  match pk with
  | None => Ok max_period
  | Some [] => Err ValueErr
  | Some ps =>
      let weight := qsum (map snd ps) in
      if (weight =? 0)%Qc then Err ZeroDiv else
      Ok (Z.to_nat (py_round (qsum (map (fun p => qn (fst p) * snd p)%Qc ps) / weight)%Qc))
  end.

(** helpers.py:81-101 *)
Definition fit_trend (data : list Qc) (k : option kind) (period : option nat) : res (list Qc) :=
  match k with
  | None => Ok (map (fun _ => qmean data) data)
  | Some k =>
      do p <- (match period with Some p => Ok p | None => guess_trended_period data end);
      fit_with_period data k p
  end.

(** helpers.py:74-78; [trend_type] is 'spline' in every call. *)
Definition trend_detection (series : list Qc) (period : option nat) : res (list Qc) :=
  if length series <? 6 then Ok (map (fun _ => qmean series) series)
  else fit_trend series (Some KSpline) period.
End Trend.
