(** The histogram detector (univariate/model/hbos_detection.py). It is not
    reachable from a request (C39) but can be called on its own. *)
From Coq Require Import List Arith ZArith QArith Qcanon Bool.
From Verif Require Import Base Num Helpers_model.
Import ListNotations.
Open Scope nat_scope.

(** A row of the result: the columns 'isPositiveAnomaly' and 'isNegativeAnomaly'
    exist only when something was reported ([h_dir = None] otherwise), 'trend'
    only on demand, the score only without season. *)
Record hrow := mkHrow { h_value : Qc; h_expected : Qc; h_trend : option Qc; h_score : option Qc; h_anomaly : bool; h_dir : option (bool * bool) }.
Inductive hmodel := HbosSeasonal | HbosNonseasonal.      (* fields.py:62-63 *)

(** lines 129-135: (positive, negative) *)
Definition modify_anomaly_status (anomaly : bool) (expected value : Qc) : bool * bool :=
  if negb anomaly then (false, false) else if (value <? expected)%Qc then (false, true) else (true, false).

(** numpy: [a[mask] = nan] *)
Definition mask_nan (mask : list bool) (l : list Qc) : list (option Qc) :=
  zip_with (fun (b : bool) x => if b then None else Some x) mask l.
Definition count (mask : list bool) : nat := length (filter (fun b : bool => b) mask).

(** lines 55-71 and 91-113: the frame and its direction columns. The columns
    have the length of the series (checked before); fillna changes nothing, no
    entry is NaN. *)
Fixpoint rows_of (any : bool) (series expected : list Qc) (trend score : option (list Qc)) (mask : list bool) : list hrow :=
  match series, expected, mask with
  | v :: series, e :: expected, a :: mask =>
      mkHrow v e (match trend with Some (t :: _) => Some t | _ => None end) (match score with Some (s :: _) => Some s | _ => None end) a
             (if any then Some (modify_anomaly_status a e v) else None)
      :: rows_of any series expected (option_map (@tl Qc) trend) (option_map (@tl Qc) score) mask
  | _, _, _ => []
  end.

Section Hbos.
(** pyod: fit with this contamination, then the second column of
    predict_proba on the same values; may raise. *)
Variable hbos : Qc -> list Qc -> res (list Qc).
(** lines 30-46: trend and season (with adjusted trend or not); the same lines
    as seasonal_series.py:43-58 (Stl_model.decompose). *)
Variable decompose : bool -> list Qc -> nat -> res (list Qc * list Qc).
(** helpers.trend_detection without a period (Trend_model). *)
Variable trend_detection : list Qc -> res (list Qc).
(** lines 97-100; their condition never holds. *)
Variable de_anomaly_trend : list Qc -> list bool -> res (list Qc).

(** lines 22-24 and 80-82: 1 / float(n), and the fraction raised to it *)
Definition clamped (n : nat) (fraction : Qc) : Qc :=
  let clamp := (1 / qn n)%Qc in if (fraction <? clamp)%Qc then clamp else fraction.

(** lines 13-73; [series - trend - season] of different lengths raises
    ValueError, as does a frame with columns of different lengths. *)
Definition hbos_detection_seasonal (series : list Qc) (period : nat) (fraction threshold : Qc) (adjust_trend need_trend : bool)
  : res (list hrow * hmodel) :=
  if (Q2Qc (49 # 100) <? fraction)%Qc then Err ValueErr else
  let n := length series in
  if n =? 0 then Err ZeroDiv else
  let fraction := clamped n fraction in
  if n <? period * 2 + 1 then Err ValueErr else
  do ts <- decompose adjust_trend series period;
  let trend := fst ts in
  let season := snd ts in
  if negb ((length trend =? n) && (length season =? n)) then Err ValueErr else
  do nz <- normalize (zip_with (fun a b => (a - b)%Qc) (zip_with (fun a b => (a - b)%Qc) series trend) season);
  do scores <- hbos fraction (fst (fst nz));
  let mask := map (fun s => (threshold <? s)%Qc) scores in
  if negb (length mask =? n) then Err ValueErr else
  let any := existsb (fun b : bool => b) mask in
  do trend <- (if any && (count mask <? n) then interp (mask_nan mask trend) else Ok trend);
  Ok (rows_of any series (zip_with Qcplus trend season) (if need_trend then Some trend else None) None mask, HbosSeasonal).

(** lines 76-115 *)
Definition hbos_detection_nonseasonal (series : list Qc) (threshold fraction : Qc) (need_trend : bool) : res (list hrow * hmodel) :=
  let n := length series in
  if n =? 0 then Err ZeroDiv else
  let fraction := clamped n fraction in
  do scores <- hbos fraction series;
  let mask := map (fun s => (threshold <? s)%Qc) scores in
  if negb (length mask =? n) then Err ValueErr else
  let any := existsb (fun b : bool => b) mask in
  do trend <- (if any && (count mask <? count mask) then de_anomaly_trend series mask else trend_detection series);
  if negb (length trend =? n) then Err ValueErr else
  Ok (rows_of any series trend (if need_trend then Some trend else None) (Some scores) mask, HbosNonseasonal).

(** lines 118-126 *)
Definition hbos_detection (series : list Qc) (period : nat) (threshold fraction : Qc) (need_trend last_mode : bool) : res (list hrow * hmodel) :=
  if 0 <? period then hbos_detection_seasonal series period fraction threshold last_mode need_trend
  else hbos_detection_nonseasonal series threshold fraction need_trend.
End Hbos.
