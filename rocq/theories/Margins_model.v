(** Model of the margin and score computation:
    /repo/src/anomaly_detector/univariate/util/boundary_utils.py and refine.py.
    Floats are exact rationals; a result frame is a list of rows whose flag
    columns are booleans. *)
From Coq Require Import List Arith ZArith Lia Bool.
From Coq Require Import Qround.
From Verif Require Import Base Num Kernel_model.
Import ListNotations.
Open Scope nat_scope.

(** One row of the result frame (fields.py: Value, ExpectedValue, Trend,
    AnomalyScore, IsAnomaly, IsNegativeAnomaly, IsPositiveAnomaly). *)
Record row := mkRow {
  r_value : Qc; r_expected : Qc; r_trend : Qc; r_score : Qc;
  r_anomaly : bool; r_neg : bool; r_pos : bool }.

(** fields.py EPS; boundary_utils.py:9-10. *)
Definition EPS : Qc := Q2Qc (1 # 100000000).
Definition ANOMALY_IGNORE_RATIO : Qc := Q2Qc (1 # 10000).
Definition MIN_UNIT : Qc := Q2Qc (3 # 10).

(** boundary_utils.py:44-59, the decimal literals as written. *)
Definition factors_q : list Q :=
  [ 532 # 1; 4928 # 10; 45520000000000005 # 100000000000000; 41920000000000005 # 100000000000000; 
    3848 # 10; 352 # 1; 3208 # 10; 2912 # 10; 26320000000000005 # 100000000000000; 2368 # 10; 
    212 # 1; 1888 # 10; 16720000000000002 # 100000000000000; 1472 # 10; 1288 # 10; 112 # 1; 
    968 # 10; 832 # 10; 712 # 10; 608 # 10; 52 # 1; 448 # 10; 392 # 10; 352 # 10; 328 # 10; 30 # 1; 
    2875 # 100; 275 # 10; 2625 # 100; 25 # 1; 2375 # 100; 225 # 10; 2125 # 100; 20 # 1; 1875 # 100; 
    175 # 10; 1625 # 100; 15 # 1; 1375 # 100; 125 # 10; 1125 # 100; 10 # 1; 875 # 100; 75 # 10; 
    625 # 100; 5 # 1; 4599999999999998 # 1000000000000000; 4199999999999999 # 1000000000000000; 
    3799999999999997 # 1000000000000000; 33999999999999986 # 10000000000000000; 3 # 1; 
    2599999999999998 # 1000000000000000; 21999999999999993 # 10000000000000000; 
    17999999999999972 # 10000000000000000; 13999999999999986 # 10000000000000000; 1 # 1; 96 # 100; 
    9199999999999999 # 10000000000000000; 8799999999999999 # 10000000000000000; 
    8399999999999999 # 10000000000000000; 7999999999999998 # 10000000000000000; 
    7599999999999998 # 10000000000000000; 7199999999999998 # 10000000000000000; 
    6799999999999997 # 10000000000000000; 6399999999999997 # 10000000000000000; 
    6000000000000001 # 10000000000000000; 5700000000000003 # 10000000000000000; 54 # 100; 
    5100000000000002 # 10000000000000000; 4800000000000004 # 10000000000000000; 
    4500000000000002 # 10000000000000000; 4200000000000004 # 10000000000000000; 
    3900000000000001 # 10000000000000000; 3600000000000003 # 10000000000000000; 
    33000000000000007 # 100000000000000000; 2999999999999998 # 10000000000000000; 
    2849999999999999 # 10000000000000000; 2699999999999998 # 10000000000000000; 
    2549999999999999 # 10000000000000000; 23999999999999977 # 100000000000000000; 
    22499999999999987 # 100000000000000000; 20999999999999974 # 100000000000000000; 
    19499999999999984 # 100000000000000000; 17999999999999994 # 100000000000000000; 
    1649999999999998 # 10000000000000000; 1499999999999999 # 10000000000000000; 
    13818181818181818 # 100000000000000000; 12636363636363646 # 100000000000000000; 
    1145454545454545 # 10000000000000000; 10272727272727278 # 100000000000000000; 
    9090909090909083 # 100000000000000000; 790909090909091 # 10000000000000000; 
    6727272727272737 # 100000000000000000; 43636363636363695 # 1000000000000000000; 
    1200000000000001 # 100000000000000000; 8 # 1000; 60750000000000005 # 10000000000000000000; 
    415 # 100000; 22249999999999995 # 10000000000000000000; 
    2999999999999999 # 10000000000000000000; 0 # 1 ]%Q.
Definition factors : list Qc := map Q2Qc factors_q.

(** boundary_utils.py:62-70. np.clip(x, lo, hi) is minimum(maximum(x, lo), hi);
    np.max of an empty array raises, but then the first test succeeds. *)
Definition np_clip (lo hi x : Qc) : Qc := Qcmin (Qcmax x lo) hi.
Definition calculate_boundary_units (rows : list row) : list Qc :=
  let normal := map r_trend (filter (fun r => negb (r_anomaly r)) rows) in
  if forallb (fun u => (Qcabs u <? EPS)%Qc) normal then map (fun _ => MIN_UNIT) rows else
  let unit := qmean (map Qcabs normal) in
  let units := map (fun r => (Qcabs (r_trend r) * Q2Qc (1 # 2) + unit * Q2Qc (1 # 2))%Qc) rows in
  map (np_clip MIN_UNIT (Qcmax MIN_UNIT (qmax_list units))) units.

(** boundary_utils.py:74-90; [sens] is the integer passed by
    calculate_margin_core. factors[101] raises IndexError. *)
Definition calculate_changed_margin (unit : Qc) (sens : Z) (value expected : Qc) (is_anomaly : bool)
  : res (Qc * Qc) :=
  do f <- get factors (Z.to_nat sens);
  let delta := (unit * f)%Qc in
  if negb is_anomaly then
    let delta := (Qcabs (expected - value) + delta * Q2Qc (1 # 2))%Qc in
    if (expected <? value)%Qc then Ok (delta, delta / Q2Qc 3)%Qc else Ok (delta / Q2Qc 3, delta)%Qc
  else
    let d := Qcabs (value - expected) in
    let delta := if (delta * ANOMALY_IGNORE_RATIO <? d)%Qc && (d <? delta)%Qc && (sens =? 99)%Z
                 then (Qcabs (expected - value) * Q2Qc (1 # 2))%Qc else delta in
    Ok (delta, delta).

(** boundary_utils.py:73-107. For a fractional sensitivity the last line
    subtracts tuples: TypeError (after both margins were computed). *)
Definition calculate_margin (unit sens value expected : Qc) (is_anomaly : bool) : res (Qc * Qc) :=
  if (sens <? 0)%Qc || (Q2Qc 100 <? sens)%Qc then Err Generic else
  if (unit <=? 0)%Qc then Err Generic else
  let lb := Qfloor (this sens) in
  do m1 <- calculate_changed_margin unit lb value expected is_anomaly;
  if (qz lb =? sens)%Qc then Ok m1 else
  do m2 <- calculate_changed_margin unit (lb + 1) value expected is_anomaly;
  Err TypeErr.

(** bisect.bisect_left on [a], entries lo..hi-1; [fuel] bounds the halvings. *)
Fixpoint bisect_left_loop (fuel : nat) (a : list Qc) (x : Qc) (lo hi : nat) : res nat :=
  match fuel with
  | O => Err OutOfFuel
  | S fuel =>
      if lo <? hi then
        let mid := (lo + hi) / 2 in
        do m <- get a mid;
        if (m <? x)%Qc then bisect_left_loop fuel a x (mid + 1) hi
        else bisect_left_loop fuel a x lo mid
      else Ok lo
  end.
Definition bisect_left (a : list Qc) (x : Qc) : res nat :=
  bisect_left_loop (S (length a)) a x 0 (length a).

(** boundary_utils.py:110-122 (numpy division by a zero unit not modelled; the
    callers' units are at least 0.3). *)
Definition calculate_anomaly_score (value expected unit : Qc) : res Qc :=
  let dist := (Qcabs (expected - value) / unit)%Qc in
  let margins := rev factors in
  do lb <- bisect_left margins dist;
  if lb =? 0 then Ok 0%Qc
  else if 100 <=? lb then Ok (Q2Qc 100)
  else do a <- get margins (lb - 1); do b <- get margins lb;
       Ok (qn (lb - 1) + (dist - a) / (b - a))%Qc.

(** boundary_utils.py:125-133 *)
Definition calculate_severity_v1 (value expected : Qc) (is_anomaly : bool) : Qc :=
  if negb is_anomaly then 0%Qc else
  let base := Qcabs expected in
  let base := if (base <=? EPS)%Qc then MIN_UNIT else base in
  Qcmin (Qcabs (value - expected) / base) 1.

(** boundary_utils.py:136-140 *)
Definition calculate_severity_v2 (score : Qc) (is_anomaly : bool) : Qc :=
  if negb is_anomaly then 0%Qc else (score / Q2Qc 100)%Qc.

(** What is returned for one point. [o_unit], [o_score] only in V2. *)
Record outcome := mkOut {
  o_expected : Qc; o_upper : Qc; o_lower : Qc;
  o_neg : bool; o_pos : bool; o_anomaly : bool; o_severity : Qc;
  o_unit : option Qc; o_score : option Qc }.

(** refine.py:10-48, one row: [ub], [lb] are the clipped boundaries; the fancy
    assignments only touch the row itself. np.copy'd margin arrays. *)
Definition refine_row (sens ub lb : Qc) (r : row) : outcome :=
  let v := r_value r in
  let e := r_expected r in
  let up := (ub - e)%Qc in
  let lo := (e - lb)%Qc in
  let anomaly_refine := r_anomaly r && ((v <=? ub)%Qc && (lb <=? v)%Qc) in
  let upper_refine := (ub <? v)%Qc && negb (r_anomaly r) in
  let up := if upper_refine then ((v - e) * Q2Qc (101 # 100))%Qc else up in
  let lo := if upper_refine then up else lo in
  let lower_refine := (v <? lb)%Qc && negb (r_anomaly r) in
  let lo := if lower_refine then ((e - v) * Q2Qc (101 # 100))%Qc else lo in
  let up := if lower_refine then lo else up in
  let up := if (sens =? Q2Qc 100)%Qc && anomaly_refine then 0%Qc else up in
  let lo := if (sens =? Q2Qc 100)%Qc && anomaly_refine then 0%Qc else lo in
  let off := negb (sens =? Q2Qc 100)%Qc && anomaly_refine in
  let an := if off then false else r_anomaly r in
  mkOut e up lo (if off then false else r_neg r) (if off then false else r_pos r) an
        (calculate_severity_v1 v e an) None None.

Fixpoint zip3 {A B C D} (f : A -> B -> C -> D) (a : list A) (b : list B) (c : list C) : list D :=
  match a, b, c with
  | x :: s, y :: t, z :: u => f x y z :: zip3 f s t u
  | _, _, _ => []
  end.

(** refine.py:10-48; np.min of an empty array raises ValueError. [margin] gives
    each row's margin before tightening (upper and lower start equal). *)
Definition refine_margins (rows : list row) (sens : Qc) (margins : list Qc) : res (list outcome) :=
  match rows with
  | [] => Err ValueErr
  | _ =>
    let ubs := map (fun p => r_expected (fst p) + snd p)%Qc (combine rows margins) in
    let lbs := map (fun p => r_expected (fst p) - snd p)%Qc (combine rows margins) in
    let actual := map r_value rows in
    let expected := map r_expected rows in
    let ubs' := map (np_clip (qmin_list ubs) (Qcmax (qmax_list actual) (qmax_list expected))) ubs in
    let lbs' := map (np_clip (Qcmin (qmin_list actual) (qmin_list expected)) (qmax_list lbs)) lbs in
    Ok (zip3 (refine_row sens) ubs' lbs' rows)
  end.

(** refine.py:51-82 *)
Definition get_spectral_residual_margins (rows : list row) (sens : Qc) : res (list outcome) :=
  let normal := filter (fun r => (r_score r <=? EPS)%Qc) rows in
  let normal_margin :=
    match normal with
    | [] => 0%Qc
    | _ => ((qmax_list (map r_value normal) - qmin_list (map r_value normal)) * Q2Qc (1 # 100))%Qc
    end in
  let bar := (1 - sens / Q2Qc 100)%Qc in
  refine_margins rows sens
    (map (fun r => if (r_score r <=? EPS)%Qc then normal_margin
                   else (Qcabs (r_value r - r_expected r) / r_score r * bar)%Qc) rows).

(** refine.py:85-91 *)
Definition get_anomaly_detector_margins (rows : list row) (sens : Qc) : res (list outcome) :=
  refine_margins rows sens
    (map (fun r => (Qcabs (r_expected r) * (Q2Qc 100 - sens) / Q2Qc 100)%Qc) rows).

(** refine.py:94-108; [sr] says model_id == ModelType.SpectralResidual *)
Definition get_margins_v1 (sr : bool) (rows : list row) (sens : Qc) : res (list outcome) :=
  if sr then get_spectral_residual_margins rows sens else get_anomaly_detector_margins rows sens.

(** refine.py:116-124, one point of V2 in last mode. *)
Definition v2_last_point (sens unit : Qc) (r : row) : res outcome :=
  let v := r_value r in
  let e := r_expected r in
  let a := r_anomaly r in
  do score <- calculate_anomaly_score v e unit;
  let severity := calculate_severity_v2 score a in
  do m <- calculate_margin unit sens v e a;
  let pos := (e + fst m <? v)%Qc && a in
  let neg := (v <? e - snd m)%Qc && a in
  Ok (mkOut e (fst m) (snd m) neg pos (pos || neg) severity (Some unit) (Some score)).

(** refine.py:129-140, one point of V2 in entire mode (all scores are computed
    before all margins; neither can fail for the units used). *)
Definition v2_entire_point (sens unit : Qc) (r : row) : res outcome :=
  let v := r_value r in
  let e := r_expected r in
  let a := r_anomaly r in
  do score <- calculate_anomaly_score v e unit;
  do m <- calculate_margin unit sens v e a;
  let pos := a && (e + fst m <? v)%Qc in
  let neg := a && (v <? e - snd m)%Qc in
  let an := neg || pos in
  Ok (mkOut e (fst m) (snd m) neg pos an (calculate_severity_v2 score an) (Some unit) (Some score)).

Fixpoint mapM2 {A B C} (f : A -> B -> res C) (a : list A) (b : list B) : res (list C) :=
  match a, b with
  | x :: s, y :: t => do z <- f x y; do r <- mapM2 f s t; Ok (z :: r)
  | _, _ => Ok []
  end.

(** refine.py:110-143, entire; zip of nothing cannot be unpacked: ValueError. *)
Definition get_margins_v2_entire (rows : list row) (sens : Qc) : res (list outcome) :=
  match rows with
  | [] => Err ValueErr
  | _ => mapM2 (v2_entire_point sens) (calculate_boundary_units rows) rows
  end.

Definition last_opt {A} (l : list A) : res A :=
  match rev l with [] => Err IndexErr | x :: _ => Ok x end.

(** refine.py:110-126, last *)
Definition get_margins_v2_last (rows : list row) (sens : Qc) : res outcome :=
  do r <- last_opt rows;
  do u <- last_opt (calculate_boundary_units rows);
  v2_last_point sens u r.

(** refine.py:145-154; [v1] says boundary_version == BoundaryVersion.V1 *)
Definition get_margins_entire (v1 sr : bool) (rows : list row) (sens : Qc) : res (list outcome) :=
  if v1 then get_margins_v1 sr rows sens else get_margins_v2_entire rows sens.
Definition get_margins_last (v1 sr : bool) (rows : list row) (sens : Qc) : res outcome :=
  if v1 then do o <- get_margins_v1 sr rows sens; last_opt o
  else get_margins_v2_last rows sens.
