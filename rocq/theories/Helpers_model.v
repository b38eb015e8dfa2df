(** Model of the numeric helpers of
    /repo/src/anomaly_detector/univariate/util/helpers.py and of the
    differencing code of model/detect_model.py. Floats are exact rationals. *)
From Coq Require Import List Arith ZArith Lia Bool.
From Verif Require Import Base Num Sorting Kernel_model FillUp_model.
Import ListNotations.
Open Scope nat_scope.

(** np.cumsum, starting from [acc]. *)
Fixpoint cumsum (acc : Qc) (l : list Qc) : list Qc :=
  match l with
  | [] => []
  | x :: t => (acc + x)%Qc :: cumsum (acc + x)%Qc t
  end.

Fixpoint zip_with {A B C} (f : A -> B -> C) (a : list A) (b : list B) : list C :=
  match a, b with
  | x :: s, y :: t => f x y :: zip_with f s t
  | _, _ => []
  end.

(** helpers.py:56-60, the loop "for i in range(1, n)". *)
Fixpoint average_loop (values out : list Qc) (fill_to_n : bool) (fill_n : nat) (is : list nat)
  : res (list Qc) :=
  match is with
  | [] => Ok out
  | i :: t =>
      do r <- get out i;
      do v <- get values i;
      let x := if fill_to_n
               then ((r + ((r - v) / qn i) * (qn fill_n - qn i - 1)) / qn fill_n)%Qc
               else (r / qn (i + 1))%Qc in
      average_loop values (upd out i x) fill_to_n fill_n t
  end.
(** helpers.py:37-62, for window n >= 1. [res[n:] - res[:-n]] pairs the
    elements from n on with the elements from the start. *)
Definition average_filter (values : list Qc) (n : nat) (fill_to_n : bool) : res (list Qc) :=
  let fill_n := n in
  let n := if length values <=? n then length values else n in
  let c := cumsum 0%Qc values in
  let out := firstn n c ++ zip_with (fun a b => ((a - b) / qn n)%Qc) (skipn n c) c in
  average_loop values out fill_to_n fill_n (seq 1 (n - 1)).

(** np.interp(x, xp, fp) at one point: constant outside the knots. *)
Definition np_interp (a : nat) (va : Qc) (rest : list (nat * Qc)) (x : nat) : Qc :=
  if x <? a then va else
  match interp_at a va rest x with
  | Some v => v
  | None => snd (last rest (a, va))
  end.
Fixpoint known (k : nat) (values : list (option Qc)) : list (nat * Qc) :=
  match values with
  | [] => []
  | None :: t => known (S k) t
  | Some v :: t => (k, v) :: known (S k) t
  end.
(** helpers.py:65-71; NaN is [None]. np.interp raises ValueError without knots,
    but not when there is nothing to interpolate either (both arrays empty also
    raises: "array of sample points is empty"). *)
Definition interp (values : list (option Qc)) : res (list Qc) :=
  match known 0 values with
  | [] => Err ValueErr
  | (a, va) :: rest =>
      Ok (mapi (fun p v => match v with Some x => x | None => np_interp a va rest p end) values)
  end.

(** helpers.py:249-256, for a non-empty array (min() of an empty one raises). *)
Definition normalize (values : list Qc) : res (list Qc * Qc * Qc) :=
  match values with
  | [] => Err ValueErr
  | _ =>
      let mn := qmin_list values in
      let mx := qmax_list values in
      Ok (if (mn =? mx)%Qc then values else map (fun v => (v - mn) / (mx - mn))%Qc values, mn, mx)
  end.

(** helpers.py:24-34; numpy division by zero gives inf/nan (with a warning),
    here [Err ZeroDiv]. Different lengths: np.multiply raises ValueError. *)
Definition leastsq (x y : list Qc) : res (Qc * Qc) :=
  if negb (length x =? length y) then Err ValueErr else
  let n := qn (length x) in
  let sum_x := qsum x in
  let sum_y := qsum y in
  let sum_xx := qsum (zip_with Qcmult x x) in
  let sum_xy := qsum (zip_with Qcmult x y) in
  let d := (n * sum_xx - sum_x * sum_x)%Qc in
  if (d =? 0)%Qc then Err ZeroDiv else
  Ok ((n * sum_xy - sum_x * sum_y) / d, (sum_xx * sum_y - sum_x * sum_xy) / d)%Qc.

(** [values[i] - values[i-1] for i in range(1, len(values))] *)
Definition diffs (values : list Qc) : list Qc :=
  match values with
  | [] => []
  | _ :: t => zip_with (fun a b => (a - b)%Qc) t values
  end.
(** helpers.py:268-271 *)
Definition get_delta (delta : nat) (values : list Qc) : res (list Qc) :=
  let d := diffs values in
  do x <- get d delta;
  Ok (repeat x (delta + 1) ++ skipn delta d).

(** helpers.py:274-278; [acc] is rd_values[-1]. *)
Fixpoint reverse_loop (acc : Qc) (ds : list Qc) : list Qc :=
  match ds with
  | [] => []
  | d :: t => (acc + d)%Qc :: reverse_loop (acc + d)%Qc t
  end.
(** With delta = 0 the list is empty and rd_values[-1] raises IndexError
    (unless there is nothing to append). *)
Definition reverse_delta (first : Qc) (delta : nat) (d_values : list Qc) : res (list Qc) :=
  match delta, skipn delta d_values with
  | O, _ :: _ => Err IndexErr
  | _, ds => Ok (repeat first delta ++ reverse_loop first ds)
  end.

Section Delta.
(** detect_model.py:38-44: "ADF p < 0.05 or KPSS p >= 0.05, or a test raised". *)
Variable stationary : list Qc -> bool.

(** detect_model.py:34-50, max_delta = 2: the loop over the remaining deltas. *)
Fixpoint include_loop (values new : list Qc) (deltas : list nat) : res (Z * list Qc) :=
  match deltas with
  | [] => Ok ((-1)%Z, values)
  | d :: t =>
      if stationary new then Ok (Z.of_nat d, new)
      else do new <- get_delta d new; include_loop values new t
  end.
Definition should_include_delta (values : list Qc) : res (Z * list Qc) :=
  include_loop values values (range 3).
End Delta.

(** detect_model.py:57-61: the loop over the positions; p = 0 is skipped.
    [ori] and [new] are numpy arrays of the series' length. *)
Fixpoint correct_loop (ori new out : list Qc) (pos : list nat) : res (list Qc) :=
  match pos with
  | [] => Ok out
  | O :: t => correct_loop ori new out t
  | S q :: t =>
      do o <- get ori q;
      do n <- get new (S q);
      correct_loop ori new (upd out (S q) (o + n)%Qc) t
  end.
(** detect_model.py:53-61 *)
Definition correct_expected_value_in_delta (pos : list nat) (ori new : list Qc) (delta : Z)
    (values : list Qc) : res (list Qc) :=
  do new <- (if (delta =? 2)%Z then
               do v1 <- get values 1; do v0 <- get values 0;
               reverse_delta (v1 - v0)%Qc 2 new
             else Ok new);
  correct_loop ori new ori pos.

(** np.isclose(a, b): |a - b| <= 1e-8 + 1e-5 * |b| *)
Definition isclose (a b : Qc) : bool :=
  (Qcabs (a - b) <=? Q2Qc (1 # 100000000) + Q2Qc (1 # 100000) * Qcabs b)%Qc.

Section Critical.
(** scipy's student_t.ppf(p, df) and C sqrt. *)
Variable ppf : Qc -> Z -> Qc.
Variable sqrt : Qc -> Qc.
(** critical_table_values.py: the tabulated values. *)
Variable critical_table : list Qc.

(** pyx:56-62 with one_tail=True, i counted from 1. *)
Definition calculate_esd_values (i : nat) (alpha : Qc) (n : nat) : Qc :=
  let z := (Z.of_nat n - Z.of_nat i)%Z in
  let p := (1 - alpha / qz (z + 1))%Qc in
  let t := ppf p (z - 1) in
  (t * qz z / sqrt ((qz (z - 1) + t * t) * qz (z + 1)))%Qc.

(** helpers.py:129-134; DEFAULT_ALPHA = 0.05. *)
Definition get_critical (alpha : Qc) (num_obs max_outliers : nat) : list Qc :=
  if isclose alpha (Q2Qc (5 # 100)) && (num_obs <=? length critical_table) then
    let b := length critical_table - num_obs in
    slice critical_table b (b + max_outliers)
  else map (fun x => calculate_esd_values x alpha num_obs) (seq 1 max_outliers).
End Critical.

(** helpers.py:118-126. [mad] is statsmodels' robust.mad (median absolute
    deviation over the normal quantile constant [cst]). *)
Definition get_verified_majority_value (cst : Qc) (sorted : list Qc) : res (option Qc) :=
  let n := length sorted in
  let m := qmedian sorted in
  let mad := (qmedian (map (fun x => Qcabs (x - m)) sorted) / cst)%Qc in
  if isclose mad 0%Qc then
    do mv <- get sorted ((n - 1) / 2);
    do first <- get sorted 0;
    do lastv <- get sorted (n - 1);
    if isclose mv first || isclose mv lastv then Ok None else Ok (Some mv)
  else Ok None.
