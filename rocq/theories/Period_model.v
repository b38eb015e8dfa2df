(** Model of automatic period detection:
    /repo/src/anomaly_detector/univariate/period/simple.py, spectrum.py,
    period_detect.py, and normalize / smooth_spikes of util/helpers.py.

    Values are exact rationals. External calls are Section variables: numpy's
    standard deviation [std], the trend fit [fit_trend] (helpers.py:81-101,
    built on the library 'seasonal'), statsmodels' autocorrelation [acf] (values
    with upper confidence bounds; NaN is [None]), the peaks of the periodogram
    [peaks] ('seasonal'), the rounding to C float [r32] and rand() [rnd].
    Periods and intervals of the calendar tables are integers. *)
From Coq Require Import String List Arith ZArith QArith Qcanon Lia Bool.
From Verif Require Import Base Num Kernel_model Helpers_model Detect_model.
Import ListNotations.
Open Scope nat_scope.

(** util/fields.py:149 *)
Definition MIN_PERIOD : nat := 4.

(** ndarray.var() of a non-empty array *)
Definition qvar (l : list Qc) : Qc :=
  qmean (map (fun x => (x - qmean l) * (x - qmean l))%Qc l).

(** simple.py:70-75 *)
Definition get_period_config (period : nat) : Qc :=
  if period <=? 24 then Q2Qc (35 # 100)
  else if period <=? 168 then Q2Qc (15 # 100)
  else Q2Qc (1 # 10).

(** simple.py:78-83 *)
Definition get_period_detrend_config (period : nat) : Qc :=
  if period <=? 24 then Q2Qc (35 # 100)
  else if period <=? 168 then Q2Qc (65 # 100)
  else Q2Qc (7 # 10).

(** [interval if interval else 1] *)
Definition interval_of (interval : option Z) : Z :=
  match interval with None => 1%Z | Some i => if (i =? 0)%Z then 1%Z else i end.

(** simple.py:86-99; every granularity has an entry. *)
Definition guess_period (g : granularity) (interval : option Z) : list Z :=
  let i := interval_of interval in
  (match g with
   | Yearly | GNone => []
   | Daily => [7]
   | Hourly => [168 / i; 24 / i]
   | Minutely => [1440 * 7 / i; 1440 / i; 1440 * 2 / i]
   | Weekly => [4 * 3; 4]
   | Monthly => [12]
   | Secondly => [86400 * 7 / i; 86400 / i; 86400 * 2 / i]
   | Microsecond => [1000]
   end)%Z.

(** simple.py:102-114; the dictionary has no entry for microseconds. *)
Definition standard_period (g : granularity) (interval : option Z) : res Z :=
  let i := interval_of interval in
  (match g with
   | Daily => Ok 7
   | Hourly => Ok (168 / i)
   | Minutely => Ok (1440 * 7 / i)
   | Weekly => Ok 12
   | Monthly => Ok 12
   | Secondly => Ok (86400 * 7 / i)
   | Yearly => Ok 0
   | GNone => Ok 0
   | Microsecond => Err KeyErr
   end)%Z.

Section Period.
Variable std : list Qc -> Qc.
Variable r32 : Qc -> Qc.
Variable rnd : nat -> nat -> nat -> nat.

(** helpers.py:259-265. std + 1e-8 == 0 is impossible for std >= 0. pandas
    leaves NaN when every value is blanked, here [Err ValueErr]. *)
Definition smooth_spikes (data : list Qc) : res (list Qc) :=
  let s := (std data + Q2Qc (1 # 100000000))%Qc in
  let mean := qmean data in
  interp (map (fun x => if negb (s =? 0)%Qc && (Q2Qc 3 <=? Qcabs (x - mean) / s)%Qc
                        then None else Some x) data).

(** simple.py:59-67 *)
Definition check_period (values : list Qc) (period : nat) (detrend : bool) : res bool :=
  let config_mse := if negb detrend then get_period_config period else get_period_detrend_config period in
  let var := qvar values in
  do r <- gcv values period;
  let mse := if close_to_zero (fst r) then 1%Qc else (1 - fst r / var)%Qc in
  Ok (config_mse <? mse)%Qc.

(** simple.py:43-56 *)
Definition is_valid_period (values : list Qc) (period : nat) : res bool :=
  do nv <- normalize values;
  let normed := fst (fst nv) in
  do removed_spike <- smooth_spikes normed;
  if close_to_zero (qvar removed_spike) then Ok false else
  do b <- check_period removed_spike period false;
  if (b : bool) then Ok true else
  do median_trend <- median_filter r32 normed period true;
  do detrended <- smooth_spikes (zip_with (fun a b => (a - b)%Qc) normed median_trend);
  do detrended <- remove_anomaly_in_bucket rnd detrended period;
  if close_to_zero (qvar detrended) then Ok false else
  check_period detrended period true.

(** simple.py:28-34 *)
Fixpoint verify_loop (values : list Qc) (periods : list Z) : res (option Z) :=
  match periods with
  | [] => Ok None
  | p :: t =>
      if ((Z.of_nat (length values) <=? p * 2) || (p <? Z.of_nat MIN_PERIOD))%Z then verify_loop values t else
      do b <- is_valid_period values (Z.to_nat p);
      if (b : bool) then Ok (Some p) else verify_loop values t
  end.

(** simple.py:23-40; [None] is Python's None. *)
Definition verify_period (values : list Qc) (g : granularity) (interval : option Z) : res (option nat) :=
  let periods := guess_period g interval in
  if length periods =? 0 then Ok None else
  do verified <- verify_loop values periods;
  match verified with
  | None => Ok None
  | Some v =>
      do s <- standard_period g interval;
      if ((Z.of_nat (length values) <=? s * 2) || negb (s mod v =? 0))%Z
      then Ok (Some (Z.to_nat v)) else Ok (Some (Z.to_nat s))
  end.

(** numpy argmax over values that may be NaN: the first NaN if there is one,
    otherwise the first maximum. [i] is the position of the head. *)
Fixpoint argmax_from (i besti : nat) (best : option Qc) (l : list (option Qc)) : nat :=
  match best with
  | None => besti
  | Some b =>
      match l with
      | [] => besti
      | None :: _ => i
      | Some x :: t => if (b <? x)%Qc then argmax_from (S i) i (Some x) t
                       else argmax_from (S i) besti best t
      end
  end.
Definition argmax (l : list (option Qc)) : res nat :=
  match l with [] => Err ValueErr | x :: t => Ok (argmax_from 1 0 x t) end.

(** Float comparison: false when an operand is NaN. *)
Definition nan_lt (a b : option Qc) : bool :=
  match a, b with Some x, Some y => (x <? y)%Qc | _, _ => false end.
Definition nan_sub (a b : option Qc) : option Qc :=
  match a, b with Some x, Some y => Some (x - y)%Qc | _, _ => None end.

(** spectrum.py:131-140. [ac] and [upper] are acf[1:] and conf[1:, 1]. *)
Fixpoint correlogram_loop (fuel : nat) (ac upper : list (option Qc)) (min_period max_period : nat) (thresh : Qc)
    (periods : list nat) : res (list nat) :=
  match fuel with
  | O => Err OutOfFuel
  | S k =>
      do i <- argmax ac;
      do a <- get ac i;
      do c <- get upper i;
      let ub := nan_sub c a in
      if nan_lt a ub || nan_lt a (Some thresh) then Ok periods else
      correlogram_loop k (upd ac i (Some 0%Qc)) upper min_period max_period thresh
        (if (min_period <? i + 1) && (i + 1 <? max_period) then periods ++ [i + 1] else periods)
  end.

Variable acf : list Qc -> nat -> res (list (option Qc) * list (option Qc)).

(** spectrum.py:122-140 with the default arguments; int(min(len/3.0, 5760)). *)
Definition correlogram_detector (data : list Qc) : res (list nat) :=
  let max_period := Nat.min (length data / 3) (2880 * 2) in
  do r <- acf data max_period;
  let ac := skipn 1 (fst r) in
  let upper := skipn 1 (snd r) in
  correlogram_loop (S (length ac)) ac upper MIN_PERIOD max_period (Q2Qc (1 # 10)) [].

(** A peak: (period, power, shortest period, longest period). *)
Definition peak := (nat * Qc * nat * nat)%type.
Variable peaks : list Qc -> Qc -> option (list peak).

(** Python's order on such tuples *)
Definition peak_leb (a b : peak) : bool :=
  let '(p, x, lo, hi) := a in
  let '(q, y, lo', hi') := b in
  if negb (p =? q) then p <? q else
  if negb (x =? y)%Qc then (x <? y)%Qc else
  if negb (lo =? lo') then lo <? lo' else hi <=? hi'.
Fixpoint peak_insert (a : peak) (l : list peak) : list peak :=
  match l with
  | [] => [a]
  | b :: t => if peak_leb a b then a :: l else b :: peak_insert a t
  end.
Definition sort_peaks (l : list peak) : list peak := fold_right peak_insert [] l.

(** spectrum.py:114-119 *)
Fixpoint peak_ranges (period : nat) (ps : list peak) : list nat :=
  match ps with
  | [] => []
  | (_, _, lo, hi) :: t =>
      let s := Nat.max period lo in
      seq s (hi + 1 - s) ++ peak_ranges (hi + 1) t
  end.

(** spectrum.py:106-119; a zero threshold is falsy. *)
Definition periodogram_detector (data : list Qc) (thresh : Qc) : list nat :=
  if negb (thresh =? 0)%Qc then
    match peaks data thresh with
    | None => []
    | Some ps => peak_ranges 0 (sort_peaks ps)
    end
  else peak_ranges 0 [(0, 0%Qc, 4, length data / 2)].

Variable fit_trend : string -> list Qc -> res (list Qc).

(** spectrum.py:69-103 with period=None, the only way it is called; the branch
    [if period:] is dead. [correlogram] says detector_type != "periodogram".
    Subtracting a trend of another length raises ValueError. The fitted trend
    is not used by the callers and left out of the result. *)
Definition fit_seasons (data : list Qc) (trend_type : option string) (thresh min_ev : Qc) (correlogram : bool)
  : res (option (list Qc)) :=
  do data <- smooth_spikes data;
  do trend <- (match trend_type with
               | None => Ok (repeat 0%Qc (length data))
               | Some kind => fit_trend kind data
               end);
  if negb (length trend =? length data) then Err ValueErr else
  let data := zip_with (fun a b => (a - b)%Qc) data trend in
  let var := qvar data in
  if close_to_zero var then Ok None else
  do periods <- (if negb correlogram then Ok (periodogram_detector data thresh) else correlogram_detector data);
  if length periods =? 0 then Ok None else
  do r <- max_gcv data periods;
  match r with
  | None => Ok None
  | Some (cv_mse, cv_seasons) =>
      if close_to_zero cv_mse || (min_ev <=? 1 - cv_mse / var)%Qc then Ok (Some cv_seasons) else Ok None
  end.

(** spectrum.py:42-59, the period only *)
Definition calculate_period (series : list Qc) (trend_type : option string) (thresh min_ev : Qc) (correlogram : bool)
  : res nat :=
  if length series <? 12 then Ok 0 else
  do seasons <- fit_seasons series trend_type thresh min_ev correlogram;
  match seasons with
  | None => Ok 0
  | Some s =>
      if length s =? 0 then Ok 0 else
      let period := length s in
      let cycles := (qn (length series) / qn period + 1)%Qc in
      if (cycles <=? Q2Qc 3)%Qc then Ok 0 else Ok period
  end.

(** spectrum.py:31-39, the while loop; series_array[0::p] is [phase _ 0 p]. *)
Fixpoint detect_loop (fuel : nat) (series : list Qc) (verified period : nat) (trend_type : option string)
    (thresh min_ev : Qc) (correlogram : bool) : res nat :=
  if verified =? 0 then Ok period else
  match fuel with
  | O => Err OutOfFuel
  | S k =>
      let series := phase series 0 verified in
      do v <- calculate_period series trend_type thresh min_ev correlogram;
      detect_loop k series v (if negb (v =? 0) then period * v else period) trend_type thresh min_ev correlogram
  end.

(** spectrum.py:15-39 *)
Definition spectrum_detect (series : list Qc) (trend_type : option string) (thresh min_ev : Qc) (correlogram : bool)
  : res nat :=
  if length series <? 12 then Err ValueErr else
  do nv <- normalize series;
  let s := fst (fst nv) in
  do period <- calculate_period s trend_type thresh min_ev correlogram;
  if period =? 0 then Ok period else
  detect_loop (length s) s period period trend_type thresh min_ev correlogram.

(** period_detect.py:10-18; the second component is the period source
    (return_period_source). *)
Definition period_detection (series : list Qc) (trend_type : option string) (thresh min_ev : Qc) (correlogram : bool)
    (g : granularity) (interval : option Z) (skip_simple : bool) : res (nat * nat) :=
  do simple <- (if negb skip_simple then verify_period series g interval else Ok None);
  match simple with
  | Some (S p) => Ok (S p, 0)
  | _ => do p <- spectrum_detect series trend_type thresh min_ev correlogram; Ok (p, 1)
  end.

(** The defaults of util/fields.py:25-27,145-148, as detect_model.py:238-242
    calls it. *)
Definition default_detection (g : granularity) (interval : option Z) (skip_simple : bool) (series : list Qc)
  : res (nat * nat) :=
  period_detection series (Some "spline"%string) (Q2Qc (9 # 10)) (Q2Qc (20 # 100)) true g interval skip_simple.

(** The same for the array handed over by series_compete_processor.py:21-32.
    A series with missing entries (NaN) is not modelled: [Err Generic]. *)
Definition detected_period (g : granularity) (interval : option Z) (skip_simple : bool) (series : list (option Qc))
  : res nat :=
  match all_some series with
  | None => Err Generic
  | Some s => do r <- default_detection g interval skip_simple s; Ok (fst r)
  end.
End Period.
