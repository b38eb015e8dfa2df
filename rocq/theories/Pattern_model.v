(** Model of the naming of periods,
    /repo/src/anomaly_detector/univariate/util/helpers.py:137-191, exported as
    anomaly_detector.univariate.get_period_pattern.
    Lengths are whole numbers of milliseconds. The code counts seconds, with
    0.001 * interval for granularity microsecond: that product is rounded, but
    only lengths that equal a unit could be misjudged, and 0.001 * i * p is not
    rounded below the unit for any i and p whose product is a unit. *)
From Coq Require Import ZArith List.
From Verif Require Import Base Detect_model.
Open Scope Z_scope.

(** util/fields.py:107-114, times 1000 *)
Definition YEAR_MS : Z := 12 * 4 * 7 * 24 * 60 * 60 * 1000.
Definition MONTH_MS : Z := 4 * 7 * 24 * 60 * 60 * 1000.
Definition WEEK_MS : Z := 7 * 24 * 60 * 60 * 1000.
Definition DAY_MS : Z := 24 * 60 * 60 * 1000.
Definition HOUR_MS : Z := 60 * 60 * 1000.
Definition MINUTE_MS : Z := 60 * 1000.
Definition SECOND_MS : Z := 1000.
Definition MILLI_MS : Z := 1.

(** helpers.py:137-159; the last branch cannot be reached with a member of the
    enumeration. *)
Definition get_ms_by_granularity (g : granularity) (custom_interval : option Z) : Z :=
  let i := match custom_interval with None => 1 | Some i => i end in
  match g with
  | Secondly => SECOND_MS * i
  | Minutely => MINUTE_MS * i
  | Hourly => HOUR_MS * i
  | Daily => DAY_MS * i
  | Weekly => WEEK_MS * i
  | Monthly => MONTH_MS * i
  | Yearly => YEAR_MS * i
  | Microsecond => MILLI_MS * i
  | GNone => 0
  end.

(** helpers.py:166-184 *)
Definition get_pattern_by_ms (ms : Z) : granularity :=
  if ms >=? YEAR_MS then Yearly
  else if ms >=? MONTH_MS then Monthly
  else if ms >=? WEEK_MS then Weekly
  else if ms >=? DAY_MS then Daily
  else if ms >=? HOUR_MS then Hourly
  else if ms >=? MINUTE_MS then Minutely
  else if ms >=? SECOND_MS then Secondly
  else if ms >=? MILLI_MS then Microsecond
  else GNone.

(** helpers.py:187-191 *)
Definition get_period_pattern (period : Z) (g : granularity) (custom_interval : option Z) : granularity :=
  let custom_interval := match custom_interval with None => Some 1 | c => c end in
  get_pattern_by_ms (get_ms_by_granularity g custom_interval * period).
