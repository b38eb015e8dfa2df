(** Specifications for calendar arithmetic and timestamps. *)
From Coq Require Import List ZArith Lia Bool Ascii.
From Verif Require Import Base Helpers_model Detect_model Dates_model.
Import ListNotations.
Open Scope Z_scope.

(** Length of a month, written down once more: 30 days hath September ... *)
Definition month_length (y m n : Z) : Prop :=
  (In m [1; 3; 5; 7; 8; 10; 12] /\ n = 31) \/ (In m [4; 6; 9; 11] /\ n = 30) \/
  (m = 2 /\ ((((4 | y) /\ ~ (100 | y)) \/ (400 | y)) /\ n = 29 \/ ~ (((4 | y) /\ ~ (100 | y)) \/ (400 | y)) /\ n = 28)).
Definition valid (d : date) : Prop :=
  1 <= mo d <= 12 /\ exists n, month_length (yr d) (mo d) n /\ 1 <= dy d <= n.
Definition last_of_month (d : date) : Prop := month_length (yr d) (mo d) (dy d).
(** Months since year 0. *)
Definition month_no (d : date) : Z := yr d * 12 + (mo d - 1).
(** [a] is [k] months after [b], the day cut to the end of the month. *)
Definition months_after (b : date) (k : Z) (a : date) : Prop :=
  valid a /\ month_no a = month_no b + k /\ (dy a = dy b \/ (dy a < dy b /\ last_of_month a)).
Definition total_months (d : date_difference) : Z := d_years d * 12 + d_months d.
(** Same day of the month, up to one of the two being a month's end. *)
Definition days_agree (a b : date) : Prop :=
  dy a = dy b \/ (last_of_month a /\ dy a <= dy b) \/ (last_of_month b /\ dy b <= dy a).

(** [l] are the grid positions of the moments [us] (microseconds), counted from
    the first one in steps of [step] microseconds. *)
Definition on_grid (step : Z) (us : list Z) (l : list Z) : Prop :=
  exists first, nth_error us 0 = Some first /\ length l = length us /\
    forall i u k, nth_error us i = Some u -> nth_error l i = Some k -> u = first + k * step.

(** Decimal writing with a fixed number of digits. *)
Definition char_of (n : Z) : ascii := ascii_of_nat (48 + Z.to_nat n).
Definition d2 (n : Z) : list ascii := [char_of (n / 10); char_of (n mod 10)].
Definition d4 (n : Z) : list ascii := d2 (n / 100) ++ d2 (n mod 100).

(** The answer expected for the moments [ts] when [idx t k] says that [t] has
    grid index [k]: all indices, or the first position without index. *)
Definition answer {A} (idx : A -> Z -> Prop) (ts : list A) (r : option (list Z) * option nat) : Prop :=
  match r with
  | (Some l, None) => Forall2 idx ts l
  | (None, Some i) => exists t, nth_error ts i = Some t /\ (forall k, ~ idx t k) /\
                      forall j u, (j < i)%nat -> nth_error ts j = Some u -> exists k, idx u k
  | _ => False
  end.
Definition second_us : Z := 1000000.
Definition whole_second (s : stamp) : Prop := (second_us | epoch_us s).
(** [t] is [k] steps of [step] microseconds after [first]. *)
Definition steps_after (first : stamp) (step : Z) (t : stamp) (k : Z) : Prop := epoch_us t = epoch_us first + k * step.
(** [t] is [k] times [n] months after [first], up to the ends of months. *)
Definition month_steps (first : stamp) (n : Z) (t : stamp) (k : Z) : Prop :=
  days_agree (s_date t) (s_date first) /\ month_no (s_date t) = month_no (s_date first) + k * n.
(** Stamps as pandas can hold them (and a little more). *)
Definition stamp_ok (s : stamp) : Prop := valid (s_date s) /\ 1 <= yr (s_date s) <= 9999 /\ 0 <= s_us s < 86400 * second_us.

(** The layouts in which a moment can be written. *)
Inductive written := WZ | WT | WSpace | WMinutes | WSlash.
Definition ch (n : Z) : ascii := ascii_of_nat (Z.to_nat n).
Definition dash := ch 45. Definition colon := ch 58. Definition slash := ch 47. Definition blank := ch 32.
Definition render (w : written) (y m d h mi s : Z) : list ascii :=
  let day := d4 y ++ [dash] ++ d2 m ++ [dash] ++ d2 d in
  let minutes := d2 h ++ [colon] ++ d2 mi in
  match w with
  | WZ => day ++ [ch 84] ++ minutes ++ [colon] ++ d2 s ++ [ch 90]
  | WT => day ++ [ch 84] ++ minutes ++ [colon] ++ d2 s
  | WSpace => day ++ [blank] ++ minutes ++ [colon] ++ d2 s
  | WMinutes => day ++ [blank] ++ minutes
  | WSlash => d2 m ++ [slash] ++ d2 d ++ [slash] ++ d2 (y mod 100)
  end.
(** What the layout can express: minutes have no seconds, a date with slashes no
    time of day and only the years 1969 to 2068. *)
Definition writable (w : written) (y h mi s : Z) : Prop :=
  match w with
  | WMinutes => s = 0
  | WSlash => h = 0 /\ mi = 0 /\ s = 0 /\ 1969 <= y <= 2068
  | _ => True
  end.
Definition moment (y m d h mi s : Z) (st : stamp) : Prop :=
  valid (Date y m d) /\ 1 <= y <= 9999 /\ 0 <= h <= 23 /\ 0 <= mi <= 59 /\ 0 <= s <= 59 /\
  st = Stamp (Date y m d) ((h * 3600 + mi * 60 + s) * second_us).

(** Seconds in one unit of a granularity. *)
Definition unit_seconds (g : granularity) : option Z :=
  match g with
  | Secondly => Some 1 | Minutely => Some 60 | Hourly => Some 3600 | Daily => Some 86400 | Weekly => Some 604800
  | _ => None
  end.
(** Moments from 2004-01-10 13:37:04 to 2038-01-19 03:14:08 (one binade of
    seconds). *)
Definition recent (u : Z) : Prop := 1073741824 * 1000000 <= u < 2147483648 * 1000000.
(** From 2004-11-03 19:53:47.777 to the same end. *)
Definition milli_range (u : Z) : Prop := 1099511627777 * 1000 <= u < 2147483648 * 1000000.
(** The scan for a bad day, then the scan for a bad multiple. *)
Definition two_scans (day_ok idx_ok : stamp -> Prop) (idx : stamp -> Z -> Prop) (ts : list stamp) (r : option (list Z) * option nat) : Prop :=
  match r with
  | (Some l, None) => Forall2 idx ts l
  | (None, Some i) =>
      exists t, nth_error ts i = Some t /\ (forall k, ~ idx t k) /\
        ((~ day_ok t /\ forall j u, (j < i)%nat -> nth_error ts j = Some u -> day_ok u) \/
         (Forall day_ok ts /\ ~ idx_ok t /\ forall j u, (j < i)%nat -> nth_error ts j = Some u -> idx_ok u))
  | _ => False
  end.
