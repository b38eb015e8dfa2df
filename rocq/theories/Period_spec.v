(** Specifications for automatic period detection. *)
From Coq Require Import String List Arith ZArith QArith Qcanon Lia Bool.
From Verif Require Import Base Num Helpers_model Detect_model.
Import ListNotations.
Open Scope nat_scope.

(** The series repeats itself with period [p]. *)
Definition repeats (data : list Qc) (p : nat) : Prop :=
  forall i x y, nth_error data i = Some x -> nth_error data (i + p) = Some y -> x = y.

(** Mean of the squared distances to the mean. *)
Definition variance (l : list Qc) : Qc :=
  (qsum (map (fun x => (x - qsum l / qn (length l)) * (x - qsum l / qn (length l))) l) / qn (length l))%Qc.

(** A standard deviation that is at most half a percent too small. *)
Definition fair_std (std : list Qc -> Qc) : Prop :=
  forall l, l <> [] -> (0 <= std l)%Qc /\ (variance l <= Q2Qc (101 # 100) * (std l * std l))%Qc.

(** Every value is within sqrt(8.9) = 2.98 standard deviations of the mean. *)
Definition no_spikes (l : list Qc) : Prop :=
  forall x, In x l ->
    let d := (x - qsum l / qn (length l))%Qc in (d * d <= Q2Qc (89 # 10) * variance l)%Qc.

(** The values are not all the same. *)
Definition varied (l : list Qc) : Prop := exists x y, In x l /\ In y l /\ x <> y.
(** No value is larger than [B], either way. *)
Definition sized (B : Qc) (l : list Qc) : Prop := forall x, In x l -> (Qcabs x <= B)%Qc.

(** The trend fit (of values up to [B]) and the autocorrelation answer with
    arrays of the right length. *)
Definition trend_answers (B : Qc) (fit_trend : string -> list Qc -> res (list Qc)) (kind : string) : Prop :=
  forall l, 12 <= length l -> sized B l -> exists t, fit_trend kind l = Ok t /\ length t = length l.
Definition acf_answers (acf : list Qc -> nat -> res (list (option Qc) * list (option Qc))) : Prop :=
  forall l n, exists a c, acf l n = Ok (a, c) /\ length a = S n /\ length c = S n.
(** The periodogram's peaks span periods that fit into the data. *)
Definition peaks_fit (lowest : nat) (peaks : list Qc -> Qc -> option (list (nat * Qc * nat * nat))) : Prop :=
  forall data thresh ps p x lo hi, peaks data thresh = Some ps -> In (p, x, lo, hi) ps ->
    lowest <= lo /\ 2 * hi <= length data.

(** A lag counts as a peak unless its autocorrelation is below the threshold
    or below its distance to the confidence bound; NaN compares false. *)
Definition clear_peak (thresh : Qc) (a c : option Qc) : Prop :=
  match a with
  | None => True
  | Some x => (thresh <= x)%Qc /\ match c with None => True | Some u => (u - x <= x)%Qc end
  end.

(** Search order of two lags: NaN first, then larger autocorrelation, then the
    shorter lag. *)
Definition searched_before (ac : list (option Qc)) (i j : nat) : Prop :=
  match nth_error ac i, nth_error ac j with
  | Some None, Some None => i < j
  | Some None, Some (Some _) => True
  | Some (Some x), Some (Some y) => (y < x)%Qc \/ y = x /\ i < j
  | _, _ => False
  end.

(** Two different values occur. *)
Definition two_values (l : list Qc) : Prop := exists x y, In x l /\ In y l /\ x <> y.

(** Number of samples in a week (daily data and finer), in three months
    (weekly data), in a year (monthly data). *)
Definition natural_cycle (g : granularity) (step : Z) : option Z :=
  match g with
  | Daily => Some 7
  | Hourly => Some (7 * 24 / step)
  | Minutely => Some (7 * 24 * 60 / step)
  | Secondly => Some (7 * 24 * 60 * 60 / step)
  | Weekly => Some 12
  | Monthly => Some 12
  | Yearly | GNone | Microsecond => None
  end%Z.

(** Number of samples in a day. *)
Definition day_cycle (g : granularity) (step : Z) : option Z :=
  match g with
  | Hourly => Some (24 / step)
  | Minutely => Some (24 * 60 / step)
  | Secondly => Some (24 * 60 * 60 / step)
  | _ => None
  end%Z.
