(** What is claimed about the margins computed in doubles. *)
From Coq Require Import List ZArith Bool Reals.
From Flocq Require Import Core BinarySingleNaN.
From Verif Require Import Base Dates_model Fmargins_model.
Open Scope R_scope.

Definition finite (x : f64) : Prop := is_finite x = true.
(** The real number a double stands for. *)
Definition real (x : f64) : R := B2R x.

(** An ordinary number: not NaN, not infinite, at most 2^500 (about 3e150). *)
Definition moderate (x : f64) : Prop := finite x /\ Rabs (real x) <= bpow radix2 500.
(** A possible unit: calculate_boundary_units clips at the double 0.3. *)
Definition possible_unit (x : f64) : Prop := moderate x /\ real MIN_UNIT <= real x.

(** A finite number that is not negative. *)
Definition nonneg (x : f64) : Prop := finite x /\ 0 <= real x.
Definition in_unit_interval (x : f64) : Prop := finite x /\ 0 <= real x <= 1.

(** The value lies outside the band a caller computes, in doubles, from the
    expected value and the two margins returned. *)
Definition above_band (r : row) (o : outcome) : Prop := real (Bplus mode_NE (r_expected r) (o_upper o)) < real (r_value r).
Definition below_band (r : row) (o : outcome) : Prop := real (r_value r) < real (Bminus mode_NE (r_expected r) (o_lower o)).
Definition outside_band (r : row) (o : outcome) : Prop := above_band r o \/ below_band r o.

(** [o'] reports at least what [o] reports. *)
Definition reports_more (o o' : outcome) : Prop :=
  (o_anomaly o = true -> o_anomaly o' = true) /\ (o_pos o = true -> o_pos o' = true) /\ (o_neg o = true -> o_neg o' = true).

(** A mantissa and exponent that are the double nearest to the fraction [q]:
    53 bits, and [q] is less than half a unit in the last place away. *)
Definition nearest_to (p : Z * Z) (q : QArith_base.Q) : Prop :=
  let (m, e) := p in
  (m = 0 /\ QArith_base.Qnum q = 0)%Z \/
  ((2 ^ 52 <= m < 2 ^ 53)%Z /\ Rabs (IZR m * bpow radix2 e - Q2R q) < bpow radix2 e / 2).
