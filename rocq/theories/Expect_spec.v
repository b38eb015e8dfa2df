(** Vocabulary for the expected values of an answer. *)
From Coq Require Import List Arith ZArith QArith Qcanon.
From Verif Require Import Base Num Margins_model Helpers_spec.
Import ListNotations.
Open Scope nat_scope.

(** Row [i] of the frame is reported. *)
Definition flagged (rows : list row) (i : nat) : Prop := exists r, nth_error rows i = Some r /\ r_anomaly r = true.

(** [k] is [l] with the values at the positions of [F] forgotten. *)
Definition forgotten (F : nat -> Prop) (l : list Qc) (k : list (option Qc)) : Prop :=
  length k = length l /\
  forall i v, nth_error l i = Some v -> (F i -> nth_error k i = Some None) /\ (~ F i -> nth_error k i = Some (Some v)).

(** [e] is [l] with the values at the positions of [F] replaced by straight
    lines between the nearest remaining values (the nearest one at the ends). *)
Definition bridged (F : nat -> Prop) (l e : list Qc) : Prop :=
  exists k, forgotten F l k /\ length e = length l /\ forall i v, nth_error e i = Some v -> is_interpolant k i v.

(** Reported rows among the last [w]. *)
Definition late_reports (rows : list row) (w : nat) : nat := length (filter r_anomaly (skipn (length rows - w) rows)).

(** The trend under the points reported, and under the last half period when
    at least half of that is reported, does not enter the expected values. *)
Definition untrusted (rows : list row) (period : nat) (i : nat) : Prop :=
  flagged rows i \/ (period / 2 <= 2 * late_reports rows (period / 2) /\ length rows - period / 2 <= i).
