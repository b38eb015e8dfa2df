(** Specifications for the spectrum period (C97). *)
From Coq Require Import String List Arith ZArith QArith Qcanon Bool.
From Verif Require Import Base Num FillUp_model Margins_model Detect_model Request_model Pipe_model.
Import ListNotations.
Open Scope nat_scope.

(** [q] is the period that would be found in the points of [a] had they no
    granularity, hence no day, week or year to try first. *)
Definition without_granularity (L : libs) (a : args) (q : nat) : Prop :=
  period_detection_with_filled_values (l_spline L) (whole_period L GNone None) (a_fup a) (a_mode a) (a_fixed a) = Ok q.

(** Some point is reported. *)
Definition reports (rows : list row) : Prop := exists r, In r rows /\ r_anomaly r = true.
