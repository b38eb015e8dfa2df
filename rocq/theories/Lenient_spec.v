(** Vocabulary for C122: the same rows with other points reported. *)
From Coq Require Import List ZArith.
From Verif Require Import Base Num FillUp_model Margins_model Detect_model.
Import ListNotations.

(** Equal in value, expected value, trend and score, and altogether if both or
    neither are reported. *)
Definition same_columns (r r' : row) : Prop :=
  (r_value r' = r_value r /\ r_expected r' = r_expected r /\ r_trend r' = r_trend r /\ r_score r' = r_score r) /\
  (r_anomaly r' = r_anomaly r -> r' = r).
(** A point reported the first time only, and one with the same score reported
    the second time only. *)
Definition exchanged_tie (scores : list Qc) (rows rows' : list row) (i j : nat) : Prop :=
  exists s r r' q q', nth_error scores i = Some s /\ nth_error scores j = Some s /\
    nth_error rows i = Some r /\ nth_error rows' i = Some r' /\ r_anomaly r = true /\ r_anomaly r' = false /\
    nth_error rows j = Some q /\ nth_error rows' j = Some q' /\ r_anomaly q = false /\ r_anomaly q' = true.
(** No two points that reach the threshold have the same score. *)
Definition no_ties (th : Qc) (scores : list Qc) : Prop :=
  forall i j s, nth_error scores i = Some s -> nth_error scores j = Some s -> (th <= s)%Qc -> i = j.
(** The same call with another threshold and share. *)
Definition with_limits (th ratio : Qc) (a : args) : args :=
  mkArgs (a_values a) (a_fup a) (a_mode a) (a_fixed a) ratio (a_alpha a) th (a_need_trend a) (a_majority a) (a_gran a) (a_interval a).
(** The series looked at: what was submitted or, filled in ([b]), the whole grid. *)
Definition looked_at (spline : list nat -> list Qc -> nat -> Qc) (a : args) (p : nat) (b : bool) (series : list Qc) : Prop :=
  if b then exists tags, fill_up_on_demand spline (a_fup a) (a_mode a) (a_fixed a) (Some (Z.of_nat p)) = Ok (Some (map Some series, tags))
  else series = a_values a.
(** The same row, or one not reported before with equal columns. *)
Definition kept (r r' : row) : Prop := same_columns r r' /\ (r_anomaly r = true -> r' = r).
(** The same outcome, or one for a point not reported before. *)
Definition kept_outcome (o o' : outcome) : Prop := o_expected o' = o_expected o /\ (o' = o \/ o_anomaly o = false).
