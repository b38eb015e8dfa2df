(** Specification of the histogram detector's answer. *)
From Coq Require Import List Arith ZArith QArith Qcanon.
From Verif Require Import Base Num Helpers_model Helpers_spec Hbos_model.
Import ListNotations.
Open Scope nat_scope.

(** The points whose score exceeds the threshold. *)
Definition exceeds (threshold : Qc) (scores : list Qc) (i : nat) : Prop := exists s, nth_error scores i = Some s /\ (threshold < s)%Qc.
(** Point by point: the series, what was expected, who is reported and in which
    direction. *)
Definition reported_rows (series scores : list Qc) (threshold : Qc) (expected : nat -> Qc -> Prop) (rows : list hrow) : Prop :=
  length rows = length series /\ length scores = length series /\
  forall i r, nth_error rows i = Some r ->
    nth_error series i = Some (h_value r) /\ expected i (h_expected r) /\
    (h_anomaly r = true <-> exceeds threshold scores i) /\
    match h_dir r with
    | None => forall j, ~ exceeds threshold scores j
    | Some (pos, neg) =>
        (exists j, exceeds threshold scores j) /\
        (pos = true <-> h_anomaly r = true /\ (h_expected r <= h_value r)%Qc) /\
        (neg = true <-> h_anomaly r = true /\ (h_value r < h_expected r)%Qc)
    end.
(** [known] is [trend] without its entries at the reported points. *)
Definition without_reported (threshold : Qc) (scores trend : list Qc) (known : list (option Qc)) : Prop :=
  length known = length trend /\
  forall i, (exceeds threshold scores i -> forall x, nth_error known i = Some x -> x = None) /\
            (~ exceeds threshold scores i -> nth_error known i = option_map Some (nth_error trend i)).
