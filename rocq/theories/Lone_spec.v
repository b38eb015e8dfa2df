(** Specification for a lone spike through the dynamic threshold detector (C114). *)
From Coq Require Import List Arith ZArith QArith Qcanon Bool.
From Verif Require Import Base Num Margins_model Spike_spec.
Import ListNotations.
Open Scope nat_scope.

(** The standard deviation of [l], at most half a percent too large. *)
Definition close_std (std : list Qc -> Qc) (l : list Qc) : Prop :=
  (0 <= std l)%Qc /\ (qn (length l) * (std l * std l) <= Q2Qc (101 # 100) * qsum (map (fun x => (x - qmean l) * (x - qmean l)) l))%Qc.

(** The row of the spike: [b] is expected, and the point is reported in the direction of the spike. *)
Definition spike_row (b c : Qc) (r : row) : Prop :=
  r_value r = (b + c)%Qc /\ r_expected r = b /\ r_anomaly r = true /\ (r_pos r = true <-> (0 < c)%Qc) /\ (r_neg r = true <-> (c < 0)%Qc).
(** A row of the level: as expected and not reported. *)
Definition level_row (b : Qc) (r : row) : Prop :=
  r_value r = b /\ r_expected r = b /\ r_anomaly r = false /\ r_neg r = false /\ r_pos r = false.
(** One row per point, of which only the spike's is reported. *)
Definition only_spike (n k : nat) (b c : Qc) (rows : list row) : Prop :=
  length rows = n /\ forall i r, nth_error rows i = Some r -> if i =? k then spike_row b c r else level_row b r.
