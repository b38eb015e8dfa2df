(** Specification for requests with a lone spike on a level series (C116). *)
From Coq Require Import List Arith ZArith QArith Qcanon Bool.
From Verif Require Import Base Num Margins_model Detect_model Request_model.
Import ListNotations.
Open Scope nat_scope.

(** With sensitivity [z] a deviation by [c] from the level [b] is shown if it is
    more than 100 - z percent of the level, or z is 100. *)
Definition shown (z : Z) (b c : Qc) : Prop := z = 100%Z \/ (Qcabs b * (Q2Qc 100 - qz z) < Q2Qc 100 * Qcabs c)%Qc.
(** In boundary version V2: if it is more than the factor of the sensitivity times
    the size of the level (at least 0.3), or, at 99, between a ten-thousandth of
    that and that. *)
Definition shown_v2 (z : Z) (b c : Qc) : Prop := exists f, nth_error factors (Z.to_nat z) = Some f /\
  let reach := (Qcmax (Q2Qc (3 # 10)) (Qcabs b) * f)%Qc in
  (reach < Qcabs c)%Qc \/ z = 99%Z /\ (reach * Q2Qc (1 # 10000) < Qcabs c)%Qc /\ (Qcabs c < reach)%Qc.
Definition shown_in (v1 : bool) (z : Z) (b c : Qc) : Prop := if v1 then shown z b c else shown_v2 z b c.
(** The outcome of the spike ([here]) or of a point of the level. *)
Definition lone_outcome (vis : Prop) (b c : Qc) (here : Prop) (o : outcome) : Prop :=
  o_expected o = b /\ (o_anomaly o = true <-> here /\ vis) /\
  (o_pos o = true <-> o_anomaly o = true /\ (0 < c)%Qc) /\ (o_neg o = true <-> o_anomaly o = true /\ (c < 0)%Qc).
(** The answer for [n] points, the spike at [k]. *)
Definition lone_reply {T} (n k : nat) (vis : Prop) (b c : Qc) (y : reply T) : Prop :=
  match y with
  | AEntire _ l p => p = 0 /\ length l = n /\ forall i t o, nth_error l i = Some (t, o) -> lone_outcome vis b c (i = k) o
  | ALatest _ _ o p _ => p = 0 /\ lone_outcome vis b c (n - 1 = k) o
  end.
