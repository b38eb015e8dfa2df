(** Specifications for the detection pipeline. *)
From Coq Require Import List Arith ZArith Lia Bool Sorted Permutation.
From Verif Require Import Base Num FillUp_model FillUp_spec Margins_model SR_model Detect_model.
Import ListNotations.
Open Scope nat_scope.

(** A point is an anomaly iff it is exactly one of positive and negative; a
    positive one lies above its expected value, a negative one below, by at
    least 1e-8. *)
Definition flags_consistent (r : row) : Prop :=
  (r_anomaly r = true <-> (r_pos r = true /\ r_neg r = false) \/ (r_pos r = false /\ r_neg r = true)) /\
  (r_pos r = true -> r_expected r + EPS <= r_value r)%Qc /\
  (r_neg r = true -> r_value r + EPS <= r_expected r)%Qc.

(** Number of reported anomalies. *)
Fixpoint reported (rows : list row) : nat :=
  match rows with
  | [] => 0
  | r :: t => (if r_anomaly r then 1 else 0) + reported t
  end.

(** An order on (label, value) pairs that sort_values may return: any
    rearrangement in ascending / descending order of the values. *)
Definition sorts_up (f : list (nat * Qc) -> list (nat * Qc)) : Prop :=
  forall l, Permutation l (f l) /\ StronglySorted (fun a b => (snd a <= snd b)%Qc) (f l).
Definition sorts_down (f : list (nat * Qc) -> list (nat * Qc)) : Prop :=
  forall l, Permutation l (f l) /\ StronglySorted (fun a b => (snd b <= snd a)%Qc) (f l).

(** Number of entries strictly above / below [x]. *)
Definition count_above (l : list Qc) (x : Qc) : nat := length (filter (fun y => (x <? y)%Qc) l).
Definition count_below (l : list Qc) (x : Qc) : nat := length (filter (fun y => (y <? x)%Qc) l).

(** The number of anomalies the ratio allows among [n] points: the ratio's
    share rounded up, at least one. *)
Definition allowed (n : nat) (ratio : Qc) (k : nat) : Prop :=
  k = 1 \/ (qn k < qn n * ratio + 1)%Qc.

(** The spline passes through its knots (only needed for the 'auto' fill). *)
Definition through_knots (spline : list nat -> list Qc -> nat -> Qc) (ix : list Z) (a : args) : Prop :=
  a_mode a = FMAuto -> forall q v, given ix (map Some (a_values a)) q v ->
  spline (f_indices (a_fup a)) (f_values (a_fup a)) q = v.
