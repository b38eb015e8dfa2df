(** Specification for the outlier tests in single precision. *)
From Coq Require Import List Arith ZArith Lia Bool.
From Verif Require Import Base Num Sorting Kernel_spec.
Import ListNotations.
Open Scope nat_scope.

(** How far [v] lies from the centre [c] on the tested side. *)
Definition distance (upper : bool) (c v : Qc) : Qc := (if upper then v - c else c - v)%Qc.

(** The band around a critical value inside which single precision may decide
    either way: 2^-19 (about two millionths of the range of the values), plus
    what np.mean and np.std may be off by, for a threshold of zero, and
    proportionally more for larger thresholds. *)
Definition band (tau thr : Qc) : Qc := ((thr + 1) * (Q2Qc (1 # 524288) + tau))%Qc.

(** Beyond / within the threshold by more than the band. *)
Definition clearly_outlying (tau : Qc) (upper : bool) (c s v thr : Qc) : Prop :=
  (thr * Qcmax s (Q2Qc (1 # 100000000)) + band tau thr < distance upper c v)%Qc.
Definition clearly_inlying (tau : Qc) (upper : bool) (c s v thr : Qc) : Prop :=
  (distance upper c v + band tau thr < thr * Qcmax s (Q2Qc (1 # 100000000)))%Qc.

(** Position [k] is significant, or is not, whatever the band decides. A value
    that does not exceed the median is never flagged by the median. *)
Definition clearly_significant (cst : Qc) (std : list Qc -> Qc) (tau : Qc) (upper : bool) (vals : list Qc) (k : nat) (thr : Qc) : Prop :=
  let rest := skipn k vals in
  exists v, nth_error vals k = Some v /\
    (clearly_outlying tau upper (qmedian rest) (mad rest / cst)%Qc v thr \/
     clearly_outlying tau upper (qmean rest) (std rest) v thr).
Definition clearly_insignificant (cst : Qc) (std : list Qc -> Qc) (tau : Qc) (upper : bool) (vals : list Qc) (k : nat) (thr : Qc) : Prop :=
  let rest := skipn k vals in
  exists v, nth_error vals k = Some v /\
    ((distance upper (qmedian rest) v <= 0)%Qc \/ clearly_inlying tau upper (qmedian rest) (mad rest / cst)%Qc v thr) /\
    clearly_inlying tau upper (qmean rest) (std rest) v thr.

(** The values are scaled to the range from 0 to 1. *)
Definition in_unit (vals : list Qc) : Prop := forall x, In x vals -> (0 <= x /\ x <= 1)%Qc.

(** What np.mean and np.std return for the rounded values is within [tau] of
    the mean and of the standard deviation [std] of the values themselves
    (which lies between 0 and 1). *)
Definition measured (rnd : Qc -> Qc) (std mean32 std32 : list Qc -> Qc) (tau : Qc) (w : list Qc) : Prop :=
  (Qcabs (mean32 (map rnd w) - qmean w) <= tau)%Qc /\
  (Qcabs (std32 (map rnd w) - std w) <= tau)%Qc /\ (0 <= std w /\ std w <= 1)%Qc.

(** Decided whatever the rounding does. *)
Definition decided (cst : Qc) (std : list Qc -> Qc) (tau : Qc) (upper : bool) (vals : list Qc) (k : nat) (c : Qc) : Prop :=
  clearly_significant cst std tau upper vals k c \/ clearly_insignificant cst std tau upper vals k c.
