(** Specifications for the padding and the raw scores of the spectral residual
    detector (C87, C88). *)
From Coq Require Import List Arith ZArith QArith Qcanon Lia Bool Sorted Permutation.
From Verif Require Import Base Num Helpers_spec.
Import ListNotations.
Open Scope nat_scope.

(** [x] is the [q]-quantile of [l]: with the values in ascending order spread
    evenly over [0, 1], the value at [q], on the straight line between the two
    neighbours. *)
Definition quantile (l : list Qc) (q x : Qc) : Prop :=
  exists s k t, Permutation s l /\ StronglySorted (fun a b => (a <= b)%Qc) s /\
    (qn (length l - 1) * q = qn k + t)%Qc /\ (0 <= t)%Qc /\ (t < 1)%Qc /\ k < length l /\
    x = ((1 - t) * nth k s 0 + t * nth (k + 1) s 0)%Qc.

(** Within one and a half interquartile ranges of the quartiles. *)
Definition inlier (q25 q75 v : Qc) : Prop :=
  (q25 - Q2Qc (3 # 2) * (q75 - q25) <= v)%Qc /\ (v <= q75 + Q2Qc (3 # 2) * (q75 - q25))%Qc.

(** [w] lists the last [k] inliers of [l], in order, preceded by copies of
    [pad] when there are fewer. *)
Inductive last_inliers (P : Qc -> Prop) (pad : Qc) : list Qc -> nat -> list Qc -> Prop :=
| li_done : forall l, last_inliers P pad l 0 []
| li_pad : forall k, last_inliers P pad [] k (repeat pad k)
| li_take : forall l v k w, P v -> last_inliers P pad l k w -> last_inliers P pad (l ++ [v]) (S k) (w ++ [v])
| li_skip : forall l v k w, ~ P v -> last_inliers P pad l k w -> last_inliers P pad (l ++ [v]) k w.

(** The score of magnitude [m] against average [a]. *)
Definition relative_deviation (m a s : Qc) : Prop :=
  (0 < a)%Qc /\ ((a <= m /\ m = a + s * a) \/ (m <= a /\ m = a - s * a))%Qc.
