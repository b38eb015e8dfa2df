(** Specifications for the numerical kernels. *)
From Coq Require Import List Arith ZArith Lia Bool.
From Verif Require Import Base Num Sorting.
Import ListNotations.
Open Scope nat_scope.

(** Median absolute deviation. *)
Definition mad (l : list Qc) : Qc := qmedian (map (fun x => Qcabs (x - qmedian l)) l).

(** [v] exceeds the centre [c] by more than [thr] spreads [s] (spreads below
    1e-8 count as 1e-8) on the tested side. *)
Definition outlying (upper : bool) (c s v thr : Qc) : Prop :=
  (thr * Qcmax s (Q2Qc (1 # 100000000)) < (if upper then v - c else c - v))%Qc.

(** Position [k] of the tail-ordered values is significant: compared with the
    values from [k] on, it is far from their median in robust deviations, or
    far from their mean in standard deviations. *)
Definition significant (cst : Qc) (std : list Qc -> Qc) (upper : bool) (vals : list Qc) (k : nat) (thr : Qc) : Prop :=
  let rest := skipn k vals in
  exists v, nth_error vals k = Some v /\
    (outlying upper (qmedian rest) (mad rest / cst)%Qc v thr \/
     outlying upper (qmean rest) (std rest) v thr).

(** Tail order: ascending for the lower tail, descending for the upper one. *)
Definition tail_ordered (upper : bool) (l : list Qc) : Prop :=
  forall i j x y, i <= j -> nth_error l i = Some x -> nth_error l j = Some y ->
    (if upper then y <= x else x <= y)%Qc.

(** The values whose position is [i] modulo [period], in order; [k] is the
    position of the first element. *)
Fixpoint at_phase_from (k : nat) (data : list Qc) (period i : nat) : list Qc :=
  match data with
  | [] => []
  | v :: t => if k mod period =? i then v :: at_phase_from (S k) t period i
              else at_phase_from (S k) t period i
  end.
Definition at_phase (data : list Qc) (period i : nat) : list Qc := at_phase_from 0 data period i.

(** Squared error when the value [v] at position [k] is predicted by the mean
    of the other values of its phase. *)
Definition loo_sq (data : list Qc) (period k : nat) (v : Qc) : Qc :=
  let ph := at_phase data period (k mod period) in
  let r := (v - (qsum ph - v) / (qn (length ph) - 1))%Qc in (r * r)%Qc.
(** Mean squared leave-one-out error. *)
Definition loo_mse (data : list Qc) (period : nat) : Qc :=
  (qsum (mapi (loo_sq data period) data) / qn (length data))%Qc.

(** Median of the values within [h] positions of [p] (fewer at the ends). *)
Definition sliding_median (data : list Qc) (h p : nat) : Qc :=
  qmedian (slice data (p - h) (p + h + 1)).
