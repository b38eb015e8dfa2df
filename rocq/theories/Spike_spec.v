(** Specification for a lone spike on a level series (C113). *)
From Coq Require Import List Arith ZArith QArith Qcanon Lia Bool Reals.
From Verif Require Import Base Num Fourier_model Single_proofs3.
Import ListNotations.
Open Scope nat_scope.

(** [n] values of [b], except that [c] is added at position [k]. *)
Definition spiked (n k : nat) (b c : Qc) : list Qc := map (fun t => if t =? k then (b + c)%Qc else b) (seq 0 n).

(** The magnitudes [transform] gives for [l] are those of the spectral residual
    transform with an error of at most 1 / (2 n) each; they are not negative. *)
Definition computed_well (transform : list Qc -> list Qc) (l : list Qc) : Prop :=
  length (transform l) = length l /\
  forall t m r, nth_error (transform l) t = Some m -> nth_error (spectral_residual_transform (map QR l)) t = Some r ->
    (Rabs (QR m - r) <= 1 / (2 * INR (length l)))%R.

(** The spike points away from zero, or the values of the level sum to twice
    its size; the length that is asked for in either case. *)
Definition stands_out (n : nat) (b c : Qc) : Prop :=
  c <> 0%Qc /\ ((0 <= b * c)%Qc /\ 12 <= n \/ (Q2Qc 2 * Qcabs c <= qn n * Qcabs b)%Qc /\ 21 <= n).

(** The standard deviation of [l], at most 1.4 times too large. *)
Definition lean_std (std : list Qc -> Qc) (l : list Qc) : Prop :=
  (0 <= std l)%Qc /\ (qn (length l) * (std l * std l) <= Q2Qc 2 * qsum (map (fun x => (x - qmean l) * (x - qmean l)) l))%Qc.
