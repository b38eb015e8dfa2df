(** Specification for the spectral residual transform. *)
From Coq Require Import List Arith Lia Bool Reals.
From Verif Require Import Base.
Import ListNotations.

(** * The commented reference implementation of the transform, pyx:301-307,
    over the reals. *)
Open Scope R_scope.
Definition log_or_zero (m : R) : R := if Req_EM_T m 0 then 0 else ln m.
Fixpoint rsum (l : list R) : R := match l with [] => 0 | x :: t => x + rsum t end.
(** mean of the (up to) last three entries at [i] *)
Definition mean3 (l : list R) (i : nat) : R :=
  let w := slice l (i + 1 - 3) (i + 1) in rsum w / INR (length w).
Definition modulus (z : R * R) : R := sqrt (fst z * fst z + snd z * snd z).
Definition reference_point (trans : list (R * R)) (i : nat) (z : R * R) : R * R :=
  let maglog := map log_or_zero (map modulus trans) in
  let spectral := exp (nth i maglog 0 - mean3 maglog i) in
  if Req_EM_T (modulus z) 0 then (0, 0)
  else (fst z * spectral / modulus z, snd z * spectral / modulus z).
Definition reference_transform (trans : list (R * R)) : list (R * R) :=
  mapi (reference_point trans) trans.
