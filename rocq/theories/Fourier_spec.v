(** Specification for the spectral residual transform as a whole. *)
From Coq Require Import List Arith Lia Bool Reals.
Import ListNotations.
Open Scope R_scope.

(** [n] values of [b], except that [c] is added at position [k]. *)
Definition level_with_spike (n k : nat) (b c : R) : list R :=
  map (fun t => if Nat.eqb t k then b + c else b) (seq 0 n).
