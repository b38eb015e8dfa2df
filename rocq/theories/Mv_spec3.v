(** Specification of values far outside the training range (C94). *)
From Coq Require Import List Arith ZArith.
From Verif Require Import Base Num.
Import ListNotations.
Open Scope nat_scope.

(** [v] is outside the range [a, b] by at least half its width. *)
Definition beyond (a b v : Qc) : Prop :=
  (b + (b - a) * Q2Qc (1 # 2) + Q2Qc (2 # 100000000) <= v \/ v <= a - (b - a) * Q2Qc (1 # 2) - Q2Qc (1 # 100000000))%Qc.
(** Variable [j] of a row is far outside the ranges [mn], [mx]. *)
Definition beyond_at (mn mx row : list Qc) (j : nat) : Prop :=
  exists a b v, nth_error mn j = Some a /\ nth_error mx j = Some b /\ nth_error row j = Some v /\ beyond a b v.
Definition beyond_row (mn mx row : list Qc) : Prop := forall j, j < length row -> beyond_at mn mx row j.
(** The weights of some of the far variables, 0 for all others. *)
Definition far_weights (mn mx pct row u : list Qc) : Prop :=
  length u = length pct /\
  forall j x, nth_error u j = Some x -> x = 0%Qc \/ (nth_error pct j = Some x /\ beyond_at mn mx row j).
(** Proper ranges. *)
Definition ranges (mn mx : list Qc) : Prop :=
  forall j a b, nth_error mn j = Some a -> nth_error mx j = Some b -> (a <= b)%Qc.
