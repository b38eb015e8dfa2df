(** Specifications for gap filling, in terms of the submitted indices and
    values only. *)
From Coq Require Import List Arith ZArith Lia Bool Sorted.
From Verif Require Import Base Num.
Import ListNotations.
Open Scope nat_scope.

(** The index list describes points on a grid: as many indices as values, no
    value missing, first index 0, strictly increasing. The empty index list is
    accepted too. *)
Definition well_formed_points (ix : list Z) (vs : list (option Qc)) : Prop :=
  ix = [] \/
  (length ix = length vs /\ ~ In None vs /\ hd_error ix = Some 0%Z /\ StronglySorted Z.lt ix).

(** Value [v] was submitted for grid position [p]. *)
Definition observed (idx : list nat) (vals : list Qc) (p : nat) (v : Qc) : Prop :=
  exists k, nth_error idx k = Some p /\ nth_error vals k = Some v.

(** [a] and [b] are given indices around position [p] with nothing given in between. *)
Definition gap_around (idx : list nat) (p a b : nat) : Prop :=
  In a idx /\ In b idx /\ a < p < b /\ forall q, In q idx -> q <= a \/ b <= q.

(** [v] is the last submitted value at or before [p]. *)
Definition last_observation (idx : list nat) (vals : list Qc) (p : nat) (v : Qc) : Prop :=
  exists a, observed idx vals a v /\ a <= p /\ forall q, In q idx -> q <= a \/ p < q.

(** The straight line through [(a,va)] and [(b,vb)] at [p]. *)
Definition on_line (a : nat) (va : Qc) (b : nat) (vb : Qc) (p : nat) : Qc :=
  (va + (vb - va) * (qn (p - a) / qn (b - a)))%Qc.

(** Positions after / before [i] at distance a positive multiple of [P],
    nearest first, inside an array of length [len]. *)
Definition positions_after (i P len : nat) : list nat :=
  map (fun t => i + S t * P) (seq 0 ((len - 1 - i) / P)).
Definition positions_before (i P : nat) : list nat :=
  map (fun t => i - S t * P) (seq 0 (i / P)).

(** The same notions on the raw arguments (Python index list and value list). *)
Definition given (ix : list Z) (vs : list (option Qc)) (p : nat) (v : Qc) : Prop :=
  exists k, nth_error ix k = Some (Z.of_nat p) /\ nth_error vs k = Some (Some v).

Definition is_given (ix : list Z) (p : nat) : Prop := In (Z.of_nat p) ix.

(** [a] and [b] are given positions around [p] with nothing given in between. *)
Definition neighbours (ix : list Z) (p a b : nat) : Prop :=
  is_given ix a /\ is_given ix b /\ a < p < b /\ forall q, is_given ix q -> q <= a \/ b <= q.

(** The value submitted for position [p], if any. *)
Fixpoint value_at (pts : list (Z * option Qc)) (p : nat) : option Qc :=
  match pts with
  | [] => None
  | (z, v) :: t => if (z =? Z.of_nat p)%Z then v else value_at t p
  end.

(** The values submitted for the positions of a list, in that order. *)
Definition values_at (ix : list Z) (vs : list (option Qc)) (ps : list nat) : list Qc :=
  flat_map (fun p => match value_at (combine ix vs) p with Some v => [v] | None => [] end) ps.

(** An array over the grid that holds every submitted value at its position. *)
Definition carries (ix : list Z) (vs : list (option Qc)) (arr : list (option Qc)) : Prop :=
  forall p v, given ix vs p v -> nth_error arr p = Some (Some v).
