(** Specifications for the numeric helpers. *)
From Coq Require Import List Arith ZArith Lia Bool.
From Verif Require Import Base Num.
Import ListNotations.
Open Scope nat_scope.

(** Mean of the last (up to) [n] values up to position [i]. *)
Definition trailing_mean (values : list Qc) (n i : nat) : Qc :=
  qmean (slice values (i + 1 - n) (i + 1)).

(** The same over exactly [n] values, where the missing earlier ones are taken
    to equal the mean of the values strictly before [i] (the first value is
    its own mean). *)
Definition padded_mean (values : list Qc) (n i : nat) : Qc :=
  if i =? 0 then nth 0 values 0%Qc
  else if n <=? i then trailing_mean values n i
  else ((qsum (firstn (i + 1) values) + qn (n - 1 - i) * qmean (firstn i values)) / qn n)%Qc.

(** [v] is the linear interpolation at [p] of neighbouring known values. *)
Definition is_interpolant (values : list (option Qc)) (p : nat) (v : Qc) : Prop :=
  let kn a x := nth_error values a = Some (Some x) in
  kn p v \/
  (exists a b x y, a < p < b /\ kn a x /\ kn b y /\ (forall q z, a < q < b -> ~ kn q z) /\
     v = (x + (y - x) * (qn (p - a) / qn (b - a)))%Qc) \/
  (exists b, p < b /\ kn b v /\ forall q z, q < b -> ~ kn q z) \/
  (exists a, a < p /\ kn a v /\ forall q z, a < q -> ~ kn q z).

(** Sum of squared residuals of the line [a*x + b]. *)
Fixpoint sq_error (a b : Qc) (x y : list Qc) : Qc :=
  match x, y with
  | u :: s, v :: t => ((v - (a * u + b)) * (v - (a * u + b)) + sq_error a b s t)%Qc
  | _, _ => 0%Qc
  end.

(** [d] is the difference series of [v] from position [k] on. *)
Definition difference_from (k : nat) (v d : list Qc) : Prop :=
  length d = length v /\
  forall p x y, k <= p -> nth_error v p = Some x -> nth_error v (S p) = Some y -> nth_error d (S p) = Some (y - x)%Qc.
