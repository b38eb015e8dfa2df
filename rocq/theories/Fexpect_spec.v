(** What is claimed about the expected values computed in doubles. *)
From Coq Require Import List ZArith Bool Reals Permutation.
From Flocq Require Import Core BinarySingleNaN.
From Verif Require Import Base Dates_model.
Import ListNotations.
Open Scope R_scope.

(** The real number a double stands for. *)
Definition real (x : f64) : R := B2R x.
Definition finite (x : f64) : Prop := is_finite x = true.

(** Sums of doubles in any order and bracketing. *)
Inductive bracketing :=
| Single (x : f64)
| Plus (a b : bracketing).
Fixpoint summands (t : bracketing) : list f64 :=
  match t with Single x => [x] | Plus a b => summands a ++ summands b end.
Fixpoint rounded_sum (t : bracketing) : f64 :=
  match t with Single x => x | Plus a b => Bplus mode_NE (rounded_sum a) (rounded_sum b) end.
Definition adds_up (fsum : list f64 -> f64) : Prop :=
  forall l, l <> [] -> exists t, Permutation (summands t) l /\ fsum l = rounded_sum t.

(** Exact means. *)
Definition total (l : list R) : R := fold_right Rplus 0 l.
Definition mean (l : list R) : R := total l / INR (length l).
Definition between {A} (l : list A) (lo hi : nat) : list A := firstn (hi - lo) (skipn lo l).

(** The values at the skeleton points among the positions lo .. hi-1. *)
Definition skeleton (series : list f64) (skel : list bool) (lo hi : nat) : list R :=
  map (fun p => real (fst p)) (filter (fun p => snd p) (between (combine series skel) lo hi)).
(** A skeleton point stands for itself; any other position [i] for the mean of
    the skeleton points in i//2 .. i, or of all points up to [i] if there are
    none. *)
Definition stands_for (series : list f64) (skel : list bool) (i : nat) : R :=
  if nth i skel false then real (nth i series (B754_zero false)) else
  match skeleton series skel (i / 2) (i + 1) with
  | [] => mean (map real (firstn (i + 1) series))
  | w => mean w
  end.
(** The exact expected value: the mean over the last (up to) five positions. *)
Definition exact_expected (series : list f64) (skel : list bool) (i : nat) : R :=
  mean (between (map (stands_for series skel) (seq 0 (length series))) (i + 1 - 5) (i + 1)).
(** For the latest point: the mean of the later half of the skeleton points. *)
Definition exact_latest (series : list f64) (skel : list bool) : R :=
  let pts := skeleton series skel 0 (length series) in
  mean (skipn (length pts / 2) pts).

(** Finite values of magnitude at most [M]. *)
Definition sized (M : R) (series : list f64) : Prop := Forall (fun x => finite x /\ Rabs (real x) <= M) series.
(** Lengths and sizes at which nothing overflows or underflows in the sums. *)
Definition reasonable (n : nat) (M : R) : Prop := (Z.of_nat n <= 16777216)%Z /\ bpow radix2 (-1000) <= M <= bpow radix2 500.
(** n^2 2^-48 M *)
Definition tolerance (n : nat) (M : R) : R := INR n * INR n * bpow radix2 (-48) * M.

(** A double that is a whole number. *)
Definition whole (x : f64) (z : Z) : Prop := finite x /\ real x = IZR z.
