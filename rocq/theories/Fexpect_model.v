(** The expected values of the spectral residual detector in the double
    arithmetic the program uses:
    /repo/src/anomaly_detector/univariate/model/spectral_residual_model.py:26-46
    and average_filter of util/helpers.py. SR_model.v and Helpers_model.v have
    the same functions over exact rationals. *)
From Coq Require Import List ZArith Lia Bool.
From Flocq Require Import IEEE754.BinarySingleNaN.
From Verif Require Import Base Dates_model Kernel_model FillUp_model Helpers_model Fmargins_model.
From Verif Require Margins_model.
Import ListNotations.
Open Scope nat_scope.

(** np.cumsum of doubles: the first entry is copied, every other is the one
    before plus the next value, rounded. *)
Fixpoint fscan (acc : f64) (l : list f64) : list f64 :=
  match l with
  | [] => []
  | x :: t => let s := fadd acc x in s :: fscan s t
  end.
Definition fcumsum (l : list f64) : list f64 :=
  match l with [] => [] | x :: t => x :: fscan x t end.
(** np.cumsum of booleans: int64 *)
Fixpoint zscan (acc : Z) (l : list bool) : list Z :=
  match l with
  | [] => []
  | b :: t => let s := (acc + (if b then 1 else 0))%Z in s :: zscan s t
  end.

(** helpers.py:56-60 without fill_to_n: [res[i] /= (i + 1)] *)
Fixpoint faverage_loop (out : list f64) (is : list nat) : res (list f64) :=
  match is with
  | [] => Ok out
  | i :: t => do r <- get out i; faverage_loop (upd out i (fdiv r (of_Z (Z.of_nat (i + 1))))) t
  end.
(** helpers.py:37-62 with fill_to_n=False, for window n >= 1. *)
Definition faverage_filter (values : list f64) (n : nat) : res (list f64) :=
  let n := if length values <=? n then length values else n in
  let c := fcumsum values in
  let out := firstn n c ++ map (fun d => fdiv d (of_Z (Z.of_nat n))) (zip_with fsub (skipn n c) c) in
  faverage_loop out (seq 1 (n - 1)).

Section Sum.
(** np.add.reduce over doubles: pairwise, in an order that depends on length
    and machine. What is known of it is stated in Fexpect_spec.v. *)
Variable fsum : list f64 -> f64.
(** np.mean of a non-empty array *)
Definition fmean (l : list f64) : f64 := fdiv (fsum l) (of_Z (Z.of_nat (length l))).

(** spectral_residual_model.py:30-44. np.multiply by the boolean index
    multiplies by 1.0 or 0.0. *)
Definition fskeleton_expected (series : list f64) (skel : list bool) : res (list f64) :=
  let cnt := 0%Z :: zscan 0 skel in
  let sm := zero :: fcumsum (zip_with (fun v (b : bool) => fmul v (if b then one else zero)) series skel) in
  let one (i : nat) (v : f64) (b : bool) : res f64 :=
    if b then Ok v else
    do c1 <- get cnt (S i); do c0 <- get cnt (i / 2);
    if (c1 - c0 =? 0)%Z then Ok (fmean (firstn (S i) series)) else
    do s1 <- get sm (S i); do s0 <- get sm (i / 2);
    Ok (fdiv (fsub s1 s0) (of_Z (c1 - c0))) in
  Margins_model.mapM2 (fun iv b => one (fst iv) (snd iv) b) (combine (range (length series)) series) skel.
(** spectral_residual_model.py:26-46, entire mode. *)
Definition fexpected_entire (series : list f64) (skel : list bool) : res (list f64) :=
  do e <- fskeleton_expected series skel; faverage_filter e 5.
(** spectral_residual_model.py:27-29, latest mode: the last expected value. The
    mean of no points is NaN, with a warning. *)
Definition fexpected_latest (series : list f64) (skel : list bool) : f64 :=
  let pts := map fst (filter snd (combine series skel)) in
  let half := skipn (length pts / 2) pts in
  match half with
  | [] => B754_nan
  | _ => fmean half
  end.
End Sum.
