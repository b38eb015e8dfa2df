(** The spectral residual transform with its two Fourier transforms:
    spectral_residual_transform_core in
    /repo/src/anomaly_detector/univariate/_anomaly_kernel_cython.pyx:281-325.
    np.fft.fft and np.fft.ifft are their defining sums over the reals (a complex
    number is a pair); rounding is not modelled. *)
From Coq Require Import List Arith ZArith Lia Bool Reals.
From Verif Require Import Base Transform_model.
Import ListNotations.
Open Scope R_scope.

Definition cadd (x y : R * R) : R * R := (fst x + fst y, snd x + snd y).
Definition cmul (x y : R * R) : R * R := (fst x * fst y - snd x * snd y, fst x * snd y + snd x * fst y).
Definition csum (l : list (R * R)) : R * R := fold_right cadd (0, 0) l.

(** The angle of [j * t] steps of a full circle in [n] steps. *)
Definition angle (n j t : nat) : R := 2 * PI * INR (j * t) / INR n.

(** np.fft.fft: entry [j] is the sum over [t] of v_t * exp(-2 pi i j t / n). *)
Definition fft (values : list R) : list (R * R) :=
  let n := length values in
  map (fun j => csum (map (fun t => cmul (nth t values 0, 0) (cos (angle n j t), - sin (angle n j t))) (seq 0 n))) (seq 0 n).

(** np.fft.ifft: entry [t] is the sum over [j] of z_j * exp(2 pi i j t / n), over [n]. *)
Definition ifft (trans : list (R * R)) : list (R * R) :=
  let n := length trans in
  map (fun t =>
    let s := csum (map (fun j => cmul (nth j trans (0, 0)) (cos (angle n j t), sin (angle n j t))) (seq 0 n)) in
    (fst s / INR n, snd s / INR n)) (seq 0 n).

(** pyx:294-325 *)
Definition spectral_residual_transform (values : list R) : list R :=
  map (fun z => R_sqrt.sqrt (fst z ^ 2 + snd z ^ 2)) (ifft (residual_core (fft values))).
