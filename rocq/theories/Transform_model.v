(** Model of the spectral residual transform between the two Fourier
    transforms: spectral_residual_transform_core in
    /repo/src/anomaly_detector/univariate/_anomaly_kernel_cython.pyx. *)
From Coq Require Import List Arith ZArith Lia Bool Reals SpecFloat.
From Verif Require Import Base Helpers_model.
Import ListNotations.
Open Scope nat_scope.

(** * pyx:309-325, the running product over the magnitudes, over the reals.
    [seen] are the magnitudes before position [i], nearest first. For a
    positive base C pow is exp(y * ln x). *)
Open Scope R_scope.
Fixpoint amplitudes (current : R) (i : nat) (seen mag : list R) : list R :=
  match mag with
  | [] => []
  | d :: t =>
      let current := if Rlt_dec 0 d then current * d else current in
      if (i <? 3)%nat then Rpower current (1 / INR (i + 1)) :: amplitudes current (S i) (d :: seen) t
      else
        let old := nth 2 seen 0 in
        let current := if Rlt_dec 0 old then current / old else current in
        Rpower current (1 / 3) :: amplitudes current (S i) (d :: seen) t
  end.
(** pyx:294-322 between the two Fourier transforms, a complex number being a
    pair. *)
Definition residual_core (trans : list (R * R)) : list (R * R) :=
  let mag := map (fun z => R_sqrt.sqrt (fst z ^ 2 + snd z ^ 2)) trans in
  let amplitude := amplitudes 1 0 [] mag in
  zip_with (fun z a => (if Req_EM_T a 0 then 0 else fst z / a, if Req_EM_T a 0 then 0 else snd z / a)) trans amplitude.
Close Scope R_scope.

(** The same product in binary64: the value of [current] after each position
    (before the root is taken). *)
Definition sf_pos (x : spec_float) : bool := SFltb (S754_zero false) x.
Fixpoint running_product (current : spec_float) (i : nat) (seen mag : list spec_float) : list spec_float :=
  match mag with
  | [] => []
  | d :: t =>
      let current := if sf_pos d then SFmul 53 1024 current d else current in
      let old := nth 2 seen (S754_zero false) in
      let current := if (i <? 3) then current
                     else if sf_pos old then SFdiv 53 1024 current old else current in
      current :: running_product current (S i) (d :: seen) t
  end.
