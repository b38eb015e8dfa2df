(** minmax_normalize (/repo/src/anomaly_detector/multivariate/util.py:35-43) in
    doubles, and the conversion of windows and targets to floats
    (multivariate/dataset.py:72-81). Overflow is not modelled: it cannot occur
    while differences stay below 1e299 (quotients: the divisor is at least 1e-8). *)
From Coq Require Import List Arith ZArith Lia Bool.
From Verif Require Import Base Num Single_model Mv_model.
Import ListNotations.

(** The double written 1e-8. *)
Definition deps8 : Qc := double eps8.
(** util.py:36-38, one number *)
Definition dminmax1 (x mn mx clip_min clip_max : Qc) : Qc :=
  clip clip_min clip_max (double (double (x - mn) / double (double (mx - mn) + deps8)))%Qc.
(** dataset.py:73-81: scaled and converted with .type(torch.float) *)
Definition finput (x mn mx clip_min clip_max : Qc) : Qc := single (dminmax1 x mn mx clip_min clip_max).
Fixpoint finput_row (row mn mx : list Qc) (lo hi : Qc) : res (list Qc) :=
  match row, mn, mx with
  | [], [], [] => Ok []
  | x :: r, a :: s, b :: t => do o <- finput_row r s t lo hi; Ok (finput x a b lo hi :: o)
  | _, _, _ => Err ValueErr
  end.
