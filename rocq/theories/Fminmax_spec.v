(** Specification for the scaling of multivariate inputs in floating point. *)
From Coq Require Import List Arith ZArith Lia Bool.
From Verif Require Import Base Num.
Import ListNotations.

(** Where [x] lies in the range of its variable seen in training. *)
Definition position (mn mx x : Qc) : Qc := ((x - mn) / (mx - mn + Q2Qc (1 # 100000000)))%Qc.
(** The precision of one float step at 1, 2^-23. *)
Definition float_step : Qc := Q2Qc (1 # 8388608).
