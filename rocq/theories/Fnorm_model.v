(** normalize (/repo/src/anomaly_detector/univariate/util/helpers.py:249-256) in
    doubles. The validator limits values to 1e100 in magnitude
    (univariate_anomaly_detection.py:60), so nothing overflows. *)
From Coq Require Import List Arith ZArith Lia Bool.
From Verif Require Import Base Num Single_model.
Import ListNotations.

Definition dnormalize (values : list Qc) : list Qc :=
  let mn := qmin_list values in
  let mx := qmax_list values in
  if (mn =? mx)%Qc then values
  else map (fun v => double (double (v - mn) / double (mx - mn)))%Qc values.
