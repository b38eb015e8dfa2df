(** The tabulated critical values (C115). *)
From Coq Require Import List ZArith QArith Qcanon.
From Verif Require Import Base Num Table_data.
Import ListNotations.

(** src/anomaly_detector/univariate/util/critical_table_values.py:1 as exact numbers. *)
Definition critical_table : list Qc := map (fun z => (qz z / qz (2 ^ 23))%Qc) table_values.
