(** Specification for parameters left out or unknown (C119). *)
From Coq Require Import String List ZArith QArith Qcanon.
From Verif Require Import Base Num Request_model.
Import ListNotations.
Open Scope string_scope.

(** The values a request has when it does not say. *)
Definition defaults : list (string * pyval) :=
  [ ("granularity", VStr "none"); ("alpha", VFloat (Q2Qc (5 # 100))); ("maxAnomalyRatio", VFloat (Q2Qc (25 # 100)));
    ("sensitivity", VInt 99); ("threshold", VFloat (Q2Qc (35 # 10))); ("imputeMode", VNone); ("imputeMode", VStr "auto");
    ("fillUpMode", VNone); ("fillUpMode", VStr "auto"); ("boundaryVersion", VNone); ("boundaryVersion", VStr "V1") ].
(** The keys that mean something in a request (univariate_anomaly_detection.py:97-253), the one for the kind of detection,
    and the one the code itself writes to. *)
Definition known_keys : list string :=
  [ "granularity"; "customInterval"; "period"; "alpha"; "maxAnomalyRatio"; "sensitivity"; "threshold"; "imputeMode"; "imputeFixedValue";
    "fillUpMode"; "fixedValue"; "boundaryVersion"; "detector"; "detect_mode"; "indices";
    "needSpectrumPeriod" ].
