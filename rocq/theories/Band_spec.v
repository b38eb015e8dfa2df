(** Specification for the width of the band (C118). *)
From Coq Require Import List QArith Qcanon.
From Verif Require Import Base Num Margins_model Request_model Follow_spec.
Open Scope Qc_scope.

(** Neither margin is larger in the second outcome. *)
Definition no_wider (o o' : outcome) : Prop := o_upper o' <= o_upper o /\ o_lower o' <= o_lower o.
(** A margin that is larger is at most 1.01 times the distance of the value. *)
Definition hardly_wider (v : Qc) (o o' : outcome) : Prop :=
  let d := Q2Qc (101 # 100) * Qcabs (v - o_expected o) in
  (o_upper o' <= o_upper o \/ o_upper o' <= d) /\ (o_lower o' <= o_lower o \/ o_lower o' <= d).
