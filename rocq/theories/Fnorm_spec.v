(** Specification for the scaling of a series. *)
From Coq Require Import List Arith ZArith Lia Bool.
From Verif Require Import Base Num.
Import ListNotations.

(** Where [v] lies between [lo] and [hi], as a fraction. *)
Definition scaled (lo hi v : Qc) : Qc := ((v - lo) / (hi - lo))%Qc.

(** [lo] and [hi] are the least and the greatest of the values, and differ. *)
Definition spans (lo hi : Qc) (values : list Qc) : Prop :=
  In lo values /\ In hi values /\ (forall v, In v values -> lo <= v /\ v <= hi)%Qc /\ (lo < hi)%Qc.
