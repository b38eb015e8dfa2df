(** Vocabulary for how strict a test is. *)
From Coq Require Import List Arith ZArith QArith Qcanon.
From Verif Require Import Base Num.
Open Scope nat_scope.

(** The square root routine is exact at [x]. *)
Definition exact_root (sqrt : Qc -> Qc) (x : Qc) : Prop := (0 <= sqrt x)%Qc /\ (sqrt x * sqrt x)%Qc = x.

(** A quantile function: rising, not negative above one half. *)
Definition rising (q : Qc -> Z -> Qc) : Prop := forall d x y, (x <= y)%Qc -> (q x d <= q y d)%Qc.
Definition centred (q : Qc -> Z -> Qc) : Prop := forall d x, (Q2Qc (1 # 2) <= x)%Qc -> (0 <= q x d)%Qc.
