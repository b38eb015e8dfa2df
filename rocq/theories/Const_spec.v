(** Specifications for constant series (C96). *)
From Coq Require Import List Arith QArith Qcanon.
From Verif Require Import Base Num Margins_model Stl_model Request_model Pipe_model.
Import ListNotations.
Open Scope nat_scope.

(** Every entry is [c]. *)
Definition all_eq (c : Qc) (l : list Qc) : Prop := forall x, In x l -> x = c.

(** What the libraries do to constants: the spline and the straightened ends of
    a constant are that constant, and it decomposes into trend alone. *)
Definition keeps_constants (f : list Qc -> nat -> res (list Qc)) : Prop :=
  forall c s w t, all_eq c s -> f s w = Ok t -> all_eq c t.
Definition trend_only (STL : list Qc -> nat -> res comps) : Prop :=
  forall c s np d, all_eq c s -> STL s np = Ok d -> all_eq 0%Qc (c_seasonal d) /\ all_eq c (c_trend d) /\ all_eq 0%Qc (c_remainder d).
Record steady (L : libs) : Prop := mkSteady {
  steady_aglet : keeps_constants (l_aglet L);
  steady_spline : keeps_constants (l_spline_filter L);
  steady_stl : trend_only (l_stl L) }.

(** A row that reports the value [c] as expected and normal. *)
Definition quiet_row (c : Qc) (r : row) : Prop :=
  r_value r = c /\ r_expected r = c /\ r_anomaly r = false /\ r_neg r = false /\ r_pos r = false.
(** An outcome that says the same. *)
Definition quiet_outcome (c : Qc) (o : outcome) : Prop :=
  o_expected o = c /\ o_anomaly o = false /\ o_neg o = false /\ o_pos o = false /\ o_severity o = 0%Qc.
(** An answer in which every outcome does, with period [p]. *)
Definition quiet_reply {T} (c : Qc) (p : nat) (y : reply T) : Prop :=
  match y with
  | AEntire _ l q => q = p /\ forall t o, In (t, o) l -> quiet_outcome c o
  | ALatest _ _ o q _ => q = p /\ quiet_outcome c o
  end.
