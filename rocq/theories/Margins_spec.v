(** Specifications for margins, flags and scores. *)
From Coq Require Import List Arith ZArith Lia Bool.
From Verif Require Import Base Num Margins_model.
Import ListNotations.
Open Scope Qc_scope.

(** The reported band and the three positions of a value. *)
Definition above (o : outcome) (v : Qc) : Prop := o_expected o + o_upper o < v.
Definition below (o : outcome) (v : Qc) : Prop := v < o_expected o - o_lower o.
Definition inside (o : outcome) (v : Qc) : Prop :=
  o_expected o - o_lower o <= v /\ v <= o_expected o + o_upper o.

(** What the detectors deliver (property C09): an anomaly is exactly one of
    positive and negative, above or below its expected value. *)
Definition consistent_row (r : row) : Prop :=
  match r_anomaly r, r_neg r, r_pos r with
  | false, false, false => True
  | true, false, true => r_expected r < r_value r
  | true, true, false => r_value r < r_expected r
  | _, _, _ => False
  end.
Definition consistent_outcome (v : Qc) (o : outcome) : Prop :=
  match o_anomaly o, o_neg o, o_pos o with
  | false, false, false => inside o v
  | true, false, true => above o v
  | true, true, false => below o v
  | _, _, _ => False
  end.

(** The sensitivity table, as a function. *)
Definition factor (s : nat) : Qc := nth s factors 0.

(** [P] holds of every (row, outcome) pair, and there are as many outcomes as rows. *)
Definition rowwise (rows : list row) (outs : list outcome) (P : row -> outcome -> Prop) : Prop :=
  length outs = length rows /\
  forall i r o, nth_error rows i = Some r -> nth_error outs i = Some o -> P r o.
