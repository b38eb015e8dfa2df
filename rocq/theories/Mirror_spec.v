(** Vocabulary for turning a series upside down. *)
From Coq Require Import List Arith ZArith QArith Qcanon.
From Verif Require Import Base Num Sorting Kernel_spec FillUp_model Helpers_model Margins_model SR_model Detect_model Units_spec.
Import ListNotations.
Open Scope nat_scope.

(** [in_unit minus 0 l] is the series with every value negated. *)
Definition minus : Qc := (- (1))%Qc.

(** Row [r'] says of the negated point what [r] says of the point: the two
    directions are exchanged. Where the value is the expected value neither
    direction is right, and nothing is said about the directions. *)
Definition turned (nt : bool) (r r' : row) : Prop :=
  r_value r' = (- r_value r)%Qc /\ r_expected r' = (- r_expected r)%Qc /\
  (nt = true -> r_trend r' = (- r_trend r)%Qc) /\ r_score r' = r_score r /\ r_anomaly r' = r_anomaly r /\
  (r_value r <> r_expected r -> r_neg r' = r_pos r /\ r_pos r' = r_neg r).
(** The same with the directions exchanged in every row. *)
Definition exchanged (nt : bool) (r r' : row) : Prop :=
  turned nt r r' /\ r_neg r' = r_pos r /\ r_pos r' = r_neg r.

(** The standard deviation sees neither the sign, nor the origin, nor the order. *)
Definition even_spread (std : list Qc -> Qc) : Prop :=
  (forall c s, std (in_unit minus c s) = std s) /\ (forall s, std (rev s) = std s).

(** Sorting the series upside down gives the opposite order, also among equal
    values. *)
Definition opposite_order (sort : list (nat * Qc) -> list (nat * Qc)) (s : list Qc) : Prop :=
  forall c, sort (combine (range (length s)) (in_unit minus c s)) =
    rev (map (fun p => (fst p, c - snd p)%Qc) (sort (combine (range (length s)) s))).

(** How often a value occurs. *)
Definition copies (m : Qc) (s : list Qc) : nat := length (filter (fun x => Qceqb x m) s).
(** No tolerance is touched when looking for a majority value: either the
    median absolute deviation is more than 1e-8 of the range, or more than half
    of the points have one value, which is the smallest, or the largest, or
    more than 1/50000 of the range away from both. *)
Definition settled (cst : Qc) (s : list Qc) : Prop :=
  let lo := qmin_list s in let hi := qmax_list s in
  (lo < hi /\ Q2Qc (1 # 100000000) * (hi - lo) < Qcabs (mad s / cst))%Qc \/
  exists m, length s < 2 * copies m s /\
    ((m = lo \/ m = hi) \/ (Q2Qc (1 # 50000) * (hi - lo) < m - lo /\ Q2Qc (1 # 50000) * (hi - lo) < hi - m)%Qc).

(** The series as the tests see it: moved into [0, 1] unless constant. *)
Definition rescaled01 (s z : list Qc) : Prop := exists mn mx, normalize s = Ok (z, mn, mx).

(** A series whose reading does not depend on ties or tolerances. *)
Definition even_handed (cst : Qc) (sort : list (nat * Qc) -> list (nat * Qc)) (s : list Qc) : Prop :=
  (NoDup s \/ forall z, rescaled01 s z -> opposite_order sort z) /\ settled cst s.

(** The series, or the differenced one the detector tries as well. *)
Definition looked_at (stationary : list Qc -> bool) (series s : list Qc) : Prop :=
  s = series \/ exists z, (0 < z)%Z /\ should_include_delta stationary series = Ok (z, s).

(** Two answers of the detector: the same period, model and fill flag, and the
    rows upside down. *)
Definition turned_report (nt : bool) (r r' : list row * nat * model_id * bool) : Prop :=
  let '(rows, p, m, fl) := r in let '(rows', p', m', fl') := r' in
  p' = p /\ m' = m /\ fl' = fl /\ Forall2 (turned nt) rows rows'.
Definition exchanged_report (nt : bool) (r r' : list row * nat * model_id * bool) : Prop :=
  let '(rows, p, m, fl) := r in let '(rows', p', m', fl') := r' in
  p' = p /\ m' = m /\ fl' = fl /\ Forall2 (exchanged nt) rows rows'.

(** The series the detectors test, none of which depends on ties or tolerances:
    the analysed series, its differences, and with a period the series without
    its seasonal component and the remainder. *)
Definition evenly_read (cst : Qc) (sort : list (nat * Qc) -> list (nat * Qc)) (stationary : list Qc -> bool)
    (decompose : bool -> list Qc -> nat -> res (list Qc * list Qc)) (lm : bool) (s : list Qc) : Prop :=
  (forall x, looked_at stationary s x -> even_handed cst sort x) /\
  (forall p t c, 1 < p -> decompose lm s p = Ok (t, c) -> length t = length s -> length c = length s ->
     let d := zip_with (fun a b => (a - b)%Qc) s c in
     even_handed cst sort d /\ even_handed cst sort (zip_with (fun a b => (a - b)%Qc) d t)).

(** The outcome of the negated point: expected value negated, directions
    exchanged, everything else the same. *)
Definition flipped (o o' : outcome) : Prop :=
  o_expected o' = (- o_expected o)%Qc /\ o_neg o' = o_pos o /\ o_pos o' = o_neg o /\ o_anomaly o' = o_anomaly o /\
  o_severity o' = o_severity o /\ o_unit o' = o_unit o /\ o_score o' = o_score o.
Definition swapped_margins (o o' : outcome) : Prop := o_upper o' = o_lower o /\ o_lower o' = o_upper o.

(** Half the width of the band before tightening, version 1: a share of the
    expected value, or for the spectral residuals of the deviation per score (a
    hundredth of the range of the scoreless points where there is no score). *)
Definition half_width (sr : bool) (sens : Qc) (rows : list row) (r : row) : Qc :=
  if sr then
    if (r_score r <=? EPS)%Qc then
      let quiet := map r_value (filter (fun r => r_score r <=? EPS)%Qc rows) in
      ((qmax_list quiet - qmin_list quiet) * Q2Qc (1 # 100))%Qc
    else (Qcabs (r_value r - r_expected r) / r_score r * (1 - sens / Q2Qc 100))%Qc
  else (Qcabs (r_expected r) * (Q2Qc 100 - sens) / Q2Qc 100)%Qc.
(** Some lower boundary is not below all the data, some upper boundary not
    above. *)
Definition band_reaches (w : row -> Qc) (rows : list row) : Prop :=
  (exists r q, In r rows /\ In q rows /\ (r_value q <= r_expected r - w r \/ r_expected q <= r_expected r - w r)%Qc) /\
  (exists r q, In r rows /\ In q rows /\ (r_expected r + w r <= r_value q \/ r_expected r + w r <= r_expected q)%Qc).
