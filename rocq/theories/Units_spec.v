(** Vocabulary for changing the unit and the origin of a series. *)
From Coq Require Import List Arith ZArith QArith Qcanon.
From Verif Require Import Base Num FillUp_model Helpers_model Margins_model SR_model Detect_model.
Import ListNotations.
Open Scope nat_scope.

(** The same series in other units: [k] new units make an old one, the old
    zero is at [b]. *)
Definition in_unit (k b : Qc) (l : list Qc) : list Qc := map (fun x => k * x + b)%Qc l.

(** Both fail the same way or both answer, with related answers. *)
Definition answers_alike {A B} (R : A -> B -> Prop) (x : res A) (y : res B) : Prop :=
  match x, y with
  | Ok a, Ok b => R a b
  | Err e, Err f => e = f
  | _, _ => False
  end.

(** What is expected of the libraries: the trend and the trend component move
    along, the seasonal component and the differences are only scaled, the
    stationarity tests do not see the unit. *)
Definition trend_in_unit (k b : Qc) (td : list Qc -> option nat -> res (list Qc)) : Prop :=
  forall s p, answers_alike (fun t t' => t' = in_unit k b t) (td s p) (td (in_unit k b s) p).
Definition parts_in_unit (k b : Qc) (dec : bool -> list Qc -> nat -> res (list Qc * list Qc)) (s : list Qc) (p : nat) : Prop :=
  forall adj, answers_alike (fun d d' => fst d' = in_unit k b (fst d) /\ snd d' = in_unit k 0 (snd d))
    (dec adj s p) (dec adj (in_unit k b s) p).
Definition unit_blind (k b : Qc) (test : list Qc -> bool) : Prop := forall s, test (in_unit k b s) = test s.

(** Row [r'] says of the moved point what [r] says of the point. [nt] says
    whether there is a Trend column. *)
Definition moved (k b : Qc) (nt : bool) (r r' : row) : Prop :=
  r_value r' = (k * r_value r + b)%Qc /\ r_expected r' = (k * r_expected r + b)%Qc /\
  (nt = true -> r_trend r' = (k * r_trend r + b)%Qc) /\ r_score r' = r_score r /\
  r_anomaly r' = r_anomaly r /\ r_neg r' = r_neg r /\ r_pos r' = r_pos r.

(** A series with gaps, and the gap filler's input, in the other unit; the
    spline through moved knots is the moved spline. *)
Definition cells_in_unit (k b : Qc) (l : list (option Qc)) : list (option Qc) := map (option_map (fun x => k * x + b)%Qc) l.
Definition fup_in_unit (k b : Qc) (f : fup) : fup :=
  mkFup (f_indices f) (in_unit k b (f_values f)) (f_all f) (f_need f) (f_missing f) (f_tags f) (f_fmc f) (f_mc f).
Definition spline_in_unit (k b : Qc) (spline : list nat -> list Qc -> nat -> Qc) : Prop :=
  forall idx vals x, vals <> [] -> spline idx (in_unit k b vals) x = (k * spline idx vals x + b)%Qc.

(** The spectral residual transform does not see the scale, and the standard
    deviation scales along. *)
Definition scale_blind (k : Qc) (transform : list Qc -> list Qc) : Prop := forall s, transform (in_unit k 0 s) = transform s.
Definition spread_in_unit (k : Qc) (std : list Qc -> Qc) : Prop := forall s, std (in_unit k 0 s) = (k * std s)%Qc.

(** Nothing depends on which side of 1e-8 a magnitude is. *)
Definition same_side (k x : Qc) : Prop := (Qcabs x < EPS)%Qc <-> (k * Qcabs x < EPS)%Qc.

(** The detector's arguments in the other unit. *)
Definition args_in_unit (k b : Qc) (a : args) : args :=
  mkArgs (in_unit k b (a_values a)) (fup_in_unit k b (a_fup a)) (a_mode a) (option_map (fun x => k * x + b)%Qc (a_fixed a))
    (a_ratio a) (a_alpha a) (a_threshold a) (a_need_trend a) (a_majority a) (a_gran a) (a_interval a).

(** The detector may look for spectral residuals: sub-hourly data, as far as the
    granularity tells. *)
Definition fine_grained (a : args) : bool :=
  match a_gran a with
  | Minutely => (match a_interval a with Some i => i | None => 1 end) <? 60
  | Secondly => (match a_interval a with Some i => i | None => 1 end) <? 60 * 60
  | _ => false
  end.

(** The series handed to the detectors: the request's, or a filled one. *)
Definition analysed (spline : list nat -> list Qc -> nat -> Qc) (a : args) (s : list Qc) : Prop :=
  s = a_values a \/ exists (p : nat) tags,
    fill_up_on_demand spline (a_fup a) (a_mode a) (a_fixed a) (Some (Z.of_nat p)) = Ok (Some (map Some s, tags)).

(** Two answers of the detector: the same period, model and fill flag, and the
    rows moved along. *)
Definition same_report (k b : Qc) (nt : bool) (r r' : list row * nat * model_id * bool) : Prop :=
  let '(rows, p, m, fl) := r in let '(rows', p', m', fl') := r' in
  p' = p /\ m' = m /\ fl' = fl /\ Forall2 (moved k b nt) rows rows'.

(** The refined row of the moved point: flags that do not hinge on the 1e-8
    tolerance stay, and in a finer unit no anomaly is lost. *)
Definition retold (k b : Qc) (nt : bool) (r r' : row) : Prop :=
  r_value r' = (k * r_value r + b)%Qc /\ r_expected r' = (k * r_expected r + b)%Qc /\
  (nt = true -> r_trend r' = (k * r_trend r + b)%Qc) /\ r_score r' = r_score r /\
  (same_side k (r_value r - r_expected r)%Qc \/ ((1 <= k)%Qc /\ r_anomaly r = true) ->
   r_anomaly r' = r_anomaly r /\ r_neg r' = r_neg r /\ r_pos r' = r_pos r).
Definition same_answer_rows (k b : Qc) (nt : bool) (r r' : list row * nat * model_id * bool) : Prop :=
  let '(rows, p, m, fl) := r in let '(rows', p', m', fl') := r' in
  p' = p /\ m' = m /\ fl' = fl /\ Forall2 (retold k b nt) rows rows'.

(** The reported outcome of a point of value [v] in units of [1/k]: expected
    value and margins scale, flags and severity stay. *)
Definition rescaled (k v : Qc) (o o' : outcome) : Prop :=
  o_expected o' = (k * o_expected o)%Qc /\
  (same_side k (v - o_expected o)%Qc \/ ((1 <= k)%Qc /\ o_anomaly o = true) ->
   o_upper o' = (k * o_upper o)%Qc /\ o_lower o' = (k * o_lower o)%Qc /\
   o_anomaly o' = o_anomaly o /\ o_neg o' = o_neg o /\ o_pos o' = o_pos o /\
   ((EPS < Qcabs (o_expected o))%Qc -> (EPS < k * Qcabs (o_expected o))%Qc -> o_severity o' = o_severity o)).

(** Version 2 of the margins: half the mean size of the trend over the points
    not reported is at least 0.3 in both units. *)
Definition loud (k : Qc) (rows : list row) : Prop :=
  let sizes := map (fun r => Qcabs (r_trend r)) (filter (fun r => negb (r_anomaly r)) rows) in
  sizes <> [] /\ (MIN_UNIT <= qmean sizes * Q2Qc (1 # 2))%Qc /\ (MIN_UNIT <= k * qmean sizes * Q2Qc (1 # 2))%Qc.
Definition rescaled_v2 (k : Qc) (o o' : outcome) : Prop :=
  o_expected o' = (k * o_expected o)%Qc /\ o_upper o' = (k * o_upper o)%Qc /\ o_lower o' = (k * o_lower o)%Qc /\
  o_neg o' = o_neg o /\ o_pos o' = o_pos o /\ o_anomaly o' = o_anomaly o /\ o_severity o' = o_severity o /\
  o_unit o' = option_map (fun u => k * u)%Qc (o_unit o) /\ o_score o' = o_score o.
