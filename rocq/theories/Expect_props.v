(** Property C98: what the expected values are made of. *)
From Coq Require Import String List Arith ZArith QArith Qcanon Qround Lia Lqa Bool Sorted Permutation.
From Verif Require Import Base Num Sorting Kernel_model Kernel_props FillUp_model FillUp_spec FillUp_proofs6 FillUp_props
  Helpers_model Helpers_spec Helpers_props Margins_model SR_model Detect_model Detect_spec Detect_proofs Detect_proofs6 Detect_props
  Detect_proofs7 Stl_props Pipe_model Pipe_spec Pipe_props Expect_spec Expect_proofs.
Import ListNotations.
Open Scope nat_scope.

Section Props.
Variable cst : Qc.
Variable std : list Qc -> Qc.
Variable ppf : Qc -> Z -> Qc.
Variable sqrt : Qc -> Qc.
Variable table : list Qc.
Variable sort sort_desc : list (nat * Qc) -> list (nat * Qc).
Variable trend_detection : list Qc -> option nat -> res (list Qc).
Variable decompose : bool -> list Qc -> nat -> res (list Qc * list Qc).
Variable transform : list Qc -> list Qc.
Variable stationary : list Qc -> bool.
Variable spline : list nat -> list Qc -> nat -> Qc.
Variable period_detection : list (option Qc) -> res nat.
Hypothesis SU : sorts_up sort.

Notation detect := (detect_model cst std ppf sqrt table sort sort_desc trend_detection decompose transform
  stationary spline period_detection).

(** C98. The seasonal detector expects the seasonal value on top of a trend in
    which the stretches it reported (and a last half period it reported mostly)
    are bridged by straight lines. *)
Theorem C98_seasonal_expected : forall series period alpha ratio adjust need_trend lm trend season rows m, 1 < period ->
  decompose adjust series period = Ok (trend, season) ->
  seasonal_series_detection cst std ppf sqrt table sort decompose series period alpha ratio adjust need_trend lm = Ok (rows, m) ->
  length rows = length series /\
  exists T, bridged (untrusted rows period) trend T /\ length season = length T /\
    (forall i r, nth_error rows i = Some r -> exists t s, nth_error T i = Some t /\ nth_error season i = Some s /\
       r_expected r = (t + s)%Qc /\ (need_trend = true -> r_trend r = t)).
Proof.
  intros series period alpha ratio adjust nt lm trend season rows m HP ED H.
  destruct (seasonal_expected cst std ppf sqrt table sort SU decompose _ _ _ _ _ _ _ _ _ _ _ HP ED H) as (LT & LS & LR & T & B & EX & TR).
  split; auto. exists T. assert (LB : length T = length trend) by (destruct B as (k & _ & X & _); auto).
  split; auto. split; [lia|]. intros i r Hr. assert (Hi : i < length series) by (rewrite <- LR; eapply nth_error_lt; eauto).
  destruct (nth_error_ex _ T i ltac:(lia)) as [t Ht]. destruct (nth_error_ex _ season i ltac:(lia)) as [s Hs].
  exists t, s. split; auto. split; auto. split.
  - assert (E : nth_error (map r_expected rows) i = Some (r_expected r)) by (rewrite nth_error_map, Hr; auto).
    rewrite EX, (zip_with_nth _ _ _ Qcplus T season i t s Ht Hs) in E. congruence.
  - intros N. specialize (TR N). assert (E : nth_error (map r_trend rows) i = Some (r_trend r)) by (rewrite nth_error_map, Hr; auto).
    rewrite TR in E. congruence.
Qed.

(** C98. The dynamic-threshold detector expects the trend it was given when it
    reports nothing, and otherwise the trend of the series in which the points
    it reports are bridged by straight lines. *)
Theorem C98_dynamic_expected : forall series trend alpha ratio need_trend lm rows m, 4 <= length series ->
  dynamic_threshold_detection cst std ppf sqrt table sort trend_detection series trend alpha ratio need_trend lm = Ok (rows, m) ->
  map r_value rows = series /\ (need_trend = true -> map r_trend rows = map r_expected rows) /\
  (((forall i, ~ flagged rows i) /\ map r_expected rows = trend) \/
   ((exists i, flagged rows i) /\ exists s, bridged (flagged rows) series s /\ trend_detection s None = Ok (map r_expected rows))).
Proof.
  intros series trend alpha ratio nt lm rows m L4 H.
  destruct (dynamic_expected cst std ppf sqrt table sort SU decompose trend_detection _ _ _ _ _ _ _ _ L4 H) as (LR & V & TR & [C|(s & B & X & T)]); eauto 10.
Qed.

(** C98. How extreme the reported points are does not show in the expected
    values. *)
Theorem C98_reported_values_irrelevant : forall s1 s2 t1 t2 alpha ratio need_trend lm rows1 rows2 m1 m2,
  4 <= length s1 -> length s2 = length s1 ->
  dynamic_threshold_detection cst std ppf sqrt table sort trend_detection s1 t1 alpha ratio need_trend lm = Ok (rows1, m1) ->
  dynamic_threshold_detection cst std ppf sqrt table sort trend_detection s2 t2 alpha ratio need_trend lm = Ok (rows2, m2) ->
  (forall i, flagged rows1 i <-> flagged rows2 i) -> (exists i, flagged rows1 i) ->
  (forall i, ~ flagged rows1 i -> nth_error s1 i = nth_error s2 i) ->
  map r_expected rows1 = map r_expected rows2.
Proof. intros. eapply dynamic_blind; eauto. Qed.

(** C98. The answer for a seasonal series without gaps: [draft] is the report
    before points next to their expected value are withdrawn. *)
Theorem C98_seasonal_answer : forall a d period lm rows p m b trend season,
  f_need (a_fup a) = false -> detect a d period lm = Ok (rows, p, m, b) -> 1 < p ->
  decompose lm (a_values a) p = Ok (trend, season) ->
  length rows = length (a_values a) /\
  exists draft T, length draft = length rows /\
    bridged (untrusted draft p) trend T /\
    forall i r, nth_error rows i = Some r -> exists t s v,
      nth_error T i = Some t /\ nth_error season i = Some s /\ nth_error (a_values a) i = Some v /\
      r_value r = v /\ r_expected r = (t + s)%Qc /\
      (r_anomaly r = true <-> flagged draft i /\ ~ (Qcabs (v - (t + s)) < EPS)%Qc).
Proof.
  intros a d period lm rows p m b trend season NF H HP ED.
  apply detect_inv in H. destruct H as (rows0 & H & ->). unfold detect_with_model_selection in H. cbv zeta in H.
  bind_inv H. rename a0 into q. destruct ((1 <? q) && _); [discriminate H|].
  bind_inv H. rename a0 into filled. assert (FN : filled = None).
  { destruct ((1 <? q) || _); [|congruence]. unfold fill_up_on_demand in E0.
    destruct (a_mode a); try congruence; unfold fill_up in E0; rewrite NF in E0; simpl in E0; congruence. }
  subst filled. rewrite bind_ok in H. bind_inv H. inversion H; subst. clear H. destruct a0 as [rw mm]. cbn [fst snd].
  rewrite (proj2 (Nat.ltb_lt _ _) HP) in E1.
  assert (V : map r_value rw = a_values a) by (apply ts_frame in E1; apply E1).
  destruct (C98_seasonal_expected _ _ _ _ _ _ _ _ _ _ _ HP ED E1) as (LR & T & B & LS & X).
  rewrite map_length. split; auto. exists rw, T. split; auto. split; auto.
  intros i r Hr. rewrite nth_error_map in Hr. destruct (nth_error rw i) as [r0|] eqn:E2; [|discriminate]. inversion Hr; subst r. clear Hr.
  destruct (X i r0 E2) as (t & s & A1 & A2 & A3 & _). exists t, s, (r_value r0). split; auto. split; auto.
  assert (EV : nth_error (a_values a) i = Some (r_value r0)) by (rewrite <- V, nth_error_map, E2; auto). split; auto.
  unfold refine_row_flags. rewrite A3. destruct (Qcabs (r_value r0 - (t + s)) <? EPS)%Qc eqn:EE; cbn [r_value r_expected r_anomaly].
  - apply Qcltb_lt in EE. split; auto. split; auto. split; [discriminate|]. intros [_ N]. contradiction.
  - apply Qcltb_ge in EE. split; auto. split; auto. split.
    + intros A. split; [exists r0; auto|]. apply Qcle_not_lt. auto.
    + intros [(r1 & R1 & A) _]. congruence.
Qed.
End Props.
Print Assumptions C98_seasonal_expected.
Print Assumptions C98_dynamic_expected.
Print Assumptions C98_reported_values_irrelevant.
Print Assumptions C98_seasonal_answer.

(** Twenty-four points alternating by 10 around a slope of one half, with
    outliers at points 4 and 22; the decomposition knows both. *)
Definition qs := map (fun z : Z => qz z).
Definition dip : list Qc := qs [10;0;11;1;90;2;13;3;14;4;15;5;16;6;17;7;18;8;19;9;20;10;-90;11]%Z.
Definition zig_parts (adjust : bool) (s : list Qc) (p : nat) : res (list Qc * list Qc) :=
  Ok (mapi (fun i _ => (Q2Qc 5 + qn i / Q2Qc 2)%Qc) s, mapi (fun i _ => if Nat.even i then Q2Qc 5 else (- Q2Qc 5)%Qc) s).
Definition tail4 (l : list row) := map (fun r => (this (r_value r), this (r_expected r), this (r_trend r), r_anomaly r)) (skipn 20 l).
(** One of the last two points is reported: the trend of both is dropped and
    the one before is carried on, 5 + 21/2. *)
Example C98_seasonal_example : exists rows m,
  seasonal_series_detection ppf34 half_std (fun _ _ => 1%Qc) (fun x => x) ex_critical sort_pairs zig_parts dip 4 (Q2Qc (1 # 20)) (Q2Qc (1 # 24))
    false true false = Ok (rows, m) /\
  tail4 rows = [(20, 20, 15, false); (10, 21 # 2, 31 # 2, false); (-90, 41 # 2, 31 # 2, true); (11, 21 # 2, 31 # 2, false)]%Q.
Proof. eexists _, _. split; vm_compute; reflexivity. Qed.

(** The same through the whole detector. *)
Definition dip_args : args :=
  mkArgs dip (mkFup [] [] 0 false 0 [] [] []) FMNo None (Q2Qc (1 # 24)) (Q2Qc (1 # 20)) (Q2Qc (7 # 2)) true (Q2Qc (1 # 10)) Daily (Some 1).
Example C98_answer_example : exists rows m b,
  f_need (a_fup dip_args) = false /\
  detect_model ppf34 half_std (fun _ _ => 1%Qc) (fun x => x) ex_critical sort_pairs (fun l => rev (sort_pairs l)) (fun s _ => Ok s) zig_parts
    (fun l => l) (fun _ => true) (fun _ _ _ => 0%Qc) (fun _ => Ok 4) dip_args (mkDet None None) None false = Ok (rows, 4, m, b) /\
  tail4 rows = [(20, 20, 15, false); (10, 21 # 2, 31 # 2, false); (-90, 41 # 2, 31 # 2, true); (11, 21 # 2, 31 # 2, false)]%Q.
Proof. eexists _, _, _. split; [reflexivity|]. split; vm_compute; reflexivity. Qed.

(** Points 50 and 70 at the same place: both are reported, 2 is expected. *)
Definition spiky (z : Z) : list Qc := qs [1;2;3;2;z;2;3;4;3;2;1;2]%Z.
Definition spiky_rows (z : Z) := dynamic_threshold_detection ppf34 half_std (fun _ _ => 1%Qc) (fun x => x) ex_critical sort_pairs (fun s _ => Ok s)
  (spiky z) (map (fun _ => 0%Qc) (spiky z)) (Q2Qc (1 # 20)) (Q2Qc (1 # 12)) true false.
Example C98_dynamic_example : exists r1 m1 r2 m2, spiky_rows 50 = Ok (r1, m1) /\ spiky_rows 70 = Ok (r2, m2) /\
  map r_anomaly r1 = [false; false; false; false; true; false; false; false; false; false; false; false] /\
  map r_anomaly r2 = map r_anomaly r1 /\
  map r_expected r1 = spiky 2 /\ map r_expected r2 = spiky 2.
Proof.
  eexists _, _, _, _. split; [vm_compute; reflexivity|]. split; [vm_compute; reflexivity|].
  split; [reflexivity|]. split; [reflexivity|]. split; cbn [map r_expected]; unfold spiky, qs; cbn [map];
    repeat (match goal with |- _ :: _ = _ :: _ => f_equal end); try (apply Qc_is_canon; vm_compute; reflexivity); reflexivity.
Qed.
(** Nothing reported: the given trend. *)
Example C98_quiet_example : exists rows m,
  dynamic_threshold_detection ppf34 half_std (fun _ _ => 1%Qc) (fun x => x) ex_critical sort_pairs (fun s _ => Ok s) (qs [1;1;1;1;1;1]%Z)
    (qs [3;4;5;6;7;8]%Z) (Q2Qc (1 # 20)) (Q2Qc (1 # 12)) true false = Ok (rows, m) /\
  map r_anomaly rows = repeat false 6 /\ map (fun r => this (r_expected r)) rows = [3; 4; 5; 6; 7; 8]%Q.
Proof. eexists _, _. split; [vm_compute; reflexivity|]. split; reflexivity. Qed.
