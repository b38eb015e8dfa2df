(** Properties C08, C09, C16, C39, C40, C62, C66 and C68: the univariate detection pipeline. *)
From Coq Require Import String List Arith ZArith QArith Qcanon Qround Lia Lqa Bool Sorted Permutation.
From Verif Require Import Base Num Sorting Kernel_model Kernel_spec Kernel_proofs Kernel_proofs2 Kernel_props
  FillUp_model FillUp_spec FillUp_proofs FillUp_proofs6 FillUp_props
  Helpers_model Helpers_proofs Helpers_proofs2 Helpers_props Margins_model Margins_spec Margins_props SR_model Detect_model Detect_spec
  Detect_proofs Detect_proofs2 Detect_proofs3 Detect_proofs4 Detect_proofs5 Detect_proofs6 Detect_proofs7.
Import ListNotations.
Open Scope nat_scope.

(** Margins on consistent rows, in either version. *)
Lemma flags_row : forall r, flags_consistent r -> consistent_row r.
Proof.
  intros r (A & P & N). assert (EP : (0 < EPS)%Qc) by reflexivity. unfold consistent_row.
  destruct (r_anomaly r), (r_neg r), (r_pos r); auto.
  - specialize (N eq_refl). specialize (P eq_refl). qlra.
  - specialize (N eq_refl). qlra.
  - specialize (P eq_refl). qlra.
  - destruct (proj1 A eq_refl) as [[X Y]|[X Y]]; discriminate.
  - specialize (N eq_refl). specialize (P eq_refl). qlra.
  - discriminate (proj2 A (or_intror (conj eq_refl eq_refl))).
  - discriminate (proj2 A (or_introl (conj eq_refl eq_refl))).
Qed.
Lemma margins_sound : forall v1 sr rows z os, (0 <= z <= 100)%Z -> Forall flags_consistent rows ->
  get_margins_entire v1 sr rows (qz z) = Ok os ->
  length os = length rows /\
  forall i r o, nth_error rows i = Some r -> nth_error os i = Some o ->
    consistent_outcome (r_value r) o /\ (0 <= o_upper o)%Qc /\ (0 <= o_lower o)%Qc.
Proof.
  intros v1 sr rows z os HZ FC H.
  assert (NE : rows <> []) by (intros X; subst rows; destruct v1, sr; discriminate H).
  destruct (C10_margins_nonnegative v1 sr rows z NE HZ) as (os' & E & L & M). rewrite E in H. inversion H; subst os'.
  split; auto. intros i r o Hr Ho. destruct (M i r o Hr Ho) as (ME & M1 & M2). split; auto.
  assert (CR : consistent_row r). { apply flags_row. rewrite Forall_forall in FC. apply FC. eapply nth_error_In; eauto. }
  destruct v1.
  - destruct (C11_v1_band_separates sr rows z NE HZ) as (os2 & E2 & _ & W). rewrite E in E2. inversion E2; subst os2.
    apply (W i r o Hr Ho); auto.
  - destruct (C12_v2_band_separates sr rows z NE HZ) as (os2 & E2 & _ & W). rewrite E in E2. inversion E2; subst os2.
    destruct (W i r o Hr Ho) as (P & N & A & _). unfold consistent_outcome.
    assert (NB : ~ (above o (r_value r) /\ below o (r_value r))) by (unfold above, below; intros [X Y]; qlra).
    destruct (o_anomaly o), (o_neg o), (o_pos o); try tauto.
    assert (X1 : ~ above o (r_value r)) by (intros X; apply P in X; discriminate).
      assert (X2 : ~ below o (r_value r)) by (intros X; apply N in X; discriminate).
      unfold inside, above, below in *. split; apply Qcnot_lt_le; auto.
Qed.

Section Props.
(** External routines: constants and statistics, sorting, trend extraction,
    STL, FFT, stationarity tests, splines, period detection. *)
Variable cst : Qc.
Variable std : list Qc -> Qc.
Variable ppf : Qc -> Z -> Qc.
Variable sqrt : Qc -> Qc.
Variable table : list Qc.
Variable sort sort_desc : list (nat * Qc) -> list (nat * Qc).
Variable trend_detection : list Qc -> option nat -> res (list Qc).
Variable decompose : bool -> list Qc -> nat -> res (list Qc * list Qc).
Variable transform : list Qc -> list Qc.
Variable stationary : list Qc -> bool.
Variable spline : list nat -> list Qc -> nat -> Qc.
Variable period_detection : list (option Qc) -> res nat.

Notation SR := (spectral_residual_detection transform std trend_detection sort_desc).
Notation DT := (dynamic_threshold_detection cst std ppf sqrt table sort trend_detection).
Notation TS := (seasonal_series_detection cst std ppf sqrt table sort decompose).
Notation detect := (detect_model cst std ppf sqrt table sort sort_desc trend_detection decompose transform
  stationary spline period_detection).
Notation entire := (predict_entire cst std ppf sqrt table sort sort_desc trend_detection decompose transform
  stationary spline period_detection).
Notation latest := (predict_last cst std ppf sqrt table sort sort_desc trend_detection decompose transform
  stationary spline period_detection).

(** C08. One row per submitted point, in the submitted order, with the
    submitted value; whatever was filled in between is gone again. *)
Theorem C08_one_row_per_point : forall ix a d period lm rows p m b,
  make_fup (Some ix) (map Some (a_values a)) default_maxlen = Ok (a_fup a) ->
  through_knots spline ix a ->
  detect a d period lm = Ok (rows, p, m, b) ->
  map r_value rows = a_values a.
Proof.
  intros ix a d period lm rows p m b HF HS H.
  destruct (detect_inv _ _ _ _ _ _ _ _ _ _ _ _ _ _ _ _ _ _ _ _ _ H) as (rows0 & E & ->).
  rewrite map_map. rewrite (map_ext _ r_value) by (intros r; apply refine_flags_value).
  eapply select_values; eauto.
Qed.

(** C09. The flags of every row are consistent. *)
Theorem C09_flags_consistent : forall a d period lm rows p m b,
  detect a d period lm = Ok (rows, p, m, b) -> Forall flags_consistent rows.
Proof.
  intros a d period lm rows p m b H.
  destruct (detect_inv _ _ _ _ _ _ _ _ _ _ _ _ _ _ _ _ _ _ _ _ _ H) as (rows0 & E & ->).
  destruct (select_inv _ _ _ _ _ _ _ _ _ _ _ _ _ _ _ _ _ _ _ _ E) as (series & frame & [V P] & _ & R).
  apply Forall_forall. intros r Hr. apply in_map_iff in Hr. destruct Hr as (r0 & <- & H0). apply refine_flags_consistent.
  rewrite Forall_forall in P. apply P.
  destruct R as [(_ & _ & ->)|(_ & full & tags & _ & _ & ->)]; auto. eapply drop_filled_in; eauto.
Qed.

(** C16. The number of anomalies of one answer: with the ratio's share q
    (rounded up, at least one) of the points the detector saw, never more than
    2q; never more than q from the spectral-residual model. The points seen
    are the submitted ones, or the whole grid after filling. *)
Theorem C16_anomaly_count_bounded : forall ix a d period lm rows p m b,
  make_fup (Some ix) (map Some (a_values a)) default_maxlen = Ok (a_fup a) ->
  through_knots spline ix a -> (0 <= a_ratio a)%Qc -> sorts_down sort_desc ->
  detect a d period lm = Ok (rows, p, m, b) ->
  exists q, allowed (if b then f_all (a_fup a) else length (a_values a)) (a_ratio a) q /\
    reported rows <= 2 * q /\
    (m = SpectralResidual \/ m = SpectralResidual_ZScore -> reported rows <= q).
Proof.
  intros ix a d period lm rows p m b HF HS HR SD H.
  destruct (detect_inv _ _ _ _ _ _ _ _ _ _ _ _ _ _ _ _ _ _ _ _ _ H) as (rows0 & E & ->).
  destruct (select_inv _ _ _ _ _ _ _ _ _ _ _ _ _ _ _ _ _ _ _ _ E) as (series & frame & _ & B & R).
  destruct (B HR) as (q & A & Q1 & Q2). { intros l. apply SD. }
  assert (C : reported (map refine_row_flags rows0) <= reported frame).
  { eapply Nat.le_trans; [apply reported_refine|]. destruct R as [(_ & _ & ->)|(_ & full & tags & _ & _ & ->)]; auto. apply reported_drop. }
  exists q. split; [|split; [lia|]].
  - destruct R as [(-> & -> & _)|(-> & full & tags & EF & -> & _)]; auto.
    destruct (demand_keeps _ ix a _ _ _ HF HS EF) as (_ & LF & _). rewrite map_length in LF. rewrite <- LF. auto.
  - intros X. specialize (Q2 X). lia.
Qed.

(** C16. A point flagged by the dynamic-threshold model is extreme: fewer than
    the quota's number of points lie strictly above it, or strictly below. *)
Theorem C16_flagged_points_are_extreme : forall series tv alpha ratio nt lm rows m i r v,
  sorts_up sort -> (forall s p, exists t, trend_detection s p = Ok t /\ length t = length s) ->
  4 <= length series -> length tv = length series ->
  DT series tv alpha ratio nt lm = Ok (rows, m) ->
  nth_error rows i = Some r -> r_anomaly r = true -> nth_error series i = Some v ->
  exists q, allowed (length series) ratio q /\ q <= length series / 2 - 1 /\
    (count_above series v < q \/ count_below series v < q).
Proof.
  intros series tv alpha ratio nt lm rows m i r v SU TD L4 LT H Hr AN Hv.
  destruct (dt_total cst std ppf sqrt table sort SU trend_detection TD series tv alpha ratio nt lm L4 LT)
    as (u & mn & mx & idx & m' & rows' & EN & ED & EF & LR & FL).
  rewrite EF in H. inversion H; subst rows' m'. clear H.
  assert (LU : length u = length series) by (apply normalize_len in EN; auto).
  destruct (dt_select cst std ppf sqrt table sort SU u alpha ratio lm ltac:(lia)) as (maj & e & idx' & m' & _ & _ & ED' & _ & _ & TL & _).
  rewrite ED in ED'. inversion ED'; subst idx' m'. clear ED'. rewrite LU in TL.
  rewrite (FL i r Hr) in AN. apply mem_nat_in in AN. destruct (TL i AN) as (upper & I).
  destruct (nth_error_ex _ u i) as [w Hw]; [rewrite LU; apply (nth_error_lt _ _ _ _ Hv)|].
  pose proof (tail_label_count sort SU u _ upper i w I Hw) as C.
  destruct (normalize_counts series u mn mx i v w EN Hv Hw) as [CA CB].
  destruct (dt_quota_allowed (length series) ratio) as (q & A & LQ).
  exists (Nat.min q (length series / 2 - 1)).
  assert (QM : dt_quota (length series) ratio <= length series / 2 - 1) by (unfold dt_quota; lia).
  assert (H1 : 1 <= length series / 2 - 1). { pose proof (Nat.div_le_mono 4 (length series) 2 ltac:(lia) L4) as X. change (4 / 2) with 2 in X. lia. }
  split; [|split; [lia|]].
  - destruct A as [->|A]; [left; lia|]. right. assert (LE : (qn (Nat.min q (length series / 2 - 1)) <= qn q)%Qc) by (apply qn_le; lia). qlra.
  - rewrite CA, CB. destruct upper; lia.
Qed.

(** C62. Merging the run on the differenced series: values stay, anomalies
    found before stay exactly as they were, a row changes only into a new
    anomaly; nothing changes when the series is stationary or the quota is
    used up. *)
Theorem C62_delta_only_adds : forall results func series ratio out,
  merge_with_delta stationary results func series ratio = Ok out ->
  length out = length results /\
  (forall i r r', nth_error results i = Some r -> nth_error out i = Some r' ->
     r_value r' = r_value r /\ (r_anomaly r = true -> r' = r) /\
     (r' <> r -> r_anomaly r' = true /\ 
        ((r_pos r' = true /\ r_neg r' = false /\ r_expected r' <= r_value r') \/
         (r_pos r' = false /\ r_neg r' = true /\ r_value r' <= r_expected r'))%Qc)) /\
  (stationary series = true -> out = results) /\
  ((forall q, q = 1 \/ (qn q <= qn (length series) * ratio)%Qc -> q <= reported results) -> out = results).
Proof.
  intros results func series ratio out H. destruct (merge_rows _ _ _ _ _ _ H) as [L R]. split; auto. split; [|split].
  - intros i r r' Hr Hr'. destruct (R i r r' Hr Hr') as [->|(V & A & A' & P)].
    + split; auto. split; auto. congruence.
    + split; auto. split; [congruence|]. intros _. split; auto. unfold pre_consistent in P. rewrite A' in P.
      destruct (r_neg r'), (r_pos r'); try (destruct P; fail); auto.
  - intros ST. unfold merge_with_delta in H. unfold should_include_delta in H. cbn [range seq include_loop] in H.
    rewrite ST, bind_ok in H. cbn [fst] in H. change (Z.of_nat 0 <=? 0)%Z with true in H. inversion H; auto.
  - intros HQ. destruct (merge_inv _ _ _ _ _ _ H) as [X|(delta & s' & diff & m & ED & DP & CQ & _)]; auto.
    exfalso. apply should_include_len in ED. rewrite ED in CQ. unfold count_anomalies in CQ. rewrite <- reported_filter in CQ.
    specialize (HQ (sr_quota (length series) ratio)). unfold sr_quota in HQ, CQ.
    set (z := Qfloor (this (qn (length series) * ratio)%Qc)) in *.
    assert (F : (qz z <= qn (length series) * ratio)%Qc).
    { pose proof (Qfloor_le (this (qn (length series) * ratio)%Qc)) as F. unfold Qcle. rewrite this_qz. exact F. }
    destruct (Nat.le_gt_cases (Z.to_nat z) 1) as [LE|GT]; [specialize (HQ ltac:(left; lia)); lia|].
    specialize (HQ ltac:(right; replace (Nat.max (Z.to_nat z) 1) with (Z.to_nat z) by lia; unfold qn; rewrite Z2Nat.id by lia; auto)). lia.
Qed.

(** C66. A whole answer: one outcome per submitted point, in order, beside its
    timestamp; a point is reported anomalous exactly when it lies outside its
    own band, positive above and negative below. *)
Theorem C66_entire_answer : forall T ix a d period v1 z (ts : list T) outs p,
  make_fup (Some ix) (map Some (a_values a)) default_maxlen = Ok (a_fup a) ->
  through_knots spline ix a -> (0 <= z <= 100)%Z ->
  entire a d period v1 (qz z) ts = Ok (outs, p) ->
  map fst outs = ts /\ length outs = length (a_values a) /\
  forall i t o v, nth_error outs i = Some (t, o) -> nth_error (a_values a) i = Some v ->
    consistent_outcome v o /\ (0 <= o_upper o)%Qc /\ (0 <= o_lower o)%Qc.
Proof.
  intros T ix a d period v1 z ts outs p HF HS HZ H. unfold predict_entire in H. bind_inv H. destruct a0 as [[[rows p0] m] b].
  destruct (length ts =? length rows) eqn:EL; [|discriminate H]. cbn [negb] in H. apply Nat.eqb_eq in EL.
  bind_inv H. rename a0 into os. inversion H; subst outs p0. clear H.
  pose proof (C08_one_row_per_point ix a d period false rows p m b HF HS E) as V.
  pose proof (C09_flags_consistent a d period false rows p m b E) as FC.
  destruct (margins_sound v1 (is_sr m) rows z os HZ FC E0) as [LO SO].
  assert (Z1 : forall (l1 : list T) (l2 : list outcome), length l1 = length l2 -> map fst (zip_pair l1 l2) = l1 /\ length (zip_pair l1 l2) = length l1 /\
     forall i t o, nth_error (zip_pair l1 l2) i = Some (t, o) -> nth_error l2 i = Some o).
  { clear. induction l1 as [|x s IH]; intros [|y t] L; try discriminate; simpl.
    - split; auto. split; auto. intros [|i]; discriminate.
    - destruct (IH t ltac:(auto)) as (A & B & C). split; [f_equal; auto|]. split; auto.
      intros [|i] u o X; simpl in X; [inversion X; auto|eauto]. }
  destruct (Z1 ts os ltac:(congruence)) as (A & B & C). split; auto. split; [rewrite B, EL, <- V, map_length; auto|].
  intros i t o v Ho Hv. apply C in Ho. rewrite <- V, nth_error_map in Hv. destruct (nth_error rows i) as [r|] eqn:Er; [|discriminate].
  inversion Hv; subst v. apply (SO i r o Er Ho).
Qed.

(** C66 / C08. LATEST mode: the outcome of the last submitted point, beside
    the last timestamp, judged against its own band. *)
Theorem C66_latest_answer : forall T ix a d period v1 z (ts : list T) t o p w,
  make_fup (Some ix) (map Some (a_values a)) default_maxlen = Ok (a_fup a) ->
  through_knots spline ix a -> (0 <= z <= 100)%Z ->
  latest a d period v1 (qz z) ts = Ok (t, o, p, w) ->
  length ts = length (a_values a) /\ nth_error ts (length (a_values a) - 1) = Some t /\
  exists v, nth_error (a_values a) (length (a_values a) - 1) = Some v /\
    consistent_outcome v o /\ (0 <= o_upper o)%Qc /\ (0 <= o_lower o)%Qc.
Proof.
  intros T ix a d period v1 z ts t o p w HF HS HZ H. unfold predict_last in H. bind_inv H. destruct a0 as [[[rows p0] m] b].
  destruct (length ts =? length rows) eqn:EL; [|discriminate H]. cbn [negb] in H. apply Nat.eqb_eq in EL.
  bind_inv H. rename a0 into o1. bind_inv H. rename a0 into t1. inversion H; subst. clear H.
  pose proof (C08_one_row_per_point ix a d period true rows p m b HF HS E) as V.
  pose proof (C09_flags_consistent a d period true rows p m b E) as FC.
  assert (LR : length rows = length (a_values a)) by (rewrite <- V, map_length; auto).
  split; [congruence|]. rewrite <- LR. split.
  { rewrite <- EL. revert E1. clear. unfold last_opt. intros H. rewrite <- (rev_involutive ts).
    destruct (rev ts) as [|x l] eqn:R; [discriminate|]. inversion H; subst. cbn [rev]. rewrite app_length. simpl.
    rewrite nth_error_app2 by lia. replace (length (rev l) + 1 - 1 - length (rev l)) with 0 by lia. auto. }
  assert (NE : rows <> []).
  { intros X. subst rows. destruct ts; [|discriminate EL]. discriminate E1. }
  destruct (nth_error_ex _ rows (length rows - 1)) as [r Hr]. { destruct rows; [congruence|simpl; lia]. }
  exists (r_value r). split; [rewrite <- V, nth_error_map, Hr; auto|].
  destruct (C14_latest_is_last_of_entire v1 (is_sr m) rows z r HZ Hr) as (outs & oe & ol & EE & HE & EO & X1 & X2 & X3 & X4 & X5 & X6 & _).
  rewrite EO in E0. inversion E0; subst ol. destruct (margins_sound v1 (is_sr m) rows z outs HZ FC EE) as [_ SO].
  destruct (SO _ r oe Hr HE) as (A & B & C). rewrite X2, X3. split; auto.
  unfold consistent_outcome, inside, above, below in *. rewrite X1, X2, X3, X4, X5, X6. auto.
Qed.

(** C40. The suggested window of a LATEST answer. *)
Theorem C40_suggested_window : forall T a d period v1 sens (ts : list T) t o p w,
  latest a d period v1 sens ts = Ok (t, o, p, w) ->
  (p <> 0 -> w = 4 * p + 1) /\
  (p = 0 -> In (a_gran a, w) [(Yearly, 13); (Monthly, 13); (Weekly, 13); (Daily, 29); (Hourly, 169);
                               (Minutely, 1441); (Secondly, 1441); (GNone, 1441); (Microsecond, 1001)]) /\
  0 < w.
Proof.
  intros T a d period v1 sens ts t o p w H. unfold predict_last in H. bind_inv H. destruct a0 as [[[rows p0] m] b].
  destruct (length ts =? length rows); [|discriminate H]. cbn [negb] in H.
  bind_inv H. bind_inv H. inversion H; subst. clear H. unfold suggested_window.
  destruct p as [|p]; [|cbn [Nat.eqb negb]; split; [auto|split; [discriminate|lia]]].
  cbn [Nat.eqb negb]. split; [congruence|]. split.
  - intros _. destruct (a_gran a); vm_compute; tauto.
  - lia.
Qed.

(** C39 REFUTED. A detector named together with parameters is never honoured:
    the request fails whatever the series (hbos needs a positive majority
    ratio, otherwise the automatic choice answers). *)
Theorem C39_explicit_detector_refuted : forall a name params period lm,
  (name = NHbos -> (0 < a_majority a)%Qc) ->
  exists e, detect a (mkDet (Some name) (Some params)) period lm = Err e.
Proof.
  intros a name params period lm HN. unfold detect_model.
  assert (S : should_trigger_model_selection (mkDet (Some name) (Some params)) (a_majority a) = false).
  { unfold should_trigger_model_selection. cbn [d_name d_params]. destruct name; auto.
    specialize (HN eq_refl). apply Qcleb_gt. auto. }
  rewrite S. destruct (detect_without_model_selection spline a _ period) as [r|e] eqn:E; [|exists e; auto].
  exfalso. eapply no_explicit; eauto.
Qed.
(** C39. Without a name, or without parameters, the name is ignored. *)
Theorem C39_otherwise_ignored : forall a name period lm,
  detect a (mkDet name None) period lm = detect a (mkDet None None) period lm /\
  (forall params, detect a (mkDet None params) period lm = detect a (mkDet None None) period lm).
Proof.
  intros. unfold detect_model, should_trigger_model_selection. cbn [d_name d_params]. split; auto. destruct name as [[]|]; auto.
Qed.

(** C68. Dynamic threshold, entire mode, no majority value: a point at a tail
    position that is significant for the ESD test (within the quota) is
    reported, and so is everything further out in that tail. *)
Theorem C68_significant_points_reported : forall series u mn mx tv alpha ratio nt rows m (upper : bool) k,
  sorts_up sort -> (forall s p, exists t, trend_detection s p = Ok t /\ length t = length s) ->
  4 <= length series -> length tv = length series ->
  normalize series = Ok (u, mn, mx) ->
  get_verified_majority_value cst (map snd (sorted_series sort u)) = Ok None ->
  let data := if upper then rev (sorted_series sort u) else sorted_series sort u in
  k < dt_quota (length series) ratio ->
  significant cst std upper (map snd data) k
    (nth k (get_critical ppf sqrt table alpha (length series) (dt_quota (length series) ratio)) 0%Qc) ->
  DT series tv alpha ratio nt false = Ok (rows, m) ->
  forall j i, j <= k -> nth_error (map fst data) j = Some i ->
    exists r, nth_error rows i = Some r /\ r_anomaly r = true.
Proof.
  intros series u mn mx tv alpha ratio nt rows m upper k SU TD L4 LT EN MJ data HK SIG H j i HJ Hi.
  destruct (dt_total cst std ppf sqrt table sort SU trend_detection TD series tv alpha ratio nt false L4 LT)
    as (u' & mn' & mx' & idx & m' & rows' & EN' & ED & EF & LR & FL).
  rewrite EN in EN'. inversion EN'; subst u' mn' mx'. clear EN'.
  rewrite EF in H. inversion H; subst rows' m'. clear H.
  assert (LU : length u = length series) by (apply normalize_len in EN; auto).
  destruct (dt_select cst std ppf sqrt table sort SU u alpha ratio false ltac:(lia)) as (maj & e & idx' & m' & EM & EE & ED' & _ & _ & _ & SEL & _).
  rewrite ED in ED'. inversion ED'; subst idx' m'. clear ED'. rewrite MJ in EM. inversion EM; subst maj. clear EM.
  set (maxo := dt_quota (length series) ratio) in *.
  assert (LS : length (sorted_series sort u) = length series) by (rewrite sorted_length; auto).
  assert (QM : maxo <= length series / 2 - 1) by (unfold maxo, dt_quota; lia).
  assert (QN : maxo <= length series). { pose proof (Nat.div_le_upper_bound (length series) 2 (length series) ltac:(lia) ltac:(lia)). lia. }
  assert (LD : length (map snd data) = length series). { rewrite map_length. unfold data. destruct upper; rewrite ?rev_length; auto. }
  destruct (C19_esd_entire cst std upper (map snd data) (map fst data) maxo (get_critical ppf sqrt table alpha (length series) maxo))
    as (n & EG & NM & NS & _).
  - intros x y a b HX A B. pose proof (sorted_tail sort SU u) as ST. unfold data in A, B. destruct upper.
    + rewrite map_rev in A, B. pose proof (nth_error_lt _ _ _ _ A) as LA. pose proof (nth_error_lt _ _ _ _ B) as LB. rewrite rev_length in LA, LB.
      rewrite nth_error_rev in A, B by auto. 
      refine (ST _ _ _ _ _ B A). lia.
    + apply (ST x y a b); auto.
  - lia.
  - rewrite get_critical_length; auto.
  - specialize (NS k HK SIG). specialize (EE upper). unfold esd_detect in EE. fold data in EE. rewrite bind_ok, LS, LU in EE. fold maxo in EE.
    cbv zeta in EE. rewrite EG in EE. inversion EE as [EE'].
    assert (IN : In i idx).
    { apply (SEL upper). rewrite <- EE'. apply (nth_error_In _ j). rewrite nth_error_firstn.
      assert (T : (j <? n) = true) by (apply Nat.ltb_lt; lia). rewrite T. auto. }
    assert (LI : i < length series).
    { assert (X : In i (map fst (sorted_series sort u))).
      { apply nth_error_In in Hi. unfold data in Hi. destruct upper; auto. rewrite map_rev in Hi. apply in_rev in Hi. auto. }
      apply (Permutation_in _ (Permutation_sym (sorted_labels sort SU u))) in X. unfold range in X. apply in_seq in X. lia. }
    destruct (nth_error_ex _ rows i) as [r Hr]; [lia|]. exists r. split; auto. rewrite (FL i r Hr). apply mem_nat_in. auto.
Qed.
End Props.
Print Assumptions C08_one_row_per_point.
Print Assumptions C09_flags_consistent.
Print Assumptions C16_anomaly_count_bounded.
Print Assumptions C16_flagged_points_are_extreme.
Print Assumptions C62_delta_only_adds.
Print Assumptions C66_entire_answer.
Print Assumptions C66_latest_answer.
Print Assumptions C40_suggested_window.
Print Assumptions C39_explicit_detector_refuted.
Print Assumptions C39_otherwise_ignored.
Print Assumptions C68_significant_points_reported.

(** C16 REFUTED as a bound on the total: a ratio of 1/10 allows at most 2 of
    12 points, the answer holds 4, whatever the external routines say (the
    trend staying within the ordinary values). *)
Theorem C16_total_refuted : forall std ppf sqrt table sort_desc trend_detection decompose transform stationary spline pd,
  (forall s p, exists t, trend_detection s p = Ok t /\ length t = length s /\ forall x, In x t -> (0 <= x /\ x <= qz 10)%Qc) ->
  exists a rows p m,
    detect_model ppf34 std ppf sqrt table sort_pairs sort_desc trend_detection decompose transform stationary spline pd
      a (mkDet None None) (Some 0) false = Ok (rows, p, m, false) /\
    length (a_values a) = 12 /\ this (a_ratio a) = (1 # 10)%Q /\ reported rows = 4 /\
    forall q, allowed 12 (a_ratio a) q -> q <= 2.
Proof.
  intros std ppf sqrt table sort_desc td decompose transform stationary spline pd TD.
  exists two_tails_args. destruct (TD two_tails (Some 0)) as (tv & ET & LT & RT).
  destruct (two_tails_frame std ppf sqrt table td TD tv (Q2Qc (5 # 100)) false false LT RT) as (rows & m & EF & RP & FO & FAR).
  assert (SEL : detect_with_model_selection ppf34 std ppf sqrt table sort_pairs sort_desc td decompose transform stationary spline pd
     two_tails_args (Some 0) false = Ok (rows, 0, m, false)).
  { unfold detect_with_model_selection. cbv zeta. rewrite bind_ok. cbn [Nat.ltb Nat.leb andb orb a_mode two_tails_args fills_without_period].
    rewrite !bind_ok. cbn [a_values a_gran two_tails_args should_trigger_sr andb]. unfold should_trigger_sr. cbn [andb].
    rewrite ET, bind_ok. cbn [a_alpha a_need_trend a_ratio two_tails_args]. rewrite EF, bind_ok. cbn [fst].
    assert (MD : forall func, merge_with_delta stationary rows func two_tails (Q2Qc (1 # 10)) = Ok rows).
    { intros func. unfold merge_with_delta.
      destruct (C27_differencing_can_be_undone stationary two_tails (qz 3) (qz 100) (skipn 2 two_tails)) as (z & s' & E & L & _);
        [reflexivity|vm_compute; lia|]. rewrite E, bind_ok. cbn [fst snd]. destruct (z <=? 0)%Z; auto. cbv zeta. rewrite L.
      assert (Q1 : sr_quota (length two_tails) (Q2Qc (1 # 10)) = 1) by (vm_compute; reflexivity). rewrite Q1.
      unfold count_anomalies. rewrite <- reported_filter, RP. auto. }
    rewrite MD, bind_ok. auto. }
  exists (map refine_row_flags rows), 0, m. unfold detect_model. cbn [should_trigger_model_selection d_name]. rewrite SEL, bind_ok.
  split; auto. split; [reflexivity|]. split; [reflexivity|]. split; [rewrite reported_refine_eq; auto|].
  intros q [->|A]; [lia|]. cbn [a_ratio two_tails_args] in A.
  assert (B : (qn 12 * Q2Qc (1 # 10) + 1 < qn 3)%Qc) by reflexivity.
  assert (C : (qn q < qn 3)%Qc) by (eapply Qclt_trans; eauto). apply qn_lt in C. lia.
Qed.
Print Assumptions C16_total_refuted.

(** A concrete run: a series with two gaps, filled linearly; 14 grid
    positions, 12 points reported, four of them anomalous. *)
Definition ex_ix : list Z := [0; 1; 2; 3; 4; 5; 6; 7; 9; 10; 12; 13]%Z.
Definition ex_args : args :=
  mkArgs two_tails (match make_fup (Some ex_ix) (map Some two_tails) default_maxlen with Ok f => f | _ => mkFup [] [] 0 false 0 [] [] [] end)
         FMLinear None (Q2Qc (1 # 10)) (Q2Qc (5 # 100)) (Q2Qc (7 # 2)) true (Q2Qc (1 # 10)) Daily None.
Definition ex_trend (s : list Qc) (p : option nat) : res (list Qc) := Ok (map (fun _ => qz 4) s).
Definition ex_table : list Qc := repeat (Q2Qc (3 # 2)) 20.
Notation ex_entire := (predict_entire ppf34 (fun _ => qz 1) (fun _ _ => 0%Qc) (fun x => x) ex_table sort_pairs (fun l => l) ex_trend
  (fun _ s _ => Ok (s, s)) (fun l => l) (fun _ => true) (fun _ _ _ => 0%Qc) (fun _ => Ok 0)).
Notation ex_latest := (predict_last ppf34 (fun _ => qz 1) (fun _ _ => 0%Qc) (fun x => x) ex_table sort_pairs (fun l => l) ex_trend
  (fun _ s _ => Ok (s, s)) (fun l => l) (fun _ => true) (fun _ _ _ => 0%Qc) (fun _ => Ok 0)).
Example C66_example :
  make_fup (Some ex_ix) (map Some (a_values ex_args)) default_maxlen = Ok (a_fup ex_args) /\ f_need (a_fup ex_args) = true /\
  (exists outs, ex_entire ex_args (mkDet None None) None false (qz 90) (range 12) = Ok (outs, 0) /\
     map fst outs = range 12 /\
     map (fun p => o_anomaly (snd p)) outs = [false; true; false; true; false; false; true; false; true; false; false; false]) /\
  (exists o, ex_latest ex_args (mkDet None None) None true (qz 90) (range 12) = Ok (11, o, 0, 29) /\ o_anomaly o = false).
Proof.
  split; [vm_compute; reflexivity|]. split; [vm_compute; reflexivity|]. split.
  - eexists. split; [vm_compute; reflexivity|]. split; vm_compute; reflexivity.
  - eexists. split; vm_compute; reflexivity.
Qed.

(** The differenced run adds an anomaly at position 4 and leaves position 1. *)
Example C62_example :
  exists results out, count_anomalies results = 1 /\
    merge_with_delta (fun l => negb (Nat.eqb (length (filter (fun x => (x =? qz 5)%Qc) l)) 4)) results
      (fun s r => Ok (map (fun v => mkRow v 0 0 0 (v =? qz 40)%Qc false true) s, DynamicThreshold))
      (zs [5; 9; 5; 5; 45; 5]%Z) (Q2Qc (1 # 2)) = Ok out /\
    map r_anomaly results = [false; true; false; false; false; false] /\
    map r_anomaly out = [false; true; false; false; true; false].
Proof.
  exists (mapi (fun i v => mkRow v (qz 5) 0 0 (i =? 1) false (i =? 1)) (zs [5; 9; 5; 5; 45; 5]%Z)).
  eexists. split; [vm_compute; reflexivity|]. split; [vm_compute; reflexivity|]. split; vm_compute; reflexivity.
Qed.

(** The hypotheses of C68 hold at the two outermost points of the example. *)
Example C68_example : forall upper : bool, exists u mn mx,
  normalize two_tails = Ok (u, mn, mx) /\
  get_verified_majority_value ppf34 (map snd (sorted_series sort_pairs u)) = Ok None /\
  1 < dt_quota 12 (Q2Qc (1 # 10)) /\
  significant ppf34 (fun _ => 1%Qc) upper (map snd (if upper then rev (sorted_series sort_pairs u) else sorted_series sort_pairs u)) 1
    (nth 1 (get_critical (fun _ _ => 0%Qc) (fun x => x) ex_table (Q2Qc (5 # 100)) 12 (dt_quota 12 (Q2Qc (1 # 10)))) 0%Qc).
Proof.
  intros upper. eexists. eexists. eexists. split; [unfold normalize; vm_compute; reflexivity|]. split; [vm_compute; reflexivity|].
  split; [vm_compute; lia|]. destruct upper.
  - eexists. split; [vm_compute; reflexivity|]. left. vm_compute. reflexivity.
  - eexists. split; [vm_compute; reflexivity|]. left. vm_compute. reflexivity.
Qed.
