(** V2 margins and scores. *)
From Coq Require Import List Arith ZArith Lia Bool Qround.
From Verif Require Import Base Num Sorting Kernel_model Kernel_proofs Margins_model Margins_spec Margins_proofs Margins_proofs2.
Import ListNotations.
Open Scope Qc_scope.

Lemma floor_qz : forall z, Qfloor (this (qz z)) = z.
Proof. intros z. rewrite (Qfloor_comp _ _ (this_qz z)). apply Qfloor_Z. Qed.

Lemma units_spec : forall rows, length (calculate_boundary_units rows) = length rows /\
  forall u, In u (calculate_boundary_units rows) -> MIN_UNIT <= u.
Proof.
  intros rows. unfold calculate_boundary_units. destruct (forallb _ _).
  - split; [apply map_length|]. intros u H. apply in_map_iff in H. destruct H as (? & <- & _). qlra.
  - cbv zeta. split; [rewrite !map_length; auto|]. intros u H. apply in_map_iff in H. destruct H as (x & <- & _).
    unfold np_clip. apply Qcmin_glb; [apply Qcmax_r|apply Qcmax_l].
Qed.
Lemma min_unit_pos : 0 < MIN_UNIT. Proof. reflexivity. Qed.

(** Distance at which a detector anomaly is reported at sensitivity [z]. *)
Definition reportable (z : Z) (unit d : Qc) : Prop :=
  unit * factor (Z.to_nat z) < d \/
  (z = 99%Z /\ unit * factor 99 * ANOMALY_IGNORE_RATIO < d /\ d < unit * factor 99).

Lemma three_pos : 0 < Q2Qc 3. Proof. reflexivity. Qed.
Lemma third_nonneg : forall x, 0 <= x -> 0 <= x / Q2Qc 3.
Proof. intros. apply Qcdiv_nonneg; auto. reflexivity. Qed.
Lemma half_eq : forall x, x * Q2Qc (1 # 2) + x * Q2Qc (1 # 2) = x.
Proof. intros. qlra. Qed.

Lemma margin_spec : forall unit z v e a, (0 <= z <= 100)%Z -> 0 < unit ->
  exists up lo, calculate_margin unit (qz z) v e a = Ok (up, lo) /\ 0 <= up /\ 0 <= lo /\
    (a = false -> e - lo <= v /\ v <= e + up) /\
    (a = true -> up = lo /\ (up < Qcabs (v - e) <-> reportable z unit (Qcabs (v - e)))).
Proof.
  intros unit z v e a HZ HU. unfold calculate_margin.
  assert (S1 : (qz z <? 0) = false).
  { destruct (qz z <? 0) eqn:E; qb_hyps; auto. exfalso. assert (0 <= qz z) by (apply (proj1 (qz_le 0 z)); lia). qlra. }
  assert (S2 : (Q2Qc 100 <? qz z) = false).
  { destruct (Q2Qc 100 <? qz z) eqn:E; qb_hyps; auto. exfalso. assert (qz z <= qz 100) by (apply (proj1 (qz_le z 100)); lia).
    change (Q2Qc 100) with (qz 100) in E. qlra. }
  assert (S3 : (unit <=? 0) = false) by (destruct (unit <=? 0) eqn:E; qb_hyps; auto; exfalso; qlra).
  rewrite S1, S2, S3. cbn [orb]. cbv zeta. rewrite floor_qz, Qceqb_refl.
  unfold calculate_changed_margin.
  assert (G : get factors (Z.to_nat z) = Ok (factor (Z.to_nat z))) by (apply get_ok, factor_nth; lia).
  rewrite G, bind_ok. clear S1 S2 S3 G. set (f := factor (Z.to_nat z)).
  assert (F0 : 0 <= f) by (apply factor_nonneg; lia).
  assert (D0 : 0 <= unit * f) by (apply Qcmul_nonneg; auto; qlra).
  destruct a; cbn [negb].
  - cbv zeta. rewrite bind_ok. destruct ((_ <? _) && (_ <? _) && (z =? 99)%Z) eqn:E.
    + apply andb_prop in E. destruct E as [E E3]. apply andb_prop in E. destruct E as [E1 E2]. qb_hyps.
      apply Z.eqb_eq in E3. rewrite (Qcabs_sub_sym e v).
      set (d := Qcabs (v - e)) in *. assert (0 <= d) by apply Qcabs_nonneg.
      assert (R0 : 0 < d). { assert (0 <= unit * f * ANOMALY_IGNORE_RATIO) by (apply Qcmul_nonneg; auto; discriminate). qlra. }
      eexists. eexists. split; [reflexivity|]. split; [qlra|]. split; [qlra|]. split; [discriminate|]. intros _. split; auto.
      split; [intros _|intros _; qlra]. right. split; auto. subst z. split; auto.
    + eexists. eexists. split; [reflexivity|]. split; auto. split; auto. split; [discriminate|]. intros _. split; auto.
      split; [left; auto|]. intros [H|(-> & H1 & H2)]; auto. exfalso. unfold f in E. change (Z.to_nat 99) with 99%nat in E.
      apply Qcltb_lt in H1. apply Qcltb_lt in H2. rewrite H1, H2 in E. discriminate E.
  - cbv zeta. set (d := Qcabs (e - v) + unit * f * Q2Qc (1 # 2)).
    assert (DA : Qcabs (e - v) <= d) by (unfold d; qlra).
    assert (A0 : 0 <= Qcabs (e - v)) by apply Qcabs_nonneg.
    assert (DD : 0 <= d) by qlra. pose proof (third_nonneg d DD) as D3.
    assert (SG : (e < v -> Qcabs (e - v) = v - e) /\ (v <= e -> Qcabs (e - v) = e - v)) by (split; intros; qmm; qlra).
    destruct SG as [SG1 SG2].
    destruct (e <? v) eqn:E; qb_hyps; rewrite bind_ok; eexists; eexists; (split; [reflexivity|]); repeat (split; [auto; fail|]);
      (split; [intros _|intro X; discriminate X]); [rewrite SG1 in DA by auto|rewrite SG2 in DA by auto]; clearbody d; split; qlra.
Qed.

(** One point of V2, both modes. *)
Lemma v2_point_spec : forall z unit r, (0 <= z <= 100)%Z -> MIN_UNIT <= unit ->
  exists o ol, v2_entire_point (qz z) unit r = Ok o /\ v2_last_point (qz z) unit r = Ok ol /\
    o_expected o = r_expected r /\ 0 <= o_upper o /\ 0 <= o_lower o /\
    (o_pos o = true <-> above o (r_value r)) /\ (o_neg o = true <-> below o (r_value r)) /\
    o_anomaly o = o_neg o || o_pos o /\
    (o_anomaly o = true <-> r_anomaly r = true /\ reportable z unit (Qcabs (r_value r - r_expected r))) /\
    (exists sc, calculate_anomaly_score (r_value r) (r_expected r) unit = Ok sc /\ o_score o = Some sc /\
       o_severity o = calculate_severity_v2 sc (o_anomaly o) /\ o_severity ol = calculate_severity_v2 sc (r_anomaly r)) /\
    o_unit o = Some unit /\
    o_expected ol = o_expected o /\ o_upper ol = o_upper o /\ o_lower ol = o_lower o /\ o_neg ol = o_neg o /\
    o_pos ol = o_pos o /\ o_anomaly ol = o_anomaly o /\ o_unit ol = o_unit o /\ o_score ol = o_score o.
Proof.
  intros z unit r HZ HM. assert (HU : 0 < unit) by (pose proof min_unit_pos; qlra).
  destruct (margin_spec unit z (r_value r) (r_expected r) (r_anomaly r) HZ HU) as (up & lo & E & U0 & L0 & NA & AN).
  destruct (score_spec (r_value r) (r_expected r) unit HU) as (sc & ES & _).
  unfold v2_entire_point, v2_last_point. rewrite ES, !bind_ok, E, !bind_ok. cbv zeta. cbn [fst snd].
  eexists. eexists. split; [reflexivity|]. split; [reflexivity|]. unfold above, below.
  cbn [o_expected o_upper o_lower o_neg o_pos o_anomaly o_severity o_unit o_score].
  set (v := r_value r) in *. set (e := r_expected r) in *.
  split; auto. split; auto. split; auto.
  assert (P : r_anomaly r && (e + up <? v) = true <-> e + up < v).
  { destruct (r_anomaly r); cbn [andb]; [apply Qcltb_lt|]. destruct (NA eq_refl). split; [discriminate|]. intros; exfalso; qlra. }
  assert (N : r_anomaly r && (v <? e - lo) = true <-> v < e - lo).
  { destruct (r_anomaly r); cbn [andb]; [apply Qcltb_lt|]. destruct (NA eq_refl). split; [discriminate|]. intros; exfalso; qlra. }
  split; auto. split; auto. split; auto. split.
  { rewrite orb_true_iff, P, N. split.
    - intros H. destruct (r_anomaly r) eqn:A; [|destruct (NA eq_refl); exfalso; destruct H; qlra].
      split; auto. destruct (AN eq_refl) as [EQ RP]. apply RP. subst lo. destruct H; qmm; qlra.
    - intros [A H]. destruct (AN A) as [EQ RP]. apply RP in H. subst lo.
      clear P N NA AN RP E ES. unfold Qcabs in H. destruct (0 <=? v - e) eqn:C; qb_hyps; [right|left]; qlra. }
  split. { exists sc. repeat split; auto. }
  repeat split; auto.
  - apply andb_comm.
  - apply andb_comm.
  - rewrite (andb_comm (e + up <? v)), (andb_comm (v <? e - lo)). apply orb_comm.
Qed.

Lemma mapM2_spec : forall A B C (f : A -> B -> res C) a b, length a = length b ->
  (forall x y, In x a -> exists z, f x y = Ok z) ->
  exists r, mapM2 f a b = Ok r /\ length r = length b /\
    forall i x y, nth_error a i = Some x -> nth_error b i = Some y -> exists z, nth_error r i = Some z /\ f x y = Ok z.
Proof.
  induction a as [|x a IH]; intros [|y b] L H; simpl in L; try lia.
  - exists []. repeat split; auto. intros i x y Hx. destruct i; discriminate.
  - destruct (H x y (or_introl eq_refl)) as (z & E). destruct (IH b ltac:(lia)) as (r & ER & LR & HR).
    { intros; apply H; right; auto. }
    exists (z :: r). simpl. rewrite E, bind_ok, ER, bind_ok. split; auto. split; [simpl; lia|].
    intros [|i] u w Hu Hw; simpl in *; [|apply HR; auto]. inversion Hu; inversion Hw; subst. eauto.
Qed.

Lemma v2_rows : forall rows z, rows <> [] -> (0 <= z <= 100)%Z ->
  exists outs, get_margins_v2_entire rows (qz z) = Ok outs /\ length outs = length rows /\
  forall i r, nth_error rows i = Some r -> exists u o, nth_error (calculate_boundary_units rows) i = Some u /\
    MIN_UNIT <= u /\ nth_error outs i = Some o /\ v2_entire_point (qz z) u r = Ok o.
Proof.
  intros rows z NE HZ. destruct (units_spec rows) as [LU HU].
  destruct (mapM2_spec _ _ _ (v2_entire_point (qz z)) (calculate_boundary_units rows) rows LU) as (outs & E & L & H).
  { intros u r I. destruct (v2_point_spec z u r HZ (HU u I)) as (o & ol & EO & _). eauto. }
  exists outs. split. { unfold get_margins_v2_entire. destruct rows; [congruence|]. auto. }
  split; auto. intros i r Hr. destruct (nth_error_ex _ (calculate_boundary_units rows) i) as (u & Hu).
  { rewrite LU. eapply nth_error_lt; eauto. }
  destruct (H i u r Hu Hr) as (o & Ho & EO). exists u, o. repeat split; auto. apply HU. eapply nth_error_In; eauto.
Qed.

Lemma last_opt_nth : forall A (l : list A) n x, length l = S n -> nth_error l n = Some x -> last_opt l = Ok x.
Proof.
  intros A l n x L H. unfold last_opt. destruct l as [|a l] using rev_ind; [discriminate|].
  rewrite rev_app_distr. simpl. rewrite app_length in L. simpl in L. rewrite nth_error_app2 in H by lia.
  replace (n - length l)%nat with 0%nat in H by lia. simpl in H. congruence.
Qed.

(** * Score calibration *)
Lemma score_gt_iff : forall v e u sc s, 0 < u -> calculate_anomaly_score v e u = Ok sc -> (1 <= s <= 100)%nat ->
  (qn (100 - s) < sc <-> u * factor s < Qcabs (v - e)).
Proof.
  intros v e u sc s HU E HS. destruct (score_spec v e u HU) as (sc' & E' & H). rewrite E in E'. inversion E'; subst sc'. clear E E'.
  set (dist := Qcabs (e - v) / u) in *.
  assert (X : u * factor s < Qcabs (v - e) <-> factor s < dist).
  { unfold dist. rewrite Qclt_div_iff by auto. rewrite Qcabs_sub_sym, Qcmult_comm. tauto. }
  rewrite X. clear X. assert (F0 : 0 <= factor s) by (apply factor_nonneg; lia).
  destruct H as [[D ->]|[[D ->]|(k & K & D1 & D2 & ->)]].
  - split; intros H; exfalso; [|qlra]. pose proof (qn_nonneg (100 - s)). qlra.
  - split; intros _.
    + eapply Qcle_lt_trans; [|exact D]. apply factor_le. lia.
    + change (Q2Qc 100) with (qn 100). apply (proj1 (qn_lt (100 - s) 100)). lia.
  - assert (W : 0 < factor (99 - k) - factor (100 - k)).
    { assert (factor (100 - k) < factor (99 - k)) by (apply factor_lt; lia). qlra. }
    set (q := (dist - factor (100 - k)) / (factor (99 - k) - factor (100 - k))).
    assert (Q0 : 0 < q) by (unfold q; apply Qclt_div_iff; auto; qlra).
    assert (Q1 : q <= 1) by (unfold q; apply Qcdiv_le_iff; auto; qlra).
    clearbody q. destruct (Nat.le_gt_cases (100 - s) k) as [C|C].
    + split; intros _.
      * eapply Qcle_lt_trans; [|exact D1]. apply factor_le. lia.
      * assert (qn (100 - s) <= qn k) by (apply (proj1 (qn_le (100 - s) k)); lia). qlra.
    + split; intros H; exfalso.
      * assert (qn (S k) <= qn (100 - s)) by (apply (proj1 (qn_le (S k) (100 - s))); lia). rewrite qn_S in H0. qlra.
      * assert (factor (99 - k) <= factor s) by (apply factor_le; lia). qlra.
Qed.

Lemma score_range : forall v e u sc, 0 < u -> calculate_anomaly_score v e u = Ok sc -> 0 <= sc /\ sc <= Q2Qc 100.
Proof.
  intros v e u sc HU E. destruct (score_spec v e u HU) as (sc' & E' & H). rewrite E in E'. inversion E'; subst sc'. clear E E'.
  set (dist := Qcabs (e - v) / u) in *.
  destruct H as [[D ->]|[[D ->]|(k & K & D1 & D2 & ->)]]; [split; discriminate|split; discriminate|].
  assert (W : 0 < factor (99 - k) - factor (100 - k)).
  { assert (factor (100 - k) < factor (99 - k)) by (apply factor_lt; lia). qlra. }
  set (q := (dist - factor (100 - k)) / (factor (99 - k) - factor (100 - k))).
  assert (Q0 : 0 < q) by (unfold q; apply Qclt_div_iff; auto; qlra).
  assert (Q1 : q <= 1) by (unfold q; apply Qcdiv_le_iff; auto; qlra).
  pose proof (qn_nonneg k). assert (qn k <= qn 99) by (apply (proj1 (qn_le k 99)); lia).
  assert (qn 99 + 1 = Q2Qc 100) by (apply Qc_is_canon; reflexivity). split; qlra.
Qed.

Lemma score_mono : forall v1 e1 u1 v2 e2 u2 a b, 0 < u1 -> 0 < u2 ->
  calculate_anomaly_score v1 e1 u1 = Ok a -> calculate_anomaly_score v2 e2 u2 = Ok b ->
  Qcabs (v1 - e1) / u1 <= Qcabs (v2 - e2) / u2 -> a <= b.
Proof.
  intros v1 e1 u1 v2 e2 u2 a b HU1 HU2 E1 E2 L.
  pose proof (score_range _ _ _ _ HU1 E1) as [A0 A1]. pose proof (score_range _ _ _ _ HU2 E2) as [B0 B1].
  destruct (score_spec v1 e1 u1 HU1) as (a' & E1' & H1). rewrite E1 in E1'. inversion E1'; subst a'. clear E1 E1'.
  destruct (score_spec v2 e2 u2 HU2) as (b' & E2' & H2). rewrite E2 in E2'. inversion E2'; subst b'. clear E2 E2'.
  rewrite (Qcabs_sub_sym v1), (Qcabs_sub_sym v2) in L.
  set (d1 := Qcabs (e1 - v1) / u1) in *. set (d2 := Qcabs (e2 - v2) / u2) in *. cbv zeta in H1, H2.
  destruct H1 as [[D ->]|[[D ->]|(k & K & D1 & D2 & Ea)]].
  - auto.
  - destruct H2 as [[D' ->]|[[D' ->]|(k' & K' & D1' & D2' & Eb)]]; try qlra.
    + assert (0 <= factor 1) by (apply factor_nonneg; lia). exfalso; qlra.
    + assert (factor (99 - k') <= factor 1) by (apply factor_le; lia). exfalso; qlra.
  - destruct H2 as [[D' ->]|[[D' ->]|(k' & K' & D1' & D2' & Eb)]]; auto.
    + assert (0 <= factor (100 - k)) by (apply factor_nonneg; lia). exfalso; qlra.
    + assert (W : 0 < factor (99 - k) - factor (100 - k)).
      { assert (factor (100 - k) < factor (99 - k)) by (apply factor_lt; lia). qlra. }
      assert (W' : 0 < factor (99 - k') - factor (100 - k')).
      { assert (factor (100 - k') < factor (99 - k')) by (apply factor_lt; lia). qlra. }
      destruct (Nat.lt_trichotomy k k') as [C|[C|C]].
      * assert (Q1 : (d1 - factor (100 - k)) / (factor (99 - k) - factor (100 - k)) <= 1) by (apply Qcdiv_le_iff; auto; qlra).
        assert (Q0 : 0 < (d2 - factor (100 - k')) / (factor (99 - k') - factor (100 - k'))) by (apply Qclt_div_iff; auto; qlra).
        assert (qn (S k) <= qn k') by (apply (proj1 (qn_le (S k) k')); lia). rewrite qn_S in H. rewrite Ea, Eb. qlra.
      * subst k'. rewrite Ea, Eb.
        assert ((d1 - factor (100 - k)) / (factor (99 - k) - factor (100 - k)) <= (d2 - factor (100 - k)) / (factor (99 - k) - factor (100 - k))); [|qlra].
        apply Qcdiv_le_iff; auto. rewrite Qcmult_comm, Qcmul_div by (intro X; rewrite X in W; discriminate). qlra.
      * assert (factor (99 - k') <= factor (100 - k)) by (apply factor_le; lia). exfalso; qlra.
Qed.
