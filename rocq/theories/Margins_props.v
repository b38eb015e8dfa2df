(** Properties C10-C15: margins, flags, severities and scores. *)
From Coq Require Import List Arith ZArith Lia Bool Qround.
From Verif Require Import Base Num Sorting Kernel_model Kernel_proofs Margins_model Margins_spec Margins_proofs
  Margins_proofs2 Margins_proofs3.
Import ListNotations.
Open Scope Qc_scope.

Ltac outs_of E E' := rewrite E' in E; inversion E; subst; clear E.

(** A frame of four points; the second and the last are detector anomalies. *)
Definition ex_rows : list row :=
  [ mkRow (qz 10) (qz 10) (qz 10) 0 false false false;
    mkRow (qz 30) (qz 11) (qz 11) (Q2Qc (9 # 10)) true false true;
    mkRow (qz 12) (qz 11) (qz 10) 0 false false false;
    mkRow (qz 9) (qz 10) (qz 10) (Q2Qc (1 # 2)) true true false ].

(** C10. Margins are never negative, in both versions, for both kinds of model
    and every sensitivity accepted. *)
Theorem C10_margins_nonnegative : forall v1 sr rows z, rows <> [] -> (0 <= z <= 100)%Z ->
  exists outs, get_margins_entire v1 sr rows (qz z) = Ok outs /\
    rowwise rows outs (fun r o => o_expected o = r_expected r /\ 0 <= o_upper o /\ 0 <= o_lower o).
Proof.
  intros v1 sr rows z NE HZ. unfold get_margins_entire, rowwise. destruct v1.
  - assert (HS : qz z <= Q2Qc 100) by (apply (proj1 (qz_le z 100)); lia).
    destruct (v1_rows sr rows (qz z) NE HS) as (outs & E & L & H). exists outs. split; auto. split; auto.
    intros i r o Hr Ho. destruct (H i r Hr) as (ub & lb & Ho' & HU & HL). rewrite Ho' in Ho. inversion Ho; subst o.
    destruct (refine_row_nonneg (qz z) ub lb r HU HL) as (A & B & C & _). auto.
  - destruct (v2_rows rows z NE HZ) as (outs & E & L & H). exists outs. split; auto. split; auto.
    intros i r o Hr Ho. destruct (H i r Hr) as (u & o' & _ & HU & Ho' & EO). rewrite Ho' in Ho. inversion Ho; subst o'.
    destruct (v2_point_spec z u r HZ HU) as (o1 & ol & E1 & _ & A & B & C & _). rewrite EO in E1. inversion E1; subst o1. auto.
Qed.
Print Assumptions C10_margins_nonnegative.

(** C11. Version V1: a point is reported normal exactly when it lies in its
    band, provided detector anomalies differ from their expected value; with
    consistent detector flags (C09) the reported ones name the side. *)
Theorem C11_v1_band_separates : forall sr rows z, rows <> [] -> (0 <= z <= 100)%Z ->
  exists outs, get_margins_entire true sr rows (qz z) = Ok outs /\
    rowwise rows outs (fun r o =>
      ((r_anomaly r = true -> r_value r <> r_expected r) -> (o_anomaly o = false <-> inside o (r_value r))) /\
      (consistent_row r -> consistent_outcome (r_value r) o) /\
      (o_anomaly o = true -> r_anomaly r = true)).
Proof.
  intros sr rows z NE HZ. unfold get_margins_entire, rowwise.
  assert (HS : qz z <= Q2Qc 100) by (apply (proj1 (qz_le z 100)); lia).
  destruct (v1_rows sr rows (qz z) NE HS) as (outs & E & L & H). exists outs. split; auto. split; auto.
  intros i r o Hr Ho. destruct (H i r Hr) as (ub & lb & Ho' & HU & HL). rewrite Ho' in Ho. inversion Ho; subst o. split.
  - intros D. apply refine_row_band; auto.
  - split; [apply refine_row_consistent; auto|]. intros A. apply refine_row_anomaly in A. tauto.
Qed.
Print Assumptions C11_v1_band_separates.
(** C11. At sensitivity 100 every detector anomaly is reported. *)
Theorem C11_v1_full_sensitivity : forall sr rows outs, get_margins_entire true sr rows (qz 100) = Ok outs ->
  rowwise rows outs (fun r o => o_anomaly o = r_anomaly r).
Proof.
  intros sr rows outs E. unfold get_margins_entire, rowwise in *.
  assert (NE : rows <> []) by (intro X; subst rows; destruct sr; discriminate).
  destruct (v1_rows sr rows (qz 100) NE ltac:(apply Qcle_refl)) as (o' & E' & L & H). outs_of E E'. split; auto.
  intros i r o Hr Ho. destruct (H i r Hr) as (ub & lb & Ho' & HU & HL). rewrite Ho' in Ho. inversion Ho; subst o.
  pose proof (refine_row_anomaly (qz 100) ub lb r) as A. cbv zeta in A.
  destruct (r_anomaly r) eqn:R; [apply A; split; auto|].
  destruct (o_anomaly _); auto. destruct A as [A _]. destruct (A eq_refl). discriminate.
Qed.
Print Assumptions C11_v1_full_sensitivity.

(** C12. Version V2: reported anomalous exactly when strictly outside the
    band, positive above and negative below. No assumption on the frame. *)
Theorem C12_v2_band_separates : forall sr rows z, rows <> [] -> (0 <= z <= 100)%Z ->
  exists outs, get_margins_entire false sr rows (qz z) = Ok outs /\
    rowwise rows outs (fun r o =>
      (o_pos o = true <-> above o (r_value r)) /\ (o_neg o = true <-> below o (r_value r)) /\
      (o_anomaly o = true <-> above o (r_value r) \/ below o (r_value r)) /\
      (o_anomaly o = true -> r_anomaly r = true)).
Proof.
  intros sr rows z NE HZ. unfold get_margins_entire, rowwise.
  destruct (v2_rows rows z NE HZ) as (outs & E & L & H). exists outs. split; auto. split; auto.
  intros i r o Hr Ho. destruct (H i r Hr) as (u & o' & _ & HU & Ho' & EO). rewrite Ho' in Ho. inversion Ho; subst o'.
  destruct (v2_point_spec z u r HZ HU) as (o1 & ol & E1 & _ & A & B & C & P & N & AN & AR & _).
  rewrite EO in E1. inversion E1; subst o1. split; auto. split; auto. split; [|intros X; apply AR in X; tauto].
  rewrite AN, orb_true_iff, P, N. tauto.
Qed.
Print Assumptions C12_v2_band_separates.
(** C12. A fractional sensitivity is an error in V2. *)
Theorem C12_v2_fractional_sensitivity_fails : forall unit sens v e a, 0 < unit -> 0 <= sens -> sens <= Q2Qc 100 ->
  (forall z, sens <> qz z) -> calculate_margin unit sens v e a = Err TypeErr.
Proof.
  intros unit sens v e a HU H0 H1 HZ. unfold calculate_margin.
  assert (S1 : (sens <? 0) = false) by (apply Qcltb_ge; auto). assert (S2 : (Q2Qc 100 <? sens) = false) by (apply Qcltb_ge; auto).
  assert (S3 : (unit <=? 0) = false) by (apply Qcleb_gt; auto). rewrite S1, S2, S3. cbn [orb]. cbv zeta.
  set (lb := Qfloor (this sens)).
  assert (L0 : (0 <= lb)%Z).
  { unfold lb. change 0%Z with (Qfloor 0). apply Qfloor_resp_le. exact H0. }
  assert (L1 : (lb < 100)%Z).
  { assert (lb <= 100)%Z. { unfold lb. change 100%Z with (Qfloor 100). apply Qfloor_resp_le. exact H1. }
    destruct (Z.eq_dec lb 100) as [X|X]; [|lia]. exfalso. apply (HZ 100%Z). apply Qcle_antisym; auto.
    pose proof (Qfloor_le (this sens)) as F. fold lb in F. rewrite X in F. exact F. }
  assert (G : forall z, (0 <= z <= 100)%Z -> exists m, calculate_changed_margin unit z v e a = Ok m).
  { intros z R. unfold calculate_changed_margin.
    assert (X : get factors (Z.to_nat z) = Ok (factor (Z.to_nat z))) by (apply get_ok, factor_nth; lia). rewrite X, bind_ok.
    destruct a; cbn [negb]; cbv zeta; [eauto|]. destruct (e <? v); eauto. }
  destruct (G lb ltac:(lia)) as (m1 & ->). rewrite bind_ok.
  destruct (qz lb =? sens) eqn:E; qb_hyps; [exfalso; apply (HZ lb); auto|].
  destruct (G (lb + 1)%Z ltac:(lia)) as (m2 & ->). auto.
Qed.
Print Assumptions C12_v2_fractional_sensitivity_fails.

(** C13. Raising the sensitivity never removes an anomaly. *)
Theorem C13_sensitivity_monotone : forall v1 sr rows z1 z2 o1 o2, (0 <= z1 <= z2)%Z -> (z2 <= 100)%Z ->
  get_margins_entire v1 sr rows (qz z1) = Ok o1 -> get_margins_entire v1 sr rows (qz z2) = Ok o2 ->
  length o1 = length o2 /\
  forall i a b, nth_error o1 i = Some a -> nth_error o2 i = Some b -> o_anomaly a = true -> o_anomaly b = true.
Proof.
  intros v1 sr rows z1 z2 o1 o2 HZ HM E1 E2. unfold get_margins_entire in *. destruct v1.
  - assert (NE : rows <> []) by (intro X; subst rows; destruct sr; discriminate).
    assert (H12 : qz z1 <= qz z2) by (apply (proj1 (qz_le z1 z2)); lia).
    assert (H2 : qz z2 <= Q2Qc 100) by (apply (proj1 (qz_le z2 100)); lia).
    split.
    + destruct (v1_rows sr rows (qz z1) NE ltac:(eapply Qcle_trans; eauto)) as (p1 & F1 & L1 & _).
      destruct (v1_rows sr rows (qz z2) NE H2) as (p2 & F2 & L2 & _). congruence.
    + intros i a b. apply (v1_mono sr rows (qz z1) (qz z2)); auto.
  - assert (NE : rows <> []) by (intro X; subst rows; discriminate).
    destruct (v2_rows rows z1 NE ltac:(lia)) as (p1 & F1 & L1 & R1).
    destruct (v2_rows rows z2 NE ltac:(lia)) as (p2 & F2 & L2 & R2). outs_of E1 F1. outs_of E2 F2. split; [congruence|].
    intros i a b Ha Hb AN. destruct (nth_error_ex _ rows i) as (r & Hr). { rewrite <- L1. eapply nth_error_lt; eauto. }
    destruct (R1 i r Hr) as (u & a' & U1 & HU & Ha' & EA). destruct (R2 i r Hr) as (u' & b' & U2 & _ & Hb' & EB).
    rewrite U1 in U2. inversion U2; subst u'. rewrite Ha in Ha'. inversion Ha'; subst a'. rewrite Hb in Hb'. inversion Hb'; subst b'.
    destruct (v2_point_spec z1 u r ltac:(lia) HU) as (q1 & ? & G1 & _ & _ & _ & _ & _ & _ & _ & A1 & _).
    destruct (v2_point_spec z2 u r ltac:(lia) HU) as (q2 & ? & G2 & _ & _ & _ & _ & _ & _ & _ & A2 & _).
    rewrite EA in G1. inversion G1; subst q1. rewrite EB in G2. inversion G2; subst q2.
    apply A1 in AN. destruct AN as [RA RP]. apply A2. split; auto.
    assert (UP : 0 < u) by (pose proof min_unit_pos; qlra).
    set (d := Qcabs (r_value r - r_expected r)) in *. unfold reportable in *.
    destruct RP as [RP|(-> & RP1 & RP2)].
    + left. eapply Qcle_lt_trans; [|exact RP]. apply Qcmul_le_l; [qlra|]. apply factor_le. lia.
    + destruct (Z.eq_dec z2 99) as [->|N]; [right; auto|left]. assert (z2 = 100%Z) by lia. subst z2.
      change (Z.to_nat 100) with 100%nat. rewrite factor_100.
      assert (0 <= u * factor 99 * ANOMALY_IGNORE_RATIO); [|qlra].
      apply Qcmul_nonneg; [|discriminate]. apply Qcmul_nonneg; [qlra|]. apply factor_nonneg. lia.
Qed.
Print Assumptions C13_sensitivity_monotone.

(** C14. LATEST mode reports the last point of the ENTIRE computation, except
    possibly its severity; the severity agrees unless V2 cleared the anomaly. *)
Theorem C14_latest_is_last_of_entire : forall v1 sr rows z r, (0 <= z <= 100)%Z ->
  nth_error rows (length rows - 1) = Some r ->
  exists outs o ol, get_margins_entire v1 sr rows (qz z) = Ok outs /\ nth_error outs (length rows - 1) = Some o /\
    get_margins_last v1 sr rows (qz z) = Ok ol /\
    o_expected ol = o_expected o /\ o_upper ol = o_upper o /\ o_lower ol = o_lower o /\ o_neg ol = o_neg o /\
    o_pos ol = o_pos o /\ o_anomaly ol = o_anomaly o /\ o_unit ol = o_unit o /\ o_score ol = o_score o /\
    (v1 = true \/ o_anomaly o = r_anomaly r -> o_severity ol = o_severity o).
Proof.
  intros v1 sr rows z r HZ Hr.
  assert (NE : rows <> []) by (intro X; subst rows; discriminate).
  assert (LR : length rows = S (length rows - 1)) by (destruct rows; [congruence|simpl; lia]).
  unfold get_margins_entire, get_margins_last. destruct v1.
  - assert (HS : qz z <= Q2Qc 100) by (apply (proj1 (qz_le z 100)); lia).
    destruct (v1_rows sr rows (qz z) NE HS) as (outs & E & L & H).
    destruct (H _ _ Hr) as (ub & lb & Ho & _). rewrite E, bind_ok.
    exists outs. eexists. eexists. split; [reflexivity|]. split; [exact Ho|].
    split; [apply (last_opt_nth _ outs (length rows - 1)); [lia|exact Ho]|]. repeat split; auto.
  - destruct (v2_rows rows z NE HZ) as (outs & E & L & H). destruct (H _ _ Hr) as (u & o & Hu & HU & Ho & EO).
    destruct (v2_point_spec z u r HZ HU) as (o1 & ol & E1 & EL & _ & _ & _ & _ & _ & _ & _ & (sc & _ & _ & S1 & S2) & _ & A).
    rewrite EO in E1. inversion E1; subst o1. exists outs, o, ol. split; auto. split; auto. split.
    { unfold get_margins_v2_last. rewrite (last_opt_nth _ rows (length rows - 1) r) by auto. rewrite bind_ok.
      rewrite (last_opt_nth _ _ (length rows - 1) u) by (auto; rewrite (proj1 (units_spec rows)); auto). auto. }
    destruct A as (A1 & A2 & A3 & A4 & A5 & A6 & A7 & A8). repeat split; auto.
    intros [X|X]; [discriminate|]. rewrite S1, S2, X. auto.
Qed.
Print Assumptions C14_latest_is_last_of_entire.
(** C14. The severity differs for a detector anomaly inside its V2 band. *)
Theorem C14_severity_refuted : exists rows z outs o ol, (0 <= z <= 100)%Z /\
  get_margins_entire false false rows (qz z) = Ok outs /\ nth_error outs (length rows - 1) = Some o /\
  get_margins_last false false rows (qz z) = Ok ol /\
  o_anomaly ol = false /\ o_anomaly o = false /\ o_severity o = 0 /\ o_severity ol <> 0.
Proof.
  exists ex_rows, 50%Z.
  destruct (C14_latest_is_last_of_entire false false ex_rows 50 _ ltac:(lia) eq_refl) as (outs & o & ol & E & Ho & EL & _).
  exists outs, o, ol. split; [lia|]. split; auto. split; auto. split; auto.
  assert (SE : match get_margins_entire false false ex_rows (qz 50) with
          | Ok outs => match nth_error outs 3 with Some o => o_anomaly o = false /\ this (o_severity o) = 0%Q | None => False end
          | _ => False end) by (vm_compute; auto).
  assert (SL : match get_margins_last false false ex_rows (qz 50) with
          | Ok ol => o_anomaly ol = false /\ Qeq_bool (this (o_severity ol)) 0 = false | _ => False end) by (vm_compute; auto).
  rewrite E in SE. change (length ex_rows - 1)%nat with 3%nat in Ho. rewrite Ho in SE. rewrite EL in SL.
  destruct SE as [SE1 SE2]. destruct SL as [SL1 SL2]. repeat split; auto.
  - apply Qc_is_canon. rewrite SE2. reflexivity.
  - intro X. rewrite X in SL2. discriminate SL2.
Qed.
Print Assumptions C14_severity_refuted.

(** C15. The V2 score is in [0,100], grows with the distance in units, and
    exceeds 100 - s exactly beyond factor(s) units. *)
Theorem C15_score_range : forall v e u, 0 < u ->
  exists sc, calculate_anomaly_score v e u = Ok sc /\ 0 <= sc /\ sc <= qz 100.
Proof.
  intros v e u HU. destruct (score_spec v e u HU) as (sc & E & _). exists sc. split; auto. apply (score_range v e u); auto.
Qed.
Print Assumptions C15_score_range.
Theorem C15_score_monotone : forall v1 e1 u1 v2 e2 u2 a b, 0 < u1 -> 0 < u2 ->
  calculate_anomaly_score v1 e1 u1 = Ok a -> calculate_anomaly_score v2 e2 u2 = Ok b ->
  Qcabs (v1 - e1) / u1 <= Qcabs (v2 - e2) / u2 -> a <= b.
Proof. exact score_mono. Qed.
Print Assumptions C15_score_monotone.
Theorem C15_score_calibrated : forall v e u sc s, 0 < u -> calculate_anomaly_score v e u = Ok sc -> (1 <= s <= 100)%nat ->
  (qn (100 - s) < sc <-> u * factor s < Qcabs (v - e)).
Proof. exact score_gt_iff. Qed.
Print Assumptions C15_score_calibrated.
(** C15. So a detector anomaly is reported at sensitivity s (other than 99)
    exactly when its score exceeds 100 - s. *)
Theorem C15_reported_iff_score : forall sr rows s outs, (1 <= s <= 100)%nat -> s <> 99%nat ->
  get_margins_entire false sr rows (qn s) = Ok outs ->
  rowwise rows outs (fun r o => exists sc, o_score o = Some sc /\
    (o_anomaly o = true <-> r_anomaly r = true /\ qn (100 - s) < sc)).
Proof.
  intros sr rows s outs HS N9 E. unfold qn at 1 in E. unfold get_margins_entire in E.
  assert (NE : rows <> []) by (intro X; subst rows; discriminate).
  destruct (v2_rows rows (Z.of_nat s) NE ltac:(lia)) as (o' & E' & L & H). outs_of E E'. split; auto.
  intros i r o Hr Ho. destruct (H i r Hr) as (u & o1 & Hu & HU & Ho1 & EO). rewrite Ho in Ho1. inversion Ho1; subst o1.
  destruct (v2_point_spec (Z.of_nat s) u r ltac:(lia) HU) as (o1 & ol & E1 & _ & _ & _ & _ & _ & _ & _ & AR & (sc & ES & SC & _) & _).
  rewrite EO in E1. inversion E1; subst o1. exists sc. split; auto. rewrite AR.
  assert (UP : 0 < u) by (pose proof min_unit_pos; qlra).
  rewrite (score_gt_iff (r_value r) (r_expected r) u sc s UP ES HS).
  unfold reportable. rewrite Nat2Z.id. split; intros [A B]; split; auto. destruct B as [B|(B & _)]; auto. lia.
Qed.
Print Assumptions C15_reported_iff_score.
(** C15. Severities are in [0,1]. *)
Theorem C15_severity_range : forall v1 sr rows z outs, (0 <= z <= 100)%Z ->
  get_margins_entire v1 sr rows (qz z) = Ok outs ->
  rowwise rows outs (fun r o => 0 <= o_severity o /\ o_severity o <= 1 /\ (o_anomaly o = false -> o_severity o = 0)).
Proof.
  intros v1 sr rows z outs HZ E. unfold get_margins_entire in E. destruct v1.
  - assert (NE : rows <> []) by (intro X; subst rows; destruct sr; discriminate).
    assert (HS : qz z <= Q2Qc 100) by (apply (proj1 (qz_le z 100)); lia).
    destruct (v1_rows sr rows (qz z) NE HS) as (o' & E' & L & H). outs_of E E'. split; auto.
    intros i r o Hr Ho. destruct (H i r Hr) as (ub & lb & Ho' & HU & HL). rewrite Ho' in Ho. inversion Ho; subst o.
    destruct (refine_row_nonneg (qz z) ub lb r HU HL) as (_ & _ & _ & A & B). split; auto. split; auto.
    unfold refine_row. cbv zeta. cbn [o_anomaly o_severity]. intros X. unfold calculate_severity_v1. rewrite X. auto.
  - assert (NE : rows <> []) by (intro X; subst rows; discriminate).
    destruct (v2_rows rows z NE HZ) as (o' & E' & L & H). outs_of E E'. split; auto.
    intros i r o Hr Ho. destruct (H i r Hr) as (u & o1 & Hu & HU & Ho1 & EO). rewrite Ho in Ho1. inversion Ho1; subst o1.
    destruct (v2_point_spec z u r HZ HU) as (o1 & ol & E1 & _ & _ & _ & _ & _ & _ & _ & _ & (sc & ES & _ & SV & _) & _).
    rewrite EO in E1. inversion E1; subst o1. rewrite SV.
    assert (UP : 0 < u) by (pose proof min_unit_pos; qlra).
    destruct (score_range _ _ _ _ UP ES). unfold calculate_severity_v2. destruct (o_anomaly o); cbn [negb].
    + split; [apply Qcdiv_nonneg; auto; reflexivity|]. split; [|discriminate]. apply Qcdiv_le_iff; [reflexivity|]. qlra.
    + split; [qlra|]. split; [qlra|]. auto.
Qed.
Print Assumptions C15_severity_range.

(** The frame above: with V1 and sensitivity 60 the second point stays
    anomalous and the last one is cleared; with 95 both are reported. In V2
    the last one is reported at sensitivity 90 but not at 50. *)
Definition flags (r : res (list outcome)) : list bool := match r with Ok l => map o_anomaly l | _ => [] end.
Example C10_to_C15_example :
  Forall consistent_row ex_rows /\
  flags (get_margins_entire true false ex_rows (qz 60)) = [false; true; false; false] /\
  flags (get_margins_entire true false ex_rows (qz 95)) = [false; true; false; true] /\
  flags (get_margins_entire true true ex_rows (qz 100)) = [false; true; false; true] /\
  flags (get_margins_entire false false ex_rows (qz 50)) = [false; false; false; false] /\
  flags (get_margins_entire false false ex_rows (qz 90)) = [false; true; false; true] /\
  match calculate_anomaly_score (qz 30) (qz 11) (qz 2) with
  | Ok sc => Qeq_bool (this sc) (58 + (3#5)) = true | _ => False end.
Proof. split; [repeat constructor|]. vm_compute. repeat split. Qed.
