(** The width of the band under a higher sensitivity (C118). *)
From Coq Require Import List Arith ZArith Lia Bool Qround.
From Verif Require Import Base Num Sorting Kernel_model Kernel_proofs Kernel_proofs2 Margins_model Margins_spec Margins_proofs Margins_proofs2 Margins_proofs3 Follow_spec Band_spec.
Import ListNotations.
Open Scope Qc_scope.

(** V1, one row: the boundaries come closer, the band follows unless it is
    widened again to take in a value that is not an anomaly. *)
Lemma refine_row_closer : forall s s' ub lb ub' lb' r, s <= s' -> s' <= Q2Qc 100 -> (s = s' -> ub = ub' /\ lb = lb') -> ub' <= ub -> lb <= lb' -> r_expected r <= ub' -> lb' <= r_expected r ->
  let o := refine_row s ub lb r in let o' := refine_row s' ub' lb' r in
  (o_anomaly o' = true -> no_wider o o') /\ hardly_wider (r_value r) o o'.
Proof.
  intros s s' ub lb ub' lb' r HS HS' SAME HU HL HE HE'. cbv zeta. unfold no_wider, hardly_wider, refine_row. cbv zeta.
  destruct r as [v e t sc a ng ps]. cbn [r_value r_expected r_anomaly o_expected o_upper o_lower o_anomaly] in *. rewrite c101.
  assert (SS : (s =? Q2Qc 100) = true -> (s' =? Q2Qc 100) = true).
  { intros X. apply Qceqb_eq in X. apply Qceqb_eq. apply Qcle_antisym; auto. rewrite <- X. auto. }
  assert (EQ : (s =? Q2Qc 100) = true -> ub = ub' /\ lb = lb').
  { intros X. apply SAME. pose proof (SS X) as Y. apply Qceqb_eq in X, Y. congruence. }
  assert (AB : e <= v -> Qcabs (v - e) = v - e) by (intros; qmm; qlra). assert (AB' : v <= e -> Qcabs (v - e) = e - v) by (intros; qmm; qlra).
  pose proof (Qcabs_nonneg (v - e)) as A0.
  destruct a; cbn [andb negb]; rewrite ?andb_false_r, ?andb_true_r.
  - destruct (s =? Q2Qc 100) eqn:Es; [rewrite (SS eq_refl); destruct (EQ eq_refl) as [Q1 Q2]|destruct (s' =? Q2Qc 100)]; cbn [andb negb];
      destruct (v <=? ub) eqn:E1; destruct (lb <=? v) eqn:E2; destruct (v <=? ub') eqn:E3; destruct (lb' <=? v) eqn:E4; qb_hyps; cbn [andb negb];
      try (exfalso; qlra); (split; [intros AN; try discriminate AN; split; qlra|split; left; qlra]).
  - destruct (ub <? v) eqn:E1; destruct (v <? lb) eqn:E2; destruct (ub' <? v) eqn:E3; destruct (v <? lb') eqn:E4; qb_hyps; try (exfalso; qlra);
      (split; [discriminate|]); 
      try (rewrite AB by qlra); try (rewrite AB' by qlra); split; first [left; qlra|right; qlra].
Qed.
Lemma v1_closer : forall sr rows s1 s2 o1 o2 i r a b, s1 <= s2 -> s2 <= Q2Qc 100 ->
  get_margins_v1 sr rows s1 = Ok o1 -> get_margins_v1 sr rows s2 = Ok o2 -> nth_error rows i = Some r ->
  nth_error o1 i = Some a -> nth_error o2 i = Some b -> (o_anomaly b = true -> no_wider a b) /\ hardly_wider (r_value r) a b.
Proof.
  intros sr rows s1 s2 o1 o2 i r a b HS H2 E1 E2 Hr Ha Hb.
  assert (NE : rows <> []) by (intro X; subst rows; destruct sr; discriminate).
  rewrite v1_unfold in E1, E2.
  set (m1 := map (v1_margin sr rows s1) rows) in *. set (m2 := map (v1_margin sr rows s2) rows) in *.
  assert (L1 : length m1 = length rows) by apply map_length.
  assert (L2 : length m2 = length rows) by apply map_length.
  destruct (refine_margins_rows rows m1 L1 NE s1) as (q1 & F1 & LO1 & R1).
  destruct (refine_margins_rows rows m2 L2 NE s2) as (q2 & F2 & LO2 & R2).
  rewrite E1 in F1. rewrite E2 in F2. inversion F1; subst q1. inversion F2; subst q2. clear F1 F2 E1 E2.
  assert (N1 : nth_error m1 i = Some (v1_margin sr rows s1 r)) by (unfold m1; rewrite nth_error_map, Hr; auto).
  assert (N2 : nth_error m2 i = Some (v1_margin sr rows s2 r)) by (unfold m2; rewrite nth_error_map, Hr; auto).
  rewrite (R1 _ _ _ Hr N1) in Ha. rewrite (R2 _ _ _ Hr N2) in Hb. inversion Ha; subst a. inversion Hb; subst b. clear Ha Hb.
  assert (NN : forall m, In m m2 -> 0 <= m).
  { intros m Hm. apply in_map_iff in Hm. destruct Hm as (x & <- & I). apply v1_margin_nonneg; auto. }
  destruct (refine_bounds rows m2 NN i r _ Hr N2) as (B1 & B2 & _).
  assert (PT : forall j x y, nth_error m1 j = Some x -> nth_error m2 j = Some y -> y <= x).
  { intros j x y Hx Hy. unfold m1, m2 in Hx, Hy. rewrite nth_error_map in Hx, Hy.
    destruct (nth_error rows j); simpl in *; inversion Hx; inversion Hy; subst. apply v1_margin_mono; auto. }
  pose proof (PT _ _ _ N1 N2) as PM.
  assert (UB : qmin_list (ubs rows m2) <= qmin_list (ubs rows m1)).
  { apply qmin_list_mono.
    - rewrite !ubs_length by auto. auto.
    - intro X. apply (f_equal (@length Qc)) in X. rewrite ubs_length in X by auto. destruct rows; [congruence|discriminate].
    - intros j x y Hx Hy.
      assert (LJ : (j < length rows)%nat) by (rewrite <- (ubs_length rows m1) by auto; eapply nth_error_lt; eauto).
      destruct (nth_error_ex _ rows j LJ) as (rj & Hj).
      destruct (nth_error_ex _ m1 j ltac:(lia)) as (mx & Hmx). destruct (nth_error_ex _ m2 j ltac:(lia)) as (my & Hmy).
      rewrite (ubs_nth rows m2 j rj my Hj Hmy) in Hx. rewrite (ubs_nth rows m1 j rj mx Hj Hmx) in Hy.
      inversion Hx; inversion Hy; subst. pose proof (PT _ _ _ Hmx Hmy). qlra. }
  assert (LB : qmax_list (lbs rows m1) <= qmax_list (lbs rows m2)).
  { apply qmax_list_mono.
    - rewrite !lbs_length by auto. auto.
    - intro X. apply (f_equal (@length Qc)) in X. rewrite lbs_length in X by auto. destruct rows; [congruence|discriminate].
    - intros j x y Hx Hy.
      assert (LJ : (j < length rows)%nat) by (rewrite <- (lbs_length rows m1) by auto; eapply nth_error_lt; eauto).
      destruct (nth_error_ex _ rows j LJ) as (rj & Hj).
      destruct (nth_error_ex _ m1 j ltac:(lia)) as (mx & Hmx). destruct (nth_error_ex _ m2 j ltac:(lia)) as (my & Hmy).
      rewrite (lbs_nth rows m1 j rj mx Hj Hmx) in Hx. rewrite (lbs_nth rows m2 j rj my Hj Hmy) in Hy.
      inversion Hx; inversion Hy; subst. pose proof (PT _ _ _ Hmx Hmy). qlra. }
  apply refine_row_closer; auto; try (apply np_clip_mono; auto; qlra).
  intros X. unfold m1, m2. rewrite X. auto.
Qed.

(** V2, one point. *)
Lemma margin_closer : forall unit z z' v e a up lo up' lo', (0 <= z <= z')%Z -> (z' <= 100)%Z -> 0 < unit ->
  calculate_margin unit (qz z) v e a = Ok (up, lo) -> calculate_margin unit (qz z') v e a = Ok (up', lo') -> up' <= up /\ lo' <= lo.
Proof.
  assert (UN : forall unit z v e a, (0 <= z <= 100)%Z -> 0 < unit -> calculate_margin unit (qz z) v e a = calculate_changed_margin unit z v e a).
  { intros unit z v e a HZ HU. unfold calculate_margin.
    assert (S1 : (qz z <? 0) = false).
    { destruct (qz z <? 0) eqn:E; qb_hyps; auto. exfalso. assert (0 <= qz z) by (apply (proj1 (qz_le 0 z)); lia). qlra. }
    assert (S2 : (Q2Qc 100 <? qz z) = false).
    { destruct (Q2Qc 100 <? qz z) eqn:E; qb_hyps; auto. exfalso. assert (qz z <= qz 100) by (apply (proj1 (qz_le z 100)); lia).
      change (Q2Qc 100) with (qz 100) in E. qlra. }
    assert (S3 : (unit <=? 0) = false) by (destruct (unit <=? 0) eqn:E; qb_hyps; auto; exfalso; qlra).
    rewrite S1, S2, S3. cbn [orb]. cbv zeta. rewrite floor_qz, Qceqb_refl. destruct (calculate_changed_margin unit z v e a); reflexivity. }
  intros unit z z' v e a up lo up' lo' HZ HZ' HU E E'. rewrite UN in E, E' by (auto; lia). unfold calculate_changed_margin in *.
  assert (G1 : get factors (Z.to_nat z) = Ok (factor (Z.to_nat z))) by (apply get_ok, factor_nth; lia).
  assert (G2 : get factors (Z.to_nat z') = Ok (factor (Z.to_nat z'))) by (apply get_ok, factor_nth; lia).
  rewrite G1, bind_ok in E. rewrite G2, bind_ok in E'. clear G1 G2.
  assert (F0 : 0 <= factor (Z.to_nat z')) by (apply factor_nonneg; lia). assert (FF : factor (Z.to_nat z') <= factor (Z.to_nat z)) by (apply factor_le; lia).
  assert (F100 : z' = 100%Z -> factor (Z.to_nat z') = 0) by (intros ->; apply factor_100).
  assert (Fz : z = z' -> factor (Z.to_nat z') = factor (Z.to_nat z)) by (intros ->; auto).
  set (f := factor (Z.to_nat z)) in *. set (f' := factor (Z.to_nat z')) in *. clearbody f f'.
  assert (DD : unit * f' <= unit * f) by (apply Qcmul_le_l; auto; qlra). assert (D0 : 0 <= unit * f') by (apply Qcmul_nonneg; auto; qlra).
  assert (G : z' = 100%Z -> unit * f' = 0) by (intros X; rewrite (F100 X); ring). assert (GZ : z = z' -> unit * f' = unit * f) by (intros X; rewrite (Fz X); auto).
  set (q := unit * f) in *. set (q' := unit * f') in *. clearbody q q'. pose proof (Qcabs_nonneg (e - v)) as A0. cbv zeta in *.
  destruct a; cbn [negb] in *.
  - rewrite (Qcabs_sub_sym v e) in *. set (d := Qcabs (e - v)) in *. clearbody d.
    assert (I0 : 0 <= q * ANOMALY_IGNORE_RATIO) by (apply Qcmul_nonneg; [qlra|discriminate]).
    destruct (z =? 99)%Z eqn:Z9; destruct (z' =? 99)%Z eqn:Z9'; rewrite ?andb_false_r, ?andb_true_r in *;
      rewrite ?Z.eqb_eq, ?Z.eqb_neq in *.
    + specialize (GZ ltac:(lia)). subst q'. rewrite E in E'. inversion E'; subst. split; qlra.
    + specialize (G ltac:(lia)). subst q'. inversion E'; subst up' lo'. destruct (_ && _); inversion E; subst up lo; split; qlra.
    + inversion E; subst up lo. destruct (q' * ANOMALY_IGNORE_RATIO <? d) eqn:P1; destruct (d <? q') eqn:P2; cbn [andb] in E'; qb_hyps; inversion E'; subst up' lo'; split; qlra.
    + inversion E; inversion E'; subst. split; auto.
  - assert (T3 : forall x y, x <= y -> x / Q2Qc 3 <= y / Q2Qc 3).
    { intros x y H. apply Qcdiv_le_iff; [reflexivity|]. replace (y / Q2Qc 3 * Q2Qc 3) with y by (field; discriminate). auto. }
    assert (W : Qcabs (e - v) + q' * Q2Qc (1 # 2) <= Qcabs (e - v) + q * Q2Qc (1 # 2)) by qlra.
    destruct (e <? v); inversion E; inversion E'; subst; split; auto.
Qed.
Lemma v2_closer : forall z z' unit r o o', (0 <= z <= z')%Z -> (z' <= 100)%Z -> 0 < unit ->
  v2_entire_point (qz z) unit r = Ok o -> v2_entire_point (qz z') unit r = Ok o' -> no_wider o o'.
Proof.
  intros z z' unit r o o' HZ HZ' HU E E'. unfold v2_entire_point in *. destruct (calculate_anomaly_score _ _ _) as [sc|]; [|discriminate].
  rewrite bind_ok in *. destruct (calculate_margin unit (qz z) _ _ _) as [[up lo]|] eqn:M; [|discriminate]. destruct (calculate_margin unit (qz z') _ _ _) as [[up' lo']|] eqn:M'; [|discriminate].
  rewrite bind_ok in *. cbv zeta in *. inversion E; inversion E'; subst. unfold no_wider. cbn [o_upper o_lower fst snd].
  eapply margin_closer; eauto.
Qed.
