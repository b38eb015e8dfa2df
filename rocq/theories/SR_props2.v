(** Properties C87 and C88: padding and raw scores of the spectral residual detector. *)
From Coq Require Import List Arith ZArith QArith Qcanon Qround Lia Bool Sorted Permutation.
From Verif Require Import Base Num Sorting Kernel_model Kernel_proofs Kernel_proofs2 Kernel_proofs5 Kernel_props Helpers_model Helpers_spec Helpers_proofs
  Helpers_proofs2 Helpers_props Margins_model SR_model SR_spec SR_spec2 SR_proofs SR_proofs2 SR_proofs3 Detect_proofs2 Detect_proofs3.
Import ListNotations.
Open Scope nat_scope.

(** C87. Points on a straight line are continued on that line. *)
Theorem C87_line_continues : forall a b n, 2 <= n ->
  predict_next (map (fun i => a + b * qn i)%Qc (range n)) = Ok (a + b * qn n)%Qc.
Proof.
  intros a b n H. pose proof (predict_affine b a _ _ (predict_range n H)) as P. rewrite map_map in P.
  replace (a + b * qn n)%Qc with (b * qn n + a)%Qc by ring. rewrite <- P. f_equal. apply map_ext. intros i. ring.
Qed.
Print Assumptions C87_line_continues.
(** C87. The prediction is expressed in the units of the data. *)
Theorem C87_units : forall k c l p, predict_next l = Ok p -> predict_next (map (fun x => k * x + c)%Qc l) = Ok (k * p + c)%Qc.
Proof. exact predict_affine. Qed.
Print Assumptions C87_units.
Example C87_example :
  (exists p, predict_next (zs [3; 5; 4; 8; 6; 9]%Z) = Ok p /\ this p = (3197 # 300)%Q) /\
  predict_next (map (fun i => qz 3 + qz (-2) * qn i)%Qc (range 6)) = Ok (qz 3 + qz (-2) * qn 6)%Qc.
Proof. split; [eexists; split; reflexivity|apply C87_line_continues; lia]. Qed.

Lemma quantile_unique : forall l q x y, quantile l q x -> quantile l q y -> x = y.
Proof.
  intros l q x y (s & k & t & P & SS & E & T0 & T1 & _ & ->) (s' & k' & t' & P' & SS' & E' & T0' & T1' & _ & ->).
  assert (X : s = s') by (apply qsorted_unique; auto; etransitivity; [eauto|symmetry; auto]). subst s'.
  assert (K : k = k').
  { rewrite E in E'. destruct (Nat.lt_trichotomy k k') as [L|[->|L]]; auto; exfalso;
    apply (proj1 (Nat.le_succ_l _ _)) in L; apply qn_le in L; rewrite <- Nat.add_1_r, qn_add in L; change (qn 1) with 1%Qc in L; qlra. }
  subst k'. assert (T : t = t') by (rewrite E in E'; qlra). subst. auto.
Qed.

(** C87. In ENTIRE mode the prediction is made from the last six inliers of the
    series, in order (median copies in front if there are fewer), inliers
    being the points within 1.5 interquartile ranges of the quartiles; in
    LATEST mode from the (up to) six points before the last. Five copies of it
    are appended. *)
Theorem C87_padding_entire : forall values ext, extend_series values true = Ok ext ->
  exists q25 q50 q75 w p, quantile values (Q2Qc (1 # 4)) q25 /\ quantile values (Q2Qc (1 # 2)) q50 /\ quantile values (Q2Qc (3 # 4)) q75 /\
    last_inliers (inlier q25 q75) q50 values 6 w /\ predict_next w = Ok p /\ ext = values ++ repeat p 5.
Proof.
  intros values ext H. unfold extend_series in H.
  destruct (np_quantile values (Q2Qc (3 # 4))) as [q75|] eqn:E75; [|discriminate]. rewrite bind_ok in H.
  destruct (np_quantile values (Q2Qc (1 # 2))) as [q50|] eqn:E50; [|discriminate]. rewrite bind_ok in H.
  destruct (np_quantile values (Q2Qc (1 # 4))) as [q25|] eqn:E25; [|discriminate]. rewrite !bind_ok in H. cbv zeta in H.
  destruct (ahead_spec (inlier q25 q75) (q25 - Q2Qc (3 # 2) * (q75 - q25))%Qc (q75 + Q2Qc (3 # 2) * (q75 - q25))%Qc q50
     ltac:(intros; reflexivity) (rev values) 6 []) as (w & EW & W).
  rewrite EW, app_nil_r in H. rewrite rev_involutive in W.
  destruct (predict_next w) as [p|] eqn:EP; [|discriminate]. rewrite bind_ok in H. injection H as <-.
  exists q25, q50, q75, w, p. split; [apply np_quantile_spec; auto; qlra|]. split; [apply np_quantile_spec; auto; qlra|].
  split; [apply np_quantile_spec; auto; qlra|]. auto.
Qed.
Print Assumptions C87_padding_entire.
Theorem C87_padding_latest : forall before recent v ext, length recent = 6 \/ before = [] /\ length recent <= 6 ->
  extend_series (before ++ recent ++ [v]) false = Ok ext ->
  exists p, predict_next recent = Ok p /\ ext = before ++ recent ++ [v] ++ repeat p 5.
Proof.
  intros before recent v ext L H. unfold extend_series in H. rewrite bind_ok in H.
  assert (S : slice (before ++ recent ++ [v]) (length (before ++ recent ++ [v]) - 7) (length (before ++ recent ++ [v]) - 1) = recent).
  { rewrite !app_length. cbn [length]. unfold slice.
    replace (length before + (length recent + 1) - 7) with (length before) by (destruct L as [L|[-> L]]; cbn; lia).
    rewrite skipn_app, skipn_all, Nat.sub_diag. cbn [skipn app].
    replace (length before + (length recent + 1) - 1 - length before) with (length recent) by lia.
    rewrite firstn_app, firstn_all, Nat.sub_diag. cbn. apply app_nil_r. }
  rewrite S in H. destruct (predict_next recent) as [p|]; [|discriminate]. rewrite bind_ok in H. injection H as <-.
  exists p. split; auto. rewrite <- !app_assoc. auto.
Qed.
Print Assumptions C87_padding_latest.
(** The half quantile is the median, and the quartiles are in order. *)
Theorem C87_half_is_median : forall l x, l <> [] -> quantile l (Q2Qc (1 # 2)) x -> x = qmedian l.
Proof.
  intros l x NE (s & k & t & P & SS & E & T0 & T1 & K & ->).
  unfold qmedian. assert (QS : qsort l = s).
  { apply qsorted_unique; auto; [apply qsort_sorted|]. etransitivity; [symmetry; apply qsort_perm|symmetry; auto]. }
  rewrite QS. unfold median_of_sorted. rewrite (Permutation_length P).
  assert (H2 : (Q2Qc (1 # 2) = 1 / (1 + 1))%Qc) by (apply Qc_is_canon; reflexivity). rewrite H2 in E.
  assert (E2 : (qn (length l - 1) = qn (k + k) + (1 + 1) * t)%Qc).
  { rewrite qn_add. transitivity ((1 + 1) * (qn (length l - 1) * (1 / (1 + 1))))%Qc; [field; apply two_neq|rewrite E; ring]. }
  pose proof (Nat.div_mod (length l) 2 ltac:(lia)) as D. pose proof (Nat.mod_upper_bound (length l) 2 ltac:(lia)).
  assert (B1 : k + k <= length l - 1). { apply qn_le. rewrite E2. qlra. }
  assert (B2 : length l - 1 < k + k + 2). { apply qn_lt. rewrite E2, (qn_add (k + k) 2). change (qn 2) with (Q2Qc 2). rewrite two_qc. qlra. }
  rewrite <- mod2_odd. destruct (length l mod 2 =? 1) eqn:O; rewrite ?Nat.eqb_eq, ?Nat.eqb_neq in O.
  - assert (EL : length l - 1 = k + k) by lia. rewrite EL in E2. assert (T : t = 0%Qc) by qlra. rewrite T.
    assert (DK : length l / 2 = k) by lia. rewrite DK. ring.
  - assert (EL : length l - 1 = k + k + 1) by lia. rewrite EL, (qn_add (k + k) 1) in E2. change (qn 1) with 1%Qc in E2.
    assert (T : t = (1 / (1 + 1))%Qc). { transitivity (((1 + 1) * t) / (1 + 1))%Qc; [field; apply two_neq|]. f_equal. qlra. }
    assert (DK : length l / 2 = k + 1) by lia. rewrite DK. replace (k + 1 - 1) with k by lia. rewrite T, two_qc. field. apply two_neq.
Qed.
Print Assumptions C87_half_is_median.
(** 100 and -90 are left out of the last six inliers. *)
Example C87_padding_example :
  exists p, extend_series (zs [1; 2; 3; 4; 5; 100; 6; 7; -90; 8; 9; 10]%Z) true = Ok (zs [1; 2; 3; 4; 5; 100; 6; 7; -90; 8; 9; 10]%Z ++ repeat p 5) /\
    this p = 11%Q /\ last_inliers (inlier (Q2Qc (11 # 4)) (Q2Qc (33 # 4))) 0%Qc (zs [1; 2; 3; 4; 5; 100; 6; 7; -90; 8; 9; 10]%Z) 6 (zs [5; 6; 7; 8; 9; 10]%Z).
Proof. 
  eexists. split; [vm_compute; reflexivity|]. split; [reflexivity|].
  assert (Y : forall z, (-5 <= z <= 16)%Z -> inlier (Q2Qc (11 # 4)) (Q2Qc (33 # 4)) (qz z)).
  { intros z HZ. assert (A : (qz (-5) <= qz z)%Qc) by (apply (proj1 (qz_le _ _)); apply HZ). assert (B : (qz z <= qz 16)%Qc) by (apply (proj1 (qz_le _ _)); apply HZ).
    change (qz (-5)) with (Q2Qc (-5)) in A. change (qz 16) with (Q2Qc 16) in B. unfold inlier; split; qlra. }
  assert (N1 : ~ inlier (Q2Qc (11 # 4)) (Q2Qc (33 # 4)) (qz 100)) by (intros [_ X]; revert X; apply Qclt_not_le; reflexivity).
  assert (N2 : ~ inlier (Q2Qc (11 # 4)) (Q2Qc (33 # 4)) (qz (-90))) by (intros [X _]; revert X; apply Qclt_not_le; reflexivity).
  unfold zs. cbn [map].
  apply (li_take _ _ (zs [1; 2; 3; 4; 5; 100; 6; 7; -90; 8; 9]%Z) (qz 10) 5 (zs [5; 6; 7; 8; 9]%Z)); [apply Y; lia|].
  apply (li_take _ _ (zs [1; 2; 3; 4; 5; 100; 6; 7; -90; 8]%Z) (qz 9) 4 (zs [5; 6; 7; 8]%Z)); [apply Y; lia|].
  apply (li_take _ _ (zs [1; 2; 3; 4; 5; 100; 6; 7; -90]%Z) (qz 8) 3 (zs [5; 6; 7]%Z)); [apply Y; lia|].
  apply (li_skip _ _ (zs [1; 2; 3; 4; 5; 100; 6; 7]%Z) (qz (-90)) 3 (zs [5; 6; 7]%Z)); auto.
  apply (li_take _ _ (zs [1; 2; 3; 4; 5; 100; 6]%Z) (qz 7) 2 (zs [5; 6]%Z)); [apply Y; lia|].
  apply (li_take _ _ (zs [1; 2; 3; 4; 5; 100]%Z) (qz 6) 1 (zs [5]%Z)); [apply Y; lia|].
  apply (li_skip _ _ (zs [1; 2; 3; 4; 5]%Z) (qz 100) 1 (zs [5]%Z)); auto.
  apply (li_take _ _ (zs [1; 2; 3; 4]%Z) (qz 5) 0 []); [apply Y; lia|]. constructor.
Qed.

Section Scores.
Variable transform : list Qc -> list Qc.

(** C88. Every raw score is the relative deviation of the point's magnitude
    from the average of the recent magnitudes, about 1e-8 standing for an
    average that small; it is never negative and no division by zero occurs. *)
Theorem C88_raw_scores : forall series remove scores ext,
  (forall l x, In x (transform l) -> (0 <= x)%Qc) ->
  generate_spectral_score transform series remove = Ok scores -> extend_series series remove = Ok ext ->
  let mag := firstn (length series) (transform ext) in
  length scores = length mag /\
  forall i m s, nth_error mag i = Some m -> nth_error scores i = Some s ->
    exists a, relative_deviation m a s /\ (0 <= s)%Qc /\
      (a = padded_mean mag 100 i /\ (Q2Qc 2 * EPS < a)%Qc \/ a = EPS /\ (padded_mean mag 100 i < Q2Qc 3 * EPS)%Qc).
Proof.
  intros series remove scores ext NN H HE mag. unfold generate_spectral_score in H. rewrite HE, bind_ok in H. cbv zeta in H.
  fold mag in H. rewrite C23_average_filter_fill_to_n in H by lia. rewrite bind_ok in H. injection H as <-.
  split. { rewrite zip_with_length, !map_length. unfold range. rewrite seq_length. lia. }
  intros i m s Hm Hs. rewrite zip_with_combine, nth_error_map in Hs.
  assert (LI : i < length mag) by (apply (nth_error_lt _ _ _ _ Hm)).
  set (avs := map _ (map (padded_mean mag 100) (range (length mag)))) in *.
  set (clip := fun x => if isclose x EPS then EPS else x) in *.
  assert (HA : nth_error avs i = Some (clip (padded_mean mag 100 i))).
  { unfold avs. rewrite !nth_error_map. unfold range. rewrite nth_error_seq.
    assert (X : (i <? length mag) = true) by (apply Nat.ltb_lt; auto). rewrite X. auto. }
  assert (HC : nth_error (combine mag avs) i = Some (m, clip (padded_mean mag 100 i))).
  { clear -Hm HA. clearbody avs. revert avs i Hm HA. generalize (padded_mean mag 100) as pm. induction mag as [|x t IH]; intros pm [|y u] [|i] Hm HA; try discriminate; cbn in *; auto.
    - congruence.
    - apply (IH (fun i => pm (S i))); auto. }
  rewrite HC in Hs. cbn [option_map fst snd] in Hs. injection Hs as <-.
  set (pm := padded_mean mag 100 i) in *.
  assert (EP : (0 < EPS)%Qc) by reflexivity.
  assert (NM : forall x, In x mag -> (0 <= x)%Qc) by (intros x I; apply (NN ext); unfold mag in I; apply firstn_incl in I; auto).
  assert (P0 : (0 <= pm)%Qc).
  { unfold pm, padded_mean.
    assert (QS : forall l, (forall x, In x l -> (0 <= x)%Qc) -> (0 <= qsum l)%Qc).
    { clear. induction l as [|x t IH]; intros G; [cbn; discriminate|]. cbn [qsum fold_right]. fold (qsum t).
      specialize (IH (fun y I => G y (or_intror I))). specialize (G x (or_introl eq_refl)). qlra. }
    assert (QM : forall l, (forall x, In x l -> (0 <= x)%Qc) -> (0 <= qmean l)%Qc).
    { intros l G. unfold qmean. destruct l as [|x t]; [cbn; discriminate|]. apply Qcdiv_nonneg; [apply QS; auto|apply qn_pos; cbn; lia]. }
    destruct (i =? 0).
    - apply NM. apply nth_In. lia.
    - destruct (100 <=? i).
      + apply QM. intros x I. apply NM. apply in_slice in I. auto.
      + apply Qcdiv_nonneg; [|apply qn_pos; lia].
        assert (A : (0 <= qsum (firstn (i + 1) mag))%Qc) by (apply QS; intros x I; apply NM; apply firstn_incl in I; auto).
        assert (B : (0 <= qmean (firstn i mag))%Qc) by (apply QM; intros x I; apply NM; apply firstn_incl in I; auto).
        pose proof (qn_nonneg (100 - 1 - i)) as C. set (u := qmean _) in *. set (v := qn (100 - 1 - i)) in *. clearbody u v.
        assert (D : (0 <= v * u)%Qc) by qnra. qlra. }
  assert (CC : (Q2Qc 2 * EPS < pm /\ clip pm = pm)%Qc \/ (pm < Q2Qc 3 * EPS)%Qc /\ clip pm = EPS).
  { unfold clip. destruct (isclose pm EPS) eqn:E; unfold isclose in E; qb_hyps; [right|left]; (split; [|reflexivity]); revert E P0; clear; unfold EPS; qmm; intros; qlra. }
  assert (AP : (0 < clip pm)%Qc). { destruct CC as [[A ->]|[_ ->]]; auto. qlra. }
  exists (clip pm). split; [|split].
  - split; auto. set (a := clip pm) in *. clearbody a.
    assert (F : (Qcabs (m - a) / a * a = Qcabs (m - a))%Qc) by (field; intros X; rewrite X in AP; discriminate AP).
    rewrite F. destruct (Qclt_le_dec m a) as [L|L]; [right|left]; (split; [qlra|]); unfold Qcabs; qb_case; qb_hyps; qlra.
  - apply Qcdiv_nonneg; auto. apply Qcabs_nonneg.
  - destruct CC as [[A ->]|[A ->]]; auto.
Qed.
End Scores.
Print Assumptions C88_raw_scores.
Example C88_example :
  exists scores, generate_spectral_score (fun l => l) (zs [1; 1; 1; 1; 1; 1; 1; 1; 1; 1; 20; 1; 1]%Z) true = Ok scores /\
    map this scores = [0; 0; 0; 0; 0; 0; 0; 0; 0; 0; 1881 # 119; 171 # 271; 627 # 1027]%Q.
Proof. eexists. split; [vm_compute; reflexivity|]. vm_compute. reflexivity. Qed.
