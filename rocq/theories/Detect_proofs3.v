(** The tail detectors on a series, and the counting bounds. *)
From Coq Require Import String List Arith ZArith QArith Qcanon Qround Lia Lqa Bool Sorted Permutation.
From Verif Require Import Base Num Sorting Kernel_model Kernel_spec Kernel_proofs Kernel_proofs2 Kernel_props FillUp_model FillUp_spec FillUp_props
  Helpers_model Helpers_proofs Helpers_proofs2 Helpers_props Margins_model SR_model Detect_model Detect_spec
  Detect_proofs Detect_proofs2.
Import ListNotations.
Open Scope nat_scope.

(** Counting, without assumptions. *)
Lemma rank_direction_len : forall maxo n sels, NoDup (rank_direction maxo n sels) /\ length (rank_direction maxo n sels) <= maxo.
Proof.
  intros maxo n sels. unfold rank_direction. rewrite firstn_min_length. split.
  - apply firstn_nodup. apply (Permutation_NoDup (Permutation_map fst (rank_sort_perm _))). apply rank_all_nodup. constructor.
  - rewrite firstn_length. lia.
Qed.
Lemma detect_tails_len : forall ds maxo n idx, detect_tails ds maxo n = Ok idx -> NoDup idx /\ length idx <= 2 * maxo.
Proof.
  intros ds maxo n idx H. unfold detect_tails in H. bind_inv H. bind_inv H. cbv zeta in H. inversion H; subst idx. clear H.
  destruct (rank_direction_len maxo n a) as [N1 L1]. destruct (rank_direction_len maxo n a0) as [N2 L2].
  set (up := rank_direction maxo n a) in *. set (lo := rank_direction maxo n a0) in *. split.
  - assert (G : forall (u l : list nat), NoDup u -> NoDup l -> (forall x, In x u -> ~ In x l) -> NoDup (u ++ l)).
    { clear. induction u as [|x t IH]; intros l N1 N2 D; simpl; auto. inversion N1; subst. constructor.
      - rewrite in_app_iff. intros [I|I]; auto. apply (D x); simpl; auto.
      - apply IH; auto. intros y Y. apply D. right; auto. }
    apply G; auto; [apply NoDup_filter; auto|]. intros x Hx I. apply filter_In in I. destruct I as [_ I].
    apply negb_true_iff in I. apply mem_nat_in in Hx. congruence.
  - rewrite app_length. pose proof (filter_len _ (fun i => negb (mem_nat i up)) lo). lia.
Qed.

Lemma merge_count : forall results diff out, length diff = length results -> length out = length results ->
  (forall i r r' d, nth_error results i = Some r -> nth_error out i = Some r' -> nth_error diff i = Some d ->
     r_anomaly r' = true -> r_anomaly r = true \/ r_anomaly d = true) ->
  reported out <= reported results + reported diff.
Proof.
  induction results as [|r t IH]; intros [|d dt] [|r' ot] LD LO H; try discriminate; simpl; auto.
  assert (X : reported ot <= reported t + reported dt).
  { apply IH; auto. intros i a b c A B C. apply (H (S i) a b c); auto. }
  pose proof (H 0 r r' d eq_refl eq_refl eq_refl) as H0.
  destruct (r_anomaly r') eqn:E1, (r_anomaly r), (r_anomaly d); lia.
Qed.

Lemma get_delta_len : forall d v w, get_delta d v = Ok w -> length w = length v.
Proof.
  intros d v w H. unfold get_delta in H. cbv zeta in H. bind_inv H. apply get_ok in E. inversion H; subst w.
  pose proof (nth_error_lt _ _ _ _ E) as L. rewrite app_length, repeat_length, skipn_length. rewrite diffs_length in *. lia.
Qed.
Lemma include_len : forall st ds values new z s, length new = length values ->
  include_loop st values new ds = Ok (z, s) -> length s = length values.
Proof.
  intros st ds values. induction ds as [|d t IH]; intros new z s L H; cbn [include_loop] in H.
  - inversion H; auto.
  - destruct (st new); [inversion H; subst; auto|]. bind_inv H. apply get_delta_len in E. eapply IH; [|exact H]. lia.
Qed.
Lemma should_include_len : forall st values z s, should_include_delta st values = Ok (z, s) -> length s = length values.
Proof. intros st values z s H. unfold should_include_delta in H. eapply include_len; [|exact H]. auto. Qed.

Lemma qfloor_nat : forall k, Qfloor (this (qn k)) = Z.of_nat k.
Proof.
  intros k. rewrite (Qfloor_comp _ (inject_Z (Z.of_nat k))); [apply Qfloor_Z|]. unfold qn. apply this_qz.
Qed.
Lemma qceil_nat : forall k, Qceiling (this (qn k)) = Z.of_nat k.
Proof.
  intros k. rewrite (Qceiling_comp _ (inject_Z (Z.of_nat k))); [apply Qceiling_Z|]. unfold qn. apply this_qz.
Qed.
Lemma sr_quota_frac : forall n k, 0 < n -> 0 < k -> sr_quota n (qn k / qn n)%Qc = k.
Proof.
  intros n k N K. unfold sr_quota. rewrite Qcmul_div by (apply qn_neq0; auto). rewrite qfloor_nat, Nat2Z.id. lia.
Qed.
Lemma dt_quota_frac : forall n k, 0 < n -> 0 < k -> dt_quota n (qn k / qn n)%Qc <= k.
Proof.
  intros n k N K. unfold dt_quota. rewrite Qcmul_div by (apply qn_neq0; auto). rewrite qceil_nat, Nat2Z.id. lia.
Qed.
Lemma qn_lt_ceil : forall x k, k = Z.to_nat (Qceiling (this x)) -> 0 < k -> (qn k < x + 1)%Qc.
Proof.
  intros x k -> H. unfold qn. rewrite Z2Nat.id by lia.
  pose proof (Qceiling_lt (this x)) as C. unfold Qclt. rewrite this_qz, this_add.
  change (this 1%Qc) with 1%Q. unfold Z.sub in C. rewrite inject_Z_plus in C. change (inject_Z (- (1))) with (-1 # 1)%Q in C.
  Lqa.lra.
Qed.
Lemma dt_quota_allowed : forall n ratio, exists q, allowed n ratio q /\ dt_quota n ratio <= q.
Proof.
  intros n ratio. set (k := Z.to_nat (Qceiling (this (qn n * ratio)%Qc))).
  destruct (Nat.le_gt_cases k 1) as [L|L].
  - exists 1. split; [left; auto|]. unfold dt_quota. fold k. lia.
  - exists k. split; [right; apply qn_lt_ceil; auto; lia|]. unfold dt_quota. fold k. lia.
Qed.
Lemma sr_quota_le : forall n ratio, exists q, allowed n ratio q /\ sr_quota n ratio <= q.
Proof.
  intros n ratio. set (k := Z.to_nat (Qfloor (this (qn n * ratio)%Qc))).
  destruct (Nat.le_gt_cases k 1) as [L|L].
  - exists 1. split; [left; auto|]. unfold sr_quota. fold k. lia.
  - exists k. split; [|unfold sr_quota; fold k; lia]. right. unfold qn, k. rewrite Z2Nat.id by lia.
    unfold Qclt. rewrite this_qz, this_add. fold (qn n). change (this 1%Qc) with 1%Q.
    pose proof (Qfloor_le (this (qn n * ratio)%Qc)) as F. Lqa.lra.
Qed.
Lemma allowed_mono : forall n r1 r2 q, (r1 <= r2)%Qc -> allowed n r1 q -> allowed n r2 q.
Proof.
  intros n r1 r2 q H [A|A]; [left; auto|right]. pose proof (Qcmul_le_l r1 r2 (qn n) (qn_nonneg n) H). qlra.
Qed.
Lemma refine_ratio_le : forall maj r, (0 <= r)%Qc -> (Q2Qc (6 # 10) < maj)%Qc -> (refine_max_ratio maj r <= r)%Qc.
Proof.
  intros maj r H M. unfold refine_max_ratio. apply Qcmax_lub; [|apply Qcmin_r].
  assert (P : (0 <= r * maj)%Qc) by (apply Qcmul_nonneg; auto; qlra).
  replace ((1 - maj) * r)%Qc with (r - r * maj)%Qc by ring. qlra.
Qed.

Section Count.
Variable cst : Qc.
Variable std : list Qc -> Qc.
Variable ppf : Qc -> Z -> Qc.
Variable sqrt : Qc -> Qc.
Variable table : list Qc.
Variable sort sort_desc : list (nat * Qc) -> list (nat * Qc).
Variable trend_detection : list Qc -> option nat -> res (list Qc).
Variable decompose : bool -> list Qc -> nat -> res (list Qc * list Qc).
Variable transform : list Qc -> list Qc.
Variable stationary : list Qc -> bool.

Lemma normalize_len : forall l r, normalize l = Ok r -> length (fst (fst r)) = length l.
Proof.
  intros l r H. unfold normalize in H. destruct l as [|x t]; [discriminate H|]. cbv zeta in H. inversion H; subst r.
  cbn [fst]. destruct (_ =? _)%Qc; auto. cbn [map length]. rewrite map_length. auto.
Qed.

Lemma dt_count : forall series tv alpha ratio nt lm rows m,
  dynamic_threshold_detection cst std ppf sqrt table sort trend_detection series tv alpha ratio nt lm = Ok (rows, m) ->
  reported rows <= 2 * dt_quota (length series) ratio.
Proof.
  intros series tv alpha ratio nt lm rows m H. unfold dynamic_threshold_detection in H. cbv zeta in H.
  bind_inv H. bind_inv H. bind_inv H. bind_inv H. inversion H; subst. clear H.
  rewrite (reported_frame _ _ _ _ _ _ E2). apply normalize_len in E.
  unfold dt_detect_anomaly in E0. cbv zeta in E0. bind_inv E0. bind_inv E0. inversion E0; subst. cbn [fst] in *.
  apply detect_tails_len in E4. destruct E4 as [N L]. rewrite E in L.
  pose proof (count_mem (length series) _ N). lia.
Qed.

Lemma ts_count : forall series p alpha ratio adj nt lm rows m,
  seasonal_series_detection cst std ppf sqrt table sort decompose series p alpha ratio adj nt lm = Ok (rows, m) ->
  reported rows <= 2 * dt_quota (length series) ratio.
Proof.
  intros series p alpha ratio adj nt lm rows m H. unfold seasonal_series_detection in H.
  destruct (Q2Qc (49 # 100) <? ratio)%Qc; [discriminate H|]. cbv zeta in H.
  destruct (length series =? 0) eqn:E0; [discriminate H|]. apply Nat.eqb_neq in E0.
  destruct (length series <? p * 2 + 1); [discriminate H|].
  bind_inv H. destruct (negb _) eqn:EN; [discriminate H|]. apply negb_false_iff in EN. apply andb_prop in EN.
  destruct EN as [EN1 EN2]. apply Nat.eqb_eq in EN1, EN2.
  bind_inv H. bind_inv H. bind_inv H. bind_inv H. bind_inv H. inversion H; subst. clear H.
  rewrite (reported_frame _ _ _ _ _ _ E5). apply normalize_len in E1.
  rewrite zip_with_length, EN2, Nat.min_id in E1.
  unfold ts_detect_anomaly in E3. cbv zeta in E3. bind_inv E3. bind_inv E3. bind_inv E3. inversion E3; subst. cbn [fst] in *.
  apply detect_tails_len in E8. destruct E8 as [N L]. rewrite E1 in L.
  pose proof (count_mem (length series) _ N).
  assert (Q : dt_quota (length series) (if (ratio <? 1 / qn (length series))%Qc then (1 / qn (length series))%Qc else ratio)
            = dt_quota (length series) ratio).
  { destruct (ratio <? _)%Qc eqn:EC; auto. qb_hyps. unfold dt_quota. rewrite Qcmul_div by (apply qn_neq0; lia).
    change 1%Qc with (qn 1). rewrite qceil_nat.
    assert (C : (Qceiling (this (qn (length series) * ratio)%Qc) <= 1)%Z).
    { rewrite <- (Qceiling_Z 1). apply Qceiling_resp_le. assert (QL : (qn (length series) * ratio <= 1)%Qc).
      { pose proof (Qcmul_le_l ratio (1 / qn (length series)) (qn (length series)) (qn_nonneg _)) as M.
        rewrite Qcmul_div in M by (apply qn_neq0; lia). apply M. qlra. }
      exact QL. }
    lia. }
  rewrite Q in L. lia.
Qed.

Lemma sr_count : forall series th ratio nt lm rows m,
  spectral_residual_detection transform std trend_detection sort_desc series th ratio nt lm = Ok (rows, m) ->
  (forall l, Permutation l (sort_desc l)) -> reported rows <= sr_quota (length series) ratio.
Proof.
  intros series th ratio nt lm rows m H HP. unfold spectral_residual_detection in H. cbv zeta in H.
  bind_inv H. bind_inv H. bind_inv H. bind_inv H. inversion H; subst. clear H.
  rewrite (reported_frame _ _ _ _ _ _ E2).
  set (cand := filter (fun p => (th <=? snd p)%Qc) (combine (range (length series)) (fst a))) in *.
  set (idx := map fst (firstn (Nat.min (sr_quota (length series) ratio) (length cand)) (sort_desc cand))) in *.
  assert (N : NoDup idx).
  { unfold idx. rewrite <- firstn_map. apply firstn_nodup.
    apply (Permutation_NoDup (Permutation_map fst (HP cand))). unfold cand. apply map_filter_nodup.
    assert (G : forall (l : list Qc) n k, NoDup (map fst (combine (seq k n) l)) /\ forall x, In x (map fst (combine (seq k n) l)) -> k <= x).
    { induction l as [|y t IH]; intros [|n] k; simpl; try (split; [constructor; fail|intros ? []; fail]).
      destruct (IH n (S k)) as [I1 I2]. split.
      - constructor; auto. intros X. apply I2 in X. lia.
      - intros x [<-|X]; auto. apply I2 in X. lia. }
    apply G. }
  pose proof (count_mem (length series) idx N) as C. unfold idx in C at 2. rewrite map_length, firstn_length in C. lia.
Qed.

(** Adding the differenced run stays within the quota left. *)
Lemma merge_count_le : forall results func series ratio out k,
  merge_with_delta stationary results func series ratio = Ok out -> 0 < length series ->
  (forall rem rows m s', length s' = length series -> 0 < rem -> func s' (qn rem / qn (length s'))%Qc = Ok (rows, m) -> reported rows <= k * rem) ->
  reported out <= reported results \/
  (reported results < sr_quota (length series) ratio /\
   reported out <= reported results + k * (sr_quota (length series) ratio - reported results)).
Proof.
  intros results func series ratio out k H NZ HF.
  destruct (merge_inv _ _ _ _ _ _ H) as [->|(delta & s' & diff & m & ED & DP & CQ & EF & LD & LO & R)]; [left; auto|right].
  pose proof (should_include_len _ _ _ _ ED) as LS. rewrite LS in CQ, EF. unfold count_anomalies in CQ, EF. rewrite <- reported_filter in CQ, EF.
  split; auto. rewrite <- LS in EF at 2. apply HF in EF; auto; [|lia].
  assert (MC : reported out <= reported results + reported diff).
  { apply merge_count; auto. intros i r r' d A B C X. destruct (R i r r' d A B C) as [R1 R2].
    destruct (r_anomaly r) eqn:E1; auto. destruct (r_anomaly d) eqn:E2; auto. rewrite R2 in X by auto. congruence. }
  lia.
Qed.
End Count.
