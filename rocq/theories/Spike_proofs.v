(** A lone spike on a level series: padding and averages. *)
From Coq Require Import List Arith ZArith QArith Qcanon Qround Lia Bool Sorted Permutation.
From Verif Require Import Base Num Sorting Kernel_model Kernel_proofs Helpers_model Helpers_spec Helpers_proofs Margins_model
  Period_proofs3 SR_model SR_spec SR_spec2 SR_proofs SR_proofs2 SR_proofs3 SR_props2 Spike_spec.
Import ListNotations.
Open Scope nat_scope.

Lemma nth_firstn : forall A (l : list A) n k, k < n -> nth_error (firstn n l) k = nth_error l k.
Proof. intros A l n k H. rewrite nth_error_firstn. assert (E : (k <? n) = true) by (apply Nat.ltb_lt; auto). rewrite E. auto. Qed.

Lemma spiked_length : forall n k b c, length (spiked n k b c) = n.
Proof. intros. unfold spiked. rewrite map_length, seq_length. auto. Qed.
Lemma spiked_nth : forall n k b c t, t < n -> nth_error (spiked n k b c) t = Some (if t =? k then (b + c)%Qc else b).
Proof.
  intros. unfold spiked. rewrite nth_error_map, nth_error_seq.
  assert (E : (t <? n) = true) by (apply Nat.ltb_lt; auto). rewrite E. auto.
Qed.
Lemma spiked_split : forall n k b c, k < n -> spiked n k b c = repeat b k ++ (b + c)%Qc :: repeat b (n - 1 - k).
Proof.
  intros n k b c L. apply nth_error_ext_len.
  - rewrite spiked_length, app_length. cbn [length]. rewrite !repeat_length. lia.
  - intros i Hi. rewrite spiked_length in Hi. rewrite spiked_nth by auto.
    destruct (Nat.lt_trichotomy i k) as [G|[->|G]].
    + rewrite nth_error_app1 by (rewrite repeat_length; auto). rewrite nth_error_repeat.
      assert (E1 : (i <? k) = true) by (apply Nat.ltb_lt; auto). assert (E2 : (i =? k) = false) by (apply Nat.eqb_neq; lia). rewrite E1, E2. auto.
    + rewrite nth_error_app2, repeat_length, Nat.sub_diag, Nat.eqb_refl by (rewrite repeat_length; auto). auto.
    + rewrite nth_error_app2, repeat_length by (rewrite repeat_length; lia). destruct (i - k) as [|j] eqn:J; [lia|]. cbn [nth_error].
      rewrite nth_error_repeat. assert (E1 : (j <? n - 1 - k) = true) by (apply Nat.ltb_lt; lia). assert (E2 : (i =? k) = false) by (apply Nat.eqb_neq; lia). rewrite E1, E2. auto.
Qed.
Lemma spiked_app : forall n m k b c, k < n -> spiked n k b c ++ repeat b m = spiked (n + m) k b c.
Proof.
  intros n m k b c L. rewrite !spiked_split by lia. rewrite <- app_assoc. cbn [app]. f_equal. f_equal.
  rewrite <- repeat_app. f_equal. lia.
Qed.

(** * Quartiles *)
Lemma repeat_sorted : forall b n, qsorted (repeat b n).
Proof.
  intros b n. induction n as [|n IH]; cbn; [constructor|]. constructor; auto. apply Forall_forall. intros x I.
  apply repeat_spec in I. subst. apply Qcle_refl.
Qed.
Lemma sorted_snoc : forall l x, qsorted l -> (forall y, In y l -> (y <= x)%Qc) -> qsorted (l ++ [x]).
Proof.
  induction l as [|a t IH]; intros x S H; cbn; [repeat constructor|]. inversion S; subst. constructor.
  - apply IH; auto. intros y I. apply H. right. auto.
  - apply Forall_app. split; auto. constructor; auto. apply H. left. auto.
Qed.
Lemma spiked_mid : forall n k b c s i, k < n -> Permutation s (spiked n k b c) -> qsorted s -> 1 <= i -> i + 2 <= n -> nth i s 0%Qc = b.
Proof.
  intros n k b c s i L P S I1 I2. rewrite spiked_split in P by auto.
  assert (M : Permutation (repeat b k ++ (b + c)%Qc :: repeat b (n - 1 - k)) ((b + c)%Qc :: repeat b (n - 1))).
  { rewrite <- Permutation_middle. apply perm_skip. rewrite <- repeat_app. replace (k + (n - 1 - k)) with (n - 1) by lia. apply Permutation_refl. }
  destruct (Qclt_le_dec c 0) as [C|C].
  - assert (E : s = (b + c)%Qc :: repeat b (n - 1)).
    { apply qsorted_unique; auto.
      - constructor; [apply repeat_sorted|]. apply Forall_forall. intros x I. apply repeat_spec in I. subst. qlra.
      - etransitivity; eauto. }
    subst s. destruct i as [|i]; [lia|]. cbn [nth]. apply nth_error_nth. rewrite nth_error_repeat.
    assert (X : (i <? n - 1) = true) by (apply Nat.ltb_lt; lia). rewrite X. auto.
  - assert (E : s = repeat b (n - 1) ++ [(b + c)%Qc]).
    { apply qsorted_unique; auto.
      - apply sorted_snoc; [apply repeat_sorted|]. intros x I. apply repeat_spec in I. subst. qlra.
      - etransitivity; [exact P|]. etransitivity; [exact M|]. apply Permutation_cons_append. }
    subst s. rewrite app_nth1 by (rewrite repeat_length; lia). apply nth_error_nth. rewrite nth_error_repeat.
    assert (X : (i <? n - 1) = true) by (apply Nat.ltb_lt; lia). rewrite X. auto.
Qed.
Lemma spiked_quantile : forall n k b c a x, 6 <= n -> k < n -> 1 <= a -> a <= 3 ->
  quantile (spiked n k b c) (Q2Qc (Z.of_nat a # 4)) x -> x = b.
Proof.
  intros n k b c a x N L A1 A3 (s & j & t & P & S & E & T0 & T1 & K & ->). rewrite spiked_length in *.
  assert (E4 : (qn (a * (n - 1)) = qn (4 * j) + Q2Qc 4 * t)%Qc).
  { rewrite !qn_mul. change (qn 4) with (Q2Qc 4). assert (F : (qn a = Q2Qc 4 * Q2Qc (Z.of_nat a # 4))%Qc).
    { destruct a as [|[|[|[|a]]]]; try lia; apply Qc_is_canon; reflexivity. }
    rewrite F. transitivity (Q2Qc 4 * (qn (n - 1) * Q2Qc (Z.of_nat a # 4)))%Qc; [ring|]. rewrite E. ring. }
  assert (B1 : 4 * j <= a * (n - 1)). { apply qn_le. rewrite E4. qlra. }
  assert (B2 : a * (n - 1) < 4 * j + 4). { apply qn_lt. rewrite E4, (qn_add (4 * j) 4). change (qn 4) with (Q2Qc 4). qlra. }
  assert (J1 : 1 <= j) by nia. assert (J2 : j + 1 + 2 <= n) by nia.
  rewrite (spiked_mid n k b c s j), (spiked_mid n k b c s (j + 1)); auto; try lia. ring.
Qed.

(** * The padding *)
Lemma predict_level : forall b m, 2 <= m -> predict_next (repeat b m) = Ok b.
Proof.
  intros b m H. pose proof (C87_line_continues b 0%Qc m H) as C.
  replace (map (fun i => b + 0 * qn i)%Qc (range m)) with (repeat b m) in C.
  - rewrite C. f_equal. ring.
  - unfold range. clear. generalize 0 at 1. induction m as [|m IH]; intros s; cbn; auto. f_equal; [ring|apply IH].
Qed.
Lemma inliers_level : forall (P : Qc -> Prop) b l k w, (forall v, P v -> v = b) -> last_inliers P b l k w -> w = repeat b k.
Proof.
  intros P b l k w H L. induction L; auto. rewrite IHL, (H v) by auto. clear. induction k as [|k IH]; cbn; auto. rewrite IH. auto.
Qed.
Lemma extend_entire : forall n k b c, 6 <= n -> k < n -> extend_series (spiked n k b c) true = Ok (spiked (n + 5) k b c).
Proof.
  intros n k b c N L.
  destruct (extend_total (spiked n k b c) true) as [p E]; [rewrite spiked_length; lia|]. rewrite E. f_equal.
  destruct (C87_padding_entire _ _ E) as (q25 & q50 & q75 & w & p' & Q1 & Q2 & Q3 & LI & PR & EX).
  assert (X : p = p'). { apply app_inv_head in EX. injection EX. auto. } subst p'.
  rewrite (spiked_quantile n k b c 1 q25) in LI by auto.
  rewrite (spiked_quantile n k b c 3 q75) in LI by auto.
  replace (Q2Qc (1 # 2)) with (Q2Qc (Z.of_nat 2 # 4)) in Q2 by (apply Qc_is_canon; reflexivity).
  rewrite (spiked_quantile n k b c 2 q50) in LI by auto.
  apply inliers_level in LI.
  - subst w. rewrite predict_level in PR by lia. injection PR as <-. apply spiked_app. auto.
  - intros v [V1 V2]. apply Qcle_antisym; qlra.
Qed.
Lemma extend_latest : forall m b c, 2 <= m -> extend_series (spiked (S m) m b c) false = Ok (spiked (S m + 5) m b c).
Proof.
  intros m b c M.
  assert (SP : spiked (S m) m b c = repeat b (m - Nat.min 6 m) ++ repeat b (Nat.min 6 m) ++ [(b + c)%Qc]).
  { rewrite spiked_split by lia. replace (S m - 1 - m) with 0 by lia. cbn [repeat]. rewrite app_assoc, <- repeat_app. f_equal. f_equal. lia. }
  destruct (extend_total (spiked (S m) m b c) false) as [p E]; [rewrite spiked_length; lia|]. rewrite E. f_equal.
  rewrite SP in E.
  assert (LR : length (repeat b (Nat.min 6 m)) = 6 \/ repeat b (m - Nat.min 6 m) = [] /\ length (repeat b (Nat.min 6 m)) <= 6).
  { rewrite repeat_length. destruct (le_lt_dec 6 m); [left; lia|right]. replace (m - Nat.min 6 m) with 0 by lia. split; auto. lia. }
  destruct (C87_padding_latest _ _ _ _ LR E) as (p' & PR & EX). rewrite predict_level in PR by lia. injection PR as <-.
  rewrite <- !app_assoc in EX. apply app_inv_head in EX. apply app_inv_head in EX. injection EX as EX. subst p. apply spiked_app. lia.
Qed.

(** * The average against which the spike is measured *)
Lemma qsum_except : forall l k m M, nth_error l k = Some m -> (0 <= M)%Qc ->
  (forall t x, t <> k -> nth_error l t = Some x -> (0 <= x /\ x <= M)%Qc) ->
  (m <= qsum l)%Qc /\ (qsum l <= m + qn (length l - 1) * M)%Qc.
Proof.
  intros l k m M Hk HM H. pose proof (nth_error_lt _ _ _ _ Hk) as L.
  assert (SP : l = firstn k l ++ m :: skipn (S k) l).
  { rewrite <- (firstn_skipn k l) at 1. f_equal. clear -Hk. revert k Hk. induction l as [|x l IH]; intros [|k] Hk; cbn in *; try discriminate; [congruence|]. apply IH; auto. }
  rewrite SP, qsum_app. change (qsum (m :: skipn (S k) l)) with (m + qsum (skipn (S k) l))%Qc.
  assert (A1 : forall x, In x (firstn k l) -> (0 <= x /\ x <= M)%Qc).
  { intros x I. apply In_nth_error in I. destruct I as [i I]. pose proof (nth_error_lt _ _ _ _ I) as Li. rewrite firstn_length in Li.
    rewrite nth_firstn in I by lia. apply (H i); auto. lia. }
  assert (A2 : forall x, In x (skipn (S k) l) -> (0 <= x /\ x <= M)%Qc).
  { intros x I. apply In_nth_error in I. destruct I as [i I]. rewrite nth_error_skipn in I. apply (H (S k + i)); auto. lia. }
  pose proof (qsum_ge (firstn k l) 0%Qc (fun x I => proj1 (A1 x I))) as G1. pose proof (qsum_le (firstn k l) M (fun x I => proj2 (A1 x I))) as U1.
  pose proof (qsum_ge (skipn (S k) l) 0%Qc (fun x I => proj1 (A2 x I))) as G2. pose proof (qsum_le (skipn (S k) l) M (fun x I => proj2 (A2 x I))) as U2.
  rewrite <- SP. rewrite firstn_length, Nat.min_l in * by lia. rewrite skipn_length in *.
  replace (length l - 1) with (k + (length l - S k)) by lia. rewrite qn_add.
  set (u := qn k) in *. set (w := qn (length l - S k)) in *. set (y := qsum (firstn k l)) in *. set (z := qsum (skipn (S k) l)) in *.
  clearbody u w y z. split; qlra.
Qed.
Lemma padded_bounds : forall mag k m M, nth_error mag k = Some m -> 1 <= k -> (0 <= M)%Qc ->
  (forall t x, t <> k -> nth_error mag t = Some x -> (0 <= x /\ x <= M)%Qc) ->
  (m <= Q2Qc 100 * padded_mean mag 100 k)%Qc /\ (Q2Qc 100 * padded_mean mag 100 k <= m + Q2Qc 99 * M)%Qc.
Proof.
  intros mag k m M Hk K1 HM H. pose proof (nth_error_lt _ _ _ _ Hk) as L. unfold padded_mean.
  assert (E0 : (k =? 0) = false) by (apply Nat.eqb_neq; lia). rewrite E0.
  destruct (100 <=? k) eqn:E.
  - apply Nat.leb_le in E. unfold trailing_mean. set (w := slice mag (k + 1 - 100) (k + 1)).
    assert (LW : length w = 100) by (unfold w, slice; rewrite firstn_length, skipn_length; lia).
    assert (NW : forall t, t < 100 -> nth_error w t = nth_error mag (k + 1 - 100 + t)).
    { intros t T. unfold w, slice. rewrite nth_firstn by lia. rewrite nth_error_skipn. auto. }
    destruct (qsum_except w 99 m M) as [A B]; auto.
    + rewrite NW by lia. rewrite <- Hk. f_equal. lia.
    + intros t x T X. pose proof (nth_error_lt _ _ _ _ X) as Lt. rewrite LW in Lt. rewrite NW in X by auto. apply (H (k + 1 - 100 + t)); auto. lia.
    + rewrite LW in B. change (qn (100 - 1)) with (Q2Qc 99) in B.
      unfold qmean. rewrite LW. change (qn 100) with (Q2Qc 100). rewrite Qcmul_div by discriminate. auto.
  - apply Nat.leb_gt in E. change (qn 100) with (Q2Qc 100). rewrite Qcmul_div by discriminate.
    destruct (qsum_except (firstn (k + 1) mag) k m M) as [A B]; auto.
    + rewrite nth_firstn by lia. auto.
    + intros t x T X. pose proof (nth_error_lt _ _ _ _ X) as Lt. rewrite firstn_length in Lt. rewrite nth_firstn in X by lia. apply (H t); auto.
    + rewrite firstn_length, Nat.min_l in B by lia. replace (k + 1 - 1) with k in B by lia.
      assert (NE : firstn k mag <> []). { intro X. apply (f_equal (@length Qc)) in X. rewrite firstn_length in X. cbn in X. lia. }
      destruct (qmean_bounds (firstn k mag) 0%Qc M NE) as [M0 M1].
      { intros x I. apply In_nth_error in I. destruct I as [i I]. pose proof (nth_error_lt _ _ _ _ I) as Li. rewrite firstn_length in Li.
        rewrite nth_firstn in I by lia. apply (H i); auto. lia. }
      assert (Q : (qn k + qn (100 - 1 - k) = Q2Qc 99)%Qc) by (rewrite <- qn_add; replace (k + (100 - 1 - k)) with 99 by lia; reflexivity).
      pose proof (qn_nonneg (100 - 1 - k)) as V0.
      set (u := qmean (firstn k mag)) in *. set (v := qn (100 - 1 - k)) in *. set (y := qsum (firstn (k + 1) mag)) in *. set (kk := qn k) in *. clearbody u v y kk.
      pose proof (Qcmul_nonneg v u V0 M0) as P1. pose proof (Qcmul_nonneg v (M - u)%Qc V0 ltac:(qlra)) as P2.
      assert (kk = Q2Qc 99 - v)%Qc by qlra. subst kk. split; qlra.
Qed.

(** A magnitude that is far above all others has a high score. *)
Section Score.
Variable transform : list Qc -> list Qc.
Hypothesis NN : forall l x, In x (transform l) -> (0 <= x)%Qc.
Lemma spike_score : forall series remove ext k m M,
  extend_series series remove = Ok ext -> length (transform ext) = length ext -> length series <= length ext ->
  1 <= k -> k < length series -> nth_error (transform ext) k = Some m -> (Q2Qc (1 # 2) <= m)%Qc -> (0 <= M)%Qc ->
  (forall t x, t <> k -> nth_error (transform ext) t = Some x -> (x <= M)%Qc) ->
  (Q2Qc 891 * M <= Q2Qc 191 * m)%Qc ->
  exists scores s, generate_spectral_score transform series remove = Ok scores /\ length scores = length series /\
    nth_error scores k = Some s /\ (Q2Qc (7 # 2) <= s)%Qc.
Proof.
  intros series remove ext k m M E LT LE K1 K Hm HM M0 H HH.
  assert (G : exists scores, generate_spectral_score transform series remove = Ok scores).
  { unfold generate_spectral_score. rewrite E, bind_ok. cbv zeta.
    destruct (average_filter_spec (firstn (length series) (transform ext)) 100 true ltac:(lia)) as (o & -> & _). rewrite bind_ok. eauto. }
  destruct G as [scores G]. destruct (C88_raw_scores transform series remove scores ext NN G E) as [LS C].
  set (mag := firstn (length series) (transform ext)) in *.
  assert (LM : length mag = length series) by (unfold mag; rewrite firstn_length; lia).
  assert (NM : forall t, t < length series -> nth_error mag t = nth_error (transform ext) t) by (intros; unfold mag; apply nth_firstn; auto).
  rewrite LM in LS. destruct (nth_error_ex _ scores k ltac:(lia)) as [s Hs].
  exists scores, s. split; auto. split; auto. split; auto.
  rewrite <- NM in Hm by auto. destruct (C k m s Hm Hs) as (a & RD & S0 & CA).
  destruct (padded_bounds mag k m M Hm K1 M0) as [B1 B2].
  { intros t x T X. pose proof (nth_error_lt _ _ _ _ X) as Lt. rewrite LM in Lt. rewrite NM in X by auto. split; [apply (NN ext); eapply nth_error_In; eauto|apply (H t); auto]. }
  set (p := padded_mean mag 100 k) in *. clearbody p.
  assert (EA : a = p). { destruct CA as [[-> _]|[_ X]]; auto. exfalso. unfold EPS in X. clear - X B1 HM. qlra. }
  subst p. destruct RD as [A0 [[L1 EQ]|[L1 EQ]]].
  - destruct (Qclt_le_dec s (Q2Qc (7 # 2))) as [X|X]; auto. exfalso.
    pose proof (Qcmul_pos a (Q2Qc (7 # 2) - s)%Qc A0 ltac:(qlra)) as P. clear - P B2 EQ HH A0. qlra.
  - exfalso. clear - B2 L1 HH A0 HM M0. qlra.
Qed.
End Score.
