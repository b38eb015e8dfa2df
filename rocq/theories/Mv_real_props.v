(** Properties of the real-valued parts of the multivariate detector
    (C45, C56, C57, C77). *)
From Coq Require Import List Arith Lia Reals Lra Psatz.
From Verif Require Import Mv_real.
Import ListNotations.
Open Scope R_scope.

(** ** C45: errors and severity *)
Lemma exp_ge : forall x y, x <= y -> exp x <= exp y.
Proof. intros x y [H| ->]; [left; apply exp_increasing; auto|lra]. Qed.
Lemma exp1_pos : 0 < exp 1 - 1.
Proof. pose proof (exp_ineq1 1). lra. Qed.
Lemma gap_range : forall d, 0 <= gap_real d <= exp 1 - 1.
Proof.
  intros d. unfold gap_real. pose proof (Rabs_pos d). pose proof (Rmin_r (2 * Rabs d) 1).
  assert (0 <= Rmin (2 * Rabs d) 1) by (apply Rmin_glb; lra).
  pose proof (exp_ge _ _ H0). pose proof (exp_ge _ _ H1). rewrite exp_0 in *. lra.
Qed.
Theorem C45_error_function : forall a b,
  0 <= gap_real a <= exp 1 - 1 /\ (gap_real a = 0 <-> a = 0) /\ gap_real (- a) = gap_real a /\
  (Rabs a <= Rabs b -> gap_real a <= gap_real b) /\ (1 / 2 <= Rabs a <-> gap_real a = exp 1 - 1).
Proof.
  intros a b. split; [apply gap_range|]. unfold gap_real. pose proof (Rabs_pos a) as Pa. split; [|split; [|split]].
  - split.
    + intros H. destruct (Req_dec a 0); auto. exfalso. pose proof (Rabs_pos_lt a H0).
      assert (0 < Rmin (2 * Rabs a) 1) by (apply Rmin_glb_lt; lra).
      pose proof (exp_increasing _ _ H2). rewrite exp_0 in H3. lra.
    + intros ->. rewrite Rabs_R0, Rmult_0_r, Rmin_left, exp_0; lra.
  - rewrite Rabs_Ropp. auto.
  - intros H. apply Rplus_le_compat_r, exp_ge. apply Rmin_glb; [|apply Rmin_r].
    eapply Rle_trans; [apply Rmin_l|]. lra.
  - split.
    + intros H. rewrite Rmin_right; lra.
    + intros H. destruct (Rle_dec (1 / 2) (Rabs a)); auto. exfalso.
      rewrite Rmin_left in H by lra. assert (2 * Rabs a < 1) by lra. pose proof (exp_increasing _ _ H0). lra.
Qed.
Print Assumptions C45_error_function.

Lemma rsum_bound : forall l c, (forall x, In x l -> 0 <= x <= c) -> 0 <= rsum l <= INR (length l) * c.
Proof.
  induction l as [|x t IH]; intros c H; cbn [rsum fold_right length].
  - cbn. lra.
  - rewrite S_INR. destruct (IH c) as [A B]; [intros; apply H; right; auto|]. destruct (H x); [left; auto|].
    unfold rsum in *. nra.
Qed.
Lemma weighted_in : forall pred target pct x, (forall w, In w pct -> 0 <= w <= 1) -> In x (weighted pred target pct) ->
  0 <= x <= exp 1 - 1.
Proof.
  induction pred as [|p a IH]; intros [|t b] [|w c] x H I; cbn in I; try contradiction.
  destruct I as [<-|I].
  - pose proof (gap_range (p - t)). destruct (H w (or_introl eq_refl)). nra.
  - apply (IH b c x); auto. intros v Iv. apply H. right. auto.
Qed.
Lemma weighted_len : forall pred target pct, length target = length pred -> length pct = length pred ->
  length (weighted pred target pct) = length pred.
Proof. induction pred as [|p a IH]; intros [|t b] [|w c] H1 H2; cbn in *; try lia. rewrite IH; lia. Qed.
(** The severity of any row is between 0 and 1. *)
Theorem C45_severity_range : forall pred target pct,
  pred <> [] -> length target = length pred -> length pct = length pred -> (forall w, In w pct -> 0 <= w <= 1) ->
  0 <= row_score pred target pct <= exp 1 - 1 /\ 0 <= severity_real (row_score pred target pct) <= 1.
Proof.
  intros pred target pct Hn L1 L2 Hw.
  assert (B : 0 <= row_score pred target pct <= exp 1 - 1).
  { unfold row_score, rmean. assert (P : 0 < INR (length (weighted pred target pct))).
    { rewrite weighted_len by auto. destruct pred; [congruence|]. apply lt_0_INR. cbn. lia. }
    destruct (rsum_bound (weighted pred target pct) (exp 1 - 1)) as [A B].
    { intros x. apply weighted_in; auto. }
    split.
    - apply Rmult_le_pos; auto. left. apply Rinv_0_lt_compat. auto.
    - apply Rmult_le_reg_r with (INR (length (weighted pred target pct))); auto. unfold Rdiv. rewrite Rmult_assoc, Rinv_l by lra. lra. }
  split; auto. unfold severity_real. pose proof exp1_pos as P. split.
  - apply Rmult_le_pos; [lra|]. left. apply Rinv_0_lt_compat. auto.
  - apply Rmult_le_reg_r with (exp 1 - 1); auto. unfold Rdiv. rewrite Rmult_assoc, Rinv_l by lra. lra.
Qed.
Print Assumptions C45_severity_range.
Example C45_real_example : severity_real (row_score [1; 1] [0; 1] [1; 1 / 2]) = 1 / 2.
Proof.
  unfold severity_real, row_score, rmean. cbn [weighted rsum fold_right length INR].
  assert (E1 : gap_real (1 - 0) = exp 1 - 1).
  { apply (C45_error_function _ 0). rewrite Rabs_right; lra. }
  assert (E2 : gap_real (1 - 1) = 0) by (apply (C45_error_function _ 0); lra).
  rewrite E1, E2. field. pose proof exp1_pos. lra.
Qed.

(** ** C94 over the reals: predictions in [0, 1] of targets scaled to at least 3/2
    or at most -1/2 have the full error whatever the network, and the severity is
    the mean weight. *)
Lemma far_weighted : forall pred target pct, length target = length pred -> length pct = length pred ->
  (forall p, In p pred -> 0 <= p <= 1) -> (forall t, In t target -> 3 / 2 <= t \/ t <= - (1 / 2)) ->
  weighted pred target pct = map (fun w => (exp 1 - 1) * w) pct.
Proof.
  induction pred as [|p a IH]; intros [|t b] [|w c] L1 L2 Hp Ht; cbn in L1, L2; try lia; [reflexivity|]. cbn [weighted map]. f_equal.
  - f_equal. apply (C45_error_function _ 0). specialize (Hp p (or_introl eq_refl)). unfold Rabs. destruct (Rcase_abs (p - t)); destruct (Ht t (or_introl eq_refl)); lra.
  - apply IH; [lia|lia| |]; intros; [apply Hp|apply Ht]; right; auto.
Qed.
Theorem C94_full_error : forall pred target pct, pred <> [] -> length target = length pred -> length pct = length pred ->
  (forall p, In p pred -> 0 <= p <= 1) -> (forall t, In t target -> 3 / 2 <= t \/ t <= - (1 / 2)) ->
  severity_real (row_score pred target pct) = rmean pct.
Proof.
  intros pred target pct Hn L1 L2 Hp Ht. unfold severity_real, row_score, rmean. rewrite far_weighted by auto. rewrite map_length.
  assert (E : rsum (map (fun w => (exp 1 - 1) * w) pct) = (exp 1 - 1) * rsum pct).
  { clear. induction pct as [|w c IH]; cbn in *; [ring|]. unfold rsum in *. cbn. rewrite IH. ring. }
  rewrite E. pose proof exp1_pos. field. split; [|lra]. apply not_0_INR. rewrite L2. destruct pred; [congruence|cbn; lia].
Qed.
Print Assumptions C94_full_error.
Example C94_full_example : severity_real (row_score [1 / 3; 1] [7; - 3] [1; 1 / 2]) = 3 / 4.
Proof.
  rewrite C94_full_error; try reflexivity; [|discriminate| |]; cbn [In].
  - unfold rmean. cbn. field.
  - intros p [<-|[<-|[]]]; lra.
  - intros t [<-|[<-|[]]]; lra.
Qed.

(** ** C56: losses *)
Lemma sq_error_pos : forall a b, 0 <= sq_error a b.
Proof. induction a as [|x a IH]; intros [|y b]; cbn; try lra. specialize (IH b). pose proof (Rle_0_sqr (x - y)). unfold Rsqr in *. lra. Qed.
Lemma sq_error_zero : forall a b, length a = length b -> (sq_error a b = 0 <-> a = b).
Proof.
  induction a as [|x a IH]; intros [|y b] L; cbn in *; try lia; [tauto|].
  pose proof (Rle_0_sqr (x - y)) as S. unfold Rsqr in S. pose proof (sq_error_pos a b). split.
  - intros H0. assert (sq_error a b = 0) by lra. assert (E : (x - y) * (x - y) = 0) by lra. apply Rmult_integral in E.
    f_equal; [lra|]. apply IH; auto.
  - intros H0. inversion H0; subst. assert (sq_error b b = 0) by (apply IH; auto). nra.
Qed.
Lemma kl_term : forall m l, 1 + l - m * m - exp l <= 0 /\ (1 + l - m * m - exp l = 0 <-> m = 0 /\ l = 0).
Proof.
  intros m l. assert (E : 1 + l <= exp l /\ (1 + l = exp l -> l = 0)).
  { destruct (Req_dec l 0) as [->|N]; [rewrite exp_0; lra|]. pose proof (exp_ineq1 l N). lra. }
  destruct E as [E1 E2]. pose proof (Rle_0_sqr m) as S. unfold Rsqr in S. split; [lra|]. split.
  - intros H. assert (l = 0) by (apply E2; lra). subst l. rewrite exp_0 in H. split; auto.
    assert (Z : m * m = 0) by lra. apply Rmult_integral in Z. lra.
  - intros [-> ->]. rewrite exp_0. lra.
Qed.
Theorem C56_losses : forall pred recon target mu logv beta loss pred_loss vae_loss,
  length pred = length target -> length recon = length target -> length mu = length logv ->
  criterion pred recon target mu logv beta = (loss, pred_loss, vae_loss) -> 0 <= beta ->
  0 <= pred_loss /\ (pred_loss = 0 <-> pred = target) /\
  0 <= kl_loss mu logv /\ (kl_loss mu logv = 0 <-> (forall x, In x mu -> x = 0) /\ (forall x, In x logv -> x = 0)) /\
  0 <= vae_loss /\ (vae_loss = 0 <-> recon = target /\ kl_loss mu logv = 0) /\
  0 <= loss /\ pred_loss <= loss.
Proof.
  intros pred recon target mu logv beta loss pl vl L1 L2 L3 H Hb. unfold criterion in H. injection H as <- <- <-.
  pose proof (sq_error_pos pred target) as P1. pose proof (sq_error_pos recon target) as P2.
  assert (K : 0 <= kl_loss mu logv /\ (kl_loss mu logv = 0 <-> (forall x, In x mu -> x = 0) /\ (forall x, In x logv -> x = 0))).
  { clear -L3. unfold kl_loss. revert logv L3. induction mu as [|m a IH]; intros [|l b] L; cbn in L; try lia.
    - cbn. split; [lra|]. split; [intros _; split; intros x []|lra].
    - cbn [kl_sum]. destruct (IH b ltac:(lia)) as [A B]. destruct (kl_term m l) as [C D]. split; [lra|]. split.
      + intros H. assert (Z : 1 + l - m * m - exp l = 0) by lra. assert (Z2 : - (1 / 2) * kl_sum a b = 0) by lra.
        apply D in Z. destruct Z. apply B in Z2. destruct Z2 as [Z2 Z3]. split; intros x [<-|I]; auto.
      + intros [H1 H2]. assert (Z : 1 + l - m * m - exp l = 0) by (apply D; split; [apply H1|apply H2]; left; auto).
        assert (Z2 : - (1 / 2) * kl_sum a b = 0) by (apply B; split; intros x I; [apply H1|apply H2]; right; auto). lra. }
  destruct K as [K1 K2]. split; auto. split; [apply sq_error_zero; auto|]. split; auto. split; auto. split; [lra|]. split.
  - split.
    + intros H. split; [apply sq_error_zero; auto; lra|lra].
    + intros [-> H]. assert (sq_error target target = 0) by (apply sq_error_zero; auto). lra.
  - assert (0 <= beta * (sq_error recon target + 1 * kl_loss mu logv)) by (apply Rmult_le_pos; lra). lra.
Qed.
Print Assumptions C56_losses.
Example C56_example : criterion [1] [0] [0] [2] [0] 1 = (3, 1, 2).
Proof. unfold criterion, kl_loss. cbn. rewrite exp_0. f_equal; [f_equal|]; lra. Qed.

(** ** C57: attention *)
Lemma sum_to_pos : forall n f, (0 < n)%nat -> (forall i, (i < n)%nat -> 0 < f i) -> 0 < sum_to n f.
Proof.
  induction n as [|n IH]; intros f H P; [lia|]. cbn. destruct n as [|n].
  - cbn. specialize (P 0%nat ltac:(lia)). lra.
  - assert (0 < sum_to (S n) f) by (apply IH; [lia|]; intros; apply P; lia). specialize (P (S n) ltac:(lia)). lra.
Qed.
Lemma sum_to_ext : forall n f g, (forall i, (i < n)%nat -> f i = g i) -> sum_to n f = sum_to n g.
Proof. induction n as [|n IH]; intros f g H; cbn; auto. rewrite (IH f g), H; auto. Qed.
Lemma sum_to_scale : forall n f c, sum_to n (fun i => f i * c) = sum_to n f * c.
Proof. induction n as [|n IH]; intros f c; cbn; [lra|]. rewrite IH. lra. Qed.
Lemma sum_to_le : forall n f g, (forall i, (i < n)%nat -> f i <= g i) -> sum_to n f <= sum_to n g.
Proof.
  induction n as [|n IH]; intros f g H; cbn; [lra|]. assert (sum_to n f <= sum_to n g) by (apply IH; intros; apply H; lia).
  specialize (H n ltac:(lia)). lra.
Qed.
Lemma sum_to_const : forall n c, sum_to n (fun _ => c) = INR n * c.
Proof. induction n as [|n IH]; intros c; cbn [sum_to]; [cbn; lra|]. rewrite IH, S_INR. lra. Qed.

(** The two views put key i and query j at entry (i, j). *)
Lemma gat_layout : forall nodes (key query : tensor) b i j, (i < nodes)%nat -> (j < nodes)%nat ->
  view (nodes * nodes) 1 nodes nodes
    (fun b p k => view nodes nodes (nodes * nodes) 1 (repeat_last 1 key) b p k + repeat_mid nodes query b p k) b i j
  = key b i 0%nat + query b j 0%nat.
Proof.
  intros n key query b i j Hi Hj. assert (Hn : (0 < n)%nat) by lia. unfold view at 1, at_flat.
  assert (Hp : (i * n + j < n * n)%nat) by nia.
  replace ((b * n + i) * n + j)%nat with (b * (n * n) + (i * n + j))%nat by lia.
  rewrite Nat.mul_1_r, Nat.div_1_r, Nat.mod_1_r.
  assert (E1 : ((b * (n * n) + (i * n + j)) / (n * n) = b)%nat).
  { rewrite Nat.add_comm, Nat.div_add by nia. rewrite Nat.div_small by auto. auto. }
  assert (E2 : ((b * (n * n) + (i * n + j)) mod (n * n) = i * n + j)%nat).
  { rewrite Nat.add_comm, Nat.mod_add by nia. apply Nat.mod_small. auto. }
  rewrite E1, E2. f_equal.
  - unfold view, at_flat, repeat_last. rewrite Nat.mul_1_r, Nat.add_0_r, E1, !Nat.mod_1_r. f_equal.
    replace (b * (n * n) + (i * n + j))%nat with (j + (b * n + i) * n)%nat by lia.
    rewrite Nat.div_add, Nat.div_small by lia. rewrite Nat.add_0_l, Nat.add_comm, Nat.mod_add by lia. apply Nat.mod_small; auto.
  - unfold repeat_mid. f_equal. rewrite Nat.add_comm, Nat.mod_add by lia. apply Nat.mod_small; auto.
Qed.
Theorem C57_attention_map : forall nodes feats wk wq x b i, (i < nodes)%nat ->
  (exists z, 0 < z /\ forall j, (j < nodes)%nat ->
     gat_map nodes feats wk wq x b i j =
       exp (leaky (sum_to feats (fun f => x b i f * wk f) + sum_to feats (fun f => x b j f * wq f))) / z) /\
  (forall j, (j < nodes)%nat -> 0 < gat_map nodes feats wk wq x b i j) /\
  sum_to nodes (gat_map nodes feats wk wq x b i) = 1.
Proof.
  intros n feats wk wq x b i Hi.
  set (ks := sum_to feats (fun f => x b i f * wk f)). set (qs := fun j => sum_to feats (fun f => x b j f * wq f)).
  set (z := sum_to n (fun k => exp (leaky (ks + qs k)))).
  assert (Pz : 0 < z) by (apply sum_to_pos; [lia|]; intros; apply exp_pos).
  assert (E : forall j, (j < n)%nat -> gat_map n feats wk wq x b i j = exp (leaky (ks + qs j)) / z).
  { intros j Hj. unfold gat_map, softmax. cbv zeta. rewrite gat_layout by auto. f_equal. unfold z. apply sum_to_ext.
    intros k Hk. rewrite gat_layout by auto. reflexivity. }
  split; [|split].
  - exists z. split; [exact Pz|]. intros j Hj. apply E. exact Hj.
  - intros j Hj. rewrite E by auto. apply Rmult_lt_0_compat; [apply exp_pos|apply Rinv_0_lt_compat; auto].
  - rewrite (sum_to_ext n _ (fun j => exp (leaky (ks + qs j)) * / z)) by (intros; apply E; auto).
    rewrite sum_to_scale. fold z. field. lra.
Qed.
Print Assumptions C57_attention_map.
(** Mixed features stay within the range of the features they mix. *)
Theorem C57_mixed_features : forall nodes feats wk wq x b i f lo hi, (i < nodes)%nat ->
  (forall j, (j < nodes)%nat -> lo <= x b j f <= hi) ->
  lo <= gat_feat nodes feats wk wq x b f i <= hi.
Proof.
  intros n feats wk wq x b i f lo hi Hi H. destruct (C57_attention_map n feats wk wq x b i Hi) as (_ & P & S).
  unfold gat_feat, permute021. set (g := gat_map n feats wk wq x b i) in *. change (fun j => gat_map n feats wk wq x b i j * x b j f) with (fun j => g j * x b j f).
  split.
  - apply Rle_trans with (sum_to n (fun j => g j * lo)); [rewrite sum_to_scale, S; lra|].
    apply sum_to_le. intros j Hj. specialize (P j Hj). specialize (H j Hj). cbv beta. nra.
  - apply Rle_trans with (sum_to n (fun j => g j * hi)); [|rewrite sum_to_scale, S; lra].
    apply sum_to_le. intros j Hj. specialize (P j Hj). specialize (H j Hj). cbv beta. nra.
Qed.
Print Assumptions C57_mixed_features.
(** The nonlinearity before the softmax: the score itself if positive, a fifth
    of it if negative. So a node with a higher query score always gets more
    attention, from every node. *)
Theorem C57_attention_order : forall nodes feats wk wq x b i j k, (i < nodes)%nat -> (j < nodes)%nat -> (k < nodes)%nat ->
  let score l := sum_to feats (fun f => x b i f * wk f) + sum_to feats (fun f => x b l f * wq f) in
  gat_map nodes feats wk wq x b i j / gat_map nodes feats wk wq x b i k =
    exp (Rmax (score j) (score j / 5) - Rmax (score k) (score k / 5)) /\
  (sum_to feats (fun f => x b j f * wq f) < sum_to feats (fun f => x b k f * wq f) ->
   gat_map nodes feats wk wq x b i j < gat_map nodes feats wk wq x b i k).
Proof.
  intros n feats wk wq x b i j k Hi Hj Hk score.
  destruct (C57_attention_map n feats wk wq x b i Hi) as ((z & Pz & E) & _ & _).
  rewrite (E j Hj), (E k Hk). fold (score j) (score k).
  assert (LK : forall v, leaky v = Rmax v (v / 5)).
  { intros v. unfold leaky. destruct (Rle_dec 0 v); [rewrite Rmax_left by lra|rewrite Rmax_right by lra]; lra. }
  rewrite !LK. split.
  - unfold Rminus. rewrite exp_plus, exp_Ropp. field. split; [|lra]. pose proof (exp_pos (Rmax (score k) (score k / 5))). lra.
  - intros L. assert (LS : score j < score k) by (unfold score; lra).
    assert (M : Rmax (score j) (score j / 5) < Rmax (score k) (score k / 5)).
    { unfold Rmax. destruct (Rle_dec (score j) (score j / 5)), (Rle_dec (score k) (score k / 5)); lra. }
    apply Rmult_lt_compat_r; [apply Rinv_0_lt_compat; auto|]. apply exp_increasing. auto.
Qed.
Print Assumptions C57_attention_order.
Example C57_example : gat_map 2 1 (fun _ => 0) (fun _ => 0) (fun _ j _ => INR j) 0%nat 0%nat 1%nat = 1 / 2.
Proof.
  unfold gat_map, softmax. cbv zeta. rewrite gat_layout by lia. cbn [sum_to]. rewrite !gat_layout by lia. cbn.
  rewrite !Rmult_0_r, !Rplus_0_l. field. pose proof (exp_pos (leaky 0)). lra.
Qed.

(** ** C77: smoothing and pooling *)
Theorem C77_smoothing : forall time dim kernel x b t d, (0 < kernel)%nat -> (kernel <= time)%nat ->
  (t < time - kernel + 1)%nat -> (d < dim)%nat ->
  smoothing time dim kernel x b t d = sum_to kernel (fun q => x b (t + q)%nat d) / INR kernel /\
  forall lo hi, (forall q, (q < kernel)%nat -> lo <= x b (t + q)%nat d <= hi) -> lo <= smoothing time dim kernel x b t d <= hi.
Proof.
  intros T D k x b t d Hk HT Ht Hd.
  assert (E : smoothing T D k x b t d = sum_to k (fun q => x b (t + q)%nat d) / INR k).
  { unfold smoothing. cbv zeta. unfold permute021 at 1. unfold view at 1, at_flat.
    set (T' := (T - k + 1)%nat) in *. rewrite Nat.mul_1_l, Nat.mod_1_r.
    assert (E1 : (((b * D + d) * T' + t) / T' = b * D + d)%nat).
    { rewrite Nat.add_comm, Nat.div_add by lia. rewrite Nat.div_small by auto. lia. }
    assert (E2 : (((b * D + d) * T' + t) mod T' = t)%nat).
    { rewrite Nat.add_comm, Nat.mod_add by lia. apply Nat.mod_small; auto. }
    rewrite E1, E2. unfold smooth. unfold Rdiv. rewrite Rmult_1_l, sum_to_scale. f_equal. apply sum_to_ext. intros q Hq.
    unfold view, at_flat, permute021.
    assert (Hb : (t + q < T)%nat) by (unfold T' in *; lia).
    replace (((b * D + d) * 1 + 0) * T + (t + q))%nat with ((t + q) + (b * D + d) * T)%nat by lia.
    assert (F1 : (((t + q) + (b * D + d) * T) / T = b * D + d)%nat) by (rewrite Nat.div_add by lia; rewrite Nat.div_small by auto; lia).
    assert (F2 : (((t + q) + (b * D + d) * T) mod T = t + q)%nat) by (rewrite Nat.mod_add by lia; apply Nat.mod_small; auto).
    assert (F3 : (((t + q) + (b * D + d) * T) / (D * T) = b)%nat).
    { rewrite (Nat.mul_comm D T), <- Nat.div_div by lia. rewrite F1. rewrite Nat.add_comm, Nat.div_add by lia. rewrite Nat.div_small; lia. }
    rewrite F1, F2, F3. f_equal. rewrite Nat.add_comm, Nat.mod_add by lia. apply Nat.mod_small; auto. }
  split; auto. intros lo hi H. rewrite E. assert (P : 0 < INR k) by (apply lt_0_INR; auto).
  assert (L : INR k * lo <= sum_to k (fun q => x b (t + q)%nat d)) by (rewrite <- sum_to_const; apply sum_to_le; intros; apply H; auto).
  assert (U : sum_to k (fun q => x b (t + q)%nat d) <= INR k * hi) by (rewrite <- sum_to_const; apply sum_to_le; intros; apply H; auto).
  split; apply Rmult_le_reg_r with (INR k); auto; unfold Rdiv; rewrite Rmult_assoc, Rinv_l by lra; lra.
Qed.
Print Assumptions C77_smoothing.

Lemma max_to_spec : forall n f, (exists i, (i <= n)%nat /\ max_to n f = f i) /\ forall i, (i <= n)%nat -> f i <= max_to n f.
Proof.
  induction n as [|n IH]; intros f; cbn [max_to].
  - split; [exists 0%nat; auto|]. intros i H. replace i with 0%nat by lia. lra.
  - destruct (IH f) as [(i & Hi & E) M]. split.
    + unfold Rmax. destruct (Rle_dec (max_to n f) (f (S n))); [exists (S n); auto|]. exists i. split; [lia|auto].
    + intros j Hj. destruct (Nat.eq_dec j (S n)) as [->|]; [apply Rmax_r|].
      eapply Rle_trans; [apply M; lia|apply Rmax_l].
Qed.
(** Cut the time axis into [out] equal parts; step t is the interval from t to t+1.
    Pooled entry i is the maximum over the steps that overlap part i, and every
    step overlaps some part. *)
Definition overlaps (len out i t : nat) : Prop := (i * len < S t * out /\ t * out < S i * len)%nat.
Lemma overlaps_range : forall len out i t, (0 < len)%nat -> (0 < out)%nat ->
  overlaps len out i t <-> (i * len / out <= t < (S i * len + out - 1) / out)%nat.
Proof.
  intros len out i t Hl Ho. unfold overlaps. split.
  - intros [A B]. split.
    + assert (i * len / out < S t)%nat; [|lia]. apply Nat.div_lt_upper_bound; lia.
    + apply Nat.div_le_lower_bound; [lia|]. nia.
  - intros [A B]. split.
    + assert (H : (i * len / out < S t)%nat) by lia.
      pose proof (Nat.div_mod (i * len) out ltac:(lia)) as D. pose proof (Nat.mod_upper_bound (i * len) out ltac:(lia)) as M.
      set (q := (i * len / out)%nat) in *. nia.
    + pose proof (Nat.div_mod (S i * len + out - 1) out ltac:(lia)) as D.
      set (q := ((S i * len + out - 1) / out)%nat) in *. assert (out * S t <= out * q)%nat by (apply Nat.mul_le_mono_l; lia).
      generalize dependent (S i * len)%nat. intros; nia.
Qed.
Theorem C77_pooling : forall len out x b c, (0 < len)%nat -> (0 < out)%nat ->
  (forall i, (i < out)%nat ->
     (exists t, (t < len)%nat /\ overlaps len out i t /\ pool len out x b c i = x b c t) /\
     (forall t, overlaps len out i t -> (t < len)%nat /\ x b c t <= pool len out x b c i)) /\
  (forall t, (t < len)%nat -> exists i, (i < out)%nat /\ overlaps len out i t).
Proof.
  intros len out x b c Hl Ho.
  assert (B : forall i t, (i < out)%nat -> overlaps len out i t -> (t < len)%nat) by (unfold overlaps; intros i t Hi [_ H]; nia).
  assert (N : forall i, (i * len / out < (S i * len + out - 1) / out)%nat).
  { intros i. assert (O : overlaps len out i (i * len / out)).
    { unfold overlaps. pose proof (Nat.div_mod (i * len) out ltac:(lia)) as D. pose proof (Nat.mod_upper_bound (i * len) out ltac:(lia)) as M.
      set (q := (i * len / out)%nat) in *. split; nia. }
    apply overlaps_range in O; lia. }
  split.
  - intros i Hi. specialize (N i). unfold pool.
    assert (R : forall t, overlaps len out i t <-> (i * len / out <= t < (S i * len + out - 1) / out)%nat) by (intros; apply overlaps_range; auto).
    set (lo := (i * len / out)%nat) in *. set (hi := ((S i * len + out - 1) / out)%nat) in *.
    destruct (max_to_spec (hi - 1 - lo) (fun q => x b c (lo + q)%nat)) as [(q & Hq & E) Q]. split.
    + exists (lo + q)%nat. assert (O : overlaps len out i (lo + q)) by (apply R; lia). split; [eapply B; eauto|]. split; auto.
    + intros t O. split; [eapply B; eauto|]. apply R in O. specialize (Q (t - lo)%nat ltac:(lia)).
      cbv beta in Q. replace (lo + (t - lo))%nat with t in Q by lia. auto.
  - intros t Ht. exists (t * out / len)%nat.
    pose proof (Nat.div_mod (t * out) len ltac:(lia)) as D. pose proof (Nat.mod_upper_bound (t * out) len ltac:(lia)) as M.
    split; [apply Nat.div_lt_upper_bound; nia|]. unfold overlaps. set (q := (t * out / len)%nat) in *. split; nia.
Qed.
Print Assumptions C77_pooling.
Example C77_example : pool 3 2 (fun _ _ t => INR t) 0%nat 0%nat 0%nat = 1 /\ smoothing 2 1 2 (fun _ t _ => INR t) 0%nat 0%nat 0%nat = 1 / 2.
Proof.
  split.
  - unfold pool. cbn. unfold Rmax. destruct (Rle_dec _ _); lra.
  - destruct (C77_smoothing 2 1 2 (fun _ t _ => INR t) 0%nat 0%nat 0%nat) as [-> _]; try lia. cbn. field.
Qed.
