(** Proofs about values far outside the training range (C94). *)
From Coq Require Import String List Arith ZArith Lia Bool Permutation Sorted.
From Verif Require Import Base Num Sorting Kernel_model Kernel_proofs Helpers_model Helpers_spec Helpers_proofs
  Mv_model Mv_state Mv_spec Mv_spec2 Mv_spec3 Mv_proofs Mv_proofs2 Mv_proofs3 Mv_proofs4 Mv_proofs5 Mv_proofs6 Mv_proofs7 Mv_proofs8.
Import ListNotations.
Open Scope nat_scope.

Lemma qsum_pointwise : forall a b, length a = length b ->
  (forall j x y, nth_error a j = Some x -> nth_error b j = Some y -> (x <= y)%Qc) -> (qsum a <= qsum b)%Qc.
Proof.
  induction a as [|x a IH]; intros [|y b] L H; cbn in L; try lia; [apply Qcle_refl|].
  pose proof (H 0 x y eq_refl eq_refl). assert (qsum a <= qsum b)%Qc by (apply IH; [lia|]; intros j; apply (H (S j))).
  cbn [qsum fold_right]. unfold qsum in *. cbn [fold_right]. qlra.
Qed.
Lemma qsum_factor : forall c l, qsum (map (fun x => c * x)%Qc l) = (c * qsum l)%Qc.
Proof. induction l as [|x l IH]; cbn in *; [ring|]. unfold qsum in *. rewrite IH. ring. Qed.
Lemma qmean_pointwise : forall (c : Qc) a b, length a = length b -> 0 < length a ->
  (forall j x y, nth_error a j = Some x -> nth_error b j = Some y -> (x <= c * y)%Qc) -> (qmean a <= c * qmean b)%Qc.
Proof.
  intros c a b L P H. unfold qmean. rewrite <- L. pose proof (qn_pos _ P) as Q.
  assert (qsum a <= c * qsum b)%Qc.
  { rewrite <- qsum_factor. apply qsum_pointwise; [rewrite map_length; auto|]. intros j x y Ex Ey. rewrite nth_error_map in Ey.
    destruct (nth_error b j) as [z|] eqn:Ez; inversion Ey; subst. eauto. }
  replace (c * (qsum b / qn (length a)))%Qc with ((c * qsum b) / qn (length a))%Qc by (field; apply qn_neq0; auto).
  apply Qcdiv_le_iff; auto. replace (c * qsum b / qn (length a) * qn (length a))%Qc with (c * qsum b)%Qc by (field; apply qn_neq0; auto). auto.
Qed.
Lemma qmean_pointwise_ge : forall (c : Qc) a b, length a = length b -> 0 < length a ->
  (forall j x y, nth_error a j = Some x -> nth_error b j = Some y -> (c * y <= x)%Qc) -> (c * qmean b <= qmean a)%Qc.
Proof.
  intros c a b L P H. unfold qmean. rewrite <- L. pose proof (qn_pos _ P) as Q.
  assert (c * qsum b <= qsum a)%Qc.
  { rewrite <- qsum_factor. apply qsum_pointwise; [rewrite map_length; auto|]. intros j x y Ex Ey. rewrite nth_error_map in Ex.
    destruct (nth_error b j) as [z|] eqn:Ez; inversion Ex; subst. eauto. }
  replace (c * (qsum b / qn (length a)))%Qc with ((c * qsum b) / qn (length a))%Qc by (field; apply qn_neq0; auto).
  apply Qcdiv_le_iff; auto. replace (qsum a / qn (length a) * qn (length a))%Qc with (qsum a)%Qc by (field; apply qn_neq0; auto). auto.
Qed.

(** The mean weight is 1 - r + r^2 for the share r of strongly varying columns. *)
Lemma reweight_sum : forall (r : Qc) l, qsum (map (fun v => if strongly v then r else 1%Qc) l) =
  (qn (length l) - qn (length (filter strongly l)) + r * qn (length (filter strongly l)))%Qc.
Proof.
  induction l as [|v l IH]; [cbn; rewrite qn_0; ring|].
  cbn [map filter length]. unfold qsum in *. cbn [fold_right]. rewrite IH. destruct (strongly v); cbn [length]; rewrite !qn_S; ring.
Qed.
Lemma reweight_mean : forall l, l <> [] -> (Q2Qc (3 # 4) <= qmean (reweight l))%Qc.
Proof.
  intros l N. assert (P : 0 < length l) by (destruct l; [congruence|cbn; lia]). pose proof (qn_pos _ P) as Q.
  unfold qmean, reweight. rewrite reweight_sum, map_length. set (n := qn (length l)) in *. set (k := qn (length (filter strongly l))).
  assert (Nz : n <> 0%Qc) by (intros E; rewrite E in Q; qlra).
  replace ((n - k + k / n * k) / n)%Qc with ((n * n - n * k + k * k) / (n * n))%Qc by (field; auto).
  assert (0 < n * n)%Qc by (apply Qcmul_pos; auto).
  apply Qcle_div_iff; auto. pose proof (Qcsqr_nonneg (n * Q2Qc (1 # 2) - k)%Qc). qlra.
Qed.

Lemma pct_mean : forall train window, pct_weights train window <> [] -> (Q2Qc (3 # 4) <= qmean (pct_weights train window))%Qc.
Proof.
  intros train window N. apply reweight_mean. intros E. apply N. unfold pct_weights. rewrite E. reflexivity.
Qed.
Lemma pct_unit : forall train window x, In x (pct_weights train window) -> (0 < x /\ x <= 1)%Qc.
Proof.
  intros train window x I. apply In_nth_error in I. destruct I as [j E]. unfold pct_weights in E. set (l := map _ _) in *.
  assert (Hj : j < length l) by (apply nth_error_lt in E; unfold reweight in E; rewrite map_length in E; auto).
  destruct (nth_error_ex _ l j Hj) as [v Ev]. apply (reweight_spec _ _ _ _ Ev E).
Qed.

(** A far value is scaled to at least 3/2 or at most -1/2, also when cut. *)
Lemma beyond_scaled : forall a b v y, (a <= b)%Qc -> beyond a b v ->
  cut_to (Q2Qc (-1000)) (Q2Qc 1000) ((v - a) / (b - a + Q2Qc (1 # 100000000)))%Qc y ->
  (Q2Qc (3 # 2) <= y \/ y <= Q2Qc (-1 # 2))%Qc.
Proof.
  intros a b v y L [B|B] (C1 & C2 & C3).
  - assert (Z : (Q2Qc (3 # 2) <= (v - a) / (b - a + Q2Qc (1 # 100000000)))%Qc) by (clear C1 C2 C3; apply Qcle_div_iff; qlra). left.
    set (z := ((v - a) / (b - a + Q2Qc (1 # 100000000)))%Qc) in *. clearbody z. clear B.
    destruct (Qclt_le_dec (Q2Qc 1000) z) as [G|G]; [rewrite C2 by auto; qlra|]. rewrite C3; [qlra| |]; qlra.
  - assert (Z : ((v - a) / (b - a + Q2Qc (1 # 100000000)) <= Q2Qc (-1 # 2))%Qc) by (clear C1 C2 C3; apply Qcdiv_le_iff; qlra). right.
    set (z := ((v - a) / (b - a + Q2Qc (1 # 100000000)))%Qc) in *. clearbody z. clear B.
    destruct (Qclt_le_dec z (Q2Qc (-1000))) as [G|G]; [rewrite C1 by auto; qlra|]. rewrite C3; [qlra| |]; qlra.
Qed.

Section Bounds.
Variable gap : Qc -> Qc.
Variable e1 : Qc.
Hypothesis gap_bound : forall x, (0 <= gap x /\ gap x <= e1)%Qc.
Hypothesis gap_full : forall x, (Q2Qc (1 # 2) <= Qcabs x)%Qc -> gap x = e1.
Variable prediction : list (list Qc) -> list Qc.
Hypothesis pred_unit : forall x v, In v (prediction x) -> (0 <= v /\ v <= 1)%Qc.
Variable pct : list Qc.
Hypothesis pct_ne : pct <> [].
Hypothesis pct_pos : forall x, In x pct -> (0 < x /\ x <= 1)%Qc.

Lemma pct_len : 0 < length pct.
Proof. destruct pct; [congruence|cbn; lia]. Qed.

Lemma score_most : forall mn mx input rows q s, row_error prediction gap mn mx pct input rows q s -> (s <= e1 * qmean pct)%Qc.
Proof.
  intros mn mx input rows q s (c & (_ & x & t & y & _ & _ & _ & T1 & T2 & T3 & T4) & ->). pose proof pct_len.
  apply qmean_pointwise; [lia|lia|]. intros j u w Eu Ew.
  assert (Hj : j < length pct) by (eapply nth_error_lt; eauto).
  destruct (nth_error_ex _ (prediction x) j) as [p Ep]; [lia|]. destruct (nth_error_ex _ y j) as [yy Ey]; [lia|].
  rewrite (T4 _ _ _ _ _ Ep Ey Ew Eu). destruct (gap_bound (p - yy)%Qc) as [G1 G2]. destruct (pct_pos w) as [W1 W2]; [eapply nth_error_In; eauto|].
  set (g := gap (p - yy)%Qc) in *. assert (0 <= (e1 - g) * w)%Qc by (apply Qcmul_nonneg; qlra). qlra.
Qed.
Lemma score_least : forall mn mx input rows q s row u, ranges mn mx ->
  row_error prediction gap mn mx pct input rows q s -> nth_error rows q = Some row ->
  far_weights mn mx pct row u -> (e1 * qmean u <= s)%Qc.
Proof.
  intros mn mx input rows q s row u Hr (c & (_ & x & t & y & _ & Et & [Ly Sy] & T1 & T2 & T3 & T4) & ->) Er [Lu Fu].
  rewrite Er in Et. inversion Et; subst t. clear Et. pose proof pct_len.
  apply qmean_pointwise_ge; [lia|lia|]. intros j cj uj Ec Eu.
  assert (Hj : j < length pct) by (rewrite <- Lu; eapply nth_error_lt; eauto).
  destruct (nth_error_ex _ (prediction x) j) as [p Ep]; [lia|]. destruct (nth_error_ex _ y j) as [yy Ey]; [lia|].
  destruct (nth_error_ex _ pct j) as [w Ew]; [lia|].
  rewrite (T4 _ _ _ _ _ Ep Ey Ew Ec). destruct (gap_bound (p - yy)%Qc) as [G1 G2]. destruct (pct_pos w) as [W1 W2]; [eapply nth_error_In; eauto|].
  destruct (Fu _ _ Eu) as [->|[Ew' (a & b & v & Ea & Eb & Ev & B)]].
  - assert (0 <= gap (p - yy) * w)%Qc by (apply Qcmul_nonneg; qlra). qlra.
  - rewrite Ew in Ew'. inversion Ew'; subst uj. destruct (pred_unit x p) as [P1 P2]; [eapply nth_error_In; eauto|].
    rewrite gap_full; [apply Qcle_refl|].
    destruct (beyond_scaled a b v yy (Hr _ _ _ Ea Eb) B (Sy _ _ _ _ _ Ev Ea Eb Ey)); qmm; qlra.
Qed.
End Bounds.
