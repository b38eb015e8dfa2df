(** Sums of roots of unity, and the transform of a level series with one spike. *)
From Coq Require Import List Arith ZArith Lia Bool.
From Coq Require Import Reals.
From Verif Require Import Cplx.
From Verif Require Import Base Helpers_model Transform_model Transform_spec Transform_props Fourier_model.
From Coq Require Import Lra.
Import ListNotations.
Open Scope C_scope.

Definition total (l : list C) : C := csum l.
Definition sumC (n : nat) (f : nat -> C) : C := total (map f (seq 0 n)).
Lemma total_app : forall a b, total (a ++ b) = total a + total b.
Proof.
  induction a as [|x t IH]; intros b.
  - change (total b = 0 + total b). ring.
  - change (x + total (t ++ b) = x + total t + total b). rewrite IH. ring.
Qed.
Lemma sumC_0 : forall f, sumC 0 f = 0.
Proof. reflexivity. Qed.
Lemma sumC_S : forall n f, sumC (S n) f = sumC n f + f n.
Proof.
  intros. unfold sumC. rewrite seq_S, map_app, total_app. change (total (map f [(0 + n)%nat])) with (f n + 0). ring.
Qed.
Lemma sumC_ext : forall n (f g : nat -> C), (forall j, (j < n)%nat -> f j = g j) -> sumC n f = sumC n g.
Proof.
  induction n as [|n IH]; intros f g H; auto. rewrite !sumC_S, (IH f g), (H n); auto. 
Qed.
Lemma sumC_plus : forall n (f g : nat -> C), sumC n (fun j => f j + g j) = sumC n f + sumC n g.
Proof. induction n as [|n IH]; intros f g; [rewrite !sumC_0; ring|]. rewrite !sumC_S, IH. ring. Qed.
Lemma sumC_scal : forall n (c : C) (f : nat -> C), sumC n (fun j => c * f j) = c * sumC n f.
Proof. induction n as [|n IH]; intros c f; [rewrite !sumC_0; ring|]. rewrite !sumC_S, IH. ring. Qed.
Lemma sumC_zero : forall n (f : nat -> C), (forall j, (j < n)%nat -> f j = 0) -> sumC n f = 0.
Proof. induction n as [|n IH]; intros f H; auto. rewrite sumC_S, IH, H; auto. ring. Qed.
Lemma sumC_single : forall n (f : nat -> C) k, (k < n)%nat -> (forall j, (j < n)%nat -> j <> k -> f j = 0) -> sumC n f = f k.
Proof.
  induction n as [|n IH]; intros f k L H; [lia|]. rewrite sumC_S. destruct (Nat.eq_dec k n) as [->|N].
  - rewrite sumC_zero; [ring|]. intros j Lj. apply H; lia.
  - rewrite (IH f k), (H n); try ring; try lia. intros j Lj. apply H. lia.
Qed.
Lemma sumC_const : forall n (c : C), sumC n (fun _ => c) = RtoC (INR n) * c.
Proof.
  induction n as [|n IH]; intros c; [rewrite sumC_0; simpl; ring|]. rewrite sumC_S, IH, S_INR, RtoC_plus. ring.
Qed.
Lemma sumC_swap : forall n m (f : nat -> nat -> C), sumC n (fun i => sumC m (f i)) = sumC m (fun j => sumC n (fun i => f i j)).
Proof.
  induction n as [|n IH]; intros m f.
  - rewrite sumC_0. symmetry. apply sumC_zero. auto.
  - rewrite sumC_S, IH, <- sumC_plus. apply sumC_ext. intros. rewrite sumC_S. auto.
Qed.

(** * Roots of unity *)
Definition cis (a : R) : C := (cos a, sin a).
Lemma cis_add : forall a b, cis (a + b) = cis a * cis b.
Proof. intros. unfold cis, Cmult. cbn [fst snd]. rewrite cos_plus, sin_plus. f_equal; ring. Qed.
Lemma cis_0 : cis 0 = 1.
Proof. unfold cis. rewrite cos_0, sin_0. auto. Qed.
Lemma cis_opp : forall a, cis (- a) = (cos a, (- sin a)%R).
Proof. intros. unfold cis. rewrite cos_neg, sin_neg. auto. Qed.
Lemma cis_mod : forall a, Cmod (cis a) = 1%R.
Proof.
  intros. unfold Cmod, cis. cbn [fst snd]. replace (cos a ^ 2 + sin a ^ 2)%R with 1%R; [apply sqrt_1|].
  pose proof (sin2_cos2 a) as H. unfold Rsqr in H. simpl. lra.
Qed.
Definition root (n : nat) (k : Z) : C := cis (2 * PI * IZR k / INR n).
Lemma root_add : forall n a b, (0 < n)%nat -> root n (a + b) = root n a * root n b.
Proof.
  intros n a b H. unfold root. rewrite <- cis_add. f_equal. rewrite plus_IZR. field. apply not_0_INR. lia.
Qed.
Lemma root_0 : forall n, root n 0 = 1.
Proof. intros. unfold root. replace (2 * PI * 0 / INR n)%R with 0%R by (unfold Rdiv; ring). apply cis_0. Qed.
Lemma root_mod : forall n k, Cmod (root n k) = 1%R.
Proof. intros. apply cis_mod. Qed.
Lemma root_opp : forall n k, (0 < n)%nat -> root n (- k) * root n k = 1.
Proof. intros. rewrite <- root_add by auto. replace (- k + k)%Z with 0%Z by lia. apply root_0. Qed.
Lemma root_n : forall n, (0 < n)%nat -> root n (Z.of_nat n) = 1.
Proof.
  intros n H. unfold root. rewrite <- INR_IZR_INZ. replace (2 * PI * INR n / INR n)%R with (2 * PI)%R by (field; apply not_0_INR; lia).
  unfold cis. rewrite cos_2PI, sin_2PI. auto.
Qed.
Fixpoint Cpow (z : C) (n : nat) : C := match n with O => 1 | S n => z * Cpow z n end.
Lemma root_mul : forall n k j, (0 < n)%nat -> root n (Z.of_nat j * k) = Cpow (root n k) j.
Proof.
  intros n k j H. induction j as [|j IH]; [simpl; apply root_0|].
  replace (Z.of_nat (S j) * k)%Z with (Z.of_nat j * k + k)%Z by lia. rewrite root_add, IH by auto. simpl. ring.
Qed.
Lemma root_pos_ne : forall n d, (0 < d < Z.of_nat n)%Z -> root n d <> 1.
Proof.
  intros n d H E. unfold root, cis in E. assert (E1 := f_equal fst E). cbn [fst RtoC] in E1.
  assert (PN : (0 < INR n)%R) by (apply lt_0_INR; lia).
  set (a := (PI * IZR d / INR n)%R).
  assert (A : (2 * PI * IZR d / INR n = 2 * a)%R) by (unfold a; field; lra).
  rewrite A, cos_2a_sin in E1.
  assert (P : (0 < a < PI)%R).
  { pose proof PI_RGT_0. assert (0 < IZR d)%R by (apply IZR_lt; lia).
    assert (IZR d < INR n)%R by (rewrite INR_IZR_INZ; apply IZR_lt; lia).
    unfold a. split.
    - apply Rdiv_lt_0_compat; auto. apply Rmult_lt_0_compat; auto.
    - apply (Rmult_lt_reg_r (INR n)); auto. unfold Rdiv. rewrite Rmult_assoc, Rinv_l, Rmult_1_r by lra. apply Rmult_lt_compat_l; auto. }
  pose proof (sin_gt_0 a (proj1 P) (proj2 P)). nra.
Qed.
Lemma Cpow_1 : forall m, Cpow 1 m = 1.
Proof. induction m as [|m IH]; simpl; [auto|rewrite IH; ring]. Qed.
Lemma root_period : forall n d, (0 < n)%nat -> root n (Z.of_nat n * d) = 1.
Proof.
  intros n d H.
  assert (P : forall m, root n (Z.of_nat m * Z.of_nat n) = 1) by (intros; rewrite root_mul, root_n, Cpow_1; auto).
  destruct (Z_lt_le_dec d 0).
  - replace (Z.of_nat n * d)%Z with (- (Z.of_nat (Z.to_nat (- d)) * Z.of_nat n))%Z by lia.
    pose proof (root_opp n (Z.of_nat (Z.to_nat (- d)) * Z.of_nat n) H) as O. rewrite P, Cmult_1_r in O. auto.
  - replace (Z.of_nat n * d)%Z with (Z.of_nat (Z.to_nat d) * Z.of_nat n)%Z by lia. apply P.
Qed.
Lemma geometric : forall z n, (z - 1) * sumC n (fun j => Cpow z j) = Cpow z n - 1.
Proof.
  intros z n. induction n as [|n IH]; [rewrite sumC_0; simpl; ring|].
  rewrite sumC_S, Cmult_plus_distr_l, IH. simpl. ring.
Qed.
Lemma sum_roots : forall n a b, (a < n)%nat -> (b < n)%nat ->
  sumC n (fun j => root n (Z.of_nat j * (Z.of_nat a - Z.of_nat b))) = if a =? b then RtoC (INR n) else 0.
Proof.
  intros n a b La Lb. destruct (Nat.eqb_spec a b) as [->|N].
  - rewrite (sumC_ext n _ (fun _ => 1)); [rewrite sumC_const; ring|].
    intros j _. replace (Z.of_nat j * (Z.of_nat b - Z.of_nat b))%Z with 0%Z by lia. apply root_0.
  - set (z := root n (Z.of_nat a - Z.of_nat b)).
    rewrite (sumC_ext n _ (fun j => Cpow z j)) by (intros j _; apply root_mul; lia).
    assert (Z1 : z - 1 <> 0).
    { apply Cminus_eq_contra. unfold z. destruct (Z_lt_le_dec (Z.of_nat a - Z.of_nat b) 0).
      - replace (root n (Z.of_nat a - Z.of_nat b)) with (root n (Z.of_nat a - Z.of_nat b + Z.of_nat n)).
        + apply root_pos_ne. lia.
        + rewrite root_add, root_n by lia. ring.
      - apply root_pos_ne. lia. }
    assert (ZN : Cpow z n = 1).
    { unfold z. rewrite <- root_mul by lia. apply root_period. lia. }
    pose proof (geometric z n) as G. rewrite ZN in G.
    assert (G0 : (z - 1) * sumC n (fun j => Cpow z j) = 0) by (rewrite G; ring).
    set (s := sumC n (fun j => Cpow z j)) in *. clearbody s.
    replace s with (/ (z - 1) * ((z - 1) * s)) by (field; auto). rewrite G0. ring.
Qed.

(** * The two transforms through these sums *)
Lemma angle_root : forall n j t, cis (angle n j t) = root n (Z.of_nat j * Z.of_nat t).
Proof.
  intros. unfold root, angle. f_equal. rewrite INR_IZR_INZ, Nat2Z.inj_mul. auto.
Qed.
Lemma angle_root_neg : forall n j t, (cos (angle n j t), (- sin (angle n j t))%R) = root n (- (Z.of_nat j * Z.of_nat t)).
Proof.
  intros. rewrite <- cis_opp. unfold root, angle. f_equal. rewrite INR_IZR_INZ, Nat2Z.inj_mul, opp_IZR. unfold Rdiv. ring.
Qed.
Lemma fft_length : forall v, length (fft v) = length v.
Proof. intros. unfold fft. rewrite map_length, seq_length. auto. Qed.
Lemma ifft_length : forall v, length (ifft v) = length v.
Proof. intros. unfold ifft. rewrite map_length, seq_length. auto. Qed.
Lemma fft_nth : forall v j, (j < length v)%nat ->
  nth j (fft v) (0, 0)%R = sumC (length v) (fun t => RtoC (nth t v 0%R) * root (length v) (- (Z.of_nat j * Z.of_nat t))).
Proof.
  intros v j L. apply nth_error_nth_d. unfold fft. rewrite nth_error_map, nth_error_seq.
  assert (E : (j <? length v)%nat = true) by (apply Nat.ltb_lt; auto). rewrite E. simpl option_map. f_equal.
  unfold sumC, total. f_equal. apply map_ext. intros t. rewrite angle_root_neg. auto.
Qed.
Lemma ifft_nth : forall z t, (t < length z)%nat ->
  nth t (ifft z) (0, 0)%R = / RtoC (INR (length z)) * sumC (length z) (fun j => nth j z (0, 0)%R * root (length z) (Z.of_nat j * Z.of_nat t)).
Proof.
  intros z t L. apply nth_error_nth_d. unfold ifft. rewrite nth_error_map, nth_error_seq.
  assert (E : (t <? length z)%nat = true) by (apply Nat.ltb_lt; auto). rewrite E. simpl option_map. f_equal.
  assert (S : csum (map (fun j => cmul (nth j z (0, 0)%R) (cos (angle (length z) j t), sin (angle (length z) j t))) (seq 0 (length z)))
     = sumC (length z) (fun j => nth j z (0, 0)%R * root (length z) (Z.of_nat j * Z.of_nat t))).
  { unfold sumC, total. f_equal. apply map_ext. intros j. rewrite <- angle_root. auto. }
  rewrite S. set (s := sumC _ _). clearbody s.
  assert (N0 : INR (length z) <> 0%R) by (apply not_0_INR; lia).
  rewrite <- RtoC_inv by auto. destruct s as [a b]. unfold Cmult, RtoC. cbn [fst snd]. f_equal; unfold Rdiv; ring.
Qed.
