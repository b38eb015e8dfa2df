(** [rne] is the rounding of IEEE 754 (as formalised by Flocq), and therefore
    meets what the tests need (C110). *)
From Verif Require Import Base Num Single_model Single_proofs.
From Coq Require Import ZArith Lia Bool Reals Qreals.
From Flocq Require Import Core Relative.
From Coq Require Import Lra.
Open Scope R_scope.

Definition QR (x : Qc) : R := Q2R (this x).

Lemma QR_add : forall x y, QR (x + y)%Qc = QR x + QR y.
Proof. intros. unfold QR. rewrite <- Q2R_plus. apply Qeq_eqR, this_add. Qed.
Lemma QR_sub : forall x y, QR (x - y)%Qc = QR x - QR y.
Proof. intros. unfold QR. rewrite <- Q2R_minus. apply Qeq_eqR, this_sub. Qed.
Lemma QR_mul : forall x y, QR (x * y)%Qc = QR x * QR y.
Proof. intros. unfold QR. rewrite <- Q2R_mult. apply Qeq_eqR, this_mul. Qed.
Lemma QR_opp : forall x, QR (- x)%Qc = - QR x.
Proof. intros. unfold QR. rewrite <- Q2R_opp. apply Qeq_eqR, this_opp. Qed.
Lemma QR_q : forall q, QR (Q2Qc q) = Q2R q.
Proof. intros. unfold QR. apply Qeq_eqR, this_q. Qed.
Lemma QR_qz : forall z, QR (qz z) = IZR z.
Proof.
  intros. unfold QR. rewrite (Qeq_eqR _ _ (this_qz z)). unfold Q2R, inject_Z. simpl. field.
Qed.
Lemma QR_0 : QR 0%Qc = 0.
Proof. unfold QR, Q2R. simpl. field. Qed.
Lemma QR_inj : forall x y, QR x = QR y -> x = y.
Proof. intros x y H. apply Qc_is_canon. apply eqR_Qeq; auto. Qed.
Lemma QR_le : forall x y, (x <= y)%Qc <-> QR x <= QR y.
Proof. intros. split; [apply Qle_Rle|apply Rle_Qle]. Qed.
Lemma QR_div : forall x y, y <> 0%Qc -> QR (x / y)%Qc = QR x / QR y.
Proof.
  intros x y H.
  assert (QR y <> 0) by (intro X; apply H, QR_inj; rewrite X, QR_0; auto).
  apply Rmult_eq_reg_r with (QR y); auto. rewrite <- QR_mul.
  replace (x / y * y)%Qc with x by (field; auto). field; auto.
Qed.
Lemma QR_abs : forall x, QR (Qcabs x) = Rabs (QR x).
Proof.
  intros x. unfold Qcabs. destruct (0 <=? x)%Qc eqn:E.
  - apply Qcleb_le in E. apply QR_le in E. rewrite QR_0 in E. rewrite Rabs_pos_eq; auto.
  - apply Qcleb_gt in E. apply Qclt_le_weak in E. apply QR_le in E. rewrite QR_0 in E.
    rewrite QR_opp, Rabs_left1; auto.
Qed.

(** * The integer nearest to a fraction *)
Lemma half_even_spec : forall n d, (0 < d)%Z -> half_even n d = ZnearestE (IZR n / IZR d).
Proof.
  intros n d Hd. assert (Pd : 0 < IZR d) by (apply IZR_lt; auto).
  unfold half_even, Znearest. rewrite Zfloor_div by lia.
  set (f := (n / d)%Z).
  assert (E : IZR n / IZR d - IZR f = IZR (n - f * d) / IZR d).
  { rewrite minus_IZR, mult_IZR. field. lra. }
  rewrite E.
  assert (Zc : (0 < n - f * d)%Z -> Zceil (IZR n / IZR d) = (f + 1)%Z).
  { intros H. rewrite Zceil_floor_neq; rewrite Zfloor_div by lia; auto. fold f. intro X.
    assert (IZR f * IZR d = IZR n) by (rewrite X; field; lra).
    rewrite <- mult_IZR in H0. apply eq_IZR in H0. lia. }
  assert (C : Rcompare (IZR (n - f * d) / IZR d) (/ 2) = (2 * (n - f * d) ?= d)%Z).
  { rewrite <- Rcompare_IZR. rewrite mult_IZR.
    rewrite <- (Rcompare_mult_r (2 * IZR d)) by lra. f_equal; field; lra. }
  rewrite C. destruct (2 * (n - f * d) ?= d)%Z eqn:Ec.
  - apply Z.compare_eq in Ec. rewrite Zc by lia. destruct (Z.even f); auto.
  - auto.
  - apply Z.compare_gt_iff in Ec. rewrite Zc by lia. auto.
Qed.

(** * The binade of a fraction *)
Lemma pow2_IZR : forall z, (0 <= z)%Z -> IZR (2 ^ z) = bpow radix2 z.
Proof. intros. rewrite <- IZR_Zpower by auto. auto. Qed.

Lemma binade_spec : forall n d, (0 < n)%Z -> (0 < d)%Z ->
  bpow radix2 (binade n d - 1) <= IZR n / IZR d < bpow radix2 (binade n d).
Proof.
  intros n d Hn Hd. assert (Pd : 0 < IZR d) by (apply IZR_lt; auto). assert (Pn : 0 < IZR n) by (apply IZR_lt; auto).
  destruct (Z.log2_spec n Hn) as [N1 N2]. destruct (Z.log2_spec d Hd) as [D1 D2].
  pose proof (Z.log2_nonneg n). pose proof (Z.log2_nonneg d).
  apply IZR_le in N1. apply IZR_lt in N2. apply IZR_le in D1. apply IZR_lt in D2.
  rewrite pow2_IZR in N1, N2, D1, D2 by lia.
  set (a := Z.log2 n) in *. set (b := Z.log2 d) in *.
  assert (LO : bpow radix2 (a - b - 1) <= IZR n / IZR d).
  { apply Rmult_le_reg_r with (IZR d); auto. replace (IZR n / IZR d * IZR d) with (IZR n) by (field; lra).
    apply Rle_trans with (bpow radix2 (a - b - 1) * bpow radix2 (Z.succ b)).
    - apply Rmult_le_compat_l; [apply bpow_ge_0|lra].
    - rewrite <- bpow_plus. replace (a - b - 1 + Z.succ b)%Z with a by lia. auto. }
  assert (HI : IZR n / IZR d < bpow radix2 (a - b + 1)).
  { apply Rmult_lt_reg_r with (IZR d); auto. replace (IZR n / IZR d * IZR d) with (IZR n) by (field; lra).
    apply Rlt_le_trans with (bpow radix2 (a - b + 1) * bpow radix2 b).
    - rewrite <- bpow_plus. replace (a - b + 1 + b)%Z with (Z.succ a) by lia. auto.
    - apply Rmult_le_compat_l; [apply bpow_ge_0|auto]. }
  unfold binade. fold a b. set (k := (a - b)%Z) in *.
  assert (T : (if (0 <=? k)%Z then (d * 2 ^ k <=? n)%Z else (d <=? n * 2 ^ (- k))%Z) = true <->
              bpow radix2 k <= IZR n / IZR d).
  { assert (X : bpow radix2 k <= IZR n / IZR d <-> bpow radix2 k * IZR d <= IZR n).
    { split; intros Y.
      - apply Rmult_le_compat_r with (r := IZR d) in Y; [|lra].
        replace (IZR n / IZR d * IZR d) with (IZR n) in Y by (field; lra). auto.
      - apply Rmult_le_reg_r with (IZR d); auto. replace (IZR n / IZR d * IZR d) with (IZR n) by (field; lra). auto. }
    rewrite X. destruct (0 <=? k)%Z eqn:Ek.
    - apply Z.leb_le in Ek. rewrite Z.leb_le. split; intros Y.
      + apply IZR_le in Y. rewrite mult_IZR, pow2_IZR in Y by auto. lra.
      + apply le_IZR. rewrite mult_IZR, pow2_IZR by auto. lra.
    - apply Z.leb_gt in Ek. rewrite Z.leb_le.
      assert (B1 : bpow radix2 k * bpow radix2 (- k) = 1) by (rewrite <- bpow_plus; replace (k + - k)%Z with 0%Z by lia; auto).
      assert (B2 : 0 < bpow radix2 k) by apply bpow_gt_0. assert (B3 : 0 < bpow radix2 (- k)) by apply bpow_gt_0.
      split; intros Y.
      + apply IZR_le in Y. rewrite mult_IZR, pow2_IZR in Y by lia.
        apply Rmult_le_compat_l with (r := bpow radix2 k) in Y; [|lra].
        replace (bpow radix2 k * (IZR n * bpow radix2 (- k))) with (IZR n * (bpow radix2 k * bpow radix2 (- k))) in Y by ring.
        rewrite B1 in Y. lra.
      + apply le_IZR. rewrite mult_IZR, pow2_IZR by lia.
        apply Rmult_le_compat_r with (r := bpow radix2 (- k)) in Y; [|lra].
        replace (bpow radix2 k * IZR d * bpow radix2 (- k)) with (IZR d * (bpow radix2 k * bpow radix2 (- k))) in Y by ring.
        rewrite B1 in Y. lra. }
  destruct (if (0 <=? k)%Z then (d * 2 ^ k <=? n)%Z else (d <=? n * 2 ^ (- k))%Z) eqn:E.
  - replace (k + 1 - 1)%Z with k by lia. split; auto. apply T; auto.
  - split; auto. destruct (Rle_or_lt (bpow radix2 k) (IZR n / IZR d)) as [Y|Y]; auto.
    apply T in Y. discriminate.
Qed.

Theorem rne_round : forall prec emin x,
  QR (rne prec emin x) = round radix2 (FLT_exp emin prec) ZnearestE (QR x).
Proof.
  intros prec emin x. unfold rne. set (n := Qnum (this x)). set (d := Zpos (Qden (this x))).
  assert (Hd : (0 < d)%Z) by (subst d; lia). assert (Pd : 0 < IZR d) by (apply IZR_lt; auto).
  assert (QX : QR x = IZR n / IZR d) by reflexivity.
  destruct (n =? 0)%Z eqn:En.
  - apply Z.eqb_eq in En. rewrite QX, En, QR_0.
    replace (0 / IZR d) with 0 by (field; lra). rewrite round_0; auto. apply valid_rnd_N.
  - apply Z.eqb_neq in En.
    assert (M : mag radix2 (QR x) = binade (Z.abs n) d :> Z).
    { apply mag_unique. rewrite QX. unfold Rdiv. rewrite Rabs_mult, (Rabs_pos_eq (/ IZR d)) by (left; apply Rinv_0_lt_compat; auto).
      rewrite <- abs_IZR. apply binade_spec; auto. lia. }
    unfold round, scaled_mantissa, cexp. rewrite M. unfold FLT_exp.
    set (e := Z.max (binade (Z.abs n) d - prec) emin). unfold F2R. cbn [Fnum Fexp].
    destruct (0 <=? e)%Z eqn:Ee.
    + apply Z.leb_le in Ee. assert (P2 : 0 < IZR (2 ^ e)) by (rewrite pow2_IZR by auto; apply bpow_gt_0).
      rewrite QR_mul, !QR_qz, (pow2_IZR e) by auto. f_equal. f_equal.
      rewrite half_even_spec. 2: { apply lt_IZR in P2. apply Z.mul_pos_pos; auto. }
      f_equal. rewrite QX, mult_IZR, bpow_opp, pow2_IZR by auto. rewrite pow2_IZR in P2 by auto. field. lra.
    + apply Z.leb_gt in Ee. assert (P2 : 0 < IZR (2 ^ (- e))) by (rewrite pow2_IZR by lia; apply bpow_gt_0).
      rewrite QR_div, !QR_qz.
      2: { intro X. apply (f_equal QR) in X. rewrite QR_qz, QR_0 in X. lra. }
      rewrite half_even_spec by auto. rewrite mult_IZR, pow2_IZR in * by lia. rewrite QX.
      unfold Rdiv at 1. f_equal.
      * f_equal. f_equal. field. lra.
      * rewrite bpow_opp. field. apply Rgt_not_eq, bpow_gt_0.
Qed.

(** * The properties used *)
Lemma rne_rounding : forall prec emin, (24 <= prec)%Z -> (emin <= -149)%Z -> rounding (rne prec emin).
Proof.
  intros prec emin HP HE.
  assert (PP : Prec_gt_0 prec) by (unfold Prec_gt_0; lia).
  pose proof (FLT_exp_valid emin prec) as VE.
  pose proof (valid_rnd_N (fun z => negb (Z.even z))) as VR.
  split.
  - reflexivity.
  - intros x y H. apply QR_le. rewrite !rne_round. apply round_le; auto. apply QR_le; auto.
  - intros x. apply QR_le. rewrite QR_abs, QR_sub, QR_add, QR_mul, QR_abs, rne_round.
    destruct (error_N_FLT radix2 emin prec PP (fun z => negb (Z.even z)) (QR x)) as (eps & eta & E1 & E2 & _ & ->).
    replace (QR x * (1 + eps) + eta - QR x) with (eps * QR x + eta) by ring.
    eapply Rle_trans; [apply Rabs_triang|]. apply Rplus_le_compat.
    + rewrite Rabs_mult. apply Rmult_le_compat_r; [apply Rabs_pos|].
      eapply Rle_trans; [apply E1|].
      unfold Single_proofs.ulp. rewrite QR_q.
      apply Rle_trans with (/ 2 * bpow radix2 (-23)).
      * apply Rmult_le_compat_l; [lra|]. apply bpow_le. lia.
      * unfold Q2R. simpl. lra.
    + eapply Rle_trans; [apply E2|]. unfold tiny. rewrite QR_q.
      apply Rle_trans with (/ 2 * bpow radix2 (-60)).
      * apply Rmult_le_compat_l; [lra|]. apply bpow_le. lia.
      * unfold Q2R. simpl. lra.
  - intros x. apply QR_inj. rewrite !rne_round. apply round_generic; auto. apply generic_format_round; auto.
  - intros x. apply QR_inj. rewrite rne_round. apply round_generic; auto.
    rewrite QR_mul, QR_q, rne_round. replace (Q2R 2) with 2 by (unfold Q2R; simpl; field).
    pose proof (generic_format_round radix2 (FLT_exp emin prec) ZnearestE (QR x)) as F.
    apply FLT_format_generic in F; auto. destruct F as [f F1 F2 F3].
    apply generic_format_FLT. exists (Float radix2 (Fnum f) (Fexp f + 1)).
    + rewrite F1. unfold F2R. cbn [Fnum Fexp]. rewrite bpow_plus. change (bpow radix2 1) with 2. ring.
    + auto.
    + cbn [Fexp]. lia.
Qed.
Lemma single_rounding : rounding single. Proof. apply rne_rounding; lia. Qed.
Lemma double_rounding : rounding Single_model.double. Proof. apply rne_rounding; lia. Qed.
