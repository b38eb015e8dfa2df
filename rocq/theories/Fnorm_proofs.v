(** Rounding of differences and quotients of doubles (C111). *)
From Verif Require Import Base Num Single_model Single_proofs Single_proofs3.
From Coq Require Import ZArith Lia Bool Reals Qreals.
From Flocq Require Import Core Relative Plus_error.
From Coq Require Import Lra.
Open Scope R_scope.

Definition w53 : Qc := Q2Qc (1 # 9007199254740992).
Definition t100 : Qc := Q2Qc (1 # 1267650600228229401496703205376).

Lemma QR_w53 : QR w53 = / 9007199254740992.
Proof. unfold w53. rewrite QR_q. unfold Q2R. simpl. lra. Qed.

#[local] Instance prec53 : Prec_gt_0 53. Proof. reflexivity. Qed.

Lemma double_format : forall x, Single_model.double x = x -> generic_format radix2 (FLT_exp (-1074) 53) (QR x).
Proof.
  intros x H. rewrite <- H. unfold Single_model.double. rewrite rne_round.
  apply generic_format_round; [apply FLT_exp_valid; auto with typeclass_instances|apply valid_rnd_N].
Qed.

Lemma dsub_rel : forall x y, Single_model.double x = x -> Single_model.double y = y -> (y <= x)%Qc ->
  ((1 - w53) * (x - y) <= Single_model.double (x - y) /\ Single_model.double (x - y) <= (1 + w53) * (x - y))%Qc.
Proof.
  intros x y Fx Fy L. apply double_format in Fx. apply double_format in Fy. apply QR_le in L.
  rewrite !QR_le, !QR_mul, !QR_sub, QR_add, QR_w53. unfold Single_model.double. rewrite rne_round, QR_sub.
  replace (QR 1%Qc) with 1 by (unfold QR, Q2R; simpl; lra).
  destruct (FLT_plus_error_N_ex radix2 (-1074) 53 (fun z => negb (Z.even z)) (QR x) (- QR y) Fx (generic_format_opp _ _ _ Fy)) as (eps & E & EQ).
  unfold Rminus at 2 4. rewrite EQ.
  assert (B : Rabs eps <= / 9007199254740992).
  { eapply Rle_trans; [exact E|]. eapply Rle_trans; [apply u_rod1pu_ro_le_u_ro|]. unfold u_ro. simpl. lra. }
  apply Rabs_le_inv in B. destruct B as [B1 B2].
  assert (P : 0 <= QR x + - QR y) by lra. unfold Rminus.
  set (d := QR x + - QR y) in *. clearbody d. split; nra.
Qed.

Lemma double_err : forall x, (0 <= x)%Qc -> (x <= Q2Qc 2)%Qc ->
  (Single_model.double x <= x + (w53 * x + t100) /\ x <= Single_model.double x + (w53 * x + t100))%Qc.
Proof.
  intros x L H. apply QR_le in L. rewrite QR_0 in L.
  rewrite !QR_le, !QR_add, !QR_mul, QR_w53. unfold Single_model.double. rewrite rne_round.
  destruct (error_N_FLT radix2 (-1074) 53 eq_refl (fun z => negb (Z.even z)) (QR x)) as (eps & eta & E1 & E2 & _ & ->).
  assert (B1 : Rabs eps <= / 9007199254740992) by (eapply Rle_trans; [exact E1|]; simpl; lra).
  assert (B2 : Rabs eta <= QR t100).
  { eapply Rle_trans; [exact E2|]. unfold t100. rewrite QR_q.
    apply Rle_trans with (/ 2 * bpow radix2 (-120)).
    - apply Rmult_le_compat_l; [lra|]. apply bpow_le. lia.
    - unfold Q2R. simpl. lra. }
  apply Rabs_le_inv in B1. apply Rabs_le_inv in B2. destruct B1, B2. set (z := QR x) in *. clearbody z.
  split; nra.
Qed.
