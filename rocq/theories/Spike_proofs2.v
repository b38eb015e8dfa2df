(** A lone spike on a level series: the magnitudes the transform gives. *)
From Verif Require Import Base Num Fourier_model Fourier_spec Fourier_proofs2 Fourier_props Single_proofs3 Helpers_model SR_model SR_proofs Spike_spec Spike_proofs.
From Coq Require Import List Arith ZArith QArith Qcanon Lia Bool Reals Lra.
Import ListNotations.
Open Scope R_scope.

Lemma spiked_real : forall n k b c, map QR (spiked n k b c) = level_with_spike n k (QR b) (QR c).
Proof.
  intros. unfold spiked, level_with_spike. rewrite map_map. apply map_ext. intros t.
  destruct (Nat.eqb t k); auto. apply QR_add.
Qed.
Lemma QR_lt : forall x y, (x < y)%Qc <-> QR x < QR y.
Proof.
  intros x y. split; intros H.
  - destruct (Rlt_le_dec (QR x) (QR y)) as [L|L]; auto. apply QR_le in L. exfalso. apply (Qclt_not_le _ _ H L).
  - apply Qcnot_le_lt. intros L. apply QR_le in L. lra.
Qed.
Lemma Rabs_def2_le : forall x y, Rabs x <= y -> - y <= x <= y.
Proof. intros x y H. unfold Rabs in H. destruct (Rcase_abs x); lra. Qed.
Lemma QR_qn : forall n, QR (qn n) = INR n.
Proof. intros. unfold qn. rewrite QR_qz, INR_IZR_INZ. auto. Qed.

(** The bound on the magnitudes of the other points, in units of 1 / N. *)
Lemma spike_mag : forall transform n k b c, stands_out n b c -> (k < n)%nat -> computed_well transform (spiked (n + 5) k b c) ->
  exists (m M : Qc), nth_error (transform (spiked (n + 5) k b c)) k = Some m /\ (Q2Qc (1 # 2) <= m)%Qc /\ (0 <= M)%Qc /\
    (forall t x, t <> k -> nth_error (transform (spiked (n + 5) k b c)) t = Some x -> (x <= M)%Qc) /\
    (Q2Qc 891 * M <= Q2Qc 191 * m)%Qc.
Proof.
  intros transform n k b c (C0 & SO) K (L & A). set (l := spiked (n + 5) k b c) in *.
  assert (LL : length l = (n + 5)%nat) by apply spiked_length. rewrite LL in *.
  assert (P : (0 < n + 5)%nat) by lia. assert (PR : 0 < INR (n + 5)) by (apply lt_0_INR; auto).
  unfold l in A. rewrite spiked_real in A. fold l in A.
  assert (CR : QR c <> 0). { intros X. apply C0. apply QR_inj. rewrite X, QR_0. auto. }
  assert (G : exists p : nat, (length (spectral_residual_transform (level_with_spike (n + 5) k (QR b) (QR c))) = (n + 5)%nat) /\
     (forall t r, nth_error (spectral_residual_transform (level_with_spike (n + 5) k (QR b) (QR c))) t = Some r ->
       Rabs (r - if Nat.eqb t k then 1 else 0) <= INR p / INR (n + 5)) /\
     (p = 2%nat /\ (17 <= n + 5)%nat \/ p = 4%nat /\ (26 <= n + 5)%nat)).
  { destruct SO as [[S N]|[S N]].
    - exists 2%nat. assert (BC : 0 <= QR b * QR c) by (rewrite <- QR_mul, <- QR_0; apply QR_le; auto).
      destruct (C112_spike (n + 5) k (QR b) (QR c)) as [X Y]; auto; try lia.
      split; auto. split; [|left; lia]. intros t r T. replace (INR 2) with 2 by (simpl; ring). apply (proj2 (Y t r T)). auto.
    - exists 4%nat.
      assert (Q : Rabs (QR c) <= Rabs (INR (n + 5) * QR b + QR c)).
      { apply QR_le in S. rewrite !QR_mul, !QR_abs, QR_qn, QR_q in S. replace (Q2R 2) with 2 in S by (unfold Q2R; simpl; field).
        assert (I : INR n <= INR (n + 5)) by (apply le_INR; lia). pose proof (Rabs_pos (QR b)) as B0.
        pose proof (Rabs_triang (INR (n + 5) * QR b + QR c) (- QR c)) as T.
        replace (INR (n + 5) * QR b + QR c + - QR c) with (INR (n + 5) * QR b) in T by ring.
        rewrite Rabs_Ropp, Rabs_mult, (Rabs_pos_eq (INR (n + 5))) in T by lra.
        pose proof (Rmult_le_compat_r _ _ _ B0 I). lra. }
      destruct (C112_spike (n + 5) k (QR b) (QR c)) as [X Y]; auto; try lia.
      split; auto. split; [|right; lia]. intros t r T. replace (INR 4) with 4 by (simpl; ring). apply (proj1 (Y t r T)). }
  destruct G as (p & LS & B & PN).
  assert (V : forall t x, nth_error (transform l) t = Some x -> Rabs (QR x - if Nat.eqb t k then 1 else 0) <= (INR p + / 2) / INR (n + 5)).
  { intros t x T. pose proof (nth_error_lt _ _ _ _ T) as Lt. rewrite L in Lt. rewrite <- LS in Lt. destruct (nth_error_ex _ _ _ Lt) as [r Hr].
    pose proof (A t x r T Hr) as D. pose proof (B t r Hr) as E.
    pose proof (Rabs_triang (QR x - r) (r - if Nat.eqb t k then 1 else 0)) as TT.
    replace (QR x - r + (r - if Nat.eqb t k then 1 else 0)) with (QR x - if Nat.eqb t k then 1 else 0) in TT by ring.
    replace ((INR p + / 2) / INR (n + 5)) with (1 / (2 * INR (n + 5)) + INR p / INR (n + 5)) by (field; lra). lra. }
  destruct (nth_error_ex _ (transform l) k) as [m Hm]; [lia|].
  exists m, (Q2Qc (Z.of_nat (2 * p + 1) # 2) / qn (n + 5))%Qc. split; auto.
  assert (QM : QR (Q2Qc (Z.of_nat (2 * p + 1) # 2) / qn (n + 5))%Qc = (INR p + / 2) / INR (n + 5)).
  { rewrite QR_div by (apply qn_neq0; auto). rewrite QR_qn, QR_q. f_equal. unfold Q2R. cbn [Qnum Qden].
    rewrite <- INR_IZR_INZ, plus_INR, mult_INR. simpl. field. }
  set (M := (Q2Qc (Z.of_nat (2 * p + 1) # 2) / qn (n + 5))%Qc) in *. clearbody M.
  assert (SM : 0 <= QR M /\ 1082 * QR M <= 191).
  { rewrite QM. assert (IP : 0 < / INR (n + 5)) by (apply Rinv_0_lt_compat; auto). split.
    - apply Rmult_le_pos; [|lra]. pose proof (pos_INR p). lra.
    - apply (Rmult_le_reg_r (INR (n + 5))); auto. unfold Rdiv. rewrite Rmult_assoc, Rmult_assoc, Rinv_l, Rmult_1_r by lra.
      destruct PN as [[-> Q]|[-> Q]]; apply le_INR in Q; simpl INR in *; lra. }
  pose proof (V k m Hm) as VM. rewrite Nat.eqb_refl, <- QM in VM. apply Rabs_def2_le in VM.
  split; [|split; [|split]].
  - apply QR_le. rewrite QR_q. unfold Q2R. cbn [Qnum Qden]. lra.
  - apply QR_le. rewrite QR_0. lra.
  - intros t x NE T. pose proof (V t x T) as VX. apply Nat.eqb_neq in NE. rewrite NE, <- QM in VX. apply Rabs_def2_le in VX. apply QR_le. lra.
  - apply QR_le. rewrite !QR_mul, !QR_q. unfold Q2R. cbn [Qnum Qden]. lra.
Qed.
