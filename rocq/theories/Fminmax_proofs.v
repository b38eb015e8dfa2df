(** Rounding of the scaled values (C120). *)
From Verif Require Import Base Num Single_model Single_proofs Single_proofs3 Mv_model Fnorm_proofs Fminmax_model Fminmax_spec.
From Coq Require Import ZArith Lia Bool Reals Qreals.
From Flocq Require Import Core Relative Plus_error.
From Coq Require Import Lra.
Open Scope R_scope.

#[local] Instance prec53 : Prec_gt_0 53. Proof. reflexivity. Qed.
Notation RD := (round radix2 (FLT_exp (-1074) 53) (Znearest (fun z => negb (Z.even z)))).
Definition u53 : R := / 9007199254740992.
Lemma QR_double : forall x, QR (Single_model.double x) = RD (QR x).
Proof. intros x. unfold Single_model.double. apply rne_round. Qed.
Lemma double_is : forall x, Single_model.double (Single_model.double x) = Single_model.double x.
Proof. intros x. apply (r_idem _ double_rounding). Qed.

(** Sums of doubles are rounded with a relative error. *)
Lemma dadd_rel : forall x y, Single_model.double x = x -> Single_model.double y = y ->
  exists e, Rabs e <= u53 /\ QR (Single_model.double (x + y)) = (QR x + QR y) * (1 + e).
Proof.
  intros x y Fx Fy. apply double_format in Fx. apply double_format in Fy. rewrite QR_double, QR_add.
  destruct (FLT_plus_error_N_ex radix2 (-1074) 53 (fun z => negb (Z.even z)) (QR x) (QR y) Fx Fy) as (eps & E & EQ).
  exists eps. split; [|exact EQ]. eapply Rle_trans; [exact E|]. eapply Rle_trans; [apply u_rod1pu_ro_le_u_ro|]. unfold u_ro, u53. simpl. lra.
Qed.
Lemma double_opp : forall x, Single_model.double (- x) = (- Single_model.double x)%Qc.
Proof. intros x. apply QR_inj. rewrite QR_opp, !QR_double, QR_opp. apply round_NE_opp. Qed.
Lemma dsub_rel2 : forall x y, Single_model.double x = x -> Single_model.double y = y ->
  exists e, Rabs e <= u53 /\ QR (Single_model.double (x - y)) = (QR x - QR y) * (1 + e).
Proof.
  intros x y Fx Fy. destruct (dadd_rel x (- y)%Qc Fx) as (e & E & Q). { rewrite double_opp, Fy. auto. }
  exists e. split; auto. unfold Qcminus. rewrite Q, QR_opp. auto.
Qed.
Lemma dany_rel : forall x, exists e h, Rabs e <= u53 /\ Rabs h <= QR t100 /\ QR (Single_model.double x) = QR x * (1 + e) + h.
Proof.
  intros x. rewrite QR_double. destruct (error_N_FLT radix2 (-1074) 53 eq_refl (fun z => negb (Z.even z)) (QR x)) as (eps & eta & E1 & E2 & _ & ->).
  exists eps, eta. split; [eapply Rle_trans; [exact E1|]; unfold u53; simpl; lra|]. split; auto.
  eapply Rle_trans; [exact E2|]. unfold t100. rewrite QR_q. apply Rle_trans with (/ 2 * bpow radix2 (-120)).
  - apply Rmult_le_compat_l; [lra|]. apply bpow_le. lia.
  - unfold Q2R. simpl. lra.
Qed.
Lemma QR_eps8 : QR eps8 = / 100000000.
Proof. unfold eps8. rewrite QR_q. unfold Q2R. simpl. lra. Qed.
Lemma QR_t100 : 0 <= QR t100.
Proof. unfold t100. rewrite QR_q. unfold Q2R. simpl. lra. Qed.
Lemma deps8_rel : exists e, Rabs e <= u53 /\ QR deps8 = / 100000000 * (1 + e).
Proof.
  exists ((QR deps8 - / 100000000) * 100000000). split; [|field].
  assert (A : (deps8 <= eps8 + eps8 * w53)%Qc) by (apply Qcleb_le; vm_compute; reflexivity).
  assert (B : (eps8 <= deps8 + eps8 * w53)%Qc) by (apply Qcleb_le; vm_compute; reflexivity).
  rewrite QR_le, QR_add, QR_mul, QR_w53, QR_eps8 in A. rewrite QR_le, QR_add, QR_mul, QR_w53, QR_eps8 in B.
  unfold u53. apply Rabs_le. lra.
Qed.

Lemma ratio_close : forall d b E e1 e2 e3 e4 e5, 0 <= b -> 0 < E -> Rabs e1 <= u53 -> Rabs e2 <= u53 -> Rabs e3 <= u53 -> Rabs e4 <= u53 -> Rabs e5 <= u53 ->
  0 < (b * (1 + e2) + E * (1 + e4)) * (1 + e3) /\
  Rabs (d * (1 + e1) / ((b * (1 + e2) + E * (1 + e4)) * (1 + e3)) * (1 + e5) - d / (b + E)) <= 6 * u53 * Rabs (d / (b + E)).
Proof.
  intros d b E e1 e2 e3 e4 e5 Hb HE H1 H2 H3 H4 H5.
  assert (U : 0 < u53 <= / 1000000) by (unfold u53; lra).
  apply Rabs_le_inv in H1, H2, H3, H4, H5. set (u := u53) in *. clearbody u.
  set (s := b * (1 + e2) + E * (1 + e4)) in *.
  assert (S1 : (1 - u) * (b + E) <= s) by (unfold s; nra). assert (S2 : s <= (1 + u) * (b + E)) by (unfold s; nra). clearbody s.
  assert (P : 0 < b + E) by lra. assert (Sp : 0 < s) by nra. split; [nra|].
  set (sg := s / (b + E)). assert (SG : s = sg * (b + E)) by (unfold sg; field; lra). clearbody sg. subst s.
  assert (G1 : 1 - u <= sg) by nra. assert (G2 : sg <= 1 + u) by nra.
  set (t := d / (b + E)). assert (TD : d = t * (b + E)) by (unfold t; field; lra). clearbody t. subst d.
  set (m := sg * (1 + e3)). assert (M1 : 1 - 2 * u <= m) by (unfold m; nra). assert (M2 : m <= 1 + 3 * u) by (unfold m; nra).
  replace (t * (b + E) * (1 + e1) / (sg * (b + E) * (1 + e3)) * (1 + e5) - t) with (t * ((1 + e1) * (1 + e5) / m - 1)) by (unfold m; field; unfold m in *; split; [nra|split; nra]).
  clearbody m. rewrite Rabs_mult. rewrite Rmult_comm. apply Rmult_le_compat_r; [apply Rabs_pos|].
  replace ((1 + e1) * (1 + e5) / m - 1) with (((1 + e1) * (1 + e5) - m) / m) by (field; lra).
  apply Rabs_le. assert (0 < m) by lra. split.
  - apply Rmult_le_reg_r with m; auto. unfold Rdiv. rewrite Rmult_assoc, Rinv_l by lra. nra.
  - apply Rmult_le_reg_r with m; auto. unfold Rdiv. rewrite Rmult_assoc, Rinv_l by lra. nra.
Qed.

(** The quotient before it is cut. *)
Definition pre (x mn mx : Qc) : Qc := Single_model.double (Single_model.double (x - mn) / Single_model.double (Single_model.double (mx - mn) + deps8))%Qc.
Lemma divisor_pos : forall mn mx, (mn <= mx)%Qc -> (deps8 <= Single_model.double (Single_model.double (mx - mn) + deps8))%Qc.
Proof.
  intros mn mx H. unfold deps8 at 1. rewrite <- double_is. fold deps8. apply (r_mono _ double_rounding).
  assert (P : (Single_model.double 0 <= Single_model.double (mx - mn))%Qc) by (apply (r_mono _ double_rounding); qlra).
  rewrite (r_zero _ double_rounding) in P. set (z := Single_model.double (mx - mn)%Qc) in *. clearbody z. set (w := deps8) in *. clearbody w. qlra.
Qed.
Lemma deps8_pos : (0 < deps8)%Qc.
Proof. reflexivity. Qed.
Lemma QR_neq0 : forall x, 0 < QR x -> x <> 0%Qc.
Proof. intros x H ->. rewrite QR_0 in H. lra. Qed.
Lemma pre_close : forall x mn mx, Single_model.double x = x -> Single_model.double mn = mn -> Single_model.double mx = mx -> (mn <= mx)%Qc ->
  (Qcabs (pre x mn mx - position mn mx x) <= Q2Qc 6 * w53 * Qcabs (position mn mx x) + t100)%Qc.
Proof.
  intros x mn mx DX DN DM L.
  destruct (dsub_rel2 x mn DX DN) as (e1 & B1 & E1). destruct (dsub_rel2 mx mn DM DN) as (e2 & B2 & E2).
  destruct deps8_rel as (e4 & B4 & E4).
  destruct (dadd_rel (Single_model.double (mx - mn)) deps8 (double_is _) (double_is _)) as (e3 & B3 & E3).
  destruct (dany_rel (Single_model.double (x - mn) / Single_model.double (Single_model.double (mx - mn) + deps8))%Qc) as (e5 & h & B5 & BH & E5).
  apply QR_le in L.
  destruct (ratio_close (QR x - QR mn) (QR mx - QR mn) (/ 100000000) e1 e2 e3 e4 e5) as [P C]; auto; try lra.
  rewrite E2, E4 in E3.
  assert (EPS : QR (mx - mn + Q2Qc (1 # 100000000))%Qc = QR mx - QR mn + / 100000000) by (change (Q2Qc (1 # 100000000)) with eps8; rewrite QR_add, QR_sub, QR_eps8; auto).
  assert (PO : QR (position mn mx x) = (QR x - QR mn) / (QR mx - QR mn + / 100000000)).
  { unfold position. rewrite QR_div, EPS, QR_sub; auto. apply QR_neq0. rewrite EPS. lra. }
  assert (PR : QR (pre x mn mx) = (QR x - QR mn) * (1 + e1) / (((QR mx - QR mn) * (1 + e2) + / 100000000 * (1 + e4)) * (1 + e3)) * (1 + e5) + h).
  { unfold pre. rewrite E5, QR_div, E1, E3; auto. apply QR_neq0. rewrite E3. exact P. }
  rewrite QR_le, QR_abs, QR_sub, QR_add, !QR_mul, QR_abs, QR_w53, PO, PR. replace (QR (Q2Qc 6)) with 6 by (rewrite QR_q; unfold Q2R; simpl; lra).
  fold u53. match type of C with Rabs (?a - ?b) <= ?c => replace (a + h - b) with ((a - b) + h) by ring; eapply Rle_trans; [apply Rabs_triang|]; lra end.
Qed.
