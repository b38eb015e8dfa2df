(** Bounds of the network: its memory stays within [-1, 1], so its answers stay
    away from 0 and 1. *)
From Coq Require Import List Arith Lia Reals Lra Bool.
From Verif Require Import Base Mv_real Mv_real_props Net_model Net_spec Net_proofs Net_proofs2.
Import ListNotations.
Open Scope R_scope.

Lemma logistic_range : forall v, 0 < logistic v < 1.
Proof.
  intros v. unfold logistic. pose proof (exp_pos (- v)). split; [apply Rinv_0_lt_compat; lra|].
  rewrite <- Rinv_1. apply Rinv_lt_contravar; lra.
Qed.
Lemma logistic_le : forall u v, u <= v -> logistic u <= logistic v.
Proof.
  intros u v H. unfold logistic. pose proof (exp_pos (- v)). apply Rinv_le_contravar; [lra|].
  destruct (Rle_lt_or_eq_dec _ _ H) as [L| ->]; [|lra]. assert (exp (- v) < exp (- u)) by (apply exp_increasing; lra). lra.
Qed.
Lemma logistic_neg : forall v, logistic (- v) = 1 - logistic v.
Proof.
  intros v. unfold logistic. rewrite Ropp_involutive. pose proof (exp_pos v). rewrite exp_Ropp. field. split; lra.
Qed.
Lemma tanh_bound : forall v, Rabs (tanh v) <= 1.
Proof.
  intros v. unfold tanh, sinh, cosh. pose proof (exp_pos v). pose proof (exp_pos (- v)).
  replace ((exp v - exp (- v)) / 2 / ((exp v + exp (- v)) / 2)) with ((exp v - exp (- v)) / (exp v + exp (- v))) by (field; lra).
  apply Rabs_le. split; apply Rmult_le_reg_r with (exp v + exp (- v)); try lra; unfold Rdiv; rewrite Rmult_assoc, Rinv_l; lra.
Qed.
Lemma state_bound : forall s w len win i j, Rabs (state s w len win i j) <= 1.
Proof.
  intros s w len win. induction i as [|i IH]; intros j; cbn [state]; [rewrite Rabs_R0; lra|]. cbv zeta.
  set (k := logistic _). set (n := tanh _). assert (K : 0 < k < 1) by apply logistic_range. assert (N : Rabs n <= 1) by apply tanh_bound.
  specialize (IH j). apply Rabs_le.
  assert (A : -1 <= n <= 1) by (revert N; unfold Rabs; destruct (Rcase_abs n); lra).
  assert (B : -1 <= state s w len win i j <= 1) by (revert IH; unfold Rabs; destruct (Rcase_abs _); lra).
  set (o := state s w len win i j) in *. split; nra.
Qed.

(** A family of vectors bounded uniformly. *)
Definition bounded {X} (m : nat) (F : X -> nat -> R) : Prop := exists M, forall x j, (j < m)%nat -> Rabs (F x j) <= M.
Lemma bounded_each : forall X m (F : X -> nat -> R), (forall j, (j < m)%nat -> exists M, forall x, Rabs (F x j) <= M) -> bounded m F.
Proof.
  intros X m F. induction m as [|m IH]; intros H.
  - exists 0. intros; lia.
  - destruct IH as [M HM]; [intros; apply H; lia|]. destruct (H m ltac:(lia)) as [M' HM'].
    exists (Rmax M M'). intros x j Hj. destruct (Nat.eq_dec j m) as [->|].
    + eapply Rle_trans; [apply HM'|apply Rmax_r].
    + eapply Rle_trans; [apply HM; lia|apply Rmax_l].
Qed.
Lemma total_abs : forall n f, Rabs (total n f) <= total n (fun k => Rabs (f k)).
Proof.
  intros n f. rewrite !total_sum. induction n as [|n IH]; cbn [sum_to]; [rewrite Rabs_R0; lra|].
  eapply Rle_trans; [apply Rabs_triang|]. lra.
Qed.
Lemma dense_bounded : forall X n m l (F : X -> nat -> R), bounded n F -> bounded m (fun x o => dense n l (F x) o).
Proof.
  intros X n m l F [M HM]. apply bounded_each. intros o _. exists (Rabs (l_bias l o) + total n (fun k => Rabs (l_weight l o k) * M)).
  intros x. unfold dense. eapply Rle_trans; [apply Rabs_triang|]. apply Rplus_le_compat_l.
  eapply Rle_trans; [apply total_abs|]. rewrite !total_sum. apply sum_to_le. intros k Hk. rewrite Rabs_mult.
  apply Rmult_le_compat_l; [apply Rabs_pos|auto].
Qed.
Lemma standard_bounded : forall X m w (F : X -> nat -> R), bounded m F -> bounded m (fun x j => standard w (F x) j).
Proof.
  intros X m w F [M HM]. apply bounded_each. intros j Hj.
  set (c := / sqrt (n_var w j + 1 / 100000)).
  exists (Rabs (n_shift w j) + Rabs (n_gain w j) * ((M + Rabs (n_mean w j)) * Rabs c)). intros x. unfold standard.
  eapply Rle_trans; [apply Rabs_triang|]. apply Rplus_le_compat_l. rewrite Rabs_mult. apply Rmult_le_compat_l; [apply Rabs_pos|].
  unfold Rdiv. rewrite Rabs_mult. fold c. apply Rmult_le_compat_r; [apply Rabs_pos|].
  unfold Rminus. eapply Rle_trans; [apply Rabs_triang|]. rewrite Rabs_Ropp. specialize (HM x j Hj). lra.
Qed.
Lemma positive_bounded : forall X m (F : X -> nat -> R), bounded m F -> bounded m (fun x j => positive (F x) j).
Proof.
  intros X m F [M HM]. exists M. intros x j Hj. specialize (HM x j Hj). unfold positive.
  eapply Rle_trans; [|exact HM]. unfold Rmax, Rabs. destruct (Rle_dec 0 (F x j)); repeat match goal with |- context [Rcase_abs ?e] => destruct (Rcase_abs e) end; lra.
Qed.
Lemma summary_bounded : forall s w m, bounded m (fun (x : nat * (nat -> nat -> R)) j => summary s w (fst x) (snd x) j).
Proof. intros s w m. exists 1. intros x j _. apply state_bound. Qed.
Lemma logistic_bounded : forall X m (F : X -> nat -> R), bounded m F ->
  exists delta, 0 < delta /\ forall x j, (j < m)%nat -> delta <= logistic (F x j) <= 1 - delta.
Proof.
  intros X m F [M HM]. exists (logistic (- M)). split; [apply logistic_range|]. intros x j Hj. specialize (HM x j Hj).
  assert (B : - M <= F x j <= M) by (revert HM; unfold Rabs; destruct (Rcase_abs _); lra).
  rewrite logistic_neg at 2. split; [apply logistic_le; lra|]. replace (1 - (1 - logistic M)) with (logistic M) by lra. apply logistic_le. lra.
Qed.
Lemma forecast_bounded : forall s w, exists delta, 0 < delta /\
  forall len win d, (d < data_dim s)%nat -> delta <= forecast s w len win d <= 1 - delta.
Proof.
  intros s w. destruct (logistic_bounded _ (data_dim s) (fun (x : nat * (nat -> nat -> R)) d =>
    dense (hidden s) (fc_3 w) (positive (dense (hidden s) (fc_2 w) (positive (dense (hidden s) (fc_1 w)
        (standard (fc_norm w) (positive (summary s w (fst x) (snd x)))))))) d)) as (delta & P & H).
  - apply dense_bounded, positive_bounded, dense_bounded, positive_bounded, dense_bounded, standard_bounded, positive_bounded.
    apply summary_bounded.
  - exists delta. split; auto. intros len win d Hd. apply (H (len, win) d Hd).
Qed.
Lemma code_bounded : forall s w, bounded (enc_dim s) (fun (x : nat * (nat -> nat -> R)) j => code s w (fst x) (snd x) j).
Proof.
  intros s w. unfold code. apply positive_bounded, standard_bounded, dense_bounded, positive_bounded, standard_bounded, dense_bounded.
  apply summary_bounded.
Qed.
Lemma latent_bounded : forall s w, bounded (z_dim s) (fun (x : nat * (nat -> nat -> R)) j => latent s w (fst x) (snd x) j).
Proof.
  intros s w. destruct (dense_bounded _ _ (z_dim s) (mu_layer w) _ (code_bounded s w)) as [M1 H1].
  destruct (dense_bounded _ _ (z_dim s) (logv_layer w) _ (code_bounded s w)) as [M2 H2].
  apply bounded_each. intros j Hj. exists (M1 + Rabs (eps_buffer w j) * exp (M2 / 2)). intros x. unfold latent.
  eapply Rle_trans; [apply Rabs_triang|]. apply Rplus_le_compat; [apply H1; auto|]. rewrite Rabs_mult.
  apply Rmult_le_compat_l; [apply Rabs_pos|]. rewrite Rabs_right by (apply Rle_ge, Rlt_le, exp_pos).
  specialize (H2 x j Hj). unfold code_logvar.
  assert (B : dense (enc_dim s) (logv_layer w) (code s w (fst x) (snd x)) j <= M2) by (eapply Rle_trans; [apply Rle_abs|exact H2]).
  destruct (Rle_lt_or_eq_dec _ _ B) as [L| ->]; [|lra]. apply Rlt_le, exp_increasing. lra.
Qed.
Lemma reconstruction_bounded : forall s w, exists delta, 0 < delta /\
  forall len win d, (d < data_dim s)%nat -> delta <= reconstruction s w len win d <= 1 - delta.
Proof.
  intros s w. destruct (logistic_bounded _ (data_dim s) (fun (x : nat * (nat -> nat -> R)) d =>
    dense (dec_dim s) (recon_layer w) (positive (standard (dec_norm_2 w) (dense (dec_dim s) (dec_2 w)
      (positive (standard (dec_norm_1 w) (dense (z_dim s) (dec_1 w) (latent s w (fst x) (snd x)))))))) d)) as (delta & P & H).
  - apply dense_bounded, positive_bounded, standard_bounded, dense_bounded, positive_bounded, standard_bounded, dense_bounded.
    apply latent_bounded.
  - exists delta. split; auto. intros len win d Hd. apply (H (len, win) d Hd).
Qed.
