(** The network in training (C108). *)
From Coq Require Import String List Arith ZArith Lia Reals Lra Bool FunctionalExtensionality.
From Verif Require Import Base Mv_real Mv_real_props Net_model Net_spec Net_proofs Net_proofs2 Net_proofs3 Net_props Trainnet_spec Trainnet_proofs.
Import ListNotations.
Open Scope R_scope.

Lemma forward_train : forall ch s w b len f x, is3 b len (data_dim s) f x -> proper s -> (1 < b)%nat -> (kernel_size s <= len)%nat ->
  exists o, forward true ch s w x = Ok o /\
    rows_are b (data_dim s) (forecast_t s w ch b len f) (x_pred o) /\
    rows_are b (data_dim s) (reconstruction_t s w ch b len f) (x_recon o) /\
    rows_are b (z_dim s) (code_mean_t s w ch b len f) (latent_mu o) /\
    rows_are b (z_dim s) (code_logvar_t s w ch b len f) (latent_logv o) /\
    is3 b (data_dim s) (data_dim s) (fun p d d' => variable_attention s w len (f p) d d') (attn_feat o).
Proof.
  intros ch s w b len f x Hx Pr Hb Hk. rewrite forward_parts.
  destruct (summarise_train ch s w b len f x Hx Pr ltac:(lia) Hk) as (h & a & -> & A & H).
  rewrite bind_ok. cbn [fst snd].
  destruct (fc_train s w ch b len f h H ltac:(lia)) as (y & -> & Y). rewrite bind_ok.
  destruct (vae_train s w ch b len f h H ltac:(lia)) as (r & mu & lv & -> & V1 & V2 & V3). rewrite bind_ok.
  eexists. split; [reflexivity|]. cbn [x_pred x_recon latent_mu latent_logv attn_feat fst snd]. auto 10.
Qed.

(** C108. In training the network computes, for every batch of two windows or
    more, the documented function of the batch: the one of prediction with kept
    attention weights doubled and the others dropped, activations normalised by
    mean and variance of the batch, and fresh noise. *)
Theorem C108_training_computes : forall ch s w b len x, proper s -> batch_of b len (data_dim s) x -> (1 < b)%nat -> (kernel_size s <= len)%nat ->
  exists o, forward true ch s w x = Ok o /\
    rows_are b (data_dim s) (forecast_t s w ch b len (window x)) (x_pred o) /\
    rows_are b (data_dim s) (reconstruction_t s w ch b len (window x)) (x_recon o) /\
    rows_are b (z_dim s) (code_mean_t s w ch b len (window x)) (latent_mu o) /\
    rows_are b (z_dim s) (code_logvar_t s w ch b len (window x)) (latent_logv o) /\
    dims (attn_feat o) = [b; data_dim s; data_dim s] /\
    forall p d d', (p < b)%nat -> (d < data_dim s)%nat -> (d' < data_dim s)%nat ->
      cell (attn_feat o) [p; d; d'] = variable_attention s w len (window x p) d d'.
Proof.
  intros ch s w b len x Pr Hx Hb Hk.
  destruct (forward_train ch s w b len _ x (batch_is3 _ _ _ _ Hx) Pr Hb Hk) as (o & E & A1 & A2 & A3 & A4 & A5 & A6).
  exists o. split; auto. split; [exact A1|]. split; [exact A2|]. split; [exact A3|]. split; [exact A4|]. split; auto.
Qed.
Print Assumptions C108_training_computes.

(** C108. The order of the windows in a batch does not matter: windows, masks and
    noise rearranged, the answers are rearranged in the same way. *)
Theorem C108_order_of_windows : forall ch ch' s w b len x x' f o, proper s -> batch_of b len (data_dim s) x -> batch_of b len (data_dim s) x' ->
  (1 < b)%nat -> rearranges b f ->
  (forall p t d, (p < b)%nat -> (t < len)%nat -> (d < data_dim s)%nat -> cell x' [p; t; d] = cell x [f p; t; d]) ->
  (forall p i j, (p < b)%nat -> time_keep ch' [p; i; j] = time_keep ch [f p; i; j]) ->
  (forall p i j, (p < b)%nat -> feat_keep ch' [p; i; j] = feat_keep ch [f p; i; j]) ->
  (forall p k, (p < b)%nat -> noise ch' [p; k] = noise ch [f p; k]) ->
  forward true ch s w x = Ok o ->
  exists o', forward true ch' s w x' = Ok o' /\
    (forall p d, (p < b)%nat -> (d < data_dim s)%nat ->
       cell (x_pred o') [p; d] = cell (x_pred o) [f p; d] /\ cell (x_recon o') [p; d] = cell (x_recon o) [f p; d]) /\
    (forall p k, (p < b)%nat -> (k < z_dim s)%nat ->
       cell (latent_mu o') [p; k] = cell (latent_mu o) [f p; k] /\ cell (latent_logv o') [p; k] = cell (latent_logv o) [f p; k]).
Proof.
  intros ch ch' s w b len x x' f o Pr Hx Hx' Hb RA W KT KF NZ E.
  assert (Hk : (kernel_size s <= len)%nat).
  { destruct (C92_accepted_batches true ch s w b len (data_dim s) x Pr Hx ltac:(lia)) as [[A _] _]. destruct (A ltac:(eauto)) as (_ & Hk & _). auto. }
  set (trim := fun (y : tens) (q t d : nat) => if ((t <? len) && (d <? data_dim s))%nat then window y q t d else 0).
  assert (T : forall y, batch_of b len (data_dim s) y -> is3 b len (data_dim s) (trim y) y).
  { intros y Hy. split; auto. intros q t d _ Ht Hd. unfold trim. destruct (Nat.ltb_spec t len); [|lia].
    destruct (Nat.ltb_spec d (data_dim s)); [reflexivity|lia]. }
  assert (EQ : forall p, (p < b)%nat -> trim x' p = trim x (f p)).
  { intros p Hp. apply functional_extensionality. intros t. apply functional_extensionality. intros d. unfold trim.
    destruct (Nat.ltb_spec t len); auto. destruct (Nat.ltb_spec d (data_dim s)); auto. cbn [andb]. unfold window. auto. }
  destruct (forward_train ch s w b len _ x (T x Hx) Pr Hb Hk) as (o1 & E1 & [_ A1] & [_ A2] & [_ A3] & [_ A4] & _). rewrite E in E1. injection E1 as <-.
  destruct (forward_train ch' s w b len _ x' (T x' Hx') Pr Hb Hk) as (o' & E' & [_ B1] & [_ B2] & [_ B3] & [_ B4] & _).
  exists o'. split; auto. pose proof RA as [RB _].
  pose proof (forecast_follows s w ch ch' b len (trim x) (trim x') f RA EQ KT KF) as F1.
  pose proof (reconstruction_follows s w ch ch' b len (trim x) (trim x') f RA EQ KT KF NZ) as F2.
  pose proof (code_mean_follows s w ch ch' b len (trim x) (trim x') f RA EQ KT KF) as F3.
  pose proof (code_logvar_follows s w ch ch' b len (trim x) (trim x') f RA EQ KT KF) as F4.
  split.
  - intros p d Hp Hd. split; [exact (eq_trans (B1 p d Hp Hd) (eq_trans (F1 p Hp d) (eq_sym (A1 (f p) d (RB p Hp) Hd))))|
                              exact (eq_trans (B2 p d Hp Hd) (eq_trans (F2 p Hp d) (eq_sym (A2 (f p) d (RB p Hp) Hd))))].
  - intros p k Hp Hd. split; [exact (eq_trans (B3 p k Hp Hd) (eq_trans (F3 p Hp k) (eq_sym (A3 (f p) k (RB p Hp) Hd))))|
                              exact (eq_trans (B4 p k Hp Hd) (eq_trans (F4 p Hp k) (eq_sym (A4 (f p) k (RB p Hp) Hd))))].
Qed.
Print Assumptions C108_order_of_windows.

(** C108. Each column of a normalisation in training has the learned shift as its
    mean over the batch, and the learned gain, squared, as its variance but for
    the guard against a constant column. *)
Theorem C108_normalised_columns : forall b n w x y j, dims x = [b; n] -> (1 < b)%nat -> (j < n)%nat -> batch_norm true n w x = Ok y ->
  let before := column_var b (fun p j => cell x [p; j]) j in
  column_mean b (fun p j => cell y [p; j]) j = n_shift w j /\
  column_var b (fun p j => cell y [p; j]) j = Rsqr (n_gain w j) * (before / (before + 1 / 100000)) /\ 0 <= before.
Proof.
  intros b n w x y j D Hb Hj E before.
  destruct (norm_batch b n w (fun p j => cell x [p; j]) x) as (y' & E' & _ & Y); [split; auto|lia|]. rewrite E in E'. injection E' as <-.
  destruct (standard_columns b w (fun p j => cell x [p; j]) j ltac:(lia)) as [M V].
  split; [|split; [|apply column_var_nonneg; lia]].
  - rewrite <- M. apply column_mean_ext. intros p Hp. apply Y; auto.
  - unfold before. rewrite <- V. apply column_var_ext. intros p Hp. apply Y; auto.
Qed.
Print Assumptions C108_normalised_columns.

(** Two windows swapped; a batch of two rows 1 and 3 has mean 2 and variance 1. *)
Example C108_swap : rearranges 5 (fun p => 4 - p)%nat /\
  (exists o, forward true ex_chance ex_sizes ex_weights (ex_batch 5 9) = Ok o).
Proof.
  split; [split; intros; lia|].
  destruct (C108_training_computes ex_chance ex_sizes ex_weights 5 9 (ex_batch 5 9)) as (o & E & _); [unfold proper; cbn; lia|reflexivity|lia|cbn; lia|].
  eauto.
Qed.
Example C108_columns : let x := Tens [2; 1]%nat true (fun i => match i with (p :: _) => 1 + 2 * INR p | [] => 0 end) in
  exists y, batch_norm true 1 no_norm x = Ok y /\ column_mean 2 (fun p j => cell x [p; j]) 0 = 2 /\ column_var 2 (fun p j => cell x [p; j]) 0 = 1.
Proof.
  cbv zeta. eexists. split; [reflexivity|].
  assert (M : column_mean 2 (fun p j => cell (Tens [2; 1]%nat true (fun i => match i with (p :: _) => 1 + 2 * INR p | [] => 0 end)) [p; j]) 0 = 2).
  { unfold column_mean, total. cbn. lra. }
  split; auto. unfold column_var. rewrite M. unfold total, Rsqr. cbn. lra.
Qed.
