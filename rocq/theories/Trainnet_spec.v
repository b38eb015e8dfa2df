(** What the network computes in training, as mathematics on a batch of windows:
    dropout of attention weights, normalisation by the batch, fresh noise. *)
From Coq Require Import List Arith Reals Bool.
From Verif Require Import Mv_real Net_model Net_spec.
Import ListNotations.
Open Scope R_scope.

(** Mean and variance of column [j] of [b] rows. *)
Definition column_mean (b : nat) (v : nat -> nat -> R) (j : nat) : R := total b (fun p => v p j) / INR b.
Definition column_var (b : nat) (v : nat -> nat -> R) (j : nat) : R :=
  total b (fun p => Rsqr (v p j - column_mean b v j)) / INR b.

Section Batch.
Variable s : net_sizes.
Variable w : weights.
Variable ch : chance.
(** [wins p t d]: variable d at time t of window p; [b] windows of [len] times. *)
Variable b len : nat.
Variable wins : nat -> nat -> nat -> R.

(** A kept attention weight counts twice, a dropped one not at all. *)
Definition dropped (keep : list nat -> bool) (p i j : nat) : R := if keep [p; i; j] then 2 else 0.
Definition mixed_kept (n m : nat) (key query : nat -> R) (y : nat -> nat -> R) (k : nat -> nat -> R) (i f : nat) : R :=
  total n (fun j => k i j * attention n m key query y i j * y j f).
Definition time_mixed_t (p i d : nat) : R :=
  mixed_kept (gat_window s) (data_dim s) (time_key w) (time_query w) (pooled s len (wins p)) (dropped (time_keep ch) p) i d.
Definition variable_mixed_t (p d i : nat) : R :=
  mixed_kept (data_dim s) (gat_window s) (feat_key w) (feat_query w) (by_variable s len (wins p)) (dropped (feat_keep ch) p) d i.
Definition recurrent_input_t (p i c : nat) : R :=
  let d := (c mod data_dim s)%nat in
  match (c / data_dim s)%nat with O => pooled s len (wins p) i d | 1%nat => variable_mixed_t p d i | _ => time_mixed_t p i d end.
(** The recurrent layer on row [p]. *)
Fixpoint state_t (p i : nat) : nat -> R :=
  match i with
  | O => fun _ => 0
  | S i' =>
      fun j =>
        let g := gru_w w in
        let n := (3 * data_dim s)%nat in
        let h := hidden s in
        let x := recurrent_input_t p i' in
        let old := state_t p i' in
        let reset := logistic (gate_input g n h 0 x j + gate_state g h 0 old j) in
        let keep := logistic (gate_input g n h 1 x j + gate_state g h 1 old j) in
        let new := tanh (gate_input g n h 2 x j + reset * gate_state g h 2 old j) in
        keep * old j + (1 - keep) * new
  end.
Definition summary_t (p : nat) : nat -> R := state_t p (gat_window s).

(** Layers on all rows; normalisation by the statistics of the batch. *)
Definition dense_t (n : nat) (l : lin) (v : nat -> nat -> R) (p : nat) : nat -> R := dense n l (v p).
Definition standard_t (n : norm) (v : nat -> nat -> R) (p j : nat) : R :=
  n_shift n j + n_gain n j * ((v p j - column_mean b v j) / sqrt (column_var b v j + 1 / 100000)).
Definition positive_t (v : nat -> nat -> R) (p : nat) : nat -> R := positive (v p).

Definition forecast_t (p d : nat) : R :=
  logistic (dense_t (hidden s) (fc_3 w)
    (positive_t (dense_t (hidden s) (fc_2 w)
      (positive_t (dense_t (hidden s) (fc_1 w)
        (standard_t (fc_norm w) (positive_t summary_t)))))) p d).
Definition code_t : nat -> nat -> R :=
  positive_t (standard_t (enc_norm_2 w) (dense_t (enc_dim s) (enc_2 w)
    (positive_t (standard_t (enc_norm_1 w) (dense_t (hidden s) (enc_1 w) summary_t))))).
Definition code_mean_t (p k : nat) : R := dense_t (enc_dim s) (mu_layer w) code_t p k.
Definition code_logvar_t (p k : nat) : R := dense_t (enc_dim s) (logv_layer w) code_t p k.
Definition latent_t (p k : nat) : R := code_mean_t p k + noise ch [p; k] * exp (code_logvar_t p k / 2).
Definition reconstruction_t (p d : nat) : R :=
  logistic (dense_t (dec_dim s) (recon_layer w)
    (positive_t (standard_t (dec_norm_2 w) (dense_t (dec_dim s) (dec_2 w)
      (positive_t (standard_t (dec_norm_1 w) (dense_t (z_dim s) (dec_1 w) latent_t)))))) p d).
End Batch.

(** [f] rearranges the numbers below [b]. *)
Definition rearranges (b : nat) (f : nat -> nat) : Prop :=
  (forall p, (p < b)%nat -> (f p < b)%nat) /\ (forall p q, (p < b)%nat -> (q < b)%nat -> f p = f q -> p = q).
