(** What the network of the multivariate detector is documented to compute for
    one window, as ordinary mathematics: no batches, no tensor layouts. *)
From Coq Require Import List Arith Reals Bool.
From Verif Require Import Mv_real Net_model.
Import ListNotations.
Open Scope R_scope.

(** Sum over 0..n-1 as a sum over a list. *)
Definition total (n : nat) (f : nat -> R) : R := rsum (map f (seq 0 n)).
Definition largest (l : list R) : R := match l with [] => 0 | a :: t => fold_right Rmax a t end.

Section Window.
Variable s : net_sizes.
Variable w : weights.
(** [win t d]: value of variable d at time t of the window, for [len] times. *)
Variable len : nat.
Variable win : nat -> nat -> R.

(** Moving average over [kernel_size] steps. *)
Definition smoothed (t d : nat) : R := total (kernel_size s) (fun q => win (t + q)%nat d) / INR (kernel_size s).
(** The smoothed steps are pooled into [gat_window] equal parts of the time axis:
    step t is the interval [t, t+1); the value of a part is the largest of the
    steps overlapping it. *)
Definition steps : nat := (len - kernel_size s + 1)%nat.
Definition touches (i t : nat) : bool := ((i * steps <? S t * gat_window s) && (t * gat_window s <? S i * steps))%nat.
Definition pooled (i d : nat) : R := largest (map (fun t => smoothed t d) (filter (touches i) (seq 0 steps))).

(** Attention of [n] nodes with [m] features: score of the pair (i, j), damped by a
    fifth if negative, normalised over j. *)
Definition score (m : nat) (key query : nat -> R) (y : nat -> nat -> R) (i j : nat) : R :=
  total m (fun f => y i f * key f) + total m (fun f => y j f * query f).
Definition attention (n m : nat) (key query : nat -> R) (y : nat -> nat -> R) (i j : nat) : R :=
  let e k := exp (Rmax (score m key query y i k) (score m key query y i k / 5)) in e j / total n e.
Definition mixed (n m : nat) (key query : nat -> R) (y : nat -> nat -> R) (i f : nat) : R :=
  total n (fun j => attention n m key query y i j * y j f).
(** Times attend to times, variables to variables. *)
Definition time_mixed (i d : nat) : R := mixed (gat_window s) (data_dim s) (time_key w) (time_query w) pooled i d.
Definition by_variable (d i : nat) : R := pooled i d.
Definition variable_attention (d d' : nat) : R :=
  attention (data_dim s) (gat_window s) (feat_key w) (feat_query w) by_variable d d'.
Definition variable_mixed (d i : nat) : R :=
  mixed (data_dim s) (gat_window s) (feat_key w) (feat_query w) by_variable d i.
(** Input of the recurrent layer at part i: pooled values, variable mix, time mix. *)
Definition recurrent_input (i c : nat) : R :=
  let d := (c mod data_dim s)%nat in
  match (c / data_dim s)%nat with O => pooled i d | 1%nat => variable_mixed d i | _ => time_mixed i d end.
(** Gated recurrent unit started from zero. *)
Definition gate_input (w : gru_weights) (n h : nat) (g : nat) (x : nat -> R) (j : nat) : R :=
  g_bi w (g * h + j)%nat + total n (fun k => g_wi w (g * h + j)%nat k * x k).
Definition gate_state (w : gru_weights) (h : nat) (g : nat) (x : nat -> R) (j : nat) : R :=
  g_bh w (g * h + j)%nat + total h (fun k => g_wh w (g * h + j)%nat k * x k).
Definition logistic (v : R) : R := / (1 + exp (- v)).
Fixpoint state (i : nat) : nat -> R :=
  match i with
  | O => fun _ => 0
  | S i' =>
      fun j =>
        let g := gru_w w in
        let n := (3 * data_dim s)%nat in
        let h := hidden s in
        let x := recurrent_input i' in
        let old := state i' in
        let reset := logistic (gate_input g n h 0 x j + gate_state g h 0 old j) in
        let keep := logistic (gate_input g n h 1 x j + gate_state g h 1 old j) in
        let new := tanh (gate_input g n h 2 x j + reset * gate_state g h 2 old j) in
        keep * old j + (1 - keep) * new
  end.
Definition summary : nat -> R := state (gat_window s).

(** Dense layers, normalisation by running statistics, rectification. *)
Definition dense (n : nat) (l : lin) (v : nat -> R) (o : nat) : R := l_bias l o + total n (fun k => l_weight l o k * v k).
Definition standard (n : norm) (v : nat -> R) (j : nat) : R :=
  n_shift n j + n_gain n j * ((v j - n_mean n j) / sqrt (n_var n j + 1 / 100000)).
Definition positive (v : nat -> R) (j : nat) : R := Rmax 0 (v j).

Definition forecast (d : nat) : R :=
  logistic (dense (hidden s) (fc_3 w)
    (positive (dense (hidden s) (fc_2 w)
      (positive (dense (hidden s) (fc_1 w)
        (standard (fc_norm w) (positive summary)))))) d).
Definition code : nat -> R :=
  positive (standard (enc_norm_2 w) (dense (enc_dim s) (enc_2 w)
    (positive (standard (enc_norm_1 w) (dense (hidden s) (enc_1 w) summary))))).
Definition code_mean (k : nat) : R := dense (enc_dim s) (mu_layer w) code k.
Definition code_logvar (k : nat) : R := dense (enc_dim s) (logv_layer w) code k.
(** The latent point uses the stored noise, scaled by the standard deviation. *)
Definition latent (k : nat) : R := code_mean k + eps_buffer w k * exp (code_logvar k / 2).
Definition reconstruction (d : nat) : R :=
  logistic (dense (dec_dim s) (recon_layer w)
    (positive (standard (dec_norm_2 w) (dense (dec_dim s) (dec_2 w)
      (positive (standard (dec_norm_1 w) (dense (z_dim s) (dec_1 w) latent)))))) d).
End Window.

(** A batch of [b] windows of [len] times and [dim] variables; window p of it. *)
Definition batch_of (b len dim : nat) (x : tens) : Prop := dims x = [b; len; dim].
Definition window (x : tens) (p : nat) : nat -> nat -> R := fun t d => cell x [p; t; d].
Definition proper (s : net_sizes) : Prop :=
  (0 < kernel_size s /\ 0 < data_dim s /\ 0 < gat_window s /\ 0 < hidden s /\ 0 < z_dim s /\ 0 < enc_dim s /\ 0 < dec_dim s)%nat.
(** A result with [b] rows of [m] numbers, given by [f]. *)
Definition rows_are (b m : nat) (f : nat -> nat -> R) (y : tens) : Prop :=
  dims y = [b; m] /\ forall p j, (p < b)%nat -> (j < m)%nat -> cell y [p; j] = f p j.
