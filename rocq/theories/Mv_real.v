(** The real-valued parts of the multivariate detector: error function,
    training loss and the layers of the network that do not depend on learned
    weights, or only through given vectors. Exact real arithmetic instead of
    float32. The whole network, tensor by tensor, is in Net_model.v. *)
From Coq Require Import List Arith Lia Reals Lra.
Import ListNotations.
Open Scope R_scope.

(** ** Error of one variable *)
(** model.py:322-329, module.py:225-232: exp(min(2|pred - target|, 1)) - 1 *)
Definition gap_real (d : R) : R := exp (Rmin (2 * Rabs d) 1) - 1.
Definition rsum (l : list R) : R := fold_right Rplus 0 l.
Definition rmean (l : list R) : R := rsum l / INR (length l).
(** model.py:341-351, module.py:233: mean over the variables of the weighted errors *)
Fixpoint weighted (pred target pct : list R) : list R :=
  match pred, target, pct with
  | p :: a, t :: b, w :: c => gap_real (p - t) * w :: weighted a b c
  | _, _, _ => []
  end.
Definition row_score (pred target pct : list R) : R := rmean (weighted pred target pct).
(** util.py:91-92 *)
Definition severity_real (s : R) : R := s / (exp 1 - 1).

(** ** Training loss *)
(** F.mse_loss(reduction="sum") *)
Fixpoint sq_error (a b : list R) : R :=
  match a, b with x :: a, y :: b => (x - y) * (x - y) + sq_error a b | _, _ => 0 end.
(** module.py:205: -0.5 * sum(1 + logv - mu^2 - exp(logv)) *)
Fixpoint kl_sum (mu logv : list R) : R :=
  match mu, logv with m :: a, l :: b => (1 + l - m * m - exp l) + kl_sum a b | _, _ => 0 end.
Definition kl_loss (mu logv : list R) : R := - (1 / 2) * kl_sum mu logv.
(** module.py:198-209 *)
Definition criterion (pred recon target mu logv : list R) (beta : R) : R * R * R :=
  let pred_loss := sq_error pred target in
  let recon_loss := sq_error recon target in
  let vae_loss := recon_loss + 1 * kl_loss mu logv in
  (beta * vae_loss + pred_loss, pred_loss, vae_loss).

(** ** Tensors *)
(** A rank-3 tensor with known dimensions is a function of its indices; [view]
    reads it through the row-major order. *)
Definition tensor := nat -> nat -> nat -> R.
Definition at_flat (b c : nat) (x : tensor) (p : nat) : R := x (p / (b * c))%nat ((p / c) mod b)%nat (p mod c)%nat.
Definition view (b c b' c' : nat) (x : tensor) : tensor :=
  fun i j k => at_flat b c x ((i * b' + j) * c' + k)%nat.
(** permute(0, 2, 1) *)
Definition permute021 (x : tensor) : tensor := fun i j k => x i k j.
(** Tensor.repeat(1, 1, n) and repeat(1, n, 1) for dimensions [b], [c] *)
Definition repeat_last (c : nat) (x : tensor) : tensor := fun i j k => x i j (k mod c)%nat.
Definition repeat_mid (b : nat) (x : tensor) : tensor := fun i j k => x i (j mod b)%nat k.

(** ** Graph attention *)
Fixpoint sum_to (n : nat) (f : nat -> R) : R := match n with O => 0 | S m => sum_to m f + f m end.
(** torch.matmul(x, w) for w of shape (feats, 1) *)
Definition project (feats : nat) (w : nat -> R) (x : tensor) : tensor :=
  fun b i _ => sum_to feats (fun f => x b i f * w f).
(** F.leaky_relu(negative_slope=0.2) *)
Definition leaky (x : R) : R := if Rle_dec 0 x then x else 2 / 10 * x.
(** F.softmax(dim=2) over [n] columns; the usual shift by the maximum cancels. *)
Definition softmax (n : nat) (x : tensor) : tensor :=
  fun b i j => exp (x b i j) / sum_to n (fun k => exp (x b i k)).
(** module.py:29-48, the attention map *)
Definition gat_map (nodes feats : nat) (wk wq : nat -> R) (x : tensor) : tensor :=
  let key := project feats wk x in
  let query := project feats wq x in
  let attn_input := fun b p k =>
    view nodes nodes (nodes * nodes) 1 (repeat_last 1 key) b p k + repeat_mid nodes query b p k in
  let attn_output := view (nodes * nodes) 1 nodes nodes attn_input in
  softmax nodes (fun b i j => leaky (attn_output b i j)).
(** module.py:47: features mixed with the attention map (dropout is the identity
    outside training) *)
Definition gat_feat (nodes feats : nat) (wk wq : nat -> R) (x : tensor) : tensor :=
  permute021 (fun b i f => sum_to nodes (fun j => gat_map nodes feats wk wq x b i j * x b j f)).

(** ** Smoothing and pooling *)
(** F.conv1d with one channel and constant weights 1/kernel *)
Definition smooth (kernel : nat) (x : tensor) : tensor :=
  fun b c t => sum_to kernel (fun q => x b c (t + q)%nat * (1 / INR kernel)).
(** module.py:176-180 for x of shape (batch, time, dim) *)
Definition smoothing (time dim kernel : nat) (x : tensor) : tensor :=
  let t' := (time - kernel + 1)%nat in
  let x := permute021 x in
  let x := view dim time 1 time x in
  let x := smooth kernel x in
  let x := view 1 t' dim t' x in
  permute021 x.
Fixpoint max_to (n : nat) (f : nat -> R) : R :=
  match n with O => f O | S m => Rmax (max_to m f) (f (S m)) end.
(** nn.AdaptiveMaxPool1d(out) over [len] steps: maximum over the steps from
    floor(i*len/out) to ceil((i+1)*len/out) - 1 *)
Definition pool (len out : nat) (x : tensor) : tensor :=
  fun b c i =>
    let lo := (i * len / out)%nat in
    let hi := ((S i * len + out - 1) / out)%nat in
    max_to (hi - 1 - lo) (fun q => x b c (lo + q)%nat).
