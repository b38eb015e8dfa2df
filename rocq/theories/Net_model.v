(** The network of the multivariate detector, module.py:12-193: tensors with
    their shapes, layer by layer, with the shape errors of torch as values.

    Numbers are reals instead of float32. A tensor is its shape, whether its
    memory is contiguous (needed by [view]) and its cells by index. Broadcasting
    other than the ones written out below is not modelled: operands of other
    shapes raise. Layer sizes are those given to the constructors; learned
    weights are arbitrary. Chance (dropout masks, latent noise in training) is an
    explicit argument. Devices, gradients and the bookkeeping of running
    statistics in training are not modelled. *)
From Coq Require Import List Arith Lia Reals Lra Bool.
From Verif Require Import Base Mv_real.
Import ListNotations.
Open Scope R_scope.

Record tens := Tens { dims : list nat; contig : bool; cell : list nat -> R }.

(** ** Shapes *)
Fixpoint volume (ds : list nat) : nat := match ds with [] => 1%nat | d :: t => (d * volume t)%nat end.
(** Row-major position of an index, and back. *)
Fixpoint offset (ds idx : list nat) : nat :=
  match ds, idx with _ :: t, i :: r => (i * volume t + offset t r)%nat | _, _ => 0%nat end.
Fixpoint index (ds : list nat) (p : nat) : list nat :=
  match ds with [] => [] | _ :: t => (p / volume t)%nat :: index t (p mod volume t)%nat end.
(** Tensor.size(k) *)
Definition size (x : tens) (k : nat) : res nat :=
  match nth_error (dims x) k with Some n => Ok n | None => Err IndexErr end.
(** Tensor.contiguous() *)
Definition contiguous (x : tens) : tens := Tens (dims x) true (cell x).
(** Tensor.view: only of contiguous memory (strides that happen to allow the view
    are not tracked) and of the same number of cells. *)
Definition view_as (ds : list nat) (x : tens) : res tens :=
  if contig x && (volume ds =? volume (dims x))%nat
  then Ok (Tens ds true (fun i => cell x (index (dims x) (offset ds i))))
  else Err RuntimeErr.
(** Tensor.view(a, -1, c): the middle size is inferred; impossible if a*c = 0. *)
Definition view_infer (a c : nat) (x : tens) : res tens :=
  if (a * c =? 0)%nat then Err RuntimeErr else view_as [a; (volume (dims x) / (a * c))%nat; c] x.
(** Tensor.permute(0, 2, 1) and permute(1, 0, 2) *)
Definition permute_021 (x : tens) : res tens :=
  match dims x with
  | [a; b; c] => Ok (Tens [a; c; b] false (fun i => match i with [p; q; r] => cell x [p; r; q] | _ => 0 end))
  | _ => Err RuntimeErr
  end.
Definition permute_102 (x : tens) : res tens :=
  match dims x with
  | [a; b; c] => Ok (Tens [b; a; c] false (fun i => match i with [p; q; r] => cell x [q; p; r] | _ => 0 end))
  | _ => Err RuntimeErr
  end.
(** Tensor.squeeze(k): drops the dimension if it has size 1, else nothing. *)
Definition squeeze (k : nat) (x : tens) : res tens :=
  match nth_error (dims x) k with
  | None => Err IndexErr
  | Some 1%nat => Ok (Tens (firstn k (dims x) ++ skipn (S k) (dims x)) (contig x)
                           (fun i => cell x (firstn k i ++ 0%nat :: skipn k i)))
  | Some _ => Ok x
  end.
(** Tensor.repeat(1, 1, n) and repeat(1, n, 1) of a rank-3 tensor *)
Definition repeat_2 (n : nat) (x : tens) : res tens :=
  match dims x with
  | [a; b; c] => Ok (Tens [a; b; (c * n)%nat] true
                          (fun i => match i with [p; q; r] => cell x [p; q; (r mod c)%nat] | _ => 0 end))
  | _ => Err RuntimeErr
  end.
Definition repeat_1 (n : nat) (x : tens) : res tens :=
  match dims x with
  | [a; b; c] => Ok (Tens [a; (b * n)%nat; c] true
                          (fun i => match i with [p; q; r] => cell x [p; (q mod b)%nat; r] | _ => 0 end))
  | _ => Err RuntimeErr
  end.
Definition same_dims (x y : tens) : bool := if list_eq_dec Nat.eq_dec (dims x) (dims y) then true else false.
(** x + y for equal shapes *)
Definition add (x y : tens) : res tens :=
  if same_dims x y then Ok (Tens (dims x) true (fun i => cell x i + cell y i)) else Err RuntimeErr.
(** torch.cat([x, y, z], dim=2) *)
Definition cat3 (x y z : tens) : res tens :=
  match dims x, dims y, dims z with
  | [a; b; c], [a'; b'; c'], [a''; b''; c''] =>
      if ((a =? a') && (b =? b') && (a =? a'') && (b =? b''))%nat
      then Ok (Tens [a; b; (c + c' + c'')%nat] true
                 (fun i => match i with
                           | [p; q; r] => if (r <? c)%nat then cell x [p; q; r]
                                          else if (r <? c + c')%nat then cell y [p; q; (r - c)%nat]
                                          else cell z [p; q; (r - c - c')%nat]
                           | _ => 0
                           end))
      else Err RuntimeErr
  | _, _, _ => Err RuntimeErr
  end.
Definition each (f : R -> R) (x : tens) : tens := Tens (dims x) (contig x) (fun i => f (cell x i)).

(** ** Layers *)
(** torch.matmul(x, w) for a weight column of shape (n, 1) *)
Definition matmul_column (n : nat) (w : nat -> R) (x : tens) : res tens :=
  match dims x with
  | [a; b; c] =>
      if (c =? n)%nat
      then Ok (Tens [a; b; 1%nat] true
                 (fun i => match i with [p; q; _] => sum_to c (fun f => cell x [p; q; f] * w f) | _ => 0 end))
      else Err RuntimeErr
  | _ => Err RuntimeErr
  end.
(** torch.matmul(x, y) of two rank-3 tensors with the same first dimension *)
Definition matmul_batch (x y : tens) : res tens :=
  match dims x, dims y with
  | [a; b; c], [a'; c'; d] =>
      if ((a =? a') && (c =? c'))%nat
      then Ok (Tens [a; b; d] true
                 (fun i => match i with
                           | [p; q; r] => sum_to c (fun k => cell x [p; q; k] * cell y [p; k; r])
                           | _ => 0
                           end))
      else Err RuntimeErr
  | _, _ => Err RuntimeErr
  end.
(** F.softmax(dim=2); the usual shift by the maximum cancels. *)
Definition softmax_2 (x : tens) : res tens :=
  match dims x with
  | [a; b; c] => Ok (Tens [a; b; c] true
                       (fun i => match i with
                                 | [p; q; r] => exp (cell x [p; q; r]) / sum_to c (fun k => exp (cell x [p; q; k]))
                                 | _ => 0
                                 end))
  | _ => Err RuntimeErr
  end.
(** nn.Dropout(0.5): in training kept cells are doubled, the others zero; else the
    identity. *)
Definition dropout (train : bool) (keep : list nat -> bool) (x : tens) : tens :=
  if train then Tens (dims x) true (fun i => if keep i then 2 * cell x i else 0) else x.
(** F.conv1d of one channel with a weight of shape (1, 1, n), no padding *)
Definition conv1d (n : nat) (w : nat -> R) (x : tens) : res tens :=
  match dims x with
  | [a; b; c] =>
      if ((b =? 1) && (0 <? n) && (n <=? c))%nat
      then Ok (Tens [a; 1%nat; (c - n + 1)%nat] true
                 (fun i => match i with
                           | [p; _; t] => sum_to n (fun q => cell x [p; 0%nat; (t + q)%nat] * w q)
                           | _ => 0
                           end))
      else Err RuntimeErr
  | _ => Err RuntimeErr
  end.
(** nn.AdaptiveMaxPool1d(out): maximum over the steps from floor(i*len/out) to
    ceil((i+1)*len/out) - 1; needs a channel and a step. *)
Definition adaptive_max_pool (out : nat) (x : tens) : res tens :=
  match dims x with
  | [a; b; c] =>
      if ((0 <? b) && (0 <? c))%nat
      then Ok (Tens [a; b; out] true
                 (fun i => match i with
                           | [p; q; r] =>
                               let lo := (r * c / out)%nat in
                               let hi := ((S r * c + out - 1) / out)%nat in
                               max_to (hi - 1 - lo) (fun k => cell x [p; q; (lo + k)%nat])
                           | _ => 0
                           end))
      else Err RuntimeErr
  | _ => Err RuntimeErr
  end.
Definition sigmoid (x : R) : R := 1 / (1 + exp (- x)).
Definition relu (x : R) : R := if Rle_dec 0 x then x else 0.

Record lin := Lin { l_weight : nat -> nat -> R; l_bias : nat -> R }.
(** nn.Linear(n, m) on a rank-2 tensor *)
Definition linear (n m : nat) (l : lin) (x : tens) : res tens :=
  match dims x with
  | [a; b] =>
      if (b =? n)%nat
      then Ok (Tens [a; m] true
                 (fun i => match i with
                           | [p; o] => sum_to n (fun k => cell x [p; k] * l_weight l o k) + l_bias l o
                           | _ => 0
                           end))
      else Err RuntimeErr
  | _ => Err RuntimeErr
  end.
Record norm := Norm { n_gain : nat -> R; n_shift : nat -> R; n_mean : nat -> R; n_var : nat -> R }.
(** nn.BatchNorm1d(n) on a rank-2 tensor: running statistics in evaluation;
    statistics of the batch in training, which a batch of one row does not have
    (ValueError). *)
Definition batch_norm (train : bool) (n : nat) (w : norm) (x : tens) : res tens :=
  match dims x with
  | [a; b] =>
      if negb (b =? n)%nat then Err RuntimeErr
      else if train && (a =? 1)%nat then Err ValueErr
      else
        let mean := fun j => if train then sum_to a (fun p => cell x [p; j]) / INR a else n_mean w j in
        let var := fun j => if train then sum_to a (fun p => (cell x [p; j] - mean j) * (cell x [p; j] - mean j)) / INR a
                            else n_var w j in
        Ok (Tens [a; b] true
              (fun i => match i with
                        | [p; j] => (cell x [p; j] - mean j) / sqrt (var j + 1 / 100000) * n_gain w j + n_shift w j
                        | _ => 0
                        end))
  | _ => Err RuntimeErr
  end.

(** nn.GRU(n, h), one layer, as documented by torch: the rows of the weights are
    reset gate, update gate, new state. *)
Record gru_weights := Gru { g_wi : nat -> nat -> R; g_wh : nat -> nat -> R; g_bi : nat -> R; g_bh : nat -> R }.
Definition gru_cell (n h : nat) (w : gru_weights) (x s : nat -> R) : nat -> R :=
  fun j =>
    let inp := fun g => sum_to n (fun k => x k * g_wi w (g * h + j)%nat k) + g_bi w (g * h + j)%nat in
    let rec := fun g => sum_to h (fun k => s k * g_wh w (g * h + j)%nat k) + g_bh w (g * h + j)%nat in
    let r := sigmoid (inp 0%nat + rec 0%nat) in
    let z := sigmoid (inp 1%nat + rec 1%nat) in
    let c := tanh (inp 2%nat + r * rec 2%nat) in
    (1 - z) * c + z * s j.
Fixpoint gru_run (n h : nat) (w : gru_weights) (x : nat -> nat -> R) (steps : nat) : nat -> R :=
  match steps with O => fun _ => 0 | S t => gru_cell n h w (x t) (gru_run n h w x t) end.
(** The last hidden state, shape (1, batch, h), of an input of shape (steps,
    batch, n); at least one step. *)
Definition gru (n h : nat) (w : gru_weights) (x : tens) : res tens :=
  match dims x with
  | [a; b; c] =>
      if (c =? n)%nat && (0 <? a)%nat
      then Ok (Tens [1%nat; b; h] true
                 (fun i => match i with
                           | [_; p; j] => gru_run n h w (fun t k => cell x [t; p; k]) a j
                           | _ => 0
                           end))
      else Err RuntimeErr
  | _ => Err RuntimeErr
  end.

(** ** The modules *)
(** contract.py:28-40: the sizes of the network *)
Record net_sizes := Sizes {
  kernel_size : nat; data_dim : nat; gat_window : nat; hidden : nat; z_dim : nat; enc_dim : nat; dec_dim : nat }.
Record weights := Weights {
  time_key : nat -> R; time_query : nat -> R; feat_key : nat -> R; feat_query : nat -> R;
  gru_w : gru_weights;
  fc_norm : norm; fc_1 : lin; fc_2 : lin; fc_3 : lin;
  enc_1 : lin; enc_norm_1 : norm; enc_2 : lin; enc_norm_2 : norm;
  mu_layer : lin; logv_layer : lin;
  dec_1 : lin; dec_norm_1 : norm; dec_2 : lin; dec_norm_2 : norm; recon_layer : lin;
  eps_buffer : nat -> R }.
(** Chance in training: dropout of the two attentions and latent noise. *)
Record chance := Chance { time_keep : list nat -> bool; feat_keep : list nat -> bool; noise : list nat -> R }.

(** GAT.forward, module.py:17-48: mixed features and attention map *)
Definition gat (train : bool) (keep : list nat -> bool) (num_feats : nat) (wk wq : nat -> R) (x : tens)
  : res (tens * tens) :=
  do batch_size <- size x 0;
  do num_nodes <- size x 1;
  do _ <- size x 2;
  do key <- matmul_column num_feats wk x;
  do query <- matmul_column num_feats wq x;
  do key <- repeat_2 num_nodes key;
  do key <- view_as [batch_size; (num_nodes * num_nodes)%nat; 1%nat] key;
  do query <- repeat_1 num_nodes query;
  do attn_input <- add key query;
  do attn_output <- squeeze 2 attn_input;
  do attn_output <- view_as [batch_size; num_nodes; num_nodes] attn_output;
  let attn_output := each leaky attn_output in
  do attn_map <- softmax_2 attn_output;
  let attention := dropout train keep attn_map in
  do mixed <- matmul_batch attention x;
  do attn_feat <- permute_021 mixed;
  Ok (attn_feat, attn_map).

(** VAE.encode, module.py:69-76, 84-85, 90-100 *)
Definition encode (train : bool) (s : net_sizes) (w : weights) (x : tens) : res (tens * tens) :=
  do h <- linear (hidden s) (enc_dim s) (enc_1 w) x;
  do h <- batch_norm train (enc_dim s) (enc_norm_1 w) h;
  let h := each relu h in
  do h <- linear (enc_dim s) (enc_dim s) (enc_2 w) h;
  do h <- batch_norm train (enc_dim s) (enc_norm_2 w) h;
  let h := each relu h in
  do mu <- linear (enc_dim s) (z_dim s) (mu_layer w) h;
  do logv <- linear (enc_dim s) (z_dim s) (logv_layer w) h;
  Ok (mu, logv).
(** VAE.reparameterize, module.py:87-88, 111-120: the buffer [eps] of length
    z_dim is the same for every row *)
Definition reparameterize (train : bool) (nz : list nat -> R) (w : weights) (mu logv : tens) : res tens :=
  let std := each (fun v => exp (v * (1 / 2))) logv in
  let eps := Tens (dims std) true (fun i => if train then nz i else eps_buffer w (last i 0%nat)) in
  add mu (Tens (dims std) true (fun i => cell eps i * cell std i)).
(** VAE.decode, module.py:77-83, 86, 102-109 *)
Definition decode (train : bool) (s : net_sizes) (w : weights) (z : tens) : res tens :=
  do h <- linear (z_dim s) (dec_dim s) (dec_1 w) z;
  do h <- batch_norm train (dec_dim s) (dec_norm_1 w) h;
  let h := each relu h in
  do h <- linear (dec_dim s) (dec_dim s) (dec_2 w) h;
  do h <- batch_norm train (dec_dim s) (dec_norm_2 w) h;
  let h := each relu h in
  do recon <- linear (dec_dim s) (data_dim s) (recon_layer w) h;
  Ok (each sigmoid recon).
(** VAE.forward, module.py:122-133 *)
Definition vae (train : bool) (nz : list nat -> R) (s : net_sizes) (w : weights) (x : tens) : res (tens * tens * tens) :=
  do ml <- encode train s w x;
  do z <- reparameterize train nz w (fst ml) (snd ml);
  do recon_x <- decode train s w z;
  Ok (recon_x, fst ml, snd ml).

(** module.py:160-168 *)
Definition fc_layers (train : bool) (s : net_sizes) (w : weights) (x : tens) : res tens :=
  let x := each relu x in
  do x <- batch_norm train (hidden s) (fc_norm w) x;
  do x <- linear (hidden s) (hidden s) (fc_1 w) x;
  let x := each relu x in
  do x <- linear (hidden s) (hidden s) (fc_2 w) x;
  let x := each relu x in
  linear (hidden s) (data_dim s) (fc_3 w) x.

Record outputs := Outputs { x_pred : tens; x_recon : tens; latent_mu : tens; latent_logv : tens; attn_feat : tens }.

(** module.py:154-159, 176-182: smoothing by a constant kernel, and pooling *)
Definition smooth_pool (s : net_sizes) (x : tens) : res tens :=
  do batch_size <- size x 0;
  do x <- permute_021 x;
  let x := contiguous x in
  do n0 <- size x 0;
  do n1 <- size x 1;
  do n2 <- size x 2;
  do x <- view_as [(n0 * n1)%nat; 1%nat; n2] x;
  do x <- conv1d (kernel_size s) (fun _ => 1 / INR (kernel_size s)) x;
  do len <- size x 2;
  do x <- squeeze 1 x;
  do x <- view_infer batch_size len x;
  do x <- permute_021 x;
  let x := contiguous x in
  do x <- permute_021 x;
  do x <- adaptive_max_pool (gat_window s) x;
  permute_021 x.
(** MultivariateGraphAttnDetector.forward, module.py:175-193 *)
Definition forward (train : bool) (ch : chance) (s : net_sizes) (w : weights) (x : tens) : res outputs :=
  do x <- smooth_pool s x;
  let x_time := x in
  do x_feat <- permute_021 x;
  do ht <- gat train (time_keep ch) (data_dim s) (time_key w) (time_query w) x_time;
  do h_time <- permute_021 (fst ht);
  do hf <- gat train (feat_keep ch) (gat_window s) (feat_key w) (feat_query w) x_feat;
  do x <- cat3 x (fst hf) h_time;
  do x <- permute_102 x;
  do x <- gru (data_dim s * 3) (hidden s) (gru_w w) x;
  do x <- permute_102 x;
  do x <- squeeze 1 x;
  do p <- fc_layers train s w x;
  do v <- vae train (noise ch) s w x;
  Ok (Outputs (each sigmoid p) (fst (fst v)) (snd (fst v)) (snd v) (snd hf)).
