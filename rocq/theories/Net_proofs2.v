(** The network computes the documented function of every window. *)
From Coq Require Import List Arith Lia Reals Lra Bool.
From Verif Require Import Base Mv_real Mv_real_props Net_model Net_spec Net_proofs.
Import ListNotations.
Open Scope R_scope.

Lemma rsum_app : forall a b, rsum (a ++ b) = rsum a + rsum b.
Proof. unfold rsum. induction a as [|x a IH]; intros b; cbn [app fold_right]; [lra|]. rewrite IH. lra. Qed.
Lemma total_sum : forall n f, total n f = sum_to n f.
Proof.
  unfold total. induction n as [|n IH]; intros f; [reflexivity|]. rewrite seq_S, map_app, rsum_app, IH. cbn. lra.
Qed.
Lemma total_ext : forall n f g, (forall i, (i < n)%nat -> f i = g i) -> total n f = total n g.
Proof. intros. rewrite !total_sum. apply sum_to_ext. auto. Qed.

Lemma largest_spec : forall l, l <> [] -> In (largest l) l /\ forall v, In v l -> v <= largest l.
Proof.
  intros [|a t] H; [congruence|]. clear H. cbn [largest]. revert a. induction t as [|b t IH]; intros a; cbn [fold_right].
  - split; [left; auto|]. intros v [->|[]]. lra.
  - destruct (IH a) as [I M]. split.
    + unfold Rmax. destruct (Rle_dec b _); [|right; left; auto]. destruct I as [I|I]; [left; auto|right; right; auto].
    + intros v [->|[->|I']]; [eapply Rle_trans; [apply M; left; auto|apply Rmax_r]|apply Rmax_l|].
      eapply Rle_trans; [apply M; right; auto|apply Rmax_r].
Qed.
Lemma pool_largest : forall c out g p q i, (0 < c)%nat -> (0 < out)%nat -> (i < out)%nat ->
  pool c out g p q i = largest (map (g p q) (filter (fun t => ((i * c <? S t * out) && (t * out <? S i * c))%nat) (seq 0 c))).
Proof.
  intros c out g p q i Hc Ho Hi. destruct (C77_pooling c out g p q Hc Ho) as [P _]. destruct (P i Hi) as [(t & Lt & Ot & Et) M].
  set (l := map (g p q) (filter _ (seq 0 c))).
  assert (In' : forall v, In v l <-> exists u, (u < c)%nat /\ overlaps c out i u /\ v = g p q u).
  { intros v. unfold l. rewrite in_map_iff. split.
    - intros (u & <- & I). apply filter_In in I. destruct I as [I B]. apply in_seq in I. apply andb_true_iff in B.
      destruct B as [B1 B2]. apply Nat.ltb_lt in B1, B2. exists u. repeat split; auto; lia.
    - intros (u & Hu & [O1 O2] & ->). exists u. split; auto. apply filter_In. split; [apply in_seq; lia|].
      apply andb_true_iff. split; apply Nat.ltb_lt; auto. }
  assert (I : In (pool c out g p q i) l) by (apply In'; eauto).
  destruct (largest_spec l) as [I' M']; [intros E; rewrite E in I; destruct I|].
  apply Rle_antisym; [apply M'; auto|]. apply In' in I'. destruct I' as (u & Hu & Ou & ->). apply M. auto.
Qed.

Lemma smooth_pool_ok : forall s b len f x, is3 b len (data_dim s) f x -> proper s -> (0 < b)%nat -> (kernel_size s <= len)%nat ->
  exists y, smooth_pool s x = Ok y /\ is3 b (gat_window s) (data_dim s) (fun p i d => pooled s len (f p) i d) y.
Proof.
  intros s b len f x Hx (P1 & P2 & P3 & _) Hb Hk. unfold smooth_pool.
  destruct (size_3 _ _ _ _ _ Hx) as [-> _]. rewrite bind_ok.
  destruct (permute_021_ok _ _ _ _ _ Hx) as (x1 & -> & H1 & _). rewrite bind_ok. cbv zeta.
  destruct (contiguous_ok _ _ _ _ _ H1) as [H2 C2]. set (x2 := contiguous x1) in *.
  destruct (size_3 _ _ _ _ _ H2) as (-> & -> & ->). rewrite !bind_ok.
  destruct (view_join_ok _ _ _ _ _ H2 C2) as (x3 & -> & H3 & C3). rewrite bind_ok.
  destruct (conv1d_ok _ _ (kernel_size s) (fun _ => 1 / INR (kernel_size s)) _ _ H3 ltac:(lia)) as (x4 & -> & H4 & C4). rewrite bind_ok.
  destruct (size_3 _ _ _ _ _ H4) as (_ & _ & ->). rewrite bind_ok.
  destruct (squeeze_1_ok _ _ _ _ H4) as (x5 & -> & H5 & C5). rewrite bind_ok. rewrite C4 in C5.
  destruct (view_split_ok _ _ _ _ _ H5 C5 Hb ltac:(lia)) as (x6 & -> & H6 & C6). rewrite bind_ok.
  destruct (permute_021_ok _ _ _ _ _ H6) as (x7 & -> & H7 & _). rewrite bind_ok.
  destruct (contiguous_ok _ _ _ _ _ H7) as [H8 _].
  destruct (permute_021_ok _ _ _ _ _ H8) as (x9 & -> & H9 & _). rewrite bind_ok.
  destruct (adaptive_max_pool_ok _ _ _ (gat_window s) _ _ H9 P2 ltac:(lia) P3) as (x10 & -> & H10). rewrite bind_ok.
  destruct (permute_021_ok _ _ _ _ _ H10) as (x11 & -> & H11 & _). exists x11. split; auto.
  eapply is3_ext; [exact H11|]. cbv beta. intros p i d Hp Hi Hd. rewrite pool_largest by lia.
  unfold pooled, steps, touches. f_equal. apply map_ext_in. intros t It. apply filter_In in It. destruct It as [It _].
  apply in_seq in It. unfold smoothed. rewrite total_sum. unfold Rdiv. rewrite <- sum_to_scale. apply sum_to_ext.
  intros q Hq. rewrite div_add_small, mod_add_small by auto. lra.
Qed.

Lemma leaky_max : forall v, leaky v = Rmax v (v / 5).
Proof. intros v. unfold leaky. destruct (Rle_dec 0 v); [rewrite Rmax_left by lra|rewrite Rmax_right by lra]; lra. Qed.
Lemma attention_ext : forall n m wk wq y y' i j, (i < n)%nat -> (j < n)%nat ->
  (forall a f, (a < n)%nat -> (f < m)%nat -> y a f = y' a f) -> attention n m wk wq y i j = attention n m wk wq y' i j.
Proof.
  intros n m wk wq y y' i j Hi Hj E. unfold attention.
  assert (S : forall k, (k < n)%nat -> score m wk wq y i k = score m wk wq y' i k).
  { intros k Hk. unfold score. f_equal; apply total_ext; intros; rewrite E; auto. }
  rewrite S by auto. f_equal. apply total_ext. intros k Hk. rewrite S; auto.
Qed.
Lemma mixed_ext : forall n m wk wq y y' i f, (i < n)%nat -> (f < m)%nat ->
  (forall a f, (a < n)%nat -> (f < m)%nat -> y a f = y' a f) -> mixed n m wk wq y i f = mixed n m wk wq y' i f.
Proof.
  intros n m wk wq y y' i f Hi Hf E. unfold mixed. apply total_ext. intros j Hj. rewrite E by auto. f_equal. apply attention_ext; auto.
Qed.
Lemma gat_ok : forall train keep b n m wk wq f x, is3 b n m f x -> (0 < n)%nat ->
  exists feat map, gat train keep m wk wq x = Ok (feat, map) /\
    is3 b n n (fun p i j => attention n m wk wq (f p) i j) map /\ dims feat = [b; m; n] /\
    (train = false -> is3 b m n (fun p r i => mixed n m wk wq (f p) i r) feat).
Proof.
  intros train keep b n m wk wq f x Hx Hn. unfold gat. destruct (size_3 _ _ _ _ _ Hx) as (-> & -> & ->). rewrite !bind_ok.
  destruct (matmul_column_ok _ _ _ wk _ _ Hx) as (k1 & -> & K1). rewrite bind_ok.
  destruct (matmul_column_ok _ _ _ wq _ _ Hx) as (q1 & -> & Q1). rewrite bind_ok.
  destruct (repeat_2_ok _ _ n _ _ K1) as (k2 & -> & K2 & Ck2). rewrite bind_ok.
  destruct (view_flatten_ok _ _ _ _ K2 Ck2) as (k3 & -> & K3 & _). rewrite bind_ok.
  destruct (repeat_1_ok _ _ n _ _ Q1) as (q2 & -> & Q2). rewrite bind_ok.
  destruct (add_3_ok _ _ _ _ _ _ _ K3 Q2) as (a1 & -> & A1 & Ca1). rewrite bind_ok.
  destruct (squeeze_2_ok _ _ _ _ A1) as (a2 & -> & A2 & Ca2). rewrite bind_ok. rewrite Ca1 in Ca2.
  destruct (view_square_ok _ _ _ _ A2 Ca2) as (a3 & -> & A3 & _). rewrite bind_ok. cbv zeta.
  pose proof (each_3_ok _ _ _ _ leaky _ A3) as A4.
  destruct (softmax_2_ok _ _ _ _ _ A4) as (mp & -> & M). rewrite bind_ok. cbv beta in M.
  assert (M' : is3 b n n (fun p i j => attention n m wk wq (f p) i j) mp).
  { eapply is3_ext; [exact M|]. cbv beta. intros p i j Hp Hi Hj. unfold attention. rewrite total_sum.
    assert (E : forall k, (k < n)%nat ->
      leaky (sum_to m (fun k0 => f p ((i * n + k) / n)%nat k0 * wk k0) + sum_to m (fun k0 => f p ((i * n + k) mod n)%nat k0 * wq k0)) =
      Rmax (score m wk wq (f p) i k) (score m wk wq (f p) i k / 5)).
    { intros k Hk. rewrite leaky_max, div_add_small, mod_add_small by auto. unfold score. rewrite !total_sum. reflexivity. }
    rewrite E by auto. f_equal. apply sum_to_ext. intros k Hk. rewrite E by auto. reflexivity. }
  clear M. destruct train; cbn [dropout].
  - assert (D : is3 b n n (fun p i j => if keep [p; i; j] then 2 * attention n m wk wq (f p) i j else 0)
              (Tens (dims mp) true (fun i => if keep i then 2 * cell mp i else 0))).
    { destruct M' as [E H]. split; cbn [dims cell]; auto. intros. rewrite H; auto. }
    destruct (matmul_batch_ok _ _ _ _ _ _ _ _ D Hx) as (z & -> & Zz). rewrite bind_ok.
    destruct (permute_021_ok _ _ _ _ _ Zz) as (o & -> & [O _] & _). rewrite bind_ok.
    exists o, mp. repeat split; auto; try apply M'; congruence.
  - destruct (matmul_batch_ok _ _ _ _ _ _ _ _ M' Hx) as (z & -> & Zz). rewrite bind_ok.
    destruct (permute_021_ok _ _ _ _ _ Zz) as (o & -> & O & _). rewrite bind_ok.
    exists o, mp. split; [reflexivity|]. split; auto. split; [apply O|]. intros _. eapply is3_ext; [exact O|]. cbv beta.
    intros p r i Hp Hr Hi. unfold mixed. rewrite total_sum. reflexivity.
Qed.

Lemma linear_dense : forall a n m l f x, is2 a n f x ->
  exists y, linear n m l x = Ok y /\ is2 a m (fun p o => dense n l (f p) o) y.
Proof.
  intros a n m l f x H. destruct (linear_ok a n m l f x H) as (y & E & Y). exists y. split; auto. eapply is2_ext; [exact Y|].
  cbv beta. intros p o _ _. unfold dense. rewrite total_sum, Rplus_comm. f_equal. apply sum_to_ext. intros. lra.
Qed.
Lemma relu_positive : forall a n f x, is2 a n f x -> is2 a n (fun p j => positive (f p) j) (each relu x).
Proof.
  intros a n f x H. eapply is2_ext; [apply (each_2_ok _ _ _ relu _ H)|]. cbv beta. intros. unfold positive, relu.
  destruct (Rle_dec 0 (f p q)); [rewrite Rmax_right|rewrite Rmax_left]; lra.
Qed.
(** Evaluation or training with more than one row. *)
Lemma norm_dims : forall train a n w x, dims x = [a; n] -> (train = true -> a <> 1%nat) ->
  exists y, batch_norm train n w x = Ok y /\ dims y = [a; n].
Proof.
  intros train a n w x E T. destruct (batch_norm_ok train a n w (fun p j => cell x [p; j]) x) as (y & B & D & _); [split; auto|auto|].
  eauto.
Qed.
Lemma norm_standard : forall a n w f x, is2 a n f x ->
  exists y, batch_norm false n w x = Ok y /\ is2 a n (fun p j => standard w (f p) j) y.
Proof.
  intros a n w f x H. destruct (batch_norm_ok false a n w f x H ltac:(congruence)) as (y & B & _ & Y). exists y. split; auto.
  eapply is2_ext; [exact (Y eq_refl)|]. cbv beta. intros. unfold standard. lra.
Qed.
Lemma logistic_sigmoid : forall v, sigmoid v = logistic v.
Proof. intros. unfold sigmoid, logistic. lra. Qed.

Lemma gru_run_state : forall s w len win j i, (j < hidden s)%nat ->
  gru_run (data_dim s * 3) (hidden s) (gru_w w) (recurrent_input s w len win) i j = state s w len win i j.
Proof.
  intros s w len win j i. revert j. induction i as [|i IH]; intros j Hj; auto. cbn [gru_run state]. unfold gru_cell.
  assert (G : forall g, sum_to (data_dim s * 3) (fun k => recurrent_input s w len win i k * g_wi (gru_w w) (g * hidden s + j)%nat k) + g_bi (gru_w w) (g * hidden s + j)%nat
              = gate_input (gru_w w) (3 * data_dim s) (hidden s) g (recurrent_input s w len win i) j).
  { intros g. unfold gate_input. rewrite total_sum, (Nat.mul_comm 3). rewrite Rplus_comm. f_equal. apply sum_to_ext. intros. lra. }
  assert (G' : forall g, sum_to (hidden s) (fun k => gru_run (data_dim s * 3) (hidden s) (gru_w w) (recurrent_input s w len win) i k * g_wh (gru_w w) (g * hidden s + j)%nat k) + g_bh (gru_w w) (g * hidden s + j)%nat
              = gate_state (gru_w w) (hidden s) g (state s w len win i) j).
  { intros g. unfold gate_state. rewrite total_sum. rewrite Rplus_comm. f_equal. apply sum_to_ext. intros k Hk. rewrite IH by auto. lra. }
  rewrite !G, !G', !logistic_sigmoid, IH by auto. cbv zeta. lra.
Qed.

(** Up to the summary of the window. *)
Definition summarise (train : bool) (ch : chance) (s : net_sizes) (w : weights) (x : tens) : res (tens * tens) :=
  do x <- smooth_pool s x;
  let x_time := x in
  do x_feat <- permute_021 x;
  do ht <- gat train (time_keep ch) (data_dim s) (time_key w) (time_query w) x_time;
  do h_time <- permute_021 (fst ht);
  do hf <- gat train (feat_keep ch) (gat_window s) (feat_key w) (feat_query w) x_feat;
  do x <- cat3 x (fst hf) h_time;
  do x <- permute_102 x;
  do x <- gru (data_dim s * 3) (hidden s) (gru_w w) x;
  do x <- permute_102 x;
  do x <- squeeze 1 x;
  Ok (x, snd hf).
Lemma bind_assoc : forall A B C (x : res A) (f : A -> res B) (g : B -> res C), bind (bind x f) g = bind x (fun a => bind (f a) g).
Proof. intros A B C [a|e] f g; reflexivity. Qed.
Lemma forward_parts : forall train ch s w x,
  forward train ch s w x =
  (do h <- summarise train ch s w x;
   do p <- fc_layers train s w (fst h);
   do v <- vae train (noise ch) s w (fst h);
   Ok (Outputs (each sigmoid p) (fst (fst v)) (snd (fst v)) (snd v) (snd h))).
Proof.
  intros. unfold forward, summarise. rewrite !bind_assoc. 
  destruct (smooth_pool s x) as [x1|e]; [rewrite !bind_ok|reflexivity].
  rewrite !bind_assoc. destruct (permute_021 x1) as [x2|e]; [rewrite !bind_ok|reflexivity].
  rewrite !bind_assoc. destruct (gat train (time_keep ch) _ _ _ x1) as [ht|e]; [rewrite !bind_ok|reflexivity].
  rewrite !bind_assoc. destruct (permute_021 (fst ht)) as [h2|e]; [rewrite !bind_ok|reflexivity].
  rewrite !bind_assoc. destruct (gat train (feat_keep ch) _ _ _ x2) as [hf|e]; [rewrite !bind_ok|reflexivity].
  rewrite !bind_assoc. destruct (cat3 x1 (fst hf) h2) as [x3|e]; [rewrite !bind_ok|reflexivity].
  rewrite !bind_assoc. destruct (permute_102 x3) as [x4|e]; [rewrite !bind_ok|reflexivity].
  rewrite !bind_assoc. destruct (gru _ _ _ x4) as [x5|e]; [rewrite !bind_ok|reflexivity].
  rewrite !bind_assoc. destruct (permute_102 x5) as [x6|e]; [rewrite !bind_ok|reflexivity].
  rewrite !bind_assoc. destruct (squeeze 1 x6) as [x7|e]; [rewrite !bind_ok|reflexivity]. reflexivity.
Qed.
Lemma summarise_ok : forall train ch s w b len f x, is3 b len (data_dim s) f x -> proper s -> (0 < b)%nat -> (kernel_size s <= len)%nat ->
  exists h a, summarise train ch s w x = Ok (h, a) /\ dims h = [b; hidden s] /\
    is3 b (data_dim s) (data_dim s) (fun p d d' => variable_attention s w len (f p) d d') a /\
    (train = false -> is2 b (hidden s) (fun p j => summary s w len (f p) j) h).
Proof.
  intros train ch s w b len f x Hx Pr Hb Hk. pose proof Pr as (P1 & P2 & P3 & P4 & _). unfold summarise.
  destruct (smooth_pool_ok _ _ _ _ _ Hx Pr Hb Hk) as (x1 & -> & H1). rewrite bind_ok. cbv zeta.
  destruct (permute_021_ok _ _ _ _ _ H1) as (x2 & -> & H2 & _). rewrite bind_ok.
  destruct (gat_ok train (time_keep ch) _ _ _ (time_key w) (time_query w) _ _ H1 P3) as (tf & tm & -> & T1 & T2 & T3).
  rewrite bind_ok. cbn [fst snd].
  destruct (gat_ok train (feat_keep ch) _ _ _ (feat_key w) (feat_query w) _ _ H2 P2) as (ff & fm & -> & F1 & F2 & F3).
  assert (Tv : exists g, is3 b (data_dim s) (gat_window s) g tf /\
    (train = false -> forall p d i, (p < b)%nat -> (d < data_dim s)%nat -> (i < gat_window s)%nat -> g p d i = time_mixed s w len (f p) i d)).
  { exists (fun p q r => cell tf [p; q; r]). split; [split; auto|]. intros E p d i Hp Hd Hi. rewrite (proj2 (T3 E)) by auto. reflexivity. }
  destruct Tv as (g & Tg & Tt).
  destruct (permute_021_ok _ _ _ _ _ Tg) as (ht & -> & H3 & _). rewrite !bind_ok. cbn [fst snd].
  assert (Fv : exists k, is3 b (gat_window s) (data_dim s) k ff /\
    (train = false -> forall p i d, (p < b)%nat -> (i < gat_window s)%nat -> (d < data_dim s)%nat -> k p i d = variable_mixed s w len (f p) d i)).
  { exists (fun p q r => cell ff [p; q; r]). split; [split; auto|]. intros E p i d Hp Hi Hd. rewrite (proj2 (F3 E)) by auto. reflexivity. }
  destruct Fv as (k & Fk & Ft).
  destruct (cat3_ok _ _ _ _ _ _ _ _ _ H1 Fk H3) as (x3 & -> & H4). rewrite bind_ok. rewrite (Nat.mul_comm 3) in H4.
  destruct (permute_102_ok _ _ _ _ _ H4) as (x4 & -> & H5). rewrite bind_ok.
  destruct (gru_ok _ _ _ (hidden s) (gru_w w) _ _ H5 P3) as (x5 & -> & H6). rewrite bind_ok.
  destruct (permute_102_ok _ _ _ _ _ H6) as (x6 & -> & H7). rewrite bind_ok.
  destruct (squeeze_1_ok _ _ _ _ H7) as (x7 & -> & H8 & _). rewrite bind_ok.
  exists x7, fm. split; [reflexivity|]. split; [apply H8|]. split; [exact F1|].
  intros E. eapply is2_ext; [exact H8|]. cbv beta. intros p j Hp Hj. unfold summary. rewrite <- gru_run_state by auto.
  apply gru_run_ext; auto. intros t c Ht Hc. unfold recurrent_input.
  assert (Hd : (c mod data_dim s < data_dim s)%nat) by (apply Nat.mod_upper_bound; lia).
  destruct (c / data_dim s)%nat as [|[|u]]; auto.
Qed.

Lemma fc_ok : forall train s w b h, dims h = [b; hidden s] -> (train = true -> b <> 1%nat) ->
  exists y, fc_layers train s w h = Ok y /\ dims y = [b; data_dim s].
Proof.
  intros train s w b h E T. unfold fc_layers. cbv zeta.
  destruct (norm_dims train b (hidden s) (fc_norm w) (each relu h) E T) as (y1 & -> & D1). rewrite bind_ok.
  destruct (linear_ok b (hidden s) (hidden s) (fc_1 w) (fun p j => cell y1 [p; j]) y1) as (y2 & -> & D2 & _); [split; auto|]. rewrite bind_ok.
  destruct (linear_ok b (hidden s) (hidden s) (fc_2 w) (fun p j => cell (each relu y2) [p; j]) (each relu y2)) as (y3 & -> & D3 & _); [split; auto|].
  rewrite bind_ok.
  destruct (linear_ok b (hidden s) (data_dim s) (fc_3 w) (fun p j => cell (each relu y3) [p; j]) (each relu y3)) as (y4 & -> & D4 & _); [split; auto|].
  eauto.
Qed.
Lemma vae_ok : forall train nz s w b h, dims h = [b; hidden s] -> (train = true -> b <> 1%nat) ->
  exists r mu lv, vae train nz s w h = Ok (r, mu, lv) /\ dims r = [b; data_dim s] /\ dims mu = [b; z_dim s] /\ dims lv = [b; z_dim s] /\
    forall i, exists v, cell r i = sigmoid v.
Proof.
  intros train nz s w b h E T. unfold vae, encode.
  destruct (linear_ok b (hidden s) (enc_dim s) (enc_1 w) (fun p j => cell h [p; j]) h) as (y1 & -> & D1 & _); [split; auto|]. rewrite bind_ok.
  destruct (norm_dims train b (enc_dim s) (enc_norm_1 w) y1 D1 T) as (y2 & -> & D2). rewrite bind_ok. cbv zeta.
  destruct (linear_ok b (enc_dim s) (enc_dim s) (enc_2 w) (fun p j => cell (each relu y2) [p; j]) (each relu y2)) as (y3 & -> & D3 & _); [split; auto|].
  rewrite bind_ok.
  destruct (norm_dims train b (enc_dim s) (enc_norm_2 w) y3 D3 T) as (y4 & -> & D4). rewrite bind_ok.
  destruct (linear_ok b (enc_dim s) (z_dim s) (mu_layer w) (fun p j => cell (each relu y4) [p; j]) (each relu y4)) as (mu & -> & D5 & _); [split; auto|].
  rewrite bind_ok.
  destruct (linear_ok b (enc_dim s) (z_dim s) (logv_layer w) (fun p j => cell (each relu y4) [p; j]) (each relu y4)) as (lv & -> & D6 & _); [split; auto|].
  rewrite !bind_ok. cbn [fst snd]. unfold reparameterize. cbv zeta.
  match goal with |- context [add mu ?e] => destruct (add_2_ok b (z_dim s) (fun p j => cell mu [p; j]) (fun p j => cell e [p; j]) mu e) as (z & -> & Dz & _);
    [split; auto|split; auto|] end.
  rewrite bind_ok. unfold decode.
  destruct (linear_ok b (z_dim s) (dec_dim s) (dec_1 w) (fun p j => cell z [p; j]) z) as (y5 & -> & D7 & _); [split; auto|]. rewrite bind_ok.
  destruct (norm_dims train b (dec_dim s) (dec_norm_1 w) y5 D7 T) as (y6 & -> & D8). rewrite bind_ok. cbv zeta.
  destruct (linear_ok b (dec_dim s) (dec_dim s) (dec_2 w) (fun p j => cell (each relu y6) [p; j]) (each relu y6)) as (y7 & -> & D9 & _); [split; auto|].
  rewrite bind_ok.
  destruct (norm_dims train b (dec_dim s) (dec_norm_2 w) y7 D9 T) as (y8 & -> & D10). rewrite bind_ok.
  destruct (linear_ok b (dec_dim s) (data_dim s) (recon_layer w) (fun p j => cell (each relu y8) [p; j]) (each relu y8)) as (r & -> & D11 & _); [split; auto|].
  rewrite !bind_ok. exists (each sigmoid r), mu, lv. repeat split; auto. intros i. exists (cell r i). reflexivity.
Qed.
Lemma dense_ext : forall n l u v o, (forall k, (k < n)%nat -> u k = v k) -> dense n l u o = dense n l v o.
Proof. intros n l u v o E. unfold dense. f_equal. apply total_ext. intros. rewrite E; auto. Qed.
Lemma standard_ext : forall n u v j, u j = v j -> standard n u j = standard n v j.
Proof. intros n u v j E. unfold standard. rewrite E. auto. Qed.
Lemma positive_ext : forall u v j, u j = v j -> positive u j = positive v j.
Proof. intros u v j E. unfold positive. rewrite E. auto. Qed.

Lemma fc_eval : forall s w b len (f : nat -> nat -> nat -> R) h, is2 b (hidden s) (fun p j => summary s w len (f p) j) h ->
  exists y, fc_layers false s w h = Ok y /\ is2 b (data_dim s) (fun p d => forecast s w len (f p) d) (each sigmoid y).
Proof.
  intros s w b len f h H. unfold fc_layers. cbv zeta.
  destruct (norm_standard _ _ (fc_norm w) _ _ (relu_positive _ _ _ _ H)) as (y1 & -> & H1). rewrite bind_ok.
  destruct (linear_dense _ _ (hidden s) (fc_1 w) _ _ H1) as (y2 & -> & H2). rewrite bind_ok.
  destruct (linear_dense _ _ (hidden s) (fc_2 w) _ _ (relu_positive _ _ _ _ H2)) as (y3 & -> & H3). rewrite bind_ok.
  destruct (linear_dense _ _ (data_dim s) (fc_3 w) _ _ (relu_positive _ _ _ _ H3)) as (y4 & -> & H4).
  exists y4. split; auto. eapply is2_ext; [apply (each_2_ok _ _ _ sigmoid _ H4)|]. cbv beta. intros p d Hp Hd.
  rewrite logistic_sigmoid. reflexivity.
Qed.
Lemma vae_eval : forall nz s w b len (f : nat -> nat -> nat -> R) h, is2 b (hidden s) (fun p j => summary s w len (f p) j) h ->
  exists r mu lv, vae false nz s w h = Ok (r, mu, lv) /\
    is2 b (data_dim s) (fun p d => reconstruction s w len (f p) d) r /\
    is2 b (z_dim s) (fun p d => code_mean s w len (f p) d) mu /\ is2 b (z_dim s) (fun p d => code_logvar s w len (f p) d) lv.
Proof.
  intros nz s w b len f h H. unfold vae, encode.
  destruct (linear_dense _ _ (enc_dim s) (enc_1 w) _ _ H) as (y1 & -> & H1). rewrite bind_ok. cbv zeta.
  destruct (norm_standard _ _ (enc_norm_1 w) _ _ H1) as (y2 & -> & H2). rewrite bind_ok.
  destruct (linear_dense _ _ (enc_dim s) (enc_2 w) _ _ (relu_positive _ _ _ _ H2)) as (y3 & -> & H3). rewrite bind_ok.
  destruct (norm_standard _ _ (enc_norm_2 w) _ _ H3) as (y4 & -> & H4). rewrite bind_ok.
  pose proof (relu_positive _ _ _ _ H4) as H4'. fold (code s w len) in H4'.
  destruct (linear_dense _ _ (z_dim s) (mu_layer w) _ _ H4') as (mu & -> & Hm). rewrite bind_ok.
  destruct (linear_dense _ _ (z_dim s) (logv_layer w) _ _ H4') as (lv & -> & Hl). rewrite !bind_ok. cbn [fst snd].
  unfold reparameterize. cbv zeta.
  pose proof (each_2_ok _ _ _ (fun v => exp (v * (1 / 2))) _ Hl) as Hs. cbv beta in Hs.
  match goal with |- context [add mu ?e] =>
    assert (He : is2 b (z_dim s) (fun p k => eps_buffer w k * exp (code_logvar s w len (f p) k / 2)) e) end.
  { split; [apply Hs|]. intros p k Hp Hkk. cbn [cell last]. f_equal. rewrite (proj2 Hs) by auto. unfold Rdiv. rewrite Rmult_1_l. reflexivity. }
  destruct (add_2_ok _ _ _ _ _ _ Hm He) as (z & -> & Hz). rewrite bind_ok. unfold decode.
  destruct (linear_dense _ _ (dec_dim s) (dec_1 w) _ _ Hz) as (y5 & -> & H5). rewrite bind_ok. cbv zeta.
  destruct (norm_standard _ _ (dec_norm_1 w) _ _ H5) as (y6 & -> & H6). rewrite bind_ok.
  destruct (linear_dense _ _ (dec_dim s) (dec_2 w) _ _ (relu_positive _ _ _ _ H6)) as (y7 & -> & H7). rewrite bind_ok.
  destruct (norm_standard _ _ (dec_norm_2 w) _ _ H7) as (y8 & -> & H8). rewrite bind_ok.
  destruct (linear_dense _ _ (data_dim s) (recon_layer w) _ _ (relu_positive _ _ _ _ H8)) as (r & -> & H9). rewrite !bind_ok.
  exists (each sigmoid r), mu, lv. split; [reflexivity|]. split; [|split; auto].
  eapply is2_ext; [apply (each_2_ok _ _ _ sigmoid _ H9)|]. cbv beta. intros p d Hp Hd. rewrite logistic_sigmoid. reflexivity.
Qed.
