(** In training the network computes the documented function of the batch. *)
From Coq Require Import List Arith Lia Reals Lra Bool Permutation FunctionalExtensionality.
From Verif Require Import Base Mv_real Mv_real_props Net_model Net_spec Net_proofs Net_proofs2 Trainnet_spec.
Import ListNotations.
Open Scope R_scope.

Lemma column_mean_ext : forall b v u j, (forall p, (p < b)%nat -> v p j = u p j) -> column_mean b v j = column_mean b u j.
Proof. intros b v u j E. unfold column_mean. f_equal. apply total_ext. auto. Qed.
Lemma column_var_ext : forall b v u j, (forall p, (p < b)%nat -> v p j = u p j) -> column_var b v j = column_var b u j.
Proof. intros b v u j E. unfold column_var. f_equal. apply total_ext. intros p Hp. rewrite E, (column_mean_ext b v u) by auto. auto. Qed.

Lemma norm_batch : forall a n w f x, is2 a n f x -> a <> 1%nat ->
  exists y, batch_norm true n w x = Ok y /\ is2 a n (fun p j => standard_t a w f p j) y.
Proof.
  intros a n w f x [E H] T. unfold batch_norm. rewrite E, Nat.eqb_refl. cbn [negb].
  assert (B : true && (a =? 1)%nat = false) by (cbn; apply Nat.eqb_neq; auto). rewrite B. cbv zeta.
  eexists. split; [reflexivity|]. split; cbn [dims cell]; auto. intros p j Hp Hj. unfold standard_t.
  assert (M : sum_to a (fun p => cell x [p; j]) / INR a = column_mean a f j).
  { unfold column_mean. rewrite total_sum. f_equal. apply sum_to_ext. intros. apply H; auto. }
  assert (V : sum_to a (fun p => (cell x [p; j] - sum_to a (fun p => cell x [p; j]) / INR a) * (cell x [p; j] - sum_to a (fun p => cell x [p; j]) / INR a)) / INR a = column_var a f j).
  { unfold column_var. rewrite total_sum. f_equal. apply sum_to_ext. intros q Hq. rewrite M, H by auto. reflexivity. }
  rewrite V, M, H by auto. lra.
Qed.

Lemma gat_train : forall keep b n m wk wq f x, is3 b n m f x -> (0 < n)%nat ->
  exists feat map, gat true keep m wk wq x = Ok (feat, map) /\
    is3 b n n (fun p i j => attention n m wk wq (f p) i j) map /\
    is3 b m n (fun p r i => mixed_kept n m wk wq (f p) (dropped keep p) i r) feat.
Proof.
  intros keep b n m wk wq f x Hx Hn.
  destruct (gat_ok false keep b n m wk wq f x Hx Hn) as (feat0 & mp0 & E0 & M0 & _).
  unfold gat in E0 |- *.
  destruct (size x 0) as [bs|]; [|discriminate E0]. rewrite bind_ok in E0 |- *. destruct (size x 1) as [nn|]; [|discriminate E0]. rewrite bind_ok in E0 |- *.
  destruct (size x 2) as [n2|]; [|discriminate E0]. rewrite bind_ok in E0 |- *.
  destruct (matmul_column m wk x) as [k1|]; [|discriminate E0]. rewrite bind_ok in E0 |- *.
  destruct (matmul_column m wq x) as [q1|]; [|discriminate E0]. rewrite bind_ok in E0 |- *.
  destruct (repeat_2 nn k1) as [k2|]; [|discriminate E0]. rewrite bind_ok in E0 |- *.
  destruct (view_as [bs; (nn * nn)%nat; 1%nat] k2) as [k3|]; [|discriminate E0]. rewrite bind_ok in E0 |- *.
  destruct (repeat_1 nn q1) as [q2|]; [|discriminate E0]. rewrite bind_ok in E0 |- *.
  destruct (add k3 q2) as [a1|]; [|discriminate E0]. rewrite bind_ok in E0 |- *.
  destruct (squeeze 2 a1) as [a2|]; [|discriminate E0]. rewrite bind_ok in E0 |- *.
  destruct (view_as [bs; nn; nn] a2) as [a3|]; [|discriminate E0]. rewrite bind_ok in E0 |- *. cbv zeta in E0 |- *.
  destruct (softmax_2 (each leaky a3)) as [mp|]; [|discriminate E0]. rewrite bind_ok in E0 |- *.
  assert (MP : mp = mp0).
  { cbn [dropout] in E0. destruct (matmul_batch mp x) as [z|]; [|discriminate E0]. rewrite bind_ok in E0. destruct (permute_021 z); [|discriminate E0]. rewrite bind_ok in E0. congruence. }
  subst mp0. cbn [dropout].
  assert (D : is3 b n n (fun p i j => dropped keep p i j * attention n m wk wq (f p) i j)
            (Tens (dims mp) true (fun i => if keep i then 2 * cell mp i else 0))).
  { destruct M0 as [E H]. split; cbn [dims cell]; auto. intros. unfold dropped. rewrite H by auto. destruct (keep _); lra. }
  destruct (matmul_batch_ok _ _ _ _ _ _ _ _ D Hx) as (z & -> & Zz). rewrite bind_ok.
  destruct (permute_021_ok _ _ _ _ _ Zz) as (o & -> & O & _). rewrite bind_ok.
  exists o, mp. split; [reflexivity|]. split; auto. eapply is3_ext; [exact O|]. cbv beta.
  intros p r i Hp Hr Hi. unfold mixed_kept. rewrite total_sum. reflexivity.
Qed.

Lemma gru_run_state_t : forall s w ch len wins p j i, (j < hidden s)%nat ->
  gru_run (data_dim s * 3) (hidden s) (gru_w w) (recurrent_input_t s w ch len wins p) i j = state_t s w ch len wins p i j.
Proof.
  intros s w ch len wins p j i. revert j. induction i as [|i IH]; intros j Hj; auto. cbn [gru_run state_t]. unfold gru_cell.
  assert (G : forall g, sum_to (data_dim s * 3) (fun k => recurrent_input_t s w ch len wins p i k * g_wi (gru_w w) (g * hidden s + j)%nat k) + g_bi (gru_w w) (g * hidden s + j)%nat
              = gate_input (gru_w w) (3 * data_dim s) (hidden s) g (recurrent_input_t s w ch len wins p i) j).
  { intros g. unfold gate_input. rewrite total_sum, (Nat.mul_comm 3). rewrite Rplus_comm. f_equal. apply sum_to_ext. intros. lra. }
  assert (G' : forall g, sum_to (hidden s) (fun k => gru_run (data_dim s * 3) (hidden s) (gru_w w) (recurrent_input_t s w ch len wins p) i k * g_wh (gru_w w) (g * hidden s + j)%nat k) + g_bh (gru_w w) (g * hidden s + j)%nat
              = gate_state (gru_w w) (hidden s) g (state_t s w ch len wins p i) j).
  { intros g. unfold gate_state. rewrite total_sum. rewrite Rplus_comm. f_equal. apply sum_to_ext. intros k Hk. rewrite IH by auto. lra. }
  rewrite !G, !G', !logistic_sigmoid, IH by auto. cbv zeta. lra.
Qed.

Lemma summarise_train : forall ch s w b len f x, is3 b len (data_dim s) f x -> proper s -> (0 < b)%nat -> (kernel_size s <= len)%nat ->
  exists h a, summarise true ch s w x = Ok (h, a) /\
    is3 b (data_dim s) (data_dim s) (fun p d d' => variable_attention s w len (f p) d d') a /\
    is2 b (hidden s) (fun p j => summary_t s w ch len f p j) h.
Proof.
  intros ch s w b len f x Hx Pr Hb Hk. pose proof Pr as (P1 & P2 & P3 & P4 & _). unfold summarise.
  destruct (smooth_pool_ok _ _ _ _ _ Hx Pr Hb Hk) as (x1 & -> & H1). rewrite bind_ok. cbv zeta.
  destruct (permute_021_ok _ _ _ _ _ H1) as (x2 & -> & H2 & _). rewrite bind_ok.
  destruct (gat_train (time_keep ch) _ _ _ (time_key w) (time_query w) _ _ H1 P3) as (tf & tm & -> & T1 & T2).
  rewrite bind_ok. cbn [fst snd].
  destruct (gat_train (feat_keep ch) _ _ _ (feat_key w) (feat_query w) _ _ H2 P2) as (ff & fm & -> & F1 & F2).
  destruct (permute_021_ok _ _ _ _ _ T2) as (ht & -> & H3 & _). rewrite !bind_ok. cbn [fst snd].
  destruct (cat3_ok _ _ _ _ _ _ _ _ _ H1 F2 H3) as (x3 & -> & H4). rewrite bind_ok. rewrite (Nat.mul_comm 3) in H4.
  destruct (permute_102_ok _ _ _ _ _ H4) as (x4 & -> & H5). rewrite bind_ok.
  destruct (gru_ok _ _ _ (hidden s) (gru_w w) _ _ H5 P3) as (x5 & -> & H6). rewrite bind_ok.
  destruct (permute_102_ok _ _ _ _ _ H6) as (x6 & -> & H7). rewrite bind_ok.
  destruct (squeeze_1_ok _ _ _ _ H7) as (x7 & -> & H8 & _). rewrite bind_ok.
  exists x7, fm. split; [reflexivity|]. split; [exact F1|].
  eapply is2_ext; [exact H8|]. cbv beta. intros p j Hp Hj. unfold summary_t. rewrite <- gru_run_state_t by auto.
  apply gru_run_ext; auto.
Qed.

Lemma fc_train : forall s w ch b len f h, is2 b (hidden s) (fun p j => summary_t s w ch len f p j) h -> b <> 1%nat ->
  exists y, fc_layers true s w h = Ok y /\ is2 b (data_dim s) (fun p d => forecast_t s w ch b len f p d) (each sigmoid y).
Proof.
  intros s w ch b len f h H T. unfold fc_layers. cbv zeta.
  destruct (norm_batch _ _ (fc_norm w) _ _ (relu_positive _ _ _ _ H) T) as (y1 & -> & H1). rewrite bind_ok.
  destruct (linear_dense _ _ (hidden s) (fc_1 w) _ _ H1) as (y2 & -> & H2). rewrite bind_ok.
  destruct (linear_dense _ _ (hidden s) (fc_2 w) _ _ (relu_positive _ _ _ _ H2)) as (y3 & -> & H3). rewrite bind_ok.
  destruct (linear_dense _ _ (data_dim s) (fc_3 w) _ _ (relu_positive _ _ _ _ H3)) as (y4 & -> & H4).
  exists y4. split; auto. eapply is2_ext; [apply (each_2_ok _ _ _ sigmoid _ H4)|]. cbv beta. intros p d Hp Hd.
  rewrite logistic_sigmoid. reflexivity.
Qed.
Lemma vae_train : forall s w ch b len f h, is2 b (hidden s) (fun p j => summary_t s w ch len f p j) h -> b <> 1%nat ->
  exists r mu lv, vae true (noise ch) s w h = Ok (r, mu, lv) /\
    is2 b (data_dim s) (fun p d => reconstruction_t s w ch b len f p d) r /\
    is2 b (z_dim s) (fun p d => code_mean_t s w ch b len f p d) mu /\ is2 b (z_dim s) (fun p d => code_logvar_t s w ch b len f p d) lv.
Proof.
  intros s w ch b len f h H T. unfold vae, encode.
  destruct (linear_dense _ _ (enc_dim s) (enc_1 w) _ _ H) as (y1 & -> & H1). rewrite bind_ok. cbv zeta.
  destruct (norm_batch _ _ (enc_norm_1 w) _ _ H1 T) as (y2 & -> & H2). rewrite bind_ok.
  destruct (linear_dense _ _ (enc_dim s) (enc_2 w) _ _ (relu_positive _ _ _ _ H2)) as (y3 & -> & H3). rewrite bind_ok.
  destruct (norm_batch _ _ (enc_norm_2 w) _ _ H3 T) as (y4 & -> & H4). rewrite bind_ok.
  pose proof (relu_positive _ _ _ _ H4) as H4'.
  destruct (linear_dense _ _ (z_dim s) (mu_layer w) _ _ H4') as (mu & -> & Hm). rewrite bind_ok.
  destruct (linear_dense _ _ (z_dim s) (logv_layer w) _ _ H4') as (lv & -> & Hl). rewrite !bind_ok. cbn [fst snd].
  assert (Hm' : is2 b (z_dim s) (fun p d => code_mean_t s w ch b len f p d) mu) by (eapply is2_ext; [exact Hm|reflexivity]).
  assert (Hl' : is2 b (z_dim s) (fun p d => code_logvar_t s w ch b len f p d) lv) by (eapply is2_ext; [exact Hl|reflexivity]).
  unfold reparameterize. cbv zeta.
  pose proof (each_2_ok _ _ _ (fun v => exp (v * (1 / 2))) _ Hl') as Hs. cbv beta in Hs.
  match goal with |- context [add mu ?e] =>
    assert (He : is2 b (z_dim s) (fun p k => noise ch [p; k] * exp (code_logvar_t s w ch b len f p k / 2)) e) end.
  { split; [apply Hs|]. intros p k Hp Hkk. cbn [cell]. f_equal. rewrite (proj2 Hs) by auto. unfold Rdiv. rewrite Rmult_1_l. reflexivity. }
  destruct (add_2_ok _ _ _ _ _ _ Hm' He) as (z & -> & Hz). rewrite bind_ok. unfold decode.
  destruct (linear_dense _ _ (dec_dim s) (dec_1 w) _ _ Hz) as (y5 & -> & H5). rewrite bind_ok. cbv zeta.
  destruct (norm_batch _ _ (dec_norm_1 w) _ _ H5 T) as (y6 & -> & H6). rewrite bind_ok.
  destruct (linear_dense _ _ (dec_dim s) (dec_2 w) _ _ (relu_positive _ _ _ _ H6)) as (y7 & -> & H7). rewrite bind_ok.
  destruct (norm_batch _ _ (dec_norm_2 w) _ _ H7 T) as (y8 & -> & H8). rewrite bind_ok.
  destruct (linear_dense _ _ (data_dim s) (recon_layer w) _ _ (relu_positive _ _ _ _ H8)) as (r & -> & H9). rewrite !bind_ok.
  exists (each sigmoid r), mu, lv. split; [reflexivity|]. split; [|split; auto].
  eapply is2_ext; [apply (each_2_ok _ _ _ sigmoid _ H9)|]. cbv beta. intros p d Hp Hd. rewrite logistic_sigmoid. reflexivity.
Qed.

(** ** Rearranging the windows of a batch *)
Lemma rsum_perm : forall a b, Permutation a b -> rsum a = rsum b.
Proof. intros a b P. unfold rsum. induction P; cbn [fold_right]; lra. Qed.
Lemma nodup_map_in : forall (f : nat -> nat) l, NoDup l -> (forall x y, In x l -> In y l -> f x = f y -> x = y) -> NoDup (map f l).
Proof.
  intros f l N. induction N as [|x l NI N IH]; intros I; cbn [map]; constructor.
  - intros H. apply in_map_iff in H. destruct H as (y & E & Hy). apply I in E; [|right; auto|left; auto]. congruence.
  - apply IH. intros a c Ha Hc. apply I; right; auto.
Qed.
Lemma total_rearranged : forall b f g, rearranges b f -> total b (fun p => g (f p)) = total b g.
Proof.
  intros b f g [R I]. unfold total. rewrite <- map_map. apply rsum_perm. apply Permutation_map.
  apply NoDup_Permutation_bis.
  - apply nodup_map_in; [apply seq_NoDup|]. intros x y Hx Hy. apply in_seq in Hx, Hy. apply I; lia.
  - rewrite map_length. auto.
  - intros x Hx. apply in_map_iff in Hx. destruct Hx as (p & <- & Hp). apply in_seq in Hp. apply in_seq. specialize (R p). lia.
Qed.

Section Rearranged.
Variable s : net_sizes.
Variable w : weights.
Variable ch ch' : chance.
Variable b len : nat.
Variable wins wins' : nat -> nat -> nat -> R.
Variable f : nat -> nat.
Hypothesis RA : rearranges b f.
Hypothesis W : forall p, (p < b)%nat -> wins' p = wins (f p).
Hypothesis KT : forall p i j, (p < b)%nat -> time_keep ch' [p; i; j] = time_keep ch [f p; i; j].
Hypothesis KF : forall p i j, (p < b)%nat -> feat_keep ch' [p; i; j] = feat_keep ch [f p; i; j].
Hypothesis NZ : forall p k, (p < b)%nat -> noise ch' [p; k] = noise ch [f p; k].
(** Row [p] of the rearranged batch is row [f p]. *)
Definition follows (v' v : nat -> nat -> R) : Prop := forall p, (p < b)%nat -> forall j, v' p j = v (f p) j.

Lemma summary_follows : follows (summary_t s w ch' len wins') (summary_t s w ch len wins).
Proof.
  intros p Hp j. unfold summary_t.
  assert (IN : recurrent_input_t s w ch' len wins' p = recurrent_input_t s w ch len wins (f p)).
  { apply functional_extensionality. intros i. apply functional_extensionality. intros c. unfold recurrent_input_t. cbv zeta.
    assert (T : forall i d, time_mixed_t s w ch' len wins' p i d = time_mixed_t s w ch len wins (f p) i d).
    { intros i0 d. unfold time_mixed_t, mixed_kept. rewrite W by auto. apply total_ext. intros k Hk. unfold dropped. rewrite KT by auto. auto. }
    assert (F : forall d i, variable_mixed_t s w ch' len wins' p d i = variable_mixed_t s w ch len wins (f p) d i).
    { intros d i0. unfold variable_mixed_t, mixed_kept. rewrite W by auto. apply total_ext. intros k Hk. unfold dropped. rewrite KF by auto. auto. }
    rewrite T, F, W by auto. auto. }
  assert (ST : forall i, state_t s w ch' len wins' p i = state_t s w ch len wins (f p) i).
  { induction i as [|i IH]; auto. cbn [state_t]. rewrite IH, IN. auto. }
  rewrite ST. auto.
Qed.
Lemma dense_follows : forall n l v' v, follows v' v -> follows (dense_t n l v') (dense_t n l v).
Proof. intros n l v' v H p Hp j. unfold dense_t. apply dense_ext. intros k _. apply H; auto. Qed.
Lemma positive_follows : forall v' v, follows v' v -> follows (positive_t v') (positive_t v).
Proof. intros v' v H p Hp j. unfold positive_t. apply positive_ext. apply H; auto. Qed.
Lemma standard_follows : forall n v' v, follows v' v -> follows (standard_t b n v') (standard_t b n v).
Proof.
  intros n v' v H p Hp j. unfold standard_t.
  assert (M : column_mean b v' j = column_mean b v j).
  { unfold column_mean. f_equal. rewrite <- (total_rearranged b f (fun p => v p j) RA). apply total_ext. intros q Hq. apply H; auto. }
  assert (V : column_var b v' j = column_var b v j).
  { unfold column_var. f_equal. rewrite M. rewrite <- (total_rearranged b f (fun p => Rsqr (v p j - column_mean b v j)) RA). apply total_ext. intros q Hq. rewrite (H q Hq). auto. }
  rewrite M, V, (H p Hp). auto.
Qed.
Lemma forecast_follows : follows (forecast_t s w ch' b len wins') (forecast_t s w ch b len wins).
Proof.
  intros p Hp d. unfold forecast_t. apply (f_equal logistic).
  exact (dense_follows _ _ _ _ (positive_follows _ _ (dense_follows _ _ _ _ (positive_follows _ _ (dense_follows _ _ _ _ (standard_follows _ _ _ (positive_follows _ _ summary_follows)))))) p Hp d).
Qed.
Lemma code_follows : follows (code_t s w ch' b len wins') (code_t s w ch b len wins).
Proof.
  exact (positive_follows _ _ (standard_follows _ _ _ (dense_follows _ _ _ _ (positive_follows _ _ (standard_follows _ _ _ (dense_follows _ _ _ _ summary_follows)))))).
Qed.
Lemma code_mean_follows : follows (code_mean_t s w ch' b len wins') (code_mean_t s w ch b len wins).
Proof. exact (dense_follows _ _ _ _ code_follows). Qed.
Lemma code_logvar_follows : follows (code_logvar_t s w ch' b len wins') (code_logvar_t s w ch b len wins).
Proof. exact (dense_follows _ _ _ _ code_follows). Qed.
Lemma latent_follows : follows (latent_t s w ch' b len wins') (latent_t s w ch b len wins).
Proof.
  intros q Hq k. pose proof (code_mean_follows q Hq k) as E1. pose proof (code_logvar_follows q Hq k) as E2. pose proof (NZ q k Hq) as E3.
  unfold latent_t. exact (f_equal2 Rplus E1 (f_equal2 Rmult E3 (f_equal exp (f_equal (fun v => v / 2) E2)))).
Qed.
Lemma reconstruction_follows : follows (reconstruction_t s w ch' b len wins') (reconstruction_t s w ch b len wins).
Proof.
  intros p Hp d. unfold reconstruction_t. apply (f_equal logistic).
  exact (dense_follows _ _ _ _ (positive_follows _ _ (standard_follows _ _ _ (dense_follows _ _ _ _ (positive_follows _ _ (standard_follows _ _ _ (dense_follows _ _ _ _ latent_follows)))))) p Hp d).
Qed.
End Rearranged.

(** ** Columns after normalisation *)
Lemma total_plus : forall n f g, total n (fun i => f i + g i) = total n f + total n g.
Proof. intros. rewrite !total_sum. induction n as [|n IH]; cbn [sum_to]; [lra|]. rewrite IH. lra. Qed.
Lemma total_times : forall n c f, total n (fun i => c * f i) = c * total n f.
Proof. intros. rewrite !total_sum. induction n as [|n IH]; cbn [sum_to]; [lra|]. rewrite IH. lra. Qed.
Lemma total_const : forall n c, total n (fun _ => c) = INR n * c.
Proof. intros. rewrite total_sum. apply sum_to_const. Qed.
Lemma column_var_nonneg : forall b v j, (0 < b)%nat -> 0 <= column_var b v j.
Proof.
  intros b v j Hb. unfold column_var. assert (B : 0 < INR b) by (apply lt_0_INR; auto).
  apply Rmult_le_pos; [|left; apply Rinv_0_lt_compat; auto]. rewrite total_sum. clear. induction b as [|b IH]; cbn [sum_to]; [lra|].
  match goal with |- 0 <= ?x => idtac end. assert (G : forall c, 0 <= sum_to b (fun p => Rsqr (v p j - c))).
  { intros c. clear. induction b as [|b IH]; cbn [sum_to]; [lra|]. pose proof (Rle_0_sqr (v b j - c)). lra. }
  specialize (G (column_mean (S b) v j)). pose proof (Rle_0_sqr (v b j - column_mean (S b) v j)). lra.
Qed.
Lemma standard_columns : forall b n v j, (0 < b)%nat ->
  column_mean b (fun p j => standard_t b n v p j) j = n_shift n j /\
  column_var b (fun p j => standard_t b n v p j) j = Rsqr (n_gain n j) * (column_var b v j / (column_var b v j + 1 / 100000)).
Proof.
  intros b n v j Hb. assert (B : 0 < INR b) by (apply lt_0_INR; auto). assert (BN : INR b <> 0) by lra.
  pose proof (column_var_nonneg b v j Hb) as VN. set (V := column_var b v j) in *. set (r := sqrt (V + 1 / 100000)).
  assert (RP : 0 < r) by (apply sqrt_lt_R0; lra). assert (RR : r * r = V + 1 / 100000) by (apply sqrt_sqrt; lra).
  assert (M0 : total b (fun p => v p j - column_mean b v j) = 0).
  { unfold Rminus. rewrite total_plus, total_const. unfold column_mean. field. auto. }
  assert (M : column_mean b (fun p j => standard_t b n v p j) j = n_shift n j).
  { unfold column_mean at 1. unfold standard_t. fold V. fold r. rewrite total_plus, total_const.
    rewrite (total_ext _ _ (fun p => (n_gain n j / r) * (v p j - column_mean b v j))) by (intros; unfold Rdiv; ring). rewrite total_times, M0. field. split; lra. }
  split; auto. unfold column_var at 1. rewrite M. unfold standard_t. fold V. fold r.
  rewrite (total_ext _ _ (fun p => (Rsqr (n_gain n j) / (r * r)) * Rsqr (v p j - column_mean b v j))).
  - rewrite total_times, RR. assert (TV : total b (fun p => Rsqr (v p j - column_mean b v j)) = V * INR b) by (unfold V, column_var; field; auto).
    rewrite TV. field. split; lra.
  - intros p Hp. unfold Rsqr. field. lra.
Qed.
