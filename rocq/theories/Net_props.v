(** The network of the multivariate detector (C92, C93). *)
From Coq Require Import String List Arith ZArith Lia Reals Lra Bool FunctionalExtensionality.
From Verif Require Import Base Mv_real Mv_real_props Net_model Net_spec Net_proofs Net_proofs2 Net_proofs3 Mv_state.
Import ListNotations.
Open Scope R_scope.

Lemma forward_eval : forall ch s w b len f x, is3 b len (data_dim s) f x -> proper s -> (0 < b)%nat -> (kernel_size s <= len)%nat ->
  exists o, forward false ch s w x = Ok o /\
    rows_are b (data_dim s) (fun p d => forecast s w len (f p) d) (x_pred o) /\
    rows_are b (data_dim s) (fun p d => reconstruction s w len (f p) d) (x_recon o) /\
    rows_are b (z_dim s) (fun p k => code_mean s w len (f p) k) (latent_mu o) /\
    rows_are b (z_dim s) (fun p k => code_logvar s w len (f p) k) (latent_logv o) /\
    is3 b (data_dim s) (data_dim s) (fun p d d' => variable_attention s w len (f p) d d') (attn_feat o).
Proof.
  intros ch s w b len f x Hx Pr Hb Hk. rewrite forward_parts.
  destruct (summarise_ok false ch s w b len f x Hx Pr Hb Hk) as (h & a & -> & _ & A & H). specialize (H eq_refl).
  rewrite bind_ok. cbn [fst snd].
  destruct (fc_eval s w b len f h H) as (y & -> & Y). rewrite bind_ok.
  destruct (vae_eval (noise ch) s w b len f h H) as (r & mu & lv & -> & V1 & V2 & V3). rewrite bind_ok.
  eexists. split; [reflexivity|]. cbn. auto.
Qed.
Lemma forward_any : forall train ch s w b len f x, is3 b len (data_dim s) f x -> proper s -> (0 < b)%nat -> (kernel_size s <= len)%nat ->
  (train = true -> b <> 1%nat) ->
  exists o, forward train ch s w x = Ok o /\ dims (x_pred o) = [b; data_dim s] /\ dims (x_recon o) = [b; data_dim s] /\
    dims (latent_mu o) = [b; z_dim s] /\ dims (latent_logv o) = [b; z_dim s] /\
    is3 b (data_dim s) (data_dim s) (fun p d d' => variable_attention s w len (f p) d d') (attn_feat o) /\
    (forall i, 0 < cell (x_pred o) i < 1) /\ (forall i, 0 < cell (x_recon o) i < 1).
Proof.
  intros train ch s w b len f x Hx Pr Hb Hk T. rewrite forward_parts.
  destruct (summarise_ok train ch s w b len f x Hx Pr Hb Hk) as (h & a & -> & Dh & A & _). rewrite bind_ok. cbn [fst snd].
  destruct (fc_ok train s w b h Dh T) as (y & -> & Y). rewrite bind_ok.
  destruct (vae_ok train (noise ch) s w b h Dh T) as (r & mu & lv & -> & V1 & V2 & V3 & V4). rewrite bind_ok.
  eexists. split; [reflexivity|]. cbn [x_pred x_recon latent_mu latent_logv attn_feat fst snd dims cell each]. repeat split; auto; try apply A.
  1, 2: rewrite logistic_sigmoid; apply logistic_range.
  all: destruct (V4 i) as [v ->]; rewrite logistic_sigmoid; apply logistic_range.
Qed.
Lemma batch_is3 : forall b len dim x, batch_of b len dim x -> is3 b len dim (fun p => window x p) x.
Proof. intros b len dim x E. split; auto. Qed.

Lemma short_window : forall s b len dim x, batch_of b len dim x -> (len < kernel_size s)%nat -> smooth_pool s x = Err RuntimeErr.
Proof.
  intros s b len dim x Hx L. apply batch_is3 in Hx. unfold smooth_pool.
  destruct (size_3 _ _ _ _ _ Hx) as [-> _]. rewrite bind_ok.
  destruct (permute_021_ok _ _ _ _ _ Hx) as (x1 & -> & H1 & _). rewrite bind_ok. cbv zeta.
  destruct (contiguous_ok _ _ _ _ _ H1) as [H2 C2]. set (x2 := contiguous x1) in *.
  destruct (size_3 _ _ _ _ _ H2) as (-> & -> & ->). rewrite !bind_ok.
  destruct (view_join_ok _ _ _ _ _ H2 C2) as (x3 & -> & [H3 _] & C3). rewrite bind_ok.
  unfold conv1d. rewrite H3, Nat.eqb_refl. destruct (Nat.leb_spec (kernel_size s) len); [lia|]. rewrite !andb_false_r. reflexivity.
Qed.
Lemma no_variables : forall s b len x, batch_of b len 0 x -> (0 < b)%nat -> (0 < kernel_size s <= len)%nat -> smooth_pool s x = Err RuntimeErr.
Proof.
  intros s b len x Hx Hb L. apply batch_is3 in Hx. unfold smooth_pool.
  destruct (size_3 _ _ _ _ _ Hx) as [-> _]. rewrite bind_ok.
  destruct (permute_021_ok _ _ _ _ _ Hx) as (x1 & -> & H1 & _). rewrite bind_ok. cbv zeta.
  destruct (contiguous_ok _ _ _ _ _ H1) as [H2 C2]. set (x2 := contiguous x1) in *.
  destruct (size_3 _ _ _ _ _ H2) as (-> & -> & ->). rewrite !bind_ok.
  destruct (view_join_ok _ _ _ _ _ H2 C2) as (x3 & -> & H3 & C3). rewrite bind_ok.
  destruct (conv1d_ok _ _ (kernel_size s) (fun _ => 1 / INR (kernel_size s)) _ _ H3 ltac:(lia)) as (x4 & -> & H4 & C4). rewrite bind_ok.
  destruct (size_3 _ _ _ _ _ H4) as (_ & _ & ->). rewrite bind_ok.
  destruct (squeeze_1_ok _ _ _ _ H4) as (x5 & -> & H5 & C5). rewrite bind_ok. rewrite C4 in C5.
  destruct (view_split_ok _ _ _ _ _ H5 C5 Hb ltac:(lia)) as (x6 & -> & H6 & C6). rewrite bind_ok.
  destruct (permute_021_ok _ _ _ _ _ H6) as (x7 & -> & H7 & _). rewrite bind_ok.
  destruct (contiguous_ok _ _ _ _ _ H7) as [H8 _].
  destruct (permute_021_ok _ _ _ _ _ H8) as (x9 & -> & H9 & _). rewrite bind_ok.
  unfold adaptive_max_pool. rewrite (proj1 H9). reflexivity.
Qed.
Lemma wrong_variables : forall train ch s w b len dim x, batch_of b len dim x -> proper s -> (0 < b)%nat -> (kernel_size s <= len)%nat ->
  dim <> data_dim s -> forward train ch s w x = Err RuntimeErr.
Proof.
  intros train ch s w b len dim x Hx Pr Hb Hk Hd. destruct Pr as (P1 & P2 & P3 & P4 & P5 & P6 & P7). unfold forward.
  destruct dim as [|dim]; [rewrite (no_variables s b len x Hx Hb) by lia; reflexivity|].
  set (s' := Sizes (kernel_size s) (S dim) (gat_window s) (hidden s) (z_dim s) (enc_dim s) (dec_dim s)).
  change (smooth_pool s x) with (smooth_pool s' x).
  destruct (smooth_pool_ok s' b len _ x (batch_is3 _ _ _ _ Hx)) as (x1 & -> & H1); [unfold proper; cbn; repeat split; auto; lia|auto|auto|].
  rewrite bind_ok. cbv zeta. destruct (permute_021_ok _ _ _ _ _ H1) as (x2 & -> & H2 & _). rewrite bind_ok.
  unfold gat. destruct (size_3 _ _ _ _ _ H1) as (-> & -> & ->). rewrite !bind_ok. unfold matmul_column. rewrite (proj1 H1).
  replace (data_dim s' =? data_dim s)%nat with false; [reflexivity|]. symmetry. apply Nat.eqb_neq. exact Hd.
Qed.
Lemma lone_row : forall ch s w len x, batch_of 1 len (data_dim s) x -> proper s -> (kernel_size s <= len)%nat ->
  forward true ch s w x = Err ValueErr.
Proof.
  intros ch s w len x Hx Pr Hk. rewrite forward_parts.
  destruct (summarise_ok true ch s w 1 len _ x (batch_is3 _ _ _ _ Hx) Pr ltac:(lia) Hk) as (h & a & -> & Dh & A & _).
  rewrite bind_ok. cbn [fst snd]. unfold fc_layers. cbv zeta. unfold batch_norm at 1. cbn [dims each]. rewrite Dh, Nat.eqb_refl. reflexivity.
Qed.

(** ** C92: which batches the network takes, and what it answers *)
Theorem C92_accepted_batches : forall train ch s w b len dim x, proper s -> batch_of b len dim x -> (0 < b)%nat ->
  ((exists o, forward train ch s w x = Ok o) <->
     dim = data_dim s /\ (kernel_size s <= len)%nat /\ (train = true -> b <> 1%nat)) /\
  ((len < kernel_size s)%nat \/ dim <> data_dim s -> forward train ch s w x = Err RuntimeErr) /\
  ((kernel_size s <= len)%nat -> dim = data_dim s -> train = true -> b = 1%nat -> forward train ch s w x = Err ValueErr).
Proof.
  intros train ch s w b len dim x Pr Hx Hb.
  assert (A : (len < kernel_size s)%nat \/ dim <> data_dim s -> forward train ch s w x = Err RuntimeErr).
  { intros D. destruct (Nat.lt_ge_cases len (kernel_size s)) as [L|L].
    - unfold forward. rewrite (short_window s b len dim x Hx L). reflexivity.
    - destruct D as [D|D]; [lia|]. eapply wrong_variables; eauto. }
  assert (B : (kernel_size s <= len)%nat -> dim = data_dim s -> train = true -> b = 1%nat -> forward train ch s w x = Err ValueErr).
  { intros L -> -> ->. eapply lone_row; eauto. }
  split; [|auto]. split.
  - intros [o E]. destruct (Nat.eq_dec dim (data_dim s)) as [D|D]; [|rewrite A in E by auto; congruence].
    destruct (Nat.lt_ge_cases len (kernel_size s)) as [L|L]; [rewrite A in E by auto; congruence|]. repeat split; auto.
    intros T O. rewrite B in E by auto. congruence.
  - intros (-> & L & T). destruct (forward_any train ch s w b len _ x (batch_is3 _ _ _ _ Hx) Pr Hb L T) as (o & E & _). eauto.
Qed.
Print Assumptions C92_accepted_batches.
(** Everything the network is documented to be, window by window. *)
Theorem C92_computes : forall ch s w b len x, proper s -> batch_of b len (data_dim s) x -> (0 < b)%nat -> (kernel_size s <= len)%nat ->
  exists o, forward false ch s w x = Ok o /\
    rows_are b (data_dim s) (fun p => forecast s w len (window x p)) (x_pred o) /\
    rows_are b (data_dim s) (fun p => reconstruction s w len (window x p)) (x_recon o) /\
    rows_are b (z_dim s) (fun p => code_mean s w len (window x p)) (latent_mu o) /\
    rows_are b (z_dim s) (fun p => code_logvar s w len (window x p)) (latent_logv o) /\
    dims (attn_feat o) = [b; data_dim s; data_dim s] /\
    forall p d d', (p < b)%nat -> (d < data_dim s)%nat -> (d' < data_dim s)%nat ->
      cell (attn_feat o) [p; d; d'] = variable_attention s w len (window x p) d d'.
Proof.
  intros ch s w b len x Pr Hx Hb Hk. destruct (forward_eval ch s w b len _ x (batch_is3 _ _ _ _ Hx) Pr Hb Hk) as (o & E & A1 & A2 & A3 & A4 & A5 & A6).
  exists o. repeat split; auto; try apply A1; try apply A2; try apply A3; try apply A4.
Qed.
Print Assumptions C92_computes.
(** In either mode: one number strictly between 0 and 1 per window and variable,
    and attention rows that are probabilities over the variables. *)
Theorem C92_answers_in_range : forall train ch s w b len x o, proper s -> batch_of b len (data_dim s) x -> (0 < b)%nat ->
  forward train ch s w x = Ok o ->
  dims (x_pred o) = [b; data_dim s] /\ dims (x_recon o) = [b; data_dim s] /\
  dims (latent_mu o) = [b; z_dim s] /\ dims (latent_logv o) = [b; z_dim s] /\ dims (attn_feat o) = [b; data_dim s; data_dim s] /\
  (forall i, 0 < cell (x_pred o) i < 1) /\ (forall i, 0 < cell (x_recon o) i < 1) /\
  forall p d, (p < b)%nat -> (d < data_dim s)%nat ->
    (forall d', (d' < data_dim s)%nat -> 0 < cell (attn_feat o) [p; d; d']) /\
    total (data_dim s) (fun d' => cell (attn_feat o) [p; d; d']) = 1.
Proof.
  intros train ch s w b len x o Pr Hx Hb E.
  destruct (C92_accepted_batches train ch s w b len (data_dim s) x Pr Hx Hb) as [[A _] _]. destruct (A ltac:(eauto)) as (_ & Hk & T).
  destruct (forward_any train ch s w b len _ x (batch_is3 _ _ _ _ Hx) Pr Hb Hk T) as (o' & E' & B1 & B2 & B3 & B4 & [B5 B6] & B7 & B8).
  rewrite E in E'. injection E' as <-. repeat split; auto; try apply B7; try apply B8.
  - intros d' Hd'. rewrite B6 by auto. unfold variable_attention, attention. apply Rdiv_lt_0_compat; [apply exp_pos|].
    rewrite total_sum. apply sum_to_pos; [lia|]. intros. apply exp_pos.
  - rewrite (total_ext _ _ (fun d' => variable_attention s w len (window x p) d d')) by (intros; apply B6; auto).
    unfold variable_attention, attention. set (e := fun k => exp _). unfold Rdiv. rewrite total_sum, sum_to_scale, <- total_sum.
    apply Rinv_r. assert (0 < total (data_dim s) e); [|lra]. rewrite total_sum. apply sum_to_pos; [lia|]. intros. apply exp_pos.
Qed.
Print Assumptions C92_answers_in_range.
(** For given weights no window, however extreme, moves the answers closer to 0 or
    1 than a fixed distance. *)
Theorem C92_bounded_away : forall s w, proper s -> exists delta, 0 < delta /\
  forall ch b len x o p d, batch_of b len (data_dim s) x -> (p < b)%nat -> (d < data_dim s)%nat -> forward false ch s w x = Ok o ->
    delta <= cell (x_pred o) [p; d] <= 1 - delta /\ delta <= cell (x_recon o) [p; d] <= 1 - delta.
Proof.
  intros s w Pr. destruct (forecast_bounded s w) as (d1 & P1 & H1). destruct (reconstruction_bounded s w) as (d2 & P2 & H2).
  exists (Rmin d1 d2). split; [apply Rmin_glb_lt; auto|]. intros ch b len x o p d Hx Hp Hd E.
  assert (Hb : (0 < b)%nat) by lia.
  destruct (C92_accepted_batches false ch s w b len (data_dim s) x Pr Hx Hb) as [[A _] _]. destruct (A ltac:(eauto)) as (_ & Hk & _).
  destruct (C92_computes ch s w b len x Pr Hx Hb Hk) as (o' & E' & [_ F] & [_ G] & _). rewrite E in E'. injection E' as <-.
  rewrite F, G by auto. specialize (H1 len (window x p) d Hd). specialize (H2 len (window x p) d Hd).
  pose proof (Rmin_l d1 d2). pose proof (Rmin_r d1 d2). lra.
Qed.
Print Assumptions C92_bounded_away.
(** The smallest sliding window whose input windows the network takes is twice the
    kernel size (14 by default); fit and predict ask for half the sliding window. *)
Theorem C92_smallest_sliding_window : forall parse_int z input tw ch s w b x, (0 < z)%Z ->
  compute_window_sizes parse_int (PInt z) = Ok (input, tw) ->
  proper s -> batch_of b (Z.to_nat input) (data_dim s) x -> (0 < b)%nat ->
  ((exists o, forward false ch s w x = Ok o) <-> (2 * Z.of_nat (kernel_size s) <= z)%Z) /\
  ((z < 2 * Z.of_nat (kernel_size s))%Z -> forward false ch s w x = Err RuntimeErr).
Proof.
  intros parse z input tw ch s w b x Hz E Pr Hx Hb. cbn in E. destruct (Z.eqb_spec z 0); [lia|]. unfold Mv_state.sizes in E.
  injection E as <- _. destruct (C92_accepted_batches false ch s w b _ _ x Pr Hx Hb) as (A & B & _).
  pose proof (Z.div_mod z 2 ltac:(lia)) as D. pose proof (Z.mod_pos_bound z 2 ltac:(lia)) as M.
  split; [|intros L; apply B; left; lia].
  rewrite A. split; [intros (_ & L & _); lia|]. intros L. repeat split; [lia|congruence].
Qed.
Print Assumptions C92_smallest_sliding_window.

Definition no_lin : lin := Lin (fun _ _ => 0) (fun _ => 0).
Definition no_norm : norm := Norm (fun _ => 1) (fun _ => 0) (fun _ => 0) (fun _ => 1).
Definition ex_sizes : net_sizes := Sizes 7 2 3 2 1 1 1.
Definition ex_weights : weights :=
  Weights (fun _ => 1) (fun _ => 1) (fun _ => 1) (fun _ => 1) (Gru (fun _ _ => 1) (fun _ _ => 1) (fun _ => 1) (fun _ => 1))
    no_norm no_lin no_lin (Lin (fun _ _ => 0) (fun _ => ln 3)) no_lin no_norm no_lin no_norm no_lin no_lin no_lin no_norm no_lin no_norm no_lin
    (fun _ => 1).
Definition ex_chance : chance := Chance (fun _ => true) (fun _ => false) (fun _ => 1).
Definition ex_batch (b len : nat) : tens := Tens [b; len; 2%nat] true (fun i => INR (list_sum i)).
Example C92_example : exists o, forward false ex_chance ex_sizes ex_weights (ex_batch 5 9) = Ok o /\ cell (x_pred o) [4; 1]%nat = 3 / 4.
Proof.
  destruct (C92_computes ex_chance ex_sizes ex_weights 5 9 (ex_batch 5 9)) as (o & E & [_ F] & _); [unfold proper; cbn; lia|reflexivity|lia|cbn; lia|].
  exists o. split; auto. rewrite F by (cbn; lia). unfold forecast. cbn [fc_3 ex_weights]. unfold dense at 1. cbn [l_bias l_weight].
  rewrite total_sum. rewrite (sum_to_ext _ _ (fun _ => 0)) by (intros; lra). rewrite sum_to_const, Rmult_0_r, Rplus_0_r.
  unfold logistic. rewrite exp_Ropp, exp_ln by lra. field.
Qed.
Example C92_refusals : forward false ex_chance ex_sizes ex_weights (ex_batch 5 6) = Err RuntimeErr /\
  forward true ex_chance ex_sizes ex_weights (ex_batch 1 9) = Err ValueErr.
Proof.
  assert (P : proper ex_sizes) by (unfold proper; cbn; lia). split.
  - apply (C92_accepted_batches false ex_chance ex_sizes ex_weights 5 6 2 (ex_batch 5 6) P eq_refl); cbn; lia.
  - apply (C92_accepted_batches true ex_chance ex_sizes ex_weights 1 9 2 (ex_batch 1 9) P eq_refl); cbn; auto; lia.
Qed.

(** ** C93: in prediction a window is answered for itself *)
Theorem C93_window_alone : forall ch ch' s w len b b' x x' p p' o o', proper s ->
  batch_of b len (data_dim s) x -> batch_of b' len (data_dim s) x' -> (p < b)%nat -> (p' < b')%nat ->
  (forall t d, (t < len)%nat -> (d < data_dim s)%nat -> window x p t d = window x' p' t d) ->
  forward false ch s w x = Ok o -> forward false ch' s w x' = Ok o' ->
  (forall d, (d < data_dim s)%nat ->
     cell (x_pred o) [p; d] = cell (x_pred o') [p'; d] /\ cell (x_recon o) [p; d] = cell (x_recon o') [p'; d]) /\
  (forall k, (k < z_dim s)%nat ->
     cell (latent_mu o) [p; k] = cell (latent_mu o') [p'; k] /\ cell (latent_logv o) [p; k] = cell (latent_logv o') [p'; k]) /\
  (forall d d', (d < data_dim s)%nat -> (d' < data_dim s)%nat -> cell (attn_feat o) [p; d; d'] = cell (attn_feat o') [p'; d; d']).
Proof.
  intros ch ch' s w len b b' x x' p p' o o' Pr Hx Hx' Hp Hp' W E E'.
  assert (Hb : (0 < b)%nat) by lia. assert (Hb' : (0 < b')%nat) by lia.
  destruct (C92_accepted_batches false ch s w b len (data_dim s) x Pr Hx Hb) as [[A _] _]. destruct (A ltac:(eauto)) as (_ & Hk & _).
  set (trim := fun (y : tens) (q t d : nat) => if ((t <? len) && (d <? data_dim s))%nat then window y q t d else 0).
  assert (T : forall n y, batch_of n len (data_dim s) y -> is3 n len (data_dim s) (trim y) y).
  { intros n y Hy. split; auto. intros q t d _ Ht Hd. unfold trim. destruct (Nat.ltb_spec t len); [|lia].
    destruct (Nat.ltb_spec d (data_dim s)); [reflexivity|lia]. }
  assert (EQ : trim x p = trim x' p').
  { apply functional_extensionality. intros t. apply functional_extensionality. intros d. unfold trim.
    destruct (Nat.ltb_spec t len); auto. destruct (Nat.ltb_spec d (data_dim s)); auto. cbn. auto. }
  destruct (forward_eval ch s w b len _ x (T _ _ Hx) Pr Hb Hk) as (u & U & [_ U1] & [_ U2] & [_ U3] & [_ U4] & [_ U5]).
  destruct (forward_eval ch' s w b' len _ x' (T _ _ Hx') Pr Hb' Hk) as (v & V & [_ V1] & [_ V2] & [_ V3] & [_ V4] & [_ V5]).
  rewrite E in U. injection U as <-. rewrite E' in V. injection V as <-.
  split; [intros d Hd; rewrite U1, U2, V1, V2, EQ by auto; auto|].
  split; [intros k K; rewrite U3, U4, V3, V4, EQ by auto; auto|].
  intros d d' Hd Hd'. rewrite U5, V5, EQ by auto. auto.
Qed.
Print Assumptions C93_window_alone.
Example C93_example : exists o o', forward false ex_chance ex_sizes ex_weights (ex_batch 5 9) = Ok o /\
  forward false (Chance (fun _ => false) (fun _ => true) (fun _ => 7)) ex_sizes ex_weights (ex_batch 2 9) = Ok o' /\
  cell (x_pred o) [1; 0]%nat = cell (x_pred o') [1; 0]%nat.
Proof.
  assert (P : proper ex_sizes) by (unfold proper; cbn; lia).
  destruct (C92_computes ex_chance ex_sizes ex_weights 5 9 (ex_batch 5 9) P eq_refl ltac:(lia) ltac:(cbn; lia)) as (o & E & _).
  destruct (C92_computes (Chance (fun _ => false) (fun _ => true) (fun _ => 7)) ex_sizes ex_weights 2 9 (ex_batch 2 9) P eq_refl ltac:(lia) ltac:(cbn; lia)) as (o' & E' & _).
  exists o, o'. split; [exact E|]. split; [exact E'|].
  destruct (C93_window_alone _ _ _ _ _ 5 2 (ex_batch 5 9) (ex_batch 2 9) 1 1 o o' P eq_refl eq_refl ltac:(lia) ltac:(lia)
    (fun _ _ _ _ => eq_refl) E E') as (H & _).
  apply H. cbn. lia.
Qed.
