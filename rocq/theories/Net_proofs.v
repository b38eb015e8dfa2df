(** The layers of the network cell by cell. *)
From Coq Require Import List Arith Lia Reals Lra Bool.
From Verif Require Import Base Mv_real Mv_real_props Net_model Net_spec.
Import ListNotations.
Open Scope R_scope.

Definition is3 (a b c : nat) (f : nat -> nat -> nat -> R) (y : tens) : Prop :=
  dims y = [a; b; c] /\ forall p q r, (p < a)%nat -> (q < b)%nat -> (r < c)%nat -> cell y [p; q; r] = f p q r.
Notation is2 := rows_are.

Lemma div_add_small : forall q c r, (r < c)%nat -> ((q * c + r) / c = q)%nat.
Proof. intros. rewrite Nat.add_comm, Nat.div_add by lia. rewrite Nat.div_small; lia. Qed.
Lemma mod_add_small : forall q c r, (r < c)%nat -> ((q * c + r) mod c = r)%nat.
Proof. intros. rewrite Nat.add_comm, Nat.mod_add by lia. apply Nat.mod_small. auto. Qed.

Lemma is3_ext : forall a b c f g y, is3 a b c f y ->
  (forall p q r, (p < a)%nat -> (q < b)%nat -> (r < c)%nat -> f p q r = g p q r) -> is3 a b c g y.
Proof. intros a b c f g y [H1 H2] E. split; auto. intros. rewrite H2, E; auto. Qed.
Lemma is2_ext : forall a b f g y, is2 a b f y ->
  (forall p q, (p < a)%nat -> (q < b)%nat -> f p q = g p q) -> is2 a b g y.
Proof. intros a b f g y [H1 H2] E. split; auto. intros. rewrite H2, E; auto. Qed.

Lemma size_3 : forall a b c f x, is3 a b c f x -> size x 0 = Ok a /\ size x 1 = Ok b /\ size x 2 = Ok c.
Proof. intros a b c f x [E _]. unfold size. rewrite E. auto. Qed.
Lemma permute_021_ok : forall a b c f x, is3 a b c f x ->
  exists y, permute_021 x = Ok y /\ is3 a c b (fun p q r => f p r q) y /\ contig y = false.
Proof. intros a b c f x [E H]. unfold permute_021. rewrite E. eexists. split; [reflexivity|]. split; [split|]; cbn; auto. Qed.
Lemma permute_102_ok : forall a b c f x, is3 a b c f x ->
  exists y, permute_102 x = Ok y /\ is3 b a c (fun p q r => f q p r) y.
Proof. intros a b c f x [E H]. unfold permute_102. rewrite E. eexists. split; [reflexivity|]. split; cbn; auto. Qed.
Lemma contiguous_ok : forall a b c f x, is3 a b c f x -> is3 a b c f (contiguous x) /\ contig (contiguous x) = true.
Proof. intros a b c f x [E H]. split; [split|]; cbn; auto. Qed.
Lemma squeeze_1_ok : forall a c f x, is3 a 1 c f x ->
  exists y, squeeze 1 x = Ok y /\ is2 a c (fun p r => f p 0%nat r) y /\ contig y = contig x.
Proof.
  intros a c f x [E H]. unfold squeeze. rewrite E. cbn. eexists. split; [reflexivity|]. split; [split|]; cbn; auto.
Qed.
Lemma squeeze_2_ok : forall a b f x, is3 a b 1 f x ->
  exists y, squeeze 2 x = Ok y /\ is2 a b (fun p q => f p q 0%nat) y /\ contig y = contig x.
Proof.
  intros a b f x [E H]. unfold squeeze. rewrite E. cbn. eexists. split; [reflexivity|]. split; [split|]; cbn; auto.
Qed.
(** [a;b;c] read as [a*b;1;c] *)
Lemma view_join_ok : forall a b c f x, is3 a b c f x -> contig x = true ->
  exists y, view_as [(a * b)%nat; 1%nat; c] x = Ok y /\
    is3 (a * b) 1 c (fun p _ r => f (p / b)%nat (p mod b)%nat r) y /\ contig y = true.
Proof.
  intros a b c f x [E H] C. unfold view_as. rewrite C, E. cbn [volume andb].
  replace (a * b * (1 * (c * 1)) =? a * (b * (c * 1)))%nat with true by (symmetry; apply Nat.eqb_eq; lia).
  eexists. split; [reflexivity|]. split; [split|]; cbn [dims cell contig]; auto. intros p q r Hp Hq Hr.
  assert (q = 0)%nat by lia. subst q. cbn [index offset volume].
  assert (Hb : (0 < b)%nat) by nia.
  replace (p * (1 * (c * 1)) + (0 * (c * 1) + (r * 1 + 0)))%nat with (p * c + r)%nat by lia.
  rewrite !Nat.mul_1_r, !Nat.div_1_r.
  pose proof (Nat.div_mod p b ltac:(lia)) as D. pose proof (Nat.mod_upper_bound p b ltac:(lia)) as M.
  replace (p * c + r)%nat with ((p / b) * (b * c) + ((p mod b) * c + r))%nat by nia.
  assert (L : ((p mod b) * c + r < b * c)%nat) by nia.
  rewrite div_add_small, mod_add_small, div_add_small, mod_add_small by auto.
  apply H; auto. apply Nat.div_lt_upper_bound; lia.
Qed.
(** [a*b;c] read as [a;b;c] *)
Lemma view_split_ok : forall a b c f x, is2 (a * b) c f x -> contig x = true -> (0 < a)%nat -> (0 < c)%nat ->
  exists y, view_infer a c x = Ok y /\ is3 a b c (fun p q r => f (p * b + q)%nat r) y /\ contig y = true.
Proof.
  intros a b c f x [E H] C Ha Hc. unfold view_infer. destruct (Nat.eqb_spec (a * c) 0); [nia|]. rewrite E.
  replace (volume [(a * b)%nat; c] / (a * c))%nat with b.
  2:{ cbn [volume]. replace (a * b * (c * 1))%nat with (b * (a * c))%nat by lia. rewrite Nat.div_mul by lia. auto. }
  unfold view_as. rewrite C, E. cbn [volume andb].
  replace (a * (b * (c * 1)) =? a * b * (c * 1))%nat with true by (symmetry; apply Nat.eqb_eq; lia).
  eexists. split; [reflexivity|]. split; [split|]; cbn [dims cell contig]; auto. intros p q r Hp Hq Hr.
  cbn [index offset volume]. rewrite !Nat.mul_1_r, !Nat.div_1_r, Nat.add_0_r.
  replace (p * (b * c) + (q * c + r))%nat with ((p * b + q) * c + r)%nat by lia.
  rewrite div_add_small, mod_add_small by auto. apply H; auto. nia.
Qed.
(** [a;n;n] read as [a;n*n;1] *)
Lemma view_flatten_ok : forall a n f x, is3 a n n f x -> contig x = true ->
  exists y, view_as [a; (n * n)%nat; 1%nat] x = Ok y /\
    is3 a (n * n) 1 (fun p q _ => f p (q / n)%nat (q mod n)%nat) y /\ contig y = true.
Proof.
  intros a n f x [E H] C. unfold view_as. rewrite C, E. cbn [volume andb].
  replace (a * (n * n * (1 * 1)) =? a * (n * (n * 1)))%nat with true by (symmetry; apply Nat.eqb_eq; lia).
  eexists. split; [reflexivity|]. split; [split|]; cbn [dims cell contig]; auto. intros p q r Hp Hq Hr.
  assert (r = 0)%nat by lia. subst r. cbn [index offset volume]. rewrite !Nat.mul_1_r, !Nat.div_1_r, !Nat.add_0_r.
  assert (Hn : (0 < n)%nat) by nia. rewrite div_add_small, mod_add_small by auto. apply H; auto.
  - apply Nat.div_lt_upper_bound; lia.
  - apply Nat.mod_upper_bound. lia.
Qed.
(** [a;n*n] read as [a;n;n] *)
Lemma view_square_ok : forall a n f x, is2 a (n * n) f x -> contig x = true ->
  exists y, view_as [a; n; n] x = Ok y /\ is3 a n n (fun p q r => f p (q * n + r)%nat) y /\ contig y = true.
Proof.
  intros a n f x [E H] C. unfold view_as. rewrite C, E. cbn [volume andb].
  replace (a * (n * (n * 1)) =? a * (n * n * 1))%nat with true by (symmetry; apply Nat.eqb_eq; lia).
  eexists. split; [reflexivity|]. split; [split|]; cbn [dims cell contig]; auto. intros p q r Hp Hq Hr.
  cbn [index offset volume]. rewrite !Nat.mul_1_r, !Nat.div_1_r, !Nat.add_0_r.
  assert (L : (q * n + r < n * n)%nat) by nia. rewrite div_add_small, mod_add_small by auto. apply H; auto.
Qed.
Lemma repeat_2_ok : forall a b n f x, is3 a b 1 f x ->
  exists y, repeat_2 n x = Ok y /\ is3 a b n (fun p q _ => f p q 0%nat) y /\ contig y = true.
Proof.
  intros a b n f x [E H]. unfold repeat_2. rewrite E. eexists. split; [reflexivity|].
  split; [split|]; cbn [dims cell contig]; [rewrite Nat.mul_1_l; reflexivity| |reflexivity].
  intros. rewrite Nat.mod_1_r. apply H; lia.
Qed.
Lemma repeat_1_ok : forall a b n f x, is3 a b 1 f x ->
  exists y, repeat_1 n x = Ok y /\ is3 a (b * n) 1 (fun p q _ => f p (q mod b)%nat 0%nat) y.
Proof.
  intros a b n f x [E H]. unfold repeat_1. rewrite E. eexists. split; [reflexivity|].
  split; cbn [dims cell contig]; auto.
  intros p q r Hp Hq Hr. assert (r = 0)%nat by lia. subst r. apply H; auto. apply Nat.mod_upper_bound. nia.
Qed.
Lemma add_3_ok : forall a b c f g x y, is3 a b c f x -> is3 a b c g y ->
  exists z, add x y = Ok z /\ is3 a b c (fun p q r => f p q r + g p q r) z /\ contig z = true.
Proof.
  intros a b c f g x y [E H] [E' H']. unfold add, same_dims. rewrite E, E'. destruct (list_eq_dec _ _ _); [|congruence].
  eexists. split; [reflexivity|]. split; [split|]; cbn [dims cell contig]; auto. intros. rewrite H, H'; auto.
Qed.
Lemma add_2_ok : forall a b f g x y, is2 a b f x -> is2 a b g y ->
  exists z, add x y = Ok z /\ is2 a b (fun p q => f p q + g p q) z.
Proof.
  intros a b f g x y [E H] [E' H']. unfold add, same_dims. rewrite E, E'. destruct (list_eq_dec _ _ _); [|congruence].
  eexists. split; [reflexivity|]. split; cbn [dims cell contig]; auto. intros. rewrite H, H'; auto.
Qed.
Lemma each_3_ok : forall a b c f h x, is3 a b c f x -> is3 a b c (fun p q r => h (f p q r)) (each h x).
Proof. intros a b c f h x [E H]. split; cbn; auto. intros. rewrite H; auto. Qed.
Lemma each_2_ok : forall a b f h x, is2 a b f x -> is2 a b (fun p q => h (f p q)) (each h x).
Proof. intros a b f h x [E H]. split; cbn; auto. intros. rewrite H; auto. Qed.
Lemma cat3_ok : forall a b c f g h x y z, is3 a b c f x -> is3 a b c g y -> is3 a b c h z ->
  exists o, cat3 x y z = Ok o /\
    is3 a b (3 * c) (fun p q r => match (r / c)%nat with O => f p q (r mod c)%nat | 1%nat => g p q (r mod c)%nat | _ => h p q (r mod c)%nat end) o.
Proof.
  intros a b c f g h x y z [E H] [E' H'] [E'' H'']. unfold cat3. rewrite E, E', E''. rewrite !Nat.eqb_refl. cbn [andb].
  eexists. split; [reflexivity|]. split; cbn [dims cell]; [replace (c + c + c)%nat with (3 * c)%nat by lia; reflexivity|].
  intros p q r Hp Hq Hr. destruct (Nat.ltb_spec r c) as [L|L].
  - rewrite Nat.div_small, Nat.mod_small by auto. apply H; auto.
  - destruct (Nat.ltb_spec r (c + c)) as [L'|L'].
    + pose proof (div_add_small 1 c (r - c) ltac:(lia)) as D. pose proof (mod_add_small 1 c (r - c) ltac:(lia)) as M.
      replace (1 * c + (r - c))%nat with r in D, M by lia. rewrite D, M. apply H'; auto; lia.
    + pose proof (div_add_small 2 c (r - c - c) ltac:(lia)) as D. pose proof (mod_add_small 2 c (r - c - c) ltac:(lia)) as M.
      replace (2 * c + (r - c - c))%nat with r in D, M by lia. rewrite D, M. apply H''; auto; lia.
Qed.
Lemma matmul_column_ok : forall a b c w f x, is3 a b c f x ->
  exists y, matmul_column c w x = Ok y /\ is3 a b 1 (fun p q _ => sum_to c (fun k => f p q k * w k)) y.
Proof.
  intros a b c w f x [E H]. unfold matmul_column. rewrite E, Nat.eqb_refl. eexists. split; [reflexivity|]. split; cbn [dims cell]; auto.
  intros p q r Hp Hq _. apply sum_to_ext. intros k Hk. rewrite H; auto.
Qed.
Lemma matmul_batch_ok : forall a b c d f g x y, is3 a b c f x -> is3 a c d g y ->
  exists z, matmul_batch x y = Ok z /\ is3 a b d (fun p q r => sum_to c (fun k => f p q k * g p k r)) z.
Proof.
  intros a b c d f g x y [E H] [E' H']. unfold matmul_batch. rewrite E, E', !Nat.eqb_refl. cbn [andb].
  eexists. split; [reflexivity|]. split; cbn [dims cell]; auto.
  intros p q r Hp Hq Hr. apply sum_to_ext. intros k Hk. rewrite H, H'; auto.
Qed.
Lemma softmax_2_ok : forall a b c f x, is3 a b c f x ->
  exists y, softmax_2 x = Ok y /\ is3 a b c (fun p q r => exp (f p q r) / sum_to c (fun k => exp (f p q k))) y.
Proof.
  intros a b c f x [E H]. unfold softmax_2. rewrite E. eexists. split; [reflexivity|]. split; cbn [dims cell]; auto.
  intros p q r Hp Hq Hr. rewrite H by auto. f_equal. apply sum_to_ext. intros k Hk. rewrite H; auto.
Qed.
Lemma conv1d_ok : forall a c n w f x, is3 a 1 c f x -> (0 < n <= c)%nat ->
  exists y, conv1d n w x = Ok y /\ is3 a 1 (c - n + 1) (fun p _ t => sum_to n (fun q => f p 0%nat (t + q)%nat * w q)) y /\ contig y = true.
Proof.
  intros a c n w f x [E H] Hn. unfold conv1d. rewrite E, Nat.eqb_refl.
  destruct (Nat.ltb_spec 0 n); [|lia]. destruct (Nat.leb_spec n c); [|lia]. cbn [andb].
  eexists. split; [reflexivity|]. split; [split|]; cbn [dims cell]; auto.
  intros p q t Hp _ Ht. apply sum_to_ext. intros k Hk. rewrite H; auto; lia.
Qed.
Lemma adaptive_max_pool_ok : forall a b c out f x, is3 a b c f x -> (0 < b)%nat -> (0 < c)%nat -> (0 < out)%nat ->
  exists y, adaptive_max_pool out x = Ok y /\
    is3 a b out (fun p q r => pool c out f p q r) y.
Proof.
  intros a b c out f x [E H] Hb Hc Ho. unfold adaptive_max_pool. rewrite E.
  destruct (Nat.ltb_spec 0 b); [|lia]. destruct (Nat.ltb_spec 0 c); [|lia]. cbn [andb].
  eexists. split; [reflexivity|]. split; cbn [dims cell]; auto.
  intros p q r Hp Hq Hr. unfold pool.
  assert (R : forall t, (r * c / out <= t)%nat -> (t < (S r * c + out - 1) / out)%nat -> (t < c)%nat).
  { intros t L1 L2. assert (O : overlaps c out r t) by (apply overlaps_range; auto; lia). destruct O as [_ O]. nia. }
  set (lo := (r * c / out)%nat) in *. set (hi := ((S r * c + out - 1) / out)%nat) in *.
  assert (N : (lo < hi)%nat).
  { assert (O : overlaps c out r lo).
    { unfold overlaps. pose proof (Nat.div_mod (r * c) out ltac:(lia)) as D. pose proof (Nat.mod_upper_bound (r * c) out ltac:(lia)) as M.
      fold lo in D. split; nia. }
    apply overlaps_range in O; auto. unfold lo, hi in *. lia. }
  assert (EX : forall n, (lo + n < hi)%nat -> max_to n (fun k => cell x [p; q; (lo + k)%nat]) = max_to n (fun k => f p q (lo + k)%nat)).
  { induction n as [|n IH]; intros L; cbn [max_to].
    - apply H; auto. apply R; lia.
    - rewrite IH by lia. rewrite H; auto. apply R; lia. }
  apply EX. lia.
Qed.
Lemma linear_ok : forall a n m l f x, is2 a n f x ->
  exists y, linear n m l x = Ok y /\ is2 a m (fun p o => sum_to n (fun k => f p k * l_weight l o k) + l_bias l o) y.
Proof.
  intros a n m l f x [E H]. unfold linear. rewrite E, Nat.eqb_refl. eexists. split; [reflexivity|]. split; cbn [dims cell]; auto.
  intros p o Hp Ho. f_equal. apply sum_to_ext. intros k Hk. rewrite H; auto.
Qed.
Lemma batch_norm_ok : forall train a n w f x, is2 a n f x -> (train = true -> a <> 1%nat) ->
  exists y, batch_norm train n w x = Ok y /\ dims y = [a; n] /\
    (train = false -> is2 a n (fun p j => (f p j - n_mean w j) / sqrt (n_var w j + 1 / 100000) * n_gain w j + n_shift w j) y).
Proof.
  intros train a n w f x [E H] T. unfold batch_norm. rewrite E, Nat.eqb_refl. cbn [negb].
  assert (B : train && (a =? 1)%nat = false).
  { destruct train; auto. cbn. apply Nat.eqb_neq. auto. }
  rewrite B. eexists. split; [reflexivity|]. split; auto. intros ->. split; cbn [dims cell]; auto. intros. rewrite H; auto.
Qed.
Lemma gru_run_ext : forall n h w x y steps j, (j < h)%nat ->
  (forall t k, (t < steps)%nat -> (k < n)%nat -> x t k = y t k) -> gru_run n h w x steps j = gru_run n h w y steps j.
Proof.
  intros n h w x y steps. induction steps as [|t IH]; intros j Hj E; auto. cbn [gru_run]. unfold gru_cell.
  assert (E1 : forall g, sum_to n (fun k => x t k * g_wi w (g * h + j)%nat k) = sum_to n (fun k => y t k * g_wi w (g * h + j)%nat k)).
  { intros g. apply sum_to_ext. intros k Hk. rewrite E; auto. }
  assert (E2 : forall g, sum_to h (fun k => gru_run n h w x t k * g_wh w (g * h + j)%nat k) = sum_to h (fun k => gru_run n h w y t k * g_wh w (g * h + j)%nat k)).
  { intros g. apply sum_to_ext. intros k Hk. rewrite IH; auto. }
  rewrite !E1, !E2, (IH j) by auto. reflexivity.
Qed.
Lemma gru_ok : forall a b n h w f x, is3 a b n f x -> (0 < a)%nat ->
  exists y, gru n h w x = Ok y /\ is3 1 b h (fun _ p j => gru_run n h w (fun t k => f t p k) a j) y.
Proof.
  intros a b n h w f x [E H] Ha. unfold gru. rewrite E, Nat.eqb_refl. destruct (Nat.ltb_spec 0 a); [|lia]. cbn [andb].
  eexists. split; [reflexivity|]. split; cbn [dims cell]; auto. intros _ p j _ Hp Hj. apply gru_run_ext; auto.
Qed.
