(** Sums and means in doubles: rounding errors of running sums, of sums in any
    order, of differences of running sums and of quotients. *)
From Coq Require Import List Arith ZArith Lia Bool Reals Lra Permutation.
From Flocq Require Import Core BinarySingleNaN Relative.
From Verif Require Import Base Dates_model Dates_float Kernel_model FillUp_model Helpers_model Fmargins_model Fmargins_float Fexpect_model Fexpect_spec.
From Verif Require Kernel_proofs SR_proofs.
Import ListNotations.
Open Scope R_scope.

(** ** Operations on finite numbers well below the largest *)
Lemma fadd_r : forall x y, fin x = true -> fin y = true -> Rabs (val x) <= p2 600 -> Rabs (val y) <= p2 600 ->
  val (fadd x y) = rnd (val x + val y) /\ fin (fadd x y) = true.
Proof. intros x y Fx Fy Bx By. destruct (fadd_ok 600 x y) as [V F]; [lia|split; auto|split; auto|]. split; auto. apply F. Qed.
Lemma fsub_r : forall x y, fin x = true -> fin y = true -> Rabs (val x) <= p2 600 -> Rabs (val y) <= p2 600 ->
  val (fsub x y) = rnd (val x - val y) /\ fin (fsub x y) = true.
Proof. intros x y Fx Fy Bx By. destruct (fsub_ok 600 x y) as [V F]; [lia|split; auto|split; auto|]. split; auto. apply F. Qed.
Lemma fdiv_r : forall x y, fin x = true -> Rabs (val x) <= p2 600 -> 1 <= val y ->
  val (fdiv x y) = rnd (val x / val y) /\ fin (fdiv x y) = true.
Proof. intros x y Fx Bx By. destruct (fdiv_ok 600 0 x y) as [V F]; [lia|split; auto|exact By|]. split; auto. apply F. Qed.

Notation eta := (p2 (-1075)).
Lemma rnd_near : forall x, Rabs (rnd x - x) <= u * Rabs x + eta.
Proof.
  intros x. destruct (error_N_FLT radix2 (-1074) 53 ltac:(lia) (fun z => negb (Z.even z)) x) as (eps & et & E & F & _ & H).
  rewrite <- fexp_FLT in H. rewrite H. replace (x * (1 + eps) + et - x) with (eps * x + et) by ring.
  eapply Rle_trans; [apply Rabs_triang|]. rewrite Rabs_mult. apply Rplus_le_compat.
  - apply Rmult_le_compat_r; [apply Rabs_pos|]. eapply Rle_trans; [exact E|]. cbn. lra.
  - eapply Rle_trans; [exact F|]. replace (-1074)%Z with (-1075 + 1)%Z by lia. rewrite p2_double. lra.
Qed.

(** ** Sums *)
Notation rv := (fun x : f64 => val x).
Lemma total_app : forall a b, total (a ++ b) = total a + total b.
Proof. unfold total. induction a; intros; simpl; [lra|]. rewrite IHa. lra. Qed.
Lemma total_bound : forall (l : list f64) M, Forall (fun x => fin x = true /\ Rabs (val x) <= M) l ->
  Rabs (total (map rv l)) <= INR (length l) * M.
Proof.
  induction 1 as [|x l [_ B] H IH]; [simpl; rewrite Rabs_R0; lra|]. cbn [map length]. unfold total in *. cbn [fold_right]. rewrite S_INR.
  eapply Rle_trans; [apply Rabs_triang|]. lra.
Qed.
Lemma total_perm : forall a b, Permutation a b -> total a = total b.
Proof. unfold total. induction 1; simpl; lra. Qed.

Section Err.
Variable M : R.
Hypothesis HM : p2 (-1000) <= M <= p2 510.
Variable N : R.
Hypothesis HN : 1 <= N <= 16777216.
Definition small (x : f64) : Prop := fin x = true /\ Rabs (val x) <= M.
Lemma M_pos : 0 < M.
Proof. pose proof (bpow_gt_0 radix2 (-1000)). lra. Qed.
Lemma big_ok : 1000000000 * M <= p2 600.
Proof.
  replace (p2 600) with (p2 90 * p2 510) by (rewrite <- bpow_plus; reflexivity).
  assert (1000000000 <= p2 90). { eapply Rle_trans; [|apply (bpow_le radix2 40 90); lia]. cbn. lra. }
  pose proof M_pos. apply Rmult_le_compat; lra.
Qed.
Lemma eta_small : eta <= u * M.
Proof.
  eapply Rle_trans; [|apply Rmult_le_compat_l; [lra|apply HM]]. rewrite <- p2_m53, <- bpow_plus. apply bpow_le. lia.
Qed.
Notation g := (u * (N * N)).
Lemma g_le : g <= 1 / 32. Proof. nra. Qed.
Lemma u_g : u <= g. Proof. nra. Qed.
Lemma uN_g : u * N <= g. Proof. nra. Qed.

(** Error of summing [k] numbers up to size [M]. *)
Notation err k := (2 * (u * (k * k)) * M).
Lemma err_step : forall a b x y X Y, 1 <= a -> 1 <= b -> a + b <= N ->
  fin x = true -> fin y = true -> Rabs (val x - X) <= err a -> Rabs (val y - Y) <= err b -> Rabs X <= a * M -> Rabs Y <= b * M ->
  fin (fadd x y) = true /\ Rabs (val (fadd x y) - (X + Y)) <= err (a + b).
Proof.
  intros a b x y X Y A B C Fx Fy Ex Ey BX BY. pose proof M_pos as MP. pose proof big_ok as BO.
  assert (P : forall k, 0 <= k <= N -> err k <= k * M).
  { intros k K. assert (2 * (u * (k * k)) <= k) by nra. nra. }
  pose proof (P a ltac:(lra)) as Pa. pose proof (P b ltac:(lra)) as Pb.
  assert (Bx : Rabs (val x) <= 2 * a * M).
  { replace (val x) with ((val x - X) + X) by ring. eapply Rle_trans; [apply Rabs_triang|]. lra. }
  assert (By : Rabs (val y) <= 2 * b * M).
  { replace (val y) with ((val y - Y) + Y) by ring. eapply Rle_trans; [apply Rabs_triang|]. lra. }
  assert (a * M <= 16777216 * M) by (apply Rmult_le_compat_r; lra). assert (b * M <= 16777216 * M) by (apply Rmult_le_compat_r; lra).
  destruct (fadd_r x y) as [V F]; auto; try lra. split; auto. rewrite V.
  pose proof (rnd_add_err x y) as R.
  replace (rnd (val x + val y) - (X + Y)) with ((rnd (val x + val y) - (val x + val y)) + ((val x - X) + (val y - Y))) by ring.
  eapply Rle_trans; [apply Rabs_triang|].
  assert (S1 : Rabs (val x - X + (val y - Y)) <= err a + err b) by (eapply Rle_trans; [apply Rabs_triang|]; lra).
  assert (S2 : Rabs (val x + val y) <= 2 * (a + b) * M) by (eapply Rle_trans; [apply Rabs_triang|]; lra).
  assert (S3 : u * Rabs (val x + val y) <= 2 * (u * (a + b)) * M).
  { eapply Rle_trans; [apply Rmult_le_compat_l; [lra|exact S2]|]. lra. }
  assert (a + b <= 2 * (a * b)) by nra.
  assert (2 * (u * (a * a)) * M + 2 * (u * (b * b)) * M + 2 * (u * (a + b)) * M <= err (a + b)).
  { replace (err (a + b)) with (2 * (u * (a * a)) * M + 2 * (u * (b * b)) * M + 2 * (u * (2 * (a * b))) * M) by ring.
    apply Rplus_le_compat_l. apply Rmult_le_compat_r; lra. }
  lra.
Qed.
Lemma err_mono : forall a b, 0 <= a <= b -> err a <= err b.
Proof. intros. pose proof M_pos. apply Rmult_le_compat_r; [lra|]. nra. Qed.

(** Any bracketing *)
Lemma summands_ne : forall t, (1 <= length (summands t))%nat.
Proof. induction t; simpl; [lia|]. rewrite app_length. lia. Qed.
Lemma rounded_sum_err : forall t, Forall small (summands t) -> INR (length (summands t)) <= N ->
  fin (rounded_sum t) = true /\ Rabs (val (rounded_sum t) - total (map rv (summands t))) <= err (INR (length (summands t))).
Proof.
  pose proof M_pos as MP. induction t as [x|a IHa b IHb]; intros F L.
  - inversion F as [|? ? [Fx _] _]; subst. split; auto. cbn. unfold Rminus. rewrite Rplus_0_r, Rplus_opp_r, Rabs_R0.
    apply Rmult_le_pos; lra.
  - cbn [summands rounded_sum] in *. apply Forall_app in F. destruct F as [Fa Fb]. rewrite app_length, plus_INR in *. rewrite map_app, total_app.
    pose proof (summands_ne a) as Ha. pose proof (summands_ne b) as Hb. apply le_INR in Ha, Hb. simpl (INR 1) in *.
    destruct IHa as [F1 E1]; auto; [lra|]. destruct IHb as [F2 E2]; auto; [lra|].
    apply (err_step _ _ (rounded_sum a) (rounded_sum b)); auto; apply total_bound; auto.
Qed.

(** Running sums *)
Lemma fscan_length : forall l acc, length (fscan acc l) = length l.
Proof. induction l; intros; simpl; auto. Qed.
Lemma fcumsum_length : forall l, length (fcumsum l) = length l.
Proof. destruct l; auto. simpl. rewrite fscan_length. auto. Qed.
Lemma fscan_err : forall l acc A k, Forall small l -> 1 <= k -> k + INR (length l) <= N ->
  fin acc = true -> Rabs (val acc - A) <= err k -> Rabs A <= k * M ->
  forall i, (i < length l)%nat -> exists s, nth_error (fscan acc l) i = Some s /\ fin s = true /\
    Rabs (val s - (A + total (map rv (firstn (S i) l)))) <= err (k + INR (S i)) /\
    Rabs (A + total (map rv (firstn (S i) l))) <= (k + INR (S i)) * M.
Proof.
  induction l as [|x l IH]; intros acc A k FS K KN Fa Ea Ba i I; [simpl in I; lia|].
  inversion FS as [|? ? [Fx Bx] FS']; subst. cbn [length] in KN. rewrite S_INR in KN. pose proof (pos_INR (length l)) as PL. pose proof M_pos as MP.
  destruct (err_step k 1 acc x A (val x)) as [F E]; auto; try lra.
  { unfold Rminus. rewrite Rplus_opp_r, Rabs_R0. nra. }
  all: try (rewrite Rmult_1_l; lra).
  assert (B' : Rabs (A + val x) <= (k + 1) * M) by (eapply Rle_trans; [apply Rabs_triang|]; lra).
  destruct i as [|i].
  - exists (fadd acc x). cbn [fscan nth_error firstn map]. unfold total. cbn [fold_right]. rewrite Rplus_0_r. simpl (INR 1). auto.
  - cbn [length] in I. destruct (IH (fadd acc x) (A + val x) (k + 1) FS' ltac:(lra) ltac:(lra) F E B' i ltac:(lia)) as (s & Es & Fs & Er & Bs).
    exists s. cbn [fscan nth_error]. split; auto. split; auto. change (firstn (S (S i)) (x :: l)) with (x :: firstn (S i) l).
    cbn [map]. unfold total in *. cbn [fold_right]. rewrite (S_INR (S i)).
    replace (A + (val x + fold_right Rplus 0 (map rv (firstn (S i) l)))) with (A + val x + fold_right Rplus 0 (map rv (firstn (S i) l))) by ring.
    replace (k + (INR (S i) + 1)) with (k + 1 + INR (S i)) by ring. split; [exact Er|exact Bs].
Qed.
Lemma fcumsum_err : forall l i, Forall small l -> INR (length l) <= N -> (i < length l)%nat ->
  exists s, nth_error (fcumsum l) i = Some s /\ fin s = true /\
    Rabs (val s - total (map rv (firstn (S i) l))) <= 2 * g * M /\ Rabs (total (map rv (firstn (S i) l))) <= N * M.
Proof.
  intros [|x l] i F L I; [simpl in I; lia|]. pose proof M_pos as MP. inversion F as [|? ? [Fx Bx] F']; subst. cbn [length] in *. rewrite S_INR in L.
  assert (W : INR (S i) <= N). { eapply Rle_trans; [apply le_INR; exact I|]. rewrite S_INR. lra. }
  pose proof (pos_INR (S i)) as PI.
  destruct i as [|i].
  - exists x. cbn [fcumsum nth_error firstn map]. unfold total. cbn [fold_right]. rewrite Rplus_0_r. split; auto. split; auto. split.
    + unfold Rminus. rewrite Rplus_opp_r, Rabs_R0. nra.
    + nra.
  - destruct (fscan_err l x (val x) 1) with (i := i) as (s & Es & Fs & Er & Bs); auto; try lra; try lia.
    { unfold Rminus. rewrite Rplus_opp_r, Rabs_R0. nra. }
    exists s. cbn [fcumsum nth_error]. split; auto. split; auto. change (firstn (S (S i)) (x :: l)) with (x :: firstn (S i) l).
    cbn [map]. unfold total in *. cbn [fold_right].
    rewrite S_INR in W, PI. replace (1 + INR (S i)) with (INR (S i) + 1) in * by ring. split.
    + eapply Rle_trans; [exact Er|]. apply Rmult_le_compat_r; [lra|]. pose proof (pos_INR (S i)). nra.
    + eapply Rle_trans; [exact Bs|]. apply Rmult_le_compat_r; lra.
Qed.

(** Differences and quotients *)
Lemma diff_err : forall x y X Y E W, fin x = true -> fin y = true -> Rabs (val x - X) <= E -> Rabs (val y - Y) <= E ->
  E <= 2 * M -> Rabs X <= 3 * N * M -> Rabs Y <= 3 * N * M -> Rabs (X - Y) <= W ->
  fin (fsub x y) = true /\ Rabs (val (fsub x y) - (X - Y)) <= 2 * E + u * (W + 2 * E).
Proof.
  intros x y X Y E W Fx Fy Ex Ey EM BX BY BW. pose proof M_pos as MP. pose proof big_ok as BO.
  assert (N * M <= 16777216 * M) by (apply Rmult_le_compat_r; lra).
  assert (Bx : Rabs (val x) <= p2 600).
  { replace (val x) with ((val x - X) + X) by ring. eapply Rle_trans; [apply Rabs_triang|]. lra. }
  assert (By : Rabs (val y) <= p2 600).
  { replace (val y) with ((val y - Y) + Y) by ring. eapply Rle_trans; [apply Rabs_triang|]. lra. }
  destruct (fsub_r x y) as [V F]; auto. split; auto. rewrite V. pose proof (rnd_sub_err x y) as R.
  assert (D : Rabs ((val x - X) - (val y - Y)) <= 2 * E).
  { unfold Rminus at 1. eapply Rle_trans; [apply Rabs_triang|]. rewrite Rabs_Ropp. lra. }
  assert (D2 : Rabs (val x - val y) <= W + 2 * E).
  { replace (val x - val y) with ((X - Y) + ((val x - X) - (val y - Y))) by ring. eapply Rle_trans; [apply Rabs_triang|]. lra. }
  replace (rnd (val x - val y) - (X - Y)) with ((rnd (val x - val y) - (val x - val y)) + ((val x - X) - (val y - Y))) by ring.
  eapply Rle_trans; [apply Rabs_triang|]. assert (u * Rabs (val x - val y) <= u * (W + 2 * E)) by (apply Rmult_le_compat_l; lra). lra.
Qed.
Lemma count_val : forall c, (1 <= c <= 16777216)%Z -> val (of_Z c) = IZR c /\ 1 <= IZR c <= 16777216.
Proof.
  intros c C. destruct (of_Z_ok c 24) as [V _]; [rewrite Z.abs_eq by lia; change (2 ^ 24)%Z with 16777216%Z; lia|lia|].
  split; auto. split; [apply (IZR_le 1); lia|apply (IZR_le _ 16777216); lia].
Qed.
Lemma quot_err : forall s X D Q c, (1 <= c <= 16777216)%Z -> fin s = true -> Rabs (val s - X) <= D -> Rabs X <= 20000000 * M -> D <= 20 * M ->
  Rabs (X / IZR c) <= Q ->
  fin (fdiv s (of_Z c)) = true /\ Rabs (val (fdiv s (of_Z c)) - X / IZR c) <= D + u * (Q + D) + u * M.
Proof.
  intros s X D Q c C Fs Es BX DM BQ. pose proof M_pos as MP. pose proof big_ok as BO. pose proof eta_small as ET.
  destruct (count_val c C) as [V C1].
  assert (Bs : Rabs (val s) <= p2 600).
  { replace (val s) with ((val s - X) + X) by ring. eapply Rle_trans; [apply Rabs_triang|]. lra. }
  destruct (fdiv_r s (of_Z c)) as [VV F]; auto; [lra|]. split; auto. rewrite VV, V.
  assert (D1 : Rabs (val s / IZR c - X / IZR c) <= D).
  { replace (val s / IZR c - X / IZR c) with ((val s - X) / IZR c) by (field; lra). unfold Rdiv. rewrite Rabs_mult, (Rabs_pos_eq (/ IZR c)).
    - assert (/ IZR c <= 1) by (rewrite <- Rinv_1; apply Rinv_le; lra).
      assert (0 < / IZR c) by (apply Rinv_0_lt_compat; lra). pose proof (Rabs_pos (val s - X)). nra.
    - left. apply Rinv_0_lt_compat. lra. }
  assert (D2 : Rabs (val s / IZR c) <= Q + D).
  { replace (val s / IZR c) with (X / IZR c + (val s / IZR c - X / IZR c)) by ring. eapply Rle_trans; [apply Rabs_triang|]. lra. }
  pose proof (rnd_near (val s / IZR c)) as R.
  replace (rnd (val s / IZR c) - X / IZR c) with ((rnd (val s / IZR c) - val s / IZR c) + (val s / IZR c - X / IZR c)) by ring.
  eapply Rle_trans; [apply Rabs_triang|]. assert (u * Rabs (val s / IZR c) <= u * (Q + D)) by (apply Rmult_le_compat_l; lra). lra.
Qed.
End Err.
