(** C112: what the spectral residual transform makes of a series, with the
    Fourier transforms as they are defined. *)
From Coq Require Import List Arith ZArith Lia Bool.
From Coq Require Import Reals.
From Verif Require Import Cplx.
From Verif Require Import Base Helpers_model Transform_model Transform_spec Transform_props Fourier_model Fourier_spec Fourier_proofs Fourier_proofs2.
From Coq Require Import Lra.
Import ListNotations.
Open Scope R_scope.

(** C112. The two transforms of the model undo each other. *)
Theorem C112_round_trip : forall values, ifft (fft values) = map (fun x => (x, 0)) values.
Proof.
  intros v. apply nth_error_ext_len; [rewrite ifft_length, fft_length, map_length; auto|].
  intros t L. rewrite ifft_length, fft_length in L. rewrite nth_error_map.
  destruct (nth_error_ex _ v t L) as [x Hx]. rewrite Hx. simpl option_map.
  destruct (nth_error_ex _ (ifft (fft v)) t ltac:(rewrite ifft_length, fft_length; auto)) as [z Hz]. rewrite Hz. f_equal.
  rewrite <- (nth_error_nth_d _ _ _ _ (0, 0)%R Hz). rewrite ifft_nth by (rewrite fft_length; auto). rewrite fft_length.
  set (n := length v) in *. change (x, 0) with (RtoC x). rewrite <- (nth_error_nth_d _ _ _ _ 0%R Hx).
  rewrite (sumC_ext n _ (fun j => sumC n (fun s => Cmult (RtoC (nth s v 0)) (root n (Z.of_nat j * (Z.of_nat t - Z.of_nat s)))))).
  - rewrite sumC_swap.
    rewrite (sumC_ext n _ (fun s => if Nat.eqb s t then Cmult (RtoC (nth t v 0)) (RtoC (INR n)) else RtoC 0)).
    + rewrite sumC_delta by auto.
      assert (NZ : RtoC (INR n) <> RtoC 0) by (intro X; apply RtoC_inj in X; apply (not_0_INR n); [lia|auto]).
      toC. field; auto.
    + intros s Ls. rewrite sumC_scal, sum_roots by auto. rewrite Nat.eqb_sym. destruct (Nat.eqb_spec s t) as [->|N]; [auto|]. cring.
  - intros j Lj. rewrite fft_nth by auto. fold n. rewrite Cmult_comm, <- sumC_scal. apply sumC_ext. intros s Ls.
    replace (Z.of_nat j * (Z.of_nat t - Z.of_nat s))%Z with (- (Z.of_nat j * Z.of_nat s) + Z.of_nat j * Z.of_nat t)%Z by lia.
    rewrite root_add by lia. cring.
Qed.
Print Assumptions C112_round_trip.

Lemma srt_nonneg_len : forall v, length (spectral_residual_transform v) = length v /\ Forall (Rle 0) (spectral_residual_transform v).
Proof.
  intros v. split; [apply srt_length|]. unfold spectral_residual_transform. apply Forall_forall. intros x I.
  apply in_map_iff in I. destruct I as (z & <- & _). apply sqrt_pos.
Qed.

Lemma abs_inv : forall x y, Rabs x <= y -> - y <= x <= y.
Proof. intros x y H. unfold Rabs in H. destruct (Rcase_abs x); lra. Qed.
Lemma sgn_abs : forall x, x <> 0 -> Rabs (sgn x) = 1.
Proof.
  intros x H. unfold sgn. pose proof (Rabs_pos_lt x H). unfold Rdiv. rewrite Rabs_mult, Rabs_inv, Rabs_Rabsolu. field. lra.
Qed.
Lemma sgn_pos : forall x, 0 < x -> sgn x = 1.
Proof. intros x H. unfold sgn. rewrite Rabs_right by lra. field. lra. Qed.
Lemma sgn_neg : forall x, x < 0 -> sgn x = -1.
Proof. intros x H. unfold sgn. rewrite Rabs_left by lra. field. lra. Qed.

Lemma f_range : forall n b c q, 0 < q -> c <> 0 -> Rabs c <= Rabs (INR n * b + c) ->
  0 < exp ((ln (Rabs c) - ln (Rabs (INR n * b + c))) / q) <= 1.
Proof.
  intros n b c q Q C0 B0. split; [apply exp_pos|]. rewrite <- exp_0. pose proof (Rabs_pos_lt c C0) as P.
  assert (L : ln (Rabs c) <= ln (Rabs (INR n * b + c))) by (destruct B0 as [B0|B0]; [left; apply ln_increasing; auto|right; rewrite B0; auto]).
  assert (E : (ln (Rabs c) - ln (Rabs (INR n * b + c))) / q <= 0).
  { unfold Rdiv. apply Rmult_le_reg_r with q; auto. rewrite Rmult_assoc, Rinv_l by lra. lra. }
  destruct E as [E|E]; [left; apply exp_increasing; auto|right; rewrite E; auto].
Qed.

Lemma spike_mag : forall n k b c t, (3 <= n)%nat -> (k < n)%nat -> (t < n)%nat -> c <> 0 -> Rabs c <= Rabs (INR n * b + c) ->
  Rabs (nth t (spectral_residual_transform (level_with_spike n k b c)) 0 - delta k t) <=
  (Rabs (f0 n b c - sgn c) + Rabs (f1 n b c - 1) + Rabs (f2 n b c - 1)) / INR n.
Proof.
  intros n k b c t N3 K T C0 B0.
  assert (PN : 0 < INR n) by (apply lt_0_INR; lia).
  rewrite srt_nth by (rewrite v_length; auto). rewrite spike_wave by auto.
  set (p := Cplus _ _) at 1. 
  assert (P : exists e, p = Cplus (Cmult (RtoC (sgn c)) (RtoC (delta k t))) e /\ Cmod e <= (Rabs (f0 n b c - sgn c) + Rabs (f1 n b c - 1) + Rabs (f2 n b c - 1)) / INR n).
  { eexists. split; [reflexivity|]. rewrite <- RtoC_inv by lra. rewrite Cmod_mult, Cmod_R.
    rewrite (Rabs_right (/ INR n)) by (apply Rle_ge; left; apply Rinv_0_lt_compat; auto).
    unfold Rdiv. rewrite Rmult_comm. apply Rmult_le_compat_r; [left; apply Rinv_0_lt_compat; auto|].
    eapply Rle_trans; [apply Cmod_triangle|]. eapply Rle_trans; [apply Rplus_le_compat_r, Cmod_triangle|].
    rewrite !Cmod_mult, !Cmod_R, !root_mod, !Rabs_mult, !sgn_abs by auto. lra. }
  destruct P as (e & E & Le). rewrite E. clear E p.
  assert (D : Cmod (Cmult (RtoC (sgn c)) (RtoC (delta k t))) = delta k t).
  { rewrite Cmod_mult, !Cmod_R, sgn_abs by auto. unfold delta. destruct (t =? k)%nat; rewrite ?Rabs_R0, ?Rabs_R1; lra. }
  set (d := Cmult (RtoC (sgn c)) (RtoC (delta k t))) in *. clearbody d.
  eapply Rle_trans; [|exact Le]. rewrite <- D. clear.
  pose proof (Cmod_triangle d e) as A.
  pose proof (Cmod_triangle (Cplus d e) (Copp e)) as B. rewrite Cmod_opp in B.
  replace (Cplus (Cplus d e) (Copp e)) with d in B by ring.
  apply Rabs_le. split; lra.
Qed.

(** C112. A spike on a level series: the transform is 1 at the spike and 0
    elsewhere, up to a share of the length. With [2] for a spike away from
    zero; with [4] for one towards zero, if it leaves the sum of the series at
    least as large as the spike. *)
Theorem C112_spike : forall n k b c, (3 <= n)%nat -> (k < n)%nat -> c <> 0 ->
  (0 <= b * c \/ Rabs c <= Rabs (INR n * b + c)) ->
  length (spectral_residual_transform (level_with_spike n k b c)) = n /\
  forall t m, nth_error (spectral_residual_transform (level_with_spike n k b c)) t = Some m ->
    Rabs (m - if Nat.eqb t k then 1 else 0) <= 4 / INR n /\
    (0 <= b * c -> Rabs (m - if Nat.eqb t k then 1 else 0) <= 2 / INR n).
Proof.
  intros n k b c N3 K C0 B0.
  assert (LV : length (spectral_residual_transform (level_with_spike n k b c)) = n) by (rewrite srt_length; apply v_length).
  assert (PN : 0 < INR n) by (apply lt_0_INR; lia).
  split; auto. intros t m H. pose proof (nth_error_lt _ _ _ _ H) as T. rewrite LV in T.
  assert (SAME : 0 <= b * c -> Rabs c <= Rabs (INR n * b + c) /\ f0 n b c = sgn c).
  { intros BC. unfold f0. destruct (Rtotal_order c 0) as [G|[G|G]]; [|contradiction|].
    - assert (B : b <= 0) by nra. assert (INR n * b <= 0) by nra. rewrite !Rabs_left, !sgn_neg by lra. lra.
    - assert (B : 0 <= b) by nra. assert (0 <= INR n * b) by nra. rewrite !Rabs_right, !sgn_pos by lra. lra. }
  assert (B1 : Rabs c <= Rabs (INR n * b + c)) by (destruct B0 as [B0|B0]; [apply SAME; auto|auto]).
  pose proof (spike_mag n k b c t N3 K T C0 B1) as M. rewrite (nth_error_nth_d _ _ _ _ 0 H) in M.
  change (delta k t) with (if Nat.eqb t k then 1 else 0) in M.
  assert (F1 : Rabs (f1 n b c - 1) <= 1). { pose proof (f_range n b c 2 ltac:(lra) C0 B1). unfold f1. apply Rabs_le. lra. }
  assert (F2 : Rabs (f2 n b c - 1) <= 1). { pose proof (f_range n b c 3 ltac:(lra) C0 B1). unfold f2. apply Rabs_le. lra. }
  assert (IP : 0 < / INR n) by (apply Rinv_0_lt_compat; auto).
  split.
  - eapply Rle_trans; [exact M|]. unfold Rdiv. apply Rmult_le_compat_r; [lra|].
    assert (F0 : Rabs (f0 n b c - sgn c) <= 2).
    { unfold f0. pose proof (Rabs_pos_lt c C0). assert (X : INR n * b + c <> 0) by (intro X; rewrite X, Rabs_R0 in B1; lra).
      pose proof (sgn_abs c C0) as A. pose proof (sgn_abs _ X) as B. unfold Rminus.
      eapply Rle_trans; [apply Rabs_triang|]. rewrite Rabs_Ropp, A, B. lra. }
    lra.
  - intros BC. destruct (SAME BC) as [_ E]. rewrite E in M. replace (sgn c - sgn c) with 0 in M by ring. rewrite Rabs_R0 in M.
    eapply Rle_trans; [exact M|]. unfold Rdiv. apply Rmult_le_compat_r; [lra|]. lra.
Qed.
Print Assumptions C112_spike.

(** C112. On a series of zeros it is exactly so. *)
Theorem C112_spike_on_zero : forall n k c, (3 <= n)%nat -> (k < n)%nat -> c <> 0 ->
  spectral_residual_transform (level_with_spike n k 0 c) = level_with_spike n k 0 1.
Proof.
  intros n k c N3 K C0. apply nth_error_ext_len.
  - rewrite srt_length, !v_length. auto.
  - intros t T. rewrite srt_length, v_length in T.
    destruct (nth_error_ex _ (spectral_residual_transform (level_with_spike n k 0 c)) t) as [m H]; [rewrite srt_length, v_length; auto|].
    rewrite H. assert (S : INR n * 0 + c = c) by ring.
    pose proof (spike_mag n k 0 c t N3 K T C0 ltac:(rewrite S; lra)) as M. rewrite (nth_error_nth_d _ _ _ _ 0 H) in M.
    unfold f0, f1, f2 in M. rewrite S in M. replace (sgn c - sgn c) with 0 in M by ring.
    replace (ln (Rabs c) - ln (Rabs c)) with 0 in M by ring.
    replace (0 / 2) with 0 in M by field. replace (0 / 3) with 0 in M by field. rewrite exp_0 in M.
    replace (1 - 1) with 0 in M by ring. rewrite Rabs_R0 in M.
    assert (PN : 0 < INR n) by (apply lt_0_INR; lia).
    assert (Z : (0 + 0 + 0) / INR n = 0) by (field; lra). rewrite Z in M.
    assert (m = delta k t) by (pose proof (Rabs_pos (m - delta k t)); assert (A : Rabs (m - delta k t) = 0) by lra; destruct (Req_EM_T (m - delta k t) 0) as [Q|Q]; [lra|apply Rabs_no_R0 in Q; contradiction]).
    unfold level_with_spike. rewrite nth_error_map, nth_error_seq.
    assert (E : (t <? n)%nat = true) by (apply Nat.ltb_lt; auto). rewrite E. simpl. f_equal. rewrite H0. unfold delta. destruct (t =? k)%nat; lra.
Qed.
Print Assumptions C112_spike_on_zero.

(** C112. A level series is spread evenly. *)
Theorem C112_constant : forall n b, b <> 0 -> spectral_residual_transform (repeat b n) = repeat (/ INR n) n.
Proof.
  intros n b B. destruct n as [|n]; [reflexivity|]. set (N := S n).
  assert (EV : repeat b N = level_with_spike N 0 b 0).
  { unfold level_with_spike. clearbody N. clear n. generalize 0%nat at 2 as s. induction N as [|N IH]; intros s; simpl; auto.
    rewrite <- IH. f_equal. destruct (s =? 0)%nat; lra. }
  assert (PN : 0 < INR N) by (apply lt_0_INR; unfold N; lia).
  apply nth_error_ext_len; [rewrite srt_length, !repeat_length; auto|].
  intros t T. rewrite srt_length, repeat_length in T. rewrite nth_error_repeat.
  assert (E : (t <? N)%nat = true) by (apply Nat.ltb_lt; auto). rewrite E.
  destruct (nth_error_ex _ (spectral_residual_transform (repeat b N)) t) as [m H]; [rewrite srt_length, repeat_length; auto|].
  rewrite H. f_equal. rewrite <- (nth_error_nth_d _ _ _ _ 0 H). rewrite srt_nth by (rewrite repeat_length; auto).
  rewrite EV. set (z := fft (level_with_spike N 0 b 0)).
  assert (LZ : length z = N) by (unfold z; rewrite fft_length; apply v_length).
  assert (Z0 : nth 0 z (0, 0) = RtoC (INR N * b)).
  { unfold z. rewrite spike_fft by (unfold N; lia). simpl Nat.eqb. cbv iota. cring. }
  assert (ZR : forall j, (0 < j < N)%nat -> nth j z (0, 0) = RtoC 0).
  { intros j L. unfold z. rewrite spike_fft by lia. destruct j; [lia|]. simpl Nat.eqb. cbv iota. cring. }
  assert (NB : INR N * b <> 0) by (apply Rmult_integral_contrapositive; split; auto; lra).
  rewrite ifft_nth by (rewrite core_length, LZ; auto). rewrite core_length, LZ.
  rewrite (sumC_single N _ 0 ltac:(unfold N; lia)).
  - simpl Z.mul. rewrite root_0, core_nth by (rewrite LZ; unfold N; lia). rewrite reference_nonzero.
    + rewrite Z0. rewrite !Cmod_R, !Cmod_mult, <- RtoC_inv, !Cmod_R by lra.
      assert (M0 : mean3 (map log_or_zero (map modulus z)) 0 = ln (Rabs (INR N * b))).
      { unfold mean3. cbv zeta. unfold slice. destruct z as [|z0 zs]; [simpl in LZ; discriminate|]. simpl in Z0. subst z0.
        simpl. rewrite modulus_Cmod, Cmod_R, log_nonzero by (apply Rabs_pos_lt; auto). field. }
      rewrite M0. replace (ln (Rabs (INR N * b)) - ln (Rabs (INR N * b))) with 0 by ring. rewrite exp_0.
      pose proof (Rabs_pos_lt _ NB). rewrite (Rabs_right (/ INR N)) by (apply Rle_ge; left; apply Rinv_0_lt_compat; auto).
      rewrite (Rabs_right (1 / _)) by (apply Rle_ge; left; apply Rdiv_lt_0_compat; lra). rewrite Rabs_R1. field. split; lra.
    + rewrite LZ. unfold N. lia.
    + rewrite Z0. intro X. apply RtoC_inj in X. contradiction.
  - intros j Lj J0. rewrite core_nth by (rewrite LZ; auto). rewrite reference_zero by (apply ZR; lia). cring.
Qed.
Print Assumptions C112_constant.

(** * Other units *)
Lemma rsum_shift : forall d l, rsum (map (fun x => x + d) l) = rsum l + INR (length l) * d.
Proof. intros d. induction l as [|x l IH]; [simpl; ring|]. cbn [map rsum length]. rewrite IH, S_INR. ring. Qed.
Lemma slice_map : forall (f : R -> R) l i j, slice (map f l) i j = map f (slice l i j).
Proof. intros. unfold slice. rewrite skipn_map, firstn_map. auto. Qed.
Lemma mean3_shift : forall d l j, (j < length l)%nat -> mean3 (map (fun x => x + d) l) j = mean3 l j + d.
Proof.
  intros d l j L. unfold mean3. cbv zeta. rewrite slice_map, rsum_shift, map_length.
  assert (P : 0 < INR (length (slice l (j + 1 - 3) (j + 1)))).
  { apply lt_0_INR. unfold slice. rewrite firstn_length, skipn_length. lia. }
  field. lra.
Qed.
Lemma fft_scaled : forall k v j, (j < length v)%nat ->
  nth j (fft (map (Rmult k) v)) (0, 0) = Cmult (RtoC k) (nth j (fft v) (0, 0)).
Proof.
  intros k v j L. rewrite !fft_nth by (rewrite ?map_length; auto). rewrite map_length, <- sumC_scal. apply sumC_ext.
  intros t T. destruct (nth_error_ex _ v t T) as [x Hx].
  rewrite (nth_error_nth_d _ (map (Rmult k) v) t (k * x)) by (rewrite nth_error_map, Hx; auto).
  rewrite (nth_error_nth_d _ _ _ _ 0 Hx), RtoC_mult. cring.
Qed.
Lemma scaled_same : forall k v, k <> 0 -> (Rabs k = 1 \/ forall z, In z (fft v) -> z <> (0, 0)) ->
  spectral_residual_transform (map (Rmult k) v) = spectral_residual_transform v.
Proof.
  intros k v K0 NZ. pose proof (Rabs_pos_lt k K0) as KP.
  apply nth_error_ext_len; [rewrite !srt_length, map_length; auto|].
  intros t T. rewrite srt_length, map_length in T.
  destruct (nth_error_ex _ (spectral_residual_transform (map (Rmult k) v)) t) as [m H]; [rewrite srt_length, map_length; auto|].
  destruct (nth_error_ex _ (spectral_residual_transform v) t) as [m' H']; [rewrite srt_length; auto|].
  rewrite H, H'. f_equal. rewrite <- (nth_error_nth_d _ _ _ _ 0 H), <- (nth_error_nth_d _ _ _ _ 0 H').
  rewrite !srt_nth by (rewrite ?map_length; auto).
  set (z := fft v) in *. set (z' := fft (map (Rmult k) v)) in *.
  assert (LZ : length z = length v) by apply fft_length.
  assert (LZ' : length z' = length v) by (unfold z'; rewrite fft_length, map_length; auto).
  assert (SZ : forall j, (j < length v)%nat -> nth j z' (0, 0) = Cmult (RtoC k) (nth j z (0, 0))) by (intros; apply fft_scaled; auto).
  assert (LOG : map log_or_zero (map modulus z') = map (fun x => x + ln (Rabs k)) (map log_or_zero (map modulus z))).
  { apply nth_error_ext_len; [rewrite !map_length; lia|]. intros i Hi. rewrite !map_length, LZ' in Hi. rewrite !nth_error_map.
    destruct (nth_error_ex _ z i ltac:(lia)) as [x Hx]. destruct (nth_error_ex _ z' i ltac:(lia)) as [x' Hx'].
    rewrite Hx, Hx'. simpl. f_equal. pose proof (SZ i Hi) as S. rewrite (nth_error_nth_d _ _ _ _ (0, 0) Hx), (nth_error_nth_d _ _ _ _ (0, 0) Hx') in S.
    rewrite S, !modulus_Cmod, Cmod_mult, Cmod_R.
    destruct NZ as [K1|NZ].
    - rewrite K1, Rmult_1_l, ln_1. ring.
    - assert (X : 0 < Cmod x) by (apply Cmod_gt_0, NZ; eapply nth_error_In; eauto).
      rewrite !log_nonzero by nra. rewrite ln_mult by auto. ring. }
  assert (CORE : forall j, (j < length v)%nat -> nth j (residual_core z') (0, 0) = Cmult (RtoC (sgn k)) (nth j (residual_core z) (0, 0))).
  { intros j L. rewrite !core_nth by lia.
    assert (KZ : RtoC k <> RtoC 0) by (intro X; apply RtoC_inj in X; contradiction).
    destruct (Req_EM_T (Cmod (nth j z (0, 0))) 0) as [E|E].
    - assert (Z0 : nth j z (0, 0) = RtoC 0).
      { rewrite <- modulus_Cmod in E. destruct (modulus_zero _ E). destruct (nth j z (0, 0)). simpl in *. subst. auto. }
      assert (Z0' : nth j z' (0, 0) = RtoC 0) by (rewrite SZ, Z0 by auto; cring).
      rewrite !reference_zero by auto. cring.
    - assert (X : nth j z (0, 0) <> RtoC 0) by (intro X; rewrite X, Cmod_0 in E; lra).
      assert (X' : nth j z' (0, 0) <> RtoC 0) by (rewrite SZ by auto; apply Cmult_neq_0; auto).
      rewrite !reference_nonzero by (auto; lia). rewrite SZ by auto. rewrite LOG, mean3_shift by (rewrite !map_length; lia).
      rewrite Cmod_mult, Cmod_R. pose proof (Cmod_gt_0 _ X) as P. rewrite ln_mult by auto.
      set (mm := mean3 _ _). clearbody mm. set (x := nth j z (0, 0)) in *. clearbody x.
      replace (ln (Rabs k) + ln (Cmod x) - (mm + ln (Rabs k))) with (ln (Cmod x) - mm) by ring.
      rewrite !Cmult_assoc, <- !RtoC_mult. f_equal. f_equal. unfold sgn. field. split; lra. }
  rewrite !ifft_nth by (rewrite core_length; lia). rewrite !core_length, LZ, LZ'.
  rewrite (sumC_ext (length v) _ (fun j => Cmult (RtoC (sgn k)) (Cmult (nth j (residual_core z) (0, 0)) (root (length v) (Z.of_nat j * Z.of_nat t))))).
  - rewrite sumC_scal, !Cmod_mult, Cmod_R, sgn_abs by auto. ring.
  - intros j L. rewrite CORE by auto. cring.
Qed.

(** C112. Turning the series upside down changes nothing, whatever the series. *)
Theorem C112_upside_down : forall values,
  spectral_residual_transform (map Ropp values) = spectral_residual_transform values.
Proof.
  intros v. rewrite <- (scaled_same (-1) v); [|lra|left; rewrite Rabs_left; lra].
  f_equal. apply map_ext. intros. ring.
Qed.
Print Assumptions C112_upside_down.

(** C112. Neither does another unit, if no frequency is missing from the series
    altogether. *)
Theorem C112_units : forall k values, k <> 0 -> (forall z, In z (fft values) -> z <> (0, 0)) ->
  spectral_residual_transform (map (Rmult k) values) = spectral_residual_transform values.
Proof. intros. apply scaled_same; auto. Qed.
Print Assumptions C112_units.

Lemma root3 : root 3 1 = (-1 / 2, sqrt 3 / 2).
Proof.
  unfold root, cis. replace (2 * PI * 1 / INR 3) with (2 * (PI / 3)) by (simpl; field).
  rewrite cos_2PI3, sin_2PI3. auto.
Qed.

(** The transform of three values with mean zero. *)
Lemma zero_mean : forall c, 0 < c ->
  let p := exp (ln c / 2) in let q := exp (ln c / 3) in
  nth 0 (spectral_residual_transform (level_with_spike 3 0 (- c / 3) c)) 0 = (p + q) / 3 /\
  nth 1 (spectral_residual_transform (level_with_spike 3 0 (- c / 3) c)) 0 = sqrt (p * p + q * q - p * q) / 3.
Proof.
  intros c C0 p q. set (v := level_with_spike 3 0 (- c / 3) c). set (z := fft v).
  assert (LV : length v = 3%nat) by apply v_length.
  assert (LZ : length z = 3%nat) by (unfold z; rewrite fft_length; auto).
  assert (Z0 : nth 0 z (0, 0) = RtoC 0).
  { unfold z, v. rewrite spike_fft by lia. simpl Nat.eqb. cbv iota. simpl Z.mul. simpl Z.opp. rewrite root_0.
    unfold Cplus, Cmult, RtoC. simpl. f_equal; field. }
  assert (ZR : forall j, (0 < j < 3)%nat -> nth j z (0, 0) = RtoC c).
  { intros j L. unfold z, v. rewrite spike_fft by lia. destruct j; [lia|]. simpl Nat.eqb. cbv iota.
    rewrite Z.mul_0_r. simpl Z.opp. rewrite root_0. cring. }
  assert (EZ : z = [RtoC 0; RtoC c; RtoC c]).
  { destruct z as [|z0 [|z1 [|z2 [|z3 zs]]]]; try discriminate. pose proof (ZR 1%nat ltac:(lia)). pose proof (ZR 2%nat ltac:(lia)). simpl in *. subst. auto. }
  assert (LOG : map log_or_zero (map modulus z) = [0; ln c; ln c]).
  { rewrite EZ. cbn [map]. rewrite !modulus_Cmod, !Cmod_R, Rabs_R0, (Rabs_right c) by lra. rewrite !(log_nonzero c) by auto.
    unfold log_or_zero. destruct (Req_EM_T 0 0); [auto|lra]. }
  assert (K0 : nth 0 (residual_core z) (0, 0) = RtoC 0) by (rewrite core_nth by lia; apply reference_zero; auto).
  assert (CN : RtoC c <> RtoC 0) by (intro X; apply RtoC_inj in X; lra).
  assert (K1 : nth 1 (residual_core z) (0, 0) = RtoC p).
  { rewrite core_nth by lia. rewrite reference_nonzero; [|lia|rewrite ZR by lia; auto].
    rewrite ZR, LOG, Cmod_R, Rabs_right by (lia || lra). rewrite <- RtoC_mult. f_equal. unfold mean3, slice. simpl.
    unfold p. replace (ln c - (0 + (ln c + 0)) / (1 + 1)) with (ln c / 2) by field. field. lra. }
  assert (K2 : nth 2 (residual_core z) (0, 0) = RtoC q).
  { rewrite core_nth by lia. rewrite reference_nonzero; [|lia|rewrite ZR by lia; auto].
    rewrite ZR, LOG, Cmod_R, Rabs_right by (lia || lra). rewrite <- RtoC_mult. f_equal. unfold mean3, slice. simpl.
    unfold q. replace (ln c - (0 + (ln c + (ln c + 0))) / (1 + 1 + 1)) with (ln c / 3) by field. field. lra. }
  assert (P : 0 < p) by apply exp_pos. assert (Q : 0 < q) by apply exp_pos.
  assert (W : forall t, (t < 3)%nat -> nth t (spectral_residual_transform v) 0 =
     Cmod (Cmult (Cinv (RtoC (INR 3))) (Cplus (Cmult (RtoC p) (root 3 (Z.of_nat t))) (Cmult (RtoC q) (root 3 (2 * Z.of_nat t)))))).
  { intros t T. rewrite srt_nth by lia. fold z. rewrite ifft_nth by (rewrite core_length; lia). rewrite core_length, LZ.
    f_equal. f_equal. rewrite !sumC_S, sumC_0, K0, K1, K2. change (Z.of_nat 1) with 1%Z. change (Z.of_nat 2) with 2%Z. rewrite Z.mul_1_l. cring. }
  rewrite !W by lia. simpl Z.of_nat. simpl Z.mul. rewrite !root_0.
  replace (root 3 2) with (Cmult (root 3 1) (root 3 1)) by (rewrite <- root_add by lia; auto). rewrite root3.
  assert (I3 : INR 3 = 3) by (simpl; ring). rewrite I3.
  rewrite <- RtoC_inv by lra. rewrite !Cmod_mult, !Cmod_R. rewrite (Rabs_right (/ 3)) by lra.
  split.
  - replace (Cplus (Cmult (RtoC p) (RtoC 1)) (Cmult (RtoC q) (RtoC 1))) with (RtoC (p + q)) by (unfold Cplus, Cmult, RtoC; cbn [fst snd]; f_equal; ring).
    rewrite Cmod_R, Rabs_right by lra. field.
  - rewrite Rmult_comm. change (sqrt (p * p + q * q - p * q) / 3) with (sqrt (p * p + q * q - p * q) * / 3). f_equal. unfold Cmod. f_equal.
    unfold Cplus, Cmult, RtoC. cbn [fst snd]. assert (S3 : sqrt 3 * sqrt 3 = 3) by (apply sqrt_sqrt; lra).
    set (s := sqrt 3) in *. clearbody s. clearbody p q.
    replace (p * p + q * q - p * q) with (p * p * (1 / 4 + 3 / 4) + q * q * (1 / 4 + 3 / 4) + p * q * (1 / 2 - 3 / 2)) by field.
    rewrite <- S3. field_simplify. replace (s ^ 4) with (s * s * (s * s)) by ring. replace (s ^ 2) with (s * s) by ring. rewrite S3. field.
Qed.

(** C112. If a frequency is missing (here: the mean is zero) the transform
    depends on the unit, and not only by a factor. *)
Theorem C112_units_refuted : exists values,
  ~ exists q, spectral_residual_transform (map (Rmult 64) values) = map (Rmult q) (spectral_residual_transform values).
Proof.
  exists (level_with_spike 3 0 (Ropp 1 / 3) 1). intros [q H].
  assert (S : map (Rmult 64) (level_with_spike 3 0 (Ropp 1 / 3) 1) = level_with_spike 3 0 (Ropp 64 / 3) 64).
  { unfold level_with_spike. simpl. repeat (apply f_equal2; [field|]); reflexivity. }
  rewrite S in H.
  destruct (zero_mean 1 ltac:(lra)) as [A B]. destruct (zero_mean 64 ltac:(lra)) as [A' B'].
  assert (L64 : ln 64 = 6 * ln 2).
  { replace 64 with (2 * (2 * (2 * (2 * (2 * 2))))) by ring. rewrite !ln_mult by lra. ring. }
  assert (E8 : exp (ln 64 / 2) = 8).
  { rewrite L64. replace (6 * ln 2 / 2) with (ln 2 + (ln 2 + ln 2)) by field. rewrite !exp_plus, !exp_ln by lra. ring. }
  assert (E4 : exp (ln 64 / 3) = 4).
  { rewrite L64. replace (6 * ln 2 / 3) with (ln 2 + ln 2) by field. rewrite !exp_plus, !exp_ln by lra. ring. }
  assert (E2 : exp (ln 1 / 2) = 1) by (rewrite ln_1; replace (0 / 2) with 0 by field; apply exp_0).
  assert (E3 : exp (ln 1 / 3) = 1) by (rewrite ln_1; replace (0 / 3) with 0 by field; apply exp_0).
  cbv zeta in A, B, A', B'. rewrite E2, E3 in A, B. rewrite E8, E4 in A', B'.
  assert (NM : forall i l, nth i (map (Rmult q) l) 0 = q * nth i l 0).
  { intros i l. rewrite <- (Rmult_0_r q) at 1. apply map_nth. }
  rewrite H, NM in A', B'. rewrite A in A'. rewrite B in B'.
  replace (1 * 1 + 1 * 1 - 1 * 1) with 1 in B' by ring. rewrite sqrt_1 in B'.
  assert (Q : q = 6) by lra. subst q.
  assert (SQ : sqrt (8 * 8 + 4 * 4 - 8 * 4) = 6) by lra.
  assert (SS : sqrt (8 * 8 + 4 * 4 - 8 * 4) * sqrt (8 * 8 + 4 * 4 - 8 * 4) = 8 * 8 + 4 * 4 - 8 * 4) by (apply sqrt_sqrt; lra).
  rewrite SQ in SS. lra.
Qed.
Print Assumptions C112_units_refuted.

(** Seventeen readings of 10, one of them 60: hypotheses and outcome. No
    frequency is missing. *)
Example C112_example :
  (forall m, nth_error (spectral_residual_transform (level_with_spike 17 5 10 50)) 5 = Some m -> 15 / 17 <= m) /\
  (forall t m, t <> 5%nat -> nth_error (spectral_residual_transform (level_with_spike 17 5 10 50)) t = Some m -> m <= 2 / 17) /\
  spectral_residual_transform (map (Rmult 1000) (level_with_spike 17 5 10 50)) = spectral_residual_transform (level_with_spike 17 5 10 50).
Proof.
  assert (I : INR 17 = 17) by (simpl; ring).
  destruct (C112_spike 17 5 10 50 ltac:(lia) ltac:(lia) ltac:(lra) ltac:(left; lra)) as [_ H]. rewrite I in H.
  split; [|split].
  - intros m E. destruct (H 5%nat m E) as [_ X]. specialize (X ltac:(lra)). simpl Nat.eqb in X. cbv iota in X.
    apply abs_inv in X. lra.
  - intros t m N E. destruct (H t m E) as [_ X]. specialize (X ltac:(lra)). destruct (Nat.eqb_spec t 5); [contradiction|].
    apply abs_inv in X. lra.
  - apply C112_units; [lra|]. intros z Z E. subst z.
    assert (M : In 0 (map modulus (fft (level_with_spike 17 5 10 50)))).
    { apply in_map_iff. exists (0, 0). split; auto. rewrite modulus_Cmod. apply Cmod_0. }
    rewrite (spike_mods 17 5 10 50 ltac:(lia)) in M. rewrite I in M.
    rewrite !Rabs_right in M by lra. simpl in M. lra.
Qed.
Print Assumptions C112_example.
