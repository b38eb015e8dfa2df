(** The transform of a level series with one spike; scaling. *)
From Coq Require Import List Arith ZArith Lia Bool.
From Coq Require Import Reals.
From Verif Require Import Cplx.
From Verif Require Import Base Helpers_model Transform_model Transform_spec Transform_props Fourier_model Fourier_spec Fourier_proofs.
From Coq Require Import Lra.
Import ListNotations.
Open Scope C_scope.
Ltac toC := match goal with |- @eq _ ?a ?b => change (@eq C a b) end.
Ltac cring := toC; ring.

Lemma modulus_Cmod : forall z, modulus z = Cmod z.
Proof. intros. unfold modulus, Cmod. f_equal. ring. Qed.

Lemma srt_length : forall v, length (spectral_residual_transform v) = length v.
Proof.
  intros. unfold spectral_residual_transform. rewrite map_length, ifft_length, C61_transform_is_reference. unfold reference_transform.
  rewrite mapi_length. apply fft_length.
Qed.
Lemma core_length : forall z, length (residual_core z) = length z.
Proof. intros. rewrite C61_transform_is_reference. unfold reference_transform. apply mapi_length. Qed.
Lemma core_nth : forall z j, (j < length z)%nat -> nth j (residual_core z) (0, 0)%R = reference_point z j (nth j z (0, 0)%R).
Proof.
  intros z j L. rewrite C61_transform_is_reference. unfold reference_transform. apply nth_error_nth_d. rewrite nth_error_mapi.
  destruct (nth_error_ex _ z j L) as [x Hx]. rewrite Hx. simpl. f_equal. f_equal. symmetry. apply nth_error_nth_d; auto.
Qed.
Lemma srt_nth : forall v t, (t < length v)%nat ->
  nth t (spectral_residual_transform v) 0%R = Cmod (nth t (ifft (residual_core (fft v))) (0, 0)%R).
Proof.
  intros v t L. apply nth_error_nth_d. unfold spectral_residual_transform. rewrite nth_error_map.
  destruct (nth_error_ex _ (ifft (residual_core (fft v))) t) as [x Hx].
  { rewrite ifft_length, core_length, fft_length. auto. }
  rewrite Hx. simpl option_map. f_equal. rewrite (nth_error_nth_d _ _ _ _ (0, 0)%R Hx). auto.
Qed.

(** The residual of a non-zero entry: its direction, times the excess of its logarithm. *)
Lemma reference_nonzero : forall z j, (j < length z)%nat -> nth j z (0, 0)%R <> RtoC 0 ->
  reference_point z j (nth j z (0, 0)%R) =
  RtoC (exp (ln (Cmod (nth j z (0, 0)%R)) - mean3 (map log_or_zero (map modulus z)) j) / Cmod (nth j z (0, 0)%R)) * nth j z (0, 0)%R.
Proof.
  intros z j L N. unfold reference_point. cbv zeta.
  assert (E : nth j (map log_or_zero (map modulus z)) 0%R = log_or_zero (modulus (nth j z (0, 0)%R))).
  { apply nth_error_nth_d. destruct (nth_error_ex _ z j L) as [x Hx]. rewrite !nth_error_map, Hx. simpl. f_equal. f_equal. f_equal.
    symmetry. apply nth_error_nth_d; auto. }
  rewrite E. rewrite !modulus_Cmod. set (x := nth j z (0, 0)%R) in *.
  assert (M : (0 < Cmod x)%R) by (apply Cmod_gt_0; auto).
  destruct (Req_EM_T (Cmod x) 0) as [Z|Z]; [lra|].
  set (m := mean3 _ _). clearbody m. unfold log_or_zero. destruct (Req_EM_T (Cmod x) 0) as [Z'|Z']; [lra|].
  set (w := exp _). clearbody w. set (r := Cmod x) in *. clearbody r. destruct x as [p q]. unfold Cmult, RtoC. cbn [fst snd]. f_equal; field; auto.
Qed.
Lemma reference_zero : forall z j, nth j z (0, 0)%R = RtoC 0 -> reference_point z j (nth j z (0, 0)%R) = RtoC 0.
Proof.
  intros z j E. rewrite E. unfold reference_point. cbv zeta. rewrite !modulus_Cmod, Cmod_0.
  destruct (Req_EM_T 0 0); [auto|lra].
Qed.

(** * Means of three logarithms when only the first differs *)
Lemma mean3_first : forall a l m j, (j < S m)%nat ->
  mean3 (a :: repeat l m) j =
  (if (j =? 0)%nat then a else if (j =? 1)%nat then (a + l) / 2 else if (j =? 2)%nat then (a + 2 * l) / 3 else l)%R.
Proof.
  intros a l m j L. unfold mean3. cbv zeta. unfold slice.
  destruct j as [|[|[|j]]].
  - simpl. field.
  - destruct m as [|m]; [lia|]. simpl. field.
  - destruct m as [|[|m]]; try lia. simpl. field.
  - replace (S (S (S j)) + 1 - 3)%nat with (S j) by lia. replace (S (S (S j)) + 1 - S j)%nat with 3%nat by lia.
    cbn [skipn]. replace (repeat l m) with (repeat l j ++ repeat l (m - j)) by (rewrite <- repeat_app; f_equal; lia).
    rewrite skipn_app, repeat_length, skipn_all2 by (rewrite repeat_length; lia). rewrite Nat.sub_diag. cbn [skipn app].
    replace (m - j)%nat with (S (S (S (m - j - 3)))) by lia. simpl. field.
Qed.

Lemma sumC_delta : forall (n k : nat) (x : C), (k < n)%nat -> sumC n (fun t => if t =? k then x else RtoC 0) = x.
Proof.
  intros n k x L. etransitivity.
  - apply (sumC_single n _ k L). intros j _ N. destruct (Nat.eqb_spec j k); [contradiction|auto].
  - cbv beta. rewrite Nat.eqb_refl. auto.
Qed.

Section Spike.
Variables (n k : nat) (b c : R).
Hypothesis K : (k < n)%nat.
Let v := level_with_spike n k b c.
Lemma v_length : length v = n.
Proof. unfold v, level_with_spike. rewrite map_length, seq_length. auto. Qed.
Lemma v_nth : forall t, (t < n)%nat -> nth t v 0%R = (b + (if t =? k then c else 0))%R.
Proof.
  intros t L. apply nth_error_nth_d. unfold v, level_with_spike. rewrite nth_error_map, nth_error_seq.
  assert (E : (t <? n)%nat = true) by (apply Nat.ltb_lt; auto). rewrite E. simpl. destruct (t =? k); f_equal; lra.
Qed.
Lemma spike_fft : forall j, (j < n)%nat ->
  nth j (fft v) (0, 0)%R = (if j =? 0 then RtoC (INR n * b) else 0) + RtoC c * root n (- (Z.of_nat j * Z.of_nat k)).
Proof.
  intros j L. rewrite fft_nth by (rewrite v_length; auto). rewrite v_length.
  rewrite (sumC_ext n _ (fun t => RtoC b * root n (Z.of_nat t * (Z.of_nat 0 - Z.of_nat j)) + (if t =? k then RtoC c * root n (- (Z.of_nat j * Z.of_nat k)) else 0))).
  - rewrite sumC_plus, sumC_scal, sum_roots by lia.
    rewrite sumC_delta by auto. destruct j as [|j].
    + simpl Nat.eqb. cbv iota. rewrite RtoC_mult. cring.
    + simpl Nat.eqb. cbv iota. cring.
  - intros t Lt. rewrite v_nth, RtoC_plus by auto.
    replace (Z.of_nat t * (Z.of_nat 0 - Z.of_nat j))%Z with (- (Z.of_nat j * Z.of_nat t))%Z by lia.
    destruct (Nat.eqb_spec t k) as [->|N]; cring.
Qed.

Hypothesis C0 : c <> 0%R.
Hypothesis B0 : (Rabs c <= Rabs (INR n * b + c))%R.
Lemma level_pos : (0 < Rabs c /\ 0 < Rabs (INR n * b + c))%R.
Proof. pose proof (Rabs_pos_lt c C0). lra. Qed.

Definition sgn (x : R) : R := (x / Rabs x)%R.
Definition f0 : R := sgn (INR n * b + c).
Definition f1 : R := exp ((ln (Rabs c) - ln (Rabs (INR n * b + c))) / 2).
Definition f2 : R := exp ((ln (Rabs c) - ln (Rabs (INR n * b + c))) / 3).
Definition fac (j : nat) : R := if (j =? 1)%nat then f1 else if (j =? 2)%nat then f2 else 1%R.

Lemma fft_first : nth 0 (fft v) (0, 0)%R = RtoC (INR n * b + c).
Proof.
  rewrite spike_fft by lia. simpl Nat.eqb. cbv iota. simpl Z.mul. simpl Z.opp. rewrite root_0, RtoC_plus. cring.
Qed.
Lemma fft_rest : forall j, (0 < j < n)%nat -> nth j (fft v) (0, 0)%R = RtoC c * root n (- (Z.of_nat j * Z.of_nat k)).
Proof. intros j L. rewrite spike_fft by lia. destruct j; [lia|]. simpl Nat.eqb. cbv iota. cring. Qed.
Lemma spike_mods : map modulus (fft v) = Rabs (INR n * b + c) :: repeat (Rabs c) (n - 1).
Proof.
  apply nth_error_ext_len.
  - rewrite map_length, fft_length, v_length. simpl. rewrite repeat_length. lia.
  - intros i Hi. rewrite map_length, fft_length, v_length in Hi. rewrite nth_error_map.
    destruct (nth_error_ex _ (fft v) i ltac:(rewrite fft_length, v_length; auto)) as [z Hz]. rewrite Hz. simpl option_map.
    rewrite modulus_Cmod, <- (nth_error_nth_d _ _ _ _ (0, 0)%R Hz). destruct i as [|i].
    + rewrite fft_first, Cmod_R. auto.
    + rewrite fft_rest, Cmod_mult, Cmod_R, root_mod, Rmult_1_r by lia.
      simpl nth_error. rewrite nth_error_repeat.
      assert (E : (i <? n - 1)%nat = true) by (apply Nat.ltb_lt; lia). rewrite E. auto.
Qed.
Lemma log_nonzero : forall x, (0 < x)%R -> log_or_zero x = ln x.
Proof. intros x H. unfold log_or_zero. destruct (Req_EM_T x 0); lra. Qed.
Lemma spike_logs : map log_or_zero (map modulus (fft v)) = ln (Rabs (INR n * b + c)) :: repeat (ln (Rabs c)) (n - 1).
Proof.
  rewrite spike_mods. simpl. destruct level_pos. rewrite log_nonzero by auto. f_equal.
  induction (n - 1)%nat as [|m IH]; simpl; auto. rewrite IH, log_nonzero; auto.
Qed.

Lemma spike_core : forall j, (j < n)%nat ->
  nth j (residual_core (fft v)) (0, 0)%R =
  (if j =? 0 then RtoC f0 else RtoC (fac j * sgn c) * root n (- (Z.of_nat j * Z.of_nat k))).
Proof.
  intros j L. destruct level_pos as [P1 P2].
  assert (LJ : (j < length (fft v))%nat) by (rewrite fft_length, v_length; auto).
  assert (ER : RtoC (Rabs c) <> 0) by (intro X; apply RtoC_inj in X; lra).
  rewrite core_nth by auto.
  assert (RN : forall q, root n q <> 0).
  { intros q X. pose proof (root_mod n q) as M. rewrite X, Cmod_0 in M. lra. }
  assert (NZ : nth j (fft v) (0, 0)%R <> RtoC 0).
  { destruct j as [|j].
    - rewrite fft_first. intro X. apply RtoC_inj in X. rewrite X, Rabs_R0 in P2. lra.
    - rewrite fft_rest by lia. apply Cmult_neq_0; auto. intro X. apply RtoC_inj in X. contradiction. }
  rewrite reference_nonzero by auto. rewrite spike_logs, mean3_first by lia.
  destruct j as [|j].
  - simpl Nat.eqb. cbv iota. rewrite fft_first, Cmod_R. rewrite <- RtoC_mult. f_equal. unfold f0, sgn.
    replace (ln (Rabs (INR n * b + c)) - ln (Rabs (INR n * b + c)))%R with 0%R by ring. rewrite exp_0. unfold Rdiv. ring.
  - rewrite fft_rest, Cmod_mult, Cmod_R, root_mod, Rmult_1_r by lia.
    assert (F : exp (ln (Rabs c) - (if S j =? 0 then ln (Rabs (INR n * b + c)) else if S j =? 1 then (ln (Rabs (INR n * b + c)) + ln (Rabs c)) / 2 else
        if S j =? 2 then (ln (Rabs (INR n * b + c)) + 2 * ln (Rabs c)) / 3 else ln (Rabs c)))%R = fac (S j)).
    { unfold fac. destruct j as [|[|j]]; simpl Nat.eqb; cbv iota.
      - unfold f1. f_equal. field.
      - unfold f2. f_equal. field.
      - replace (ln (Rabs c) - ln (Rabs c))%R with 0%R by ring. apply exp_0. }
    rewrite F. simpl Nat.eqb. cbv iota. rewrite Cmult_assoc, <- RtoC_mult. f_equal. f_equal. unfold sgn, Rdiv. ring.
Qed.

Hypothesis N3 : (3 <= n)%nat.
Definition delta (t : nat) : R := if (t =? k)%nat then 1%R else 0%R.
(** The inverse transform: the spike, plus what the first three entries are off by. *)
Lemma spike_wave : forall t, (t < n)%nat ->
  nth t (ifft (residual_core (fft v))) (0, 0)%R =
  RtoC (sgn c) * RtoC (delta t) + / RtoC (INR n) *
    (RtoC (f0 - sgn c) + RtoC ((f1 - 1) * sgn c) * root n (Z.of_nat t - Z.of_nat k) + RtoC ((f2 - 1) * sgn c) * root n (2 * (Z.of_nat t - Z.of_nat k))).
Proof.
  intros t L. assert (LN : length (residual_core (fft v)) = n) by (rewrite core_length, fft_length; apply v_length).
  rewrite ifft_nth by lia. rewrite LN.
  rewrite (sumC_ext n _ (fun j => RtoC (sgn c) * root n (Z.of_nat j * (Z.of_nat t - Z.of_nat k)) +
     ((if j =? 0 then RtoC (f0 - sgn c) else 0) +
     ((if j =? 1 then RtoC ((f1 - 1) * sgn c) * root n (Z.of_nat t - Z.of_nat k) else 0) +
      (if j =? 2 then RtoC ((f2 - 1) * sgn c) * root n (2 * (Z.of_nat t - Z.of_nat k)) else 0))))).
  - rewrite !sumC_plus, sumC_scal, sum_roots by auto.
    rewrite !sumC_delta by lia.
    assert (NZ : RtoC (INR n) <> 0) by (intro X; apply RtoC_inj in X; apply (not_0_INR n); [lia|auto]).
    unfold delta. destruct (t =? k); toC; field; auto.
  - intros j Lj. rewrite spike_core by auto.
    replace (Z.of_nat j * (Z.of_nat t - Z.of_nat k))%Z with (- (Z.of_nat j * Z.of_nat k) + Z.of_nat j * Z.of_nat t)%Z by lia.
    rewrite root_add by lia. destruct j as [|[|[|j]]]; simpl Nat.eqb; cbv iota.
    + simpl Z.mul. simpl Z.opp. rewrite !root_0. rewrite RtoC_minus. cring.
    + unfold fac. simpl Nat.eqb. cbv iota. change (Z.of_nat 1) with 1%Z. rewrite !Z.mul_1_l.
      replace (Z.of_nat t - Z.of_nat k)%Z with (- Z.of_nat k + Z.of_nat t)%Z by lia. rewrite root_add by lia. rewrite !RtoC_mult, RtoC_minus. cring.
    + unfold fac. simpl Nat.eqb. cbv iota. change (Z.of_nat 2) with 2%Z.
      replace (2 * (Z.of_nat t - Z.of_nat k))%Z with (- (2 * Z.of_nat k) + 2 * Z.of_nat t)%Z by lia. rewrite root_add by lia. rewrite !RtoC_mult, RtoC_minus. cring.
    + unfold fac. simpl Nat.eqb. cbv iota. rewrite Rmult_1_l. cring.
Qed.
End Spike.
