(** Exactness of the double arithmetic used for grid indices. *)
From Coq Require Import ZArith Lia Bool Reals Lra.
From Flocq Require Import Core BinarySingleNaN Relative.
From Verif Require Import Base Dates_model Dates_spec.
Open Scope Z_scope.

Notation rnd := (round radix2 (SpecFloat.fexp 53 1024) ZnearestE).
Notation fin := (is_finite (prec := 53) (emax := 1024)).
Notation val := (B2R (prec := 53) (emax := 1024)).
Notation two53 := 9007199254740992.

Lemma fexp_FLT : SpecFloat.fexp 53 1024 = FLT_exp (-1074) 53. Proof. reflexivity. Qed.
#[local] Instance vexp : Valid_exp (SpecFloat.fexp 53 1024) := FLT_exp_valid (-1074) 53.

Lemma int_format : forall z, Z.abs z < two53 -> generic_format radix2 (SpecFloat.fexp 53 1024) (IZR z).
Proof.
  intros z H. rewrite fexp_FLT. apply generic_format_FLT. exists (Float radix2 z 0); cbn; try lia.
  unfold F2R. cbn. lra.
Qed.
Lemma rnd_int : forall z, Z.abs z < two53 -> rnd (IZR z) = IZR z.
Proof. intros. apply round_generic; [apply valid_rnd_N|]. apply int_format. auto. Qed.
Lemma IZR_bound : forall z, Z.abs z < two53 -> (Rabs (IZR z) < IZR two53)%R.
Proof. intros. rewrite <- abs_IZR. apply IZR_lt. auto. Qed.
Lemma two53_format : generic_format radix2 (SpecFloat.fexp 53 1024) (IZR two53).
Proof.
  rewrite fexp_FLT. apply generic_format_FLT. exists (Float radix2 1 53); cbn; try lia. unfold F2R. cbn. lra.
Qed.
Lemma rnd_bound : forall x, (Rabs x <= IZR two53)%R -> (Rabs (rnd x) <= IZR two53)%R.
Proof.
  intros x H. apply Rabs_le. apply Rabs_le_inv in H. split.
  - replace (- IZR two53)%R with (rnd (- IZR two53)).
    + apply round_le; [apply vexp|apply valid_rnd_N|lra].
    + rewrite round_generic; auto; [apply valid_rnd_N|]. apply generic_format_opp. apply two53_format.
  - replace (IZR two53) with (rnd (IZR two53)).
    + apply round_le; [apply vexp|apply valid_rnd_N|lra].
    + rewrite round_generic; auto; [apply valid_rnd_N|]. apply two53_format.
Qed.
Lemma big : (IZR two53 < bpow radix2 1024)%R.
Proof. replace (IZR two53) with (bpow radix2 53) by (cbn; lra). apply bpow_lt. lia. Qed.
Lemma rnd_no_overflow : forall x, (Rabs x <= IZR two53)%R -> Rlt_bool (Rabs (rnd x)) (bpow radix2 1024) = true.
Proof. intros. apply Rlt_bool_true. pose proof (rnd_bound x H). pose proof big. lra. Qed.

(** ** Integers *)
Lemma of_Z_val : forall z, Z.abs z < two53 -> val (of_Z z) = IZR z /\ fin (of_Z z) = true.
Proof.
  intros z H. pose proof (binary_normalize_correct 53 1024 _ _ mode_NE z 0 false) as C. cbv zeta in C.
  assert (E : F2R (Float radix2 z 0) = IZR z) by (unfold F2R; cbn; lra). rewrite E in C.
  change (round_mode mode_NE) with ZnearestE in C. rewrite rnd_no_overflow in C.
  - rewrite rnd_int in C by auto. tauto.
  - apply Rlt_le, IZR_bound. auto.
Qed.
Definition holds_int (x : f64) (z : Z) : Prop := val x = IZR z /\ fin x = true.

Lemma fsub_int : forall x y a b, holds_int x a -> holds_int y b -> Z.abs (a - b) < two53 -> holds_int (fsub x y) (a - b).
Proof.
  intros x y a b [Vx Fx] [Vy Fy] H. pose proof (Bminus_correct 53 1024 _ _ mode_NE x y Fx Fy) as C.
  change (round_mode mode_NE) with ZnearestE in C. rewrite Vx, Vy, <- minus_IZR in C. rewrite rnd_no_overflow in C.
  - rewrite rnd_int in C by auto. unfold holds_int, fsub. tauto.
  - apply Rlt_le, IZR_bound. auto.
Qed.

(** ** is_integer and int() *)
Lemma is_integer_val : forall x, fin x = true -> (is_integer x = true <-> exists k, val x = IZR k).
Proof.
  intros [s|s| |s m e b] F; try discriminate F.
  - split; auto. intros _. exists 0. reflexivity.
  - cbn [is_integer B2R]. unfold F2R. cbn [Fnum Fexp]. split.
    + intros H. apply orb_true_iff in H. destruct H as [H|H].
      * apply Z.leb_le in H. exists (cond_Zopp s (Zpos m) * 2 ^ e). rewrite mult_IZR. f_equal.
        rewrite <- (IZR_Zpower radix2) by auto. reflexivity.
      * apply Z.eqb_eq in H. destruct (Z_le_gt_dec 0 e) as [P|P].
        { exists (cond_Zopp s (Zpos m) * 2 ^ e). rewrite mult_IZR. f_equal. rewrite <- (IZR_Zpower radix2) by auto. reflexivity. }
        apply Z.mod_divide in H; [|apply Z.pow_nonzero; lia]. destruct H as [k K].
        exists (cond_Zopp s k). assert (E : cond_Zopp s (Zpos m) = cond_Zopp s k * 2 ^ (- e)) by (destruct s; cbn [cond_Zopp]; lia).
        rewrite E, mult_IZR. change 2 with (radix_val radix2). rewrite IZR_Zpower by lia. rewrite Rmult_assoc, <- bpow_plus.
        replace (- e + e) with 0 by lia. cbn. lra.
    + intros (k & K). apply orb_true_iff. destruct (Z_le_gt_dec 0 e) as [P|P]; [left; apply Z.leb_le; auto|]. right. apply Z.eqb_eq.
      apply Z.mod_divide; [apply Z.pow_nonzero; lia|].
      assert (E : cond_Zopp s (Zpos m) = k * 2 ^ (- e)).
      { apply eq_IZR. rewrite mult_IZR, <- K. change 2 with (radix_val radix2). rewrite IZR_Zpower by lia.
        rewrite Rmult_assoc, <- bpow_plus. replace (e + - e) with 0 by lia. cbn. lra. }
      destruct s; cbn [cond_Zopp] in E; [exists (- k)|exists k]; lia.
Qed.
Lemma to_Z_val : forall x, IZR (to_Z x) = IZR (Ztrunc (val x)).
Proof.
  intros x. unfold to_Z. rewrite (Btrunc_correct 53 1024 eq_refl). unfold round, F2R, scaled_mantissa, cexp. cbn.
  rewrite !Rmult_1_r. reflexivity.
Qed.
Lemma to_Z_int : forall x k, val x = IZR k -> to_Z x = k.
Proof. intros x k H. apply eq_IZR. rewrite to_Z_val, H, Ztrunc_IZR. reflexivity. Qed.

(** ** Division *)
Lemma div_not_int : forall a b k, Z.abs a < two53 -> 0 < b < 2 ^ 100 -> ~ (b | a) -> rnd (IZR a / IZR b) <> IZR k.
Proof.
  intros a b k Ha Hb N E. set (x := (IZR a / IZR b)%R) in *.
  assert (Pb : (0 < IZR b)%R) by (apply IZR_lt; lia).
  assert (Na : a <> 0) by (intros ->; apply N; exists 0; reflexivity).
  assert (Xb : (x * IZR b = IZR a)%R) by (unfold x; field; lra).
  assert (L1 : (1 <= Rabs (IZR a))%R) by (rewrite <- abs_IZR; apply IZR_le; lia).
  assert (Ab : (Rabs x * IZR b = Rabs (IZR a))%R) by (rewrite <- Xb, Rabs_mult, (Rabs_right (IZR b)); lra).
  assert (Bb : (IZR b < bpow radix2 100)%R) by (rewrite <- (IZR_Zpower radix2) by lia; apply IZR_lt; exact (proj2 Hb)).
  assert (Low : (bpow radix2 (-1074 + 53 - 1) <= Rabs x)%R).
  { apply Rle_trans with (bpow radix2 (-100)); [apply bpow_le; lia|].
    apply Rmult_le_reg_r with (IZR b); auto. rewrite Ab.
    apply Rle_trans with 1%R; auto. apply Rle_trans with (bpow radix2 (-100) * bpow radix2 100)%R.
    - apply Rmult_le_compat_l; [apply bpow_ge_0|lra].
    - rewrite <- bpow_plus. cbn. lra. }
  pose proof (relative_error_N_FLT radix2 (-1074) 53 prec53 (fun z => negb (Z.even z)) x Low) as R.
  change (FLT_exp (-1074) 53) with (SpecFloat.fexp 53 1024) in R. rewrite E in R.
  assert (P : (/ 2 * bpow radix2 (Z.opp 53 + 1) = / IZR two53)%R) by (cbn; lra). rewrite P in R.
  assert (S : (Rabs (IZR k - x) * IZR b = Rabs (IZR (k * b - a)))%R).
  { rewrite <- (Rabs_right (IZR b)) at 1 by lra. rewrite <- Rabs_mult. f_equal. rewrite minus_IZR, mult_IZR. unfold x. field. lra. }
  assert (G : (1 <= Rabs (IZR (k * b - a)))%R).
  { rewrite <- abs_IZR. apply IZR_le. assert (k * b - a <> 0) by (intros Z; apply N; exists k; lia). lia. }
  assert (U : (Rabs (IZR k - x) * IZR b <= / IZR two53 * Rabs (IZR a))%R).
  { rewrite <- Ab. rewrite <- Rmult_assoc. apply Rmult_le_compat_r; lra. }
  assert (V : (/ IZR two53 * Rabs (IZR a) < 1)%R).
  { apply Rmult_lt_reg_l with (IZR two53); [lra|]. rewrite <- Rmult_assoc, Rinv_r by lra. rewrite Rmult_1_l, Rmult_1_r. apply IZR_bound. auto. }
  lra.
Qed.
Lemma fdiv_val : forall x y a b, holds_int x a -> holds_int y b -> Z.abs a < two53 -> 0 < b < two53 ->
  val (fdiv x y) = rnd (IZR a / IZR b) /\ fin (fdiv x y) = true.
Proof.
  intros x y a b [Vx Fx] [Vy Fy] Ha Hb.
  assert (Pb : (1 <= IZR b)%R) by (apply IZR_le; lia).
  assert (Ny : val y <> 0%R) by (rewrite Vy; lra).
  pose proof (Bdiv_correct 53 1024 _ _ mode_NE x y Ny) as C.
  change (round_mode mode_NE) with ZnearestE in C. rewrite Vx, Vy in C. rewrite rnd_no_overflow in C.
  - unfold fdiv. destruct C as (C1 & C2 & _). rewrite C2. auto.
  - unfold Rdiv. rewrite Rabs_mult, Rabs_inv, (Rabs_right (IZR b)) by lra. pose proof (IZR_bound a Ha).
    apply Rmult_le_reg_r with (IZR b); [lra|]. rewrite Rmult_assoc, Rinv_l by lra. pose proof (Rabs_pos (IZR a)). nra.
Qed.
(** Division of integers: whole exactly when the divisor divides, and then the
    quotient. *)
Lemma fdiv_int : forall x y a b, holds_int x a -> holds_int y b -> Z.abs a < two53 -> 0 < b < two53 ->
  (is_integer (fdiv x y) = true <-> (b | a)) /\
  (forall k, a = k * b -> holds_int (fdiv x y) k /\ to_Z (fdiv x y) = k).
Proof.
  intros x y a b Hx Hy Ha Hb. destruct (fdiv_val x y a b Hx Hy Ha Hb) as [V F].
  assert (Q : forall k, a = k * b -> holds_int (fdiv x y) k).
  { intros k ->. split; auto. rewrite V. replace (IZR (k * b) / IZR b)%R with (IZR k).
    - apply rnd_int. nia.
    - rewrite mult_IZR. field. apply IZR_neq. lia. }
  split.
  - rewrite is_integer_val by auto. split.
    + intros (k & E). destruct (Znumtheory.Zdivide_dec b a) as [|N]; auto. exfalso. rewrite V in E. eapply (div_not_int a b k); eauto. lia.
    + intros (k & K). exists k. apply Q. auto.
  - intros k K. split; auto. apply to_Z_int. apply Q. auto.
Qed.

(** ** One binade *)
Lemma rnd_binade : forall e x, -1000 <= e <= 900 -> (bpow radix2 (e + 52) <= x < bpow radix2 (e + 53))%R ->
  rnd x = (IZR (ZnearestE (x * bpow radix2 (- e))) * bpow radix2 e)%R.
Proof.
  intros e x He [L U].
  assert (M : mag radix2 x = (e + 53)%Z :> Z).
  { apply mag_unique. pose proof (bpow_gt_0 radix2 (e + 52)). rewrite Rabs_right by lra. split; auto.
    replace (e + 53 - 1) with (e + 52) by lia. auto. }
  unfold round, F2R, scaled_mantissa, cexp. cbn [Fnum Fexp]. rewrite M, fexp_FLT. unfold FLT_exp.
  replace (Z.max (e + 53 - 53) (-1074)) with e by lia. reflexivity.
Qed.
Lemma ZnearestE_plus_even : forall x n, Z.even n = true -> ZnearestE (x + IZR n) = ZnearestE x + n.
Proof.
  intros x n E. assert (F : Zfloor (x + IZR n) = Zfloor x + n).
  { apply Zfloor_imp. rewrite !plus_IZR. pose proof (Zfloor_lb x). pose proof (Zfloor_ub x). lra. }
  unfold Znearest. rewrite F.
  replace (x + IZR n - IZR (Zfloor x + n))%R with (x - IZR (Zfloor x))%R by (rewrite plus_IZR; ring).
  assert (C : Zceil (x + IZR n) = Zceil x + n).
  { unfold Zceil. replace (- (x + IZR n))%R with (- x + IZR (- n))%R by (rewrite opp_IZR; ring).
    assert (G : Zfloor (- x + IZR (- n)) = Zfloor (- x) + - n).
    { apply Zfloor_imp. rewrite !plus_IZR. pose proof (Zfloor_lb (- x)). pose proof (Zfloor_ub (- x)). lra. }
    rewrite G. lia. }
  rewrite C. rewrite Z.even_add, E. destruct (Rcompare _ _); auto. destruct (Z.even (Zfloor x)); auto.
Qed.
Lemma rnd_error_binade : forall e x, -1000 <= e <= 900 -> (bpow radix2 (e + 52) <= x < bpow radix2 (e + 53))%R ->
  (Rabs (rnd x - x) <= bpow radix2 (e - 1))%R.
Proof.
  intros e x He B. rewrite (rnd_binade e x He B).
  pose proof (Znearest_half (fun z => negb (Z.even z)) (x * bpow radix2 (- e))) as H.
  replace (IZR (ZnearestE (x * bpow radix2 (- e))) * bpow radix2 e - x)%R
    with (- ((x * bpow radix2 (- e) - IZR (ZnearestE (x * bpow radix2 (- e)))) * bpow radix2 e))%R.
  - rewrite Rabs_Ropp, Rabs_mult, (Rabs_right (bpow radix2 e)) by (apply Rle_ge, bpow_ge_0).
    replace (bpow radix2 (e - 1)) with (/ 2 * bpow radix2 e)%R.
    + apply Rmult_le_compat_r; [apply bpow_ge_0|]. rewrite Rabs_minus_sym in H. rewrite Rabs_minus_sym. auto.
    + unfold Zminus. rewrite bpow_plus. cbn. lra.
  - assert (P : (bpow radix2 (- e) * bpow radix2 e = 1)%R) by (rewrite <- bpow_plus; replace (- e + e) with 0 by lia; reflexivity).
    replace (- ((x * bpow radix2 (- e) - IZR (ZnearestE (x * bpow radix2 (- e)))) * bpow radix2 e))%R
      with (IZR (ZnearestE (x * bpow radix2 (- e))) * bpow radix2 e - x * (bpow radix2 (- e) * bpow radix2 e))%R by ring.
    rewrite P. ring.
Qed.

(** ** Timestamps *)
(** A quotient that tells whether [u] lies on the grid of [step] from [u0]. *)
Definition tells (step u0 u : Z) (q : f64) : Prop :=
  (is_integer q = true <-> (step | u - u0)) /\ forall k, u - u0 = k * step -> to_Z q = k.

Lemma whole_timestamp : forall s k, epoch_us s = 1000000 * k -> Z.abs (epoch_us s) < two53 -> holds_int (timestamp s) k.
Proof.
  intros s k E H. unfold timestamp.
  destruct (fdiv_int (of_Z (epoch_us s)) (of_Z 1000000) (epoch_us s) 1000000) as [_ Q].
  - apply of_Z_val. auto.
  - apply of_Z_val. lia.
  - auto.
  - lia.
  - apply Q. lia.
Qed.
Lemma whole_tells : forall s0 s k0 k interval, epoch_us s0 = 1000000 * k0 -> epoch_us s = 1000000 * k ->
  Z.abs (epoch_us s0) < two53 -> Z.abs (epoch_us s) < two53 -> 0 < interval < two53 ->
  tells (interval * 1000000) (epoch_us s0) (epoch_us s) (fdiv (fsub (timestamp s) (timestamp s0)) (of_Z interval)).
Proof.
  intros s0 s k0 k I E0 E H0 H HI.
  pose proof (whole_timestamp s0 k0 E0 H0) as T0. pose proof (whole_timestamp s k E H) as T.
  assert (D : Z.abs (k - k0) < two53) by lia.
  pose proof (fsub_int _ _ _ _ T T0 D) as TD.
  assert (OI : holds_int (of_Z I) I) by (apply of_Z_val; lia).
  destruct (fdiv_int _ _ _ _ TD OI D HI) as [A B]. split.
  - rewrite A. split; intros (j & J); exists j; lia.
  - intros j J. apply B. lia.
Qed.

(** Within the binade of the years 2004 to 2038. *)
Definition ticks (u : Z) : Z := ZnearestE (IZR u / IZR 1000000 * bpow radix2 22).
Lemma recent_timestamp : forall s, recent (epoch_us s) ->
  val (timestamp s) = (IZR (ticks (epoch_us s)) * bpow radix2 (-22))%R /\ fin (timestamp s) = true.
Proof.
  intros s [L U]. unfold timestamp.
  destruct (fdiv_val (of_Z (epoch_us s)) (of_Z 1000000) (epoch_us s) 1000000) as [V F].
  - apply of_Z_val. lia.
  - apply of_Z_val. lia.
  - lia.
  - lia.
  - split; auto. rewrite V. apply (rnd_binade (-22)); [lia|].
    apply IZR_le in L. apply IZR_lt in U. rewrite mult_IZR in L, U.
    change (bpow radix2 (-22 + 52)) with (IZR 1073741824). change (bpow radix2 (-22 + 53)) with (IZR 2147483648).
    split; [apply Rmult_le_reg_r with (IZR 1000000)|apply Rmult_lt_reg_r with (IZR 1000000)]; try lra;
    unfold Rdiv; rewrite (Rmult_assoc (IZR (epoch_us s))), Rinv_l; lra.
Qed.
Lemma ticks_near : forall u, (Rabs (IZR u / IZR 1000000 * bpow radix2 22 - IZR (ticks u)) <= / 2)%R.
Proof. intros. unfold ticks. apply Znearest_half. Qed.
Lemma ticks_bound : forall u, recent u -> 2 ^ 52 <= ticks u <= 2 ^ 53.
Proof.
  intros u [L U]. apply IZR_le in L. apply IZR_lt in U. rewrite mult_IZR in L, U.
  pose proof (ticks_near u) as N. apply Rabs_le_inv in N. change (bpow radix2 22) with (IZR 4194304) in N.
  assert (X : (IZR 1073741824 <= IZR u / IZR 1000000 < IZR 2147483648)%R).
  { split; [apply Rmult_le_reg_r with (IZR 1000000)|apply Rmult_lt_reg_r with (IZR 1000000)]; try lra;
    unfold Rdiv; rewrite (Rmult_assoc (IZR u)), Rinv_l; lra. }
  assert (A : (IZR (2 ^ 52 - 1)%Z < IZR (ticks u))%R) by (change (2 ^ 52 - 1) with 4503599627370495; lra).
  assert (B : (IZR (ticks u) < IZR (2 ^ 53 + 1)%Z)%R) by (change (2 ^ 53 + 1) with 9007199254740993; lra).
  apply lt_IZR in A, B. lia.
Qed.
Lemma ticks_shift : forall u k, ticks (u + 1000000 * k) = ticks u + k * 4194304.
Proof.
  intros u k. unfold ticks. rewrite <- ZnearestE_plus_even.
  - f_equal. rewrite plus_IZR, !mult_IZR. change (bpow radix2 22) with (IZR 4194304). field.
  - rewrite Z.even_mul. apply orb_true_r.
Qed.
Lemma ticks_unshift : forall u0 u j, ticks u - ticks u0 = j * 4194304 -> u - u0 = 1000000 * j.
Proof.
  intros u0 u j H. pose proof (ticks_near u) as N. pose proof (ticks_near u0) as N0.
  apply Rabs_le_inv in N, N0. change (bpow radix2 22) with (IZR 4194304) in N, N0.
  assert (E : (IZR (ticks u) - IZR (ticks u0) = IZR j * IZR 4194304)%R) by (rewrite <- minus_IZR, <- mult_IZR; f_equal; auto).
  set (d := u - u0 - 1000000 * j). assert (Ed : (IZR d = IZR u - IZR u0 - IZR 1000000 * IZR j)%R) by (unfold d; rewrite !minus_IZR, mult_IZR; ring).
  assert (B : (- 1 < IZR d < 1)%R) by lra.
  destruct B as [B1 B2]. apply (lt_IZR (-1)) in B1. apply (lt_IZR _ 1) in B2. unfold d in *. lia.
Qed.
Lemma recent_tells : forall s0 s interval, recent (epoch_us s0) -> recent (epoch_us s) -> 0 < interval < two53 ->
  tells (interval * 1000000) (epoch_us s0) (epoch_us s) (fdiv (fsub (timestamp s) (timestamp s0)) (of_Z interval)).
Proof.
  intros s0 s I R0 R HI. destruct (recent_timestamp s0 R0) as [V0 F0]. destruct (recent_timestamp s R) as [V F].
  pose proof (ticks_bound _ R0) as B0. pose proof (ticks_bound _ R) as B.
  set (n0 := ticks (epoch_us s0)) in *. set (n := ticks (epoch_us s)) in *. set (d := n - n0).
  assert (Hd : Z.abs d < two53) by (unfold d; change (2 ^ 52) with 4503599627370496 in *; change (2 ^ 53) with two53 in *; lia).
  assert (Small : (Rabs (IZR d * bpow radix2 (-22)) <= IZR two53)%R).
  { rewrite Rabs_mult, (Rabs_right (bpow radix2 (-22))) by (apply Rle_ge, bpow_ge_0). pose proof (IZR_bound d Hd). pose proof (Rabs_pos (IZR d)).
    assert (bpow radix2 (-22) <= 1)%R by (change 1%R with (bpow radix2 0); apply bpow_le; lia). nra. }
  assert (VD : val (fsub (timestamp s) (timestamp s0)) = (IZR d * bpow radix2 (-22))%R /\ fin (fsub (timestamp s) (timestamp s0)) = true).
  { pose proof (Bminus_correct 53 1024 _ _ mode_NE _ _ F F0) as C. change (round_mode mode_NE) with ZnearestE in C.
    rewrite V, V0 in C. rewrite <- Rmult_minus_distr_r, <- minus_IZR in C. fold d in C. rewrite rnd_no_overflow in C by auto.
    destruct C as (C1 & C2 & _). split; auto. unfold fsub. rewrite C1. apply round_generic; [apply valid_rnd_N|].
    rewrite fexp_FLT. apply generic_format_FLT. exists (Float radix2 d (-22)); cbn [Fnum Fexp]; auto; lia. }
  destruct VD as [VD FD].
  assert (OI : holds_int (of_Z I) I) by (apply of_Z_val; lia). destruct OI as [VI FI].
  assert (PI : (1 <= IZR I)%R) by (apply IZR_le; lia).
  assert (Q : (IZR d * bpow radix2 (-22) / IZR I = IZR d / IZR (I * 4194304))%R).
  { rewrite mult_IZR. change (bpow radix2 (-22)) with (/ IZR 4194304)%R. field. lra. }
  assert (VQ : val (fdiv (fsub (timestamp s) (timestamp s0)) (of_Z I)) = rnd (IZR d / IZR (I * 4194304)) /\
               fin (fdiv (fsub (timestamp s) (timestamp s0)) (of_Z I)) = true).
  { assert (NI : val (of_Z I) <> 0%R) by (rewrite VI; lra).
    pose proof (Bdiv_correct 53 1024 _ _ mode_NE (fsub (timestamp s) (timestamp s0)) (of_Z I) NI) as C. change (round_mode mode_NE) with ZnearestE in C.
    rewrite VD, VI in C. rewrite rnd_no_overflow in C.
    - rewrite Q in C. destruct C as (C1 & C2 & _). unfold fdiv. rewrite C2. auto.
    - unfold Rdiv. rewrite Rabs_mult, Rabs_inv, (Rabs_right (IZR I)) by lra.
      apply Rmult_le_reg_r with (IZR I); [lra|]. rewrite Rmult_assoc, Rinv_l by lra.
      pose proof (Rabs_pos (IZR d * bpow radix2 (-22))). nra. }
  destruct VQ as [VQ FQ].
  assert (Ex : forall k, d = k * (I * 4194304) -> rnd (IZR d / IZR (I * 4194304)) = IZR k).
  { intros k ->. replace (IZR (k * (I * 4194304)) / IZR (I * 4194304))%R with (IZR k).
    - apply rnd_int. nia.
    - rewrite (mult_IZR k). field. rewrite mult_IZR. lra. }
  assert (Grid : forall k, epoch_us s - epoch_us s0 = k * (I * 1000000) <-> d = k * (I * 4194304)).
  { intros k. split; intros K.
    - unfold d, n, n0. replace (epoch_us s) with (epoch_us s0 + 1000000 * (k * I)) by lia. rewrite ticks_shift. lia.
    - pose proof (ticks_unshift (epoch_us s0) (epoch_us s) (k * I)) as T. fold n n0 in T. fold d in T. lia. }
  split.
  - rewrite is_integer_val by auto. rewrite VQ. split.
    + intros (k & E). destruct (Znumtheory.Zdivide_dec (I * 4194304) d) as [(j & J)|N].
      * exists j. apply Grid. auto.
      * exfalso. eapply (div_not_int d (I * 4194304) k); eauto. split; [lia|]. apply Z.lt_trans with (two53 * 4194304); [lia|reflexivity].
    + intros (k & K). exists k. apply Ex, Grid. auto.
  - intros k K. apply to_Z_int. rewrite VQ. apply Ex, Grid. auto.
Qed.
