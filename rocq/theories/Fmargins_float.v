(** Facts about double arithmetic used by the proofs about double margins. *)
From Coq Require Import List ZArith Lia Bool Reals Lra.
From Flocq Require Import Core BinarySingleNaN Relative Sterbenz Plus_error.
From Verif Require Import Base Dates_model Dates_float Fmargins_model.
Import ListNotations.
Open Scope R_scope.

Notation fmt := (generic_format radix2 (SpecFloat.fexp 53 1024)).
Notation p2 := (bpow radix2).
#[export] Instance vexpF : Valid_exp (SpecFloat.fexp 53 1024) := FLT_exp_valid (-1074) 53.
#[export] Instance mexpF : Monotone_exp (SpecFloat.fexp 53 1024) := FLT_exp_monotone (-1074) 53.

(** ** Rounding *)
Lemma rnd_le : forall x y, x <= y -> rnd x <= rnd y.
Proof. intros. apply round_le; [apply vexpF|apply valid_rnd_N|auto]. Qed.
Lemma rnd_id : forall x, fmt x -> rnd x = x.
Proof. intros. apply round_generic; [apply valid_rnd_N|auto]. Qed.
Lemma val_fmt : forall x : f64, fmt (val x).
Proof. intros. apply generic_format_B2R. Qed.
Lemma rnd_val : forall x : f64, rnd (val x) = val x.
Proof. intros. apply rnd_id, val_fmt. Qed.
Lemma p2_fmt : forall k, (-1074 <= k)%Z -> fmt (p2 k).
Proof. intros. rewrite fexp_FLT. apply generic_format_FLT_bpow; [exact prec53|auto]. Qed.
Lemma rnd_0 : rnd 0 = 0.
Proof. apply round_0, valid_rnd_N. Qed.
Lemma rnd_nonneg : forall x, 0 <= x -> 0 <= rnd x.
Proof. intros. rewrite <- rnd_0. apply rnd_le. auto. Qed.
Lemma rnd_nonpos : forall x, x <= 0 -> rnd x <= 0.
Proof. intros. rewrite <- rnd_0. apply rnd_le. auto. Qed.
Lemma rnd_opp : forall x, rnd (- x) = - rnd x.
Proof. intros. apply round_NE_opp. Qed.
Lemma rnd_abs_le : forall x b, fmt b -> Rabs x <= b -> Rabs (rnd x) <= b.
Proof.
  intros x b F H. apply Rabs_le. apply Rabs_le_inv in H. split.
  - replace (- b) with (rnd (- b)) by (rewrite rnd_opp, rnd_id; auto). apply rnd_le. lra.
  - replace b with (rnd b) by (apply rnd_id; auto). apply rnd_le. lra.
Qed.
Lemma rnd_ge_float : forall x b, fmt b -> b <= x -> b <= rnd x.
Proof. intros. rewrite <- (rnd_id b) by auto. apply rnd_le. auto. Qed.
Lemma rnd_le_float : forall x b, fmt b -> x <= b -> rnd x <= b.
Proof. intros. rewrite <- (rnd_id b) by auto. apply rnd_le. auto. Qed.

(** ** Finite numbers of bounded size *)
Definition fits (k : Z) (x : f64) : Prop := fin x = true /\ Rabs (val x) <= p2 k.

Lemma fits_mono : forall j k x, (j <= k)%Z -> fits j x -> fits k x.
Proof. intros j k x H [F B]. split; auto. eapply Rle_trans; [exact B|]. apply bpow_le. auto. Qed.
Lemma no_ovf : forall k x, (-1074 <= k < 1024)%Z -> Rabs x <= p2 k -> Rlt_bool (Rabs (rnd x)) (p2 1024) = true.
Proof.
  intros k x K H. apply Rlt_bool_true. eapply Rle_lt_trans.
  - apply rnd_abs_le with (b := p2 k); auto. apply p2_fmt. lia.
  - apply bpow_lt. lia.
Qed.
Lemma p2_double : forall k, p2 (k + 1) = 2 * p2 k.
Proof. intros. rewrite bpow_plus. cbn [bpow Z.pow_pos Pos.iter radix_val radix2]. simpl (IZR _). lra. Qed.

Lemma fadd_ok : forall k x y, (-1074 <= k < 1023)%Z -> fits k x -> fits k y ->
  val (fadd x y) = rnd (val x + val y) /\ fits (k + 1) (fadd x y).
Proof.
  intros k x y K [Fx Bx] [Fy By]. pose proof (Bplus_correct 53 1024 _ _ mode_NE x y Fx Fy) as C.
  change (round_mode mode_NE) with ZnearestE in C.
  assert (B : Rabs (val x + val y) <= p2 (k + 1)).
  { rewrite p2_double. eapply Rle_trans; [apply Rabs_triang|lra]. }
  rewrite (no_ovf (k + 1)) in C by (auto; lia). destruct C as (V & F & _).
  unfold fadd, fits. rewrite V. repeat split; auto. apply rnd_abs_le; auto. apply p2_fmt. lia.
Qed.
Lemma fsub_ok : forall k x y, (-1074 <= k < 1023)%Z -> fits k x -> fits k y ->
  val (fsub x y) = rnd (val x - val y) /\ fits (k + 1) (fsub x y).
Proof.
  intros k x y K [Fx Bx] [Fy By]. pose proof (Bminus_correct 53 1024 _ _ mode_NE x y Fx Fy) as C.
  change (round_mode mode_NE) with ZnearestE in C.
  assert (B : Rabs (val x - val y) <= p2 (k + 1)).
  { rewrite p2_double. unfold Rminus. eapply Rle_trans; [apply Rabs_triang|]. rewrite Rabs_Ropp. lra. }
  rewrite (no_ovf (k + 1)) in C by (auto; lia). destruct C as (V & F & _).
  unfold fsub, fits. rewrite V. repeat split; auto. apply rnd_abs_le; auto. apply p2_fmt. lia.
Qed.
Lemma fmul_ok : forall j k x y, (-1074 <= j + k < 1024)%Z -> fits j x -> fits k y ->
  val (fmul x y) = rnd (val x * val y) /\ fits (j + k) (fmul x y).
Proof.
  intros j k x y K [Fx Bx] [Fy By]. pose proof (Bmult_correct 53 1024 _ _ mode_NE x y) as C.
  change (round_mode mode_NE) with ZnearestE in C.
  assert (B : Rabs (val x * val y) <= p2 (j + k)).
  { rewrite Rabs_mult, bpow_plus. apply Rmult_le_compat; auto; apply Rabs_pos. }
  rewrite (no_ovf (j + k)) in C by (auto; lia). destruct C as (V & F & _). rewrite Fx, Fy in F.
  unfold fmul, fits. rewrite V. repeat split; auto. apply rnd_abs_le; auto. apply p2_fmt. lia.
Qed.
Lemma fdiv_ok : forall j k x y, (-1074 <= j + k < 1024)%Z -> fits j x -> p2 (- k) <= val y ->
  val (fdiv x y) = rnd (val x / val y) /\ fits (j + k) (fdiv x y).
Proof.
  intros j k x y K [Fx Bx] By. pose proof (bpow_gt_0 radix2 (- k)).
  assert (NZ : val y <> 0) by lra.
  pose proof (Bdiv_correct 53 1024 _ _ mode_NE x y NZ) as C.
  change (round_mode mode_NE) with ZnearestE in C.
  assert (B : Rabs (val x / val y) <= p2 (j + k)).
  { unfold Rdiv. rewrite Rabs_mult, bpow_plus. apply Rmult_le_compat; auto; try apply Rabs_pos.
    rewrite Rabs_pos_eq by (left; apply Rinv_0_lt_compat; lra).
    replace (p2 k) with (/ p2 (- k)) by (rewrite <- bpow_opp; f_equal; lia).
    apply Rinv_le; lra. }
  rewrite (no_ovf (j + k)) in C by (auto; lia). destruct C as (V & F & _). rewrite Fx in F.
  unfold fdiv, fits. rewrite V. repeat split; auto. apply rnd_abs_le; auto. apply p2_fmt. lia.
Qed.
Lemma fabs_ok : forall k x, fits k x -> val (fabs x) = Rabs (val x) /\ fits k (fabs x).
Proof.
  intros k x [F B]. unfold fabs, fits. rewrite B2R_Babs, is_finite_Babs, Rabs_Rabsolu. auto.
Qed.

(** ** Comparisons *)
Lemma fltb_ok : forall x y, fin x = true -> fin y = true -> fltb x y = true <-> val x < val y.
Proof.
  intros x y Fx Fy. unfold fltb. rewrite (Bltb_correct 53 1024 x y Fx Fy). split; intro H.
  - destruct (Rlt_bool_spec (val x) (val y)); auto; discriminate.
  - apply Rlt_bool_true. auto.
Qed.
Lemma fltb_no : forall x y, fin x = true -> fin y = true -> fltb x y = false <-> val y <= val x.
Proof.
  intros x y Fx Fy. pose proof (fltb_ok x y Fx Fy) as I. destruct (fltb x y); split; intro H; auto; try discriminate.
  - assert (val x < val y) by tauto. lra.
  - destruct (Rlt_le_dec (val x) (val y)); auto. tauto || (assert (false = true) by tauto; discriminate).
Qed.
Lemma fleb_ok : forall x y, fin x = true -> fin y = true -> fleb x y = true <-> val x <= val y.
Proof.
  intros x y Fx Fy. unfold fleb. rewrite (Bleb_correct 53 1024 x y Fx Fy). split; intro H.
  - destruct (Rle_bool_spec (val x) (val y)); auto; discriminate.
  - apply Rle_bool_true. auto.
Qed.
Lemma fleb_no : forall x y, fin x = true -> fin y = true -> fleb x y = false <-> val y < val x.
Proof.
  intros x y Fx Fy. pose proof (fleb_ok x y Fx Fy) as I. destruct (fleb x y); split; intro H; auto; try discriminate.
  - assert (val x <= val y) by tauto. lra.
  - destruct (Rle_lt_dec (val x) (val y)); auto. assert (false = true) by tauto. discriminate.
Qed.
Lemma fmax_ok : forall k x y, fits k x -> fits k y -> val (fmax x y) = Rmax (val x) (val y) /\ fits k (fmax x y).
Proof.
  intros k x y Hx Hy. pose proof (proj1 Hx) as Fx. pose proof (proj1 Hy) as Fy. unfold fmax. destruct (fltb x y) eqn:E.
  - apply fltb_ok in E; auto. split; auto. symmetry. apply Rmax_right. lra.
  - apply fltb_no in E; auto. split; auto. symmetry. apply Rmax_left. lra.
Qed.
Lemma fmin_ok : forall k x y, fits k x -> fits k y -> val (fmin x y) = Rmin (val x) (val y) /\ fits k (fmin x y).
Proof.
  intros k x y Hx Hy. pose proof (proj1 Hx) as Fx. pose proof (proj1 Hy) as Fy. unfold fmin. destruct (fltb y x) eqn:E.
  - apply fltb_ok in E; auto. split; auto. symmetry. apply Rmin_right. lra.
  - apply fltb_no in E; auto. split; auto. symmetry. apply Rmin_left. lra.
Qed.
Lemma fmax_list_ok : forall k l d, fits k d -> Forall (fits k) l ->
  fits k (fmax_list d l) /\ val d <= val (fmax_list d l) /\ (forall x, In x l -> val x <= val (fmax_list d l)).
Proof.
  intros k. induction l as [|a l IH]; intros d Hd Hl; cbn.
  - repeat split; try apply Hd; try lra. tauto.
  - inversion Hl; subst. destruct (fmax_ok k d a) as [V F]; auto. destruct (IH (fmax d a)) as (A & B & C); auto.
    fold (fmax_list (fmax d a) l). rewrite V in B. pose proof (Rmax_l (val d) (val a)). pose proof (Rmax_r (val d) (val a)).
    split; auto. split; [lra|]. intros x [->|I]; auto. lra.
Qed.
Lemma fmin_list_ok : forall k l d, fits k d -> Forall (fits k) l ->
  fits k (fmin_list d l) /\ val (fmin_list d l) <= val d /\ (forall x, In x l -> val (fmin_list d l) <= val x).
Proof.
  intros k. induction l as [|a l IH]; intros d Hd Hl; cbn.
  - repeat split; try apply Hd; try lra. tauto.
  - inversion Hl; subst. destruct (fmin_ok k d a) as [V F]; auto. destruct (IH (fmin d a)) as (A & B & C); auto.
    fold (fmin_list (fmin d a) l). rewrite V in B. pose proof (Rmin_l (val d) (val a)). pose proof (Rmin_r (val d) (val a)).
    split; auto. split; [lra|]. intros x [->|I]; auto. lra.
Qed.

(** ** Integers *)
Lemma of_Z_ok : forall z k, (Z.abs z <= 2 ^ k)%Z -> (0 <= k < 53)%Z -> val (of_Z z) = IZR z /\ fits k (of_Z z).
Proof.
  intros z k H K. destruct (of_Z_val z) as [V F].
  { eapply Z.le_lt_trans; [exact H|]. change two53 with (2 ^ 53)%Z. apply Z.pow_lt_mono_r; lia. }
  split; auto. split; auto. rewrite V, <- abs_IZR. rewrite <- (IZR_Zpower radix2) by lia.
  apply IZR_le. auto.
Qed.

(** ** Error of one rounding *)
Notation u := (/ 9007199254740992).
Lemma p2_m53 : p2 (-53) = u. Proof. cbn. lra. Qed.
Lemma rnd_sub_err : forall x y : f64, Rabs (rnd (val x - val y) - (val x - val y)) <= u * Rabs (val x - val y).
Proof.
  intros x y. pose proof (FLT_plus_error_N_ex radix2 (-1074) 53 (fun z => negb (Z.even z)) (val x) (- val y)) as H.
  destruct H as (eps & E & H).
  { rewrite <- fexp_FLT. apply val_fmt. } { rewrite <- fexp_FLT. apply generic_format_opp, val_fmt. }
  rewrite <- fexp_FLT in H. unfold Rminus in *. change (Znearest (fun x0 : Z => negb (Z.even x0))) with ZnearestE in H. rewrite H.
  replace ((val x + - val y) * (1 + eps) + - (val x + - val y)) with (eps * (val x + - val y)) by ring.
  rewrite Rabs_mult. apply Rmult_le_compat_r; [apply Rabs_pos|].
  eapply Rle_trans; [exact E|]. pose proof (u_rod1pu_ro_le_u_ro radix2 53). unfold u_ro in *. cbn in *. lra.
Qed.
Lemma rnd_add_err : forall x y : f64, Rabs (rnd (val x + val y) - (val x + val y)) <= u * Rabs (val x + val y).
Proof.
  intros x y. pose proof (rnd_sub_err x (Bopp y)) as H. rewrite B2R_Bopp in H. unfold Rminus in *. rewrite Ropp_involutive in H. auto.
Qed.
Lemma rnd_err : forall x, p2 (-1022) <= Rabs x -> Rabs (rnd x - x) <= u * Rabs x.
Proof.
  intros x H. pose proof (relative_error_N_FLT radix2 (-1074) 53 prec53 (fun z => negb (Z.even z)) x) as R.
  rewrite <- fexp_FLT in R. specialize (R H). eapply Rle_trans; [exact R|]. apply Rmult_le_compat_r; [apply Rabs_pos|]. cbn. lra.
Qed.
