(** The V2 band in doubles. *)
From Coq Require Import List ZArith Lia Bool Reals Lra.
From Flocq Require Import Core BinarySingleNaN Relative Sterbenz.
From Verif Require Import Base Dates_model Dates_float Fmargins_model Fmargins_float Fmargins_spec Fmargins_proofs.
From Verif Require Kernel_model.
Import ListNotations.
Open Scope R_scope.

(** ** Constants *)
Lemma zero_val : val zero = 0 /\ fits 0 zero.
Proof. destruct (of_Z_ok 0 0) as [V F]; try lia. auto. Qed.
Lemma one_val : val one = 1 /\ fits 0 one.
Proof. destruct (of_Z_ok 1 0) as [V F]; try (cbn; lia). auto. Qed.
Lemma three_val : val (of_Z 3) = 3 /\ fits 2 (of_Z 3).
Proof. destruct (of_Z_ok 3 2) as [V F]; try (cbn; lia). auto. Qed.
Lemma hundred_val : val (of_Z 100) = 100 /\ fits 7 (of_Z 100).
Proof. destruct (of_Z_ok 100 7) as [V F]; try (cbn; lia). auto. Qed.
Lemma p2_m1 : p2 (-1) = / 2. Proof. cbn. lra. Qed.
Lemma p2_m2 : p2 (-2) = / 4. Proof. cbn. lra. Qed.
Lemma quot_ok : forall a b k, (Z.abs a <= 2 ^ k)%Z -> (0 <= k < 53)%Z -> (0 < b < 2 ^ 53)%Z ->
  val (fdiv (of_Z a) (of_Z b)) = rnd (IZR a / IZR b) /\ fits k (fdiv (of_Z a) (of_Z b)).
Proof.
  intros a b k A K B. destruct (of_Z_ok a k A K) as [Va Fa].
  destruct (of_Z_val b) as [Vb Fb]; [rewrite Z.abs_eq by lia; apply B|].
  destruct (fdiv_ok k 0 (of_Z a) (of_Z b)) as [V F]; auto; try lia.
  - rewrite Vb. cbn. apply IZR_le. lia.
  - rewrite Va, Vb in V. rewrite Z.add_0_r in F. auto.
Qed.
Lemma half_val : val half = / 2 /\ fits (-1) half.
Proof.
  destruct (quot_ok 1 2 0) as [V F]; try (cbn; lia). unfold half.
  assert (E : rnd (1 / 2) = / 2). { replace (1 / 2) with (p2 (-1)) by (rewrite p2_m1; lra). rewrite rnd_id by (apply p2_fmt; lia). apply p2_m1. }
  rewrite V, E. split; auto. split; [apply F|]. rewrite V, E, p2_m1. rewrite Rabs_pos_eq; lra.
Qed.
Lemma ratio_val : 0 <= val IGNORE_RATIO /\ fits 0 IGNORE_RATIO.
Proof.
  destruct (quot_ok 1 10000 0) as [V F]; try (cbn; lia). unfold IGNORE_RATIO. split; auto. rewrite V. apply rnd_nonneg. lra.
Qed.
Lemma min_unit_val : / 4 <= val MIN_UNIT /\ fits 2 MIN_UNIT.
Proof.
  destruct (quot_ok 3 10 2) as [V F]; try (cbn; lia). unfold MIN_UNIT. split; auto. rewrite V.
  rewrite <- p2_m2. apply rnd_ge_float; [apply p2_fmt; lia|]. rewrite p2_m2. lra.
Qed.

Lemma moderate_fits : forall x, moderate x -> fits 500 x. Proof. intros x H. exact H. Qed.
Lemma fits_nonneg : forall k x, fits k x -> 0 <= val x -> nonneg x.
Proof. intros k x [F _] H. split; auto. Qed.

Section Point.
Variables unit v e : f64.
Hypothesis Hu : possible_unit unit.
Hypothesis Hv : moderate v.
Hypothesis He : moderate e.

Lemma unit_pos : / 4 <= val unit.
Proof. destruct Hu as [_ H]. destruct min_unit_val as [M _]. unfold real in H. lra. Qed.

(** The margin of an anomaly before the rule of sensitivity 99. *)
Definition B (s : Z) : R := rnd (val unit * (IZR (fac s) * p2 (-80))).
Lemma fac_nonneg : forall s, (0 <= s <= 100)%Z -> (0 <= fac s)%Z.
Proof. intros s H. apply (factors_nth (Z.to_nat s)). lia. Qed.
Lemma B_nonneg : forall s, (0 <= s <= 100)%Z -> 0 <= B s.
Proof.
  intros s H. apply rnd_nonneg. pose proof unit_pos. apply Rmult_le_pos; [lra|]. apply Rmult_le_pos; [|apply bpow_ge_0].
  apply IZR_le. apply fac_nonneg. auto.
Qed.
Lemma B_mono : forall s t, (0 <= s <= t)%Z -> (t <= 100)%Z -> B t <= B s.
Proof.
  intros s t H K. apply rnd_le. pose proof unit_pos. apply Rmult_le_compat_l; [lra|].
  apply Rmult_le_compat_r; [apply bpow_ge_0|]. apply IZR_le. apply fac_mono; auto.
Qed.
Lemma B_100 : B 100 = 0.
Proof. unfold B. rewrite fac_100, Rmult_0_l, Rmult_0_r. apply rnd_0. Qed.
Lemma delta_ok : forall s, (0 <= s <= 100)%Z -> exists f,
  Kernel_model.get factors (Z.to_nat s) = Ok f /\ val (fmul unit f) = B s /\ fits 510 (fmul unit f).
Proof.
  intros s H. destruct (factors_nth (Z.to_nat s)) as (G & V & F & _); [lia|].
  exists (lit (nth (Z.to_nat s) factor_lits (0, 0)%Z)). split; auto.
  destruct (fmul_ok 500 10 unit (lit (nth (Z.to_nat s) factor_lits (0, 0)%Z))) as [V' F']; auto; try lia.
  { apply Hu. }
  rewrite V' at 1. rewrite V. split; auto.
Qed.
Lemma unit_not_zero : fleb unit zero = false.
Proof.
  destruct zero_val as [Z0 FZ]. apply fleb_no; [apply Hu|apply FZ|]. rewrite Z0. pose proof unit_pos. lra.
Qed.
Lemma in_range : forall s, (0 <= s <= 100)%Z -> ((s <? 0)%Z || (100 <? s)%Z)%bool = false.
Proof. intros s H. apply orb_false_iff. split; apply Z.ltb_ge; lia. Qed.

Definition D : R := Rabs (rnd (val v - val e)).
Lemma D_nonneg : 0 <= D. Proof. apply Rabs_pos. Qed.
Lemma dev_ok : val (fabs (fsub v e)) = D /\ fits 501 (fabs (fsub v e)) /\
               val (fabs (fsub e v)) = D /\ fits 501 (fabs (fsub e v)).
Proof.
  destruct (fsub_ok 500 v e) as [V F]; auto; try lia. destruct (fsub_ok 500 e v) as [V2 F2]; auto; try lia.
  destruct (fabs_ok 501 _ F) as [A FA]. destruct (fabs_ok 501 _ F2) as [A2 FA2].
  repeat split; try apply FA; try apply FA2.
  - rewrite A, V. reflexivity.
  - rewrite A2, V2. unfold D. replace (val e - val v) with (- (val v - val e)) by ring.
    rewrite rnd_opp, Rabs_Ropp. reflexivity.
Qed.

Lemma margin_anomaly : forall s, (0 <= s <= 100)%Z -> exists d,
  calculate_margin unit s v e true = Ok (d, d) /\ fits 510 d /\ 0 <= val d <= B s /\ (s <> 99%Z -> val d = B s).
Proof.
  intros s H. unfold calculate_margin. rewrite in_range, unit_not_zero by auto. unfold calculate_changed_margin.
  destruct (delta_ok s H) as (f & G & Vd & Fd). rewrite G. cbn [bind negb].
  destruct dev_ok as (V1 & F1 & V2 & F2).
  pose proof (B_nonneg s H) as BN.
  destruct (fltb (fmul (fmul unit f) IGNORE_RATIO) (fabs (fsub v e)) && fltb (fabs (fsub v e)) (fmul unit f) && (s =? 99)%Z) eqn:T.
  - apply andb_true_iff in T as [T T3]. apply andb_true_iff in T as [T1 T2]. apply Z.eqb_eq in T3.
    apply fltb_ok in T2; [|apply F1|apply Fd].
    eexists. split; [reflexivity|]. destruct half_val as [VH FH].
    destruct (fmul_ok 501 (-1) (fabs (fsub e v)) half) as [V F]; auto; try lia.
    rewrite V, V2, VH. rewrite V1, Vd in T2. pose proof D_nonneg. split; [eapply fits_mono; [|exact F]; lia|]. split.
    + split; [apply rnd_nonneg; lra|].
      apply Rle_trans with (rnd D). { apply rnd_le. lra. } rewrite <- V2, rnd_val, V2. lra.
    + lia.
  - eexists. split; [reflexivity|]. split; auto. split; [rewrite Vd; lra|auto].
Qed.

(** The larger margin of a point that is not an anomaly. *)
Definition N (s : Z) : R := rnd (D + rnd (B s * / 2)).
Lemma margin_normal : forall s, (0 <= s <= 100)%Z -> exists d t,
  calculate_margin unit s v e false = Ok (if fltb e v then (d, t) else (t, d)) /\
  fits 512 d /\ val d = N s /\ fits 512 t /\ val t = rnd (N s / 3).
Proof.
  intros s H. unfold calculate_margin. rewrite in_range, unit_not_zero by auto. unfold calculate_changed_margin.
  destruct (delta_ok s H) as (f & G & Vd & Fd). rewrite G. cbn [bind negb].
  destruct dev_ok as (V1 & F1 & V2 & F2). destruct half_val as [VH FH]. destruct three_val as [V3 F3].
  destruct (fmul_ok 510 (-1) (fmul unit f) half) as [Vh Fh]; auto; try lia.
  destruct (fadd_ok 510 (fabs (fsub e v)) (fmul (fmul unit f) half)) as [V F]; try lia.
  { eapply fits_mono; [|exact F2]. lia. } { eapply fits_mono; [|exact Fh]. lia. }
  destruct (fdiv_ok 511 0 (fadd (fabs (fsub e v)) (fmul (fmul unit f) half)) (of_Z 3)) as [Vt Ft]; auto; try lia.
  { rewrite V3. cbn. lra. }
  exists (fadd (fabs (fsub e v)) (fmul (fmul unit f) half)). eexists.
  split. { destruct (fltb e v); reflexivity. }
  assert (E : val (fadd (fabs (fsub e v)) (fmul (fmul unit f) half)) = N s).
  { rewrite V, V2, Vh, Vd, VH. reflexivity. }
  split; [eapply fits_mono; [|exact F]; lia|]. split; auto. split; [eapply fits_mono; [|exact Ft]; lia|].
  rewrite Vt, V3, E. reflexivity.
Qed.
Lemma N_nonneg : forall s, (0 <= s <= 100)%Z -> 0 <= N s.
Proof.
  intros s H. apply rnd_nonneg. pose proof D_nonneg. pose proof (B_nonneg s H).
  assert (0 <= rnd (B s * / 2)) by (apply rnd_nonneg; lra). lra.
Qed.
Lemma N_mono : forall s t, (0 <= s <= t)%Z -> (t <= 100)%Z -> N t <= N s.
Proof.
  intros s t H K. apply rnd_le. pose proof (B_mono s t H K). assert (rnd (B t * / 2) <= rnd (B s * / 2)) by (apply rnd_le; lra). lra.
Qed.

(** Whatever the flag: the margins exist, are finite and not negative, and do
    not grow with the sensitivity. *)
Lemma margin_ok : forall s a, (0 <= s <= 100)%Z -> exists m, calculate_margin unit s v e a = Ok m /\
  fits 512 (fst m) /\ fits 512 (snd m) /\ 0 <= val (fst m) /\ 0 <= val (snd m).
Proof.
  intros s a H. destruct a.
  - destruct (margin_anomaly s H) as (d & E & F & R & _). exists (d, d). cbn [fst snd].
    assert (fits 512 d) by (eapply fits_mono; [|exact F]; lia). tauto.
  - destruct (margin_normal s H) as (d & t & E & F & V & Ft & Vt). exists (if fltb e v then (d, t) else (t, d)). split; auto.
    pose proof (N_nonneg s H). assert (0 <= rnd (N s / 3)) by (apply rnd_nonneg; lra).
    destruct (fltb e v); cbn [fst snd]; rewrite V, Vt; auto.
Qed.
Lemma margin_mono : forall s t a m n, (0 <= s <= t)%Z -> (t <= 100)%Z ->
  calculate_margin unit s v e a = Ok m -> calculate_margin unit t v e a = Ok n ->
  val (fst n) <= val (fst m) /\ val (snd n) <= val (snd m).
Proof.
  intros s t a m n H K Em En. destruct (Z.eq_dec s t) as [->|NE].
  { rewrite Em in En. inversion En. split; lra. }
  destruct a.
  - destruct (margin_anomaly s) as (d & E & F & R & X); [lia|]. destruct (margin_anomaly t) as (d' & E' & F' & R' & X'); [lia|].
    rewrite E in Em. rewrite E' in En. inversion Em; subst m. inversion En; subst n. cbn [fst snd].
    assert (val d' <= val d); [|auto]. destruct (Z.eq_dec s 99) as [->|N9].
    + assert (t = 100)%Z by lia. subst t. rewrite X' by lia. rewrite B_100. lra.
    + rewrite X by auto. pose proof (B_mono s t H K). lra.
  - destruct (margin_normal s) as (d & q & E & F & V & Ft & Vt); [lia|].
    destruct (margin_normal t) as (d' & q' & E' & F' & V' & Ft' & Vt'); [lia|].
    rewrite E in Em. rewrite E' in En. pose proof (N_mono s t H K) as L.
    assert (rnd (N t / 3) <= rnd (N s / 3)) by (apply rnd_le; lra).
    destruct (fltb e v); inversion Em; subst m; inversion En; subst n; cbn [fst snd]; rewrite V, V', Vt, Vt'; auto.
Qed.

(** A normal point lies inside its band, unless it is astronomically far away. *)
Lemma fac_99_size : 29 / 100000 <= IZR (fac 99) * p2 (-80).
Proof.
  assert (H : (2 ^ 80 * 29 <= fac 99 * 100000)%Z) by (vm_compute; discriminate).
  apply IZR_le in H. rewrite !mult_IZR in H. change (2 ^ 80)%Z with (radix2 ^ 80)%Z in H. rewrite IZR_Zpower in H by lia.
  assert (W : p2 80 * p2 (-80) = 1) by (rewrite <- bpow_plus; reflexivity).
  pose proof (bpow_gt_0 radix2 (-80)) as P. pose proof (bpow_gt_0 radix2 80) as P2.
  set (a := p2 80) in *. set (b := p2 (-80)) in *. set (c := IZR (fac 99)) in *. clearbody a b c.
  apply Rmult_le_reg_l with a; auto. replace (a * (c * b)) with (c * (a * b)) by ring. rewrite W. lra.
Qed.
Lemma rnd_lower : forall x, p2 (-1022) <= x -> x * (1 - u) <= rnd x.
Proof.
  intros x H. pose proof (bpow_gt_0 radix2 (-1022)). pose proof (rnd_err x) as E. rewrite Rabs_pos_eq in E by lra.
  specialize (E H). apply Rabs_le_inv in E. lra.
Qed.
Lemma half_B : forall s, (0 <= s <= 99)%Z -> / 8192 * val unit <= rnd (B s * / 2).
Proof.
  intros s H. pose proof unit_pos as U. pose proof fac_99_size as F9.
  assert (T : p2 (-1022) <= p2 (-20)) by (apply bpow_le; lia).
  assert (T2 : p2 (-20) = / 1048576) by (cbn; lra).
  assert (Fa : 29 / 100000 <= IZR (fac s) * p2 (-80)).
  { eapply Rle_trans; [exact F9|]. apply Rmult_le_compat_r; [apply bpow_ge_0|]. apply IZR_le. apply fac_99. auto. }
  set (f := IZR (fac s) * p2 (-80)) in *.
  assert (P : val unit * (29 / 100000) <= val unit * f) by (apply Rmult_le_compat_l; lra).
  assert (L : val unit * f * (1 - u) <= B s). { apply rnd_lower. lra. }
  assert (L2 : val unit * (28 / 100000) <= B s) by lra.
  assert (L3 : B s * / 2 * (1 - u) <= rnd (B s * / 2)). { apply rnd_lower. lra. }
  lra.
Qed.
Lemma normal_reach : forall s, (0 <= s <= 99)%Z -> Rabs (val v - val e) <= 274877906944 * val unit ->
  Rabs (val v - val e) <= N s.
Proof.
  intros s H Far. destruct dev_ok as (_ & _ & VD & FD). pose proof (half_B s H) as HB. pose proof unit_pos as U.
  set (x := Rabs (val v - val e)) in *. assert (Px : 0 <= x) by apply Rabs_pos.
  assert (LD : x * (1 - u) <= D).
  { unfold D. pose proof (rnd_sub_err v e) as E. fold x in E.
    pose proof (Rabs_triang_inv (val v - val e) (val v - val e - rnd (val v - val e))) as T. fold x in T.
    replace (val v - val e - (val v - val e - rnd (val v - val e))) with (rnd (val v - val e)) in T by ring.
    rewrite <- Rabs_Ropp in E. replace (- (rnd (val v - val e) - (val v - val e))) with (val v - val e - rnd (val v - val e)) in E by ring.
    lra. }
  set (h := rnd (B s * / 2)) in *.
  assert (LN : (D + h) * (1 - u) <= N s).
  { unfold N. fold h. apply rnd_lower. pose proof D_nonneg.
    assert (p2 (-1022) <= p2 (-20)) by (apply bpow_le; lia). assert (p2 (-20) = / 1048576) by (cbn; lra). lra. }
  assert (x * (1 - u) * (1 - u) + h * (1 - u) <= N s) by lra.
  assert (x * (2 * u) <= h * (1 - u)) by lra.
  assert (0 <= x * u * u) by (apply Rmult_le_pos; lra). lra.
Qed.
End Point.

(** ** Reported exactly outside the band *)
Lemma sum_ok : forall e m, moderate e -> fits 512 m ->
  val (fadd e m) = rnd (val e + val m) /\ fin (fadd e m) = true /\ val (fsub e m) = rnd (val e - val m) /\ fin (fsub e m) = true.
Proof.
  intros e m He Hm. assert (F : fits 512 e) by (apply fits_mono with 500%Z; [lia|exact He]).
  destruct (fadd_ok 512 e m) as [V [F1 _]]; auto; try lia. destruct (fsub_ok 512 e m) as [V' [F2 _]]; auto; lia.
Qed.

Lemma normal_inside : forall unit v e s m, possible_unit unit -> moderate v -> moderate e -> (0 <= s <= 99)%Z ->
  Rabs (val v - val e) <= 274877906944 * val unit -> calculate_margin unit s v e false = Ok m ->
  val v <= val (fadd e (fst m)) /\ val (fsub e (snd m)) <= val v.
Proof.
  intros unit v e s m Hu Hv He H Far E.
  destruct (margin_normal unit v e Hu Hv He s) as (d & t & E' & F & V & Ft & Vt); [lia|].
  pose proof (normal_reach unit v e Hu Hv He s H Far) as Rch.
  assert (NN : 0 <= N unit v e s) by (apply N_nonneg; auto; lia).
  assert (TT : 0 <= rnd (N unit v e s / 3)) by (apply rnd_nonneg; lra).
  rewrite E in E'. inversion E'; subst m. clear E'.
  destruct (sum_ok e d He F) as (A1 & _ & A2 & _). destruct (sum_ok e t He Ft) as (B1 & _ & B2 & _).
  destruct (fltb e v) eqn:C; cbn [fst snd].
  - apply fltb_ok in C; [|apply He|apply Hv]. rewrite Rabs_pos_eq in Rch by lra. rewrite A1, B2, V, Vt. split.
    + apply rnd_ge_float; [apply val_fmt|lra].
    + apply rnd_le_float; [apply val_fmt|lra].
  - apply fltb_no in C; [|apply He|apply Hv]. rewrite Rabs_minus_sym, Rabs_pos_eq in Rch by lra. rewrite A2, B1, V, Vt. split.
    + apply rnd_ge_float; [apply val_fmt|lra].
    + apply rnd_le_float; [apply val_fmt|lra].
Qed.
