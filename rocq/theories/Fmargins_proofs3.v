(** The score in doubles. *)
From Coq Require Import List ZArith Lia Bool Reals Lra Arith.
From Flocq Require Import Core BinarySingleNaN Relative Sterbenz.
From Verif Require Import Base Dates_model Dates_float Fmargins_model Fmargins_float Fmargins_spec Fmargins_proofs Fmargins_proofs2.
From Verif Require Kernel_model.
Import ListNotations.
Open Scope R_scope.

(** ** bisect_left *)
Lemma bisect_loop_ok : forall fuel a x lo hi, (lo <= hi <= length a)%nat -> (hi - lo < fuel)%nat ->
  (forall i, (i < length a)%nat -> fin (nth i a zero) = true) -> fin x = true ->
  (lo = 0%nat \/ val (nth (lo - 1) a zero) < val x) -> (hi = length a \/ val x <= val (nth hi a zero)) ->
  exists k, bisect_left_loop fuel a x lo hi = Ok k /\ (lo <= k <= hi)%nat /\
    (k = 0%nat \/ val (nth (k - 1) a zero) < val x) /\ (k = length a \/ val x <= val (nth k a zero)).
Proof.
  induction fuel as [|fuel IH]; intros a x lo hi H Fu Fa Fx L Hh; [lia|]. cbn [bisect_left_loop].
  destruct (Nat.ltb_spec lo hi) as [C|C].
  - assert (M : (lo <= (lo + hi) / 2 < hi)%nat).
    { split; [apply Nat.div_le_lower_bound; lia|apply Nat.div_lt_upper_bound; lia]. }
    set (mid := ((lo + hi) / 2)%nat) in *. clearbody mid.
    rewrite (get_ok _ a mid zero) by lia. cbn [bind].
    destruct (fltb (nth mid a zero) x) eqn:T.
    + apply fltb_ok in T; [|apply Fa; lia|auto]. destruct (IH a x (mid + 1)%nat hi) as (k & E & K & P & Q); auto; try lia.
      { right. replace (mid + 1 - 1)%nat with mid by lia. auto. }
      exists k. repeat split; auto; lia.
    + apply fltb_no in T; [|apply Fa; lia|auto]. destruct (IH a x lo mid) as (k & E & K & P & Q); auto; try lia.
      exists k. repeat split; auto; lia.
  - exists lo. repeat split; auto; try lia. replace lo with hi by lia. auto.
Qed.

(** The reversed table: entry [i] is the factor of sensitivity [100 - i]. *)
Lemma rev_nth_ok : forall i, (i < 101)%nat ->
  val (nth i (rev factors) zero) = IZR (fac (100 - Z.of_nat i)) * p2 (-80) /\ fits 10 (nth i (rev factors) zero).
Proof.
  intros i H. assert (LF : length factors = 101%nat) by reflexivity. rewrite rev_nth by (rewrite LF; auto). rewrite LF.
  assert (Hq : (101 - S i < 101)%nat) by lia. assert (Iq : Z.of_nat (101 - S i) = (100 - Z.of_nat i)%Z) by lia.
  set (q := (101 - S i)%nat) in *. clearbody q. destruct (factors_nth q Hq) as (G & V & F & _).
  rewrite (get_ok _ factors q zero) in G by (rewrite LF; auto).
  assert (G' : nth q factors zero = lit (nth q factor_lits (0, 0)%Z)) by congruence. rewrite G'. split; auto.
  rewrite V. unfold fac. rewrite <- Iq, Nat2Z.id. reflexivity.
Qed.
Lemma rev_strict : forall i j, (i < j < 101)%nat -> val (nth i (rev factors) zero) < val (nth j (rev factors) zero).
Proof.
  intros i j H. destruct (rev_nth_ok i) as [Vi _]; [lia|]. destruct (rev_nth_ok j) as [Vj _]; [lia|]. rewrite Vi, Vj.
  apply Rmult_lt_compat_r; [apply bpow_gt_0|]. apply IZR_lt. unfold fac. apply decreasing_nth; [apply lits_decreasing|].
  rewrite map_length, lits_len. lia.
Qed.

Lemma bisect_ok : forall x, fin x = true -> exists k, bisect_left (rev factors) x = Ok k /\ (k <= 101)%nat /\
    (k = 0%nat \/ val (nth (k - 1) (rev factors) zero) < val x) /\ (k = 101%nat \/ val x <= val (nth k (rev factors) zero)).
Proof.
  intros x Fx. assert (LF : length (rev factors) = 101%nat) by reflexivity. unfold bisect_left. rewrite LF.
  destruct (bisect_loop_ok 102 (rev factors) x 0 101) as (k & E & K & P & Q); auto; try lia.
  { intros i Hi. apply (rev_nth_ok i). rewrite LF in Hi. auto. }
  rewrite LF in Q. exists k. repeat split; auto; lia.
Qed.

Section Score.
Variable unit : f64.
Hypothesis Hu : possible_unit unit.

Lemma dist_ok : forall v e, moderate v -> moderate e ->
  val (fdiv (fabs (fsub e v)) unit) = rnd (D v e / val unit) /\ fits 503 (fdiv (fabs (fsub e v)) unit).
Proof.
  intros v e Hv He. destruct (dev_ok v e Hv He) as (_ & _ & V & F).
  destruct (fdiv_ok 501 2 (fabs (fsub e v)) unit) as [V' F']; auto; try lia.
  { change (p2 (- (2))) with (p2 (-2)). rewrite p2_m2. apply unit_pos. auto. }
  rewrite V'. rewrite V. auto.
Qed.
Lemma inner_abs : forall (x a b : f64) (z : Z), fin x = true -> fits 10 a -> fits 10 b -> 0 <= val a -> (0 <= z < 101)%Z ->
  val a < val x <= val b -> p2 (-20) <= val b - val a ->
  let s := fadd (of_Z z) (fdiv (fsub x a) (fsub b a)) in
  val s = rnd (IZR z + rnd (rnd (val x - val a) / rnd (val b - val a))) /\ fits 9 s /\ IZR z <= val s <= IZR (z + 1).
Proof.
  intros x a b z Fx Fa Fb Pa Hz Hx Gap s.
  destruct (fsub_ok 10 b a) as [Vba Fba]; auto; try lia.
  assert (Fx' : fits 10 x). { split; auto. destruct Fb as [_ Fb]. rewrite Rabs_pos_eq in * by lra. lra. }
  destruct (fsub_ok 10 x a) as [Vxa Fxa]; auto; try lia.
  assert (Gap' : p2 (-20) <= val (fsub b a)). { rewrite Vba. apply rnd_ge_float; [apply p2_fmt; lia|auto]. }
  destruct (fdiv_ok 11 20 (fsub x a) (fsub b a)) as [Vq Fq]; auto; try lia.
  pose proof (bpow_gt_0 radix2 (-20)) as P20.
  assert (Q01 : 0 <= val (fdiv (fsub x a) (fsub b a)) <= 1).
  { rewrite Vq, Vxa. rewrite <- rnd_0 at 1.
    replace 1 with (rnd 1) by (apply rnd_id; apply (p2_fmt 0); lia).
    assert (0 <= rnd (val x - val a)) by (apply rnd_nonneg; lra).
    assert (rnd (val x - val a) <= val (fsub b a)) by (rewrite Vba; apply rnd_le; lra).
    split; apply rnd_le.
    - apply Rmult_le_pos; auto. left. apply Rinv_0_lt_compat. lra.
    - apply Rmult_le_reg_r with (val (fsub b a)); [lra|]. unfold Rdiv. rewrite Rmult_assoc, Rinv_l by (apply Rgt_not_eq; lra). lra. }
  destruct (of_Z_ok z 7) as [Vz Fz]; try lia.
  destruct (fadd_ok 8 (of_Z z) (fdiv (fsub x a) (fsub b a))) as [V F]; try lia.
  { eapply fits_mono; [|exact Fz]. lia. }
  { split; [apply Fq|]. rewrite Rabs_pos_eq by apply Q01. apply Rle_trans with 1; [apply Q01|]. change 1 with (p2 0). apply bpow_le. lia. }
  fold s in V, F. split; [|split]; auto.
  { rewrite V, Vz, Vq, Vxa, Vba. reflexivity. }
  rewrite V, Vz. split.
  - apply rnd_ge_float; [apply int_format; lia|lra].
  - apply rnd_le_float; [apply int_format; lia|]. rewrite plus_IZR. lra.
Qed.
Lemma gaps : forall i, (0 < i < 101)%nat -> (2 ^ 60 <= fac (100 - Z.of_nat i) - fac (100 - Z.of_nat (i - 1)))%Z.
Proof.
  intros i H. assert (Q : forallb (fun i => (2 ^ 60 <=? fac (100 - Z.of_nat i) - fac (100 - Z.of_nat (i - 1)))%Z) (seq 1 100) = true) by (vm_compute; reflexivity).
  rewrite forallb_forall in Q. apply Z.leb_le. apply Q. apply in_seq. lia.
Qed.
Lemma inner_ok : forall x k, fits 503 x -> (0 < k < 101)%nat ->
  val (nth (k - 1) (rev factors) zero) < val x -> val x <= val (nth k (rev factors) zero) ->
  let a := nth (k - 1) (rev factors) zero in let b := nth k (rev factors) zero in
  let s := fadd (of_Z (Z.of_nat k - 1)) (fdiv (fsub x a) (fsub b a)) in
  val s = rnd (IZR (Z.of_nat k - 1) + rnd (rnd (val x - val a) / rnd (val b - val a))) /\ fits 9 s /\
  IZR (Z.of_nat k - 1) <= val s <= IZR (Z.of_nat k).
Proof.
  intros x k Fx K Lo Hi a b s.
  destruct (rev_nth_ok (k - 1)) as [Va Fa]; [lia|]. destruct (rev_nth_ok k) as [Vb Fb]; [lia|]. fold a in Va, Fa, Lo. fold b in Vb, Fb, Hi.
  pose proof (gaps k K) as G.
  assert (Na : (0 <= fac (100 - Z.of_nat (k - 1)))%Z) by (apply fac_nonneg; lia).
  replace (Z.of_nat k) with (Z.of_nat k - 1 + 1)%Z at 3 by lia. unfold s. clear s. clearbody a b.
  apply inner_abs; auto; try lia.
  - apply Fx.
  - rewrite Va. apply Rmult_le_pos; [|apply bpow_ge_0]. apply IZR_le. auto.
  - rewrite Va, Vb. rewrite <- Rmult_minus_distr_r, <- minus_IZR.
    replace (p2 (-20)) with (IZR (2 ^ 60) * p2 (-80)).
    2: { change (2 ^ 60)%Z with (radix2 ^ 60)%Z. rewrite IZR_Zpower by lia. rewrite <- bpow_plus. reflexivity. }
    apply Rmult_le_compat_r; [apply bpow_ge_0|]. apply IZR_le. auto.
Qed.

Definition score_in (x : f64) (k : nat) (s : R) : Prop :=
  (k <= 101)%nat /\
  (k = 0%nat \/ val (nth (k - 1) (rev factors) zero) < val x) /\ (k = 101%nat \/ val x <= val (nth k (rev factors) zero)) /\
  ((k = 0%nat /\ s = 0) \/ ((100 <= k)%nat /\ s = 100) \/
   ((0 < k < 100)%nat /\ s = rnd (IZR (Z.of_nat k - 1) + rnd (rnd (val x - val (nth (k - 1) (rev factors) zero)) /
        rnd (val (nth k (rev factors) zero) - val (nth (k - 1) (rev factors) zero)))) /\
     IZR (Z.of_nat k - 1) <= s <= IZR (Z.of_nat k))).

Lemma score_ok : forall v e, moderate v -> moderate e -> exists sc k,
  calculate_anomaly_score v e unit = Ok sc /\ fits 9 sc /\ score_in (fdiv (fabs (fsub e v)) unit) k (val sc).
Proof.
  intros v e Hv He. destruct (dist_ok v e Hv He) as [_ F]. set (x := fdiv (fabs (fsub e v)) unit) in *.
  destruct (bisect_ok x) as (k & E & K & P & Q); [apply F|]. unfold calculate_anomaly_score. fold x. rewrite E. cbn [bind].
  destruct (Nat.eqb_spec k 0) as [K0|K0].
  { exists zero, k. destruct zero_val as [V0 F0]. split; [reflexivity|]. split; [eapply fits_mono; [|exact F0]; lia|].
    repeat split; auto. }
  destruct (Nat.leb_spec 100 k) as [KB|KB].
  { exists (of_Z 100), k. destruct hundred_val as [V0 F0]. split; [reflexivity|]. split; [eapply fits_mono; [|exact F0]; lia|].
    repeat split; auto. }
  assert (LF : length (rev factors) = 101%nat) by reflexivity.
  rewrite (get_ok _ (rev factors) (k - 1) zero) by (rewrite LF; lia). rewrite (get_ok _ (rev factors) k zero) by (rewrite LF; lia).
  cbn [bind]. destruct P as [P|P]; [lia|]. destruct Q as [Q|Q]; [lia|].
  destruct (inner_ok x k F ltac:(lia) P Q) as (V & Fs & R). eexists. exists k. split; [reflexivity|]. split; auto.
  repeat split; auto; try apply R. right. right. repeat split; auto; try lia; apply R.
Qed.
Lemma score_range : forall x k s, score_in x k s -> 0 <= s <= 100.
Proof.
  intros x k s (_ & _ & _ & [[_ ->]|[[_ ->]|(K & _ & R)]]); try lra. split.
  - apply Rle_trans with (IZR (Z.of_nat k - 1)); [|apply R]. apply IZR_le. lia.
  - apply Rle_trans with (IZR (Z.of_nat k)); [apply R|]. apply IZR_le. lia.
Qed.
Lemma score_mono : forall x y j k s t, score_in x j s -> score_in y k t -> val x <= val y -> s <= t.
Proof.
  intros x y j k s t Hx Hy L. pose proof (score_range _ _ _ Hx) as Rs. pose proof (score_range _ _ _ Hy) as Rt.
  destruct Hx as (J & P & Q & X). destruct Hy as (K & P' & Q' & Y).
  assert (JK : (j <= k)%nat).
  { destruct (le_lt_dec j k) as [|C]; auto. exfalso. destruct P as [P|P]; [lia|]. destruct Q' as [Q'|Q']; [lia|].
    destruct (Nat.eq_dec k (j - 1)) as [->|NE]; [lra|]. pose proof (rev_strict k (j - 1) ltac:(lia)). lra. }
  destruct X as [[_ ->]|[[J0 ->]|(J1 & Es & R)]]; [lra| |].
  - destruct Y as [[? ->]|[[? ->]|(? & _)]]; try lia. lra.
  - destruct Y as [[? ->]|[[? ->]|(K1 & Et & R')]]; try lia; [lra|].
    destruct (Nat.eq_dec j k) as [<-|NE].
    + rewrite Es, Et. apply rnd_le. apply Rplus_le_compat_l. apply rnd_le. apply Rmult_le_compat_r.
      * destruct (Rle_lt_or_eq_dec 0 (rnd (val (nth j (rev factors) zero) - val (nth (j - 1) (rev factors) zero)))) as [C|C].
        { apply rnd_nonneg. pose proof (rev_strict (j - 1) j ltac:(lia)). lra. }
        { left. apply Rinv_0_lt_compat. auto. } { rewrite <- C, Rinv_0. lra. }
      * apply rnd_le. lra.
    + apply Rle_trans with (IZR (Z.of_nat j)); [apply R|]. apply Rle_trans with (IZR (Z.of_nat k - 1)); [|apply R']. apply IZR_le. lia.
Qed.
End Score.
