(** Whole numbers: the sliding mean is the exact mean rounded once. *)
From Coq Require Import List Arith ZArith Lia Bool Reals Lra.
From Flocq Require Import Core BinarySingleNaN.
From Verif Require Import Base Dates_model Dates_float Kernel_model FillUp_model Helpers_model Fmargins_model Fmargins_float Fexpect_model Fexpect_spec
  Fexpect_proofs Fexpect_proofs2 Fexpect_proofs3.
From Verif Require SR_proofs.
Import ListNotations.
Open Scope R_scope.

Lemma fadd_int : forall x y a b, holds_int x a -> holds_int y b -> (Z.abs (a + b) < two53)%Z -> holds_int (fadd x y) (a + b).
Proof.
  intros x y a b [Vx Fx] [Vy Fy] H. pose proof (Bplus_correct 53 1024 _ _ mode_NE x y Fx Fy) as C.
  change (round_mode mode_NE) with ZnearestE in C. rewrite Vx, Vy, <- plus_IZR in C. rewrite rnd_no_overflow in C.
  - rewrite rnd_int in C by auto. unfold holds_int, fadd. tauto.
  - apply Rlt_le, IZR_bound. auto.
Qed.
Definition zsum (l : list Z) : Z := fold_right Z.add 0%Z l.
Definition zabs (l : list Z) : Z := zsum (map Z.abs l).
Lemma zsum_app : forall a b, zsum (a ++ b) = (zsum a + zsum b)%Z.
Proof. unfold zsum. induction a; intros; cbn; [lia|]. rewrite IHa. lia. Qed.
Lemma zabs_le : forall l, (Z.abs (zsum l) <= zabs l)%Z.
Proof. unfold zabs, zsum. induction l; cbn; lia. Qed.
Lemma zabs_pos : forall l, (0 <= zabs l)%Z.
Proof. intros. pose proof (zabs_le l). lia. Qed.
Lemma zabs_app : forall a b, zabs (a ++ b) = (zabs a + zabs b)%Z.
Proof. intros. unfold zabs. rewrite map_app, zsum_app. auto. Qed.
Lemma zabs_between : forall l a b, (zabs (between l a b) <= zabs l)%Z.
Proof.
  intros. unfold between. rewrite <- (firstn_skipn a l) at 2. rewrite <- (firstn_skipn (b - a) (skipn a l)) at 2. rewrite !zabs_app.
  pose proof (zabs_pos (firstn a l)). pose proof (zabs_pos (skipn (b - a) (skipn a l))). lia.
Qed.
Lemma total_zsum : forall l zs, Forall2 (fun x z => val x = IZR z) l zs -> total (map rv l) = IZR (zsum zs).
Proof. unfold total, zsum. induction 1; cbn; auto. rewrite IHForall2, H, plus_IZR. auto. Qed.

Lemma fscan_int : forall l zs acc a, Forall2 holds_int l zs -> holds_int acc a -> (Z.abs a + zabs zs < two53)%Z ->
  forall i, (i < length l)%nat -> exists s, nth_error (fscan acc l) i = Some s /\ holds_int s (a + zsum (firstn (S i) zs)).
Proof.
  intros l zs acc a F. revert acc a. induction F as [|x z l zs Hx F IH]; intros acc a Ha B i I; [simpl in I; lia|].
  unfold zabs in B. cbn [map zsum fold_right] in B. fold (zsum (map Z.abs zs)) in B. fold (zabs zs) in B. pose proof (zabs_pos zs).
  assert (H1 : holds_int (fadd acc x) (a + z)) by (apply fadd_int; auto; lia). destruct i as [|i].
  - exists (fadd acc x). split; auto. cbn [firstn zsum fold_right]. rewrite Z.add_0_r. auto.
  - destruct (IH (fadd acc x) (a + z)%Z H1 ltac:(lia) i ltac:(simpl in I; lia)) as (s & E & Hs). exists s. split; auto.
    change (firstn (S (S i)) (z :: zs)) with (z :: firstn (S i) zs). unfold zsum in *. cbn [fold_right]. rewrite Z.add_assoc. auto.
Qed.
Lemma fcumsum_int : forall l zs, Forall2 holds_int l zs -> (zabs zs < two53)%Z ->
  forall i, (i < length l)%nat -> exists s, nth_error (fcumsum l) i = Some s /\ holds_int s (zsum (firstn (S i) zs)).
Proof.
  intros l zs F B i I. destruct F as [|x z l zs Hx F]; [simpl in I; lia|].
  unfold zabs in B. cbn [map zsum fold_right] in B. fold (zsum (map Z.abs zs)) in B. fold (zabs zs) in B. pose proof (zabs_pos zs).
  destruct i as [|i].
  - exists x. split; auto. cbn [firstn zsum fold_right]. rewrite Z.add_0_r. auto.
  - destruct (fscan_int l zs x z F Hx ltac:(lia) i ltac:(simpl in I; lia)) as (s & E & Hs). exists s. split; auto.
Qed.
Lemma fdiv_int : forall x a c, holds_int x a -> (Z.abs a < two53)%Z -> (1 <= c <= 16777216)%Z ->
  fin (fdiv x (of_Z c)) = true /\ val (fdiv x (of_Z c)) = rnd (IZR a / IZR c).
Proof.
  intros x a c [V F] A C. destruct (count_val c C) as [Vc Cc]. destruct (fdiv_r x (of_Z c)) as [VV FF]; auto; [|lra|].
  - rewrite V. apply IZR_bound in A. eapply Rle_trans; [left; exact A|]. replace (IZR two53) with (p2 53) by (cbn; lra). apply bpow_le. lia.
  - rewrite VV, V, Vc. auto.
Qed.

Lemma faverage_int : forall values zs n, (0 < n)%nat -> Forall2 holds_int values zs -> (zabs zs < two53)%Z -> (Z.of_nat (length values) <= 16777216)%Z ->
  exists o, faverage_filter values n = Ok o /\ length o = length values /\
    forall i, (i < length values)%nat -> exists x, nth_error o i = Some x /\ fin x = true /\
      val x = rnd (mean (between (map rv values) (i + 1 - n) (i + 1))).
Proof.
  intros values zs n Hn F B LZ. assert (LF : length values = length zs) by (clear - F; induction F; cbn; auto).
  destruct (faverage_struct values n Hn) as (o & EO & LO & H). exists o. split; auto. split; auto. intros i I.
  destruct (fcumsum_int values zs F B i I) as (c & Ec & Hc). destruct (H i c Ec) as (H0 & H1 & H2).
  assert (T : forall l zs', Forall2 holds_int l zs' -> total (map rv l) = IZR (zsum zs')).
  { intros l zs' Q. apply total_zsum. clear - Q. induction Q as [|x z l zs' [V _] Q IH]; constructor; auto. }
  assert (SK : forall k a b, Forall2 holds_int a b -> Forall2 holds_int (skipn k a) (skipn k b)).
  { clear. induction k; intros a b Q; auto. destruct Q; simpl; auto. }
  assert (FK : forall k a b, Forall2 holds_int a b -> Forall2 holds_int (firstn k a) (firstn k b)).
  { clear. induction k; intros a b Q; simpl; auto. destruct Q; auto. }
  assert (MEAN : forall a b, (a < b)%nat -> (b <= length values)%nat ->
     mean (between (map rv values) a b) = IZR (zsum (between zs a b)) / IZR (Z.of_nat (b - a))).
  { intros a b A B'. unfold mean. rewrite between_length, map_length, Nat.min_l by lia. rewrite INR_Z, between_map.
    rewrite (T _ (between zs a b)); auto. unfold between. auto. }
  assert (BB : forall a b, (Z.abs (zsum (between zs a b)) < two53)%Z).
  { intros a b. pose proof (zabs_le (between zs a b)). pose proof (zabs_between zs a b). lia. }
  assert (DIFF : forall a b, (a <= b)%nat -> zsum (between zs a b) = (zsum (firstn b zs) - zsum (firstn a zs))%Z).
  { intros a b Q. rewrite (between_split _ zs a b Q), zsum_app. lia. }
  destruct (Nat.le_gt_cases n i) as [GE|LT].
  - destruct (fcumsum_int values zs F B (i - n) ltac:(lia)) as (c' & Ec' & Hc').
    replace (S i) with (i + 1)%nat in Hc by lia. replace (S (i - n)) with (i + 1 - n)%nat in Hc' by lia.
    pose proof (BB (i + 1 - n)%nat (i + 1)%nat) as Q. rewrite DIFF in Q by lia.
    pose proof (fsub_int c c' _ _ Hc Hc' Q) as HS.
    destruct (fdiv_int _ _ (Z.of_nat n) HS Q ltac:(lia)) as [FQ VQ].
    eexists. split; [apply (H2 c'); auto|]. split; auto. rewrite MEAN, DIFF by lia. replace (i + 1 - (i + 1 - n))%nat with n by lia. auto.
  - replace (i + 1 - n)%nat with 0%nat by lia. replace (S i) with (i + 1)%nat in Hc by lia.
    pose proof (BB 0%nat (i + 1)%nat) as Q. rewrite DIFF in Q by lia. cbn [firstn zsum fold_right] in Q. rewrite Z.sub_0_r in Q.
    assert (DD : zsum (between zs 0 (i + 1)) = zsum (firstn (i + 1) zs)).
    { rewrite DIFF by lia. cbn [firstn zsum fold_right]. lia. }
    destruct (Nat.eq_dec i 0) as [Z0|NZ].
    + exists c. split; [auto|]. destruct Hc as [Vc Fc]. split; auto. rewrite MEAN, DD by lia. rewrite Vc. subst i.
      change (IZR (Z.of_nat (0 + 1 - 0))) with 1. unfold Rdiv. rewrite Rinv_1, Rmult_1_r. rewrite rnd_int; auto.
    + destruct (fdiv_int _ _ (Z.of_nat (i + 1)) Hc Q ltac:(lia)) as [FQ VQ].
      eexists. split; [apply H1; lia|]. split; auto. rewrite MEAN, DD, Nat.sub_0_r by lia. auto.
Qed.

(** Every point a skeleton point: the local values are the values. *)
Lemma local_all : forall fsum series, fskeleton_expected fsum series (repeat true (length series)) = Ok series.
Proof.
  intros. unfold fskeleton_expected. cbv zeta.
  generalize (0%Z :: zscan 0 (repeat true (length series))). intros cnt.
  generalize (zero :: fcumsum (zip_with (fun v (b : bool) => fmul v (if b then one else zero)) series (repeat true (length series)))). intros sm.
  set (f := fun (iv : nat * f64) (b : bool) => _).
  assert (G : forall l k, Margins_model.mapM2 f (combine (seq k (length l)) l) (repeat true (length l)) = Ok l).
  { induction l as [|x l IH]; intros k; auto. cbn [length seq combine repeat Margins_model.mapM2]. unfold f at 1. cbn [fst snd bind].
    rewrite IH. auto. }
  apply G.
Qed.
Lemma stands_all : forall series, map (stands_for series (repeat true (length series))) (seq 0 (length series)) = map real series.
Proof.
  intros series. apply nth_ext with (d := 0) (d' := 0); [rewrite !map_length, seq_length; auto|].
  intros i I. rewrite map_length, seq_length in I.
  rewrite (nth_indep _ 0 (stands_for series (repeat true (length series)) 0)) by (rewrite map_length, seq_length; auto).
  rewrite map_nth, seq_nth by auto. cbn [Nat.add]. unfold stands_for.
  assert (Q : nth i (repeat true (length series)) false = true).
  { rewrite (nth_indep _ false true) by (rewrite repeat_length; auto). apply nth_repeat. }
  rewrite Q. rewrite (nth_indep (map real series) 0 (real (B754_zero false))) by (rewrite map_length; auto). rewrite map_nth. auto.
Qed.
