(** The local values, and the expected values as a whole. *)
From Coq Require Import List Arith ZArith Lia Bool Reals Lra Permutation.
From Flocq Require Import Core BinarySingleNaN.
From Verif Require Import Base Dates_model Dates_float Kernel_model FillUp_model Helpers_model Fmargins_model Fmargins_float Fexpect_model Fexpect_spec Fexpect_proofs Fexpect_proofs2.
From Verif Require Kernel_proofs SR_proofs.
Import ListNotations.
Open Scope R_scope.

(** ** Counting *)
Lemma zscan_nth : forall l acc i, (i < length l)%nat ->
  nth_error (zscan acc l) i = Some (acc + Z.of_nat (length (filter (fun b : bool => b) (firstn (S i) l))))%Z.
Proof.
  induction l as [|b l IH]; intros acc i I; [simpl in I; lia|]. cbn [zscan]. destruct i as [|i].
  - cbn [nth_error firstn filter]. destruct b; cbn; f_equal; lia.
  - cbn [nth_error]. rewrite IH by (simpl in I; lia). change (firstn (S (S i)) (b :: l)) with (b :: firstn (S i) l). cbn [filter].
    destruct b; cbn [length]; f_equal; lia.
Qed.
Lemma count_nth : forall l k, (k <= length l)%nat ->
  nth_error (0%Z :: zscan 0 l) k = Some (Z.of_nat (length (filter (fun b : bool => b) (firstn k l)))).
Proof. intros l [|k] K; [auto|]. cbn [nth_error]. rewrite zscan_nth by lia. f_equal. Qed.
Lemma count_pairs : forall (P : list (f64 * bool)) k,
  length (filter (fun b : bool => b) (firstn k (map snd P))) = length (filter (fun p : f64 * bool => snd p) (firstn k P)).
Proof.
  induction P as [|[v b] P IH]; intros [|k]; auto. cbn [map firstn filter snd]. destruct b; cbn [length]; auto.
Qed.
Lemma count_between : forall (P : list (f64 * bool)) a b, (a <= b)%nat ->
  (Z.of_nat (length (filter (fun p : f64 * bool => snd p) (firstn b P))) - Z.of_nat (length (filter (fun p : f64 * bool => snd p) (firstn a P))) =
   Z.of_nat (length (filter (fun p : f64 * bool => snd p) (between P a b))))%Z.
Proof. intros P a b H. rewrite (between_split _ P a b H), filter_app, app_length. lia. Qed.

(** ** Masked sums *)
Definition masked (p : f64 * bool) : R := if snd p then val (fst p) else 0.
Lemma masked_total : forall P : list (f64 * bool),
  total (map masked P) = total (map (fun p : f64 * bool => real (fst p)) (filter (fun p : f64 * bool => snd p) P)).
Proof.
  unfold total. induction P as [|[v b] P IH]; auto. cbn [map filter snd]. unfold masked at 1. cbn [fst snd].
  destruct b; cbn [map fold_right fst]; rewrite IH; unfold real; lra.
Qed.
Lemma one_val : val one = 1 /\ fin one = true.
Proof. destruct (of_Z_ok 1 0) as [V [F _]]; [simpl; lia|lia|]. auto. Qed.
Lemma zero_val : val zero = 0 /\ fin zero = true.
Proof. destruct (of_Z_ok 0 0) as [V [F _]]; [simpl; lia|lia|]. auto. Qed.
Lemma mask_val : forall v (b : bool), fin v = true -> Rabs (val v) <= p2 600 ->
  fin (fmul v (if b then one else zero)) = true /\ val (fmul v (if b then one else zero)) = masked (v, b).
Proof.
  intros v b F B. destruct one_val as [V1 F1]. destruct zero_val as [V0 F0].
  assert (FB : fits 0 (if b then one else zero)).
  { destruct b; split; auto; [rewrite V1|rewrite V0]; rewrite Rabs_pos_eq by lra; cbn; lra. }
  destruct (fmul_ok 600 0 v (if b then one else zero)) as [V FF]; [lia|split; auto|auto|]. split; [apply FF|]. rewrite V.
  unfold masked. cbn [fst snd]. destruct b; [rewrite V1, Rmult_1_r, rnd_val; auto|rewrite V0, Rmult_0_r, rnd_0; auto].
Qed.

Section Err.
Variable fsum : list f64 -> f64.
Hypothesis SUM : adds_up fsum.
Variable M : R.
Hypothesis HM : p2 (-1000) <= M <= p2 510.
Variable N : R.
Hypothesis HN : 1 <= N <= 16777216.
Notation g := (u * (N * N)).
Notation small := (small M).
Lemma below_600 : forall x, small x -> Rabs (val x) <= p2 600.
Proof. intros x [_ B]. pose proof (big_ok M HM). pose proof (M_pos M HM). lra. Qed.

(** np.mean *)
Lemma fmean_err : forall l, l <> [] -> Forall small l -> INR (length l) <= N -> (Z.of_nat (length l) <= 16777216)%Z ->
  fin (fmean fsum l) = true /\ Rabs (val (fmean fsum l) - mean (map rv l)) <= 9 * g * M.
Proof.
  intros l NE F L LZ. pose proof (M_pos M HM) as MP. destruct (SUM l NE) as (t & P & E). unfold fmean. rewrite E.
  assert (LP : length (summands t) = length l) by (apply Permutation_length; auto).
  assert (G0 : (1 <= length l)%nat) by (destruct l; [congruence|simpl; lia]). pose proof (le_INR _ _ G0) as G1. simpl (INR 1) in G1.
  destruct (rounded_sum_err M HM N HN t) as [Ft Et].
  { apply Forall_forall. intros x I. rewrite Forall_forall in F. apply F. eapply Permutation_in; eauto. }
  { rewrite LP. auto. }
  rewrite (total_perm _ (map rv l)) in Et by (apply Permutation_map; auto). rewrite LP in Et.
  pose proof (smalls_real M l F) as FR.
  destruct (quot_9g M HM N HN (rounded_sum t) (total (map rv l)) (Z.of_nat (length l))) as [FQ EQ]; auto; try lia.
  - eapply Rle_trans; [exact Et|]. apply Rmult_le_compat_r; [lra|]. nra.
  - rewrite <- (firstn_all (map rv l)). apply (firstn_bound M HM N); auto. rewrite map_length. auto.
  - rewrite INR_Z. replace (length l) with (length (map rv l)) by apply map_length. apply mean_bound; auto.
    intros Q. apply map_eq_nil in Q. auto.
  - split; auto. unfold mean. rewrite map_length, <- INR_Z. auto.
Qed.

Lemma local_err : forall series skel, length skel = length series -> Forall small series ->
  INR (length series) <= N -> (Z.of_nat (length series) <= 16777216)%Z ->
  exists e, fskeleton_expected fsum series skel = Ok e /\ length e = length series /\
    forall i, (i < length series)%nat -> exists x, nth_error e i = Some x /\ fin x = true /\
      Rabs (val x - stands_for series skel i) <= 9 * g * M /\ Rabs (stands_for series skel i) <= M.
Proof.
  intros series skel L F LN LZ. pose proof (M_pos M HM) as MP. unfold fskeleton_expected. cbv zeta.
  assert (GP : 0 <= g * M) by (pose proof (u_g N HN); nra).
  set (P := combine series skel).
  assert (LP : length P = length series) by (unfold P; rewrite combine_length; lia).
  assert (ES : skel = map snd P) by (symmetry; apply SR_proofs.combine_snd; auto).
  assert (EF : series = map fst P) by (symmetry; apply SR_proofs.combine_fst; auto).
  rewrite SR_proofs.zip_with_combine. fold P.
  set (w := map (fun p : f64 * bool => fmul (fst p) (if snd p then one else zero)) P).
  assert (PS : Forall (fun p : f64 * bool => small (fst p)) P).
  { apply Forall_forall. intros p I. rewrite Forall_forall in F. apply F. rewrite EF. apply in_map. auto. }
  assert (WV : map rv w = map masked P /\ Forall small w).
  { unfold w. rewrite map_map. split.
    - apply map_ext_in. intros [v b] I. rewrite Forall_forall in PS. specialize (PS _ I). cbn [fst snd] in *.
      apply mask_val; [apply PS|apply below_600; auto].
    - apply Forall_map. eapply Forall_impl; [|exact PS]. intros [v b] Sv. cbn [fst snd] in *.
      destruct (mask_val v b) as [A B]; [apply Sv|apply below_600; auto|]. split; auto. rewrite B. unfold masked. cbn [fst snd].
      destruct b; [apply Sv|rewrite Rabs_R0; lra]. }
  destruct WV as [WV WS]. assert (LW : length w = length series) by (unfold w; rewrite map_length; auto).
  assert (LR : length (combine (range (length series)) series) = length series).
  { rewrite combine_length. unfold range. rewrite seq_length. lia. }
  destruct (mapM2_rel _ _ _ (fun (iv : nat * f64) (b : bool) =>
     if b then Ok (snd iv) else
     do c1 <- get (0%Z :: zscan 0 skel) (S (fst iv)); do c0 <- get (0%Z :: zscan 0 skel) (fst iv / 2);
     if (c1 - c0 =? 0)%Z then Ok (fmean fsum (firstn (S (fst iv)) series)) else
     do s1 <- get (zero :: fcumsum w) (S (fst iv)); do s0 <- get (zero :: fcumsum w) (fst iv / 2);
     Ok (fdiv (fsub s1 s0) (of_Z (c1 - c0))))
     (fun i x => fin x = true /\ Rabs (val x - stands_for series skel i) <= 9 * g * M /\ Rabs (stands_for series skel i) <= M)
     (combine (range (length series)) series) skel) as (r & Er & Lr & Hr).
  { lia. }
  2:{ exists r. split; [exact Er|]. split; [lia|]. intros i I. apply Hr. lia. }
  intros i [j v] b HA HB.
  assert (Hi : (i < length series)%nat) by (rewrite <- L; apply nth_error_Some; congruence).
  assert (J : j = i /\ nth_error series i = Some v).
  { assert (X : nth_error (map fst (combine (range (length series)) series)) i = Some j) by (rewrite nth_error_map, HA; auto).
    assert (Y : nth_error (map snd (combine (range (length series)) series)) i = Some v) by (rewrite nth_error_map, HA; auto).
    rewrite SR_proofs.combine_fst in X by (unfold range; rewrite seq_length; auto).
    rewrite SR_proofs.combine_snd in Y by (unfold range; rewrite seq_length; auto).
    unfold range in X. rewrite (nth_error_nth' _ 0%nat) in X by (rewrite seq_length; auto). rewrite seq_nth in X by auto.
    injection X as <-. auto. }
  destruct J as [-> EV]. cbn [fst snd]. unfold stands_for. rewrite (nth_error_nth _ _ false HB).
  assert (Sv : small v). { rewrite Forall_forall in F. apply F. eapply nth_error_In; eauto. }
  destruct b.
  { exists v. split; auto. rewrite (nth_error_nth _ _ _ EV). split; [apply Sv|]. unfold real, Rminus. rewrite Rplus_opp_r, Rabs_R0.
    split; [lra|apply Sv]. }
  assert (D : (i / 2 <= i)%nat) by (apply Nat.div_le_upper_bound; lia).
  assert (GC : forall k, (k <= length series)%nat ->
    get (0%Z :: zscan 0 skel) k = Ok (Z.of_nat (length (filter (fun p : f64 * bool => snd p) (firstn k P))))).
  { intros k K. apply Kernel_proofs.get_ok. rewrite count_nth by lia. do 2 f_equal. rewrite ES at 1. apply count_pairs. }
  rewrite !GC by lia. cbn [bind]. rewrite count_between by lia. unfold skeleton. fold P. replace (i + 1)%nat with (S i) by lia.
  set (W := filter (fun p : f64 * bool => snd p) (between P (i / 2) (S i))).
  assert (FW : Forall (fun x => Rabs x <= M) (map (fun p : f64 * bool => real (fst p)) W)).
  { apply Forall_map. apply Forall_forall. intros p I. unfold W in I. apply filter_In in I. destruct I as [I _]. apply between_in in I.
    rewrite Forall_forall in PS. apply (PS p I). }
  destruct (Nat.eq_dec (length W) 0) as [Z0|NZ].
  - rewrite Z0. cbn [Z.of_nat Z.eqb]. destruct W; [|discriminate Z0]. cbn [map].
    assert (NE : firstn (S i) series <> []). { intros Q. apply (f_equal (@length _)) in Q. rewrite firstn_length in Q. cbn [length] in Q. lia. }
    assert (FI : Forall small (firstn (S i) series)).
    { apply Forall_forall. intros x I. rewrite Forall_forall in F. apply F. rewrite <- (firstn_skipn (S i) series). apply in_or_app. auto. }
    assert (LI : length (firstn (S i) series) = S i) by (rewrite firstn_length; lia).
    destruct (fmean_err (firstn (S i) series)) as [FM EM]; auto.
    { rewrite LI. eapply Rle_trans; [apply le_INR; exact Hi|auto]. }
    { rewrite LI. lia. }
    eexists. split; [reflexivity|]. split; auto. split; auto. apply mean_bound.
    + apply smalls_real. auto.
    + intros Q. apply map_eq_nil in Q. auto.
  - destruct (Z.eqb_spec (Z.of_nat (length W)) 0); [lia|].
    assert (GS : forall k, (k <= length series)%nat -> exists s, get (zero :: fcumsum w) k = Ok s /\ fin s = true /\
       Rabs (val s - total (firstn k (map masked P))) <= 2 * g * M).
    { intros [|k] K.
      - exists zero. destruct zero_val as [V0 F0]. split; [reflexivity|]. split; auto. rewrite V0. cbn [firstn]. unfold total. cbn [fold_right].
        unfold Rminus. rewrite Ropp_0, Rplus_0_r, Rabs_R0. lra.
      - destruct (fcumsum_err M HM N HN w k) as (s & E & Fs & Er & _); auto; try lia; [rewrite LW; auto|].
        exists s. split; [unfold get; cbn [nth_error]; rewrite E; auto|]. split; auto.
        rewrite <- firstn_map in Er. rewrite WV in Er. auto. }
    destruct (GS (S i)) as (s1 & E1 & F1 & R1); [lia|]. destruct (GS (i / 2)%nat) as (s0 & E0 & F0 & R0); [lia|].
    rewrite E1, E0. cbn [bind].
    assert (FMK : Forall (fun x => Rabs x <= M) (map masked P)).
    { rewrite <- WV. apply smalls_real. auto. }
    destruct (window_err M HM N HN (map masked P) (i / 2) (S i) s1 s0) as [FS ES']; auto.
    { rewrite map_length. lia. } { rewrite map_length, LP. auto. }
    rewrite between_map, masked_total in ES'. fold W in ES'.
    assert (LWn : (length W <= length series)%nat).
    { unfold W. transitivity (length (between P (i / 2) (S i))); [|rewrite between_length; lia].
      clear. induction (between P (i / 2) (S i)) as [|p q IH]; auto. cbn [filter]. destruct (snd p); cbn [length]; lia. }
    assert (NEW : map (fun p : f64 * bool => real (fst p)) W <> []). { intros Q. apply map_eq_nil in Q. rewrite Q in NZ. simpl in NZ. lia. }
    assert (MB := mean_bound M _ FW NEW).
    destruct (quot_9g M HM N HN (fsub s1 s0) (total (map (fun p : f64 * bool => real (fst p)) W)) (Z.of_nat (length W))) as [FQ EQ]; auto; try lia.
    { rewrite <- (firstn_all (map (fun p : f64 * bool => real (fst p)) W)). apply (firstn_bound M HM N); auto.
      rewrite map_length. eapply Rle_trans; [apply le_INR; exact LWn|auto]. }
    { rewrite INR_Z. rewrite map_length in MB. auto. }
    eexists. split; [reflexivity|]. split; auto.
    assert (X : match map (fun p : f64 * bool => real (fst p)) W with [] => mean (map real (firstn (S i) series)) | _ :: _ => mean (map (fun p : f64 * bool => real (fst p)) W) end
       = total (map (fun p : f64 * bool => real (fst p)) W) / IZR (Z.of_nat (length W))).
    { destruct (map (fun p : f64 * bool => real (fst p)) W) eqn:Q; [congruence|]. rewrite <- Q. unfold mean. rewrite map_length, INR_Z. auto. }
    assert (X' : match map (fun p : f64 * bool => real (fst p)) W with [] => mean (map real (firstn (S i) series)) | r0 :: l => mean (r0 :: l) end
       = total (map (fun p : f64 * bool => real (fst p)) W) / IZR (Z.of_nat (length W))).
    { rewrite <- X. destruct (map (fun p : f64 * bool => real (fst p)) W); auto. }
    cbn [map] in *. rewrite X'. split; auto. rewrite INR_Z. rewrite map_length in MB. auto.
Qed.
End Err.
