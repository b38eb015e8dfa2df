(** The sliding mean and the local values in doubles are close to the exact ones. *)
From Coq Require Import List Arith ZArith Lia Bool Reals Lra Permutation.
From Flocq Require Import Core BinarySingleNaN.
From Verif Require Import Base Dates_model Dates_float Kernel_model FillUp_model Helpers_model Fmargins_model Fmargins_float Fexpect_model Fexpect_spec Fexpect_proofs.
From Verif Require Kernel_proofs SR_proofs.
Import ListNotations.
Open Scope R_scope.

(** ** Lists *)
Lemma mapM2_rel : forall A B C (f : A -> B -> res C) (P : nat -> C -> Prop) a b, length a = length b ->
  (forall i x y, nth_error a i = Some x -> nth_error b i = Some y -> exists z, f x y = Ok z /\ P i z) ->
  exists r, Margins_model.mapM2 f a b = Ok r /\ length r = length a /\
    forall i, (i < length a)%nat -> exists z, nth_error r i = Some z /\ P i z.
Proof.
  intros A B C f P a. revert P. induction a as [|x a IH]; intros P [|y b] L H; try discriminate L.
  - exists []. split; auto. split; auto. intros i I. simpl in I. lia.
  - destruct (H 0%nat x y) as (z & E & Pz); auto. cbn [Margins_model.mapM2]. rewrite E. cbn [bind].
    destruct (IH (fun i => P (S i)) b) as (r & Er & Lr & Hr); [simpl in L; lia|intros; apply (H (S i)); auto|].
    rewrite Er. cbn [bind]. exists (z :: r). split; auto. split; [simpl; lia|].
    intros [|i] I; [exists z; auto|]. simpl in I. apply Hr. lia.
Qed.
Lemma nth_ex : forall A (l : list A) i, (i < length l)%nat -> exists x, nth_error l i = Some x.
Proof. intros. destruct (nth_error l i) eqn:E; eauto. apply nth_error_None in E. lia. Qed.
Lemma between_length : forall A (l : list A) a b, length (between l a b) = Nat.min (b - a) (length l - a).
Proof. intros. unfold between. rewrite firstn_length, skipn_length. auto. Qed.
Lemma between_map : forall A B (f : A -> B) l a b, between (map f l) a b = map f (between l a b).
Proof. intros. unfold between. rewrite skipn_map, firstn_map. auto. Qed.
Lemma between_split : forall A (l : list A) a b, (a <= b)%nat -> firstn b l = firstn a l ++ between l a b.
Proof.
  intros A l a b H. unfold between. rewrite <- (firstn_skipn a l) at 1. rewrite firstn_app.
  rewrite firstn_firstn, Nat.min_r by auto. f_equal. destruct (Nat.le_gt_cases a (length l)).
  - rewrite firstn_length, Nat.min_l; auto.
  - rewrite skipn_all2 by lia. rewrite !firstn_nil. auto.
Qed.
Lemma between_in : forall A (l : list A) a b x, In x (between l a b) -> In x l.
Proof.
  intros A l a b x I. unfold between in I.
  assert (J : In x (skipn a l)). { rewrite <- (firstn_skipn (b - a) (skipn a l)). apply in_or_app. auto. }
  rewrite <- (firstn_skipn a l). apply in_or_app. auto.
Qed.

(** ** average_filter *)
Lemma faverage_loop_spec : forall m s out, (s + m <= length out)%nat \/ m = 0%nat ->
  exists o, faverage_loop out (seq s m) = Ok o /\ length o = length out /\
   (forall i, (i < s \/ s + m <= i)%nat -> nth_error o i = nth_error out i) /\
   (forall i r, (s <= i < s + m)%nat -> nth_error out i = Some r -> nth_error o i = Some (fdiv r (of_Z (Z.of_nat (i + 1))))).
Proof.
  induction m as [|m IH]; intros s out L.
  - exists out. simpl. repeat split; auto. intros; lia.
  - cbn [seq faverage_loop]. destruct (Kernel_proofs.get_in _ out s ltac:(lia)) as (r & -> & Er). cbn [bind].
    destruct (IH (S s) (upd out s (fdiv r (of_Z (Z.of_nat (s + 1)))))) as (o & EO & LO & H1 & H2); [rewrite upd_length; lia|].
    rewrite upd_length in LO. exists o. split; auto. split; auto. split.
    + intros i Hi. rewrite H1 by lia. apply nth_error_upd_other. lia.
    + intros i r' Hi Hr. destruct (Nat.eq_dec i s) as [->|NE].
      * rewrite H1 by lia. rewrite nth_error_upd_same by lia. congruence.
      * apply H2; [lia|]. rewrite nth_error_upd_other; auto.
Qed.
Lemma zip_nth : forall A B C (f : A -> B -> C) a b i x y, nth_error a i = Some x -> nth_error b i = Some y ->
  nth_error (zip_with f a b) i = Some (f x y).
Proof.
  induction a as [|p a IH]; intros [|q b] [|i] x y X Y; try discriminate; cbn in *; [congruence|auto].
Qed.
Lemma zip_len : forall A B C (f : A -> B -> C) a b, length (zip_with f a b) = Nat.min (length a) (length b).
Proof. induction a; destruct b; simpl; auto. Qed.

Lemma faverage_struct : forall values n, (0 < n)%nat ->
  exists o, faverage_filter values n = Ok o /\ length o = length values /\
   forall i c, nth_error (fcumsum values) i = Some c ->
    (i = 0 -> nth_error o i = Some c)%nat /\
    (0 < i < n -> nth_error o i = Some (fdiv c (of_Z (Z.of_nat (i + 1)))))%nat /\
    (forall c', (n <= i)%nat -> nth_error (fcumsum values) (i - n) = Some c' ->
       nth_error o i = Some (fdiv (fsub c c') (of_Z (Z.of_nat n)))).
Proof.
  intros values n HN. unfold faverage_filter. cbv zeta.
  set (n' := if (length values <=? n)%nat then length values else n).
  assert (N' : n' = Nat.min n (length values)).
  { unfold n'. destruct (Nat.leb_spec (length values) n); lia. }
  set (c := fcumsum values). assert (LC : length c = length values) by apply fcumsum_length.
  set (out := firstn n' c ++ map (fun d => fdiv d (of_Z (Z.of_nat n'))) (zip_with fsub (skipn n' c) c)).
  assert (LO : length out = length values).
  { unfold out. rewrite app_length, firstn_length, map_length, zip_len, skipn_length. lia. }
  destruct (faverage_loop_spec (n' - 1) 1 out) as (o & EO & L2 & H1 & H2); [lia|].
  exists o. split; auto. split; [lia|]. intros i x X.
  assert (I : (i < length values)%nat) by (rewrite <- LC; apply nth_error_Some; congruence).
  assert (O1 : (i < n')%nat -> nth_error out i = Some x).
  { intros Q. unfold out. rewrite nth_error_app1 by (rewrite firstn_length; lia).
    rewrite nth_error_firstn. destruct (Nat.ltb_spec i n'); [auto|lia]. }
  split; [|split].
  - intros ->. rewrite H1 by lia. apply O1. lia.
  - intros Q. apply H2; [lia|]. apply O1. lia.
  - intros c' Q X'. rewrite H1 by lia. unfold out. assert (E : n' = n) by lia. rewrite nth_error_app2 by (rewrite firstn_length; lia).
    rewrite firstn_length, Nat.min_l by lia. rewrite E, nth_error_map.
    rewrite (zip_nth _ _ _ _ _ _ _ x c'); auto. rewrite nth_error_skipn. replace (n + (i - n))%nat with i by lia. auto.
Qed.

Section Err.
Variable M : R.
Hypothesis HM : p2 (-1000) <= M <= p2 510.
Variable N : R.
Hypothesis HN : 1 <= N <= 16777216.
Notation g := (u * (N * N)).
Notation small := (small M).

Lemma INR_Z : forall n, IZR (Z.of_nat n) = INR n. Proof. intros. symmetry. apply INR_IZR_INZ. Qed.
Lemma mean_bound : forall l, Forall (fun x => Rabs x <= M) l -> l <> [] -> Rabs (total l / INR (length l)) <= M.
Proof.
  intros l F NE. assert (T : Rabs (total l) <= INR (length l) * M).
  { clear NE. induction F as [|x l B F IH]; [simpl; rewrite Rabs_R0; lra|]. cbn [length]. unfold total in *. cbn [fold_right]. rewrite S_INR.
    eapply Rle_trans; [apply Rabs_triang|]. lra. }
  assert (P : 0 < INR (length l)) by (apply lt_0_INR; destruct l; [congruence|simpl; lia]).
  unfold Rdiv. rewrite Rabs_mult, (Rabs_pos_eq (/ _)) by (left; apply Rinv_0_lt_compat; auto).
  apply Rmult_le_reg_r with (INR (length l)); auto. rewrite Rmult_assoc, Rinv_l by lra. lra.
Qed.
Lemma total_between : forall (l : list R) a b, (a <= b)%nat -> total (between l a b) = total (firstn b l) - total (firstn a l).
Proof. intros. rewrite (between_split _ l a b) by auto. rewrite total_app. lra. Qed.
Lemma firstn_bound : forall (l : list R) a, Forall (fun x => Rabs x <= M) l -> INR (length l) <= N -> Rabs (total (firstn a l)) <= N * M.
Proof.
  intros l a F L. pose proof (M_pos M HM) as MP.
  assert (T : forall q : list R, Forall (fun x => Rabs x <= M) q -> Rabs (total q) <= INR (length q) * M).
  { induction 1 as [|x q B F' IH]; [simpl; rewrite Rabs_R0; lra|]. cbn [length]. unfold total in *. cbn [fold_right]. rewrite S_INR.
    eapply Rle_trans; [apply Rabs_triang|]. lra. }
  eapply Rle_trans; [apply T|].
  { apply Forall_forall. intros x I. rewrite Forall_forall in F. apply F. rewrite <- (firstn_skipn a l). apply in_or_app. auto. }
  apply Rmult_le_compat_r; [lra|]. eapply Rle_trans; [|exact L]. apply le_INR. rewrite firstn_length. lia.
Qed.
(** A difference of two running sums, divided by the number of summands. *)
Lemma window_err : forall (l : list R) a b x y, (a <= b <= length l)%nat -> Forall (fun x => Rabs x <= M) l -> INR (length l) <= N ->
  fin x = true -> fin y = true -> Rabs (val x - total (firstn b l)) <= 2 * g * M -> Rabs (val y - total (firstn a l)) <= 2 * g * M ->
  fin (fsub x y) = true /\ Rabs (val (fsub x y) - total (between l a b)) <= 6 * g * M.
Proof.
  intros l a b x y AB F L Fx Fy Ex Ey. pose proof (M_pos M HM) as MP.
  pose proof (g_le N HN) as G. pose proof (u_g N HN) as UG. pose proof (uN_g N HN) as UN.
  pose proof (firstn_bound l b F L) as B1. pose proof (firstn_bound l a F L) as B2.
  assert (W : Rabs (total (between l a b)) <= N * M).
  { eapply Rle_trans with (Rabs (total (firstn (b - a) (skipn a l)))); [unfold between; lra|]. apply firstn_bound.
    - apply Forall_forall. intros z I. rewrite Forall_forall in F. apply F. rewrite <- (firstn_skipn a l). apply in_or_app. auto.
    - eapply Rle_trans; [|exact L]. apply le_INR. rewrite skipn_length. lia. }
  rewrite total_between in * by lia.
  assert (NM : 0 <= N * M) by nra.
  assert (GM : 2 * g * M <= 2 * M) by (apply Rmult_le_compat_r; lra).
  destruct (diff_err M HM N HN x y (total (firstn b l)) (total (firstn a l)) (2 * g * M) (N * M)) as [FF E]; auto; try lra.
  split; auto. eapply Rle_trans; [exact E|].
  assert (u * (N * M) <= g * M). { rewrite <- Rmult_assoc. apply Rmult_le_compat_r; lra. }
  assert (u * (2 * (2 * g * M)) <= g * M).
  { replace (u * (2 * (2 * g * M))) with (4 * u * (g * M)) by ring. assert (0 <= g * M) by nra. nra. }
  lra.
Qed.
Lemma quot_9g : forall s X c, (1 <= c <= 16777216)%Z -> fin s = true -> Rabs (val s - X) <= 6 * g * M -> Rabs X <= N * M ->
  Rabs (X / IZR c) <= M ->
  fin (fdiv s (of_Z c)) = true /\ Rabs (val (fdiv s (of_Z c)) - X / IZR c) <= 9 * g * M.
Proof.
  intros s X c C Fs Es BX BQ. pose proof (M_pos M HM) as MP.
  pose proof (g_le N HN) as G. pose proof (u_g N HN) as UG.
  assert (NM : N * M <= 16777216 * M) by (apply Rmult_le_compat_r; lra).
  assert (GM : g * M <= 1 / 32 * M) by (apply Rmult_le_compat_r; lra). assert (GP : 0 <= g * M) by nra.
  destruct (quot_err M HM s X (6 * g * M) M c) as [F E]; auto; try lra.
  split; auto. eapply Rle_trans; [exact E|]. assert (u * M <= g * M) by (apply Rmult_le_compat_r; lra).
  assert (u * (6 * g * M) <= g * M). { replace (u * (6 * g * M)) with (6 * u * (g * M)) by ring. nra. } lra.
Qed.

Lemma smalls_real : forall l, Forall small l -> Forall (fun x => Rabs x <= M) (map rv l).
Proof. intros l F. apply Forall_map. eapply Forall_impl; [|exact F]. intros x [_ B]. auto. Qed.

Lemma faverage_err : forall values n, (0 < n)%nat -> Forall small values -> INR (length values) <= N -> (Z.of_nat (length values) <= 16777216)%Z ->
  exists o, faverage_filter values n = Ok o /\ length o = length values /\
    forall i, (i < length values)%nat -> exists x, nth_error o i = Some x /\ fin x = true /\
      Rabs (val x - mean (between (map rv values) (i + 1 - n) (i + 1))) <= 9 * g * M.
Proof.
  intros values n Hn F L LZ. pose proof (M_pos M HM) as MP. pose proof (g_le N HN) as G. pose proof (u_g N HN) as UG.
  assert (GP : 0 <= g * M) by nra.
  destruct (faverage_struct values n Hn) as (o & EO & LO & H). exists o. split; auto. split; auto. intros i I.
  destruct (fcumsum_err M HM N HN values i F L I) as (c & Ec & Fc & Er & Bc). destruct (H i c Ec) as (H0 & H1 & H2).
  pose proof (smalls_real _ F) as FR. set (l := map rv values) in *. assert (LL : length l = length values) by (unfold l; apply map_length).
  rewrite <- firstn_map in Er. fold l in Er.
  assert (BL : forall a b, (a < b)%nat -> (b <= length values)%nat -> Rabs (total (between l a b) / IZR (Z.of_nat (b - a))) <= M).
  { intros a b A B. assert (LB : length (between l a b) = (b - a)%nat) by (rewrite between_length; lia).
    rewrite INR_Z, <- LB. apply mean_bound.
    - apply Forall_forall. intros x J. rewrite Forall_forall in FR. apply FR. eapply between_in; eauto.
    - intros Q. rewrite Q in LB. simpl in LB. lia. }
  assert (WB : forall a b, (b <= length values)%nat -> Rabs (total (between l a b)) <= N * M).
  { intros a b B. unfold between. apply firstn_bound.
    - apply Forall_forall. intros z J. rewrite Forall_forall in FR. apply FR. rewrite <- (firstn_skipn a l). apply in_or_app. auto.
    - eapply Rle_trans; [|exact L]. apply le_INR. rewrite skipn_length. lia. }
  assert (MEAN : forall a b, (a < b)%nat -> (b <= length values)%nat -> mean (between l a b) = total (between l a b) / IZR (Z.of_nat (b - a))).
  { intros a b A B. unfold mean. rewrite INR_Z, between_length, Nat.min_l by lia. auto. }
  destruct (Nat.le_gt_cases n i) as [GE|LT].
  - destruct (fcumsum_err M HM N HN values (i - n) F L ltac:(lia)) as (c' & Ec' & Fc' & Er' & Bc').
    rewrite <- firstn_map in Er'. fold l in Er'.
    replace (S i) with (i + 1)%nat in Er by lia. replace (S (i - n)) with (i + 1 - n)%nat in Er' by lia.
    destruct (window_err l (i + 1 - n) (i + 1) c c') as [FF EE]; auto; [lia|rewrite LL; auto|].
    destruct (quot_9g (fsub c c') (total (between l (i + 1 - n) (i + 1))) (Z.of_nat n)) as [FQ EQ]; auto; try lia.
    { apply WB. lia. }
    { pose proof (BL (i + 1 - n)%nat (i + 1)%nat ltac:(lia) ltac:(lia)) as Q. replace (i + 1 - (i + 1 - n))%nat with n in Q by lia. exact Q. }
    eexists. split; [apply (H2 c'); auto|]. split; auto. rewrite MEAN by lia.
    replace ((i + 1) - (i + 1 - n))%nat with n by lia. auto.
  - replace (i + 1 - n)%nat with 0%nat by lia. replace (S i) with (i + 1)%nat in Er by lia.
    assert (TB : total (between l 0 (i + 1)) = total (firstn (i + 1) l)) by (unfold between; rewrite Nat.sub_0_r; auto).
    destruct (Nat.eq_dec i 0) as [Z0|NZ].
    + exists c. split; [auto|]. split; auto. rewrite MEAN by lia. rewrite TB, Z0 in *.
      change (IZR (Z.of_nat (0 + 1 - 0))) with 1. unfold Rdiv. rewrite Rinv_1, Rmult_1_r. lra.
    + destruct (quot_9g c (total (firstn (i + 1) l)) (Z.of_nat (i + 1))) as [FQ EQ]; auto; try lia; try lra.
      { rewrite <- TB. apply WB. lia. }
      { rewrite <- TB. pose proof (BL 0%nat (i + 1)%nat ltac:(lia) ltac:(lia)) as Q. rewrite Nat.sub_0_r in Q. exact Q. }
      eexists. split; [apply H1; lia|]. split; auto. rewrite MEAN by lia. rewrite TB, Nat.sub_0_r. auto.
Qed.
End Err.
