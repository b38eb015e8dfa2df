(** C109: the expected values of the spectral residual detector as computed in
    doubles. *)
From Coq Require Import List Arith ZArith Lia Bool Reals Lra Permutation.
From Flocq Require Import Core BinarySingleNaN.
From Verif Require Import Base Dates_model Dates_float Kernel_model FillUp_model Helpers_model Fmargins_model Fmargins_float Fexpect_model Fexpect_spec
  Fexpect_proofs Fexpect_proofs2 Fexpect_proofs3 Fexpect_proofs4.
From Verif Require SR_proofs.
Import ListNotations.
Open Scope R_scope.

Lemma tol_g : forall n M, 32 * (u * (INR n * INR n)) * M = tolerance n M.
Proof.
  intros. unfold tolerance. replace (p2 (-48)) with (32 * u) by (cbn; lra). ring.
Qed.
Lemma len_N : forall n M, (0 < n)%nat -> reasonable n M -> 1 <= INR n <= 16777216.
Proof.
  intros n M H [B _]. split; [apply (le_INR 1); lia|]. rewrite INR_IZR_INZ. apply (IZR_le _ 16777216). auto.
Qed.
Lemma mean_diff : forall a b E, 0 <= E -> Forall2 (fun x y => Rabs (x - y) <= E) a b -> Rabs (mean a - mean b) <= E.
Proof.
  intros a b E PE F. assert (L : length a = length b) by (clear - F; induction F; cbn; auto).
  unfold mean. rewrite <- L. assert (T : Rabs (total a - total b) <= INR (length a) * E).
  { clear L. unfold total. induction F as [|x y a b H F IH]; [cbn; unfold Rminus; rewrite Rplus_opp_r, Rabs_R0; lra|]. cbn [length fold_right]. rewrite S_INR.
    replace (x + fold_right Rplus 0 a - (y + fold_right Rplus 0 b)) with ((x - y) + (fold_right Rplus 0 a - fold_right Rplus 0 b)) by ring.
    eapply Rle_trans; [apply Rabs_triang|]. lra. }
  destruct a as [|x a]; [destruct b; [|discriminate L]; unfold Rdiv, total; cbn; rewrite Rmult_0_l, Rminus_0_r, Rabs_R0; auto|].
  assert (P : 0 < INR (length (x :: a))) by (apply lt_0_INR; simpl; lia).
  replace (total (x :: a) / INR (length (x :: a)) - total b / INR (length (x :: a))) with ((total (x :: a) - total b) * / INR (length (x :: a))) by (field; lra).
  rewrite Rabs_mult, (Rabs_pos_eq (/ _)) by (left; apply Rinv_0_lt_compat; auto).
  apply Rmult_le_reg_r with (INR (length (x :: a))); auto. rewrite Rmult_assoc, Rinv_l by lra. lra.
Qed.

(** Whole series: whatever points are skeleton points, every expected value is
    a number, and within n^2 2^-48 of the largest magnitude of the exact one. *)
Theorem C109_expected_close : forall fsum series skel M, adds_up fsum -> length skel = length series ->
  sized M series -> reasonable (length series) M ->
  exists e, fexpected_entire fsum series skel = Ok e /\ length e = length series /\
    forall i x, nth_error e i = Some x ->
      finite x /\ Rabs (real x - exact_expected series skel i) <= tolerance (length series) M.
Proof.
  intros fsum series skel M SUM L SZ RS. destruct (Nat.eq_dec (length series) 0) as [Z0|NZ].
  { destruct series; [|discriminate Z0]. destruct skel; [|discriminate L]. exists []. split; auto. split; auto. intros [|i] x Q; discriminate Q. }
  pose proof (len_N (length series) M ltac:(lia) RS) as HN. destruct RS as [LZ [M1 M2]].
  assert (HM : p2 (-1000) <= M <= p2 510) by (split; auto; eapply Rle_trans; [exact M2|apply bpow_le; lia]).
  assert (HM2 : p2 (-1000) <= 2 * M <= p2 510).
  { pose proof (bpow_gt_0 radix2 (-1000)) as PP. split; [lra|]. replace 510%Z with (509 + 1)%Z by lia. rewrite p2_double.
    apply Rmult_le_compat_l; [lra|]. eapply Rle_trans; [exact M2|apply bpow_le; lia]. }
  pose proof (M_pos M HM) as MP. pose proof (g_le _ HN) as G. pose proof (u_g _ HN) as UG.
  assert (GP : 0 <= u * (INR (length series) * INR (length series)) * M) by nra.
  assert (F : Forall (small M) series) by exact SZ.
  destruct (local_err fsum SUM M HM (INR (length series)) HN series skel L F (Rle_refl _) LZ) as (e & Ee & Le & He).
  assert (F2 : Forall (small (2 * M)) e).
  { apply Forall_forall. intros x I. apply In_nth_error in I. destruct I as [i I].
    destruct (He i) as (y & Ey & Fy & Dy & By); [rewrite <- Le; apply nth_error_Some; congruence|]. rewrite I in Ey. injection Ey as <-.
    split; auto. replace (val x) with ((val x - stands_for series skel i) + stands_for series skel i) by ring.
    eapply Rle_trans; [apply Rabs_triang|]. assert (u * (INR (length series) * INR (length series)) * M <= 1 / 32 * M) by (apply Rmult_le_compat_r; lra). lra. }
  destruct (faverage_err (2 * M) HM2 (INR (length series)) HN e 5 ltac:(lia) F2 ltac:(rewrite Le; lra) ltac:(rewrite Le; auto)) as (o & Eo & Lo & Ho).
  exists o. unfold fexpected_entire. rewrite Ee. cbn [bind]. split; auto. split; [lia|]. intros i x Q.
  assert (I : (i < length e)%nat) by (rewrite <- Lo; apply nth_error_Some; congruence).
  destruct (Ho i I) as (y & Ey & Fy & Dy). rewrite Q in Ey. injection Ey as <-. split; auto.
  assert (D2 : Rabs (mean (between (map rv e) (i + 1 - 5) (i + 1)) - exact_expected series skel i)
               <= 9 * (u * (INR (length series) * INR (length series))) * M).
  { unfold exact_expected. apply mean_diff; [lra|]. set (T := 9 * (u * (INR (length series) * INR (length series))) * M) in *. clearbody T.
    assert (FF : Forall2 (fun x y => Rabs (x - y) <= T) (map rv e) (map (stands_for series skel) (seq 0 (length series)))).
    { assert (GG : forall k (l : list f64), (forall j z, nth_error l j = Some z -> Rabs (val z - stands_for series skel (k + j)) <= T) ->
         Forall2 (fun x y => Rabs (x - y) <= T) (map rv l) (map (stands_for series skel) (seq k (length l)))).
      { intros k l. revert k. induction l as [|z l IH]; intros k Hk; cbn [map seq length]; constructor.
        - specialize (Hk 0%nat z eq_refl). rewrite Nat.add_0_r in Hk. auto.
        - apply IH. intros j w W. replace (S k + j)%nat with (k + S j)%nat by lia. apply Hk. auto. }
      rewrite <- Le. apply GG. intros j z W. destruct (He j) as (y' & Ey' & _ & D' & _); [apply Nat.lt_le_trans with (length e); [apply nth_error_Some; rewrite W; discriminate|lia]|].
      rewrite W in Ey'. injection Ey' as <-. cbn [Nat.add]. auto. }
    assert (SK : forall k a b (P : R -> R -> Prop), Forall2 P a b -> Forall2 P (skipn k a) (skipn k b)).
    { clear. induction k; intros a b P Q; auto. destruct Q; simpl; auto. }
    assert (FK : forall k a b (P : R -> R -> Prop), Forall2 P a b -> Forall2 P (firstn k a) (firstn k b)).
    { clear. induction k; intros a b P Q; simpl; auto. destruct Q; auto. }
    unfold between. auto. }
  rewrite <- tol_g. unfold real.
  replace (val x - exact_expected series skel i) with
    ((val x - mean (between (map rv e) (i + 1 - 5) (i + 1))) + (mean (between (map rv e) (i + 1 - 5) (i + 1)) - exact_expected series skel i)) by ring.
  eapply Rle_trans; [apply Rabs_triang|]. lra.
Qed.
Print Assumptions C109_expected_close.

(** Latest point: the same for the mean over the later half of the skeleton points. *)
Theorem C109_latest_close : forall fsum series skel M, adds_up fsum -> length skel = length series ->
  sized M series -> reasonable (length series) M -> In true skel ->
  finite (fexpected_latest fsum series skel) /\
  Rabs (real (fexpected_latest fsum series skel) - exact_latest series skel) <= tolerance (length series) M.
Proof.
  intros fsum series skel M SUM L SZ RS IT.
  assert (NZ : (0 < length series)%nat) by (rewrite <- L; destruct skel; [inversion IT|simpl; lia]).
  pose proof (len_N _ _ NZ RS) as HN. destruct RS as [LZ [M1 M2]].
  assert (HM : p2 (-1000) <= M <= p2 510) by (split; auto; eapply Rle_trans; [exact M2|apply bpow_le; lia]).
  pose proof (M_pos M HM) as MP. pose proof (u_g _ HN) as UG.
  assert (GP : 0 <= u * (INR (length series) * INR (length series)) * M) by nra.
  assert (F : Forall (small M) series) by exact SZ.
  unfold fexpected_latest, exact_latest, skeleton, between. rewrite Nat.sub_0_r. cbn [skipn]. cbv zeta.
  set (P := combine series skel). assert (LP : length P = length series) by (unfold P; rewrite combine_length; lia).
  rewrite firstn_all2 by lia. change (filter (fun p : f64 * bool => snd p) P) with (filter snd P). rewrite !map_length.
  set (W := filter snd P). assert (NE : W <> []).
  { assert (E : skel = map snd P) by (symmetry; apply SR_proofs.combine_snd; auto). rewrite E in IT. apply in_map_iff in IT.
    destruct IT as (p & Sp & Ip). intros Q. assert (In p W) by (unfold W; apply filter_In; auto). rewrite Q in H. inversion H. }
  rewrite !skipn_map. set (H := skipn (length W / 2) W).
  assert (LW : (length W <= length series)%nat).
  { rewrite <- LP. unfold W. clear. induction P as [|p q IH]; auto. cbn [filter]. destruct (snd p); cbn [length]; lia. }
  assert (LH : length H = (length W - length W / 2)%nat) by (unfold H; apply skipn_length).
  assert (PW : (0 < length W)%nat) by (destruct W; [congruence|simpl; lia]). pose proof (Nat.div_lt (length W) 2 PW ltac:(lia)) as DL.
  assert (NH : map fst H <> []). { intros Q. apply map_eq_nil in Q. rewrite Q in LH. cbn [length] in LH. lia. }
  destruct (map fst H) as [|h hs] eqn:EH; [congruence|]. rewrite <- EH in *.
  destruct (fmean_err fsum SUM M HM (INR (length series)) HN (map fst H)) as [FF E]; auto.
  - apply Forall_forall. intros x I. rewrite Forall_forall in F. apply F. apply in_map_iff in I. destruct I as ([a b] & <- & I).
    assert (J : In (a, b) W) by (rewrite <- (firstn_skipn (length W / 2) W); apply in_or_app; auto).
    unfold W in J. apply filter_In in J. destruct J as [J _]. apply in_combine_l in J. auto.
  - rewrite map_length. apply le_INR. lia.
  - rewrite map_length. lia.
  - split; [exact FF|]. rewrite map_map in E. unfold real. rewrite <- tol_g. lra.
Qed.
Print Assumptions C109_latest_close.

Lemma mean_range : forall l a b, l <> [] -> Forall (fun x => a <= x <= b) l -> a <= mean l <= b.
Proof.
  intros l a b NE F. assert (T : INR (length l) * a <= total l <= INR (length l) * b).
  { clear NE. unfold total. induction F as [|x l H F IH]; [simpl; lra|]. cbn [length fold_right]. rewrite S_INR. lra. }
  assert (P : 0 < INR (length l)) by (apply lt_0_INR; destruct l; [congruence|simpl; lia]).
  unfold mean, Rdiv. split; apply Rmult_le_reg_r with (INR (length l)); auto; rewrite Rmult_assoc, Rinv_l by lra; lra.
Qed.
Lemma stands_range : forall series skel i a b, length skel = length series -> (i < length series)%nat ->
  Forall (fun x => a <= real x <= b) series -> a <= stands_for series skel i <= b.
Proof.
  intros series skel i a b L I F. assert (G : forall x, In x series -> a <= real x <= b) by (apply Forall_forall; auto). unfold stands_for.
  destruct (nth i skel false); [apply G, nth_In; auto|].
  assert (A : a <= mean (map real (firstn (i + 1) series)) <= b).
  { apply mean_range.
    - intros Q. apply map_eq_nil in Q. apply (f_equal (@length _)) in Q. rewrite firstn_length in Q. cbn [length] in Q. lia.
    - apply Forall_map, Forall_forall. intros x J. apply G. rewrite <- (firstn_skipn (i + 1) series). apply in_or_app. auto. }
  destruct (skeleton series skel (i / 2) (i + 1)) as [|r l] eqn:E; auto. apply mean_range; [discriminate|].
  rewrite <- E. unfold skeleton. apply Forall_map, Forall_forall. intros [v c] J. apply filter_In in J. destruct J as [J _].
  apply between_in in J. apply in_combine_l in J. auto.
Qed.
Lemma exact_range : forall series skel i a b, length skel = length series -> (i < length series)%nat ->
  Forall (fun x => a <= real x <= b) series -> a <= exact_expected series skel i <= b.
Proof.
  intros series skel i a b L I F. unfold exact_expected. apply mean_range.
  - intros Q. apply (f_equal (@length _)) in Q. rewrite between_length, map_length, seq_length in Q. cbn [length] in Q. lia.
  - apply Forall_forall. intros x J. apply between_in in J. apply in_map_iff in J. destruct J as (k & <- & J). apply in_seq in J.
    apply stands_range; auto. lia.
Qed.

(** Hence an expected value leaves the range of the values by at most that. *)
Theorem C109_range : forall fsum series skel M a b e i x, adds_up fsum -> length skel = length series ->
  sized M series -> reasonable (length series) M -> Forall (fun x => a <= real x <= b) series ->
  fexpected_entire fsum series skel = Ok e -> nth_error e i = Some x ->
  a - tolerance (length series) M <= real x <= b + tolerance (length series) M.
Proof.
  intros fsum series skel M a b e i x SUM L SZ RS F E X.
  destruct (C109_expected_close fsum series skel M SUM L SZ RS) as (e' & E' & Le & H). rewrite E in E'. injection E' as <-.
  destruct (H i x X) as [_ D]. assert (I : (i < length series)%nat) by (rewrite <- Le; apply nth_error_Some; congruence).
  pose proof (exact_range series skel i a b L I F). apply Rabs_le_inv in D. lra.
Qed.
Print Assumptions C109_range.

(** Whole numbers whose magnitudes sum up to less than 2^53, all points
    skeleton points: the expected value is the exact one rounded once, and does
    not leave the range of the values. *)
Theorem C109_whole_numbers : forall fsum series zs lo hi, Forall2 whole series zs -> (Z.of_nat (length series) <= 16777216)%Z ->
  (fold_right Z.add 0 (map Z.abs zs) < 2 ^ 53)%Z -> Forall (fun z => lo <= z <= hi)%Z zs -> (- 2 ^ 53 < lo)%Z -> (hi < 2 ^ 53)%Z ->
  let skel := repeat true (length series) in
  exists e, fexpected_entire fsum series skel = Ok e /\ length e = length series /\
    forall i x, nth_error e i = Some x ->
      real x = round radix2 (FLT_exp (-1074) 53) ZnearestE (exact_expected series skel i) /\ IZR lo <= real x <= IZR hi.
Proof.
  intros fsum series zs lo hi W LZ B R BL BH skel. change (2 ^ 53)%Z with two53 in *.
  assert (W' : Forall2 holds_int series zs) by (clear - W; induction W as [|x z l zs [F V] W IH]; constructor; auto; split; auto).
  destruct (faverage_int series zs 5 ltac:(lia) W' B LZ) as (o & Eo & Lo & Ho). exists o. unfold fexpected_entire, skel.
  rewrite local_all. cbn [bind]. split; auto. split; auto. intros i x X.
  assert (I : (i < length series)%nat) by (rewrite <- Lo; apply nth_error_Some; congruence).
  destruct (Ho i I) as (y & Ey & _ & Vy). rewrite X in Ey. injection Ey as <-.
  assert (EX : mean (between (map rv series) (i + 1 - 5) (i + 1)) = exact_expected series skel i).
  { unfold exact_expected, skel. rewrite stands_all. auto. }
  rewrite EX in Vy. split; [exact Vy|].
  assert (G : IZR lo <= exact_expected series skel i <= IZR hi).
  { apply exact_range; auto; [unfold skel; apply repeat_length|]. clear - W R. revert R. induction W as [|x z l zs [F V] W IH]; intros R; constructor; inversion R; subst; auto.
    rewrite V. split; apply IZR_le; lia. }
  assert (NE : zs <> []). { intros ->. inversion W. subst. simpl in I. lia. }
  assert (LH : (lo <= hi)%Z). { destruct R as [|z zs' [A C] R]; [congruence|lia]. }
  unfold real. rewrite Vy. split; [apply rnd_ge_float|apply rnd_le_float]; try apply G; apply int_format; lia.
Qed.
Print Assumptions C109_whole_numbers.

(** In general it does: a single large value spoils every later mean, because
    the means are differences of running sums. Twelve values, 2^53 and then
    ones: from the sixth on every expected value is 0, although the five values
    averaged are all 1 and no value is below 1. *)
Definition is_zero (x : f64) : bool := match x with B754_zero _ => true | _ => false end.
Definition spoiled : list f64 := of_Z 9007199254740992 :: repeat (of_Z 1) 11.
Lemma bigfirst : real (of_Z 9007199254740992) = 9007199254740992 /\ finite (of_Z 9007199254740992).
Proof.
  pose proof (binary_normalize_correct 53 1024 _ _ mode_NE 9007199254740992 0 false) as C. cbv zeta in C.
  assert (E : F2R (Float radix2 9007199254740992 0) = IZR two53) by (unfold F2R; cbn; lra). rewrite E in C.
  change (round_mode mode_NE) with ZnearestE in C. rewrite rnd_no_overflow in C by (rewrite Rabs_pos_eq; lra).
  rewrite rnd_id in C by apply two53_format. tauto.
Qed.
Theorem C109_range_refuted : exists series skel e, length series = 12%nat /\ length skel = 12%nat /\ sized (bpow radix2 53) series /\
  (forall fsum, fexpected_entire fsum series skel = Ok e) /\ Forall (fun x => 1 <= real x) series /\
  (forall i, (5 <= i < 12)%nat -> (exists x, nth_error e i = Some x /\ finite x /\ real x = 0) /\ exact_expected series skel i = 1).
Proof.
  destruct bigfirst as [VB FB]. destruct (of_Z_val 1 ltac:(lia)) as [V1 F1].
  exists spoiled, (repeat true 12).
  assert (E : exists e, faverage_filter spoiled 5 = Ok e /\ forall i, (5 <= i < 12)%nat -> exists x, nth_error e i = Some x /\ finite x /\ real x = 0).
  { assert (C : match faverage_filter spoiled 5 with Ok e => Nat.eqb (length e) 12 && forallb is_zero (skipn 5 e) | Err _ => false end = true)
      by (vm_compute; reflexivity).
    destruct (faverage_filter spoiled 5) as [e|]; [|discriminate C]. exists e. split; auto. apply andb_prop in C. destruct C as [LE C].
    apply Nat.eqb_eq in LE. rewrite forallb_forall in C. intros i I. destruct (nth_ex _ e i) as [x X]; [lia|]. exists x. split; auto.
    assert (J : In x (skipn 5 e)) by (apply (nth_error_In _ (i - 5)); rewrite nth_error_skipn; replace (5 + (i - 5))%nat with i by lia; auto).
    specialize (C x J). destruct x; try discriminate C. split; reflexivity. }
  destruct E as (e & E & Z). exists e. split; auto. split; auto. split; [|split; [|split]].
  - unfold spoiled, sized. constructor; [split; auto; rewrite VB, Rabs_pos_eq by lra; cbn; lra|]. apply Forall_forall. intros x I.
    apply repeat_spec in I. subst x. split; [exact F1|]. unfold real. rewrite V1, Rabs_pos_eq by lra. cbn. lra.
  - intros fsum. unfold fexpected_entire. change (repeat true 12) with (repeat true (length spoiled)). rewrite local_all. exact E.
  - unfold spoiled. constructor; [rewrite VB; lra|]. apply Forall_forall. intros x I. apply repeat_spec in I. subst x. unfold real. rewrite V1. lra.
  - intros i I. split; [auto|]. unfold exact_expected. change (repeat true 12) with (repeat true (length spoiled)). rewrite stands_all.
    unfold spoiled. cbn [map]. assert (M : forall n, map real (repeat (of_Z 1) n) = repeat 1 n).
    { induction n; auto. cbn [repeat map]. rewrite IHn. f_equal. exact V1. }
    rewrite M. do 12 (destruct i as [|i]; [first [lia|unfold mean, total, between; cbn; lra]|]). lia.
Qed.
Print Assumptions C109_range_refuted.

(** The hypotheses can be met: left-to-right summation adds up; twelve ordinary
    values with two that are no skeleton points are within the sizes asked for. *)
Definition loop_sum (l : list f64) : f64 := match l with [] => zero | x :: t => fold_left fadd t x end.
Lemma loop_adds_up : adds_up loop_sum.
Proof.
  intros [|x t] NE; [congruence|]. clear NE. cbn [loop_sum].
  assert (G : forall t b, exists r, Permutation (summands r) (summands b ++ t) /\ fold_left fadd t (rounded_sum b) = rounded_sum r).
  { clear. induction t as [|y t IH]; intros b; cbn [fold_left].
    - exists b. rewrite app_nil_r. auto.
    - destruct (IH (Plus b (Single y))) as (r & P & E). exists r. cbn [summands rounded_sum] in *. rewrite <- app_assoc in P. auto. }
  destruct (G t (Single x)) as (r & P & E). exists r. auto.
Qed.
Example C109_example : let series := map of_Z [3; 5; 4; 90; 4; 5; 3; 4; 60; 5; 4; 3]%Z in
  let skel := [true; true; true; false; true; true; true; true; false; true; true; true] in
  adds_up loop_sum /\ length skel = length series /\ sized 128 series /\ reasonable (length series) 128 /\ In true skel /\
  tolerance (length series) 128 < 1 / 1000000000 /\
  match fexpected_entire loop_sum series skel with
  | Ok e => forallb (fun p => Beqb (fst p) (snd p)) (combine e [of_Z 3; of_Z 4; of_Z 4; fdiv (of_Z 33) (of_Z 8); fdiv (of_Z 41) (of_Z 10)])
  | Err _ => false
  end = true.
Proof.
  cbv zeta. split; [exact loop_adds_up|]. split; [reflexivity|]. split; [|split; [|split; [|split]]].
  - apply Forall_map, Forall_forall. intros z I. assert (0 <= z <= 100)%Z by (simpl in I; lia).
    destruct (of_Z_val z ltac:(lia)) as [V F]. split; [exact F|]. unfold real. rewrite V, <- abs_IZR. apply (IZR_le _ 128). lia.
  - split; [simpl; lia|]. replace 128 with (p2 7) by (cbn; lra). split; apply bpow_le; lia.
  - simpl. auto.
  - unfold tolerance. rewrite map_length. rewrite INR_IZR_INZ. cbn [length Z.of_nat Pos.of_succ_nat Pos.succ]. replace (p2 (-48)) with (32 * u) by (cbn; lra). lra.
  - vm_compute. reflexivity.
Qed.
