(** What the spectral residual detector answers for a lone spike on a level
    series: C113. *)
From Verif Require Import Base Num Sorting Helpers_model Helpers_spec Margins_model Kernel_model SR_model SR_spec SR_spec2 SR_proofs SR_proofs2 SR_props SR_props2
  Detect_model Detect_spec Detect_proofs Detect_proofs2 Fourier_model Fourier_spec Fourier_proofs2 Fourier_props Single_proofs3
  Spike_spec Spike_proofs Spike_proofs2 Spike_proofs3.
From Coq Require Import List Arith ZArith QArith Qcanon Qround Lia Bool Sorted Permutation Reals Lra.
Import ListNotations.
Open Scope nat_scope.

Lemma nth_error_combine : forall A B (l1 : list A) (l2 : list B) i x y,
  nth_error (combine l1 l2) i = Some (x, y) <-> nth_error l1 i = Some x /\ nth_error l2 i = Some y.
Proof.
  induction l1 as [|a l1 IH]; intros [|b l2] [|i] x y; cbn; split; try (intros [? ?]); try (intros ?); try discriminate; auto.
  - injection H as -> ->. auto.
  - congruence.
  - apply IH; auto.
  - apply IH; auto.
Qed.

Section SP.
Variable transform : list Qc -> list Qc.
Variable std : list Qc -> Qc.
Variable trend_detection : list Qc -> option nat -> res (list Qc).
Variable sort_desc : list (nat * Qc) -> list (nat * Qc).
Hypothesis NN : forall l x, In x (transform l) -> (0 <= x)%Qc.
Hypothesis HS : sorts_down sort_desc.
Notation SR := (spectral_residual_detection transform std trend_detection sort_desc).

(** C113. Entire mode: a spike that is not at the very first point has the
    score 1; with a threshold of at most 3.5 (the default) it is reported, or
    the allowed number of points is. *)
Theorem C113_entire : forall n k b c th ratio nt rows m r,
  stands_out n b c -> 1 <= k -> computed_well transform (spiked (n + 5) k b c) -> (th <= Q2Qc (7 # 2))%Qc ->
  SR (spiked n k b c) th ratio nt false = Ok (rows, m) -> nth_error rows k = Some r ->
  r_score r = 1%Qc /\ (r_anomaly r = true \/ reported rows = sr_quota n ratio).
Proof.
  intros n k b c th ratio nt rows m r SO K1 W T H Hr.
  assert (K : k < n). { apply nth_error_lt in Hr. rewrite (rows_length _ _ _ _ HS _ _ _ _ _ _ _ H), spiked_length in Hr. auto. }
  destruct (score_entire transform NN n k b c SO K1 K W) as (scores & s & G & L & Hs & S7).
  destruct (sr_inv _ _ _ _ (fun l => proj1 (HS l)) _ _ _ _ _ _ _ H) as (sc & e & idx & t & ED & _).
  assert (E : sc = scores). { unfold sr_detect in ED. rewrite G, bind_ok in ED. injection ED. auto. } subst sc.
  split.
  - rewrite (row_score _ _ _ _ HS _ _ _ _ _ _ _ _ _ _ _ H ED Hs Hr). apply C60_score_thresholds. qlra.
  - destruct (reaches_threshold _ _ _ _ HS _ _ _ _ _ _ _ _ _ _ _ H ED Hs ltac:(qlra) Hr) as [X|[X _]]; auto. rewrite spiked_length in X. auto.
Qed.

(** C113. Latest mode: a spike at the last point has the score 1, the level as
    its expected value, and, when it is reported, its direction. *)
Theorem C113_latest : forall n b c th ratio nt rows m r,
  stands_out (S n / 2) b c -> (forall j, S n / 2 <= j <= n -> computed_well transform (spiked (j + 6) j b c)) ->
  lean_std std (spiked (S n) n b c) -> (th <= Q2Qc (7 # 2))%Qc ->
  SR (spiked (S n) n b c) th ratio nt true = Ok (rows, m) -> nth_error rows n = Some r ->
  m = SpectralResidual /\ r_score r = 1%Qc /\ r_expected r = b /\
  (r_anomaly r = true /\ (r_pos r = true <-> (0 < c)%Qc) /\ (r_neg r = true <-> (c < 0)%Qc) \/ reported rows = sr_quota (S n) ratio).
Proof.
  intros n b c th ratio nt rows m r SO W LS T H Hr.
  destruct (latest_scores transform std NN n b c (sr_quota (length (spiked (S n) n b c)) ratio) SO W LS) as (scores & s & G & L & Hs & S7).
  destruct (sr_inv _ _ _ _ (fun l => proj1 (HS l)) _ _ _ _ _ _ _ H) as (sc & e & idx & t & ED & _).
  rewrite G in ED. injection ED as <- <-. split; auto.
  assert (EB : r_expected r = b).
  { destruct (C59_expected_latest _ _ _ _ HS _ _ _ _ _ _ _ H G) as [EX WI]. cbv zeta in EX, WI. rewrite spiked_length in EX, WI.
    set (pts := skeleton_values (spiked (S n) n b c) scores 0 (S n)) in *.
    apply (f_equal (fun l => nth_error l n)) in EX. rewrite nth_error_map, Hr in EX.
    replace (S n - 1) with n in EX by lia.
    rewrite nth_error_app2 in EX by (rewrite firstn_length; lia). rewrite firstn_length, spiked_length in EX.
    replace (n - Nat.min n (S n)) with 0 in EX by lia. cbn [nth_error option_map] in EX.
    assert (EX2 : r_expected r = qmean (skipn (length pts / 2) pts)) by congruence. rewrite EX2. clear EX EX2.
    assert (PB : forall x, In x pts -> x = b).
    { intros x I. unfold pts, skeleton_values in I. apply in_map_iff in I. destruct I as ([v u] & <- & I). apply filter_In in I.
      destruct I as [I U]. cbn [snd fst] in *. apply Qcleb_le in U. unfold slice in I. cbn [skipn] in I. rewrite Nat.sub_0_r in I.
      rewrite firstn_all2 in I by (rewrite combine_length, spiked_length; lia). apply In_nth_error in I. destruct I as [i I].
      pose proof (nth_error_lt _ _ _ _ I) as Li. rewrite combine_length, spiked_length in Li.
      apply nth_error_combine in I. destruct I as [I1 I2].
      rewrite spiked_nth in I1 by lia. destruct (i =? n) eqn:E; [|congruence]. apply Nat.eqb_eq in E. subst i. exfalso.
      rewrite Hs in I2. injection I2 as ->. clear - U S7. qlra. }
    destruct (skipn (length pts / 2) pts) as [|w w'] eqn:SK.
    - exfalso. clear - SK H G L HS Hs.
      destruct (sr_inv _ _ _ _ (fun l => proj1 (HS l)) _ _ _ _ _ _ _ H) as (sc & e & idx & t & ED & _ & LE & _).
      rewrite G in ED. injection ED as <-. unfold last_expected in LE. cbv zeta in LE.
      assert (P : map fst (filter snd (combine (spiked (S n) n b c) (map (fun s => (s <=? SKELETON)%Qc) scores))) = pts).
      { unfold pts, skeleton_values. rewrite combine_map_r. unfold slice. rewrite Nat.sub_0_r. cbn [skipn].
        rewrite firstn_all2 by (rewrite combine_length, spiked_length; lia).
        generalize (combine (spiked (S n) n b c) scores). induction l as [|[a' b'] u IH]; auto. cbn [map filter snd fst]. unfold SKELETON at 1.
        destruct (b' <=? 1)%Qc; cbn [map fst]; rewrite IH; auto. }
      rewrite P, SK in LE. discriminate LE.
    - assert (M : forall x, In x (w :: w') -> (b <= x /\ x <= b)%Qc).
      { intros x I. rewrite (PB x); [split; apply Qcle_refl|]. rewrite <- SK in I. apply In_nth_error in I. destruct I as [i I].
        rewrite nth_error_skipn in I. eapply nth_error_In; eauto. }
      destruct (qmean_bounds (w :: w') b b ltac:(discriminate) M). apply Qcle_antisym; auto. }
  split; [|split]; auto.
  - rewrite (row_score _ _ _ _ HS _ _ _ _ _ _ _ _ _ _ _ H G Hs Hr). apply C60_score_thresholds. qlra.
  - destruct (reaches_threshold _ _ _ _ HS _ _ _ _ _ _ _ _ _ _ _ H G Hs ltac:(qlra) Hr) as [X|[X _]].
    + left. split; auto. destruct (row_value _ _ _ _ HS _ _ _ _ _ _ _ _ _ H Hr) as [V PC].
      rewrite spiked_nth, Nat.eqb_refl in V by lia. injection V as V. unfold pre_consistent in PC. rewrite X, EB, <- V in PC.
      destruct SO as [C0 _]. assert (C1 : (c < 0 \/ 0 < c)%Qc).
      { destruct (Qclt_le_dec c 0) as [Y|Y]; auto. right. destruct (Qclt_le_dec 0 c) as [Z|Z]; auto. exfalso. apply C0. apply Qcle_antisym; auto. }
      destruct (r_neg r), (r_pos r); try contradiction; split; split; intros Y; auto; try discriminate; try (exfalso; revert C1 PC Y; clear; intros [?|?] ? ?; qlra);
        destruct C1 as [C1|C1]; auto; exfalso; clear - C1 PC; qlra.
    + right. rewrite spiked_length in X. auto.
Qed.

(** C113. On a level of zero the answer is exact: the spike, and nothing else,
    is reported, in its direction, and every expected value is zero; unless it
    is the first point: then nothing is. *)
Theorem C113_zero_level : forall n k c th ratio nt rows m,
  6 <= n -> k < n -> c <> 0%Qc -> transform (spiked (n + 5) k 0%Qc c) = spiked (n + 5) k 0%Qc 1%Qc ->
  (1 < th)%Qc -> (th <= Q2Qc 99)%Qc ->
  SR (spiked n k 0%Qc c) th ratio nt false = Ok (rows, m) ->
  forall t r, nth_error rows t = Some r ->
    (r_anomaly r = true <-> t = k /\ k <> 0) /\ (r_pos r = true <-> t = k /\ k <> 0 /\ (0 < c)%Qc) /\
    (k <> 0 -> r_expected r = 0%Qc).
Proof.
  intros n k c th ratio nt rows m N K C0 TR T1 T99 H t r Hr.
  pose proof (zero_scores transform NN n k c N K TR) as G.
  set (scores := map (fun t => if t =? k then if k =? 0 then 0%Qc else Q2Qc 99 else 1%Qc) (seq 0 n)) in *.
  assert (D : sr_detect transform std (spiked n k 0%Qc c) (sr_quota (length (spiked n k 0%Qc c)) ratio) false = Ok (scores, SpectralResidual)).
  { unfold sr_detect. rewrite G, bind_ok. auto. }
  destruct (sr_inv _ _ _ _ (fun l => proj1 (HS l)) _ _ _ _ _ _ _ H) as (sc & e & idx & u & ED & _).
  rewrite D in ED. injection ED as <- <-.
  pose proof (rows_length _ _ _ _ HS _ _ _ _ _ _ _ H) as LR. rewrite spiked_length in LR.
  pose proof (nth_error_lt _ _ _ _ Hr) as Lt. rewrite LR in Lt.
  assert (NS : forall i, i < n -> nth_error scores i = Some (if i =? k then if k =? 0 then 0%Qc else Q2Qc 99 else 1%Qc)).
  { intros i Hi. unfold scores. rewrite nth_error_map, nth_error_seq. assert (E : (i <? n) = true) by (apply Nat.ltb_lt; auto). rewrite E. auto. }
  destruct (C69_highest_scores_reported _ _ _ _ HS _ _ _ _ _ _ _ _ H D) as (_ & AT & _ & RP).
  assert (FC : forall j, length (filter (fun s => (th <=? s)%Qc) (map (fun t => if t =? k then if k =? 0 then 0%Qc else Q2Qc 99 else 1%Qc) (seq j (n - j)))) <= 1).
  { assert (F1 : forall l, ~ In k l -> length (filter (fun s => (th <=? s)%Qc) (map (fun t => if t =? k then if k =? 0 then 0%Qc else Q2Qc 99 else 1%Qc) l)) = 0).
    { induction l as [|x l IH]; intros NI; cbn [map filter length]; auto. assert (E : (x =? k) = false) by (apply Nat.eqb_neq; intro; apply NI; left; auto). rewrite E.
      assert (E2 : (th <=? 1)%Qc = false) by (apply Qcleb_gt; auto). rewrite E2. apply IH. intro. apply NI. right. auto. }
    assert (F2 : forall l, NoDup l -> length (filter (fun s => (th <=? s)%Qc) (map (fun t => if t =? k then if k =? 0 then 0%Qc else Q2Qc 99 else 1%Qc) l)) <= 1).
    { induction l as [|x l IH]; intros ND; cbn [map filter length]; auto. inversion ND; subst. destruct (x =? k) eqn:E.
      - apply Nat.eqb_eq in E. subst x. destruct (th <=? _)%Qc; cbn [length]; rewrite F1; auto.
      - assert (E2 : (th <=? 1)%Qc = false) by (apply Qcleb_gt; auto). rewrite E2. auto. }
    intros j. apply F2. apply seq_NoDup. }
  assert (AN : r_anomaly r = true <-> t = k /\ k <> 0).
  { split.
    - intros A. pose proof (AT t r _ Hr (NS t Lt) A) as B. destruct (t =? k) eqn:TK; [|exfalso; clear - B T1; qlra].
      apply Nat.eqb_eq in TK. destruct (k =? 0) eqn:K0; [exfalso; clear - B T1; qlra|]. apply Nat.eqb_neq in K0. auto.
    - intros [-> K0]. apply Nat.eqb_neq in K0. pose proof (NS k K) as S. rewrite Nat.eqb_refl, K0 in S.
      destruct (reaches_threshold _ _ _ _ HS _ _ _ _ _ _ _ _ _ _ _ H D S T99 Hr) as [X|[_ X]]; auto. exfalso.
      pose proof (FC 0) as F. rewrite Nat.sub_0_r in F. fold scores in F. unfold sr_quota in X. lia. }
  assert (EZ : k <> 0 -> r_expected r = 0%Qc).
  { intros K0. destruct (C59_expected_entire _ _ _ _ HS _ _ _ _ _ _ _ H G) as [EX _]. cbv zeta in EX. rewrite spiked_length in EX.
    apply (f_equal (fun l => nth_error l t)) in EX. rewrite !nth_error_map, Hr in EX. unfold range in EX at 2. rewrite nth_error_seq in EX.
    assert (E : (t <? n) = true) by (apply Nat.ltb_lt; auto). rewrite E in EX. cbn [option_map] in EX. injection EX as ->.
    assert (Z : forall x, In x (map (local_value (spiked n k 0%Qc c) scores) (range n)) -> x = 0%Qc).
    { intros x I. apply in_map_iff in I. destruct I as (i & <- & I). unfold range in I. apply in_seq in I. unfold local_value.
      assert (Hi : i < n) by lia. rewrite (nth_error_nth _ _ _ (NS i Hi)). rewrite (nth_error_nth _ _ _ (spiked_nth n k 0%Qc c i Hi)).
      destruct (i =? k) eqn:IK; [|reflexivity].
      apply Nat.eqb_eq in IK. subst i. apply Nat.eqb_neq in K0. rewrite K0. change ((Q2Qc 99 <=? 1)%Qc) with false. cbv iota.
      assert (PZ : forall y, In y (skeleton_values (spiked n k 0%Qc c) scores (k / 2) (k + 1)) -> y = 0%Qc).
      { intros y J. unfold skeleton_values in J. apply in_map_iff in J. destruct J as ([v s] & <- & J). apply filter_In in J. destruct J as [J U].
        cbn [fst snd] in *. apply Qcleb_le in U. apply In_nth_error in J. destruct J as [q J]. unfold slice in J.
        rewrite nth_error_firstn in J. destruct (q <? _); [|discriminate J]. rewrite nth_error_skipn in J. apply nth_error_combine in J. destruct J as [J1 J2].
        pose proof (nth_error_lt _ _ _ _ J1) as LJ. rewrite spiked_length in LJ. rewrite spiked_nth in J1 by auto. rewrite NS in J2 by auto.
        destruct (k / 2 + q =? k); [|injection J1; auto]. rewrite K0 in J2. injection J2 as <-. exfalso. clear - U. qlra. }
      destruct (skeleton_values (spiked n k 0%Qc c) scores (k / 2) (k + 1)) as [|w w'] eqn:SV.
      - exfalso. assert (IN : In 0%Qc (skeleton_values (spiked n k 0%Qc c) scores (k / 2) (k + 1))); [|rewrite SV in IN; destruct IN].
        apply Nat.eqb_neq in K0. unfold skeleton_values. apply in_map_iff. exists (0%Qc, 1%Qc). split; auto. apply filter_In. split; auto.
        assert (KD : k / 2 < k) by (apply Nat.div_lt; lia).
        apply (nth_error_In _ 0). unfold slice. rewrite nth_firstn by lia. rewrite nth_error_skipn, Nat.add_0_r.
        apply nth_error_combine. rewrite spiked_nth, NS by lia. assert (E1 : (k / 2 =? k) = false) by (apply Nat.eqb_neq; lia). rewrite E1. auto.
      - destruct (qmean_bounds (w :: w') 0%Qc 0%Qc ltac:(discriminate)) as [B1 B2]; [|apply Qcle_antisym; auto].
        intros x J. rewrite (PZ x J). split; apply Qcle_refl. }
    unfold trailing_mean. set (lv := map (local_value (spiked n k 0%Qc c) scores) (range n)) in *.
    assert (LV : length lv = n) by (unfold lv, range; rewrite map_length, seq_length; auto).
    assert (NE : slice lv (0 + t + 1 - 5) (0 + t + 1) <> []).
    { intros X. apply (f_equal (@length Qc)) in X. unfold slice in X. rewrite firstn_length, skipn_length in X. cbn [length] in X. lia. }
    destruct (qmean_bounds (slice lv (0 + t + 1 - 5) (0 + t + 1)) 0%Qc 0%Qc NE) as [B1 B2]; [|apply Qcle_antisym; auto].
    intros x I. rewrite (Z x); [split; apply Qcle_refl|]. apply In_nth_error in I. destruct I as [i I]. unfold slice in I.
    rewrite nth_error_firstn in I. destruct (i <? _); [|discriminate I]. rewrite nth_error_skipn in I. eapply nth_error_In; eauto. }
  split; auto. split; auto.
  destruct (row_value _ _ _ _ HS _ _ _ _ _ _ _ _ _ H Hr) as [V PC]. unfold pre_consistent in PC.
  split.
  - intros P. rewrite P in PC.
    assert (A : r_anomaly r = true) by (destruct (r_anomaly r); auto; destruct (r_neg r); contradiction). rewrite A in PC.
    destruct (proj1 AN A) as [-> K0]. split; auto. split; auto.
    rewrite spiked_nth, Nat.eqb_refl in V by auto. injection V as V. rewrite (EZ K0), <- V in PC.
    destruct (r_neg r); [contradiction|]. destruct (Qclt_le_dec 0 c) as [X|X]; auto. exfalso. apply C0. apply Qcle_antisym; auto. clear - PC. qlra.
  - intros (-> & K0 & CP). rewrite (proj2 AN) in PC by auto. rewrite spiked_nth, Nat.eqb_refl in V by auto. injection V as V.
    rewrite (EZ K0), <- V in PC. destruct (r_neg r), (r_pos r); auto; try contradiction. exfalso. clear - PC CP. qlra.
Qed.
End SP.
Print Assumptions C113_entire.
Print Assumptions C113_latest.
Print Assumptions C113_zero_level.

(** * The assumptions can be met *)

(** The spectral residual transform itself, rounded down to multiples of 1 / (2 n). *)
Definition sampled (l : list Qc) : list Qc :=
  map (fun r => qz (Int_part (r * INR (2 * length l))) / qn (2 * length l))%Qc (spectral_residual_transform (map QR l)).
Lemma int_part_nonneg : forall r, (0 <= r)%R -> (0 <= Int_part r)%Z.
Proof. intros r H. destruct (base_Int_part r) as [_ B]. assert (X : (-1 < IZR (Int_part r))%R) by lra. apply lt_IZR in X. lia. Qed.
Lemma sampled_length : forall l, length (sampled l) = length l.
Proof. intros. unfold sampled. rewrite map_length, srt_length, map_length. auto. Qed.
Lemma sampled_nonneg : forall l x, In x (sampled l) -> (0 <= x)%Qc.
Proof.
  intros l x I. pose proof (sampled_length l) as L. unfold sampled in *. destruct l as [|a t].
  { destruct (spectral_residual_transform (map QR [])) as [|r t] eqn:E; [destruct I|]. cbn in L. discriminate L. }
  apply in_map_iff in I. destruct I as (r & <- & I).
  destruct (srt_nonneg_len (map QR (a :: t))) as [_ F]. rewrite Forall_forall in F. pose proof (F r I) as R0.
  assert (P : (0 < qn (2 * length (a :: t)))%Qc) by (apply qn_pos; cbn [length]; lia).
  apply Qcle_div_iff; auto. rewrite Qcmult_0_l. rewrite <- qz_0. apply (proj1 (qz_le _ _)). apply int_part_nonneg.
  apply Rmult_le_pos; auto. apply pos_INR.
Qed.
Lemma sampled_well : forall l, computed_well sampled l.
Proof.
  intros l. split; [apply sampled_length|]. intros t m r Hm Hr. unfold sampled in Hm. rewrite nth_error_map, Hr in Hm. cbn [option_map] in Hm.
  assert (Em : m = (qz (Int_part (r * INR (2 * length l))) / qn (2 * length l))%Qc) by congruence. subst m. clear Hm.
  apply nth_error_lt in Hr. rewrite srt_length, map_length in Hr.
  assert (N : 0 < 2 * length l) by lia. assert (NR : (0 < INR (2 * length l))%R) by (apply lt_0_INR; auto).
  rewrite QR_div by (apply qn_neq0; auto). rewrite QR_qz, QR_qn. replace (2 * INR (length l))%R with (INR (2 * length l)) by (rewrite mult_INR; simpl; ring).
  set (N2 := INR (2 * length l)) in *. clearbody N2. destruct (base_Int_part (r * N2)) as [B1 B2]. set (z := IZR (Int_part (r * N2))) in *. clearbody z.
  replace (z / N2 - r)%R with ((z - r * N2) * / N2)%R by (field; lra). rewrite Rabs_mult, (Rabs_pos_eq (/ N2)) by (left; apply Rinv_0_lt_compat; auto).
  unfold Rdiv. apply Rmult_le_compat_r; [left; apply Rinv_0_lt_compat; auto|]. unfold Rabs. destruct (Rcase_abs _); lra.
Qed.
Lemma sampled_zero : forall n k c, 3 <= n -> k < n -> c <> 0%Qc -> sampled (spiked n k 0%Qc c) = spiked n k 0%Qc 1%Qc.
Proof.
  intros n k c N K C. unfold sampled. rewrite spiked_length, spiked_real, QR_0, C112_spike_on_zero; auto.
  2:{ intros X. apply C. apply QR_inj. rewrite X, QR_0. auto. }
  unfold level_with_spike, spiked. rewrite map_map. apply map_ext. intros t. destruct (t =? k).
  - rewrite Rplus_0_l, Rmult_1_l, Int_part_INR. change (qz (Z.of_nat (2 * n))) with (qn (2 * n)). rewrite Qcplus_0_l. unfold Qcdiv. apply Qcmult_inv_r. apply qn_neq0. lia.
  - rewrite Rmult_0_l. change 0%R with (INR 0). rewrite Int_part_INR. cbn [Z.of_nat]. rewrite qz_0. unfold Qcdiv. apply Qcmult_0_l.
Qed.

Definition ex_trend (l : list Qc) (_ : option nat) : res (list Qc) := Ok l.
(** For every spike that stands out there is an answer with score 1. *)
Lemma entire_model : forall transform std trend sort series th ratio nt rows m, sorts_down sort ->
  spectral_residual_detection transform std trend sort series th ratio nt false = Ok (rows, m) -> m = SpectralResidual.
Proof.
  intros transform std trend sort series th ratio nt rows m HS E.
  destruct (sr_inv _ _ _ _ (fun l => proj1 (HS l)) _ _ _ _ _ _ _ E) as (sc & e & idx & u & ED & _). unfold sr_detect in ED. bind_inv ED. injection ED. auto.
Qed.
Lemma ex_trend_ok : forall (s : list Qc) (p : option nat), exists t, ex_trend s p = Ok t /\ length t = length s.
Proof. intros. exists s. auto. Qed.
Lemma entire_answered : forall n k b c th ratio nt, stands_out n b c -> 1 <= k -> k < n -> (th <= Q2Qc (7 # 2))%Qc -> exists rows r,
  spectral_residual_detection sampled (fun _ => 1%Qc) ex_trend ex_sort (spiked n k b c) th ratio nt false = Ok (rows, SpectralResidual) /\
  nth_error rows k = Some r /\ r_score r = 1%Qc.
Proof.
  intros n k b c th ratio nt SO K1 K T. assert (N : 12 <= n) by (destruct SO as (_ & [[_ X]|[_ X]]); lia).
  destruct (sr_total sampled (fun _ => 1%Qc) ex_trend ex_sort sampled_length ex_trend_ok (spiked n k b c) th ratio nt false) as (rows & m & E & L);
    [rewrite spiked_length; lia|discriminate|].
  rewrite spiked_length in L. destruct (nth_error_ex _ rows k ltac:(lia)) as [r H1].
  pose proof (entire_model _ _ _ _ _ _ _ _ _ _ ex_sort_ok E). subst m. exists rows, r. split; auto. split; auto.
  apply (C113_entire sampled (fun _ => 1%Qc) ex_trend ex_sort sampled_nonneg ex_sort_ok n k b c th ratio nt rows SpectralResidual r); auto. apply sampled_well.
Qed.
(** Thirty values 5, with an 8 among them. *)
Example C113_example_entire : exists rows r,
  spectral_residual_detection sampled (fun _ => 1%Qc) ex_trend ex_sort (spiked 30 10 (Q2Qc 5) (Q2Qc 3)) (Q2Qc (7 # 2)) (Q2Qc (1 # 4)) true false = Ok (rows, SpectralResidual) /\
  nth_error rows 10 = Some r /\ r_score r = 1%Qc.
Proof. apply entire_answered; try lia; [|qlra]. split; [discriminate|]. left. split; [qlra|lia]. Qed.
(** A dip towards zero is covered too. *)
Example C113_example_dip : stands_out 30 (Q2Qc 5) (Q2Qc (-4)) /\ stands_out (40 / 2) (Q2Qc 5) (Q2Qc 30) /\
  lean_std (fun _ => 1%Qc) (spiked 40 39 (Q2Qc 5) (Q2Qc 30)).
Proof.
  split; [|split].
  - split; [discriminate|]. right. split; [vm_compute; discriminate|lia].
  - split; [discriminate|]. left. split; [vm_compute; discriminate|]. change (12 <= 20). lia.
  - split; [vm_compute; discriminate|]. vm_compute. discriminate.
Qed.

(** Thirty-nine values 5, then 35. *)
Definition ex_transform (l : list Qc) : list Qc := if length l <=? 1000 then sampled l else repeat 0%Qc (length l).
Lemma ex_transform_length : forall l, length (ex_transform l) = length l.
Proof. intros. unfold ex_transform. destruct (_ <=? _); [apply sampled_length|apply repeat_length]. Qed.
Lemma ex_transform_nonneg : forall l x, In x (ex_transform l) -> (0 <= x)%Qc.
Proof.
  intros l x. unfold ex_transform. destruct (_ <=? _); [apply sampled_nonneg|]. intros I. apply repeat_spec in I. subst. apply Qcle_refl.
Qed.
Lemma ex_transform_settled : first_settled ex_transform.
Proof.
  intros l m H. split; [eapply ex_transform_nonneg, nth_error_In; eauto|].
  unfold ex_transform in H. destruct (length l <=? 1000) eqn:E.
  - apply Nat.leb_le in E. pose proof (sampled_length l) as SL. pose proof (nth_error_lt _ _ _ _ H) as L0. rewrite SL in L0.
    pose proof (sampled_nonneg l m (nth_error_In _ _ H)) as M0.
    unfold sampled in H. rewrite nth_error_map in H. destruct (nth_error _ 0) as [r|]; [|discriminate H]. cbn [option_map] in H.
    assert (Em : (qz (Int_part (r * INR (2 * length l))) / qn (2 * length l))%Qc = m) by congruence. clear H. rename Em into H.
    set (z := Int_part (r * INR (2 * length l))) in *. clearbody z.
    assert (P : (0 < qn (2 * length l))%Qc) by (apply qn_pos; lia).
    destruct (Z_le_gt_dec z 0) as [Z0|Z0].
    + left. rewrite <- H. apply Qcdiv_le_iff; auto. apply Qcle_trans with 0%Qc; [rewrite <- qz_0; apply (proj1 (qz_le _ _)); lia|].
      unfold EPS. apply Qcmul_nonneg; [qlra|apply Qclt_le_weak; auto].
    + right. rewrite <- H. apply Qclt_le_trans with (Q2Qc (1 # 2000)); [unfold EPS; qlra|]. apply Qcle_div_iff; auto.
      assert (Q : (qn (2 * length l) <= Q2Qc 2000)%Qc).
      { change (Q2Qc 2000) with (qz 2000). unfold qn. apply (proj1 (qz_le _ _)). lia. }
      assert (Z1 : (1 <= qz z)%Qc) by (change 1%Qc with (qz 1); apply (proj1 (qz_le _ _)); lia). qlra.
  - left. pose proof (nth_error_In _ _ H) as I. apply repeat_spec in I. subst m. unfold EPS. qlra.
Qed.
Lemma ex_transform_well : forall l, length l <= 1000 -> computed_well ex_transform l.
Proof.
  intros l H. unfold computed_well, ex_transform. apply Nat.leb_le in H. rewrite H. apply sampled_well.
Qed.
Lemma latest_answered : forall n b c th ratio nt, stands_out (S n / 2) b c -> lean_std (fun _ => 1%Qc) (spiked (S n) n b c) -> n + 6 <= 1000 ->
  (th <= Q2Qc (7 # 2))%Qc -> exists rows r,
  spectral_residual_detection ex_transform (fun _ => 1%Qc) ex_trend ex_sort (spiked (S n) n b c) th ratio nt true = Ok (rows, SpectralResidual) /\
  nth_error rows n = Some r /\ r_score r = 1%Qc /\ r_expected r = b.
Proof.
  intros n b c th ratio nt SO LS N T. assert (N2 : 12 <= S n).
  { assert (S n / 2 <= S n) by (apply Nat.div_le_upper_bound; lia). destruct SO as (_ & [[_ X]|[_ X]]); lia. }
  destruct (sr_total ex_transform (fun _ => 1%Qc) ex_trend ex_sort ex_transform_length ex_trend_ok (spiked (S n) n b c) th ratio nt true) as (rows & m & E & L);
    [rewrite spiked_length; lia|intros _; apply ex_transform_settled|].
  rewrite spiked_length in L. destruct (nth_error_ex _ rows n ltac:(lia)) as [r H1].
  destruct (C113_latest ex_transform (fun _ => 1%Qc) ex_trend ex_sort ex_transform_nonneg ex_sort_ok n b c th ratio nt rows m r) as (M & S & X & _); auto.
  - intros j J. apply ex_transform_well. rewrite spiked_length. lia.
  - subst m. exists rows, r. auto.
Qed.
Example C113_example_latest : exists rows r,
  spectral_residual_detection ex_transform (fun _ => 1%Qc) ex_trend ex_sort (spiked 40 39 (Q2Qc 5) (Q2Qc 30)) (Q2Qc (7 # 2)) (Q2Qc (1 # 4)) true true = Ok (rows, SpectralResidual) /\
  nth_error rows 39 = Some r /\ r_score r = 1%Qc /\ r_expected r = Q2Qc 5.
Proof. apply latest_answered; try apply C113_example_dip; try lia. qlra. Qed.

(** Zeros with a single other value [c]: reported, unless it is the first. *)
Lemma zero_answered : forall n k c ratio nt, 12 <= n -> k < n -> c <> 0%Qc -> exists rows,
  spectral_residual_detection sampled (fun _ => 1%Qc) ex_trend ex_sort (spiked n k 0%Qc c) (Q2Qc (7 # 2)) ratio nt false = Ok (rows, SpectralResidual) /\
  length rows = n /\ forall t r, nth_error rows t = Some r -> r_anomaly r = (t =? k) && negb (k =? 0).
Proof.
  intros n k c ratio nt N K C.
  destruct (sr_total sampled (fun _ => 1%Qc) ex_trend ex_sort sampled_length ex_trend_ok (spiked n k 0%Qc c) (Q2Qc (7 # 2)) ratio nt false) as (rows & m & E & L);
    [rewrite spiked_length; lia|discriminate|].
  pose proof (entire_model _ _ _ _ _ _ _ _ _ _ ex_sort_ok E). subst m. exists rows. rewrite spiked_length in L. split; auto. split; auto. intros t r Hr.
  assert (A : r_anomaly r = true <-> t = k /\ k <> 0).
  { apply (C113_zero_level sampled (fun _ => 1%Qc) ex_trend ex_sort sampled_nonneg ex_sort_ok n k c (Q2Qc (7 # 2)) ratio nt rows SpectralResidual); auto; try lia; try qlra.
    apply sampled_zero; auto. lia. lia. }
  apply eq_true_iff_eq. rewrite A, andb_true_iff, negb_true_iff, Nat.eqb_eq, Nat.eqb_neq. tauto.
Qed.
Example C113_example_zero : exists rows,
  spectral_residual_detection sampled (fun _ => 1%Qc) ex_trend ex_sort (spiked 12 7 0%Qc (Q2Qc (-3))) (Q2Qc (7 # 2)) (Q2Qc (1 # 4)) true false = Ok (rows, SpectralResidual) /\
  length rows = 12 /\ forall t r, nth_error rows t = Some r -> r_anomaly r = (t =? 7) && negb (7 =? 0).
Proof. apply zero_answered; [lia|lia|discriminate]. Qed.

(** C113. "A spike is reported wherever it is" is false: the first point is its
    own average. *)
Theorem C113_first_point_refuted : exists transform std trend sort c rows,
  (forall l, computed_well transform l) /\ sorts_down sort /\ c <> 0%Qc /\
  spectral_residual_detection transform std trend sort (spiked 12 0 0%Qc c) (Q2Qc (7 # 2)) (Q2Qc (1 # 4)) true false = Ok (rows, SpectralResidual) /\
  length rows = 12 /\ forall r, In r rows -> r_anomaly r = false.
Proof.
  destruct (zero_answered 12 0 (Q2Qc 100) (Q2Qc (1 # 4)) true) as (rows & E & L & A); [lia|lia|discriminate|].
  exists sampled, (fun _ => 1%Qc), ex_trend, ex_sort, (Q2Qc 100), rows. split; [apply sampled_well|]. split; [apply ex_sort_ok|]. split; [discriminate|].
  split; auto. split; auto. intros r I. apply In_nth_error in I. destruct I as [t I]. rewrite (A t r I). apply andb_false_r.
Qed.
Print Assumptions C113_first_point_refuted.
