(** Properties of the spectral residual detector: C59, C60, C69. *)
From Coq Require Import List Arith ZArith QArith Qcanon Qround Lia Bool Sorted Permutation.
From Verif Require Import Base Num Sorting Kernel_model Kernel_proofs FillUp_model Helpers_model Helpers_spec Helpers_proofs Helpers_proofs2 Helpers_props
  Margins_model SR_model SR_spec Detect_model Detect_spec Detect_proofs Detect_proofs2 Detect_proofs3 Detect_proofs4 SR_proofs SR_proofs2 Kernel_props Detect_proofs7.
Import ListNotations.
Open Scope nat_scope.

Section SR.
Variable transform : list Qc -> list Qc.
Variable std : list Qc -> Qc.
Variable trend_detection : list Qc -> option nat -> res (list Qc).
Variable sort_desc : list (nat * Qc) -> list (nat * Qc).
Hypothesis HS : sorts_down sort_desc.
Notation SR := (spectral_residual_detection transform std trend_detection sort_desc).

(** C59. Entire mode: the expected values are the 5-point trailing means of
    the local skeleton values, and lie in the range of the series. *)
Theorem C59_expected_entire : forall series th ratio nt rows m scores,
  SR series th ratio nt false = Ok (rows, m) -> generate_spectral_score transform series true = Ok scores ->
  let n := length series in
  map r_expected rows = map (trailing_mean (map (local_value series scores) (range n)) 5) (range n) /\
  Forall (within series) (map r_expected rows).
Proof.
  intros series th ratio nt rows m scores H G n.
  destruct (sr_inv _ _ _ _ (fun l => proj1 (HS l)) _ _ _ _ _ _ _ H) as (sc & e & idx & t & ED & L & EE & EF & _).
  unfold sr_detect in ED. rewrite G, bind_ok in ED. inversion ED; subst sc. clear ED.
  rewrite skeleton_expected_ok in EE by (rewrite map_length; auto). rewrite bind_ok in EE.
  assert (LV : map (marked_value series (map (fun s => (s <=? SKELETON)%Qc) scores)) (range (length series)) =
               map (local_value series scores) (range n)).
  { apply map_ext_in. intros i I. unfold range in I. apply in_seq in I. apply marked_local; auto. lia. }
  rewrite LV in EE. set (lv := map (local_value series scores) (range n)) in *.
  assert (LL : length lv = n) by (unfold lv, range; rewrite map_length, seq_length; auto).
  rewrite C23_average_filter_trailing_mean in EE by lia. rewrite LL in EE. inversion EE; subst e. clear EE.
  destruct (frame_columns _ _ _ _ _ _ EF) as (EX & _). rewrite EX. split; auto.
  apply Forall_forall. intros x I. apply in_map_iff in I. destruct I as (i & <- & I). unfold range in I. apply in_seq in I.
  apply trailing_within; [lia|lia|]. intros y J. unfold lv in J. apply in_map_iff in J. destruct J as (j & <- & J).
  unfold range in J. apply in_seq in J. apply local_within. unfold n in *. lia.
Qed.

(** C59. Latest mode: only the last expected value differs from the observed
    one; it is the mean of the later half of the skeleton points. *)
Theorem C59_expected_latest : forall series th ratio nt rows m scores,
  SR series th ratio nt true = Ok (rows, m) ->
  sr_detect transform std series (sr_quota (length series) ratio) true = Ok (scores, m) ->
  let n := length series in
  let pts := skeleton_values series scores 0 n in
  let e := qmean (skipn (length pts / 2) pts) in
  map r_expected rows = firstn (n - 1) series ++ [e] /\ within series e.
Proof.
  intros series th ratio nt rows m scores H G n pts e.
  destruct (sr_inv _ _ _ _ (fun l => proj1 (HS l)) _ _ _ _ _ _ _ H) as (sc & e' & idx & t & ED & L & EE & EF & _).
  rewrite G in ED. inversion ED; subst sc. clear ED.
  destruct (frame_columns _ _ _ _ _ _ EF) as (EX & _). rewrite EX. clear EX EF.
  unfold last_expected in EE. cbv zeta in EE.
  assert (P : map fst (filter snd (combine series (map (fun s => (s <=? SKELETON)%Qc) scores))) = pts).
  { unfold pts, skeleton_values. rewrite combine_map_r. unfold slice. rewrite Nat.sub_0_r. simpl skipn.
    rewrite firstn_all2 by (rewrite combine_length; unfold n; lia).
    generalize (combine series scores). induction l as [|[a b] u IH]; auto. cbn [map filter snd fst]. unfold SKELETON at 1.
    destruct (b <=? 1)%Qc; cbn [map fst]; rewrite IH; auto. }
  rewrite P in EE. fold n in EE. unfold e.
  destruct (skipn (length pts / 2) pts) as [|w W] eqn:EW; [discriminate EE|]. inversion EE; subst e'. split; auto.
  apply qmean_within; [discriminate|]. intros x I. rewrite <- EW in I.
  apply (skeleton_values_in series scores 0 n). fold pts. apply In_nth_error in I. destruct I as [k I].
  rewrite nth_error_skipn in I. apply nth_error_In in I. auto.
Qed.

(** C69. The reported points are those with the highest raw scores among the
    points whose score reaches the threshold, as many as the quota admits. *)
Theorem C69_highest_scores_reported : forall series th ratio nt lm rows m scores,
  SR series th ratio nt lm = Ok (rows, m) ->
  sr_detect transform std series (sr_quota (length series) ratio) lm = Ok (scores, m) ->
  length scores = length series /\
  (forall i r s, nth_error rows i = Some r -> nth_error scores i = Some s -> r_anomaly r = true -> (th <= s)%Qc) /\
  (forall i r s j r' s', nth_error rows i = Some r -> nth_error scores i = Some s -> r_anomaly r = true ->
     nth_error rows j = Some r' -> nth_error scores j = Some s' -> r_anomaly r' = false -> (th <= s')%Qc -> (s' <= s)%Qc) /\
  reported rows = Nat.min (sr_quota (length series) ratio) (length (filter (fun s => (th <=? s)%Qc) scores)).
Proof.
  intros series th ratio nt lm rows m scores H G.
  destruct (sr_inv _ _ _ _ (fun l => proj1 (HS l)) _ _ _ _ _ _ _ H) as (sc & e & idx & t & ED & L & _ & EF & EI).
  rewrite G in ED. inversion ED; subst sc. clear ED. split; auto.
  set (q := sr_quota (length series) ratio) in *.
  set (cand := filter (fun p => (th <=? snd p)%Qc) (combine (range (length series)) scores)) in *.
  destruct (HS cand) as [PM SS]. set (srt := sort_desc cand) in *.
  assert (A : forall i r, nth_error rows i = Some r -> r_anomaly r = mem_nat i idx).
  { intros i r Hr. apply result_frame_spec in EF. destruct EF as (_ & _ & R). destruct (R i r Hr) as (_ & _ & _ & _ & _ & _ & X & _). auto. }
  assert (C : forall i s, In (i, s) cand <-> i < length series /\ nth_error scores i = Some s /\ (th <= s)%Qc).
  { intros i s. unfold cand. rewrite filter_In. unfold range. rewrite cand_labels. cbn [snd]. rewrite Qcleb_le. split.
    - intros [(k & -> & K & X) Y]. rewrite Nat.add_0_l. auto.
    - intros (X & Y & Z). split; auto. exists i. repeat split; auto. }
  assert (M : forall i s, nth_error scores i = Some s -> (mem_nat i idx = true <-> In (i, s) (firstn q srt))).
  { intros i s Hs. rewrite mem_nat_in, EI. split.
    - intros I. apply in_map_iff in I. destruct I as ([j s'] & X & I). simpl in X. subst j.
      pose proof (firstn_incl _ _ _ _ I) as J. apply (Permutation_in _ (Permutation_sym PM)) in J. apply C in J.
      destruct J as (_ & J & _). rewrite Hs in J. inversion J; subst. auto.
    - intros I. apply in_map_iff. exists (i, s). auto. }
  split; [|split].
  - intros i r s Hr Hs An. rewrite (A i r Hr) in An. apply (M i s Hs) in An. apply firstn_incl in An.
    apply (Permutation_in _ (Permutation_sym PM)) in An. apply C in An. tauto.
  - intros i r s j r' s' Hr Hs An Hr' Hs' An' T. rewrite (A i r Hr) in An. rewrite (A j r' Hr') in An'.
    apply (M i s Hs) in An.
    assert (NB : ~ In (j, s') (firstn q srt)). { intros X. apply (M j s' Hs') in X. congruence. }
    assert (B : In (j, s') srt).
    { apply (Permutation_in _ PM). apply C. split; auto. rewrite <- L. apply (nth_error_lt _ _ _ _ Hs'). }
    exact (firstn_sorted_ge srt q (i, s) (j, s') SS An B NB).
  - rewrite (reported_frame _ _ _ _ _ _ EF).
    assert (N : NoDup idx).
    { rewrite EI. rewrite <- firstn_map. apply firstn_nodup. apply (Permutation_NoDup (Permutation_map fst PM)).
      unfold cand. apply map_filter_nodup. apply cand_nodup. }
    assert (LC : length cand = length (filter (fun s => (th <=? s)%Qc) scores)).
    { unfold cand. clear - L. revert L. generalize (length series) as n. unfold range. generalize 0 as k.
      induction scores as [|x t IH]; intros k [|n] HL; simpl in HL; try discriminate HL; auto.
      cbn [seq combine filter snd]. destruct (th <=? x)%Qc; cbn [length]; rewrite IH; auto; lia. }
    pose proof (count_mem (length series) idx N) as CM.
    assert (LI : length idx = Nat.min q (length cand)).
    { rewrite EI, map_length, firstn_length. rewrite <- (Permutation_length PM). auto. }
    rewrite <- LC, <- LI.
    assert (INC : forall x, In x idx -> x < length series).
    { intros x I. rewrite EI in I. apply in_map_iff in I. destruct I as ([j s'] & X & I). simpl in X. subst j.
      apply firstn_incl in I. apply (Permutation_in _ (Permutation_sym PM)) in I. apply C in I. tauto. }
    apply Nat.le_antisymm; [lia|].
    apply NoDup_incl_length; auto. intros x I. apply filter_In. split.
    + unfold range. apply in_seq. pose proof (INC x I). lia.
    + apply mem_nat_in. auto.
Qed.

(** C60, in the answer: with the default threshold 3.5 every reported point has
    the normalised score 1, however high its raw score. *)
Theorem C60_reported_scores_saturate : forall series th ratio nt lm rows m,
  SR series th ratio nt lm = Ok (rows, m) -> (Q2Qc (30 # 23) <= th)%Qc ->
  forall r, In r rows -> r_anomaly r = true -> r_score r = 1%Qc.
Proof.
  intros series th ratio nt lm rows m H HT r I A.
  destruct (sr_inv _ _ _ _ (fun l => proj1 (HS l)) _ _ _ _ _ _ _ H) as (sc & e & idx & t & ED & L & _ & EF & _).
  destruct (C69_highest_scores_reported _ _ _ _ _ _ _ _ H ED) as (_ & X & _).
  destruct (frame_columns _ _ _ _ _ _ EF) as (_ & SC & _ & _).
  apply In_nth_error in I. destruct I as [i I].
  assert (Y : nth_error (map r_score rows) i = Some (r_score r)) by (rewrite nth_error_map, I; auto).
  rewrite SC, nth_error_map in Y. destruct (nth_error sc i) as [s|] eqn:Es; [|discriminate Y]. simpl in Y.
  inversion Y as [Y']. pose proof (X i r s I Es A) as Z. rewrite normalise_eq. qmm; qlra.
Qed.

(** C69, latest mode: a last value within 1.5 standard deviations of the mean is
    not reported (for a positive threshold). *)
Theorem C69_latest_near_mean_not_reported : forall series th ratio nt rows m r v,
  SR series th ratio nt true = Ok (rows, m) -> (0 < th)%Qc ->
  nth_error rows (length series - 1) = Some r -> nth_error series (length series - 1) = Some v ->
  (0 < std series)%Qc -> (Qcabs (v - qmean series) < Q2Qc (3 # 2) * std series)%Qc ->
  r_anomaly r = false /\ m = SpectralResidual_ZScore.
Proof.
  intros series th ratio nt rows m r v H HT Hr Hv SD Z.
  destruct (sr_inv _ _ _ _ (fun l => proj1 (HS l)) _ _ _ _ _ _ _ H) as (sc & e & idx & t & ED & L & _ & _ & _).
  destruct (C69_highest_scores_reported _ _ _ _ _ _ _ _ H ED) as (_ & X & _).
  unfold sr_detect in ED. cbv zeta in ED. bind_inv ED.
  assert (GV : get series (length series - 1) = Ok v) by (apply get_ok; auto).
  rewrite GV, bind_ok in ED. bind_inv ED. bind_inv ED. bind_inv ED.
  assert (B1 : (std series =? 0)%Qc = false) by (apply Qceqb_neq; intros W; rewrite W in SD; revert SD; qlra).
  assert (B2 : (Qcabs (v - qmean series) / std series <? Q2Qc (3 # 2))%Qc = true).
  { apply Qcltb_lt. apply Qcdiv_lt_iff; auto. }
  rewrite B1, B2 in ED. cbn [negb andb] in ED. inversion ED as [[ES EM]]. split; auto.
  destruct (r_anomaly r) eqn:A; auto. exfalso.
  assert (Y : nth_error sc (length series - 1) = Some 0%Qc).
  { rewrite <- ES. apply nth_error_upd_same. rewrite <- ES, upd_length in L. rewrite L. apply (nth_error_lt _ _ _ _ Hv). }
  pose proof (X _ _ _ Hr Y A). qlra.
Qed.
End SR.
Print Assumptions C59_expected_entire.
Print Assumptions C59_expected_latest.
Print Assumptions C69_highest_scores_reported.
Print Assumptions C60_reported_scores_saturate.
Print Assumptions C69_latest_near_mean_not_reported.

(** C60 as documented is false: a raw score of 1, far below the minimum raw
    score, normalises to 16/23 instead of 0. *)
Theorem C60_score_normalisation_refuted : exists s, (s < Q2Qc (7 # 2))%Qc /\ intended_score s = 0%Qc /\ normalise_score s = Q2Qc (16 # 23).
Proof. exists 1%Qc. split; [qlra|]. split; apply Qc_is_canon; reflexivity. Qed.
Print Assumptions C60_score_normalisation_refuted.

(** C60, what the code computes. *)
Theorem C60_score_thresholds : forall s,
  (normalise_score s = 0%Qc <-> (s <= Q2Qc (7 # 23))%Qc) /\ (normalise_score s = 1%Qc <-> (Q2Qc (30 # 23) <= s)%Qc) /\
  (0 <= normalise_score s <= 1)%Qc /\ (intended_score s <= normalise_score s)%Qc.
Proof.
  intros s. rewrite normalise_eq. split; [|split; [|split]].
  - unfold Qcmax. destruct (s - Q2Qc (7 # 23) <=? 0)%Qc eqn:E; qmm; split; intros; qlra.
  - unfold Qcmax. destruct (s - Q2Qc (7 # 23) <=? 0)%Qc eqn:E; qmm; split; intros; qlra.
  - unfold Qcmax. destruct (s - Q2Qc (7 # 23) <=? 0)%Qc eqn:E; split; qmm; qlra.
  - unfold intended_score.
    assert (X : ((s - Q2Qc (7 # 2)) / (Q2Qc 15 - Q2Qc (7 # 2)) = s * Q2Qc (2 # 23) - Q2Qc (7 # 23))%Qc).
    { assert (D : (Q2Qc 15 - Q2Qc (7 # 2) = Q2Qc (23 # 2))%Qc) by (apply Qc_is_canon; reflexivity). rewrite D.
      assert (I : (/ Q2Qc (23 # 2) = Q2Qc (2 # 23))%Qc) by (apply Qc_is_canon; reflexivity). unfold Qcdiv. rewrite I. qlra. }
    rewrite X. unfold Qcmax. destruct (s - Q2Qc (7 # 23) <=? 0)%Qc eqn:E; destruct (s * Q2Qc (2 # 23) - Q2Qc (7 # 23) <=? 0)%Qc eqn:E'; qmm; qlra.
Qed.
Print Assumptions C60_score_thresholds.

(** A spike of 20 among ones, with the identity as the transform. *)
Definition ex_sort (l : list (nat * Qc)) : list (nat * Qc) := rev (sort_pairs l).
Lemma sorted_snoc : forall A (R : A -> A -> Prop) l x, StronglySorted R l -> (forall y, In y l -> R y x) -> StronglySorted R (l ++ [x]).
Proof.
  induction l as [|y t IH]; intros x HS HX; simpl.
  - repeat constructor.
  - inversion HS as [|? ? S' F]; subst. constructor.
    + apply IH; auto. intros z I. apply HX. right. auto.
    + apply Forall_app. split; auto. constructor; auto. apply HX. left. auto.
Qed.
Lemma ex_sort_ok : sorts_down ex_sort.
Proof.
  intros l. destruct (sort_pairs_ok l) as [P SS]. split.
  - unfold ex_sort. rewrite <- Permutation_rev. auto.
  - unfold ex_sort. clear P. induction SS as [|x t S' IH F]; simpl; [constructor|].
    apply sorted_snoc; auto. intros y I. apply in_rev in I. rewrite Forall_forall in F. apply F; auto.
Qed.
Definition ex_series : list Qc := zs [1; 1; 1; 1; 1; 1; 1; 1; 1; 1; 20; 1; 1]%Z.
Example C59_example :
  match spectral_residual_detection (fun l => l) (fun _ => Q2Qc 5) (fun s _ => Ok s) ex_sort ex_series (Q2Qc (7 # 2)) (Q2Qc (1 # 4)) false false with
  | Ok (rows, _) => map this (map r_expected rows) = map this (zs [1; 1; 1; 1; 1; 1; 1; 1; 1; 1; 1; 1; 1]%Z) /\
      map r_anomaly rows = [false; false; false; false; false; false; false; false; false; false; true; false; false]
  | Err _ => False
  end.
Proof. vm_compute. split; reflexivity. Qed.
Example C69_example :
  match spectral_residual_detection (fun l => l) (fun _ => Q2Qc 5) (fun s _ => Ok s) ex_sort ex_series (Q2Qc (7 # 2)) (Q2Qc (1 # 4)) false true with
  | Ok (rows, m) => m = SpectralResidual_ZScore /\ map r_anomaly (skipn 12 rows) = [false] /\
      map this (map r_expected rows) = map this ex_series
  | Err _ => False
  end.
Proof. vm_compute. repeat split; reflexivity. Qed.
