(** A lone spike on a level series: the scores of the detector. *)
From Coq Require Import List Arith ZArith QArith Qcanon Qround Lia Bool Sorted Permutation.
From Verif Require Import Base Num Sorting Kernel_model Kernel_proofs Helpers_model Helpers_spec Helpers_proofs Margins_model
  Period_proofs3 SR_model SR_spec SR_spec2 SR_proofs SR_proofs2 SR_proofs3 SR_props SR_props2 Detect_model Detect_spec Detect_proofs Detect_proofs2 Detect_proofs3
  Spike_spec Spike_proofs Spike_proofs2.
Import ListNotations.
Open Scope nat_scope.

Section SP.
Variable transform : list Qc -> list Qc.
Variable std : list Qc -> Qc.
Variable trend_detection : list Qc -> option nat -> res (list Qc).
Variable sort_desc : list (nat * Qc) -> list (nat * Qc).
Hypothesis NN : forall l x, In x (transform l) -> (0 <= x)%Qc.
Hypothesis HS : sorts_down sort_desc.
Notation SR := (spectral_residual_detection transform std trend_detection sort_desc).

Lemma score_entire : forall n k b c, stands_out n b c -> 1 <= k -> k < n -> computed_well transform (spiked (n + 5) k b c) ->
  exists scores s, generate_spectral_score transform (spiked n k b c) true = Ok scores /\ length scores = n /\
    nth_error scores k = Some s /\ (Q2Qc (7 # 2) <= s)%Qc.
Proof.
  intros n k b c SO K1 K W. destruct (spike_mag transform n k b c SO K W) as (m & M & H1 & H2 & H3 & H4 & H5).
  assert (N : 12 <= n) by (destruct SO as (_ & [[_ X]|[_ X]]); lia).
  destruct (spike_score transform NN (spiked n k b c) true (spiked (n + 5) k b c) k m M) as (scores & s & G); auto.
  - apply extend_entire; auto. lia.
  - apply W.
  - rewrite !spiked_length. lia.
  - rewrite spiked_length. auto.
  - rewrite spiked_length in G. eauto.
Qed.
Lemma score_latest : forall m b c, stands_out (S m) b c -> computed_well transform (spiked (m + 6) m b c) ->
  exists scores s, generate_spectral_score transform (spiked (S m) m b c) false = Ok scores /\ length scores = S m /\
    nth_error scores m = Some s /\ (Q2Qc (7 # 2) <= s)%Qc.
Proof.
  intros n b c SO W. replace (n + 6) with (S n + 5) in W by lia.
  destruct (spike_mag transform (S n) n b c SO ltac:(lia) W) as (m & M & H1 & H2 & H3 & H4 & H5).
  assert (N : 12 <= S n) by (destruct SO as (_ & [[_ X]|[_ X]]); lia).
  destruct (spike_score transform NN (spiked (S n) n b c) false (spiked (S n + 5) n b c) n m M) as (scores & s & G); auto.
  - apply extend_latest. lia.
  - apply W.
  - rewrite !spiked_length. lia.
  - lia.
  - rewrite spiked_length. auto.
  - rewrite spiked_length in G. eauto.
Qed.

Lemma stands_out_mono : forall n n' b c, n <= n' -> stands_out n b c -> stands_out n' b c.
Proof.
  intros n n' b c L (C & H). split; auto. destruct H as [[H N]|[H N]]; [left|right]; split; auto; try lia.
  apply qn_le in L. pose proof (Qcabs_nonneg b) as B. pose proof (Qcmul_nonneg (qn n' - qn n)%Qc (Qcabs b) ltac:(qlra) B) as P.
  set (u := qn n) in *. set (v := qn n') in *. set (x := Qcabs b) in *. set (y := Qcabs c) in *. clearbody u v x y. qlra.
Qed.

(** The deviation of the spike from the mean. *)
Lemma map_repeat : forall (A B : Type) (f : A -> B) x n, map f (repeat x n) = repeat (f x) n.
Proof. intros. induction n; cbn; congruence. Qed.
Lemma spiked_sum : forall (f : Qc -> Qc) n k b c, k < n -> qsum (map f (spiked n k b c)) = (qn (n - 1) * f b + f (b + c))%Qc.
Proof.
  intros f n k b c K. rewrite spiked_split by auto. rewrite map_app. cbn [map]. rewrite !map_repeat, qsum_app.
  change (qsum (f (b + c)%Qc :: repeat (f b) (n - 1 - k))) with (f (b + c) + qsum (repeat (f b) (n - 1 - k)))%Qc.
  rewrite !qsum_repeat. replace (n - 1) with (k + (n - 1 - k)) at 2 by lia. rewrite qn_add. ring.
Qed.
Lemma spike_deviation : forall m b c, 5 <= m -> c <> 0%Qc -> lean_std std (spiked (S m) m b c) ->
  negb (std (spiked (S m) m b c) =? 0)%Qc && (Qcabs (b + c - qmean (spiked (S m) m b c)) / std (spiked (S m) m b c) <? Q2Qc (3 # 2))%Qc = false.
Proof.
  intros m b c M C [S0 SL]. set (l := spiked (S m) m b c) in *. set (sd := std l) in *. clearbody sd.
  destruct (negb (sd =? 0)%Qc) eqn:E; auto. cbn [andb]. apply negb_true_iff in E. apply Qceqb_neq in E.
  assert (SP : (0 < sd)%Qc). { destruct (Qclt_le_dec 0 sd); auto. exfalso. apply E. apply Qcle_antisym; auto. }
  destruct (_ <? _)%Qc eqn:X; auto. exfalso. apply Qcltb_lt in X. apply Qcdiv_lt_iff in X; auto.
  assert (LL : length l = S m) by apply spiked_length.
  assert (QS : qn (S m) <> 0%Qc) by (apply qn_neq0; lia).
  set (d := (c / qn (S m))%Qc). assert (ED : c = (qn (S m) * d)%Qc) by (symmetry; apply Qcmul_div; auto).
  assert (QM : qmean l = (b + d)%Qc).
  { unfold qmean. rewrite LL. rewrite <- (map_id l) at 1. unfold l. rewrite spiked_sum by lia. replace (S m - 1) with m by lia.
    unfold d. rewrite qn_S. rewrite qn_S in QS. field. auto. }
  rewrite QM, LL in *. unfold l in SL. rewrite (spiked_sum (fun x => (x - (b + d)) * (x - (b + d)))%Qc) in SL by lia.
  replace (S m - 1) with m in SL by lia. clearbody d. rewrite qn_S in *.
  assert (M5 : (Q2Qc 5 <= qn m)%Qc) by (change (Q2Qc 5) with (qn 5); apply qn_le; auto).
  set (q := qn m) in *. clearbody q. clear l LL QM. subst c.
  replace (b + (1 + q) * d - (b + d))%Qc with (q * d)%Qc in * by ring. replace (b - (b + d))%Qc with (- d)%Qc in * by ring.
  assert (S2 : (sd * sd <= Q2Qc 2 * (q * (d * d)))%Qc).
  { destruct (Qclt_le_dec (Q2Qc 2 * (q * (d * d))) (sd * sd))%Qc as [Y|Y]; auto. exfalso.
    pose proof (Qcmul_pos (q + 1)%Qc (sd * sd - Q2Qc 2 * (q * (d * d)))%Qc ltac:(qlra) ltac:(qlra)) as Z. clear - Z SL. qlra. }
  assert (S3 : (Q2Qc 4 * ((q * d) * (q * d)) < Q2Qc 9 * (sd * sd))%Qc).
  { set (a := (q * d)%Qc) in *. clearbody a. clear - X SP.
    assert (Y : (a < Q2Qc (3 # 2) * sd)%Qc /\ (- a < Q2Qc (3 # 2) * sd)%Qc) by (revert X; qmm; intros X; split; qlra). destruct Y as [Y1 Y2].
    pose proof (Qcmul_pos (Q2Qc (3 # 2) * sd - a)%Qc (Q2Qc (3 # 2) * sd + a)%Qc ltac:(qlra) ltac:(qlra)) as P. qlra. }
  pose proof (Qcmul_nonneg q (d * d)%Qc ltac:(qlra) (Qcsqr_nonneg d)) as W.
  pose proof (Qcmul_nonneg (q - Q2Qc 5)%Qc (q * (d * d))%Qc ltac:(qlra) W) as Z.
  clear - S2 S3 Z W. qlra.
Qed.

Lemma latest_scores : forall m b c q, stands_out (S m / 2) b c ->
  (forall j, S m / 2 <= j <= m -> computed_well transform (spiked (j + 6) j b c)) -> lean_std std (spiked (S m) m b c) ->
  exists scores s, sr_detect transform std (spiked (S m) m b c) q true = Ok (scores, SpectralResidual) /\ length scores = S m /\
    nth_error scores m = Some s /\ (Q2Qc (7 # 2) <= s)%Qc.
Proof.
  intros m b c q SO W LS. unfold sr_detect. cbv zeta. rewrite spiked_length. replace (S m - 1) with m by lia.
  assert (N : 12 <= S m / 2) by (destruct SO as (_ & [[_ X]|[_ X]]); lia).
  assert (N2 : 2 * (S m / 2) <= S m) by (apply Nat.mul_div_le; lia).
  destruct (score_latest m b c) as (sc & s & E & L & _ & _).
  { eapply stands_out_mono; [|exact SO]. lia. }
  { apply W. lia. }
  rewrite E, bind_ok.
  assert (GV : get (spiked (S m) m b c) m = Ok (b + c)%Qc).
  { apply get_ok. rewrite spiked_nth by lia. rewrite Nat.eqb_refl. auto. }
  rewrite GV, bind_ok. set (md := Nat.min (Nat.max q (S m / 10)) (45 * S m / 100)).
  assert (MD : S m / 2 <= S m - md).
  { unfold md. assert (45 * S m / 100 <= S m - S m / 2); [|lia].
    apply Nat.div_le_upper_bound; [lia|]. pose proof (Nat.mul_succ_div_gt (S m) 2 ltac:(lia)). lia. }
  destruct (first_drop_total sc (Q2Qc (3 # 2)) (seq (S m - md) md) m) as (k & Ek & K).
  { intros i I. apply in_seq in I. unfold md in I. lia. }
  rewrite Ek, bind_ok. assert (KB : S m / 2 <= k <= m). { destruct K as [K| ->]; [apply in_seq in K|]; lia. }
  assert (FL : firstn k (spiked (S m) m b c) ++ [(b + c)%Qc] = spiked (S k) k b c).
  { rewrite !spiked_split by lia. rewrite firstn_app, repeat_length. replace (k - m) with 0 by lia. cbn [firstn]. rewrite app_nil_r.
    replace (S k - 1 - k) with 0 by lia. cbn [repeat]. f_equal. apply nth_error_ext_len.
    - rewrite firstn_length, !repeat_length. lia.
    - intros i Hi. rewrite firstn_length, repeat_length in Hi. rewrite nth_firstn by lia. rewrite !nth_error_repeat.
      assert (A1 : (i <? m) = true) by (apply Nat.ltb_lt; lia). assert (A2 : (i <? k) = true) by (apply Nat.ltb_lt; lia). rewrite A1, A2. auto. }
  rewrite FL. destruct (score_latest k b c) as (fs & f & E2 & L2 & F1 & F2).
  { eapply stands_out_mono; [|exact SO]. lia. }
  { apply W. lia. }
  rewrite E2, bind_ok, L2. replace (S k - 1) with k by lia.
  rewrite (proj2 (get_ok _ _ _ _) F1), bind_ok. rewrite spike_deviation; auto; [|lia|apply SO].
  set (sc' := firstn k sc ++ repeat (SKELETON * Q2Qc 2)%Qc (m - k) ++ skipn m sc).
  assert (LS' : length sc' = S m). { unfold sc'. rewrite !app_length, firstn_length, repeat_length, skipn_length. lia. }
  exists (upd sc' m f), f. split; auto. split; [rewrite upd_length; auto|]. split; auto. apply nth_error_upd_same. lia.
Qed.

(** * On a level of zero *)
Lemma zero_scores : forall n k c, 6 <= n -> k < n -> transform (spiked (n + 5) k 0%Qc c) = spiked (n + 5) k 0%Qc 1%Qc ->
  generate_spectral_score transform (spiked n k 0%Qc c) true =
    Ok (map (fun t => if t =? k then if k =? 0 then 0%Qc else Q2Qc 99 else 1%Qc) (seq 0 n)).
Proof.
  intros n k c N K T.
  assert (G : exists scores, generate_spectral_score transform (spiked n k 0%Qc c) true = Ok scores).
  { unfold generate_spectral_score. rewrite extend_entire, bind_ok by auto. cbv zeta.
    destruct (average_filter_spec (firstn (length (spiked n k 0%Qc c)) (transform (spiked (n + 5) k 0%Qc c))) 100 true ltac:(lia)) as (o & -> & _). rewrite bind_ok. eauto. }
  destruct G as [scores G]. rewrite G. f_equal.
  destruct (C88_raw_scores transform _ _ _ _ NN G (extend_entire n k 0%Qc c N K)) as [LS C]. rewrite spiked_length, T in *.
  set (mag := firstn n (spiked (n + 5) k 0%Qc 1%Qc)) in *.
  assert (LM : length mag = n) by (unfold mag; rewrite firstn_length, spiked_length; lia).
  assert (NM : forall t, t < n -> nth_error mag t = Some (if t =? k then 1%Qc else 0%Qc)).
  { intros t Ht. unfold mag. rewrite nth_firstn, spiked_nth by lia. destruct (t =? k); auto. }
  apply nth_error_ext_len; [rewrite map_length, seq_length; lia|]. intros t Ht. rewrite LS, LM in Ht.
  rewrite nth_error_map, nth_error_seq. assert (E : (t <? n) = true) by (apply Nat.ltb_lt; auto). rewrite E. cbn [option_map]. rewrite Nat.add_0_l.
  destruct (nth_error_ex _ scores t ltac:(lia)) as [s Hs]. rewrite Hs. f_equal.
  destruct (C t _ s (NM t Ht) Hs) as (a & (A0 & RD) & S0 & CA). destruct (t =? k) eqn:TK.
  - apply Nat.eqb_eq in TK. subst t. destruct (k =? 0) eqn:K0.
    + assert (P1 : padded_mean mag 100 k = 1%Qc).
      { unfold padded_mean. rewrite K0. apply Nat.eqb_eq in K0. subst k. apply nth_error_nth. rewrite NM by auto. auto. }
      rewrite P1 in CA. assert (EA : a = 1%Qc). { destruct CA as [[-> _]|[_ X]]; auto. exfalso. unfold EPS in X. clear - X. qlra. }
      subst a. destruct RD as [[_ X]|[_ X]]; clear - X; qlra.
    + apply Nat.eqb_neq in K0. destruct (padded_bounds mag k 1%Qc 0%Qc) as [B1 B2]; auto; try lia.
      { rewrite NM, Nat.eqb_refl by auto. auto. }
      { intro X. discriminate X. }
      { intros t x NE X. pose proof (nth_error_lt _ _ _ _ X) as Lt. rewrite LM in Lt. rewrite NM in X by auto. apply Nat.eqb_neq in NE. rewrite NE in X.
        injection X as <-. split; apply Qcle_refl. }
      set (p := padded_mean mag 100 k) in *. clearbody p. assert (EP : p = Q2Qc (1 # 100)) by qlra. subst p.
      assert (EA : a = Q2Qc (1 # 100)). { destruct CA as [[-> _]|[_ X]]; auto. exfalso. unfold EPS in X. clear - X. qlra. }
      subst a. destruct RD as [[_ X]|[Y X]]; [clear - X; qlra|]. exfalso. clear - Y. qlra.
  - assert (Z : (s * a = a)%Qc). { destruct RD as [[X _]|[_ X]]; [exfalso; clear - X A0; qlra|]. clear - X. qlra. }
    assert (Z1 : ((s - 1) * a = 0)%Qc) by (clear - Z; qlra). apply Qcmult_integral in Z1. destruct Z1 as [Z1|Z1]; [clear - Z1; qlra|]. exfalso. clear - Z1 A0. qlra.
Qed.

(** A point that reaches the threshold is reported, or the quota is used up. *)
Lemma reaches_threshold : forall series th ratio nt lm rows m scores k s r,
  SR series th ratio nt lm = Ok (rows, m) ->
  sr_detect transform std series (sr_quota (length series) ratio) lm = Ok (scores, m) ->
  nth_error scores k = Some s -> (th <= s)%Qc -> nth_error rows k = Some r ->
  r_anomaly r = true \/ reported rows = sr_quota (length series) ratio /\ sr_quota (length series) ratio < length (filter (fun s => (th <=? s)%Qc) scores).
Proof.
  intros series th ratio nt lm rows m scores k s r H G Hs T Hr.
  destruct (C69_highest_scores_reported transform std trend_detection sort_desc HS _ _ _ _ _ _ _ _ H G) as (L & _ & _ & RP).
  destruct (sr_inv _ _ _ _ (fun l => proj1 (HS l)) _ _ _ _ _ _ _ H) as (sc & e & idx & t & ED & _ & _ & EF & EI).
  rewrite G in ED. injection ED as <-. set (q := sr_quota (length series) ratio) in *.
  set (cand := filter (fun p => (th <=? snd p)%Qc) (combine (range (length series)) scores)) in *.
  assert (LC : length cand = length (filter (fun s => (th <=? s)%Qc) scores)).
  { unfold cand. clear - L. revert L. generalize (length series) as n. unfold range. generalize 0 as j.
    induction scores as [|x u IH]; intros j [|n] HL; simpl in HL; try discriminate HL; auto.
    cbn [seq combine filter snd]. destruct (th <=? x)%Qc; cbn [length]; rewrite IH; auto; lia. }
  destruct (le_lt_dec (length cand) q) as [B|B].
  - left. apply result_frame_spec in EF. destruct EF as (_ & _ & R). destruct (R k r Hr) as (_ & _ & _ & _ & _ & _ & X & _). rewrite X.
    apply mem_nat_in. rewrite EI. rewrite firstn_all2 by (rewrite <- (Permutation_length (proj1 (HS cand))); auto).
    apply in_map_iff. exists (k, s). split; auto. apply (Permutation_in _ (proj1 (HS cand))). unfold cand. apply filter_In. cbn [snd]. rewrite Qcleb_le.
    split; auto. unfold range. apply cand_labels. exists k. split; auto. split; auto. rewrite <- L. apply (nth_error_lt _ _ _ _ Hs).
  - right. rewrite RP, <- LC. lia.
Qed.
Lemma row_score : forall series th ratio nt lm rows m scores k s r,
  SR series th ratio nt lm = Ok (rows, m) ->
  sr_detect transform std series (sr_quota (length series) ratio) lm = Ok (scores, m) ->
  nth_error scores k = Some s -> nth_error rows k = Some r -> r_score r = normalise_score s.
Proof.
  intros series th ratio nt lm rows m scores k s r H G Hs Hr.
  destruct (sr_inv _ _ _ _ (fun l => proj1 (HS l)) _ _ _ _ _ _ _ H) as (sc & e & idx & t & ED & _ & _ & EF & EI).
  rewrite G in ED. injection ED as <-. destruct (frame_columns _ _ _ _ _ _ EF) as (_ & SC & _ & _).
  apply (f_equal (fun l => nth_error l k)) in SC. rewrite !nth_error_map, Hr, Hs in SC. cbn in SC. congruence.
Qed.
Lemma row_value : forall series th ratio nt lm rows m k r,
  SR series th ratio nt lm = Ok (rows, m) -> nth_error rows k = Some r ->
  nth_error series k = Some (r_value r) /\ pre_consistent r.
Proof.
  intros series th ratio nt lm rows m k r H Hr.
  destruct (sr_inv _ _ _ _ (fun l => proj1 (HS l)) _ _ _ _ _ _ _ H) as (sc & e & idx & t & ED & _ & _ & EF & EI).
  apply result_frame_spec in EF. destruct EF as (_ & _ & R). destruct (R k r Hr) as (v & x & V & _ & -> & _ & _ & X). auto.
Qed.
Lemma rows_length : forall series th ratio nt lm rows m, SR series th ratio nt lm = Ok (rows, m) -> length rows = length series.
Proof.
  intros series th ratio nt lm rows m H.
  destruct (sr_inv _ _ _ _ (fun l => proj1 (HS l)) _ _ _ _ _ _ _ H) as (sc & e & idx & t & ED & _ & _ & EF & EI).
  apply result_frame_spec in EF. tauto.
Qed.
End SP.
