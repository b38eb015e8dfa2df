(** Properties C28-C30 and C83-C85: automatic period detection. *)
From Coq Require Import String List Arith ZArith QArith Qcanon Lia Bool Sorted Qround.
From Verif Require Import Base Num FillUp_model FillUp_spec FillUp_proofs6 FillUp_props Kernel_model Kernel_props
  Helpers_model Detect_model Period_model Period_spec Period_proofs Period_proofs2
  Period_proofs3 Period_proofs4 Period_proofs5 Period_proofs6.
Import ListNotations.
Open Scope nat_scope.

(** * Libraries for the examples *)
(** The standard deviation to 8 digits, rounded up. *)
Definition std8 (l : list Qc) : Qc :=
  (qz (Z.sqrt (Qfloor (this (variance l * qz 10000000000000000))) + 1) / qz 100000000)%Qc.
(** The mean as trend. *)
Definition flat_trend (kind : string) (l : list Qc) : res (list Qc) := Ok (repeat (qmean l) (length l)).
(** Uncentred autocorrelation with a zero-width confidence band, NaN at lag 2. *)
Definition acf0 (l : list Qc) (n : nat) : res (list (option Qc) * list (option Qc)) :=
  let m := qmean l in
  let a := map (fun k => if (k =? 2)%nat then None else
                 Some (qsum (zip_with (fun x y => (x - m) * (y - m)) l (skipn k l)) /
                       qsum (map (fun x => (x - m) * (x - m)) l)))%Qc (seq 0 (S n)) in
  Ok (a, a).
Definition peaks0 (data : list Qc) (thresh : Qc) : option (list peak) :=
  Some [(5, 1%Qc, 4, length data / 4)].

Lemma std8_fair : fair_std std8.
Proof.
  intros l NE. pose proof (qvar_nonneg l NE) as V. rewrite qvar_variance in V. unfold std8.
  set (v := variance l) in *. set (w := (v * qz 10000000000000000)%Qc).
  set (z := Qfloor (this w)).
  set (K := qz 100000000). assert (KP : (0 < K)%Qc) by reflexivity.
  assert (KK : (K * K = qz 10000000000000000)%Qc) by (unfold K; rewrite <- qz_mul; reflexivity).
  assert (W0 : (0 <= w)%Qc).
  { unfold w. rewrite <- KK. assert (0 <= K * K)%Qc by qnra. qnra. }
  assert (Z0 : (0 <= z)%Z).
  { unfold z. change 0%Z with (Qfloor (this 0%Qc)). apply Qfloor_resp_le. exact W0. }
  pose proof (Z.sqrt_spec z Z0) as S1. cbv zeta in S1. pose proof (Z.sqrt_nonneg z) as S2.
  set (r := (Z.sqrt z + 1)%Z). assert (R0 : (0 <= r)%Z) by (unfold r; lia).
  assert (R2 : (z + 1 <= r * r)%Z) by (unfold r; rewrite <- !Z.add_1_r in S1; clear - S1; nia).
  assert (WZ : (w < qz (z + 1))%Qc).
  { unfold Qclt. rewrite this_qz. apply Qlt_floor. }
  assert (RQ : (w <= qz r * qz r)%Qc).
  { pose proof (proj1 (qz_le _ _) R2) as Q. rewrite qz_mul in Q. qlra. }
  assert (R0Q : (0 <= qz r)%Qc) by (pose proof (proj1 (qz_le _ _) R0) as Q; rewrite qz_0 in Q; auto).
  set (s := (qz r / K)%Qc). assert (SK : (s * K = qz r)%Qc).
  { unfold s. field. intro X. rewrite X in KP. discriminate KP. }
  assert (S0 : (0 <= s)%Qc) by (apply Qcdiv_nonneg; auto).
  split; auto. unfold w in RQ. rewrite <- KK, <- SK in RQ. clearbody s K v. clear - RQ S0 KP.
  assert (KKP : (0 < K * K)%Qc) by qnra.
  assert (VS : (v <= s * s)%Qc).
  { destruct (Qclt_le_dec' (s * s) v) as [C|C]; auto. exfalso. assert (0 < (v - s * s) * (K * K))%Qc by qnra. qnra. }
  assert (0 <= s * s)%Qc by qnra. qnra.
Qed.
Lemma flat_trend_answers : forall B kind, trend_answers B flat_trend kind.
Proof. intros B kind l _ _. eexists. split; [reflexivity|]. apply repeat_length. Qed.
Lemma acf0_answers : acf_answers acf0.
Proof. intros l n. do 2 eexists. split; [reflexivity|]. rewrite map_length, seq_length. auto. Qed.
Lemma peaks0_fit : peaks_fit 4 peaks0.
Proof.
  intros data th ps p x lo hi E I. unfold peaks0 in E.
  assert (PS : ps = [(5, 1%Qc, 4, length data / 4)]) by congruence. subst ps. destruct I as [I|[]].
  assert (A : lo = 4) by congruence. assert (B : hi = length data / 4) by congruence. rewrite A, B.
  split; auto. pose proof (Nat.div_mod (length data) 4 ltac:(lia)). lia.
Qed.

Definition fills_gaps (m : fill_mode) : bool := match m with FMNo | FMZero => false | _ => true end.

Section Oracles.
Variable std : list Qc -> Qc.
Variable r32 : Qc -> Qc.
Variable rnd : nat -> nat -> nat -> nat.
Variable acf : list Qc -> nat -> res (list (option Qc) * list (option Qc)).
Variable peaks : list Qc -> Qc -> option (list peak).
Variable fit_trend : string -> list Qc -> res (list Qc).
Notation period_detection := (period_detection std r32 rnd acf peaks fit_trend).
Notation detected_period := (detected_period std r32 rnd acf peaks fit_trend).

(** C28. A detected period fits more than twice into the series, whatever the
    libraries return. *)
Theorem C28_fits_twice : forall series trend thresh min_ev correlogram g interval skip p src,
  period_detection series trend thresh min_ev correlogram g interval skip = Ok (p, src) ->
  p = 0 \/ 2 * p < length series.
Proof.
  intros series tt th mv cg g i skip p src E. destruct (Nat.eq_dec p 0) as [Z|N]; [left; auto|right].
  apply (detection_fits _ _ _ _ _ _ _ _ _ _ _ _ _ _ _ _ E N).
Qed.

(** C28. It is at least 4: with the correlogram always, with the periodogram
    when the library's peaks start at 4. *)
Theorem C28_at_least_four : forall series trend thresh min_ev correlogram g interval skip p src,
  correlogram = true \/ peaks_fit 4 peaks ->
  period_detection series trend thresh min_ev correlogram g interval skip = Ok (p, src) ->
  p = 0 \/ 4 <= p.
Proof.
  intros series tt th mv cg g i skip p src H E. destruct (Nat.eq_dec p 0) as [Z|N]; [left; auto|right].
  apply (proj2 (detection_fits _ _ _ _ _ _ _ _ _ _ _ _ _ _ _ _ E N) 4); auto.
  destruct H as [H|H]; [left; auto|right; auto].
Qed.

(** C28. The period found on the filled series: the series that is then
    analysed with it has more than two periods of points, for every fill mode. *)
Theorem C28_detection_series_long_enough : forall spline ix vs f mode fixed g interval skip p filled,
  make_fup (Some ix) vs default_maxlen = Ok f ->
  (mode = FMAuto -> forall q v, given ix vs q v -> spline (f_indices f) (f_values f) q = v) ->
  period_detection_with_filled_values spline (detected_period g interval skip) f mode fixed = Ok p -> 1 < p ->
  fill_up_on_demand spline f mode fixed (Some (Z.of_nat p)) = Ok filled ->
  2 * p < length (match filled with Some (full, _) => full | None => map Some (f_values f) end).
Proof.
  intros spline ix vs f mode fixed g interval skip p filled HF HS HP H1 HFill.
  assert (DP : forall l, detected_period g interval skip l = Ok p -> 2 * p < length l).
  { intros l. unfold Period_model.detected_period, default_detection. destruct (all_some l) as [s|] eqn:EA; [|discriminate].
    destruct (period_detection s _ _ _ _ g interval skip) as [[q src]|] eqn:ED; [|discriminate]. rewrite bind_ok. cbn [fst].
    intros X. inversion X; subst q. replace (length l) with (length s).
    - destruct (C28_fits_twice _ _ _ _ _ _ _ _ _ _ ED); lia.
    - clear - EA. revert s EA. induction l as [|[v|] t IH]; intros s E; cbn [all_some] in E; [inversion E; auto| |discriminate].
      destruct (all_some t) as [r|]; [|discriminate]. inversion E; subst s. cbn [length]. f_equal. apply IH; auto. }
  unfold period_detection_with_filled_values in HP.
  destruct (f_need f) eqn:HN.
  - assert (IX : ix <> []). { intro X. subst ix. cbn in HF. inversion HF; subst f. discriminate HN. }
    assert (ML : (Z.of_nat (f_all f) <= default_maxlen)%Z).
    { destruct (C01_counts ix vs default_maxlen f IX HF) as (_ & _ & Q). apply Q; auto. }
    assert (LEN : forall m fx per full tags,
       (m = FMAuto -> mode = FMAuto) ->
       fill_up_on_demand spline f m fx per = Ok (Some (full, tags)) -> length full = f_all f).
    { intros m fx per full tags MA E. destruct m; cbn [fill_up_on_demand] in E; try discriminate E.
      all: refine (proj1 (C02_fill_keeps_submitted_values spline ix vs default_maxlen f _ _ _ full tags HF ML _ _ E));
           [reflexivity|]; intros [X|X]; try discriminate X; apply HS; apply MA; reflexivity. }
    assert (NN : fills_gaps mode = true -> filled <> None).
    { intros FG X. subst filled. destruct mode; try discriminate FG.
      - destruct (C03_previous_is_last_observation spline ix vs default_maxlen f FMPrevious fixed (Some (Z.of_nat p)) HF HN
          (or_introl eq_refl)) as (q & E & _). congruence.
      - destruct (C03_previous_is_last_observation spline ix vs default_maxlen f FMUseLast fixed (Some (Z.of_nat p)) HF HN
          (or_intror eq_refl)) as (q & E & _). congruence.
      - destruct (C38_fixed_fill_is_constant spline ix vs default_maxlen f fixed (Some (Z.of_nat p)) HF HN) as (q & E & _).
        congruence.
      - destruct (C04_linear_interpolates spline ix vs default_maxlen f fixed (Some (Z.of_nat p)) HF HN) as (q & E & _).
        congruence.
      - change (fill_up_on_demand spline f FMAuto None (Some (Z.of_nat p)) = Ok None) in HFill.
        destruct (le_lt_dec (length ix) 3) as [L3|L3].
        + rewrite (C06_auto_fallback_refuted spline ix vs f _ HF HN L3) in HFill by lia. discriminate.
        + destruct (C05_auto_complete_and_bounded spline ix vs f (Some (Z.of_nat p)) HF HN) as (q & E & _); try lia; auto.
          congruence. }
    set (m' := match mode with FMAuto => FMPrevious | m => m end) in HP.
    destruct (fill_up_on_demand spline f m' fixed None) as [r|] eqn:E1; [|discriminate]. rewrite !bind_ok in HP.
    destruct (fills_gaps mode) eqn:FG.
    + destruct filled as [[full tags]|]; [|exfalso; apply NN; auto].
      rewrite (LEN mode fixed _ full tags (fun X => X) HFill).
      destruct r as [[full' tags']|].
      * cbn [option_map fst] in HP. apply DP in HP.
        rewrite (LEN m' fixed None full' tags') in HP; auto. unfold m'. destruct mode; auto; discriminate.
      * cbn [option_map] in HP. apply DP in HP. rewrite map_length in HP.
        assert (LE : length (f_values f) <= f_all f).
        { destruct (C01_counts ix vs default_maxlen f IX HF) as (_ & Q1 & Q2). destruct (proj1 Q2 HN) as [Q3 _].
          destruct (accepted_facts _ _ _ _ HF HN) as (W & EI & EV & _ & HL & _). rewrite EV, map_length in HL. lia. }
        lia.
    + assert (X : mode = FMNo \/ mode = FMZero) by (destruct mode; auto; discriminate FG).
      assert (r = None) by (destruct X; subst mode; cbn [m' fill_up_on_demand] in E1; congruence). subst r.
      assert (filled = None) by (destruct X; subst mode; cbn [fill_up_on_demand] in HFill; congruence). subst filled.
      cbn [option_map] in HP. apply DP in HP. exact HP.
  - rewrite bind_ok in HP. apply DP in HP.
    assert (X : filled = None).
    { destruct mode; cbn [fill_up_on_demand] in HFill; unfold fill_up in HFill; rewrite ?HN in HFill; cbn [negb] in HFill; congruence. }
    subst filled. exact HP.
Qed.

(** C29. Period detection answers every series of 12 or more points, at every
    granularity but microseconds (a series whose values are all the same is not
    brought to [0, 1], so the trend must be found for values of its size). *)
Theorem C29_answers : forall B series trend thresh min_ev correlogram g interval skip,
  fair_std std -> acf_answers acf ->
  (forall kind, trend = Some kind -> trend_answers B fit_trend kind) ->
  correlogram = true \/ peaks_fit 2 peaks ->
  12 <= length series -> (1 <= B)%Qc -> varied series \/ sized B series -> g <> Microsecond \/ skip = true ->
  exists p src, period_detection series trend thresh min_ev correlogram g interval skip = Ok (p, src).
Proof.
  intros B series tt th mv cg g i skip FS AC TA PK L B1 HB HG.
  destruct (detection_total std r32 rnd acf peaks fit_trend FS cg tt AC B B1) with (series := series) (th := th) (mv := mv) (g := g) (i := i) (skip := skip)
    as [H|(A & A2 & _)]; auto.
  - destruct tt as [k|]; auto.
  - destruct HG; congruence.
Qed.

(** C29. For microseconds the only failure is the KeyError, for a series of
    more than 2000 points with confirmed period 1000. *)
Theorem C29_microsecond_characterised : forall B series trend thresh min_ev correlogram interval,
  fair_std std -> acf_answers acf ->
  (forall kind, trend = Some kind -> trend_answers B fit_trend kind) ->
  correlogram = true \/ peaks_fit 2 peaks ->
  12 <= length series -> (1 <= B)%Qc -> varied series \/ sized B series ->
  (exists p src, period_detection series trend thresh min_ev correlogram Microsecond interval false = Ok (p, src) /\ src = 1) \/
  (period_detection series trend thresh min_ev correlogram Microsecond interval false = Err KeyErr /\
   is_valid_period std r32 rnd series (Z.to_nat 1000) = Ok true /\ (2000 < Z.of_nat (length series))%Z).
Proof.
  intros B series tt th mv cg i FS AC TA PK L B1 HB.
  destruct (detection_total std r32 rnd acf peaks fit_trend FS cg tt AC B B1) with (series := series) (th := th) (mv := mv) (g := Microsecond) (i := i) (skip := false)
    as [(p & src & H)|(_ & _ & A & A2 & C)]; auto.
  - destruct tt as [k|]; auto.
  - left. exists p, src. split; auto. unfold Period_model.period_detection in H. cbn [negb] in H.
    unfold verify_period in H. cbn [guess_period length Nat.eqb] in H.
    destruct (verify_loop std r32 rnd series [1000%Z]) as [[v|]|] eqn:EV; [|rewrite bind_ok in H|discriminate].
    + rewrite bind_ok in H. cbn [standard_period] in H. discriminate.
    + rewrite bind_ok in H. destruct (spectrum_detect std acf peaks fit_trend series tt th mv cg); [|discriminate].
      rewrite bind_ok in H. inversion H; auto.
Qed.

(** C29, violated: microsecond data that repeats every 1000 points. *)
Theorem C29_microsecond_refuted : forall series trend thresh min_ev correlogram interval,
  fair_std std -> two_values series -> no_spikes series -> repeats series (Z.to_nat 1000) ->
  (2000 < Z.of_nat (length series) <= 10000000)%Z ->
  period_detection series trend thresh min_ev correlogram Microsecond interval false = Err KeyErr.
Proof.
  intros series tt th mv cg i FS V NS RP [L1 L2]. unfold Period_model.period_detection. cbn [negb].
  unfold verify_period. cbn [guess_period length Nat.eqb].
  rewrite (repeats_loop_head std FS r32 rnd series V NS L2 1000%Z []) by (auto; lia). reflexivity.
Qed.

(** C30. The correlogram search terminates for every autocorrelation (NaN
    included); its answer is a list of distinct lags between 4 and the longest
    lag, all clear peaks, in search order; any lag left out is a number that
    does not exceed some lag that is not a clear peak. *)
Theorem C30_correlogram_search : forall data a c,
  let longest := Nat.min (length data / 3) (2880 * 2) in
  acf data longest = Ok (a, c) -> length a = S longest -> length c = S longest -> 3 <= length data ->
  exists ps, correlogram_detector acf data = Ok ps /\ NoDup ps /\ StronglySorted (searched_before a) ps /\
    (forall p, In p ps -> 4 < p < longest /\
       exists x u, nth_error a p = Some x /\ nth_error c p = Some u /\ clear_peak (Q2Qc (1 # 10)) x u) /\
    (forall p, 4 < p < longest -> ~ In p ps -> exists q x y u,
       nth_error a p = Some (Some x) /\ nth_error a q = Some (Some y) /\ nth_error c q = Some u /\ (x <= y)%Qc /\
       ~ clear_peak (Q2Qc (1 # 10)) (Some y) u).
Proof.
  intros data a c mp E LA LC L.
  assert (MP : 0 < mp). { unfold mp. pose proof (Nat.div_mod (length data) 3 ltac:(lia)). pose proof (Nat.mod_upper_bound (length data) 3 ltac:(lia)). lia. }
  destruct (correlogram_ok acf data a c E LA LC MP) as (V & EV & IV & NV). fold mp in EV, NV. clearbody mp.
  assert (SK : forall (l : list (option Qc)) i, nth_error (skipn 1 l) i = nth_error l (i + 1)).
  { intros l i. rewrite Nat.add_1_r. destruct l; [destruct i; reflexivity|reflexivity]. }
  exists (lags MIN_PERIOD mp V). split; auto.
  split; [|split; [|split]].
  - unfold lags. apply FinFun.Injective_map_NoDup; [intros x y; lia|]. apply NoDup_filter. apply IV.
  - unfold lags. pose proof (inv_sorted _ _ _ _ IV) as S. clear - S SK.
    induction S as [|i V S IH F]; [constructor|]. cbn [filter].
    destruct (in_range MIN_PERIOD mp i); auto. cbn [map]. constructor; auto.
    apply Forall_forall. intros q I. apply in_map_iff in I. destruct I as (j & <- & I). apply filter_In in I.
    rewrite Forall_forall in F. specialize (F j (proj1 I)). unfold searched_before in *. rewrite !SK in F.
    destruct (nth_error a (i + 1)) as [[x|]|]; destruct (nth_error a (j + 1)) as [[y|]|]; auto; lia || (destruct F as [F|[F1 F2]]; [auto|right; split; auto; lia]).
  - intros p I. pose proof (lags_range _ _ _ _ I) as R. change MIN_PERIOD with 4 in R. split; auto.
    unfold lags in I. apply in_map_iff in I. destruct I as (i & <- & I). apply filter_In in I.
    destruct (inv_clear _ _ _ _ IV i (proj1 I)) as (x & u & A & B & C). rewrite SK in A, B. eauto.
  - intros p R N. destruct (NV (p - 1)) as (j & x & y & A & B & LE & NC); [lia| |].
    + intro I. apply N. unfold lags. apply in_map_iff. exists (p - 1). split; [lia|]. apply filter_In. split; auto.
      unfold in_range. change MIN_PERIOD with 4. apply andb_true_intro. split; apply Nat.ltb_lt; lia.
    + rewrite SK in A, B. replace (p - 1 + 1) with p in A by lia.
      destruct (nth_error_ex _ c (j + 1)) as (u & U). { rewrite LC, <- LA. apply nth_error_lt in B. auto. }
      exists (j + 1), x, y, u. split; auto. split; auto. split; auto. split; auto.
      intro C. apply NC. exists (Some y), u. rewrite !SK. auto.
Qed.

(** C83. The detected period does not depend on the unit: scaling by a
    positive factor and shifting changes nothing, whatever the libraries
    return, for a series with two different values. *)
Theorem C83_unit_independent : forall k b series trend thresh min_ev correlogram g interval skip,
  (0 < k)%Qc -> two_values series ->
  period_detection (map (fun x => k * x + b)%Qc series) trend thresh min_ev correlogram g interval skip =
  period_detection series trend thresh min_ev correlogram g interval skip.
Proof. intros. apply affine_detection; auto. Qed.

(** C84. A series that repeats exactly every week (three months for weekly,
    a year for monthly data) is given exactly that period by the first stage. *)
Theorem C84_natural_cycle_found : forall series g interval trend thresh min_ev correlogram s,
  fair_std std -> two_values series -> no_spikes series -> (Z.of_nat (length series) <= 10000000)%Z ->
  (match interval with Some i => 0 < i | None => True end)%Z ->
  natural_cycle g (match interval with Some i => i | None => 1%Z end) = Some s ->
  (4 <= s)%Z -> (2 * s < Z.of_nat (length series))%Z -> repeats series (Z.to_nat s) ->
  period_detection series trend thresh min_ev correlogram g interval false = Ok (Z.to_nat s, 0).
Proof.
  intros series g interval tt th mv cg s FS V NS B HI HC S4 SL RP.
  assert (EI : interval_of interval = match interval with Some i => i | None => 1%Z end).
  { destruct interval as [i|]; auto. cbn. destruct (i =? 0)%Z eqn:E; auto. apply Z.eqb_eq in E. lia. }
  apply detection_simple; [|lia]. apply repeats_standard; auto.
  unfold standard_period. rewrite EI. destruct g; cbn in HC; inversion HC; reflexivity.
Qed.

(** C84. A series that repeats exactly every day gets the day as its period
    when it is no longer than two weeks. *)
Theorem C84_day_cycle_found : forall series g interval trend thresh min_ev correlogram d w,
  fair_std std -> two_values series -> no_spikes series -> (Z.of_nat (length series) <= 10000000)%Z ->
  (match interval with Some i => 0 < i | None => True end)%Z ->
  day_cycle g (match interval with Some i => i | None => 1%Z end) = Some d ->
  natural_cycle g (match interval with Some i => i | None => 1%Z end) = Some w ->
  (4 <= d)%Z -> (2 * d < Z.of_nat (length series) <= 2 * w)%Z -> repeats series (Z.to_nat d) ->
  period_detection series trend thresh min_ev correlogram g interval false = Ok (Z.to_nat d, 0).
Proof.
  intros series g interval tt th mv cg d w FS V NS B HI HD HW D4 [DL WL] RP.
  assert (EI : interval_of interval = match interval with Some i => i | None => 1%Z end).
  { destruct interval as [i|]; auto. cbn. destruct (i =? 0)%Z eqn:E; auto. apply Z.eqb_eq in E. lia. }
  set (st := match interval with Some i => i | None => 1%Z end) in *. clearbody st.
  apply detection_simple; [|lia].
  assert (EG : exists t, guess_period g interval = w :: d :: t /\ standard_period g interval = Ok w).
  { unfold guess_period, standard_period. rewrite EI. destruct g; cbn in HD, HW; try discriminate; inversion HD; inversion HW; eauto. }
  destruct EG as (t & EG & ES). unfold verify_period. rewrite EG. cbn [length Nat.eqb].
  rewrite loop_skip by lia. rewrite (repeats_loop_head std FS r32 rnd series V NS B) by (auto; lia).
  rewrite bind_ok, ES, bind_ok.
  replace (Z.of_nat (length series) <=? w * 2)%Z with true by (symmetry; apply Z.leb_le; lia). reflexivity.
Qed.

(** C85. A constant series of 12 or more points has no period. *)
Theorem C85_constant_has_no_period : forall c n trend thresh min_ev correlogram g interval skip,
  (forall l, 0 <= std l)%Qc -> 12 <= n ->
  (forall kind, trend = Some kind -> exists d, fit_trend kind (repeat c n) = Ok (repeat d n)) ->
  period_detection (repeat c n) trend thresh min_ev correlogram g interval skip = Ok (0, 1).
Proof.
  intros c n tt th mv cg g i skip SP L HT. apply (detection_same std r32 rnd acf peaks fit_trend SP c).
  - rewrite repeat_length. auto.
  - intros x I. apply repeat_spec in I. auto.
  - intros kind E. destruct (HT kind E) as (d & ED). exists (repeat d n), d. split; auto.
    split; [rewrite !repeat_length; auto|]. intros x I. apply repeat_spec in I. auto.
Qed.
End Oracles.
Print Assumptions C28_fits_twice.
Print Assumptions C28_at_least_four.
Print Assumptions C28_detection_series_long_enough.
Print Assumptions C29_answers.
Print Assumptions C29_microsecond_characterised.
Print Assumptions C29_microsecond_refuted.
Print Assumptions C30_correlogram_search.
Print Assumptions C83_unit_independent.
Print Assumptions C84_natural_cycle_found.
Print Assumptions C84_day_cycle_found.
Print Assumptions C85_constant_has_no_period.

(** Seven repetitions of a cycle of 6. *)
Definition wave : list Qc := map qz (concat (repeat [0; 1; 4; 9; 4; 2]%Z 7)).
Definition rnd0 : nat -> nat -> nat -> nat := fun _ _ _ => 0.
Definition detect := period_detection std8 (fun x => x) rnd0 acf0 peaks0 flat_trend.
Definition spline_trend : option string := Some "spline"%string.

Lemma wave_two : two_values wave.
Proof. exists (qz 0), (qz 1). cbn. split; auto. split; auto. discriminate. Qed.
Lemma wave_repeats : repeats wave 6.
Proof.
  intros i x y Hx Hy. assert (L : i < 36) by (apply nth_error_lt in Hy; cbn in Hy; lia).
  assert (C : forallb (fun i => match nth_error wave i, nth_error wave (i + 6) with
                                | Some x, Some y => (x =? y)%Qc | _, _ => true end) (seq 0 36) = true)
    by (vm_compute; reflexivity).
  rewrite forallb_forall in C. specialize (C i). rewrite Hx, Hy in C. apply Qceqb_eq. apply C. apply in_seq. lia.
Qed.
Lemma wave_no_spikes : no_spikes wave.
Proof.
  intros x I. assert (C : forallb (fun x => (let d := (x - qsum wave / qn (length wave)) in d * d) <=? Q2Qc (89 # 10) * variance wave)%Qc wave = true)
    by (vm_compute; reflexivity).
  rewrite forallb_forall in C. specialize (C x I). apply Qcleb_le in C. exact C.
Qed.

(** Both stages: without granularity the spectrum stage (correlogram or
    periodogram), for four-hourly data the calendar stage. *)
Example C28_example :
  detect wave spline_trend (Q2Qc (9 # 10)) (Q2Qc (20 # 100)) true GNone None false = Ok (6, 1) /\
  detect wave spline_trend (Q2Qc (9 # 10)) (Q2Qc (20 # 100)) false GNone None false = Ok (6, 1) /\
  detect wave spline_trend (Q2Qc (9 # 10)) (Q2Qc (20 # 100)) true Hourly (Some 4%Z) false = Ok (6, 0).
Proof. split; [|split]; vm_compute; reflexivity. Qed.

(** The wave with points 3, 8, 9 and 20 missing. *)
Definition holes : list Z := filter (fun z => negb (existsb (Z.eqb z) [3; 8; 9; 20]%Z)) (map Z.of_nat (seq 0 42)).
Definition hole_values : list (option Qc) := map (fun z => nth_error wave (Z.to_nat z)) holes.
Example C28_detection_series_example :
  match make_fup (Some holes) hole_values default_maxlen with
  | Ok f => f_need f = true /\
      period_detection_with_filled_values ex_sp (detected_period std8 (fun x => x) rnd0 acf0 peaks0 flat_trend Hourly (Some 4%Z) false)
        f FMLinear None = Ok 6 /\
      match fill_up_on_demand ex_sp f FMLinear None (Some 6%Z) with Ok (Some (full, _)) => length full = 42 | _ => False end
  | _ => False end.
Proof. vm_compute. auto. Qed.

Example C29_answers_example :
  fair_std std8 /\ acf_answers acf0 /\ (forall B, trend_answers B flat_trend "spline") /\ peaks_fit 2 peaks0 /\ 12 <= length wave.
Proof.
  split; [exact std8_fair|]. split; [exact acf0_answers|]. split; [intros; apply flat_trend_answers|]. split; [|cbn; lia].
  intros data th ps p x lo hi E I. destruct (peaks0_fit data th ps p x lo hi E I). lia.
Qed.

(** 2001 points alternating between 0 and 1. *)
Definition flip : list Qc := map (fun k => if Nat.even k then 0%Qc else 1%Qc) (seq 0 (Z.to_nat 2001)).
Lemma flip_no_spikes : no_spikes flip.
Proof.
  assert (M : (qsum flip / qn (length flip) = Q2Qc (1000 # 2001))%Qc) by (apply Qc_is_canon; vm_compute; reflexivity).
  assert (V : variance flip = Q2Qc (1001000 # 4004001)).
  { unfold variance. rewrite M. apply Qc_is_canon. vm_compute. reflexivity. }
  intros x I. rewrite M, V. unfold flip in I. apply in_map_iff in I. destruct I as (k & <- & _).
  destruct (Nat.even k); apply Qcleb_le; vm_compute; reflexivity.
Qed.
Lemma flip_repeats : repeats flip (Z.to_nat 1000).
Proof.
  intros i x y Hx Hy. unfold flip in *. rewrite nth_error_map in Hx, Hy.
  destruct (nth_error (seq 0 (Z.to_nat 2001)) i) as [a|] eqn:A; [|discriminate].
  destruct (nth_error (seq 0 (Z.to_nat 2001)) (i + Z.to_nat 1000)) as [b|] eqn:B; [|discriminate].
  assert (LA : i < Z.to_nat 2001) by (apply nth_error_lt in A; rewrite seq_length in A; auto).
  assert (LB : i + Z.to_nat 1000 < Z.to_nat 2001) by (apply nth_error_lt in B; rewrite seq_length in B; auto).
  rewrite (nth_error_nth' _ 0), seq_nth in A by (rewrite ?seq_length; auto).
  rewrite (nth_error_nth' _ 0), seq_nth in B by (rewrite ?seq_length; auto).
  rewrite Nat.add_0_l in A, B.
  assert (EA : a = i) by congruence. assert (EB : b = i + Z.to_nat 1000) by congruence. rewrite EA in Hx. rewrite EB in Hy.
  cbn [option_map] in Hx, Hy.
  rewrite Nat.even_add in Hy. replace (Nat.even (Z.to_nat 1000)) with true in Hy by (vm_compute; reflexivity).
  destruct (Nat.even i); cbn [eqb] in Hy; congruence.
Qed.
Example C29_microsecond_refuted_example : forall r32 rnd acf peaks fit_trend,
  period_detection std8 r32 rnd acf peaks fit_trend flip spline_trend (Q2Qc (9 # 10)) (Q2Qc (20 # 100)) true Microsecond None false
  = Err KeyErr.
Proof.
  intros. apply C29_microsecond_refuted; [exact std8_fair| |exact flip_no_spikes|exact flip_repeats|].
  - exists 0%Qc, 1%Qc. split; [|split].
    + unfold flip. apply in_map_iff. exists 0. split; auto. apply in_seq. lia.
    + unfold flip. apply in_map_iff. exists 1. split; auto. apply in_seq. lia.
    + discriminate.
  - unfold flip. rewrite map_length, seq_length. lia.
Qed.

(** Lags 6, 12, 5, ... of the wave; lag 2 is NaN and out of range. *)
Example C30_example :
  correlogram_detector acf0 wave = Ok [6; 12; 5; 7; 11; 13] /\
  exists a, acf0 wave 14 = Ok (a, a) /\ length a = 15 /\ nth_error a 2 = Some None.
Proof. split; [vm_compute; reflexivity|]. eexists. split; [reflexivity|]. split; vm_compute; reflexivity. Qed.

Example C83_example : two_values wave /\
  detect (map (fun x => Q2Qc (9 # 5) * x + Q2Qc 32)%Qc wave) spline_trend (Q2Qc (9 # 10)) (Q2Qc (20 # 100)) true GNone None false = Ok (6, 1).
Proof. split; [exact wave_two|vm_compute; reflexivity]. Qed.

(** Four-hourly data with a day of 6 points; 42 points are no more than two
    weeks. Every 28 hours a week has 6 points. *)
Example C84_example :
  detect wave spline_trend (Q2Qc (9 # 10)) (Q2Qc (20 # 100)) true Hourly (Some 4%Z) false = Ok (6, 0) /\
  detect wave spline_trend (Q2Qc (9 # 10)) (Q2Qc (20 # 100)) true Hourly (Some 28%Z) false = Ok (6, 0).
Proof.
  split.
  - apply (C84_day_cycle_found std8 (fun x => x) rnd0 acf0 peaks0 flat_trend wave Hourly (Some 4%Z) _ _ _ _ 6 42);
      [exact std8_fair|exact wave_two|exact wave_no_spikes|cbn; lia|lia|reflexivity|reflexivity|lia|cbn; lia|exact wave_repeats].
  - apply (C84_natural_cycle_found std8 (fun x => x) rnd0 acf0 peaks0 flat_trend wave Hourly (Some 28%Z) _ _ _ _ 6);
      [exact std8_fair|exact wave_two|exact wave_no_spikes|cbn; lia|lia|reflexivity|lia|cbn; lia|exact wave_repeats].
Qed.

Example C85_example :
  detect (repeat (qz 5) 14) spline_trend (Q2Qc (9 # 10)) (Q2Qc (20 # 100)) true Daily None false = Ok (0, 1).
Proof. vm_compute. reflexivity. Qed.
