(** C90: trend extraction. *)
From Coq Require Import List Arith ZArith QArith Qcanon Qround Lia Bool.
From Verif Require Import Base Num Sorting Helpers_model Helpers_proofs Kernel_model Kernel_proofs Kernel_spec Kernel_props Period_spec Period_proofs2 Trend_model Trend_spec.
Import ListNotations.
Open Scope nat_scope.

Lemma py_round_near : forall x, (qz (py_round x) - Q2Qc (1 # 2) <= x /\ x <= qz (py_round x) + Q2Qc (1 # 2))%Qc.
Proof.
  intros x. unfold py_round. cbv zeta. set (f := Qfloor (this x)).
  assert (A : (qz f <= x)%Qc). { unfold Qcle. pose proof (Qfloor_le (this x)) as H. rewrite this_qz. exact H. }
  assert (B : (x < qz f + 1)%Qc).
  { unfold Qclt. pose proof (Qlt_floor (this x)) as H. rewrite this_add, this_qz. fold f in H. rewrite inject_Z_plus in H. exact H. }
  assert (E1 : (qz (f + 1) = qz f + 1)%Qc) by (rewrite qz_add; reflexivity).
  destruct (x - qz f <? Q2Qc (1 # 2))%Qc eqn:Q1; [apply Qcltb_lt in Q1; split; qlra|]. apply Qcltb_ge in Q1.
  destruct (Q2Qc (1 # 2) <? x - qz f)%Qc eqn:Q2; [apply Qcltb_lt in Q2; rewrite E1; split; qlra|]. apply Qcltb_ge in Q2.
  destruct (Z.even f); rewrite ?E1; split; qlra.
Qed.

Lemma window_for_fit : forall n p w, 0 < n -> window_for n p w -> fit_window n p = w.
Proof.
  intros n p w Hn H. unfold fit_window. destruct H as [(H1 & H2 & H3 & H4)|(H1 & H2)].
  - rewrite (proj2 (Nat.leb_le p 1)) by auto.
    assert (D := Nat.div_mod n 3 ltac:(lia)). pose proof (Nat.mod_upper_bound n 3 ltac:(lia)).
    destruct H4 as [->|H4]; [|assert (w = n / 3) by lia; subst; lia]. apply Nat.min_r. lia.
  - destruct (p <=? 1) eqn:E; [apply Nat.leb_le in E; lia|]. rewrite Nat.div_mul by lia. lia.
Qed.
Lemma fit_window_for : forall n p, window_for n p (fit_window n p).
Proof.
  intros n p. unfold fit_window, window_for. destruct (p <=? 1) eqn:E.
  - apply Nat.leb_le in E. left. assert (D := Nat.div_mod n 3 ltac:(lia)). pose proof (Nat.mod_upper_bound n 3 ltac:(lia)). lia.
  - apply Nat.leb_gt in E. right. rewrite Nat.div_mul by lia. lia.
Qed.
Lemma fit_window_dom : forall n p, 6 <= n -> (p <= 1 \/ 2 * p <= n) -> window_dom n (fit_window n p).
Proof.
  intros n p Hn Hp. unfold window_dom. pose proof (fit_window_for n p) as W. destruct W as [(H1 & H2 & H3 & H4)|(H1 & H2)]; lia.
Qed.
Lemma weighted_bounds : forall (ps : list (nat * Qc)) h, (forall p s, In (p, s) ps -> p <= h /\ (0 < s)%Qc) ->
  (0 <= qsum (map (fun p => qn (fst p) * snd p)%Qc ps))%Qc /\
  (qsum (map (fun p => qn (fst p) * snd p)%Qc ps) <= qn h * qsum (map snd ps))%Qc /\ (ps <> [] -> (0 < qsum (map snd ps))%Qc).
Proof.
  induction ps as [|[p s] t IH]; intros h H; cbn [map qsum].
  - split; [qlra|]. split; [replace (qn h * 0)%Qc with 0%Qc by ring; qlra|congruence].
  - destruct (IH h) as (A & B & C); [intros; apply H; right; auto|]. destruct (H p s) as [Hp Hs]; [left; auto|].
    cbn [fst snd] in *. set (W := qsum (map (fun q => qn (fst q) * snd q)%Qc t)) in *. set (T := qsum (map snd t)) in *.
    assert (P0 := qn_nonneg p). apply qn_le in Hp.
    assert (P1 : (0 <= qn p * s)%Qc) by qnra.
    assert (P2 : (qn p * s <= qn h * s)%Qc) by qnra.
    assert (T0 : (0 <= T)%Qc) by (destruct t; [unfold T; cbn; qlra|assert (0 < T)%Qc by (apply C; discriminate); qlra]).
    split; [qlra|]. split; [|intros _; qlra].
    replace (qn h * (s + T))%Qc with (qn h * s + qn h * T)%Qc by ring. qlra.
Qed.

Section Props.
Variable r32 : Qc -> Qc.
Variable top : option Qc.
Variable aglet mean_filter line_filter spline_filter : list Qc -> nat -> res (list Qc).
Variable peaks : list Qc -> res (option (list (nat * Qc))).
Hypothesis Ha : filter_on window_dom aglet.
Hypothesis Hm : filter_on window_dom mean_filter.
Hypothesis Hl : filter_on window_dom line_filter.
Hypothesis Hs : filter_on segment_dom spline_filter.
Hypothesis Hp : peaks_ok peaks.
Hypothesis Hr : no_blowup r32.
Hypothesis He : ends_bounded aglet.
Notation fitp := (fit_with_period r32 aglet mean_filter line_filter spline_filter).
Notation guess := (guess_trended_period r32 top aglet mean_filter line_filter spline_filter peaks).
Notation trend := (trend_detection r32 top aglet mean_filter line_filter spline_filter peaks).

Lemma fit_total : forall data k p, k <> KUnknown -> 6 <= length data -> (p <= 1 \/ 2 * p <= length data) ->
  exists t, fitp data k p = Ok t /\ length t = length data.
Proof.
  intros data k p Hk Hn Hpp. unfold fit_with_period. cbv zeta. pose proof (fit_window_dom _ _ Hn Hpp) as D.
  set (w := fit_window (length data) p) in *. destruct k; try congruence.
  - destruct (median_filter_total r32 data w false) as (m & E & L). rewrite E, bind_ok. rewrite <- L. apply Ha. rewrite L. auto.
  - destruct (Hm data w D) as (m & E & L). rewrite E, bind_ok. rewrite <- L. apply Ha. rewrite L. auto.
  - apply Hl. auto.
  - destruct D as [D1 D2]. destruct (w =? 0) eqn:E0; [apply Nat.eqb_eq in E0; lia|].
    destruct (Hs data (length data / (w * 2) + 1)) as (m & E & L).
    { unfold segment_dom. split; auto. split; [lia|]. rewrite Nat.add_sub.
      assert (4 * (length data / (w * 2)) <= w * 2 * (length data / (w * 2))) by (apply Nat.mul_le_mono_r; lia).
      pose proof (Nat.mul_div_le (length data) (w * 2) ltac:(lia)). lia. }
    rewrite E, bind_ok. rewrite <- L. apply Ha. rewrite L. split; auto.
Qed.

Lemma slice_in : forall (l : list Qc) a b x, In x (slice l a b) -> In x l.
Proof. intros l a b x I. unfold slice in I. rewrite <- (firstn_skipn a l). apply in_or_app. right. rewrite <- (firstn_skipn (b - a) (skipn a l)). apply in_or_app. left. auto. Qed.
Lemma qmedian_bounded : forall B l, l <> [] -> sized B l -> (Qcabs (qmedian l) <= B)%Qc.
Proof.
  intros B l NE H. destruct (median_in_range l (- B)%Qc B) as [A1 A2]; auto.
  - intros x I. apply H in I. revert I. unfold Qcabs. destruct (0 <=? x)%Qc eqn:E; intros I; [apply Qcleb_le in E|apply Qcleb_gt in E]; split; qlra.
  - unfold Qcabs. destruct (0 <=? qmedian l)%Qc; qlra.
Qed.
Lemma broad_bounded : forall B data w out, sized B data -> median_filter r32 data w false = Ok out -> sized (Q2Qc 4 * B)%Qc out.
Proof.
  intros B data w out HB E.
  assert (HR : sized (Q2Qc 2 * B)%Qc (map r32 data)).
  { intros x I. apply in_map_iff in I. destruct I as (y & <- & I). apply HB in I. pose proof (Hr y). qlra. }
  assert (B0 : forall x, In x data -> (0 <= B)%Qc) by (intros x I; pose proof (Qcabs_nonneg x); pose proof (HB x I); qlra).
  destruct (le_lt_dec (2 * (w / 2) + 1) (length data)) as [L|L].
  - destruct (C21_median_filter_interior r32 data w L) as (o & E2 & LO & HO). rewrite E in E2. inversion E2; subst o.
    intros x I. apply In_nth_error in I. destruct I as [p Hp']. pose proof (nth_error_lt _ _ _ _ Hp') as Lp. rewrite LO in Lp.
    destruct (nth_error_ex _ data p Lp) as [d0 D0]. apply nth_error_In, B0 in D0.
    rewrite HO in Hp' by auto. destruct (_ && _) eqn:EB.
    + assert (X : x = r32 (sliding_median (map r32 data) (w / 2) p)) by congruence. rewrite X. clear X Hp'. apply andb_true_iff in EB. destruct EB as [E3 E4]. apply Nat.leb_le in E3. apply Nat.ltb_lt in E4.
      assert (M : (Qcabs (sliding_median (map r32 data) (w / 2) p) <= Q2Qc 2 * B)%Qc).
      { unfold sliding_median. apply qmedian_bounded.
        - intros X. apply (f_equal (@length Qc)) in X. unfold slice in X. rewrite firstn_length, skipn_length, map_length in X. simpl in X. lia.
        - intros x1 I1. apply HR. eapply slice_in; eauto. }
      revert M. generalize (sliding_median (map r32 data) (w / 2) p). intros m M. pose proof (Hr m). qlra.
    + apply nth_error_In in Hp'. apply HR in Hp'. qlra.
  - rewrite C21_median_filter_short in E by auto. inversion E; subst out. intros x I. pose proof (HR x I). apply in_map_iff in I. destruct I as (y & _ & I). apply B0 in I. qlra.
Qed.
Lemma broad_finite : forall data broad, float_room top data -> fitp data KMedian (Nat.min (length data / 3) 512) = Ok broad ->
  finite32 top broad = true.
Proof.
  intros data broad HB E. unfold float_room, finite32 in *. destruct top as [t|]; auto. destruct HB as (B & HB & HT).
  unfold fit_with_period in E. cbv zeta in E.
  match type of E with bind ?x _ = _ => destruct x as [m|e] eqn:EM end; [|discriminate]. rewrite bind_ok in E.
  apply (broad_bounded B) in EM; auto. apply (He m) with (B := (Q2Qc 4 * B)%Qc) in E; auto.
  2:{ destruct (fit_window_for (length data) (Nat.min (length data / 3) 512)) as [(_ & A & _)|(_ & A)]; lia. }
  apply forallb_forall. intros x I. apply E in I. apply Qcltb_lt.
  assert (X : (qz 2048 * (Q2Qc 4 * B) = qz 8192 * B)%Qc).
  { replace (qz 8192) with (qz 2048 * Q2Qc 4)%Qc by (apply Qc_is_canon; reflexivity). ring. }
  rewrite X in I. qlra.
Qed.

(** The guessed period: a third of the points, at most 512, when the library
    finds no peak in what the median trend leaves, else the weighted mean of
    the peaks, rounded; in any case at most half of the points. *)
Theorem C90_guess : forall data, 6 <= length data -> float_room top data ->
  exists g broad rest, guess data = Ok g /\ 2 * g <= length data /\
    fitp data KMedian (Nat.min (length data / 3) 512) = Ok broad /\ length rest = length data /\
    (forall i a b, nth_error data i = Some a -> nth_error broad i = Some b -> nth_error rest i = Some (a - b)%Qc) /\
    (peaks rest = Ok None /\ g = Nat.min (length data / 3) 512 \/ exists ps, peaks rest = Ok (Some ps) /\ nearest_mean ps g).
Proof.
  intros data Hn HB. unfold guess_trended_period. cbv zeta.
  assert (D3 := Nat.div_mod (length data) 3 ltac:(lia)).
  destruct (fit_total data KMedian (Nat.min (length data / 3) 512)) as (br & E & L); [discriminate|auto|lia|].
  rewrite E, bind_ok, (broad_finite data br HB E), L, Nat.eqb_refl. cbn [negb]. set (rest := zip_with _ data br).
  assert (LR : length rest = length data) by (unfold rest; rewrite zip_with_length; lia).
  assert (HR : forall i a b, nth_error data i = Some a -> nth_error br i = Some b -> nth_error rest i = Some (a - b)%Qc).
  { intros i a b A B. unfold rest. apply (zip_with_nth _ _ _ (fun a b => (a - b)%Qc)); auto. }
  destruct (Hp rest ltac:(lia)) as [EP|(ps & NE & EP & HQ)]; rewrite EP, bind_ok.
  - exists (Nat.min (length data / 3) 512), br, rest. repeat split; auto. lia.
  - destruct ps as [|p0 pt]; [congruence|]. set (ps := p0 :: pt) in *. rewrite LR in HQ.
    assert (D2 := Nat.div_mod (length data) 2 ltac:(lia)).
    destruct (weighted_bounds ps (length data / 2)) as (B1 & B2 & B3).
    { intros p s I. destruct (HQ p s I). split; auto. apply Nat.div_le_lower_bound; lia. }
    specialize (B3 NE).
    set (T := qsum (map snd ps)) in *. set (W := qsum (map (fun p => (qn (fst p) * snd p)%Qc) ps)) in *.
    assert (NZ : T <> 0%Qc) by (intros Z0; rewrite Z0 in B3; qlra).
    rewrite (proj2 (Qceqb_neq _ _) NZ).
    pose proof (py_round_near (W / T)%Qc) as [R1 R2]. set (z := py_round (W / T)%Qc) in *.
    assert (EX : (W / T * T = W)%Qc) by (field; auto).
    assert (X0 : (0 <= W / T)%Qc) by (apply Qcdiv_nonneg; auto).
    assert (XH : (W / T <= qn (length data / 2))%Qc) by (apply Qcdiv_le_iff; auto).
    assert (Zn : (0 <= z)%Z).
    { destruct (Z_lt_le_dec z 0) as [Hz|Hz]; auto. exfalso. assert (H : (z <= -1)%Z) by lia. apply (proj1 (qz_le _ _)) in H.
      assert (E1 : (qz (-1) = - (1))%Qc) by (apply Qc_is_canon; reflexivity). rewrite E1 in H. qlra. }
    assert (QZ : qz z = qn (Z.to_nat z)) by (unfold qn; rewrite Z2Nat.id; auto).
    assert (Zh : Z.to_nat z <= length data / 2).
    { destruct (le_lt_dec (Z.to_nat z) (length data / 2)) as [H|H]; auto. exfalso.
      assert (H2 : length data / 2 + 1 <= Z.to_nat z) by lia. apply qn_le in H2. rewrite qn_add, <- QZ in H2.
      assert (E3 : qn 1 = 1%Qc) by (apply Qc_is_canon; reflexivity). rewrite E3 in H2. qlra. }
    exists (Z.to_nat z), br, rest. split; [reflexivity|]. split; [lia|]. split; [auto|]. split; [auto|]. split; [auto|].
    right. exists ps. split; auto. unfold nearest_mean. fold T W. rewrite <- QZ. rewrite <- EX.
    split; qnra.
Qed.

(** REFUTED for large values: no period is guessed, and no trend found without
    one, when a sliding median (a third of the points to either side, less one, at
    most 511) is beyond the largest C float, 3.4 * 10^38. *)
Theorem C90_large_values_refuted : forall t data i h, top = Some t -> keeps_middle aglet -> 6 <= length data ->
  h + 1 = Nat.min (length data / 3) 512 -> h <= i -> i + h < length data ->
  (t <= Qcabs (r32 (sliding_median (map r32 data) h i)))%Qc ->
  guess data = Err Generic /\ trend data None = Err Generic.
Proof.
  intros t data i h ET KM Hn HH HI1 HI2 HT. assert (G : guess data = Err Generic).
  - unfold guess_trended_period. cbv zeta. rewrite <- HH. assert (D3 := Nat.div_mod (length data) 3 ltac:(lia)).
    pose proof (Nat.mod_upper_bound (length data) 3 ltac:(lia)).
    assert (H1 : 1 <= h) by lia.
    assert (W : fit_window (length data) (h + 1) = 2 * h + 1).
    { apply window_for_fit; [lia|]. right. lia. }
    assert (WH : (2 * h + 1) / 2 = h) by (symmetry; apply (Nat.div_unique _ 2 h 1); lia).
    destruct (fit_total data KMedian (h + 1)) as (br & E & L); [discriminate|auto|lia|]. rewrite E, bind_ok.
    unfold fit_with_period in E. cbv zeta in E. rewrite W in E.
    destruct (C21_median_filter_interior r32 data (2 * h + 1)) as (m & EM & LM & HM); [rewrite WH; lia|]. rewrite EM, bind_ok in E.
    rewrite WH in HM. specialize (HM i ltac:(lia)).
    assert (IN : (h <=? i) && (i <? length data - h) = true).
    { apply andb_true_iff. split; [apply Nat.leb_le|apply Nat.ltb_lt]; lia. }
    rewrite IN in HM. rewrite <- (KM _ _ _ i E) in HM; [|rewrite WH; auto|rewrite WH; lia].
    assert (F : finite32 top br = false).
    { unfold finite32. rewrite ET. apply nth_error_In in HM.
      destruct (forallb _ br) eqn:EF; auto. rewrite forallb_forall in EF. apply EF in HM. apply Qcltb_lt in HM. exfalso. qlra. }
    rewrite F. reflexivity.
  - split; auto. unfold trend_detection. rewrite (proj2 (Nat.ltb_ge _ _) Hn). unfold fit_trend. rewrite G. reflexivity.
Qed.

(** A trend is found, one value per point, for any given period that fits
    twice, and without a period for values with room below the largest C float. *)
Theorem C90_total : forall series period,
  (forall p, period = Some p -> p <= 1 \/ 2 * p <= length series) -> (period = None -> float_room top series) ->
  exists t, trend series period = Ok t /\ length t = length series.
Proof.
  intros series period Hper HB. unfold trend_detection. destruct (length series <? 6) eqn:E.
  - exists (map (fun _ => qmean series) series). split; auto. apply map_length.
  - apply Nat.ltb_ge in E. unfold fit_trend. destruct period as [p|].
    + rewrite bind_ok. apply fit_total; [discriminate|auto|auto].
    + destruct (C90_guess series E (HB eq_refl)) as (g & _ & _ & G & B & _). rewrite G, bind_ok. apply fit_total; [discriminate|auto|auto].
Qed.

(** Fewer than six points: their mean everywhere. *)
Theorem C90_short : forall series period, length series < 6 ->
  exists t, trend series period = Ok t /\ length t = length series /\
    forall v, In v t -> (qn (length series) * v = qsum series)%Qc.
Proof.
  intros series period H. unfold trend_detection. rewrite (proj2 (Nat.ltb_lt _ _) H).
  eexists. split; [reflexivity|]. split; [apply map_length|]. intros v I. apply in_map_iff in I. destruct I as (x & <- & I).
  unfold qmean. assert (0 < length series) by (destruct series; [destruct I|cbn; lia]).
  pose proof (qn_neq0 (length series) ltac:(lia)). field. auto.
Qed.

(** Otherwise a spline with as many segments as double windows fit, plus one,
    whose ends are straightened over one window; the window is two periods
    less a point, or a third of the points when there is no period. *)
Theorem C90_steps : forall series period t, 6 <= length series -> trend series period = Ok t ->
  exists p w k smooth, (period = Some p \/ period = None /\ guess series = Ok p) /\
    window_for (length series) p w /\ w * 2 * k <= length series < w * 2 * (k + 1) /\
    spline_filter series (k + 1) = Ok smooth /\ aglet smooth w = Ok t.
Proof.
  intros series period t Hn E. unfold trend_detection in E. rewrite (proj2 (Nat.ltb_ge _ _) Hn) in E. unfold fit_trend in E.
  match type of E with bind ?x _ = _ => destruct x as [p|e] eqn:EP end; [|discriminate]. rewrite bind_ok in E.
  assert (HP : period = Some p \/ period = None /\ guess series = Ok p) by (destruct period; [left; congruence|right; auto]).
  unfold fit_with_period in E. cbv zeta in E. pose proof (fit_window_for (length series) p) as W.
  set (w := fit_window (length series) p) in *. destruct (w =? 0) eqn:E0; [discriminate|]. apply Nat.eqb_neq in E0.
  match type of E with bind ?x _ = _ => destruct x as [m|e] eqn:EM end; [|discriminate]. rewrite bind_ok in E.
  exists p, w, (length series / (w * 2)), m. repeat split; auto.
  - apply Nat.mul_div_le. lia.
  - rewrite Nat.add_1_r. apply Nat.mul_succ_div_gt. lia.
Qed.

(** The other kinds used by the period search: every known kind answers with one
    value per point, no kind means the mean, an unknown one is refused. *)
Theorem C90_kinds : forall data k period, 6 <= length data ->
  (forall p, period = Some p -> p <= 1 \/ 2 * p <= length data) -> (period = None -> float_room top data) ->
  let r := fit_trend r32 top aglet mean_filter line_filter spline_filter peaks data k period in
  (k = Some KUnknown -> r = Err Generic) /\
  (k <> Some KUnknown -> exists t, r = Ok t /\ length t = length data) /\
  (k = None -> exists t, r = Ok t /\ forall v, In v t -> (qn (length data) * v = qsum data)%Qc).
Proof.
  intros data k period Hn Hper HB r. unfold r, fit_trend. clear r. split; [|split].
  - intros ->. destruct period as [p|]; [reflexivity|]. destruct (C90_guess data Hn (HB eq_refl)) as (g & _ & _ & G & _). rewrite G. reflexivity.
  - intros Hk. destruct k as [k|]; [|eexists; split; [reflexivity|apply map_length]].
    destruct period as [p|].
    + rewrite bind_ok. apply fit_total; [congruence|auto|auto].
    + destruct (C90_guess data Hn (HB eq_refl)) as (g & _ & _ & G & B & _). rewrite G, bind_ok. apply fit_total; [congruence|auto|auto].
  - intros ->. eexists. split; [reflexivity|]. intros v I. apply in_map_iff in I. destruct I as (x & <- & I).
    unfold qmean. pose proof (qn_neq0 (length data) ltac:(lia)). field. auto.
Qed.
End Props.
Print Assumptions C90_guess.
Print Assumptions C90_large_values_refuted.
Print Assumptions C90_total.
Print Assumptions C90_short.
Print Assumptions C90_steps.
Print Assumptions C90_kinds.

(** Rounding is to the nearest integer, ties to even: 3.5 gives 4, 2.5 gives 2. *)
Theorem C90_rounding : forall x z, py_round x = z ->
  (qz z - Q2Qc (1 # 2) <= x <= qz z + Q2Qc (1 # 2))%Qc /\
  ((x = qz z + Q2Qc (1 # 2) \/ x = qz z - Q2Qc (1 # 2))%Qc -> Z.even z = true).
Proof.
  intros x z <-. split; [apply py_round_near|].
  unfold py_round. cbv zeta. set (f := Qfloor (this x)).
  assert (A : (qz f <= x)%Qc). { unfold Qcle. pose proof (Qfloor_le (this x)) as H. rewrite this_qz. exact H. }
  assert (B : (x < qz f + 1)%Qc).
  { unfold Qclt. pose proof (Qlt_floor (this x)) as H. rewrite this_add, this_qz. fold f in H. rewrite inject_Z_plus in H. exact H. }
  assert (E1 : (qz (f + 1) = qz f + 1)%Qc) by (rewrite qz_add; reflexivity).
  destruct (x - qz f <? Q2Qc (1 # 2))%Qc eqn:Q1; [apply Qcltb_lt in Q1; intros [H|H]; exfalso; rewrite H in *; qlra|]. apply Qcltb_ge in Q1.
  destruct (Q2Qc (1 # 2) <? x - qz f)%Qc eqn:Q2.
  - apply Qcltb_lt in Q2. rewrite E1. intros [H|H]; exfalso; rewrite H in *; qlra.
  - intros _. destruct (Z.even f) eqn:EV; auto. rewrite Z.even_add, EV. reflexivity.
Qed.
Print Assumptions C90_rounding.

(** Ten points, peaks 2 (score 1) and 4 (score 3): mean 3.5, guessed period 4,
    window 7, one spline segment; five points: their mean. *)
Definition ex_id (s : list Qc) (_ : nat) : res (list Qc) := Ok s.
Definition ex_peaks (d : list Qc) : res (option (list (nat * Qc))) :=
  if length d <? 8 then Ok None else Ok (Some [(2, 1%Qc); (4, qz 3)]).
Lemma ex_id_on : forall dom, filter_on dom ex_id.
Proof. intros dom s w _. exists s. split; reflexivity. Qed.
Lemma ex_peaks_ok : peaks_ok ex_peaks.
Proof.
  intros d Hd. unfold ex_peaks. destruct (length d <? 8) eqn:E; [left; reflexivity|]. apply Nat.ltb_ge in E. right.
  eexists. split; [|split; [reflexivity|]]; [discriminate|]. intros p s [I|[I|[]]]; inversion I; subst; split; try lia; reflexivity.
Qed.
Definition ex_ten : list Qc := map qz [1; 5; 2; 8; 1; 4; 2; 9; 3; 7]%Z.
Example C90_example :
  guess_trended_period (fun x => x) None ex_id ex_id ex_id ex_id ex_peaks ex_ten = Ok 4 /\ fit_window 10 4 = 7 /\
  trend_detection (fun x => x) None ex_id ex_id ex_id ex_id ex_peaks ex_ten None = Ok ex_ten /\
  map py_round [Q2Qc (5 # 2); Q2Qc (7 # 2); Q2Qc (-5 # 2); Q2Qc (13 # 5)] = [2; 4; -2; 3]%Z /\
  match trend_detection (fun x => x) None ex_id ex_id ex_id ex_id ex_peaks (map qz [1; 2; 3; 4; 10]%Z) None with
  | Ok t => map this t = map (fun z => inject_Z z) [4; 4; 4; 4; 4]%Z | Err _ => False end.
Proof. repeat split; vm_compute; reflexivity. Qed.
(** The largest float is 2^128: the same ten values have room; 10^40 times them
    do not (the median of 1, 5, 2, 8, 1 is 2). *)
Example C90_large_example :
  float_room (Some (qz (2 ^ 128))) ex_ten /\ no_blowup (fun x => x) /\ ends_bounded ex_id /\ keeps_middle ex_id /\
  guess_trended_period (fun x => x) (Some (qz (2 ^ 128))) ex_id ex_id ex_id ex_id ex_peaks ex_ten = Ok 4 /\
  sliding_median (map (fun x => (qz (10 ^ 40) * x)%Qc) ex_ten) 2 2 = qz (2 * 10 ^ 40) /\
  trend_detection (fun x => x) (Some (qz (2 ^ 128))) ex_id ex_id ex_id ex_id ex_peaks (map (fun x => (qz (10 ^ 40) * x)%Qc) ex_ten) None = Err Generic /\
  is_ok (trend_detection (fun x => x) (Some (qz (2 ^ 128))) ex_id ex_id ex_id ex_id ex_peaks (map (fun x => (qz (10 ^ 40) * x)%Qc) ex_ten) (Some 4)) = true.
Proof.
  split. { exists (qz 9). split; [|reflexivity]. intros x I. apply Qcleb_le. unfold ex_ten in I. cbn in I. repeat (destruct I as [<-|I]; [reflexivity|]). destruct I. }
  split. { intros x. pose proof (Qcabs_nonneg x). qlra. }
  split. { intros s w t B _ H E. inversion E; subst t. intros x I. pose proof (H x I). pose proof (Qcabs_nonneg x). assert (K : (1 <= qz 2048)%Qc) by (vm_compute; discriminate). qnra. }
  split. { intros s w t i E _ _. inversion E; auto. }
  split; [vm_compute; reflexivity|]. split; [apply Qc_is_canon; vm_compute; reflexivity|]. split; vm_compute; reflexivity.
Qed.
