(** The whole detector answers. *)
From Coq Require Import String List Arith ZArith QArith Qcanon Qround Lia Lqa Bool Sorted.
From Verif Require Import Base Num Kernel_model Kernel_proofs FillUp_model FillUp_spec FillUp_proofs FillUp_proofs6 FillUp_props
  Helpers_model Margins_model SR_model SR_proofs2 Detect_model Detect_spec Detect_proofs Detect_props
  Period_model Period_spec Period_props Trend_model Trend_spec Trend_props Stl_model Stl_spec Stl_props Units_spec
  Pipe_model Pipe_spec Pipe_proofs Pipe_proofs2.
Import ListNotations.
Open Scope nat_scope.

Section Whole.
Variable L : libs.
Hypothesis OK : libs_ok L.

Lemma trend_peaks_ok : peaks_ok (trend_peaks L).
Proof.
  intros d Hd. unfold trend_peaks. destruct (l_peaks L d (Q2Qc (9 # 10))) as [ps|] eqn:E; cbn [option_map]; [right|left; auto].
  destruct (ok_peaks L OK _ _ _ E) as [NE H]. eexists. split; [|split; [reflexivity|]].
  - destruct ps; [congruence|discriminate].
  - intros p s I. apply in_map_iff in I. destruct I as ([[[p' s'] lo] hi] & X & I). cbn in X. inversion X; subst. eapply H; eauto.
Qed.

Lemma modest_room : forall l, sized (Q2Qc 4 * qz (10 ^ 34))%Qc l -> float_room (l_top L) l.
Proof.
  intros l H. unfold float_room. destruct (l_top L) as [t|] eqn:E; auto. exists (Q2Qc 4 * qz (10 ^ 34))%Qc. split; auto.
  apply (ok_top L OK) in E. eapply Qclt_le_trans; [|exact E]. reflexivity.
Qed.
Lemma whole_trend_total : forall s p, (p = Some 0 \/ p = Some 1) -> exists t, whole_trend L s p = Ok t /\ length t = length s.
Proof.
  intros s p Hp. unfold whole_trend. apply C90_total; try apply OK; [apply trend_peaks_ok| |].
  - intros q E. left. destruct Hp as [E1|E1]; rewrite E1 in E; inversion E; subst; auto.
  - intros ->. destruct Hp; discriminate.
Qed.
Lemma whole_trend_none : forall s, sized (Q2Qc 4 * qz (10 ^ 34))%Qc s -> exists t, whole_trend L s None = Ok t /\ length t = length s.
Proof.
  intros s H. unfold whole_trend. apply C90_total; try apply OK; [apply trend_peaks_ok|discriminate|]. intros _. apply modest_room; auto.
Qed.
Lemma whole_fit_room : forall l, 12 <= length l -> float_room (l_top L) l -> exists t, whole_fit L "spline" l = Ok t /\ length t = length l.
Proof.
  intros l Hl HB. unfold whole_fit. change (kind_of_name "spline") with KSpline.
  destruct (C90_kinds (l_r32 L) (l_top L) (l_aglet L) (l_mean_filter L) (l_line_filter L) (l_spline_filter L) (trend_peaks L)
    (ok_aglet L OK) (ok_mean L OK) (ok_line L OK) (ok_splines L OK) trend_peaks_ok (ok_r32 L OK) (ok_ends L OK) l (Some KSpline) None ltac:(lia)) as (_ & H & _).
  - discriminate.
  - auto.
  - apply H. discriminate.
Qed.
Lemma whole_fit_answers : trend_answers (qz (10 ^ 34)) (whole_fit L) "spline".
Proof.
  intros l Hl HB. apply whole_fit_room; auto. apply modest_room. intros x I. apply HB in I. pose proof (Qcabs_nonneg x). qlra.
Qed.
Lemma whole_decompose : forall adjust s p, 1 < p -> 2 * p < length s ->
  exists t e, Stl_model.decompose (l_stl L) (l_exp L) (l_log L) (l_std L) adjust s p = Ok (t, e) /\ length t = length s /\ length e = length s.
Proof.
  intros adjust s p H1 H2.
  destruct (C89_total (l_stl L) (l_exp L) (l_log L) (l_std L) adjust s p (ok_additive L OK) (ok_stl L OK) (ok_nonneg L OK) (ok_rough L OK) ltac:(lia) H2)
    as (d & E & A & B & _).
  exists (c_trend d), (c_seasonal d). unfold Stl_model.decompose. rewrite E, bind_ok. auto.
Qed.
Lemma whole_period_total : forall g i s, g <> Microsecond -> 12 <= length s -> varied s \/ modest s -> exists p, whole_period L g i (map Some s) = Ok p.
Proof.
  intros g i s Hg Hs HB. unfold whole_period, detected_period. rewrite all_some_of_map. unfold default_detection.
  destruct (C29_answers (l_std L) (l_r32 L) (l_rnd L) (l_acf L) (l_peaks L) (whole_fit L) (qz (10 ^ 34)) s (Some "spline"%string) (Q2Qc (9 # 10)) (Q2Qc (20 # 100)) true g
    (option_map Z.of_nat i) false (ok_fair L OK) (ok_acf L OK)) as (p & src & E); auto.
  - intros k X. inversion X; subst. apply whole_fit_answers.
  - discriminate.
  - rewrite E, bind_ok. eauto.
Qed.

Lemma indices_lt : forall ix vs f, ix <> [] -> make_fup (Some ix) vs default_maxlen = Ok f -> StronglySorted lt (f_indices f).
Proof.
  intros ix vs f NE HF. destruct (make_fup_ok_inv ix vs default_maxlen f NE HF) as (_ & _ & _ & _ & _ & _ & _ & I & _). 
  exact I.
Qed.
Lemma whole_knots : forall ix a, ix <> [] -> make_fup (Some ix) (map Some (a_values a)) default_maxlen = Ok (a_fup a) -> through_knots (l_spline L) ix a.
Proof.
  intros ix a NE HF _ q v (k & A & B). apply (ok_spline L OK).
  - eapply indices_lt; eauto.
  - destruct (make_fup_ok_inv _ _ _ _ NE HF) as (_ & EI & EV & _). exists k. rewrite EI, nth_error_map, A. simpl. rewrite Nat2Z.id. split; auto.
    rewrite EV, nth_error_map in B. destruct (nth_error (f_values (a_fup a)) k); inversion B; auto.
Qed.

Lemma sorted_room : forall ix, hd_error ix = Some 0%Z -> StronglySorted Z.lt ix -> (Z.of_nat (length ix) <= last ix 0 + 1)%Z.
Proof.
  intros [|z t] E HS; [discriminate|]. inversion E; subst z. clear E.
  assert (K : forall l x, StronglySorted Z.lt (x :: l) -> (x + Z.of_nat (length l) <= last (x :: l) 0)%Z).
  { induction l as [|y l IH]; intros x Hx; [simpl; lia|]. inversion Hx as [|? ? A B]; subst. inversion B; subst.
    specialize (IH y A). change (last (x :: y :: l) 0%Z) with (last (y :: l) 0%Z). cbn [length]. lia. }
  specialize (K t 0%Z HS). cbn [length]. lia.
Qed.
Lemma detection_long : forall ix m, hd_error ix = Some 0%Z -> StronglySorted Z.lt ix -> (Z.of_nat (length ix) <= detection_length ix m)%Z.
Proof. intros ix m H1 H2. pose proof (sorted_room ix H1 H2). unfold detection_length. destruct (_ && _); lia. Qed.
Lemma missing_half : forall ix a, ix <> [] -> make_fup (Some ix) (map Some (a_values a)) default_maxlen = Ok (a_fup a) ->
  (last ix 0 + 1 <= 2 * Z.of_nat (length ix))%Z -> (missing_ratio (a_fup a) <= Q2Qc (1 # 2))%Qc.
Proof.
  intros ix a NE HF HH. destruct (make_fup_ok_inv _ _ _ _ NE HF) as (_ & EI & _ & EA & EM & _).
  unfold missing_ratio. destruct (f_indices (a_fup a)) as [|i0 r] eqn:E; [qlra|].
  assert (L0 : 0 < length ix) by (destruct ix; [congruence|simpl; lia]).
  assert (P : 0 < f_all (a_fup a)).
  { destruct (make_fup_ok_inv _ _ _ _ NE HF) as (_ & _ & _ & _ & _ & _ & _ & _ & _ & _ & X). lia. }
  apply (Qcdiv_le_iff _ _ _ (qn_pos _ P)).
  assert (Q : (qz 2 * qz (f_missing (a_fup a)) <= qz (Z.of_nat (f_all (a_fup a))))%Qc).
  { rewrite <- qz_mul. apply (proj1 (qz_le _ _)). lia. }
  change (qz (Z.of_nat (f_all (a_fup a)))) with (qn (f_all (a_fup a))) in Q. change (qz 2) with (Q2Qc 2) in Q.
  revert Q. generalize (qz (f_missing (a_fup a))) (qn (f_all (a_fup a))). intros. qlra.
Qed.

Lemma fill_length : forall ix a p filled, 12 <= length ix -> length ix = length (a_values a) ->
  make_fup (Some ix) (map Some (a_values a)) default_maxlen = Ok (a_fup a) ->
  (a_mode a = FMFixed -> f_need (a_fup a) = true -> a_fixed a <> None) ->
  fill_up_on_demand (l_spline L) (a_fup a) (a_mode a) (a_fixed a) (Some (Z.of_nat p)) = Ok filled ->
  Z.of_nat (length (match filled with Some (full, _) => full | None => map Some (a_values a) end)) = detection_length ix (a_mode a).
Proof.
  intros ix a p filled L12 LI HF HX EF.
  assert (NE : ix <> []) by (destruct ix; [simpl in L12; lia|discriminate]).
  destruct (make_fup_ok_inv _ _ _ _ NE HF) as ([W|(_ & _ & W1 & W2)] & _ & _ & EA & EM & EN & _); [congruence|].
  pose proof (whole_knots ix a NE HF) as TK. unfold through_knots in TK.
  destruct (fill_cases (l_spline L) ix (map Some (a_values a)) (a_fup a) (a_mode a) (a_fixed a) (Some (Z.of_nat p)) HF HX TK ltac:(lia) (Nat2Z.is_nonneg p))
    as [(A & B)|(A & N1 & N2 & s & B & LS & _)]; rewrite EF in B; inversion B; subst filled; rewrite map_length; unfold detection_length.
  - destruct (gaps_filled (a_mode a)) eqn:EG; cbn [andb]; [|lia].
    destruct (last ix 0 + 1 <=? 17280)%Z eqn:E; [|lia]. apply Z.leb_le in E.
    destruct A as [A|[A|A]]; [|rewrite A in EG; discriminate|rewrite A in EG; discriminate].
    assert (~ (0 < f_missing (a_fup a))%Z). { intro X. assert (f_need (a_fup a) = true) by (apply EN; split; [auto|unfold default_maxlen; lia]). congruence. }
    pose proof (sorted_room ix ltac:(auto) ltac:(auto)). lia.
  - assert (gaps_filled (a_mode a) = true) as -> by (destruct (a_mode a); auto; congruence). cbn [andb].
    apply EN in A. destruct A as [_ A]. unfold default_maxlen in A. destruct (last ix 0 + 1 <=? 17280)%Z eqn:E; [lia|apply Z.leb_gt in E; lia].
Qed.

Lemma room_spec : forall n p r, 12 <= n -> (0 <= r)%Qc -> 2 * p < n -> room (Z.of_nat n) (Z.of_nat p) r ->
  (2 * Qceiling (this (qn n * r)%Qc) + Z.of_nat (p / 2) < Z.of_nat n)%Z.
Proof.
  intros n p r Hn H0 Hp H. pose proof (Nat.mul_div_le p 2 ltac:(lia)). destruct H as [H|H].
  - pose proof (quarter_ceiling n r H). lia.
  - rewrite Nat2Z.inj_div. exact H.
Qed.
Lemma room_smaller : forall n p q r, (q <= p)%Z -> room n p r -> room n q r.
Proof.
  intros n p q r H [A|A]; [left; auto|right]. pose proof (Z.div_le_mono q p 2 ltac:(lia) H). lia.
Qed.

Lemma whole_total : forall ix a d period lm,
  make_fup (Some ix) (map Some (a_values a)) default_maxlen = Ok (a_fup a) ->
  12 <= length ix -> length ix = length (a_values a) ->
  (a_mode a = FMFixed -> f_need (a_fup a) = true -> a_fixed a <> None) ->
  (0 <= a_ratio a)%Qc -> (a_ratio a <= Q2Qc (49 # 100))%Qc ->
  should_trigger_model_selection d (a_majority a) = true ->
  match period with None => a_gran a <> Microsecond /\ any_period_usable ix (a_mode a) (a_ratio a)
                  | Some p => period_usable ix (a_mode a) (a_ratio a) p end ->
  modest_args a period ->
  exists r, whole_detect L a d period lm = Ok r.
Proof.
  intros ix a d period lm HF L12 LI HX R0 R4 HD HP MA.
  assert (NE : ix <> []) by (destruct ix; [simpl in L12; lia|discriminate]).
  pose proof (whole_knots ix a NE HF) as TK.
  destruct (make_fup_ok_inv _ _ _ _ NE HF) as ([W0|(_ & _ & W)] & EI & EV & EA & EM & EN & _ & _ & _ & LV & EL); [congruence|].
  assert (VV : a_values a = f_values (a_fup a)).
  { clear - EV. revert EV. generalize (a_values a) (f_values (a_fup a)). induction l as [|x l IH]; intros [|y m] E; inversion E; subst; auto. f_equal; auto. }
  assert (GB : modest (a_values a) -> forall p v, given ix (map Some (a_values a)) p v -> (Qcabs v <= qz (10 ^ 34))%Qc).
  { intros MV p v (k & _ & G). rewrite nth_error_map in G. destruct (nth_error (a_values a) k) as [w|] eqn:Ew; inversion G; subst. apply MV. eapply nth_error_In; eauto. }
  unfold whole_detect, detect_model. rewrite HD.
  match goal with |- context [detect_with_model_selection ?c ?sd ?pp ?sq ?tb ?so ?sdd ?td ?dc ?tr ?sta ?sp ?pd a period lm] =>
    destruct (select_total c sd pp sq tb so sdd td dc tr sta sp pd (ok_sort L OK) (qz (10 ^ 34)) whole_trend_none (fun s p H => whole_trend_total s p H) whole_decompose (ok_transform L OK)
       ix a period lm HF L12 LI TK HX R0 R4 (fun _ => ok_first L OK)) as ([[[rows q] m] b] & E) end.
  - destruct period as [p|].
    + exists p. split; [auto|]. intros H1. destruct HP as [HP|(HP1 & HP2 & HP3)]; [lia|]. split; [apply (missing_half ix); auto|].
      intros filled EF. cbv zeta. pose proof (fill_length ix a p filled L12 LI HF HX EF) as FL. pose proof (detection_long ix (a_mode a) (proj1 W) (proj2 W)).
      rewrite <- FL in *. split; [lia|]. apply room_spec; auto; lia.
    + destruct MA as [(p & X & _)|[MV MF]]; [discriminate|]. specialize (GB MV). destruct HP as [HP1 HP2]. destruct (Q2Qc (1 # 2) <? missing_ratio (a_fup a))%Qc eqn:ER.
      * exists 0. split; [|lia]. right. left. split; auto. split; auto. apply Qcltb_lt; auto.
      * apply Qcltb_ge in ER.
        assert (T : exists p, period_detection_with_filled_values (l_spline L) (whole_period L (a_gran a) (a_interval a)) (a_fup a) (a_mode a) (a_fixed a) = Ok p).
        { unfold period_detection_with_filled_values. destruct (f_need (a_fup a)) eqn:HN.
          - match goal with |- context [fill_up_on_demand _ _ ?md _ None] => assert (MD : (md = FMFixed -> a_mode a = FMFixed) /\ md <> FMAuto) by (destruct (a_mode a); split; congruence); set (m0 := md) in * end.
            destruct (fill_cases (l_spline L) ix (map Some (a_values a)) (a_fup a) m0 (a_fixed a) None HF) as [(A & B)|(A & N1 & N2 & s & B & LS & WG)].
            + intros X _. apply HX; auto. apply MD; auto.
            + intros X. destruct MD; contradiction.
            + lia.
            + auto.
            + rewrite B, bind_ok. cbn [option_map]. rewrite bind_ok. apply whole_period_total; rewrite <- ?VV; auto. lia.
            + rewrite B, bind_ok. cbn [option_map fst]. rewrite bind_ok. apply whole_period_total; auto; [lia|]. right. apply WG; auto.
              intros q0 X. apply MF; auto. apply MD; auto.
          - rewrite bind_ok. apply whole_period_total; rewrite <- ?VV; auto. lia. }
        destruct T as (p & T). exists p. split; [right; right; auto|]. intros H1. split; auto.
        intros filled EF. cbv zeta. pose proof (fill_length ix a p filled L12 LI HF HX EF) as FL. pose proof (detection_long ix (a_mode a) (proj1 W) (proj2 W)).
        assert (F2 : 2 * p < length (match filled with Some (full, _) => full | None => map Some (a_values a) end)).
        { rewrite VV. eapply C28_detection_series_long_enough; eauto. }
        split; auto. unfold any_period_usable in HP2. rewrite <- FL in *. apply room_spec; auto; [lia|].
        eapply room_smaller; [|exact HP2]. apply Z.div_le_lower_bound; lia.
  - intros HPN. assert (M : modest (a_values a) /\ forall q, f_need (a_fup a) = true -> a_mode a = FMFixed -> a_fixed a = Some q -> (Qcabs q <= qz (10 ^ 34))%Qc).
    { destruct MA as [(p & -> & P1)|M]; auto. destruct HPN as [X|(p' & X & P2)]; [discriminate|]. inversion X; subst. lia. }
    destruct M as [MV MF]. specialize (GB MV). intros s [->|(p & tags & EF)]; [exact MV|].
    destruct (fill_cases (l_spline L) ix (map Some (a_values a)) (a_fup a) (a_mode a) (a_fixed a) (Some (Z.of_nat p)) HF HX TK ltac:(lia) (Nat2Z.is_nonneg p))
      as [(_ & E)|(FN & _ & _ & s' & E & _ & WG)]; rewrite EF in E; inversion E as [[ES ET]].
    assert (s = s') by (clear - ES; revert s' ES; induction s; intros [|y t] X; inversion X; subst; auto; f_equal; auto). subst s'.
    apply WG; auto.
  - rewrite E, bind_ok. eauto.
Qed.
End Whole.
