(** Constant series through the whole detector. *)
From Coq Require Import String List Arith ZArith QArith Qcanon Qround Lia Lqa Bool Sorted.
From Verif Require Import Base Num Sorting Kernel_model Kernel_spec Kernel_proofs FillUp_model FillUp_spec FillUp_proofs FillUp_proofs6 FillUp_props
  Helpers_model Margins_model SR_model Detect_model Detect_spec Detect_proofs Detect_proofs3 Detect_proofs6 Detect_props
  Period_model Period_spec Period_proofs6 Period_props Trend_model Trend_spec Trend_props Stl_model Stl_spec
  Pipe_model Pipe_spec Pipe_proofs2 Pipe_proofs3 Const_spec Const_proofs Expect_proofs Units_proofs.
Import ListNotations.
Open Scope nat_scope.

Lemma given_value : forall ix vs p v, given ix (map Some vs) p v -> In v vs.
Proof.
  intros ix vs p v (k & _ & H). rewrite nth_error_map in H. destruct (nth_error vs k) eqn:E; inversion H; subst. eauto using nth_error_In.
Qed.
Lemma interp_at_const : forall c rest a x y, all_eq c (map snd rest) -> interp_at a c rest x = Some y -> y = c.
Proof.
  induction rest as [|[b vb] t IH]; intros a x y H E; cbn [interp_at] in E.
  - destruct (x =? a); inversion E; auto.
  - assert (vb = c) by (apply H; left; auto). subst vb. destruct (x <? a); [discriminate|].
    destruct (x <? b). { inversion E. ring. }
    eapply IH; [|exact E]. intros z I. apply H. right; auto.
Qed.
Lemma sequence_in : forall A (l : list (option A)) s x, sequence l = Some s -> In x s -> In (Some x) l.
Proof.
  induction l as [|[y|] t IH]; intros s x E I; cbn [sequence] in E; [inversion E; subst; contradiction| |discriminate].
  destruct (sequence t) as [r|] eqn:ER; [|discriminate]. inversion E; subst. destruct I as [<-|I]; [left; auto|right; eauto].
Qed.
Lemma linear_const : forall c vals idx full l, all_eq c vals -> linear_entire vals idx full = Ok l -> all_eq c l.
Proof.
  intros c vals idx full l H E. unfold linear_entire in E.
  destruct (combine idx vals) as [|[a va] rest] eqn:EC; [discriminate|].
  assert (K : all_eq c (map snd ((a, va) :: rest))).
  { rewrite <- EC. intros x I. apply in_map_iff in I. destruct I as ([i v] & <- & I). apply H. eapply in_combine_r; eauto. }
  destruct (sequence _) as [s|] eqn:ES; [|discriminate]. inversion E; subst. intros x I.
  pose proof (sequence_in _ _ _ _ ES I) as J. apply in_map_iff in J. destruct J as (p & EP & _).
  assert (va = c) by (apply K; left; auto). subst va. eapply interp_at_const; [|exact EP]. intros y Iy. apply K. right; auto.
Qed.
Lemma map_some_in : forall (s : list Qc) x i, nth_error s i = Some x -> nth_error (map Some s) i = Some (Some x).
Proof. intros s x i H. rewrite nth_error_map, H. auto. Qed.

Lemma fill_const : forall sp ix c vs f mode fixed period s tags,
  make_fup (Some ix) (map Some vs) default_maxlen = Ok f -> all_eq c vs -> 4 <= length ix ->
  (mode = FMFixed -> f_need f = true -> fixed = Some c) ->
  (mode = FMAuto -> forall p v, given ix (map Some vs) p v -> sp (f_indices f) (f_values f) p = v) ->
  (match period with Some p => 0 <= p | None => True end)%Z ->
  fill_up_on_demand sp f mode fixed period = Ok (Some (map Some s, tags)) -> all_eq c s.
Proof.
  intros sp ix c vs f mode fixed period s tags HF HC L4 HX HS HP E.
  assert (HN : f_need f = true).
  { destruct (f_need f) eqn:N; auto. exfalso. destruct mode; cbn [fill_up_on_demand] in E; unfold fill_up in E; rewrite ?N in E; discriminate. }
  assert (PL : mode = FMPrevious \/ mode = FMUseLast -> all_eq c s).
  { intros HM. destruct (C03_previous_is_last_observation sp ix _ default_maxlen f mode fixed period HF HN HM) as (full & E' & L & K).
    rewrite E in E'. inversion E'; subst full. intros x I. apply In_nth_error in I. destruct I as (i & Hi).
    rewrite map_length in L. destruct (K i) as (a & v & A & G & _). { rewrite <- L. apply (nth_error_lt _ _ _ _ Hi). }
    rewrite (map_some_in _ _ _ Hi) in A. inversion A; subst v. apply HC. eapply given_value; eauto. }
  destruct mode eqn:EM; auto; try discriminate E.
  - destruct (C38_fixed_fill_is_constant sp ix _ default_maxlen f fixed period HF HN) as (full & E' & L & C & K).
    rewrite E in E'. inversion E'; subst full. rewrite map_length in L. intros x I. apply In_nth_error in I. destruct I as (p & Hp).
    pose proof (map_some_in _ _ _ Hp) as Hp'. destruct (in_dec Z.eq_dec (Z.of_nat p) ix) as [J|J].
    + destruct (accepted_facts _ _ _ _ HF HN) as (_ & _ & EV & _ & LL & _).
      apply In_nth_error in J. destruct J as [k Hk]. pose proof (nth_error_lt _ _ _ _ Hk) as Lk.
      rewrite map_length in LL. destruct (nth_error_ex _ vs k ltac:(lia)) as [v Hv].
      assert (G : given ix (map Some vs) p v) by (exists k; split; auto; rewrite nth_error_map, Hv; auto).
      rewrite (C p v G) in Hp'. inversion Hp'; subst. apply HC. eapply given_value; eauto.
    + rewrite (K p) in Hp'; auto. { rewrite (HX eq_refl HN) in Hp'. congruence. } rewrite <- L. apply (nth_error_lt _ _ _ _ Hp).
  - unfold fill_up_on_demand, fill_up in E. rewrite HN in E. cbn in E. unfold entire_fill_up in E.
    destruct (linear_entire _ _ _) as [l|] eqn:EL; [|discriminate]. cbn in E. inversion E as [[E1 E2]].
    assert (l = s). { clear - E1. revert s E1. induction l; intros [|y s] E1; simpl in E1; try discriminate; auto. inversion E1. f_equal; auto. }
    subst l. eapply linear_const; [|exact EL]. destruct (accepted_facts _ _ _ _ HF HN) as (_ & _ & EV & _).
    assert (EV' : f_values f = vs). { clear - EV. revert EV. generalize (f_values f). induction vs; intros [|y l] E; simpl in E; try discriminate; auto. inversion E. f_equal; auto. }
    rewrite EV'. auto.
  - destruct (C05_auto_complete_and_bounded sp ix _ f period HF HN HP L4 (HS eq_refl)) as (l & E' & L & _ & B).
    change (fill_up_on_demand sp f FMAuto fixed period) with (fill_up_on_demand sp f FMAuto None period) in E.
    rewrite E in E'. inversion E' as [[E1 E2]].
    assert (s = l). { clear - E1. revert l E1. induction s; intros [|y l] E1; simpl in E1; try discriminate; auto. inversion E1. f_equal; auto. }
    subst l. intros x I. destruct (B x I) as (p1 & v1 & p2 & v2 & G1 & G2 & B1 & B2).
    rewrite (HC v1 (given_value _ _ _ _ G1)) in B1. rewrite (HC v2 (given_value _ _ _ _ G2)) in B2. apply Qcle_antisym; auto.
Qed.

Section Whole.
Variable L : libs.
Hypothesis OK : libs_ok L.
Hypothesis ST : steady L.

Lemma whole_trend_const : forall c s p t, all_eq c s -> whole_trend L s p = Ok t -> all_eq c t.
Proof. intros c s p t. unfold whole_trend. apply trend_const; apply ST. Qed.
Lemma whole_decompose_const : forall adjust c s p t e, all_eq c s ->
  Stl_model.decompose (l_stl L) (l_exp L) (l_log L) (l_std L) adjust s p = Ok (t, e) -> all_eq c t /\ all_eq 0%Qc e.
Proof. intros adjust c s p t e. apply decompose_const. apply ST. Qed.
Lemma whole_period_const : forall g i c s, all_eq c s -> l_top L = None \/ (Qcabs c <= qz (10 ^ 34))%Qc -> 12 <= length s -> whole_period L g i (map Some s) = Ok 0.
Proof.
  intros g i c s H HB L12. unfold whole_period, detected_period. rewrite all_some_of_map. unfold default_detection.
  rewrite (detection_same (l_std L) (l_r32 L) (l_rnd L) (l_acf L) (l_peaks L) (whole_fit L) (ok_nonneg L OK) c); auto.
  intros kind EK. inversion EK; subst kind. assert (FR : float_room (l_top L) s).
  { destruct HB as [->|HB]; [exact I|]. apply (modest_room L OK). intros x J. rewrite (H x J). pose proof (Qcabs_nonneg c). qlra. }
  destruct (whole_fit_room L OK s L12 FR) as (t & E & LT).
  exists t, c. split; auto. split; auto. unfold whole_fit in E. change (kind_of_name "spline") with KSpline in E.
  apply (fit_spline_const _ _ _ _ _ _ _ (steady_aglet L ST) (steady_spline L ST) c _ _ _ H E).
Qed.

(** The detector's own search on a constant finds no period. *)
Lemma searched_const : forall ix c a, make_fup (Some ix) (map Some (a_values a)) default_maxlen = Ok (a_fup a) ->
  12 <= length ix -> all_eq c (a_values a) -> (a_mode a = FMFixed -> f_need (a_fup a) = true -> a_fixed a = Some c) -> (Qcabs c <= qz (10 ^ 34))%Qc ->
  period_detection_with_filled_values (l_spline L) (whole_period L (a_gran a) (a_interval a)) (a_fup a) (a_mode a) (a_fixed a) = Ok 0.
Proof.
  intros ix c a HF L12 HC HX HB. assert (NE : ix <> []) by (destruct ix; [simpl in L12; lia|discriminate]).
  destruct (make_fup_ok_inv _ _ _ _ NE HF) as ([W|(LI & W0 & W1 & W2)] & _ & EV & EA & EM & EN & _); [congruence|]. clear EN. rewrite map_length in LI.
  assert (EV' : f_values (a_fup a) = a_values a).
  { clear - EV. revert EV. generalize (f_values (a_fup a)). induction (a_values a); intros [|y l'] E; simpl in E; try discriminate; auto. inversion E. f_equal; auto. }
  unfold period_detection_with_filled_values. destruct (f_need (a_fup a)) eqn:HN.
  - set (m := match a_mode a with FMAuto => FMPrevious | _ => a_mode a end).
    assert (HXm : m = FMFixed -> f_need (a_fup a) = true -> a_fixed a = Some c).
    { intros Em _. apply HX; auto. unfold m in Em. destruct (a_mode a); auto; discriminate. }
    assert (HSm : m = FMAuto -> forall p v, given ix (map Some (a_values a)) p v -> l_spline L (f_indices (a_fup a)) (f_values (a_fup a)) p = v).
    { intros Em. unfold m in Em. destruct (a_mode a); discriminate. }
    destruct (fill_cases (l_spline L) ix _ _ m (a_fixed a) None HF) as [(A & B)|(A & N1 & N2 & s & B & LS & _)]; auto; try lia.
    + intros Em Hn. rewrite (HXm Em Hn). discriminate.
    + rewrite B, !bind_ok. cbn [option_map]. rewrite EV'. apply whole_period_const with (c := c); auto. lia.
    + rewrite B, !bind_ok. cbn [option_map fst]. apply whole_period_const with (c := c).
      * eapply (fill_const (l_spline L)); [exact HF|exact HC|lia|exact HXm|exact HSm| |exact B]; exact I.
      * auto.
      * rewrite LS. pose proof (sorted_room ix W1 W2). lia.
  - rewrite bind_ok. rewrite EV'. apply whole_period_const with (c := c); auto. lia.
Qed.

Lemma select_const : forall ix c a period lm rows p m b, make_fup (Some ix) (map Some (a_values a)) default_maxlen = Ok (a_fup a) ->
  12 <= length ix -> all_eq c (a_values a) -> (a_mode a = FMFixed -> f_need (a_fup a) = true -> a_fixed a = Some c) ->
  (period = None -> (Qcabs c <= qz (10 ^ 34))%Qc) ->
  whole_detect L a (mkDet None None) period lm = Ok (rows, p, m, b) ->
  p = match period with Some q => q | None => 0 end /\ forall r, In r rows -> quiet_row c r.
Proof.
  intros ix c a period lm rows p m b HF L12 HC HX HB E. assert (NE : ix <> []) by (destruct ix; [simpl in L12; lia|discriminate]).
  unfold whole_detect in E. apply detect_inv in E. destruct E as (rows0 & E & ->). unfold detect_with_model_selection in E. cbv zeta in E.
  set (mr := if lm && _ then _ else _) in E. clearbody mr. bind_inv E. rename a0 into p'.
  assert (EP : p' = match period with Some q => q | None => 0 end).
  { destruct period; [congruence|]. destruct (_ <? _)%Qc; [congruence|]. rewrite (searched_const ix c a HF L12 HC HX (HB eq_refl)) in E0. congruence. }
  destruct ((1 <? p') && _) eqn:EG; [discriminate E|]. bind_inv E. rename a0 into filled. bind_inv E. rename a0 into series. bind_inv E. destruct a0 as [frame m'].
  cbn [fst snd] in E. inversion E; subst p m' b. clear E. split; auto.
  assert (HS : all_eq c series).
  { destruct filled as [[full tags]|]; [|inversion E2; subst series; auto]. destruct (Detect_model.all_some full) as [s|] eqn:EA; [|discriminate]. inversion E2; subst s.
    apply Detect_proofs5.all_some_map in EA. subst full.
    destruct ((1 <? p') || fills_without_period (a_mode a)); [|discriminate].
    pose proof (whole_knots L OK ix a NE HF) as TK. unfold through_knots in TK.
    eapply (fill_const (l_spline L)); [exact HF|exact HC|lia|exact HX|exact TK| |exact E1]; apply Nat2Z.is_nonneg. }
  assert (FR : forall r, In r frame -> r_value r = c /\ r_expected r = c).
  { destruct (1 <? p').
    - eapply ts_const; [|exact HS|exact E3]. apply whole_decompose_const.
    - rewrite (spread_const (l_cst L) c _ _ _ HS) in E3. bind_inv E3. rename a0 into tv. bind_inv E3. destruct a0 as [r0 m0]. bind_inv E3. inversion E3; subst a0 m0. cbn [fst] in *.
      pose proof (whole_trend_const _ _ _ _ HS E) as HT.
      eapply merge_const; [exact HS| | |exact E5].
      + intros r I. destruct (dt_const _ _ _ _ _ _ _ whole_trend_const _ _ _ _ _ _ _ _ _ HS E4) as [V [[_ X]|X]]; split; auto.
      + intros s r rows1 m1 HZ _ ED. destruct (dt_const _ _ _ _ _ _ _ whole_trend_const _ _ _ _ _ _ _ _ _ HZ ED) as [_ [[X _]|X]]; auto. }
  assert (FR' : forall r, In r rows0 -> r_value r = c /\ r_expected r = c).
  { intros r I. rewrite <- H0 in I. destruct filled as [[full tags]|]; auto. apply FR. eapply drop_filled_in; eauto. }
  intros r I. apply in_map_iff in I. destruct I as (r0 & <- & I). rewrite H0 in I. destruct (FR' r0 I) as [V X].
  unfold refine_row_flags. rewrite V, X. replace (c - c)%Qc with 0%Qc by ring. cbn [Qcabs]. 
  replace (Qcabs 0 <? EPS)%Qc with true by reflexivity. unfold quiet_row. cbn. auto.
Qed.

(** Without a period given, the search is the same as being told there is none. *)
Lemma period_none : forall ix c a lm, make_fup (Some ix) (map Some (a_values a)) default_maxlen = Ok (a_fup a) ->
  12 <= length ix -> all_eq c (a_values a) -> (a_mode a = FMFixed -> f_need (a_fup a) = true -> a_fixed a = Some c) -> (Qcabs c <= qz (10 ^ 34))%Qc ->
  whole_detect L a (mkDet None None) None lm = whole_detect L a (mkDet None None) (Some 0) lm.
Proof.
  intros ix c a lm HF L12 HC HX HB. unfold whole_detect, detect_model. cbn [should_trigger_model_selection d_name]. unfold detect_with_model_selection. cbv zeta.
  rewrite (searched_const ix c a HF L12 HC HX HB). destruct (_ <? missing_ratio (a_fup a))%Qc; reflexivity.
Qed.

(** The search on a constant too large for a C float. *)
Lemma whole_period_large : forall g i c s t, all_eq c s -> 12 <= length s -> c_floats L t -> (t <= Qcabs (l_r32 L c))%Qc ->
  whole_period L g i (map Some s) = Err Generic.
Proof.
  intros g i c s t H L12 CF HT. unfold whole_period, detected_period. rewrite all_some_of_map. unfold default_detection.
  assert (NE : s <> []) by (destruct s; [simpl in L12; lia|discriminate]).
  assert (EF : whole_fit L "spline"%string s = Err Generic).
  { unfold whole_fit. change (kind_of_name "spline") with KSpline. unfold fit_trend.
    assert (D3 := Nat.div_mod (length s) 3 ltac:(lia)). pose proof (Nat.mod_upper_bound (length s) 3 ltac:(lia)).
    set (h := Nat.min (length s / 3) 512 - 1). assert (EH : h + 1 = Nat.min (length s / 3) 512) by (unfold h; lia).
    destruct (C90_large_values_refuted (l_r32 L) (l_top L) (l_aglet L) (l_mean_filter L) (l_line_filter L) (l_spline_filter L) (trend_peaks L) (ok_aglet L OK)
      (ok_mean L OK) (ok_line L OK) (ok_splines L OK) t s h h (cf_top L t CF) (cf_keep L t CF) ltac:(lia) EH ltac:(lia) ltac:(lia)) as [G _].
    - unfold sliding_median. rewrite (median_const (l_r32 L c)); [rewrite (cf_round L t CF); auto| |].
      + intro X. apply (f_equal (@length Qc)) in X. rewrite slice_length, map_length in X. simpl in X. lia.
      + intros x I. apply FillUp_proofs3.slice_incl in I. apply in_map_iff in I. destruct I as (y & <- & I). rewrite (H y I). auto.
    - rewrite G. reflexivity. }
  assert (ES : spectrum_detect (l_std L) (l_acf L) (l_peaks L) (whole_fit L) s (Some "spline"%string) (Q2Qc (9 # 10)) (Q2Qc (20 # 100)) true = Err Generic).
  { unfold spectrum_detect. replace (length s <? 12) with false by (symmetry; apply Nat.ltb_ge; auto).
    destruct (normalize_const c s NE H) as (mn & mx & ->). rewrite bind_ok. cbn [fst]. unfold calculate_period.
    replace (length s <? 12) with false by (symmetry; apply Nat.ltb_ge; auto). unfold fit_seasons.
    rewrite (smooth_same (l_std L) (ok_nonneg L OK) c s NE H), bind_ok, EF. reflexivity. }
  unfold period_detection. rewrite ES. cbn [negb].
  rewrite (verify_same (l_std L) (l_r32 L) (l_rnd L) (ok_nonneg L OK) c s g _ NE H), bind_ok. reflexivity.
Qed.
Lemma large_const_fails : forall a c t lm, f_need (a_fup a) = false -> f_missing (a_fup a) = 0%Z -> map Some (f_values (a_fup a)) = map Some (a_values a) ->
  12 <= length (a_values a) -> all_eq c (a_values a) -> c_floats L t -> (t <= Qcabs (l_r32 L c))%Qc ->
  whole_detect L a (mkDet None None) None lm = Err Generic.
Proof.
  intros a c t lm HN HM EV L12 HC CF HT. unfold whole_detect, detect_model.
  cbn [should_trigger_model_selection d_name d_params]. unfold detect_with_model_selection. cbv zeta.
  assert (EI : (Q2Qc (1 # 2) <? missing_ratio (a_fup a))%Qc = false).
  { apply Qcltb_ge. unfold missing_ratio. rewrite HM. destruct (f_indices (a_fup a)); [vm_compute; discriminate|].
    unfold Qcdiv. change (qz 0) with 0%Qc. rewrite Qcmult_0_l. vm_compute. discriminate. }
  rewrite EI. unfold period_detection_with_filled_values. rewrite HN, bind_ok, EV.
  rewrite (whole_period_large (a_gran a) (a_interval a) c _ t HC L12 CF HT). reflexivity.
Qed.
End Whole.
