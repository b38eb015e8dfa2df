(** Changing the unit: the choice of the detector and the refined flags. *)
From Coq Require Import String List Arith ZArith QArith Qcanon Qround Lia Lqa Bool Sorted Permutation.
From Verif Require Import Base Num Sorting Kernel_model Kernel_spec FillUp_model Helpers_model Helpers_spec Margins_model SR_model SR_proofs3 Detect_model Detect_spec
  Detect_proofs Detect_proofs2 Detect_proofs3 Detect_proofs4 Period_proofs3 Const_spec Const_proofs Units_spec Units_proofs Units_proofs2 Units_proofs3 Units_proofs4.
Import ListNotations.
Open Scope nat_scope.

Lemma abs_pos_mult : forall k x, (0 < k)%Qc -> Qcabs (k * x) = (k * Qcabs x)%Qc.
Proof. intros. apply abs_scale; auto. Qed.
Lemma mad_unit : forall k b l, (0 < k)%Qc -> l <> [] -> mad (in_unit k b l) = (k * mad l)%Qc.
Proof.
  intros k b l K NE. unfold mad, in_unit. rewrite qmedian_affine by auto. rewrite map_map.
  rewrite (map_ext _ (fun x => k * Qcabs (x - qmedian l) + 0)%Qc).
  - rewrite <- (map_map (fun x => Qcabs (x - qmedian l)) (fun y => k * y + 0)%Qc). rewrite qmedian_affine; [ring|].
    destruct l; [congruence|discriminate].
  - intros x. replace (k * x + b - (k * qmedian l + b))%Qc with (k * (x - qmedian l))%Qc by ring. rewrite abs_pos_mult by auto. ring.
Qed.

Section Selection.
Variable cst : Qc.
Variable std : list Qc -> Qc.
Variable ppf : Qc -> Z -> Qc.
Variable sqrt : Qc -> Qc.
Variable table : list Qc.
Variable sort : list (nat * Qc) -> list (nat * Qc).
Variable sort_desc : list (nat * Qc) -> list (nat * Qc).
Variable trend_detection : list Qc -> option nat -> res (list Qc).
Variable decompose : bool -> list Qc -> nat -> res (list Qc * list Qc).
Variable transform : list Qc -> list Qc.
Variable stationary : list Qc -> bool.
Variable spline : list nat -> list Qc -> nat -> Qc.
Variable period_detection : list (option Qc) -> res nat.
Hypothesis SU : sorts_up sort.
Variable alpha : Qc.
Hypothesis CP : forall n m c, 2 * m + 2 <= n -> In c (get_critical ppf sqrt table alpha n m) -> (0 <= c)%Qc.
Variable k b : Qc.
Hypothesis K : (0 < k)%Qc.
Hypothesis TD : trend_in_unit k b trend_detection.
Hypothesis T0 : trend_in_unit k 0 trend_detection.
Hypothesis SB : unit_blind k b stationary.
Hypothesis S0 : unit_blind k 0 stationary.
Hypothesis SP : spline_in_unit k b spline.
Hypothesis PB : forall l, period_detection (cells_in_unit k b l) = period_detection l.
Notation select := (detect_with_model_selection cst std ppf sqrt table sort sort_desc trend_detection decompose transform stationary spline period_detection).
Notation DT := (dynamic_threshold_detection cst std ppf sqrt table sort trend_detection).
Notation SRD := (spectral_residual_detection transform std trend_detection sort_desc).

Lemma all_some_unit : forall l, all_some (cells_in_unit k b l) = option_map (in_unit k b) (all_some l).
Proof. induction l as [|[v|] l IH]; simpl; auto. change (map _ l) with (cells_in_unit k b l). rewrite IH. destruct (all_some l); auto. Qed.
Lemma all_some_map : forall l s, all_some l = Some s -> l = map Some s.
Proof.
  induction l as [|[v|] l IH]; intros s E; simpl in E; [injection E as <-; auto| |discriminate].
  destruct (all_some l) as [t|]; [|discriminate]. injection E as <-. simpl. f_equal. auto.
Qed.
Lemma cells_map_some : forall l, cells_in_unit k b (map Some l) = map Some (in_unit k b l).
Proof. intros. unfold cells_in_unit, in_unit. rewrite !map_map. auto. Qed.
Lemma drop_moved : forall nt tags rows rows', Forall2 (moved k b nt) rows rows' -> Forall2 (moved k b nt) (drop_filled tags rows) (drop_filled tags rows').
Proof.
  intros nt tags rows rows' H. revert tags. unfold drop_filled. induction H as [|r r' l l' M F IH]; intros [|t tags]; simpl; auto.
  destruct (negb t); simpl; auto.
Qed.
Lemma period_unit : forall f mode fixed,
  period_detection_with_filled_values spline period_detection (fup_in_unit k b f) mode (option_map (fun x => k * x + b)%Qc fixed) =
  period_detection_with_filled_values spline period_detection f mode fixed.
Proof.
  intros f mode fixed. unfold period_detection_with_filled_values. change (f_need (fup_in_unit k b f)) with (f_need f).
  change (f_values (fup_in_unit k b f)) with (in_unit k b (f_values f)). rewrite <- cells_map_some.
  destruct (f_need f); [|cbn [bind]; apply PB].
  pose proof (fill_on_demand_unit k b K spline SP f (match mode with FMAuto => FMPrevious | m => m end) fixed None) as H.
  destruct (fill_up_on_demand spline f _ fixed None) as [r|e], (fill_up_on_demand spline (fup_in_unit k b f) _ _ None) as [r'|e'];
    simpl in H; try contradiction; subst; cbn [bind]; auto.
  destruct r as [[l t]|]; cbn [option_map fst snd]; apply PB.
Qed.

Lemma frame_len : forall series e t sc idx rows, result_frame series e t sc idx = Ok rows -> length rows = length series.
Proof.
  intros series e t sc idx rows E. unfold result_frame in E. cbv zeta in E. bind_inv E. bind_inv E. bind_inv E. injection E as <-. apply mapi_length.
Qed.
Lemma dt_rows_len : forall series tv al ratio nt lm d, DT series tv al ratio nt lm = Ok d -> length (fst d) = length series.
Proof.
  intros series tv al ratio nt lm d E. unfold dynamic_threshold_detection in E. bind_inv E. bind_inv E. cbv zeta in E. bind_inv E. bind_inv E.
  injection E as <-. eapply frame_len; eauto.
Qed.
Lemma sr_rows_len : forall series th ratio nt lm d, SRD series th ratio nt lm = Ok d -> length (fst d) = length series.
Proof.
  intros series th ratio nt lm d E. unfold spectral_residual_detection in E. cbv zeta in E. bind_inv E. bind_inv E. bind_inv E. bind_inv E.
  injection E as <-. eapply frame_len; eauto.
Qed.
Lemma dt_merge_unit : forall series ratio nt lm period, 4 <= length series ->
  answers_alike (fun d d' => snd d' = snd d /\ Forall2 (moved k b nt) (fst d) (fst d'))
   (do tv <- trend_detection series (Some period);
    do rm <- DT series tv alpha ratio nt lm;
    do rows <- merge_with_delta stationary (fst rm) (fun s r => DT s tv alpha r nt lm) series ratio; Ok (rows, snd rm))
   (do tv <- trend_detection (in_unit k b series) (Some period);
    do rm <- DT (in_unit k b series) tv alpha ratio nt lm;
    do rows <- merge_with_delta stationary (fst rm) (fun s r => DT s tv alpha r nt lm) (in_unit k b series) ratio; Ok (rows, snd rm)).
Proof.
  intros series ratio nt lm period L4. eapply alike_bind; [apply TD|]. intros tv tv' _ _ ->.
  eapply alike_bind; [apply (dt_unit cst std ppf sqrt table sort SU alpha CP k b K trend_detection TD series tv (in_unit k b tv) ratio nt lm L4); apply unit_length|].
  intros d d' ED _ (E1 & _ & _ & M). specialize (M eq_refl).
  assert (LR : length (fst d) = length series) by (eapply dt_rows_len; eauto).
  eapply alike_bind.
  - apply (merge_unit k b K nt stationary SB S0 (fst d) (fst d') (fun s r => DT s tv alpha r nt lm) (fun s r => DT s (in_unit k b tv) alpha r nt lm)); auto; [lia|].
    intros s r LS. eapply alike_impl; [|apply (dt_unit cst std ppf sqrt table sort SU alpha CP k 0 K trend_detection T0)].
    + intros x y (_ & A & B & _). split; auto.
    + lia.
    + apply unit_length.
  - intros r r' _ _ MR. simpl. auto.
Qed.
Lemma sr_merge_unit : forall series th ratio nt lm, b = 0%Qc -> scale_blind k transform -> spread_in_unit k std -> 2 <= length series ->
  answers_alike (fun d d' => snd d' = snd d /\ Forall2 (moved k b nt) (fst d) (fst d'))
   (do rm <- SRD series th ratio nt lm;
    do rows <- merge_with_delta stationary (fst rm) (fun s r => SRD s th r nt lm) series ratio; Ok (rows, snd rm))
   (do rm <- SRD (in_unit k b series) th ratio nt lm;
    do rows <- merge_with_delta stationary (fst rm) (fun s r => SRD s th r nt lm) (in_unit k b series) ratio; Ok (rows, snd rm)).
Proof.
  intros series th ratio nt lm B0 TB SD L2. subst b.
  eapply alike_bind; [apply (sr_scale k K transform std trend_detection sort_desc TB SD T0)|]. intros d d' ED _ [E1 M].
  assert (LR : length (fst d) = length series) by (eapply sr_rows_len; eauto).
  eapply alike_bind.
  - apply (merge_unit k 0 K nt stationary SB S0 (fst d) (fst d') (fun s r => SRD s th r nt lm) (fun s r => SRD s th r nt lm)); auto.
    intros s r LS. eapply alike_impl; [|apply (sr_scale k K transform std trend_detection sort_desc TB SD T0)].
    intros x y (_ & F). split; auto. apply (moved_cols _ _ _ _ _ F).
  - intros r r' _ _ MR. simpl. auto.
Qed.

Lemma trigger_unit : forall g i series, series <> [] -> same_side k (mad series / cst)%Qc ->
  should_trigger_sr cst g i (in_unit k b series) = should_trigger_sr cst g i series.
Proof.
  intros g i series NE SS. unfold should_trigger_sr. cbv zeta. f_equal. f_equal. change (qmedian (map (fun x => Qcabs (x - qmedian ?l)) ?l)) with (mad l).
  rewrite mad_unit by auto. unfold same_side in SS.
  replace (k * mad series / cst - 0)%Qc with (k * (mad series / cst))%Qc by (unfold Qcdiv; ring).
  replace (mad series / cst - 0)%Qc with (mad series / cst)%Qc by ring. rewrite abs_pos_mult by auto.
  apply eq_true_iff_eq. rewrite !Qcltb_lt. tauto.
Qed.

Lemma select_unit : forall a period lm, a_alpha a = alpha ->
  (forall s p, analysed spline a s -> 1 < p -> (match period with Some q => p = q | None => True end) -> parts_in_unit k b decompose s p) -> (forall s, analysed spline a s -> 4 <= length s) ->
  (fine_grained a = true -> b = 0%Qc /\ scale_blind k transform /\ spread_in_unit k std /\ (forall s, analysed spline a s -> same_side k (mad s / cst)%Qc)) ->
  answers_alike (same_report k b (a_need_trend a)) (select a period lm) (select (args_in_unit k b a) period lm).
Proof.
  intros a period lm EA PD HL HF. unfold detect_with_model_selection.
  cbn [args_in_unit a_majority a_ratio a_fup a_mode a_fixed a_values a_alpha a_need_trend a_gran a_interval a_threshold].
  change (missing_ratio (fup_in_unit k b (a_fup a))) with (missing_ratio (a_fup a)). cbv zeta.
  rewrite period_unit, EA. clear EA.
  generalize (if lm && (Q2Qc (6 # 10) <? a_majority a)%Qc then refine_max_ratio (a_majority a) (a_ratio a) else a_ratio a). intros mr.
  apply (alike_bind _ _ _ _ eq); [apply alike_eq|]. intros p p' EP _ <-.
  destruct (_ && _); [simpl; auto|].
  apply (alike_bind _ _ _ _ (fun r r' : filled => r' = option_map (fun p => (cells_in_unit k b (fst p), snd p)) r /\
    (r = None \/ fill_up_on_demand spline (a_fup a) (a_mode a) (a_fixed a) (Some (Z.of_nat p)) = Ok r))).
  { destruct (_ || _); [|simpl; auto].
    pose proof (fill_on_demand_unit k b K spline SP (a_fup a) (a_mode a) (a_fixed a) (Some (Z.of_nat p))) as H.
    destruct (fill_up_on_demand spline (a_fup a) (a_mode a) (a_fixed a) (Some (Z.of_nat p))) as [r|e]; 
    destruct (fill_up_on_demand spline (fup_in_unit k b (a_fup a)) _ _ _) as [r'|e']; simpl in *; auto. }
  intros fl fl' _ _ [-> HFL].
  apply (alike_bind _ _ _ _ (fun s s' => s' = in_unit k b s /\ analysed spline a s)).
  { destruct fl as [[full tags]|]; cbn [option_map fst snd]; [|simpl; split; auto; left; auto]. rewrite all_some_unit.
    destruct (all_some full) as [s|] eqn:EA; simpl; auto. split; auto. right. destruct HFL as [X|X]; [discriminate|].
    exists p, tags. apply all_some_map in EA. subst full. auto. }
  intros s s' _ _ [-> HA]. specialize (HL s HA).
  apply (alike_bind _ _ _ _ (fun d d' => snd d' = snd d /\ Forall2 (moved k b (a_need_trend a)) (fst d) (fst d'))).
  - destruct (1 <? p) eqn:P1; [apply Nat.ltb_lt in P1; apply seasonal_unit; auto; apply PD; auto; destruct period; auto; congruence|].
    assert (ET : should_trigger_sr cst (a_gran a) (match a_interval a with Some i => i | None => 1 end) (in_unit k b s) =
                 should_trigger_sr cst (a_gran a) (match a_interval a with Some i => i | None => 1 end) s /\
                 (should_trigger_sr cst (a_gran a) (match a_interval a with Some i => i | None => 1 end) s = true -> fine_grained a = true)).
    { split.
      - destruct (fine_grained a) eqn:EF; [apply trigger_unit; [destruct s; [simpl in HL; lia|discriminate]|apply HF; auto]|].
        unfold should_trigger_sr, fine_grained in *. cbv zeta. destruct (a_gran a); auto; rewrite EF; auto.
      - unfold should_trigger_sr, fine_grained. cbv zeta. intros X. apply andb_true_iff in X. destruct X as [X _]. destruct (a_gran a); auto. }
    destruct ET as [-> ET]. destruct (should_trigger_sr _ _ _ s).
    + destruct (HF (ET eq_refl)) as (B0 & TB & SD & _). apply sr_merge_unit; auto. lia.
    + apply dt_merge_unit; auto.
  - intros [rows m] [rows' m'] _ _ [E1 M]. cbn [fst snd] in *. subst m'. cbn [answers_alike same_report].
    destruct fl as [[full tags]|]; cbn [option_map fst snd]; repeat split; auto. apply drop_moved; auto.
Qed.
End Selection.
