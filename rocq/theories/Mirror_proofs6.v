(** Turning a series upside down: the choice of the detector and the refined flags. *)
From Coq Require Import String List Arith ZArith QArith Qcanon Qround Lia Lqa Bool Sorted Permutation.
From Verif Require Import Base Num Sorting Kernel_model Kernel_spec FillUp_model Helpers_model Helpers_spec Margins_model SR_model SR_proofs3 Detect_model Detect_spec
  Detect_proofs Detect_proofs2 Detect_proofs3 Detect_proofs4 Period_proofs3 Const_spec Const_proofs Units_spec Units_proofs Units_proofs2 Units_proofs3 Units_proofs4 Units_proofs5 Units_proofs7
  Mirror_spec Mirror_proofs Mirror_proofs2 Mirror_proofs3 Mirror_proofs4 Mirror_proofs5.
Import ListNotations.
Open Scope nat_scope.

Lemma refined_mir : forall nt r r', turned nt r r' -> exchanged nt (refine_row_flags r) (refine_row_flags r').
Proof.
  intros nt r r' M. assert (M0 := M). destruct M as (V & E & T & C & A & N). unfold refine_row_flags. rewrite V, E.
  replace (- r_value r - - r_expected r)%Qc with (r_expected r - r_value r)%Qc by ring. rewrite (Qcabs_sub_sym (r_expected r)).
  destruct (Qcabs (r_value r - r_expected r) <? EPS)%Qc eqn:B.
  - unfold exchanged, turned. cbn [r_value r_expected r_trend r_score r_anomaly r_neg r_pos]. repeat split; auto.
  - split; auto. apply N. intros X. rewrite X in B. replace (r_expected r - r_expected r)%Qc with 0%Qc in B by ring. vm_compute in B. discriminate.
Qed.
Lemma drop_turned : forall nt tags rows rows', Forall2 (turned nt) rows rows' -> Forall2 (turned nt) (drop_filled tags rows) (drop_filled tags rows').
Proof.
  intros nt tags rows rows' H. revert tags. unfold drop_filled. induction H as [|r r' l l' M F IH]; intros [|t tags]; simpl; auto.
  destruct (negb t); simpl; auto.
Qed.
Lemma trigger_mir : forall cst g i series, series <> [] -> should_trigger_sr cst g i (mir 0 series) = should_trigger_sr cst g i series.
Proof.
  intros cst g i series NE. unfold should_trigger_sr. cbv zeta.
  change (qmedian (map (fun x => Qcabs (x - qmedian series)) series)) with (mad series).
  change (qmedian (map (fun x => Qcabs (x - qmedian (mir 0 series))) (mir 0 series))) with (mad (mir 0 series)). rewrite mad_mir by auto. auto.
Qed.

Section Selection.
Variable cst : Qc.
Variable std : list Qc -> Qc.
Variable ppf : Qc -> Z -> Qc.
Variable sqrt : Qc -> Qc.
Variable table : list Qc.
Variable sort : list (nat * Qc) -> list (nat * Qc).
Variable sort_desc : list (nat * Qc) -> list (nat * Qc).
Variable trend_detection : list Qc -> option nat -> res (list Qc).
Variable decompose : bool -> list Qc -> nat -> res (list Qc * list Qc).
Variable transform : list Qc -> list Qc.
Variable stationary : list Qc -> bool.
Variable spline : list nat -> list Qc -> nat -> Qc.
Variable period_detection : list (option Qc) -> res nat.
Hypothesis SU : sorts_up sort.
Hypothesis EV : even_spread std.
Hypothesis TD : trend_in_unit minus 0 trend_detection.
Hypothesis SB : unit_blind minus 0 stationary.
Hypothesis SP : spline_in_unit minus 0 spline.
Hypothesis TB : scale_blind minus transform.
Hypothesis PB : forall l, period_detection (cells_in_unit minus 0 l) = period_detection l.
Notation select := (detect_with_model_selection cst std ppf sqrt table sort sort_desc trend_detection decompose transform stationary spline period_detection).
Notation detect := (detect_model cst std ppf sqrt table sort sort_desc trend_detection decompose transform stationary spline period_detection).
Notation DT := (dynamic_threshold_detection cst std ppf sqrt table sort trend_detection).
Notation SRD := (spectral_residual_detection transform std trend_detection sort_desc).

Lemma period_mir : forall f mode fixed,
  period_detection_with_filled_values spline period_detection (fup_in_unit minus 0 f) mode (option_map (fun x => minus * x + 0)%Qc fixed) =
  period_detection_with_filled_values spline period_detection f mode fixed.
Proof.
  intros f mode fixed. unfold period_detection_with_filled_values. change (f_need (fup_in_unit minus 0 f)) with (f_need f).
  change (f_values (fup_in_unit minus 0 f)) with (in_unit minus 0 (f_values f)). rewrite <- cells_map_some.
  destruct (f_need f); [|cbn [bind]; apply PB].
  pose proof (fill_on_demand_mir spline SP f (match mode with FMAuto => FMPrevious | m => m end) fixed None) as H.
  destruct (fill_up_on_demand spline f _ fixed None) as [r|e], (fill_up_on_demand spline (fup_in_unit minus 0 f) _ _ None) as [r'|e'];
    simpl in H; try contradiction; subst; cbn [bind]; auto.
  destruct r as [[l t]|]; cbn [option_map fst snd]; apply PB.
Qed.
Lemma dt_merge_mir : forall series al ratio nt lm period, 4 <= length series -> (forall x, looked_at stationary series x -> even_handed cst sort x) ->
  answers_alike (fun d d' => snd d' = snd d /\ Forall2 (turned nt) (fst d) (fst d'))
   (do tv <- trend_detection series (Some period);
    do rm <- DT series tv al ratio nt lm;
    do rows <- merge_with_delta stationary (fst rm) (fun s r => DT s tv al r nt lm) series ratio; Ok (rows, snd rm))
   (do tv <- trend_detection (mir 0 series) (Some period);
    do rm <- DT (mir 0 series) tv al ratio nt lm;
    do rows <- merge_with_delta stationary (fst rm) (fun s r => DT s tv al r nt lm) (mir 0 series) ratio; Ok (rows, snd rm)).
Proof.
  intros series al ratio nt lm period L4 EH. eapply alike_bind; [apply TD|]. intros tv tv' _ _ ->.
  eapply alike_bind; [apply (dt_detection_mir cst std ppf sqrt table sort SU EV trend_detection TD); auto; apply EH; left; auto|].
  intros d d' ED _ (E1 & M). assert (LR : length (fst d) = length series) by (eapply dt_rows_len; eauto).
  eapply alike_bind.
  - apply (merge_mir nt stationary (fst d) (fst d') (fun s r => DT s tv al r nt lm) (fun s r => DT s (mir 0 tv) al r nt lm)); auto; [lia|].
    intros s r LA LS. eapply alike_impl; [|apply (dt_detection_mir cst std ppf sqrt table sort SU EV trend_detection TD); auto; lia].
    intros x y (_ & F). auto.
  - intros r r' _ _ MR. simpl. auto.
Qed.
Lemma sr_merge_mir : forall series th ratio nt lm, 2 <= length series ->
  answers_alike (fun d d' => snd d' = snd d /\ Forall2 (turned nt) (fst d) (fst d'))
   (do rm <- SRD series th ratio nt lm;
    do rows <- merge_with_delta stationary (fst rm) (fun s r => SRD s th r nt lm) series ratio; Ok (rows, snd rm))
   (do rm <- SRD (mir 0 series) th ratio nt lm;
    do rows <- merge_with_delta stationary (fst rm) (fun s r => SRD s th r nt lm) (mir 0 series) ratio; Ok (rows, snd rm)).
Proof.
  intros series th ratio nt lm L2.
  eapply alike_bind; [apply (sr_mir transform std trend_detection sort_desc TB EV TD)|]. intros d d' ED _ [E1 M].
  assert (LR : length (fst d) = length series) by (eapply sr_rows_len; eauto).
  eapply alike_bind.
  - apply (merge_mir nt stationary (fst d) (fst d') (fun s r => SRD s th r nt lm) (fun s r => SRD s th r nt lm)); auto.
    intros s r _ LS. eapply alike_impl; [|apply (sr_mir transform std trend_detection sort_desc TB EV TD)]. intros x y (_ & F). auto.
  - intros r r' _ _ MR. simpl. auto.
Qed.

Lemma select_mir : forall a period lm,
  (forall s p, analysed spline a s -> 1 < p -> (match period with Some q => p = q | None => True end) -> parts_in_unit minus 0 decompose s p) ->
  (forall s, analysed spline a s -> 4 <= length s /\ evenly_read cst sort stationary decompose lm s) ->
  answers_alike (turned_report (a_need_trend a)) (select a period lm) (select (args_in_unit minus 0 a) period lm).
Proof.
  intros a period lm PD HL. unfold detect_with_model_selection.
  cbn [args_in_unit a_majority a_ratio a_fup a_mode a_fixed a_values a_alpha a_need_trend a_gran a_interval a_threshold].
  change (missing_ratio (fup_in_unit minus 0 (a_fup a))) with (missing_ratio (a_fup a)). cbv zeta.
  rewrite period_mir.
  generalize (if lm && (Q2Qc (6 # 10) <? a_majority a)%Qc then refine_max_ratio (a_majority a) (a_ratio a) else a_ratio a). intros mr.
  apply (alike_bind _ _ _ _ eq); [apply alike_eq|]. intros p p' EP _ <-.
  destruct (_ && _); [simpl; auto|].
  apply (alike_bind _ _ _ _ (fun r r' : filled => r' = option_map (fun p => (cells_in_unit minus 0 (fst p), snd p)) r /\
    (r = None \/ fill_up_on_demand spline (a_fup a) (a_mode a) (a_fixed a) (Some (Z.of_nat p)) = Ok r))).
  { destruct (_ || _); [|simpl; auto].
    pose proof (fill_on_demand_mir spline SP (a_fup a) (a_mode a) (a_fixed a) (Some (Z.of_nat p))) as H.
    destruct (fill_up_on_demand spline (a_fup a) (a_mode a) (a_fixed a) (Some (Z.of_nat p))) as [r|e]; 
    destruct (fill_up_on_demand spline (fup_in_unit minus 0 (a_fup a)) _ _ _) as [r'|e']; simpl in *; auto. }
  intros fl fl' _ _ [-> HFL].
  apply (alike_bind _ _ _ _ (fun s s' => s' = in_unit minus 0 s /\ analysed spline a s)).
  { destruct fl as [[full tags]|]; cbn [option_map fst snd]; [|simpl; split; auto; left; auto]. rewrite all_some_unit.
    destruct (all_some full) as [s|] eqn:EA; simpl; auto. split; auto. right. destruct HFL as [X|X]; [discriminate|].
    exists p, tags. apply all_some_map in EA. subst full. auto. }
  intros s s' _ _ [-> HA]. destruct (HL s HA) as [L4 [EH1 EH2]].
  apply (alike_bind _ _ _ _ (fun d d' => snd d' = snd d /\ Forall2 (turned (a_need_trend a)) (fst d) (fst d'))).
  - destruct (1 <? p) eqn:P1.
    + apply Nat.ltb_lt in P1. apply seasonal_mir; auto.
      * apply PD; auto. destruct period; auto. congruence.
      * intros t c E LT LC. apply (EH2 p t c); auto.
    + rewrite trigger_mir by (destruct s; [simpl in L4; lia|discriminate]). destruct (should_trigger_sr _ _ _ s).
      * apply sr_merge_mir. lia.
      * apply dt_merge_mir; auto.
  - intros [rows m] [rows' m'] _ _ [E1 M]. cbn [fst snd] in *. subst m'. cbn [answers_alike turned_report].
    destruct fl as [[full tags]|]; cbn [option_map fst snd]; repeat split; auto. apply drop_turned; auto.
Qed.

Lemma detect_mir : forall a d period lm,
  (forall s p, analysed spline a s -> 1 < p -> (match period with Some q => p = q | None => True end) -> parts_in_unit minus 0 decompose s p) ->
  (forall s, analysed spline a s -> 4 <= length s /\ evenly_read cst sort stationary decompose lm s) ->
  answers_alike (exchanged_report (a_need_trend a)) (detect a d period lm) (detect (args_in_unit minus 0 a) d period lm).
Proof.
  intros a d period lm PD HL. unfold detect_model.
  apply (alike_bind _ _ _ _ (turned_report (a_need_trend a))).
  - change (a_majority (args_in_unit minus 0 a)) with (a_majority a). destruct (should_trigger_model_selection d (a_majority a)).
    + apply select_mir; auto.
    + unfold detect_without_model_selection. destruct (d_params d) as [pp|]; [|simpl; auto].
      assert (G : forall per : option nat, answers_alike (turned_report (a_need_trend a))
        (match per with None => Err TypeErr | Some p =>
           if (1 <? p) && (Q2Qc (1 # 2) <? missing_ratio (a_fup a))%Qc then Err (RequestErr "InvalidSeries") else
              do _ <- (if (1 <? p) || match a_mode a with FMFixed => true | _ => false end
                       then fill_up_on_demand spline (a_fup a) (a_mode a) (a_fixed a) (Some (Z.of_nat p))
                       else Ok None);
              Err TypeErr end)
        (match per with None => Err TypeErr | Some p =>
           if (1 <? p) && (Q2Qc (1 # 2) <? missing_ratio (a_fup (args_in_unit minus 0 a)))%Qc then Err (RequestErr "InvalidSeries") else
              do _ <- (if (1 <? p) || match a_mode (args_in_unit minus 0 a) with FMFixed => true | _ => false end
                       then fill_up_on_demand spline (a_fup (args_in_unit minus 0 a)) (a_mode (args_in_unit minus 0 a)) (a_fixed (args_in_unit minus 0 a)) (Some (Z.of_nat p))
                       else Ok None);
              Err TypeErr end)).
      { intros [p|]; [|simpl; auto]. change (missing_ratio (a_fup (args_in_unit minus 0 a))) with (missing_ratio (a_fup a)).
        destruct (_ && _); [simpl; auto|]. change (a_mode (args_in_unit minus 0 a)) with (a_mode a). destruct (_ || _); [|simpl; auto].
        eapply alike_bind; [apply (fill_on_demand_mir spline SP)|]. intros; simpl; auto. }
      destruct period as [p0|], pp as [[p1|]|]; first [apply (G (Some p1))|apply (G (Some p0))|apply (G None)|simpl; auto].
  - intros [[[rows p] m] fl] [[[rows' p'] m'] fl'] _ _ (-> & -> & -> & F). simpl. repeat split; auto.
    apply (Forall2_map_both _ _ _ _ _ _ _ _ _ _ (fun x y => refined_mir _ x y)). auto.
Qed.
End Selection.
