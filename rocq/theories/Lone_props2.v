(** Property C116: a request with a lone spike on a level series. *)
From Coq Require Import String List Arith ZArith QArith Qcanon Qround Lia Lqa Bool Sorted Permutation.
From Verif Require Import Base Num Sorting Kernel_model Kernel_spec Kernel_proofs FillUp_model FillUp_spec FillUp_proofs FillUp_proofs6 FillUp_props Helpers_model Helpers_props
  Margins_model Margins_proofs SR_model Detect_model Detect_spec Detect_proofs Detect_proofs2 Detect_proofs4 Detect_proofs5 Detect_proofs6 Detect_proofs7 Detect_props
  Dates_model Request_model Request_spec Request_proofs Request_proofs2 Request_proofs3 Request_proofs4 Request_proofs6 Request_proofs8 Request_props
  Period_model Period_spec Period_props Trend_model Trend_spec Trend_props Stl_model Stl_spec Stl_props Units_props Pipe_model Pipe_spec Pipe_proofs Pipe_proofs2 Pipe_proofs3 Pipe_props
  Const_spec Const_proofs Const_proofs2 Const_props Spike_spec Spike_proofs Lone_spec Lone_proofs Lone_props Table_model Table_proofs Table_props Lone_proofs2 Lone_spec2.
Import ListNotations.
Open Scope string_scope.
Open Scope nat_scope.

(** C116. The search for a period, at any granularity and interval and with any
    parameters, finds none in a level series with a lone spike. *)
Theorem C116_no_period : forall std r32 rnd acf peaks fit_trend n k b c trend thresh min_ev correlogram g interval skip,
  fair_std std -> (forall l, l <> [] -> (forall x, In x l -> x = 0%Qc \/ x = 1%Qc) -> close_std std l) ->
  12 <= n -> k < n -> c <> 0%Qc ->
  (forall kind y, trend = Some kind -> (y = 0 \/ y = 1)%Qc -> exists d, fit_trend kind (repeat y n) = Ok (repeat d n)) ->
  period_detection std r32 rnd acf peaks fit_trend (spiked n k b c) trend thresh min_ev correlogram g interval skip = Ok (0, 1).
Proof.
  intros std r32 rnd acf peaks fit_trend n k b c tt th mv cg g i skip FA CS N K C HT. apply lone_detection; auto.
  intros kind y E Y. destruct (HT kind y E Y) as (d & ED). exists (repeat d n), d. split; auto. split; [apply repeat_length|]. intros x I. apply repeat_spec in I. auto.
Qed.
Print Assumptions C116_no_period.

Section Whole.
Variable L : libs.
Hypothesis OK : libs_ok L.
Hypothesis ST : steady L.
Hypothesis CS : forall l, l <> [] -> (forall x, In x l -> x = 0%Qc \/ x = 1%Qc) -> close_std (l_std L) l.

Lemma whole_period_lone : forall g i n k b c, 12 <= n -> k < n -> c <> 0%Qc -> whole_period L g i (map Some (spiked n k b c)) = Ok 0.
Proof.
  intros g i n k b c N K C. unfold whole_period, detected_period. rewrite all_some_of_map. unfold default_detection.
  rewrite (lone_detection (l_std L) (l_r32 L) (l_rnd L) (l_acf L) (l_peaks L) (whole_fit L) (ok_fair L OK) CS n k b c); auto.
  intros kind y EK Y. assert (kind = "spline") by congruence. subst kind. set (s := repeat y n).
  assert (H : all_eq y s) by (intros x J; apply repeat_spec in J; auto).
  assert (LS : length s = n) by apply repeat_length.
  assert (FR : float_room (l_top L) s).
  { apply (modest_room L OK). intros x J. rewrite (H x J). destruct Y as [-> | ->]; vm_compute; discriminate. }
  destruct (whole_fit_room L OK s ltac:(lia) FR) as (t & E & LT).
  exists t, y. split; auto. split; [lia|]. unfold whole_fit in E. change (kind_of_name "spline") with KSpline in E.
  apply (fit_spline_const _ _ _ _ _ _ _ (steady_aglet L ST) (steady_spline L ST) y _ _ _ H E).
Qed.
Lemma period_none_lone : forall a lm n k b c, a_values a = spiked n k b c -> f_values (a_fup a) = a_values a -> f_need (a_fup a) = false ->
  12 <= n -> k < n -> c <> 0%Qc ->
  whole_detect L a (mkDet None None) None lm = whole_detect L a (mkDet None None) (Some 0) lm.
Proof.
  intros a lm n k b c EV FV EN N K C. unfold whole_detect, detect_model. cbn [should_trigger_model_selection d_name]. unfold detect_with_model_selection. cbv zeta.
  unfold period_detection_with_filled_values. rewrite EN, bind_ok, FV, EV, whole_period_lone by auto. destruct (_ <? missing_ratio (a_fup a))%Qc; reflexivity.
Qed.
End Whole.

(** C116. The detector, with the real table, the default level and no period
    given: it answers, with no period and the dynamic threshold model; the spike
    is reported, expected at the level; if the series counts as stationary,
    nothing else is. *)
Theorem C116_detector : forall L ix a lm n k b c, libs_ok L -> steady L -> l_table L = critical_table ->
  (forall l, l <> [] -> (forall x, In x l -> x = 0%Qc \/ x = 1%Qc) -> close_std (l_std L) l) ->
  default_level (a_alpha a) -> a_values a = spiked n k b c ->
  make_fup (Some ix) (map Some (a_values a)) default_maxlen = Ok (a_fup a) -> f_need (a_fup a) = false ->
  12 <= length ix -> (Z.of_nat n <= 18000)%Z -> k < n -> (EPS <= Qcabs c)%Qc -> (Qcabs b <= qz (10 ^ 34))%Qc -> (Qcabs (b + c) <= qz (10 ^ 34))%Qc ->
  (0 <= a_ratio a <= Q2Qc (49 # 100))%Qc ->
  exists rows f, whole_detect L a (mkDet None None) None lm = Ok (rows, 0, DynamicThreshold, f) /\
    length rows = n /\ (exists r, nth_error rows k = Some r /\ spike_row b c r) /\
    (l_stationary L (spiked n k b c) = true -> only_spike n k b c rows).
Proof.
  intros L ix a lm n k b c OK ST TB CS DL EV HF EN N N2 K C B1 B2 HR.
  assert (C0 : c <> 0%Qc) by (intros ->; vm_compute in C; apply C; reflexivity).
  assert (NE : ix <> []) by (intros ->; cbn in N; lia).
  destruct (make_fup_ok_inv _ _ _ _ NE HF) as ([W|(LI & _)] & _ & EV2 & _); [congruence|].
  assert (EF : f_values (a_fup a) = a_values a).
  { clear - EV2. revert EV2. generalize (f_values (a_fup a)). induction (a_values a); intros [|y l'] E; simpl in E; try discriminate; auto. inversion E. f_equal; auto. }
  assert (LX : length ix = n) by (rewrite LI, map_length, EV; apply spiked_length). rewrite LX in N.
  rewrite (period_none_lone L OK ST CS a lm n k b c EV EF EN N K C0).
  destruct (C91_detector_answers L ix a (Some 0) lm OK HF) as (rows & p & m & f & E & _ & _); auto; [lia|congruence|left; lia| |].
  { right. split; [|intros q X; congruence]. intros x I. rewrite EV in I. unfold spiked in I. apply in_map_iff in I. destruct I as (t & <- & _). destruct (t =? k); auto. }
  assert (P0 : p = 0).
  { pose proof E as E'. unfold whole_detect in E'. apply detect_inv in E'. destruct E' as (rows0 & E' & _). unfold detect_with_model_selection in E'. cbv zeta in E'.
    rewrite bind_ok in E'. cbn [Nat.ltb Nat.leb andb] in E'. bind_inv E'. bind_inv E'. bind_inv E'. congruence. }
  subst p. exists rows, f.
  destruct (C115_lone_spike L a (mkDet None None) (Some 0) lm n k b c rows 0 m f OK ST TB CS DL EV EN N N2 K C E ltac:(lia)) as (-> & A1 & A2 & A3). auto.
Qed.
Print Assumptions C116_detector.

(** Margins of the rows, boundary version V1. *)
Lemma lone_margins : forall rows n k b c z l, 0 < n -> k < n -> c <> 0%Qc -> (0 <= z <= 100)%Z -> only_spike n k b c rows -> get_margins_v1 false rows (qz z) = Ok l ->
  length l = n /\ forall i o, nth_error l i = Some o -> lone_outcome (shown z b c) b c (i = k) o.
Proof.
  intros rows n k b c z l N K C Z [LR OS] E. unfold get_margins_v1, get_anomaly_detector_margins in E. set (ms := map _ rows) in E.
  assert (NE : rows <> []) by (intros ->; cbn in LR; lia).
  assert (LM : length ms = length rows) by (unfold ms; apply map_length).
  set (M := (Qcabs b * (Q2Qc 100 - qz z) / Q2Qc 100)%Qc).
  assert (XB : forall r, In r rows -> r_expected r = b /\ (r_value r = b \/ r_value r = (b + c)%Qc)).
  { intros r I. apply In_nth_error in I. destruct I as [i I]. specialize (OS i r I). destruct (i =? k); destruct OS as (V & X & _); auto. }
  assert (XM : forall i m, nth_error ms i = Some m -> m = M).
  { intros i m H. unfold ms in H. rewrite nth_error_map in H. destruct (nth_error rows i) as [r|] eqn:Er; [|discriminate]. cbn in H.
    destruct (XB r (nth_error_In _ _ Er)) as [-> _] in H. unfold M. congruence. }
  destruct (refine_margins_rows rows ms LM NE (qz z)) as (outs & E' & LO & HO). assert (outs = l) by congruence. subst outs. split; [lia|].
  intros i o Ho. assert (I : i < n) by (apply nth_error_lt in Ho; lia).
  assert (GR : exists r, nth_error rows i = Some r) by (destruct (nth_error rows i) eqn:X; eauto; apply nth_error_None in X; lia). destruct GR as [r Hr].
  assert (GM : nth_error ms i = Some M). { destruct (nth_error ms i) as [m|] eqn:X; [rewrite (XM i m X); auto|]. apply nth_error_None in X. lia. }
  rewrite (HO i r M Hr GM) in Ho.
  assert (UB : qmin_list (ubs rows ms) = (b + M)%Qc).
  { assert (U : ubs rows ms <> []) by (intro X; apply (f_equal (@length Qc)) in X; rewrite ubs_length in X; cbn in X; lia).
    pose proof (qmin_list_in _ U) as J. apply In_nth_error in J. destruct J as [j J].
    assert (JL : j < n) by (apply nth_error_lt in J; rewrite ubs_length in J; lia).
    assert (exists q, nth_error rows j = Some q) as [q Hq] by (destruct (nth_error rows j) eqn:X; eauto; apply nth_error_None in X; lia).
    assert (exists m, nth_error ms j = Some m) as [m Hm] by (destruct (nth_error ms j) eqn:X; eauto; apply nth_error_None in X; lia).
    rewrite (ubs_nth rows ms j q m Hq Hm) in J. destruct (XB q (nth_error_In _ _ Hq)) as [X _]. rewrite X, (XM j m Hm) in J. congruence. }
  assert (LB : qmax_list (lbs rows ms) = (b - M)%Qc).
  { assert (U : lbs rows ms <> []) by (intro X; apply (f_equal (@length Qc)) in X; rewrite lbs_length in X; cbn in X; lia).
    pose proof (qmax_list_in _ U) as J. apply In_nth_error in J. destruct J as [j J].
    assert (JL : j < n) by (apply nth_error_lt in J; rewrite lbs_length in J; lia).
    assert (exists q, nth_error rows j = Some q) as [q Hq] by (destruct (nth_error rows j) eqn:X; eauto; apply nth_error_None in X; lia).
    assert (exists m, nth_error ms j = Some m) as [m Hm] by (destruct (nth_error ms j) eqn:X; eauto; apply nth_error_None in X; lia).
    rewrite (lbs_nth rows ms j q m Hq Hm) in J. destruct (XB q (nth_error_In _ _ Hq)) as [X _]. rewrite X, (XM j m Hm) in J. congruence. }
  assert (exists rk, nth_error rows k = Some rk) as [rk Hk] by (destruct (nth_error rows k) eqn:X; eauto; apply nth_error_None in X; lia).
  pose proof (OS k rk Hk) as SK. rewrite Nat.eqb_refl in SK. destruct SK as (VK & XK & _).
  assert (TP : (b + c <= top rows)%Qc /\ (b <= top rows)%Qc).
  { split; unfold top; [eapply Qcle_trans; [|apply Qcmax_l]; rewrite <- VK|eapply Qcle_trans; [|apply Qcmax_r]; rewrite <- XK];
      apply qmax_list_ge; apply in_map; eapply nth_error_In; eauto. }
  assert (BT : (bottom rows <= b + c)%Qc /\ (bottom rows <= b)%Qc).
  { split; unfold bottom; [eapply Qcle_trans; [apply Qcmin_l|]; rewrite <- VK|eapply Qcle_trans; [apply Qcmin_r|]; rewrite <- XK];
      apply qmin_list_le; apply in_map; eapply nth_error_In; eauto. }
  rewrite UB, LB in Ho. assert (R := OS i r Hr). destruct (XB r (nth_error_In _ _ Hr)) as [XR _]. rewrite XR in Ho.
  set (tp := top rows) in *. set (bt := bottom rows) in *. clearbody tp bt.
  assert (M0 : (0 <= M)%Qc).
  { unfold M, Qcdiv. apply Qcmul_nonneg; [apply Qcmul_nonneg; [apply Qcabs_nonneg|]|vm_compute; discriminate]. 
    change (Q2Qc 100) with (qz 100). rewrite <- qz_sub. rewrite <- qz_0. apply (proj1 (qz_le _ _)). lia. }
  assert (SH : shown z b c <-> z = 100%Z \/ (M < Qcabs c)%Qc).
  { unfold shown. assert (Q : (Q2Qc 100 * M = Qcabs b * (Q2Qc 100 - qz z))%Qc) by (unfold M; field; intro X; discriminate X).
    rewrite <- Q. split; (intros [H|H]; [left; auto|right; revert H; clearbody M; clear; intros; qlra]). }
  assert (Z1 : (qz z =? Q2Qc 100)%Qc = true <-> z = 100%Z).
  { rewrite Qceqb_eq. split; [|intros ->; reflexivity]. change (Q2Qc 100) with (qz 100). intro X.
    apply Z.le_antisymm; apply (proj2 (qz_le _ _)); rewrite X; apply Qcle_refl. }
  clearbody M. clear - Ho R SH Z1 M0 TP BT C. unfold lone_outcome. destruct (i =? k) eqn:IK.
  - apply Nat.eqb_eq in IK. subst i. destruct R as (V & X & A & RP & RN). assert (o = refine_row (qz z) (np_clip (b + M) tp (b + M)) (np_clip bt (b - M) (b - M)) r) by congruence. subst o. clear Ho.
    assert (AR : ((r_value r <=? np_clip (b + M) tp (b + M))%Qc && (np_clip bt (b - M) (b - M) <=? r_value r)%Qc) = (Qcabs c <=? M)%Qc).
    { assert (N1 : np_clip (b + M) tp (b + M) = Qcmin (b + M) tp).
      { unfold np_clip. f_equal. apply Qcle_antisym; [apply Qcmax_lub; apply Qcle_refl|apply Qcmax_l]. }
      assert (N2 : np_clip bt (b - M) (b - M) = (b - M)%Qc).
      { unfold np_clip. apply Qcle_antisym; [apply Qcmin_r|apply Qcmin_glb; [apply Qcmax_l|apply Qcle_refl]]. }
      rewrite V, N1, N2. destruct TP as [T1 T2]. apply eq_true_iff_eq. rewrite andb_true_iff, !Qcleb_le. split.
      - intros [H1 H2]. pose proof (Qcmin_l (b + M)%Qc tp) as H3. unfold Qcabs, Qcmax. destruct (_ <=? _)%Qc; qlra.
      - intros H1. assert (H2 : (c <= M)%Qc /\ (- c <= M)%Qc) by (unfold Qcabs, Qcmax in H1; destruct (_ <=? _)%Qc eqn:W; qb_hyps; split; qlra).
        destruct H2. split; [apply Qcmin_glb; qlra|qlra]. }
    unfold refine_row. cbn [o_expected o_anomaly o_pos o_neg]. rewrite A, AR. cbn [andb].
    split; auto. rewrite SH. destruct (qz z =? Q2Qc 100)%Qc eqn:EZ; cbn [negb andb].
    + assert (z = 100%Z) by (apply Z1; auto). split; [split; auto|]. split; [rewrite RP|rewrite RN]; tauto.
    + assert (z <> 100%Z) by (intro Y; apply Z1 in Y; congruence). destruct (Qcabs c <=? M)%Qc eqn:EM.
      * apply Qcleb_le in EM. split; [|split; split; try discriminate; intros [Y _]; discriminate].
        split; [discriminate|]. intros [_ [Y|Y]]; [congruence|]. exfalso. apply (Qclt_not_le _ _ Y EM).
      * apply Qcleb_gt in EM. split; [split; auto|]. split; [rewrite RP|rewrite RN]; tauto.
  - apply Nat.eqb_neq in IK. destruct R as (V & X & A & RN & RP).
    assert (o = refine_row (qz z) (np_clip (b + M) tp (b + M)) (np_clip bt (b - M) (b - M)) r) by congruence. subst o. clear Ho.
    unfold refine_row. cbn [o_expected o_anomaly o_pos o_neg]. rewrite A, RN, RP. cbn [andb negb]. rewrite andb_false_r.
    split; auto. split; [split; [discriminate|intros [Y _]; congruence]|]. split; (split; [discriminate|intros [Y _]; discriminate]).
Qed.
Lemma last_opt_nth : forall A (l : list A) x, last_opt l = Ok x -> nth_error l (length l - 1) = Some x.
Proof.
  intros A l x H. unfold last_opt in H. destruct (rev l) as [|y t] eqn:E; [discriminate|]. assert (y = x) by congruence. subst y.
  apply (f_equal (@rev A)) in E. rewrite rev_involutive in E. rewrite E. cbn [rev]. rewrite app_length. cbn [length]. rewrite nth_error_app2 by lia.
  replace (_ + 1 - 1 - _) with 0 by lia. reflexivity.
Qed.

Lemma sensitivity_in_range : forall d z, decides parameter_rules d None -> reads_or "sensitivity" d 99%Z is_int z -> (0 <= z <= 100)%Z.
Proof.
  intros d z D H. unfold parameter_rules in D. do 6 (apply decides_cons_none in D; destruct D as [_ D]). apply decides_cons_none in D. destruct D as [D _]. unfold bad in D.
  destruct H as [[_ ->]|(v & G & I)]; [lia|].
  destruct (Z_le_gt_dec 0 z) as [A|A]; [destruct (Z_le_gt_dec z 100) as [B|B]; [lia|]|];
    exfalso; apply D; exists v; split; auto; intros (y & J & Y); assert (y = z) by (inversion I; subst; inversion J; auto); lia.
Qed.

Section Request.
Context {T : Type}.
Variable to_datetime : list T -> option (list stamp).
Hypothesis to_datetime_length : forall l st, to_datetime l = Some st -> length st = length l.
Variable majority : list Qc -> Qc.
Variable beyond : list (point T) -> settings -> res (reply T).
Variable L : libs.
Notation PRED := (predict T to_datetime majority (whole_detect L) beyond).

(** C116. Twelve to 8640 numbers without granularity, all equal to [b] but one,
    which is [b + c], with no period given, the default significance level and
    boundary version V1: the request is answered, with no period; every point is
    expected at [b]; the spike is an anomaly, up or down as it points, exactly if
    it deviates by more than 100 - z percent of the level (z the sensitivity) or
    z is 100; no other point is an anomaly. *)
Theorem C116_request : forall o rows d mode k b c, libs_ok L -> steady L -> l_table L = critical_table ->
  (forall l, l <> [] -> (forall x, In x l -> x = 0%Qc \/ x = 1%Qc) -> close_std (l_std L) l) ->
  l_stationary L (spiked (length rows) k b c) = true ->
  12 <= length rows -> (Z.of_nat (length rows) <= 8640)%Z -> k < length rows ->
  (forall i x, nth_error rows i = Some x -> w_value x = Num (Request_model.Fin (if (i =? k)%nat then b + c else b)%Qc)) ->
  (EPS <= Qcabs c)%Qc -> (Qcabs b <= qz (10 ^ 34))%Qc -> (Qcabs (b + c) <= qz (10 ^ 34))%Qc ->
  decides parameter_rules d None -> get "granularity" d = None \/ Request_spec.given "granularity" d (VStr "none") ->
  get "period" d = None -> (forall v q, Request_spec.given "alpha" d v -> is_number v q -> default_level q) ->
  get "boundaryVersion" d = None \/ Request_spec.given "boundaryVersion" d VNone \/ Request_spec.given "boundaryVersion" d (VStr "V1") ->
  (forall dd, ~ Request_spec.given "detector" d (VDict dd)) -> o__error o = None -> mode_for o d = Some mode ->
  exists y z, reads_or "sensitivity" d 99%Z is_int z /\ result (PRED o (DFrame rows) (Some d)) = Ok y /\ lone_reply (length rows) k (shown z b c) b c y.
Proof.
  intros o rows d mode k b c OK ST TB CS SY L12 LM K HV C B1 B2 H HG HP HA HB ND HE HM.
  assert (C0 : c <> 0%Qc) by (intros ->; vm_compute in C; apply C; reflexivity).
  assert (NE : rows <> []) by (destruct rows; [simpl in L12; lia|discriminate]).
  assert (FV : forall x, In x rows -> exists q, w_value x = Num (Request_model.Fin q) /\ (- value_bound <= q <= value_bound)%Qc).
  { intros x I. apply In_nth_error in I. destruct I as [i I]. exists (if (i =? k)%nat then b + c else b)%Qc. split; [apply (HV i x I)|].
    assert (V : (qz (10 ^ 34) <= value_bound)%Qc) by (vm_compute; discriminate).
    assert (X : forall q, (Qcabs q <= qz (10 ^ 34))%Qc -> (- value_bound <= q <= value_bound)%Qc).
    { intros q X. revert X V. generalize (qz (10 ^ 34)) value_bound. intros u v. qmm; intros; split; qlra. }
    destruct (i =? k); auto. }
  destruct (C81_detector_arguments to_datetime to_datetime_length majority beyond o rows d mode NE H) as (l & a & per & z & A & AI & RZ & KK); auto.
  - intros s R X. rewrite (no_granularity d s HG R) in X. discriminate.
  - intros s R. rewrite (no_granularity d s HG R). apply good_rows; auto.
  - intros s l vs R AI LV. apply (C82_usable_indices to_datetime to_datetime_length rows GNone (s_interval s) None false l vs); auto.
    + apply good_rows; auto.
    + rewrite (no_granularity d s HG R) in AI. auto.
  - assert (P : per = None).
    { destruct (asked_period _ _ _ _ _ _ A) as [[_ E]|(v & E & _)]; [auto|unfold Request_spec.given in E; congruence]. }
    subst per. rewrite (asked_none majority d rows l a None HG A) in AI. destruct AI as [[_ ->]|(X & _)]; [|congruence].
    pose proof (asked_process _ _ _ _ _ _ A) as HF. destruct (no_gaps (length rows) _ _ ltac:(lia) HF) as [EN _].
    pose proof (ratio_in_range d _ H (asked_ratio _ _ _ _ _ _ A)) as [R0 R4].
    assert (EV : a_values a = spiked (length rows) k b c).
    { pose proof (asked_values _ _ _ _ _ _ A) as F2. pose proof (Forall2_length _ _ _ _ _ F2) as LF.
      apply nth_error_ext_len; [rewrite spiked_length; auto|]. intros i Hi. rewrite <- LF in Hi. rewrite spiked_nth by auto.
      destruct (nth_error rows i) as [x|] eqn:EX; [|apply nth_error_None in EX; lia].
      assert (G : forall (rs : list (point T)) vs j y, Forall2 (fun x v => w_value x = Num (Request_model.Fin v)) rs vs -> nth_error rs j = Some y ->
        exists v, nth_error vs j = Some v /\ w_value y = Num (Request_model.Fin v)).
      { clear. intros rs vs j y F. revert j. induction F; intros [|j] E; simpl in *; try discriminate; [inversion E; subst; eauto|eauto]. }
      destruct (G _ _ _ _ F2 EX) as (v & -> & E). rewrite (HV i x EX) in E. inversion E. reflexivity. }
    assert (DL : default_level (a_alpha a)).
    { destruct (asked_alpha _ _ _ _ _ _ A) as [[_ ->]|(v & G & I)]; [vm_compute; discriminate|eauto]. }
    assert (NT : a_need_trend a = false) by (apply (asked_trend _ _ _ _ _ _ A); auto).
    destruct (C116_detector L (map Z.of_nat (List.seq 0 (length rows))) a (match mode with VMode LATEST => true | _ => false end) (length rows) k b c)
      as (out & f & E & LO & _ & OS); auto.
    { rewrite map_length, seq_length. auto. } { lia. } { split; [apply Qclt_le_weak|]; auto. }
    specialize (OS SY). destruct (KK (whole_detect L)) as [_ KO]. destruct (KO out 0 DynamicThreshold f E LO) as (y & Y & P).
    exists y, z. split; auto. split; auto. rewrite NT in P. cbn [negb] in P. pose proof (sensitivity_in_range d z H RZ) as ZR.
    destruct y as [ls q|t o' q sw]; cbn [presents lone_reply] in *.
    + destruct P as (_ & -> & LL & P & _). split; auto. split; auto. intros i t o' I. change (get_margins_v1 false out (qz z) = Ok (map snd ls)) in P.
      destruct (lone_margins out (length rows) k b c z _ ltac:(lia) K C0 ZR OS P) as [_ M]. apply M. rewrite nth_error_map, I. reflexivity.
    + destruct P as (_ & -> & P & _). split; auto. change (bind (get_margins_v1 false out (qz z)) last_opt = Ok o') in P. bind_inv P.
      destruct (lone_margins out (length rows) k b c z _ ltac:(lia) K C0 ZR OS E0) as [LA M]. apply M. rewrite <- LA. apply last_opt_nth; auto.
Qed.
End Request.
Print Assumptions C116_request.

(** Fifteen sevens, the eleventh a nine: it is the one anomaly, upwards; with a
    five, downwards; a 7.0625 is not shown at sensitivity 99, but is at 100. *)
Definition ask_lone := predict stamp parsed (fun _ => 0%Qc) (whole_detect (table_libs (fun _ => true))) (fun _ _ => Err Generic).
Definition lone_rows (q : Qc) : list (point stamp) := map (fun v => mkPoint None (Num (Request_model.Fin v))) (spiked 15 10 (qz 7) q).
Definition told_of (y : res (reply stamp)) : list (nat * (Q * bool)) :=
  match y with Ok (AEntire _ l _) => map (fun p => (fst p, (this (o_expected (snd (snd p))), o_pos (snd (snd p))))) (filter (fun p => o_anomaly (snd (snd p))) (combine (range (length l)) l)) | _ => [] end.
Lemma lone_asks : decides parameter_rules entire None /\ decides parameter_rules (("sensitivity", VInt 100) :: entire) None.
Proof. split; eapply params_ok; vm_compute; reflexivity. Qed.
Example C116_example : let L := table_libs (fun _ => true) in
  libs_ok L /\ steady L /\ l_table L = critical_table /\ (forall l, l <> [] -> close_std (l_std L) l) /\
  decides parameter_rules entire None /\ decides parameter_rules (("sensitivity", VInt 100) :: entire) None /\
  (forall q i x, nth_error (lone_rows q) i = Some x -> w_value x = Num (Request_model.Fin (if (i =? 10)%nat then qz 7 + q else qz 7)%Qc)) /\
  (EPS <= Qcabs (qz 2))%Qc /\ (EPS <= Qcabs (Q2Qc (1 # 16)))%Qc /\
  told_of (result (ask_lone (fresh VNone) (DFrame (lone_rows (qz 2))) (Some entire))) = [(10, (7%Q, true))] /\
  told_of (result (ask_lone (fresh VNone) (DFrame (lone_rows (- qz 2)%Qc)) (Some entire))) = [(10, (7%Q, false))] /\
  told_of (result (ask_lone (fresh VNone) (DFrame (lone_rows (Q2Qc (1 # 16)))) (Some entire))) = [] /\
  told_of (result (ask_lone (fresh VNone) (DFrame (lone_rows (Q2Qc (1 # 16)))) (Some (("sensitivity", VInt 100) :: entire)))) = [(10, (7%Q, true))].
Proof.
  intros L. split; [apply C115_lone_example|]. split; [apply C115_lone_example|]. split; [reflexivity|]. split; [apply root_close|].
  split; [apply lone_asks|]. split; [apply lone_asks|].
  split. { intros q i x E. unfold lone_rows in E. rewrite nth_error_map in E. destruct (nth_error (spiked 15 10 (qz 7) q) i) eqn:EN; [|discriminate].
    assert (i < 15) by (rewrite <- (spiked_length 15 10 (qz 7) q); apply nth_error_Some; congruence).
    rewrite spiked_nth in EN by auto. inversion EN; subst. inversion E; subst. reflexivity. }
  split; [vm_compute; discriminate|]. split; [vm_compute; discriminate|].
  split; [vm_compute; reflexivity|]. split; [vm_compute; reflexivity|]. split; vm_compute; reflexivity.
Qed.
