(** The whole detection pipeline: which rows come out, and how many anomalies. *)
From Coq Require Import String List Arith ZArith QArith Qcanon Qround Lia Lqa Bool Sorted Permutation.
From Verif Require Import Base Num Sorting Kernel_model Kernel_spec Kernel_proofs Kernel_proofs2 Kernel_props
  FillUp_model FillUp_spec FillUp_proofs FillUp_proofs6 FillUp_props
  Helpers_model Helpers_proofs Helpers_proofs2 Helpers_props Margins_model SR_model Detect_model Detect_spec
  Detect_proofs Detect_proofs2 Detect_proofs3.
Import ListNotations.
Open Scope nat_scope.

Definition sr_model (m : model_id) : Prop := m = SpectralResidual \/ m = SpectralResidual_ZScore.

Lemma all_some_map : forall l s, all_some l = Some s -> l = map Some s.
Proof.
  induction l as [|[v|] t IH]; intros s H; simpl in H; inversion H; auto.
  destruct (all_some t) as [r|]; inversion H; subst. simpl. f_equal. auto.
Qed.
Lemma reported_drop : forall tags rows, reported (drop_filled tags rows) <= reported rows.
Proof.
  intros tags rows. unfold drop_filled. revert tags. induction rows as [|r t IH]; intros [|b tags]; simpl; auto; [lia|].
  specialize (IH tags). destruct b; simpl; lia.
Qed.
Lemma refine_anomaly : forall r, r_anomaly (refine_row_flags r) = true -> r_anomaly r = true.
Proof. intros r. unfold refine_row_flags. destruct (_ <? _)%Qc; auto. discriminate. Qed.
Lemma reported_refine : forall rows, reported (map refine_row_flags rows) <= reported rows.
Proof.
  induction rows as [|r t IH]; simpl; auto. pose proof (refine_anomaly r).
  destruct (r_anomaly (refine_row_flags r)); [rewrite H by auto|]; simpl; lia.
Qed.
Lemma reported_nil_len : forall rows, reported rows <= length rows.
Proof. induction rows as [|r t IH]; simpl; auto. destruct (r_anomaly r); lia. Qed.

Section Whole.
Variable cst : Qc.
Variable std : list Qc -> Qc.
Variable ppf : Qc -> Z -> Qc.
Variable sqrt : Qc -> Qc.
Variable table : list Qc.
Variable sort sort_desc : list (nat * Qc) -> list (nat * Qc).
Variable trend_detection : list Qc -> option nat -> res (list Qc).
Variable decompose : bool -> list Qc -> nat -> res (list Qc * list Qc).
Variable transform : list Qc -> list Qc.
Variable stationary : list Qc -> bool.
Variable spline : list nat -> list Qc -> nat -> Qc.
Variable period_detection : list (option Qc) -> res nat.

Notation SR := (spectral_residual_detection transform std trend_detection sort_desc).
Notation DT := (dynamic_threshold_detection cst std ppf sqrt table sort trend_detection).
Notation TS := (seasonal_series_detection cst std ppf sqrt table sort decompose).
Notation select := (detect_with_model_selection cst std ppf sqrt table sort sort_desc trend_detection decompose transform
  stationary spline period_detection).

(** The run of the chosen detector, with the differenced run merged in. *)
Definition bounded (n : nat) (ratio : Qc) (rows : list row) (m : model_id) : Prop :=
  (0 <= ratio)%Qc -> (forall l, Permutation l (sort_desc l)) ->
  exists q, allowed n ratio q /\ reported rows <= 2 * q /\ (sr_model m -> reported rows <= q).

Lemma sr_merged : forall series th nt lm ratio rm rows,
  SR series th ratio nt lm = Ok rm ->
  merge_with_delta stationary (fst rm) (fun s r => SR s th r nt lm) series ratio = Ok rows ->
  frame_ok series rows /\ ((forall l, Permutation l (sort_desc l)) -> reported rows <= sr_quota (length series) ratio).
Proof.
  intros series th nt lm ratio [rm m] rows H1 H2. cbn [fst] in H2. pose proof (sr_frame _ _ _ _ _ _ _ _ _ _ _ H1) as F1. split.
  - eapply merge_frame; eauto.
  - intros HP. pose proof (sr_count _ _ _ _ _ _ _ _ _ _ _ H1 HP) as C1.
    destruct (Nat.eq_dec (length series) 0) as [L0|L0].
    { destruct (merge_frame _ _ _ _ _ _ _ H2 F1) as [V _]. pose proof (reported_nil_len rows).
      assert (length rows = 0) by (rewrite <- L0, <- V, map_length; auto). unfold sr_quota. lia. }
    destruct (merge_count_le _ _ _ _ _ _ 1 H2 ltac:(lia)) as [X|[X Y]]; [|lia|lia].
    intros rem rows0 m0 s' LS R0 E. apply sr_count in E; auto. rewrite sr_quota_frac in E by lia. lia.
Qed.

Lemma dt_merged : forall series tv al nt lm ratio rm rows,
  DT series tv al ratio nt lm = Ok rm ->
  merge_with_delta stationary (fst rm) (fun s r => DT s tv al r nt lm) series ratio = Ok rows ->
  frame_ok series rows /\ reported rows <= 2 * Nat.max (dt_quota (length series) ratio) (sr_quota (length series) ratio).
Proof.
  intros series tv al nt lm ratio [rm m] rows H1 H2. cbn [fst] in H2. pose proof (dt_frame _ _ _ _ _ _ _ _ _ _ _ _ _ _ _ H1) as F1. split.
  - eapply merge_frame; eauto.
  - pose proof (dt_count _ _ _ _ _ _ _ _ _ _ _ _ _ _ _ H1) as C1.
    destruct (Nat.eq_dec (length series) 0) as [L0|L0].
    { destruct (merge_frame _ _ _ _ _ _ _ H2 F1) as [V _]. pose proof (reported_nil_len rows).
      assert (length rows = 0) by (rewrite <- L0, <- V, map_length; auto). lia. }
    destruct (merge_count_le _ _ _ _ _ _ 2 H2 ltac:(lia)) as [X|[X Y]]; [|lia|lia].
    intros rem rows0 m0 s' LS R0 E. apply dt_count in E; auto.
    pose proof (dt_quota_frac (length s') rem). lia.
Qed.

Lemma allowed_max : forall n ratio, exists q, allowed n ratio q /\ dt_quota n ratio <= q /\ sr_quota n ratio <= q.
Proof.
  intros n ratio. destruct (dt_quota_allowed n ratio) as (q1 & A1 & L1). destruct (sr_quota_le n ratio) as (q2 & A2 & L2).
  destruct (Nat.le_gt_cases q1 q2); [exists q2|exists q1]; (split; [auto|lia]).
Qed.

Lemma sr_model_id : forall series th ratio nt lm rows m, SR series th ratio nt lm = Ok (rows, m) -> sr_model m.
Proof.
  intros series th ratio nt lm rows m H. unfold spectral_residual_detection in H. cbv zeta in H.
  bind_inv H. bind_inv H. bind_inv H. bind_inv H. inversion H; subst. clear H.
  unfold sr_detect in E. destruct lm; cbv zeta in E.
  - bind_inv E. bind_inv E. bind_inv E. bind_inv E. bind_inv E.
    destruct (_ && _) in E; inversion E; subst; [right|left]; auto.
  - bind_inv E. inversion E; subst. left. auto.
Qed.
Lemma dt_model_id : forall series tv al ratio nt lm rows m, DT series tv al ratio nt lm = Ok (rows, m) -> ~ sr_model m.
Proof.
  intros series tv al ratio nt lm rows m H. unfold dynamic_threshold_detection in H. cbv zeta in H.
  bind_inv H. bind_inv H. bind_inv H. bind_inv H. inversion H; subst.
  unfold dt_detect_anomaly in E0. cbv zeta in E0. bind_inv E0. bind_inv E0. inversion E0; subst.
  cbn [snd]. repeat match goal with |- context[match ?x with None => _ | _ => _ end] => destruct x end; intros [X|X]; discriminate.
Qed.
Lemma ts_model_id : forall series p alpha ratio adj nt lm rows m, TS series p alpha ratio adj nt lm = Ok (rows, m) -> ~ sr_model m.
Proof.
  intros series p alpha ratio adj nt lm rows m H. unfold seasonal_series_detection in H.
  destruct (Q2Qc (49 # 100) <? ratio)%Qc; [discriminate H|]. cbv zeta in H.
  destruct (length series =? 0) eqn:E0; [discriminate H|].
  destruct (length series <? p * 2 + 1); [discriminate H|].
  bind_inv H. destruct (negb _) eqn:EN; [discriminate H|].
  bind_inv H. bind_inv H. bind_inv H. bind_inv H. bind_inv H. inversion H; subst.
  unfold ts_detect_anomaly in E3. cbv zeta in E3. bind_inv E3. bind_inv E3. bind_inv E3. inversion E3; subst.
  cbn [snd]. repeat match goal with |- context[match ?x with None => _ | _ => _ end] => destruct x end; intros [X|X]; discriminate.
Qed.

Lemma select_inv : forall a period lm rows p m b, select a period lm = Ok (rows, p, m, b) ->
  exists series frame, frame_ok series frame /\ bounded (length series) (a_ratio a) frame m /\
    ((b = false /\ series = a_values a /\ rows = frame) \/
     (b = true /\ exists full tags, fill_up_on_demand spline (a_fup a) (a_mode a) (a_fixed a) (Some (Z.of_nat p)) = Ok (Some (full, tags)) /\
        full = map Some series /\ rows = drop_filled tags frame)).
Proof.
  intros a period lm rows p m b H. unfold detect_with_model_selection in H. cbv zeta in H.
  set (mr := if lm && (Q2Qc (6 # 10) <? a_majority a)%Qc then refine_max_ratio (a_majority a) (a_ratio a) else a_ratio a) in *.
  assert (MR : (0 <= a_ratio a)%Qc -> (mr <= a_ratio a)%Qc).
  { intros NN. unfold mr. destruct lm; cbn [andb]; [|apply Qcle_refl].
    destruct (Q2Qc (6 # 10) <? a_majority a)%Qc eqn:EQ; [|apply Qcle_refl]. qb_hyps. apply refine_ratio_le; auto. }
  bind_inv H. rename a0 into p'. destruct ((1 <? p') && _) eqn:EG; [discriminate H|]. clear EG.
  bind_inv H. rename a0 into filled. bind_inv H. rename a0 into series. bind_inv H. destruct a0 as [frame m'].
  cbn [fst snd] in H. inversion H; subst p' m' b rows. clear H.
  exists series, frame.
  assert (FB : frame_ok series frame /\ bounded (length series) (a_ratio a) frame m).
  { clear E E0 E1. destruct (1 <? p).
    - split; [eapply ts_frame; eauto|]. intros NN HP. pose proof (ts_count _ _ _ _ _ _ _ _ _ _ _ _ _ _ _ _ E2) as C.
      destruct (dt_quota_allowed (length series) mr) as (q & A & L). exists q. split; [apply (allowed_mono _ mr); auto|].
      split; [lia|]. intros S. destruct (ts_model_id _ _ _ _ _ _ _ _ _ E2 S).
    - destruct (should_trigger_sr _ _ _ _) eqn:ET.
      + bind_inv E2. bind_inv E2. inversion E2; subst. destruct a0 as [r0 m0]. cbn [snd] in *.
        destruct (sr_merged _ _ _ _ _ _ _ E E0) as [F C]. split; auto. intros NN HP. specialize (C HP).
        destruct (sr_quota_le (length series) mr) as (q & A & L). exists q. split; [apply (allowed_mono _ mr); auto|]. lia.
      + bind_inv E2. bind_inv E2. bind_inv E2. inversion E2; subst. destruct a1 as [r0 m0]. cbn [snd] in *.
        destruct (dt_merged _ _ _ _ _ _ _ _ E0 E1) as [F C]. split; auto. intros NN HP.
        destruct (allowed_max (length series) mr) as (q & A & L1 & L2). exists q. split; [apply (allowed_mono _ mr); auto|].
        split; [lia|]. intros S. destruct (dt_model_id _ _ _ _ _ _ _ _ E0 S). }
  destruct FB as [F B]. split; auto. split; auto.
  destruct filled as [[full tags]|].
  - right. split; auto. exists full, tags. split; [|split; auto].
    + destruct ((1 <? p) || fills_without_period (a_mode a)); [auto|discriminate E0].
    + destruct (all_some full) eqn:EA; inversion E1; subst. apply all_some_map; auto.
  - left. inversion E1. auto.
Qed.
End Whole.

(** Dropping the filled rows leaves the submitted points, in order. *)
Lemma tags_of_grid : forall A ix vs f full tags (l : list A),
  make_fup (Some ix) vs default_maxlen = Ok f -> f_need f = true ->
  length full = f_all f -> length tags = f_all f ->
  (forall p, p < f_all f -> exists t, nth_error tags p = Some t /\ (t = true <-> ~ is_given ix p)) ->
  length l = f_all f -> carries ix vs full ->
  map Some (drop_filled tags l) = map (nth_error l) (map Z.to_nat ix) /\
  map (fun p => nth_error full p) (map Z.to_nat ix) = map Some vs.
Proof.
  intros A ix vs f full tags l HF HN LF LT HT LL C.
  destruct (accepted_facts _ _ _ _ HF HN) as (W & EI & EV & NN & LX & SX & _ & NE).
  destruct (make_fup_ok_inv _ _ _ _ NE HF) as (_ & _ & _ & EA & _).
  assert (SZ : forall l : list Z, StronglySorted Z.lt l -> (forall z, In z l -> 0 <= z)%Z -> StronglySorted lt (map Z.to_nat l)).
  { clear. induction l as [|z t IH]; intros S N; simpl; constructor.
    - inversion S; subst. apply IH; auto. intros; apply N; right; auto.
    - inversion S; subst. rewrite Forall_forall in *. intros x Hx. apply in_map_iff in Hx. destruct Hx as (y & <- & Hy).
      specialize (H2 y Hy). specialize (N z (or_introl eq_refl)). lia. }
  assert (LAST : forall z, In z ix -> (z <= last ix 0)%Z).
  { clear - SX. induction SX as [|a t S IH F]; intros z Hz; [destruct Hz|]. rewrite Forall_forall in F.
    destruct t as [|b t'].
    - destruct Hz as [<-|[]]. simpl. lia.
    - change (last (a :: b :: t') 0%Z) with (last (b :: t') 0%Z). destruct Hz as [<-|Hz]; auto.
      assert (X : (last (b :: t') 0 >= b)%Z) by (specialize (IH b (or_introl eq_refl)); lia). specialize (F b (or_introl eq_refl)). lia. }
  split.
  - rewrite drop_filled_kept by congruence. f_equal. apply sorted_lt_unique; [apply kept_sorted|apply SZ; auto|].
    intros p. rewrite kept_spec, Nat.sub_0_r. rewrite in_map_iff. split.
    + intros [_ H]. pose proof (nth_error_lt _ _ _ _ H) as L. rewrite LT in L. destruct (HT p L) as (t & Ht & T).
      rewrite H in Ht. inversion Ht; subst t. exists (Z.of_nat p). split; [lia|].
      destruct (in_dec Z.eq_dec (Z.of_nat p) ix) as [I|I]; auto. discriminate (proj2 T I).
    + intros (z & <- & Hz). split; [lia|]. specialize (NN z Hz). specialize (LAST z Hz).
      destruct (HT (Z.to_nat z)) as (t & Ht & T); [lia|]. rewrite Ht. f_equal. destruct t; auto.
      exfalso. apply (proj1 T eq_refl). unfold is_given. rewrite Z2Nat.id by lia. auto.
  - apply nth_error_ext_len; [rewrite !map_length; auto|]. intros i Hi. rewrite !map_length in Hi.
    destruct (nth_error_ex _ ix i Hi) as [z Hz]. destruct (nth_error_ex _ vs i) as [v Hv]; [lia|].
    rewrite !nth_error_map, Hz, Hv. simpl. f_equal.
    assert (VV : exists w, v = Some w).
    { rewrite EV, nth_error_map in Hv. destruct (nth_error (f_values f) i); [|discriminate]. inversion Hv. eauto. }
    destruct VV as [w ->]. apply C. exists i. rewrite Z2Nat.id by (apply NN; eapply nth_error_In; eauto). auto.
Qed.
