(** C122: a lower threshold or a larger share never hides what the spectral
    residual detector reports. *)
From Coq Require Import List Arith ZArith QArith Qcanon Qround Lia Bool Sorted Permutation.
From Verif Require Import Base Num Sorting Kernel_model Kernel_proofs FillUp_model Helpers_model Helpers_spec
  Margins_model SR_model SR_spec Detect_model Detect_spec Detect_proofs SR_proofs SR_proofs2 SR_props Kernel_props Mirror_spec Mirror_proofs7 Lenient_spec.
Import ListNotations.
Open Scope nat_scope.

Lemma quota_grows : forall n r r', (r <= r')%Qc -> sr_quota n r <= sr_quota n r'.
Proof.
  intros n r r' H. unfold sr_quota. assert (Z.to_nat (Qfloor (this (qn n * r)%Qc)) <= Z.to_nat (Qfloor (this (qn n * r')%Qc))); [|lia].
  enough (Qfloor (this (qn n * r)%Qc) <= Qfloor (this (qn n * r')%Qc))%Z by lia. apply Qfloor_resp_le. change ((qn n * r <= qn n * r')%Qc). rewrite !(Qcmult_comm (qn n)). apply Qcmult_le_compat_r; auto.
  change 0%Qc with (qn 0). apply qn_le. lia.
Qed.
(** If as many are reported and one is not, then another is. *)
Lemma another : forall rows rows', length rows' = length rows -> reported rows <= reported rows' ->
  forall i r r', nth_error rows i = Some r -> nth_error rows' i = Some r' -> r_anomaly r = true -> r_anomaly r' = false ->
  exists j q q', nth_error rows j = Some q /\ nth_error rows' j = Some q' /\ r_anomaly q = false /\ r_anomaly q' = true.
Proof.
  assert (D : forall rows rows', length rows' = length rows -> reported rows < reported rows' ->
    exists j q q', nth_error rows j = Some q /\ nth_error rows' j = Some q' /\ r_anomaly q = false /\ r_anomaly q' = true).
  { induction rows as [|a rows IH]; intros [|b rows'] L R; simpl in *; try discriminate; [lia|].
    destruct (r_anomaly a) eqn:A, (r_anomaly b) eqn:B.
    1,2,4: destruct (IH rows' ltac:(lia) ltac:(lia)) as (j & q & q' & K); exists (S j), q, q'; exact K.
    exists 0, a, b. auto. }
  induction rows as [|a rows IH]; intros [|b rows'] L R i r r' E E' A A'; simpl in *; try (destruct i; discriminate).
  destruct i as [|i]; simpl in E, E'.
  - injection E as <-. injection E' as <-. rewrite A, A' in R. destruct (D rows rows' ltac:(lia) ltac:(lia)) as (j & q & q' & K). exists (S j), q, q'. exact K.
  - destruct (r_anomaly a) eqn:X, (r_anomaly b) eqn:Y.
    1,4: destruct (IH rows' ltac:(lia) ltac:(lia) i r r' E E' A A') as (j & q & q' & K); exists (S j), q, q'; exact K.
    + destruct (D rows rows' ltac:(lia) ltac:(lia)) as (j & q & q' & K). exists (S j), q, q'. exact K.
    + exists 0, a, b. auto.
Qed.
Lemma frame_columns_same : forall series e t s idx idx' rows, result_frame series e t s idx = Ok rows ->
  exists rows', result_frame series e t s idx' = Ok rows' /\ Forall2 same_columns rows rows'.
Proof.
  intros series e t s idx idx' rows H. unfold result_frame in *. cbv zeta in *. bind_inv H. bind_inv H. bind_inv H. injection H as <-.
  rewrite ?E, ?E0, ?E1, ?bind_ok. eexists. split; [reflexivity|]. 
  unfold mapi. generalize 0 as k. clear. induction series as [|v series IH]; intros k; simpl; constructor; auto.
  unfold same_columns, result_row. cbv zeta. cbn. split; auto. intros ->. auto.
Qed.

(** The margins of version 1 for kept rows. *)
Lemma v1_keeps : forall sr rows rows' sens os, Forall2 kept rows rows' -> get_margins_entire true sr rows sens = Ok os ->
  exists os', get_margins_entire true sr rows' sens = Ok os' /\ Forall2 kept_outcome os os'.
Proof.
  intros sr rows rows' sens os KK G.
  assert (F : Forall2 same_columns rows rows') by (clear - KK; induction KK as [|a b l l' [S _] F IH]; constructor; auto).
  cbn [get_margins_entire] in *. rewrite v1_widths in *. 
  assert (NE : rows <> []) by (intros ->; discriminate). assert (NE' : rows' <> []) by (intros ->; inversion F; congruence).
  rewrite refine_margins_map in * by auto. cbv zeta in *. injection G as <-. eexists. split; [reflexivity|].
  assert (CO : map r_value rows' = map r_value rows /\ map r_expected rows' = map r_expected rows).
  { clear - F. induction F as [|a b l l' ((V & E & _) & _) F [IH1 IH2]]; simpl; auto. split; congruence. }
  assert (QQ : map r_value (filter (fun r => (r_score r <=? EPS)%Qc) rows') = map r_value (filter (fun r => (r_score r <=? EPS)%Qc) rows)).
  { clear - F. induction F as [|a b l l' ((V & E & _ & S) & _) F IH]; simpl; auto. rewrite S. destruct (r_score a <=? EPS)%Qc; simpl; congruence. }
  set (w := half_width (sr) sens rows) in *. set (w' := half_width (sr) sens rows') in *.
  assert (WW : forall a b, same_columns a b -> w' b = w a).
  { intros a b ((V & E & _ & S) & _). unfold w, w', half_width. cbv zeta. rewrite QQ, V, E, S. auto. }
  assert (UB : map (fun r => r_expected r + w' r)%Qc rows' = map (fun r => r_expected r + w r)%Qc rows).
  { clear - F WW. clearbody w w'. induction F as [|a b l l' S F IH]; simpl; auto. rewrite IH, (WW a b S). destruct S as ((_ & -> & _) & _). auto. }
  assert (LB : map (fun r => r_expected r - w' r)%Qc rows' = map (fun r => r_expected r - w r)%Qc rows).
  { clear - F WW. clearbody w w'. induction F as [|a b l l' S F IH]; simpl; auto. rewrite IH, (WW a b S). destruct S as ((_ & -> & _) & _). auto. }
  unfold tops, bots. destruct CO as [-> ->]. rewrite UB, LB.
  generalize (qmin_list (map (fun r => r_expected r + w r)%Qc rows)) (qmax_list (map (fun r => r_expected r - w r)%Qc rows))
    (Qcmax (qmax_list (map r_value rows)) (qmax_list (map r_expected rows))) (Qcmin (qmin_list (map r_value rows)) (qmin_list (map r_expected rows))).
  intros c1 c2 c3 c4. clear - KK WW. clearbody w w'. induction KK as [|a b l l' [S A] F IH]; simpl; constructor; auto.
  rewrite (WW a b S). destruct (r_anomaly a) eqn:X.
  - rewrite (A eq_refl). split; auto.
  - split; [destruct S as ((_ & E & _) & _); unfold refine_row; cbn; exact E|]. right. unfold refine_row. cbn. rewrite X. destruct (_ && _); auto.
Qed.

Section SR.
Variable transform : list Qc -> list Qc.
Variable std : list Qc -> Qc.
Variable trend_detection : list Qc -> option nat -> res (list Qc).
Variable sort_desc : list (nat * Qc) -> list (nat * Qc).
Hypothesis HS : sorts_down sort_desc.
Notation SR := (spectral_residual_detection transform std trend_detection sort_desc).

(** C122. With a lower threshold or a larger share (for the newest point alone: a
    lower threshold) the detector answers with the same columns; a point reported
    before is reported again, unless one of the same score takes its place. *)
Theorem C122_reported : forall series th th' ratio ratio' nt lm rows m,
  (th' <= th)%Qc -> (ratio <= ratio')%Qc -> (lm = true -> ratio' = ratio) ->
  SR series th ratio nt lm = Ok (rows, m) ->
  exists rows' scores, SR series th' ratio' nt lm = Ok (rows', m) /\ Forall2 same_columns rows rows' /\
    sr_detect transform std series (sr_quota (length series) ratio) lm = Ok (scores, m) /\
    forall i r r', nth_error rows i = Some r -> nth_error rows' i = Some r' -> r_anomaly r = true ->
      r' = r \/ (exists s, nth_error scores i = Some s /\ (th <= s)%Qc) /\ exists j, exchanged_tie scores rows rows' i j.
Proof.
  intros series th th' ratio ratio' nt lm rows m LT LR LM H.
  assert (DS : sr_detect transform std series (sr_quota (length series) ratio') lm = sr_detect transform std series (sr_quota (length series) ratio) lm).
  { destruct lm; [rewrite (LM eq_refl); auto|reflexivity]. }
  assert (SX : exists rows', SR series th' ratio' nt lm = Ok (rows', m) /\ Forall2 same_columns rows rows').
  { unfold spectral_residual_detection in H |- *. cbv zeta in H |- *. rewrite DS. bind_inv H. rewrite bind_ok. bind_inv H. rewrite bind_ok. bind_inv H. rewrite bind_ok. bind_inv H.
    injection H as <- <-. match goal with E : result_frame _ _ _ _ ?ix = Ok _ |- context [result_frame _ _ _ _ ?ix'] => destruct (frame_columns_same _ _ _ _ ix ix' _ E) as (rows' & -> & F) end.
    rewrite bind_ok. eauto. }
  destruct SX as (rows' & H' & F).
  destruct (sr_inv _ _ _ _ (fun l => proj1 (HS l)) _ _ _ _ _ _ _ H) as (sc & e & idx & t & ED & L & _ & EF & _).
  exists rows', sc. split; auto. split; auto. split; auto.
  destruct (C69_highest_scores_reported _ _ _ _ HS _ _ _ _ _ _ _ _ H ED) as (_ & X1 & X2 & X3).
  assert (ED' := ED). rewrite <- DS in ED'.
  destruct (C69_highest_scores_reported _ _ _ _ HS _ _ _ _ _ _ _ _ H' ED') as (_ & Y1 & Y2 & Y3).
  assert (LF : length rows' = length rows) by (clear - F; induction F; simpl; congruence).
  assert (LS : length rows = length series) by (apply result_frame_spec in EF; tauto).
  intros i r r' Hr Hr' A.
  assert (SC : same_columns r r').
  { clear - F Hr Hr'. revert i Hr Hr'. induction F as [|a b l l' S F IH]; intros [|i] Hr Hr'; simpl in *; try discriminate; [congruence|eauto]. }
  destruct (r_anomaly r') eqn:A'; [left; apply (proj2 SC); congruence|right].
  destruct (nth_error sc i) as [s|] eqn:Es.
  2: { apply nth_error_None in Es. pose proof (nth_error_lt _ _ _ _ Hr). lia. }
  pose proof (X1 i r s Hr Es A) as TS. split; [eauto|].
  assert (RR : reported rows <= reported rows').
  { rewrite X3, Y3. pose proof (quota_grows (length series) ratio ratio' LR) as Q.
    assert (C : length (filter (fun s => (th <=? s)%Qc) sc) <= length (filter (fun s => (th' <=? s)%Qc) sc)).
    { clear - LT. induction sc as [|x sc IH]; simpl; auto. destruct (th <=? x)%Qc eqn:E1, (th' <=? x)%Qc eqn:E2; simpl; try lia. qb_hyps. exfalso. revert E1 E2 LT. qlra. }
    lia. }
  destruct (another rows rows' LF RR i r r' Hr Hr' A A') as (j & q & q' & Hq & Hq' & B & B').
  destruct (nth_error sc j) as [u|] eqn:Eu.
  2: { apply nth_error_None in Eu. pose proof (nth_error_lt _ _ _ _ Hq). lia. }
  assert (U1 : (s <= u)%Qc). { eapply (Y2 j q' u i r' s); eauto. revert TS LT. qlra. }
  assert (U2 : (u <= s)%Qc). { eapply (X2 i r s j q u); eauto. revert TS U1. qlra. }
  exists j, s, r, r', q, q'. assert (u = s) by (apply Qcle_antisym; auto). subst u. repeat split; auto.
Qed.

(** C122. In the answer of boundary version 1: if no two of the points in question
    have the same score, reported anomalies stay as they are, and nothing changes
    but at points that were not reported. *)
Theorem C122_answer : forall series th th' ratio ratio' nt lm rows m scores sens os,
  (th' <= th)%Qc -> (ratio <= ratio')%Qc -> (lm = true -> ratio' = ratio) ->
  SR series th ratio nt lm = Ok (rows, m) ->
  sr_detect transform std series (sr_quota (length series) ratio) lm = Ok (scores, m) -> no_ties th scores ->
  get_margins_entire true (is_sr m) rows sens = Ok os ->
  exists rows' os', SR series th' ratio' nt lm = Ok (rows', m) /\ get_margins_entire true (is_sr m) rows' sens = Ok os' /\
    Forall2 kept_outcome os os'.
Proof.
  intros series th th' ratio ratio' nt lm rows m scores sens os LT LR LM H ED NT G.
  destruct (C122_reported _ _ _ _ _ _ _ _ _ LT LR LM H) as (rows' & sc & H' & F & ED' & K). rewrite ED in ED'. injection ED' as <-.
  assert (KK : Forall2 kept rows rows').
  { assert (P : forall i r r', nth_error rows i = Some r -> nth_error rows' i = Some r' -> r_anomaly r = true -> r' = r).
    { intros i r r' Hr Hr' A. destruct (K i r r' Hr Hr' A) as [E|((s & Es & TS) & j & s' & r1 & r2 & q & q' & E1 & E2 & E3 & E4 & E5 & E6 & E7 & E8 & E9 & _)]; auto.
      rewrite Es in E1. injection E1 as <-. assert (i = j) by (eapply NT; eauto). subst j. congruence. }
    clear - F P. induction F as [|a b l l' SC F IH]; constructor.
    - split; auto. exact (P 0 a b eq_refl eq_refl).
    - apply IH. intros i. apply (P (S i)). }
  destruct (v1_keeps _ _ _ _ _ KK G) as (os' & G' & FO). exists rows', os'. auto.
Qed.
End SR.
Print Assumptions C122_reported.
Print Assumptions C122_answer.

(** Two spikes with the identity as the transform and as the trend: at threshold
    7 the second alone is reported, at 6 both. *)
Definition two_spikes (v : Z) : list Qc := zs [1; 1; 1; 1; 1; 8; 1; 1; 10; 10; 10; 10; 10; 10; 10; 10; 10; v; 10; 10; 10; 10; 10; 10]%Z.
Notation plain_sr := (spectral_residual_detection (fun l => l) (fun _ => Q2Qc 9) (fun s _ => Ok s) ex_sort).
Definition reported_at (r : res (list row * model_id)) : list nat :=
  match r with Ok (rows, _) => filter (fun i => nth i (map r_anomaly rows) false) (range (length rows)) | Err _ => [] end.
(** The same after the margins of version 1 ([true]) or 2. *)
Definition answered_at (v1 : bool) (sens : Z) (r : res (list row * model_id)) : list nat :=
  match r with
  | Ok (rows, m) => match get_margins_entire v1 (is_sr m) rows (qz sens) with
                    | Ok os => filter (fun i => nth i (map o_anomaly os) false) (range (length os)) | Err _ => [] end
  | Err _ => [] end.
Example C122_case :
  reported_at (plain_sr (two_spikes 90) (qz 7) (Q2Qc (1 # 4)) true false) = [17] /\
  reported_at (plain_sr (two_spikes 90) (qz 6) (Q2Qc (1 # 4)) true false) = [5; 17] /\
  reported_at (plain_sr (two_spikes 90) (qz 6) (Q2Qc (1 # 20)) true false) = [17] /\
  answered_at true 40 (plain_sr (two_spikes 90) (qz 7) (Q2Qc (1 # 4)) true false) = [17] /\
  answered_at true 40 (plain_sr (two_spikes 90) (qz 6) (Q2Qc (1 # 4)) true false) = [5; 17] /\
  exists scores, sr_detect (fun l => l) (fun _ => Q2Qc 9) (two_spikes 90) (sr_quota 24 (Q2Qc (1 # 4))) false = Ok (scores, SpectralResidual) /\
    no_ties (qz 7) scores.
Proof.
  do 5 (split; [vm_compute; reflexivity|]). eexists. split; [vm_compute; reflexivity|].
  intros i j s Hi Hj T.
  assert (K : forall k, k <> 17 -> nth_error (match sr_detect (fun l => l) (fun _ => Q2Qc 9) (two_spikes 90) (sr_quota 24 (Q2Qc (1 # 4))) false with Ok (l, _) => map (fun x => (qz 7 <=? x)%Qc) l | Err _ => [] end) k <> Some true).
  { intros k N. vm_compute. do 24 (destruct k as [|k]; [congruence|]). destruct k; discriminate. }
  assert (W : forall k, nth_error (match sr_detect (fun l => l) (fun _ => Q2Qc 9) (two_spikes 90) (sr_quota 24 (Q2Qc (1 # 4))) false with Ok (l, _) => l | Err _ => [] end) k = Some s -> k = 17).
  { intros k Hk. destruct (Nat.eq_dec k 17) as [|N]; auto. exfalso. apply (K k N). destruct (sr_detect _ _ _ _ _) as [[l ?]|]; [|destruct k; discriminate].
    rewrite nth_error_map, Hk. cbn [option_map]. f_equal. apply Qcleb_le. exact T. }
  rewrite (W i), (W j); auto.
Qed.

(** REFUTED for the newest point alone: with a larger share more of the past may
    be left out as disturbed, and what remains may be less regular. *)
Definition late_spike : list Qc := zs (repeat 10%Z 22 ++ [40%Z] ++ repeat 1%Z 16 ++ [40%Z]).
Lemma lost : forall (x y : res (list row * model_id)) n,
  match x with Ok (rows, _) => option_map r_anomaly (nth_error rows n) = Some true | Err _ => False end ->
  match y with Ok (rows, _) => option_map r_anomaly (nth_error rows n) = Some false | Err _ => False end ->
  ~ (forall rows rows' m m' r r', x = Ok (rows, m) -> y = Ok (rows', m') -> nth_error rows n = Some r -> nth_error rows' n = Some r' -> r_anomaly r = true -> r_anomaly r' = true).
Proof.
  intros [[rows m]|] [[rows' m']|] n A B H; try contradiction.
  destruct (nth_error rows n) as [r|] eqn:E; [|discriminate]. destruct (nth_error rows' n) as [r'|] eqn:E'; [|discriminate].
  cbn in A, B. injection A as A. injection B as B. specialize (H _ _ _ _ r r' eq_refl eq_refl E E' A). congruence.
Qed.
Theorem C122_newest_refuted :
  ~ (forall transform std trend_detection sort_desc series th ratio ratio' nt rows rows' m m' r r', sorts_down sort_desc -> (ratio <= ratio')%Qc ->
      spectral_residual_detection transform std trend_detection sort_desc series th ratio nt true = Ok (rows, m) ->
      spectral_residual_detection transform std trend_detection sort_desc series th ratio' nt true = Ok (rows', m') ->
      nth_error rows (length series - 1) = Some r -> nth_error rows' (length series - 1) = Some r' -> r_anomaly r = true -> r_anomaly r' = true).
Proof.
  intros H. pose proof (ex_sort_ok) as SO.
  refine (lost (plain_sr late_spike (Q2Qc (7 # 2)) (Q2Qc (1 # 20)) false true) (plain_sr late_spike (Q2Qc (7 # 2)) (Q2Qc (9 # 20)) false true) (length late_spike - 1) _ _ _).
  - vm_compute. reflexivity.
  - vm_compute. reflexivity.
  - intros rows rows' m m' r r' E E'. apply (H _ _ _ _ _ _ _ _ _ rows rows' m m' r r' SO) with (2 := E) (3 := E'). vm_compute. discriminate.
Qed.
Print Assumptions C122_newest_refuted.

(** REFUTED for boundary version 2: the unit of the band is averaged over the
    points not reported, so a further point can widen the band of another. *)
Lemma in_one : forall n (x y : list nat), existsb (Nat.eqb n) x = true -> existsb (Nat.eqb n) y = false -> In n x /\ ~ In n y.
Proof.
  intros n x y A B. split.
  - apply existsb_exists in A. destruct A as (k & I & E). apply Nat.eqb_eq in E. subst k. exact I.
  - intros I. apply not_true_iff_false in B. apply B. apply existsb_exists. exists n. split; [exact I|apply Nat.eqb_refl].
Qed.
Theorem C122_version_2_refuted : exists th th', (th' <= th)%Qc /\
  In 17 (answered_at false 40 (plain_sr (two_spikes 90) th (Q2Qc (1 # 4)) true false)) /\
  ~ In 17 (answered_at false 40 (plain_sr (two_spikes 90) th' (Q2Qc (1 # 4)) true false)).
Proof.
  exists (qz 7), (qz 6). split; [vm_compute; discriminate|].
  apply in_one; vm_compute; reflexivity.
Qed.
Print Assumptions C122_version_2_refuted.
