(** period_detection: size of the answer, totality, unit changes, constant
    series. *)
From Coq Require Import String List Arith ZArith QArith Qcanon Lia Bool Sorted.
From Verif Require Import Base Num Kernel_model Kernel_spec Kernel_proofs Kernel_proofs4 Kernel_proofs5 Kernel_proofs6
  Helpers_model Helpers_spec Helpers_proofs Helpers_proofs2 Detect_model Period_model Period_spec
  Period_proofs Period_proofs2 Period_proofs3 Period_proofs4.
Import ListNotations.
Open Scope nat_scope.

Section Spectrum.
Variable std : list Qc -> Qc.
Variable r32 : Qc -> Qc.
Variable rnd : nat -> nat -> nat -> nat.
Variable acf : list Qc -> nat -> res (list (option Qc) * list (option Qc)).
Variable peaks : list Qc -> Qc -> option (list peak).
Variable fit_trend : string -> list Qc -> res (list Qc).
Notation fit_seasons := (fit_seasons std acf peaks fit_trend).
Notation calculate_period := (calculate_period std acf peaks fit_trend).
Notation detect_loop := (detect_loop std acf peaks fit_trend).
Notation spectrum_detect := (spectrum_detect std acf peaks fit_trend).
Notation period_detection := (period_detection std r32 rnd acf peaks fit_trend).

Lemma normalize_inv : forall l r, normalize l = Ok r -> l <> [] /\ length (fst (fst r)) = length l.
Proof.
  intros l r E. destruct l as [|x t]; [discriminate|]. split; [discriminate|].
  destruct (normalize_total (x :: t)) as (out & mn & mx & E2 & L); [discriminate|].
  rewrite E in E2. inversion E2; subst r. exact L.
Qed.

Lemma spectrum_fits : forall series tt th mv cg p, spectrum_detect series tt th mv cg = Ok p -> p <> 0 ->
  2 * p < length series /\ (forall low, candidates_from peaks low cg -> low <= p).
Proof.
  intros series tt th mv cg p. unfold Period_model.spectrum_detect.
  destruct (length series <? 12); [discriminate|].
  destruct (normalize series) as [[[s mn] mx]|] eqn:EN; [|discriminate]. rewrite bind_ok. cbn [fst].
  destruct (normalize_inv _ _ EN) as [NE LS]. cbn [fst] in LS.
  destruct (calculate_period s tt th mv cg) as [p1|] eqn:EC; [|discriminate]. rewrite bind_ok.
  destruct (p1 =? 0) eqn:E0; [intros E; apply Nat.eqb_eq in E0; inversion E; congruence|]. apply Nat.eqb_neq in E0.
  intros E _. pose proof (calculate_fits _ _ _ _ _ _ _ _ _ _ EC E0) as F.
  destruct (detect_loop_fits std acf peaks fit_trend (length series) tt th mv cg (length s) s p1 1 p) as [A B]; try lia.
  - rewrite Nat.mul_1_l. exact E.
  - split; auto. intros low CF. destruct (calculate_low _ _ _ _ low _ _ _ _ _ _ CF EC); lia.
Qed.

Lemma detection_fits : forall series tt th mv cg g i skip p src,
  period_detection series tt th mv cg g i skip = Ok (p, src) -> p <> 0 ->
  2 * p < length series /\ (forall low, low <= 4 -> candidates_from peaks low cg -> low <= p).
Proof.
  intros series tt th mv cg g i skip p src E N. unfold Period_model.period_detection in E.
  assert (SP : forall e, (do p <- spectrum_detect series tt th mv cg; Ok (p, 1)) = Ok e ->
     exists q, e = (q, 1) /\ spectrum_detect series tt th mv cg = Ok q).
  { intros e. destruct (spectrum_detect series tt th mv cg) as [q|]; [|discriminate]. rewrite bind_ok.
    intros X; inversion X. eauto. }
  assert (SF : (do p <- spectrum_detect series tt th mv cg; Ok (p, 1)) = Ok (p, src) ->
     2 * p < length series /\ (forall low, low <= 4 -> candidates_from peaks low cg -> low <= p)).
  { intros X. destruct (SP _ X) as (q & Q & ES). inversion Q; subst q.
    destruct (spectrum_fits _ _ _ _ _ _ ES N) as [A B]. split; auto. }
  destruct skip; cbn [negb] in E; [rewrite bind_ok in E; auto|].
  destruct (verify_period std r32 rnd series g i) as [[[|q]|]|] eqn:EV; try discriminate; rewrite bind_ok in E; auto.
  inversion E; subst p src. destruct (verify_period_fits r32 rnd _ _ _ _ _ EV) as [A B].
  split; [lia|]. intros low L _. lia.
Qed.

(** * Totality *)
Hypothesis FS : fair_std std.
Variable cg : bool.
Variable tt : option string.
Hypothesis AC : acf_answers acf.
Variable B : Qc.
Hypothesis B1 : (1 <= B)%Qc.
Hypothesis TA : match tt with Some kind => trend_answers B fit_trend kind | None => True end.
Hypothesis PK : cg = true \/ peaks_fit 2 peaks.

Lemma candidates_two : candidates_from peaks 2 cg.
Proof. destruct PK as [H|H]; [left; split; auto; lia|right; split; auto; lia]. Qed.

Lemma candidates_ok : forall dd th, 12 <= length dd ->
  exists ps, (if negb cg then Ok (periodogram_detector peaks dd th) else correlogram_detector acf dd) = Ok ps /\
    forall p, In p ps -> 0 < p /\ 2 * p <= length dd.
Proof.
  intros dd th L. pose proof (Nat.div_mod (length dd) 3 ltac:(lia)) as D3.
  pose proof (Nat.mod_upper_bound (length dd) 3 ltac:(lia)).
  pose proof (Nat.div_mod (length dd) 2 ltac:(lia)) as D2.
  destruct cg; cbn [negb].
  - destruct (AC dd (Nat.min (length dd / 3) (2880 * 2))) as (a & c & E & LA & LC).
    destruct (correlogram_ok acf dd a c E LA LC) as (V & EV & _); [lia|].
    exists (lags MIN_PERIOD (Nat.min (length dd / 3) (2880 * 2)) V). split; auto.
    intros p I. apply lags_range in I. lia.
  - destruct PK as [H'|H']; [discriminate|]. eexists. split; [reflexivity|]. intros p I.
    unfold periodogram_detector in I. destruct (negb (th =? 0)%Qc).
    + destruct (peaks dd th) as [pk|] eqn:EK; [|destruct I].
      destruct (peak_ranges_in _ _ _ I) as (q & w & lo & hi & J & BB). apply (proj1 (sort_peaks_in pk _)) in J.
      destruct (H' dd th pk q w lo hi EK J). lia.
    + destruct (peak_ranges_in _ _ _ I) as (q & w & lo & hi & [J|[]] & BB).
      assert (J1 : lo = 4) by congruence. assert (J2 : hi = length dd / 2) by congruence. lia.
Qed.

Lemma bounded_range : forall l, sized B l <-> forall x, In x l -> (- B <= x /\ x <= B)%Qc.
Proof.
  intros l. split; intros H x I; specialize (H x I); revert H; unfold Qcabs; destruct (0 <=? x)%Qc eqn:E;
    first [apply Qcleb_le in E|apply Qcleb_gt in E]; first [intros [H1 H2]; qlra|intros H; split; qlra].
Qed.
Lemma smooth_bounded : forall data d, sized B data -> smooth_spikes std data = Ok d -> sized B d.
Proof.
  intros data d HB E. unfold smooth_spikes in E. match type of E with interp ?k = _ => set (kn := k) in * end.
  assert (HK : forall q x, nth_error kn q = Some (Some x) -> (- B <= x /\ x <= B)%Qc).
  { intros q x Hq. unfold kn in Hq. rewrite nth_error_map in Hq. destruct (nth_error data q) as [y|] eqn:Ey; [|discriminate].
    cbn [option_map] in Hq. apply nth_error_In in Ey. pose proof (proj1 (bounded_range data) HB y Ey). destruct (_ && _) in Hq; inversion Hq; subst; auto. }
  destruct (known 0 kn) as [|[a va] rest] eqn:EK; [unfold interp in E; rewrite EK in E; discriminate|].
  destruct (interp_spec kn) as (o & Eo & L & P).
  { assert (I : In (a, va) (known 0 kn)) by (rewrite EK; left; auto). apply known_in in I. destruct I as (q & -> & I). eauto. }
  rewrite Eo in E. inversion E; subst o. apply bounded_range. intros x I. apply In_nth_error in I. destruct I as [k Hk].
  eapply interpolant_bounds; eauto.
Qed.
Lemma normalize_bounded : forall l out mn mx, sized B l -> normalize l = Ok (out, mn, mx) -> sized B out.
Proof.
  intros l out mn mx HB E. destruct l as [|x0 t]; [discriminate|].
  destruct (normalize_spec (x0 :: t)) as (o & a & b & E2 & LO & _ & _ & _ & HE & HN); [discriminate|]. rewrite E in E2. inversion E2; subst o a b.
  destruct (Qceqb mn mx) eqn:EQ; [apply Qceqb_eq in EQ; rewrite (HE EQ); auto|]. apply Qceqb_neq in EQ.
  apply bounded_range. intros u I. apply In_nth_error in I. destruct I as [k Hk]. pose proof (nth_error_lt _ _ _ _ Hk) as Lk.
  destruct (nth_error_ex _ (x0 :: t) k ltac:(lia)) as [x Hx]. destruct (HN EQ k x u Hx Hk) as ((U0 & U1) & _). split; qlra.
Qed.
Lemma normalize_varied_bounded : forall l out mn mx, varied l \/ sized B l -> normalize l = Ok (out, mn, mx) -> sized B out.
Proof.
  intros l out mn mx [V|HB] E; [|eapply normalize_bounded; eauto].
  destruct (normalize_spec l) as (o & a & b & E2 & LO & MA & MB & MC & HE & HN); [destruct V as (x & y & I & _); intro; subst; contradiction|].
  rewrite E in E2. inversion E2; subst o a b.
  destruct (Qceqb mn mx) eqn:EQ; [apply Qceqb_eq in EQ|apply Qceqb_neq in EQ].
  - exfalso. destruct V as (x & y & I & J & N). apply N. destruct (MC x I), (MC y J). rewrite EQ in *. apply Qcle_antisym; qlra.
  - apply bounded_range. intros u I. apply In_nth_error in I. destruct I as [k Hk]. pose proof (nth_error_lt _ _ _ _ Hk) as Lk.
    destruct (nth_error_ex _ l k ltac:(lia)) as [x Hx]. destruct (HN EQ k x u Hx Hk) as ((U0 & U1) & _). split; qlra.
Qed.
Lemma phase_bounded : forall l p, 0 < p -> sized B l -> sized B (phase l 0 p).
Proof.
  intros l p Hp HB x I. apply In_nth_error in I. destruct I as [k Hk]. rewrite phase_nth in Hk by auto. apply nth_error_In in Hk. auto.
Qed.

Lemma fit_seasons_total : forall data th mv, 12 <= length data -> sized B data -> exists s, fit_seasons data tt th mv cg = Ok s.
Proof.
  intros data th mv L HB. unfold Period_model.fit_seasons.
  destruct (smooth_total std FS data) as (d & ES & LD); [intro X; subst; cbn in L; lia|]. rewrite ES, bind_ok.
  apply (smooth_bounded data d HB) in ES.
  assert (ET : exists t, (match tt with None => Ok (repeat 0%Qc (length d)) | Some kind => fit_trend kind d end) = Ok t /\
     length t = length d).
  { destruct tt as [k|]; [apply TA; auto; lia|]. eexists. split; [reflexivity|]. apply repeat_length. }
  destruct ET as (t & -> & LT). rewrite bind_ok, LT, Nat.eqb_refl. cbn [negb]. cbv zeta.
  set (dd := zip_with _ d t). assert (LDD : length dd = length data) by (unfold dd; rewrite zip_with_length; lia).
  destruct (close_to_zero (qvar dd)); [eauto|].
  destruct (candidates_ok dd th ltac:(lia)) as (ps & -> & HP). rewrite bind_ok.
  destruct (length ps =? 0) eqn:E0; [eauto|]. apply Nat.eqb_neq in E0.
  destruct (max_gcv_loop_spec dd ps None) as (r & EM & _); auto.
  { destruct ps; [cbn in E0; lia|]. left; discriminate. }
  unfold max_gcv. rewrite EM, bind_ok. destruct r as [mse s].
  destruct (close_to_zero mse || (mv <=? 1 - mse / qvar dd)%Qc); eauto.
Qed.

Lemma calculate_total : forall series th mv, sized B series -> exists p, calculate_period series tt th mv cg = Ok p.
Proof.
  intros series th mv HB. unfold Period_model.calculate_period.
  destruct (length series <? 12) eqn:L; [eauto|]. apply Nat.ltb_ge in L.
  destruct (fit_seasons_total series th mv L HB) as (s & ->). rewrite bind_ok.
  destruct s as [s|]; [|eauto]. destruct (length s =? 0); [eauto|]. cbv zeta.
  destruct (_ <=? _)%Qc; eauto.
Qed.

Lemma detect_loop_total : forall th mv fuel series v period, length series <= fuel -> sized B series ->
  (v = 0 \/ 2 <= v /\ 2 * v < length series) ->
  exists p, detect_loop fuel series v period tt th mv cg = Ok p.
Proof.
  intros th mv. induction fuel as [|k IH]; intros series v period L HB HV; cbn [Period_model.detect_loop].
  - destruct HV as [->|HV]; [exists period; reflexivity|lia].
  - destruct (v =? 0) eqn:E0; [eauto|]. apply Nat.eqb_neq in E0. cbv zeta.
    destruct HV as [HV|[V2 VL]]; [lia|].
    assert (NE : series <> []) by (intro X; subst series; cbn in VL; lia).
    destruct (phase_length series v ltac:(lia) NE) as [PL P0].
    destruct (calculate_total (phase series 0 v) th mv (phase_bounded series v ltac:(lia) HB)) as (v' & EC). rewrite EC, bind_ok.
    apply IH; [nia|apply phase_bounded; auto; lia|].
    destruct (Nat.eq_dec v' 0) as [->|N]; [auto|right].
    destruct (calculate_low _ _ _ _ 2 _ _ _ _ _ _ candidates_two EC) as [Z|Z]; [lia|].
    split; auto. apply (calculate_fits _ _ _ _ _ _ _ _ _ _ EC N).
Qed.

Lemma spectrum_total : forall series th mv, 12 <= length series -> varied series \/ sized B series -> exists p, spectrum_detect series tt th mv cg = Ok p.
Proof.
  intros series th mv L HB. unfold Period_model.spectrum_detect.
  assert (E : (length series <? 12) = false) by (apply Nat.ltb_ge; auto). rewrite E.
  destruct (normalize_total series) as (s & mn & mx & EN & LS); [intro X; subst; cbn in L; lia|].
  pose proof (normalize_varied_bounded _ _ _ _ HB EN) as HS. rewrite EN, bind_ok. cbn [fst].
  destruct (calculate_total s th mv HS) as (p & EC). rewrite EC, bind_ok.
  destruct (p =? 0) eqn:E0; [eauto|]. apply Nat.eqb_neq in E0. apply detect_loop_total; auto. right.
  destruct (calculate_low _ _ _ _ 2 _ _ _ _ _ _ candidates_two EC) as [Z|Z]; [lia|].
  split; auto. apply (calculate_fits _ _ _ _ _ _ _ _ _ _ EC E0).
Qed.

Lemma verify_total : forall series g i,
  (exists v, verify_period std r32 rnd series g i = Ok v) \/
  (g = Microsecond /\ verify_period std r32 rnd series g i = Err KeyErr /\
   is_valid_period std r32 rnd series (Z.to_nat 1000) = Ok true /\ (2000 < Z.of_nat (length series))%Z).
Proof.
  intros series g i. unfold verify_period.
  destruct (length (guess_period g i) =? 0); [left; eauto|].
  destruct (verify_loop_total std FS r32 rnd series (guess_period g i)) as (v & EV & HV). rewrite EV, bind_ok.
  destruct v as [v|]; [|left; eauto].
  destruct (standard_period g i) as [s|e] eqn:ES.
  - left. rewrite bind_ok. destruct (_ || _); eauto.
  - right. assert (G : g = Microsecond /\ e = KeyErr).
    { unfold standard_period in ES. destruct g; inversion ES; auto. }
    destruct G as [-> ->]. split; auto. split; auto.
    destruct (HV v eq_refl) as ([<-|[]] & _ & L).
    split; [|lia]. cbn [guess_period verify_loop] in EV.
    destruct (_ || _); [discriminate|].
    destruct (is_valid_period std r32 rnd series (Z.to_nat 1000)) as [b|]; [|discriminate].
    rewrite bind_ok in EV. destruct b; [reflexivity|discriminate].
Qed.

Lemma detection_total : forall series th mv g i skip, 12 <= length series -> varied series \/ sized B series ->
  (exists p src, period_detection series tt th mv cg g i skip = Ok (p, src)) \/
  (g = Microsecond /\ skip = false /\ period_detection series tt th mv cg g i skip = Err KeyErr /\
   is_valid_period std r32 rnd series (Z.to_nat 1000) = Ok true /\ (2000 < Z.of_nat (length series))%Z).
Proof.
  intros series th mv g i skip L HB. unfold Period_model.period_detection.
  destruct (spectrum_total series th mv L HB) as (p & ES). rewrite ES, bind_ok.
  destruct skip; cbn [negb]; [left; rewrite bind_ok; eauto|].
  destruct (verify_total series g i) as [(v & ->)|(G & E & K)].
  - left. rewrite bind_ok. destruct v as [[|q]|]; eauto.
  - right. rewrite E. split; auto.
Qed.
End Spectrum.
