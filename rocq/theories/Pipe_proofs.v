(** Totality of the detection pipeline: the seasonal detector, the merge with
    the differenced run, and the model selection. *)
From Coq Require Import String List Arith ZArith QArith Qcanon Qround Lia Lqa Bool Sorted Permutation.
From Verif Require Import Base Num Sorting Kernel_model Kernel_spec Kernel_proofs Kernel_proofs2 Kernel_proofs3 Kernel_props
  FillUp_model FillUp_spec FillUp_proofs6 FillUp_props
  Helpers_model Helpers_spec Helpers_proofs Helpers_proofs2 Helpers_props Margins_model SR_model SR_proofs2 Detect_model Detect_spec Period_spec
  Detect_proofs Detect_proofs2 Detect_proofs3 Detect_proofs4 Detect_proofs5.
Import ListNotations.
Open Scope nat_scope.

Lemma quarter_ceiling : forall n ratio, (ratio <= Q2Qc (1 # 4))%Qc -> (4 * Qceiling (this (qn n * ratio)%Qc) <= Z.of_nat n + 3)%Z.
Proof.
  intros n ratio Hr. set (x := (qn n * ratio)%Qc). pose proof (Qceiling_lt (this x)) as H.
  assert (X : (Q2Qc 4 * x <= qn n)%Qc).
  { unfold x. pose proof (qn_nonneg n). assert ((qn n * ratio <= qn n * Q2Qc (1 # 4))%Qc) by qnra.
    assert (E : (Q2Qc 4 * (qn n * Q2Qc (1 # 4)) = qn n)%Qc) by (rewrite (Qcmult_comm (qn n)), Qcmult_assoc; replace (Q2Qc 4 * Q2Qc (1 # 4))%Qc with 1%Qc by (apply Qc_is_canon; reflexivity); ring).
    rewrite <- E. qlra. }
  set (z := Qceiling (this x)) in *.
  assert (L : (qz (z - 1) < x)%Qc) by (unfold Qclt; rewrite this_qz; exact H).
  assert (L2 : (qz (4 * (z - 1)) < qz (Z.of_nat n))%Qc).
  { rewrite qz_mul. change (qz 4) with (Q2Qc 4). change (qz (Z.of_nat n)) with (qn n). qlra. }
  apply qz_lt in L2. lia.
Qed.

Section Pipe.
Variable cst : Qc.
Variable std : list Qc -> Qc.
Variable ppf : Qc -> Z -> Qc.
Variable sqrt : Qc -> Qc.
Variable table : list Qc.
Variable sort sort_desc : list (nat * Qc) -> list (nat * Qc).
Hypothesis SU : sorts_up sort.
Notation crit alpha := (get_critical ppf sqrt table alpha).

Lemma ts_select : forall data rem alpha ratio lm, 4 <= length data -> length rem = length data ->
  exists idx m, ts_detect_anomaly cst std ppf sqrt table sort data rem alpha ratio lm = Ok (idx, m) /\
    NoDup idx /\ length idx <= 2 * dt_quota (length data) ratio.
Proof.
  intros data rem alpha ratio lm L4 LR. unfold ts_detect_anomaly. cbv zeta.
  set (sorted := sorted_series sort data). set (sr := sorted_series sort rem). set (maxo := dt_quota (length data) ratio).
  assert (LS : length sorted = length data) by (apply sorted_length; auto).
  assert (LSR : length sr = length rem) by (apply sorted_length; auto).
  destruct (majority_cases cst sorted (length data) LS L4) as (maj & EM & CM). rewrite EM, bind_ok.
  destruct (majority_cases cst sr (length rem) LSR ltac:(lia)) as (majr & EMR & CMR). rewrite EMR, bind_ok.
  assert (QM : maxo <= length data / 2 - 1) by (unfold maxo, dt_quota; lia).
  assert (QR : maxo <= length rem / 2 - 1) by (rewrite LR; auto).
  destruct (esd_on_sorted cst std ppf sqrt table sort SU data alpha maxo maj true lm L4 QM CM) as (eu & EU & _).
  destruct (esd_on_sorted cst std ppf sqrt table sort SU data alpha maxo maj false lm L4 QM CM) as (el & EL & _).
  destruct (esd_on_sorted cst std ppf sqrt table sort SU rem alpha maxo majr true lm ltac:(lia) QR CMR) as (ru & RU & _).
  destruct (esd_on_sorted cst std ppf sqrt table sort SU rem alpha maxo majr false lm ltac:(lia) QR CMR) as (rl & RL & _).
  fold sorted in EU, EL. fold sr in RU, RL.
  match goal with |- context [detect_tails ?ds ?q ?n] => destruct (detect_tails ds q n) as [idx|e] eqn:DT end.
  - rewrite bind_ok. destruct (detect_tails_len _ _ _ _ DT) as [A B]. eexists _, _. split; [reflexivity|]. auto.
  - exfalso. unfold detect_tails in DT. cbn [run_detectors] in DT. rewrite EU, RU in DT. rewrite !bind_ok in DT. rewrite EL, RL in DT.
    rewrite !bind_ok in DT. discriminate.
Qed.

Lemma free_position : forall (idx : list nat) n, length idx < n -> exists p, p < n /\ ~ In p idx.
Proof.
  intros idx n L. destruct (Exists_dec (fun p => ~ In p idx) (range n)) as [E|E].
  - intros p. destruct (in_dec Nat.eq_dec p idx); [right; tauto|left; auto].
  - apply Exists_exists in E. destruct E as (p & A & B). exists p. split; auto. unfold range in A. apply in_seq in A. lia.
  - exfalso. assert (INC : incl (range n) idx).
    { intros p Hp. destruct (in_dec Nat.eq_dec p idx); auto. exfalso. apply E. apply Exists_exists. eauto. }
    apply NoDup_incl_length in INC; [|apply seq_NoDup]. unfold range in INC. rewrite seq_length in INC. lia.
Qed.

Lemma blank_trend_known : forall idx period trend p v, 1 < period -> p < length trend - period / 2 -> ~ In p idx ->
  nth_error trend p = Some v -> nth_error (blank_trend idx period trend) p = Some (Some v).
Proof.
  intros idx period trend p v Hp HL NI HV. unfold blank_trend. cbv zeta.
  assert (B : nth_error (blank idx trend) p = Some (Some v)).
  { unfold blank. rewrite nth_error_mapi, HV. simpl. destruct (mem_nat p idx) eqn:E; auto. apply mem_nat_in in E. contradiction. }
  assert (W : 1 <= period / 2) by (apply Nat.div_le_lower_bound; lia).
  destruct (period / 2 <=? _); auto. destruct (period / 2 =? 0) eqn:E0; [apply Nat.eqb_eq in E0; lia|].
  rewrite nth_error_app1 by (rewrite firstn_length, blank_length; lia). rewrite nth_error_firstn.
  rewrite (proj2 (Nat.ltb_lt _ _) HL). auto.
Qed.
Lemma blank_trend_length : forall idx period trend, period / 2 <= length trend -> length (blank_trend idx period trend) = length trend.
Proof.
  intros idx period trend H. unfold blank_trend. cbv zeta. destruct (period / 2 <=? _); [|apply blank_length].
  destruct (period / 2 =? 0) eqn:E0; [apply repeat_length|]. rewrite app_length, firstn_length, repeat_length, blank_length. lia.
Qed.

Variable decompose : bool -> list Qc -> nat -> res (list Qc * list Qc).

(** The seasonal detector answers as long as the quota of both tails and half
    a period leave a point over. *)
Lemma ts_total : forall series period alpha ratio adjust nt lm trend season,
  (ratio <= Q2Qc (49 # 100))%Qc -> 4 <= length series -> 1 < period -> 2 * period < length series ->
  decompose adjust series period = Ok (trend, season) -> length trend = length series -> length season = length series ->
  2 * dt_quota (length series) ratio + period / 2 < length series ->
  exists rows m, seasonal_series_detection cst std ppf sqrt table sort decompose series period alpha ratio adjust nt lm = Ok (rows, m) /\
    length rows = length series.
Proof.
  intros series period alpha ratio adjust nt lm trend season HR L4 HP HL ED LT LS HQ. unfold seasonal_series_detection. cbv zeta.
  destruct (Q2Qc (49 # 100) <? ratio)%Qc eqn:E1; [apply Qcltb_lt in E1; exfalso; qlra|].
  destruct (length series =? 0) eqn:E2; [apply Nat.eqb_eq in E2; lia|].
  destruct (length series <? period * 2 + 1) eqn:E3; [apply Nat.ltb_lt in E3; lia|].
  rewrite ED, bind_ok. cbn [fst snd]. rewrite LT, LS, Nat.eqb_refl. cbn [andb negb].
  set (rt := if (ratio <? 1 / qn (length series))%Qc then (1 / qn (length series))%Qc else ratio).
  assert (QE : dt_quota (length series) rt <= dt_quota (length series) ratio).
  { unfold rt. destruct (ratio <? 1 / qn (length series))%Qc; auto. unfold dt_quota.
    replace (qn (length series) * (1 / qn (length series)))%Qc with 1%Qc by (field; apply qn_neq0; lia). cbn. lia. }
  set (ds := zip_with (fun a b => (a - b)%Qc) series season). set (rm := zip_with (fun a b => (a - b)%Qc) ds trend).
  assert (LD : length ds = length series) by (unfold ds; rewrite zip_with_length; lia).
  assert (LM : length rm = length series) by (unfold rm; rewrite zip_with_length; lia).
  destruct (normalize_spec ds) as (u & mn & mx & EN & LU & _); [intros X; rewrite X in LD; simpl in LD; lia|].
  destruct (normalize_spec rm) as (w & mn2 & mx2 & EN2 & LW & _); [intros X; rewrite X in LM; simpl in LM; lia|].
  rewrite EN, bind_ok, EN2, bind_ok. cbn [fst snd].
  destruct (ts_select u w alpha rt lm) as (idx & m & EA & ND & LI); [lia|lia|]. rewrite EA, bind_ok. cbn [fst snd].
  rewrite LU, LD in LI.
  assert (T : exists tr, match idx with [] => Ok trend | _ => interp (blank_trend idx period trend) end = Ok tr /\ length tr = length series).
  { destruct idx as [|i0 it] eqn:EI; [eauto|]. rewrite <- EI in *.
    destruct (free_position idx (length series - period / 2)) as (p & P1 & P2); [lia|].
    destruct (nth_error_ex _ trend p ltac:(lia)) as [v Hv].
    destruct (interp_spec (blank_trend idx period trend)) as (o & Eo & Lo & _).
    { exists p, v. apply blank_trend_known; auto. rewrite LT. auto. }
    exists o. split; auto. rewrite Lo, blank_trend_length; auto. lia. }
  destruct T as (tr & -> & LTR). rewrite bind_ok.
  destruct (result_frame_total series (zip_with Qcplus tr season) (if nt then Some tr else None) None idx) as (rows & ER).
  { rewrite zip_with_length. lia. } { intros l X. destruct nt; inversion X; subst; auto. } { discriminate. }
  exists rows, m. rewrite ER, bind_ok. split; auto. apply result_frame_spec in ER. tauto.
Qed.

Variable stationary : list Qc -> bool.
(** Differencing at most doubles the size of the values. *)
Lemma diffs_bounded : forall B v, sized B v -> sized (Q2Qc 2 * B)%Qc (diffs v).
Proof.
  intros B [|x t] HB; [intros y []|]. cbn [diffs]. intros y I.
  assert (K : forall a b y, In y (zip_with (fun a b => (a - b)%Qc) a b) -> exists u w, In u a /\ In w b /\ y = (u - w)%Qc).
  { induction a as [|u a IH]; intros [|w b] z Iz; cbn in Iz; try contradiction.
    destruct Iz as [<-|Iz]; [exists u, w; cbn; auto|]. destruct (IH b z Iz) as (u' & w' & A & C & E). exists u', w'. cbn; auto. }
  destruct (K _ _ _ I) as (u & w & U & W & ->). assert (HU := HB u (or_intror U)). assert (HW := HB w W). revert HU HW. unfold Qcabs.
  destruct (0 <=? u)%Qc eqn:E1, (0 <=? w)%Qc eqn:E2, (0 <=? u - w)%Qc eqn:E3;
    repeat match goal with H : (_ <=? _)%Qc = true |- _ => apply Qcleb_le in H | H : (_ <=? _)%Qc = false |- _ => apply Qcleb_gt in H end;
    intros; qlra.
Qed.
Lemma get_delta_bounded : forall B k v d, sized B v -> get_delta k v = Ok d -> sized (Q2Qc 2 * B)%Qc d.
Proof.
  intros B k v d HB E. unfold get_delta in E. cbv zeta in E. apply diffs_bounded in HB. bind_inv E. inversion E; subst d.
  intros y I. apply in_app_or in I. destruct I as [I|I].
  - apply repeat_spec in I. subst y. apply HB. unfold get in E0. destruct (nth_error (diffs v) k) eqn:EN; inversion E0; subst. eapply nth_error_In; eauto.
  - apply HB. rewrite <- (firstn_skipn k (diffs v)). apply in_or_app. auto.
Qed.
Lemma delta_bounded : forall B v z s, sized B v -> should_include_delta stationary v = Ok (z, s) -> sized (Q2Qc 4 * B)%Qc s.
Proof.
  intros B v z s HB E.
  assert (W : forall c d l, (1 <= c)%Qc -> (c <= d)%Qc -> sized (c * B)%Qc l -> sized (d * B)%Qc l).
  { intros c d l C1 CD H y I. pose proof (H y I). pose proof (Qcabs_nonneg y).
    assert (0 <= B)%Qc. { destruct (Qclt_le_dec' B 0) as [X|X]; auto. exfalso. assert (c * B < 0)%Qc by qnra. qlra. } 
    assert (c * B <= d * B)%Qc by qnra. qlra. }
  assert (H1 : sized (1 * B)%Qc v) by (replace (1 * B)%Qc with B by ring; auto).
  unfold should_include_delta, range in E. cbn [seq include_loop] in E.
  assert (C14 : (1 <= 1)%Qc /\ (1 <= Q2Qc 4)%Qc /\ (1 <= Q2Qc 2)%Qc /\ (Q2Qc 2 <= Q2Qc 4)%Qc) by (repeat split; discriminate).
  destruct C14 as (K1 & K2 & K3 & K4).
  destruct (stationary v); [inversion E; subst; apply (W 1%Qc); auto|]. bind_inv E.
  apply (get_delta_bounded _ _ _ _ HB) in E0. destruct (stationary a); [inversion E; subst; apply (W (Q2Qc 2)); auto|]. bind_inv E.
  apply (get_delta_bounded _ _ _ _ E0) in E1.
  replace (Q2Qc 2 * (Q2Qc 2 * B))%Qc with (Q2Qc 4 * B)%Qc in E1 by (replace (Q2Qc 4) with (Q2Qc 2 * Q2Qc 2)%Qc by (apply Qc_is_canon; reflexivity); ring).
  destruct (stationary a0); [inversion E; subst; auto|]. bind_inv E. inversion E; subst. apply (W 1%Qc); auto.
Qed.
Lemma merge_total : forall B results func series ratio n, 4 <= n -> length series = n -> length results = n -> sized B series ->
  (forall s r, length s = n -> sized (Q2Qc 4 * B)%Qc s -> exists rows m, func s r = Ok (rows, m : model_id) /\ length rows = n) ->
  exists rows, merge_with_delta stationary results func series ratio = Ok rows /\ length rows = n.
Proof.
  intros B results func series ratio n Hn LS LR HB HF. unfold merge_with_delta.
  destruct series as [|v0 [|v1 rest]]; [simpl in LS; lia|simpl in LS; lia|]. set (series := v0 :: v1 :: rest) in *.
  destruct (C27_differencing_can_be_undone stationary series v0 v1 rest eq_refl ltac:(lia)) as (z & s & E & L & _).
  rewrite E, bind_ok. cbn [fst snd]. destruct (z <=? 0)%Z; [eauto|]. cbv zeta. destruct (_ <=? count_anomalies results); [eauto|].
  match goal with |- context [func s ?r] => destruct (HF s r ltac:(lia) (delta_bounded B series z s HB E)) as (diff & m & EF & LF) end. rewrite EF, bind_ok. cbn [fst].
  rewrite LF, LR, Nat.eqb_refl. cbn [negb].
  match goal with |- context [filter ?f (range n)] => set (pos := filter f (range n)) end.
  assert (C : forall ori new, length ori = n -> length new = n ->
    exists out, correct_expected_value_in_delta pos ori new z (map r_value results) = Ok out /\ length out = n).
  { intros ori new L1 L2. 
    assert (D : exists d1, (z = 2%Z /\ (exists v0 v1, nth_error (map r_value results) 0 = Some v0 /\ nth_error (map r_value results) 1 = Some v1 /\
         reverse_delta (v1 - v0)%Qc 2 new = Ok d1) \/ z <> 2%Z /\ d1 = new) /\ length d1 = n).
    { destruct (Z.eq_dec z 2) as [->|NZ]; [|exists new; auto].
      destruct (nth_error_ex _ (map r_value results) 0) as [x0 X0]; [rewrite map_length; lia|].
      destruct (nth_error_ex _ (map r_value results) 1) as [x1 X1]; [rewrite map_length; lia|].
      exists (repeat (x1 - x0)%Qc 2 ++ reverse_loop (x1 - x0)%Qc (skipn 2 new)). split.
      - left. split; auto. exists x0, x1. auto.
      - rewrite app_length, repeat_length.
        assert (RL : forall ds acc, length (reverse_loop acc ds) = length ds) by (induction ds; intros; simpl; auto).
        rewrite RL, skipn_length. lia. }
    destruct D as (d1 & D & LD).
    destruct (C27_expected_values_put_back pos ori new z (map r_value results) d1) as (out & EO & LO & _); auto.
    - lia. - rewrite map_length. lia.
    - intros p Hp. unfold pos in Hp. apply filter_In in Hp. destruct Hp as [Hp _]. unfold range in Hp. apply in_seq in Hp. lia.
    - lia.
    - exists out. split; auto. lia. }
  destruct (C (map r_trend results) (map r_trend diff)) as (t & -> & _); [rewrite map_length; auto|rewrite map_length; auto|]. rewrite bind_ok.
  destruct (C (map r_expected results) (map r_expected diff)) as (x & -> & _); [rewrite map_length; auto|rewrite map_length; auto|]. rewrite bind_ok.
  eexists. split; [reflexivity|]. rewrite mapi_length. auto.
Qed.
End Pipe.
