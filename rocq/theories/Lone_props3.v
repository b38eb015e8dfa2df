(** Property C116, boundary version V2. *)
From Coq Require Import String List Arith ZArith QArith Qcanon Qround Lia Lqa Bool Sorted Permutation.
From Verif Require Import Base Num Sorting Kernel_model Kernel_spec Kernel_proofs FillUp_model FillUp_spec FillUp_proofs FillUp_proofs6 FillUp_props Helpers_model Helpers_props
  Margins_model Margins_spec Margins_proofs Margins_proofs3 SR_model Detect_model Detect_spec Detect_proofs Detect_proofs2 Detect_proofs4 Detect_proofs5 Detect_proofs6 Detect_proofs7 Detect_props
  Dates_model Request_model Request_spec Request_proofs Request_proofs2 Request_proofs3 Request_proofs4 Request_proofs6 Request_proofs8 Request_props
  Period_model Period_spec Period_props Trend_model Trend_spec Trend_props Stl_model Stl_spec Stl_props Units_props Pipe_model Pipe_spec Pipe_proofs Pipe_proofs2 Pipe_proofs3 Pipe_props
  Expect_proofs Const_spec Const_proofs Const_proofs2 Const_props Spike_spec Spike_proofs Lone_spec Lone_proofs Lone_props Table_model Table_proofs Table_props Lone_proofs2 Lone_spec2 Lone_props2.
Import ListNotations.
Open Scope string_scope.
Open Scope nat_scope.

(** The unit of a frame whose trend is [b] throughout. *)
Lemma level_units : forall rows b, (forall r, In r rows -> r_trend r = b) -> (exists r, In r rows /\ r_anomaly r = false) ->
  forall u, In u (calculate_boundary_units rows) -> u = Qcmax (Q2Qc (3 # 10)) (Qcabs b).
Proof.
  intros rows b HT (r0 & I0 & A0) u IU. unfold calculate_boundary_units in IU. cbv zeta in IU. set (normal := map r_trend _) in IU.
  assert (HN : forall x, In x normal -> x = b).
  { intros x I. unfold normal in I. apply in_map_iff in I. destruct I as (r & <- & I). apply filter_In in I. apply HT, I. }
  assert (IN : In b normal). { unfold normal. rewrite <- (HT r0 I0). apply in_map. apply filter_In. rewrite A0. auto. }
  change (Q2Qc (3 # 10)) with MIN_UNIT. destruct (forallb _ normal) eqn:EF.
  - apply in_map_iff in IU. destruct IU as (r & <- & _). rewrite forallb_forall in EF. specialize (EF b IN). apply Qcltb_lt in EF.
    assert (L : (Qcabs b <= MIN_UNIT)%Qc) by (eapply Qcle_trans; [apply Qclt_le_weak; exact EF|vm_compute; discriminate]).
    apply Qcle_antisym; [apply Qcmax_l|apply Qcmax_lub; auto; apply Qcle_refl].
  - assert (QM : qmean (map Qcabs normal) = Qcabs b).
    { assert (EN : map Qcabs normal = repeat (Qcabs b) (length normal)).
      { clear - HN. induction normal as [|x l IH]; auto. cbn [map length repeat]. rewrite (HN x) by (left; auto). f_equal. apply IH. intros y I. apply HN. right; auto. }
      rewrite EN. unfold qmean. rewrite repeat_length. assert (N0 : qn (length normal) <> 0%Qc) by (apply qn_neq0; destruct normal; [destruct IN|cbn; lia]).
      assert (S : forall k, qsum (repeat (Qcabs b) k) = (qn k * Qcabs b)%Qc).
      { induction k; cbn [repeat qsum]; [change (qn 0) with 0%Qc; ring|]. rewrite IHk, qn_S. ring. }
      rewrite S. field. auto. }
    rewrite QM in IU. apply in_map_iff in IU. destruct IU as (x & <- & IX).
    assert (HU : forall y, In y (map (fun r => Qcabs (r_trend r) * Q2Qc (1 # 2) + Qcabs b * Q2Qc (1 # 2))%Qc rows) -> y = Qcabs b).
    { intros y I. apply in_map_iff in I. destruct I as (r & <- & I). rewrite (HT r I). assert (H2 : (Q2Qc (1 # 2) + Q2Qc (1 # 2) = 1)%Qc) by (apply Qc_is_canon; reflexivity).
      replace (Qcabs b * Q2Qc (1 # 2) + Qcabs b * Q2Qc (1 # 2))%Qc with (Qcabs b * (Q2Qc (1 # 2) + Q2Qc (1 # 2)))%Qc by ring. rewrite H2. ring. }
    rewrite (HU x IX). set (units := map _ rows) in *. assert (MX : qmax_list units = Qcabs b) by (apply HU, qmax_list_in; intro X; rewrite X in IX; destruct IX).
    rewrite MX. unfold np_clip. set (t := Qcabs b). clearbody t. set (m := MIN_UNIT). clearbody m. apply Qcle_antisym; [apply Qcmin_r|apply Qcmin_glb; [|apply Qcle_refl]].
    apply Qcmax_lub; [apply Qcmax_r|apply Qcmax_l].
Qed.

Local Transparent factor.
Lemma factor_nth : forall s, s < 101 -> nth_error factors s = Some (factor s).
Proof. intros s H. unfold factor. apply nth_error_nth'. exact H. Qed.
Local Opaque factor.
Lemma lone_v2_point : forall u b c z i k r o, (0 <= z <= 100)%Z -> c <> 0%Qc -> u = Qcmax (Q2Qc (3 # 10)) (Qcabs b) ->
  (if i =? k then spike_row b c r else level_row b r) ->
  v2_entire_point (qz z) u r = Ok o \/ v2_last_point (qz z) u r = Ok o -> lone_outcome (shown_v2 z b c) b c (i = k) o.
Proof.
  intros u b c z i k r o Z C EU R E. assert (HM : (MIN_UNIT <= u)%Qc) by (rewrite EU; apply Qcmax_l).
  destruct (v2_point_spec z u r Z HM) as (o1 & ol & E1 & E2 & X & UP & LO & P & N & A & AN & _ & _ & X' & U' & L' & N' & P' & A' & _).
  assert (G : o_expected o = r_expected r /\ o_anomaly o = o_anomaly o1 /\ o_pos o = o_pos o1 /\ o_neg o = o_neg o1).
  { destruct E as [E|E]; [assert (o1 = o) by congruence|assert (ol = o) by congruence]; subst; repeat split; congruence. }
  destruct G as (G1 & G2 & G3 & G4). unfold lone_outcome. rewrite G1, G2, G3, G4. clear E E1 E2 G1 G2 G3 G4 X' U' L' N' P' A' ol o.
  assert (SH : shown_v2 z b c <-> reportable z u (Qcabs c)).
  { unfold shown_v2, reportable. rewrite <- EU. assert (EFc : nth_error factors (Z.to_nat z) = Some (factor (Z.to_nat z))) by (apply factor_nth; lia).
    split.
    - intros (f & F & H). rewrite EFc in F. assert (factor (Z.to_nat z) = f) by congruence. subst f. cbv zeta in H. destruct H as [H|(-> & H)]; auto.
    - intros H. exists (factor (Z.to_nat z)). split; auto. cbv zeta. destruct H as [H|(-> & H)]; auto. }
  destruct (i =? k) eqn:IK.
  - apply Nat.eqb_eq in IK. destruct R as (V & RX & RA & _). rewrite V, RX in AN. rewrite RX in X. replace (b + c - b)%Qc with c in AN by ring. rewrite <- SH in AN.
    split; auto. split; [tauto|]. unfold above, below in P, N. 
    assert (M : o_anomaly o1 = true <-> o_neg o1 = true \/ o_pos o1 = true) by (rewrite A; apply orb_true_iff).
    rewrite V, X in P, N. assert (P2 : o_pos o1 = true -> (0 < c)%Qc) by (intro Y; apply P in Y; qlra). assert (N2 : o_neg o1 = true -> (c < 0)%Qc) by (intro Y; apply N in Y; qlra).
    split; (split; [intro Y; split; [apply M; auto|auto]|]); intros [Y1 Y2]; apply M in Y1; destruct Y1 as [Y1|Y1]; auto; exfalso; [apply N2 in Y1|apply P2 in Y1]; qlra.
  - apply Nat.eqb_neq in IK. destruct R as (V & RX & RA & _). rewrite RA in AN.
    assert (NA : o_anomaly o1 = false) by (destruct (o_anomaly o1); auto; destruct AN as [Y _]; destruct (Y eq_refl); discriminate).
    rewrite NA in A. symmetry in A. apply orb_false_iff in A. destruct A as [A1 A2]. rewrite A1, A2, NA.
    split; auto. split; [split; [discriminate|intros [Y _]; congruence]|]. split; (split; [discriminate|intros [Y _]; discriminate]).
Qed.

(** With a trend asked for, the trend of each row is its expected value. *)
Lemma lone_trend : forall L a det period lm n k b c rows p m filled, libs_ok L ->
  a_values a = spiked n k b c -> f_need (a_fup a) = false -> 12 <= n -> k < n -> a_need_trend a = true -> l_stationary L (spiked n k b c) = true ->
  whole_detect L a det period lm = Ok (rows, p, m, filled) -> p <= 1 -> forall r, In r rows -> r_trend r = r_expected r.
Proof.
  intros L a det period lm n k b c rows p m filled OK EV EF N K NT SY E P1. unfold whole_detect in E. apply detect_inv in E. destruct E as (rows0 & E & ->).
  unfold detect_with_model_selection in E. cbv zeta in E. set (mr := if lm && _ then _ else _) in E. clearbody mr. bind_inv E. rename a0 into p'.
  destruct ((1 <? p') && _) eqn:EG; [discriminate E|].
  assert (FN : (if (1 <? p') || fills_without_period (a_mode a) then fill_up_on_demand (l_spline L) (a_fup a) (a_mode a) (a_fixed a) (Some (Z.of_nat p')) else Ok None) = Ok None).
  { destruct (_ || _); auto. unfold fill_up_on_demand, fill_up. rewrite EF. destruct (a_mode a); auto. }
  rewrite FN, !bind_ok in E. rewrite EV in E. bind_inv E. destruct a0 as [frame m']. cbn [fst snd] in E.
  assert (X : frame = rows0 /\ p' = p /\ m' = m) by (repeat split; congruence). destruct X as (-> & -> & ->). clear E.
  assert (B1 : (1 <? p) = false) by (apply Nat.ltb_ge; auto). rewrite B1 in E1. rewrite spiked_no_sr in E1 by lia.
  bind_inv E1. bind_inv E1. destruct a1 as [r0 m0]. bind_inv E1. cbn [fst snd] in *. assert (X : a1 = rows0 /\ m0 = m) by (split; congruence). destruct X as (-> & ->). clear E1.
  destruct (C62_delta_only_adds _ _ _ _ _ _ E3) as (_ & _ & S & _). rewrite (S SY) in *. rewrite NT in E2.
  assert (LS : 4 <= length (spiked n k b c)) by (rewrite spiked_length; lia).
  destruct (dynamic_expected _ _ _ _ _ _ (ok_sort L OK) (fun _ _ _ => Err Generic) _ _ _ _ _ _ _ _ _ LS E2) as (_ & _ & T & _). specialize (T eq_refl).
  intros r I. apply in_map_iff in I. destruct I as (r1 & <- & I).
  assert (G : r_trend r1 = r_expected r1).
  { apply In_nth_error in I. destruct I as [i I]. apply (f_equal (fun l => nth_error l i)) in T. rewrite !nth_error_map, I in T. cbn in T. congruence. }
  clear - G. unfold refine_row_flags. destruct (_ <? _)%Qc; exact G.
Qed.

Section Request.
Context {T : Type}.
Variable to_datetime : list T -> option (list stamp).
Hypothesis to_datetime_length : forall l st, to_datetime l = Some st -> length st = length l.
Variable majority : list Qc -> Qc.
Variable beyond : list (point T) -> settings -> res (reply T).
Variable L : libs.
Notation PRED := (predict T to_datetime majority (whole_detect L) beyond).

(** C116. The same request with boundary version V2: the deviating point is an
    anomaly exactly if it is beyond the reach of the sensitivity. *)
Theorem C116_request_v2 : forall o rows d mode k b c, libs_ok L -> steady L -> l_table L = critical_table ->
  (forall l, l <> [] -> (forall x, In x l -> x = 0%Qc \/ x = 1%Qc) -> close_std (l_std L) l) ->
  l_stationary L (spiked (length rows) k b c) = true ->
  12 <= length rows -> (Z.of_nat (length rows) <= 8640)%Z -> k < length rows ->
  (forall i x, nth_error rows i = Some x -> w_value x = Num (Request_model.Fin (if (i =? k)%nat then b + c else b)%Qc)) ->
  (EPS <= Qcabs c)%Qc -> (Qcabs b <= qz (10 ^ 34))%Qc -> (Qcabs (b + c) <= qz (10 ^ 34))%Qc ->
  decides parameter_rules d None -> get "granularity" d = None \/ Request_spec.given "granularity" d (VStr "none") ->
  get "period" d = None -> (forall v q, Request_spec.given "alpha" d v -> is_number v q -> default_level q) ->
  get "boundaryVersion" d <> None -> ~ Request_spec.given "boundaryVersion" d VNone -> ~ Request_spec.given "boundaryVersion" d (VStr "V1") ->
  (forall dd, ~ Request_spec.given "detector" d (VDict dd)) -> o__error o = None -> mode_for o d = Some mode ->
  exists y z, reads_or "sensitivity" d 99%Z is_int z /\ result (PRED o (DFrame rows) (Some d)) = Ok y /\ lone_reply (length rows) k (shown_v2 z b c) b c y.
Proof.
  intros o rows d mode k b c OK ST TB CS SY L12 LM K HV C B1 B2 H HG HP HA HB1 HB2 HB3 ND HE HM.
  assert (C0 : c <> 0%Qc) by (intros ->; vm_compute in C; apply C; reflexivity).
  assert (NE : rows <> []) by (destruct rows; [simpl in L12; lia|discriminate]).
  assert (FV : forall x, In x rows -> exists q, w_value x = Num (Request_model.Fin q) /\ (- value_bound <= q <= value_bound)%Qc).
  { intros x I. apply In_nth_error in I. destruct I as [i I]. exists (if (i =? k)%nat then b + c else b)%Qc. split; [apply (HV i x I)|].
    assert (V : (qz (10 ^ 34) <= value_bound)%Qc) by (vm_compute; discriminate).
    assert (X : forall q, (Qcabs q <= qz (10 ^ 34))%Qc -> (- value_bound <= q <= value_bound)%Qc).
    { intros q X. revert X V. generalize (qz (10 ^ 34)) value_bound. intros u v. qmm; intros; split; qlra. }
    destruct (i =? k); auto. }
  destruct (C81_detector_arguments to_datetime to_datetime_length majority beyond o rows d mode NE H) as (l & a & per & z & A & AI & RZ & KK); auto.
  - intros s R X. rewrite (no_granularity d s HG R) in X. discriminate.
  - intros s R. rewrite (no_granularity d s HG R). apply good_rows; auto.
  - intros s l vs R AI LV. apply (C82_usable_indices to_datetime to_datetime_length rows GNone (s_interval s) None false l vs); auto.
    + apply good_rows; auto.
    + rewrite (no_granularity d s HG R) in AI. auto.
  - assert (P : per = None).
    { destruct (asked_period _ _ _ _ _ _ A) as [[_ E]|(v & E & _)]; [auto|unfold Request_spec.given in E; congruence]. }
    subst per. rewrite (asked_none majority d rows l a None HG A) in AI. destruct AI as [[_ ->]|(X & _)]; [|congruence].
    pose proof (asked_process _ _ _ _ _ _ A) as HF. destruct (no_gaps (length rows) _ _ ltac:(lia) HF) as [EN _].
    pose proof (ratio_in_range d _ H (asked_ratio _ _ _ _ _ _ A)) as [R0 R4].
    assert (EV : a_values a = spiked (length rows) k b c).
    { pose proof (asked_values _ _ _ _ _ _ A) as F2. pose proof (Forall2_length _ _ _ _ _ F2) as LF.
      apply nth_error_ext_len; [rewrite spiked_length; auto|]. intros i Hi. rewrite <- LF in Hi. rewrite spiked_nth by auto.
      destruct (nth_error rows i) as [x|] eqn:EX; [|apply nth_error_None in EX; lia].
      assert (G : forall (rs : list (point T)) vs j y, Forall2 (fun x v => w_value x = Num (Request_model.Fin v)) rs vs -> nth_error rs j = Some y ->
        exists v, nth_error vs j = Some v /\ w_value y = Num (Request_model.Fin v)).
      { clear. intros rs vs j y F. revert j. induction F; intros [|j] E; simpl in *; try discriminate; [inversion E; subst; eauto|eauto]. }
      destruct (G _ _ _ _ F2 EX) as (v & -> & E). rewrite (HV i x EX) in E. inversion E. reflexivity. }
    assert (DL : default_level (a_alpha a)).
    { destruct (asked_alpha _ _ _ _ _ _ A) as [[_ ->]|(v & G & I)]; [vm_compute; discriminate|eauto]. }
    assert (NT : a_need_trend a = true).
    { destruct (a_need_trend a) eqn:X; auto. apply (asked_trend _ _ _ _ _ _ A) in X. destruct X as [X|[X|X]]; [congruence|contradiction|contradiction]. }
    destruct (C116_detector L (map Z.of_nat (List.seq 0 (length rows))) a (match mode with VMode LATEST => true | _ => false end) (length rows) k b c)
      as (out & f & E & LO & _ & OS); auto.
    { rewrite map_length, seq_length. auto. } { lia. } { split; [apply Qclt_le_weak|]; auto. }
    specialize (OS SY). destruct (KK (whole_detect L)) as [_ KO]. destruct (KO out 0 DynamicThreshold f E LO) as (y & Y & P).
    exists y, z. split; auto. split; auto. rewrite NT in P. cbn [negb] in P. pose proof (sensitivity_in_range d z H RZ) as ZR.
    pose proof (lone_trend L a (mkDet None None) None _ (length rows) k b c out 0 DynamicThreshold f OK EV EN ltac:(lia) K NT SY E ltac:(lia)) as TR.
    assert (XB : forall r, In r out -> r_expected r = b).
    { intros r I. apply In_nth_error in I. destruct I as [i I]. pose proof (proj2 OS i r I) as Q. destruct (i =? k); apply Q. }
    assert (UN : forall u, In u (calculate_boundary_units out) -> u = Qcmax (Q2Qc (3 # 10)) (Qcabs b)).
    { apply level_units; [intros r I; rewrite TR by auto; auto|]. set (j := if k =? 0 then 1 else 0). assert (J : j < length rows /\ j <> k) by (unfold j; destruct (Nat.eqb_spec k 0); lia).
      destruct (nth_error out j) as [r|] eqn:X; [|apply nth_error_None in X; lia]. exists r. split; [eapply nth_error_In; eauto|].
      pose proof (proj2 OS j r X) as Q. destruct (Nat.eqb_spec j k); [lia|]. apply Q. }
    assert (NO : out <> []) by (intro X; rewrite X in LO; cbn in LO; lia).
    destruct y as [ls q|t o' q sw]; cbn [presents lone_reply] in *.
    + destruct P as (_ & -> & LL & P & _). split; auto. split; auto. intros i t o' I. change (get_margins_v2_entire out (qz z) = Ok (map snd ls)) in P.
      destruct (v2_rows out z NO ZR) as (outs & EO & LOU & HO). assert (outs = map snd ls) by congruence. subst outs.
      assert (IL : i < length out) by (apply nth_error_lt in I; lia). destruct (nth_error out i) as [r|] eqn:ER; [|apply nth_error_None in ER; lia].
      destruct (HO i r ER) as (u & o1 & IU & _ & IO & EP). rewrite nth_error_map, I in IO. cbn in IO. assert (o1 = o') by congruence. subst o1.
      apply (lone_v2_point u b c z i k r); auto; [apply UN; eapply nth_error_In; eauto|apply (proj2 OS i r ER)].
    + destruct P as (_ & -> & P & _). split; auto. change (get_margins_v2_last out (qz z) = Ok o') in P. unfold get_margins_v2_last in P. bind_inv P. bind_inv P.
      apply Lone_props2.last_opt_nth in E0. rewrite LO in E0. apply Lone_props2.last_opt_nth in E1.
      apply (lone_v2_point a1 b c z (length rows - 1) k a0); auto; [apply UN; eapply nth_error_In; eauto|apply (proj2 OS _ a0 E0)].
Qed.
End Request.
Print Assumptions C116_request_v2.

(** Fifteen sevens, the eleventh an eight or 7.5, at sensitivity 90: the reach is
    7 * 0.0909..., so only the eight is shown. *)
Definition asks_v2 : dict := ("boundaryVersion", VStr "V2") :: ("sensitivity", VInt 90) :: entire.
Lemma v2_asks : decides parameter_rules asks_v2 None.
Proof. eapply params_ok; vm_compute; reflexivity. Qed.
Example C116_v2_example : 
  decides parameter_rules asks_v2 None /\ get "boundaryVersion" asks_v2 <> None /\ ~ Request_spec.given "boundaryVersion" asks_v2 VNone /\
  ~ Request_spec.given "boundaryVersion" asks_v2 (VStr "V1") /\ shown_v2 90 (qz 7) 1%Qc /\ ~ shown_v2 90 (qz 7) (Q2Qc (1 # 2)) /\
  told_of (result (ask_lone (fresh VNone) (DFrame (lone_rows 1%Qc)) (Some asks_v2))) = [(10, (7%Q, true))] /\
  told_of (result (ask_lone (fresh VNone) (DFrame (lone_rows (- (1))%Qc)) (Some asks_v2))) = [(10, (7%Q, false))] /\
  told_of (result (ask_lone (fresh VNone) (DFrame (lone_rows (Q2Qc (1 # 2)))) (Some asks_v2))) = [].
Proof.
  split; [apply v2_asks|]. split; [discriminate|]. split; [discriminate|]. split; [discriminate|].
  split. { eexists. split; [vm_compute; reflexivity|]. left. vm_compute. reflexivity. }
  split.
  { assert (G : match nth_error factors (Z.to_nat 90) with Some f => (Qcmax (Q2Qc (3 # 10)) (Qcabs (qz 7)) * f <? Qcabs (Q2Qc (1 # 2)))%Qc | None => true end = false) by (vm_compute; reflexivity).
    intros (f & F & [H|(H & _)]); [|discriminate]. rewrite F in G. apply Qcltb_lt in H. congruence. }
  split; [vm_compute; reflexivity|]. split; vm_compute; reflexivity.
Qed.
