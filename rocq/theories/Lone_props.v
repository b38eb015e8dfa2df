(** Property C114: a lone spike on a level series is the one point reported. *)
From Coq Require Import String List Arith ZArith QArith Qcanon Qround Lia Lqa Bool Sorted Permutation.
From Verif Require Import Base Num Sorting Kernel_model Kernel_spec Kernel_proofs FillUp_model FillUp_spec Helpers_model Helpers_props
  Margins_model SR_model Detect_model Detect_spec Detect_proofs Detect_proofs2 Detect_proofs4 Detect_proofs5 Detect_proofs6 Detect_proofs7 Detect_props Dates_model Request_model Request_spec
  Period_model Period_spec Period_props Trend_model Trend_spec Trend_props Stl_model Stl_spec Stl_props Units_props Pipe_model Pipe_spec Pipe_props
  Const_spec Const_proofs Const_proofs2 Const_props Spike_spec Spike_proofs Lone_spec Lone_proofs.
Import ListNotations.
Open Scope nat_scope.

(** Only the standard deviation of zeros and ones has to be close. *)
Lemma zeros_and_ones : forall std n k c l, 2 <= n -> (forall l, l <> [] -> (forall x, In x l -> x = 0%Qc \/ x = 1%Qc) -> close_std std l) ->
  Permutation l (if (0 <? c)%Qc then spiked n k 0%Qc 1%Qc else spiked n k 1%Qc (- (1))%Qc) -> close_std std l.
Proof.
  intros std n k c l N H P. apply H.
  - intros ->. apply Permutation_nil in P. apply (f_equal (@length Qc)) in P. destruct (0 <? c)%Qc; rewrite spiked_length in P; cbn in P; lia.
  - intros x I. apply (Permutation_in _ P) in I. destruct (0 <? c)%Qc; unfold spiked in I; apply in_map_iff in I; destruct I as (t & <- & _);
      destruct (t =? k); auto; (right; ring) || (left; ring).
Qed.
Section DT.
Variable cst : Qc.
Variable std : list Qc -> Qc.
Variable ppf : Qc -> Z -> Qc.
Variable sqrt : Qc -> Qc.
Variable table : list Qc.
Variable sort : list (nat * Qc) -> list (nat * Qc).
Variable trend_detection : list Qc -> option nat -> res (list Qc).
Notation DT := (dynamic_threshold_detection cst std ppf sqrt table sort trend_detection).

(** C114. The dynamic threshold detector on a level series of at least 12 points
    with a lone spike, up or down: the level is expected everywhere, and exactly
    the spike is reported, with its direction, in either mode. (The trend of a
    level is that level; the deviation of zeros and ones is right to half a
    percent; no critical value is below 1/2.) *)
Theorem C114_dynamic_threshold : forall n k b c tv alpha ratio nt lm rows m,
  sorts_up sort -> fair_std std -> (forall l, l <> [] -> (forall x, In x l -> x = 0%Qc \/ x = 1%Qc) -> close_std std l) ->
  (forall c s p t, all_eq c s -> trend_detection s p = Ok t -> all_eq c t) ->
  (forall q j, q <= n / 2 - 1 -> j < q -> (Q2Qc (1 # 2) <= nth j (get_critical ppf sqrt table alpha n q) 0)%Qc) ->
  12 <= n -> k < n -> c <> 0%Qc ->
  DT (spiked n k b c) tv alpha ratio nt lm = Ok (rows, m) -> m = DynamicThreshold /\ only_spike n k b c rows.
Proof.
  intros n k b c tv alpha ratio nt lm rows m SU FA CS TC CR N K C E.
  unfold dynamic_threshold_detection in E. destruct (spiked_normalize n k b c ltac:(lia) K C) as (mn & mx & EN). rewrite EN, bind_ok in E. cbn [fst] in E.
  assert (ED : dt_detect_anomaly cst std ppf sqrt table sort (if (0 <? c)%Qc then spiked n k 0%Qc 1%Qc else spiked n k 1%Qc (- (1))%Qc) alpha ratio lm = Ok ([k], DynamicThreshold)).
  { destruct (quota_bounds n ratio N) as [Q1 Q2].
    pose proof (fun l => zeros_and_ones std n k c l ltac:(lia) CS) as ZO. destruct (0 <? c)%Qc.
    - apply (dt_spiked cst std ppf sqrt table sort SU FA n k 0%Qc true); auto.
    - apply (dt_spiked cst std ppf sqrt table sort SU FA n k 1%Qc false); auto. }
  rewrite ED, bind_ok in E. cbv zeta in E. cbn [fst snd] in E. bind_inv E. bind_inv E. assert (Em : DynamicThreshold = m) by congruence. assert (Er : a0 = rows) by congruence. clear E. subst m a0. split; auto.
  bind_inv E0. assert (AE : all_eq b a).
  { eapply TC; [|exact E0]. eapply interp_const; [|exact E]. intros x I. apply In_nth_error in I. destruct I as (i & Hi). unfold blank in Hi. rewrite nth_error_mapi in Hi.
    destruct (nth_error (spiked n k b c) i) as [v|] eqn:Ev; [|discriminate]. cbn in Hi. rewrite orb_false_r in Hi. destruct (i =? k) eqn:Ik; [discriminate|]. injection Hi as <-.
    pose proof (nth_error_lt _ _ _ _ Ev) as Li. rewrite spiked_length in Li. rewrite spiked_nth, Ik in Ev by auto. congruence. }
  destruct (result_frame_spec _ _ _ _ _ _ E1) as (LR & _ & F). rewrite spiked_length in LR. split; auto.
  intros i r Hr. destruct (F i r Hr) as (v & x & Ev & Ex & V & X & A & PC). apply nth_error_In in Ex. rewrite (AE x Ex) in X.
  pose proof (nth_error_lt _ _ _ _ Ev) as Li. rewrite spiked_length in Li. rewrite spiked_nth in Ev by auto. unfold mem_nat in A. cbn in A. rewrite orb_false_r in A.
  unfold pre_consistent in PC. rewrite A in PC. destruct (i =? k).
  - unfold spike_row. assert (V' : r_value r = (b + c)%Qc) by congruence. rewrite V', X in PC.
    assert (CN : (c < 0)%Qc \/ (0 < c)%Qc). { destruct (Qclt_le_dec c 0) as [|G]; auto. right. apply Qcle_lt_or_eq in G. destruct G; auto. congruence. }
    split; [auto|]. split; [auto|]. split; [auto|].
    destruct (r_neg r), (r_pos r); try contradiction; (split; split; intro; auto; try discriminate; exfalso; destruct CN; qlra) || (split; split; intro; auto; try discriminate; destruct CN as [CN|CN]; auto; exfalso; qlra).
  - unfold level_row. destruct (r_neg r), (r_pos r); try contradiction. repeat split; congruence.
Qed.
End DT.
Print Assumptions C114_dynamic_threshold.

Lemma spiked_no_sr : forall cst g i n k b c, 5 <= n -> k < n -> should_trigger_sr cst g i (spiked n k b c) = false.
Proof.
  intros cst g i n k b c N K. unfold should_trigger_sr. cbv zeta. rewrite (spiked_mad _ n k b c) by auto.
  replace (0 / cst - 0)%Qc with 0%Qc by (unfold Qcdiv; ring). destruct g; try reflexivity; destruct (_ <? _); reflexivity.
Qed.
Lemma refine_spike : forall b c r, (EPS <= Qcabs c)%Qc -> spike_row b c r -> refine_row_flags r = r.
Proof.
  intros b c r C (V & X & _). unfold refine_row_flags. rewrite V, X. replace (b + c - b)%Qc with c by ring.
  assert (E : (Qcabs c <? EPS)%Qc = false) by (apply Qcltb_ge; auto). rewrite E. auto.
Qed.
Lemma refine_level : forall b r, level_row b r -> level_row b (refine_row_flags r).
Proof. intros b r (V & X & A & B & D). unfold refine_row_flags. destruct (_ <? _)%Qc; unfold level_row; cbn; auto. Qed.

(** C114. The whole detector on a complete series (no gaps to fill) of at least
    12 points that are level but for one of them, when it is told of or finds no
    period: the dynamic threshold answers, also for minutes and seconds. The
    spike, of at least EPS = 10^-8, is reported with its direction and the level
    expected; if the series counts as stationary, so is nothing else. *)
Theorem C114_whole : forall L a det period lm n k b c rows p m filled, libs_ok L -> steady L ->
  (forall l, l <> [] -> (forall x, In x l -> x = 0%Qc \/ x = 1%Qc) -> close_std (l_std L) l) ->
  (forall q j, q <= n / 2 - 1 -> j < q -> (Q2Qc (1 # 2) <= nth j (get_critical (l_ppf L) (l_sqrt L) (l_table L) (a_alpha a) n q) 0)%Qc) ->
  a_values a = spiked n k b c -> f_need (a_fup a) = false -> 12 <= n -> k < n -> (EPS <= Qcabs c)%Qc ->
  whole_detect L a det period lm = Ok (rows, p, m, filled) -> p <= 1 ->
  m = DynamicThreshold /\ length rows = n /\ (exists r, nth_error rows k = Some r /\ spike_row b c r) /\
  (l_stationary L (spiked n k b c) = true -> only_spike n k b c rows).
Proof.
  intros L a det period lm n k b c rows p m filled OK ST CS CR EV EF N K C E P1. unfold whole_detect in E. apply detect_inv in E. destruct E as (rows0 & E & ->).
  unfold detect_with_model_selection in E. cbv zeta in E. set (mr := if lm && _ then _ else _) in E. clearbody mr. bind_inv E. rename a0 into p'.
  destruct ((1 <? p') && _) eqn:EG; [discriminate E|].
  assert (FN : (if (1 <? p') || fills_without_period (a_mode a) then fill_up_on_demand (l_spline L) (a_fup a) (a_mode a) (a_fixed a) (Some (Z.of_nat p')) else Ok None) = Ok None).
  { destruct (_ || _); auto. unfold fill_up_on_demand, fill_up. rewrite EF. destruct (a_mode a); auto. }
  rewrite FN, !bind_ok in E. rewrite EV in E. bind_inv E. destruct a0 as [frame m']. cbn [fst snd] in E.
  assert (X : frame = rows0 /\ p' = p /\ m' = m) by (repeat split; congruence). destruct X as (-> & -> & ->). clear E.
  assert (B1 : (1 <? p) = false) by (apply Nat.ltb_ge; auto). rewrite B1 in E1. rewrite spiked_no_sr in E1 by lia.
  bind_inv E1. bind_inv E1. destruct a1 as [r0 m0]. bind_inv E1. cbn [fst snd] in *. assert (X : a1 = rows0 /\ m0 = m) by (split; congruence). destruct X as (-> & ->). clear E1.
  assert (C0 : c <> 0%Qc) by (intros ->; vm_compute in C; apply C; reflexivity).
  destruct (C114_dynamic_threshold _ _ _ _ _ _ _ _ _ _ _ _ _ _ _ _ _ _ (ok_sort L OK) (ok_fair L OK) CS (whole_trend_const L ST) CR N K C0 E2) as (-> & L0 & OS).
  destruct (C62_delta_only_adds _ _ _ _ _ _ E3) as (L1 & H & S & _). rewrite L0 in L1. split; auto. rewrite map_length. split; auto.
  assert (GK : exists r, nth_error r0 k = Some r) by (destruct (nth_error r0 k) eqn:X; eauto; apply nth_error_None in X; lia). destruct GK as [r Hr].
  assert (GK : exists r', nth_error rows0 k = Some r') by (destruct (nth_error rows0 k) eqn:X; eauto; apply nth_error_None in X; lia). destruct GK as [r' Hr'].
  pose proof (OS k r Hr) as SR. rewrite Nat.eqb_refl in SR. destruct (H k r r' Hr Hr') as (_ & H2 & _). rewrite (H2 ltac:(apply SR)) in Hr'. split.
  - exists r. split; auto. rewrite nth_error_map, Hr'. cbn. rewrite (refine_spike b c r C SR). auto.
  - intros HS. rewrite (S HS) in *. split; [rewrite map_length; auto|]. intros i q Hq. rewrite nth_error_map in Hq. destruct (nth_error r0 i) as [q0|] eqn:E0'; [|discriminate].
    cbn in Hq. injection Hq as <-. pose proof (OS i q0 E0') as Y. destruct (i =? k); [rewrite (refine_spike b c q0 C Y); auto|apply refine_level; auto].
Qed.
Print Assumptions C114_whole.

(** A standard deviation that is right to a thousandth. *)
Definition root_of (v : Qc) : Qc :=
  let num := Qnum (this v) in let den := Zpos (Qden (this v)) in
  if (num <=? 0)%Z then 0%Qc else (qz (Z.sqrt (num * den * 1000000) + 1) / (qz 1000 * qz den))%Qc.
Definition root_std (l : list Qc) : Qc := root_of (variance l).
Lemma root_bounds : forall v, (0 <= v)%Qc ->
  (0 <= root_of v /\ v <= root_of v * root_of v /\ root_of v * root_of v <= Q2Qc (101 # 100) * v)%Qc.
Proof.
  intros v V. unfold root_of. cbv zeta. destruct (Qnum (this v) <=? 0)%Z eqn:E.
  - assert (v = 0%Qc). { apply Qcle_antisym; auto. apply Z.leb_le in E. unfold Qcle, Qle. cbn. lia. }
    subst v. split; [apply Qcle_refl|]. split; vm_compute; discriminate.
  - apply Z.leb_gt in E. assert (EQ : (qz (Zpos (Qden (this v))) * v = qz (Qnum (this v)))%Qc).
    { apply Qc_is_canon. cbn [Qcmult this Q2Qc]. rewrite Qred_correct, !this_qz. destruct (this v) as [x y]. unfold Qeq, inject_Z, Qmult. cbn [Qnum Qden]. lia. }
    set (num := Qnum (this v)) in *. set (den := Zpos (Qden (this v))) in *. assert (DP : (0 < den)%Z) by (unfold den; lia). clearbody num den.
    destruct (Z.sqrt_spec (num * den * 1000000)) as [S1 S2]; [nia|]. set (s := Z.sqrt _) in *.
    assert (S3 : (1000 <= s)%Z). { unfold s. change 1000%Z with (Z.sqrt 1000000). apply Z.sqrt_le_mono. nia. } clearbody s.
    assert (Z1 : (num * den * 1000000 <= (s + 1) * (s + 1))%Z) by lia.
    assert (Z2 : (100 * ((s + 1) * (s + 1)) <= 101 * (num * den * 1000000))%Z) by nia.
    assert (DQ : (0 < qz den)%Qc). { rewrite <- qz_0. apply (proj1 (qz_lt _ _)). auto. }
    apply qz_le in Z1, Z2. rewrite !qz_mul in Z1. rewrite !qz_mul in Z2. set (d := qz den) in *. rewrite <- EQ in Z1. rewrite <- EQ in Z2. set (t := qz (s + 1)) in *.
    assert (T0 : (0 <= t)%Qc) by (unfold t; rewrite <- qz_0; apply (proj1 (qz_le _ _)); lia). clearbody t d. clear - DQ Z1 Z2 T0.
    change (qz 1000) with (Q2Qc 1000). assert (W : (0 < Q2Qc 1000 * d)%Qc) by (apply Qcmul_pos; [reflexivity|auto]).
    set (r := (t / (Q2Qc 1000 * d))%Qc). assert (ER : (t = Q2Qc 1000 * d * r)%Qc) by (unfold r; symmetry; apply Qcmul_div; intro X; rewrite X in W; discriminate).
    assert (R0 : (0 <= r)%Qc). { unfold r, Qcdiv. apply Qcmul_nonneg; auto. apply Qclt_le_weak, Qcinv_pos; auto. } clearbody r. subst t. split; auto.
    assert (DD : (0 < d * d)%Qc) by (apply Qcmul_pos; auto).
    replace (d * v * d * qz 1000000)%Qc with (Q2Qc 1000000 * (d * d * v))%Qc in Z1, Z2 by (change (qz 1000000) with (Q2Qc 1000000); ring).
    replace (Q2Qc 1000 * d * r * (Q2Qc 1000 * d * r))%Qc with (Q2Qc 1000000 * (d * d * (r * r)))%Qc in Z1, Z2
      by (replace (Q2Qc 1000000) with (Q2Qc 1000 * Q2Qc 1000)%Qc by (apply Qc_is_canon; reflexivity); ring).
    change (qz 100) with (Q2Qc 100) in Z2. change (qz 101) with (Q2Qc 101) in Z2.
    assert (CA : forall x y, (d * d * x <= d * d * y)%Qc -> (x <= y)%Qc).
    { intros x y H. apply Qcmult_lt_0_le_reg_r with (d * d)%Qc; auto. rewrite (Qcmult_comm x), (Qcmult_comm y). auto. }
    split; apply CA.
    + set (aa := (d * d * v)%Qc) in *. set (bb := (d * d * (r * r))%Qc) in *. clearbody aa bb. qlra.
    + replace (d * d * (Q2Qc (101 # 100) * v))%Qc with (Q2Qc (101 # 100) * (d * d * v))%Qc by ring.
      set (aa := (d * d * v)%Qc) in *. set (bb := (d * d * (r * r))%Qc) in *. clearbody aa bb. qlra.
Qed.
Lemma variance_pos : forall l, (0 <= variance l)%Qc.
Proof.
  intros l. unfold variance, Qcdiv. apply Qcmul_nonneg.
  - set (mu := (qsum l * / qn (length l))%Qc). clearbody mu. induction l as [|x t IH]; cbn [map qsum]; [apply Qcle_refl|]. pose proof (Qcsqr_nonneg (x - mu)%Qc). qlra.
  - destruct l as [|x t]; [vm_compute; discriminate|]. apply Qclt_le_weak, Qcinv_pos. change 0%Qc with (qn 0). apply qn_lt. cbn. lia.
Qed.
Lemma root_fair : fair_std root_std.
Proof.
  intros l _. unfold root_std. destruct (root_bounds _ (variance_pos l)) as (A & B & _). split; auto.
  pose proof (Qcsqr_nonneg (root_of (variance l))). set (q := (root_of (variance l) * root_of (variance l))%Qc) in *. clearbody q. qlra.
Qed.
Lemma root_deviations : forall l, l <> [] -> (qn (length l) * variance l = qsum (map (fun x => (x - qmean l) * (x - qmean l)) l))%Qc.
Proof.
  intros l NE. unfold variance. change (qsum l / qn (length l))%Qc with (qmean l). apply Qcmul_div. apply qn_neq0. destruct l; [congruence|cbn; lia].
Qed.
Lemma root_close : forall l, l <> [] -> close_std root_std l.
Proof.
  intros l NE. destruct (root_bounds _ (variance_pos l)) as (A & _ & B). split; [exact A|]. rewrite <- root_deviations by auto. unfold root_std.
  assert (Q : (0 <= qn (length l))%Qc) by (change 0%Qc with (qn 0); apply qn_le; lia).
  pose proof (Qcmul_nonneg _ _ Q (proj1 (Qcle_minus_iff _ _) B)) as X.
  set (r := root_of (variance l)) in *. set (v := variance l) in *. set (q := qn (length l)) in *. clearbody r v q.
  replace (q * (Q2Qc (101 # 100) * v + - (r * r)))%Qc with (Q2Qc (101 # 100) * (q * v) - q * (r * r))%Qc in X by ring.
  set (a := (q * v)%Qc) in *. set (b := (q * (r * r))%Qc) in *. clearbody a b. qlra.
Qed.
Lemma root_rough : rough_std root_std.
Proof.
  intros l NE NZ. destruct (root_bounds _ (variance_pos l)) as (A & B & _). unfold root_std in *. rewrite <- root_deviations by auto.
  assert (P : (0 < root_of (variance l))%Qc) by (apply Qcle_lt_or_eq in A; destruct A; auto; congruence). split; auto.
  assert (Q : (0 < qn (length l))%Qc) by (change 0%Qc with (qn 0); apply qn_lt; destruct l; [congruence|cbn; lia]).
  pose proof (Qcmul_pos _ _ P P) as P2. set (rr := (root_of (variance l) * root_of (variance l))%Qc) in *. set (v := variance l) in *. set (q := qn (length l)) in *. clearbody rr v q.
  assert (X : (0 < q * (Q2Qc 9 * rr - v))%Qc) by (apply Qcmul_pos; auto; qlra).
  replace (q * (Q2Qc 9 * rr - v))%Qc with (q * (Q2Qc 9 * rr) - q * v)%Qc in X by ring. set (a := (q * (Q2Qc 9 * rr))%Qc) in *. set (b := (q * v)%Qc) in *. clearbody a b. qlra.
Qed.

Definition spike_libs (st : list Qc -> bool) : libs :=
  mkLibs ppf34 root_std (fun _ _ => 1%Qc) (fun x => x) ex_critical sort_pairs (fun l => rev (sort_pairs l)) (fun l => map (fun _ => 1%Qc) l)
    st ex_lookup (fun x => x) (Some (qz (2 ^ 128))) rnd0 acf0 (fun _ _ => None) ex_id ex_id ex_id ex_id level_STL (fun x => x) (fun x => x).
Lemma spike_libs_ok : forall st, libs_ok (spike_libs st) /\ steady (spike_libs st).
Proof.
  intros st. destruct level_libs_ok. destruct level_steady. split; constructor; auto.
  - apply root_fair.
  - intros l. apply (root_bounds _ (variance_pos l)).
  - apply root_rough.
Qed.
(** A week of sevens and more, with one other value. *)
Definition weekdays (n k : nat) (z : Z) : args :=
  let a := unit_args false (repeat 7%Z k ++ z :: repeat 7%Z (n - 1 - k)) in
  mkArgs (a_values a) (a_fup a) (a_mode a) (a_fixed a) (Q2Qc (1 # 4)) (a_alpha a) (a_threshold a) (a_need_trend a) (a_majority a) (a_gran a) (a_interval a).
Definition told (st : list Qc -> bool) (lm : bool) (a : args) := whole_detect (spike_libs st) a (mkDet None None) (Some 0) lm.
Definition flagged (r : res (list row * nat * model_id * bool)) : list (nat * Q) :=
  match r with Ok (rows, _, _, _) => map (fun p => (fst p, this (r_expected (snd p)))) (filter (fun p => r_anomaly (snd p)) (combine (range (length rows)) rows)) | Err _ => [] end.
Definition hypotheses_hold (n k : nat) (z : Z) : Prop :=
  a_values (weekdays n k z) = spiked n k (qz 7) (qz (z - 7)) /\ f_need (a_fup (weekdays n k z)) = false /\ (EPS <= Qcabs (qz (z - 7)))%Qc /\
  forall q j, q <= n / 2 - 1 -> j < q -> (Q2Qc (1 # 2) <= nth j (get_critical (fun _ _ => 1%Qc) (fun x => x) ex_critical (a_alpha (weekdays n k z)) n q) 0)%Qc.
Lemma fifteen_hold : forall k z, k < 15 -> (EPS <= Qcabs (qz (z - 7)))%Qc -> f_need (a_fup (weekdays 15 k z)) = false -> hypotheses_hold 15 k z.
Proof.
  intros k z K Z F. split.
  - unfold weekdays, unit_args. cbn [a_values]. rewrite spiked_split by auto. rewrite map_app. cbn [map]. rewrite !Spike_proofs3.map_repeat. do 2 f_equal.
    rewrite <- qz_add. f_equal. lia.
  - split; auto. split; auto. change (a_alpha (weekdays 15 k z)) with (Q2Qc (5 # 100)). change (15 / 2 - 1) with 6.
    assert (G : forallb (fun q => forallb (fun j => (Q2Qc (1 # 2) <=? nth j (get_critical (fun _ _ => 1%Qc) (fun x => x) ex_critical (Q2Qc (5 # 100)) 15 q) 0)%Qc) (range q)) (range 7) = true) by (vm_compute; reflexivity).
    intros q j Q J. rewrite forallb_forall in G. specialize (G q ltac:(apply in_seq; lia)). rewrite forallb_forall in G. specialize (G j ltac:(apply in_seq; lia)). apply Qcleb_le. exact G.
Qed.
Example C114_example :
  (forall st, libs_ok (spike_libs st) /\ steady (spike_libs st)) /\ (forall l, l <> [] -> close_std root_std l) /\
  (hypotheses_hold 15 10 9 /\ flagged (told (fun _ => true) false (weekdays 15 10 9)) = [(10, 7%Q)]) /\
  (hypotheses_hold 15 0 2 /\ flagged (told (fun _ => true) false (weekdays 15 0 2)) = [(0, 7%Q)]) /\
  (hypotheses_hold 15 14 9 /\ flagged (told (fun _ => true) true (weekdays 15 14 9)) = [(14, 7%Q)]).
Proof.
  split; [apply spike_libs_ok|]. split; [apply root_close|].
  split; [split; [apply fifteen_hold; [lia|vm_compute; discriminate|vm_compute; reflexivity]|vm_compute; reflexivity]|].
  split; split; try (vm_compute; reflexivity); (apply fifteen_hold; [lia|vm_compute; discriminate|vm_compute; reflexivity]).
Qed.
(** C114. If the test for stationarity only trusts the differences, a second point
    can be reported: asked about the newest point, after a spike just before it,
    the detector reports the return to the level, expecting the spike to stay. *)
Theorem C114_nothing_else_refuted : exists L a n k b c rows p m filled r, libs_ok L /\ steady L /\
  (forall l, l <> [] -> (forall x, In x l -> x = 0%Qc \/ x = 1%Qc) -> close_std (l_std L) l) /\
  (forall q j, q <= n / 2 - 1 -> j < q -> (Q2Qc (1 # 2) <= nth j (get_critical (l_ppf L) (l_sqrt L) (l_table L) (a_alpha a) n q) 0)%Qc) /\
  a_values a = spiked n k b c /\ f_need (a_fup a) = false /\ 12 <= n /\ k < n /\ (EPS <= Qcabs c)%Qc /\
  whole_detect L a (mkDet None None) (Some 0) true = Ok (rows, p, m, filled) /\ p <= 1 /\
  S k < n /\ nth_error rows (S k) = Some r /\ r_anomaly r = true /\ r_value r = b /\ r_expected r = (b + c)%Qc.
Proof.
  set (st := fun l : list Qc => existsb (fun x => (x =? 0)%Qc) l).
  exists (spike_libs st), (weekdays 15 13 9), 15, 13, (qz 7), (qz 2).
  destruct (spike_libs_ok st) as [OK ST].
  destruct (fifteen_hold 13 9 ltac:(lia) ltac:(vm_compute; discriminate) ltac:(vm_compute; reflexivity)) as (H1 & H2 & H3 & H4).
  assert (E : match told st true (weekdays 15 13 9) with
              | Ok (rows, p, _, _) => (p <=? 1) && match nth_error rows 14 with Some r => r_anomaly r && (r_value r =? qz 7)%Qc && (r_expected r =? qz 9)%Qc | None => false end
              | Err _ => false end = true) by (vm_compute; reflexivity).
  unfold told in E. destruct (whole_detect (spike_libs st) (weekdays 15 13 9) (mkDet None None) (Some 0) true) as [[[[rows p] m] f]|] eqn:EW; [|discriminate].
  destruct (nth_error rows 14) as [r|] eqn:ER; [|rewrite andb_false_r in E; discriminate].
  apply andb_true_iff in E. destruct E as [E1 E]. apply andb_true_iff in E. destruct E as [E E3]. apply andb_true_iff in E. destruct E as [E2 E4].
  apply Qceqb_eq in E3, E4. apply Nat.leb_le in E1.
  exists rows, p, m, f, r. do 2 (split; [auto|]). split; [intros l NE _; apply root_close; auto|]. split; [exact H4|]. split; [exact H1|]. split; [exact H2|].
  do 2 (split; [lia|]). split; [exact H3|]. split; [reflexivity|]. split; [auto|]. split; [lia|]. do 3 (split; [auto|]). rewrite E3. apply Qc_is_canon. reflexivity.
Qed.
Print Assumptions C114_nothing_else_refuted.
