(** Property C115: the tabulated critical values of the outlier test. *)
From Coq Require Import String List Arith ZArith QArith Qcanon Qround Lia Lqa Bool Sorted Permutation.
From Verif Require Import Base Num Sorting Kernel_model Kernel_spec Kernel_proofs FillUp_model FillUp_spec Helpers_model Helpers_props Margins_model SR_model Detect_model Detect_spec Detect_proofs Detect_proofs2 Detect_proofs4 Detect_proofs5 Detect_proofs6 Detect_proofs7 Detect_props Dates_model Request_model Request_spec Period_model Period_spec Period_props Trend_model Trend_spec Trend_props Stl_model Stl_spec Stl_props Units_props Pipe_model Pipe_spec Pipe_props Const_spec Const_proofs Const_proofs2 Const_props Spike_spec Spike_proofs Lone_spec Lone_proofs Kernel_proofs3 Kernel_proofs2 Kernel_props Helpers_proofs2 Lone_props Table_data Table_model Table_proofs.
Import ListNotations.
Open Scope nat_scope.

(** The level is the default, 0.05, to within 5.1 * 10^-7. *)
Definition default_level (alpha : Qc) : Prop := (Qcabs (alpha - Q2Qc (5 # 100)) <= Q2Qc (51 # 100000000))%Qc.
Lemma default_isclose : forall alpha, default_level alpha -> isclose alpha (Q2Qc (5 # 100)) = true.
Proof.
  intros alpha H. unfold isclose. apply Qcleb_le. eapply Qcle_trans; [exact H|]. vm_compute. discriminate.
Qed.
Lemma from_table : forall ppf sqrt alpha n q j, default_level alpha -> (Z.of_nat n <= 18000)%Z -> q <= n -> j < q ->
  nth_error (get_critical ppf sqrt critical_table alpha n q) j = nth_error critical_table (length critical_table - Z.to_nat (Z.of_nat (n - j))).
Proof.
  intros ppf sqrt alpha n q j A N Q J. unfold get_critical. rewrite (default_isclose alpha A). pose proof table_size as TS.
  assert (X : (n <=? length critical_table) = true) by (apply Nat.leb_le; lia). rewrite X. cbn [andb]. rewrite nth_error_slice.
  match goal with |- (if ?b then _ else _) = _ => assert (Y : b = true) by (apply Nat.ltb_lt; lia); rewrite Y end. f_equal. lia.
Qed.

(** C115. For every series of 12 to 18000 points and the default level, the
    critical values are those of the table: one for each outlier that may be
    reported, all between 2 and 4.5414, each attainable (below (m - 1) / sqrt m,
    the most that one of m points can deviate), falling from one outlier to the
    next, and rising with the length of the series. *)
Theorem C115_critical_values : forall ppf sqrt alpha n q, default_level alpha -> 12 <= n -> (Z.of_nat n <= 18000)%Z -> q <= n / 2 - 1 ->
  let critical := get_critical ppf sqrt critical_table alpha in
  length (critical n q) = q /\
  forall j c, nth_error (critical n q) j = Some c ->
    (Q2Qc 2 < c /\ c < Q2Qc (45414 # 10000))%Qc /\
    (let m := qn (n - j) in c * c * m < (m - 1) * (m - 1))%Qc /\
    (forall c', nth_error (critical n q) (S j) = Some c' -> (c' < c)%Qc) /\
    (forall c', (Z.of_nat (S n) <= 18000)%Z -> nth_error (critical (S n) q) j = Some c' -> (c < c')%Qc).
Proof.
  intros ppf sqrt alpha n q A N N2 Q critical. assert (D2 := Nat.div_mod n 2 ltac:(lia)).
  split; [apply get_critical_length; lia|]. intros j c E.
  assert (J : j < q). { apply nth_error_lt in E. unfold critical in E. rewrite get_critical_length in E; lia. }
  unfold critical in E. rewrite from_table in E by (auto; lia). pose proof table_size as TS.
  destruct (table_entry (Z.of_nat (n - j)) ltac:(lia)) as (c0 & E0 & B & B2 & B3 & B4). assert (c0 = c) by congruence. subst c0.
  split; [split; [apply B2; lia|apply B]|]. split; [specialize (B3 ltac:(lia)); exact B3|]. split.
  - intros c' E'. assert (J' : S j < q). { apply nth_error_lt in E'. unfold critical in E'. rewrite get_critical_length in E'; lia. }
    unfold critical in E'. rewrite from_table in E' by (auto; lia). destruct (B4 ltac:(lia)) as (d & Ed & L). 
    replace (length critical_table - Z.to_nat (Z.of_nat (n - S j))) with (S (length critical_table - Z.to_nat (Z.of_nat (n - j)))) in E' by lia. congruence.
  - intros c' N3 E'. unfold critical in E'. rewrite from_table in E' by (auto; lia).
    destruct (table_entry (Z.of_nat (S n - j)) ltac:(lia)) as (c1 & E1 & _ & _ & _ & B5). assert (c1 = c') by congruence. subst c1.
    destruct (B5 ltac:(lia)) as (d & Ed & L).
    replace (S (length critical_table - Z.to_nat (Z.of_nat (S n - j)))) with (length critical_table - Z.to_nat (Z.of_nat (n - j))) in Ed by lia. congruence.
Qed.
Print Assumptions C115_critical_values.

Lemma outlying_weaker : forall upper c s v thr thr', (thr' <= thr)%Qc -> outlying upper c s v thr -> outlying upper c s v thr'.
Proof.
  intros upper c s v thr thr' T H. unfold outlying in *. eapply Qcle_lt_trans; [|exact H]. apply Qcmult_le_compat_r; auto.
  eapply Qcle_trans; [|apply Qcmax_r]. vm_compute. discriminate.
Qed.
Lemma significant_weaker : forall cst std upper vals k thr thr', (thr' <= thr)%Qc -> significant cst std upper vals k thr -> significant cst std upper vals k thr'.
Proof. intros cst std upper vals k thr thr' T (v & E & [H|H]); exists v; (split; [auto|]); [left|right]; eapply outlying_weaker; eauto. Qed.

Section Table.
Variable cst : Qc.
Variable std : list Qc -> Qc.
Variable ppf : Qc -> Z -> Qc.
Variable sqrt : Qc -> Qc.
Variable sort : list (nat * Qc) -> list (nat * Qc).
Variable trend_detection : list Qc -> option nat -> res (list Qc).
Hypothesis SU : sorts_up sort.

Lemma entry_bounds : forall alpha n q k, default_level alpha -> 12 <= n -> (Z.of_nat n <= 18000)%Z -> q <= n / 2 - 1 -> k < q ->
  let c := nth k (get_critical ppf sqrt critical_table alpha n q) 0%Qc in (Q2Qc 2 < c /\ c < Q2Qc (45414 # 10000))%Qc.
Proof.
  intros alpha n q k A N N2 Q K. destruct (C115_critical_values ppf sqrt alpha n q A N N2 Q) as [L H]. cbv zeta.
  destruct (nth_error (get_critical ppf sqrt critical_table alpha n q) k) as [c|] eqn:E; [|apply nth_error_None in E; lia].
  rewrite (nth_error_nth _ _ _ E). apply (H k c E).
Qed.
(** C115. So, whatever the length up to 18000: a point more than 4.5414 robust
    deviations from the median of those not more extreme than it, or as many
    standard deviations from their mean, is reported with all that are more
    extreme, if it is among the points that may be. *)
Theorem C115_far_points_reported : forall series u mn mx tv alpha ratio nt rows m (upper : bool) k,
  (forall s p, exists t, trend_detection s p = Ok t /\ length t = length s) -> default_level alpha ->
  12 <= length series -> (Z.of_nat (length series) <= 18000)%Z -> length tv = length series ->
  normalize series = Ok (u, mn, mx) ->
  get_verified_majority_value cst (map snd (sorted_series sort u)) = Ok None ->
  let data := if upper then rev (sorted_series sort u) else sorted_series sort u in
  k < dt_quota (length series) ratio ->
  significant cst std upper (map snd data) k (Q2Qc (45414 # 10000)) ->
  dynamic_threshold_detection cst std ppf sqrt critical_table sort trend_detection series tv alpha ratio nt false = Ok (rows, m) ->
  forall j i, j <= k -> nth_error (map fst data) j = Some i -> exists r, nth_error rows i = Some r /\ r_anomaly r = true.
Proof.
  intros series u mn mx tv alpha ratio nt rows m upper k TD A N N2 LT EN MA data K S E.
  eapply (C68_significant_points_reported cst std ppf sqrt critical_table sort trend_detection series u mn mx tv alpha ratio nt rows m upper k); eauto; [lia|].
  eapply significant_weaker; [|exact S]. apply Qclt_le_weak. apply entry_bounds; auto. apply quota_bounds. auto.
Qed.
(** C115. And where no point deviates by more than 2 from those not more extreme,
    the test selects none, in either mode. *)
Theorem C115_near_points_silent : forall u alpha ratio (upper lm : bool), default_level alpha ->
  12 <= length u -> (Z.of_nat (length u) <= 18000)%Z ->
  let data := if upper then rev (sorted_series sort u) else sorted_series sort u in
  (forall k, k < dt_quota (length u) ratio -> ~ significant cst std upper (map snd data) k (Q2Qc 2)) ->
  esd_detect cst std (get_critical ppf sqrt critical_table alpha) (sorted_series sort u) (dt_quota (length u) ratio) None upper lm = Ok [].
Proof.
  intros u alpha ratio upper lm A N N2 data NS. destruct (quota_bounds (length u) ratio N) as [_ Q]. set (q := dt_quota (length u) ratio) in *.
  assert (D2 := Nat.div_mod (length u) 2 ltac:(lia)). unfold esd_detect. rewrite bind_ok. rewrite (sorted_length sort SU). fold data.
  assert (LD : length (map snd data) = length u). { unfold data. destruct upper; rewrite map_length, ?rev_length; apply (sorted_length sort SU). }
  assert (TO : tail_ordered upper (map snd data)).
  { pose proof (sorted_tail sort SU u) as T. intros x y a b HX EA EB. unfold data in EA, EB. destruct upper.
    - rewrite map_rev in EA, EB. pose proof (nth_error_lt _ _ _ _ EA) as LA. pose proof (nth_error_lt _ _ _ _ EB) as LB. rewrite rev_length in LA, LB.
      rewrite nth_error_rev in EA, EB by auto. refine (T _ _ _ _ _ EB EA). lia.
    - apply (T x y a b); auto. }
  assert (LC : q <= length (get_critical ppf sqrt critical_table alpha (length u) q)) by (rewrite get_critical_length; lia).
  assert (NS' : forall k, k < q -> ~ significant cst std upper (map snd data) k (nth k (get_critical ppf sqrt critical_table alpha (length u) q) 0%Qc)).
  { intros k K S. apply (NS k K). eapply significant_weaker; [|exact S]. apply Qclt_le_weak. apply entry_bounds; auto. }
  destruct lm.
  - destruct (first_pos _ _) as [li|]; [|auto].
    destruct (C19_esd_last cst std upper _ (map fst data) q (get_critical ppf sqrt critical_table alpha (length u) q) li TO ltac:(lia) LC) as (j & -> & H).
    destruct H as [[-> _]|((H1 & H2) & H3 & _)]; [auto|]. exfalso. apply (NS' (j - 1)); auto; lia.
  - destruct (C19_esd_entire cst std upper _ (map fst data) q (get_critical ppf sqrt critical_table alpha (length u) q) TO ltac:(lia) LC) as (j & -> & H1 & _ & H3).
    destruct j as [|j]; [auto|]. exfalso. apply (NS' (S j - 1)); [lia|]. apply H3. lia.
Qed.
End Table.
Print Assumptions C115_far_points_reported.
Print Assumptions C115_near_points_silent.

(** C115. The lone spike (C114) with the table and the default level: no
    assumption on critical values is left. *)
Theorem C115_lone_spike : forall L a det period lm n k b c rows p m filled, libs_ok L -> steady L -> l_table L = critical_table ->
  (forall l, l <> [] -> (forall x, In x l -> x = 0%Qc \/ x = 1%Qc) -> close_std (l_std L) l) ->
  default_level (a_alpha a) -> a_values a = spiked n k b c -> f_need (a_fup a) = false -> 12 <= n -> (Z.of_nat n <= 18000)%Z -> k < n -> (EPS <= Qcabs c)%Qc ->
  whole_detect L a det period lm = Ok (rows, p, m, filled) -> p <= 1 ->
  m = DynamicThreshold /\ length rows = n /\ (exists r, nth_error rows k = Some r /\ spike_row b c r) /\
  (l_stationary L (spiked n k b c) = true -> only_spike n k b c rows).
Proof.
  intros L a det period lm n k b c rows p m filled OK ST TB CS DL EV EF N N2 K C E P1.
  eapply C114_whole; eauto. intros q j Q J. rewrite TB. apply Qcle_trans with (Q2Qc 2); [vm_compute; discriminate|]. apply Qclt_le_weak. apply entry_bounds; auto.
Qed.
Print Assumptions C115_lone_spike.

(** The values for 12 points. *)
Example C115_example : default_level (Q2Qc (5 # 100)) /\
  map (fun c => Qfloor (this (c * qz 10000)%Qc)) (get_critical (fun _ _ => 0%Qc) (fun x => x) critical_table (Q2Qc (5 # 100)) 12 5) = [22849; 22339; 21760; 21095; 20316]%Z.
Proof. split; [vm_compute; discriminate|]. vm_compute. reflexivity. Qed.

(** Twelve points with two far ones on each side (C68), against the real table. *)
Example C115_far_example : forall upper : bool, exists u mn mx,
  normalize two_tails = Ok (u, mn, mx) /\ 12 <= length two_tails /\
  get_verified_majority_value ppf34 (map snd (sorted_series sort_pairs u)) = Ok None /\
  1 < dt_quota 12 (Q2Qc (1 # 10)) /\
  significant ppf34 root_std upper (map snd (if upper then rev (sorted_series sort_pairs u) else sorted_series sort_pairs u)) 1 (Q2Qc (45414 # 10000)).
Proof.
  intros upper. eexists. eexists. eexists. split; [unfold normalize; vm_compute; reflexivity|]. split; [vm_compute; lia|]. split; [vm_compute; reflexivity|].
  split; [vm_compute; lia|]. destruct upper.
  - eexists. split; [vm_compute; reflexivity|]. left. vm_compute. reflexivity.
  - eexists. split; [vm_compute; reflexivity|]. left. vm_compute. reflexivity.
Qed.
(** Twelve evenly spaced points: none deviates by 2. *)
Example C115_near_example : let u := map qz [0; 1; 2; 3; 4; 5; 6; 7; 8; 9; 10; 11]%Z in forall upper : bool,
  let data := if upper then rev (sorted_series sort_pairs u) else sorted_series sort_pairs u in
  12 <= length u /\ dt_quota (length u) (Q2Qc (1 # 4)) = 3 /\
  (forall k, k < dt_quota (length u) (Q2Qc (1 # 4)) -> ~ significant ppf34 root_std upper (map snd data) k (Q2Qc 2)) /\
  esd_detect ppf34 root_std (get_critical (fun _ _ => 0%Qc) (fun x => x) critical_table (Q2Qc (5 # 100))) (sorted_series sort_pairs u) 3 None upper false = Ok [].
Proof.
  intros u upper data. split; [vm_compute; lia|]. split; [vm_compute; reflexivity|]. split; [|destruct upper; vm_compute; reflexivity].
  assert (G : forallb (fun k => let vals := map snd data in let rest := skipn k vals in
     match nth_error vals k with
     | Some v => let d c := (if upper then v - c else c - v)%Qc in
                 (d (qmedian rest) <=? Q2Qc 2 * Qcmax (mad rest / ppf34) (Q2Qc (1 # 100000000)))%Qc && (d (qmean rest) <=? Q2Qc 2 * Qcmax (root_std rest) (Q2Qc (1 # 100000000)))%Qc
     | None => true end) (range 3) = true) by (destruct upper; vm_compute; reflexivity).
  intros k K (v & E & S). change (dt_quota (length u) (Q2Qc (1 # 4))) with 3 in K. rewrite forallb_forall in G. specialize (G k ltac:(apply in_seq; lia)).
  cbv zeta in G. rewrite E in G. apply andb_true_iff in G. destruct G as [G1 G2]. apply Qcleb_le in G1, G2. unfold outlying in S.
  destruct S as [S|S]; [exact (Qclt_not_le _ _ S G1)|exact (Qclt_not_le _ _ S G2)].
Qed.
(** Fifteen sevens, one of them a nine, with the real table. *)
Definition table_libs (st : list Qc -> bool) : libs :=
  mkLibs ppf34 root_std (fun _ _ => 1%Qc) (fun x => x) critical_table sort_pairs (fun l => rev (sort_pairs l)) (fun l => map (fun _ => 1%Qc) l)
    st ex_lookup (fun x => x) (Some (qz (2 ^ 128))) rnd0 acf0 (fun _ _ => None) ex_id ex_id ex_id ex_id level_STL (fun x => x) (fun x => x).
Example C115_lone_example : let L := table_libs (fun _ => true) in let a := weekdays 15 10 9 in
  libs_ok L /\ steady L /\ l_table L = critical_table /\ (forall l, l <> [] -> close_std (l_std L) l) /\ default_level (a_alpha a) /\
  a_values a = spiked 15 10 (qz 7) (qz 2) /\ f_need (a_fup a) = false /\ (EPS <= Qcabs (qz 2))%Qc /\
  flagged (whole_detect L a (mkDet None None) (Some 0) false) = [(10, 7%Q)].
Proof.
  intros L a. destruct (spike_libs_ok (fun _ => true)) as [OK ST].
  split; [destruct OK; constructor; auto|]. split; [destruct ST; constructor; auto|]. split; [reflexivity|]. split; [apply root_close|].
  destruct (fifteen_hold 10 9 ltac:(lia) ltac:(vm_compute; discriminate) ltac:(vm_compute; reflexivity)) as (H1 & H2 & H3 & _).
  split; [vm_compute; discriminate|]. split; [exact H1|]. split; [exact H2|]. split; [exact H3|]. vm_compute. reflexivity.
Qed.
