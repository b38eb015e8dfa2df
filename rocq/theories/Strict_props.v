(** C105 and C106: what the strictness parameters and the mode do. *)
From Coq Require Import String List Arith ZArith QArith Qcanon Qround Lia Lqa Bool Sorted Permutation.
From Verif Require Import Base Num Sorting Kernel_model Kernel_spec FillUp_model FillUp_spec
  Helpers_model Helpers_proofs Helpers_props Margins_model SR_model SR_proofs3 Detect_model Detect_spec
  Detect_proofs Detect_proofs2 Detect_proofs3 Detect_proofs4 Detect_proofs7 Detect_props Units_props Strict_spec Strict_proofs.
Import ListNotations.
Open Scope nat_scope.

(** What the root is taken of, for the [i]-th removal among [n] points at level
    [alpha]: [n - i + 1] points are still there. *)
Definition under_root (ppf : Qc -> Z -> Qc) (i n : nat) (alpha : Qc) : Qc :=
  let left := n - i + 1 in
  let t := ppf (1 - alpha / qn left)%Qc (Z.of_nat left - 2)%Z in
  ((qn left - Q2Qc 2 + t * t) * qn left)%Qc.

Lemma qz_qn : forall n, qz (Z.of_nat n) = qn n.
Proof. auto. Qed.
Lemma esd_shape : forall ppf sqrt i alpha n, i < n -> let left := n - i + 1 in
  let t := ppf (1 - alpha / qn left)%Qc (Z.of_nat left - 2)%Z in
  calculate_esd_values ppf sqrt i alpha n = (t * (qn left - 1) / sqrt (under_root ppf i n alpha))%Qc /\ (Q2Qc 2 <= qn left)%Qc.
Proof.
  intros ppf sqrt i alpha n L left t. split.
  - unfold calculate_esd_values, under_root. cbv zeta. fold left.
    assert (E1 : qz (Z.of_nat n - Z.of_nat i + 1) = qn left) by (unfold qn, left; f_equal; lia).
    assert (E2 : qz (Z.of_nat n - Z.of_nat i) = (qn left - 1)%Qc).
    { replace (Z.of_nat n - Z.of_nat i)%Z with (Z.of_nat left - 1)%Z by (unfold left; lia). unfold qn. rewrite qz_sub. reflexivity. }
    assert (E3 : qz (Z.of_nat n - Z.of_nat i - 1) = (qn left - Q2Qc 2)%Qc).
    { replace (Z.of_nat n - Z.of_nat i - 1)%Z with (Z.of_nat left - 2)%Z by (unfold left; lia). unfold qn. rewrite qz_sub. reflexivity. }
    rewrite E1, E2, E3. replace (Z.of_nat n - Z.of_nat i - 1)%Z with (Z.of_nat left - 2)%Z by (unfold left; lia). fold t. auto.
  - change (Q2Qc 2) with (qn 2). apply qn_le. unfold left. lia.
Qed.

(** C105. At levels up to 1 the critical values of the generalised ESD test are
    not negative, and below (m - 1) / sqrt m, the largest standardised deviation
    that one of the m points still there can have. *)
Theorem C105_critical_range : forall ppf sqrt i n alpha, centred ppf -> (0 <= alpha)%Qc -> (alpha <= 1)%Qc -> i + 1 < n ->
  exact_root sqrt (under_root ppf i n alpha) ->
  let c := calculate_esd_values ppf sqrt i alpha n in
  let m := qn (n - i + 1) in (0 <= c /\ c * c * m < (m - 1) * (m - 1))%Qc.
Proof.
  intros ppf sqrt i n alpha CE A0 A1 L [R0 RR] c m. destruct (esd_shape ppf sqrt i alpha n ltac:(lia)) as [E _]. fold m in E. cbv zeta in E.
  assert (M3 : (Q2Qc 3 <= m)%Qc) by (unfold m; change (Q2Qc 3) with (qn 3); apply qn_le; lia).
  set (t := ppf (1 - alpha / m)%Qc (Z.of_nat (n - i + 1) - 2)%Z) in *.
  assert (T0 : (0 <= t)%Qc).
  { apply CE. assert (H : (alpha / m <= Q2Qc (1 # 2))%Qc); [|qlra]. apply Qcdiv_le_iff; [qlra|]. qlra. }
  unfold under_root in RR, R0, E. cbv zeta in RR, R0, E. fold m t in RR, R0, E. set (w := ((m - Q2Qc 2 + t * t) * m)%Qc) in *. set (r := sqrt w) in *.
  assert (TT : (0 <= t * t)%Qc) by qnra.
  assert (W : (0 < w)%Qc) by (unfold w; apply Qcmul_pos; qlra).
  assert (RP : (0 < r)%Qc). { destruct (Qcle_lt_or_eq _ _ R0) as [X|X]; auto. rewrite <- X in RR. replace (0 * 0)%Qc with 0%Qc in RR by ring. rewrite <- RR in W. exfalso. qlra. }
  assert (RN : r <> 0%Qc) by (intros X; rewrite X in RP; qlra).
  unfold c. rewrite E. split.
  - apply Qcle_div_iff; auto. replace (0 * r)%Qc with 0%Qc by ring. apply Qcmul_nonneg; qlra.
  - replace (t * (m - 1) / r * (t * (m - 1) / r) * m)%Qc with (t * t * ((m - 1) * (m - 1)) * m / (r * r))%Qc by (field; auto).
    rewrite RR. unfold w.
    assert (MN : m <> 0%Qc) by (intros X; rewrite X in M3; qlra).
    assert (WN : (m - Q2Qc 2 + t * t)%Qc <> 0%Qc) by (intros X; assert (0 < m - Q2Qc 2 + t * t)%Qc by qlra; rewrite X in *; qlra).
    replace (t * t * ((m - 1) * (m - 1)) * m / ((m - Q2Qc 2 + t * t) * m))%Qc with (t * t * ((m - 1) * (m - 1)) / (m - Q2Qc 2 + t * t))%Qc by (field; auto).
    set (d := (m - Q2Qc 2 + t * t)%Qc) in *. assert (D : (t * t < d)%Qc) by (unfold d; qlra). assert (DP : (0 < d)%Qc) by (unfold d; qlra).
    assert (Z2 : (0 < (m - 1) * (m - 1))%Qc) by (apply Qcmul_pos; qlra).
    apply Qcdiv_lt_iff; auto.
    assert (Y : (t * t * ((m - 1) * (m - 1)) < d * ((m - 1) * (m - 1)))%Qc) by (apply Qcmult_lt_compat_r; auto).
    replace ((m - 1) * (m - 1) * d)%Qc with (d * ((m - 1) * (m - 1)))%Qc by ring. exact Y.
Qed.
Print Assumptions C105_critical_range.

(** C105. They fall when the level rises. *)
Theorem C105_critical_falls : forall ppf sqrt i n alpha alpha', rising ppf -> (alpha <= alpha')%Qc -> i + 1 < n ->
  exact_root sqrt (under_root ppf i n alpha) -> exact_root sqrt (under_root ppf i n alpha') ->
  (calculate_esd_values ppf sqrt i alpha' n <= calculate_esd_values ppf sqrt i alpha n)%Qc.
Proof.
  intros ppf sqrt i n alpha alpha' RI LE L [R0 RR] [R0' RR'].
  destruct (esd_shape ppf sqrt i alpha n ltac:(lia)) as [E _]. destruct (esd_shape ppf sqrt i alpha' n ltac:(lia)) as [E' _]. cbv zeta in E, E'.
  rewrite E, E'. clear E E'. unfold under_root in *. cbv zeta in *. set (m := qn (n - i + 1)) in *.
  assert (M3 : (Q2Qc 3 <= m)%Qc) by (unfold m; change (Q2Qc 3) with (qn 3); apply qn_le; lia).
  assert (TL : (ppf (1 - alpha' / m) (Z.of_nat (n - i + 1) - 2)%Z <= ppf (1 - alpha / m) (Z.of_nat (n - i + 1) - 2)%Z)%Qc).
  { apply RI. assert (alpha / m <= alpha' / m)%Qc; [|qlra]. unfold Qcdiv. apply Qcmult_le_compat_r; auto. apply Qclt_le_weak, Qcinv_pos. qlra. }
  set (t := ppf (1 - alpha / m)%Qc (Z.of_nat (n - i + 1) - 2)%Z) in *. set (t' := ppf (1 - alpha' / m)%Qc (Z.of_nat (n - i + 1) - 2)%Z) in *.
  set (r := sqrt ((m - Q2Qc 2 + t * t) * m)%Qc) in *. set (r' := sqrt ((m - Q2Qc 2 + t' * t') * m)%Qc) in *.
  assert (TT : (0 <= t * t)%Qc) by qnra. assert (TT' : (0 <= t' * t')%Qc) by qnra.
  assert (W : (0 < (m - Q2Qc 2 + t * t) * m)%Qc) by (apply Qcmul_pos; qlra).
  assert (W' : (0 < (m - Q2Qc 2 + t' * t') * m)%Qc) by (apply Qcmul_pos; qlra).
  assert (RP : (0 < r)%Qc). { destruct (Qcle_lt_or_eq _ _ R0) as [X|X]; auto. rewrite <- X in RR. replace (0 * 0)%Qc with 0%Qc in RR by ring. rewrite <- RR in W. exfalso. qlra. }
  assert (RP' : (0 < r')%Qc). { destruct (Qcle_lt_or_eq _ _ R0') as [X|X]; auto. rewrite <- X in RR'. replace (0 * 0)%Qc with 0%Qc in RR' by ring. rewrite <- RR' in W'. exfalso. qlra. }
  assert (RN : r <> 0%Qc) by (intros X; rewrite X in RP; qlra).
  assert (KEY : (t' * r <= t * r')%Qc).
  { assert (SQ : forall a b, (0 <= a)%Qc -> (0 <= b)%Qc -> (a * a <= b * b)%Qc -> (a <= b)%Qc).
    { intros a b A B H. apply Qcnot_lt_le. intros X. assert (b * b < a * a)%Qc by qnra. qlra. }
    assert (P1 : (t' * r * (t' * r))%Qc = (t' * t' * (m - Q2Qc 2 + t * t) * m)%Qc) by (transitivity (t' * t' * (r * r))%Qc; [ring|rewrite RR; ring]).
    assert (P2 : (t * r' * (t * r'))%Qc = (t * t * (m - Q2Qc 2 + t' * t') * m)%Qc) by (transitivity (t * t * (r' * r'))%Qc; [ring|rewrite RR'; ring]).
    assert (M0 : (0 <= m)%Qc) by qlra. assert (M2 : (0 <= m - Q2Qc 2)%Qc) by qlra.
    destruct (Qclt_le_dec t' 0) as [N'|P'].
    - destruct (Qclt_le_dec t 0) as [N|P].
      + assert (X : (- (t * r') <= - (t' * r))%Qc); [|qlra]. apply SQ; [qnra|qnra|].
        replace (- (t * r') * - (t * r'))%Qc with (t * r' * (t * r'))%Qc by ring. replace (- (t' * r) * - (t' * r))%Qc with (t' * r * (t' * r))%Qc by ring.
        rewrite P1, P2. apply Qcmult_le_compat_r; auto. assert (t * t <= t' * t')%Qc by qnra.
        assert (t * t * (m - Q2Qc 2) <= t' * t' * (m - Q2Qc 2))%Qc by (apply Qcmult_le_compat_r; auto). qlra.
      + assert (t' * r <= 0)%Qc by qnra. assert (0 <= t * r')%Qc by (apply Qcmul_nonneg; qlra). qlra.
    - assert (P : (0 <= t)%Qc) by qlra. apply SQ; [apply Qcmul_nonneg; qlra..|]. rewrite P1, P2. apply Qcmult_le_compat_r; auto.
      assert (t' * t' <= t * t)%Qc by qnra. assert (t' * t' * (m - Q2Qc 2) <= t * t * (m - Q2Qc 2))%Qc by (apply Qcmult_le_compat_r; auto). qlra. }
  apply Qcdiv_le_iff; auto. replace (t * (m - 1) / r * r')%Qc with (t * r' * (m - 1) / r)%Qc by (field; auto).
  apply Qcle_div_iff; auto. replace (t' * (m - 1) * r)%Qc with (t' * r * (m - 1))%Qc by ring. apply Qcmult_le_compat_r; auto. qlra.
Qed.
Print Assumptions C105_critical_falls.
(** Four points left: the critical value is 1/2 at level 1/5, and 7/6 at level
    1/20; the largest possible deviation is 3/2. *)
Definition step_ppf (p : Qc) (d : Z) : Qc := if (p <? Q2Qc (24 # 25))%Qc then Q2Qc (1 # 2) else Q2Qc (7 # 4).
Definition two_roots (x : Qc) : Qc := if (x =? Q2Qc 9)%Qc then Q2Qc 3 else Q2Qc (9 # 2).
Example C105_critical_example :
  rising step_ppf /\ centred step_ppf /\
  (forall a, In a [Q2Qc (1 # 5); Q2Qc (1 # 20)] -> exact_root two_roots (under_root step_ppf 2 5 a)) /\
  map (fun a => this (calculate_esd_values step_ppf two_roots 2 a 5)) [Q2Qc (1 # 5); Q2Qc (1 # 20)] = [1 # 2; 7 # 6]%Q.
Proof.
  split; [|split; [|split]].
  - intros d x y H. unfold step_ppf. destruct (x <? _)%Qc eqn:A; destruct (y <? _)%Qc eqn:B; qb_hyps; try (vm_compute; discriminate). exfalso. qlra.
  - intros d x _. unfold step_ppf. destruct (x <? _)%Qc; vm_compute; discriminate.
  - intros a [<-|[<-|[]]]; (split; [vm_compute; discriminate|apply Qc_is_canon; vm_compute; reflexivity]).
  - vm_compute. reflexivity.
Qed.

Section Rows.
Variable cst : Qc.
Variable std : list Qc -> Qc.
Variable ppf : Qc -> Z -> Qc.
Variable sqrt : Qc -> Qc.
Variable table : list Qc.
Variable sort : list (nat * Qc) -> list (nat * Qc).
Variable trend_detection : list Qc -> option nat -> res (list Qc).
Hypothesis SU : sorts_up sort.
Hypothesis TD : forall s p, exists t, trend_detection s p = Ok t /\ length t = length s.
(** The table holds the critical values of the level 0.05, and critical values
    fall when the level rises. *)
Hypothesis TB : forall j x, nth_error table j = Some x -> x = calculate_esd_values ppf sqrt (j + 1) (Q2Qc (5 # 100)) (length table).
Hypothesis FA : forall alpha alpha' i n, (alpha <= alpha')%Qc -> 1 <= i <= n ->
  (calculate_esd_values ppf sqrt i alpha' n <= calculate_esd_values ppf sqrt i alpha n)%Qc.
Notation DT := (dynamic_threshold_detection cst std ppf sqrt table sort trend_detection).

Lemma critical_at : forall alpha n k, k < n -> exists alpha', nth k (get_critical ppf sqrt table alpha n (k + 1)) 0%Qc = calculate_esd_values ppf sqrt (k + 1) alpha' n /\
  ((alpha' = Q2Qc (5 # 100) /\ isclose alpha (Q2Qc (5 # 100)) = true /\ n <= length table) \/ (alpha' = alpha /\ (isclose alpha (Q2Qc (5 # 100)) && (n <=? length table)) = false)).
Proof.
  intros alpha n k LK. destruct (isclose alpha (Q2Qc (5 # 100)) && (n <=? length table)) eqn:B.
  - exists (Q2Qc (5 # 100)). apply andb_true_iff in B. destruct B as [B1 B2]. apply Nat.leb_le in B2. split; [|left; auto].
    pose proof (C63_critical_values_shared ppf sqrt table (Q2Qc (5 # 100)) n (k + 1) ltac:(lia) TB) as H.
    assert (S1 : get_critical ppf sqrt table alpha n (k + 1) = get_critical ppf sqrt table (Q2Qc (5 # 100)) n (k + 1)).
    { unfold get_critical. rewrite B1. assert (B0 : isclose (Q2Qc (5 # 100)) (Q2Qc (5 # 100)) = true) by (vm_compute; reflexivity). rewrite B0. apply Nat.leb_le in B2. rewrite B2. auto. }
    rewrite S1, H. apply nth_error_nth_d. rewrite nth_error_map. rewrite (nth_error_nth' _ 0) by (rewrite seq_length; lia). rewrite seq_nth by lia. simpl. f_equal. f_equal. lia.
  - exists alpha. split; [|right; auto]. unfold get_critical. rewrite B. apply nth_error_nth_d. rewrite nth_error_map.
    rewrite (nth_error_nth' _ 0) by (rewrite seq_length; lia). rewrite seq_nth by lia. simpl. f_equal. f_equal. lia.
Qed.
Lemma isclose_between : forall a b x, ((a <= x /\ x <= b) \/ (b <= x /\ x <= a))%Qc -> isclose a b = true -> isclose x b = true.
Proof.
  intros a b x AB H. unfold isclose in *. apply Qcleb_le in H. apply Qcleb_le. eapply Qcle_trans; [|exact H]. clear H. destruct AB as [[A B]|[A B]]; qmm; qlra.
Qed.
Lemma critical_falls : forall alpha alpha' n k, (alpha <= alpha')%Qc -> k < n ->
  (nth k (get_critical ppf sqrt table alpha' n (k + 1)) 0 <= nth k (get_critical ppf sqrt table alpha n (k + 1)) 0)%Qc.
Proof.
  intros alpha alpha' n k LE LK. destruct (critical_at alpha n k LK) as (e & -> & C). destruct (critical_at alpha' n k LK) as (e' & -> & C'). apply FA; [|lia].
  destruct C as [(-> & A1 & A2)|(-> & A)]; destruct C' as [(-> & B1 & B2)|(-> & B)]; auto; [apply Qcle_refl| |].
  - apply Qcnot_lt_le. intros X. apply Nat.leb_le in A2. rewrite A2, andb_true_r in B. rewrite (isclose_between alpha (Q2Qc (5 # 100)) alpha') in B; [discriminate|left; split; [auto|qlra]|auto].
  - apply Qcnot_lt_le. intros X. apply Nat.leb_le in B2. rewrite B2, andb_true_r in A. rewrite (isclose_between alpha' (Q2Qc (5 # 100)) alpha) in A; [discriminate|right; split; [qlra|auto]|auto].
Qed.

(** C105. Dynamic threshold detector, whole series: a point flagged at a level
    and a ratio is flagged at every higher level and ratio. *)
Theorem C105_more_with_level_and_ratio : forall series tv tv' alpha alpha' ratio ratio' nt rows m, 4 <= length series ->
  length tv = length series -> length tv' = length series -> (alpha <= alpha')%Qc -> (ratio <= ratio')%Qc ->
  DT series tv alpha ratio nt false = Ok (rows, m) ->
  exists rows', DT series tv' alpha' ratio' nt false = Ok (rows', m) /\ length rows' = length rows /\
    forall i r r', nth_error rows i = Some r -> nth_error rows' i = Some r' -> r_anomaly r = true -> r_anomaly r' = true.
Proof.
  intros series tv tv' alpha alpha' ratio ratio' nt rows m L4 LT LT' LA LR H.
  destruct (dt_total cst std ppf sqrt table sort SU trend_detection TD series tv alpha ratio nt false L4 LT) as (u & mn & mx & idx & m1 & rows1 & EN & ED & EF & L1 & F1).
  destruct (dt_total cst std ppf sqrt table sort SU trend_detection TD series tv' alpha' ratio' nt false L4 LT') as (u' & mn' & mx' & idx' & m1' & rows1' & EN' & ED' & EF' & L1' & F1').
  rewrite EN in EN'. injection EN' as <- <- <-. rewrite EF in H. injection H as <- <-.
  assert (LU : length u = length series) by (apply normalize_len in EN; auto).
  assert (MM : m1' = m1).
  { unfold dt_detect_anomaly in *. cbv zeta in *. destruct (get_verified_majority_value _ _) as [maj|]; [|discriminate]. rewrite bind_ok in *.
    bind_inv ED. bind_inv ED'. congruence. }
  exists rows1'. split; [congruence|]. split; [congruence|]. intros i r r' Hr Hr' A. rewrite (F1 i r Hr) in A. rewrite (F1' i r' Hr'). apply mem_nat_in in A. apply mem_nat_in.
  eapply (dt_more cst std ppf sqrt table sort SU u alpha alpha' ratio ratio' false false); eauto; [lia|intros [X|X]; discriminate|].
  intros n k LK. apply critical_falls; auto.
Qed.

(** C105. Asking about the newest point only: the same for the newest point. *)
Theorem C105_newest_with_level_and_ratio : forall series tv tv' alpha alpha' ratio ratio' nt rows m r, 4 <= length series ->
  length tv = length series -> length tv' = length series -> (alpha <= alpha')%Qc -> (ratio <= ratio')%Qc ->
  DT series tv alpha ratio nt true = Ok (rows, m) -> nth_error rows (length series - 1) = Some r -> r_anomaly r = true ->
  exists rows' r', DT series tv' alpha' ratio' nt true = Ok (rows', m) /\ nth_error rows' (length series - 1) = Some r' /\ r_anomaly r' = true.
Proof.
  intros series tv tv' alpha alpha' ratio ratio' nt rows m r L4 LT LT' LA LR H Hr A.
  destruct (dt_total cst std ppf sqrt table sort SU trend_detection TD series tv alpha ratio nt true L4 LT) as (u & mn & mx & idx & m1 & rows1 & EN & ED & EF & L1 & F1).
  destruct (dt_total cst std ppf sqrt table sort SU trend_detection TD series tv' alpha' ratio' nt true L4 LT') as (u' & mn' & mx' & idx' & m1' & rows1' & EN' & ED' & EF' & L1' & F1').
  rewrite EN in EN'. injection EN' as <- <- <-. rewrite EF in H. injection H as <- <-.
  assert (LU : length u = length series) by (apply normalize_len in EN; auto).
  assert (MM : m1' = m1).
  { unfold dt_detect_anomaly in *. cbv zeta in *. destruct (get_verified_majority_value _ _) as [maj|]; [|discriminate]. rewrite bind_ok in *.
    bind_inv ED. bind_inv ED'. congruence. }
  destruct (nth_error_ex _ rows1' (length series - 1)) as [r' Hr']; [lia|]. exists rows1', r'. split; [congruence|]. split; auto.
  rewrite (F1 _ r Hr) in A. rewrite (F1' _ r' Hr'). apply mem_nat_in in A. apply mem_nat_in.
  assert (L4' : 4 <= length u) by lia. assert (LB : true = true \/ true = true -> length series - 1 = length u - 1) by lia.
  apply (dt_more cst std ppf sqrt table sort SU u alpha alpha' ratio ratio' true true idx m1 idx' m1' (length series - 1) L4' LB LR (fun n k LK => critical_falls alpha alpha' n k LA LK) ED ED' A).
Qed.
End Rows.
Print Assumptions C105_more_with_level_and_ratio.
Print Assumptions C105_newest_with_level_and_ratio.

(** C106. The newest point is flagged by the latest-point run of the dynamic
    threshold detector exactly if the whole-series run flags it. *)
Theorem C106_modes_agree_on_newest : forall cst std ppf sqrt table sort trend_detection series tv tv' alpha ratio nt rows rows' m m' r r',
  sorts_up sort -> 4 <= length series ->
  dynamic_threshold_detection cst std ppf sqrt table sort trend_detection series tv alpha ratio nt false = Ok (rows, m) ->
  dynamic_threshold_detection cst std ppf sqrt table sort trend_detection series tv' alpha ratio nt true = Ok (rows', m') ->
  nth_error rows (length series - 1) = Some r -> nth_error rows' (length series - 1) = Some r' ->
  m' = m /\ r_anomaly r' = r_anomaly r.
Proof.
  intros cst std ppf sqrt table sort td series tv tv' alpha ratio nt rows rows' m m' r r' SU L4 H H' Hr Hr'.
  unfold dynamic_threshold_detection in H, H'. destruct (normalize series) as [[[u mn] mx]|] eqn:EN; [|discriminate]. rewrite bind_ok in H, H'. cbn [fst] in H, H'.
  assert (LU : length u = length series) by (apply normalize_len in EN; auto).
  destruct (dt_detect_anomaly cst std ppf sqrt table sort u alpha ratio false) as [[idx m1]|] eqn:ED; [|discriminate]. rewrite bind_ok in H. cbn [fst snd] in H.
  destruct (dt_detect_anomaly cst std ppf sqrt table sort u alpha ratio true) as [[idx' m1']|] eqn:ED'; [|discriminate]. rewrite bind_ok in H'. cbn [fst snd] in H'.
  match type of H with bind ?x _ = _ => destruct x as [tr|]; [|discriminate] end. rewrite bind_ok in H.
  match type of H' with bind ?x _ = _ => destruct x as [tr'|]; [|discriminate] end. rewrite bind_ok in H'.
  match type of H with bind ?x _ = _ => destruct x as [fr|] eqn:R; [|discriminate] end. rewrite bind_ok in H. injection H as <- <-.
  match type of H' with bind ?x _ = _ => destruct x as [fr'|] eqn:R'; [|discriminate] end. rewrite bind_ok in H'. injection H' as <- <-.
  apply result_frame_spec in R. destruct R as (_ & _ & R). apply result_frame_spec in R'. destruct R' as (_ & _ & R').
  destruct (R _ _ Hr) as (_ & _ & _ & _ & _ & _ & -> & _). destruct (R' _ _ Hr') as (_ & _ & _ & _ & _ & _ & -> & _).
  split.
  - unfold dt_detect_anomaly in ED, ED'. cbv zeta in ED, ED'. destruct (get_verified_majority_value _ _) as [maj|]; [|discriminate]. rewrite bind_ok in *.
    bind_inv ED. bind_inv ED'. congruence.
  - apply eq_true_iff_eq. rewrite !mem_nat_in. rewrite <- LU.
    destruct (dt_member cst std ppf sqrt table sort SU u alpha ratio false idx m1 (length u - 1) ltac:(lia) ltac:(auto) ED) as (maj & EM & A).
    destruct (dt_member cst std ppf sqrt table sort SU u alpha ratio true idx' m1' (length u - 1) ltac:(lia) ltac:(auto) ED') as (maj' & EM' & A').
    rewrite EM in EM'. injection EM' as <-. rewrite A, A'. tauto.
Qed.
Print Assumptions C106_modes_agree_on_newest.

(** A quantile that is the probability itself, root 1: the critical values
    fall; no table. *)
Definition line_ppf (p : Qc) (d : Z) : Qc := p.
Lemma line_falls : forall alpha alpha' i n, (alpha <= alpha')%Qc -> 1 <= i <= n ->
  (calculate_esd_values line_ppf (fun _ => 1%Qc) i alpha' n <= calculate_esd_values line_ppf (fun _ => 1%Qc) i alpha n)%Qc.
Proof.
  intros alpha alpha' i n LE L. unfold calculate_esd_values, line_ppf. cbv zeta.
  replace (Z.of_nat n - Z.of_nat i)%Z with (Z.of_nat (n - i)) by lia. set (z := Z.of_nat (n - i)).
  assert (Z0 : (0 <= qz z)%Qc) by (unfold z; apply qn_nonneg). assert (Z1 : (0 < qz (z + 1))%Qc) by (rewrite qz_add; change (qz 1) with 1%Qc; qlra).
  assert (D : forall x, (x / 1)%Qc = x) by (intros; field; intros X; discriminate X). rewrite !D. apply Qcmult_le_compat_r; auto.
  assert (alpha / qz (z + 1) <= alpha' / qz (z + 1))%Qc; [|qlra]. unfold Qcdiv. apply Qcmult_le_compat_r; auto. apply Qclt_le_weak, Qcinv_pos; auto.
Qed.
Definition seen (l : list Z) (alpha ratio : Qc) (lm : bool) : list nat :=
  match dynamic_threshold_detection ppf34 range_std line_ppf (fun _ => 1%Qc) [] sort_pairs mean_trend (map qz l) (map qz l) alpha ratio true lm with
  | Ok (rows, _) => map fst (filter (fun p => r_anomaly (snd p)) (combine (range (length rows)) rows)) | Err _ => [] end.
Example C105_more_example :
  (forall alpha alpha' i n, (alpha <= alpha')%Qc -> 1 <= i <= n ->
     (calculate_esd_values line_ppf (fun _ => 1%Qc) i alpha' n <= calculate_esd_values line_ppf (fun _ => 1%Qc) i alpha n)%Qc) /\
  (forall s p, exists t, mean_trend s p = Ok t /\ length t = length s) /\
  let l := [100; 99; 20; 30; 98; 101; 101; 102; 100; 100; 21; 250]%Z in
  seen l (Q2Qc (1 # 20)) (Q2Qc (1 # 12)) false = [2; 11] /\ seen l (Q2Qc (1 # 2)) (Q2Qc (1 # 4)) false = [2; 3; 10; 11] /\
  seen l (Q2Qc (1 # 20)) (Q2Qc (1 # 12)) true = [2; 11] /\ seen l (Q2Qc (1 # 2)) (Q2Qc (1 # 4)) true = [2; 3; 10; 11].
Proof.
  split; [exact line_falls|]. split; [intros s p; eexists; split; [reflexivity|apply map_length]|]. cbv zeta. repeat split; vm_compute; reflexivity.
Qed.

Definition with_ratio (q : Qc) (a : args) : args :=
  mkArgs (a_values a) (a_fup a) (a_mode a) (a_fixed a) q (a_alpha a) (a_threshold a) (a_need_trend a) (a_majority a) (a_gran a) (a_interval a).
(** C105 does not carry over to the answer: a higher maxAnomalyRatio removes
    more points from the trend, the expected values move, and a point reported
    before is now inside the band. *)
Theorem C105_answer_refuted : exists a q q' i, (q <= q')%Qc /\ make_fup (Some (map Z.of_nat (range 12))) (map Some (a_values a)) default_maxlen = Ok (a_fup a) /\
  nth_error (flags_of (ask_entire true (with_ratio q a))) i = Some true /\ nth_error (flags_of (ask_entire true (with_ratio q' a))) i = Some false.
Proof.
  exists (unit_args true [102; 101; 99; 99; 101; 102; 100; 102; 50; 80; 101; 110]%Z), (Q2Qc (1 # 12)), (Q2Qc (1 # 4)), 11.
  split; [vm_compute; discriminate|]. do 2 (split; [vm_compute; reflexivity|]). vm_compute. reflexivity.
Qed.
(** Nor does C106: the trend of the whole-series run leaves out other points. *)
Theorem C106_answer_refuted : exists a, make_fup (Some (map Z.of_nat (range 12))) (map Some (a_values a)) default_maxlen = Ok (a_fup a) /\
  exists b t o p w, nth_error (flags_of (ask_entire true a)) 11 = Some b /\ ask_latest true a = Ok (t, o, p, w) /\ o_anomaly o = negb b.
Proof.
  exists (unit_args true [106; 101; 99; 98; 98; 102; 21; 100; 100; 99; 100; 110]%Z). split; [vm_compute; reflexivity|].
  eexists. eexists. eexists. eexists. eexists. split; [vm_compute; reflexivity|]. split; vm_compute; reflexivity.
Qed.
Print Assumptions C105_answer_refuted.
Print Assumptions C106_answer_refuted.
Example C106_example : forall l, In l [[100; 99; 20; 30; 98; 101; 101; 102; 100; 100; 21; 250]; [106; 101; 99; 98; 98; 102; 21; 100; 100; 99; 100; 110]]%Z ->
  In 11 (seen l (Q2Qc (1 # 20)) (Q2Qc (1 # 6)) false) /\ In 11 (seen l (Q2Qc (1 # 20)) (Q2Qc (1 # 6)) true).
Proof. intros l [<-|[<-|[]]]; split; vm_compute; auto 20. Qed.
