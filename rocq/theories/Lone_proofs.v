(** A lone spike on a level series: order, tests and selection (C114). *)
From Coq Require Import List Arith ZArith QArith Qcanon Qround Lia Bool Sorted Permutation.
From Verif Require Import Base Num Sorting FillUp_proofs2 Kernel_model Kernel_spec Kernel_proofs Kernel_proofs3 Kernel_props Helpers_model Helpers_proofs Helpers_proofs2 Helpers_props
  Margins_model SR_model Detect_model Detect_spec Detect_proofs Detect_proofs2 Period_spec Period_proofs3 Spike_spec Spike_proofs Spike_proofs3 Lone_spec.
Import ListNotations.
Open Scope nat_scope.

(** * Averages *)
Lemma spiked_last : forall m y d, repeat y m ++ [(y + d)%Qc] = spiked (S m) m y d.
Proof. intros. rewrite spiked_split by lia. replace (S m - 1 - m) with 0 by lia. auto. Qed.
Lemma spiked_first : forall m y d, (y + d)%Qc :: repeat y m = spiked (S m) 0 y d.
Proof. intros. rewrite spiked_split by lia. replace (S m - 1 - 0) with m by lia. auto. Qed.
Lemma spiked_mean : forall n k y d, k < n -> qmean (spiked n k y d) = (y + d / qn n)%Qc.
Proof.
  intros n k y d K. unfold qmean. rewrite spiked_length. rewrite <- (map_id (spiked n k y d)). rewrite spiked_sum by auto.
  destruct n as [|m]; [lia|]. replace (S m - 1) with m by lia. assert (Q : qn (S m) <> 0%Qc) by (apply qn_neq0; lia).
  rewrite qn_S in *. field. auto.
Qed.
(** The sum of the squared deviations. *)
Lemma spiked_deviations : forall n k y d, k < n ->
  (qn n * qsum (map (fun x => (x - qmean (spiked n k y d)) * (x - qmean (spiked n k y d))) (spiked n k y d)) = qn (n - 1) * (d * d))%Qc.
Proof.
  intros n k y d K. rewrite spiked_mean by auto. rewrite spiked_sum by auto.
  destruct n as [|m]; [lia|]. replace (S m - 1) with m by lia. assert (Q : qn (S m) <> 0%Qc) by (apply qn_neq0; lia).
  rewrite qn_S in *. field. auto.
Qed.
Lemma spiked_variance : forall n k y d, k < n -> (qn n * qn n * variance (spiked n k y d) = qn (n - 1) * (d * d))%Qc.
Proof.
  intros n k y d K. rewrite <- (spiked_deviations n k y d K). unfold variance. rewrite spiked_length.
  change (qsum (spiked n k y d) / qn n)%Qc with (qsum (spiked n k y d) / qn n)%Qc.
  unfold qmean. rewrite spiked_length. set (S := qsum (map _ _)). assert (Q : qn n <> 0%Qc) by (apply qn_neq0; lia). field. auto.
Qed.
Lemma spiked_median : forall l n k y d, 5 <= n -> k < n -> Permutation l (spiked n k y d) -> qmedian l = y.
Proof.
  intros l n k y d N K P. assert (LL : length l = n) by (rewrite (Permutation_length P); apply spiked_length).
  assert (M : forall i, 1 <= i -> i + 2 <= n -> nth i (qsort l) 0%Qc = y).
  { intros i I1 I2. apply (spiked_mid n k y d); auto; [|apply qsort_sorted]. etransitivity; [|exact P]. apply Permutation_sym, qsort_perm. }
  unfold qmedian, median_of_sorted. rewrite qsort_length, LL. pose proof (Nat.div_mod n 2 ltac:(lia)) as D. pose proof (Nat.mod_upper_bound n 2 ltac:(lia)).
  destruct (Nat.odd n); rewrite ?M by lia; auto.
  replace (y + y)%Qc with (y * Q2Qc 2)%Qc by (replace (Q2Qc 2) with (1 + 1)%Qc by (apply Qc_is_canon; reflexivity); ring).
  field. intro X. discriminate X.
Qed.
Lemma spiked_map : forall (f : Qc -> Qc) n k y d, map f (spiked n k y d) = spiked n k (f y) (f (y + d) - f y)%Qc.
Proof.
  intros f n k y d. unfold spiked. rewrite map_map. apply map_ext. intros t. destruct (t =? k); auto. ring.
Qed.
Lemma spiked_mad : forall l n k y d, 5 <= n -> k < n -> Permutation l (spiked n k y d) ->
  qmedian (map (fun x => Qcabs (x - qmedian l)) l) = 0%Qc.
Proof.
  intros l n k y d N K P. rewrite (spiked_median l n k y d) by auto.
  rewrite (spiked_median _ n k (Qcabs (y - y)) (Qcabs (y + d - y) - Qcabs (y - y)) N K).
  - replace (y - y)%Qc with 0%Qc by ring. reflexivity.
  - rewrite <- (spiked_map (fun x => Qcabs (x - y)) n k y d). apply Permutation_map. auto.
Qed.

(** * Scaling *)
Lemma spiked_normalize : forall n k b c, 2 <= n -> k < n -> c <> 0%Qc ->
  exists mn mx, normalize (spiked n k b c) = Ok (if (0 <? c)%Qc then spiked n k 0 1 else spiked n k 1 (- (1)), mn, mx)%Qc.
Proof.
  intros n k b c N K C. assert (NE : spiked n k b c <> []) by (intro X; apply (f_equal (@length Qc)) in X; rewrite spiked_length in X; simpl in X; lia).
  destruct (C25_normalize _ NE) as (u & mn & mx & E & LU & I1 & I2 & B & _ & H). rewrite spiked_length in LU.
  exists mn, mx. rewrite E. do 3 f_equal.
  set (j := if k =? 0 then 1 else 0). assert (J : j < n /\ j <> k). { unfold j. destruct (k =? 0) eqn:X; [apply Nat.eqb_eq in X|apply Nat.eqb_neq in X]; lia. }
  destruct J as [J1 J2].
  assert (Pk := spiked_nth n k b c k K). rewrite Nat.eqb_refl in Pk. assert (Pj := spiked_nth n k b c j J1). apply Nat.eqb_neq in J2. rewrite J2 in Pj.
  assert (V : forall x, In x (spiked n k b c) -> x = b \/ x = (b + c)%Qc).
  { intros x I. unfold spiked in I. apply in_map_iff in I. destruct I as (t & <- & _). destruct (t =? k); auto. }
  destruct (B _ (nth_error_In _ _ Pk)) as [Bk1 Bk2]. destruct (B _ (nth_error_In _ _ Pj)) as [Bj1 Bj2].
  assert (W : mn <> mx). { intros <-. apply C. assert ((b + c)%Qc = mn) by (apply Qcle_antisym; auto). assert (b = mn) by (apply Qcle_antisym; auto). replace c with (b + c - b)%Qc by ring. rewrite H0, H1. ring. }
  specialize (H W). destruct (0 <? c)%Qc eqn:S.
  - apply Qcltb_lt in S. assert (mx = (b + c)%Qc) by (destruct (V _ I2) as [X|X]; auto; exfalso; rewrite X in *; qlra).
    assert (mn = b) by (destruct (V _ I1) as [X|X]; auto; exfalso; rewrite X in *; qlra). subst mn mx.
    apply nth_error_ext_len; [rewrite spiked_length; auto|]. intros i Hi. rewrite LU in Hi. rewrite spiked_nth by auto.
    destruct (nth_error u i) as [w|] eqn:Ew; [|apply nth_error_None in Ew; lia].
    destruct (H i _ w (spiked_nth n k b c i Hi) Ew) as (_ & Z0 & Z1 & _). destruct (i =? k); f_equal; [rewrite (proj2 Z1); auto; ring|apply Z0; auto].
  - assert (S' : (c < 0)%Qc). { apply Qcltb_ge in S. apply Qcle_lt_or_eq in S. destruct S; auto. contradiction. }
    assert (mn = (b + c)%Qc) by (destruct (V _ I1) as [X|X]; auto; exfalso; rewrite X in *; qlra).
    assert (mx = b) by (destruct (V _ I2) as [X|X]; auto; exfalso; rewrite X in *; qlra). subst mn mx.
    apply nth_error_ext_len; [rewrite spiked_length; auto|]. intros i Hi. rewrite LU in Hi. rewrite spiked_nth by auto.
    destruct (nth_error u i) as [w|] eqn:Ew; [|apply nth_error_None in Ew; lia].
    destruct (H i _ w (spiked_nth n k b c i Hi) Ew) as (_ & Z0 & Z1 & _). destruct (i =? k); f_equal; [rewrite (proj2 Z0); auto; ring|apply Z1; auto].
Qed.

(** * Tests: [d] is 1 for the upper tail and -1 for the lower one *)
Definition outward (upper : bool) : Qc := if upper then 1%Qc else (- (1))%Qc.
Lemma outlying_gap : forall upper c s v thr g, (g = outward upper * (v - c))%Qc -> outlying upper c s v thr -> (thr * Qcmax s (Q2Qc (1 # 100000000)) < g)%Qc.
Proof. intros upper c s v thr g -> H. unfold outlying in H. unfold outward. destruct upper; [replace (1 * (v - c))%Qc with (v - c)%Qc by ring|replace (- (1) * (v - c))%Qc with (c - v)%Qc by ring]; auto. Qed.
Lemma repeat_mean : forall y m, 0 < m -> qmean (repeat y m) = y.
Proof. intros y m M. unfold qmean. rewrite qsum_repeat, repeat_length. assert (Q : qn m <> 0%Qc) by (apply qn_neq0; lia). field. auto. Qed.
Lemma repeat_median : forall y m, 0 < m -> qmedian (repeat y m) = y.
Proof.
  intros y m M. assert (B : (y <= qmedian (repeat y m) /\ qmedian (repeat y m) <= y)%Qc).
  { apply median_in_range; [destruct m; [lia|discriminate]|]. intros x I. apply repeat_spec in I. subst. split; apply Qcle_refl. }
  apply Qcle_antisym; tauto.
Qed.
Lemma nonneg_gap : forall thr s, (0 <= thr)%Qc -> ~ (thr * Qcmax s (Q2Qc (1 # 100000000)) < 0)%Qc.
Proof.
  intros thr s T X. assert (P : (0 <= Qcmax s (Q2Qc (1 # 100000000)))%Qc). { apply Qcle_trans with (Q2Qc (1 # 100000000)); [vm_compute; discriminate|apply Qcmax_r]. }
  pose proof (Qcmul_nonneg _ _ T P). qlra.
Qed.
Lemma skipn_repeat : forall A (x : A) k m, skipn k (repeat x m) = repeat x (m - k).
Proof. induction k as [|k IH]; intros [|m]; cbn; auto. Qed.

Section Tests.
Variable cst : Qc.
Variable std : list Qc -> Qc.
Hypothesis FA : fair_std std.

(** Once the spike is out, nothing is left to find. *)
Lemma hit_quiet : forall upper x y m k thr, 1 <= k -> k <= m -> (0 <= thr)%Qc -> ~ significant cst std upper (x :: repeat y m) k thr.
Proof.
  intros upper x y m k thr K1 K2 T (v & Hv & H). destruct k as [|k]; [lia|]. cbn [skipn nth_error] in *. rewrite skipn_repeat in H.
  rewrite nth_error_repeat in Hv. assert (X : (k <? m) = true) by (apply Nat.ltb_lt; lia). rewrite X in Hv. assert (v = y) by congruence. subst v.
  rewrite repeat_median, repeat_mean in H by lia. destruct H as [H|H]; apply (outlying_gap upper _ _ _ _ 0%Qc) in H; try (eapply nonneg_gap; eauto; fail); ring.
Qed.
(** In the other tail, the level stays within the deviation the spike makes. *)
Lemma miss_quiet : forall upper y m k thr, k + 7 <= m -> (Q2Qc (1 # 2) <= thr)%Qc ->
  ~ significant cst std upper (repeat y m ++ [(y - outward upper)%Qc]) k thr.
Proof.
  intros upper y m k thr K T (v & Hv & H).
  rewrite nth_error_app1 in Hv by (rewrite repeat_length; lia). rewrite nth_error_repeat in Hv. assert (X : (k <? m) = true) by (apply Nat.ltb_lt; lia). rewrite X in Hv.
  assert (v = y) by congruence. subst v. clear Hv X. rewrite skipn_app, skipn_repeat, repeat_length in H. replace (k - m) with 0 in H by lia. cbn [skipn] in H.
  set (j := m - k) in *. assert (J : 7 <= j) by (unfold j; lia). clearbody j. set (d := (- outward upper)%Qc).
  assert (ED : (y - outward upper)%Qc = (y + d)%Qc) by (unfold d; ring). rewrite ED, spiked_last in H.
  assert (DD : (d * d = 1)%Qc) by (unfold d, outward; destruct upper; ring).
  rewrite (spiked_median (spiked (S j) j y d) (S j) j y d), (spiked_mean (S j) j y d) in H by (auto; lia).
  destruct H as [H|H]. { apply (outlying_gap upper _ _ _ _ 0%Qc) in H; [|ring]. eapply nonneg_gap; [|exact H]. eapply Qcle_trans; [|exact T]. vm_compute. discriminate. }
  assert (Q : qn (S j) <> 0%Qc) by (apply qn_neq0; lia).
  apply (outlying_gap upper _ _ _ _ (1 / qn (S j))%Qc) in H.
  2:{ unfold d, outward. destruct upper; field; auto. }
  destruct (FA (spiked (S j) j y d)) as [S0 SV]. { intro E. apply (f_equal (@length Qc)) in E. rewrite spiked_length in E. discriminate. }
  set (sd := std (spiked (S j) j y d)) in *. pose proof (spiked_variance (S j) j y d ltac:(lia)) as VA. set (va := variance _) in *. clearbody va sd.
  rewrite DD in VA. replace (S j - 1) with j in VA by lia. assert (J7 : (Q2Qc 7 <= qn j)%Qc) by (change (Q2Qc 7) with (qn 7); apply qn_le; auto).
  rewrite qn_S in *. set (q := qn j) in *. clearbody q. set (w := (1 + q)%Qc) in *.
  assert (W0 : (0 < w)%Qc) by (unfold w; qlra).
  assert (H1 : (thr * sd < 1 / w)%Qc).
  { eapply Qcle_lt_trans; [|exact H]. assert (G : (sd <= Qcmax sd (Q2Qc (1 # 100000000)))%Qc) by apply Qcmax_l.
    assert (G0 : (0 <= thr)%Qc) by (eapply Qcle_trans; [|exact T]; vm_compute; discriminate). pose proof (Qcmul_nonneg _ _ G0 (proj1 (Qcle_minus_iff _ _) G)) as G1. qlra. }
  assert (H2 : (sd * w < Q2Qc 2)%Qc).
  { assert (A1 : (thr * sd * w < 1)%Qc). { assert (A : (thr * sd * w < 1 / w * w)%Qc) by (apply Qcmult_lt_compat_r; auto). replace (1 / w * w)%Qc with 1%Qc in A by (field; auto). auto. }
    assert (A2 : (0 <= (thr - Q2Qc (1 # 2)) * (sd * w))%Qc). { apply Qcmul_nonneg; [qlra|]. apply Qcmul_nonneg; auto. apply Qclt_le_weak; auto. }
    qlra. }
  assert (H3 : (sd * w * (sd * w) <= Q2Qc 4)%Qc).
  { assert (P0 : (0 <= sd * w)%Qc) by (apply Qcmul_nonneg; auto; apply Qclt_le_weak; auto). set (z := (sd * w)%Qc) in *. clearbody z.
    assert (P1 : (0 <= (Q2Qc 2 - z) * (Q2Qc 2 + z))%Qc) by (apply Qcmul_nonneg; qlra). replace ((Q2Qc 2 - z) * (Q2Qc 2 + z))%Qc with (Q2Qc 4 - z * z)%Qc in P1; [qlra|].
    replace (Q2Qc 4) with (Q2Qc 2 * Q2Qc 2)%Qc by (apply Qc_is_canon; reflexivity). ring. }
  assert (H4 : (0 <= w * w * (Q2Qc (101 # 100) * (sd * sd) - va))%Qc).
  { apply Qcmul_nonneg; [|qlra]. apply Qcmul_nonneg; apply Qclt_le_weak; auto. }
  assert (H5 : (q <= Q2Qc (101 # 100) * (sd * w * (sd * w)))%Qc).
  { rewrite <- (Qcmult_1_r q), <- VA. replace (Q2Qc (101 # 100) * (sd * w * (sd * w)))%Qc with (w * w * va + w * w * (Q2Qc (101 # 100) * (sd * sd) - va))%Qc by ring.
    set (aa := (w * w * va)%Qc) in *. set (bb := (w * w * (Q2Qc (101 # 100) * (sd * sd) - va))%Qc) in *. clearbody aa bb. qlra. }
  set (zz := (sd * w * (sd * w))%Qc) in *. clearbody zz. qlra.
Qed.
End Tests.

(** * The sorted series *)
Section Select.
Variable cst : Qc.
Variable std : list Qc -> Qc.
Variable ppf : Qc -> Z -> Qc.
Variable sqrt : Qc -> Qc.
Variable table : list Qc.
Variable sort : list (nat * Qc) -> list (nat * Qc).
Hypothesis SU : sorts_up sort.
Hypothesis FA : fair_std std.

(** The spike comes first in its own tail, the level after it. *)
Lemma tail_shape : forall n k y upper, k < n ->
  exists l, (if upper : bool then rev (sorted_series sort (spiked n k y (outward upper))) else sorted_series sort (spiked n k y (outward upper)))
            = (k, (y + outward upper)%Qc) :: l /\ map snd l = repeat y (n - 1).
Proof.
  intros n k y upper K. set (d := outward upper). set (s := sorted_series sort (spiked n k y d)).
  assert (P : Permutation (combine (range n) (spiked n k y d)) s).
  { pose proof (sorted_perm sort SU (spiked n k y d)) as P. rewrite spiked_length in P. exact P. }
  assert (ND : NoDup (map fst s)) by (apply (sorted_nodup sort SU)).
  assert (LS : length s = n). { unfold s. rewrite (sorted_length sort SU). apply spiked_length. }
  assert (SS : StronglySorted (fun a b => (snd a <= snd b)%Qc) s) by (apply (SU _)).
  assert (V : forall i v, In (i, v) s -> v = if i =? k then (y + d)%Qc else y).
  { intros i v I. apply (Permutation_in _ (Permutation_sym P)) in I. apply In_nth_error in I. destruct I as [t It].
    assert (Lt : t < n). { apply nth_error_lt in It. rewrite combine_length, spiked_length in It. unfold range in It. rewrite seq_length in It. lia. }
    rewrite nth_error_combine in It. unfold range in It. rewrite nth_error_seq, spiked_nth in It by auto.
    assert (E : (t <? n) = true) by (apply Nat.ltb_lt; auto). rewrite E in It. injection It as <- <-. auto. }
  assert (Ik : In (k, (y + d)%Qc) s).
  { apply (Permutation_in _ P). apply (nth_error_In _ k). rewrite nth_error_combine. unfold range. rewrite nth_error_seq, spiked_nth by auto.
    assert (E : (k <? n) = true) by (apply Nat.ltb_lt; auto). rewrite E, Nat.eqb_refl. auto. }
  apply in_split in Ik. destruct Ik as (l1 & l2 & Es).
  assert (OT : forall i v, In (i, v) (l1 ++ l2) -> v = y).
  { intros i v I. rewrite (V i v).
    - destruct (i =? k) eqn:E; auto. apply Nat.eqb_eq in E. subst i. exfalso. rewrite Es, map_app in ND. cbn [map fst] in ND.
      apply NoDup_remove_2 in ND. apply ND. rewrite <- map_app. apply (in_map fst) in I. exact I.
    - rewrite Es. apply in_app_or in I. apply in_or_app. destruct I; [left|right; right]; auto. }
  assert (ALL : forall l, (forall p, In p l -> In p (l1 ++ l2)) -> map snd l = repeat y (length l)).
  { induction l as [|[i v] t IH]; intros H; cbn; auto. rewrite (OT i v) by (apply H; left; auto). rewrite IH; auto. intros p Ip. apply H. right. auto. }
  rewrite Es in SS, LS. rewrite app_length in LS. cbn [length] in LS. destruct upper.
  - destruct l2 as [|[i v] l2].
    + exists (rev l1). rewrite Es, rev_app_distr. cbn [rev app]. split; auto. rewrite (ALL (rev l1)). 
      * rewrite rev_length. cbn [length] in LS. f_equal. lia.
      * intros p Ip. apply in_or_app. left. apply in_rev in Ip. auto.
    + exfalso. assert (S2 : StronglySorted (fun a b => (snd a <= snd b)%Qc) ((k, (y + d)%Qc) :: (i, v) :: l2)).
      { clear -SS. induction l1 as [|a t IH]; auto. apply IH. cbn in SS. inversion SS; auto. }
      inversion S2 as [|? ? _ F]; subst. rewrite Forall_forall in F. specialize (F (i, v) (or_introl eq_refl)). cbn [snd] in F.
      rewrite (OT i v) in F by (apply in_or_app; right; left; auto). unfold d, outward in F. qlra.
  - destruct l1 as [|[i v] l1].
    + exists l2. rewrite Es. cbn [app]. split; auto. rewrite (ALL l2); [|auto]. cbn [length] in LS. f_equal. lia.
    + exfalso. cbn in SS. inversion SS as [|? ? _ F]; subst. rewrite Forall_forall in F.
      specialize (F (k, (y + d)%Qc)). cbn [snd] in F.
      assert (X : (v <= y + d)%Qc) by (apply F; apply in_or_app; right; left; auto).
      rewrite (OT i v) in X by (left; auto). unfold d, outward in X. qlra.
Qed.
Lemma other_shape : forall n k y upper, k < n ->
  exists l, (if upper : bool then rev (sorted_series sort (spiked n k y (- outward upper)%Qc)) else sorted_series sort (spiked n k y (- outward upper)%Qc))
            = l ++ [(k, (y - outward upper)%Qc)] /\ map snd l = repeat y (n - 1).
Proof.
  intros n k y upper K. destruct (tail_shape n k y (negb upper) K) as (l & E & M).
  replace (outward (negb upper)) with (- outward upper)%Qc in E by (unfold outward; destruct upper; cbn; ring).
  exists (rev l). rewrite map_rev, M. split.
  - replace (y - outward upper)%Qc with (y + - outward upper)%Qc by ring. destruct upper; cbn [negb] in E.
    + rewrite E. reflexivity.
    + apply (f_equal (@rev _)) in E. rewrite rev_involutive in E. exact E.
  - clear. induction (n - 1) as [|j IH]; auto. cbn. rewrite IH. clear. induction j as [|j IH]; cbn; auto. rewrite IH. auto.
Qed.

Lemma hit_ordered : forall upper y m, tail_ordered upper ((y + outward upper)%Qc :: repeat y m).
Proof.
  intros upper y m i j a b L Hi Hj.
  assert (G : forall i x, nth_error ((y + outward upper)%Qc :: repeat y m) i = Some x -> i = 0 /\ x = (y + outward upper)%Qc \/ 0 < i /\ x = y).
  { clear. intros [|i] x H; cbn in H; [left; split; auto; congruence|right; split; [lia|]]. apply nth_error_In in H. apply repeat_spec in H. auto. }
  destruct (G _ _ Hi) as [[A ->]|[A ->]], (G _ _ Hj) as [[B ->]|[B ->]]; try lia; unfold outward; destruct upper; qlra.
Qed.
Lemma miss_ordered : forall upper y m, tail_ordered upper (repeat y m ++ [(y - outward upper)%Qc]).
Proof.
  intros upper y m i j a b L Hi Hj.
  assert (G : forall i x, nth_error (repeat y m ++ [(y - outward upper)%Qc]) i = Some x -> i < m /\ x = y \/ i = m /\ x = (y - outward upper)%Qc).
  { clear. intros i x H. destruct (lt_dec i m) as [X|X].
    - left. split; auto. rewrite nth_error_app1 in H by (rewrite repeat_length; auto). apply nth_error_In in H. apply repeat_spec in H. auto.
    - right. rewrite nth_error_app2, repeat_length in H by (rewrite repeat_length; lia). destruct (i - m) as [|q] eqn:E; [|destruct q; discriminate]. split; [lia|]. cbn in H. congruence. }
  destruct (G _ _ Hi) as [[A ->]|[A ->]], (G _ _ Hj) as [[B ->]|[B ->]]; try lia; unfold outward; destruct upper; qlra.
Qed.

(** * The generalised ESD test *)
Variable critical : nat -> nat -> list Qc.
Lemma esd_hit : forall n k y upper maxo lm, 12 <= n -> k < n -> maxo <= n / 2 - 1 -> maxo <= length (critical n maxo) ->
  (forall j, j < maxo -> (0 <= nth j (critical n maxo) 0)%Qc) ->
  exists e, esd_detect cst std critical (sorted_series sort (spiked n k y (outward upper))) maxo None upper lm = Ok e /\ (e = [] \/ e = [k]).
Proof.
  intros n k y upper maxo lm N K M LC C. destruct (tail_shape n k y upper K) as (l & E & ML). unfold esd_detect. rewrite E. rewrite bind_ok.
  assert (D2 := Nat.div_mod n 2 ltac:(lia)). rewrite (sorted_length sort SU), spiked_length. cbn [map fst snd]. rewrite ML.
  pose proof (hit_ordered upper y (n - 1)) as TO.
  assert (LV : length ((y + outward upper)%Qc :: repeat y (n - 1)) = n) by (cbn; rewrite repeat_length; lia).
  assert (Q : forall j, j < maxo -> significant cst std upper ((y + outward upper)%Qc :: repeat y (n - 1)) j (nth j (critical n maxo) 0%Qc) -> j = 0).
  { intros [|j] Hj H; auto. exfalso. apply (hit_quiet cst std upper (y + outward upper)%Qc y (n - 1) (S j) (nth (S j) (critical n maxo) 0%Qc)); auto; lia. }
  destruct lm.
  - destruct (first_pos _ _) as [li|]; [|eauto].
    destruct (C19_esd_last cst std upper _ (k :: map fst l) maxo (critical n maxo) li TO ltac:(lia) LC) as (j & -> & H). eexists. split; [reflexivity|].
    destruct H as [[-> _]|((H1 & H2) & H3 & _)]; [left; auto|right]. apply Q in H3; [|lia]. replace j with 1 by lia. reflexivity.
  - destruct (C19_esd_entire cst std upper _ (k :: map fst l) maxo (critical n maxo) TO ltac:(lia) LC) as (j & -> & H1 & _ & H3). eexists. split; [reflexivity|].
    destruct j as [|j]; [left; auto|right]. specialize (H3 ltac:(lia)). apply Q in H3; [|lia]. replace j with 0 by lia. reflexivity.
Qed.
Lemma esd_miss : forall n k y upper maxo lm, 12 <= n -> k < n -> maxo <= n / 2 - 1 -> maxo <= length (critical n maxo) ->
  (forall j, j < maxo -> (Q2Qc (1 # 2) <= nth j (critical n maxo) 0)%Qc) ->
  esd_detect cst std critical (sorted_series sort (spiked n k y (- outward upper)%Qc)) maxo None upper lm = Ok [].
Proof.
  intros n k y upper maxo lm N K M LC C. destruct (other_shape n k y upper K) as (l & E & ML). unfold esd_detect. rewrite E. rewrite bind_ok.
  assert (D2 := Nat.div_mod n 2 ltac:(lia)). assert (D3 := Nat.mod_upper_bound n 2 ltac:(lia)).
  rewrite (sorted_length sort SU), spiked_length, map_app. cbn [map fst snd]. rewrite ML.
  pose proof (miss_ordered upper y (n - 1)) as TO.
  assert (LV : length (repeat y (n - 1) ++ [(y - outward upper)%Qc]) = n) by (rewrite app_length, repeat_length; cbn; lia).
  assert (Q : forall j, j < maxo -> significant cst std upper (repeat y (n - 1) ++ [(y - outward upper)%Qc]) j (nth j (critical n maxo) 0%Qc) -> False).
  { intros j Hj H. apply (miss_quiet cst std FA upper y (n - 1) j (nth j (critical n maxo) 0%Qc)); auto; lia. }
  destruct lm.
  - destruct (first_pos _ _) as [li|]; [|auto].
    destruct (C19_esd_last cst std upper _ (map fst (l ++ [(k, (y - outward upper)%Qc)])) maxo (critical n maxo) li TO ltac:(lia) LC) as (j & -> & H).
    destruct H as [[-> _]|((H1 & H2) & H3 & _)]; [auto|]. exfalso. apply (Q (j - 1)); auto; lia.
  - destruct (C19_esd_entire cst std upper _ (map fst (l ++ [(k, (y - outward upper)%Qc)])) maxo (critical n maxo) TO ltac:(lia) LC) as (j & -> & H1 & _ & H3).
    destruct j as [|j]; [auto|]. exfalso. apply (Q (S j - 1)); [lia|]. apply H3. lia.
Qed.

(** * The z score *)
Lemma sorted_spiked : forall n k y d, Permutation (map snd (sorted_series sort (spiked n k y d))) (spiked n k y d).
Proof. intros. apply Permutation_sym, (sorted_vals sort SU). Qed.
Lemma qsum_perm : forall a b, Permutation a b -> qsum a = qsum b.
Proof. intros a b P. induction P; cbn [qsum]; [auto|rewrite IHP; auto|ring|congruence]. Qed.
Lemma abs_unit : forall d x, (d * d = 1)%Qc -> (0 <= x)%Qc -> Qcabs (d * x) = x.
Proof.
  intros d x DD X0. assert (X : (0 = (d - 1) * (d + 1))%Qc) by (replace ((d - 1) * (d + 1))%Qc with (d * d - 1)%Qc by ring; rewrite DD; ring).
  symmetry in X. apply Qcmult_integral in X. destruct X as [X|X].
  - replace (d * x)%Qc with ((d - 1) * x + x)%Qc by ring. rewrite X. replace (0 * x + x)%Qc with x by ring. qmm; qlra.
  - replace (d * x)%Qc with ((d + 1) * x - x)%Qc by ring. rewrite X. replace (0 * x - x)%Qc with (- x)%Qc by ring. rewrite Qcabs_opp. qmm; qlra.
Qed.

(** The z scores of the sorted values: far for the spike, near for the level. *)
Lemma z_scores : forall vs n k y d, 12 <= n -> k < n -> (d * d = 1)%Qc -> Permutation vs (spiked n k y d) -> close_std std vs ->
  (0 < std vs)%Qc /\ (Q2Qc 3 <? Qcabs (y + d - qmean vs) / std vs)%Qc = true /\ (Q2Qc 3 <? Qcabs (y - qmean vs) / std vs)%Qc = false.
Proof.
  intros vs n k y d N K DD P [S0 SC]. assert (LV : length vs = n) by (rewrite (Permutation_length P); apply spiked_length).
  assert (QM : qmean vs = (y + d / qn n)%Qc). { rewrite <- (spiked_mean n k y d K). unfold qmean. rewrite LV, spiked_length, (qsum_perm _ _ P). auto. }
  destruct (FA vs) as [_ SF]. { intros ->. cbn in LV. lia. }
  assert (VV : variance vs = variance (spiked n k y d)).
  { unfold variance. rewrite LV, spiked_length, (qsum_perm _ _ P). f_equal. apply qsum_perm. apply Permutation_map. auto. }
  rewrite VV in SF. pose proof (spiked_variance n k y d K) as VA. pose proof (spiked_deviations n k y d K) as DE.
  assert (DV : qsum (map (fun x => (x - qmean vs) * (x - qmean vs))%Qc vs) =
               qsum (map (fun x => (x - qmean (spiked n k y d)) * (x - qmean (spiked n k y d)))%Qc (spiked n k y d))).
  { rewrite QM, (spiked_mean n k y d K). apply qsum_perm. apply Permutation_map. auto. }
  rewrite DV, LV in SC. rewrite QM. clear DV VV QM P LV. set (sd := std vs) in *. set (va := variance _) in *. set (de := qsum _) in *. clearbody sd va de.
  rewrite DD in *. destruct n as [|m]; [lia|]. replace (S m - 1) with m in * by lia.
  assert (M1 : (Q2Qc 11 <= qn m)%Qc) by (change (Q2Qc 11) with (qn 11); apply qn_le; lia).
  assert (Q : qn (S m) <> 0%Qc) by (apply qn_neq0; lia). rewrite qn_S in *. set (q := qn m) in *. clearbody q. set (w := (1 + q)%Qc) in *.
  assert (W0 : (0 < w)%Qc) by (unfold w; qlra).
  set (z := (sd * w)%Qc). assert (Z0 : (0 <= z)%Qc) by (unfold z; apply Qcmul_nonneg; auto; apply Qclt_le_weak; auto).
  assert (U1 : (z * z <= Q2Qc (101 # 100) * q)%Qc).
  { assert (X : (0 <= w * (Q2Qc (101 # 100) * de - w * (sd * sd)))%Qc) by (apply Qcmul_nonneg; [apply Qclt_le_weak; auto|qlra]).
    replace (w * (Q2Qc (101 # 100) * de - w * (sd * sd)))%Qc with (Q2Qc (101 # 100) * (w * de) - z * z)%Qc in X by (unfold z; ring).
    rewrite DE in X. rewrite Qcmult_1_r in X. qlra. }
  assert (U2 : (q <= Q2Qc (101 # 100) * (z * z))%Qc).
  { assert (X : (0 <= w * w * (Q2Qc (101 # 100) * (sd * sd) - va))%Qc) by (apply Qcmul_nonneg; [apply Qcmul_nonneg; apply Qclt_le_weak; auto|qlra]).
    replace (w * w * (Q2Qc (101 # 100) * (sd * sd) - va))%Qc with (Q2Qc (101 # 100) * (z * z) - w * w * va)%Qc in X by (unfold z; ring).
    rewrite VA in X. rewrite Qcmult_1_r in X. qlra. }
  assert (SP : (0 < sd)%Qc).
  { apply Qcle_lt_or_eq in S0. destruct S0 as [|X]; auto. exfalso. unfold z in U2. rewrite <- X in U2.
    replace (Q2Qc (101 # 100) * (Q2Qc 0 * w * (Q2Qc 0 * w)))%Qc with 0%Qc in U2 by ring. qlra. }
  assert (ZP : (0 < z)%Qc) by (unfold z; apply Qcmul_pos; auto).
  assert (A1 : Qcabs (y + d - (y + d / w)) = (q / w)%Qc).
  { replace (y + d - (y + d / w))%Qc with (d * (q / w))%Qc by (unfold w in *; field; auto). apply abs_unit; auto.
    apply Qclt_le_weak. unfold Qcdiv. apply Qcmul_pos; [qlra|]. apply Qcinv_pos; auto. }
  assert (A2 : Qcabs (y - (y + d / w)) = (1 / w)%Qc).
  { replace (y - (y + d / w))%Qc with (- (d * (1 / w)))%Qc by (field; auto). rewrite Qcabs_opp. apply abs_unit; auto.
    apply Qclt_le_weak. unfold Qcdiv. apply Qcmul_pos; [reflexivity|]. apply Qcinv_pos; auto. }
  assert (ZN : z <> 0%Qc) by (intro X; rewrite X in ZP; discriminate). assert (SN : sd <> 0%Qc) by (intro X; rewrite X in SP; discriminate).
  rewrite A1, A2. replace (q / w / sd)%Qc with (q / z)%Qc by (unfold z; field; auto). replace (1 / w / sd)%Qc with (1 / z)%Qc by (unfold z; field; auto).
  split; [auto|]. split.
  - apply Qcltb_lt. apply Qcnot_le_lt. intro X. apply Qcdiv_le_iff in X; auto.
    assert (Y : (0 <= (Q2Qc 3 * z - q) * (Q2Qc 3 * z + q))%Qc) by (apply Qcmul_nonneg; qlra).
    replace ((Q2Qc 3 * z - q) * (Q2Qc 3 * z + q))%Qc with (Q2Qc 9 * (z * z) - q * q)%Qc in Y by (replace (Q2Qc 9) with (Q2Qc 3 * Q2Qc 3)%Qc by (apply Qc_is_canon; reflexivity); ring).
    assert (Y2 : (0 <= (q - Q2Qc 11) * q)%Qc) by (apply Qcmul_nonneg; qlra). set (zz := (z * z)%Qc) in *.
    replace ((q - Q2Qc 11) * q)%Qc with (q * q - Q2Qc 11 * q)%Qc in Y2 by ring. set (qq := (q * q)%Qc) in *. clearbody zz qq. qlra.
  - apply Qcltb_ge. apply Qcdiv_le_iff; auto. apply Qcnot_lt_le. intro X.
    assert (Y : (0 < (1 - Q2Qc 3 * z) * (1 + Q2Qc 3 * z))%Qc) by (apply Qcmul_pos; qlra).
    replace ((1 - Q2Qc 3 * z) * (1 + Q2Qc 3 * z))%Qc with (1 - Q2Qc 9 * (z * z))%Qc in Y by (replace (Q2Qc 9) with (Q2Qc 3 * Q2Qc 3)%Qc by (apply Qc_is_canon; reflexivity); ring).
    set (zz := (z * z)%Qc) in *. clearbody zz. qlra.
Qed.
Lemma z_centre : forall n k y d, 12 <= n -> k < n -> (qmedian (map (fun x => Qcabs (x - qmedian (map snd (sorted_series sort (spiked n k y d)))))
  (map snd (sorted_series sort (spiked n k y d)))) / cst =? 0)%Qc = true.
Proof.
  intros n k y d N K. rewrite (spiked_mad _ n k y d) by (auto using sorted_spiked; lia). apply Qceqb_eq. unfold Qcdiv. ring.
Qed.
Lemma filter_level : forall (f : nat * Qc -> bool) y l, (forall i, f (i, y) = false) -> (forall p, In p l -> snd p = y) -> filter f l = [].
Proof.
  intros f y l F H. induction l as [|[i v] t IH]; cbn; auto.
  assert (E : v = y) by (apply (H (i, v)); left; auto). rewrite E, F. apply IH. intros p I. apply H. right. auto.
Qed.
Lemma level_snd : forall (l : list (nat * Qc)) y m p, map snd l = repeat y m -> In p l -> snd p = y.
Proof. intros l y m p E I. apply (in_map snd) in I. rewrite E in I. apply repeat_spec in I. auto. Qed.
Lemma unit_outward : forall upper, (outward upper * outward upper = 1)%Qc /\ (- outward upper * - outward upper = 1)%Qc.
Proof. intros []; unfold outward; split; ring. Qed.

Lemma zscore_hit : forall n k y upper maxo, 12 <= n -> k < n -> 1 <= maxo ->
  close_std std (map snd (sorted_series sort (spiked n k y (outward upper)))) ->
  zscore_detect cst std (sorted_series sort (spiked n k y (outward upper))) maxo upper = [k].
Proof.
  intros n k y upper maxo N K M CS. unfold zscore_detect. cbv zeta. rewrite z_centre by auto. cbn [fst snd].
  destruct (z_scores _ n k y (outward upper) N K (proj1 (unit_outward upper)) (sorted_spiked _ _ _ _) CS) as (SP & F1 & F2).
  set (mu := qmean _) in *. set (sd := std _) in *.
  assert (E0 : (sd =? 0)%Qc = false) by (apply Qceqb_neq; intro X; rewrite X in SP; discriminate). rewrite E0.
  destruct (tail_shape n k y upper K) as (l & E & ML). rewrite E. destruct maxo as [|j]; [lia|]. cbn [firstn filter snd]. rewrite F1. cbn [map fst]. f_equal.
  rewrite (filter_level _ y (firstn j l)); auto. intros p I. apply firstn_incl in I. eapply level_snd; eauto.
Qed.
Lemma zscore_miss : forall n k y upper maxo, 12 <= n -> k < n -> maxo < n ->
  close_std std (map snd (sorted_series sort (spiked n k y (- outward upper)%Qc))) ->
  zscore_detect cst std (sorted_series sort (spiked n k y (- outward upper)%Qc)) maxo upper = [].
Proof.
  intros n k y upper maxo N K M CS. unfold zscore_detect. cbv zeta. rewrite z_centre by auto. cbn [fst snd].
  destruct (z_scores _ n k y (- outward upper)%Qc N K (proj2 (unit_outward upper)) (sorted_spiked _ _ _ _) CS) as (SP & F1 & F2).
  set (mu := qmean _) in *. set (sd := std _) in *.
  assert (E0 : (sd =? 0)%Qc = false) by (apply Qceqb_neq; intro X; rewrite X in SP; discriminate). rewrite E0.
  destruct (other_shape n k y upper K) as (l & E & ML). rewrite E.
  assert (LL : length l = n - 1). { apply (f_equal (@length Qc)) in ML. rewrite map_length, repeat_length in ML. auto. }
  rewrite firstn_app. replace (maxo - length l) with 0 by lia. cbn [firstn]. rewrite app_nil_r.
  rewrite (filter_level _ y (firstn maxo l)); auto. intros p I. apply firstn_incl in I. eapply level_snd; eauto.
Qed.

(** * The verdict *)
Lemma majority_spiked : forall n k y upper, 12 <= n -> k < n ->
  get_verified_majority_value cst (map snd (sorted_series sort (spiked n k y (outward upper)))) = Ok None.
Proof.
  intros n k y upper N K. unfold get_verified_majority_value. cbv zeta.
  pose proof (z_centre n k y (outward upper) N K) as Z. apply Qceqb_eq in Z. rewrite Z.
  replace (isclose 0 0) with true by reflexivity.
  assert (LS : length (map snd (sorted_series sort (spiked n k y (outward upper)))) = n) by (rewrite map_length, (sorted_length sort SU); apply spiked_length).
  rewrite LS. assert (D2 := Nat.div_mod (n - 1) 2 ltac:(lia)). assert (D3 := Nat.mod_upper_bound (n - 1) 2 ltac:(lia)).
  assert (IC : isclose y y = true).
  { unfold isclose. replace (y - y)%Qc with 0%Qc by ring. apply Qcleb_le. replace (Qcabs 0) with 0%Qc by reflexivity.
    pose proof (Qcabs_nonneg y). assert (0 < Q2Qc (1 # 100000000))%Qc by reflexivity. assert (0 < Q2Qc (1 # 100000))%Qc by reflexivity.
    pose proof (Qcmul_nonneg _ _ (Qclt_le_weak _ _ H1) H). set (t := (Q2Qc (1 # 100000) * Qcabs y)%Qc) in *. clearbody t. qlra. }
  destruct (tail_shape n k y upper K) as (l & E & ML). unfold get.
  destruct upper.
  - apply (f_equal (@rev _)) in E. rewrite rev_involutive in E. rewrite E. cbn [rev]. rewrite map_app, map_rev, ML. cbn [map snd].
    assert (R : rev (repeat y (n - 1)) = repeat y (n - 1)).
    { clear. induction (n - 1) as [|j IH]; auto. cbn. rewrite IH. clear. induction j as [|j IH]; cbn; auto. rewrite IH. auto. }
    rewrite R. rewrite !nth_error_app1 by (rewrite repeat_length; lia). rewrite !nth_error_repeat.
    assert (X1 : ((n - 1) / 2 <? n - 1) = true) by (apply Nat.ltb_lt; lia). assert (X2 : (0 <? n - 1) = true) by (apply Nat.ltb_lt; lia). rewrite X1, X2, !bind_ok.
    destruct (nth_error _ (n - 1)) as [z|] eqn:Ez.
    + rewrite bind_ok, IC. auto.
    + apply nth_error_None in Ez. rewrite app_length, repeat_length in Ez. cbn in Ez. lia.
  - rewrite E. cbn [map snd]. rewrite ML. destruct n as [|n]; [lia|]. replace (S n - 1) with n in * by lia.
    assert (D4 : 1 <= n / 2) by (apply Nat.div_le_lower_bound; lia).
    destruct (n / 2) as [|h] eqn:EH; [lia|]. destruct n as [|n]; [lia|]. cbn [nth_error]. rewrite !nth_error_repeat.
    assert (X1 : (h <? S n) = true) by (apply Nat.ltb_lt; lia). assert (X2 : (n <? S n) = true) by (apply Nat.ltb_lt; lia). rewrite X1, X2, !bind_ok, IC.
    rewrite orb_true_r. auto.
Qed.
End Select.

Section Detect.
Variable cst : Qc.
Variable std : list Qc -> Qc.
Variable ppf : Qc -> Z -> Qc.
Variable sqrt : Qc -> Qc.
Variable table : list Qc.
Variable sort : list (nat * Qc) -> list (nat * Qc).
Hypothesis SU : sorts_up sort.
Hypothesis FA : fair_std std.

Lemma quota_bounds : forall n ratio, 12 <= n -> 1 <= dt_quota n ratio /\ dt_quota n ratio <= n / 2 - 1.
Proof. intros n ratio N. unfold dt_quota. assert (D : 6 <= n / 2) by (apply Nat.div_le_lower_bound; lia). lia. Qed.
Lemma dt_spiked : forall n k y upper alpha ratio lm, 12 <= n -> k < n ->
  (forall l, Permutation l (spiked n k y (outward upper)) -> close_std std l) ->
  (forall j, j < dt_quota n ratio -> (Q2Qc (1 # 2) <= nth j (get_critical ppf sqrt table alpha n (dt_quota n ratio)) 0)%Qc) ->
  dt_detect_anomaly cst std ppf sqrt table sort (spiked n k y (outward upper)) alpha ratio lm = Ok ([k], DynamicThreshold).
Proof.
  intros n k y upper alpha ratio lm N K CS C. unfold dt_detect_anomaly. cbv zeta. rewrite majority_spiked, bind_ok by auto. rewrite spiked_length.
  destruct (quota_bounds n ratio N) as [Q1 Q2]. set (maxo := dt_quota n ratio) in *. assert (D2 := Nat.div_mod n 2 ltac:(lia)).
  assert (LC : maxo <= length (get_critical ppf sqrt table alpha n maxo)) by (rewrite get_critical_length; lia).
  assert (CS' := CS _ (sorted_spiked sort SU n k y (outward upper))).
  destruct (esd_hit cst std sort SU (get_critical ppf sqrt table alpha) n k y upper maxo lm N K Q2 LC) as (e & EE & CE).
  { intros j Hj. eapply Qcle_trans; [|apply (C j Hj)]. vm_compute. discriminate. }
  assert (EO : outward upper = (- outward (negb upper))%Qc) by (unfold outward; destruct upper; cbn; ring).
  pose proof (zscore_hit cst std sort SU FA n k y upper maxo N K Q1 CS') as ZH.
  pose proof (esd_miss cst std sort SU FA (get_critical ppf sqrt table alpha) n k y (negb upper) maxo lm N K Q2 LC C) as EM.
  pose proof (zscore_miss cst std sort SU FA n k y (negb upper) maxo N K ltac:(lia)) as ZM. rewrite <- EO in EM, ZM. specialize (ZM CS').
  set (s := sorted_series sort (spiked n k y (outward upper))) in *. unfold detect_tails, run_detectors.
  assert (RE : rank_direction maxo n [[]; []] = []) by (unfold rank_direction; cbn; rewrite Nat.min_0_r; auto).
  assert (RH : rank_direction maxo n [e; [k]] = [k]).
  { destruct maxo as [|j]; [lia|]. unfold rank_direction. destruct CE as [-> | ->]; cbn; rewrite ?Nat.eqb_refl; cbn; rewrite ?Nat.min_0_r; auto. }
  destruct upper; cbn [negb] in *; rewrite EE, EM, ZH, ZM; cbn [bind]; rewrite RH, RE; auto.
Qed.
End Detect.
