(** V1 over whole frames; the factor table, bisection, V2. *)
From Coq Require Import List Arith ZArith Lia Bool Qround.
From Verif Require Import Base Num Sorting Kernel_model Kernel_proofs Kernel_proofs2 Margins_model Margins_spec Margins_proofs.
Import ListNotations.
Open Scope Qc_scope.

Definition v1_margin (sr : bool) (rows : list row) (sens : Qc) (r : row) : Qc :=
  let normal := filter (fun r => r_score r <=? EPS) rows in
  if sr then
    if r_score r <=? EPS then
      match normal with
      | [] => 0
      | _ => (qmax_list (map r_value normal) - qmin_list (map r_value normal)) * Q2Qc (1 # 100)
      end
    else Qcabs (r_value r - r_expected r) / r_score r * (1 - sens / Q2Qc 100)
  else Qcabs (r_expected r) * (Q2Qc 100 - sens) / Q2Qc 100.

Lemma v1_unfold : forall sr rows sens,
  get_margins_v1 sr rows sens = refine_margins rows sens (map (v1_margin sr rows sens) rows).
Proof.
  intros [|] rows sens; unfold get_margins_v1, get_spectral_residual_margins, get_anomaly_detector_margins, v1_margin; auto.
Qed.

Lemma hundred_pos : 0 < Q2Qc 100. Proof. reflexivity. Qed.

Lemma spread_nonneg : forall l : list Qc, l <> [] -> 0 <= qmax_list l - qmin_list l.
Proof.
  intros l H. pose proof (qmin_list_le l _ (qmax_list_in l H)). qlra.
Qed.

Lemma v1_margin_mono : forall sr rows s1 s2 r, s1 <= s2 -> v1_margin sr rows s2 r <= v1_margin sr rows s1 r.
Proof.
  intros sr rows s1 s2 r H. unfold v1_margin. destruct sr.
  - destruct (r_score r <=? EPS) eqn:E; qb_hyps; [qlra|].
    assert (0 < r_score r) by (assert (0 < EPS) by reflexivity; qlra).
    assert (A : 0 <= Qcabs (r_value r - r_expected r) / r_score r) by (apply Qcdiv_nonneg; auto; apply Qcabs_nonneg).
    apply Qcmul_le_l; auto.
    assert (s1 / Q2Qc 100 <= s2 / Q2Qc 100); [|qlra].
    apply Qcdiv_le_iff; [reflexivity|]. replace (s2 / Q2Qc 100 * Q2Qc 100) with s2 by (field; discriminate). auto.
  - apply Qcdiv_le_iff; [reflexivity|]. replace (Qcabs (r_expected r) * (Q2Qc 100 - s1) / Q2Qc 100 * Q2Qc 100) with (Qcabs (r_expected r) * (Q2Qc 100 - s1)) by (field; discriminate).
    apply Qcmul_le_l; [apply Qcabs_nonneg|]. qlra.
Qed.

Lemma v1_margin_nonneg : forall sr rows sens r, In r rows -> sens <= Q2Qc 100 -> 0 <= v1_margin sr rows sens r.
Proof.
  intros sr rows sens r I H. unfold v1_margin. destruct sr.
  - destruct (r_score r <=? EPS) eqn:E.
    + destruct (filter _ rows) as [|x t] eqn:F; [qlra|].
      assert (0 <= qmax_list (map r_value (x :: t)) - qmin_list (map r_value (x :: t))) by (apply spread_nonneg; discriminate).
      apply Qcmul_nonneg; auto. discriminate.
    + qb_hyps. assert (0 < r_score r) by (assert (0 < EPS) by reflexivity; qlra).
      apply Qcmul_nonneg; [apply Qcdiv_nonneg; auto; apply Qcabs_nonneg|].
      assert (sens / Q2Qc 100 <= 1); [|qlra]. apply Qcdiv_le_iff; [reflexivity|].
      replace (1 * Q2Qc 100) with (Q2Qc 100) by ring. auto.
  - apply Qcdiv_nonneg; [|reflexivity]. apply Qcmul_nonneg; [apply Qcabs_nonneg|qlra].
Qed.

Lemma v1_rows : forall sr rows sens, rows <> [] -> sens <= Q2Qc 100 ->
  exists outs, get_margins_v1 sr rows sens = Ok outs /\ length outs = length rows /\
  forall i r, nth_error rows i = Some r ->
    exists ub lb, nth_error outs i = Some (refine_row sens ub lb r) /\ r_expected r <= ub /\ lb <= r_expected r.
Proof.
  intros sr rows sens NE HS. rewrite v1_unfold. set (ms := map (v1_margin sr rows sens) rows).
  assert (LM : length ms = length rows) by apply map_length.
  assert (NN : forall m, In m ms -> 0 <= m).
  { intros m Hm. apply in_map_iff in Hm. destruct Hm as (r & <- & I). apply v1_margin_nonneg; auto. }
  destruct (refine_margins_rows rows ms LM NE sens) as (outs & E & L & H). exists outs. split; auto. split; auto.
  intros i r Hr. assert (Hm : nth_error ms i = Some (v1_margin sr rows sens r)) by (unfold ms; rewrite nth_error_map, Hr; auto).
  destruct (refine_bounds rows ms NN i r _ Hr Hm) as (H1 & H2 & _).
  eexists. eexists. split; [apply (H _ _ _ Hr Hm)|]. split; auto.
Qed.

Lemma qmax_list_mono : forall a b : list Qc, length a = length b -> a <> [] ->
  (forall i x y, nth_error a i = Some x -> nth_error b i = Some y -> x <= y) -> qmax_list a <= qmax_list b.
Proof.
  intros a b L NE H. destruct (In_nth_error _ _ (qmax_list_in a NE)) as (i & Hi).
  destruct (nth_error_ex _ b i) as (y & Hy). { rewrite <- L. eapply nth_error_lt; eauto. }
  apply Qcle_trans with y; [apply (H i); auto|]. apply qmax_list_ge. eapply nth_error_In; eauto.
Qed.
Lemma qmin_list_mono : forall a b : list Qc, length a = length b -> b <> [] ->
  (forall i x y, nth_error a i = Some x -> nth_error b i = Some y -> x <= y) -> qmin_list a <= qmin_list b.
Proof.
  intros a b L NE H. destruct (In_nth_error _ _ (qmin_list_in b NE)) as (i & Hi).
  destruct (nth_error_ex _ a i) as (y & Hy). { rewrite L. eapply nth_error_lt; eauto. }
  apply Qcle_trans with y; [|apply (H i); auto]. apply qmin_list_le. eapply nth_error_In; eauto.
Qed.

Lemma v1_mono : forall sr rows s1 s2 o1 o2 i a b, s1 <= s2 -> s2 <= Q2Qc 100 ->
  get_margins_v1 sr rows s1 = Ok o1 -> get_margins_v1 sr rows s2 = Ok o2 ->
  nth_error o1 i = Some a -> nth_error o2 i = Some b -> o_anomaly a = true -> o_anomaly b = true.
Proof.
  intros sr rows s1 s2 o1 o2 i a b HS H2 E1 E2 Ha Hb AN.
  assert (NE : rows <> []) by (intro X; subst rows; destruct sr; discriminate).
  rewrite v1_unfold in E1, E2.
  set (m1 := map (v1_margin sr rows s1) rows) in *. set (m2 := map (v1_margin sr rows s2) rows) in *.
  assert (L1 : length m1 = length rows) by apply map_length.
  assert (L2 : length m2 = length rows) by apply map_length.
  destruct (refine_margins_rows rows m1 L1 NE s1) as (q1 & F1 & LO1 & R1).
  destruct (refine_margins_rows rows m2 L2 NE s2) as (q2 & F2 & LO2 & R2).
  rewrite E1 in F1. rewrite E2 in F2. inversion F1; subst q1. inversion F2; subst q2. clear F1 F2 E1 E2.
  destruct (nth_error_ex _ rows i) as (r & Hr). { rewrite <- LO1. eapply nth_error_lt; eauto. }
  assert (N1 : nth_error m1 i = Some (v1_margin sr rows s1 r)) by (unfold m1; rewrite nth_error_map, Hr; auto).
  assert (N2 : nth_error m2 i = Some (v1_margin sr rows s2 r)) by (unfold m2; rewrite nth_error_map, Hr; auto).
  rewrite (R1 _ _ _ Hr N1) in Ha. rewrite (R2 _ _ _ Hr N2) in Hb. inversion Ha; subst a. inversion Hb; subst b.
  clear Ha Hb. apply refine_row_anomaly in AN. destruct AN as [RA C]. apply refine_row_anomaly. split; auto.
  assert (PT : forall j x y, nth_error m1 j = Some x -> nth_error m2 j = Some y -> y <= x).
  { intros j x y Hx Hy. unfold m1, m2 in Hx, Hy. rewrite nth_error_map in Hx, Hy.
    destruct (nth_error rows j); simpl in *; inversion Hx; inversion Hy; subst. apply v1_margin_mono; auto. }
  pose proof (PT _ _ _ N1 N2) as PM.
  assert (UB : qmin_list (ubs rows m2) <= qmin_list (ubs rows m1)).
  { apply qmin_list_mono.
    - rewrite !ubs_length by auto. auto.
    - intro X. apply (f_equal (@length Qc)) in X. rewrite ubs_length in X by auto. destruct rows; [congruence|discriminate].
    - intros j x y Hx Hy.
      assert (LJ : (j < length rows)%nat) by (rewrite <- (ubs_length rows m1) by auto; eapply nth_error_lt; eauto).
      destruct (nth_error_ex _ rows j LJ) as (rj & Hj).
      destruct (nth_error_ex _ m1 j ltac:(lia)) as (mx & Hmx). destruct (nth_error_ex _ m2 j ltac:(lia)) as (my & Hmy).
      rewrite (ubs_nth rows m2 j rj my Hj Hmy) in Hx. rewrite (ubs_nth rows m1 j rj mx Hj Hmx) in Hy.
      inversion Hx; inversion Hy; subst. pose proof (PT _ _ _ Hmx Hmy). qlra. }
  assert (LB : qmax_list (lbs rows m1) <= qmax_list (lbs rows m2)).
  { apply qmax_list_mono.
    - rewrite !lbs_length by auto. auto.
    - intro X. apply (f_equal (@length Qc)) in X. rewrite lbs_length in X by auto. destruct rows; [congruence|discriminate].
    - intros j x y Hx Hy.
      assert (LJ : (j < length rows)%nat) by (rewrite <- (lbs_length rows m1) by auto; eapply nth_error_lt; eauto).
      destruct (nth_error_ex _ rows j LJ) as (rj & Hj).
      destruct (nth_error_ex _ m1 j ltac:(lia)) as (mx & Hmx). destruct (nth_error_ex _ m2 j ltac:(lia)) as (my & Hmy).
      rewrite (lbs_nth rows m1 j rj mx Hj Hmx) in Hx. rewrite (lbs_nth rows m2 j rj my Hj Hmy) in Hy.
      inversion Hx; inversion Hy; subst. pose proof (PT _ _ _ Hmx Hmy). qlra. }
  destruct C as [C|[C|C]].
  - left. subst s1. apply Qcle_antisym; auto.
  - right. left. eapply Qcle_lt_trans; [|exact C]. apply np_clip_mono; auto; qlra.
  - right. right. eapply Qclt_le_trans; [exact C|]. apply np_clip_mono; auto; qlra.
Qed.

(** * The factor table *)
Fixpoint decreasingb (l : list Q) : bool :=
  match l with
  | x :: (y :: _) as t => negb (Qle_bool x y) && decreasingb t
  | _ => true
  end.
Lemma factors_length : length factors = 101%nat. Proof. reflexivity. Qed.
Lemma decreasingb_nth : forall l, decreasingb l = true -> forall i j x y, (i < j)%nat ->
  nth_error (map Q2Qc l) i = Some x -> nth_error (map Q2Qc l) j = Some y -> y < x.
Proof.
  assert (ST : forall l, decreasingb l = true -> forall i x y, nth_error (map Q2Qc l) i = Some x ->
    nth_error (map Q2Qc l) (S i) = Some y -> y < x).
  { induction l as [|a l IH]; intros H i x y Hx Hy; [destruct i; discriminate|].
    destruct l as [|b l]; [destruct i; simpl in Hy; [discriminate|destruct i; discriminate]|].
    change (negb (Qle_bool a b) && decreasingb (b :: l) = true) in H.
    apply andb_prop in H. destruct H as [H1 H2]. destruct i as [|i].
    - simpl in Hx, Hy. inversion Hx; inversion Hy; subst.
      assert (Qlt b a). { apply Qnot_le_lt. intro X. apply Qle_bool_iff in X. rewrite X in H1. discriminate. }
      unfold Qclt. rewrite !this_q. auto.
    - apply (IH H2 i); auto. }
  intros l H i j. induction j as [|j IH]; intros x y L Hx Hy; [lia|].
  destruct (Nat.eq_dec i j) as [->|N]; [eapply ST; eauto|].
  destruct (nth_error_ex _ (map Q2Qc l) j) as (z & Hz). { apply nth_error_lt in Hy. lia. }
  apply Qclt_trans with z; [eapply ST; eauto|apply IH; auto; lia].
Qed.
Lemma factors_decreasing : forall i j x y, (i < j)%nat -> nth_error factors i = Some x -> nth_error factors j = Some y -> y < x.
Proof. intros i j x y. apply decreasingb_nth. vm_compute. reflexivity. Qed.
Lemma factor_nth : forall s, (s <= 100)%nat -> nth_error factors s = Some (factor s).
Proof. intros s H. unfold factor. apply nth_error_nth'. rewrite factors_length. lia. Qed.
Lemma factor_lt : forall s t, (s < t <= 100)%nat -> factor t < factor s.
Proof. intros s t H. apply (factors_decreasing s t); try apply factor_nth; lia. Qed.
Lemma factor_le : forall s t, (s <= t <= 100)%nat -> factor t <= factor s.
Proof. intros s t H. destruct (Nat.eq_dec s t) as [->|N]; [qlra|]. apply Qclt_le_weak, factor_lt. lia. Qed.
Lemma factor_100 : factor 100 = 0. Proof. apply Qc_is_canon. reflexivity. Qed.
Lemma factor_nonneg : forall s, (s <= 100)%nat -> 0 <= factor s.
Proof. intros s H. rewrite <- factor_100. apply factor_le. lia. Qed.

Global Opaque factor factors.

(** * bisect_left *)
Lemma bisect_left_loop_spec : forall a x fuel lo hi, (hi - lo < fuel)%nat -> (lo <= hi <= length a)%nat ->
  (forall i j u v, (i <= j)%nat -> nth_error a i = Some u -> nth_error a j = Some v -> u <= v) ->
  (forall k u, (k < lo)%nat -> nth_error a k = Some u -> u < x) ->
  (forall k u, (hi <= k)%nat -> nth_error a k = Some u -> x <= u) ->
  exists lb, bisect_left_loop fuel a x lo hi = Ok lb /\ (lb <= length a)%nat /\
    (forall k u, (k < lb)%nat -> nth_error a k = Some u -> u < x) /\
    (forall k u, (lb <= k)%nat -> nth_error a k = Some u -> x <= u).
Proof.
  intros a x. induction fuel as [|fuel IH]; intros lo hi HF HB SO H1 H2; [lia|]. cbn [bisect_left_loop].
  destruct (lo <? hi)%nat eqn:E.
  - apply Nat.ltb_lt in E. pose proof (Nat.div_mod (lo + hi) 2 ltac:(lia)) as D.
    pose proof (Nat.mod_upper_bound (lo + hi) 2 ltac:(lia)) as M. cbv zeta.
    set (mid := ((lo + hi) / 2)%nat) in *.
    destruct (get_in _ a mid ltac:(lia)) as (m & -> & Em). rewrite bind_ok.
    destruct (m <? x) eqn:C; qb_hyps; apply IH; auto; try lia.
    + intros k u Hk Hu. apply Qcle_lt_trans with m; auto. apply (SO k mid); auto. lia.
    + intros k u Hk Hu. apply Qcle_trans with m; auto. apply (SO mid k); auto.
  - apply Nat.ltb_ge in E. exists lo. split; auto. split; [lia|]. split; auto. intros k u Hk. apply H2. lia.
Qed.
Lemma bisect_left_spec : forall a x,
  (forall i j u v, (i <= j)%nat -> nth_error a i = Some u -> nth_error a j = Some v -> u <= v) ->
  exists lb, bisect_left a x = Ok lb /\ (lb <= length a)%nat /\
    (forall k u, (k < lb)%nat -> nth_error a k = Some u -> u < x) /\
    (forall k u, (lb <= k)%nat -> nth_error a k = Some u -> x <= u).
Proof.
  intros a x SO. apply bisect_left_loop_spec; auto; try lia.
  intros k u Hk Hu. apply nth_error_lt in Hu. lia.
Qed.

(** * Scores *)
Lemma margins_nth : forall k, (k <= 100)%nat -> nth_error (rev factors) k = Some (factor (100 - k)).
Proof.
  intros k H. rewrite nth_error_rev by (rewrite factors_length; lia). rewrite factors_length.
  replace (101 - S k)%nat with (100 - k)%nat by lia. apply factor_nth. lia.
Qed.
Lemma margins_sorted : forall i j u v, (i <= j)%nat -> nth_error (rev factors) i = Some u ->
  nth_error (rev factors) j = Some v -> u <= v.
Proof.
  intros i j u v L Hu Hv. pose proof (nth_error_lt _ _ _ _ Hv) as LJ. rewrite rev_length, factors_length in LJ.
  rewrite margins_nth in Hu by lia. rewrite margins_nth in Hv by lia. injection Hu as <-. injection Hv as <-. apply (factor_le (100 - j) (100 - i)). lia.
Qed.

(** The score lies between consecutive integers determined by the table. *)
Lemma score_spec : forall v e u, 0 < u -> exists sc, calculate_anomaly_score v e u = Ok sc /\
  let dist := Qcabs (e - v) / u in
  (dist = 0 /\ sc = 0) \/
  (factor 1 < dist /\ sc = Q2Qc 100) \/
  (exists k, (k < 99)%nat /\ factor (100 - k) < dist /\ dist <= factor (99 - k) /\
     sc = qn k + (dist - factor (100 - k)) / (factor (99 - k) - factor (100 - k))).
Proof.
  intros v e u HU. unfold calculate_anomaly_score. set (dist := Qcabs (e - v) / u).
  assert (D0 : 0 <= dist) by (apply Qcdiv_nonneg; auto; apply Qcabs_nonneg).
  destruct (bisect_left_spec (rev factors) dist margins_sorted) as (lb & E & LB & H1 & H2).
  rewrite E, bind_ok. destruct (lb =? 0)%nat eqn:E0.
  - apply Nat.eqb_eq in E0. subst lb. eexists. split; [reflexivity|]. left. split; auto.
    pose proof (H2 0%nat _ (Nat.le_refl _) (margins_nth 0 ltac:(lia))) as X. simpl (100 - 0)%nat in X.
    rewrite factor_100 in X. qlra.
  - apply Nat.eqb_neq in E0. destruct (100 <=? lb)%nat eqn:E1.
    + apply Nat.leb_le in E1. eexists. split; [reflexivity|]. right. left. split; auto.
      apply (H1 99%nat); [lia|]. apply (margins_nth 99). lia.
    + apply Nat.leb_gt in E1. destruct lb as [|k]; [lia|]. replace (S k - 1)%nat with k by lia.
      assert (Ga : get (rev factors) k = Ok (factor (100 - k))) by (apply get_ok, margins_nth; lia).
      assert (Gb : get (rev factors) (S k) = Ok (factor (99 - k))).
      { apply get_ok. rewrite margins_nth by lia. f_equal. }
      rewrite Ga, bind_ok, Gb, bind_ok. eexists. split; [reflexivity|]. right. right. exists k. split; [lia|].
      split; [apply (H1 k); [lia|apply margins_nth; lia]|]. split; [|auto].
      apply (H2 (S k)); [lia|]. rewrite margins_nth by lia. f_equal.
Qed.
