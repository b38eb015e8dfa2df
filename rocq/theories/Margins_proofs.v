(** Lemmas about margins. *)
From Coq Require Import List Arith ZArith Lia Bool Qround.
From Verif Require Import Base Num Kernel_model Kernel_proofs Margins_model Margins_spec.
Import ListNotations.
Open Scope Qc_scope.

Lemma zip3_length : forall A B C D (f : A -> B -> C -> D) a b c, length a = length c -> length b = length c ->
  length (zip3 f a b c) = length c.
Proof. induction a; intros [|y b] [|z c] H1 H2; simpl in *; try lia. rewrite IHa; lia. Qed.
Lemma zip3_nth : forall A B C D (f : A -> B -> C -> D) a b c i x y z, nth_error a i = Some x ->
  nth_error b i = Some y -> nth_error c i = Some z -> nth_error (zip3 f a b c) i = Some (f x y z).
Proof.
  induction a as [|u a IH]; intros [|v b] [|w c] [|i] x y z; simpl; intros; try discriminate.
  - congruence.
  - auto.
Qed.
Lemma nth_error_combine : forall A B (a : list A) (b : list B) i x y, nth_error a i = Some x -> nth_error b i = Some y ->
  nth_error (combine a b) i = Some (x, y).
Proof. induction a as [|u a IH]; intros [|v b] [|i] x y; simpl; intros; try discriminate; auto. congruence. Qed.

Lemma np_clip_mono : forall lo lo' hi hi' x x', lo <= lo' -> hi <= hi' -> x <= x' -> np_clip lo hi x <= np_clip lo' hi' x'.
Proof.
  intros. unfold np_clip. apply Qcmin_glb.
  - apply Qcle_trans with (1 := Qcmin_l _ _). apply Qcmax_lub; (eapply Qcle_trans; [eassumption|]); [apply Qcmax_l|apply Qcmax_r].
  - apply Qcle_trans with (1 := Qcmin_r _ _). auto.
Qed.

Section Refine.
Variables (rows : list row) (margins : list Qc).
Hypothesis LM : length margins = length rows.
Hypothesis NN : forall m, In m margins -> 0 <= m.
Hypothesis NE : rows <> [].

Definition ubs := map (fun p => r_expected (fst p) + snd p) (combine rows margins).
Definition lbs := map (fun p => r_expected (fst p) - snd p) (combine rows margins).
Definition top := Qcmax (qmax_list (map r_value rows)) (qmax_list (map r_expected rows)).
Definition bottom := Qcmin (qmin_list (map r_value rows)) (qmin_list (map r_expected rows)).

Lemma ubs_nth : forall i r m, nth_error rows i = Some r -> nth_error margins i = Some m ->
  nth_error ubs i = Some (r_expected r + m).
Proof. intros i r m Hr Hm. unfold ubs. rewrite nth_error_map, (nth_error_combine _ _ _ _ _ _ _ Hr Hm). auto. Qed.
Lemma lbs_nth : forall i r m, nth_error rows i = Some r -> nth_error margins i = Some m ->
  nth_error lbs i = Some (r_expected r - m).
Proof. intros i r m Hr Hm. unfold lbs. rewrite nth_error_map, (nth_error_combine _ _ _ _ _ _ _ Hr Hm). auto. Qed.
Lemma ubs_length : length ubs = length rows.
Proof. unfold ubs. rewrite map_length, combine_length. lia. Qed.
Lemma lbs_length : length lbs = length rows.
Proof. unfold lbs. rewrite map_length, combine_length. lia. Qed.

Lemma refine_margins_rows : forall sens,
  exists outs, refine_margins rows sens margins = Ok outs /\ length outs = length rows /\
  forall i r m, nth_error rows i = Some r -> nth_error margins i = Some m ->
    nth_error outs i = Some (refine_row sens (np_clip (qmin_list ubs) top (r_expected r + m))
                                             (np_clip bottom (qmax_list lbs) (r_expected r - m)) r).
Proof.
  intros sens. unfold refine_margins. destruct rows as [|r0 rs] eqn:ER; [congruence|]. rewrite <- ER in *.
  fold ubs lbs top bottom. eexists. split; [reflexivity|]. split.
  - apply zip3_length; rewrite map_length; [apply ubs_length|apply lbs_length].
  - intros i r m Hr Hm. apply zip3_nth; auto.
    + rewrite nth_error_map, (ubs_nth i r m); auto.
    + rewrite nth_error_map, (lbs_nth i r m); auto.
Qed.

Lemma refine_bounds : forall i r m, nth_error rows i = Some r -> nth_error margins i = Some m ->
  r_expected r <= np_clip (qmin_list ubs) top (r_expected r + m) /\
  np_clip bottom (qmax_list lbs) (r_expected r - m) <= r_expected r /\
  0 <= m.
Proof.
  intros i r m Hr Hm. assert (M0 : 0 <= m) by (apply NN; eapply nth_error_In; eauto).
  assert (T : r_expected r <= top).
  { unfold top. apply Qcle_trans with (2 := Qcmax_r _ _). apply qmax_list_ge. apply in_map. eapply nth_error_In; eauto. }
  assert (B : bottom <= r_expected r).
  { unfold bottom. apply Qcle_trans with (1 := Qcmin_r _ _). apply qmin_list_le. apply in_map. eapply nth_error_In; eauto. }
  assert (BL : qmax_list lbs <= qmax_list lbs) by qlra.
  unfold np_clip. repeat split; auto.
  - apply Qcmin_glb; auto. apply Qcle_trans with (2 := Qcmax_l _ _). qlra.
  - apply Qcle_trans with (1 := Qcmin_l _ _). apply Qcmax_lub; auto. qlra.
Qed.
End Refine.

(** One row of V1. *)
Lemma severity_v1_range : forall v e a, 0 <= calculate_severity_v1 v e a /\ calculate_severity_v1 v e a <= 1.
Proof.
  intros v e a. unfold calculate_severity_v1. destruct a; cbn [negb]; [|split; qlra].
  set (base := if Qcabs e <=? EPS then MIN_UNIT else Qcabs e).
  assert (BP : 0 < base).
  { unfold base. destruct (Qcabs e <=? EPS) eqn:E; qb_hyps; [reflexivity|].
    assert (0 < EPS) by reflexivity. qlra. }
  assert (0 <= Qcabs (v - e) / base) by (apply Qcdiv_nonneg; auto; apply Qcabs_nonneg).
  unfold Qcmin. destruct (_ <=? 1) eqn:E; qb_hyps; split; auto; qlra.
Qed.

Ltac row_cases r sens :=
  destruct r as [v e t s a ng ps]; unfold refine_row, consistent_row, consistent_outcome, inside, above, below in *;
  cbn [r_value r_expected r_anomaly r_neg r_pos r_trend r_score o_expected o_upper o_lower o_neg o_pos o_anomaly o_severity] in *;
  cbv zeta in *;
  destruct (sens =? Q2Qc 100) eqn:ES; destruct a; cbn [andb negb] in *; rewrite ?andb_false_r, ?andb_true_r in *.
Ltac row_cmp ub lb v :=
  destruct (v <=? ub) eqn:E1; destruct (lb <=? v) eqn:E2; destruct (ub <? v) eqn:E3; destruct (v <? lb) eqn:E4;
  qb_hyps; try (exfalso; qlra); cbn [andb negb] in *.
Lemma c101 : Q2Qc (101 # 100) = 1 + Q2Qc (1 # 100).
Proof. apply Qc_is_canon; reflexivity. Qed.

Lemma refine_row_nonneg : forall sens ub lb r, r_expected r <= ub -> lb <= r_expected r ->
  let o := refine_row sens ub lb r in
  o_expected o = r_expected r /\ 0 <= o_upper o /\ 0 <= o_lower o /\ (0 <= o_severity o /\ o_severity o <= 1).
Proof.
  intros sens ub lb r HU HL o. split; [reflexivity|]. split; [|split; [|apply severity_v1_range]].
  all: unfold o; row_cases r sens; row_cmp ub lb v; try qlra; rewrite c101; qlra.
Qed.

Lemma refine_row_band : forall sens ub lb r, r_expected r <= ub -> lb <= r_expected r ->
  (r_anomaly r = true -> r_value r <> r_expected r) ->
  let o := refine_row sens ub lb r in o_anomaly o = false <-> inside o (r_value r).
Proof.
  intros sens ub lb r HU HL HN o. unfold o. row_cases r sens; row_cmp ub lb v; rewrite ?c101; split; intros H;
    try discriminate; try reflexivity; try (split; qlra); try (destruct H; exfalso; qlra).
  all: exfalso; apply HN; auto; destruct H; qlra.
Qed.

Lemma refine_row_consistent : forall sens ub lb r, r_expected r <= ub -> lb <= r_expected r ->
  let o := refine_row sens ub lb r in consistent_row r -> consistent_outcome (r_value r) o.
Proof.
  intros sens ub lb r HU HL o H. unfold o. row_cases r sens; destruct ng; destruct ps; try contradiction;
    row_cmp ub lb v; rewrite ?c101; try (split; qlra); qlra.
Qed.

Lemma refine_row_anomaly : forall sens ub lb r,
  let o := refine_row sens ub lb r in
  o_anomaly o = true <-> r_anomaly r = true /\ (sens = Q2Qc 100 \/ ub < r_value r \/ r_value r < lb).
Proof.
  intros sens ub lb r o. unfold o. row_cases r sens; row_cmp ub lb v; split; intros H; try discriminate; try tauto.
  all: destruct H as [_ [H|[H|H]]]; try (exfalso; qlra); exfalso; auto.
Qed.
