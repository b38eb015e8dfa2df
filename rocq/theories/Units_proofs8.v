(** Changing the unit: margins of version 2. *)
From Coq Require Import String List Arith ZArith QArith Qcanon Qround Lia Lqa Bool Sorted Permutation.
From Verif Require Import Base Num Sorting Kernel_model Kernel_spec FillUp_model Helpers_model Helpers_spec Margins_model SR_model Detect_model Detect_spec
  Detect_proofs Period_proofs3 Units_spec Units_proofs Units_proofs2 Units_proofs3 Units_proofs4 Units_proofs5 Units_proofs6.
Import ListNotations.
Open Scope nat_scope.

Lemma map_id_clip : forall lo l, (forall x, In x l -> (lo <= x)%Qc) -> map (np_clip lo (Qcmax lo (qmax_list l))) l = l.
Proof.
  intros lo l H. rewrite <- (map_id l) at 3. apply map_ext_in. intros x I. unfold np_clip.
  assert (M := qmax_list_ge l x I). specialize (H x I). assert (E1 : Qcmax x lo = x) by (unfold Qcmax; qb_case; qb_hyps; auto; apply Qcle_antisym; auto). rewrite E1.
  assert (E2 : (x <= Qcmax lo (qmax_list l))%Qc) by (eapply Qcle_trans; [exact M|apply Qcmax_r]). revert E2. generalize (Qcmax lo (qmax_list l)). intros z E2. unfold Qcmin. qb_case; qb_hyps; auto. exfalso. qlra.
Qed.

Section V2.
Variable k : Qc.
Hypothesis K : (0 < k)%Qc.
Notation sc := (fun x : Qc => (k * x)%Qc).

Lemma margin_sc : forall u sens v e an, (0 < u)%Qc ->
  answers_alike (fun m m' => m' = (k * fst m, k * snd m)%Qc) (calculate_margin u sens v e an) (calculate_margin (k * u) sens (k * v) (k * e) an).
Proof.
  intros u sens v e an U. unfold calculate_margin. destruct (_ || _); [simpl; auto|].
  assert (U1 : (u <=? 0)%Qc = false) by (apply Qcleb_gt; auto). assert (U2 : (k * u <=? 0)%Qc = false) by (apply Qcleb_gt; qnra). rewrite U1, U2. cbv zeta.
  assert (C : forall z, answers_alike (fun m m' => m' = (k * fst m, k * snd m)%Qc) (calculate_changed_margin u z v e an) (calculate_changed_margin (k * u) z (k * v) (k * e) an)).
  { intros z. unfold calculate_changed_margin. apply (alike_bind _ _ _ _ eq); [apply alike_eq|]. intros f f' _ _ <-. cbv zeta.
    replace (k * e - k * v)%Qc with (k * (e - v))%Qc by ring. replace (k * v - k * e)%Qc with (k * (v - e))%Qc by ring. rewrite !abs_pos_mult by auto.
    destruct (negb an).
    - rewrite ltb_sc by auto. replace (k * Qcabs (e - v) + k * u * f * Q2Qc (1 # 2))%Qc with (k * (Qcabs (e - v) + u * f * Q2Qc (1 # 2)))%Qc by ring.
      destruct (e <? v)%Qc; cbn [answers_alike fst snd]; f_equal; unfold Qcdiv; ring.
    - replace (k * u * f * ANOMALY_IGNORE_RATIO)%Qc with (k * (u * f * ANOMALY_IGNORE_RATIO))%Qc by ring.
      replace (k * u * f)%Qc with (k * (u * f))%Qc by ring. rewrite !ltb_sc by auto. destruct (_ && _ && _); cbn [answers_alike fst snd]; f_equal; ring. }
  eapply alike_bind; [apply C|]. intros m m' _ _ ->. destruct (_ =? _)%Qc; [simpl; auto|].
  eapply alike_bind; [apply C|]. intros n n' _ _ ->. simpl. auto.
Qed.
Lemma score_sc : forall u v e, (0 < u)%Qc -> calculate_anomaly_score (k * v) (k * e) (k * u) = calculate_anomaly_score v e u.
Proof.
  intros u v e U. unfold calculate_anomaly_score. replace (k * e - k * v)%Qc with (k * (e - v))%Qc by ring. rewrite abs_pos_mult by auto.
  replace (k * Qcabs (e - v) / (k * u))%Qc with (Qcabs (e - v) / u)%Qc; auto. field. split; intros X; [rewrite X in U|rewrite X in K]; qlra.
Qed.

Definition same_flags (r r' : row) : Prop := r_anomaly r' = r_anomaly r /\ r_neg r' = r_neg r /\ r_pos r' = r_pos r.
Definition scaled_row (r r' : row) : Prop :=
  r_value r' = (k * r_value r)%Qc /\ r_expected r' = (k * r_expected r)%Qc /\ r_trend r' = (k * r_trend r)%Qc /\ r_anomaly r' = r_anomaly r.
Lemma scaled_rows : forall rows rows', Forall2 (retold k 0 true) rows rows' -> Forall (fun r => same_side k (r_value r - r_expected r)%Qc) rows ->
  Forall2 scaled_row rows rows'.
Proof.
  intros rows rows' F. induction F as [|r r' l l' R F IH]; intros G; constructor; inversion G; subst; auto.
  destruct R as (V & E & T & _ & A). split; [rewrite V; ring|]. split; [rewrite E; ring|]. split; [rewrite T by auto; ring|]. apply A. auto.
Qed.

Lemma last_point_sc : forall sens u r r', (0 < u)%Qc -> scaled_row r r' ->
  answers_alike (rescaled_v2 k) (v2_last_point sens u r) (v2_last_point sens (k * u) r').
Proof.
  intros sens u r r' U (V & E & T & A). unfold v2_last_point. rewrite V, E, A, score_sc by auto.
  apply (alike_bind _ _ _ _ eq); [apply alike_eq|]. intros s s' _ _ <-. cbv zeta.
  eapply alike_bind; [apply margin_sc; auto|]. intros m m' _ _ ->. cbn [fst snd answers_alike].
  replace (k * r_expected r + k * fst m)%Qc with (k * (r_expected r + fst m))%Qc by ring.
  replace (k * r_expected r - k * snd m)%Qc with (k * (r_expected r - snd m))%Qc by ring. rewrite !ltb_sc by auto. repeat split; auto.
Qed.
Lemma entire_point_sc : forall sens u r r', (0 < u)%Qc -> scaled_row r r' ->
  answers_alike (rescaled_v2 k) (v2_entire_point sens u r) (v2_entire_point sens (k * u) r').
Proof.
  intros sens u r r' U (V & E & T & A). unfold v2_entire_point. rewrite V, E, A, score_sc by auto.
  apply (alike_bind _ _ _ _ eq); [apply alike_eq|]. intros s s' _ _ <-. cbv zeta.
  eapply alike_bind; [apply margin_sc; auto|]. intros m m' _ _ ->. cbn [fst snd answers_alike].
  replace (k * r_expected r + k * fst m)%Qc with (k * (r_expected r + fst m))%Qc by ring.
  replace (k * r_expected r - k * snd m)%Qc with (k * (r_expected r - snd m))%Qc by ring. rewrite !ltb_sc by auto. repeat split; auto.
Qed.

Notation sizes := (fun rows => map (fun r => Qcabs (r_trend r)) (filter (fun r => negb (r_anomaly r)) rows)).
Notation plain := (fun rows => map (fun r => Qcabs (r_trend r) * Q2Qc (1 # 2) + qmean (sizes rows) * Q2Qc (1 # 2))%Qc rows).
Lemma sizes_sc : forall rows rows', Forall2 scaled_row rows rows' -> sizes rows' = map sc (sizes rows).
Proof.
  intros rows rows' F. induction F as [|r r' l l' (V & E & T & A) F IH]; simpl; auto. rewrite A. destruct (negb (r_anomaly r)); simpl; auto.
  rewrite IH, T, abs_pos_mult by auto. auto.
Qed.
Lemma qmean_sc : forall l, l <> [] -> qmean (map sc l) = (k * qmean l)%Qc.
Proof. intros l NE. rewrite <- unit0. unfold in_unit. rewrite qmean_affine by auto. ring. Qed.

Lemma units_plain : forall rows, sizes rows <> [] -> (MIN_UNIT <= qmean (sizes rows) * Q2Qc (1 # 2))%Qc ->
  calculate_boundary_units rows = plain rows /\ forall u, In u (plain rows) -> (MIN_UNIT <= u)%Qc.
Proof.
  intros rows NE M. assert (MP : (Q2Qc 3 * EPS < MIN_UNIT)%Qc) by reflexivity.
  assert (GE : forall u, In u (plain rows) -> (MIN_UNIT <= u)%Qc).
  { intros u I. apply in_map_iff in I. destruct I as (r & <- & _). pose proof (Qcabs_nonneg (r_trend r)). qlra. }
  split; auto. unfold calculate_boundary_units. cbv zeta.
  destruct (forallb _ _) eqn:FB.
  - exfalso. rewrite forallb_forall in FB. assert (H : (qmean (sizes rows) <= EPS)%Qc).
    { apply (qmean_bounds _ 0%Qc EPS NE). intros x I. apply in_map_iff in I. destruct I as (r & <- & I). split; [apply Qcabs_nonneg|].
      apply Qclt_le_weak. apply Qcltb_lt. apply FB. apply in_map. auto. }
    assert (C : (EPS * Q2Qc (1 # 2) < MIN_UNIT)%Qc) by reflexivity. clear - M H C. cbv beta in *. revert M H. generalize (qmean (map (fun r => Qcabs (r_trend r)) (filter (fun r => negb (r_anomaly r)) rows))). intros q M H. revert C M H. generalize EPS MIN_UNIT. intros. qlra.
  - rewrite (map_map r_trend Qcabs). apply map_id_clip; auto.
Qed.

Lemma units_sc : forall rows rows', Forall2 scaled_row rows rows' -> loud k rows ->
  calculate_boundary_units rows' = map sc (calculate_boundary_units rows) /\ (forall u, In u (calculate_boundary_units rows) -> (MIN_UNIT <= u)%Qc) /\
  length (calculate_boundary_units rows) = length rows.
Proof.
  intros rows rows' F (NE & M1 & M2). pose proof (sizes_sc rows rows' F) as SS.
  destruct (units_plain rows NE M1) as [E1 G1]. rewrite E1.
  assert (QM : qmean (sizes rows') = (k * qmean (sizes rows))%Qc) by (rewrite SS; apply qmean_sc; auto).
  destruct (units_plain rows') as [E2 _].
  - rewrite SS. intros X. apply map_eq_nil in X. congruence.
  - rewrite QM. auto.
  - rewrite E2. split; [|split; [exact G1|apply map_length]]. rewrite QM. cbv beta. match goal with |- context [qmean ?l] => generalize (qmean l) end. clear - F K. intros q.
    induction F as [|r r' l l' (V & E & T & A) F IH]; simpl; auto. rewrite IH, T, abs_pos_mult by auto. f_equal. ring.
Qed.

Lemma mapM2_sc : forall sens us rows rows', Forall2 scaled_row rows rows' -> (forall u, In u us -> (MIN_UNIT <= u)%Qc) ->
  answers_alike (Forall2 (rescaled_v2 k)) (mapM2 (v2_entire_point sens) us rows) (mapM2 (v2_entire_point sens) (map sc us) rows').
Proof.
  intros sens us rows rows' F. revert us. induction F as [|r r' l l' R F IH]; intros [|u us] G; simpl; try constructor.
  assert (U : (0 < u)%Qc). { assert (0 < MIN_UNIT)%Qc by reflexivity. specialize (G u (or_introl eq_refl)). qlra. }
  eapply alike_bind; [apply entire_point_sc; eauto|]. intros x x' _ _ HX.
  eapply alike_bind; [apply IH; intros; apply G; right; auto|]. intros y y' _ _ HY. simpl. constructor; auto.
Qed.
Lemma v2_entire_sc : forall sens rows rows', Forall2 scaled_row rows rows' -> loud k rows ->
  answers_alike (Forall2 (rescaled_v2 k)) (get_margins_v2_entire rows sens) (get_margins_v2_entire rows' sens).
Proof.
  intros sens rows rows' F LD. unfold get_margins_v2_entire. destruct (units_sc rows rows' F LD) as (-> & G & _).
  inversion F; subst; [simpl; auto|]. apply mapM2_sc; auto.
Qed.
Lemma last_opt_app : forall A (l : list A) x, last_opt (l ++ [x]) = Ok x.
Proof. intros. unfold last_opt. rewrite rev_app_distr. auto. Qed.
Lemma last_opt_rel : forall A B (P : A -> B -> Prop) l l', Forall2 P l l' -> answers_alike P (last_opt l) (last_opt l').
Proof.
  intros A B P l l' F. destruct l as [|a t] using rev_ind; [inversion F; subst; simpl; auto|].
  apply Forall2_app_inv_l in F. destruct F as (l1 & l2 & F1 & F2 & ->). inversion F2 as [|? y ? ? Q R]; subst. inversion R; subst.
  rewrite !last_opt_app. auto.
Qed.
Lemma v2_last_sc : forall sens rows rows', Forall2 scaled_row rows rows' -> loud k rows ->
  answers_alike (rescaled_v2 k) (get_margins_v2_last rows sens) (get_margins_v2_last rows' sens).
Proof.
  intros sens rows rows' F LD. unfold get_margins_v2_last. destruct (units_sc rows rows' F LD) as (-> & G & _).
  eapply alike_bind; [apply last_opt_rel; eauto|]. intros r r' _ _ R.
  apply (alike_bind _ _ _ _ (fun u u' => u' = (k * u)%Qc /\ (0 < u)%Qc)); [|intros u u' _ _ [-> U]; apply last_point_sc; auto].
  apply last_opt_rel. revert G. generalize (calculate_boundary_units rows). clear. intros us. induction us as [|u us IH]; intros G; constructor.
  - split; auto. assert (0 < MIN_UNIT)%Qc by reflexivity. specialize (G u (or_introl eq_refl)). qlra.
  - apply IH. intros. apply G. right. auto.
Qed.
End V2.
