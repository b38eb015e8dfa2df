(** Changing the unit: the spectral residual detector. *)
From Coq Require Import String List Arith ZArith QArith Qcanon Qround Lia Lqa Bool Sorted Permutation.
From Verif Require Import Base Num Sorting Kernel_model Kernel_proofs5 FillUp_model Helpers_model Helpers_spec Helpers_props Margins_model SR_model SR_proofs SR_proofs2 SR_proofs3 Period_proofs3 Units_spec Units_proofs Units_proofs2 Units_proofs3.
Import ListNotations.
Open Scope nat_scope.

Section Scale.
Variable k : Qc.
Hypothesis K : (0 < k)%Qc.
Notation f1 := (fun x : Qc => (k * x + 0)%Qc).
Notation mv := (in_unit k 0).
Notation listrel := (fun o o' => o' = mv o).
Notation numrel := (fun x x' => x' = f1 x).

Lemma quantile_scale : forall l q, answers_alike numrel (np_quantile l q) (np_quantile (mv l) q).
Proof.
  intros l q. unfold np_quantile. cbv zeta. rewrite unit_length.
  assert (E : qsort (mv l) = mv (qsort l)) by (apply (qsort_map_mono f1); intros x y H; qnra). rewrite E.
  eapply alike_bind; [apply unit_get|]. intros a a' _ _ ->. destruct (_ <=? _); [simpl; auto|].
  eapply alike_bind; [apply unit_get|]. intros c c' _ _ ->. cbn [answers_alike]. ring.
Qed.
Lemma ahead_scale : forall rv lo hi q i acc, ahead_loop (mv rv) (f1 lo) (f1 hi) (f1 q) i (mv acc) = mv (ahead_loop rv lo hi q i acc).
Proof.
  induction rv as [|v rv IH]; intros lo hi q [|i] acc; cbn [in_unit map ahead_loop]; auto.
  - change (map f1 acc) with (mv acc). rewrite <- (unit_repeat k 0 q (S i)), <- unit_app. auto.
  - rewrite (leb_unit k 0 K lo v), (leb_unit k 0 K v hi). destruct (_ && _); [apply (IH lo hi q i (v :: acc))|apply (IH lo hi q (S i) acc)].
Qed.
Lemma predict_scale : forall l, answers_alike numrel (predict_next l) (predict_next (mv l)).
Proof.
  intros l. destruct (predict_next l) as [p|e] eqn:E.
  - unfold in_unit. rewrite (predict_affine k 0 l p E). simpl. auto.
  - unfold predict_next in *. cbv zeta in *. rewrite unit_length. destruct (length l <=? 1); [|discriminate]. injection E as <-. simpl. auto.
Qed.
Lemma extend_scale : forall l r, answers_alike listrel (extend_series l r) (extend_series (mv l) r).
Proof.
  intros l r. unfold extend_series. apply (alike_bind _ _ _ _ listrel).
  - destruct r; [|rewrite unit_length; unfold in_unit; rewrite slice_map; simpl; auto].
    eapply alike_bind; [apply quantile_scale|]. intros a a' _ _ ->. eapply alike_bind; [apply quantile_scale|]. intros c c' _ _ ->.
    eapply alike_bind; [apply quantile_scale|]. intros d d' _ _ ->. cbv zeta. cbn [answers_alike].
    rewrite <- (ahead_scale (rev l) _ _ c 6 []). unfold in_unit at 2 3. rewrite map_rev. cbn [map]. f_equal; ring.
  - intros a a' _ _ ->. eapply alike_bind; [apply predict_scale|]. intros p p' _ _ ->. cbn [answers_alike].
    rewrite unit_app, unit_repeat. auto.
Qed.

Lemma cumsum_scale : forall l acc, cumsum (f1 acc) (mv l) = mv (cumsum acc l).
Proof.
  induction l as [|x l IH]; intros acc; cbn [in_unit map cumsum]; auto. change (map f1 l) with (mv l).
  replace (k * acc + 0 + (k * x + 0))%Qc with (k * (acc + x) + 0)%Qc by ring. rewrite IH. auto.
Qed.
Lemma average_filter_scale : forall l n, 0 < n -> answers_alike listrel (average_filter l n false) (average_filter (mv l) n false).
Proof.
  intros l n N. rewrite !C23_average_filter_trailing_mean by auto. cbn [answers_alike]. rewrite unit_length. unfold in_unit at 2. rewrite map_map.
  apply map_ext_in. intros i I. apply in_seq in I. unfold trailing_mean, in_unit. rewrite slice_map. apply qmean_affine.
  intros X. apply (f_equal (@length _)) in X. rewrite slice_length in X. cbn [length] in X. lia.
Qed.
Lemma mapM2_alike : forall A A' B C C' (R : C -> C' -> Prop) (P : A -> A' -> Prop) (f : A -> B -> res C) (g : A' -> B -> res C') l l' m,
  Forall2 P l l' -> (forall x x' y, P x x' -> answers_alike R (f x y) (g x' y)) -> answers_alike (Forall2 R) (mapM2 f l m) (mapM2 g l' m).
Proof.
  intros A A' B C C' R P f g l l' m F H. revert m. induction F as [|x x' l l' X F IH]; intros [|y m]; cbn [mapM2]; try (simpl; constructor).
  eapply alike_bind; [apply H; auto|]. intros z z' _ _ Z0. eapply alike_bind; [apply IH|]. intros r r' _ _ R0. simpl. auto.
Qed.
Lemma Forall2_map_eq : forall l l', Forall2 numrel l l' -> l' = mv l.
Proof. intros l l' H. induction H as [|x x' l l' X F IH]; simpl; auto. rewrite X, IH. auto. Qed.
Lemma skeleton_scale : forall l skel, answers_alike listrel (skeleton_expected l skel) (skeleton_expected (mv l) skel).
Proof.
  intros l skel. eapply alike_impl; [intros x y; apply Forall2_map_eq|]. unfold skeleton_expected. cbv zeta. rewrite unit_length.
  assert (EZ : zip_with (fun v (b : bool) => if b then v else 0%Qc) (mv l) skel = mv (zip_with (fun v (b : bool) => if b then v else 0%Qc) l skel)).
  { clear. revert skel. induction l as [|v l IH]; intros [|s skel]; simpl; auto. rewrite IH. f_equal. destruct s; auto. ring. }
  rewrite EZ. set (cnt := 0%Qc :: cumsum 0%Qc (map _ skel)). set (zs := zip_with _ l skel).
  assert (ES : 0%Qc :: cumsum 0%Qc (mv zs) = mv (0%Qc :: cumsum 0%Qc zs)).
  { change (mv (0%Qc :: cumsum 0%Qc zs)) with (f1 0%Qc :: mv (cumsum 0%Qc zs)). rewrite <- (cumsum_scale zs 0%Qc).
    replace (k * 0 + 0)%Qc with 0%Qc by ring. auto. }
  rewrite ES. eapply (mapM2_alike _ _ _ _ _ _ (fun p p' => fst p' = fst p /\ snd p' = f1 (snd p) /\ fst p < length l)).
  - unfold range. assert (G : forall (m : list Qc) j n, j + length m <= n -> Forall2 (fun p p' : nat * Qc => fst p' = fst p /\ snd p' = f1 (snd p) /\ fst p < n)
      (combine (seq j (length m)) m) (combine (seq j (length m)) (mv m))).
    { induction m as [|v m IH]; intros j n Hn; cbn [length seq combine in_unit map]; constructor; [cbn [fst snd length] in *; repeat split; auto; lia|].
      apply IH. cbn [length] in Hn. lia. }
    apply G. lia.
  - intros [i v] [i' v'] s (E1 & E2 & HL). cbn [fst snd] in *. subst i' v'. destruct s; [simpl; auto|].
    apply (alike_bind _ _ _ _ eq); [apply alike_eq|]. intros c1 c1' _ _ <-. apply (alike_bind _ _ _ _ eq); [apply alike_eq|]. intros c0 c0' _ _ <-.
    destruct (c1 - c0 =? 0)%Qc eqn:EC.
    + cbn [answers_alike]. unfold in_unit. rewrite firstn_map'. apply qmean_affine. destruct l; [simpl in HL; lia|discriminate].
    + eapply alike_bind; [apply unit_get|]. intros x x' _ _ ->. eapply alike_bind; [apply unit_get|]. intros y y' _ _ ->. cbn [answers_alike]. unfold Qcdiv. ring.
Qed.
Lemma combine_scale : forall l (skel : list bool), map fst (filter snd (combine (mv l) skel)) = mv (map fst (filter snd (combine l skel))).
Proof. induction l as [|v l IH]; intros [|s skel]; simpl; auto. destruct s; simpl; rewrite IH; auto. Qed.
Lemma last_expected_scale : forall l skel, answers_alike listrel (last_expected l skel) (last_expected (mv l) skel).
Proof.
  intros l skel. unfold last_expected. cbv zeta. rewrite combine_scale, !unit_length, unit_skipn.
  set (pts := map fst _). destruct (skipn (length pts / 2) pts) as [|x t] eqn:E; [simpl; auto|].
  assert (NE : x :: t <> []) by discriminate. remember (x :: t) as h. clear E.
  assert (EM : match mv h with [] => Err Generic | _ => Ok (firstn (length l - 1) (mv l) ++ [qmean (mv h)]) end = Ok (firstn (length l - 1) (mv l) ++ [qmean (mv h)]))
    by (subst h; auto). rewrite EM.
  cbn [answers_alike]. rewrite unit_app. unfold in_unit at 1 2. rewrite firstn_map', qmean_affine by auto. auto.
Qed.

Variable transform : list Qc -> list Qc.
Variable std : list Qc -> Qc.
Variable trend_detection : list Qc -> option nat -> res (list Qc).
Variable sort_desc : list (nat * Qc) -> list (nat * Qc).
Hypothesis TB : scale_blind k transform.
Hypothesis SD : spread_in_unit k std.
Hypothesis TD : trend_in_unit k 0 trend_detection.

Lemma score_scale : forall l r, generate_spectral_score transform (mv l) r = generate_spectral_score transform l r.
Proof.
  intros l r. unfold generate_spectral_score. cbv zeta. pose proof (extend_scale l r) as H.
  destruct (extend_series l r) as [e|e], (extend_series (mv l) r) as [e'|e']; simpl in H; try contradiction; subst; cbn [bind]; auto.
  rewrite unit_length, (TB e). reflexivity.
Qed.
Lemma abs_scale : forall x, Qcabs (k * x) = (k * Qcabs x)%Qc.
Proof.
  intros x. unfold Qcabs. assert (E : (0 <=? k * x)%Qc = (0 <=? x)%Qc).
  { apply eq_true_iff_eq. rewrite !Qcleb_le. split; intros H; [|qnra]. destruct (Qclt_le_dec' x 0); auto. exfalso. qnra. }
  rewrite E. destruct (0 <=? x)%Qc; ring.
Qed.
Lemma sr_detect_scale : forall l q lm, sr_detect transform std (mv l) q lm = sr_detect transform std l q lm.
Proof.
  intros l q lm. unfold sr_detect. rewrite !score_scale. destruct lm; auto. rewrite unit_length. cbv zeta.
  destruct (generate_spectral_score transform l false) as [sc|e]; cbn [bind]; auto.
  pose proof (unit_get k 0 l (length l - 1)) as G. destruct (get l (length l - 1)) as [v|e] eqn:EG, (get (mv l) (length l - 1)) as [v'|e']; simpl in G; try contradiction; subst; cbn [bind]; auto.
  assert (NE : l <> []) by (intros ->; discriminate).
  destruct (first_drop _ _ _ _) as [j|e]; cbn [bind]; auto.
  replace (firstn j (mv l) ++ [(k * v + 0)%Qc]) with (mv (firstn j l ++ [v])) by (rewrite unit_app; unfold in_unit; rewrite firstn_map'; auto).
  rewrite score_scale. destruct (generate_spectral_score _ _ _) as [fs|e]; cbn [bind]; auto. destruct (get fs _); cbn [bind]; auto.
  rewrite SD. unfold in_unit at 1. rewrite qmean_affine by auto.
  assert (E1 : (k * std l =? 0)%Qc = (std l =? 0)%Qc).
  { apply eq_true_iff_eq. rewrite !Qceqb_eq. split; intros H; [|rewrite H; ring].
    destruct (Qcmult_integral _ _ H) as [X|X]; auto. exfalso. rewrite X in K. qlra. }
  rewrite E1. destruct (std l =? 0)%Qc eqn:E0; auto. cbn [negb andb].
  assert (E2 : (Qcabs (k * v + 0 - (k * qmean l + 0)) / (k * std l) = Qcabs (v - qmean l) / std l)%Qc).
  { replace (k * v + 0 - (k * qmean l + 0))%Qc with (k * (v - qmean l))%Qc by ring. rewrite abs_scale. field. split.
    - intros X. rewrite X in E0. vm_compute in E0. discriminate.
    - intros X. rewrite X in K. qlra. }
  rewrite E2. auto.
Qed.

(** The frame with a score column. *)
Lemma frame_scored_scale : forall nt series e t sc idx, (nt = true -> exists u, t = Some u) -> (nt = false -> t = None) ->
  answers_alike (Forall2 (moved k 0 nt)) (result_frame series e t (Some sc) idx) (result_frame (mv series) (mv e) (option_map mv t) (Some sc) idx).
Proof.
  intros nt series e t sc idx HT HF. unfold result_frame. cbv zeta. rewrite unit_length. cbn [column].
  destruct (length sc =? length series) eqn:ES; cbn [bind]; [|simpl; auto]. rewrite unit_length.
  destruct (length e =? length series) eqn:EE; cbn [bind]; [|simpl; auto]. apply Nat.eqb_eq in EE.
  apply (alike_bind _ _ _ _ (fun c c' => nt = true -> c' = mv c /\ length c = length series)).
  - destruct nt.
    + destruct (HT eq_refl) as [u ->]. cbn [option_map column]. rewrite unit_length. destruct (length u =? length series) eqn:EU; simpl; auto.
      apply Nat.eqb_eq in EU. auto.
    + rewrite (HF eq_refl). simpl. discriminate.
  - intros c c' _ _ HC. cbn [answers_alike]. apply Forall2_nth_error; [rewrite !mapi_length, unit_length; auto|].
    intros i r r' Hr Hr'. rewrite nth_error_mapi in Hr, Hr'. rewrite unit_nth in Hr'.
    destruct (nth_error series i) as [v|] eqn:EV; [|discriminate]. cbn [option_map] in Hr, Hr'. inversion Hr; inversion Hr'; subst r r'. clear Hr Hr'.
    assert (Hi : i < length series) by (eapply nth_error_lt; eauto). destruct (nth_error_ex _ e i ltac:(lia)) as [x Hx].
    assert (N1 : nth i e 0%Qc = x) by (apply nth_error_nth_d; auto).
    assert (N2 : nth i (mv e) 0%Qc = f1 x) by (apply nth_error_nth_d; rewrite unit_nth, Hx; auto).
    assert (S : modify_anomaly_status (mem_nat i idx) (f1 x) (f1 v) = modify_anomaly_status (mem_nat i idx) x v).
    { unfold modify_anomaly_status. destruct (negb _); auto. rewrite (ltb_unit k 0 K). auto. }
    unfold moved, result_row. cbn [r_value r_expected r_trend r_score r_anomaly r_neg r_pos]. rewrite N1, N2, S.
    repeat split; auto. intros N. destruct (HC N) as [-> LC]. destruct (nth_error_ex _ c i ltac:(lia)) as [y Hy].
    rewrite (nth_error_nth_d _ _ _ _ 0%Qc Hy). apply nth_error_nth_d. rewrite unit_nth, Hy. auto.
Qed.

Lemma sr_scale : forall series th ratio nt lm,
  answers_alike (fun d d' => snd d' = snd d /\ Forall2 (moved k 0 nt) (fst d) (fst d'))
    (spectral_residual_detection transform std trend_detection sort_desc series th ratio nt lm)
    (spectral_residual_detection transform std trend_detection sort_desc (mv series) th ratio nt lm).
Proof.
  intros series th ratio nt lm. unfold spectral_residual_detection. cbv zeta. rewrite unit_length, sr_detect_scale.
  apply (alike_bind _ _ _ _ eq); [apply alike_eq|]. intros [sc m] _ _ _ <-. cbn [fst snd].
  apply (alike_bind _ _ _ _ listrel).
  - destruct lm; [apply last_expected_scale|]. eapply alike_bind; [apply skeleton_scale|]. intros e e' _ _ ->. apply average_filter_scale. lia.
  - intros e e' _ _ ->. apply (alike_bind _ _ _ _ (fun t t' => t' = option_map mv t /\ (nt = true -> exists u, t = Some u) /\ (nt = false -> t = None))).
    + destruct nt; [|simpl; repeat split; auto; discriminate]. eapply alike_bind; [apply TD|]. intros t t' _ _ ->. simpl. repeat split; eauto; discriminate.
    + intros t t' _ _ (-> & H1 & H2). eapply alike_bind; [apply (frame_scored_scale nt series e t); auto|]. intros r r' _ _ M. simpl. auto.
Qed.
End Scale.
