(** Turning a series upside down: the spectral residual detector. *)
From Coq Require Import String List Arith ZArith QArith Qcanon Qround Lia Lqa Bool Sorted Permutation.
From Verif Require Import Base Num Sorting Kernel_model Kernel_spec Kernel_proofs5 FillUp_model Helpers_model Helpers_spec Helpers_props Margins_model SR_model SR_spec2 SR_proofs SR_proofs2 SR_proofs3
  Period_proofs3 Units_spec Units_proofs Units_proofs2 Units_proofs3 Units_proofs4 Mirror_spec Mirror_proofs Mirror_proofs2 Mirror_proofs3 Mirror_proofs4.
Import ListNotations.
Open Scope nat_scope.

Notation f1 := (fun x : Qc => (minus * x + 0)%Qc).
Notation mv := (in_unit minus 0).
Notation listrel := (fun o o' => o' = mv o).
Notation numrel := (fun x x' => x' = f1 x).

Lemma qsort_mir : forall l, qsort (mv l) = rev (mv (qsort l)).
Proof.
  intros l. apply qsorted_unique; [apply qsort_sorted| |].
  - pose proof (qsort_sorted l) as SS. induction SS as [|a r SS IH F]; simpl; [constructor|].
    assert (G : forall A (R : A -> A -> Prop) l x, StronglySorted R l -> (forall y, In y l -> R y x) -> StronglySorted R (l ++ [x])).
    { clear. induction l as [|y t IH]; intros x HS HX; simpl; [repeat constructor|].
      inversion HS as [|? ? S' F]; subst. constructor; [apply IH; auto; intros z I; apply HX; right; auto|].
      apply Forall_app. split; auto. constructor; auto. apply HX. left. auto. }
    apply G; auto. intros y Hy. apply in_rev in Hy. apply in_map_iff in Hy. destruct Hy as (x & <- & Hx).
    rewrite Forall_forall in F. specialize (F x Hx). rewrite !minus0. qlra.
  - etransitivity; [symmetry; apply qsort_perm|]. etransitivity; [|apply Permutation_rev]. apply Permutation_map, qsort_perm.
Qed.
Lemma quantile_turn : forall l q x y, l <> [] -> quantile l q x -> quantile (mv l) (1 - q) y -> y = (- x)%Qc.
Proof.
  intros l q x y NE (s & k & t & P & SS & E & T0 & T1 & KL & ->) (s' & k' & t' & P' & SS' & E' & T0' & T1' & KL' & ->).
  rewrite unit_length in *.
  assert (ES : s = qsort l) by (apply qsorted_unique; auto; [apply qsort_sorted|]; etransitivity; [exact P|apply qsort_perm]).
  assert (ES' : s' = rev (mv s)).
  { rewrite ES, <- qsort_mir. apply qsorted_unique; auto; [apply qsort_sorted|]. etransitivity; [exact P'|apply qsort_perm]. }
  assert (LS : length s = length l) by (apply Permutation_length; auto).
  assert (N : forall i, i < length l -> nth i s' 0%Qc = (- nth (length l - S i) s 0)%Qc).
  { intros i Hi. rewrite ES'. rewrite rev_nth by (rewrite unit_length; lia). rewrite unit_length, LS.
    destruct (nth_error_ex _ s (length l - S i) ltac:(lia)) as [z EZ]. rewrite (nth_error_nth_d _ _ _ _ 0%Qc EZ).
    apply nth_error_nth_d. rewrite unit_nth, EZ. simpl. rewrite minus0. auto. }
  assert (L1 : 0 < length l) by (destruct l; [congruence|simpl; lia]).
  set (n1 := length l - 1) in *. assert (SUM : (qn n1 = qn (k + k') + (t + t'))%Qc) by (rewrite qn_add; qlra).
  assert (B1 : k + k' <= n1). { apply qn_le. qlra. }
  assert (B2 : n1 < k + k' + 2). { apply qn_lt. rewrite (qn_add (k + k') 2). change (qn 2) with (Q2Qc 2). replace (Q2Qc 2) with (1 + 1)%Qc by (apply Qc_is_canon; reflexivity). qlra. }
  assert (C : n1 = k + k' \/ n1 = k + k' + 1) by lia. destruct C as [C|C].
  - rewrite C in SUM. assert (t = 0%Qc) by qlra. assert (t' = 0%Qc) by qlra. subst t t'. rewrite (N k') by lia.
    replace (length l - S k') with k by lia. ring.
  - rewrite C, (qn_add (k + k') 1) in SUM. change (qn 1) with 1%Qc in SUM. assert (t' = (1 - t)%Qc) by qlra. subst t'. rewrite !N by lia.
    replace (length l - S k') with (k + 1) by lia. replace (length l - S (k' + 1)) with k by lia. ring.
Qed.
Lemma quantile_nil : forall q, np_quantile [] q = Err IndexErr.
Proof. intros q. unfold np_quantile. cbv zeta. change (qsort []) with (@nil Qc). destruct (Z.to_nat _); reflexivity. Qed.
Lemma quantile_mir : forall l q q', (0 < q)%Qc -> (q < 1)%Qc -> q' = (1 - q)%Qc -> answers_alike numrel (np_quantile l q) (np_quantile (mv l) q').
Proof.
  intros l q q' Q0 Q1 ->. destruct l as [|a l].
  - change (mv []) with (@nil Qc). rewrite !quantile_nil. simpl. auto.
  - assert (NE : a :: l <> []) by discriminate. remember (a :: l) as s. assert (NE' : mv s <> []) by (subst s; discriminate).
    assert (A0 : (0 <= q)%Qc) by qlra. assert (A1 : (0 <= 1 - q)%Qc) by (clear - Q1; qlra). assert (A2 : (1 - q < 1)%Qc) by (clear - Q0; qlra).
    destruct (np_quantile_total s q NE A0 Q1) as [x X]. destruct (np_quantile_total (mv s) (1 - q)%Qc NE' A1 A2) as [y Y].
    rewrite X, Y. cbn [answers_alike]. rewrite minus0. apply (quantile_turn s q); auto; apply np_quantile_spec; auto.
Qed.
Lemma ahead_mir : forall rv lo hi q i acc, ahead_loop (mv rv) (f1 hi) (f1 lo) (f1 q) i (mv acc) = mv (ahead_loop rv lo hi q i acc).
Proof.
  induction rv as [|v rv IH]; intros lo hi q [|i] acc; cbn [in_unit map ahead_loop]; auto.
  - change (map f1 acc) with (mv acc). rewrite <- (unit_repeat minus 0 q (S i)), <- unit_app. auto.
  - rewrite (leb_mir hi v), (leb_mir v lo), andb_comm. destruct (_ && _); [apply (IH lo hi q i (v :: acc))|apply (IH lo hi q (S i) acc)].
Qed.
Lemma extend_mir : forall l r, answers_alike listrel (extend_series l r) (extend_series (mv l) r).
Proof.
  intros l r. unfold extend_series. apply (alike_bind _ _ _ _ listrel).
  - destruct r; [|rewrite unit_length; unfold in_unit; rewrite slice_map; simpl; auto].
    assert (QA := quantile_mir l (Q2Qc (3 # 4)) (Q2Qc (1 # 4)) eq_refl eq_refl ltac:(apply Qc_is_canon; reflexivity)).
    assert (QB := quantile_mir l (Q2Qc (1 # 2)) (Q2Qc (1 # 2)) eq_refl eq_refl ltac:(apply Qc_is_canon; reflexivity)).
    assert (QC := quantile_mir l (Q2Qc (1 # 4)) (Q2Qc (3 # 4)) eq_refl eq_refl ltac:(apply Qc_is_canon; reflexivity)).
    destruct l as [|v0 l0]; [change (mv []) with (@nil Qc); rewrite !quantile_nil; simpl; auto|].
    assert (NE : v0 :: l0 <> []) by discriminate. remember (v0 :: l0) as l. clear Heql v0 l0.
    destruct (np_quantile_total l (Q2Qc (3 # 4)) NE ltac:(vm_compute; discriminate) eq_refl) as [a Ea].
    destruct (np_quantile_total l (Q2Qc (1 # 2)) NE ltac:(vm_compute; discriminate) eq_refl) as [b Eb].
    destruct (np_quantile_total l (Q2Qc (1 # 4)) NE ltac:(vm_compute; discriminate) eq_refl) as [c Ec].
    rewrite Ea in *. rewrite Eb in *. rewrite Ec in *.
    destruct (np_quantile (mv l) (Q2Qc (3 # 4))) as [a'|]; [|contradiction]. destruct (np_quantile (mv l) (Q2Qc (1 # 2))) as [b'|]; [|contradiction].
    destruct (np_quantile (mv l) (Q2Qc (1 # 4))) as [c'|]; [|contradiction]. cbn [answers_alike] in QA, QB, QC. subst a' b' c'.
    rewrite !bind_ok. cbv zeta. cbn [answers_alike].
    rewrite <- (ahead_mir (rev l) _ _ b 6 []). unfold in_unit at 2 3. rewrite map_rev. cbn [map]. f_equal; rewrite !minus0; ring.
  - intros a a' _ _ ->. eapply alike_bind; [apply (predict_scale minus)|]. intros p p' _ _ ->. cbn [answers_alike].
    rewrite unit_app, unit_repeat. auto.
Qed.

Section SR.
Variable transform : list Qc -> list Qc.
Variable std : list Qc -> Qc.
Variable trend_detection : list Qc -> option nat -> res (list Qc).
Variable sort_desc : list (nat * Qc) -> list (nat * Qc).
Hypothesis TB : scale_blind minus transform.
Hypothesis EV : even_spread std.
Hypothesis TD : trend_in_unit minus 0 trend_detection.

Lemma score_mir : forall l r, generate_spectral_score transform (mv l) r = generate_spectral_score transform l r.
Proof.
  intros l r. unfold generate_spectral_score. cbv zeta. pose proof (extend_mir l r) as H.
  destruct (extend_series l r) as [e|e], (extend_series (mv l) r) as [e'|e']; simpl in H; try contradiction; subst; cbn [bind]; auto.
  rewrite unit_length, (TB e). reflexivity.
Qed.
Lemma sr_detect_mir : forall l q lm, sr_detect transform std (mv l) q lm = sr_detect transform std l q lm.
Proof.
  intros l q lm. unfold sr_detect. rewrite !score_mir. destruct lm; auto. rewrite unit_length. cbv zeta.
  destruct (generate_spectral_score transform l false) as [sc|e]; cbn [bind]; auto.
  pose proof (unit_get minus 0 l (length l - 1)) as G. destruct (get l (length l - 1)) as [v|e] eqn:EG, (get (mv l) (length l - 1)) as [v'|e']; simpl in G; try contradiction; subst; cbn [bind]; auto.
  assert (NE : l <> []) by (intros ->; discriminate).
  destruct (first_drop _ _ _ _) as [j|e]; cbn [bind]; auto.
  replace (firstn j (mv l) ++ [(minus * v + 0)%Qc]) with (mv (firstn j l ++ [v])) by (rewrite unit_app; unfold in_unit; rewrite firstn_map'; auto).
  rewrite score_mir. destruct (generate_spectral_score _ _ _) as [fs|e]; cbn [bind]; auto. destruct (get fs _); cbn [bind]; auto.
  rewrite (proj1 EV 0%Qc l), qmean_mir by auto.
  replace (minus * v + 0 - (0 - qmean l))%Qc with (qmean l - v)%Qc by (rewrite minus0; ring). rewrite Qcabs_sub_sym. reflexivity.
Qed.
Lemma frame_scored_mir : forall nt series e t sc idx, (nt = true -> exists u, t = Some u) -> (nt = false -> t = None) ->
  answers_alike (Forall2 (turned nt)) (result_frame series e t (Some sc) idx) (result_frame (mv series) (mv e) (option_map mv t) (Some sc) idx).
Proof.
  intros nt series e t sc idx HT HF. unfold result_frame. cbv zeta. rewrite unit_length. cbn [column].
  destruct (length sc =? length series) eqn:ES; cbn [bind]; [|simpl; auto]. rewrite unit_length.
  destruct (length e =? length series) eqn:EE; cbn [bind]; [|simpl; auto]. apply Nat.eqb_eq in EE.
  apply (alike_bind _ _ _ _ (fun c c' => nt = true -> c' = mv c /\ length c = length series)).
  - destruct nt.
    + destruct (HT eq_refl) as [u ->]. cbn [option_map column]. rewrite unit_length. destruct (length u =? length series) eqn:EU; simpl; auto.
      apply Nat.eqb_eq in EU. auto.
    + rewrite (HF eq_refl). simpl. discriminate.
  - intros c c' _ _ HC. cbn [answers_alike]. apply Forall2_nth_error; [rewrite !mapi_length, unit_length; auto|].
    intros i r r' Hr Hr'. rewrite nth_error_mapi in Hr, Hr'. rewrite unit_nth in Hr'.
    destruct (nth_error series i) as [v|] eqn:EV0; [|discriminate]. cbn [option_map] in Hr, Hr'. inversion Hr; inversion Hr'; subst r r'. clear Hr Hr'.
    assert (Hi : i < length series) by (eapply nth_error_lt; eauto). destruct (nth_error_ex _ e i ltac:(lia)) as [x Hx].
    assert (N1 : nth i e 0%Qc = x) by (apply nth_error_nth_d; auto).
    assert (N2 : nth i (mv e) 0%Qc = (- x)%Qc) by (apply nth_error_nth_d; rewrite unit_nth, Hx; simpl; rewrite minus0; auto).
    unfold result_row. rewrite N1, N2, minus0. cbv zeta. apply turned_row.
    intros N. destruct (HC N) as [-> LC]. destruct (nth_error_ex _ c i ltac:(lia)) as [y Hy].
    rewrite (nth_error_nth_d _ _ _ _ 0%Qc Hy). apply nth_error_nth_d. rewrite unit_nth, Hy. simpl. rewrite minus0. auto.
Qed.
Lemma sr_mir : forall series th ratio nt lm,
  answers_alike (fun d d' => snd d' = snd d /\ Forall2 (turned nt) (fst d) (fst d'))
    (spectral_residual_detection transform std trend_detection sort_desc series th ratio nt lm)
    (spectral_residual_detection transform std trend_detection sort_desc (mv series) th ratio nt lm).
Proof.
  intros series th ratio nt lm. unfold spectral_residual_detection. cbv zeta. rewrite unit_length, sr_detect_mir.
  apply (alike_bind _ _ _ _ eq); [apply alike_eq|]. intros [sc m] _ _ _ <-. cbn [fst snd].
  apply (alike_bind _ _ _ _ listrel).
  - destruct lm; [apply (last_expected_scale minus)|]. eapply alike_bind; [apply (skeleton_scale minus)|]. intros e e' _ _ ->. apply (average_filter_scale minus). lia.
  - intros e e' _ _ ->. apply (alike_bind _ _ _ _ (fun t t' => t' = option_map mv t /\ (nt = true -> exists u, t = Some u) /\ (nt = false -> t = None))).
    + destruct nt; [|simpl; repeat split; auto; discriminate]. eapply alike_bind; [apply TD|]. intros t t' _ _ ->. simpl. repeat split; eauto; discriminate.
    + intros t t' _ _ (-> & H1 & H2). eapply alike_bind; [apply (frame_scored_mir nt series e t); auto|]. intros r r' _ _ M. simpl. auto.
Qed.
End SR.
