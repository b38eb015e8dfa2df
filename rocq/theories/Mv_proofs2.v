(** Multivariate detector, part 2: inference, thresholds, decisions, packing. *)
From Coq Require Import String List Arith ZArith Lia Bool Permutation Sorted.
From Verif Require Import Base Num Sorting Kernel_model Kernel_proofs Helpers_model Helpers_spec Helpers_proofs
  Mv_model Mv_spec Mv_proofs.
Import ListNotations.
Open Scope nat_scope.

(** * Inference *)
Definition opt_app {A} (o : option (list A)) (l : list A) : list A :=
  match o with None => l | Some r => r ++ l end.
Lemma append_result_app : forall A (o : option (list A)) l, append_result o l = Some (opt_app o l).
Proof. intros A [r|] l; auto. Qed.

Lemma infer_batches_spec : forall net gap pct batches cs ts ms,
  infer_batches net gap pct batches (cs, ts, ms) =
  do rs <- mapM (score_sample net gap pct) (concat batches);
  Ok (match batches with
      | [] => (cs, ts, ms)
      | _ => (Some (opt_app cs (map (fun r => fst (fst r)) rs)),
              Some (opt_app ts (map (fun r => snd (fst r)) rs)),
              Some (opt_app ms (map snd rs)))
      end).
Proof.
  intros net gap pct. induction batches as [|b t IH]; intros cs ts ms; cbn [infer_batches concat].
  - cbn [mapM]. rewrite bind_ok. auto.
  - rewrite mapM_app. destruct (mapM (score_sample net gap pct) b) as [rs|e]; auto.
    rewrite !bind_ok, IH. destruct (mapM (score_sample net gap pct) (concat t)) as [rs'|e] eqn:E; auto.
    rewrite !bind_ok. rewrite !append_result_app, !map_app. destruct t as [|b' t'].
    + cbn in E. inversion E; subst. cbn [map]. rewrite !app_nil_r. auto.
    + cbn [opt_app]. f_equal.
      assert (X : forall A (o : option (list A)) u v, Some (opt_app o u ++ v) = Some (opt_app o (u ++ v))).
      { intros A [r|] u v; cbn; rewrite ?app_assoc; auto. }
      rewrite !X. auto.
Qed.

Lemma inference_spec : forall net gap input batch mn mx pct values, 0 < batch ->
  inference net gap input batch mn mx pct values =
  do samples <- dataset values input 1 1 mn mx (Q2Qc (-1000)) (Q2Qc 1000);
  do rs <- mapM (score_sample net gap pct) samples;
  Ok (match samples with
      | [] => (None, None, None)
      | _ => (Some (map (fun r => fst (fst r)) rs), Some (map (fun r => snd (fst r)) rs), Some (map snd rs))
      end).
Proof.
  intros net gap input batch mn mx pct values Hb. unfold inference.
  destruct (dataset values input 1 1 mn mx (Q2Qc (-1000)) (Q2Qc 1000)) as [samples|e]; auto. rewrite !bind_ok.
  destruct batch as [|b]; [lia|]. cbn [loader]. rewrite bind_ok, infer_batches_spec.
  rewrite chunks_concat by lia.
  destruct (mapM (score_sample net gap pct) samples) as [rs|e]; auto. rewrite !bind_ok.
  destruct samples as [|s t]; auto.
Qed.
Lemma inference_batch_free : forall net gap input b1 b2 mn mx pct values, 0 < b1 -> 0 < b2 ->
  inference net gap input b1 mn mx pct values = inference net gap input b2 mn mx pct values.
Proof. intros. rewrite !inference_spec by auto. auto. Qed.

Lemma contributions_spec : forall gap pred target pct c, contributions gap pred target pct = Ok c ->
  length pred = length target /\ length pct = length target /\ length c = length target /\
  forall j p t w x, nth_error pred j = Some p -> nth_error target j = Some t -> nth_error pct j = Some w ->
       nth_error c j = Some x -> x = (gap (p - t) * w)%Qc.
Proof.
  intros gap. induction pred as [|p a IH]; intros [|t b] [|w c0] c H; simpl in H; try discriminate.
  - inversion H. split; auto. split; auto. split; auto. intros [|j]; discriminate.
  - dbind H. inversion H; subst. destruct (IH _ _ _ E) as (L1 & L2 & L3 & P).
    split; [simpl; lia|]. split; [simpl; lia|]. split; [simpl; lia|].
    intros [|j] p' t' w' x'; simpl; intros.
    + congruence.
    + eapply P; eauto.
Qed.
Lemma contributions_total : forall gap pred target pct, length pred = length target -> length pct = length target ->
  exists c, contributions gap pred target pct = Ok c.
Proof.
  intros gap. induction pred as [|p a IH]; intros [|t b] [|w c0] L1 L2; simpl in *; try discriminate; eauto.
  destruct (IH b c0) as [c E]; try lia. rewrite E, bind_ok. eauto.
Qed.
Lemma score_sample_spec : forall net gap pct x y c s m, score_sample net gap pct (x, y) = Ok (c, s, m) ->
  length (fst (net x)) = length y /\ length pct = length y /\ length c = length y /\
  weighted_error gap (fst (net x)) y pct s /\ s = qmean c /\ m = snd (net x) /\ error_terms gap (fst (net x)) y pct c.
Proof.
  intros net gap pct x y c s m H. unfold score_sample in H. cbn [fst snd] in H.
  destruct (net x) as [pred attn]. dbind H. inversion H; subst. cbn [fst snd].
  destruct (contributions_spec _ _ _ _ _ E) as (A & B & C & D).
  assert (T : error_terms gap pred y pct c) by (repeat (split; auto)).
  split; auto. split; auto. split; auto. split; [|split; auto]. exists c. split; auto. unfold qmean. rewrite C. auto.
Qed.

(** The scores of all samples of a frame of rows. *)
Lemma inference_rows : forall net gap d input batch mn mx pct values cs ts ms, 0 < batch -> 0 < input ->
  width d values -> length mn = d -> length mx = d ->
  inference net gap input batch mn mx pct values = Ok (Some cs, Some ts, Some ms) ->
  length cs = length values - input /\ length ts = length values - input /\ length ms = length values - input /\
  0 < length ts /\
  forall k c s m, nth_error cs k = Some c -> nth_error ts k = Some s -> nth_error ms k = Some m ->
    exists x t y, scaled_rows (Q2Qc (-1000)) (Q2Qc 1000) mn mx (slice values k (k + input)) x /\
      nth_error values (k + input) = Some t /\ scaled_row (Q2Qc (-1000)) (Q2Qc 1000) mn mx t y /\
      weighted_error gap (fst (net x)) y pct s /\ s = qmean c /\ m = snd (net x) /\ length c = d /\
      error_terms gap (fst (net x)) y pct c.
Proof.
  intros net gap d input batch mn mx pct values cs ts ms Hb Hi Wd L1 L2 H.
  rewrite inference_spec in H by auto. dbind H. dbind H.
  destruct (dataset_spec values d input 1 1 mn mx (Q2Qc (-1000)) (Q2Qc 1000)) as (sm & Es & Ls & Ps); auto; try lia.
  { discriminate. }
  rewrite E in Es. inversion Es; subst sm. clear Es.
  rewrite Nat.div_1_r in Ls. replace (length values + 1 - 1 - input) with (length values - input) in Ls by lia.
  destruct a as [|s0 st]; [discriminate|]. inversion H; subst. clear H.
  pose proof (mapM_len _ _ _ _ _ E0) as LL. rewrite !map_length.
  split; [lia|]. split; [lia|]. split; [lia|]. split; [simpl in LL; lia|].
  intros k c s m Ec Et Em.
  rewrite nth_error_map in Ec, Et, Em. destruct (nth_error a0 k) as [[[c' s'] m']|] eqn:Ek; [|discriminate].
  cbn in Ec, Et, Em. inversion Ec; inversion Et; inversion Em; subst.
  destruct (mapM_nth_r _ _ _ _ _ _ _ E0 Ek) as ([x y] & Ex & Sc).
  apply score_sample_spec in Sc. destruct Sc as (A & B & C & D & F & G & G').
  destruct (Ps _ _ _ Ex) as (P1 & P2 & t & P3 & P4).
  exists x, t, y. rewrite Nat.mul_1_r in *. replace (k + input + 1 - 1) with (k + input) in P3 by lia.
  do 6 (split; [auto|]). split; auto.
  destruct P4 as [P4 _]. unfold width in Wd. rewrite Forall_forall in Wd.
  apply nth_error_In in P3. apply Wd in P3. lia.
Qed.

(** * Thresholds *)
Lemma nth_error_rev_seq : forall m a k, k < m -> nth_error (rev (seq a m)) k = Some (a + m - 1 - k).
Proof.
  induction m as [|m IH]; intros a k H; [lia|].
  rewrite seq_S, rev_app_distr. simpl rev at 1. destruct k as [|k]; simpl.
  - f_equal. lia.
  - rewrite IH by lia. f_equal. lia.
Qed.
Lemma thresholds_spec : forall tw scores, 0 < tw -> exists ths, thresholds tw scores = Ok ths /\
  length ths = length scores + 1 - tw /\
  forall k t, nth_error ths k = Some t ->
    let wd := slice scores (k + 1 - tw) (k + 1) in has_rank wd (95 * length wd / 100) t.
Proof.
  intros tw scores Htw. unfold thresholds. cbv zeta. set (n := length scores).
  set (idx := rev (seq (tw - 1) (n - (tw - 1)))).
  assert (Li : length idx = n + 1 - tw) by (unfold idx; rewrite rev_length, seq_length; lia).
  assert (Ni : forall k, k < n + 1 - tw -> nth_error idx k = Some (n - 1 - k)).
  { intros k Hk. unfold idx. rewrite nth_error_rev_seq by lia. f_equal. lia. }
  assert (Wk : forall k, k < n + 1 - tw ->
    slice scores (n - tw - (n - 1 - k)) (n - (n - 1 - k)) = slice scores (k + 1 - tw) (k + 1)).
  { intros k Hk. f_equal; lia. }
  assert (Ne : forall k, k < n + 1 - tw -> slice scores (k + 1 - tw) (k + 1) <> []).
  { intros k Hk C. apply (f_equal (@length _)) in C. rewrite slice_length in C. simpl in C.
    change (length scores) with n in C. lia. }
  destruct (mapM_total _ _ (fun i => get_threshold (slice scores (n - tw - i) (n - i))) idx) as [ths E].
  { intros i Ii. apply In_nth_error in Ii. destruct Ii as [k Ek].
    assert (Hk : k < n + 1 - tw) by (rewrite <- Li; eapply nth_error_lt; eauto).
    rewrite Ni in Ek by auto. inversion Ek; subst i. rewrite Wk by auto.
    destruct (get_threshold_rank _ (Ne k Hk)) as (t & Et & _). eauto. }
  exists ths. split; auto. split; [rewrite (mapM_len _ _ _ _ _ E); auto|].
  intros k t Ek. cbv zeta. destruct (mapM_nth_r _ _ _ _ _ _ _ E Ek) as (i & Ei & Et).
  assert (Hk : k < n + 1 - tw) by (rewrite <- Li; eapply nth_error_lt; eauto).
  rewrite Ni in Ei by auto. inversion Ei; subst i. rewrite Wk in Et by auto.
  destruct (get_threshold_rank _ (Ne k Hk)) as (t' & Et' & R). rewrite Et in Et'. inversion Et'; subst; auto.
Qed.

(** * Packing *)
Lemma pack_rows_spec : forall asort variables index anoms scores sev contribs attns rs,
  pack_rows asort variables index anoms scores sev contribs attns = Ok rs ->
  length rs = length index /\
  forall k r, nth_error rs k = Some r ->
    nth_error index k = Some (r_index r) /\ nth_error anoms k = Some (r_anomaly r) /\
    nth_error scores k = Some (r_score r) /\ nth_error sev k = Some (r_severity r) /\
    exists c m, nth_error contribs k = Some c /\ nth_error attns k = Some m /\
      interpretation asort variables c m = Ok (r_interp r).
Proof.
  intros asort variables. induction index as [|i index IH]; intros anoms scores sev contribs attns rs H.
  - cbn in H. inversion H; subst. split; auto. intros [|k]; discriminate.
  - cbn [pack_rows] in H. destruct anoms; [discriminate|]. destruct scores; [discriminate|].
    destruct sev; [discriminate|]. destruct contribs; [discriminate|]. destruct attns; [discriminate|].
    dbind H. dbind H. inversion H; subst. apply IH in E0. destruct E0 as [L P].
    split; [simpl; lia|]. intros [|k] r Er; cbn [nth_error] in Er |- *.
    + inversion Er; subst. cbn. repeat split; auto. eauto.
    + apply P in Er. exact Er.
Qed.
Lemma pack_rows_total : forall asort variables index anoms scores sev contribs attns,
  length anoms = length index -> length scores = length index -> length sev = length index ->
  length contribs = length index -> length attns = length index ->
  (forall c m, In c contribs -> In m attns -> exists e, interpretation asort variables c m = Ok e) ->
  exists rs, pack_rows asort variables index anoms scores sev contribs attns = Ok rs.
Proof.
  intros asort variables. induction index as [|i index IH]; intros anoms scores sev contribs attns L1 L2 L3 L4 L5 H.
  - cbn. eauto.
  - destruct anoms; [discriminate|]. destruct scores; [discriminate|].
    destruct sev; [discriminate|]. destruct contribs as [|c0 contribs]; [discriminate|].
    destruct attns as [|m0 attns]; [discriminate|].
    cbn [pack_rows]. destruct (H c0 m0) as [e Ee]; [left; auto|left; auto|]. rewrite Ee, bind_ok.
    cbn [length] in *. destruct (IH anoms scores sev contribs attns) as [rs Er]; try lia.
    { intros; apply H; right; auto. } rewrite Er, bind_ok. eauto.
Qed.

Lemma attention_change_length : forall dim tw len attn, 0 < tw -> len = length attn + 1 - tw ->
  length (attention_change dim tw len attn) = len.
Proof.
  intros dim tw len attn Htw H. unfold attention_change, last_n.
  rewrite zip_len, !skipn_length, map_length. unfold range. rewrite seq_length. lia.
Qed.

(** Everything [assemble] promises about result [k]. *)
Lemma assemble_spec : forall asort e1 tw th index variables contrib total attn rs, 0 < tw ->
  length contrib = length total -> length attn = length total ->
  assemble asort e1 tw th index variables contrib total attn = Ok rs ->
  length rs = length total + 1 - tw /\ length total + 1 - tw <= length index /\
  forall k r, nth_error rs k = Some r ->
    nth_error index (length index - (length total + 1 - tw) + k) = Some (r_index r) /\
    nth_error total (tw - 1 + k) = Some (r_score r) /\
    (exists t, let wd := slice total (k + 1 - tw) (k + 1) in
      has_rank wd (95 * length wd / 100) t /\
      r_anomaly r = decide (Qcmax (Q2Qc (1 # 2)) th) (Qcmin (Q2Qc (3 # 10)) th) (r_score r) t) /\
    r_severity r = (if r_anomaly r then (r_score r / e1)%Qc else 0%Qc) /\
    (exists c cs m, nth_error contrib (tw - 1 + k) = Some c /\ contributor_scores c = Ok cs /\
      nth_error (attention_change (length variables) tw (length total + 1 - tw) attn) k = Some m /\
      interpretation asort variables cs m = Ok (r_interp r)).
Proof.
  intros asort e1 tw th index variables contrib total attn rs Htw Lc La H.
  unfold assemble in H. dbind H. dbind H. cbv zeta in H.
  destruct (thresholds_spec tw total Htw) as (ths & Et & Lt & Pt). rewrite E0 in Et. inversion Et; subst a0. clear Et.
  set (anoms := zip_with _ (skipn (tw - 1) total) ths) in H.
  assert (Ln : length anoms = length total + 1 - tw) by (unfold anoms; rewrite zip_len, skipn_length; lia).
  unfold pack_response in H. rewrite Ln in H.
  destruct (length index <? length total + 1 - tw) eqn:C; [discriminate|]. apply Nat.ltb_ge in C.
  apply pack_rows_spec in H. destruct H as [L P]. rewrite skipn_length in L.
  split; [lia|]. split; auto.
  intros k r Er. destruct (P k r Er) as (I1 & I2 & I3 & I4 & c & m & I5 & I6 & I7).
  rewrite nth_error_skipn in I1, I3, I5. split; auto. split; auto.
  assert (Ia := I2). unfold anoms in Ia. apply nth_error_zip_inv in Ia.
  destruct Ia as (s & t & A1 & A2 & A3). rewrite nth_error_skipn in A1. rewrite I3 in A1. inversion A1; subst s.
  split; [exists t; split; auto; apply (Pt k t A2)|].
  split.
  { apply nth_error_zip_inv in I4. destruct I4 as (s & b & B1 & B2 & B3).
    rewrite nth_error_skipn, I3 in B1. inversion B1; subst s. rewrite I2 in B2. inversion B2; subst b. auto. }
  destruct (mapM_nth_r _ _ _ _ _ _ _ E I5) as (c0 & C1 & C2).
  exists c0, c, m. repeat split; auto.
Qed.
Lemma assemble_total : forall asort e1 tw th index variables contrib total attn, 0 < tw ->
  length contrib = length total -> length attn = length total -> length total <= length index ->
  (forall c, In c contrib -> qsum c <> 0%Qc) ->
  (forall c cs m, In c contrib -> contributor_scores c = Ok cs ->
     In m (attention_change (length variables) tw (length total + 1 - tw) attn) ->
     exists e, interpretation asort variables cs m = Ok e) ->
  exists rs, assemble asort e1 tw th index variables contrib total attn = Ok rs.
Proof.
  intros asort e1 tw th index variables contrib total attn Htw Lc La Li Hs Hi. unfold assemble.
  destruct (mapM_total _ _ contributor_scores contrib) as [cs Ecs].
  { intros c Ic. unfold contributor_scores. destruct (qsum c =? 0)%Qc eqn:E; eauto.
    qb_hyps. apply Hs in Ic. contradiction. }
  rewrite Ecs, bind_ok. destruct (thresholds_spec tw total Htw) as (ths & Et & Lt & _). rewrite Et, bind_ok.
  cbv zeta. set (anoms := zip_with _ (skipn (tw - 1) total) ths).
  assert (Ln : length anoms = length total + 1 - tw) by (unfold anoms; rewrite zip_len, skipn_length; lia).
  unfold pack_response. rewrite Ln.
  destruct (length index <? length total + 1 - tw) eqn:C; [apply Nat.ltb_lt in C; lia|].
  pose proof (mapM_len _ _ _ _ _ Ecs) as Lcs.
  apply pack_rows_total; try (rewrite ?zip_len, ?skipn_length, ?Ln; lia).
  - rewrite attention_change_length, skipn_length; auto; lia.
  - intros c m Ic Im. apply in_skipn_nth in Ic. destruct Ic as (p & _ & Ep).
    destruct (mapM_nth_r _ _ _ _ _ _ _ Ecs Ep) as (c0 & C1 & C2). eapply Hi; eauto. eapply nth_error_In; eauto.
Qed.

(** * Interpretation *)
Lemma mapM_names : forall A B C (f : A -> res B) (g : B -> C) (h : A -> res C) l r,
  (forall x y, f x = Ok y -> h x = Ok (g y)) -> mapM f l = Ok r -> mapM h l = Ok (map g r).
Proof.
  intros A B C f g h l r H E. apply mapM_ok in E. apply mapM_ok. induction E; cbn; constructor; auto.
Qed.
Lemma mapM_get_perm : forall A (l : list A) order r, Permutation order (seq 0 (length l)) ->
  mapM (get l) order = Ok r -> Permutation r l.
Proof.
  intros A l order r P E.
  assert (S0 : mapM (get l) (seq 0 (length l)) = Ok l).
  { apply mapM_ok. apply F2_intro; [rewrite seq_length; auto|]. intros k x y Ex Ey.
    rewrite nth_error_seq in Ex. destruct (k <? length l); [|discriminate]. inversion Ex; subst.
    apply get_ok. auto. }
  revert r l E S0 P. intros r l E. revert r E.
  assert (X : forall o1 o2, Permutation o1 o2 -> forall r1 r2, mapM (get l) o1 = Ok r1 -> mapM (get l) o2 = Ok r2 ->
    Permutation r1 r2).
  { induction 1; intros r1 r2 E1 E2.
    - cbn in *. inversion E1; inversion E2; auto.
    - cbn [mapM] in *. dbind E1. dbind E1. dbind E2. dbind E2.
      assert (a1 = a) by congruence. subst. inversion E1; inversion E2; subst. constructor. auto.
    - cbn [mapM] in *. destruct (get l y) as [vy|]; [|discriminate E1]. destruct (get l x) as [vx|]; [|discriminate E2].
      rewrite !bind_ok in E1, E2. destruct (mapM (get l) l0) as [vr|]; [|discriminate E1].
      rewrite !bind_ok in E1, E2. inversion E1; inversion E2; subst. constructor.
    - destruct (mapM_total _ _ (get l) l') as [r' Er'].
      { intros x Ix. apply Permutation_sym in H. apply (Permutation_in _ H) in Ix.
        apply In_nth_error in Ix. destruct Ix as [k Ek]. destruct (mapM_nth _ _ _ _ _ _ _ E1 Ek) as (y & _ & Ey). eauto. }
      apply Permutation_trans with r'; [apply IHPermutation1|apply IHPermutation2]; auto. }
  intros r E S0 P. eapply X; eauto.
Qed.
