(** Row-wise lemmas about the detection pipeline. *)
From Coq Require Import String List Arith ZArith QArith Qcanon Qround Lia Bool Sorted Permutation.
From Verif Require Import Base Num Sorting Kernel_model FillUp_model FillUp_spec FillUp_props
  Helpers_model Helpers_proofs Helpers_proofs2 Helpers_props Margins_model SR_model Detect_model Detect_spec.
Import ListNotations.
Open Scope nat_scope.

(** Flags before the final refinement: equality may still carry a flag. *)
Definition pre_consistent (r : row) : Prop :=
  match r_anomaly r, r_neg r, r_pos r with
  | false, false, false => True
  | true, false, true => (r_expected r <= r_value r)%Qc
  | true, true, false => (r_value r <= r_expected r)%Qc
  | _, _, _ => False
  end.
Definition frame_ok (series : list Qc) (rows : list row) : Prop :=
  map r_value rows = series /\ Forall pre_consistent rows.

Lemma mapi_map : forall A B C (f : nat -> A -> B) (g : B -> C) l, map g (mapi f l) = mapi (fun i a => g (f i a)) l.
Proof. intros A B C f g l. unfold mapi. generalize 0. induction l as [|x t IH]; intros k; simpl; auto. f_equal; auto. Qed.
Lemma mapi_id : forall A (l : list A), mapi (fun _ a => a) l = l.
Proof. intros A l. unfold mapi. generalize 0. induction l as [|x t IH]; intros k; simpl; auto. f_equal; auto. Qed.

Lemma result_row_pre : forall idx i v e t s, pre_consistent (result_row idx i v e t s).
Proof.
  intros. unfold result_row, modify_anomaly_status, pre_consistent. cbv zeta. cbn [r_anomaly r_neg r_pos].
  destruct (mem_nat i idx); simpl; auto. destruct (v <? e)%Qc eqn:E; simpl; qb_hyps; qlra.
Qed.

Lemma Forall_nth_error : forall A (P : A -> Prop) l, Forall P l <-> forall i x, nth_error l i = Some x -> P x.
Proof.
  intros A P l. rewrite Forall_forall. split; intros H.
  - intros i x E. apply H. apply nth_error_In in E. auto.
  - intros x I. apply In_nth_error in I. destruct I as [i E]. eauto.
Qed.

Lemma column_ok : forall n c l, column n c = Ok l -> length l = n.
Proof.
  intros n c l H. destruct c as [x|]; simpl in H; [|inversion H; apply repeat_length].
  destruct (length x =? n) eqn:E; inversion H; subst. apply Nat.eqb_eq; auto.
Qed.

Lemma result_frame_spec : forall series e t s idx rows, result_frame series e t s idx = Ok rows ->
  length rows = length series /\ length e = length series /\
  (forall i r, nth_error rows i = Some r -> exists v x, nth_error series i = Some v /\ nth_error e i = Some x /\
     r_value r = v /\ r_expected r = x /\ r_anomaly r = mem_nat i idx /\ pre_consistent r).
Proof.
  intros series e t s idx rows H. unfold result_frame in H. cbv zeta in H.
  destruct (column (length series) s) as [sc|] eqn:E1; [|discriminate]. rewrite bind_ok in H.
  destruct (column (length series) (Some e)) as [ex|] eqn:E2; [|discriminate]. rewrite bind_ok in H.
  destruct (column (length series) t) as [tr|] eqn:E3; [|discriminate]. rewrite bind_ok in H.
  inversion H; subst rows. clear H.
  pose proof (column_ok _ _ _ E2) as L2.
  assert (ex = e). { simpl in E2. destruct (length e =? length series); inversion E2; auto. } subst ex.
  split; [apply mapi_length|]. split; auto.
  intros i r Hr. rewrite nth_error_mapi in Hr. destruct (nth_error series i) as [v|] eqn:EV; [|discriminate].
  simpl in Hr. inversion Hr; subst r. clear Hr.
  destruct (nth_error_ex _ e i) as [x Hx]; [rewrite L2; apply (nth_error_lt _ _ _ _ EV)|].
  exists v, x. repeat split; auto.
  - unfold result_row. cbn [r_expected]. apply nth_error_nth_d; auto.
  - apply result_row_pre.
Qed.

Lemma result_frame_ok : forall series e t s idx rows, result_frame series e t s idx = Ok rows -> frame_ok series rows.
Proof.
  intros series e t s idx rows H. apply result_frame_spec in H. destruct H as (L & LE & H). split.
  - apply nth_error_ext_len; [rewrite map_length; auto|]. intros i Hi. rewrite map_length in Hi.
    destruct (nth_error_ex _ rows i Hi) as [r Hr]. rewrite nth_error_map, Hr. simpl.
    destruct (H i r Hr) as (v & x & A & _ & B & _). congruence.
  - apply Forall_nth_error. intros i r Hr. destruct (H i r Hr) as (v & x & _ & _ & _ & _ & _ & P). auto.
Qed.

Ltac bind_inv H :=
  match type of H with
  | bind ?a _ = Ok _ => let E := fresh "E" in destruct a eqn:E; [rewrite bind_ok in H|discriminate H]
  end.

Section Detect.
Variable cst : Qc.
Variable std : list Qc -> Qc.
Variable ppf : Qc -> Z -> Qc.
Variable sqrt : Qc -> Qc.
Variable table : list Qc.
Variable sort sort_desc : list (nat * Qc) -> list (nat * Qc).
Variable trend_detection : list Qc -> option nat -> res (list Qc).
Variable decompose : bool -> list Qc -> nat -> res (list Qc * list Qc).
Variable transform : list Qc -> list Qc.
Variable stationary : list Qc -> bool.
Variable spline : list nat -> list Qc -> nat -> Qc.
Variable period_detection : list (option Qc) -> res nat.

Lemma sr_frame : forall series th ratio nt lm rows m,
  spectral_residual_detection transform std trend_detection sort_desc series th ratio nt lm = Ok (rows, m) ->
  frame_ok series rows.
Proof.
  intros series th ratio nt lm rows m H. unfold spectral_residual_detection in H. cbv zeta in H.
  bind_inv H. bind_inv H. bind_inv H. bind_inv H. inversion H; subst. eapply result_frame_ok; eauto.
Qed.

Lemma dt_frame : forall series tv alpha ratio nt lm rows m,
  dynamic_threshold_detection cst std ppf sqrt table sort trend_detection series tv alpha ratio nt lm = Ok (rows, m) ->
  frame_ok series rows.
Proof.
  intros series tv alpha ratio nt lm rows m H. unfold dynamic_threshold_detection in H. cbv zeta in H.
  bind_inv H. bind_inv H. bind_inv H. bind_inv H. inversion H; subst. eapply result_frame_ok; eauto.
Qed.

Lemma ts_frame : forall series p alpha ratio adj nt lm rows m,
  seasonal_series_detection cst std ppf sqrt table sort decompose series p alpha ratio adj nt lm = Ok (rows, m) ->
  frame_ok series rows.
Proof.
  intros series p alpha ratio adj nt lm rows m H. unfold seasonal_series_detection in H.
  destruct (Q2Qc (49 # 100) <? ratio)%Qc; [discriminate H|]. cbv zeta in H.
  destruct (length series =? 0); [discriminate H|].
  destruct (length series <? p * 2 + 1); [discriminate H|].
  bind_inv H. destruct (negb _) eqn:EN; [discriminate H|].
  bind_inv H. bind_inv H. bind_inv H. bind_inv H. bind_inv H. inversion H; subst. eapply result_frame_ok; eauto.
Qed.

End Detect.

Lemma mem_nat_in : forall i l, mem_nat i l = true <-> In i l.
Proof.
  intros i l. unfold mem_nat. rewrite existsb_exists. split.
  - intros (x & I & E). apply Nat.eqb_eq in E. subst. auto.
  - intros I. exists i. split; auto. apply Nat.eqb_refl.
Qed.

Lemma reported_filter : forall rows, reported rows = length (filter r_anomaly rows).
Proof. induction rows as [|r t IH]; simpl; auto. destruct (r_anomaly r); simpl; lia. Qed.

(** What merge_with_delta does to each row. *)
Definition merged (r r' : row) : Prop :=
  r' = r \/ (r_value r' = r_value r /\ r_anomaly r = false /\ r_anomaly r' = true /\ pre_consistent r').

Lemma correct_direction_pre : forall v e t s n p,
  pre_consistent (correct_anomaly_direction (mkRow v e t s true n p)).
Proof.
  intros. unfold correct_anomaly_direction. cbn [r_anomaly]. cbv zeta. unfold pre_consistent.
  cbn [r_anomaly r_neg r_pos r_expected r_value r_trend r_score].
  destruct (e <? v)%Qc eqn:E; simpl; qb_hyps; qlra.
Qed.

Section Merge.
Variable stationary : list Qc -> bool.
Lemma merge_inv : forall results func series ratio out,
  merge_with_delta stationary results func series ratio = Ok out ->
  out = results \/
  exists delta s' diff m, should_include_delta stationary series = Ok (delta, s') /\ (0 < delta)%Z /\
    count_anomalies results < sr_quota (length s') ratio /\
    func s' (qn (sr_quota (length s') ratio - count_anomalies results) / qn (length s'))%Qc = Ok (diff, m) /\
    length diff = length results /\ length out = length results /\
    forall i r r' d, nth_error results i = Some r -> nth_error out i = Some r' -> nth_error diff i = Some d ->
      (r_anomaly r = false /\ r_anomaly d = true -> merged r r' /\ r_anomaly r' = true) /\
      (r_anomaly r = true \/ r_anomaly d = false -> r' = r).
Proof.
  intros results func series ratio out H. unfold merge_with_delta in H.
  destruct (should_include_delta stationary series) as [[delta s']|] eqn:ED; [|discriminate H].
  rewrite bind_ok in H. cbn [fst snd] in H.
  destruct (delta <=? 0)%Z eqn:EZ; [inversion H; auto|]. apply Z.leb_gt in EZ. cbv zeta in H.
  destruct (sr_quota (length s') ratio <=? count_anomalies results) eqn:EQ; [inversion H; auto|]. apply Nat.leb_gt in EQ.
  destruct (func s' _) as [[diff m]|] eqn:EF; [|discriminate H]. rewrite bind_ok in H. cbn [fst snd] in H.
  destruct (length diff =? length results) eqn:EL; [|discriminate H]. cbn [negb] in H. apply Nat.eqb_eq in EL.
  bind_inv H. bind_inv H. inversion H; subst out. clear H.
  right. exists delta, s', diff, m. split; auto. split; auto. split; auto. split; auto. split; auto.
  split; [apply mapi_length|].
  intros i r r' d Hr Hr' Hd. rewrite nth_error_mapi, Hr in Hr'. simpl in Hr'.
  assert (MI : forall b, mem_nat i (filter (fun i => negb (nth i (map r_anomaly results) true) && nth i (map r_anomaly diff) false)
                      (range (length results))) = b -> b = negb (r_anomaly r) && r_anomaly d).
  { intros b <-. apply eq_true_iff_eq. rewrite mem_nat_in, filter_In.
    rewrite (nth_error_nth_d _ (map r_anomaly results) i (r_anomaly r) true) by (rewrite nth_error_map, Hr; auto).
    rewrite (nth_error_nth_d _ (map r_anomaly diff) i (r_anomaly d) false) by (rewrite nth_error_map, Hd; auto).
    split; [tauto|]. intros X. split; auto. unfold range. apply in_seq. pose proof (nth_error_lt _ _ _ _ Hr). lia. }
  destruct (mem_nat i _) eqn:EM.
  - specialize (MI _ eq_refl). symmetry in MI. apply andb_prop in MI. destruct MI as [M1 M2]. apply negb_true_iff in M1.
    rewrite Hd in Hr'. inversion Hr'; subst r'. split.
    + intros _. rewrite M2. split; [right|]; [|unfold correct_anomaly_direction; reflexivity].
      split; [unfold correct_anomaly_direction; reflexivity|]. split; auto. split; [unfold correct_anomaly_direction; reflexivity|].
      apply correct_direction_pre.
    + intros [X|X]; congruence.
  - specialize (MI _ eq_refl). inversion Hr'; subst r'. split; auto.
    intros [X Y]. rewrite X, Y in MI. discriminate MI.
Qed.

Lemma merge_rows : forall results func series ratio out,
  merge_with_delta stationary results func series ratio = Ok out ->
  length out = length results /\
  forall i r r', nth_error results i = Some r -> nth_error out i = Some r' -> merged r r'.
Proof.
  intros results func series ratio out H. destruct (merge_inv _ _ _ _ _ H) as [->|(delta & s' & diff & m & _ & _ & _ & _ & LD & LO & R)].
  - split; auto. intros i r r' A B. left. congruence.
  - split; auto. intros i r r' A B. destruct (nth_error_ex _ diff i) as [d Hd].
    { rewrite LD. apply (nth_error_lt _ _ _ _ A). }
    destruct (R i r r' d A B Hd) as [R1 R2]. destruct (r_anomaly r) eqn:E1; [left; auto|].
    destruct (r_anomaly d) eqn:E2; [apply R1; auto|left; auto].
Qed.

Lemma merge_frame : forall results func series0 series ratio out,
  merge_with_delta stationary results func series ratio = Ok out -> frame_ok series0 results -> frame_ok series0 out.
Proof.
  intros results func series0 series ratio out H [V P]. destruct (merge_rows _ _ _ _ _ H) as [L R]. split.
  - rewrite <- V. apply nth_error_ext_len; [rewrite !map_length; auto|]. intros i Hi. rewrite map_length in Hi.
    destruct (nth_error_ex _ out i Hi) as [r' Hr']. destruct (nth_error_ex _ results i) as [r Hr]; [lia|].
    rewrite !nth_error_map, Hr, Hr'. simpl. f_equal. destruct (R i r r' Hr Hr') as [->|M]; auto. apply M.
  - rewrite Forall_nth_error in *. intros i r' Hr'. destruct (nth_error_ex _ results i) as [r Hr].
    { rewrite <- L. apply (nth_error_lt _ _ _ _ Hr'). }
    destruct (R i r r' Hr Hr') as [->|M]; [eauto|apply M].
Qed.

End Merge.

Lemma drop_filled_map : forall A B (f : A -> B) tags l, map f (drop_filled tags l) = drop_filled tags (map f l).
Proof.
  intros A B f tags l. unfold drop_filled. revert tags. induction l as [|x t IH]; intros [|b tags]; simpl; auto.
  destruct b; simpl; rewrite ?IH; auto.
Qed.
Lemma drop_filled_in : forall A tags (l : list A) x, In x (drop_filled tags l) -> In x l.
Proof.
  intros A tags l x H. unfold drop_filled in H. apply in_map_iff in H. destruct H as ([y b] & <- & H).
  apply filter_In in H. destruct H as [H _]. apply in_combine_l in H. auto.
Qed.

(** The rows with tag false, as positions. *)
Fixpoint kept (k : nat) (tags : list bool) : list nat :=
  match tags with
  | [] => []
  | b :: t => if b then kept (S k) t else k :: kept (S k) t
  end.
Lemma drop_filled_kept : forall A (l : list A) tags, length tags = length l ->
  map Some (drop_filled tags l) = map (nth_error l) (kept 0 tags).
Proof.
  intros A l tags L.
  assert (G : forall (pre l : list A) tags, length tags = length l ->
    map Some (drop_filled tags l) = map (nth_error (pre ++ l)) (kept (length pre) tags)).
  { clear. intros pre l. revert pre. induction l as [|x t IH]; intros pre [|b tags] L; simpl in *; try discriminate; auto.
    assert (E : pre ++ x :: t = (pre ++ [x]) ++ t) by (rewrite <- app_assoc; auto).
    assert (LP : length (pre ++ [x]) = S (length pre)) by (rewrite app_length; simpl; lia).
    unfold drop_filled in *. destruct b; simpl.
    - rewrite E, <- LP. apply IH. lia.
    - rewrite (IH (pre ++ [x])) by lia. rewrite LP, <- E. f_equal.
      rewrite nth_error_app2, Nat.sub_diag by lia. auto. }
  apply (G [] l tags L).
Qed.
Lemma kept_spec : forall tags k p, In p (kept k tags) <-> k <= p /\ nth_error tags (p - k) = Some false.
Proof.
  induction tags as [|b t IH]; intros k p; simpl.
  - split; [intros []|]. intros [_ H]. destruct (p - k); discriminate.
  - assert (ST : In p (kept (S k) t) <-> k < p /\ nth_error (b :: t) (p - k) = Some false).
    { rewrite IH. split; intros [A B]; (split; [lia|]).
      - replace (p - k) with (S (p - S k)) by lia. auto.
      - replace (p - k) with (S (p - S k)) in B by lia. auto. }
    destruct b; cbn [In]; rewrite ST.
    + split; intros [A B]; (split; [|auto]); [lia|]. destruct (Nat.eq_dec k p) as [->|N]; [|lia].
      rewrite Nat.sub_diag in B. discriminate B.
    + split.
      * intros [<-|[A B]]; [rewrite Nat.sub_diag; auto|split; auto; lia].
      * intros [A B]. destruct (Nat.eq_dec k p) as [->|N]; auto. right. split; auto. lia.
Qed.
Lemma kept_sorted : forall tags k, StronglySorted lt (kept k tags).
Proof.
  induction tags as [|b t IH]; intros k; simpl; [constructor|]. destruct b; auto.
  constructor; auto. apply Forall_forall. intros p H. apply kept_spec in H. lia.
Qed.
Lemma sorted_lt_unique : forall l1 l2, StronglySorted lt l1 -> StronglySorted lt l2 ->
  (forall x, In x l1 <-> In x l2) -> l1 = l2.
Proof.
  induction l1 as [|a t1 IH]; intros [|b t2] S1 S2 H; auto.
  - exfalso. apply (H b). left; auto.
  - exfalso. apply (H a). left; auto.
  - inversion S1 as [|? ? S1' F1]; subst. inversion S2 as [|? ? S2' F2]; subst. rewrite Forall_forall in F1, F2.
    assert (E : a = b).
    { destruct (proj1 (H a) (or_introl eq_refl)) as [X|X]; auto.
      destruct (proj2 (H b) (or_introl eq_refl)) as [Y|Y]; auto. specialize (F1 _ Y). specialize (F2 _ X). lia. }
    subst b. f_equal. apply IH; auto. intros x. specialize (H x). split; intros X.
    + destruct (proj1 H (or_intror X)) as [->|Y]; auto. specialize (F1 _ X). lia.
    + destruct (proj2 H (or_intror X)) as [->|Y]; auto. specialize (F2 _ X). lia.
Qed.

Lemma refine_flags_consistent : forall r, pre_consistent r -> flags_consistent (refine_row_flags r).
Proof.
  intros r H. assert (EP : (0 < EPS)%Qc) by reflexivity. unfold refine_row_flags, flags_consistent.
  destruct (Qcabs (r_value r - r_expected r) <? EPS)%Qc eqn:E.
  - cbn [r_anomaly r_pos r_neg]. split; [|split; discriminate]. split; [discriminate|]. intros [[X Y]|[X Y]]; discriminate.
  - qb_hyps. unfold pre_consistent in H.
    destruct (r_anomaly r), (r_neg r), (r_pos r); try (destruct H; fail).
    + split; [intuition|]. split; [discriminate|]. intros _. revert E. qmm; intros; qlra.
    + split; [intuition|]. split; [|discriminate]. intros _. revert E. qmm; intros; qlra.
    + split; [|split; discriminate]. split; [discriminate|]. intros [[X Y]|[X Y]]; discriminate.
Qed.
Lemma refine_flags_value : forall r, r_value (refine_row_flags r) = r_value r.
Proof. intros r. unfold refine_row_flags. destruct (_ <? _)%Qc; auto. Qed.
