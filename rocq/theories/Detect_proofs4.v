(** The dynamic threshold model on a series of at least four points. *)
From Coq Require Import String List Arith ZArith QArith Qcanon Qround Lia Lqa Bool Sorted Permutation.
From Verif Require Import Base Num Sorting Kernel_model Kernel_spec Kernel_proofs Kernel_proofs2 Kernel_proofs3 Kernel_props
  FillUp_model FillUp_spec FillUp_props
  Helpers_model Helpers_proofs Helpers_proofs2 Helpers_props Margins_model SR_model Detect_model Detect_spec
  Detect_proofs Detect_proofs2 Detect_proofs3.
Import ListNotations.
Open Scope nat_scope.

Lemma majority_cases : forall cst (sorted : list (nat * Qc)) n, length sorted = n -> 4 <= n ->
  exists maj, get_verified_majority_value cst (map snd sorted) = Ok maj /\
    (maj = None \/ maj = option_map snd (nth_error sorted ((length sorted - 1) / 2))).
Proof.
  intros cst sorted n L N. unfold get_verified_majority_value. cbv zeta. rewrite map_length.
  destruct (isclose _ 0%Qc); [|exists None; auto].
  assert (D : (length sorted - 1) / 2 < length sorted).
  { pose proof (Nat.div_mod (length sorted - 1) 2 ltac:(lia)). lia. }
  destruct (nth_error_ex _ sorted ((length sorted - 1) / 2) D) as [pm Hm].
  destruct (nth_error_ex _ sorted 0 ltac:(lia)) as [p0 H0].
  destruct (nth_error_ex _ sorted (length sorted - 1) ltac:(lia)) as [p1 H1].
  assert (G : forall k p, nth_error sorted k = Some p -> get (map snd sorted) k = Ok (snd p)).
  { intros k p H. apply get_ok. rewrite nth_error_map, H. auto. }
  rewrite (G _ _ Hm), bind_ok, (G _ _ H0), bind_ok, (G _ _ H1), bind_ok. rewrite Hm.
  destruct (isclose (snd pm) (snd p0) || isclose (snd pm) (snd p1)); [exists None; auto|exists (Some (snd pm)); auto].
Qed.

Lemma in_firstn_len : forall A n m (l : list A) x, In x (firstn n l) -> length (firstn n l) <= m -> In x (firstn m l).
Proof.
  intros A n m l x H L. rewrite firstn_length in L. apply In_nth_error in H. destruct H as [k Hk].
  pose proof (nth_error_lt _ _ _ _ Hk) as LK. rewrite firstn_length in LK. rewrite nth_error_firstn in Hk.
  destruct (k <? n); [|discriminate]. apply (nth_error_In _ k). rewrite nth_error_firstn.
  assert (T : (k <? m) = true) by (apply Nat.ltb_lt; lia). rewrite T. auto.
Qed.

Section DT.
Variable cst : Qc.
Variable std : list Qc -> Qc.
Variable ppf : Qc -> Z -> Qc.
Variable sqrt : Qc -> Qc.
Variable table : list Qc.
Variable sort : list (nat * Qc) -> list (nat * Qc).
Hypothesis SU : sorts_up sort.

Notation crit alpha := (get_critical ppf sqrt table alpha).

Lemma esd_on_sorted : forall data alpha maxo maj upper lm, 4 <= length data -> maxo <= length data / 2 - 1 ->
  let sorted := sorted_series sort data in
  (maj = None \/ maj = option_map snd (nth_error sorted ((length sorted - 1) / 2))) ->
  exists e, esd_detect cst std (crit alpha) sorted maxo maj upper lm = Ok e /\ NoDup e /\ length e <= maxo /\
    incl e (firstn maxo (map fst (if upper then rev sorted else sorted))).
Proof.
  intros data alpha maxo maj upper lm L4 HM sorted HJ.
  assert (LS : length sorted = length data) by (apply sorted_length; auto).
  destruct (C19_esd_detect_in_range cst std (crit alpha) sorted maxo maj upper lm) as (r & n & E & R & LR & _); auto.
  - intros k m L. rewrite get_critical_length; auto.
  - apply sorted_tail; auto.
  - lia.
  - rewrite LS. auto.
  - exists r. split; auto. split; [|split; auto].
    + rewrite R. apply firstn_nodup. pose proof (sorted_nodup sort SU data) as ND. destruct upper; auto.
      rewrite map_rev. apply NoDup_rev. auto.
    + intros x Hx. rewrite R in Hx, LR. apply (in_firstn_len _ n maxo); auto.
Qed.

Lemma dt_select : forall data alpha ratio lm, 4 <= length data ->
  let sorted := sorted_series sort data in
  let maxo := dt_quota (length data) ratio in
  exists maj (e : bool -> list nat) idx m,
    get_verified_majority_value cst (map snd sorted) = Ok maj /\
    (forall upper : bool, esd_detect cst std (crit alpha) sorted maxo maj upper lm = Ok (e upper)) /\
    dt_detect_anomaly cst std ppf sqrt table sort data alpha ratio lm = Ok (idx, m) /\
    NoDup idx /\ length idx <= 2 * maxo /\
    (forall i, In i idx -> exists upper : bool, In i (firstn maxo (map fst (if upper then rev sorted else sorted)))) /\
    (forall upper i, In i (e upper) -> In i idx) /\
    (forall i, In i idx -> exists upper : bool, In i (e upper) \/ In i (zscore_detect cst std sorted maxo upper)).
Proof.
  intros data alpha ratio lm L4 sorted maxo.
  assert (LS : length sorted = length data) by (apply sorted_length; auto).
  destruct (majority_cases cst sorted (length data) LS L4) as (maj & EM & CM).
  assert (QM : maxo <= length data / 2 - 1) by (unfold maxo, dt_quota; lia).
  destruct (esd_on_sorted data alpha maxo maj true lm L4 QM CM) as (eu & EU & NU & LU & IU).
  destruct (esd_on_sorted data alpha maxo maj false lm L4 QM CM) as (el & EL & NL & LL & IL).
  fold sorted in EU, EL, IU, IL.
  pose proof (sorted_nodup sort SU data) as NS. fold sorted in NS.
  set (zu := zscore_detect cst std sorted maxo true). set (zl := zscore_detect cst std sorted maxo false).
  destruct (zscore_nodup cst std sorted maxo true NS) as [NZU LZU]. destruct (zscore_nodup cst std sorted maxo false NS) as [NZL LZL].
  fold zu in NZU, LZU. fold zl in NZL, LZL.
  set (up := rank_direction maxo (length data) [eu; zu]). set (lo := rank_direction maxo (length data) [el; zl]).
  assert (ND2 : 2 * maxo <= length data). { pose proof (Nat.div_mod (length data) 2 ltac:(lia)). lia. }
  assert (DA : detect_tails [ (fun upper => esd_detect cst std (crit alpha) sorted maxo maj upper lm);
      (fun upper => Ok (zscore_detect cst std sorted maxo upper)) ] maxo (length data)
      = Ok (up ++ filter (fun i => negb (mem_nat i up)) lo)).
  { unfold detect_tails. cbn [run_detectors]. rewrite EU, !bind_ok, EL, !bind_ok. reflexivity. }
  destruct (detect_tails_len _ _ _ _ DA) as [NI LI].
  set (idx := up ++ filter (fun i => negb (mem_nat i up)) lo) in *.
  assert (II : forall i, In i idx <-> In i up \/ In i lo).
  { intros i. unfold idx. rewrite in_app_iff, filter_In. split; [tauto|]. intros [H|H]; auto.
    destruct (mem_nat i up) eqn:EI; [left; apply mem_nat_in; auto|right; auto]. }
  destruct (rank_direction_spec maxo (length data) [eu; zu]) as (_ & _ & RU & _); [intros s [<-|[<-|[]]]; auto|].
  destruct (rank_direction_spec maxo (length data) [el; zl]) as (_ & _ & RL & _); [intros s [<-|[<-|[]]]; auto|].
  exists maj, (fun upper => if upper : bool then eu else el), idx.
  exists (match maj with None => DynamicThreshold | Some _ => DynamicThresholdMad end).
  split; auto. split; [intros []; auto|]. split.
  { unfold dt_detect_anomaly. cbv zeta. fold sorted. rewrite EM, bind_ok. fold maxo. rewrite DA, bind_ok. auto. }
  split; auto. split; auto. split; [|split].
  - intros i H. apply II in H. destruct H as [H|H].
    + exists true. destruct (RU i H) as (s & [<-|[<-|[]]] & I); [apply IU; auto|].
      rewrite firstn_map. apply (zscore_sub cst std sorted maxo true); auto.
    + exists false. destruct (RL i H) as (s & [<-|[<-|[]]] & I); [apply IL; auto|].
      rewrite firstn_map. apply (zscore_sub cst std sorted maxo false); auto.
  - intros upper i H. apply II. destruct upper; [left|right]; apply rank_two; auto.
  - intros i H. apply II in H. destruct H as [H|H].
    + exists true. destruct (RU i H) as (s & [<-|[<-|[]]] & I); auto.
    + exists false. destruct (RL i H) as (s & [<-|[<-|[]]] & I); auto.
Qed.

(** Being among the first [maxo] labels of a tail, in terms of values. *)
Lemma count_filter_le : forall (p : Qc -> bool) (l : list Qc) k, (forall q y, k <= q -> nth_error l q = Some y -> p y = false) ->
  length (filter p l) <= k.
Proof.
  induction l as [|x t IH]; intros k H; simpl; [lia|]. destruct k as [|k].
  - rewrite (H 0 x) by (auto; lia). apply IH. intros q y A B. apply (H (S q) y); auto; lia.
  - assert (length (filter p t) <= k) by (apply IH; intros q y A B; apply (H (S q) y); auto; lia).
    destruct (p x); simpl; lia.
Qed.
Lemma filter_perm_len : forall A (p : A -> bool) l1 l2, Permutation l1 l2 -> length (filter p l1) = length (filter p l2).
Proof.
  intros A p l1 l2 H. induction H; simpl; auto; try lia.
  - destruct (p x); simpl; lia.
  - destruct (p x), (p y); simpl; lia.
Qed.
Lemma tail_label_count : forall data maxo upper i v, 
  In i (firstn maxo (map fst (if upper : bool then rev (sorted_series sort data) else sorted_series sort data))) ->
  nth_error data i = Some v ->
  if upper then count_above data v < maxo else count_below data v < maxo.
Proof.
  intros data maxo upper i v H HV. set (sorted := sorted_series sort data) in *.
  apply In_nth_error in H. destruct H as [k Hk]. rewrite nth_error_firstn in Hk.
  destruct (k <? maxo) eqn:EK; [|discriminate]. apply Nat.ltb_lt in EK.
  rewrite nth_error_map in Hk. destruct (nth_error (if upper then rev sorted else sorted) k) as [[j w]|] eqn:EJ; [|discriminate].
  simpl in Hk. inversion Hk; subst j.
  assert (W : w = v).
  { assert (I : In (i, w) sorted) by (apply nth_error_In in EJ; destruct upper; auto; apply in_rev; auto).
    unfold sorted in I. apply (proj1 (sorted_in sort SU data i w)) in I. congruence. }
  subst w. pose proof (sorted_tail sort SU data) as ST. fold sorted in ST.
  pose proof (sorted_vals sort SU data) as PV. fold sorted in PV.
  destruct upper.
  - unfold count_above. rewrite (filter_perm_len _ _ _ _ PV). rewrite (filter_perm_len _ _ _ _ (Permutation_rev (map snd sorted))).
    apply Nat.le_lt_trans with k; auto. apply count_filter_le. intros q y A B.
    pose proof (nth_error_lt _ _ _ _ B) as LB. rewrite rev_length, map_length in LB.
    pose proof (nth_error_lt _ _ _ _ EJ) as LJ. rewrite rev_length in LJ.
    rewrite nth_error_rev in EJ by auto. rewrite nth_error_rev in B by (rewrite map_length; auto). rewrite map_length in B.
    assert (C : (y <= v)%Qc).
    { apply (ST (length sorted - S q) (length sorted - S k) y v); [lia|auto|]. rewrite nth_error_map, EJ. auto. }
    apply Qcltb_ge. auto.
  - unfold count_below. rewrite (filter_perm_len _ _ _ _ PV).
    apply Nat.le_lt_trans with k; auto. apply count_filter_le. intros q y A B. apply Qcltb_ge.
    apply (ST k q v y); auto. rewrite nth_error_map, EJ. auto.
Qed.

Lemma filter_len_pointwise : forall (p q : Qc -> bool) (a b : list Qc), length a = length b ->
  (forall i x y, nth_error a i = Some x -> nth_error b i = Some y -> p x = q y) -> length (filter p a) = length (filter q b).
Proof.
  induction a as [|x s IH]; intros [|y t] L H; try discriminate; auto. simpl. rewrite (H 0 x y) by auto.
  assert (E : length (filter p s) = length (filter q t)) by (apply IH; auto; intros i u v A B; apply (H (S i) u v); auto).
  destruct (q y); simpl; lia.
Qed.
Lemma normalize_counts : forall series out mn mx i x u, normalize series = Ok (out, mn, mx) ->
  nth_error series i = Some x -> nth_error out i = Some u ->
  count_above series x = count_above out u /\ count_below series x = count_below out u.
Proof.
  intros series out mn mx i x u E Hx Hu.
  assert (NE : series <> []) by (intro X; subst; destruct i; discriminate).
  destruct (normalize_spec series NE) as (out' & mn' & mx' & E' & L & _ & _ & _ & C1 & C2). rewrite E' in E. inversion E; subst out' mn' mx'.
  destruct (Qceqb mn mx) eqn:EQ.
  - apply Qceqb_eq in EQ. rewrite (C1 EQ) in *. rewrite Hx in Hu. inversion Hu; subst. auto.
  - apply Qceqb_neq in EQ. specialize (C2 EQ).
    split; apply filter_len_pointwise; auto; intros j y w Hy Hw.
    + destruct (C2 i x u Hx Hu) as (_ & _ & _ & O). specialize (O j y w Hy Hw). apply eq_true_iff_eq. rewrite !Qcltb_lt. auto.
    + destruct (C2 j y w Hy Hw) as (_ & _ & _ & O). specialize (O i x u Hx Hu). apply eq_true_iff_eq. rewrite !Qcltb_lt. auto.
Qed.

Lemma blank_known : forall idx series, NoDup idx -> length idx < length series ->
  exists p v, nth_error (blank idx series) p = Some (Some v).
Proof.
  intros idx series ND L.
  assert (X : exists p, In p (range (length series)) /\ ~ In p idx).
  { destruct (Exists_dec (fun p => ~ In p idx) (range (length series))) as [E|E].
    - intros p. destruct (in_dec Nat.eq_dec p idx); [right; tauto|left; auto].
    - apply Exists_exists in E. destruct E as (p & A & B). eauto.
    - exfalso. assert (INC : incl (range (length series)) idx).
      { intros p Hp. destruct (in_dec Nat.eq_dec p idx); auto. exfalso. apply E. apply Exists_exists. eauto. }
      apply NoDup_incl_length in INC; [|apply seq_NoDup]. unfold range in INC. rewrite seq_length in INC. lia. }
  destruct X as (p & Hp & NP). unfold range in Hp. apply in_seq in Hp.
  destruct (nth_error_ex _ series p ltac:(lia)) as [v Hv]. exists p, v. unfold blank. rewrite nth_error_mapi, Hv. simpl.
  destruct (mem_nat p idx) eqn:E; auto. apply mem_nat_in in E. contradiction.
Qed.
Lemma blank_length : forall idx series, length (blank idx series) = length series.
Proof. intros. apply mapi_length. Qed.

Variable trend_detection : list Qc -> option nat -> res (list Qc).
Hypothesis TD : forall s p, exists t, trend_detection s p = Ok t /\ length t = length s.

Lemma result_frame_total : forall series e t s idx, length e = length series ->
  (forall l, t = Some l -> length l = length series) -> (forall l, s = Some l -> length l = length series) ->
  exists rows, result_frame series e t s idx = Ok rows.
Proof.
  intros series e t s idx HE HT HS. unfold result_frame. cbv zeta.
  assert (C : forall c, (forall l, c = Some l -> length l = length series) -> exists l, column (length series) c = Ok l).
  { intros [l|] HC; simpl; [|eauto]. rewrite (HC l eq_refl), Nat.eqb_refl. eauto. }
  destruct (C s HS) as [a ->]. rewrite bind_ok. destruct (C (Some e)) as [b ->]; [intros l X; inversion X; subst; auto|]. rewrite bind_ok.
  destruct (C t HT) as [c ->]. rewrite bind_ok. eauto.
Qed.

Lemma dt_total : forall series tv alpha ratio nt lm, 4 <= length series -> length tv = length series ->
  exists u mn mx idx m rows, normalize series = Ok (u, mn, mx) /\
    dt_detect_anomaly cst std ppf sqrt table sort u alpha ratio lm = Ok (idx, m) /\
    dynamic_threshold_detection cst std ppf sqrt table sort trend_detection series tv alpha ratio nt lm = Ok (rows, m) /\
    length rows = length series /\
    (forall i r, nth_error rows i = Some r -> r_anomaly r = mem_nat i idx).
Proof.
  intros series tv alpha ratio nt lm L4 LT.
  assert (NE : series <> []) by (intro X; subst; simpl in L4; lia).
  destruct (normalize_spec series NE) as (u & mn & mx & EN & LU & _).
  destruct (dt_select u alpha ratio lm) as (maj & e & idx & m & _ & _ & ED & ND & LI & _); [lia|].
  exists u, mn, mx, idx, m. unfold dynamic_threshold_detection. rewrite EN, bind_ok. cbn [fst]. rewrite ED, bind_ok. cbn [fst snd].
  assert (T : exists tr, match idx with [] => Ok tv | _ => do s <- interp (blank idx series); trend_detection s None end = Ok tr /\ length tr = length series).
  { destruct idx as [|i0 it] eqn:EI; [eauto|]. rewrite <- EI in *.
    destruct (interp_spec (blank idx series)) as (o & Eo & Lo & _).
    { apply blank_known; auto. unfold dt_quota in LI. pose proof (Nat.div_mod (length u) 2 ltac:(lia)). lia. }
    rewrite Eo, bind_ok. destruct (TD o None) as (t & Et & Lt). exists t. split; auto. rewrite Lt, Lo. apply blank_length. }
  destruct T as (tr & -> & LTR). rewrite bind_ok.
  destruct (result_frame_total series tr (if nt then Some tr else None) None idx) as (rows & ER); auto.
  { intros l X. destruct nt; inversion X; subst; auto. } { discriminate. }
  exists rows. rewrite ER, bind_ok. split; auto. split; auto. split; auto.
  apply result_frame_spec in ER. destruct ER as (LR & _ & R). split; auto.
  intros i r Hr. destruct (R i r Hr) as (_ & _ & _ & _ & _ & _ & A & _). auto.
Qed.
End DT.
