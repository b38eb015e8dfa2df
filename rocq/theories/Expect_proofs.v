(** Which trend values the expected values are made of. *)
From Coq Require Import String List Arith ZArith QArith Qcanon Qround Lia Lqa Bool Sorted Permutation.
From Verif Require Import Base Num Sorting Kernel_model Kernel_spec Kernel_proofs Kernel_proofs2 Kernel_proofs3 Kernel_props
  FillUp_model FillUp_spec FillUp_proofs6 FillUp_props
  Helpers_model Helpers_spec Helpers_proofs Helpers_proofs2 Helpers_props Margins_model SR_model SR_proofs2 Detect_model Detect_spec
  Detect_proofs Detect_proofs2 Detect_proofs3 Detect_proofs4 Detect_proofs5 Pipe_proofs Expect_spec.
Import ListNotations.
Open Scope nat_scope.

Lemma interp_inv : forall k o, interp k = Ok o -> length o = length k /\ forall i v, nth_error o i = Some v -> is_interpolant k i v.
Proof.
  intros k o H. destruct (known 0 k) as [|[a va] rest] eqn:E; [unfold interp in H; rewrite E in H; discriminate|].
  destruct (interp_spec k) as (o' & Eo & L & P).
  { assert (I : In (a, va) (known 0 k)) by (rewrite E; left; auto). apply known_in in I. destruct I as (q & -> & I). eauto. }
  rewrite Eo in H. inversion H; subst. auto.
Qed.

Lemma zip_with_nth : forall A B C (f : A -> B -> C) a b k x y,
  nth_error a k = Some x -> nth_error b k = Some y -> nth_error (zip_with f a b) k = Some (f x y).
Proof.
  induction a as [|h t IH]; intros [|g s] [|k] x y Ea Eb; simpl in *; try discriminate; auto.
  inversion Ea; inversion Eb; subst; auto.
Qed.
Lemma blank_nth : forall idx l i v, nth_error l i = Some v ->
  nth_error (blank idx l) i = Some (if mem_nat i idx then None else Some v).
Proof. intros. unfold blank. rewrite nth_error_mapi, H. auto. Qed.

Lemma frame_flagged : forall series e t s idx rows, result_frame series e t s idx = Ok rows ->
  forall i, flagged rows i <-> i < length series /\ In i idx.
Proof.
  intros series e t s idx rows H i. apply result_frame_spec in H. destruct H as (L & LE & H). split.
  - intros (r & Hr & A). split; [rewrite <- L; eapply nth_error_lt; eauto|]. destruct (H i r Hr) as (_ & _ & _ & _ & _ & _ & B & _).
    apply mem_nat_in. congruence.
  - intros [Hi I]. destruct (nth_error_ex _ rows i ltac:(lia)) as [r Hr]. exists r. split; auto.
    destruct (H i r Hr) as (_ & _ & _ & _ & _ & _ & B & _). rewrite B. apply mem_nat_in. auto.
Qed.

Lemma frame_trend : forall series e t s idx rows, result_frame series e (Some t) s idx = Ok rows -> map r_trend rows = t.
Proof.
  intros series e t s idx rows H. unfold result_frame in H. cbv zeta in H. bind_inv H. bind_inv H. bind_inv H. inversion H; subst rows. clear H.
  simpl in E1. destruct (length t =? length series) eqn:EL; inversion E1; subst. apply Nat.eqb_eq in EL.
  apply nth_error_ext_len; [rewrite map_length, mapi_length; auto|]. intros i Hi. rewrite map_length, mapi_length in Hi.
  rewrite nth_error_map, nth_error_mapi. destruct (nth_error_ex _ series i Hi) as [v Hv]. rewrite Hv. simpl.
  destruct (nth_error_ex _ a1 i ltac:(lia)) as [x Hx]. rewrite Hx. f_equal. apply nth_error_nth_d. auto.
Qed.

(** Labels at or past [k] against reported rows from [k] on. *)
Lemma late_count : forall series e t s idx rows w, result_frame series e t s idx = Ok rows ->
  NoDup idx -> (forall i, In i idx -> i < length series) -> w <= length series ->
  length (filter (fun i => length series - w <=? i) idx) = late_reports rows w.
Proof.
  intros series e t s idx rows w H ND LT HW. apply result_frame_spec in H. destruct H as (L & LE & H).
  unfold late_reports. rewrite L. set (k := length series - w) in *.
  assert (G : forall rs j, (forall i r, nth_error rs i = Some r -> r_anomaly r = mem_nat (j + i) idx) ->
     length (filter r_anomaly rs) = length (filter (fun i => mem_nat i idx) (seq j (length rs)))).
  { induction rs as [|r t' IH]; intros j HH; simpl; auto. rewrite (HH 0 r eq_refl), Nat.add_0_r.
    specialize (IH (S j)). destruct (mem_nat j idx); simpl; rewrite IH; auto; intros i r' Hr'; rewrite (HH (S i) r' Hr'); f_equal; lia. }
  rewrite (G (skipn k rows) k).
  - rewrite skipn_length, L. apply Permutation_length. apply NoDup_Permutation; [apply NoDup_filter; auto|apply NoDup_filter, seq_NoDup|].
    intros x. rewrite !filter_In, in_seq, mem_nat_in, Nat.leb_le. split.
    + intros [A B]. specialize (LT x A). split; auto. unfold k in *. lia.
    + intros [A B]. split; auto. lia.
  - intros i r Hr. rewrite nth_error_skipn in Hr. destruct (H (k + i) r Hr) as (_ & _ & _ & _ & _ & _ & B & _). auto.
Qed.

Section Expect.
Variable cst : Qc.
Variable std : list Qc -> Qc.
Variable ppf : Qc -> Z -> Qc.
Variable sqrt : Qc -> Qc.
Variable table : list Qc.
Variable sort : list (nat * Qc) -> list (nat * Qc).
Hypothesis SU : sorts_up sort.

Lemma sorted_labels : forall data i, In i (map fst (sorted_series sort data)) -> i < length data.
Proof.
  intros data i I. unfold sorted_series in I. destruct (SU (combine (range (length data)) data)) as [P _].
  apply (Permutation_in _ (Permutation_sym (Permutation_map fst P))) in I.
  apply in_map_iff in I. destruct I as ([a b] & <- & I). apply in_combine_l in I. unfold range in I. apply in_seq in I. simpl. lia.
Qed.
Lemma tail_labels : forall data maxo (upper : bool) i,
  In i (firstn maxo (map fst (if upper then rev (sorted_series sort data) else sorted_series sort data))) -> i < length data.
Proof.
  intros data maxo upper i I. apply firstn_incl in I. apply sorted_labels. destruct upper; auto. rewrite map_rev in I. apply in_rev. auto.
Qed.
Lemma zscore_labels : forall data maxo upper i, In i (zscore_detect cst std (sorted_series sort data) maxo upper) -> i < length data.
Proof.
  intros data maxo upper i I. apply zscore_sub in I. rewrite <- firstn_map in I. eapply tail_labels; eauto.
Qed.

Lemma ts_labels : forall data rem alpha ratio lm idx m, 4 <= length data -> length rem = length data ->
  ts_detect_anomaly cst std ppf sqrt table sort data rem alpha ratio lm = Ok (idx, m) ->
  NoDup idx /\ forall i, In i idx -> i < length data.
Proof.
  intros data rem alpha ratio lm idx m L4 LR H. unfold ts_detect_anomaly in H. cbv zeta in H.
  set (sorted := sorted_series sort data) in *. set (sr := sorted_series sort rem) in *. set (maxo := dt_quota (length data) ratio) in *.
  assert (LS : length sorted = length data) by (apply sorted_length; auto).
  assert (LSR : length sr = length rem) by (apply sorted_length; auto).
  destruct (majority_cases cst sorted (length data) LS L4) as (maj & EM & CM). rewrite EM, bind_ok in H.
  destruct (majority_cases cst sr (length rem) LSR ltac:(lia)) as (majr & EMR & CMR). rewrite EMR, bind_ok in H.
  assert (QM : maxo <= length data / 2 - 1) by (unfold maxo, dt_quota; lia).
  assert (QR : maxo <= length rem / 2 - 1) by (rewrite LR; auto).
  destruct (esd_on_sorted cst std ppf sqrt table sort SU data alpha maxo maj true lm L4 QM CM) as (eu & EU & NU & _ & IU).
  destruct (esd_on_sorted cst std ppf sqrt table sort SU data alpha maxo maj false lm L4 QM CM) as (el & EL & NL & _ & IL).
  destruct (esd_on_sorted cst std ppf sqrt table sort SU rem alpha maxo majr true lm ltac:(lia) QR CMR) as (ru & RU & NRU & _ & IRU).
  destruct (esd_on_sorted cst std ppf sqrt table sort SU rem alpha maxo majr false lm ltac:(lia) QR CMR) as (rl & RL & NRL & _ & IRL).
  fold sorted in EU, EL, IU, IL. fold sr in RU, RL, IRU, IRL.
  pose proof (sorted_nodup sort SU data) as NS. fold sorted in NS.
  bind_inv H. inversion H; subst a. clear H.
  split; [apply (detect_tails_len _ _ _ _ E)|].
  unfold detect_tails in E. cbn [run_detectors] in E. rewrite EU, RU in E. rewrite !bind_ok in E. rewrite EL, RL in E. rewrite !bind_ok in E.
  cbv zeta in E. injection E as E. intros i I. rewrite <- E in I. clear E. apply in_app_or in I.
  set (zu := zscore_detect cst std sorted maxo true) in *. set (zl := zscore_detect cst std sorted maxo false) in *.
  assert (NZU : NoDup zu) by (apply zscore_nodup; auto). assert (NZL : NoDup zl) by (apply zscore_nodup; auto).
  destruct (rank_direction_spec maxo (length data) [eu; zu; ru]) as (_ & _ & PU & _); [intros s [<-|[<-|[<-|[]]]]; auto|].
  destruct (rank_direction_spec maxo (length data) [el; zl; rl]) as (_ & _ & PL & _); [intros s [<-|[<-|[<-|[]]]]; auto|].
  destruct I as [I|I].
  - apply PU in I. destruct I as (s & [<-|[<-|[<-|[]]]] & I); [|eapply zscore_labels; eauto|].
    + apply IU in I. apply (tail_labels data maxo true i I).
    + apply IRU in I. rewrite <- LR. apply (tail_labels rem maxo true i I).
  - apply filter_In in I. destruct I as [I _]. apply PL in I. destruct I as (s & [<-|[<-|[<-|[]]]] & I); [|eapply zscore_labels; eauto|].
    + apply IL in I. apply (tail_labels data maxo false i I).
    + apply IRL in I. rewrite <- LR. apply (tail_labels rem maxo false i I).
Qed.

Lemma dt_labels : forall data alpha ratio lm idx m, 4 <= length data ->
  dt_detect_anomaly cst std ppf sqrt table sort data alpha ratio lm = Ok (idx, m) ->
  NoDup idx /\ forall i, In i idx -> i < length data.
Proof.
  intros data alpha ratio lm idx m L4 H.
  destruct (dt_select cst std ppf sqrt table sort SU data alpha ratio lm L4) as (maj & e & idx' & m' & _ & _ & E & ND & _ & I & _).
  rewrite E in H. inversion H; subst. split; auto. intros i Hi. apply I in Hi. destruct Hi as (u & Hi). eapply tail_labels; eauto.
Qed.

Lemma blank_forgotten : forall (F : nat -> Prop) idx l, (forall i, i < length l -> (F i <-> In i idx)) -> forgotten F l (blank idx l).
Proof.
  intros F idx l H. split; [apply blank_length|]. intros i v Hv. rewrite (blank_nth _ _ _ _ Hv).
  assert (Hi : i < length l) by (eapply nth_error_lt; eauto). specialize (H i Hi). split; intros A.
  - apply H in A. apply mem_nat_in in A. rewrite A. auto.
  - destruct (mem_nat i idx) eqn:E; auto. apply mem_nat_in in E. apply H in E. contradiction.
Qed.

Lemma nothing_bridged : forall (F : nat -> Prop) l, (forall i, i < length l -> ~ F i) -> bridged F l l.
Proof.
  intros F l H. exists (map Some l). split; [|split; auto].
  - split; [apply map_length|]. intros i v Hv. rewrite nth_error_map, Hv. simpl. split; auto. intros A. exfalso. eapply H; eauto. eapply nth_error_lt; eauto.
  - intros i v Hv. left. rewrite nth_error_map, Hv. auto.
Qed.

Variable decompose : bool -> list Qc -> nat -> res (list Qc * list Qc).

Lemma seasonal_expected : forall series period alpha ratio adjust nt lm trend season rows m, 1 < period ->
  decompose adjust series period = Ok (trend, season) ->
  seasonal_series_detection cst std ppf sqrt table sort decompose series period alpha ratio adjust nt lm = Ok (rows, m) ->
  length trend = length series /\ length season = length series /\ length rows = length series /\
  exists T, bridged (untrusted rows period) trend T /\ map r_expected rows = zip_with Qcplus T season /\
    (nt = true -> map r_trend rows = T).
Proof.
  intros series period alpha ratio adjust nt lm trend season rows m HP ED H. unfold seasonal_series_detection in H.
  destruct (Q2Qc (49 # 100) <? ratio)%Qc; [discriminate H|]. cbv zeta in H.
  destruct (length series =? 0) eqn:E0; [discriminate H|]. apply Nat.eqb_neq in E0.
  destruct (length series <? period * 2 + 1) eqn:E1; [discriminate H|]. apply Nat.ltb_ge in E1.
  rewrite ED, bind_ok in H. cbn [fst snd] in H. destruct (negb _) eqn:EN; [discriminate H|].
  apply negb_false_iff in EN. apply andb_prop in EN. destruct EN as [LT LS]. apply Nat.eqb_eq in LT, LS.
  split; auto. split; auto.
  bind_inv H. bind_inv H. bind_inv H. bind_inv H. bind_inv H. inversion H; subst a3. clear H. destruct a1 as [idx m']. cbn [fst snd] in *.
  assert (L1 : length (fst (fst a)) = length series) by (apply normalize_len in E; rewrite E, zip_with_length; lia).
  assert (L2 : length (fst (fst a0)) = length series) by (apply normalize_len in E2; rewrite E2, !zip_with_length; lia).
  apply ts_labels in E3; [|lia|lia]. destruct E3 as [ND LAB]. rewrite L1 in LAB.
  pose proof (frame_flagged _ _ _ _ _ _ E5) as FL.
  assert (W1 : 1 <= period / 2) by (apply Nat.div_le_lower_bound; lia).
  assert (W2 : period / 2 <= length series) by (pose proof (Nat.div_lt period 2); lia).
  pose proof (late_count _ _ _ _ _ _ (period / 2) E5 ND LAB W2) as LC.
  assert (LR : length rows = length series) by (apply result_frame_spec in E5; tauto).
  split; auto. exists a2. split; [|split].
  - destruct idx as [|i0 it] eqn:EI.
    + inversion E4; subst a2. apply nothing_bridged. intros i Hi [A|[A B]]; [apply FL in A; destruct A as [_ []]|].
      rewrite <- LC in A. cbn [filter length] in A. lia.
    + rewrite <- EI in *. clear EI. apply interp_inv in E4. destruct E4 as [L4 P4]. exists (blank_trend idx period trend).
      rewrite blank_trend_length in L4 by lia. split; [|split; [lia|auto]]. split; [apply blank_trend_length; lia|].
      intros i v Hv. assert (Hi : i < length series) by (rewrite <- LT; eapply nth_error_lt; eauto).
      unfold blank_trend. cbv zeta. rewrite LT, LC. unfold untrusted. rewrite LR.
      pose proof (blank_nth idx _ _ _ Hv) as BN.
      destruct (period / 2 <=? 2 * late_reports rows (period / 2)) eqn:EW; [apply Nat.leb_le in EW|apply Nat.leb_gt in EW].
      * destruct (period / 2 =? 0) eqn:EZ; [apply Nat.eqb_eq in EZ; lia|].
        assert (LF : length (firstn (length series - period / 2) (blank idx trend)) = length series - period / 2)
          by (rewrite firstn_length, blank_length; lia).
        destruct (Nat.lt_ge_cases i (length series - period / 2)) as [C|C].
        -- rewrite nth_error_app1 by lia. rewrite nth_error_firstn. rewrite (proj2 (Nat.ltb_lt _ _) C), BN. split.
           ++ intros [A|[A B]]; [|lia]. apply FL in A. destruct A as [_ A]. apply mem_nat_in in A. rewrite A. auto.
           ++ intros A. destruct (mem_nat i idx) eqn:EM; auto. exfalso. apply A. left. apply FL. split; auto. apply mem_nat_in. auto.
        -- rewrite nth_error_app2 by lia. rewrite LF, nth_error_repeat, (proj2 (Nat.ltb_lt _ _)) by lia. split; intros A; [reflexivity|]. exfalso. apply A. right. auto.
      * rewrite BN. split.
        -- intros [A|[A B]]; [|lia]. apply FL in A. destruct A as [_ A]. apply mem_nat_in in A. rewrite A. auto.
        -- intros A. destruct (mem_nat i idx) eqn:EM; auto. exfalso. apply A. left. apply FL. split; auto. apply mem_nat_in. auto.
  - apply result_frame_spec in E5. destruct E5 as (_ & LE & R).
    apply nth_error_ext_len; [rewrite map_length; lia|]. intros i Hi. rewrite map_length in Hi. destruct (nth_error_ex _ rows i Hi) as [r Hr].
    rewrite nth_error_map, Hr. simpl. destruct (R i r Hr) as (v & x & _ & B & _ & C & _). congruence.
  - intros ->. eapply frame_trend; eauto.
Qed.

Variable trend_detection : list Qc -> option nat -> res (list Qc).

Lemma dynamic_expected : forall series tv alpha ratio nt lm rows m, 4 <= length series ->
  dynamic_threshold_detection cst std ppf sqrt table sort trend_detection series tv alpha ratio nt lm = Ok (rows, m) ->
  length rows = length series /\ map r_value rows = series /\ (nt = true -> map r_trend rows = map r_expected rows) /\
  (((forall i, ~ flagged rows i) /\ map r_expected rows = tv) \/
   exists s, bridged (flagged rows) series s /\ (exists i, flagged rows i) /\ trend_detection s None = Ok (map r_expected rows)).
Proof.
  intros series tv alpha ratio nt lm rows m L4 H. unfold dynamic_threshold_detection in H.
  bind_inv H. bind_inv H. cbv zeta in H. bind_inv H. bind_inv H. inversion H; subst a2. clear H. destruct a0 as [idx m']. cbn [fst snd] in *.
  assert (L1 : length (fst (fst a)) = length series) by (apply normalize_len in E; auto).
  apply dt_labels in E0; [|lia]. destruct E0 as [ND LAB]. rewrite L1 in LAB.
  pose proof (frame_flagged _ _ _ _ _ _ E2) as FL. pose proof E2 as E2'. apply result_frame_spec in E2'. destruct E2' as (LR & LE & R).
  assert (EX : map r_expected rows = a1).
  { apply nth_error_ext_len; [rewrite map_length; lia|]. intros i Hi. rewrite map_length in Hi. destruct (nth_error_ex _ rows i Hi) as [r Hr].
    rewrite nth_error_map, Hr. simpl. destruct (R i r Hr) as (v & x & _ & B & _ & C & _). congruence. }
  split; auto. split.
  { apply nth_error_ext_len; [rewrite map_length; lia|]. intros i Hi. rewrite map_length in Hi. destruct (nth_error_ex _ rows i Hi) as [r Hr].
    rewrite nth_error_map, Hr. simpl. destruct (R i r Hr) as (v & x & B & _ & C & _). congruence. }
  split; [intros ->; rewrite EX; eapply frame_trend; eauto|].
  destruct idx as [|i0 it] eqn:EI.
  - left. inversion E1; subst a1. split; auto. intros i A. apply FL in A. destruct A as [_ []].
  - rewrite <- EI in *. right. bind_inv E1. exists a0. split; [|split].
    + exists (blank idx series). pose proof (interp_inv _ _ E0) as [LO P]. rewrite blank_length in LO. split; auto.
      apply blank_forgotten. intros i Hi. rewrite (FL i). tauto.
    + exists i0. apply FL. assert (I : In i0 idx) by (rewrite EI; left; auto). auto.
    + rewrite EX. auto.
Qed.

Lemma dynamic_blind : forall s1 s2 tv1 tv2 alpha ratio nt lm rows1 rows2 m1 m2, 4 <= length s1 -> length s2 = length s1 ->
  dynamic_threshold_detection cst std ppf sqrt table sort trend_detection s1 tv1 alpha ratio nt lm = Ok (rows1, m1) ->
  dynamic_threshold_detection cst std ppf sqrt table sort trend_detection s2 tv2 alpha ratio nt lm = Ok (rows2, m2) ->
  (forall i, flagged rows1 i <-> flagged rows2 i) -> (exists i, flagged rows1 i) ->
  (forall i, ~ flagged rows1 i -> nth_error s1 i = nth_error s2 i) ->
  map r_expected rows1 = map r_expected rows2.
Proof.
  intros s1 s2 tv1 tv2 alpha ratio nt lm rows1 rows2 m1 m2 L4 L2 H1 H2 SF (j & J) SV.
  assert (G : forall s tv rows m, length s = length s1 -> 
    dynamic_threshold_detection cst std ppf sqrt table sort trend_detection s tv alpha ratio nt lm = Ok (rows, m) ->
    flagged rows j -> exists idx o, (forall i, flagged rows i <-> i < length s /\ In i idx) /\ interp (blank idx s) = Ok o /\
      trend_detection o None = Ok (map r_expected rows)).
  { clear H1 H2 SF SV. intros s tv rows m LS H FJ. unfold dynamic_threshold_detection in H.
    bind_inv H. bind_inv H. cbv zeta in H. bind_inv H. bind_inv H. inversion H; subst a2. clear H.
    pose proof (frame_flagged _ _ _ _ _ _ E2) as FL. apply result_frame_spec in E2. destruct E2 as (LR & LE & R).
    assert (EX : map r_expected rows = a1).
    { apply nth_error_ext_len; [rewrite map_length; lia|]. intros i Hi. rewrite map_length in Hi. destruct (nth_error_ex _ rows i Hi) as [r Hr].
      rewrite nth_error_map, Hr. simpl. destruct (R i r Hr) as (v & x & _ & B & _ & C & _). congruence. }
    destruct (fst a0) as [|i0 it] eqn:EI; [apply FL in FJ; destruct FJ as [_ []]|]. rewrite <- EI in *.
    bind_inv E1. exists (fst a0), a2. rewrite EX. auto. }
  destruct (G _ _ _ _ eq_refl H1 J) as (x1 & o1 & F1 & I1 & T1).
  destruct (G _ _ _ _ L2 H2 (proj1 (SF j) J)) as (x2 & o2 & F2 & I2 & T2).
  assert (EB : blank x1 s1 = blank x2 s2).
  { apply nth_error_ext_len; [rewrite !blank_length; auto|]. intros i Hi. rewrite blank_length in Hi.
    destruct (nth_error_ex _ s1 i Hi) as [v1 V1]. destruct (nth_error_ex _ s2 i ltac:(lia)) as [v2 V2].
    rewrite (blank_nth _ _ _ _ V1), (blank_nth _ _ _ _ V2). f_equal.
    assert (EM : mem_nat i x1 = mem_nat i x2).
    { apply eq_true_iff_eq. rewrite !mem_nat_in. specialize (F1 i). specialize (F2 i). specialize (SF i). rewrite L2 in F2. tauto. }
    rewrite <- EM. destruct (mem_nat i x1) eqn:E; auto. specialize (SV i). rewrite V1, V2 in SV. f_equal.
    assert (X : ~ flagged rows1 i). { intros A. apply F1 in A. destruct A as [_ A]. apply mem_nat_in in A. congruence. }
    specialize (SV X). congruence. }
  rewrite EB in I1. rewrite I1 in I2. inversion I2; subst o2. rewrite T1 in T2. congruence.
Qed.
End Expect.
