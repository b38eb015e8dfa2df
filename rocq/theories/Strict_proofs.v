(** Which points the tests select, as a condition on the point alone. *)
From Coq Require Import String List Arith ZArith QArith Qcanon Qround Lia Lqa Bool Sorted Permutation.
From Verif Require Import Base Num Sorting Kernel_model Kernel_spec Kernel_proofs Kernel_proofs2 Kernel_proofs3 Kernel_props
  FillUp_model FillUp_spec FillUp_props
  Helpers_model Helpers_proofs Helpers_proofs2 Helpers_props Margins_model SR_model Detect_model Detect_spec
  Detect_proofs Detect_proofs2 Detect_proofs3 Detect_proofs4.
Import ListNotations.
Open Scope nat_scope.

(** Two selections out of the first [maxo] labels are kept whole. *)
Lemma rank_within : forall maxo n L e z, NoDup e -> NoDup z -> incl e (firstn maxo L) -> incl z (firstn maxo L) ->
  forall x, In x (rank_direction maxo n [e; z]) <-> In x e \/ In x z.
Proof.
  intros maxo n L e z NE NZ IE IZ x.
  destruct (rank_direction_spec maxo n [e; z]) as (ND & LE & SUB & FULL); [intros s [<-|[<-|[]]]; auto|].
  set (up := rank_direction maxo n [e; z]) in *. split.
  - intros H. destruct (SUB x H) as (s & [<-|[<-|[]]] & I); auto.
  - intros H. assert (IX : In x (firstn maxo L)) by (destruct H; auto).
    destruct (Nat.eq_dec (length up) maxo) as [EQ|NQ].
    + assert (INC : incl up (firstn maxo L)) by (intros y Hy; destruct (SUB y Hy) as (s & [<-|[<-|[]]] & I); auto).
      apply (NoDup_length_incl ND) in INC; auto. rewrite firstn_length. lia.
    + destruct H as [H|H]; [eapply (FULL ltac:(lia) e)|eapply (FULL ltac:(lia) z)]; simpl; eauto.
Qed.

Lemma significant_weaker : forall cst std upper vals k c c', (c' <= c)%Qc -> significant cst std upper vals k c -> significant cst std upper vals k c'.
Proof.
  intros cst std upper vals k c c' LE (v & Hv & H). exists v. split; auto.
  assert (G : forall ctr s, outlying upper ctr s v c -> outlying upper ctr s v c').
  { intros ctr s O. unfold outlying in *. eapply Qcle_lt_trans; [|exact O]. apply Qcmult_le_compat_r; auto.
    apply Qcle_trans with (Q2Qc (1 # 100000000)); [vm_compute; discriminate|]. apply Qcmax_r. }
  destruct H as [H|H]; [left|right]; auto.
Qed.

Section Strict.
Variable cst : Qc.
Variable std : list Qc -> Qc.

(** The label [lab] is in the prefix of the tail that ends at some significant
    position below the quota. *)
Definition before_significant (critical : list Qc) (data : list (nat * Qc)) (maxo : nat) (upper : bool) (lab : nat) : Prop :=
  exists j k, nth_error (map fst data) j = Some lab /\ j <= k /\ k < maxo /\
    significant cst std upper (map snd data) k (nth k critical 0%Qc).

Lemma in_firstn_pos : forall (l : list nat) n j x, NoDup l -> nth_error l j = Some x -> (In x (firstn n l) <-> j < n).
Proof.
  intros l n j x ND Hj. split.
  - intros H. apply In_nth_error in H. destruct H as [i Hi]. rewrite nth_error_firstn in Hi. destruct (i <? n) eqn:E; [|discriminate].
    apply Nat.ltb_lt in E. assert (i = j); [|lia]. apply (proj1 (NoDup_nth_error l) ND); [eapply nth_error_lt; eauto|congruence].
  - intros H. apply (nth_error_In _ j). rewrite nth_error_firstn. apply Nat.ltb_lt in H. rewrite H. auto.
Qed.

Lemma esd_member : forall critical series maxo majority upper lm e lab,
  (forall n m, m <= n -> m <= length (critical n m)) ->
  tail_ordered false (map snd series) -> NoDup (map fst series) -> 4 <= length series -> maxo <= length series / 2 - 1 ->
  majority = None \/ majority = option_map snd (nth_error series ((length series - 1) / 2)) ->
  (lm = true -> lab = fold_left Nat.max (map fst series) 0) ->
  esd_detect cst std critical series maxo majority upper lm = Ok e ->
  let data := esd_data series majority upper in
  In lab e <-> before_significant (critical (length data) maxo) data maxo upper lab.
Proof.
  intros critical series maxo majority upper lm e lab HC HO ND L4 HM HJ HL H data.
  assert (HS : qsorted (map snd series)) by (apply (tail_ordered_ordered false); auto).
  destruct (esd_data_spec series majority upper HS L4 HJ) as (E & OD & LD & (k0 & EK) & LN). fold data in E, OD, LD, EK, LN.
  unfold esd_detect in H. rewrite E, bind_ok in H.
  assert (CE : match majority with None => critical (length series) maxo | Some _ => critical (length data) maxo end = critical (length data) maxo).
  { destruct majority; auto. rewrite LN; auto. }
  cbv zeta in H. rewrite CE in H. set (crit := critical (length data) maxo) in *.
  pose proof (Nat.div_mod (length series) 2 ltac:(lia)) as DM.
  assert (LC : maxo <= length crit) by (apply HC; lia).
  apply tail_ordered_ordered in OD.
  assert (LV : maxo <= length (map snd data)) by (rewrite map_length; lia).
  assert (NDD : NoDup (map fst data)).
  { rewrite EK, map_firstn. apply firstn_nodup. destruct upper; auto. rewrite map_rev. apply NoDup_rev. auto. }
  destruct lm.
  - rewrite HL in * by auto. clear HL. set (lb := fold_left Nat.max (map fst series) 0) in *.
    destruct (first_pos (fun p => fst p =? lb) data) as [li|] eqn:EF.
    + destruct (first_pos_spec _ _ _ _ EF) as ([l0 v] & Hx & Px). simpl in Px. apply Nat.eqb_eq in Px. subst l0.
      assert (HN : nth_error (map fst data) li = Some lb) by (rewrite nth_error_map, Hx; auto).
      destruct (C19_esd_last cst std upper (map snd data) (map fst data) maxo crit li OD LV LC) as (n & EE & C).
      rewrite EE in H. injection H as <-. rewrite (in_firstn_pos _ _ li) by auto. split.
      * intros LT. destruct C as [[-> _]|((C1 & C2) & C3 & _)]; [lia|]. exists li, (n - 1). repeat split; auto; lia.
      * intros (j & k & J & JK & KM & SG). assert (j = li) by (apply (proj1 (NoDup_nth_error _) NDD); [eapply nth_error_lt; eauto|congruence]). subst j.
        destruct C as [[-> C]|((C1 & C2) & C3 & _)]; [exfalso; eapply C; eauto|auto].
    + injection H as <-. split; [intros []|]. intros (j & k & J & _). exfalso.
      rewrite nth_error_map in J. destruct (nth_error data j) as [[a b]|] eqn:Q; [|discriminate]. simpl in J. injection J as ->.
      assert (G : forall l, first_pos (fun p : nat * Qc => fst p =? lb) l = None -> forall p, In p l -> fst p <> lb).
      { clear. induction l as [|x t IH]; intros Q p [].
        - subst x. cbn in Q. destruct (fst p =? lb) eqn:B; [discriminate|]. apply Nat.eqb_neq in B. auto.
        - cbn in Q. destruct (fst x =? lb); [discriminate|]. destruct (first_pos _ t) eqn:Q2; [discriminate|]. auto. }
      apply (G _ EF (lb, b)); auto. eapply nth_error_In; eauto.
  - destruct (C19_esd_entire cst std upper (map snd data) (map fst data) maxo crit OD LV LC) as (n & EE & NM & N1 & N2).
    rewrite EE in H. injection H as <-. split.
    + intros I. pose proof I as I2. apply firstn_incl in I2. apply In_nth_error in I2. destruct I2 as [j Hj].
      apply (in_firstn_pos _ n j) in I; auto. exists j, (n - 1). repeat split; auto; try lia. apply N2. lia.
    + intros (j & k & J & JK & KM & SG). apply (in_firstn_pos _ n j); auto. specialize (N1 k KM SG). lia.
Qed.

Variable ppf : Qc -> Z -> Qc.
Variable sqrt : Qc -> Qc.
Variable table : list Qc.
Variable sort : list (nat * Qc) -> list (nat * Qc).
Hypothesis SU : sorts_up sort.
Notation crit alpha := (get_critical ppf sqrt table alpha).

Lemma newest_label : forall data, 4 <= length data -> fold_left Nat.max (map fst (sorted_series sort data)) 0 = length data - 1.
Proof.
  intros data L4. pose proof (sorted_labels sort SU data) as P. destruct (fold_max_ge (map fst (sorted_series sort data)) 0) as [_ G].
  assert (A : length data - 1 <= fold_left Nat.max (map fst (sorted_series sort data)) 0).
  { apply G. apply (Permutation_in _ P). unfold range. apply in_seq. lia. }
  assert (B : forall l a, (forall x, In x l -> x <= length data - 1) -> a <= length data - 1 -> fold_left Nat.max l a <= length data - 1).
  { clear. induction l as [|y l IH]; intros a H HA; simpl; auto. apply IH; [intros; apply H; simpl; auto|]. specialize (H y (or_introl eq_refl)). lia. }
  apply Nat.le_antisymm; auto. apply B; [|lia]. intros x I. apply (Permutation_in _ (Permutation_sym P)) in I. unfold range in I. apply in_seq in I. lia.
Qed.

(** What the dynamic threshold test selects: in entire mode for every point, in
    last mode for the newest. *)
Lemma dt_member : forall data alpha ratio lm idx m lab, 4 <= length data -> (lm = true -> lab = length data - 1) ->
  dt_detect_anomaly cst std ppf sqrt table sort data alpha ratio lm = Ok (idx, m) ->
  let sorted := sorted_series sort data in
  let maxo := dt_quota (length data) ratio in
  exists maj, get_verified_majority_value cst (map snd sorted) = Ok maj /\
    (In lab idx <-> exists upper : bool,
       before_significant (crit alpha (length (esd_data sorted maj upper)) maxo) (esd_data sorted maj upper) maxo upper lab \/
       In lab (zscore_detect cst std sorted maxo upper)).
Proof.
  intros data alpha ratio lm idx m lab L4 HL H sorted maxo.
  assert (LS : length sorted = length data) by (apply sorted_length; auto).
  destruct (majority_cases cst sorted (length data) LS L4) as (maj & EM & CM). exists maj. split; auto.
  assert (QM : maxo <= length data / 2 - 1) by (unfold maxo, dt_quota; lia).
  destruct (esd_on_sorted cst std ppf sqrt table sort SU data alpha maxo maj true lm L4 QM CM) as (eu & EU & NU & LU & IU).
  destruct (esd_on_sorted cst std ppf sqrt table sort SU data alpha maxo maj false lm L4 QM CM) as (el & EL & NL & LL & IL).
  fold sorted in EU, EL, IU, IL.
  pose proof (sorted_nodup sort SU data) as NS. fold sorted in NS.
  destruct (zscore_nodup cst std sorted maxo true NS) as [NZU _]. destruct (zscore_nodup cst std sorted maxo false NS) as [NZL _].
  pose proof (zscore_sub cst std sorted maxo true) as ZU. pose proof (zscore_sub cst std sorted maxo false) as ZL. rewrite <- firstn_map in ZU, ZL.
  pose proof (rank_within maxo (length data) _ _ _ NU NZU IU ZU) as RU. pose proof (rank_within maxo (length data) _ _ _ NL NZL IL ZL) as RL.
  unfold dt_detect_anomaly in H. cbv zeta in H. fold sorted in H. rewrite EM, bind_ok in H. fold maxo in H.
  unfold detect_tails in H. cbn [run_detectors] in H. rewrite EU, !bind_ok, EL, !bind_ok in H. injection H as <- _.
  assert (ME : forall upper e, esd_detect cst std (crit alpha) sorted maxo maj upper lm = Ok e -> In lab e <->
    before_significant (crit alpha (length (esd_data sorted maj upper)) maxo) (esd_data sorted maj upper) maxo upper lab).
  { intros upper e He. eapply (esd_member (crit alpha) sorted maxo maj upper lm e lab); auto.
    - intros k j L. rewrite get_critical_length; auto.
    - apply sorted_tail; auto.
    - lia.
    - rewrite LS. auto.
    - intros Q. unfold sorted. rewrite newest_label by auto. auto. }
  rewrite in_app_iff, filter_In, RU, RL. split.
  - intros [[I|I]|[[I|I] _]]; [exists true; left; apply (ME true eu EU)|exists true; right|exists false; left; apply (ME false el EL)|exists false; right]; auto.
  - intros [[|] [I|I]].
    + left. left. apply (ME true eu EU). auto.
    + left. right. auto.
    + destruct (mem_nat lab (rank_direction maxo (length data) [eu; zscore_detect cst std sorted maxo true])) eqn:B;
        [left; apply RU; apply mem_nat_in; auto|right; split; auto]. left. apply (ME false el EL). auto.
    + destruct (mem_nat lab (rank_direction maxo (length data) [eu; zscore_detect cst std sorted maxo true])) eqn:B;
        [left; apply RU; apply mem_nat_in; auto|right; split; auto].
Qed.

Lemma zscore_more : forall series m m' upper, m <= m' -> incl (zscore_detect cst std series m upper) (zscore_detect cst std series m' upper).
Proof.
  intros series m m' upper LE. unfold zscore_detect. cbv zeta. destruct (snd _ =? 0)%Qc; [apply incl_refl|].
  intros x H. apply in_map_iff in H. destruct H as (p & <- & H). apply filter_In in H. destruct H as [I T]. apply in_map. apply filter_In. split; auto.
  apply In_nth_error in I. destruct I as [k Hk]. rewrite nth_error_firstn in Hk. destruct (k <? m) eqn:E; [|discriminate]. apply Nat.ltb_lt in E.
  apply (nth_error_In _ k). rewrite nth_error_firstn. assert (T2 : (k <? m') = true) by (apply Nat.ltb_lt; lia). rewrite T2. auto.
Qed.
Lemma quota_more : forall n r r', (r <= r')%Qc -> dt_quota n r <= dt_quota n r'.
Proof.
  intros n r r' LE. unfold dt_quota. apply Nat.min_le_compat_r. apply Nat.max_le_compat_r.
  assert (A : (Qceiling (this (qn n * r)%Qc) <= Qceiling (this (qn n * r')%Qc))%Z).
  { apply Qceiling_resp_le. change (qn n * r <= qn n * r')%Qc. rewrite !(Qcmult_comm (qn n)). apply Qcmult_le_compat_r; auto. apply qn_nonneg. }
  lia.
Qed.
(** Critical values at a position do not depend on how many are asked for. *)
Lemma critical_prefix : forall alpha n m m' k, m <= m' -> m' <= n -> k < m -> nth k (crit alpha n m) 0%Qc = nth k (crit alpha n m') 0%Qc.
Proof.
  intros alpha n m m' k LE L2 LK. unfold get_critical. destruct (isclose _ _ && (n <=? length table)) eqn:B.
  - apply andb_true_iff in B. destruct B as [_ B]. apply Nat.leb_le in B. unfold slice. 
    assert (G : forall q, k < q -> nth k (firstn q (skipn (length table - n) table)) 0%Qc = nth k (skipn (length table - n) table) 0%Qc).
    { intros q LQ. destruct (nth_error (skipn (length table - n) table) k) as [x|] eqn:Q.
      - rewrite (nth_error_nth_d _ _ _ _ 0%Qc Q). apply nth_error_nth_d. rewrite nth_error_firstn. apply Nat.ltb_lt in LQ. rewrite LQ. auto.
      - apply nth_error_None in Q. rewrite !nth_overflow; auto. rewrite firstn_length. lia. }
    rewrite !G by lia. auto.
  - assert (G : forall q, k < q -> nth k (map (fun x => calculate_esd_values ppf sqrt x alpha n) (seq 1 q)) 0%Qc = calculate_esd_values ppf sqrt (1 + k) alpha n).
    { intros q LQ. apply nth_error_nth_d. rewrite nth_error_map. assert (E : nth_error (seq 1 q) k = Some (1 + k)); [|rewrite E; auto].
      rewrite (nth_error_nth' _ 0) by (rewrite seq_length; auto). rewrite seq_nth by auto. auto. }
    rewrite !G by lia. auto.
Qed.
(** Tests with a larger quota and lower critical values select more. *)
Lemma before_more : forall c c' data m m' upper lab, m <= m' -> (forall k, k < m -> (nth k c' 0 <= nth k c 0)%Qc) ->
  before_significant c data m upper lab -> before_significant c' data m' upper lab.
Proof.
  intros c c' data m m' upper lab LE LC (j & k & J & JK & KM & SG). exists j, k. repeat split; auto; try lia.
  eapply significant_weaker; [|exact SG]. auto.
Qed.
Lemma dt_more : forall data alpha alpha' ratio ratio' lm lm' idx m idx' m' lab, 4 <= length data ->
  (lm = true \/ lm' = true -> lab = length data - 1) -> (ratio <= ratio')%Qc ->
  (forall n k, k < n -> (nth k (crit alpha' n (k + 1)) 0 <= nth k (crit alpha n (k + 1)) 0)%Qc) ->
  dt_detect_anomaly cst std ppf sqrt table sort data alpha ratio lm = Ok (idx, m) ->
  dt_detect_anomaly cst std ppf sqrt table sort data alpha' ratio' lm' = Ok (idx', m') ->
  In lab idx -> In lab idx'.
Proof.
  intros data alpha alpha' ratio ratio' lm lm' idx m idx' m' lab L4 HL LR LA H H' I.
  destruct (dt_member data alpha ratio lm idx m lab L4) as (maj & EM & A); [intros; apply HL; auto|exact H|].
  destruct (dt_member data alpha' ratio' lm' idx' m' lab L4) as (maj' & EM' & A'); [intros; apply HL; auto|exact H'|].
  rewrite EM in EM'. injection EM' as <-. apply A'. apply A in I. destruct I as [upper I]. exists upper.
  pose proof (quota_more (length data) _ _ LR) as LQ. destruct I as [I|I]; [left|right; eapply zscore_more; eauto].
  revert I. apply before_more; auto. intros k LK.
  set (sorted := sorted_series sort data) in *. set (n := length (esd_data sorted maj upper)).
  assert (LS : length sorted = length data) by (apply sorted_length; auto).
  assert (LN : dt_quota (length data) ratio' <= n).
  { destruct (majority_cases cst sorted (length data) LS L4) as (mj & EM2 & CM). rewrite EM in EM2. injection EM2 as <-.
    destruct (esd_data_spec sorted maj upper) as (_ & _ & LD & _); auto; [|lia|].
    - apply (tail_ordered_ordered false). apply sorted_tail; auto.
    - fold n in LD. unfold dt_quota. rewrite LS in LD. lia. }
  rewrite <- (critical_prefix alpha' n (k + 1)) by lia. rewrite <- (critical_prefix alpha n (k + 1)) by lia. apply LA. lia.
Qed.
End Strict.
