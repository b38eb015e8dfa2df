(** Which points the seasonal test selects. *)
From Coq Require Import String List Arith ZArith QArith Qcanon Qround Lia Lqa Bool Sorted Permutation.
From Verif Require Import Base Num Sorting Kernel_model Kernel_spec Kernel_proofs Kernel_proofs2 Kernel_proofs3 Kernel_props
  FillUp_model FillUp_spec FillUp_props
  Helpers_model Helpers_proofs Helpers_proofs2 Helpers_props Margins_model SR_model Detect_model Detect_spec
  Detect_proofs Detect_proofs2 Detect_proofs3 Detect_proofs4 Strict_proofs.
Import ListNotations.
Open Scope nat_scope.

Lemma lookup_pair : forall L y r, NoDup (map fst L) -> In (y, r) L -> lookup L y = Some r.
Proof.
  induction L as [|[j q] t IH]; intros y r ND H; [destruct H|]. destruct H as [H|H]; cbn [lookup].
  - inversion H; subst. rewrite Nat.eqb_refl. auto.
  - inversion ND as [|? ? N1 N2]; subst. destruct (j =? y) eqn:E; auto. apply Nat.eqb_eq in E. subst j.
    exfalso. apply N1. change y with (fst (y, r)). apply in_map. auto.
Qed.
Lemma sorted_le : forall (l : list (nat * nat)), StronglySorted (fun a b => snd a <= snd b) l ->
  forall p q a b, nth_error l p = Some a -> nth_error l q = Some b -> q <= p -> snd b <= snd a.
Proof.
  induction l as [|h t IH]; intros ST p q a b Hp Hq LE; [destruct p; discriminate|].
  inversion ST as [|? ? S1 S2]; subst. destruct q as [|q].
  - simpl in Hq. inversion Hq; subst h. destruct p as [|p]; [simpl in Hp; inversion Hp; auto|].
    simpl in Hp. apply nth_error_In in Hp. rewrite Forall_forall in S2. apply (S2 _ Hp).
  - destruct p as [|p]; [lia|]. simpl in Hp, Hq. apply (IH S1 p q); auto. lia.
Qed.
Lemma pos_some : forall s x k, pos x s = Some k -> nth_error s k = Some x.
Proof.
  induction s as [|y t IH]; intros x k H; unfold pos in *; cbn [first_pos] in H; [discriminate|].
  destruct (x =? y) eqn:E; [apply Nat.eqb_eq in E; inversion H; subst; auto|]. destruct (first_pos (Nat.eqb x) t) eqn:E2; [|discriminate].
  simpl in H. inversion H. simpl. auto.
Qed.
Lemma pos_in : forall s x, In x s -> exists k, pos x s = Some k.
Proof. intros s x I. destruct (pos x s) eqn:E; eauto. apply pos_none in E. contradiction. Qed.

(** Three selections, the first two out of the same [maxo] labels: these are
    kept, and the third fills the places left, in its order. *)
Lemma rank_three : forall maxo n L e z r, NoDup e -> NoDup z -> NoDup r -> incl e (firstn maxo L) -> incl z (firstn maxo L) ->
  length r <= maxo -> 2 * maxo <= n ->
  forall x, In x (rank_direction maxo n [e; z; r]) <->
    In x e \/ In x z \/ exists j, nth_error r j = Some x /\ length (nodup Nat.eq_dec (e ++ z ++ firstn j r)) < maxo.
Proof.
  intros maxo n F e z r NE NZ NR IE IZ LR HN x. unfold rank_direction. rewrite firstn_min_length.
  assert (LE : length e <= maxo). { apply (NoDup_incl_length NE) in IE. rewrite firstn_length in IE. lia. }
  assert (LZ : length z <= maxo). { apply (NoDup_incl_length NZ) in IZ. rewrite firstn_length in IZ. lia. }
  set (L := rank_all n 0 [e; z; r] []).
  assert (NDL : NoDup (map fst L)) by (apply rank_all_nodup; constructor).
  assert (KV : forall y, lookup L y =
    match pos y e, pos y z, pos y r with
    | Some a, Some b, Some c => Some (a + b + c) | Some a, Some b, None => Some (a + b)
    | Some a, None, Some c => Some (a + c) | Some a, None, None => Some a
    | None, Some b, Some c => Some (b + n + c) | None, Some b, None => Some (b + n)
    | None, None, Some c => Some (c + 2 * n) | None, None, None => None end).
  { intros y. unfold L. cbn [rank_all]. rewrite !rank_selection_lookup by auto. cbn [lookup].
    destruct (pos y e), (pos y z), (pos y r); auto; f_equal; lia. }
  assert (IN : forall s y, In y s <-> pos y s <> None).
  { intros s y. pose proof (pos_none s y) as P. destruct (pos y s) eqn:E.
    - split; [discriminate|]. intros _. destruct (in_dec Nat.eq_dec y s) as [|Q]; auto. apply P in Q. discriminate.
    - split; [|intros Q; destruct Q; auto]. intros I. exfalso. apply (proj1 P); auto. }
  assert (SM : forall y k, In (y, k) L -> ((In y e \/ In y z) /\ k < 2 * n) \/ (~ In y e /\ ~ In y z /\ exists c, nth_error r c = Some y /\ k = c + 2 * n)).
  { intros y k H. apply lookup_pair in H; auto. rewrite KV in H. rewrite !IN.
    destruct (pos y e) as [a|] eqn:Ea; destruct (pos y z) as [b|] eqn:Eb; destruct (pos y r) as [c|] eqn:Ec; inversion H; subst;
      repeat match goal with Q : pos _ _ = Some _ |- _ => let T := fresh "T" in pose proof (pos_lt _ _ _ Q) as T; let U := fresh "U" in pose proof (pos_some _ _ _ Q) as U; clear Q end;
      try (left; split; [first [left; discriminate|right; discriminate]|lia]).
    right. split; [tauto|]. split; [tauto|]. exists c. auto. }
  set (SO := rank_sort L). set (K := map fst SO).
  assert (PM : Permutation L SO) by apply rank_sort_perm.
  assert (NK : NoDup K) by (apply (Permutation_NoDup (Permutation_map fst PM)); auto).
  assert (KEY : forall y, In y K <-> In y e \/ In y z \/ In y r).
  { intros y. unfold K. split; intros H.
    - apply (Permutation_in _ (Permutation_sym (Permutation_map fst PM))) in H. unfold L in H. apply rank_all_keys in H; [|intros s [<-|[<-|[<-|[]]]]; auto].
      destruct H as [[]|(s & [<-|[<-|[<-|[]]]] & I)]; auto.
    - apply (Permutation_in _ (Permutation_map fst PM)). unfold L. apply rank_all_keys; [intros s [<-|[<-|[<-|[]]]]; auto|]. right.
      destruct H as [H|[H|H]]; [exists e|exists z|exists r]; simpl; auto. }
  assert (AT : forall p y, nth_error K p = Some y -> exists k, nth_error SO p = Some (y, k) /\ In (y, k) L).
  { intros p y H. unfold K in H. rewrite nth_error_map in H. destruct (nth_error SO p) as [[a k]|] eqn:E; [|discriminate]. simpl in H. injection H as ->.
    exists k. split; auto. apply (Permutation_in _ (Permutation_sym PM)). eapply nth_error_In; eauto. }
  assert (KEPT : forall p y, nth_error K p = Some y -> (In y (firstn maxo K) <-> p < maxo)) by (intros; apply in_firstn_pos; auto).
  assert (UNI : forall p y, nth_error K p = Some y -> In y e \/ In y z -> p < maxo).
  { intros p y H I. assert (INC : incl (firstn (S p) K) (firstn maxo F)).
    { intros w Hw. apply In_nth_error in Hw. destruct Hw as [q Hq]. rewrite nth_error_firstn in Hq. destruct (q <? S p) eqn:EQ; [|discriminate]. apply Nat.ltb_lt in EQ.
      destruct (AT p y H) as (ky & Ey & Iy). destruct (AT q w Hq) as (kw & Ew & Iw).
      assert (OR : kw <= ky) by (apply (sorted_le SO (rank_sort_sorted L) p q (y, ky) (w, kw)); auto; lia).
      destruct (SM _ _ Iy) as [[_ B]|(N1 & N2 & _)]; [|exfalso; tauto].
      destruct (SM _ _ Iw) as [[[A|A] _]|(_ & _ & c & _ & ->)]; [auto|auto|lia]. }
    apply NoDup_incl_length in INC; [|apply firstn_nodup; auto]. rewrite !firstn_length in INC.
    apply nth_error_lt in H. lia. }
  assert (THIRD : forall p y j, nth_error K p = Some y -> ~ In y e -> ~ In y z -> nth_error r j = Some y -> p = length (nodup Nat.eq_dec (e ++ z ++ firstn j r))).
  { intros p y j H N1 N2 Hj. destruct (AT p y H) as (ky & Ey & Iy).
    assert (KY : ky = j + 2 * n).
    { destruct (SM _ _ Iy) as [[[A|A] _]|(_ & _ & c & Hc & ->)]; [tauto|tauto|]. f_equal. apply (proj1 (NoDup_nth_error r) NR); [eapply nth_error_lt; eauto|congruence]. }
    assert (SAME : forall w, In w (firstn p K) <-> In w (e ++ z ++ firstn j r)).
    { intros w. rewrite !in_app_iff. split; intros Hw.
      - apply In_nth_error in Hw. destruct Hw as [q Hq]. rewrite nth_error_firstn in Hq. destruct (q <? p) eqn:EQ; [|discriminate]. apply Nat.ltb_lt in EQ.
        destruct (AT q w Hq) as (kw & Ew & Iw).
        assert (OR : kw <= ky) by (apply (sorted_le SO (rank_sort_sorted L) p q (y, ky) (w, kw)); auto; lia).
        destruct (SM _ _ Iw) as [[[A|A] _]|(_ & _ & c & Hc & ->)]; [auto|auto|]. right. right.
        apply (in_firstn_pos r j c); auto. assert (c <> j); [|lia]. intros ->. assert (w = y) by congruence. subst w.
        assert (q = p); [|lia]. apply (proj1 (NoDup_nth_error K) NK); [eapply nth_error_lt; eauto|congruence].
      - assert (IK : In w K). { apply KEY. destruct Hw as [Hw|[Hw|Hw]]; auto. right. right. eapply firstn_incl; eauto. }
        apply In_nth_error in IK. destruct IK as [q Hq]. apply (in_firstn_pos K p q); auto.
        destruct (AT q w Hq) as (kw & Ew & Iw).
        assert (OR : kw < ky).
        { destruct (SM _ _ Iw) as [[_ B]|(M1 & M2 & c & Hc & ->)]; [lia|]. destruct Hw as [Hw|[Hw|Hw]]; [tauto|tauto|].
          apply (in_firstn_pos r j c) in Hw; auto. lia. }
        destruct (le_lt_dec p q) as [PQ|]; auto. exfalso.
        pose proof (sorted_le SO (rank_sort_sorted L) q p (w, kw) (y, ky) Ew Ey PQ) as X. simpl in X. lia. }
    assert (PP : Permutation (firstn p K) (nodup Nat.eq_dec (e ++ z ++ firstn j r))).
    { apply NoDup_Permutation; [apply firstn_nodup; auto|apply NoDup_nodup|]. intros w. rewrite nodup_In. apply SAME. }
    apply Permutation_length in PP. rewrite <- PP, firstn_length. apply nth_error_lt in H. lia. }
  split.
  - intros H. pose proof (firstn_incl _ _ _ _ H) as IK. apply In_nth_error in IK. destruct IK as [p Hp]. apply (KEPT p x Hp) in H.
    destruct (in_dec Nat.eq_dec x e) as [A|A]; auto. destruct (in_dec Nat.eq_dec x z) as [B|B]; auto. right. right.
    assert (C : In x r). { assert (IK : In x K) by (eapply nth_error_In; eauto). apply KEY in IK. tauto. }
    apply In_nth_error in C. destruct C as [j Hj]. exists j. split; auto. rewrite <- (THIRD p x j); auto.
  - intros H. assert (IK : In x K). { apply KEY. destruct H as [H|[H|(j & Hj & _)]]; auto. right. right. eapply nth_error_In; eauto. }
    apply In_nth_error in IK. destruct IK as [p Hp]. apply (KEPT p x Hp).
    destruct (in_dec Nat.eq_dec x e) as [A|A]; [eauto|]. destruct (in_dec Nat.eq_dec x z) as [B|B]; [eauto|].
    destruct H as [H|[H|(j & Hj & LT)]]; [tauto|tauto|]. rewrite (THIRD p x j); auto.
Qed.

Section Strict2.
Variable cst : Qc.
Variable std : list Qc -> Qc.

(** The selections of both modes are prefixes of the same list; the one of last
    mode is empty or has the newest label. *)
Lemma esd_prefix : forall critical series maxo majority upper lm e,
  (forall n m, m <= n -> m <= length (critical n m)) ->
  tail_ordered false (map snd series) -> NoDup (map fst series) -> 4 <= length series -> maxo <= length series / 2 - 1 ->
  majority = None \/ majority = option_map snd (nth_error series ((length series - 1) / 2)) ->
  esd_detect cst std critical series maxo majority upper lm = Ok e ->
  let data := esd_data series majority upper in
  NoDup (map fst data) /\ (exists k, e = firstn k (map fst data)) /\
  (lm = true -> e = [] \/ In (fold_left Nat.max (map fst series) 0) e).
Proof.
  intros critical series maxo majority upper lm e HC HO ND L4 HM HJ H data.
  assert (HS : qsorted (map snd series)) by (apply (tail_ordered_ordered false); auto).
  destruct (esd_data_spec series majority upper HS L4 HJ) as (E & OD & LD & (k0 & EK) & LN). fold data in E, OD, LD, EK, LN.
  unfold esd_detect in H. rewrite E, bind_ok in H.
  assert (CE : match majority with None => critical (length series) maxo | Some _ => critical (length data) maxo end = critical (length data) maxo).
  { destruct majority; auto. rewrite LN; auto. }
  cbv zeta in H. rewrite CE in H. set (crit := critical (length data) maxo) in *.
  pose proof (Nat.div_mod (length series) 2 ltac:(lia)) as DM.
  assert (LC : maxo <= length crit) by (apply HC; lia).
  apply tail_ordered_ordered in OD.
  assert (LV : maxo <= length (map snd data)) by (rewrite map_length; lia).
  assert (NDD : NoDup (map fst data)).
  { rewrite EK, map_firstn. apply firstn_nodup. destruct upper; auto. rewrite map_rev. apply NoDup_rev. auto. }
  split; auto. destruct lm.
  - set (lb := fold_left Nat.max (map fst series) 0) in *.
    destruct (first_pos (fun p => fst p =? lb) data) as [li|] eqn:EF.
    + destruct (first_pos_spec _ _ _ _ EF) as ([l0 v] & Hx & Px). simpl in Px. apply Nat.eqb_eq in Px. subst l0.
      assert (HN : nth_error (map fst data) li = Some lb) by (rewrite nth_error_map, Hx; auto).
      destruct (C19_esd_last cst std upper (map snd data) (map fst data) maxo crit li OD LV LC) as (n & EE & C).
      rewrite EE in H. injection H as <-. split; [eauto|]. intros _. destruct C as [[-> _]|((C1 & C2) & _)]; [left; auto|right].
      apply (in_firstn_pos _ _ li); auto.
    + injection H as <-. split; [exists 0; auto|auto].
  - destruct (C19_esd_entire cst std upper (map snd data) (map fst data) maxo crit OD LV LC) as (n & EE & _).
    rewrite EE in H. injection H as <-. split; [eauto|discriminate].
Qed.

Variable ppf : Qc -> Z -> Qc.
Variable sqrt : Qc -> Qc.
Variable table : list Qc.
Variable sort : list (nat * Qc) -> list (nat * Qc).
Hypothesis SU : sorts_up sort.
Notation crit alpha := (get_critical ppf sqrt table alpha).
Notation esd alpha data maxo maj upper lm := (esd_detect cst std (crit alpha) (sorted_series sort data) maxo maj upper lm).
Notation zsc data maxo upper := (zscore_detect cst std (sorted_series sort data) maxo upper).

(** The seasonal test: per tail the points of the two tests on the data, then
    those of the test on the remainder while there is room. *)
Lemma ts_member : forall data rem alpha ratio lm idx m, 4 <= length data -> length rem = length data ->
  ts_detect_anomaly cst std ppf sqrt table sort data rem alpha ratio lm = Ok (idx, m) ->
  let maxo := dt_quota (length data) ratio in
  exists maj majr, get_verified_majority_value cst (map snd (sorted_series sort data)) = Ok maj /\
    get_verified_majority_value cst (map snd (sorted_series sort rem)) = Ok majr /\
    exists E Rm, (forall upper, esd alpha data maxo maj upper lm = Ok (E upper)) /\ (forall upper, esd alpha rem maxo majr upper lm = Ok (Rm upper)) /\
    forall lab, In lab idx <-> exists upper : bool, In lab (E upper) \/ In lab (zsc data maxo upper) \/
      exists j, nth_error (Rm upper) j = Some lab /\ length (nodup Nat.eq_dec (E upper ++ zsc data maxo upper ++ firstn j (Rm upper))) < maxo.
Proof.
  intros data rem alpha ratio lm idx m L4 LR H maxo. unfold ts_detect_anomaly in H. cbv zeta in H.
  set (sorted := sorted_series sort data) in *. set (sr := sorted_series sort rem) in *. fold maxo in H.
  assert (LS : length sorted = length data) by (apply sorted_length; auto).
  assert (LSR : length sr = length rem) by (apply sorted_length; auto).
  destruct (majority_cases cst sorted (length data) LS L4) as (maj & EM & CM). rewrite EM, bind_ok in H.
  destruct (majority_cases cst sr (length rem) LSR ltac:(lia)) as (majr & EMR & CMR). rewrite EMR, bind_ok in H.
  exists maj, majr. do 2 (split; [auto|]).
  assert (QM : maxo <= length data / 2 - 1) by (unfold maxo, dt_quota; lia).
  assert (QR : maxo <= length rem / 2 - 1) by (rewrite LR; auto).
  destruct (esd_on_sorted cst std ppf sqrt table sort SU data alpha maxo maj true lm L4 QM CM) as (eu & EU & NU & _ & IU).
  destruct (esd_on_sorted cst std ppf sqrt table sort SU data alpha maxo maj false lm L4 QM CM) as (el & EL & NL & _ & IL).
  destruct (esd_on_sorted cst std ppf sqrt table sort SU rem alpha maxo majr true lm ltac:(lia) QR CMR) as (ru & RU & NRU & LRU & _).
  destruct (esd_on_sorted cst std ppf sqrt table sort SU rem alpha maxo majr false lm ltac:(lia) QR CMR) as (rl & RL & NRL & LRL & _).
  fold sorted in EU, EL, IU, IL. fold sr in RU, RL.
  exists (fun b : bool => if b then eu else el), (fun b : bool => if b then ru else rl).
  split; [intros [|]; auto|]. split; [intros [|]; auto|].
  pose proof (sorted_nodup sort SU data) as NS. fold sorted in NS.
  destruct (zscore_nodup cst std sorted maxo true NS) as [NZU _]. destruct (zscore_nodup cst std sorted maxo false NS) as [NZL _].
  pose proof (zscore_sub cst std sorted maxo true) as ZU. pose proof (zscore_sub cst std sorted maxo false) as ZL. rewrite <- firstn_map in ZU, ZL.
  pose proof (Nat.div_mod (length data) 2 ltac:(lia)) as DM.
  assert (H2 : 2 * maxo <= length data) by lia.
  pose proof (rank_three maxo (length data) _ _ _ _ NU NZU NRU IU ZU LRU H2) as KU.
  pose proof (rank_three maxo (length data) _ _ _ _ NL NZL NRL IL ZL LRL H2) as KL.
  unfold detect_tails in H. cbn [run_detectors] in H. rewrite EU, RU in H. rewrite !bind_ok in H. rewrite EL, RL in H. rewrite !bind_ok in H.
  injection H as <- _. intros lab. rewrite in_app_iff, filter_In, KL. set (up := rank_direction maxo (length data) _) in *. split.
  - intros [I|[I _]]; [exists true; apply KU; auto|exists false; auto].
  - intros [[|] I]; [left; apply KU; auto|]. destruct (mem_nat lab up) eqn:B; [left; apply mem_nat_in; auto|right; auto].
Qed.

(** A point that the dynamic threshold test selects on the data. *)
Lemma ts_contains_dt : forall data rem alpha alpha' ratio ratio' lm lm' idx m idx' m' lab, 4 <= length data -> length rem = length data ->
  (lm = true \/ lm' = true -> lab = length data - 1) -> (ratio <= ratio')%Qc ->
  (forall n k, k < n -> (nth k (crit alpha' n (k + 1)) 0 <= nth k (crit alpha n (k + 1)) 0)%Qc) ->
  dt_detect_anomaly cst std ppf sqrt table sort data alpha ratio lm = Ok (idx, m) ->
  ts_detect_anomaly cst std ppf sqrt table sort data rem alpha' ratio' lm' = Ok (idx', m') ->
  In lab idx -> In lab idx'.
Proof.
  intros data rem alpha alpha' ratio ratio' lm lm' idx m idx' m' lab L4 LR HL LRa LA H H' I.
  destruct (dt_select cst std ppf sqrt table sort SU data alpha' ratio' lm' L4) as (mj0 & e0 & i0 & m0 & _ & _ & D' & _).
  assert (I0 : In lab i0) by (apply (dt_more cst std ppf sqrt table sort SU data alpha alpha' ratio ratio' lm lm' idx m i0 m0 lab L4 HL LRa LA H D' I)).
  destruct (ts_member data rem alpha' ratio' lm' idx' m' L4 LR H') as (maj & majr & EM & _ & E & Rm & HE & _ & M). apply M.
  destruct (dt_member cst std ppf sqrt table sort SU data alpha' ratio' lm' i0 m0 lab L4) as (maj' & EM' & A); [intros; apply HL; auto|exact D'|].
  rewrite EM in EM'. injection EM' as <-. apply A in I0. destruct I0 as [upper I0]. exists upper.
  set (sorted := sorted_series sort data) in *. assert (LS : length sorted = length data) by (apply sorted_length; auto).
  destruct (majority_cases cst sorted (length data) LS L4) as (mj & EM2 & CM). rewrite EM in EM2. injection EM2 as <-.
  destruct I0 as [I0|I0]; [left|right; left; auto].
  assert (GC : forall n m, m <= n -> m <= length (crit alpha' n m)) by (intros k j L; rewrite get_critical_length; auto).
  assert (TO : tail_ordered false (map snd sorted)) by (apply sorted_tail; auto).
  assert (NS : NoDup (map fst sorted)) by (apply sorted_nodup; auto).
  assert (QM : dt_quota (length data) ratio' <= length sorted / 2 - 1) by (rewrite LS; unfold dt_quota; lia).
  assert (L4' : 4 <= length sorted) by lia.
  assert (HN : lm' = true -> lab = fold_left Nat.max (map fst sorted) 0) by (intros Q; unfold sorted; rewrite newest_label by auto; auto).
  apply (esd_member cst std (crit alpha') sorted _ maj upper lm' (E upper) lab GC TO NS L4' QM CM HN (HE upper)). exact I0.
Qed.

Lemma nodup_incl_length : forall (a b : list nat), incl a b -> length (nodup Nat.eq_dec a) <= length (nodup Nat.eq_dec b).
Proof. intros a b H. apply NoDup_incl_length; [apply NoDup_nodup|]. intros x I. apply nodup_In. apply nodup_In in I. auto. Qed.

(** The newest point: what the whole-series run selects, the latest-point run
    selects. *)
Lemma ts_newest : forall data rem alpha ratio idx m idx' m', 4 <= length data -> length rem = length data ->
  ts_detect_anomaly cst std ppf sqrt table sort data rem alpha ratio false = Ok (idx, m) ->
  ts_detect_anomaly cst std ppf sqrt table sort data rem alpha ratio true = Ok (idx', m') ->
  In (length data - 1) idx -> In (length data - 1) idx'.
Proof.
  intros data rem alpha ratio idx m idx' m' L4 LR H H' I.
  destruct (ts_member data rem alpha ratio false idx m L4 LR H) as (maj & majr & EM & EMR & E & Rm & HE & HR & M).
  destruct (ts_member data rem alpha ratio true idx' m' L4 LR H') as (maj' & majr' & EM' & EMR' & E' & Rm' & HE' & HR' & M').
  rewrite EM in EM'. injection EM' as <-. rewrite EMR in EMR'. injection EMR' as <-. apply M'. apply M in I. destruct I as [upper I]. exists upper.
  set (lab := length data - 1) in *. set (maxo := dt_quota (length data) ratio) in *.
  assert (G : forall d mj e e', length d = length data -> get_verified_majority_value cst (map snd (sorted_series sort d)) = Ok mj ->
    esd alpha d maxo mj upper false = Ok e -> esd alpha d maxo mj upper true = Ok e' ->
    (In lab e <-> In lab e') /\ (e' = [] \/ In lab e') /\ exists F k k', NoDup F /\ e = firstn k F /\ e' = firstn k' F).
  { intros d mj e e' LD EMD X X'. set (sorted := sorted_series sort d) in *. assert (LS : length sorted = length d) by (apply sorted_length; auto).
    destruct (majority_cases cst sorted (length d) LS ltac:(lia)) as (mj2 & EM2 & CM). rewrite EMD in EM2. injection EM2 as <-.
    assert (GC : forall n m, m <= n -> m <= length (crit alpha n m)) by (intros k j L; rewrite get_critical_length; auto).
    assert (TO : tail_ordered false (map snd sorted)) by (apply sorted_tail; auto).
    assert (NS : NoDup (map fst sorted)) by (apply sorted_nodup; auto).
    assert (QM : maxo <= length sorted / 2 - 1) by (rewrite LS, LD; unfold maxo, dt_quota; lia).
    assert (L4' : 4 <= length sorted) by lia.
    assert (NL : fold_left Nat.max (map fst sorted) 0 = lab) by (unfold sorted, lab; rewrite newest_label by (auto; lia); lia).
    pose proof (esd_member cst std (crit alpha) sorted maxo mj upper false e lab GC TO NS L4' QM CM ltac:(discriminate) X) as A.
    pose proof (esd_member cst std (crit alpha) sorted maxo mj upper true e' lab GC TO NS L4' QM CM ltac:(auto) X') as A'.
    destruct (esd_prefix (crit alpha) sorted maxo mj upper false e GC TO NS L4' QM CM X) as (ND & (k & P) & _).
    destruct (esd_prefix (crit alpha) sorted maxo mj upper true e' GC TO NS L4' QM CM X') as (_ & (k' & P') & Q).
    cbv zeta in A, A'. split; [rewrite A, A'; tauto|]. split; [rewrite NL in Q; auto|]. exists (map fst (esd_data sorted mj upper)), k, k'. auto. }
  destruct (G data maj (E upper) (E' upper) eq_refl EM (HE upper) (HE' upper)) as (EI & EL & _).
  destruct (G rem majr (Rm upper) (Rm' upper) LR EMR (HR upper) (HR' upper)) as (RI & _ & F & k & k' & NF & P & P').
  destruct (in_dec Nat.eq_dec lab (E' upper)) as [|NE]; auto.
  destruct I as [I|[I|(j & Hj & LT)]]; [tauto|auto|]. right. right.
  assert (I' : In lab (Rm' upper)) by (apply RI; eapply nth_error_In; eauto).
  apply In_nth_error in I'. destruct I' as [j' Hj']. exists j'. split; auto.
  assert (j' = j).
  { rewrite P in Hj. rewrite P' in Hj'. rewrite nth_error_firstn in Hj, Hj'. destruct (j <? k); [|discriminate]. destruct (j' <? k'); [|discriminate].
    apply (proj1 (NoDup_nth_error F) NF); [eapply nth_error_lt; eauto|congruence]. }
  subst j'. destruct EL as [->|]; [|contradiction].
  eapply Nat.le_lt_trans; [|exact LT]. apply nodup_incl_length. simpl. intros x Hx. apply in_app_iff. right. apply in_app_iff in Hx. apply in_app_iff.
  destruct Hx as [|Hx]; auto. right.
  assert (JK : j < k) by (rewrite P in Hj; apply nth_error_lt in Hj; rewrite firstn_length in Hj; lia).
  assert (JK' : j < k') by (rewrite P' in Hj'; apply nth_error_lt in Hj'; rewrite firstn_length in Hj'; lia).
  rewrite P. rewrite P' in Hx. rewrite firstn_firstn in *. rewrite Nat.min_l in * by lia. auto.
Qed.
End Strict2.
