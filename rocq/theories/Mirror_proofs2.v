(** Turning a series upside down: the order, the majority value, the selections. *)
From Coq Require Import String List Arith ZArith QArith Qcanon Qround Lia Lqa Bool Sorted Permutation.
From Verif Require Import Base Num Sorting Kernel_model Kernel_spec Kernel_proofs FillUp_model Helpers_model Helpers_spec Margins_model SR_model SR_proofs3 Detect_model Detect_spec
  Detect_proofs Detect_proofs2 Detect_proofs3 Detect_proofs4 Period_proofs3 Const_spec Const_proofs Units_spec Units_proofs Units_proofs2 Mirror_spec Mirror_proofs.
Import ListNotations.
Open Scope nat_scope.

(** * The order *)
Lemma strong_forall : forall (R : nat * Qc -> nat * Qc -> Prop) a l x, StronglySorted R (a :: l) -> In x l -> R a x.
Proof. intros R a l x S I. inversion S as [|? ? _ F]; subst. rewrite Forall_forall in F. auto. Qed.
Lemma sorted_pairs_unique : forall l1 l2 : list (nat * Qc), StronglySorted (fun a b => (snd a <= snd b)%Qc) l1 -> StronglySorted (fun a b => (snd a <= snd b)%Qc) l2 ->
  Permutation l1 l2 -> NoDup (map snd l1) -> l1 = l2.
Proof.
  induction l1 as [|a t1 IH]; intros l2 S1 S2 P ND; [apply Permutation_nil in P; auto|].
  destruct l2 as [|b t2]; [symmetry in P; apply Permutation_nil in P; discriminate|].
  assert (E : a = b).
  { assert (Ia : In a (b :: t2)) by (eapply Permutation_in; [exact P|left; auto]).
    assert (Ib : In b (a :: t1)) by (eapply Permutation_in; [symmetry; exact P|left; auto]).
    destruct Ia as [->|Ia]; auto. destruct Ib as [->|Ib]; auto. exfalso.
    pose proof (strong_forall _ _ _ _ S1 Ib). pose proof (strong_forall _ _ _ _ S2 Ia). simpl in *.
    assert (EQ : snd a = snd b) by (apply Qcle_antisym; auto). inversion ND as [|? ? NI _]; subst. apply NI. rewrite EQ. apply in_map. auto. }
  subst b. f_equal. inversion S1; inversion S2; inversion ND; subst. apply IH; auto. apply Permutation_cons_inv in P. auto.
Qed.
Lemma combine_mir : forall c (ix : list nat) l, combine ix (mir c l) = mir_pairs c (combine ix l).
Proof.
  intros c ix l. rewrite mir_map. unfold mir_pairs. revert l. induction ix as [|i ix IH]; intros [|x l]; simpl; auto. f_equal. apply IH.
Qed.
Lemma rev_sorted : forall (R : nat * Qc -> nat * Qc -> Prop) l, StronglySorted R l -> StronglySorted (fun a b => R b a) (rev l).
Proof.
  intros R l S. induction S as [|a l S IH F]; simpl; [constructor|].
  assert (G : forall u, StronglySorted (fun a b => R b a) u -> (forall x, In x u -> R a x) -> StronglySorted (fun a b => R b a) (u ++ [a])).
  { induction u as [|x u IHu]; intros SU H; simpl; [repeat constructor|]. inversion SU as [|? ? SU' FU]; subst. constructor.
    - apply IHu; auto. intros y Y. apply H. right; auto.
    - rewrite Forall_forall in *. intros y Y. apply in_app_iff in Y. destruct Y as [Y|[<-|[]]]; auto. apply H. left; auto. }
  apply G; auto. intros x I. rewrite Forall_forall in F. apply F. apply in_rev. auto.
Qed.
Lemma strong_map : forall (R T : nat * Qc -> nat * Qc -> Prop) f l, (forall a b, R a b -> T (f a) (f b)) -> StronglySorted R l -> StronglySorted T (map f l).
Proof.
  intros R T f l H S. induction S as [|a l S IH F]; simpl; constructor; auto. rewrite Forall_forall in *. intros x I. apply in_map_iff in I.
  destruct I as (y & <- & I). auto.
Qed.
Lemma NoDup_map_inj : forall A B (f : A -> B) l, (forall x y, f x = f y -> x = y) -> NoDup l -> NoDup (map f l).
Proof.
  intros A B f l I N. induction N as [|x l NI N IH]; simpl; constructor; auto. intros X. apply in_map_iff in X. destruct X as (y & E & Y).
  apply I in E. subst. auto.
Qed.
Lemma mir_inj : forall c x y : Qc, (c - x = c - y)%Qc -> x = y.
Proof. intros c x y E. qlra. Qed.
Lemma distinct_opposite : forall sort l, sorts_up sort -> NoDup l -> opposite_order sort l.
Proof.
  intros sort l SU ND c. rewrite combine_mir. destruct (SU (mir_pairs c (combine (range (length l)) l))) as [P1 S1].
  destruct (SU (combine (range (length l)) l)) as [P2 S2]. fold (mir_pairs c (sort (combine (range (length l)) l))).
  assert (EL : map snd (combine (range (length l)) l) = l) by apply map_snd_combine.
  apply sorted_pairs_unique; auto.
  - unfold mir_pairs. apply (rev_sorted (fun a b : nat * Qc => (snd b <= snd a)%Qc)). eapply strong_map; [|exact S2]. intros a b H. simpl in *. qlra.
  - rewrite <- P1. rewrite <- Permutation_rev. apply Permutation_map. auto.
  - eapply Permutation_NoDup; [apply Permutation_map; exact P1|]. rewrite mir_pairs_snd, EL, mir_map. apply NoDup_map_inj; auto. apply mir_inj.
Qed.

(** * The majority value *)
Lemma copies_perm : forall m l l', Permutation l l' -> copies m l = copies m l'.
Proof. intros m l l' P. unfold copies. induction P; simpl; auto; repeat destruct (Qceqb _ _); simpl; auto; congruence. Qed.
Lemma copies_app : forall m a b, copies m (a ++ b) = copies m a + copies m b.
Proof. intros. unfold copies. rewrite filter_app, app_length. auto. Qed.
Lemma copies_none : forall m l, (forall x, In x l -> x <> m) -> copies m l = 0.
Proof.
  intros m l H. unfold copies. induction l as [|x l IH]; simpl; auto. destruct (Qceqb x m) eqn:E; [|apply IH; intros; apply H; right; auto].
  apply Qceqb_eq in E. exfalso. apply (H x); simpl; auto.
Qed.
Lemma copies_le : forall m l, copies m l <= length l.
Proof. intros. unfold copies. apply filter_len. Qed.
Lemma in_nth_firstn : forall A (l : list A) n x, In x (firstn n l) -> exists k, k < n /\ nth_error l k = Some x.
Proof.
  intros A l n x I. apply In_nth_error in I. destruct I as [k Hk]. rewrite nth_error_firstn in Hk. destruct (k <? n) eqn:E; [|discriminate].
  apply Nat.ltb_lt in E. eauto.
Qed.
Lemma in_nth_skipn : forall A (l : list A) n x, In x (skipn n l) -> exists k, n <= k /\ nth_error l k = Some x.
Proof.
  intros A l n x I. apply In_nth_error in I. destruct I as [k Hk]. exists (n + k). split; [lia|]. rewrite <- Hk. clear Hk. revert l.
  induction n as [|n IH]; intros [|y l]; simpl; auto. destruct k; auto.
Qed.
Lemma middle_copies : forall s m i, qsorted s -> length s < 2 * copies m s -> i = (length s - 1) / 2 \/ i = length s / 2 -> nth_error s i = Some m.
Proof.
  intros s m i QS C HI. assert (L : 0 < length s) by (pose proof (copies_le m s); lia).
  pose proof (Nat.div_mod (length s - 1) 2 ltac:(lia)). pose proof (Nat.div_mod (length s) 2 ltac:(lia)).
  pose proof (Nat.mod_upper_bound (length s - 1) 2 ltac:(lia)). pose proof (Nat.mod_upper_bound (length s) 2 ltac:(lia)).
  assert (B : length s <= 2 * i + 2 /\ 2 * i <= length s /\ i < length s) by (destruct HI; subst i; lia). destruct B as (B1 & B2 & B3).
  destruct (nth_error_ex _ s i B3) as [x Hx]. rewrite Hx. f_equal. destruct (Qc_eq_dec x m) as [E|NE]; auto. exfalso.
  destruct (Qclt_le_dec' x m) as [LT|GE].
  - assert (Z : copies m (firstn (S i) s) = 0).
    { apply copies_none. intros y I E. subst y. apply in_nth_firstn in I. destruct I as (k & Hk & Ek).
      pose proof (qsorted_nth s k i m x QS ltac:(lia) Ek Hx). qlra. }
    pose proof (copies_app m (firstn (S i) s) (skipn (S i) s)) as A. rewrite firstn_skipn in A. pose proof (copies_le m (skipn (S i) s)) as B.
    rewrite skipn_length in B. lia.
  - assert (LT : (m < x)%Qc) by (apply Qcle_lt_or_eq in GE; destruct GE; auto; congruence).
    assert (Z : copies m (skipn i s) = 0).
    { apply copies_none. intros y I E. subst y. apply in_nth_skipn in I. destruct I as (k & Hk & Ek).
      pose proof (qsorted_nth s i k x m QS Hk Hx Ek). qlra. }
    pose proof (copies_app m (firstn i s) (skipn i s)) as A. rewrite firstn_skipn in A. pose proof (copies_le m (firstn i s)) as B.
    rewrite firstn_length in B. lia.
Qed.

Lemma isclose_refl : forall c, isclose c c = true.
Proof.
  intros c. unfold isclose. apply Qcleb_le.
  replace (c - c)%Qc with 0%Qc by ring. pose proof (Qcabs_nonneg c).
  assert (0 <= Q2Qc (1 # 100000) * Qcabs c)%Qc by (assert (0 <= Q2Qc (1 # 100000))%Qc by (vm_compute; discriminate); qnra).
  assert (0 <= Q2Qc (1 # 100000000))%Qc by (vm_compute; discriminate).
  replace (Qcabs 0) with 0%Qc by (apply Qc_is_canon; reflexivity). qlra.
Qed.
Lemma isclose_zero : forall x, isclose x 0%Qc = true -> (Qcabs x <= Q2Qc (1 # 100000000))%Qc.
Proof.
  intros x H. unfold isclose in H. apply Qcleb_le in H. replace (x - 0)%Qc with x in H by ring.
  replace (Qcabs 0) with 0%Qc in H by (apply Qc_is_canon; reflexivity). qlra.
Qed.
(** What [settled] gives for the series the tests see. *)
Definition settled_at (cst c : Qc) (z : list Qc) : Prop :=
  (Q2Qc (1 # 100000000) < Qcabs (mad z / cst))%Qc \/
  exists m, length z < 2 * copies m z /\ ((m = qmin_list z \/ m = qmax_list z) \/
    (isclose m (qmin_list z) = false /\ isclose m (qmax_list z) = false /\
     isclose (c - m)%Qc (c - qmin_list z)%Qc = false /\ isclose (c - m)%Qc (c - qmax_list z)%Qc = false)).

Lemma sorted_first : forall s, s <> [] -> qsorted s -> nth_error s 0 = Some (qmin_list s).
Proof.
  intros s NE QS. destruct s as [|x t] eqn:ES; [congruence|]. rewrite <- ES in *. assert (E0 : nth_error s 0 = Some x) by (subst; auto).
  rewrite E0. f_equal. apply Qcle_antisym.
  - pose proof (qmin_list_in s NE) as I. apply In_nth_error in I. destruct I as [k Hk]. apply (qsorted_nth s 0 k); auto. lia.
  - apply qmin_list_le. eapply nth_error_In; eauto.
Qed.
Lemma sorted_last : forall s, s <> [] -> qsorted s -> nth_error s (length s - 1) = Some (qmax_list s).
Proof.
  intros s NE QS. assert (L : length s - 1 < length s) by (destruct s; [congruence|simpl; lia]). destruct (nth_error_ex _ s _ L) as [x Hx].
  rewrite Hx. f_equal. apply Qcle_antisym.
  - apply qmax_list_ge. eapply nth_error_In; eauto.
  - pose proof (qmax_list_in s NE) as I. apply In_nth_error in I. destruct I as [k Hk]. apply (qsorted_nth s k (length s - 1)); auto.
    apply nth_error_lt in Hk. lia.
Qed.
Lemma min_perm : forall s z, s <> [] -> Permutation z s -> qmin_list s = qmin_list z.
Proof.
  intros s z NE P. assert (NZ : z <> []) by (intros X; subst z; apply Permutation_nil in P; auto). apply Qcle_antisym.
  - apply qmin_list_le. eapply Permutation_in; [exact P|]. apply qmin_list_in; auto.
  - apply qmin_list_le. eapply Permutation_in; [symmetry; exact P|]. apply qmin_list_in; auto.
Qed.
Lemma max_perm : forall s z, s <> [] -> Permutation z s -> qmax_list s = qmax_list z.
Proof.
  intros s z NE P. assert (NZ : z <> []) by (intros X; subst z; apply Permutation_nil in P; auto). apply Qcle_antisym.
  - apply qmax_list_ge. eapply Permutation_in; [symmetry; exact P|]. apply qmax_list_in; auto.
  - apply qmax_list_ge. eapply Permutation_in; [exact P|]. apply qmax_list_in; auto.
Qed.
Lemma mad_perm : forall s z, Permutation z s -> mad s = mad z.
Proof. intros s z P. unfold mad. rewrite (qmedian_perm z s P). apply qmedian_perm. apply Permutation_map. symmetry. auto. Qed.
Lemma nth_error_rev' : forall A (l : list A) i, i < length l -> nth_error (rev l) i = nth_error l (length l - S i).
Proof.
  intros A l i H. destruct l as [|d l'] eqn:E; [simpl in H; lia|]. rewrite <- E in *.
  rewrite (nth_error_nth' (rev l) d) by (rewrite rev_length; auto). rewrite (nth_error_nth' l d) by lia. f_equal. apply rev_nth; auto.
Qed.
Lemma nth_rev_mir : forall c s i, i < length s -> nth_error (rev (mir c s)) i = option_map (fun x => c - x)%Qc (nth_error s (length s - 1 - i)).
Proof.
  intros c s i H. rewrite nth_error_rev' by (rewrite unit_length; auto). rewrite unit_length, unit_nth. replace (length s - S i) with (length s - 1 - i) by lia.
  destruct (nth_error s _); simpl; auto. rewrite minus_val. auto.
Qed.
Lemma majority_mir : forall cst c z s, z <> [] -> qsorted s -> Permutation z s -> settled_at cst c z ->
  exists mj, get_verified_majority_value cst s = Ok mj /\ get_verified_majority_value cst (rev (mir c s)) = Ok (option_map (fun x => c - x)%Qc mj).
Proof.
  intros cst c z s NZ QS P H. assert (NE : s <> []) by (intros X; subst s; symmetry in P; apply Permutation_nil in P; auto).
  unfold get_verified_majority_value. cbv zeta. rewrite rev_length, unit_length.
  change (qmedian (map (fun x => Qcabs (x - qmedian s)) s)) with (mad s).
  change (qmedian (map (fun x => Qcabs (x - qmedian (rev (mir c s)))) (rev (mir c s)))) with (mad (rev (mir c s))).
  rewrite mad_rev, mad_mir by auto. destruct (isclose (mad s / cst) 0%Qc) eqn:EC; [|exists None; auto].
  destruct H as [H|(m & C & H)].
  { apply isclose_zero in EC. rewrite (mad_perm s z P) in EC. exfalso. qlra. }
  rewrite (copies_perm m z s P), (Permutation_length P) in C. rewrite <- (min_perm s z NE P), <- (max_perm s z NE P) in H.
  assert (L : 0 < length s) by (destruct s; [congruence|simpl; lia]).
  pose proof (Nat.div_mod (length s - 1) 2 ltac:(lia)). pose proof (Nat.mod_upper_bound (length s - 1) 2 ltac:(lia)).
  pose proof (Nat.div_mod (length s) 2 ltac:(lia)). pose proof (Nat.mod_upper_bound (length s) 2 ltac:(lia)).
  rewrite (proj2 (get_ok _ _ _ _) (middle_copies s m _ QS C (or_introl eq_refl))).
  rewrite (proj2 (get_ok _ _ _ _) (sorted_first s NE QS)), (proj2 (get_ok _ _ _ _) (sorted_last s NE QS)). cbn [bind].
  assert (G1 : get (rev (mir c s)) ((length s - 1) / 2) = Ok (c - m)%Qc).
  { apply get_ok. rewrite nth_rev_mir by lia. replace (length s - 1 - (length s - 1) / 2) with (length s / 2) by lia.
    rewrite (middle_copies s m _ QS C (or_intror eq_refl)). auto. }
  assert (G2 : get (rev (mir c s)) 0 = Ok (c - qmax_list s)%Qc).
  { apply get_ok. rewrite nth_rev_mir by lia. replace (length s - 1 - 0) with (length s - 1) by lia. rewrite sorted_last; auto. }
  assert (G3 : get (rev (mir c s)) (length s - 1) = Ok (c - qmin_list s)%Qc).
  { apply get_ok. rewrite nth_rev_mir by lia. replace (length s - 1 - (length s - 1)) with 0 by lia. rewrite sorted_first; auto. }
  rewrite G1, G2, G3. cbn [bind]. destruct H as [[E|E]|(C1 & C2 & C3 & C4)].
  - rewrite <- E, !isclose_refl, orb_true_r. cbn [orb]. exists None; auto.
  - rewrite <- E, !isclose_refl, orb_true_r. cbn [orb]. exists None; auto.
  - rewrite C1, C2, C3, C4. cbn [orb]. exists (Some m). auto.
Qed.

(** * The selections *)
Section Selections.
Variable cst : Qc.
Variable std : list Qc -> Qc.
Variable ppf : Qc -> Z -> Qc.
Variable sqrt : Qc -> Qc.
Variable table : list Qc.
Variable sort : list (nat * Qc) -> list (nat * Qc).
Hypothesis SU : sorts_up sort.
Hypothesis EV : even_spread std.
Notation crit alpha := (get_critical ppf sqrt table alpha).

Lemma sorted_mir : forall c z, opposite_order sort z -> sorted_series sort (mir c z) = rev (mir_pairs c (sorted_series sort z)).
Proof. intros c z H. unfold sorted_series. rewrite unit_length. apply H. Qed.
Lemma sorted_qsorted : forall z, qsorted (map snd (sorted_series sort z)).
Proof.
  intros z. destruct (SU (combine (range (length z)) z)) as [_ S1]. unfold sorted_series. induction S1 as [|a l S1 IH F]; simpl; constructor; auto.
  rewrite Forall_forall in *. intros x I. apply in_map_iff in I. destruct I as (y & <- & I). apply F; auto.
Qed.
Lemma selected_mir : forall c z maxo lm alpha, 4 <= length z -> maxo <= length z / 2 - 1 -> opposite_order sort z -> settled_at cst c z ->
  exists mj, get_verified_majority_value cst (map snd (sorted_series sort z)) = Ok mj /\
    get_verified_majority_value cst (map snd (sorted_series sort (mir c z))) = Ok (option_map (fun x => c - x)%Qc mj) /\
    (forall u, exists e, esd_detect cst std (crit alpha) (sorted_series sort z) maxo mj u lm = Ok e) /\
    (forall u, esd_detect cst std (crit alpha) (sorted_series sort (mir c z)) maxo (option_map (fun x => c - x)%Qc mj) u lm =
       esd_detect cst std (crit alpha) (sorted_series sort z) maxo mj (negb u) lm) /\
    (forall u, zscore_detect cst std (sorted_series sort (mir c z)) maxo u = zscore_detect cst std (sorted_series sort z) maxo (negb u)).
Proof.
  intros c z maxo lm alpha L4 HM OO ST. rewrite sorted_mir by auto. set (sr := sorted_series sort z).
  assert (LS : length sr = length z) by (apply sorted_length; auto).
  assert (NS : sr <> []) by (intros X; rewrite X in LS; simpl in LS; lia).
  destruct (majority_mir cst c z (map snd sr)) as (mj & E1 & E2); auto.
  - intros X; subst z; simpl in L4; lia.
  - apply sorted_qsorted.
  - apply sorted_vals; auto.
  - exists mj. split; auto. split; [rewrite map_rev, mir_pairs_snd; auto|]. split.
    + intros u. destruct (majority_cases cst sr (length z) LS L4) as (mj' & E3 & C). rewrite E1 in E3. injection E3 as <-.
      destruct (esd_on_sorted cst std ppf sqrt table sort SU z alpha maxo mj u lm L4 HM) as (e & Ee & _); eauto.
    + split; intros u; [apply esd_mir; auto|apply zscore_mir; auto].
Qed.

Lemma dt_mir : forall c z alpha ratio lm, 4 <= length z -> opposite_order sort z -> settled_at cst c z ->
  exists idx idx' m, dt_detect_anomaly cst std ppf sqrt table sort z alpha ratio lm = Ok (idx, m) /\
    dt_detect_anomaly cst std ppf sqrt table sort (mir c z) alpha ratio lm = Ok (idx', m) /\ Permutation idx' idx.
Proof.
  intros c z alpha ratio lm L4 OO ST. unfold dt_detect_anomaly. cbv zeta. rewrite unit_length. set (maxo := dt_quota (length z) ratio).
  destruct (selected_mir c z maxo lm alpha L4 ltac:(unfold maxo, dt_quota; lia) OO ST) as (mj & E1 & E2 & ET & EE & EZ).
  rewrite E1, E2. cbn [bind].
  set (ds := [(fun upper : bool => esd_detect cst std (crit alpha) (sorted_series sort z) maxo mj upper lm); (fun upper : bool => Ok (zscore_detect cst std (sorted_series sort z) maxo upper))]).
  set (ds' := [(fun upper : bool => esd_detect cst std (crit alpha) (sorted_series sort (mir c z)) maxo (option_map (fun x => c - x)%Qc mj) upper lm); (fun upper : bool => Ok (zscore_detect cst std (sorted_series sort (mir c z)) maxo upper))]).
  destruct (tails_swap ds ds' maxo (length z)) as [T|(e & e' & T & T')].
  { unfold ds, ds'. constructor; [intros u; apply EE|]. constructor; [intros u; cbv beta; rewrite EZ; reflexivity|]. constructor. }
  - unfold answers_alike in T.
    destruct (detect_tails ds maxo (length z)) as [idx|e] eqn:D1; destruct (detect_tails ds' maxo (length z)) as [idx'|e'] eqn:D2; try contradiction.
    + cbn [bind]. exists idx, idx'. eexists. split; [reflexivity|]. split; auto. destruct mj; auto.
    + exfalso. unfold detect_tails, ds in D1. cbn [run_detectors] in D1. destruct (ET true) as [u1 U1]. destruct (ET false) as [u2 U2].
      rewrite U1, U2 in D1. cbn [bind] in D1. discriminate.
  - exfalso. unfold detect_tails, ds in T. cbn [run_detectors] in T. destruct (ET true) as [u1 U1]. destruct (ET false) as [u2 U2].
    rewrite U1, U2 in T. cbn [bind] in T. discriminate.
Qed.
Lemma ts_mir : forall c z c2 y alpha ratio lm, 4 <= length z -> length y = length z -> opposite_order sort z -> settled_at cst c z ->
  opposite_order sort y -> settled_at cst c2 y ->
  exists idx idx' m, ts_detect_anomaly cst std ppf sqrt table sort z y alpha ratio lm = Ok (idx, m) /\
    ts_detect_anomaly cst std ppf sqrt table sort (mir c z) (mir c2 y) alpha ratio lm = Ok (idx', m) /\ Permutation idx' idx.
Proof.
  intros c z c2 y alpha ratio lm L4 LY OO ST OY SY. unfold ts_detect_anomaly. cbv zeta. rewrite unit_length. set (maxo := dt_quota (length z) ratio).
  destruct (selected_mir c z maxo lm alpha L4 ltac:(unfold maxo, dt_quota; lia) OO ST) as (mj & E1 & E2 & ET & EE & EZ).
  destruct (selected_mir c2 y maxo lm alpha ltac:(lia) ltac:(rewrite LY; unfold maxo, dt_quota; lia) OY SY) as (mr & R1 & R2 & RT & RE & _).
  rewrite E1, E2, R1, R2. cbn [bind].
  set (ds := [(fun upper : bool => esd_detect cst std (crit alpha) (sorted_series sort z) maxo mj upper lm); (fun upper : bool => Ok (zscore_detect cst std (sorted_series sort z) maxo upper)); (fun upper : bool => esd_detect cst std (crit alpha) (sorted_series sort y) maxo mr upper lm)]).
  set (ds' := [(fun upper : bool => esd_detect cst std (crit alpha) (sorted_series sort (mir c z)) maxo (option_map (fun x => c - x)%Qc mj) upper lm); (fun upper : bool => Ok (zscore_detect cst std (sorted_series sort (mir c z)) maxo upper)); (fun upper : bool => esd_detect cst std (crit alpha) (sorted_series sort (mir c2 y)) maxo (option_map (fun x => c2 - x)%Qc mr) upper lm)]).
  destruct (tails_swap ds ds' maxo (length z)) as [T|(e & e' & T & T')].
  { unfold ds, ds'. constructor; [intros u; apply EE|]. constructor; [intros u; cbv beta; rewrite EZ; reflexivity|]. constructor; [intros u; apply RE|]. constructor. }
  - unfold answers_alike in T.
    destruct (detect_tails ds maxo (length z)) as [idx|e] eqn:D1; destruct (detect_tails ds' maxo (length z)) as [idx'|e'] eqn:D2; try contradiction.
    + cbn [bind]. exists idx, idx'. eexists. split; [reflexivity|]. split; auto. destruct mj, mr; auto.
    + exfalso. unfold detect_tails, ds in D1. cbn [run_detectors] in D1. destruct (ET true) as [u1 U1]. destruct (ET false) as [u2 U2].
      destruct (RT true) as [v1 V1]. destruct (RT false) as [v2 V2]. rewrite U1, U2, V1, V2 in D1. cbn [bind] in D1. discriminate.
  - exfalso. unfold detect_tails, ds in T. cbn [run_detectors] in T. destruct (ET true) as [u1 U1]. destruct (ET false) as [u2 U2].
    destruct (RT true) as [v1 V1]. destruct (RT false) as [v2 V2]. rewrite U1, U2, V1, V2 in T. cbn [bind] in T. discriminate.
Qed.
End Selections.
