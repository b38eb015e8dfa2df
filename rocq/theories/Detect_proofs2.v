(** Ranking and quotas. *)
From Coq Require Import String List Arith ZArith QArith Qcanon Qround Lia Bool Sorted Permutation.
From Verif Require Import Base Num Sorting Kernel_model Kernel_spec Kernel_props FillUp_model FillUp_spec FillUp_props
  Helpers_model Helpers_proofs Helpers_proofs2 Helpers_props Margins_model SR_model Detect_model Detect_spec Detect_proofs.
Import ListNotations.
Open Scope nat_scope.

(** The ranking dict as a finite map. *)
Fixpoint lookup (d : list (nat * nat)) (x : nat) : option nat :=
  match d with
  | [] => None
  | (j, r) :: t => if j =? x then Some r else lookup t x
  end.

Lemma lookup_rank_add : forall d index k fresh x,
  lookup (rank_add index k fresh d) x =
  if index =? x then match lookup d x with Some r => Some (r + k) | None => Some fresh end else lookup d x.
Proof.
  induction d as [|[j r] t IH]; intros index k fresh x; cbn [rank_add lookup].
  - destruct (index =? x); auto.
  - destruct (j =? index) eqn:E1; cbn [lookup].
    + apply Nat.eqb_eq in E1. subst j. destruct (index =? x); auto.
    + destruct (j =? x) eqn:E2; rewrite ?IH.
      * apply Nat.eqb_eq in E2. subst j. rewrite Nat.eqb_sym in E1. rewrite E1. auto.
      * auto.
Qed.
Lemma lookup_in : forall d x, lookup d x <> None <-> In x (map fst d).
Proof.
  induction d as [|[j r] t IH]; intros x; cbn [lookup map fst In]; [split; [congruence|intros []]|].
  destruct (j =? x) eqn:E.
  - apply Nat.eqb_eq in E. split; [auto|discriminate].
  - apply Nat.eqb_neq in E. rewrite IH. tauto.
Qed.
Lemma rank_add_nodup : forall d index k fresh, NoDup (map fst d) -> NoDup (map fst (rank_add index k fresh d)).
Proof.
  intros d index k fresh. assert (K : forall d x, In x (map fst (rank_add index k fresh d)) -> In x (map fst d) \/ x = index).
  { clear d. intros d x. rewrite <- !lookup_in, lookup_rank_add. destruct (index =? x) eqn:E; [apply Nat.eqb_eq in E; auto|auto]. }
  induction d as [|[j r] t IH]; intros N; cbn [rank_add map fst]; [repeat constructor; auto|].
  inversion N as [|? ? N1 N2]; subst. destruct (j =? index) eqn:E; cbn [map fst]; constructor; auto.
  intros I. apply K in I. destruct I as [I| ->]; auto. rewrite Nat.eqb_refl in E. discriminate.
Qed.
Lemma rank_selection_nodup : forall s n i k d, NoDup (map fst d) -> NoDup (map fst (rank_selection n i k s d)).
Proof. induction s as [|x t IH]; intros; simpl; auto. apply IH. apply rank_add_nodup; auto. Qed.
Lemma rank_all_nodup : forall sels n i d, NoDup (map fst d) -> NoDup (map fst (rank_all n i sels d)).
Proof. induction sels as [|s t IH]; intros; simpl; auto. apply IH. apply rank_selection_nodup; auto. Qed.

(** position of [x] in [s] *)
Definition pos (x : nat) (s : list nat) : option nat := first_pos (Nat.eqb x) s.
Lemma pos_none : forall s x, pos x s = None <-> ~ In x s.
Proof.
  induction s as [|y t IH]; intros x; unfold pos in *; cbn [first_pos In]; [tauto|].
  destruct (x =? y) eqn:E; [apply Nat.eqb_eq in E; subst; split; [discriminate|intuition]|].
  apply Nat.eqb_neq in E. specialize (IH x). destruct (first_pos (Nat.eqb x) t); simpl.
  - split; [discriminate|]. intros H. exfalso. apply H. right. destruct (in_dec Nat.eq_dec x t); auto.
    exfalso. assert (Some n = None) by (apply IH; auto). discriminate.
  - split; auto. intros _ [->|I]; [congruence|]. apply IH in I; auto.
Qed.
Lemma pos_lt : forall s x k, pos x s = Some k -> k < length s.
Proof.
  induction s as [|y t IH]; intros x k H; unfold pos in *; cbn [first_pos] in H; [discriminate|].
  destruct (x =? y); [inversion H; simpl; lia|]. destruct (first_pos (Nat.eqb x) t) eqn:E; [|discriminate].
  simpl in H. inversion H. apply IH in E. simpl. lia.
Qed.

Lemma rank_selection_lookup : forall s n i k d x, NoDup s ->
  lookup (rank_selection n i k s d) x =
  match pos x s with
  | None => lookup d x
  | Some p => match lookup d x with Some r => Some (r + (k + p)) | None => Some (k + p + i * n) end
  end.
Proof.
  induction s as [|y t IH]; intros n i k d x N; [reflexivity|]. cbn [rank_selection].
  inversion N as [|? ? N1 N2]; subst. rewrite IH by auto. rewrite lookup_rank_add. unfold pos. cbn [first_pos].
  rewrite (Nat.eqb_sym x y). destruct (y =? x) eqn:E.
  - apply Nat.eqb_eq in E. subst y. assert (P : pos x t = None) by (apply pos_none; auto). unfold pos in P. rewrite P.
    rewrite !Nat.add_0_r. destruct (lookup d x); auto.
  - destruct (first_pos (Nat.eqb x) t); simpl; auto. destruct (lookup d x); f_equal; lia.
Qed.

Lemma rank_all_keys : forall sels n i d x, (forall s, In s sels -> NoDup s) ->
  (In x (map fst (rank_all n i sels d)) <-> In x (map fst d) \/ exists s, In s sels /\ In x s).
Proof.
  induction sels as [|s t IH]; intros n i d x N; cbn [rank_all].
  - split; auto. intros [H|(s & [] & _)]; auto.
  - rewrite IH by (intros; apply N; right; auto). rewrite <- (lookup_in (rank_selection n i 0 s d)).
    rewrite rank_selection_lookup by (apply N; left; auto). rewrite <- lookup_in.
    destruct (pos x s) eqn:E.
    + assert (I : In x s). { destruct (in_dec Nat.eq_dec x s); auto. apply pos_none in n1. congruence. }
      split; intros _; [right; exists s; split; auto; left; auto|]. left. destruct (lookup d x); discriminate.
    + apply pos_none in E. split.
      * intros [H|(s' & A & B)]; auto. right. exists s'. split; auto. right; auto.
      * intros [H|(s' & [<-|A] & B)]; [auto|contradiction|]. right. eauto.
Qed.

Lemma rank_insert_perm : forall l x, Permutation (x :: l) (rank_insert x l).
Proof.
  induction l as [|y t IH]; intros x; simpl; auto. destruct (snd x <=? snd y); auto.
  rewrite perm_swap. constructor. auto.
Qed.
Lemma rank_sort_perm : forall l, Permutation l (rank_sort l).
Proof. induction l as [|x t IH]; simpl; auto. rewrite <- rank_insert_perm. auto. Qed.
Lemma rank_insert_sorted : forall l x, StronglySorted (fun a b => snd a <= snd b) l ->
  StronglySorted (fun a b => snd a <= snd b) (rank_insert x l).
Proof.
  induction l as [|y t IH]; intros x H; simpl; [repeat constructor|]. inversion H as [|? ? H1 H2]; subst.
  destruct (snd x <=? snd y) eqn:E.
  - apply Nat.leb_le in E. constructor; auto. constructor; auto. eapply Forall_impl; [|exact H2]. simpl. intros; lia.
  - apply Nat.leb_gt in E. constructor; auto. apply Forall_forall. intros z I.
    apply (Permutation_in _ (Permutation_sym (rank_insert_perm t x))) in I. destruct I as [<-|I]; [lia|].
    rewrite Forall_forall in H2. auto.
Qed.
Lemma rank_sort_sorted : forall l, StronglySorted (fun a b => snd a <= snd b) (rank_sort l).
Proof. induction l; simpl; [constructor|apply rank_insert_sorted; auto]. Qed.

Lemma firstn_incl : forall A n (l : list A) x, In x (firstn n l) -> In x l.
Proof. induction n; intros [|y t] x; simpl; intuition. Qed.
Lemma firstn_nodup : forall A n (l : list A), NoDup l -> NoDup (firstn n l).
Proof.
  induction n as [|n IH]; intros l N; [constructor|]. destruct l as [|y t]; simpl; [constructor|].
  inversion N; subst. constructor; auto.
  intros I. apply firstn_incl in I. auto.
Qed.
Lemma firstn_min_length : forall A n (l : list A), firstn (Nat.min n (length l)) l = firstn n l.
Proof.
  intros A n l. destruct (Nat.le_gt_cases n (length l)).
  - rewrite Nat.min_l by auto. auto.
  - rewrite Nat.min_r by lia. rewrite !firstn_all2 by lia. auto.
Qed.

Lemma rank_direction_spec : forall maxo n sels, (forall s, In s sels -> NoDup s) ->
  let up := rank_direction maxo n sels in
  NoDup up /\ length up <= maxo /\ (forall x, In x up -> exists s, In s sels /\ In x s) /\
  (length up < maxo -> forall s x, In s sels -> In x s -> In x up).
Proof.
  intros maxo n sels HN up. unfold up, rank_direction. rewrite firstn_min_length.
  set (L := rank_all n 0 sels []). set (K := map fst (rank_sort L)).
  assert (P : Permutation (map fst L) K) by (apply Permutation_map, rank_sort_perm).
  assert (KI : forall x, In x K <-> exists s, In s sels /\ In x s).
  { intros x. split; intros H.
    - apply (Permutation_in _ (Permutation_sym P)) in H. unfold L in H. rewrite rank_all_keys in H by auto. destruct H as [[]|H]; auto.
    - apply (Permutation_in _ P). unfold L. rewrite rank_all_keys by auto. auto. }
  split; [apply firstn_nodup; apply (Permutation_NoDup P); apply rank_all_nodup; constructor|].
  split; [rewrite firstn_length; lia|]. split.
  - intros x H. apply firstn_incl in H. apply KI; auto.
  - intros H s x A B. rewrite firstn_length in H. rewrite firstn_all2 by lia. apply KI. eauto.
Qed.

(** Two detectors: everything the first one selects is kept. *)
Lemma rank_two : forall maxo n e z, NoDup e -> NoDup z -> length e <= maxo -> length z <= maxo -> 2 * maxo <= n ->
  forall x, In x e -> In x (rank_direction maxo n [e; z]).
Proof.
  intros maxo n e z NE NZ LE LZ HN x HX. unfold rank_direction. rewrite firstn_min_length.
  set (L := rank_all n 0 [e; z] []).
  assert (LK : forall y r, In (y, r) L -> lookup L y = Some r).
  { assert (ND : NoDup (map fst L)) by (apply rank_all_nodup; constructor). revert ND. generalize L. clear.
    intros L. induction L as [|[j q] t IH]; intros ND y r H; [destruct H|]. destruct H as [H|H]; cbn [lookup].
    - inversion H; subst. rewrite Nat.eqb_refl. auto.
    - inversion ND as [|? ? N1 N2]; subst. destruct (j =? y) eqn:E; auto. apply Nat.eqb_eq in E. subst j.
      exfalso. apply N1. change y with (fst (y, r)). apply in_map. auto. }
  assert (KV : forall y, lookup L y = match pos y z with
    | None => match pos y e with None => None | Some p => Some p end
    | Some q => match pos y e with None => Some (q + n) | Some p => Some (p + q) end end).
  { intros y. unfold L. cbn [rank_all]. rewrite !rank_selection_lookup by auto. cbn [lookup].
    destruct (pos y e), (pos y z); auto; f_equal; lia. }
  assert (SM : forall y r, In (y, r) L -> (r < n <-> In y e)).
  { intros y r H. apply LK in H. rewrite KV in H. pose proof (pos_none e y) as PN.
    destruct (pos y e) as [p|] eqn:Ep.
    - assert (I : In y e). { destruct (in_dec Nat.eq_dec y e); auto. apply PN in n0. discriminate. }
      apply pos_lt in Ep. destruct (pos y z) as [q|] eqn:Eq; [apply pos_lt in Eq|]; inversion H; subst; split; auto; lia.
    - assert (~ In y e) by (apply PN; auto). destruct (pos y z) as [q|]; inversion H; subst. split; [lia|tauto]. }
  assert (IX : In x (map fst L)) by (unfold L; apply rank_all_keys; [intros s [<-|[<-|[]]]; auto|right; exists e; simpl; auto]).
  apply in_map_iff in IX. destruct IX as ([x' r] & Ex & IX). simpl in Ex. subst x'.
  assert (R : r < n) by (apply (SM x r IX); auto).
  apply (Permutation_in _ (rank_sort_perm L)) in IX. apply In_nth_error in IX. destruct IX as [p Hp].
  assert (PL : p < length e).
  { assert (ND : NoDup (map fst (firstn (S p) (rank_sort L)))).
    { rewrite <- firstn_map. apply firstn_nodup. apply (Permutation_NoDup (Permutation_map fst (rank_sort_perm L))).
      apply rank_all_nodup; constructor. }
    assert (INC : incl (map fst (firstn (S p) (rank_sort L))) e).
    { intros y Hy. apply in_map_iff in Hy. destruct Hy as ([y' ry] & Ey & Hy). simpl in Ey. subst y'.
      assert (IL : In (y, ry) L) by (apply firstn_incl in Hy; apply (Permutation_in _ (Permutation_sym (rank_sort_perm L))); auto).
      apply (SM y ry IL). apply In_nth_error in Hy. destruct Hy as [q Hq]. rewrite nth_error_firstn in Hq.
      destruct (q <? S p) eqn:EQ; [|discriminate]. apply Nat.ltb_lt in EQ.
      assert (OR : snd (y, ry) <= snd (x, r)).
      { clear - Hq Hp EQ. pose proof (rank_sort_sorted L) as ST. revert p q Hp Hq EQ. induction (rank_sort L) as [|h t IH]; intros p q Hp Hq EQ.
        - destruct p; discriminate.
        - inversion ST as [|? ? S1 S2]; subst. destruct q as [|q].
          + simpl in Hq. inversion Hq; subst h. destruct p as [|p]; [simpl in Hp; inversion Hp; auto|].
            simpl in Hp. apply nth_error_In in Hp. rewrite Forall_forall in S2. apply (S2 _ Hp).
          + destruct p as [|p]; [lia|]. simpl in Hp, Hq. apply (IH S1 p q); auto. lia. }
      simpl in OR. lia. }
    pose proof (NoDup_incl_length ND INC) as LL. rewrite map_length, firstn_length in LL.
    pose proof (nth_error_lt _ _ _ _ Hp). lia. }
  apply (nth_error_In _ p). rewrite nth_error_firstn.
  assert (T : (p <? maxo) = true) by (apply Nat.ltb_lt; lia). rewrite T, nth_error_map, Hp. auto.
Qed.

Lemma count_mem : forall n idx, NoDup idx ->
  length (filter (fun i => mem_nat i idx) (range n)) <= length idx.
Proof.
  intros n idx ND. apply NoDup_incl_length; [apply NoDup_filter; apply seq_NoDup|].
  intros i H. apply filter_In in H. apply mem_nat_in. apply H.
Qed.
Lemma reported_frame : forall series e t s idx rows, result_frame series e t s idx = Ok rows ->
  reported rows = length (filter (fun i => mem_nat i idx) (range (length series))).
Proof.
  intros series e t s idx rows H. apply result_frame_spec in H. destruct H as (L & _ & H). rewrite <- L. clear L.
  unfold range.
  assert (G : forall rows k, (forall i r, nth_error rows i = Some r -> r_anomaly r = mem_nat (k + i) idx) ->
     reported rows = length (filter (fun i => mem_nat i idx) (seq k (length rows)))).
  { induction rows0 as [|r t' IH]; intros k HH; simpl; auto. rewrite (IH (S k)).
    - rewrite (HH 0 r eq_refl), Nat.add_0_r. destruct (mem_nat k idx); simpl; auto.
    - intros i r' Hr'. rewrite (HH (S i) r' Hr'). f_equal. lia. }
  apply G. intros i r Hr. destruct (H i r Hr) as (v & x & _ & _ & _ & _ & A & _). auto.
Qed.

Lemma zscore_sub : forall cst std series maxo upper,
  incl (zscore_detect cst std series maxo upper) (map fst (firstn maxo (if upper then rev series else series))).
Proof.
  intros cst std series maxo upper. unfold zscore_detect. cbv zeta. destruct (snd _ =? 0)%Qc; [intros ? []|].
  intros x H. apply in_map_iff in H. destruct H as (p & <- & H). apply filter_In in H. apply in_map. apply H.
Qed.
Lemma map_filter_nodup : forall A (p : nat * A -> bool) l, NoDup (map fst l) -> NoDup (map fst (filter p l)).
Proof.
  induction l as [|x t IH]; intros N; simpl; auto. inversion N; subst. destruct (p x); simpl; auto.
  constructor; auto. intros I. apply in_map_iff in I. destruct I as (y & E & I). apply filter_In in I.
  match goal with H : ~ In _ _ |- _ => apply H end. rewrite <- E. apply in_map. apply I.
Qed.
Lemma filter_len : forall A (p : A -> bool) l, length (filter p l) <= length l.
Proof. induction l as [|x t IH]; simpl; auto. destruct (p x); simpl; lia. Qed.
Lemma zscore_nodup : forall cst std series maxo upper, NoDup (map fst series) ->
  NoDup (zscore_detect cst std series maxo upper) /\ length (zscore_detect cst std series maxo upper) <= maxo.
Proof.
  intros cst std series maxo upper N. unfold zscore_detect. cbv zeta. destruct (snd _ =? 0)%Qc; [split; [constructor|simpl; lia]|].
  set (data := if upper then rev series else series).
  assert (ND : NoDup (map fst (firstn maxo data))).
  { rewrite <- firstn_map. apply firstn_nodup. unfold data. destruct upper; auto. rewrite map_rev. apply NoDup_rev. auto. }
  split; [apply map_filter_nodup; auto|]. rewrite map_length.
  eapply Nat.le_trans; [apply filter_len|]. rewrite firstn_length. lia.
Qed.

Section Sorted.
Variable sort : list (nat * Qc) -> list (nat * Qc).
Hypothesis SU : sorts_up sort.

Lemma sorted_perm : forall data, Permutation (combine (range (length data)) data) (sorted_series sort data).
Proof. intros. apply SU. Qed.
Lemma map_fst_combine : forall A (data : list A) k, map fst (combine (seq k (length data)) data) = seq k (length data).
Proof. induction data as [|x t IH]; intros k; simpl; auto. f_equal. auto. Qed.
Lemma map_snd_combine : forall A (data : list A) k, map snd (combine (seq k (length data)) data) = data.
Proof. induction data as [|x t IH]; intros k; simpl; auto. f_equal. auto. Qed.
Lemma sorted_labels : forall data, Permutation (range (length data)) (map fst (sorted_series sort data)).
Proof.
  intros data. pose proof (Permutation_map fst (sorted_perm data)) as P. unfold range in *. rewrite map_fst_combine in P. auto.
Qed.
Lemma sorted_vals : forall data, Permutation data (map snd (sorted_series sort data)).
Proof.
  intros data. pose proof (Permutation_map snd (sorted_perm data)) as P. unfold range in *. rewrite map_snd_combine in P. auto.
Qed.
Lemma sorted_nodup : forall data, NoDup (map fst (sorted_series sort data)).
Proof. intros data. apply (Permutation_NoDup (sorted_labels data)). apply seq_NoDup. Qed.
Lemma sorted_length : forall data, length (sorted_series sort data) = length data.
Proof. intros data. rewrite <- (map_length snd). symmetry. apply Permutation_length, sorted_vals. Qed.
Lemma sorted_in : forall data i v, In (i, v) (sorted_series sort data) <-> nth_error data i = Some v.
Proof.
  intros data i v. split; intros H.
  - apply (Permutation_in _ (Permutation_sym (sorted_perm data))) in H.
    assert (G : forall (l : list Qc) k, In (i, v) (combine (seq k (length l)) l) -> nth_error l (i - k) = Some v /\ k <= i).
    { induction l as [|x t IH]; intros k; simpl; [intros []|]. intros [X|X].
      - inversion X; subst. rewrite Nat.sub_diag. auto.
      - apply IH in X. destruct X as [X Y]. replace (i - k) with (S (i - S k)) by lia. split; [auto|lia]. }
    apply G in H. rewrite Nat.sub_0_r in H. apply H.
  - apply (Permutation_in _ (sorted_perm data)).
    assert (G : forall (l : list Qc) k i, nth_error l i = Some v -> In (k + i, v) (combine (seq k (length l)) l)).
    { induction l as [|x t IH]; intros k [|q]; simpl; intros X; try discriminate.
      - inversion X; subst. left. f_equal. lia.
      - right. replace (k + S q) with (S k + q) by lia. auto. }
    apply (G data 0 i H).
Qed.
Lemma sorted_tail : forall data, tail_ordered false (map snd (sorted_series sort data)).
Proof.
  intros data i j x y L Hi Hj. pose proof (proj2 (SU (combine (range (length data)) data))) as ST.
  fold (sorted_series sort data) in ST. rewrite nth_error_map in Hi, Hj.
  destruct (nth_error (sorted_series sort data) i) as [a|] eqn:Ea; [|discriminate].
  destruct (nth_error (sorted_series sort data) j) as [b|] eqn:Eb; [|discriminate].
  simpl in Hi, Hj. inversion Hi; inversion Hj; subst. clear Hi Hj. revert i j L Ea Eb.
  induction ST as [|h t S1 IH S2]; intros i j L Ea Eb; [destruct i; discriminate|].
  destruct i as [|i].
  - simpl in Ea. inversion Ea; subst h. destruct j as [|j]; [simpl in Eb; inversion Eb; subst; qlra|]. simpl in Eb. apply nth_error_In in Eb.
    rewrite Forall_forall in S2. apply (S2 _ Eb).
  - destruct j as [|j]; [lia|]. simpl in Ea, Eb. apply (IH i j); auto. lia.
Qed.
End Sorted.
