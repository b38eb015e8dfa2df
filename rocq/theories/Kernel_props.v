(** Properties C17-C22: the numerical kernels. *)
From Coq Require Import List Arith ZArith QArith Qcanon Lia Bool Permutation.
From Coq Require Import Floats.SpecFloat.
From Verif Require Import Base Num Sorting Kernel_model Kernel_spec Kernel_proofs Kernel_proofs2 Kernel_proofs3
  Kernel_proofs4 Kernel_proofs5 Kernel_proofs6.
Import ListNotations.
Open Scope nat_scope.

Definition zs (l : list Z) : list Qc := map qz l.

Arguments qz z%Z.

(** A decision procedure for sortedness, for the examples. *)
Fixpoint sortedb (l : list Qc) : bool :=
  match l with
  | x :: ((y :: _) as t) => (x <=? y)%Qc && sortedb t
  | _ => true
  end.
Lemma sortedb_sorted : forall l, sortedb l = true -> qsorted l.
Proof.
  intros l H. apply qsorted_of_nth. revert H. induction l as [|x [|y t] IH]; intros H i a b Ha Hb.
  - destruct i; discriminate.
  - destruct i as [|[|]]; discriminate.
  - apply andb_prop in H. destruct H as [H1 H2]. apply Qcleb_le in H1. destruct i as [|i].
    + inversion Ha; inversion Hb; subst. auto.
    + apply (IH H2 i); auto.
Qed.

(** C17. For every pivot sequence, quick_select(l, k) returns the k-th smallest
    value (the sorted list is the reference) and only permutes the table. *)
Theorem C17_quick_select_kth_smallest : forall rnd l k, 1 <= k <= length l ->
  exists v l', quick_select rnd l k = Ok (v, l') /\ Permutation l l' /\
    nth_error (qsort l) (k - 1) = Some v.
Proof. exact quick_select_spec. Qed.
Print Assumptions C17_quick_select_kth_smallest.

(** C17. fast_median is the median for every pair of pivot sequences. *)
Theorem C17_fast_median : forall rnd1 rnd2 l, l <> [] -> fast_median rnd1 rnd2 l = Ok (qmedian l).
Proof. exact fast_median_spec. Qed.
Print Assumptions C17_fast_median.
(** Half of the values are on either side of [qmedian]: the reference is the
    textbook median. *)
Theorem C17_median_meaning : forall l, l <> [] ->
  length l <= 2 * length (filter (fun x => (x <=? qmedian l)%Qc) l) /\
  length l <= 2 * length (filter (fun x => (qmedian l <=? x)%Qc) l).
Proof.
  intros l NE.
  assert (G : forall f, length (filter f l) = length (filter f (qsort l))).
  { intros f. apply Permutation_length. pose proof (qsort_perm l) as P. revert P. generalize (qsort l).
    intros s P. clear NE. induction P; simpl; auto.
    - destruct (f x); auto using perm_skip.
    - destruct (f x), (f y); auto using perm_swap, perm_skip.
    - etransitivity; eauto. }
  rewrite !G. rewrite <- (qsort_length l). unfold qmedian.
  pose proof (qsort_sorted l) as Sq.
  assert (L : 0 < length (qsort l)) by (rewrite qsort_length; destruct l; simpl; [congruence|lia]).
  set (s := qsort l) in *. clearbody s. set (m := median_of_sorted s).
  assert (C : forall f a b, a <= b -> b <= length s -> (forall p x, a <= p < b -> nth_error s p = Some x -> f x = true) ->
     b - a <= length (filter f s)).
  { intros f a b AB BL H. rewrite <- (firstn_skipn a s), filter_app, app_length.
    rewrite <- (firstn_skipn (b - a) (skipn a s)), filter_app, app_length.
    assert (E : filter f (firstn (b - a) (skipn a s)) = firstn (b - a) (skipn a s)).
    { assert (HA : forall x, In x (firstn (b - a) (skipn a s)) -> f x = true).
      { intros x Hx. apply In_nth_error in Hx. destruct Hx as (p & Hp). rewrite nth_error_firstn in Hp.
        destruct (p <? b - a) eqn:E; [|discriminate]. apply Nat.ltb_lt in E. rewrite nth_error_skipn in Hp.
        apply (H (a + p)); auto. lia. }
      revert HA. generalize (firstn (b - a) (skipn a s)). induction l0 as [|y t IH]; simpl; intros; auto.
      rewrite HA by auto. f_equal. apply IH. auto. }
    rewrite E. rewrite firstn_length, skipn_length. lia. }
  set (n := length s) in *. pose proof (Nat.div_mod n 2 ltac:(lia)) as DM.
  pose proof (Nat.mod_upper_bound n 2 ltac:(lia)) as MB. assert (D : n / 2 < n) by (apply Nat.div_lt; lia).
  assert (MM : (nth ((n - 1) / 2) s 0 <= m)%Qc /\ (m <= nth (n / 2) s 0)%Qc).
  { unfold m, median_of_sorted. fold n. rewrite <- mod2_odd.
    pose proof (Nat.div_mod (n - 1) 2 ltac:(lia)). pose proof (Nat.mod_upper_bound (n - 1) 2 ltac:(lia)).
    destruct (n mod 2 =? 1) eqn:E; rewrite ?Nat.eqb_eq, ?Nat.eqb_neq in E.
    - replace ((n - 1) / 2) with (n / 2) by lia. split; qlra.
    - replace ((n - 1) / 2) with (n / 2 - 1) by lia.
      destruct (nth_error_ex _ s (n / 2 - 1) ltac:(fold n; lia)) as (x & Ex).
      destruct (nth_error_ex _ s (n / 2) ltac:(fold n; lia)) as (y & Ey).
      rewrite (nth_error_nth_d _ _ _ _ 0%Qc Ex), (nth_error_nth_d _ _ _ _ 0%Qc Ey).
      pose proof (qsorted_nth s (n / 2 - 1) (n / 2) x y Sq ltac:(lia) Ex Ey).
      split; [apply Qcle_div_iff|apply Qcdiv_le_iff]; try reflexivity; qlra. }
  destruct MM as [M1 M2].
  pose proof (Nat.div_mod (n - 1) 2 ltac:(lia)). pose proof (Nat.mod_upper_bound (n - 1) 2 ltac:(lia)).
  split.
  - assert (X : S ((n - 1) / 2) - 0 <= length (filter (fun x => (x <=? m)%Qc) s)).
    { apply C; try (fold n; lia). intros p x Hp Ex. apply Qcleb_le.
      destruct (nth_error_ex _ s ((n - 1) / 2) ltac:(fold n; lia)) as (y & Ey).
      rewrite (nth_error_nth_d _ _ _ _ 0%Qc Ey) in M1.
      pose proof (qsorted_nth s p ((n - 1) / 2) x y Sq ltac:(lia) Ex Ey). qlra. }
    lia.
  - assert (X : n - n / 2 <= length (filter (fun x => (m <=? x)%Qc) s)).
    { apply C; try (fold n; lia). intros p x Hp Ex. apply Qcleb_le.
      destruct (nth_error_ex _ s (n / 2) ltac:(fold n; lia)) as (y & Ey).
      rewrite (nth_error_nth_d _ _ _ _ 0%Qc Ey) in M2.
      pose proof (qsorted_nth s (n / 2) p y x Sq ltac:(lia) Ey Ex). qlra. }
    lia.
Qed.
Print Assumptions C17_median_meaning.
Example C17_example :
  match quick_select (fun n => n * n + 1) (zs [5; 2; 9; 2; 7]%Z) 3, fast_median (fun n => n) (fun n => n) (zs [5; 2; 9; 2; 7; 6]%Z) with
  | Ok (v, l), Ok m => this v = 5%Q /\ length l = 5 /\ this m = (11 # 2)%Q
  | _, _ => False
  end.
Proof. vm_compute. auto. Qed.

(** C18. For a series in tail order and every cut [k], the two searches return
    the median and the median absolute deviation of what is left. *)
Theorem C18_median_and_mad_of_the_rest : forall upper vals k, tail_ordered upper vals -> k < length vals ->
  let n := length vals in
  sorted_median vals k n = Ok (qmedian (skipn k vals)) /\
  find_median_sorted_arrays (slice (rev vals) (n - k - (n - k) / 2) (n - k))
     (skipn (k + (n - k) / 2) vals) (qmedian (skipn k vals)) = Ok (mad (skipn k vals)).
Proof.
  intros upper vals k H L. apply tail_ordered_ordered in H. split.
  - apply (sorted_median_spec upper); auto.
  - apply (mad_spec upper); auto.
Qed.
Print Assumptions C18_median_and_mad_of_the_rest.
Example C18_example :
  let vals := zs [1; 2; 4; 8; 16; 17; 40]%Z in
  tail_ordered false vals /\
  match sorted_median vals 1 7, find_median_sorted_arrays (slice (rev vals) 3 6) (skipn 4 vals) (qz 12) with
  | Ok m, Ok d => this m = 12%Q /\ this d = (13 # 2)%Q
  | _, _ => False
  end.
Proof.
  split; [|vm_compute; auto]. apply tail_ordered_ordered. apply sortedb_sorted. reflexivity.
Qed.

(** C19. Entire mode: the result is the prefix ending at the last significant
    position among the first [maxo]. Both tests. *)
Theorem C19_esd_entire : forall cst std upper vals index maxo critical,
  tail_ordered upper vals -> maxo <= length vals -> maxo <= length critical ->
  let sig k := significant cst std upper vals k (nth k critical 0%Qc) in
  exists n, generalized_esd_test cst std vals index maxo critical upper None = Ok (firstn n index) /\
    n <= maxo /\ (forall k, k < maxo -> sig k -> k < n) /\ (0 < n -> sig (n - 1)).
Proof.
  intros cst std upper vals index maxo critical H L1 L2 sig. apply tail_ordered_ordered in H.
  apply (tail_select_entire cst std upper vals index maxo (get critical) (fun k => nth k critical 0%Qc)); auto.
  intros k Hk. destruct (get_in _ critical k ltac:(lia)) as (x & -> & E). rewrite (nth_error_nth_d _ _ _ _ 0%Qc E). auto.
Qed.
Print Assumptions C19_esd_entire.

Theorem C19_dynamic_entire : forall cst std upper vals index maxo thr,
  tail_ordered upper vals -> maxo <= length vals ->
  let sig k := significant cst std upper vals k thr in
  exists n, dynamic_threshold cst std vals index maxo thr upper None = Ok (firstn n index) /\
    n <= maxo /\ (forall k, k < maxo -> sig k -> k < n) /\ (0 < n -> sig (n - 1)).
Proof.
  intros cst std upper vals index maxo thr H L sig. apply tail_ordered_ordered in H.
  apply (tail_select_entire cst std upper vals index maxo (fun _ => Ok thr) (fun _ => thr)); auto.
Qed.
Print Assumptions C19_dynamic_entire.

(** C19. Last mode, the newest point being at tail position [li]: nothing, or
    the prefix ending at the first significant position from [li] on. *)
Theorem C19_esd_last : forall cst std upper vals index maxo critical li,
  tail_ordered upper vals -> maxo <= length vals -> maxo <= length critical ->
  let sig k := significant cst std upper vals k (nth k critical 0%Qc) in
  exists n, generalized_esd_test cst std vals index maxo critical upper (Some li) = Ok (firstn n index) /\
    (n = 0 /\ (forall k, li <= k < maxo -> ~ sig k) \/
     li < n <= maxo /\ sig (n - 1) /\ forall k, li <= k < n - 1 -> ~ sig k).
Proof.
  intros cst std upper vals index maxo critical li H L1 L2 sig. apply tail_ordered_ordered in H.
  destruct (tail_select_last cst std upper vals index maxo (get critical) (fun k => nth k critical 0%Qc) li) as (n & E & C); auto.
  { intros k Hk. destruct (get_in _ critical k ltac:(lia)) as (x & -> & E). rewrite (nth_error_nth_d _ _ _ _ 0%Qc E). auto. }
  exists n. split; [exact E|]. destruct C as [C|(C1 & C2 & C3 & C4)]; [left|right]; auto.
Qed.
Print Assumptions C19_esd_last.

Theorem C19_dynamic_last : forall cst std upper vals index maxo thr li,
  tail_ordered upper vals -> maxo <= length vals ->
  let sig k := significant cst std upper vals k thr in
  exists n, dynamic_threshold cst std vals index maxo thr upper (Some li) = Ok (firstn n index) /\
    (n = 0 /\ (forall k, li <= k < maxo -> ~ sig k) \/
     li < n <= maxo /\ sig (n - 1) /\ forall k, li <= k < n - 1 -> ~ sig k).
Proof.
  intros cst std upper vals index maxo thr li H L sig. apply tail_ordered_ordered in H.
  destruct (tail_select_last cst std upper vals index maxo (fun _ => Ok thr) (fun _ => thr) li) as (n & E & C); auto.
  exists n. split; [exact E|]. destruct C as [C|(C1 & C2 & C3 & C4)]; [left|right]; auto.
Qed.
Print Assumptions C19_dynamic_last.

Lemma fold_max_ge : forall l a, a <= fold_left Nat.max l a /\ forall x, In x l -> x <= fold_left Nat.max l a.
Proof.
  induction l as [|y t IH]; intros a; simpl; [split; [auto|intros ? []]|].
  destruct (IH (Nat.max a y)) as [H1 H2]. split; [lia|]. intros x [->|H]; [lia|auto].
Qed.

(** C19. ESD.detect with the callers' quota (at most half the series minus
    one) never fails, also when the series is cut at its majority value; it
    returns a prefix of the labels in tail order, of at most [maxo] entries;
    in last mode nothing, or a prefix containing the newest label. *)
Theorem C19_esd_detect_in_range : forall cst std critical series maxo majority upper last,
  (forall n m, m <= n -> m <= length (critical n m)) ->
  tail_ordered false (map snd series) -> 4 <= length series -> maxo <= length series / 2 - 1 ->
  majority = None \/ majority = option_map snd (nth_error series ((length series - 1) / 2)) ->
  exists r n, esd_detect cst std critical series maxo majority upper last = Ok r /\
    r = firstn n (map fst (if upper then rev series else series)) /\ length r <= maxo /\
    (last = true -> r = [] \/ exists lab, In lab r /\ forall p, In p series -> fst p <= lab).
Proof.
  intros cst std critical series maxo majority upper last HC HO L4 HM HJ.
  assert (HS : qsorted (map snd series)) by (apply (tail_ordered_ordered false); auto).
  destruct (esd_data_spec series majority upper HS L4 HJ) as (E & OD & LD & (k & EK) & LN).
  set (data := esd_data series majority upper) in *.
  unfold esd_detect. rewrite E, bind_ok.
  set (crit := match majority with None => critical (length series) maxo | Some _ => critical (length data) maxo end).
  pose proof (Nat.div_mod (length series) 2 ltac:(lia)) as DM.
  assert (LC : maxo <= length crit).
  { unfold crit. destruct majority; apply HC; lia. }
  apply tail_ordered_ordered in OD.
  assert (LV : maxo <= length (map snd data)) by (rewrite map_length; lia).
  assert (PF : forall n, n <= maxo -> exists m, firstn n (map fst data) = firstn m (map fst (if upper then rev series else series))).
  { intros n Hn. exists (Nat.min n k). rewrite EK, map_firstn, firstn_firstn. auto. }
  destruct last.
  - set (lab := fold_left Nat.max (map fst series) 0).
    destruct (first_pos (fun p => fst p =? lab) data) as [li|] eqn:EF.
    2:{ exists [], 0. repeat split; auto. simpl; lia. }
    destruct (C19_esd_last cst std upper (map snd data) (map fst data) maxo crit li OD LV LC) as (n & EE & C).
    rewrite EE. assert (NM : n <= maxo) by (destruct C as [[-> _]|C]; lia).
    destruct (PF n NM) as (m & Em). exists (firstn n (map fst data)), m. split; auto. split; auto.
    split; [rewrite firstn_length; lia|]. intros _.
    destruct C as [[-> _]|((C1 & _) & _)]; [left; auto|right].
    destruct (first_pos_spec _ _ _ _ EF) as ([lb v] & Hx & Px). simpl in Px. apply Nat.eqb_eq in Px. subst lb.
    exists lab. split.
    + apply (nth_error_In _ li). rewrite nth_error_firstn. apply Nat.ltb_lt in C1. rewrite C1, nth_error_map, Hx. auto.
    + intros p Hp. apply (fold_max_ge (map fst series) 0). apply in_map. auto.
  - destruct (C19_esd_entire cst std upper (map snd data) (map fst data) maxo crit OD LV LC) as (n & EE & NM & _).
    rewrite EE. destruct (PF n NM) as (m & Em). exists (firstn n (map fst data)), m. split; auto. split; auto.
    split; [rewrite firstn_length; lia|]. discriminate.
Qed.
Print Assumptions C19_esd_detect_in_range.
(** Eleven points, the two largest stick out; after the cut at the majority value 3 the fours stick out too. *)
Definition ex_series : list (nat * Qc) :=
  combine [3; 0; 1; 4; 6; 2; 5; 8; 7; 9; 10] (zs [1; 1; 2; 2; 3; 3; 3; 4; 4; 80; 90]%Z).
Example C19_example :
  let cst := Q2Qc (674 # 1000) in let std := fun _ : list Qc => qz 1000 in
  let crit := fun n m : nat => repeat (qz 3) m in
  esd_detect cst std crit ex_series 4 None true false = Ok [10; 9] /\
  esd_detect cst std crit ex_series 4 None true true = Ok [10] /\
  esd_detect cst std crit ex_series 4 (option_map snd (nth_error ex_series 5)) true false = Ok [10; 9; 7; 8] /\
  esd_detect cst std crit ex_series 4 None false false = Ok [].
Proof. vm_compute. auto. Qed.

Lemma first_pos_none : forall A (p : A -> bool) l, first_pos p l = None -> forall x, In x l -> p x = false.
Proof.
  induction l as [|h t IH]; intros H x I; [destruct I|]. simpl in H.
  destruct (p h) eqn:E; [discriminate|]. destruct (first_pos p t); [discriminate|].
  destruct I as [<-|I]; auto.
Qed.
Lemma fold_max_in : forall l a, fold_left Nat.max l a = a \/ In (fold_left Nat.max l a) l.
Proof.
  induction l as [|y t IH]; intros a; simpl; auto. destruct (IH (Nat.max a y)) as [H|H]; auto.
  rewrite H. destruct (Nat.max_spec a y) as [[_ ->]|[_ ->]]; auto.
Qed.

(** C19. DynamicThreshold.detect on a sorted series: a prefix of the labels
    in tail order, of at most [maxo] entries; entire mode ends it at the last
    significant position, last mode returns nothing or a prefix ending at a
    significant position and containing the newest label. *)
Theorem C19_dynamic_detect_in_range : forall cst std (series : list (nat * Qc)) maxo thr (upper last : bool),
  tail_ordered false (map snd series) -> maxo <= length series ->
  let data := if upper then rev series else series in
  let sig k := significant cst std upper (map snd data) k thr in
  exists n, dynamic_detect cst std series maxo thr upper last = Ok (firstn n (map fst data)) /\ n <= maxo /\
    (0 < n -> sig (n - 1)) /\
    (last = false -> forall k, k < maxo -> sig k -> k < n) /\
    (last = true -> n = 0 \/ exists lab, In lab (firstn n (map fst data)) /\ forall p, In p series -> fst p <= lab).
Proof.
  intros cst std series maxo thr upper last HO HM data sig.
  assert (TD : tail_ordered upper (map snd data)).
  { unfold data. destruct upper; auto. rewrite map_rev. intros i j x y L Hi Hj.
    pose proof (nth_error_lt _ _ _ _ Hj) as LJ. rewrite rev_length in LJ.
    rewrite nth_error_rev in Hi by lia. rewrite nth_error_rev in Hj by lia.
    apply (HO (length (map snd series) - S j) (length (map snd series) - S i) y x); auto. lia. }
  assert (LD : length data = length series) by (unfold data; destruct upper; auto; apply rev_length).
  assert (ID : forall p, In p series -> In p data) by (intros p; unfold data; destruct upper; auto; apply in_rev).
  unfold dynamic_detect. fold data. set (lab := fold_left Nat.max (map fst data) 0).
  assert (LV : maxo <= length (map snd data)) by (rewrite map_length; lia).
  assert (ENT : exists n, dynamic_threshold cst std (map snd data) (map fst data) maxo thr upper None = Ok (firstn n (map fst data)) /\
    n <= maxo /\ (forall k, k < maxo -> sig k -> k < n) /\ (0 < n -> sig (n - 1)))
    by (apply C19_dynamic_entire; auto).
  destruct last.
  - destruct (first_pos (fun p => fst p =? lab) data) as [li|] eqn:EF.
    + destruct (C19_dynamic_last cst std upper (map snd data) (map fst data) maxo thr li TD LV) as (n & EE & C).
      exists n. split; auto. split; [destruct C as [[-> _]|C]; lia|]. split.
      { intros N0. destruct C as [[-> _]|C]; [lia|apply C]. }
      split; [discriminate|]. intros _. destruct C as [[-> _]|((C1 & C2) & _)]; [left; auto|right].
      destruct (first_pos_spec _ _ _ _ EF) as ([lb v] & Hx & Px). simpl in Px. apply Nat.eqb_eq in Px. subst lb.
      exists lab. split.
      * apply (nth_error_In _ li). rewrite nth_error_firstn. apply Nat.ltb_lt in C1. rewrite C1, nth_error_map, Hx. auto.
      * intros p Hp. apply (fold_max_ge (map fst data) 0). apply in_map. apply ID. auto.
    + assert (DN : data = [] \/ data <> []) by (destruct data; [left; auto|right; discriminate]).
      destruct DN as [DN|DN].
      { destruct ENT as (n & E & N1 & _ & _). assert (n = 0) by (rewrite DN in LD; simpl in LD; lia). subst n.
        exists 0. split; auto. split; auto. split; [lia|]. split; [discriminate|auto]. }
      exfalso.
      assert (I : In lab (map fst data)).
      { destruct (fold_max_in (map fst data) 0) as [X|X]; auto. destruct data as [|[q w] t]; [congruence|].
        unfold lab. rewrite X. destruct (fold_max_ge (map fst ((q, w) :: t)) 0) as [_ G]. rewrite X in G.
        specialize (G q (or_introl eq_refl)). left. simpl. lia. }
      apply in_map_iff in I. destruct I as (p & Ep & Ip). pose proof (first_pos_none _ _ _ EF p Ip) as Y. simpl in Y.
      apply Nat.eqb_neq in Y. auto.
  - destruct ENT as (n & E & N1 & N2 & N3). exists n. repeat split; auto. discriminate.
Qed.
Print Assumptions C19_dynamic_detect_in_range.
Example C19_dynamic_example :
  let cst := Q2Qc (674 # 1000) in let std := fun _ : list Qc => qz 1000 in
  dynamic_detect cst std ex_series 4 (qz 3) true false = Ok [10; 9] /\
  dynamic_detect cst std ex_series 4 (qz 3) true true = Ok [10] /\
  dynamic_detect cst std ex_series 4 (qz 3) false true = Ok [].
Proof. vm_compute. auto. Qed.

(** C20. With two points in every phase gcv returns the leave-one-out error
    (0 when it is at most 1e-8) and the phase means. *)
Theorem C20_gcv_is_leave_one_out : forall data P, 0 < P -> 2 * P <= length data ->
  gcv data P = Ok (if (loo_mse data P <=? Q2Qc (1 # 100000000))%Qc then 0%Qc else loo_mse data P,
                   map (fun i => qmean (at_phase data P i)) (range P)).
Proof.
  intros data P HP L. rewrite gcv_ok by auto. unfold close_to_zero.
  assert (NN : (0 <= loo_mse data P)%Qc).
  { unfold loo_mse. apply Qcdiv_nonneg; [|apply qn_pos; lia].
    assert (G : forall l k, (0 <= qsum (mapi_from k (loo_sq data P) l))%Qc).
    { induction l as [|v t IH]; intros k; simpl; [discriminate|]. specialize (IH (S k)).
      assert (0 <= loo_sq data P k v)%Qc by (unfold loo_sq; apply Qcsqr_nonneg). qlra. }
    apply G. }
  unfold Qcabs. apply Qcleb_le in NN. rewrite NN. auto.
Qed.
Print Assumptions C20_gcv_is_leave_one_out.
(** C20. Otherwise it divides by zero. *)
Theorem C20_gcv_fails_on_short_phases : forall data P, 0 < P -> length data < 2 * P ->
  gcv data P = Err ZeroDiv.
Proof. exact gcv_zero. Qed.
Print Assumptions C20_gcv_fails_on_short_phases.
(** C20. max_gcv returns the score and means of a candidate with least score. *)
Theorem C20_max_gcv_is_minimal : forall data periods, periods <> [] ->
  (forall p, In p periods -> 0 < p /\ 2 * p <= length data) ->
  exists r, max_gcv data periods = Ok (Some r) /\
    (exists p, In p periods /\ gcv data p = Ok r) /\
    (forall p q, In p periods -> gcv data p = Ok q -> (fst r <= fst q)%Qc).
Proof.
  intros data periods NE H. destruct (max_gcv_loop_spec data periods None H) as (r & E & [R|R] & _ & R3); auto.
  - discriminate.
  - exists r. auto.
Qed.
Print Assumptions C20_max_gcv_is_minimal.
Example C20_example :
  let data := zs [1; 5; 3; 7; 2; 6]%Z in
  match gcv data 2, max_gcv data [3; 2; 1] with
  | Ok (s, means), Ok (Some (b, _)) => this s = (3 # 2)%Q /\ map this means = [2; 6]%Q /\ this b = (3 # 2)%Q
  | _, _ => False end /\ this (loo_mse data 2) = (3 # 2)%Q /\ map this (at_phase data 2 1) = [5; 7; 6]%Q.
Proof. vm_compute. auto. Qed.

(** C21. Two-end mode, data representable as C floats (r32 leaves them
    alone): every output is the median of the window around it, truncated at
    both ends, rounded to a float. *)
Theorem C21_median_filter_two_end : forall r32 data window,
  let h := window / 2 in
  2 * h + 1 <= length data -> (forall x, In x data -> r32 x = x) ->
  median_filter r32 data window true =
  Ok (map (fun p => r32 (sliding_median data h p)) (range (length data))).
Proof.
  intros r32 data window h L FIX.
  destruct (median_filter_spec r32 data h L window true eq_refl) as (out & E & LO & HO); auto.
  rewrite E. f_equal. assert (MV : map r32 data = data).
  { rewrite <- (map_id data) at 2. apply map_ext_in. auto. }
  apply nth_error_ext_len.
  - rewrite map_length. unfold range. rewrite seq_length. auto.
  - intros p Hp. rewrite nth_error_map_range by lia. rewrite HO by lia. unfold mf_done.
    assert (X : (p <? length data) = true) by (apply Nat.ltb_lt; lia). rewrite X, MV. auto.
Qed.
Print Assumptions C21_median_filter_two_end.

(** C21. Without two-end mode, for arbitrary data: medians of the (rounded)
    window in the interior, the (rounded) input at the ends. *)
Theorem C21_median_filter_interior : forall r32 data window,
  let h := window / 2 in let val := map r32 data in
  2 * h + 1 <= length data ->
  exists out, median_filter r32 data window false = Ok out /\ length out = length data /\
    forall p, p < length data -> nth_error out p =
      if (h <=? p) && (p <? length data - h) then Some (r32 (sliding_median val h p)) else nth_error val p.
Proof.
  intros r32 data window h val L.
  destruct (median_filter_spec r32 data h L window false eq_refl) as (out & E & LO & HO); [discriminate|].
  exists out. split; auto. split; auto. intros p Hp. rewrite HO by auto. unfold mf_done. cbn [orb].
  rewrite andb_comm. auto.
Qed.
Print Assumptions C21_median_filter_interior.

Theorem C21_median_filter_short : forall r32 data window two_end,
  length data < 2 * (window / 2) + 1 -> median_filter r32 data window two_end = Ok (map r32 data).
Proof.
  intros r32 data window two_end L. unfold median_filter. apply Nat.ltb_lt in L. rewrite L. auto.
Qed.
Print Assumptions C21_median_filter_short.

(** Binary32 rounding (nearest even) of a rational with a power-of-two
    denominator, by the standard library's reference implementation. *)
Definition float32 (x : Qc) : Qc :=
  match SpecFloat.binary_normalize 24 128 (Qnum (this x)) (- Z.log2 (Zpos (Qden (this x)))) false with
  | S754_finite s m e =>
      let v := (if s then Zneg m else Zpos m) in
      if (0 <=? e)%Z then qz (v * 2 ^ e) else Q2Qc (Qmake v (Z.to_pos (2 ^ (- e))))
  | _ => 0%Qc
  end.
(** The double nearest to 0.1. *)
Definition tenth : Qc := Q2Qc (3602879701896397 # 36028797018963968).

(** C21 REFUTED for doubles that are not floats: the right end compares an
    unrounded value with the rounded window and removes the wrong element. The
    last output should be the median of the last two points, 3/2; it is about
    0.55 instead (more than 0.9 away). *)
Theorem C21_right_end_refuted :
  exists data out, median_filter float32 data 3 true = Ok out /\ length out = 4 /\
    this (sliding_median data 1 3) = (3 # 2)%Q /\
    exists v, nth_error out 3 = Some v /\ (v < Q2Qc (6 # 10))%Qc.
Proof.
  exists [qz 4; tenth; qz 1; qz 2].
  eexists. split; [vm_compute; reflexivity|]. split; [reflexivity|]. split; [vm_compute; reflexivity|].
  eexists. split; [reflexivity|]. vm_compute. reflexivity.
Qed.
Print Assumptions C21_right_end_refuted.
Example C21_example :
  let data := zs [3; 1; 4; 1; 5; 9; 2]%Z in
  (forall x, In x data -> this (float32 x) = this x) /\
  match median_filter float32 data 4 true, median_filter float32 data 4 false with
  | Ok a, Ok b => map this a = [3; 2; 3; 4; 4; 7#2; 5]%Q /\ map this b = [3; 1; 3; 4; 4; 9; 2]%Q
  | _, _ => False end.
Proof. split; [|vm_compute; auto]. intros x H. simpl in H. repeat (destruct H as [<-|H]; [vm_compute; reflexivity|]). destruct H. Qed.

(** C22. What remove_anomaly_in_bucket does: a point at least 3e-8 above the
    median of its phase becomes that median; all other points stay. *)
Theorem C22_bucket_replaces_everything_above_median : forall rnd data P, 0 < P -> P <= length data ->
  remove_anomaly_in_bucket rnd data P =
  Ok (mapi (fun p v => let m := qmedian (at_phase data P (p mod P)) in
                       if (Q2Qc (3 # 100000000) <=? v - m)%Qc then m else v) data).
Proof. exact bucket_spec. Qed.
Print Assumptions C22_bucket_replaces_everything_above_median.

(** C22 REFUTED: points well inside three robust deviations are replaced. *)
Theorem C22_only_spikes_refuted : forall rnd, exists data P p v,
  0 < P /\ P <= length data /\ nth_error data p = Some v /\
  (v - qmedian (at_phase data P (p mod P)) < mad (at_phase data P (p mod P)))%Qc /\
  exists out w, remove_anomaly_in_bucket rnd data P = Ok out /\ nth_error out p = Some w /\ w <> v.
Proof.
  intros rnd. exists (zs [0; 3; 5; 6; 10]%Z), 1, 3, (qz 6).
  split; [lia|]. split; [simpl; lia|]. split; [reflexivity|]. split; [vm_compute; reflexivity|].
  rewrite bucket_spec by (simpl; lia). eexists _, _. split; [reflexivity|]. split; [reflexivity|].
  intro X. apply (f_equal this) in X. vm_compute in X. discriminate.
Qed.
Print Assumptions C22_only_spikes_refuted.
Example C22_example :
  match remove_anomaly_in_bucket (fun _ _ n => n) (zs [1; 10; 2; 11; 3; 90]%Z) 2 with
  | Ok out => map this out = [1; 10; 2; 11; 2; 11]%Q | _ => False end.
Proof. vm_compute. auto. Qed.
