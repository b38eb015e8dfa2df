(** The structure of the tests under any monotone rounding (C110). *)
From Coq Require Import List Arith ZArith Lia Bool Permutation Sorted.
From Verif Require Import Base Num Sorting Kernel_model Kernel_spec Kernel_proofs Kernel_proofs2 Kernel_proofs3.
From Verif Require Import Single_model Single_spec.
Import ListNotations.
Open Scope nat_scope.

(** Half a unit in the last place of floats near 1, and a bound for what
    rounding of tiny numbers loses. *)
Definition ulp : Qc := Q2Qc (1 # 16777216).
Definition tiny : Qc := Q2Qc (1 # 281474976710656).

(** What is used about rounding. *)
Record rounding (r : Qc -> Qc) : Prop := {
  r_zero : r 0%Qc = 0%Qc;
  r_mono : forall x y, (x <= y)%Qc -> (r x <= r y)%Qc;
  r_close : forall x, (Qcabs (r x - x) <= ulp * Qcabs x + tiny)%Qc;
  r_idem : forall x, r (r x) = r x;
  r_twice : forall x, r (Q2Qc 2 * r x)%Qc = (Q2Qc 2 * r x)%Qc }.

Lemma half_eq : forall x : Qc, (x / Q2Qc 2 = x * Q2Qc (1 # 2))%Qc.
Proof. intros. unfold Qcdiv. f_equal. Qed.

Lemma get_map : forall A B (f : A -> B) l i, get (map f l) i = do x <- get l i; Ok (f x).
Proof. intros. unfold get. rewrite nth_error_map. destruct (nth_error l i); auto. Qed.

Section S.
Variables r rd : Qc -> Qc.
Hypothesis HR : rounding r.

(** The middle of an ordered list of floats as computed. *)
Definition centre (w : list Qc) : Qc :=
  let h := length w / 2 in
  if Nat.odd (length w) then nth h w 0%Qc else r (r (nth (h - 1) w 0 + nth h w 0) / Q2Qc 2)%Qc.

Lemma sorted_median32_spec : forall vals k, k < length vals ->
  sorted_median32 r vals k (length vals) = Ok (centre (skipn k vals)).
Proof.
  intros vals k L. unfold sorted_median32, centre. rewrite skipn_length. set (n := length vals - k).
  assert (0 < n) by lia. destruct (n =? 0) eqn:E0; [apply Nat.eqb_eq in E0; lia|].
  rewrite <- mod2_odd. pose proof (Nat.div_mod n 2 ltac:(lia)). pose proof (Nat.mod_upper_bound n 2 ltac:(lia)).
  assert (n / 2 < n) by (apply Nat.div_lt; lia).
  assert (NS : forall p, nth p (skipn k vals) 0%Qc = nth (k + p) vals 0%Qc).
  { intros p. destruct (nth_error vals (k + p)) as [x|] eqn:Ex.
    - rewrite (nth_error_nth_d _ vals (k + p) x 0%Qc Ex). apply nth_error_nth_d. rewrite nth_error_skipn; auto.
    - apply nth_error_None in Ex. rewrite !nth_overflow; auto. rewrite skipn_length. lia. }
  destruct (n mod 2 =? 1) eqn:E; rewrite ?Nat.eqb_eq, ?Nat.eqb_neq in E.
  - destruct (get_in _ vals (k + n / 2) ltac:(lia)) as (x & -> & Ex). rewrite NS.
    rewrite (nth_error_nth_d _ _ _ _ 0%Qc Ex); auto.
  - destruct (get_in _ vals (k + n / 2 - 1) ltac:(lia)) as (x & -> & Ex).
    destruct (get_in _ vals (k + n / 2) ltac:(lia)) as (y & -> & Ey). cbn [bind]. rewrite !NS.
    replace (k + (n / 2 - 1)) with (k + n / 2 - 1) by lia.
    rewrite (nth_error_nth_d _ _ _ _ 0%Qc Ex), (nth_error_nth_d _ _ _ _ 0%Qc Ey); auto.
Qed.

(** Floats. *)
Definition floats (w : list Qc) : Prop := forall x, In x w -> r x = x.

Lemma floats_map : forall (g : Qc -> Qc) w, (forall x, r (g x) = g x) -> floats (map g w).
Proof. intros g w HG x H. apply in_map_iff in H. destruct H as (y & <- & _). auto. Qed.
Lemma floats_skipn : forall w k, floats w -> floats (skipn k w).
Proof. intros w k H x I. apply H. rewrite <- (firstn_skipn k w). apply in_or_app; auto. Qed.

Lemma between : forall x y, r x = x -> r y = y -> (x <= y)%Qc ->
  (x <= r (r (x + y) / Q2Qc 2) /\ r (r (x + y) / Q2Qc 2) <= y)%Qc.
Proof.
  intros x y Fx Fy L.
  pose proof (r_twice r HR x) as Tx. pose proof (r_twice r HR y) as Ty. rewrite Fx in Tx. rewrite Fy in Ty.
  pose proof (r_mono r HR (Q2Qc 2 * x) (x + y) ltac:(qlra))%Qc as A.
  pose proof (r_mono r HR (x + y) (Q2Qc 2 * y) ltac:(qlra))%Qc as B.
  rewrite Tx in A. rewrite Ty in B. set (s := r (x + y)) in *. clearbody s.
  assert (H1 : (x <= s / Q2Qc 2)%Qc) by (rewrite half_eq; qlra).
  assert (H2 : (s / Q2Qc 2 <= y)%Qc) by (rewrite half_eq; qlra).
  split; [rewrite <- Fx at 1|rewrite <- Fy]; apply (r_mono r HR); auto.
Qed.

Lemma centre_splits : forall upper w p x, ordered upper w -> floats w -> nth_error w p = Some x ->
  (p < length w / 2 -> if upper then (centre w <= x)%Qc else (x <= centre w)%Qc) /\
  (length w / 2 <= p -> if upper then (x <= centre w)%Qc else (centre w <= x)%Qc).
Proof.
  intros upper w p x H FL Hx. unfold centre.
  pose proof (nth_error_lt _ _ _ _ Hx) as L. set (n := length w) in *.
  pose proof (Nat.div_mod n 2 ltac:(lia)). pose proof (Nat.mod_upper_bound n 2 ltac:(lia)).
  assert (n / 2 < n) by (apply Nat.div_lt; lia).
  rewrite <- mod2_odd. destruct (n mod 2 =? 1) eqn:E; rewrite ?Nat.eqb_eq, ?Nat.eqb_neq in E.
  - pose proof (nth_error_of_nth _ w (n / 2) 0%Qc ltac:(lia)) as Hm.
    split; intros Lp.
    + pose proof (ordered_nth upper w p (n/2) _ _ H ltac:(lia) Hx Hm). destruct upper; auto.
    + pose proof (ordered_nth upper w (n/2) p _ _ H ltac:(lia) Hm Hx). destruct upper; auto.
  - pose proof (nth_error_of_nth _ w (n / 2 - 1) 0%Qc ltac:(lia)) as Ha.
    pose proof (nth_error_of_nth _ w (n / 2) 0%Qc ltac:(lia)) as Hb.
    pose proof (ordered_nth upper w (n/2-1) (n/2) _ _ H ltac:(lia) Ha Hb) as AB.
    set (u := nth (n / 2 - 1) w 0%Qc) in *. set (v := nth (n / 2) w 0%Qc) in *.
    assert (Fu : r u = u) by (apply FL, (nth_error_In _ _ Ha)).
    assert (Fv : r v = v) by (apply FL, (nth_error_In _ _ Hb)).
    split; intros Lp.
    + pose proof (ordered_nth upper w p (n/2-1) _ _ H ltac:(lia) Hx Ha) as O.
      destruct upper.
      * destruct (between v u Fv Fu AB). replace (u + v)%Qc with (v + u)%Qc by ring.
        eapply Qcle_trans; eauto.
      * destruct (between u v Fu Fv AB). eapply Qcle_trans; eauto.
    + pose proof (ordered_nth upper w (n/2) p _ _ H ltac:(lia) Hb Hx) as O.
      destruct upper.
      * destruct (between v u Fv Fu AB). replace (u + v)%Qc with (v + u)%Qc by ring.
        eapply Qcle_trans; eauto.
      * destruct (between u v Fu Fv AB). eapply Qcle_trans; eauto.
Qed.

(** The rounded distance. *)
Definition rdev (med x : Qc) : Qc := Qcabs (r (x - med)).
Lemma rdev_mono : forall med x y : Qc, ((med <= x /\ x <= y) \/ (y <= x /\ x <= med))%Qc -> (rdev med x <= rdev med y)%Qc.
Proof.
  intros med x y H. unfold rdev.
  assert (Z0 : r 0%Qc = 0%Qc) by (apply r_zero; auto).
  destruct H as [[A B]|[A B]].
  - pose proof (r_mono r HR 0%Qc (x - med)%Qc ltac:(qlra)). pose proof (r_mono r HR (x - med)%Qc (y - med)%Qc ltac:(qlra)).
    rewrite Z0 in *. set (a := r (x - med)%Qc) in *. set (b := r (y - med)%Qc) in *. clearbody a b. qmm; qlra.
  - pose proof (r_mono r HR (x - med)%Qc 0%Qc ltac:(qlra)). pose proof (r_mono r HR (y - med)%Qc (x - med)%Qc ltac:(qlra)).
    rewrite Z0 in *. set (a := r (x - med)%Qc) in *. set (b := r (y - med)%Qc) in *. clearbody a b. qmm; qlra.
Qed.

Lemma right_rdev_sorted : forall upper w, ordered upper w -> floats w ->
  qsorted (map (rdev (centre w)) (skipn (length w / 2) w)).
Proof.
  intros upper w H FL. apply qsorted_of_nth. intros i x y Hx Hy.
  apply nth_error_map_some in Hx. destruct Hx as (a & Ha & <-).
  apply nth_error_map_some in Hy. destruct Hy as (b & Hb & <-).
  rewrite nth_error_skipn in *.
  destruct (centre_splits upper w _ a H FL Ha) as [_ S1]. specialize (S1 ltac:(lia)).
  pose proof (ordered_nth upper w (length w / 2 + i) (length w / 2 + S i) a b H ltac:(lia) Ha Hb).
  apply rdev_mono. destruct upper; auto.
Qed.
Lemma left_rdev_sorted : forall upper w, ordered upper w -> floats w ->
  qsorted (map (rdev (centre w)) (rev (firstn (length w / 2) w))).
Proof.
  intros upper w H FL. set (h := length w / 2).
  assert (HH : h <= length w) by (apply Nat.div_le_upper_bound; lia).
  assert (LF : length (firstn h w) = h) by (rewrite firstn_length; lia).
  apply qsorted_of_nth. intros i x y Hx Hy.
  apply nth_error_map_some in Hx. destruct Hx as (a & Ha & <-).
  apply nth_error_map_some in Hy. destruct Hy as (b & Hb & <-).
  assert (S i < h) by (apply nth_error_lt in Hb; rewrite rev_length, LF in Hb; auto).
  rewrite nth_error_rev, LF, nth_error_firstn in Ha by lia.
  rewrite nth_error_rev, LF, nth_error_firstn in Hb by lia.
  destruct (h - S i <? h) eqn:E; [|discriminate]. destruct (h - S (S i) <? h) eqn:E2; [|discriminate].
  destruct (centre_splits upper w _ a H FL Ha) as [S1 _]. fold h in S1. specialize (S1 ltac:(lia)).
  pose proof (ordered_nth upper w (h - S (S i)) (h - S i) b a H ltac:(lia) Hb Ha).
  apply rdev_mono. destruct upper; auto.
Qed.

(** * The search, related to the exact one on the rounded distances *)
Definition finish (odd : bool) (m : Qc) : Qc :=
  if odd then r m else r (rd (rd (Q2Qc 2 * m) / Q2Qc 2))%Qc.

Section Sim.
Variables (a b : list Qc) (med : Qc).
Let Y := fun x => r (x - med)%Qc.

Lemma abs0 : forall x : Qc, Qcabs (x - 0) = Qcabs x.
Proof. intros. f_equal. ring. Qed.
Lemma dev_at_sim : forall l i, dev_at (map Y l) i 0%Qc = dev_at32 r l i med.
Proof.
  intros. unfold dev_at, dev_at32. rewrite get_map. destruct (get l i); auto. cbn [bind]. rewrite abs0. auto.
Qed.
Lemma dev_before_sim : forall l i, dev_before (map Y l) i 0%Qc = dev_before32 r l i med.
Proof. intros l [|i]; auto. apply dev_at_sim. Qed.

Lemma fm_found_sim : forall i j, fm_found32 r rd a b med i j =
  do m <- fm_found (map Y a) (map Y b) 0%Qc i j; Ok (finish ((length a + length b) mod 2 =? 1) m).
Proof.
  intros. unfold fm_found32, fm_found. rewrite !map_length, !dev_before_sim, !dev_at_sim.
  match goal with |- (do _ <- ?e; _) = _ => destruct e as [mx|]; auto end. cbn [bind].
  destruct ((length a + length b) mod 2 =? 1); auto.
  match goal with |- (do _ <- ?e; _) = _ => destruct e as [mn|]; auto end. cbn [bind]. unfold finish.
  do 5 f_equal. rewrite half_eq. qlra.
Qed.
Lemma fm_loop_sim : forall half fuel imin imax, fm_loop32 r rd fuel a b med half imin imax =
  do m <- fm_loop fuel (map Y a) (map Y b) 0%Qc half imin imax; Ok (finish ((length a + length b) mod 2 =? 1) m).
Proof.
  intros half. induction fuel as [|fuel IH]; intros imin imax; cbn [fm_loop32 fm_loop];
    destruct (negb (imin <=? imax)); auto.
  destruct (half <? (imin + imax) / 2); auto.
  rewrite !map_length, !dev_before_sim, !dev_at_sim.
  match goal with |- (do _ <- ?e; _) = _ => destruct e as [[|]|]; auto end; cbn [bind]; auto.
  match goal with |- (do _ <- ?e; _) = _ => destruct e as [[|]|]; auto end; cbn [bind]; auto.
  apply fm_found_sim.
Qed.
Lemma find_median_sim : find_median32 r rd a b med =
  do m <- find_median_sorted_arrays (map Y a) (map Y b) 0%Qc; Ok (finish ((length a + length b) mod 2 =? 1) m).
Proof. unfold find_median32, find_median_sorted_arrays. rewrite fm_loop_sim, !map_length. auto. Qed.
End Sim.

Lemma mad32_spec : forall upper vals k, ordered upper vals -> floats vals -> k < length vals ->
  let w := skipn k vals in
  find_median32 r rd
     (slice (rev vals) (length vals - k - (length vals - k) / 2) (length vals - k))
     (skipn (k + (length vals - k) / 2) vals) (centre w)
  = Ok (finish (Nat.odd (length w)) (qmedian (map (rdev (centre w)) w))).
Proof.
  intros upper vals k H FL L w.
  assert (Hw : ordered upper w) by (apply ordered_skipn; auto).
  assert (Fw : floats w) by (apply floats_skipn; auto).
  assert (LW : length w = length vals - k) by (apply skipn_length).
  assert (DH : (length vals - k) / 2 <= length vals - k) by (apply Nat.div_le_upper_bound; lia).
  rewrite slice_rev_tail by lia.
  rewrite <- skipn_skipn'. fold w. rewrite <- LW.
  pose proof (Nat.div_mod (length w) 2 ltac:(lia)). pose proof (Nat.mod_upper_bound (length w) 2 ltac:(lia)).
  rewrite find_median_sim.
  assert (LS : length (rev (firstn (length w / 2) w)) + length (skipn (length w / 2) w) = length w).
  { rewrite rev_length, firstn_length, skipn_length. lia. }
  rewrite LS, mod2_odd.
  assert (MM : forall l, map (dev 0%Qc) (map (fun x => r (x - centre w)%Qc) l) = map (rdev (centre w)) l).
  { intros. rewrite map_map. apply map_ext. intros. unfold dev, rdev. apply abs0. }
  rewrite find_median_spec; rewrite ?MM.
  - cbn [bind]. do 2 f_equal.
    set (g := rdev (centre w)). unfold qmedian. f_equal. apply qsort_perm_eq.
    transitivity (map g (firstn (length w / 2) w ++ skipn (length w / 2) w)).
    + rewrite map_app. apply Permutation_app_tail. apply Permutation_map. symmetry. apply Permutation_rev.
    + rewrite firstn_skipn. reflexivity.
  - apply (left_rdev_sorted upper); auto.
  - apply (right_rdev_sorted upper); auto.
  - rewrite !map_length, rev_length, firstn_length, skipn_length. lia.
  - rewrite map_length, skipn_length. lia.
Qed.

Lemma ordered_map : forall (g : Qc -> Qc) upper l, (forall x y, (x <= y)%Qc -> (g x <= g y)%Qc) ->
  ordered upper l -> ordered upper (map g l).
Proof.
  intros g upper l HG H. apply tail_ordered_ordered. intros i j x y L Hx Hy.
  apply nth_error_map_some in Hx. destruct Hx as (a & Ha & <-).
  apply nth_error_map_some in Hy. destruct Hy as (b & Hb & <-).
  apply tail_ordered_ordered in H. specialize (H i j a b L Ha Hb).
  destruct upper; auto.
Qed.

(** * The loops over the positions *)
Section Loop.
Variables (cst : Qc) (mean32 std32 : list Qc -> Qc).
Variables (vals : list Qc) (upper : bool) (thr : nat -> res Qc) (s : nat -> bool).

Definition tests (lo hi : nat) : Prop :=
  forall k, lo <= k < hi -> exists c, thr k = Ok c /\ tail_test32 r rd cst mean32 std32 vals upper k (r c) = Ok (s k).

Lemma loop32_entire : forall n start num, tests start (start + n) ->
  exists z, tail_loop32 r rd cst mean32 std32 vals upper false thr (seq start n) num = Ok z /\
    ((z = num /\ forall k, start <= k < start + n -> s k = false) \/
     (exists k, z = Z.of_nat k /\ start <= k < start + n /\ s k = true /\
        forall k', k < k' < start + n -> s k' = false)).
Proof.
  induction n as [|n IH]; intros start num HT.
  - simpl. exists num. split; auto. left. split; auto. intros; lia.
  - cbn [seq tail_loop32]. destruct (HT start ltac:(lia)) as (c & -> & E0). cbn [bind]. rewrite E0. cbn [bind].
    destruct (s start) eqn:Es.
    + destruct (IH (S start) (Z.of_nat start)) as (z & E & C); [intros k Hk; apply HT; lia|].
      exists z. split; auto. right. destruct C as [[-> N]|(k & -> & Lk & Sk & N)].
      * exists start. split; auto. split; [lia|]. split; auto. intros; apply N; lia.
      * exists k. split; auto. split; [lia|]. split; auto. intros; apply N; lia.
    + destruct (IH (S start) num) as (z & E & C); [intros k Hk; apply HT; lia|].
      exists z. split; auto. destruct C as [[-> N]|(k & -> & Lk & Sk & N)].
      * left. split; auto. intros k Lk. destruct (Nat.eq_dec k start) as [->|]; auto. apply N; lia.
      * right. exists k. split; auto. split; [lia|]. split; auto. intros; apply N; lia.
Qed.
Lemma loop32_last : forall n start, tests start (start + n) ->
  exists z, tail_loop32 r rd cst mean32 std32 vals upper true thr (seq start n) (-1) = Ok z /\
    ((z = (-1)%Z /\ forall k, start <= k < start + n -> s k = false) \/
     (exists k, z = Z.of_nat k /\ start <= k < start + n /\ s k = true /\
        forall k', start <= k' < k -> s k' = false)).
Proof.
  induction n as [|n IH]; intros start HT.
  - simpl. exists (-1)%Z. split; auto. left. split; auto. intros; lia.
  - cbn [seq tail_loop32]. destruct (HT start ltac:(lia)) as (c & -> & E0). cbn [bind]. rewrite E0. cbn [bind].
    destruct (s start) eqn:Es.
    + exists (Z.of_nat start). split; auto. right. exists start. split; auto. split; [lia|]. split; auto. intros; lia.
    + destruct (IH (S start)) as (z & E & C); [intros k Hk; apply HT; lia|].
      exists z. split; auto. destruct C as [[-> N]|(k & -> & Lk & Sk & N)].
      * left. split; auto. intros k Lk. destruct (Nat.eq_dec k start) as [->|]; auto. apply N; lia.
      * right. exists k. split; auto. split; [lia|]. split; auto. intros k' Lk'.
        destruct (Nat.eq_dec k' start) as [->|]; auto. apply N; lia.
Qed.
End Loop.

Lemma select32_entire : forall cst mean32 std32 vals upper thr s index maxo,
  tests cst mean32 std32 (map r vals) upper thr s 0 maxo ->
  exists n, tail_select32 r rd cst mean32 std32 vals index maxo thr upper None = Ok (firstn n index) /\ n <= maxo /\
    (forall k, k < maxo -> s k = true -> k < n) /\ (0 < n -> s (n - 1) = true).
Proof.
  intros cst mean32 std32 vals upper thr s index maxo HT. unfold tail_select32.
  replace (maxo - 0) with maxo by lia.
  destruct (loop32_entire cst mean32 std32 (map r vals) upper thr s maxo 0 (-1)) as (z & -> & C); [auto|].
  cbn [bind]. destruct C as [[-> N]|(k & -> & Lk & Sk & N)].
  - exists 0. split; auto. split; [lia|]. split; [|lia]. intros k Lk T. rewrite N in T; [discriminate|lia].
  - exists (S k). replace (Z.to_nat (Z.of_nat k + 1)) with (S k) by lia. split; auto. split; [lia|].
    split.
    + intros k' Lk' S'. destruct (Nat.lt_ge_cases k' (S k)); auto. rewrite N in S'; [discriminate|lia].
    + intros _. replace (S k - 1) with k by lia. auto.
Qed.
Lemma select32_last : forall cst mean32 std32 vals upper thr s index maxo li,
  tests cst mean32 std32 (map r vals) upper thr s li maxo ->
  exists n, tail_select32 r rd cst mean32 std32 vals index maxo thr upper (Some li) = Ok (firstn n index) /\
    (n = 0 /\ (forall k, li <= k < maxo -> s k = false) \/
     li < n /\ n <= maxo /\ s (n - 1) = true /\ forall k, li <= k < n - 1 -> s k = false).
Proof.
  intros cst mean32 std32 vals upper thr s index maxo li HT. unfold tail_select32.
  destruct (Nat.le_gt_cases maxo li) as [C0|C0].
  - replace (maxo - li) with 0 by lia. simpl. exists 0. split; auto. left. split; auto. intros; lia.
  - destruct (loop32_last cst mean32 std32 (map r vals) upper thr s (maxo - li) li) as (z & -> & C).
    { replace (li + (maxo - li)) with maxo by lia. auto. }
    cbn [bind]. destruct C as [[-> N]|(k & -> & Lk & Sk & N)].
    + exists 0. split; auto. left. split; auto. intros k Lk. apply N; lia.
    + exists (S k). replace (Z.to_nat (Z.of_nat k + 1)) with (S k) by lia. split; auto. right.
      replace (S k - 1) with k by lia. split; [lia|]. split; [lia|]. split; auto.
Qed.
End S.
