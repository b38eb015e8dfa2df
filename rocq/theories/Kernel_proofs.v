(** Selection and order statistics (C17). *)
From Coq Require Import List Arith ZArith Lia Bool Permutation Sorted.
From Verif Require Import Base Num Sorting Kernel_model.
Import ListNotations.
Open Scope nat_scope.

Lemma get_ok : forall A (l : list A) i x, get l i = Ok x <-> nth_error l i = Some x.
Proof. intros. unfold get. destruct (nth_error l i); split; intros H; inversion H; auto. Qed.
Lemma get_in : forall A (l : list A) i, i < length l -> exists x, get l i = Ok x /\ nth_error l i = Some x.
Proof. intros. destruct (nth_error_ex _ l i H) as [x E]. exists x. split; auto. apply get_ok; auto. Qed.

(** * Order statistics *)
Lemma qsorted_app : forall a b, qsorted a -> qsorted b ->
  (forall x y, In x a -> In y b -> (x <= y)%Qc) -> qsorted (a ++ b).
Proof.
  induction a as [|x t IH]; intros b Sa Sb H; simpl; auto.
  inversion Sa as [|? ? S' F]; subst. constructor.
  - apply IH; auto. intros; apply H; simpl; auto.
  - rewrite Forall_forall in *. intros y Iy. apply in_app_or in Iy. destruct Iy.
    + apply F; auto.
    + apply H; simpl; auto.
Qed.

Lemma qsort_app : forall a b, (forall x y, In x a -> In y b -> (x <= y)%Qc) ->
  qsort (a ++ b) = qsort a ++ qsort b.
Proof.
  intros a b H. apply qsorted_unique; auto using qsort_sorted.
  - apply qsorted_app; auto using qsort_sorted. intros x y Ix Iy. apply H.
    + eapply Permutation_in; [symmetry; apply qsort_perm|auto].
    + eapply Permutation_in; [symmetry; apply qsort_perm|auto].
  - rewrite <- qsort_perm. apply Permutation_app; apply qsort_perm.
Qed.

Lemma split_nth : forall A (l : list A) n v, nth_error l n = Some v ->
  l = firstn n l ++ v :: skipn (S n) l.
Proof.
  induction l as [|h t IH]; intros [|n] v H; simpl in *; try discriminate.
  - inversion H; auto.
  - f_equal. apply IH; auto.
Qed.

Lemma in_firstn_nth : forall A (l : list A) n x, In x (firstn n l) ->
  exists p, p < n /\ nth_error l p = Some x.
Proof.
  intros A l n x H. apply In_nth_error in H. destruct H as [p H].
  rewrite nth_error_firstn in H. destruct (p <? n) eqn:E; [|discriminate].
  apply Nat.ltb_lt in E. eauto.
Qed.
Lemma in_skipn_nth : forall A (l : list A) n x, In x (skipn n l) ->
  exists p, n <= p /\ nth_error l p = Some x.
Proof.
  intros A l n x H. apply In_nth_error in H. destruct H as [p H].
  rewrite nth_error_skipn in H. exists (n + p). split; [lia|auto].
Qed.

Lemma order_stat : forall l n v, nth_error l n = Some v ->
  (forall p x, p < n -> nth_error l p = Some x -> (x <= v)%Qc) ->
  (forall p x, n < p -> nth_error l p = Some x -> (v <= x)%Qc) ->
  nth_error (qsort l) n = Some v.
Proof.
  intros l n v H L G. rewrite (split_nth _ l n v H) at 1.
  assert (HL : n < length l) by (eapply nth_error_lt; eauto).
  change (v :: skipn (S n) l) with ([v] ++ skipn (S n) l). rewrite qsort_app.
  - rewrite nth_error_app2; rewrite qsort_length, firstn_length; [|lia].
    replace (n - Nat.min n (length l)) with 0 by lia.
    rewrite qsort_app.
    + simpl. auto.
    + intros x y [<-|[]] Iy. apply in_skipn_nth in Iy. destruct Iy as (p & Lp & Hp). apply (G p); auto.
  - intros x y Ix Iy. apply in_firstn_nth in Ix. destruct Ix as (p & Lp & Hp).
    apply in_app_or in Iy. destruct Iy as [[<-|[]]|Iy]; [apply (L p); auto|].
    apply in_skipn_nth in Iy. destruct Iy as (q & Lq & Hq).
    pose proof (L p x Lp Hp). pose proof (G q y Lq Hq). qlra.
Qed.

(** * Exchange *)
Definition tr (i j p : nat) : nat := if p =? i then j else if p =? j then i else p.
Lemma swap_spec : forall l i j, i < length l -> j < length l ->
  exists l', swap l i j = Ok l' /\ length l' = length l /\
    (forall p, nth_error l' p = nth_error l (tr i j p)) /\ Permutation l l'.
Proof.
  intros l i j Hi Hj. unfold swap.
  destruct (get_in _ l i Hi) as (x & -> & Ex). destruct (get_in _ l j Hj) as (y & Gy & Ey).
  simpl. rewrite Gy. simpl. eexists. split; [reflexivity|].
  assert (N : forall p, nth_error (upd (upd l i y) j x) p = nth_error l (tr i j p)).
  { intros p. rewrite !nth_error_upd, upd_length.
    replace (i <? length l) with true by (symmetry; apply Nat.ltb_lt; auto).
    replace (j <? length l) with true by (symmetry; apply Nat.ltb_lt; auto).
    unfold tr. destruct (p =? j) eqn:E1; destruct (p =? i) eqn:E2; auto.
    - apply Nat.eqb_eq in E1, E2. subst. congruence. }
  split; [rewrite !upd_length; auto|]. split; auto.
  apply Permutation_nth_error. rewrite !upd_length. split; auto.
  exists (tr i j). split; auto.
  intros a b. unfold tr.
  destruct (a =? i) eqn:A1; destruct (b =? i) eqn:B1; destruct (a =? j) eqn:A2; destruct (b =? j) eqn:B2;
    rewrite ?Nat.eqb_eq, ?Nat.eqb_neq in *; intros; subst; try lia; try congruence.
Qed.

Lemma tr_cases : forall i j p, (p = i /\ tr i j p = j) \/ (p = j /\ tr i j p = i) \/
  (p <> i /\ p <> j /\ tr i j p = p).
Proof.
  intros. unfold tr. destruct (p =? i) eqn:A; destruct (p =? j) eqn:B;
  rewrite ?Nat.eqb_eq, ?Nat.eqb_neq in *; auto; lia.
Qed.

(** * Partition *)
Record part_inv (d0 d : list Qc) (pv : Qc) (left right li i rs1 : nat) : Prop := {
  pi_perm : Permutation d0 d;
  pi_len : length d = length d0;
  pi_out : forall p, p < left \/ right < p -> nth_error d p = nth_error d0 p;
  pi_rng : forall p, left <= p <= right -> exists q, left <= q <= right /\ nth_error d p = nth_error d0 q;
  pi_lt : forall p x, left <= p < li -> nth_error d p = Some x -> (x < pv)%Qc;
  pi_eq : forall p x, li <= p < i -> nth_error d p = Some x -> x = pv;
  pi_gt : forall p x, rs1 <= p <= right -> nth_error d p = Some x -> (pv < x)%Qc;
  pi_ord : left <= li /\ li <= i /\ i <= rs1 /\ rs1 <= S right;
  pi_pv : exists p, li <= p < rs1 /\ nth_error d p = Some pv
}.

Lemma part_loop_spec : forall fuel d0 d pv left right li i rs1,
  part_inv d0 d pv left right li i rs1 -> rs1 - i <= fuel -> right < length d0 ->
  exists d' li' rs', partition_loop fuel d pv li i rs1 = Ok (d', li', rs') /\
    part_inv d0 d' pv left right li' rs' rs'.
Proof.
  induction fuel as [|fuel IH]; intros d0 d pv left right li i rs1 I HF HR;
    pose proof (pi_ord _ _ _ _ _ _ _ _ I) as (O1 & O2 & O3 & O4); cbn [partition_loop];
    destruct (i <? rs1) eqn:E; rewrite ?Nat.ltb_lt, ?Nat.ltb_ge in E; cbn [negb].
  - lia.
  - exists d, li, rs1. split; auto. replace rs1 with i at 1 by lia. replace i with rs1 in I by lia.
    replace i with rs1 by lia. auto.
  - pose proof (pi_len _ _ _ _ _ _ _ _ I) as HL.
    destruct (get_in _ d i ltac:(lia)) as (x & Gx & Ex). rewrite Gx. cbn [bind].
    destruct (x <? pv)%Qc eqn:E1; [|destruct (pv <? x)%Qc eqn:E2]; qb_hyps.
    + destruct (swap_spec d li i ltac:(lia) ltac:(lia)) as (d' & Sw & Ld & N & P).
      rewrite Sw. cbn [bind]. apply (IH d0 d' pv left right (S li) (S i) rs1); [|lia|auto].
      destruct I as [i1 i2 i3 i4 i5 i6 i7 i8 i9].
      constructor; try lia.
      * rewrite i1; auto.
      * intros p Hp. rewrite N. rewrite <- (i3 p Hp). f_equal.
        destruct (tr_cases li i p) as [[? ->]|[[? ->]|(? & ? & ->)]]; lia.
      * intros p Hp. rewrite N.
        destruct (tr_cases li i p) as [[? ->]|[[? ->]|(? & ? & ->)]]; apply i4; lia.
      * intros p y Hp. rewrite N.
        destruct (tr_cases li i p) as [[? ->]|[[? ->]|(? & ? & ->)]]; intros Hy.
        -- rewrite Ex in Hy. inversion Hy; subst; auto.
        -- replace li with i in Hy by lia. rewrite Ex in Hy. inversion Hy; subst; auto.
        -- apply (i5 p); [lia|auto].
      * intros p y Hp. rewrite N.
        destruct (tr_cases li i p) as [[? ->]|[[? ->]|(? & ? & ->)]]; intros Hy; try lia.
        -- apply (i6 li); [lia|auto].
        -- apply (i6 p); [lia|auto].
      * intros p y Hp. rewrite N.
        destruct (tr_cases li i p) as [[? ->]|[[? ->]|(? & ? & ->)]]; intros Hy; try lia.
        apply (i7 p); auto.
      * destruct i9 as (p & Hp & Ep).
        assert (p <> i). { intro; subst. rewrite Ex in Ep. inversion Ep; subst. qlra. }
        destruct (Nat.eq_dec p li) as [->|NE].
        -- exists i. split; [lia|]. rewrite N. destruct (tr_cases li i i) as [[? ->]|[[? ->]|(? & ? & ->)]]; auto; lia.
        -- exists p. split; [lia|]. rewrite N. destruct (tr_cases li i p) as [[? ->]|[[? ->]|(? & ? & ->)]]; auto; lia.
    + destruct (swap_spec d (rs1 - 1) i ltac:(lia) ltac:(lia)) as (d' & Sw & Ld & N & P).
      rewrite Sw. cbn [bind]. apply (IH d0 d' pv left right li i (rs1 - 1)); [|lia|auto].
      destruct I as [i1 i2 i3 i4 i5 i6 i7 i8 i9].
      constructor; try lia.
      * rewrite i1; auto.
      * intros p Hp. rewrite N. rewrite <- (i3 p Hp). f_equal.
        destruct (tr_cases (rs1 - 1) i p) as [[? ->]|[[? ->]|(? & ? & ->)]]; lia.
      * intros p Hp. rewrite N.
        destruct (tr_cases (rs1 - 1) i p) as [[? ->]|[[? ->]|(? & ? & ->)]]; apply i4; lia.
      * intros p y Hp. rewrite N.
        destruct (tr_cases (rs1 - 1) i p) as [[? ->]|[[? ->]|(? & ? & ->)]]; intros Hy; try lia.
        apply (i5 p); auto.
      * intros p y Hp. rewrite N.
        destruct (tr_cases (rs1 - 1) i p) as [[? ->]|[[? ->]|(? & ? & ->)]]; intros Hy; try lia.
        apply (i6 p); auto.
      * intros p y Hp. rewrite N.
        destruct (tr_cases (rs1 - 1) i p) as [[? ->]|[[? ->]|(? & ? & ->)]]; intros Hy.
        -- rewrite Ex in Hy. inversion Hy; subst; auto.
        -- replace (rs1 - 1) with i in Hy by lia. rewrite Ex in Hy. inversion Hy; subst; auto.
        -- apply (i7 p); [lia|auto].
      * destruct i9 as (p & Hp & Ep).
        assert (p <> i). { intro; subst. rewrite Ex in Ep. inversion Ep; subst. qlra. }
        destruct (Nat.eq_dec p (rs1 - 1)) as [->|NE].
        -- exists i. split; [lia|]. rewrite N. destruct (tr_cases (rs1 - 1) i i) as [[? ->]|[[? ->]|(? & ? & ->)]]; auto; lia.
        -- exists p. split; [lia|]. rewrite N. destruct (tr_cases (rs1 - 1) i p) as [[? ->]|[[? ->]|(? & ? & ->)]]; auto; lia.
    + apply (IH d0 d pv left right li (S i) rs1); [|lia|auto].
      destruct I as [i1 i2 i3 i4 i5 i6 i7 i8 i9]. constructor; auto; try lia.
      intros p y Hp Hy. destruct (Nat.eq_dec p i) as [->|NE].
      * rewrite Ex in Hy. inversion Hy; subst. qlra.
      * apply (i6 p); [lia|auto].
  - exists d, li, rs1. split; auto. replace i with rs1 in I by lia. auto.
Qed.

Lemma partition_spec : forall d left right pivot, left <= right -> right < length d ->
  left <= pivot <= right ->
  exists d' m v, partition d left right pivot = Ok (d', m) /\ left <= m <= right /\
    Permutation d d' /\ length d' = length d /\
    (forall p, p < left \/ right < p -> nth_error d' p = nth_error d p) /\
    (forall p, left <= p <= right -> exists q, left <= q <= right /\ nth_error d' p = nth_error d q) /\
    nth_error d' m = Some v /\
    (forall p x, left <= p < m -> nth_error d' p = Some x -> (x <= v)%Qc) /\
    (forall p x, m < p <= right -> nth_error d' p = Some x -> (v <= x)%Qc).
Proof.
  intros d left right pivot L R P. unfold partition.
  destruct (get_in _ d pivot ltac:(lia)) as (pv & Gp & Ep). rewrite Gp. cbn [bind].
  destruct (part_loop_spec (S right - left) d d pv left right left left (S right)) as (d' & li & rs & E & I); try lia.
  { constructor; auto; try lia. eauto. exists pivot. split; [lia|auto]. }
  rewrite E. cbn [bind]. destruct I as [i1 i2 i3 i4 i5 i6 i7 i8 i9].
  destruct i9 as (q & Hq & Eq).
  assert (M : li <= (li + rs - 1) / 2 < rs).
  { pose proof (Nat.div_mod (li + rs - 1) 2 ltac:(lia)). pose proof (Nat.mod_upper_bound (li + rs - 1) 2 ltac:(lia)). lia. }
  exists d', ((li + rs - 1) / 2), pv. split; auto. split; [lia|].
  split; auto. split; auto. split; auto. split; auto.
  destruct (nth_error_ex _ d' ((li + rs - 1) / 2)) as [y Hy]; [lia|].
  split. { rewrite Hy. f_equal. apply (i6 _ _ M Hy). }
  split; intros p x Hp Hx.
  - destruct (Nat.lt_ge_cases p li).
    + apply Qclt_le_weak. apply (i5 p); [lia|auto].
    + rewrite (i6 p x); [apply Qcle_refl|lia|auto].
  - destruct (Nat.lt_ge_cases p rs).
    + rewrite (i6 p x); [apply Qcle_refl|lia|auto].
    + apply Qclt_le_weak. apply (i7 p); [lia|auto].
Qed.

(** * Selection *)
Definition separated (d : list Qc) (left right : nat) : Prop :=
  (forall p q x y, p < left -> left <= q -> nth_error d p = Some x -> nth_error d q = Some y -> (x <= y)%Qc) /\
  (forall p q x y, p <= right -> right < q -> nth_error d p = Some x -> nth_error d q = Some y -> (x <= y)%Qc).

Lemma select_spec : forall fuel rnd d left right n, right - left < fuel -> left <= n <= right ->
  right < length d -> separated d left right ->
  exists v d', select fuel rnd d left right n = Ok (v, d') /\ Permutation d d' /\
    nth_error d' n = Some v /\
    (forall p x, p < n -> nth_error d' p = Some x -> (x <= v)%Qc) /\
    (forall p x, n < p -> nth_error d' p = Some x -> (v <= x)%Qc).
Proof.
  induction fuel as [|fuel IH]; intros rnd d left right n HF HN HR [S1 S2]; [lia|].
  cbn [select]. destruct (left =? right) eqn:E; rewrite ?Nat.eqb_eq, ?Nat.eqb_neq in E.
  - subst right. assert (n = left) by lia. subst n.
    destruct (get_in _ d left HR) as (v & G & Ev). rewrite G. cbn [bind].
    exists v, d. split; auto. split; auto. split; auto. split; intros p x Hp Hx.
    + apply (S1 p left x v); auto.
    + apply (S2 left p v x); auto.
  - set (piv := rnd 0 mod (right - left + 1) + left).
    assert (Hpiv : left <= piv <= right).
    { unfold piv. pose proof (Nat.mod_upper_bound (rnd 0) (right - left + 1) ltac:(lia)). lia. }
    destruct (partition_spec d left right piv ltac:(lia) HR Hpiv)
      as (d' & m & v & EP & Hm & P & L & OUT & RNG & Hv & LE & GE).
    rewrite EP. cbn [bind].
    assert (S1' : forall p q x y, p < left -> left <= q -> nth_error d' p = Some x -> nth_error d' q = Some y -> (x <= y)%Qc).
    { intros p q x y Hp Hq Hx Hy. rewrite OUT in Hx by auto.
      destruct (Nat.le_gt_cases q right).
      - destruct (RNG q ltac:(lia)) as (q' & Hq' & Eq). rewrite Eq in Hy. apply (S1 p q' x y); auto; lia.
      - rewrite OUT in Hy by auto. apply (S1 p q x y); auto. }
    assert (S2' : forall p q x y, p <= right -> right < q -> nth_error d' p = Some x -> nth_error d' q = Some y -> (x <= y)%Qc).
    { intros p q x y Hp Hq Hx Hy. rewrite (OUT q) in Hy by auto.
      destruct (Nat.le_gt_cases left p).
      - destruct (RNG p ltac:(lia)) as (q' & Hq' & Eq). rewrite Eq in Hx. apply (S2 q' q x y); auto; lia.
      - rewrite OUT in Hx by auto. apply (S2 p q x y); auto. }
    assert (BV : forall p x, p < m -> nth_error d' p = Some x -> (x <= v)%Qc).
    { intros p x Hp Hx. destruct (Nat.lt_ge_cases p left).
      - apply (S1' p m); auto; lia.
      - apply (LE p); auto. }
    assert (AV : forall p x, m < p -> nth_error d' p = Some x -> (v <= x)%Qc).
    { intros p x Hp Hx. destruct (Nat.le_gt_cases p right).
      - apply (GE p); auto.
      - apply (S2' m p); auto; lia. }
    destruct (n =? m) eqn:E1; [|destruct (n <? m) eqn:E2];
      rewrite ?Nat.eqb_eq, ?Nat.eqb_neq, ?Nat.ltb_lt, ?Nat.ltb_ge in *.
    + subst m. replace (get d' n) with (Ok v) by (symmetry; apply get_ok; auto). cbn [bind].
      exists v, d'. auto 6.
    + destruct (IH (fun t => rnd (S t)) d' left (m - 1) n) as (w & d2 & E3 & P2 & R); try lia.
      { split; auto. intros p q x y Hp Hq Hx Hy. assert (p < m) by lia.
        destruct (Nat.eq_dec q m) as [->|].
        - rewrite Hv in Hy. inversion Hy; subst. apply (BV p); auto.
        - pose proof (BV p x ltac:(lia) Hx). pose proof (AV q y ltac:(lia) Hy). qlra. }
      exists w, d2. split; auto. split; [rewrite P; auto|auto].
    + destruct (IH (fun t => rnd (S t)) d' (m + 1) right n) as (w & d2 & E3 & P2 & R); try lia.
      { split; auto. intros p q x y Hp Hq Hx Hy.
        destruct (Nat.eq_dec p m) as [->|].
        - rewrite Hv in Hx. inversion Hx; subst. apply (AV q); auto; lia.
        - pose proof (BV p x ltac:(lia) Hx). pose proof (AV q y ltac:(lia) Hy). qlra. }
      exists w, d2. split; auto. split; [rewrite P; auto|auto].
Qed.

Lemma quick_select_spec : forall rnd data k, 1 <= k <= length data ->
  exists v d', quick_select rnd data k = Ok (v, d') /\ Permutation data d' /\
    nth_error (qsort data) (k - 1) = Some v.
Proof.
  intros rnd data k H. unfold quick_select. destruct data as [|x t]; [simpl in H; lia|].
  destruct k as [|n]; [lia|]. set (d := x :: t) in *.
  destruct (select_spec (length d) rnd d 0 (length d - 1) n) as (v & d' & E & P & N & L & G); try lia.
  { split; intros p q a b Hp Hq Ha Hb; [lia|]. apply nth_error_lt in Hb. lia. }
  rewrite E. exists v, d'. split; auto. split; auto.
  replace (S n - 1) with n by lia. rewrite (qsort_perm_eq d d' P). apply order_stat; auto.
Qed.

Lemma mod2_odd : forall n, (n mod 2 =? 1) = Nat.odd n.
Proof.
  intros n. rewrite <- Nat.bit0_odd, Nat.bit0_eqb. reflexivity.
Qed.

Lemma fast_median_spec : forall rnd1 rnd2 l, l <> [] -> fast_median rnd1 rnd2 l = Ok (qmedian l).
Proof.
  intros rnd1 rnd2 l NE. unfold fast_median, qmedian, median_of_sorted. rewrite qsort_length, mod2_odd.
  assert (L : 0 < length l) by (destruct l; simpl; [congruence|lia]).
  pose proof (Nat.div_mod (length l) 2 ltac:(lia)) as D.
  destruct (Nat.odd (length l)) eqn:O.
  - assert (length l / 2 < length l) by (apply Nat.div_lt; lia).
    destruct (quick_select_spec rnd1 l (length l / 2 + 1)) as (v & d' & -> & _ & N); [lia|].
    cbn [bind fst]. replace (length l / 2 + 1 - 1) with (length l / 2) in N by lia.
    rewrite (nth_error_nth_d _ _ _ _ 0%Qc N). auto.
  - rewrite <- Nat.negb_even, negb_false_iff, Nat.even_spec in O. destruct O as [h Hh].
    assert (length l / 2 = h) by (rewrite Hh, Nat.mul_comm; apply Nat.div_mul; lia).
    assert (h < length l) by lia.
    destruct (quick_select_spec rnd1 l (length l / 2)) as (v & d' & -> & P & N); [lia|].
    cbn [bind fst snd]. pose proof (Permutation_length P).
    destruct (quick_select_spec rnd2 d' (length l / 2 + 1)) as (v2 & d2 & -> & _ & N2); [lia|].
    cbn [bind fst snd]. rewrite <- (qsort_perm_eq _ _ P) in N2.
    replace (length l / 2 + 1 - 1) with (length l / 2) in N2 by lia.
    rewrite (nth_error_nth_d _ _ _ _ 0%Qc N), (nth_error_nth_d _ _ _ _ 0%Qc N2). auto.
Qed.
