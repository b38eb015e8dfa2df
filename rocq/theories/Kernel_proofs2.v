(** Median and MAD of sorted arrays (C18). *)
From Coq Require Import List Arith ZArith Lia Bool Permutation Sorted.
From Verif Require Import Base Num Sorting Kernel_model Kernel_proofs.
Import ListNotations.
Open Scope nat_scope.

Lemma sorted_max_last : forall l v, In v l -> (forall x, In x l -> (x <= v)%Qc) ->
  nth_error (qsort l) (length l - 1) = Some v.
Proof.
  intros l v I H. pose proof (qsort_perm l) as P.
  assert (Iv : In v (qsort l)) by (eapply Permutation_in; eauto).
  apply In_nth_error in Iv. destruct Iv as [k Hk].
  assert (LL : length (qsort l) = length l) by apply qsort_length.
  assert (Lk : k < length l) by (rewrite <- LL; eapply nth_error_lt; eauto).
  destruct (nth_error_ex _ (qsort l) (length l - 1)) as [w Hw]; [lia|].
  rewrite Hw. f_equal.
  pose proof (qsorted_nth (qsort l) k (length l - 1) v w (qsort_sorted l) ltac:(lia) Hk Hw).
  assert (w <= v)%Qc. { apply H. eapply Permutation_in; [symmetry; apply P|eapply nth_error_In; eauto]. }
  qlra.
Qed.
Lemma sorted_min_first : forall l v, In v l -> (forall x, In x l -> (v <= x)%Qc) ->
  nth_error (qsort l) 0 = Some v.
Proof.
  intros l v I H. pose proof (qsort_perm l) as P.
  assert (Iv : In v (qsort l)) by (eapply Permutation_in; eauto).
  apply In_nth_error in Iv. destruct Iv as [k Hk].
  destruct (nth_error_ex _ (qsort l) 0) as [w Hw]; [apply nth_error_lt in Hk; lia|].
  rewrite Hw. f_equal.
  pose proof (qsorted_nth (qsort l) 0 k w v (qsort_sorted l) ltac:(lia) Hw Hk).
  assert (v <= w)%Qc. { apply H. eapply Permutation_in; [symmetry; apply P|eapply nth_error_In; eauto]. }
  qlra.
Qed.

(** Reading deviations. *)
Definition dev (med x : Qc) : Qc := Qcabs (x - med).
Lemma dev_at_get : forall l i med, dev_at l i med = get (map (dev med) l) i.
Proof.
  intros. unfold dev_at, get. rewrite nth_error_map. destruct (nth_error l i); auto.
Qed.
Lemma dev_before_get : forall l i med, dev_before l (S i) med = get (map (dev med) l) i.
Proof. intros. apply dev_at_get. Qed.

Section TwoArrays.
Variables (a b : list Qc) (med : Qc).
Let A := map (dev med) a.
Let B := map (dev med) b.
Let m := length a.
Let n := length b.
Let half := (m + n + 1) / 2.
Hypothesis SA : qsorted A.
Hypothesis SB : qsorted B.
Hypothesis MN : m <= n.
Hypothesis N1 : 1 <= n.

Lemma half_bounds : m <= half /\ half <= n /\ 1 <= half /\
  ((m + n) mod 2 = 1 -> m + n = 2 * half - 1) /\ ((m + n) mod 2 <> 1 -> m + n = 2 * half).
Proof.
  unfold half. pose proof (Nat.div_mod (m + n + 1) 2 ltac:(lia)).
  pose proof (Nat.mod_upper_bound (m + n + 1) 2 ltac:(lia)).
  pose proof (Nat.div_mod (m + n) 2 ltac:(lia)).
  pose proof (Nat.mod_upper_bound (m + n) 2 ltac:(lia)). lia.
Qed.

Definition small (i : nat) : Prop :=
  i < m /\ exists x y, nth_error A i = Some x /\ nth_error B (half - i - 1) = Some y /\ (x < y)%Qc.
Definition big (i : nat) : Prop :=
  0 < i /\ exists x y, nth_error A (i - 1) = Some x /\ nth_error B (half - i) = Some y /\ (y < x)%Qc.

Lemma LA : length A = m. Proof. apply map_length. Qed.
Lemma LB : length B = n. Proof. apply map_length. Qed.

Lemma split_ok : forall i, i <= m -> ~ small i -> ~ big i ->
  forall x y, In x (firstn i A ++ firstn (half - i) B) -> In y (skipn i A ++ skipn (half - i) B) -> (x <= y)%Qc.
Proof.
  intros i Hi NS NB x y Hx Hy. destruct half_bounds as (H1 & H2 & H3 & _).
  pose proof LA. pose proof LB.
  apply in_app_or in Hx. apply in_app_or in Hy.
  destruct Hx as [Hx|Hx]; apply in_firstn_nth in Hx; destruct Hx as (p & Lp & Ep);
  destruct Hy as [Hy|Hy]; apply in_skipn_nth in Hy; destruct Hy as (q & Lq & Eq).
  - apply (qsorted_nth A p q); auto; lia.
  - assert (Lb : half - i < n) by (apply nth_error_lt in Eq; lia).
    destruct (nth_error_ex _ A (i - 1)) as [u Hu]; [lia|].
    destruct (nth_error_ex _ B (half - i)) as [w Hw]; [lia|].
    pose proof (qsorted_nth A p (i-1) x u SA ltac:(lia) Ep Hu).
    pose proof (qsorted_nth B (half-i) q w y SB ltac:(lia) Hw Eq).
    destruct (Qclt_le_dec w u) as [C|C].
    + exfalso. apply NB. split; [lia|]. exists u, w. auto.
    + qlra.
  - assert (Lb : i < m) by (apply nth_error_lt in Eq; lia).
    destruct (nth_error_ex _ A i) as [u Hu]; [lia|].
    destruct (nth_error_ex _ B (half - i - 1)) as [w Hw]; [lia|].
    pose proof (qsorted_nth B p (half - i-1) x w SB ltac:(lia) Ep Hw).
    pose proof (qsorted_nth A i q u y SA ltac:(lia) Hu Eq).
    destruct (Qclt_le_dec u w) as [C|C].
    + exfalso. apply NS. split; [lia|]. exists u, w. auto.
    + qlra.
  - apply (qsorted_nth B p q); auto; lia.
Qed.

Lemma perm_split : forall (X : Type) (l r : list X) i j, Permutation (l ++ r)
  ((firstn i l ++ firstn j r) ++ (skipn i l ++ skipn j r)).
Proof.
  intros. rewrite <- (firstn_skipn i l) at 1. rewrite <- (firstn_skipn j r) at 1.
  rewrite <- !app_assoc. apply Permutation_app_head. rewrite !app_assoc. apply Permutation_app_tail.
  apply Permutation_app_comm.
Qed.

Lemma merged : forall i, i <= m -> ~ small i -> ~ big i ->
  qsort (A ++ B) = qsort (firstn i A ++ firstn (half - i) B) ++ qsort (skipn i A ++ skipn (half - i) B).
Proof.
  intros i Hi NS NB. rewrite <- qsort_app by (apply split_ok; auto).
  apply qsort_perm_eq. apply perm_split.
Qed.

Lemma left_len : forall i, i <= m -> length (firstn i A ++ firstn (half - i) B) = half.
Proof.
  intros i Hi. destruct half_bounds as (H1 & H2 & H3 & _). pose proof LA. pose proof LB.
  rewrite app_length, !firstn_length. lia.
Qed.

Lemma in_firstn : forall X (l : list X) i p x, p < i -> nth_error l p = Some x -> In x (firstn i l).
Proof.
  intros X l i p x L H. apply (nth_error_In _ p). rewrite nth_error_firstn.
  destruct (p <? i) eqn:E; auto. apply Nat.ltb_ge in E; lia.
Qed.
Lemma in_skipn : forall X (l : list X) i p x, i <= p -> nth_error l p = Some x -> In x (skipn i l).
Proof.
  intros X l i p x L H. apply (nth_error_In _ (p - i)). rewrite nth_error_skipn.
  replace (i + (p - i)) with p by lia. auto.
Qed.

Lemma found_spec : forall i, i <= m -> ~ small i -> ~ big i ->
  fm_found a b med i (half - i) = Ok (qmedian (A ++ B)).
Proof.
  intros i Hi NS NB. destruct half_bounds as (H1 & H2 & H3 & H4 & H5). pose proof LA. pose proof LB.
  pose proof (merged i Hi NS NB) as MG.
  set (L := firstn i A ++ firstn (half - i) B) in *. set (R := skipn i A ++ skipn (half - i) B) in *.
  assert (LL : length L = half) by (apply left_len; auto).
  (* the maximum of the left part *)
  assert (ML : exists v, (if i =? 0 then dev_before b (half - i) med
     else if half - i =? 0 then dev_before a i med
     else do x <- dev_before a i med; do y <- dev_before b (half - i) med; Ok (Qcmax x y)) = Ok v /\
     In v L /\ forall x, In x L -> (x <= v)%Qc).
  { assert (PA : i <> 0 -> exists u, dev_before a i med = Ok u /\ In u L /\ forall x, In x (firstn i A) -> (x <= u)%Qc).
    { intros NZ. destruct i as [|i']; [congruence|]. rewrite dev_before_get. fold A.
      destruct (get_in _ A i' ltac:(lia)) as (u & G & E). exists u. split; auto. split.
      - apply in_or_app; left. apply (in_firstn _ A (S i') i'); auto.
      - intros x Hx. apply in_firstn_nth in Hx. destruct Hx as (p & Lp & Ep).
        apply (qsorted_nth A p i'); auto; lia. }
    assert (PB : half - i <> 0 -> exists u, dev_before b (half - i) med = Ok u /\ In u L /\ forall x, In x (firstn (half - i) B) -> (x <= u)%Qc).
    { intros NZ. destruct (half - i) as [|j'] eqn:EJ; [congruence|]. rewrite dev_before_get. fold B.
      destruct (get_in _ B j' ltac:(lia)) as (u & G & E). exists u. split; auto. split.
      - apply in_or_app; right. apply (in_firstn _ B (S j') j'); auto.
      - intros x Hx. apply in_firstn_nth in Hx. destruct Hx as (p & Lp & Ep).
        apply (qsorted_nth B p j'); auto; lia. }
    destruct (i =? 0) eqn:E0; rewrite ?Nat.eqb_eq, ?Nat.eqb_neq in E0.
    - destruct PB as (u & G & I & X); [lia|]. exists u. split; auto. split; auto.
      intros x Hx. apply in_app_or in Hx. destruct Hx as [Hx|Hx]; [|auto]. rewrite E0 in Hx. destruct Hx.
    - destruct PA as (u & G & I & X); auto.
      destruct (half - i =? 0) eqn:E1; rewrite ?Nat.eqb_eq, ?Nat.eqb_neq in E1.
      + exists u. split; auto. split; auto. intros x Hx. apply in_app_or in Hx. destruct Hx as [Hx|Hx]; auto.
        rewrite E1 in Hx. destruct Hx.
      + destruct PB as (w & Gw & Iw & Xw); auto. rewrite G, Gw. cbn [bind]. exists (Qcmax u w). split; auto.
        split. { unfold Qcmax. destruct (u <=? w)%Qc; auto. }
        intros x Hx. pose proof (Qcmax_l u w). pose proof (Qcmax_r u w).
        apply in_app_or in Hx. destruct Hx as [Hx|Hx]; [specialize (X x Hx)|specialize (Xw x Hx)]; qlra. }
  destruct ML as (vl & EL & IL & ML). unfold fm_found. fold m n. rewrite EL. cbn [bind].
  pose proof (sorted_max_last L vl IL ML) as NL. rewrite LL in NL.
  unfold qmedian, median_of_sorted. rewrite qsort_length, app_length, LA, LB, <- mod2_odd, MG.
  assert (LQ : length (qsort L) = half) by (rewrite qsort_length; auto).
  destruct ((m + n) mod 2 =? 1) eqn:OD; rewrite ?Nat.eqb_eq, ?Nat.eqb_neq in OD.
  - specialize (H4 OD). replace ((m + n) / 2) with (half - 1).
    2:{ rewrite H4. apply (Nat.div_unique _ _ _ 1); lia. }
    rewrite app_nth1 by lia. rewrite (nth_error_nth_d _ _ _ _ 0%Qc NL). auto.
  - specialize (H5 OD). replace ((m + n) / 2) with half.
    2:{ rewrite H5. apply (Nat.div_unique _ _ _ 0); lia. }
    rewrite app_nth1 by lia. rewrite (nth_error_nth_d _ _ _ _ 0%Qc NL).
    rewrite app_nth2 by lia. rewrite LQ, Nat.sub_diag.
    (* the minimum of the right part *)
    assert (MR : exists v, (if i =? m then dev_at b (half - i) med
       else if half - i =? n then dev_at a i med
       else do x <- dev_at a i med; do y <- dev_at b (half - i) med; Ok (Qcmin x y)) = Ok v /\
       In v R /\ forall x, In x R -> (v <= x)%Qc).
    { assert (PA : i <> m -> exists u, dev_at a i med = Ok u /\ In u R /\ forall x, In x (skipn i A) -> (u <= x)%Qc).
      { intros NZ. rewrite dev_at_get. fold A.
        destruct (get_in _ A i ltac:(lia)) as (u & G & E). exists u. split; auto. split.
        - apply in_or_app; left. apply (in_skipn _ A i i); auto.
        - intros x Hx. apply in_skipn_nth in Hx. destruct Hx as (p & Lp & Ep).
          apply (qsorted_nth A i p); auto; lia. }
      assert (PB : half - i <> n -> exists u, dev_at b (half - i) med = Ok u /\ In u R /\ forall x, In x (skipn (half - i) B) -> (u <= x)%Qc).
      { intros NZ. rewrite dev_at_get. fold B.
        destruct (get_in _ B (half - i) ltac:(lia)) as (u & G & E). exists u. split; auto. split.
        - apply in_or_app; right. apply (in_skipn _ B (half - i) (half - i)); auto.
        - intros x Hx. apply in_skipn_nth in Hx. destruct Hx as (p & Lp & Ep).
          apply (qsorted_nth B (half - i) p); auto; lia. }
      destruct (i =? m) eqn:E0; rewrite ?Nat.eqb_eq, ?Nat.eqb_neq in E0.
      - destruct PB as (u & G & I & X); [lia|]. exists u. split; auto. split; auto.
        intros x Hx. apply in_app_or in Hx. destruct Hx as [Hx|Hx]; [|auto].
        rewrite skipn_all2 in Hx by lia. destruct Hx.
      - destruct PA as (u & G & I & X); auto.
        destruct (half - i =? n) eqn:E1; rewrite ?Nat.eqb_eq, ?Nat.eqb_neq in E1.
        + exists u. split; auto. split; auto. intros x Hx. apply in_app_or in Hx. destruct Hx as [Hx|Hx]; auto.
          rewrite skipn_all2 in Hx by lia. destruct Hx.
        + destruct PB as (w & Gw & Iw & Xw); auto. rewrite G, Gw. cbn [bind]. exists (Qcmin u w). split; auto.
          split. { unfold Qcmin. destruct (u <=? w)%Qc; auto. }
          intros x Hx. pose proof (Qcmin_l u w). pose proof (Qcmin_r u w).
          apply in_app_or in Hx. destruct Hx as [Hx|Hx]; [specialize (X x Hx)|specialize (Xw x Hx)]; qlra. }
    destruct MR as (vr & ER & IR & MR). rewrite ER. cbn [bind].
    rewrite (nth_error_nth_d _ _ _ _ 0%Qc (sorted_min_first R vr IR MR)). auto.
Qed.

Lemma fm_loop_spec : forall fuel imin imax,
  (imin = 0 \/ small (imin - 1)) -> (imax = m \/ big (S imax)) -> imin <= m + 1 -> imax <= m ->
  imax + 1 - imin <= fuel ->
  fm_loop fuel a b med half imin imax = Ok (qmedian (A ++ B)).
Proof.
  destruct half_bounds as (H1 & H2 & H3 & _). pose proof LA. pose proof LB.
  induction fuel as [|fuel IH]; intros imin imax I1 I2 U1 U2 HF.
  - exfalso.
    (* empty interval *)
    destruct I1 as [->|S1]; [lia|]. destruct I2 as [->|(_ & x & y & Ex & Ey & L)].
    + destruct S1 as [S1 _]. lia.
    + destruct S1 as (S0 & x' & y' & Ex' & Ey' & L').
      assert (imin <= imax + 1 \/ imax + 1 < imin) as [C|C] by lia.
      * assert (imin = imax + 1) by lia. subst imin.
        replace (S imax - 1) with (imax + 1 - 1) in Ex by lia. replace (half - (imax + 1 - 1) - 1) with (half - S imax) in Ey' by lia.
        rewrite Ex in Ex'. rewrite Ey in Ey'. inversion Ex'; inversion Ey'; subst. qlra.
      * (* monotone: small at imin-1 >= S imax contradicts big at S imax *)
        assert (imax + 1 < m) by lia.
        pose proof (qsorted_nth A (S imax - 1) (imin - 1) x x' SA ltac:(lia) Ex Ex').
        pose proof (qsorted_nth B (half - (imin - 1) - 1) (half - S imax) y' y SB ltac:(lia) Ey' Ey). qlra.
  - cbn [fm_loop]. destruct (imin <=? imax) eqn:EL; rewrite ?Nat.leb_le, ?Nat.leb_gt in EL; cbn [negb].
    2:{ exfalso. destruct I1 as [->|S1]; [lia|]. destruct I2 as [->|(_ & x & y & Ex & Ey & L)].
      + destruct S1 as [S1 _]. lia.
      + destruct S1 as (S0 & x' & y' & Ex' & Ey' & L').
        assert (imin <= imax + 1 \/ imax + 1 < imin) as [C|C] by lia.
        * assert (imin = imax + 1) by lia. subst imin.
          replace (S imax - 1) with (imax + 1 - 1) in Ex by lia. replace (half - (imax + 1 - 1) - 1) with (half - S imax) in Ey' by lia.
          rewrite Ex in Ex'. rewrite Ey in Ey'. inversion Ex'; inversion Ey'; subst. qlra.
        * pose proof (qsorted_nth A (S imax - 1) (imin - 1) x x' SA ltac:(lia) Ex Ex').
          pose proof (qsorted_nth B (half - (imin - 1) - 1) (half - S imax) y' y SB ltac:(lia) Ey' Ey). qlra. }
    set (i := (imin + imax) / 2).
    assert (Hi : imin <= i <= imax).
    { unfold i. pose proof (Nat.div_mod (imin + imax) 2 ltac:(lia)).
      pose proof (Nat.mod_upper_bound (imin + imax) 2 ltac:(lia)). lia. }
    destruct (half <? i) eqn:EH; rewrite ?Nat.ltb_lt, ?Nat.ltb_ge in EH; [lia|].
    fold m.
    (* too small? *)
    assert (TS : exists c, (if i <? m then do x <- dev_before b (half - i) med; do y <- dev_at a i med; Ok (y <? x)%Qc
              else Ok false) = Ok c /\ (c = true <-> small i)).
    { destruct (i <? m) eqn:E; rewrite ?Nat.ltb_lt, ?Nat.ltb_ge in E.
      - destruct (half - i) as [|j'] eqn:EJ; [lia|]. rewrite dev_before_get, dev_at_get. fold A B.
        destruct (get_in _ B j' ltac:(lia)) as (x & -> & Ex). destruct (get_in _ A i ltac:(lia)) as (y & Gy & Ey).
        cbn [bind]. rewrite Gy. cbn [bind]. eexists. split; [reflexivity|]. rewrite Qcltb_lt. unfold small.
        replace (half - i - 1) with j' by lia. split.
        + intros L. split; auto. exists y, x. auto.
        + intros (_ & u & w & Eu & Ew & L). rewrite Ey in Eu. rewrite Ex in Ew. inversion Eu; inversion Ew; subst; auto.
      - exists false. split; auto. unfold small. split; [discriminate|lia]. }
    destruct TS as (c & -> & TS). cbn [bind]. destruct c.
    + apply IH; auto; try lia. right. replace (S i - 1) with i by lia. apply TS; auto.
    + assert (NS : ~ small i) by (intro X; apply TS in X; discriminate).
      assert (TB : exists c, (if 0 <? i then do x <- dev_before a i med; do y <- dev_at b (half - i) med; Ok (y <? x)%Qc
              else Ok false) = Ok c /\ (c = true <-> big i)).
      { destruct (0 <? i) eqn:E; rewrite ?Nat.ltb_lt, ?Nat.ltb_ge in E.
        - destruct i as [|i'] eqn:EI; [lia|]. rewrite dev_before_get, dev_at_get. fold A B.
          destruct (get_in _ A i' ltac:(lia)) as (x & -> & Ex). destruct (get_in _ B (half - S i') ltac:(lia)) as (y & Gy & Ey).
          cbn [bind]. rewrite Gy. cbn [bind]. eexists. split; [reflexivity|]. rewrite Qcltb_lt. unfold big.
          replace (S i' - 1) with i' by lia. split.
          + intros L. split; auto. exists x, y. auto.
          + intros (_ & u & w & Eu & Ew & L). rewrite Ex in Eu. rewrite Ey in Ew. inversion Eu; inversion Ew; subst; auto.
        - exists false. split; auto. unfold big. split; [discriminate|lia]. }
      destruct TB as (c & -> & TB). cbn [bind]. destruct c.
      * assert (X : big i) by (apply TB; auto). assert (0 < i) by (destruct X; auto).
        apply IH; auto; try lia. right. replace (S (i - 1)) with i by lia. auto.
      * apply found_spec; [lia|auto|]. intro X. apply TB in X. discriminate.
Qed.

Lemma find_median_spec : find_median_sorted_arrays a b med = Ok (qmedian (A ++ B)).
Proof. unfold find_median_sorted_arrays. fold m n half. apply fm_loop_spec; auto; lia. Qed.
End TwoArrays.

(** * One sorted array *)
Definition ordered (upper : bool) (l : list Qc) : Prop :=
  if upper then qsorted (rev l) else qsorted l.

Lemma median_of_sorted_rev : forall s, median_of_sorted (rev s) = median_of_sorted s.
Proof.
  intros s. unfold median_of_sorted. rewrite rev_length.
  set (n := length s) in *. destruct (Nat.eq_dec n 0) as [Z|NZ].
  { destruct s; [reflexivity|simpl in n; lia]. }
  pose proof (Nat.div_mod n 2 ltac:(lia)) as D. pose proof (Nat.mod_upper_bound n 2 ltac:(lia)).
  rewrite <- mod2_odd. destruct (n mod 2 =? 1) eqn:E; rewrite ?Nat.eqb_eq, ?Nat.eqb_neq in E.
  - rewrite rev_nth; fold n; [|apply Nat.div_lt; lia]. f_equal. lia.
  - assert (n / 2 < n) by (apply Nat.div_lt; lia).
    rewrite !rev_nth by (fold n; lia). fold n.
    replace (n - S (n / 2 - 1)) with (n / 2) by lia. replace (n - S (n / 2)) with (n / 2 - 1) by lia.
    f_equal. ring.
Qed.

Lemma qmedian_ordered : forall upper l, ordered upper l -> qmedian l = median_of_sorted l.
Proof.
  intros [] l H; unfold qmedian.
  - rewrite (qsort_perm_eq l (rev l)) by apply Permutation_rev. rewrite qsort_of_sorted by auto.
    apply median_of_sorted_rev.
  - rewrite qsort_of_sorted; auto.
Qed.

Lemma qsorted_skipn : forall l k, qsorted l -> qsorted (skipn k l).
Proof.
  induction l as [|x t IH]; intros [|k] H; simpl; auto. inversion H; subst. auto.
Qed.
Lemma qsorted_firstn : forall l k, qsorted l -> qsorted (firstn k l).
Proof.
  induction l as [|x t IH]; intros [|k] H; simpl; try constructor.
  - inversion H; subst. apply IH; assumption.
  - inversion H as [|? ? S F]; subst. rewrite Forall_forall in *. intros y Iy. apply F.
    apply in_firstn_nth in Iy. destruct Iy as (p & _ & Ep). eapply nth_error_In; eauto.
Qed.
Lemma rev_skipn : forall A (l : list A) k, rev (skipn k l) = firstn (length l - k) (rev l).
Proof. intros. rewrite firstn_rev. f_equal. destruct (Nat.le_gt_cases k (length l)).
  - f_equal. lia.
  - rewrite !skipn_all2; auto; lia.
Qed.
Lemma ordered_skipn : forall upper l k, ordered upper l -> ordered upper (skipn k l).
Proof.
  intros [] l k H; simpl in *.
  - rewrite rev_skipn. apply qsorted_firstn; auto.
  - apply qsorted_skipn; auto.
Qed.

Lemma sorted_median_spec : forall upper vals k, ordered upper vals -> k < length vals ->
  sorted_median vals k (length vals) = Ok (qmedian (skipn k vals)).
Proof.
  intros upper vals k H L. rewrite (qmedian_ordered upper) by (apply ordered_skipn; auto).
  unfold sorted_median, median_of_sorted. rewrite skipn_length. set (n := length vals - k).
  assert (0 < n) by lia. destruct (n =? 0) eqn:E0; [apply Nat.eqb_eq in E0; lia|].
  rewrite <- mod2_odd. pose proof (Nat.div_mod n 2 ltac:(lia)). pose proof (Nat.mod_upper_bound n 2 ltac:(lia)).
  assert (n / 2 < n) by (apply Nat.div_lt; lia).
  assert (NS : forall p, nth p (skipn k vals) 0%Qc = nth (k + p) vals 0%Qc).
  { intros p. destruct (nth_error vals (k + p)) as [x|] eqn:Ex.
    - rewrite (nth_error_nth_d _ vals (k + p) x 0%Qc Ex). apply nth_error_nth_d. rewrite nth_error_skipn; auto.
    - apply nth_error_None in Ex. rewrite !nth_overflow; auto. rewrite skipn_length. lia. }
  destruct (n mod 2 =? 1) eqn:E; rewrite ?Nat.eqb_eq, ?Nat.eqb_neq in E.
  - destruct (get_in _ vals (k + n / 2) ltac:(lia)) as (x & -> & Ex). rewrite NS.
    rewrite (nth_error_nth_d _ _ _ _ 0%Qc Ex); auto.
  - destruct (get_in _ vals (k + n / 2 - 1) ltac:(lia)) as (x & -> & Ex).
    destruct (get_in _ vals (k + n / 2) ltac:(lia)) as (y & Gy & Ey). cbn [bind]. rewrite Gy. cbn [bind].
    rewrite !NS. replace (k + (n / 2 - 1)) with (k + n / 2 - 1) by lia.
    rewrite (nth_error_nth_d _ _ _ _ 0%Qc Ex), (nth_error_nth_d _ _ _ _ 0%Qc Ey). auto.
Qed.

(** Deviations from the median grow away from the middle. *)
Lemma qsorted_of_nth : forall l, (forall i x y, nth_error l i = Some x -> nth_error l (S i) = Some y -> (x <= y)%Qc) ->
  qsorted l.
Proof.
  induction l as [|x t IH]; intros H; [constructor|].
  assert (St : qsorted t) by (apply IH; intros i a b Ha Hb; apply (H (S i)); auto).
  constructor; auto. rewrite Forall_forall. intros y Iy.
  destruct t as [|z t']; [destruct Iy|].
  assert (x <= z)%Qc by (apply (H 0); auto).
  apply In_nth_error in Iy. destruct Iy as [p Hp].
  pose proof (qsorted_nth (z :: t') 0 p z y St ltac:(lia) eq_refl Hp). qlra.
Qed.

Lemma nth_error_rev : forall A (l : list A) p, p < length l ->
  nth_error (rev l) p = nth_error l (length l - S p).
Proof.
  intros A l p H. destruct l as [|d t] eqn:E; [simpl in H; lia|]. rewrite <- E in *.
  rewrite (nth_error_of_nth _ (rev l) p d) by (rewrite rev_length; auto).
  rewrite (nth_error_of_nth _ l (length l - S p) d) by lia. f_equal. apply rev_nth; auto.
Qed.

Lemma ordered_nth : forall upper l i j x y, ordered upper l -> i <= j ->
  nth_error l i = Some x -> nth_error l j = Some y -> (if upper then y <= x else x <= y)%Qc.
Proof.
  intros [] l i j x y H L Hi Hj; simpl in H.
  - pose proof (nth_error_lt _ _ _ _ Hi). pose proof (nth_error_lt _ _ _ _ Hj).
    apply (qsorted_nth (rev l) (length l - S j) (length l - S i)); auto; try lia.
    + rewrite nth_error_rev by lia. rewrite <- Hj. f_equal; lia.
    + rewrite nth_error_rev by lia. rewrite <- Hi. f_equal; lia.
  - apply (qsorted_nth l i j); auto.
Qed.

Lemma half_mean : forall x y : Qc, (x <= y)%Qc -> (x <= (x + y) / Q2Qc 2 /\ (x + y) / Q2Qc 2 <= y)%Qc.
Proof.
  intros. assert (P2 : (0 < Q2Qc 2)%Qc) by reflexivity.
  split; [apply Qcle_div_iff|apply Qcdiv_le_iff]; auto; qlra.
Qed.

(** [beyond upper c x]: x lies on the extreme side of c *)
Lemma median_splits : forall upper w p x, ordered upper w -> nth_error w p = Some x ->
  (p < length w / 2 -> if upper then (qmedian w <= x)%Qc else (x <= qmedian w)%Qc) /\
  (length w / 2 <= p -> if upper then (x <= qmedian w)%Qc else (qmedian w <= x)%Qc).
Proof.
  intros upper w p x H Hx. rewrite (qmedian_ordered upper w H). unfold median_of_sorted.
  pose proof (nth_error_lt _ _ _ _ Hx) as L. set (n := length w) in *.
  pose proof (Nat.div_mod n 2 ltac:(lia)). pose proof (Nat.mod_upper_bound n 2 ltac:(lia)).
  assert (n / 2 < n) by (apply Nat.div_lt; lia).
  rewrite <- mod2_odd. destruct (n mod 2 =? 1) eqn:E; rewrite ?Nat.eqb_eq, ?Nat.eqb_neq in E.
  - pose proof (nth_error_of_nth _ w (n / 2) 0%Qc ltac:(lia)) as Hm.
    split; intros Lp.
    + pose proof (ordered_nth upper w p (n/2) _ _ H ltac:(lia) Hx Hm). destruct upper; auto.
    + pose proof (ordered_nth upper w (n/2) p _ _ H ltac:(lia) Hm Hx). destruct upper; auto.
  - pose proof (nth_error_of_nth _ w (n / 2 - 1) 0%Qc ltac:(lia)) as Ha.
    pose proof (nth_error_of_nth _ w (n / 2) 0%Qc ltac:(lia)) as Hb.
    pose proof (ordered_nth upper w (n/2-1) (n/2) _ _ H ltac:(lia) Ha Hb) as AB.
    set (u := nth (n / 2 - 1) w 0%Qc) in *. set (v := nth (n / 2) w 0%Qc) in *.
    split; intros Lp.
    + pose proof (ordered_nth upper w p (n/2-1) _ _ H ltac:(lia) Hx Ha) as O.
      destruct upper.
      * destruct (half_mean v u AB). replace (u + v)%Qc with (v + u)%Qc by ring. qlra.
      * destruct (half_mean u v AB). qlra.
    + pose proof (ordered_nth upper w (n/2) p _ _ H ltac:(lia) Hb Hx) as O.
      destruct upper.
      * destruct (half_mean v u AB). replace (u + v)%Qc with (v + u)%Qc by ring. qlra.
      * destruct (half_mean u v AB). qlra.
Qed.

Lemma dev_mono : forall med x y : Qc, ((med <= x /\ x <= y) \/ (y <= x /\ x <= med))%Qc -> (dev med x <= dev med y)%Qc.
Proof. intros med x y [[]|[]]; unfold dev; qmm; qlra. Qed.

Lemma right_dev_sorted : forall upper w, ordered upper w ->
  qsorted (map (dev (qmedian w)) (skipn (length w / 2) w)).
Proof.
  intros upper w H. apply qsorted_of_nth. intros i x y Hx Hy.
  apply nth_error_map_some in Hx. destruct Hx as (a & Ha & <-).
  apply nth_error_map_some in Hy. destruct Hy as (b & Hb & <-).
  rewrite nth_error_skipn in *.
  destruct (median_splits upper w _ a H Ha) as [_ S1]. specialize (S1 ltac:(lia)).
  pose proof (ordered_nth upper w (length w / 2 + i) (length w / 2 + S i) a b H ltac:(lia) Ha Hb).
  apply dev_mono. destruct upper; auto.
Qed.
Lemma left_dev_sorted : forall upper w, ordered upper w ->
  qsorted (map (dev (qmedian w)) (rev (firstn (length w / 2) w))).
Proof.
  intros upper w H. set (h := length w / 2).
  assert (HH : h <= length w) by (apply Nat.div_le_upper_bound; lia).
  assert (LF : length (firstn h w) = h) by (rewrite firstn_length; lia).
  apply qsorted_of_nth. intros i x y Hx Hy.
  apply nth_error_map_some in Hx. destruct Hx as (a & Ha & <-).
  apply nth_error_map_some in Hy. destruct Hy as (b & Hb & <-).
  assert (S i < h) by (apply nth_error_lt in Hb; rewrite rev_length, LF in Hb; auto).
  rewrite nth_error_rev, LF, nth_error_firstn in Ha by lia.
  rewrite nth_error_rev, LF, nth_error_firstn in Hb by lia.
  destruct (h - S i <? h) eqn:E; [|discriminate]. destruct (h - S (S i) <? h) eqn:E2; [|discriminate].
  destruct (median_splits upper w _ a H Ha) as [S1 _]. fold h in S1. specialize (S1 ltac:(lia)).
  pose proof (ordered_nth upper w (h - S (S i)) (h - S i) b a H ltac:(lia) Hb Ha).
  apply dev_mono. destruct upper; auto.
Qed.

Lemma slice_rev_tail : forall (vals : list Qc) k h, k <= length vals -> h <= length vals - k ->
  slice (rev vals) (length vals - k - h) (length vals - k) = rev (firstn h (skipn k vals)).
Proof.
  intros vals k h Hk Hh. apply nth_error_ext. intros p. rewrite nth_error_slice.
  assert (LF : length (firstn h (skipn k vals)) = h) by (rewrite firstn_length, skipn_length; lia).
  destruct (p <? length vals - k - (length vals - k - h)) eqn:E; rewrite ?Nat.ltb_lt, ?Nat.ltb_ge in E.
  - rewrite !nth_error_rev by lia. rewrite LF, nth_error_firstn, nth_error_skipn.
    destruct (h - S p <? h) eqn:E2; [|apply Nat.ltb_ge in E2; lia]. f_equal. lia.
  - symmetry. apply nth_error_None. rewrite rev_length. lia.
Qed.

Lemma skipn_skipn' : forall A (l : list A) i j, skipn i (skipn j l) = skipn (j + i) l.
Proof.
  intros. apply nth_error_ext. intros p. rewrite !nth_error_skipn. f_equal. lia.
Qed.

Lemma mad_spec : forall upper vals k, ordered upper vals -> k < length vals ->
  let w := skipn k vals in
  find_median_sorted_arrays
     (slice (rev vals) (length vals - k - (length vals - k) / 2) (length vals - k))
     (skipn (k + (length vals - k) / 2) vals) (qmedian w)
  = Ok (qmedian (map (fun x => Qcabs (x - qmedian w)) w)).
Proof.
  intros upper vals k H L w.
  assert (Hw : ordered upper w) by (apply ordered_skipn; auto).
  assert (LW : length w = length vals - k) by (apply skipn_length).
  assert (DH : (length vals - k) / 2 <= length vals - k) by (apply Nat.div_le_upper_bound; lia).
  rewrite slice_rev_tail by lia.
  rewrite <- skipn_skipn'. fold w. rewrite <- LW.
  pose proof (Nat.div_mod (length w) 2 ltac:(lia)). pose proof (Nat.mod_upper_bound (length w) 2 ltac:(lia)).
  rewrite find_median_spec.
  - f_equal. change (fun x : Qc => Qcabs (x - qmedian w)) with (dev (qmedian w)).
    set (g := dev (qmedian w)). unfold qmedian. f_equal. apply qsort_perm_eq.
    transitivity (map g (firstn (length w / 2) w ++ skipn (length w / 2) w)).
    + rewrite map_app. apply Permutation_app_tail. apply Permutation_map. symmetry. apply Permutation_rev.
    + rewrite firstn_skipn. reflexivity.
  - apply (left_dev_sorted upper); auto.
  - apply (right_dev_sorted upper); auto.
  - rewrite rev_length, firstn_length, skipn_length. lia.
  - rewrite skipn_length. lia.
Qed.
