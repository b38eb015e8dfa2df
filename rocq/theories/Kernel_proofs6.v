(** Median filter (C21). *)
From Coq Require Import List Arith ZArith Lia Bool Permutation Sorted.
From Verif Require Import Base Num Sorting Kernel_model Kernel_spec Kernel_proofs Kernel_proofs2.
Import ListNotations.
Open Scope nat_scope.

Lemma bisect_loop_spec : forall l x, qsorted l -> forall fuel lo hi, hi - lo <= fuel -> lo <= hi -> hi <= length l ->
  (forall p y, p < lo -> nth_error l p = Some y -> (y <= x)%Qc) ->
  (forall p y, hi <= p -> nth_error l p = Some y -> (x < y)%Qc) ->
  exists r, bisect_right_loop fuel l x lo hi = Ok r /\ r <= length l /\
  (forall p y, p < r -> nth_error l p = Some y -> (y <= x)%Qc) /\
  (forall p y, r <= p -> nth_error l p = Some y -> (x < y)%Qc).
Proof.
  intros l x Sl. induction fuel as [|k IH]; intros lo hi F L1 L2 HL HR.
  - assert (lo = hi) by lia. subst. simpl. rewrite Nat.ltb_irrefl. exists hi. auto.
  - cbn [bisect_right_loop]. destruct (lo <? hi) eqn:E; cbn [negb]; rewrite ?Nat.ltb_lt, ?Nat.ltb_ge in E.
    2:{ exists lo. assert (lo = hi) by lia. subst. auto. }
    set (mid := (lo + hi) / 2).
    assert (M : lo <= mid /\ mid < hi).
    { split; [apply Nat.div_le_lower_bound; lia|apply Nat.div_lt_upper_bound; lia]. }
    destruct (get_in _ l mid ltac:(lia)) as (y & G & N). rewrite G, bind_ok.
    destruct (x <? y)%Qc eqn:EX; qb_hyps.
    + apply IH; try lia; auto. intros p z Hp Hz. pose proof (qsorted_nth l mid p y z Sl Hp N Hz). qlra.
    + apply IH; try lia; auto. intros p z Hp Hz. pose proof (qsorted_nth l p mid z y Sl ltac:(lia) Hz N). qlra.
Qed.
Lemma bisect_spec : forall l x, qsorted l -> exists r, bisect_right l x = Ok r /\ r <= length l /\
  (forall p y, p < r -> nth_error l p = Some y -> (y <= x)%Qc) /\
  (forall p y, r <= p -> nth_error l p = Some y -> (x < y)%Qc).
Proof.
  intros l x Sl. apply bisect_loop_spec; auto; try lia. intros p y Hp E. apply nth_error_lt in E. lia.
Qed.

Lemma shift_up_spec : forall index l add, index < length l -> add <= index ->
  exists l', shift_up l index add = Ok l' /\ length l' = length l /\
   forall p, nth_error l' p = if (add <? p) && (p <=? index) then nth_error l (p - 1) else nth_error l p.
Proof.
  induction index as [|k IH]; intros l add L A; cbn [shift_up].
  - assert (add = 0) by lia. subst. simpl. exists l. repeat split; auto. intros [|p]; auto.
  - destruct (add <? S k) eqn:E; rewrite ?Nat.ltb_lt, ?Nat.ltb_ge in E.
    + destruct (get_in _ l k ltac:(lia)) as (x & G & N). rewrite G, bind_ok.
      destruct (IH (upd l (S k) x) add) as (l' & E' & LL & H); [rewrite upd_length; lia|lia|].
      rewrite upd_length in LL. exists l'. repeat split; auto. intros p. rewrite H.
      destruct (Nat.eq_dec p (S k)) as [->|NE].
      * assert (X1 : (S k <=? k) = false) by (apply Nat.leb_gt; lia). rewrite X1, andb_false_r.
        rewrite nth_error_upd_same by lia. rewrite Nat.leb_refl.
        assert (X2 : (add <? S k) = true) by (apply Nat.ltb_lt; auto). rewrite X2. simpl. rewrite Nat.sub_0_r. auto.
      * destruct (p <=? k) eqn:E1; destruct (p <=? S k) eqn:E2; rewrite ?Nat.leb_le, ?Nat.leb_gt in *; try lia;
        rewrite ?andb_false_r, ?nth_error_upd_other by lia; auto.
    + assert (add = S k) by lia. subst. exists l. repeat split; auto. intros p.
      destruct ((S k <? p) && (p <=? S k)) eqn:X; auto. apply andb_prop in X. destruct X as [X1 X2].
      rewrite Nat.ltb_lt in X1. rewrite Nat.leb_le in X2. lia.
Qed.

Lemma shift_down_spec : forall n l index, index + n < length l \/ n = 0 ->
  exists l', shift_down l index n = Ok l' /\ length l' = length l /\
   forall p, nth_error l' p = if (index <=? p) && (p <? index + n) then nth_error l (S p) else nth_error l p.
Proof.
  induction n as [|n IH]; intros l index L; cbn [shift_down].
  - exists l. repeat split; auto. intros p. destruct ((index <=? p) && (p <? index + 0)) eqn:X; auto.
    apply andb_prop in X. destruct X as [X1 X2]. rewrite Nat.leb_le in X1. rewrite Nat.ltb_lt in X2. lia.
  - destruct L as [L|]; [|lia]. destruct (get_in _ l (S index) ltac:(lia)) as (x & G & N). rewrite G, bind_ok.
    destruct (IH (upd l index x) (S index)) as (l' & E' & LL & H); [rewrite upd_length; lia|].
    rewrite upd_length in LL. exists l'. repeat split; auto. intros p. rewrite H.
    destruct (lt_eq_lt_dec p index) as [[Q| ->]|Q].
    + assert (X1 : (S index <=? p) = false) by (apply Nat.leb_gt; lia).
      assert (X2 : (index <=? p) = false) by (apply Nat.leb_gt; lia). rewrite X1, X2. simpl.
      apply nth_error_upd_other. lia.
    + assert (X1 : (S index <=? index) = false) by (apply Nat.leb_gt; lia). rewrite X1, Nat.leb_refl.
      assert (X2 : (index <? index + S n) = true) by (apply Nat.ltb_lt; lia). rewrite X2. simpl.
      rewrite nth_error_upd_same by lia. auto.
    + rewrite !nth_error_upd_other by lia.
      assert (X1 : (S index <=? p) = true) by (apply Nat.leb_le; lia).
      assert (X2 : (index <=? p) = true) by (apply Nat.leb_le; lia). rewrite X1, X2.
      replace (S index + n) with (index + S n) by lia. auto.
Qed.

Lemma firstn_of_nth : forall A (l : list A) n m, (forall p, p < n -> nth_error l p = nth_error m p) -> length m = n -> firstn n l = m.
Proof.
  intros A l n m H L. apply nth_error_ext. intros p. rewrite nth_error_firstn.
  destruct (p <? n) eqn:E; rewrite ?Nat.ltb_lt, ?Nat.ltb_ge in E; [apply H; auto|].
  symmetry. apply nth_error_None. lia.
Qed.

Lemma perm_sorted_qsort : forall l w, qsorted l -> Permutation l w -> l = qsort w.
Proof.
  intros. apply qsorted_unique; auto using qsort_sorted. etransitivity; eauto using qsort_perm.
Qed.

Lemma win_insert_spec : forall cur len w x, len < length cur -> firstn len cur = qsort w -> length w = len ->
  exists c, win_insert cur len x x = Ok c /\ length c = length cur /\ firstn (S len) c = qsort (x :: w).
Proof.
  intros cur len w x L EW LW. unfold win_insert. rewrite EW.
  destruct (bisect_spec (qsort w) x (qsort_sorted w)) as (add & -> & LA & H1 & H2). rewrite bind_ok.
  rewrite qsort_length in LA.
  destruct (shift_up_spec len cur add L ltac:(lia)) as (c & -> & LC & HC). rewrite bind_ok.
  eexists. split; [reflexivity|]. rewrite upd_length. split; [auto|].
  assert (N : forall p, p < len -> nth_error cur p = nth_error (qsort w) p).
  { intros p Hp. rewrite <- EW, nth_error_firstn. apply Nat.ltb_lt in Hp. rewrite Hp. auto. }
  set (s := qsort w) in *. assert (LS : length s = len) by (unfold s; rewrite qsort_length; auto).
  assert (E : firstn (S len) (upd c add x) = firstn add s ++ x :: skipn add s).
  { apply firstn_of_nth.
    - intros p Hp. rewrite nth_error_upd. rewrite LC. destruct (p =? add) eqn:E; rewrite ?Nat.eqb_eq, ?Nat.eqb_neq in E.
      + subst p. assert (X : (add <? length cur) = true) by (apply Nat.ltb_lt; lia). try rewrite X.
        rewrite nth_error_app2 by (rewrite firstn_length; lia).
        rewrite firstn_length. replace (add - Nat.min add (length s)) with 0 by lia. auto.
      + rewrite HC. destruct ((add <? p) && (p <=? len)) eqn:E2.
        * apply andb_prop in E2. destruct E2 as [E2 E3]. rewrite Nat.ltb_lt in E2.
          rewrite nth_error_app2 by (rewrite firstn_length; lia). rewrite firstn_length.
          replace (p - Nat.min add (length s)) with (S (p - 1 - add)) by lia. simpl.
          rewrite nth_error_skipn. rewrite N by lia. f_equal. lia.
        * assert (p < add).
          { apply andb_false_iff in E2. rewrite Nat.ltb_ge, Nat.leb_gt in E2. lia. }
          rewrite nth_error_app1 by (rewrite firstn_length; lia). rewrite nth_error_firstn.
          assert (X : (p <? add) = true) by (apply Nat.ltb_lt; lia). rewrite X. apply N. lia.
    - rewrite app_length, firstn_length. simpl. rewrite skipn_length. lia. }
  rewrite E. apply perm_sorted_qsort.
  - apply qsorted_app.
    + apply qsorted_of_nth. intros i a b Ha Hb. rewrite nth_error_firstn in Ha, Hb.
      destruct (i <? add); [|discriminate]. destruct (S i <? add); [|discriminate].
      eapply (qsorted_nth s i (S i)); eauto. apply qsort_sorted.
    + constructor.
      * apply (ordered_skipn false s add). apply qsort_sorted.
      * apply Forall_forall. intros y Hy. destruct (In_nth_error _ _ Hy) as (q & Eq). rewrite nth_error_skipn in Eq.
        assert (x < y)%Qc by (apply (H2 (add + q)); auto; lia). qlra.
    + intros a b Ha Hb. destruct (In_nth_error _ _ Ha) as (q & Eq). rewrite nth_error_firstn in Eq.
      destruct (q <? add) eqn:Q; [|discriminate]. apply Nat.ltb_lt in Q.
      assert (a <= x)%Qc by (eapply H1; eauto). destruct Hb as [<-|Hb]; auto.
      destruct (In_nth_error _ _ Hb) as (q' & Eq'). rewrite nth_error_skipn in Eq'.
      assert (x < b)%Qc by (apply (H2 (add + q')); auto; lia). qlra.
  - etransitivity; [symmetry; apply Permutation_middle|]. constructor. rewrite firstn_skipn.
    unfold s. symmetry. apply qsort_perm.
Qed.

Lemma win_delete_spec : forall cur len w x, len <= length cur -> firstn len cur = qsort (x :: w) -> S (length w) = len ->
  exists c, win_delete cur len x = Ok c /\ length c = length cur /\ firstn (len - 1) c = qsort w.
Proof.
  intros cur len w x L EW LW. unfold win_delete. rewrite EW.
  set (s := qsort (x :: w)) in *. assert (Ss : qsorted s) by apply qsort_sorted.
  assert (LS : length s = len) by (unfold s; rewrite qsort_length; simpl; auto).
  destruct (bisect_spec s x Ss) as (pos & -> & LA & H1 & H2). rewrite bind_ok.
  assert (IX : In x s) by (eapply Permutation_in; [apply qsort_perm|left; auto]).
  destruct (In_nth_error _ _ IX) as (q & EQ).
  assert (Q : q < pos). { destruct (le_lt_dec pos q) as [G|]; auto. pose proof (H2 q x G EQ). qlra. }
  destruct pos as [|d]; [lia|].
  assert (ED : nth_error s d = Some x).
  { destruct (nth_error_ex _ s d ltac:(lia)) as (y & Ey). rewrite Ey. f_equal.
    pose proof (H1 d y ltac:(lia) Ey). pose proof (qsorted_nth s q d x y Ss ltac:(lia) EQ Ey). qlra. }
  destruct (shift_down_spec (len - 1 - d) cur d) as (c & -> & LC & HC); [lia|].
  exists c. split; auto. split; auto.
  assert (N : forall p, p < len -> nth_error cur p = nth_error s p).
  { intros p Hp. rewrite <- EW, nth_error_firstn. apply Nat.ltb_lt in Hp. rewrite Hp. auto. }
  assert (E : firstn (len - 1) c = firstn d s ++ skipn (S d) s).
  { apply firstn_of_nth.
    - intros p Hp. rewrite HC. destruct ((d <=? p) && (p <? d + (len - 1 - d))) eqn:E2.
      + apply andb_prop in E2. destruct E2 as [E2 E3]. rewrite Nat.leb_le in E2.
        rewrite nth_error_app2 by (rewrite firstn_length; lia). rewrite firstn_length, nth_error_skipn.
        rewrite N by lia. f_equal. lia.
      + assert (p < d). { apply andb_false_iff in E2. rewrite Nat.ltb_ge, Nat.leb_gt in E2. lia. }
        rewrite nth_error_app1 by (rewrite firstn_length; lia). rewrite nth_error_firstn.
        assert (X : (p <? d) = true) by (apply Nat.ltb_lt; lia). rewrite X. apply N. lia.
    - rewrite app_length, firstn_length, skipn_length. lia. }
  rewrite E. pose proof (split_nth _ _ _ _ ED) as SP.
  apply perm_sorted_qsort.
  - apply qsorted_app.
    + apply qsorted_of_nth. intros i a b Ha Hb. rewrite nth_error_firstn in Ha, Hb.
      destruct (i <? d); [|discriminate]. destruct (S i <? d); [|discriminate].
      eapply (qsorted_nth s i (S i)); eauto.
    + apply (ordered_skipn false s (S d)). apply qsort_sorted.
    + intros a b Ha Hb. destruct (In_nth_error _ _ Ha) as (i & Ei). rewrite nth_error_firstn in Ei.
      destruct (i <? d) eqn:Q'; [|discriminate]. apply Nat.ltb_lt in Q'.
      destruct (In_nth_error _ _ Hb) as (j & Ej). rewrite nth_error_skipn in Ej.
      eapply (qsorted_nth s i (S d + j)); eauto. lia.
  - apply (Permutation_cons_inv (a := x)).
    etransitivity; [apply Permutation_middle|]. rewrite <- SP. symmetry. apply qsort_perm.
Qed.

Lemma sm_prefix : forall cur n w, 0 < n -> n <= length cur -> firstn n cur = qsort w -> sorted_median cur 0 n = Ok (qmedian w).
Proof.
  intros cur n w N0 L E. unfold qmedian. rewrite <- E.
  assert (EQ : sorted_median cur 0 n = sorted_median (firstn n cur) 0 (length (firstn n cur))).
  { rewrite firstn_length, Nat.min_l by auto. unfold sorted_median.
    rewrite Nat.sub_0_r. destruct (n =? 0); auto.
    assert (n / 2 < n) by (apply Nat.div_lt; lia).
    assert (G : forall p, p < n -> get cur p = get (firstn n cur) p).
    { intros p Hp. unfold get. rewrite nth_error_firstn. apply Nat.ltb_lt in Hp. rewrite Hp. auto. }
    rewrite !G by lia. auto. }
  rewrite EQ, (sorted_median_spec false).
  - simpl. unfold qmedian. rewrite E. f_equal. f_equal. apply qsort_of_sorted, qsort_sorted.
  - rewrite E. simpl. apply qsort_sorted.
  - rewrite firstn_length. lia.
Qed.

Lemma slice_snoc : forall A (l : list A) a b x, a <= b -> nth_error l b = Some x -> slice l a (S b) = slice l a b ++ [x].
Proof.
  intros A l a b x H E. apply nth_error_ext. intros k. rewrite nth_error_slice.
  pose proof (nth_error_lt _ _ _ _ E) as LB.
  assert (LS : length (slice l a b) = b - a) by (rewrite slice_length; lia).
  destruct (lt_eq_lt_dec k (b - a)) as [[G|G]|G].
  - rewrite nth_error_app1 by lia. rewrite nth_error_slice.
    assert (X : (k <? b - a) = true) by (apply Nat.ltb_lt; auto). rewrite X.
    assert (Y : (k <? S b - a) = true) by (apply Nat.ltb_lt; lia). rewrite Y. auto.
  - rewrite nth_error_app2 by lia. subst k. rewrite LS, Nat.sub_diag. cbn [nth_error].
    assert (Y : (b - a <? S b - a) = true) by (apply Nat.ltb_lt; lia). rewrite Y.
    replace (a + (b - a)) with b by lia. auto.
  - rewrite nth_error_app2 by lia. assert (Y : (k <? S b - a) = false) by (apply Nat.ltb_ge; lia). rewrite Y.
    symmetry. apply nth_error_None. simpl. lia.
Qed.
Lemma slice_uncons : forall A (l : list A) a b x, a < b -> nth_error l a = Some x -> slice l a b = x :: slice l (S a) b.
Proof.
  intros A l a b x H E. apply nth_error_ext. intros k. rewrite nth_error_slice. destruct k as [|k]; simpl.
  - assert (X : (0 <? b - a) = true) by (apply Nat.ltb_lt; lia). rewrite X, Nat.add_0_r. auto.
  - rewrite nth_error_slice. replace (a + S k) with (S a + k) by lia.
    destruct (S k <? b - a) eqn:E1; destruct (k <? b - S a) eqn:E2; auto; rewrite ?Nat.ltb_lt, ?Nat.ltb_ge in *; lia.
Qed.
Lemma qsort_snoc : forall w x, qsort (x :: w) = qsort (w ++ [x]).
Proof. intros. apply qsort_perm_eq. apply Permutation_cons_append. Qed.

Lemma slice_eq : forall A (l : list A) a b a' b', a = a' -> b = b' -> slice l a b = slice l a' b'.
Proof. intros; subst; auto. Qed.

Section MF.
Variable r32 : Qc -> Qc.
Variable data : list Qc.
Variable h : nat.
Let val := map r32 data.
Let w := 2 * h + 1.
Hypothesis LEN : w <= length data.

Definition mf_done (two_end : bool) (p i : nat) : bool := (p <? i) && (two_end || (h <=? p)).
Definition mf_state (two_end : bool) (i : nat) (ans : list Qc) : Prop :=
  length ans = length data /\
  forall p, p < length data -> nth_error ans p =
    if mf_done two_end p i then Some (r32 (sliding_median val h p)) else nth_error val p.

Lemma val_len : length val = length data. Proof. apply map_length. Qed.
Lemma val_nth : forall p x, nth_error data p = Some x -> nth_error val p = Some (r32 x).
Proof. intros. unfold val. rewrite nth_error_map, H. auto. Qed.

Lemma mf_step : forall two_end i ans m, mf_state two_end i ans -> i < length data -> two_end = true \/ h <= i ->
  m = sliding_median val h i -> mf_state two_end (S i) (upd ans i (r32 m)).
Proof.
  intros two_end i ans m [HL H] L C ->. split; [rewrite upd_length; auto|]. intros p Hp.
  destruct (Nat.eq_dec p i) as [->|NE].
  - rewrite nth_error_upd_same by lia. unfold mf_done.
    assert (X : (i <? S i) = true) by (apply Nat.ltb_lt; lia). rewrite X.
    assert (Y : two_end || (h <=? i) = true).
    { destruct C as [->|C]; auto. apply Nat.leb_le in C. rewrite C. apply orb_true_r. }
    rewrite Y. auto.
  - rewrite nth_error_upd_other by auto. rewrite H by auto. unfold mf_done.
    replace (p <? S i) with (p <? i); auto. apply eq_true_iff_eq. rewrite !Nat.ltb_lt. lia.
Qed.

Lemma slice_clip : forall A (l : list A) a b, length l <= b -> slice l a b = slice l a (length l).
Proof. intros. unfold slice. rewrite !firstn_all2; auto; rewrite skipn_length; lia. Qed.

Lemma mf_fill_spec : forall two_end n i cur ans, i + n = w -> length cur = w ->
  firstn i cur = qsort (slice val 0 i) ->
  (length ans = length data /\ forall p, p < length data -> nth_error ans p =
     if two_end && (p + h <? i) then Some (r32 (sliding_median val h p)) else nth_error val p) ->
  exists cur' ans', mf_fill r32 data h two_end (seq i n) cur ans = Ok (cur', ans') /\ length cur' = w /\
    firstn w cur' = qsort (slice val 0 w) /\
    (length ans' = length data /\ forall p, p < length data -> nth_error ans' p =
     if two_end && (p + h <? w) then Some (r32 (sliding_median val h p)) else nth_error val p).
Proof.
  intros two_end. induction n as [|n IH]; intros i cur ans HN LC HC HA.
  - exists cur, ans. assert (i = w) by lia. subst i. auto.
  - cbn [seq mf_fill]. destruct (get_in _ data i ltac:(lia)) as (x & G & N). rewrite G, bind_ok.
    destruct (win_insert_spec cur i (slice val 0 i) (r32 x)) as (c & EC & LC' & HC'); [lia|auto| |].
    { rewrite slice_length, val_len. lia. }
    rewrite EC, bind_ok. rewrite qsort_snoc, <- (slice_snoc _ val 0 i (r32 x)) in HC' by (try lia; apply val_nth; auto).
    destruct HA as [HL HA].
    destruct ((h <=? i) && two_end) eqn:E.
    + apply andb_prop in E. destruct E as [E ->]. apply Nat.leb_le in E.
      rewrite (sm_prefix c (S i) (slice val 0 (S i))) by (auto; lia). rewrite !bind_ok.
      apply IH; try lia; auto. split; [rewrite upd_length; auto|]. intros p Hp. cbn [andb].
      destruct (Nat.eq_dec p (i - h)) as [->|NE].
      * rewrite nth_error_upd_same by lia.
        assert (X : (i - h + h <? S i) = true) by (apply Nat.ltb_lt; lia). rewrite X.
        unfold sliding_median. replace (i - h - h) with 0 by lia. replace (i - h + h + 1) with (S i) by lia. auto.
      * rewrite nth_error_upd_other by auto. rewrite HA by auto. cbn [andb].
        replace (p + h <? S i) with (p + h <? i); auto. apply eq_true_iff_eq. rewrite !Nat.ltb_lt. lia.
    + rewrite bind_ok. apply IH; try lia; auto. split; auto. intros p Hp. rewrite HA by auto.
      destruct two_end; auto. cbn [andb]. rewrite andb_true_r in E. apply Nat.leb_gt in E.
      assert (X : (p + h <? i) = false) by (apply Nat.ltb_ge; lia).
      assert (Y : (p + h <? S i) = false) by (apply Nat.ltb_ge; lia). rewrite X, Y. auto.
Qed.

Lemma mf_slide_spec : forall two_end n i cur ans, i + n = length data - h -> h < i -> length cur = w ->
  firstn w cur = qsort (slice val (i - 1 - h) (i + h)) -> mf_state two_end i ans ->
  exists cur' ans', mf_slide r32 data h (seq i n) cur ans = Ok (cur', ans') /\ length cur' = w /\
    firstn w cur' = qsort (slice val (length data - w) (length data)) /\ mf_state two_end (length data - h) ans'.
Proof.
  intros two_end. induction n as [|n IH]; intros i cur ans HN HI LC HC HA.
  - exists cur, ans. unfold w in *. assert (E : i = length data - h) by lia. rewrite <- E. repeat split; auto.
    + rewrite HC. f_equal; apply slice_eq; lia.
    + apply HA.
    + apply HA.
  - cbn [seq mf_slide]. unfold w in *.
    destruct (get_in _ data (i - h - 1) ltac:(lia)) as (x & G & N). rewrite G, bind_ok.
    rewrite (slice_uncons _ val (i - 1 - h) (i + h) (r32 x)) in HC
      by (try lia; apply val_nth; replace (i - 1 - h) with (i - h - 1) by lia; auto).
    destruct (win_delete_spec cur (2 * h + 1) (slice val (S (i - 1 - h)) (i + h)) (r32 x)) as (c & EC & LC1 & HC1);
      [lia|auto|rewrite slice_length, val_len; lia|].
    rewrite EC, bind_ok.
    destruct (get_in _ data (i + h) ltac:(lia)) as (y & Gy & Ny). rewrite Gy, bind_ok.
    replace (2 * h + 1 - 1) with (2 * h) in HC1 by lia.
    destruct (win_insert_spec c (2 * h) (slice val (S (i - 1 - h)) (i + h)) (r32 y)) as (c2 & EC2 & LC2 & HC2);
      [lia|auto|rewrite slice_length, val_len; lia|].
    rewrite EC2, bind_ok.
    rewrite qsort_snoc, <- (slice_snoc _ val (S (i - 1 - h)) (i + h) (r32 y)) in HC2 by (try lia; apply val_nth; auto).
    replace (S (2 * h)) with (2 * h + 1) in HC2 by lia.
    rewrite (sm_prefix c2 (2 * h + 1) (slice val (S (i - 1 - h)) (S (i + h)))) by (auto; lia). rewrite bind_ok.
    apply IH; try lia.
    + rewrite HC2. f_equal; apply slice_eq; lia.
    + apply mf_step; auto; try lia. unfold sliding_median. f_equal; apply slice_eq; lia.
Qed.

Lemma mf_tail_spec : forall n i wl cur ans, (forall x, In x data -> r32 x = x) ->
  i + n = length data -> length data - h <= i -> wl + i = length data + 1 + h -> wl <= length cur ->
  firstn wl cur = qsort (slice val (i - 1 - h) (length data)) -> mf_state true i ans ->
  exists ans', mf_tail r32 data h (seq i n) wl cur ans = Ok ans' /\ mf_state true (length data) ans'.
Proof.
  induction n as [|n IH]; intros i wl cur ans FIX HN HI HW LC HC HA.
  - exists ans. assert (E : i = length data) by lia. rewrite <- E at 1. split; auto; rewrite <- E; auto.
  - cbn [seq mf_tail]. unfold w in *.
    destruct (get_in _ data (i - h - 1) ltac:(lia)) as (x & G & N). rewrite G, bind_ok.
    assert (FX : r32 x = x) by (apply FIX; eapply nth_error_In; eauto).
    rewrite (slice_uncons _ val (i - 1 - h) (length data) x) in HC
      by (try lia; rewrite <- FX; apply val_nth; replace (i - 1 - h) with (i - h - 1) by lia; auto).
    destruct (win_delete_spec cur wl (slice val (S (i - 1 - h)) (length data)) x) as (c & EC & LC1 & HC1);
      [lia|auto|rewrite slice_length, val_len; lia|].
    rewrite EC, bind_ok. cbv zeta.
    rewrite (sm_prefix c (wl - 1) (slice val (S (i - 1 - h)) (length data))) by (auto; lia). rewrite bind_ok.
    apply IH; auto; try lia.
    + rewrite HC1. f_equal; apply slice_eq; lia.
    + apply mf_step; auto; try lia. unfold sliding_median.
      rewrite (slice_clip _ val _ (i + h + 1)) by (rewrite val_len; lia). rewrite val_len. f_equal; apply slice_eq; lia.
Qed.

Lemma median_filter_spec : forall window two_end, window / 2 = h ->
  (two_end = true -> forall x, In x data -> r32 x = x) ->
  exists out, median_filter r32 data window two_end = Ok out /\
   mf_state two_end (if two_end then length data else length data - h) out.
Proof.
  intros window two_end EW FIX. unfold median_filter. rewrite EW. fold w. fold val.
  destruct (length data <? w) eqn:E; rewrite ?Nat.ltb_lt, ?Nat.ltb_ge in E; [lia|].
  destruct (mf_fill_spec two_end w 0 (repeat 0%Qc w) val) as (cur & ans & E1 & L1 & C1 & A1); auto.
  { apply repeat_length. }
  { split; [apply val_len|]. intros p Hp.
    assert (X : (p + h <? 0) = false) by (apply Nat.ltb_ge; lia). rewrite X, andb_false_r. auto. }
  unfold range. rewrite E1, bind_ok. rewrite (sm_prefix cur w (slice val 0 w)) by (auto; unfold w in *; lia).
  rewrite bind_ok.
  assert (A2 : mf_state two_end (S h) (upd ans h (r32 (qmedian (slice val 0 w))))).
  { destruct A1 as [LA A1]. split; [rewrite upd_length; auto|]. intros p Hp. unfold mf_done.
    destruct (Nat.eq_dec p h) as [->|NE].
    - rewrite nth_error_upd_same by (unfold w in *; lia).
      assert (X : (h <? S h) = true) by (apply Nat.ltb_lt; lia). rewrite X, Nat.leb_refl, orb_true_r. simpl andb.
      unfold sliding_median. rewrite Nat.sub_diag. unfold w. do 3 f_equal; apply slice_eq; lia.
    - rewrite nth_error_upd_other by auto. rewrite A1 by auto.
      destruct two_end; cbn [andb orb].
      + rewrite andb_true_r. replace (p + h <? w) with (p <? S h); auto.
        apply eq_true_iff_eq. rewrite !Nat.ltb_lt. unfold w. lia.
      + destruct ((p <? S h) && (h <=? p)) eqn:X; auto. apply andb_prop in X. destruct X as [X1 X2].
        apply Nat.ltb_lt in X1. apply Nat.leb_le in X2. lia. }
  destruct (mf_slide_spec two_end (length data - h - S h) (S h) cur (upd ans h (r32 (qmedian (slice val 0 w)))))
    as (cur2 & ans2 & E2 & L2 & C2 & A3); auto; try (unfold w in *; lia).
  { rewrite C1. unfold w. f_equal; apply slice_eq; lia. }
  rewrite E2, bind_ok. destruct two_end.
  - destruct (mf_tail_spec h (length data - h) w cur2 ans2) as (ans3 & E3 & A4); auto; try (unfold w in *; lia).
    { rewrite C2. unfold w. f_equal; apply slice_eq; lia. }
    exists ans3. auto.
  - exists ans2. auto.
Qed.
End MF.
