(** Ascending timestamps on the grid give usable indices. *)
From Coq Require Import String List Arith ZArith QArith Qcanon Bool Lia Sorted.
From Verif Require Import Base Num FillUp_model FillUp_spec FillUp_proofs Dates_model Dates_spec Dates_proofs Dates_props
  SR_model Detect_model Request_model Request_spec Request_proofs3.
Import ListNotations.
Open Scope Z_scope.

Lemma div_step : forall y n, 1 < n -> y / n = (y - 1) / n + (if y mod n =? 0 then 1 else 0).
Proof.
  intros y n H. pose proof (Z.div_mod y n ltac:(lia)) as D. pose proof (Z.mod_pos_bound y n ltac:(lia)) as B.
  destruct (y mod n =? 0) eqn:E.
  - apply Z.eqb_eq in E. rewrite <- (Z.div_unique_pos (y - 1) n (y / n - 1) (n - 1)); lia.
  - apply Z.eqb_neq in E. rewrite <- (Z.div_unique_pos (y - 1) n (y / n) (y mod n - 1)); lia.
Qed.
Lemma mod_factor : forall y n k, 0 < n -> 0 < k -> y mod (n * k) = 0 -> y mod n = 0.
Proof. intros y n k H K E. apply Z.mod_divide in E; [|nia]. apply Z.mod_divide; [lia|]. destruct E as [q ->]. exists (q * k). lia. Qed.
Lemma year_step : forall y, days_before_year (y + 1) = days_before_year y + 365 + (if leap y then 1 else 0).
Proof.
  intros y. unfold days_before_year, leap. replace (y + 1 - 1) with y by lia.
  rewrite (div_step y 4), (div_step y 100), (div_step y 400) by lia.
  pose proof (mod_factor y 4 25 ltac:(lia) ltac:(lia)) as M1. pose proof (mod_factor y 100 4 ltac:(lia) ltac:(lia)) as M2.
  change (4 * 25) with 100 in M1. change (100 * 4) with 400 in M2.
  destruct (y mod 4 =? 0) eqn:E4; destruct (y mod 100 =? 0) eqn:E100; destruct (y mod 400 =? 0) eqn:E400; cbn [andb orb negb];
  rewrite ?Z.eqb_eq, ?Z.eqb_neq in *; try lia; exfalso; auto.
Qed.
Lemma year_mono : forall n y, days_before_year y + 365 * Z.of_nat n <= days_before_year (y + Z.of_nat n).
Proof.
  induction n as [|n IH]; intros y; [replace (y + Z.of_nat 0) with y by lia; lia|].
  replace (y + Z.of_nat (S n)) with (y + Z.of_nat n + 1) by lia. rewrite year_step. specialize (IH y). destruct (leap _); lia.
Qed.
Lemma month_table : forall y, let f := if leap y then 1 else 0 in
  map (days_before_month y) [1; 2; 3; 4; 5; 6; 7; 8; 9; 10; 11; 12] =
  [0; 31; 59 + f; 90 + f; 120 + f; 151 + f; 181 + f; 212 + f; 243 + f; 273 + f; 304 + f; 334 + f].
Proof. intros y. cbn. unfold get_days_in_month. cbn. destruct (leap y); reflexivity. Qed.
Lemma month_cases : forall m, 1 <= m <= 12 -> m = 1 \/ m = 2 \/ m = 3 \/ m = 4 \/ m = 5 \/ m = 6 \/ m = 7 \/ m = 8 \/ m = 9 \/ m = 10 \/ m = 11 \/ m = 12.
Proof. intros. lia. Qed.
Lemma month_end : forall y m, 1 <= m <= 12 ->
  0 <= days_before_month y m /\ days_before_month y m + get_days_in_month y m <= 365 + (if leap y then 1 else 0) /\
  forall m', m < m' <= 12 -> days_before_month y m + get_days_in_month y m <= days_before_month y m'.
Proof.
  intros y m H. pose proof (month_table y) as M. cbn zeta in M. cbn [map] in M. assert (M1 : days_before_month y 1 = 0) by reflexivity. assert (M2 : days_before_month y 2 = 31) by reflexivity. injection M as M3 M4 M5 M6 M7 M8 M9 M10 M11 M12.
  destruct (month_cases m H) as [->|[->|[->|[->|[->|[->|[->|[->|[->|[->|[->| ->]]]]]]]]]]];
  unfold get_days_in_month; cbn [Z.eqb Pos.eqb orb];
  repeat match goal with E : days_before_month y _ = _ |- _ => rewrite ?E end;
  (split; [destruct (leap y); lia|]); (split; [destruct (leap y); lia|]); intros m' L;
  destruct (month_cases m') as [->|[->|[->|[->|[->|[->|[->|[->|[->|[->|[->| ->]]]]]]]]]]]; try lia;
  repeat match goal with E : days_before_month y _ = _ |- _ => rewrite ?E end; destruct (leap y); lia.
Qed.
(** Microseconds since 1970 order as the calendar does. *)
Lemma epoch_mono : forall a b, stamp_ok a -> stamp_ok b -> stamp_ltb a b = true -> epoch_us a < epoch_us b.
Proof.
  intros [[ya ma da] ua] [[yb mb db] ub] (Va & Ya & Ua) (Vb & Yb & Ub) H. apply valid_iff in Va, Vb. unfold second_us in *.
  unfold epoch_us. cbn [s_date s_us yr mo dy] in *.
  assert (K : ordinal (Date ya ma da) < ordinal (Date yb mb db) \/ (ordinal (Date ya ma da) = ordinal (Date yb mb db) /\ ua < ub)).
  2:{ destruct K as [K|[K1 K2]]; lia. }
  unfold ordinal. cbn [yr mo dy]. unfold stamp_ltb in H. cbn [s_date s_us yr mo dy] in H.
  destruct (month_end ya ma ltac:(lia)) as (A1 & A2 & A3). destruct (month_end yb mb ltac:(lia)) as (B1 & B2 & B3).
  destruct (ya <? yb) eqn:E1.
  { left. apply Z.ltb_lt in E1. pose proof (year_mono (Z.to_nat (yb - (ya + 1))) (ya + 1)) as Y. rewrite Z2Nat.id in Y by lia.
    replace (ya + 1 + (yb - (ya + 1))) with yb in Y by lia. rewrite year_step in Y. lia. }
  cbn [orb] in H. apply andb_true_iff in H. destruct H as [E2 H]. apply Z.eqb_eq in E2. subst yb.
  destruct (ma <? mb) eqn:E3.
  { left. apply Z.ltb_lt in E3. specialize (A3 mb ltac:(lia)). lia. }
  cbn [orb] in H. apply andb_true_iff in H. destruct H as [E4 H]. apply Z.eqb_eq in E4. subst mb.
  destruct (da <? db) eqn:E5; [left; apply Z.ltb_lt in E5; lia|].
  cbn [orb] in H. apply andb_true_iff in H. destruct H as [E6 H]. apply Z.eqb_eq in E6. apply Z.ltb_lt in H. subst db. right. lia.
Qed.

Lemma chain_sorted : forall (l : list Z) x, (forall i a b, nth_error (x :: l) i = Some a -> nth_error (x :: l) (S i) = Some b -> a < b) ->
  StronglySorted Z.lt (x :: l).
Proof.
  intros l x H. apply Sorted_StronglySorted; [intros a b c; lia|]. revert x H.
  induction l as [|y l IH]; intros x H; [repeat constructor|]. constructor.
  - apply IH. intros i a b A B. apply (H (S i) a b); auto.
  - constructor. apply (H 0%nat x y); auto.
Qed.
Lemma F2_nth : forall A B (R : A -> B -> Prop) l m i b, Forall2 R l m -> nth_error m i = Some b -> exists a, nth_error l i = Some a /\ R a b.
Proof.
  intros A B R l m i b H. revert i. induction H as [|x y l m X H IH]; intros [|i] E; simpl in E; try discriminate.
  - inversion E; subst. exists x. auto.
  - apply IH in E. destruct E as (a & E & Ra). exists a. auto.
Qed.
Lemma grid_sorted : forall step first rest l, 0 < step -> Forall stamp_ok (first :: rest) ->
  (forall i a b, nth_error (first :: rest) i = Some a -> nth_error (first :: rest) (S i) = Some b -> before a b) ->
  Forall2 (steps_after first step) (first :: rest) l ->
  hd_error l = Some 0 /\ StronglySorted Z.lt l.
Proof.
  intros step first rest l P F A G. inversion G as [|? k ? l' G1 G2]; subst.
  assert (K : k = 0) by (unfold steps_after in G1; nia). subst k. split; auto.
  apply chain_sorted. intros i a b Ea Eb.
  destruct (F2_nth _ _ _ _ _ _ _ G Ea) as (s & Es & Ss). destruct (F2_nth _ _ _ _ _ _ _ G Eb) as (t & Et & St).
  unfold steps_after in *. rewrite Forall_forall in F.
  pose proof (epoch_mono s t (F s (nth_error_In _ _ Es)) (F t (nth_error_In _ _ Et)) (A i s t Es Et)). nia.
Qed.
Lemma positions_sorted : forall n, (0 < n)%nat -> let l := map Z.of_nat (List.seq 0 n) in hd_error l = Some 0 /\ StronglySorted Z.lt l.
Proof.
  intros n P. destruct n as [|n]; [lia|]. cbn zeta. cbn [List.seq map]. split; auto. apply chain_sorted.
  change (Z.of_nat 0 :: map Z.of_nat (List.seq 1 n)) with (map Z.of_nat (List.seq 0 (S n))). intros i a b A B.
  rewrite nth_error_map in A, B.
  assert (Q : forall j c, option_map Z.of_nat (nth_error (List.seq 0 (S n)) j) = Some c -> c = Z.of_nat j).
  { intros j c E. destruct (nth_error (List.seq 0 (S n)) j) as [z|] eqn:EZ; [|discriminate]. inversion E; subst.
    assert (L : (j < S n)%nat) by (apply nth_error_Some in EZ || (rewrite <- (seq_length (S n) 0); apply nth_error_Some; congruence); lia).
    rewrite (nth_error_nth' _ 0%nat) in EZ by (rewrite seq_length; auto). rewrite seq_nth in EZ by auto. inversion EZ; auto. }
  apply Q in A, B. lia.
Qed.
