(** Calendar lemmas. *)
From Coq Require Import List ZArith Lia Bool Ascii Znumtheory.
From Verif Require Import Base Dates_model Dates_spec.
Import ListNotations.
Open Scope Z_scope.

Lemma divide_mod : forall n y, 0 < n -> (y mod n =? 0) = true <-> (n | y).
Proof. intros n y H. rewrite Z.eqb_eq. apply Z.mod_divide. lia. Qed.
Lemma leap_spec : forall y, leap y = true <-> (((4 | y) /\ ~ (100 | y)) \/ (400 | y)).
Proof.
  intros y. unfold leap. rewrite andb_true_iff, orb_true_iff, negb_true_iff.
  rewrite !divide_mod by lia.
  assert (E : (y mod 100 =? 0) = false <-> ~ (100 | y)).
  { rewrite <- (divide_mod 100) by lia. destruct (y mod 100 =? 0); split; congruence. }
  rewrite E. assert (I : (400 | y) -> (4 | y)) by (intros [k ->]; exists (k * 100); lia). tauto.
Qed.
Lemma month_length_iff : forall y m n, 1 <= m <= 12 -> (month_length y m n <-> n = get_days_in_month y m).
Proof.
  intros y m n H. unfold month_length, get_days_in_month.
  assert (C : m = 1 \/ m = 2 \/ m = 3 \/ m = 4 \/ m = 5 \/ m = 6 \/ m = 7 \/ m = 8 \/ m = 9 \/ m = 10 \/ m = 11 \/ m = 12) by lia.
  rewrite <- leap_spec.
  assert (L : leap y = true \/ leap y = false) by (destruct (leap y); auto).
  repeat destruct C as [C|C]; subst m; cbn -[leap]; destruct L as [L|L]; rewrite L; intuition (try lia; try congruence).
Qed.
Lemma days_range : forall y m, 28 <= get_days_in_month y m <= 31.
Proof. intros. unfold get_days_in_month. repeat destruct (_ : bool); lia. Qed.
Lemma valid_iff : forall d, valid d <-> 1 <= mo d <= 12 /\ 1 <= dy d <= get_days_in_month (yr d) (mo d).
Proof.
  intros d. unfold valid. split.
  - intros (M & n & L & D). apply month_length_iff in L; auto. subst. auto.
  - intros (M & D). split; auto. exists (get_days_in_month (yr d) (mo d)). split; auto. apply month_length_iff; auto.
Qed.
Lemma last_iff : forall d, valid d -> (last_of_month d <-> dy d = get_days_in_month (yr d) (mo d)).
Proof. intros d V. apply valid_iff in V. unfold last_of_month. apply month_length_iff. tauto. Qed.

Ltac zb := repeat match goal with
  | H : _ && _ = true |- _ => apply andb_true_iff in H; destruct H
  | H : _ || _ = false |- _ => apply orb_false_iff in H; destruct H
  | H : negb _ = true |- _ => apply negb_true_iff in H
  | H : negb _ = false |- _ => apply negb_false_iff in H
  | H : (_ <? _) = true |- _ => apply Z.ltb_lt in H
  | H : (_ <? _) = false |- _ => apply Z.ltb_ge in H
  | H : (_ <=? _) = true |- _ => apply Z.leb_le in H
  | H : (_ <=? _) = false |- _ => apply Z.leb_gt in H
  | H : (_ =? _) = true |- _ => apply Z.eqb_eq in H
  | H : (_ =? _) = false |- _ => apply Z.eqb_neq in H
  | H : _ || _ = true |- _ => apply orb_true_iff in H; destruct H
  | H : _ && _ = false |- _ => apply andb_false_iff in H; destruct H
  end.

Lemma stamp_lt_month : forall a b, valid (s_date a) -> valid (s_date b) -> stamp_ltb a b = true ->
  month_no (s_date a) <= month_no (s_date b).
Proof.
  intros [[ya ma da] ua] [[yb mb db] ub] Va Vb H. apply valid_iff in Va, Vb. unfold stamp_ltb, month_no in *. cbn in *.
  zb; lia.
Qed.
Lemma stamp_ge_month : forall a b, valid (s_date a) -> valid (s_date b) -> stamp_ltb a b = false ->
  month_no (s_date b) <= month_no (s_date a) /\
  (month_no (s_date b) = month_no (s_date a) -> dy (s_date b) <= dy (s_date a)).
Proof.
  intros [[ya ma da] ua] [[yb mb db] ub] Va Vb H. apply valid_iff in Va, Vb. unfold stamp_ltb, month_no in *. cbn in *.
  zb; lia.
Qed.
Lemma stamp_ltb_asym : forall a b, stamp_ltb a b = true -> stamp_ltb b a = false.
Proof.
  intros [[ya ma da] ua] [[yb mb db] ub] H. destruct (stamp_ltb _ _) eqn:E in |- *; auto. exfalso. unfold stamp_ltb in *. cbn in *. zb; lia.
Qed.
Lemma stamp_eq : forall a b, stamp_ltb a b = false -> stamp_ltb b a = false -> s_date a = s_date b.
Proof.
  intros [[ya ma da] ua] [[yb mb db] ub] H G. unfold stamp_ltb in *. cbn in *.
  assert (ya = yb /\ ma = mb /\ da = db) as (-> & -> & ->) by (zb; lia). reflexivity.
Qed.

(** The difference of ordered dates. *)
Definition diff_core (a b : date) : date_difference := get_date_difference (Stamp a 0) (Stamp b 0).
Lemma diff_swap : forall a b, stamp_ltb a b = true ->
  get_date_difference a b = Diff (- d_years (get_date_difference b a)) (- d_months (get_date_difference b a)) (- d_days (get_date_difference b a)).
Proof.
  intros a b H. pose proof (stamp_ltb_asym _ _ H) as G. unfold get_date_difference. rewrite H, G.
  repeat match goal with |- context [if ?c then _ else _] => destruct c end; cbn [d_years d_months d_days]; f_equal; lia.
Qed.
Lemma antisym : forall a b, let p := get_date_difference a b in let q := get_date_difference b a in
  d_years p = - d_years q /\ d_months p = - d_months q /\ d_days p = - d_days q.
Proof.
  intros a b p q. unfold p, q. destruct (stamp_ltb a b) eqn:E.
  - rewrite (diff_swap a b E). cbn. lia.
  - destruct (stamp_ltb b a) eqn:F.
    + rewrite (diff_swap b a F). cbn. lia.
    + pose proof (stamp_eq _ _ E F) as D. unfold get_date_difference. rewrite E, F, <- D, !Z.eqb_refl. cbn [andb]. rewrite Z.ltb_irrefl. cbn [d_years d_months d_days]. lia.
Qed.
(** Everything about an ordered pair. *)
Lemma diff_forward : forall a b, stamp_ltb a b = false -> valid (s_date a) -> valid (s_date b) ->
  let d := get_date_difference a b in let p := s_date a in let q := s_date b in
  0 <= d_months d <= 11 /\ 0 <= d_years d /\ 0 <= d_days d /\
  (d_days d = 0 -> total_months d = month_no p - month_no q) /\
  (d_days d = 0 <-> (month_no p = month_no q /\ dy p = dy q) \/ (month_no p <> month_no q /\ days_agree p q)) /\
  (d_days d <> 0 ->
     (dy q < dy p /\ d_days d = dy p - dy q /\ total_months d = month_no p - month_no q) \/
     (dy p < dy q /\ d_days d = get_days_in_month (yr q) (mo q) - dy q + dy p /\ total_months d = month_no p - month_no q - 1)).
Proof.
  intros a b H Va Vb. destruct (stamp_ge_month a b Va Vb H) as [G1 G2].
  pose proof (last_iff _ Va) as La. pose proof (last_iff _ Vb) as Lb.
  unfold get_date_difference. rewrite H. cbv zeta. unfold total_months, days_agree. rewrite La, Lb. clear La Lb H.
  apply valid_iff in Va, Vb. destruct a as [[ya ma da] ua], b as [[yb mb db] ub]. unfold month_no in *. cbn [yr mo dy s_date] in *.
  pose proof (days_range ya ma) as Ra. pose proof (days_range yb mb) as Rb.
  assert (SameD : ya = yb -> ma = mb -> get_days_in_month ya ma = get_days_in_month yb mb) by (intros; subst; auto).
  set (na := get_days_in_month ya ma) in *. set (nb := get_days_in_month yb mb) in *. clearbody na nb.
  destruct ((ya =? yb) && (ma =? mb)) eqn:E1.
  - zb. subst. change (0 <? 0) with false. cbn [d_years d_months d_days]. specialize (SameD eq_refl eq_refl). repeat split; try lia; intros; try (left; lia).
  - assert (N : ya <> yb \/ ma <> mb) by (zb; lia).
    assert (N2 : ya * 12 + (ma - 1) <> yb * 12 + (mb - 1)) by lia.
    destruct ((da =? db) || ((da =? na) && (db =? nb)) || (negb (na =? nb) && (((da =? na) && (da <? db)) || ((db =? nb) && (db <? da))))) eqn:E2.
    + assert (A : da = db \/ da = na /\ da <= db \/ db = nb /\ db <= da) by (zb; lia).
      destruct (ma - mb <? 0) eqn:E3; zb; cbn [d_years d_months d_days]; repeat split; try lia; intros; try lia; right; split; lia.
    + assert (A : ~ (da = db \/ da = na /\ da <= db \/ db = nb /\ db <= da)) by (zb; lia).
      destruct (db <? da) eqn:E4; [destruct (ma - mb <? 0) eqn:E3|destruct (ma - mb - 1 <? 0) eqn:E3]; zb; cbn [d_years d_months d_days]; repeat split; try lia; intros; try lia.
Qed.
