From Coq Require Import List ZArith Lia Bool Reals Lra QArith Qreals.
From Flocq Require Import Core BinarySingleNaN Relative Sterbenz.
From Verif Require Import Base Dates_model Dates_float Fmargins_model Fmargins_float Fmargins_spec.
From Verif Require Kernel_model Margins_model.
Import ListNotations.
Open Scope R_scope.

(** ** The table of factors *)
Definition scaled (p : Z * Z) : Z := (fst p * 2 ^ (snd p + 80))%Z.
Definition lit_good (p : Z * Z) : bool :=
  ((Z.abs (fst p) <? 2 ^ 53) && (-80 <=? snd p) && (0 <=? scaled p) && (scaled p <=? 2 ^ 90))%Z.

Lemma lit_val : forall p, lit_good p = true -> val (lit p) = IZR (scaled p) * p2 (-80) /\ fits 10 (lit p).
Proof.
  intros [m e] G. unfold lit_good, scaled in *. cbn [fst snd] in *. apply andb_true_iff in G as [G G4].
  apply andb_true_iff in G as [G G3]. apply andb_true_iff in G as [G1 G2].
  apply Z.ltb_lt in G1. apply Z.leb_le in G2, G3, G4.
  assert (E : F2R (Float radix2 m e) = IZR (m * 2 ^ (e + 80)) * p2 (-80)).
  { unfold F2R. cbn [Fnum Fexp]. rewrite mult_IZR. change 2%Z with (radix_val radix2) at 1. rewrite IZR_Zpower by lia.
    rewrite Rmult_assoc, <- bpow_plus. do 2 f_equal. lia. }
  assert (F : fmt (F2R (Float radix2 m e))).
  { rewrite fexp_FLT. apply generic_format_FLT. exists (Float radix2 m e); cbn [Fnum Fexp]; auto; lia. }
  assert (B : Rabs (F2R (Float radix2 m e)) <= p2 10).
  { rewrite E, Rabs_pos_eq.
    - replace (p2 10) with (IZR (2 ^ 90) * p2 (-80)).
      + apply Rmult_le_compat_r; [apply bpow_ge_0|]. apply IZR_le. auto.
      + change (2 ^ 90)%Z with (radix2 ^ 90)%Z. rewrite IZR_Zpower by lia. rewrite <- bpow_plus. f_equal.
    - apply Rmult_le_pos; [apply IZR_le; auto|apply bpow_ge_0]. }
  pose proof (binary_normalize_correct 53 1024 _ _ mode_NE m e false) as C. cbv zeta in C.
  change (round_mode mode_NE) with ZnearestE in C. rewrite (no_ovf 10) in C by (auto; lia).
  rewrite rnd_id in C by auto. destruct C as (V & Fi & _). unfold lit, fits. cbn [fst snd]. rewrite V. rewrite <- E. auto.
Qed.

Lemma lits_good : forallb lit_good factor_lits = true. Proof. vm_compute. reflexivity. Qed.
Lemma lits_len : length factor_lits = 101%nat. Proof. reflexivity. Qed.
Fixpoint decreasing (l : list Z) : bool :=
  match l with a :: ((b :: _) as t) => (b <? a)%Z && decreasing t | _ => true end.
Lemma lits_decreasing : decreasing (map scaled factor_lits) = true. Proof. vm_compute. reflexivity. Qed.
Lemma decreasing_nth : forall l i j, decreasing l = true -> (i < j < length l)%nat -> (nth j l 0 < nth i l 0)%Z.
Proof.
  assert (Q : forall l a j, decreasing (a :: l) = true -> (j < length l)%nat -> (nth j l 0 < a)%Z).
  { induction l as [|b l IH]; intros a j D H; [cbn in H; lia|]. cbn [decreasing] in D. apply andb_true_iff in D as [D1 D2].
    apply Z.ltb_lt in D1. destruct j; cbn [nth]; auto. apply Z.lt_trans with b; auto. apply IH; auto. cbn in H. lia. }
  induction l as [|a l IH]; intros i j D H; [cbn in H; lia|]. destruct j; [lia|]. destruct i; cbn [nth].
  - apply Q; auto. cbn in H. lia.
  - apply IH. { destruct l; auto. cbn [decreasing] in D. apply andb_true_iff in D. tauto. } cbn in H. lia.
Qed.

(** The mantissas and exponents are the doubles nearest to the literals of the source. *)
Definition nearb (p : Z * Z) (q : Q) : bool :=
  let (m, e) := p in
  ((m =? 0) && (Qnum q =? 0) ||
   ((2 ^ 52 <=? m) && (m <? 2 ^ 53) && (-80 <=? e) && (e <=? 0) &&
    (2 * Z.abs (m * Zpos (Qden q) - Qnum q * 2 ^ (- e)) <? Zpos (Qden q))))%Z.
Lemma nearb_ok : forall p q, nearb p q = true -> nearest_to p q.
Proof.
  intros [m e] [n d] H. unfold nearb, nearest_to in *. cbn [Qnum Qden] in *. apply orb_true_iff in H as [H|H].
  { apply andb_true_iff in H as [A B]. apply Z.eqb_eq in A, B. auto. }
  right. repeat (apply andb_true_iff in H as [H ?]).
  repeat match goal with X : (_ <=? _)%Z = true |- _ => apply Z.leb_le in X | X : (_ <? _)%Z = true |- _ => apply Z.ltb_lt in X end.
  split; [lia|].
  assert (D : 0 < IZR (Zpos d)) by (apply IZR_lt; lia).
  assert (W : p2 (- e) * p2 e = 1) by (rewrite <- bpow_plus; replace (- e + e)%Z with 0%Z by lia; reflexivity).
  pose proof (bpow_gt_0 radix2 e) as Pe.
  assert (K : 2 * Rabs (IZR m * IZR (Zpos d) - IZR n * p2 (- e)) < IZR (Zpos d)).
  { match goal with X : (2 * Z.abs _ < _)%Z |- _ => apply IZR_lt in X; rename X into L end.
    rewrite mult_IZR, abs_IZR, minus_IZR, !mult_IZR in L. change 2%Z with (radix_val radix2) in L at 2.
    rewrite IZR_Zpower in L by lia. exact L. }
  unfold Q2R. cbn [Qnum Qden].
  replace (IZR m * p2 e - IZR n * / IZR (Zpos d)) with ((IZR m * IZR (Zpos d) - IZR n * p2 (- e)) * (p2 e / IZR (Zpos d))).
  2: { replace (IZR n * p2 (- e)) with (IZR n / p2 e). { field. split; apply Rgt_not_eq; assumption. } unfold Rdiv. f_equal. apply Rmult_eq_reg_r with (p2 e); [|apply Rgt_not_eq; assumption]. rewrite W. field. apply Rgt_not_eq; assumption. }
  rewrite Rabs_mult, (Rabs_pos_eq (p2 e / _)).
  2: { apply Rmult_le_pos; [apply bpow_ge_0|]. left. apply Rinv_0_lt_compat. auto. }
  apply Rmult_lt_reg_r with (IZR (Zpos d)); auto. replace (Rabs (IZR m * IZR (Zpos d) - IZR n * p2 (- e)) * (p2 e / IZR (Zpos d)) * IZR (Zpos d)) with (Rabs (IZR m * IZR (Zpos d) - IZR n * p2 (- e)) * p2 e) by (field; apply Rgt_not_eq; assumption).
  clear - K Pe. set (a := Rabs _) in *. set (b := p2 e) in *. set (c := IZR (Zpos d)) in *. clearbody a b c. nra.
Qed.
Lemma factor_lits_nearest : Forall2 nearest_to factor_lits Margins_model.factors_q.
Proof.
  assert (G : forall a b, length a = length b -> forallb (fun pq => nearb (fst pq) (snd pq)) (combine a b) = true -> Forall2 nearest_to a b).
  { induction a as [|x a IH]; intros [|y b] L H; cbn in *; try discriminate; constructor.
    - apply andb_true_iff in H as [H _]. apply nearb_ok. auto.
    - apply IH; [lia|]. apply andb_true_iff in H. tauto. }
  apply G; [reflexivity|]. vm_compute. reflexivity.
Qed.

(** The factor of a sensitivity. *)
Definition fac (s : Z) : Z := nth (Z.to_nat s) (map scaled factor_lits) 0%Z.
Lemma get_ok : forall A (l : list A) i d, (i < length l)%nat -> Kernel_model.get l i = Ok (nth i l d).
Proof.
  intros. unfold Kernel_model.get. rewrite (nth_error_nth' l d) by auto. reflexivity.
Qed.
Lemma factors_nth : forall i, (i < 101)%nat ->
  Kernel_model.get factors i = Ok (lit (nth i factor_lits (0, 0)%Z)) /\
  val (lit (nth i factor_lits (0, 0)%Z)) = IZR (nth i (map scaled factor_lits) 0%Z) * p2 (-80) /\
  fits 10 (lit (nth i factor_lits (0, 0)%Z)) /\ (0 <= nth i (map scaled factor_lits) 0)%Z.
Proof.
  intros i H. assert (G : lit_good (nth i factor_lits (0, 0)%Z) = true).
  { pose proof lits_good as L. rewrite forallb_forall in L. apply L. apply nth_In. rewrite lits_len. auto. }
  assert (E : nth i (map scaled factor_lits) 0%Z = scaled (nth i factor_lits (0, 0)%Z)).
  { change 0%Z with (scaled (0, 0)%Z) at 1. apply map_nth. }
  rewrite E. split; [|split; [|split]].
  - rewrite (get_ok _ _ _ (lit (0, 0)%Z)) by (unfold factors; rewrite map_length, lits_len; auto).
    f_equal. unfold factors. apply map_nth.
  - apply lit_val. auto.
  - apply lit_val. auto.
  - unfold lit_good in G. apply andb_true_iff in G as [G _]. apply andb_true_iff in G as [_ G]. apply Z.leb_le. auto.
Qed.
Lemma fac_mono : forall s t, (0 <= s <= t)%Z -> (t <= 100)%Z -> (fac t <= fac s)%Z.
Proof.
  intros s t H K. destruct (Z.eq_dec s t) as [->|N]; [lia|]. apply Z.lt_le_incl. apply decreasing_nth.
  - apply lits_decreasing.
  - rewrite map_length, lits_len. lia.
Qed.
Lemma fac_99 : forall s, (0 <= s <= 99)%Z -> (fac 99 <= fac s)%Z.
Proof. intros. apply fac_mono; lia. Qed.
Lemma fac_100 : fac 100 = 0%Z. Proof. reflexivity. Qed.
