(** Exact numbers: canonical rationals [Qc], a linear-arithmetic tactic for
    them, boolean comparisons, minimum/maximum, sums. *)
From Coq Require Import List Arith ZArith Lia Bool.
From Coq Require Export QArith Qcanon Lqa.
Import ListNotations.

Open Scope Qc_scope.

(** * Transfer to [Q] *)
Lemma this_add : forall x y : Qc, (this (x + y) == this x + this y)%Q.
Proof. intros. apply Qred_correct. Qed.
Lemma this_opp : forall x : Qc, (this (- x) == - this x)%Q.
Proof. intros. apply Qred_correct. Qed.
Lemma this_sub : forall x y : Qc, (this (x - y) == this x - this y)%Q.
Proof. intros. unfold Qcminus. rewrite this_add, this_opp. reflexivity. Qed.
Lemma this_mul : forall x y : Qc, (this (x * y) == this x * this y)%Q.
Proof. intros. apply Qred_correct. Qed.
Lemma this_inv : forall x : Qc, (this (/ x) == / this x)%Q.
Proof. intros. apply Qred_correct. Qed.
Lemma this_q : forall q : Q, (this (Q2Qc q) == q)%Q.
Proof. intros. apply Qred_correct. Qed.
Lemma qc_eq_q : forall x y : Qc, x = y -> (this x == this y)%Q.
Proof. intros; subst; reflexivity. Qed.

Ltac qc_pre1 :=
  match goal with
  | |- @eq Qc _ _ => apply Qc_is_canon
  | |- not (@eq Qc _ _) => intro
  | |- _ <= _ => unfold Qcle
  | |- _ < _ => unfold Qclt
  | |- ~ (_ <= _) => apply Qclt_not_le
  | |- ~ (_ < _) => apply Qcle_not_lt
  | _ => idtac
  end.
Ltac qc_hyps :=
  repeat match goal with
  | H : @eq Qc _ _ |- _ => apply qc_eq_q in H
  | H : ~ (_ <= _) |- _ => apply Qcnot_le_lt in H
  | H : ~ (_ < _) |- _ => apply Qcnot_lt_le in H
  | H : (_ <= _)%Qc |- _ => unfold Qcle in H
  | H : (_ < _)%Qc |- _ => unfold Qclt in H
  end.
Ltac qc_simpl_all :=
  repeat match goal with
  | H : context [this (_ + _)] |- _ => rewrite this_add in H
  | H : context [this (_ - _)] |- _ => rewrite this_sub in H
  | H : context [this (- _)] |- _ => rewrite this_opp in H
  | H : context [this (_ * _)] |- _ => rewrite this_mul in H
  | H : context [this (Q2Qc _)] |- _ => rewrite this_q in H
  | |- context [this (_ + _)] => rewrite this_add
  | |- context [this (_ - _)] => rewrite this_sub
  | |- context [this (- _)] => rewrite this_opp
  | |- context [this (_ * _)] => rewrite this_mul
  | |- context [this (Q2Qc _)] => rewrite this_q
  end.
Ltac to_q := intros; qc_pre1; qc_hyps; qc_simpl_all.
(** Linear (and easy non-linear) arithmetic over [Qc]. *)
Ltac qlra := to_q; lra.
Ltac qnra := to_q; nra.

(** * Boolean comparisons *)
Definition Qcleb (x y : Qc) : bool := Qle_bool (this x) (this y).
Definition Qcltb (x y : Qc) : bool := negb (Qle_bool (this y) (this x)).
Definition Qceqb (x y : Qc) : bool := Qeq_bool (this x) (this y).

Infix "<=?" := Qcleb : Qc_scope.
Infix "<?" := Qcltb : Qc_scope.
Infix "=?" := Qceqb : Qc_scope.

Lemma Qcleb_le : forall x y, (x <=? y) = true <-> x <= y.
Proof. intros. apply Qle_bool_iff. Qed.
Lemma Qcleb_gt : forall x y, (x <=? y) = false <-> y < x.
Proof.
  intros. rewrite <- not_true_iff_false, Qcleb_le. split.
  - apply Qcnot_le_lt.
  - intros H. apply Qclt_not_le; auto.
Qed.
Lemma Qcltb_lt : forall x y, (x <? y) = true <-> x < y.
Proof.
  intros. unfold Qcltb. rewrite negb_true_iff.
  change (Qle_bool y x) with (y <=? x). apply Qcleb_gt.
Qed.
Lemma Qcltb_ge : forall x y, (x <? y) = false <-> y <= x.
Proof.
  intros. unfold Qcltb. rewrite negb_false_iff.
  change (Qle_bool y x) with (y <=? x). apply Qcleb_le.
Qed.
Lemma Qceqb_eq : forall x y, (x =? y) = true <-> x = y.
Proof.
  intros. unfold Qceqb. rewrite Qeq_bool_iff. split.
  - apply Qc_is_canon.
  - intros; subst; reflexivity.
Qed.
Lemma Qceqb_neq : forall x y, (x =? y) = false <-> x <> y.
Proof. intros. rewrite <- not_true_iff_false, Qceqb_eq. tauto. Qed.
Lemma Qceqb_refl : forall x, (x =? x) = true.
Proof. intros. apply Qceqb_eq. auto. Qed.

(** Case analysis on all boolean comparisons in sight. *)
Ltac qb_hyps :=
  repeat match goal with
  | H : (_ <=? _)%Qc = true |- _ => apply Qcleb_le in H
  | H : (_ <=? _)%Qc = false |- _ => apply Qcleb_gt in H
  | H : (_ <? _)%Qc = true |- _ => apply Qcltb_lt in H
  | H : (_ <? _)%Qc = false |- _ => apply Qcltb_ge in H
  | H : (_ =? _)%Qc = true |- _ => apply Qceqb_eq in H
  | H : (_ =? _)%Qc = false |- _ => apply Qceqb_neq in H
  | H : true = (_ <=? _)%Qc |- _ => symmetry in H
  | H : false = (_ <=? _)%Qc |- _ => symmetry in H
  | H : true = (_ <? _)%Qc |- _ => symmetry in H
  | H : false = (_ <? _)%Qc |- _ => symmetry in H
  end.
Ltac qb_case :=
  repeat match goal with
  | |- context [(?x <=? ?y)%Qc] => let E := fresh "E" in destruct (x <=? y)%Qc eqn:E
  | |- context [(?x <? ?y)%Qc] => let E := fresh "E" in destruct (x <? y)%Qc eqn:E
  | |- context [(?x =? ?y)%Qc] => let E := fresh "E" in destruct (x =? y)%Qc eqn:E
  end.

(** * Min / max / abs *)
Definition Qcmin (x y : Qc) : Qc := if x <=? y then x else y.
Definition Qcmax (x y : Qc) : Qc := if x <=? y then y else x.
Definition Qcabs (x : Qc) : Qc := if 0 <=? x then x else - x.

Ltac qmm := unfold Qcmin, Qcmax, Qcabs in *; qb_case; qb_hyps.

Lemma Qcmin_l : forall x y, Qcmin x y <= x. Proof. intros. qmm; qlra. Qed.
Lemma Qcmin_r : forall x y, Qcmin x y <= y. Proof. intros. qmm; qlra. Qed.
Lemma Qcmax_l : forall x y, x <= Qcmax x y. Proof. intros. qmm; qlra. Qed.
Lemma Qcmax_r : forall x y, y <= Qcmax x y. Proof. intros. qmm; qlra. Qed.
Lemma Qcmin_glb : forall x y z, z <= x -> z <= y -> z <= Qcmin x y.
Proof. intros. qmm; auto. Qed.
Lemma Qcmax_lub : forall x y z, x <= z -> y <= z -> Qcmax x y <= z.
Proof. intros. qmm; auto. Qed.
Lemma Qcabs_nonneg : forall x, 0 <= Qcabs x. Proof. intros. qmm; qlra. Qed.
Lemma Qcabs_opp : forall x, Qcabs (- x) = Qcabs x. Proof. intros. qmm; qlra. Qed.
Lemma Qcabs_sub_sym : forall x y, Qcabs (x - y) = Qcabs (y - x).
Proof. intros. qmm; qlra. Qed.

(** * Embedding of integers *)
Definition qz (z : Z) : Qc := Q2Qc (inject_Z z).
Definition qn (n : nat) : Qc := qz (Z.of_nat n).

Lemma this_qz : forall z, (this (qz z) == inject_Z z)%Q.
Proof. intros. apply this_q. Qed.
Lemma qz_add : forall a b, qz (a + b) = qz a + qz b.
Proof. intros. apply Qc_is_canon. rewrite this_add, !this_qz, inject_Z_plus. reflexivity. Qed.
Lemma qz_mul : forall a b, qz (a * b) = qz a * qz b.
Proof. intros. apply Qc_is_canon. rewrite this_mul, !this_qz, inject_Z_mult. reflexivity. Qed.
Lemma qz_opp : forall a, qz (- a) = - qz a.
Proof. intros. apply Qc_is_canon. rewrite this_opp, !this_qz, inject_Z_opp. reflexivity. Qed.
Lemma qz_sub : forall a b, qz (a - b) = qz a - qz b.
Proof. intros. unfold Z.sub, Qcminus. rewrite qz_add, qz_opp. reflexivity. Qed.
Lemma qz_le : forall a b, (a <= b)%Z <-> qz a <= qz b.
Proof. intros. unfold Qcle. rewrite !this_qz. rewrite <- Zle_Qle. reflexivity. Qed.
Lemma qz_lt : forall a b, (a < b)%Z <-> qz a < qz b.
Proof. intros. unfold Qclt. rewrite !this_qz. rewrite <- Zlt_Qlt. reflexivity. Qed.
Lemma qz_inj : forall a b, qz a = qz b -> a = b.
Proof. intros a b H. apply Z.le_antisymm; apply qz_le; rewrite H; apply Qcle_refl. Qed.
Lemma qz_0 : qz 0 = 0. Proof. reflexivity. Qed.
Lemma qz_1 : qz 1 = 1. Proof. reflexivity. Qed.

Lemma qn_add : forall a b, qn (a + b) = qn a + qn b.
Proof. intros. unfold qn. rewrite Nat2Z.inj_add. apply qz_add. Qed.
Lemma qn_mul : forall a b, qn (a * b) = qn a * qn b.
Proof. intros. unfold qn. rewrite Nat2Z.inj_mul. apply qz_mul. Qed.
Lemma qn_S : forall n, qn (S n) = 1 + qn n.
Proof. intros. change (S n) with (1 + n)%nat. rewrite qn_add. reflexivity. Qed.
Lemma qn_0 : qn 0 = 0. Proof. reflexivity. Qed.
Lemma qn_sub : forall a b, (b <= a)%nat -> qn (a - b) = qn a - qn b.
Proof. intros. unfold qn. rewrite Nat2Z.inj_sub by auto. apply qz_sub. Qed.
Lemma qn_nonneg : forall n, 0 <= qn n.
Proof. intros. unfold qn. rewrite <- qz_0. apply (proj1 (qz_le _ _)). lia. Qed.
Lemma qn_pos : forall n, (0 < n)%nat -> 0 < qn n.
Proof. intros. unfold qn. rewrite <- qz_0. apply (proj1 (qz_lt _ _)). lia. Qed.
Lemma qn_neq0 : forall n, (0 < n)%nat -> qn n <> 0.
Proof. intros n H E. pose proof (qn_pos n H). rewrite E in H0. qlra. Qed.
Lemma qn_le : forall a b, (a <= b)%nat <-> qn a <= qn b.
Proof. intros. unfold qn. rewrite <- qz_le. lia. Qed.
Lemma qn_lt : forall a b, (a < b)%nat <-> qn a < qn b.
Proof. intros. unfold qn. rewrite <- qz_lt. lia. Qed.
Lemma qn_inj : forall a b, qn a = qn b -> a = b.
Proof. intros a b H. apply qz_inj in H. lia. Qed.

(** * Multiplication and division facts *)
Lemma Qcmul_pos : forall x y, 0 < x -> 0 < y -> 0 < x * y.
Proof. intros. qnra. Qed.
Lemma Qcmul_nonneg : forall x y, 0 <= x -> 0 <= y -> 0 <= x * y.
Proof. intros. qnra. Qed.
Lemma Qcsqr_nonneg : forall x, 0 <= x * x.
Proof. intros. qnra. Qed.
Lemma Qcsqr_zero : forall x, x * x = 0 -> x = 0.
Proof. intros. destruct (Qcmult_integral _ _ H); auto. Qed.
Lemma Qcmul_le_l : forall x y z, 0 <= z -> x <= y -> z * x <= z * y.
Proof. intros. qnra. Qed.
Lemma Qcinv_pos : forall x, 0 < x -> 0 < / x.
Proof.
  intros x H. unfold Qclt in *. rewrite this_inv. apply Qinv_lt_0_compat; auto.
Qed.
Lemma Qcdiv_nonneg : forall x y, 0 <= x -> 0 < y -> 0 <= x / y.
Proof. intros. apply Qcmul_nonneg; auto. apply Qclt_le_weak, Qcinv_pos; auto. Qed.
Lemma Qcmul_div : forall x y, y <> 0 -> y * (x / y) = x.
Proof. intros. field; auto. Qed.
Lemma Qcdiv_le_iff : forall x y z, 0 < z -> (x / z <= y <-> x <= y * z).
Proof.
  intros x y z H.
  assert (E : z * (x / z) = x) by (apply Qcmul_div; intro; subst; qlra).
  set (d := x / z) in *. split; intros; rewrite <- E in *; qnra.
Qed.
Lemma Qcdiv_lt_iff : forall x y z, 0 < z -> (x / z < y <-> x < y * z).
Proof.
  intros x y z H.
  assert (E : z * (x / z) = x) by (apply Qcmul_div; intro; subst; qlra).
  set (d := x / z) in *. split; intros; rewrite <- E in *; qnra.
Qed.
Lemma Qcle_div_iff : forall x y z, 0 < z -> (y <= x / z <-> y * z <= x).
Proof.
  intros x y z H.
  assert (E : z * (x / z) = x) by (apply Qcmul_div; intro; subst; qlra).
  set (d := x / z) in *. split; intros; rewrite <- E in *; qnra.
Qed.
Lemma Qclt_div_iff : forall x y z, 0 < z -> (y < x / z <-> y * z < x).
Proof.
  intros x y z H.
  assert (E : z * (x / z) = x) by (apply Qcmul_div; intro; subst; qlra).
  set (d := x / z) in *. split; intros; rewrite <- E in *; qnra.
Qed.

(** * Sums and list extrema *)
Fixpoint qsum (l : list Qc) : Qc :=
  match l with [] => 0 | x :: t => x + qsum t end.
Definition qmean (l : list Qc) : Qc := qsum l / qn (length l).
(** numpy [min]/[max] of a non-empty list (0 on []: callers are non-empty) *)
Fixpoint qmin_from (m : Qc) (l : list Qc) : Qc :=
  match l with [] => m | x :: t => qmin_from (Qcmin m x) t end.
Fixpoint qmax_from (m : Qc) (l : list Qc) : Qc :=
  match l with [] => m | x :: t => qmax_from (Qcmax m x) t end.
Definition qmin_list (l : list Qc) : Qc :=
  match l with [] => 0 | x :: t => qmin_from x t end.
Definition qmax_list (l : list Qc) : Qc :=
  match l with [] => 0 | x :: t => qmax_from x t end.

Lemma qsum_app : forall a b, qsum (a ++ b) = qsum a + qsum b.
Proof. induction a; simpl; intros; [ring|rewrite IHa; ring]. Qed.

Lemma qmin_from_spec : forall l m,
  (qmin_from m l <= m /\ forall x, In x l -> qmin_from m l <= x) /\
  (qmin_from m l = m \/ In (qmin_from m l) l).
Proof.
  induction l as [|a t IH]; intros m; simpl.
  - split; [split; [apply Qcle_refl|tauto]|auto].
  - destruct (IH (Qcmin m a)) as [[H1 H2] H3].
    pose proof (Qcmin_l m a). pose proof (Qcmin_r m a).
    split.
    + split; [qlra|]. intros x [E|I]; [subst; qlra|auto].
    + destruct H3 as [E|I]; [|auto].
      unfold Qcmin in *. destruct (m <=? a); auto.
Qed.
Lemma qmax_from_spec : forall l m,
  (m <= qmax_from m l /\ forall x, In x l -> x <= qmax_from m l) /\
  (qmax_from m l = m \/ In (qmax_from m l) l).
Proof.
  induction l as [|a t IH]; intros m; simpl.
  - split; [split; [apply Qcle_refl|tauto]|auto].
  - destruct (IH (Qcmax m a)) as [[H1 H2] H3].
    pose proof (Qcmax_l m a). pose proof (Qcmax_r m a).
    split.
    + split; [qlra|]. intros x [E|I]; [subst; qlra|auto].
    + destruct H3 as [E|I]; [|auto].
      unfold Qcmax in *. destruct (m <=? a); auto.
Qed.
Lemma qmin_list_le : forall l x, In x l -> qmin_list l <= x.
Proof.
  intros [|a t] x H; [destruct H|]. simpl.
  destruct (qmin_from_spec t a) as [[H1 H2] _]. destruct H; [subst; auto|auto].
Qed.
Lemma qmax_list_ge : forall l x, In x l -> x <= qmax_list l.
Proof.
  intros [|a t] x H; [destruct H|]. simpl.
  destruct (qmax_from_spec t a) as [[H1 H2] _]. destruct H; [subst; auto|auto].
Qed.
Lemma qmin_list_in : forall l, l <> [] -> In (qmin_list l) l.
Proof.
  intros [|a t] H; [congruence|]. simpl.
  destruct (qmin_from_spec t a) as [_ [E|I]]; [left; congruence|auto].
Qed.
Lemma qmax_list_in : forall l, l <> [] -> In (qmax_list l) l.
Proof.
  intros [|a t] H; [congruence|]. simpl.
  destruct (qmax_from_spec t a) as [_ [E|I]]; [left; congruence|auto].
Qed.

Lemma qsum_ge : forall l m, (forall x, In x l -> m <= x) -> qn (length l) * m <= qsum l.
Proof.
  induction l as [|a t IH]; intros m H; simpl length; simpl qsum.
  - rewrite qn_0. qlra.
  - rewrite qn_S. pose proof (IH m (fun x I => H x (or_intror I))).
    pose proof (H a (or_introl eq_refl)).
    set (s := qsum t) in *. set (k := qn (length t)) in *. qnra.
Qed.
Lemma qsum_le : forall l m, (forall x, In x l -> x <= m) -> qsum l <= qn (length l) * m.
Proof.
  induction l as [|a t IH]; intros m H; simpl length; simpl qsum.
  - rewrite qn_0. qlra.
  - rewrite qn_S. pose proof (IH m (fun x I => H x (or_intror I))).
    pose proof (H a (or_introl eq_refl)).
    set (s := qsum t) in *. set (k := qn (length t)) in *. qnra.
Qed.
Lemma qmean_bounds : forall l lo hi, l <> [] ->
  (forall x, In x l -> lo <= x /\ x <= hi) -> lo <= qmean l /\ qmean l <= hi.
Proof.
  intros l lo hi NE H. unfold qmean.
  assert (P : 0 < qn (length l)) by (apply qn_pos; destruct l; simpl; [congruence|lia]).
  split.
  - apply Qcle_div_iff; auto. rewrite Qcmult_comm. apply qsum_ge. firstorder.
  - apply Qcdiv_le_iff; auto. rewrite Qcmult_comm. apply qsum_le. firstorder.
Qed.

Lemma Qclt_le_dec' : forall x y : Qc, {x < y} + {y <= x}.
Proof. apply Qclt_le_dec. Qed.
