(** Complex numbers as pairs of reals, as far as the Fourier transform needs them. *)
From Coq Require Import Reals Lra Field.
Open Scope R_scope.

Definition C : Type := (R * R)%type.
Definition RtoC (x : R) : C := (x, 0).
Coercion RtoC : R >-> C.
Definition Cplus (x y : C) : C := (fst x + fst y, snd x + snd y).
Definition Copp (x : C) : C := (- fst x, - snd x).
Definition Cminus (x y : C) : C := Cplus x (Copp y).
Definition Cmult (x y : C) : C := (fst x * fst y - snd x * snd y, fst x * snd y + snd x * fst y).
Definition Cinv (x : C) : C := (fst x / (fst x ^ 2 + snd x ^ 2), - snd x / (fst x ^ 2 + snd x ^ 2)).
Definition Cdiv (x y : C) : C := Cmult x (Cinv y).
Definition Cmod (x : C) : R := sqrt (fst x ^ 2 + snd x ^ 2).

Declare Scope C_scope.
Delimit Scope C_scope with C.
Bind Scope C_scope with C.
Infix "+" := Cplus : C_scope.
Notation "- x" := (Copp x) : C_scope.
Infix "-" := Cminus : C_scope.
Infix "*" := Cmult : C_scope.
Notation "/ x" := (Cinv x) : C_scope.
Infix "/" := Cdiv : C_scope.
Open Scope C_scope.

Ltac parts := unfold Cminus, Cplus, Copp, Cmult, RtoC; cbn [fst snd].
Lemma RtoC_inj : forall x y, RtoC x = RtoC y -> x = y.
Proof. intros x y H. exact (f_equal fst H). Qed.
Lemma RtoC_plus : forall x y : R, RtoC (x + y) = RtoC x + RtoC y.
Proof. intros. parts. f_equal. ring. Qed.
Lemma RtoC_opp : forall x : R, RtoC (- x) = - RtoC x.
Proof. intros. parts. f_equal. ring. Qed.
Lemma RtoC_minus : forall x y : R, RtoC (x - y) = RtoC x - RtoC y.
Proof. intros. parts. f_equal. ring. Qed.
Lemma RtoC_mult : forall x y : R, RtoC (x * y) = RtoC x * RtoC y.
Proof. intros. parts. f_equal; ring. Qed.
Lemma RtoC_inv : forall x : R, x <> 0%R -> RtoC (/ x) = / RtoC x.
Proof. intros x H. unfold RtoC, Cinv. cbn [fst snd]. f_equal; field; auto. Qed.

Lemma sumsq : forall z : C, z <> 0 -> (fst z ^ 2 + snd z ^ 2 <> 0)%R.
Proof.
  intros [a b] H E. cbn [fst snd] in E. apply H. unfold RtoC. f_equal; nra.
Qed.
Lemma C_ring_theory : ring_theory (RtoC 0) (RtoC 1) Cplus Cmult Cminus Copp eq.
Proof. constructor; intros; try destruct x; try destruct y; try destruct z; parts; try f_equal; try ring. Qed.
Lemma C_field_theory : field_theory (RtoC 0) (RtoC 1) Cplus Cmult Cminus Copp Cdiv Cinv eq.
Proof.
  constructor.
  - apply C_ring_theory.
  - intro H. apply RtoC_inj in H. lra.
  - auto.
  - intros z H. pose proof (sumsq z H). unfold Cinv. parts. f_equal; field; auto.
Qed.
Add Field C_field : C_field_theory.

Lemma Cmult_comm : forall x y : C, x * y = y * x.
Proof. intros. ring. Qed.
Lemma Cmult_assoc : forall x y z : C, x * (y * z) = (x * y) * z.
Proof. intros. ring. Qed.
Lemma Cmult_1_r : forall x : C, x * 1 = x.
Proof. intros. ring. Qed.
Lemma Cmult_plus_distr_l : forall x y z : C, x * (y + z) = x * y + x * z.
Proof. intros. ring. Qed.
Lemma Cminus_eq_contra : forall x y : C, x <> y -> x - y <> 0.
Proof. intros x y H E. apply H. replace x with (x - y + y) by ring. rewrite E. ring. Qed.
Lemma Cmult_neq_0 : forall x y : C, x <> 0 -> y <> 0 -> x * y <> 0.
Proof.
  intros x y X Y E. apply Y. replace y with (/ x * (x * y)) by (field; auto). rewrite E. ring.
Qed.

Lemma Cmod_R : forall x : R, Cmod (RtoC x) = Rabs x.
Proof.
  intros. unfold Cmod. simpl fst. simpl snd. replace (x ^ 2 + 0 ^ 2)%R with (Rsqr x) by (unfold Rsqr; ring). apply sqrt_Rsqr_abs.
Qed.
Lemma Cmod_0 : Cmod 0 = 0%R.
Proof. rewrite Cmod_R. apply Rabs_R0. Qed.
Lemma Cmod_opp : forall x : C, Cmod (- x) = Cmod x.
Proof. intros. unfold Cmod. f_equal. parts. ring. Qed.
Lemma Cmod_mult : forall x y : C, Cmod (x * y) = (Cmod x * Cmod y)%R.
Proof.
  intros [a b] [c d]. unfold Cmod. parts. rewrite <- sqrt_mult by nra. f_equal. ring.
Qed.
Lemma Cmod_gt_0 : forall z : C, z <> 0 -> (0 < Cmod z)%R.
Proof.
  intros z H. unfold Cmod. apply sqrt_lt_R0. pose proof (sumsq z H).
  assert (0 <= fst z ^ 2 + snd z ^ 2)%R by nra. lra.
Qed.
Lemma Cmod_triangle : forall x y : C, (Cmod (x + y) <= Cmod x + Cmod y)%R.
Proof.
  intros [a b] [c d]. unfold Cmod. parts.
  set (p := sqrt (a ^ 2 + b ^ 2)). set (q := sqrt (c ^ 2 + d ^ 2)).
  assert (P0 : (0 <= p)%R) by apply sqrt_pos. assert (Q0 : (0 <= q)%R) by apply sqrt_pos.
  assert (P : (p * p = a ^ 2 + b ^ 2)%R) by (apply sqrt_sqrt; nra).
  assert (Q : (q * q = c ^ 2 + d ^ 2)%R) by (apply sqrt_sqrt; nra).
  assert (X : (a * c + b * d <= p * q)%R).
  { apply Rsqr_incr_0_var; [|nra]. unfold Rsqr. replace (p * q * (p * q))%R with ((p * p) * (q * q))%R by ring. rewrite P, Q.
    pose proof (pow2_ge_0 (a * d - b * c)) as S. lra. }
  replace (p + q)%R with (sqrt ((p + q) * (p + q))) by (apply sqrt_square; lra).
  apply sqrt_le_1_alt. nra.
Qed.
