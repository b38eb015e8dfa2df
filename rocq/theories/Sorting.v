(** Sorting of exact numbers, order statistics, medians. *)
From Coq Require Import List Arith ZArith Lia Bool Permutation Sorted.
From Verif Require Import Base Num.
Import ListNotations.
Open Scope nat_scope.

(** [sorted(l)] *)
Fixpoint qinsert (x : Qc) (l : list Qc) : list Qc :=
  match l with
  | [] => [x]
  | y :: t => if (x <=? y)%Qc then x :: l else y :: qinsert x t
  end.
Fixpoint qsort (l : list Qc) : list Qc :=
  match l with [] => [] | x :: t => qinsert x (qsort t) end.

(** np.median of a non-empty list (0 on [[]]): the middle element of the
    sorted list, or the mean of the two middle ones. *)
Definition median_of_sorted (s : list Qc) : Qc :=
  let n := length s in
  if Nat.odd n then nth (n / 2) s 0%Qc
  else ((nth (n / 2 - 1) s 0 + nth (n / 2) s 0) / Q2Qc 2)%Qc.
Definition qmedian (l : list Qc) : Qc := median_of_sorted (qsort l).

Definition qsorted (l : list Qc) : Prop := StronglySorted (fun x y => (x <= y)%Qc) l.

Lemma qinsert_perm : forall l x, Permutation (x :: l) (qinsert x l).
Proof.
  induction l as [|y t IH]; intros x; simpl; auto.
  destruct (x <=? y)%Qc; auto.
  rewrite perm_swap. constructor. apply IH.
Qed.

Lemma qsort_perm : forall l, Permutation l (qsort l).
Proof.
  induction l as [|x t IH]; simpl; auto.
  rewrite <- qinsert_perm. constructor. auto.
Qed.

Lemma qsort_length : forall l, length (qsort l) = length l.
Proof. intros. symmetry. apply Permutation_length, qsort_perm. Qed.

Lemma qinsert_sorted : forall l x, qsorted l -> qsorted (qinsert x l).
Proof.
  induction l as [|y t IH]; intros x H; simpl.
  - repeat constructor.
  - inversion H as [|? ? S F]; subst.
    destruct (x <=? y)%Qc eqn:E; qb_hyps.
    + constructor; auto. constructor; auto.
      rewrite Forall_forall in *. intros z Hz. specialize (F z Hz). simpl in F. qlra.
    + constructor. { apply IH; auto. }
      rewrite Forall_forall in *. intros z Hz.
      apply (Permutation_in z (Permutation_sym (qinsert_perm t x))) in Hz.
      destruct Hz as [->|Hz]; [qlra|auto].
Qed.

Lemma qsort_sorted : forall l, qsorted (qsort l).
Proof.
  induction l as [|x t IH]; simpl. { constructor. }
  apply qinsert_sorted; auto.
Qed.

Lemma qsorted_nth : forall l i j x y, qsorted l -> i <= j ->
  nth_error l i = Some x -> nth_error l j = Some y -> (x <= y)%Qc.
Proof.
  induction l as [|a t IH]; intros i j x y S L Hi Hj.
  - destruct i; discriminate.
  - inversion S as [|? ? S' F]; subst. destruct i as [|i]; destruct j as [|j]; simpl in *.
    + inversion Hi; inversion Hj; subst. apply Qcle_refl.
    + inversion Hi; subst. rewrite Forall_forall in F. apply F.
      eapply nth_error_In; eauto.
    + lia.
    + apply (IH i j x y); auto. lia.
Qed.

Lemma qsorted_unique : forall l1 l2, qsorted l1 -> qsorted l2 -> Permutation l1 l2 -> l1 = l2.
Proof.
  induction l1 as [|a t IH]; intros l2 S1 S2 P.
  - apply Permutation_nil in P. auto.
  - destruct l2 as [|b t2]; [symmetry in P; apply Permutation_nil in P; discriminate|].
    inversion S1 as [|? ? S1' F1]; inversion S2 as [|? ? S2' F2]; subst.
    rewrite Forall_forall in F1, F2.
    assert (a = b).
    { assert (Ha : In a (b :: t2)) by (eapply Permutation_in; [apply P|left; auto]).
      assert (Hb : In b (a :: t)) by (eapply Permutation_in; [symmetry; apply P|left; auto]).
      destruct Ha as [->|Ha]; auto. destruct Hb as [->|Hb]; auto.
      specialize (F1 _ Hb). specialize (F2 _ Ha). simpl in *. qlra. }
    subst. f_equal. apply IH; auto. eapply Permutation_cons_inv; eauto.
Qed.

Lemma qsort_perm_eq : forall l1 l2, Permutation l1 l2 -> qsort l1 = qsort l2.
Proof.
  intros. apply qsorted_unique; auto using qsort_sorted.
  rewrite <- (qsort_perm l1), H. apply qsort_perm.
Qed.

Lemma qsort_of_sorted : forall l, qsorted l -> qsort l = l.
Proof.
  intros. apply qsorted_unique; auto using qsort_sorted. symmetry. apply qsort_perm.
Qed.

Lemma median_in_range : forall l lo hi, l <> [] ->
  (forall x, In x l -> lo <= x /\ x <= hi)%Qc -> (lo <= qmedian l /\ qmedian l <= hi)%Qc.
Proof.
  intros l lo hi NE H. unfold qmedian, median_of_sorted.
  assert (L : 0 < length (qsort l)) by (rewrite qsort_length; destruct l; simpl; [congruence|lia]).
  assert (B : forall k, k < length (qsort l) -> (lo <= nth k (qsort l) 0 /\ nth k (qsort l) 0 <= hi)%Qc).
  { intros k Hk. apply H. eapply Permutation_in; [symmetry; apply qsort_perm|].
    apply nth_In; auto. }
  set (n := length (qsort l)) in *.
  destruct (Nat.odd n) eqn:O.
  - apply B. apply Nat.div_lt; lia.
  - assert (2 <= n).
    { destruct n as [|[|n]]; try lia. discriminate. }
    assert (D : n / 2 < n) by (apply Nat.div_lt; lia).
    assert (1 <= n / 2) by (apply (Nat.div_le_mono 2 n 2); lia).
    destruct (B (n/2-1)) as [B1 B2]; [lia|]. destruct (B (n/2)) as [B3 B4]; [lia|].
    set (u := nth (n/2-1) (qsort l) 0%Qc) in *. set (v := nth (n/2) (qsort l) 0%Qc) in *.
    assert (P2 : (0 < Q2Qc 2)%Qc) by reflexivity.
    split; [apply Qcle_div_iff|apply Qcdiv_le_iff]; auto; qlra.
Qed.
