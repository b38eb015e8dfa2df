(** Concrete sorting functions and a concrete small network, used in the
    examples and counterexamples about the multivariate detector. *)
From Coq Require Import String List Arith ZArith Lia Bool Permutation Sorted.
From Verif Require Import Base Num Helpers_model Mv_model Mv_state Mv_spec Mv_spec2 Mv_proofs.
Import ListNotations.
Open Scope nat_scope.

Section Argsort.
Variable A : Type.
Variable leb : A -> A -> bool.
Hypothesis leb_total : forall x y, leb x y = true \/ leb y x = true.
Hypothesis leb_trans : forall x y z, leb x y = true -> leb y z = true -> leb x z = true.

Fixpoint pinsert (x : A * nat) (l : list (A * nat)) : list (A * nat) :=
  match l with [] => [x] | y :: t => if leb (fst x) (fst y) then x :: l else y :: pinsert x t end.
Fixpoint psort (l : list (A * nat)) : list (A * nat) :=
  match l with [] => [] | x :: t => pinsert x (psort t) end.
Definition argsort (l : list A) : list nat := map snd (psort (combine l (seq 0 (length l)))).

Lemma pinsert_perm : forall l x, Permutation (x :: l) (pinsert x l).
Proof.
  induction l as [|y t IH]; intros x; cbn; auto. destruct (leb (fst x) (fst y)); auto.
  eapply perm_trans; [apply perm_swap|]. constructor. auto.
Qed.
Lemma psort_perm : forall l, Permutation l (psort l).
Proof. induction l; cbn; auto. eapply perm_trans; [|apply pinsert_perm]. constructor. auto. Qed.
Let R (x y : A * nat) := leb (fst x) (fst y) = true.
Lemma pinsert_sorted : forall l x, StronglySorted R l -> StronglySorted R (pinsert x l).
Proof.
  induction l as [|y t IH]; intros x H; cbn; [repeat constructor|]. inversion H as [|? ? H1 H2]; subst.
  destruct (leb (fst x) (fst y)) eqn:E.
  - constructor; auto. constructor; auto. rewrite Forall_forall in *. intros z I. unfold R. eapply leb_trans; eauto. apply H2; auto.
  - constructor; auto. rewrite Forall_forall in *. intros z I.
    apply (Permutation_in _ (Permutation_sym (pinsert_perm t x))) in I. destruct I as [<-|I]; auto.
    destruct (leb_total (fst x) (fst y)) as [C|C]; [congruence|exact C].
Qed.
Lemma psort_sorted : forall l, StronglySorted R (psort l).
Proof. induction l; cbn; [constructor|]. apply pinsert_sorted. auto. Qed.

Lemma map_snd_combine : forall B (l : list A) (r : list B), length l = length r -> map snd (combine l r) = r.
Proof. induction l as [|x t IH]; intros [|y r] H; cbn in *; try lia; auto. f_equal. apply IH. lia. Qed.
Lemma argsort_perm : forall l, Permutation (argsort l) (seq 0 (length l)).
Proof.
  intros l. unfold argsort. rewrite <- (map_snd_combine _ l (seq 0 (length l))) at 2 by (rewrite seq_length; auto).
  apply Permutation_map, Permutation_sym, psort_perm.
Qed.
Lemma combine_seq_nth : forall (l : list A) a x i, In (x, i) (combine l (seq a (length l))) -> nth_error l (i - a) = Some x /\ a <= i.
Proof.
  induction l as [|y t IH]; intros a x i H; cbn in H; [contradiction|]. destruct H as [H|H].
  - inversion H; subst. rewrite Nat.sub_diag. auto.
  - apply IH in H. destruct H as [H1 H2]. replace (i - a) with (S (i - S a)) by lia. split; auto. lia.
Qed.
Lemma sorted_nth : forall (l : list (A * nat)), StronglySorted R l -> forall i j x y, i < j ->
  nth_error l i = Some x -> nth_error l j = Some y -> R x y.
Proof.
  induction 1 as [|z l H IH F]; intros i j x y Hij Ei Ej; [destruct i; discriminate|].
  destruct j; [lia|]. destruct i; cbn in *.
  - inversion Ei; subst. rewrite Forall_forall in F. apply F. eapply nth_error_In; eauto.
  - apply (IH i j); auto. lia.
Qed.
Lemma argsort_sorted : forall l i j a b x y, i < j -> nth_error (argsort l) i = Some a -> nth_error (argsort l) j = Some b ->
  nth_error l a = Some x -> nth_error l b = Some y -> leb x y = true.
Proof.
  intros l i j a b x y Hij Ei Ej Ea Eb. unfold argsort in *. rewrite nth_error_map in Ei, Ej.
  destruct (nth_error (psort _) i) as [[x' a']|] eqn:Pi; [|discriminate].
  destruct (nth_error (psort _) j) as [[y' b']|] eqn:Pj in Ej; [|discriminate].
  cbn in Ei, Ej. inversion Ei; inversion Ej; subst.
  pose proof (sorted_nth _ (psort_sorted _) _ _ _ _ Hij Pi Pj) as S. unfold R in S. cbn in S.
  assert (I1 : In (x', a) (combine l (seq 0 (length l)))) by (apply (Permutation_in _ (Permutation_sym (psort_perm _))); eapply nth_error_In; eauto).
  assert (I2 : In (y', b) (combine l (seq 0 (length l)))) by (apply (Permutation_in _ (Permutation_sym (psort_perm _))); eapply nth_error_In; eauto).
  apply combine_seq_nth in I1, I2. rewrite !Nat.sub_0_r in *. destruct I1, I2. congruence.
Qed.
Lemma psort_id : forall l, StronglySorted R l -> psort l = l.
Proof.
  induction 1 as [|x l H IH F]; auto. cbn. rewrite IH. destruct l as [|y t]; auto. cbn.
  inversion F as [|? ? F1 F2]; subst. unfold R in F1. rewrite F1. auto.
Qed.
Lemma combine_sorted : forall l (r : list nat), StronglySorted (fun x y => leb x y = true) l -> StronglySorted R (combine l r).
Proof.
  intros l r H. revert r. induction H as [|x l H IH F]; intros r; cbn; [constructor|]. destruct r as [|y r]; constructor; auto.
  rewrite Forall_forall in *. intros [u v] I. apply in_combine_l in I. unfold R. cbn. auto.
Qed.
Lemma argsort_id : forall l, StronglySorted (fun x y => leb x y = true) l -> argsort l = seq 0 (length l).
Proof.
  intros l H. unfold argsort. rewrite psort_id by (apply combine_sorted; auto). apply map_snd_combine. rewrite seq_length; auto.
Qed.
End Argsort.

Definition toy_isort : list Z -> list nat := argsort Z Z.leb.
Definition toy_argsort : list Qc -> list nat := argsort Qc (fun x y => (y <=? x)%Qc).

Lemma toy_isort_ok : forall l, increasing_order l (toy_isort l).
Proof.
  intros l. split; [apply argsort_perm|]. split.
  - intros i j a b x y Hij Ei Ej Ea Eb. apply Zle_bool_imp_le.
    eapply (argsort_sorted Z Z.leb); eauto; intros; rewrite ?Z.leb_le in *; lia.
  - intros H. apply argsort_id. clear -H. induction H as [|x l H IH F]; constructor; auto.
    rewrite Forall_forall in *. intros y I. apply Z.leb_le. auto.
Qed.
Lemma toy_argsort_ok : forall l, decreasing_order l (toy_argsort l).
Proof.
  intros l. split; [apply argsort_perm|].
  intros i j a b x y Hij Ei Ej Ea Eb. apply Qcleb_le.
  eapply (argsort_sorted Qc (fun x y => (y <=? x)%Qc)); eauto; intros; rewrite ?Qcleb_le in *.
  - destruct (Qclt_le_dec' y0 x0); [left; qlra|right; auto].
  - qlra.
Qed.

(** A network for one variable that always predicts 0; [|d|] as error. *)
Definition toy_net (_ : unit) (_ : list (list Qc)) : list Qc * mat := ([0%Qc], [[1%Qc]]).
Definition toy_max : list Qc := [Q2Qc (99999999 # 100000000)].
Definition toy_config (input tw : nat) : config :=
  Config 1 input tw 1 2 1 1 (Q2Qc (8 # 10)) (Q2Qc (1 # 10)) (Q2Qc (8 # 10)) "model" toy_max [0%Qc].
Definition toy_detector (input tw : nat) (th : Qc) : detector unit :=
  Detector unit (Some (toy_config input tw)) (Some tt) (Some [1%Qc]) (Some th) None None None (Some ["a"%string]).
Definition toy_frame (index : list Z) (cells : list Qc) : frame := Frame index [("a"%string, map Some cells)].
Definition toy_predict (input tw : nat) (th : Qc) (data : frame) (params : dict) : dict * res (list result) :=
  predict (fun _ => None) toy_isort toy_argsort Qcabs (Q2Qc (1718 # 1000)) unit toy_net (toy_detector input tw th) [] data params.
(** What a caller sees of a result, in a form that computes. *)
Definition seen (r : result) : Z * bool * Q := (r_index r, r_anomaly r, this (r_score r)).
Definition seen_all (x : dict * res (list result)) : res (list (Z * bool * Q)) :=
  do l <- snd x; Ok (map seen l).
Lemma seen_inv : forall x l, seen_all x = Ok l -> exists p rs, x = (p, Ok rs) /\ map seen rs = l.
Proof. intros [p [rs|e]] l H; cbn in H; inversion H. eauto. Qed.
