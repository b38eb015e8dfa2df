(** C110: the outlier tests in single precision. *)
From Coq Require Import List Arith ZArith Lia Bool.
From Verif Require Import Base Num Sorting Kernel_model Kernel_spec Kernel_proofs Kernel_proofs2 Kernel_proofs3.
From Verif Require Import Single_model Single_spec Single_proofs Single_proofs2 Single_proofs3 Single_proofs4.
Import ListNotations.
Open Scope nat_scope.

Section C110.
(** Gaussian.ppf(3/4) = 0.6744897...; np.std over exact numbers; np.mean and
    np.std as computed on arrays of floats. *)
Variable cst : Qc.
Variables std mean32 std32 : list Qc -> Qc.
Variable tau : Qc.
Hypothesis CST : (Q2Qc (67 # 100) <= cst /\ cst <= Q2Qc (68 # 100))%Qc.
Hypothesis TAU : (0 <= tau /\ tau <= 1)%Qc.

Lemma unit_single : forall vals, in_unit vals -> unit_range single vals.
Proof.
  intros vals H x I. destruct (H x I) as [A B]. split; auto.
  pose proof (r_err single x 1%Qc single_rounding ltac:(qlra) B) as E. unfold within, ulp, tiny in *.
  set (y := single x) in *. clearbody y. destruct E. split; qlra.
Qed.
Let GF := r_idem single single_rounding.
Let GM := r_mono single single_rounding.

(** C110, entire mode. A position whose statistic is beyond its critical value
    by more than the band is selected, along with all before it; and the
    selection never ends at a position whose statistics are both within their
    critical value by more than the band. *)
Theorem C110_esd_entire : forall upper vals index maxo critical,
  tail_ordered upper vals -> in_unit vals -> maxo <= length vals ->
  (forall k, k < maxo -> exists c, nth_error critical k = Some c /\ (0 <= c)%Qc) ->
  (forall k, k < maxo -> measured single std mean32 std32 tau (skipn k vals)) ->
  exists n, generalized_esd_test32 single double cst mean32 std32 vals index maxo critical upper None = Ok (firstn n index) /\
    n <= maxo /\
    (forall k c, k < maxo -> nth_error critical k = Some c -> clearly_significant cst std tau upper vals k c -> k < n) /\
    (forall c, 0 < n -> nth_error critical (n - 1) = Some c -> ~ clearly_insignificant cst std tau upper vals (n - 1) c).
Proof.
  intros upper vals index maxo critical H U. apply (gen_esd_entire cst std mean32 std32 tau CST single GF GM TAU upper vals vals index maxo critical eq_refl H (unit_single vals U)).
Qed.

(** C110, last mode: the loop starts at the position of the last point and
    stops at the first one found significant. *)
Theorem C110_esd_last : forall upper vals index maxo critical li,
  tail_ordered upper vals -> in_unit vals -> maxo <= length vals ->
  (forall k, k < maxo -> exists c, nth_error critical k = Some c /\ (0 <= c)%Qc) ->
  (forall k, k < maxo -> measured single std mean32 std32 tau (skipn k vals)) ->
  exists n, generalized_esd_test32 single double cst mean32 std32 vals index maxo critical upper (Some li) = Ok (firstn n index) /\
    (forall k c, li <= k < maxo -> (n = 0 \/ k < n - 1) -> nth_error critical k = Some c ->
       ~ clearly_significant cst std tau upper vals k c) /\
    (0 < n -> li < n /\ n <= maxo /\
       forall c, nth_error critical (n - 1) = Some c -> ~ clearly_insignificant cst std tau upper vals (n - 1) c).
Proof.
  intros upper vals index maxo critical li H U. apply (gen_esd_last cst std mean32 std32 tau CST single GF GM TAU upper vals vals index maxo critical li eq_refl H (unit_single vals U)).
Qed.

(** C110: when every visited position is decided, single precision returns
    exactly what the test over exact numbers returns, in both modes. *)
Theorem C110_esd_agrees : forall upper vals index maxo critical last_index,
  tail_ordered upper vals -> in_unit vals -> maxo <= length vals ->
  (forall k, k < maxo -> exists c, nth_error critical k = Some c /\ (0 <= c)%Qc /\ decided cst std tau upper vals k c) ->
  (forall k, k < maxo -> measured single std mean32 std32 tau (skipn k vals)) ->
  generalized_esd_test32 single double cst mean32 std32 vals index maxo critical upper last_index =
  generalized_esd_test cst std vals index maxo critical upper last_index.
Proof.
  intros upper vals index maxo critical li H U. apply (gen_esd_agrees cst std mean32 std32 tau CST single GF GM TAU upper vals vals index maxo critical li eq_refl H (unit_single vals U)).
Qed.

Theorem C110_threshold_agrees : forall upper vals index maxo threshold last_index,
  tail_ordered upper vals -> in_unit vals -> maxo <= length vals -> (0 <= threshold)%Qc ->
  (forall k, k < maxo -> decided cst std tau upper vals k threshold) ->
  (forall k, k < maxo -> measured single std mean32 std32 tau (skipn k vals)) ->
  dynamic_threshold32 single double cst mean32 std32 vals index maxo threshold upper last_index =
  dynamic_threshold cst std vals index maxo threshold upper last_index.
Proof.
  intros upper vals index maxo threshold li H U. apply (gen_threshold_agrees cst std mean32 std32 tau CST single GF GM TAU upper vals vals index maxo threshold li eq_refl H (unit_single vals U)).
Qed.
End C110.
Print Assumptions C110_esd_entire.
Print Assumptions C110_esd_last.
Print Assumptions C110_esd_agrees.
Print Assumptions C110_threshold_agrees.

(** The rounding of the model is the one of IEEE 754 binary32 and binary64
    (Flocq's round to nearest even), below the overflow limit. *)
Theorem C110_rounding : forall x,
  QR (single x) = Generic_fmt.round Zaux.radix2 (FLT.FLT_exp (-149) 24) Round_NE.ZnearestE (QR x) /\
  QR (Single_model.double x) = Generic_fmt.round Zaux.radix2 (FLT.FLT_exp (-1074) 53) Round_NE.ZnearestE (QR x).
Proof. intros. split; apply rne_round. Qed.
Print Assumptions C110_rounding.

(** Twelve values: the largest is 2.8e-8 above eleven equal ones. *)
Definition close_to_one : Qc := Q2Qc (536870897 # 536870912).
Definition crowded : list Qc := 1%Qc :: repeat close_to_one 11.
Definition spread (l : list Qc) : Qc := (qmax_list l - qmin_list l)%Qc.

(** Without the band single precision need not agree: over exact numbers the
    largest value is significant, but as floats all twelve are equal. *)
Theorem C110_esd_refuted : forall std,
  tail_ordered true crowded /\ in_unit crowded /\
  generalized_esd_test (Q2Qc (6745 # 10000)) std crowded (seq 0 12) 1 [Q2Qc (5 # 2)] true None = Ok [0] /\
  generalized_esd_test32 single Single_model.double (Q2Qc (6745 # 10000)) qmean spread crowded (seq 0 12) 1 [Q2Qc (5 # 2)] true None = Ok [].
Proof.
  intros std. split; [|split; [|split]].
  - apply tail_ordered_ordered. apply (qsorted_of_nth (rev crowded)). intros i x y Hx Hy.
    assert (B : forallb (fun p => Qcleb (fst p) (snd p)) (combine (rev crowded) (tl (rev crowded))) = true) by (vm_compute; reflexivity).
    rewrite forallb_forall in B. apply Qcleb_le. apply (B (x, y)).
    apply (nth_error_In _ i). clear B. 
    assert (G : forall (l : list Qc) i x y, nth_error l i = Some x -> nth_error l (S i) = Some y -> nth_error (combine l (tl l)) i = Some (x, y)).
    { clear. induction l as [|a l IH]; intros [|i] x y A B; simpl in *; try discriminate.
      - destruct l; simpl in *; [discriminate|]. congruence.
      - destruct l as [|b l]; simpl in *; [destruct i; discriminate|]. apply (IH i); auto. }
    apply G; auto.
  - intros x I. assert (B : forallb (fun x => (0 <=? x) && (x <=? 1))%Qc crowded = true) by (vm_compute; reflexivity).
    rewrite forallb_forall in B. specialize (B x I). apply andb_true_iff in B. destruct B. qb_hyps. auto.
  - vm_compute. reflexivity.
  - vm_compute. reflexivity.
Qed.
Print Assumptions C110_esd_refuted.

(** A peak above twelve values at two levels. *)
Definition peaked : list Qc := 1%Qc :: repeat (Q2Qc (1 # 4)) 6 ++ repeat (Q2Qc (1 # 8)) 5.
Definition sixteenth (l : list Qc) : Qc := Q2Qc (1 # 16).

Lemma nth_2 : forall (P : nat -> Prop), P 0 -> P 1 -> forall k, k < 2 -> P k.
Proof. intros P A B [|[|k]] L; auto; lia. Qed.
Lemma ltb_true : forall x y, Qcltb x y = true -> (x < y)%Qc. Proof. intros. qb_hyps. auto. Qed.
Lemma leb_true : forall x y, Qcleb x y = true -> (x <= y)%Qc. Proof. intros. qb_hyps. auto. Qed.

Example C110_example :
  tail_ordered true peaked /\ in_unit peaked /\
  (forall k, k < 2 -> decided (Q2Qc (6745 # 10000)) sixteenth (Q2Qc (1 # 1000)) true peaked k (Q2Qc 2)) /\
  (forall k, k < 2 -> measured single sixteenth qmean sixteenth (Q2Qc (1 # 1000)) (skipn k peaked)) /\
  generalized_esd_test32 single Single_model.double (Q2Qc (6745 # 10000)) qmean sixteenth peaked (seq 20 12) 2 [Q2Qc 2; Q2Qc 2] true None = Ok [20].
Proof.
  split; [|split; [|split; [|split]]].
  - assert (G : forallb (fun i => forallb (fun j => negb (i <=? j) || (nth j peaked 0 <=? nth i peaked 0)%Qc) (seq 0 12)) (seq 0 12) = true) by (vm_compute; reflexivity).
    intros i j x y L Hx Hy. rewrite forallb_forall in G.
    pose proof (nth_error_lt _ _ _ _ Hx) as Li. pose proof (nth_error_lt _ _ _ _ Hy) as Lj. change (length peaked) with 12 in *.
    specialize (G i ltac:(apply in_seq; lia)). rewrite forallb_forall in G. specialize (G j ltac:(apply in_seq; lia)).
    rewrite (nth_error_nth_d _ _ _ _ 0%Qc Hx), (nth_error_nth_d _ _ _ _ 0%Qc Hy) in G.
    apply orb_true_iff in G. destruct G as [G|G]; [|qb_hyps; auto].
    apply negb_true_iff in G. apply Nat.leb_gt in G. lia.
  - intros x I. assert (B : forallb (fun x => (0 <=? x) && (x <=? 1))%Qc peaked = true) by (vm_compute; reflexivity).
    rewrite forallb_forall in B. specialize (B x I). apply andb_true_iff in B. destruct B. qb_hyps. auto.
  - apply nth_2.
    + left. exists 1%Qc. split; auto. left. apply ltb_true. vm_compute. reflexivity.
    + right. exists (Q2Qc (1 # 4)). split; auto. split.
      * left. apply leb_true. vm_compute. reflexivity.
      * apply ltb_true. vm_compute. reflexivity.
  - apply nth_2; (split; [|split; [|split]]); apply leb_true; vm_compute; reflexivity.
  - vm_compute. reflexivity.
Qed.
Print Assumptions C110_example.
