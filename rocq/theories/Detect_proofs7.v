(** A series whose answer holds twice the number of anomalies the ratio allows. *)
From Coq Require Import String List Arith ZArith QArith Qcanon Qround Lia Lqa Bool Sorted Permutation.
From Verif Require Import Base Num Sorting Kernel_model Kernel_spec Kernel_proofs Kernel_proofs2 Kernel_props
  FillUp_model FillUp_spec Helpers_model Helpers_proofs Helpers_proofs2 Helpers_props Margins_model SR_model Detect_model Detect_spec
  Detect_proofs Detect_proofs2 Detect_proofs3 Detect_proofs4 Detect_proofs5 Detect_proofs6.
Import ListNotations.
Open Scope nat_scope.

(** Insertion sort on (label, value) pairs, one possible sort_values. *)
Fixpoint ins_pair (x : nat * Qc) (l : list (nat * Qc)) : list (nat * Qc) :=
  match l with
  | [] => [x]
  | y :: t => if (snd x <=? snd y)%Qc then x :: y :: t else y :: ins_pair x t
  end.
Fixpoint sort_pairs (l : list (nat * Qc)) : list (nat * Qc) :=
  match l with [] => [] | x :: t => ins_pair x (sort_pairs t) end.
Lemma sort_pairs_ok : sorts_up sort_pairs.
Proof.
  assert (P : forall l x, Permutation (x :: l) (ins_pair x l)).
  { induction l as [|y t IH]; intros x; simpl; auto. destruct (_ <=? _)%Qc; auto.
    eapply perm_trans; [apply perm_swap|]. constructor. auto. }
  assert (S : forall l x, StronglySorted (fun a b => (snd a <= snd b)%Qc) l -> StronglySorted (fun a b => (snd a <= snd b)%Qc) (ins_pair x l)).
  { induction l as [|y t IH]; intros x H; simpl; [constructor; auto; constructor|].
    destruct (snd x <=? snd y)%Qc eqn:E; qb_hyps; inversion H as [|? ? H2 H3]; subst; rewrite Forall_forall in H3.
    - constructor; auto. constructor; auto. apply Forall_forall. intros z Hz. specialize (H3 z Hz). eapply Qcle_trans; eauto.
    - constructor; auto. apply Forall_forall. intros z Hz. apply (Permutation_in z (Permutation_sym (P t x))) in Hz.
      destruct Hz as [<-|Hz]; auto. apply Qclt_le_weak. auto. }
  intros l. induction l as [|x t [IH1 IH2]]; simpl; [split; constructor|]. split; auto.
  eapply perm_trans; [apply perm_skip; apply IH1|]. apply P.
Qed.

Lemma reported_refine_eq : forall rows,
  (forall r, In r rows -> r_anomaly r = true -> (EPS <= Qcabs (r_value r - r_expected r))%Qc) ->
  reported (map refine_row_flags rows) = reported rows.
Proof.
  induction rows as [|r t IH]; intros H; simpl; auto. rewrite IH by (intros; apply H; simpl; auto). f_equal.
  unfold refine_row_flags. destruct (_ <? EPS)%Qc eqn:E; auto. qb_hyps. destruct (r_anomaly r) eqn:A; auto.
  specialize (H r (or_introl eq_refl) A). qlra.
Qed.

(** Gaussian.ppf(3/4). *)
Definition ppf34 : Qc := Q2Qc (6744897501960817 # 10000000000000000).
Definition two_tails : list Qc := zs [3; 100; 4; -100; 5; 2; 101; 6; -101; 4; 3; 5]%Z.
Definition two_tails_args : args :=
  mkArgs two_tails (mkFup [] [] 0 false 0 [] [] []) FMNo None (Q2Qc (1 # 10)) (Q2Qc (5 # 100)) (Q2Qc (7 # 2)) false
         (Q2Qc (1 # 10)) Daily None.

Lemma two_labels : forall (x y : nat) (e : list nat), NoDup e -> length e <= 2 -> (forall i, In i e -> i = x \/ i = y) ->
  e = [] \/ e = [x] \/ e = [y] \/ e = [x; y] \/ e = [y; x].
Proof.
  intros x y [|a [|b [|c t]]] ND L H; auto; [| |simpl in L; lia].
  - destruct (H a (or_introl eq_refl)); subst; auto.
  - inversion ND as [|? ? N1 N2]; subst. simpl in N1.
    destruct (H a (or_introl eq_refl)), (H b (or_intror (or_introl eq_refl))); subst; auto; exfalso; apply N1; auto.
Qed.

Section Refute.
Variable std : list Qc -> Qc.
Variable ppf : Qc -> Z -> Qc.
Variable sqrt : Qc -> Qc.
Variable table : list Qc.
Variable trend_detection : list Qc -> option nat -> res (list Qc).
Hypothesis TD : forall s p, exists t, trend_detection s p = Ok t /\ length t = length s /\
  forall x, In x t -> (0 <= x /\ x <= qz 10)%Qc.

Notation norm := (fst (fst (match normalize two_tails with Ok r => r | Err _ => ([], 0%Qc, 0%Qc) end))).

Lemma two_tails_selected : forall alpha lm, exists idx m,
  dt_detect_anomaly ppf34 std ppf sqrt table sort_pairs norm alpha (Q2Qc (1 # 10)) lm = Ok (idx, m) /\
  NoDup idx /\ length idx = 4 /\ (forall i, In i idx -> In i [1; 3; 6; 8]).
Proof.
  intros alpha lm. unfold dt_detect_anomaly. cbv zeta.
  set (sorted := sorted_series sort_pairs norm).
  assert (LN : length norm = 12) by (vm_compute; reflexivity).
  assert (QT : dt_quota (length norm) (Q2Qc (1 # 10)) = 2) by (vm_compute; reflexivity). rewrite QT, LN.
  assert (MJ : get_verified_majority_value ppf34 (map snd sorted) = Ok None) by (vm_compute; reflexivity).
  rewrite MJ, bind_ok.
  destruct (esd_on_sorted ppf34 std ppf sqrt table sort_pairs sort_pairs_ok norm alpha 2 None true lm) as (eu & EU & NU & LU & IU);
    [rewrite LN; lia|rewrite LN; simpl; lia|auto|].
  destruct (esd_on_sorted ppf34 std ppf sqrt table sort_pairs sort_pairs_ok norm alpha 2 None false lm) as (el & EL & NL & LL & IL);
    [rewrite LN; lia|rewrite LN; simpl; lia|auto|].
  fold sorted in EU, EL, IU, IL.
  assert (TU : firstn 2 (map fst (rev sorted)) = [6; 1]) by (vm_compute; reflexivity).
  assert (TL : firstn 2 (map fst sorted) = [8; 3]) by (vm_compute; reflexivity).
  cbv iota in IU, IL. rewrite TU in IU. rewrite TL in IL.
  assert (ZU : zscore_detect ppf34 std sorted 2 true = [6; 1]) by (vm_compute; reflexivity).
  assert (ZL : zscore_detect ppf34 std sorted 2 false = [8; 3]) by (vm_compute; reflexivity).
  unfold detect_tails. cbn [run_detectors]. rewrite EU, ZU, EL, ZL. repeat rewrite bind_ok. cbv zeta.
  assert (CU : rank_direction 2 12 [eu; [6; 1]] = [6; 1] \/ rank_direction 2 12 [eu; [6; 1]] = [1; 6]).
  { destruct (two_labels 6 1 eu NU LU) as [->|[->|[->|[->| ->]]]]; [|vm_compute; auto..].
    intros i Hi. specialize (IU i Hi). simpl in IU. intuition. }
  assert (CL : rank_direction 2 12 [el; [8; 3]] = [8; 3] \/ rank_direction 2 12 [el; [8; 3]] = [3; 8]).
  { destruct (two_labels 8 3 el NL LL) as [->|[->|[->|[->| ->]]]]; [|vm_compute; auto..].
    intros i Hi. specialize (IL i Hi). simpl in IL. intuition. }
  eexists. eexists. split; [reflexivity|].
  assert (N4 : forall a b c d : nat, a <> b -> a <> c -> a <> d -> b <> c -> b <> d -> c <> d -> NoDup [a; b; c; d]).
  { intros. repeat constructor; simpl; intuition. }
  destruct CU as [-> | ->], CL as [-> | ->]; (split; [apply N4; discriminate|split; [reflexivity|simpl; intuition]]).
Qed.

Lemma two_tails_frame : forall tv alpha nt lm, length tv = 12 -> (forall x, In x tv -> (0 <= x /\ x <= qz 10)%Qc) ->
  exists rows m, dynamic_threshold_detection ppf34 std ppf sqrt table sort_pairs trend_detection two_tails tv alpha (Q2Qc (1 # 10)) nt lm = Ok (rows, m) /\
    reported rows = 4 /\ frame_ok two_tails rows /\
    forall r, In r rows -> r_anomaly r = true -> (EPS <= Qcabs (r_value r - r_expected r))%Qc.
Proof.
  intros tv alpha nt lm LT RT. 
  assert (TD' : forall s p, exists t, trend_detection s p = Ok t /\ length t = length s).
  { intros s p. destruct (TD s p) as (t & A & B & _). eauto. }
  destruct (dt_total ppf34 std ppf sqrt table sort_pairs sort_pairs_ok trend_detection TD' two_tails tv alpha (Q2Qc (1 # 10)) nt lm)
    as (u & mn & mx & idx & m & rows & EN & ED & EF & LR & FL); [vm_compute; lia|rewrite LT; reflexivity|].
  exists rows, m. split; auto. pose proof (dt_frame _ _ _ _ _ _ _ _ _ _ _ _ _ _ _ EF) as FO.
  destruct (two_tails_selected alpha lm) as (idx' & m' & ED' & ND & L4 & SUB).
  rewrite EN in ED'. cbn [fst] in ED'. rewrite ED in ED'. inversion ED'; subst idx' m'. clear ED'.
  unfold dynamic_threshold_detection in EF. rewrite EN, bind_ok in EF. cbn [fst] in EF. rewrite ED, bind_ok in EF. cbn [fst snd] in EF.
  bind_inv EF. bind_inv EF. inversion EF; subst. clear EF.
  split; [|split; auto].
  - rewrite (reported_frame _ _ _ _ _ _ E0).
    apply Nat.le_antisymm; [rewrite <- L4; apply count_mem; auto|].
    rewrite <- L4. apply NoDup_incl_length; auto. intros i Hi. apply filter_In. split; [|apply mem_nat_in; auto].
    specialize (SUB i Hi). apply in_seq. change (length two_tails) with 12. simpl in SUB. lia.
  - assert (RA : forall x, In x a -> (0 <= x /\ x <= qz 10)%Qc).
    { destruct idx as [|i0 it]; [discriminate L4|]. bind_inv E. destruct (TD a0 None) as (t & T1 & _ & T3). rewrite T1 in E. inversion E; subst. auto. }
    intros r Hr AN. apply result_frame_spec in E0. destruct E0 as (_ & _ & R).
    apply In_nth_error in Hr. destruct Hr as [i Hi]. destruct (R i r Hi) as (v & x & Hv & Hx & RV & RE & AI & _).
    rewrite AI in AN. apply mem_nat_in in AN. specialize (SUB i AN). apply nth_error_In in Hx. destruct (RA x Hx) as [X0 X1].
    rewrite RV, RE. assert (EP : (EPS < 1)%Qc) by reflexivity.
    assert (V : (v <= qz (-100))%Qc \/ (qz 100 <= v)%Qc).
    { simpl in SUB. destruct SUB as [<-|[<-|[<-|[<-|[]]]]]; cbv in Hv; inversion Hv as [HV]; clear;
        [right|left|right|left]; vm_compute; discriminate. }
    assert (C1 : (qz 10 + 1 <= qz 100)%Qc) by (vm_compute; discriminate). assert (C2 : (qz (-100) <= 0 - 1)%Qc) by (vm_compute; discriminate).
    destruct V as [V|V]; qmm; qlra.
Qed.
End Refute.
