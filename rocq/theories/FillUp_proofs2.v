From Coq Require Import List Arith ZArith Lia Bool Sorted.
From Verif Require Import Base Num Sorting FillUp_model FillUp_spec FillUp_proofs.
Import ListNotations.
Open Scope nat_scope.

(** * Walking pointer *)
Definition ptr (idx : list nat) (i j : nat) : Prop :=
  (forall k y, k < j -> nth_error idx k = Some y -> y < i) /\
  (forall k y, j <= k -> nth_error idx k = Some y -> i <= y).

Lemma ptr_0 : forall idx, ptr idx 0 0.
Proof. split; intros; lia. Qed.

Lemma ptr_hit : forall idx i j, incr idx -> nth_error idx j = Some i -> ptr idx i j ->
  ptr idx (S i) (S j).
Proof.
  intros idx i j S0 H [P1 P2]. split; intros k y L Hk.
  - pose proof (incr_nth_le idx k j y i S0 ltac:(lia) Hk H). lia.
  - pose proof (incr_nth idx j k i y S0 ltac:(lia) H Hk). lia.
Qed.

Lemma ptr_skip : forall idx i j x i', incr idx -> nth_error idx j = Some x -> ptr idx i j ->
  i <= i' <= x -> ptr idx i' j.
Proof.
  intros idx i j x i' S0 H [P1 P2] L. split; intros k y Lk Hk.
  - specialize (P1 k y Lk Hk). lia.
  - pose proof (incr_nth_le idx j k x y S0 Lk H Hk). lia.
Qed.

Lemma ptr_next : forall idx i j, incr idx -> idx <> [] -> i < S (last idx 0) -> ptr idx i j ->
  exists x, nth_error idx j = Some x /\ i <= x.
Proof.
  intros idx i j S0 NE L [P1 P2].
  destruct (nth_error idx j) as [x|] eqn:E.
  - exists x. split; auto. apply (P2 j); auto.
  - apply nth_error_None in E. pose proof (last_nth_error _ idx 0 NE) as HL.
    assert (0 < length idx) by (destruct idx; simpl; [congruence|lia]).
    assert (last idx 0 < i) by (apply (P1 (length idx - 1)); [lia|auto]). lia.
Qed.

Lemma ptr_gap : forall idx i j x, incr idx -> hd_error idx = Some 0 ->
  nth_error idx j = Some x -> i < x -> ptr idx i j ->
  ~ In i idx /\ exists j' a, j = S j' /\ nth_error idx j' = Some a /\ gap_around idx i a x.
Proof.
  intros idx i j x S0 HD H L [P1 P2].
  assert (NI : ~ In i idx).
  { intro I. apply In_nth_error in I. destruct I as [k Hk].
    destruct (Nat.lt_ge_cases k j) as [C|C].
    - specialize (P1 _ _ C Hk). lia.
    - pose proof (incr_nth_le idx j k x i S0 C H Hk). lia. }
  split; auto.
  destruct j as [|j'].
  - destruct idx; simpl in *; [discriminate|]. inversion HD; inversion H; subst. lia.
  - assert (exists a, nth_error idx j' = Some a) as [a Ha].
    { apply nth_error_ex. apply nth_error_lt in H. lia. }
    exists j', a. split; auto. split; auto.
    split; [eapply nth_error_In; eauto|]. split; [eapply nth_error_In; eauto|].
    split. { split; [apply (P1 j' a); auto|auto]. }
    intros q Hq. apply In_nth_error in Hq. destruct Hq as [k Hk].
    destruct (Nat.lt_ge_cases j' k) as [C|C].
    + right. apply (incr_nth_le idx (S j') k x q); auto.
    + left. apply (incr_nth_le idx k j' q a); auto.
Qed.

Lemma wf_ne : forall f, wf_fup f -> f_indices f <> [].
Proof. intros f W E. pose proof (wf_hd f W). rewrite E in H. discriminate. Qed.

Lemma wf_in_lt : forall f p, wf_fup f -> In p (f_indices f) -> p < f_all f.
Proof.
  intros f p W I. rewrite (wf_all f W).
  pose proof (incr_last_ge _ p 0 (wf_incr f W) I). lia.
Qed.

(** * Arrays that carry the submitted values *)
Definition agrees (f : fup) (full : list (option Qc)) : Prop :=
  length full = f_all f /\
  forall p v, observed (f_indices f) (f_values f) p v -> nth_error full p = Some (Some v).

Lemma observed_in : forall idx vals p v, observed idx vals p v -> In p idx /\ In v vals.
Proof. intros idx vals p v (k & A & B). split; eapply nth_error_In; eauto. Qed.

Lemma agrees_upd : forall f full i v, agrees f full -> ~ In i (f_indices f) ->
  agrees f (upd full i v).
Proof.
  intros f full i v [A B] NI. split; [rewrite upd_length; auto|].
  intros p w H. rewrite nth_error_upd_other; auto.
  intro; subst. apply NI. eapply observed_in; eauto.
Qed.

Lemma agrees_splice : forall f full i (l : list (option Qc)), agrees f full ->
  i + length l <= f_all f -> (forall p, i <= p < i + length l -> ~ In p (f_indices f)) ->
  agrees f (splice full i l).
Proof.
  intros f full i l [A B] L NI. split; [rewrite splice_length; lia|].
  intros p w H. rewrite nth_error_splice by lia.
  destruct ((i <=? p) && (p <? i + length l)) eqn:E; auto.
  apply andb_true_iff in E. destruct E as [E1 E2]. apply Nat.leb_le in E1. apply Nat.ltb_lt in E2.
  exfalso. apply (NI p); [lia|]. eapply observed_in; eauto.
Qed.

Lemma vtf_fold : forall (l : list (nat * Qc)) (acc : list (option Qc)) p,
  (forall k q v, nth_error l k = Some (q, v) -> q < length acc) ->
  NoDup (map fst l) ->
  nth_error (fold_left (fun acc p => upd acc (fst p) (Some (snd p))) l acc) p =
  match find (fun x => fst x =? p) l with
  | Some x => Some (Some (snd x))
  | None => nth_error acc p
  end.
Proof.
  induction l as [|[q v] t IH]; intros acc p HL ND; simpl; auto.
  simpl in ND. inversion ND as [|? ? NI ND']; subst.
  rewrite IH; auto.
  - destruct (q =? p) eqn:E.
    + apply Nat.eqb_eq in E. subst.
      destruct (find (fun x : nat * Qc => fst x =? p) t) as [[q' v']|] eqn:F.
      * apply find_some in F. destruct F as [F1 F2]. simpl in F2. apply Nat.eqb_eq in F2. subst.
        exfalso. apply NI. apply in_map_iff. exists (p, v'). auto.
      * apply nth_error_upd_same. apply (HL 0 p v). reflexivity.
    + destruct (find (fun x : nat * Qc => fst x =? p) t); auto.
      apply nth_error_upd_other. apply Nat.eqb_neq in E. auto.
  - intros k q' v' Hk. rewrite upd_length. apply (HL (S k) q' v'). auto.
Qed.

Lemma fold_upd_length : forall (l : list (nat * Qc)) (acc : list (option Qc)),
  length (fold_left (fun acc p => upd acc (fst p) (Some (snd p))) l acc) = length acc.
Proof. induction l; simpl; intros; auto. rewrite IHl, upd_length. auto. Qed.

Lemma nth_error_combine : forall A B (l : list A) (r : list B) k,
  nth_error (combine l r) k =
  match nth_error l k, nth_error r k with Some x, Some y => Some (x, y) | _, _ => None end.
Proof.
  induction l as [|a l IH]; intros r k; [destruct k; reflexivity|].
  destruct r as [|b r].
  - simpl. destruct k; simpl; auto. destruct (nth_error l k); auto.
  - destruct k; simpl; auto.
Qed.

Lemma map_fst_combine : forall A B (l : list A) (r : list B), length l = length r ->
  map fst (combine l r) = l.
Proof. induction l; intros [|b r] H; simpl in *; try discriminate; auto. f_equal. auto. Qed.
Lemma map_snd_combine : forall A B (l : list A) (r : list B), length l = length r ->
  map snd (combine l r) = r.
Proof. induction l; intros [|b r] H; simpl in *; try discriminate; auto. f_equal. auto. Qed.

Lemma incr_NoDup : forall l, incr l -> NoDup l.
Proof.
  induction l; intros S0; constructor; inversion S0; subst; auto.
  intro I. rewrite Forall_forall in H2. apply H2 in I. lia.
Qed.

Lemma values_to_fill_spec : forall f, wf_fup f ->
  agrees f (values_to_fill f) /\
  forall p, p < f_all f -> ~ In p (f_indices f) -> nth_error (values_to_fill f) p = Some None.
Proof.
  intros f W.
  assert (ND : NoDup (map fst (combine (f_indices f) (f_values f)))).
  { rewrite map_fst_combine by apply (wf_len f W). apply incr_NoDup, (wf_incr f W). }
  assert (BD : forall k q v, nth_error (combine (f_indices f) (f_values f)) k = Some (q, v) ->
               q < length (repeat (@None Qc) (f_all f))).
  { intros k q v H. rewrite repeat_length. apply wf_in_lt; auto.
    rewrite nth_error_combine in H. destruct (nth_error (f_indices f) k) eqn:E; [|discriminate].
    destruct (nth_error (f_values f) k); inversion H; subst. eapply nth_error_In; eauto. }
  split; [split|].
  - unfold values_to_fill. rewrite fold_upd_length. apply repeat_length.
  - intros p v (k & A & B). unfold values_to_fill. rewrite vtf_fold; auto.
    destruct (find (fun x : nat * Qc => fst x =? p) _) as [[q w]|] eqn:F.
    + apply find_some in F. destruct F as [F1 F2]. simpl in F2. apply Nat.eqb_eq in F2. subst.
      apply In_nth_error in F1. destruct F1 as [k' F1]. rewrite nth_error_combine in F1.
      destruct (nth_error (f_indices f) k') eqn:E; [|discriminate].
      destruct (nth_error (f_values f) k') eqn:E'; inversion F1; subst.
      assert (k = k') by (eapply incr_nth_inj; eauto; apply (wf_incr f W)). subst.
      simpl. congruence.
    + exfalso. assert (X : (fst (p, v) =? p) = false).
      { apply (find_none _ _ F (p, v)).
        apply (nth_error_In _ k). rewrite nth_error_combine, A, B. auto. }
      simpl in X. rewrite Nat.eqb_refl in X. discriminate.
  - intros p L NI. unfold values_to_fill. rewrite vtf_fold; auto.
    destruct (find (fun x : nat * Qc => fst x =? p) _) as [[q w]|] eqn:F.
    + apply find_some in F. destruct F as [F1 F2]. simpl in F2. apply Nat.eqb_eq in F2. subst.
      apply in_combine_l in F1. contradiction.
    + rewrite nth_error_repeat. apply Nat.ltb_lt in L. rewrite L. auto.
Qed.

(** * Step by step filling with functions that return scalars *)
Definition outcome (f : fup) (func : list (option Qc) -> nat -> nat -> res fres) (em : exc_mode)
    (fp : list (option Qc)) (p j : nat) (v : option Qc) : Prop :=
  func fp p j = Ok (FScalar v) \/
  exists e, func fp p j = Err e /\
    ((em = ENone /\ v = None) \/ (em = ELast /\ func_last (f_values f) j = Ok (FScalar v))).

Lemma func_last_gap : forall f j a, wf_fup f -> nth_error (f_indices f) j = Some a ->
  exists v, nth_error (f_values f) j = Some v /\
            func_last (f_values f) (S j) = Ok (FScalar (Some v)).
Proof.
  intros f j a W H. destruct (nth_error (f_values f) j) as [v|] eqn:E.
  - exists v. unfold func_last. rewrite E. auto.
  - apply nth_error_None in E. apply nth_error_lt in H. rewrite <- (wf_len f W) in E. lia.
Qed.

Lemma step_loop_scalar : forall f func em, wf_fup f ->
  (forall full i j x, agrees f full -> ptr (f_indices f) i j -> nth_error (f_indices f) j = Some x ->
     i < x -> (forall l, func full i j <> Ok (FList l)) /\ func full i j <> Err OutOfFuel) ->
  forall fuel i j full, ptr (f_indices f) i j -> f_all f <= i + fuel -> agrees f full ->
  match step_loop fuel f func em i j full with
  | Ok full' =>
      agrees f full' /\ (forall p, p < i -> nth_error full' p = nth_error full p) /\
      forall p, i <= p < f_all f -> ~ In p (f_indices f) ->
        exists fp jp v, agrees f fp /\ ptr (f_indices f) p jp /\
          nth_error full' p = Some v /\ outcome f func em fp p jp v
  | Err e => em = ERaise /\ e <> OutOfFuel /\
      exists fp p jp x, agrees f fp /\ ptr (f_indices f) p jp /\
         nth_error (f_indices f) jp = Some x /\ p < x /\ func fp p jp = Err e
  end.
Proof.
  intros f func em W HF. induction fuel as [|fuel IH]; intros i j full P HL A.
  - simpl. destruct (i <? f_all f) eqn:E; simpl.
    + apply Nat.ltb_lt in E. lia.
    + apply Nat.ltb_ge in E. split; auto. split; auto. intros; lia.
  - simpl. destruct (i <? f_all f) eqn:E; simpl.
    2:{ apply Nat.ltb_ge in E. split; auto. split; auto. intros; lia. }
    apply Nat.ltb_lt in E.
    pose proof E as E'. rewrite (wf_all f W) in E'.
    destruct (ptr_next _ i j (wf_incr f W) (wf_ne f W) E' P) as (x & Hx & Lx).
    rewrite Hx. destruct (x =? i) eqn:EX.
    + apply Nat.eqb_eq in EX. subst x.
      assert (II : In i (f_indices f)) by (eapply nth_error_In; eauto).
      specialize (IH (S i) (S j) full (ptr_hit _ _ _ (wf_incr f W) Hx P) ltac:(lia) A).
      destruct (step_loop fuel f func em (S i) (S j) full) as [full'|e]; auto.
      destruct IH as (I1 & I2 & I3). split; auto. split; [intros; apply I2; lia|].
      intros p Lp NI. apply I3; auto. destruct (Nat.eq_dec p i); [subst; contradiction|lia].
    + apply Nat.eqb_neq in EX. assert (LX : i < x) by lia.
      apply Nat.ltb_lt in LX. rewrite LX. apply Nat.ltb_lt in LX.
      destruct (HF full i j x A P Hx LX) as [HF1 HF2].
      destruct (ptr_gap _ i j x (wf_incr f W) (wf_hd f W) Hx LX P) as (NI & j' & a & -> & Ha & G).
      assert (STEP : forall v, outcome f func em full i (S j') v ->
        match step_loop fuel f func em (S i) (S j') (upd full i v) with
        | Ok full' =>
            agrees f full' /\ (forall p, p < i -> nth_error full' p = nth_error full p) /\
            forall p, i <= p < f_all f -> ~ In p (f_indices f) ->
              exists fp jp v, agrees f fp /\ ptr (f_indices f) p jp /\
                nth_error full' p = Some v /\ outcome f func em fp p jp v
        | Err e => em = ERaise /\ e <> OutOfFuel /\
            exists fp p jp x, agrees f fp /\ ptr (f_indices f) p jp /\
              nth_error (f_indices f) jp = Some x /\ p < x /\ func fp p jp = Err e
        end).
      { intros v OV.
        specialize (IH (S i) (S j') (upd full i v) (ptr_skip _ i (S j') x (S i) (wf_incr f W) Hx P ltac:(lia)) ltac:(lia)
                       (agrees_upd _ _ _ v A NI)).
        destruct (step_loop fuel f func em (S i) (S j') (upd full i v)) as [full'|e]; auto.
        destruct IH as (I1 & I2 & I3). split; auto.
        split. { intros p Lp. rewrite I2 by lia. apply nth_error_upd_other. lia. }
        intros p Lp NIp. destruct (Nat.eq_dec p i) as [->|N]; [|apply I3; auto; lia].
        exists full, (S j'), v. split; auto. split; auto. split; auto.
        rewrite I2 by lia. apply nth_error_upd_same. rewrite (proj1 A); auto. }
      destruct (func full i (S j')) as [[v|l]|e] eqn:EF.
      * apply STEP. left. auto.
      * exfalso. eapply HF1; eauto.
      * assert (NO : e <> OutOfFuel) by congruence.
        destruct em.
        -- destruct e; try (split; [auto|split; [auto|exists full, i, (S j'), x; auto 10]]).
        -- destruct e; try congruence; apply STEP; right; eexists; split; eauto.
        -- destruct (func_last_gap f j' a W Ha) as (v & Hv & HFL).
           rewrite HFL. destruct e; try congruence; apply STEP; right; eexists; split; eauto.
Qed.
