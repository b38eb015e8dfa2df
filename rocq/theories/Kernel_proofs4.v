(** Cross-validation score (C20) and bucket cleaning (C22). *)
From Coq Require Import List Arith ZArith Lia Bool Permutation Sorted.
From Verif Require Import Base Num Sorting Kernel_model Kernel_spec Kernel_proofs Kernel_proofs2.
Import ListNotations.
Open Scope nat_scope.

Lemma gcv_loop_spec : forall P vs i idx sy sy2 cyc, 0 < P -> idx = i mod P ->
  length sy = P -> length sy2 = P -> length cyc = P ->
  exists sy' sy2' cyc', gcv_loop vs i P idx sy sy2 cyc = Ok (sy', sy2', cyc') /\
    length sy' = P /\ length sy2' = P /\ length cyc' = P /\
    forall ph s s2 c, nth_error sy ph = Some s -> nth_error sy2 ph = Some s2 -> nth_error cyc ph = Some c ->
      let l := at_phase_from i vs P ph in
      nth_error sy' ph = Some (s + qsum l)%Qc /\ nth_error sy2' ph = Some (s2 + qsum (map (fun v => v * v)%Qc l))%Qc /\
      nth_error cyc' ph = Some (c + length l).
Proof.
  intros P. induction vs as [|v t IH]; intros i idx sy sy2 cyc HP HI L1 L2 L3.
  - simpl. exists sy, sy2, cyc. repeat split; auto.
    + rewrite H. f_equal. ring.
    + rewrite H0. f_equal. ring.
    + rewrite H1. f_equal. lia.
  - cbn [gcv_loop]. assert (Lx : idx < P) by (subst idx; apply Nat.mod_upper_bound; lia).
    destruct (get_in _ sy idx ltac:(lia)) as (s0 & G1 & E1).
    destruct (get_in _ sy2 idx ltac:(lia)) as (s02 & G2 & E2).
    destruct (get_in _ cyc idx ltac:(lia)) as (c0 & G3 & E3).
    rewrite G1. cbn [bind]. rewrite G2. cbn [bind]. rewrite G3. cbn [bind].
    destruct (IH (S i) (S i mod P) (upd sy idx (s0 + v)%Qc) (upd sy2 idx (s02 + v * v)%Qc) (upd cyc idx (S c0)))
      as (sy' & sy2' & cyc' & E & M1 & M2 & M3 & R); auto; try (rewrite upd_length; auto).
    exists sy', sy2', cyc'. split; [exact E|]. do 3 (split; [assumption|]).
    intros ph s s2 c H1 H2 H3. cbn [at_phase_from]. rewrite <- HI.
    destruct (Nat.eq_dec ph idx) as [->|NE].
    + rewrite Nat.eqb_refl. rewrite E1 in H1. rewrite E2 in H2. rewrite E3 in H3.
      inversion H1; inversion H2; inversion H3; subst s s2 c.
      destruct (R idx (s0 + v)%Qc (s02 + v * v)%Qc (S c0)) as (R1 & R2 & R3); try (apply nth_error_upd_same; lia).
      cbn [qsum map length]. rewrite R1, R2, R3. repeat split; f_equal; try ring; try lia.
    + replace (idx =? ph) with false by (symmetry; apply Nat.eqb_neq; auto).
      apply (R ph); rewrite nth_error_upd_other; auto.
Qed.

Lemma gcv_sum_spec : forall sy sy2 cyc, length sy = length sy2 -> length sy = length cyc ->
  (forall c, In c cyc -> 2 <= c) ->
  exists means tot, gcv_sum sy sy2 cyc = Ok (means, tot) /\
   means = map (fun p => fst p / qn (snd p))%Qc (combine sy cyc) /\
   tot = qsum (map (fun p => let w := (qn (snd (snd p)) / (qn (snd (snd p)) - 1))%Qc in
                 w * w * (fst (snd p) - fst p * fst p / qn (snd (snd p))))%Qc (combine sy (combine sy2 cyc))).
Proof.
  induction sy as [|s sy IH]; intros [|s2 sy2] [|c cyc] L1 L2 H; simpl in *; try discriminate.
  - exists [], 0%Qc. auto.
  - assert (2 <= c) by auto. destruct (c =? 0) eqn:E0; [apply Nat.eqb_eq in E0; lia|].
    destruct (c =? 1) eqn:E1; [apply Nat.eqb_eq in E1; lia|]. cbn [orb].
    destruct (IH sy2 cyc) as (means & tot & E & EM & ET); auto.
    rewrite E. cbn [bind fst snd]. eexists _, _. split; [reflexivity|]. rewrite EM, ET. auto.
Qed.

Lemma gcv_sum_zero : forall sy sy2 cyc k c, length sy = length sy2 -> length sy = length cyc ->
  nth_error cyc k = Some c -> c < 2 -> gcv_sum sy sy2 cyc = Err ZeroDiv.
Proof.
  induction sy as [|s sy IH]; intros [|s2 sy2] [|c cyc] k c' L1 L2 H HC; simpl in *; try discriminate.
  - destruct k; discriminate.
  - destruct k as [|k]; simpl in H.
    + inversion H; subst. destruct c' as [|[|]]; auto; lia.
    + destruct ((c =? 0) || (c =? 1)); auto. rewrite (IH sy2 cyc k c'); auto.
Qed.

(** Sum over positions = sum over phases. *)
Lemma qsum_map_add : forall A (f g : A -> Qc) l, qsum (map (fun x => f x + g x)%Qc l) = (qsum (map f l) + qsum (map g l))%Qc.
Proof. induction l; simpl; [ring|rewrite IHl; ring]. Qed.
Lemma qsum_delta : forall n s (i : nat) (v : Qc), s <= i < s + n ->
  qsum (map (fun j => if i =? j then v else 0%Qc) (seq s n)) = v.
Proof.
  induction n as [|n IH]; intros s i v H; [lia|]. simpl.
  destruct (i =? s) eqn:E; rewrite ?Nat.eqb_eq, ?Nat.eqb_neq in E.
  - subst. assert (Z : forall m, s < m -> qsum (map (fun j => if s =? j then v else 0%Qc) (seq m n)) = 0%Qc).
    { clear. revert s. induction n; intros s m L; simpl; auto. rewrite IHn by lia.
      destruct (s =? m) eqn:E; [apply Nat.eqb_eq in E; lia|ring]. }
    rewrite Z by lia. ring.
  - rewrite IH by lia. ring.
Qed.

Lemma sum_by_phase : forall P (g : nat -> Qc -> Qc) data k, 0 < P ->
  qsum (mapi_from k (fun k v => g (k mod P) v) data) =
  qsum (map (fun i => qsum (map (g i) (at_phase_from k data P i))) (range P)).
Proof.
  intros P g. induction data as [|v t IH]; intros k HP; simpl.
  - unfold range. induction (seq 0 P); simpl; auto. rewrite <- IHl. ring.
  - rewrite IH by auto.
    rewrite <- (qsum_delta P 0 (k mod P) (g (k mod P) v)).
    2:{ pose proof (Nat.mod_upper_bound k P). lia. }
    rewrite <- qsum_map_add. f_equal. apply map_ext. intros i.
    destruct (k mod P =? i) eqn:E; simpl; [apply Nat.eqb_eq in E; subst; ring|ring].
Qed.

Lemma phase_algebra : forall l, 2 <= length l ->
  let S := qsum l in let c := qn (length l) in
  qsum (map (fun v => (v - (S - v) / (c - 1)) * (v - (S - v) / (c - 1)))%Qc l) =
  (c / (c - 1) * (c / (c - 1)) * (qsum (map (fun v => v * v)%Qc l) - S * S / c))%Qc.
Proof.
  intros l L S0 c.
  assert (C0 : c <> 0%Qc) by (apply qn_neq0; lia).
  assert (C1 : (c - 1 <> 0)%Qc).
  { unfold c. replace (length l) with (Datatypes.S (length l - 1)) by lia. rewrite qn_S.
    intro X. apply (qn_neq0 (length l - 1)); [lia|]. rewrite <- X. ring. }
  assert (G : forall (A B D : Qc) r, qsum (map (fun v => A * (v * v) + B * v + D)%Qc r) =
     (A * qsum (map (fun v => v * v) r) + B * qsum r + D * qn (length r))%Qc).
  { induction r as [|x r IHr]; cbn [map qsum length]; [rewrite qn_0; ring|]. rewrite IHr, qn_S. ring. }
  set (w := (c / (c - 1))%Qc). set (u := (S0 / (c - 1))%Qc).
  assert (EQ : qsum (map (fun v => (v - (S0 - v) / (c - 1)) * (v - (S0 - v) / (c - 1)))%Qc l) =
           qsum (map (fun v => (w * w) * (v * v) + (- (Q2Qc 2) * w * u) * v + u * u)%Qc l)).
  { f_equal. apply map_ext. intros v. unfold w, u.
    assert (E : (v - (S0 - v) / (c - 1) = c / (c - 1) * v - S0 / (c - 1))%Qc) by (field; auto).
    rewrite E. set (p := (c / (c - 1))%Qc). set (q := (S0 / (c - 1))%Qc).
    assert (T2 : (Q2Qc 2 = 1 + 1)%Qc) by (apply Qc_is_canon; reflexivity). rewrite T2. ring. }
  rewrite EQ, G. fold S0 c. set (S2 := qsum (map (fun v => v * v)%Qc l)).
  assert (T2 : (Q2Qc 2 = 1 + 1)%Qc) by (apply Qc_is_canon; reflexivity). rewrite T2.
  unfold w, u. field. auto.
Qed.

Lemma at_phase_from_length : forall P data k i, 0 < P -> i < P ->
  length (at_phase_from k data P i) = length (filter (fun p => p mod P =? i) (seq k (length data))).
Proof.
  intros P. induction data as [|v t IH]; intros k i HP Hi; simpl; auto.
  destruct (k mod P =? i); simpl; rewrite IH; auto.
Qed.

(** slicing = phase *)
Lemma phase_nth : forall l s P k, 0 < P -> nth_error (phase l s P) k = nth_error l (s + k * P).
Proof.
  induction l as [|x t IH]; intros s P k HP; simpl.
  - transitivity (@None Qc); [destruct k; reflexivity|]. destruct (s + k * P); reflexivity.
  - destruct s as [|s]; simpl.
    + destruct k as [|k]; simpl; auto. rewrite IH by auto.
      replace (P + k * P) with (S (P - 1 + k * P)) by lia. auto.
    + rewrite IH by auto. auto.
Qed.
Lemma phase_at_phase : forall P data k i, 0 < P -> i < P ->
  at_phase_from k data P i = phase data ((i + (P - k mod P)) mod P) P.
Proof.
  intros P. induction data as [|v t IH]; intros k i HP Hi; [reflexivity|].
  cbn [at_phase_from phase]. rewrite IH by auto.
  pose proof (Nat.mod_upper_bound k P ltac:(lia)) as HK. set (r := k mod P) in *.
  assert (R' : S k mod P = if S r =? P then 0 else S r).
  { rewrite (Nat.div_mod k P) by lia. fold r. rewrite <- Nat.add_succ_r, Nat.add_comm, Nat.mul_comm, Nat.mod_add by lia.
    destruct (S r =? P) eqn:E; rewrite ?Nat.eqb_eq, ?Nat.eqb_neq in E.
    - rewrite E. apply Nat.mod_same; lia.
    - apply Nat.mod_small; lia. }
  assert (SH : forall r0, r0 < P -> (i + (P - r0)) mod P = if i <? r0 then i + P - r0 else i - r0).
  { intros r0 L0. destruct (i <? r0) eqn:E; rewrite ?Nat.ltb_lt, ?Nat.ltb_ge in E.
    - rewrite Nat.mod_small; lia.
    - symmetry. apply (Nat.mod_unique _ _ 1); lia. }
  rewrite (SH r) by auto. rewrite R'.
  rewrite SH by (destruct (S r =? P) eqn:E; rewrite ?Nat.eqb_eq, ?Nat.eqb_neq in E; lia).
  destruct (r =? i) eqn:E1; rewrite ?Nat.eqb_eq, ?Nat.eqb_neq in E1.
  - subst i. rewrite Nat.ltb_irrefl, Nat.sub_diag. f_equal. f_equal.
    destruct (S r =? P) eqn:E; rewrite ?Nat.eqb_eq, ?Nat.eqb_neq in E.
    + destruct (r <? 0) eqn:E2; rewrite ?Nat.ltb_lt, ?Nat.ltb_ge in E2; lia.
    + destruct (r <? S r) eqn:E2; rewrite ?Nat.ltb_lt, ?Nat.ltb_ge in E2; lia.
  - destruct (i <? r) eqn:E2; rewrite ?Nat.ltb_lt, ?Nat.ltb_ge in E2.
    + destruct (i + P - r) as [|q] eqn:Q; [lia|]. f_equal.
      destruct (S r =? P) eqn:E; rewrite ?Nat.eqb_eq, ?Nat.eqb_neq in E.
      * destruct (i <? 0) eqn:E3; rewrite ?Nat.ltb_lt, ?Nat.ltb_ge in E3; lia.
      * destruct (i <? S r) eqn:E3; rewrite ?Nat.ltb_lt, ?Nat.ltb_ge in E3; lia.
    + destruct (i - r) as [|q] eqn:Q; [lia|]. f_equal.
      destruct (S r =? P) eqn:E; rewrite ?Nat.eqb_eq, ?Nat.eqb_neq in E; [lia|].
      destruct (i <? S r) eqn:E3; rewrite ?Nat.ltb_lt, ?Nat.ltb_ge in E3; lia.
Qed.
Lemma at_phase_phase : forall P data i, 0 < P -> i < P -> at_phase data P i = phase data i P.
Proof.
  intros. unfold at_phase. rewrite phase_at_phase by auto. f_equal.
  rewrite Nat.mod_0_l, Nat.sub_0_r by lia. symmetry. apply (Nat.mod_unique _ _ 1); lia.
Qed.

Lemma at_phase_nth : forall P data i k, 0 < P -> i < P ->
  nth_error (at_phase data P i) k = nth_error data (i + k * P).
Proof. intros. rewrite at_phase_phase by auto. apply phase_nth; auto. Qed.

Lemma at_phase_two : forall P data i, 0 < P -> i < P -> 2 * P <= length data -> 2 <= length (at_phase data P i).
Proof.
  intros P data i HP Hi L. destruct (nth_error (at_phase data P i) 1) as [x|] eqn:E.
  - apply nth_error_lt in E. lia.
  - rewrite at_phase_nth in E by auto. apply nth_error_None in E. lia.
Qed.

Lemma nth_error_map_range : forall A (f : nat -> A) n i, i < n -> nth_error (map f (range n)) i = Some (f i).
Proof.
  intros. rewrite nth_error_map. unfold range. rewrite nth_error_seq.
  destruct (i <? n) eqn:E; auto. apply Nat.ltb_ge in E; lia.
Qed.

Lemma gcv_spec : forall data P, 0 < P ->
  exists sy sy2 cyc, gcv_loop data 0 P 0 (repeat 0%Qc P) (repeat 0%Qc P) (repeat 0 P) = Ok (sy, sy2, cyc) /\
   sy = map (fun i => qsum (at_phase data P i)) (range P) /\
   sy2 = map (fun i => qsum (map (fun v => v * v)%Qc (at_phase data P i))) (range P) /\
   cyc = map (fun i => length (at_phase data P i)) (range P).
Proof.
  intros data P HP.
  destruct (gcv_loop_spec P data 0 0 (repeat 0%Qc P) (repeat 0%Qc P) (repeat 0 P))
    as (sy & sy2 & cyc & E & M1 & M2 & M3 & R); auto; try (apply repeat_length).
  { symmetry. apply Nat.mod_0_l. lia. }
  assert (RR : forall A (x : A) i, i < P -> nth_error (repeat x P) i = Some x).
  { intros A x i L. rewrite nth_error_repeat. destruct (i <? P) eqn:E'; auto. apply Nat.ltb_ge in E'; lia. }
  exists sy, sy2, cyc. split; auto. unfold at_phase.
  repeat split; (apply nth_error_ext_len; [rewrite map_length; unfold range; rewrite seq_length; auto|]);
  intros i Hi; (rewrite nth_error_map_range by lia);
  destruct (R i 0%Qc 0%Qc 0) as (R1 & R2 & R3); try (apply RR; lia).
  - rewrite R1. f_equal. ring.
  - rewrite R2. f_equal. ring.
  - rewrite R3. auto.
Qed.

Lemma qsum_map_range_combine : forall P (f : Qc -> Qc -> nat -> Qc) (a b : nat -> Qc) (c : nat -> nat),
  qsum (map (fun p => f (fst p) (fst (snd p)) (snd (snd p)))
     (combine (map a (range P)) (combine (map b (range P)) (map c (range P))))) =
  qsum (map (fun i => f (a i) (b i) (c i)) (range P)).
Proof.
  intros. unfold range. induction (seq 0 P); simpl; auto. rewrite IHl. auto.
Qed.
