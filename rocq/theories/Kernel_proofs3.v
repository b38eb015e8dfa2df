(** The outlier tests (C19). *)
From Coq Require Import List Arith ZArith Lia Bool Permutation Sorted.
From Verif Require Import Base Num Sorting Kernel_model Kernel_spec Kernel_proofs Kernel_proofs2.
Import ListNotations.
Open Scope nat_scope.

Lemma tail_ordered_ordered : forall upper l, tail_ordered upper l <-> ordered upper l.
Proof.
  intros upper l. split.
  - intros H. destruct upper; simpl; apply qsorted_of_nth; intros i x y Hx Hy.
    + pose proof (nth_error_lt _ _ _ _ Hy) as L. rewrite rev_length in L.
      rewrite nth_error_rev in Hx by lia. rewrite nth_error_rev in Hy by lia.
      apply (H (length l - S (S i)) (length l - S i) y x); auto. lia.
    + apply (H i (S i) x y); auto.
  - intros H i j x y. apply (ordered_nth upper l i j x y H).
Qed.

Lemma eps_pos : (0 < kernel_eps)%Qc. Proof. reflexivity. Qed.

Lemma check_outlying : forall upper c s v thr,
  check_anomaly_status c s v thr upper = true <-> outlying upper c s v thr.
Proof.
  intros. unfold check_anomaly_status, outlying. rewrite Qcltb_lt.
  change (Q2Qc (1 # 100000000)) with kernel_eps.
  set (d := (if upper then v - c else c - v)%Qc).
  assert (E : (if (s <? kernel_eps)%Qc then kernel_eps else s) = Qcmax s kernel_eps).
  { unfold Qcmax. destruct (s <? kernel_eps)%Qc eqn:E1; destruct (s <=? kernel_eps)%Qc eqn:E2; qb_hyps; auto; qlra. }
  rewrite E. assert (0 < Qcmax s kernel_eps)%Qc.
  { pose proof (Qcmax_r s kernel_eps). pose proof eps_pos. qlra. }
  rewrite Qclt_div_iff by auto. tauto.
Qed.

Section T.
Variable cst : Qc.
Variable std : list Qc -> Qc.

Lemma slice_to_end : forall (l : list Qc) k, slice l k (length l) = skipn k l.
Proof. intros. unfold slice. rewrite firstn_all2; auto. rewrite skipn_length. lia. Qed.

Lemma tail_test_spec : forall upper vals k thr, ordered upper vals -> k < length vals ->
  exists s, tail_test cst std vals upper k thr = Ok s /\
    (s = true <-> significant cst std upper vals k thr).
Proof.
  intros upper vals k thr H L. unfold tail_test.
  rewrite (sorted_median_spec upper) by auto. cbn [bind].
  rewrite (mad_spec upper) by auto. cbn [bind].
  destruct (get_in _ vals k L) as (v & -> & Ev). cbn [bind]. rewrite slice_to_end.
  eexists. split; [reflexivity|]. unfold significant. rewrite orb_true_iff, !check_outlying.
  split.
  - intros X. exists v. split; auto.
  - intros (v' & E & X). rewrite Ev in E. inversion E; subst. auto.
Qed.

Lemma tail_loop_entire : forall upper vals thr thr', ordered upper vals ->
  forall n start num, (forall k, start <= k < start + n -> thr k = Ok (thr' k)) -> start + n <= length vals ->
  exists z, tail_loop cst std vals upper false thr (seq start n) num = Ok z /\
    ((z = num /\ forall k, start <= k < start + n -> ~ significant cst std upper vals k (thr' k)) \/
     (exists k, z = Z.of_nat k /\ start <= k < start + n /\ significant cst std upper vals k (thr' k) /\
        forall k', k < k' < start + n -> ~ significant cst std upper vals k' (thr' k'))).
Proof.
  intros upper vals thr thr' H. induction n as [|n IH]; intros start num HT HL.
  - simpl. exists num. split; auto. left. split; auto. intros; lia.
  - cbn [seq tail_loop]. rewrite (HT start) by lia. cbn [bind].
    destruct (tail_test_spec upper vals start (thr' start) H ltac:(lia)) as (s & -> & SP). cbn [bind].
    destruct s.
    + destruct (IH (S start) (Z.of_nat start)) as (z & E & C); [intros; apply HT; lia|lia|].
      exists z. split; auto. right. destruct C as [[-> N]|(k & -> & Lk & Sk & N)].
      * exists start. split; auto. split; [lia|]. split; [apply SP; auto|]. intros; apply N; lia.
      * exists k. split; auto. split; [lia|]. split; auto. intros; apply N; lia.
    + destruct (IH (S start) num) as (z & E & C); [intros; apply HT; lia|lia|].
      exists z. split; auto. destruct C as [[-> N]|(k & -> & Lk & Sk & N)].
      * left. split; auto. intros k Lk. destruct (Nat.eq_dec k start) as [->|].
        -- intro X. apply SP in X. discriminate.
        -- apply N; lia.
      * right. exists k. split; auto. split; [lia|]. split; auto. intros; apply N; lia.
Qed.

Lemma tail_loop_last : forall upper vals thr thr', ordered upper vals ->
  forall n start, (forall k, start <= k < start + n -> thr k = Ok (thr' k)) -> start + n <= length vals ->
  exists z, tail_loop cst std vals upper true thr (seq start n) (-1) = Ok z /\
    ((z = (-1)%Z /\ forall k, start <= k < start + n -> ~ significant cst std upper vals k (thr' k)) \/
     (exists k, z = Z.of_nat k /\ start <= k < start + n /\ significant cst std upper vals k (thr' k) /\
        forall k', start <= k' < k -> ~ significant cst std upper vals k' (thr' k'))).
Proof.
  intros upper vals thr thr' H. induction n as [|n IH]; intros start HT HL.
  - simpl. exists (-1)%Z. split; auto. left. split; auto. intros; lia.
  - cbn [seq tail_loop]. rewrite (HT start) by lia. cbn [bind].
    destruct (tail_test_spec upper vals start (thr' start) H ltac:(lia)) as (s & -> & SP). cbn [bind].
    destruct s.
    + exists (Z.of_nat start). split; auto. right. exists start. split; auto. split; [lia|]. split; [apply SP; auto|].
      intros; lia.
    + assert (NS : ~ significant cst std upper vals start (thr' start)) by (intro X; apply SP in X; discriminate).
      destruct (IH (S start)) as (z & E & C); [intros; apply HT; lia|lia|].
      exists z. split; auto. destruct C as [[-> N]|(k & -> & Lk & Sk & N)].
      * left. split; auto. intros k Lk. destruct (Nat.eq_dec k start) as [->|]; auto. apply N; lia.
      * right. exists k. split; auto. split; [lia|]. split; auto. intros k' Lk'.
        destruct (Nat.eq_dec k' start) as [->|]; auto. apply N; lia.
Qed.

Lemma tail_select_entire : forall upper vals index maxo thr thr', ordered upper vals ->
  (forall k, k < maxo -> thr k = Ok (thr' k)) -> maxo <= length vals ->
  exists n, tail_select cst std vals index maxo thr upper None = Ok (firstn n index) /\ n <= maxo /\
    (forall k, k < maxo -> significant cst std upper vals k (thr' k) -> k < n) /\
    (0 < n -> significant cst std upper vals (n - 1) (thr' (n - 1))).
Proof.
  intros upper vals index maxo thr thr' H HT HL. unfold tail_select.
  replace (maxo - 0) with maxo by lia.
  destruct (tail_loop_entire upper vals thr thr' H maxo 0 (-1)) as (z & -> & C); [intros; apply HT; lia|lia|].
  cbn [bind]. destruct C as [[-> N]|(k & -> & Lk & Sk & N)].
  - exists 0. split; auto. split; [lia|]. split; [|lia]. intros k Lk S. exfalso. apply (N k); [lia|auto].
  - exists (S k). replace (Z.to_nat (Z.of_nat k + 1)) with (S k) by lia. split; auto. split; [lia|].
    split.
    + intros k' Lk' S'. destruct (Nat.lt_ge_cases k' (S k)); auto. exfalso. apply (N k'); [lia|auto].
    + intros _. replace (S k - 1) with k by lia. auto.
Qed.

Lemma tail_select_last : forall upper vals index maxo thr thr' li, ordered upper vals ->
  (forall k, k < maxo -> thr k = Ok (thr' k)) -> maxo <= length vals ->
  exists n, tail_select cst std vals index maxo thr upper (Some li) = Ok (firstn n index) /\
    (n = 0 /\ (forall k, li <= k < maxo -> ~ significant cst std upper vals k (thr' k)) \/
     li < n /\ n <= maxo /\ significant cst std upper vals (n - 1) (thr' (n - 1)) /\
     forall k, li <= k < n - 1 -> ~ significant cst std upper vals k (thr' k)).
Proof.
  intros upper vals index maxo thr thr' li H HT HL. unfold tail_select.
  destruct (Nat.le_gt_cases maxo li) as [C0|C0].
  - replace (maxo - li) with 0 by lia. simpl. exists 0. split; auto. left. split; auto. intros; lia.
  - destruct (tail_loop_last upper vals thr thr' H (maxo - li) li) as (z & -> & C); [intros; apply HT; lia|lia|].
    cbn [bind]. destruct C as [[-> N]|(k & -> & Lk & Sk & N)].
    + exists 0. split; auto. left. split; auto. intros k Lk. apply N; lia.
    + exists (S k). replace (Z.to_nat (Z.of_nat k + 1)) with (S k) by lia. split; auto. right.
      replace (S k - 1) with k by lia. split; [lia|]. split; [lia|]. split; auto.
Qed.

(** * The ESD detector *)
Lemma last_pos_spec : forall A (p : A -> bool) l k x, nth_error l k = Some x -> p x = true ->
  exists i, last_pos p l = Some i /\ k <= i < length l.
Proof.
  induction l as [|h t IH]; intros [|k] x H P; simpl in *; try discriminate.
  - inversion H; subst. destruct (last_pos p t) as [i|] eqn:E.
    + exists (S i). split; auto. split; [lia|]. apply -> Nat.succ_lt_mono.
      clear - E. revert i E. induction t as [|y t IH]; intros i E; simpl in E; [discriminate|].
      destruct (last_pos p t) as [j|] eqn:E2.
      * inversion E; subst. simpl. specialize (IH j eq_refl). lia.
      * destruct (p y); inversion E; subst. simpl; lia.
    + rewrite P. exists 0. split; auto. lia.
  - destruct (IH k x H P) as (i & -> & L). exists (S i). split; auto. lia.
Qed.
Lemma first_pos_spec : forall A (p : A -> bool) l i, first_pos p l = Some i ->
  exists x, nth_error l i = Some x /\ p x = true.
Proof.
  induction l as [|h t IH]; intros i H; simpl in H; [discriminate|].
  destruct (p h) eqn:E; [inversion H; subst; exists h; auto|].
  destruct (first_pos p t) as [j|] eqn:E2; inversion H; subst. destruct (IH j eq_refl) as (x & Hx & Px).
  exists x. auto.
Qed.

Lemma map_firstn : forall A B (f : A -> B) l n, map f (firstn n l) = firstn n (map f l).
Proof. intros A B f l n. symmetry. apply firstn_map. Qed.
Lemma ordered_firstn : forall upper l n, ordered upper l -> ordered upper (firstn n l).
Proof.
  intros upper l n H. apply tail_ordered_ordered. intros i j x y L Hi Hj.
  rewrite nth_error_firstn in Hi, Hj. destruct (i <? n); [|discriminate]. destruct (j <? n); [|discriminate].
  apply (ordered_nth upper l i j); auto.
Qed.

(** The data the detector works on. *)
Definition esd_data (series : list (nat * Qc)) (majority : option Qc) (upper : bool) : list (nat * Qc) :=
  let data := if upper then rev series else series in
  match majority with
  | None => data
  | Some m => match last_pos (fun p => is_majority m (snd p)) data with
              | Some i => firstn (S i) data | None => [] end
  end.

Definition middle (series : list (nat * Qc)) : option Qc :=
  option_map snd (nth_error series ((length series - 1) / 2)).

Lemma is_majority_self : forall m, is_majority m m = true.
Proof. intros. unfold is_majority. apply Qcltb_lt. replace (m - m)%Qc with 0%Qc by ring. reflexivity. Qed.

Lemma esd_data_spec : forall series majority upper, qsorted (map snd series) -> 4 <= length series ->
  (majority = None \/ majority = middle series) ->
  let data := esd_data series majority upper in
  (match majority with
   | None => Ok (if upper then rev series else series)
   | Some m => match last_pos (fun p => is_majority m (snd p)) (if upper then rev series else series) with
               | Some i => Ok (firstn (S i) (if upper then rev series else series))
               | None => Err Generic end
   end = Ok data) /\
  ordered upper (map snd data) /\ length series / 2 <= length data /\
  (exists n, data = firstn n (if upper then rev series else series)) /\
  (majority = None -> length data = length series).
Proof.
  intros series majority upper H L4 HM data. unfold data, esd_data.
  set (d0 := if upper then rev series else series).
  assert (O0 : ordered upper (map snd d0)).
  { unfold d0. destruct upper; simpl; auto. rewrite <- map_rev, rev_involutive. auto. }
  assert (L0 : length d0 = length series) by (unfold d0; destruct upper; auto; apply rev_length).
  pose proof (Nat.div_mod (length series) 2 ltac:(lia)). pose proof (Nat.mod_upper_bound (length series) 2 ltac:(lia)).
  destruct majority as [m|].
  - destruct HM as [HM|HM]; [discriminate|]. unfold middle in HM.
    set (mid := (length series - 1) / 2) in *.
    pose proof (Nat.div_mod (length series - 1) 2 ltac:(lia)). pose proof (Nat.mod_upper_bound (length series - 1) 2 ltac:(lia)).
    fold mid in H2.
    destruct (nth_error series mid) as [[lb v]|] eqn:E; [|discriminate]. simpl in HM. inversion HM; subst v.
    assert (EX : exists k, nth_error d0 k = Some (lb, m) /\ length series / 2 - 1 <= k).
    { unfold d0. destruct upper.
      - exists (length series - S mid). rewrite nth_error_rev by lia. rewrite <- E. split; [f_equal|]; lia.
      - exists mid. split; auto. lia. }
    destruct EX as (k & Hk & Lk).
    destruct (last_pos_spec _ (fun p => is_majority m (snd p)) d0 k _ Hk) as (i & -> & Li).
    { apply is_majority_self. }
    split; auto. split. { rewrite map_firstn. apply ordered_firstn; auto. }
    split. { rewrite firstn_length. lia. }
    split. { exists (S i). auto. } discriminate.
  - split; auto. split; auto. split; [lia|]. split; auto. exists (length d0). rewrite firstn_all. auto.
Qed.
End T.
