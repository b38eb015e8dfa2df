From Coq Require Import List Arith ZArith Lia Bool Sorted.
From Verif Require Import Base Num Sorting FillUp_model FillUp_spec FillUp_proofs FillUp_proofs2.
Import ListNotations.
Open Scope nat_scope.

(** * Periodic neighbour lookup *)
Lemma somes_app : forall A (a b : list (option A)), somes (a ++ b) = somes a ++ somes b.
Proof. intros. unfold somes. apply flat_map_app. Qed.
Lemma somes_map_Some : forall A (l : list A), somes (map Some l) = l.
Proof. induction l; simpl; auto. f_equal; auto. Qed.
Lemma in_somes : forall A (l : list (option A)) v, In v (somes l) <-> In (Some v) l.
Proof.
  intros. unfold somes. rewrite in_flat_map. split.
  - intros ([w|] & H1 & H2); simpl in H2; [destruct H2 as [->|[]]; auto|destruct H2].
  - intros H. exists (Some v). simpl. auto.
Qed.
Lemma somes_rev : forall A (l : list (option A)), somes (rev l) = rev (somes l).
Proof.
  induction l as [|[v|] t IH]; simpl; auto.
  - rewrite somes_app, IH. reflexivity.
  - rewrite somes_app, IH. simpl. rewrite app_nil_r. reflexivity.
Qed.
Lemma somes_length : forall A (l : list (option A)), length (somes l) <= length l.
Proof. induction l as [|[v|] t IH]; simpl; lia. Qed.
Lemma somes_no_none : forall A (l : list (option A)), existsb is_none l = false ->
  length (somes l) = length l /\ map Some (somes l) = l.
Proof.
  induction l as [|[v|] t IH]; simpl; intros H; auto; try discriminate.
  destruct (IH H). split; congruence.
Qed.

Section PerLoop.
Variables (arr : list (option Qc)) (fmc mc : list nat).
Hypothesis Lf : length fmc = length arr.
Hypothesis Lm : length mc = length arr.
(** every gap is recorded: around a missing position [p], all positions from the
    start of its gap to its end are missing *)
Hypothesis GAP : forall p fm m, nth_error fmc p = Some fm -> nth_error mc p = Some m -> 0 < fm ->
  fm <= m /\ forall q, p < q + (m - fm) + 1 -> q < p + fm -> exists c, nth_error fmc q = Some c /\ 0 < c.

Definition obsz (z : Z) : option Qc :=
  match nth_error fmc (Z.to_nat z), nth_error arr (Z.to_nat z) with
  | Some O, Some a => a
  | _, _ => None
  end.
Definition obs_seq (per i : Z) (T : nat) : list Qc :=
  somes (map (fun t => obsz (i + Z.of_nat t * per)%Z) (seq 0 T)).
Definition cnt_ok (per i : Z) (T : nat) : Prop :=
  forall t : nat, t < T <-> (0 <= i + Z.of_nat t * per < Z.of_nat (length arr))%Z.

Lemma cnt_ok_shift : forall per i T s, cnt_ok per i T -> cnt_ok per (i + Z.of_nat s * per)%Z (T - s).
Proof.
  intros per i T s H t. specialize (H (s + t)).
  replace (i + Z.of_nat s * per + Z.of_nat t * per)%Z with (i + Z.of_nat (s + t) * per)%Z by lia.
  rewrite <- H. lia.
Qed.

Lemma map_seq_shift : forall B (g : nat -> B) s n, map g (seq s n) = map (fun t => g (s + t)) (seq 0 n).
Proof.
  intros B g s n. apply nth_error_ext. intros k. rewrite !nth_error_map, !nth_error_seq.
  destruct (k <? n); auto.
Qed.

Lemma obs_seq_skip : forall per i T s, (forall t, t < s -> t < T -> obsz (i + Z.of_nat t * per)%Z = None) ->
  obs_seq per i T = obs_seq per (i + Z.of_nat s * per)%Z (T - s).
Proof.
  intros per i T s H. unfold obs_seq.
  replace T with (Nat.min s T + (T - s)) at 1 by lia.
  rewrite seq_app, map_app, somes_app.
  assert (E : somes (map (fun t => obsz (i + Z.of_nat t * per)%Z) (seq 0 (Nat.min s T))) = []).
  { assert (X : forall l, (forall t, In t l -> obsz (i + Z.of_nat t * per)%Z = None) ->
       somes (map (fun t => obsz (i + Z.of_nat t * per)%Z) l) = []).
    { induction l; simpl; intros; auto. rewrite H0 by auto. apply IHl. auto. }
    apply X. intros t It. apply in_seq in It. apply H; lia. }
  rewrite E. simpl. destruct (Nat.le_gt_cases s T) as [C|C].
  - rewrite Nat.min_l by lia. simpl. rewrite map_seq_shift. f_equal. apply map_ext. intros t. f_equal. lia.
  - replace (T - s) with 0 by lia. reflexivity.
Qed.

Lemma obs_seq_cons : forall per i T, 0 < T ->
  obs_seq per i T = somes [obsz i] ++ obs_seq per (i + per)%Z (T - 1).
Proof.
  intros per i T H. unfold obs_seq. destruct T as [|T]; [lia|].
  cbn [seq map]. rewrite (map_seq_shift _ _ 1 T), <- somes_app. cbn [app].
  replace (S T - 1) with T by lia. f_equal. f_equal.
  - f_equal. lia.
  - apply map_ext. intros t. f_equal. lia.
Qed.

Lemma zceil_spec : forall a b, (0 < b)%Z -> (b * (zceil a b - 1) < a <= b * zceil a b)%Z.
Proof.
  intros a b H. unfold zceil. pose proof (Z.mul_div_le (- a) b H).
  pose proof (Z.mul_succ_div_gt (- a) b H). nia.
Qed.

Lemma per_loop_spec : forall (lev tb forward : bool) (P : Z), (0 < P)%Z ->
  let per := if forward then P else (- P)%Z in
  forall fuel i T n, cnt_ok per i T -> T <= fuel ->
  exists r, per_loop fuel arr fmc mc lev tb forward per i n = Ok r /\
    (tb = false -> length r <= n) /\
    (tb = true -> length (somes r) <= n) /\
    (forall v, In (Some v) r -> In (Some v) arr) /\
    (lev = false -> (exists k, somes r = firstn k (obs_seq per i T)) /\
                    (tb = true -> somes r = firstn n (obs_seq per i T))).
Proof.
  intros lev tb forward P HP per. induction fuel as [|fuel IH]; intros i T n C LT.
  - assert (T = 0) by lia. subst T.
    assert (NR : ~ (0 <= i < Z.of_nat (length arr))%Z).
    { intro R. assert (0 < 0); [|lia]. apply C. lia. }
    simpl per_loop.
    replace ((0 <=? i)%Z && (i <? Z.of_nat (length arr))%Z) with false.
    2:{ symmetry. apply andb_false_iff. destruct (Z.leb_spec 0 i); auto. right. apply Z.ltb_ge. lia. }
    simpl. exists []. split; auto. split; [simpl; lia|]. split; [simpl; lia|].
    split; [intros v []|]. intros _. split; [exists 0; auto|]. intros _. unfold obs_seq. simpl. rewrite firstn_nil. auto.
  - simpl per_loop.
    destruct ((0 <=? i)%Z && (i <? Z.of_nat (length arr))%Z) eqn:ER; simpl.
    2:{ assert (T = 0).
        { destruct T; auto. assert (0 < S T) by lia. apply C in H.
          apply andb_false_iff in ER. destruct ER as [ER|ER]; [apply Z.leb_gt in ER|apply Z.ltb_ge in ER]; lia. }
        subst T. exists []. split; auto. split; [simpl; lia|]. split; [simpl; lia|].
        split; [intros v []|]. intros _. split; [exists 0; auto|]. intros _. unfold obs_seq. simpl. rewrite firstn_nil. auto. }
    apply andb_true_iff in ER. destruct ER as [E1 E2]. apply Z.leb_le in E1. apply Z.ltb_lt in E2.
    destruct (n =? 0) eqn:EN.
    { apply Nat.eqb_eq in EN. subst n. exists []. split; auto. split; [simpl; lia|]. split; [simpl; lia|].
      split; [intros v []|]. intros _. split; [exists 0; auto|]. intros _. auto. }
    apply Nat.eqb_neq in EN.
    assert (T0 : 0 < T) by (apply C; lia).
    destruct (nth_error_ex _ arr (Z.to_nat i) ltac:(lia)) as [a Ha].
    destruct (nth_error_ex _ fmc (Z.to_nat i) ltac:(lia)) as [fm Hf].
    destruct (nth_error_ex _ mc (Z.to_nat i) ltac:(lia)) as [m Hm].
    rewrite Ha, Hf, Hm.
    destruct (negb lev && (0 <? fm)) eqn:EM.
    + apply andb_true_iff in EM. destruct EM as [EL EF]. apply negb_true_iff in EL. apply Nat.ltb_lt in EF.
      destruct (GAP _ _ _ Hf Hm EF) as [Gle Gq].
      set (i' := (if forward then i + zceil (Z.of_nat fm - per) per * per
                  else i + zceil (Z.of_nat m - Z.of_nat fm) per * per * -1)%Z).
      assert (exists s, 0 < s /\ (i' + per = i + Z.of_nat s * per)%Z /\
                forall t, t < s -> t < T -> obsz (i + Z.of_nat t * per)%Z = None) as (s & S0 & SE & SM).
      { unfold i', per in *. destruct forward.
        - pose proof (zceil_spec (Z.of_nat fm - P) P HP) as ZC.
          set (z := zceil (Z.of_nat fm - P) P) in *.
          exists (Z.to_nat (z + 1)). split; [nia|]. split; [nia|].
          intros t Ht HT. unfold obsz.
          destruct (Gq (Z.to_nat (i + Z.of_nat t * P))) as (c & Hc & Pc).
          + nia.
          + apply C in HT. nia.
          + rewrite Hc. destruct c; [lia|auto].
        - set (d := (Z.of_nat m - Z.of_nat fm)%Z) in *.
          assert (ZD : zceil d (- P) = (- (d / P))%Z).
          { unfold zceil. rewrite Z.div_opp_opp by lia. auto. }
          pose proof (Z.mul_div_le d P HP). pose proof (Z.mul_succ_div_gt d P HP).
          assert (0 <= d / P)%Z by (apply Z.div_pos; lia).
          exists (Z.to_nat (d / P + 1)). split; [lia|]. split; [rewrite ZD; nia|].
          intros t Ht HT. unfold obsz. apply C in HT.
          destruct (Gq (Z.to_nat (i + Z.of_nat t * - P))) as (c & Hc & Pc).
          + nia.
          + nia.
          + rewrite Hc. destruct c; [lia|auto]. }
      rewrite SE.
      destruct (IH (i + Z.of_nat s * per)%Z (T - s) (if tb then n else pred n)
                   (cnt_ok_shift per i T s C) ltac:(lia)) as (r & R1 & R2 & R3 & R4 & R5).
      rewrite R1. simpl. exists (None :: r). split; auto.
      split. { intros ->. specialize (R2 eq_refl). simpl in *. lia. }
      split. { intros ->. specialize (R3 eq_refl). simpl in *. lia. }
      split. { intros v [H|H]; [discriminate|auto]. }
      intros HL. destruct (R5 HL) as [[k Rk] Rt]. change (somes (None :: r)) with (somes r).
      rewrite (obs_seq_skip per i T s SM). split; [exists k; auto|].
      intros ->. apply Rt; auto.
    + set (n1 := match a with Some _ => if tb then pred n else n | None => n end).
      destruct (IH (i + per)%Z (T - 1) (if tb then n1 else pred n1)) as (r & R1 & R2 & R3 & R4 & R5).
      { replace (i + per)%Z with (i + Z.of_nat 1 * per)%Z by lia. apply cnt_ok_shift; auto. }
      { lia. }
      rewrite R1. simpl. exists (a :: r). split; auto.
      split. { intros ->. specialize (R2 eq_refl). unfold n1 in *. destruct a; simpl in *; lia. }
      split. { intros ->. specialize (R3 eq_refl). unfold n1 in *. destruct a; simpl in *; lia. }
      split. { intros v [->|H]; [eapply nth_error_In; eauto|auto]. }
      intros HL. subst lev. simpl in EM. apply Nat.ltb_ge in EM. assert (fm = 0) by lia. subst fm.
      destruct (R5 eq_refl) as [[k Rk] Rt].
      assert (OB : obsz i = a) by (unfold obsz; rewrite Hf, Ha; auto).
      rewrite (obs_seq_cons per i T T0), OB.
      change (a :: r) with ([a] ++ r). rewrite somes_app.
      destruct a as [v|]; simpl somes; simpl app.
      * split; [exists (S k); simpl; f_equal; auto|].
        intros ->. specialize (Rt eq_refl). unfold n1 in Rt. destruct n as [|n]; [lia|].
        simpl in *. f_equal. auto.
      * split; [exists k; auto|]. intros ->. apply Rt; auto.
Qed.
End PerLoop.

Lemma wf_gap : forall f, wf_fup f -> forall p fm m, nth_error (f_fmc f) p = Some fm ->
  nth_error (f_mc f) p = Some m -> 0 < fm ->
  fm <= m /\ forall q, p < q + (m - fm) + 1 -> q < p + fm ->
     exists c, nth_error (f_fmc f) q = Some c /\ 0 < c.
Proof.
  intros f W p fm m Hf Hm L.
  assert (Lp : p < f_all f) by (rewrite <- (wf_fmc_len f W); apply nth_error_lt in Hf; auto).
  destruct (nth_error_ex _ (f_tags f) p ltac:(rewrite (wf_tags_len f W); auto)) as [tg Ht].
  destruct (wf_rows f W p tg fm m Ht Hf Hm) as (R1 & R2 & R3 & R4 & R5).
  assert (NI : ~ In p (f_indices f)).
  { intro I. destruct (R3 p I); lia. }
  destruct (R5 NI) as (a & b & G & ->). destruct G as (G1 & G2 & G3 & G4).
  assert (b = p + fm).
  { destruct (R3 b G2); [lia|]. destruct (G4 _ R2); lia. }
  subst b. split; [lia|]. intros q Lq1 Lq2.
  assert (NQ : ~ In q (f_indices f)) by (intro I; destruct (G4 q I); lia).
  assert (Lq : q < f_all f) by (pose proof (wf_in_lt f _ W R2); lia).
  destruct (nth_error_ex _ (f_fmc f) q ltac:(rewrite (wf_fmc_len f W); auto)) as [c Hc].
  exists c. split; auto.
  destruct (nth_error_ex _ (f_tags f) q ltac:(rewrite (wf_tags_len f W); auto)) as [tq Htq].
  destruct (nth_error_ex _ (f_mc f) q ltac:(rewrite (wf_mc_len f W); auto)) as [mq Hmq].
  destruct (wf_rows f W q tq c mq Htq Hc Hmq) as (_ & Q2 & _).
  destruct c; [|lia]. rewrite Nat.add_0_r in Q2. contradiction.
Qed.

(** fmc is 0 exactly at given indices *)
Lemma wf_fmc0 : forall f, wf_fup f -> forall p, nth_error (f_fmc f) p = Some 0 <-> In p (f_indices f).
Proof.
  intros f W p. split.
  - intros H. assert (Lp : p < f_all f) by (rewrite <- (wf_fmc_len f W); apply nth_error_lt in H; auto).
    destruct (nth_error_ex _ (f_tags f) p ltac:(rewrite (wf_tags_len f W); auto)) as [tq Htq].
    destruct (nth_error_ex _ (f_mc f) p ltac:(rewrite (wf_mc_len f W); auto)) as [mq Hmq].
    destruct (wf_rows f W p tq 0 mq Htq H Hmq) as (_ & Q2 & _). rewrite Nat.add_0_r in Q2. auto.
  - intros I. pose proof (wf_in_lt f p W I) as Lp.
    destruct (nth_error_ex _ (f_fmc f) p ltac:(rewrite (wf_fmc_len f W); auto)) as [c Hc].
    destruct (nth_error_ex _ (f_tags f) p ltac:(rewrite (wf_tags_len f W); auto)) as [tq Htq].
    destruct (nth_error_ex _ (f_mc f) p ltac:(rewrite (wf_mc_len f W); auto)) as [mq Hmq].
    destruct (wf_rows f W p tq c mq Htq Hc Hmq) as (_ & Q2 & Q3 & _).
    destruct (Q3 p I); [lia|]. rewrite Hc. f_equal. lia.
Qed.

Lemma wf_observed : forall f p, wf_fup f -> In p (f_indices f) ->
  exists v, observed (f_indices f) (f_values f) p v.
Proof.
  intros f p W I. apply In_nth_error in I. destruct I as [k Hk].
  destruct (nth_error_ex _ (f_values f) k) as [v Hv].
  { rewrite <- (wf_len f W). apply nth_error_lt in Hk. auto. }
  exists v, k. auto.
Qed.

(** What the lookup returns, in terms of submitted points. *)
Definition lookup_obs (f : fup) (p : nat) : option Qc :=
  match nth_error (values_to_fill f) p with Some v => v | None => None end.

Lemma obsz_agrees : forall f arr z, wf_fup f -> agrees f arr ->
  (0 <= z < Z.of_nat (f_all f))%Z ->
  obsz arr (f_fmc f) z = lookup_obs f (Z.to_nat z).
Proof.
  intros f arr z W A R. unfold obsz, lookup_obs.
  destruct (values_to_fill_spec f W) as [V1 V2].
  assert (L : Z.to_nat z < f_all f) by lia.
  destruct (nth_error_ex _ (f_fmc f) (Z.to_nat z) ltac:(rewrite (wf_fmc_len f W); auto)) as [c Hc].
  rewrite Hc. destruct (in_dec_nat (Z.to_nat z) (f_indices f)) as [I|NI].
  - pose proof (proj2 (wf_fmc0 f W _) I) as H0. rewrite Hc in H0. inversion H0; subst.
    destruct (wf_observed f _ W I) as [v Hv].
    rewrite (proj2 A _ _ Hv), (proj2 V1 _ _ Hv). auto.
  - rewrite V2 by auto. destruct c; auto. apply (wf_fmc0 f W) in Hc. contradiction.
Qed.

Lemma obs_seq_agrees : forall f arr per i T, wf_fup f -> agrees f arr -> cnt_ok arr per i T ->
  obs_seq arr (f_fmc f) per i T =
  somes (map (fun t => lookup_obs f (Z.to_nat (i + Z.of_nat t * per))) (seq 0 T)).
Proof.
  intros f arr per i T W A C. unfold obs_seq. f_equal. apply map_ext_in. intros t It.
  apply in_seq in It. apply obsz_agrees; auto.
  assert (t < T) by lia. apply C in H. rewrite <- (proj1 A). auto.
Qed.

Lemma cnt_forward : forall (arr : list (option Qc)) i P, 0 < P -> i < length arr ->
  cnt_ok arr (Z.of_nat P) (Z.of_nat i + Z.of_nat P) ((length arr - 1 - i) / P).
Proof.
  intros arr i P HP L t.
  pose proof (Nat.mul_div_le (length arr - 1 - i) P ltac:(lia)).
  pose proof (Nat.mul_succ_div_gt (length arr - 1 - i) P ltac:(lia)).
  set (q := (length arr - 1 - i) / P) in *. nia.
Qed.
Lemma cnt_backward : forall (arr : list (option Qc)) i P, 0 < P -> i < length arr ->
  cnt_ok arr (- Z.of_nat P) (Z.of_nat i + - Z.of_nat P) (i / P).
Proof.
  intros arr i P HP L t.
  pose proof (Nat.mul_div_le i P ltac:(lia)).
  pose proof (Nat.mul_succ_div_gt i P ltac:(lia)).
  set (q := i / P) in *. nia.
Qed.

Definition nearest_after (f : fup) (i P : nat) : list Qc :=
  somes (map (lookup_obs f) (positions_after i P (f_all f))).
Definition nearest_before (f : fup) (i P : nat) : list Qc :=
  somes (map (lookup_obs f) (positions_before i P)).

Lemma gpv_spec : forall f arr i n P lev sm forward, wf_fup f -> agrees f arr -> 0 < P -> i < f_all f ->
  exists r, get_periodical_values arr i n (Z.of_nat P) (f_fmc f) (f_mc f) lev sm forward = Ok r /\
   (sm <> STryBest -> length r <= n) /\
   (sm = STryBest -> length (somes r) <= n) /\
   (forall v, In (Some v) r -> In (Some v) arr) /\
   (lev = false ->
     let near := if forward then nearest_after f i P else nearest_before f i P in
     let got := if forward then somes r else rev (somes r) in
     (exists k, got = firstn k near) /\ (sm = STryBest -> got = firstn n near)).
Proof.
  intros f arr i n P lev sm forward W A HP L.
  unfold get_periodical_values.
  destruct (Z.of_nat P <=? 0)%Z eqn:E; [apply Z.leb_le in E; lia|].
  set (tb := match sm with STryBest => true | _ => false end).
  destruct A as [A1 A2].
  assert (C : cnt_ok arr (if forward then Z.of_nat P else - Z.of_nat P)%Z
                (Z.of_nat i + (if forward then Z.of_nat P else - Z.of_nat P))%Z
                (if forward then (length arr - 1 - i) / P else i / P)).
  { destruct forward; [apply cnt_forward|apply cnt_backward]; lia. }
  assert (LT : (if forward then (length arr - 1 - i) / P else i / P) <= length arr).
  { destruct forward; [apply Nat.div_le_upper_bound|apply Nat.div_le_upper_bound]; nia. }
  destruct (per_loop_spec arr (f_fmc f) (f_mc f) ltac:(rewrite A1; apply (wf_fmc_len f W))
             ltac:(rewrite A1; apply (wf_mc_len f W)) (wf_gap f W) lev tb forward (Z.of_nat P) ltac:(lia)
             (length arr) _ _ n C LT) as (r & R1 & R2 & R3 & R4 & R5).
  rewrite R1. simpl. exists (if forward then r else rev r).
  split; auto.
  split. { intros H. unfold tb in R2. destruct forward; rewrite ?rev_length; destruct sm; try congruence; apply R2; auto. }
  split. { intros ->. destruct forward; rewrite ?somes_rev, ?rev_length; apply R3; auto. }
  split. { intros v H. apply R4. destruct forward; auto. apply in_rev; auto. }
  intros HL. destruct (R5 HL) as [[k Rk] Rt].
  rewrite (obs_seq_agrees f arr _ _ _ W (conj A1 A2) C) in Rk, Rt.
  assert (EQ : somes (map (fun t => lookup_obs f (Z.to_nat
       ((Z.of_nat i + (if forward then Z.of_nat P else - Z.of_nat P)) + Z.of_nat t * (if forward then Z.of_nat P else - Z.of_nat P))))
       (seq 0 (if forward then (length arr - 1 - i) / P else i / P)))
     = if forward then nearest_after f i P else nearest_before f i P).
  { destruct forward; unfold nearest_after, nearest_before, positions_after, positions_before;
      rewrite map_map, ?A1; f_equal; apply map_ext_in; intros t It; f_equal.
    - lia.
    - apply in_seq in It. pose proof (Nat.mul_div_le i P ltac:(lia)). nia. }
  rewrite EQ in Rk, Rt. cbv zeta.
  assert (G : (if forward then somes (if forward then r else rev r) else rev (somes (if forward then r else rev r))) = somes r).
  { destruct forward; auto. rewrite somes_rev, rev_involutive. auto. }
  destruct forward; simpl in *; rewrite ?G; (split; [exists k; auto|intros ->; apply Rt; auto]).
Qed.

Lemma lookup_in_values : forall f p v, wf_fup f -> lookup_obs f p = Some v -> 
  observed (f_indices f) (f_values f) p v.
Proof.
  intros f p v W H. unfold lookup_obs in H.
  destruct (values_to_fill_spec f W) as [V1 V2].
  destruct (nth_error (values_to_fill f) p) as [[w|]|] eqn:E; inversion H; subst.
  assert (L : p < f_all f) by (rewrite <- (proj1 V1); apply nth_error_lt in E; auto).
  destruct (in_dec_nat p (f_indices f)) as [I|NI].
  - destruct (wf_observed f p W I) as [w Hw]. pose proof (proj2 V1 _ _ Hw). rewrite E in H0.
    inversion H0; subst. auto.
  - rewrite V2 in E by auto. discriminate.
Qed.

Lemma nearest_observed : forall f i P (fw : bool) v, wf_fup f ->
  In v (if fw then nearest_after f i P else nearest_before f i P) ->
  exists p, In p (if fw then positions_after i P (f_all f) else positions_before i P) /\
            observed (f_indices f) (f_values f) p v.
Proof.
  intros f i P fw v W I. destruct fw; unfold nearest_after, nearest_before in I;
  apply in_somes in I; apply in_map_iff in I; destruct I as (p & H1 & H2);
  exists p; split; auto; apply lookup_in_values; auto.
Qed.

Lemma firstn_incl : forall A (l : list A) k x, In x (firstn k l) -> In x l.
Proof. induction l; intros [|k] x H; simpl in *; auto; try tauto. destruct H; auto. right; eauto. Qed.

(** * get_bf *)
Lemma slice_incl : forall A (l : list A) a b x, In x (slice l a b) -> In x l.
Proof.
  intros A l a b x H. unfold slice in H. apply firstn_incl in H.
  rewrite <- (firstn_skipn a l). apply in_or_app. auto.
Qed.

Lemma get_bf_spec : forall f arr i j P bn fn sm lev, wf_fup f -> agrees f arr -> 0 < P -> i < f_all f ->
  match get_bf arr i (f_values f) j (Z.of_nat P) (f_fmc f) (f_mc f) bn fn lev sm with
  | Err e => e <> OutOfFuel
  | Ok None => True
  | Ok (Some (b, g)) =>
      length b <= bn /\ length g <= fn /\ (bn + fn <> 0 -> b ++ g <> []) /\
      (lev = false -> forall v, In v (b ++ g) -> In v (f_values f))
  end.
Proof.
  intros f arr i j P bn fn sm lev W A HP L. unfold get_bf.
  set (BF := match lev, sm, (Z.of_nat P =? 1)%Z with
     | false, STryBest, true => _ | _, _, _ => _ end).
  assert (HB : exists b g, BF = Ok (b, g) /\ length (somes b) <= bn /\ length (somes g) <= fn /\
    (lev = false -> (forall v, In v (somes b) -> In v (f_values f)) /\
                    (forall v, In v (somes g) -> In v (f_values f)))).
  { assert (GEN : exists b g,
      (do b <- get_periodical_values arr i bn (Z.of_nat P) (f_fmc f) (f_mc f) lev sm false;
       do f <- get_periodical_values arr i fn (Z.of_nat P) (f_fmc f) (f_mc f) lev sm true;
       Ok (b, f)) = Ok (b, g) /\ length (somes b) <= bn /\ length (somes g) <= fn /\
       (lev = false -> (forall v, In v (somes b) -> In v (f_values f)) /\
                    (forall v, In v (somes g) -> In v (f_values f)))).
    { destruct (gpv_spec f arr i bn P lev sm false W A HP L) as (b & B1 & B2 & B3 & B4 & B5).
      destruct (gpv_spec f arr i fn P lev sm true W A HP L) as (g & G1 & G2 & G3 & G4 & G5).
      rewrite B1, G1. simpl. exists b, g. split; auto.
      pose proof (somes_length _ b). pose proof (somes_length _ g).
      split. { destruct sm; try (specialize (B2 ltac:(discriminate)); lia). apply B3; auto. }
      split. { destruct sm; try (specialize (G2 ltac:(discriminate)); lia). apply G3; auto. }
      intros HL. destruct (B5 HL) as [[k Bk] _]. destruct (G5 HL) as [[k' Gk] _]. simpl in *.
      split; intros v Hv.
      - rewrite in_rev, Bk in Hv. apply firstn_incl in Hv.
        apply (nearest_observed f i P false v W) in Hv. destruct Hv as (p & _ & O). eapply observed_in; eauto.
      - rewrite Gk in Hv. apply firstn_incl in Hv.
        apply (nearest_observed f i P true v W) in Hv. destruct Hv as (p & _ & O). eapply observed_in; eauto. }
    unfold BF. destruct lev; [exact GEN|]. destruct sm; try exact GEN.
    destruct (Z.of_nat P =? 1)%Z; [|exact GEN].
    do 2 eexists. split; [reflexivity|]. rewrite !somes_map_Some, !slice_length.
    split; [lia|]. split; [lia|]. intros _. split; intros v Hv; eapply slice_incl; eauto. }
  destruct HB as (b & g & -> & Lb & Lg & HV). simpl.
  assert (BOUND : length (somes b) <= bn /\ length (somes g) <= fn /\
     (lev = false -> forall v, In v (somes b ++ somes g) -> In v (f_values f))).
  { split; auto. split; auto. intros HL v Hv. destruct (HV HL). apply in_app_or in Hv. destruct Hv; auto. }
  destruct (existsb is_none b || (length b <? bn) || existsb is_none g || (length g <? fn)) eqn:E.
  - assert (RES : match (match somes b, somes g with [], [] => Ok None | b', f' => Ok (Some (b', f')) end) with
      | Err e => e <> OutOfFuel | Ok None => True
      | Ok (Some (b, g)) => length b <= bn /\ length g <= fn /\ (bn + fn <> 0 -> b ++ g <> []) /\
         (lev = false -> forall v, In v (b ++ g) -> In v (f_values f)) end).
    { destruct BOUND as (B1 & B2 & B3). destruct (somes b), (somes g); auto;
      (split; [auto|]; split; [auto|]; split; [discriminate|auto]). }
    destruct sm; auto. discriminate.
  - apply orb_false_iff in E. destruct E as [E E4]. apply orb_false_iff in E. destruct E as [E E3].
    apply orb_false_iff in E. destruct E as [E1 E2].
    destruct BOUND as (B1 & B2 & B3). split; auto. split; auto. split; auto.
    intros NZ EQ. apply app_eq_nil in EQ. destruct EQ as [Q1 Q2].
    destruct (somes_no_none _ _ E1) as [N1 _]. destruct (somes_no_none _ _ E3) as [N3 _].
    rewrite Q1 in N1. rewrite Q2 in N3. simpl in *. apply Nat.ltb_ge in E2, E4. lia.
Qed.
