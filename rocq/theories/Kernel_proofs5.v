(** Cross-validation score, second part (C20); bucket cleaning (C22). *)
From Coq Require Import List Arith ZArith Lia Bool Permutation Sorted.
From Verif Require Import Base Num Sorting Kernel_model Kernel_spec Kernel_proofs Kernel_proofs2 Kernel_proofs4.
Import ListNotations.
Open Scope nat_scope.

Lemma combine_map_range : forall A B (f : nat -> A) (g : nat -> B) n,
  combine (map f (range n)) (map g (range n)) = map (fun i => (f i, g i)) (range n).
Proof. intros. induction (range n); simpl; f_equal; auto. Qed.

Lemma mapi_from_ext : forall A B (f g : nat -> A -> B) l k, (forall i x, f i x = g i x) ->
  mapi_from k f l = mapi_from k g l.
Proof. induction l; simpl; intros; f_equal; auto. Qed.

Lemma loo_by_phase : forall data P, 0 < P -> 2 * P <= length data ->
  qsum (mapi (loo_sq data P) data) =
  qsum (map (fun i => let ph := at_phase data P i in let c := qn (length ph) in
     c / (c - 1) * (c / (c - 1)) * (qsum (map (fun v => v * v) ph) - qsum ph * qsum ph / c))%Qc (range P)).
Proof.
  intros data P HP L. unfold mapi, loo_sq.
  rewrite (sum_by_phase P (fun i v => let ph := at_phase data P i in
     let r := (v - (qsum ph - v) / (qn (length ph) - 1))%Qc in (r * r)%Qc)) by auto.
  f_equal. apply map_ext_in. intros i Hi. apply in_seq in Hi.
  fold (at_phase data P i). cbv zeta. apply phase_algebra. apply at_phase_two; lia.
Qed.

Lemma gcv_ok : forall data P, 0 < P -> 2 * P <= length data ->
  gcv data P = Ok (if close_to_zero (loo_mse data P) then 0%Qc else loo_mse data P,
                   map (fun i => qmean (at_phase data P i)) (range P)).
Proof.
  intros data P HP L. unfold gcv. destruct P as [|P']; [lia|]. set (P := S P') in *.
  destruct (gcv_spec data P HP) as (sy & sy2 & cyc & E & E1 & E2 & E3). rewrite E. rewrite bind_ok.
  destruct (gcv_sum_spec sy sy2 cyc) as (means & tot & EE & EM & ET).
  { subst. rewrite !map_length. auto. }
  { subst. rewrite !map_length. auto. }
  { subst cyc. intros c Hc. apply in_map_iff in Hc. destruct Hc as (i & <- & Hi). apply in_seq in Hi.
    apply at_phase_two; lia. }
  rewrite EE. rewrite bind_ok. cbn [fst snd].
  assert (T : tot = qsum (mapi (loo_sq data P) data)).
  { rewrite ET, loo_by_phase by auto. subst sy sy2 cyc.
    rewrite combine_map_range, combine_map_range, map_map. reflexivity. }
  assert (M : means = map (fun i => qmean (at_phase data P i)) (range P)).
  { rewrite EM. subst sy cyc. rewrite combine_map_range, map_map. reflexivity. }
  rewrite T, M. reflexivity.
Qed.

Lemma at_phase_short : forall P data, 0 < P -> length data < 2 * P ->
  exists i, i < P /\ length (at_phase data P i) < 2.
Proof.
  intros P data HP L. exists (P - 1). split; [lia|].
  destruct (le_lt_dec 2 (length (at_phase data P (P - 1)))) as [G|G]; auto.
  destruct (nth_error_ex _ (at_phase data P (P - 1)) 1 ltac:(lia)) as (x & E).
  rewrite at_phase_nth in E by lia. apply nth_error_lt in E. lia.
Qed.

Lemma gcv_zero : forall data P, 0 < P -> length data < 2 * P -> gcv data P = Err ZeroDiv.
Proof.
  intros data P HP L. unfold gcv. destruct P as [|P']; [lia|]. set (P := S P') in *.
  destruct (gcv_spec data P HP) as (sy & sy2 & cyc & E & E1 & E2 & E3). rewrite E. rewrite bind_ok.
  destruct (at_phase_short P data HP L) as (i & Hi & Li).
  rewrite (gcv_sum_zero sy sy2 cyc i (length (at_phase data P i))); auto.
  - subst. rewrite !map_length. auto.
  - subst. rewrite !map_length. auto.
  - subst cyc. rewrite nth_error_map_range; auto.
Qed.

(** Running minimum of max_gcv. *)
Lemma max_gcv_loop_spec : forall data ps best,
  (forall p, In p ps -> 0 < p /\ 2 * p <= length data) -> ps <> [] \/ best <> None ->
  exists r, max_gcv_loop data ps best = Ok (Some r) /\
    (best = Some r \/ exists p, In p ps /\ gcv data p = Ok r) /\
    (forall b, best = Some b -> fst r <= fst b)%Qc /\
    (forall p q, In p ps -> gcv data p = Ok q -> fst r <= fst q)%Qc.
Proof.
  intros data. induction ps as [|p t IH]; intros best H NE.
  - destruct best as [b|]; [|destruct NE; congruence]. exists b. simpl. repeat split; auto.
    + intros b' E; inversion E; subst; qlra.
    + intros p q [].
  - cbn [max_gcv_loop]. destruct (H p) as [H1 H2]; [left; auto|]. rewrite gcv_ok by auto. rewrite bind_ok.
    set (g := (if close_to_zero (loo_mse data p) then 0%Qc else loo_mse data p, map (fun i => qmean (at_phase data p i)) (range p))).
    assert (EG : gcv data p = Ok g) by (apply gcv_ok; auto).
    destruct (IH (match best with None => Some g | Some b => if (fst g <? fst b)%Qc then Some g else Some b end))
      as (r & E & R1 & R2 & R3).
    { intros p' Hp. apply H. right; auto. }
    { right. destruct best as [b|]; [destruct (fst g <? fst b)%Qc|]; discriminate. }
    exists r. rewrite E. split; [auto|].
    assert (LG : (fst r <= fst g)%Qc).
    { destruct best as [b|]; [|apply R2; auto]. destruct (fst g <? fst b)%Qc eqn:EB; qb_hyps; [apply R2; auto|].
      specialize (R2 b eq_refl). qlra. }
    split; [|split].
    + destruct R1 as [R1|(q & I1 & I2)].
      * destruct best as [b|].
        -- destruct (fst g <? fst b)%Qc; inversion R1; subst; auto. right. exists p. split; [left; auto|auto].
        -- inversion R1; subst. right. exists p. split; [left; auto|auto].
      * right. exists q. split; [right; auto|auto].
    + intros b ->. destruct (fst g <? fst b)%Qc eqn:EB; qb_hyps; [|apply R2; auto]. qlra.
    + intros q r' [<-|I] EQ; [|eapply R3; eauto]. rewrite EG in EQ. inversion EQ; subst. auto.
Qed.

(** * Median of shifted data *)
Lemma qsort_map_mono : forall (f : Qc -> Qc) l, (forall x y, x <= y -> f x <= f y)%Qc ->
  qsort (map f l) = map f (qsort l).
Proof.
  intros f l M. apply qsorted_unique; [apply qsort_sorted| |].
  - pose proof (qsort_sorted l) as S. induction S as [|a r S IH F]; simpl; constructor; auto.
    apply Forall_forall. intros y Hy. apply in_map_iff in Hy. destruct Hy as (x & <- & Hx).
    apply M. rewrite Forall_forall in F. auto.
  - etransitivity; [symmetry; apply qsort_perm|]. apply Permutation_map, qsort_perm.
Qed.
Lemma qmedian_shift : forall l c, l <> [] -> qmedian (map (fun x => x - c)%Qc l) = (qmedian l - c)%Qc.
Proof.
  intros l c NE. unfold qmedian. rewrite (qsort_map_mono (fun x => x - c)%Qc) by (intros; qlra).
  assert (L : 0 < length (qsort l)) by (rewrite qsort_length; destruct l; simpl; [congruence|lia]).
  set (s := qsort l) in *. unfold median_of_sorted. rewrite map_length.
  assert (N : forall k, k < length s -> nth k (map (fun x => x - c)%Qc s) 0%Qc = (nth k s 0%Qc - c)%Qc).
  { intros k Hk. rewrite (nth_indep _ _ (0 - c)%Qc) by (rewrite map_length; auto).
    apply (map_nth (fun x => x - c)%Qc). }
  assert (D : length s / 2 < length s) by (apply Nat.div_lt; lia).
  destruct (Nat.odd (length s)) eqn:O; rewrite !N by lia; auto.
  assert (T2 : (Q2Qc 2 = 1 + 1)%Qc) by (apply Qc_is_canon; reflexivity).
  set (u := nth (length s / 2 - 1) s 0%Qc). set (v := nth (length s / 2) s 0%Qc). rewrite T2. field.
  intro X. apply (f_equal this) in X. discriminate X.
Qed.

Definition spike_gap : Qc := Q2Qc (3 # 100000000).
Definition cleaned_at (data : list Qc) (period p : nat) (v : Qc) : Qc :=
  let m := qmedian (at_phase data period (p mod period)) in
  if (spike_gap <=? v - m)%Qc then m else v.

Lemma spikes_upd : forall (is : list nat) P i (m : Qc) vs p,
  nth_error (fold_left (fun vs k => upd vs (k * P + i) m) is vs) p =
  if existsb (fun k => k * P + i =? p) is && (p <? length vs) then Some m else nth_error vs p.
Proof.
  induction is as [|k t IH]; intros P i m vs p; simpl; auto.
  rewrite IH, upd_length. destruct (existsb _ t && (p <? length vs)) eqn:E1; simpl.
  - apply andb_prop in E1. destruct E1 as [E1 E2]. rewrite E1, E2, orb_true_r. reflexivity.
  - rewrite nth_error_upd. destruct (k * P + i =? p) eqn:E2; simpl.
    + apply Nat.eqb_eq in E2. subst p. rewrite Nat.eqb_refl.
      destruct (k * P + i <? length vs) eqn:E3; auto.
      apply Nat.ltb_ge in E3. rewrite ?(proj2 (nth_error_None _ _)); auto.
    + rewrite E1. rewrite Nat.eqb_sym in E2. rewrite ?E2. rewrite Nat.eqb_sym in E2. rewrite ?E2. auto.
Qed.

Lemma bucket_step_spec : forall rnd values P i, 0 < P -> i < P -> i < length values ->
  exists vs, bucket_step rnd values i P = Ok vs /\
   forall p, nth_error vs p = if p mod P =? i then
       option_map (fun v => let m := qmedian (phase values i P) in if (spike_gap <=? v - m)%Qc then m else v) (nth_error values p)
     else nth_error values p.
Proof.
  intros rnd values P i HP Hi Hl. unfold bucket_step. set (sub := phase values i P).
  assert (NE : sub <> []).
  { intro X. assert (G : nth_error sub 0 = None) by (rewrite X; auto).
    unfold sub in G. rewrite phase_nth in G by auto. apply nth_error_None in G. lia. }
  rewrite (fast_median_spec _ _ _ NE). rewrite bind_ok. set (m := qmedian sub).
  rewrite fast_median_spec by (destruct sub; simpl; congruence). rewrite bind_ok.
  rewrite qmedian_shift by auto. fold m.
  eexists. split; [reflexivity|]. intros p. rewrite spikes_upd.
  set (devs := map (fun x => (x - m)%Qc) sub).
  assert (MAD : (Q2Qc (14826 # 10000) * (m - m) + Q2Qc (1 # 100000000) = Q2Qc (1 # 100000000))%Qc) by ring.
  rewrite MAD.
  assert (DM : forall x, (Q2Qc 3 <=? x / Q2Qc (1 # 100000000))%Qc = (spike_gap <=? x)%Qc).
  { intros x. apply eq_true_iff_eq. rewrite !Qcleb_le. rewrite Qcle_div_iff by reflexivity.
    replace (Q2Qc 3 * Q2Qc (1 # 100000000))%Qc with spike_gap by (apply Qc_is_canon; reflexivity). tauto. }
  assert (EX : existsb (fun k => k * P + i =? p)
       (filter (fun k => (Q2Qc 3 <=? nth k devs 0 / Q2Qc (1 # 100000000))%Qc) (range (length devs))) = true <->
     p mod P = i /\ exists v, nth_error values p = Some v /\ (spike_gap <= v - m)%Qc).
  { rewrite existsb_exists. split.
    - intros (k & Hk & E). apply Nat.eqb_eq in E. apply filter_In in Hk. destruct Hk as [Hk HS].
      apply in_seq in Hk. rewrite DM in HS. qb_hyps.
      destruct (nth_error_ex _ devs k ltac:(lia)) as (d & ED).
      rewrite (nth_error_nth_d _ _ _ _ 0%Qc ED) in HS. unfold devs in ED.
      destruct (nth_error sub k) as [v|] eqn:EV; [|rewrite nth_error_map, EV in ED; discriminate].
      rewrite nth_error_map, EV in ED. inversion ED; subst d. unfold sub in EV. rewrite phase_nth in EV by auto.
      rewrite <- E. split.
      + rewrite Nat.add_comm, Nat.mod_add by lia. apply Nat.mod_small; auto.
      + exists v. rewrite Nat.add_comm. split; auto.
    - intros (EM & v & EV & HS). exists (p / P). 
      assert (PP : p = p / P * P + i) by (rewrite (Nat.div_mod p P) at 1 by lia; lia).
      assert (ES : nth_error sub (p / P) = Some v).
      { unfold sub. rewrite phase_nth by auto. rewrite Nat.add_comm, <- PP. auto. }
      assert (ED : nth_error devs (p / P) = Some (v - m)%Qc) by (unfold devs; rewrite nth_error_map, ES; auto).
      split; [|apply Nat.eqb_eq; lia]. apply filter_In. split.
      + apply in_seq. apply nth_error_lt in ED. lia.
      + rewrite DM, (nth_error_nth_d _ _ _ _ 0%Qc ED). apply Qcleb_le. auto. }
  set (b := existsb _ _) in *. destruct (p mod P =? i) eqn:E1; rewrite ?Nat.eqb_eq, ?Nat.eqb_neq in E1.
  - destruct (nth_error values p) as [v|] eqn:EV.
    + pose proof (nth_error_lt _ _ _ _ EV) as LP. apply Nat.ltb_lt in LP. rewrite LP, andb_true_r. cbn [option_map].
      fold sub. fold m. destruct b.
      * destruct (proj1 EX eq_refl) as (_ & v' & EV' & HS). inversion EV'; subst v'.
        apply Qcleb_le in HS. cbv zeta. rewrite HS. auto.
      * cbv zeta. destruct (spike_gap <=? v - m)%Qc eqn:ES; auto. qb_hyps.
        assert (X : false = true) by (apply EX; split; auto; exists v; auto). discriminate.
    + apply nth_error_None in EV. assert (X : (p <? length values) = false) by (apply Nat.ltb_ge; auto).
      rewrite X, andb_false_r. auto.
  - destruct b; auto. destruct (proj1 EX eq_refl) as (X & _). congruence.
Qed.

Lemma phase_ext : forall P i a b, 0 < P -> i < P ->
  (forall p, p mod P = i -> nth_error a p = nth_error b p) -> phase a i P = phase b i P.
Proof.
  intros P i a b HP Hi H. apply nth_error_ext. intros k. rewrite !phase_nth by auto. apply H.
  rewrite Nat.mod_add by lia. apply Nat.mod_small; auto.
Qed.

Lemma bucket_loop_spec : forall rnd data P, 0 < P -> P <= length data -> forall n i vs, i + n = P ->
  (forall p, nth_error vs p = if p mod P <? i then option_map (cleaned_at data P p) (nth_error data p) else nth_error data p) ->
  exists out, bucket_loop rnd vs (seq i n) P = Ok out /\
    (forall p, nth_error out p = option_map (cleaned_at data P p) (nth_error data p)).
Proof.
  intros rnd data P HP L. induction n as [|n IH]; intros i vs HN HI.
  - exists vs. split; auto. intros p. rewrite HI.
    assert (X : (p mod P <? i) = true) by (apply Nat.ltb_lt; pose proof (Nat.mod_upper_bound p P); lia). rewrite X. auto.
  - cbn [seq bucket_loop].
    assert (LV : length vs = length data).
    { destruct (lt_eq_lt_dec (length vs) (length data)) as [[G|G]|G]; auto; exfalso.
      - destruct (nth_error_ex _ data (length vs) G) as (x & E). specialize (HI (length vs)).
        rewrite E in HI. rewrite (proj2 (nth_error_None vs _)) in HI by lia.
        destruct (_ <? i); discriminate.
      - destruct (nth_error_ex _ vs (length data) G) as (x & E). specialize (HI (length data)).
        rewrite E in HI. rewrite (proj2 (nth_error_None data _)) in HI by lia.
        destruct (_ <? i); discriminate. }
    destruct (bucket_step_spec (rnd i) vs P i HP ltac:(lia) ltac:(lia)) as (v2 & E & HV). rewrite E, bind_ok.
    apply IH; [lia|]. intros p. rewrite HV.
    assert (PH : phase vs i P = at_phase data P i).
    { rewrite at_phase_phase by lia. apply phase_ext; try lia. intros q Hq. rewrite HI.
      assert (X : (q mod P <? i) = false) by (apply Nat.ltb_ge; lia). rewrite X. auto. }
    rewrite PH. destruct (p mod P =? i) eqn:E1; rewrite ?Nat.eqb_eq, ?Nat.eqb_neq in E1.
    + assert (X : (p mod P <? S i) = true) by (apply Nat.ltb_lt; lia). rewrite X. rewrite HI.
      assert (Y : (p mod P <? i) = false) by (apply Nat.ltb_ge; lia). rewrite Y.
      destruct (nth_error data p); auto. cbn [option_map]. unfold cleaned_at. rewrite E1. auto.
    + rewrite HI. destruct (p mod P <? i) eqn:E2; destruct (p mod P <? S i) eqn:E3; auto;
      rewrite ?Nat.ltb_lt, ?Nat.ltb_ge in *; lia.
Qed.

Lemma bucket_spec : forall rnd data P, 0 < P -> P <= length data ->
  remove_anomaly_in_bucket rnd data P = Ok (mapi (cleaned_at data P) data).
Proof.
  intros rnd data P HP L. unfold remove_anomaly_in_bucket, range.
  destruct (bucket_loop_spec rnd data P HP L P 0 data ltac:(lia)) as (out & E & HO).
  { intros p. simpl. auto. }
  rewrite E. f_equal. apply nth_error_ext. intros k. rewrite HO, nth_error_mapi. auto.
Qed.
