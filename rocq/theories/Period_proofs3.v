(** Repeating series, unit changes, the simple detector. *)
From Coq Require Import String List Arith ZArith QArith Qcanon Lia Bool Sorted.
From Verif Require Import Base Num Kernel_model Kernel_spec Kernel_proofs Kernel_proofs4 Kernel_proofs5 Kernel_proofs6
  Helpers_model Helpers_spec Helpers_proofs Helpers_proofs2 Detect_model Period_model Period_spec Period_proofs2.
Import ListNotations.
Open Scope nat_scope.

(** * Affine maps *)
Lemma qsum_affine : forall k c l, (qsum (map (fun x => k * x + c) l) = k * qsum l + qn (length l) * c)%Qc.
Proof.
  intros k c. induction l as [|h t IH].
  - cbn [map qsum length]. rewrite qn_0. ring.
  - cbn [map qsum length]. rewrite IH, qn_S. ring.
Qed.
Lemma qmean_affine : forall k c l, l <> [] -> (qmean (map (fun x => k * x + c) l) = k * qmean l + c)%Qc.
Proof.
  intros k c l H. unfold qmean. rewrite qsum_affine, map_length.
  assert (qn (length l) <> 0)%Qc by (apply qn_neq0; destruct l; [congruence|cbn; lia]).
  field. auto.
Qed.
Lemma qvar_affine : forall k c l, l <> [] -> (qvar (map (fun x => k * x + c) l) = k * k * qvar l)%Qc.
Proof.
  intros k c l H. unfold qvar at 1. rewrite qmean_affine by auto. rewrite map_map.
  rewrite (map_ext _ (fun x => (k * k * ((x - qmean l) * (x - qmean l)) + 0)%Qc)) by (intros; ring).
  rewrite <- (map_map (fun x => ((x - qmean l) * (x - qmean l))%Qc) (fun y => (k * k * y + 0)%Qc)).
  rewrite qmean_affine by (destruct l; [congruence|discriminate]). unfold qvar. ring.
Qed.

Lemma qmin_map : forall k c l, (0 < k)%Qc -> l <> [] -> (qmin_list (map (fun x => k * x + c) l) = k * qmin_list l + c)%Qc.
Proof.
  intros k c l K H.
  assert (NE : map (fun x => k * x + c)%Qc l <> []) by (destruct l; [congruence|discriminate]).
  pose proof (qmin_list_in _ NE) as I. apply in_map_iff in I. destruct I as (x & E & I).
  pose proof (qmin_list_le _ _ I) as L1.
  pose proof (qmin_list_in l H) as I2.
  pose proof (qmin_list_le _ _ (in_map (fun x => k * x + c)%Qc l _ I2)) as L2. cbv beta in L2.
  rewrite <- E in *. assert (k * qmin_list l <= k * x)%Qc by (apply Qcmul_le_l; qlra). qlra.
Qed.
Lemma qmax_map : forall k c l, (0 < k)%Qc -> l <> [] -> (qmax_list (map (fun x => k * x + c) l) = k * qmax_list l + c)%Qc.
Proof.
  intros k c l K H.
  assert (NE : map (fun x => k * x + c)%Qc l <> []) by (destruct l; [congruence|discriminate]).
  pose proof (qmax_list_in _ NE) as I. apply in_map_iff in I. destruct I as (x & E & I).
  pose proof (qmax_list_ge _ _ I) as L1.
  pose proof (qmax_list_in l H) as I2.
  pose proof (qmax_list_ge _ _ (in_map (fun x => k * x + c)%Qc l _ I2)) as L2. cbv beta in L2.
  rewrite <- E in *. assert (k * x <= k * qmax_list l)%Qc by (apply Qcmul_le_l; qlra). qlra.
Qed.

Lemma varied_minmax : forall l, varied l -> l <> [] /\ (0 < qmax_list l - qmin_list l)%Qc.
Proof.
  intros l (x & y & Ix & Iy & N). split; [destruct l; [destruct Ix|discriminate]|].
  pose proof (qmin_list_le _ _ Ix). pose proof (qmin_list_le _ _ Iy).
  pose proof (qmax_list_ge _ _ Ix). pose proof (qmax_list_ge _ _ Iy).
  destruct (Qclt_le_dec' (qmin_list l) (qmax_list l)); [qlra|]. exfalso. apply N. qlra.
Qed.

Definition normed (l : list Qc) : list Qc :=
  map (fun x => (/ (qmax_list l - qmin_list l)) * x + (- qmin_list l / (qmax_list l - qmin_list l)))%Qc l.
Lemma normalize_varied : forall l, varied l -> exists mn mx, normalize l = Ok (normed l, mn, mx).
Proof.
  intros l V. destruct (varied_minmax l V) as [NE P].
  assert (PZ : (qmax_list l - qmin_list l <> 0)%Qc) by (intro Z; rewrite Z in P; discriminate P).
  exists (qmin_list l), (qmax_list l).
  assert (EN : normalize l = let mn := qmin_list l in let mx := qmax_list l in
    Ok (if (mn =? mx)%Qc then l else map (fun v => (v - mn) / (mx - mn))%Qc l, mn, mx))
    by (destruct l; [congruence|reflexivity]).
  rewrite EN. cbv zeta. replace (qmin_list l =? qmax_list l)%Qc with false.
  - do 3 f_equal. unfold normed. apply map_ext. intros. field. auto.
  - symmetry. apply Qceqb_neq. intro E. rewrite E in PZ. apply PZ. ring.
Qed.

Lemma normed_affine : forall k c l, (0 < k)%Qc -> varied l -> normed (map (fun x => k * x + c)%Qc l) = normed l.
Proof.
  intros k c l K V. destruct (varied_minmax l V) as [NE P].
  unfold normed. rewrite qmin_map, qmax_map by auto. rewrite map_map. apply map_ext. intros x.
  assert (PZ : (qmax_list l - qmin_list l <> 0)%Qc) by (intro Z; rewrite Z in P; discriminate P).
  assert (KZ : (k <> 0)%Qc) by (intro Z; rewrite Z in K; discriminate K).
  replace (k * qmax_list l + c - (k * qmin_list l + c))%Qc with (k * (qmax_list l - qmin_list l))%Qc by ring.
  field. split; auto.
Qed.
Lemma varied_affine : forall k c l, (0 < k)%Qc -> varied l -> varied (map (fun x => k * x + c)%Qc l).
Proof.
  intros k c l K (x & y & Ix & Iy & N). exists (k * x + c)%Qc, (k * y + c)%Qc.
  split; [apply (in_map (fun x => k * x + c)%Qc); auto|]. split; [apply (in_map (fun x => k * x + c)%Qc); auto|].
  intro E. apply N. assert (KZ : (k <> 0)%Qc) by (intro Z; rewrite Z in K; discriminate K).
  assert (E2 : (k * (x - y) = 0)%Qc) by qlra.
  apply Qcmult_integral in E2. destruct E2 as [E2|E2]; [congruence|]. qlra.
Qed.

(** * A normalised series is not constant *)
Lemma sum_two : forall (f : Qc -> Qc) l x y, (forall z, 0 <= f z)%Qc -> In x l -> In y l -> x <> y ->
  (f x + f y <= qsum (map f l))%Qc.
Proof.
  intros f l x y F.
  assert (S0 : forall l, (0 <= qsum (map f l))%Qc).
  { induction l0 as [|h t IH]; cbn [map qsum]; [qlra|]. specialize (F h). qlra. }
  assert (S1 : forall l x, In x l -> (f x <= qsum (map f l))%Qc).
  { induction l0 as [|h t IH]; intros z I; [destruct I|]. cbn [map qsum]. destruct I as [->|I].
    - specialize (S0 t). qlra.
    - specialize (IH z I). specialize (F h). qlra. }
  induction l as [|h t IH]; intros Ix Iy N; [destruct Ix|]. cbn [map qsum].
  destruct Ix as [->|Ix]; destruct Iy as [->|Iy].
  - congruence.
  - specialize (S1 t y Iy). qlra.
  - specialize (S1 t x Ix). qlra.
  - specialize (IH Ix Iy N). specialize (F h). qlra.
Qed.

Lemma normed_ends : forall l, varied l -> In 0%Qc (normed l) /\ In 1%Qc (normed l).
Proof.
  intros l V. destruct (varied_minmax l V) as [NE P].
  assert (PZ : (qmax_list l - qmin_list l <> 0)%Qc) by (intro Z; rewrite Z in P; discriminate P).
  unfold normed. split; apply in_map_iff.
  - exists (qmin_list l). split; [field; auto|apply qmin_list_in; auto].
  - exists (qmax_list l). split; [field; auto|apply qmax_list_in; auto].
Qed.
Lemma normed_length : forall l, length (normed l) = length l.
Proof. intros. apply map_length. Qed.

Lemma normed_variance : forall l, varied l -> (Z.of_nat (length l) <= 10000000)%Z ->
  close_to_zero (qvar (normed l)) = false.
Proof.
  intros l V L. destruct (normed_ends l V) as [I0 I1].
  set (m := qmean (normed l)).
  pose proof (sum_two (fun x => (x - m) * (x - m))%Qc (normed l) 0%Qc 1%Qc
     ltac:(intros; apply Qcsqr_nonneg) I0 I1 ltac:(discriminate)) as S. cbv beta in S.
  assert (H : (Q2Qc (1 # 2) <= qsum (map (fun x => (x - m) * (x - m)) (normed l)))%Qc).
  { assert (0 <= (Q2Qc 2 * m - 1) * (Q2Qc 2 * m - 1))%Qc by apply Qcsqr_nonneg. qnra. }
  unfold close_to_zero. apply Qcleb_gt. unfold qvar. fold m.
  assert (N0 : (0 < qn (length l))%Qc).
  { apply qn_pos. destruct (varied_minmax l V) as [NE _]. destruct l; [congruence|cbn; lia]. }
  assert (N1 : (qn (length l) <= qz 10000000)%Qc) by (apply (proj1 (qz_le _ _)); exact L).
  assert (B : (Q2Qc (1 # 100000000) < qmean (map (fun x => (x - m) * (x - m)) (normed l)))%Qc).
  { unfold qmean. rewrite map_length, normed_length. apply Qclt_div_iff; auto.
    assert (E : (Q2Qc (1 # 100000000) * qz 10000000 = Q2Qc (1 # 10))%Qc) by (apply Qc_is_canon; reflexivity).
    assert (M : (Q2Qc (1 # 100000000) * qn (length l) <= Q2Qc (1 # 100000000) * qz 10000000)%Qc)
      by (apply Qcmul_le_l; auto; qlra). rewrite E in M.
    assert (Q2Qc (1 # 10) < Q2Qc (1 # 2))%Qc by reflexivity. qlra. }
  unfold Qcabs. destruct (0 <=? _)%Qc eqn:X; auto. apply Qcleb_gt in X.
  assert (0 < Q2Qc (1 # 100000000))%Qc by reflexivity. qlra.
Qed.

Lemma no_spikes_normed : forall l, varied l -> no_spikes l -> no_spikes (normed l).
Proof.
  intros l V NS x I. destruct (varied_minmax l V) as [NE P].
  apply in_map_iff in I. destruct I as (u & <- & I). specialize (NS u I). cbv zeta in *.
  rewrite <- qvar_variance in *. unfold normed.
  fold (qmean l) in NS. set (k := (/ (qmax_list l - qmin_list l))%Qc).
  set (c := (- qmin_list l / (qmax_list l - qmin_list l))%Qc).
  rewrite qvar_affine by auto. fold (qmean (map (fun x => k * x + c)%Qc l)). rewrite qmean_affine by auto.
  set (d := (u - qmean l)%Qc) in *.
  replace (k * u + c - (k * qmean l + c))%Qc with (k * d)%Qc by (unfold d; ring).
  replace (k * d * (k * d))%Qc with (k * k * (d * d))%Qc by ring.
  replace (Q2Qc (89 # 10) * (k * k * qvar l))%Qc with (k * k * (Q2Qc (89 # 10) * qvar l))%Qc by ring.
  apply Qcmul_le_l; auto. apply Qcsqr_nonneg.
Qed.

Lemma repeats_map : forall f l p, repeats l p -> repeats (map f l) p.
Proof.
  intros f l p R i x y Hx Hy. apply nth_error_map_some in Hx. apply nth_error_map_some in Hy.
  destruct Hx as (u & Eu & <-). destruct Hy as (w & Ew & <-). f_equal. eapply R; eauto.
Qed.

(** * Exact repetition has no cross-validation error *)
Lemma repeats_steps : forall data p, repeats data p -> forall k i x y,
  nth_error data i = Some x -> nth_error data (i + k * p) = Some y -> x = y.
Proof.
  intros data p R. induction k as [|k IH]; intros i x y Hx Hy.
  - replace (i + 0 * p) with i in Hy by lia. congruence.
  - assert (L : i + k * p < length data) by (apply nth_error_lt in Hy; lia).
    destruct (nth_error_ex _ data _ L) as (z & Ez). rewrite (IH i x z Hx Ez).
    apply (R (i + k * p) z y Ez). rewrite <- Hy. f_equal. lia.
Qed.

Lemma repeats_phase : forall data p, 0 < p -> repeats data p -> forall j v, nth_error data j = Some v ->
  at_phase data p (j mod p) = repeat v (length (at_phase data p (j mod p))).
Proof.
  intros data p Hp R j v Hj. pose proof (Nat.mod_upper_bound j p ltac:(lia)) as MB.
  apply nth_error_ext_len; [rewrite repeat_length; auto|]. intros k Lk.
  rewrite nth_error_repeat. assert (X : (k <? length (at_phase data p (j mod p))) = true) by (apply Nat.ltb_lt; auto).
  rewrite X. destruct (nth_error_ex _ _ k Lk) as (w & Ew). rewrite Ew. f_equal.
  rewrite at_phase_nth in Ew by auto.
  assert (L0 : j mod p < length data) by (apply nth_error_lt in Ew; lia).
  destruct (nth_error_ex _ data _ L0) as (z & Ez).
  rewrite <- (repeats_steps data p R k _ z w Ez Ew).
  apply (repeats_steps data p R (j / p) _ z v Ez). rewrite <- Hj. f_equal.
  pose proof (Nat.div_mod j p ltac:(lia)). lia.
Qed.

Lemma qsum_repeat : forall v n, qsum (repeat v n) = (qn n * v)%Qc.
Proof. induction n as [|n IH]; cbn [repeat qsum]; [rewrite qn_0; ring|rewrite IH, qn_S; ring]. Qed.

Lemma qsum_mapi_zero : forall (f : nat -> Qc -> Qc) l k, (forall i x, nth_error l i = Some x -> f (k + i) x = 0%Qc) ->
  qsum (mapi_from k f l) = 0%Qc.
Proof.
  induction l as [|h t IH]; intros k H; cbn [mapi_from qsum]; auto.
  rewrite IH.
  - specialize (H 0 h eq_refl). replace (k + 0) with k in H by lia. rewrite H. ring.
  - intros i x E. specialize (H (S i) x E). rewrite <- H. f_equal. lia.
Qed.

Lemma repeats_gcv : forall data p, 0 < p -> 2 * p <= length data -> repeats data p ->
  exists means, gcv data p = Ok (0%Qc, means).
Proof.
  intros data p Hp L R. rewrite gcv_ok by auto. eexists. f_equal. f_equal.
  assert (E : loo_mse data p = 0%Qc).
  { unfold loo_mse, mapi. rewrite (qsum_mapi_zero (loo_sq data p) data 0).
    - field. apply qn_neq0. lia.
    - intros j v Hj. cbn [Nat.add]. unfold loo_sq. cbv zeta.
      pose proof (Nat.mod_upper_bound j p ltac:(lia)).
      pose proof (at_phase_two p data (j mod p) Hp ltac:(lia) L) as A2.
      pose proof (repeats_phase data p Hp R j v Hj) as EP. set (ph := at_phase data p (j mod p)) in *.
      assert (QS : qsum ph = (qn (length ph) * v)%Qc) by (rewrite EP at 1; apply qsum_repeat).
      rewrite QS.
      assert (NZ : (qn (length ph) - 1 <> 0)%Qc).
      { rewrite <- qz_1. change (qz 1) with (qn 1). rewrite <- qn_sub by lia. apply qn_neq0. lia. }
      replace (v - (qn (length ph) * v - v) / (qn (length ph) - 1))%Qc with 0%Qc by (field; auto). ring. }
  rewrite E. reflexivity.
Qed.

Lemma repeats_check : forall data p, 0 < p -> 2 * p <= length data -> repeats data p ->
  check_period data p false = Ok true.
Proof.
  intros data p Hp L R. unfold check_period. destruct (repeats_gcv data p Hp L R) as (means & ->).
  rewrite bind_ok. cbn [fst negb]. unfold close_to_zero.
  replace (Qcabs 0 <=? Q2Qc (1 # 100000000))%Qc with true by reflexivity. f_equal.
  unfold get_period_config. destruct (p <=? 24); [reflexivity|]. destruct (p <=? 168); reflexivity.
Qed.

Lemma interval_nonzero : forall i, interval_of i <> 0%Z.
Proof. intros [i|]; cbn; [destruct (i =? 0)%Z eqn:E; [lia|apply Z.eqb_neq in E; auto]|lia]. Qed.
Lemma div_grows : forall a b i, (0 <= a <= b -> i <> 0 -> 4 <= a / i -> 4 <= b / i)%Z.
Proof.
  intros a b i A I H. assert (P : (0 < i \/ i < 0)%Z) by lia. destruct P as [P|P].
  - pose proof (Z.div_le_mono a b i P ltac:(lia)). lia.
  - exfalso. pose proof (Z.div_mod a i I). pose proof (Z.mod_neg_bound a i P). nia.
Qed.
(** The standard period is one of the guesses' multiples: it is not smaller
    than 4 when a guess is. *)
Lemma standard_at_least : forall g i v s, In v (guess_period g i) -> (4 <= v)%Z -> standard_period g i = Ok s ->
  (4 <= s)%Z.
Proof.
  intros g i v s I V E. pose proof (interval_nonzero i) as NZ. unfold guess_period, standard_period in *.
  destruct g; cbn [In] in I; inversion E; subst s; try lia; try tauto.
  - destruct I as [<-|[<-|[]]]; auto. apply (div_grows 24); auto; lia.
  - destruct I as [<-|[<-|[<-|[]]]]; auto; [apply (div_grows 1440)|apply (div_grows (1440 * 2))]; auto; lia.
  - destruct I as [<-|[<-|[<-|[]]]]; auto; [apply (div_grows 86400)|apply (div_grows (86400 * 2))]; auto; lia.
Qed.

Section Simple.
Variable std : list Qc -> Qc.
Hypothesis FS : fair_std std.
Variable r32 : Qc -> Qc.
Variable rnd : nat -> nat -> nat -> nat.

Lemma repeats_valid : forall data p, 0 < p -> 2 * p < length data -> repeats data p -> varied data ->
  no_spikes data -> (Z.of_nat (length data) <= 10000000)%Z ->
  is_valid_period std r32 rnd data p = Ok true.
Proof.
  intros data p Hp L R V NS B. unfold is_valid_period.
  destruct (normalize_varied data V) as (mn & mx & ->). rewrite bind_ok. cbn [fst].
  assert (NE : normed data <> []).
  { intro X. pose proof (normed_length data). rewrite X in H. cbn in H. lia. }
  rewrite (smooth_no_spikes std FS) by (auto; apply no_spikes_normed; auto). rewrite bind_ok.
  rewrite normed_variance by auto. rewrite repeats_check; auto.
  - rewrite normed_length. lia.
  - apply repeats_map. auto.
Qed.

Lemma verify_loop_total : forall values ps, exists v, verify_loop std r32 rnd values ps = Ok v /\
  (forall p, v = Some p -> In p ps /\ (4 <= p)%Z /\ (2 * p < Z.of_nat (length values))%Z).
Proof.
  intros values. induction ps as [|p t IH]; cbn [verify_loop].
  - exists None. split; auto. discriminate.
  - destruct IH as (v & EV & HV).
    destruct ((Z.of_nat (length values) <=? p * 2)%Z || (p <? Z.of_nat MIN_PERIOD)%Z) eqn:C.
    + exists v. split; auto. intros q E. destruct (HV q E) as (A & B). split; [right; auto|auto].
    + apply orb_false_elim in C. destruct C as [C1 C2]. apply Z.leb_gt in C1. apply Z.ltb_ge in C2.
      change (Z.of_nat MIN_PERIOD) with 4%Z in C2.
      destruct (is_valid_total std FS r32 rnd values (Z.to_nat p)) as (b & ->); [lia|lia|]. rewrite bind_ok.
      destruct b.
      * exists (Some p). split; auto. intros q E. inversion E; subst q. split; [left; auto|]. lia.
      * exists v. split; auto. intros q E. destruct (HV q E) as (A & B). split; [right; auto|auto].
Qed.

Lemma verify_loop_finds : forall values ps p, In p ps -> (4 <= p)%Z -> (2 * p < Z.of_nat (length values))%Z ->
  is_valid_period std r32 rnd values (Z.to_nat p) = Ok true ->
  exists q, verify_loop std r32 rnd values ps = Ok (Some q).
Proof.
  intros values. induction ps as [|h t IH]; intros p I H4 HL HV; [destruct I|]. cbn [verify_loop].
  destruct I as [->|I].
  - replace ((Z.of_nat (length values) <=? p * 2)%Z || (p <? Z.of_nat MIN_PERIOD)%Z) with false.
    + rewrite HV, bind_ok. eauto.
    + symmetry. apply orb_false_intro; [apply Z.leb_gt; lia|apply Z.ltb_ge; change (Z.of_nat MIN_PERIOD) with 4%Z; lia].
  - destruct (IH p I H4 HL HV) as (q & E).
    destruct ((Z.of_nat (length values) <=? h * 2)%Z || (h <? Z.of_nat MIN_PERIOD)%Z) eqn:C; [eauto|].
    apply orb_false_elim in C. destruct C as [C1 C2]. apply Z.leb_gt in C1. apply Z.ltb_ge in C2.
    change (Z.of_nat MIN_PERIOD) with 4%Z in C2.
    destruct (is_valid_total std FS r32 rnd values (Z.to_nat h)) as (b & ->); [lia|lia|]. rewrite bind_ok.
    destruct b; eauto.
Qed.

(** Without the fairness of [std]: whatever the tests answer, the period fits. *)
Lemma verify_loop_fits : forall std' values ps v, verify_loop std' r32 rnd values ps = Ok (Some v) ->
  In v ps /\ (4 <= v)%Z /\ (2 * v < Z.of_nat (length values))%Z.
Proof.
  intros std' values. induction ps as [|p t IH]; intros v; cbn [verify_loop]; [discriminate|].
  destruct ((Z.of_nat (length values) <=? p * 2)%Z || (p <? Z.of_nat MIN_PERIOD)%Z) eqn:C.
  - intros E. destruct (IH v E) as (A & B). split; [right; auto|auto].
  - apply orb_false_elim in C. destruct C as [C1 C2]. apply Z.leb_gt in C1. apply Z.ltb_ge in C2.
    change (Z.of_nat MIN_PERIOD) with 4%Z in C2.
    destruct (is_valid_period std' r32 rnd values (Z.to_nat p)) as [b|]; [|discriminate]. rewrite bind_ok.
    destruct b.
    + intros E. inversion E; subst v. split; [left; auto|]. lia.
    + intros E. destruct (IH v E) as (A & B). split; [right; auto|auto].
Qed.

Lemma verify_period_fits : forall std' values g i p, verify_period std' r32 rnd values g i = Ok (Some p) ->
  4 <= p /\ 2 * p < length values.
Proof.
  intros std' values g i p. unfold verify_period. destruct (length (guess_period g i) =? 0); [discriminate|].
  destruct (verify_loop std' r32 rnd values (guess_period g i)) as [[v|]|] eqn:E; try discriminate.
  rewrite bind_ok. destruct (verify_loop_fits std' values _ v E) as (I & V4 & VL).
  destruct (standard_period g i) as [s|] eqn:ES; [|discriminate]. rewrite bind_ok.
  destruct ((Z.of_nat (length values) <=? s * 2)%Z || negb (s mod v =? 0)%Z) eqn:C; intros X; inversion X; subst p.
  - lia.
  - apply orb_false_elim in C. destruct C as [C1 C2]. apply Z.leb_gt in C1.
    apply negb_false_iff in C2. apply Z.eqb_eq in C2.
    pose proof (standard_at_least g i v s I V4 ES). lia.
Qed.
End Simple.
