(** Seasonal decomposition, part 2: fit error, choice, totality, domain of the logarithm. *)
From Coq Require Import List Arith ZArith QArith Qcanon Lia Bool.
From Verif Require Import Base Num Sorting Helpers_model Kernel_model Helpers_proofs Kernel_proofs Kernel_proofs4
  Mv_model Mv_spec Mv_proofs4 Mv_proofs5 Stl_model Stl_spec Stl_proofs.
Import ListNotations.
Open Scope nat_scope.

(** * The fit error *)
Lemma abs_div : forall x y : Qc, y <> 0%Qc -> Qcabs (x / y) = (Qcabs x / Qcabs y)%Qc.
Proof.
  intros x y Hy. assert (Hx : forall u v : Qc, v <> 0%Qc -> (- u / - v = u / v)%Qc).
  { intros u v Hv. field. split; auto. intros E. apply Hv. rewrite <- (Qcopp_involutive v), E. reflexivity. }
  assert (P : forall u v : Qc, (0 <= u)%Qc -> (0 < v)%Qc -> Qcabs (u / v) = (u / v)%Qc).
  { intros u v Hu Hv. pose proof (Qcdiv_nonneg u v Hu Hv). qmm; qlra. }
  assert (N : forall u v : Qc, (u <= 0)%Qc -> (0 < v)%Qc -> Qcabs (u / v) = (- u / v)%Qc).
  { intros u v Hu Hv. replace (u / v)%Qc with (- (- u / v))%Qc by (field; intros E; rewrite E in Hv; qlra). rewrite Qcabs_opp. apply P; auto. qlra. }
  assert (A : forall v : Qc, (0 <= v)%Qc -> Qcabs v = v) by (intros; qmm; qlra).
  assert (B : forall v : Qc, (v <= 0)%Qc -> Qcabs v = (- v)%Qc) by (intros; qmm; qlra).
  destruct (Qclt_le_dec' 0 y) as [Y|Y].
  - rewrite (A y) by qlra. destruct (Qclt_le_dec' 0 x) as [X|X].
    + rewrite (A x) by qlra. apply P; auto; qlra.
    + rewrite (B x) by auto. apply N; auto.
  - assert (Y' : (0 < - y)%Qc) by (destruct (Qclt_le_dec' 0 (- y)); auto; exfalso; apply Hy; qlra).
    rewrite (B y) by auto. rewrite <- (Hx x y Hy). destruct (Qclt_le_dec' 0 x) as [X|X].
    + rewrite (A x) by qlra. rewrite (N (- x) (- y))%Qc by (auto; qlra). f_equal. ring.
    + rewrite (B x) by auto. apply P; auto; qlra.
Qed.

Definition counted (r s : list Qc) := filter (fun p : Qc * Qc => negb ((fst p =? 0)%Qc && (snd p =? 0)%Qc)) (combine r s).
Lemma counted_inf : forall r s, length r = length s ->
  (existsb (fun p : Qc * Qc => (snd p =? 0)%Qc) (counted r s) = true <-> infinite_error r s).
Proof.
  intros r s L. rewrite existsb_exists. unfold counted, infinite_error. split.
  - intros ((x & y) & H & E). apply filter_In in H. destruct H as [H1 H2]. cbn [fst snd] in *. apply Qceqb_eq in E. subst y.
    rewrite Qceqb_refl, andb_true_r in H2. apply negb_true_iff, Qceqb_neq in H2.
    apply (In_nth _ _ (0%Qc, 0%Qc)) in H1. destruct H1 as (i & Hi & Hn). rewrite combine_length, L, Nat.min_id in Hi.
    rewrite combine_nth in Hn by auto. inversion Hn. exists i. rewrite ?H0, ?H1. repeat split; auto; congruence.
  - intros (i & Hi & E1 & E2). exists (nth i r 0%Qc, nth i s 0%Qc). cbn [fst snd]. rewrite E1 at 2. split; [|apply Qceqb_refl].
    apply filter_In. split.
    + rewrite <- combine_nth by auto. apply nth_In. rewrite combine_length. lia.
    + cbn [fst snd]. apply negb_true_iff. rewrite (proj2 (Qceqb_neq _ _) E2). reflexivity.
Qed.
Lemma counted_sum : forall r s, length r = length s -> ~ infinite_error r s ->
  qsum (map (fun p : Qc * Qc => Qcabs (fst p / snd p)) (counted r s)) = error_sum r s /\ length (counted r s) = error_count r s.
Proof.
  induction r as [|x t IH]; intros [|y u] L N; try discriminate; [split; reflexivity|]. cbn in L. injection L as L.
  assert (N' : ~ infinite_error t u) by (intros (i & A & B & C); apply N; exists (S i); cbn; repeat split; auto; lia).
  destruct (IH u L N') as [I1 I2]. unfold counted in *. cbn [combine filter fst snd error_sum error_count].
  destruct (Qc_eq_dec y 0) as [E|E].
  - subst y. assert (Ex : x = 0%Qc).
    { destruct (Qc_eq_dec x 0) as [Ex|Ex]; auto. exfalso. apply N. exists 0. cbn. repeat split; auto. lia. }
    subst x. rewrite Qceqb_refl. cbn [andb negb]. rewrite I1, I2. split; [ring|auto].
  - rewrite (proj2 (Qceqb_neq _ _) E), andb_false_r. cbn [negb map qsum length fst snd]. cbn [qsum] in *.
    split; [|cbn; f_equal; auto]. rewrite <- I1. rewrite abs_div by auto. reflexivity.
Qed.
Lemma mape_above : forall q r s, length r = length s -> (ext_above q (mape r s) = true <-> error_over q r s).
Proof.
  intros q r s L. unfold mape. cbv zeta. fold (counted r s).
  pose proof (counted_inf r s L) as I. pose proof (counted_sum r s L) as S0.
  destruct (existsb (fun p => (snd p =? 0)%Qc) (counted r s)) eqn:E.
  - destruct (counted r s) as [|p0 ps] eqn:C; [discriminate|]. cbn [ext_above]. split; auto. intros _. left. tauto.
  - assert (N : ~ infinite_error r s) by (intros H; apply I in H; discriminate). destruct (S0 N) as [S1 S2].
    unfold error_over. destruct (counted r s) as [|p0 ps] eqn:C.
    + cbn [ext_above]. split; [discriminate|]. intros [H|(_ & H & _)]; [tauto|]. cbn in S2. lia.
    + rewrite <- C in *. cbn [ext_above]. unfold qmean. rewrite map_length, S1, S2.
      assert (P : 0 < error_count r s) by (rewrite <- S2, C; cbn; lia).
      rewrite Qcltb_lt. rewrite (Qclt_div_iff _ _ _ (qn_pos _ P)). tauto.
Qed.
Lemma mape_below : forall q r s, length r = length s -> (ext_below q (mape r s) = true <-> error_under q r s).
Proof.
  intros q r s L. unfold mape. cbv zeta. fold (counted r s).
  pose proof (counted_inf r s L) as I. pose proof (counted_sum r s L) as S0.
  destruct (existsb (fun p => (snd p =? 0)%Qc) (counted r s)) eqn:E.
  - destruct (counted r s) as [|p0 ps] eqn:C; [discriminate|]. cbn [ext_below]. unfold error_under. split; [discriminate|]. tauto.
  - assert (N : ~ infinite_error r s) by (intros H; apply I in H; discriminate). destruct (S0 N) as [S1 S2].
    unfold error_under. destruct (counted r s) as [|p0 ps] eqn:C.
    + cbn [ext_below]. split; [discriminate|]. intros (_ & H & _). cbn in S2. lia.
    + rewrite <- C in *. cbn [ext_below]. unfold qmean. rewrite map_length, S1, S2.
      assert (P : 0 < error_count r s) by (rewrite <- S2, C; cbn; lia).
      rewrite Qcltb_lt. rewrite (Qcdiv_lt_iff _ _ _ (qn_pos _ P)). tauto.
Qed.

Section Total.
Variable STL : list Qc -> nat -> res comps.
Variable exp log : Qc -> Qc.
Variable std : list Qc -> Qc.
Hypothesis STLadd : additive STL.
Hypothesis STLok : answers STL.
Hypothesis Hstd : rough_std std.

Notation stl_log := (stl_log STL exp log).
Notation stl := (stl STL exp log).
Notation stl_adjust := (stl_adjust_trend STL exp log).

Lemma stl_total : forall data np b, 0 < np -> 2 * np < length data -> exists c, stl data np b = Ok c.
Proof.
  intros data np [|] Hp Hn; cbn; [|apply STLok; auto]. unfold Stl_model.stl_log.
  destruct data as [|x0 t]; [cbn in Hn; lia|]. set (D := x0 :: t) in *. cbv zeta.
  set (D' := if (qmin_list D <? 1)%Qc then map (fun x => (x - qmin_list D + 1)%Qc) D else D) in *.
  assert (L' : length D' = length D) by (unfold D'; destruct (qmin_list D <? 1)%Qc; [apply map_length|auto]).
  destruct (STLok (map log D') np Hp) as (r & Er); [rewrite map_length; lia|]. rewrite Er. cbn [bind].
  destruct (STLadd _ _ _ Er) as (L1 & L2 & L3 & _). rewrite map_length in L1, L2, L3.
  destruct (zipq_total Qcplus (c_trend r) (c_seasonal r)) as (ts & E1); [lia|]. rewrite E1. cbn [bind].
  apply zipq_ok in E1. destruct E1 as (A1 & B1 & _).
  destruct (zipq_total Qcminus (map exp ts) (map exp (c_trend r))) as (se & E2); [rewrite !map_length; lia|]. rewrite E2. cbn [bind].
  apply zipq_ok in E2. destruct E2 as (A2 & B2 & _). rewrite !map_length in *.
  destruct (zipq_total Qcminus D' (map exp (c_trend r))) as (dt & E3); [rewrite !map_length; lia|]. rewrite E3. cbn [bind].
  apply zipq_ok in E3. destruct E3 as (A3 & B3 & _). rewrite !map_length in *.
  destruct (zipq_total Qcminus dt se) as (re & E4); [lia|]. rewrite E4. cbn [bind]. eauto.
Qed.
Lemma stl_adjust_total : forall data np b, 0 < np -> 2 * np < length data -> exists c, stl_adjust data np b = Ok c.
Proof.
  intros data np b Hp Hn. unfold stl_adjust_trend. cbv zeta.
  assert (Hph : length (phase_before_end data np) > 0).
  { unfold phase_before_end. rewrite map_length. unfold range. rewrite seq_length.
    assert (length data / np >= 2) by (apply Nat.div_le_lower_bound; lia). lia. }
  destruct (phase_before_end data np) as [|p0 ps] eqn:EP; [cbn in Hph; lia|]. rewrite <- EP. clear EP Hph.
  set (v := qmedian (phase_before_end data np)).
  assert (Hf : forall d, (if b then Stl_model.stl_log STL exp log else stl_core STL) d np = stl d np b) by (intros; destruct b; auto).
  rewrite !Hf.
  destruct (stl_total data np b Hp Hn) as (o & Eo).
  destruct (stl_total (data ++ [v]) np b Hp) as (e & Ee); [rewrite app_length; cbn; lia|].
  rewrite Eo, Ee. cbn [bind].
  pose proof (stl_adds STL exp log STLadd _ _ _ _ Eo) as (_ & _ & Lo & _).
  pose proof (stl_adds STL exp log STLadd _ _ _ _ Ee) as (_ & _ & Le & _). rewrite app_length in Le. cbn in Le.
  destruct (get_in _ (c_remainder o) (length (c_remainder o) - 1)) as (x & Ex & _); [lia|].
  destruct (get_in _ (c_remainder e) (length (c_remainder e) - 2)) as (y & Ey & _); [lia|].
  rewrite Ex. cbn [bind]. destruct (length (c_remainder e) <? 2) eqn:E2; [apply Nat.ltb_lt in E2; lia|].
  rewrite Ey. cbn [bind]. destruct (Qcabs x <=? Qcabs y)%Qc; eauto.
Qed.

Lemma sq_ge : forall x s : Qc, (0 < s)%Qc -> (Q2Qc 3 * s <= Qcabs x)%Qc -> (Q2Qc 9 * (s * s) <= x * x)%Qc.
Proof.
  intros x s Hs H. assert (E : (x * x = Qcabs x * Qcabs x)%Qc) by (qmm; ring). rewrite E.
  assert (P : (0 <= Q2Qc 3 * s)%Qc) by qlra.
  assert (Qcmult (Q2Qc 3 * s) (Q2Qc 3 * s) <= Qcabs x * Qcabs x)%Qc.
  { apply Qcle_trans with (Q2Qc 3 * s * Qcabs x)%Qc.
    - apply Qcmul_le_l; auto.
    - rewrite (Qcmult_comm (Q2Qc 3 * s)). apply Qcmul_le_l; auto. apply Qcabs_nonneg. }
  replace (Q2Qc 9 * (s * s))%Qc with (Q2Qc 3 * s * (Q2Qc 3 * s))%Qc; auto.
  replace (Q2Qc 9) with (Q2Qc 3 * Q2Qc 3)%Qc by (apply Qc_is_canon; reflexivity). ring.
Qed.
Lemma nonneg_of_rough : forall l, l <> [] -> (0 <= std l)%Qc.
Proof.
  intros l Hl. destruct (Qc_eq_dec (std l) 0) as [E|E]; [rewrite E; qlra|]. destruct (Hstd l Hl E). qlra.
Qed.
(** Not every point is three standard deviations away. *)
Lemma not_all_far : forall d, d <> [] -> exists i, i < length d /\ ~ far_out std d i.
Proof.
  intros d Hd. destruct (Qc_eq_dec (std d) 0) as [E|E].
  { exists 0. split; [destruct d; [congruence|cbn; lia]|]. intros (_ & H & _). rewrite E in H. qlra. }
  destruct (Hstd d Hd E) as [P Q].
  assert (D : forall k, (forall i, i < k -> i < length d -> far_out std d i) \/ exists i, i < length d /\ ~ far_out std d i).
  { induction k as [|k [IH|IH]]; [left; intros; lia| |right; auto].
    destruct (le_lt_dec (length d) k) as [Hk|Hk]; [left; intros; apply IH; lia|].
    destruct (Qclt_le_dec' (Qcabs (nth k d 0 - qmean d))%Qc (Q2Qc 3 * std d)) as [H|H].
    - right. exists k. split; auto. intros (_ & _ & C). qlra.
    - left. intros i Hi Hl. destruct (Nat.eq_dec i k) as [->|Ne]; [repeat split; auto|apply IH; lia]. }
  destruct (D (length d)) as [A|A]; auto. exfalso.
  assert (G : (qn (length (map (fun x => (x - qmean d) * (x - qmean d)) d)%Qc) * (Q2Qc 9 * (std d * std d)) <=
               qsum (map (fun x => (x - qmean d) * (x - qmean d)) d))%Qc).
  { apply qsum_ge. intros y Hy. apply in_map_iff in Hy. destruct Hy as (x & Ey & Hx). subst y.
    apply (In_nth _ _ 0%Qc) in Hx. destruct Hx as (i & Hi & Ex). destruct (A i Hi Hi) as (_ & _ & F). rewrite Ex in F. apply sq_ge; auto. }
  rewrite map_length in G. qlra.
Qed.

Variable f : list Qc -> nat -> bool -> res comps.
Hypothesis fadd : forall data np b c, f data np b = Ok c -> 0 < length data -> adds_up c data.
Hypothesis fok : forall data np b, 0 < np -> 2 * np < length data -> exists c, f data np b = Ok c.
Hypothesis Hstd0 : nonneg_std std.

Lemma filled_total : forall d period, d <> [] -> exists fl,
  all_some (bfill (ffill (mapi (fun i (v : Qc) => if mem_pos i (get_outlier std d period) then None else Some v) d))) = Some fl /\
  length fl = length d.
Proof.
  intros d period Hd. set (B := mapi _ d).
  destruct (not_all_far d Hd) as (i & Hi & Ni).
  assert (Ns : ~ In i (get_outlier std d period)) by (rewrite get_outlier_in by auto; intros [H _]; auto).
  destruct (nth_error d i) as [w|] eqn:Ew; [|apply nth_error_None in Ew; lia].
  assert (Ob : observed B i w) by (apply observed_blanked; auto).
  assert (T : forall l : list (option Qc), (forall p, p < length l -> exists v, nth_error l p = Some (Some v)) -> exists r, all_some l = Some r /\ length r = length l).
  { induction l as [|[x|] t IH]; intros H.
    - exists []. auto.
    - destruct IH as (r & Er & Lr); [intros p Hp; apply (H (S p)); cbn; lia|]. exists (x :: r). cbn. rewrite Er, Lr. auto.
    - destruct (H 0) as (v & Ev); [cbn; lia|]. discriminate. }
  assert (Lb : length (bfill (ffill B)) = length d) by (unfold ffill; rewrite bfill_length, ffill_from_length; apply mapi_length).
  rewrite <- Lb. apply T. intros p Hp. 
  destruct (nth_error (bfill (ffill B)) p) as [o|] eqn:E; [|apply nth_error_None in E; lia].
  destruct o as [v|]; [eauto|]. exfalso.
  destruct (bfill_spec _ _ _ E) as [(v & A & C)|[(N & v & A & C)|[A C]]]; try discriminate.
  assert (Of : observed (ffill B) i w) by (apply ffill_observed; auto).
  destruct (le_lt_dec p i) as [Hpi|Hpi]; [eapply A; eauto|].
  destruct (nth_error (ffill B) p) as [o|] eqn:Eo.
  - destruct (ffill_from_spec _ _ _ _ Eo) as [(v & A1 & C1)|[(N & v & A1 & C1)|[A1 C1]]]; subst.
    + eapply (A p v); [lia|]. exact Eo.
    + eapply (A p v); [lia|]. exact Eo.
    + eapply (A1 i w); [lia|]. auto.
  - apply nth_error_None in Eo. rewrite bfill_length in Hp. lia.
Qed.
Lemma de_outlier_total : forall series period b, 0 < period -> 2 * period < length series ->
  exists d, de_outlier_stl std series f period b = Ok d.
Proof.
  intros series period b Hp Hn. unfold de_outlier_stl.
  destruct (fok series period b Hp Hn) as (fi & Ef). rewrite Ef. cbn [bind].
  destruct (fadd _ _ _ _ Ef ltac:(lia)) as (L1 & L2 & L3 & _).
  destruct (zipq_total Qcplus (c_remainder fi) (c_seasonal fi)) as (det & Ez); [lia|]. rewrite Ez. cbn [bind].
  apply zipq_ok in Ez. destruct Ez as (Z1 & Z2 & _).
  destruct (filled_total det period) as (fl & Efl & Lfl); [intros E; rewrite E in Z2; cbn in Z2; lia|].
  destruct (get_outlier std det period) as [|o os] eqn:Eo; [eauto|]. rewrite Efl.
  destruct (zipq_total Qcplus fl (c_trend fi)) as (s' & Es); [lia|]. rewrite Es. cbn [bind].
  apply zipq_ok in Es. destruct Es as (_ & S2 & _). apply fok; auto. lia.
Qed.
End Total.

Section Choice.
Variable STL : list Qc -> nat -> res comps.
Variable exp log : Qc -> Qc.
Variable std : list Qc -> Qc.
Hypothesis STLadd : additive STL.
Hypothesis Hstd0 : nonneg_std std.

Definition the_stl (adjust : bool) : list Qc -> nat -> bool -> res comps :=
  if adjust then stl_adjust_trend STL exp log else stl STL exp log.
Lemma the_stl_adds : forall adjust data np b c, the_stl adjust data np b = Ok c -> 0 < length data -> adds_up c data.
Proof.
  intros [|] data np b c H Hn; cbn [the_stl] in H; [eapply stl_adjust_adds; eauto|eapply stl_adds; eauto].
Qed.
Lemma ran_length : forall f b series period c, ran std f b series period c -> length (c_seasonal c) = length series /\
  length (c_trend c) = length series /\ length (c_remainder c) = length series.
Proof.
  intros f b series period c (fi & s' & _ & _ & (L & _) & _ & (A1 & A2 & A3 & _)). rewrite <- L. auto.
Qed.
Lemma decomposition_spec : forall adjust series period d, 0 < length series ->
  decomposition STL exp log std adjust series period = Ok d ->
  exists plain, ran std (the_stl adjust) false series period plain /\
    (~ error_over MAPE_UB (c_remainder plain) series /\ d = plain \/
     error_over MAPE_UB (c_remainder plain) series /\ exists logd, ran std (the_stl adjust) true series period logd /\
      (error_under MAPE_LB (c_remainder logd) series /\ d = logd \/
       ~ error_under MAPE_LB (c_remainder logd) series /\ d = plain)).
Proof.
  intros adjust series period d Hn H. unfold decomposition in H. cbv zeta in H. fold (the_stl adjust) in H.
  destruct (de_outlier_stl std series (the_stl adjust) period false) as [pl|] eqn:E1; cbn [bind] in H; [|discriminate].
  pose proof (de_outlier_spec std Hstd0 _ (the_stl_adds adjust) _ _ _ _ Hn E1) as R1.
  destruct (ran_length _ _ _ _ _ R1) as (_ & _ & LR). rewrite LR, Nat.eqb_refl in H. cbn [negb] in H.
  exists pl. split; auto.
  pose proof (mape_above MAPE_UB _ _ LR) as MA.
  destruct (ext_above MAPE_UB (mape (c_remainder pl) series)).
  - right. split; [tauto|].
    destruct (de_outlier_stl std series (the_stl adjust) period true) as [lg|] eqn:E2; cbn [bind] in H; [|discriminate].
    pose proof (de_outlier_spec std Hstd0 _ (the_stl_adds adjust) _ _ _ _ Hn E2) as R2.
    destruct (ran_length _ _ _ _ _ R2) as (_ & _ & LR2). rewrite LR2, Nat.eqb_refl in H. cbn [negb] in H.
    exists lg. split; auto. pose proof (mape_below MAPE_LB _ _ LR2) as MB.
    destruct (ext_below MAPE_LB (mape (c_remainder lg) series)); inversion H; subst.
    + left. tauto.
    + right. split; auto. intros C. apply MB in C. discriminate.
  - left. inversion H; subst. split; auto. intros C. apply MA in C. discriminate.
Qed.
Hypothesis STLok : answers STL.
Hypothesis Hstd : rough_std std.
Lemma the_stl_total : forall adjust data np b, 0 < np -> 2 * np < length data -> exists c, the_stl adjust data np b = Ok c.
Proof. intros [|] data np b Hp Hn; cbn [the_stl]; [apply stl_adjust_total; auto|apply stl_total; auto]. Qed.
Lemma decomposition_total : forall adjust series period, 0 < period -> 2 * period < length series ->
  exists d, decomposition STL exp log std adjust series period = Ok d.
Proof.
  intros adjust series period Hp Hn. unfold decomposition. cbv zeta. fold (the_stl adjust).
  assert (Hn0 : 0 < length series) by lia.
  pose proof (de_outlier_total std Hstd (the_stl adjust) (the_stl_adds adjust) (the_stl_total adjust) Hstd0 series period) as T.
  destruct (T false Hp Hn) as (pl & E1). rewrite E1. cbn [bind].
  pose proof (de_outlier_spec std Hstd0 _ (the_stl_adds adjust) _ _ _ _ Hn0 E1) as R1.
  destruct (ran_length _ _ _ _ _ R1) as (_ & _ & LR). rewrite LR, Nat.eqb_refl. cbn [negb].
  destruct (ext_above MAPE_UB (mape (c_remainder pl) series)); [|eauto].
  destruct (T true Hp Hn) as (lg & E2). rewrite E2. cbn [bind].
  pose proof (de_outlier_spec std Hstd0 _ (the_stl_adds adjust) _ _ _ _ Hn0 E2) as R2.
  destruct (ran_length _ _ _ _ _ R2) as (_ & _ & LR2). rewrite LR2, Nat.eqb_refl. cbn [negb].
  destruct (ext_below MAPE_LB (mape (c_remainder lg) series)); eauto.
Qed.
End Choice.

(** * The logarithm is only taken of values from 1 up *)
Section Domain.
Variable STL : list Qc -> nat -> res comps.
Variable exp log1 log2 : Qc -> Qc.
Variable std : list Qc -> Qc.
Hypothesis agree : forall x, (1 <= x)%Qc -> log1 x = log2 x.
Lemma stl_log_domain : forall data np, stl_log STL exp log1 data np = stl_log STL exp log2 data np.
Proof.
  intros data np. unfold stl_log. destruct data as [|x0 t]; auto. set (D := x0 :: t). cbv zeta.
  assert (E : map log1 (if (qmin_list D <? 1)%Qc then map (fun x => (x - qmin_list D + 1)%Qc) D else D) =
              map log2 (if (qmin_list D <? 1)%Qc then map (fun x => (x - qmin_list D + 1)%Qc) D else D)).
  { apply map_ext_in. intros a Ha. apply agree. destruct (qmin_list D <? 1)%Qc eqn:Q.
    - apply in_map_iff in Ha. destruct Ha as (x & Ea & Hx). pose proof (qmin_list_le _ _ Hx). subst a. qlra.
    - apply Qcltb_ge in Q. pose proof (qmin_list_le _ _ Ha). qlra. }
  rewrite E. reflexivity.
Qed.
Lemma stl_domain : forall data np b, stl STL exp log1 data np b = stl STL exp log2 data np b.
Proof. intros data np [|]; cbn; auto. apply stl_log_domain. Qed.
Lemma adjust_domain : forall data np b, stl_adjust_trend STL exp log1 data np b = stl_adjust_trend STL exp log2 data np b.
Proof.
  intros data np [|]; unfold stl_adjust_trend; auto. destruct (phase_before_end data np); auto. cbv zeta. rewrite !stl_log_domain. auto.
Qed.
Lemma de_outlier_ext : forall f g series period b, (forall d np b, f d np b = g d np b) ->
  de_outlier_stl std series f period b = de_outlier_stl std series g period b.
Proof.
  intros f g series period b H. unfold de_outlier_stl. rewrite H. destruct (g series period b) as [d|]; auto. cbn [bind].
  destruct (zipq Qcplus (c_remainder d) (c_seasonal d)) as [det|]; auto. cbn [bind].
  destruct (get_outlier std det period); auto. destruct (all_some _); auto.
  match goal with |- bind ?x _ = _ => destruct x; auto end. cbn [bind]. auto.
Qed.
Lemma decomposition_domain : forall adjust series period,
  decomposition STL exp log1 std adjust series period = decomposition STL exp log2 std adjust series period.
Proof.
  intros adjust series period. unfold decomposition. cbv zeta.
  assert (E : forall b, de_outlier_stl std series (if adjust then stl_adjust_trend STL exp log1 else stl STL exp log1) period b =
                        de_outlier_stl std series (if adjust then stl_adjust_trend STL exp log2 else stl STL exp log2) period b).
  { intros b. apply de_outlier_ext. intros d np b'. destruct adjust; [apply adjust_domain|apply stl_domain]. }
  rewrite !E. auto.
Qed.
End Domain.
