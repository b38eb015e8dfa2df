(** Seasonal decomposition: proofs. *)
From Coq Require Import List Arith ZArith QArith Qcanon Lia Bool.
From Verif Require Import Base Num Sorting Helpers_model Kernel_model Helpers_proofs Kernel_proofs Kernel_proofs4
  Mv_model Mv_spec Mv_proofs4 Mv_proofs5 Stl_model Stl_spec.
Import ListNotations.
Open Scope nat_scope.

Lemma zipq_ok : forall f a b c, zipq f a b = Ok c -> length a = length b /\ length c = length a /\
  forall i, i < length a -> nth i c 0%Qc = f (nth i a 0%Qc) (nth i b 0%Qc).
Proof.
  intros f a b c H. unfold zipq in H. destruct (length a =? length b) eqn:E; [|discriminate]. apply Nat.eqb_eq in E.
  inversion H; subst. split; auto. split; [rewrite zip_with_length; lia|].
  intros i Hi. destruct (nth_error a i) as [x|] eqn:Ea; [|apply nth_error_None in Ea; lia].
  destruct (nth_error b i) as [y|] eqn:Eb; [|apply nth_error_None in Eb; lia].
  rewrite (nth_error_nth a i 0%Qc Ea), (nth_error_nth b i 0%Qc Eb). apply nth_error_nth. apply zip_with_nth; auto.
Qed.
Lemma zipq_total : forall f a b, length a = length b -> exists c, zipq f a b = Ok c.
Proof. intros f a b E. unfold zipq. rewrite E, Nat.eqb_refl. eauto. Qed.
Lemma nth_map0 : forall (f : Qc -> Qc) l i, i < length l -> nth i (map f l) 0%Qc = f (nth i l 0%Qc).
Proof. intros f l i H. rewrite (nth_indep _ 0%Qc (f 0%Qc)) by (rewrite map_length; auto). apply map_nth. Qed.

Section Proofs.
Variable STL : list Qc -> nat -> res comps.
Variable exp log : Qc -> Qc.
Hypothesis STLadd : additive STL.

Notation stl_log := (stl_log STL exp log).
Notation stl := (stl STL exp log).
Notation stl_adjust := (stl_adjust_trend STL exp log).

Lemma stl_log_adds : forall data np c, stl_log data np = Ok c -> adds_up c data.
Proof.
  intros data np c H. unfold Stl_model.stl_log in H. destruct data as [|x0 t]; [discriminate|].
  set (D := x0 :: t) in *. set (low := (qmin_list D <? 1)%Qc) in *. cbv zeta in H.
  set (D' := if low then map (fun x => (x - qmin_list D + 1)%Qc) D else D) in *.
  assert (L' : length D' = length D) by (unfold D'; destruct low; [apply map_length|auto]).
  destruct (STL (map log D') np) as [r|] eqn:E; cbn [bind] in H; [|discriminate].
  destruct (STLadd _ _ _ E) as (L1 & L2 & L3 & _). rewrite map_length in L1, L2, L3.
  destruct (zipq Qcplus (c_trend r) (c_seasonal r)) as [ts|] eqn:E1; cbn [bind] in H; [|discriminate].
  destruct (zipq Qcminus (map exp ts) (map exp (c_trend r))) as [se|] eqn:E2; cbn [bind] in H; [|discriminate].
  destruct (zipq Qcminus D' (map exp (c_trend r))) as [dt|] eqn:E3; cbn [bind] in H; [|discriminate].
  destruct (zipq Qcminus dt se) as [re|] eqn:E4; cbn [bind] in H; [|discriminate].
  apply zipq_ok in E1, E2, E3, E4.
  destruct E1 as (A1 & B1 & C1), E2 as (A2 & B2 & C2), E3 as (A3 & B3 & C3), E4 as (A4 & B4 & C4).
  rewrite !map_length in *.
  inversion H; subst c. clear H. unfold adds_up. cbn [c_seasonal c_trend c_remainder].
  split; [lia|]. split; [destruct low; rewrite !map_length; lia|]. split; [lia|].
  intros i Hi. rewrite C4, C3, C2 by lia.
  unfold D'. destruct low; rewrite ?nth_map0 by (rewrite ?map_length; lia); change (qmin_from x0 t) with (qmin_list D); ring.
Qed.
Lemma stl_adds : forall data np b c, stl data np b = Ok c -> adds_up c data.
Proof. intros data np [|] c H; cbn in H; [eapply stl_log_adds; eauto|eapply STLadd; eauto]. Qed.

Lemma firstn_nth0 : forall (l : list Qc) n i, i < n -> nth i (firstn n l) 0%Qc = nth i l 0%Qc.
Proof.
  induction l as [|x t IH]; intros [|n] [|i] H; cbn; try lia; auto. apply IH. lia.
Qed.
Lemma adds_firstn : forall c d v, adds_up c (d ++ [v]) ->
  adds_up (mkComps (firstn (length d) (c_seasonal c)) (firstn (length d) (c_trend c)) (firstn (length d) (c_remainder c))) d.
Proof.
  intros c d v (L1 & L2 & L3 & H). rewrite app_length in L1, L2, L3, H. cbn in L1, L2, L3, H.
  unfold adds_up; cbn. rewrite !firstn_length. repeat split; try lia.
  intros i Hi. rewrite !firstn_nth0 by auto. rewrite H by lia. rewrite app_nth1; auto.
Qed.
Lemma get_last : forall (l : list Qc) k x, get l k = Ok x -> nth k l 0%Qc = x /\ k < length l.
Proof. intros l k x H. apply get_ok in H. split; [apply nth_error_nth; auto|eapply nth_error_Some; congruence]. Qed.

(** One more point at the end, or not: whichever leaves the smaller remainder. *)
Lemma stl_adjust_spec : forall data np b c, stl_adjust data np b = Ok c -> 0 < length data ->
  exists o e, stl data np b = Ok o /\ stl (data ++ [qmedian (phase_before_end data np)]) np b = Ok e /\
    let lo := Qcabs (nth (length data - 1) (c_remainder o) 0%Qc) in
    let le := Qcabs (nth (length data - 1) (c_remainder e) 0%Qc) in
    ((lo <= le)%Qc /\ c = o \/
     (le < lo)%Qc /\ c = mkComps (firstn (length data) (c_seasonal e)) (firstn (length data) (c_trend e)) (firstn (length data) (c_remainder e))).
Proof.
  intros data np b c H Hn. unfold stl_adjust_trend in H.
  destruct (phase_before_end data np) as [|p0 ps] eqn:EP; [discriminate|]. rewrite <- EP in *. clear p0 ps EP.
  cbv zeta in H.
  assert (Hf : forall d, (if b then Stl_model.stl_log STL exp log else stl_core STL) d np = stl d np b) by (intros; destruct b; auto).
  rewrite !Hf in H. set (ext := data ++ [qmedian (phase_before_end data np)]) in *.
  destruct (stl data np b) as [o|] eqn:Eo; cbn [bind] in H; [|discriminate].
  destruct (stl ext np b) as [e|] eqn:Ee; cbn [bind] in H; [|discriminate].
  pose proof (stl_adds _ _ _ _ Eo) as (_ & _ & Lo & _). pose proof (stl_adds _ _ _ _ Ee) as (_ & _ & Le & _).
  unfold ext in Le. rewrite app_length in Le. cbn in Le.
  destruct (get (c_remainder o) (length (c_remainder o) - 1)) as [x|] eqn:E1; cbn [bind] in H; [|discriminate].
  destruct (length (c_remainder e) <? 2) eqn:E2; cbn [bind] in H; [discriminate|].
  destruct (get (c_remainder e) (length (c_remainder e) - 2)) as [y|] eqn:E3; cbn [bind] in H; [|discriminate].
  apply get_last in E1, E3. destruct E1 as [E1 _], E3 as [E3 _]. rewrite Lo in E1.
  replace (length (c_remainder e) - 2) with (length data - 1) in E3 by lia.
  exists o, e. repeat split; auto. cbv zeta. rewrite E1, E3.
  destruct (Qcabs x <=? Qcabs y)%Qc eqn:Q.
  - left. split; [apply Qcleb_le; auto|congruence].
  - right. split; [apply Qcleb_gt; auto|congruence].
Qed.
Lemma stl_adjust_adds : forall data np b c, stl_adjust data np b = Ok c -> 0 < length data -> adds_up c data.
Proof.
  intros data np b c H Hn. destruct (stl_adjust_spec _ _ _ _ H Hn) as (o & e & A & B & [[_ C]|[_ C]]); subst.
  - eapply stl_adds; eauto.
  - eapply adds_firstn, stl_adds; eauto.
Qed.

End Proofs.

(** * Spikes *)
Section Spikes.
Variable std : list Qc -> Qc.
Definition far (d : list Qc) : list nat :=
  map fst (filter (fun p => (Q2Qc 3 <=? Qcabs (snd p - qmean d) / std d)%Qc) (combine (range (length d)) d)).
Lemma combine_range_in : forall A (d : list A) k i v, In (i, v) (combine (seq k (length d)) d) <-> k <= i /\ nth_error d (i - k) = Some v.
Proof.
  intros A d. induction d as [|x t IH]; intros k i v; cbn.
  - split; [tauto|]. intros [_ H]. destruct (i - k); discriminate.
  - rewrite IH. split.
    + intros [H|[H1 H2]]; [inversion H; subst; rewrite Nat.sub_diag; auto|]. split; [lia|].
      replace (i - k) with (S (i - S k)) by lia. auto.
    + intros [H1 H2]. destruct (i - k) as [|m] eqn:E; [left; cbn in H2; inversion H2; f_equal; lia|].
      right. split; [lia|]. replace (i - S k) with m by lia. auto.
Qed.
Hypothesis Hstd : nonneg_std std.
Lemma far_in : forall d, (std d =? 0)%Qc = false -> forall i, In i (far d) <-> far_out std d i.
Proof.
  intros d Es i. apply Qceqb_neq in Es. assert (P : (0 < std d)%Qc) by (pose proof (Hstd d); destruct (Qclt_le_dec' 0 (std d)); auto; exfalso; apply Es; qlra).
  unfold far. rewrite in_map_iff. unfold far_out. split.
  - intros ((j & v) & E & H). cbn in E; subst j. apply filter_In in H. destruct H as [H1 H2]. cbn [snd] in H2.
    apply combine_range_in in H1. destruct H1 as [_ H1]. rewrite Nat.sub_0_r in H1.
    split; [apply nth_error_Some; congruence|]. split; auto.
    rewrite (nth_error_nth d i 0%Qc H1). apply Qcleb_le in H2. apply (Qcle_div_iff _ _ _ P) in H2. auto.
  - intros (H1 & _ & H2). exists (i, nth i d 0%Qc). split; auto. apply filter_In. split.
    + apply combine_range_in. split; [lia|]. rewrite Nat.sub_0_r. apply nth_error_nth'; auto.
    + cbn [snd]. apply Qcleb_le. apply (Qcle_div_iff _ _ _ P). auto.
Qed.
Lemma far_nodup : forall d, NoDup (far d).
Proof.
  intros d. unfold far.
  assert (H : forall (l : list (nat * Qc)) (f : nat * Qc -> bool), NoDup (map fst l) -> NoDup (map fst (filter f l))).
  { induction l as [|x t IH]; intros f Hx; cbn; [constructor|]. inversion Hx; subst.
    destruct (f x); cbn; [|auto]. constructor; auto. intros Hi. apply H1. apply in_map_iff in Hi. destruct Hi as (y & Ey & Hy).
    apply filter_In in Hy. apply in_map_iff. exists y. tauto. }
  apply H.
  assert (Hc : map fst (combine (range (length d)) d) = range (length d)).
  { unfold range. generalize 0. induction d; intros k; cbn; f_equal; auto. }
  rewrite Hc. apply seq_NoDup.
Qed.
Lemma get_outlier_in : forall d period i, In i (get_outlier std d period) <-> spike std d period i.
Proof.
  intros d period i. unfold get_outlier. cbv zeta. destruct (std d =? 0)%Qc eqn:Es.
  - split; [intros []|]. intros [(_ & P & _) _]. apply Qceqb_eq in Es. rewrite Es in P. exfalso. qlra.
  - fold (far d). rewrite filter_In. rewrite far_in by auto. unfold spike.
    set (ps := filter (fun j => j mod period =? i mod period) (far d)).
    assert (Hps : far_out_at_phase std d period i ps).
    { split; [apply NoDup_filter, far_nodup|]. intros j. unfold ps. rewrite filter_In, far_in by auto. rewrite Nat.eqb_eq. tauto. }
    split.
    + intros [A B]. apply Nat.leb_le in B. split; auto. exists ps. auto.
    + intros [A (qs & [Q1 Q2] & Q3)]. split; auto. apply Nat.leb_le.
      enough (length ps <= length qs) by (unfold ps in *; lia).
      destruct Hps as [P1 P2]. apply NoDup_incl_length; auto. intros j Hj. apply Q2, P2. auto.
Qed.

Lemma mem_pos_in : forall i l, mem_pos i l = true <-> In i l.
Proof.
  intros i l. unfold mem_pos. rewrite existsb_exists. split.
  - intros (x & H & E). apply Nat.eqb_eq in E. subst; auto.
  - intros H. exists i. rewrite Nat.eqb_refl. auto.
Qed.
Lemma observed_blanked : forall l d k w,
  observed (mapi (fun i (v : Qc) => if mem_pos i l then None else Some v) d) k w <-> nth_error d k = Some w /\ ~ In k l.
Proof.
  intros l d k w. unfold observed. rewrite nth_error_mapi. destruct (nth_error d k) as [v|] eqn:E; cbn [option_map]; [|split; [discriminate|intros [H _]; discriminate]].
  destruct (mem_pos k l) eqn:M.
  - apply mem_pos_in in M. split; [discriminate|tauto].
  - assert (~ In k l) by (rewrite <- mem_pos_in; congruence). split; intros H0; [split; [congruence|auto]|destruct H0; congruence].
Qed.

Lemma spike_dec : forall d period i, spike std d period i \/ ~ spike std d period i.
Proof.
  intros d period i. destruct (in_dec Nat.eq_dec i (get_outlier std d period)) as [H|H]; rewrite get_outlier_in in H; auto.
Qed.
Lemma stand_in_filled : forall d period i v, nth_error d i <> None ->
  observed (bfill (ffill (mapi (fun i (v : Qc) => if mem_pos i (get_outlier std d period) then None else Some v) d))) i v ->
  (~ spike std d period i -> nth_error d i = Some v) /\
  (spike std d period i -> stand_in (spike std d period) d i v).
Proof.
  intros d period i v Hi H. set (B := mapi _ d) in *.
  assert (OB : forall k w, observed B k w <-> nth_error d k = Some w /\ ~ spike std d period k).
  { intros k w. unfold B. rewrite observed_blanked, get_outlier_in. tauto. }
  assert (NB : forall k, k < length d -> (forall w, ~ observed B k w) -> spike std d period k).
  { intros k Hk Hn. destruct (spike_dec d period k) as [S0|S0]; auto. exfalso.
    destruct (nth_error d k) as [w|] eqn:E; [|apply nth_error_None in E; lia]. apply (Hn w). apply OB. auto. }
  apply bfill_observed in H. destruct H as [H|[Hn H]].
  - apply ffill_observed in H. destruct H as [H|[Hn (q & Q1 & Q2 & Q3)]].
    + apply OB in H. split; [tauto|]. intros S0. tauto.
    + assert (S0 : spike std d period i).
      { apply NB; [apply nth_error_Some; auto|]. intros w. apply Q3. lia. }
      split; [tauto|]. intros _. left. exists q. apply OB in Q2. split; auto. split; [tauto|]. split; [tauto|].
      intros k Hk. apply NB; [|intros w; apply Q3; auto].
      apply Nat.le_lt_trans with i; [lia|]. apply nth_error_Some; auto.
  - destruct H as (q & Q1 & Q2 & Q3).
    assert (none : forall k w, k <= i -> ~ observed B k w).
    { intros k w Hk Ho.
      assert (X : exists u, observed (ffill B) i u).
      { clear -Ho Hk Hi.
        assert (Lb : i < length B) by (unfold B; rewrite mapi_length; apply nth_error_Some; auto).
        destruct (nth_error (ffill B) i) as [o|] eqn:E.
        - destruct (ffill_from_spec _ _ _ _ E) as [(u & A & C)|[(N & u & A & C)|[A C]]]; subst; try (exists u; exact E).
          exfalso. eapply A; eauto.
        - apply nth_error_None in E. unfold ffill in E. rewrite ffill_from_length in E. lia. }
      destruct X as (u & X). unfold observed in X. congruence. }
    assert (S0 : spike std d period i) by (apply NB; [apply nth_error_Some; auto|intros; apply none; lia]).
    split; [tauto|]. intros _. right. apply ffill_observed in Q2.
    destruct Q2 as [Q2|[Qn (r & R1 & R2 & R3)]].
    + exists q. apply OB in Q2. split; auto. split; [tauto|]. split; [tauto|].
      intros k Hk. assert (Kd : k < length d) by (apply Nat.lt_trans with q; auto; apply nth_error_Some; destruct Q2; congruence).
      apply NB; auto. destruct (le_lt_dec k i) as [Hki|Hki]; [intros; apply none; auto|].
      intros w Ho. apply (Q3 k w); [lia|]. apply ffill_observed. auto.
    + exfalso. destruct (le_lt_dec r i) as [Hr|Hr]; [eapply none; eauto|].
      apply (Q3 r v); [lia|]. apply ffill_observed. auto.
Qed.

Lemma list_ext0 : forall (a b : list Qc), length a = length b -> (forall i, i < length a -> nth i a 0%Qc = nth i b 0%Qc) -> a = b.
Proof. intros a b L H. apply (nth_ext a b 0%Qc 0%Qc); auto. Qed.

Variable f : list Qc -> nat -> bool -> res comps.
Hypothesis fadd : forall data np b c, f data np b = Ok c -> 0 < length data -> adds_up c data.

Lemma de_outlier_spec : forall series period b d, 0 < length series ->
  de_outlier_stl std series f period b = Ok d -> ran std f b series period d.
Proof.
  intros series period b d Hn H. unfold de_outlier_stl in H.
  destruct (f series period b) as [fi|] eqn:Ef; cbn [bind] in H; [|discriminate].
  pose proof (fadd _ _ _ _ Ef Hn) as Ad. destruct Ad as (L1 & L2 & L3 & Ad).
  destruct (zipq Qcplus (c_remainder fi) (c_seasonal fi)) as [det|] eqn:Ez; cbn [bind] in H; [|discriminate].
  apply zipq_ok in Ez. destruct Ez as (Z1 & Z2 & Z3).
  assert (D : forall i, i < length series -> (nth i det 0 = nth i series 0 - nth i (c_trend fi) 0)%Qc).
  { intros i Hi. rewrite Z3 by lia. rewrite <- Ad by auto. ring. }
  unfold ran. exists fi.
  destruct (get_outlier std det period) as [|o0 os] eqn:Eo.
  - inversion H; subst d. exists series. split; auto. split; [repeat split; auto|]. split; [|split; [auto|repeat split; auto]].
    split; auto. exists det. split; [lia|]. split; auto. intros i Hi. split; auto.
    intros S0. apply get_outlier_in in S0. rewrite Eo in S0. destruct S0.
  - rewrite <- Eo in H.
    destruct (all_some (bfill (ffill (mapi (fun i v => if mem_pos i (get_outlier std det period) then None else Some v) det)))) as [fl|] eqn:Ea; [|discriminate].
    destruct (zipq Qcplus fl (c_trend fi)) as [s'|] eqn:Es; cbn [bind] in H; [|discriminate].
    apply zipq_ok in Es. destruct Es as (S1 & S2 & S3). exists s'. split; auto. split; [repeat split; auto|].
    split; [|split; [auto|eapply fadd; eauto; lia]].
    split; [lia|]. exists det. split; [lia|]. split; auto. apply Mv_proofs5.all_some_map in Ea.
    intros i Hi.
    assert (Ho : nth_error (bfill (ffill (mapi (fun i (v : Qc) => if mem_pos i (get_outlier std det period) then None else Some v) det))) i = Some (Some (nth i fl 0%Qc))).
    { rewrite Ea, nth_error_map. rewrite (nth_error_nth' fl 0%Qc) by lia. reflexivity. }
    assert (Hd : nth_error det i <> None) by (apply nth_error_Some; lia).
    destruct (stand_in_filled _ _ _ _ Hd Ho) as [A B].
    rewrite S3 by lia. split.
    + intros N. specialize (A N). apply (nth_error_nth _ _ 0%Qc) in A. rewrite <- A, D by auto. ring.
    + intros S0. exists (nth i fl 0%Qc). split; auto. ring.
Qed.
End Spikes.
