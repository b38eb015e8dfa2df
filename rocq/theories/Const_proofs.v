(** Constant series through the pieces of the detector. *)
From Coq Require Import String List Arith ZArith QArith Qcanon Qround Lia Lqa Bool Sorted.
From Verif Require Import Base Num Sorting Kernel_model Kernel_proofs Helpers_model Helpers_props Margins_model SR_model Detect_model Detect_proofs Detect_proofs4
  Trend_model Stl_model Const_spec.
Import ListNotations.
Open Scope nat_scope.

Lemma all_eq_app : forall c a b, all_eq c a -> all_eq c b -> all_eq c (a ++ b).
Proof. intros c a b A B x I. apply in_app_or in I. destruct I; auto. Qed.
Lemma all_eq_skipn : forall c n l, all_eq c l -> all_eq c (skipn n l).
Proof. intros c n l H x I. apply H. rewrite <- (firstn_skipn n l). apply in_or_app; auto. Qed.
Lemma all_eq_firstn : forall c n l, all_eq c l -> all_eq c (firstn n l).
Proof. intros c n l H x I. apply H. rewrite <- (firstn_skipn n l). apply in_or_app; auto. Qed.
Lemma all_eq_repeat : forall c n, all_eq c (repeat c n).
Proof. intros c n x I. apply repeat_spec in I. auto. Qed.
Lemma all_eq_get : forall c l i x, all_eq c l -> get l i = Ok x -> x = c.
Proof. intros c l i x H G. unfold get in G. destruct (nth_error l i) eqn:E; [|discriminate]. inversion G; subst. eauto using nth_error_In. Qed.
Lemma zip_with_in : forall A B C (f : A -> B -> C) a b x, In x (zip_with f a b) -> exists y z, In y a /\ In z b /\ x = f y z.
Proof.
  induction a as [|y a IH]; intros [|z b] x I; simpl in I; try contradiction. destruct I as [<-|I]; [exists y, z; simpl; auto|].
  destruct (IH _ _ I) as (u & v & A1 & A2 & E). exists u, v. simpl. auto.
Qed.
Lemma all_eq_zip : forall (f : Qc -> Qc -> Qc) c d a b, all_eq c a -> all_eq d b -> all_eq (f c d) (zip_with f a b).
Proof. intros f c d a b A B x I. apply zip_with_in in I. destruct I as (y & z & Iy & Iz & ->). rewrite (A _ Iy), (B _ Iz). auto. Qed.
Lemma all_eq_mean : forall c l, l <> [] -> all_eq c l -> qmean l = c.
Proof.
  intros c l NE H. assert (B : (c <= qmean l /\ qmean l <= c)%Qc).
  { apply qmean_bounds; auto. intros x I. rewrite (H x I). split; apply Qcle_refl. }
  apply Qcle_antisym; tauto.
Qed.

Lemma diffs_const : forall c l, all_eq c l -> all_eq 0%Qc (diffs l).
Proof.
  intros c l H. unfold diffs. destruct l as [|x t]; [intros y []|].
  replace 0%Qc with (c - c)%Qc by ring. apply all_eq_zip; auto. intros y I. apply H. right; auto.
Qed.
Lemma get_delta_const : forall d c l w, all_eq c l -> get_delta d l = Ok w -> all_eq 0%Qc w.
Proof.
  intros d c l w H E. unfold get_delta in E. cbv zeta in E. bind_inv E. inversion E; subst.
  pose proof (diffs_const c l H) as D. rewrite (all_eq_get _ _ _ _ D E0).
  apply all_eq_app; [apply all_eq_repeat|apply all_eq_skipn; auto].
Qed.
Lemma include_const : forall st c l z s, all_eq c l -> should_include_delta st l = Ok (z, s) -> (0 < z)%Z -> all_eq 0%Qc s.
Proof.
  intros st c l z s H E Z0. unfold should_include_delta in E. change (range 3) with [0; 1; 2] in E. cbn [include_loop] in E.
  destruct (st l). { inversion E; subst. simpl in Z0. lia. }
  bind_inv E. rename a into l1. pose proof (get_delta_const _ _ _ _ H E0) as H1.
  destruct (st l1). { inversion E; subst. auto. }
  bind_inv E. rename a into l2. pose proof (get_delta_const _ _ _ _ H1 E1) as H2.
  destruct (st l2). { inversion E; subst. auto. }
  bind_inv E. inversion E; subst. lia.
Qed.

Lemma interp_const : forall c l s, (forall x, In (Some x) l -> x = c) -> interp l = Ok s -> all_eq c s.
Proof.
  intros c l s H E x I. assert (B : (c <= x /\ x <= c)%Qc).
  { eapply C24_interp_in_range; [exact E| |exact I]. intros q y Hy. rewrite (H y (nth_error_In _ _ Hy)). split; apply Qcle_refl. }
  apply Qcle_antisym; tauto.
Qed.
Lemma blank_const : forall c idx l, all_eq c l -> forall x, In (Some x) (blank idx l) -> x = c.
Proof.
  intros c idx l H x I. apply In_nth_error in I. destruct I as (i & Hi). unfold blank in Hi. rewrite nth_error_mapi in Hi.
  destruct (nth_error l i) eqn:E; [|discriminate]. simpl in Hi. destruct (mem_nat i idx); inversion Hi; subst. eauto using nth_error_In.
Qed.
Lemma blank_trend_const : forall c idx p l, all_eq c l -> forall x, In (Some x) (blank_trend idx p l) -> x = c.
Proof.
  intros c idx p l H x I. unfold blank_trend in I. cbv zeta in I. destruct (_ <=? _); [|eapply blank_const; eauto].
  destruct (p / 2 =? 0). { apply repeat_spec in I. discriminate. }
  apply in_app_or in I. destruct I as [I|I]; [|apply repeat_spec in I; discriminate].
  apply (blank_const c idx l H). rewrite <- (firstn_skipn (length l - p / 2) (blank idx l)). apply in_or_app; auto.
Qed.

Lemma frame_const : forall c e series expected t s idx rows, all_eq c series -> all_eq e expected ->
  result_frame series expected t s idx = Ok rows -> forall r, In r rows -> r_value r = c /\ r_expected r = e.
Proof.
  intros c e series expected t s idx rows HS HE E r I. apply result_frame_spec in E. destruct E as (_ & _ & E).
  apply In_nth_error in I. destruct I as (i & Hi). destruct (E i r Hi) as (v & x & A & B & -> & -> & _).
  split; eauto using nth_error_In.
Qed.
Lemma frame_quiet : forall series expected t s rows, result_frame series expected t s [] = Ok rows -> forall r, In r rows -> r_anomaly r = false.
Proof.
  intros series expected t s rows E r I. apply result_frame_spec in E. destruct E as (_ & _ & E).
  apply In_nth_error in I. destruct I as (i & Hi). destruct (E i r Hi) as (v & x & A & B & _ & _ & -> & _). auto.
Qed.

(** correct_expected_value_in_delta on constants *)
Lemma reverse_loop_zero : forall l, all_eq 0%Qc l -> all_eq 0%Qc (reverse_loop 0%Qc l).
Proof.
  induction l as [|x t IH]; intros H y I; simpl in I; [contradiction|].
  rewrite (H x (or_introl eq_refl)) in I. replace (0 + 0)%Qc with 0%Qc in I by ring.
  destruct I as [<-|I]; auto. apply IH; auto. intros z Iz. apply H. right; auto.
Qed.
Lemma in_upd : forall A (l : list A) i x y, In y (upd l i x) -> y = x \/ In y l.
Proof. induction l as [|a t IH]; intros [|i] x y I; simpl in *; auto; destruct I as [I|I]; auto. apply IH in I. tauto. Qed.
Lemma correct_loop_const : forall c ori new, all_eq c ori -> all_eq 0%Qc new -> forall pos out w, all_eq c out ->
  correct_loop ori new out pos = Ok w -> all_eq c w.
Proof.
  intros c ori new HO HN. induction pos as [|[|q] t IH]; intros out w H E; cbn [correct_loop] in E.
  - inversion E; subst; auto.
  - eauto.
  - bind_inv E. bind_inv E. eapply IH; [|exact E].
    rewrite (all_eq_get _ _ _ _ HO E0), (all_eq_get _ _ _ _ HN E1). replace (c + 0)%Qc with c by ring.
    intros y I. apply in_upd in I. destruct I; auto.
Qed.
Lemma correct_const : forall c v pos ori new delta values w, all_eq c ori -> all_eq 0%Qc new -> all_eq v values ->
  correct_expected_value_in_delta pos ori new delta values = Ok w -> all_eq c w.
Proof.
  intros c v pos ori new delta values w HO HN HV E. unfold correct_expected_value_in_delta in E. bind_inv E.
  eapply correct_loop_const; [exact HO| |exact HO|exact E]. destruct (delta =? 2)%Z; [|inversion E0; subst; auto].
  bind_inv E0. bind_inv E0. rewrite (all_eq_get _ _ _ _ HV E1), (all_eq_get _ _ _ _ HV E2) in E0.
  replace (v - v)%Qc with 0%Qc in E0 by ring. unfold reverse_delta in E0.
  assert (X : a = repeat 0%Qc 2 ++ reverse_loop 0%Qc (skipn 2 new)) by congruence. rewrite X. apply all_eq_app; [apply all_eq_repeat|]. apply reverse_loop_zero. apply all_eq_skipn; auto.
Qed.

Section Merge.
Variable stationary : list Qc -> bool.
(** A second run on the zero differences that reports nothing, or expects 0,
    changes no expected value. *)
Lemma merge_const : forall c results func series ratio out,
  all_eq c series -> (forall r, In r results -> r_value r = c /\ r_expected r = c) ->
  (forall s r rows m, all_eq 0%Qc s -> length s = length series -> func s r = Ok (rows, m) ->
     (forall x, In x rows -> r_anomaly x = false) \/ (forall x, In x rows -> r_expected x = 0%Qc)) ->
  merge_with_delta stationary results func series ratio = Ok out ->
  forall r, In r out -> r_value r = c /\ r_expected r = c.
Proof.
  intros c results func series ratio out HS HR HF E. pose proof E as E0. unfold merge_with_delta in E.
  destruct (should_include_delta stationary series) as [[delta s']|] eqn:ED; [|discriminate E].
  rewrite bind_ok in E. cbn [fst snd] in E.
  destruct (delta <=? 0)%Z eqn:EZ; [inversion E; subst; auto|]. apply Z.leb_gt in EZ. cbv zeta in E.
  destruct (sr_quota (length s') ratio <=? count_anomalies results) eqn:EQ; [inversion E; subst; auto|].
  destruct (func s' _) as [[diff m]|] eqn:EF; [|discriminate E]. rewrite bind_ok in E. cbn [fst snd] in E.
  destruct (length diff =? length results) eqn:EL; [|discriminate E]. cbn [negb] in E. apply Nat.eqb_eq in EL.
  pose proof (include_const _ _ _ _ _ HS ED EZ) as H0.
  destruct (HF s' _ _ _ H0 (Detect_proofs3.should_include_len _ _ _ _ ED) EF) as [Q|Q].
  - destruct (merge_inv stationary _ _ _ _ _ E0) as [->|(delta' & s2 & diff' & m' & ED' & _ & _ & EF' & LD & LO & K)]; auto.
    rewrite ED in ED'. inversion ED'; subst delta' s2. rewrite EF in EF'. inversion EF'; subst diff' m'.
    intros r I. apply In_nth_error in I. destruct I as (i & Hi). pose proof (nth_error_lt _ _ _ _ Hi) as Li.
    destruct (nth_error_ex _ results i ltac:(lia)) as (r0 & Hr0). destruct (nth_error_ex _ diff i ltac:(lia)) as (d & Hd).
    destruct (K i r0 r d Hr0 Hi Hd) as (_ & K2). rewrite K2; [eauto using nth_error_In|]. right. eauto using nth_error_In.
  - bind_inv E. bind_inv E. inversion E; subst out. clear E.
    assert (X : all_eq c a0).
    { eapply correct_const; [| | |exact E2]; [| |instantiate (1 := c)]; intros x I; apply in_map_iff in I; destruct I as (y & <- & I).
      - apply HR; auto. - apply Q; auto. - apply HR; auto. }
    assert (L0 : length a0 = length results).
    { revert E2. clear. intros E. unfold correct_expected_value_in_delta in E. bind_inv E.
      assert (G : forall pos ori new out w, correct_loop ori new out pos = Ok w -> length w = length out).
      { induction pos as [|[|q] t IH]; intros ori new out w Ew; cbn [correct_loop] in Ew; [inversion Ew; auto|eauto|].
        bind_inv Ew. bind_inv Ew. rewrite (IH _ _ _ _ Ew). apply upd_length. }
      rewrite (G _ _ _ _ _ E). apply map_length. }
    intros r I. apply In_nth_error in I. destruct I as (i & Hi). rewrite nth_error_mapi in Hi.
    destruct (nth_error results i) as [r0|] eqn:Hr0; [|discriminate Hi]. simpl in Hi. inversion Hi as [Hr]. clear Hi.
    destruct (HR r0 (nth_error_In _ _ Hr0)) as [V0 X0].
    destruct (mem_nat i _); [|subst; auto]. destruct (nth_error diff i) as [d|]; [|subst; auto].
    assert (XE : nth i a0 0%Qc = c). { apply X. apply nth_In. rewrite L0. apply (nth_error_lt _ _ _ _ Hr0). }
    unfold correct_anomaly_direction. cbn [r_anomaly]. destruct (r_anomaly d); cbn [r_value r_expected]; auto.
Qed.
End Merge.

(** The trend of a constant. *)
Section Trend.
Variable r32 : Qc -> Qc.
Variable top : option Qc.
Variable aglet mean_filter line_filter spline_filter : list Qc -> nat -> res (list Qc).
Variable peaks : list Qc -> res (option (list (nat * Qc))).
Hypothesis KA : keeps_constants aglet.
Hypothesis KS : keeps_constants spline_filter.
Notation fit_trend := (Trend_model.fit_trend r32 top aglet mean_filter line_filter spline_filter peaks).
Lemma fit_spline_const : forall c s p t, all_eq c s -> fit_trend s (Some KSpline) p = Ok t -> all_eq c t.
Proof.
  intros c s p t H E. unfold Trend_model.fit_trend in E. bind_inv E. unfold fit_with_period in E. cbv zeta in E.
  destruct (_ =? 0); [discriminate|]. bind_inv E. eapply KA; [|exact E]. eapply KS; eauto.
Qed.
Lemma trend_const : forall c s p t, all_eq c s ->
  Trend_model.trend_detection r32 top aglet mean_filter line_filter spline_filter peaks s p = Ok t -> all_eq c t.
Proof.
  intros c s p t H E. unfold Trend_model.trend_detection in E. destruct (length s <? 6); [|eapply fit_spline_const; eauto].
  inversion E; subst. intros x I. apply in_map_iff in I. destruct I as (y & <- & I). apply all_eq_mean; auto. intro; subst s; contradiction.
Qed.
End Trend.

(** The decomposition of a constant. *)
Section Stl.
Variable STL : list Qc -> nat -> res comps.
Variable exp log : Qc -> Qc.
Variable std : list Qc -> Qc.
Hypothesis TO : trend_only STL.
Definition flat (c : Qc) (d : comps) : Prop := all_eq 0%Qc (c_seasonal d) /\ all_eq c (c_trend d) /\ all_eq 0%Qc (c_remainder d).

Lemma outlier_zero : forall l p, all_eq 0%Qc l -> get_outlier std l p = [].
Proof.
  intros l p H. unfold get_outlier. cbv zeta. destruct (std l =? 0)%Qc; auto.
  assert (F : forall q, In q (combine (range (length l)) l) -> (Q2Qc 3 <=? Qcabs (snd q - qmean l) / std l)%Qc = false).
  { intros [i x] I. cbn [snd]. apply in_combine_r in I. rewrite (H x I). rewrite (all_eq_mean 0%Qc l); [|intro; subst l; contradiction|auto].
    replace (Qcabs (0 - 0) / std l)%Qc with 0%Qc; [reflexivity|].
    replace (0 - 0)%Qc with 0%Qc by ring. unfold Qcdiv. replace (Qcabs 0) with 0%Qc by reflexivity. ring. }
  assert (E : filter (fun q => (Q2Qc 3 <=? Qcabs (snd q - qmean l) / std l)%Qc) (combine (range (length l)) l) = []).
  { revert F. generalize (combine (range (length l)) l). clear. induction l0 as [|q t IH]; intros F; auto. simpl. rewrite (F q (or_introl eq_refl)).
    apply IH. intros q' I. apply F. right; auto. }
  rewrite E. reflexivity.
Qed.
Lemma plain_const : forall adjust c s p d, all_eq c s -> (if adjust : bool then stl_adjust_trend STL exp log else stl STL exp log) s p false = Ok d -> flat c d.
Proof.
  intros [] c s p d H E.
  - unfold stl_adjust_trend, stl_core in E. destruct (phase_before_end s p) as [|x ph] eqn:EP; [discriminate|].
    bind_inv E. bind_inv E. bind_inv E. bind_inv E. pose proof (TO _ _ _ _ H E0) as F. pose proof F as (_ & _ & F3).
    rewrite (all_eq_get _ _ _ _ F3 E2) in E. replace (Qcabs 0 <=? Qcabs a2)%Qc with true in E; [inversion E; subst; auto|].
    symmetry. apply Qcleb_le. apply Qcabs_nonneg.
  - unfold stl, stl_core in E. apply (TO _ _ _ _ H E).
Qed.
Lemma mape_zero : forall r s, all_eq 0%Qc r -> ext_above MAPE_UB (mape r s) = false.
Proof.
  intros r s H. unfold mape. cbv zeta. set (pairs := filter _ _).
  assert (P : forall q, In q pairs -> fst q = 0%Qc /\ snd q <> 0%Qc).
  { intros [x y] I. apply filter_In in I. destruct I as [I N]. cbn [fst snd] in *. pose proof (in_combine_l _ _ _ _ I) as Ix.
    rewrite (H x Ix) in *. split; auto. intros ->. vm_compute in N. discriminate. }
  destruct pairs as [|q t] eqn:EP; [reflexivity|]. rewrite <- EP in *.
  assert (E : existsb (fun p => (snd p =? 0)%Qc) pairs = false).
  { apply not_true_is_false. intros X. apply existsb_exists in X. destruct X as (q' & I & X). apply (P q' I). qb_hyps. auto. }
  rewrite E. unfold ext_above. apply Qcltb_ge. rewrite (all_eq_mean 0%Qc).
  - vm_compute. discriminate.
  - rewrite EP. discriminate.
  - intros x I. apply in_map_iff in I. destruct I as (q' & <- & I). destruct (P q' I) as [-> _]. unfold Qcdiv. rewrite Qcmult_0_l. reflexivity.
Qed.
Lemma decompose_const : forall adjust c s p t e, all_eq c s -> decompose STL exp log std adjust s p = Ok (t, e) -> all_eq c t /\ all_eq 0%Qc e.
Proof.
  intros adjust c s p t e H E. unfold decompose in E. bind_inv E. inversion E; subst. clear E. rename a into d, E0 into E.
  unfold decomposition in E. cbv zeta in E. bind_inv E. rename a into d0.
  assert (F : flat c d0).
  { unfold de_outlier_stl in E0. bind_inv E0. rename a into d1. pose proof (plain_const adjust c s p d1 H) as F1.
    assert (E1' : (if adjust then stl_adjust_trend STL exp log else stl STL exp log) s p false = Ok d1) by (destruct adjust; exact E1).
    specialize (F1 E1'). bind_inv E0. assert (Z0 : all_eq 0%Qc a).
    { unfold zipq in E2. destruct (_ =? _); [|discriminate]. inversion E2; subst. replace 0%Qc with (0 + 0)%Qc by ring. apply all_eq_zip; apply F1. }
    rewrite (outlier_zero a p Z0) in E0. inversion E0; subst; auto. }
  destruct (negb _); [discriminate|]. rewrite (mape_zero _ s (proj2 (proj2 F))) in E. inversion E; subst. split; apply F.
Qed.
End Stl.

(** The two detectors that see constants. *)
Section Detectors.
Variable cst : Qc.
Variable std : list Qc -> Qc.
Variable ppf : Qc -> Z -> Qc.
Variable sqrt : Qc -> Qc.
Variable table : list Qc.
Variable sort : list (nat * Qc) -> list (nat * Qc).
Variable trend_detection : list Qc -> option nat -> res (list Qc).
Variable decompose : bool -> list Qc -> nat -> res (list Qc * list Qc).
Hypothesis TC : forall c s p t, all_eq c s -> trend_detection s p = Ok t -> all_eq c t.
Hypothesis DC : forall adjust c s p t e, all_eq c s -> decompose adjust s p = Ok (t, e) -> all_eq c t /\ all_eq 0%Qc e.
Notation DT := (dynamic_threshold_detection cst std ppf sqrt table sort trend_detection).
Notation TS := (seasonal_series_detection cst std ppf sqrt table sort decompose).

Lemma dt_const : forall c series tv alpha ratio nt lm rows m, all_eq c series -> DT series tv alpha ratio nt lm = Ok (rows, m) ->
  (forall r, In r rows -> r_value r = c) /\
  ((forall r, In r rows -> r_anomaly r = false) /\ (forall e, all_eq e tv -> forall r, In r rows -> r_expected r = e) \/
   (forall r, In r rows -> r_expected r = c)).
Proof.
  intros c series tv alpha ratio nt lm rows m H E. unfold dynamic_threshold_detection in E. bind_inv E. bind_inv E.
  cbv zeta in E. bind_inv E. bind_inv E. inversion E; subst. clear E.
  destruct (fst a0) as [|i idx] eqn:EI.
  - inversion E2; subst. split.
    + intros r I. apply result_frame_spec in E3. destruct E3 as (_ & _ & E3). apply In_nth_error in I. destruct I as (k & Hk).
      destruct (E3 k r Hk) as (v & x & A & _ & -> & _). eauto using nth_error_In.
    + left. split; [intros r I; eapply frame_quiet; eauto|]. intros e He r I. apply (frame_const c e _ _ _ _ _ _ H He E3 r I).
  - bind_inv E2. assert (X : all_eq c a1).
    { eapply TC; [|exact E2]. eapply interp_const; [|exact E]. apply blank_const; auto. }
    split; [|right]; intros r I; apply (frame_const c c _ _ _ _ _ _ H X E3 r I).
Qed.
Lemma ts_const : forall c series p alpha ratio adj nt lm rows m, all_eq c series -> TS series p alpha ratio adj nt lm = Ok (rows, m) ->
  forall r, In r rows -> r_value r = c /\ r_expected r = c.
Proof.
  intros c series p alpha ratio adj nt lm rows m H E. unfold seasonal_series_detection in E. cbv zeta in E.
  destruct (_ <? ratio)%Qc; [discriminate|]. destruct (length series =? 0); [discriminate|]. destruct (length series <? _); [discriminate|].
  bind_inv E. destruct a as [t e]. cbn [fst snd] in E. destruct (DC _ _ _ _ _ _ H E0) as [HT HE].
  destruct (negb _); [discriminate|]. bind_inv E. bind_inv E. bind_inv E. bind_inv E. bind_inv E. inversion E; subst. clear E.
  assert (X : all_eq c a2). { destruct (fst a1); [inversion E4; subst; auto|]. eapply interp_const; [|exact E4]. apply blank_trend_const; auto. }
  intros r I. eapply frame_const; [exact H| |exact E5|exact I]. replace c with (c + 0)%Qc by ring. apply all_eq_zip; auto.
Qed.

End Detectors.

Lemma spread_const : forall cst c g i s, all_eq c s -> should_trigger_sr cst g i s = false.
Proof.
  intros cst c g i s H. unfold should_trigger_sr. cbv zeta.
  assert (E : qmedian (map (fun x => Qcabs (x - qmedian s)) s) = 0%Qc).
  { destruct s as [|x t]; [apply Qc_is_canon; reflexivity|]. set (s := x :: t) in *. 
    assert (M : forall d l, l <> [] -> all_eq d l -> qmedian l = d).
    { intros d l NE A. assert (B : (d <= qmedian l /\ qmedian l <= d)%Qc).
      { apply median_in_range; auto. intros y I. rewrite (A y I). split; apply Qcle_refl. }
      apply Qcle_antisym; tauto. }
    apply M; [discriminate|]. intros y I. apply in_map_iff in I. destruct I as (z & <- & I). rewrite (M c s); auto; [|discriminate].
    rewrite (H z I). replace (c - c)%Qc with 0%Qc by ring. reflexivity. }
  rewrite E. replace (0 / cst - 0)%Qc with 0%Qc by (unfold Qcdiv; ring). destruct g; try reflexivity; destruct (_ <? _); reflexivity.
Qed.
