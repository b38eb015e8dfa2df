(** C89: the seasonal decomposition behind expected values of seasonal series. *)
From Coq Require Import List Arith ZArith QArith Qcanon Lia Bool.
From Verif Require Import Base Num Sorting Helpers_model Kernel_model Helpers_proofs Kernel_proofs Kernel_proofs4
  Stl_model Stl_spec Stl_proofs Stl_proofs2.
Import ListNotations.
Open Scope nat_scope.

Section Props.
Variable STL : list Qc -> nat -> res comps.
Variable exp log : Qc -> Qc.
Variable std : list Qc -> Qc.
Notation the_stl adjust := (if adjust : bool then stl_adjust_trend STL exp log else stl STL exp log).

(** The decomposition used splits the series, its spikes replaced, into three
    parts that add up; the log version is used exactly when the plain one fits
    worse than 10% on average and the log one better than 5%. *)
Theorem C89_decomposition : forall adjust series period d, additive STL -> nonneg_std std -> series <> [] ->
  decomposition STL exp log std adjust series period = Ok d ->
  exists plain, ran std (the_stl adjust) false series period plain /\
    (~ error_over (Q2Qc (1 # 10)) (c_remainder plain) series /\ d = plain \/
     error_over (Q2Qc (1 # 10)) (c_remainder plain) series /\
     exists logd, ran std (the_stl adjust) true series period logd /\
      (error_under (Q2Qc (1 # 20)) (c_remainder logd) series /\ d = logd \/
       ~ error_under (Q2Qc (1 # 20)) (c_remainder logd) series /\ d = plain)).
Proof.
  intros adjust series period d A B Hs H.
  assert (E1 : Q2Qc (1 # 10) = MAPE_UB) by (apply Qc_is_canon; reflexivity).
  assert (E2 : Q2Qc (1 # 20) = MAPE_LB) by (apply Qc_is_canon; reflexivity).
  rewrite E1, E2. apply (decomposition_spec STL exp log std A B adjust series period d); auto.
  destruct series; [congruence|cbn; lia].
Qed.

(** The log version: logarithms of the data, moved up to a minimum of 1 when
    the minimum is below 1, are decomposed; trend, and trend plus season, are the
    exponentials moved back; the rest is the remainder. *)
Theorem C89_log : forall data np c m, additive STL -> smallest data m -> stl STL exp log data np true = Ok c ->
  let shift := (if Qclt_le_dec m 1 then m - 1 else 0)%Qc in
  adds_up c data /\ exists r, STL (map (fun x => log (x - shift))%Qc data) np = Ok r /\
    forall i, i < length data ->
      nth i (c_trend c) 0%Qc = (exp (nth i (c_trend r) 0) + shift)%Qc /\
      (nth i (c_trend c) 0 + nth i (c_seasonal c) 0)%Qc = (exp (nth i (c_trend r) 0 + nth i (c_seasonal r) 0) + shift)%Qc.
Proof.
  intros data np c m A [M1 M2] H shift. split; [eapply stl_adds; eauto|].
  cbn [stl] in H. unfold stl_log in H. destruct data as [|x0 t]; [destruct M1|].
  set (D := x0 :: t) in *. cbv zeta in H.
  assert (Em : qmin_list D = m).
  { apply Qcle_antisym; [apply qmin_list_le; auto|]. apply M2. apply qmin_list_in. discriminate. }
  rewrite Em in H. set (low := (m <? 1)%Qc) in *.
  set (D' := if low then map (fun x => (x - m + 1)%Qc) D else D) in *.
  assert (ED : map log D' = map (fun x => log (x - shift))%Qc D).
  { unfold D', shift, low. destruct (m <? 1)%Qc eqn:Q; destruct (Qclt_le_dec m 1) as [Hm|Hm]; cbv zeta.
    - rewrite map_map. apply map_ext. intros x. f_equal. ring.
    - apply Qcltb_lt in Q. exfalso. qlra.
    - apply Qcltb_ge in Q. exfalso. qlra.
    - apply map_ext. intros x. f_equal. ring. }
  destruct (STL (map log D') np) as [r|] eqn:E; cbn [bind] in H; [|discriminate].
  exists r. split; [rewrite <- ED; exact E|].
  assert (L' : length D' = length D) by (unfold D'; destruct low; [apply map_length|auto]).
  destruct (A _ _ _ E) as (L1 & L2 & L3 & _). rewrite map_length in L1, L2, L3.
  destruct (zipq Qcplus (c_trend r) (c_seasonal r)) as [ts|] eqn:E1; cbn [bind] in H; [|discriminate].
  destruct (zipq Qcminus (map exp ts) (map exp (c_trend r))) as [se|] eqn:E2; cbn [bind] in H; [|discriminate].
  destruct (zipq Qcminus D' (map exp (c_trend r))) as [dt|] eqn:E3; cbn [bind] in H; [|discriminate].
  destruct (zipq Qcminus dt se) as [re|] eqn:E4; cbn [bind] in H; [|discriminate].
  apply zipq_ok in E1, E2. destruct E1 as (A1 & B1 & C1), E2 as (A2 & B2 & C2). rewrite !map_length in *.
  inversion H; subst c. cbn [c_trend c_seasonal]. intros i Hi.
  assert (T : nth i (if low then map (fun x => (x - 1 + m)%Qc) (map exp (c_trend r)) else map exp (c_trend r)) 0%Qc =
    (exp (nth i (c_trend r) 0) + shift)%Qc).
  { unfold shift, low. destruct (m <? 1)%Qc eqn:Q; destruct (Qclt_le_dec m 1) as [Hm|Hm]; cbv zeta.
    - rewrite !nth_map0 by (rewrite ?map_length; lia). ring.
    - apply Qcltb_lt in Q. exfalso. qlra.
    - apply Qcltb_ge in Q. exfalso. qlra.
    - rewrite nth_map0 by lia. ring. }
  rewrite T. split; auto. rewrite C2 by lia. rewrite !nth_map0 by lia. rewrite C1 by lia. ring.
Qed.

(** No logarithm of a number below 1 is ever taken, negative and zero values
    included: any other logarithm below 1 gives the same answer. *)
Theorem C89_log_domain : forall log2 adjust series period, (forall x, (1 <= x)%Qc -> log x = log2 x) ->
  decomposition STL exp log std adjust series period = decomposition STL exp log2 std adjust series period.
Proof. intros. apply decomposition_domain. auto. Qed.

(** For the last point the series is also decomposed with one more point, the
    median of its phase; the one leaving the smaller last remainder is used. *)
Theorem C89_last_point : forall data np b c ph, additive STL -> data <> [] -> 0 < np -> same_phase data np ph ->
  stl_adjust_trend STL exp log data np b = Ok c ->
  adds_up c data /\
  exists o e, stl STL exp log data np b = Ok o /\ stl STL exp log (data ++ [qmedian ph]) np b = Ok e /\
    let n := length data in
    let last x := Qcabs (nth (n - 1) (c_remainder x) 0%Qc) in
    (last o <= last e -> c = o)%Qc /\
    (last e < last o -> c = mkComps (firstn n (c_seasonal e)) (firstn n (c_trend e)) (firstn n (c_remainder e)))%Qc /\
    (last c <= last o /\ last c <= last e)%Qc.
Proof.
  intros data np b c ph A Hd Hp [P1 P2] H. assert (Hn : 0 < length data) by (destruct data; [congruence|cbn; lia]).
  split; [eapply stl_adjust_adds; eauto|].
  assert (EP : phase_before_end data np = ph).
  { apply nth_error_ext. intros k. unfold phase_before_end. destruct (le_lt_dec (length ph) k) as [Hk|Hk].
    - rewrite (proj2 (nth_error_None ph k)) by auto. apply nth_error_None. rewrite map_length. unfold range. rewrite seq_length. lia.
    - rewrite nth_error_map_range by lia. rewrite P2 by auto. symmetry. apply nth_error_nth'.
      assert (S k * np > 0) by nia. lia. }
  destruct (stl_adjust_spec STL exp log A _ _ _ _ H Hn) as (o & e & E1 & E2 & E3). rewrite EP in E2.
  exists o, e. split; auto. split; auto. cbv zeta in *.
  pose proof (stl_adds STL exp log A _ _ _ _ E2) as (_ & _ & Le & _). rewrite app_length in Le. cbn in Le.
  destruct E3 as [[Q C]|[Q C]]; subst c.
  - split; [auto|]. split; [intros; exfalso; qlra|]. split; [apply Qcle_refl|auto].
  - split; [intros; exfalso; qlra|]. split; auto. cbn [c_remainder]. rewrite firstn_nth0 by lia. split; [qlra|apply Qcle_refl].
Qed.

(** Two cycles and a point are enough: when the library answers, so does the
    decomposition, one entry per point. *)
Theorem C89_total : forall adjust series period, additive STL -> answers STL -> nonneg_std std -> rough_std std ->
  0 < period -> 2 * period < length series ->
  exists d, decomposition STL exp log std adjust series period = Ok d /\
    length (c_trend d) = length series /\ length (c_seasonal d) = length series /\ length (c_remainder d) = length series.
Proof.
  intros adjust series period A B S0 R0 Hp Hn.
  destruct (decomposition_total STL exp log std A S0 B R0 adjust series period Hp Hn) as (d & E). exists d. split; auto.
  assert (Hs : 0 < length series) by lia.
  destruct (decomposition_spec STL exp log std A S0 adjust series period d Hs E) as (pl & R1 & [[_ ->]|(_ & lg & R2 & [[_ ->]|[_ ->]])]).
  - pose proof (ran_length _ _ _ _ _ _ R1). tauto.
  - pose proof (ran_length _ _ _ _ _ _ R2). tauto.
  - pose proof (ran_length _ _ _ _ _ _ R1). tauto.
Qed.
End Props.
Print Assumptions C89_decomposition.
Print Assumptions C89_log.
Print Assumptions C89_log_domain.
Print Assumptions C89_last_point.
Print Assumptions C89_total.

(** A library and a deviation meeting the hypotheses: no season, no trend. *)
Definition flat_STL (data : list Qc) (np : nat) : res comps :=
  Ok (mkComps (map (fun _ => 0%Qc) data) (map (fun _ => 0%Qc) data) data).
Definition half_std (l : list Qc) : Qc :=
  let v := qmean (map (fun x => (x - qmean l) * (x - qmean l))%Qc l) in
  if (v =? 0)%Qc then 0%Qc else ((1 + v) / Q2Qc 2)%Qc.
Lemma flat_additive : additive flat_STL.
Proof.
  intros data np c H. inversion H; subst. unfold adds_up; cbn. rewrite !map_length. repeat split; auto.
  intros i Hi. rewrite !(nth_map0 (fun _ => 0%Qc)) by auto. ring.
Qed.
Lemma flat_answers : answers flat_STL. Proof. intros data np _ _. unfold flat_STL. eauto. Qed.
Lemma sq_list_nonneg : forall m l, (0 <= qsum (map (fun x => (x - m) * (x - m))%Qc l))%Qc.
Proof. intros m. induction l as [|x t IH]; cbn [map qsum]; [qlra|]. pose proof (Qcsqr_nonneg (x - m)%Qc). qlra. Qed.
Lemma var_nonneg : forall l, (0 <= qmean (map (fun x => (x - qmean l) * (x - qmean l))%Qc l))%Qc.
Proof.
  intros [|x t]; [cbn; unfold qmean; cbn; vm_compute; discriminate|]. apply Qcdiv_nonneg; [apply sq_list_nonneg|apply qn_pos; cbn; lia].
Qed.
Lemma half_std_nonneg : nonneg_std half_std.
Proof.
  intros l. unfold half_std. cbv zeta. pose proof (var_nonneg l). destruct (_ =? 0)%Qc; [qlra|]. apply Qcdiv_nonneg; [qlra|reflexivity].
Qed.
Lemma half_std_rough : rough_std half_std.
Proof.
  intros l Hl Hs. unfold half_std in *. cbv zeta in *. pose proof (var_nonneg l) as V.
  set (SS := qsum (map (fun x => (x - qmean l) * (x - qmean l))%Qc l)) in *.
  assert (N : 0 < length l) by (destruct l; [congruence|cbn; lia]).
  assert (Ev : qmean (map (fun x => (x - qmean l) * (x - qmean l))%Qc l) = (SS / qn (length l))%Qc) by (unfold qmean at 1; rewrite map_length; reflexivity).
  rewrite Ev in *. set (v := (SS / qn (length l))%Qc) in *.
  destruct (v =? 0)%Qc eqn:Ez; [congruence|]. apply Qceqb_neq in Ez.
  assert (Pv : (0 < v)%Qc) by (destruct (Qclt_le_dec' 0 v); auto; exfalso; apply Ez; qlra).
  assert (ES : SS = (qn (length l) * v)%Qc) by (unfold v; rewrite Qcmul_div; auto; apply qn_neq0; auto).
  split; [apply (Qclt_div_iff _ _ _ (eq_refl : (0 < Q2Qc 2)%Qc)); qlra|].
  rewrite ES.
  assert (Eh : (Q2Qc 9 * ((1 + v) / Q2Qc 2 * ((1 + v) / Q2Qc 2)))%Qc = (Q2Qc (9 # 4) * ((1 + v) * (1 + v)))%Qc).
  { assert (E2 : forall x, (x / Q2Qc 2 = x * Q2Qc (1 # 2))%Qc) by (intros; unfold Qcdiv; f_equal; apply Qc_is_canon; reflexivity).
    rewrite !E2. replace (Q2Qc (9 # 4)) with (Q2Qc 9 * Q2Qc (1 # 2) * Q2Qc (1 # 2))%Qc by (apply Qc_is_canon; reflexivity). ring. }
  rewrite Eh.
  assert (Pl : (0 < qn (length l))%Qc) by (apply qn_pos; auto).
  assert (K : (v < Q2Qc (9 # 4) * ((1 + v) * (1 + v)))%Qc).
  { pose proof (Qcsqr_nonneg v). replace ((1 + v) * (1 + v))%Qc with (1 + (v + v) + v * v)%Qc by ring. qlra. }
  assert (G : (0 < qn (length l) * (Q2Qc (9 # 4) * ((1 + v) * (1 + v)) - v))%Qc) by (apply Qcmul_pos; auto; qlra).
  replace (qn (length l) * (Q2Qc (9 # 4) * ((1 + v) * (1 + v)) - v))%Qc with
    (qn (length l) * (Q2Qc (9 # 4) * ((1 + v) * (1 + v))) - qn (length l) * v)%Qc in G by ring. qlra.
Qed.
(** Three cycles of eight points: a spike in one cycle is replaced by the value
    before it, a spike at the same phase in two of the three cycles is kept. *)
Definition quiet (spikes : list nat) : list Qc :=
  map (fun i => if mem_pos i spikes then Q2Qc 3 else if i mod 2 =? 0 then Q2Qc (1 # 10) else 0%Qc) (range 24).
Example C89_example :
  (additive flat_STL /\ answers flat_STL /\ nonneg_std half_std /\ rough_std half_std) /\
  get_outlier half_std (quiet [3]) 8 = [3] /\ get_outlier half_std (quiet [3; 11]) 8 = [] /\
  get_outlier half_std (quiet [3; 12]) 8 = [3; 12] /\
  match decomposition flat_STL (fun x => x) (fun x => x) half_std true (quiet [3]) 8 with
  | Ok d => map this (firstn 5 (c_remainder d)) = map this [Q2Qc (1 # 10); 0; Q2Qc (1 # 10); Q2Qc (1 # 10); Q2Qc (1 # 10)]%Qc
  | Err _ => False
  end.
Proof.
  split; [split; [apply flat_additive|split; [apply flat_answers|split; [apply half_std_nonneg|apply half_std_rough]]]|].
  split; [vm_compute; reflexivity|]. split; [vm_compute; reflexivity|]. split; [vm_compute; reflexivity|].
  vm_compute. reflexivity.
Qed.

(** A library that only fits the transformed values: the log version is used,
    its trend is moved back below zero. *)
Definition picky_STL (data : list Qc) (np : nat) : res comps :=
  if forallb (fun x => Q2Qc 100 <=? x)%Qc data
  then Ok (mkComps (map (fun _ => 0%Qc) data) data (map (fun _ => 0%Qc) data))
  else flat_STL data np.
Lemma picky_additive : additive picky_STL.
Proof.
  intros data np c H. unfold picky_STL in H. destruct (forallb _ data); [|eapply flat_additive; eauto].
  inversion H; subst. unfold adds_up; cbn. rewrite !map_length. repeat split; auto.
  intros i Hi. rewrite !(nth_map0 (fun _ => 0%Qc)) by auto. ring.
Qed.
Definition below_zero : list Qc := map (fun i => if i mod 2 =? 0 then (- Q2Qc 2)%Qc else (- Q2Qc 3)%Qc) (range 9).
Example C89_log_example :
  additive picky_STL /\
  match decomposition picky_STL (fun x => x - Q2Qc 100)%Qc (fun x => x + Q2Qc 100)%Qc half_std false below_zero 4 with
  | Ok d => map this (c_trend d) = map this below_zero
  | Err _ => False
  end /\
  error_over (Q2Qc (1 # 10)) below_zero below_zero.
Proof.
  split; [apply picky_additive|]. split; [vm_compute; reflexivity|]. apply mape_above; [reflexivity|]. vm_compute. reflexivity.
Qed.
