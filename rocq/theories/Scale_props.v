(** C100: the whole univariate detector on a series measured in another scale. *)
From Coq Require Import String List Arith ZArith QArith Qcanon Qround Lia Lqa Bool Sorted Permutation.
From Verif Require Import Base Num Sorting Kernel_model Kernel_spec Kernel_proofs FillUp_model FillUp_spec FillUp_proofs FillUp_props Helpers_model Margins_model SR_model Detect_model
  Detect_spec Detect_proofs Detect_proofs7 Detect_props Period_model Period_spec Period_proofs3 Period_props Trend_model Trend_spec Trend_props Stl_model Stl_spec Stl_proofs Stl_props
  Pipe_model Pipe_spec Pipe_proofs Pipe_proofs2 Pipe_proofs3 Pipe_props Const_spec Const_props Units_spec Units_proofs Units_proofs2 Units_props Scale_spec Scale_proofs Limit_proofs.
Import ListNotations.
Open Scope nat_scope.

Section Scale.
Variable L : libs.
Hypothesis OK : libs_ok L.
Hypothesis ST : steady L.
Hypothesis CP : forall alpha n m c, (0 < alpha)%Qc -> (alpha <= 1)%Qc -> 2 * m + 2 <= n ->
  In c (get_critical (l_ppf L) (l_sqrt L) (l_table L) alpha n m) -> (0 <= c)%Qc.
Notation entire := (predict_entire (l_cst L) (l_std L) (l_ppf L) (l_sqrt L) (l_table L) (l_sort L) (l_sort_desc L) (whole_trend L)
    (decompose (l_stl L) (l_exp L) (l_log L) (l_std L)) (l_transform L) (l_stationary L) (l_spline L)).
Notation latest := (predict_last (l_cst L) (l_std L) (l_ppf L) (l_sqrt L) (l_table L) (l_sort L) (l_sort_desc L) (whole_trend L)
    (decompose (l_stl L) (l_exp L) (l_log L) (l_std L)) (l_transform L) (l_stationary L) (l_spline L)).

(** C100. Metres or kilometres, for the whole detector: filter, decomposition,
    period search, choice of the detector and outlier test. With libraries that
    only know relative sizes it fails the same way or finds the same period,
    chooses the same detector and flags the same points; expected values and
    trend scale. Exceptions are named: deviations and spreads that cross 1e-8,
    and seasonal series so badly explained that logarithms are tried. *)
Theorem C100_whole_detector : forall k ix a d period lm, (0 < k)%Qc -> libs_in_scale k L ->
  make_fup (Some ix) (map Some (a_values a)) default_maxlen = Ok (a_fup a) -> 4 <= length ix ->
  (0 < a_alpha a)%Qc -> (a_alpha a <= 1)%Qc ->
  (forall s p, analysed (l_spline L) a s -> 1 < p -> (match period with Some q => p = q | None => True end) -> explained L s p) ->
  (fine_grained a = true -> forall s, analysed (l_spline L) a s -> same_side k (mad s / l_cst L)%Qc) ->
  answers_alike (same_answer_rows k 0 (a_need_trend a)) (whole_detect L a d period lm) (whole_detect L (args_in_unit k 0 a) d period lm).
Proof.
  intros k ix a d period lm K SL HF L4 AL AU EX FG. assert (NE : ix <> []) by (destruct ix; [simpl in L4; lia|discriminate]).
  unfold whole_detect. cbn [a_gran a_interval args_in_unit].
  apply C99_rows_in_other_scale with (ix := ix); auto; try apply SL.
  - apply (ok_sort L OK).
  - apply trend_scale; auto.
  - intros s p A P Q. apply parts_scale; auto.
  - intros l. apply period_scale; auto.
  - apply (whole_knots L OK); auto.
Qed.

(** C100. The answers of the detector with V1 margins, to all points ... *)
Theorem C100_entire_answer : forall T k ix a d period sens (ts : list T), (0 < k)%Qc -> libs_in_scale k L ->
  make_fup (Some ix) (map Some (a_values a)) default_maxlen = Ok (a_fup a) -> 4 <= length ix ->
  (0 < a_alpha a)%Qc -> (a_alpha a <= 1)%Qc ->
  (forall s p, analysed (l_spline L) a s -> 1 < p -> (match period with Some q => p = q | None => True end) -> explained L s p) ->
  (fine_grained a = true -> forall s, analysed (l_spline L) a s -> same_side k (mad s / l_cst L)%Qc) ->
  answers_alike (fun x y => snd y = snd x /\ length (fst x) = length (a_values a) /\ length (fst y) = length (a_values a) /\
      forall i v t o t' o', nth_error (a_values a) i = Some v -> nth_error (fst x) i = Some (t, o) -> nth_error (fst y) i = Some (t', o') ->
        t' = t /\ rescaled k v o o')
    (entire (whole_period L (a_gran a) (a_interval a)) a d period true sens ts)
    (entire (whole_period L (a_gran a) (a_interval a)) (args_in_unit k 0 a) d period true sens ts).
Proof.
  intros T k ix a d period sens ts K SL HF L4 AL AU EX FG. assert (NE : ix <> []) by (destruct ix; [simpl in L4; lia|discriminate]).
  apply C99_entire_answer with (ix := ix); auto; try apply SL.
  - apply (ok_sort L OK).
  - apply trend_scale; auto.
  - intros s p A P Q. apply parts_scale; auto.
  - intros l. apply period_scale; auto.
  - apply (whole_knots L OK); auto.
Qed.
(** ... and to the last. *)
Theorem C100_latest_answer : forall T k ix a d period sens (ts : list T), (0 < k)%Qc -> libs_in_scale k L ->
  make_fup (Some ix) (map Some (a_values a)) default_maxlen = Ok (a_fup a) -> 4 <= length ix ->
  (0 < a_alpha a)%Qc -> (a_alpha a <= 1)%Qc ->
  (forall s p, analysed (l_spline L) a s -> 1 < p -> (match period with Some q => p = q | None => True end) -> explained L s p) ->
  (fine_grained a = true -> forall s, analysed (l_spline L) a s -> same_side k (mad s / l_cst L)%Qc) ->
  answers_alike (fun x y => let '(t, o, p, w) := x in let '(t', o', p', w') := y in
      t' = t /\ p' = p /\ w' = w /\ exists v, nth_error (a_values a) (length (a_values a) - 1) = Some v /\ rescaled k v o o')
    (latest (whole_period L (a_gran a) (a_interval a)) a d period true sens ts)
    (latest (whole_period L (a_gran a) (a_interval a)) (args_in_unit k 0 a) d period true sens ts).
Proof.
  intros T k ix a d period sens ts K SL HF L4 AL AU EX FG. assert (NE : ix <> []) by (destruct ix; [simpl in L4; lia|discriminate]).
  apply C99_latest_answer with (ix := ix); auto; try apply SL.
  - apply (ok_sort L OK).
  - apply trend_scale; auto.
  - intros s p A P Q. apply parts_scale; auto.
  - intros l. apply period_scale; auto.
  - apply (whole_knots L OK); auto.
Qed.
End Scale.
(** C floats have a largest value, so a series can be answered in kilometres and
    not in metres (C90_large_values_refuted); but two answers always correspond. *)
Lemma unlimited_ok : forall L, libs_ok L -> libs_ok (unlimited L).
Proof. intros L H. destruct H. constructor; auto. discriminate. Qed.
Lemma unlimited_steady : forall L, steady L -> steady (unlimited L).
Proof. intros L H. destruct H. constructor; auto. Qed.
Theorem C100_answers_correspond : forall L k ix a d period lm r r', libs_ok L -> steady L ->
  (forall alpha n m c, (0 < alpha)%Qc -> (alpha <= 1)%Qc -> 2 * m + 2 <= n ->
    In c (get_critical (l_ppf L) (l_sqrt L) (l_table L) alpha n m) -> (0 <= c)%Qc) ->
  (0 < k)%Qc -> libs_in_scale k (unlimited L) ->
  make_fup (Some ix) (map Some (a_values a)) default_maxlen = Ok (a_fup a) -> 4 <= length ix ->
  (0 < a_alpha a)%Qc -> (a_alpha a <= 1)%Qc ->
  (forall s p, analysed (l_spline L) a s -> 1 < p -> (match period with Some q => p = q | None => True end) -> explained L s p) ->
  (fine_grained a = true -> forall s, analysed (l_spline L) a s -> same_side k (mad s / l_cst L)%Qc) ->
  whole_detect L a d period lm = Ok r -> whole_detect L (args_in_unit k 0 a) d period lm = Ok r' ->
  same_answer_rows k 0 (a_need_trend a) r r'.
Proof.
  intros L k ix a d period lm r r' OK ST CP K SL HF L4 AL AU EX FG E E'.
  pose proof (C100_whole_detector (unlimited L) (unlimited_ok L OK) (unlimited_steady L ST) CP k ix a d period lm K SL HF L4 AL AU EX FG) as A.
  rewrite (whole_detect_lift L a d period lm r E), (whole_detect_lift L (args_in_unit k 0 a) d period lm r' E') in A. exact A.
Qed.
Print Assumptions C100_answers_correspond.
Print Assumptions C100_whole_detector.
Print Assumptions C100_entire_answer.
Print Assumptions C100_latest_answer.

(** * Libraries that only know relative sizes *)
Lemma qsum_le_const : forall c l, (forall x, In x l -> (x <= c)%Qc) -> (qsum l <= qn (length l) * c)%Qc.
Proof.
  intros c. induction l as [|x l IH]; intros H; cbn [qsum length]; [change (qn 0) with 0%Qc; qlra|].
  rewrite qn_S. pose proof (H x (or_introl eq_refl)). pose proof (IH (fun y I => H y (or_intror I))).
  replace ((1 + qn (length l)) * c)%Qc with (c + qn (length l) * c)%Qc by ring. qlra.
Qed.
Lemma qsum_ge_const : forall c l, (forall x, In x l -> (c <= x)%Qc) -> (qn (length l) * c <= qsum l)%Qc.
Proof.
  intros c. induction l as [|x l IH]; intros H; cbn [qsum length]; [change (qn 0) with 0%Qc; qlra|].
  rewrite qn_S. pose proof (H x (or_introl eq_refl)). pose proof (IH (fun y I => H y (or_intror I))).
  replace ((1 + qn (length l)) * c)%Qc with (c + qn (length l) * c)%Qc by ring. qlra.
Qed.
Lemma near_mean : forall l x, In x l -> ((x - qmean l) * (x - qmean l) <= range_std l * range_std l)%Qc.
Proof.
  intros l x I. assert (NE : l <> []) by (destruct l; [contradiction|discriminate]).
  assert (N : (0 < qn (length l))%Qc) by (apply qn_pos; destruct l; [congruence|simpl; lia]).
  assert (E : range_std l = (qmax_list l - qmin_list l)%Qc) by (destruct l; [congruence|reflexivity]). rewrite E.
  assert (M1 : (qmean l <= qmax_list l)%Qc).
  { unfold qmean. apply Qcdiv_le_iff; auto. rewrite Qcmult_comm. apply qsum_le_const. intros. apply qmax_list_ge; auto. }
  assert (M2 : (qmin_list l <= qmean l)%Qc).
  { destruct (Qclt_le_dec' (qmean l) (qmin_list l)) as [W|W]; auto. exfalso. unfold qmean in W. apply Qcdiv_lt_iff in W; auto.
    pose proof (qsum_ge_const (qmin_list l) l (fun x I => qmin_list_le l x I)) as Q. rewrite Qcmult_comm in Q. qlra. }
  pose proof (qmin_list_le l x I). pose proof (qmax_list_ge l x I).
  set (r := (qmax_list l - qmin_list l)%Qc). set (y := (x - qmean l)%Qc).
  assert (Y1 : (y <= r)%Qc) by (unfold y, r; qlra). assert (Y2 : (- r <= y)%Qc) by (unfold y, r; qlra).
  pose proof (Qcmul_nonneg (r - y) (r + y)%Qc ltac:(qlra) ltac:(qlra)) as P.
  replace ((r - y) * (r + y))%Qc with (r * r - y * y)%Qc in P by ring. qlra.
Qed.
Lemma range_nonneg : nonneg_std range_std.
Proof.
  intros [|x l]; [vm_compute; discriminate|]. unfold range_std. pose proof (qmin_list_le (x :: l) x (or_introl eq_refl)). pose proof (qmax_list_ge (x :: l) x (or_introl eq_refl)). qlra.
Qed.
Lemma range_squares : forall l, (qsum (map (fun x => (x - qmean l) * (x - qmean l)) l) <= qn (length l) * (range_std l * range_std l))%Qc.
Proof.
  intros l. pose proof (qsum_le_const (range_std l * range_std l)%Qc (map (fun x => ((x - qmean l) * (x - qmean l))%Qc) l)) as Q.
  rewrite map_length in Q. apply Q. intros y I. apply in_map_iff in I. destruct I as (x & <- & I). apply near_mean; auto.
Qed.
Lemma range_fair : fair_std range_std.
Proof.
  intros l NE. split; [apply range_nonneg|]. assert (N : (0 < qn (length l))%Qc) by (apply qn_pos; destruct l; [congruence|simpl; lia]).
  unfold variance. apply Qcdiv_le_iff; auto. pose proof (range_squares l) as Q. unfold qmean in Q at 1 2.
  set (r := (range_std l * range_std l)%Qc) in *. pose proof (Qcsqr_nonneg (range_std l)) as R0. fold r in R0.
  pose proof (Qcmul_nonneg (qn (length l)) r ltac:(apply Qclt_le_weak; auto) R0) as P.
  replace (Q2Qc (101 # 100) * r * qn (length l))%Qc with (Q2Qc (101 # 100) * (qn (length l) * r))%Qc by ring. qlra.
Qed.
Lemma range_rough : rough_std range_std.
Proof.
  intros l NE Z. assert (N : (0 < qn (length l))%Qc) by (apply qn_pos; destruct l; [congruence|simpl; lia]).
  assert (P : (0 < range_std l)%Qc).
  { pose proof (range_nonneg l). destruct (Qclt_le_dec' 0 (range_std l)); auto. exfalso. apply Z. qlra. }
  split; auto. pose proof (range_squares l) as Q. set (r := (range_std l * range_std l)%Qc) in *.
  pose proof (Qcmul_pos _ _ N (Qcmul_pos _ _ P P)) as W. fold r in W.
  replace (qn (length l) * (Q2Qc 9 * r))%Qc with (Q2Qc 9 * (qn (length l) * r))%Qc by ring. qlra.
Qed.

Definition mean_filter (s : list Qc) (_ : nat) : res (list Qc) := Ok (map (fun _ => qmean s) s).
Definition mean_STL (s : list Qc) (np : nat) : res comps :=
  Ok (mkComps (map (fun _ => 0%Qc) s) (map (fun _ => qmean s) s) (map (fun x => x - qmean s)%Qc s)).
Definition mean_libs : libs :=
  mkLibs ppf34 range_std (fun _ _ => 0%Qc) (fun x => x) ex_table sort_pairs (fun l => rev (sort_pairs l)) (fun l => map (fun _ => 1%Qc) l)
    (fun _ => true) ex_lookup (fun x => x) None rnd0 acf0 (fun _ _ => None) ex_id ex_id ex_id mean_filter mean_STL (fun x => x) (fun x => x).
Lemma mean_filter_on : forall dom, filter_on dom mean_filter.
Proof. intros dom s w _. eexists. split; [reflexivity|apply map_length]. Qed.
Lemma mean_libs_ok : libs_ok mean_libs.
Proof.
  constructor; cbn [mean_libs l_sort l_std l_transform l_spline l_acf l_peaks l_top l_r32 l_aglet l_mean_filter l_line_filter l_spline_filter l_stl]; try apply ex_id_on; try apply mean_filter_on.
  - apply sort_pairs_ok.
  - apply range_fair.
  - apply range_nonneg.
  - apply range_rough.
  - intros l. apply map_length.
  - intros [|x l] m E; inversion E; subst. split; [vm_compute; discriminate|right; vm_compute; reflexivity].
  - apply lookup_through.
  - apply acf0_answers.
  - discriminate.
  - discriminate.
  - intros x. pose proof (Qcabs_nonneg x). qlra.
  - intros s w t B _ H E. inversion E; subst t. intros x I. pose proof (H x I). pose proof (Qcabs_nonneg x). assert (K : (1 <= qz 2048)%Qc) by (vm_compute; discriminate). qnra.
  - intros data np d H. inversion H; subst. unfold adds_up; cbn. rewrite !map_length. repeat split; auto.
    intros i Hi. rewrite !(nth_map0 (fun _ => 0%Qc)), !(nth_map0 (fun _ => qmean data)), !(nth_map0 (fun x => x - qmean data)%Qc) by auto. ring.
  - intros data np _ _. unfold mean_STL. eauto.
Qed.
Lemma mean_steady : steady mean_libs.
Proof.
  assert (M : forall c s, all_eq c s -> forall x, In x s -> qmean s = c).
  { intros c s H x I. apply Period_proofs6.qmean_same; auto. destruct s; [contradiction|discriminate]. }
  constructor.
  - intros c s w t H E; inversion E; subst; auto.
  - intros c s w t H E; inversion E; subst. intros y I. apply in_map_iff in I. destruct I as (x & <- & I). eapply M; eauto.
  - intros c s np d H E. inversion E; subst. cbn. repeat split; auto; intros y I; apply in_map_iff in I; destruct I as (x & <- & I); auto.
    + eapply M; eauto.
    + rewrite (M c s H x I), (H x I). ring.
Qed.
Lemma mean_in_scale : forall k, (0 < k)%Qc -> libs_in_scale k mean_libs.
Proof.
  intros k K. assert (MU : forall s, s <> [] -> qmean (in_unit k 0 s) = (k * qmean s + 0)%Qc) by (intros; apply qmean_unit; auto).
  constructor; cbn [mean_libs l_std l_transform l_stationary l_spline l_top l_r32 l_peaks l_aglet l_spline_filter l_stl]; auto.
  - intros idx vals x _. unfold ex_lookup. revert vals. induction idx as [|i idx IH]; intros [|v vals]; cbn [in_unit map combine find fst]; try ring.
    destruct (i =? x); cbn [snd]; auto. apply IH.
  - apply range_std_unit; auto.
  - intros s. unfold in_unit. rewrite map_map. auto.
  - intros s. auto.
  - intros s w. simpl. auto.
  - intros s w. destruct s as [|x s]; [reflexivity|]. cbn [mean_filter answers_alike]. rewrite MU by discriminate.
    unfold in_unit. rewrite !map_map. auto.
  - intros s w. destruct s as [|x s]; [repeat split|]. cbn [mean_STL answers_alike]. rewrite MU by discriminate.
    unfold comps_in_scale; cbn [c_seasonal c_trend c_remainder]. unfold in_unit. rewrite !map_map. repeat split; auto.
    + apply map_ext. intros. ring.
    + apply map_ext. intros. ring.
Qed.

(** Twelve lengths in metres, and in millimetres. *)
Definition lengths : list Z := [200; 201; 200; 199; 200; 201; 240; 199; 200; 201; 200; 199]%Z.
Definition ask_mean (period : option nat) (a : args) := whole_detect mean_libs a (mkDet None None) period false.
Lemma lengths_args : let a := unit_args true lengths in
  make_fup (Some (map Z.of_nat (range 12))) (map Some (a_values a)) default_maxlen = Ok (a_fup a) /\
  4 <= length (map Z.of_nat (range 12)) /\ (0 < a_alpha a)%Qc /\ (a_alpha a <= 1)%Qc /\ fine_grained a = false /\
  forall s, analysed (l_spline mean_libs) a s -> s = map qz lengths.
Proof.
  cbv zeta. split; [vm_compute; reflexivity|]. repeat split; try (vm_compute; try reflexivity; try lia; discriminate).
  intros s [E|(p & tags & E)]; auto. exfalso. unfold fill_up_on_demand in E. 
  assert (W : f_need (a_fup (unit_args true lengths)) = false) by (vm_compute; reflexivity). change (a_mode (unit_args true lengths)) with FMLinear in E. cbv iota in E. unfold fill_up in E. rewrite W in E. discriminate E.
Qed.
Lemma lengths_explained : explained mean_libs (map qz lengths) 4.
Proof. intros [|] d E; vm_compute in E; inversion E; subst d; vm_compute; discriminate. Qed.
Example C100_example :
  (libs_ok mean_libs /\ steady mean_libs /\ libs_in_scale (qz 1000) mean_libs /\ explained mean_libs (map qz lengths) 4) /\
  (answers_alike (same_answer_rows (qz 1000) 0 true) (ask_mean (Some 4) (unit_args true lengths)) (ask_mean (Some 4) (args_in_unit (qz 1000) 0 (unit_args true lengths)))) /\
  (forall a, In a [unit_args true lengths; args_in_unit (qz 1000) 0 (unit_args true lengths)] -> forall p, In p [Some 4; Some 0; None] ->
     exists rows m, ask_mean p a = Ok (rows, match p with Some q => q | None => 0 end, m, false) /\ map r_anomaly rows = map (Nat.eqb 6) (range 12)).
Proof.
  assert (S : libs_in_scale (qz 1000) mean_libs) by (apply mean_in_scale; reflexivity).
  split; [|split].
  - split; [apply mean_libs_ok|]. split; [apply mean_steady|]. split; auto. apply lengths_explained.
  - destruct lengths_args as (A & B & C & D & E & F).
    apply (C100_whole_detector mean_libs mean_libs_ok mean_steady ex_critical_nonneg (qz 1000) (map Z.of_nat (range 12)) (unit_args true lengths) (mkDet None None) (Some 4) false eq_refl S A B C D).
    + intros s p G _ ->. rewrite (F s G). apply lengths_explained.
    + intros W. congruence.
  - intros a [<-|[<-|[]]] p [<-|[<-|[<-|[]]]]; eexists; eexists; (split; [vm_compute; reflexivity|vm_compute; reflexivity]).
Qed.
(** The same libraries with the limit of C floats: they meet the hypotheses, the
    answers in the two units correspond, and with a unit 10^42 times smaller
    there is no answer. *)
Definition limited : libs :=
  mkLibs ppf34 range_std (fun _ _ => 0%Qc) (fun x => x) ex_table sort_pairs (fun l => rev (sort_pairs l)) (fun l => map (fun _ => 1%Qc) l)
    (fun _ => true) ex_lookup (fun x => x) (Some (qz (2 ^ 128))) rnd0 acf0 (fun _ _ => None) ex_id ex_id ex_id mean_filter mean_STL (fun x => x) (fun x => x).
Definition ask_limited (period : option nat) (a : args) := whole_detect limited a (mkDet None None) period false.
Example C100_limit_example : (libs_ok limited /\ steady limited /\ libs_in_scale (qz 1000) (unlimited limited)) /\
  is_ok (ask_limited None (unit_args true lengths)) = true /\ is_ok (ask_limited None (args_in_unit (qz 1000) 0 (unit_args true lengths))) = true /\
  ask_limited None (args_in_unit (qz (10 ^ 42)) 0 (unit_args true lengths)) = Err Generic /\
  is_ok (ask_mean None (args_in_unit (qz (10 ^ 42)) 0 (unit_args true lengths))) = true.
Proof.
  split; [|vm_compute; auto]. split; [|split; [destruct mean_steady; constructor; auto|apply mean_in_scale; reflexivity]].
  destruct mean_libs_ok. constructor; auto. intros t X. inversion X. apply Qcle_refl.
Qed.
