(** Property C91: requests are answered. *)
From Coq Require Import String List Arith ZArith QArith Qcanon Qround Lia Lqa Bool Sorted.
From Verif Require Import Base Num Sorting Kernel_model Kernel_proofs FillUp_model FillUp_spec FillUp_proofs FillUp_proofs6 FillUp_props
  Helpers_model Margins_model SR_model SR_proofs2 Detect_model Detect_spec Detect_proofs Detect_proofs7 Detect_props
  Dates_model Request_model Request_spec Request_proofs Request_proofs2 Request_proofs3 Request_proofs4 Request_proofs6 Request_proofs8 Request_props
  Period_model Period_spec Period_props Trend_model Trend_spec Trend_props Stl_model Stl_spec Stl_props
  Pipe_model Pipe_spec Pipe_proofs Pipe_proofs2 Pipe_proofs3.
Import ListNotations.
Open Scope string_scope.
Open Scope nat_scope.

(** C91. The detector answers, with one row per point, every series of at least
    12 points whose period is usable. *)
Theorem C91_detector_answers : forall L ix a period lm, libs_ok L ->
  make_fup (Some ix) (map Some (a_values a)) default_maxlen = Ok (a_fup a) ->
  12 <= length ix -> (a_mode a = FMFixed -> f_need (a_fup a) = true -> a_fixed a <> None) ->
  (0 <= a_ratio a <= Q2Qc (49 # 100))%Qc ->
  match period with None => a_gran a <> Microsecond /\ any_period_usable ix (a_mode a) (a_ratio a)
                  | Some p => period_usable ix (a_mode a) (a_ratio a) p end ->
  modest_args a period ->
  exists rows p m b, whole_detect L a (mkDet None None) period lm = Ok (rows, p, m, b) /\ map r_value rows = a_values a /\
    length rows = length ix.
Proof.
  intros L ix a period lm OK HF L12 HX [R0 R4] HP HM.
  assert (NE : ix <> []) by (destruct ix; [simpl in L12; lia|discriminate]).
  destruct (make_fup_ok_inv _ _ _ _ NE HF) as ([W0|(LI & _)] & _); [congruence|]. rewrite map_length in LI.
  destruct (whole_total L OK ix a (mkDet None None) period lm HF L12 LI HX R0 R4 eq_refl HP HM) as ([[[rows p] m] b] & E).
  exists rows, p, m, b. split; [exact E|].
  assert (V : map r_value rows = a_values a).
  { unfold whole_detect in E. eapply C08_one_row_per_point; [exact HF|apply (whole_knots L OK ix a NE HF)|exact E]. }
  split; auto. rewrite LI, <- V, map_length. auto.
Qed.
Print Assumptions C91_detector_answers.

Lemma ratio_in_range : forall d r, decides parameter_rules d None -> reads_or "maxAnomalyRatio" d (Q2Qc (25 # 100)) is_number r ->
  (0 < r)%Qc /\ (r <= Q2Qc (49 # 100))%Qc.
Proof.
  intros d r D H. unfold parameter_rules in D.
  do 5 (apply decides_cons_none in D; destruct D as [_ D]). apply decides_cons_none in D. destruct D as [D _]. unfold bad in D.
  destruct H as [[_ ->]|(v & G & I)]; [split; vm_compute; [reflexivity|discriminate]|].
  destruct v as [| | |q| | | | | | | |]; try solve [exfalso; apply D; eexists; split; [exact G|intros (q & X & _); discriminate]].
  assert (q = r) by (inversion I as [v z J|]; auto; inversion J). subst q.
  destruct (Qclt_le_dec' 0 r) as [A|A]; [destruct (Qclt_le_dec' (Q2Qc (49 # 100)) r) as [B|B]|].
  - exfalso. apply D. eexists. split; [exact G|]. intros (q & X & _ & C). inversion X; subst q. qlra.
  - split; auto.
  - exfalso. apply D. eexists. split; [exact G|]. intros (q & X & C & _). inversion X; subst q. qlra.
Qed.
Lemma named_fixed : forall s, In (s, FMFixed) fill_values -> s = "fixed".
Proof. intros s I. simpl in I. repeat (destruct I as [I|I]; [inversion I; auto|]). contradiction. Qed.

Section Request.
Context {T : Type}.
Variable to_datetime : list T -> option (list stamp).
Hypothesis to_datetime_length : forall l st, to_datetime l = Some st -> length st = length l.
Variable majority : list Qc -> Qc.
Variable beyond : list (point T) -> settings -> res (reply T).
Variable L : libs.
Notation PRED := (predict T to_datetime majority (whole_detect L) beyond).

(** C91. A request that passes the documented checks and is answerable is
    answered: the detector's rows, one per submitted point, are presented. *)
Theorem C91_request_answered : forall o rows d mode, libs_ok L ->
  rows <> [] -> decides parameter_rules d None -> (forall s, reads d s -> micro_ok s) ->
  (forall s, reads d s -> good_series to_datetime (s_gran s) (s_interval s) (s_period s) (nofill_of d) rows) ->
  (forall dd, ~ Request_spec.given "detector" d (VDict dd)) -> o__error o = None -> mode_for o d = Some mode ->
  (forall s l vs, reads d s -> accepted_indices to_datetime (s_gran s) (s_interval s) rows l -> length vs = length rows ->
     well_formed_points l (map Some vs)) ->
  (forall l a per, asked majority d rows l a per -> accepted_indices to_datetime (a_gran a) (option_map Z.of_nat (a_interval a)) rows l ->
     answerable d l a per) ->
  exists l a per z out p m y, asked majority d rows l a per /\ reads_or "sensitivity" d 99%Z is_int z /\
    map r_value out = a_values a /\
    result (PRED o (DFrame rows) (Some d)) = Ok y /\ presents mode (negb (a_need_trend a)) z rows out p m y.
Proof.
  intros o rows d mode OK NE H M G ND HE HM HW HA.
  destruct (C81_detector_arguments to_datetime to_datetime_length majority beyond o rows d mode NE H M G ND HE HM HW) as (l & a & per & z & A & AI & RZ & K).
  specialize (K (whole_detect L)). cbv zeta in K. destruct K as [_ K].
  destruct (HA l a per A AI) as (FX & MO & PU). pose proof (asked_process _ _ _ _ _ _ A) as HF.
  pose proof (ratio_in_range d _ H (asked_ratio _ _ _ _ _ _ A)) as [R0 R4].
  assert (LR : length (a_values a) = length rows) by (symmetry; apply (Forall2_length _ _ _ _ _ (asked_values _ _ _ _ _ _ A))).
  assert (RD : exists s, reads d s) by (destruct (params_accepted d H) as (s & e & _ & R & _); eauto). destruct RD as (s & RS).
  destruct (G s RS) as (L12 & _).
  assert (LL : length l = length rows).
  { destruct AI as [[_ ->]|(_ & X & _)]; auto. rewrite map_length, seq_length. auto. }
  assert (NL : l <> []) by (destruct l; [simpl in LL; lia|discriminate]).
  destruct (C91_detector_answers L l a per (match mode with VMode LATEST => true | _ => false end) OK HF) as (out & p & m & b & E & V & LO); auto; try lia.
  - intros EM HN EX. destruct (make_fup_ok_inv _ _ _ _ NL HF) as (_ & _ & _ & EA & EMs & EN & _). apply EN in HN.
    assert (GI : Request_spec.given "imputeMode" d (VStr "fixed")).
    { pose proof (asked_fill _ _ _ _ _ _ A) as F. rewrite EM, EX in F. destruct F as [(n & Gn & D)|[(NI & n & Gn & I & D)|(_ & _ & X & _)]]; [| |discriminate].
      - destruct D as [(_ & _ & X)|(_ & I & _)]; [discriminate|]. apply named_fixed in I. subst n. auto.
      - apply named_fixed in I. subst n. destruct D as [(_ & v & q & _ & _ & X)|(X & _)]; [discriminate|congruence]. }
    specialize (FX GI). unfold default_maxlen in HN. lia.
  - split; [apply Qclt_le_weak|]; auto.
  - destruct (K out p m b E ltac:(lia)) as (y & Y & P). exists l, a, per, z, out, p, m, y. auto 6.
Qed.

(** A request without granularity: its points are at consecutive positions. *)
Lemma no_granularity : forall d s, get "granularity" d = None \/ Request_spec.given "granularity" d (VStr "none") -> reads d s -> s_gran s = GNone.
Proof.
  intros d s G R. destruct (reads_granularity d s R) as [[_ E]|(v & E & n & -> & I)]; auto. unfold Request_spec.given in *.
  destruct G as [G|G]; rewrite E in G; [discriminate|inversion G; subst n]. simpl in I. repeat (destruct I as [I|I]; [inversion I; auto|]). contradiction.
Qed.
Lemma positions_last : forall n, 0 < n -> (last (map Z.of_nat (List.seq 0 n)) 0 + 1 = Z.of_nat n)%Z.
Proof.
  intros [|n] H; [lia|]. rewrite seq_S, map_app. cbn [map]. rewrite last_last. lia.
Qed.
Lemma good_rows : forall rows : list (point T), 12 <= length rows -> (Z.of_nat (length rows) <= 8640)%Z ->
  (forall x, In x rows -> exists q, w_value x = Num (Request_model.Fin q) /\ (- value_bound <= q <= value_bound)%Qc) ->
  forall c p b, good_series to_datetime GNone c p b rows.
Proof.
  intros rows A B C c p b. split; auto. split; auto. split; [|congruence]. intros x I. destruct (C x I) as (q & E & F & G). eauto.
Qed.

Lemma asked_none : forall d rows l a per, get "granularity" d = None \/ Request_spec.given "granularity" d (VStr "none") ->
  asked (T := T) majority d rows l a per -> a_gran a = GNone.
Proof.
  intros d rows l a per HG A. destruct (asked_granularity _ _ _ _ _ _ A) as [[_ E]|(v & E & n & -> & I)]; auto. unfold Request_spec.given in *.
  destruct HG as [G|G]; rewrite E in G; [discriminate|inversion G; subst n]. simpl in I. repeat (destruct I as [I|I]; [inversion I; auto|]). contradiction.
Qed.
Lemma asked_quarter : forall d rows l a per, decides parameter_rules d None ->
  (forall q, Request_spec.given "maxAnomalyRatio" d (VFloat q) -> (q <= Q2Qc (1 # 4))%Qc) ->
  asked (T := T) majority d rows l a per -> (a_ratio a <= Q2Qc (1 # 4))%Qc.
Proof.
  intros d rows l a per H HR A. destruct (asked_ratio _ _ _ _ _ _ A) as [[_ ->]|(v & E & I)]; [vm_compute; discriminate|].
  inversion I as [v' z' J|q]; subst; [|auto].
  exfalso. unfold parameter_rules in H. do 5 (apply decides_cons_none in H; destruct H as [_ H]).
  apply decides_cons_none in H. destruct H as [H _]. apply H. exists v. split; auto. intros (q & -> & _). inversion J.
Qed.

Lemma no_gaps : forall n vs f, 0 < n -> make_fup (Some (map Z.of_nat (List.seq 0 n))) vs default_maxlen = Ok f ->
  f_need f = false /\ f_missing f = 0%Z.
Proof.
  intros n vs f Hn HF. assert (NE : map Z.of_nat (List.seq 0 n) <> []) by (destruct n; [lia|discriminate]).
  destruct (C01_counts _ _ _ _ NE HF) as (EA & EM & EN). rewrite positions_last in EA by auto. rewrite map_length, seq_length in EM.
  assert (f_missing f = 0%Z) by lia. split; auto. destruct (f_need f) eqn:E; auto. assert (true = true) as X by auto. apply EN in X. lia.
Qed.
Lemma modest_rows : forall rows : list (point T),
  (forall x, In x rows -> exists q, w_value x = Num (Request_model.Fin q) /\ (- qz (10 ^ 34) <= q <= qz (10 ^ 34))%Qc) ->
  forall x, In x rows -> exists q, w_value x = Num (Request_model.Fin q) /\ (- value_bound <= q <= value_bound)%Qc.
Proof.
  intros rows H x I. destruct (H x I) as (q & E & A & B). exists q. split; auto.
  assert (V : (qz (10 ^ 34) <= value_bound)%Qc) by (vm_compute; discriminate). split; qlra.
Qed.
Lemma asked_modest : forall d rows l a per,
  (forall x, In x rows -> exists q, w_value x = Num (Request_model.Fin q) /\ (- qz (10 ^ 34) <= q <= qz (10 ^ 34))%Qc) ->
  asked (T := T) majority d rows l a per -> modest (a_values a).
Proof.
  intros d rows l a per H A. pose proof (asked_values _ _ _ _ _ _ A) as V. intros x I.
  clear A. induction V as [|y v r vs E V IH]; [destruct I|]. destruct I as [<-|I]; [|apply IH; auto; intros z Iz; apply H; right; auto].
  destruct (H y (or_introl eq_refl)) as (q & E2 & A & B). rewrite E in E2. inversion E2; subst q. revert A B. unfold Qcabs. destruct (0 <=? v)%Qc; intros; qlra.
Qed.

(** C91. Twelve to 8640 numbers of size up to 10^34 without granularity, period,
    detector or larger ratio are always answered. *)
Theorem C91_plain_request : forall o rows d mode, libs_ok L ->
  12 <= length rows -> (Z.of_nat (length rows) <= 8640)%Z ->
  (forall x, In x rows -> exists q, w_value x = Num (Request_model.Fin q) /\ (- qz (10 ^ 34) <= q <= qz (10 ^ 34))%Qc) ->
  decides parameter_rules d None -> get "granularity" d = None \/ Request_spec.given "granularity" d (VStr "none") ->
  get "period" d = None -> (forall q, Request_spec.given "maxAnomalyRatio" d (VFloat q) -> (q <= Q2Qc (1 # 4))%Qc) ->
  (forall dd, ~ Request_spec.given "detector" d (VDict dd)) -> o__error o = None -> mode_for o d = Some mode ->
  exists y, result (PRED o (DFrame rows) (Some d)) = Ok y.
Proof.
  intros o rows d mode OK L12 LM FM H HG HP HR ND HE HM. pose proof (modest_rows rows FM) as FV.
  assert (NE : rows <> []) by (destruct rows; [simpl in L12; lia|discriminate]).
  destruct (C91_request_answered o rows d mode OK NE H) as (l & a & per & z & out & p & m & y & _ & _ & _ & Y & _); eauto.
  - intros s R X. rewrite (no_granularity d s HG R) in X. discriminate.
  - intros s R. rewrite (no_granularity d s HG R). apply good_rows; auto.
  - intros s l vs R AI LV. apply (C82_usable_indices to_datetime to_datetime_length rows GNone (s_interval s) None false l vs); auto.
    + apply good_rows; auto.
    + rewrite (no_granularity d s HG R) in AI. auto.
  - intros l a per A AI. 
    pose proof (asked_none d rows l a per HG A) as EG.
    rewrite EG in AI. destruct AI as [[_ ->]|(X & _)]; [|congruence].
    assert (EP : per = None) by (destruct (asked_period _ _ _ _ _ _ A) as [[_ E]|(v & E & _)]; [auto|unfold Request_spec.given in E; congruence]).
    subst per. split; [|split].
    + intros _. left. rewrite positions_last, map_length, seq_length; lia.
    + right. split; [apply (asked_modest d rows _ a _ FM A)|]. intros q X. destruct (no_gaps (length rows) _ _ ltac:(lia) (asked_process _ _ _ _ _ _ A)). congruence.
    + rewrite EG. split; [discriminate|]. left. apply (asked_quarter d rows _ a _ H HR A).
Qed.
(** C91 REFUTED for every accepted period: without granularity a period of at
    least half the points passes the checks, and the request fails with a
    ValueError. *)
Lemma too_long_fails : forall a p lm, f_need (a_fup a) = false -> f_missing (a_fup a) = 0%Z -> 0 < length (a_values a) ->
  1 < p -> length (a_values a) <= 2 * p -> whole_detect L a (mkDet None None) (Some p) lm = Err ValueErr.
Proof.
  intros a p lm HN HM L0 H1 H2. unfold whole_detect, detect_model.
  cbn [should_trigger_model_selection d_name d_params]. unfold detect_with_model_selection. cbv zeta. rewrite bind_ok.
  assert (EI : (Q2Qc (1 # 2) <? missing_ratio (a_fup a))%Qc = false).
  { apply Qcltb_ge. unfold missing_ratio. rewrite HM. destruct (f_indices (a_fup a)); [vm_compute; discriminate|].
    unfold Qcdiv. change (qz 0) with 0%Qc. rewrite Qcmult_0_l. vm_compute. discriminate. }
  rewrite EI, andb_false_r. rewrite (proj2 (Nat.ltb_lt 1 p) H1). cbn [orb].
  assert (EF : fill_up_on_demand (l_spline L) (a_fup a) (a_mode a) (a_fixed a) (Some (Z.of_nat p)) = Ok None).
  { unfold fill_up_on_demand, fill_up. rewrite HN. cbn [negb]. destruct (a_mode a); reflexivity. }
  rewrite EF, bind_ok, bind_ok. unfold seasonal_series_detection. cbv zeta.
  match goal with |- context [if ?c then Err ValueErr else _] => destruct c; [reflexivity|] end.
  destruct (length (a_values a) =? 0) eqn:E0; [apply Nat.eqb_eq in E0; lia|].
  assert (E1 : (length (a_values a) <? p * 2 + 1) = true) by (apply Nat.ltb_lt; lia). rewrite E1. reflexivity.
Qed.
Theorem C91_long_period_fails : forall o rows d mode v p,
  12 <= length rows -> (Z.of_nat (length rows) <= 8640)%Z ->
  (forall x, In x rows -> exists q, w_value x = Num (Request_model.Fin q) /\ (- value_bound <= q <= value_bound)%Qc) ->
  decides parameter_rules d None -> get "granularity" d = None \/ Request_spec.given "granularity" d (VStr "none") ->
  Request_spec.given "period" d v -> is_int v (Z.of_nat p) -> 1 < p -> length rows <= 2 * p ->
  (forall dd, ~ Request_spec.given "detector" d (VDict dd)) -> o__error o = None -> mode_for o d = Some mode ->
  result (PRED o (DFrame rows) (Some d)) = Err ValueErr.
Proof.
  intros o rows d mode v p L12 LM FV H HG HP IP P1 PL ND HE HM.
  assert (NE : rows <> []) by (destruct rows; [simpl in L12; lia|discriminate]).
  destruct (C81_detector_arguments to_datetime to_datetime_length majority beyond o rows d mode NE H) as (l & a & per & z & A & AI & _ & K); auto.
  - intros s R X. rewrite (no_granularity d s HG R) in X. discriminate.
  - intros s R. rewrite (no_granularity d s HG R). apply good_rows; auto.
  - intros s l vs R AI LV. apply (C82_usable_indices to_datetime to_datetime_length rows GNone (s_interval s) None false l vs); auto.
    + apply good_rows; auto.
    + rewrite (no_granularity d s HG R) in AI. auto.
  - destruct (K (whole_detect L)) as [KE _]. apply KE.
    rewrite (asked_none d rows l a per HG A) in AI. destruct AI as [[_ ->]|(X & _)]; [|congruence].
    assert (LR : length (a_values a) = length rows) by (symmetry; apply (Forall2_length _ _ _ _ _ (asked_values _ _ _ _ _ _ A))).
    destruct (no_gaps (length rows) _ _ ltac:(lia) (asked_process _ _ _ _ _ _ A)) as [HN H0].
    destruct (asked_period _ _ _ _ _ _ A) as [[E _]|(v' & E & n & I & ->)]; unfold Request_spec.given in *; [congruence|].
    rewrite HP in E. inversion E; subst v'. apply as_int_spec in IP, I. rewrite IP in I. inversion I as [X]. apply Nat2Z.inj in X. subst n.
    apply too_long_fails; auto; lia.
Qed.
(** C91. Without granularity and with at most the default ratio, a request with
    a period is answered exactly if the period is 0 or 1 (and the values are of
    size up to 10^34) or fits twice. *)
Theorem C91_given_period : forall o rows d mode v p, libs_ok L ->
  12 <= length rows -> (Z.of_nat (length rows) <= 8640)%Z ->
  (forall x, In x rows -> exists q, w_value x = Num (Request_model.Fin q) /\ (- value_bound <= q <= value_bound)%Qc) ->
  decides parameter_rules d None -> get "granularity" d = None \/ Request_spec.given "granularity" d (VStr "none") ->
  (forall q, Request_spec.given "maxAnomalyRatio" d (VFloat q) -> (q <= Q2Qc (1 # 4))%Qc) ->
  Request_spec.given "period" d v -> is_int v (Z.of_nat p) ->
  (forall dd, ~ Request_spec.given "detector" d (VDict dd)) -> o__error o = None -> mode_for o d = Some mode ->
  (p <= 1 -> forall x, In x rows -> exists q, w_value x = Num (Request_model.Fin q) /\ (- qz (10 ^ 34) <= q <= qz (10 ^ 34))%Qc) ->
  (exists y, result (PRED o (DFrame rows) (Some d)) = Ok y) <-> p <= 1 \/ 2 * p < length rows.
Proof.
  intros o rows d mode v p OK L12 LM FV H HG HR HP IP ND HE HM FM. split.
  - intros (y & Y). destruct (le_lt_dec p 1) as [A|A]; [auto|]. destruct (le_lt_dec (length rows) (2 * p)) as [B|B]; [|auto].
    rewrite (C91_long_period_fails o rows d mode v p) in Y; auto. discriminate.
  - intros HF. destruct (C91_request_answered o rows d mode OK) as (l & a & per & z & out & q & m & y & _ & _ & _ & Y & _); eauto.
    + destruct rows; [simpl in L12; lia|discriminate].
    + intros s R X. rewrite (no_granularity d s HG R) in X. discriminate.
    + intros s R. rewrite (no_granularity d s HG R). apply good_rows; auto.
    + intros s l vs R AI LV. apply (C82_usable_indices to_datetime to_datetime_length rows GNone (s_interval s) None false l vs); auto.
      * apply good_rows; auto.
      * rewrite (no_granularity d s HG R) in AI. auto.
    + intros l a per A AI. rewrite (asked_none d rows l a per HG A) in AI. destruct AI as [[_ ->]|(X & _)]; [|congruence].
      assert (PL := positions_last (length rows) ltac:(lia)).
      destruct (asked_period _ _ _ _ _ _ A) as [[E _]|(v' & E & n & I & ->)]; unfold Request_spec.given in *; [congruence|].
      rewrite HP in E. inversion E; subst v'. apply as_int_spec in IP, I. rewrite IP in I. inversion I as [X]. apply Nat2Z.inj in X. subst n.
      split; [intros _; left; rewrite PL, map_length, seq_length; lia|]. split.
      { unfold modest_args. destruct (le_lt_dec p 1) as [P1|P1]; [right|left; eauto]. split; [apply (asked_modest d rows _ a _ (FM P1) A)|].
        intros q' X. destruct (no_gaps (length rows) _ _ ltac:(lia) (asked_process _ _ _ _ _ _ A)). congruence. }
      destruct HF as [HF|HF]; [left; auto|right].
      rewrite PL, map_length, seq_length. split; [lia|]. unfold detection_length. rewrite PL, map_length, seq_length.
      split; [destruct (_ && _); lia|]. left. apply (asked_quarter d rows _ a _ H HR A).
Qed.
End Request.
Print Assumptions C91_request_answered.
Print Assumptions C91_plain_request.
Print Assumptions C91_long_period_fails.
Print Assumptions C91_given_period.

(** * Concrete libraries and requests *)
(** The last twenty entries of the package's table
    (/repo/src/anomaly_detector/univariate/util/critical_table_values.py:1), to
    three decimals; filters that keep the series; no trend, no season, nothing
    periodic. *)
Definition ex_critical : list Qc := map (fun z => (qz z / qz 1000)%Qc)
  [2557; 2531; 2504; 2475; 2443; 2409; 2372; 2331; 2285; 2234; 2176; 2110; 2032; 1938; 1822; 1671; 1462; 1153; 0; 0]%Z.
Definition ex_lookup (idx : list nat) (vals : list Qc) (q : nat) : Qc :=
  match find (fun p => fst p =? q) (combine idx vals) with Some p => snd p | None => 0%Qc end.
Definition ex_libs : libs :=
  mkLibs ppf34 half_std (fun _ _ => 1%Qc) (fun x => x) ex_critical sort_pairs (fun l => rev (sort_pairs l)) (fun l => map (fun _ => 1%Qc) l)
    (fun _ => true) ex_lookup (fun x => x) (Some (qz (2 ^ 128))) rnd0 acf0 (fun _ _ => None) ex_id ex_id ex_id ex_id flat_STL (fun x => x) (fun x => x).
Lemma half_std_fair : fair_std half_std.
Proof.
  intros l Hl. split; [apply half_std_nonneg|]. unfold half_std, variance, qmean. rewrite map_length.
  set (v := (qsum (map (fun x => (x - qsum l / qn (length l)) * (x - qsum l / qn (length l)))%Qc l) / qn (length l))%Qc).
  cbv zeta. destruct (v =? 0)%Qc eqn:E; [apply Qceqb_eq in E; rewrite E; vm_compute; discriminate|].
  assert (E2 : ((1 + v) / Q2Qc 2 * ((1 + v) / Q2Qc 2) = v + (1 - v) * (1 - v) * Q2Qc (1 # 4))%Qc).
  { assert (D : forall x, (x / Q2Qc 2 = x * Q2Qc (1 # 2))%Qc) by (intros; unfold Qcdiv; f_equal; apply Qc_is_canon; reflexivity).
    rewrite !D. replace (Q2Qc (1 # 4)) with (Q2Qc (1 # 2) * Q2Qc (1 # 2))%Qc by (apply Qc_is_canon; reflexivity).
    transitivity (v * (Q2Qc 4 * Q2Qc (1 # 2) * Q2Qc (1 # 2)) + (1 - v) * (1 - v) * (Q2Qc (1 # 2) * Q2Qc (1 # 2)))%Qc.
    - replace (Q2Qc 4) with (1 + 1 + 1 + 1)%Qc by (apply Qc_is_canon; reflexivity). ring.
    - replace (Q2Qc 4 * Q2Qc (1 # 2) * Q2Qc (1 # 2))%Qc with 1%Qc by (apply Qc_is_canon; reflexivity). ring. }
  rewrite E2. pose proof (Qcsqr_nonneg (1 - v)%Qc) as Q.
  assert (0 <= v)%Qc.
  { unfold v. apply Qcdiv_nonneg; [apply sq_list_nonneg|]. apply qn_pos. destruct l; [congruence|simpl; lia]. }
  qlra.
Qed.
Lemma lookup_through : forall idx vals q v, StronglySorted lt idx -> observed idx vals q v -> ex_lookup idx vals q = v.
Proof.
  intros idx vals q v H (k & A & B). unfold ex_lookup. revert vals k A B. induction H as [|i idx HS IH F]; intros vals k A B; [destruct k; discriminate|].
  destruct vals as [|w vals]; [destruct k; discriminate|]. cbn [combine find fst]. destruct k as [|k]; simpl in A, B.
  - inversion A; inversion B; subst. rewrite Nat.eqb_refl. auto.
  - destruct (i =? q) eqn:E; [|eapply IH; eauto]. apply Nat.eqb_eq in E. subst i. rewrite Forall_forall in F.
    apply nth_error_In in A. apply F in A. lia.
Qed.
Lemma ex_libs_ok : libs_ok ex_libs.
Proof.
  constructor; cbn [ex_libs l_sort l_std l_transform l_spline l_acf l_peaks l_top l_r32 l_aglet l_mean_filter l_line_filter l_spline_filter l_stl]; try apply ex_id_on.
  - apply sort_pairs_ok.
  - apply half_std_fair.
  - apply half_std_nonneg.
  - apply half_std_rough.
  - intros l. apply map_length.
  - intros [|x l] m E; inversion E; subst. split; [vm_compute; discriminate|right; vm_compute; reflexivity].
  - apply lookup_through.
  - apply acf0_answers.
  - discriminate.
  - intros t X. inversion X. apply Qcle_refl.
  - intros x. pose proof (Qcabs_nonneg x). qlra.
  - intros s w t B _ H E. inversion E; subst t. intros x I. pose proof (H x I). pose proof (Qcabs_nonneg x). assert (K : (1 <= qz 2048)%Qc) by (vm_compute; discriminate). qnra.
  - apply flat_additive.
  - apply flat_answers.
Qed.

Definition numbers (l : list Z) : list (point stamp) := map (fun z => mkPoint None (Num (Request_model.Fin (qz z)))) l.
Definition ask_whole := predict stamp parsed (fun _ => 0%Qc) (whole_detect ex_libs) (fun _ _ => Err Generic).
Definition entire : dict := [("detect_mode", VMode ENTIRE)].
(** Nine values near 1000, nine near -1000, two in between among the last four. *)
Definition two_levels : list (point stamp) :=
  numbers [1001; -1001; 1002; -1002; 1003; -1003; 1004; -1004; 1005; -1005; 1006; -1006; 1007; -1007; 1008; -1008; 0; 1; 1009; -1009]%Z.
Definition half_all : dict := ("maxAnomalyRatio", VFloat (Q2Qc (49 # 100))) :: ("period", VInt 8) :: entire.
Definition quarter_all : dict := ("period", VInt 8) :: entire.

Lemma two_levels_good : 12 <= length two_levels /\ (Z.of_nat (length two_levels) <= 8640)%Z /\
  forall x, In x two_levels -> exists q, w_value x = Num (Request_model.Fin q) /\ (- value_bound <= q <= value_bound)%Qc.
Proof.
  split; [simpl; lia|]. split; [simpl; lia|]. intros x I. unfold two_levels, numbers in I. apply in_map_iff in I. destruct I as (z & <- & I).
  exists (qz z). split; auto. assert (Z.abs z <= 1009)%Z by (simpl in I; repeat (destruct I as [<-|I]; [simpl; lia|]); contradiction).
  split; [apply Qcle_trans with (qz (-1009))|apply Qcle_trans with (qz 1009)]; try (apply (proj1 (qz_le _ _)); lia); vm_compute; discriminate.
Qed.

(** C91 REFUTED for every accepted ratio: 0.49 with a period of 8 in 20 points.
    All points but two are set aside as anomalies, the last half period is not
    trusted, nothing is left to interpolate: a ValueError. With the default
    ratio the same request is answered. *)
Theorem C91_any_ratio_refuted : libs_ok ex_libs /\ decides parameter_rules half_all None /\
  (forall c p b, good_series parsed GNone c p b two_levels) /\ mode_for (fresh VNone) half_all = Some (VMode ENTIRE) /\
  result (ask_whole (fresh VNone) (DFrame two_levels) (Some half_all)) = Err ValueErr /\
  is_entire (result (ask_whole (fresh VNone) (DFrame two_levels) (Some quarter_all))) 20.
Proof.
  split; [apply ex_libs_ok|]. split; [eapply params_ok; vm_compute; reflexivity|].
  split; [apply good_rows; apply two_levels_good|]. split; [reflexivity|]. split; [vm_compute; reflexivity|].
  do 2 eexists. split; vm_compute; reflexivity.
Qed.
Print Assumptions C91_any_ratio_refuted.

(** C91 REFUTED for every accepted value: up to 10^100 is accepted, but twelve
    values of about 10^40 with one that stands out fail with an Exception (the
    median trend overflows a C float); a given period avoids it, and so do the
    same values in a unit 10^30 times as large. *)
Definition asks_period (p : Z) : dict := ("period", VInt p) :: entire.
Definition far_values (k : Z) : list (point stamp) := numbers (map (Z.mul k) [10; 11; 12; 10; 12; 11; 10; 900; 11; 12; 10; 11]%Z).
Theorem C91_large_values_refuted : libs_ok ex_libs /\ c_floats ex_libs (qz (2 ^ 128)) /\ decides parameter_rules entire None /\
  (forall c p b, good_series parsed GNone c p b (far_values (10 ^ 40))) /\
  result (ask_whole (fresh VNone) (DFrame (far_values (10 ^ 40))) (Some entire)) = Err Generic /\
  is_entire (result (ask_whole (fresh VNone) (DFrame (far_values (10 ^ 10))) (Some entire))) 12 /\
  is_entire (result (ask_whole (fresh VNone) (DFrame (far_values (10 ^ 40))) (Some (asks_period 5)))) 12.
Proof.
  split; [apply ex_libs_ok|]. split. { constructor; auto. intros s w t i E _ _. inversion E; auto. }
  split; [eapply params_ok; vm_compute; reflexivity|].
  split. { apply good_rows; [simpl; lia|simpl; lia|]. intros x I. unfold far_values, numbers in I. apply in_map_iff in I. destruct I as (z & <- & I).
    exists (qz z). split; auto. apply in_map_iff in I. destruct I as (w & <- & I).
    assert (W : (0 <= w <= 900)%Z) by (simpl in I; repeat (destruct I as [<-|I]; [simpl; lia|]); contradiction).
    split; [apply Qcle_trans with (qz 0)|apply Qcle_trans with (qz (10 ^ 40 * 900))]; try (apply (proj1 (qz_le _ _)); lia); vm_compute; discriminate. }
  split; [vm_compute; reflexivity|]. split; do 2 eexists; split; vm_compute; reflexivity.
Qed.
Print Assumptions C91_large_values_refuted.

(** C91: the hypotheses of the theorems above, and both sides of
    [C91_given_period]: periods 9 and 10 in 20 points. *)
Example C91_example : libs_ok ex_libs /\ decides parameter_rules entire None /\
  (12 <= length two_levels /\ (Z.of_nat (length two_levels) <= 8640)%Z) /\
  is_entire (result (ask_whole (fresh VNone) (DFrame two_levels) (Some entire))) 20 /\
  decides parameter_rules (asks_period 10) None /\
  is_entire (result (ask_whole (fresh VNone) (DFrame two_levels) (Some (asks_period 9)))) 20 /\
  result (ask_whole (fresh VNone) (DFrame two_levels) (Some (asks_period 10))) = Err ValueErr.
Proof.
  split; [apply ex_libs_ok|]. split; [eapply params_ok; vm_compute; reflexivity|]. split; [simpl; lia|].
  split; [do 2 eexists; split; vm_compute; reflexivity|]. split; [eapply params_ok; vm_compute; reflexivity|].
  split; [do 2 eexists; split; vm_compute; reflexivity|]. vm_compute. reflexivity.
Qed.
(** Twelve days with a gap, to be filled; a period of 6 is too long for the
    points but not for the filled series. *)
Definition week : dict := ("period", VInt 6) :: asks_linear.
Example C91_gap_example :
  (forall l a per, asked (fun _ => 0%Qc) week gappy l a per ->
     accepted_indices parsed (a_gran a) (option_map Z.of_nat (a_interval a)) gappy l -> answerable week l a per) /\
  is_entire (result (ask_whole (fresh VNone) (DFrame gappy) (Some week))) 12 /\
  result (ask_whole (fresh VNone) (DFrame gappy) (Some (("fillUpMode", VStr "no") :: ("period", VInt 6) :: asks_entire))) = Err ValueErr.
Proof.
  split; [|split; [do 2 eexists; split; vm_compute; reflexivity|vm_compute; reflexivity]].
  intros l a per A AI. 
  assert (EG : a_gran a = Daily).
  { destruct (asked_granularity _ _ _ _ _ _ A) as [[E _]|(v & E & n & -> & I)]; [discriminate|]. inversion E; subst n. simpl in I.
    repeat (destruct I as [I|I]; [inversion I; auto|]). contradiction. }
  assert (EI : a_interval a = None) by (destruct (asked_interval _ _ _ _ _ _ A) as [[_ E]|(v & E & _)]; [auto|discriminate]).
  rewrite EG, EI in AI. apply gappy_index in AI. subst l.
  destruct (asked_period _ _ _ _ _ _ A) as [[E _]|(v & E & n & I & ->)]; [discriminate|]. inversion E; subst v. inversion I as [z X| |].
  assert (n = 6) by lia. subst n.
  assert (EM : a_mode a = FMLinear).
  { destruct (asked_fill _ _ _ _ _ _ A) as [(s & G & D)|[(NI & _)|(NI & _)]].
    - inversion G; subst s. destruct D as [(Y & _)|(_ & J & _)]; [discriminate|]. simpl in J.
      repeat (destruct J as [J|J]; [inversion J; auto|]). contradiction.
    - exfalso. apply NI. exists (VStr "linear"). split; [reflexivity|discriminate].
    - exfalso. apply NI. exists (VStr "linear"). split; [reflexivity|discriminate]. }
  split; [discriminate|]. split; [unfold modest_args; left; exists 6; split; [reflexivity|lia]|]. right. rewrite EM. split; [vm_compute; discriminate|]. split; [vm_compute; reflexivity|].
  left. destruct (asked_ratio _ _ _ _ _ _ A) as [[_ ->]|(v & E2 & _)]; [vm_compute; discriminate|discriminate].
Qed.
