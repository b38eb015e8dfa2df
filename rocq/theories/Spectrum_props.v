(** Property C97: the spectrum period. *)
From Coq Require Import String List Arith ZArith QArith Qcanon Qround Lia Lqa Bool Sorted.
From Verif Require Import Base Num Sorting Kernel_model Kernel_proofs FillUp_model FillUp_spec FillUp_proofs FillUp_proofs6 FillUp_props
  Helpers_model Margins_model SR_model SR_proofs2 Detect_model Detect_spec Detect_proofs Detect_proofs6 Detect_proofs7 Detect_props
  Dates_model Request_model Request_spec Request_proofs Request_proofs2 Request_proofs3 Request_proofs4 Request_proofs6 Request_proofs8 Request_props
  Period_model Period_spec Period_props Trend_model Trend_spec Trend_props Stl_model Stl_spec Stl_props
  Pipe_model Pipe_spec Pipe_proofs Pipe_proofs2 Pipe_proofs3 Pipe_props Const_spec Expect_proofs Units_proofs Spectrum_model Spectrum_spec.
Import ListNotations.
Open Scope string_scope.
Open Scope nat_scope.

Section Search.
Variable L : libs.
Hypothesis OK : libs_ok L.

(** The search with the natural cycles left out does not look at the granularity. *)
Lemma search_any_granularity : forall g i s,
  detected_period (l_std L) (l_r32 L) (l_rnd L) (l_acf L) (l_peaks L) (whole_fit L) g i true s = whole_period L GNone None s.
Proof. intros g i s. unfold whole_period, detected_period. destruct (all_some s); reflexivity. Qed.
Lemma spectrum_search_spec : forall a q, spectrum_search L a = Ok q <-> without_granularity L a q.
Proof.
  intros a q. unfold spectrum_search, without_granularity, period_detection_with_filled_values.
  match goal with |- context [bind ?x _] => destruct x as [v|e] end; cbn [bind]; [|tauto]. rewrite search_any_granularity. tauto.
Qed.
(** A period whose source is the spectrum is the one found without granularity. *)
Lemma source_spectrum : forall a p, 
  period_detection_with_filled_values (l_spline L) (whole_period L (a_gran a) (a_interval a)) (a_fup a) (a_mode a) (a_fixed a) = Ok p ->
  period_detection_with_filled_values (l_spline L) (whole_source L (a_gran a) (a_interval a)) (a_fup a) (a_mode a) (a_fixed a) = Ok 1 ->
  without_granularity L a p.
Proof.
  intros a p. unfold without_granularity, period_detection_with_filled_values.
  match goal with |- context [bind ?x _] => destruct x as [v|e] end; cbn [bind]; [|discriminate].
  unfold whole_period, whole_source, detected_period. destruct (all_some _) as [s|]; [|discriminate].
  unfold default_detection, Period_model.period_detection. cbn [negb].
  destruct (verify_period _ _ _ s (a_gran a) _) as [simple|e]; cbn [bind]; [|discriminate].
  destruct simple as [[|n]|]; cbn [bind]; try discriminate.
  - match goal with |- context [bind ?x _] => destruct x as [q|e] end; cbn; [|discriminate]. auto.
  - match goal with |- context [bind ?x _] => destruct x as [q|e] end; cbn; [|discriminate]. auto.
Qed.
Lemma source_of_search : forall a p, 
  period_detection_with_filled_values (l_spline L) (whole_period L (a_gran a) (a_interval a)) (a_fup a) (a_mode a) (a_fixed a) = Ok p ->
  exists src, period_detection_with_filled_values (l_spline L) (whole_source L (a_gran a) (a_interval a)) (a_fup a) (a_mode a) (a_fixed a) = Ok src.
Proof.
  intros a p. unfold period_detection_with_filled_values.
  match goal with |- context [bind ?x _] => destruct x as [v|e] end; cbn [bind]; [|discriminate].
  unfold whole_period, whole_source, detected_period. destruct (all_some _) as [s|]; [|discriminate].
  destruct (default_detection _ _ _ _ _ _ _ _ _ s) as [r|e]; cbn [bind]; [eauto|discriminate].
Qed.

(** The search answers whenever the detector did (if the values are not all the
    same, or are up to 10^34). *)
Lemma search_total : forall ix a, make_fup (Some ix) (map Some (a_values a)) default_maxlen = Ok (a_fup a) ->
  12 <= length ix -> (a_mode a = FMFixed -> f_need (a_fup a) = true -> a_fixed a <> None) ->
  varied (a_values a) \/ modest (a_values a) -> exists q, without_granularity L a q.
Proof.
  intros ix a HF L12 HX HV. assert (NE : ix <> []) by (destruct ix; [simpl in L12; lia|discriminate]).
  destruct (make_fup_ok_inv _ _ _ _ NE HF) as ([W0|(LI & W)] & EI & EV & EA & EM & EN & _ & _ & _ & LV & EL); [congruence|]. rewrite map_length in LI.
  assert (VV : a_values a = f_values (a_fup a)).
  { clear - EV. revert EV. generalize (a_values a) (f_values (a_fup a)). induction l as [|x l IH]; intros [|y m] E; inversion E; subst; auto. f_equal; auto. }
  assert (WP : forall s, 12 <= length s -> incl (a_values a) s -> exists p, whole_period L GNone None (map Some s) = Ok p).
  { intros s Hs IN. apply (whole_period_total L OK); auto; [discriminate|]. destruct (constant_or_varied s) as [[c E]|V]; [|auto].
    assert (EC : all_eq c (a_values a)) by (intros x J; apply E, IN; auto).
    destruct HV as [(x & y & I & J & N)|M]; [exfalso; apply N; rewrite (EC x I), (EC y J); auto|].
    right. intros x I. rewrite (E x I). destruct (a_values a) as [|y t] eqn:EY; [simpl in LI; lia|].
    rewrite <- (EC y (or_introl eq_refl)). apply M. left; auto. }
  assert (FA : 12 <= f_all (a_fup a)). { pose proof (sorted_room ix (proj1 (proj2 W)) (proj2 (proj2 W))). lia. }
  unfold without_granularity, period_detection_with_filled_values. destruct (f_need (a_fup a)) eqn:HN.
  - match goal with |- context [fill_up_on_demand _ _ ?md _ None] => assert (MD : (md = FMFixed -> a_mode a = FMFixed) /\ md <> FMAuto) by (destruct (a_mode a); split; congruence); set (m0 := md) in * end.
    destruct (fill_cases (l_spline L) ix (map Some (a_values a)) (a_fup a) m0 (a_fixed a) None HF) as [(A & B)|(A & N1 & N2 & s & B & LS & _)].
    + intros X _. apply HX; auto. apply MD; auto.
    + intros X. destruct MD; contradiction.
    + lia.
    + auto.
    + rewrite B, bind_ok. cbn [option_map]. rewrite bind_ok. rewrite <- VV. apply WP; [lia|apply incl_refl].
    + rewrite B, bind_ok. cbn [option_map fst]. rewrite bind_ok. apply WP; [lia|].
      set (a' := mkArgs (a_values a) (a_fup a) m0 (a_fixed a) (a_ratio a) (a_alpha a) (a_threshold a) (a_need_trend a) (a_majority a) (a_gran a) (a_interval a)).
      assert (TK : through_knots (l_spline L) ix a') by (intros X; exfalso; apply (proj2 MD); auto).
      destruct (demand_keeps (l_spline L) ix a' None (map Some s) (f_tags (a_fup a)) HF TK B) as (_ & _ & _ & CA & _).
      intros x I. apply In_nth_error in I. destruct I as [k Hk]. assert (Lk := nth_error_lt _ _ _ _ Hk).
      destruct (nth_error_ex _ ix k ltac:(lia)) as [z Hz].
      assert (G : FillUp_spec.given ix (map Some (a_values a)) (Z.to_nat z) x).
      { exists k. split; [|rewrite nth_error_map, Hk; auto]. rewrite Hz. f_equal. symmetry. apply Z2Nat.id.
        destruct W as (_ & W1 & W2). destruct ix as [|z0 rest]; [discriminate W1|]. inversion W1; subst z0. apply (sorted_nonneg rest W2 z (nth_error_In _ _ Hz)). }
      apply CA in G. apply nth_error_In, in_map_iff in G. destruct G as (y & E & J). inversion E; subst; auto.
  - rewrite bind_ok. rewrite <- VV. apply WP; [lia|apply incl_refl].
Qed.
End Search.

(** A series with gaps to be filled with a fixed value and none given is not
    answered. *)
Lemma some_gap : forall ix n, (length ix < n) -> exists p, p < n /\ ~ In (Z.of_nat p) ix.
Proof.
  intros ix n H. destruct (Forall_Exists_dec (fun p => In (Z.of_nat p) ix) (fun p => in_dec Z.eq_dec _ _) (List.seq 0 n)) as [F|X].
  - exfalso. assert (I : incl (map Z.of_nat (List.seq 0 n)) ix).
    { intros z I. apply in_map_iff in I. destruct I as (p & <- & I). rewrite Forall_forall in F. auto. }
    apply NoDup_incl_length in I; [rewrite map_length, seq_length in I; lia|].
    apply FinFun.Injective_map_NoDup; [intros x y; apply Nat2Z.inj|apply seq_NoDup].
  - apply Exists_exists in X. destruct X as (p & I & N). apply in_seq in I. exists p. split; [lia|auto].
Qed.
Lemma answered_fixed : forall L ix a d period lm r, make_fup (Some ix) (map Some (a_values a)) default_maxlen = Ok (a_fup a) -> ix <> [] ->
  whole_detect L a d period lm = Ok r -> a_mode a = FMFixed -> f_need (a_fup a) = true -> a_fixed a <> None.
Proof.
  intros L ix a d period lm [[[rows p] m] b] HF NE E EM HN EX. unfold whole_detect in E. apply detect_inv in E. destruct E as (rows0 & E & _).
  unfold detect_with_model_selection in E. cbv zeta in E. bind_inv E. rename a0 into p'. destruct (_ && _) in E; [discriminate|].
  rewrite EM in E. cbn [fills_without_period] in E. rewrite orb_true_r in E. bind_inv E. rename a0 into filled. bind_inv E.
  destruct (C38_fixed_fill_is_constant (l_spline L) _ _ _ _ (a_fixed a) (Some (Z.of_nat p')) HF HN) as (full & EF & LF & _ & K).
  rewrite EF in E1. inversion E1; subst filled. destruct (all_some full) as [s|] eqn:EA; [|discriminate].
  apply Detect_proofs5.all_some_map in EA. subst full.
  destruct (make_fup_ok_inv _ _ _ _ NE HF) as (_ & _ & _ & _ & EMs & EN & _). apply EN in HN.
  destruct (some_gap ix (f_all (a_fup a)) ltac:(lia)) as (q & Lq & NI). specialize (K q Lq NI). rewrite EX, nth_error_map in K.
  destruct (nth_error s q); discriminate.
Qed.

(** C97. Asking for the spectrum period changes neither what the detector
    answers nor whether it answers (values all the same and beyond 10^34 aside). *)
Theorem C97_same_answer : forall L need ix a d period lm, libs_ok L ->
  make_fup (Some ix) (map Some (a_values a)) default_maxlen = Ok (a_fup a) -> 12 <= length ix ->
  varied (a_values a) \/ modest (a_values a) ->
  detect_dropped L need a d period lm = whole_detect L a d period lm.
Proof.
  intros L need ix a d period lm OK HF L12 HV. assert (NE : ix <> []) by (destruct ix; [simpl in L12; lia|discriminate]).
  unfold detect_dropped, detect_spectrum. destruct (whole_detect L a d period lm) as [[[[rows p] m] b]|e] eqn:E; cbn [bind]; auto.
  assert (S1 : exists src, period_source L a period = Ok src).
  { unfold period_source. destruct period; eauto. destruct (_ <? _)%Qc eqn:EM; eauto.
    unfold whole_detect in E. apply detect_inv in E. destruct E as (rows0 & E & _). unfold detect_with_model_selection in E. cbv zeta in E. rewrite EM in E. bind_inv E.
    destruct (source_of_search L a _ E0) as (src & ->). cbn. eauto. }
  destruct S1 as (src & ->). cbn [bind].
  assert (S2 : exists sp, get_spectrum_period L a need src p (map r_anomaly rows) false = Ok sp).
  { unfold get_spectrum_period. destruct (negb need); eauto. destruct (p =? 0); eauto. destruct (match src with Some 1 => true | _ => false end); eauto.
    cbn [bind]. destruct (negb _); eauto. destruct (search_total L OK ix a HF L12) as (q & Q); auto.
    - intros EM HN. eapply answered_fixed; eauto.
    - apply (spectrum_search_spec L) in Q. rewrite Q. cbn. eauto. }
  destruct S2 as (sp & ->). reflexivity.
Qed.
Print Assumptions C97_same_answer.

(** C97. What it is: 0 with period 0; nothing exactly if it was not asked for
    or no point is reported and the period did not come out of the spectrum;
    else the period found without granularity. *)
Theorem C97_value : forall L a d period lm rows p sp m b,
  detect_spectrum L true a d period lm = Ok (rows, p, sp, m, b) ->
  (p = 0 -> sp = Some 0) /\ (reports rows -> sp <> None) /\
  (forall q, 0 < p -> sp = Some q -> without_granularity L a q) /\
  (sp = None -> 0 < p /\ ~ reports rows /\ (period = None -> exists src, period_source L a None = Ok src /\ src <> Some 1)).
Proof.
  intros L a d period lm rows p sp m b H. unfold detect_spectrum in H. bind_inv H. destruct a0 as [[[rows' p'] m'] b']. bind_inv H. rename a0 into src.
  bind_inv H. inversion H; subst rows' p' a0 m' b'. clear H. unfold get_spectrum_period in E1. cbn [negb] in E1.
  assert (EX : existsb (fun x => x) (map r_anomaly rows) = true <-> reports rows).
  { rewrite existsb_exists. split; [intros (x & I & ->); apply in_map_iff in I; destruct I as (r & E2 & I); exists r; auto|].
    intros (r & I & Er). exists true. split; auto. apply in_map_iff. eauto. }
  destruct (p =? 0) eqn:EP; [apply Nat.eqb_eq in EP|apply Nat.eqb_neq in EP].
  { inversion E1; subst. repeat split; auto; try discriminate; try lia. }
  destruct (match src with Some 1 => true | _ => false end) eqn:ES.
  { inversion E1; subst sp. repeat split; try lia; try discriminate. intros q _ X. inversion X; subst q.
    assert (src = Some 1) by (destruct src as [[|[|]]|]; discriminate || auto). subst src.
    unfold period_source in E0. destruct period as [p0|]; [discriminate|]. destruct (_ <? _)%Qc eqn:EM; [discriminate|].
    bind_inv E0. inversion E0; subst a0. clear E0.
    unfold whole_detect in E. apply detect_inv in E. destruct E as (rows0 & E & _). unfold detect_with_model_selection in E. cbv zeta in E. rewrite EM in E. bind_inv E.
    rename a0 into p'. destruct (_ && _) in E; [discriminate|]. bind_inv E. bind_inv E. bind_inv E. inversion E; subst p'.
    eapply source_spectrum; eauto. }
  cbn [bind] in E1. destruct (existsb _ _) eqn:EE; cbn [negb] in E1.
  - bind_inv E1. inversion E1; subst sp. repeat split; try lia; try discriminate. intros q _ X. inversion X; subst q. apply spectrum_search_spec; auto.
  - inversion E1; subst sp. assert (NR : ~ reports rows) by (intros R; apply EX in R; congruence).
    repeat split; try lia; try discriminate; try contradiction; auto.
    intros ->. exists src. split; auto. intros ->. discriminate.
Qed.
Print Assumptions C97_value.

Section Request.
Context {T : Type}.
Variable to_datetime : list T -> option (list stamp).
Hypothesis to_datetime_length : forall l st, to_datetime l = Some st -> length st = length l.
Variable majority : list Qc -> Qc.
Variable beyond : list (point T) -> settings -> res (reply T).
Variable L : libs.

(** C97. A request that passes the documented checks is answered the same
    whether or not it asks for the spectrum period (values all the same and
    beyond 10^34 aside). *)
Theorem C97_request : forall need o rows d mode, libs_ok L ->
  rows <> [] -> decides parameter_rules d None -> (forall s, reads d s -> micro_ok s) ->
  (forall s, reads d s -> good_series to_datetime (s_gran s) (s_interval s) (s_period s) (nofill_of d) rows) ->
  (forall dd, ~ Request_spec.given "detector" d (VDict dd)) -> o__error o = None -> mode_for o d = Some mode ->
  (exists x y u v, In x rows /\ In y rows /\ w_value x = Num (Request_model.Fin u) /\ w_value y = Num (Request_model.Fin v) /\ u <> v) \/
  (forall x u, In x rows -> w_value x = Num (Request_model.Fin u) -> (Qcabs u <= qz (10 ^ 34))%Qc) ->
  result (predict T to_datetime majority (detect_dropped L need) beyond o (DFrame rows) (Some d)) =
  result (predict T to_datetime majority (whole_detect L) beyond o (DFrame rows) (Some d)).
Proof.
  intros need o rows d mode OK NE H M G ND HE HM HV.
  destruct (predict_accepted to_datetime to_datetime_length majority beyond o rows d mode NE H M G ND HE HM) as (s & l & vs & R & B & AI & L12 & FV & EQ).
  unfold result. rewrite !EQ. destruct (make_fup (Some l) (map Some vs) default_maxlen) as [f|e] eqn:EF; [|reflexivity]. cbn [bind].
  assert (EV : varied vs \/ modest vs).
  { clear - FV HV. destruct HV as [(x & y & u & v & I & J & E1 & E2 & N)|HV]; [left|right].
    - exists u, v. assert (K : forall x u, In x rows -> w_value x = Num (Request_model.Fin u) -> In u vs).
      { clear - FV. induction FV as [|r w rs ws E F IH]; intros x u I EX; [contradiction|]. destruct I as [->|I]; [left; congruence|right; eauto]. }
      repeat split; eauto.
    - intros u I. revert HV. induction FV as [|r w rs ws E F IH]; intros HV; [contradiction|]. destruct I as [->|I]; [apply (HV r); simpl; auto|].
      apply IH; auto. intros x v J. apply HV. right; auto. }
  rewrite (C97_same_answer L need l); auto. destruct AI as [[_ ->]|(_ & X & _)]; [rewrite map_length, seq_length|]; lia.
Qed.
End Request.
Print Assumptions C97_request.

(** Twenty points with period 4 and, in the first case, a spike: the search
    without granularity finds nothing (0); without the spike no search is made;
    a given period of 0 is handed on. *)
Definition every_four (spike : Z) : list Qc := map qz [1; 2; 3; 4; 1; 2; 3; 4; 1; 2; spike; 4; 1; 2; 3; 4; 1; 2; 3; 4]%Z.
Definition twenty : list Z := map Z.of_nat (List.seq 0 20).
Definition spectrum_of (spike : Z) (period : option nat) : res (option nat) :=
  do f <- make_fup (Some twenty) (map Some (every_four spike)) default_maxlen;
  do r <- detect_spectrum ex_libs true
            (mkArgs (every_four spike) f FMAuto None (Q2Qc (1 # 4)) (Q2Qc (5 # 100)) (Q2Qc (35 # 10)) false 0 Daily None)
            (mkDet None None) period false;
  let '(_, _, sp, _, _) := r in Ok sp.
Example C97_example : libs_ok ex_libs /\
  (exists f, make_fup (Some twenty) (map Some (every_four 90)) default_maxlen = Ok f) /\
  spectrum_of 90 (Some 4) = Ok (Some 0) /\ spectrum_of 3 (Some 4) = Ok None /\ spectrum_of 90 (Some 0) = Ok (Some 0).
Proof. split; [apply ex_libs_ok|]. split; [eexists; vm_compute; reflexivity|]. vm_compute. auto. Qed.
