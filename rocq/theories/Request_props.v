(** Properties C34 to C38, C80 to C82: whole requests to the univariate
    detector (univariate_anomaly_detection.py). *)
From Coq Require Import String Ascii List Arith ZArith QArith Qcanon Bool Lia.
From Verif Require Import Base Num Sorting Kernel_model Kernel_spec Kernel_proofs Kernel_props FillUp_model FillUp_spec FillUp_proofs FillUp_proofs6 FillUp_props Helpers_model Margins_model Margins_spec Margins_props
  SR_model Detect_model Detect_spec Detect_proofs Detect_proofs5 Detect_proofs6 Detect_proofs7 Detect_props Dates_model Dates_spec Dates_props
  Request_model Request_spec Request_proofs Request_proofs2 Request_proofs3 Request_proofs4 Request_proofs5 Request_proofs6 Request_proofs7 Request_proofs8.
Import ListNotations.
Open Scope string_scope.
Open Scope nat_scope.

(** What the caller of predict sees: the result (or exception), and the
    object and parameter dictionary afterwards. *)
Definition result {R} (x : res R * obj * option dict) : res R := fst (fst x).
Definition object {R} (x : res R * obj * option dict) : obj := snd (fst x).
Definition parameters {R} (x : res R * obj * option dict) : option dict := snd x.

Section Props.
Context {T : Type}.
(** The timestamp parser keeps one timestamp per point (C58 gives it for the
    shared parser). *)
Variable to_datetime : list T -> option (list stamp).
Hypothesis to_datetime_length : forall l st, to_datetime l = Some st -> length st = length l.
Variable majority : list Qc -> Qc.
Variable beyond : list (point T) -> settings -> res (reply T).

Section AnyDetector.
Variable detect : args -> detector_arg -> option nat -> bool -> res (list row * nat * model_id * bool).
Notation PRED := (predict T to_datetime majority detect beyond).

(** C34. A request with a bad parameter: the code and message are stored on the
    object, the caller gets a TypeError (or another exception of the check
    itself). *)
Theorem C34_bad_parameter : forall o rows d w, rows <> [] -> decides parameter_rules d (Some w) ->
  match w with
  | Refused c m => result (PRED o (DFrame rows) (Some d)) = Err TypeErr /\
                   o_code (object (PRED o (DFrame rows) (Some d))) = Some c /\ o_msg (object (PRED o (DFrame rows) (Some d))) = Some m
  | Raises e => result (PRED o (DFrame rows) (Some d)) = Err e /\ object (PRED o (DFrame rows) (Some d)) = o
  end.
Proof.
  intros o rows d w NE H. destruct w as [c m|e].
  - destruct (predict_refused to_datetime majority detect beyond o rows d c m NE H) as (d' & ->). auto.
  - destruct (predict_raised to_datetime majority detect beyond o rows d e NE H) as (d' & ->). auto.
Qed.

(** C35. With good parameters the code and message stored on the object are
    those of the first documented check of the series that fails. *)
Theorem C35_series_checks : forall o rows d, rows <> [] -> decides parameter_rules d None -> (forall s, reads d s -> micro_ok s) ->
  exists s v, reads d s /\ decides (series_rules to_datetime (s_gran s) (s_interval s) (s_period s) (nofill_of d)) rows v /\
    o_code (object (PRED o (DFrame rows) (Some d))) = option_map fst v /\
    o_msg (object (PRED o (DFrame rows) (Some d))) = option_map snd v.
Proof.
  intros o rows d NE H M. destruct (params_accepted d H) as (s & e & E & R & _).
  destruct (predict_past to_datetime to_datetime_length majority detect beyond o rows d s e NE E (M s R)) as (v & d' & _ & D & _ & _ & _ & EP).
  exists s, v. split; auto. split; auto. rewrite EP. cbv zeta. unfold object.
  destruct (get "indices" d'); [|auto]. destruct (mode_for o d); auto.
Qed.
(** C35. Nothing is stored exactly for the documented series. *)
Theorem C35_accepts_iff : forall o rows d, rows <> [] -> decides parameter_rules d None -> (forall s, reads d s -> micro_ok s) ->
  exists s, reads d s /\
    (o_code (object (PRED o (DFrame rows) (Some d))) = None <->
     good_series to_datetime (s_gran s) (s_interval s) (s_period s) (nofill_of d) rows).
Proof.
  intros o rows d NE H M. destruct (C35_series_checks o rows d NE H M) as (s & v & R & D & C & _).
  exists s. split; auto. rewrite C, <- series_ok_iff by (auto; apply (M s R)). destruct v as [[c m]|]; simpl.
  - split; [discriminate|]. intros D2. pose proof (decides_fun _ _ _ _ _ _ D D2). discriminate.
  - tauto.
Qed.

(** C34. A bad series is reported as KeyError or ValueError, with the code and
    message stored on the object; only for too few points for the period does
    the request go on to detection. *)
Theorem C34_bad_series : forall o rows d, rows <> [] -> decides parameter_rules d None -> (forall s, reads d s -> micro_ok s) ->
  get "indices" d = None -> o__error o = None -> (o_mode o <> VNone \/ exists m, given "detect_mode" d m) ->
  (forall dd, ~ given "detector" d (VDict dd)) ->
  exists s, reads d s /\ forall c m,
    decides (series_rules to_datetime (s_gran s) (s_interval s) (s_period s) (nofill_of d)) rows (Some (c, m)) ->
    o_code (object (PRED o (DFrame rows) (Some d))) = Some c /\ o_msg (object (PRED o (DFrame rows) (Some d))) = Some m /\
    (m = "InsufficientPoints" \/
     (m = "InvalidSeriesTimestamp" /\ result (PRED o (DFrame rows) (Some d)) = Err ValueErr) \/
     (m <> "InsufficientPoints" /\ m <> "InvalidSeriesTimestamp" /\ result (PRED o (DFrame rows) (Some d)) = Err KeyErr)).
Proof.
  intros o rows d NE H M NI HE HM ND. destruct (params_accepted d H) as (s & e & E & R & _).
  destruct (predict_past to_datetime to_datetime_length majority detect beyond o rows d s e NE E (M s R)) as (v & d' & _ & D & L & _ & _ & EP).
  exists s. split; auto. intros c m D2. pose proof (decides_fun _ _ _ _ _ _ D D2) as ->. cbn [option_map fst snd] in EP.
  assert (exists mode, mode_for o d = Some mode) as (mode & EM).
  { unfold mode_for. destruct HM as [HM|(m' & HM)].
    - destruct (o_mode o); eauto. congruence.
    - unfold given in HM. rewrite HM. destruct (o_mode o); eauto. }
  rewrite EM, HE in EP. cbn zeta in EP. cbn [left_indices] in L.
  destruct L as [(-> & l & L)|[(-> & L)|(N1 & N2 & L)]]; rewrite L in EP.
  - rewrite EP. simpl. auto.
  - rewrite EP. unfold object, result. cbn [fst snd o_code o_msg]. split; auto. split; auto. right. left. split; auto.
    unfold answer_request. rewrite (reads_no_detector d s R ND).
    assert (F : exists ns vs, numbers T rows = Ok ns /\ finite ns = Some vs).
    { inversion D2 as [| |? ? ? ? ? _ D3]; subst. inversion D3 as [| |? ? ? ? ? _ D4]; subst. inversion D4 as [| |? ? ? ? ? N3 D5]; subst.
      inversion D5 as [| |? ? ? ? ? N4 D6]; subst. inversion D6 as [| |? ? ? ? ? N5 _]; subst.
      destruct (numbers T rows) as [ns|x] eqn:EN.
      2:{ exfalso. apply N3. left. apply (numbers_err rows x EN). }
      exists ns. destruct (numbers_finite rows ns EN) as (vs & EF & _); [|eauto].
      apply Forall_forall. intros n I. destruct (F2_in_r _ _ _ _ _ _ (numbers_ok rows ns EN) I) as (x & Ix & EX).
      destruct n as [q| | |]; eauto; exfalso.
      - apply N5. eauto.
      - apply N4. exists x, PInf. unfold too_large. auto.
      - apply N4. exists x, NInf. unfold too_large. auto. }
    destruct F as (ns & vs & -> & EF). rewrite bind_ok, EF. reflexivity.
  - rewrite NI in EP. rewrite EP. unfold object, result. simpl. split; [auto|]. split; [auto|]. right. right. auto.
Qed.

(** C34 REFUTED in general: validation never raises the request error. If the
    caller sees one at all it was raised by the detector (or lies beyond the
    model), and the object's private error field, the only one predict looks
    at, is never set. *)
Theorem C34_request_error_refuted : forall o x p c, o__error o = None ->
  (forall rows y e, x = DFrame rows -> In y rows -> w_value y <> Bad (RequestErr e)) ->
  o__error (object (PRED o x p)) = None /\
  (result (PRED o x p) = Err (RequestErr c) ->
   (exists a det per last, detect a det per last = Err (RequestErr c)) \/ exists rows s, beyond rows s = Err (RequestErr c)).
Proof.
  intros o x p c HE HB. split; [unfold object; rewrite predict__error; auto|].
  unfold result, predict, parse_arg. destruct p as [d|].
  2:{ destruct x as [| | |[|y rows]]; discriminate. }
  destruct x as [| | |[|y rows]]; try discriminate.
  pose proof (parse_params_spec d) as K. destruct (parse_params d) as [s e|c' m' e|e' e].
  - destruct K as (_ & _ & B).
    destruct (series_validator T to_datetime (y :: rows) e) as [v e2] eqn:EV. destruct v as [v|z].
    + destruct (get "indices" e2); [|discriminate]. cbn [o_mode o__error]. rewrite HE.
      destruct (match o_mode o with VNone => _ | m => Some m end) as [mode|]; [|discriminate].
      cbn [fst]. intros X. destruct (answer_request_err majority detect beyond mode (y :: rows) s p c B ltac:(discriminate)) as [Y|Y]; auto.
      * intros z q I. apply (HB (y :: rows)); auto.
      * right. eauto.
    + simpl. intros X. inversion X; subst. exfalso. revert EV. apply (validator_no_request_error to_datetime).
  - simpl. intros X. discriminate.
  - simpl. intros X. inversion X; subst e'. exfalso. revert K. clear. unfold parameter_rules. intros K.
    repeat (match goal with H : decides _ _ _ |- _ => inversion H; clear H; subst end; try discriminate).
Qed.

(** C36 REFUTED. The dictionary of an answered request cannot be used again:
    the second call always ends in a TypeError. *)
Theorem C36_repeated_request_refuted : forall o rows d r, result (PRED o (DFrame rows) (Some d)) = Ok r ->
  exists d', parameters (PRED o (DFrame rows) (Some d)) = Some d' /\
    forall o2 rows2, rows2 <> [] ->
      result (PRED o2 (DFrame rows2) (Some d')) = Err TypeErr /\
      o_code (object (PRED o2 (DFrame rows2) (Some d'))) = Some "InvalidGranularity".
Proof.
  intros o rows d r H. assert (NE : rows <> []) by (intros ->; discriminate H).
  destruct (predict_leaves to_datetime majority detect beyond o rows d "granularity" NE ltac:(discriminate)) as (d' & E & G).
  exists d'. split; auto. intros o2 rows2 NE2.
  assert (GE : exists g, get "granularity" d' = Some (VGran g)).
  { rewrite G. unfold result, predict, parse_arg in H. destruct rows as [|y rows]; [congruence|].
    destruct (parse_params d) as [s e|c m e|x e] eqn:EP; try discriminate H. destruct (settings_gran d s e EP) as [X _]. eauto. }
  destruct GE as (g & GE).
  destruct (predict_refused to_datetime majority detect beyond o2 rows2 d' "InvalidGranularity" "InvalidGranularity" NE2) as (d2 & EQ).
  { unfold parameter_rules. apply decides_skip.
    { intros (v & Gv & U). unfold given in Gv. rewrite GE in Gv. inversion Gv; subst v. destruct U as [(l & U)|(dd & U)]; discriminate. }
    apply decides_hit. exists (VGran g). split; auto. intros (n & g' & X & _). discriminate. }
  rewrite EQ. auto.
Qed.

(** C37. A sequence of requests to one object. *)
Fixpoint run (o : obj) (calls : list (data T * option dict)) : list (res (reply T)) * obj :=
  match calls with
  | [] => ([], o)
  | (x, p) :: t => let y := PRED o x p in let '(rs, o') := run (object y) t in (result y :: rs, o')
  end.
(** The same calls up to the requested detection modes. *)
Definition same_but_mode (c1 c2 : data T * option dict) : Prop :=
  fst c1 = fst c2 /\
  match snd c1, snd c2 with
  | Some d, Some e => forall k, k <> "detect_mode" -> get k d = get k e
  | None, None => True
  | _, _ => False
  end.

(** C37. An object that has a mode keeps it, and the modes asked for in the
    requests make no difference to any answer. *)
Theorem C37_requested_modes_ignored : forall calls1 calls2 o, o_mode o <> VNone -> Forall2 same_but_mode calls1 calls2 ->
  run o calls1 = run o calls2 /\ o_mode (snd (run o calls1)) = o_mode o.
Proof.
  intros calls1 calls2 o N H. revert o N. induction H as [|[x p] [x' p'] l1 l2 S H IH]; intros o N; [simpl; auto|].
  destruct S as [S1 S2]. simpl in S1, S2. subst x'. simpl.
  assert (EQ : fst (PRED o x p) = fst (PRED o x p')).
  { destruct p as [d|], p' as [e|]; try contradiction; auto. apply predict_blind; auto. }
  pose proof (predict_mode to_datetime majority detect beyond o x p N) as MD.
  unfold object, result. rewrite <- EQ. destruct (IH (snd (fst (PRED o x p)))) as [I1 I2]; [rewrite MD; auto|].
  rewrite <- I1. destruct (run (snd (fst (PRED o x p))) l1) as [rs o'] eqn:ER. simpl in *. split; auto. congruence.
Qed.
(** C37. An object without a mode takes that of the first request that passes
    the checks. *)
Theorem C37_first_mode_taken : forall o x d, o_mode o = VNone -> o_mode (object (PRED o x (Some d))) <> VNone ->
  given "detect_mode" d (o_mode (object (PRED o x (Some d)))).
Proof.
  intros o x d N. unfold object, predict, parse_arg. destruct x as [| | |[|y rows]]; try (simpl; congruence).
  pose proof (keeps_params "detect_mode" ltac:(simpl; intuition discriminate) d) as K.
  destruct (parse_params d) as [s e|c m e|z e]; try (simpl; congruence). simpl in K.
  pose proof (validator_keeps to_datetime (y :: rows) e "detect_mode" ltac:(discriminate)) as K2.
  destruct (series_validator T to_datetime (y :: rows) e) as [v e2]. simpl in K2. destruct v as [v|z]; [|simpl; congruence].
  destruct (get "indices" e2); [|simpl; congruence]. cbn [o_mode o__error]. rewrite N.
  destruct (get "detect_mode" e2) as [mode|] eqn:EM; [|simpl; congruence].
  unfold given. destruct (o__error o); simpl; congruence.
Qed.
End AnyDetector.

(** C81. The detector is asked exactly once, about the submitted values at their
    grid indices and the documented reading of the parameters; its exception is passed on, its rows
    are presented in the mode of the object. *)
Theorem C81_detector_arguments : forall o rows d mode, rows <> [] -> decides parameter_rules d None -> (forall s, reads d s -> micro_ok s) ->
  (forall s, reads d s -> good_series to_datetime (s_gran s) (s_interval s) (s_period s) (nofill_of d) rows) ->
  (forall dd, ~ given "detector" d (VDict dd)) -> o__error o = None -> mode_for o d = Some mode ->
  (forall s l vs, reads d s -> accepted_indices to_datetime (s_gran s) (s_interval s) rows l -> length vs = length rows ->
     well_formed_points l (map Some vs)) ->
  exists l a per z, asked majority d rows l a per /\ accepted_indices to_datetime (a_gran a) (option_map Z.of_nat (a_interval a)) rows l /\
    reads_or "sensitivity" d 99%Z is_int z /\ forall detect,
    let r := result (predict T to_datetime majority detect beyond o (DFrame rows) (Some d)) in
    let d := detect a (mkDet None None) per (match mode with VMode LATEST => true | _ => false end) in
    (forall e, d = Err e -> r = Err e) /\
    (forall out p m b, d = Ok (out, p, m, b) -> length out = length rows -> exists y, r = Ok y /\ presents mode (negb (a_need_trend a)) z rows out p m y).
Proof.
  intros o rows d mode NE H M G ND HE HM HW.
  destruct (predict_accepted to_datetime to_datetime_length majority beyond o rows d mode NE H M G ND HE HM) as (s & l & vs & R & B & AI & L12 & FV & EQ).
  pose proof (Forall2_length _ _ _ _ _ FV) as LV.
  destruct (make_fup_accepts l (map Some vs) default_maxlen (HW s l vs R AI (eq_sym LV))) as (f & EF).
  exists l. eexists. exists (s_period s), (s_sensitivity s). split; [apply (reads_asked T majority d s rows l vs f R FV EF (interval_nonneg d s H R))|].
  split.
  { cbn [a_gran a_interval]. replace (option_map Z.of_nat (option_map Z.to_nat (s_interval s))) with (s_interval s); [exact AI|].
    pose proof (interval_nonneg d s H R) as I. destruct (s_interval s) as [z|]; simpl; auto. rewrite Z2Nat.id; auto. }
  split; [apply (reads_sensitivity d s R)|]. cbn [a_need_trend]. rewrite negb_involutive.
  intros detect. cbn zeta. unfold result. rewrite EQ, EF, bind_ok. split.
  - intros e ->. reflexivity.
  - intros out p m b -> LO. rewrite bind_ok. cbv beta iota zeta. rewrite labels_length, LO, Nat.eqb_refl. cbn [negb].
    assert (NO : out <> []) by (intros ->; destruct rows; [congruence|discriminate]).
    destruct (nth_error out (length out - 1)) as [r|] eqn:ER.
    2:{ apply nth_error_None in ER. destruct out; [congruence|simpl in ER; lia]. }
    destruct (C14_latest_is_last_of_entire (s_v1 s) (is_sr m) out (s_sensitivity s) r B ER) as (outs & oe & ol & EE & _ & EO & _).
    assert (LA : exists t, last_opt (labels T rows) = Ok t /\ nth_error (labels T rows) (length rows - 1) = Some t).
    { pose proof (labels_length rows) as LR. destruct (exists_last (l := labels T rows)) as (l' & t & E).
      - intros X. rewrite X in LR. destruct rows; [congruence|discriminate].
      - exists t. rewrite <- LR, E. split; [unfold last_opt; rewrite rev_app_distr; reflexivity|].
        rewrite app_length. simpl. rewrite nth_error_app2 by lia. replace (length l' + 1 - 1 - length l') with 0 by lia. auto. }
    destruct LA as (t & LA & NA).
    assert (LATE : mode <> VMode ENTIRE -> presents mode (s_v1 s) (s_sensitivity s) rows out p m (ALatest T t ol p (suggested_window (s_gran s) p))).
    { intros NM. split; auto. split; auto. split; auto. apply labels_spec; auto. }
    destruct mode as [| | | | | | |[|]| | | |]; try (rewrite EO, bind_ok, LA, bind_ok; eexists; split; [reflexivity|apply LATE; discriminate]).
    rewrite EE, bind_ok. eexists. split; [reflexivity|]. cbn [presents].
    destruct (C10_margins_nonnegative (s_v1 s) (is_sr m) out (s_sensitivity s) NO B) as (os2 & E2 & L2 & _).
    rewrite EE in E2. inversion E2; subst os2.
    assert (ZP : forall (l1 : list (label T)) (l2 : list outcome), length l1 = length l2 -> length (zip_pair l1 l2) = length l1 /\ map snd (zip_pair l1 l2) = l2 /\
       forall i t o, nth_error (zip_pair l1 l2) i = Some (t, o) -> nth_error l1 i = Some t).
    { clear. induction l1 as [|x l1 IH]; intros [|y l2] L; try discriminate; simpl.
      - split; auto. split; auto. intros [|i]; discriminate.
      - destruct (IH l2 ltac:(auto)) as (A & B & C). split; auto. split; [f_equal; auto|]. intros [|i] t o X; simpl in X; [inversion X; auto|eauto]. }
    destruct (ZP (labels T rows) outs) as (Z1 & Z3 & Z2); [rewrite labels_length; congruence|].
    split; auto. split; auto. split; [rewrite Z1; apply labels_length|]. split; [rewrite Z3; auto|]. intros i t0 o0 X. apply labels_spec. eapply Z2; eauto.
Qed.

(** C82. Which accepted series have usable indices: those without granularity,
    and those of second to week granularity whose timestamps are whole seconds
    or recent. (Months: C78.) *)
Theorem C82_usable_indices : forall (rows : list (point T)) g custom period nofill l (vs : list Qc),
  good_series to_datetime g custom period nofill rows -> accepted_indices to_datetime g custom rows l -> length vs = length rows ->
  (g = GNone \/ exists u, unit_seconds g = Some u /\ (u * (match custom with None => 1 | Some i => Z.max i 1 end) < 2 ^ 53)%Z /\
     forall st, read_times to_datetime rows st -> Forall stamp_ok st /\
       (Forall (fun t => whole_second t /\ (Z.abs (epoch_us t) < 2 ^ 53)%Z) st \/ Forall (fun t => recent (epoch_us t)) st)) ->
  well_formed_points l (map Some vs).
Proof.
  intros rows g custom period nofill l vs (L12 & _ & _ & GG) AI LV HG. right. rewrite map_length.
  assert (NN : ~ In None (map Some vs)) by (intros X; apply in_map_iff in X; destruct X as (x & X & _); discriminate).
  destruct AI as [[-> ->]|(NG & LL & st & RT & EI)].
  { rewrite map_length, seq_length. split; auto. split; auto. apply positions_sorted. lia. }
  destruct HG as [->|(u & U & BD & HS)]; [congruence|].
  split; [congruence|]. split; auto.
  destruct (GG NG) as (st' & l' & RT' & ASC & _). rewrite (read_times_fun to_datetime rows st' st RT' RT) in ASC.
  destruct (HS st RT) as [OKS F]. destruct st as [|first rest].
  { pose proof (read_times_length to_datetime to_datetime_length rows [] RT) as X. simpl in X. lia. }
  set (c := match custom with None => 1%Z | Some i => Z.max i 1 end) in *.
  assert (CP : (0 < c * u * second_us)%Z).
  { assert (0 < c)%Z by (unfold c; destruct custom; lia). assert (0 < u)%Z by (destruct g; inversion U; lia). unfold second_us. nia. }
  assert (GS : Forall2 (steps_after first (c * u * second_us)) (first :: rest) l).
  { destruct F as [F|F].
    - destruct (C32_regular g u custom c first rest U eq_refl BD F) as (r & Er & AR). rewrite EI in Er. inversion Er; subst r. exact AR.
    - destruct (C79_recent g u custom c first rest U eq_refl BD F) as (r & Er & AR). rewrite EI in Er. inversion Er; subst r. exact AR. }
  apply (grid_sorted _ first rest l CP OKS ASC GS).
Qed.

(** C38. The fill asked for: 'zero' fills with 0; a legacy 'fixed' with
    fixedValue; the others as named ('previous' C02, 'linear' C03, 'auto' C05). *)
Theorem C38_fill_as_asked : forall d (rows : list (point T)) l a per, asked majority d rows l a per -> f_need (a_fup a) = true ->
  forall spline period,
  (given "imputeMode" d (VStr "zero") ->
     exists full, fill_up_on_demand spline (a_fup a) (a_mode a) (a_fixed a) period = Ok (Some (full, f_tags (a_fup a))) /\
       carries l (map Some (a_values a)) full /\ forall p, p < f_all (a_fup a) -> ~ is_given l p -> nth_error full p = Some (Some 0%Qc)) /\
  (forall v q, ~ impute_given d -> given "fillUpMode" d (VStr "fixed") -> given "fixedValue" d v -> is_number v q ->
     exists full, fill_up_on_demand spline (a_fup a) (a_mode a) (a_fixed a) period = Ok (Some (full, f_tags (a_fup a))) /\
       carries l (map Some (a_values a)) full /\ forall p, p < f_all (a_fup a) -> ~ is_given l p -> nth_error full p = Some (Some q)) /\
  (forall s, given "imputeMode" d (VStr s) \/ (~ impute_given d /\ given "fillUpMode" d (VStr s)) -> s <> "zero" -> In (s, a_mode a) fill_values) /\
  (~ impute_given d -> (get "fillUpMode" d = None \/ given "fillUpMode" d VNone) -> a_mode a = FMAuto).
Proof.
  intros d rows l a per A HN spline period. pose proof (asked_fill _ _ _ _ _ _ A) as F. pose proof (asked_process _ _ _ _ _ _ A) as P.
  assert (FN : forall s m, In (s, m) fill_values -> s = "fixed" -> m = FMFixed).
  { intros s m I ->. simpl in I. repeat (destruct I as [I|I]; [inversion I; auto|]). contradiction. }
  destruct F as [(s & G & D)|[(NI & s & G & I & D)|(NI & G & EM & EX)]].
  - assert (IG : impute_given d) by (exists (VStr s); split; [auto|discriminate]).
    split; [|split; [|split]].
    + intros G0. unfold given in G, G0. rewrite G in G0. inversion G0; subst s. destruct D as [(_ & -> & ->)|(N & _)]; [|congruence].
      destruct (C38_fixed_fill_is_constant spline l _ _ _ (Some 0%Qc) period P HN) as (full & E & _ & C & K). exists full. auto.
    + intros v q NI. contradiction.
    + intros s' [G'|[NI _]] NZ; [|contradiction]. unfold given in G, G'. rewrite G in G'. inversion G'; subst s'.
      destruct D as [(X & _)|(_ & I & _)]; [congruence|auto].
    + intros NI. contradiction.
  - split; [|split; [|split]].
    + intros G0. exfalso. apply NI. exists (VStr "zero"). split; [auto|discriminate].
    + intros v q _ G' GV NQ. unfold given in G, G'. rewrite G in G'. inversion G'; subst s.
      destruct D as [(_ & v' & q' & GV' & NQ' & EX)|(N & _)]; [|congruence]. unfold given in GV, GV'. rewrite GV in GV'. inversion GV'; subst v'.
      assert (q' = q). { apply as_number_spec in NQ, NQ'. congruence. } subst q'. rewrite EX, (FN _ _ I eq_refl).
      destruct (C38_fixed_fill_is_constant spline l _ _ _ (Some q) period P HN) as (full & E & _ & C & K). exists full. auto.
    + intros s' [G'|[_ G']] NZ; [exfalso; apply NI; exists (VStr s'); split; [auto|discriminate]|].
      unfold given in G, G'. rewrite G in G'. inversion G'; subst s'. auto.
    + intros _ [G'|G']; unfold given in G; [rewrite G in G'; discriminate|unfold given in G'; rewrite G in G'; discriminate].
  - split; [|split; [|split]].
    + intros G0. exfalso. apply NI. exists (VStr "zero"). split; [auto|discriminate].
    + intros v q _ G' _ _. exfalso. unfold given in G'. destruct G as [G|G]; [rewrite G in G'; discriminate|unfold given in G; rewrite G in G'; discriminate].
    + intros s' [G'|[_ G']] _; [exfalso; apply NI; exists (VStr s'); split; [auto|discriminate]|].
      exfalso. unfold given in G'. destruct G as [G|G]; [rewrite G in G'; discriminate|unfold given in G; rewrite G in G'; discriminate].
    + auto.
Qed.
(** C38 REFUTED for imputeMode 'fixed': the value never reaches the filling, the
    gaps stay empty. The legacy 'zero' is dropped as a whole. *)
Theorem C38_fixed_value_refuted : forall d (rows : list (point T)) l a per, asked majority d rows l a per -> f_need (a_fup a) = true ->
  forall spline period,
  (given "imputeMode" d (VStr "fixed") ->
     exists full, fill_up_on_demand spline (a_fup a) (a_mode a) (a_fixed a) period = Ok (Some (full, f_tags (a_fup a))) /\
       forall p, p < f_all (a_fup a) -> ~ is_given l p -> nth_error full p = Some None) /\
  (~ impute_given d -> given "fillUpMode" d (VStr "zero") -> fill_up_on_demand spline (a_fup a) (a_mode a) (a_fixed a) period = Ok None).
Proof.
  intros d rows l a per A HN spline period. pose proof (asked_fill _ _ _ _ _ _ A) as F. pose proof (asked_process _ _ _ _ _ _ A) as P.
  destruct F as [(s & G & D)|[(NI & s & G & I & D)|(NI & G & EM & EX)]].
  - split.
    + intros G'. unfold given in G, G'. rewrite G in G'. inversion G'; subst s. destruct D as [(X & _)|(_ & I & ->)]; [discriminate|].
      assert (a_mode a = FMFixed) as ->.
      { simpl in I. repeat (destruct I as [I|I]; [inversion I; auto|]). contradiction. }
      destruct (C38_fixed_fill_is_constant spline l _ _ _ None period P HN) as (full & E & _ & C & K). exists full. auto.
    + intros NI. exfalso. apply NI. exists (VStr s). split; [auto|discriminate].
  - split.
    + intros G'. exfalso. apply NI. exists (VStr "fixed"). split; [auto|discriminate].
    + intros _ G'. unfold given in G, G'. rewrite G in G'. inversion G'; subst s.
      assert (a_mode a = FMZero) as ->.
      { simpl in I. repeat (destruct I as [I|I]; [inversion I; auto|]). contradiction. }
      reflexivity.
  - split.
    + intros G'. exfalso. apply NI. exists (VStr "fixed"). split; [auto|discriminate].
    + intros _ G'. exfalso. unfold given in G'. destruct G as [G|G]; [rewrite G in G'; discriminate|unfold given in G; rewrite G in G'; discriminate].
Qed.

(** ** With the package's own detector *)
Section Detector.
(** External routines, as in Detect_props. *)
Variable cst : Qc.
Variable std : list Qc -> Qc.
Variable ppf : Qc -> Z -> Qc.
Variable sqrt : Qc -> Qc.
Variable table : list Qc.
Variable sort sort_desc : list (nat * Qc) -> list (nat * Qc).
Variable trend_detection : list Qc -> option nat -> res (list Qc).
Variable decompose : bool -> list Qc -> nat -> res (list Qc * list Qc).
Variable transform : list Qc -> list Qc.
Variable stationary : list Qc -> bool.
Variable spline : list nat -> list Qc -> nat -> Qc.
Variable period_detection : list (option Qc) -> res nat.
Notation DETECT := (detect_model cst std ppf sqrt table sort sort_desc trend_detection decompose transform
  stationary spline period_detection).
Notation PRED := (predict T to_datetime majority DETECT beyond).

Lemma gap_exists : forall ix vs f, make_fup (Some ix) vs default_maxlen = Ok f -> f_need f = true ->
  exists p, p < f_all f /\ ~ is_given ix p.
Proof.
  intros ix vs f HF HN. destruct (accepted_facts _ _ _ _ HF HN) as (W & _ & _ & _ & _ & _ & _ & NE).
  destruct (make_fup_ok_inv _ _ _ _ NE HF) as (_ & EI & _ & _ & EM & EN & _). apply EN in HN as HM. destruct HM as [HM _].
  destruct (forallb (fun p => if in_dec Nat.eq_dec p (f_indices f) then true else false) (List.seq 0 (f_all f))) eqn:E.
  - exfalso. rewrite forallb_forall in E.
    assert (I : incl (List.seq 0 (f_all f)) (f_indices f)).
    { intros p Ip. specialize (E p Ip). destruct (in_dec Nat.eq_dec p (f_indices f)); [auto|discriminate]. }
    apply NoDup_incl_length in I; [|apply seq_NoDup]. rewrite seq_length, EI, map_length in I. lia.
  - assert (K : exists p, In p (List.seq 0 (f_all f)) /\ ~ In p (f_indices f)).
    { clear - E. induction (List.seq 0 (f_all f)) as [|p t IH]; simpl in E; [discriminate|].
      destruct (in_dec Nat.eq_dec p (f_indices f)) as [Y|N]; [|exists p; simpl; auto].
      destruct IH as (q & Iq & Nq); auto. exists q. simpl. auto. }
    destruct K as (p & Ip & Np). apply in_seq in Ip. exists p. split; [lia|]. rewrite (is_given_in ix vs default_maxlen f p HF HN). auto.
Qed.
Lemma fixed_none_fails : forall ix a d per last out, make_fup (Some ix) (map Some (a_values a)) default_maxlen = Ok (a_fup a) ->
  f_need (a_fup a) = true -> a_mode a = FMFixed -> a_fixed a = None -> DETECT a d per last <> Ok out.
Proof.
  intros ix a d per last [[[rows p] m] b] HF HN EM EX H.
  destruct (detect_inv _ _ _ _ _ _ _ _ _ _ _ _ _ _ _ _ _ _ _ _ _ H) as (rows0 & E & _). clear H.
  unfold detect_with_model_selection in E. cbv zeta in E. bind_inv E. destruct ((1 <? a0) && _); [discriminate E|].
  rewrite EM, EX in E. replace ((1 <? a0) || fills_without_period FMFixed) with true in E by (destruct (1 <? a0); reflexivity).
  destruct (C38_fixed_fill_is_constant spline ix _ _ _ None (Some (Z.of_nat a0)) HF HN) as (full & EF & LF & _ & K).
  rewrite EF, bind_ok in E. destruct (all_some full) as [s|] eqn:EA; [|discriminate E].
  apply Detect_proofs5.all_some_map in EA. destruct (gap_exists _ _ _ HF HN) as (q & Lq & Nq). specialize (K q Lq Nq).
  rewrite EA, nth_error_map in K. destruct (nth_error s q); discriminate.
Qed.
(** C38. A request with gaps and imputeMode 'fixed' is never answered. *)
Theorem C38_fixed_never_answered : forall o rows d mode, rows <> [] -> decides parameter_rules d None -> (forall s, reads d s -> micro_ok s) ->
  (forall s, reads d s -> good_series to_datetime (s_gran s) (s_interval s) (s_period s) (nofill_of d) rows) ->
  (forall dd, ~ given "detector" d (VDict dd)) -> o__error o = None -> mode_for o d = Some mode ->
  given "imputeMode" d (VStr "fixed") ->
  (forall s l vs f, reads d s -> accepted_indices to_datetime (s_gran s) (s_interval s) rows l -> length vs = length rows ->
     make_fup (Some l) (map Some vs) default_maxlen = Ok f -> f_need f = true) ->
  exists e, result (PRED o (DFrame rows) (Some d)) = Err e.
Proof.
  intros o rows d mode NE H M G ND HE HM GI GAP.
  destruct (predict_accepted to_datetime to_datetime_length majority beyond o rows d mode NE H M G ND HE HM) as (s & l & vs & R & B & AI & L12 & FV & EQ).
  unfold result. rewrite EQ. destruct (make_fup (Some l) (map Some vs) default_maxlen) as [f|e] eqn:EF; [|simpl; eauto]. rewrite bind_ok.
  match goal with |- context [DETECT ?a ?x ?y ?z] => destruct (DETECT a x y z) as [out|e] eqn:ED end; [exfalso|simpl; eauto].
  assert (F : fst (s_fill s) = FMFixed /\ snd (s_fill s) = None).
  { destruct (reads_mode d s R) as [(n & Gn & D)|[(NI & _)|(NI & _)]].
    - unfold given in GI, Gn. rewrite GI in Gn. inversion Gn; subst n. destruct D as [(X & _)|(_ & I & ->)]; [discriminate|].
      split; auto. simpl in I. repeat (destruct I as [I|I]; [inversion I; auto|]). contradiction.
    - exfalso. apply NI. exists (VStr "fixed"). split; [auto|discriminate].
    - exfalso. apply NI. exists (VStr "fixed"). split; [auto|discriminate]. }
  destruct F as [F1 F2]. revert ED. eapply (fixed_none_fails l); cbn [a_values a_fup a_mode a_fixed]; auto.
  apply (GAP s l vs f R AI); auto. symmetry. apply (Forall2_length _ _ _ _ _ FV).
Qed.

(** C80. A whole answer to an ENTIRE request: one outcome per submitted point,
    in order, under its timestamp (its position if timestamps are missing); a
    point is reported anomalous exactly when it lies outside its own band. *)
Theorem C80_entire_request : forall o rows d r, rows <> [] -> decides parameter_rules d None -> (forall s, reads d s -> micro_ok s) ->
  (forall s, reads d s -> good_series to_datetime (s_gran s) (s_interval s) (s_period s) (nofill_of d) rows) ->
  (forall dd, ~ given "detector" d (VDict dd)) -> o__error o = None -> mode_for o d = Some (VMode ENTIRE) ->
  (forall l a per, asked majority d rows l a per -> through_knots spline l a) ->
  result (PRED o (DFrame rows) (Some d)) = Ok r ->
  exists outs p, r = AEntire T outs p /\ length outs = length rows /\
    forall i t o x, nth_error outs i = Some (t, o) -> nth_error rows i = Some x ->
      labelled rows i t /\ exists v, w_value x = Num (Fin v) /\ consistent_outcome v o /\ (0 <= o_upper o)%Qc /\ (0 <= o_lower o)%Qc.
Proof.
  intros o rows d r NE H M G ND HE HM TK HR.
  destruct (predict_accepted to_datetime to_datetime_length majority beyond o rows d (VMode ENTIRE) NE H M G ND HE HM) as (s & l & vs & R & B & AI & L12 & FV & EQ).
  unfold result in HR. rewrite EQ in HR. destruct (make_fup (Some l) (map Some vs) default_maxlen) as [f|e] eqn:EF; [|discriminate]. rewrite bind_ok in HR.
  pose proof (reads_asked T majority d s rows l vs f R FV EF (interval_nonneg d s H R)) as A.
  set (a := mkArgs vs f _ _ _ _ _ _ _ _ _) in *.
  destruct (DETECT a (mkDet None None) (s_period s) false) as [[[[out p] m] b]|e] eqn:ED; [|discriminate]. rewrite bind_ok in HR. cbv beta iota zeta in HR.
  destruct (length (labels T rows) =? length out) eqn:EL; [|discriminate]. cbn [negb] in HR.
  destruct (get_margins_entire (s_v1 s) (is_sr m) out (qz (s_sensitivity s))) as [os|e] eqn:EO; [|discriminate]. rewrite bind_ok in HR. inversion HR; subst r.
  destruct (C66_entire_answer cst std ppf sqrt table sort sort_desc trend_detection decompose transform stationary spline period_detection
    (label T) l a (mkDet None None) (s_period s) (s_v1 s) (s_sensitivity s) (labels T rows) (zip_pair (labels T rows) os) p EF (TK _ _ _ A) B) as (E1 & E2 & E3).
  { unfold predict_entire. rewrite ED, bind_ok. cbv beta iota zeta. rewrite EL. cbn [negb]. rewrite EO. reflexivity. }
  eexists. exists p. split; [reflexivity|]. cbn [a_values a] in E2. pose proof (Forall2_length _ _ _ _ _ FV) as LV. split; [congruence|].
  intros i t o0 x Ho Hx. split.
  - apply labels_spec. rewrite <- E1, nth_error_map, Ho. reflexivity.
  - assert (K : exists v, nth_error vs i = Some v /\ w_value x = Num (Fin v)).
    { clear - FV Hx. revert i Hx. induction FV as [|y v rows vs X F IH]; intros [|i] Hx; simpl in *; try discriminate; [inversion Hx; subst; eauto|eauto]. }
    destruct K as (v & Hv & Wv). exists v. split; auto. apply (E3 i t o0 v Ho Hv).
Qed.
(** C80. LATEST requests: the outcome of the last submitted point. *)
Theorem C80_latest_request : forall o rows d r, rows <> [] -> decides parameter_rules d None -> (forall s, reads d s -> micro_ok s) ->
  (forall s, reads d s -> good_series to_datetime (s_gran s) (s_interval s) (s_period s) (nofill_of d) rows) ->
  (forall dd, ~ given "detector" d (VDict dd)) -> o__error o = None -> mode_for o d = Some (VMode LATEST) ->
  (forall l a per, asked majority d rows l a per -> through_knots spline l a) ->
  result (PRED o (DFrame rows) (Some d)) = Ok r ->
  exists t out p w x v, r = ALatest T t out p w /\ labelled rows (length rows - 1) t /\
    nth_error rows (length rows - 1) = Some x /\ w_value x = Num (Fin v) /\
    consistent_outcome v out /\ (0 <= o_upper out)%Qc /\ (0 <= o_lower out)%Qc /\
    (p <> 0 -> w = 4 * p + 1).
Proof.
  intros o rows d r NE H M G ND HE HM TK HR.
  destruct (predict_accepted to_datetime to_datetime_length majority beyond o rows d (VMode LATEST) NE H M G ND HE HM) as (s & l & vs & R & B & AI & L12 & FV & EQ).
  unfold result in HR. rewrite EQ in HR. destruct (make_fup (Some l) (map Some vs) default_maxlen) as [f|e] eqn:EF; [|discriminate]. rewrite bind_ok in HR.
  pose proof (reads_asked T majority d s rows l vs f R FV EF (interval_nonneg d s H R)) as A.
  set (a := mkArgs vs f _ _ _ _ _ _ _ _ _) in *.
  destruct (DETECT a (mkDet None None) (s_period s) true) as [[[[out p] m] b]|e] eqn:ED; [|discriminate]. rewrite bind_ok in HR. cbv beta iota zeta in HR.
  destruct (length (labels T rows) =? length out) eqn:EL; [|discriminate]. cbn [negb] in HR.
  destruct (get_margins_last (s_v1 s) (is_sr m) out (qz (s_sensitivity s))) as [oc|e] eqn:EO; [|discriminate]. rewrite bind_ok in HR.
  destruct (last_opt (labels T rows)) as [t|e] eqn:ET; [|discriminate]. rewrite bind_ok in HR. inversion HR; subst r.
  destruct (C66_latest_answer cst std ppf sqrt table sort sort_desc trend_detection decompose transform stationary spline period_detection
    (label T) l a (mkDet None None) (s_period s) (s_v1 s) (s_sensitivity s) (labels T rows) t oc p (suggested_window (s_gran s) p) EF (TK _ _ _ A) B)
    as (E1 & E2 & v & Hv & E3 & E4 & E5).
  { unfold predict_last. rewrite ED, bind_ok. cbv beta iota zeta. rewrite EL. cbn [negb]. rewrite EO, bind_ok, ET. reflexivity. }
  pose proof (Forall2_length _ _ _ _ _ FV) as LV. cbn [a_values a] in E1, E2, Hv. rewrite <- LV in E2, Hv.
  destruct (F2_nth _ _ _ _ _ _ _ FV Hv) as (x & Hx & Wx). exists t, oc, p, (suggested_window (s_gran s) p), x, v.
  split; auto. split; [apply labels_spec; auto|]. split; auto. split; auto. split; auto. split; auto. split; auto.
  intros NP. unfold suggested_window. destruct p; [congruence|reflexivity].
Qed.
End Detector.
End Props.

Print Assumptions C34_bad_parameter.
Print Assumptions C34_bad_series.
Print Assumptions C34_request_error_refuted.
Print Assumptions C35_series_checks.
Print Assumptions C35_accepts_iff.
Print Assumptions C36_repeated_request_refuted.
Print Assumptions C37_requested_modes_ignored.
Print Assumptions C37_first_mode_taken.
Print Assumptions C38_fill_as_asked.
Print Assumptions C38_fixed_value_refuted.
Print Assumptions C38_fixed_never_answered.
Print Assumptions C80_entire_request.
Print Assumptions C80_latest_request.
Print Assumptions C81_detector_arguments.
Print Assumptions C82_usable_indices.

(** * Concrete requests *)
(** A detector that finds nothing, timestamps that are already parsed. *)
Definition calm : args -> detector_arg -> option nat -> bool -> res (list row * nat * model_id * bool) :=
  fun a _ _ _ => Ok (map (fun v => mkRow v v v 0%Qc false false false) (a_values a), 0, DynamicThreshold, false).
Definition parsed : list stamp -> option (list stamp) := fun l => Some l.
Definition ask := predict stamp parsed (fun _ => 0%Qc) calm (fun _ _ => Err Generic).
Definition day (n : Z) : stamp := at_ 2019 1 n 0 0 0 0.
Definition daily (days : list Z) : list (point stamp) :=
  map (fun n => mkPoint (Some (day n)) (Num (Fin (qz n)))) days.
Definition twelve : list (point stamp) := daily [1; 2; 3; 4; 5; 6; 7; 8; 9; 10; 11; 12]%Z.
Definition gappy : list (point stamp) := daily [1; 2; 3; 5; 6; 7; 8; 9; 10; 11; 12; 13]%Z.
Lemma parsed_length : forall l st, parsed l = Some st -> length st = length l.
Proof. intros l st H. inversion H. auto. Qed.

(** Accepted parameters, shown by the specification of the checks. *)
Lemma params_decide : forall d, match parse_params d with
  | Next _ _ => decides parameter_rules d None
  | Stop c m _ => decides parameter_rules d (Some (Refused c m))
  | Raise e _ => decides parameter_rules d (Some (Raises e))
  end.
Proof. intros d. pose proof (parse_params_spec d) as K. destruct (parse_params d); auto. apply K. Qed.
Lemma params_ok : forall d s e, parse_params d = Next s e -> decides parameter_rules d None.
Proof. intros d s e H. pose proof (params_decide d) as K. rewrite H in K. auto. Qed.
Lemma params_stop : forall d c m e, parse_params d = Stop c m e -> decides parameter_rules d (Some (Refused c m)).
Proof. intros d c m e H. pose proof (params_decide d) as K. rewrite H in K. auto. Qed.
Lemma params_raise : forall d x e, parse_params d = Raise x e -> decides parameter_rules d (Some (Raises x)).
Proof. intros d x e H. pose proof (params_decide d) as K. rewrite H in K. auto. Qed.

Definition asks_entire : dict := [("granularity", VStr "daily"); ("detect_mode", VMode ENTIRE)].
Definition asks_latest : dict := [("granularity", VStr "daily"); ("detect_mode", VMode LATEST)].
Definition is_entire (r : res (reply stamp)) (n : nat) : Prop := exists l p, r = Ok (AEntire stamp l p) /\ length l = n.
Definition is_latest (r : res (reply stamp)) : Prop := exists t o p w, r = Ok (ALatest stamp t o p w).

(** C37 REFUTED: the second request asks for LATEST and is answered as ENTIRE;
    a new object answers it as LATEST. *)
Theorem C37_mode_of_request_refuted :
  (exists r1 r2 o, run parsed (fun _ => 0%Qc) (fun _ _ => Err Generic) calm (fresh VNone) [(DFrame twelve, Some asks_entire); (DFrame twelve, Some asks_latest)] = ([r1; r2], o) /\
     is_entire r1 12 /\ is_entire r2 12) /\
  is_latest (result (ask (fresh VNone) (DFrame twelve) (Some asks_latest))).
Proof.
  split.
  - do 3 eexists. split; [vm_compute; reflexivity|]. split; do 2 eexists; split; reflexivity.
  - do 4 eexists. vm_compute. reflexivity.
Qed.
Print Assumptions C37_mode_of_request_refuted.

(** C36: an answered request. *)
Example C36_case : is_entire (result (ask (fresh VNone) (DFrame twelve) (Some asks_entire))) 12 /\
  result (ask (fresh VNone) (DFrame twelve) (parameters (ask (fresh VNone) (DFrame twelve) (Some asks_entire)))) = Err TypeErr.
Proof. split; [do 2 eexists; split; vm_compute; reflexivity|vm_compute; reflexivity]. Qed.

(** C34 REFUTED: twelve points do not cover two periods of 100; the code is
    stored, but the request is answered. *)
Theorem C34_invalid_request_answered_refuted :
  exists d, decides parameter_rules d None /\
    o_code (object (ask (fresh VNone) (DFrame twelve) (Some d))) = Some "InvalidModelArgument" /\
    o_msg (object (ask (fresh VNone) (DFrame twelve) (Some d))) = Some "InsufficientPoints" /\
    is_entire (result (ask (fresh VNone) (DFrame twelve) (Some d))) 12.
Proof.
  exists (("period", VInt 100) :: asks_entire). split; [eapply params_ok; vm_compute; reflexivity|].
  split; [vm_compute; reflexivity|]. split; [vm_compute; reflexivity|]. do 2 eexists; split; vm_compute; reflexivity.
Qed.
Print Assumptions C34_invalid_request_answered_refuted.

Example C34_alpha_case : let d := ("alpha", VInt 0) :: asks_entire in
  decides parameter_rules d (Some (Refused "InvalidModelArgument" "InvalidAlpha")) /\
  result (ask (fresh VNone) (DFrame twelve) (Some d)) = Err TypeErr.
Proof.
  split; [eapply params_stop; vm_compute; reflexivity|vm_compute; reflexivity].
Qed.
Example C34_list_case : let d := [("granularity", VList [])] in
  decides parameter_rules d (Some (Raises TypeErr)) /\ result (ask (fresh VNone) (DFrame twelve) (Some d)) = Err TypeErr.
Proof.
  split; [eapply params_raise; vm_compute; reflexivity|vm_compute; reflexivity].
Qed.
(** The reading of a dictionary that names a daily granularity and nothing else. *)
Lemma daily_reads : forall d s, reads d s -> get "granularity" d = Some (VStr "daily") -> get "customInterval" d = None -> get "period" d = None ->
  s_gran s = Daily /\ s_interval s = None /\ s_period s = None.
Proof.
  intros d s R G I P. destruct (reads_granularity d s R) as [[E _]|(v & E & n & -> & M)]; [congruence|]. unfold given in E. rewrite G in E. inversion E; subst n.
  destruct (reads_interval d s R) as [[_ EI]|(v & E2 & _)]; [|unfold given in E2; congruence].
  destruct (reads_period d s R) as [[_ EP]|(v & E2 & _)]; [|unfold given in E2; congruence].
  split; auto. simpl in M. repeat (destruct M as [M|M]; [inversion M; auto|]). contradiction.
Qed.
Lemma daily_good : forall days l nofill, 12 <= length days <= 20 -> Forall (fun n => 1 <= n <= 31)%Z days ->
  (forall i a b, nth_error days i = Some a -> nth_error days (S i) = Some b -> (a < b)%Z) ->
  get_indices_from_timestamps Daily None (map day days) = Ok (Some l, None) ->
  good_series parsed Daily None None nofill (daily days).
Proof.
  intros days l nofill L F A E. unfold good_series, daily. rewrite map_length. split; [lia|]. split; [lia|]. split.
  - intros x I. apply in_map_iff in I. destruct I as (n & <- & I). exists (qz n). split; auto. rewrite Forall_forall in F. specialize (F n I).
    split.
    + apply Qcle_trans with (qz 1)%Qc; [vm_compute; discriminate|]. apply (proj1 (qz_le 1 n)). lia.
    + apply Qcle_trans with (qz 31)%Qc; [|vm_compute; discriminate]. apply (proj1 (qz_le n 31)). lia.
  - intros _. exists (map day days), l. split; [|split; [|split; [exact E|discriminate]]].
    + exists (map day days). split; auto. clear. induction days; simpl; constructor; auto.
    + intros i a b Ha Hb. rewrite nth_error_map in Ha, Hb. destruct (nth_error days i) as [x|] eqn:Ex; [|discriminate].
      destruct (nth_error days (S i)) as [y|] eqn:Ey; [|discriminate]. inversion Ha; inversion Hb; subst. specialize (A i x y Ex Ey).
      unfold before, stamp_ltb, day, at_. cbn [s_date yr mo dy s_us]. rewrite Z.ltb_irrefl, Z.eqb_refl. cbn.
      destruct (Z.ltb_spec x y); [reflexivity|lia].
Qed.

(** A request over thirteen days without the fourth, to be filled linearly. *)
Definition asks_linear : dict := ("imputeMode", VStr "linear") :: asks_entire.
Definition asks_fixed : dict := ("imputeMode", VStr "fixed") :: ("imputeFixedValue", VInt 7) :: asks_entire.
Definition gappy_days : list Z := [1; 2; 3; 5; 6; 7; 8; 9; 10; 11; 12; 13]%Z.
Definition gappy_ix : list Z := [0; 1; 2; 4; 5; 6; 7; 8; 9; 10; 11; 12]%Z.
Lemma gappy_good : forall nofill, good_series parsed Daily None None nofill gappy.
Proof.
  intros nofill. apply (daily_good gappy_days gappy_ix); [simpl; lia|repeat constructor; lia| |vm_compute; reflexivity].
  intros i a b. do 12 (destruct i as [|i]; [intros E F; inversion E; inversion F; subst; lia|]). destruct i; discriminate.
Qed.
Lemma gappy_read : forall st, read_times parsed gappy st -> st = map day gappy_days.
Proof.
  intros st H. apply (read_times_fun parsed gappy st (map day gappy_days) H).
  exists (map day gappy_days). split; [|reflexivity]. unfold gappy, daily, gappy_days. repeat constructor.
Qed.
Lemma gappy_index : forall l, accepted_indices parsed Daily None gappy l -> l = gappy_ix.
Proof.
  intros l [[X _]|(_ & _ & st & R & E)]; [discriminate|]. rewrite (gappy_read st R) in E. vm_compute in E. inversion E. reflexivity.
Qed.
(** The common hypotheses of C34_bad_series, C35, C38, C80 and C81 hold. *)
Definition usual (d : dict) (rows : list (point stamp)) : Prop :=
  rows <> [] /\ decides parameter_rules d None /\ (forall s, reads d s -> micro_ok s) /\
  (forall s, reads d s -> good_series parsed (s_gran s) (s_interval s) (s_period s) (nofill_of d) rows) /\
  (forall dd, ~ given "detector" d (VDict dd)) /\ mode_for (fresh VNone) d = Some (VMode ENTIRE).
Lemma gappy_usual : forall d, In d [asks_entire; asks_linear; asks_fixed] -> usual d gappy.
Proof.
  intros d I. split; [discriminate|].
  assert (P : decides parameter_rules d None) by (simpl in I; destruct I as [<-|[<-|[<-|[]]]]; eapply params_ok; vm_compute; reflexivity).
  assert (Q : get "granularity" d = Some (VStr "daily") /\ get "customInterval" d = None /\ get "period" d = None /\ get "detector" d = None /\ get "detect_mode" d = Some (VMode ENTIRE))
    by (simpl in I; destruct I as [<-|[<-|[<-|[]]]]; repeat split).
  destruct Q as (Q1 & Q2 & Q3 & Q4 & Q5). split; [exact P|]. split; [|split; [|split]].
  - intros s R. destruct (daily_reads d s R Q1 Q2 Q3) as (G & _). intros X. congruence.
  - intros s R. destruct (daily_reads d s R Q1 Q2 Q3) as (-> & -> & ->). apply gappy_good.
  - intros dd X. unfold given in X. congruence.
  - unfold mode_for. simpl. exact Q5.
Qed.
Lemma gappy_wf : forall vs : list Qc, length vs = length gappy -> well_formed_points gappy_ix (map Some vs).
Proof.
  intros vs L. apply (C82_usable_indices parsed parsed_length gappy Daily None None false gappy_ix vs (gappy_good false)); auto.
  - right. split; [discriminate|]. split; [reflexivity|]. exists (map day gappy_days). split; [|vm_compute; reflexivity].
    exists (map day gappy_days). split; [|reflexivity]. unfold gappy, daily, gappy_days. repeat constructor.
  - right. exists 86400%Z. split; [reflexivity|]. split; [reflexivity|]. intros st R. rewrite (gappy_read st R).
    assert (V : forall n, (1 <= n <= 31)%Z -> stamp_ok (day n)).
    { intros n B. unfold stamp_ok, day, at_. cbn [s_date s_us yr mo dy]. unfold second_us. split; [|lia].
      apply Dates_proofs.valid_iff. cbn. lia. }
    split.
    + unfold gappy_days. cbn [map]. repeat (constructor; [apply V; lia|]). constructor.
    + left. unfold gappy_days. cbn [map].
      repeat (constructor; [split; [match goal with |- whole_second ?t => exists (epoch_us t / second_us)%Z; vm_compute; reflexivity end|vm_compute; reflexivity]|]).
      constructor.
Qed.
Example C35_case : usual asks_entire gappy /\ o_code (object (ask (fresh VNone) (DFrame gappy) (Some asks_entire))) = None /\
  o_msg (object (ask (fresh VNone) (DFrame (daily [1; 2; 3; 5; 4; 7; 8; 9; 10; 11; 12; 13]%Z)) (Some asks_entire))) = Some "InvalidSeriesOrder" /\
  o_msg (object (ask (fresh VNone) (DFrame (daily [1; 2; 3; 5; 5; 4; 8; 9; 10; 11; 12; 13]%Z)) (Some asks_entire))) = Some "DuplicateSeriesTimestamp".
Proof. split; [apply gappy_usual; simpl; auto|]. split; [vm_compute; reflexivity|]. split; vm_compute; reflexivity. Qed.

(** C34: eleven points, and twelve points of which one is an hour late. *)
Definition eleven : list (point stamp) := daily [1; 2; 3; 5; 6; 7; 8; 9; 10; 11; 12]%Z.
Definition late : list (point stamp) := removelast twelve ++ [mkPoint (Some (at_ 2019 1 12 1 0 0 0)) (Num (Fin 0%Qc))].
Example C34_series_case :
  result (ask (fresh VNone) (DFrame eleven) (Some asks_entire)) = Err KeyErr /\
  decides (series_rules parsed Daily None None false) eleven (Some ("InvalidSeries", "NotEnoughPoints")) /\
  o_code (object (ask (fresh VNone) (DFrame eleven) (Some asks_entire))) = Some "InvalidSeries" /\
  result (ask (fresh VNone) (DFrame late) (Some asks_entire)) = Err ValueErr /\
  o_msg (object (ask (fresh VNone) (DFrame late) (Some asks_entire))) = Some "InvalidSeriesTimestamp".
Proof.
  split; [vm_compute; reflexivity|]. split; [apply decides_hit; simpl; lia|]. split; [vm_compute; reflexivity|]. split; vm_compute; reflexivity.
Qed.

(** The package's detector with the externals of Detect_props. *)
Notation ex_detect := (detect_model ppf34 (fun _ => qz 1) (fun _ _ => 0%Qc) (fun x => x) ex_table sort_pairs (fun l => l) ex_trend
  (fun _ s _ => Ok (s, s)) (fun l => l) (fun _ => true) (fun _ _ _ => 0%Qc) (fun _ => Ok 0)).
Definition ask_detector := predict stamp parsed (fun _ => 0%Qc) ex_detect (fun _ _ => Err Generic).
Example C80_case : usual asks_linear gappy /\
  (forall l a per, asked (fun _ => 0%Qc) asks_linear gappy l a per -> through_knots (fun _ _ _ => 0%Qc) l a) /\
  is_entire (result (ask_detector (fresh VNone) (DFrame gappy) (Some asks_linear))) 12 /\
  is_latest (result (ask_detector (fresh (VMode LATEST)) (DFrame gappy) (Some asks_linear))).
Proof.
  split; [apply gappy_usual; simpl; auto|]. split; [|split].
  - intros l a per A EM. exfalso. destruct (asked_fill _ _ _ _ _ _ A) as [(s & G & D)|[(NI & _)|(NI & _)]].
    + inversion G; subst s. destruct D as [(X & _)|(_ & I & _)]; [discriminate|]. rewrite EM in I. simpl in I.
      repeat (destruct I as [I|I]; [inversion I|]). contradiction.
    + apply NI. exists (VStr "linear"). split; [reflexivity|discriminate].
    + apply NI. exists (VStr "linear"). split; [reflexivity|discriminate].
  - do 2 eexists. split; vm_compute; reflexivity.
  - do 4 eexists. vm_compute. reflexivity.
Qed.
Example C81_case : usual asks_entire gappy /\
  forall s l (vs : list Qc), reads asks_entire s -> accepted_indices parsed (s_gran s) (s_interval s) gappy l -> length vs = length gappy ->
     well_formed_points l (map Some vs).
Proof.
  split; [apply gappy_usual; simpl; auto|]. intros s l vs R A L.
  destruct (daily_reads asks_entire s R eq_refl eq_refl eq_refl) as (EG & EI & _). rewrite EG, EI in A. rewrite (gappy_index l A). apply gappy_wf; auto.
Qed.
(** C38: seven is to be filled in; there is a gap; the request fails. *)
Example C38_case : usual asks_fixed gappy /\
  (forall s l (vs : list Qc) f, reads asks_fixed s -> accepted_indices parsed (s_gran s) (s_interval s) gappy l -> length vs = length gappy ->
     make_fup (Some l) (map Some vs) default_maxlen = Ok f -> f_need f = true) /\
  result (ask_detector (fresh VNone) (DFrame gappy) (Some asks_fixed)) = Err Generic /\
  result (ask_detector (fresh VNone) (DFrame gappy) (Some (("imputeMode", VStr "zero") :: asks_entire))) <> Err Generic.
Proof.
  split; [apply gappy_usual; simpl; auto|]. split; [|split; [vm_compute; reflexivity|vm_compute; discriminate]].
  intros s l vs f R A L E.
  destruct (daily_reads asks_fixed s R eq_refl eq_refl eq_refl) as (EG & EI & _). rewrite EG, EI in A. rewrite (gappy_index l A) in E.
  destruct (make_fup_ok_inv gappy_ix _ _ f ltac:(discriminate) E) as (_ & _ & _ & EA & EM & EN & _).
  apply EN. rewrite EM, EA. split; vm_compute; congruence.
Qed.
