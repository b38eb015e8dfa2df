(** Property C96: constant series. *)
From Coq Require Import String List Arith ZArith QArith Qcanon Qround Lia Lqa Bool Sorted.
From Verif Require Import Base Num Sorting Kernel_model Kernel_proofs FillUp_model FillUp_spec FillUp_proofs FillUp_proofs6 FillUp_props
  Helpers_model Margins_model SR_model SR_proofs2 Detect_model Detect_spec Detect_proofs Detect_proofs7 Detect_props
  Dates_model Request_model Request_spec Request_proofs Request_proofs2 Request_proofs3 Request_proofs4 Request_proofs6 Request_proofs8 Request_props
  Period_model Period_spec Period_props Trend_model Trend_spec Trend_props Stl_model Stl_spec Stl_proofs Stl_props
  Pipe_model Pipe_spec Pipe_proofs Pipe_proofs2 Pipe_proofs3 Pipe_props Const_spec Const_proofs Const_proofs2.
Import ListNotations.
Open Scope string_scope.
Open Scope nat_scope.

Lemma const_modest : forall a period c, all_eq c (a_values a) -> (a_mode a = FMFixed -> f_need (a_fup a) = true -> a_fixed a = Some c) ->
  (exists p, period = Some p /\ 1 < p) \/ (Qcabs c <= qz (10 ^ 34))%Qc -> modest_args a period.
Proof.
  intros a period c HC HX [P|B]; [left; auto|right]. split; [intros x I; rewrite (HC x I); auto|].
  intros q HN HM HQ. rewrite (HX HM HN) in HQ. inversion HQ; subst; auto.
Qed.
(** C96. The detector answers every constant series of at least 12 points (of
    size up to 10^34, unless a period is given), with no period unless one was
    given, the constant expected everywhere and no anomaly anywhere. *)
Theorem C96_constant_series : forall L ix a period lm c, libs_ok L -> steady L ->
  make_fup (Some ix) (map Some (a_values a)) default_maxlen = Ok (a_fup a) ->
  12 <= length ix -> all_eq c (a_values a) ->
  (a_mode a = FMFixed -> f_need (a_fup a) = true -> a_fixed a = Some c) ->
  (0 <= a_ratio a <= Q2Qc (49 # 100))%Qc ->
  match period with None => True | Some p => period_usable ix (a_mode a) (a_ratio a) p end ->
  (exists p, period = Some p /\ 1 < p) \/ (Qcabs c <= qz (10 ^ 34))%Qc ->
  exists rows m b, whole_detect L a (mkDet None None) period lm = Ok (rows, match period with Some p => p | None => 0 end, m, b) /\
    length rows = length ix /\ forall r, In r rows -> quiet_row c r.
Proof.
  intros L ix a period lm c OK ST HF L12 HC HX HR HP HB.
  assert (MA := const_modest a period c HC HX HB).
  assert (HX' : a_mode a = FMFixed -> f_need (a_fup a) = true -> a_fixed a <> None) by (intros A B; rewrite (HX A B); discriminate).
  assert (K : exists rows p m b, whole_detect L a (mkDet None None) period lm = Ok (rows, p, m, b) /\ length rows = length ix).
  { destruct period as [p|].
    - destruct (C91_detector_answers L ix a (Some p) lm OK HF L12 HX' HR HP MA) as (rows & q & m & b & E & _ & LR). eauto 6.
    - assert (BC : (Qcabs c <= qz (10 ^ 34))%Qc) by (destruct HB as [(p & X & _)|X]; [discriminate|auto]).
      rewrite (period_none L OK ST ix c a lm HF L12 HC HX BC).
      destruct (C91_detector_answers L ix a (Some 0) lm OK HF L12 HX' HR (or_introl (Nat.le_0_l 1)) (const_modest a (Some 0) c HC HX (or_intror BC))) as (rows & q & m & b & E & _ & LR). eauto 6. }
  destruct K as (rows & p & m & b & E & LR). destruct (select_const L OK ST ix c a period lm rows p m b HF L12 HC HX) as [-> Q]; auto.
  { intros ->. destruct HB as [(q & X & _)|X]; [discriminate|auto]. }
  eauto 6.
Qed.
Print Assumptions C96_constant_series.

(** Margins of quiet rows. *)
Lemma zip3_in : forall A B C D (f : A -> B -> C -> D) a b c z, In z (zip3 f a b c) -> exists x y w, In w c /\ z = f x y w.
Proof.
  induction a as [|x s IH]; intros [|y t] [|w u] z H; simpl in H; try contradiction. destruct H as [<-|H]; [exists x, y, w; simpl; auto|].
  destruct (IH _ _ _ H) as (x' & y' & w' & I & E). exists x', y', w'. simpl; auto.
Qed.
Lemma mapM2_in : forall A B C (f : A -> B -> res C) a b l z, mapM2 f a b = Ok l -> In z l -> exists x y, In y b /\ f x y = Ok z.
Proof.
  induction a as [|x s IH]; intros [|y t] l z H I; simpl in H; try (inversion H; subst; contradiction).
  bind_inv H. bind_inv H. inversion H; subst. destruct I as [<-|I]; [exists x, y; simpl; auto|].
  destruct (IH _ _ _ E0 I) as (x' & y' & J & F). exists x', y'. simpl; auto.
Qed.
Lemma last_opt_in : forall A (l : list A) x, last_opt l = Ok x -> In x l.
Proof. intros A l x H. unfold last_opt in H. destruct (rev l) eqn:E; inversion H; subst. apply in_rev. rewrite E. left; auto. Qed.

Section Margins.
Variable c : Qc.
Variable rows : list row.
Hypothesis HQ : forall r, In r rows -> quiet_row c r.
Variable sens : Qc.
Lemma quiet_v1 : forall sr l o, get_margins_v1 sr rows sens = Ok l -> In o l -> quiet_outcome c o.
Proof.
  assert (K : forall ms l o, refine_margins rows sens ms = Ok l -> In o l -> quiet_outcome c o).
  { intros ms l o E I. assert (RR : rows <> []) by (intros X; rewrite X in E; discriminate).
    unfold refine_margins in E. destruct rows as [|r0 rs] eqn:ER; [congruence|]. rewrite <- ER in *. clear ER RR.
    inversion E; subst l. apply zip3_in in I. destruct I as (ub & lb & r & I & ->). destruct (HQ r I) as (_ & X & A & N & P).
    unfold refine_row, quiet_outcome. cbn [o_expected o_anomaly o_neg o_pos o_severity]. rewrite A, N, P. cbn [andb]. rewrite andb_false_r.
    cbn. auto. }
  intros sr l o. unfold get_margins_v1. destruct sr; apply K.
Qed.
Lemma quiet_v2 : forall u r o, In r rows -> v2_last_point sens u r = Ok o \/ v2_entire_point sens u r = Ok o -> quiet_outcome c o.
Proof.
  intros u r o I H. destruct (HQ r I) as (_ & X & A & _ & _). unfold v2_last_point, v2_entire_point in H. rewrite A in H.
  destruct H as [H|H]; bind_inv H; bind_inv H; inversion H; subst; unfold quiet_outcome; cbn; rewrite ?andb_false_r; cbn; auto.
Qed.
Lemma quiet_entire : forall v1 sr l o, get_margins_entire v1 sr rows sens = Ok l -> In o l -> quiet_outcome c o.
Proof.
  intros v1 sr l o H I. unfold get_margins_entire in H. destruct v1; [eapply quiet_v1; eauto|].
  unfold get_margins_v2_entire in H. assert (E : mapM2 (v2_entire_point sens) (calculate_boundary_units rows) rows = Ok l) by (destruct rows; [discriminate|exact H]).
  destruct (mapM2_in _ _ _ _ _ _ _ _ E I) as (u & r & J & F). eapply quiet_v2; eauto.
Qed.
Lemma quiet_last : forall v1 sr o, get_margins_last v1 sr rows sens = Ok o -> quiet_outcome c o.
Proof.
  intros v1 sr o H. unfold get_margins_last in H. destruct v1.
  - bind_inv H. apply last_opt_in in H. eapply quiet_v1; eauto.
  - unfold get_margins_v2_last in H. bind_inv H. bind_inv H. apply last_opt_in in E. eapply quiet_v2; eauto.
Qed.
End Margins.

Section Request.
Context {T : Type}.
Variable to_datetime : list T -> option (list stamp).
Hypothesis to_datetime_length : forall l st, to_datetime l = Some st -> length st = length l.
Variable majority : list Qc -> Qc.
Variable beyond : list (point T) -> settings -> res (reply T).
Variable L : libs.
Notation PRED := (predict T to_datetime majority (whole_detect L) beyond).

(** C96. A request that passes the documented checks, with a constant value, a
    usable period if one is given (above 1, or a constant of size up to 10^34),
    and gaps (if any) not filled with another
    fixed value, is answered: nothing is an anomaly, in either mode and either
    boundary version, the constant is expected and the severity is 0. *)
Theorem C96_request : forall o rows d mode c, libs_ok L -> steady L ->
  rows <> [] -> decides parameter_rules d None -> (forall s, reads d s -> micro_ok s) ->
  (forall s, reads d s -> good_series to_datetime (s_gran s) (s_interval s) (s_period s) (nofill_of d) rows) ->
  (forall dd, ~ Request_spec.given "detector" d (VDict dd)) -> o__error o = None -> mode_for o d = Some mode ->
  (forall s l vs, reads d s -> accepted_indices to_datetime (s_gran s) (s_interval s) rows l -> length vs = length rows ->
     well_formed_points l (map Some vs)) ->
  (forall x, In x rows -> w_value x = Num (Request_model.Fin c)) ->
  (forall l a per, asked majority d rows l a per -> accepted_indices to_datetime (a_gran a) (option_map Z.of_nat (a_interval a)) rows l ->
     (a_mode a = FMFixed -> (Z.of_nat (length l) < last l 0 + 1 <= 17280)%Z -> a_fixed a = Some c) /\
     match per with None => (Qcabs c <= qz (10 ^ 34))%Qc
     | Some p => period_usable l (a_mode a) (a_ratio a) p /\ (1 < p \/ (Qcabs c <= qz (10 ^ 34))%Qc) end) ->
  exists y l a per, asked majority d rows l a per /\ result (PRED o (DFrame rows) (Some d)) = Ok y /\
    quiet_reply c (match per with Some p => p | None => 0 end) y.
Proof.
  intros o rows d mode c OK ST NE H M G ND HE HM HW HC HA.
  destruct (C81_detector_arguments to_datetime to_datetime_length majority beyond o rows d mode NE H M G ND HE HM HW) as (l & a & per & z & A & AI & RZ & K).
  specialize (K (whole_detect L)). cbv zeta in K. destruct K as [_ K].
  destruct (HA l a per A AI) as [FX PU]. pose proof (asked_process _ _ _ _ _ _ A) as HF.
  pose proof (ratio_in_range d _ H (asked_ratio _ _ _ _ _ _ A)) as [R0 R4].
  pose proof (asked_values _ _ _ _ _ _ A) as FV.
  assert (LR : length (a_values a) = length rows) by (symmetry; apply (Forall2_length _ _ _ _ _ FV)).
  assert (AC : all_eq c (a_values a)).
  { clear - FV HC. induction FV as [|x v rs vs E F IH]; [intros y []|]. intros y [<-|I].
    - rewrite (HC x) in E by (left; auto). inversion E; auto.
    - apply IH; auto. intros x' I'. apply HC. right; auto. }
  assert (RD : exists s, reads d s) by (destruct (params_accepted d H) as (s & e & _ & R & _); eauto). destruct RD as (s & RS).
  destruct (G s RS) as (L12 & _).
  assert (LL : length l = length rows).
  { destruct AI as [[_ ->]|(_ & X & _)]; auto. rewrite map_length, seq_length. auto. }
  assert (NL : l <> []) by (destruct l; [simpl in LL; lia|discriminate]).
  destruct (C96_constant_series L l a per (match mode with VMode LATEST => true | _ => false end) c OK ST HF) as (out & m & b & E & LO & Q); auto; try lia.
  - intros EM HN. destruct (make_fup_ok_inv _ _ _ _ NL HF) as (_ & _ & _ & EA & EMs & EN & _). apply EN in HN.
    apply FX; auto. unfold default_maxlen in HN. lia.
  - split; [apply Qclt_le_weak|]; auto.
  - destruct per; [apply PU|auto].
  - destruct per as [p|]; [|auto]. destruct PU as [_ [X|X]]; eauto.
  - destruct (K out _ m b E ltac:(lia)) as (y & Y & P). exists y, l, a, per. split; auto. split; auto.
    destruct y as [ls q|t o' q sw]; cbn [presents quiet_reply] in *.
    + destruct P as (_ & -> & _ & P & _). split; auto. intros t o' I. eapply quiet_entire; [exact Q|exact P|]. change o' with (snd (t, o')). apply in_map; auto.
    + destruct P as (_ & -> & P & _). split; auto. eapply quiet_last; [exact Q|exact P].
Qed.

(** C96. Twelve to 8640 equal numbers without granularity: whatever the other
    parameters, with no period given or one that fits twice. *)
Theorem C96_plain_request : forall o rows d mode c, libs_ok L -> steady L ->
  12 <= length rows -> (Z.of_nat (length rows) <= 8640)%Z -> (Qcabs c <= qz (10 ^ 34))%Qc ->
  (forall x, In x rows -> w_value x = Num (Request_model.Fin c)) ->
  decides parameter_rules d None -> get "granularity" d = None \/ Request_spec.given "granularity" d (VStr "none") ->
  get "period" d = None ->
  (forall dd, ~ Request_spec.given "detector" d (VDict dd)) -> o__error o = None -> mode_for o d = Some mode ->
  exists y, result (PRED o (DFrame rows) (Some d)) = Ok y /\ quiet_reply c 0 y.
Proof.
  intros o rows d mode c OK ST L12 LM BC' HC H HG HP ND HE HM.
  assert (BC : (- value_bound <= c <= value_bound)%Qc).
  { assert (V : (qz (10 ^ 34) <= value_bound)%Qc) by (vm_compute; discriminate). revert BC' V. generalize (qz (10 ^ 34)) value_bound. intros u v BC' V. revert BC'. qmm; intros; split; qlra. }
  assert (NE : rows <> []) by (destruct rows; [simpl in L12; lia|discriminate]).
  assert (FV : forall x, In x rows -> exists q, w_value x = Num (Request_model.Fin q) /\ (- value_bound <= q <= value_bound)%Qc) by eauto.
  assert (NP : forall l a per, asked majority d rows l a per -> per = None).
  { intros l a per A. destruct (asked_period _ _ _ _ _ _ A) as [[_ E]|(v & E & _)]; [auto|unfold Request_spec.given in E; congruence]. }
  destruct (C96_request o rows d mode c OK ST NE H) as (y & l & a & per & A & Y & Q); auto.
  - intros s R X. rewrite (no_granularity d s HG R) in X. discriminate.
  - intros s R. rewrite (no_granularity d s HG R). apply good_rows; auto.
  - intros s l vs R AI LV. apply (C82_usable_indices to_datetime to_datetime_length rows GNone (s_interval s) None false l vs); auto.
    + apply good_rows; auto.
    + rewrite (no_granularity d s HG R) in AI. auto.
  - intros l a per A AI. rewrite (NP l a per A). split; auto. intros _ X. exfalso.
    rewrite (asked_none majority d rows l a per HG A) in AI. destruct AI as [[_ ->]|(E & _)]; [|congruence].
    rewrite positions_last, map_length, seq_length in X; lia.
  - rewrite (NP l a per A) in Q. eauto.
Qed.
(** C96 REFUTED for large constants: the validator accepts up to 10^100, but
    without a period the same request with a constant beyond the largest C float
    (3.4 * 10^38) fails with a bare Exception, whatever the other parameters. *)
Theorem C96_large_constant_refuted : forall o rows d mode c t, libs_ok L -> c_floats L t ->
  12 <= length rows -> (Z.of_nat (length rows) <= 8640)%Z -> (- value_bound <= c <= value_bound)%Qc -> (t <= Qcabs (l_r32 L c))%Qc ->
  (forall x, In x rows -> w_value x = Num (Request_model.Fin c)) ->
  decides parameter_rules d None -> get "granularity" d = None \/ Request_spec.given "granularity" d (VStr "none") ->
  get "period" d = None ->
  (forall dd, ~ Request_spec.given "detector" d (VDict dd)) -> o__error o = None -> mode_for o d = Some mode ->
  result (PRED o (DFrame rows) (Some d)) = Err Generic.
Proof.
  intros o rows d mode c t OK CF L12 LM BC HT HC H HG HP ND HE HM.
  assert (NE : rows <> []) by (destruct rows; [simpl in L12; lia|discriminate]).
  assert (FV : forall x, In x rows -> exists q, w_value x = Num (Request_model.Fin q) /\ (- value_bound <= q <= value_bound)%Qc) by eauto.
  destruct (C81_detector_arguments to_datetime to_datetime_length majority beyond o rows d mode NE H) as (l & a & per & z & A & AI & _ & K); auto.
  - intros s R X. rewrite (no_granularity d s HG R) in X. discriminate.
  - intros s R. rewrite (no_granularity d s HG R). apply good_rows; auto.
  - intros s l vs R AI LV. apply (C82_usable_indices to_datetime to_datetime_length rows GNone (s_interval s) None false l vs); auto.
    + apply good_rows; auto.
    + rewrite (no_granularity d s HG R) in AI. auto.
  - destruct (K (whole_detect L)) as [KE _]. apply KE.
    rewrite (asked_none majority d rows l a per HG A) in AI. destruct AI as [[_ ->]|(X & _)]; [|congruence].
    pose proof (asked_values _ _ _ _ _ _ A) as FA.
    assert (LR : length (a_values a) = length rows) by (symmetry; apply (Forall2_length _ _ _ _ _ FA)).
    pose proof (asked_process _ _ _ _ _ _ A) as HF.
    destruct (no_gaps (length rows) _ _ ltac:(lia) HF) as [HN H0].
    assert (NL : map Z.of_nat (List.seq 0 (length rows)) <> []) by (destruct rows; [congruence|discriminate]).
    destruct (make_fup_ok_inv _ _ _ _ NL HF) as (_ & _ & EV & _).
    destruct (asked_period _ _ _ _ _ _ A) as [[_ ->]|(v' & E & _)]; [|unfold Request_spec.given in E; congruence].
    apply (large_const_fails L OK a c t); auto; [lia|].
    clear - FA HC. induction FA as [|x v rs vs E F IH]; [intros y []|]. intros y [<-|I].
    + rewrite (HC x) in E by (left; auto). inversion E; auto.
    + apply IH; auto. intros x' I'. apply HC. right; auto.
Qed.
End Request.
Print Assumptions C96_request.
Print Assumptions C96_plain_request.
Print Assumptions C96_large_constant_refuted.

(** * Concrete libraries and requests *)
Definition level_STL (data : list Qc) (np : nat) : res comps :=
  Ok (mkComps (map (fun _ => 0%Qc) data) data (map (fun _ => 0%Qc) data)).
Definition level_libs : libs :=
  mkLibs ppf34 half_std (fun _ _ => 1%Qc) (fun x => x) ex_critical sort_pairs (fun l => rev (sort_pairs l)) (fun l => map (fun _ => 1%Qc) l)
    (fun _ => true) ex_lookup (fun x => x) (Some (qz (2 ^ 128))) rnd0 acf0 (fun _ _ => None) ex_id ex_id ex_id ex_id level_STL (fun x => x) (fun x => x).
Lemma level_additive : additive level_STL.
Proof.
  intros data np d H. inversion H; subst. unfold adds_up; cbn. rewrite !map_length. repeat split; auto.
  intros i Hi. rewrite !(nth_map0 (fun _ => 0%Qc)) by auto. ring.
Qed.
Lemma level_libs_ok : libs_ok level_libs.
Proof.
  constructor; cbn [level_libs l_sort l_std l_transform l_spline l_acf l_peaks l_top l_r32 l_aglet l_mean_filter l_line_filter l_spline_filter l_stl]; try apply ex_id_on.
  - apply sort_pairs_ok.
  - apply half_std_fair.
  - apply half_std_nonneg.
  - apply half_std_rough.
  - intros l. apply map_length.
  - intros [|x l] m E; inversion E; subst. split; [vm_compute; discriminate|right; vm_compute; reflexivity].
  - apply lookup_through.
  - apply acf0_answers.
  - discriminate.
  - intros t X. inversion X. apply Qcle_refl.
  - intros x. pose proof (Qcabs_nonneg x). qlra.
  - intros s w t B _ H E. inversion E; subst t. intros x I. pose proof (H x I). pose proof (Qcabs_nonneg x). assert (K : (1 <= qz 2048)%Qc) by (vm_compute; discriminate). qnra.
  - apply level_additive.
  - intros data np _ _. unfold level_STL. eauto.
Qed.
Lemma level_steady : steady level_libs.
Proof.
  assert (K : keeps_constants ex_id) by (intros c s w t H E; inversion E; subst; auto).
  constructor; auto. intros c s np d H E. inversion E; subst. cbn. repeat split; auto; intros x I; apply in_map_iff in I; destruct I as (? & <- & _); auto.
Qed.
Definition ask_level := predict stamp parsed (fun _ => 0%Qc) (whole_detect level_libs) (fun _ _ => Err Generic).
Definition sevens : list (point stamp) := numbers [7; 7; 7; 7; 7; 7; 7; 7; 7; 7; 7; 7]%Z.
Definition quiet_sevens (p : nat) (y : res (reply stamp)) : Prop := exists r, y = Ok r /\ quiet_reply (qz 7) p r.
(** Twelve sevens; the same with a period of 4. A single 8 among them and the
    answer is another. *)
Example C96_example :
  libs_ok level_libs /\ steady level_libs /\ decides parameter_rules entire None /\
  quiet_sevens 0 (result (ask_level (fresh VNone) (DFrame sevens) (Some entire))) /\
  quiet_sevens 4 (result (ask_level (fresh VNone) (DFrame sevens) (Some (asks_period 4)))) /\
  ~ quiet_sevens 0 (result (ask_level (fresh VNone) (DFrame (numbers [7; 7; 7; 7; 7; 7; 8; 7; 7; 7; 7; 7]%Z)) (Some entire))).
Proof.
  split; [apply level_libs_ok|]. split; [apply level_steady|]. split; [eapply params_ok; vm_compute; reflexivity|].
  assert (K : forall z y b, match y with Ok (AEntire _ l q) => q = z /\ forallb (fun to => (o_expected (snd to) =? qz 7)%Qc && negb (o_anomaly (snd to)) && negb (o_neg (snd to)) && negb (o_pos (snd to)) && (o_severity (snd to) =? 0)%Qc) l = b | _ => False end ->
    if b then quiet_sevens z y else ~ quiet_sevens z y).
  { intros z [[l q|]|] b E; try contradiction. destruct E as [-> E]. destruct b.
    - eexists. split; [reflexivity|]. split; auto. intros t o I. rewrite forallb_forall in E. specialize (E _ I). cbn [snd] in E. rewrite !andb_true_iff, !negb_true_iff in E.
      destruct E as ((((A & B) & C) & D) & F). apply Qceqb_eq in A, F. repeat split; auto.
    - intros (r & X & Y). inversion X; subst r. destruct Y as [_ Y]. apply Bool.not_true_iff_false in E. apply E. apply forallb_forall.
      intros [t o] I. destruct (Y t o I) as (A & B & C & D & F). cbn [snd]. rewrite A, B, C, D, F. vm_compute. reflexivity. }
  split; [apply (K 0 _ true); vm_compute; auto|]. split; [apply (K 4 _ true); vm_compute; auto|]. apply (K 0 _ false). vm_compute. auto.
Qed.
(** Twelve times 7 * 10^39: an Exception, with a period of 4 a quiet answer. *)
Definition large_sevens : list (point stamp) := map (fun _ => mkPoint None (Num (Request_model.Fin (qz (7 * 10 ^ 39))))) sevens.
Example C96_large_example : c_floats level_libs (qz (2 ^ 128)) /\ (qz (2 ^ 128) <= Qcabs (l_r32 level_libs (qz (7 * 10 ^ 39))) <= value_bound)%Qc /\
  result (ask_level (fresh VNone) (DFrame large_sevens) (Some entire)) = Err Generic /\
  is_entire (result (ask_level (fresh VNone) (DFrame large_sevens) (Some (asks_period 4)))) 12.
Proof.
  split. { constructor; auto. intros s w t i E _ _. inversion E; auto. }
  split; [split; vm_compute; discriminate|]. split; [vm_compute; reflexivity|]. do 2 eexists; split; vm_compute; reflexivity.
Qed.
