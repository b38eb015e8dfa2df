(** Theorems about the margins, scores and flags as computed in doubles. *)
From Coq Require Import List ZArith Lia Bool Reals Lra Arith.
From Flocq Require Import Core BinarySingleNaN.
From Verif Require Import Base Dates_model Dates_float Fmargins_model Fmargins_float Fmargins_spec Fmargins_proofs Fmargins_proofs2
  Fmargins_proofs3 Fmargins_proofs4 Fmargins_proofs5.
From Verif Require Margins_model.
Import ListNotations.
Open Scope R_scope.

(** The table used is the table of the source, each entry rounded once. *)
Theorem C103_table : Forall2 nearest_to factor_lits Margins_model.factors_q.
Proof. exact factor_lits_nearest. Qed.
Print Assumptions C103_table.

(** V2: for ordinary numbers every point gets an answer, with margins that are
    numbers and not negative, a severity between 0 and 1. *)
Theorem C103_v2_margins : forall last s unit r,
  possible_unit unit -> moderate (r_value r) -> moderate (r_expected r) -> (0 <= s <= 100)%Z ->
  exists o, v2_point last s unit r = Ok o /\ nonneg (o_upper o) /\ nonneg (o_lower o) /\ in_unit_interval (o_severity o).
Proof.
  intros last s unit r Hu Hv He Hs. unfold v2_point.
  destruct (score_ok unit Hu (r_value r) (r_expected r) Hv He) as (sc & k & E & F & S). rewrite E. cbn [bind].
  destruct (margin_ok unit _ _ Hu Hv He s (r_anomaly r) Hs) as (m & Em & F1 & F2 & P1 & P2). rewrite Em. cbn [bind].
  eexists. split; [reflexivity|]. cbn [o_upper o_lower o_severity].
  split; [split; [apply F1|auto]|]. split; [split; [apply F2|auto]|].
  unfold calculate_severity_v2, in_unit_interval, finite, real. destruct zero_val as [Z0 FZ]. pose proof (score_range _ _ _ S) as R.
  assert (Q : fin (fdiv sc (of_Z 100)) = true /\ 0 <= val (fdiv sc (of_Z 100)) <= 1).
  { destruct hundred_val as [VH FH]. destruct (fdiv_ok 9 0 sc (of_Z 100)) as [V FV]; auto; try lia.
    { rewrite VH. change (p2 (- 0)) with 1. lra. }
    split; [apply FV|]. rewrite V, VH. split; [apply rnd_nonneg; lra|]. apply rnd_le_float; [apply (p2_fmt 0); lia|lra]. }
  destruct (if last then r_anomaly r else _); cbn [negb]; auto. rewrite Z0. split; [apply FZ|lra].
Qed.
Print Assumptions C103_v2_margins.

(** V2: a point is reported exactly if it lies outside the band that a caller
    computes, with rounding, from the answer. *)
Theorem C103_v2_reported_outside : forall last s unit r o,
  possible_unit unit -> moderate (r_value r) -> moderate (r_expected r) -> (0 <= s <= 99)%Z ->
  Rabs (real (r_value r) - real (r_expected r)) <= 274877906944 * real unit ->
  v2_point last s unit r = Ok o -> (o_anomaly o = true <-> outside_band r o) /\ (o_pos o = true <-> above_band r o) /\
  (o_neg o = true <-> below_band r o).
Proof.
  intros last s unit r o Hu Hv He Hs Far E. unfold v2_point in E.
  destruct (score_ok unit Hu (r_value r) (r_expected r) Hv He) as (sc & k & Es & F & S). rewrite Es in E. cbn [bind] in E.
  destruct (margin_ok unit _ _ Hu Hv He s (r_anomaly r) ltac:(lia)) as (m & Em & F1 & F2 & P1 & P2). rewrite Em in E. cbn [bind] in E.
  inversion E; subst o. clear E. unfold outside_band, above_band, below_band, real. cbn [o_upper o_lower o_anomaly o_pos o_neg].
  change (Bplus mode_NE (r_expected r) (fst m)) with (fadd (r_expected r) (fst m)).
  change (Bminus mode_NE (r_expected r) (snd m)) with (fsub (r_expected r) (snd m)).
  destruct (sum_ok _ _ He F1) as (_ & X1 & _ & _). destruct (sum_ok _ _ He F2) as (_ & _ & _ & X2).
  pose proof (fltb_ok _ _ X1 (proj1 Hv)) as T1. pose proof (fltb_ok _ _ (proj1 Hv) X2) as T2.
  destruct (r_anomaly r); cbn [andb orb].
  - rewrite orb_true_iff, T1, T2. tauto.
  - destruct (normal_inside unit _ _ s m Hu Hv He Hs Far Em) as [N1 N2].
    repeat split; try discriminate; try (intros [?|?]; lra); intros ?; lra.
Qed.
Print Assumptions C103_v2_reported_outside.

(** V2: with a higher sensitivity the margins do not grow and nothing reported
    is lost - rounding does not break the order. *)
Theorem C103_v2_sensitivity : forall last s t unit r o o',
  possible_unit unit -> moderate (r_value r) -> moderate (r_expected r) -> (0 <= s <= t)%Z -> (t <= 100)%Z ->
  v2_point last s unit r = Ok o -> v2_point last t unit r = Ok o' ->
  real (o_upper o') <= real (o_upper o) /\ real (o_lower o') <= real (o_lower o) /\ reports_more o o'.
Proof.
  intros last s t unit r o o' Hu Hv He Hs Ht E E'. unfold v2_point in E, E'.
  destruct (score_ok unit Hu (r_value r) (r_expected r) Hv He) as (sc & k & Es & F & S). rewrite Es in E, E'. cbn [bind] in E, E'.
  destruct (margin_ok unit _ _ Hu Hv He s (r_anomaly r) ltac:(lia)) as (m & Em & F1 & F2 & P1 & P2). rewrite Em in E. cbn [bind] in E.
  destruct (margin_ok unit _ _ Hu Hv He t (r_anomaly r) ltac:(lia)) as (n & En & G1 & G2 & Q1 & Q2). rewrite En in E'. cbn [bind] in E'.
  inversion E; subst o. inversion E'; subst o'. clear E E'. unfold reports_more, real. cbn [o_upper o_lower o_anomaly o_pos o_neg].
  destruct (margin_mono unit _ _ Hu Hv He s t _ m n Hs Ht Em En) as [M1 M2]. split; auto. split; auto.
  destruct (sum_ok _ _ He F1) as (V1 & X1 & _ & _). destruct (sum_ok _ _ He F2) as (_ & _ & V2 & X2).
  destruct (sum_ok _ _ He G1) as (W1 & Y1 & _ & _). destruct (sum_ok _ _ He G2) as (_ & _ & W2 & Y2).
  assert (A : fltb (fadd (r_expected r) (fst m)) (r_value r) = true -> fltb (fadd (r_expected r) (fst n)) (r_value r) = true).
  { intros A. apply fltb_ok in A; [|auto|apply Hv]. apply fltb_ok; [auto|apply Hv|]. rewrite W1. rewrite V1 in A.
    assert (rnd (val (r_expected r) + val (fst n)) <= rnd (val (r_expected r) + val (fst m))) by (apply rnd_le; lra). lra. }
  assert (C : fltb (r_value r) (fsub (r_expected r) (snd m)) = true -> fltb (r_value r) (fsub (r_expected r) (snd n)) = true).
  { intros C. apply fltb_ok in C; [|apply Hv|auto]. apply fltb_ok; [apply Hv|auto|]. rewrite W2. rewrite V2 in C.
    assert (rnd (val (r_expected r) - val (snd m)) <= rnd (val (r_expected r) - val (snd n))) by (apply rnd_le; lra). lra. }
  destruct (r_anomaly r); cbn [andb]; [|repeat split; auto]. rewrite !orb_true_iff. tauto.
Qed.
Print Assumptions C103_v2_sensitivity.

(** V2: the score stays within 0 and 100 and is ordered like the deviation. *)
Theorem C103_v2_score : forall unit v e v' e',
  possible_unit unit -> moderate v -> moderate e -> moderate v' -> moderate e' ->
  Rabs (real v - real e) <= Rabs (real v' - real e') ->
  exists s s', calculate_anomaly_score v e unit = Ok s /\ calculate_anomaly_score v' e' unit = Ok s' /\
    finite s /\ finite s' /\ 0 <= real s <= real s' /\ real s' <= 100.
Proof.
  intros unit v e v' e' Hu Hv He Hv' He' L.
  destruct (score_ok unit Hu v e Hv He) as (s & k & E & F & S). destruct (score_ok unit Hu v' e' Hv' He') as (s' & k' & E' & F' & S').
  exists s, s'. split; auto. split; auto. split; [apply F|]. split; [apply F'|].
  pose proof (score_range _ _ _ S) as R. pose proof (score_range _ _ _ S') as R'.
  assert (M : val s <= val s'); [|unfold real; lra]. eapply score_mono; eauto.
  destruct (dist_ok unit Hu v e Hv He) as [-> _]. destruct (dist_ok unit Hu v' e' Hv' He') as [-> _]. apply rnd_le.
  pose proof (unit_pos unit Hu). apply Rmult_le_compat_r; [left; apply Rinv_0_lt_compat; lra|].
  unfold D, real in *. rewrite <- !round_NE_abs by apply vexpF. apply rnd_le. auto.
Qed.
Print Assumptions C103_v2_score.

(** ** V1 *)
Definition v1_row (r : row) : Prop := moderate (r_value r) /\ moderate (r_expected r) /\ finite (r_score r).

Lemma v1_margin : forall sr r0 tl, Forall v1_row (r0 :: tl) -> exists mg, forall s, (0 <= s <= 100)%Z ->
  get_margins_v1 sr (r0 :: tl) s = refine_margins (r0 :: tl) s (mg s) /\
  (forall r, In r (r0 :: tl) -> fits 530 (mg s r) /\ 0 <= val (mg s r)) /\
  (forall t r, (s <= t <= 100)%Z -> In r (r0 :: tl) -> val (mg t r) <= val (mg s r)) /\
  (sr = false -> mg s = ad_margin s).
Proof.
  intros sr r0 tl G. pose proof G as G'. rewrite Forall_forall in G'.
  assert (GR : good_rows (r0 :: tl)). { apply Forall_forall. intros r I. destruct (G' r I) as (? & ? & _). auto. }
  destruct sr.
  - exists (sr_margin (r0 :: tl)). intros s Hs. split; [reflexivity|]. split; [|split; [|discriminate]].
    + intros r I. destruct (G' r I) as (? & ? & ?). destruct (sr_ok (r0 :: tl) s s r) as (A & B & _); auto; lia.
    + intros t r Ht I. destruct (G' r I) as (? & ? & ?). destruct (sr_ok (r0 :: tl) s t r) as (_ & _ & C); auto; lia.
  - exists ad_margin. intros s Hs. split; [reflexivity|]. split; [|split; auto].
    + intros r I. destruct (G' r I) as (? & ? & ?). split; [apply ad_val; auto|apply ad_nonneg; auto].
    + intros t r Ht I. destruct (G' r I) as (? & ? & ?). apply ad_mono; auto; lia.
Qed.
Lemma v1_good : forall rows, Forall v1_row rows -> good_rows rows.
Proof. intros rows G. eapply Forall_impl; [|exact G]. intros r (? & ? & _). auto. Qed.
Lemma Forall2_map_r : forall A B (P : A -> B -> Prop) f (l : list A), (forall x, In x l -> P x (f x)) -> Forall2 P l (map f l).
Proof. induction l; intros H; cbn; constructor; auto. - apply H. left. auto. - apply IHl. intros. apply H. right. auto. Qed.
Lemma Forall2_map2 : forall A B (P : B -> B -> Prop) f g (l : list A), (forall x, In x l -> P (f x) (g x)) -> Forall2 P (map f l) (map g l).
Proof. induction l; intros H; cbn; constructor; auto. - apply H. left. auto. - apply IHl. intros. apply H. right. auto. Qed.

Lemma sev1_ok : forall v e a, moderate v -> moderate e -> in_unit_interval (calculate_severity_v1 v e a).
Proof.
  intros v e a Hv He. unfold calculate_severity_v1, in_unit_interval, finite, real. destruct zero_val as [Z0 FZ]. destruct one_val as [O1 FO].
  destruct a; cbn [negb]; [|rewrite Z0; split; [apply FZ|lra]].
  destruct (dev_ok v e Hv He) as (V & F & _). destruct (fabs_ok 500 e He) as [Va Fa]. destruct eps_val as [E1 E2]. destruct min_unit_val as [M1 M2].
  set (b := if fleb (fabs e) EPS then MIN_UNIT else fabs e).
  assert (Pb : p2 (-27) <= val b).
  { unfold b. destruct (fleb (fabs e) EPS) eqn:C.
    - rewrite <- p2_m2 in M1. assert (p2 (-27) <= p2 (-2)) by (apply bpow_le; lia). lra.
    - apply fleb_no in C; [lra|apply Fa|apply E2]. }
  destruct (fdiv_ok 501 27 (fabs (fsub v e)) b) as [V1 F1]; auto; try lia.
  destruct (fmin_ok 528 (fdiv (fabs (fsub v e)) b) one) as [V2 F2]; auto. { eapply fits_mono; [|exact FO]. lia. }
  split; [apply F2|]. rewrite V2, O1. split; [|apply Rmin_r]. apply Rmin_glb; [|lra]. rewrite V1, V. apply rnd_nonneg.
  pose proof (bpow_gt_0 radix2 (-27)). apply Rmult_le_pos; [apply D_nonneg|]. left. apply Rinv_0_lt_compat. lra.
Qed.

(** V1, both detectors: an answer for every row, margins not negative, severity
    between 0 and 1. *)
Theorem C103_v1_margins : forall sr rows s, rows <> [] -> Forall v1_row rows -> (0 <= s <= 100)%Z ->
  exists os, get_margins_v1 sr rows s = Ok os /\
    Forall2 (fun r o => nonneg (o_upper o) /\ nonneg (o_lower o) /\ in_unit_interval (o_severity o)) rows os.
Proof.
  intros sr rows s NE G Hs. destruct rows as [|r0 tl]; [tauto|].
  destruct (v1_margin sr r0 tl G) as [mg M]. destruct (M s Hs) as (E & P & _ & _). rewrite E, refine_eq.
  eexists. split; [reflexivity|]. apply Forall2_map_r. intros r I.
  pose proof (v1_good _ G) as GR. pose proof G as G'. rewrite Forall_forall in G'. destruct (G' r I) as (Hv & He & _).
  destruct (UB_ok r0 tl (mg s) GR P r I) as (FU & _ & BU). destruct (LB_ok r0 tl (mg s) GR P r I) as (FL & _ & BL).
  destruct (row_margins s _ _ r Hv He FU FL) as [[A1 A2] [B1 B2]]; try lra.
  split; [split; [apply A1|auto]|]. split; [split; [apply B1|auto]|]. apply sev1_ok; auto.
Qed.
Print Assumptions C103_v1_margins.

(** V1, both detectors: a higher sensitivity loses no report. *)
Theorem C103_v1_sensitivity : forall sr rows s t os os', Forall v1_row rows -> (0 <= s <= t)%Z -> (t <= 100)%Z ->
  get_margins_v1 sr rows s = Ok os -> get_margins_v1 sr rows t = Ok os' -> Forall2 reports_more os os'.
Proof.
  intros sr rows s t os os' G Hs Ht E E'. destruct rows as [|r0 tl]; [destruct sr; discriminate|].
  destruct (v1_margin sr r0 tl G) as [mg M]. assert (Hs' : (0 <= s <= 100)%Z) by lia. assert (Ht' : (0 <= t <= 100)%Z) by lia.
  destruct (M s Hs') as (Q & P & L & _). destruct (M t Ht') as (Q' & P' & _).
  rewrite Q, refine_eq in E. rewrite Q', refine_eq in E'. inversion E; subst os. inversion E'; subst os'. clear E E'.
  change (Forall2 reports_more (map (fun r => refine_row s (UB r0 tl (mg s) r) (LB r0 tl (mg s) r) r) (r0 :: tl))
                               (map (fun r => refine_row t (UB r0 tl (mg t) r) (LB r0 tl (mg t) r) r) (r0 :: tl))).
  apply Forall2_map2. intros r I. pose proof (v1_good _ G) as GR. pose proof G as G'. rewrite Forall_forall in G'. destruct (G' r I) as (Hv & He & _).
  destruct (UB_ok r0 tl (mg s) GR P r I) as (FU & _ & BU). destruct (LB_ok r0 tl (mg s) GR P r I) as (FL & _ & BL).
  destruct (UB_ok r0 tl (mg t) GR P' r I) as (FU' & _ & BU'). destruct (LB_ok r0 tl (mg t) GR P' r I) as (FL' & _ & BL').
  destruct (tighter r0 tl (mg s) (mg t) GR P P' (fun r I => L t r ltac:(lia) I) r I) as [T1 T2].
  assert (W : negb (t =? 100)%Z && (r_anomaly r && (fleb (r_value r) (UB r0 tl (mg t) r) && fleb (LB r0 tl (mg t) r) (r_value r))) = true ->
              negb (s =? 100)%Z && (r_anomaly r && (fleb (r_value r) (UB r0 tl (mg s) r) && fleb (LB r0 tl (mg s) r) (r_value r))) = true).
  { intros W. apply andb_true_iff in W as [W0 W]. apply andb_true_iff in W as [W1 W]. apply andb_true_iff in W as [W2 W3].
    apply negb_true_iff, Z.eqb_neq in W0. rewrite W1. assert (N : (s =? 100)%Z = false) by (apply Z.eqb_neq; lia). rewrite N. cbn [negb andb].
    apply fleb_ok in W2; [|apply Hv|apply FU']. apply fleb_ok in W3; [|apply FL'|apply Hv]. apply andb_true_iff. split; apply fleb_ok; try apply Hv; try apply FU; try apply FL; lra. }
  unfold reports_more, refine_row. cbv zeta. cbn [o_anomaly o_pos o_neg].
  destruct (negb (t =? 100)%Z && _).
  - rewrite W by auto. repeat split; auto.
  - destruct (negb (s =? 100)%Z && _); repeat split; auto; discriminate.
Qed.
Print Assumptions C103_v1_sensitivity.

(** V1, detectors other than spectral residual, sensitivity above 50: reported
    exactly if outside the band a caller computes from the answer. Both
    subtractions are exact there. *)
Theorem C103_v1_reported_outside : forall rows s os, Forall v1_row rows -> (50 < s <= 99)%Z ->
  get_margins_v1 false rows s = Ok os -> Forall2 (fun r o => o_anomaly o = true <-> outside_band r o) rows os.
Proof.
  intros rows s os G Hs E. destruct rows as [|r0 tl]; [discriminate|].
  destruct (v1_margin false r0 tl G) as [mg M]. assert (Hs' : (0 <= s <= 100)%Z) by lia.
  destruct (M s Hs') as (Q & P & _ & A). specialize (A eq_refl). rewrite A in *. clear A.
  rewrite Q, refine_eq in E. inversion E; subst os. clear E.
  change (Forall2 (fun r o => o_anomaly o = true <-> outside_band r o) (r0 :: tl)
            (map (fun r => refine_row s (UB r0 tl (ad_margin s) r) (LB r0 tl (ad_margin s) r) r) (r0 :: tl))).
  apply Forall2_map_r. intros r I. pose proof (v1_good _ G) as GR. pose proof G as G'. rewrite Forall_forall in G'. destruct (G' r I) as (Hv & He & _).
  destruct (UB_ok r0 tl _ GR P r I) as (FU & _ & BU). destruct (LB_ok r0 tl _ GR P r I) as (FL & _ & BL).
  destruct (b_ok r0 tl _ GR P r I) as (_ & _ & Vu & Vl). rewrite Vu in BU. rewrite Vl in BL.
  destruct (ad_half s r ltac:(lia) He) as [H1 H2]. destruct (P r I) as [_ P0].
  apply row_band; auto; try lra; try lia.
  - apply between_exact with (m := val (ad_margin s r)); auto; apply val_fmt.
  - apply between_exact with (m := val (ad_margin s r)); auto; apply val_fmt.
Qed.
Print Assumptions C103_v1_reported_outside.

(** ** Where rounding shows *)
Definition dec (n : Z) : f64 := fdiv (of_Z n) (of_Z 10).
Lemma dec_moderate : forall n, (Z.abs n <= 2 ^ 20)%Z -> moderate (dec n).
Proof.
  intros n H. destruct (quot_ok n 10 20) as [_ F]; try lia. apply (fits_mono 20 500); [lia|exact F].
Qed.
Lemma min_unit_possible : possible_unit MIN_UNIT.
Proof. destruct min_unit_val as [_ F]. split; [apply (fits_mono 2 500); [lia|exact F]|lra]. Qed.

Definition aboveb (r : row) (o : outcome) : bool :=
  is_finite (fadd (r_expected r) (o_upper o)) && is_finite (r_value r) && fltb (fadd (r_expected r) (o_upper o)) (r_value r).
Definition belowb (r : row) (o : outcome) : bool :=
  is_finite (fsub (r_expected r) (o_lower o)) && is_finite (r_value r) && fltb (r_value r) (fsub (r_expected r) (o_lower o)).
Lemma aboveb_ok : forall r o, aboveb r o = true -> outside_band r o.
Proof. intros r o H. apply andb_true_iff in H as [H C]. apply andb_true_iff in H as [A B]. left. apply fltb_ok in C; auto. Qed.
Lemma belowb_ok : forall r o, belowb r o = true -> outside_band r o.
Proof. intros r o H. apply andb_true_iff in H as [H C]. apply andb_true_iff in H as [A B]. right. apply fltb_ok in C; auto. Qed.

(** V2 at sensitivity 100: value 1.7, expected 0.4, not an anomaly. The margin is
    1.2999999999999998, and 0.4 + 1.2999999999999998 is 1.6999999999999997. *)
Definition at_100 : row := mkRow (dec 17) (dec 4) zero false false false.
Theorem C103_v2_at_100_refuted : ~ (forall last unit r o,
  possible_unit unit -> moderate (r_value r) -> moderate (r_expected r) ->
  Rabs (real (r_value r) - real (r_expected r)) <= 274877906944 * real unit ->
  v2_point last 100 unit r = Ok o -> (o_anomaly o = true <-> outside_band r o)).
Proof.
  intros H.
  assert (Q : match v2_point true 100 MIN_UNIT at_100 with Ok o => aboveb at_100 o && negb (o_anomaly o) | Err _ => false end = true) by (vm_compute; reflexivity).
  destruct (v2_point true 100 MIN_UNIT at_100) as [o|x] eqn:E; [|discriminate].
  apply andb_true_iff in Q as [Q A]. apply negb_true_iff in A. apply aboveb_ok in Q.
  apply (H true MIN_UNIT at_100 o min_unit_possible (dec_moderate 17 ltac:(lia)) (dec_moderate 4 ltac:(lia))) in Q; auto; [congruence|].
  unfold real. cbn [at_100 r_value r_expected]. destruct (quot_ok 17 10 5) as [_ [_ F1]]; try lia. destruct (quot_ok 4 10 5) as [_ [_ F2]]; try lia.
  destruct min_unit_val as [M _]. fold (dec 17) in F1. fold (dec 4) in F2. change (p2 5) with 32 in F1, F2.
  unfold Rminus. eapply Rle_trans; [apply Rabs_triang|]. rewrite Rabs_Ropp. lra.
Qed.
Print Assumptions C103_v2_at_100_refuted.

(** V1 at sensitivity 10, two rows that are no anomalies: value 0.7, expected 4.7,
    and value and expected 10. The first lower boundary is the smallest value
    0.7; its margin is 4, and 4.7 - 4 is 0.7000000000000002. *)
Definition low_rows : list row := [mkRow (dec 7) (dec 47) zero false false false; mkRow (dec 100) (dec 100) zero false false false].
Theorem C103_v1_low_sensitivity_refuted : ~ (forall rows s os, Forall v1_row rows -> (0 <= s <= 99)%Z ->
  get_margins_v1 false rows s = Ok os -> Forall2 (fun r o => o_anomaly o = true <-> outside_band r o) rows os).
Proof.
  intros H. assert (G : Forall v1_row low_rows).
  { assert (F : finite zero) by apply zero_val. repeat apply Forall_cons; try apply Forall_nil; (split; [apply dec_moderate; lia|split; [apply dec_moderate; lia|exact F]]). }
  assert (Q : match get_margins_v1 false low_rows 10 with Ok (o :: _) => belowb (mkRow (dec 7) (dec 47) zero false false false) o && negb (o_anomaly o) | _ => false end = true) by (vm_compute; reflexivity).
  destruct (get_margins_v1 false low_rows 10) as [os|x] eqn:E; [|discriminate].
  specialize (H low_rows 10%Z os G ltac:(lia) E). inversion H as [|a o b l P X]; subst. 
  apply andb_true_iff in Q as [Q A]. apply negb_true_iff in A. apply belowb_ok in Q. apply P in Q. congruence.
Qed.
Print Assumptions C103_v1_low_sensitivity_refuted.

(** V1 after the spectral residual detector, at any usual sensitivity (here 90):
    value 15.6, expected 7.2, score 0.04. The upper boundary is the largest value
    15.6; its margin is 8.399999999999999, and 7.2 + 8.399999999999999 is
    15.599999999999998. *)
Definition sr_rows : list row := [mkRow (dec 156) (dec 72) (fdiv (of_Z 4) (of_Z 100)) false false false].
Theorem C103_v1_spectral_refuted : ~ (forall rows s os, Forall v1_row rows -> (50 < s <= 99)%Z ->
  get_margins_v1 true rows s = Ok os -> Forall2 (fun r o => o_anomaly o = true <-> outside_band r o) rows os).
Proof.
  intros H. assert (G : Forall v1_row sr_rows).
  { assert (F : finite (fdiv (of_Z 4) (of_Z 100))) by (apply (quot_ok 4 100 5); lia). repeat apply Forall_cons; try apply Forall_nil; (split; [apply dec_moderate; lia|split; [apply dec_moderate; lia|exact F]]). }
  assert (Q : match get_margins_v1 true sr_rows 90 with Ok (o :: _) => aboveb (mkRow (dec 156) (dec 72) (fdiv (of_Z 4) (of_Z 100)) false false false) o && negb (o_anomaly o) | _ => false end = true) by (vm_compute; reflexivity).
  destruct (get_margins_v1 true sr_rows 90) as [os|x] eqn:E; [|discriminate].
  specialize (H sr_rows 90%Z os G ltac:(lia) E). inversion H as [|a o b l P X]; subst. 
  apply andb_true_iff in Q as [Q A]. apply negb_true_iff in A. apply aboveb_ok in Q. apply P in Q. congruence.
Qed.
Print Assumptions C103_v1_spectral_refuted.

(** ** Cases *)
(** V2: value 9.9, expected 4.2, flagged: at 85 the margins are those of 0.3 and
    the point is reported; at 5 it is not. *)
Definition far_row : row := mkRow (dec 99) (dec 42) zero true false true.
Example C103_v2_case :
  match v2_point false 85 MIN_UNIT far_row, v2_point false 5 MIN_UNIT far_row with
  | Ok o, Ok o' => o_anomaly o && aboveb far_row o && negb (o_anomaly o') && negb (aboveb far_row o')
  | _, _ => false end = true.
Proof. vm_compute. reflexivity. Qed.
(** V1: the same point, sensitivities 95 and 0, next to a normal one. *)
Definition two_rows : list row := [far_row; mkRow (dec 41) (dec 40) zero false false false].
Example C103_v1_case : Forall v1_row two_rows /\
  match get_margins_v1 false two_rows 95, get_margins_v1 false two_rows 60 with
  | Ok [o; p], Ok [o'; p'] => o_anomaly o && aboveb far_row o && o_anomaly o' && negb (o_anomaly p) && fltb (o_upper o) (o_upper o')
  | _, _ => false end = true.
Proof.
  split; [|vm_compute; reflexivity]. assert (F : finite zero) by apply zero_val. repeat apply Forall_cons; try apply Forall_nil; (split; [apply dec_moderate; lia|split; [apply dec_moderate; lia|exact F]]).
Qed.
