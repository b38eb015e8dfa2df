(** Property C102: the histogram detector. *)
From Coq Require Import List Arith ZArith QArith Qcanon Lia Bool.
From Verif Require Import Base Num Helpers_model Helpers_spec Helpers_proofs Detect_proofs Detect_proofs3 Expect_proofs Hbos_model Hbos_spec Hbos_proofs.
Import ListNotations.
Open Scope nat_scope.

Section Props.
Variable hbos : Qc -> list Qc -> res (list Qc).
Variable decompose : bool -> list Qc -> nat -> res (list Qc * list Qc).
Variable trend_detection : list Qc -> res (list Qc).
Variable de_anomaly_trend : list Qc -> list bool -> res (list Qc).
Notation DETECT := (hbos_detection hbos decompose trend_detection de_anomaly_trend).

(** Without season: a point is reported exactly when its score exceeds the
    threshold, in the direction of the deviation from the trend, which is that
    of the whole series, reported points included. *)
Theorem C102_nonseasonal : forall series threshold fraction need_trend last_mode rows m,
  DETECT series 0 threshold fraction need_trend last_mode = Ok (rows, m) ->
  m = HbosNonseasonal /\ exists contamination scores trend,
    (1 / qn (length series) <= contamination)%Qc /\ (fraction <= contamination)%Qc /\
    hbos contamination series = Ok scores /\ trend_detection series = Ok trend /\
    reported_rows series scores threshold (fun i e => nth_error trend i = Some e) rows /\
    forall i r, nth_error rows i = Some r -> h_score r = nth_error scores i /\ h_trend r = if need_trend then nth_error trend i else None.
Proof.
  intros series threshold fraction need_trend last_mode rows m H. unfold hbos_detection in H. cbn [Nat.ltb Nat.leb] in H.
  unfold hbos_detection_nonseasonal in H. cbv zeta in H.
  destruct (length series =? 0) eqn:E0; [discriminate|]. bind_inv H. rename a into scores.
  destruct (length (map _ scores) =? length series) eqn:EL; cbn [negb] in H; [|discriminate].
  rewrite Nat.ltb_irrefl, andb_false_r in H. bind_inv H. rename a into trend.
  destruct (length trend =? length series) eqn:ET; cbn [negb] in H; [|discriminate]. injection H as <- <-.
  apply Nat.eqb_eq in EL, ET. rewrite map_length in EL. split; auto. eexists _, scores, trend.
  split; [|split; [|split; [exact E|split; [auto|split]]]].
  - unfold clamped. destruct (fraction <? _)%Qc eqn:F; [qlra|]. apply Qcltb_ge in F. auto.
  - unfold clamped. destruct (fraction <? _)%Qc eqn:F; [|qlra]. apply Qcltb_lt in F. qlra.
  - apply rows_reported; auto.
  - intros i r Hr. destruct (rows_of_nth _ _ _ _ _ _ _ _ Hr) as (a & _ & _ & _ & _ & HT & HS & _). split; auto. rewrite HT. destruct need_trend; auto.
Qed.

(** With season: the same with the scores of the normalised remainder; expected
    is season plus trend, and the trend at the reported points is interpolated
    from the others (unless every point is reported). *)
Theorem C102_seasonal : forall series period threshold fraction need_trend last_mode rows m, 0 < period ->
  DETECT series period threshold fraction need_trend last_mode = Ok (rows, m) ->
  m = HbosSeasonal /\ (fraction <= Q2Qc (49 # 100))%Qc /\ 2 * period < length series /\
  exists contamination trend season rest scores known,
    (1 / qn (length series) <= contamination)%Qc /\ (fraction <= contamination)%Qc /\
    decompose last_mode series period = Ok (trend, season) /\
    length rest = length series /\
    (forall i x t s, nth_error series i = Some x -> nth_error trend i = Some t -> nth_error season i = Some s -> nth_error rest i = Some (x - t - s)%Qc) /\
    (exists lo hi, normalize rest = Ok (lo, fst hi, snd hi) /\ hbos contamination lo = Ok scores) /\
    ((exists i, i < length series /\ ~ exceeds threshold scores i) -> without_reported threshold scores trend known) /\
    ((forall i, i < length series -> exceeds threshold scores i) -> known = map Some trend) /\
    reported_rows series scores threshold
      (fun i e => exists t s, is_interpolant known i t /\ nth_error season i = Some s /\ e = (t + s)%Qc) rows.
Proof.
  intros series period threshold fraction need_trend last_mode rows m P H. unfold hbos_detection in H.
  destruct (0 <? period) eqn:EP; [|apply Nat.ltb_ge in EP; lia]. unfold hbos_detection_seasonal in H. cbv zeta in H.
  destruct (Q2Qc (49 # 100) <? fraction)%Qc eqn:EF; [discriminate|]. apply Qcltb_ge in EF.
  destruct (length series =? 0) eqn:E0; [discriminate|].
  destruct (length series <? period * 2 + 1) eqn:E1; [discriminate|]. apply Nat.ltb_ge in E1.
  bind_inv H. destruct a as [trend season]. cbn [fst snd] in H.
  destruct (_ && _) eqn:EL in H; cbn [negb] in H; [|discriminate]. apply andb_true_iff in EL. destruct EL as [EL1 EL2]. apply Nat.eqb_eq in EL1, EL2.
  bind_inv H. rename a into nz. bind_inv H. rename a into scores.
  destruct (length (map _ scores) =? length series) eqn:EL in H; cbn [negb] in H; [|discriminate]. apply Nat.eqb_eq in EL. rewrite map_length in EL.
  bind_inv H. rename a into trend'. injection H as <- <-.
  split; auto. split; auto. split; [lia|].
  set (mask := map (fun s => (threshold <? s)%Qc) scores) in *.
  assert (LM : length mask = length series) by (unfold mask; rewrite map_length; auto).
  set (rest := zip_with (fun a b => (a - b)%Qc) (zip_with (fun a b => (a - b)%Qc) series trend) season) in *.
  assert (K : exists known, length trend' = length trend /\ (forall i t, nth_error trend' i = Some t -> is_interpolant known i t) /\
    ((exists i, i < length series /\ ~ exceeds threshold scores i) -> without_reported threshold scores trend known) /\
    ((forall i, i < length series -> exceeds threshold scores i) -> known = map Some trend)).
  { destruct (existsb (fun b : bool => b) mask && (count mask <? length series)) eqn:EC in E4.
    - apply andb_true_iff in EC. destruct EC as [_ EC]. apply Nat.ltb_lt in EC. exists (mask_nan mask trend).
      apply interp_inv in E4. destruct E4 as [L4 P4]. split; [rewrite L4; unfold mask_nan; rewrite zip_with_length; lia|]. split; auto.
      split; [intros _; apply mask_without; lia|]. intros A. exfalso.
      assert (X : count mask = length mask) by (apply count_all; intros i Li; apply mask_exceeds, A; lia). lia.
    - injection E4 as <-. exists (map Some trend). split; auto. split.
      + intros i t Ht. left. rewrite nth_error_map, Ht. auto.
      + split; auto. intros (i & Li & Ni). apply andb_false_iff in EC. destruct EC as [EC|EC].
        * assert (NE : forall j, ~ exceeds threshold scores j).
          { intros j J. assert (X : existsb (fun b : bool => b) mask = true) by (apply any_exceeds; eauto). congruence. }
          split; [apply map_length|]. intros j. split; [intros J; exfalso; eapply NE; eauto|]. intros _. apply nth_error_map.
        * apply Nat.ltb_ge in EC. pose proof (count_le mask) as CL. exfalso. apply Ni, mask_exceeds. exact (proj1 (count_all mask) ltac:(lia) i ltac:(lia)). }
  destruct K as (known & LT & K1 & K2 & K3).
  exists (clamped (length series) fraction), trend, season, rest, scores, known. split; [|split; [|split; [reflexivity|split; [|split; [|split; [|split; [exact K2|split; [exact K3|]]]]]]]].
  - unfold clamped. destruct (fraction <? _)%Qc eqn:F; [qlra|]. apply Qcltb_ge in F. auto.
  - unfold clamped. destruct (fraction <? _)%Qc eqn:F; [|qlra]. apply Qcltb_lt in F. qlra.
  - unfold rest. rewrite !zip_with_length. lia.
  - intros i x t s Hx Ht Hs. unfold rest. apply (Helpers_proofs.zip_with_nth _ _ _ (fun a b => (a - b)%Qc)); auto.
    apply (Helpers_proofs.zip_with_nth _ _ _ (fun a b => (a - b)%Qc)); auto.
  - destruct nz as [[lo a] b]. exists lo, (a, b). split; auto.
  - destruct (rows_reported series scores threshold (zip_with Qcplus trend' season) (if need_trend then Some trend' else None) None
      ltac:(rewrite zip_with_length; lia) EL) as (R1 & R2 & R3).
    split; auto. split; auto. intros i r Hr. destruct (R3 i r Hr) as (A & B & C). split; auto. split; auto.
    destruct (zip_nth_inv _ _ _ _ _ _ _ _ B) as (t & s & Ht & Hs & ->). exists t, s. auto.
Qed.

(** When it answers: a series of more than two periods and a fraction up to
    0.49; without period any series with a point. *)
Theorem C102_answers : 
  (forall c l, exists scores, hbos c l = Ok scores /\ length scores = length l) ->
  (forall a l p, exists t s, decompose a l p = Ok (t, s) /\ length t = length l /\ length s = length l) ->
  (forall l, exists t, trend_detection l = Ok t /\ length t = length l) ->
  forall series period threshold fraction need_trend last_mode,
  (exists r, DETECT series period threshold fraction need_trend last_mode = Ok r) <->
  series <> [] /\ (period = 0 \/ (fraction <= Q2Qc (49 # 100))%Qc /\ 2 * period < length series).
Proof.
  intros OH OD OT series period threshold fraction need_trend last_mode. split.
  - intros ([rows m] & H). split.
    { intros ->. unfold hbos_detection, hbos_detection_seasonal, hbos_detection_nonseasonal in H. cbn [length Nat.eqb] in H.
      destruct (0 <? period); [destruct (_ <? fraction)%Qc|]; discriminate. }
    destruct period as [|p]; [auto|right]. destruct (C102_seasonal _ (S p) _ _ _ _ _ _ ltac:(lia) H) as (_ & F & L & _). auto.
  - intros (NE & C).
    assert (N0 : (length series =? 0) = false) by (apply Nat.eqb_neq; destruct series; [congruence|discriminate]).
    unfold hbos_detection. destruct period as [|p].
    + cbn [Nat.ltb Nat.leb]. unfold hbos_detection_nonseasonal. cbv zeta. rewrite N0.
      destruct (OH (clamped (length series) fraction) series) as (scores & -> & LS). cbn [bind]. rewrite map_length, LS, Nat.eqb_refl. cbn [negb].
      rewrite Nat.ltb_irrefl, andb_false_r. destruct (OT series) as (t & -> & LT). cbn [bind]. rewrite LT, Nat.eqb_refl. cbn [negb]. eauto.
    + destruct C as [C|[F L]]; [discriminate|]. replace (0 <? S p) with true by (symmetry; apply Nat.ltb_lt; lia).
      unfold hbos_detection_seasonal. cbv zeta.
      destruct (Q2Qc (49 # 100) <? fraction)%Qc eqn:EF; [apply Qcltb_lt in EF; exfalso; qlra|]. rewrite N0.
      destruct (length series <? S p * 2 + 1) eqn:E1; [apply Nat.ltb_lt in E1; lia|].
      destruct (OD last_mode series (S p)) as (t & s & -> & LT & LS). cbn [bind fst snd]. rewrite LT, LS, Nat.eqb_refl. cbn [andb negb].
      set (rest := zip_with _ (zip_with _ series t) s).
      assert (LR : length rest = length series) by (unfold rest; rewrite !zip_with_length; lia).
      assert (exists nz, normalize rest = Ok nz) as (nz & EN).
      { unfold normalize. destruct rest; [cbn in LR; apply Nat.eqb_neq in N0; lia|eauto]. }
      rewrite EN. cbn [bind]. pose proof (normalize_len _ _ EN) as LN.
      destruct (OH (clamped (length series) fraction) (fst (fst nz))) as (scores & -> & LSC). cbn [bind]. rewrite map_length, LSC, LN, LR, Nat.eqb_refl. cbn [negb].
      destruct (_ && _) eqn:EC; [|cbn [bind]; eauto]. apply andb_true_iff in EC. destruct EC as [_ EC]. apply Nat.ltb_lt in EC.
      set (mask := map (fun s => (threshold <? s)%Qc) scores) in *. assert (LM : length mask = length series) by (unfold mask; rewrite map_length; lia).
      assert (K : exists q v, nth_error (mask_nan mask t) q = Some (Some v)).
      { assert (M : ~ forall i, i < length mask -> nth_error mask i = Some true) by (intros A; apply count_all in A; lia).
        destruct (existsb negb mask) eqn:EX.
        - apply existsb_exists in EX. destruct EX as (b & I & B). apply In_nth_error in I. destruct I as (q & Q). destruct b; [discriminate|].
          assert (Lq : q < length t) by (rewrite LT, <- LM; apply nth_error_Some; congruence).
          destruct (nth_error t q) as [v|] eqn:V; [|apply nth_error_None in V; lia]. exists q, v. unfold mask_nan.
          rewrite (Helpers_proofs.zip_with_nth _ _ _ _ _ _ _ _ _ Q V). reflexivity.
        - exfalso. apply M. intros i Li. destruct (nth_error mask i) as [[]|] eqn:Q; auto.
          + exfalso. assert (X : existsb negb mask = true) by (apply existsb_exists; exists false; split; [eapply nth_error_In; eauto|auto]). congruence.
          + apply nth_error_None in Q. lia. }
      destruct (interp_spec _ K) as (o & -> & _). cbn [bind]. eauto.
Qed.

(** If the scores do not depend on the contamination (pyod's do not: it only
    sets the threshold of its own labels), the requested share of anomalies is
    without effect. *)
Theorem C102_fraction_ignored : (forall c c' l, hbos c l = hbos c' l) ->
  forall series period threshold f f' need_trend last_mode,
  period = 0 \/ (f <= Q2Qc (49 # 100))%Qc /\ (f' <= Q2Qc (49 # 100))%Qc ->
  DETECT series period threshold f need_trend last_mode = DETECT series period threshold f' need_trend last_mode.
Proof.
  intros H series period threshold f f' need_trend last_mode C. unfold hbos_detection. destruct period as [|p].
  - cbn [Nat.ltb Nat.leb]. unfold hbos_detection_nonseasonal. rewrite (H (clamped (length series) f) (clamped (length series) f')). auto.
  - destruct C as [C|[C C']]; [discriminate|]. destruct (0 <? S p); auto; unfold hbos_detection_seasonal.
    + destruct (Q2Qc (49 # 100) <? f)%Qc eqn:E; [apply Qcltb_lt in E; exfalso; qlra|].
      destruct (Q2Qc (49 # 100) <? f')%Qc eqn:E'; [apply Qcltb_lt in E'; exfalso; qlra|]. cbv zeta.
      destruct (length series =? 0); auto. destruct (length series <? S p * 2 + 1); auto.
      destruct (decompose last_mode series (S p)) as [[t s]|e]; cbn [bind]; auto. destruct (negb _); auto.
      destruct (normalize _) as [nz|e]; cbn [bind]; auto.
      rewrite (H (clamped (length series) f) (clamped (length series) f')). auto.
    + unfold hbos_detection_nonseasonal. rewrite (H (clamped (length series) f) (clamped (length series) f')). auto.
Qed.
End Props.
Print Assumptions C102_nonseasonal.
Print Assumptions C102_seasonal.
Print Assumptions C102_answers.
Print Assumptions C102_fraction_ignored.

(** * A concrete detector: scores are distances from the mean over the largest *)
Definition spread_scores (_ : Qc) (l : list Qc) : res (list Qc) :=
  let d := map (fun x => Qcabs (x - qmean l)) l in Ok (map (fun x => (x / qmax_list d)%Qc) d).
Definition halves (_ : bool) (l : list Qc) (_ : nat) : res (list Qc * list Qc) := Ok (map (fun _ => 0%Qc) l, map (fun x => (x / qz 2)%Qc) l).
Definition flat (l : list Qc) : res (list Qc) := Ok (map (fun _ => qmean l) l).
Definition qs : list Z -> list Qc := map qz.
Notation EX := (hbos_detection spread_scores halves flat (fun _ _ => Err Generic)).
Definition bumpy : list Qc := qs [1; 1; 9; 1; 1; 9; 1; 9; 1; 9]%Z.

(** The hypotheses of C102_answers and C102_fraction_ignored hold for it. *)
Example C102_case :
  (forall c l, exists scores, spread_scores c l = Ok scores /\ length scores = length l) /\
  (forall a l p, exists t s, halves a l p = Ok (t, s) /\ length t = length l /\ length s = length l) /\
  (forall l, exists t, flat l = Ok t /\ length t = length l) /\
  (forall c c' l, spread_scores c l = spread_scores c' l) /\
  (exists rows, EX bumpy 3 (Q2Qc (1 # 2)) (Q2Qc (1 # 10)) true false = Ok (rows, HbosSeasonal) /\ map h_anomaly rows <> map (fun _ => false) rows) /\
  exists rows, EX bumpy 0 (Q2Qc (99 # 100)) (Q2Qc (1 # 10)) true false = Ok (rows, HbosNonseasonal) /\
    map h_anomaly rows = [false; false; true; false; false; true; false; true; false; true].
Proof.
  split; [intros c l; eexists; split; [reflexivity|rewrite !map_length; auto]|].
  split; [intros a l p; do 2 eexists; split; [reflexivity|rewrite !map_length; auto]|].
  split; [intros l; eexists; split; [reflexivity|apply map_length]|]. split; [reflexivity|]. split.
  - eexists. split; [vm_compute; reflexivity|]. vm_compute. discriminate.
  - eexists. split; vm_compute; reflexivity.
Qed.

(** REFUTED: at most the requested share of the points is reported. A tenth was
    asked for, four of ten points are reported. *)
Theorem C102_share_refuted :
  ~ (forall hbos decompose trend dead series period threshold fraction need_trend last_mode rows m,
       (forall c l scores, hbos c l = Ok scores -> length scores = length l /\ Forall (fun s => 0 <= s /\ s <= 1)%Qc scores) ->
       hbos_detection hbos decompose trend dead series period threshold fraction need_trend last_mode = Ok (rows, m) ->
       (qn (count (map h_anomaly rows)) <= fraction * qn (length series) + 1)%Qc).
Proof.
  intros H.
  assert (X : exists rows, EX bumpy 0 (Q2Qc (99 # 100)) (Q2Qc (1 # 10)) true false = Ok (rows, HbosNonseasonal) /\
    map h_anomaly rows = [false; false; true; false; false; true; false; true; false; true]) by apply C102_case.
  destruct X as (rows & E & A).
  assert (S : forall c l scores, spread_scores c l = Ok scores -> length scores = length l /\ Forall (fun s => 0 <= s /\ s <= 1)%Qc scores).
  { intros c l scores S. injection S as <-. split; [rewrite !map_length; auto|].
    rewrite Forall_forall. intros x I. apply in_map_iff in I. destruct I as (d & <- & I).
    set (ds := map (fun x => Qcabs (x - qmean l)) l) in *.
    pose proof (qmax_list_ge ds d I) as G.
    assert (D : (0 <= d)%Qc) by (unfold ds in I; apply in_map_iff in I; destruct I as (y & <- & _); apply Qcabs_nonneg).
    destruct (Qclt_le_dec 0 (qmax_list ds)) as [P|P].
    - assert (N : qmax_list ds <> 0%Qc) by (intros X; rewrite X in P; exact (Qclt_not_eq _ _ P eq_refl)).
      assert (Q : (d / qmax_list ds * qmax_list ds = d)%Qc) by (field; auto). set (q := (d / qmax_list ds)%Qc) in *.
      split.
      + destruct (Qclt_le_dec q 0) as [L|L]; auto. exfalso. qnra.
      + destruct (Qclt_le_dec 1 q) as [L|L]; auto. exfalso. qnra.
    - assert (Z0 : qmax_list ds = 0%Qc) by qlra. rewrite Z0. assert (Zd : d = 0%Qc) by qlra. rewrite Zd. vm_compute. split; discriminate. }
  specialize (H spread_scores halves flat (fun _ _ => Err Generic) bumpy 0 _ _ _ _ rows _ S E).
  rewrite A in H. vm_compute in H. apply H. reflexivity.
Qed.
Print Assumptions C102_share_refuted.

(** REFUTED: reported points do not influence what is expected elsewhere.
    Lines 96-100 mean to take them out of the series before the trend, but
    compare a sum with itself. *)
Theorem C102_trend_without_reported_refuted :
  exists series series' rows rows', 
    EX series 0 (Q2Qc (9 # 10)) (Q2Qc (1 # 10)) false false = Ok (rows, HbosNonseasonal) /\
    EX series' 0 (Q2Qc (9 # 10)) (Q2Qc (1 # 10)) false false = Ok (rows', HbosNonseasonal) /\
    map h_anomaly rows' = map h_anomaly rows /\
    (forall i r, nth_error rows i = Some r -> h_anomaly r = false -> nth_error series' i = nth_error series i) /\
    exists i r r', nth_error rows i = Some r /\ nth_error rows' i = Some r' /\ h_anomaly r = false /\ h_expected r <> h_expected r'.
Proof.
  exists (qs [1; 1; 1; 9]%Z), (qs [1; 1; 1; 90]%Z). do 2 eexists. split; [vm_compute; reflexivity|]. split; [vm_compute; reflexivity|].
  split; [reflexivity|]. split.
  - intros [|[|[|[|i]]]] r E A; try reflexivity; cbn in E; try discriminate. injection E as <-. discriminate. 
  - exists 0. do 2 eexists. split; [reflexivity|]. split; [reflexivity|]. split; [reflexivity|]. cbn. intros X. apply (f_equal this) in X. vm_compute in X. discriminate X.
Qed.
Print Assumptions C102_trend_without_reported_refuted.
