(** Follow-up requests (C117): the same series asked about once more with a higher
    sensitivity, or with the period that was found. *)
From Coq Require Import String Ascii List Arith ZArith QArith Qcanon Bool Lia.
From Verif Require Import Base Num FillUp_model FillUp_spec FillUp_proofs Margins_model SR_model Detect_model Dates_model
  Request_model Request_spec Request_proofs Request_proofs2 Request_proofs4 Request_proofs6 Request_proofs7 Request_proofs8 Request_props
  Pipe_model Pipe_spec Pipe_props Lone_props2 Follow_spec Follow_proofs.
Import ListNotations.
Open Scope string_scope.
Open Scope nat_scope.

Section Request.
Context {T : Type}.
Variable to_datetime : list T -> option (list stamp).
Hypothesis to_datetime_length : forall l st, to_datetime l = Some st -> length st = length l.
Variable majority : list Qc -> Qc.
Variable beyond : list (point T) -> settings -> res (reply T).

(** Two requests that differ in the sensitivity ask the detector the same; what
    holds between the margins of its rows holds between the answers. *)
Lemma follow_by : forall (R : bool -> outcome -> outcome -> Prop) detect o o' rows d d' mode z z',
  rows <> [] -> decides parameter_rules d None -> (forall s, reads d s -> micro_ok s) ->
  (forall s, reads d s -> good_series to_datetime (s_gran s) (s_interval s) (s_period s) (nofill_of d) rows) ->
  (forall dd, ~ given "detector" d (VDict dd)) -> o__error o = None -> o__error o' = None -> mode_for o d = Some mode -> mode_for o' d' = Some mode ->
  alike_but "sensitivity" d d' -> reads_or "sensitivity" d 99%Z is_int z -> given "sensitivity" d' (VInt z') -> (z <= z' <= 100)%Z ->
  (forall v1 sr out, (0 <= z)%Z -> out <> [] -> exists os os' ol ol', get_margins_entire v1 sr out (qz z) = Ok os /\ get_margins_entire v1 sr out (qz z') = Ok os' /\
    get_margins_last v1 sr out (qz z) = Ok ol /\ get_margins_last v1 sr out (qz z') = Ok ol' /\ Forall2 (R v1) os os' /\ R v1 ol ol') ->
  let r := result (predict T to_datetime majority detect beyond o (DFrame rows) (Some d)) in
  let r' := result (predict T to_datetime majority detect beyond o' (DFrame rows) (Some d')) in
  exists s, reads d s /\ ((exists e, r = Err e /\ r' = Err e) \/ (exists y y', r = Ok y /\ r' = Ok y' /\ replies_by (R (s_v1 s)) y y')).
Proof.
  intros P detect o o' rows d d' mode z z' NE H M G ND HE HE' HM HM' AB RZ GZ HZ MF.
  destruct (predict_accepted to_datetime to_datetime_length majority beyond o rows d mode NE H M G ND HE HM) as (s & l & vs & R & B & AI & _ & FV & EQ).
  assert (ZS : s_sensitivity s = z). { eapply reads_or_fun; [|exact is_int_fun|apply (reads_sensitivity d s R)|exact RZ]. reflexivity. }
  assert (H' : decides parameter_rules d' None) by (eapply decides_sensitivity; eauto; lia).
  assert (KEY : "sensitivity" = "period" \/ "sensitivity" = "sensitivity") by auto.
  assert (AL := fun s' => reads_alike "sensitivity" KEY d d' AB s s' ND R).
  destruct (predict_accepted to_datetime to_datetime_length majority beyond o' rows d' mode NE H') as (s' & l' & vs' & R' & B' & AI' & _ & FV' & EQ'); auto.
  { intros s' R'. destruct (AL s' R') as (E1 & E2 & _). generalize (M s R). unfold micro_ok. rewrite E1, E2. auto. }
  { intros s' R'. destruct (AL s' R') as (E1 & E2 & _ & _ & _ & _ & _ & E3 & _). rewrite E1, E2, E3, (nofill_alike "sensitivity" KEY d d' AB) by auto. auto. }
  { apply (no_detector_alike "sensitivity" KEY d d' AB ND). }
  assert (ZS' : s_sensitivity s' = z').
  { destruct (reads_sensitivity d' s' R') as [[X _]|(v & X & I)]; unfold given in *; [congruence|]. assert (v = VInt z') by congruence. subst v. inversion I; auto. }
  destruct (AL s' R') as (E1 & E2 & E3 & E4 & E5 & E6 & E7 & E8 & _). specialize (E8 eq_refl).
  rewrite E1, E2 in AI'. assert (l' = l) by (eapply indices_fun; eauto). assert (vs' = vs) by (eapply values_fun; eauto). subst l' vs'.
  cbv zeta. exists s. split; auto. unfold result. rewrite EQ, EQ', E1, E2, E3, E4, E5, E6, E7, E8, ZS, ZS'.
  destruct (make_fup _ _ _) as [f|e]; [|left; exists e; auto]. rewrite !bind_ok.
  match goal with |- context [detect ?a ?b ?c ?e] => destruct (detect a b c e) as [[[[out p] m] q]|e0]; [|left; exists e0; auto] end. rewrite !bind_ok. cbv zeta.
  destruct (length (labels T rows) =? length out) eqn:EL; cbn [negb]; [|left; eauto]. apply Nat.eqb_eq in EL. rewrite labels_length in EL.
  assert (NO : out <> []) by (intros ->; destruct rows; [congruence|discriminate]).
  destruct (MF (s_v1 s) (is_sr m) out) as (os & os' & ol & ol' & M1 & M2 & M3 & M4 & NQ & NL); auto; try lia.
  rewrite M1, M2, M3, M4, !bind_ok.
  assert (LAST : (exists e, (do t <- last_opt (labels T rows); Ok (ALatest T t ol p (suggested_window (s_gran s) p))) = Err e /\
      (do t <- last_opt (labels T rows); Ok (ALatest T t ol' p (suggested_window (s_gran s) p))) = Err e) \/
    (exists y y', (do t <- last_opt (labels T rows); Ok (ALatest T t ol p (suggested_window (s_gran s) p))) = Ok y /\
      (do t <- last_opt (labels T rows); Ok (ALatest T t ol' p (suggested_window (s_gran s) p))) = Ok y' /\ replies_by (P (s_v1 s)) y y')).
  { destruct (last_opt (labels T rows)) as [t|e]; [right|left; exists e; auto]. rewrite !bind_ok. eexists. eexists. split; [reflexivity|]. split; [reflexivity|]. simpl. auto. }
  destruct mode as [| | | | | | |[|]| | | |]; try exact LAST.
  right. eexists. eexists. split; [reflexivity|]. split; [reflexivity|]. cbn [replies_by]. split; auto. apply zip_follow; auto.
Qed.

(** C117. The same request with a higher sensitivity: it fails in the same way,
    or both are answered with the same expected values and period, and every
    anomaly is still one. Whatever the detector is. *)
Theorem C117_sensitivity : forall detect o o' rows d d' mode z z',
  rows <> [] -> decides parameter_rules d None -> (forall s, reads d s -> micro_ok s) ->
  (forall s, reads d s -> good_series to_datetime (s_gran s) (s_interval s) (s_period s) (nofill_of d) rows) ->
  (forall dd, ~ given "detector" d (VDict dd)) -> o__error o = None -> o__error o' = None -> mode_for o d = Some mode -> mode_for o' d' = Some mode ->
  alike_but "sensitivity" d d' -> reads_or "sensitivity" d 99%Z is_int z -> given "sensitivity" d' (VInt z') -> (z <= z' <= 100)%Z ->
  let r := result (predict T to_datetime majority detect beyond o (DFrame rows) (Some d)) in
  let r' := result (predict T to_datetime majority detect beyond o' (DFrame rows) (Some d')) in
  (exists e, r = Err e /\ r' = Err e) \/ (exists y y', r = Ok y /\ r' = Ok y' /\ replies_by no_quieter y y').
Proof.
  intros detect o o' rows d d' mode z z' NE H M G ND HE HE' HM HM' AB RZ GZ HZ.
  destruct (follow_by (fun _ => no_quieter) detect o o' rows d d' mode z z') as (s & _ & K); auto.
  intros v1 sr out Z0 NO. destruct (margins_follow v1 sr out z z') as (os & os' & ol & ol' & A & B & C & D & _ & E & F); auto; try lia.
  exists os, os', ol, ol'. auto 8.
Qed.

(** C117. A request without a period, once answered, is answered in exactly the
    same way with the answered period given. *)
Theorem C117_found_period : forall L o o' rows d d' mode y,
  rows <> [] -> decides parameter_rules d None -> (forall s, reads d s -> micro_ok s) ->
  (forall s, reads d s -> good_series to_datetime (s_gran s) (s_interval s) (s_period s) (nofill_of d) rows) ->
  (forall dd, ~ given "detector" d (VDict dd)) -> o__error o = None -> o__error o' = None -> mode_for o d = Some mode -> mode_for o' d' = Some mode ->
  ~ given "fillUpMode" d VNoFill ->
  get "period" d = None -> result (predict T to_datetime majority (whole_detect L) beyond o (DFrame rows) (Some d)) = Ok y ->
  alike_but "period" d d' -> given "period" d' (VInt (Z.of_nat (answered_period y))) ->
  result (predict T to_datetime majority (whole_detect L) beyond o' (DFrame rows) (Some d')) = Ok y.
Proof.
  intros L o o' rows d d' mode y NE H M G ND HE HE' HM HM' NF NP HY AB GP.
  destruct (predict_accepted to_datetime to_datetime_length majority beyond o rows d mode NE H M G ND HE HM) as (s & l & vs & R & B & AI & L12 & FV & EQ).
  assert (PS : s_period s = None). { destruct (reads_period d s R) as [[_ X]|(v & X & _)]; auto. unfold given in X. congruence. }
  assert (NF' : nofill_of d = false). { unfold nofill_of. unfold given in NF. destruct (get "fillUpMode" d) as [[]|]; auto. exfalso; apply NF; auto. }
  assert (H' : decides parameter_rules d' None) by (eapply decides_period; eauto; lia).
  assert (KEY : "period" = "period" \/ "period" = "sensitivity") by auto.
  assert (AL := fun s' => reads_alike "period" KEY d d' AB s s' ND R).
  assert (PS' : forall s', reads d' s' -> s_period s' = Some (answered_period y)).
  { intros s' R'. destruct (reads_period d' s' R') as [[X _]|(v & X & n & I & E)]; unfold given in *; [congruence|]. assert (v = VInt (Z.of_nat (answered_period y))) by congruence. subst v.
    assert (Z.of_nat (answered_period y) = Z.of_nat n) by (inversion I; auto). rewrite E. f_equal. lia. }
  unfold result in *. rewrite (EQ (whole_detect L)) in HY. rewrite PS in HY.
  destruct (make_fup (Some l) (map Some vs) default_maxlen) as [f|] eqn:EF; [|discriminate]. rewrite bind_ok in HY.
  match type of HY with (do _ <- ?x; _) = _ => destruct x as [[[[out p] m] q]|] eqn:ED; [|discriminate] end. rewrite bind_ok in HY. cbv zeta in HY.
  assert (PY : answered_period y = p).
  { clear - HY. destruct (negb _); [discriminate|]. destruct mode as [| | | | | | |[|]| | | |];
      repeat (match type of HY with (do _ <- ?x; _) = _ => destruct x; [|discriminate] end; rewrite bind_ok in HY); inversion HY; reflexivity. }
  rewrite PY in *. clear PY.
  assert (LL : length l = length rows). { destruct AI as [[_ ->]|(_ & X & _)]; auto. rewrite map_length, seq_length. auto. }
  assert (FIT : (2 * Z.of_nat p <= last l 0)%Z). { eapply found_period; [exact ED|exact EF|]. intros X. rewrite X in LL. simpl in LL. lia. }
  destruct (predict_accepted to_datetime to_datetime_length majority beyond o' rows d' mode NE H') as (s' & l' & vs' & R' & B' & AI' & _ & FV' & EQ'); auto.
  { intros s' R'. destruct (AL s' R') as (E1 & E2 & _). generalize (M s R). unfold micro_ok. rewrite E1, E2. auto. }
  { intros s' R'. destruct (AL s' R') as (E1 & E2 & _). rewrite E1, E2, (PS' s' R'), (nofill_alike "period" KEY d d' AB).
    eapply good_series_period; [apply (G s R)|exact AI|exact NF'|]. intros n En. assert (n = p) by congruence. subst n. exact FIT. }
  { apply (no_detector_alike "period" KEY d d' AB ND). }
  destruct (AL s' R') as (E1 & E2 & E3 & E4 & E5 & E6 & E7 & _ & E9). specialize (E9 eq_refl).
  rewrite E1, E2 in AI'. assert (l' = l) by (eapply indices_fun; eauto). assert (vs' = vs) by (eapply values_fun; eauto). subst l' vs'.
  rewrite EQ', E1, E2, E3, E4, E5, E6, E7, E9, (PS' s' R'), EF, bind_ok.
  apply detect_again in ED. cbn [fst snd] in ED. rewrite ED, bind_ok. cbv zeta. exact HY.
Qed.
End Request.
Print Assumptions C117_sensitivity.
Print Assumptions C117_found_period.

(** Thirty-one days with a weekly course and one day that is off: the period 7 is
    found, and given in the next request. Fifteen numbers, one a sixteenth off: told
    of at sensitivity 100 but not at the default 99. *)
Definition month_days : list Z := map Z.of_nat (List.seq 1 31).
Definition month_value (n : Z) : Z := if (n =? 17)%Z then 70 else nth (Z.to_nat n mod 7) [10; 20; 30; 40; 50; 60; 0]%Z 0%Z.
Definition month : list (point stamp) := map (fun n => mkPoint (Some (day n)) (Num (Request_model.Fin (qz (month_value n))))) month_days.
Definition with_sensitivity (z : Z) : dict := ("sensitivity", VInt z) :: entire.
Definition with_period (p : Z) : dict := ("period", VInt p) :: asks_entire.
Definition told_days (r : res (reply stamp)) : option (nat * nat) :=
  match r with Ok (AEntire _ l p) => Some (p, length (filter (fun x => o_anomaly (snd x)) l)) | _ => None end.
Lemma month_good : forall nofill, good_series parsed Daily None None nofill month.
Proof.
  intros nofill. split; [vm_compute; lia|]. split; [vm_compute; discriminate|]. split.
  - intros x I. unfold month in I. apply in_map_iff in I. destruct I as (n & <- & I). exists (qz (month_value n)). split; auto.
    assert (B : (0 <= month_value n <= 70)%Z).
    { unfold month_days in I. apply in_map_iff in I. destruct I as (k & <- & I). apply in_seq in I.
      do 32 (destruct k as [|k]; [vm_compute; split; discriminate|]). lia. }
    split; [apply Qcle_trans with (qz 0)|apply Qcle_trans with (qz 70)]; try (apply (proj1 (qz_le _ _)); lia); vm_compute; discriminate.
  - intros _. exists (map day month_days), (map Z.of_nat (List.seq 0 31)). split; [|split; [|split; [vm_compute; reflexivity|discriminate]]].
    + exists (map day month_days). split; auto. unfold month. clear. induction month_days; simpl; constructor; auto.
    + intros i a b Ha Hb. do 30 (destruct i as [|i]; [inversion Ha; inversion Hb; subst; vm_compute; reflexivity|]). destruct i as [|i]; discriminate.
Qed.
Lemma month_usual : usual asks_entire month.
Proof.
  set (d := asks_entire). split; [discriminate|].
  assert (P : decides parameter_rules d None) by (eapply params_ok; vm_compute; reflexivity).
  assert (Q : get "granularity" d = Some (VStr "daily") /\ get "customInterval" d = None /\ get "period" d = None /\ get "detector" d = None /\ get "detect_mode" d = Some (VMode ENTIRE))
    by (repeat split).
  destruct Q as (Q1 & Q2 & Q3 & Q4 & Q5). split; auto. split; [|split; [|split]].
  - intros s R. destruct (daily_reads d s R Q1 Q2 Q3) as (E & _ & _). unfold micro_ok. rewrite E. discriminate.
  - intros s R. destruct (daily_reads d s R Q1 Q2 Q3) as (-> & -> & ->). apply month_good.
  - intros dd X. unfold given in X. congruence.
  - unfold mode_for. simpl. exact Q5.
Qed.
Definition nearly : list (point stamp) := lone_rows (Q2Qc (1 # 16)).
Lemma nearly_good : forall c p b, good_series parsed GNone c p b nearly.
Proof.
  apply good_rows; [vm_compute; lia|vm_compute; discriminate|]. intros x I. apply In_nth_error in I. destruct I as (i & I).
  do 15 (destruct i as [|i]; [inversion I; eexists; split; [reflexivity|split; vm_compute; discriminate]|]). destruct i; discriminate.
Qed.
Lemma nearly_usual : usual entire nearly.
Proof.
  split; [discriminate|]. split; [apply lone_asks|].
  assert (E : forall s, reads entire s -> s_gran s = GNone) by (intros s R; apply (no_granularity entire s); auto).
  split; [|split; [|split]].
  - intros s R. unfold micro_ok. rewrite (E s R). discriminate.
  - intros s R. rewrite (E s R). apply nearly_good.
  - intros dd X. discriminate.
  - reflexivity.
Qed.
Lemma alike_more : forall key v d, alike_but key d ((key, v) :: d).
Proof. intros key v d k N. simpl. destruct (String.eqb_spec key k); [congruence|reflexivity]. Qed.
Example C117_example : usual asks_entire month /\ usual entire nearly /\
  ~ given "fillUpMode" asks_entire VNoFill /\ get "period" asks_entire = None /\
  alike_but "sensitivity" entire (with_sensitivity 100) /\ alike_but "period" asks_entire (with_period 7) /\
  mode_for (fresh VNone) (with_sensitivity 100) = Some (VMode ENTIRE) /\ mode_for (fresh VNone) (with_period 7) = Some (VMode ENTIRE) /\
  told_days (result (ask_whole (fresh VNone) (DFrame month) (Some asks_entire))) = Some (7, 12) /\
  told_days (result (ask_whole (fresh VNone) (DFrame month) (Some (with_period 7)))) = Some (7, 12) /\
  told_days (result (ask_lone (fresh VNone) (DFrame nearly) (Some entire))) = Some (0, 0) /\
  told_days (result (ask_lone (fresh VNone) (DFrame nearly) (Some (with_sensitivity 100)))) = Some (0, 1).
Proof.
  split; [apply month_usual|]. split; [apply nearly_usual|]. split; [discriminate|]. split; [reflexivity|].
  split; [apply alike_more|]. split; [apply alike_more|]. split; [reflexivity|]. split; [reflexivity|].
  split; [vm_compute; reflexivity|]. split; [vm_compute; reflexivity|]. split; vm_compute; reflexivity.
Qed.
