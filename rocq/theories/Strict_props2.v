(** C107: what the seasonal detector flags, next to the dynamic threshold one,
    and in its two modes. *)
From Coq Require Import String List Arith ZArith QArith Qcanon Qround Lia Lqa Bool Sorted Permutation.
From Verif Require Import Base Num Sorting Kernel_model Kernel_spec FillUp_model FillUp_spec
  Helpers_model Helpers_proofs Helpers_props Margins_model SR_model SR_proofs3 Detect_model Detect_spec
  Detect_proofs Detect_proofs2 Detect_proofs3 Detect_proofs4 Detect_proofs7 Detect_props Units_props Strict_spec Strict_proofs Strict_proofs2 Strict_props.
Import ListNotations.
Open Scope nat_scope.

(** The series without its seasonal column. *)
Definition without_season (series season : list Qc) : list Qc := map (fun p => (fst p - snd p)%Qc) (combine series season).
(** Position [i] is flagged. *)
Definition flagged (rows : list row) (i : nat) : Prop := exists r, nth_error rows i = Some r /\ r_anomaly r = true.

Lemma zip_with_combine : forall (a b : list Qc), zip_with (fun a b => (a - b)%Qc) a b = without_season a b.
Proof. induction a as [|x a IH]; intros [|y b]; cbn; auto. f_equal. apply IH. Qed.

Section Rows.
Variable cst : Qc.
Variable std : list Qc -> Qc.
Variable ppf : Qc -> Z -> Qc.
Variable sqrt : Qc -> Qc.
Variable table : list Qc.
Variable sort : list (nat * Qc) -> list (nat * Qc).
Variable trend_detection : list Qc -> option nat -> res (list Qc).
Variable decompose : bool -> list Qc -> nat -> res (list Qc * list Qc).
Hypothesis SU : sorts_up sort.
Notation DT := (dynamic_threshold_detection cst std ppf sqrt table sort trend_detection).
Notation TS := (seasonal_series_detection cst std ppf sqrt table sort decompose).

(** What an answer of the seasonal detector consists of. *)
Lemma ts_parts : forall series period alpha ratio adjust nt lm rows m trend season,
  decompose adjust series period = Ok (trend, season) -> TS series period alpha ratio adjust nt lm = Ok (rows, m) ->
  exists u mn mx v vn vx idx, length season = length series /\
    normalize (without_season series season) = Ok (u, mn, mx) /\
    normalize (zip_with (fun a b => (a - b)%Qc) (without_season series season) trend) = Ok (v, vn, vx) /\
    ts_detect_anomaly cst std ppf sqrt table sort u v alpha (if (ratio <? 1 / qn (length series))%Qc then 1 / qn (length series) else ratio)%Qc lm = Ok (idx, m) /\
    length u = length series /\ length v = length series /\
    (forall i r, nth_error rows i = Some r -> r_anomaly r = mem_nat i idx) /\ length rows = length series.
Proof.
  intros series period alpha ratio adjust nt lm rows m trend season ED H. unfold seasonal_series_detection in H.
  destruct (_ <? ratio)%Qc; [discriminate|]. cbv zeta in H. destruct (length series =? 0); [discriminate|].
  destruct (length series <? _); [discriminate|]. rewrite ED, bind_ok in H. cbn [fst snd] in H.
  destruct ((length trend =? length series) && (length season =? length series)) eqn:B; [|discriminate]. cbn [negb] in H.
  apply andb_true_iff in B. destruct B as [B1 B2]. apply Nat.eqb_eq in B1, B2. rewrite !zip_with_combine in H.
  destruct (normalize (without_season series season)) as [[[u mn] mx]|] eqn:EN; [|discriminate]. rewrite bind_ok in H.
  destruct (normalize (without_season (without_season series season) trend)) as [[[v vn] vx]|] eqn:EV; [|discriminate]. rewrite bind_ok in H. cbn [fst] in H.
  match type of H with bind ?x _ = _ => destruct x as [[idx m1]|] eqn:EA; [|discriminate] end. rewrite bind_ok in H. cbn [fst snd] in H.
  match type of H with bind ?x _ = _ => destruct x as [tr|]; [|discriminate] end. rewrite bind_ok in H.
  match type of H with bind ?x _ = _ => destruct x as [fr|] eqn:R; [|discriminate] end. rewrite bind_ok in H. injection H as <- <-.
  apply result_frame_spec in R. destruct R as (R0 & _ & R).
  assert (LW : length (without_season series season) = length series) by (unfold without_season; rewrite map_length, combine_length; lia).
  assert (LU : length u = length series) by (apply normalize_len in EN; cbn [fst] in EN; lia).
  assert (LV : length v = length series).
  { apply normalize_len in EV. cbn [fst] in EV. unfold without_season in EV. rewrite !map_length, !combine_length, !map_length, !combine_length in EV. lia. }
  exists u, mn, mx, v, vn, vx, idx. split; auto. split; auto. split; [rewrite zip_with_combine; auto|]. split; auto. split; auto. split; auto. split; auto.
  intros i r Hr. destruct (R _ _ Hr) as (_ & _ & _ & _ & _ & _ & A & _). auto.
Qed.
Lemma dt_parts : forall series tv alpha ratio nt lm rows m, DT series tv alpha ratio nt lm = Ok (rows, m) ->
  exists u mn mx idx, normalize series = Ok (u, mn, mx) /\ dt_detect_anomaly cst std ppf sqrt table sort u alpha ratio lm = Ok (idx, m) /\
    (forall i r, nth_error rows i = Some r -> r_anomaly r = mem_nat i idx) /\ length rows = length series.
Proof.
  intros series tv alpha ratio nt lm rows m H. unfold dynamic_threshold_detection in H. destruct (normalize series) as [[[u mn] mx]|] eqn:EN; [|discriminate].
  rewrite bind_ok in H. cbn [fst] in H. destruct (dt_detect_anomaly cst std ppf sqrt table sort u alpha ratio lm) as [[idx m1]|] eqn:ED; [|discriminate]. rewrite bind_ok in H. cbn [fst snd] in H.
  match type of H with bind ?x _ = _ => destruct x as [tr|]; [|discriminate] end. rewrite bind_ok in H.
  match type of H with bind ?x _ = _ => destruct x as [fr|] eqn:R; [|discriminate] end. rewrite bind_ok in H. injection H as <- <-.
  apply result_frame_spec in R. destruct R as (R0 & _ & R). exists u, mn, mx, idx. do 3 (split; auto).
  intros i r Hr. destruct (R _ _ Hr) as (_ & _ & _ & _ & _ & _ & A & _). auto.
Qed.

(** C107. What the dynamic threshold detector flags on the series without its
    seasonal column, the seasonal detector flags on the series: every point in
    the whole-series run, the newest point in the latest-point run. *)
Theorem C107_threshold_points_flagged : forall series period alpha ratio adjust nt nt' lm tv trend season rows m rows' m' i, 4 <= length series ->
  decompose adjust series period = Ok (trend, season) -> (lm = true -> i = length series - 1) ->
  DT (without_season series season) tv alpha ratio nt' lm = Ok (rows', m') ->
  TS series period alpha ratio adjust nt lm = Ok (rows, m) ->
  flagged rows' i -> flagged rows i.
Proof.
  intros series period alpha ratio adjust nt nt' lm tv trend season rows m rows' m' i L4 ED HL HD HT (r & Hr & A).
  destruct (ts_parts _ _ _ _ _ _ _ _ _ _ _ ED HT) as (u & mn & mx & v & vn & vx & idx & LSE & EN & EV & EA & LU & LV & R & LR).
  destruct (dt_parts _ _ _ _ _ _ _ _ HD) as (u' & mn' & mx' & idx' & EN' & EA' & R' & LR'). rewrite EN in EN'. injection EN' as <- <- <-.
  rewrite (R' _ _ Hr) in A. apply mem_nat_in in A.
  assert (LI : i < length rows). { apply nth_error_lt in Hr. rewrite LR' in Hr. unfold without_season in Hr. rewrite map_length, combine_length in Hr. lia. }
  destruct (nth_error_ex _ rows i LI) as [q Hq]. exists q. split; auto. rewrite (R _ _ Hq). apply mem_nat_in.
  eapply (ts_contains_dt cst std ppf sqrt table sort SU u v alpha alpha ratio _ lm lm idx' m' idx m i); eauto; [lia|lia| | |].
  - rewrite LU. intros [|]; auto.
  - destruct (ratio <? _)%Qc eqn:B; [|apply Qcle_refl]. qb_hyps. apply Qclt_le_weak; auto.
  - intros n k _. apply Qcle_refl.
Qed.

(** C107. If the whole-series run flags the newest point, so does the
    latest-point run. *)
Theorem C107_newest_kept_by_latest : forall series period alpha ratio adjust nt nt' parts rows m rows' m', 4 <= length series ->
  decompose adjust series period = Ok parts ->
  TS series period alpha ratio adjust nt false = Ok (rows, m) -> TS series period alpha ratio adjust nt' true = Ok (rows', m') ->
  flagged rows (length series - 1) -> flagged rows' (length series - 1).
Proof.
  intros series period alpha ratio adjust nt nt' [trend season] rows m rows' m' L4 ED H H' (r & Hr & A).
  destruct (ts_parts _ _ _ _ _ _ _ _ _ _ _ ED H) as (u & mn & mx & v & vn & vx & idx & LSE & EN & EV & EA & LU & LV & R & LR).
  destruct (ts_parts _ _ _ _ _ _ _ _ _ _ _ ED H') as (u' & mn' & mx' & v' & vn' & vx' & idx' & _ & EN' & EV' & EA' & _ & _ & R' & LR').
  rewrite EN in EN'. injection EN' as <- <- <-. rewrite EV in EV'. injection EV' as <- <- <-.
  destruct (nth_error_ex _ rows' (length series - 1)) as [q Hq]; [lia|]. exists q. split; auto. rewrite (R' _ _ Hq). rewrite (R _ _ Hr) in A. apply mem_nat_in. apply mem_nat_in in A.
  rewrite <- LU in A |- *. eapply (ts_newest cst std ppf sqrt table sort SU u v); eauto; lia.
Qed.
End Rows.
Print Assumptions C107_threshold_points_flagged.
Print Assumptions C107_newest_kept_by_latest.

(** No season, a given trend. *)
Definition given_trend (t : list Z) (adjust : bool) (s : list Qc) (p : nat) : res (list Qc * list Qc) := Ok (map qz t, map (fun _ => 0%Qc) s).
Definition run_ts (root : Qc) (l t : list Z) (alpha ratio : Qc) (lm : bool) : res (list row * model_id) :=
  seasonal_series_detection ppf34 range_std line_ppf (fun _ => root) [] sort_pairs (given_trend t) (map qz l) 4 alpha ratio false true lm.
Definition seen_rows (x : res (list row * model_id)) : option (list nat) :=
  match x with Ok (rows, _) => Some (map fst (filter (fun p => r_anomaly (snd p)) (combine (range (length rows)) rows))) | Err _ => None end.
Definition hills : list Z := [100; 97; 112; 113; 98; 103; 104; 96; 102; 95; 101; 105]%Z.
Definition hills_trend : list Z := [100; 98; 111; 113; 97; 103; 105; 95; 102; 96; 101; 75]%Z.

(** C107. The converse fails: the latest-point run flags a newest point that the
    whole-series run leaves out, as the older points take the places. *)
Theorem C107_newest_converse_refuted : exists root l t alpha ratio a b, (0 < ratio)%Qc /\ (ratio <= Q2Qc (49 # 100))%Qc /\ (0 < alpha)%Qc /\ (alpha < 1)%Qc /\
  seen_rows (run_ts root l t alpha ratio false) = Some a /\ seen_rows (run_ts root l t alpha ratio true) = Some b /\
  ~ In (length l - 1) a /\ In (length l - 1) b.
Proof.
  exists (Q2Qc 4), hills, hills_trend, (Q2Qc (1 # 2)), (Q2Qc (1 # 6)), [2; 3], [11].
  do 4 (split; [vm_compute; first [reflexivity|discriminate]|]). do 2 (split; [vm_compute; reflexivity|]). cbn. split; [lia|auto].
Qed.
(** C107. Nor does C105 hold of the seasonal detector: at a higher level the test
    on the data takes places from the test on the remainder. *)
Theorem C107_level_refuted : exists root l t alpha alpha' ratio a b i, (0 < ratio)%Qc /\ (ratio <= Q2Qc (49 # 100))%Qc /\ (0 < alpha)%Qc /\ (alpha <= alpha')%Qc /\ (alpha' < 1)%Qc /\
  seen_rows (run_ts root l t alpha ratio false) = Some a /\ seen_rows (run_ts root l t alpha' ratio false) = Some b /\ In i a /\ ~ In i b.
Proof.
  exists (Q2Qc 4), hills, hills_trend, (Q2Qc (1 # 20)), (Q2Qc (1 # 2)), (Q2Qc (1 # 6)), [11], [2; 3], 11.
  do 5 (split; [vm_compute; first [reflexivity|discriminate]|]). do 2 (split; [vm_compute; reflexivity|]). cbn. split; [auto|lia].
Qed.
Print Assumptions C107_newest_converse_refuted.
Print Assumptions C107_level_refuted.

(** Both detectors on the same series: the seasonal one flags the two the
    threshold test flags, and one more. *)
Example C107_example :
  let ask lm := dynamic_threshold_detection ppf34 range_std line_ppf (fun _ => Q2Qc 4) [] sort_pairs mean_trend (without_season (map qz hills) (map (fun _ => 0%Qc) hills)) (map qz hills) (Q2Qc (1 # 2)) (Q2Qc (1 # 4)) true lm in
  given_trend hills_trend false (map qz hills) 4 = Ok (map qz hills_trend, map (fun _ => 0%Qc) hills) /\
  seen_rows (ask false) = Some [2; 3] /\ seen_rows (run_ts (Q2Qc 4) hills hills_trend (Q2Qc (1 # 2)) (Q2Qc (1 # 4)) false) = Some [2; 3; 11] /\
  seen_rows (run_ts (Q2Qc 4) hills hills_trend (Q2Qc (1 # 2)) (Q2Qc (1 # 4)) true) = Some [11].
Proof. cbv zeta. split; [reflexivity|]. repeat split; vm_compute; reflexivity. Qed.
