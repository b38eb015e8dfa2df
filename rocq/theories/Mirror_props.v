(** C104: turning a series upside down. *)
From Coq Require Import String List Arith ZArith QArith Qcanon Qround Lia Lqa Bool Sorted Permutation.
From Verif Require Import Base Num Sorting Kernel_model Kernel_spec FillUp_model FillUp_spec FillUp_proofs Helpers_model Helpers_spec
  Margins_model SR_model SR_proofs3 Detect_model Detect_spec Detect_proofs Detect_proofs7 Detect_props Period_proofs3
  Units_spec Units_proofs Units_proofs2 Units_proofs3 Units_proofs4 Units_proofs5 Units_proofs6 Units_proofs7 Units_proofs8 Units_props
  Mirror_spec Mirror_proofs Mirror_proofs2 Mirror_proofs3 Mirror_proofs4 Mirror_proofs5 Mirror_proofs6 Mirror_proofs7.
Import ListNotations.
Open Scope nat_scope.

Section Mirror.
Variable cst : Qc.
Variable std : list Qc -> Qc.
Variable ppf : Qc -> Z -> Qc.
Variable sqrt : Qc -> Qc.
Variable table : list Qc.
Variable sort : list (nat * Qc) -> list (nat * Qc).
Variable sort_desc : list (nat * Qc) -> list (nat * Qc).
Variable trend_detection : list Qc -> option nat -> res (list Qc).
Variable decompose : bool -> list Qc -> nat -> res (list Qc * list Qc).
Variable transform : list Qc -> list Qc.
Variable stationary : list Qc -> bool.
Variable spline : list nat -> list Qc -> nat -> Qc.
Variable period_detection : list (option Qc) -> res nat.
Hypothesis SU : sorts_up sort.
(** The libraries are even handed: an upside down series has the upside down
    trend, components and spline, and the same spread, spectral residuals,
    period and stationarity. *)
Hypothesis EV : even_spread std.
Hypothesis TD : trend_in_unit minus 0 trend_detection.
Hypothesis PD : forall s p, 1 < p -> parts_in_unit minus 0 decompose s p.
Hypothesis SB : unit_blind minus 0 stationary.
Hypothesis SP : spline_in_unit minus 0 spline.
Hypothesis TB : scale_blind minus transform.
Hypothesis PB : forall l, period_detection (cells_in_unit minus 0 l) = period_detection l.
Notation detect := (detect_model cst std ppf sqrt table sort sort_desc trend_detection decompose transform stationary spline period_detection).
Notation entire := (predict_entire cst std ppf sqrt table sort sort_desc trend_detection decompose transform stationary spline period_detection).
Notation latest := (predict_last cst std ppf sqrt table sort sort_desc trend_detection decompose transform stationary spline period_detection).

(** C104. The negated series gets the same period, the same detector, the same
    points reported, and the two directions exchanged. No granularity, fill
    mode or detection mode is an exception. *)
Theorem C104_rows_exchanged : forall ix a d period lm,
  make_fup (Some ix) (map Some (a_values a)) default_maxlen = Ok (a_fup a) -> through_knots spline ix a -> 4 <= length ix ->
  (forall s, analysed spline a s -> evenly_read cst sort stationary decompose lm s) ->
  make_fup (Some ix) (map Some (a_values (args_in_unit minus 0 a))) default_maxlen = Ok (a_fup (args_in_unit minus 0 a)) /\
  answers_alike (exchanged_report (a_need_trend a)) (detect a d period lm) (detect (args_in_unit minus 0 a) d period lm).
Proof.
  intros ix a d period lm HF TK L4 ER. split; [apply fup_unit; auto|]. apply detect_mir; auto.
  intros s HA. split; auto. eapply analysed_len; eauto.
Qed.

(** C104. The answer for the entire series: the same timestamps and period; the
    expected values negated, the directions exchanged, the same points reported
    with the same severity and score. Margins of version 1 are exchanged when
    the band reaches the data on both sides, those of version 2 at every point
    that is reported or not exactly as expected. *)
Theorem C104_entire_answer : forall T ix a d period v1 sens (ts : list T),
  make_fup (Some ix) (map Some (a_values a)) default_maxlen = Ok (a_fup a) -> through_knots spline ix a -> 4 <= length ix ->
  (forall s, analysed spline a s -> evenly_read cst sort stationary decompose false s) -> (v1 = false -> a_need_trend a = true) ->
  answers_alike (fun x y => snd y = snd x /\ map fst (fst y) = map fst (fst x) /\ Forall2 flipped (map snd (fst x)) (map snd (fst y)) /\
      forall rows p m fl, detect a d period false = Ok (rows, p, m, fl) ->
        (v1 = true -> band_reaches (half_width (is_sr m) sens rows) rows -> (sens <= Q2Qc 100)%Qc -> Forall2 swapped_margins (map snd (fst x)) (map snd (fst y))) /\
        (v1 = false -> forall i r o o', nth_error rows i = Some r -> nth_error (map snd (fst x)) i = Some o -> nth_error (map snd (fst y)) i = Some o' ->
           r_anomaly r = true \/ r_value r <> r_expected r -> swapped_margins o o'))
    (entire a d period v1 sens ts) (entire (args_in_unit minus 0 a) d period v1 sens ts).
Proof.
  intros T ix a d period v1 sens ts HF TK L4 ER NT. unfold predict_entire.
  eapply alike_bind; [eapply (C104_rows_exchanged ix a d period false); eauto|].
  intros [[[rows p] m] fl] [[[rows' p'] m'] fl'] E _ (-> & -> & -> & F).
  rewrite <- (Forall2_len _ _ _ _ _ F). destruct (negb (length ts =? length rows)) eqn:ET; [simpl; auto|].
  apply negb_false_iff, Nat.eqb_eq in ET.
  assert (ZP : forall o : list outcome, length o = length ts -> map fst (zip_pair ts o) = ts /\ map snd (zip_pair ts o) = o).
  { clear. induction ts as [|t ts IH]; intros [|x o] L; simpl in *; try lia; auto. destruct (IH o ltac:(lia)) as [A B]. rewrite A, B. auto. }
  assert (ML : forall rs o, get_margins_entire v1 (is_sr m) rs sens = Ok o -> length o = length rs).
  { intros rs o G. destruct v1; cbn [get_margins_entire] in G.
    - rewrite v1_widths in G. destruct rs as [|r0 rs]; [discriminate|]. rewrite refine_margins_map in G by discriminate. cbv zeta in G. apply (f_equal (fun x => match x with Ok y => length y | Err _ => 0 end)) in G. rewrite map_length in G. auto.
    - destruct rs as [|r0 rs]; [discriminate|]. unfold get_margins_v2_entire in G.
      assert (LM : forall us l o, mapM2 (v2_entire_point sens) us l = Ok o -> length us = length l -> length o = length l).
      { clear. induction us as [|u us IH]; intros [|r l] o G L; simpl in *; try lia; [injection G as <-; auto|].
        destruct (v2_entire_point sens u r); [|discriminate]. cbn [bind] in G. destruct (mapM2 _ us l) eqn:Q; [|discriminate]. cbn [bind] in G. injection G as <-. simpl. f_equal. eapply IH; eauto. }
      eapply LM; [exact G|]. unfold calculate_boundary_units. cbv zeta. destruct (forallb _ _); rewrite ?map_length; auto. }
  assert (GG : answers_alike (fun o o' => Forall2 flipped o o' /\
       (v1 = true -> band_reaches (half_width (is_sr m) sens rows) rows -> (sens <= Q2Qc 100)%Qc -> Forall2 swapped_margins o o') /\
       (v1 = false -> forall i r x x', nth_error rows i = Some r -> nth_error o i = Some x -> nth_error o' i = Some x' ->
           r_anomaly r = true \/ r_value r <> r_expected r -> swapped_margins x x'))
    (get_margins_entire v1 (is_sr m) rows sens) (get_margins_entire v1 (is_sr m) rows' sens)).
  { destruct v1; cbn [get_margins_entire].
    - eapply alike_impl; [|apply (v1_mir _ (is_sr m) sens rows rows' F)]. intros o o' [A B]. split; auto. split; auto. discriminate.
    - rewrite (NT eq_refl) in F. destruct rows as [|r0 rows]; [inversion F; simpl; auto|]. destruct rows' as [|r0' rows']; [inversion F|].
      unfold get_margins_v2_entire. rewrite (units_mir _ _ F). clear E ET. remember (r0 :: rows) as l. remember (r0' :: rows') as l'. clear Heql Heql'.
      assert (LG : forall us l l', Forall2 (exchanged true) l l' -> answers_alike (fun o o' => Forall2 flipped o o' /\ forall i r x x', nth_error l i = Some r -> nth_error o i = Some x -> nth_error o' i = Some x' ->
           r_anomaly r = true \/ r_value r <> r_expected r -> swapped_margins x x') (mapM2 (v2_entire_point sens) us l) (mapM2 (v2_entire_point sens) us l')).
      { clear. induction us as [|u us IH]; intros l l' F; [simpl; split; auto; intros [|i]; discriminate|].
        destruct F as [|r r' l l' X F]; cbn [mapM2]; [simpl; split; auto; intros [|i]; discriminate|].
        eapply alike_bind; [apply (v2_entire_mir true sens u r r' X)|]. intros o o' _ _ [P Q]. eapply alike_bind; [apply IH; exact F|]. intros os os' _ _ [P2 Q2].
        cbn [answers_alike]. split; [constructor; auto|]. intros [|i] z x x' A B C D; simpl in *; [injection A as <-; injection B as <-; injection C as <-; auto|eapply Q2; eauto]. }
      eapply alike_impl; [|apply LG; exact F]. intros o o' [A B]. split; auto. split; [discriminate|auto]. }
  destruct (get_margins_entire v1 (is_sr m) rows sens) as [o|e] eqn:G1, (get_margins_entire v1 (is_sr m) rows' sens) as [o'|e'] eqn:G2;
    cbn [answers_alike bind] in *; try contradiction; auto.
  destruct GG as (A & B & C). pose proof (ML _ _ G1) as L1. pose proof (ML _ _ G2) as L2. rewrite <- (Forall2_len _ _ _ _ _ F) in L2.
  destruct (ZP o ltac:(lia)) as [Z1 Z2]. destruct (ZP o' ltac:(lia)) as [Z3 Z4]. cbn [fst snd]. rewrite Z1, Z2, Z3, Z4.
  do 3 (split; [auto; fail|]). intros rows0 p0 m0 fl0 H. rewrite E in H. injection H as <- <- <- <-. split; auto.
Qed.

(** C104. The answer for the latest point. *)
Theorem C104_latest_answer : forall T ix a d period v1 sens (ts : list T),
  make_fup (Some ix) (map Some (a_values a)) default_maxlen = Ok (a_fup a) -> through_knots spline ix a -> 4 <= length ix ->
  (forall s, analysed spline a s -> evenly_read cst sort stationary decompose true s) -> (v1 = false -> a_need_trend a = true) ->
  answers_alike (fun x y => let '(t, o, p, w) := x in let '(t', o', p', w') := y in t' = t /\ p' = p /\ w' = w /\ flipped o o' /\
      forall rows q m fl, detect a d period true = Ok (rows, q, m, fl) ->
        (v1 = true -> band_reaches (half_width (is_sr m) sens rows) rows -> (sens <= Q2Qc 100)%Qc -> swapped_margins o o') /\
        (v1 = false -> forall r, nth_error rows (length rows - 1) = Some r -> r_anomaly r = true \/ r_value r <> r_expected r -> swapped_margins o o'))
    (latest a d period v1 sens ts) (latest (args_in_unit minus 0 a) d period v1 sens ts).
Proof.
  intros T ix a d period v1 sens ts HF TK L4 ER NT. unfold predict_last.
  eapply alike_bind; [eapply (C104_rows_exchanged ix a d period true); eauto|].
  intros [[[rows p] m] fl] [[[rows' p'] m'] fl'] E _ (-> & -> & -> & F).
  rewrite <- (Forall2_len _ _ _ _ _ F). destruct (negb (length ts =? length rows)) eqn:ET; [simpl; auto|].
  assert (LA : forall A (l : list A) x, last_opt l = Ok x -> nth_error l (length l - 1) = Some x).
  { clear. intros A l x H. unfold last_opt in H. destruct (rev l) as [|y t] eqn:Q; [discriminate|]. injection H as <-. assert (Q2 : l = rev t ++ [y]) by (rewrite <- (rev_involutive l), Q; auto).
    rewrite Q2, app_length, nth_error_app2 by (simpl; lia). simpl. replace (length (rev t) + 1 - 1 - length (rev t)) with 0 by lia. auto. }
  eapply (alike_bind _ _ _ _ (fun o o' => flipped o o' /\
       (v1 = true -> band_reaches (half_width (is_sr m) sens rows) rows -> (sens <= Q2Qc 100)%Qc -> swapped_margins o o') /\
       (v1 = false -> forall r, nth_error rows (length rows - 1) = Some r -> r_anomaly r = true \/ r_value r <> r_expected r -> swapped_margins o o'))).
  - destruct v1; cbn [get_margins_last].
    + eapply alike_bind; [apply (v1_mir _ (is_sr m) sens rows rows' F)|]. intros o o' _ _ [A B].
      eapply alike_impl; [|apply (last_opt_rel _ _ (fun x y => flipped x y /\ (band_reaches (half_width (is_sr m) sens rows) rows -> (sens <= Q2Qc 100)%Qc -> swapped_margins x y)))].
      * intros x y [P Q]. split; auto. split; auto. discriminate.
      * assert (BB : band_reaches (half_width (is_sr m) sens rows) rows /\ (sens <= Q2Qc 100)%Qc -> Forall2 swapped_margins o o') by (intros [? ?]; auto).
        clear - A BB. induction A as [|x y l l' X A IH]; constructor.
        -- split; auto. intros U V. specialize (BB (conj U V)). inversion BB; auto.
        -- apply IH. intros U. specialize (BB U). inversion BB; auto.
    + rewrite (NT eq_refl) in F. unfold get_margins_v2_last. rewrite (units_mir _ _ F). eapply alike_bind; [apply last_opt_rel; exact F|]. intros r r' HR _ X.
      apply (alike_bind _ _ _ _ eq); [apply alike_eq|]. intros u u' _ _ <-. eapply alike_impl; [|apply (v2_last_mir true sens u r r' X)].
      intros o o' [A B]. split; auto. split; [discriminate|]. intros _ z HZ D. rewrite (LA _ _ _ HR) in HZ. injection HZ as <-. auto.
  - intros o o' _ _ (A & B & C). apply (alike_bind _ _ _ _ eq); [apply alike_eq|]. intros t t' _ _ <-. cbn [answers_alike].
    do 4 (split; [auto; fail|]). intros rows0 p0 m0 fl0 H. rewrite E in H. injection H as <- <- <- <-. split; auto.
Qed.
End Mirror.

Print Assumptions C104_rows_exchanged.
Print Assumptions C104_entire_answer.
Print Assumptions C104_latest_answer.

(** A decomposition without seasons, and the libraries of the example. *)
Definition flat_parts (adj : bool) (s : list Qc) (p : nat) : res (list Qc * list Qc) := Ok (map (fun _ => qmean s) s, map (fun _ => 0%Qc) s).
Lemma flat_parts_mir : forall s p, parts_in_unit minus 0 flat_parts s p.
Proof.
  intros s p adj. cbn [flat_parts answers_alike fst snd]. destruct s as [|x s]; [split; reflexivity|].
  split; [|unfold in_unit; rewrite !map_map; apply map_ext; intros; ring].
  rewrite qmean_unit by discriminate. unfold in_unit. rewrite !map_map. apply map_ext. intros. ring.
Qed.
Lemma range_std_even : even_spread range_std.
Proof.
  split.
  - intros c [|x s]; auto. unfold range_std at 2. change (in_unit minus c (x :: s)) with (map (fun y => minus * y + c)%Qc (x :: s)).
    assert (G : forall l, l <> [] -> range_std l = (qmax_list l - qmin_list l)%Qc) by (intros [|? ?] ?; [congruence|auto]).
    rewrite G by discriminate. change (map (fun y => (minus * y + c)%Qc) (x :: s)) with (in_unit minus c (x :: s)).
    rewrite max_mir, min_mir by discriminate. ring.
  - intros s. destruct s as [|x s]; auto. assert (G : forall l, l <> [] -> range_std l = (qmax_list l - qmin_list l)%Qc) by (intros [|? ?] ?; [congruence|auto]).
    assert (NE : rev (x :: s) <> []) by (intros X; apply (f_equal (@length _)) in X; rewrite rev_length in X; discriminate).
    rewrite !G by (auto; discriminate). 
    assert (P : Permutation (rev (x :: s)) (x :: s)) by (symmetry; apply Permutation_rev).
    rewrite (max_perm (x :: s) (rev (x :: s))), (min_perm (x :: s) (rev (x :: s))) by (auto; discriminate). auto.
Qed.
Definition mirror_detect := detect_model ppf34 range_std (fun _ _ => 0%Qc) (fun x => x) ex_table sort_pairs (fun l => l) mean_trend
  flat_parts (map (fun _ => 0%Qc)) (fun _ => true) first_spline (fun _ => Ok 0).
Definition mirror_entire := predict_entire (T := nat) ppf34 range_std (fun _ _ => 0%Qc) (fun x => x) ex_table sort_pairs (fun l => l) mean_trend
  flat_parts (map (fun _ => 0%Qc)) (fun _ => true) first_spline (fun _ => Ok 0).
Definition mirror_latest := predict_last (T := nat) ppf34 range_std (fun _ _ => 0%Qc) (fun x => x) ex_table sort_pairs (fun l => l) mean_trend
  flat_parts (map (fun _ => 0%Qc)) (fun _ => true) first_spline (fun _ => Ok 0).
Definition temperatures : list Z := [20; 21; 23; 18; 19; 22; 60; 17; 24; 25; 16; 26]%Z.
Definition ask_mirror (v1 : bool) (sens : Qc) (a : args) := mirror_entire a (mkDet None None) None v1 sens (range 12).
Definition upside_down (a : args) : args := args_in_unit minus 0 a.
Definition margins_of (r : res (list (nat * outcome) * nat)) : list (Q * Q) :=
  match r with Ok x => map (fun p => (this (o_upper (snd p)), this (o_lower (snd p)))) (fst x) | Err _ => [] end.
Definition directions_of (r : res (list (nat * outcome) * nat)) : list (bool * bool) :=
  match r with Ok x => map (fun p => (o_neg (snd p), o_pos (snd p))) (fst x) | Err _ => [] end.

Fixpoint distinctb (l : list Qc) : bool := match l with [] => true | x :: t => negb (existsb (Qceqb x) t) && distinctb t end.
Lemma distinctb_nodup : forall l, distinctb l = true -> NoDup l.
Proof.
  induction l as [|x t IH]; intros H; constructor; apply andb_true_iff in H; destruct H as [A B]; auto.
  intros I. apply negb_true_iff in A. assert (X : existsb (Qceqb x) t = true) by (apply existsb_exists; exists x; split; auto; apply Qceqb_eq; auto). congruence.
Qed.
Lemma temperatures_read : forall nt lm s, analysed first_spline (unit_args nt temperatures) s -> evenly_read ppf34 sort_pairs (fun _ => true) flat_parts lm s.
Proof.
  intros nt lm s HA. assert (E : s = map qz temperatures).
  { destruct HA as [HA|HA]; [exact HA|]. destruct HA as (p & l & HF). exfalso. destruct nt; vm_compute in HF; discriminate HF. }
  subst s. split.
  - intros x [->|(z & Z0 & H)]; [|exfalso; vm_compute in H; injection H as <- _; lia].
    split; [left; apply distinctb_nodup; vm_compute; reflexivity|]. left. split; vm_compute; reflexivity.
  - intros p t c _ H _ _. injection H as <- <-. cbv zeta. split; (split; [left; apply distinctb_nodup; vm_compute; reflexivity|left; split; vm_compute; reflexivity]).
Qed.
Lemma temperatures_args : forall nt, let a := unit_args nt temperatures in
  make_fup (Some (map Z.of_nat (range 12))) (map Some (a_values a)) default_maxlen = Ok (a_fup a) /\
  through_knots first_spline (map Z.of_nat (range 12)) a /\ 4 <= length (map Z.of_nat (range 12)).
Proof. intros nt. split; [destruct nt; vm_compute; reflexivity|]. split; [intros X; discriminate X|]. vm_compute. lia. Qed.

(** Twelve different temperatures with a heat wave: upside down it is a cold
    wave at the same hour. *)
Example C104_rows_exchanged_example :
  (forall nt, answers_alike (exchanged_report nt) (mirror_detect (unit_args nt temperatures) (mkDet None None) None false)
     (mirror_detect (upside_down (unit_args nt temperatures)) (mkDet None None) None false)) /\
  exists rows rows', mirror_detect (unit_args true temperatures) (mkDet None None) None false = Ok (rows, 0, DynamicThreshold, false) /\
    mirror_detect (upside_down (unit_args true temperatures)) (mkDet None None) None false = Ok (rows', 0, DynamicThreshold, false) /\
    map r_pos rows = map (Nat.eqb 6) (range 12) /\ map r_neg rows' = map (Nat.eqb 6) (range 12).
Proof.
  split.
  - intros nt. destruct (temperatures_args nt) as (A & B & C).
    apply (C104_rows_exchanged ppf34 range_std (fun _ _ => 0%Qc) (fun x => x) ex_table sort_pairs (fun l => l) mean_trend flat_parts (map (fun _ => 0%Qc)) (fun _ => true) first_spline (fun _ => Ok 0)
      sort_pairs_ok range_std_even (mean_trend_unit _ _) (fun s p _ => flat_parts_mir s p) (fun _ => eq_refl) (first_spline_unit _ _)
      (fun s => map_map _ _ s) (fun _ => eq_refl) (map Z.of_nat (range 12)) (unit_args nt temperatures) (mkDet None None) None false A B C (temperatures_read nt false)).
  - eexists. eexists. split; [vm_compute; reflexivity|]. split; [vm_compute; reflexivity|]. split; vm_compute; reflexivity.
Qed.
Example C104_entire_answer_example :
  (forall v1, directions_of (ask_mirror v1 (qz 90) (unit_args true temperatures)) = map (fun i => (false, Nat.eqb 6 i)) (range 12) /\
     directions_of (ask_mirror v1 (qz 90) (upside_down (unit_args true temperatures))) = map (fun i => (Nat.eqb 6 i, false)) (range 12)) /\
  margins_of (ask_mirror false (qz 90) (upside_down (unit_args true temperatures))) = map (fun p => (snd p, fst p)) (margins_of (ask_mirror false (qz 90) (unit_args true temperatures))) /\
  (exists rows, mirror_detect (unit_args true temperatures) (mkDet None None) None false = Ok (rows, 0, DynamicThreshold, false) /\
     band_reaches (half_width false (qz 90) rows) rows /\ Forall (fun r => r_value r <> r_expected r) rows).
Proof.
  split; [intros []; split; vm_compute; reflexivity|]. split; [vm_compute; reflexivity|].
  eexists. split; [vm_compute; reflexivity|]. split.
  - split.
    + eexists. eexists. split; [left; reflexivity|]. split; [do 10 right; left; reflexivity|]. left. vm_compute. discriminate.
    + eexists. eexists. split; [left; reflexivity|]. split; [do 6 right; left; reflexivity|]. left. vm_compute. discriminate.
  - repeat constructor; intros X; apply (f_equal this) in X; vm_compute in X; discriminate X.
Qed.
(** The latest point: with the outlier last. *)
Definition sudden : list Z := [20; 21; 23; 18; 19; 22; 17; 24; 25; 16; 26; 60]%Z.
Example C104_latest_answer_example : forall v1,
  (exists o w, mirror_latest (unit_args true sudden) (mkDet None None) None v1 (qz 90) (range 12) = Ok (11, o, 0, w) /\ o_pos o = true /\ o_neg o = false) /\
  (exists o w, mirror_latest (upside_down (unit_args true sudden)) (mkDet None None) None v1 (qz 90) (range 12) = Ok (11, o, 0, w) /\ o_pos o = false /\ o_neg o = true).
Proof. intros []; (split; eexists; eexists; (split; [vm_compute; reflexivity|split; vm_compute; reflexivity])). Qed.

(** C104 needs the ties to be broken the other way round: when equal outliers
    compete for a quota, an order that keeps equal values in place takes the
    last ones of a high tail and the first ones of a low tail. *)
Theorem C104_ties_refuted : exists a i, make_fup (Some (map Z.of_nat (range 12))) (map Some (a_values a)) default_maxlen = Ok (a_fup a) /\
  nth_error (flags_of (ask_mirror true (qz 90) a)) i = Some false /\ nth_error (flags_of (ask_mirror true (qz 90) (upside_down a))) i = Some true.
Proof. exists (unit_args true [20; 21; 23; 60; 60; 19; 22; 60; 17; 24; 25; 16]%Z), 3. do 2 (split; [vm_compute; reflexivity|]). vm_compute; reflexivity. Qed.
(** Nor are the V1 margins exchanged without [band_reaches]: np.clip with its
    bounds crossed returns the upper one, so a band that lies below all the
    data keeps its lower boundary, one above all the data is cut to the data. *)
Theorem C104_v1_margins_refuted : exists a, make_fup (Some (map Z.of_nat (range 12))) (map Some (a_values a)) default_maxlen = Ok (a_fup a) /\
  flags_of (ask_mirror true (qz 90) (upside_down a)) = flags_of (ask_mirror true (qz 90) a) /\
  nth_error (margins_of (ask_mirror true (qz 90) a)) 0 = Some (2, 2)%Q /\ nth_error (margins_of (ask_mirror true (qz 90) (upside_down a))) 0 = Some (1, 2)%Q.
Proof. exists (unit_args true thermometer). do 3 (split; [vm_compute; reflexivity|]). vm_compute; reflexivity. Qed.
(** Nor the V2 margins of a point that is exactly as expected: the upper margin
    is a third of the lower one in both. *)
Theorem C104_v2_tie_refuted : exists a i u l, make_fup (Some (map Z.of_nat (range 12))) (map Some (a_values a)) default_maxlen = Ok (a_fup a) /\
  nth_error (margins_of (ask_mirror false (qz 90) a)) i = Some (u, l) /\ nth_error (margins_of (ask_mirror false (qz 90) (upside_down a))) i = Some (u, l) /\ ~ (u == l)%Q.
Proof. exists (unit_args true thermometer), 0. eexists. eexists. do 3 (split; [vm_compute; reflexivity|]). vm_compute. discriminate. Qed.
Print Assumptions C104_ties_refuted.
Print Assumptions C104_v1_margins_refuted.
Print Assumptions C104_v2_tie_refuted.
