(** Property C86: which detector answers. *)
From Coq Require Import String List Arith ZArith QArith Qcanon Qround Lia Lqa Bool Sorted Permutation.
From Verif Require Import Base Num Sorting Kernel_model Kernel_spec Kernel_proofs Kernel_proofs2 Kernel_props
  FillUp_model FillUp_spec Helpers_model Margins_model SR_model Detect_model Detect_spec Detect_spec2 Detect_proofs Detect_proofs2
  Detect_proofs7 Detect_props.
Import ListNotations.
Open Scope nat_scope.

(** More than half of the entries equal: that is the median, and the median
    distance from it is 0. *)
Lemma count_filter : forall x l (f : Qc -> bool), (forall y, f y = true -> y <> x) ->
  length (filter f l) + count_equal x l <= length l.
Proof.
  intros x l f H. induction l as [|y t IH]; cbn [filter count_equal length]; [lia|].
  destruct (f y) eqn:E; destruct (Qc_eq_dec y x) as [Q|Q]; cbn [length]; try lia.
  destruct (H y E Q).
Qed.
Lemma majority_median : forall x l, length l < 2 * count_equal x l -> qmedian l = x.
Proof.
  intros x l H. assert (NE : l <> []) by (intro; subst; cbn in H; lia).
  destruct (C17_median_meaning l NE) as [A B].
  destruct (Qc_eq_dec (qmedian l) x) as [E|E]; auto. exfalso.
  destruct (Qclt_le_dec (qmedian l) x) as [L|L].
  - pose proof (count_filter x l (fun y => (y <=? qmedian l)%Qc)) as C.
    specialize (C ltac:(intros y Y ->; apply Qcleb_le in Y; qlra)). lia.
  - pose proof (count_filter x l (fun y => (qmedian l <=? y)%Qc)) as C.
    specialize (C ltac:(intros y Y ->; apply Qcleb_le in Y; apply E; apply Qcle_antisym; auto)). lia.
Qed.
Lemma count_equal_map : forall (f : Qc -> Qc) x l, count_equal x l <= count_equal (f x) (map f l).
Proof.
  induction l as [|y t IH]; cbn [map count_equal]; auto.
  destruct (Qc_eq_dec y x) as [->|]; destruct (Qc_eq_dec _ _); try lia. congruence.
Qed.
Lemma majority_mad : forall x l, length l < 2 * count_equal x l -> mad l = 0%Qc.
Proof.
  intros x l H. unfold mad. rewrite (majority_median x l H). apply majority_median.
  rewrite map_length. pose proof (count_equal_map (fun y => Qcabs (y - x)) x l) as C.
  cbv beta in C. replace (Qcabs (x - x)) with 0%Qc in C; [lia|].
  replace (x - x)%Qc with 0%Qc by ring. reflexivity.
Qed.
Lemma mad_nonneg : forall l, (0 <= mad l)%Qc.
Proof.
  intros l. unfold mad. destruct l as [|x t]; [cbn; discriminate|].
  destruct (Qclt_le_dec (qmedian (map (fun y => Qcabs (y - qmedian (x :: t))) (x :: t))) 0) as [L|L]; auto. exfalso.
  set (l := map _ _) in *. assert (NE : l <> []) by (unfold l; discriminate).
  destruct (C17_median_meaning l NE) as [A _].
  assert (Z0 : filter (fun y => (y <=? qmedian l)%Qc) l = []).
  { assert (G : forall y, In y l -> (0 <= y)%Qc).
    { intros y I. apply in_map_iff in I. destruct I as (z & <- & _). apply Qcabs_nonneg. }
    revert L. generalize (qmedian l) as m. intros m L. clear -G L. clearbody l. clear x t. induction l as [|y t IH]; cbn [filter]; auto.
    destruct (y <=? m)%Qc eqn:E. 
    - apply Qcleb_le in E. specialize (G y (or_introl eq_refl)). exfalso. qlra.
    - apply IH. intros z Hz. apply G. right. auto. }
  rewrite Z0 in A. cbn in A. destruct l; [congruence|cbn in A; lia].
Qed.

Section Props.
Variable cst : Qc.
Variable std : list Qc -> Qc.
Variable ppf : Qc -> Z -> Qc.
Variable sqrt : Qc -> Qc.
Variable table : list Qc.
Variable sort sort_desc : list (nat * Qc) -> list (nat * Qc).
Variable trend_detection : list Qc -> option nat -> res (list Qc).
Variable decompose : bool -> list Qc -> nat -> res (list Qc * list Qc).
Variable transform : list Qc -> list Qc.
Variable stationary : list Qc -> bool.
Variable spline : list nat -> list Qc -> nat -> Qc.
Variable period_detection : list (option Qc) -> res nat.
Notation detect := (detect_model cst std ppf sqrt table sort sort_desc trend_detection decompose transform
  stationary spline period_detection).

Lemma trigger_spec : forall g i l, (0 < cst)%Qc ->
  should_trigger_sr cst g i l = true <-> sub_hourly g i /\ spread_out cst l.
Proof.
  intros g i l HC. unfold should_trigger_sr. cbv zeta. fold (mad l). rewrite andb_true_iff.
  assert (P : (0 <= mad l / cst)%Qc) by (apply Qcdiv_nonneg; [apply mad_nonneg|auto]).
  assert (N : (mad l / cst - 0 = mad l / cst)%Qc) by ring. rewrite N.
  assert (QA : Qcabs (mad l / cst) = (mad l / cst)%Qc) by (unfold Qcabs; destruct (Qcle_lt_or_eq _ _ P); qb_case; qb_hyps; auto; exfalso; qlra).
  rewrite QA. clear N QA.
  assert (A : negb (mad l / cst <? EPS)%Qc = true <-> spread_out cst l).
  { unfold spread_out. rewrite negb_true_iff. split; intros H; [apply Qcltb_ge in H; auto|apply Qcltb_ge; auto]. }
  rewrite A. assert (B : (match g with Minutely => i <? 60 | Secondly => i <? 60 * 60 | _ => false end) = true <-> sub_hourly g i).
  { unfold sub_hourly. destruct g; (split; [intros H|intros [[E H]|[E H]]]); try discriminate; rewrite ?Nat.ltb_lt in *.
    - left. split; [auto|lia].
    - lia.
    - right. split; [auto|lia].
    - lia. }
  rewrite B. tauto.
Qed.

Lemma sr_family : forall s th r nt lm rows m,
  spectral_residual_detection transform std trend_detection sort_desc s th r nt lm = Ok (rows, m) -> family_of m = Spectral.
Proof.
  intros s th r nt lm rows m H. unfold spectral_residual_detection in H.
  destruct (sr_detect _ _ _ _ _) as [[sc m']|] eqn:E; [|discriminate]. rewrite bind_ok in H. cbv zeta in H. cbn [fst snd] in H.
  repeat (match type of H with context [bind ?x _] => destruct x; cbn [bind] in H; [|discriminate] end).
  inversion H; subst m'. clear H. unfold sr_detect in E.
  repeat match type of E with
  | context [bind ?x _] => destruct x; cbn [bind] in E; [|discriminate]
  | context [if ?b then _ else _] => destruct b
  end; inversion E; reflexivity.
Qed.
Lemma dt_family : forall s tv al r nt lm rows m,
  dynamic_threshold_detection cst std ppf sqrt table sort trend_detection s tv al r nt lm = Ok (rows, m) -> family_of m = Dynamic.
Proof.
  intros s tv al r nt lm rows m H. unfold dynamic_threshold_detection in H.
  destruct (normalize s) as [nz|]; [|discriminate]. rewrite bind_ok in H.
  destruct (dt_detect_anomaly _ _ _ _ _ _ _ _ _ _) as [[idx m']|] eqn:E; [|discriminate]. rewrite bind_ok in H. cbv zeta in H. cbn [fst snd] in H.
  repeat (match type of H with context [bind ?x _] => destruct x; cbn [bind] in H; [|discriminate] end).
  inversion H; subst m'. clear H. unfold dt_detect_anomaly in E. cbv zeta in E.
  destruct (get_verified_majority_value _ _) as [maj|]; cbn [bind] in E; [|discriminate].
  destruct (detect_tails _ _ _); cbn [bind] in E; [|discriminate]. destruct maj; inversion E; reflexivity.
Qed.
Lemma ts_family : forall s p al r at_ nt lm rows m,
  seasonal_series_detection cst std ppf sqrt table sort decompose s p al r at_ nt lm = Ok (rows, m) -> family_of m = Seasonal.
Proof.
  intros s p al r at_ nt lm rows m H. unfold seasonal_series_detection in H.
  repeat match type of H with
  | context [if ?b then Err _ else _] => destruct b; [discriminate|]
  | context [bind (decompose ?a ?b ?c) _] => destruct (decompose a b c); cbn [bind] in H; [|discriminate]
  | context [bind (normalize ?x) _] => destruct (normalize x); cbn [bind] in H; [|discriminate]
  | _ => cbv zeta in H
  end.
  destruct (ts_detect_anomaly _ _ _ _ _ _ _ _ _ _ _) as [[idx m']|] eqn:E; [|discriminate]. rewrite bind_ok in H. cbv zeta in H. cbn [fst snd] in H.
  repeat (match type of H with context [bind ?x _] => destruct x; cbn [bind] in H; [|discriminate] end).
  inversion H; subst m'. clear H. unfold ts_detect_anomaly in E. cbv zeta in E.
  destruct (get_verified_majority_value _ _) as [maj|]; cbn [bind] in E; [|discriminate].
  destruct (get_verified_majority_value _ _) as [maj_r|]; cbn [bind] in E; [|discriminate].
  destruct (detect_tails _ _ _); cbn [bind] in E; [|discriminate]. destruct maj, maj_r; inversion E; reflexivity.
Qed.

(** C86. Which detector answers, with no detector asked for: a seasonal one
    exactly when the period used exceeds 1; otherwise the spectral residual
    exactly for sub-hourly data with spread-out values, else the dynamic
    threshold. The values looked at are the submitted ones, or the filled-in
    series when something was filled in. A missing interval counts as 1. *)
Theorem C86_detector_choice : forall a period lm rows p m b, (0 < cst)%Qc ->
  detect a (mkDet None None) period lm = Ok (rows, p, m, b) ->
  exists series,
    (if b then exists tags, fill_up_on_demand spline (a_fup a) (a_mode a) (a_fixed a) (Some (Z.of_nat p)) = Ok (Some (map Some series, tags))
     else series = a_values a) /\
    (forall q, period = Some q -> p = q) /\
    forall f, family_of m = f <-> chosen cst (a_gran a) (match a_interval a with Some i => i | None => 1 end) p series f.
Proof.
  intros a period lm rows p m b HC H. unfold detect_model in H. cbn [should_trigger_model_selection d_name] in H.
  destruct (detect_with_model_selection _ _ _ _ _ _ _ _ _ _ _ _ _ _ _ _) as [[[[rows0 p0] m0] b0]|] eqn:E; [|discriminate].
  cbn [bind] in H. injection H as <- -> -> ->. unfold detect_with_model_selection in E. cbv zeta in E.
  destruct (match period with Some p => Ok p | None => _ end) as [p1|] eqn:EP; [|discriminate]. rewrite bind_ok in E.
  destruct ((1 <? p1) && _); [discriminate|].
  match type of E with bind ?x _ = _ => destruct x as [filled|] eqn:EF; [|discriminate] end. rewrite bind_ok in E.
  match type of E with bind ?x _ = _ => destruct x as [series|] eqn:ES; [|discriminate] end. rewrite bind_ok in E.
  match type of E with bind ?x _ = _ => destruct x as [[rs mm]|] eqn:EM; [|discriminate] end. rewrite bind_ok in E. cbv zeta in E.
  cbn [fst snd] in E. injection E as _ -> -> EB.
  assert (FAM : chosen cst (a_gran a) (match a_interval a with Some i => i | None => 1 end) p series (family_of m)).
  { destruct (1 <? p) eqn:E1.
    - apply ts_family in EM. rewrite EM. cbn. apply Nat.ltb_lt. auto.
    - apply Nat.ltb_ge in E1. set (i := match a_interval a with Some i => i | None => 1 end) in *.
      pose proof (trigger_spec (a_gran a) i series HC) as TS. destruct (should_trigger_sr cst (a_gran a) i series).
      + destruct (spectral_residual_detection _ _ _ _ _ _ _ _ _) as [[r1 m1]|] eqn:D in EM; [|discriminate]. rewrite bind_ok in EM.
        cbn [fst snd] in EM. destruct (merge_with_delta _ _ _ _ _); cbn [bind] in EM; [|discriminate].
        injection EM as _ ->. rewrite (sr_family _ _ _ _ _ _ _ D). cbn. split; [auto|apply TS; auto].
      + destruct (trend_detection series (Some p)) as [tv|]; cbn [bind] in EM; [|discriminate].
        destruct (dynamic_threshold_detection _ _ _ _ _ _ _ _ _ _ _ _ _) as [[r1 m1]|] eqn:D in EM; [|discriminate]. rewrite bind_ok in EM.
        cbn [fst snd] in EM. destruct (merge_with_delta _ _ _ _ _); cbn [bind] in EM; [|discriminate].
        injection EM as _ ->. rewrite (dt_family _ _ _ _ _ _ _ _ D). cbn. split; [auto|]. intros X. apply TS in X. discriminate. }
  exists series. split; [|split].
  - subst b. destruct filled as [[full tags]|].
    + destruct (all_some full) as [s|] eqn:EA; [|discriminate]. injection ES as ->. exists tags.
      destruct ((1 <? p) || fills_without_period (a_mode a)); [|discriminate]. rewrite EF. do 3 f_equal.
      clear -EA. revert series EA. induction full as [|[x|] t IH]; intros s EA; cbn in EA; try discriminate.
      * injection EA as <-. auto.
      * destruct (all_some t); [|discriminate]. injection EA as <-. cbn. f_equal. auto.
    + injection ES as <-. auto.
  - intros q ->. congruence.
  - intros f. split; [intros <-; auto|]. intros C. destruct (family_of m), f; cbn in *; auto; exfalso; try lia; tauto.
Qed.

(** C86. A series more than half of whose values are equal never goes to the
    spectral residual, nothing being filled in. *)
Theorem C86_mostly_equal : forall a period lm rows p m v, (0 < cst)%Qc ->
  detect a (mkDet None None) period lm = Ok (rows, p, m, false) ->
  length (a_values a) < 2 * count_equal v (a_values a) ->
  family_of m <> Spectral.
Proof.
  intros a period lm rows p m v HC H M. destruct (C86_detector_choice _ _ _ _ _ _ _ HC H) as (s & -> & _ & F).
  intros X. apply F in X. destruct X as (_ & _ & X). unfold spread_out in X. rewrite (majority_mad v _ M) in X.
  replace (0 / cst)%Qc with 0%Qc in X by (unfold Qcdiv; ring). revert X. apply Qclt_not_le. reflexivity.
Qed.
End Props.
Print Assumptions C86_detector_choice.
Print Assumptions C86_mostly_equal.

(** The same twelve values: five-minute data go to the spectral residual,
    two-hourly (120 minutes) and daily data to the dynamic threshold, a given
    period of 4 to the seasonal detector; so do the mostly equal values,
    every five minutes, to the dynamic threshold. *)
Definition ex86 (vs : list Qc) (g : granularity) (i : nat) (period : nat) : res family :=
  match detect_model ppf34 (fun _ => qz 1) (fun _ _ => 0%Qc) (fun x => x) ex_table sort_pairs (fun l => rev (sort_pairs l)) ex_trend
    (fun _ s _ => Ok (s, map (fun _ => 0%Qc) s)) (fun l => l) (fun _ => true) (fun _ _ _ => 0%Qc) (fun _ => Ok 0)
    (mkArgs vs (a_fup two_tails_args) FMNo None (Q2Qc (1 # 10)) (Q2Qc (5 # 100)) (Q2Qc (7 # 2)) false (Q2Qc (1 # 10)) g (Some i))
    (mkDet None None) (Some period) false with
  | Ok (_, _, m, _) => Ok (family_of m)
  | Err e => Err e
  end.
Example C86_example :
  ex86 two_tails Minutely 5 0 = Ok Spectral /\ ex86 two_tails Minutely 120 0 = Ok Dynamic /\
  ex86 two_tails Daily 1 0 = Ok Dynamic /\ ex86 two_tails Minutely 5 4 = Ok Seasonal /\
  ex86 (zs [3; 3; 3; 9; 3; 3; 7; 3; 3; 1; 2; 3]%Z) Minutely 5 0 = Ok Dynamic.
Proof. repeat split; vm_compute; reflexivity. Qed.
