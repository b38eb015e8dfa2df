(** C122 for the whole detector. *)
From Coq Require Import String List Arith ZArith QArith Qcanon Qround Lia Bool Sorted Permutation.
From Verif Require Import Base Num Sorting Kernel_model Kernel_proofs Kernel_props FillUp_model FillUp_spec Helpers_model Helpers_spec
  Margins_model SR_model SR_spec Detect_model Detect_spec Detect_spec2 Detect_proofs Detect_proofs6 Detect_proofs7 Detect_props Detect_props2 SR_proofs SR_proofs2 SR_props
  Lenient_spec Lenient_props.
Import ListNotations.
Open Scope nat_scope.

Lemma kept_refined : forall r r', kept r r' -> kept (refine_row_flags r) (refine_row_flags r').
Proof.
  intros r r' (((V & E & T & S) & A) & K). unfold refine_row_flags. rewrite V, E. destruct (Qcabs (r_value r - r_expected r) <? EPS)%Qc.
  - rewrite T, S. split; [split; cbn; auto|]. cbn. discriminate.
  - split; [split; auto|]. auto.
Qed.
Lemma kept_submitted : forall tags rows rows', Forall2 kept rows rows' -> Forall2 kept (drop_filled tags rows) (drop_filled tags rows').
Proof.
  intros tags rows rows' F. revert tags. unfold drop_filled. induction F as [|a b l l' K F IH]; intros [|t tags]; simpl; try constructor.
  destruct t; simpl; [|constructor]; auto.
Qed.
Lemma all_some_map : forall l s, all_some l = Some s -> l = map Some s.
Proof.
  induction l as [|[x|] t IH]; intros s E; cbn in E; try discriminate; [injection E as <-; auto|].
  destruct (all_some t) as [u|]; [|discriminate]. injection E as <-. cbn. f_equal. auto.
Qed.
Lemma zip_kept : forall T (ts : list T) os os', Forall2 kept_outcome os os' ->
  Forall2 (fun x x' => fst x' = fst x /\ kept_outcome (snd x) (snd x')) (zip_pair ts os) (zip_pair ts os').
Proof. intros T ts os os' F. revert ts. induction F; intros [|t ts]; simpl; constructor; auto. Qed.

Lemma last_kept : forall os os' o, Forall2 kept_outcome os os' -> last_opt os = Ok o -> exists o', last_opt os' = Ok o' /\ kept_outcome o o'.
Proof.
  intros os os' o F H. unfold last_opt in *. assert (R : Forall2 kept_outcome (rev os) (rev os')).
  { clear H. induction F; simpl; [constructor|]. apply Forall2_app; auto. }
  destruct R as [|x y u v K R]; [discriminate|]. injection H as <-. eauto.
Qed.
Section Whole.
Variables (cst : Qc) (std : list Qc -> Qc) (ppf : Qc -> Z -> Qc) (sqrt : Qc -> Qc) (table : list Qc).
Variables (sort sort_desc : list (nat * Qc) -> list (nat * Qc)).
Hypothesis HS : sorts_down sort_desc.
Variables (trend_detection : list Qc -> option nat -> res (list Qc)) (decompose : bool -> list Qc -> nat -> res (list Qc * list Qc)).
Variables (transform : list Qc -> list Qc) (stationary : list Qc -> bool) (spline : list nat -> list Qc -> nat -> Qc) (period_detection : list (option Qc) -> res nat).
Notation detect := (detect_model cst std ppf sqrt table sort sort_desc trend_detection decompose transform stationary spline period_detection).
Notation select := (detect_with_model_selection cst std ppf sqrt table sort sort_desc trend_detection decompose transform stationary spline period_detection).
Notation latest := (predict_last cst std ppf sqrt table sort sort_desc trend_detection decompose transform stationary spline period_detection).
Notation entire := (predict_entire cst std ppf sqrt table sort sort_desc trend_detection decompose transform stationary spline period_detection).

Lemma select_kept : forall a period lm rows p m b th' ratio', (th' <= a_threshold a)%Qc -> (a_ratio a <= ratio')%Qc -> (lm = true -> ratio' = a_ratio a) ->
  family_of m = Spectral -> select a period lm = Ok (rows, p, m, b) ->
  (forall series, looked_at spline a p b series -> stationary series = true /\
     forall k scores, sr_detect transform std series k lm = Ok (scores, m) -> no_ties (a_threshold a) scores) ->
  exists rows', select (with_limits th' ratio' a) period lm = Ok (rows', p, m, b) /\ Forall2 kept rows rows'.
Proof.
  intros a period lm rows p m b th' ratio' LT LR LM FM H NT. unfold detect_with_model_selection in *. cbv zeta in *.
  cbn [a_values a_fup a_mode a_fixed a_ratio a_alpha a_threshold a_need_trend a_majority a_gran a_interval with_limits] in *.
  set (q := if lm && _ then refine_max_ratio (a_majority a) (a_ratio a) else a_ratio a) in *.
  set (q' := if lm && _ then refine_max_ratio (a_majority a) ratio' else ratio') in *.
  assert (QQ : (q <= q')%Qc /\ (lm = true -> q' = q)).
  { unfold q, q'. destruct lm; cbn [andb]; [rewrite (LM eq_refl); split; auto; apply Qcle_refl|]. split; [auto|discriminate]. }
  destruct QQ as [LQ LMQ]. clearbody q q'.
  destruct (match period with Some p => Ok p | None => _ end) as [p1|] eqn:EP; [|discriminate]. rewrite bind_ok in *.
  destruct ((1 <? p1) && _); [discriminate|].
  match type of H with bind ?x _ = _ => destruct x as [filled|] eqn:EF; [|discriminate] end. rewrite bind_ok in *.
  match type of H with bind ?x _ = _ => destruct x as [series|] eqn:ES; [|discriminate] end. rewrite bind_ok in *.
  match type of H with bind ?x _ = _ => destruct x as [[rs mm]|] eqn:EM; [|discriminate] end. rewrite bind_ok in H. cbv zeta in H.
  cbn [fst snd] in H. injection H as HR -> -> EB.
  destruct (1 <? p) eqn:E1; [apply ts_family in EM; congruence|].
  destruct (should_trigger_sr _ _ _ _) eqn:TR.
  2: { exfalso. destruct (trend_detection series (Some p)) as [tv|]; cbn [bind] in EM; [|discriminate].
    destruct (dynamic_threshold_detection _ _ _ _ _ _ _ _ _ _ _ _ _) as [[r1 m1]|] eqn:D in EM; [|discriminate]. rewrite bind_ok in EM.
    cbn [fst snd] in EM. destruct (merge_with_delta _ _ _ _ _); cbn [bind] in EM; [|discriminate]. injection EM as _ ->. apply dt_family in D. congruence. }
  assert (LA : looked_at spline a p b series).
  { subst b. unfold looked_at. destruct filled as [[full tags]|]; [|congruence]. destruct (all_some full) as [s|] eqn:AS; [|discriminate]. injection ES as ->.
    destruct (false || fills_without_period (a_mode a)); [|discriminate]. exists tags. rewrite EF, (all_some_map _ _ AS). auto. }
  destruct (NT series LA) as [ST NN].
  destruct (spectral_residual_detection _ _ _ _ series (a_threshold a) _ _ _) as [[r1 m1]|] eqn:D in EM; [|discriminate]. rewrite bind_ok in EM.
  cbn [fst snd] in EM. match type of EM with context [merge_with_delta ?q ?w ?e ?r ?t] => destruct (merge_with_delta q w e r t) as [r2|] eqn:MD; cbn [bind] in EM; [|discriminate] end.
  injection EM as <- ->. apply C62_delta_only_adds in MD. destruct MD as (_ & _ & MS & _). specialize (MS ST). subst r2.
  destruct (C122_reported transform std trend_detection sort_desc HS series (a_threshold a) th' q q' (a_need_trend a) lm r1 m LT LQ LMQ D)
    as (r1' & sc & D' & F & ED & K).
  assert (KK : Forall2 kept r1 r1').
  { assert (NS : no_ties (a_threshold a) sc) by (eapply NN; eauto).
    assert (P : forall i r r', nth_error r1 i = Some r -> nth_error r1' i = Some r' -> r_anomaly r = true -> r' = r).
    { intros i r r' Hr Hr' A. destruct (K i r r' Hr Hr' A) as [E|((s & Es & TS) & j & s' & q1 & q2 & q3 & q4 & X1 & X2 & X3 & X4 & X5 & X6 & X7 & X8 & X9 & _)]; auto.
      rewrite Es in X1. injection X1 as <-. assert (i = j) by (eapply NS; eauto). subst j. congruence. }
    clear - F P. induction F as [|x y l l' SC F IH]; constructor.
    - split; auto. exact (P 0 x y eq_refl eq_refl).
    - apply IH. intros i. apply (P (S i)). }
  rewrite D', bind_ok. cbn [fst snd].
  assert (MM : forall f q, merge_with_delta stationary r1' f series q = Ok r1').
  { intros f q0. unfold merge_with_delta, should_include_delta. cbn. rewrite ST. reflexivity. }
  rewrite MM, !bind_ok. cbn [fst snd]. rewrite EB. eexists. split; [reflexivity|]. subst rows. destruct filled as [[full tags]|]; auto. apply kept_submitted. auto.
Qed.

(** C122, the whole detector in ENTIRE mode: where the spectral residual answers
    for a series called stationary, a lower threshold and a larger share leave the
    period and every reported anomaly of the answer of version 1 as they are, and
    change nothing but at points not reported before. *)
Theorem C122_whole : forall T a period rows p b th' ratio' sens (ts : list T) l,
  (th' <= a_threshold a)%Qc -> (a_ratio a <= ratio')%Qc ->
  detect a (mkDet None None) period false = Ok (rows, p, SpectralResidual, b) ->
  (forall series, looked_at spline a p b series -> stationary series = true /\
     forall scores, generate_spectral_score transform series true = Ok scores -> no_ties (a_threshold a) scores) ->
  entire a (mkDet None None) period true sens ts = Ok (l, p) ->
  exists l', entire (with_limits th' ratio' a) (mkDet None None) period true sens ts = Ok (l', p) /\
    Forall2 (fun x x' => fst x' = fst x /\ kept_outcome (snd x) (snd x')) l l'.
Proof.
  intros T a period rows p b th' ratio' sens ts l LT LR H NT HE. unfold predict_entire in *. rewrite H, bind_ok in HE.
  apply detect_inv in H. destruct H as (rows0 & H & ->).
  destruct (select_kept a period false rows0 p SpectralResidual b th' ratio' LT LR ltac:(discriminate) eq_refl H) as (rows0' & H' & F).
  { intros series LA. destruct (NT series LA) as [ST NN]. split; auto. intros k scores ED. apply NN. unfold sr_detect in ED. bind_inv ED. injection ED as <-. auto. }
  unfold detect_model at 1. cbn [should_trigger_model_selection d_name]. rewrite H', !bind_ok.
  assert (F' : Forall2 kept (map refine_row_flags rows0) (map refine_row_flags rows0')).
  { clear - F. induction F; simpl; constructor; auto. apply kept_refined. auto. }
  assert (LE : length (map refine_row_flags rows0') = length (map refine_row_flags rows0)) by (clear - F'; induction F'; simpl in *; congruence).
  rewrite LE. destruct (negb _); [discriminate|]. bind_inv HE. injection HE as <-.
  match goal with E : get_margins_entire _ _ _ _ = Ok _ |- _ => destruct (v1_keeps _ _ _ _ _ F' E) as (os' & -> & FO) end.
  rewrite bind_ok. eexists. split; [reflexivity|]. apply zip_kept. auto.
Qed.

(** C122, the whole detector in LATEST mode: a lower threshold leaves the answer
    as it is if the newest point was reported. *)
Theorem C122_whole_newest : forall T a period rows p m b th' sens (ts : list T) t o w,
  (th' <= a_threshold a)%Qc -> family_of m = Spectral ->
  detect a (mkDet None None) period true = Ok (rows, p, m, b) ->
  (forall series, looked_at spline a p b series -> stationary series = true /\
     forall k scores, sr_detect transform std series k true = Ok (scores, m) -> no_ties (a_threshold a) scores) ->
  latest a (mkDet None None) period true sens ts = Ok (t, o, p, w) ->
  exists o', latest (with_limits th' (a_ratio a) a) (mkDet None None) period true sens ts = Ok (t, o', p, w) /\ kept_outcome o o'.
Proof.
  intros T a period rows p m b th' sens ts t o w LT FM H NT HE. unfold predict_last in *. rewrite H, bind_ok in HE.
  apply detect_inv in H. destruct H as (rows0 & H & ->).
  destruct (select_kept a period true rows0 p m b th' (a_ratio a) LT (Qcle_refl _) (fun _ => eq_refl) FM H NT) as (rows0' & H' & F).
  unfold detect_model at 1. cbn [should_trigger_model_selection d_name]. rewrite H', !bind_ok.
  assert (F' : Forall2 kept (map refine_row_flags rows0) (map refine_row_flags rows0')).
  { clear - F. induction F; simpl; constructor; auto. apply kept_refined. auto. }
  assert (LE : length (map refine_row_flags rows0') = length (map refine_row_flags rows0)) by (clear - F'; induction F'; simpl in *; congruence).
  rewrite LE. destruct (negb _); [discriminate|]. unfold get_margins_last in *. bind_inv HE. bind_inv HE. injection HE as -> -> <-.
  bind_inv E. destruct (v1_keeps _ _ _ _ _ F' E1) as (os' & EO & FO). cbn [get_margins_entire] in EO. rewrite EO, bind_ok.
  destruct (last_kept _ _ _ FO E) as (o' & -> & KO). rewrite !bind_ok. exists o'. cbn. auto.
Qed.
End Whole.
Print Assumptions C122_whole.
Print Assumptions C122_whole_newest.

(** Five-minute data with two spikes, the identity as the transform: the larger
    one is reported at threshold 5, both at threshold 3. *)
Definition minutes (th ratio : Qc) (l : list Z) : args :=
  mkArgs (zs l) (a_fup two_tails_args) FMNo None ratio (Q2Qc (5 # 100)) th false (Q2Qc (1 # 10)) Minutely (Some 5).
Notation minutes_detect st := (detect_model ppf34 (fun _ => qz 1) (fun _ _ => 0%Qc) (fun x => x) ex_table sort_pairs ex_sort ex_trend
  (fun _ s _ => Ok (s, map (fun _ => 0%Qc) s)) (fun l => l) st (fun _ _ _ => 0%Qc) (fun _ => Ok 0)).
Definition ask_minutes (stationary : list Qc -> bool) (a : args) :=
  predict_entire ppf34 (fun _ => qz 1) (fun _ _ => 0%Qc) (fun x => x) ex_table sort_pairs ex_sort ex_trend
    (fun _ s _ => Ok (s, map (fun _ => 0%Qc) s)) (fun l => l) stationary (fun _ _ _ => 0%Qc) (fun _ => Ok 0)
    a (mkDet None None) (Some 0) true (qz 90) (range (length (a_values a))).
Definition flagged_at (r : res (list (nat * outcome) * nat)) : list nat :=
  match r with Ok (l, _) => map fst (filter (fun x => o_anomaly (snd x)) l) | Err _ => [] end.
Definition noisy : list Z := [9; 10; 11; 10; 9; 60; 11; 9; 10; 11; 9; 11; 10; 9; 90; 11; 9; 10; 11; 9; 10; 11; 9; 10]%Z.
Example C122_whole_case :
  (exists rows, minutes_detect (fun _ => true) (minutes (qz 5) (Q2Qc (1 # 4)) noisy) (mkDet None None) (Some 0) false = Ok (rows, 0, SpectralResidual, false)) /\
  (forall series, looked_at (fun _ _ _ => 0%Qc) (minutes (qz 5) (Q2Qc (1 # 4)) noisy) 0 false series ->
     forall scores, generate_spectral_score (fun l => l) series true = Ok scores -> no_ties (qz 5) scores) /\
  flagged_at (ask_minutes (fun _ => true) (minutes (qz 5) (Q2Qc (1 # 4)) noisy)) = [14] /\
  flagged_at (ask_minutes (fun _ => true) (with_limits (qz 3) (Q2Qc (1 # 3)) (minutes (qz 5) (Q2Qc (1 # 4)) noisy))) = [5; 14].
Proof.
  split; [eexists; vm_compute; reflexivity|]. split; [|split; vm_compute; reflexivity].
  intros series -> scores G i j s Hi Hj T.
  assert (K : match generate_spectral_score (fun l => l) (a_values (minutes (qz 5) (Q2Qc (1 # 4)) noisy)) true with
              | Ok l => filter (fun k => match nth_error l k with Some x => (qz 5 <=? x)%Qc | None => false end) (range (length l)) | Err _ => [] end = [14]) by (vm_compute; reflexivity).
  rewrite G in K. clear G.
  assert (W : forall k, nth_error scores k = Some s -> k = 14).
  { intros k Hk. assert (I : In k [14]); [|destruct I as [<-|[]]; auto]. rewrite <- K. apply filter_In. split.
    - unfold range. apply in_seq. pose proof (nth_error_lt _ _ _ _ Hk). lia.
    - rewrite Hk. apply Qcleb_le. exact T. }
  rewrite (W i), (W j); auto.
Qed.

(** REFUTED for series called non-stationary: what is found in the differences
    gets the places left over; a lower threshold can leave none. *)
Definition step_and_climb : list Z :=
  [100; 101; 102; 103; 104; 105; 106; 107; 108; 109; 110; 111; 152; 153; 154; 164; 175; 186; 197; 208; 219; 230; 241; 252]%Z.
Theorem C122_differences_refuted : exists stationary a th', (th' <= a_threshold a)%Qc /\
  In 12 (flagged_at (ask_minutes stationary a)) /\ ~ In 12 (flagged_at (ask_minutes stationary (with_limits th' (a_ratio a) a))).
Proof.
  exists (fun l => (qmean l <? qz 50)%Qc), (minutes (qz 1) (Q2Qc (1 # 20)) step_and_climb), (Q2Qc (1 # 2)). split; [vm_compute; discriminate|].
  apply in_one; vm_compute; reflexivity.
Qed.
Print Assumptions C122_differences_refuted.

(** The larger spike moved to the end, LATEST mode: reported at threshold 5,
    and no other point reaches it however many are left out. *)
Definition noisy_end : list Z := [9; 10; 11; 10; 9; 60; 11; 9; 10; 11; 9; 11; 10; 9; 11; 9; 10; 11; 9; 10; 11; 9; 10; 90]%Z.
Definition ask_newest (a : args) :=
  predict_last ppf34 (fun _ => qz 1) (fun _ _ => 0%Qc) (fun x => x) ex_table sort_pairs ex_sort ex_trend
    (fun _ s _ => Ok (s, map (fun _ => 0%Qc) s)) (fun l => l) (fun _ => true) (fun _ _ _ => 0%Qc) (fun _ => Ok 0)
    a (mkDet None None) (Some 0) true (qz 90) (range (length (a_values a))).
Definition reaching (th : Qc) (r : res (list Qc * model_id)) : list nat :=
  match r with Ok (l, _) => filter (fun k => match nth_error l k with Some x => (th <=? x)%Qc | None => false end) (range (length l)) | Err _ => [] end.
Lemma single_reach : forall th r i scores m, reaching th r = [i] -> r = Ok (scores, m) -> no_ties th scores.
Proof.
  intros th r n scores m K -> i j s Hi Hj T. cbn in K.
  assert (W : forall k, nth_error scores k = Some s -> k = n).
  { intros k Hk. assert (I : In k [n]); [|destruct I as [<-|[]]; auto]. rewrite <- K. apply filter_In. split.
    - unfold range. apply in_seq. pose proof (nth_error_lt _ _ _ _ Hk). lia.
    - rewrite Hk. apply Qcleb_le. exact T. }
  rewrite (W i), (W j); auto.
Qed.
Lemma some_eq : forall A (x y : A), Some x = Some y -> x = y.
Proof. congruence. Qed.
Lemma left_out_at_most : forall transform std series k,
  sr_detect transform std series k true = sr_detect transform std series (Nat.min k (45 * length series / 100)) true.
Proof.
  intros transform std series k. unfold sr_detect. cbv zeta. set (c := 45 * length series / 100).
  replace (Nat.min (Nat.max (Nat.min k c) (length series / 10)) c) with (Nat.min (Nat.max k (length series / 10)) c) by lia. reflexivity.
Qed.
Example C122_whole_newest_case :
  (exists rows, minutes_detect (fun _ => true) (minutes (qz 5) (Q2Qc (1 # 4)) noisy_end) (mkDet None None) (Some 0) true = Ok (rows, 0, SpectralResidual, false)) /\
  (forall series, looked_at (fun _ _ _ => 0%Qc) (minutes (qz 5) (Q2Qc (1 # 4)) noisy_end) 0 false series ->
     forall k scores, sr_detect (fun l => l) (fun _ => qz 1) series k true = Ok (scores, SpectralResidual) -> no_ties (qz 5) scores) /\
  match ask_newest (minutes (qz 5) (Q2Qc (1 # 4)) noisy_end) with Ok (t, o, _, _) => t = 23 /\ o_anomaly o = true | Err _ => False end.
Proof.
  split; [eexists; vm_compute; reflexivity|]. split; [|vm_compute; auto].
  intros series -> k scores G. rewrite left_out_at_most in G.
  assert (K : map (fun k => reaching (qz 5) (sr_detect (fun l => l) (fun _ => qz 1) (a_values (minutes (qz 5) (Q2Qc (1 # 4)) noisy_end)) k true)) (range 11)
              = repeat [23] 11) by (vm_compute; reflexivity).
  assert (B : Nat.min k (45 * length (a_values (minutes (qz 5) (Q2Qc (1 # 4)) noisy_end)) / 100) < 11).
  { change (45 * length (a_values (minutes (qz 5) (Q2Qc (1 # 4)) noisy_end)) / 100) with 10. lia. }
  set (j := Nat.min _ _) in *. clearbody j. apply single_reach with (2 := G) (i := 23).
  apply (f_equal (fun l => nth_error l j)) in K. rewrite nth_error_map in K. unfold range in K. rewrite nth_error_seq in K.
  rewrite nth_error_repeat in K by auto. destruct (Nat.ltb_spec j 11); [|lia]. cbn [option_map Nat.add] in K. exact (some_eq _ _ _ K).
Qed.
