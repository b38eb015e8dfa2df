(** The rows of a finished detection are the submitted points. *)
From Coq Require Import String List Arith ZArith QArith Qcanon Qround Lia Lqa Bool Sorted Permutation.
From Verif Require Import Base Num Sorting Kernel_model Kernel_spec Kernel_proofs Kernel_proofs2 Kernel_props
  FillUp_model FillUp_spec FillUp_proofs FillUp_proofs6 FillUp_props
  Helpers_model Helpers_proofs Helpers_proofs2 Helpers_props Margins_model Margins_spec Margins_props SR_model Detect_model Detect_spec
  Detect_proofs Detect_proofs2 Detect_proofs3 Detect_proofs4 Detect_proofs5.
Import ListNotations.
Open Scope nat_scope.

Section Props.
(** External routines: constants and statistics, sorting, trend extraction,
    STL, FFT, stationarity tests, splines, period detection. *)
Variable cst : Qc.
Variable std : list Qc -> Qc.
Variable ppf : Qc -> Z -> Qc.
Variable sqrt : Qc -> Qc.
Variable table : list Qc.
Variable sort sort_desc : list (nat * Qc) -> list (nat * Qc).
Variable trend_detection : list Qc -> option nat -> res (list Qc).
Variable decompose : bool -> list Qc -> nat -> res (list Qc * list Qc).
Variable transform : list Qc -> list Qc.
Variable stationary : list Qc -> bool.
Variable spline : list nat -> list Qc -> nat -> Qc.
Variable period_detection : list (option Qc) -> res nat.

Notation detect := (detect_model cst std ppf sqrt table sort sort_desc trend_detection decompose transform
  stationary spline period_detection).
Notation select := (detect_with_model_selection cst std ppf sqrt table sort sort_desc trend_detection decompose transform
  stationary spline period_detection).
Notation entire := (predict_entire cst std ppf sqrt table sort sort_desc trend_detection decompose transform
  stationary spline period_detection).
Notation latest := (predict_last cst std ppf sqrt table sort sort_desc trend_detection decompose transform
  stationary spline period_detection).

Lemma no_explicit : forall a d period r, detect_without_model_selection spline a d period <> Ok r.
Proof.
  intros a d period r H. unfold detect_without_model_selection in H.
  destruct (d_params d) as [pp|]; [|discriminate H].
  assert (G : forall q : option nat, match q with
     | None => @Err (list row * nat * model_id * bool) TypeErr
     | Some p => if (1 <? p) && (Q2Qc (1 # 2) <? missing_ratio (a_fup a))%Qc then Err (RequestErr "InvalidSeries") else
              do _ <- (if (1 <? p) || match a_mode a with FMFixed => true | _ => false end
                       then fill_up_on_demand spline (a_fup a) (a_mode a) (a_fixed a) (Some (Z.of_nat p))
                       else Ok None);
              Err TypeErr end <> Ok r).
  { intros [p|]; [|discriminate]. destruct (_ && _); [discriminate|]. match goal with |- bind ?x _ <> _ => destruct x end; discriminate. }
  destruct period as [p|], pp as [[q|]|]; try discriminate H; first [apply (G (Some q)) in H; exact H | apply (G (Some p)) in H; exact H].
Qed.

Lemma detect_inv : forall a d period lm rows p m b, detect a d period lm = Ok (rows, p, m, b) ->
  exists rows0, select a period lm = Ok (rows0, p, m, b) /\ rows = map refine_row_flags rows0.
Proof.
  intros a d period lm rows p m b H. unfold detect_model in H. bind_inv H. destruct a0 as [[[r0 p0] m0] b0].
  inversion H; subst. exists r0. split; auto. destruct (should_trigger_model_selection d (a_majority a)); auto.
  exfalso. eapply no_explicit; eauto.
Qed.

Lemma demand_keeps : forall ix a p full tags,
  make_fup (Some ix) (map Some (a_values a)) default_maxlen = Ok (a_fup a) ->
  through_knots spline ix a ->
  fill_up_on_demand spline (a_fup a) (a_mode a) (a_fixed a) p = Ok (Some (full, tags)) ->
  f_need (a_fup a) = true /\ length full = f_all (a_fup a) /\ length tags = f_all (a_fup a) /\
  carries ix (map Some (a_values a)) full /\
  forall q, q < f_all (a_fup a) -> exists t, nth_error tags q = Some t /\ (t = true <-> ~ is_given ix q).
Proof.
  intros ix a p full tags HF HS H.
  assert (X : exists m em kw, uses_seg_spline m = false /\ (m = Auto \/ m = Entire MSpline -> a_mode a = FMAuto) /\
      fill_up spline (a_fup a) m em kw = Ok (Some (full, tags))).
  { unfold fill_up_on_demand in H. destruct (a_mode a); try discriminate H;
      (eexists; eexists; eexists; split; [|split; [|exact H]]; [reflexivity|intros [X|X]; auto; discriminate X]). }
  destruct X as (m & em & kw & U & MA & E). pose proof (fill_up_need _ _ _ _ _ _ E) as HN.
  destruct (accepted_facts _ _ _ _ HF HN) as (W & _ & _ & _ & _ & _ & HD & _).
  destruct (C02_fill_keeps_submitted_values spline ix _ _ _ m em kw full tags HF HD U) as (L & C & T); auto.
  split; auto. split; auto. split; [|auto].
  assert (TG : tags = f_tags (a_fup a)).
  { destruct (fill_up_keeps spline ix _ _ _ m em kw full tags HF HD U) as [_ TG]; auto. intros X q v O. apply (HS (MA X)).
    apply (given_observed ix _ _ (a_fup a) q v HF HN); auto. }
  rewrite TG. apply (wf_tags_len _ W).
Qed.

Lemma select_values : forall ix a period lm rows p m b,
  make_fup (Some ix) (map Some (a_values a)) default_maxlen = Ok (a_fup a) ->
  through_knots spline ix a -> select a period lm = Ok (rows, p, m, b) ->
  map r_value rows = a_values a.
Proof.
  intros ix a period lm rows p m b HF HS H.
  destruct (select_inv _ _ _ _ _ _ _ _ _ _ _ _ _ _ _ _ _ _ _ _ H) as (series & frame & [V P] & _ & [(_ & -> & ->)|(_ & full & tags & EF & -> & ->)]); auto.
  destruct (demand_keeps ix a _ _ _ HF HS EF) as (HN & LF & LT & C & T).
  rewrite map_length in LF. rewrite drop_filled_map, V.
  destruct (tags_of_grid _ ix _ _ (map Some series) tags series HF HN) as [A B]; auto; [rewrite map_length; auto|].
  apply (f_equal (map (option_map (@Some Qc)))) in A.
  assert (EQ : map (option_map Some) (map (nth_error series) (map Z.to_nat ix)) = map (fun p => nth_error (map Some series) p) (map Z.to_nat ix)).
  { rewrite map_map. apply map_ext. intros z. rewrite nth_error_map. auto. }
  rewrite EQ, B, !map_map in A. cbn [option_map] in A.
  assert (INJ : forall l1 l2 : list Qc, map (fun x => Some (Some x)) l1 = map (fun x => Some (Some x)) l2 -> l1 = l2).
  { clear. induction l1 as [|x t IH]; intros [|y u] H; inversion H; auto. f_equal; auto. }
  apply INJ; auto.
Qed.
End Props.
