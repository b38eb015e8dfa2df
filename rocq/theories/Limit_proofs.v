(** What the limit of the C floats does: it only takes answers away. *)
From Coq Require Import String List Arith ZArith QArith Qcanon Bool.
From Verif Require Import Base Num Kernel_model FillUp_model Helpers_model Margins_model SR_model Detect_model Period_model Trend_model Stl_model
  Pipe_model Pipe_spec.
Import ListNotations.
Open Scope nat_scope.

(** Every answer of the first is the answer of the second. *)
Definition lift {A} (x y : res A) : Prop := forall v, x = Ok v -> y = Ok v.
Lemma lift_refl : forall A (x : res A), lift x x.
Proof. intros A x v E. auto. Qed.
Lemma lift_err : forall A e (y : res A), lift (Err e) y.
Proof. intros A e y v E. discriminate. Qed.
Lemma lift_bind : forall A B (x y : res A) (f g : A -> res B), lift x y -> (forall a, lift (f a) (g a)) -> lift (bind x f) (bind y g).
Proof. intros A B x y f g H K v E. destruct x as [a|e]; [|discriminate]. rewrite (H a eq_refl). apply K. exact E. Qed.
Ltac lift_step :=
  lazymatch goal with
  | |- lift ?x ?x => apply lift_refl
  | |- lift (Err _) _ => apply lift_err
  | |- lift (bind _ _) (bind _ _) => apply lift_bind; [|intro]
  | |- lift (if ?b then _ else _) (if ?b then _ else _) => destruct b
  | |- lift (match ?b with _ => _ end) (match ?b with _ => _ end) => destruct b
  end.

Section Trend.
Variable r32 : Qc -> Qc.
Variable top : option Qc.
Variable aglet mean_filter line_filter spline_filter : list Qc -> nat -> res (list Qc).
Variable peaks : list Qc -> res (option (list (nat * Qc))).
Lemma guess_lift : forall d, lift (guess_trended_period r32 top aglet mean_filter line_filter spline_filter peaks d)
  (guess_trended_period r32 None aglet mean_filter line_filter spline_filter peaks d).
Proof.
  intros d. unfold guess_trended_period. cbv zeta. apply lift_bind; [apply lift_refl|]. intros b. change (finite32 None b) with true. cbn [negb].
  destruct (finite32 top b); cbn [negb]; [apply lift_refl|apply lift_err].
Qed.
Lemma fit_lift : forall d k p, lift (fit_trend r32 top aglet mean_filter line_filter spline_filter peaks d k p)
  (fit_trend r32 None aglet mean_filter line_filter spline_filter peaks d k p).
Proof. intros d k p. unfold fit_trend. destruct k; [|apply lift_refl]. apply lift_bind; [destruct p; [apply lift_refl|apply guess_lift]|intro; apply lift_refl]. Qed.
Lemma trend_lift : forall s p, lift (trend_detection r32 top aglet mean_filter line_filter spline_filter peaks s p)
  (trend_detection r32 None aglet mean_filter line_filter spline_filter peaks s p).
Proof. intros s p. unfold trend_detection. destruct (_ <? _); [apply lift_refl|apply fit_lift]. Qed.
End Trend.

Section Period.
Variable std : list Qc -> Qc.
Variable r32 : Qc -> Qc.
Variable rnd : nat -> nat -> nat -> nat.
Variable acf : list Qc -> nat -> res (list (option Qc) * list (option Qc)).
Variable peaks : list Qc -> Qc -> option (list peak).
Variable f g : string -> list Qc -> res (list Qc).
Hypothesis FG : forall k d, lift (f k d) (g k d).
Lemma seasons_lift : forall d tt th mv cg, lift (fit_seasons std acf peaks f d tt th mv cg) (fit_seasons std acf peaks g d tt th mv cg).
Proof.
  intros. unfold fit_seasons. apply lift_bind; [apply lift_refl|]. intros x. apply lift_bind; [destruct tt; [apply FG|apply lift_refl]|].
  intros t. apply lift_refl.
Qed.
Lemma calculate_lift : forall s tt th mv cg, lift (calculate_period std acf peaks f s tt th mv cg) (calculate_period std acf peaks g s tt th mv cg).
Proof. intros. unfold calculate_period. destruct (_ <? _); [apply lift_refl|]. apply lift_bind; [apply seasons_lift|intro; apply lift_refl]. Qed.
Lemma loop_lift : forall fuel s v p tt th mv cg, lift (detect_loop std acf peaks f fuel s v p tt th mv cg) (detect_loop std acf peaks g fuel s v p tt th mv cg).
Proof.
  induction fuel as [|k IH]; intros; cbn [detect_loop]; [apply lift_refl|]. destruct (_ =? _); [apply lift_refl|]. cbv zeta.
  apply lift_bind; [apply calculate_lift|]. intros v'. apply IH.
Qed.
Lemma spectrum_lift : forall s tt th mv cg, lift (spectrum_detect std acf peaks f s tt th mv cg) (spectrum_detect std acf peaks g s tt th mv cg).
Proof.
  intros. unfold spectrum_detect. repeat lift_step. - apply calculate_lift. - apply loop_lift.
Qed.
Lemma detected_lift : forall gr i skip s, lift (detected_period std r32 rnd acf peaks f gr i skip s) (detected_period std r32 rnd acf peaks g gr i skip s).
Proof.
  intros. unfold detected_period, default_detection, period_detection. repeat lift_step; apply spectrum_lift.
Qed.
End Period.

Section Detect.
Variable cst : Qc.
Variable std : list Qc -> Qc.
Variable ppf : Qc -> Z -> Qc.
Variable sqrt : Qc -> Qc.
Variable table : list Qc.
Variable sort sort_desc : list (nat * Qc) -> list (nat * Qc).
Variable t u : list Qc -> option nat -> res (list Qc).
Variable decompose : bool -> list Qc -> nat -> res (list Qc * list Qc).
Variable transform : list Qc -> list Qc.
Variable stationary : list Qc -> bool.
Variable spline : list nat -> list Qc -> nat -> Qc.
Variable pd qd : list (option Qc) -> res nat.
Hypothesis TU : forall s p, lift (t s p) (u s p).
Hypothesis PQ : forall s, lift (pd s) (qd s).

Lemma dt_lift : forall s tv al r nt lm, lift (dynamic_threshold_detection cst std ppf sqrt table sort t s tv al r nt lm)
  (dynamic_threshold_detection cst std ppf sqrt table sort u s tv al r nt lm).
Proof. intros. unfold dynamic_threshold_detection. repeat lift_step. apply TU. Qed.
Lemma sr_lift : forall s th r nt lm, lift (spectral_residual_detection transform std t sort_desc s th r nt lm)
  (spectral_residual_detection transform std u sort_desc s th r nt lm).
Proof. intros. unfold spectral_residual_detection. repeat lift_step. apply TU. Qed.
Lemma merge_lift : forall rows f g s r, (forall s r, lift (f s r) (g s r)) -> lift (merge_with_delta stationary rows f s r) (merge_with_delta stationary rows g s r).
Proof. intros rows f g s r FG. unfold merge_with_delta. repeat lift_step. apply FG. Qed.
Lemma detect_lift : forall a d p lm,
  lift (detect_model cst std ppf sqrt table sort sort_desc t decompose transform stationary spline pd a d p lm)
    (detect_model cst std ppf sqrt table sort sort_desc u decompose transform stationary spline qd a d p lm).
Proof.
  intros. unfold detect_model. apply lift_bind; [|intros; apply lift_refl]. destruct (should_trigger_model_selection _ _); [|apply lift_refl].
  unfold detect_with_model_selection, period_detection_with_filled_values. cbv zeta.
  apply lift_bind. { destruct p; [apply lift_refl|]. destruct (_ <? _)%Qc; [apply lift_refl|]. apply lift_bind; [apply lift_refl|]. intro. apply PQ. }
  intros p'. destruct (_ && _); [apply lift_refl|]. apply lift_bind; [apply lift_refl|]. intros filled. apply lift_bind; [apply lift_refl|]. intros series.
  apply lift_bind; [|intros; apply lift_refl]. destruct (1 <? p'); [apply lift_refl|]. destruct (should_trigger_sr _ _ _).
  - apply lift_bind; [apply sr_lift|]. intros. apply lift_bind; [|intros; apply lift_refl]. apply merge_lift. intros. apply sr_lift.
  - apply lift_bind; [apply TU|]. intros tv. apply lift_bind; [apply dt_lift|]. intros. apply lift_bind; [|intros; apply lift_refl]. apply merge_lift. intros. apply dt_lift.
Qed.
End Detect.

Lemma whole_fit_lift : forall L k d, lift (whole_fit L k d) (whole_fit (unlimited L) k d).
Proof. intros. unfold whole_fit. apply fit_lift. Qed.
Lemma whole_trend_lift : forall L s p, lift (whole_trend L s p) (whole_trend (unlimited L) s p).
Proof. intros. unfold whole_trend. apply trend_lift. Qed.
Lemma whole_period_lift : forall L g i s, lift (whole_period L g i s) (whole_period (unlimited L) g i s).
Proof. intros. unfold whole_period. apply detected_lift. apply whole_fit_lift. Qed.
Lemma whole_detect_lift : forall L a d p lm, lift (whole_detect L a d p lm) (whole_detect (unlimited L) a d p lm).
Proof. intros. unfold whole_detect. apply detect_lift; intros; [apply whole_trend_lift|apply whole_period_lift]. Qed.
