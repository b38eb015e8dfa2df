(** Vocabulary for C100: libraries that only know relative sizes. *)
From Coq Require Import List Arith ZArith QArith Qcanon.
From Verif Require Import Base Num Helpers_model Margins_model Detect_model Stl_model Pipe_model Units_spec.
Import ListNotations.
Open Scope nat_scope.

(** A filter, and the decomposition, of the scaled series is the scaled one. *)
Definition filter_in_scale (k : Qc) (f : list Qc -> nat -> res (list Qc)) : Prop :=
  forall s w, answers_alike (fun t t' => t' = in_unit k 0 t) (f s w) (f (in_unit k 0 s) w).
Definition comps_in_scale (k : Qc) (d d' : comps) : Prop :=
  c_seasonal d' = in_unit k 0 (c_seasonal d) /\ c_trend d' = in_unit k 0 (c_trend d) /\ c_remainder d' = in_unit k 0 (c_remainder d).
Record libs_in_scale (k : Qc) (L : libs) : Prop := mkInScale {
  sc_spline : spline_in_unit k 0 (l_spline L);
  sc_std : spread_in_unit k (l_std L);
  sc_transform : scale_blind k (l_transform L);
  sc_stationary : unit_blind k 0 (l_stationary L);
  (** The cast to C float (exact for powers of two, while no limit is reached). *)
  sc_top : l_top L = None;
  sc_r32 : forall x, l_r32 L (k * x)%Qc = (k * l_r32 L x)%Qc;
  sc_peaks : forall d t, l_peaks L (in_unit k 0 d) t = l_peaks L d t;
  sc_aglet : filter_in_scale k (l_aglet L);
  sc_spline_filter : filter_in_scale k (l_spline_filter L);
  sc_stl : forall s p, answers_alike (comps_in_scale k) (l_stl L s p) (l_stl L (in_unit k 0 s) p) }.

(** The additive decomposition leaves a remainder of at most a tenth on
    average (so the logarithms are not looked at). *)
Definition explained (L : libs) (s : list Qc) (p : nat) : Prop := forall adj d,
  de_outlier_stl (l_std L) s (if adj : bool then stl_adjust_trend (l_stl L) (l_exp L) (l_log L) else stl (l_stl L) (l_exp L) (l_log L)) p false = Ok d ->
  match mape (c_remainder d) s with Fin q => (q <= Q2Qc (10 # 100))%Qc | Inf => False | NaN => True end.
