(** Specifications for the whole detector (C91): what is expected of the
    libraries, and of a request for it to be answered. *)
From Coq Require Import String List Arith ZArith QArith Qcanon Qround Bool Sorted.
From Verif Require Import Base Num FillUp_model FillUp_spec Margins_model SR_model Detect_model Detect_spec Request_model Request_spec Period_spec Trend_spec Stl_spec Units_spec Pipe_model.
Import ListNotations.
Open Scope nat_scope.

(** The libraries answer within their documented domains. *)
Record libs_ok (L : libs) : Prop := mkLibsOk {
  ok_sort : sorts_up (l_sort L);
  ok_fair : fair_std (l_std L);
  ok_nonneg : nonneg_std (l_std L);
  ok_rough : rough_std (l_std L);
  (** The FFT round trip gives one magnitude per point; in LATEST mode the first
      one must not be just above twice the threshold EPS. *)
  ok_transform : forall l, length (l_transform L l) = length l;
  ok_first : forall l m, nth_error (l_transform L l) 0 = Some m ->
    (0 <= m)%Qc /\ ((m <= Q2Qc 2 * EPS)%Qc \/ (Q2Qc 3 * EPS < m)%Qc);
  (** The spline passes through its points. *)
  ok_spline : forall idx vals q v, StronglySorted lt idx -> observed idx vals q v -> l_spline L idx vals q = v;
  ok_acf : acf_answers (l_acf L);
  (** Peaks: none, or some, with positive scores and periods of at most half the points. *)
  ok_peaks : forall d thresh ps, l_peaks L d thresh = Some ps -> ps <> [] /\
    forall p s lo hi, In (p, s, lo, hi) ps -> 2 * p <= length d /\ (0 < s)%Qc;
  ok_aglet : filter_on window_dom (l_aglet L);
  (** C floats reach to 2^128 at least. *)
  ok_top : forall t, l_top L = Some t -> (qz (2 ^ 128) <= t)%Qc;
  ok_r32 : no_blowup (l_r32 L);
  ok_ends : ends_bounded (l_aglet L);
  ok_mean : filter_on window_dom (l_mean_filter L);
  ok_line : filter_on window_dom (l_line_filter L);
  ok_splines : filter_on segment_dom (l_spline_filter L);
  ok_additive : additive (l_stl L);
  ok_stl : answers (l_stl L) }.

(** The length of the series that is looked at: the whole grid when its gaps
    are filled (up to 17280 positions), else the points. *)
Definition gaps_filled (m : fill_mode) : bool := match m with FMNo | FMZero => false | _ => true end.
Definition detection_length (ix : list Z) (m : fill_mode) : Z :=
  (if gaps_filled m && (last ix 0 + 1 <=? 17280) then last ix 0 + 1 else Z.of_nat (length ix))%Z.

(** A share [r] of anomalies in either direction, and the half period at the
    end of the series whose trend is not trusted, leave a point. (So for up to a
    quarter, the default, and every period that fits twice: [quarter_room].) *)
Definition room (n p : Z) (r : Qc) : Prop := (r <= Q2Qc (1 # 4))%Qc \/ (2 * Qceiling (this (qz n * r)%Qc) + p / 2 < n)%Z.

(** A given period is usable: 0 or 1 (none), or at most half of the grid is
    missing, two periods fit, and there is room. *)
Definition period_usable (ix : list Z) (m : fill_mode) (r : Qc) (p : nat) : Prop :=
  p <= 1 \/ (last ix 0 + 1 <= 2 * Z.of_nat (length ix))%Z /\ (2 * Z.of_nat p < detection_length ix m)%Z /\
            room (detection_length ix m) (Z.of_nat p) r.
(** Every period that could be found is. *)
Definition any_period_usable (ix : list Z) (m : fill_mode) (r : Qc) : Prop :=
  room (detection_length ix m) ((detection_length ix m - 1) / 2) r.

(** Values up to 10^34 (of the 10^100 that are accepted): far enough below the
    largest C float, 3.4 * 10^38, for every median trend taken on the way. *)
Definition modest (l : list Qc) : Prop := sized (qz (10 ^ 34)) l.
(** The submitted values, and the number that fills the gaps, are modest, or no
    trend is guessed: a period is given. *)
Definition modest_args (a : args) (per : option nat) : Prop :=
  (exists p, per = Some p /\ 1 < p) \/
  modest (a_values a) /\
  forall q, f_need (a_fup a) = true -> a_mode a = FMFixed -> a_fixed a = Some q -> (Qcabs q <= qz (10 ^ 34))%Qc.

(** What a request must keep to, beyond the documented checks, to be answered:
    no imputeMode 'fixed' with gaps to fill (C38); modest values; a usable period,
    given or found; no search for a period at microsecond granularity (C29). *)
Definition answerable (d : dict) (ix : list Z) (a : args) (per : option nat) : Prop :=
  (Request_spec.given "imputeMode" d (VStr "fixed") -> last ix 0 + 1 = Z.of_nat (length ix) \/ 17280 < last ix 0 + 1)%Z /\ modest_args a per /\
  match per with
  | None => a_gran a <> Microsecond /\ any_period_usable ix (a_mode a) (a_ratio a)
  | Some p => period_usable ix (a_mode a) (a_ratio a) p
  end.

(** C floats and the straightening of the ends as they are: there is a largest
    float, rounding a float changes nothing, and the middle is kept. *)
Record c_floats (L : libs) (top : Qc) : Prop := mkFloats {
  cf_top : l_top L = Some top;
  cf_round : forall x, l_r32 L (l_r32 L x) = l_r32 L x;
  cf_keep : keeps_middle (l_aglet L) }.
(** The same libraries with C floats of any size. *)
Definition unlimited (L : libs) : libs :=
  mkLibs (l_cst L) (l_std L) (l_ppf L) (l_sqrt L) (l_table L) (l_sort L) (l_sort_desc L) (l_transform L) (l_stationary L) (l_spline L)
    (l_r32 L) None (l_rnd L) (l_acf L) (l_peaks L) (l_aglet L) (l_mean_filter L) (l_line_filter L) (l_spline_filter L) (l_stl L) (l_exp L) (l_log L).
