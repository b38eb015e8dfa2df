(** Model of the spectrum period, the extra result asked for with
    needSpectrumPeriod:
    /repo/src/anomaly_detector/univariate/model/detect_model.py:299-333. *)
From Coq Require Import String List Arith ZArith QArith Qcanon Bool.
From Verif Require Import Base Num Kernel_model FillUp_model Helpers_model Margins_model SR_model Detect_model Request_model Pipe_model.
From Verif Require Period_model.
Import ListNotations.
Open Scope nat_scope.

Section Spectrum.
Variable L : libs.

(** period_detect.py:10-18 as detect_model.py:238-242 calls it: the period
    source, 0 for a natural cycle and 1 for the spectrum. *)
Definition whole_source (g : granularity) (interval : option nat) (series : list (option Qc)) : res nat :=
  match all_some series with
  | None => Err Generic
  | Some s => do r <- Period_model.default_detection (l_std L) (l_r32 L) (l_rnd L) (l_acf L) (l_peaks L) (whole_fit L) g
                        (option_map Z.of_nat interval) false s;
              Ok (snd r)
  end.
(** detect_model.py:121,234-242: __period_source after the model selection. *)
Definition period_source (a : args) (period : option nat) : res (option nat) :=
  match period with
  | Some _ => Ok None
  | None => if (Q2Qc (1 # 2) <? missing_ratio (a_fup a))%Qc then Ok None
            else do s <- period_detection_with_filled_values (l_spline L) (whole_source (a_gran a) (a_interval a))
                           (a_fup a) (a_mode a) (a_fixed a);
                 Ok (Some s)
  end.
(** detect_model.py:316: the search with skip_simple_detector. *)
Definition spectrum_search (a : args) : res nat :=
  period_detection_with_filled_values (l_spline L)
    (Period_model.detected_period (l_std L) (l_r32 L) (l_rnd L) (l_acf L) (l_peaks L) (whole_fit L) (a_gran a)
       (option_map Z.of_nat (a_interval a)) true) (a_fup a) (a_mode a) (a_fixed a).

(** detect_model.py:299-316; [last] says that last_value is given;
    anomalies[-1] of nothing raises IndexError. *)
Definition get_spectrum_period (a : args) (need : bool) (source : option nat) (period : nat) (anomalies : list bool) (last : bool)
  : res (option nat) :=
  if negb need then Ok None else
  if period =? 0 then Ok (Some 0) else
  if match source with Some 1 => true | _ => false end then Ok (Some period) else
  do has_anomaly <- (if last then last_opt anomalies else Ok (existsb (fun x => x) anomalies));
  if negb has_anomaly then Ok None else
  do p <- spectrum_search a; Ok (Some p).

(** detect_model.py:319-333; get_spectrum_period is called without last_value. *)
Definition detect_spectrum (need : bool) (a : args) (d : detector_arg) (period : option nat) (last_mode : bool)
  : res (list row * nat * option nat * model_id * bool) :=
  do r <- whole_detect L a d period last_mode;
  do source <- period_source a period;
  let '(rows, p, m, filled) := r in
  do sp <- get_spectrum_period a need source p (map r_anomaly rows) false;
  Ok (rows, p, sp, m, filled).

(** univariate_anomaly_detection.py:252-253: the third result is dropped. *)
Definition detect_dropped (need : bool) (a : args) (d : detector_arg) (period : option nat) (last_mode : bool)
  : res (list row * nat * model_id * bool) :=
  do r <- detect_spectrum need a d period last_mode;
  let '(rows, p, sp, m, filled) := r in Ok (rows, p, m, filled).
End Spectrum.
