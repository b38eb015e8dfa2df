(** Specification of the automatic detector choice (C86). *)
From Coq Require Import List Arith ZArith QArith Qcanon Lia Bool.
From Verif Require Import Base Num Sorting Kernel_spec FillUp_model Helpers_model Margins_model SR_model Detect_model.
Import ListNotations.
Open Scope nat_scope.

(** The three detector families. *)
Inductive family := Seasonal | Spectral | Dynamic.
Definition family_of (m : model_id) : family :=
  match m with
  | AnomalyDetector | AnomalyDetectorMad => Seasonal
  | SpectralResidual | SpectralResidual_ZScore => Spectral
  | DynamicThreshold | DynamicThresholdMad => Dynamic
  end.

(** Data sampled in seconds or minutes, less than an hour apart. *)
Definition sub_hourly (g : granularity) (interval : nat) : Prop :=
  g = Minutely /\ interval * 60 < 3600 \/ g = Secondly /\ interval < 3600.

(** Robust deviation (median distance from the median, scaled) of at least 1e-8. *)
Definition spread_out (cst : Qc) (l : list Qc) : Prop := (EPS <= mad l / cst)%Qc.

Definition chosen (cst : Qc) (g : granularity) (interval period : nat) (series : list Qc) (f : family) : Prop :=
  match f with
  | Seasonal => 1 < period
  | Spectral => period <= 1 /\ sub_hourly g interval /\ spread_out cst series
  | Dynamic => period <= 1 /\ ~ (sub_hourly g interval /\ spread_out cst series)
  end.

(** Number of entries equal to [x]. *)
Fixpoint count_equal (x : Qc) (l : list Qc) : nat :=
  match l with
  | [] => 0
  | y :: t => if Qc_eq_dec y x then S (count_equal x t) else count_equal x t
  end.
