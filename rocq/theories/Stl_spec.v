(** Specifications for the seasonal decomposition (C89, C90). *)
From Coq Require Import List Arith ZArith QArith Qcanon Lia Bool.
From Verif Require Import Base Num Sorting Helpers_model Kernel_model Stl_model.
Import ListNotations.
Open Scope nat_scope.

(** The three components have one entry per point and add up to [data]. *)
Definition adds_up (c : comps) (data : list Qc) : Prop :=
  length (c_seasonal c) = length data /\ length (c_trend c) = length data /\ length (c_remainder c) = length data /\
  forall i, i < length data ->
    (nth i (c_seasonal c) 0 + nth i (c_trend c) 0 + nth i (c_remainder c) 0 = nth i data 0)%Qc.

(** The library's decomposition is additive, and answers. *)
Definition additive (STL : list Qc -> nat -> res comps) : Prop :=
  forall data np c, STL data np = Ok c -> adds_up c data.
Definition answers (STL : list Qc -> nat -> res comps) : Prop :=
  forall data np, 0 < np -> 2 * np < length data -> exists c, STL data np = Ok c.

(** Position [i] of [d] is three standard deviations or more from the mean. *)
Definition far_out (std : list Qc -> Qc) (d : list Qc) (i : nat) : Prop :=
  i < length d /\ (0 < std d)%Qc /\ (Q2Qc 3 * std d <= Qcabs (nth i d 0 - qmean d))%Qc.
(** [ps] lists the far-out positions at the same phase of the cycle as [i]. *)
Definition far_out_at_phase (std : list Qc -> Qc) (d : list Qc) (period i : nat) (ps : list nat) : Prop :=
  NoDup ps /\ forall j, In j ps <-> far_out std d j /\ j mod period = i mod period.
(** A spike: far out, at a phase that is far out in at most half of the
    complete cycles. *)
Definition spike (std : list Qc -> Qc) (d : list Qc) (period i : nat) : Prop :=
  far_out std d i /\ exists ps, far_out_at_phase std d period i ps /\ length ps <= length d / period / 2.

(** What stands in for the value at [i]: the nearest earlier value that is not
    a spike, or if there is none the nearest later one. *)
Definition stand_in (bad : nat -> Prop) (d : list Qc) (i : nat) (v : Qc) : Prop :=
  (exists j, j < i /\ ~ bad j /\ nth_error d j = Some v /\ forall k, j < k <= i -> bad k) \/
  (exists j, i < j /\ ~ bad j /\ nth_error d j = Some v /\ forall k, k < j -> bad k).

(** [s'] is the series with its spikes replaced: off the trend of the first
    decomposition, a spike takes the stand-in value; every other point is kept. *)
Definition cleaned (std : list Qc -> Qc) (first : comps) (s : list Qc) (period : nat) (s' : list Qc) : Prop :=
  length s' = length s /\
  exists det, length det = length s /\
    (forall i, i < length s -> nth i det 0%Qc = (nth i s 0 - nth i (c_trend first) 0)%Qc) /\
    forall i, i < length s ->
      (~ spike std det period i -> nth i s' 0%Qc = nth i s 0%Qc) /\
      (spike std det period i ->
       exists v, stand_in (spike std det period) det i v /\ nth i s' 0%Qc = (nth i (c_trend first) 0 + v)%Qc).

(** [c] is the decomposition by [f] of the series with its spikes replaced. *)
Definition ran (std : list Qc -> Qc) (f : list Qc -> nat -> bool -> res comps) (log_transform : bool) (series : list Qc)
  (period : nat) (c : comps) : Prop :=
  exists first s', f series period log_transform = Ok first /\ adds_up first series /\
    cleaned std first series period s' /\ f s' period log_transform = Ok c /\ adds_up c s'.

(** [ph] lists the values one, two, ... periods before the point after the end. *)
Definition same_phase (data : list Qc) (period : nat) (ph : list Qc) : Prop :=
  length ph = length data / period /\
  forall k, k < length ph -> nth_error ph k = nth_error data (length data - S k * period).

(** [m] is the smallest value of [data]. *)
Definition smallest (data : list Qc) (m : Qc) : Prop := In m data /\ forall x, In x data -> (m <= x)%Qc.

(** The fit error: the mean of |remainder / value|, points where both are 0 not
    counted; infinite when a non-zero remainder meets a zero value. *)
Definition infinite_error (r s : list Qc) : Prop :=
  exists i, i < length s /\ nth i s 0%Qc = 0%Qc /\ nth i r 0%Qc <> 0%Qc.
Fixpoint error_sum (r s : list Qc) : Qc :=
  match r, s with
  | x :: t, y :: u => ((if Qc_eq_dec y 0 then 0 else Qcabs x / Qcabs y) + error_sum t u)%Qc
  | _, _ => 0%Qc
  end.
Fixpoint error_count (r s : list Qc) : nat :=
  match r, s with
  | x :: t, y :: u => (if Qc_eq_dec y 0 then 0 else 1) + error_count t u
  | _, _ => 0
  end.
Definition error_over (q : Qc) (r s : list Qc) : Prop :=
  infinite_error r s \/ (~ infinite_error r s /\ 0 < error_count r s /\ (q * qn (error_count r s) < error_sum r s)%Qc).
Definition error_under (q : Qc) (r s : list Qc) : Prop :=
  ~ infinite_error r s /\ 0 < error_count r s /\ (error_sum r s < q * qn (error_count r s))%Qc.

Definition nonneg_std (std : list Qc -> Qc) : Prop := forall l, (0 <= std l)%Qc.
(** [std] is a standard deviation up to a factor of 3: enough for not every
    point to be three of them away from the mean. *)
Definition rough_std (std : list Qc -> Qc) : Prop :=
  forall l, l <> [] -> std l <> 0%Qc -> (0 < std l)%Qc /\
    (qsum (map (fun x => (x - qmean l) * (x - qmean l))%Qc l) < qn (length l) * (Q2Qc 9 * (std l * std l)))%Qc.
