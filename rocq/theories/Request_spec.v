(** Specifications for the request layer: the documented checks as ordered
    rules, the documented readings of the parameters, and the documented checks
    of a series. *)
From Coq Require Import String Ascii List Arith ZArith QArith Qcanon Bool.
From Verif Require Import Base Num FillUp_model Helpers_model Margins_model SR_model Detect_model Dates_model Request_model.
Import ListNotations.
Open Scope string_scope.
Open Scope nat_scope.

(** * Parameter values *)
(** Whole numbers; the two booleans count as 0 and 1. *)
Inductive is_int : pyval -> Z -> Prop :=
| int_int : forall z, is_int (VInt z) z
| int_true : is_int (VBool true) 1
| int_false : is_int (VBool false) 0.
Inductive is_number : pyval -> Qc -> Prop :=
| number_int : forall v z, is_int v z -> is_number v (qz z)
| number_float : forall q, is_number (VFloat q) q.
Definition unhashable (v : pyval) : Prop := (exists l, v = VList l) \/ (exists d, v = VDict d).

Definition granularity_names : list (string * granularity) :=
  [("none", GNone); ("yearly", Yearly); ("monthly", Monthly); ("weekly", Weekly); ("daily", Daily);
   ("hourly", Hourly); ("minutely", Minutely); ("secondly", Secondly); ("microsecond", Microsecond)].
Definition fill_values : list (string * fill_mode) :=
  [("last", FMUseLast); ("no", FMNo); ("auto", FMAuto); ("previous", FMPrevious); ("linear", FMLinear);
   ("zero", FMZero); ("fixed", FMFixed); ("notFill", FMNo)].
Definition boundary_names : list string := ["V1"; "V2"; "V3"].
Definition detector_names : list string := ["spectral_residual"; "hbos"; "seasonal_series"; "dynamic_threshold"].
(** Equal up to capital letters of the first word. *)
Definition same_letter (a b : ascii) : Prop :=
  a = b \/ (65 <= nat_of_ascii a <= 90 /\ nat_of_ascii b = nat_of_ascii a + 32).
Fixpoint same_word (s t : string) : Prop :=
  match s, t with
  | EmptyString, EmptyString => True
  | String a s, String b t => same_letter a b /\ same_word s t
  | _, _ => False
  end.

(** * The documented checks of the parameters, in order *)
Inductive verdict := Refused (code msg : string) | Raises (e : exn).
Definition given (k : string) (d : dict) (v : pyval) : Prop := get k d = Some v.
Definition bad (k : string) (ok : pyval -> Prop) (d : dict) : Prop := exists v, given k d v /\ ~ ok v.
Definition impute_given (d : dict) : Prop := exists v, given "imputeMode" d v /\ v <> VNone.

Definition parameter_rules : list (verdict * (dict -> Prop)) :=
  [ (Raises TypeErr, fun d => exists v, given "granularity" d v /\ unhashable v);
    (Refused "InvalidGranularity" "InvalidGranularity",
       bad "granularity" (fun v => exists s g, v = VStr s /\ In (s, g) granularity_names));
    (Refused "InvalidCustomInterval" "InvalidCustomInterval",
       bad "customInterval" (fun v => exists z, is_int v z /\ (0 < z)%Z));
    (Refused "InvalidPeriod" "InvalidPeriod", bad "period" (fun v => exists z, is_int v z /\ (0 <= z)%Z));
    (Refused "InvalidModelArgument" "InvalidAlpha", bad "alpha" (fun v => exists q, is_number v q /\ (0 < q)%Qc));
    (Refused "InvalidModelArgument" "InvalidAnomalyRatio",
       bad "maxAnomalyRatio" (fun v => exists q, v = VFloat q /\ (0 < q)%Qc /\ (q <= Q2Qc (49 # 100))%Qc));
    (Refused "InvalidModelArgument" "InvalidSensitivity",
       bad "sensitivity" (fun v => exists z, is_int v z /\ (0 <= z <= 100)%Z));
    (Refused "InvalidModelArgument" "InvalidThreshold", bad "threshold" (fun v => exists q, v = VFloat q));
    (Refused "InvalidImputeMode" "InvalidImputeMode",
       bad "imputeMode" (fun v => v = VNone \/ exists s m, v = VStr s /\ In (s, m) fill_values));
    (Refused "InvalidImputeFixedValue" "InvalidImputeValue",
       fun d => given "imputeMode" d (VStr "fixed") /\ ~ exists v q, given "imputeFixedValue" d v /\ is_number v q);
    (Refused "InvalidFillUpMode" "InvalidImputeMode",
       fun d => ~ impute_given d /\ bad "fillUpMode" (fun v => v = VNone \/ exists s m, v = VStr s /\ In (s, m) fill_values) d);
    (Refused "InvalidFixedValue" "InvalidImputeValue",
       fun d => ~ impute_given d /\ given "fillUpMode" d (VStr "fixed") /\
                ~ exists v q, given "fixedValue" d v /\ is_number v q);
    (Raises TypeErr, fun d => exists v, given "boundaryVersion" d v /\ unhashable v);
    (Refused "InvalidBoundaryVersion" "InvalidBoundaryVersion",
       bad "boundaryVersion" (fun v => v = VNone \/ exists s, v = VStr s /\ In s boundary_names));
    (Refused "MissingDetectorParameters" "MissingDetectorParameters",
       fun d => exists dd, given "detector" d (VDict dd) /\ get "parameters" dd = None);
    (Refused "InvalidDetectorParameters" "InvalidDetectorParameters",
       fun d => exists dd, given "detector" d (VDict dd) /\ bad "parameters" (fun v => exists pd, v = VDict pd) dd);
    (Refused "MissingDetectorName" "MissingDetectorName",
       fun d => exists dd, given "detector" d (VDict dd) /\ get "name" dd = None);
    (Raises AttrErr, fun d => exists dd, given "detector" d (VDict dd) /\ bad "name" (fun v => exists s, v = VStr s) dd);
    (Refused "InvalidDetector" "InvalidDetectorName",
       fun d => exists dd s, given "detector" d (VDict dd) /\ given "name" dd (VStr s) /\
                             forall n, In n detector_names -> ~ same_word s n) ].

(** The first rule that applies decides; [None]: none applies. *)
Inductive decides {V A} : list (V * (A -> Prop)) -> A -> option V -> Prop :=
| decides_nil : forall x, decides [] x None
| decides_hit : forall v (P : A -> Prop) t x, P x -> decides ((v, P) :: t) x (Some v)
| decides_skip : forall v (P : A -> Prop) t x r, ~ P x -> decides t x r -> decides ((v, P) :: t) x r.

(** * How accepted parameters are read *)
Definition reads_or {A} (k : string) (d : dict) (default : A) (reading : pyval -> A -> Prop) (a : A) : Prop :=
  (get k d = None /\ a = default) \/ (exists v, given k d v /\ reading v a).
(** The fill mode asked for and the value to fill with. A fixed value given as
    imputeFixedValue is not passed on. *)
Definition reads_fill (d : dict) (m : fill_mode) (fixed : option Qc) : Prop :=
  (exists s, given "imputeMode" d (VStr s) /\
     ((s = "zero" /\ m = FMFixed /\ fixed = Some 0%Qc) \/ (s <> "zero" /\ In (s, m) fill_values /\ fixed = None))) \/
  (~ impute_given d /\ exists s, given "fillUpMode" d (VStr s) /\ In (s, m) fill_values /\
     ((s = "fixed" /\ exists v q, given "fixedValue" d v /\ is_number v q /\ fixed = Some q) \/ (s <> "fixed" /\ fixed = None))) \/
  (~ impute_given d /\ (get "fillUpMode" d = None \/ given "fillUpMode" d VNone) /\ m = FMAuto /\ fixed = None).
Record reads (d : dict) (s : settings) : Prop := mkReads {
  reads_granularity : reads_or "granularity" d GNone (fun v g => exists n, v = VStr n /\ In (n, g) granularity_names) (s_gran s);
  reads_interval : reads_or "customInterval" d None (fun v i => exists z, is_int v z /\ i = Some z) (s_interval s);
  reads_period : reads_or "period" d None (fun v p => exists n, is_int v (Z.of_nat n) /\ p = Some n) (s_period s);
  reads_alpha : reads_or "alpha" d (Q2Qc (5 # 100)) is_number (s_alpha s);
  reads_ratio : reads_or "maxAnomalyRatio" d (Q2Qc (25 # 100)) is_number (s_ratio s);
  reads_sensitivity : reads_or "sensitivity" d 99%Z is_int (s_sensitivity s);
  reads_threshold : reads_or "threshold" d (Q2Qc (35 # 10)) is_number (s_threshold s);
  reads_mode : reads_fill d (fst (s_fill s)) (snd (s_fill s));
  reads_boundary : s_v1 s = true <-> get "boundaryVersion" d = None \/ given "boundaryVersion" d VNone \/ given "boundaryVersion" d (VStr "V1");
  reads_no_detector : (forall dd, ~ given "detector" d (VDict dd)) -> s_detector s = Some (mkDet None None) }.

(** * The documented checks of the series, in order *)
Section Series.
Context {T : Type}.
Variable to_datetime : list T -> option (list stamp).
Variable g : granularity.
Variable custom : option Z.
Variable period : option nat.
Variable nofill : bool.       (* fillUpMode holds the enumeration member FillUpMode.no or .notFill *)

Definition has_number (x : point T) : Prop := exists n, w_value x = Num n.
Definition read_times (rows : list (point T)) (st : list stamp) : Prop :=
  exists ts, Forall2 (fun x t => w_time x = Some t) rows ts /\ to_datetime ts = Some st.
Definition too_large (n : num) : Prop :=
  n = PInf \/ n = NInf \/ exists q, n = Fin q /\ ((q < - value_bound)%Qc \/ (value_bound < q)%Qc).
Definition before (a b : stamp) : Prop := stamp_ltb a b = true.
(** Position [i] holds the first pair that is not in strictly ascending order. *)
Definition first_flaw (st : list stamp) (flaw : stamp -> stamp -> Prop) : Prop :=
  exists i a b, nth_error st i = Some a /\ nth_error st (S i) = Some b /\ flaw a b /\
    forall j u v, j < i -> nth_error st j = Some u -> nth_error st (S j) = Some v -> before u v.

Definition series_rules : list ((string * string) * (list (point T) -> Prop)) :=
  [ (("InvalidSeries", "NotEnoughPoints"), fun rows => length rows < 12);
    (("InvalidSeries", "TooManyPoints"), fun rows => (8640 < Z.of_nat (length rows))%Z);
    (("BadArgument", "InvalidSeriesFormat"), fun rows =>
       (exists x, In x rows /\ ~ has_number x) \/ (g <> GNone /\ ~ exists st, read_times rows st));
    (("InvalidSeries", "ValueOverflow"), fun rows => exists x n, In x rows /\ w_value x = Num n /\ too_large n);
    (("BadArgument", "InvalidSeriesValue"), fun rows => exists x, In x rows /\ w_value x = Num NaN);
    (("InvalidSeries", "InvalidSeriesOrder"), fun rows =>
       g <> GNone /\ exists st, read_times rows st /\ first_flaw st (fun a b => before b a));
    (("InvalidSeries", "DuplicateSeriesTimestamp"), fun rows =>
       g <> GNone /\ exists st, read_times rows st /\ first_flaw st (fun a b => ~ before a b /\ ~ before b a));
    (("InvalidSeries", "InvalidSeriesTimestamp"), fun rows =>
       g <> GNone /\ exists st i, read_times rows st /\ get_indices_from_timestamps g custom st = Ok (None, Some i));
    (("InvalidModelArgument", "InsufficientPoints"), fun rows =>
       g <> GNone /\ exists st l z p, read_times rows st /\ get_indices_from_timestamps g custom st = Ok (Some l, None) /\
         nth_error l (length l - 1) = Some z /\ period = Some p /\
         ((z + 1 < 2 * Z.of_nat p + 1)%Z \/ (nofill = true /\ (Z.of_nat (length rows) < 2 * Z.of_nat p + 1)%Z))) ].
(** The indices of an accepted series: the positions, or those on the grid. *)
Definition accepted_indices (rows : list (point T)) (l : list Z) : Prop :=
  (g = GNone /\ l = map Z.of_nat (List.seq 0 (length rows))) \/
  (g <> GNone /\ length l = length rows /\
   exists st, read_times rows st /\ get_indices_from_timestamps g custom st = Ok (Some l, None)).
(** A series that passes every check. *)
Definition good_series (rows : list (point T)) : Prop :=
  12 <= length rows /\ (Z.of_nat (length rows) <= 8640)%Z /\
  (forall x, In x rows -> exists q, w_value x = Num (Fin q) /\ (- value_bound <= q)%Qc /\ (q <= value_bound)%Qc) /\
  (g <> GNone -> exists st l,
     read_times rows st /\
     (forall i a b, nth_error st i = Some a -> nth_error st (S i) = Some b -> before a b) /\
     get_indices_from_timestamps g custom st = Ok (Some l, None) /\
     forall p, period = Some p ->
       (forall z, nth_error l (length l - 1) = Some z -> (2 * Z.of_nat p <= z)%Z) /\
       (nofill = true -> (2 * Z.of_nat p < Z.of_nat (length rows))%Z)).
End Series.

(** * What the detector is asked, and how its answer is presented *)
Record asked {T} (majority : list Qc -> Qc) (d : dict) (rows : list (point T)) (l : list Z) (a : args) (per : option nat) : Prop := mkAsked {
  asked_values : Forall2 (fun x v => w_value x = Num (Fin v)) rows (a_values a);
  asked_process : make_fup (Some l) (map Some (a_values a)) default_maxlen = Ok (a_fup a);
  asked_majority : a_majority a = majority (a_values a);
  asked_fill : reads_fill d (a_mode a) (a_fixed a);
  asked_alpha : reads_or "alpha" d (Q2Qc (5 # 100)) is_number (a_alpha a);
  asked_ratio : reads_or "maxAnomalyRatio" d (Q2Qc (25 # 100)) is_number (a_ratio a);
  asked_threshold : reads_or "threshold" d (Q2Qc (35 # 10)) is_number (a_threshold a);
  asked_trend : a_need_trend a = false <-> get "boundaryVersion" d = None \/ given "boundaryVersion" d VNone \/ given "boundaryVersion" d (VStr "V1");
  asked_granularity : reads_or "granularity" d GNone (fun v g => exists n, v = VStr n /\ In (n, g) granularity_names) (a_gran a);
  asked_interval : reads_or "customInterval" d None (fun v i => exists n, is_int v (Z.of_nat n) /\ i = Some n) (a_interval a);
  asked_period : reads_or "period" d None (fun v p => exists n, is_int v (Z.of_nat n) /\ p = Some n) per }.

(** The label of point [i]: its timestamp if every point has one, else its position. *)
Definition labelled {T} (rows : list (point T)) (i : nat) (t : label T) : Prop :=
  (exists x s, nth_error rows i = Some x /\ w_time x = Some s /\ t = LTime _ s /\ forall y, In y rows -> w_time y <> None) \/
  (i < length rows /\ t = LPos _ i /\ exists y, In y rows /\ w_time y = None).
(** The rows [out] of the detector (expected values, flags and scores) shown
    with the margins of sensitivity [z] and boundary version V1 or not. *)
Definition presents {T} (mode : pyval) (v1 : bool) (z : Z) (rows : list (point T)) (out : list row) (p : nat) (m : model_id) (r : reply T) : Prop :=
  match r with
  | AEntire _ l q => mode = VMode ENTIRE /\ q = p /\ length l = length rows /\
                     get_margins_entire v1 (is_sr m) out (qz z) = Ok (map snd l) /\
                     forall i t o, nth_error l i = Some (t, o) -> labelled rows i t
  | ALatest _ t o q _ => mode <> VMode ENTIRE /\ q = p /\ get_margins_last v1 (is_sr m) out (qz z) = Ok o /\ labelled rows (length rows - 1) t
  end.
