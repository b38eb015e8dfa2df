(** Model of the request layer:
    /repo/src/anomaly_detector/univariate/univariate_anomaly_detection.py
    (parse_arg, series_validator, is_timestamp_ascending, predict) and the
    constructor of AnomalyDetectionModel
    (/repo/src/anomaly_detector/univariate/model/detect_model.py:96-121).

    The parameter dictionary is written to while the request is parsed; these
    writes persist, so every function returns the dictionary it leaves behind,
    also when it raises. Error messages are represented by the names of the
    constants in resource/error_message.py. *)
From Coq Require Import String Ascii List Arith ZArith QArith Qcanon Bool.
From Verif Require Import Base Num FillUp_model Helpers_model Margins_model SR_model Detect_model Dates_model.
Import ListNotations.
Open Scope string_scope.
Open Scope nat_scope.

(** What float(x['value']) can produce, and what a cell of the value column can
    be: absent column (KeyError), not convertible (the exception of float()),
    or a number. *)
Inductive num := Fin (q : Qc) | NaN | PInf | NInf.
Inductive cell := Missing | Bad (e : exn) | Num (n : num).

(** util/fields.py:66-68 and 84-87 *)
Inductive detect_type := ENTIRE | LATEST.
Inductive boundary := V1 | V2 | V3.

(** Parameter values. Floats are finite (NaN and infinite parameters are not
    modelled), [VNoFill] is the enumeration member FillUpMode.no or
    FillUpMode.notFill, [VOther] any hashable object of another type. *)
Inductive pyval :=
| VNone | VBool (b : bool) | VInt (z : Z) | VFloat (q : Qc) | VStr (s : string)
| VGran (g : granularity) | VBoundary (v : boundary) | VMode (m : detect_type) | VNoFill
| VList (l : list Z) | VDict (d : list (string * pyval)) | VOther.
Definition dict := list (string * pyval).

(** dict lookup and assignment *)
Fixpoint get (k : string) (d : dict) : option pyval :=
  match d with
  | [] => None
  | (j, v) :: t => if (j =? k)%string then Some v else get k t
  end.
Fixpoint set (k : string) (v : pyval) (d : dict) : dict :=
  match d with
  | [] => [(k, v)]
  | (j, w) :: t => if (j =? k)%string then (j, v) :: t else (j, w) :: set k v t
  end.

(** isinstance(x, int): bool is a subclass of int. *)
Definition as_int (v : pyval) : option Z :=
  match v with VInt z => Some z | VBool b => Some (if b then 1 else 0)%Z | _ => None end.
(** isinstance(x, int) or isinstance(x, float) *)
Definition as_number (v : pyval) : option Qc :=
  match v with VFloat q => Some q | v => option_map qz (as_int v) end.
Definition hashable (v : pyval) : bool := match v with VList _ | VDict _ => false | _ => true end.

(** Granularity.__members__, util/fields.py:70-79 *)
Definition gran_of_name (s : string) : option granularity :=
  if (s =? "none")%string then Some GNone else if (s =? "yearly")%string then Some Yearly else if (s =? "monthly")%string then Some Monthly
  else if (s =? "weekly")%string then Some Weekly else if (s =? "daily")%string then Some Daily else if (s =? "hourly")%string then Some Hourly
  else if (s =? "minutely")%string then Some Minutely else if (s =? "secondly")%string then Some Secondly
  else if (s =? "microsecond")%string then Some Microsecond else None.
(** BoundaryVersion.__members__, util/fields.py:84-87 *)
Definition boundary_of_name (s : string) : option boundary :=
  if (s =? "V1")%string then Some V1 else if (s =? "V2")%string then Some V2 else if (s =? "V3")%string then Some V3 else None.
(** FillUpMode(value), util/fields.py:90-102; 'no' and 'notFill' are treated
    alike by every user of the mode. *)
Definition mode_of_value (s : string) : option fill_mode :=
  if (s =? "last")%string then Some FMUseLast else if (s =? "no")%string then Some FMNo else if (s =? "auto")%string then Some FMAuto
  else if (s =? "previous")%string then Some FMPrevious else if (s =? "linear")%string then Some FMLinear
  else if (s =? "zero")%string then Some FMZero else if (s =? "fixed")%string then Some FMFixed
  else if (s =? "notFill")%string then Some FMNo else None.

(** str.lower on ASCII letters (no other character lowers to a letter of a
    detector name). *)
Definition lower_char (c : ascii) : ascii :=
  let n := nat_of_ascii c in if (65 <=? n) && (n <=? 90) then ascii_of_nat (n + 32) else c.
Fixpoint lower (s : string) : string :=
  match s with EmptyString => EmptyString | String c t => String (lower_char c) (lower t) end.

(** A step of parse_arg: go on with a result, return after setting error_code
    and error_msg, or raise; always with the dictionary as it is then. *)
Inductive step (A : Type) :=
| Next (a : A) (d : dict)
| Stop (code msg : string) (d : dict)
| Raise (e : exn) (d : dict).
Arguments Next {A}. Arguments Stop {A}. Arguments Raise {A}.
Definition parser (A : Type) := dict -> step A.
Definition seq {A B} (c : parser A) (f : A -> parser B) : parser B := fun d =>
  match c d with Next a e => f a e | Stop c m e => Stop c m e | Raise x e => Raise x e end.
Notation "'let*' x := c 'in' f" := (seq c (fun x => f)) (at level 200, x name, c at level 100, f at level 200).

(** univariate_anomaly_detection.py:97-104 *)
Definition parse_granularity : parser granularity := fun d =>
  match get "granularity" d with
  | None => Next GNone (set "granularity" (VGran GNone) d)
  | Some v =>
      if negb (hashable v) then Raise TypeErr d else
      match (match v with VStr s => gran_of_name s | _ => None end) with
      | None => Stop "InvalidGranularity" "InvalidGranularity" d
      | Some g => Next g (set "granularity" (VGran g) d)
      end
  end.

(** 108-115 *)
Definition parse_interval : parser (option Z) := fun d =>
  match get "customInterval" d with
  | None => Next None (set "customInterval" VNone d)
  | Some v =>
      match as_int v with
      | None => Stop "InvalidCustomInterval" "InvalidCustomInterval" d
      | Some z => if (z <=? 0)%Z then Stop "InvalidCustomInterval" "InvalidCustomInterval" d else Next (Some z) d
      end
  end.

(** 117-121, and params.get('period') of line 252 *)
Definition parse_period : parser (option nat) := fun d =>
  match get "period" d with
  | None => Next None d
  | Some v =>
      match as_int v with
      | None => Stop "InvalidPeriod" "InvalidPeriod" d
      | Some z => if (z <? 0)%Z then Stop "InvalidPeriod" "InvalidPeriod" d else Next (Some (Z.to_nat z)) d
      end
  end.

(** 124-129; default util/fields.py:29 *)
Definition parse_alpha : parser Qc := fun d =>
  match get "alpha" d with
  | None => Next (Q2Qc (5 # 100)) d
  | Some v =>
      match as_number v with
      | None => Stop "InvalidModelArgument" "InvalidAlpha" d
      | Some q => if (q <=? 0)%Qc then Stop "InvalidModelArgument" "InvalidAlpha" d else Next q d
      end
  end.

(** 131-136; default util/fields.py:33 *)
Definition parse_ratio : parser Qc := fun d =>
  match get "maxAnomalyRatio" d with
  | None => Next (Q2Qc (25 # 100)) d
  | Some (VFloat q) =>
      if (q <=? 0)%Qc || (Q2Qc (49 # 100) <? q)%Qc then Stop "InvalidModelArgument" "InvalidAnomalyRatio" d else Next q d
  | Some _ => Stop "InvalidModelArgument" "InvalidAnomalyRatio" d
  end.

(** 138-144; default util/fields.py:30 *)
Definition parse_sensitivity : parser Z := fun d =>
  match get "sensitivity" d with
  | None => Next 99%Z (set "sensitivity" (VInt 99) d)
  | Some v =>
      match as_int v with
      | None => Stop "InvalidModelArgument" "InvalidSensitivity" d
      | Some z => if (z <? 0)%Z || (100 <? z)%Z then Stop "InvalidModelArgument" "InvalidSensitivity" d else Next z d
      end
  end.

(** 146-151; default util/fields.py:34 *)
Definition parse_threshold : parser Qc := fun d =>
  match get "threshold" d with
  | None => Next (Q2Qc (35 # 10)) d
  | Some (VFloat q) => Next q d
  | Some _ => Stop "InvalidModelArgument" "InvalidThreshold" d
  end.

(** params[k] = params.get(k, False): lines 153, 192 and 193 *)
Definition default_false (k : string) : parser unit := fun d =>
  match get k d with None => Next tt (set k (VBool false) d) | Some v => Next tt (set k v d) end.

(** 155-190: the mode and fixed_value_to_fill handed to the model. *)
Definition parse_impute : parser (fill_mode * option Qc) := fun d =>
  let mode v := match v with VStr s => mode_of_value s | _ => None end in
  match get "imputeMode" d, get "fillUpMode" d with
  | Some VNone, None | Some VNone, Some VNone | None, None | None, Some VNone => Next (FMAuto, None) d
  | Some VNone, Some v | None, Some v =>
      match mode v with
      | None => Stop "InvalidFillUpMode" "InvalidImputeMode" d
      | Some FMFixed =>
          match get "fixedValue" d with
          | None => Stop "InvalidFixedValue" "InvalidImputeValue" d
          | Some w => match as_number w with
                      | None => Stop "InvalidFixedValue" "InvalidImputeValue" d
                      | Some q => Next (FMFixed, Some q) d
                      end
          end
      | Some m => Next (m, None) d
      end
  | Some v, _ =>
      match mode v with
      | None => Stop "InvalidImputeMode" "InvalidImputeMode" d
      | Some FMFixed =>
          match get "imputeFixedValue" d with
          | None => Stop "InvalidImputeFixedValue" "InvalidImputeValue" d
          | Some w => match as_number w with
                      | None => Stop "InvalidImputeFixedValue" "InvalidImputeValue" d
                      | Some _ => Next (FMFixed, None) d
                      end
          end
      | Some FMZero => Next (FMFixed, Some 0%Qc) d
      | Some m => Next (m, None) d
      end
  end.

(** 195-206: true for BoundaryVersion.V1 (get_margins and need_trend ask
    nothing else). *)
Definition is_v1 (b : boundary) : bool := match b with V1 => true | _ => false end.
Definition parse_boundary : parser bool := fun d =>
  match get "boundaryVersion" d with
  | None | Some VNone => Next true (set "need_trend" (VBool false) (set "boundaryVersion" (VBoundary V1) d))
  | Some v =>
      if negb (hashable v) then Raise TypeErr d else
      match (match v with VStr s => boundary_of_name s | _ => None end) with
      | None => Stop "InvalidBoundaryVersion" "InvalidBoundaryVersion" d
      | Some b => Next (is_v1 b) (set "need_trend" (VBool (negb (is_v1 b))) (set "boundaryVersion" (VBoundary b) d))
      end
  end.

(** detect_model.py:136-229 compares the name case-sensitively. *)
Definition detector_of_name (s : string) : detector_name :=
  if (s =? "seasonal_series")%string then NSeasonal else if (s =? "hbos")%string then NHbos
  else if (s =? "spectral_residual")%string then NSpectral else if (s =? "dynamic_threshold")%string then NDynamic else NOther.
Definition known_detector (s : string) : bool :=
  (s =? "spectral_residual")%string || ((s =? "hbos")%string) || ((s =? "seasonal_series")%string) || ((s =? "dynamic_threshold")%string).
(** The entry detector['parameters']['period']: absent, None or a number; any
    other object ([None] here) is left to [beyond] below. *)
Definition detector_period (pd : dict) : option (option (option nat)) :=
  match get "period" pd with
  | None => Some None
  | Some VNone => Some (Some None)
  | Some v => match as_int v with
              | Some z => if (0 <=? z)%Z then Some (Some (Some (Z.to_nat z))) else None
              | None => None
              end
  end.
(** 208-232; [None] when a detector is given whose period is none of the above. *)
Definition parse_detector : parser (option detector_arg) := fun d =>
  match get "detector" d with
  | Some (VDict dd) =>
      match get "parameters" dd with
      | None => Stop "MissingDetectorParameters" "MissingDetectorParameters" d
      | Some (VDict pd) =>
          match get "name" dd with
          | None => Stop "MissingDetectorName" "MissingDetectorName" d
          | Some (VStr s) =>
              if known_detector (lower s)
              then Next (option_map (fun p => mkDet (Some (detector_of_name s)) (Some p)) (detector_period pd)) d
              else Stop "InvalidDetector" "InvalidDetectorName" d
          | Some _ => Raise AttrErr d
          end
      | Some _ => Stop "InvalidDetectorParameters" "InvalidDetectorParameters" d
      end
  | _ => Next (Some (mkDet None None)) d
  end.

(** What parse_arg takes from the dictionary: model_params, and the parameters
    predict reads again later. *)
Record settings := mkSettings {
  s_gran : granularity; s_interval : option Z; s_period : option nat;
  s_alpha : Qc; s_ratio : Qc; s_sensitivity : Z; s_threshold : Qc;
  s_fill : fill_mode * option Qc; s_v1 : bool; s_detector : option detector_arg }.

(** 97-232 in order. *)
Definition parse_params : parser settings :=
  let* g := parse_granularity in
  let* i := parse_interval in
  let* p := parse_period in
  let* a := parse_alpha in
  let* r := parse_ratio in
  let* s := parse_sensitivity in
  let* t := parse_threshold in
  let* _ := default_false "needDetectorId" in
  let* f := parse_impute in
  let* _ := default_false "needFillUpConfirm" in
  let* _ := default_false "needSpectrumPeriod" in
  let* b := parse_boundary in
  let* x := parse_detector in
  fun d => Next (mkSettings g i p a r s t f b x) d.

(** VALUE_UPPER_BOUND, util/fields.py:37: the double nearest 1e100. *)
Definition value_bound : Qc :=
  qz 10000000000000000159028911097599180468360808563945281389781327557747838772170381060813469985856815104.

Section Request.
Variable T : Type.                              (* entries of the timestamp column *)
Variable to_datetime : list T -> option (list stamp).   (* pd.to_datetime(...).tolist(); None: raises *)

(** One record of data.to_dict(orient='records'). *)
Record point := mkPoint { w_time : option T; w_value : cell }.

(** [float(x['value']) for x in series] *)
Fixpoint numbers (l : list point) : res (list num) :=
  match l with
  | [] => Ok []
  | x :: t =>
      match w_value x with
      | Missing => Err KeyErr
      | Bad e => Err e
      | Num n => do r <- numbers t; Ok (n :: r)
      end
  end.
(** [x['timestamp'] for x in series]; KeyError as [None]. *)
Fixpoint times (l : list point) : option (list T) :=
  match l with
  | [] => Some []
  | x :: t => match w_time x, times t with Some s, Some r => Some (s :: r) | _, _ => None end
  end.

(** lines 28-38 on the timestamps: 0, -1 or -2. *)
Fixpoint is_timestamp_ascending (l : list stamp) : Z :=
  match l with
  | a :: ((b :: _) as t) =>
      if stamp_ltb b a then (-1)%Z else if negb (stamp_ltb a b) then (-2)%Z else is_timestamp_ascending t
  | _ => 0%Z
  end.

Definition overflow (n : num) : bool :=
  match n with Fin q => (q <? - value_bound)%Qc || (value_bound <? q)%Qc | NaN => false | PInf | NInf => true end.
Definition is_nan (n : num) : bool := match n with NaN => true | _ => false end.

Definition zrange (n : nat) : list Z := map Z.of_nat (List.seq 0 n).

(** lines 40-87 for a list [series]: the pair (code, message), None when the
    series is accepted. *)
Definition series_validator (series : list point) (d : dict) : res (option (string * string)) * dict :=
  let reject c m := Ok (Some (c, m)) : res (option (string * string)) in
  let g := match get "granularity" d with Some (VGran g) => g | _ => GNone end in
  let plain := match g with GNone => true | _ => false end in
  if length series <? 12 then (reject "InvalidSeries" "NotEnoughPoints", d) else
  if (8640 <? Z.of_nat (length series))%Z then (reject "InvalidSeries" "TooManyPoints", d) else
  match numbers series, (if plain then Some [] else match times series with Some l => to_datetime l | None => None end) with
  | Err _, _ | _, None => (reject "BadArgument" "InvalidSeriesFormat", d)
  | Ok values, Some stamps =>
      if existsb overflow values then (reject "InvalidSeries" "ValueOverflow", d) else
      if existsb is_nan values then (reject "BadArgument" "InvalidSeriesValue", d) else
      if plain then (Ok None, set "indices" (VList (zrange (length values))) d) else
      let order := is_timestamp_ascending stamps in
      if (order =? -1)%Z then (reject "InvalidSeries" "InvalidSeriesOrder", d) else
      if (order =? -2)%Z then (reject "InvalidSeries" "DuplicateSeriesTimestamp", d) else
      let custom := match get "customInterval" d with Some v => as_int v | None => None end in
      match get_indices_from_timestamps g custom stamps with
      | Err e => (Err e, d)
      | Ok (ind, bad) =>
          let d := set "indices" (match ind with Some l => VList l | None => VNone end) d in
          match bad with
          | Some _ => (reject "InvalidSeries" "InvalidSeriesTimestamp", d)
          | None =>
              match get "period" d with
              | None | Some VNone => (Ok None, d)
              | Some v =>
                  match as_int v, ind with
                  | Some p, Some l =>
                      match last_opt l with
                      | Err e => (Err e, d)
                      | Ok z =>
                          let nofill := match get "fillUpMode" d with Some VNoFill => true | _ => false end in
                          if (z + 1 <? p * 2 + 1)%Z || (nofill && (Z.of_nat (length series) <? p * 2 + 1)%Z)
                          then (reject "InvalidModelArgument" "InsufficientPoints", d)
                          else (Ok None, d)
                      end
                  | _, _ => (Err TypeErr, d)
                  end
              end
          end
      end
  end.

(** The detector object: _detect_mode, _error_msg (read by predict, set by
    nobody) and error_code / error_msg (set by parse_arg). *)
Record obj := mkObj { o_mode : pyval; o__error : option string; o_code : option string; o_msg : option string }.
(** lines 22-26; 319-327 fix the mode *)
Definition fresh (mode : pyval) : obj := mkObj mode None None None.

(** The data argument: None, an object without attribute [empty], one with it
    that is no DataFrame (a Series), and a frame as its list of records (a
    frame without columns counts as without records). *)
Inductive data := DNone | DOther | DSeries | DFrame (rows : list point).

(** lines 89-239. [None]: parse_arg returned None. *)
Definition parse_arg (o : obj) (x : data) (params : option dict)
  : res (option (list point * settings * pyval)) * obj * option dict :=
  let refuse := (Ok None, mkObj (o_mode o) (o__error o) (o_code o) (Some "InvalidInputFormat"), params) in
  match x, params with
  | DNone, _ | DSeries, _ | DFrame [], _ => refuse
  | DOther, _ => (Err AttrErr, o, params)
  | DFrame rows, None => (Err TypeErr, o, params)
  | DFrame rows, Some d =>
      match parse_params d with
      | Raise e d => (Err e, o, Some d)
      | Stop c m d => (Ok None, mkObj (o_mode o) (o__error o) (Some c) (Some m), Some d)
      | Next s d =>
          let '(v, d) := series_validator rows d in
          match v with
          | Err e => (Err e, o, Some d)
          | Ok v =>
              let o := mkObj (o_mode o) (o__error o) (option_map fst v) (option_map snd v) in
              match get "indices" d with
              | None => (Err KeyErr, o, Some d)
              | Some i => (Ok (Some (rows, s, i)), o, Some d)
              end
          end
      end
  end.

Variable majority : list Qc -> Qc.          (* detect_model.py:106-112: largest share of a histogram bin, -1 if it fails *)
Variable detect : args -> detector_arg -> option nat -> bool -> res (list row * nat * model_id * bool).

(** The answer: ENTIRE one entry per point and the period, otherwise the last
    point, the period and the suggested window. *)
Inductive label := LTime (t : T) | LPos (n : nat).
Inductive reply :=
| AEntire (l : list (label * outcome)) (period : nat)
| ALatest (t : label) (o : outcome) (period window : nat).

(** Requests whose outcome is left open: values that are NaN or infinite (they
    get this far only when validation failed and a stale 'indices' entry was
    found), and detector parameters with an odd period. *)
Variable beyond : list point -> settings -> res reply.

Fixpoint finite (l : list num) : option (list Qc) :=
  match l with
  | [] => Some []
  | Fin q :: t => option_map (cons q) (finite t)
  | _ :: _ => None
  end.

(** detect_model.py:96-121. *)
Definition make_model (s : settings) (values : list Qc) (indices : pyval) : res args :=
  do f <- make_fup (match indices with VList l => Some l | _ => None end) (map Some values) default_maxlen;
  Ok (mkArgs values f (fst (s_fill s)) (snd (s_fill s)) (s_ratio s) (s_alpha s) (s_threshold s)
             (negb (s_v1 s)) (majority values) (s_gran s) (option_map Z.to_nat (s_interval s))).

(** lines 254-257 *)
Definition labels (rows : list point) : list label :=
  match times rows with
  | Some l => map LTime l
  | None => map LPos (List.seq 0 (length rows))
  end.

(** lines 248-315; needSpectrumPeriod only adds a computation whose result is
    not part of the answer (Spectrum_model; C97). *)
Definition answer_request (mode : pyval) (rows : list point) (s : settings) (indices : pyval) : res reply :=
  do ns <- numbers rows;
  match finite ns, s_detector s with
  | Some values, Some det =>
      do a <- make_model s values indices;
      do r <- detect a det (s_period s) (match mode with VMode LATEST => true | _ => false end);
      let '(out, p, m, _) := r in
      let ts := labels rows in
      if negb (length ts =? length out) then Err ValueErr else
      match mode with
      | VMode ENTIRE =>
          do os <- get_margins_entire (s_v1 s) (is_sr m) out (qz (s_sensitivity s));
          Ok (AEntire (zip_pair ts os) p)
      | _ =>
          do o <- get_margins_last (s_v1 s) (is_sr m) out (qz (s_sensitivity s));
          do t <- last_opt ts;
          Ok (ALatest t o p (suggested_window (s_gran s) p))
      end
  | _, _ => beyond rows s
  end.

(** lines 241-315 *)
Definition predict (o : obj) (x : data) (params : option dict) : res reply * obj * option dict :=
  match parse_arg o x params with
  | (Err e, o, params) => (Err e, o, params)
  | (Ok None, o, params) => (Err TypeErr, o, params)     (* cannot unpack None *)
  | (Ok (Some (rows, s, i)), o, params) =>
      match (match o_mode o with
             | VNone => match params with Some d => get "detect_mode" d | None => None end
             | m => Some m
             end) with
      | None => (Err KeyErr, o, params)
      | Some mode =>
          let o := mkObj mode (o__error o) (o_code o) (o_msg o) in
          match o__error o with
          | Some _ => (Err (RequestErr "BadArgument"), o, params)
          | None => (answer_request mode rows s i, o, params)
          end
      end
  end.
End Request.
Arguments mkPoint {T}. Arguments w_time {T}. Arguments w_value {T}.
Arguments DNone {T}. Arguments DOther {T}. Arguments DSeries {T}. Arguments DFrame {T}.
