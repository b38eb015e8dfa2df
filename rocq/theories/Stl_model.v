(** Model of the seasonal decomposition around the rstl library:
    /repo/src/anomaly_detector/univariate/util/r_stl.py, util/stl_helpers.py
    and the choice of the decomposition in model/seasonal_series.py:42-55.
    Floats are exact rationals. *)
From Coq Require Import List Arith ZArith QArith Qcanon Lia Bool.
From Verif Require Import Base Num Sorting Helpers_model Kernel_model Mv_model.
Import ListNotations.
Open Scope nat_scope.

(** The frame with the columns seasonal, trend, remainder. *)
Record comps := mkComps { c_seasonal : list Qc; c_trend : list Qc; c_remainder : list Qc }.

(** Elementwise arithmetic; arrays of different lengths raise ValueError. *)
Definition zipq (f : Qc -> Qc -> Qc) (a b : list Qc) : res (list Qc) :=
  if length a =? length b then Ok (zip_with f a b) else Err ValueErr.

Section Stl.
(** rstl.STL(data, period, "periodic", robust=True); np.exp, np.log; np.std. *)
Variable STL : list Qc -> nat -> res comps.
Variable exp log : Qc -> Qc.
Variable std : list Qc -> Qc.

(** r_stl.py:12-33 *)
Definition stl_core (data : list Qc) (np : nat) : res comps := STL data np.

(** r_stl.py:36-73. min() of an empty list raises ValueError. *)
Definition stl_log (data : list Qc) (np : nat) : res comps :=
  match data with
  | [] => Err ValueErr
  | _ =>
      let base := qmin_list data in
      let low := (base <? 1)%Qc in
      let data := if low then map (fun x => (x - base) + 1)%Qc data else data in
      do result <- STL (map log data) np;
      let trend := map exp (c_trend result) in
      do ts <- zipq Qcplus (c_trend result) (c_seasonal result);
      do seasonal <- zipq Qcminus (map exp ts) trend;
      do dt <- zipq Qcminus data trend;
      do remainder <- zipq Qcminus dt seasonal;
      let trend := if low then map (fun x => (x - 1) + base)%Qc trend else trend in
      Ok (mkComps seasonal trend remainder)
  end.

(** r_stl.py:76-80 *)
Definition stl (data : list Qc) (np : nat) (log_transform : bool) : res comps :=
  if log_transform then stl_log data np else stl_core data np.

(** [data[-np::-np]]: positions n-np, n-2np, ... *)
Definition phase_before_end (data : list Qc) (np : nat) : list Qc :=
  map (fun k => nth (length data - S k * np) data 0%Qc) (range (length data / np)).

(** r_stl.py:83-110. np.median of an empty array is NaN: not reachable, the
    data cover two periods; [Err Generic] here. *)
Definition stl_adjust_trend (data : list Qc) (np : nat) (log_transform : bool) : res comps :=
  let f := if log_transform then stl_log else stl_core in
  match phase_before_end data np with
  | [] => Err Generic
  | ph =>
      let extended := data ++ [qmedian ph] in
      do origin <- f data np;
      do adjust <- f extended np;
      do o <- get (c_remainder origin) (length (c_remainder origin) - 1);
      do a <- (if length (c_remainder adjust) <? 2 then Err IndexErr
               else get (c_remainder adjust) (length (c_remainder adjust) - 2));
      if (Qcabs o <=? Qcabs a)%Qc then Ok origin
      else let n := length data in
           Ok (mkComps (firstn n (c_seasonal adjust)) (firstn n (c_trend adjust)) (firstn n (c_remainder adjust)))
  end.

(** stl_helpers.py:11-23. The labels are the positions; np.unique with counts
    per phase, [int((len / period) / 2)]. *)
Definition get_outlier (values : list Qc) (period : nat) : list nat :=
  let m := qmean values in
  let s := std values in
  if (s =? 0)%Qc then [] else
  let far := map fst (filter (fun p => (Q2Qc 3 <=? Qcabs (snd p - m) / s)%Qc) (combine (range (length values)) values)) in
  let count b := length (filter (fun i => i mod period =? b) far) in
  filter (fun i => count (i mod period) <=? length values / period / 2) far.

(** stl_helpers.py:26-38. A series left with missing values (all points being
    outliers) is passed on to STL in the code: [Err Generic] here. *)
Definition mem_pos (i : nat) (l : list nat) : bool := existsb (Nat.eqb i) l.
Definition de_outlier_stl (series : list Qc) (f : list Qc -> nat -> bool -> res comps) (period : nat) (log_transform : bool)
  : res comps :=
  do d <- f series period log_transform;
  do de_trend <- zipq Qcplus (c_remainder d) (c_seasonal d);
  match get_outlier de_trend period with
  | [] => Ok d
  | outlier =>
      let blanked := mapi (fun i v => if mem_pos i outlier then None else Some v) de_trend in
      match all_some (bfill (ffill blanked)) with
      | None => Err Generic
      | Some filled =>
          do s <- zipq Qcplus filled (c_trend d);
          f s period log_transform
      end
  end.

(** np.mean(np.abs(remainder / series)) of a pandas Series: 0/0 is NaN and
    skipped, x/0 infinite. *)
Inductive ext := Fin (q : Qc) | Inf | NaN.
Definition mape (remainder series : list Qc) : ext :=
  let pairs := filter (fun p => negb ((fst p =? 0)%Qc && (snd p =? 0)%Qc)) (combine remainder series) in
  match pairs with
  | [] => NaN
  | _ => if existsb (fun p => (snd p =? 0)%Qc) pairs then Inf
         else Fin (qmean (map (fun p => Qcabs (fst p / snd p)) pairs))
  end.
Definition MAPE_UB : Qc := Q2Qc (10 # 100).
Definition MAPE_LB : Qc := Q2Qc (5 # 100).
Definition ext_above (q : Qc) (e : ext) : bool :=
  match e with Fin x => (q <? x)%Qc | Inf => true | NaN => false end.
Definition ext_below (q : Qc) (e : ext) : bool :=
  match e with Fin x => (x <? q)%Qc | Inf => false | NaN => false end.

(** seasonal_series.py:42-55: the decomposition used, and its trend and
    seasonal columns. *)
Definition decomposition (adjust : bool) (series : list Qc) (period : nat) : res comps :=
  let f := if adjust then stl_adjust_trend else stl in
  do plain <- de_outlier_stl series f period false;
  if negb (length (c_remainder plain) =? length series) then Err ValueErr else
  if ext_above MAPE_UB (mape (c_remainder plain) series) then
    do logd <- de_outlier_stl series f period true;
    if negb (length (c_remainder logd) =? length series) then Err ValueErr else
    if ext_below MAPE_LB (mape (c_remainder logd) series) then Ok logd else Ok plain
  else Ok plain.
Definition decompose (adjust : bool) (series : list Qc) (period : nat) : res (list Qc * list Qc) :=
  do d <- decomposition adjust series period;
  Ok (c_trend d, c_seasonal d).
End Stl.
