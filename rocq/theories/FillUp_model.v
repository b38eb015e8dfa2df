(** Model of the gap filling code:
    /repo/src/anomaly_detector/univariate/filling_up/fill_up.py,
    /repo/src/anomaly_detector/univariate/filling_up/fill_up_methods.py,
    /repo/src/anomaly_detector/univariate/model/series_compete_processor.py.

    Python floats are exact rationals ([Qc]); Python [None] is [None]. *)
From Coq Require Import List Arith ZArith Lia Bool.
From Verif Require Import Base Num Sorting.
Import ListNotations.
Open Scope nat_scope.

(** The attributes of a FillingUpProcess object (fill_up.py:11-67).
    [f_tags], [f_fmc] (forward_missing_counts) and [f_mc] (missing_counts) are
    only assigned by Python when [f_need] is true; here they are [[]] otherwise
    and no modelled method reads them then. Accepted indices are non-negative,
    so they are kept as [nat]. *)
Record fup := mkFup {
  f_indices : list nat;
  f_values : list Qc;
  f_all : nat;
  f_need : bool;
  f_missing : Z;
  f_tags : list bool;
  f_fmc : list nat;
  f_mc : list nat
}.

(** fill_up.py:31-33: a missing value raises ValueError. *)
Fixpoint get_values (vs : list (option Qc)) : res (list Qc) :=
  match vs with
  | [] => Ok []
  | None :: _ => Err ValueErr
  | Some v :: t => do r <- get_values t; Ok (v :: r)
  end.

(** fill_up.py:35-42: the order check and the missing count; [prev] is
    indices[i-1], [found] is missing_found, [cnt] is all_missing_count. *)
Fixpoint scan (prev : Z) (rest : list Z) (found : bool) (cnt : Z) : res (bool * Z) :=
  match rest with
  | [] => Ok (found, cnt)
  | x :: t =>
      if (x <=? prev)%Z then Err ValueErr
      else if (x >? prev + 1)%Z then scan x t true (cnt + (x - prev - 1))%Z
      else scan x t found cnt
  end.

(** fill_up.py:56-67: one entry (missing_tag, forward_missing_count,
    missing_count) per grid position [i], [n] positions to go, [idx] is
    indices[j:]. The two error results stand for an IndexError and for the
    missing else-branch (indices[j] < i); both are shown unreachable. *)
Fixpoint tag_loop (n i : nat) (idx : list nat) (cnt : nat)
  : res (list (bool * nat * nat)) :=
  match n with
  | O => Ok []
  | S n' =>
      match idx with
      | [] => Err IndexErr
      | x :: t =>
          if x =? i then
            do r <- tag_loop n' (S i) t 0; Ok ((false, x - i, 0) :: r)
          else if i <? x then
            let c := if cnt =? 0 then x - i else cnt in
            do r <- tag_loop n' (S i) idx c; Ok ((true, x - i, c) :: r)
          else Err OutOfFuel
      end
  end.

(** fill_up.py:11-67. [indices] is a Python list of ints (the None / non-list
    case is [None]); [maxlen] is maximum_fillup_length. *)
Definition make_fup (indices : option (list Z)) (values : list (option Qc)) (maxlen : Z)
  : res fup :=
  match indices with
  | None => Err ValueErr
  | Some [] => Ok (mkFup [] [] 0 false 0 [] [] [])
  | Some (i0 :: rest) =>
      if negb (length (i0 :: rest) =? length values) then Err ValueErr else
      do vs <- get_values values;
      do sc <- scan i0 rest false 0;
      let '(found, cnt) := sc in
      if negb (i0 =? 0)%Z then Err ValueErr else
      let idx := map Z.to_nat (i0 :: rest) in
      let all := S (last idx 0) in
      if negb found || (Z.of_nat all >? maxlen)%Z then
        Ok (mkFup idx vs all false cnt [] [] [])
      else
        do tl <- tag_loop all 0 idx 0;
        Ok (mkFup idx vs all true cnt (map (fun p => fst (fst p)) tl)
                  (map (fun p => snd (fst p)) tl) (map snd tl))
  end.

(** DEFAULT_MAXIMUM_FILLUP_LENGTH, util/fields.py *)
Definition default_maxlen : Z := 17280.

(** fill_up.py:69-73 *)
Definition values_to_fill (f : fup) : list (option Qc) :=
  fold_left (fun acc p => upd acc (fst p) (Some (snd p)))
            (combine (f_indices f) (f_values f)) (repeat None (f_all f)).

(** fill_up.py:75-76 *)
Definition get_missing_indices (f : fup) : list nat :=
  filter (fun i => 0 <? nth i (f_fmc f) 0) (range (f_all f)).

(** fill_up.py:78-89 *)
Fixpoint missing_segments_loop (fuel i : nat) (f : fup) : list (nat * nat) :=
  match fuel with
  | O => []
  | S k =>
      if i <? f_all f then
        let c := nth i (f_fmc f) 0 in
        if 0 <? c then (i, c) :: missing_segments_loop k (i + c) f
        else missing_segments_loop k (i + 1) f
      else []
  end.
Definition get_missing_segments (f : fup) : list (nat * nat) :=
  missing_segments_loop (f_all f) 0 f.

(** Keyword options of fill_up (fill_up.py:151-160). String options outside the
    listed ones raise immediately (fill_up.py:170-182) and are not represented. *)
Inductive short_mode := SRaise | SNone | STryBest | SIgnore.
Inductive exc_mode := ERaise | ENone | ELast.
Record kwargs := mkKw {
  k_bn : nat;              (* backward_n *)
  k_fn : nat;              (* forward_n *)
  k_lev : bool;            (* leverage_filled_values *)
  k_cp : bool;             (* consider_period *)
  k_period : option Z;     (* period *)
  k_short : short_mode;    (* if_short_of_knowledge *)
  k_weights : option (list Qc);
  k_number : option Qc     (* number *)
}.

(** Result of a step function: a scalar (possibly None) or a list. *)
Inductive fres := FScalar (v : option Qc) | FList (l : list Qc).

(** Ceiling division of Python [int(np.ceil(a / b))] for [b <> 0] (exact). *)
Definition zceil (a b : Z) : Z := (- ((- a) / b))%Z.

(** fill_up_methods.py:28-42, the while loop. [per] is the signed period,
    [forward] tells whether direction is 1. *)
Fixpoint per_loop (fuel : nat) (arr : list (option Qc)) (fmc mc : list nat)
    (lev try_best forward : bool) (per i : Z) (n : nat) : res (list (option Qc)) :=
  if (negb ((0 <=? i)%Z && (i <? Z.of_nat (length arr))%Z)) || (n =? 0) then Ok [] else
  match fuel with
  | O => Err OutOfFuel
  | S k =>
      let ii := Z.to_nat i in
      match nth_error arr ii, nth_error fmc ii, nth_error mc ii with
      | Some a, Some fm, Some m =>
          if negb lev && (0 <? fm) then
            let i' :=
              (if forward
               then i + zceil (Z.of_nat fm - per) per * per
               else i + zceil (Z.of_nat m - Z.of_nat fm) per * per * -1)%Z in
            do r <- per_loop k arr fmc mc lev try_best forward per (i' + per)
                             (if try_best then n else pred n);
            Ok (None :: r)
          else
            let n1 := match a with Some _ => if try_best then pred n else n | None => n end in
            do r <- per_loop k arr fmc mc lev try_best forward per (i + per)
                             (if try_best then n1 else pred n1);
            Ok (a :: r)
      | _, _, _ => Err IndexErr
      end
  end.

(** fill_up_methods.py:17-43 *)
Definition get_periodical_values (arr : list (option Qc)) (i n : nat) (period : Z)
    (fmc mc : list nat) (lev : bool) (sm : short_mode) (forward : bool)
  : res (list (option Qc)) :=
  if (period <=? 0)%Z then Err Generic else
  let per := if forward then period else (- period)%Z in
  let tb := match sm with STryBest => true | _ => false end in
  do r <- per_loop (length arr) arr fmc mc lev tb forward per (Z.of_nat i + per)%Z n;
  Ok (if forward then r else rev r).

Definition is_none {A} (x : option A) : bool := match x with None => true | _ => false end.
Definition somes {A} (l : list (option A)) : list A :=
  flat_map (fun x => match x with Some v => [v] | None => [] end) l.

(** fill_up_methods.py:46-72. [None] is the returned pair [(None, None)]. *)
Definition get_bf (arr : list (option Qc)) (i : nat) (vals : list Qc) (j : nat) (period : Z)
    (fmc mc : list nat) (bn fn : nat) (lev : bool) (sm : short_mode)
  : res (option (list Qc * list Qc)) :=
  do bf <-
    (match lev, sm, (period =? 1)%Z with
     | false, STryBest, true =>
         Ok (map Some (slice vals (j - Nat.min bn j) j), map Some (slice vals j (j + fn)))
     | _, _, _ =>
         do b <- get_periodical_values arr i bn period fmc mc lev sm false;
         do f <- get_periodical_values arr i fn period fmc mc lev sm true;
         Ok (b, f)
     end);
  let '(b, f) := bf in
  if existsb is_none b || (length b <? bn) || existsb is_none f || (length f <? fn) then
    match sm with
    | SRaise => Err Generic
    | SIgnore | STryBest =>
        match somes b, somes f with
        | [], [] => Ok None
        | b', f' => Ok (Some (b', f'))
        end
    | SNone => Ok None
    end
  else Ok (Some (somes b, somes f)).

(** numpy reductions used by fill_up_methods.py:96-113. *)
Inductive red := RAverage | RMedian | RMin | RMax.

(** np.average(values, weights): ValueError/TypeError on length mismatch,
    ZeroDivisionError when the weights sum to zero. *)
Definition np_average_w (vs ws : list Qc) : res Qc :=
  if negb (length vs =? length ws) then Err ValueErr else
  let sw := qsum ws in
  if Qceqb sw 0 then Err ZeroDiv
  else Ok (qsum (map (fun p => fst p * snd p)%Qc (combine vs ws)) / sw)%Qc.

(** np.average / np.median / np.min / np.max. On the empty list np.min/np.max
    raise ValueError; np.average/np.median give NaN, which is modelled as an
    error too (only reachable with backward_n = forward_n = 0). *)
Definition reduce (r : red) (vs : list Qc) : res Qc :=
  match vs with
  | [] => Err ValueErr
  | _ => Ok (match r with
             | RAverage => qmean vs
             | RMedian => qmedian vs
             | RMin => qmin_list vs
             | RMax => qmax_list vs
             end)
  end.

(** fill_up_methods.py:75-93 *)
Definition basic_func (r : red) (kw : kwargs) (arr : list (option Qc)) (i : nat)
    (vals : list Qc) (j : nat) (fmc mc : list nat) : res fres :=
  let period :=
    match k_period kw with
    | Some p => if k_cp kw && (p >? 1)%Z then p else 1%Z
    | None => 1%Z
    end in
  do bf <- get_bf arr i vals j period fmc mc (k_bn kw) (k_fn kw) (k_lev kw) (k_short kw);
  match bf with
  | None => Ok (FScalar None)
  | Some (b, f) =>
      match r, k_weights kw with
      | RAverage, Some ws =>
          if negb (length ws =? k_bn kw + k_fn kw) then Err Generic else
          do v <- np_average_w (b ++ f)
                    (slice ws (k_bn kw - length b) (k_bn kw + length f));
          Ok (FScalar (Some v))
      | _, _ => do v <- reduce r (b ++ f); Ok (FScalar (Some v))
      end
  end.

(** fill_up_methods.py:121-124: interp1d on [0,1] at the inner points of
    linspace(0,1,m+2). *)
Definition linear_seg (mc : list nat) (i : nat) (vals : list Qc) (j : nat) : res (list Qc) :=
  match j with
  | O => Err ValueErr
  | S j' =>
      match nth_error vals j', nth_error vals j, nth_error mc i with
      | Some va, Some vb, Some m =>
          Ok (map (fun k => va + (vb - va) * (qn (S k) / qn (S m)))%Qc (range m))
      | _, _, _ => Err ValueErr
      end
  end.

(** Linear interp1d / np.interp through knots [(a,va) :: rest] at [x]; [None]
    when [x] is outside the knots (interp1d raises ValueError). *)
Fixpoint interp_at (a : nat) (va : Qc) (rest : list (nat * Qc)) (x : nat) : option Qc :=
  match rest with
  | [] => if x =? a then Some va else None
  | (b, vb) :: t =>
      if x <? a then None
      else if x <? b then
        Some (va + (vb - va) * (qn (x - a) / qn (b - a)))%Qc
      else interp_at b vb t x
  end.

Fixpoint sequence {A} (l : list (option A)) : option (list A) :=
  match l with
  | [] => Some []
  | None :: _ => None
  | Some x :: t => match sequence t with Some r => Some (x :: r) | None => None end
  end.

(** fill_up_methods.py:127-130 *)
Definition linear_entire (vals : list Qc) (idx full : list nat) : res (list Qc) :=
  match combine idx vals with
  | [] => Err ValueErr
  | (a, va) :: rest =>
      match sequence (map (interp_at a va rest) full) with
      | Some l => Ok l
      | None => Err ValueErr
      end
  end.

Section Spline.
(** The cubic interpolant scipy builds for given knots, evaluated at a grid
    position; numerical content not modelled. *)
Variable spline : list nat -> list Qc -> nat -> Qc.

(** fill_up_methods.py:161-166 *)
Definition spline_entire (vals : list Qc) (idx full : list nat) : res (list Qc) :=
  if length vals <=? 3 then Err Generic
  else Ok (map (spline idx vals) full).

(** fill_up_methods.py:139-158. interp1d(kind='cubic') raises for fewer than
    four knots and for evaluation outside the knots; [x[pre:-post]] is [[]]
    when post = 0. *)
Definition spline_seg (kw : kwargs) (arr : list (option Qc)) (i : nat) (vals : list Qc)
    (j : nat) (fmc mc : list nat) : res fres :=
  do bf <- get_bf arr i vals j 1 fmc mc (k_bn kw) (k_fn kw) (k_lev kw) (k_short kw);
  match bf with
  | None => Err TypeErr
  | Some (b, f) =>
      match nth_error mc i with
      | None => Err IndexErr
      | Some m =>
          let pre := length b in
          let post := length f in
          let knots := range pre ++ seq (m + pre) post in
          if (length knots <? 4) || (pre =? 0) || (post =? 0) then Err Generic
          else Ok (FList (map (spline knots (b ++ f)) (seq pre m)))
      end
  end.

(** Step functions by name (fill_up.py:134-144). *)
Inductive step_method :=
| MMin | MMax | MMedian | MAverage | MWeightedAvg | MConstant | MLast | MLinearSeg | MSplineSeg.

(** fill_up_methods.py:13-14 (Python [init_values[-1]] when j = 0). *)
Definition func_last (vals : list Qc) (j : nat) : res fres :=
  match (match j with O => nth_error vals (length vals - 1) | S k => nth_error vals k end) with
  | Some v => Ok (FScalar (Some v))
  | None => Err IndexErr
  end.

Definition step_func (m : step_method) (kw : kwargs) (arr : list (option Qc)) (i : nat)
    (vals : list Qc) (j : nat) (fmc mc : list nat) : res fres :=
  match m with
  | MMin => basic_func RMin kw arr i vals j fmc mc
  | MMax => basic_func RMax kw arr i vals j fmc mc
  | MMedian => basic_func RMedian kw arr i vals j fmc mc
  | MAverage => basic_func RAverage kw arr i vals j fmc mc
  | MWeightedAvg =>
      match k_weights kw with
      | None => Err TypeErr
      | Some _ => basic_func RAverage kw arr i vals j fmc mc
      end
  | MConstant => Ok (FScalar (k_number kw))
  | MLast => func_last vals j
  | MLinearSeg => do l <- linear_seg mc i vals j; Ok (FList l)
  | MSplineSeg => spline_seg kw arr i vals j fmc mc
  end.

(** fill_up.py:97-119. An empty list result makes Python loop forever; so does
    indices[j] < i. Both end in [OutOfFuel]. *)
Fixpoint step_loop (fuel : nat) (f : fup) (func : list (option Qc) -> nat -> nat -> res fres)
    (em : exc_mode) (i j : nat) (full : list (option Qc)) : res (list (option Qc)) :=
  if negb (i <? f_all f) then Ok full else
  match fuel with
  | O => Err OutOfFuel
  | S k =>
      match nth_error (f_indices f) j with
      | None => Err IndexErr
      | Some x =>
          if x =? i then step_loop k f func em (S i) (S j) full
          else if i <? x then
            match func full i j with
            | Ok (FList l) =>
                step_loop k f func em (i + length l) j (splice full i (map Some l))
            | Ok (FScalar v) => step_loop k f func em (S i) j (upd full i v)
            | Err OutOfFuel => Err OutOfFuel
            | Err e =>
                match em with
                | ERaise => Err e
                | ENone => step_loop k f func em (S i) j (upd full i None)
                | ELast =>
                    match func_last (f_values f) j with
                    | Ok (FScalar v) => step_loop k f func em (S i) j (upd full i v)
                    | Ok (FList _) => Err OutOfFuel
                    | Err e' => Err e'
                    end
                end
            end
          else Err OutOfFuel
      end
  end.

(** The pair returned by the fill functions; [None] is [(None, None)]. *)
Definition filled := option (list (option Qc) * list bool).

(** fill_up.py:91-120; [em = None]: called without the required argument
    if_exception, which is a TypeError before the body runs. *)
Definition step_by_step_fill_up (f : fup) (m : step_method) (em : option exc_mode) (kw : kwargs)
  : res filled :=
  match em with
  | None => Err TypeErr
  | Some em =>
      if negb (f_need f) then Ok None else
      do full <- step_loop (f_all f) f
           (fun arr i j => step_func m kw arr i (f_values f) j (f_fmc f) (f_mc f))
           em 0 0 (values_to_fill f);
      Ok (Some (full, f_tags f))
  end.

Inductive entire_method := MLinear | MSpline.

(** fill_up.py:122-132 *)
Definition entire_fill_up (f : fup) (m : entire_method) (em : exc_mode) (kw : kwargs)
  : res filled :=
  let r := match m with
           | MLinear => linear_entire (f_values f) (f_indices f) (range (f_all f))
           | MSpline => spline_entire (f_values f) (f_indices f) (range (f_all f))
           end in
  match r with
  | Ok l => Ok (Some (map Some l, f_tags f))
  | Err e =>
      match em with
      | ERaise => Err e
      | ENone => Ok (Some (values_to_fill f, f_tags f))
      | ELast => step_by_step_fill_up f MLast None kw
      end
  end.

(** [l == sorted(l)] and [l == sorted(l, reverse=True)] *)
Fixpoint is_ascending (l : list Qc) : bool :=
  match l with
  | x :: ((y :: _) as t) => Qcleb x y && is_ascending t
  | _ => true
  end.
Fixpoint is_descending (l : list Qc) : bool :=
  match l with
  | x :: ((y :: _) as t) => Qcleb y x && is_descending t
  | _ => true
  end.

(** fill_up.py:222-225: the surrounding real values of the gap of length [m]
    starting at [i]; note [0 < x], position 0 is never used. *)
Definition surrounding (f : fup) (full : list (option Qc)) (i m : nat) : list Qc :=
  somes (map (fun z =>
     if (0 <? z)%Z && (z <? Z.of_nat (f_all f))%Z && negb (nth (Z.to_nat z) (f_tags f) false)
     then nth (Z.to_nat z) full None else None)
   [Z.of_nat i - 2; Z.of_nat i - 1; Z.of_nat (i + m); Z.of_nat (i + m + 1)]%Z).

(** fill_up.py:239-240 *)
Definition clip_range (full : list (option Qc)) (i m : nat) (lo hi : Qc) : list (option Qc) :=
  mapi (fun k c => if (i <=? k) && (k <? i + m)
                   then option_map (fun v => Qcmin (Qcmax v lo) hi) c else c) full.

(** fill_up.py:221-240: treatment of a short gap. *)
Definition scatter_short (f : fup) (full : list (option Qc)) (i j m : nat) (lo hi : Qc)
  : res (list (option Qc)) :=
  let s := surrounding f full i m in
  do full' <-
    (if (2 <? length s) && (is_ascending s || is_descending s) then
       let a := hd 0%Qc s in
       let b := last s 0%Qc in
       let mn := Qcmin a b in
       let mx := Qcmax a b in
       if existsb (fun x => match nth x full None with
                            | Some v => Qcltb v mn || Qcltb mx v
                            | None => false end) (seq i m)
       then do l <- linear_seg (f_mc f) i (f_values f) j;
            Ok (splice full i (map Some l))
       else Ok full
     else Ok full);
  Ok (clip_range full' i m lo hi).

(** fill_up.py:210-244 *)
Fixpoint scatter_loop (fuel : nat) (f : fup) (period : Z) (lo hi : Qc) (i j : nat)
    (full : list (option Qc)) : res (list (option Qc)) :=
  if negb (i <? f_all f) then Ok full else
  match fuel with
  | O => Err OutOfFuel
  | S k =>
      match nth_error (f_indices f) j with
      | None => Err IndexErr
      | Some x =>
          if x =? i then scatter_loop k f period lo hi (S i) (S j) full
          else if i <? x then
            let m := nth i (f_mc f) 0 in
            if (6 <? m) || ((period >? 1)%Z && (4 * Z.of_nat m >? period)%Z) then
              scatter_loop k f period lo hi (i + m) j (splice full i (repeat None m))
            else
              do full' <- scatter_short f full i j m lo hi;
              scatter_loop k f period lo hi (i + m) j full'
          else Err OutOfFuel
      end
  end.

(** fill_up.py:206-244 *)
Definition scatter_fill_up (f : fup) (period : Z) : res (list (option Qc)) :=
  do sp <- spline_entire (f_values f) (f_indices f) (range (f_all f));
  scatter_loop (f_all f) f period (qmin_list (f_values f)) (qmax_list (f_values f)) 0 0
               (map Some sp).

(** fill_up.py:252-253, 263-264: indices and values of the cells that are not None. *)
Definition known_indices (l : list (option Qc)) : list nat :=
  filter (fun i => negb (is_none (nth i l None))) (range (length l)).

(** Keyword arguments of the inner weighted_avg call, fill_up.py:258-262. *)
Definition auto_weights : list Qc :=
  [Q2Qc (1#10); Q2Qc (3#10); Q2Qc (6#10); Q2Qc (6#10); Q2Qc (3#10); Q2Qc (1#10)].
Definition auto_kw (period : Z) : kwargs :=
  mkKw 3 3 false true (Some period) SIgnore (Some auto_weights) None.

Definition refup (l : list (option Qc)) : res fup :=
  make_fup (Some (map Z.of_nat (known_indices l))) (map Some (somes l)) default_maxlen.

(** fill_up.py:248-272, the body of the try block *)
Definition auto_body (f : fup) (period : Z) : res (list (option Qc)) :=
  if (period >? 1)%Z then
    do s <- scatter_fill_up f period;
    do p1 <- refup s;
    do l1 <- (if f_need p1 then
                do r <- step_by_step_fill_up p1 MWeightedAvg (Some ENone) (auto_kw period);
                match r with Some (l, _) => Ok l | None => Err TypeErr end
              else Ok (map Some (somes s)));
    do p2 <- refup l1;
    if f_need p2 then
      do r <- entire_fill_up p2 MLinear ERaise (auto_kw period);
      match r with Some (l, _) => Ok l | None => Err TypeErr end
    else Ok (map Some (somes l1))
  else
    do l <- linear_entire (f_values f) (f_indices f) (range (f_all f));
    Ok (map Some l).

(** fill_up.py:246-282 *)
Definition auto_fill_up (f : fup) (em : exc_mode) (period : Z) (kw : kwargs) : res filled :=
  match auto_body f period with
  | Ok l => Ok (Some (l, f_tags f))
  | Err e =>
      match em with
      | ERaise => Err e
      | ENone => Ok (Some (values_to_fill f, f_tags f))
      | ELast => step_by_step_fill_up f MLast None kw
      end
  end.

Inductive method :=
| Auto | Entire (m : entire_method) | Step (m : step_method) | Unknown.

(** fill_up.py:146-204. [k_period] is the period argument (None: absent or
    None); it is replaced by max(period, 1). *)
Definition fill_up (f : fup) (m : method) (em : exc_mode) (kw : kwargs) : res filled :=
  if negb (f_need f) then Ok None else
  do p <- (match k_period kw with
           | None => Ok 1%Z
           | Some p => if (p <? 0)%Z then Err ValueErr else Ok (Z.max p 1)
           end);
  let kw' := mkKw (k_bn kw) (k_fn kw) (k_lev kw) (k_cp kw) (Some p) (k_short kw)
                  (k_weights kw) (k_number kw) in
  match m with
  | Auto => auto_fill_up f em p kw'
  | Entire em' => entire_fill_up f em' em kw'
  | Step s => step_by_step_fill_up f s (Some em) kw'
  | Unknown => Err NotImplErr
  end.

(** util/enum.py FillUpMode (the members reachable from the API). *)
Inductive fill_mode := FMNo | FMPrevious | FMUseLast | FMFixed | FMZero | FMLinear | FMAuto.

Definition plain_kw (period : option Z) (number : option Qc) : kwargs :=
  mkKw 0 0 false false period STryBest None number.

(** series_compete_processor.py:9-18 (default if_exception is 'raise', default
    if_short_of_knowledge is 'try_best'). *)
Definition fill_up_on_demand (f : fup) (mode : fill_mode) (fixed : option Qc)
    (period : option Z) : res filled :=
  match mode with
  | FMPrevious | FMUseLast => fill_up f (Step MLast) ERaise (plain_kw None None)
  | FMFixed => fill_up f (Step MConstant) ERaise (plain_kw None fixed)
  | FMLinear => fill_up f (Entire MLinear) ERaise (plain_kw None None)
  | FMAuto => fill_up f Auto ELast (plain_kw period None)
  | FMNo | FMZero => Ok None
  end.
End Spline.
