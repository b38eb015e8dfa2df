(** Model of /repo/src/anomaly_detector/univariate/_anomaly_kernel_cython.pyx
    and of the ESD detector built on it
    (/repo/src/anomaly_detector/univariate/detectors/esd_filter.py).

    C floats are exact rationals unless a rounding function is mentioned.
    Memoryviews are lists; reading outside of a list is [Err IndexErr]. *)
From Coq Require Import List Arith ZArith Lia Bool.
From Verif Require Import Base Num Sorting.
Import ListNotations.
Open Scope nat_scope.

Definition get {A} (l : list A) (i : nat) : res A :=
  match nth_error l i with Some x => Ok x | None => Err IndexErr end.

(** pyx:13-28, the two-element exchange. *)
Definition swap (l : list Qc) (i j : nat) : res (list Qc) :=
  do x <- get l i; do y <- get l j; Ok (upd (upd l i y) j x).

(** pyx:18-27. [rs1] is right_store_index + 1 (so that it stays a natural
    number), [li] is left_index. *)
Fixpoint partition_loop (fuel : nat) (data : list Qc) (pv : Qc) (li i rs1 : nat)
  : res (list Qc * nat * nat) :=
  if negb (i <? rs1) then Ok (data, li, rs1) else
  match fuel with
  | O => Err OutOfFuel
  | S k =>
      do x <- get data i;
      if (x <? pv)%Qc then
        do d <- swap data li i; partition_loop k d pv (S li) (S i) rs1
      else if (pv <? x)%Qc then
        do d <- swap data (rs1 - 1) i; partition_loop k d pv li i (rs1 - 1)
      else partition_loop k data pv li (S i) rs1
  end.

(** pyx:13-28; [right] is inclusive. *)
Definition partition (data : list Qc) (left right pivot : nat) : res (list Qc * nat) :=
  do pv <- get data pivot;
  do r <- partition_loop (S right - left) data pv left left (S right);
  let '(d, li, rs1) := r in
  Ok (d, (li + rs1 - 1) / 2).

(** pyx:30-43. [rnd] is the stream of rand() results, consumed from its head. *)
Fixpoint select (fuel : nat) (rnd : nat -> nat) (data : list Qc) (left right n : nat)
  : res (Qc * list Qc) :=
  if left =? right then do v <- get data left; Ok (v, data) else
  match fuel with
  | O => Err OutOfFuel
  | S k =>
      let pivot := rnd 0 mod (right - left + 1) + left in
      do r <- partition data left right pivot;
      let '(d, p) := r in
      if n =? p then do v <- get d n; Ok (v, d)
      else if n <? p then select k (fun t => rnd (S t)) d left (p - 1) n
      else select k (fun t => rnd (S t)) d (p + 1) right n
  end.

(** pyx:46-47. The length is positive: for an empty list rand() % 0. *)
Definition quick_select (rnd : nat -> nat) (data : list Qc) (k : nat) : res (Qc * list Qc) :=
  match data, k with
  | [], _ | _, O => Err IndexErr
  | _, S n => select (length data) rnd data 0 (length data - 1) n
  end.

(** pyx:49-54; the second call sees the data as left by the first one. *)
Definition fast_median (rnd1 rnd2 : nat -> nat) (table : list Qc) : res Qc :=
  let n := length table in
  if n mod 2 =? 1 then do r <- quick_select rnd1 table (n / 2 + 1); Ok (fst r)
  else
    do r1 <- quick_select rnd1 table (n / 2);
    do r2 <- quick_select rnd2 (snd r1) (n / 2 + 1);
    Ok ((fst r1 + fst r2) / Q2Qc 2)%Qc.

(** pyx:64-73, for i <= j. *)
Definition sorted_median (data : list Qc) (i j : nat) : res Qc :=
  let n := j - i in
  if n =? 0 then Err Generic
  else if n mod 2 =? 1 then get data (i + n / 2)
  else
    let mid := i + n / 2 in
    do x <- get data (mid - 1); do y <- get data mid; Ok ((x + y) / Q2Qc 2)%Qc.

(** np.fabs(l[i] - median) *)
Definition dev_at (l : list Qc) (i : nat) (median : Qc) : res Qc :=
  do x <- get l i; Ok (Qcabs (x - median)).
(** the same for l[i-1] *)
Definition dev_before (l : list Qc) (i : nat) (median : Qc) : res Qc :=
  match i with O => Err IndexErr | S k => dev_at l k median end.

(** pyx:91-109, the branch "i is perfect". *)
Definition fm_found (a b : list Qc) (median : Qc) (i j : nat) : res Qc :=
  let m := length a in
  let n := length b in
  do max_of_left <-
    (if i =? 0 then dev_before b j median
     else if j =? 0 then dev_before a i median
     else do x <- dev_before a i median; do y <- dev_before b j median; Ok (Qcmax x y));
  if (m + n) mod 2 =? 1 then Ok max_of_left else
  do min_of_right <-
    (if i =? m then dev_at b j median
     else if j =? n then dev_at a i median
     else do x <- dev_at a i median; do y <- dev_at b j median; Ok (Qcmin x y));
  Ok ((max_of_left + min_of_right) / Q2Qc 2)%Qc.

(** pyx:81-90. Leaving the loop without a return is [Err Generic]. *)
Fixpoint fm_loop (fuel : nat) (a b : list Qc) (median : Qc) (half imin imax : nat) : res Qc :=
  if negb (imin <=? imax) then Err Generic else
  match fuel with
  | O => Err OutOfFuel
  | S k =>
      let i := (imin + imax) / 2 in
      if half <? i then Err IndexErr else
      let j := half - i in
      do too_small <- (if i <? length a then
                         do x <- dev_before b j median; do y <- dev_at a i median; Ok (y <? x)%Qc
                       else Ok false);
      if too_small : bool then fm_loop k a b median half (S i) imax else
      do too_big <- (if 0 <? i then
                       do x <- dev_before a i median; do y <- dev_at b j median; Ok (y <? x)%Qc
                     else Ok false);
      if too_big : bool then fm_loop k a b median half imin (i - 1)
      else fm_found a b median i j
  end.

(** pyx:75-109 *)
Definition find_median_sorted_arrays (a b : list Qc) (median : Qc) : res Qc :=
  fm_loop (S (length a)) a b median ((length a + length b + 1) / 2) 0 (length a).

(** cdef float EPS = 1e-8 *)
Definition kernel_eps : Qc := Q2Qc (1 # 100000000).

(** pyx:111-121 *)
Definition check_anomaly_status (median_value data_sigma value threshold : Qc) (upper : bool) : bool :=
  let d := (if upper then value - median_value else median_value - value)%Qc in
  let s := if (data_sigma <? kernel_eps)%Qc then kernel_eps else data_sigma in
  (threshold <? d / s)%Qc.

Section Tests.
(** Gaussian.ppf(3/4) and np.std. *)
Variable cst : Qc.
Variable std : list Qc -> Qc.

(** pyx:140-149 / 175-184: the test of position [k]. *)
Definition tail_test (values : list Qc) (upper : bool) (k : nat) (threshold : Qc) : res bool :=
  let length := length values in
  do med <- sorted_median values k length;
  do mad <- find_median_sorted_arrays
              (slice (rev values) (length - k - (length - k) / 2) (length - k))
              (skipn (k + (length - k) / 2) values) med;
  do v <- get values k;
  Ok (check_anomaly_status med (mad / cst) v threshold upper ||
      check_anomaly_status (qmean (slice values k length)) (std (slice values k length)) v threshold upper).

(** The for loop; [ks] are the positions still to visit, [last] is
    last_index != -1, the result is num_anoms. *)
Fixpoint tail_loop (values : list Qc) (upper last : bool) (thr : nat -> res Qc)
    (ks : list nat) (num : Z) : res Z :=
  match ks with
  | [] => Ok num
  | k :: t =>
      do c <- thr k;
      do s <- tail_test values upper k c;
      if (s : bool) then
        if last then Ok (Z.of_nat k) else tail_loop values upper last thr t (Z.of_nat k)
      else tail_loop values upper last thr t num
  end.

Definition tail_select (values : list Qc) (index : list nat) (maxo : nat) (thr : nat -> res Qc)
    (upper : bool) (last_index : option nat) : res (list nat) :=
  let start := match last_index with Some s => s | None => 0 end in
  let last := match last_index with Some _ => true | None => false end in
  do num <- tail_loop values upper last thr (seq start (maxo - start)) (-1);
  Ok (firstn (Z.to_nat (num + 1)) index).

(** pyx:124-157 *)
Definition dynamic_threshold (values : list Qc) (index : list nat) (maxo : nat) (threshold : Qc)
    (upper : bool) (last_index : option nat) : res (list nat) :=
  tail_select values index maxo (fun _ => Ok threshold) upper last_index.

(** pyx:160-191 *)
Definition generalized_esd_test (values : list Qc) (index : list nat) (maxo : nat)
    (critical : list Qc) (upper : bool) (last_index : option nat) : res (list nat) :=
  tail_select values index maxo (get critical) upper last_index.

(** util EPS = 1e-8 (util/fields.py). *)
Definition is_majority (m x : Qc) : bool := (Qcabs (x - m) <? kernel_eps)%Qc.

(** position of the last element satisfying [p] *)
Fixpoint last_pos {A} (p : A -> bool) (l : list A) : option nat :=
  match l with
  | [] => None
  | x :: t => match last_pos p t with
              | Some k => Some (S k)
              | None => if p x then Some 0 else None
              end
  end.
Fixpoint first_pos {A} (p : A -> bool) (l : list A) : option nat :=
  match l with
  | [] => None
  | x :: t => if p x then Some 0 else option_map S (first_pos p t)
  end.

(** esd_filter.py:20-50. [series] are the (label, value) pairs in ascending
    value order; [critical n m] is get_critical(alpha, n, m); a StopIteration
    of the generator is [Err Generic]. *)
Definition esd_detect (critical : nat -> nat -> list Qc) (series : list (nat * Qc)) (maxo : nat)
    (majority : option Qc) (upper last : bool) : res (list nat) :=
  let data := if upper then rev series else series in
  do data <- (match majority with
              | None => Ok data
              | Some m => match last_pos (fun p => is_majority m (snd p)) data with
                          | Some i => Ok (firstn (S i) data)
                          | None => Err Generic
                          end
              end);
  let crit := match majority with
              | None => critical (length series) maxo
              | Some _ => critical (length data) maxo
              end in
  if last then
    let label := fold_left Nat.max (map fst series) 0 in
    match first_pos (fun p => fst p =? label) data with
    | None => Ok []
    | Some li => generalized_esd_test (map snd data) (map fst data) maxo crit upper (Some li)
    end
  else generalized_esd_test (map snd data) (map fst data) maxo crit upper None.

(** dynamic_filter.py:16-34 *)
Definition dynamic_detect (series : list (nat * Qc)) (maxo : nat) (threshold : Qc)
    (upper last : bool) : res (list nat) :=
  let data := if upper then rev series else series in
  let li := if last then first_pos (fun p => fst p =? fold_left Nat.max (map fst data) 0) data
            else None in
  dynamic_threshold (map snd data) (map fst data) maxo threshold upper li.
End Tests.

(** pyx:207-229. The three accumulators of the first loop, by phase. *)
Fixpoint gcv_loop (vs : list Qc) (i period idx : nat) (sy sy2 : list Qc) (cyc : list nat)
  : res (list Qc * list Qc * list nat) :=
  match vs with
  | [] => Ok (sy, sy2, cyc)
  | v :: t =>
      do s <- get sy idx; do s2 <- get sy2 idx; do c <- get cyc idx;
      gcv_loop t (S i) period (S i mod period)
               (upd sy idx (s + v)%Qc) (upd sy2 idx (s2 + v * v)%Qc) (upd cyc idx (S c))
  end.
(** the second loop: ZeroDivisionError for a phase with 0 or 1 points *)
Fixpoint gcv_sum (sy sy2 : list Qc) (cyc : list nat) : res (list Qc * Qc) :=
  match sy, sy2, cyc with
  | s :: sy', s2 :: sy2', c :: cyc' =>
      if (c =? 0) || (c =? 1) then Err ZeroDiv else
      do r <- gcv_sum sy' sy2' cyc';
      let w := (qn c / (qn c - 1))%Qc in
      Ok ((s / qn c)%Qc :: fst r, (w * w * (s2 - s * s / qn c) + snd r)%Qc)
  | _, _, _ => Ok ([], 0%Qc)
  end.
(** np.isclose(x, 0.0): |x| <= 1e-8 *)
Definition close_to_zero (x : Qc) : bool := (Qcabs x <=? Q2Qc (1 # 100000000))%Qc.
Definition gcv (data : list Qc) (period : nat) : res (Qc * list Qc) :=
  match period with
  | O => Err IndexErr   (* sum_y[0] of an empty array, for non-empty data *)
  | _ =>
    do r <- gcv_loop data 0 period 0 (repeat 0%Qc period) (repeat 0%Qc period) (repeat 0 period);
    let '(sy, sy2, cyc) := r in
    do r2 <- gcv_sum sy sy2 cyc;
    let mse := (snd r2 / qn (length data))%Qc in
    Ok (if close_to_zero mse then 0%Qc else mse, fst r2)
  end.

(** pyx:193-205; [None] is the initial (inf, uninitialised array). *)
Fixpoint max_gcv_loop (data : list Qc) (periods : list nat) (best : option (Qc * list Qc))
  : res (option (Qc * list Qc)) :=
  match periods with
  | [] => Ok best
  | p :: t =>
      do r <- gcv data p;
      max_gcv_loop data t
        (match best with
         | None => Some r
         | Some b => if (fst r <? fst b)%Qc then Some r else Some b
         end)
  end.
Definition max_gcv (data : list Qc) (periods : list nat) := max_gcv_loop data periods None.

(** bisect.bisect_right on a list (the stdlib loop). *)
Fixpoint bisect_right_loop (fuel : nat) (l : list Qc) (x : Qc) (lo hi : nat) : res nat :=
  if negb (lo <? hi) then Ok lo else
  match fuel with
  | O => Err OutOfFuel
  | S k =>
      let mid := (lo + hi) / 2 in
      do y <- get l mid;
      if (x <? y)%Qc then bisect_right_loop k l x lo mid
      else bisect_right_loop k l x (S mid) hi
  end.
Definition bisect_right (l : list Qc) (x : Qc) : res nat :=
  bisect_right_loop (length l) l x 0 (length l).

(** pyx:246-248, 263-265: while index > add_id: cur[index] = cur[index-1]; index -= 1 *)
Fixpoint shift_up (l : list Qc) (index add : nat) : res (list Qc) :=
  if add <? index then
    match index with
    | O => Ok l
    | S k => do x <- get l k; shift_up (upd l index x) k add
    end
  else Ok l.
(** pyx:256-258, 272-274: while index < top: cur[index] = cur[index+1]; index += 1;
    [n] steps. *)
Fixpoint shift_down (l : list Qc) (index n : nat) : res (list Qc) :=
  match n with
  | O => Ok l
  | S k => do x <- get l (S index); shift_down (upd l index x) (S index) k
  end.

Section MedianFilter.
(** Rounding of a double to a C float. *)
Variable r32 : Qc -> Qc.

(** insertion of [x] (compared as [key]) into the sorted prefix of length [len] *)
Definition win_insert (cur : list Qc) (len : nat) (key x : Qc) : res (list Qc) :=
  do add <- bisect_right (firstn len cur) key;
  do c <- shift_up cur len add;
  Ok (upd c add x).
(** removal from the sorted prefix of length [len]; the position -1 (nothing
    <= key) wraps around in Cython: the first element is written to the last
    slot of the whole buffer before everything is shifted down. *)
Definition win_delete (cur : list Qc) (len : nat) (key : Qc) : res (list Qc) :=
  do pos <- bisect_right (firstn len cur) key;
  match pos with
  | O => (* index = -1: cur[-1] = cur[0], then cur[0] = cur[1], ... *)
      do x <- get cur 0;
      shift_down (upd cur (length cur - 1) x) 0 (len - 1)
  | S d => shift_down cur d (len - 1 - d)
  end.

(** pyx:243-251 *)
Fixpoint mf_fill (data : list Qc) (h : nat) (two_end : bool) (is : list nat)
    (cur ans : list Qc) : res (list Qc * list Qc) :=
  match is with
  | [] => Ok (cur, ans)
  | i :: t =>
      do x <- get data i;
      do c <- win_insert cur i (r32 x) (r32 x);
      do a <- (if (h <=? i) && two_end then
                 do m <- sorted_median c 0 (S i); Ok (upd ans (i - h) (r32 m))
               else Ok ans);
      mf_fill data h two_end t c a
  end.
(** pyx:253-268 *)
Fixpoint mf_slide (data : list Qc) (h : nat) (is : list nat) (cur ans : list Qc)
  : res (list Qc * list Qc) :=
  match is with
  | [] => Ok (cur, ans)
  | i :: t =>
      do old <- get data (i - h - 1);
      do c <- win_delete cur (2 * h + 1) (r32 old);
      do new <- get data (i + h);
      do c <- win_insert c (2 * h) (r32 new) (r32 new);
      do m <- sorted_median c 0 (2 * h + 1);
      mf_slide data h t c (upd ans i (r32 m))
  end.
(** pyx:270-276; note that the deleted value is the unrounded double. *)
Fixpoint mf_tail (data : list Qc) (h : nat) (is : list nat) (w_len : nat) (cur ans : list Qc)
  : res (list Qc) :=
  match is with
  | [] => Ok ans
  | i :: t =>
      do old <- get data (i - h - 1);
      do c <- win_delete cur w_len old;
      let w := w_len - 1 in
      do m <- sorted_median c 0 w;
      mf_tail data h t w c (upd ans i (r32 m))
  end.

(** pyx:231-278, for window >= 0; h = window // 2. *)
Definition median_filter (data : list Qc) (window : nat) (two_end : bool) : res (list Qc) :=
  let h := window / 2 in
  let w_len := 2 * h + 1 in
  let t_len := length data in
  let val := map r32 data in
  if t_len <? w_len then Ok val else
  do s1 <- mf_fill data h two_end (range w_len) (repeat 0%Qc w_len) val;
  let '(cur, ans) := s1 in
  do m <- sorted_median cur 0 w_len;
  do s2 <- mf_slide data h (seq (S h) (t_len - h - S h)) cur (upd ans h (r32 m));
  let '(cur, ans) := s2 in
  if two_end then mf_tail data h (seq (t_len - h) h) w_len cur ans else Ok ans.
End MedianFilter.

(** values[i::period] *)
Fixpoint phase (values : list Qc) (i period : nat) : list Qc :=
  match values with
  | [] => []
  | x :: t => match i with
              | O => x :: phase t (period - 1) period
              | S k => phase t k period
              end
  end.

(** pyx:339-350; [rnd] supplies the pivots of the k-th median call. *)
Definition bucket_step (rnd : nat -> nat -> nat) (values : list Qc) (i period : nat)
  : res (list Qc) :=
  let sub := phase values i period in
  do median <- fast_median (rnd 0) (rnd 1) sub;
  let devs := map (fun x => x - median)%Qc sub in
  do mm <- fast_median (rnd 2) (rnd 3) devs;
  let mad := (Q2Qc (14826 # 10000) * mm + Q2Qc (1 # 100000000))%Qc in
  let spikes := filter (fun k => (Q2Qc 3 <=? nth k devs 0 / mad)%Qc) (range (length devs)) in
  Ok (fold_left (fun vs k => upd vs (k * period + i) median) spikes values).
Fixpoint bucket_loop (rnd : nat -> nat -> nat -> nat) (values : list Qc) (is : list nat) (period : nat)
  : res (list Qc) :=
  match is with
  | [] => Ok values
  | i :: t => do vs <- bucket_step (rnd i) values i period; bucket_loop rnd vs t period
  end.
Definition remove_anomaly_in_bucket (rnd : nat -> nat -> nat -> nat) (values : list Qc) (period : nat) :=
  bucket_loop rnd values (range period) period.
