(** The outlier tests of
    /repo/src/anomaly_detector/univariate/_anomaly_kernel_cython.pyx (lines 7-11
    and 64-191) in the arithmetic the compiled code uses: every value, median,
    spread and threshold is a C float, and each operation on them rounds.

    Numbers are exact rationals; a C float is a rational on which rounding has
    no effect. Overflow is not modelled (values lie in [0, 1], spreads are at
    least 1e-8, so no result of a float operation exceeds 1e9). *)
From Coq Require Import List Arith ZArith Lia Bool.
From Verif Require Import Base Num Sorting Kernel_model.
Import ListNotations.
Open Scope nat_scope.

(** * Rounding to nearest, ties to even (IEEE 754)
    with [prec] significant bits and least exponent [emin]. *)

(** The integer nearest to n/d. *)
Definition half_even (n d : Z) : Z :=
  let f := (n / d)%Z in
  match (2 * (n - f * d) ?= d)%Z with
  | Lt => f
  | Gt => (f + 1)%Z
  | Eq => if Z.even f then f else (f + 1)%Z
  end.

(** The e with 2^(e-1) <= n/d < 2^e. *)
Definition binade (n d : Z) : Z :=
  let k := (Z.log2 n - Z.log2 d)%Z in
  if (if 0 <=? k then d * 2 ^ k <=? n else d <=? n * 2 ^ (- k))%Z then (k + 1)%Z else k.

Definition rne (prec emin : Z) (x : Qc) : Qc :=
  let n := Qnum (this x) in
  let d := Zpos (Qden (this x)) in
  if (n =? 0)%Z then 0%Qc else
  let e := Z.max (binade (Z.abs n) d - prec) emin in
  if (0 <=? e)%Z then (qz (half_even n (d * 2 ^ e)) * qz (2 ^ e))%Qc
  else (qz (half_even (n * 2 ^ (- e)) d) / qz (2 ^ (- e)))%Qc.

(** C float and C double. *)
Definition single : Qc -> Qc := rne 24 (-149).
Definition double : Qc -> Qc := rne 53 (-1074).

Section Rounded.
(** Rounding to float and to double. *)
Variables r rd : Qc -> Qc.

(** pyx:64-73: float + float and float / 2 are float operations. *)
Definition sorted_median32 (data : list Qc) (i j : nat) : res Qc :=
  let n := j - i in
  if n =? 0 then Err Generic
  else if n mod 2 =? 1 then get data (i + n / 2)
  else
    let mid := i + n / 2 in
    do x <- get data (mid - 1); do y <- get data mid; Ok (r (r (x + y) / Q2Qc 2))%Qc.

(** np.fabs(l[i] - median): the difference of two floats is a float. *)
Definition dev_at32 (l : list Qc) (i : nat) (median : Qc) : res Qc :=
  do x <- get l i; Ok (Qcabs (r (x - median))).
Definition dev_before32 (l : list Qc) (i : nat) (median : Qc) : res Qc :=
  match i with O => Err IndexErr | S k => dev_at32 l k median end.

(** pyx:91-109. np.fabs gives doubles, their mean is computed in doubles and
    rounded to float by the return. *)
Definition fm_found32 (a b : list Qc) (median : Qc) (i j : nat) : res Qc :=
  let m := length a in
  let n := length b in
  do max_of_left <-
    (if i =? 0 then dev_before32 b j median
     else if j =? 0 then dev_before32 a i median
     else do x <- dev_before32 a i median; do y <- dev_before32 b j median; Ok (Qcmax x y));
  if (m + n) mod 2 =? 1 then Ok (r max_of_left) else
  do min_of_right <-
    (if i =? m then dev_at32 b j median
     else if j =? n then dev_at32 a i median
     else do x <- dev_at32 a i median; do y <- dev_at32 b j median; Ok (Qcmin x y));
  Ok (r (rd (rd (max_of_left + min_of_right) / Q2Qc 2)))%Qc.

(** pyx:81-90 *)
Fixpoint fm_loop32 (fuel : nat) (a b : list Qc) (median : Qc) (half imin imax : nat) : res Qc :=
  if negb (imin <=? imax) then Err Generic else
  match fuel with
  | O => Err OutOfFuel
  | S k =>
      let i := (imin + imax) / 2 in
      if half <? i then Err IndexErr else
      let j := half - i in
      do too_small <- (if i <? length a then
                         do x <- dev_before32 b j median; do y <- dev_at32 a i median; Ok (y <? x)%Qc
                       else Ok false);
      if too_small : bool then fm_loop32 k a b median half (S i) imax else
      do too_big <- (if 0 <? i then
                       do x <- dev_before32 a i median; do y <- dev_at32 b j median; Ok (y <? x)%Qc
                     else Ok false);
      if too_big : bool then fm_loop32 k a b median half imin (i - 1)
      else fm_found32 a b median i j
  end.

(** pyx:75-109 *)
Definition find_median32 (a b : list Qc) (median : Qc) : res Qc :=
  fm_loop32 (S (length a)) a b median ((length a + length b + 1) / 2) 0 (length a).

(** pyx:111-121; EPS (pyx:11) is the float next to 1e-8. *)
Definition check_anomaly_status32 (median_value data_sigma value threshold : Qc) (upper : bool) : bool :=
  let d := r (if upper then value - median_value else median_value - value)%Qc in
  let eps := r kernel_eps in
  let s := if (data_sigma <? eps)%Qc then eps else data_sigma in
  (threshold <? r (d / s))%Qc.

(** Gaussian.ppf(3/4) as a double; np.mean and np.std of a float array. *)
Variable cst : Qc.
Variables mean32 std32 : list Qc -> Qc.

(** pyx:140-149 / 175-184. [values] are floats already; Constant (pyx:7) is
    the float next to [cst]. *)
Definition tail_test32 (values : list Qc) (upper : bool) (k : nat) (threshold : Qc) : res bool :=
  let length := length values in
  do med <- sorted_median32 values k length;
  do mad <- find_median32
              (slice (rev values) (length - k - (length - k) / 2) (length - k))
              (skipn (k + (length - k) / 2) values) med;
  do v <- get values k;
  Ok (check_anomaly_status32 med (r (mad / r cst)) v threshold upper ||
      check_anomaly_status32 (mean32 (slice values k length)) (std32 (slice values k length)) v threshold upper).

Fixpoint tail_loop32 (values : list Qc) (upper last : bool) (thr : nat -> res Qc)
    (ks : list nat) (num : Z) : res Z :=
  match ks with
  | [] => Ok num
  | k :: t =>
      do c <- thr k;
      do s <- tail_test32 values upper k (r c);
      if (s : bool) then
        if last then Ok (Z.of_nat k) else tail_loop32 values upper last thr t (Z.of_nat k)
      else tail_loop32 values upper last thr t num
  end.

(** pyx:135-136 / 167-168 turn the values into floats; reversing the list of
    doubles and then rounding is reversing the list of floats. *)
Definition tail_select32 (sorted_values : list Qc) (index : list nat) (maxo : nat) (thr : nat -> res Qc)
    (upper : bool) (last_index : option nat) : res (list nat) :=
  let values := map r sorted_values in
  let start := match last_index with Some s => s | None => 0 end in
  let last := match last_index with Some _ => true | None => false end in
  do num <- tail_loop32 values upper last thr (seq start (maxo - start)) (-1);
  Ok (firstn (Z.to_nat (num + 1)) index).

(** pyx:124-157 *)
Definition dynamic_threshold32 (values : list Qc) (index : list nat) (maxo : nat) (threshold : Qc)
    (upper : bool) (last_index : option nat) : res (list nat) :=
  tail_select32 values index maxo (fun _ => Ok threshold) upper last_index.

(** pyx:160-191 *)
Definition generalized_esd_test32 (values : list Qc) (index : list nat) (maxo : nat)
    (critical : list Qc) (upper : bool) (last_index : option nat) : res (list nat) :=
  tail_select32 values index maxo (get critical) upper last_index.
End Rounded.
