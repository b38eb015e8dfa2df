(** Specifications at the level of fit and predict of the multivariate
    detector. *)
From Coq Require Import String List Arith ZArith Lia Bool Permutation Sorted.
From Verif Require Import Base Num Helpers_spec Mv_model Mv_state Mv_spec.
Import ListNotations.
Open Scope nat_scope.

(** [x] may stand at row [p] of the column [col] after filling. *)
Definition fill_value (m : fill_method) (value : Qc) (col : list (option Qc)) (p : nat) (x : Qc) : Prop :=
  observed col p x \/
  (nth_error col p = Some None /\
   match m with
   | FPrevious => from_before col p x \/ (none_before col p /\ from_after col p x) \/ (none_at_all col /\ x = 0%Qc)
   | FSubsequent => from_after col p x \/ (none_after col p /\ from_before col p x) \/ (none_at_all col /\ x = 0%Qc)
   | FLinear => is_interpolant col p x \/ (none_at_all col /\ x = 0%Qc)
   | FFixed => x = value
   | FZero => x = 0%Qc
   end).

(** The fill settings a parameter dictionary asks for. *)
Definition method_name (m : fill_method) : string :=
  match m with
  | FPrevious => "Previous" | FSubsequent => "Subsequent" | FLinear => "Linear"
  | FZero => "Zero" | FFixed => "Fixed"
  end.
Definition asks (params : dict) (m : fill_method) (value : Qc) : Prop :=
  ((dget "fill_na_method" params = None /\ m = FLinear) \/ dget "fill_na_method" params = Some (PStr (method_name m))) /\
  ((dget "fill_na_value" params = None /\ value = 0%Qc) \/ dget "fill_na_value" params = Some (PFloat value)).

(** [col'] is [col] with its rows taken in the given order. *)
Definition reordered {A} (order : list nat) (col col' : list A) : Prop :=
  length col' = length order /\
  forall r i, nth_error order r = Some i -> nth_error col' r = nth_error col i.

(** Every column has one cell per label. *)
Definition rectangular (data : frame) : Prop :=
  forall name col, In (name, col) (f_cols data) -> length col = length (f_index data).

(** [variables] and [rows]: the data of a frame with its columns in name order,
    its rows in the order [order], and missing cells filled. *)
Definition prepared (order : list nat) (m : fill_method) (value : Qc) (data : frame)
  (variables : list string) (rows : list (list Qc)) : Prop :=
  length rows = length (f_index data) /\ width (length variables) rows /\
  exists cols, Permutation cols (f_cols data) /\ variables = map fst cols /\
    StronglySorted (fun a b => String.leb a b = true) variables /\
    forall r j name col row x, nth_error cols j = Some (name, col) -> nth_error rows r = Some row ->
      nth_error row j = Some x ->
      exists col', reordered order col col' /\ fill_value m value col' r x.

(** The errors of row [q] when it is predicted from the [input] rows before it,
    and its score: their mean. *)
Definition row_terms (prediction : list (list Qc) -> list Qc) (gap : Qc -> Qc) (mn mx pct : list Qc)
  (input : nat) (rows : list (list Qc)) (q : nat) (c : list Qc) : Prop :=
  input <= q /\ exists x t y,
    scaled_rows (Q2Qc (-1000)) (Q2Qc 1000) mn mx (slice rows (q - input) q) x /\
    nth_error rows q = Some t /\ scaled_row (Q2Qc (-1000)) (Q2Qc 1000) mn mx t y /\
    error_terms gap (prediction x) y pct c.
Definition row_error (prediction : list (list Qc) -> list Qc) (gap : Qc -> Qc) (mn mx pct : list Qc)
  (input : nat) (rows : list (list Qc)) (q : nat) (s : Qc) : Prop :=
  exists c, row_terms prediction gap mn mx pct input rows q c /\ s = (qsum c / qn (length c))%Qc.

(** The decision rule for a score [s] compared with an adaptive threshold [t]. *)
Definition flagged (th s t : Qc) : Prop :=
  ((t <= s /\ (Q2Qc (3 # 10) <= s \/ th <= s)) \/ (Q2Qc (1 # 2) < s /\ th < s))%Qc.

Definition cell (m : mat) (i j : nat) : Qc := nth j (nth i m []) 0%Qc.

(** [ch] lists the largest changes of [row], with the names of the variables. *)
Definition largest_changes (variables : list string) (row : list Qc) (ch : list (string * Qc)) : Prop :=
  let limit := Qcmin (Q2Qc (1 # 1000)) (1 / (Q2Qc (125 # 100) * qn (length variables)))%Qc in
  exists ks, Forall2 (fun k nv => nth_error variables k = Some (fst nv) /\ nth_error row k = Some (snd nv)) ks ch /\
    NoDup ks /\ length ks <= 10 /\
    (forall k x, In k ks -> nth_error row k = Some x -> limit < Qcabs x)%Qc /\
    (forall i j x y, i < j -> nth_error ch i = Some x -> nth_error ch j = Some y ->
       (Qcabs (snd y) <= Qcabs (snd x))%Qc) /\
    (forall k x, ~ In k ks -> nth_error row k = Some x -> (limit < Qcabs x)%Qc ->
       length ks = 10 /\ forall nv, In nv ch -> (Qcabs x <= Qcabs (snd nv))%Qc).

(** Epoch [j] among [lo..n-1] has the smallest loss and is the first such;
    [None] is NaN. *)
Definition first_best (loss : nat -> option Qc) (lo n j : nat) : Prop :=
  lo <= j < n /\ exists x, loss j = Some x /\
    (forall i y, lo <= i < j -> loss i = Some y -> (x < y)%Qc) /\
    (forall i y, j < i < n -> loss i = Some y -> (x <= y)%Qc).

(** Sum of numbers some of which may be NaN. *)
Fixpoint osum (l : list (option Qc)) : option Qc :=
  match l with
  | [] => Some 0%Qc
  | None :: _ => None
  | Some x :: t => match osum t with None => None | Some s => Some (x + s)%Qc end
  end.

(** The windows cut from [rows] to train or validate on. *)
Definition windows_of (rows : list (list Qc)) (input interval horizon : nat) (mn mx : list Qc) (lo hi : Qc)
  (samples : list (list (list Qc) * list Qc)) : Prop :=
  length samples = (length rows + 1 - horizon - input) / interval /\
  forall k x y, nth_error samples k = Some (x, y) ->
    input + k * interval + horizon <= length rows /\
    scaled_rows lo hi mn mx (slice rows (k * interval) (k * interval + input)) x /\
    exists t, nth_error rows (k * interval + input + horizon - 1) = Some t /\ scaled_row lo hi mn mx t y.

(** Consecutive groups of [b] elements. *)
Definition grouped {A} (b : nat) (l : list A) (groups : list (list A)) : Prop :=
  concat groups = l /\ forall i g, nth_error groups i = Some g ->
    0 < length g <= b /\ (S i < length groups -> length g = b).
Definition grouped_full {A} (b : nat) (l : list A) (groups : list (list A)) : Prop :=
  concat groups = firstn (length l / b * b) l /\ Forall (fun g => length g = b) groups.

(** Column extrema. *)
Definition column_extreme (better : Qc -> Qc -> Prop) (rows : list (list Qc)) (j : nat) (v : Qc) : Prop :=
  (exists r, In r rows /\ nth_error r j = Some v) /\
  forall r x, In r rows -> nth_error r j = Some x -> better v x.

(** The value of an optional numeric parameter. *)
Definition setting (k : string) (default : nat) (params : dict) (n : nat) : Prop :=
  (dget k params = None /\ n = default) \/ dget k params = Some (PInt (Z.of_nat n)).
Definition share_setting (k : string) (default : Qc) (params : dict) (r : Qc) : Prop :=
  (dget k params = None /\ r = default) \/ dget k params = Some (PFloat r) \/
  exists z, dget k params = Some (PInt z) /\ r = qz z.
(** [k] is the whole part of [r] times [n]. *)
Definition share (n : nat) (r : Qc) (k : nat) : Prop := (qn k <= qn n * r /\ qn n * r < qn k + 1)%Qc.
