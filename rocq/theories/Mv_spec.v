(** Specifications for the multivariate detector: small definitions that do not
    mention the modelled code. *)
From Coq Require Import String List Arith ZArith Lia Bool Permutation Sorted.
From Verif Require Import Base Num Helpers_spec.
Import ListNotations.
Open Scope nat_scope.

(** [t] is the element of [l] with rank [k] (0 = smallest). *)
Definition count {A} (p : A -> bool) (l : list A) : nat := length (filter p l).
Definition has_rank (l : list Qc) (k : nat) (t : Qc) : Prop :=
  In t l /\ count (fun x => x <? t)%Qc l <= k /\ k < count (fun x => x <=? t)%Qc l.

(** [y] is [x] cut to [lo, hi]. *)
Definition cut_to (lo hi x y : Qc) : Prop :=
  ((x < lo -> y = lo) /\ (hi < x -> y = hi) /\ (lo <= x -> x <= hi -> y = x))%Qc.
(** One normalised row. *)
Definition scaled_row (lo hi : Qc) (mn mx raw out : list Qc) : Prop :=
  length out = length raw /\
  forall j x a b y, nth_error raw j = Some x -> nth_error mn j = Some a -> nth_error mx j = Some b ->
    nth_error out j = Some y -> cut_to lo hi ((x - a) / (b - a + Q2Qc (1 # 100000000)))%Qc y.
Definition scaled_rows (lo hi : Qc) (mn mx : list Qc) (raw out : list (list Qc)) : Prop :=
  Forall2 (scaled_row lo hi mn mx) raw out.

(** Rectangular data: every row has [d] cells. *)
Definition width {A} (d : nat) (rows : list (list A)) : Prop := Forall (fun r => length r = d) rows.

(** What the fill methods promise for the cell at row [p]. *)
Definition observed (col : list (option Qc)) (p : nat) (v : Qc) : Prop := nth_error col p = Some (Some v).
Definition from_before (col : list (option Qc)) (p : nat) (v : Qc) : Prop :=
  exists q, q < p /\ observed col q v /\ forall k w, q < k <= p -> ~ observed col k w.
Definition from_after (col : list (option Qc)) (p : nat) (v : Qc) : Prop :=
  exists q, p < q /\ observed col q v /\ forall k w, p <= k < q -> ~ observed col k w.
Definition none_before (col : list (option Qc)) (p : nat) : Prop := forall k w, k <= p -> ~ observed col k w.
Definition none_after (col : list (option Qc)) (p : nat) : Prop := forall k w, p <= k -> ~ observed col k w.
Definition none_at_all (col : list (option Qc)) : Prop := forall k w, ~ observed col k w.

(** [order] lists the positions of [l] in decreasing order of value. *)
Definition decreasing_order (l : list Qc) (order : list nat) : Prop :=
  Permutation order (seq 0 (length l)) /\
  forall i j a b x y, i < j -> nth_error order i = Some a -> nth_error order j = Some b ->
    nth_error l a = Some x -> nth_error l b = Some y -> (y <= x)%Qc.
(** [order] lists the positions of [l] in increasing order of label; pandas
    returns a frame whose index is already increasing unchanged. *)
Definition increasing_order (l : list Z) (order : list nat) : Prop :=
  Permutation order (seq 0 (length l)) /\
  (forall i j a b x y, i < j -> nth_error order i = Some a -> nth_error order j = Some b ->
    nth_error l a = Some x -> nth_error l b = Some y -> (x <= y)%Z) /\
  (StronglySorted Z.le l -> order = seq 0 (length l)).

(** The weighted error of every variable, and their mean. *)
Definition error_terms (gap : Qc -> Qc) (pred target pct c : list Qc) : Prop :=
  length pred = length target /\ length pct = length target /\ length c = length target /\
  forall j p t w x, nth_error pred j = Some p -> nth_error target j = Some t -> nth_error pct j = Some w ->
    nth_error c j = Some x -> x = (gap (p - t) * w)%Qc.
Definition weighted_error (gap : Qc -> Qc) (pred target pct : list Qc) (s : Qc) : Prop :=
  exists c, error_terms gap pred target pct c /\ s = (qsum c / qn (length target))%Qc.

(** Variability of a column, in terms of neighbouring rows. *)
Definition eps4 : Qc := Q2Qc (1 # 10000).
(** Neighbouring values within a factor 2.9 of each other. *)
Definition calm (col : list (option Qc)) : Prop :=
  forall r a b, nth_error col r = Some (Some a) -> nth_error col (r + 1) = Some (Some b) ->
    (0 < a + eps4 /\ 0 < b + eps4 /\
     a + eps4 <= Q2Qc (29 # 10) * (b + eps4) /\ b + eps4 <= Q2Qc (29 # 10) * (a + eps4))%Qc.
(** A row next to one that is more than 2.9 times as large. *)
Definition spike (col : list (option Qc)) (r : nat) : Prop :=
  exists q a b, (q + 1 = r \/ q = r + 1) /\ nth_error col q = Some (Some a) /\ nth_error col r = Some (Some b) /\
    (0 < b + eps4 /\ Q2Qc (29 # 10) * (b + eps4) < a + eps4)%Qc.
Definition positive_col (col : list (option Qc)) : Prop :=
  forall r, r < length col -> exists b, nth_error col r = Some (Some b) /\ (0 < b + eps4)%Qc.
(** In every stretch of [w] interior rows there is a spike. *)
Definition spiky (w : nat) (col : list (option Qc)) : Prop :=
  positive_col col /\ w + 2 <= length col /\
  forall s, 0 < s -> s + w < length col -> exists r, s <= r < s + w /\ spike col r.
