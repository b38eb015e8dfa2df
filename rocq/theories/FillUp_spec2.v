(** Specifications for the statistic fills and the gap listings. *)
From Coq Require Import List Arith ZArith QArith Qcanon Lia Bool Sorted Permutation.
From Verif Require Import Base Num FillUp_spec.
Import ListNotations.
Open Scope nat_scope.

(** [v] is the smallest / largest element, the mean, the median of [l]. *)
Inductive statistic := SMin | SMax | SMean | SMedian.
Definition is_statistic (s : statistic) (l : list Qc) (v : Qc) : Prop :=
  match s with
  | SMin => In v l /\ forall x, In x l -> (v <= x)%Qc
  | SMax => In v l /\ forall x, In x l -> (x <= v)%Qc
  | SMean => (v * qn (length l) = qsum l)%Qc
  | SMedian => exists s, Permutation s l /\ StronglySorted (fun x y => (x <= y)%Qc) s /\
      exists a b, nth_error s ((length l - 1) / 2) = Some a /\ nth_error s (length l / 2) = Some b /\
      (v + v = a + b)%Qc
  end.

(** The [n] nearest submitted values before / after position [p] at distances
    that are multiples of [P], nearest first. *)
Definition before (ix : list Z) (vs : list (option Qc)) (p P n : nat) : list Qc :=
  firstn n (values_at ix vs (positions_before p P)).
Definition after (ix : list Z) (vs : list (option Qc)) (p P n len : nat) : list Qc :=
  firstn n (values_at ix vs (positions_after p P len)).

(** Sum of [w * x] over the neighbours before (the k-th nearest has weight
    [ws[n-1-k]]) and after (the k-th nearest has weight [ws[n+k]]), and of the
    weights used. *)
Definition weighted (ws : list Qc) (n : nat) (b f : list Qc) (g : Qc -> Qc -> Qc) : Qc :=
  (qsum (map (fun k => g (nth (n - 1 - k) ws 0) (nth k b 0)) (seq 0 (length b))) +
   qsum (map (fun k => g (nth (n + k) ws 0) (nth k f 0)) (seq 0 (length f))))%Qc.

(** The maximal runs of positions without a submitted value, in order. *)
Definition is_gap (ix : list Z) (start len : nat) : Prop :=
  0 < len /\ (forall q, start <= q < start + len -> ~ is_given ix q) /\
  0 < start /\ is_given ix (start - 1) /\ is_given ix (start + len).

(** What automatic filling with a period does to a short gap of [m] positions
    starting at [i]. The surrounding values are those submitted for the two
    positions before and the two after, but never the one of position 0. *)
Definition surroundings (ix : list Z) (vs : list (option Qc)) (i m : nat) : list Qc :=
  values_at ix vs (filter (fun q => 0 <? q) [i - 2; i - 1; i + m; i + m + 1]).
Definition steady (l : list Qc) : Prop :=
  StronglySorted (fun x y => (x <= y)%Qc) l \/ StronglySorted (fun x y => (y <= x)%Qc) l.
Definition between (a b x : Qc) : Prop := (a <= x /\ x <= b)%Qc \/ (b <= x /\ x <= a)%Qc.
Definition clipped (lo hi x y : Qc) : Prop :=
  (x < lo -> y = lo)%Qc /\ (hi < x -> y = hi)%Qc /\ (lo <= x -> x <= hi -> y = x)%Qc.
