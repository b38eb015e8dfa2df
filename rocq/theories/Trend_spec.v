(** Specifications for the trend extraction (C90). *)
From Coq Require Import List Arith ZArith QArith Qcanon Lia Bool.
From Verif Require Import Base Num Period_spec.
Import ListNotations.
Open Scope nat_scope.

(** A filter that answers on its domain, one value per point. *)
Definition filter_on (dom : nat -> nat -> Prop) (f : list Qc -> nat -> res (list Qc)) : Prop :=
  forall s w, dom (length s) w -> exists t, f s w = Ok t /\ length t = length s.
(** Windows the library can straighten the ends of; numbers of segments it can
    fit. *)
Definition window_dom (n w : nat) : Prop := 2 <= w < n.
Definition segment_dom (n k : nat) : Prop := 6 <= n /\ 1 <= k /\ 4 * (k - 1) <= n.
(** The library finds nothing, or periods with positive scores that fit twice. *)
Definition peaks_ok (peaks : list Qc -> res (option (list (nat * Qc)))) : Prop :=
  forall d, 6 <= length d -> peaks d = Ok None \/
    exists ps, ps <> [] /\ peaks d = Ok (Some ps) /\
      forall p s, In (p, s) ps -> 2 * p <= length d /\ (0 < s)%Qc.

(** Rounding to C float at most doubles a value; straightening the ends of a
    series over a window below 1024 continues them by fewer than 512 steps, none
    larger than twice the largest value (and rounds the result). *)
Definition no_blowup (r : Qc -> Qc) : Prop := forall x, (Qcabs (r x) <= Q2Qc 2 * Qcabs x)%Qc.
Definition ends_bounded (aglet : list Qc -> nat -> res (list Qc)) : Prop :=
  forall s w t B, w < 1024 -> sized B s -> aglet s w = Ok t -> sized (qz 2048 * B)%Qc t.
(** What is further than half a window from both ends is kept. *)
Definition keeps_middle (aglet : list Qc -> nat -> res (list Qc)) : Prop :=
  forall s w t i, aglet s w = Ok t -> w / 2 <= i -> i + w / 2 < length s -> nth_error t i = nth_error s i.
(** Values so far below the size [top] from which a C float is infinite that the
    median trend stays below it. *)
Definition float_room (top : option Qc) (l : list Qc) : Prop :=
  match top with None => True | Some t => exists B, sized B l /\ (qz 8192 * B < t)%Qc end.

(** [g] is an integer nearest to the mean of the periods weighted by the scores. *)
Definition nearest_mean (ps : list (nat * Qc)) (g : nat) : Prop :=
  let total := qsum (map snd ps) in
  let weighted := qsum (map (fun p => qn (fst p) * snd p)%Qc ps) in
  (qn g * total - total * Q2Qc (1 # 2) <= weighted /\ weighted <= qn g * total + total * Q2Qc (1 # 2))%Qc.

(** The window used for a period: a third of the points, at most 512, without
    one; two periods less a point otherwise. *)
Definition window_for (n p w : nat) : Prop :=
  p <= 1 /\ w <= 512 /\ 3 * w <= n /\ (w = 512 \/ n < 3 * (w + 1)) \/ 1 < p /\ w + 1 = 2 * p.
