(** Specifications for the naming of periods (C95). *)
From Coq Require Import ZArith List.
From Verif Require Import Base Detect_model.
Import ListNotations.
Open Scope Z_scope.

(** The units, longest first, each a multiple of the next: a year is 12 months,
    a month 4 weeks, a week 7 days, ... The unit of 'microsecond' is a
    thousandth of a second. *)
Definition ladder : list (granularity * Z) :=
  [(Yearly, 12); (Monthly, 4); (Weekly, 7); (Daily, 24); (Hourly, 60); (Minutely, 60); (Secondly, 1000); (Microsecond, 1)].
(** [lasts g n]: the unit [g] is [n] milliseconds. *)
Inductive lasts_in : list (granularity * Z) -> granularity -> Z -> Prop :=
| lasts_here : forall g k rest, lasts_in ((g, k) :: rest) g (fold_right Z.mul 1 (k :: map snd rest))
| lasts_later : forall x rest g n, lasts_in rest g n -> lasts_in (x :: rest) g n.
Definition lasts (g : granularity) (n : Z) : Prop := lasts_in ladder g n.

(** [ms] is the length of [period] points, [interval] units [g] apart. *)
Definition cycle_length (g : granularity) (interval period ms : Z) : Prop :=
  (g = GNone /\ ms = 0) \/ exists n, lasts g n /\ ms = n * interval * period.

(** [g] is the largest unit that is not longer than [ms]. *)
Definition largest_unit (ms : Z) (g : granularity) : Prop :=
  (exists n, lasts g n /\ n <= ms /\ forall g' n', lasts g' n' -> n' <= ms -> n' <= n) \/
  (g = GNone /\ forall g' n', lasts g' n' -> ms < n').
