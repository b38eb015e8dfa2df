(** Specification for C121: what the timestamps of a request decide. *)
From Coq Require Import List ZArith.
From Verif Require Import Base Detect_model Request_model.
Import ListNotations.

(** The same values, with any timestamps or none, of any notation. *)
Definition same_values {T T'} (rows : list (point T)) (rows' : list (point T')) : Prop :=
  Forall2 (fun x y => w_value y = w_value x) rows rows'.
(** Answers that agree in everything but the labels. *)
Definition same_outcomes {T T'} (y : reply T) (y' : reply T') : Prop :=
  match y, y' with
  | AEntire _ l p, AEntire _ l' p' => p' = p /\ map snd l' = map snd l
  | ALatest _ _ o p w, ALatest _ _ o' p' w' => o' = o /\ p' = p /\ w' = w
  | _, _ => False
  end.
(** The same failure, or answers that agree in everything but the labels. *)
Definition same_results {T T'} (r : res (reply T)) (r' : res (reply T')) : Prop :=
  (exists e, r = Err e /\ r' = Err e) \/ (exists y y', r = Ok y /\ r' = Ok y' /\ same_outcomes y y').
