(** Specification for follow-up requests (C117). *)
From Coq Require Import String List Arith ZArith Bool QArith Qcanon.
From Verif Require Import Base Num Margins_model Detect_model Request_model.
Import ListNotations.

(** Two parameter dictionaries that differ in the value under [key] at most. *)
Definition alike_but (key : string) (d d' : dict) : Prop := forall k, k <> key -> get k d' = get k d.
(** The period reported in an answer. *)
Definition answered_period {T} (y : reply T) : nat := match y with AEntire _ _ p => p | ALatest _ _ _ p _ => p end.
(** The second outcome is about the same expectation and is an anomaly if the first is. *)
Definition no_quieter (o o' : outcome) : Prop := o_expected o' = o_expected o /\ (o_anomaly o = true -> o_anomaly o' = true).
(** The same labels, period and suggested window, and outcomes related by [R]. *)
Definition replies_by {T} (R : outcome -> outcome -> Prop) (y y' : reply T) : Prop :=
  match y, y' with
  | AEntire _ l p, AEntire _ l' p' => p' = p /\ Forall2 (fun x x' => fst x' = fst x /\ R (snd x) (snd x')) l l'
  | ALatest _ t o p w, ALatest _ t' o' p' w' => t' = t /\ p' = p /\ w' = w /\ R o o'
  | _, _ => False
  end.
