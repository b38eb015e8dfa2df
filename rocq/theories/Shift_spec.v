(** Vocabulary for C101: the same series at another time. *)
From Coq Require Import List ZArith.
From Verif Require Import Base Detect_model Dates_model Dates_spec Request_model Request_spec.
Import ListNotations.
Open Scope Z_scope.

(** Later by [us] microseconds; later by [k] calendar months, same day and time
    of day. *)
Definition later (us : Z) (a b : stamp) : Prop := epoch_us b = epoch_us a + us.
Definition months_later (k : Z) (a b : stamp) : Prop :=
  month_no (s_date b) = month_no (s_date a) + k /\ dy (s_date b) = dy (s_date a) /\ s_us b = s_us a.
(** Times which the detector's arithmetic tells apart exactly (C32, C79). *)
Definition exact_times (st : list stamp) : Prop :=
  Forall (fun t => whole_second t /\ Z.abs (epoch_us t) < 2 ^ 53) st \/ Forall (fun t => recent (epoch_us t)) st.
(** All of [st] moved by the same amount: from seconds to weeks by any number of
    microseconds, milliseconds by whole ones, months and years (up to the 27th
    of the month) by whole months. *)
Definition displaced (g : granularity) (custom : option Z) (st st' : list stamp) : Prop :=
  let c := match custom with None => 1 | Some i => Z.max i 1 end in
  Forall stamp_ok st /\ Forall stamp_ok st' /\
  match g with
  | GNone => True
  | Monthly | Yearly => c < 2 ^ 53 /\ Forall (fun t => dy (s_date t) <= 27) st /\ exists k, Forall2 (months_later k) st st'
  | Microsecond => c <= 4006 /\ Forall (fun t => milli_range (epoch_us t)) st /\ Forall (fun t => milli_range (epoch_us t)) st' /\
                   exists ms, Forall2 (later (ms * 1000)) st st'
  | _ => (exists u, unit_seconds g = Some u /\ u * c < 2 ^ 53) /\ exact_times st /\ exact_times st' /\ exists us, Forall2 (later us) st st'
  end.
(** The same values, and where timestamps matter, moved ones. *)
Definition moved_rows {T} (to_datetime : list T -> option (list stamp)) (g : granularity) (custom : option Z) (rows rows' : list (point T)) : Prop :=
  Forall2 (fun x y => w_value y = w_value x) rows rows' /\
  (g = GNone \/ exists st st', read_times to_datetime rows st /\ read_times to_datetime rows' st' /\ displaced g custom st st').
(** Equal but for the labels. *)
Definition same_but_labels {T} (y y' : reply T) : Prop :=
  match y, y' with
  | AEntire _ l p, AEntire _ l' p' => p' = p /\ map snd l' = map snd l
  | ALatest _ _ o p w, ALatest _ _ o' p' w' => o' = o /\ p' = p /\ w' = w
  | _, _ => False
  end.
