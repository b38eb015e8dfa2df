(** Property C101: the same series at another time gets the same answer. *)
From Coq Require Import String List Arith ZArith QArith Qcanon Bool Lia.
From Verif Require Import Base Num Sorting Helpers_model Margins_model SR_model Detect_model Detect_spec Detect_props Dates_model Dates_spec Dates_proofs Dates_props
  Request_model Request_spec Request_proofs2 Request_proofs3 Request_props Units_spec Units_proofs Shift_spec Shift_proofs.
Import ListNotations.
Open Scope string_scope.
Open Scope nat_scope.

(** Moved timestamps: same indices (or the same position refused), same verdict
    on their order. *)
Theorem C101_indices : forall g custom st st', g <> GNone -> displaced g custom st st' ->
  get_indices_from_timestamps g custom st' = get_indices_from_timestamps g custom st /\
  is_timestamp_ascending st' = is_timestamp_ascending st.
Proof. exact indices_same. Qed.
Print Assumptions C101_indices.
(** Monthly data on the 15th, five months later, with a gap. *)
Definition fifteenth (m : Z) : stamp := at_ (2019 + (m - 1) / 12) ((m - 1) mod 12 + 1) 15 8 30 0 0.
Example C101_monthly_case : let st := map fifteenth [1; 2; 4; 8; 9; 12]%Z in let st' := map fifteenth [6; 7; 9; 13; 14; 17]%Z in
  displaced Monthly None st st' /\ get_indices_from_timestamps Monthly None st' = Ok (Some [0; 1; 3; 7; 8; 11]%Z, None).
Proof.
  assert (OK : forall m, (1 <= m <= 24)%Z -> stamp_ok (fifteenth m)).
  { intros m B. unfold stamp_ok, fifteenth, at_. cbn [s_date s_us yr mo dy]. unfold second_us.
    pose proof (Z.mod_pos_bound (m - 1) 12). pose proof (Z.div_le_mono (m - 1) 23 12 ltac:(lia) ltac:(lia)) as U. change (23 / 12)%Z with 1%Z in U.
    pose proof (Z.div_pos (m - 1) 12 ltac:(lia) ltac:(lia)).
    split; [|lia]. apply valid_iff. cbn [yr mo dy]. split; [lia|]. unfold get_days_in_month.
    repeat match goal with |- context [if ?c then _ else _] => destruct c end; lia. }
  split; [|vm_compute; reflexivity]. split; [|split].
  - cbn [map]. repeat (constructor; [apply OK; lia|]). constructor.
  - cbn [map]. repeat (constructor; [apply OK; lia|]). constructor.
  - split; [lia|]. split; [cbn [map]; repeat (constructor; [vm_compute; discriminate|]); constructor|].
    exists 5%Z. cbn [map]. repeat (constructor; [vm_compute; auto|]). constructor.
Qed.

Section Props.
Context {T : Type}.
Variable to_datetime : list T -> option (list stamp).
Variable majority : list Qc -> Qc.
Variable detect : args -> detector_arg -> option nat -> bool -> res (list row * nat * model_id * bool).
Variable beyond : list (point T) -> settings -> res (reply T).
Notation PRED := (predict T to_datetime majority detect beyond).

(** The request for the moved series fails with the same exception, or is
    answered with the same outcomes, period and window; only the timestamps it
    is labelled with differ. The object and the parameter dictionary are left
    alike. *)
Theorem C101_answer : forall o d rows rows',
  Forall2 (fun x y => w_value y = w_value x) rows rows' ->
  (forall s, reads d s -> moved_rows to_datetime (s_gran s) (s_interval s) rows rows') ->
  (forall s, answers_alike same_but_labels (beyond rows s) (beyond rows' s)) ->
  answers_alike same_but_labels (result (PRED o (DFrame rows) (Some d))) (result (PRED o (DFrame rows') (Some d))) /\
  object (PRED o (DFrame rows') (Some d)) = object (PRED o (DFrame rows) (Some d)) /\
  parameters (PRED o (DFrame rows') (Some d)) = parameters (PRED o (DFrame rows) (Some d)).
Proof. intros o d rows rows' V M B. exact (predict_same to_datetime majority detect beyond o d rows rows' V M B). Qed.
End Props.
Print Assumptions C101_answer.

(** The gappy days read in a zone seven and a quarter hours ahead. *)
Definition ahead (n : Z) : stamp := at_ 2019 1 n 7 15 0 0.
Definition gappy_ahead : list (point stamp) := map (fun n => mkPoint (Some (ahead n)) (Num (Fin (qz n)))) gappy_days.
Example C101_zone_case :
  Forall2 (fun x y => w_value y = w_value x) gappy gappy_ahead /\
  (forall s, reads asks_linear s -> moved_rows parsed (s_gran s) (s_interval s) gappy gappy_ahead) /\
  is_entire (result (ask_detector (fresh VNone) (DFrame gappy) (Some asks_linear))) 12 /\
  is_entire (result (ask_detector (fresh VNone) (DFrame gappy_ahead) (Some asks_linear))) 12 /\
  o_code (object (ask_detector (fresh VNone) (DFrame gappy_ahead) (Some asks_linear))) = None.
Proof.
  assert (V : Forall2 (fun x y : point stamp => w_value y = w_value x) gappy gappy_ahead).
  { unfold gappy, daily, gappy_ahead, gappy_days. cbn [map]. repeat constructor. }
  split; [exact V|]. split; [|split; [do 2 eexists; split; vm_compute; reflexivity|split; [do 2 eexists; split; vm_compute; reflexivity|vm_compute; reflexivity]]].
  intros s R. destruct (daily_reads asks_linear s R eq_refl eq_refl eq_refl) as (-> & -> & _). split; [exact V|]. right.
  exists (map day gappy_days), (map ahead gappy_days). split; [|split].
  - exists (map day gappy_days). split; [|reflexivity]. unfold gappy, daily, gappy_days. cbn [map]. repeat constructor.
  - exists (map ahead gappy_days). split; [|reflexivity]. unfold gappy_ahead, gappy_days. cbn [map]. repeat constructor.
  - assert (OK : forall n, (1 <= n <= 31)%Z -> stamp_ok (day n) /\ stamp_ok (ahead n)).
    { intros n B. unfold stamp_ok, day, ahead, at_. cbn [s_date s_us yr mo dy]. unfold second_us. split; (split; [|lia]); apply valid_iff; cbn; lia. }
    unfold gappy_days. cbn [map]. split; [repeat (constructor; [apply OK; lia|]); constructor|]. split; [repeat (constructor; [apply OK; lia|]); constructor|].
    cbn zeta. split; [exists 86400%Z; split; [reflexivity|vm_compute; reflexivity]|].
    split; [|split].
    1,2: left; repeat (constructor; [split; [match goal with |- whole_second ?t => exists (epoch_us t / second_us)%Z; vm_compute; reflexivity end|vm_compute; reflexivity]|]); constructor.
    exists (26100 * second_us)%Z. repeat (constructor; [vm_compute; reflexivity|]). constructor.
Qed.

(** REFUTED without the ranges of C32 and C79: the same two moments on whole
    seconds are ten seconds apart, a tenth of a second later they are not. *)
Theorem C101_any_shift_refuted :
  ~ (forall g u custom us st st', unit_seconds g = Some u -> Forall stamp_ok st -> Forall stamp_ok st' -> Forall2 (later us) st st' ->
      get_indices_from_timestamps g custom st' = get_indices_from_timestamps g custom st).
Proof.
  intros H.
  specialize (H Secondly 1%Z (Some 10%Z) 100000%Z [at_ 2004 1 10 13 37 0 0; at_ 2004 1 10 13 37 10 0] [at_ 2004 1 10 13 37 0 100000; at_ 2004 1 10 13 37 10 100000] eq_refl).
  assert (OK : forall sec us, (0 <= sec < 60)%Z -> (0 <= us < 1000000)%Z -> stamp_ok (at_ 2004 1 10 13 37 sec us)).
  { intros sec us B B'. unfold stamp_ok, at_. cbn [s_date s_us yr mo dy]. unfold second_us. split; [|lia]. apply valid_iff. cbn. lia. }
  assert (X : get_indices_from_timestamps Secondly (Some 10%Z) [at_ 2004 1 10 13 37 0 100000; at_ 2004 1 10 13 37 10 100000] =
              get_indices_from_timestamps Secondly (Some 10%Z) [at_ 2004 1 10 13 37 0 0; at_ 2004 1 10 13 37 10 0]).
  { apply H; repeat constructor; try (vm_compute; reflexivity); apply OK; lia. }
  vm_compute in X. discriminate X.
Qed.
Print Assumptions C101_any_shift_refuted.
(** REFUTED for months moved by days: the 1st of January and of February are a
    month apart, four weeks later they are the 29th and the 1st. *)
Theorem C101_months_by_days_refuted :
  ~ (forall custom us st st', Forall stamp_ok st -> Forall stamp_ok st' -> Forall (fun t => dy (s_date t) <= 27)%Z st -> Forall2 (later us) st st' ->
      get_indices_from_timestamps Monthly custom st' = get_indices_from_timestamps Monthly custom st).
Proof.
  intros H.
  assert (OK : forall m d, (1 <= m <= 12)%Z -> (1 <= d <= get_days_in_month 2019 m)%Z -> stamp_ok (at_ 2019 m d 0 0 0 0)).
  { intros m d B B'. unfold stamp_ok, at_. cbn [s_date s_us yr mo dy]. unfold second_us. split; [|lia]. apply valid_iff. cbn [yr mo dy]. lia. }
  assert (X : get_indices_from_timestamps Monthly None [at_ 2019 1 29 0 0 0 0; at_ 2019 3 1 0 0 0 0] =
              get_indices_from_timestamps Monthly None [at_ 2019 1 1 0 0 0 0; at_ 2019 2 1 0 0 0 0]).
  { apply (H None (28 * 86400 * 1000000)%Z).
    - repeat (constructor; [apply OK; cbn; lia|]). constructor.
    - repeat (constructor; [apply OK; cbn; lia|]). constructor.
    - repeat (constructor; [vm_compute; discriminate|]). constructor.
    - repeat (constructor; [vm_compute; reflexivity|]). constructor. }
  vm_compute in X. discriminate X.
Qed.
Print Assumptions C101_months_by_days_refuted.
