(** Parameters left out or unknown (C119): leaving a parameter out, giving it its
    default, or adding one nobody knows comes to the same. *)
From Coq Require Import String Ascii List Arith ZArith QArith Qcanon Bool Lia.
From Verif Require Import Base Num FillUp_model Margins_model SR_model Detect_model Dates_model
  Request_model Request_spec Request_proofs Request_proofs2 Request_proofs4 Request_props
  Period_model Pipe_model Pipe_props Lone_props2 Follow_spec Follow_proofs Follow_props Defaults_spec Defaults_proofs.
Import ListNotations.
Open Scope string_scope.
Open Scope nat_scope.

Section Request.
Context {T : Type}.
Variable to_datetime : list T -> option (list stamp).
Hypothesis to_datetime_length : forall l st, to_datetime l = Some st -> length st = length l.
Variable majority : list Qc -> Qc.
Variable beyond : list (point T) -> settings -> res (reply T).

(** C119. A request with a parameter given its default value has the outcome of
    the request without it: the same answer or exception, the same recorded error.
    Whatever the detector is, whether or not parameters and series are in order. *)
Theorem C119_default : forall detect o rows d d' key v,
  rows <> [] -> (forall s, reads d s -> micro_ok s) -> (forall dd, ~ given "detector" d (VDict dd)) ->
  In (key, v) defaults -> get key d = None -> (key = "imputeMode" -> v <> VNone -> get "fillUpMode" d = None) ->
  alike_but key d d' -> given key d' v ->
  let r := predict T to_datetime majority detect beyond o (DFrame rows) (Some d) in
  let r' := predict T to_datetime majority detect beyond o (DFrame rows) (Some d') in
  result r' = result r /\ object r' = object r.
Proof.
  intros detect o rows d d' key v NE M ND DEF OUT FILL AB GIV.
  assert (E := alike_requests to_datetime to_datetime_length majority detect beyond o rows d d' NE (default_rules key v d d' DEF AB OUT GIV FILL) M ND).
  cbv zeta. unfold result, object. rewrite E; auto.
  - intros k K. apply AB. eapply default_other; eauto.
  - eapply default_nofill; eauto.
  - intros s R. exists s. split; [eapply default_reads; eauto|]. auto.
Qed.

(** C119. Keys that mean nothing change nothing. *)
Theorem C119_unknown : forall detect o rows d d' key,
  rows <> [] -> (forall s, reads d s -> micro_ok s) -> (forall dd, ~ given "detector" d (VDict dd)) ->
  ~ In key known_keys -> alike_but key d d' ->
  let r := predict T to_datetime majority detect beyond o (DFrame rows) (Some d) in
  let r' := predict T to_datetime majority detect beyond o (DFrame rows) (Some d') in
  result r' = result r /\ object r' = object r.
Proof.
  intros detect o rows d d' key NE M ND U AB.
  assert (E : forall k, In k known_keys -> get k d' = get k d) by (intros k I; apply AB; congruence).
  assert (Q := alike_requests to_datetime to_datetime_length majority detect beyond o rows d d' NE (unknown_rules key d d' U AB) M ND).
  cbv zeta. unfold result, object. rewrite Q; auto.
  - intros k [->|[->| ->]]; apply E; simpl; tauto.
  - unfold nofill_of. rewrite E by (simpl; tauto). reflexivity.
  - intros s R. exists s. split; [eapply unknown_reads; eauto|]. auto.
Qed.

Lemma detect_interval : forall L vs f m fx r al th nt mj g det p last,
  whole_detect L (mkArgs vs f m fx r al th nt mj g (Some 1)) det p last = whole_detect L (mkArgs vs f m fx r al th nt mj g None) det p last.
Proof. reflexivity. Qed.
(** C119. An interval of one is the same as none given, for the detector itself;
    what the model leaves open ([beyond]) is taken to make no difference either. *)
Theorem C119_interval : forall L o rows d d',
  rows <> [] -> (forall dd, ~ given "detector" d (VDict dd)) ->
  get "customInterval" d = None -> alike_but "customInterval" d d' -> given "customInterval" d' (VInt 1) ->
  (forall g p al ra se th fi v1 de, beyond rows (mkSettings g (Some 1%Z) p al ra se th fi v1 de) = beyond rows (mkSettings g None p al ra se th fi v1 de)) ->
  let r := predict T to_datetime majority (whole_detect L) beyond o (DFrame rows) (Some d) in
  let r' := predict T to_datetime majority (whole_detect L) beyond o (DFrame rows) (Some d') in
  result r' = result r /\ object r' = object r.
Proof.
  intros L o rows d d' NE ND OUT AB GIV BEY.
  assert (NI : forall s, reads d s -> s_interval s = None).
  { intros s R. destruct (reads_interval d s R) as [[_ X]|(v & X & _)]; auto. unfold given in X. congruence. }
  assert (E := alike_requests to_datetime to_datetime_length majority (whole_detect L) beyond o rows d d' NE).
  cbv zeta. unfold result, object. rewrite E; auto; clear E.
  - unfold parameter_rules; repeat apply Forall_cons; try apply Forall_nil; cbn [snd].
    all: try solve [unfold bad, impute_given, given; cbv beta; repeat (rewrite AB by discriminate); reflexivity].
    apply neither; [apply not_bad_missing; assumption | eapply not_bad_fine; [eassumption|fine]].
  - intros s R. unfold micro_ok. rewrite (NI s R). lia.
  - intros k [->|[->| ->]]; apply AB; discriminate.
  - unfold nofill_of. rewrite AB by discriminate. reflexivity.
  - intros s R. exists (mkSettings (s_gran s) (Some 1%Z) (s_period s) (s_alpha s) (s_ratio s) (s_sensitivity s) (s_threshold s) (s_fill s) (s_v1 s) (s_detector s)).
    split; [|split; [reflexivity|split; [reflexivity|split; [rewrite (NI s R); reflexivity|]]]].
    + destruct R as [R1 R2 R3 R4 R5 R6 R7 R8 R9 R10].
      constructor; cbn; unfold reads_or, reads_fill, impute_given, given in *; repeat (rewrite AB by discriminate); auto.
      right. exists (VInt 1). split; auto. exists 1%Z. split; [constructor|auto].
    + intros mode i SD. unfold answer_request. destruct (Request_model.numbers T rows) as [ns|x]; [|reflexivity]. rewrite !bind_ok. cbn [s_detector]. rewrite SD.
      destruct (finite ns) as [vs|]; [|rewrite BEY; generalize (NI s R); destruct s; cbn in *; intros ->; congruence]. unfold make_model. cbn [s_fill s_ratio s_alpha s_threshold s_v1 s_gran s_interval s_period s_sensitivity option_map].
      rewrite (NI s R). destruct (make_fup _ _ _) as [f|x]; [|reflexivity]. rewrite !bind_ok. cbn [option_map]. reflexivity.
Qed.
End Request.
Print Assumptions C119_default.
Print Assumptions C119_unknown.
Print Assumptions C119_interval.

(** The requests of C117 with defaults spelt out, an unknown key and an interval
    of one; and one that is refused either way. *)
Definition spelt_out : dict := ("sensitivity", VInt 99) :: ("alpha", VFloat (Q2Qc (5 # 100))) :: ("fillUpMode", VStr "auto") :: asks_entire.
Definition stranger : dict := ("sensitvity", VInt 20) :: asks_entire.
Definition every_day : dict := ("customInterval", VInt 1) :: asks_entire.
Definition odd : dict := ("period", VStr "week") :: asks_entire.
Example C119_example : usual asks_entire month /\
  In ("sensitivity", VInt 99) defaults /\ get "sensitivity" asks_entire = None /\ ~ In "sensitvity" known_keys /\ get "customInterval" asks_entire = None /\
  alike_but "sensitvity" asks_entire stranger /\ alike_but "customInterval" asks_entire every_day /\
  told_days (result (ask_whole (fresh VNone) (DFrame month) (Some asks_entire))) = Some (7, 12) /\
  told_days (result (ask_whole (fresh VNone) (DFrame month) (Some spelt_out))) = Some (7, 12) /\
  told_days (result (ask_whole (fresh VNone) (DFrame month) (Some stranger))) = Some (7, 12) /\
  told_days (result (ask_whole (fresh VNone) (DFrame month) (Some every_day))) = Some (7, 12) /\
  o_msg (object (ask_whole (fresh VNone) (DFrame month) (Some odd))) = Some "InvalidPeriod" /\
  o_msg (object (ask_whole (fresh VNone) (DFrame month) (Some (("sensitivity", VInt 99) :: odd)))) = Some "InvalidPeriod".
Proof.
  split; [apply month_usual|]. split; [simpl; tauto|]. split; [reflexivity|]. split; [simpl; intuition discriminate|]. split; [reflexivity|].
  split; [apply alike_more|]. split; [apply alike_more|]. repeat (split; [vm_compute; reflexivity|]). vm_compute; reflexivity.
Qed.
