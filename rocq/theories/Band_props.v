(** The band around the expected values under a higher sensitivity (C118). *)
From Coq Require Import String Ascii List Arith ZArith QArith Qcanon Bool Lia.
From Verif Require Import Base Num FillUp_model FillUp_spec FillUp_proofs Margins_model Margins_spec Margins_props Margins_proofs2 Margins_proofs3 SR_model Detect_model Dates_model
  Request_model Request_spec Request_proofs Request_proofs2 Request_proofs4 Request_proofs7 Request_proofs8 Request_props
  Pipe_model Pipe_spec Pipe_props Lone_props Table_props Lone_props2 Follow_spec Follow_proofs Follow_props Band_spec Band_proofs.
Import ListNotations.
Open Scope string_scope.
Open Scope nat_scope.

(** C118. Version V2: a higher sensitivity never widens a band. Version V1: not
    that of a reported anomaly, and no other by more than it takes to go 1% beyond
    the value. *)
Theorem C118_margins : forall v1 sr rows z z' os os', (0 <= z <= z')%Z -> (z' <= 100)%Z ->
  get_margins_entire v1 sr rows (qz z) = Ok os -> get_margins_entire v1 sr rows (qz z') = Ok os' ->
  forall i r o o', nth_error rows i = Some r -> nth_error os i = Some o -> nth_error os' i = Some o' ->
    (v1 = false \/ o_anomaly o' = true -> no_wider o o') /\ hardly_wider (r_value r) o o'.
Proof.
  intros v1 sr rows z z' os os' HZ HM E E' i r o o' Hr Ho Ho'. unfold get_margins_entire in *. destruct v1.
  - assert (H12 : (qz z <= qz z')%Qc) by (apply (proj1 (qz_le z z')); lia).
    assert (H2 : (qz z' <= Q2Qc 100)%Qc) by (apply (proj1 (qz_le z' 100)); lia).
    destruct (v1_closer sr rows (qz z) (qz z') os os' i r o o' H12 H2 E E' Hr Ho Ho') as [A B]. split; auto. intros [X|X]; [discriminate|auto].
  - assert (NE : rows <> []) by (intro X; subst rows; discriminate).
    destruct (v2_rows rows z NE ltac:(lia)) as (p1 & F1 & L1 & R1). destruct (v2_rows rows z' NE ltac:(lia)) as (p2 & F2 & L2 & R2).
    assert (p1 = os) by congruence. assert (p2 = os') by congruence. subst p1 p2.
    destruct (R1 i r Hr) as (u & a & U1 & HU & Ha & EA). destruct (R2 i r Hr) as (u' & b & U2 & _ & Hb & EB).
    assert (u' = u) by congruence. assert (a = o) by congruence. assert (b = o') by congruence. subst u' a b.
    assert (W : no_wider o o'). { eapply v2_closer; [exact HZ|exact HM| |exact EA|exact EB]. pose proof min_unit_pos. qlra. }
    split; auto. destruct W. split; left; auto.
Qed.
Print Assumptions C118_margins.
(** C118. V1 REFUTED for points that are no anomalies: the band of the second point
    (101, expected 100) goes from [100, 101] at sensitivity 99 to [98.99, 101.01] at 100. *)
Definition pair_rows : list row := [mkRow (qz 200) (qz 200) (qz 200) 0 false false false; mkRow (qz 101) (qz 100) (qz 100) 0 false false false].
Theorem C118_v1_refuted : exists os os' o o', get_margins_entire true false pair_rows (qz 99) = Ok os /\ get_margins_entire true false pair_rows (qz 100) = Ok os' /\
  nth_error os 1 = Some o /\ nth_error os' 1 = Some o' /\ o_anomaly o = false /\ o_anomaly o' = false /\
  this (o_upper o) = 1%Q /\ this (o_lower o) = 0%Q /\ this (o_upper o') = (101 # 100)%Q /\ this (o_lower o') = (101 # 100)%Q.
Proof. do 4 eexists. split; [reflexivity|]. split; [reflexivity|]. split; [reflexivity|]. split; [reflexivity|]. repeat split; vm_compute; reflexivity. Qed.
Print Assumptions C118_v1_refuted.
(** The four points of C10: the hypotheses hold, in both versions. *)
Example C118_margins_example : forall v1, exists os os', get_margins_entire v1 false ex_rows (qz 90) = Ok os /\ get_margins_entire v1 false ex_rows (qz 95) = Ok os' /\
  existsb (fun p => (o_upper (snd p) <? o_upper (fst p))%Qc && o_anomaly (snd p)) (combine os os') = true.
Proof. intros [|]; do 2 eexists; (split; [vm_compute; reflexivity|]); (split; [vm_compute; reflexivity|]); vm_compute; reflexivity. Qed.

Section Request.
Context {T : Type}.
Variable to_datetime : list T -> option (list stamp).
Hypothesis to_datetime_length : forall l st, to_datetime l = Some st -> length st = length l.
Variable majority : list Qc -> Qc.
Variable beyond : list (point T) -> settings -> res (reply T).

(** C118. The same for two requests that differ in the sensitivity, whatever the
    detector is. *)
Theorem C118_request : forall detect o o' rows d d' mode z z' y y',
  rows <> [] -> decides parameter_rules d None -> (forall s, reads d s -> micro_ok s) ->
  (forall s, reads d s -> good_series to_datetime (s_gran s) (s_interval s) (s_period s) (nofill_of d) rows) ->
  (forall dd, ~ given "detector" d (VDict dd)) -> o__error o = None -> o__error o' = None -> mode_for o d = Some mode -> mode_for o' d' = Some mode ->
  alike_but "sensitivity" d d' -> reads_or "sensitivity" d 99%Z is_int z -> given "sensitivity" d' (VInt z') -> (z <= z' <= 100)%Z ->
  result (predict T to_datetime majority detect beyond o (DFrame rows) (Some d)) = Ok y ->
  result (predict T to_datetime majority detect beyond o' (DFrame rows) (Some d')) = Ok y' ->
  replies_by (fun o o' => o_anomaly o' = true -> no_wider o o') y y' /\
  (~ (get "boundaryVersion" d = None \/ given "boundaryVersion" d VNone \/ given "boundaryVersion" d (VStr "V1")) -> replies_by no_wider y y').
Proof.
  intros detect o o' rows d d' mode z z' y y' NE H M G ND HE HE' HM HM' AB RZ GZ HZ Y Y'.
  set (R := fun (v1 : bool) o o' => v1 = false \/ o_anomaly o' = true -> no_wider o o').
  destruct (follow_by to_datetime to_datetime_length majority beyond R detect o o' rows d d' mode z z') as (s & RS & K); auto.
  { intros v1 sr out Z0 NO. destruct (margins_follow v1 sr out z z') as (os & os' & ol & ol' & A & B & C & D & LO & E & F); auto; try lia.
    exists os, os', ol, ol'. split; auto. split; auto. split; auto. split; auto.
    assert (LL : length os' = length os) by (clear - E; induction E; simpl; auto).
    assert (W : forall i a b, nth_error os i = Some a -> nth_error os' i = Some b -> R v1 a b).
    { intros i a b X X'. destruct (nth_error out i) as [r|] eqn:Er.
      - exact (proj1 (C118_margins v1 sr out z z' os os' ltac:(lia) ltac:(lia) A B i r a b Er X X')).
      - apply nth_error_None in Er. assert (i < length os) by (apply nth_error_Some; congruence). lia. }
    split.
    - clear - W LL. revert os' W LL. induction os as [|a os IH]; intros [|b os'] W LL; try discriminate; constructor; [apply (W 0); auto|].
      apply IH; [|auto]. intros i x y P Q. apply (W (S i)); auto.
    - assert (ER : exists r, nth_error out (length out - 1) = Some r).
      { destruct (nth_error out (length out - 1)) eqn:Q; eauto. apply nth_error_None in Q. destruct out; [congruence|simpl in Q; lia]. }
      destruct ER as (r & ER).
      destruct (C14_latest_is_last_of_entire v1 sr out z r ltac:(lia) ER) as (os1 & o1 & ol1 & E1 & O & EL & _ & Q1 & Q2 & _ & _ & Q3 & _).
      destruct (C14_latest_is_last_of_entire v1 sr out z' r ltac:(lia) ER) as (os2 & o2 & ol2 & E2 & O' & EL' & _ & P1 & P2 & _ & _ & P3 & _).
      assert (os1 = os) by congruence. assert (os2 = os') by congruence. assert (ol1 = ol) by congruence. assert (ol2 = ol') by congruence. subst os1 os2 ol1 ol2.
      pose proof (W _ _ _ O O') as V. unfold R, no_wider in *. rewrite Q1, Q2, P1, P2, P3. exact V. }
  destruct K as [(e & X & _)|(y1 & y2 & X & X' & K)]; [rewrite Y in X; discriminate|].
  assert (y1 = y) by congruence. assert (y2 = y') by congruence. subst y1 y2.
  assert (MO : forall (P Q : outcome -> outcome -> Prop), (forall a b, P a b -> Q a b) -> replies_by P y y' -> replies_by Q y y').
  { intros P Q PQ. destruct y as [l p|t a p w], y' as [l' p'|t' a' p' w']; simpl; auto.
    - intros [-> F]. split; auto. clear - F PQ. induction F as [|u v l l' [A B] F IH]; constructor; auto.
    - intros (A & B & C & D). auto. }
  split; [eapply MO; [|exact K]; unfold R; auto|]. intros V2.
  assert (s_v1 s = false). { destruct (s_v1 s) eqn:Q; auto. exfalso. apply V2. apply (reads_boundary d s RS). auto. }
  eapply MO; [|exact K]. unfold R. auto.
Qed.
End Request.
Print Assumptions C118_request.

(** Twelve numbers with the period 5 given: at sensitivity 95 the band of the eleventh
    (10, expected 11) reaches higher than at 60, in version V1. In version V2 it does not. *)
Definition soft : list (point stamp) := numbers [10; 11; 10; 10; 12; 11; 10; 10; 11; 12; 10; 11]%Z.
Definition soft_asks (version : string) (z : Z) : dict := ("sensitivity", VInt z) :: ("boundaryVersion", VStr version) :: asks_period 5.
Definition upper_of (i : nat) (r : res (reply stamp)) : option Q :=
  match r with Ok (AEntire _ l _) => option_map (fun x => this (o_upper (snd x))) (nth_error l i) | _ => None end.
Lemma soft_params : forall v, In v ["V1"; "V2"] -> decides parameter_rules (soft_asks v 60) None.
Proof. intros v [<-|[<-|[]]]; eapply params_ok; vm_compute; reflexivity. Qed.
Lemma soft_good : forall c p b, good_series parsed GNone c p b soft.
Proof.
  apply good_rows; [vm_compute; lia|vm_compute; discriminate|]. intros x I. apply In_nth_error in I. destruct I as (i & I).
  do 12 (destruct i as [|i]; [inversion I; eexists; split; [reflexivity|split; vm_compute; discriminate]|]). destruct i; discriminate.
Qed.
Lemma soft_usual : forall v, In v ["V1"; "V2"] -> usual (soft_asks v 60) soft.
Proof.
  intros v I. split; [discriminate|]. split; [apply soft_params; auto|].
  assert (E : forall s, reads (soft_asks v 60) s -> s_gran s = GNone) by (intros s R; apply (no_granularity (soft_asks v 60) s); auto).
  split; [|split; [|split]].
  - intros s R. unfold micro_ok. rewrite (E s R). discriminate.
  - intros s R. rewrite (E s R). apply soft_good.
  - intros dd X. discriminate.
  - reflexivity.
Qed.
Theorem C118_request_v1_refuted : libs_ok (table_libs (fun _ => true)) /\ usual (soft_asks "V1" 60) soft /\ alike_but "sensitivity" (soft_asks "V1" 60) (soft_asks "V1" 95) /\
  upper_of 10 (result (ask_lone (fresh VNone) (DFrame soft) (Some (soft_asks "V1" 60)))) = Some 1%Q /\
  upper_of 10 (result (ask_lone (fresh VNone) (DFrame soft) (Some (soft_asks "V1" 95)))) = Some (101 # 100)%Q.
Proof.
  split; [apply C115_lone_example|]. split; [apply soft_usual; simpl; auto|].
  split. { intros k N. unfold soft_asks. etransitivity; [apply alike_more; auto|symmetry; apply alike_more; auto]. }
  split; vm_compute; reflexivity.
Qed.
Print Assumptions C118_request_v1_refuted.
Example C118_request_example : usual (soft_asks "V2" 60) soft /\
  match upper_of 10 (result (ask_lone (fresh VNone) (DFrame soft) (Some (soft_asks "V2" 60)))), upper_of 10 (result (ask_lone (fresh VNone) (DFrame soft) (Some (soft_asks "V2" 95)))) with
  | Some q, Some q' => negb (Qle_bool q q') | _, _ => false end = true.
Proof. split; [apply soft_usual; simpl; auto|]. vm_compute. reflexivity. Qed.
