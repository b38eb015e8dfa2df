(** Proofs about whole requests. *)
From Coq Require Import String Ascii List Arith ZArith QArith Qcanon Bool Lia.
From Verif Require Import Base Num FillUp_model Helpers_model Margins_model Margins_proofs3 Margins_props SR_model Detect_model Detect_proofs Dates_model
  Request_model Request_spec Request_proofs Request_proofs2 Request_proofs3.
Import ListNotations.
Open Scope string_scope.
Open Scope nat_scope.

Definition nofill_of (d : dict) : bool := match get "fillUpMode" d with Some VNoFill => true | _ => false end.
(** Interval lengths for which microsecond indices are exact (C33). *)
Definition micro_ok (s : settings) : Prop :=
  s_gran s = Microsecond -> (match s_interval s with None => 1 | Some c => c end <= 4006)%Z.

Lemma period_as : forall d s e, parse_params d = Next s e -> reads_period_as (get "period" e) (s_period s).
Proof.
  intros d s e H. pose proof (parse_params_spec d) as K. rewrite H in K. destruct K as (_ & R & _).
  pose proof (keeps_params "period" ltac:(simpl; intuition discriminate) d) as KP. rewrite H in KP. simpl in KP. rewrite KP.
  destruct (reads_period d s R) as [[E ->]|(v & G & n & V & ->)]; [left; auto|right]. exists v, n. auto.
Qed.

Section Predict.
Context {T : Type}.
Variable to_datetime : list T -> option (list stamp).
Hypothesis to_datetime_length : forall l st, to_datetime l = Some st -> length st = length l.
Variable majority : list Qc -> Qc.
Variable detect : args -> detector_arg -> option nat -> bool -> res (list row * nat * model_id * bool).
Variable beyond : list (point T) -> settings -> res (reply T).
Notation PRED := (predict T to_datetime majority detect beyond).
Notation ANSWER := (answer_request T majority detect beyond).

Definition mode_for (o : obj) (d : dict) : option pyval :=
  match o_mode o with VNone => get "detect_mode" d | m => Some m end.

Lemma predict_refused : forall o rows d c m, rows <> [] -> decides parameter_rules d (Some (Refused c m)) ->
  exists d', PRED o (DFrame rows) (Some d) = (Err TypeErr, mkObj (o_mode o) (o__error o) (Some c) (Some m), Some d').
Proof.
  intros o rows d c m NE H. destruct (params_refused d c m H) as (d' & E). exists d'.
  unfold predict, parse_arg. destruct rows; [congruence|]. rewrite E. reflexivity.
Qed.
Lemma predict_raised : forall o rows d x, rows <> [] -> decides parameter_rules d (Some (Raises x)) ->
  exists d', PRED o (DFrame rows) (Some d) = (Err x, o, Some d').
Proof.
  intros o rows d x NE H. destruct (params_raised d x H) as (d' & E). exists d'.
  unfold predict, parse_arg. destruct rows; [congruence|]. rewrite E. reflexivity.
Qed.

(** Past the parameters. *)
Lemma predict_past : forall o rows d s e, rows <> [] -> parse_params d = Next s e -> micro_ok s ->
  exists v d', series_validator _ to_datetime rows e = (Ok v, d') /\
    decides (series_rules to_datetime (s_gran s) (s_interval s) (s_period s) (nofill_of d)) rows v /\
    left_indices v (get "indices" d) (get "indices" d') /\
    ((v = None \/ exists c, v = Some (c, "InsufficientPoints")) ->
      exists l ns, numbers _ rows = Ok ns /\ get "indices" d' = Some (VList l) /\ accepted_indices to_datetime (s_gran s) (s_interval s) rows l /\
                   12 <= length rows /\ Forall (fun n => exists q, n = Fin q) ns) /\
    get "detect_mode" d' = get "detect_mode" d /\
    PRED o (DFrame rows) (Some d) =
      let o1 := mkObj (o_mode o) (o__error o) (option_map fst v) (option_map snd v) in
      match get "indices" d' with
      | None => (Err KeyErr, o1, Some d')
      | Some i =>
          match mode_for o d with
          | None => (Err KeyErr, o1, Some d')
          | Some mode => ((match o__error o with Some _ => Err (RequestErr "BadArgument") | None => ANSWER mode rows s i end),
                          mkObj mode (o__error o) (option_map fst v) (option_map snd v), Some d')
          end
      end.
Proof.
  intros o rows d s e NE H M. destruct (settings_gran d s e H) as [HG HC].
  assert (KF : get "fillUpMode" e = get "fillUpMode" d).
  { pose proof (keeps_params "fillUpMode" ltac:(simpl; intuition discriminate) d) as KP. rewrite H in KP. exact KP. }
  assert (KI : get "indices" e = get "indices" d).
  { pose proof (keeps_params "indices" ltac:(simpl; intuition discriminate) d) as KP. rewrite H in KP. exact KP. }
  assert (KD : get "detect_mode" e = get "detect_mode" d).
  { pose proof (keeps_params "detect_mode" ltac:(simpl; intuition discriminate) d) as KP. rewrite H in KP. exact KP. }
  destruct (validator_spec to_datetime to_datetime_length rows e (s_gran s) (s_interval s) (s_period s) (nofill_of d) HG HC M (period_as _ _ _ H))
    as (v & d' & E & D & L & F & A). { unfold nofill_of. rewrite KF. auto. }
  exists v, d'. split; auto. split; auto. rewrite KI in L. split; auto. split; auto.
  assert (KD' : get "detect_mode" d' = get "detect_mode" d) by (rewrite <- KD; apply F; simpl; intuition discriminate).
  split; auto.
  unfold predict, parse_arg. destruct rows as [|x t]; [congruence|]. rewrite H, E. cbv zeta.
  destruct (get "indices" d') as [i|]; [|reflexivity]. unfold mode_for. cbn [o_mode o__error o_code o_msg].
  rewrite KD'. destruct (o_mode o); [destruct (get "detect_mode" d); [|reflexivity]|..]; destruct (o__error o); reflexivity.
Qed.

Lemma labels_length : forall rows : list (point T), length (labels T rows) = length rows.
Proof.
  intros rows. unfold labels. destruct (times T rows) as [l|] eqn:E.
  - apply times_spec in E. apply Forall2_length in E. rewrite map_length. congruence.
  - rewrite map_length, seq_length. auto.
Qed.

(** A request error of the answer comes from the detector. *)
Lemma answer_request_err : forall mode rows s i c, (0 <= s_sensitivity s <= 100)%Z ->
  rows <> [] -> (forall x y, In x rows -> w_value x <> Bad (RequestErr y)) ->
  ANSWER mode rows s i = Err (RequestErr c) ->
  (exists a det p last, detect a det p last = Err (RequestErr c)) \/ beyond rows s = Err (RequestErr c).
Proof.
  intros mode rows s i c HS NE HB H. unfold answer_request in H.
  assert (NN : forall (l : list (point T)) y, (forall x, In x l -> w_value x <> Bad (RequestErr y)) -> numbers T l <> Err (RequestErr y)).
  { clear. induction l as [|x t IH]; intros y B X; simpl in X; [discriminate|].
    destruct (w_value x) eqn:E.
    - discriminate.
    - inversion X; subst. apply (B x); [left; auto|auto].
    - destruct (numbers T t) as [r|e'] eqn:E2; simpl in X; [discriminate|]. inversion X; subst. apply (IH y); [intros z I; apply B; right; auto|auto]. }
  destruct (numbers T rows) as [ns|e] eqn:EN.
  2:{ simpl in H. inversion H; subst. exfalso. apply (NN rows c); auto. }
  rewrite bind_ok in H. destruct (finite ns) as [vs|]; [|auto]. destruct (s_detector s) as [det|]; [|auto].
  destruct (make_model majority s vs i) as [a|e] eqn:EM.
  2:{ exfalso. simpl in H. inversion H; subst. revert EM. unfold make_model, bind.
      assert (GV : forall l y, get_values l <> Err (RequestErr y)).
      { clear. induction l as [|[q|] t IH]; intros y; simpl; try discriminate.
        destruct (get_values t) eqn:E; simpl; [discriminate|]. intros X. inversion X; subst. apply (IH y). auto. }
      assert (SC : forall l p f z y, scan p l f z <> Err (RequestErr y)).
      { clear. induction l as [|q t IH]; intros p f z y; simpl; [discriminate|].
        destruct (_ <=? _)%Z; [discriminate|]. destruct (_ >? _)%Z; apply IH. }
      destruct (make_fup _ _ _) as [f|e] eqn:EF; [discriminate|]. intros X. inversion X; subst. revert EF.
      unfold make_fup. destruct (match i with VList l => Some l | _ => None end) as [[|i0 rest]|]; try discriminate.
      destruct (negb _); [discriminate|]. unfold bind. destruct (get_values _) as [gv|] eqn:EG.
      2:{ intros X2. inversion X2; subst. apply (GV _ _ EG). }
      destruct (scan _ _ _ _) as [[fd ct]|] eqn:ES.
      2:{ intros X2. inversion X2; subst. apply (SC _ _ _ _ _ ES). }
      destruct (negb _); [discriminate|]. destruct (_ || _); [discriminate|].
      assert (TL : forall n k idx cm y, tag_loop n k idx cm <> Err (RequestErr y)).
      { clear. induction n as [|n IH]; intros k idx cm y; simpl; [discriminate|].
        destruct idx as [|j r]; [discriminate|]. destruct (j =? k).
        - destruct (tag_loop n (S k) r 0) eqn:E; simpl; [discriminate|]. intros X. inversion X; subst. exact (IH _ _ _ _ E).
        - destruct (k <? j); [|discriminate].
          destruct (tag_loop n (S k) (j :: r) (if cm =? 0 then j - k else cm)) eqn:E; simpl; [discriminate|].
          intros X. inversion X; subst. exact (IH _ _ _ _ E). }
      destruct (tag_loop _ _ _ _) as [tl|] eqn:ET; [discriminate|]. intros X2. inversion X2; subst. apply (TL _ _ _ _ _ ET). }
  rewrite bind_ok in H. left.
  destruct (detect a det (s_period s) _) as [[[[out p] m] b]|e] eqn:ED.
  2:{ simpl in H. inversion H; subst. eauto 6. }
  exfalso. rewrite bind_ok in H. cbv beta iota zeta in H.
  destruct (length (labels T rows) =? length out) eqn:EL; [|discriminate]. cbn [negb] in H. apply Nat.eqb_eq in EL. rewrite labels_length in EL.
  assert (NO : out <> []). { intros ->. destruct rows; [congruence|discriminate]. }
  destruct (exists_last NO) as (out' & r & ->).
  destruct (C14_latest_is_last_of_entire (s_v1 s) (is_sr m) (out' ++ [r]) (s_sensitivity s) r HS) as (outs & oe & ol & EE & HE & EO & _).
  { rewrite app_length. simpl. replace (length out' + 1 - 1) with (length out') by lia. rewrite nth_error_app2 by lia.
    rewrite Nat.sub_diag. auto. }
  rewrite EE, EO in H.
  assert (LL : exists t, last_opt (labels T rows) = Ok t).
  { pose proof (labels_length rows) as LR. destruct (exists_last (l := labels T rows)) as (l' & t & E).
    - intros X. rewrite X in LR. destruct rows; [congruence|discriminate].
    - exists t. rewrite E. unfold last_opt. rewrite rev_app_distr. reflexivity. }
  destruct LL as (t & ET).
  destruct mode as [| | | | | | |[]| | | |]; cbn [bind] in H; try rewrite ET in H; discriminate H.
Qed.
End Predict.
