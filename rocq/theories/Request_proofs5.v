(** Parameters that a request does not look at, and what a request leaves in
    the dictionary. *)
From Coq Require Import String Ascii List Arith ZArith QArith Qcanon Bool Lia.
From Verif Require Import Base Num FillUp_model Helpers_model Margins_model SR_model Detect_model Dates_model
  Request_model Request_spec Request_proofs Request_proofs2 Request_proofs3 Request_proofs4.
Import ListNotations.
Open Scope string_scope.
Open Scope nat_scope.

(** Two dictionaries that differ at most in entry [k]. *)
Definition agree (k : string) (d e : dict) : Prop := forall j, j <> k -> get j d = get j e.
Definition similar {A} (k : string) (x y : step A) : Prop :=
  match x, y with
  | Next a d, Next b e => a = b /\ agree k d e
  | Stop c m d, Stop c' m' e => c = c' /\ m = m' /\ agree k d e
  | Raise x d, Raise y e => x = y /\ agree k d e
  | _, _ => False
  end.
Definition blind {A} (k : string) (c : parser A) : Prop := forall d e, agree k d e -> similar k (c d) (c e).
Lemma agree_refl : forall k d, agree k d d.
Proof. intros k d j _. auto. Qed.
Lemma agree_set : forall k j v d e, agree k d e -> agree k (set j v d) (set j v e).
Proof.
  intros k j v d e A i N. destruct (string_dec i j) as [->|M]; [rewrite !get_set_eq; auto|].
  rewrite !get_set_ne by auto. auto.
Qed.
Lemma agree_self : forall k v d, agree k d (set k v d).
Proof. intros k v d j N. rewrite get_set_ne; auto. Qed.
Lemma blind_seq : forall A B k (c : parser A) (f : A -> parser B), blind k c -> (forall a, blind k (f a)) -> blind k (seq c f).
Proof.
  intros A B k c f H1 H2 d e G. unfold seq. specialize (H1 d e G). destruct (c d), (c e); simpl in *; try contradiction.
  - destruct H1 as [<- H]. apply H2. auto.
  - auto.
  - auto.
Qed.

Ltac blind_stage :=
  repeat match goal with
  | |- context [match ?x with _ => _ end] => destruct x
  end; simpl; auto using agree_set.
Notation DM := "detect_mode".
Lemma blind_params : blind DM parse_params.
Proof.
  assert (D : forall k, k <> DM -> blind DM (default_false k)).
  { intros k N d e G. unfold default_false. rewrite (G k N). blind_stage. }
  unfold parse_params.
  apply blind_seq; [intros d e G; unfold parse_granularity; rewrite (G "granularity") by discriminate; blind_stage|intros g].
  apply blind_seq; [intros d e G; unfold parse_interval; rewrite (G "customInterval") by discriminate; blind_stage|intros i].
  apply blind_seq; [intros d e G; unfold parse_period; rewrite (G "period") by discriminate; blind_stage|intros p].
  apply blind_seq; [intros d e G; unfold parse_alpha; rewrite (G "alpha") by discriminate; blind_stage|intros a].
  apply blind_seq; [intros d e G; unfold parse_ratio; rewrite (G "maxAnomalyRatio") by discriminate; blind_stage|intros r].
  apply blind_seq; [intros d e G; unfold parse_sensitivity; rewrite (G "sensitivity") by discriminate; blind_stage|intros s].
  apply blind_seq; [intros d e G; unfold parse_threshold; rewrite (G "threshold") by discriminate; blind_stage|intros t].
  apply blind_seq; [apply D; discriminate|intros _].
  apply blind_seq.
  { intros d e G. unfold parse_impute. rewrite (G "imputeMode"), (G "fillUpMode"), (G "fixedValue"), (G "imputeFixedValue") by discriminate. cbv zeta.
    set (mode := fun v : pyval => match v with VStr s0 => mode_of_value s0 | _ => None end). clearbody mode.
    destruct (get "imputeMode" e) as [[]|], (get "fillUpMode" e) as [[]|]; blind_stage. }
  intros f. apply blind_seq; [apply D; discriminate|intros _].
  apply blind_seq; [apply D; discriminate|intros _].
  apply blind_seq; [intros d e G; unfold parse_boundary; rewrite (G "boundaryVersion") by discriminate; blind_stage|intros b].
  apply blind_seq; [intros d e G; unfold parse_detector; rewrite (G "detector") by discriminate; blind_stage|intros x].
  intros d e G. simpl. auto.
Qed.

Section Predict.
Context {T : Type}.
Variable to_datetime : list T -> option (list stamp).
Variable majority : list Qc -> Qc.
Variable detect : args -> detector_arg -> option nat -> bool -> res (list row * nat * model_id * bool).
Variable beyond : list (point T) -> settings -> res (reply T).
Notation PRED := (predict T to_datetime majority detect beyond).

Ltac split_matches :=
  repeat match goal with
  | |- context [match ?x with _ => _ end] => destruct x
  end.
Lemma validator_keeps : forall rows d k, k <> "indices" -> get k (snd (series_validator T to_datetime rows d)) = get k d.
Proof.
  intros rows d k N. unfold series_validator. cbv zeta.
  destruct (length rows <? 12); auto. destruct (8640 <? _)%Z; auto.
  destruct (numbers T rows) as [values|e]; auto.
  destruct (if match match get "granularity" d with Some (VGran g) => g | _ => GNone end with GNone => true | _ => false end then _ else _) as [stamps|]; auto.
  destruct (existsb overflow values); auto. destruct (existsb is_nan values); auto.
  destruct (match match get "granularity" d with Some (VGran g) => g | _ => GNone end with GNone => true | _ => false end).
  { simpl. apply get_set_ne; auto. }
  destruct (is_timestamp_ascending stamps =? -1)%Z; auto. destruct (is_timestamp_ascending stamps =? -2)%Z; auto.
  destruct (get_indices_from_timestamps _ _ _) as [[ind bad]|e]; auto.
  set (d2 := set "indices" _ d). assert (K : get k d2 = get k d) by (apply get_set_ne; auto). clearbody d2.
  destruct bad; auto. destruct (get "period" d2) as [[]|]; auto; destruct (as_int _), ind as [l|]; auto;
  destruct (last_opt l); auto; destruct (_ || _); auto.
Qed.
Lemma validator_blind : forall rows d e, agree DM d e ->
  fst (series_validator T to_datetime rows d) = fst (series_validator T to_datetime rows e) /\
  agree DM (snd (series_validator T to_datetime rows d)) (snd (series_validator T to_datetime rows e)).
Proof.
  intros rows d e G. unfold series_validator. cbv zeta.
  rewrite (G "granularity"), (G "customInterval") by discriminate.
  destruct (length rows <? 12); auto. destruct (8640 <? _)%Z; auto.
  destruct (numbers T rows) as [values|x]; auto.
  destruct (if match match get "granularity" e with Some (VGran g) => g | _ => GNone end with GNone => true | _ => false end then _ else _) as [stamps|]; auto.
  destruct (existsb overflow values); auto. destruct (existsb is_nan values); auto.
  destruct (match match get "granularity" e with Some (VGran g) => g | _ => GNone end with GNone => true | _ => false end).
  { simpl. split; auto using agree_set. }
  destruct (is_timestamp_ascending stamps =? -1)%Z; auto. destruct (is_timestamp_ascending stamps =? -2)%Z; auto.
  destruct (get_indices_from_timestamps _ _ _) as [[ind bad]|x]; auto.
  set (v := match ind with Some l => VList l | None => VNone end). clearbody v.
  pose proof (agree_set DM "indices" v d e G) as G2. set (d2 := set "indices" v d) in *. set (e2 := set "indices" v e) in *. clearbody d2 e2.
  destruct bad; auto. rewrite (G2 "period"), (G2 "fillUpMode") by discriminate.
  destruct (get "period" e2) as [[]|]; auto; destruct (as_int _), ind as [l|]; auto;
  destruct (last_opt l); auto; destruct (_ || _); auto.
Qed.

(** The detection mode of the request does not matter once the object has one. *)
Lemma predict_blind : forall o x d e, agree DM d e -> o_mode o <> VNone ->
  fst (PRED o x (Some d)) = fst (PRED o x (Some e)).
Proof.
  intros o x d e G N. unfold predict, parse_arg. destruct x as [| | |[|p rows]]; auto.
  pose proof (blind_params d e G) as S. destruct (parse_params d) as [s d1|c m d1|y d1], (parse_params e) as [s' e1|c' m' e1|y' e1]; simpl in S; try contradiction.
  - destruct S as [<- G1]. pose proof (validator_blind (p :: rows) d1 e1 G1) as [VE VG].
    destruct (series_validator T to_datetime (p :: rows) d1) as [v d2], (series_validator T to_datetime (p :: rows) e1) as [v' e2].
    simpl in VE, VG. subst v'. destruct v as [v|y]; auto.
    rewrite (VG "indices") by discriminate. destruct (get "indices" e2) as [i|]; auto. cbn [o_mode].
    destruct (o_mode o); [congruence|..]; cbn [o__error]; destruct (o__error o); reflexivity.
  - destruct S as (<- & <- & _). auto.
  - destruct S as (<- & _). auto.
Qed.

(** What is left of the granularity entry. *)
Lemma predict_leaves : forall o rows d k, rows <> [] -> k <> "indices" ->
  exists d', snd (PRED o (DFrame rows) (Some d)) = Some d' /\ get k d' = get k (left_behind (parse_params d)).
Proof.
  intros o rows d k NE N. unfold predict, parse_arg. destruct rows as [|p rows]; [congruence|].
  destruct (parse_params d) as [s e|c m e|y e]; cbn [left_behind]; [|exists e; auto|exists e; auto].
  pose proof (validator_keeps (p :: rows) e k N) as K. destruct (series_validator T to_datetime (p :: rows) e) as [v e2]. simpl in K.
  exists e2. split; auto. destruct v as [v|y]; auto. destruct (get "indices" e2); auto. cbn [o_mode o__error].
  destruct (o_mode o); [destruct (get DM e2); [|reflexivity]|..]; destruct (o__error o); reflexivity.
Qed.

(** The mode an object ends a request with. *)
Lemma predict_mode : forall o x p, o_mode o <> VNone -> o_mode (snd (fst (PRED o x p))) = o_mode o.
Proof.
  intros o x p N. unfold predict. assert (K : forall r o' p', parse_arg T to_datetime o x p = (r, o', p') -> o_mode o' = o_mode o).
  { intros r o' p'. unfold parse_arg. destruct p as [d|].
    2:{ destruct x as [| | |[|y rows]]; intros E; inversion E; auto. }
    destruct x as [| | |[|y rows]]; try (intros E; inversion E; reflexivity).
    destruct (parse_params d) as [s e|c m e|y' e]; try (intros E; inversion E; reflexivity).
    destruct (series_validator T to_datetime (y :: rows) e) as [v e2]. destruct v as [v|y']; [|intros E; inversion E; reflexivity].
    destruct (get "indices" e2); intros E; inversion E; reflexivity. }
  destruct (parse_arg T to_datetime o x p) as [[r o'] p'] eqn:E. specialize (K _ _ _ eq_refl).
  destruct r as [[[[rows s] i]|]|e]; auto. rewrite K. destruct (o_mode o); [congruence|..]; cbn [o__error]; destruct (o__error o'); reflexivity.
Qed.
(** No check of the series raises the request error. *)
Lemma validator_no_request_error : forall rows d c d2, series_validator T to_datetime rows d <> (Err (RequestErr c), d2).
Proof.
  intros rows d c d2. unfold series_validator. cbv zeta.
  destruct (length rows <? 12); [discriminate|]. destruct (8640 <? _)%Z; [discriminate|].
  destruct (numbers T rows) as [values|x]; [|discriminate].
  set (g := match get "granularity" d with Some (VGran g) => g | _ => GNone end). clearbody g.
  destruct (if match g with GNone => true | _ => false end then _ else _) as [stamps|]; [|discriminate].
  destruct (existsb overflow values); [discriminate|]. destruct (existsb is_nan values); [discriminate|].
  destruct (match g with GNone => true | _ => false end); [discriminate|].
  destruct (is_timestamp_ascending stamps =? -1)%Z; [discriminate|]. destruct (is_timestamp_ascending stamps =? -2)%Z; [discriminate|].
  destruct (get_indices_from_timestamps _ _ _) as [[ind bad]|x] eqn:E.
  2:{ intros X. inversion X; subst. revert E. unfold get_indices_from_timestamps. destruct stamps; [discriminate|].
      destruct g; unfold get_second_by_granularity, bind; cbn zeta; try discriminate;
      repeat match goal with |- context [match ?b with _ => _ end] => destruct b end; discriminate. }
  destruct bad; [discriminate|]. set (d3 := set "indices" _ d). clearbody d3.
  destruct (get "period" d3) as [[]|]; try discriminate; destruct (as_int _), ind as [l|]; try discriminate;
  destruct (last_opt l) as [zl|x] eqn:EL; try (destruct (_ || _); discriminate);
  revert EL; unfold last_opt; destruct (rev l); intros EL X; inversion EL; subst; discriminate.
Qed.
Lemma predict__error : forall o x p, o__error (snd (fst (PRED o x p))) = o__error o.
Proof.
  intros o x p. unfold predict. assert (K : forall r o' p', parse_arg T to_datetime o x p = (r, o', p') -> o__error o' = o__error o).
  { intros r o' p'. unfold parse_arg. destruct p as [d|].
    2:{ destruct x as [| | |[|y rows]]; intros E; inversion E; auto. }
    destruct x as [| | |[|y rows]]; try (intros E; inversion E; reflexivity).
    destruct (parse_params d) as [s e|c m e|y' e]; try (intros E; inversion E; reflexivity).
    destruct (series_validator T to_datetime (y :: rows) e) as [v e2]. destruct v as [v|y']; [|intros E; inversion E; reflexivity].
    destruct (get "indices" e2); intros E; inversion E; reflexivity. }
  destruct (parse_arg T to_datetime o x p) as [[r o'] p'] eqn:E. specialize (K _ _ _ eq_refl).
  destruct r as [[[[rows s] i]|]|e]; auto.
  destruct (match o_mode o' with VNone => _ | m => Some m end); auto. cbn [o__error]. rewrite K. destruct (o__error o); auto.
Qed.
End Predict.
