(** Parameters left out or unknown: the checks and the reading (C119). *)
From Coq Require Import String Ascii List Arith ZArith QArith Qcanon Bool Lia.
From Verif Require Import Base Num FillUp_model Margins_model SR_model Detect_model Dates_model Request_model Request_spec Request_proofs Request_proofs2 Request_proofs3 Request_proofs4 Follow_spec Follow_proofs Defaults_spec.
Import ListNotations.
Open Scope string_scope.
Open Scope nat_scope.

(** The settings read from a dictionary are determined by it. *)
Lemma reads_fun : forall d s s', (forall dd, ~ given "detector" d (VDict dd)) -> reads d s -> reads d s' -> s' = s.
Proof.
  intros d s s' ND R R'.
  destruct (reads_alike "period" (or_introl eq_refl) d d (fun k _ => eq_refl) s s' ND R R') as (E1 & E2 & E3 & E4 & E5 & E6 & E7 & _ & E9).
  destruct (reads_alike "sensitivity" (or_intror eq_refl) d d (fun k _ => eq_refl) s s' ND R R') as (_ & _ & _ & _ & _ & _ & _ & E8 & _).
  specialize (E8 eq_refl). specialize (E9 eq_refl). pose proof (reads_no_detector d s R ND) as D. pose proof (reads_no_detector d s' R' ND) as D'.
  destruct s, s'; cbn in *. subst. auto.
Qed.

(** The first rule that applies is the same if every rule applies to both or to neither. *)
Lemma decides_same : forall V A (rs : list (V * (A -> Prop))) x x' r,
  Forall (fun vp => snd vp x <-> snd vp x') rs -> decides rs x r -> decides rs x' r.
Proof.
  intros V A rs x x' r F D. induction D as [y|v P t y H|v P t y r N D IH]; inversion F as [|a b I F']; subst; simpl in *.
  - apply decides_nil.
  - apply decides_hit. apply I. auto.
  - apply decides_skip; [tauto|auto].
Qed.

Lemma not_bad_missing : forall k ok e, get k e = None -> ~ bad k ok e.
Proof. intros k ok e N (w & G & _). unfold given in G. congruence. Qed.
Lemma not_bad_fine : forall k (ok : pyval -> Prop) e w, given k e w -> ok w -> ~ bad k ok e.
Proof. intros k ok e w N G (u & G' & X). unfold given in *. assert (u = w) by congruence. subst. auto. Qed.
Lemma neither : forall P Q : Prop, ~ P -> ~ Q -> (P <-> Q).
Proof. tauto. Qed.

Ltac in_list := solve [simpl; repeat (solve [left; reflexivity] || right)].
Ltac fine := match goal with
  | |- exists z, is_int (VInt ?n) z /\ _ => exists n; split; [constructor|lia]
  | |- exists q, is_number (VFloat ?n) q /\ _ => exists n; split; [constructor|vm_compute; reflexivity]
  | |- exists q, VFloat ?n = VFloat q /\ _ => exists n; split; [reflexivity|split; vm_compute; first [reflexivity|discriminate]]
  | |- exists q, VFloat ?n = VFloat q => exists n; reflexivity
  | |- exists s g, VStr ?n = VStr s /\ In (s, g) _ => exists n; eexists; split; [reflexivity|in_list]
  | |- exists s, VStr ?n = VStr s /\ In s _ => exists n; split; [reflexivity|in_list]
  | |- VNone = VNone \/ _ => left; reflexivity
  | |- _ \/ _ => right; fine
  end.
Ltac split_default DEF := unfold defaults in DEF;
  repeat (destruct DEF as [DEF|DEF]; [injection DEF as <- <-|]); [..|destruct DEF].

(** A parameter given with its default value passes the same checks as left out. *)
Lemma default_rules : forall key v d d', In (key, v) defaults -> alike_but key d d' -> get key d = None -> given key d' v ->
  (key = "imputeMode" -> v <> VNone -> get "fillUpMode" d = None) ->
  Forall (fun vp => snd vp d <-> snd vp d') parameter_rules.
Proof.
  intros key v d d' DEF AB OUT GIV FILL.
  assert (IG : (key <> "imputeMode" \/ v = VNone) -> (impute_given d <-> impute_given d')).
  { intros [N| ->]; unfold impute_given, given in *.
    - rewrite (AB "imputeMode") by congruence. reflexivity.
    - destruct (String.eqb_spec key "imputeMode") as [->|N]; [|rewrite (AB "imputeMode") by congruence; reflexivity].
      apply neither; intros (w & G & X); congruence. }
  split_default DEF.
  all: try (assert (IG' := IG ltac:(first [left; discriminate | right; reflexivity])); clear IG).
  all: unfold parameter_rules; repeat apply Forall_cons; try apply Forall_nil; cbn [snd].
  all: try solve [unfold bad, impute_given, given; cbv beta; repeat (rewrite AB by discriminate); reflexivity].
  all: try solve [apply neither; [apply not_bad_missing; assumption | eapply not_bad_fine; [eassumption|fine]]].
  all: try solve [apply neither; [intros (w & G & _); unfold given in *; congruence | intros (w & G & [(l & X)|(l & X)]); unfold given in *; congruence]].
  all: try solve [apply neither; [intros (G & _); unfold given in *; congruence | intros (G & _); unfold given in *; congruence]].
  all: try solve [apply neither; [intros (_ & X); revert X; apply not_bad_missing; assumption | intros (_ & X); revert X; eapply not_bad_fine; [eassumption|fine]]].
  all: try solve [apply neither; [intros (_ & G & _); unfold given in *; congruence | intros (_ & G & _); unfold given in *; congruence]].
  all: try solve [rewrite IG'; unfold bad, given; cbv beta; repeat (rewrite AB by discriminate); reflexivity].
  - apply neither; [intros (_ & X); revert X; apply not_bad_missing; apply FILL; [reflexivity|discriminate] | intros (N & _); apply N; exists (VStr "auto"); split; [assumption|discriminate]].
  - apply neither; [intros (_ & G & _); unfold given in *; rewrite FILL in G by (auto; discriminate); discriminate | intros (N & _); apply N; exists (VStr "auto"); split; [assumption|discriminate]].
Qed.

(** ... and is read in the same way. *)
Lemma default_reads : forall key v d d' s, In (key, v) defaults -> alike_but key d d' -> get key d = None -> given key d' v ->
  (key = "imputeMode" -> v <> VNone -> get "fillUpMode" d = None) -> reads d s -> reads d' s.
Proof.
  intros key v d d' s DEF AB OUT GIV FILL R.
  assert (OR : forall A k (df : A) (P : pyval -> A -> Prop) a, (k = key -> P v df) -> reads_or k d df P a -> reads_or k d' df P a).
  { intros A k df P a PV RD. unfold reads_or, given in *. destruct (String.eqb_spec k key) as [->|N].
    - destruct RD as [[_ ->]|(w & G & _)]; [right; eauto|congruence].
    - rewrite (AB k N). auto. }
  destruct R as [R1 R2 R3 R4 R5 R6 R7 R8 R9 R10]. constructor.
  all: try (apply OR; [intros K; subst key; clear - DEF; unfold defaults in DEF;
    repeat (destruct DEF as [DEF|DEF]; [try discriminate DEF; injection DEF as <-|]); [..|contradiction]|assumption]).
  all: try solve [constructor]. all: try solve [eexists; split; [reflexivity|in_list]].
  - clear OR. unfold reads_fill, impute_given in *.
    destruct (String.eqb_spec key "imputeMode") as [->|N1].
    + assert (V : v = VNone \/ v = VStr "auto").
      { clear - DEF. unfold defaults in DEF. repeat (destruct DEF as [DEF|DEF]; [try discriminate DEF; injection DEF as <-; auto|]). contradiction. }
      assert (E2 : get "fillUpMode" d' = get "fillUpMode" d) by (apply AB; discriminate).
      assert (E3 : get "fixedValue" d' = get "fixedValue" d) by (apply AB; discriminate). unfold given in *. rewrite E2, E3.
      destruct R8 as [(n & G & _)|R8]; [congruence|]. destruct V as [->| ->].
      * assert (NI : ~ exists w, get "imputeMode" d' = Some w /\ w <> VNone) by (intros (w & G & X); congruence).
        right. destruct R8 as [(_ & X)|(_ & X)]; [left|right]; auto.
      * assert (F : get "fillUpMode" d = None) by (apply FILL; [reflexivity|discriminate]). rewrite F in R8.
        destruct R8 as [(_ & n & G & _)|(_ & _ & -> & ->)]; [congruence|]. left. exists "auto". split; auto. right. split; [discriminate|]. split; [in_list|auto].
    + assert (E1 : get "imputeMode" d' = get "imputeMode" d) by (apply AB; congruence). unfold given in *. rewrite E1.
      destruct (String.eqb_spec key "fillUpMode") as [->|N2].
      * destruct R8 as [X|[(_ & n & G & _)|(NI & _ & -> & ->)]]; [left; auto|congruence|]. right.
        assert (V : v = VNone \/ v = VStr "auto").
        { clear - DEF. unfold defaults in DEF. repeat (destruct DEF as [DEF|DEF]; [try discriminate DEF; injection DEF as <-; auto|]). contradiction. }
        destruct V as [->| ->]; [right; auto|left]. split; auto. exists "auto". split; auto. split; [in_list|]. right. split; [discriminate|auto].
      * rewrite (AB "fillUpMode") by congruence.
        assert (E3 : get "fixedValue" d' = get "fixedValue" d).
        { apply AB. intros K. subst key. clear - DEF. unfold defaults in DEF. repeat (destruct DEF as [DEF|DEF]; [discriminate DEF|]). contradiction. }
        rewrite E3. auto.
  - rewrite R9. unfold given in *. destruct (String.eqb_spec key "boundaryVersion") as [->|N]; [|rewrite AB by congruence; tauto].
    assert (V : v = VNone \/ v = VStr "V1").
    { clear - DEF. unfold defaults in DEF. repeat (destruct DEF as [DEF|DEF]; [try discriminate DEF; injection DEF as <-; auto|]). contradiction. }
    destruct V as [->| ->]; tauto.
  - intros ND. apply R10. intros dd G. apply (ND dd). unfold given in *. rewrite AB; auto.
    intros K. subst key. clear - DEF. unfold defaults in DEF. repeat (destruct DEF as [DEF|DEF]; [discriminate DEF|]). contradiction.
Qed.
Lemma default_nofill : forall key v d d', In (key, v) defaults -> alike_but key d d' -> get key d = None -> given key d' v -> nofill_of d' = nofill_of d.
Proof.
  intros key v d d' DEF AB OUT GIV. unfold nofill_of, given in *. destruct (String.eqb_spec key "fillUpMode") as [->|N]; [|rewrite AB by congruence; reflexivity].
  rewrite OUT, GIV. unfold defaults in DEF. repeat (destruct DEF as [DEF|DEF]; [try discriminate DEF; injection DEF as <-; auto|]). contradiction.
Qed.
Lemma default_other : forall key v k, In (key, v) defaults -> k = "detector" \/ k = "detect_mode" \/ k = "indices" -> k <> key.
Proof.
  intros key v k DEF K X. subst k. unfold defaults in DEF. repeat (destruct DEF as [DEF|DEF]; [injection DEF as <- _; destruct K as [K|[K|K]]; discriminate|]). contradiction.
Qed.

(** An unknown key is neither checked nor read. *)
Lemma unknown_rules : forall key d d', ~ In key known_keys -> alike_but key d d' -> Forall (fun vp => snd vp d <-> snd vp d') parameter_rules.
Proof.
  intros key d d' U AB. assert (E : forall k, In k known_keys -> get k d' = get k d) by (intros k I; apply AB; congruence).
  unfold parameter_rules; repeat apply Forall_cons; try apply Forall_nil; cbn [snd].
  all: unfold bad, impute_given, given; cbv beta; repeat (rewrite E by in_list); reflexivity.
Qed.
Lemma unknown_reads : forall key d d' s, ~ In key known_keys -> alike_but key d d' -> reads d s -> reads d' s.
Proof.
  intros key d d' s U AB R. assert (E : forall k, In k known_keys -> get k d' = get k d) by (intros k I; apply AB; congruence).
  destruct R as [R1 R2 R3 R4 R5 R6 R7 R8 R9 R10].
  constructor; unfold reads_or, reads_fill, impute_given, given in *; repeat (rewrite E by in_list); auto.
Qed.

(** * Requests that are checked and read alike *)
(** No interval is an interval of one. *)
Definition interval_or_one (c : option Z) : Z := match c with None => 1%Z | Some z => z end.
Lemma decides_same2 : forall V A (rs rs' : list (V * (A -> Prop))) x r,
  Forall2 (fun a b => fst b = fst a /\ (snd a x <-> snd b x)) rs rs' -> decides rs x r -> decides rs' x r.
Proof.
  intros V A rs rs' x r F D. revert rs' F. induction D as [y|v P t y H|v P t y r N D IH]; intros rs' F; inversion F as [|a [v' P'] b t' [I J] F']; subst; simpl in *.
  - apply decides_nil.
  - subst. apply decides_hit. apply J. auto.
  - subst. apply decides_skip; [tauto|auto].
Qed.
Section Alike.
Context {T : Type}.
Variable to_datetime : list T -> option (list stamp).
Hypothesis to_datetime_length : forall l st, to_datetime l = Some st -> length st = length l.
Variable majority : list Qc -> Qc.
Variable detect : args -> detector_arg -> option nat -> bool -> res (list row * nat * model_id * bool).
Variable beyond : list (point T) -> settings -> res (reply T).
Notation PRED := (predict T to_datetime majority detect beyond).
Notation ANSWER := (answer_request T majority detect beyond).

Lemma indices_interval : forall g c c' st, interval_or_one c' = interval_or_one c -> get_indices_from_timestamps g c' st = get_indices_from_timestamps g c st.
Proof. intros g c c' st E. unfold get_indices_from_timestamps. unfold interval_or_one in E. rewrite E. reflexivity. Qed.
Lemma series_alike : forall g c c' p nf (rows : list (point T)) v, interval_or_one c' = interval_or_one c ->
  decides (series_rules to_datetime g c p nf) rows v -> decides (series_rules to_datetime g c' p nf) rows v.
Proof.
  intros g c c' p nf rows v E. apply decides_same2. unfold series_rules. repeat apply Forall2_cons; try apply Forall2_nil; cbn [fst snd]; (split; [reflexivity|]); try reflexivity.
  - split; intros (N & st & i & A & B); split; auto; exists st, i; split; auto; [rewrite (indices_interval g c c' st E)|rewrite <- (indices_interval g c c' st E)]; auto.
  - split; intros (N & st & l & z & q & A & B & X); split; auto; exists st, l, z, q; split; auto; split; auto; [rewrite (indices_interval g c c' st E)|rewrite <- (indices_interval g c c' st E)]; auto.
Qed.
Lemma accepted_alike : forall g c c' (rows : list (point T)) l, interval_or_one c' = interval_or_one c ->
  accepted_indices to_datetime g c rows l -> accepted_indices to_datetime g c' rows l.
Proof.
  intros g c c' rows l E [A|(A & B & st & X & Y)]; [left; auto|right]. split; auto. split; auto. exists st. split; auto. rewrite (indices_interval g c c' st E). auto.
Qed.

Lemma alike_requests : forall o rows d d', rows <> [] ->
  Forall (fun vp => snd vp d <-> snd vp d') parameter_rules -> (forall s, reads d s -> micro_ok s) -> (forall dd, ~ given "detector" d (VDict dd)) ->
  (forall k, k = "detector" \/ k = "detect_mode" \/ k = "indices" -> get k d' = get k d) -> nofill_of d' = nofill_of d ->
  (forall s, reads d s -> exists s', reads d' s' /\ s_gran s' = s_gran s /\ s_period s' = s_period s /\ interval_or_one (s_interval s') = interval_or_one (s_interval s) /\
    (forall mode i, s_detector s = Some (mkDet None None) -> ANSWER mode rows s' i = ANSWER mode rows s i)) ->
  fst (PRED o (DFrame rows) (Some d')) = fst (PRED o (DFrame rows) (Some d)).
Proof.
  intros o rows d d' NE RULES M ND KEEP NF READ.
  assert (VD : exists r, decides parameter_rules d r).
  { pose proof (parse_params_spec d) as K. destruct (parse_params d) as [s e|c m e|x e]; [exists None; apply K|eexists; exact K|eexists; exact K]. }
  destruct VD as (r & VD). pose proof (decides_same _ _ _ _ _ _ RULES VD) as VD'.
  destruct r as [[c m|x]|].
  - destruct (predict_refused to_datetime majority detect beyond o rows d c m NE VD) as (e & ->).
    destruct (predict_refused to_datetime majority detect beyond o rows d' c m NE VD') as (e' & ->). reflexivity.
  - destruct (predict_raised to_datetime majority detect beyond o rows d x NE VD) as (e & ->).
    destruct (predict_raised to_datetime majority detect beyond o rows d' x NE VD') as (e' & ->). reflexivity.
  - destruct (params_accepted d VD) as (s & e & E & R & B). destruct (params_accepted d' VD') as (s' & e' & E' & R' & B').
    assert (ND' : forall dd, ~ given "detector" d' (VDict dd)) by (intros dd; unfold given; rewrite KEEP by auto; apply ND).
    destruct (READ s R) as (s1 & R1 & G1 & P1 & I1 & A1). rewrite (reads_fun d' s' s1 ND' R' R1) in *. clear s1 R1.
    assert (M' : micro_ok s'). { unfold micro_ok. rewrite G1. change (s_gran s = Microsecond -> (interval_or_one (s_interval s') <= 4006)%Z). rewrite I1. apply (M s R). }
    destruct (predict_past to_datetime to_datetime_length majority detect beyond o rows d s e NE E (M s R)) as (v & f & _ & D & LI & AC & _ & ->).
    destruct (predict_past to_datetime to_datetime_length majority detect beyond o rows d' s' e' NE E' M') as (v' & f' & _ & D' & LI' & AC' & _ & ->).
    rewrite G1, P1, NF in D'.
    assert (v' = v). { eapply decides_fun; [exact D'|]. apply (series_alike _ (s_interval s)); auto. } subst v'.
    assert (IND : get "indices" f' = get "indices" f).
    { assert (LV : (v = None \/ exists c, v = Some (c, "InsufficientPoints")) -> get "indices" f' = get "indices" f).
      { intros V. destruct (AC V) as (l & ns & _ & X & AI & _). destruct (AC' V) as (l' & ns' & _ & X' & AI' & _).
        rewrite X, X'. f_equal. f_equal. rewrite G1 in AI'. apply (indices_fun to_datetime (s_gran s) (s_interval s') rows); auto. apply (accepted_alike _ (s_interval s)); auto. }
      destruct v as [[c m]|]; [|apply LV; auto]. simpl in LI, LI'.
      destruct LI as [[-> _]|[[-> Y]|(N1 & N2 & Y)]]; [apply LV; eauto|..].
      - destruct LI' as [[X _]|[[_ Y']|(N1 & N2 & Y')]]; [discriminate|congruence|congruence].
      - destruct LI' as [[X _]|[[X _]|(_ & _ & Y')]]; [congruence|congruence|]. rewrite Y, Y'. apply KEEP. auto. }
    assert (MF : mode_for o d' = mode_for o d) by (unfold mode_for; rewrite (KEEP "detect_mode") by auto; reflexivity).
    rewrite IND, MF. cbv zeta. destruct (get "indices" f) as [i|]; [|reflexivity]. destruct (mode_for o d) as [mode|]; [|reflexivity].
    cbn [fst]. destruct (o__error o); [reflexivity|]. rewrite A1 by (apply (reads_no_detector d s R ND)). reflexivity.
Qed.
End Alike.
