(** Follow-up requests: how parameters are read from two dictionaries that differ
    under one key (C117). *)
From Coq Require Import String Ascii List Arith ZArith QArith Qcanon Bool Lia.
From Verif Require Import Base Num Sorting Kernel_model Kernel_spec Kernel_proofs FillUp_model FillUp_spec FillUp_proofs FillUp_proofs6 FillUp_props Helpers_model
  Margins_model Margins_spec Margins_props Margins_proofs Margins_proofs3 SR_model Detect_model Detect_spec Detect_proofs Detect_proofs5 Detect_proofs6 Detect_proofs7 Detect_props Dates_model
  Request_model Request_spec Request_proofs Request_proofs2 Request_proofs3 Request_proofs4 Request_proofs6 Request_proofs7 Request_proofs8 Request_props
  Period_model Period_spec Period_props Pipe_model Pipe_spec Pipe_proofs3 Follow_spec.
Import ListNotations.
Open Scope string_scope.
Open Scope nat_scope.

Lemma is_int_fun : forall v z1 z2, is_int v z1 -> is_int v z2 -> z1 = z2.
Proof. intros v z1 z2 A B. inversion A; subst; inversion B; auto. Qed.
Lemma is_number_fun : forall v q1 q2, is_number v q1 -> is_number v q2 -> q1 = q2.
Proof.
  intros v q1 q2 A B. inversion A as [v1 z1 I1|]; subst; inversion B as [v2 z2 I2|]; subst; auto.
  - rewrite (is_int_fun _ _ _ I1 I2). auto.
  - inversion I1.
  - match goal with H : is_int (VFloat _) _ |- _ => inversion H end.
Qed.
Lemma reads_or_fun : forall A k d d' (df : A) (R : pyval -> A -> Prop) a a', get k d' = get k d -> (forall v x y, R v x -> R v y -> x = y) ->
  reads_or k d df R a -> reads_or k d' df R a' -> a = a'.
Proof.
  intros A k d d' df R a a' E F [[G ->]|(v & G & I)] [[G' ->]|(v' & G' & I')]; unfold given in *; auto; try congruence.
  assert (v' = v) by congruence. subst. eauto.
Qed.
Lemma fill_values_fun : forall s m m', In (s, m) fill_values -> In (s, m') fill_values -> m = m'.
Proof.
  intros s m m' H H'. simpl in H, H'.
  repeat (destruct H as [H|H]; [injection H as <- <-; repeat (destruct H' as [H'|H']; [try discriminate H'; injection H' as <-; reflexivity|]); contradiction|]).
  contradiction.
Qed.
Lemma granularity_fun : forall v g g', (exists n, v = VStr n /\ In (n, g) granularity_names) -> (exists n, v = VStr n /\ In (n, g') granularity_names) -> g = g'.
Proof.
  intros v g g' (n & -> & H) (n' & E & H'). injection E as <-. simpl in H, H'.
  repeat (destruct H as [H|H]; [injection H as <- <-; repeat (destruct H' as [H'|H']; [try discriminate H'; injection H' as <-; reflexivity|]); contradiction|]).
  contradiction.
Qed.

(** Settings read from dictionaries that differ under "period" or "sensitivity" at most. *)
Section Alike.
Variable key : string.
Hypothesis KEY : key = "period" \/ key = "sensitivity".
Variable d d' : dict.
Hypothesis AB : alike_but key d d'.
Ltac same := apply AB; destruct KEY as [-> | ->]; discriminate.
Lemma fill_fun : forall m m' f f', reads_fill d m f -> reads_fill d' m' f' -> m = m' /\ f = f'.
Proof.
  intros m m' f f'. unfold reads_fill, impute_given, given.
  assert (E1 : get "imputeMode" d' = get "imputeMode" d) by same.
  assert (E2 : get "fillUpMode" d' = get "fillUpMode" d) by same.
  assert (E3 : get "fixedValue" d' = get "fixedValue" d) by same.
  rewrite E1, E2, E3. intros [(s & G & H)|[(NI & s & G & I & H)|(NI & G & -> & ->)]] [(s' & G' & H')|[(NI' & s' & G' & I' & H')|(NI' & G' & -> & ->)]].
  - assert (s' = s) by congruence. subst s'. destruct H as [(-> & -> & ->)|(N & I & ->)], H' as [(X & -> & ->)|(N' & I' & ->)]; try congruence; auto.
    split; auto. eapply fill_values_fun; eauto.
  - exfalso. apply NI'. eexists; split; eauto; discriminate.
  - exfalso. apply NI'. eexists; split; eauto; discriminate.
  - exfalso. apply NI. eexists; split; eauto; discriminate.
  - assert (s' = s) by congruence. subst s'. split; [eapply fill_values_fun; eauto|].
    destruct H as [(-> & v & q & A & B & ->)|(N & ->)], H' as [(X & v' & q' & A' & B' & ->)|(N' & ->)]; try congruence.
    assert (v' = v) by congruence. subst v'. rewrite (is_number_fun _ _ _ B B'). auto.
  - exfalso. destruct G' as [G'|G']; congruence.
  - exfalso. apply NI. eexists; split; eauto; discriminate.
  - exfalso. destruct G as [G|G]; congruence.
  - auto.
Qed.
Lemma reads_alike : forall s s', (forall dd, ~ given "detector" d (VDict dd)) -> reads d s -> reads d' s' ->
  s_gran s' = s_gran s /\ s_interval s' = s_interval s /\ s_alpha s' = s_alpha s /\ s_ratio s' = s_ratio s /\ s_threshold s' = s_threshold s /\
  s_fill s' = s_fill s /\ s_v1 s' = s_v1 s /\ (key = "sensitivity" -> s_period s' = s_period s) /\ (key = "period" -> s_sensitivity s' = s_sensitivity s).
Proof.
  intros s s' ND R R'.
  assert (IF : forall v x y, (exists z, is_int v z /\ x = Some z) -> (exists z, is_int v z /\ y = Some z) -> x = y).
  { intros v x y (z1 & A1 & ->) (z2 & A2 & ->). rewrite (is_int_fun _ _ _ A1 A2). auto. }
  split. { symmetry. eapply reads_or_fun; [|exact granularity_fun|apply (reads_granularity d s R)|apply (reads_granularity d' s' R')]. same. }
  split. { symmetry. eapply reads_or_fun; [|exact IF|apply (reads_interval d s R)|apply (reads_interval d' s' R')]. same. }
  split. { symmetry. eapply reads_or_fun; [|exact is_number_fun|apply (reads_alpha d s R)|apply (reads_alpha d' s' R')]. same. }
  split. { symmetry. eapply reads_or_fun; [|exact is_number_fun|apply (reads_ratio d s R)|apply (reads_ratio d' s' R')]. same. }
  split. { symmetry. eapply reads_or_fun; [|exact is_number_fun|apply (reads_threshold d s R)|apply (reads_threshold d' s' R')]. same. }
  split. { destruct (fill_fun _ _ _ _ (reads_mode d s R) (reads_mode d' s' R')) as [A B]. destruct (s_fill s), (s_fill s'). cbn in *. congruence. }
  split. { apply eq_true_iff_eq. rewrite (reads_boundary d s R), (reads_boundary d' s' R'). unfold given. assert (E : get "boundaryVersion" d' = get "boundaryVersion" d) by same. rewrite E. tauto. }
  split.
  - intros K. symmetry. eapply reads_or_fun; [| |apply (reads_period d s R)|apply (reads_period d' s' R')].
    + apply AB. rewrite K. discriminate.
    + intros v x y (n1 & A1 & ->) (n2 & A2 & ->). pose proof (is_int_fun _ _ _ A1 A2). f_equal. lia.
  - intros K. symmetry. eapply reads_or_fun; [|exact is_int_fun|apply (reads_sensitivity d s R)|apply (reads_sensitivity d' s' R')]. apply AB. rewrite K. discriminate.
Qed.
Lemma nofill_alike : nofill_of d' = nofill_of d.
Proof. unfold nofill_of. assert (E : get "fillUpMode" d' = get "fillUpMode" d) by same. rewrite E. auto. Qed.
Lemma no_detector_alike : (forall dd, ~ given "detector" d (VDict dd)) -> forall dd, ~ given "detector" d' (VDict dd).
Proof. unfold given. assert (E : get "detector" d' = get "detector" d) by same. rewrite E. auto. Qed.
End Alike.

(** The checks of the parameters, if the value under the key is fine. *)
Lemma contra : forall P Q : Prop, (Q -> P) -> ~ P -> ~ Q.
Proof. tauto. Qed.
Ltac alike_rule AB X := refine (contra _ _ _ X); unfold bad, impute_given, given; cbv beta;
  repeat (rewrite AB by discriminate); exact (fun y => y).
Lemma decides_sensitivity : forall d d' v, alike_but "sensitivity" d d' -> given "sensitivity" d' (VInt v) -> (0 <= v <= 100)%Z ->
  decides parameter_rules d None -> decides parameter_rules d' None.
Proof.
  intros d d' v AB G V D. unfold parameter_rules in *.
  repeat (apply decides_cons_none in D; let X := fresh "X" in destruct D as [X D]; apply decides_skip;
    [clear D; first [solve [alike_rule AB X] | clear X; intros (w & G' & N); unfold given in *; apply N; exists v; assert (w = VInt v) by congruence; subst w; split; [constructor|auto]]|clear X]).
  apply decides_nil.
Qed.
Lemma decides_period : forall d d' v, alike_but "period" d d' -> given "period" d' (VInt v) -> (0 <= v)%Z ->
  decides parameter_rules d None -> decides parameter_rules d' None.
Proof.
  intros d d' v AB G V D. unfold parameter_rules in *.
  repeat (apply decides_cons_none in D; let X := fresh "X" in destruct D as [X D]; apply decides_skip;
    [clear D; first [solve [alike_rule AB X] | clear X; intros (w & G' & N); unfold given in *; apply N; exists v; assert (w = VInt v) by congruence; subst w; split; [constructor|auto]]|clear X]).
  apply decides_nil.
Qed.

(** * The answer depends on the parameters through what is read from them *)
Section Predict.
Context {T : Type}.
Variable to_datetime : list T -> option (list stamp).
Hypothesis to_datetime_length : forall l st, to_datetime l = Some st -> length st = length l.
Lemma stamps_fun : forall (rows : list (point T)) st st', read_times to_datetime rows st -> read_times to_datetime rows st' -> st = st'.
Proof.
  intros rows st st' (ts & F & E) (ts' & F' & E'). assert (ts' = ts); [|congruence].
  clear E E'. revert ts' F'. induction F as [|x t rows ts X F IH]; intros ts' F'; inversion F'; subst; auto. f_equal; [congruence|auto].
Qed.
Lemma indices_fun : forall g c (rows : list (point T)) l l', accepted_indices to_datetime g c rows l -> accepted_indices to_datetime g c rows l' -> l = l'.
Proof.
  intros g c rows l l' [[A ->]|(A & _ & st & R & E)] [[A' ->]|(A' & _ & st' & R' & E')]; auto; try contradiction.
  assert (st' = st) by (eapply stamps_fun; eauto). subst. congruence.
Qed.
Lemma values_fun : forall (rows : list (point T)) vs vs', Forall2 (fun x v => w_value x = Num (Request_model.Fin v)) rows vs ->
  Forall2 (fun x v => w_value x = Num (Request_model.Fin v)) rows vs' -> vs = vs'.
Proof.
  intros rows vs vs' F. revert vs'. induction F as [|x v rows vs X F IH]; intros vs' F'; inversion F'; subst; auto. f_equal; [congruence|auto].
Qed.
Lemma good_series_period : forall g c p p' nf (rows : list (point T)) l, good_series to_datetime g c p nf rows -> accepted_indices to_datetime g c rows l -> nf = false ->
  (forall n, p' = Some n -> (2 * Z.of_nat n <= last l 0)%Z) -> good_series to_datetime g c p' nf rows.
Proof.
  intros g c p p' nf rows l (A & B & C & D) AI NF H. split; auto. split; auto. split; auto. intros NG. destruct (D NG) as (st & l0 & R & O & E & _).
  exists st, l0. split; auto. split; auto. split; auto. intros n P. split; [|congruence].
  destruct AI as [[X _]|(_ & _ & st' & R' & E')]; [contradiction|]. assert (st' = st) by (eapply stamps_fun; eauto). subst st'.
  assert (l0 = l) by congruence. subst l0. intros z Z. specialize (H n P).
  replace (last l 0%Z) with z in H; auto. clear - Z. destruct l as [|x l]; [discriminate|]. destruct (exists_last (l := x :: l)) as (t & y & E); [discriminate|].
  rewrite E in *. rewrite last_last. rewrite app_length in Z. simpl in Z. rewrite nth_error_app2 in Z by lia. replace (length t + 1 - 1 - length t) with 0 in Z by lia. simpl in Z. congruence.
Qed.
End Predict.

(** * Margins under a higher sensitivity *)
Lemma margins_follow : forall v1 sr out z z', (0 <= z <= z')%Z -> (z' <= 100)%Z -> out <> [] ->
  exists os os' ol ol', get_margins_entire v1 sr out (qz z) = Ok os /\ get_margins_entire v1 sr out (qz z') = Ok os' /\
    get_margins_last v1 sr out (qz z) = Ok ol /\ get_margins_last v1 sr out (qz z') = Ok ol' /\
    length os = length out /\ Forall2 no_quieter os os' /\ no_quieter ol ol'.
Proof.
  intros v1 sr out z z' HZ HM NE.
  destruct (C10_margins_nonnegative v1 sr out z NE ltac:(lia)) as (os & E & L & X). destruct (C10_margins_nonnegative v1 sr out z' NE ltac:(lia)) as (os' & E' & L' & X').
  destruct (C13_sensitivity_monotone v1 sr out z z' os os' HZ HM E E') as [_ MO].
  assert (ER : exists r, nth_error out (length out - 1) = Some r).
  { destruct (nth_error out (length out - 1)) eqn:Q; eauto. apply nth_error_None in Q. destruct out; [congruence|simpl in Q; lia]. }
  destruct ER as (r & ER).
  destruct (C14_latest_is_last_of_entire v1 sr out z r ltac:(lia) ER) as (os1 & o & ol & E1 & O & EL & Q1 & _ & _ & _ & _ & Q2 & _).
  destruct (C14_latest_is_last_of_entire v1 sr out z' r ltac:(lia) ER) as (os2 & o' & ol' & E2 & O' & EL' & P1 & _ & _ & _ & _ & P2 & _).
  assert (os1 = os) by congruence. assert (os2 = os') by congruence. subst os1 os2.
  assert (NQ : forall i a b, nth_error os i = Some a -> nth_error os' i = Some b -> no_quieter a b).
  { intros i a b A B. split; [|eapply MO; eauto]. destruct (nth_error out i) as [x|] eqn:Ex.
    - destruct (X i x a Ex A) as (U & _). destruct (X' i x b Ex B) as (U' & _). congruence.
    - apply nth_error_None in Ex. assert (i < length os) by (apply nth_error_Some; congruence). lia. }
  exists os, os', ol, ol'. repeat (split; [solve [auto]|]). split.
  - clear - L L' NQ. assert (LL : length os = length os') by congruence. clear L L'. revert os' NQ LL. induction os as [|a os IH]; intros [|b os'] NQ LL; try discriminate; constructor.
    + apply (NQ 0); auto.
    + apply IH; [|auto]. intros i x y A B. apply (NQ (S i)); auto.
  - destruct (NQ _ _ _ O O') as [A B]. split; [congruence|]. rewrite Q2, P2. auto.
Qed.
Lemma zip_follow : forall A (R : outcome -> outcome -> Prop) (ts : list A) os os', Forall2 R os os' ->
  Forall2 (fun x x' => fst x' = fst x /\ R (snd x) (snd x')) (zip_pair ts os) (zip_pair ts os').
Proof. intros A R ts os os' F. revert ts. induction F as [|a b os os' H F IH]; intros [|t ts]; simpl; constructor; simpl; auto. Qed.

(** * A found period, given *)
Section Again.
Variable L : libs.
Lemma detect_again : forall a lm r, whole_detect L a (mkDet None None) None lm = Ok r -> whole_detect L a (mkDet None None) (Some (snd (fst (fst r)))) lm = Ok r.
Proof.
  intros a lm r H. unfold whole_detect, detect_model in *. cbn [should_trigger_model_selection d_name] in *.
  match type of H with (do _ <- ?x; _) = _ => destruct x as [[[[out p] m] b]|] eqn:E; [|discriminate] end.
  rewrite bind_ok in H. assert (R : r = (map refine_row_flags out, p, m, b)) by congruence. subst r. cbn [fst snd].
  match goal with |- (do _ <- ?x; _) = _ => assert (X : x = Ok (out, p, m, b)); [|rewrite X; reflexivity] end.
  clear H. unfold detect_with_model_selection in *. cbv zeta in *.
  match type of E with (do _ <- ?x; _) = _ => destruct x as [p0|]; [|discriminate] end. rewrite bind_ok in *.
  assert (p0 = p); [|subst p0; exact E].
  destruct (_ && _); [discriminate|].
  match type of E with (do _ <- ?x; _) = _ => destruct x as [fl|]; [|discriminate] end. rewrite bind_ok in E.
  match type of E with (do _ <- ?x; _) = _ => destruct x as [se|]; [|discriminate] end. rewrite bind_ok in E.
  match type of E with (do _ <- ?x; _) = _ => destruct x as [rm|]; [|discriminate] end. rewrite bind_ok in E. congruence.
Qed.
Lemma found_period : forall a lm out p m b l, whole_detect L a (mkDet None None) None lm = Ok (out, p, m, b) ->
  make_fup (Some l) (map Some (a_values a)) default_maxlen = Ok (a_fup a) -> l <> [] -> (2 * Z.of_nat p <= last l 0)%Z.
Proof.
  intros a lm out p m b l H HF NE. destruct (make_fup_ok_inv _ _ _ _ NE HF) as (WP & EI & EV & EA & EM & EN & _).
  destruct WP as [X|(LL & _ & HD & SS)]; [contradiction|].
  assert (RM : (Z.of_nat (length l) <= last l 0 + 1)%Z) by (apply sorted_room; auto).
  assert (LP : 1 <= length l) by (destruct l; [congruence|simpl; lia]).
  assert (LV : length (f_values (a_fup a)) = length l) by (rewrite LL, EV; rewrite map_length; auto).
  assert (DP : forall s, whole_period L (a_gran a) (a_interval a) s = Ok p -> p = 0 \/ 2 * p < length s).
  { intros s. unfold whole_period, detected_period, default_detection. destruct (all_some s) as [v|] eqn:E; [|discriminate].
    intros D. match type of D with (do _ <- ?x; _) = _ => destruct x as [[q src]|] eqn:ED; [|discriminate] end. rewrite bind_ok in D. cbn [fst] in D.
    assert (q = p) by congruence. subst q. replace (length s) with (length v); [eapply C28_fits_twice; exact ED|].
    clear - E. revert v E. induction s as [|[x|] t IH]; intros v E; cbn [all_some] in E; [inversion E; auto| |discriminate].
    destruct (all_some t) as [r|]; [|discriminate]. inversion E; subst v. cbn [length]. f_equal. apply IH; auto. }
  unfold whole_detect, detect_model in H. cbn [should_trigger_model_selection d_name] in H.
  match type of H with (do _ <- ?x; _) = _ => destruct x as [[[[out0 p0] m0] b0]|] eqn:E; [|discriminate] end.
  rewrite bind_ok in H. assert (p0 = p) by congruence. subst p0. clear H. unfold detect_with_model_selection in E. cbv zeta in E.
  match type of E with (do _ <- ?x; _) = _ => destruct x as [p0|] eqn:EP; [|discriminate] end. rewrite bind_ok in E.
  assert (p0 = p).
  { clear EP. destruct (_ && _); [discriminate|].
    match type of E with (do _ <- ?x; _) = _ => destruct x as [fl|]; [|discriminate] end. rewrite bind_ok in E.
    match type of E with (do _ <- ?x; _) = _ => destruct x as [se|]; [|discriminate] end. rewrite bind_ok in E.
    match type of E with (do _ <- ?x; _) = _ => destruct x as [rm|]; [|discriminate] end. rewrite bind_ok in E. congruence. }
  subst p0. clear E. destruct (Q2Qc (1 # 2) <? missing_ratio (a_fup a))%Qc. { assert (p = 0) by congruence. subst p. lia. }
  unfold period_detection_with_filled_values in EP. destruct (f_need (a_fup a)) eqn:HN.
  - match type of EP with (do _ <- (do _ <- ?x; _); _) = _ => destruct x as [[[full tags]|]|] eqn:E1; [| |discriminate] end;
      rewrite !bind_ok in EP; cbn [option_map fst] in EP; apply DP in EP; [|rewrite map_length in EP; lia].
    destruct (accepted_facts _ _ _ _ HF HN) as (_ & _ & _ & _ & _ & _ & ML & _).
    assert (length full = f_all (a_fup a)); [|lia].
    destruct (a_mode a); cbn [fill_up_on_demand] in E1; try discriminate E1;
      (refine (proj1 (C02_fill_keeps_submitted_values _ l _ default_maxlen (a_fup a) _ _ _ full tags HF ML _ _ E1)); [reflexivity|]; intros [X|X]; discriminate X).
  - rewrite bind_ok in EP. apply DP in EP. rewrite map_length in EP. lia.
Qed.
End Again.
