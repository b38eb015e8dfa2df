(** Timestamps moved by a constant: order, indices, verdict, answer. *)
From Coq Require Import String List Arith ZArith QArith Qcanon Bool Lia.
From Verif Require Import Base Num Helpers_model Margins_model SR_model Detect_model Detect_spec Dates_model Dates_spec Dates_proofs Dates_props
  Request_model Request_spec Request_proofs Request_proofs2 Request_proofs3 Request_proofs4 Request_proofs7 Units_spec Units_proofs Shift_spec.
Import ListNotations.
Open Scope Z_scope.

(** * Order *)
Lemma stamp_ltb_iff : forall a b, stamp_ok a -> stamp_ok b -> (stamp_ltb a b = true <-> epoch_us a < epoch_us b).
Proof.
  intros a b Ha Hb. split; [apply epoch_mono; auto|]. intros L. destruct (stamp_ltb a b) eqn:E; auto. exfalso.
  destruct (stamp_ltb b a) eqn:F; [pose proof (epoch_mono _ _ Hb Ha F); lia|].
  pose proof (stamp_eq _ _ E F) as D. destruct a as [da ua], b as [db ub]. cbn [s_date] in D. subst db.
  unfold epoch_us in L. cbn [s_date s_us] in L. unfold stamp_ltb in E. cbn [s_date s_us] in E.
  rewrite !Z.ltb_irrefl, !Z.eqb_refl in E. cbn in E. apply Z.ltb_ge in E. lia.
Qed.
Lemma later_order : forall us a b a' b', stamp_ok a -> stamp_ok b -> stamp_ok a' -> stamp_ok b' -> later us a a' -> later us b b' ->
  stamp_ltb a' b' = stamp_ltb a b.
Proof.
  intros us a b a' b' A B A' B' L M. apply Bool.eq_iff_eq_true. rewrite !stamp_ltb_iff; auto. unfold later in *. lia.
Qed.
Lemma months_order : forall k a b a' b', stamp_ok a -> stamp_ok b -> stamp_ok a' -> stamp_ok b' -> months_later k a a' -> months_later k b b' ->
  stamp_ltb a' b' = stamp_ltb a b.
Proof.
  intros k [[ya ma da] ua] [[yb mb db] ub] [[ya' ma' da'] ua'] [[yb' mb' db'] ub'] (A & _) (B & _) (A' & _) (B' & _) (L1 & L2 & L3) (M1 & M2 & M3).
  apply valid_iff in A, B, A', B'. unfold month_no, stamp_ltb in *. cbn [s_date s_us yr mo dy] in *. subst.
  destruct A as [A _], B as [B _], A' as [A' _], B' as [B' _].
  assert (X : (ya' <? yb') || (ya' =? yb') && (ma' <? mb') = (ya <? yb) || (ya =? yb) && (ma <? mb)).
  { destruct (Z.ltb_spec ya' yb'), (Z.ltb_spec ya yb), (Z.eqb_spec ya' yb'), (Z.eqb_spec ya yb), (Z.ltb_spec ma' mb'), (Z.ltb_spec ma mb); cbn; auto; lia. }
  assert (Y : (ya' =? yb') && (ma' =? mb') = (ya =? yb) && (ma =? mb)).
  { destruct (Z.eqb_spec ya' yb'), (Z.eqb_spec ya yb), (Z.eqb_spec ma' mb'), (Z.eqb_spec ma mb); cbn; auto; lia. }
  destruct (ya' <? yb'), (ya' =? yb'), (ma' <? mb'), (ma' =? mb'), (ya <? yb), (ya =? yb), (ma <? mb), (ma =? mb); cbn in *; congruence.
Qed.
Lemma ascending_same : forall (R : stamp -> stamp -> Prop) st st', Forall2 R st st' ->
  (forall a b a' b', In a st -> In b st -> In a' st' -> In b' st' -> R a a' -> R b b' -> stamp_ltb a' b' = stamp_ltb a b) ->
  is_timestamp_ascending st' = is_timestamp_ascending st.
Proof.
  intros R st st' F. induction F as [|a a' t t' Ra F IH]; intros H; auto. destruct F as [|b b' t t' Rb F]; auto.
  assert (E : forall a b t, is_timestamp_ascending (a :: b :: t) =
    if stamp_ltb b a then -1 else if negb (stamp_ltb a b) then -2 else is_timestamp_ascending (b :: t)) by reflexivity.
  rewrite !E. rewrite (H a b a' b'), (H b a b' a') by (simpl; auto). rewrite IH; auto.
  intros c d c' d' C D C' D'. apply H; right; auto.
Qed.

(** * Indices *)
Lemma F2_impl : forall A B (R S : A -> B -> Prop) l m, (forall a b, R a b -> S a b) -> Forall2 R l m -> Forall2 S l m.
Proof. intros A B R S l m H F. induction F; constructor; auto. Qed.
Lemma F2_nth2 : forall A B (R : A -> B -> Prop) l m i a, Forall2 R l m -> nth_error l i = Some a -> exists b, nth_error m i = Some b /\ R a b.
Proof.
  intros A B R l m i a F. revert i. induction F as [|x y l m Rx F IH]; intros [|i] E; try discriminate; cbn in *.
  - injection E as <-. eauto.
  - apply IH. auto.
Qed.
Lemma F2_fun : forall A B (P : A -> Z -> Prop) (Q : B -> Z -> Prop) (l : list A) (m : list B) r s,
  Forall2 (fun t t' => forall k j, P t k -> Q t' j -> k = j) l m -> Forall2 P l r -> Forall2 Q m s -> r = s.
Proof.
  intros A B P Q l m r s F. revert r s. induction F as [|x y l m Rx F IH]; intros r s G H; inversion G; inversion H; subst; auto.
  f_equal; eauto.
Qed.
Lemma answer_same : forall (idx idx' : stamp -> Z -> Prop) ts ts' r r',
  Forall2 (fun t t' => (forall k, idx t k <-> idx' t' k) /\ forall k j, idx t k -> idx t j -> k = j) ts ts' ->
  answer idx ts r -> answer idx' ts' r' -> r = r'.
Proof.
  intros idx idx' ts ts' r r' F A B.
  assert (F' : forall i t t', nth_error ts i = Some t -> nth_error ts' i = Some t' -> forall k, idx t k <-> idx' t' k).
  { intros i t t' E E'. destruct (F2_nth2 _ _ _ _ _ _ _ F E) as (y & Ey & Hy & _). rewrite E' in Ey. injection Ey as <-. auto. }
  assert (H2 : forall l i t', Forall2 idx ts l -> nth_error ts' i = Some t' -> exists k, idx' t' k).
  { intros l i t' G E'. destruct (F2_nth _ _ _ _ _ _ _ F E') as (t & E & _). destruct (F2_nth2 _ _ _ _ _ _ _ G E) as (k & _ & K).
    exists k. apply (F' i t t'); auto. }
  assert (H3 : forall l i t, Forall2 idx' ts' l -> nth_error ts i = Some t -> exists k, idx t k).
  { intros l i t G E. destruct (F2_nth2 _ _ _ _ _ _ _ F E) as (t' & E' & _). destruct (F2_nth2 _ _ _ _ _ _ _ G E') as (k & _ & K).
    exists k. apply (F' i t t'); auto. }
  destruct r as [[l|] [i|]], r' as [[l'|] [i'|]]; cbn in A, B; try contradiction.
  - f_equal. f_equal. eapply F2_fun; [|exact A|exact B]. eapply F2_impl; [|exact F]. intros t t' (X & Y) k j K J. apply Y; auto. apply X; auto.
  - destruct B as (t' & E & N & _). destruct (H2 l i' t' A E) as (k & K). exfalso. exact (N k K).
  - destruct A as (t & E & N & _). destruct (H3 l' i t B E) as (k & K). exfalso. exact (N k K).
  - destruct A as (t & E & N & L), B as (t' & E' & N' & L'). f_equal. f_equal.
    destruct (lt_eq_lt_dec i i') as [[X|X]|X]; auto; exfalso.
    + destruct (F2_nth2 _ _ _ _ _ _ _ F E) as (y & Ey & _). destruct (L' i y X Ey) as (k & K). apply (N k). apply (F' i t y); auto.
    + destruct (F2_nth _ _ _ _ _ _ _ F E') as (y & Ey & _). destruct (L i' y X Ey) as (k & K). apply (N' k). apply (F' i' y t'); auto.
Qed.
Lemma two_scans_same : forall (day day' ix ix' : stamp -> Prop) (idx idx' : stamp -> Z -> Prop) ts ts' r r',
  Forall2 (fun t t' => (day t <-> day' t') /\ (ix t <-> ix' t') /\ (forall k, idx t k <-> idx' t' k) /\ forall k j, idx t k -> idx t j -> k = j) ts ts' ->
  two_scans day ix idx ts r -> two_scans day' ix' idx' ts' r' -> r = r'.
Proof.
  intros day day' ix ix' idx idx' ts ts' r r' F A B.
  assert (F' : forall i t t', nth_error ts i = Some t -> nth_error ts' i = Some t' -> (day t <-> day' t') /\ (ix t <-> ix' t') /\ (forall k, idx t k <-> idx' t' k)).
  { intros i t t' E E'. destruct (F2_nth2 _ _ _ _ _ _ _ F E) as (y & Ey & Y1 & Y2 & Y3 & _). rewrite E' in Ey. injection Ey as <-. auto. }
  assert (FD : Forall day ts <-> Forall day' ts').
  { clear A B F'. induction F as [|x y l m Rx F IH]; [split; constructor|]. split; intros G; inversion G; subst; constructor; try apply Rx; try apply IH; auto. }
  assert (H2 : forall l i t', Forall2 idx ts l -> nth_error ts' i = Some t' -> exists k, idx' t' k).
  { intros l i t' G E'. destruct (F2_nth _ _ _ _ _ _ _ F E') as (t & E & _). destruct (F2_nth2 _ _ _ _ _ _ _ G E) as (k & _ & K).
    exists k. apply (F' i t t'); auto. }
  assert (H3 : forall l i t, Forall2 idx' ts' l -> nth_error ts i = Some t -> exists k, idx t k).
  { intros l i t G E. destruct (F2_nth2 _ _ _ _ _ _ _ F E) as (t' & E' & _). destruct (F2_nth2 _ _ _ _ _ _ _ G E') as (k & _ & K).
    exists k. apply (F' i t t'); auto. }
  destruct r as [[l|] [i|]], r' as [[l'|] [i'|]]; cbn in A, B; try contradiction.
  - f_equal. f_equal. eapply F2_fun; [|exact A|exact B]. eapply F2_impl; [|exact F]. intros t t' (_ & _ & X & Y) k j K J. apply Y; auto. apply X; auto.
  - destruct B as (t' & E & N & _). destruct (H2 l i' t' A E) as (k & K). exfalso. exact (N k K).
  - destruct A as (t & E & N & _). destruct (H3 l' i t B E) as (k & K). exfalso. exact (N k K).
  - destruct A as (t & E & N & L), B as (t' & E' & N' & L'). f_equal. f_equal.
    destruct (F2_nth2 _ _ _ _ _ _ _ F E) as (y & Ey & _). destruct (F2_nth _ _ _ _ _ _ _ F E') as (y' & Ey' & _).
    destruct (F' _ _ _ E Ey) as (U1 & U2 & U3), (F' _ _ _ Ey' E') as (V1 & V2 & V3).
    destruct L as [(D & L)|(D & I & L)], L' as [(D' & L')|(D' & I' & L')].
    + destruct (lt_eq_lt_dec i i') as [[X|X]|X]; auto; exfalso; [apply D, U1, (L' i y X Ey)|apply D', V1, (L i' y' X Ey')].
    + exfalso. apply FD in D'. rewrite Forall_forall in D'. apply D, D'. eapply nth_error_In; eauto.
    + exfalso. apply FD in D. rewrite Forall_forall in D. apply D', D. eapply nth_error_In; eauto.
    + destruct (lt_eq_lt_dec i i') as [[X|X]|X]; auto; exfalso; [apply I, U2, (L' i y X Ey)|apply I', V2, (L i' y' X Ey')].
Qed.

Lemma exact_answer : forall g u custom c first rest, unit_seconds g = Some u -> c = match custom with None => 1 | Some i => Z.max i 1 end ->
  u * c < 2 ^ 53 -> exact_times (first :: rest) ->
  exists r, get_indices_from_timestamps g custom (first :: rest) = Ok r /\ answer (steps_after first (c * u * second_us)) (first :: rest) r.
Proof.
  intros g u custom c first rest U C B [X|X]; [eapply C32_regular; eauto|eapply C79_recent; eauto].
Qed.
Lemma not_last : forall d, valid d -> dy d <= 27 -> ~ last_of_month d.
Proof.
  intros [y m dd] V L H. unfold last_of_month, month_length in H. cbn [yr mo dy] in *. lia.
Qed.
Lemma F2_Forall_r : forall A B (R : A -> B -> Prop) (P : A -> Prop) (Q : B -> Prop) l m, Forall2 R l m -> Forall P l -> Forall Q m ->
  Forall2 (fun a b => R a b /\ P a /\ Q b) l m.
Proof. intros A B R P Q l m F. induction F as [|x y l m Rx F IH]; intros G H; inversion G; inversion H; subst; constructor; auto. Qed.

Lemma indices_same : forall g custom st st', g <> GNone -> displaced g custom st st' ->
  get_indices_from_timestamps g custom st' = get_indices_from_timestamps g custom st /\ is_timestamp_ascending st' = is_timestamp_ascending st.
Proof.
  intros g custom st st' NG (O & O' & D). cbv zeta in D. set (c := match custom with None => 1 | Some i => Z.max i 1 end) in *.
  assert (C1 : 1 <= c) by (unfold c; destruct custom; lia).
  assert (AL : forall us, Forall2 (later us) st st' -> is_timestamp_ascending st' = is_timestamp_ascending st).
  { intros us F. apply (ascending_same _ _ _ F). rewrite Forall_forall in O, O'. intros a b a' b' A B A' B'. apply later_order; auto. }
  assert (REG : forall u, unit_seconds g = Some u -> u * c < 2 ^ 53 -> exact_times st -> exact_times st' -> (exists us, Forall2 (later us) st st') ->
    get_indices_from_timestamps g custom st' = get_indices_from_timestamps g custom st /\ is_timestamp_ascending st' = is_timestamp_ascending st).
  { intros u U B E E' (us & F). split; [|eauto]. clear O O'. destruct F as [|a a' t t' Ha F]; auto.
    destruct (exact_answer g u custom c a t U eq_refl B E) as (r & -> & A). destruct (exact_answer g u custom c a' t' U eq_refl B E') as (r' & -> & A').
    f_equal. symmetry. eapply answer_same; [|exact A|exact A'].
    assert (P : 0 < u) by (destruct g; inversion U; lia).
    assert (F2 : Forall2 (later us) (a :: t) (a' :: t')) by (constructor; auto).
    eapply F2_impl; [|exact F2]. intros x x' X. unfold later, steps_after, second_us in *. split; [intros k; lia|]. intros k j K J. nia. }
  assert (MON : forall n, (g = Monthly /\ n = 1 \/ g = Yearly /\ n = 12) -> c < 2 ^ 53 -> Forall (fun t => dy (s_date t) <= 27) st -> (exists k, Forall2 (months_later k) st st') ->
    get_indices_from_timestamps g custom st' = get_indices_from_timestamps g custom st /\ is_timestamp_ascending st' = is_timestamp_ascending st).
  { intros n G B Y (k & F). split.
    2:{ apply (ascending_same _ _ _ F). rewrite Forall_forall in O, O'. intros a b a' b' A A2 A' A2'. apply (months_order k); auto. }
    destruct F as [|a a' t t' Ha F]; auto.
    destruct (C32_months g n custom c a t G eq_refl B O) as (r & -> & A). destruct (C32_months g n custom c a' t' G eq_refl B O') as (r' & -> & A').
    f_equal. symmetry. eapply two_scans_same; [|exact A|exact A'].
    assert (F2 : Forall2 (months_later k) (a :: t) (a' :: t')) by (constructor; auto).
    assert (Y' : Forall (fun t => dy (s_date t) <= 27) (a' :: t')).
    { clear -F2 Y. induction F2 as [|x y l m (_ & E & _) F IH]; inversion Y; subst; constructor; auto. lia. }
    pose proof (F2_Forall_r _ _ _ _ _ _ _ F2 (Forall_and O Y) (Forall_and O' Y')) as F3.
    assert (P : 0 < c * n) by (destruct G as [[_ ->]|[_ ->]]; lia).
    assert (DA : forall x y, stamp_ok x -> stamp_ok y -> dy (s_date x) <= 27 -> dy (s_date y) <= 27 -> (days_agree (s_date x) (s_date y) <-> dy (s_date x) = dy (s_date y))).
    { intros x y (Vx & _) (Vy & _) Lx Ly. unfold days_agree. split; [|auto]. intros [E|[[E _]|[E _]]]; auto; exfalso; [apply (not_last (s_date x))|apply (not_last (s_date y))]; auto. }
    pose proof (Forall_inv O) as Oa. pose proof (Forall_inv O') as Oa'. pose proof (Forall_inv Y) as Ya. pose proof (Forall_inv Y') as Ya'. cbn beta in Ya, Ya'.
    destruct Ha as (Ha1 & Ha2 & Ha3).
    eapply F2_impl; [|exact F3]. intros x x' ((X1 & X2 & X3) & (Ox & Yx) & (Ox' & Yx')). unfold month_steps.
    assert (DD : days_agree (s_date x') (s_date a') <-> days_agree (s_date x) (s_date a)) by (rewrite !DA by auto; rewrite X2, Ha2; tauto).
    rewrite X1, Ha1.
    replace (month_no (s_date x) + k - (month_no (s_date a) + k)) with (month_no (s_date x) - month_no (s_date a)) by lia.
    split; [tauto|]. split; [tauto|]. split.
    - intros j. split; intros [D1 D2]; (split; [apply DD; exact D1|]); clear - D2; lia.
    - intros i j [_ I] [_ J]. clear - I J P. nia. }
  destruct g; try congruence; try (destruct D as ((u & U & B) & E & E' & F); exact (REG u U B E E' F)).
  - destruct D as (B & Y & F). apply (MON 12); auto.
  - destruct D as (B & Y & F). apply (MON 1); auto.
  - destruct D as (B & E & E' & ms & F). split; [|eauto]. clear O O'. destruct F as [|a a' t t' Ha F]; auto.
    destruct (C33_milliseconds custom c a t eq_refl B E) as (r & -> & A). destruct (C33_milliseconds custom c a' t' eq_refl B E') as (r' & -> & A').
    f_equal. symmetry. eapply answer_same; [|exact A|exact A'].
    assert (F2 : Forall2 (later (ms * 1000)) (a :: t) (a' :: t')) by (constructor; auto).
    eapply F2_impl; [|exact F2]. intros x x' X. cbn beta. unfold later in *. rewrite X, Ha, !Z.div_add by lia. split; [intros k; lia|]. intros k j K J. nia.
Qed.

(** * Requests *)
Open Scope nat_scope.
Section Shift.
Context {T : Type}.
Variable to_datetime : list T -> option (list stamp).
Variable majority : list Qc -> Qc.
Variable detect : args -> detector_arg -> option nat -> bool -> res (list row * nat * model_id * bool).
Variable beyond : list (point T) -> settings -> res (reply T).

Lemma numbers_same : forall rows rows' : list (point T), Forall2 (fun x y => w_value y = w_value x) rows rows' -> numbers T rows' = numbers T rows.
Proof. intros rows rows' F. induction F as [|x y l m E F IH]; auto. cbn [numbers]. rewrite E, IH. auto. Qed.
Lemma validator_same : forall rows rows' d g custom, get "granularity" d = Some (VGran g) ->
  (match get "customInterval" d with Some v => as_int v | None => None end) = custom -> moved_rows to_datetime g custom rows rows' ->
  series_validator T to_datetime rows' d = series_validator T to_datetime rows d.
Proof.
  intros rows rows' d g custom G C (V & M). unfold series_validator. rewrite G, C, (numbers_same _ _ V), <- (Forall2_length _ _ _ _ _ V).
  destruct M as [->|(st & st' & A & B & D)]; auto. apply read_times_spec in A, B. rewrite A, B.
  destruct g; auto; match goal with D : displaced ?g _ _ _ |- _ => destruct (indices_same g custom st st' ltac:(discriminate) D) as [-> ->] end; auto.
Qed.
Lemma zip_snd : forall A B C (l : list A) (m : list B) (o : list C), length l = length m -> map snd (zip_pair m o) = map snd (zip_pair l o).
Proof.
  induction l as [|a l IH]; intros [|b m] [|c o] E; try discriminate; auto. cbn. f_equal. apply IH. auto.
Qed.
Lemma last_ok : forall A (l : list A), l <> [] -> exists x, last_opt l = Ok x.
Proof.
  intros A l H. unfold last_opt. destruct (rev l) eqn:E; eauto. exfalso. apply H. rewrite <- (rev_involutive l), E. auto.
Qed.
Lemma answer_same_but_labels : forall mode rows rows' s i, Forall2 (fun x y => w_value y = w_value x) rows rows' ->
  answers_alike same_but_labels (beyond rows s) (beyond rows' s) ->
  answers_alike same_but_labels (answer_request T majority detect beyond mode rows s i) (answer_request T majority detect beyond mode rows' s i).
Proof.
  intros mode rows rows' s i V B. unfold answer_request. rewrite (numbers_same _ _ V).
  destruct (numbers T rows) as [ns|e]; cbn [bind]; [|reflexivity].
  destruct (finite ns) as [values|]; [|exact B]. destruct (s_detector s) as [det|]; [|exact B].
  destruct (make_model majority s values i) as [a|e]; cbn [bind]; [|reflexivity].
  destruct (detect _ _ _ _) as [[[[out p] m] b]|e]; cbn [bind]; [|reflexivity].
  pose proof (Forall2_length _ _ _ _ _ V) as LR.
  rewrite !labels_length, <- LR. destruct (negb (length rows =? length out)); [reflexivity|].
  assert (LL : answers_alike same_but_labels
     (do o <- get_margins_last (s_v1 s) (is_sr m) out (qz (s_sensitivity s)); do t <- last_opt (labels T rows); Ok (ALatest T t o p (suggested_window (s_gran s) p)))
     (do o <- get_margins_last (s_v1 s) (is_sr m) out (qz (s_sensitivity s)); do t <- last_opt (labels T rows'); Ok (ALatest T t o p (suggested_window (s_gran s) p)))).
  { destruct (get_margins_last _ _ _ _) as [o|e]; cbn [bind]; [|reflexivity].
    destruct (labels T rows) as [|x l] eqn:E.
    - pose proof (labels_length rows) as X. pose proof (labels_length rows') as Y. rewrite E in X. destruct (labels T rows'); [reflexivity|]. cbn in *. lia.
    - destruct (last_ok _ (x :: l) ltac:(discriminate)) as (y & ->). destruct (labels T rows') as [|x' l'] eqn:E'.
      + pose proof (labels_length rows) as X. pose proof (labels_length rows') as Y. rewrite E in X. rewrite E' in Y. cbn in *. lia.
      + destruct (last_ok _ (x' :: l') ltac:(discriminate)) as (y' & ->). cbn. auto. }
  destruct mode; try exact LL. match goal with m : detect_type |- _ => destruct m end; try exact LL.
  destruct (get_margins_entire _ _ _ _) as [os|e]; cbn [bind]; [|reflexivity]. cbn. split; auto.
  apply zip_snd. rewrite !labels_length. auto.
Qed.

Lemma predict_same : forall o d rows rows',
  Forall2 (fun x y => w_value y = w_value x) rows rows' ->
  (forall s, reads d s -> moved_rows to_datetime (s_gran s) (s_interval s) rows rows') ->
  (forall s, answers_alike same_but_labels (beyond rows s) (beyond rows' s)) ->
  let x := predict T to_datetime majority detect beyond o (DFrame rows) (Some d) in
  let y := predict T to_datetime majority detect beyond o (DFrame rows') (Some d) in
  answers_alike same_but_labels (fst (fst x)) (fst (fst y)) /\ snd (fst y) = snd (fst x) /\ snd y = snd x.
Proof.
  intros o d rows rows' V M B x y. unfold x, y, predict, parse_arg. destruct V as [|a a' t t' Va V]; [cbn; auto|].
  pose proof (parse_params_spec d) as PS. destruct (parse_params d) as [s e|c m e|ex e] eqn:E; [|cbn; auto|cbn; auto].
  destruct PS as (_ & R). destruct (settings_gran d s e E) as [G C].
  rewrite (validator_same (a :: t) (a' :: t') e _ _ G C (M s (proj1 R))).
  destruct (series_validator T to_datetime (a :: t) e) as [[v|ex] d2]; [|cbn; auto].
  destruct (get "indices" d2) as [i|]; [|cbn; auto]. cbn [o_mode o__error o_code o_msg].
  match goal with |- context [match ?x with Some mode => _ | None => _ end] => destruct x as [mode|] end; [|cbn; auto].
  destruct (o__error o); cbn [fst snd]; [cbn; auto|]. split; [|auto]. apply answer_same_but_labels; [constructor; auto|]. apply B.
Qed.
End Shift.
