(** Changing the unit: the dynamic threshold and seasonal detectors and the
    second run on the differences. *)
From Coq Require Import String List Arith ZArith QArith Qcanon Qround Lia Lqa Bool Sorted Permutation.
From Verif Require Import Base Num Sorting Kernel_model Kernel_spec Kernel_proofs Kernel_proofs2 Kernel_proofs3 Kernel_props
  FillUp_model FillUp_spec FillUp_proofs6 FillUp_props
  Helpers_model Helpers_spec Helpers_proofs Helpers_proofs2 Helpers_props Margins_model SR_model SR_proofs2 Detect_model Detect_spec
  Detect_proofs Detect_proofs2 Detect_proofs3 Detect_proofs4 Detect_proofs5 Period_proofs3 Pipe_proofs Const_spec Const_proofs Expect_proofs Units_spec Units_proofs.
Import ListNotations.
Open Scope nat_scope.

(** * The second run: differences *)
Lemma unit_skipn : forall k b n l, skipn n (in_unit k b l) = in_unit k b (skipn n l).
Proof. intros. apply skipn_map. Qed.
Lemma unit_get : forall k b l i, answers_alike (fun x x' => x' = (k * x + b)%Qc) (get l i) (get (in_unit k b l) i).
Proof. intros. unfold get. rewrite unit_nth. destruct (nth_error l i); simpl; auto. Qed.
Lemma unit_diffs : forall k b l, diffs (in_unit k b l) = in_unit k 0 (diffs l).
Proof.
  intros k b [|x t]; auto. unfold diffs. cbn [in_unit map]. change (map (fun y => k * y + b)%Qc t) with (in_unit k b t).
  change ((k * x + b)%Qc :: in_unit k b t) with (in_unit k b (x :: t)). rewrite unit_minus. f_equal. ring.
Qed.
Lemma unit_app : forall k b l m, in_unit k b (l ++ m) = in_unit k b l ++ in_unit k b m.
Proof. intros. apply map_app. Qed.
Lemma unit_repeat : forall k b x n, in_unit k b (repeat x n) = repeat (k * x + b)%Qc n.
Proof. induction n; simpl; congruence. Qed.
Lemma unit_get_delta : forall k b d l, answers_alike (fun w w' => w' = in_unit k 0 w) (get_delta d l) (get_delta d (in_unit k b l)).
Proof.
  intros k b d l. unfold get_delta. cbv zeta. rewrite unit_diffs.
  eapply alike_bind; [apply unit_get|]. intros x x' _ _ ->. cbn [answers_alike]. rewrite unit_app, unit_repeat, unit_skipn. auto.
Qed.
Lemma unit_reverse : forall k ds acc, reverse_loop (k * acc + 0)%Qc (in_unit k 0 ds) = in_unit k 0 (reverse_loop acc ds).
Proof.
  induction ds as [|d t IH]; intros acc; simpl; auto. replace (k * acc + 0 + (k * d + 0))%Qc with (k * (acc + d) + 0)%Qc by ring.
  f_equal. apply IH.
Qed.
Lemma unit_reverse_delta : forall k first d ds,
  answers_alike (fun w w' => w' = in_unit k 0 w) (reverse_delta first d ds) (reverse_delta (k * first + 0)%Qc d (in_unit k 0 ds)).
Proof.
  intros k first d ds. unfold reverse_delta. rewrite unit_skipn. destruct d as [|d].
  - destruct (skipn 0 ds) as [|x t]; simpl; auto.
  - cbn [answers_alike]. symmetry. etransitivity; [apply unit_app|]. f_equal; [apply unit_repeat|]. symmetry. rewrite ?unit_skipn. apply unit_reverse.
Qed.
Lemma unit_upd : forall k b l i x, upd (in_unit k b l) i (k * x + b)%Qc = in_unit k b (upd l i x).
Proof. induction l as [|y l IH]; intros [|i] x; simpl; auto. f_equal. apply IH. Qed.
Lemma Forall2_at : forall A B (R : A -> B -> Prop) l m i x y, Forall2 R l m -> nth_error l i = Some x -> nth_error m i = Some y -> R x y.
Proof.
  intros A B R l m i x y H. revert i. induction H as [|u v l m U F IH]; intros [|i]; simpl; intros E1 E2; try discriminate.
  - inversion E1; inversion E2; subst; auto.
  - eapply IH; eauto.
Qed.
Lemma correct_loop_len : forall pos ori new out w, correct_loop ori new out pos = Ok w -> length w = length out.
Proof.
  induction pos as [|[|q] t IH]; intros ori new out w E; cbn [correct_loop] in E.
  - inversion E; auto.
  - eapply IH; eauto.
  - bind_inv E. bind_inv E. apply IH in E. rewrite E. apply upd_length.
Qed.
Lemma correct_expected_len : forall pos ori new d v w, correct_expected_value_in_delta pos ori new d v = Ok w -> length w = length ori.
Proof. intros pos ori new d v w E. unfold correct_expected_value_in_delta in E. bind_inv E. eapply correct_loop_len; eauto. Qed.
Lemma unit_correct_loop : forall k b ori new pos out,
  answers_alike (fun w w' => w' = in_unit k b w) (correct_loop ori new out pos)
    (correct_loop (in_unit k b ori) (in_unit k 0 new) (in_unit k b out) pos).
Proof.
  induction pos as [|[|q] t IH]; intros out; cbn [correct_loop].
  - simpl; auto.
  - apply IH.
  - eapply alike_bind; [apply unit_get|]. intros o o' _ _ ->. eapply alike_bind; [apply unit_get|]. intros n n' _ _ ->.
    replace (k * o + b + (k * n + 0))%Qc with (k * (o + n) + b)%Qc by ring. rewrite unit_upd. apply IH.
Qed.
Lemma unit_correct : forall k b pos ori new delta values,
  answers_alike (fun w w' => w' = in_unit k b w) (correct_expected_value_in_delta pos ori new delta values)
    (correct_expected_value_in_delta pos (in_unit k b ori) (in_unit k 0 new) delta (in_unit k b values)).
Proof.
  intros. unfold correct_expected_value_in_delta. apply (alike_bind _ _ _ _ (fun w w' => w' = in_unit k 0 w)).
  - destruct (delta =? 2)%Z; [|simpl; auto]. eapply alike_bind; [apply unit_get|]. intros x x' _ _ ->.
    eapply alike_bind; [apply unit_get|]. intros y y' _ _ ->.
    replace (k * x + b - (k * y + b))%Qc with (k * (x - y) + 0)%Qc by ring. apply unit_reverse_delta.
  - intros w w' _ _ ->. apply unit_correct_loop.
Qed.

(** The frames of the second run: the same points reported, and when there are
    any the rows moved along. *)
Definition echoes (k : Qc) (nt : bool) (d d' : list row) : Prop :=
  map r_anomaly d' = map r_anomaly d /\ ((forall i, nth i (map r_anomaly d) false = false) \/ Forall2 (moved k 0 nt) d d').

Lemma moved_direction : forall k b nt r r', (0 < k)%Qc -> moved k b nt r r' ->
  moved k b nt (correct_anomaly_direction r) (correct_anomaly_direction r').
Proof.
  intros k b nt r r' K M. assert (M0 := M). destruct M as (V & E & T & S & A & N & P). unfold correct_anomaly_direction. rewrite A.
  destruct (r_anomaly r); auto. unfold moved. cbv zeta. cbn [r_value r_expected r_trend r_score r_anomaly r_neg r_pos].
  assert (C : (r_expected r' <? r_value r')%Qc = (r_expected r <? r_value r)%Qc).
  { rewrite V, E. apply eq_true_iff_eq. rewrite !Qcltb_lt. split; intros H; [|qnra].
    destruct (Qclt_le_dec' (r_expected r) (r_value r)); auto. exfalso. qnra. }
  rewrite C. repeat split; auto.
Qed.

Lemma moved_cols : forall k b nt l l', Forall2 (moved k b nt) l l' ->
  map r_value l' = in_unit k b (map r_value l) /\ map r_expected l' = in_unit k b (map r_expected l) /\
  map r_anomaly l' = map r_anomaly l /\ length l' = length l /\ (nt = true -> map r_trend l' = in_unit k b (map r_trend l)).
Proof.
  intros k b nt l l' H. induction H as [|r r' l l' M F IH]; simpl; auto.
  destruct M as (V & E & T & S & A & N & P). destruct IH as (I1 & I2 & I3 & I4 & I5). rewrite V, E, A, I1, I2, I3, I4.
  repeat split; auto. intros X. rewrite T, I5; auto.
Qed.
Lemma count_flags : forall l, count_anomalies l = length (filter (fun x : bool => x) (map r_anomaly l)).
Proof. unfold count_anomalies. induction l as [|r l IH]; simpl; auto. destruct (r_anomaly r); simpl; congruence. Qed.

Lemma correct_loop_ok : forall pos ori new out, (forall p, In p pos -> p < length ori) -> length new = length ori ->
  exists w, correct_loop ori new out pos = Ok w.
Proof.
  induction pos as [|[|q] t IH]; intros ori new out H L; cbn [correct_loop]; eauto.
  - apply IH; auto. intros p I. apply H. right; auto.
  - destruct (nth_error_ex _ ori q) as [o Ho]; [specialize (H (S q) (or_introl eq_refl)); lia|].
    destruct (nth_error_ex _ new (S q)) as [m Hm]; [specialize (H (S q) (or_introl eq_refl)); lia|].
    rewrite (proj2 (get_ok _ _ _ _) Ho), (proj2 (get_ok _ _ _ _) Hm). cbn [bind]. apply IH; auto. intros p I. apply H. right; auto.
Qed.
Lemma correct_ok : forall pos ori new delta values, (forall p, In p pos -> p < length ori) -> length new = length ori -> 2 <= length values ->
  2 <= length ori -> exists w, correct_expected_value_in_delta pos ori new delta values = Ok w.
Proof.
  intros pos ori new delta values H L LV LO. unfold correct_expected_value_in_delta. destruct (delta =? 2)%Z.
  - destruct (nth_error_ex _ values 1) as [x Hx]; [lia|]. destruct (nth_error_ex _ values 0) as [y Hy]; [lia|].
    rewrite (proj2 (get_ok _ _ _ _) Hx), (proj2 (get_ok _ _ _ _) Hy). cbn [bind]. unfold reverse_delta. cbn [bind]. apply correct_loop_ok; auto.
    rewrite app_length, repeat_length. assert (RL : forall ds acc, length (reverse_loop acc ds) = length ds) by (induction ds; simpl; auto).
    rewrite RL, skipn_length. lia.
  - cbn [bind]. apply correct_loop_ok; auto.
Qed.

Section Merge.
Variable k b : Qc.
Hypothesis K : (0 < k)%Qc.
Variable nt : bool.
Variable stationary : list Qc -> bool.
Hypothesis SB : unit_blind k b stationary.
Hypothesis S0 : unit_blind k 0 stationary.

Lemma include_delta_unit : forall series, answers_alike (fun d d' => fst d' = fst d /\ ((fst d <= 0)%Z \/ snd d' = in_unit k 0 (snd d)))
  (should_include_delta stationary series) (should_include_delta stationary (in_unit k b series)).
Proof.
  intros series. unfold should_include_delta. cbn [range List.seq include_loop]. rewrite SB.
  destruct (stationary series); [simpl; split; auto; left; lia|].
  eapply alike_bind; [apply unit_get_delta|]. intros w w' _ _ ->. rewrite S0. destruct (stationary w); [simpl; auto|].
  eapply alike_bind; [apply unit_get_delta|]. intros x x' _ _ ->. rewrite S0. destruct (stationary x); [simpl; auto|].
  eapply alike_bind; [apply unit_get_delta|]. intros y y' _ _ ->. cbn [answers_alike fst snd]. split; auto. left; lia.
Qed.

Lemma merge_unit : forall results results' func func' series ratio, length results = length series -> 2 <= length series ->
  Forall2 (moved k b nt) results results' ->
  (forall s r, length s = length series -> answers_alike (fun d d' => echoes k nt (fst d) (fst d')) (func s r) (func' (in_unit k 0 s) r)) ->
  answers_alike (Forall2 (moved k b nt)) (merge_with_delta stationary results func series ratio)
    (merge_with_delta stationary results' func' (in_unit k b series) ratio).
Proof.
  intros results results' func func' series ratio LR L2 M HF. unfold merge_with_delta.
  eapply alike_bind; [apply include_delta_unit|]. intros [dl s1] [dl' s1'] EI _ [E1 E2]. cbn [fst snd] in E1, E2. subst dl'. cbn [fst snd]. cbv zeta.
  destruct (dl <=? 0)%Z eqn:ED; [exact M|]. apply Z.leb_gt in ED. destruct E2 as [E2| ->]; [lia|].
  assert (LS : length s1 = length series).
  { eapply should_include_len; eauto. }
  rewrite unit_length. destruct (moved_cols _ _ _ _ _ M) as (MV & ME & MA & ML & MT).
  assert (CA : count_anomalies results' = count_anomalies results) by (rewrite !count_flags, MA; auto). rewrite CA.
  destruct (_ <=? _); [exact M|].
  eapply alike_bind; [apply HF; auto|]. intros [d m] [d' m'] _ _ [EA ER]. cbn [fst] in EA, ER |- *.
  assert (LD : length d' = length d) by (rewrite <- (map_length r_anomaly d'), EA, map_length; auto).
  rewrite LD, ML. destruct (length d =? length results) eqn:EL; [|simpl; auto]. apply Nat.eqb_eq in EL. cbn [negb].
  rewrite MA, EA. set (new_p := filter _ (range (length results))).
  assert (NP : forall p, In p new_p -> p < length results /\ nth p (map r_anomaly d) false = true).
  { intros p I. apply filter_In in I. destruct I as [I J]. apply in_seq in I. apply andb_true_iff in J. split; [lia|tauto]. }
  assert (G : answers_alike (fun w w' => new_p = [] \/ (nt = true -> w' = in_unit k b w))
    (correct_expected_value_in_delta new_p (map r_trend results) (map r_trend d) dl (map r_value results))
    (correct_expected_value_in_delta new_p (map r_trend results') (map r_trend d') dl (map r_value results')) /\
    answers_alike (fun w w' => new_p = [] \/ w' = in_unit k b w)
    (correct_expected_value_in_delta new_p (map r_expected results) (map r_expected d) dl (map r_value results))
    (correct_expected_value_in_delta new_p (map r_expected results') (map r_expected d') dl (map r_value results'))).
  { destruct ER as [EN|EF].
    - assert (NE : new_p = []) by (destruct new_p as [|p t] eqn:E; auto; destruct (NP p (or_introl eq_refl)) as [_ X]; rewrite EN in X; discriminate).
      split.
      + destruct (correct_ok new_p (map r_trend results) (map r_trend d) dl (map r_value results)) as [w1 W1];
          [intros p I; rewrite map_length; apply NP; auto| rewrite ?map_length; lia ..|].
        destruct (correct_ok new_p (map r_trend results') (map r_trend d') dl (map r_value results')) as [w2 W2];
          [intros p I; rewrite map_length; rewrite ML; apply NP; auto| rewrite ?map_length; lia ..|].
        rewrite W1, W2. simpl. auto.
      + destruct (correct_ok new_p (map r_expected results) (map r_expected d) dl (map r_value results)) as [w1 W1];
          [intros p I; rewrite map_length; apply NP; auto| rewrite ?map_length; lia ..|].
        destruct (correct_ok new_p (map r_expected results') (map r_expected d') dl (map r_value results')) as [w2 W2];
          [intros p I; rewrite map_length; rewrite ML; apply NP; auto| rewrite ?map_length; lia ..|].
        rewrite W1, W2. simpl. auto.
    - destruct (moved_cols _ _ _ _ _ EF) as (DV & DE & _ & _ & DT). rewrite MV, ME, DE. split.
      + destruct nt.
        * rewrite MT, DT by auto. eapply alike_impl; [|apply unit_correct]. simpl. auto.
        * destruct (correct_ok new_p (map r_trend results) (map r_trend d) dl (map r_value results)) as [w1 W1];
          [intros p I; rewrite map_length; apply NP; auto| rewrite ?map_length; lia ..|].
          destruct (correct_ok new_p (map r_trend results') (map r_trend d') dl (in_unit k b (map r_value results))) as [w2 W2];
          [intros p I; rewrite map_length; rewrite ML; apply NP; auto| rewrite ?unit_length, ?map_length; lia ..|].
          rewrite W1, W2. simpl. right. discriminate.
      + eapply alike_impl; [|apply unit_correct]. simpl. auto. }
  destruct G as [G1 G2]. eapply alike_bind; [exact G1|]. intros t t' ET ET' HT. eapply alike_bind; [exact G2|]. intros e e' EE EE' HE.
  cbn [answers_alike]. apply Forall2_nth_error; [rewrite !mapi_length; auto|].
  intros i r r' Hr Hr'. rewrite nth_error_mapi in Hr, Hr'.
  destruct (nth_error results i) as [x|] eqn:EX; [|discriminate]. destruct (nth_error results' i) as [x'|] eqn:EX'; [|discriminate].
  cbn [option_map] in Hr, Hr'. inversion Hr; inversion Hr'; subst r r'. clear Hr Hr'.
  assert (MX : moved k b nt x x') by (eapply Forall2_at; eauto).
  destruct (mem_nat i new_p) eqn:EM; auto. apply mem_nat_in in EM. destruct (NP i EM) as [Hi HN].
  assert (NNE : new_p <> []) by (intros X; rewrite X in EM; destruct EM).
  destruct HT as [X|HT]; [contradiction|]. destruct HE as [X|HE]; [contradiction|]. subst e'.
  destruct ER as [EN|EF]; [rewrite EN in HN; discriminate|].
  destruct (nth_error_ex _ d i ltac:(lia)) as [y EY]. destruct (nth_error_ex _ d' i ltac:(lia)) as [y' EY']. rewrite EY, EY'.
  assert (MY : moved k 0 nt y y') by (eapply Forall2_at; eauto).
  apply moved_direction; auto. destruct MY as (YV & YE & YT & YS & YA & YN & YP). destruct MX as (XV & _).
  assert (LE : length e = length results).
  { apply correct_expected_len in EE. rewrite map_length in EE. auto. }
  unfold moved. cbn [r_value r_expected r_trend r_score r_anomaly r_neg r_pos]. repeat split; auto.
  - destruct (nth_error_ex _ e i ltac:(lia)) as [z EZ]. rewrite (nth_error_nth_d _ _ _ _ 0%Qc EZ).
    apply nth_error_nth_d. rewrite unit_nth, EZ. auto.
  - intros N. rewrite (HT N). assert (LT : length t = length results) by (apply correct_expected_len in ET; rewrite map_length in ET; auto).
    destruct (nth_error_ex _ t i ltac:(lia)) as [z EZ]. rewrite (nth_error_nth_d _ _ _ _ 0%Qc EZ).
    apply nth_error_nth_d. rewrite unit_nth, EZ. auto.
Qed.
End Merge.

(** * The detectors *)
Section Detectors.
Variable cst : Qc.
Variable std : list Qc -> Qc.
Variable ppf : Qc -> Z -> Qc.
Variable sqrt : Qc -> Qc.
Variable table : list Qc.
Variable sort : list (nat * Qc) -> list (nat * Qc).
Hypothesis SU : sorts_up sort.
Variable alpha : Qc.
Hypothesis CP : forall n m c, 2 * m + 2 <= n -> In c (get_critical ppf sqrt table alpha n m) -> (0 <= c)%Qc.
Variable k b : Qc.
Hypothesis K : (0 < k)%Qc.
Variable trend_detection : list Qc -> option nat -> res (list Qc).
Variable decompose : bool -> list Qc -> nat -> res (list Qc * list Qc).
Hypothesis TD : trend_in_unit k b trend_detection.

Lemma frame_flags : forall series e t idx rows, result_frame series e t None idx = Ok rows ->
  map r_anomaly rows = map (fun i => mem_nat i idx) (range (length series)).
Proof.
  intros series e t idx rows E. unfold result_frame in E. cbv zeta in E. bind_inv E. bind_inv E. bind_inv E. injection E as <-.
  unfold mapi, range. clear. generalize 0. induction series as [|v l IH]; intros n; simpl; auto. f_equal. apply IH.
Qed.
Lemma frame_plain : forall (nt : bool) series tv tv', length tv' = length tv ->
  answers_alike (fun d d' => map r_anomaly d' = map r_anomaly d /\ forall i, nth i (map r_anomaly d) false = false)
    (result_frame series tv (if nt then Some tv else None) None [])
    (result_frame (in_unit k b series) tv' (if nt then Some tv' else None) None []).
Proof.
  intros nt series tv tv' L.
  assert (E : (exists d d', result_frame series tv (if nt then Some tv else None) None [] = Ok d /\
    result_frame (in_unit k b series) tv' (if nt then Some tv' else None) None [] = Ok d') \/
    (result_frame series tv (if nt then Some tv else None) None [] = Err ValueErr /\
     result_frame (in_unit k b series) tv' (if nt then Some tv' else None) None [] = Err ValueErr)).
  { unfold result_frame. cbv zeta. rewrite unit_length. cbn [column bind]. rewrite L. destruct (length tv =? length series) eqn:E; cbn [bind]; auto.
    left. destruct nt; cbn [column]; rewrite ?L, ?E; cbn [bind]; eauto. }
  destruct E as [(d & d' & E & E')|[E E']]; rewrite E, E'; [|simpl; auto]. cbn [answers_alike].
  rewrite (frame_flags _ _ _ _ _ E), (frame_flags _ _ _ _ _ E'), unit_length. split; auto.
  intros i. destruct (nth_in_or_default i (map (fun j => mem_nat j []) (range (length series))) false) as [I| ->]; auto.
  apply in_map_iff in I. destruct I as (x & <- & _). auto.
Qed.

Lemma dt_unit : forall series tv tv' ratio nt lm, 4 <= length series -> length tv' = length tv ->
  answers_alike (fun d d' => snd d' = snd d /\ map r_anomaly (fst d') = map r_anomaly (fst d) /\
      ((forall i, nth i (map r_anomaly (fst d)) false = false) \/ Forall2 (moved k b nt) (fst d) (fst d')) /\
      (tv' = in_unit k b tv -> Forall2 (moved k b nt) (fst d) (fst d')))
    (dynamic_threshold_detection cst std ppf sqrt table sort trend_detection series tv alpha ratio nt lm)
    (dynamic_threshold_detection cst std ppf sqrt table sort trend_detection (in_unit k b series) tv' alpha ratio nt lm).
Proof.
  intros series tv tv' ratio nt lm L4 LT. unfold dynamic_threshold_detection.
  eapply alike_bind; [apply normalize_unit; auto|]. intros z z' EZ EZ' HZ.
  assert (LZ : length (fst (fst z)) = length series) by (apply normalize_len in EZ; auto).
  rewrite (dt_same cst std ppf sqrt table sort SU alpha CP (fst (fst z)) (fst (fst z'))) by (auto; lia).
  apply (alike_bind _ _ _ _ eq); [apply alike_eq|]. intros an an' _ _ <-. destruct an as [idx mid]. cbn [fst snd]. cbv zeta.
  destruct idx as [|i idx].
  - cbn [bind]. pose proof (frame_plain nt series tv tv' LT) as FP.
    assert (FM : tv' = in_unit k b tv -> answers_alike (Forall2 (moved k b nt))
      (result_frame series tv (if nt then Some tv else None) None []) (result_frame (in_unit k b series) tv' (if nt then Some tv' else None) None []))
      by (intros ->; apply frame_unit; auto).
    destruct (result_frame series tv _ _ _) as [d|e], (result_frame (in_unit k b series) tv' _ _ _) as [d'|e']; simpl in *; auto.
    destruct FP as [F1 F2]. repeat split; auto.
  - apply (alike_bind _ _ _ _ (fun t t' => t' = in_unit k b t)).
    + rewrite (blank_unit k b (i :: idx) series : blank _ (in_unit k b series) = _). eapply alike_bind; [apply interp_unit; auto|]. intros s s' _ _ ->. apply TD.
    + intros t t' _ _ ->. eapply alike_bind; [apply (frame_unit k b K nt series t t (i :: idx) eq_refl)|].
      intros d d' _ _ M. simpl. destruct (moved_cols _ _ _ _ _ M) as (_ & _ & A & _). repeat split; auto.
Qed.

Lemma interp_len' : forall l o, interp l = Ok o -> length o = length l.
Proof. intros l o E. unfold interp in E. destruct (known 0 l) as [|[a va] rest]; [discriminate|]. injection E as <-. apply mapi_length. Qed.

Lemma seasonal_unit : forall series period ratio adj nt lm, parts_in_unit k b decompose series period -> 4 <= length series ->
  answers_alike (fun d d' => snd d' = snd d /\ Forall2 (moved k b nt) (fst d) (fst d'))
    (seasonal_series_detection cst std ppf sqrt table sort decompose series period alpha ratio adj nt lm)
    (seasonal_series_detection cst std ppf sqrt table sort decompose (in_unit k b series) period alpha ratio adj nt lm).
Proof.
  intros series period ratio adj nt lm PD L4. unfold seasonal_series_detection. rewrite unit_length. cbv zeta.
  destruct (_ <? ratio)%Qc; [simpl; auto|]. destruct (length series =? 0); [simpl; auto|].
  destruct (length series <? _) eqn:EP; [simpl; auto|]. apply Nat.ltb_ge in EP.
  eapply alike_bind; [apply PD|]. intros [t s] [t' s'] _ _ [E1 E2]. cbn [fst snd] in *. subst t' s'. rewrite !unit_length.
  destruct ((length t =? length series) && (length s =? length series)) eqn:EL; [|simpl; auto]. cbn [negb].
  apply andb_true_iff in EL. destruct EL as [LT LS]. apply Nat.eqb_eq in LT, LS.
  rewrite unit_minus. replace (b - 0)%Qc with b by ring. rewrite unit_minus.
  set (d := zip_with _ series s). assert (LD : length d = length series) by (unfold d; rewrite zip_with_length; lia).
  set (rm := zip_with _ d t). assert (LR : length rm = length series) by (unfold rm; rewrite zip_with_length; lia).
  eapply alike_bind; [apply normalize_unit; auto|]. intros z z' EZ EZ' HZ.
  eapply alike_bind; [apply normalize_unit; auto|]. intros y y' EY EY' HY.
  assert (LZ : length (fst (fst z)) = length series) by (apply normalize_len in EZ; lia).
  assert (LY : length (fst (fst y)) = length series) by (apply normalize_len in EY; lia).
  rewrite (ts_same cst std ppf sqrt table sort SU alpha CP (fst (fst z)) (fst (fst z')) (fst (fst y)) (fst (fst y'))) by (auto; lia).
  apply (alike_bind _ _ _ _ eq); [apply alike_eq|]. intros an an' _ _ <-. destruct an as [idx mid]. cbn [fst snd].
  apply (alike_bind _ _ _ _ (fun u u' => length u = length series /\ u' = in_unit k b u)).
  - destruct idx as [|i idx]; [simpl; auto|]. rewrite (blank_trend_unit k b (i :: idx) period t : blank_trend _ _ (in_unit k b t) = _).
    pose proof (interp_unit k b (blank_trend (i :: idx) period t)) as I.
    destruct (interp (blank_trend (i :: idx) period t)) as [o|e] eqn:EO; destruct (interp (map _ _)) as [o'|e']; simpl in *; auto.
    split; auto. apply interp_len' in EO. rewrite EO, blank_trend_length; auto.
    pose proof (Nat.div_mod period 2 ltac:(lia)). lia.
  - intros u u' _ _ [LU ->]. rewrite unit_plus. eapply alike_bind.
    + apply (frame_unit k b K nt series (zip_with Qcplus u s) u idx). rewrite zip_with_length. lia.
    + intros r r' _ _ M. simpl. auto.
Qed.
End Detectors.
