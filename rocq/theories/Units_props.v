(** C99: measuring a series in another unit. *)
From Verif Require FillUp_proofs3.
From Coq Require Import String List Arith ZArith QArith Qcanon Qround Lia Lqa Bool Sorted Permutation.
From Verif Require Import Base Num Sorting Kernel_model Kernel_spec FillUp_model FillUp_spec FillUp_proofs Helpers_model Helpers_spec
  Margins_model SR_model SR_proofs3 Detect_model Detect_spec Detect_proofs Detect_proofs7 Detect_props Period_proofs3
  Units_spec Units_proofs Units_proofs2 Units_proofs3 Units_proofs4 Units_proofs5 Units_proofs6 Units_proofs7 Units_proofs8.
Import ListNotations.
Open Scope nat_scope.

Lemma Forall2_len : forall A B (P : A -> B -> Prop) l l', Forall2 P l l' -> length l = length l'.
Proof. intros A B P l l' F. induction F; simpl; auto. Qed.

Section Units.
Variable cst : Qc.
Variable std : list Qc -> Qc.
Variable ppf : Qc -> Z -> Qc.
Variable sqrt : Qc -> Qc.
Variable table : list Qc.
Variable sort : list (nat * Qc) -> list (nat * Qc).
Variable sort_desc : list (nat * Qc) -> list (nat * Qc).
Variable trend_detection : list Qc -> option nat -> res (list Qc).
Variable decompose : bool -> list Qc -> nat -> res (list Qc * list Qc).
Variable transform : list Qc -> list Qc.
Variable stationary : list Qc -> bool.
Variable spline : list nat -> list Qc -> nat -> Qc.
Variable period_detection : list (option Qc) -> res nat.
Hypothesis SU : sorts_up sort.
Hypothesis CP : forall alpha n m c, (0 < alpha)%Qc -> (alpha <= 1)%Qc -> 2 * m + 2 <= n -> In c (get_critical ppf sqrt table alpha n m) -> (0 <= c)%Qc.
Notation detect := (detect_model cst std ppf sqrt table sort sort_desc trend_detection decompose transform stationary spline period_detection).
Notation entire := (predict_entire cst std ppf sqrt table sort sort_desc trend_detection decompose transform stationary spline period_detection).
Notation latest := (predict_last cst std ppf sqrt table sort sort_desc trend_detection decompose transform stationary spline period_detection).

(** C99. Celsius or Fahrenheit: with libraries that move along, data no finer
    than a minute get the same period, the same detector, the same flags (up to
    deviations below 1e-8), and the expected values and the trend in the new
    unit. *)
Theorem C99_rows_in_other_unit : forall k b ix a d period lm, (0 < k)%Qc ->
  trend_in_unit k b trend_detection -> trend_in_unit k 0 trend_detection -> 
  (forall s p, analysed spline a s -> 1 < p -> (match period with Some q => p = q | None => True end) -> parts_in_unit k b decompose s p) ->
  unit_blind k b stationary -> unit_blind k 0 stationary -> spline_in_unit k b spline ->
  (forall l, period_detection (cells_in_unit k b l) = period_detection l) ->
  make_fup (Some ix) (map Some (a_values a)) default_maxlen = Ok (a_fup a) -> through_knots spline ix a -> 4 <= length ix -> (0 < a_alpha a)%Qc -> (a_alpha a <= 1)%Qc ->
  fine_grained a = false ->
  make_fup (Some ix) (map Some (a_values (args_in_unit k b a))) default_maxlen = Ok (a_fup (args_in_unit k b a)) /\
  answers_alike (same_answer_rows k b (a_need_trend a)) (detect a d period lm) (detect (args_in_unit k b a) d period lm).
Proof.
  intros k b ix a d period lm K TD T0 PD SB S0 SP PB HF TK L4 AL AU FG. split; [apply fup_unit; auto|].
  apply (detect_unit _ _ _ _ _ _ _ _ _ _ _ _ _ SU (a_alpha a) (fun n m c => CP _ n m c AL AU)); auto; [|congruence]. intros s. eapply analysed_len; eauto.
Qed.

(** C99. Metres or kilometres: the same with a scale only, for every
    granularity. The spread of the series (median absolute deviation) is on the
    same side of 1e-8 in both units. *)
Theorem C99_rows_in_other_scale : forall k ix a d period lm, (0 < k)%Qc ->
  trend_in_unit k 0 trend_detection -> 
  (forall s p, analysed spline a s -> 1 < p -> (match period with Some q => p = q | None => True end) -> parts_in_unit k 0 decompose s p) -> unit_blind k 0 stationary -> spline_in_unit k 0 spline ->
  scale_blind k transform -> spread_in_unit k std ->
  (forall l, period_detection (cells_in_unit k 0 l) = period_detection l) ->
  make_fup (Some ix) (map Some (a_values a)) default_maxlen = Ok (a_fup a) -> through_knots spline ix a -> 4 <= length ix -> (0 < a_alpha a)%Qc -> (a_alpha a <= 1)%Qc ->
  (fine_grained a = true -> forall s, analysed spline a s -> same_side k (mad s / cst)%Qc) ->
  answers_alike (same_answer_rows k 0 (a_need_trend a)) (detect a d period lm) (detect (args_in_unit k 0 a) d period lm).
Proof.
  intros k ix a d period lm K TD PD SB SP TB SD PB HF TK L4 AL AU FG. apply (detect_unit _ _ _ _ _ _ _ _ _ _ _ _ _ SU (a_alpha a) (fun n m c => CP _ n m c AL AU)); auto. intros s. eapply analysed_len; eauto.
Qed.

(** C99. The answers with V1 margins in the two units: the same timestamps and
    period; expected values and margins scale; no point changes from reported
    to not reported unless its deviation crosses 1e-8. *)
Theorem C99_entire_answer : forall T k ix a d period sens (ts : list T), (0 < k)%Qc ->
  trend_in_unit k 0 trend_detection -> 
  (forall s p, analysed spline a s -> 1 < p -> (match period with Some q => p = q | None => True end) -> parts_in_unit k 0 decompose s p) -> unit_blind k 0 stationary -> spline_in_unit k 0 spline ->
  scale_blind k transform -> spread_in_unit k std ->
  (forall l, period_detection (cells_in_unit k 0 l) = period_detection l) ->
  make_fup (Some ix) (map Some (a_values a)) default_maxlen = Ok (a_fup a) -> through_knots spline ix a -> 4 <= length ix -> (0 < a_alpha a)%Qc -> (a_alpha a <= 1)%Qc ->
  (fine_grained a = true -> forall s, analysed spline a s -> same_side k (mad s / cst)%Qc) ->
  answers_alike (fun x y => snd y = snd x /\ length (fst x) = length (a_values a) /\ length (fst y) = length (a_values a) /\
      forall i v t o t' o', nth_error (a_values a) i = Some v -> nth_error (fst x) i = Some (t, o) -> nth_error (fst y) i = Some (t', o') ->
        t' = t /\ rescaled k v o o')
    (entire a d period true sens ts) (entire (args_in_unit k 0 a) d period true sens ts).
Proof.
  intros T k ix a d period sens ts K TD PD SB SP TB SD PB HF TK L4 AL AU FG. unfold predict_entire.
  eapply alike_bind; [eapply (C99_rows_in_other_scale k ix a d period false); eauto|].
  intros [[[rows p] m] fl] [[[rows' p'] m'] fl'] E _ (-> & -> & -> & F).
  assert (V : map r_value rows = a_values a) by (eapply C08_one_row_per_point; [exact HF|exact TK|exact E]).
  assert (LR : length rows = length (a_values a)) by (rewrite <- V, map_length; auto).
  rewrite <- (Forall2_len _ _ _ _ _ F). destruct (negb (length ts =? length rows)) eqn:ET; [simpl; auto|].
  apply negb_false_iff, Nat.eqb_eq in ET. cbn [get_margins_entire].
  eapply alike_bind; [apply (entire_sc k K _ (is_sr m) sens rows rows' F)|]. intros o o' _ _ (L1 & L2 & H). rewrite V in *.
  cbn [answers_alike fst snd]. split; auto.
  assert (LZ : forall x : list outcome, length x = length ts -> length (zip_pair ts x) = length ts).
  { clear. induction ts as [|t ts IH]; intros [|y x] L; simpl in *; auto; try lia. }
  rewrite !LZ by lia. split; [lia|]. split; [lia|]. intros i v t x t' x' Hv. rewrite !zip_pair_nth.
  destruct (nth_error ts i); [|discriminate]. destruct (nth_error o i) eqn:Eo; [|discriminate]. destruct (nth_error o' i) eqn:Eo'; [|discriminate].
  intros X Y. inversion X; inversion Y; subst. split; auto. eapply H; eauto.
Qed.

Theorem C99_latest_answer : forall T k ix a d period sens (ts : list T), (0 < k)%Qc ->
  trend_in_unit k 0 trend_detection -> 
  (forall s p, analysed spline a s -> 1 < p -> (match period with Some q => p = q | None => True end) -> parts_in_unit k 0 decompose s p) -> unit_blind k 0 stationary -> spline_in_unit k 0 spline ->
  scale_blind k transform -> spread_in_unit k std ->
  (forall l, period_detection (cells_in_unit k 0 l) = period_detection l) ->
  make_fup (Some ix) (map Some (a_values a)) default_maxlen = Ok (a_fup a) -> through_knots spline ix a -> 4 <= length ix -> (0 < a_alpha a)%Qc -> (a_alpha a <= 1)%Qc ->
  (fine_grained a = true -> forall s, analysed spline a s -> same_side k (mad s / cst)%Qc) ->
  answers_alike (fun x y => let '(t, o, p, w) := x in let '(t', o', p', w') := y in
      t' = t /\ p' = p /\ w' = w /\ exists v, nth_error (a_values a) (length (a_values a) - 1) = Some v /\ rescaled k v o o')
    (latest a d period true sens ts) (latest (args_in_unit k 0 a) d period true sens ts).
Proof.
  intros T k ix a d period sens ts K TD PD SB SP TB SD PB HF TK L4 AL AU FG. unfold predict_last.
  eapply alike_bind; [eapply (C99_rows_in_other_scale k ix a d period true); eauto|].
  intros [[[rows p] m] fl] [[[rows' p'] m'] fl'] E _ (-> & -> & -> & F).
  assert (V : map r_value rows = a_values a) by (eapply C08_one_row_per_point; [exact HF|exact TK|exact E]).
  rewrite <- (Forall2_len _ _ _ _ _ F). destruct (negb (length ts =? length rows)) eqn:ET; [simpl; auto|]. cbn [get_margins_last].
  eapply (alike_bind _ _ _ _ (fun x x' => exists v, nth_error (a_values a) (length (a_values a) - 1) = Some v /\ rescaled k v x x')).
  - eapply alike_bind; [apply (entire_sc k K _ (is_sr m) sens rows rows' F)|]. intros o o' _ _ H. rewrite V in H. apply last_sc; auto.
  - intros o o' _ _ H. apply (alike_bind _ _ _ _ eq); [apply alike_eq|]. intros t t' _ _ <-. simpl. auto.
Qed.

(** C99. With V2 margins everything scales when the trend is loud in both units
    (the unit 0.3 is not reached) and no deviation crosses 1e-8; the score, the
    severity and the flags of every point stay. *)
Theorem C99_v2_entire_answer : forall T k ix a d period sens (ts : list T), (0 < k)%Qc ->
  trend_in_unit k 0 trend_detection -> 
  (forall s p, analysed spline a s -> 1 < p -> (match period with Some q => p = q | None => True end) -> parts_in_unit k 0 decompose s p) -> unit_blind k 0 stationary -> spline_in_unit k 0 spline ->
  scale_blind k transform -> spread_in_unit k std ->
  (forall l, period_detection (cells_in_unit k 0 l) = period_detection l) ->
  make_fup (Some ix) (map Some (a_values a)) default_maxlen = Ok (a_fup a) -> through_knots spline ix a -> 4 <= length ix -> (0 < a_alpha a)%Qc -> (a_alpha a <= 1)%Qc ->
  (fine_grained a = true -> forall s, analysed spline a s -> same_side k (mad s / cst)%Qc) ->
  a_need_trend a = true ->
  (forall rows p m fl, detect a d period false = Ok (rows, p, m, fl) -> loud k rows /\ Forall (fun r => same_side k (r_value r - r_expected r)%Qc) rows) ->
  answers_alike (fun x y => snd y = snd x /\ map fst (fst y) = map fst (fst x) /\ Forall2 (rescaled_v2 k) (map snd (fst x)) (map snd (fst y)))
    (entire a d period false sens ts) (entire (args_in_unit k 0 a) d period false sens ts).
Proof.
  intros T k ix a d period sens ts K TD PD SB SP TB SD PB HF TK L4 AL AU FG NT LD. unfold predict_entire.
  pose proof (C99_rows_in_other_scale k ix a d period false K TD PD SB SP TB SD PB HF TK L4 AL AU FG) as H. rewrite NT in H.
  eapply alike_bind; [exact H|]. clear H.
  intros [[[rows p] m] fl] [[[rows' p'] m'] fl'] E _ (-> & -> & -> & F).
  destruct (LD _ _ _ _ E) as [LO SS]. pose proof (scaled_rows k rows rows' F SS) as FS.
  rewrite <- (Forall2_len _ _ _ _ _ F). destruct (negb (length ts =? length rows)) eqn:ET; [simpl; auto|]. cbn [get_margins_entire].
  eapply alike_bind; [apply (v2_entire_sc k K sens rows rows' FS LO)|]. intros o o' _ _ FO. cbn [answers_alike fst snd]. split; auto.
  clear - FO. revert ts. induction FO as [|x x' l l' R FO IH]; intros [|t ts]; simpl; auto. destruct (IH ts) as [A B]. rewrite A. auto.
Qed.

Theorem C99_v2_latest_answer : forall T k ix a d period sens (ts : list T), (0 < k)%Qc ->
  trend_in_unit k 0 trend_detection -> 
  (forall s p, analysed spline a s -> 1 < p -> (match period with Some q => p = q | None => True end) -> parts_in_unit k 0 decompose s p) -> unit_blind k 0 stationary -> spline_in_unit k 0 spline ->
  scale_blind k transform -> spread_in_unit k std ->
  (forall l, period_detection (cells_in_unit k 0 l) = period_detection l) ->
  make_fup (Some ix) (map Some (a_values a)) default_maxlen = Ok (a_fup a) -> through_knots spline ix a -> 4 <= length ix -> (0 < a_alpha a)%Qc -> (a_alpha a <= 1)%Qc ->
  (fine_grained a = true -> forall s, analysed spline a s -> same_side k (mad s / cst)%Qc) ->
  a_need_trend a = true ->
  (forall rows p m fl, detect a d period true = Ok (rows, p, m, fl) -> loud k rows /\ Forall (fun r => same_side k (r_value r - r_expected r)%Qc) rows) ->
  answers_alike (fun x y => let '(t, o, p, w) := x in let '(t', o', p', w') := y in t' = t /\ p' = p /\ w' = w /\ rescaled_v2 k o o')
    (latest a d period false sens ts) (latest (args_in_unit k 0 a) d period false sens ts).
Proof.
  intros T k ix a d period sens ts K TD PD SB SP TB SD PB HF TK L4 AL AU FG NT LD. unfold predict_last.
  pose proof (C99_rows_in_other_scale k ix a d period true K TD PD SB SP TB SD PB HF TK L4 AL AU FG) as H. rewrite NT in H.
  eapply alike_bind; [exact H|]. clear H.
  intros [[[rows p] m] fl] [[[rows' p'] m'] fl'] E _ (-> & -> & -> & F).
  destruct (LD _ _ _ _ E) as [LO SS]. pose proof (scaled_rows k rows rows' F SS) as FS.
  rewrite <- (Forall2_len _ _ _ _ _ F). destruct (negb (length ts =? length rows)) eqn:ET; [simpl; auto|]. cbn [get_margins_last].
  eapply alike_bind; [apply (v2_last_sc k K sens rows rows' FS LO)|]. intros o o' _ _ FO.
  apply (alike_bind _ _ _ _ eq); [apply alike_eq|]. intros t t' _ _ <-. simpl. auto.
Qed.
End Units.
Print Assumptions C99_v2_entire_answer.
Print Assumptions C99_v2_latest_answer.
Print Assumptions C99_rows_in_other_unit.
Print Assumptions C99_rows_in_other_scale.
Print Assumptions C99_entire_answer.
Print Assumptions C99_latest_answer.

(** Libraries that move along. *)
Definition mean_trend (s : list Qc) (p : option nat) : res (list Qc) := Ok (map (fun _ => qmean s) s).
Definition mean_parts (adj : bool) (s : list Qc) (p : nat) : res (list Qc * list Qc) :=
  Ok (map (fun _ => qmean s) s, map (fun x => x - qmean s)%Qc s).
Definition range_std (s : list Qc) : Qc := match s with [] => 0%Qc | _ => (qmax_list s - qmin_list s)%Qc end.
Definition first_spline (idx : list nat) (vals : list Qc) (x : nat) : Qc := hd 0%Qc vals.

Lemma qmean_unit : forall k b l, l <> [] -> qmean (in_unit k b l) = (k * qmean l + b)%Qc.
Proof. intros. apply qmean_affine; auto. Qed.
Lemma mean_trend_unit : forall k b, trend_in_unit k b mean_trend.
Proof.
  intros k b s p. cbn. unfold in_unit at 2 3. rewrite !map_map. destruct s as [|x s]; auto. apply map_ext. intros. apply qmean_unit. discriminate.
Qed.
Lemma mean_parts_unit : forall k b s p, parts_in_unit k b mean_parts s p.
Proof.
  intros k b s p adj. cbn [mean_parts answers_alike fst snd]. unfold in_unit at 2 3 5 6. rewrite !map_map. destruct s as [|x s]; auto.
  split; apply map_ext; intros; rewrite qmean_unit by discriminate; ring.
Qed.
Lemma range_std_unit : forall k, (0 < k)%Qc -> spread_in_unit k range_std.
Proof.
  intros k K [|x s]; [cbn; ring|]. unfold range_std. change (in_unit k 0 (x :: s)) with (map (fun y => k * y + 0)%Qc (x :: s)). cbn [map].
  change ((k * x + 0)%Qc :: map (fun y => (k * y + 0)%Qc) s) with (map (fun y => (k * y + 0)%Qc) (x :: s)).
  rewrite qmax_map, qmin_map by (auto; discriminate). ring.
Qed.
Lemma first_spline_unit : forall k b, spline_in_unit k b first_spline.
Proof. intros k b idx [|v vals] x NE; [congruence|reflexivity]. Qed.

Definition unit_detect := detect_model ppf34 range_std (fun _ _ => 0%Qc) (fun x => x) ex_table sort_pairs (fun l => l) mean_trend
  mean_parts (map (fun _ => 0%Qc)) (fun _ => true) first_spline (fun _ => Ok 0).
Definition unit_entire := predict_entire (T := nat) ppf34 range_std (fun _ _ => 0%Qc) (fun x => x) ex_table sort_pairs (fun l => l) mean_trend
  mean_parts (map (fun _ => 0%Qc)) (fun _ => true) first_spline (fun _ => Ok 0).

Definition unit_latest := predict_last (T := nat) ppf34 range_std (fun _ _ => 0%Qc) (fun x => x) ex_table sort_pairs (fun l => l) mean_trend
  mean_parts (map (fun _ => 0%Qc)) (fun _ => true) first_spline (fun _ => Ok 0).
Definition unit_args (nt : bool) (l : list Z) : args :=
  mkArgs (map qz l) (match make_fup (Some (map Z.of_nat (range (length l)))) (map Some (map qz l)) default_maxlen with Ok f => f | _ => mkFup [] [] 0 false 0 [] [] [] end)
    FMLinear None (Q2Qc (1 # 10)) (Q2Qc (5 # 100)) (Q2Qc (7 # 2)) nt (Q2Qc (1 # 10)) Daily None.
Definition thermometer : list Z := [20; 21; 20; 19; 20; 21; 60; 19; 20; 21; 20; 19]%Z.
Definition flags_of (r : res (list (nat * outcome) * nat)) : list bool := match r with Ok x => map (fun p => o_anomaly (snd p)) (fst x) | Err _ => [] end.
Definition ask_detect (a : args) := unit_detect a (mkDet None None) None false.
Definition ask_entire (v1 : bool) (a : args) := unit_entire a (mkDet None None) None v1 (qz 90) (range 12).
Definition ask_latest (v1 : bool) (a : args) := unit_latest a (mkDet None None) None v1 (qz 90) (range 12).

Lemma ex_critical_nonneg : forall alpha n m c, (0 < alpha)%Qc -> (alpha <= 1)%Qc -> 2 * m + 2 <= n ->
  In c (get_critical (fun _ _ => 0%Qc) (fun x => x) ex_table alpha n m) -> (0 <= c)%Qc.
Proof.
  intros alpha n m c _ _ _ I. unfold get_critical in I. destruct (_ && _).
  - assert (J : In c ex_table) by (eapply FillUp_proofs3.slice_incl; eauto). apply repeat_spec in J. subst c. vm_compute. discriminate.
  - apply in_map_iff in I. destruct I as (x & <- & _). unfold calculate_esd_values. cbv zeta. unfold Qcdiv. 
    match goal with |- (0 <= 0 * ?a * ?b)%Qc => replace (0 * a * b)%Qc with 0%Qc by ring end. apply Qcle_refl.
Qed.
Lemma thermometer_args : forall nt, let a := unit_args nt thermometer in
  make_fup (Some (map Z.of_nat (range 12))) (map Some (a_values a)) default_maxlen = Ok (a_fup a) /\
  through_knots first_spline (map Z.of_nat (range 12)) a /\ 4 <= length (map Z.of_nat (range 12)) /\ (0 < a_alpha a)%Qc /\ (a_alpha a <= 1)%Qc /\ fine_grained a = false.
Proof. intros nt. split; [destruct nt; vm_compute; reflexivity|]. split; [intros X; discriminate X|]. repeat split; vm_compute; try reflexivity; try lia; discriminate. Qed.

(** The temperatures in Fahrenheit: expected 68 instead of 20, the same point
    stands out. *)
Example C99_rows_in_other_unit_example :
  (forall nt, answers_alike (same_answer_rows (Q2Qc (9 # 5)) (qz 32) nt) (ask_detect (unit_args nt thermometer)) (ask_detect (args_in_unit (Q2Qc (9 # 5)) (qz 32) (unit_args nt thermometer)))) /\
  (forall r, In r [(unit_args true thermometer, qz 20); (args_in_unit (Q2Qc (9 # 5)) (qz 32) (unit_args true thermometer), qz 68)] ->
     exists rows, ask_detect (fst r) = Ok (rows, 0, DynamicThreshold, false) /\ map (fun r => this (r_expected r)) rows = repeat (this (snd r)) 12 /\
       map r_anomaly rows = map (Nat.eqb 6) (range 12)).
Proof.
  split.
  - intros nt. destruct (thermometer_args nt) as (A & B & C & D & E & F).
    destruct (C99_rows_in_other_unit ppf34 range_std (fun _ _ => 0%Qc) (fun x => x) ex_table sort_pairs (fun l => l) mean_trend mean_parts (map (fun _ => 0%Qc)) (fun _ => true) first_spline (fun _ => Ok 0)
      sort_pairs_ok ex_critical_nonneg (Q2Qc (9 # 5)) (qz 32) (map Z.of_nat (range 12)) (unit_args nt thermometer) (mkDet None None) None false eq_refl
      (mean_trend_unit _ _) (mean_trend_unit _ _) (fun s p _ _ _ => mean_parts_unit _ _ s p) (fun _ => eq_refl) (fun _ => eq_refl) (first_spline_unit _ _) (fun _ => eq_refl) A B C D E F) as [_ H].
    exact H.
  - intros r [<-|[<-|[]]]; eexists; (split; [vm_compute; reflexivity|]); split; vm_compute; reflexivity.
Qed.

(** In thousandths of a degree the whole answer scales, with either version. *)
Example C99_entire_answer_example :
  map (fun a => flags_of (ask_entire true a)) [unit_args false thermometer; args_in_unit (qz 1000) 0 (unit_args false thermometer)] = repeat (map (Nat.eqb 6) (range 12)) 2 /\
  map (fun a => flags_of (ask_entire false a)) [unit_args true thermometer; args_in_unit (qz 1000) 0 (unit_args true thermometer)] = repeat (map (Nat.eqb 6) (range 12)) 2 /\
  scale_blind (qz 1000) (map (fun _ => 0%Qc)) /\ spread_in_unit (qz 1000) range_std /\
  (exists rows, ask_detect (unit_args true thermometer) = Ok (rows, 0, DynamicThreshold, false) /\ loud (qz 1000) rows /\
     Forall (fun r => same_side (qz 1000) (r_value r - r_expected r)%Qc) rows).
Proof.
  split; [vm_compute; reflexivity|]. split; [vm_compute; reflexivity|].
  split; [intros s; unfold in_unit; rewrite map_map; reflexivity|]. split; [apply range_std_unit; reflexivity|].
  eexists. split; [vm_compute; reflexivity|]. split.
  - split; [discriminate|]. split; vm_compute; discriminate.
  - repeat constructor; vm_compute; intros X; first [discriminate X|reflexivity].
Qed.

(** C99 does not hold for shifts of a V1 answer: in Kelvin-like units (a
    thousand degrees more) the margin, a share of the expected value, swallows
    the outlier. *)
Theorem C99_v1_shift_refuted : exists a b, fine_grained a = false /\ (exists i, nth_error (flags_of (ask_entire true a)) i = Some true) /\
  flags_of (ask_entire true (args_in_unit 1 b a)) = repeat false 12.
Proof. exists (unit_args false thermometer), (qz 1000). split; [reflexivity|]. split; [exists 6|]; vm_compute; reflexivity. Qed.
(** Nor for small units: deviations below 1e-8 are never reported. *)
Theorem C99_tiny_unit_refuted : exists a k, (0 < k)%Qc /\ (exists i, nth_error (flags_of (ask_entire true a)) i = Some true) /\
  flags_of (ask_entire true (args_in_unit k 0 a)) = repeat false 12.
Proof. exists (unit_args false thermometer), (Q2Qc (1 # 100000000000)). split; [reflexivity|]. split; [exists 6|]; vm_compute; reflexivity. Qed.
(** Nor for V2 when the trend is not loud: the margin does not go below the
    share of 0.3 that the sensitivity gives. *)
Theorem C99_v2_quiet_refuted : exists a k, (0 < k)%Qc /\ a_need_trend a = true /\ (exists i, nth_error (flags_of (ask_entire false a)) i = Some true) /\
  flags_of (ask_entire false (args_in_unit k 0 a)) = repeat false 12 /\
  (exists rows, ask_detect a = Ok (rows, 0, DynamicThreshold, false) /\
     forall r, In r rows -> r_anomaly r = true -> same_side k (r_value r - r_expected r)%Qc).
Proof.
  exists (unit_args true thermometer), (Q2Qc (1 # 100000)). split; [reflexivity|]. split; [reflexivity|]. split; [exists 6; vm_compute; reflexivity|].
  split; [vm_compute; reflexivity|]. eexists. split; [vm_compute; reflexivity|]. intros r I.
  repeat (destruct I as [<-|I]; [intros X; try discriminate X; split; vm_compute; intros Y; discriminate Y|]). contradiction.
Qed.
Print Assumptions C99_v1_shift_refuted.
Print Assumptions C99_tiny_unit_refuted.
Print Assumptions C99_v2_quiet_refuted.
