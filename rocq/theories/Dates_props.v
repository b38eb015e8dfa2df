(** Properties of calendar differences, grid indices and timestamp parsing. *)
From Coq Require Import List ZArith Lia Bool Ascii String.
From Verif Require Import Base Helpers_model Detect_model Dates_model Dates_spec Dates_proofs Dates_float Dates_index Dates_text.
Import ListNotations.
Open Scope Z_scope.

Definition at_ (y m d h mi s us : Z) : stamp := Stamp (Date y m d) ((h * 3600 + mi * 60 + s) * 1000000 + us).

(** * C31 *)
(** The date [k] months after [b], the day cut to the month's end, differs from
    [b] by exactly [k] months; both times of day are irrelevant as long as the
    later date is not the earlier moment. *)
Theorem C31_months_later : forall a b k, valid (s_date b) -> 0 <= k -> stamp_ltb a b = false ->
  months_after (s_date b) k (s_date a) ->
  let d := get_date_difference a b in d_days d = 0 /\ d_years d = k / 12 /\ d_months d = k mod 12.
Proof.
  intros a b k Vb Hk O (Va & M & D) d.
  destruct (zero_days a b Va Vb) as (Z & T & _). destruct (diff_forward a b O Va Vb) as (R & _). fold d in Z, T, R.
  assert (A : days_agree (s_date a) (s_date b)) by (unfold days_agree; destruct D as [D|[D L]]; auto; right; left; split; auto; lia).
  apply Z in A. split; auto. specialize (T A). unfold total_months in T.
  split; [apply Z.div_unique with (d_months d)|apply Z.mod_unique with (d_years d)]; lia.
Qed.
Print Assumptions C31_months_later.
Example C31_leap : get_date_difference (at_ 2024 2 29 0 0 0 0) (at_ 2022 12 31 5 0 0 0) = Diff 1 2 0
  /\ months_after (Date 2022 12 31) 14 (Date 2024 2 29).
Proof.
  split; [reflexivity|]. split; [apply valid_iff; cbn; lia|]. split; [reflexivity|]. right. split; [cbn; lia|].
  apply last_iff; [apply valid_iff; cbn; lia|reflexivity].
Qed.

(** Zero days are reported exactly for days of the month that agree up to one
    of the two dates being the end of its month; then the months are counted. *)
Theorem C31_zero_days : forall a b, valid (s_date a) -> valid (s_date b) ->
  let d := get_date_difference a b in
  (d_days d = 0 <-> days_agree (s_date a) (s_date b)) /\
  (d_days d = 0 -> d_years d * 12 + d_months d = month_no (s_date a) - month_no (s_date b)).
Proof. intros a b Va Vb. destruct (zero_days a b Va Vb) as (Z & T & _). split; auto. Qed.
Print Assumptions C31_zero_days.
Example C31_not_zero : d_days (get_date_difference (at_ 2023 3 30 0 0 0 0) (at_ 2023 1 31 0 0 0 0)) = 30
  /\ ~ days_agree (Date 2023 3 30) (Date 2023 1 31).
Proof.
  split; [reflexivity|]. assert (V : forall y m d, valid (Date y m d) <-> _) by (intros; apply valid_iff).
  intros [H|[[H _]|[_ H]]]; [discriminate H| |cbn in H; lia].
  apply last_iff in H; [discriminate H|]. apply V. cbn. lia.
Qed.

(** Otherwise: whole months first, then the days left over; the days are counted
    to the end of the earlier month when the later day is smaller. *)
Theorem C31_days_left : forall a b, stamp_ltb a b = false -> valid (s_date a) -> valid (s_date b) ->
  let d := get_date_difference a b in let p := s_date a in let q := s_date b in
  d_days d <> 0 -> forall n, month_length (yr q) (mo q) n ->
  (dy q < dy p /\ d_days d = dy p - dy q /\ d_years d * 12 + d_months d = month_no p - month_no q) \/
  (dy p < dy q /\ d_days d = n - dy q + dy p /\ d_years d * 12 + d_months d = month_no p - month_no q - 1).
Proof.
  intros a b O Va Vb d p q D n L. destruct (diff_forward a b O Va Vb) as (_ & _ & _ & _ & _ & F).
  apply month_length_iff in L; [|apply valid_iff in Vb; apply Vb]. subst n. apply F. auto.
Qed.
Print Assumptions C31_days_left.
Example C31_days_left_case : get_date_difference (at_ 2023 3 1 0 0 0 0) (at_ 2023 1 30 0 0 0 0) = Diff 0 1 2.
Proof. reflexivity. Qed.

Theorem C31_antisymmetric : forall a b,
  let d := get_date_difference a b in let e := get_date_difference b a in
  d_years d = - d_years e /\ d_months d = - d_months e /\ d_days d = - d_days e.
Proof. exact antisym. Qed.
Print Assumptions C31_antisymmetric.
Example C31_antisymmetric_case : get_date_difference (at_ 2022 12 31 0 0 0 0) (at_ 2024 2 29 0 0 0 0) = Diff (-1) (-2) 0.
Proof. reflexivity. Qed.

(** * C32 *)
(** Whole seconds, granularity second to week: the indices are the numbers of
    steps after the first timestamp, or the first timestamp off the grid is
    named. *)
Theorem C32_regular : forall g u custom c first rest,
  unit_seconds g = Some u -> c = match custom with None => 1 | Some i => Z.max i 1 end -> u * c < 2 ^ 53 ->
  Forall (fun t => whole_second t /\ Z.abs (epoch_us t) < 2 ^ 53) (first :: rest) ->
  exists r, get_indices_from_timestamps g custom (first :: rest) = Ok r /\
            answer (steps_after first (c * u * second_us)) (first :: rest) r.
Proof.
  intros g u custom c first rest U C B F. change (2 ^ 53) with two53 in *.
  assert (E : Z.max (match custom with None => 1 | Some c => c end) 1 = c) by (subst c; destruct custom; lia).
  pose proof (indices_of_tells g u custom first rest U) as I. cbv zeta in I. rewrite E in I. apply I.
  assert (P : 0 < u * c) by (destruct g; try discriminate; injection U as <-; lia).
  destruct (Forall_inv F) as [[k0 K0] B0]. eapply Forall_impl; [|exact F]. intros t [[k K] Bt]. unfold second_us in *.
  replace (c * u * 1000000) with (u * c * 1000000) by lia. apply (whole_tells first t k0 k); auto; lia.
Qed.
Print Assumptions C32_regular.
Example C32_daily : let ts := [at_ 2019 1 1 0 0 0 0; at_ 2019 1 3 0 0 0 0; at_ 2019 1 9 0 0 0 0] in
  get_indices_from_timestamps Daily (Some 2) ts = Ok (Some [0; 1; 4], None) /\
  get_indices_from_timestamps Weekly None ts = Ok (None, Some 1%nat).
Proof. vm_compute. auto. Qed.

(** Months and years: accepted exactly when every timestamp is a multiple of the
    interval after the first, up to the ends of months. The position reported
    otherwise is the first with a wrong day, or if there is none the first with
    a wrong number of months. *)
Theorem C32_months : forall g n custom c first rest,
  (g = Monthly /\ n = 1 \/ g = Yearly /\ n = 12) -> c = match custom with None => 1 | Some i => Z.max i 1 end -> c < 2 ^ 53 ->
  Forall stamp_ok (first :: rest) ->
  exists r, get_indices_from_timestamps g custom (first :: rest) = Ok r /\
    two_scans (fun t => days_agree (s_date t) (s_date first) /\ (n | month_no (s_date t) - month_no (s_date first)))
              (fun t => (c * n | month_no (s_date t) - month_no (s_date first)))
              (month_steps first (c * n)) (first :: rest) r.
Proof.
  intros g n custom c first rest G C B F. change (2 ^ 53) with two53 in *.
  assert (E : Z.max (match custom with None => 1 | Some c => c end) 1 = c) by (subst c; destruct custom; lia).
  assert (Hc : 0 < c < two53) by lia.
  destruct (Forall_inv F) as (V0 & Y0 & _).
  assert (Bd : forall t, stamp_ok t -> Z.abs (month_no (s_date t) - month_no (s_date first)) < 1000000).
  { intros t (V & Y & _). apply valid_iff in V, V0. unfold month_no. lia. }
  unfold get_indices_from_timestamps. rewrite E. destruct G as [[-> ->]|[-> ->]].
  - match goal with |- exists r, ?e = Ok r /\ _ => assert (X : exists r, e = Ok r) end.
    { destruct (first_bad _ _ _); eauto. }
    destruct X as [r X]. exists r. split; auto.
    pose proof (scan_months first (first :: rest) (fun d => d_days d =? 0) (fun d => d_months d + d_years d * 12)
                  (fun t => days_agree (s_date t) (s_date first)) c c) as S0. cbv zeta in S0.
    specialize (S0 Hc).
    assert (Each : Forall (fun t => ((d_days (get_date_difference t first) =? 0) = true <-> days_agree (s_date t) (s_date first)) /\
       Z.abs (d_months (get_date_difference t first) + d_years (get_date_difference t first) * 12) < two53 /\
       (forall k, month_steps first c t k <-> days_agree (s_date t) (s_date first) /\
          d_months (get_date_difference t first) + d_years (get_date_difference t first) * 12 = k * c)) (first :: rest)).
    { eapply Forall_impl; [|exact F]. intros t Ot. destruct Ot as (V & Y & Us). destruct (zero_days t first V V0) as (Z0 & T & Mr).
      cbv zeta in *. set (d := get_date_difference t first) in *. pose proof (Bd t (conj V (conj Y Us))) as Bt.
      split; [rewrite Z.eqb_eq; auto|]. split.
      - pose proof (year_bound t first V V0 Y Y0) as YB. fold d in YB. lia.
      - intros k. unfold month_steps. rewrite <- Z0. unfold total_months in T. split; intros [D1 D2]; specialize (T D1); split; auto; lia. }
    specialize (S0 Each r X). revert S0. clear - F V0. intros S0. rewrite Z.mul_1_r.
    eapply two_scans_ext; [| |exact S0].
    + intros t _. split; [|tauto]. intros D. split; auto. apply Z.divide_1_l.
    + intros t Ht D. rewrite Forall_forall in F. destruct (F t Ht) as (V & _). destruct (zero_days t first V V0) as (Z0 & T & _).
      specialize (T (proj2 Z0 (proj1 D))). unfold total_months in T. rewrite <- T. rewrite Z.add_comm. reflexivity.
  - match goal with |- exists r, ?e = Ok r /\ _ => assert (X : exists r, e = Ok r) end.
    { destruct (first_bad _ _ _); eauto. }
    destruct X as [r X]. exists r. split; auto.
    pose proof (scan_months first (first :: rest) (fun d => (d_days d =? 0) && (d_months d =? 0)) d_years
                  (fun t => days_agree (s_date t) (s_date first) /\ (12 | month_no (s_date t) - month_no (s_date first))) c (c * 12)) as S0.
    cbv zeta in S0. specialize (S0 Hc).
    assert (Key : forall t, stamp_ok t -> d_days (get_date_difference t first) = 0 ->
        ((12 | month_no (s_date t) - month_no (s_date first)) <-> d_months (get_date_difference t first) = 0)).
    { intros t (V & _) D. destruct (zero_days t first V V0) as (_ & T & Mr). specialize (T D). unfold total_months in T. rewrite <- T.
      split; [intros (k & K); lia|]. intros ->. exists (d_years (get_date_difference t first)). lia. }
    assert (Each : Forall (fun t => ((d_days (get_date_difference t first) =? 0) && (d_months (get_date_difference t first) =? 0) = true <->
            days_agree (s_date t) (s_date first) /\ (12 | month_no (s_date t) - month_no (s_date first))) /\
       Z.abs (d_years (get_date_difference t first)) < two53 /\
       (forall k, month_steps first (c * 12) t k <-> (days_agree (s_date t) (s_date first) /\ (12 | month_no (s_date t) - month_no (s_date first))) /\
          d_years (get_date_difference t first) = k * c)) (first :: rest)).
    { eapply Forall_impl; [|exact F]. intros t Ot. pose proof (Key t Ot) as Kt. destruct Ot as (V & Y & Us). destruct (zero_days t first V V0) as (Z0 & T & Mr).
      cbv zeta in *. set (d := get_date_difference t first) in *.
      split; [|split].
      - rewrite andb_true_iff, !Z.eqb_eq. rewrite <- Z0. split; intros [D1 D2]; split; auto; apply Kt; auto.
      - pose proof (year_bound t first V V0 Y Y0) as YB. fold d in YB. lia.
      - intros k. unfold month_steps. rewrite <- Z0. unfold total_months in T. split.
        + intros [D1 D2]. specialize (T D1). assert (Dv : (12 | month_no (s_date t) - month_no (s_date first))) by (exists (k * c); lia).
          pose proof (proj1 (Kt D1) Dv). split; [split; auto|]. lia.
        + intros [[D1 Dv] D2]. specialize (T D1). pose proof (proj1 (Kt D1) Dv). split; auto. lia. }
    specialize (S0 Each r X). eapply two_scans_ext; [| |exact S0]; [intros t _; reflexivity|].
    intros t Ht [D Dv]. rewrite Forall_forall in F. destruct (F t Ht) as (V & Y & Us). destruct (zero_days t first V V0) as (Z0 & T & _).
    specialize (T (proj2 Z0 D)). pose proof (proj1 (Key t (conj V (conj Y Us)) (proj2 Z0 D)) Dv) as M0. unfold total_months in T. rewrite <- T, M0, Z.add_0_r.
    split; intros (k & K); exists k; lia.
Qed.
Print Assumptions C32_months.
Example C32_monthly : let ts := [at_ 2019 1 31 0 0 0 0; at_ 2019 3 31 0 0 0 0; at_ 2019 9 30 0 0 0 0] in
  get_indices_from_timestamps Monthly (Some 2) ts = Ok (Some [0; 1; 4], None) /\
  get_indices_from_timestamps Yearly None ts = Ok (None, Some 1%nat) /\ Forall stamp_ok ts.
Proof.
  split; [vm_compute; reflexivity|]. split; [vm_compute; reflexivity|].
  repeat constructor; try (cbn; unfold second_us; lia); cbn; try lia;
  (eexists; split; [apply month_length_iff; [cbn; lia|reflexivity]|cbn; lia]).
Qed.
(** The date a number of steps later, cut to the month's end, is accepted with
    that index. *)
Theorem C32_months_later : forall g n custom c first t k,
  (g = Monthly /\ n = 1 \/ g = Yearly /\ n = 12) -> c = match custom with None => 1 | Some i => Z.max i 1 end -> c < 2 ^ 53 ->
  stamp_ok first -> stamp_ok t -> months_after (s_date first) (k * (c * n)) (s_date t) ->
  get_indices_from_timestamps g custom [first; t] = Ok (Some [0; k], None).
Proof.
  intros g n custom c first t k G C B O0 O (V & M & D).
  destruct (C32_months g n custom c first [t] G C B) as (r & E & A); [constructor; auto|].
  assert (A0 : month_steps first (c * n) first 0) by (split; [left; auto|lia]).
  assert (A1 : month_steps first (c * n) t k).
  { split; [|auto]. unfold days_agree. destruct D as [D|[D L]]; auto. right. left. split; auto. lia. }
  assert (Cn : 0 < c * n) by (subst c; destruct G as [[_ ->]|[_ ->]], custom; lia).
  rewrite E. f_equal. destruct r as [[l|] [i|]]; cbn [two_scans] in A; try tauto.
  - inversion A as [|? a ? l' X1 Y1]; subst. inversion Y1 as [|? b ? l'' X2 Y2]; subst. inversion Y2; subst.
    destruct X1 as [_ X1], X2 as [_ X2], A0 as [_ A0], A1 as [_ A1]. do 4 f_equal; nia.
  - destruct A as (u & U & N & _). destruct i as [|[|i]]; cbn in U; [injection U as <-|injection U as <-|destruct i; discriminate].
    + exfalso. exact (N 0 A0).
    + exfalso. exact (N k A1).
Qed.
Print Assumptions C32_months_later.
Example C32_month_end : get_indices_from_timestamps Monthly None [at_ 2019 1 31 0 0 0 0; at_ 2019 2 28 0 0 0 0] = Ok (Some [0; 1], None).
Proof. vm_compute. reflexivity. Qed.

(** The documented "first invalid index" is not the first invalid timestamp for
    months: every second month is asked for, the second timestamp is one month
    after the first, but the third is reported. *)
Theorem C32_first_invalid_refuted :
  ~ (forall custom first rest i, Forall stamp_ok (first :: rest) ->
      get_indices_from_timestamps Monthly custom (first :: rest) = Ok (None, Some i) ->
      forall j t, (j < i)%nat -> nth_error (first :: rest) j = Some t ->
        exists k, month_steps first (match custom with None => 1 | Some c => Z.max c 1 end) t k).
Proof.
  intros H. specialize (H (Some 2) (at_ 2019 1 1 0 0 0 0) [at_ 2019 2 1 0 0 0 0; at_ 2019 3 2 0 0 0 0] 2%nat).
  destruct (fun X => H X ltac:(vm_compute; reflexivity) 1%nat _ ltac:(lia) eq_refl) as (k & _ & K).
  - repeat constructor; try (cbn; unfold second_us; lia); cbn; try lia;
    (eexists; split; [apply month_length_iff; [cbn; lia|reflexivity]|cbn; lia]).
  - unfold month_no in K. cbn [at_ s_date yr mo] in K. lia.
Qed.
Print Assumptions C32_first_invalid_refuted.

(** * C78 *)
(** Different timestamps can get the same index. *)
Theorem C78_distinct_indices_refuted :
  ~ (forall g custom ts l, Forall stamp_ok ts -> get_indices_from_timestamps g custom ts = Ok (Some l, None) ->
      forall i j a b, nth_error ts i = Some a -> nth_error ts j = Some b -> a <> b ->
        forall k, nth_error l i = Some k -> nth_error l j <> Some k).
Proof.
  intros H. apply (H Monthly None [at_ 2019 2 28 0 0 0 0; at_ 2019 3 28 0 0 0 0; at_ 2019 3 31 0 0 0 0] [0; 1; 1]) with (i := 1%nat) (j := 2%nat) (k := 1)
    (a := at_ 2019 3 28 0 0 0 0) (b := at_ 2019 3 31 0 0 0 0); try reflexivity; try discriminate.
  repeat constructor; try (cbn; unfold second_us; lia); cbn; try lia;
    (eexists; split; [apply month_length_iff; [cbn; lia|reflexivity]|cbn; lia]).
Qed.
Print Assumptions C78_distinct_indices_refuted.
(** Exactly the timestamps of one month share an index: the day within the month
    and the time of day do not matter once accepted. *)
Theorem C78_same_index : forall g n custom first rest l i j a b p q,
  (g = Monthly /\ n = 1 \/ g = Yearly /\ n = 12) -> (match custom with None => 1 | Some i => Z.max i 1 end) < 2 ^ 53 ->
  Forall stamp_ok (first :: rest) ->
  get_indices_from_timestamps g custom (first :: rest) = Ok (Some l, None) ->
  nth_error (first :: rest) i = Some a -> nth_error (first :: rest) j = Some b ->
  nth_error l i = Some p -> nth_error l j = Some q ->
  (p = q <-> yr (s_date a) = yr (s_date b) /\ mo (s_date a) = mo (s_date b)).
Proof.
  intros g n custom first rest l i j a b p q G B F E Ia Jb Ip Jq.
  set (c := match custom with None => 1 | Some i => Z.max i 1 end) in *.
  destruct (C32_months g n custom c first rest G eq_refl B F) as (r & E' & A). rewrite E in E'. injection E' as <-. cbn [two_scans] in A.
  assert (Cn : 0 < c * n) by (unfold c; destruct G as [[_ ->]|[_ ->]], custom; lia).
  assert (N : forall (idx : stamp -> Z -> Prop) ts l i t k, Forall2 idx ts l -> nth_error ts i = Some t -> nth_error l i = Some k -> idx t k).
  { clear. intros idx ts l i t k F. revert i. induction F as [|x y ts l X F IH]; intros [|i]; cbn; intros T K; try discriminate.
    - injection T as <-. injection K as <-. auto.
    - eauto. }
  destruct (N _ _ _ _ _ _ A Ia Ip) as [_ P]. destruct (N _ _ _ _ _ _ A Jb Jq) as [_ Q].
  rewrite Forall_forall in F. destruct (F a (nth_error_In _ _ Ia)) as (Va & _). destruct (F b (nth_error_In _ _ Jb)) as (Vb & _).
  apply valid_iff in Va, Vb. unfold month_no in *. split.
  - intros ->. lia.
  - intros [Y M]. rewrite Y, M in P. nia.
Qed.
Print Assumptions C78_same_index.
Example C78_case : get_indices_from_timestamps Yearly None [at_ 2019 2 28 0 0 0 0; at_ 2020 2 28 7 0 0 0; at_ 2020 2 29 0 0 0 0] = Ok (Some [0; 1; 1], None).
Proof. vm_compute. reflexivity. Qed.

(** * C79 *)
(** Microseconds are no obstacle within 2004-01-10 to 2038-01-19: the timestamps
    are accepted exactly when they are on the grid. *)
Theorem C79_recent : forall g u custom c first rest,
  unit_seconds g = Some u -> c = match custom with None => 1 | Some i => Z.max i 1 end -> u * c < 2 ^ 53 ->
  Forall (fun t => recent (epoch_us t)) (first :: rest) ->
  exists r, get_indices_from_timestamps g custom (first :: rest) = Ok r /\
            answer (steps_after first (c * u * second_us)) (first :: rest) r.
Proof.
  intros g u custom c first rest U C B F. change (2 ^ 53) with two53 in *.
  assert (E : Z.max (match custom with None => 1 | Some c => c end) 1 = c) by (subst c; destruct custom; lia).
  pose proof (indices_of_tells g u custom first rest U) as I. cbv zeta in I. rewrite E in I. apply I.
  assert (P : 0 < u * c) by (destruct g; try discriminate; injection U as <-; lia).
  pose proof (Forall_inv F) as F0. eapply Forall_impl; [|exact F]. intros t Rt. cbn beta in *.
  replace (c * u * 1000000) with (u * c * 1000000) by lia. apply recent_tells; auto.
Qed.
Print Assumptions C79_recent.
Example C79_case : let ts := [at_ 2019 1 1 0 0 0 123457; at_ 2019 1 1 0 0 10 123457; at_ 2019 1 1 0 0 20 123458] in
  get_indices_from_timestamps Secondly (Some 10) ts = Ok (None, Some 2%nat) /\
  get_indices_from_timestamps Secondly (Some 10) (firstn 2 ts) = Ok (Some [0; 1], None) /\
  Forall (fun t => recent (epoch_us t)) ts.
Proof.
  split; [vm_compute; reflexivity|]. split; [vm_compute; reflexivity|]. unfold recent.
  repeat constructor; vm_compute; congruence.
Qed.
(** Across the border of the range a regular series is refused. *)
Theorem C79_all_times_refuted :
  ~ (forall g u custom first rest, unit_seconds g = Some u -> Forall stamp_ok (first :: rest) ->
      (forall t, In t (first :: rest) -> exists k, steps_after first (match custom with None => 1 | Some i => Z.max i 1 end * u * second_us) t k) ->
      exists l, get_indices_from_timestamps g custom (first :: rest) = Ok (Some l, None)).
Proof.
  intros H. specialize (H Secondly 1 (Some 10) (at_ 2004 1 10 13 37 0 100000) [at_ 2004 1 10 13 37 10 100000] eq_refl).
  destruct H as (l & H).
  - repeat constructor; try (cbn; unfold second_us; lia); cbn; try lia;
    (eexists; split; [apply month_length_iff; [cbn; lia|reflexivity]|cbn; lia]).
  - intros t [<-|[<-|[]]]; [exists 0|exists 1]; vm_compute; reflexivity.
  - vm_compute in H. discriminate H.
Qed.
Print Assumptions C79_all_times_refuted.

(** * C33 *)
(** For intervals up to 4006 and timestamps from November 2004 to January 2038
    the index is the exact number of intervals between the millisecond counts. *)
Theorem C33_milliseconds : forall custom c first rest,
  c = match custom with None => 1 | Some i => Z.max i 1 end -> c <= 4006 ->
  Forall (fun t => milli_range (epoch_us t)) (first :: rest) ->
  exists r, get_indices_from_timestamps Microsecond custom (first :: rest) = Ok r /\
            answer (fun t k => epoch_us t / 1000 = epoch_us first / 1000 + k * c) (first :: rest) r.
Proof.
  intros custom c first rest C B F.
  assert (E : Z.max (match custom with None => 1 | Some c => c end) 1 = c) by (subst c; destruct custom; lia).
  pose proof (micro_indices custom first rest) as I. cbv zeta in I. rewrite E in I. apply I; auto.
Qed.
Print Assumptions C33_milliseconds.
Example C33_case : let ts := [at_ 2019 1 1 0 0 0 0; at_ 2019 1 1 0 0 0 250000; at_ 2019 1 1 0 0 0 500999] in
  get_indices_from_timestamps Microsecond (Some 250) ts = Ok (Some [0; 1; 2], None) /\ Forall (fun t => milli_range (epoch_us t)) ts.
Proof. split; [vm_compute; reflexivity|]. unfold milli_range. repeat constructor; vm_compute; congruence. Qed.
(** Outside it fails: one millisecond after 2004-03-23 00:00 is index 0 again. *)
Theorem C33_lost_millisecond_refuted :
  ~ (forall first t k, stamp_ok first -> stamp_ok t -> steps_after first 1000 t k -> 0 <= k ->
      get_indices_from_timestamps Microsecond None [first; t] = Ok (Some [0; k], None)).
Proof.
  intros H. specialize (H (at_ 2004 3 23 0 0 0 0) (at_ 2004 3 23 0 0 0 1000) 1).
  assert (X : Ok (Some [0; 0], None) = Ok (Some [0; 1], @None nat)); [|discriminate X].
  rewrite <- H; [vm_compute; reflexivity| | |vm_compute; reflexivity|lia];
  (repeat constructor; try (cbn; unfold second_us; lia); cbn; try lia;
    (eexists; split; [apply month_length_iff; [cbn; lia|reflexivity]|cbn; lia])).
Qed.
Print Assumptions C33_lost_millisecond_refuted.
(** And the interval 4007 becomes 4006, so that a regular series is refused. *)
Theorem C33_interval_refuted :
  ~ (forall c first t, 1 <= c -> milli_range (epoch_us first) -> milli_range (epoch_us t) -> steps_after first (1000 * c) t 1 ->
      get_indices_from_timestamps Microsecond (Some c) [first; t] = Ok (Some [0; 1], None)).
Proof.
  intros H. specialize (H 4007 (at_ 2019 1 1 0 0 0 0) (at_ 2019 1 1 0 0 4 7000)).
  assert (X : Ok (None, Some 1%nat) = Ok (Some [0; 1], None)); [|discriminate X].
  rewrite <- H; [vm_compute; reflexivity|lia| | |vm_compute; reflexivity]; unfold milli_range; vm_compute; split; congruence.
Qed.
Print Assumptions C33_interval_refuted.

(** * C58 *)
(** The texts accepted are exactly the writings of the moments of the calendar
    in five layouts, and each is read as the moment it writes. *)
Theorem C58_accepted : forall t st,
  format_timestamp_str t = Ok st <->
  exists w y m d h mi s, t = render w y m d h mi s /\ moment y m d h mi s st /\ writable w y h mi s.
Proof.
  intros t st. split; [apply accepted_written|]. intros (w & y & m & d & h & mi & s & -> & M & W). apply written_accepted; auto.
Qed.
Print Assumptions C58_accepted.
Example C58_read : format_timestamp_str (list_ascii_of_string "2024-02-29T23:59:58Z") = Ok (at_ 2024 2 29 23 59 58 0)
  /\ list_ascii_of_string "2024-02-29T23:59:58Z" = render WZ 2024 2 29 23 59 58
  /\ format_timestamp_str (list_ascii_of_string "2023-02-29T23:59:58Z") = Err ValueErr.
Proof. vm_compute. auto. Qed.
(** Three further layouts are recognised, but no text in them is ever read. *)
Theorem C58_layouts_refuted : forall t,
  (exists y m d h mi s z, t = d4 y ++ [dash] ++ d2 m ++ [dash] ++ d2 d ++ [blank] ++ d2 h ++ [colon] ++ d2 mi ++ [colon] ++ d2 s ++ [blank; ch 43] ++ d4 z) \/
  (exists m d y, t = d2 m ++ [slash] ++ d2 d ++ [slash] ++ d4 y) \/
  (exists y m d, t = d4 y ++ d2 m ++ d2 d) ->
  format_timestamp_str t = Err ValueErr.
Proof.
  intros t H. destruct (format_timestamp_str t) as [st|e] eqn:E.
  - exfalso. apply C58_accepted in E. destruct E as (w & y & m & d & h & mi & s & -> & _ & _).
    assert (L : forall n, List.length (d2 n) = 2%nat) by reflexivity. assert (L4 : forall n, List.length (d4 n) = 4%nat) by reflexivity.
    destruct H as [(y' & m' & d' & h' & mi' & s' & z & H)|[(m' & d' & y' & H)|(y' & m' & d' & H)]]; pose proof H as X;
    apply (f_equal (@List.length ascii)) in H; destruct w; unfold render in H; rewrite ?app_length, ?L, ?L4 in H; cbn in H; try lia.
    apply (f_equal (fun l => nth_error l 2)) in X. unfold render, d4, d2 in X. cbn [app nth_error] in X. injection X as X.
    pose proof (Z.mod_pos_bound y' 100 eq_refl) as B. apply (not_digit slash eq_refl (y' mod 100 / 10)); [|exact (eq_sym X)].
    split; [apply Z.div_pos; lia|]. assert (y' mod 100 / 10 < 10) by (apply Z.div_lt_upper_bound; lia). lia.
  - f_equal. revert E. unfold format_timestamp_str. destruct (find_layout layouts t); [|congruence]. unfold strptime.
    destruct (parse _ _ _) as [[f [|a r]]|]; try congruence. unfold mk_datetime. destruct (_ && _); congruence.
Qed.
Print Assumptions C58_layouts_refuted.
Example C58_recognised :
  match_layout (chars "DDDD-DD-DD DD:DD:DD +DDDD") (list_ascii_of_string "2024-02-29 23:59:58 +0000") = true /\
  format_timestamp_str (list_ascii_of_string "2024-02-29 23:59:58 +0000") = Err ValueErr /\
  format_timestamp_str (list_ascii_of_string "02/29/2024") = Err ValueErr /\
  format_timestamp_str (list_ascii_of_string "20240229") = Err ValueErr.
Proof. vm_compute. auto. Qed.
