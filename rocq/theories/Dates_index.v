(** From timestamps to grid indices. *)
From Coq Require Import List ZArith Lia Bool Reals Lra.
From Flocq Require Import Core BinarySingleNaN.
From Verif Require Import Base Helpers_model Detect_model Dates_model Dates_spec Dates_proofs Dates_float.
Import ListNotations.
Open Scope Z_scope.

(** ** The two scans *)
Lemma first_bad_none : forall A (ok : A -> bool) l i, first_bad ok i l = None <-> Forall (fun x => ok x = true) l.
Proof.
  induction l as [|x t IH]; intros i; cbn [first_bad]; [split; auto|].
  destruct (ok x) eqn:E.
  - rewrite IH. split; [constructor; auto|]. intros F. inversion F; auto.
  - split; [discriminate|]. intros F. inversion F. congruence.
Qed.
Lemma first_bad_some : forall A (ok : A -> bool) l i n, first_bad ok i l = Some n ->
  exists j x, n = (i + j)%nat /\ nth_error l j = Some x /\ ok x = false /\
    forall j' y, (j' < j)%nat -> nth_error l j' = Some y -> ok y = true.
Proof.
  induction l as [|x t IH]; intros i n H; cbn [first_bad] in H; [discriminate|].
  destruct (ok x) eqn:E.
  - destruct (IH _ _ H) as (j & y & -> & N & O & B). exists (S j), y. split; [lia|]. split; auto. split; auto.
    intros [|j'] z L Z; cbn in Z; [injection Z as <-; auto|]. apply (B j'); auto. lia.
  - injection H as <-. exists 0%nat, x. split; [lia|]. split; auto. split; auto. intros. lia.
Qed.

(** A list of quotients that tell the indices gives the expected answer. *)
Lemma to_indices_answer : forall A (idx : A -> Z -> Prop) (q : A -> f64) ts,
  Forall (fun t => (is_integer (q t) = true <-> exists k, idx t k) /\ forall k, idx t k -> to_Z (q t) = k) ts ->
  answer idx ts (to_indices (map q ts)).
Proof.
  intros A idx q ts F. unfold to_indices. destruct (first_bad is_integer 0 (map q ts)) as [n|] eqn:E.
  - apply first_bad_some in E. destruct E as (j & x & -> & N & O & B). cbn [answer plus].
    rewrite nth_error_map in N. destruct (nth_error ts j) as [t|] eqn:T; [|discriminate]. cbn in N. injection N as <-.
    exists t. split; auto. rewrite Forall_forall in F. split.
    + intros k K. destruct (F t (nth_error_In _ _ T)) as [I _]. assert (is_integer (q t) = true) by (apply I; eauto). congruence.
    + intros j' u L U. apply (F u (nth_error_In _ _ U)). apply (B j'); auto. rewrite nth_error_map, U. reflexivity.
  - rewrite first_bad_none in E. cbn [answer]. induction ts as [|t ts IH]; cbn [map]; constructor.
    + inversion F as [|? ? [I K] F']; subst. inversion E as [|? ? E1 E2]; subst. apply I in E1. destruct E1 as [k E1].
      rewrite (K k E1). auto.
    + inversion F; inversion E; subst. apply IH; auto.
Qed.
Lemma tells_index : forall step first t q, tells step (epoch_us first) (epoch_us t) q ->
  (is_integer q = true <-> exists k, steps_after first step t k) /\ forall k, steps_after first step t k -> to_Z q = k.
Proof.
  intros step first t q [A B]. unfold steps_after. split.
  - rewrite A. split; intros (k & K); exists k; lia.
  - intros k K. apply B. lia.
Qed.

(** ** Seconds to weeks *)
Lemma indices_of_tells : forall g u custom first rest,
  unit_seconds g = Some u ->
  let c := Z.max (match custom with None => 1 | Some c => c end) 1 in
  Forall (fun t => tells (c * u * 1000000) (epoch_us first) (epoch_us t)
                     (fdiv (fsub (timestamp t) (timestamp first)) (of_Z (u * c)))) (first :: rest) ->
  exists r, get_indices_from_timestamps g custom (first :: rest) = Ok r /\
            answer (steps_after first (c * u * second_us)) (first :: rest) r.
Proof.
  intros g u custom first rest U c F. 
  exists (to_indices (map (fun t => fdiv (fsub (timestamp t) (timestamp first)) (of_Z (u * c))) (first :: rest))).
  split.
  - unfold get_indices_from_timestamps. fold c. assert (C : 1 <= c) by (unfold c; lia).
    destruct g; try discriminate; injection U as <-; cbn [get_second_by_granularity bind];
    match goal with |- context [if ?x =? 0 then _ else _] => destruct (x =? 0) eqn:E; [apply Z.eqb_eq in E; lia|] end; try reflexivity.
    rewrite Z.mul_1_l. reflexivity.
  - apply to_indices_answer. eapply Forall_impl; [|exact F]. intros t T. apply tells_index. exact T.
Qed.

(** ** Months and years *)
Lemma days_agree_sym : forall a b, days_agree a b <-> days_agree b a.
Proof. intros. unfold days_agree. split; intros [H|[H|H]]; auto. Qed.
Lemma zero_days : forall a b, valid (s_date a) -> valid (s_date b) ->
  let d := get_date_difference a b in
  (d_days d = 0 <-> days_agree (s_date a) (s_date b)) /\
  (d_days d = 0 -> total_months d = month_no (s_date a) - month_no (s_date b)) /\
  -11 <= d_months d <= 11.
Proof.
  intros a b Va Vb.
  assert (Same : month_no (s_date a) = month_no (s_date b) -> (days_agree (s_date a) (s_date b) <-> dy (s_date a) = dy (s_date b))).
  { intros M. pose proof (last_iff _ Va) as La. pose proof (last_iff _ Vb) as Lb. unfold days_agree. rewrite La, Lb.
    apply valid_iff in Va, Vb. unfold month_no in M. assert (yr (s_date a) = yr (s_date b) /\ mo (s_date a) = mo (s_date b)) as [Y Mo] by lia.
    rewrite Y, Mo in *. lia. }
  destruct (stamp_ltb a b) eqn:E.
  - assert (F : stamp_ltb b a = false) by (apply stamp_ltb_asym; auto).
    destruct (diff_forward b a F Vb Va) as (M & _ & _ & T & Z & _). rewrite (diff_swap a b E). unfold total_months in *. cbn [d_years d_months d_days] in *.
    rewrite days_agree_sym in Same. rewrite days_agree_sym. set (d := get_date_difference b a) in *.
    split; [|split; [intros; lia|lia]].
    split.
    + intros H. assert (Z0 : d_days d = 0) by lia. apply Z in Z0. destruct Z0 as [[M1 M2]|[M1 M2]]; auto. apply Same; auto.
    + intros H. assert (Z0 : d_days d = 0); [|lia]. apply Z. destruct (Z.eq_dec (month_no (s_date b)) (month_no (s_date a))) as [e|n]; auto.
      left. split; auto. symmetry. apply Same; auto.
  - destruct (diff_forward a b E Va Vb) as (M & _ & _ & T & Z & _). set (d := get_date_difference a b) in *. cbv zeta.
    split; [|split; [auto|lia]]. rewrite Z. split.
    + intros [[M1 M2]|[M1 M2]]; auto. apply Same; auto.
    + intros H. destruct (Z.eq_dec (month_no (s_date a)) (month_no (s_date b))) as [e|n]; auto. left. split; auto. apply Same; auto.
Qed.
Lemma div_tells : forall a b, Z.abs a < two53 -> 0 < b < two53 ->
  (is_integer (fdiv (of_Z a) (of_Z b)) = true <-> (b | a)) /\ forall k, a = k * b -> to_Z (fdiv (of_Z a) (of_Z b)) = k.
Proof.
  intros a b Ha Hb. assert (A : holds_int (of_Z a) a) by (apply of_Z_val; auto). assert (B : holds_int (of_Z b) b) by (apply of_Z_val; lia).
  destruct (fdiv_int _ _ _ _ A B Ha Hb) as [P Q]. split; auto. intros k K. apply Q. auto.
Qed.

Lemma scan_months : forall first ts (dayb : date_difference -> bool) (num : date_difference -> Z) (day_ok : stamp -> Prop) c step,
  let df t := get_date_difference t first in
  0 < c < two53 ->
  Forall (fun t => (dayb (df t) = true <-> day_ok t) /\ Z.abs (num (df t)) < two53 /\
                   forall k, month_steps first step t k <-> day_ok t /\ num (df t) = k * c) ts ->
  forall r,
  match first_bad dayb 0 (map df ts) with
  | Some i => Ok (None, Some i)
  | None => Ok (to_indices (map (fun d => fdiv (of_Z (num d)) (of_Z c)) (map df ts)))
  end = Ok r ->
  two_scans day_ok (fun t => (c | num (df t))) (month_steps first step) ts r.
Proof.
  intros first ts dayb num day_ok c step df C F r H. rewrite Forall_forall in F.
  destruct (first_bad dayb 0 (map df ts)) as [n|] eqn:E.
  - injection H as <-. apply first_bad_some in E. destruct E as (j & x & -> & N & O & B). cbn [two_scans plus].
    rewrite nth_error_map in N. destruct (nth_error ts j) as [t|] eqn:T; [|discriminate]. cbn in N. injection N as <-.
    destruct (F t (nth_error_In _ _ T)) as (D & _ & K).
    assert (ND : ~ day_ok t) by (intros X; apply D in X; congruence).
    exists t. split; auto. split; [intros k X; apply K in X; tauto|]. left. split; auto.
    intros j' u L U. apply (F u (nth_error_In _ _ U)). apply (B j'); auto. rewrite nth_error_map, U. reflexivity.
  - injection H as <-. rewrite first_bad_none in E. rewrite map_map.
    assert (Day : Forall day_ok ts).
    { rewrite Forall_forall in *. intros t T. apply (F t T). apply E. apply in_map. auto. }
    pose proof (to_indices_answer stamp (fun t k => num (df t) = k * c) (fun t => fdiv (of_Z (num (df t))) (of_Z c)) ts) as A.
    assert (A' : answer (fun t k => num (df t) = k * c) ts (to_indices (map (fun t => fdiv (of_Z (num (df t))) (of_Z c)) ts))).
    { apply A. apply Forall_forall. intros t T. destruct (F t T) as (_ & Bd & _). destruct (div_tells (num (df t)) c Bd C) as [P Q]. split; auto. }
    destruct (to_indices _) as [[l|] [i|]]; cbn [answer two_scans] in *; try tauto.
    + rewrite Forall_forall in Day. clear A E. revert Day F. induction A' as [|t k ts l X A IH]; intros Day F; constructor.
      * apply (F t); [left; auto|]. split; auto. apply Day. left; auto.
      * apply IH; intros u U; [apply Day|apply F]; right; auto.
    + destruct A' as (t & T & N & B). exists t. split; auto. split.
      * intros k X. apply (F t (nth_error_In _ _ T)) in X. apply (N k). tauto.
      * right. split; auto. split; [intros (k & X); apply (N k); auto|]. intros j u L U. destruct (B j u L U) as [k X]. exists k. auto.
Qed.

(** ** Milliseconds *)
Lemma rnd_ge_int : forall m x, Z.abs m < two53 -> (IZR m <= x)%R -> (IZR m <= rnd x)%R.
Proof.
  intros m x B H. rewrite <- (rnd_int m B). apply round_le; [apply (FLT_exp_valid (-1074) 53)|apply valid_rnd_N|auto].
Qed.
Lemma milliseconds : forall s, milli_range (epoch_us s) -> to_Z (fmul (timestamp s) (of_Z 1000)) = epoch_us s / 1000.
Proof.
  intros s [L U]. set (u := epoch_us s) in *. set (m := u / 1000).
  assert (Rc : recent u) by (unfold recent; lia).
  destruct (recent_timestamp s Rc) as [V F]. fold u in V.
  assert (O : holds_int (of_Z 1000) 1000) by (apply of_Z_val; lia). destruct O as [VO FO].
  pose proof (ticks_near u) as N. pose proof (ticks_bound u Rc) as TB. apply Rabs_le_inv in N.
  set (n := ticks u) in *. set (y := (IZR n * bpow radix2 (-22) * 1000)%R).
  change (bpow radix2 22) with (IZR 4194304) in N.
  assert (Y : (Rabs (y - IZR u / 1000) <= 1000 / 8388608)%R).
  { unfold y. change (bpow radix2 (-22)) with (/ IZR 4194304)%R. apply Rabs_le. lra. }
  assert (Mu : 1000 * m <= u <= 1000 * m + 999) by (unfold m; pose proof (Z.mod_pos_bound u 1000); pose proof (Z.div_mod u 1000); lia).
  assert (Bm : 1099511627777 <= m < 2147483648000) by lia.
  destruct Mu as [Mu1 Mu2]. apply IZR_le in Mu1, Mu2. rewrite mult_IZR in Mu1. rewrite plus_IZR, mult_IZR in Mu2.
  destruct Bm as [Bm1 Bm2]. pose proof (IZR_le _ _ Bm1) as Rm1. pose proof (IZR_lt _ _ Bm2) as Rm2.
  apply Rabs_le_inv in Y.
  assert (Yb : (bpow radix2 (-12 + 52) <= y < bpow radix2 (-12 + 53))%R).
  { change (bpow radix2 (-12 + 52)) with (IZR 1099511627776). change (bpow radix2 (-12 + 53)) with (IZR 2199023255552). lra. }
  pose proof (rnd_error_binade (-12) y ltac:(lia) Yb) as Er. change (bpow radix2 (-12 - 1)) with (/ IZR 8192)%R in Er. apply Rabs_le_inv in Er.
  assert (Ry : (Rabs y <= IZR two53)%R) by (apply Rabs_le; lra).
  assert (VM : val (fmul (timestamp s) (of_Z 1000)) = rnd y).
  { pose proof (Bmult_correct 53 1024 _ _ mode_NE (timestamp s) (of_Z 1000)) as C. change (round_mode mode_NE) with ZnearestE in C.
    rewrite V, VO in C. fold y in C. rewrite rnd_no_overflow in C by auto. unfold fmul. apply C. }
  apply eq_IZR. rewrite to_Z_val, VM.
  assert (T : Ztrunc (rnd y) = m).
  2: { rewrite T. reflexivity. }
  assert (Lo : (IZR m <= rnd y)%R).
  { destruct (Z.eq_dec u (1000 * m)) as [e|ne].
    - (* a whole millisecond: the nearest multiple of 2^-12 *)
      rewrite (rnd_binade (-12) y) by (auto; lia). change (bpow radix2 (- -12)) with (IZR 4096). change (bpow radix2 (-12)) with (/ IZR 4096)%R.
      assert (Z1 : ZnearestE (y * IZR 4096) = m * 4096).
      { apply Znearest_imp. apply (f_equal IZR) in e. rewrite mult_IZR in e. rewrite mult_IZR. apply Rabs_lt. lra. }
      rewrite Z1, mult_IZR. lra.
    - apply rnd_ge_int; [lia|]. assert (Hu : 1000 * m + 1 <= u) by (apply le_IZR in Mu1 || (rewrite <- mult_IZR in Mu1; apply le_IZR in Mu1); lia).
      apply IZR_le in Hu. rewrite plus_IZR, mult_IZR in Hu. lra. }
  rewrite Ztrunc_floor by lra. apply Zfloor_imp. rewrite plus_IZR. lra.
Qed.
Lemma interval_exact : forall c, 1 <= c <= 4006 -> get_microsecond_by_granularity c = c.
Proof.
  intros c H.
  assert (A : forallb (fun n => get_microsecond_by_granularity (Z.of_nat n) =? Z.of_nat n) (seq 1 (Z.to_nat 4006)) = true)
    by (vm_compute; reflexivity).
  rewrite forallb_forall in A. specialize (A (Z.to_nat c)). rewrite Z2Nat.id in A by lia. apply Z.eqb_eq. apply A.
  apply in_seq. lia.
Qed.
Lemma micro_indices : forall custom first rest,
  let c := Z.max (match custom with None => 1 | Some c => c end) 1 in
  c <= 4006 -> Forall (fun t => milli_range (epoch_us t)) (first :: rest) ->
  exists r, get_indices_from_timestamps Microsecond custom (first :: rest) = Ok r /\
            answer (fun t k => epoch_us t / 1000 = epoch_us first / 1000 + k * c) (first :: rest) r.
Proof.
  intros custom first rest c C F. unfold get_indices_from_timestamps. fold c. assert (C1 : 1 <= c) by (unfold c; lia).
  rewrite interval_exact by lia. destruct (c =? 0) eqn:E; [apply Z.eqb_eq in E; lia|].
  eexists. split; [reflexivity|]. pose proof (Forall_inv F) as F0. cbn beta in F0.
  apply to_indices_answer. eapply Forall_impl; [|exact F]. intros t T. cbn beta in T.
  rewrite (milliseconds t T), (milliseconds first F0). unfold milli_range in *.
  assert (B : Z.abs (epoch_us t / 1000 - epoch_us first / 1000) < two53).
  { pose proof (Z.div_mod (epoch_us t) 1000). pose proof (Z.mod_pos_bound (epoch_us t) 1000).
    pose proof (Z.div_mod (epoch_us first) 1000). pose proof (Z.mod_pos_bound (epoch_us first) 1000). lia. }
  destruct (div_tells _ c B ltac:(lia)) as [P Q]. split.
  - rewrite P. split; intros (k & K); exists k; lia.
  - intros k K. apply Q. lia.
Qed.

(** ** Helpers for the month theorem *)
Lemma year_bound : forall a b, valid (s_date a) -> valid (s_date b) -> 1 <= yr (s_date a) <= 9999 -> 1 <= yr (s_date b) <= 9999 ->
  -20000 <= d_years (get_date_difference a b) <= 20000 /\ -20 <= d_months (get_date_difference a b) <= 20.
Proof.
  intros a b Va Vb Ya Yb. apply valid_iff in Va, Vb. unfold get_date_difference. destruct (stamp_ltb a b); cbv beta iota zeta;
  repeat (match goal with |- context [if ?c then _ else _] =>
    lazymatch c with ?x <? 0 => destruct (Z.ltb_spec x 0) | _ => destruct c end end; cbv beta iota zeta);
  cbn [d_years d_months]; lia.
Qed.
Lemma two_scans_ext : forall (d d' o o' : stamp -> Prop) idx ts r,
  (forall t, In t ts -> (d t <-> d' t)) -> (forall t, In t ts -> d' t -> (o t <-> o' t)) ->
  two_scans d o idx ts r -> two_scans d' o' idx ts r.
Proof.
  intros d d' o o' idx ts [[l|] [i|]] D O H; cbn [two_scans] in *; auto.
  destruct H as (t & T & N & H). exists t. split; auto. split; auto. destruct H as [[H1 H2]|(H1 & H2 & H3)].
  - left. split; [rewrite <- D; auto; eapply nth_error_In; eauto|]. intros j u J U. apply D; [eapply nth_error_In; eauto|]. eauto.
  - right. rewrite Forall_forall in *. assert (D' : forall u, In u ts -> d' u) by (intros u U; apply D; auto).
    assert (I : In t ts) by (eapply nth_error_In; eauto). split; auto. split.
    + intros X. apply H2. apply O; auto.
    + intros j u J U. assert (In u ts) by (eapply nth_error_In; eauto). apply O; eauto.
Qed.
