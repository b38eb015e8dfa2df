(** The V1 band in doubles. *)
From Coq Require Import List ZArith Lia Bool Reals Lra Arith.
From Flocq Require Import Core BinarySingleNaN Relative Sterbenz Mult_error.
From Verif Require Import Base Dates_model Dates_float Fmargins_model Fmargins_float Fmargins_spec Fmargins_proofs Fmargins_proofs2.
Import ListNotations.
Open Scope R_scope.

(** ** Exact operations *)
Lemma small_exact : forall x y, fmt x -> fmt y -> Rabs (x - y) <= p2 (-1021) -> fmt (x - y).
Proof.
  intros x y Fx Fy H. rewrite fexp_FLT in *. apply generic_format_FLT_FIX; [exact prec53|exact H|].
  apply generic_format_FIX_FLT in Fx. apply generic_format_FIX_FLT in Fy.
  apply FIX_format_generic in Fx. apply FIX_format_generic in Fy.
  destruct Fx as [[m em] -> Em]. destruct Fy as [[n en] -> En]. cbn [Fexp] in *. subst em en.
  apply generic_format_FIX. exists (Float radix2 (m - n) (-1074)); auto.
  unfold F2R. cbn [Fnum Fexp]. rewrite minus_IZR. ring.
Qed.
Lemma double_fmt : forall x k, (0 <= k)%Z -> fmt x -> fmt (x * p2 k).
Proof. intros x k K F. rewrite fexp_FLT in *. apply mult_bpow_pos_exact_FLT; auto. Qed.
Lemma half_fmt : forall x, fmt x -> p2 (-1021) <= Rabs x -> fmt (x / 2).
Proof.
  intros x F H. replace (x / 2) with (x * p2 (-1)) by (rewrite p2_m1; lra). rewrite fexp_FLT in *.
  apply mult_bpow_exact_FLT; auto. assert ((-1021 + 1 <= mag radix2 x)%Z); [|lia].
  rewrite <- (mag_bpow radix2 (-1021)). apply mag_le_abs.
  - apply Rgt_not_eq, bpow_gt_0.
  - rewrite Rabs_pos_eq by apply bpow_ge_0. auto.
Qed.

(** A boundary not further from [e] than [|e|/2] has an exact distance to [e]. *)
Lemma between_exact : forall e m x, fmt e -> fmt x -> 0 <= m ->
  (p2 (-1021) <= Rabs e -> m <= Rabs e / 2) -> m <= Rabs e ->
  (e <= x <= rnd (e + m) \/ rnd (e - m) <= x <= e) -> fmt (x - e).
Proof.
  intros e m x Fe Fx Pm Hm Hm1 Hx.
  assert (F2 : fmt (2 * e)). { replace (2 * e) with (e * p2 1) by (cbn; lra). apply double_fmt; auto. lia. }
  assert (W : Rabs (x - e) <= Rabs e).
  { destruct (Rle_lt_dec 0 e) as [P|P].
    - rewrite (Rabs_pos_eq e) in * by auto. apply Rabs_le. destruct Hx as [[A B]|[A B]].
      + assert (rnd (e + m) <= 2 * e) by (apply rnd_le_float; auto; lra). lra.
      + assert (0 <= rnd (e - m)) by (apply rnd_nonneg; lra). lra.
    - rewrite (Rabs_left e) in * by auto. apply Rabs_le. destruct Hx as [[A B]|[A B]].
      + assert (rnd (e + m) <= 0) by (apply rnd_nonpos; lra). lra.
      + assert (2 * e <= rnd (e - m)) by (apply rnd_ge_float; auto; lra). lra. }
  destruct (Rle_lt_dec (p2 (-1021)) (Rabs e)) as [Big|Small].
  2: { apply small_exact; auto. lra. }
  specialize (Hm Big). pose proof (half_fmt e Fe Big) as Fh.
  destruct (Rle_lt_dec 0 e) as [P|P].
  - rewrite (Rabs_pos_eq e) in * by auto. apply sterbenz; auto; try apply vexpF; try apply mexpF. destruct Hx as [[A B]|[A B]].
    + assert (rnd (e + m) <= 2 * e) by (apply rnd_le_float; auto; lra). lra.
    + assert (e / 2 <= rnd (e - m)) by (apply rnd_ge_float; auto; lra). lra.
  - rewrite (Rabs_left e) in * by auto. replace (x - e) with (- (- x - - e)) by ring.
    apply generic_format_opp. apply sterbenz; try apply vexpF; try apply mexpF; try (apply generic_format_opp; auto). destruct Hx as [[A B]|[A B]].
    + assert (rnd (e + m) <= e / 2) by (apply rnd_le_float; auto; lra). lra.
    + assert (2 * e <= rnd (e - m)) by (apply rnd_ge_float; auto; lra). lra.
Qed.

(** ** One row *)
Lemma c101_val : 1009 / 1000 <= val (fdiv (of_Z 101) (of_Z 100)) /\ fits 7 (fdiv (of_Z 101) (of_Z 100)).
Proof.
  destruct (quot_ok 101 100 7) as [V F]; try (cbn; lia). split; auto. rewrite V.
  assert (p2 (-1022) <= 1) by (change 1 with (p2 0); apply bpow_le; lia). pose proof (rnd_lower (101 / 100) ltac:(lra)) as L. lra.
Qed.
Lemma reach_101 : forall v e : f64, val e < val v ->
  val v - val e <= rnd (rnd (val v - val e) * val (fdiv (of_Z 101) (of_Z 100))).
Proof.
  intros v e H. destruct c101_val as [C _]. set (c := val (fdiv (of_Z 101) (of_Z 100))) in *. set (d := val v - val e) in *.
  assert (Pd : 0 < d) by (unfold d; lra).
  destruct (Rle_lt_dec d (p2 (-1021))) as [S|B].
  - assert (Fd : fmt d). { apply small_exact; try apply val_fmt. fold d. rewrite Rabs_pos_eq; lra. }
    rewrite (rnd_id d) by auto. apply rnd_ge_float; auto. assert (0 <= d * (c - 1)) by (apply Rmult_le_pos; lra). lra.
  - pose proof (rnd_sub_err v e) as E. fold d in E. rewrite (Rabs_pos_eq d) in E by lra. apply Rabs_le_inv in E.
    assert (L : d * (1 - u) <= rnd d) by lra.
    assert (L2 : d * (1 - u) * (1009 / 1000) <= rnd d * c). { apply Rmult_le_compat; try lra. }
    assert (T : p2 (-1022) <= rnd d * c).
    { assert (p2 (-1022) <= p2 (-1021)) by (apply bpow_le; lia). lra. }
    pose proof (rnd_lower _ T). lra.
Qed.

Lemma rb_fits : forall x, fits 531 x -> fin x = true. Proof. intros x H. apply H. Qed.

Section Row.
Variables (s : Z) (ub lb : f64) (r : row).
Notation v := (r_value r).
Notation e := (r_expected r).
Hypothesis Hv : moderate v.
Hypothesis He : moderate e.
Hypothesis Fu : fits 531 ub.
Hypothesis Fl : fits 531 lb.
Hypothesis Hub : val e <= val ub.
Hypothesis Hlb : val lb <= val e.
Notation o := (refine_row s ub lb r).

Let Fe : fits 531 e. Proof. apply fits_mono with 500%Z; [lia|exact He]. Qed.
Let Fv : fits 531 v. Proof. apply fits_mono with 500%Z; [lia|exact Hv]. Qed.

Lemma up_ok : val (fsub ub e) = rnd (val ub - val e) /\ fits 541 (fsub ub e) /\ 0 <= val (fsub ub e).
Proof.
  destruct (fsub_ok 531 ub e) as [V F]; auto; try lia. rewrite V at 2. split; [auto|]. split; [eapply fits_mono; [|exact F]; lia|apply rnd_nonneg; lra].
Qed.
Lemma lo_ok : val (fsub e lb) = rnd (val e - val lb) /\ fits 541 (fsub e lb) /\ 0 <= val (fsub e lb).
Proof.
  destruct (fsub_ok 531 e lb) as [V F]; auto; try lia. rewrite V at 2. split; [auto|]. split; [eapply fits_mono; [|exact F]; lia|apply rnd_nonneg; lra].
Qed.
Lemma wide_ok : forall x y, fits 531 x -> fits 531 y -> val y <= val x ->
  val (fmul (fsub x y) (fdiv (of_Z 101) (of_Z 100))) = rnd (rnd (val x - val y) * val (fdiv (of_Z 101) (of_Z 100))) /\
  fits 541 (fmul (fsub x y) (fdiv (of_Z 101) (of_Z 100))) /\ 0 <= val (fmul (fsub x y) (fdiv (of_Z 101) (of_Z 100))).
Proof.
  intros x y Fx Fy L. destruct (fsub_ok 531 x y) as [V F]; auto; try lia. destruct c101_val as [C FC].
  destruct (fmul_ok 532 7 (fsub x y) (fdiv (of_Z 101) (of_Z 100))) as [V' F']; auto; try lia.
  rewrite V' at 2. rewrite V', V at 1. split; [reflexivity|]. split; [eapply fits_mono; [|exact F']; lia|].
  apply rnd_nonneg. apply Rmult_le_pos; [|lra]. rewrite V. apply rnd_nonneg. lra.
Qed.

Lemma row_margins : (fits 541 (o_upper o) /\ 0 <= val (o_upper o)) /\ (fits 541 (o_lower o) /\ 0 <= val (o_lower o)).
Proof.
  destruct up_ok as (_ & U1 & U2). destruct lo_ok as (_ & L1 & L2). destruct zero_val as [Z1 Z2].
  assert (Z3 : fits 541 zero) by (eapply fits_mono; [|exact Z2]; lia). assert (Z4 : 0 <= val zero) by lra.
  unfold refine_row. cbv zeta. cbn [o_upper o_lower].
  destruct (fltb ub v) eqn:A; destruct (fltb v lb) eqn:C.
  - apply fltb_ok in A; [|apply Fu|apply Hv]. apply fltb_ok in C; [|apply Hv|apply Fl]. lra.
  - apply fltb_ok in A; [|apply Fu|apply Hv]. destruct (wide_ok v e) as (_ & W1 & W2); auto; [lra|].
    destruct (r_anomaly r); cbn [negb andb]; destruct (s =? 100)%Z, (fleb v ub && fleb lb v); cbn [andb]; auto.
  - apply fltb_ok in C; [|apply Hv|apply Fl]. destruct (wide_ok e v) as (_ & W1 & W2); auto; [lra|].
    destruct (r_anomaly r); cbn [negb andb]; destruct (s =? 100)%Z, (fleb v ub && fleb lb v); cbn [andb]; auto.
  - destruct (r_anomaly r); cbn [negb andb]; destruct (s =? 100)%Z, (fleb v ub && fleb lb v); cbn [andb]; auto.
Qed.

Lemma row_anomaly : s <> 100%Z ->
  o_anomaly o = true <-> r_anomaly r = true /\ (val ub < val v \/ val v < val lb).
Proof.
  intros Hs. unfold refine_row. cbv zeta. cbn [o_anomaly]. assert (E : (s =? 100)%Z = false) by (apply Z.eqb_neq; auto).
  rewrite E. cbn [negb andb]. destruct (r_anomaly r); cbn [andb]; [|split; [discriminate|intros [? _]; discriminate]].
  destruct (fleb v ub) eqn:A; cbn [andb].
  - apply fleb_ok in A; [|apply Hv|apply Fu]. destruct (fleb lb v) eqn:C.
    + apply fleb_ok in C; [|apply Fl|apply Hv]. split; [discriminate|]. intros [_ [?|?]]; lra.
    + apply fleb_no in C; [|apply Fl|apply Hv]. tauto.
  - apply fleb_no in A; [|apply Hv|apply Fu]. tauto.
Qed.

(** Exact distances: the band a caller recomputes is the band compared with. *)
Lemma row_band : s <> 100%Z -> fmt (val ub - val e) -> fmt (val lb - val e) ->
  o_anomaly o = true <-> outside_band r o.
Proof.
  intros Hs Xu Xl. rewrite row_anomaly by auto.
  destruct up_ok as (U0 & U1 & U2). destruct lo_ok as (L0 & L1 & L2).
  rewrite rnd_id in U0 by auto. rewrite rnd_id in L0.
  2: { replace (val e - val lb) with (- (val lb - val e)) by ring. apply generic_format_opp. auto. }
  assert (Fe' : fits 541 e) by (eapply fits_mono; [|exact Fe]; lia).
  assert (SA : forall m, fits 541 m -> val (fadd e m) = rnd (val e + val m)) by (intros; apply (fadd_ok 541); auto; lia).
  assert (SS : forall m, fits 541 m -> val (fsub e m) = rnd (val e - val m)) by (intros; apply (fsub_ok 541); auto; lia).
  unfold outside_band, above_band, below_band, real.
  change (Bplus mode_NE e (o_upper o)) with (fadd e (o_upper o)). change (Bminus mode_NE e (o_lower o)) with (fsub e (o_lower o)).
  unfold refine_row. cbv zeta. cbn [o_upper o_lower]. assert (E : (s =? 100)%Z = false) by (apply Z.eqb_neq; auto).
  rewrite E. cbn [andb].
  assert (Plain : val (fadd e (fsub ub e)) = val ub /\ val (fsub e (fsub e lb)) = val lb).
  { rewrite SA, SS by auto. rewrite U0, L0. split.
    - replace (val e + (val ub - val e)) with (val ub) by ring. apply rnd_val.
    - replace (val e - (val e - val lb)) with (val lb) by ring. apply rnd_val. }
  destruct (fltb ub v) eqn:A; destruct (fltb v lb) eqn:C.
  - apply fltb_ok in A; [|apply Fu|apply Hv]. apply fltb_ok in C; [|apply Hv|apply Fl]. lra.
  - apply fltb_ok in A; [|apply Fu|apply Hv]. apply fltb_no in C; [|apply Hv|apply Fl].
    destruct (r_anomaly r); cbn [negb andb].
    + destruct Plain as [-> ->]. tauto.
    + destruct (wide_ok v e) as (W0 & W1 & W2); auto; [lra|]. split; [intros [? _]; discriminate|].
      rewrite SA, SS by auto. pose proof (reach_101 v e ltac:(lra)) as Q. rewrite <- W0 in Q. intros [X|X].
      * assert (val v <= rnd (val e + val (fmul (fsub v e) (fdiv (of_Z 101) (of_Z 100))))) by (apply rnd_ge_float; [apply val_fmt|lra]). lra.
      * assert (rnd (val e - val (fmul (fsub v e) (fdiv (of_Z 101) (of_Z 100)))) <= val e) by (apply rnd_le_float; [apply val_fmt|lra]). lra.
  - apply fltb_no in A; [|apply Fu|apply Hv]. apply fltb_ok in C; [|apply Hv|apply Fl].
    destruct (r_anomaly r); cbn [negb andb].
    + destruct Plain as [-> ->]. tauto.
    + destruct (wide_ok e v) as (W0 & W1 & W2); auto; [lra|]. split; [intros [? _]; discriminate|].
      rewrite SA, SS by auto. pose proof (reach_101 e v ltac:(lra)) as Q. rewrite <- W0 in Q. intros [X|X].
      * assert (val e <= rnd (val e + val (fmul (fsub e v) (fdiv (of_Z 101) (of_Z 100))))) by (apply rnd_ge_float; [apply val_fmt|lra]). lra.
      * assert (rnd (val e - val (fmul (fsub e v) (fdiv (of_Z 101) (of_Z 100)))) <= val v) by (apply rnd_le_float; [apply val_fmt|lra]). lra.
  - apply fltb_no in A; [|apply Fu|apply Hv]. apply fltb_no in C; [|apply Hv|apply Fl].
    destruct (r_anomaly r); cbn [negb andb]; destruct Plain as [-> ->].
    + tauto.
    + split; [intros [? _]; discriminate|]. intros [X|X]; lra.
Qed.
End Row.
