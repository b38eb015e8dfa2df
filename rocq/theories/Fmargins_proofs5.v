(** The V1 band in doubles: the whole frame. *)
From Coq Require Import List ZArith Lia Bool Reals Lra Arith.
From Flocq Require Import Core BinarySingleNaN Relative Sterbenz.
From Verif Require Import Base Dates_model Dates_float Fmargins_model Fmargins_float Fmargins_spec Fmargins_proofs Fmargins_proofs2
  Fmargins_proofs4.
Import ListNotations.
Open Scope R_scope.

Lemma fmax_list_in : forall l d, In (fmax_list d l) (d :: l).
Proof.
  induction l as [|a l IH]; intros d; [left; reflexivity|]. cbn [fmax_list fold_left].
  change (fold_left fmax l (fmax d a)) with (fmax_list (fmax d a) l).
  destruct (IH (fmax d a)) as [E|I]; [|right; right; auto]. rewrite <- E. unfold fmax. destruct (fltb d a); cbn; auto.
Qed.

Definition good_rows (rows : list row) : Prop := Forall (fun r => moderate (r_value r) /\ moderate (r_expected r)) rows.

Section Frame.
Variables (r0 : row) (tl : list row) (m : row -> f64).
Notation rows := (r0 :: tl).
Hypothesis Hrows : good_rows rows.
Hypothesis Hm : forall r, In r rows -> fits 530 (m r) /\ 0 <= val (m r).

Definition ub_of (r : row) : f64 := fadd (r_expected r) (m r).
Definition lb_of (r : row) : f64 := fsub (r_expected r) (m r).
Definition min_ub : f64 := fmin_list (ub_of r0) (map ub_of rows).
Definition max_lb : f64 := fmax_list (lb_of r0) (map lb_of rows).
Definition top : f64 := fmax (fmax_list (r_value r0) (map r_value rows)) (fmax_list (r_expected r0) (map r_expected rows)).
Definition bot : f64 := fmin (fmin_list (r_value r0) (map r_value rows)) (fmin_list (r_expected r0) (map r_expected rows)).
Definition UB (r : row) : f64 := np_clip min_ub top (ub_of r).
Definition LB (r : row) : f64 := np_clip bot max_lb (lb_of r).

Lemma refine_eq : forall s, refine_margins rows s m = Ok (map (fun r => refine_row s (UB r) (LB r) r) rows).
Proof. reflexivity. Qed.

Lemma good_in : forall r, In r rows -> fits 500 (r_value r) /\ fits 500 (r_expected r).
Proof. intros r I. pose proof Hrows as G. unfold good_rows in G. rewrite Forall_forall in G. apply G. auto. Qed.
Lemma b_ok : forall r, In r rows -> fits 531 (ub_of r) /\ fits 531 (lb_of r) /\
  val (ub_of r) = rnd (val (r_expected r) + val (m r)) /\ val (lb_of r) = rnd (val (r_expected r) - val (m r)).
Proof.
  intros r I. destruct (good_in r I) as [_ Fe]. destruct (Hm r I) as [Fm _].
  assert (F : fits 530 (r_expected r)) by (eapply fits_mono; [|exact Fe]; lia).
  destruct (fadd_ok 530 (r_expected r) (m r)) as [V1 F1]; auto; try lia. destruct (fsub_ok 530 (r_expected r) (m r)) as [V2 F2]; auto; lia.
Qed.
Lemma map_fits : forall k (f : row -> f64), (forall r, In r rows -> fits k (f r)) -> Forall (fits k) (map f rows).
Proof. intros k f H. apply Forall_forall. intros x I. apply in_map_iff in I as (r & <- & I). auto. Qed.

Lemma top_ok : fits 500 top /\ forall r, In r rows -> val (r_value r) <= val top /\ val (r_expected r) <= val top.
Proof.
  assert (I0 : In r0 rows) by (left; auto).
  destruct (fmax_list_ok 500 (map r_value rows) (r_value r0)) as (A & _ & B); [apply good_in; auto|apply map_fits; intros; apply good_in; auto|].
  destruct (fmax_list_ok 500 (map r_expected rows) (r_expected r0)) as (A' & _ & B'); [apply good_in; auto|apply map_fits; intros; apply good_in; auto|].
  destruct (fmax_ok 500 _ _ A A') as [V F]. split; auto. intros r I. unfold top. rewrite V.
  pose proof (B _ (in_map r_value _ _ I)). pose proof (B' _ (in_map r_expected _ _ I)).
  split; eapply Rle_trans; eauto; [apply Rmax_l|apply Rmax_r].
Qed.
Lemma bot_ok : fits 500 bot /\ forall r, In r rows -> val bot <= val (r_value r) /\ val bot <= val (r_expected r).
Proof.
  assert (I0 : In r0 rows) by (left; auto).
  destruct (fmin_list_ok 500 (map r_value rows) (r_value r0)) as (A & _ & B); [apply good_in; auto|apply map_fits; intros; apply good_in; auto|].
  destruct (fmin_list_ok 500 (map r_expected rows) (r_expected r0)) as (A' & _ & B'); [apply good_in; auto|apply map_fits; intros; apply good_in; auto|].
  destruct (fmin_ok 500 _ _ A A') as [V F]. split; auto. intros r I. unfold bot. rewrite V.
  pose proof (B _ (in_map r_value _ _ I)). pose proof (B' _ (in_map r_expected _ _ I)).
  split; eapply Rle_trans; eauto; [apply Rmin_l|apply Rmin_r].
Qed.

Lemma UB_ok : forall r, In r rows -> fits 531 (UB r) /\ val (UB r) = Rmin (val (ub_of r)) (val top) /\
  val (r_expected r) <= val (UB r) <= val (ub_of r).
Proof.
  intros r I. destruct (b_ok r I) as (Fu & _ & Vu & _). destruct top_ok as [Ft T]. destruct (T r I) as [_ Te].
  destruct (fmin_list_ok 531 (map ub_of rows) (ub_of r0)) as (A & _ & Bm); [apply b_ok; left; auto|apply map_fits; intros; apply b_ok; auto|].
  pose proof (Bm _ (in_map ub_of _ _ I)) as Bm'. fold min_ub in A, Bm'.
  destruct (fmax_ok 531 (ub_of r) min_ub) as [V1 F1]; auto.
  assert (Ft' : fits 531 top) by (eapply fits_mono; [|exact Ft]; lia).
  destruct (fmin_ok 531 _ top F1 Ft') as [V2 F2]. unfold UB, np_clip. rewrite V2, V1. rewrite Rmax_left by auto.
  split; auto. split; auto. split; [|apply Rmin_l]. apply Rmin_glb; auto. rewrite Vu. destruct (Hm r I).
  apply rnd_ge_float; [apply val_fmt|lra].
Qed.
Lemma LB_ok : forall r, In r rows -> fits 531 (LB r) /\ val (LB r) = Rmin (Rmax (val (lb_of r)) (val bot)) (val max_lb) /\
  val (lb_of r) <= val (LB r) <= val (r_expected r).
Proof.
  intros r I. destruct (b_ok r I) as (_ & Fl & _ & Vl). destruct bot_ok as [Ft T]. destruct (T r I) as [_ Te].
  destruct (fmax_list_ok 531 (map lb_of rows) (lb_of r0)) as (A & _ & Bm); [apply b_ok; left; auto|apply map_fits; intros; apply b_ok; auto|].
  pose proof (Bm _ (in_map lb_of _ _ I)) as Bm'. fold max_lb in A, Bm'.
  assert (Ft' : fits 531 bot) by (eapply fits_mono; [|exact Ft]; lia).
  destruct (fmax_ok 531 (lb_of r) bot) as [V1 F1]; auto.
  destruct (fmin_ok 531 _ max_lb F1 A) as [V2 F2]. unfold LB, np_clip. rewrite V2, V1.
  split; auto. split; auto. split.
  - apply Rmin_glb; auto. apply Rmax_l.
  - eapply Rle_trans; [apply Rmin_l|]. apply Rmax_lub; auto. rewrite Vl. destruct (Hm r I). apply rnd_le_float; [apply val_fmt|lra].
Qed.
End Frame.

(** Smaller margins: a tighter band. *)
Lemma tighter : forall r0 tl m n, good_rows (r0 :: tl) ->
  (forall r, In r (r0 :: tl) -> fits 530 (m r) /\ 0 <= val (m r)) ->
  (forall r, In r (r0 :: tl) -> fits 530 (n r) /\ 0 <= val (n r)) ->
  (forall r, In r (r0 :: tl) -> val (n r) <= val (m r)) ->
  forall r, In r (r0 :: tl) -> val (UB r0 tl n r) <= val (UB r0 tl m r) /\ val (LB r0 tl m r) <= val (LB r0 tl n r).
Proof.
  intros r0 tl m n G Hm Hn L r I.
  destruct (UB_ok r0 tl m G Hm r I) as (_ & -> & _). destruct (UB_ok r0 tl n G Hn r I) as (_ & -> & _).
  destruct (LB_ok r0 tl m G Hm r I) as (_ & -> & _). destruct (LB_ok r0 tl n G Hn r I) as (_ & -> & _).
  assert (W : forall q, In q (r0 :: tl) -> val (ub_of n q) <= val (ub_of m q) /\ val (lb_of m q) <= val (lb_of n q)).
  { intros q Q. destruct (b_ok r0 tl m G Hm q Q) as (_ & _ & -> & ->). destruct (b_ok r0 tl n G Hn q Q) as (_ & _ & -> & ->).
    pose proof (L q Q). split; apply rnd_le; lra. }
  destruct (W r I) as [W1 W2]. split.
  - apply Rmin_glb; [|apply Rmin_r]. eapply Rle_trans; [apply Rmin_l|auto].
  - apply Rmin_glb.
    + eapply Rle_trans; [apply Rmin_l|]. apply Rle_max_compat_r. auto.
    + eapply Rle_trans; [apply Rmin_r|].
      assert (I0 : In (max_lb r0 tl m) (map (lb_of m) (r0 :: tl))).
      { unfold max_lb. destruct (fmax_list_in (map (lb_of m) (r0 :: tl)) (lb_of m r0)) as [E|E]; auto. rewrite <- E. left. auto. }
      apply in_map_iff in I0 as (q & <- & Q). apply Rle_trans with (val (lb_of n q)); [apply W; auto|].
      unfold max_lb. apply (fmax_list_ok 531).
      * apply (b_ok r0 tl n G Hn). left. auto.
      * apply map_fits. intros x X. apply (b_ok r0 tl n G Hn). auto.
      * apply in_map. auto.
Qed.

(** ** The two kinds of margin *)
Definition ad_margin (s : Z) (r : row) : f64 := fdiv (fmul (fabs (r_expected r)) (of_Z (100 - s))) (of_Z 100).
Lemma ad_val : forall s r, (0 <= s <= 100)%Z -> moderate (r_expected r) ->
  val (ad_margin s r) = rnd (rnd (Rabs (val (r_expected r)) * IZR (100 - s)) / 100) /\ fits 530 (ad_margin s r).
Proof.
  intros s r H He. destruct (fabs_ok 500 (r_expected r) He) as [V F]. destruct (of_Z_ok (100 - s) 7) as [Vz Fz]; try lia.
  destruct (fmul_ok 500 7 (fabs (r_expected r)) (of_Z (100 - s))) as [V1 F1]; auto; try lia. destruct hundred_val as [VH FH].
  destruct (fdiv_ok 507 0 (fmul (fabs (r_expected r)) (of_Z (100 - s))) (of_Z 100)) as [V2 F2]; auto; try lia.
  { rewrite VH. change (p2 (- 0)) with 1. lra. }
  unfold ad_margin. rewrite V2, V1, V, Vz, VH. split; auto. eapply fits_mono; [|exact F2]. lia.
Qed.
Lemma ad_nonneg : forall s r, (0 <= s <= 100)%Z -> moderate (r_expected r) -> 0 <= val (ad_margin s r).
Proof.
  intros s r H He. destruct (ad_val s r H He) as [-> _]. apply rnd_nonneg.
  assert (0 <= rnd (Rabs (val (r_expected r)) * IZR (100 - s))); [|lra]. apply rnd_nonneg.
  apply Rmult_le_pos; [apply Rabs_pos|]. apply IZR_le. lia.
Qed.
Lemma ad_mono : forall s t r, (0 <= s <= t)%Z -> (t <= 100)%Z -> moderate (r_expected r) -> val (ad_margin t r) <= val (ad_margin s r).
Proof.
  intros s t r H K He. destruct (ad_val s r ltac:(lia) He) as [-> _]. destruct (ad_val t r ltac:(lia) He) as [-> _].
  apply rnd_le. apply Rmult_le_compat_r; [lra|]. apply rnd_le. apply Rmult_le_compat_l; [apply Rabs_pos|]. apply IZR_le. lia.
Qed.
(** More than 50: the margin is at most half of the expected value. *)
Lemma ad_half : forall s r, (50 < s <= 100)%Z -> moderate (r_expected r) ->
  (p2 (-1021) <= Rabs (val (r_expected r)) -> val (ad_margin s r) <= Rabs (val (r_expected r)) / 2) /\
  val (ad_margin s r) <= Rabs (val (r_expected r)).
Proof.
  intros s r H He. destruct (ad_val s r ltac:(lia) He) as [-> _]. set (x := Rabs (val (r_expected r))).
  assert (Fx : fmt x) by (apply generic_format_abs, val_fmt). assert (Px : 0 <= x) by apply Rabs_pos.
  assert (Hn : x * IZR (100 - s) <= x * 49) by (apply Rmult_le_compat_l; auto; apply IZR_le; lia).
  assert (Pn : 0 <= x * IZR (100 - s)) by (apply Rmult_le_pos; auto; apply IZR_le; lia).
  split.
  - intros Big. apply rnd_le_float.
    { replace x with (Rabs x) in Big by (apply Rabs_pos_eq; auto). apply half_fmt; auto. }
    assert (R : rnd (x * IZR (100 - s)) <= rnd (x * 49)) by (apply rnd_le; auto).
    assert (T : p2 (-1022) <= p2 (-1021)) by (apply bpow_le; lia).
    pose proof (rnd_err (x * 49)) as E. rewrite Rabs_pos_eq in E by lra. specialize (E ltac:(lra)). apply Rabs_le_inv in E. lra.
  - apply rnd_le_float; auto. assert (R : rnd (x * IZR (100 - s)) <= x * 64).
    { apply rnd_le_float; [|lra]. replace (x * 64) with (x * p2 6) by (cbn; lra). apply double_fmt; auto. lia. }
    lra.
Qed.

Lemma eps_val : p2 (-27) <= val EPS /\ fits 0 EPS.
Proof.
  destruct (quot_ok 1 100000000 0) as [V F]; try (cbn; lia). unfold EPS. split; auto. rewrite V.
  apply rnd_ge_float; [apply p2_fmt; lia|]. cbn. lra.
Qed.
Lemma bar_val : forall s, (0 <= s <= 100)%Z -> val (bar s) = rnd (1 - rnd (IZR s / 100)) /\ fits 0 (bar s) /\ 0 <= val (bar s).
Proof.
  intros s H. destruct (quot_ok s 100 7) as [V F]; try lia. destruct one_val as [V1 F1].
  destruct (fsub_ok 7 one (fdiv (of_Z s) (of_Z 100))) as [V2 F2]; auto; try lia. { eapply fits_mono; [|exact F1]. lia. }
  assert (F0 : fmt 1) by (apply (p2_fmt 0); lia). assert (B0 : 0 <= IZR s <= 100) by (split; apply IZR_le; lia).
  assert (L0 : 0 <= rnd (IZR s / 100)) by (apply rnd_nonneg; lra).
  assert (L1 : rnd (IZR s / 100) <= 1) by (apply rnd_le_float; auto; lra).
  assert (L2 : 0 <= val (bar s)) by (unfold bar; rewrite V2, V, V1; apply rnd_nonneg; lra).
  assert (L3 : val (bar s) <= 1) by (unfold bar; rewrite V2, V, V1; apply rnd_le_float; auto; lra).
  split; [unfold bar; rewrite V2, V, V1; auto|]. split; auto. split; [apply F2|]. rewrite Rabs_pos_eq by auto. exact L3.
Qed.
Lemma bar_mono : forall s t, (0 <= s <= t)%Z -> (t <= 100)%Z -> val (bar t) <= val (bar s).
Proof.
  intros s t H K. destruct (bar_val s ltac:(lia)) as [-> _]. destruct (bar_val t ltac:(lia)) as [-> _]. apply rnd_le.
  assert (rnd (IZR s / 100) <= rnd (IZR t / 100)); [|lra]. apply rnd_le. assert (IZR s <= IZR t) by (apply IZR_le; lia). lra.
Qed.

Definition sr_margin (rows : list row) (s : Z) (r : row) : f64 :=
  if fleb (r_score r) EPS then normal_margin rows
  else fmul (fdiv (fabs (fsub (r_value r) (r_expected r))) (r_score r)) (bar s).
Lemma normal_ok : forall rows, good_rows rows -> fits 530 (normal_margin rows) /\ 0 <= val (normal_margin rows).
Proof.
  intros rows G. unfold normal_margin. destruct (map r_value (filter (fun r => fleb (r_score r) EPS) rows)) as [|x l] eqn:E.
  - destruct zero_val as [V F]. split; [eapply fits_mono; [|exact F]; lia|lra].
  - assert (Q : Forall (fits 500) (x :: l)).
    { rewrite <- E. apply Forall_forall. intros y Y. apply in_map_iff in Y as (r & <- & R). apply filter_In in R as [R _].
      unfold good_rows in G. rewrite Forall_forall in G. apply (G r R). }
    inversion Q; subst. destruct (fmax_list_ok 500 l x) as (A & A1 & _); auto. destruct (fmin_list_ok 500 l x) as (B & B1 & _); auto.
    destruct (fsub_ok 500 (fmax_list x l) (fmin_list x l)) as [V F]; auto; try lia.
    destruct (quot_ok 1 100 0) as [Vc Fc]; try (cbn; lia).
    destruct (fmul_ok 501 0 (fsub (fmax_list x l) (fmin_list x l)) (fdiv (of_Z 1) (of_Z 100))) as [V2 F2]; auto; try lia.
    split; [eapply fits_mono; [|exact F2]; lia|]. rewrite V2, V, Vc. apply rnd_nonneg. apply Rmult_le_pos; apply rnd_nonneg; lra.
Qed.
Lemma sr_ok : forall rows s t r, (0 <= s <= t)%Z -> (t <= 100)%Z -> good_rows rows -> moderate (r_value r) -> moderate (r_expected r) ->
  fin (r_score r) = true -> fits 530 (sr_margin rows s r) /\ 0 <= val (sr_margin rows s r) /\ val (sr_margin rows t r) <= val (sr_margin rows s r).
Proof.
  intros rows s t r H K G Hv He Hs. destruct (normal_ok rows G) as [N1 N2]. unfold sr_margin.
  destruct (fleb (r_score r) EPS) eqn:C; [repeat split; auto; try apply N1; lra|].
  destruct eps_val as [E1 E2]. apply fleb_no in C; [|auto|apply E2].
  destruct (dev_ok (r_value r) (r_expected r) Hv He) as (V & F & _ & _).
  destruct (fdiv_ok 501 27 (fabs (fsub (r_value r) (r_expected r))) (r_score r)) as [V1 F1]; auto; try lia.
  { change (p2 (- (27))) with (p2 (-27)). lra. }
  destruct (bar_val s ltac:(lia)) as (_ & Fb & Pb). destruct (bar_val t ltac:(lia)) as (_ & Fb' & Pb'). pose proof (bar_mono s t H K) as M.
  set (q := fdiv (fabs (fsub (r_value r) (r_expected r))) (r_score r)) in *.
  assert (Pq : 0 <= val q). { rewrite V1, V. apply rnd_nonneg. pose proof (bpow_gt_0 radix2 (-27)). apply Rmult_le_pos; [apply D_nonneg|]. left. apply Rinv_0_lt_compat. lra. }
  destruct (fmul_ok 528 0 q (bar s)) as [V2 F2]; auto; try lia. destruct (fmul_ok 528 0 q (bar t)) as [V3 F3]; auto; try lia.
  split; [eapply fits_mono; [|exact F2]; lia|]. rewrite V2, V3. split.
  - apply rnd_nonneg. apply Rmult_le_pos; auto.
  - apply rnd_le. apply Rmult_le_compat_l; auto.
Qed.
