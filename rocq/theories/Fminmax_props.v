(** C120: what the network is given, in floating point. *)
From Coq Require Import List Arith ZArith Lia Bool.
From Verif Require Import Base Num Single_model Single_proofs Single_proofs2 Single_proofs3 Mv_model Mv_spec Mv_proofs Fnorm_proofs Fminmax_model Fminmax_spec Fminmax_proofs.
Import ListNotations.
Open Scope nat_scope.

Lemma pre_mono : forall mn mx x y, (mn <= mx)%Qc -> (x <= y)%Qc -> (pre x mn mx <= pre y mn mx)%Qc.
Proof.
  intros mn mx x y L H. unfold pre. apply (r_mono double double_rounding).
  pose proof (r_mono double double_rounding (x - mn)%Qc (y - mn)%Qc ltac:(qlra)) as M.
  pose proof (Qclt_le_trans _ _ _ deps8_pos (divisor_pos mn mx L)) as P.
  apply Qcdiv_le_iff; auto. rewrite Qcmult_comm, Qcmul_div; auto. intro X. rewrite X in P. discriminate.
Qed.
Lemma pre_mn : forall mn mx, pre mn mn mx = 0%Qc.
Proof.
  intros mn mx. unfold pre. replace (mn - mn)%Qc with 0%Qc by ring. rewrite (r_zero double double_rounding).
  match goal with |- double (0 / ?d)%Qc = _ => replace (0 / d)%Qc with 0%Qc by (unfold Qcdiv; ring) end. apply (r_zero double double_rounding).
Qed.
Lemma pre_mx : forall mn mx, (mn <= mx)%Qc -> (pre mx mn mx <= 1)%Qc.
Proof.
  intros mn mx L. unfold pre. pose proof (Qclt_le_trans _ _ _ deps8_pos (divisor_pos mn mx L)) as P.
  assert (D1 : double 1%Qc = 1%Qc) by (apply Qceqb_eq; vm_compute; reflexivity). rewrite <- D1. apply (r_mono double double_rounding).
  apply Qcdiv_le_iff; auto. rewrite Qcmult_1_l. rewrite <- (double_is (mx - mn)%Qc) at 1. apply (r_mono double double_rounding).
  pose proof deps8_pos. set (z := double (mx - mn)%Qc) in *. clearbody z. set (w := deps8) in *. clearbody w. qlra.
Qed.
Lemma abs_iff : forall x e, (Qcabs x <= e <-> - e <= x /\ x <= e)%Qc.
Proof. intros x e. unfold Qcabs. destruct (0 <=? x)%Qc eqn:E; qb_hyps; (split; [intros H; split; qlra|intros [H1 H2]; qlra]). Qed.
Lemma clip_cases : forall lo hi x, (lo <= hi)%Qc -> (x < lo /\ clip lo hi x = lo)%Qc \/ (hi < x /\ clip lo hi x = hi)%Qc \/ (lo <= x /\ x <= hi /\ clip lo hi x = x)%Qc.
Proof.
  intros lo hi x L. destruct (clip_cut lo hi x L) as (A & B & C).
  destruct (Qclt_le_dec x lo) as [H|H]; [left; auto|]. destruct (Qclt_le_dec hi x) as [H'|H']; [right; left; auto|]. right; right. auto.
Qed.
Lemma clip_near : forall lo hi x y e, (lo <= hi -> Qcabs (x - y) <= e -> Qcabs (clip lo hi x - clip lo hi y) <= e)%Qc.
Proof.
  intros lo hi x y e L H. apply abs_iff in H. destruct H as [H H0]. apply abs_iff.
  destruct (clip_cases lo hi x L) as [[A ->]|[[A ->]|(A & B & ->)]], (clip_cases lo hi y L) as [[A' ->]|[[A' ->]|(A' & B' & ->)]]; split; qlra.
Qed.

(** C120. A value of the input is a float within the limits; the order of values
    is kept; the least value seen in training is exactly 0, and values of the
    training range are in [0, 1]. *)
Theorem C120_range : forall mn mx lo hi, (mn <= mx)%Qc -> (lo <= hi)%Qc -> single lo = lo -> single hi = hi ->
  (0 < double (double (mx - mn) + double (Q2Qc (1 # 100000000))))%Qc /\
  (forall x, single (finput x mn mx lo hi) = finput x mn mx lo hi /\ (lo <= finput x mn mx lo hi)%Qc /\ (finput x mn mx lo hi <= hi)%Qc) /\
  (forall x y, (x <= y -> finput x mn mx lo hi <= finput y mn mx lo hi)%Qc) /\
  ((lo <= 0)%Qc -> (1 <= hi)%Qc -> finput mn mn mx lo hi = 0%Qc /\
     forall x, (mn <= x -> x <= mx -> 0 <= finput x mn mx lo hi /\ finput x mn mx lo hi <= 1)%Qc).
Proof.
  intros mn mx lo hi L LH SL SH. pose proof single_rounding as SR.
  split; [exact (Qclt_le_trans _ _ _ deps8_pos (divisor_pos mn mx L))|].
  assert (MONO : forall x y, (x <= y -> finput x mn mx lo hi <= finput y mn mx lo hi)%Qc).
  { intros x y H. unfold finput, dminmax1. apply (r_mono single SR), clip_mono. apply (pre_mono mn mx x y L H). }
  split; [|split; [exact MONO|]].
  - intros x. split; [apply (r_idem single SR)|]. unfold finput, dminmax1. destruct (clip_bounds lo hi (pre x mn mx) LH) as [A B].
    split; [rewrite <- SL at 1|rewrite <- SH at 2]; apply (r_mono single SR); auto.
  - intros L0 L1. assert (Z : finput mn mn mx lo hi = 0%Qc).
    { unfold finput, dminmax1. fold (pre mn mn mx). rewrite pre_mn. destruct (clip_cut lo hi 0%Qc LH) as (_ & _ & ->); [apply (r_zero single SR)|auto|qlra]. }
    split; auto. intros x H1 H2. split; [rewrite <- Z; apply MONO; auto|].
    apply Qcle_trans with (finput mx mn mx lo hi); [apply MONO; auto|]. unfold finput, dminmax1. fold (pre mx mn mx).
    assert (S1 : single 1%Qc = 1%Qc) by (apply Qceqb_eq; vm_compute; reflexivity). rewrite <- S1. apply (r_mono single SR).
    apply Qcle_trans with (clip lo hi 1%Qc); [apply clip_mono, pre_mx; auto|]. destruct (clip_cut lo hi 1%Qc LH) as (_ & _ & ->); auto; qlra.
Qed.
Print Assumptions C120_range.

(** C120. It is within [k] float steps of the value exact arithmetic gives, if
    the limits are at most [k] in magnitude (0 and 1 in training, -1000 and 1000
    in inference), and a value clearly beyond a limit is at the limit. *)
Theorem C120_close : forall mn mx lo hi k x y, double x = x -> double mn = mn -> double mx = mx ->
  (mn <= mx -> lo <= hi -> - k <= lo -> hi <= k -> 1 <= k -> k <= Q2Qc 1000 -> cut_to lo hi (position mn mx x) y ->
  Qcabs (finput x mn mx lo hi - y) <= k * float_step)%Qc.
Proof.
  intros mn mx lo hi k x y DX DN DM L LH KL KH K1 K2 CUT. pose proof single_rounding as SR.
  assert (Y : y = clip lo hi (position mn mx x)).
  { destruct (clip_cut lo hi (position mn mx x) LH) as (A & B & C). destruct CUT as (A' & B' & C').
    destruct (Qclt_le_dec (position mn mx x) lo) as [H|H]; [rewrite A, A'; auto|]. destruct (Qclt_le_dec hi (position mn mx x)) as [H'|H']; [rewrite B, B'; auto|]. rewrite C, C'; auto. }
  subst y. clear CUT. pose proof (pre_close x mn mx DX DN DM L) as PC. unfold finput, dminmax1. fold (pre x mn mx).
  set (t := position mn mx x) in *. set (p := pre x mn mx) in *. clearbody t p.
  pose proof (r_close single SR (clip lo hi p)) as SC. destruct (clip_bounds lo hi p LH) as [B1 B2].
  set (c := single (clip lo hi p)) in *. clearbody c.
  assert (NEAR : (Qcabs (clip lo hi p - clip lo hi t) <= Q2Qc 6 * w53 * (Q2Qc 2 * k) + t100)%Qc).
  { destruct (Qclt_le_dec (Q2Qc 2 * k)%Qc (Qcabs t)) as [FAR|N].
    - assert (E : clip lo hi p = clip lo hi t).
      { unfold w53, t100 in PC. apply abs_iff in PC. destruct PC as [PC PC2]. unfold Qcabs in PC, PC2, FAR. destruct (0 <=? t)%Qc eqn:T; qb_hyps;
          destruct (clip_cases lo hi p LH) as [[A ->]|[[A ->]|(A & B & ->)]], (clip_cases lo hi t LH) as [[A' ->]|[[A' ->]|(A' & B' & ->)]]; auto; exfalso; qlra. }
      rewrite E. replace (clip lo hi t - clip lo hi t)%Qc with 0%Qc by ring. apply abs_iff. unfold w53, t100. split; qlra.
    - apply clip_near; auto. eapply Qcle_trans; [exact PC|]. unfold w53, t100. revert N. generalize (Qcabs t). intros a N. qlra. }
  set (a := clip lo hi p) in *. set (b := clip lo hi t) in *. clearbody a b.
  assert (AK : (Qcabs a <= k)%Qc) by (apply abs_iff; split; qlra). apply abs_iff in NEAR. apply abs_iff in SC. destruct NEAR as [NR1 NR2], SC as [SC1 SC2]. apply abs_iff.
  unfold float_step, w53, t100, ulp, tiny in *. revert SC1 SC2 AK. generalize (Qcabs a). intros z SC1 SC2 AK. split; qlra.
Qed.
Print Assumptions C120_close.

(** C120. A value clearly beyond a limit is given as the limit exactly. So is one
    of a variable that was constant in training and is off by a little more than
    a hundred-thousandth. *)
Theorem C120_limit : forall mn mx lo hi x, double x = x -> double mn = mn -> double mx = mx -> single lo = lo -> single hi = hi ->
  (mn <= mx -> lo <= hi -> - Q2Qc 1000 <= lo -> hi <= Q2Qc 1000 ->
  (hi + 1 <= position mn mx x -> finput x mn mx lo hi = hi) /\ (position mn mx x <= lo - 1 -> finput x mn mx lo hi = lo))%Qc.
Proof.
  intros mn mx lo hi x DX DN DM SL SH L LH KL KH. pose proof (pre_close x mn mx DX DN DM L) as PC. unfold finput, dminmax1. fold (pre x mn mx).
  set (t := position mn mx x) in *. set (p := pre x mn mx) in *. clearbody t p. apply abs_iff in PC. destruct PC as [P1 P2]. unfold w53, t100, Qcabs in *.
  assert (Q : forall a b : Qc, single b = b -> a = b -> single a = b) by (intros a b H ->; auto).
  split; intros T; apply Q; auto; destruct (0 <=? t)%Qc eqn:E; qb_hyps;
    destruct (clip_cases lo hi p LH) as [[A ->]|[[A ->]|(A & B & ->)]]; auto; exfalso; qlra.
Qed.
Print Assumptions C120_limit.
Corollary C120_constant : forall c x, double x = x -> double c = c ->
  (finput c c c (- Q2Qc 1000) (Q2Qc 1000) = 0 /\
  (c + Q2Qc (1001 # 100000000) <= x -> finput x c c (- Q2Qc 1000) (Q2Qc 1000) = Q2Qc 1000) /\
  (x <= c - Q2Qc (1001 # 100000000) -> finput x c c (- Q2Qc 1000) (Q2Qc 1000) = - Q2Qc 1000))%Qc.
Proof.
  intros c x DX DC.
  assert (S1 : single (- Q2Qc 1000)%Qc = (- Q2Qc 1000)%Qc) by (apply Qceqb_eq; vm_compute; reflexivity).
  assert (S2 : single (Q2Qc 1000) = Q2Qc 1000) by (apply Qceqb_eq; vm_compute; reflexivity).
  split; [|split].
  - destruct (C120_range c c (- Q2Qc 1000)%Qc (Q2Qc 1000)) as (_ & _ & _ & K); auto; try qlra. apply K; qlra.
  - intros H. destruct (C120_limit c c (- Q2Qc 1000)%Qc (Q2Qc 1000) x) as [K _]; auto; try qlra. apply K. unfold position.
    apply Qcle_div_iff; qlra.
  - intros H. destruct (C120_limit c c (- Q2Qc 1000)%Qc (Q2Qc 1000) x) as [_ K]; auto; try qlra. apply K. unfold position.
    apply Qcdiv_le_iff; qlra.
Qed.
Print Assumptions C120_constant.

(** C120. Whole rows. *)
Theorem C120_row : forall lo hi k row mn mx exact,
  (lo <= hi)%Qc -> (- k <= lo)%Qc -> (hi <= k)%Qc -> (1 <= k)%Qc -> (k <= Q2Qc 1000)%Qc ->
  length mn = length row -> (forall v, In v row \/ In v mn \/ In v mx -> double v = v) -> Forall2 (fun a b => (a <= b)%Qc) mn mx ->
  scaled_row lo hi mn mx row exact ->
  exists out, finput_row row mn mx lo hi = Ok out /\ Forall2 (fun o e => (Qcabs (o - e) <= k * float_step)%Qc) out exact.
Proof.
  intros lo hi k row mn mx exact LH KL KH K1 K. revert mn mx exact.
  induction row as [|x row IH]; intros [|a mn] mx exact LN D F (LE & S); try discriminate; inversion F as [|a' b mn' mx' AB F']; subst.
  - destruct exact; [|discriminate]. exists []. split; [reflexivity|constructor].
  - destruct exact as [|e exact]; [discriminate|]. simpl in LN, LE.
    destruct (IH mn mx' exact) as (out & E & FO); auto.
    { intros v I. apply D. simpl. tauto. }
    { split; [lia|]. intros j x' a' b' y H1 H2 H3 H4. apply (S (Datatypes.S j) x' a' b' y); auto. }
    exists (finput x a b lo hi :: out). split; [simpl; rewrite E; reflexivity|]. constructor; auto.
    apply C120_close; auto; try (apply D; simpl; tauto). apply (S 0 x a b e); auto.
Qed.
Print Assumptions C120_row.

(** In exact arithmetic every value of the training range is below 1 (C50), and
    larger values stay larger; in doubles and floats neither holds. *)
Theorem C120_below_one_refuted : exists mn mx, double mn = mn /\ double mx = mx /\ (mn <= mx)%Qc /\
  (position mn mx mx < 1)%Qc /\ finput mx mn mx 0 1 = 1%Qc.
Proof.
  exists 0%Qc, 1%Qc. split; [apply Qceqb_eq; vm_compute; reflexivity|]. split; [apply Qceqb_eq; vm_compute; reflexivity|].
  split; [discriminate|]. split; [reflexivity|]. apply Qceqb_eq; vm_compute; reflexivity.
Qed.
Print Assumptions C120_below_one_refuted.
Theorem C120_distinct_refuted : exists mn mx x y, double mn = mn /\ double mx = mx /\ double x = x /\ double y = y /\
  (mn <= x /\ x < y /\ y <= mx)%Qc /\ (position mn mx x < position mn mx y)%Qc /\ finput x mn mx 0 1 = finput y mn mx 0 1.
Proof.
  exists 0%Qc, (Q2Qc 1000), (Q2Qc 500), (Q2Qc (524288001 # 1048576)).
  split; [apply Qceqb_eq; vm_compute; reflexivity|]. split; [apply Qceqb_eq; vm_compute; reflexivity|]. split; [apply Qceqb_eq; vm_compute; reflexivity|]. split; [apply Qceqb_eq; vm_compute; reflexivity|].
  split; [repeat split; discriminate|]. split; [reflexivity|]. apply Qceqb_eq; vm_compute; reflexivity.
Qed.
Print Assumptions C120_distinct_refuted.

(** Two variables, one of them constant in training, at inference. *)
Example C120_example :
  let row := [Q2Qc (5 # 2); Q2Qc 7] in let mn := [Q2Qc 2; Q2Qc (13 # 2)] in let mx := [Q2Qc 4; Q2Qc (13 # 2)] in
  (forall v, In v row \/ In v mn \/ In v mx -> double v = v) /\ Forall2 (fun a b => (a <= b)%Qc) mn mx /\
  scaled_row (- Q2Qc 1000) (Q2Qc 1000) mn mx row [minmax1 (Q2Qc (5 # 2)) (Q2Qc 2) (Q2Qc 4) (- Q2Qc 1000) (Q2Qc 1000);
      minmax1 (Q2Qc 7) (Q2Qc (13 # 2)) (Q2Qc (13 # 2)) (- Q2Qc 1000) (Q2Qc 1000)] /\
  finput_row row mn mx (- Q2Qc 1000) (Q2Qc 1000) = Ok [Q2Qc (1 # 4); Q2Qc 1000].
Proof.
  cbv zeta. split; [|split; [|split]].
  - intros v [I|[I|I]]; simpl in I; destruct I as [<-|[<-|[]]]; apply Qceqb_eq; vm_compute; reflexivity.
  - repeat constructor; discriminate.
  - apply normalize_row_spec; [discriminate|reflexivity].
  - assert (E : match finput_row [Q2Qc (5 # 2); Q2Qc 7] [Q2Qc 2; Q2Qc (13 # 2)] [Q2Qc 4; Q2Qc (13 # 2)] (- Q2Qc 1000) (Q2Qc 1000) with
      | Ok [a; b] => (a =? Q2Qc (1 # 4))%Qc && (b =? Q2Qc 1000)%Qc | _ => false end = true) by (vm_compute; reflexivity).
    destruct (finput_row _ _ _ _ _) as [[|a [|b [|c l]]]|]; try discriminate. apply andb_true_iff in E. destruct E as [A B]. apply Qceqb_eq in A, B. subst. reflexivity.
Qed.
