(** C111: scaling a series to [0, 1] in doubles, and the tests behind it. *)
From Coq Require Import List Arith ZArith Lia Bool.
From Verif Require Import Base Num Sorting Kernel_model Kernel_spec Kernel_proofs2 Kernel_proofs3.
From Verif Require Import Single_model Single_spec Single_proofs Single_proofs2 Single_proofs3 Single_proofs4.
From Verif Require Import Fnorm_model Fnorm_spec Fnorm_proofs.
Import ListNotations.
Open Scope nat_scope.

Lemma double_1 : double 1%Qc = 1%Qc.
Proof. apply Qceqb_eq. vm_compute. reflexivity. Qed.
Lemma double_0 : double 0%Qc = 0%Qc.
Proof. apply (r_zero double double_rounding). Qed.

Section N.
Variables lo hi : Qc.
Hypothesis DL : double lo = lo.
Hypothesis DH : double hi = hi.
Hypothesis LH : (lo < hi)%Qc.

Definition N (v : Qc) : Qc := double (double (v - lo) / double (hi - lo))%Qc.

Lemma span_pos : (0 < double (hi - lo) /\ (1 - w53) * (hi - lo) <= double (hi - lo) /\ double (hi - lo) <= (1 + w53) * (hi - lo))%Qc.
Proof.
  destruct (dsub_rel hi lo DH DL ltac:(apply Qclt_le_weak; auto)) as [A B]. split; auto.
  unfold w53 in *. set (b := double (hi - lo)%Qc) in *. clearbody b. qlra.
Qed.

Lemma N_mono : forall v w, (v <= w)%Qc -> (N v <= N w)%Qc.
Proof.
  intros v w H. unfold N. destruct span_pos as [P _]. apply (r_mono double double_rounding).
  pose proof (r_mono double double_rounding (v - lo)%Qc (w - lo)%Qc ltac:(qlra)) as M.
  apply Qcdiv_le_iff; auto. rewrite Qcmult_comm, Qcmul_div; auto.
  intro X. rewrite X in P. discriminate.
Qed.
Lemma N_lo : N lo = 0%Qc.
Proof.
  unfold N. replace (lo - lo)%Qc with 0%Qc by ring. rewrite double_0.
  replace (0 / double (hi - lo))%Qc with 0%Qc by (unfold Qcdiv; ring). apply double_0.
Qed.
Lemma N_hi : N hi = 1%Qc.
Proof.
  unfold N. destruct span_pos as [P _]. replace (double (hi - lo) / double (hi - lo))%Qc with 1%Qc.
  - apply double_1.
  - field. intro X. rewrite X in P. discriminate.
Qed.

Lemma N_close : forall v, double v = v -> (lo <= v -> v <= hi ->
  (0 <= scaled lo hi v /\ scaled lo hi v <= 1) /\
  N v <= scaled lo hi v + Q2Qc (1 # 2251799813685248) /\ scaled lo hi v <= N v + Q2Qc (1 # 2251799813685248))%Qc.
Proof.
  intros v DV L1 L2. destruct span_pos as (P & B1 & B2).
  destruct (dsub_rel v lo DV DL L1) as [A1 A2].
  assert (PB : (0 < hi - lo)%Qc) by qlra.
  assert (T0 : (0 <= scaled lo hi v)%Qc) by (apply Qcdiv_nonneg; auto; qlra).
  assert (T1 : (scaled lo hi v <= 1)%Qc) by (apply Qcdiv_le_iff; auto; qlra).
  assert (TE : (scaled lo hi v * (hi - lo) = v - lo)%Qc).
  { unfold scaled. rewrite Qcmult_comm. apply Qcmul_div. intro X. rewrite X in PB. discriminate. }
  split; [auto|]. unfold N. rewrite <- TE in *.
  set (b := (hi - lo)%Qc) in *. set (t := scaled lo hi v) in *. set (b' := double b) in *. set (a' := double (t * b)%Qc) in *.
  clearbody t b a' b'. unfold w53 in *.
  assert (TB : (0 <= t * b)%Qc) by (apply Qcmul_nonneg; auto; apply Qclt_le_weak; auto).
  assert (TB1 : (0 <= b * (1 - t))%Qc) by (apply Qcmul_nonneg; qlra).
  set (c := Q2Qc (21 # 90071992547409920)).
  assert (Q1 : (a' / b' <= t + c)%Qc).
  { apply Qcdiv_le_iff; auto.
    pose proof (Qcmul_nonneg (t + c) (b' - (1 - Q2Qc (1 # 9007199254740992)) * b) ltac:(unfold c; qlra) ltac:(qlra))%Qc as K.
    unfold c in *. clear - K A2 TB TB1 PB. qlra. }
  assert (Q2 : (t - c <= a' / b')%Qc).
  { apply Qcle_div_iff; auto.
    destruct (Qclt_le_dec' (t - c) 0)%Qc as [G|G].
    - pose proof (Qcmul_nonneg (0 - (t - c)) b' ltac:(qlra) ltac:(qlra))%Qc as K.
      unfold c in *. clear - K A1 TB. qlra.
    - pose proof (Qcmul_nonneg (t - c) ((1 + Q2Qc (1 # 9007199254740992)) * b - b') ltac:(qlra) ltac:(qlra))%Qc as K.
      unfold c in *. clear - K A1 TB TB1 PB. qlra. }
  assert (Q0 : (0 <= a' / b')%Qc) by (apply Qcdiv_nonneg; auto; qlra).
  set (q := (a' / b')%Qc) in *. clearbody q.
  destruct (double_err q Q0 ltac:(unfold c in *; qlra)) as [E1 E2]. unfold w53, t100, c in *.
  set (y := double q) in *. clearbody y. split; qlra.
Qed.

Lemma N_unit : forall v, double v = v -> (lo <= v -> v <= hi -> 0 <= N v /\ N v <= 1)%Qc.
Proof. intros v D A B. rewrite <- N_lo, <- N_hi. split; apply N_mono; auto. Qed.

(** The float standing for the fraction [t]. *)
Definition gfloat (t : Qc) : Qc := single (double (double (t * (hi - lo)) / double (hi - lo)))%Qc.
Lemma gfloat_N : forall v, gfloat (scaled lo hi v) = single (N v).
Proof.
  intros v. unfold gfloat, N.
  assert (PB : (0 < hi - lo)%Qc) by qlra.
  replace (scaled lo hi v * (hi - lo))%Qc with (v - lo)%Qc; auto.
  unfold scaled. rewrite Qcmult_comm. symmetry. apply Qcmul_div. intro X. rewrite X in PB. discriminate.
Qed.
Lemma gfloat_mono : forall x y, (x <= y)%Qc -> (gfloat x <= gfloat y)%Qc.
Proof.
  intros x y H. unfold gfloat. destruct span_pos as [P _].
  assert (PB : (0 <= hi - lo)%Qc) by qlra.
  apply (r_mono single single_rounding), (r_mono double double_rounding).
  assert (M : (double (x * (hi - lo)) <= double (y * (hi - lo)))%Qc).
  { apply (r_mono double double_rounding). rewrite !(Qcmult_comm _ (hi - lo)). apply Qcmul_le_l; auto. }
  apply Qcdiv_le_iff; auto. rewrite (Qcmult_comm (_ / _)%Qc), Qcmul_div; auto.
  intro X. rewrite X in P. discriminate.
Qed.
Lemma gfloat_float : forall x, single (gfloat x) = gfloat x.
Proof. intros. apply (r_idem single single_rounding). Qed.

Lemma gfloat_unit : forall raw, (forall v, In v raw -> double v = v /\ (lo <= v)%Qc /\ (v <= hi)%Qc) ->
  unit_range gfloat (map (scaled lo hi) raw).
Proof.
  intros raw H t I. apply in_map_iff in I. destruct I as (v & <- & I). destruct (H v I) as (D & A & B).
  destruct (N_close v D A B) as ([T0 T1] & E1 & E2). split; auto. rewrite gfloat_N.
  destruct (N_unit v D A B) as [N0 N1].
  pose proof (r_err single (N v) 1%Qc single_rounding ltac:(qlra) N1) as E. unfold within, ulp, tiny in *.
  set (y := single (N v)) in *. clearbody y. set (n := N v) in *. clearbody n. destruct E. split; qlra.
Qed.

Lemma scaled_ordered : forall upper raw, tail_ordered upper raw -> tail_ordered upper (map (scaled lo hi) raw).
Proof.
  intros upper raw H. apply tail_ordered_ordered. apply ordered_map; [|apply tail_ordered_ordered; auto].
  intros x y L. unfold scaled. assert (PB : (0 < hi - lo)%Qc) by qlra.
  apply Qcdiv_le_iff; auto. rewrite Qcmult_comm, Qcmul_div; [qlra|].
  intro X. rewrite X in PB. discriminate.
Qed.
End N.

Lemma spans_minmax : forall lo hi values, spans lo hi values -> qmin_list values = lo /\ qmax_list values = hi.
Proof.
  intros lo hi values (A & B & C & D).
  assert (NE : values <> []) by (intro X; rewrite X in A; inversion A).
  split; apply Qcle_antisym.
  - apply qmin_list_le; auto.
  - apply C, qmin_list_in; auto.
  - apply C, qmax_list_in; auto.
  - apply qmax_list_ge; auto.
Qed.
Lemma dnormalize_N : forall lo hi values, spans lo hi values -> dnormalize values = map (N lo hi) values.
Proof.
  intros lo hi values H. unfold dnormalize. destruct (spans_minmax lo hi values H) as [-> ->].
  destruct H as (_ & _ & _ & L). destruct (lo =? hi)%Qc eqn:E; auto.
  apply Qceqb_eq in E. subst. exfalso. qlra.
Qed.

(** C111: the scaled values lie in [0, 1], the least is 0 and the greatest 1
    exactly, the order is kept, and each value is within 2^-51 of where it
    really lies. *)
Theorem C111_normalize : forall lo hi values, (forall v, In v values -> double v = v) -> spans lo hi values ->
  Forall2 (fun v o => (0 <= o /\ o <= 1)%Qc /\ (v = lo -> o = 0%Qc) /\ (v = hi -> o = 1%Qc) /\
     (Qcabs (o - scaled lo hi v) <= Q2Qc (1 # 2251799813685248))%Qc) values (dnormalize values) /\
  (forall i j v w o p, nth_error values i = Some v -> nth_error values j = Some w ->
     nth_error (dnormalize values) i = Some o -> nth_error (dnormalize values) j = Some p -> (v <= w)%Qc -> (o <= p)%Qc).
Proof.
  intros lo hi values DV SP. rewrite (dnormalize_N lo hi values SP). destruct SP as (A & B & C & D).
  pose proof (DV lo A) as DL. pose proof (DV hi B) as DH.
  split.
  - assert (H : forall v, In v values -> double v = v /\ (lo <= v)%Qc /\ (v <= hi)%Qc).
    { intros v I. split; auto. }
    clear A B C DV. induction values as [|v values IH]; simpl; constructor; [|apply IH; intros; apply H; simpl; auto].
    destruct (H v (or_introl eq_refl)) as (DV & L1 & L2).
    split; [apply N_unit; auto|]. split; [intros ->; apply N_lo; auto|]. split; [intros ->; apply N_hi; auto|].
    destruct (N_close lo hi DL DH D v DV L1 L2) as (_ & E1 & E2).
    set (x := N lo hi v) in *. set (y := scaled lo hi v) in *. clearbody x y. qmm; qlra.
  - intros i j v w o p Hv Hw Ho Hp L. rewrite nth_error_map in Ho, Hp. rewrite Hv in Ho. rewrite Hw in Hp.
    inversion Ho; inversion Hp; subst. apply N_mono; auto.
Qed.
Print Assumptions C111_normalize.

(** A constant series is left alone. *)
Theorem C111_constant : forall c n, dnormalize (repeat c (S n)) = repeat c (S n).
Proof.
  intros c n. unfold dnormalize.
  assert (E : forall x, In x (repeat c (S n)) -> x = c) by (intros x I; apply repeat_spec in I; auto).
  rewrite (E _ (qmin_list_in (repeat c (S n)) ltac:(discriminate))).
  rewrite (E _ (qmax_list_in (repeat c (S n)) ltac:(discriminate))).
  rewrite Qceqb_refl. auto.
Qed.
Print Assumptions C111_constant.

(** Different values need not stay different. *)
Definition far_apart : list Qc := [Q2Qc (-1152921504606846976 # 1); 1%Qc; Q2Qc 2; Q2Qc (1152921504606846976 # 1)].
Theorem C111_distinct_refuted :
  (forall v, In v far_apart -> double v = v) /\
  spans (Q2Qc (-1152921504606846976 # 1)) (Q2Qc (1152921504606846976 # 1)) far_apart /\
  exists a b, nth_error far_apart 1 = Some a /\ nth_error far_apart 2 = Some b /\ (a < b)%Qc /\
    exists o, nth_error (dnormalize far_apart) 1 = Some o /\ nth_error (dnormalize far_apart) 2 = Some o.
Proof.
  split; [|split].
  - intros v I. assert (B : forallb (fun v => (double v =? v)%Qc) far_apart = true) by (vm_compute; reflexivity).
    rewrite forallb_forall in B. apply Qceqb_eq, B; auto.
  - split; [left; auto|]. split; [right; right; right; left; auto|]. split; [|reflexivity].
    intros v I.
    assert (B : forallb (fun v => (Q2Qc (-1152921504606846976 # 1) <=? v) && (v <=? Q2Qc (1152921504606846976 # 1)))%Qc far_apart = true) by (vm_compute; reflexivity).
    rewrite forallb_forall in B. specialize (B v I). apply andb_true_iff in B. destruct B. qb_hyps. auto.
  - exists 1%Qc, (Q2Qc 2). split; auto. split; auto. split; [reflexivity|].
    assert (B : (nth 1 (dnormalize far_apart) 0 =? nth 2 (dnormalize far_apart) 0)%Qc = true) by (vm_compute; reflexivity).
    apply Qceqb_eq in B.
    assert (L : length (dnormalize far_apart) = 4) by (vm_compute; reflexivity).
    exists (nth 1 (dnormalize far_apart) 0%Qc). split; [|rewrite B]; apply nth_error_of_nth; rewrite L; lia.
Qed.
Print Assumptions C111_distinct_refuted.

Section Chain.
Variable cst : Qc.
Variables std mean32 std32 : list Qc -> Qc.
Variable tau : Qc.
Hypothesis CST : (Q2Qc (67 # 100) <= cst /\ cst <= Q2Qc (68 # 100))%Qc.
Hypothesis TAU : (0 <= tau /\ tau <= 1)%Qc.

(** np.mean and np.std of the floats, against mean and standard deviation of
    the exactly scaled series, from position [k] on. *)
Definition measured_raw (lo hi : Qc) (raw : list Qc) (k : nat) : Prop :=
  let exact := skipn k (map (scaled lo hi) raw) in
  let floats := skipn k (map single (dnormalize raw)) in
  (Qcabs (mean32 floats - qmean exact) <= tau)%Qc /\
  (Qcabs (std32 floats - std exact) <= tau)%Qc /\ (0 <= std exact /\ std exact <= 1)%Qc.

(** C111: scaling in doubles and testing in singles gives what scaling and
    testing over exact numbers gives, when no visited position lies in the
    band of C110. *)
Theorem C111_esd_agrees : forall lo hi upper raw index maxo critical last_index,
  (forall v, In v raw -> double v = v) -> spans lo hi raw ->
  tail_ordered upper raw -> maxo <= length raw ->
  (forall k, k < maxo -> exists c, nth_error critical k = Some c /\ (0 <= c)%Qc /\
     decided cst std tau upper (map (scaled lo hi) raw) k c) ->
  (forall k, k < maxo -> measured_raw lo hi raw k) ->
  generalized_esd_test32 single double cst mean32 std32 (dnormalize raw) index maxo critical upper last_index =
  generalized_esd_test cst std (map (scaled lo hi) raw) index maxo critical upper last_index.
Proof.
  intros lo hi upper raw index maxo critical li DV SP TO L CR ME.
  pose proof SP as SP'. destruct SP' as (A & B & C & D).
  pose proof (DV lo A) as DL. pose proof (DV hi B) as DH.
  assert (WS : map single (dnormalize raw) = map (gfloat lo hi) (map (scaled lo hi) raw)).
  { rewrite (dnormalize_N lo hi raw SP), !map_map. apply map_ext. intros v. symmetry. apply gfloat_N; auto. }
  apply (gen_esd_agrees cst std mean32 std32 tau CST (gfloat lo hi) (gfloat_float lo hi) (gfloat_mono lo hi DL DH D) TAU
    upper (dnormalize raw) (map (scaled lo hi) raw) index maxo critical li WS).
  - apply scaled_ordered; auto.
  - apply gfloat_unit; auto.
  - rewrite map_length. auto.
  - auto.
  - intros k Lk. specialize (ME k Lk). unfold measured_raw in ME. rewrite WS in ME.
    unfold measured. rewrite map_skipn'. exact ME.
Qed.

Theorem C111_threshold_agrees : forall lo hi upper raw index maxo threshold last_index,
  (forall v, In v raw -> double v = v) -> spans lo hi raw ->
  tail_ordered upper raw -> maxo <= length raw -> (0 <= threshold)%Qc ->
  (forall k, k < maxo -> decided cst std tau upper (map (scaled lo hi) raw) k threshold) ->
  (forall k, k < maxo -> measured_raw lo hi raw k) ->
  dynamic_threshold32 single double cst mean32 std32 (dnormalize raw) index maxo threshold upper last_index =
  dynamic_threshold cst std (map (scaled lo hi) raw) index maxo threshold upper last_index.
Proof.
  intros lo hi upper raw index maxo threshold li DV SP TO L T CR ME.
  pose proof SP as SP'. destruct SP' as (A & B & C & D).
  pose proof (DV lo A) as DL. pose proof (DV hi B) as DH.
  assert (WS : map single (dnormalize raw) = map (gfloat lo hi) (map (scaled lo hi) raw)).
  { rewrite (dnormalize_N lo hi raw SP), !map_map. apply map_ext. intros v. symmetry. apply gfloat_N; auto. }
  apply (gen_threshold_agrees cst std mean32 std32 tau CST (gfloat lo hi) (gfloat_float lo hi) (gfloat_mono lo hi DL DH D) TAU
    upper (dnormalize raw) (map (scaled lo hi) raw) index maxo threshold li WS); auto.
  - apply scaled_ordered; auto.
  - apply gfloat_unit; auto.
  - rewrite map_length. auto.
  - intros k Lk. specialize (ME k Lk). unfold measured_raw in ME. rewrite WS in ME.
    unfold measured. rewrite map_skipn'. exact ME.
Qed.
End Chain.
Print Assumptions C111_esd_agrees.
Print Assumptions C111_threshold_agrees.

(** One value of 40, six of 20 and five of 16: hypotheses and outcome. *)
Definition summer : list Qc := Q2Qc 40 :: repeat (Q2Qc 20) 6 ++ repeat (Q2Qc 16) 5.
Example C111_example :
  (forall v, In v summer -> double v = v) /\ spans (Q2Qc 16) (Q2Qc 40) summer /\ tail_ordered true summer /\
  (forall k, k < 2 -> exists c, nth_error [Q2Qc 2; Q2Qc 2] k = Some c /\ (0 <= c)%Qc /\
     decided (Q2Qc (6745 # 10000)) (fun _ => Q2Qc (1 # 12)) (Q2Qc (1 # 1000)) true (map (scaled (Q2Qc 16) (Q2Qc 40)) summer) k c) /\
  (forall k, k < 2 -> measured_raw (fun _ => Q2Qc (1 # 12)) qmean (fun _ => Q2Qc (1 # 12)) (Q2Qc (1 # 1000)) (Q2Qc 16) (Q2Qc 40) summer k) /\
  generalized_esd_test32 single double (Q2Qc (6745 # 10000)) qmean (fun _ => Q2Qc (1 # 12)) (dnormalize summer) (seq 20 12) 2 [Q2Qc 2; Q2Qc 2] true None = Ok [20] /\
  dynamic_threshold32 single double (Q2Qc (6745 # 10000)) qmean (fun _ => Q2Qc (1 # 12)) (dnormalize summer) (seq 20 12) 2 (Q2Qc 2) true None = Ok [20].
Proof.
  assert (N2 : forall (P : nat -> Prop), P 0 -> P 1 -> forall k, k < 2 -> P k).
  { intros P A B [|[|k]] L; auto; lia. }
  assert (LT : forall x y, Qcltb x y = true -> (x < y)%Qc) by (intros; qb_hyps; auto).
  assert (LE : forall x y, Qcleb x y = true -> (x <= y)%Qc) by (intros; qb_hyps; auto).
  split; [|split; [|split; [|split; [|split; [|split]]]]].
  - intros v I. assert (B : forallb (fun v => (double v =? v)%Qc) summer = true) by (vm_compute; reflexivity).
    rewrite forallb_forall in B. apply Qceqb_eq, B; auto.
  - split; [vm_compute; tauto|]. split; [vm_compute; tauto|]. split; [|reflexivity].
    intros v I. assert (B : forallb (fun v => (Q2Qc 16 <=? v) && (v <=? Q2Qc 40))%Qc summer = true) by (vm_compute; reflexivity).
    rewrite forallb_forall in B. specialize (B v I). apply andb_true_iff in B. destruct B. qb_hyps. auto.
  - assert (G : forallb (fun i => forallb (fun j => negb (i <=? j) || (nth j summer 0 <=? nth i summer 0)%Qc) (seq 0 12)) (seq 0 12) = true) by (vm_compute; reflexivity).
    intros i j x y L Hx Hy. rewrite forallb_forall in G.
    pose proof (nth_error_lt _ _ _ _ Hx) as Li. pose proof (nth_error_lt _ _ _ _ Hy) as Lj. change (length summer) with 12 in *.
    specialize (G i ltac:(apply in_seq; lia)). rewrite forallb_forall in G. specialize (G j ltac:(apply in_seq; lia)).
    rewrite (nth_error_nth_d _ _ _ _ 0%Qc Hx), (nth_error_nth_d _ _ _ _ 0%Qc Hy) in G.
    apply orb_true_iff in G. destruct G as [G|G]; [|qb_hyps; auto].
    apply negb_true_iff in G. apply Nat.leb_gt in G. lia.
  - apply N2; exists (Q2Qc 2); (split; [auto|split; [apply LE; reflexivity|]]).
    + left. eexists. split; [reflexivity|]. left. apply LT. vm_compute. reflexivity.
    + right. eexists. split; [reflexivity|]. split.
      * left. apply LE. vm_compute. reflexivity.
      * apply LT. vm_compute. reflexivity.
  - apply N2; (split; [|split; [|split]]); apply LE; vm_compute; reflexivity.
  - vm_compute. reflexivity.
  - vm_compute. reflexivity.
Qed.
Print Assumptions C111_example.
