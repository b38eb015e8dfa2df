(** Least squares, differencing and critical values (C26, C27, C63). *)
From Coq Require Import List Arith ZArith Lia Bool Sorted.
From Verif Require Import Base Num Sorting Kernel_model Kernel_proofs Helpers_model Helpers_spec Helpers_proofs.
Import ListNotations.
Open Scope nat_scope.

(** * Least squares *)
Lemma two_eq : (Q2Qc 2 = 1 + 1)%Qc. Proof. apply Qc_is_canon; reflexivity. Qed.

Lemma sq_error_expand : forall a b x y, length x = length y ->
  sq_error a b x y = (qsum (zip_with Qcmult y y) - (1+1) * a * qsum (zip_with Qcmult x y) - (1+1) * b * qsum y
    + a * a * qsum (zip_with Qcmult x x) + (1+1) * a * b * qsum x + qn (length x) * b * b)%Qc.
Proof.
  induction x as [|u s IH]; intros [|v t] L; simpl in L; try discriminate; cbn [sq_error zip_with qsum length].
  - rewrite qn_0. ring.
  - rewrite IH by lia. rewrite qn_S. ring.
Qed.

Lemma sum_sq_nonneg : forall al be x,
  (0 <= al * al * qsum (zip_with Qcmult x x) + (1+1) * al * be * qsum x + qn (length x) * be * be)%Qc.
Proof.
  induction x as [|u s IH]; cbn [zip_with qsum length].
  - rewrite qn_0. replace (_ + _)%Qc with 0%Qc by ring. qlra.
  - rewrite qn_S. pose proof (Qcsqr_nonneg (al * u + be)) as H.
    replace (al * al * (u * u + qsum (zip_with Qcmult s s)) + (1 + 1) * al * be * (u + qsum s) + (1 + qn (length s)) * be * be)%Qc
      with ((al * u + be) * (al * u + be) + (al * al * qsum (zip_with Qcmult s s) + (1+1) * al * be * qsum s + qn (length s) * be * be))%Qc
      by ring. qlra.
Qed.

(** The determinant vanishes exactly for a constant abscissa. *)
Lemma variance_zero : forall x (m : Qc), (qsum (map (fun u => (u - m) * (u - m))%Qc x) = 0)%Qc -> forall u, In u x -> u = m.
Proof.
  induction x as [|v t IH]; intros m H u I; [destruct I|]. cbn [map qsum] in H.
  assert (N : forall l, (0 <= qsum (map (fun u => (u - m) * (u - m)) l))%Qc).
  { induction l; simpl; [qlra|]. pose proof (Qcsqr_nonneg (a - m)). qlra. }
  pose proof (Qcsqr_nonneg (v - m)). pose proof (N t).
  assert ((v - m) * (v - m) = 0)%Qc by qlra. assert (qsum (map (fun u => (u - m) * (u - m)) t) = 0)%Qc by qlra.
  destruct I as [<-|I]; [|apply IH; auto]. apply Qcsqr_zero in H2. qlra.
Qed.

Lemma det_variance : forall x, x <> [] ->
  (qn (length x) * qsum (zip_with Qcmult x x) - qsum x * qsum x =
   qn (length x) * qsum (map (fun u => (u - qmean x) * (u - qmean x)) x))%Qc.
Proof.
  intros x NE. assert (L : 0 < length x) by (destruct x; simpl; [congruence|lia]).
  assert (G : forall m l, (qsum (map (fun u => (u - m) * (u - m)) l) =
     qsum (zip_with Qcmult l l) - (1+1) * m * qsum l + qn (length l) * m * m)%Qc).
  { induction l; cbn [map qsum zip_with length]; [rewrite qn_0; ring|]. rewrite IHl, qn_S. ring. }
  rewrite G. unfold qmean. field. apply qn_neq0; auto.
Qed.

Lemma leastsq_spec : forall x y, length x = length y ->
  match leastsq x y with
  | Ok (a, b) => forall a' b', (sq_error a b x y <= sq_error a' b' x y)%Qc
  | Err e => e = ZeroDiv /\ exists c, forall u, In u x -> u = c
  end.
Proof.
  intros x y L. unfold leastsq. assert (E : (length x =? length y) = true) by (apply Nat.eqb_eq; auto). rewrite E.
  cbn [negb]. cbv zeta.
  set (n := qn (length x)). set (Sx := qsum x). set (Sy := qsum y).
  set (Sxx := qsum (zip_with Qcmult x x)). set (Sxy := qsum (zip_with Qcmult x y)).
  destruct (n * Sxx - Sx * Sx =? 0)%Qc eqn:D; qb_hyps.
  - split; auto. assert (CX : x = [] \/ x <> []) by (destruct x; [left; auto|right; discriminate]).
    destruct CX as [->|NE]; [exists 0%Qc; intros u []|].
    exists (qmean x). intros u Hu. apply (variance_zero x); auto.
    pose proof (det_variance x NE) as V. fold n Sxx Sx in V. rewrite D in V.
    assert (NZ : n <> 0%Qc) by (apply qn_neq0; destruct x; simpl; [congruence|lia]).
    destruct (Qcmult_integral _ _ (eq_sym V)); [contradiction|auto].
  - intros a' b'. set (d := (n * Sxx - Sx * Sx)%Qc) in *.
    set (a := ((n * Sxy - Sx * Sy) / d)%Qc). set (b := ((Sxx * Sy - Sx * Sxy) / d)%Qc).
    rewrite !sq_error_expand by auto. fold n Sx Sy Sxx Sxy.
    assert (N1 : (a * Sxx + b * Sx = Sxy)%Qc) by (unfold a, b, d; field; exact D).
    assert (N2 : (a * Sx + n * b = Sy)%Qc) by (unfold a, b, d; field; exact D).
    pose proof (sum_sq_nonneg (a' - a) (b' - b) x) as P. fold n Sxx Sx in P.
    set (Syy := qsum (zip_with Qcmult y y)). clearbody a b. rewrite <- N1, <- N2.
    assert (R : ((Syy - (1 + 1) * a' * (a * Sxx + b * Sx) - (1 + 1) * b' * (a * Sx + n * b) + a' * a' * Sxx + (1 + 1) * a' * b' * Sx + n * b' * b') -
       (Syy - (1 + 1) * a * (a * Sxx + b * Sx) - (1 + 1) * b * (a * Sx + n * b) + a * a * Sxx + (1 + 1) * a * b * Sx + n * b * b) =
       (a' - a) * (a' - a) * Sxx + (1 + 1) * (a' - a) * (b' - b) * Sx + n * (b' - b) * (b' - b))%Qc) by ring.
    rewrite <- R in P. qlra.
Qed.

Lemma leastsq_defined : forall x y, length x = length y -> (exists u v, In u x /\ In v x /\ u <> v) ->
  exists a b, leastsq x y = Ok (a, b).
Proof.
  intros x y L (u & v & Iu & Iv & NE). pose proof (leastsq_spec x y L) as H.
  destruct (leastsq x y) as [[a b]|e]; [eauto|]. destruct H as (_ & c & C).
  exfalso. apply NE. rewrite (C u Iu), (C v Iv). auto.
Qed.

(** * Differences *)
Lemma diffs_length : forall v, length (diffs v) = length v - 1.
Proof. intros [|x t]; simpl; auto. rewrite zip_with_length. simpl. lia. Qed.
Lemma diffs_nth : forall v p x y, nth_error v p = Some x -> nth_error v (S p) = Some y ->
  nth_error (diffs v) p = Some (y - x)%Qc.
Proof.
  intros [|h t] p x y Hx Hy; [destruct p; discriminate|]. simpl in Hy. cbn [diffs].
  apply (zip_with_nth _ _ _ (fun a b => (a - b)%Qc)); auto.
Qed.

Lemma get_delta_spec : forall delta v, delta + 1 < length v ->
  exists d, get_delta delta v = Ok d /\ difference_from delta v d /\
    (forall p, p <= delta -> nth_error d p = nth_error d (delta + 1)).
Proof.
  intros delta v H. unfold get_delta. cbv zeta.
  destruct (get_in _ (diffs v) delta) as (x & E & N); [rewrite diffs_length; lia|]. rewrite E, bind_ok.
  eexists. split; [reflexivity|].
  assert (R : forall p, delta < p -> nth_error (repeat x (delta + 1) ++ skipn delta (diffs v)) p = nth_error (diffs v) (p - 1)).
  { intros p Hp. rewrite nth_error_app2 by (rewrite repeat_length; lia). rewrite repeat_length, nth_error_skipn.
    f_equal. lia. }
  split; [split|].
  - rewrite app_length, repeat_length, skipn_length, diffs_length. lia.
  - intros p a b Hp Ha Hb. rewrite R by lia. simpl. rewrite Nat.sub_0_r. apply diffs_nth; auto.
  - intros p Hp. rewrite (R (delta + 1)) by lia. replace (delta + 1 - 1) with delta by lia. rewrite N.
    rewrite nth_error_app1 by (rewrite repeat_length; lia). rewrite nth_error_repeat.
    assert (X : (p <? delta + 1) = true) by (apply Nat.ltb_lt; lia). rewrite X. auto.
Qed.
Lemma get_delta_fails : forall delta v, length v <= delta + 1 -> get_delta delta v = Err IndexErr.
Proof.
  intros. unfold get_delta, get. rewrite (proj2 (nth_error_None _ _)); auto. rewrite diffs_length. lia.
Qed.

Lemma reverse_loop_spec : forall ds acc s p, s = acc :: reverse_loop acc ds -> p < length ds ->
  exists x d, nth_error s p = Some x /\ nth_error ds p = Some d /\ nth_error s (S p) = Some (x + d)%Qc.
Proof.
  induction ds as [|d t IH]; intros acc s p -> L; simpl in L; [lia|]. destruct p as [|p].
  - exists acc, d. simpl. auto.
  - destruct (IH (acc + d)%Qc _ p eq_refl ltac:(lia)) as (x & d' & H1 & H2 & H3). exists x, d'. simpl. auto.
Qed.
Lemma reverse_loop_length : forall ds acc, length (reverse_loop acc ds) = length ds.
Proof. induction ds; simpl; auto. Qed.

(** reverse_delta inverts the differencing. *)
Lemma reverse_delta_spec : forall delta (v d : list Qc) first, 0 < delta -> delta <= length v ->
  (forall p, p < delta -> nth_error v p = Some first) -> difference_from (delta - 1) v d ->
  reverse_delta first delta d = Ok v.
Proof.
  intros delta v d first D0 DL HF [LD HD]. unfold reverse_delta. destruct delta as [|k]; [lia|].
  set (ds := skipn (S k) d).
  change (Ok (repeat first (S k) ++ reverse_loop first ds) = Ok v). f_equal.
  assert (LS : length ds = length v - S k) by (unfold ds; rewrite skipn_length; lia).
  assert (G : forall q, q <= length ds -> nth_error (first :: reverse_loop first ds) q = nth_error v (k + q)).
  { induction q as [|q IH]; intros Q.
    - rewrite Nat.add_0_r. rewrite HF by lia. auto.
    - destruct (reverse_loop_spec ds first _ q eq_refl ltac:(lia)) as (x & dd & H1 & H2 & H3). rewrite H3.
      rewrite IH in H1 by lia. destruct (nth_error_ex _ v (k + S q) ltac:(lia)) as (y & Ey). rewrite Ey.
      assert (ED : nth_error d (S (k + q)) = Some (y - x)%Qc).
      { apply HD; auto; try lia. replace (S (k + q)) with (k + S q) by lia. auto. }
      unfold ds in H2. rewrite nth_error_skipn in H2. replace (S k + q) with (S (k + q)) in H2 by lia.
      rewrite ED in H2. inversion H2; subst dd. f_equal. ring. }
  apply nth_error_ext_len.
  - rewrite app_length, repeat_length, reverse_loop_length. lia.
  - intros p Hp. rewrite app_length, repeat_length, reverse_loop_length in Hp.
    destruct (Nat.le_gt_cases (S k) p) as [C|C].
    + rewrite nth_error_app2 by (rewrite repeat_length; lia). rewrite repeat_length.
      specialize (G (S (p - S k)) ltac:(lia)). simpl in G. rewrite G. f_equal. lia.
    + rewrite nth_error_app1 by (rewrite repeat_length; lia). rewrite nth_error_repeat, HF by lia.
      assert (X : (p <? S k) = true) by (apply Nat.ltb_lt; lia). rewrite X. auto.
Qed.

(** * Critical values *)
Lemma get_critical_spec : forall ppf sqrt table alpha n m, m <= n ->
  (forall j x, nth_error table j = Some x ->
     x = calculate_esd_values ppf sqrt (j + 1) alpha (length table)) ->
  get_critical ppf sqrt table alpha n m = map (fun i => calculate_esd_values ppf sqrt i alpha n) (seq 1 m).
Proof.
  intros ppf sqrt table alpha n m L HT. unfold get_critical.
  destruct (isclose _ _ && (n <=? length table)) eqn:E; auto. apply andb_prop in E. destruct E as [_ E].
  apply Nat.leb_le in E. cbv zeta. set (N := length table) in *. apply nth_error_ext_len.
  - rewrite slice_length, map_length, seq_length. fold N. lia.
  - intros k Hk. rewrite slice_length in Hk. fold N in Hk. rewrite nth_error_slice.
    assert (X : (k <? N - n + m - (N - n)) = true) by (apply Nat.ltb_lt; lia). rewrite X.
    rewrite nth_error_map, nth_error_seq. assert (Y : (k <? m) = true) by (apply Nat.ltb_lt; lia). rewrite Y. simpl option_map.
    destruct (nth_error_ex _ table (N - n + k) ltac:(fold N; lia)) as (x & Ex). rewrite Ex. f_equal.
    rewrite (HT _ _ Ex). unfold calculate_esd_values.
    replace (Z.of_nat N - Z.of_nat (N - n + k + 1))%Z with (Z.of_nat n - Z.of_nat (S k))%Z by lia. auto.
Qed.

Lemma get_critical_length : forall ppf sqrt table alpha n m, m <= n ->
  length (get_critical ppf sqrt table alpha n m) = m.
Proof.
  intros ppf sqrt table alpha n m L. unfold get_critical.
  destruct (isclose _ _ && (n <=? length table)) eqn:E.
  - apply andb_prop in E. destruct E as [_ E]. apply Nat.leb_le in E. cbv zeta. rewrite slice_length. lia.
  - rewrite map_length, seq_length. auto.
Qed.
