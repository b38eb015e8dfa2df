(** How far the statistics in single precision are from the exact ones (C110). *)
From Coq Require Import List Arith ZArith Lia Bool Permutation Sorted.
From Verif Require Import Base Num Sorting Kernel_model Kernel_spec Kernel_proofs Kernel_proofs2 Kernel_proofs3.
From Verif Require Import Single_model Single_spec Single_proofs.
Import ListNotations.
Open Scope nat_scope.

(** * Order statistics move no more than the values *)
Definition cnt (v : Qc) (l : list Qc) : nat := length (filter (fun x => x <=? v)%Qc l).

Lemma filter_perm : forall (A : Type) (f : A -> bool) l l', Permutation l l' -> Permutation (filter f l) (filter f l').
Proof.
  intros A f l l' P. induction P; simpl; auto.
  - destruct (f x); auto.
  - destruct (f x), (f y); auto. constructor.
  - etransitivity; eauto.
Qed.
Lemma cnt_perm : forall v l l', Permutation l l' -> cnt v l = cnt v l'.
Proof. intros. apply Permutation_length, filter_perm; auto. Qed.
Lemma filter_all : forall (A : Type) (f : A -> bool) l, (forall x, In x l -> f x = true) -> filter f l = l.
Proof. induction l as [|x l IH]; simpl; intros H; auto. rewrite H by auto. f_equal. apply IH. auto. Qed.
Lemma filter_none : forall (A : Type) (f : A -> bool) l, (forall x, In x l -> f x = false) -> filter f l = [].
Proof. induction l as [|x l IH]; simpl; intros H; auto. rewrite H by auto. apply IH. auto. Qed.
Lemma filter_le : forall (A : Type) (f : A -> bool) l, length (filter f l) <= length l.
Proof. induction l as [|x l IH]; simpl; auto. destruct (f x); simpl; lia. Qed.
Lemma cnt_app : forall v a b, cnt v (a ++ b) = cnt v a + cnt v b.
Proof. intros. unfold cnt. rewrite filter_app, app_length. auto. Qed.

Lemma cnt_sorted_ge : forall s p, qsorted s -> p < length s -> S p <= cnt (nth p s 0%Qc) s.
Proof.
  intros s p H L. rewrite <- (firstn_skipn (S p) s) at 2. rewrite cnt_app.
  unfold cnt at 1. rewrite filter_all.
  - rewrite firstn_length. lia.
  - intros x I. apply In_nth_error in I. destruct I as [i Hi].
    pose proof (nth_error_lt _ _ _ _ Hi) as Li. rewrite firstn_length in Li.
    rewrite nth_error_firstn in Hi. destruct (i <? S p) eqn:E; [|discriminate]. apply Nat.ltb_lt in E.
    apply Qcleb_le. apply (qsorted_nth s i p x _ H ltac:(lia) Hi). apply nth_error_of_nth; auto.
Qed.
Lemma cnt_sorted_le : forall s p v, qsorted s -> p < length s -> S p <= cnt v s -> (nth p s 0 <= v)%Qc.
Proof.
  intros s p v H L C. destruct (Qclt_le_dec' v (nth p s 0%Qc)) as [B|B]; auto. exfalso.
  rewrite <- (firstn_skipn p s) in C. rewrite cnt_app in C.
  assert (Z0 : cnt v (skipn p s) = 0).
  { unfold cnt. rewrite filter_none; auto. intros x I. apply In_nth_error in I. destruct I as [i Hi].
    rewrite nth_error_skipn in Hi. apply Qcleb_gt.
    pose proof (qsorted_nth s p (p + i) _ x H ltac:(lia) (nth_error_of_nth _ s p 0%Qc L) Hi). qlra. }
  unfold cnt at 1 in C. pose proof (filter_le _ (fun x => x <=? v)%Qc (firstn p s)). rewrite firstn_length in *. lia.
Qed.
Lemma cnt_close : forall e l l', Forall2 (fun x y => x <= y + e)%Qc l l' -> forall v, cnt v l' <= cnt (v + e)%Qc l.
Proof.
  intros e l l' F v. unfold cnt. induction F as [|x y l l' H F IH]; simpl; auto.
  destruct (y <=? v)%Qc eqn:E1; destruct (x <=? v + e)%Qc eqn:E2; simpl; try lia.
  exfalso. qb_hyps. qlra.
Qed.
Lemma Forall2_len : forall A B (P : A -> B -> Prop) l l', Forall2 P l l' -> length l = length l'.
Proof. induction 1; simpl; auto. Qed.
Lemma sort_close : forall e l l', Forall2 (fun x y => x <= y + e)%Qc l l' -> forall p, p < length l ->
  (nth p (qsort l) 0 <= nth p (qsort l') 0 + e)%Qc.
Proof.
  intros e l l' F p L. pose proof (Forall2_len _ _ _ _ _ F) as LL.
  apply cnt_sorted_le; [apply qsort_sorted|rewrite qsort_length; auto|].
  rewrite <- (cnt_perm _ l (qsort l) (qsort_perm l)).
  eapply Nat.le_trans; [|apply (cnt_close e l l' F)].
  rewrite (cnt_perm _ l' (qsort l') (qsort_perm l')).
  apply cnt_sorted_ge; [apply qsort_sorted|rewrite qsort_length; lia].
Qed.
Lemma qmedian_le : forall e l l', l <> [] -> Forall2 (fun x y => x <= y + e)%Qc l l' -> (qmedian l <= qmedian l' + e)%Qc.
Proof.
  intros e l l' NE F. pose proof (Forall2_len _ _ _ _ _ F) as LL. unfold qmedian, median_of_sorted.
  rewrite !qsort_length, <- LL. set (n := length l).
  assert (0 < n) by (subst n; destruct l; simpl; [tauto|lia]).
  assert (n / 2 < n) by (apply Nat.div_lt; lia).
  pose proof (sort_close e l l' F (n / 2) ltac:(auto)) as A.
  pose proof (sort_close e l l' F (n / 2 - 1) ltac:(subst n; lia)) as B.
  destruct (Nat.odd n); auto. rewrite !half_eq. qlra.
Qed.
Lemma qmedian_close : forall e (f g : Qc -> Qc) l, l <> [] ->
  (forall x, In x l -> f x <= g x + e /\ g x <= f x + e)%Qc ->
  (qmedian (map f l) <= qmedian (map g l) + e /\ qmedian (map g l) <= qmedian (map f l) + e)%Qc.
Proof.
  intros e f g l NE H. split; apply qmedian_le.
  - intro X. apply map_eq_nil in X. auto.
  - clear NE. induction l as [|x l IH]; simpl; constructor. { apply H; simpl; auto. } apply IH. intros; apply H; simpl; auto.
  - intro X. apply map_eq_nil in X. auto.
  - clear NE. induction l as [|x l IH]; simpl; constructor. { apply H; simpl; auto. } apply IH. intros; apply H; simpl; auto.
Qed.

Definition within (e x y : Qc) : Prop := (x <= y + e /\ y <= x + e)%Qc.

Lemma prod_bound : forall q Q x y k : Qc, (0 <= q -> q <= Q -> x <= y + k -> y <= x + k -> 0 <= k ->
  q * x <= q * y + Q * k /\ q * y <= q * x + Q * k)%Qc.
Proof.
  intros q Q x y k H1 H2 H3 H4 H5.
  pose proof (Qcmul_nonneg q (y + k - x) H1 ltac:(qlra))%Qc as A.
  pose proof (Qcmul_nonneg q (x + k - y) H1 ltac:(qlra))%Qc as B.
  pose proof (Qcmul_nonneg k (Q - q) H5 ltac:(qlra))%Qc as C.
  split; qlra.
Qed.

Section S.
Variables r rd : Qc -> Qc.
Hypothesis HR : rounding r.
Hypothesis HD : rounding rd.

Lemma r_err : forall f x B, rounding f -> (- B <= x -> x <= B -> within (ulp * B + tiny) (f x) x)%Qc.
Proof.
  intros f x B H A C. pose proof (r_close f H x) as E. unfold within, ulp, tiny in *.
  assert (Qcabs x <= B)%Qc by (qmm; qlra).
  set (ax := Qcabs x) in *. clearbody ax.
  assert (f x - x <= Qcabs (f x - x) /\ x - f x <= Qcabs (f x - x))%Qc as [G1 G2] by (clear; split; qmm; qlra).
  set (ad := Qcabs (f x - x)) in *. clearbody ad. set (y := f x) in *. clearbody y.
  split; qlra.
Qed.

Notation U k := (Q2Qc (k # 167772160)) (only parsing). (* k tenths of ulp *)

(** [g x] is the float standing for the number x: x rounded, or x as far as it
    is known, rounded. *)
Variable g : Qc -> Qc.
Hypothesis GF : forall x, r (g x) = g x.
Hypothesis GM : forall x y, (x <= y)%Qc -> (g x <= g y)%Qc.

Definition unit_range (w : list Qc) : Prop := forall x, In x w -> (0 <= x /\ x <= 1)%Qc /\ within (U 101 * Q2Qc (1 # 10)) (g x) x.

Lemma nth_map0 : forall w p, p < length w -> nth p (map g w) 0%Qc = g (nth p w 0%Qc).
Proof. intros. rewrite (nth_indep _ 0%Qc (g 0%Qc)) by (rewrite map_length; auto). apply map_nth. Qed.

Lemma centre_close : forall upper w, ordered upper w -> unit_range w -> w <> [] ->
  within (U 31) (centre r (map g w)) (qmedian w).
Proof.
  intros upper w H UR NE. rewrite (qmedian_ordered upper) by auto. unfold centre, median_of_sorted.
  rewrite map_length. set (n := length w).
  assert (0 < n) by (subst n; destruct w; simpl; [tauto|lia]).
  assert (n / 2 < n) by (apply Nat.div_lt; lia).
  assert (NTH : forall p, p < n -> exists a, nth p (map g w) 0%Qc = g a /\ nth p w 0%Qc = a /\ ((0 <= a /\ a <= 1)%Qc /\ within (U 101 * Q2Qc (1 # 10)) (g a) a)).
  { intros p Lp. exists (nth p w 0%Qc). split; [apply nth_map0; auto|]. split; auto. apply UR. apply nth_In; auto. }
  destruct (NTH (n / 2) ltac:(auto)) as (a & -> & -> & Ra).
  destruct (NTH (n / 2 - 1) ltac:(lia)) as (b & -> & -> & Rb).
  destruct Ra as [[A0 A1] [E1 E2]]. destruct Rb as [[B0 B1] [E3 E4]].
  destruct (Nat.odd n).
  - unfold within. set (ra := g a) in *. clearbody ra. split; qlra.
  - set (ra := g a) in *. set (rb := g b) in *. clearbody ra rb.
    assert (L1 : (- Q2Qc (202 # 100) <= rb + ra)%Qc) by qlra.
    assert (L2 : (rb + ra <= Q2Qc (202 # 100))%Qc) by qlra.
    destruct (r_err r (rb + ra) _ HR L1 L2) as [E5 E6]. unfold ulp, tiny in *.
    set (s := r (rb + ra)%Qc) in *. clearbody s. rewrite !half_eq.
    assert (L3 : (- Q2Qc (102 # 100) <= s * Q2Qc (1 # 2))%Qc) by qlra.
    assert (L4 : (s * Q2Qc (1 # 2) <= Q2Qc (102 # 100))%Qc) by qlra.
    destruct (r_err r _ _ HR L3 L4) as [E7 E8]. unfold ulp, tiny, within in *.
    set (h := r (s * Q2Qc (1 # 2))%Qc) in *. clearbody h. split; qlra.
Qed.

Lemma mad_range : forall w, unit_range w -> w <> [] -> (0 <= qmedian w /\ qmedian w <= 1 /\ 0 <= mad w /\ mad w <= 1)%Qc.
Proof.
  intros w UR NE. destruct (median_in_range w 0%Qc 1%Qc NE ltac:(intros; apply UR; auto)) as [A B]. split; auto. split; auto.
  apply median_in_range. { intro X. apply map_eq_nil in X. auto. }
  intros y I. apply in_map_iff in I. destruct I as (x & <- & I). destruct (UR x I) as [[C D] _].
  set (m := qmedian w) in *. clearbody m. split; qmm; qlra.
Qed.

Lemma mad32_close : forall upper w odd, ordered upper w -> unit_range w -> w <> [] ->
  within (U 90) (finish r rd odd (qmedian (map (rdev r (centre r (map g w))) (map g w)))) (mad w).
Proof.
  intros upper w odd H UR NE. destruct (mad_range w UR NE) as (M0 & M1 & D0 & D1).
  destruct (centre_close upper w H UR NE) as [C1 C2]. unfold mad in *. rewrite map_map.
  set (c := centre r (map g w)) in *. set (m := qmedian w) in *. clearbody c m.
  destruct (qmedian_close (U 52) (fun x => rdev r c (g x)) (fun x => Qcabs (x - m)) w NE) as [E1 E2].
  { intros x I. destruct (UR x I) as [[X0 X1] [F1 F2]].
    unfold rdev. set (fx := g x) in *. clearbody fx.
    assert (L1 : (- Q2Qc (101 # 100) <= fx - c)%Qc) by qlra.
    assert (L2 : (fx - c <= Q2Qc (101 # 100))%Qc) by qlra.
    destruct (r_err r (fx - c) _ HR L1 L2) as [G1 G2]. unfold ulp, tiny in *.
    set (y := r (fx - c)%Qc) in *. clearbody y.
    assert (y <= x - m + U 52 /\ x - m <= y + U 52)%Qc as [K1 K2] by (split; qlra).
    clear - K1 K2. split; qmm; qlra. }
  set (M := qmedian (map (fun x => rdev r c (g x)) w)) in *. clearbody M.
  set (d := qmedian (map (fun x => Qcabs (x - m)) w)) in *. clearbody d.
  unfold finish. destruct odd.
  - assert (L1 : (- Q2Qc (101 # 100) <= M)%Qc) by qlra.
    assert (L2 : (M <= Q2Qc (101 # 100))%Qc) by qlra.
    destruct (r_err r M _ HR L1 L2) as [G1 G2]. unfold ulp, tiny, within in *.
    set (y := r M) in *. clearbody y. split; qlra.
  - assert (L1 : (- Q2Qc (202 # 100) <= Q2Qc 2 * M)%Qc) by qlra.
    assert (L2 : (Q2Qc 2 * M <= Q2Qc (202 # 100))%Qc) by qlra.
    destruct (r_err rd _ _ HD L1 L2) as [G1 G2]. unfold ulp, tiny in *.
    set (y := rd (Q2Qc 2 * M)%Qc) in *. clearbody y. rewrite half_eq.
    assert (L3 : (- Q2Qc (102 # 100) <= y * Q2Qc (1 # 2))%Qc) by qlra.
    assert (L4 : (y * Q2Qc (1 # 2) <= Q2Qc (102 # 100))%Qc) by qlra.
    destruct (r_err rd _ _ HD L3 L4) as [G3 G4]. unfold ulp, tiny in *.
    set (z := rd (y * Q2Qc (1 # 2))%Qc) in *. clearbody z.
    assert (L5 : (- Q2Qc (103 # 100) <= z)%Qc) by qlra.
    assert (L6 : (z <= Q2Qc (103 # 100))%Qc) by qlra.
    destruct (r_err r _ _ HR L5 L6) as [G5 G6]. unfold ulp, tiny, within in *.
    set (t := r z) in *. clearbody t. split; qlra.
Qed.

Variable cst : Qc.
Hypothesis CST : (Q2Qc (67 # 100) <= cst /\ cst <= Q2Qc (68 # 100))%Qc.

Lemma ratio_range : forall d : Qc, (0 <= d -> d <= 1 -> 0 <= d / cst /\ d / cst <= Q2Qc (150 # 100))%Qc.
Proof.
  intros d A B. destruct CST as [C D]. assert (P : (0 < cst)%Qc) by qlra.
  split; [apply Qcdiv_nonneg; auto|]. apply Qcdiv_le_iff; auto. qlra.
Qed.

Lemma sigma_close : forall m' m, (0 <= m -> m <= 1 -> within (U 90) m' m ->
  within (U 170) (r (m' / r cst)) (m / cst))%Qc.
Proof.
  intros m' m M0 M1 [E1 E2]. destruct CST as [C D]. assert (P : (0 < cst)%Qc) by qlra.
  assert (L1 : (- Q2Qc (68 # 100) <= cst)%Qc) by qlra.
  destruct (r_err r cst _ HR L1 D) as [F1 F2]. unfold ulp, tiny in *.
  set (c' := r cst) in *. clearbody c'.
  assert (P' : (0 < c')%Qc) by qlra.
  destruct (ratio_range m M0 M1) as [Q0 Q1].
  assert (QM : (m / cst * cst = m)%Qc) by (field; intro X; rewrite X in P; discriminate).
  set (q := (m / cst)%Qc) in *. clearbody q.
  destruct (prod_bound q (Q2Qc (150 # 100)) c' cst (U 7) Q0 Q1 ltac:(qlra) ltac:(qlra) ltac:(qlra)) as [G1 G2].
  assert (H1 : (m' / c' <= q + U 152)%Qc) by (apply Qcdiv_le_iff; auto; qlra).
  assert (H2 : (q - U 152 <= m' / c')%Qc) by (apply Qcle_div_iff; auto; qlra).
  set (q' := (m' / c')%Qc) in *. clearbody q'.
  assert (L3 : (- Q2Qc (151 # 100) <= q')%Qc) by qlra.
  assert (L4 : (q' <= Q2Qc (151 # 100))%Qc) by qlra.
  destruct (r_err r q' _ HR L3 L4) as [K1 K2]. unfold ulp, tiny, within in *.
  set (y := r q') in *. clearbody y. split; qlra.
Qed.

(** * The comparison with the threshold *)
Lemma compare_close : forall D S' S dx thr delta : Qc,
  (0 <= thr -> within delta dx D -> within delta S' S -> 0 < S' -> D <= 1 -> S <= Q2Qc (150 # 100) ->
   0 <= delta -> delta <= Q2Qc (110 # 100) ->
   (D + (thr + 1) * (delta + U 40) < thr * S -> r (dx / S') <= r thr) /\
   (thr * S + (thr + 1) * (delta + U 40) < D -> r thr < r (dx / S')))%Qc.
Proof.
  intros D S' S dx thr delta T [D1 D2] [S1 S2] P DB SB E0 E1.
  pose proof (Qcmul_nonneg thr (S' + delta - S) T ltac:(qlra))%Qc as A1.
  pose proof (Qcmul_nonneg thr (S + delta - S') T ltac:(qlra))%Qc as A2.
  pose proof (Qcmul_nonneg thr delta T E0)%Qc as A3.
  pose proof (Qcmul_nonneg thr (Q2Qc (260 # 100) - S') T ltac:(qlra))%Qc as A4.
  split; intros H.
  - apply (r_mono r HR). apply Qcdiv_le_iff; auto. qlra.
  - assert (QS : (dx / S' * S' = dx)%Qc) by (field; intro X; rewrite X in P; discriminate).
    assert (Q0 : (0 <= dx / S')%Qc).
    { apply Qcle_div_iff; auto.
      assert (0 <= thr * S')%Qc by (apply Qcmul_nonneg; auto; qlra). qlra. }
    set (q := (dx / S')%Qc) in *. clearbody q.
    destruct (r_err r q q HR ltac:(qlra) ltac:(qlra)) as [_ R1]. destruct (r_err r thr thr HR ltac:(qlra) ltac:(qlra)) as [R2 _].
    assert (X1 : (q - ulp * q - tiny <= r q)%Qc).
    { unfold ulp, tiny in *. set (y := r q) in *. clearbody y. clear - R1 Q0. qlra. }
    assert (X2 : (r thr <= thr + ulp * thr + tiny)%Qc).
    { unfold ulp, tiny in *. set (y := r thr) in *. clearbody y. clear - R2 T. qlra. }
    clear R1 R2. eapply Qcle_lt_trans; [exact X2|]. eapply Qclt_le_trans; [|exact X1]. clear X1 X2.
    destruct (Qclt_le_dec' (thr + ulp * thr + tiny) (q - ulp * q - tiny))%Qc as [G|G]; auto. exfalso.
    pose proof (Qcmul_nonneg S' (thr + ulp * thr + tiny - (q - ulp * q - tiny)) ltac:(qlra) ltac:(qlra))%Qc as K.
    unfold ulp, tiny in *.
    assert (K' : (0 <= (thr * S') * (1 + Q2Qc (1 # 16777216)) + Q2Qc (2 # 281474976710656) * S' - (q * S') * (1 - Q2Qc (1 # 16777216)))%Qc).
    { clear - K. qlra. }
    rewrite QS in K'.
    clear K G QS. qlra.
Qed.

Lemma check32_close : forall upper c c' s s' v thr ec delta,
  (0 <= thr -> 0 <= v -> v <= 1 -> within (U 101 * Q2Qc (1 # 10)) (g v) v -> 0 <= c -> c <= 1 -> 0 <= s -> s <= Q2Qc (150 # 100) ->
   within ec c' c -> within delta s' s -> 0 <= ec -> ec + U 40 <= delta -> delta <= Q2Qc (110 # 100) ->
   (distance upper c v + (thr + 1) * (delta + U 40) < thr * Qcmax s (Q2Qc (1 # 100000000)) ->
      check_anomaly_status32 r c' s' (g v) (r thr) upper = false) /\
   (thr * Qcmax s (Q2Qc (1 # 100000000)) + (thr + 1) * (delta + U 40) < distance upper c v ->
      check_anomaly_status32 r c' s' (g v) (r thr) upper = true))%Qc.
Proof.
  intros upper c c' s s' v thr ec delta T V0 V1 [V2 V3] C0 C1 S0 S1 [EC1 EC2] [ES1 ES2] EC0 ED DB.
  unfold check_anomaly_status32.
  assert (EP : within (U 1) (r kernel_eps) (Q2Qc (1 # 100000000)) /\ (0 < r kernel_eps)%Qc).
  { assert (L1 : (- Q2Qc (1 # 100000000) <= kernel_eps)%Qc) by (unfold kernel_eps; qlra).
    assert (L2 : (kernel_eps <= Q2Qc (1 # 100000000))%Qc) by (unfold kernel_eps; qlra).
    destruct (r_err r _ _ HR L1 L2) as [A B]. unfold kernel_eps, ulp, tiny, within in *.
    set (y := r (Q2Qc (1 # 100000000))) in *. clearbody y. split; [split|]; qlra. }
  set (eps' := r kernel_eps) in *. clearbody eps'. destruct EP as [[EP1 EP2] EP0].
  set (S' := if (s' <? eps')%Qc then eps' else s').
  assert (SS : within delta S' (Qcmax s (Q2Qc (1 # 100000000))) /\ (0 < S')%Qc /\ (Qcmax s (Q2Qc (1 # 100000000)) <= Q2Qc (150 # 100))%Qc).
  { unfold S', within, Qcmax. qb_case; qb_hyps; (split; [split|split]); qlra. }
  destruct SS as (SS1 & SS2 & SS3). clearbody S'. set (Se := Qcmax s (Q2Qc (1 # 100000000))) in *. clearbody Se.
  set (v' := g v) in *. clearbody v'.
  assert (DD : within delta (r (if upper then v' - c' else c' - v')%Qc) (distance upper c v)).
  { unfold distance. destruct upper.
    - assert (L1 : (- Q2Qc (220 # 100) <= v' - c')%Qc) by qlra.
      assert (L2 : (v' - c' <= Q2Qc (220 # 100))%Qc) by qlra.
      destruct (r_err r _ _ HR L1 L2) as [A B]. unfold ulp, tiny, within in *.
      set (y := r (v' - c')%Qc) in *. clearbody y. split; qlra.
    - assert (L1 : (- Q2Qc (220 # 100) <= c' - v')%Qc) by qlra.
      assert (L2 : (c' - v' <= Q2Qc (220 # 100))%Qc) by qlra.
      destruct (r_err r _ _ HR L1 L2) as [A B]. unfold ulp, tiny, within in *.
      set (y := r (c' - v')%Qc) in *. clearbody y. split; qlra. }
  assert (DB1 : (distance upper c v <= 1)%Qc) by (unfold distance; destruct upper; qlra).
  destruct (compare_close _ S' Se _ thr delta T DD SS1 SS2 DB1 SS3 ltac:(qlra) DB) as [G1 G2].
  split; intros H.
  - apply Qcltb_ge. auto.
  - apply Qcltb_lt. auto.
Qed.

(** The first value of an ordered list, when it does not exceed the median. *)
Lemma head_centre : forall upper w v, ordered upper w -> nth_error w 0 = Some v ->
  (distance upper (qmedian w) v <= 0)%Qc ->
  (if upper then g v <= centre r (map g w) else centre r (map g w) <= g v)%Qc.
Proof.
  intros upper w v H Ev D. rewrite (qmedian_ordered upper) in D by auto. unfold centre, median_of_sorted in *.
  rewrite map_length. set (n := length w) in *.
  pose proof (nth_error_lt _ _ _ _ Ev) as L. fold n in L.
  assert (n / 2 < n) by (apply Nat.div_lt; lia).
  assert (NTH : forall p, p < n -> nth p (map g w) 0%Qc = g (nth p w 0%Qc) /\
     (if upper then nth p w 0 <= v else v <= nth p w 0)%Qc).
  { intros p Lp. split; [apply nth_map0; auto|].
    apply (ordered_nth upper w 0 p v _ H ltac:(lia) Ev). apply nth_error_of_nth; auto. }
  destruct (NTH (n / 2) ltac:(auto)) as (-> & A). destruct (NTH (n / 2 - 1) ltac:(lia)) as (-> & B).
  set (a := nth (n / 2) w 0%Qc) in *. set (b := nth (n / 2 - 1) w 0%Qc) in *. clearbody a b.
  unfold distance in D. destruct (Nat.odd n).
  - destruct upper; apply GM; qlra.
  - rewrite half_eq in D.
    assert (b = v /\ a = v) as [-> ->] by (destruct upper; split; qlra).
    destruct (between r HR (g v) (g v) (GF v) (GF v) (Qcle_refl _)) as [X Y].
    destruct upper; auto.
Qed.
Lemma check32_head : forall (upper : bool) (c' s' v thr : Qc), (0 <= thr)%Qc ->
  (if upper then g v <= c' else c' <= g v)%Qc -> check_anomaly_status32 r c' s' (g v) (r thr) upper = false.
Proof.
  intros upper c' s' v thr T H. unfold check_anomaly_status32. apply Qcltb_ge.
  assert (EP : (0 < r kernel_eps)%Qc).
  { assert (L1 : (- Q2Qc (1 # 100000000) <= kernel_eps)%Qc) by (unfold kernel_eps; qlra).
    assert (L2 : (kernel_eps <= Q2Qc (1 # 100000000))%Qc) by (unfold kernel_eps; qlra).
    destruct (r_err r _ _ HR L1 L2) as [A B]. unfold kernel_eps, ulp, tiny, within in *.
    set (y := r (Q2Qc (1 # 100000000))) in *. clearbody y. qlra. }
  set (eps' := r kernel_eps) in *. clearbody eps'.
  set (S' := if (s' <? eps')%Qc then eps' else s').
  assert (P : (0 < S')%Qc) by (unfold S'; qb_case; qb_hyps; qlra). clearbody S'.
  assert (D : (r (if upper then g v - c' else c' - g v) <= 0)%Qc).
  { rewrite <- (r_zero r HR). apply (r_mono r HR). destruct upper; qlra. }
  set (d := r (if upper then g v - c' else c' - g v)%Qc) in *. clearbody d.
  apply (r_mono r HR). eapply Qcle_trans; [|exact T]. apply Qcdiv_le_iff; [exact P|]. qlra.
Qed.

Variables (std mean32 std32 : list Qc -> Qc) (tau : Qc).
Hypothesis TAU : (0 <= tau /\ tau <= 1)%Qc.

(** np.mean and np.std of the floats are within tau of the mean and the
    standard deviation of the values. *)
Definition accurate (w : list Qc) : Prop :=
  within tau (mean32 (map g w)) (qmean w) /\ within tau (std32 (map g w)) (std w) /\ (0 <= std w /\ std w <= 1)%Qc.

Lemma map_skipn' : forall A B (f : A -> B) l k, map f (skipn k l) = skipn k (map f l).
Proof. intros A B f. induction l as [|x l IH]; intros [|k]; simpl; auto. Qed.

Lemma test32_close : forall upper vals k thr, ordered upper vals -> unit_range vals -> k < length vals ->
  (0 <= thr)%Qc -> accurate (skipn k vals) ->
  exists b, tail_test32 r rd cst mean32 std32 (map g vals) upper k (r thr) = Ok b /\
    (clearly_significant cst std tau upper vals k thr -> b = true) /\
    (clearly_insignificant cst std tau upper vals k thr -> b = false).
Proof.
  intros upper vals k thr H UR L T (AC1 & AC2 & AC3 & AC4).
  set (w := skipn k vals) in *.
  assert (NE : w <> []) by (intro X; apply (f_equal (@length Qc)) in X; unfold w in X; rewrite skipn_length in X; simpl in X; lia).
  assert (Hw : ordered upper w) by (apply ordered_skipn; auto).
  assert (Uw : unit_range w).
  { intros x I. apply UR. rewrite <- (firstn_skipn k vals). apply in_or_app; auto. }
  assert (Lm : k < length (map g vals)) by (rewrite map_length; auto).
  assert (SK : skipn k (map g vals) = map g w) by (symmetry; apply map_skipn').
  unfold tail_test32. rewrite sorted_median32_spec by auto. cbn [bind]. rewrite SK.
  pose proof (mad32_spec r rd HR upper (map g vals) k (ordered_map g upper vals GM H) (floats_map r g vals GF) Lm) as MS.
  cbv zeta in MS. rewrite SK in MS. rewrite MS. clear MS. cbn [bind].
  rewrite get_map. destruct (get_in _ vals k L) as (v & -> & Ev). cbn [bind].
  rewrite slice_to_end, SK.
  set (m32 := finish r rd (Nat.odd (length (map g w))) (qmedian (map (rdev r (centre r (map g w))) (map g w)))).
  destruct (mad_range w Uw NE) as (M0 & M1 & D0 & D1).
  destruct (ratio_range (mad w) D0 D1) as [Q0 Q1].
  pose proof (centre_close upper w Hw Uw NE) as CC.
  pose proof (mad32_close upper w (Nat.odd (length (map g w))) Hw Uw NE) as MC. fold m32 in MC.
  pose proof (sigma_close m32 (mad w) D0 D1 MC) as SC. clearbody m32.
  destruct (UR v (nth_error_In _ _ Ev)) as [[V0 V1] VW].
  destruct (qmean_bounds w 0%Qc 1%Qc NE ltac:(intros; apply Uw; auto)) as [Q2 Q3].
  destruct TAU as [T0 T1].
  assert (SC' : within (U 170 + tau) (r (m32 / r cst)%Qc) (mad w / cst)%Qc) by (destruct SC; split; qlra).
  assert (AC2' : within (U 170 + tau) (std32 (map g w)) (std w)) by (destruct AC2; split; qlra).
  destruct (check32_close upper (qmedian w) (centre r (map g w)) (mad w / cst)%Qc (r (m32 / r cst)%Qc) v thr (U 31) (U 170 + tau)
    T V0 V1 VW M0 M1 Q0 Q1 CC SC' ltac:(qlra) ltac:(qlra) ltac:(qlra))%Qc as [K1 K2].
  destruct (check32_close upper (qmean w) (mean32 (map g w)) (std w) (std32 (map g w)) v thr tau (U 170 + tau)
    T V0 V1 VW Q2 Q3 AC3 ltac:(qlra) AC1 AC2' T0 ltac:(qlra) ltac:(qlra))%Qc as [K3 K4].
  assert (BD : ((thr + 1) * (U 170 + tau + U 40) <= band tau thr)%Qc).
  { unfold band. pose proof (Qcmul_nonneg (thr + 1) (U 100) ltac:(qlra) ltac:(qlra))%Qc. qlra. }
  eexists. split; [reflexivity|]. split.
  - intros (v1 & Ev1 & C). rewrite Ev in Ev1. inversion Ev1; subst v1. fold w in C. apply orb_true_iff.
    unfold clearly_outlying in C. destruct C as [C|C]; [left; apply K2|right; apply K4];
      (eapply Qcle_lt_trans; [|exact C]); qlra.
  - intros (v1 & Ev1 & C1 & C2). rewrite Ev in Ev1. inversion Ev1; subst v1. fold w in C1, C2. apply orb_false_iff.
    unfold clearly_inlying in *. split.
    + destruct C1 as [C1|C1].
      * apply check32_head; auto. apply head_centre; auto.
        unfold w. rewrite nth_error_skipn, Nat.add_0_r. auto.
      * apply K1. eapply Qcle_lt_trans; [|eassumption]; qlra.
    + apply K3. eapply Qcle_lt_trans; [|eassumption]; qlra.
Qed.
End S.
