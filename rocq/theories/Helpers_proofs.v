(** Proofs about the numeric helpers (C23-C27, C63). *)
From Coq Require Import List Arith ZArith Lia Bool Sorted.
From Verif Require Import Base Num Sorting Kernel_model Kernel_proofs FillUp_model FillUp_spec FillUp_proofs FillUp_proofs4
  Helpers_model Helpers_spec.
Import ListNotations.
Open Scope nat_scope.

(** * average_filter *)
Lemma cumsum_length : forall l acc, length (cumsum acc l) = length l.
Proof. induction l; simpl; auto. Qed.
Lemma cumsum_nth : forall l acc i, i < length l ->
  nth_error (cumsum acc l) i = Some (acc + qsum (firstn (S i) l))%Qc.
Proof.
  induction l as [|x t IH]; intros acc i H; simpl in H; [lia|].
  destruct i as [|i].
  - simpl. f_equal. ring.
  - cbn [cumsum nth_error]. rewrite IH by lia. f_equal. cbn [firstn qsum]. ring.
Qed.
Lemma zip_with_nth : forall A B C (f : A -> B -> C) a b k x y,
  nth_error a k = Some x -> nth_error b k = Some y -> nth_error (zip_with f a b) k = Some (f x y).
Proof.
  induction a as [|u s IH]; intros b k x y Hx Hy; destruct k; simpl in *; try discriminate;
  destruct b; simpl in *; try discriminate.
  - inversion Hx; inversion Hy; auto.
  - apply IH; auto.
Qed.
Lemma zip_with_length : forall A B C (f : A -> B -> C) a b, length (zip_with f a b) = Nat.min (length a) (length b).
Proof. induction a; destruct b; simpl; auto. Qed.

Lemma qsum_slice : forall l a b, a <= b -> (qsum (slice l a b) = qsum (firstn b l) - qsum (firstn a l))%Qc.
Proof.
  intros l a b H. assert (E : firstn b l = firstn a l ++ slice l a b).
  { unfold slice. rewrite <- (firstn_skipn a l) at 1. rewrite firstn_app, firstn_firstn, firstn_length.
    replace (Nat.min b a) with a by lia.
    destruct (Nat.le_gt_cases a (length l)).
    - replace (Nat.min a (length l)) with a by lia. auto.
    - rewrite (skipn_all2 l) by lia. rewrite !firstn_nil. auto. }
  rewrite E, qsum_app. ring.
Qed.

Definition avg_upd (values : list Qc) (fill : bool) (fill_n i : nat) (r v : Qc) : Qc :=
  if fill then ((r + ((r - v) / qn i) * (qn fill_n - qn i - 1)) / qn fill_n)%Qc else (r / qn (i + 1))%Qc.

Lemma average_loop_spec : forall values fill fill_n m s out, s + m <= length values \/ m = 0 -> length out = length values ->
  exists o, average_loop values out fill fill_n (seq s m) = Ok o /\ length o = length out /\
   (forall i, (i < s \/ s + m <= i) -> nth_error o i = nth_error out i) /\
   (forall i r v, s <= i < s + m -> nth_error out i = Some r -> nth_error values i = Some v ->
      nth_error o i = Some (avg_upd values fill fill_n i r v)).
Proof.
  intros values fill fill_n. induction m as [|m IH]; intros s out L E.
  - exists out. simpl. repeat split; auto. intros; lia.
  - cbn [seq average_loop]. destruct (get_in _ out s ltac:(lia)) as (r & -> & Er). rewrite bind_ok.
    destruct (get_in _ values s ltac:(lia)) as (v & -> & Ev). rewrite bind_ok. cbv zeta.
    fold (avg_upd values fill fill_n s r v).
    destruct (IH (S s) (upd out s (avg_upd values fill fill_n s r v))) as (o & EO & LO & H1 & H2); [lia|rewrite upd_length; auto|].
    exists o. split; auto. rewrite upd_length in LO. split; auto. split.
    + intros i Hi. rewrite H1 by lia. apply nth_error_upd_other. lia.
    + intros i r' v' Hi Hr Hv. destruct (Nat.eq_dec i s) as [->|NE].
      * rewrite H1 by lia. rewrite nth_error_upd_same by lia. congruence.
      * apply H2; auto; [lia|]. rewrite nth_error_upd_other; auto.
Qed.

Lemma average_filter_spec : forall values n fill, 0 < n ->
  exists o, average_filter values n fill = Ok o /\ length o = length values /\
    forall i, i < length values ->
     nth_error o i = Some (if fill then padded_mean values n i else trailing_mean values n i).
Proof.
  intros values n fill HN. unfold average_filter. cbv zeta.
  set (n' := if length values <=? n then length values else n).
  assert (N' : n' = Nat.min n (length values)).
  { unfold n'. destruct (length values <=? n) eqn:E; rewrite ?Nat.leb_le, ?Nat.leb_gt in E; lia. }
  set (c := cumsum 0%Qc values). assert (LC : length c = length values) by apply cumsum_length.
  set (out := firstn n' c ++ zip_with (fun a b => ((a - b) / qn n')%Qc) (skipn n' c) c).
  assert (LO : length out = length values).
  { unfold out. rewrite app_length, firstn_length, zip_with_length, skipn_length. lia. }
  assert (CN : forall i, i < length values -> nth_error c i = Some (qsum (firstn (S i) values))).
  { intros i Hi. unfold c. rewrite cumsum_nth by auto. f_equal. ring. }
  assert (O1 : forall i, i < n' -> nth_error out i = Some (qsum (firstn (S i) values))).
  { intros i Hi. unfold out. rewrite nth_error_app1 by (rewrite firstn_length; lia).
    rewrite nth_error_firstn. assert (X : (i <? n') = true) by (apply Nat.ltb_lt; auto). rewrite X. apply CN. lia. }
  assert (O2 : forall i, n' <= i < length values ->
     nth_error out i = Some ((qsum (firstn (S i) values) - qsum (firstn (S (i - n')) values)) / qn n')%Qc).
  { intros i Hi. unfold out. rewrite nth_error_app2 by (rewrite firstn_length; lia). rewrite firstn_length.
    replace (i - Nat.min n' (length c)) with (i - n') by lia.
    apply (zip_with_nth _ _ _ (fun a b => ((a - b) / qn n')%Qc)).
    - rewrite nth_error_skipn. rewrite CN by lia. repeat f_equal. lia.
    - apply CN. lia. }
  destruct (average_loop_spec values fill n (n' - 1) 1 out) as (o & EO & L2 & H1 & H2); auto.
  { lia. }
  exists o. split; auto. split; [lia|]. intros i Hi.
  assert (SL : forall k, k <= n -> n <= i \/ k = i + 1 -> k = Nat.min n (i + 1) ->
     qmean (slice values (i + 1 - n) (i + 1)) = ((qsum (firstn (S i) values) - qsum (firstn (i + 1 - n) values)) / qn k)%Qc).
  { intros k K1 K2 K3. unfold qmean. rewrite slice_length.
    replace (Nat.min (i + 1 - (i + 1 - n)) (length values - (i + 1 - n))) with k by lia.
    rewrite qsum_slice by lia. replace (i + 1) with (S i) by lia. reflexivity. }
  destruct (nth_error_ex _ values i Hi) as (v & Ev).
  assert (FS : (qsum (firstn (S i) values) = qsum (firstn i values) + v)%Qc).
  { rewrite <- (firstn_skipn i (firstn (S i) values)), qsum_app, firstn_firstn. replace (Nat.min i (S i)) with i by lia.
    f_equal. assert (X : skipn i (firstn (S i) values) = [v]).
    { apply nth_error_ext. intros k. rewrite nth_error_skipn, nth_error_firstn.
      destruct k as [|k].
      - rewrite Nat.add_0_r. assert (Y : (i <? S i) = true) by (apply Nat.ltb_lt; lia). rewrite Y. auto.
      - assert (Y : (i + S k <? S i) = false) by (apply Nat.ltb_ge; lia). rewrite Y. destruct k; auto. }
    rewrite X. simpl. ring. }
  destruct (Nat.le_gt_cases n' i) as [G|G].
  - (* full windows *)
    assert (n' = n) by lia. rewrite H1 by lia. rewrite O2 by lia. f_equal.
    assert (T : trailing_mean values n i = ((qsum (firstn (S i) values) - qsum (firstn (S (i - n')) values)) / qn n')%Qc).
    { unfold trailing_mean. rewrite (SL n) by lia. repeat f_equal; lia. }
    destruct fill; [|auto]. unfold padded_mean.
    destruct (i =? 0) eqn:E0; [apply Nat.eqb_eq in E0; lia|].
    assert (X : (n <=? i) = true) by (apply Nat.leb_le; lia). rewrite X. auto.
  - destruct (Nat.eq_dec i 0) as [->|NZ].
    + rewrite H1 by lia. rewrite O1 by lia. f_equal. destruct fill.
      * unfold padded_mean. simpl. destruct values; [simpl in Hi; lia|]. simpl. ring.
      * unfold trailing_mean. rewrite (SL 1) by lia. replace (0 + 1 - n) with 0 by lia. rewrite (firstn_O values).
        cbn [qsum]. change (qn 1) with 1%Qc. field. discriminate.
    + rewrite (H2 i (qsum (firstn (S i) values)) v) by (auto; try lia; apply O1; auto). f_equal.
      unfold avg_upd. destruct fill.
      * unfold padded_mean. destruct (i =? 0) eqn:E0; [apply Nat.eqb_eq in E0; lia|].
        assert (X : (n <=? i) = false) by (apply Nat.leb_gt; lia). rewrite X.
        unfold qmean. rewrite firstn_length. replace (Nat.min i (length values)) with i by lia.
        replace (i + 1) with (S i) by lia. rewrite FS.
        replace (n - 1 - i) with (n - (S i)) by lia. rewrite qn_sub by lia. rewrite qn_S.
        field. split; apply qn_neq0; lia.
      * unfold trailing_mean. rewrite (SL (i + 1)) by lia. replace (i + 1 - n) with 0 by lia. rewrite (firstn_O values).
        cbn [qsum]. field. apply qn_neq0; lia.
Qed.

(** * interp *)
Lemma known_in : forall values k p v, In (p, v) (known k values) <-> exists q, p = k + q /\ nth_error values q = Some (Some v).
Proof.
  induction values as [|[x|] t IH]; intros k p v; simpl.
  - split; [intros []|]. intros (q & _ & E). destruct q; discriminate.
  - split.
    + intros [E|I]; [inversion E; subst; exists 0; split; auto; lia|].
      apply IH in I. destruct I as (q & -> & E). exists (S q). split; auto. lia.
    + intros (q & -> & E). destruct q as [|q]; [left; inversion E; f_equal; lia|].
      right. apply IH. exists q. split; auto. lia.
  - split.
    + intros I. apply IH in I. destruct I as (q & -> & E). exists (S q). split; auto. lia.
    + intros (q & -> & E). destruct q as [|q]; [discriminate|]. apply IH. exists q. split; auto. lia.
Qed.
Lemma known_incr : forall values k, incr (map fst (known k values)) /\ forall p, In p (map fst (known k values)) -> k <= p.
Proof.
  induction values as [|[x|] t IH]; intros k; simpl.
  - split; [constructor|intros ? []].
  - destruct (IH (S k)) as [H1 H2]. split.
    + constructor; auto. apply Forall_forall. intros p Hp. apply H2 in Hp. lia.
    + intros p [<-|Hp]; auto. apply H2 in Hp. lia.
  - destruct (IH (S k)) as [H1 H2]. split; auto. intros p Hp. apply H2 in Hp. lia.
Qed.

Lemma interp_at_cases : forall rest a va x, incr (a :: map fst rest) -> a <= x ->
  (exists v, interp_at a va rest x = Some v /\
     (In (x, v) ((a, va) :: rest) \/
      exists p vp q vq, In (p, vp) ((a, va) :: rest) /\ In (q, vq) ((a, va) :: rest) /\ p < x < q /\
        (forall r, In r (a :: map fst rest) -> r <= p \/ q <= r) /\ v = on_line p vp q vq x)) \/
  (interp_at a va rest x = None /\ forall r, In r (a :: map fst rest) -> r < x).
Proof.
  induction rest as [|[b vb] t IH]; intros a va x S0 L; simpl.
  - destruct (x =? a) eqn:E; rewrite ?Nat.eqb_eq, ?Nat.eqb_neq in E.
    + subst. left. exists va. auto.
    + right. split; auto. intros r [<-|[]]. lia.
  - simpl in S0. inversion S0 as [|? ? S1 F]; subst. assert (AB : a < b) by (inversion F; auto).
    replace (x <? a) with false by (symmetry; apply Nat.ltb_ge; auto).
    destruct (x <? b) eqn:E; rewrite ?Nat.ltb_lt, ?Nat.ltb_ge in E.
    + left. eexists. split; [reflexivity|]. destruct (Nat.eq_dec x a) as [->|NE].
      * left. left. f_equal. symmetry. apply on_line_left.
      * right. exists a, va, b, vb. repeat split; auto; try lia.
        intros r [<-|[<-|Hr]]; auto. inversion S1 as [|? ? _ F1]; subst. rewrite Forall_forall in F1.
        apply F1 in Hr. lia.
    + destruct (IH b vb x S1 E) as [(v & EV & C)|[EV C]].
      * left. exists v. split; auto. destruct C as [C|(p & vp & q & vq & I1 & I2 & I3 & I4 & I5)]; [left; right; auto|].
        right. exists p, vp, q, vq. split; [right; auto|]. split; [right; auto|]. split; auto. split; auto.
        intros r [<-|Hr]; auto. assert (a < p); [|lia]. rewrite Forall_forall in F. apply F.
        change (b :: map fst t) with (map fst ((b, vb) :: t)). apply in_map_iff. exists (p, vp). auto.
      * right. split; auto. intros r [<-|Hr]; auto. lia.
Qed.

Lemma last_greatest : forall rest a (va : Qc), incr (a :: map fst rest) ->
  In (last rest (a, va)) ((a, va) :: rest) /\ forall r, In r (a :: map fst rest) -> r <= fst (last rest (a, va)).
Proof.
  induction rest as [|[b vb] t IH]; intros a va S0.
  - simpl. split; auto. intros r [<-|[]]. auto.
  - simpl in S0. inversion S0 as [|? ? S1 F]; subst. destruct (IH b vb S1) as [H1 H2].
    assert (E : last ((b, vb) :: t) (a, va) = last t (b, vb)).
    { clear. revert b vb a va. induction t as [|c t IH]; intros; auto. simpl in *. destruct t; auto. }
    rewrite E. split; [right; auto|]. intros r [<-|Hr]; auto.
    assert (a < b) by (inversion F; auto). specialize (H2 b (or_introl eq_refl)). lia.
Qed.

Lemma interp_spec : forall values, (exists p v, nth_error values p = Some (Some v)) ->
  exists out, interp values = Ok out /\ length out = length values /\
    forall p v, nth_error out p = Some v -> is_interpolant values p v.
Proof.
  intros values (p0 & v0 & E0). unfold interp.
  assert (IK : forall p v, In (p, v) (known 0 values) <-> nth_error values p = Some (Some v)).
  { intros p v. rewrite known_in. split; [intros (q & -> & E); auto|intros E; exists p; auto]. }
  destruct (known_incr values 0) as [KI _].
  destruct (known 0 values) as [|[a va] rest] eqn:EK.
  { exfalso. apply (proj2 (IK p0 v0)) in E0. destruct E0. }
  eexists. split; [reflexivity|]. split; [apply mapi_length|].
  intros p v H. rewrite nth_error_mapi in H.
  destruct (nth_error values p) as [[x|]|] eqn:EP; simpl in H; inversion H; subst.
  - left. auto.
  - simpl in KI.
    assert (KN : forall q z, nth_error values q = Some (Some z) -> In q (a :: map fst rest)).
    { intros q z Hq. apply IK in Hq. change (a :: map fst rest) with (map fst ((a, va) :: rest)).
      apply in_map_iff. exists (q, z). auto. }
    right. unfold np_interp. destruct (p <? a) eqn:EA; rewrite ?Nat.ltb_lt, ?Nat.ltb_ge in EA.
    + right. left. exists a. split; auto. split; [apply IK; left; auto|].
      intros q z Hq Hz. apply KN in Hz. destruct Hz as [<-|Hz]; [lia|].
      inversion KI as [|? ? _ F]; subst. rewrite Forall_forall in F. apply F in Hz. lia.
    + destruct (interp_at_cases rest a va p KI EA) as [(v & -> & C)|[-> C]].
      * destruct C as [C|(q1 & w1 & q2 & w2 & I1 & I2 & I3 & I4 & I5)].
        { apply IK in C. congruence. }
        left. exists q1, q2, w1, w2. split; auto. split; [apply IK; auto|]. split; [apply IK; auto|].
        split; [|exact I5]. intros q z Hq Hz. apply KN in Hz. apply I4 in Hz. lia.
      * right. right. destruct (last_greatest rest a va KI) as [L1 L2].
        exists (fst (last rest (a, va))). set (lst := last rest (a, va)) in *.
        assert (EL : lst = (fst lst, snd lst)) by apply surjective_pairing.
        split; [|split].
        -- apply C. change (a :: map fst rest) with (map fst ((a, va) :: rest)). apply in_map. auto.
        -- apply IK. rewrite <- EL. auto.
        -- intros q z Hq Hz. apply KN in Hz. apply L2 in Hz. lia.
Qed.

Lemma interp_fails : forall values, (forall p v, nth_error values p <> Some (Some v)) -> interp values = Err ValueErr.
Proof.
  intros values H. unfold interp. destruct (known 0 values) as [|[a va] rest] eqn:EK; auto.
  exfalso. assert (I : In (a, va) (known 0 values)) by (rewrite EK; left; auto).
  apply known_in in I. destruct I as (q & -> & E). apply (H q va). auto.
Qed.

Lemma interpolant_bounds : forall values p v lo hi, is_interpolant values p v ->
  (forall q x, nth_error values q = Some (Some x) -> lo <= x /\ x <= hi)%Qc -> (lo <= v /\ v <= hi)%Qc.
Proof.
  intros values p v lo hi H B. destruct H as [H|[(a & b & x & y & L & Hx & Hy & _ & ->)|[(b & _ & H & _)|(a & _ & H & _)]]];
  try (eapply B; eassumption).
  apply B in Hx. apply B in Hy. destruct (ratio_01 (p - a) (b - a)) as [T0 T1]; [lia|lia|].
  apply convex_bounds; auto.
Qed.

(** * normalize *)
Lemma normalize_spec : forall values, values <> [] ->
  exists out mn mx, normalize values = Ok (out, mn, mx) /\ length out = length values /\
    In mn values /\ In mx values /\ (forall x, In x values -> mn <= x /\ x <= mx)%Qc /\
    (mn = mx -> out = values) /\
    (mn <> mx -> forall i x u, nth_error values i = Some x -> nth_error out i = Some u ->
        (0 <= u /\ u <= 1)%Qc /\ (u = 0%Qc <-> x = mn) /\ (u = 1%Qc <-> x = mx) /\
        (forall j y w, nth_error values j = Some y -> nth_error out j = Some w -> (x < y <-> u < w)%Qc)).
Proof.
  intros values NE.
  assert (EN : normalize values = let mn := qmin_list values in let mx := qmax_list values in
    Ok (if (mn =? mx)%Qc then values else map (fun v => (v - mn) / (mx - mn))%Qc values, mn, mx))
    by (destruct values; [congruence|reflexivity]).
  rewrite EN. clear EN.
  set (mn := qmin_list values). set (mx := qmax_list values).
  assert (B : forall x, In x values -> (mn <= x /\ x <= mx)%Qc).
  { intros x Hx. split; [apply qmin_list_le|apply qmax_list_ge]; auto. }
  pose proof (qmin_list_in values NE) as I1. pose proof (qmax_list_in values NE) as I2.
  fold mn in I1. fold mx in I2. cbv zeta. clear NE.
  eexists _, mn, mx. split; [reflexivity|]. destruct (mn =? mx)%Qc eqn:E; qb_hyps.
  - repeat split; auto; try (apply B; auto); try congruence.
  - assert (P : (0 < mx - mn)%Qc).
    { assert (mn <= mx)%Qc by (apply B; auto). destruct (Qclt_le_dec' mn mx); [qlra|]. exfalso. apply E. qlra. }
    assert (PZ : (mx - mn <> 0)%Qc) by (intro Z; rewrite Z in P; discriminate P).
    rewrite map_length. split; auto. split; auto. split; auto. split; auto. split; [congruence|].
    intros _ i x u Hx Hu. rewrite nth_error_map, Hx in Hu. simpl in Hu. inversion Hu; subst u. clear Hu.
    destruct (B x) as [B1 B2]; [eapply nth_error_In; eauto|].
    split; [split|split; [|split]].
    + apply Qcdiv_nonneg; auto. qlra.
    + apply Qcdiv_le_iff; auto. qlra.
    + split.
      * intros X. assert (Y : ((mx - mn) * ((x - mn) / (mx - mn)) = 0)%Qc) by (rewrite X; ring).
        rewrite Qcmul_div in Y by auto. qlra.
      * intros ->. unfold Qcdiv. ring.
    + split.
      * intros X. assert (Y : ((mx - mn) * ((x - mn) / (mx - mn)) = mx - mn)%Qc) by (rewrite X; ring).
        rewrite Qcmul_div in Y by auto. qlra.
      * intros ->. field. auto.
    + intros j y w Hy Hw. rewrite nth_error_map, Hy in Hw. simpl in Hw. inversion Hw; subst w. clear Hw.
      rewrite (Qcdiv_lt_iff (x - mn)%Qc ((y - mn) / (mx - mn))%Qc _ P).
      replace ((y - mn) / (mx - mn) * (mx - mn))%Qc with (y - mn)%Qc by (field; auto). split; intro; qlra.
Qed.
