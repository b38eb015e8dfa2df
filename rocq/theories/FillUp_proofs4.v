From Coq Require Import List Arith ZArith Lia Bool Sorted.
From Verif Require Import Base Num Sorting FillUp_model FillUp_spec FillUp_proofs FillUp_proofs2 FillUp_proofs3.
Import ListNotations.
Open Scope nat_scope.

(** * Straight lines *)
Lemma ratio_01 : forall x n, x <= n -> 0 < n -> (0 <= qn x / qn n /\ qn x / qn n <= 1)%Qc.
Proof.
  intros x n L P. split.
  - apply Qcdiv_nonneg; [apply qn_nonneg|apply qn_pos; auto].
  - apply Qcdiv_le_iff; [apply qn_pos; auto|]. rewrite Qcmult_1_l. apply (proj1 (qn_le _ _)). auto.
Qed.

Lemma convex_bounds : forall va vb t lo hi, (0 <= t)%Qc -> (t <= 1)%Qc ->
  (lo <= va /\ va <= hi)%Qc -> (lo <= vb /\ vb <= hi)%Qc ->
  (lo <= va + (vb - va) * t /\ va + (vb - va) * t <= hi)%Qc.
Proof. intros va vb t lo hi T0 T1 [A1 A2] [B1 B2]. split; qnra. Qed.

Lemma on_line_bounds : forall a va b vb p lo hi, a <= p <= b -> a < b ->
  (lo <= va /\ va <= hi)%Qc -> (lo <= vb /\ vb <= hi)%Qc ->
  (lo <= on_line a va b vb p /\ on_line a va b vb p <= hi)%Qc.
Proof.
  intros. unfold on_line. destruct (ratio_01 (p - a) (b - a)) as [T0 T1]; [lia|lia|].
  apply convex_bounds; auto.
Qed.

Lemma on_line_left : forall a va b vb, on_line a va b vb a = va.
Proof.
  intros. unfold on_line. rewrite Nat.sub_diag, qn_0. unfold Qcdiv.
  rewrite Qcmult_0_l, Qcmult_0_r, Qcplus_0_r. reflexivity.
Qed.

(** * Linear interpolation through knots *)
Lemma interp_at_knot : forall rest a va x w,
  incr (a :: map fst rest) -> In (x, w) ((a, va) :: rest) -> interp_at a va rest x = Some w.
Proof.
  induction rest as [|[b vb] t IH]; intros a va x w S0 I; simpl.
  - destruct I as [E|[]]. inversion E; subst. rewrite Nat.eqb_refl. auto.
  - simpl in S0. inversion S0 as [|? ? S1 F]; subst.
    assert (AB : a < b) by (inversion F; auto).
    assert (BX : In (x, w) ((b, vb) :: t) -> b <= x).
    { intros [E|I']; [inversion E; lia|]. inversion S1 as [|? ? _ F1]; subst.
      rewrite Forall_forall in F1. assert (b < x); [|lia]. apply F1.
      apply in_map_iff. exists (x, w). auto. }
    destruct I as [E|I].
    + inversion E; subst. rewrite Nat.ltb_irrefl.
      replace (x <? b) with true by (symmetry; apply Nat.ltb_lt; auto).
      f_equal. apply on_line_left.
    + specialize (BX I).
      replace (x <? a) with false by (symmetry; apply Nat.ltb_ge; lia).
      replace (x <? b) with false by (symmetry; apply Nat.ltb_ge; lia).
      apply IH; auto.
Qed.

Lemma interp_at_gap : forall rest a va x p vp q vq,
  incr (a :: map fst rest) -> gap_around (a :: map fst rest) x p q ->
  In (p, vp) ((a, va) :: rest) -> In (q, vq) ((a, va) :: rest) ->
  interp_at a va rest x = Some (on_line p vp q vq x).
Proof.
  induction rest as [|[b vb] t IH]; intros a va x p vp q vq S0 G Ip Iq; simpl.
  - destruct Ip as [Ep|[]]. destruct Iq as [Eq|[]]. inversion Ep; inversion Eq; subst.
    destruct G as (_ & _ & G & _). lia.
  - simpl in S0. inversion S0 as [|? ? S1 F]; subst.
    assert (AB : a < b) by (inversion F; auto).
    inversion S1 as [|? ? S2 F1]; subst. rewrite Forall_forall in F, F1.
    destruct G as (G1 & G2 & G3 & G4).
    assert (GA : a <= p) by (destruct G1 as [->|G1]; [lia|apply F in G1; lia]).
    replace (x <? a) with false by (symmetry; apply Nat.ltb_ge; lia).
    assert (NB : b <= p \/ q <= b) by (destruct (G4 b); [right; left; auto|lia|lia]).
    destruct Ip as [Ep|Ip].
    + inversion Ep; subst p vp.
      assert (QB : q = b).
      { destruct NB as [NB|NB]; [lia|]. destruct Iq as [Eq|[Eq|Iq]].
        - inversion Eq; subst. lia.
        - inversion Eq; auto.
        - assert (b < q); [|lia]. apply F1. apply in_map_iff. exists (q, vq). auto. }
      subst q. replace (x <? b) with true by (symmetry; apply Nat.ltb_lt; lia).
      assert (vq = vb).
      { destruct Iq as [Eq|[Eq|Iq]]; [inversion Eq; subst; lia|inversion Eq; auto|].
        assert (b < b); [|lia]. apply F1. apply in_map_iff. exists (b, vq). auto. }
      subst. reflexivity.
    + assert (PB : b <= p).
      { destruct Ip as [Ep|Ip]; [inversion Ep; lia|]. assert (b < p); [|lia].
        apply F1. apply in_map_iff. exists (p, vp). auto. }
      replace (x <? b) with false by (symmetry; apply Nat.ltb_ge; lia).
      apply IH with (p := p) (q := q); auto.
      * split; [apply (in_map fst) in Ip; auto|].
        destruct Iq as [Eq|Iq]; [inversion Eq; subst; lia|].
        split; [apply (in_map fst) in Iq; auto|]. split; auto.
        intros r Ir. apply G4. right; auto.
      * destruct Iq as [Eq|Iq]; auto. inversion Eq; subst. lia.
Qed.

Lemma sequence_some : forall A (l : list (option A)), (forall k x, nth_error l k = Some x -> exists y, x = Some y) ->
  exists r, sequence l = Some r /\ l = map Some r.
Proof.
  induction l as [|x t IH]; intros H; simpl.
  - exists []. auto.
  - destruct (H 0 x eq_refl) as [y ->]. destruct IH as (r & -> & ->).
    + intros k z Hk. apply (H (S k)). auto.
    + exists (y :: r). auto.
Qed.

Lemma wf_gap_exists : forall f p, wf_fup f -> p < f_all f -> ~ In p (f_indices f) ->
  exists a b va vb, gap_around (f_indices f) p a b /\
    observed (f_indices f) (f_values f) a va /\ observed (f_indices f) (f_values f) b vb.
Proof.
  intros f p W L NI.
  destruct (nth_error_ex _ (f_fmc f) p ltac:(rewrite (wf_fmc_len f W); auto)) as [c Hc].
  destruct (nth_error_ex _ (f_tags f) p ltac:(rewrite (wf_tags_len f W); auto)) as [tq Htq].
  destruct (nth_error_ex _ (f_mc f) p ltac:(rewrite (wf_mc_len f W); auto)) as [mq Hmq].
  destruct (wf_rows f W p tq c mq Htq Hc Hmq) as (_ & _ & _ & _ & R).
  destruct (R NI) as (a & b & G & _).
  destruct (wf_observed f a W (proj1 G)) as [va Ha].
  destruct (wf_observed f b W (proj1 (proj2 G))) as [vb Hb].
  exists a, b, va, vb. auto.
Qed.

Lemma observed_combine : forall idx vals p v, observed idx vals p v <-> In (p, v) (combine idx vals).
Proof.
  intros. split.
  - intros (k & A & B). apply (nth_error_In _ k). rewrite nth_error_combine, A, B. auto.
  - intros I. apply In_nth_error in I. destruct I as [k Hk]. exists k.
    rewrite nth_error_combine in Hk. destruct (nth_error idx k); [|discriminate].
    destruct (nth_error vals k); inversion Hk; auto.
Qed.

Lemma linear_entire_spec : forall f, wf_fup f ->
  exists l, linear_entire (f_values f) (f_indices f) (range (f_all f)) = Ok l /\ length l = f_all f /\
   (forall p v, observed (f_indices f) (f_values f) p v -> nth_error l p = Some v) /\
   (forall p a b va vb, gap_around (f_indices f) p a b -> observed (f_indices f) (f_values f) a va ->
      observed (f_indices f) (f_values f) b vb -> nth_error l p = Some (on_line a va b vb p)).
Proof.
  intros f W. unfold linear_entire.
  pose proof (map_fst_combine _ _ (f_indices f) (f_values f) (wf_len f W)) as MF.
  destruct (combine (f_indices f) (f_values f)) as [|[a0 v0] rest] eqn:EC.
  { simpl in MF. pose proof (wf_ne f W). congruence. }
  simpl in MF. pose proof (wf_incr f W) as SI. rewrite <- MF in SI.
  assert (K : forall p v, observed (f_indices f) (f_values f) p v -> interp_at a0 v0 rest p = Some v).
  { intros p v H. apply interp_at_knot; auto. rewrite <- EC. apply observed_combine; auto. }
  assert (G : forall p a b va vb, gap_around (f_indices f) p a b -> observed (f_indices f) (f_values f) a va ->
      observed (f_indices f) (f_values f) b vb -> interp_at a0 v0 rest p = Some (on_line a va b vb p)).
  { intros p a b va vb Hg Ha Hb. apply interp_at_gap; auto.
    - rewrite MF; auto.
    - rewrite <- EC; apply observed_combine; auto.
    - rewrite <- EC; apply observed_combine; auto. }
  destruct (sequence_some _ (map (interp_at a0 v0 rest) (range (f_all f)))) as (l & E & EL).
  { intros k x Hk. apply nth_error_map_some in Hk. destruct Hk as (p & Hp & <-).
    unfold range in Hp. rewrite nth_error_seq in Hp. destruct (k <? f_all f) eqn:Lk; [|discriminate]. simpl in Hp. injection Hp as <-.
    apply Nat.ltb_lt in Lk.
    destruct (in_dec_nat k (f_indices f)) as [I|NI].
    - destruct (wf_observed f k W I) as [v Hv]. rewrite (K _ _ Hv). eauto.
    - destruct (wf_gap_exists f k W Lk NI) as (a & b & va & vb & Hg & Ha & Hb).
      rewrite (G _ _ _ _ _ Hg Ha Hb). eauto. }
  rewrite E. exists l.
  assert (NL : forall p v, p < f_all f -> interp_at a0 v0 rest p = Some v -> nth_error l p = Some v).
  { intros p v Lp H. assert (X : nth_error (map Some l) p = Some (Some v)).
    { rewrite <- EL, nth_error_map. unfold range. rewrite nth_error_seq.
      apply Nat.ltb_lt in Lp. rewrite Lp. simpl. rewrite H. auto. }
    apply nth_error_map_some in X. destruct X as (y & Hy & X). inversion X; subst. auto. }
  split; auto. split.
  { rewrite <- (map_length Some l), <- EL, map_length. unfold range. apply seq_length. }
  split.
  - intros p v H. apply NL; auto. apply wf_in_lt; auto. eapply observed_in; eauto.
  - intros p a b va vb Hg Ha Hb. apply NL; [|eapply G; eauto].
    pose proof (wf_in_lt f b W (proj1 (proj2 Hg))). destruct Hg as (_ & _ & ? & _). lia.
Qed.

Lemma wf_values_bounds : forall f p v, observed (f_indices f) (f_values f) p v ->
  (qmin_list (f_values f) <= v /\ v <= qmax_list (f_values f))%Qc.
Proof.
  intros f p v H. apply observed_in in H. destruct H.
  split; [apply qmin_list_le|apply qmax_list_ge]; auto.
Qed.

Lemma linear_entire_bounds : forall f l lo hi, wf_fup f ->
  (forall p v, observed (f_indices f) (f_values f) p v -> lo <= v /\ v <= hi)%Qc ->
  linear_entire (f_values f) (f_indices f) (range (f_all f)) = Ok l ->
  forall p v, nth_error l p = Some v -> (lo <= v /\ v <= hi)%Qc.
Proof.
  intros f l lo hi W B E p v H.
  destruct (linear_entire_spec f W) as (l' & E' & LL & K & G). rewrite E in E'. inversion E'; subst l'.
  assert (Lp : p < f_all f) by (rewrite <- LL; apply nth_error_lt in H; auto).
  destruct (in_dec_nat p (f_indices f)) as [I|NI].
  - destruct (wf_observed f p W I) as [w Hw]. rewrite (K _ _ Hw) in H. inversion H; subst. eauto.
  - destruct (wf_gap_exists f p W Lp NI) as (a & b & va & vb & Hg & Ha & Hb).
    rewrite (G _ _ _ _ _ Hg Ha Hb) in H. inversion H; subst.
    destruct Hg as (_ & _ & R & _).
    apply on_line_bounds; eauto; lia.
Qed.

(** * linear_seg at the start of a gap *)
Lemma linear_seg_spec : forall f i j x a, wf_fup f ->
  nth_error (f_indices f) j = Some a -> nth_error (f_indices f) (S j) = Some x ->
  i = S a -> i < x ->
  exists l m, linear_seg (f_mc f) i (f_values f) (S j) = Ok l /\ nth_error (f_mc f) i = Some m /\
     m = length l /\ i + m = x /\ gap_around (f_indices f) i a x /\
     exists va vb, observed (f_indices f) (f_values f) a va /\ observed (f_indices f) (f_values f) x vb /\
     forall k, k < m -> nth_error l k = Some (on_line a va x vb (i + k)).
Proof.
  intros f i j x a W Ha Hx -> L.
  assert (P : ptr (f_indices f) (S a) (S j)).
  { split; intros k y Lk Hk.
    - pose proof (incr_nth_le _ k j y a (wf_incr f W) ltac:(lia) Hk Ha). lia.
    - pose proof (incr_nth_le _ (S j) k x y (wf_incr f W) Lk Hx Hk). lia. }
  destruct (ptr_gap _ (S a) (S j) x (wf_incr f W) (wf_hd f W) Hx L P) as (NI & j' & a' & Ej & Ha' & G).
  inversion Ej; subst j'. rewrite Ha in Ha'. inversion Ha'; subst a'.
  assert (Lp : S a < f_all f) by (pose proof (wf_in_lt f x W (proj1 (proj2 G))); lia).
  destruct (nth_error_ex _ (f_mc f) (S a) ltac:(rewrite (wf_mc_len f W); auto)) as [m Hm].
  destruct (nth_error_ex _ (f_fmc f) (S a) ltac:(rewrite (wf_fmc_len f W); auto)) as [c Hc].
  destruct (nth_error_ex _ (f_tags f) (S a) ltac:(rewrite (wf_tags_len f W); auto)) as [t Ht].
  destruct (wf_rows f W _ _ _ _ Ht Hc Hm) as (_ & _ & _ & _ & R).
  destruct (R NI) as (a2 & b2 & G2 & Em).
  destruct (gap_unique _ _ _ _ _ _ G G2); subst a2 b2.
  destruct (nth_error_ex _ (f_values f) j) as [va Hva].
  { rewrite <- (wf_len f W). apply nth_error_lt in Ha; auto. }
  destruct (nth_error_ex _ (f_values f) (S j)) as [vb Hvb].
  { rewrite <- (wf_len f W). apply nth_error_lt in Hx; auto. }
  unfold linear_seg. rewrite Hva, Hvb, Hm. do 2 eexists. split; [reflexivity|].
  split; auto. rewrite map_length. unfold range at 1. rewrite seq_length. split; auto.
  split; [lia|]. split; auto. exists va, vb. split; [exists j; auto|]. split; [exists (S j); auto|].
  intros k Lk. rewrite nth_error_map. unfold range. rewrite nth_error_seq.
  apply Nat.ltb_lt in Lk. rewrite Lk. simpl. f_equal. unfold on_line.
  replace (a + k - a) with k by lia. repeat f_equal; lia.
Qed.

(** gap-start invariant *)
Definition at_start (f : fup) (i j : nat) : Prop :=
  ptr (f_indices f) i j /\
  (i = 0 /\ j = 0 \/ exists j' a, j = S j' /\ nth_error (f_indices f) j' = Some a /\ i = S a \/
   nth_error (f_indices f) j = Some i).

Lemma at_start_hit : forall f i j, wf_fup f -> at_start f i j -> nth_error (f_indices f) j = Some i ->
  at_start f (S i) (S j).
Proof.
  intros f i j W [P _] H. split; [apply ptr_hit; auto; apply (wf_incr f W)|].
  right. exists j, i. left. auto.
Qed.
Lemma at_start_jump : forall f i j x, wf_fup f -> ptr (f_indices f) i j -> nth_error (f_indices f) j = Some x ->
  i <= x -> at_start f x j.
Proof.
  intros f i j x W P H L. split.
  - apply (ptr_skip _ i j x x); auto. apply (wf_incr f W).
  - right. exists j, x. right. auto.
Qed.
Lemma at_start_gap : forall f i j x, wf_fup f -> at_start f i j -> nth_error (f_indices f) j = Some x ->
  i < x -> exists j' a, j = S j' /\ nth_error (f_indices f) j' = Some a /\ i = S a.
Proof.
  intros f i j x W [P [[-> ->]|(j' & a & [H|H])]] Hx L.
  - pose proof (wf_hd f W) as HD. destruct (f_indices f); simpl in *; [discriminate|].
    inversion HD; inversion Hx; lia.
  - exists j', a. auto.
  - rewrite Hx in H. inversion H. lia.
Qed.

Lemma seg_loop : forall f l em kw sp, wf_fup f ->
  linear_entire (f_values f) (f_indices f) (range (f_all f)) = Ok l ->
  forall fuel i j full, at_start f i j -> f_all f <= i + fuel -> agrees f full ->
  (forall p, p < i -> nth_error full p = nth_error (map Some l) p) ->
  step_loop fuel f (fun arr i j => step_func sp MLinearSeg kw arr i (f_values f) j (f_fmc f) (f_mc f)) em i j full
   = Ok (map Some l).
Proof.
  intros f l em kw sp W EL.
  destruct (linear_entire_spec f W) as (l' & E' & LL & K & G). rewrite EL in E'. inversion E'; subst l'.
  assert (FIN : forall i full, f_all f <= i -> agrees f full ->
     (forall p, p < i -> nth_error full p = nth_error (map Some l) p) -> full = map Some l).
  { intros i full H A Q. apply nth_error_ext_len; [rewrite map_length; rewrite (proj1 A); auto|].
    intros k Lk. apply Q. rewrite (proj1 A) in Lk. lia. }
  induction fuel as [|fuel IH]; intros i j full P HL A Q.
  - simpl. destruct (i <? f_all f) eqn:E; simpl.
    + apply Nat.ltb_lt in E; lia.
    + apply Nat.ltb_ge in E. f_equal. eapply FIN; eauto.
  - simpl. destruct (i <? f_all f) eqn:E; simpl.
    2:{ apply Nat.ltb_ge in E. f_equal. eapply FIN; eauto. }
    apply Nat.ltb_lt in E. pose proof E as E1. rewrite (wf_all f W) in E1.
    destruct (ptr_next _ i j (wf_incr f W) (wf_ne f W) E1 (proj1 P)) as (x & Hx & Lx).
    rewrite Hx. destruct (x =? i) eqn:EX.
    + apply Nat.eqb_eq in EX. subst x. apply IH; auto.
      * apply at_start_hit; auto.
      * lia.
      * intros p Lp. destruct (Nat.eq_dec p i) as [->|N]; [|apply Q; lia].
        destruct (wf_observed f i W) as [v Hv]; [eapply nth_error_In; eauto|].
        rewrite (proj2 A _ _ Hv), nth_error_map, (K _ _ Hv). auto.
    + apply Nat.eqb_neq in EX. assert (LX : i < x) by lia.
      apply Nat.ltb_lt in LX. rewrite LX. apply Nat.ltb_lt in LX.
      destruct (at_start_gap f i j x W P Hx LX) as (j' & a & -> & Ha & Ei).
      destruct (linear_seg_spec f i j' x a W Ha Hx Ei LX) as (r & m & R1 & R2 & R3 & R4 & R5 & va & vb & Oa & Ob & R6).
      rewrite R1. simpl.
      assert (XA : x < f_all f) by (apply wf_in_lt; auto; eapply nth_error_In; eauto).
      assert (NG : forall p, i <= p < i + length r -> ~ In p (f_indices f)).
      { intros p Lp I. destruct R5 as (_ & _ & _ & R5). destruct (R5 p I); lia. }
      apply IH.
      * replace (i + length r) with x by lia. apply (at_start_jump f i); auto. apply P.
      * lia.
      * apply agrees_splice; rewrite ?map_length; auto. lia.
      * intros p Lp. rewrite nth_error_splice by (rewrite map_length, (proj1 A); lia).
        rewrite map_length.
        destruct ((i <=? p) && (p <? i + length r)) eqn:EP.
        -- apply andb_true_iff in EP. destruct EP as [P1 P2]. apply Nat.leb_le in P1. apply Nat.ltb_lt in P2.
           rewrite !nth_error_map. rewrite R6 by lia. replace (i + (p - i)) with p by lia.
           assert (Gp : gap_around (f_indices f) p a x).
           { destruct R5 as (G1 & G2 & G3 & G4). repeat split; auto; lia. }
           rewrite (G p a x va vb Gp Oa Ob). auto.
        -- apply Q. apply andb_false_iff in EP. destruct EP as [EP|EP]; [apply Nat.leb_gt in EP; auto|].
           apply Nat.ltb_ge in EP. lia.
Qed.

(** * Weighted averages *)
Lemma weighted_sum_bounds : forall vs ws lo hi, length vs = length ws ->
  (forall w, In w ws -> 0 < w)%Qc -> (forall v, In v vs -> lo <= v /\ v <= hi)%Qc ->
  (lo * qsum ws <= qsum (map (fun p => fst p * snd p) (combine vs ws)) /\
   qsum (map (fun p => fst p * snd p) (combine vs ws)) <= hi * qsum ws)%Qc.
Proof.
  induction vs as [|v vs IH]; intros [|w ws] lo hi HL HW HV; simpl in *; try discriminate.
  - split; qlra.
  - destruct (IH ws lo hi) as [I1 I2]; [lia| intros; apply HW; auto|intros; apply HV; auto|].
    pose proof (HW w (or_introl eq_refl)). destruct (HV v (or_introl eq_refl)).
    set (s := qsum ws) in *. set (u := qsum (map _ (combine vs ws))) in *.
    split; qnra.
Qed.

Lemma qsum_pos : forall ws, ws <> [] -> (forall w, In w ws -> 0 < w)%Qc -> (0 < qsum ws)%Qc.
Proof.
  induction ws as [|w t IH]; intros NE H; [congruence|]. simpl.
  pose proof (H w (or_introl eq_refl)). destruct t as [|w2 t].
  - simpl. qlra.
  - assert (0 < qsum (w2 :: t))%Qc by (apply IH; [discriminate|intros; apply H; right; auto]). qlra.
Qed.

Lemma np_average_w_bounds : forall vs ws lo hi v,
  (forall w, In w ws -> 0 < w)%Qc -> (forall v, In v vs -> lo <= v /\ v <= hi)%Qc ->
  np_average_w vs ws = Ok v -> (lo <= v /\ v <= hi)%Qc.
Proof.
  intros vs ws lo hi v HW HV H. unfold np_average_w in H.
  destruct (length vs =? length ws) eqn:EL; simpl in H; [|discriminate]. apply Nat.eqb_eq in EL.
  destruct (Qceqb (qsum ws) 0) eqn:E0; [discriminate|]. inversion H; subst v.
  destruct (weighted_sum_bounds vs ws lo hi EL HW HV) as [B1 B2].
  assert (P : (0 < qsum ws)%Qc).
  { apply qsum_pos; auto. intro; subst. simpl in E0. discriminate. }
  split; [apply Qcle_div_iff|apply Qcdiv_le_iff]; auto.
Qed.

Lemma auto_weights_pos : forall w, In w auto_weights -> (0 < w)%Qc.
Proof. intros w H. repeat (destruct H as [<-|H]; [reflexivity|]). destruct H. Qed.

Lemma basic_func_ok : forall r kw f arr i j, wf_fup f -> agrees f arr -> i < f_all f ->
  (forall l, basic_func r kw arr i (f_values f) j (f_fmc f) (f_mc f) <> Ok (FList l)) /\
  basic_func r kw arr i (f_values f) j (f_fmc f) (f_mc f) <> Err OutOfFuel.
Proof.
  intros r kw f arr i j W A L. unfold basic_func.
  set (per := match k_period kw with Some p => _ | None => _ end).
  assert (exists P, per = Z.of_nat P /\ 0 < P) as (P & -> & HP).
  { unfold per. destruct (k_period kw) as [p|]; [|exists 1; auto].
    destruct (k_cp kw && (p >? 1)%Z) eqn:E; [|exists 1; auto].
    apply andb_true_iff in E. destruct E as [_ E]. rewrite Z.gtb_ltb in E. apply Z.ltb_lt in E.
    exists (Z.to_nat p). lia. }
  pose proof (get_bf_spec f arr i j P (k_bn kw) (k_fn kw) (k_short kw) (k_lev kw) W A HP L) as H.
  destruct (get_bf arr i (f_values f) j (Z.of_nat P) (f_fmc f) (f_mc f) (k_bn kw) (k_fn kw) (k_lev kw) (k_short kw))
    as [[[b g]|]|e]; simpl.
  - destruct r; destruct (k_weights kw) as [ws|]; unfold bind, reduce, np_average_w;
      repeat match goal with
      | |- context [if ?c then _ else _] => destruct c
      | |- context [match b ++ g with _ => _ end] => destruct (b ++ g)
      end; split; intros; discriminate.
  - split; intros; discriminate.
  - split; intros; [discriminate|congruence].
Qed.

Lemma step_func_scalar : forall sp m kw f arr i j, wf_fup f -> agrees f arr -> i < f_all f ->
  m <> MLinearSeg -> m <> MSplineSeg ->
  (forall l, step_func sp m kw arr i (f_values f) j (f_fmc f) (f_mc f) <> Ok (FList l)) /\
  step_func sp m kw arr i (f_values f) j (f_fmc f) (f_mc f) <> Err OutOfFuel.
Proof.
  intros sp m kw f arr i j W A L N1 N2. destruct m; try congruence; simpl; try (apply basic_func_ok; auto).
  - destruct (k_weights kw); [apply basic_func_ok; auto|]. split; intros; discriminate.
  - split; intros; discriminate.
  - unfold func_last. destruct (match j with O => _ | S k => _ end); split; intros; discriminate.
Qed.
