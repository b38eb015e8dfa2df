From Coq Require Import List Arith ZArith Lia Bool Sorted.
From Verif Require Import Base Num Sorting FillUp_model FillUp_spec FillUp_proofs FillUp_proofs2
  FillUp_proofs3 FillUp_proofs4 FillUp_proofs5.
Import ListNotations.
Open Scope nat_scope.

(** From raw arguments to the accepted process and back. *)
Lemma accepted_facts : forall ix vs maxlen f, make_fup (Some ix) vs maxlen = Ok f -> f_need f = true ->
  wf_fup f /\ f_indices f = map Z.to_nat ix /\ vs = map Some (f_values f) /\
  (forall z, In z ix -> (0 <= z)%Z) /\ length ix = length vs /\
  StronglySorted Z.lt ix /\ (Z.of_nat (f_all f) <= maxlen)%Z /\ ix <> [].
Proof.
  intros ix vs maxlen f H HN.
  assert (NE : ix <> []).
  { intro; subst. simpl in H. inversion H; subst. discriminate. }
  destruct (make_fup_ok_inv _ _ _ _ NE H) as (WP & EI & EV & EA & EM & EN & WF & _).
  split; [auto|]. split; auto. split; auto.
  destruct WP as [E|(A & B & C & D)]; [congruence|].
  split; [|split; [auto|split; [auto|split; [apply EN; auto|auto]]]].
  intros z Iz. destruct ix as [|i0 rest]; [congruence|]. simpl in C. inversion C; subst.
  apply (sorted_nonneg rest D); auto.
Qed.

Lemma given_observed : forall ix vs maxlen f p v, make_fup (Some ix) vs maxlen = Ok f -> f_need f = true ->
  (given ix vs p v <-> observed (f_indices f) (f_values f) p v).
Proof.
  intros ix vs maxlen f p v H HN.
  destruct (accepted_facts _ _ _ _ H HN) as (W & EI & EV & NN & _).
  unfold given, observed. rewrite EI. split; intros (k & A & B); exists k.
  - rewrite nth_error_map, A. simpl. rewrite Nat2Z.id. split; auto.
    rewrite EV, nth_error_map in B. destruct (nth_error (f_values f) k); inversion B; auto.
  - apply nth_error_map_some in A. destruct A as (z & Hz & <-).
    rewrite Z2Nat.id by (apply NN; eapply nth_error_In; eauto). split; auto.
    rewrite EV, nth_error_map, B. auto.
Qed.

Lemma is_given_in : forall ix vs maxlen f p, make_fup (Some ix) vs maxlen = Ok f -> f_need f = true ->
  (is_given ix p <-> In p (f_indices f)).
Proof.
  intros ix vs maxlen f p H HN.
  destruct (accepted_facts _ _ _ _ H HN) as (W & EI & EV & NN & _).
  unfold is_given. rewrite EI, in_map_iff. split.
  - intros I. exists (Z.of_nat p). rewrite Nat2Z.id. auto.
  - intros (z & <- & I). rewrite Z2Nat.id; auto.
Qed.

Lemma neighbours_gap : forall ix vs maxlen f p a b, make_fup (Some ix) vs maxlen = Ok f -> f_need f = true ->
  (neighbours ix p a b <-> gap_around (f_indices f) p a b).
Proof.
  intros ix vs maxlen f p a b H HN. unfold neighbours, gap_around.
  pose proof (is_given_in ix vs maxlen f a H HN). pose proof (is_given_in ix vs maxlen f b H HN).
  rewrite H0, H1. split; intros (A & B & C & D); repeat split; auto; try lia; intros q Hq;
  apply D; apply (is_given_in ix vs maxlen f q H HN); auto.
Qed.

Lemma carries_agrees : forall ix vs maxlen f arr, make_fup (Some ix) vs maxlen = Ok f -> f_need f = true ->
  (carries ix vs arr /\ length arr = f_all f <-> agrees f arr).
Proof.
  intros ix vs maxlen f arr H HN. unfold carries, agrees. split; intros [A B]; split; auto;
  intros p v G; [apply A|apply B]; apply (given_observed ix vs maxlen f p v H HN); auto.
Qed.

Lemma value_at_given : forall ix vs p v, length ix = length vs -> StronglySorted Z.lt ix ->
  (value_at (combine ix vs) p = Some v <-> given ix vs p v).
Proof.
  induction ix as [|z t IH]; intros vs p v HL SS.
  - simpl. split; [discriminate|]. intros (k & A & _). destruct k; discriminate.
  - destruct vs as [|w vs]; [discriminate|]. simpl in HL. simpl. inversion SS as [|? ? S1 F]; subst.
    destruct (z =? Z.of_nat p)%Z eqn:E.
    + apply Z.eqb_eq in E. subst z. split.
      * intros ->. exists 0. auto.
      * intros (k & A & B). destruct k as [|k]; simpl in *; [inversion B; auto|].
        rewrite Forall_forall in F. apply nth_error_In in A. apply F in A. lia.
    + apply Z.eqb_neq in E. rewrite IH by (auto; lia). split.
      * intros (k & A & B). exists (S k). auto.
      * intros (k & A & B). destruct k as [|k]; simpl in *; [inversion A; congruence|]. exists k; auto.
Qed.

Lemma lookup_value_at : forall ix vs maxlen f p, make_fup (Some ix) vs maxlen = Ok f -> f_need f = true ->
  lookup_obs f p = value_at (combine ix vs) p.
Proof.
  intros ix vs maxlen f p H HN.
  destruct (accepted_facts _ _ _ _ H HN) as (W & EI & EV & NN & HL & SS & _).
  destruct (value_at (combine ix vs) p) as [v|] eqn:E.
  - apply value_at_given in E; auto. apply (given_observed ix vs maxlen f p v H HN) in E.
    unfold lookup_obs. destruct (values_to_fill_spec f W) as [[_ V] _]. rewrite (V _ _ E). auto.
  - destruct (lookup_obs f p) as [v|] eqn:EL; auto.
    apply lookup_in_values in EL; auto. apply (given_observed ix vs maxlen f p v H HN) in EL.
    apply value_at_given in EL; auto. congruence.
Qed.

Lemma nearest_values_at : forall ix vs maxlen f ps, make_fup (Some ix) vs maxlen = Ok f -> f_need f = true ->
  somes (map (lookup_obs f) ps) = values_at ix vs ps.
Proof.
  intros ix vs maxlen f ps H HN. unfold values_at, somes. induction ps as [|p t IH]; simpl; auto.
  rewrite IH, (lookup_value_at ix vs maxlen f p H HN). auto.
Qed.

Lemma fill_up_need : forall sp f m em kw r, fill_up sp f m em kw = Ok (Some r) -> f_need f = true.
Proof. intros sp f m em kw r H. unfold fill_up in H. destruct (f_need f); auto; discriminate. Qed.

Definition uses_seg_spline (m : method) : bool :=
  match m with Step MSplineSeg => true | _ => false end.

(** The spline passes through the submitted points. *)
Definition passes_through (sp : list nat -> list Qc -> nat -> Qc) (idx : list nat) (vals : list Qc) : Prop :=
  forall p v, observed idx vals p v -> sp idx vals p = v.

Lemma step_keeps : forall sp f m em kw full tags, wf_fup f -> m <> MSplineSeg ->
  step_by_step_fill_up sp f m (Some em) kw = Ok (Some (full, tags)) ->
  agrees f full /\ tags = f_tags f.
Proof.
  intros sp f m em kw full tags W NS H. unfold step_by_step_fill_up in H.
  destruct (f_need f); simpl in H; [|discriminate].
  destruct (values_to_fill_spec f W) as [V1 V2].
  destruct (match m with MLinearSeg => true | _ => false end) eqn:EM.
  - destruct m; try discriminate.
    destruct (linear_entire_spec f W) as (l & E & LL & K & G).
    rewrite (seg_loop f l em kw sp W E (f_all f) 0 0 (values_to_fill f)) in H; auto.
    + simpl in H. inversion H; subst. split; auto. split; [rewrite map_length; auto|].
      intros p v O. rewrite nth_error_map, (K _ _ O). auto.
    + split; [apply ptr_0|auto].
    + intros p Lp. lia.
  - pose proof (step_loop_scalar f
        (fun arr i j => step_func sp m kw arr i (f_values f) j (f_fmc f) (f_mc f)) em W) as SL.
    specialize (SL ltac:(intros full0 i j x Af Pt Hx Lt; apply step_func_scalar; auto;
         [assert (x < f_all f) by (apply wf_in_lt; auto; eapply nth_error_In; eauto); lia
         |destruct m; discriminate])
         (f_all f) 0 0 (values_to_fill f) (ptr_0 _) ltac:(lia) V1).
    destruct (step_loop _ _ _ _ _ _ _) as [full'|e]; simpl in H; inversion H; subst.
    destruct SL; auto.
Qed.

Lemma vtf_agrees : forall f, wf_fup f -> agrees f (values_to_fill f).
Proof. intros f W. apply (values_to_fill_spec f W). Qed.

Lemma fill_up_keeps : forall sp ix vs maxlen f m em kw full tags,
  make_fup (Some ix) vs maxlen = Ok f ->
  (Z.of_nat (f_all f) <= default_maxlen)%Z ->
  uses_seg_spline m = false ->
  (m = Auto \/ m = Entire MSpline -> passes_through sp (f_indices f) (f_values f)) ->
  fill_up sp f m em kw = Ok (Some (full, tags)) ->
  agrees f full /\ tags = f_tags f.
Proof.
  intros sp ix vs maxlen f m em kw full tags HF HD HM HS H.
  pose proof (fill_up_need _ _ _ _ _ _ H) as HN.
  destruct (accepted_facts _ _ _ _ HF HN) as (W & EI & EV & NN & HL & SS & _).
  unfold fill_up in H. rewrite HN in H. simpl in H.
  match type of H with bind ?x _ = _ => destruct x as [p|]; [|discriminate] end.
  simpl in H.
  destruct m as [|em'|s|]; simpl in H.
  - unfold auto_fill_up in H.
    destruct (auto_body sp f p) as [l|e] eqn:EB.
    + inversion H; subst.
      destruct (Z_le_gt_dec p 1) as [Lp|Gp].
      * destruct (auto_body_spec sp f p W HD ltac:(lia) (HS (or_introl eq_refl))) as (l' & E' & LL & K & _).
        rewrite EB in E'. inversion E'; subst. split; auto. split; [rewrite map_length; auto|].
        intros q v O. rewrite nth_error_map, (K _ _ O). auto.
      * assert (4 <= length (f_values f)).
        { destruct (Nat.le_gt_cases 4 (length (f_values f))); auto. exfalso.
          unfold auto_body in EB. rewrite Z.gtb_ltb in EB.
          replace (1 <? p)%Z with true in EB by (symmetry; apply Z.ltb_lt; lia).
          unfold scatter_fill_up, spline_entire in EB.
          replace (length (f_values f) <=? 3) with true in EB by (symmetry; apply Nat.leb_le; lia).
          discriminate. }
        destruct (auto_body_spec sp f p W HD ltac:(auto) (HS (or_introl eq_refl))) as (l' & E' & LL & K & _).
        rewrite EB in E'. inversion E'; subst. split; auto. split; [rewrite map_length; auto|].
        intros q v O. rewrite nth_error_map, (K _ _ O). auto.
    + destruct em; inversion H; subst. split; auto. apply vtf_agrees; auto.
  - unfold entire_fill_up in H. destruct em'.
    + destruct (linear_entire_spec f W) as (l & E & LL & K & G). rewrite E in H. inversion H; subst.
      split; auto. split; [rewrite map_length; auto|].
      intros q v O. rewrite nth_error_map, (K _ _ O). auto.
    + unfold spline_entire in H. destruct (length (f_values f) <=? 3).
      * destruct em; inversion H; subst. split; auto. apply vtf_agrees; auto.
      * inversion H; subst. split; auto. split.
        { rewrite !map_length. unfold range. apply seq_length. }
        intros q v O. rewrite !nth_error_map. unfold range. rewrite nth_error_seq.
        assert (Lp : q < f_all f) by (apply wf_in_lt; auto; eapply observed_in; eauto).
        apply Nat.ltb_lt in Lp. rewrite Lp. simpl. rewrite (HS (or_intror eq_refl) _ _ O). auto.
  - apply (step_keeps sp f s em _ full tags W) in H; auto. intro; subst. discriminate.
  - discriminate.
Qed.

Lemma fill_up_terminates : forall sp ix vs maxlen f m em kw,
  make_fup (Some ix) vs maxlen = Ok f -> uses_seg_spline m = false ->
  (Z.of_nat (f_all f) <= default_maxlen)%Z ->
  (m = Auto -> passes_through sp (f_indices f) (f_values f)) ->
  fill_up sp f m em kw <> Err OutOfFuel.
Proof.
  intros sp ix vs maxlen f m em kw HF HM HD HS H.
  unfold fill_up in H. destruct (f_need f) eqn:HN; simpl in H; [|discriminate].
  destruct (accepted_facts _ _ _ _ HF HN) as (W & EI & EV & NN & HL & SS & _).
  match type of H with bind ?x _ = _ => destruct x as [p|e] eqn:EP; simpl in H end.
  2:{ destruct (k_period kw) as [q|]; [destruct (q <? 0)%Z|]; inversion EP; congruence. }
  destruct m as [|em'|s|]; simpl in H; try discriminate.
  - unfold auto_fill_up in H. destruct (auto_body sp f p) as [l|e] eqn:EB; [discriminate|].
    assert (e <> OutOfFuel).
    { destruct (Z_le_gt_dec p 1) as [Lp|Gp].
      - destruct (auto_body_spec sp f p W HD ltac:(lia) (HS eq_refl)) as (l' & E' & _). congruence.
      - destruct (Nat.le_gt_cases 4 (length (f_values f))).
        + destruct (auto_body_spec sp f p W HD ltac:(auto) (HS eq_refl)) as (l' & E' & _). congruence.
        + unfold auto_body in EB. rewrite Z.gtb_ltb in EB.
          replace (1 <? p)%Z with true in EB by (symmetry; apply Z.ltb_lt; lia).
          unfold scatter_fill_up, spline_entire in EB.
          replace (length (f_values f) <=? 3) with true in EB by (symmetry; apply Nat.leb_le; lia).
          simpl in EB. congruence. }
    destruct em; simpl in H; congruence.
  - unfold entire_fill_up in H. destruct em'.
    + destruct (linear_entire_spec f W) as (l & E & _). rewrite E in H. discriminate.
    + unfold spline_entire in H. destruct (length (f_values f) <=? 3); [|discriminate].
      destruct em; simpl in H; discriminate.
  - unfold step_by_step_fill_up in H. rewrite HN in H. simpl in H.
    destruct (values_to_fill_spec f W) as [V1 V2].
    match type of H with context [step_func sp s ?kw] => set (kw' := kw) in * end.
    destruct (match s with MLinearSeg => true | _ => false end) eqn:EM.
    + destruct s; try discriminate.
      destruct (linear_entire_spec f W) as (l & E & LL & K & G).
      rewrite (seg_loop f l em kw' sp W E (f_all f) 0 0 (values_to_fill f)) in H; auto.
      * discriminate.
      * split; [apply ptr_0|auto].
      * intros q Lq. lia.
    + pose proof (step_loop_scalar f
        (fun arr i j => step_func sp s kw' arr i (f_values f) j (f_fmc f) (f_mc f)) em W) as SL.
      specialize (SL ltac:(intros full0 i j x Af Pt Hx Lt; apply step_func_scalar; auto;
         [assert (x < f_all f) by (apply wf_in_lt; auto; eapply nth_error_In; eauto); lia
         |destruct s; discriminate|destruct s; discriminate])
         (f_all f) 0 0 (values_to_fill f) (ptr_0 _) ltac:(lia) V1).
      destruct (step_loop _ _ _ _ _ _ _) as [full'|e]; simpl in H; inversion H; subst.
      destruct SL as (_ & X & _). congruence.
Qed.

(** Scalar fill without exceptions: every missing cell holds what the function
    returns there. *)
Lemma step_const : forall sp f m kw (val : nat -> nat -> option Qc), wf_fup f -> f_need f = true ->
  m <> MLinearSeg -> m <> MSplineSeg ->
  (forall arr i j x, agrees f arr -> ptr (f_indices f) i j -> nth_error (f_indices f) j = Some x -> i < x ->
     step_func sp m kw arr i (f_values f) j (f_fmc f) (f_mc f) = Ok (FScalar (val i j))) ->
  exists full, step_by_step_fill_up sp f m (Some ERaise) kw = Ok (Some (full, f_tags f)) /\
    agrees f full /\
    forall p, p < f_all f -> ~ In p (f_indices f) ->
      exists j x, ptr (f_indices f) p j /\ nth_error (f_indices f) j = Some x /\ p < x /\
      nth_error full p = Some (val p j).
Proof.
  intros sp f m kw val W HN N1 N2 HV. unfold step_by_step_fill_up. rewrite HN. simpl.
  destruct (values_to_fill_spec f W) as [V1 V2].
  pose proof (step_loop_scalar f
        (fun arr i j => step_func sp m kw arr i (f_values f) j (f_fmc f) (f_mc f)) ERaise W) as SL.
  specialize (SL ltac:(intros full0 i j x Af Pt Hx Lt; apply step_func_scalar; auto;
         assert (x < f_all f) by (apply wf_in_lt; auto; eapply nth_error_In; eauto); lia)
         (f_all f) 0 0 (values_to_fill f) (ptr_0 _) ltac:(lia) V1).
  destruct (step_loop _ _ _ _ _ _ _) as [full'|e].
  - destruct SL as (A & _ & SM). simpl. exists full'. split; auto. split; auto.
    intros p Lp NI. destruct (SM p ltac:(lia) NI) as (fp & jp & v & Q1 & Q2 & Q3 & Q4).
    pose proof Lp as Lp'. rewrite (wf_all f W) in Lp'.
    destruct (ptr_next _ p jp (wf_incr f W) (wf_ne f W) Lp' Q2) as (x & Hx & Lx).
    assert (p < x).
    { destruct (Nat.eq_dec p x) as [->|]; [|lia]. exfalso. apply NI. eapply nth_error_In; eauto. }
    exists jp, x. split; auto. split; auto. split; auto.
    destruct Q4 as [Q4|(e & Q4 & _)]; rewrite (HV fp p jp x) in Q4 by auto; inversion Q4; subst; auto.
  - destruct SL as (_ & _ & fp & p & jp & x & Q1 & Q2 & Q3 & Q4 & Q5).
    rewrite (HV fp p jp x) in Q5 by auto. discriminate.
Qed.
