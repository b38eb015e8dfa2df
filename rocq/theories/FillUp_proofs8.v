(** Short gaps in automatic filling: lemmas. *)
From Coq Require Import List Arith ZArith QArith Qcanon Lia Bool Sorted Permutation.
From Verif Require Import Base Num Sorting FillUp_model FillUp_spec FillUp_spec2 FillUp_proofs FillUp_proofs2
  FillUp_proofs3 FillUp_proofs4 FillUp_proofs5 FillUp_proofs6 FillUp_proofs7.
Import ListNotations.
Open Scope nat_scope.

Lemma ascending_iff : forall l, is_ascending l = true <-> StronglySorted (fun x y => (x <= y)%Qc) l.
Proof.
  induction l as [|x t IH]; [split; [constructor|reflexivity]|]. destruct t as [|y t].
  - split; [repeat constructor|reflexivity].
  - cbn [is_ascending]. rewrite andb_true_iff, IH, Qcleb_le. split.
    + intros [A B]. constructor; auto. inversion B as [|? ? B1 F]; subst. constructor; auto.
      rewrite Forall_forall in *. intros z I. eapply Qcle_trans; [exact A|auto].
    + intros H. inversion H as [|? ? B F]; subst. inversion F; subst. auto.
Qed.
Lemma descending_iff : forall l, is_descending l = true <-> StronglySorted (fun x y => (y <= x)%Qc) l.
Proof.
  induction l as [|x t IH]; [split; [constructor|reflexivity]|]. destruct t as [|y t].
  - split; [repeat constructor|reflexivity].
  - cbn [is_descending]. rewrite andb_true_iff, IH, Qcleb_le. split.
    + intros [A B]. constructor; auto. inversion B as [|? ? B1 F]; subst. constructor; auto.
      rewrite Forall_forall in *. intros z I. eapply Qcle_trans; [|exact A]. auto.
    + intros H. inversion H as [|? ? B F]; subst. inversion F; subst. auto.
Qed.
Lemma steady_iff : forall l, is_ascending l || is_descending l = true <-> steady l.
Proof. intros. rewrite orb_true_iff, ascending_iff, descending_iff. reflexivity. Qed.

Section Auto.
Variable sp : list nat -> list Qc -> nat -> Qc.
Variables (ix : list Z) (vs : list (option Qc)) (maxlen : Z) (f : fup).
Hypothesis HF : make_fup (Some ix) vs maxlen = Ok f.
Hypothesis HN : f_need f = true.
Hypothesis THROUGH : passes_through sp (f_indices f) (f_values f).
Variable period : Z.

Let raw := sp (f_indices f) (f_values f).
Let lo := qmin_list (f_values f).
Let hi := qmax_list (f_values f).
Let short (m : nat) : bool := negb ((6 <? m) || ((period >? 1)%Z && (4 * Z.of_nat m >? period)%Z)).

(** The value a short gap gets at [p] before clipping. *)
Definition gap_value (i m p : nat) : Qc :=
  let s := surroundings ix vs i m in
  let a := hd 0%Qc s in let b := last s 0%Qc in
  if (2 <? length s) && (is_ascending s || is_descending s) &&
     existsb (fun q => Qcltb (raw q) (Qcmin a b) || Qcltb (Qcmax a b) (raw q)) (seq i m)
  then on_line (i - 1) (hd 0%Qc (values_at ix vs [i - 1])) (i + m) (hd 0%Qc (values_at ix vs [i + m])) p
  else raw p.
Definition gap_final (i m p : nat) : Qc := Qcmin (Qcmax (gap_value i m p) lo) hi.

Lemma wf_f : wf_fup f. Proof. apply (accepted_facts _ _ _ _ HF HN). Qed.

Lemma surrounding_given : forall full i m, agrees f full -> 0 < i ->
  surrounding f full i m = surroundings ix vs i m.
Proof.
  intros full i m A Hi. unfold surroundings. rewrite <- (nearest_values_at ix vs maxlen f _ HF HN).
  unfold surrounding. pose proof wf_f as W.
  assert (CELL : forall q, 0 < q ->
    (if (0 <? Z.of_nat q)%Z && (Z.of_nat q <? Z.of_nat (f_all f))%Z && negb (nth q (f_tags f) false)
     then nth q full None else None) = lookup_obs f q).
  { intros q Hq. replace (0 <? Z.of_nat q)%Z with true by (symmetry; apply Z.ltb_lt; lia). cbn [andb].
    destruct (Z.of_nat q <? Z.of_nat (f_all f))%Z eqn:EL; cbn [andb].
    - apply Z.ltb_lt in EL. assert (Lq : q < f_all f) by lia.
      destruct (nth_error_ex _ (f_tags f) q ltac:(rewrite (wf_tags_len f W); auto)) as [tag Ht].
      destruct (nth_error_ex _ (f_fmc f) q ltac:(rewrite (wf_fmc_len f W); auto)) as [fwd Hf].
      destruct (nth_error_ex _ (f_mc f) q ltac:(rewrite (wf_mc_len f W); auto)) as [cnt Hm].
      destruct (wf_rows f W q tag fwd cnt Ht Hf Hm) as (R1 & _).
      rewrite (nth_error_nth _ _ _ Ht). destruct tag; cbn [negb].
      + destruct (lookup_obs f q) as [v|] eqn:EV; auto. apply lookup_in_values in EV; auto.
        exfalso. apply (proj1 R1 eq_refl). eapply observed_in; eauto.
      + destruct (in_dec_nat q (f_indices f)) as [I|NI]; [|apply R1 in NI; discriminate].
        destruct (wf_observed f q W I) as (v & Ov). pose proof (proj2 A q v Ov) as E.
        rewrite (nth_error_nth_d _ _ _ _ None E).
        assert (EV : lookup_obs f q = Some v).
        { unfold lookup_obs. destruct (values_to_fill_spec f W) as [[_ V] _]. rewrite (V q v Ov). auto. }
        auto.
    - apply Z.ltb_ge in EL. destruct (lookup_obs f q) as [v|] eqn:EV; auto. apply lookup_in_values in EV; auto.
      exfalso. pose proof (wf_in_lt f q W ltac:(eapply observed_in; eauto)). lia. }
  assert (ONE : forall z q, z = Z.of_nat q \/ (q = 0 /\ (z <= 0)%Z) ->
    (if (0 <? z)%Z && (z <? Z.of_nat (f_all f))%Z && negb (nth (Z.to_nat z) (f_tags f) false)
     then nth (Z.to_nat z) full None else None) = if 0 <? q then lookup_obs f q else None).
  { intros z q H. destruct (0 <? q) eqn:E0; [apply Nat.ltb_lt in E0|apply Nat.ltb_ge in E0].
    - destruct H as [->|[X _]]; [|lia]. rewrite Nat2Z.id. auto.
    - assert (Z : (z <= 0)%Z) by lia. replace (0 <? z)%Z with false by (symmetry; apply Z.ltb_ge; auto). reflexivity. }
  cbn [map]. rewrite (ONE (Z.of_nat i - 2)%Z (i - 2)) by lia. rewrite (ONE (Z.of_nat i - 1)%Z (i - 1)) by lia.
  rewrite (ONE (Z.of_nat (i + m)) (i + m)) by lia. rewrite (ONE (Z.of_nat (i + m + 1)) (i + m + 1)) by lia.
  cbn [filter].
  destruct (0 <? i - 2), (0 <? i - 1), (0 <? i + m), (0 <? i + m + 1); cbn [map somes flat_map app]; reflexivity.
Qed.

(** Cells already decided. *)
Definition decided (full : list (option Qc)) (i : nat) : Prop :=
  forall g m p, is_gap ix g m -> g + m <= i -> short m = true -> g <= p < g + m ->
    nth_error full p = Some (Some (gap_final g m p)).

Lemma value_single : forall q v, observed (f_indices f) (f_values f) q v -> values_at ix vs [q] = [v].
Proof.
  intros q v O. unfold values_at. cbn [flat_map]. rewrite <- (lookup_value_at ix vs maxlen f q HF HN).
  assert (EV : lookup_obs f q = Some v).
  { pose proof wf_f as W. unfold lookup_obs. destruct (values_to_fill_spec f W) as [[_ V] _]. rewrite (V q v O). auto. }
  rewrite EV. reflexivity.
Qed.

Lemma scatter_gaps : forall fuel i j full, at_start f i j -> f_all f <= i + fuel -> agrees f full ->
  (forall p, i <= p < f_all f -> nth_error full p = Some (Some (raw p))) ->
  decided full i ->
  exists full', scatter_loop fuel f period lo hi i j full = Ok full' /\ agrees f full' /\ decided full' (f_all f).
Proof.
  pose proof wf_f as W.
  assert (FIN : forall i full, f_all f <= i -> decided full i -> decided full (f_all f)).
  { intros i full L D g m p G Lg. apply D; auto. lia. }
  induction fuel as [|fuel IH]; intros i j full P HL A RAW D.
  - cbn [scatter_loop]. destruct (i <? f_all f) eqn:E; cbn [negb].
    + apply Nat.ltb_lt in E; lia.
    + apply Nat.ltb_ge in E. exists full. eauto.
  - cbn [scatter_loop]. destruct (i <? f_all f) eqn:E; cbn [negb].
    2:{ apply Nat.ltb_ge in E. exists full. eauto. }
    apply Nat.ltb_lt in E. pose proof E as E1. rewrite (wf_all f W) in E1.
    destruct (ptr_next _ i j (wf_incr f W) (wf_ne f W) E1 (proj1 P)) as (x & Hx & Lx).
    rewrite Hx. destruct (x =? i) eqn:EX.
    + apply Nat.eqb_eq in EX. subst x. apply IH; auto.
      * apply at_start_hit; auto.
      * lia.
      * intros p Lp. apply RAW. lia.
      * intros g m p G Lg Sh Lp. apply (D g m p G); auto.
        destruct G as (G0 & G1 & _ & _ & _). destruct (Nat.eq_dec (g + m) (S i)); [|lia].
        exfalso. apply (G1 i); [lia|]. apply (is_given_in ix vs maxlen f i HF HN). eapply nth_error_In; eauto.
    + apply Nat.eqb_neq in EX. assert (LX : i < x) by lia.
      apply Nat.ltb_lt in LX. rewrite LX. apply Nat.ltb_lt in LX.
      destruct (at_start_gap f i j x W P Hx LX) as (j' & a & -> & Ha & Ei).
      destruct (linear_seg_spec f i j' x a W Ha Hx Ei LX) as (r & m & R1 & R2 & R3 & R4 & R5 & va & vb & Oa & Ob & R6).
      rewrite (nth_error_nth_d _ _ _ _ 0 R2).
      assert (XA : x < f_all f) by (apply wf_in_lt; auto; eapply nth_error_In; eauto).
      assert (NG : forall p, i <= p < i + m -> ~ In p (f_indices f)).
      { intros p Lp I. destruct R5 as (_ & _ & _ & R5). destruct (R5 p I); lia. }
      assert (LF : length full = f_all f) by apply A.
      assert (MINE : forall g n, is_gap ix g n -> g + n <= i + m -> ~ g + n <= i -> g = i /\ n = m).
      { intros g n (G0 & G1 & G2 & G3 & G4) L1 L2.
        apply (is_given_in ix vs maxlen f _ HF HN) in G3, G4.
        assert (g + n = i + m).
        { destruct (Nat.eq_dec (g + n) (i + m)); auto. exfalso. apply (NG (g + n)); [lia|auto]. }
        assert (g = i); [|lia]. destruct (Nat.lt_trichotomy g i) as [X|[X|X]]; auto.
        - exfalso. assert (a = i - 1) by lia. apply (G1 a); [lia|].
          apply (is_given_in ix vs maxlen f a HF HN). eapply observed_in; eauto.
        - exfalso. apply (NG (g - 1)); [lia|auto]. }
      assert (OLD : forall full2, (forall p, p < i -> nth_error full2 p = nth_error full p) -> decided full2 i).
      { intros full2 SAME g n p G Lg Sh Lp. rewrite SAME by lia. apply (D g n p G Lg Sh Lp). }
      destruct ((6 <? m) || ((period >? 1)%Z && (4 * Z.of_nat m >? period)%Z)) eqn:SHORT.
      * apply IH.
        -- rewrite R4. apply (at_start_jump f i); auto; try apply P; lia.
        -- lia.
        -- apply agrees_splice; rewrite ?repeat_length; auto. lia.
        -- intros p Lp. rewrite nth_error_splice by (rewrite repeat_length; lia). rewrite repeat_length.
           replace (p <? i + m) with false by (symmetry; apply Nat.ltb_ge; lia). rewrite andb_false_r. apply RAW. lia.
        -- intros g n p G Lg Sh Lp. destruct (Nat.le_gt_cases (g + n) i) as [Lo|Lo].
           ++ refine (OLD _ _ g n p G Lo Sh Lp). intros q Lq. rewrite nth_error_splice by (rewrite repeat_length; lia).
              replace (i <=? q) with false by (symmetry; apply Nat.leb_gt; lia). reflexivity.
           ++ destruct (MINE g n G Lg ltac:(lia)) as [-> ->]. unfold short in Sh. rewrite SHORT in Sh. discriminate.
      * assert (Hi : 0 < i) by lia.
        assert (EXB : forall s, existsb (fun x => match nth x full None with
                            | Some v => Qcltb v (Qcmin (hd 0%Qc s) (last s 0%Qc)) || Qcltb (Qcmax (hd 0%Qc s) (last s 0%Qc)) v
                            | None => false end) (seq i m) =
            existsb (fun q => Qcltb (raw q) (Qcmin (hd 0%Qc s) (last s 0%Qc)) || Qcltb (Qcmax (hd 0%Qc s) (last s 0%Qc)) (raw q)) (seq i m)).
        { intros s. assert (EQ : forall q, In q (seq i m) -> nth q full None = Some (raw q)).
          { intros q Q. apply in_seq in Q. apply (nth_error_nth_d _ _ _ _ None). apply RAW. lia. }
          revert EQ. generalize (seq i m). induction l as [|q t IHl]; intros EQ; auto. cbn [existsb].
          rewrite (EQ q (or_introl eq_refl)), IHl; auto. intros; apply EQ; right; auto. }
        unfold scatter_short. rewrite R1, (surrounding_given full i m A Hi). cbv zeta. rewrite EXB.
        assert (MID : exists full2,
          (let s := surroundings ix vs i m in
           (if (2 <? length s) && (is_ascending s || is_descending s) then
              if existsb (fun q => Qcltb (raw q) (Qcmin (hd 0%Qc s) (last s 0%Qc)) || Qcltb (Qcmax (hd 0%Qc s) (last s 0%Qc)) (raw q)) (seq i m)
              then do l <- Ok r; Ok (splice full i (map Some l)) else Ok full
            else Ok full)) = Ok full2 /\ agrees f full2 /\
          (forall p, ~ (i <= p < i + m) -> nth_error full2 p = nth_error full p) /\
          (forall p, i <= p < i + m -> nth_error full2 p = Some (Some (gap_value i m p)))).
        { cbv zeta. unfold gap_value. cbv zeta. set (s := surroundings ix vs i m).
          destruct ((2 <? length s) && (is_ascending s || is_descending s)); cbn [andb];
            [destruct (existsb _ _)|]; cbn [bind].
          - exists (splice full i (map Some r)). split; auto.
            split. { apply agrees_splice; rewrite ?map_length; rewrite <- ?R3; auto. lia. }
            split; intros p Lp; rewrite nth_error_splice by (rewrite map_length; lia); rewrite map_length, <- R3.
            + replace ((i <=? p) && (p <? i + m)) with false; auto. symmetry. apply andb_false_iff.
              destruct (Nat.leb_spec i p); auto. right. apply Nat.ltb_ge. lia.
            + replace ((i <=? p) && (p <? i + m)) with true.
              2:{ symmetry. apply andb_true_iff. split; [apply Nat.leb_le|apply Nat.ltb_lt]; lia. }
              rewrite nth_error_map, R6 by lia. cbn [option_map]. f_equal. f_equal.
              replace (i - 1) with a by lia. rewrite R4, (value_single a va Oa), (value_single x vb Ob). cbn [hd].
              f_equal. lia.
          - exists full. split; auto. split; auto. split; auto. intros p Lp. apply RAW. lia.
          - exists full. split; auto. split; auto. split; auto. intros p Lp. apply RAW. lia. }
        destruct MID as (full2 & M1 & M2 & M3 & M4). cbv zeta in M1. rewrite M1. cbn [bind].
        apply IH.
        -- rewrite R4. apply (at_start_jump f i); auto; try apply P; lia.
        -- lia.
        -- split. { unfold clip_range. rewrite mapi_length. apply M2. }
           intros p v Ov. rewrite clip_range_nth.
           destruct ((i <=? p) && (p <? i + m)) eqn:EP; [|apply M2; auto].
           apply andb_true_iff in EP. destruct EP as [P1 P2]. apply Nat.leb_le in P1. apply Nat.ltb_lt in P2.
           exfalso. apply (NG p); [lia|]. eapply observed_in; eauto.
        -- intros p Lp. rewrite clip_range_nth. replace (p <? i + m) with false by (symmetry; apply Nat.ltb_ge; lia).
           rewrite andb_false_r, M3 by lia. apply RAW. lia.
        -- intros g n p G Lg Sh Lp. destruct (Nat.le_gt_cases (g + n) i) as [Lo|Lo].
           ++ refine (OLD _ _ g n p G Lo Sh Lp). intros q Lq. rewrite clip_range_nth.
              replace (i <=? q) with false by (symmetry; apply Nat.leb_gt; lia). cbn [andb]. apply M3. lia.
           ++ destruct (MINE g n G Lg ltac:(lia)) as [-> ->]. rewrite clip_range_nth.
              replace ((i <=? p) && (p <? i + m)) with true
                by (symmetry; apply andb_true_iff; split; [apply Nat.leb_le|apply Nat.ltb_lt]; lia).
              rewrite (M4 p Lp). reflexivity.
Qed.

Lemma scatter_fill_gaps : 4 <= length (f_values f) ->
  exists s, scatter_fill_up sp f period = Ok s /\ agrees f s /\ decided s (f_all f).
Proof.
  intros L4. pose proof wf_f as W. unfold scatter_fill_up, spline_entire.
  replace (length (f_values f) <=? 3) with false by (symmetry; apply Nat.leb_gt; lia). cbn [bind].
  assert (RAW : forall p, p < f_all f -> nth_error (map Some (map (sp (f_indices f) (f_values f)) (range (f_all f)))) p = Some (Some (raw p))).
  { intros p Lp. rewrite !nth_error_map. unfold range. rewrite nth_error_seq. apply Nat.ltb_lt in Lp. rewrite Lp. reflexivity. }
  apply scatter_gaps.
  - split; [apply ptr_0|auto].
  - lia.
  - split. { rewrite !map_length. unfold range. apply seq_length. }
    intros p v Ov. assert (Lp : p < f_all f) by (apply wf_in_lt; auto; eapply observed_in; eauto).
    rewrite RAW by auto. unfold raw. rewrite (THROUGH p v Ov). auto.
  - intros p Lp. apply RAW. lia.
  - intros g m p G Lg. destruct G as (G0 & _). lia.
Qed.

(** Later stages keep what the first one has filled. *)
Lemma auto_keeps : forall s l, (period > 1)%Z -> (Z.of_nat (f_all f) <= default_maxlen)%Z ->
  scatter_fill_up sp f period = Ok s -> agrees f s -> auto_body sp f period = Ok l ->
  forall p v, nth_error s p = Some (Some v) -> nth_error l p = Some (Some v).
Proof.
  intros s l HP HM ES AS EB p v Hp. pose proof wf_f as W. unfold auto_body in EB.
  replace (period >? 1)%Z with true in EB by (symmetry; rewrite Z.gtb_ltb; apply Z.ltb_lt; lia).
  rewrite ES, bind_ok in EB. destruct (wf_first_last f s W AS) as (n & EA & LS & S0 & Sn). rewrite EA in HM.
  destruct (refup_spec s n LS HM S0 Sn) as (p1 & R1 & A1 & O1 & W1 & N1). rewrite R1, bind_ok in EB.
  assert (exists l1, (if f_need p1 then
                do r <- step_by_step_fill_up sp p1 MWeightedAvg (Some ENone) (auto_kw period);
                match r with Some (l, _) => Ok l | None => Err TypeErr end
              else Ok (map Some (somes s))) = Ok l1 /\ agrees f l1 /\ nth_error l1 p = Some (Some v)) as (l1 & E1 & AL & K1).
  { destruct (f_need p1) eqn:NP.
    - destruct (step_by_step_fill_up sp p1 MWeightedAvg (Some ENone) (auto_kw period)) as [[[l1 tg]|]|] eqn:EST;
        cbn [bind] in *; try discriminate.
      destruct (step_keeps sp p1 MWeightedAvg ENone (auto_kw period) l1 tg (W1 eq_refl) ltac:(discriminate) EST) as [AG _].
      exists l1. split; auto. split.
      + split; [rewrite (proj1 AG), A1; auto|]. intros q w Ow. apply AG. apply O1. apply AS. auto.
      + apply AG. apply O1. auto.
    - rewrite (N1 eq_refl). exists s. auto. }
  rewrite E1, bind_ok in EB.
  destruct (wf_first_last f l1 W AL) as (n' & EA' & LS' & S0' & Sn').
  assert (n' = n) by lia. subst n'.
  destruct (refup_spec l1 n LS' HM S0' Sn') as (p2 & R2 & A2 & O2 & W2 & N2). rewrite R2, bind_ok in EB.
  destruct (f_need p2) eqn:NP2.
  - unfold entire_fill_up in EB. destruct (linear_entire_spec p2 (W2 eq_refl)) as (l' & E & LL & K & G). rewrite E in EB.
    cbn [bind] in EB. assert (EL : l = map Some l') by congruence. subst l. rewrite nth_error_map, (K p v); auto. apply O2. auto.
  - rewrite (N2 eq_refl) in EB. assert (EL : l = l1) by congruence. subst l. auto.
Qed.
End Auto.
