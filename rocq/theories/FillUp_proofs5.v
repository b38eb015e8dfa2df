From Coq Require Import List Arith ZArith Lia Bool Sorted.
From Verif Require Import Base Num Sorting FillUp_model FillUp_spec FillUp_proofs FillUp_proofs2
  FillUp_proofs3 FillUp_proofs4.
Import ListNotations.
Open Scope nat_scope.


(** * Re-reading a partially filled array *)
Lemma known_cons : forall x t, known_indices (x :: t) =
  (if is_none x then [] else [0]) ++ map S (known_indices t).
Proof.
  intros x t. unfold known_indices, range. cbn [length seq].
  rewrite <- seq_shift. cbn [filter]. change (nth 0 (x :: t) None) with x.
  assert (E : forall l, filter (fun i => negb (is_none (nth i (x :: t) None))) (map S l) =
              map S (filter (fun i => negb (is_none (nth i t None))) l)).
  { induction l as [|a l IH]; auto. cbn [map filter]. rewrite IH.
    change (nth (S a) (x :: t) None) with (nth a t None).
    destruct (negb (is_none (nth a t None))); auto. }
  rewrite E. destruct x; auto.
Qed.

Lemma known_spec : forall s q, In q (known_indices s) <-> exists v, nth_error s q = Some (Some v).
Proof.
  intros s q. unfold known_indices. rewrite filter_In. unfold range. rewrite in_seq. split.
  - intros [L H]. rewrite (nth_error_of_nth _ s q None) by lia.
    destruct (nth q s None); [eauto|discriminate].
  - intros [v H]. split; [apply nth_error_lt in H; lia|].
    rewrite (nth_error_nth_d _ _ _ _ None H). auto.
Qed.

Lemma known_observed : forall s q v,
  observed (known_indices s) (somes s) q v <-> nth_error s q = Some (Some v).
Proof.
  induction s as [|x t IH]; intros q v.
  - split; [intros (k & A & B); destruct k; discriminate|destruct q; discriminate].
  - rewrite known_cons. destruct x as [w|]; simpl.
    + split.
      * intros ([|k] & A & B); simpl in *.
        -- inversion A; inversion B; subst. auto.
        -- apply nth_error_map_some in A. destruct A as (q' & A & <-). simpl. apply IH. exists k; auto.
      * destruct q as [|q]; simpl; intros H.
        -- inversion H; subst. exists 0. auto.
        -- apply IH in H. destruct H as (k & A & B). exists (S k). simpl.
           rewrite nth_error_map, A. auto.
    + split.
      * intros (k & A & B). apply nth_error_map_some in A. destruct A as (q' & A & <-). simpl.
        apply IH. exists k; auto.
      * destruct q as [|q]; simpl; intros H; [discriminate|].
        apply IH in H. destruct H as (k & A & B). exists k. rewrite nth_error_map, A. auto.
Qed.

Lemma known_length : forall s, length (known_indices s) = length (somes s).
Proof.
  induction s as [|x t IH]; auto. rewrite known_cons, app_length, map_length, IH.
  destruct x; auto.
Qed.

Lemma incr_filter : forall g l, incr l -> incr (filter g l).
Proof.
  induction l as [|a t IH]; intros S0; simpl; auto. inversion S0 as [|? ? S1 F]; subst.
  destruct (g a); auto. constructor; auto. rewrite Forall_forall in *. intros x Hx.
  apply filter_In in Hx. apply F. tauto.
Qed.
Lemma incr_seq : forall n k, incr (seq k n).
Proof.
  induction n; intros k; simpl; constructor; auto.
  rewrite Forall_forall. intros x Hx. apply in_seq in Hx. lia.
Qed.

Lemma sorted_of_nat : forall l, incr l -> StronglySorted Z.lt (map Z.of_nat l).
Proof.
  induction l as [|a t IH]; intros S0; simpl; constructor; inversion S0 as [|? ? S1 F]; subst; auto.
  rewrite Forall_forall in *. intros x Hx. apply in_map_iff in Hx. destruct Hx as (y & <- & Hy).
  apply F in Hy. lia.
Qed.

Lemma map_to_of_nat : forall l, map Z.to_nat (map Z.of_nat l) = l.
Proof. induction l; simpl; auto. rewrite Nat2Z.id. f_equal; auto. Qed.

Lemma somes_full : forall A (s : list (option A)), length (somes s) = length s -> map Some (somes s) = s.
Proof.
  induction s as [|[v|] t IH]; simpl; intros H; auto.
  - f_equal. apply IH. lia.
  - pose proof (somes_length _ t). lia.
Qed.

Lemma refup_spec : forall s n, length s = S n -> (Z.of_nat (S n) <= default_maxlen)%Z ->
  (exists v, nth_error s 0 = Some (Some v)) -> (exists v, nth_error s n = Some (Some v)) ->
  exists p, refup s = Ok p /\ f_all p = S n /\
   (forall q v, observed (f_indices p) (f_values p) q v <-> nth_error s q = Some (Some v)) /\
   (f_need p = true -> wf_fup p) /\ (f_need p = false -> map Some (somes s) = s).
Proof.
  intros s n HL HM H0 Hn. unfold refup.
  assert (I0 : In 0 (known_indices s)) by (apply known_spec; auto).
  assert (In' : In n (known_indices s)) by (apply known_spec; auto).
  assert (SI : incr (known_indices s)) by (apply incr_filter, incr_seq).
  assert (NE : known_indices s <> []) by (intro E; rewrite E in I0; destruct I0).
  assert (HD : hd_error (known_indices s) = Some 0).
  { destruct (known_indices s) as [|a t] eqn:E; [congruence|]. simpl.
    destruct I0 as [->|I0]; auto. inversion SI as [|? ? _ F]; subst. rewrite Forall_forall in F.
    apply F in I0. lia. }
  assert (LAST : last (known_indices s) 0 = n).
  { pose proof (incr_last_ge _ n 0 SI In'). pose proof (last_In _ _ 0 NE) as LI.
    apply known_spec in LI. destruct LI as [v Lv]. apply nth_error_lt in Lv. lia. }
  destruct (make_fup_accepts (map Z.of_nat (known_indices s)) (map Some (somes s)) default_maxlen) as [p Hp].
  { right. rewrite !map_length, known_length. split; auto. split; [|split].
    - intro I. apply in_map_iff in I. destruct I as (x & D & _). discriminate.
    - destruct (known_indices s); simpl in *; [discriminate|]. inversion HD; auto.
    - apply sorted_of_nat; auto. }
  exists p. split; auto.
  assert (NEm : map Z.of_nat (known_indices s) <> []).
  { intro E. apply map_eq_nil in E. auto. }
  destruct (make_fup_ok_inv _ _ _ _ NEm Hp)
    as (_ & EI & EV & _ & EM & EN & WF & _ & _ & _ & EA).
  rewrite map_to_of_nat in EI.
  assert (EV' : f_values p = somes s).
  { apply (f_equal somes) in EV. rewrite !somes_map_Some in EV. auto. }
  rewrite EI in EA. rewrite LAST in EA. split; auto.
  split. { intros q v. rewrite EI, EV'. apply known_observed. }
  split; auto. intros NF.
  apply somes_full. rewrite map_length in EM.
  assert (~ (0 < f_missing p)%Z).
  { intro X. assert (f_need p = true); [|congruence]. apply EN. rewrite EA. auto. }
  pose proof (somes_length _ s). rewrite known_length in EM. lia.
Qed.

(** * Scatter stage *)
Lemma clip_range_nth : forall full i m lo hi k,
  nth_error (clip_range full i m lo hi) k =
  if (i <=? k) && (k <? i + m) then option_map (option_map (fun v => Qcmin (Qcmax v lo) hi)) (nth_error full k)
  else nth_error full k.
Proof.
  intros. unfold clip_range. rewrite nth_error_mapi. destruct (nth_error full k); simpl;
  destruct ((i <=? k) && (k <? i + m)); auto.
Qed.

Lemma clip_bounds : forall v lo hi, (lo <= hi)%Qc ->
  (lo <= Qcmin (Qcmax v lo) hi /\ Qcmin (Qcmax v lo) hi <= hi)%Qc.
Proof. intros. split; [apply Qcmin_glb; auto; apply Qcmax_r|apply Qcmin_r]. Qed.

Definition in_box (lo hi : Qc) (c : option Qc) : Prop :=
  match c with None => True | Some v => (lo <= v /\ v <= hi)%Qc end.

Lemma scatter_loop_spec : forall f period lo hi, wf_fup f -> (lo <= hi)%Qc ->
  (forall p v, observed (f_indices f) (f_values f) p v -> lo <= v /\ v <= hi)%Qc ->
  forall fuel i j full, at_start f i j -> f_all f <= i + fuel -> agrees f full ->
  (forall p, p < f_all f -> exists c, nth_error full p = Some c /\ (p < i -> in_box lo hi c) /\
       (i <= p -> exists v, c = Some v)) ->
  exists full', scatter_loop fuel f period lo hi i j full = Ok full' /\ agrees f full' /\
    forall p c, nth_error full' p = Some c -> in_box lo hi c.
Proof.
  intros f period lo hi W LH B. 
  assert (FIN : forall i full, f_all f <= i -> agrees f full ->
    (forall p, p < f_all f -> exists c, nth_error full p = Some c /\ (p < i -> in_box lo hi c) /\
       (i <= p -> exists v, c = Some v)) -> forall p c, nth_error full p = Some c -> in_box lo hi c).
  { intros i full H A Q p c Hc. destruct (Q p) as (c' & H1 & H2 & _).
    - rewrite <- (proj1 A). apply nth_error_lt in Hc. auto.
    - rewrite Hc in H1. inversion H1; subst. apply H2. rewrite <- (proj1 A) in H.
      apply nth_error_lt in Hc. lia. }
  induction fuel as [|fuel IH]; intros i j full P HL A Q.
  - cbn [scatter_loop]. destruct (i <? f_all f) eqn:E; cbn [negb].
    + apply Nat.ltb_lt in E; lia.
    + apply Nat.ltb_ge in E. exists full. split; auto. split; auto. eapply FIN; eauto.
  - cbn [scatter_loop]. destruct (i <? f_all f) eqn:E; cbn [negb].
    2:{ apply Nat.ltb_ge in E. exists full. split; auto. split; auto. eapply FIN; eauto. }
    apply Nat.ltb_lt in E. pose proof E as E1. rewrite (wf_all f W) in E1.
    destruct (ptr_next _ i j (wf_incr f W) (wf_ne f W) E1 (proj1 P)) as (x & Hx & Lx).
    rewrite Hx. destruct (x =? i) eqn:EX.
    + apply Nat.eqb_eq in EX. subst x. apply IH; auto.
      * apply at_start_hit; auto.
      * lia.
      * intros p Lp. destruct (Q p Lp) as (c & H1 & H2 & H3). exists c. split; auto. split.
        -- intros L. destruct (Nat.eq_dec p i) as [->|N]; [|apply H2; lia].
           destruct (wf_observed f i W) as [v Hv]; [eapply nth_error_In; eauto|].
           rewrite (proj2 A _ _ Hv) in H1. inversion H1; subst. simpl. eauto.
        -- intros L. apply H3. lia.
    + apply Nat.eqb_neq in EX. assert (LX : i < x) by lia.
      apply Nat.ltb_lt in LX. rewrite LX. apply Nat.ltb_lt in LX.
      destruct (at_start_gap f i j x W P Hx LX) as (j' & a & -> & Ha & Ei).
      destruct (linear_seg_spec f i j' x a W Ha Hx Ei LX) as (r & m & R1 & R2 & R3 & R4 & R5 & va & vb & Oa & Ob & R6).
      rewrite (nth_error_nth_d _ _ _ _ 0 R2).
      assert (XA : x < f_all f) by (apply wf_in_lt; auto; eapply nth_error_In; eauto).
      assert (NG : forall p, i <= p < i + m -> ~ In p (f_indices f)).
      { intros p Lp I. destruct R5 as (_ & _ & _ & R5). destruct (R5 p I); lia. }
      assert (LF : length full = f_all f) by apply A.
      destruct ((6 <? m) || ((period >? 1)%Z && (4 * Z.of_nat m >? period)%Z)).
      * apply IH.
        -- rewrite R4. apply (at_start_jump f i); auto; try apply P; lia.
        -- lia.
        -- apply agrees_splice; rewrite ?repeat_length; auto. lia.
        -- intros p Lp. rewrite nth_error_splice by (rewrite repeat_length; lia). rewrite repeat_length.
           destruct ((i <=? p) && (p <? i + m)) eqn:EP.
           ++ apply andb_true_iff in EP. destruct EP as [P1 P2]. apply Nat.leb_le in P1. apply Nat.ltb_lt in P2.
              rewrite nth_error_repeat. replace (p - i <? m) with true by (symmetry; apply Nat.ltb_lt; lia).
              exists None. split; auto. split; [simpl; auto|lia].
           ++ destruct (Q p Lp) as (c & H1 & H2 & H3). exists c. split; auto.
              apply andb_false_iff in EP. destruct EP as [EP|EP];
                [apply Nat.leb_gt in EP|apply Nat.ltb_ge in EP]; split; intros; try (apply H2; lia); apply H3; lia.
      * unfold scatter_short. rewrite R1.
        assert (MID : exists full2,
          (let s := surrounding f full i m in
           (if (2 <? length s) && (is_ascending s || is_descending s) then
              if existsb (fun x => match nth x full None with
                            | Some v => Qcltb v (Qcmin (hd 0%Qc s) (last s 0%Qc)) || Qcltb (Qcmax (hd 0%Qc s) (last s 0%Qc)) v
                            | None => false end) (seq i m)
              then do l <- Ok r; Ok (splice full i (map Some l)) else Ok full
            else Ok full)) = Ok full2 /\ agrees f full2 /\
          (forall p, ~ (i <= p < i + m) -> nth_error full2 p = nth_error full p) /\
          (forall p, i <= p < i + m -> exists v, nth_error full2 p = Some (Some v))).
        { assert (SAME : agrees f full /\ (forall p, ~ (i <= p < i + m) -> nth_error full p = nth_error full p) /\
            (forall p, i <= p < i + m -> exists v, nth_error full p = Some (Some v))).
          { split; auto. split; auto. intros p Lp. destruct (Q p ltac:(lia)) as (c & H1 & _ & H3).
            destruct (H3 ltac:(lia)) as [v ->]. eauto. }
          cbv zeta.
          destruct (_ && _); [destruct (existsb _ _)|]; simpl bind;
            [|exists full; split; [auto|exact SAME]|exists full; split; [auto|exact SAME]].
          exists (splice full i (map Some r)). split; auto.
          split. { apply agrees_splice; rewrite ?map_length; rewrite <- ?R3; auto. lia. }
          split; intros p Lp; rewrite nth_error_splice by (rewrite map_length; lia); rewrite map_length, <- R3.
          - replace ((i <=? p) && (p <? i + m)) with false; auto. symmetry. apply andb_false_iff.
            destruct (Nat.leb_spec i p); auto. right. apply Nat.ltb_ge. lia.
          - replace ((i <=? p) && (p <? i + m)) with true.
            + rewrite nth_error_map, R6 by lia. simpl. eauto.
            + symmetry. apply andb_true_iff. split; [apply Nat.leb_le|apply Nat.ltb_lt]; lia. }
        destruct MID as (full2 & M1 & M2 & M3 & M4). cbv zeta in M1. cbv zeta. rewrite M1. simpl bind.
        apply IH.
        -- rewrite R4. apply (at_start_jump f i); auto; try apply P; lia.
        -- lia.
        -- split. { unfold clip_range. rewrite mapi_length. apply M2. }
           intros p v Ov. rewrite clip_range_nth.
           destruct ((i <=? p) && (p <? i + m)) eqn:EP; [|apply M2; auto].
           apply andb_true_iff in EP. destruct EP as [P1 P2]. apply Nat.leb_le in P1. apply Nat.ltb_lt in P2.
           exfalso. apply (NG p); [lia|]. eapply observed_in; eauto.
        -- intros p Lp. rewrite clip_range_nth.
           destruct ((i <=? p) && (p <? i + m)) eqn:EP.
           ++ apply andb_true_iff in EP. destruct EP as [P1 P2]. apply Nat.leb_le in P1. apply Nat.ltb_lt in P2.
              destruct (M4 p ltac:(lia)) as [v Hv]. rewrite Hv. simpl. eexists. split; [reflexivity|].
              split; [|lia]. intros _. simpl. apply clip_bounds; auto.
           ++ assert (~ (i <= p < i + m)).
              { apply andb_false_iff in EP. destruct EP as [EP|EP];
                [apply Nat.leb_gt in EP|apply Nat.ltb_ge in EP]; lia. }
              rewrite M3 by auto. destruct (Q p Lp) as (c & H1 & H2 & H3). exists c. split; auto.
              split; intros; [apply H2; lia|apply H3; lia].
Qed.

(** * The whole automatic filling *)
Lemma wf_first_last : forall f full, wf_fup f -> agrees f full ->
  exists n, f_all f = S n /\ length full = S n /\ (exists v, nth_error full 0 = Some (Some v)) /\
            (exists v, nth_error full n = Some (Some v)).
Proof.
  intros f full W A. exists (last (f_indices f) 0). split; [apply (wf_all f W)|].
  split; [rewrite (proj1 A); apply (wf_all f W)|].
  assert (I0 : In 0 (f_indices f)).
  { pose proof (wf_hd f W). destruct (f_indices f); simpl in *; [discriminate|]. inversion H; auto. }
  split.
  - destruct (wf_observed f _ W I0) as [v Hv]. exists v. apply A; auto.
  - destruct (wf_observed f _ W (last_In _ _ 0 (wf_ne f W))) as [v Hv]. exists v. apply A; auto.
Qed.

Lemma auto_step_outcome : forall sp p arr i j period lo hi v, wf_fup p -> agrees p arr -> i < f_all p ->
  (forall q w, observed (f_indices p) (f_values p) q w -> lo <= w /\ w <= hi)%Qc ->
  outcome p (fun arr i j => step_func sp MWeightedAvg (auto_kw period) arr i (f_values p) j (f_fmc p) (f_mc p))
     ENone arr i j v -> in_box lo hi v.
Proof.
  intros sp p arr i j period lo hi v W A L B [H|(e & _ & [[_ ->]|[H _]])]; simpl; auto; [|discriminate].
  simpl in H. unfold basic_func in H. simpl k_period in H. simpl k_cp in H.
  set (per := (if true && (period >? 1)%Z then period else 1%Z)) in H.
  assert (exists P, per = Z.of_nat P /\ 0 < P) as (P & EP & HP).
  { unfold per. destruct (true && (period >? 1)%Z) eqn:E; [|exists 1; auto].
    simpl in E. rewrite Z.gtb_ltb in E. apply Z.ltb_lt in E.
    exists (Z.to_nat period). lia. }
  rewrite EP in H.
  pose proof (get_bf_spec p arr i j P 3 3 SIgnore false W A HP L) as HB.
  simpl k_bn in H. simpl k_fn in H. simpl k_lev in H. simpl k_short in H. simpl k_weights in H.
  destruct (get_bf arr i (f_values p) j (Z.of_nat P) (f_fmc p) (f_mc p) 3 3 false SIgnore)
    as [[[b g]|]|e]; simpl in H; try discriminate.
  - destruct HB as (HB1 & HB2 & HB3 & HB4).
    unfold bind in H. destruct (np_average_w (b ++ g) _) as [w|] eqn:EW; [|discriminate].
    inversion H; subst. simpl.
    apply (np_average_w_bounds _ _ lo hi w) in EW; auto.
    + intros u Hu. apply slice_incl in Hu. apply auto_weights_pos; auto.
    + intros u Hu. specialize (HB4 eq_refl u Hu). apply In_nth_error in HB4. destruct HB4 as [k Hk].
      destruct (nth_error_ex _ (f_indices p) k) as [q Hq].
      { rewrite (wf_len p W). apply nth_error_lt in Hk. auto. }
      apply (B q u). exists k. auto.
  - inversion H; subst. simpl; auto.
Qed.

Lemma auto_body_spec : forall sp f period, wf_fup f ->
  (Z.of_nat (f_all f) <= default_maxlen)%Z ->
  ((period > 1)%Z -> 4 <= length (f_values f)) ->
  (forall p v, observed (f_indices f) (f_values f) p v -> sp (f_indices f) (f_values f) p = v) ->
  exists l, auto_body sp f period = Ok (map Some l) /\ length l = f_all f /\
    (forall p v, observed (f_indices f) (f_values f) p v -> nth_error l p = Some v) /\
    (forall v, In v l -> qmin_list (f_values f) <= v /\ v <= qmax_list (f_values f))%Qc.
Proof.
  intros sp f period W HM H4 HS. unfold auto_body.
  pose proof (wf_values_bounds f) as VB.
  destruct (period >? 1)%Z eqn:EP.
  2:{ destruct (linear_entire_spec f W) as (l & E & LL & K & G). rewrite E. simpl.
      exists l. split; auto. split; auto. split; auto.
      intros v Iv. apply In_nth_error in Iv. destruct Iv as [k Hk].
      eapply (linear_entire_bounds f l); eauto. }
  rewrite Z.gtb_ltb in EP. apply Z.ltb_lt in EP. specialize (H4 ltac:(lia)).
  set (lo := qmin_list (f_values f)) in *. set (hi := qmax_list (f_values f)) in *.
  assert (LH : (lo <= hi)%Qc).
  { pose proof (wf_hd f W) as HD. pose proof (wf_len f W) as WL.
    assert (NV : f_values f <> []) by (intro X; rewrite X in H4; simpl in H4; lia).
    pose proof (qmin_list_in _ NV) as IM. apply (qmax_list_ge (f_values f)) in IM. exact IM. }
  (* stage 1 *)
  assert (exists s, scatter_fill_up sp f period = Ok s /\ agrees f s /\
            forall p c, nth_error s p = Some c -> in_box lo hi c) as (s & ES & AS & BS).
  { unfold scatter_fill_up, spline_entire.
    destruct (length (f_values f) <=? 3) eqn:E3; [apply Nat.leb_le in E3; lia|]. simpl bind.
    apply scatter_loop_spec; auto.
    - split; [apply ptr_0|auto].
    - split. { rewrite !map_length. unfold range. apply seq_length. }
      intros p v Ov. rewrite !nth_error_map. unfold range. rewrite nth_error_seq.
      assert (Lp : p < f_all f) by (apply wf_in_lt; auto; eapply observed_in; eauto).
      apply Nat.ltb_lt in Lp. rewrite Lp. simpl. rewrite (HS _ _ Ov). auto.
    - intros p Lp. rewrite !nth_error_map. unfold range. rewrite nth_error_seq.
      apply Nat.ltb_lt in Lp. rewrite Lp. simpl. eexists. split; [reflexivity|]. split; [lia|eauto]. }
  rewrite ES. rewrite bind_ok.
  destruct (wf_first_last f s W AS) as (n & EA & LS & S0 & Sn).
  rewrite EA in HM.
  destruct (refup_spec s n LS HM S0 Sn) as (p1 & R1 & A1 & O1 & W1 & N1).
  rewrite R1. rewrite bind_ok.
  assert (B1 : forall q w, observed (f_indices p1) (f_values p1) q w -> (lo <= w /\ w <= hi)%Qc).
  { intros q w Ow. apply O1 in Ow. apply BS in Ow. exact Ow. }
  (* stage 2 *)
  assert (exists l1, (if f_need p1 then
                do r <- step_by_step_fill_up sp p1 MWeightedAvg (Some ENone) (auto_kw period);
                match r with Some (l, _) => Ok l | None => Err TypeErr end
              else Ok (map Some (somes s))) = Ok l1 /\ agrees f l1 /\
            forall p c, nth_error l1 p = Some c -> in_box lo hi c) as (l1 & E1 & AL & BL).
  { destruct (f_need p1) eqn:NP.
    - specialize (W1 eq_refl). unfold step_by_step_fill_up. rewrite NP. simpl negb. cbv iota.
      pose proof (step_loop_scalar p1
        (fun arr i j => step_func sp MWeightedAvg (auto_kw period) arr i (f_values p1) j (f_fmc p1) (f_mc p1))
        ENone W1) as SL.
      destruct (values_to_fill_spec p1 W1) as [V1 V2].
      specialize (SL ltac:(intros full i j x Af Pt Hx Lt; apply step_func_scalar; auto; try discriminate;
         assert (x < f_all p1) by (apply wf_in_lt; auto; eapply nth_error_In; eauto); lia)
         (f_all p1) 0 0 (values_to_fill p1) (ptr_0 _) ltac:(lia) V1).
      destruct (step_loop _ _ _ _ _ _ _) as [full'|e].
      2:{ destruct SL as (X & _). discriminate. }
      destruct SL as (SA & _ & SM). simpl bind. exists full'. split; auto. split.
      + split; [rewrite (proj1 SA), A1; auto|].
        intros p v Ov. apply SA. apply O1. apply AS. auto.
      + intros p c Hc.
        assert (Lp : p < f_all p1) by (rewrite <- (proj1 SA); apply nth_error_lt in Hc; auto).
        destruct (in_dec_nat p (f_indices p1)) as [I|NI].
        * destruct (wf_observed p1 p W1 I) as [v Hv]. rewrite (proj2 SA _ _ Hv) in Hc. inversion Hc; subst.
          simpl. eauto.
        * destruct (SM p ltac:(lia) NI) as (fp & jp & v & Q1 & Q2 & Q3 & Q4).
          rewrite Hc in Q3. inversion Q3; subst. eapply auto_step_outcome; eauto.
    - rewrite (N1 eq_refl). exists s. auto. }
  rewrite E1. rewrite bind_ok.
  destruct (wf_first_last f l1 W AL) as (n' & EA' & LS' & S0' & Sn').
  assert (n' = n) by lia. subst n'.
  destruct (refup_spec l1 n LS' HM S0' Sn') as (p2 & R2 & A2 & O2 & W2 & N2).
  rewrite R2. rewrite bind_ok.
  destruct (f_need p2) eqn:NP2.
  - specialize (W2 eq_refl). unfold entire_fill_up.
    destruct (linear_entire_spec p2 W2) as (l & E & LL & K & G). rewrite E. simpl bind.
    exists l. split; auto. split; [lia|]. split.
    + intros p v Ov. apply K. apply O2. apply AL; auto.
    + intros v Iv. apply In_nth_error in Iv. destruct Iv as [k Hk].
      eapply (linear_entire_bounds p2 l lo hi W2); eauto.
      intros q w Ow. apply O2 in Ow. apply BL in Ow. exact Ow.
  - exists (somes l1). specialize (N2 eq_refl). split; auto.
    assert (LL : length (somes l1) = f_all f).
    { rewrite <- (map_length Some), N2. apply AL. }
    split; auto. split.
    + intros p v Ov. apply AL in Ov. rewrite <- N2, nth_error_map in Ov.
      destruct (nth_error (somes l1) p); inversion Ov; auto.
    + intros v Iv. apply in_somes in Iv. apply In_nth_error in Iv. destruct Iv as [k Hk].
      apply BL in Hk. exact Hk.
Qed.
