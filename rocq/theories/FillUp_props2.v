(** Properties C64, C65 and C67: statistic fills, gap listings, short gaps. *)
From Coq Require Import List Arith ZArith QArith Qcanon Lia Bool Sorted Permutation.
From Verif Require Import Base Num Sorting FillUp_model FillUp_spec FillUp_spec2 FillUp_proofs FillUp_proofs2
  FillUp_proofs3 FillUp_proofs4 FillUp_proofs5 FillUp_proofs6 FillUp_proofs7 FillUp_proofs8 FillUp_props.
Import ListNotations.
Open Scope nat_scope.

Lemma perm_near : forall b a : list Qc, Permutation (rev b ++ a) (b ++ a).
Proof. intros. apply Permutation_app_tail. symmetry. apply Permutation_rev. Qed.

(** C64. Filling by minimum, maximum, mean or median of the nearest submitted
    neighbours: backward_n before and forward_n after, at distances that are
    multiples of the period (of 1 when no period is considered), in the mode
    that takes as many as there are and never earlier filled values. *)
Theorem C64_statistic_fill : forall sp ix vs maxlen f s em kw,
  make_fup (Some ix) vs maxlen = Ok f -> f_need f = true ->
  k_lev kw = false -> k_short kw = STryBest -> 0 < k_bn kw + k_fn kw ->
  (forall p, k_period kw = Some p -> (0 <= p)%Z) -> (s = SMean -> k_weights kw = None) ->
  exists full, fill_up sp f (Step (method_of s)) em kw = Ok (Some (full, f_tags f)) /\
    length full = f_all f /\ carries ix vs full /\
    forall p, p < f_all f -> ~ is_given ix p ->
      let P := match k_period kw with Some q => if k_cp kw && (1 <? q)%Z then Z.to_nat q else 1 | None => 1 end in
      let near := before ix vs p P (k_bn kw) ++ after ix vs p P (k_fn kw) (f_all f) in
      (near = [] /\ nth_error full p = Some None) \/
      exists v, nth_error full p = Some (Some v) /\ is_statistic s near v.
Proof.
  intros sp ix vs maxlen f s em kw HF HN HL HS HB HP HW.
  set (val := fun p => let b := before ix vs p (lookup_period kw) (k_bn kw) in
    let a := after ix vs p (lookup_period kw) (k_fn kw) (f_all f) in
    match b ++ a with [] => None | _ => match reduce (red_of s) (rev b ++ a) with Ok v => Some v | Err _ => None end end).
  destruct (fill_core sp ix vs maxlen f kw HF HN HL HS HB HP (method_of s) em val
    (fun b a => do v <- reduce (red_of s) (b ++ a); Ok (Some v))) as (full & E & LF & C & V).
  - destruct s; discriminate.
  - destruct s; discriminate.
  - intros kw' arr i j E1 E2 E3 E4 E5 E6.
    assert (EQ : basic_func (red_of s) kw' arr i (f_values f) j (f_fmc f) (f_mc f) =
      step_func sp (method_of s) kw' arr i (f_values f) j (f_fmc f) (f_mc f)) by (destruct s; reflexivity).
    rewrite <- EQ. unfold basic_func. rewrite <- E1, <- E2, E3, E4, <- E6.
    replace (match k_period kw' with
      | Some p => if k_cp kw' && (p >? 1)%Z then p else 1%Z | None => 1%Z end) with (Z.of_nat (lookup_period kw')).
    2:{ unfold lookup_period. destruct (k_period kw') as [q|]; auto. rewrite Z.gtb_ltb.
        destruct (k_cp kw'); auto. cbn [andb]. destruct (1 <? q)%Z eqn:EQQ; auto. apply Z.ltb_lt in EQQ.
        rewrite Z2Nat.id; lia. }
    destruct (get_bf _ _ _ _ _ _ _ _ _ _ _) as [[[b a]|]|]; cbn [bind]; auto.
    destruct (red_of s) eqn:ER; try (destruct (reduce _ _); reflexivity).
    destruct s; try discriminate. rewrite E5, (HW eq_refl). destruct (reduce _ _); reflexivity.
  - intros p Lp. unfold val. cbv zeta.
    destruct (before ix vs p (lookup_period kw) (k_bn kw)) as [|u t] eqn:EB.
    + destruct (after ix vs p (lookup_period kw) (k_fn kw) (f_all f)) as [|w z] eqn:EA; auto.
    + destruct (reduce_statistic s (rev (u :: t) ++ after ix vs p (lookup_period kw) (k_fn kw) (f_all f))) as (v & -> & _); [|reflexivity].
      cbn [rev]. destruct (rev t); discriminate.
  - exists full. split; auto. split; auto. split; auto. intros p Lp NG. cbv zeta.
    change (match k_period kw with Some q => if k_cp kw && (1 <? q)%Z then Z.to_nat q else 1 | None => 1 end)
      with (lookup_period kw). rewrite (V p Lp NG). unfold val.
    set (b := before ix vs p (lookup_period kw) (k_bn kw)). set (a := after ix vs p (lookup_period kw) (k_fn kw) (f_all f)).
    cbv zeta. destruct (b ++ a) as [|w z] eqn:E2; [left; auto|]. right. rewrite <- E2.
    assert (NE : rev b ++ a <> []).
    { intro X. pose proof (perm_near b a) as PN. rewrite X, E2 in PN. apply Permutation_nil in PN. discriminate. }
    destruct (reduce_statistic s (rev b ++ a) NE) as (v & -> & ST). exists v. split; auto.
    apply (statistic_perm s _ _ v (perm_near b a) ST).
Qed.
Print Assumptions C64_statistic_fill.

(** C64. The weighted mean, for positive weights, one per requested neighbour:
    a neighbour keeps its weight when others are absent. *)
Theorem C64_weighted_fill : forall sp ix vs maxlen f m em kw ws,
  make_fup (Some ix) vs maxlen = Ok f -> f_need f = true ->
  k_lev kw = false -> k_short kw = STryBest -> 0 < k_bn kw + k_fn kw ->
  (forall p, k_period kw = Some p -> (0 <= p)%Z) ->
  m = MWeightedAvg \/ m = MAverage -> k_weights kw = Some ws -> length ws = k_bn kw + k_fn kw ->
  (forall w, In w ws -> (0 < w)%Qc) ->
  exists full, fill_up sp f (Step m) em kw = Ok (Some (full, f_tags f)) /\
    length full = f_all f /\ carries ix vs full /\
    forall p, p < f_all f -> ~ is_given ix p ->
      let P := match k_period kw with Some q => if k_cp kw && (1 <? q)%Z then Z.to_nat q else 1 | None => 1 end in
      let b := before ix vs p P (k_bn kw) in let a := after ix vs p P (k_fn kw) (f_all f) in
      (b ++ a = [] /\ nth_error full p = Some None) \/
      exists v, nth_error full p = Some (Some v) /\
        (0 < weighted ws (k_bn kw) b a (fun w _ => w))%Qc /\
        (v * weighted ws (k_bn kw) b a (fun w _ => w) = weighted ws (k_bn kw) b a (fun w x => w * x))%Qc.
Proof.
  intros sp ix vs maxlen f m em kw ws HF HN HL HS HB HP HM HW LW PW.
  set (red := fun b a : list Qc => do v <- np_average_w (b ++ a) (slice ws (k_bn kw - length b) (k_bn kw + length a)); Ok (Some v)).
  set (val := fun p => let b := before ix vs p (lookup_period kw) (k_bn kw) in
    let a := after ix vs p (lookup_period kw) (k_fn kw) (f_all f) in
    match b ++ a with [] => None | _ => match red (rev b) a with Ok v => v | Err _ => None end end).
  assert (AV : forall p, before ix vs p (lookup_period kw) (k_bn kw) ++ after ix vs p (lookup_period kw) (k_fn kw) (f_all f) <> [] ->
    let b := before ix vs p (lookup_period kw) (k_bn kw) in
    let a := after ix vs p (lookup_period kw) (k_fn kw) (f_all f) in
    exists v, red (rev b) a = Ok (Some v) /\ (0 < weighted ws (k_bn kw) b a (fun w _ => w))%Qc /\
        (v * weighted ws (k_bn kw) b a (fun w _ => w) = weighted ws (k_bn kw) b a (fun w x => w * x))%Qc).
  { intros p NE b a. destruct (weighted_average ws (k_bn kw) b a) as (v & E & A); auto.
    - unfold b, before. rewrite firstn_length. lia.
    - unfold a, after. rewrite firstn_length. lia.
    - exists v. split; auto. unfold red. rewrite rev_length, E. auto. }
  destruct (fill_core sp ix vs maxlen f kw HF HN HL HS HB HP m em val red) as (full & E & LF & C & V).
  - destruct HM; subst; discriminate.
  - destruct HM; subst; discriminate.
  - intros kw' arr i j E1 E2 E3 E4 E5 E6. rewrite HW in E5.
    assert (EQ : basic_func RAverage kw' arr i (f_values f) j (f_fmc f) (f_mc f) =
      step_func sp m kw' arr i (f_values f) j (f_fmc f) (f_mc f)).
    { destruct HM; subst; [|reflexivity]. cbn [step_func]. rewrite E5. reflexivity. }
    rewrite <- EQ. unfold basic_func, red. rewrite E5, <- E1, <- E2, E3, E4, <- E6.
    replace (match k_period kw' with
      | Some p => if k_cp kw' && (p >? 1)%Z then p else 1%Z | None => 1%Z end) with (Z.of_nat (lookup_period kw')).
    2:{ unfold lookup_period. destruct (k_period kw') as [q|]; auto. rewrite Z.gtb_ltb.
        destruct (k_cp kw'); auto. cbn [andb]. destruct (1 <? q)%Z eqn:EQQ; auto. apply Z.ltb_lt in EQQ.
        rewrite Z2Nat.id; lia. }
    destruct (get_bf _ _ _ _ _ _ _ _ _ _ _) as [[[b a]|]|]; cbn [bind]; auto.
    rewrite LW, E1, E2, Nat.eqb_refl. cbn [negb]. destruct (np_average_w _ _); reflexivity.
  - intros p Lp. unfold val. cbv zeta. pose proof (AV p) as AVp. cbv zeta in AVp.
    destruct (before ix vs p (lookup_period kw) (k_bn kw)) as [|u t] eqn:EB.
    + destruct (after ix vs p (lookup_period kw) (k_fn kw) (f_all f)) as [|w z] eqn:EA; auto.
      destruct AVp as (v & -> & _); [discriminate|]. reflexivity.
    + destruct AVp as (v & -> & _); [discriminate|]. reflexivity.
  - exists full. split; auto. split; auto. split; auto. intros p Lp NG. cbv zeta.
    change (match k_period kw with Some q => if k_cp kw && (1 <? q)%Z then Z.to_nat q else 1 | None => 1 end)
      with (lookup_period kw). rewrite (V p Lp NG). unfold val. pose proof (AV p) as AVp. cbv zeta in AVp |- *.
    set (b := before ix vs p (lookup_period kw) (k_bn kw)) in *.
    set (a := after ix vs p (lookup_period kw) (k_fn kw) (f_all f)) in *.
    destruct (b ++ a) as [|w z] eqn:E2; [left; auto|]. right.
    destruct AVp as (v & -> & A); [discriminate|]. exists v. auto.
Qed.
Print Assumptions C64_weighted_fill.

(** C64. Without a period no position is left empty. *)
Theorem C64_no_period_complete : forall ix vs maxlen f bn fn p,
  make_fup (Some ix) vs maxlen = Ok f -> f_need f = true -> 0 < bn + fn ->
  p < f_all f -> ~ is_given ix p ->
  before ix vs p 1 bn ++ after ix vs p 1 fn (f_all f) <> [].
Proof.
  intros ix vs maxlen f bn fn p HF HN HB Lp NG.
  destruct (accepted_facts _ _ _ _ HF HN) as (W & EI & EV & NN & HL & SS & _).
  assert (IN : forall q ps, In q ps -> is_given ix q -> values_at ix vs ps <> []).
  { intros q ps I G X. destruct (is_given_in ix vs maxlen f q HF HN) as [G1 _]. specialize (G1 G).
    apply In_nth_error in G1. destruct G1 as (k & E). pose proof (nth_error_lt _ _ _ _ E) as LK.
    rewrite (wf_len f W) in LK. destruct (nth_error_ex _ (f_values f) k LK) as (v & EVk).
    assert (O : observed (f_indices f) (f_values f) q v) by (exists k; auto).
    apply (given_observed ix vs maxlen f q v HF HN) in O. apply value_at_given in O; auto.
    assert (In v (values_at ix vs ps)) by (unfold values_at; apply in_flat_map; exists q; rewrite O; cbn; auto).
    rewrite X in H. destruct H. }
  assert (CUT : forall n (l : list Qc), 0 < n -> l <> [] -> firstn n l <> []).
  { intros n l N NE. destruct n; [lia|]. destruct l; [congruence|discriminate]. }
  assert (P0 : 0 < p).
  { destruct p; [|lia]. exfalso. apply NG. apply (given_zero ix vs maxlen f HF HN). }
  intro X. apply app_eq_nil in X. destruct X as [XB XA]. unfold before, after in *.
  destruct (Nat.eq_dec bn 0) as [->|B].
  - apply (CUT fn (values_at ix vs (positions_after p 1 (f_all f)))); [lia| |auto].
    destruct (fmc_facts ix vs maxlen f HF HN p Lp) as [A _]. apply (IN (p + nth p (f_fmc f) 0)); [|exact A].
    rewrite positions_after_one. apply in_seq. pose proof (given_lt ix vs maxlen f HF HN _ A).
    destruct (nth p (f_fmc f) 0); [rewrite Nat.add_0_r in A; contradiction|lia].
  - apply (CUT bn (values_at ix vs (positions_before p 1))); [lia| |auto].
    apply (IN 0); [|apply (given_zero ix vs maxlen f HF HN)].
    rewrite positions_before_one, <- in_rev. apply in_seq. lia.
Qed.
Print Assumptions C64_no_period_complete.

Definition ex_kw (ws : option (list Qc)) (period : option Z) : kwargs :=
  mkKw 2 1 false true period STryBest ws None.
(** Positions 2 and 3 of the running example see 20, 10 before and 50 after. *)
Example C64_example : exists f, make_fup (Some ex_ix) ex_vs 100 = Ok f /\ f_need f = true /\
  (forall s v, In (s, v) [(SMin, 10); (SMax, 50); (SMedian, 20)]%Z ->
    exists full tags, fill_up ex_sp f (Step (method_of s)) ERaise (ex_kw None None) = Ok (Some (full, tags)) /\
      nth_error (map (option_map this) full) 2 = Some (Some (inject_Z v))) /\
  (exists full tags, fill_up ex_sp f (Step MWeightedAvg) ERaise (ex_kw (Some [qz 1; qz 2; qz 3]) None) = Ok (Some (full, tags)) /\
      nth_error (map (option_map this) full) 2 = Some (Some (Qmake 100 3))) /\
  (exists full tags, fill_up ex_sp f (Step MMin) ERaise (ex_kw None (Some 3%Z)) = Ok (Some (full, tags)) /\
      map (option_map this) (firstn 4 full) =
      map (option_map inject_Z) [Some 10; Some 20; Some 40; Some 0]%Z).
Proof.
  eexists. split; [vm_compute; reflexivity|]. split; [reflexivity|]. split; [|split].
  - intros s v [E|[E|[E|[]]]]; inversion E; subst; eexists _, _; split; vm_compute; reflexivity.
  - eexists _, _; split; vm_compute; reflexivity.
  - eexists _, _; split; vm_compute; reflexivity.
Qed.

(** C65. get_missing_indices lists exactly the positions without a submitted
    value, ascending. *)
Theorem C65_missing_indices : forall ix vs maxlen f,
  make_fup (Some ix) vs maxlen = Ok f -> f_need f = true ->
  (forall p, In p (get_missing_indices f) <-> p < f_all f /\ ~ is_given ix p) /\
  StronglySorted lt (get_missing_indices f).
Proof. intros ix vs maxlen f HF HN. apply (missing_indices_spec ix vs maxlen f HF HN). Qed.
Print Assumptions C65_missing_indices.

(** C65. get_missing_segments lists exactly the maximal gaps, as start and
    length, in order. *)
Theorem C65_missing_segments : forall ix vs maxlen f,
  make_fup (Some ix) vs maxlen = Ok f -> f_need f = true ->
  (forall s l, In (s, l) (get_missing_segments f) <-> is_gap ix s l) /\
  StronglySorted lt (map fst (get_missing_segments f)).
Proof.
  intros ix vs maxlen f HF HN. unfold get_missing_segments.
  destruct (segments_loop_spec ix vs maxlen f HF HN (f_all f) 0) as (A & B & C); [lia| |].
  - intros _ NG. exfalso. apply NG. apply (given_zero ix vs maxlen f HF HN).
  - split; auto. intros s l. split; [intros I; apply (A s l I)|]. intros G. apply B; auto. lia.
Qed.
Print Assumptions C65_missing_segments.
Example C65_example : exists f, make_fup (Some ex_ix) ex_vs 100 = Ok f /\ f_need f = true /\
  get_missing_indices f = [2; 3; 6; 7; 8] /\ get_missing_segments f = [(2, 2); (6, 3)].
Proof. eexists. split; [vm_compute; reflexivity|]. repeat split. Qed.

Lemma clip_clipped : forall lo hi x, (lo <= hi)%Qc -> clipped lo hi x (Qcmin (Qcmax x lo) hi).
Proof.
  intros lo hi x LH. unfold clipped, Qcmin, Qcmax. destruct (x <=? lo)%Qc eqn:A; qb_hyps.
  - destruct (lo <=? hi)%Qc eqn:B; qb_hyps; [|exfalso; qlra].
    split; [auto|]. split; intros; apply Qcle_antisym; qlra.
  - destruct (x <=? hi)%Qc eqn:B; qb_hyps; (split; [|split]); intros; apply Qcle_antisym; qlra.
Qed.

(** C67. What automatic filling with a period puts into a short gap: the
    spline, or the straight line if the spline leaves the range of steady
    surroundings, clipped to the submitted range. *)
Theorem C67_short_gap : forall sp ix xs f period i m,
  make_fup (Some ix) (map Some xs) default_maxlen = Ok f -> f_need f = true -> 4 <= length ix -> (1 < period)%Z ->
  (forall p v, given ix (map Some xs) p v -> sp (map Z.to_nat ix) xs p = v) ->
  is_gap ix i m -> m <= 6 -> (4 * Z.of_nat m <= period)%Z ->
  exists full lo hi, fill_up_on_demand sp f FMAuto None (Some period) = Ok (Some (full, f_tags f)) /\
    is_statistic SMin xs lo /\ is_statistic SMax xs hi /\
    let raw := sp (map Z.to_nat ix) xs in
    let s := surroundings ix (map Some xs) i m in
    let corrected := 2 < length s /\ steady s /\ exists q, i <= q < i + m /\ ~ between (hd 0%Qc s) (last s 0%Qc) (raw q) in
    forall p, i <= p < i + m -> exists x v, nth_error full p = Some (Some v) /\ clipped lo hi x v /\
      (corrected -> forall va vb, given ix (map Some xs) (i - 1) va -> given ix (map Some xs) (i + m) vb ->
         x = on_line (i - 1) va (i + m) vb p) /\
      (~ corrected -> x = raw p).
Proof.
  intros sp ix xs f period i m HF HN H4 HP HS GAP M6 M4.
  destruct (accepted_facts _ _ _ _ HF HN) as (W & EI & EV & _ & HL & SS & HM & _).
  assert (EVX : f_values f = xs).
  { apply (f_equal somes) in EV. rewrite !somes_map_Some in EV. auto. }
  assert (L4 : 4 <= length (f_values f)) by (rewrite EVX; rewrite map_length in HL; lia).
  assert (TH : passes_through sp (f_indices f) (f_values f)).
  { intros p v O. rewrite EI, EVX. apply HS. apply (given_observed ix (map Some xs) default_maxlen f p v HF HN); auto. }
  destruct (scatter_fill_gaps sp ix (map Some xs) default_maxlen f HF HN TH period L4) as (s & ES & AS & DS).
  destruct (auto_body_spec sp f period W HM (fun _ => L4) TH) as (l & E & LL & K & B).
  pose proof (auto_keeps sp ix (map Some xs) default_maxlen f HF HN period s (map Some l) ltac:(lia) HM ES AS E) as KEEP.
  assert (NV : xs <> []) by (intro X; rewrite EVX, X in L4; cbn in L4; lia).
  exists (map Some l), (qmin_list xs), (qmax_list xs). split.
  { unfold fill_up_on_demand, fill_up. rewrite HN. cbn [negb plain_kw k_period].
    replace (period <? 0)%Z with false by (symmetry; apply Z.ltb_ge; lia). cbn [bind].
    unfold auto_fill_up. rewrite Z.max_l by lia. rewrite E. auto. }
  split; [split; [apply qmin_list_in; auto|apply qmin_list_le]|].
  split; [split; [apply qmax_list_in; auto|apply qmax_list_ge]|].
  intros raw sur corrected p Lp.
  assert (SH : negb ((6 <? m) || ((period >? 1)%Z && (4 * Z.of_nat m >? period)%Z)) = true).
  { apply negb_true_iff. apply orb_false_iff. split; [apply Nat.ltb_ge; auto|].
    apply andb_false_iff. right. rewrite Z.gtb_ltb. apply Z.ltb_ge. auto. }
  assert (LA : i + m <= f_all f).
  { destruct GAP as (_ & _ & _ & _ & G). apply (given_lt ix (map Some xs) default_maxlen f HF HN) in G. lia. }
  pose proof (KEEP p _ (DS i m p GAP LA SH Lp)) as FIN.
  exists (gap_value sp ix (map Some xs) f i m p), (gap_final sp ix (map Some xs) f i m p). split; auto.
  assert (LH : (qmin_list xs <= qmax_list xs)%Qc) by (apply qmax_list_ge; apply qmin_list_in; auto).
  split.
  { unfold gap_final. rewrite EVX. set (lo := qmin_list xs) in *. set (hi := qmax_list xs) in *.
    apply clip_clipped. auto. }
  assert (COND : (2 <? length sur) && (is_ascending sur || is_descending sur) &&
     existsb (fun q => Qcltb (sp (f_indices f) (f_values f) q) (Qcmin (hd 0%Qc sur) (last sur 0%Qc)) ||
        Qcltb (Qcmax (hd 0%Qc sur) (last sur 0%Qc)) (sp (f_indices f) (f_values f) q)) (seq i m) = true <-> corrected).
  { unfold corrected. rewrite !andb_true_iff, Nat.ltb_lt, steady_iff, existsb_exists. rewrite EI, EVX. fold raw.
    split.
    - intros ((A & B1) & q & I & O). split; auto. split; auto. exists q. apply in_seq in I. split; auto.
      apply orb_true_iff in O. rewrite !Qcltb_lt in O. intros BT. destruct O as [O|O]; revert O BT; unfold between; qmm; intros ? [[? ?]|[? ?]]; qlra.
    - intros (A & B1 & q & I & O). split; auto. exists q. split; [apply in_seq; lia|].
      apply orb_true_iff. rewrite !Qcltb_lt.
      destruct (Qclt_le_dec (raw q) (Qcmin (hd 0%Qc sur) (last sur 0%Qc))) as [|X]; auto.
      destruct (Qclt_le_dec (Qcmax (hd 0%Qc sur) (last sur 0%Qc)) (raw q)) as [|Y]; auto.
      exfalso. apply O. unfold between. revert X Y. qmm; intros; [left|right]; split; qlra. }
  unfold gap_value. cbv zeta. fold sur.
  destruct ((2 <? length sur) && (is_ascending sur || is_descending sur) && existsb _ _).
  - split; [|intros X; exfalso; apply X; apply COND; auto].
    intros _ va vb Ga Gb. apply (given_observed ix (map Some xs) default_maxlen f _ _ HF HN) in Ga, Gb.
    rewrite (value_single ix (map Some xs) default_maxlen f HF HN _ _ Ga), (value_single ix (map Some xs) default_maxlen f HF HN _ _ Gb).
    reflexivity.
  - split; [intros X; apply COND in X; discriminate|]. intros _. rewrite EI, EVX. reflexivity.
Qed.
Print Assumptions C67_short_gap.

Lemma steady_between : forall s x, steady s -> In x s -> between (hd 0%Qc s) (last s 0%Qc) x.
Proof.
  intros s x ST I. destruct ST as [ST|ST]; [left|right].
  - split.
    + destruct s as [|y t]; [destruct I|]. cbn [hd]. destruct I as [->|I]; [apply Qcle_refl|].
      inversion ST as [|? ? _ F]; subst. rewrite Forall_forall in F. auto.
    + revert I ST. induction s as [|y t IH]; intros I ST; [destruct I|]. inversion ST as [|? ? S2 F]; subst.
      rewrite Forall_forall in F. destruct t as [|z t]; [destruct I as [->|[]]; apply Qcle_refl|].
      change (last (y :: z :: t) 0%Qc) with (last (z :: t) 0%Qc). destruct I as [->|I]; [|apply IH; auto].
      apply F. apply last_In. discriminate.
  - split.
    + revert I ST. induction s as [|y t IH]; intros I ST; [destruct I|]. inversion ST as [|? ? S2 F]; subst.
      rewrite Forall_forall in F. destruct t as [|z t]; [destruct I as [->|[]]; apply Qcle_refl|].
      change (last (y :: z :: t) 0%Qc) with (last (z :: t) 0%Qc). destruct I as [->|I]; [|apply IH; auto].
      apply F. apply last_In. discriminate.
    + destruct s as [|y t]; [destruct I|]. cbn [hd]. destruct I as [->|I]; [apply Qcle_refl|].
      inversion ST as [|? ? _ F]; subst. rewrite Forall_forall in F. auto.
Qed.

Lemma between_bounds : forall a b lo hi x, (lo <= a)%Qc -> (a <= hi)%Qc -> (lo <= b)%Qc -> (b <= hi)%Qc ->
  between a b x -> (lo <= x)%Qc /\ (x <= hi)%Qc.
Proof. intros a b lo hi x ? ? ? ? [[? ?]|[? ?]]; split; qlra. Qed.
Lemma between_trans : forall a b u w x, between a b u -> between a b w -> between u w x -> between a b x.
Proof.
  intros a b u w x. unfold between. intros [[? ?]|[? ?]] [[? ?]|[? ?]] [[? ?]|[? ?]];
    first [left; split; qlra|right; split; qlra|idtac].
Qed.

(** C67. So a short gap whose (at least three) surrounding values rise or fall
    steadily is filled within their range, whatever the spline does. *)
Theorem C67_steady_stays_between : forall sp ix xs f period i m,
  make_fup (Some ix) (map Some xs) default_maxlen = Ok f -> f_need f = true -> 4 <= length ix -> (1 < period)%Z ->
  (forall p v, given ix (map Some xs) p v -> sp (map Z.to_nat ix) xs p = v) ->
  is_gap ix i m -> m <= 6 -> (4 * Z.of_nat m <= period)%Z ->
  let s := surroundings ix (map Some xs) i m in
  2 < length s -> steady s ->
  exists full, fill_up_on_demand sp f FMAuto None (Some period) = Ok (Some (full, f_tags f)) /\
    forall p, i <= p < i + m -> exists v, nth_error full p = Some (Some v) /\ between (hd 0%Qc s) (last s 0%Qc) v.
Proof.
  intros sp ix xs f period i m HF HN H4 HP HS GAP M6 M4 s L3 ST.
  destruct (accepted_facts _ _ _ _ HF HN) as (W & EI & EV & _ & HL & SS & HM & _).
  destruct (C67_short_gap sp ix xs f period i m HF HN H4 HP HS GAP M6 M4) as (full & lo & hi & E & [_ LO] & [_ HI] & V).
  exists full. split; auto. intros p Lp. destruct (V p Lp) as (x & v & Hv & CL & CO & NC). exists v. split; auto.
  fold s in CO, NC.
  assert (SX : forall y, In y s -> In y xs).
  { intros y I. unfold s, surroundings, values_at in I. apply in_flat_map in I. destruct I as (q & _ & I).
    destruct (value_at (combine ix (map Some xs)) q) as [w|] eqn:EW; [|destruct I]. destruct I as [<-|[]].
    apply value_at_given in EW; auto. destruct EW as (k & _ & EW). apply nth_error_In in EW.
    apply in_map_iff in EW. destruct EW as (z & EZ & I). inversion EZ; subst. auto. }
  assert (NE : s <> []) by (intro X; rewrite X in L3; cbn in L3; lia).
  assert (HH : In (hd 0%Qc s) s) by (destruct s; [congruence|left; auto]).
  assert (HL2 : In (last s 0%Qc) s) by (apply last_In; auto).
  assert (BX : between (hd 0%Qc s) (last s 0%Qc) x).
  { pose proof GAP as (G0 & G1 & G2 & G3 & G4).
    assert (VAL : forall q, is_given ix q -> exists w, given ix (map Some xs) q w).
    { intros q G. apply In_nth_error in G. destruct G as (k & Ek).
      assert (LK : k < length (map Some xs)) by (rewrite <- HL; apply nth_error_lt in Ek; auto).
      destruct (nth_error_ex _ (map Some xs) k LK) as (w & Ew). rewrite nth_error_map in Ew.
      destruct (nth_error xs k) as [u|] eqn:EU; [|discriminate]. exists u. exists k. split; auto.
      rewrite nth_error_map, EU. reflexivity. }
    destruct (VAL _ G3) as (va & Va). destruct (VAL _ G4) as (vb & Vb).
    assert (INS : forall q w, 0 < q -> given ix (map Some xs) q w -> In q [i - 2; i - 1; i + m; i + m + 1] -> In w s).
    { intros q w Q G I. unfold s, surroundings, values_at. apply in_flat_map. exists q. split.
      - apply filter_In. split; auto. apply Nat.ltb_lt. auto.
      - apply value_at_given in G; auto. rewrite G. left. auto. }
    assert (I1 : 0 < i - 1).
    { destruct (Nat.eq_dec i 1) as [->|]; [|lia]. exfalso. revert L3. unfold s, surroundings, values_at.
      cbn [filter Nat.sub Nat.ltb Nat.leb Nat.add]. cbn [flat_map].
      repeat match goal with |- context [value_at ?a ?b] => destruct (value_at a b) end; cbn; lia. }
    assert (BA : between (hd 0%Qc s) (last s 0%Qc) va) by (apply steady_between; auto; apply (INS (i - 1)); auto; cbn; auto).
    assert (BB : between (hd 0%Qc s) (last s 0%Qc) vb) by (apply steady_between; auto; apply (INS (i + m)); auto; [lia|cbn; auto]).
    assert (LINE : between va vb (on_line (i - 1) va (i + m) vb p)).
    { destruct (Qclt_le_dec va vb) as [X|X].
      - left. apply on_line_bounds; try lia; split; qlra.
      - right. apply on_line_bounds; try lia; split; qlra. }
    assert (DEC : forall n k, (forall q, k <= q < k + n -> between (hd 0%Qc s) (last s 0%Qc) (sp (map Z.to_nat ix) xs q)) \/
      exists q, k <= q < k + n /\ ~ between (hd 0%Qc s) (last s 0%Qc) (sp (map Z.to_nat ix) xs q)).
    { induction n as [|n IHn]; intros k; [left; intros; lia|]. destruct (IHn (S k)) as [A|(q & Q & NB)].
      - assert (D : between (hd 0%Qc s) (last s 0%Qc) (sp (map Z.to_nat ix) xs k) \/
                    ~ between (hd 0%Qc s) (last s 0%Qc) (sp (map Z.to_nat ix) xs k)).
        { unfold between. set (u := sp (map Z.to_nat ix) xs k). set (a := hd 0%Qc s). set (b := last s 0%Qc).
          destruct (Qclt_le_dec u a), (Qclt_le_dec u b), (Qclt_le_dec a u), (Qclt_le_dec b u);
            first [left; left; split; qlra|left; right; split; qlra|right; intros [[? ?]|[? ?]]; qlra]. }
        destruct D as [D|D]; [left|right; exists k; split; [lia|auto]].
        intros q Q. destruct (Nat.eq_dec q k) as [->|]; auto. apply A. lia.
      - right. exists q. split; [lia|auto]. }
    destruct (DEC m i) as [ALL|BAD].
    - rewrite NC; [apply ALL; auto|]. intros (_ & _ & q & Q & NB). apply NB. apply ALL. auto.
    - rewrite (CO (conj L3 (conj ST BAD)) va vb Va Vb). apply (between_trans _ _ va vb); auto. }
  destruct CL as (C1 & C2 & C3).
  destruct (between_bounds _ _ lo hi x (LO _ (SX _ HH)) (HI _ (SX _ HH)) (LO _ (SX _ HL2)) (HI _ (SX _ HL2)) BX) as [B1 B2].
  rewrite (C3 B1 B2). auto.
Qed.
Print Assumptions C67_steady_stays_between.

(** C67, refuted for a gap right behind the first point: its value is never
    counted among the surroundings, so fewer than three are found and an
    overshooting spline is kept. The points are 0, _, 1, 2, 3, 9. *)
Definition rf_ix : list Z := [0; 2; 3; 4; 5]%Z.
Definition rf_xs : list Qc := map qz [0; 1; 2; 3; 9]%Z.
Definition rf_sp : list nat -> list Qc -> nat -> Qc :=
  fun idx vals p => if p =? 1 then qz 8 else ex_sp idx vals p.
Theorem C67_behind_first_point_refuted : exists sp ix xs f full tags v,
  make_fup (Some ix) (map Some xs) default_maxlen = Ok f /\ f_need f = true /\
  (forall p v, given ix (map Some xs) p v -> sp (map Z.to_nat ix) xs p = v) /\
  is_gap ix 1 1 /\ steady (values_at ix (map Some xs) [0; 2; 3]) /\
  fill_up_on_demand sp f FMAuto None (Some 4%Z) = Ok (Some (full, tags)) /\
  nth_error full 1 = Some (Some v) /\ (forall x, In x (values_at ix (map Some xs) [0; 2; 3]) -> (x < v)%Qc).
Proof.
  destruct (make_fup (Some rf_ix) (map Some rf_xs) default_maxlen) as [f|] eqn:E; [|vm_compute in E; discriminate].
  destruct (fill_up_on_demand rf_sp f FMAuto None (Some 4%Z)) as [[[full tags]|]|] eqn:EF;
    [|vm_compute in E; inversion E; subst; vm_compute in EF; discriminate
     |vm_compute in E; inversion E; subst; vm_compute in EF; discriminate].
  assert (E1 : nth_error (map (option_map this) full) 1 = Some (Some (8 # 1)%Q)).
  { vm_compute in E. inversion E; subst. vm_compute in EF. inversion EF; subst. vm_compute. reflexivity. }
  rewrite nth_error_map in E1. destruct (nth_error full 1) as [[v|]|] eqn:EV; try discriminate.
  assert (V8 : v = qz 8) by (apply Qc_is_canon; cbn in E1; inversion E1 as [E2]; rewrite E2; reflexivity).
  exists rf_sp, rf_ix, rf_xs, f, full, tags, v. split; auto. split.
  { vm_compute in E. inversion E; subst. reflexivity. }
  split.
  { intros p w (k & A & B). destruct k as [|[|[|[|[|k]]]]]; cbn in A, B; inversion A; inversion B as [B2]; clear A B.
    all: try (replace p with 0 by lia; apply Qc_is_canon; vm_compute; reflexivity).
    all: try (replace p with 2 by lia; apply Qc_is_canon; vm_compute; reflexivity).
    all: try (replace p with 3 by lia; apply Qc_is_canon; vm_compute; reflexivity).
    all: try (replace p with 4 by lia; apply Qc_is_canon; vm_compute; reflexivity).
    all: try (replace p with 5 by lia; apply Qc_is_canon; vm_compute; reflexivity).
    all: destruct k; discriminate. }
  split.
  { split; [lia|]. split; [intros q Q; assert (q = 1) by lia; subst; intros [X|[X|[X|[X|[X|[]]]]]]; discriminate|].
    split; [lia|]. split; [left; reflexivity|right; left; reflexivity]. }
  split.
  { left. cbn. repeat constructor; discriminate. }
  split; auto. split; auto.
  subst v. intros x [<-|[<-|[<-|[]]]]; reflexivity.
Qed.
Print Assumptions C67_behind_first_point_refuted.

(** The same overshoot one position later is replaced by the straight line. *)
Definition ok_ix : list Z := [0; 1; 3; 4; 5]%Z.
Definition ok_sp : list nat -> list Qc -> nat -> Qc :=
  fun idx vals p => if p =? 2 then qz 8 else ex_sp idx vals p.
Example C67_example : exists f, make_fup (Some ok_ix) (map Some rf_xs) default_maxlen = Ok f /\ f_need f = true /\
  is_gap ok_ix 2 1 /\ surroundings ok_ix (map Some rf_xs) 2 1 = [qz 1; qz 2; qz 3] /\
  match fill_up_on_demand ok_sp f FMAuto None (Some 4%Z) with
  | Ok (Some (full, _)) => nth_error (map (option_map this) full) 2 = Some (Some (3 # 2)%Q)
  | _ => False
  end.
Proof.
  eexists. split; [vm_compute; reflexivity|]. split; [reflexivity|]. split.
  - split; [lia|]. split; [intros q Q; assert (q = 2) by lia; subst; intros [X|[X|[X|[X|[X|[]]]]]]; discriminate|].
    split; [lia|]. split; [right; left; reflexivity|right; right; left; reflexivity].
  - split; [reflexivity|]. vm_compute. reflexivity.
Qed.
