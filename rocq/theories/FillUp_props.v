(** Properties C01-C07: gap bookkeeping and gap filling. *)
From Coq Require Import List Arith ZArith Lia Bool Sorted.
From Verif Require Import Base Num Sorting FillUp_model FillUp_spec FillUp_proofs FillUp_proofs2
  FillUp_proofs3 FillUp_proofs4 FillUp_proofs5 FillUp_proofs6.
Import ListNotations.
Open Scope nat_scope.

(** A running example: points 0,1,4,5,9 given, 2,3,6,7,8 missing. *)
Definition ex_ix : list Z := [0; 1; 4; 5; 9]%Z.
Definition ex_vs : list (option Qc) := map (fun z => Some (qz z)) [10; 20; 50; 40; 0]%Z.
Definition ex_sp : list nat -> list Qc -> nat -> Qc :=
  fun idx vals p => match linear_entire vals idx [p] with Ok [v] => v | _ => Q2Qc 1000 end.

(** C01. Construction succeeds exactly on well-formed points; every rejection
    is a ValueError. *)
Theorem C01_accepts_exactly_well_formed : forall ix vs maxlen,
  ((exists f, make_fup (Some ix) vs maxlen = Ok f) <-> well_formed_points ix vs) /\
  (forall e, make_fup (Some ix) vs maxlen = Err e -> e = ValueErr).
Proof.
  intros ix vs maxlen. split; [split|].
  - intros [f Hf]. destruct ix as [|i0 rest]; [left; auto|].
    apply (make_fup_ok_inv (i0 :: rest) vs maxlen f); auto. discriminate.
  - apply make_fup_accepts.
  - intros e He. apply (make_fup_rejects ix vs maxlen e He).
Qed.
Print Assumptions C01_accepts_exactly_well_formed.
Example C01_accepts_example :
  well_formed_points ex_ix ex_vs /\ ~ well_formed_points [0; 2; 2]%Z [Some 0%Qc; Some 0%Qc; Some 0%Qc].
Proof.
  split.
  - apply (C01_accepts_exactly_well_formed ex_ix ex_vs 100). eexists. vm_compute. reflexivity.
  - intro H. apply (C01_accepts_exactly_well_formed _ _ 100) in H. destruct H as [f H].
    vm_compute in H. discriminate.
Qed.

(** C01. The counters of an accepted process. *)
Theorem C01_counts : forall ix vs maxlen f, ix <> [] -> make_fup (Some ix) vs maxlen = Ok f ->
  Z.of_nat (f_all f) = (last ix 0 + 1)%Z /\
  f_missing f = (Z.of_nat (f_all f) - Z.of_nat (length ix))%Z /\
  (f_need f = true <-> (0 < f_missing f /\ Z.of_nat (f_all f) <= maxlen)%Z).
Proof.
  intros ix vs maxlen f NE H.
  destruct (make_fup_ok_inv ix vs maxlen f NE H) as (_ & _ & _ & A & B & C & _). auto.
Qed.
Print Assumptions C01_counts.

(** C01. The per-position arrays: missing tag, distance to the next given
    position, length of the surrounding gap. *)
Theorem C01_position_arrays : forall ix vs maxlen f, make_fup (Some ix) vs maxlen = Ok f -> f_need f = true ->
  length (f_tags f) = f_all f /\ length (f_fmc f) = f_all f /\ length (f_mc f) = f_all f /\
  forall p, p < f_all f -> exists tag fwd cnt,
    nth_error (f_tags f) p = Some tag /\ nth_error (f_fmc f) p = Some fwd /\ nth_error (f_mc f) p = Some cnt /\
    (tag = true <-> ~ is_given ix p) /\
    is_given ix (p + fwd) /\ (forall q, p <= q < p + fwd -> ~ is_given ix q) /\
    (is_given ix p -> cnt = 0) /\
    (~ is_given ix p -> exists a b, neighbours ix p a b /\ cnt = b - a - 1).
Proof.
  intros ix vs maxlen f H HN.
  destruct (accepted_facts _ _ _ _ H HN) as (W & _).
  split; [apply (wf_tags_len f W)|]. split; [apply (wf_fmc_len f W)|]. split; [apply (wf_mc_len f W)|].
  intros p Lp.
  destruct (nth_error_ex _ (f_tags f) p ltac:(rewrite (wf_tags_len f W); auto)) as [tag Ht].
  destruct (nth_error_ex _ (f_fmc f) p ltac:(rewrite (wf_fmc_len f W); auto)) as [fwd Hf].
  destruct (nth_error_ex _ (f_mc f) p ltac:(rewrite (wf_mc_len f W); auto)) as [cnt Hm].
  exists tag, fwd, cnt.
  destruct (wf_rows f W p tag fwd cnt Ht Hf Hm) as (R1 & R2 & R3 & R4 & R5).
  pose proof (fun q => is_given_in ix vs maxlen f q H HN) as IG.
  split; auto. split; auto. split; auto.
  split. { rewrite (IG p). auto. }
  split. { apply IG; auto. }
  split. { intros q Lq Gq. apply IG in Gq. destruct (R3 q Gq); lia. }
  split. { intros G. apply R4. apply IG; auto. }
  intros NG. destruct R5 as (a & b & G & E). { intro X. apply NG. apply IG; auto. }
  exists a, b. split; auto. apply (neighbours_gap ix vs maxlen f p a b H HN); auto.
Qed.
Print Assumptions C01_position_arrays.
Example C01_position_arrays_example : exists f, make_fup (Some ex_ix) ex_vs 100 = Ok f /\ f_need f = true.
Proof. eexists. split; vm_compute; reflexivity. Qed.

(** C02. Every fill method keeps the submitted values, returns one entry per
    grid position, and the tags of the positions that were not submitted.
    (The segment spline is treated below; the other spline users need a spline
    through its knots.) *)
Theorem C02_fill_keeps_submitted_values : forall sp ix vs maxlen f m em kw full tags,
  make_fup (Some ix) vs maxlen = Ok f ->
  (Z.of_nat (f_all f) <= default_maxlen)%Z ->
  uses_seg_spline m = false ->
  (m = Auto \/ m = Entire MSpline ->
     forall p v, given ix vs p v -> sp (f_indices f) (f_values f) p = v) ->
  fill_up sp f m em kw = Ok (Some (full, tags)) ->
  length full = f_all f /\ carries ix vs full /\
  forall p, p < f_all f -> exists t, nth_error tags p = Some t /\ (t = true <-> ~ is_given ix p).
Proof.
  intros sp ix vs maxlen f m em kw full tags HF HD HM HS H.
  pose proof (fill_up_need _ _ _ _ _ _ H) as HN.
  destruct (fill_up_keeps sp ix vs maxlen f m em kw full tags HF HD HM) as [A ->]; auto.
  { intros X p v O. apply (HS X). apply (given_observed ix vs maxlen f p v HF HN); auto. }
  pose proof (proj2 (carries_agrees ix vs maxlen f full HF HN) A) as [C L].
  split; auto. split; auto.
  intros p Lp. destruct (C01_position_arrays ix vs maxlen f HF HN) as (_ & _ & _ & R).
  destruct (R p Lp) as (t & fw & cn & T1 & _ & _ & T2 & _). exists t. auto.
Qed.
Print Assumptions C02_fill_keeps_submitted_values.
Example C02_fill_example :
  match make_fup (Some ex_ix) ex_vs 100 with
  | Ok f => match fill_up ex_sp f (Step MMedian) ENone (mkKw 2 2 false true (Some 4%Z) SIgnore None None) with
            | Ok (Some (full, tags)) =>
                map (option_map this) full =
                  map (option_map inject_Z) [Some 10; Some 20; None; None; Some 50; Some 40; None; None; Some 30; Some 0]%Z /\
                tags = [false; false; true; true; false; false; true; true; true; false]
            | _ => False end
  | _ => False end.
Proof. vm_compute. auto. Qed.

(** C02. Every such fill terminates. *)
Theorem C02_fill_terminates : forall sp ix vs maxlen f m em kw,
  make_fup (Some ix) vs maxlen = Ok f ->
  (Z.of_nat (f_all f) <= default_maxlen)%Z ->
  uses_seg_spline m = false ->
  (m = Auto -> forall p v, given ix vs p v -> sp (f_indices f) (f_values f) p = v) ->
  fill_up sp f m em kw <> Err OutOfFuel.
Proof.
  intros sp ix vs maxlen f m em kw HF HD HM HS.
  destruct (f_need f) eqn:HN.
  - apply (fill_up_terminates sp ix vs maxlen); auto.
    intros X p v O. apply (HS X). apply (given_observed ix vs maxlen f p v HF HN); auto.
  - unfold fill_up. rewrite HN. discriminate.
Qed.
Print Assumptions C02_fill_terminates.

(** C02, the exception: the segment spline. After a failed attempt at the start
    of a gap it is retried inside the gap, returns a list that reaches over the
    end of the gap, overwrites a submitted point and then loops forever. *)
Theorem C02_segment_spline_refuted : forall sp, exists ix vs f kw,
  make_fup (Some ix) vs default_maxlen = Ok f /\
  fill_up sp f (Step MSplineSeg) ENone kw = Err OutOfFuel.
Proof.
  intros sp.
  exists [0; 3; 4; 5]%Z, (map (fun z => Some (qz z)) [1; 2; 3; 4]%Z).
  eexists. exists (mkKw 2 3 false false None SIgnore None None).
  split; [vm_compute; reflexivity|]. vm_compute. reflexivity.
Qed.
Print Assumptions C02_segment_spline_refuted.

(** C03. 'previous' / 'last': every grid position holds the last submitted
    value at or before it. *)
Theorem C03_previous_is_last_observation : forall sp ix vs maxlen f mode fixed period,
  make_fup (Some ix) vs maxlen = Ok f -> f_need f = true ->
  mode = FMPrevious \/ mode = FMUseLast ->
  exists full, fill_up_on_demand sp f mode fixed period = Ok (Some (full, f_tags f)) /\
    length full = f_all f /\
    forall p, p < f_all f -> exists a v, nth_error full p = Some (Some v) /\ given ix vs a v /\
       a <= p /\ forall q, is_given ix q -> q <= a \/ p < q.
Proof.
  intros sp ix vs maxlen f mode fixed period HF HN HM.
  destruct (accepted_facts _ _ _ _ HF HN) as (W & _).
  assert (E : fill_up_on_demand sp f mode fixed period =
     step_by_step_fill_up sp f MLast (Some ERaise) (plain_kw (Some 1%Z) None)).
  { destruct HM; subst; unfold fill_up_on_demand, fill_up; rewrite HN; reflexivity. }
  rewrite E. clear E.
  destruct (step_const sp f MLast (plain_kw (Some 1%Z) None)
     (fun i j => match j with O => None | S k => nth_error (f_values f) k end) W HN) as (full & E & A & M);
     try discriminate.
  { intros arr i j x Af P Hx L.
    destruct (ptr_gap _ i j x (wf_incr f W) (wf_hd f W) Hx L P) as (_ & j' & a & -> & Ha & _).
    destruct (func_last_gap f j' a W Ha) as (v & Hv & E). cbn [step_func]. rewrite E, Hv. auto. }
  exists full. split; auto. split; [apply A|].
  pose proof (fun q => is_given_in ix vs maxlen f q HF HN) as IG.
  intros p Lp. destruct (in_dec_nat p (f_indices f)) as [I|NI].
  - destruct (wf_observed f p W I) as [v Hv]. exists p, v. split; [apply A; auto|].
    split; [apply (given_observed ix vs maxlen f p v HF HN); auto|]. split; auto. intros; lia.
  - destruct (M p Lp NI) as (j & x & P & Hx & Lx & Hp).
    destruct (ptr_gap _ p j x (wf_incr f W) (wf_hd f W) Hx Lx P) as (_ & j' & a & -> & Ha & G).
    destruct (func_last_gap f j' a W Ha) as (v & Hv & _).
    exists a, v. rewrite Hp, Hv. split; auto.
    split. { apply (given_observed ix vs maxlen f a v HF HN). exists j'; auto. }
    destruct G as (_ & _ & G1 & G2). split; [lia|].
    intros q Hq. apply IG in Hq. destruct (G2 q Hq); lia.
Qed.
Print Assumptions C03_previous_is_last_observation.
Example C03_example :
  match make_fup (Some ex_ix) ex_vs 100 with
  | Ok f => f_need f = true /\
            match fill_up_on_demand ex_sp f FMPrevious None None with
            | Ok (Some (full, _)) => map (option_map this) full =
                map (option_map inject_Z) (map Some [10; 20; 20; 20; 50; 40; 40; 40; 40; 0]%Z)
            | _ => False end
  | _ => False end.
Proof. vm_compute. auto. Qed.

(** C04. 'linear': straight line between the neighbouring submitted points, and
    therefore between their values. *)
Theorem C04_linear_interpolates : forall sp ix vs maxlen f fixed period,
  make_fup (Some ix) vs maxlen = Ok f -> f_need f = true ->
  exists l, fill_up_on_demand sp f FMLinear fixed period = Ok (Some (map Some l, f_tags f)) /\
    length l = f_all f /\
    (forall p v, given ix vs p v -> nth_error l p = Some v) /\
    (forall p a b va vb, neighbours ix p a b -> given ix vs a va -> given ix vs b vb ->
       nth_error l p = Some (on_line a va b vb p) /\
       (Qcmin va vb <= on_line a va b vb p /\ on_line a va b vb p <= Qcmax va vb)%Qc).
Proof.
  intros sp ix vs maxlen f fixed period HF HN.
  destruct (accepted_facts _ _ _ _ HF HN) as (W & _).
  destruct (linear_entire_spec f W) as (l & E & LL & K & G).
  exists l. split.
  { unfold fill_up_on_demand, fill_up. rewrite HN. cbn. unfold entire_fill_up. rewrite E. auto. }
  split; auto. split.
  - intros p v H. apply K. apply (given_observed ix vs maxlen f p v HF HN); auto.
  - intros p a b va vb HG Ha Hb. split.
    + apply G; [apply (neighbours_gap ix vs maxlen f p a b HF HN); auto| |];
      apply (given_observed ix vs maxlen f _ _ HF HN); auto.
    + destruct HG as (_ & _ & R & _). apply on_line_bounds; [lia|lia| |];
      split; auto using Qcmin_l, Qcmin_r, Qcmax_l, Qcmax_r.
Qed.
Print Assumptions C04_linear_interpolates.

(** C04. The segment-wise variant gives the same numbers. *)
Theorem C04_segment_variant_agrees : forall sp ix vs maxlen f em kw,
  make_fup (Some ix) vs maxlen = Ok f -> f_need f = true -> k_period kw = None ->
  fill_up sp f (Step MLinearSeg) em kw = fill_up sp f (Entire MLinear) em kw.
Proof.
  intros sp ix vs maxlen f em kw HF HN HP.
  destruct (accepted_facts _ _ _ _ HF HN) as (W & _).
  destruct (linear_entire_spec f W) as (l & E & LL & K & G).
  unfold fill_up. rewrite HN, HP. cbn [negb bind]. unfold entire_fill_up. rewrite E.
  unfold step_by_step_fill_up. rewrite HN. cbn [negb].
  destruct (values_to_fill_spec f W) as [V1 _].
  rewrite (seg_loop f l em _ sp W E (f_all f) 0 0 (values_to_fill f)); auto.
  - split; [apply ptr_0|auto].
  - intros p Lp. lia.
Qed.
Print Assumptions C04_segment_variant_agrees.
Example C04_example :
  match make_fup (Some ex_ix) ex_vs 100 with
  | Ok f => match fill_up_on_demand ex_sp f FMLinear None None with
            | Ok (Some (full, _)) => map (option_map this) full =
                map (option_map inject_Z) (map Some [10; 20; 30; 40; 50; 40; 30; 20; 10; 0]%Z)
            | _ => False end
  | _ => False end.
Proof. vm_compute. auto. Qed.

(** C38 (filling part). 'fixed': every missing position gets the number
    (possibly None), submitted ones keep their value. *)
Theorem C38_fixed_fill_is_constant : forall sp ix vs maxlen f number period,
  make_fup (Some ix) vs maxlen = Ok f -> f_need f = true ->
  exists full, fill_up_on_demand sp f FMFixed number period = Ok (Some (full, f_tags f)) /\
    length full = f_all f /\ carries ix vs full /\
    forall p, p < f_all f -> ~ is_given ix p -> nth_error full p = Some number.
Proof.
  intros sp ix vs maxlen f number period HF HN.
  destruct (accepted_facts _ _ _ _ HF HN) as (W & _).
  assert (E : fill_up_on_demand sp f FMFixed number period =
     step_by_step_fill_up sp f MConstant (Some ERaise) (plain_kw (Some 1%Z) number)).
  { unfold fill_up_on_demand, fill_up; rewrite HN; reflexivity. }
  rewrite E. clear E.
  destruct (step_const sp f MConstant (plain_kw (Some 1%Z) number) (fun _ _ => number) W HN) as (full & E & A & M);
    try discriminate; auto.
  exists full. split; auto.
  destruct (proj2 (carries_agrees ix vs maxlen f full HF HN) A) as [C L]. split; auto. split; auto.
  intros p Lp NG. destruct (M p Lp) as (j & x & _ & _ & _ & H); auto.
  intro I. apply NG. apply (is_given_in ix vs maxlen f p HF HN); auto.
Qed.
Print Assumptions C38_fixed_fill_is_constant.

(** C05. 'auto' returns a number everywhere, keeps the submitted ones, and all
    numbers stay between the smallest and largest submitted value. *)
Theorem C05_auto_complete_and_bounded : forall sp ix vs f period,
  make_fup (Some ix) vs default_maxlen = Ok f -> f_need f = true ->
  (match period with Some p => 0 <= p | None => True end)%Z ->
  4 <= length ix ->
  (forall p v, given ix vs p v -> sp (f_indices f) (f_values f) p = v) ->
  exists l, fill_up_on_demand sp f FMAuto None period = Ok (Some (map Some l, f_tags f)) /\
    length l = f_all f /\
    (forall p v, given ix vs p v -> nth_error l p = Some v) /\
    (forall x, In x l -> exists p1 v1 p2 v2, given ix vs p1 v1 /\ given ix vs p2 v2 /\ v1 <= x /\ x <= v2)%Qc.
Proof.
  intros sp ix vs f period HF HN HP H4 HS.
  destruct (accepted_facts _ _ _ _ HF HN) as (W & EI & EV & _ & HL & _ & HM & _).
  assert (L4 : 4 <= length (f_values f)) by (rewrite EV, map_length in HL; lia).
  set (q := match period with Some p => Z.max p 1 | None => 1%Z end).
  destruct (auto_body_spec sp f q W HM (fun _ => L4)) as (l & E & LL & K & B).
  { intros p v O. apply HS. apply (given_observed ix vs default_maxlen f p v HF HN); auto. }
  exists l. split.
  { unfold fill_up_on_demand, fill_up. rewrite HN. cbn [negb plain_kw k_period].
    replace (match period with Some p => if (p <? 0)%Z then Err ValueErr else Ok (Z.max p 1) | None => Ok 1%Z end)
      with (@Ok Z q).
    - cbn [bind]. unfold auto_fill_up. rewrite E. auto.
    - unfold q. destruct period as [p|]; auto. destruct (p <? 0)%Z eqn:EP; auto. apply Z.ltb_lt in EP; lia. }
  split; auto. split.
  { intros p v H. apply K. apply (given_observed ix vs default_maxlen f p v HF HN); auto. }
  assert (NV : f_values f <> []) by (intro X; rewrite X in L4; simpl in L4; lia).
  assert (GV : forall v, In v (f_values f) -> exists p, given ix vs p v).
  { intros v Iv. apply In_nth_error in Iv. destruct Iv as [k Hk].
    destruct (nth_error_ex _ (f_indices f) k) as [p Hp].
    { rewrite (wf_len f W). apply nth_error_lt in Hk. auto. }
    exists p. apply (given_observed ix vs default_maxlen f p v HF HN). exists k; auto. }
  intros x Ix. destruct (B x Ix) as [B1 B2].
  destruct (GV _ (qmin_list_in _ NV)) as [p1 G1]. destruct (GV _ (qmax_list_in _ NV)) as [p2 G2].
  eauto 10.
Qed.
Print Assumptions C05_auto_complete_and_bounded.
Example C05_example :
  match make_fup (Some ex_ix) ex_vs default_maxlen with
  | Ok f => f_need f = true /\
     (forall p v, given ex_ix ex_vs p v -> ex_sp (f_indices f) (f_values f) p = v) /\
     match fill_up_on_demand ex_sp f FMAuto None (Some 4%Z) with
     | Ok (Some (full, _)) => forallb (fun c => negb (is_none c)) full = true
     | _ => False end
  | _ => False end.
Proof.
  destruct (make_fup (Some ex_ix) ex_vs default_maxlen) as [f|] eqn:E; [|vm_compute in E; discriminate].
  assert (HN : f_need f = true) by (vm_compute in E; inversion E; reflexivity).
  split; auto. split.
  - intros p v H. apply (given_observed _ _ _ _ _ _ E HN) in H.
    destruct (accepted_facts _ _ _ _ E HN) as (W & _).
    unfold ex_sp, linear_entire. apply observed_combine in H.
    pose proof (map_fst_combine _ _ (f_indices f) (f_values f) (wf_len f W)) as MF.
    destruct (combine (f_indices f) (f_values f)) as [|[a va] rest]; [destruct H|].
    simpl in MF. cbn [map sequence]. rewrite (interp_at_knot rest a va p v); auto.
    rewrite MF. apply (wf_incr f W).
  - vm_compute in E. inversion E. vm_compute. reflexivity.
Qed.

(** C06. The documented fallback never works: with two or three submitted
    points and a period above 1, automatic filling raises TypeError. *)
Theorem C06_auto_fallback_refuted : forall sp ix vs f period,
  make_fup (Some ix) vs default_maxlen = Ok f -> f_need f = true ->
  length ix <= 3 -> (1 < period)%Z ->
  fill_up_on_demand sp f FMAuto None (Some period) = Err TypeErr.
Proof.
  intros sp ix vs f period HF HN H3 HP.
  destruct (accepted_facts _ _ _ _ HF HN) as (W & EI & EV & _ & HL & _).
  unfold fill_up_on_demand, fill_up. rewrite HN. cbn [negb plain_kw k_period].
  destruct (period <? 0)%Z eqn:E; [apply Z.ltb_lt in E; lia|]. cbn [bind].
  unfold auto_fill_up, auto_body.
  replace (Z.max period 1 >? 1)%Z with true by (symmetry; rewrite Z.gtb_ltb; apply Z.ltb_lt; lia).
  unfold scatter_fill_up, spline_entire.
  replace (length (f_values f) <=? 3) with true; auto.
  symmetry. apply Nat.leb_le. rewrite EV, map_length in HL. lia.
Qed.
Print Assumptions C06_auto_fallback_refuted.
Example C06_example : exists f, make_fup (Some [0; 2; 5]%Z) (map (fun z => Some (qz z)) [1; 2; 3]%Z) default_maxlen = Ok f
  /\ f_need f = true.
Proof. eexists. split; vm_compute; reflexivity. Qed.

(** C06. Whatever makes the inner stage fail, the fallback turns it into a
    TypeError instead of last-observation values: automatic filling with
    if_exception='fill_with_last' either succeeds or raises TypeError. *)
Theorem C06_fallback_never_fills : forall sp f period,
  f_need f = true -> (0 <= period)%Z ->
  match fill_up_on_demand sp f FMAuto None (Some period) with
  | Ok (Some (l, _)) => auto_body sp f (Z.max period 1) = Ok l
  | Ok None => False
  | Err e => e = TypeErr
  end.
Proof.
  intros sp f period HN HP. unfold fill_up_on_demand, fill_up. rewrite HN. cbn [negb plain_kw k_period].
  destruct (period <? 0)%Z eqn:E; [apply Z.ltb_lt in E; lia|]. cbn [bind].
  unfold auto_fill_up. destruct (auto_body sp f (Z.max period 1)); auto. reflexivity.
Qed.
Print Assumptions C06_fallback_never_fills.

(** C07. The periodic lookup around position [i], in both directions. [arr] is
    the array under construction. *)
Theorem C07_periodic_lookup : forall ix vs maxlen f arr i n P sm forward,
  make_fup (Some ix) vs maxlen = Ok f -> f_need f = true ->
  carries ix vs arr -> length arr = f_all f -> 0 < P -> i < f_all f ->
  exists r, get_periodical_values arr i n (Z.of_nat P) (f_fmc f) (f_mc f) false sm forward = Ok r /\
    let near := values_at ix vs (if forward then positions_after i P (f_all f) else positions_before i P) in
    let got := if forward then somes r else rev (somes r) in
    (exists k, got = firstn k near) /\
    (sm = STryBest -> got = firstn n near) /\
    (sm <> STryBest -> length r <= n).
Proof.
  intros ix vs maxlen f arr i n P sm forward HF HN HC HL HP Hi.
  destruct (accepted_facts _ _ _ _ HF HN) as (W & _).
  assert (A : agrees f arr) by (apply (carries_agrees ix vs maxlen f arr HF HN); auto).
  destruct (gpv_spec f arr i n P false sm forward W A HP Hi) as (r & R1 & R2 & R3 & R4 & R5).
  exists r. split; auto. destruct (R5 eq_refl) as [K T]. cbv zeta.
  assert (EQ : (if forward then nearest_after f i P else nearest_before f i P) =
    values_at ix vs (if forward then positions_after i P (f_all f) else positions_before i P)).
  { destruct forward; unfold nearest_after, nearest_before; apply (nearest_values_at ix vs maxlen f); auto. }
  rewrite EQ in K, T. auto.
Qed.
Print Assumptions C07_periodic_lookup.

(** C07. The positions looked at are exactly the in-range ones at a positive
    multiple of the period. *)
Theorem C07_positions_meaning : forall i P len q, 0 < P -> i < len ->
  (In q (positions_after i P len) <-> q < len /\ exists k, 0 < k /\ q = i + k * P) /\
  (In q (positions_before i P) <-> exists k, 0 < k /\ q + k * P = i).
Proof.
  intros i P len q HP Hi. unfold positions_after, positions_before. rewrite !in_map_iff. split; split.
  - intros (t & <- & It). apply in_seq in It.
    pose proof (Nat.mul_div_le (len - 1 - i) P ltac:(lia)). split; [nia|]. exists (S t). lia.
  - intros (L & k & K & ->). exists (k - 1). split; [nia|]. apply in_seq.
    pose proof (Nat.mul_succ_div_gt (len - 1 - i) P ltac:(lia)). nia.
  - intros (t & <- & It). apply in_seq in It.
    pose proof (Nat.mul_div_le i P ltac:(lia)). exists (S t). nia.
  - intros (k & K & E). exists (k - 1). split; [nia|]. apply in_seq.
    pose proof (Nat.mul_succ_div_gt i P ltac:(lia)). nia.
Qed.
Print Assumptions C07_positions_meaning.
Example C07_example :
  match make_fup (Some ex_ix) ex_vs 100 with
  | Ok f => match get_periodical_values (values_to_fill f) 6 2 1 (f_fmc f) (f_mc f) false STryBest false with
            | Ok r => map (option_map this) r = map (option_map inject_Z) [Some 50; Some 40]%Z
            | _ => False end
  | _ => False end.
Proof. vm_compute. auto. Qed.
