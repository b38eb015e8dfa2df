(** Proofs about parameter parsing as a whole. *)
From Coq Require Import String Ascii List Arith ZArith QArith Qcanon Bool Lia.
From Verif Require Import Base Num FillUp_model Helpers_model Margins_model SR_model Detect_model Dates_model Request_model Request_spec Request_proofs.
Import ListNotations.
Open Scope string_scope.
Open Scope nat_scope.

Definition frame (w : list string) (d e : dict) : Prop := forall k, ~ In k w -> get k e = get k d.
Lemma frame_refl : forall w d, frame w d d.
Proof. intros w d k _. auto. Qed.
Lemma frame_set : forall w d e j v, frame w d e -> In j w -> frame w d (set j v e).
Proof. intros w d e j v F I k N. rewrite get_set_ne; [auto|]. intros ->. auto. Qed.
Lemma frame_mono : forall w w' d e, frame w d e -> incl w w' -> frame w' d e.
Proof. intros w w' d e F I k N. apply F. auto. Qed.

Lemma bad_eq : forall k P d e, get k e = get k d -> bad k P e = bad k P d.
Proof. intros k P d e H. unfold bad, given. rewrite H. reflexivity. Qed.
Lemma given_eq : forall k v d e, get k e = get k d -> given k e v = given k d v.
Proof. intros k v d e H. unfold given. rewrite H. reflexivity. Qed.
Lemma reads_or_eq : forall A k (def : A) rd a d e, get k e = get k d -> reads_or k e def rd a = reads_or k d def rd a.
Proof. intros A k def rd a d e H. unfold reads_or, given. rewrite H. reflexivity. Qed.
Lemma no_fixed_eq : forall k d e, get k e = get k d -> no_fixed k e = no_fixed k d.
Proof. intros k d e H. unfold no_fixed, given. rewrite H. reflexivity. Qed.
Lemma impute_given_eq : forall d e, get "imputeMode" e = get "imputeMode" d -> impute_given e = impute_given d.
Proof. intros d e H. unfold impute_given, given. rewrite H. reflexivity. Qed.
Lemma reads_fill_eq : forall m f d e, get "imputeMode" e = get "imputeMode" d -> get "fillUpMode" e = get "fillUpMode" d ->
  get "fixedValue" e = get "fixedValue" d -> reads_fill e m f = reads_fill d m f.
Proof. intros m f d e H1 H2 H3. unfold reads_fill, impute_given, given. rewrite H1, H2, H3. reflexivity. Qed.
(** Move past a rule that does not apply. *)
Lemma advance : forall V A (v : V) (P : A -> Prop) t x (G : option V -> Prop),
  (forall r, decides ((v, P) :: t) x r -> G r) -> ~ P x -> forall r, decides t x r -> G r.
Proof. intros V A v P t x G H N r D. apply H. apply decides_skip; auto. Qed.
Lemma settle : forall V A (v : V) (P : A -> Prop) t x (G : option V -> Prop),
  (forall r, decides ((v, P) :: t) x r -> G r) -> P x -> G (Some v).
Proof. intros V A v P t x G H N. apply H. apply decides_hit; auto. Qed.

Lemma parse_params_any : forall d (G : option verdict -> Prop), (forall r, decides parameter_rules d r -> G r) ->
  match parse_params d with
  | Next s d' => G None /\ reads d s /\ (0 <= s_sensitivity s <= 100)%Z
  | Stop c m d' => G (Some (Refused c m))
  | Raise e d' => G (Some (Raises e))
  end.
Proof.
  intros d G C. unfold parse_params, seq at 1. unfold parameter_rules in C.
  Local Ltac adv C H := let X := fresh in pose proof (advance _ _ _ _ _ _ _ C H) as X; clear C H; rename X into C.
  Local Ltac hit C K := exact (settle _ _ _ _ _ _ _ C K).
  Local Ltac same F k := apply F; simpl; intuition discriminate.
  pose proof (granularity_step d) as K. destruct (parse_granularity d) as [g d1|c m d1|e d1].
  2:{ destruct K as (-> & -> & _ & K1 & K2). adv C K1. hit C K2. }
  2:{ destruct K as (-> & _ & K). hit C K. }
  destruct K as (D1 & G1 & G2 & RG). adv C G1. adv C G2.
  assert (F1 : frame ["granularity"] d d1). { subst d1. apply frame_set; [apply frame_refl|simpl; auto]. }
  clear D1. unfold seq at 1.
  pose proof (interval_step d1) as K. cbv zeta in K.
  assert (E : get "customInterval" d1 = get "customInterval" d) by (same F1 "customInterval").
  rewrite E in K. destruct (parse_interval d1) as [i d2|c m d2|e d2]; [| |contradiction]; rewrite (bad_eq _ _ _ _ E) in K.
  2:{ destruct K as (-> & -> & _ & K). hit C K. }
  destruct K as (D2 & K & RI). adv C K. rewrite (reads_or_eq _ _ _ _ _ _ _ E) in RI. clear E.
  assert (F2 : frame ["granularity"; "customInterval"] d d2).
  { assert (X : frame ["granularity"; "customInterval"] d d1) by (eapply frame_mono; [exact F1|intros x; simpl; tauto]).
    subst d2. destruct (get "customInterval" d); auto. apply frame_set; simpl; auto. }
  clear D2 F1 d1. unfold seq at 1.
  pose proof (period_step d2) as K. cbv zeta in K.
  assert (E : get "period" d2 = get "period" d) by (same F2 "period").
  destruct (parse_period d2) as [p d3|c m d3|e d3]; [| |contradiction]; rewrite (bad_eq _ _ _ _ E) in K.
  2:{ destruct K as (-> & -> & _ & K). hit C K. }
  destruct K as (-> & K & RP). adv C K. rewrite (reads_or_eq _ _ _ _ _ _ _ E) in RP. clear E. unfold seq at 1.
  pose proof (alpha_step d2) as K. cbv zeta in K.
  assert (E : get "alpha" d2 = get "alpha" d) by (same F2 "alpha").
  destruct (parse_alpha d2) as [al d3|c m d3|e d3]; [| |contradiction]; rewrite (bad_eq _ _ _ _ E) in K.
  2:{ destruct K as (-> & -> & _ & K). hit C K. }
  destruct K as (-> & K & RA). adv C K. rewrite (reads_or_eq _ _ _ _ _ _ _ E) in RA. clear E. unfold seq at 1.
  pose proof (ratio_step d2) as K. cbv zeta in K.
  assert (E : get "maxAnomalyRatio" d2 = get "maxAnomalyRatio" d) by (same F2 "maxAnomalyRatio").
  destruct (parse_ratio d2) as [ra d3|c m d3|e d3]; [| |contradiction]; rewrite (bad_eq _ _ _ _ E) in K.
  2:{ destruct K as (-> & -> & _ & K). hit C K. }
  destruct K as (-> & K & RR). adv C K. rewrite (reads_or_eq _ _ _ _ _ _ _ E) in RR. clear E. unfold seq at 1.
  pose proof (sensitivity_step d2) as K. cbv zeta in K.
  assert (E : get "sensitivity" d2 = get "sensitivity" d) by (same F2 "sensitivity").
  rewrite E in K. destruct (parse_sensitivity d2) as [se d3|c m d3|e d3]; [| |contradiction]; rewrite (bad_eq _ _ _ _ E) in K.
  2:{ destruct K as (-> & -> & _ & K). hit C K. }
  destruct K as (D3 & K & RS & BS). adv C K. rewrite (reads_or_eq _ _ _ _ _ _ _ E) in RS. clear E.
  assert (F3 : frame ["granularity"; "customInterval"; "sensitivity"] d d3).
  { assert (X : frame ["granularity"; "customInterval"; "sensitivity"] d d2) by (eapply frame_mono; [exact F2|intros x; simpl; tauto]).
    subst d3. destruct (get "sensitivity" d); auto. apply frame_set; simpl; auto. }
  clear D3 F2 d2. unfold seq at 1.
  pose proof (threshold_step d3) as K. cbv zeta in K.
  assert (E : get "threshold" d3 = get "threshold" d) by (same F3 "threshold").
  destruct (parse_threshold d3) as [th d4|c m d4|e d4]; [| |contradiction]; rewrite (bad_eq _ _ _ _ E) in K.
  2:{ destruct K as (-> & -> & _ & K). hit C K. }
  destruct K as (-> & K & RT). adv C K. rewrite (reads_or_eq _ _ _ _ _ _ _ E) in RT. clear E. unfold seq at 1.
  destruct (default_false_step "needDetectorId" d3) as [v1 E1]. rewrite E1. clear E1.
  set (d4 := set "needDetectorId" v1 d3).
  assert (F4 : frame ["granularity"; "customInterval"; "sensitivity"; "needDetectorId"] d d4).
  { apply frame_set; [|simpl; tauto]. eapply frame_mono; [exact F3|intros x; simpl; tauto]. }
  clearbody d4. clear F3 d3. unfold seq at 1.
  pose proof (impute_step d4) as K. cbv zeta in K.
  assert (E1 : get "imputeMode" d4 = get "imputeMode" d) by (same F4 "imputeMode").
  assert (E2 : get "imputeFixedValue" d4 = get "imputeFixedValue" d) by (same F4 "imputeFixedValue").
  assert (E3 : get "fillUpMode" d4 = get "fillUpMode" d) by (same F4 "fillUpMode").
  assert (E4 : get "fixedValue" d4 = get "fixedValue" d) by (same F4 "fixedValue").
  rewrite (bad_eq _ _ _ _ E1), (bad_eq _ _ _ _ E3), (given_eq _ _ _ _ E1), (given_eq _ _ _ _ E3), (no_fixed_eq _ _ _ E2), (no_fixed_eq _ _ _ E4),
    (impute_given_eq _ _ E1) in K.
  destruct (parse_impute d4) as [fm d5|c m d5|e d5]; [| |contradiction].
  2:{ destruct K as (_ & [(-> & -> & K)|[(-> & -> & K1 & K)|[(-> & -> & K1 & K2 & K)|(-> & -> & K1 & K2 & K3 & K)]]]).
      - hit C K.
      - adv C K1. hit C K.
      - adv C K1. adv C K2. hit C K.
      - adv C K1. adv C K2. adv C K3. hit C K. }
  destruct K as (-> & K1 & K2 & K3 & K4 & RF). rewrite (reads_fill_eq _ _ _ _ E1 E3 E4) in RF. clear E1 E2 E3 E4.
  adv C K1. adv C K2. adv C K3. adv C K4. unfold seq at 1.
  destruct (default_false_step "needFillUpConfirm" d4) as [v2 E2]. rewrite E2. clear E2. unfold seq at 1.
  destruct (default_false_step "needSpectrumPeriod" (set "needFillUpConfirm" v2 d4)) as [v3 E3]. rewrite E3. clear E3.
  set (d5 := set "needSpectrumPeriod" v3 (set "needFillUpConfirm" v2 d4)).
  assert (F5 : frame ["granularity"; "customInterval"; "sensitivity"; "needDetectorId"; "needFillUpConfirm"; "needSpectrumPeriod"] d d5).
  { apply frame_set; [|simpl; tauto]. apply frame_set; [|simpl; tauto]. eapply frame_mono; [exact F4|intros x; simpl; tauto]. }
  clearbody d5. clear F4 d4. unfold seq at 1.
  pose proof (boundary_step d5) as K. cbv zeta in K.
  assert (E : get "boundaryVersion" d5 = get "boundaryVersion" d) by (same F5 "boundaryVersion").
  unfold given in K. rewrite E in K.
  destruct (parse_boundary d5) as [b d6|c m d6|e d6]; try rewrite (bad_eq _ _ _ _ E) in K.
  2:{ destruct K as (-> & -> & _ & K1 & K2). adv C K1. hit C K2. }
  2:{ destruct K as (-> & _ & K). hit C K. }
  destruct K as ((bv & D6) & K1 & K2 & RB). adv C K1. adv C K2. clear E.
  assert (F6 : frame ["granularity"; "customInterval"; "sensitivity"; "needDetectorId"; "needFillUpConfirm"; "needSpectrumPeriod";
                      "boundaryVersion"; "need_trend"] d d6).
  { subst d6. apply frame_set; [|simpl; tauto]. apply frame_set; [|simpl; tauto]. eapply frame_mono; [exact F5|intros x; simpl; tauto]. }
  clear D6 F5 d5. unfold seq at 1.
  pose proof (detector_step d6) as K. cbv zeta in K.
  assert (E : get "detector" d6 = get "detector" d) by (same F6 "detector").
  unfold given in K. rewrite E in K.
  destruct (parse_detector d6) as [x d7|c m d7|e d7].
  2:{ destruct K as (_ & [(-> & -> & K)|[(-> & -> & K1 & K)|[(-> & -> & K1 & K2 & K)|(-> & -> & K1 & K2 & K3 & K4 & K)]]]).
      - hit C K.
      - adv C K1. hit C K.
      - adv C K1. adv C K2. hit C K.
      - adv C K1. adv C K2. adv C K3. adv C K4. hit C K. }
  2:{ destruct K as (-> & _ & K1 & K2 & K3 & K). adv C K1. adv C K2. adv C K3. hit C K. }
  destruct K as (-> & K1 & K2 & K3 & K4 & K5 & RX). adv C K1. adv C K2. adv C K3. adv C K4. adv C K5.
  split; [apply C, decides_nil|]. split; [|exact BS].
  constructor; [exact RG|exact RI|exact RP|exact RA|exact RR|exact RS|exact RT|exact RF|exact RB|exact RX].
Qed.

Lemma parse_params_spec : forall d,
  match parse_params d with
  | Next s d' => decides parameter_rules d None /\ reads d s /\ (0 <= s_sensitivity s <= 100)%Z
  | Stop c m d' => decides parameter_rules d (Some (Refused c m))
  | Raise e d' => decides parameter_rules d (Some (Raises e))
  end.
Proof. intros d. apply (parse_params_any d (decides parameter_rules d)). auto. Qed.

Lemma decides_fun : forall V A (l : list (V * (A -> Prop))) x r1 r2, decides l x r1 -> decides l x r2 -> r1 = r2.
Proof.
  intros V A l x r1 r2 H. revert r2. induction H as [x|v P t x Hx|v P t x r Hx H IH]; intros r2 H2; inversion H2; subst; auto; contradiction.
Qed.
Lemma params_refused : forall d c m, decides parameter_rules d (Some (Refused c m)) -> exists d', parse_params d = Stop c m d'.
Proof.
  intros d c m H. pose proof (parse_params_spec d) as K. destruct (parse_params d) as [s d'|c' m' d'|e d'].
  - destruct K as (K & _). pose proof (decides_fun _ _ _ _ _ _ H K). discriminate.
  - pose proof (decides_fun _ _ _ _ _ _ H K) as X. inversion X; subst. eauto.
  - pose proof (decides_fun _ _ _ _ _ _ H K). discriminate.
Qed.
Lemma params_raised : forall d e, decides parameter_rules d (Some (Raises e)) -> exists d', parse_params d = Raise e d'.
Proof.
  intros d e H. pose proof (parse_params_spec d) as K. destruct (parse_params d) as [s d'|c' m' d'|e' d'].
  - destruct K as (K & _). pose proof (decides_fun _ _ _ _ _ _ H K). discriminate.
  - pose proof (decides_fun _ _ _ _ _ _ H K). discriminate.
  - pose proof (decides_fun _ _ _ _ _ _ H K) as X. inversion X; subst. eauto.
Qed.
Lemma params_accepted : forall d, decides parameter_rules d None -> exists s d', parse_params d = Next s d' /\ reads d s /\ (0 <= s_sensitivity s <= 100)%Z.
Proof.
  intros d H. pose proof (parse_params_spec d) as K. destruct (parse_params d) as [s d'|c' m' d'|e' d'].
  - destruct K as (K & R & B). eauto.
  - pose proof (decides_fun _ _ _ _ _ _ H K). discriminate.
  - pose proof (decides_fun _ _ _ _ _ _ H K). discriminate.
Qed.

(** ** What parsing leaves in the dictionary *)
Definition left_behind {A} (x : step A) : dict := match x with Next _ d | Stop _ _ d | Raise _ d => d end.
Definition keeps {A} (k : string) (c : parser A) : Prop := forall d, get k (left_behind (c d)) = get k d.
Lemma keeps_seq : forall A B k (c : parser A) (f : A -> parser B), keeps k c -> (forall a, keeps k (f a)) -> keeps k (seq c f).
Proof.
  intros A B k c f H1 H2 d. unfold seq. specialize (H1 d). destruct (c d) as [a e|c0 m e|x e]; simpl in *; auto. rewrite H2. auto.
Qed.
Definition touched : list string := ["granularity"; "customInterval"; "sensitivity"; "needDetectorId"; "needFillUpConfirm";
  "needSpectrumPeriod"; "boundaryVersion"; "need_trend"].
Lemma keeps_gran : forall k, k <> "granularity" -> keeps k parse_granularity.
Proof.
  intros k N d. unfold parse_granularity. destruct (get "granularity" d) as [v|]; [|simpl; apply get_set_ne; auto].
  destruct (negb (hashable v)); auto. destruct (match v with VStr s => gran_of_name s | _ => None end); auto. simpl. apply get_set_ne; auto.
Qed.
Definition parse_rest2 (g : granularity) (i : option Z) : parser settings :=
  let* p := parse_period in
  let* a := parse_alpha in
  let* r := parse_ratio in
  let* s := parse_sensitivity in
  let* t := parse_threshold in
  let* _ := default_false "needDetectorId" in
  let* f := parse_impute in
  let* _ := default_false "needFillUpConfirm" in
  let* _ := default_false "needSpectrumPeriod" in
  let* b := parse_boundary in
  let* x := parse_detector in
  fun d => Next (mkSettings g i p a r s t f b x) d.
Definition parse_rest (g : granularity) : parser settings := seq parse_interval (parse_rest2 g).
Lemma parse_params_eq : parse_params = seq parse_granularity parse_rest.
Proof. reflexivity. Qed.
Lemma keeps_default : forall k j, k <> j -> keeps k (default_false j).
Proof. intros k j N d. unfold default_false. destruct (get j d); simpl; apply get_set_ne; auto. Qed.
Lemma keeps_rest2 : forall g i k, ~ In k (tl (tl touched)) -> keeps k (parse_rest2 g i).
Proof.
  intros g i k N. simpl in N.
  assert (N2 : k <> "sensitivity" /\ k <> "needDetectorId" /\ k <> "needFillUpConfirm" /\ k <> "needSpectrumPeriod"
     /\ k <> "boundaryVersion" /\ k <> "need_trend") by (repeat split; intros ->; tauto).
  destruct N2 as (M2 & M3 & M4 & M5 & M6 & M7). clear N. unfold parse_rest2.
  apply keeps_seq.
  { intros d. unfold parse_period. destruct (get "period" d) as [v|]; auto. destruct (as_int v) as [z|]; auto. destruct (z <? 0)%Z; auto. }
  intros p. apply keeps_seq.
  { intros d. unfold parse_alpha. destruct (get "alpha" d) as [v|]; auto. destruct (as_number v) as [q|]; auto. destruct (q <=? 0)%Qc; auto. }
  intros a. apply keeps_seq.
  { intros d. unfold parse_ratio. destruct (get "maxAnomalyRatio" d) as [[]|]; auto. destruct (_ || _); auto. }
  intros r. apply keeps_seq.
  { intros d. unfold parse_sensitivity. destruct (get "sensitivity" d) as [v|]; [|simpl; apply get_set_ne; auto].
    destruct (as_int v) as [z|]; auto. destruct (_ || _); auto. }
  intros s. apply keeps_seq.
  { intros d. unfold parse_threshold. destruct (get "threshold" d) as [[]|]; auto. }
  intros t. apply keeps_seq; [apply keeps_default; auto|].
  intros _. apply keeps_seq.
  { intros d. pose proof (impute_step d) as K. cbv zeta in K. destruct (parse_impute d) as [f e|c m e|e0 e]; simpl; [| |contradiction];
    destruct K as (-> & _); auto. }
  intros f. apply keeps_seq; [apply keeps_default; auto|].
  intros _. apply keeps_seq; [apply keeps_default; auto|].
  intros _. apply keeps_seq.
  { intros d. pose proof (boundary_step d) as K. cbv zeta in K. destruct (parse_boundary d) as [f0 e|c m e|e0 e]; simpl.
    - destruct K as ((v & ->) & _). rewrite !get_set_ne; auto.
    - destruct K as (_ & _ & -> & _). auto.
    - destruct K as (_ & -> & _). auto. }
  intros b. apply keeps_seq.
  { intros d. pose proof (detector_step d) as K. cbv zeta in K. destruct (parse_detector d) as [f0 e|c m e|e0 e]; simpl.
    - destruct K as (-> & _). auto.
    - destruct K as (-> & _). auto.
    - destruct K as (_ & -> & _). auto. }
  intros x d. reflexivity.
Qed.
Lemma keeps_rest : forall g k, ~ In k (tl touched) -> keeps k (parse_rest g).
Proof.
  intros g k N. apply keeps_seq.
  - intros d. unfold parse_interval. destruct (get "customInterval" d) as [v|]; [|simpl; apply get_set_ne; intros <-; apply N; simpl; auto].
    destruct (as_int v) as [z|]; auto. destruct (z <=? 0)%Z; auto.
  - intros i. apply keeps_rest2. intros I. apply N. right. exact I.
Qed.
Lemma keeps_params : forall k, ~ In k touched -> keeps k parse_params.
Proof.
  intros k N. rewrite parse_params_eq. apply keeps_seq.
  - apply keeps_gran. intros ->. apply N. simpl. auto.
  - intros g. apply keeps_rest. intros I. apply N. right. exact I.
Qed.
(** Once the granularity was recognised, its entry is the enumeration member. *)
Lemma granularity_entry : forall d, ~ (exists v, given "granularity" d v /\ unhashable v) ->
  ~ bad "granularity" (fun v => exists s g, v = VStr s /\ In (s, g) granularity_names) d ->
  exists g, get "granularity" (left_behind (parse_params d)) = Some (VGran g).
Proof.
  intros d N1 N2. rewrite parse_params_eq. unfold seq. pose proof (granularity_step d) as K.
  destruct (parse_granularity d) as [g e|c m e|x e].
  - exists g. destruct K as (-> & _). rewrite keeps_rest; [apply get_set_eq|simpl; intuition discriminate].
  - destruct K as (_ & _ & _ & _ & K). contradiction.
  - destruct K as (_ & _ & K). contradiction.
Qed.
Lemma settings_gran : forall d s e, parse_params d = Next s e ->
  get "granularity" e = Some (VGran (s_gran s)) /\
  (match get "customInterval" e with Some v => as_int v | None => None end) = s_interval s.
Proof.
  intros d s e H. rewrite parse_params_eq in H. unfold seq at 1 in H. pose proof (granularity_step d) as K.
  destruct (parse_granularity d) as [g d1|c m d1|x d1]; try discriminate H. destruct K as (-> & _).
  set (d1 := set "granularity" (VGran g) d) in *.
  assert (X : forall i e1 s1 e2, parse_rest2 g i e1 = Next s1 e2 -> s_gran s1 = g /\ s_interval s1 = i).
  { clear. intros i e1 s1 e2 H. unfold parse_rest2 in H.
    repeat match type of H with seq ?c ?f ?e = _ => unfold seq at 1 in H; destruct (c e); try discriminate H end.
    inversion H. split; reflexivity. }
  unfold parse_rest, seq at 1 in H. pose proof (interval_step d1) as K. cbv zeta in K.
  destruct (parse_interval d1) as [i d2|c m d2|x d2]; try discriminate H. destruct K as (D2 & _ & RI).
  destruct (X _ _ _ _ H) as [X1 X2]. rewrite X1, X2.
  pose proof (keeps_rest2 g i "granularity" ltac:(simpl; intuition discriminate) d2) as K1.
  pose proof (keeps_rest2 g i "customInterval" ltac:(simpl; intuition discriminate) d2) as K2.
  rewrite H in K1, K2. simpl in K1, K2. rewrite K1, K2. split.
  - subst d2. destruct (get "customInterval" d1); [|rewrite get_set_ne by discriminate]; unfold d1; apply get_set_eq.
  - subst d2. destruct RI as [[E ->]|(v & G & z & V & ->)].
    + rewrite E. rewrite get_set_eq. reflexivity.
    + unfold given in G. rewrite G. rewrite G. apply as_int_spec. auto.
Qed.
