(** Proofs about parameter parsing. *)
From Coq Require Import String Ascii List Arith ZArith QArith Qcanon Bool Lia.
From Verif Require Import Base Num FillUp_model Helpers_model Margins_model SR_model Detect_model Dates_model Request_model Request_spec.
Import ListNotations.
Open Scope string_scope.
Open Scope nat_scope.

Lemma get_set_eq : forall k v d, get k (set k v d) = Some v.
Proof.
  induction d as [|[j w] t IH]; simpl; [rewrite String.eqb_refl; auto|].
  destruct (j =? k)%string eqn:E; simpl; rewrite E; auto.
Qed.
Lemma get_set_ne : forall k j v d, j <> k -> get k (set j v d) = get k d.
Proof.
  induction d as [|[i w] t IH]; intros N; simpl.
  - destruct (String.eqb_spec j k); congruence.
  - destruct (String.eqb_spec i j); simpl.
    + subst. destruct (String.eqb_spec j k); congruence.
    + destruct (i =? k)%string; auto.
Qed.
Ltac gs := repeat first [rewrite get_set_eq | rewrite get_set_ne by discriminate].

Lemma as_int_spec : forall v z, as_int v = Some z <-> is_int v z.
Proof.
  intros v z. split.
  - destruct v as [|[]| | | | | | | | | |]; intros H; inversion H; subst; constructor.
  - intros []; reflexivity.
Qed.
Lemma as_number_spec : forall v q, as_number v = Some q <-> is_number v q.
Proof.
  intros v q. split.
  - destruct v as [|[]| | | | | | | | | |]; intros H; inversion H; subst; constructor; constructor.
  - intros [v' z []|]; reflexivity.
Qed.
Lemma hashable_spec : forall v, hashable v = false <-> unhashable v.
Proof.
  intros v. unfold unhashable. split.
  - destruct v; intros H; try discriminate H; eauto.
  - intros [[l ->]|[d ->]]; reflexivity.
Qed.

Ltac names := repeat match goal with
  | |- context [(?s =? ?n)%string] => destruct (String.eqb_spec s n); [subst|]
  end.
Lemma gran_of_name_spec : forall s g, gran_of_name s = Some g <-> In (s, g) granularity_names.
Proof.
  intros s g. unfold gran_of_name, granularity_names. split.
  - names; intros H; inversion H; subst; simpl; tauto.
  - simpl. intros H. repeat (destruct H as [H|H]; [inversion H; subst; reflexivity|]). contradiction.
Qed.
Lemma mode_of_value_spec : forall s m, mode_of_value s = Some m <-> In (s, m) fill_values.
Proof.
  intros s g. unfold mode_of_value, fill_values. split.
  - names; intros H; inversion H; subst; simpl; tauto.
  - simpl. intros H. repeat (destruct H as [H|H]; [inversion H; subst; reflexivity|]). contradiction.
Qed.
Lemma boundary_spec : forall s, (boundary_of_name s <> None <-> In s boundary_names) /\
  (forall b, boundary_of_name s = Some b -> (is_v1 b = true <-> s = "V1")).
Proof.
  intros s. unfold boundary_of_name, boundary_names. split.
  - split; [names; simpl; intros H; try tauto; congruence|].
    simpl. intros H. repeat (destruct H as [H|H]; [subst; discriminate|]). contradiction.
  - names; intros b H; inversion H; subst; simpl; split; auto; discriminate.
Qed.
Lemma fixed_mode : forall s, mode_of_value s = Some FMFixed <-> s = "fixed".
Proof. intros s. rewrite mode_of_value_spec. simpl. split; [intros H; repeat (destruct H as [H|H]; [inversion H; auto|]); contradiction|intros ->; tauto]. Qed.
Lemma zero_mode : forall s, mode_of_value s = Some FMZero <-> s = "zero".
Proof. intros s. rewrite mode_of_value_spec. simpl. split; [intros H; repeat (destruct H as [H|H]; [inversion H; auto|]); contradiction|intros ->; tauto]. Qed.

Lemma lower_char_spec : forall a b, ~ (65 <= nat_of_ascii b <= 90) -> (lower_char a = b <-> same_letter a b).
Proof.
  intros a b N. unfold lower_char, same_letter.
  destruct ((65 <=? nat_of_ascii a) && (nat_of_ascii a <=? 90)) eqn:E.
  - apply andb_true_iff in E. rewrite !Nat.leb_le in E. split.
    + intros <-. right. split; auto. rewrite nat_ascii_embedding; lia.
    + intros [->|[_ H]]; [lia|]. rewrite <- H, ascii_nat_embedding. auto.
  - split; [auto|]. intros [H|[H _]]; auto. exfalso.
    rewrite andb_false_iff, !Nat.leb_gt in E. lia.
Qed.
Fixpoint no_capitals (s : string) : bool :=
  match s with EmptyString => true | String c t => negb ((65 <=? nat_of_ascii c) && (nat_of_ascii c <=? 90)) && no_capitals t end.
Lemma lower_spec : forall s n, no_capitals n = true -> (lower s = n <-> same_word s n).
Proof.
  induction s as [|a s IH]; intros [|b n] H; simpl; try (split; [discriminate|contradiction]); [tauto|].
  cbn [no_capitals] in H. apply andb_true_iff in H. destruct H as [H1 H2].
  assert (N : ~ (65 <= nat_of_ascii b <= 90)).
  { intros [A B]. apply Nat.leb_le in A, B. rewrite A, B in H1. discriminate. }
  rewrite <- (lower_char_spec a b N), <- (IH n H2). split; [intros E; inversion E; auto|intros [-> ->]; auto].
Qed.
Lemma known_spec : forall s, known_detector (lower s) = true <-> exists n, In n detector_names /\ same_word s n.
Proof.
  intros s. unfold known_detector. rewrite !orb_true_iff, !String.eqb_eq.
  split.
  - intros [[[H|H]|H]|H]; apply lower_spec in H; try reflexivity; eexists; (split; [|exact H]); simpl; tauto.
  - intros (n & I & W). simpl in I. destruct I as [<-|[<-|[<-|[<-|[]]]]]; apply lower_spec in W; try reflexivity; rewrite W; tauto.
Qed.

(** ** One lemma per step: either a rule of the step applies, or it goes on with
    the documented reading. *)
Definition reading {A} (k : string) (d : dict) (def : A) (rd : pyval -> A -> Prop) := reads_or k d def rd.

Lemma granularity_step : forall d,
  match parse_granularity d with
  | Raise e d' => e = TypeErr /\ d' = d /\ exists v, given "granularity" d v /\ unhashable v
  | Stop c m d' => c = "InvalidGranularity" /\ m = c /\ d' = d /\ ~ (exists v, given "granularity" d v /\ unhashable v) /\
      bad "granularity" (fun v => exists s g, v = VStr s /\ In (s, g) granularity_names) d
  | Next g d' => d' = set "granularity" (VGran g) d /\ ~ (exists v, given "granularity" d v /\ unhashable v) /\
      ~ bad "granularity" (fun v => exists s g, v = VStr s /\ In (s, g) granularity_names) d /\
      reads_or "granularity" d GNone (fun v g => exists n, v = VStr n /\ In (n, g) granularity_names) g
  end.
Proof.
  intros d. unfold parse_granularity, bad, reads_or, given. destruct (get "granularity" d) as [v|] eqn:E.
  - destruct (hashable v) eqn:Hv; cbn [negb].
    2:{ apply hashable_spec in Hv. eauto 6. }
    assert (NU : ~ (exists w, Some v = Some w /\ unhashable w)).
    { intros (w & X & U). inversion X; subst. apply hashable_spec in U. congruence. }
    assert (O : forall P : pyval -> Prop, (exists w, Some v = Some w /\ ~ P w) <-> ~ P v).
    { intros P. split; [intros (w & X & N); inversion X; subst; auto|eauto]. }
    destruct (match v with VStr s => gran_of_name s | _ => None end) as [g|] eqn:G.
    + destruct v; try discriminate G. apply gran_of_name_spec in G.
      repeat (split; auto).
      * rewrite (O (fun v => exists s g, v = VStr s /\ In (s, g) granularity_names)). intros N. apply N. eauto.
      * right. eexists. split; [reflexivity|]. eauto.
    + repeat (split; auto). rewrite (O (fun v => exists s g, v = VStr s /\ In (s, g) granularity_names)).
      intros (s & g & -> & I). apply gran_of_name_spec in I. congruence.
  - repeat (split; auto); intros (w & X & _); discriminate X.
Qed.

(** The checks of the form "if given, then it must be ...". *)
Lemma bad_some : forall k d v (P : pyval -> Prop), get k d = Some v -> (bad k P d <-> ~ P v).
Proof. intros k d v P E. unfold bad, given. rewrite E. split; [intros (w & X & N); inversion X; subst; auto|eauto]. Qed.
Lemma bad_none : forall k d (P : pyval -> Prop), get k d = None -> ~ bad k P d.
Proof. intros k d P E (v & X & _). unfold given in X. congruence. Qed.

Lemma interval_step : forall d, let P v := exists z, is_int v z /\ (0 < z)%Z in
  match parse_interval d with
  | Raise e d' => False
  | Stop c m d' => c = "InvalidCustomInterval" /\ m = c /\ d' = d /\ bad "customInterval" P d
  | Next i d' => d' = (if get "customInterval" d then d else set "customInterval" VNone d) /\ ~ bad "customInterval" P d /\
      reads_or "customInterval" d None (fun v i => exists z, is_int v z /\ i = Some z) i
  end.
Proof.
  intros d P. unfold parse_interval, reads_or. destruct (get "customInterval" d) as [v|] eqn:E.
  - pose proof (bad_some _ d v P E) as B. destruct (as_int v) as [z|] eqn:Z0.
    + destruct (Z.leb_spec z 0).
      * repeat (split; auto). apply B. intros (y & Y & L). apply as_int_spec in Y. rewrite Z0 in Y. inversion Y. lia.
      * apply as_int_spec in Z0. repeat (split; auto). { rewrite B. intros N. apply N. exists z. auto. }
        right. exists v. unfold given. split; eauto.
    + repeat (split; auto). apply B. intros (y & Y & L). apply as_int_spec in Y. congruence.
  - repeat (split; auto). apply bad_none; auto.
Qed.

Lemma period_step : forall d, let P v := exists z, is_int v z /\ (0 <= z)%Z in
  match parse_period d with
  | Raise e d' => False
  | Stop c m d' => c = "InvalidPeriod" /\ m = c /\ d' = d /\ bad "period" P d
  | Next p d' => d' = d /\ ~ bad "period" P d /\
      reads_or "period" d None (fun v p => exists n, is_int v (Z.of_nat n) /\ p = Some n) p
  end.
Proof.
  intros d P. unfold parse_period, reads_or. destruct (get "period" d) as [v|] eqn:E.
  - pose proof (bad_some _ d v P E) as B. destruct (as_int v) as [z|] eqn:Z0.
    + destruct (Z.ltb_spec z 0).
      * repeat (split; auto). apply B. intros (y & Y & L). apply as_int_spec in Y. rewrite Z0 in Y. inversion Y. lia.
      * apply as_int_spec in Z0. repeat (split; auto). { rewrite B. intros N. apply N. exists z. auto. }
        right. exists v. unfold given. split; auto. exists (Z.to_nat z). rewrite Z2Nat.id by lia. auto.
    + repeat (split; auto). apply B. intros (y & Y & L). apply as_int_spec in Y. congruence.
  - repeat (split; auto). apply bad_none; auto.
Qed.

Lemma alpha_step : forall d, let P v := exists q, is_number v q /\ (0 < q)%Qc in
  match parse_alpha d with
  | Raise e d' => False
  | Stop c m d' => c = "InvalidModelArgument" /\ m = "InvalidAlpha" /\ d' = d /\ bad "alpha" P d
  | Next a d' => d' = d /\ ~ bad "alpha" P d /\ reads_or "alpha" d (Q2Qc (5 # 100)) is_number a
  end.
Proof.
  intros d P. unfold parse_alpha, reads_or. destruct (get "alpha" d) as [v|] eqn:E.
  - pose proof (bad_some _ d v P E) as B. destruct (as_number v) as [q|] eqn:Z0.
    + destruct (q <=? 0)%Qc eqn:L.
      * apply Qcleb_le in L. repeat (split; auto). apply B. intros (y & Y & L'). apply as_number_spec in Y. rewrite Z0 in Y. inversion Y; subst y.
        exact (Qclt_not_le _ _ L' L).
      * apply Qcleb_gt in L. apply as_number_spec in Z0. repeat (split; auto). { rewrite B. intros N. apply N. exists q. auto. }
        right. exists v. unfold given. auto.
    + repeat (split; auto). apply B. intros (y & Y & L). apply as_number_spec in Y. congruence.
  - repeat (split; auto). apply bad_none; auto.
Qed.

Lemma ratio_step : forall d, let P v := exists q, v = VFloat q /\ (0 < q)%Qc /\ (q <= Q2Qc (49 # 100))%Qc in
  match parse_ratio d with
  | Raise e d' => False
  | Stop c m d' => c = "InvalidModelArgument" /\ m = "InvalidAnomalyRatio" /\ d' = d /\ bad "maxAnomalyRatio" P d
  | Next a d' => d' = d /\ ~ bad "maxAnomalyRatio" P d /\ reads_or "maxAnomalyRatio" d (Q2Qc (25 # 100)) is_number a
  end.
Proof.
  intros d P. unfold parse_ratio, reads_or. destruct (get "maxAnomalyRatio" d) as [v|] eqn:E.
  - pose proof (bad_some _ d v P E) as B. destruct v as [| | |q| | | | | | | |];
      try (repeat (split; auto); apply B; intros (y & Y & _); discriminate Y).
    destruct ((q <=? 0)%Qc || (Q2Qc (49 # 100) <? q)%Qc) eqn:L.
    + repeat (split; auto). apply B. intros (y & Y & L1 & L2). inversion Y; subst y. apply orb_true_iff in L. destruct L as [L|L].
      * apply Qcleb_le in L. exact (Qclt_not_le _ _ L1 L).
      * apply Qcltb_lt in L. exact (Qclt_not_le _ _ L L2).
    + apply orb_false_iff in L. destruct L as [L1 L2]. apply Qcleb_gt in L1. apply Qcltb_ge in L2.
      repeat (split; auto). { rewrite B. intros N. apply N. exists q. auto. }
      right. eexists. split; [exact E|]. constructor.
  - repeat (split; auto). apply bad_none; auto.
Qed.

Lemma sensitivity_step : forall d, let P v := exists z, is_int v z /\ (0 <= z <= 100)%Z in
  match parse_sensitivity d with
  | Raise e d' => False
  | Stop c m d' => c = "InvalidModelArgument" /\ m = "InvalidSensitivity" /\ d' = d /\ bad "sensitivity" P d
  | Next a d' => d' = (if get "sensitivity" d then d else set "sensitivity" (VInt 99) d) /\ ~ bad "sensitivity" P d /\
      reads_or "sensitivity" d 99%Z is_int a /\ (0 <= a <= 100)%Z
  end.
Proof.
  intros d P. unfold parse_sensitivity, reads_or. destruct (get "sensitivity" d) as [v|] eqn:E.
  - pose proof (bad_some _ d v P E) as B. destruct (as_int v) as [z|] eqn:Z0.
    + destruct ((z <? 0)%Z || (100 <? z)%Z) eqn:L.
      * repeat (split; auto). apply B. intros (y & Y & L'). apply as_int_spec in Y. rewrite Z0 in Y. inversion Y; subst y.
        apply orb_true_iff in L. rewrite !Z.ltb_lt in L. lia.
      * apply orb_false_iff in L. rewrite !Z.ltb_ge in L. apply as_int_spec in Z0.
        repeat (split; auto); try lia. { rewrite B. intros N. apply N. exists z. split; auto; lia. }
        right. exists v. unfold given. auto.
    + repeat (split; auto). apply B. intros (y & Y & L). apply as_int_spec in Y. congruence.
  - repeat (split; auto); try lia. apply bad_none; auto.
Qed.

Lemma threshold_step : forall d, let P v := exists q, v = VFloat q in
  match parse_threshold d with
  | Raise e d' => False
  | Stop c m d' => c = "InvalidModelArgument" /\ m = "InvalidThreshold" /\ d' = d /\ bad "threshold" P d
  | Next a d' => d' = d /\ ~ bad "threshold" P d /\ reads_or "threshold" d (Q2Qc (35 # 10)) is_number a
  end.
Proof.
  intros d P. unfold parse_threshold, reads_or. destruct (get "threshold" d) as [v|] eqn:E.
  - pose proof (bad_some _ d v P E) as B. destruct v as [| | |q| | | | | | | |];
      try (repeat (split; auto); apply B; intros (y & Y); discriminate Y).
    repeat (split; auto). { rewrite B. intros N. apply N. exists q. auto. }
    right. eexists. split; [exact E|]. constructor.
  - repeat (split; auto). apply bad_none; auto.
Qed.

Definition mode_ok (v : pyval) : Prop := v = VNone \/ exists s m, v = VStr s /\ In (s, m) fill_values.
Definition no_fixed (k : string) (d : dict) : Prop := ~ exists v q, given k d v /\ is_number v q.
Lemma no_fixed_spec : forall k d, (match get k d with None => None | Some w => as_number w end) = None <-> no_fixed k d.
Proof.
  intros k d. unfold no_fixed, given. destruct (get k d) as [w|].
  - split; [intros H (v & q & X & N); inversion X; subst; apply as_number_spec in N; congruence|].
    intros N. destruct (as_number w) as [q|] eqn:E; auto. exfalso. apply N. exists w, q. split; auto. apply as_number_spec; auto.
  - split; auto. intros _ (v & q & X & _). discriminate.
Qed.
Lemma impute_step : forall d,
  let r1 := bad "imputeMode" mode_ok d in
  let r2 := given "imputeMode" d (VStr "fixed") /\ no_fixed "imputeFixedValue" d in
  let r3 := ~ impute_given d /\ bad "fillUpMode" mode_ok d in
  let r4 := ~ impute_given d /\ given "fillUpMode" d (VStr "fixed") /\ no_fixed "fixedValue" d in
  match parse_impute d with
  | Raise e d' => False
  | Stop c m d' => d' = d /\
      ((c = "InvalidImputeMode" /\ m = "InvalidImputeMode" /\ r1) \/
       (c = "InvalidImputeFixedValue" /\ m = "InvalidImputeValue" /\ ~ r1 /\ r2) \/
       (c = "InvalidFillUpMode" /\ m = "InvalidImputeMode" /\ ~ r1 /\ ~ r2 /\ r3) \/
       (c = "InvalidFixedValue" /\ m = "InvalidImputeValue" /\ ~ r1 /\ ~ r2 /\ ~ r3 /\ r4))
  | Next f d' => d' = d /\ ~ r1 /\ ~ r2 /\ ~ r3 /\ ~ r4 /\ reads_fill d (fst f) (snd f)
  end.
Proof.
  intros d r1 r2 r3 r4. unfold parse_impute.
  set (mode v := match v with VStr s => mode_of_value s | _ => None end).
  assert (MO : forall v, v <> VNone -> (mode v = None <-> ~ mode_ok v)).
  { intros v NV. unfold mode_ok. split.
    - intros H [X|(s & m & -> & I)]; [contradiction|]. cbn [mode] in H. apply mode_of_value_spec in I. congruence.
    - intros N. destruct (mode v) as [m|] eqn:E; auto. exfalso. apply N. right. destruct v; try discriminate E.
      cbn [mode] in E. apply mode_of_value_spec in E. eauto. }
  assert (SH : forall v m, mode v = Some m -> exists s, v = VStr s /\ mode_of_value s = Some m).
  { intros v m H. destruct v; try discriminate H. eauto. }
  (* the legacy branch *)
  assert (Legacy : ~ impute_given d -> forall o, get "fillUpMode" d = o ->
    match (match o with
           | None | Some VNone => Next (FMAuto, None) d
           | Some v => match mode v with
             | None => Stop "InvalidFillUpMode" "InvalidImputeMode" d
             | Some FMFixed => match get "fixedValue" d with
                 | None => Stop "InvalidFixedValue" "InvalidImputeValue" d
                 | Some w => match as_number w with
                      | None => Stop "InvalidFixedValue" "InvalidImputeValue" d
                      | Some q => Next (FMFixed, Some q) d end end
             | Some m => Next (m, None) d end end) with
    | Raise e d' => False
    | Stop c m d' => d' = d /\
      ((c = "InvalidImputeMode" /\ m = "InvalidImputeMode" /\ r1) \/
       (c = "InvalidImputeFixedValue" /\ m = "InvalidImputeValue" /\ ~ r1 /\ r2) \/
       (c = "InvalidFillUpMode" /\ m = "InvalidImputeMode" /\ ~ r1 /\ ~ r2 /\ r3) \/
       (c = "InvalidFixedValue" /\ m = "InvalidImputeValue" /\ ~ r1 /\ ~ r2 /\ ~ r3 /\ r4))
    | Next f d' => d' = d /\ ~ r1 /\ ~ r2 /\ ~ r3 /\ ~ r4 /\ reads_fill d (fst f) (snd f)
    end).
  { intros NI o EO.
    assert (N1 : ~ r1). { intros (v & G & N). apply NI. exists v. split; auto. intros ->. apply N. left. auto. }
    assert (N2 : ~ r2). { intros (G & N). apply NI. eexists. split; [exact G|discriminate]. }
    assert (None_case : (get "fillUpMode" d = None \/ given "fillUpMode" d VNone) ->
        d = d /\ ~ r1 /\ ~ r2 /\ ~ r3 /\ ~ r4 /\ reads_fill d FMAuto None).
    { intros G. repeat (split; auto).
      - intros (_ & v & G' & N). unfold given in *. destruct G as [G|G]; rewrite G in G'; [discriminate|]. inversion G'; subst. apply N. left. auto.
      - intros (_ & G' & _). unfold given in *. destruct G as [G|G]; rewrite G in G'; discriminate.
      - right. right. auto. }
    destruct o as [v|]; [|apply None_case; auto].
    destruct (match v with VNone => true | _ => false end) eqn:EV. { destruct v; try discriminate EV. apply None_case; auto. }
    assert (NV : v <> VNone) by (intros ->; discriminate).
    assert (Fold : forall B (x y : B), match v with VNone => x | _ => y end = y) by (intros; destruct v; auto; congruence).
    rewrite Fold.
    pose proof (bad_some "fillUpMode" d v mode_ok EO) as B3. specialize (MO v NV).
    destruct (mode v) as [m|] eqn:EM.
    - destruct (SH v m EM) as (s & -> & Es).
      assert (N3 : ~ r3). { intros (_ & X). apply B3 in X. apply MO in X. discriminate. }
      destruct (match m with FMFixed => true | _ => false end) eqn:Em.
      + destruct m; try discriminate Em. apply fixed_mode in Es. subst s.
        pose proof (no_fixed_spec "fixedValue" d) as NF. destruct (get "fixedValue" d) as [w|] eqn:EW.
        * destruct (as_number w) as [q|] eqn:Eq.
          -- repeat (split; auto). { intros (_ & _ & X). apply NF in X. discriminate. }
             right. left. split; auto. exists "fixed". split; auto. split; [simpl; tauto|]. left. split; auto.
             exists w, q. split; auto. split; auto. apply as_number_spec; auto.
          -- split; auto. do 3 right. repeat (split; auto). apply NF; auto.
        * split; auto. do 3 right. repeat (split; auto). apply NF; auto.
      + assert (NX : s <> "fixed") by (intros ->; inversion Es; subst; discriminate).
        assert (Res : d = d /\ ~ r1 /\ ~ r2 /\ ~ r3 /\ ~ r4 /\ reads_fill d m None).
        { repeat (split; auto).
          - intros (_ & G & _). unfold given in G. rewrite EO in G. inversion G. congruence.
          - right. left. split; auto. exists s. split; auto. split; [apply mode_of_value_spec; auto|]. right. auto. }
        destruct m; try discriminate Em; exact Res.
    - split; auto. right. right. left. repeat (split; auto). apply B3. apply MO. auto. }
  destruct (get "imputeMode" d) as [v|] eqn:EI.
  2:{ assert (NI : ~ impute_given d) by (intros (v & G & _); unfold given in G; congruence).
      specialize (Legacy NI _ eq_refl). destruct (get "fillUpMode" d) as [w|]; [destruct w|]; exact Legacy. }
  destruct (match v with VNone => true | _ => false end) eqn:EV.
  { destruct v; try discriminate EV.
    assert (NI : ~ impute_given d) by (intros (v & G & N); unfold given in G; congruence).
    specialize (Legacy NI _ eq_refl). destruct (get "fillUpMode" d) as [w|]; [destruct w|]; exact Legacy. }
  clear Legacy.
  assert (NV : v <> VNone) by (intros ->; discriminate).
  assert (IG : impute_given d) by (exists v; auto).
  match goal with |- match ?e with _ => _ end => replace e with
     (match mode v with
      | None => Stop "InvalidImputeMode" "InvalidImputeMode" d
      | Some FMFixed =>
          match get "imputeFixedValue" d with
          | None => Stop "InvalidImputeFixedValue" "InvalidImputeValue" d
          | Some w => match as_number w with
                      | None => Stop "InvalidImputeFixedValue" "InvalidImputeValue" d
                      | Some _ => Next (FMFixed, None) d
                      end
          end
      | Some FMZero => Next (FMFixed, Some 0%Qc) d
      | Some m => Next (m, None) d
      end) by (destruct v; try congruence; destruct (get "fillUpMode" d); reflexivity) end.
  pose proof (bad_some "imputeMode" d v mode_ok EI) as B1. specialize (MO v NV).
  assert (N3 : ~ r3) by (intros (X & _); auto). assert (N4 : ~ r4) by (intros (X & _); auto).
  destruct (mode v) as [m|] eqn:EM.
  - destruct (SH v m EM) as (s & -> & Es).
    assert (N1 : ~ r1). { intros X. apply B1 in X. apply MO in X. discriminate. }
    pose proof (mode_of_value_spec s m) as IN. pose proof (proj1 IN Es) as I.
    assert (N2 : s <> "fixed" -> ~ r2). { intros X (G & _). unfold given in G. rewrite EI in G. inversion G. congruence. }
    assert (Plain : s <> "fixed" -> s <> "zero" -> d = d /\ ~ r1 /\ ~ r2 /\ ~ r3 /\ ~ r4 /\ reads_fill d m None).
    { intros X1 X2. repeat (split; auto). left. exists s. split; auto. }
    destruct m; try (apply Plain; intros ->; inversion Es).
    + apply fixed_mode in Es. subst s. pose proof (no_fixed_spec "imputeFixedValue" d) as NF.
      destruct (get "imputeFixedValue" d) as [w|] eqn:EW.
      * destruct (as_number w) as [q|] eqn:Eq.
        -- repeat (split; auto). { intros (_ & X). apply NF in X. discriminate. }
           left. exists "fixed". split; auto. right. split; [discriminate|]. split; auto.
        -- split; auto. right. left. repeat (split; auto). apply NF; auto.
      * split; auto. right. left. repeat (split; auto). apply NF; auto.
    + apply zero_mode in Es. subst s. repeat (split; auto). { apply N2. discriminate. } left. exists "zero". split; auto.
  - split; auto. left. repeat (split; auto). apply B1. apply MO. auto.
Qed.

Lemma boundary_step : forall d,
  let u := exists v, given "boundaryVersion" d v /\ unhashable v in
  let P v := v = VNone \/ exists s, v = VStr s /\ In s boundary_names in
  match parse_boundary d with
  | Raise e d' => e = TypeErr /\ d' = d /\ u
  | Stop c m d' => c = "InvalidBoundaryVersion" /\ m = c /\ d' = d /\ ~ u /\ bad "boundaryVersion" P d
  | Next b d' => (exists v, d' = set "need_trend" (VBool (negb b)) (set "boundaryVersion" (VBoundary v) d)) /\ ~ u /\ ~ bad "boundaryVersion" P d /\
      (b = true <-> get "boundaryVersion" d = None \/ given "boundaryVersion" d VNone \/ given "boundaryVersion" d (VStr "V1"))
  end.
Proof.
  intros d u P. unfold parse_boundary. destruct (get "boundaryVersion" d) as [v|] eqn:E.
  - pose proof (bad_some _ d v P E) as B.
    destruct (match v with VNone => true | _ => false end) eqn:EV.
    { destruct v; try discriminate EV. split; [exists V1; reflexivity|]. split; [|split].
      - intros (v & G & U). unfold given in G. rewrite E in G. inversion G; subst v. destruct U as [[? U]|[? U]]; discriminate.
      - rewrite B. intros N. apply N. left. auto.
      - split; [intros _; right; left; exact E|auto]. }
    assert (NV : v <> VNone) by (intros ->; discriminate).
    assert (Fold : forall X (x y : X), match v with VNone => x | _ => y end = y) by (intros; destruct v; auto; congruence).
    rewrite Fold. destruct (hashable v) eqn:Hv; cbn [negb].
    2:{ apply hashable_spec in Hv. repeat (split; auto). exists v. auto. }
    assert (NU : ~ u). { intros (w & G & U). unfold given in G. rewrite E in G. inversion G; subst. apply hashable_spec in U. congruence. }
    destruct (match v with VStr s => boundary_of_name s | _ => None end) as [b|] eqn:G.
    + destruct v; try discriminate G. destruct (boundary_spec s) as [I1 I2]. split; [exists b; auto|]. split; auto. split.
      * rewrite B. intros N. apply N. right. exists s. split; auto. apply I1. congruence.
      * rewrite (I2 b G). unfold given. rewrite E. split; [intros ->; auto|]. intros [X|[X|X]]; inversion X; auto.
    + repeat (split; auto). apply B. intros [X|(s & -> & I)]; [congruence|]. apply boundary_spec in I. congruence.
  - split; [exists V1; reflexivity|]. split; [intros (v & G & _); unfold given in G; congruence|]. split; [apply bad_none; auto|tauto].
Qed.

Lemma detector_step : forall d,
  let D dd := given "detector" d (VDict dd) in
  let r1 := exists dd, D dd /\ get "parameters" dd = None in
  let r2 := exists dd, D dd /\ bad "parameters" (fun v => exists pd, v = VDict pd) dd in
  let r3 := exists dd, D dd /\ get "name" dd = None in
  let r4 := exists dd, D dd /\ bad "name" (fun v => exists s, v = VStr s) dd in
  let r5 := exists dd s, D dd /\ given "name" dd (VStr s) /\ forall n, In n detector_names -> ~ same_word s n in
  match parse_detector d with
  | Raise e d' => e = AttrErr /\ d' = d /\ ~ r1 /\ ~ r2 /\ ~ r3 /\ r4
  | Stop c m d' => d' = d /\
      ((c = "MissingDetectorParameters" /\ m = c /\ r1) \/
       (c = "InvalidDetectorParameters" /\ m = c /\ ~ r1 /\ r2) \/
       (c = "MissingDetectorName" /\ m = c /\ ~ r1 /\ ~ r2 /\ r3) \/
       (c = "InvalidDetector" /\ m = "InvalidDetectorName" /\ ~ r1 /\ ~ r2 /\ ~ r3 /\ ~ r4 /\ r5))
  | Next x d' => d' = d /\ ~ r1 /\ ~ r2 /\ ~ r3 /\ ~ r4 /\ ~ r5 /\
      ((forall dd, ~ D dd) -> x = Some (mkDet None None))
  end.
Proof.
  intros d D r1 r2 r3 r4 r5. unfold parse_detector.
  destruct (match get "detector" d with Some (VDict _) => true | _ => false end) eqn:E.
  2:{ assert (ND : forall dd, ~ D dd). { intros dd X. unfold D, given in X. rewrite X in E. discriminate. }
      match goal with |- match ?e with _ => _ end => replace e with (Next (Some (mkDet None None)) d)
        by (destruct (get "detector" d) as [[]|]; try discriminate E; reflexivity) end.
      repeat (split; auto).
      - intros (dd & X & _). exact (ND dd X).
      - intros (dd & X & _). exact (ND dd X).
      - intros (dd & X & _). exact (ND dd X).
      - intros (dd & X & _). exact (ND dd X).
      - intros (dd & s & X & _). exact (ND dd X). }
  destruct (get "detector" d) as [[| | | | | | | | | |dd|]|] eqn:G; try discriminate E. clear E.
  assert (U : forall dd', D dd' -> dd' = dd). { intros dd' X. unfold D, given in X. congruence. }
  assert (Dd : D dd) by exact G.
  destruct (get "parameters" dd) as [pv|] eqn:GP.
  2:{ split; auto. left. repeat (split; auto). exists dd. auto. }
  assert (N1 : ~ r1). { intros (dd' & X & Y). apply U in X. subst. congruence. }
  destruct (match pv with VDict _ => true | _ => false end) eqn:EP.
  2:{ assert (R2 : r2). { exists dd. split; auto. apply (bad_some _ dd pv _ GP). intros (pd & ->). discriminate. }
      assert (Res : d = d /\
      (("InvalidDetectorParameters" = "MissingDetectorParameters" /\ "InvalidDetectorParameters" = "InvalidDetectorParameters" /\ r1) \/
       ("InvalidDetectorParameters" = "InvalidDetectorParameters" /\ "InvalidDetectorParameters" = "InvalidDetectorParameters" /\ ~ r1 /\ r2) \/
       ("InvalidDetectorParameters" = "MissingDetectorName" /\ "InvalidDetectorParameters" = "InvalidDetectorParameters" /\ ~ r1 /\ ~ r2 /\ r3) \/
       ("InvalidDetectorParameters" = "InvalidDetector" /\ "InvalidDetectorParameters" = "InvalidDetectorName" /\ ~ r1 /\ ~ r2 /\ ~ r3 /\ ~ r4 /\ r5))).
      { split; [auto|]. right. left. auto. }
      destruct pv; try discriminate EP; exact Res. }
  destruct pv as [| | | | | | | | | |pd|]; try discriminate EP.
  assert (N2 : ~ r2). { intros (dd' & X & Y). apply U in X. subst. apply (bad_some _ dd _ _ GP) in Y. apply Y. eauto. }
  destruct (get "name" dd) as [nv|] eqn:GN.
  2:{ split; auto. right. right. left. repeat (split; auto). exists dd. auto. }
  assert (N3 : ~ r3). { intros (dd' & X & Y). apply U in X. subst. congruence. }
  destruct (match nv with VStr _ => true | _ => false end) eqn:EN.
  2:{ assert (R4 : r4). { exists dd. split; auto. apply (bad_some _ dd nv _ GN). intros (s & ->). discriminate. }
      assert (Res : AttrErr = AttrErr /\ d = d /\ ~ r1 /\ ~ r2 /\ ~ r3 /\ r4) by (repeat (split; auto)).
      destruct nv; try discriminate EN; exact Res. }
  destruct nv as [| | | |s| | | | | | |]; try discriminate EN.
  assert (N4 : ~ r4). { intros (dd' & X & Y). apply U in X. subst. apply (bad_some _ dd _ _ GN) in Y. apply Y. eauto. }
  pose proof (known_spec s) as K. destruct (known_detector (lower s)).
  - repeat (split; auto).
    + intros (dd' & s' & X & Y & Z). apply U in X. subst. unfold given in Y. rewrite GN in Y. inversion Y; subst s'.
      destruct (proj1 K eq_refl) as (n & I & W). exact (Z n I W).
    + intros N. exfalso. exact (N dd Dd).
  - split; auto. do 3 right. repeat (split; auto). exists dd, s. repeat (split; auto).
    intros n I W. assert (X : false = true) by (apply K; eauto). discriminate.
Qed.

Lemma default_false_step : forall k d, exists v, default_false k d = Next tt (set k v d).
Proof. intros k d. unfold default_false. destruct (get k d); eauto. Qed.
