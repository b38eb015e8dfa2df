(** Proofs about the validation of a series. *)
From Coq Require Import String Ascii List Arith ZArith QArith Qcanon Bool Lia.
From Verif Require Import Base Num FillUp_model Helpers_model Margins_model Margins_proofs3 SR_model Detect_model Dates_model Dates_proofs Dates_index
  Request_model Request_spec Request_proofs Request_proofs2.
Import ListNotations.
Open Scope string_scope.
Open Scope nat_scope.

Lemma Forall2_length : forall A B (R : A -> B -> Prop) l m, Forall2 R l m -> length l = length m.
Proof. intros A B R l m H. induction H; simpl; auto. Qed.

(** Grid indices always come as a list of the same length or as a position. *)
Lemma indices_shape : forall g custom st, st <> [] -> g <> GNone -> (g = Microsecond -> (match custom with None => 1 | Some c => c end <= 4006)%Z) ->
  (exists l, get_indices_from_timestamps g custom st = Ok (Some l, None) /\ length l = length st) \/
  (exists i, get_indices_from_timestamps g custom st = Ok (None, Some i)).
Proof.
  intros g custom st NE NG M. destruct st as [|s0 st]; [congruence|]. unfold get_indices_from_timestamps.
  set (ci := Z.max (match custom with None => 1 | Some c => c end) 1).
  assert (TI : forall A (q : A -> f64) l, (exists x, Ok (to_indices (map q l)) = Ok (Some x, None) /\ length x = length l) \/
                                      (exists i, Ok (to_indices (map q l)) = Ok (None, Some i))).
  { intros A q l. unfold to_indices. destruct (first_bad is_integer 0 (map q l)); [right; eauto|left].
    eexists. split; [reflexivity|]. rewrite !map_length. auto. }
  assert (TM : forall A B (q : B -> f64) (h : A -> B) l,
     (exists x, Ok (to_indices (map q (map h l))) = Ok (Some x, None) /\ length x = length l) \/
     (exists i, Ok (to_indices (map q (map h l))) = Ok (None, Some i))).
  { intros A B q h l. rewrite map_map. apply TI. }
  assert (C : (1 <= ci)%Z) by (unfold ci; lia).
  destruct g; try congruence; cbn [get_second_by_granularity bind];
    try (match goal with |- context [if (?x =? 0)%Z then _ else _] => destruct (Z.eqb_spec x 0); [lia|apply TI] end).
  - destruct (first_bad _ 0 (map _ (s0 :: st))); [right; eauto|]. apply TM.
  - destruct (first_bad _ 0 (map _ (s0 :: st))); [right; eauto|]. apply TM.
  - assert (C2 : (1 <= ci <= 4006)%Z) by (specialize (M eq_refl); unfold ci; lia).
    rewrite (interval_exact ci C2). destruct (Z.eqb_spec ci 0); [lia|]. apply TI.
Qed.

Section Validator.
Context {T : Type}.
Variable to_datetime : list T -> option (list stamp).
Hypothesis to_datetime_length : forall l st, to_datetime l = Some st -> length st = length l.

Lemma numbers_ok : forall (rows : list (point T)) ns, numbers _ rows = Ok ns -> Forall2 (fun x n => w_value x = Num n) rows ns.
Proof.
  induction rows as [|x t IH]; intros ns H; simpl in H; [inversion H; constructor|].
  destruct (w_value x) eqn:E; try discriminate. destruct (numbers T t) as [r|e]; [|discriminate]. inversion H; subst. constructor; auto.
Qed.
Lemma numbers_err : forall (rows : list (point T)) e, numbers _ rows = Err e -> exists x, In x rows /\ ~ has_number x.
Proof.
  induction rows as [|x t IH]; intros e H; simpl in H; [discriminate|].
  destruct (w_value x) eqn:E.
  - exists x. split; [simpl; auto|]. intros [n N]. congruence.
  - exists x. split; [simpl; auto|]. intros [n N]. congruence.
  - destruct (numbers T t) as [r|e']; [discriminate|]. destruct (IH e' eq_refl) as (y & I & N). exists y. simpl. auto.
Qed.
Lemma times_spec : forall (rows : list (point T)) ts, times _ rows = Some ts <-> Forall2 (fun x t => w_time x = Some t) rows ts.
Proof.
  induction rows as [|x t IH]; intros ts; simpl.
  - split; [intros H; inversion H; constructor|]. intros H. inversion H. auto.
  - split.
    + destruct (w_time x) as [s|] eqn:E; [|discriminate]. destruct (times T t) as [r|]; [|discriminate]. intros H. inversion H; subst.
      constructor; auto. apply IH. auto.
    + intros H. inversion H as [|? b ? r E F]; subst. rewrite E. apply IH in F. rewrite F. auto.
Qed.
Lemma read_times_spec : forall (rows : list (point T)) st,
  (match times _ rows with Some l => to_datetime l | None => None end) = Some st <-> read_times to_datetime rows st.
Proof.
  intros rows st. unfold read_times. split.
  - destruct (times T rows) as [ts|] eqn:E; [|discriminate]. intros H. exists ts. split; auto. apply times_spec. auto.
  - intros (ts & F & H). apply times_spec in F. rewrite F. auto.
Qed.
Lemma read_times_fun : forall (rows : list (point T)) st st', read_times to_datetime rows st -> read_times to_datetime rows st' -> st = st'.
Proof. intros rows st st' H1 H2. apply read_times_spec in H1, H2. congruence. Qed.
Lemma read_times_length : forall (rows : list (point T)) st, read_times to_datetime rows st -> length st = length rows.
Proof. intros rows st (ts & F & H). apply to_datetime_length in H. apply Forall2_length in F. congruence. Qed.

Lemma F2_in_l : forall A B (R : A -> B -> Prop) l m x, Forall2 R l m -> In x l -> exists y, In y m /\ R x y.
Proof. intros A B R l m x H. induction H; intros []; [subst; eexists; split; [left; reflexivity|auto]|]. destruct IHForall2 as (z & I & Rz); auto. exists z. split; [right|]; auto. Qed.
Lemma F2_in_r : forall A B (R : A -> B -> Prop) l m y, Forall2 R l m -> In y m -> exists x, In x l /\ R x y.
Proof. intros A B R l m x H. induction H; intros []; [subst; eexists; split; [left; reflexivity|auto]|]. destruct IHForall2 as (z & I & Rz); auto. exists z. split; [right|]; auto. Qed.

Lemma overflow_spec : forall n, overflow n = true <-> too_large n.
Proof.
  intros n. unfold too_large. destruct n as [q| | |]; simpl.
  - rewrite orb_true_iff, !Qcltb_lt. split; [eauto 6|]. intros [X|[X|(q' & X & H)]]; inversion X; subst; auto.
  - split; [discriminate|]. intros [X|[X|(q' & X & H)]]; discriminate.
  - tauto.
  - tauto.
Qed.

(** The first pair of neighbours that is not in order. *)
Lemma ascending_spec : forall st,
  (is_timestamp_ascending st = (-1)%Z <-> first_flaw st (fun a b => before b a)) /\
  (is_timestamp_ascending st = (-2)%Z <-> first_flaw st (fun a b => ~ before a b /\ ~ before b a)) /\
  (is_timestamp_ascending st = 0%Z <-> forall i a b, nth_error st i = Some a -> nth_error st (S i) = Some b -> before a b) /\
  (is_timestamp_ascending st = (-1) \/ is_timestamp_ascending st = (-2) \/ is_timestamp_ascending st = 0)%Z.
Proof.
  induction st as [|a st IH].
  { simpl. split; [|split; [|split]]; try (right; right; reflexivity); (split; [intros H; try discriminate H|auto]).
    - intros (i & x & y & H & _). destruct i; discriminate H.
    - intros (i & x & y & H & _). destruct i; discriminate H.
    - intros [|i]; discriminate. }
  destruct st as [|b st].
  { simpl. split; [|split; [|split]]; try (right; right; reflexivity); (split; [intros H; try discriminate H|auto]).
    - intros (i & x & y & _ & H & _). destruct i as [|i]; [discriminate H|destruct i; discriminate H].
    - intros (i & x & y & _ & H & _). destruct i as [|i]; [discriminate H|destruct i; discriminate H].
    - intros i x y _ H2. destruct i as [|i]; [discriminate H2|destruct i; discriminate H2]. }
  destruct IH as (I1 & I2 & I3 & I4).
  change (is_timestamp_ascending (a :: b :: st)) with
    (if stamp_ltb b a then (-1)%Z else if negb (stamp_ltb a b) then (-2)%Z else is_timestamp_ascending (b :: st)).
  assert (Shift : forall flaw : stamp -> stamp -> Prop, (forall x y, flaw x y -> ~ before x y) -> before a b ->
     (first_flaw (a :: b :: st) flaw <-> first_flaw (b :: st) flaw)).
  { intros flaw X B. unfold first_flaw. split.
    - intros ([|i] & x & y & H1 & H2 & Hf & Hb).
      + simpl in H1, H2. inversion H1; inversion H2; subst. exfalso. exact (X _ _ Hf B).
      + exists i, x, y. split; [exact H1|]. split; [exact H2|]. split; [exact Hf|]. intros j u v L U V. apply (Hb (S j)); auto. lia.
    - intros (i & x & y & H1 & H2 & Hf & Hb). exists (S i), x, y. split; [exact H1|]. split; [exact H2|]. split; [exact Hf|].
      intros [|j] u v L U V; [simpl in U, V; inversion U; inversion V; subst; auto|]. apply (Hb j); auto. lia. }
  assert (Here : forall (flaw : stamp -> stamp -> Prop), ~ before a b -> (first_flaw (a :: b :: st) flaw <-> flaw a b)).
  { intros flaw N. unfold first_flaw. split.
    - intros ([|i] & x & y & H1 & H2 & Hf & Hb); [simpl in H1, H2; inversion H1; inversion H2; subst; auto|].
      exfalso. apply N. apply (Hb 0); auto. lia.
    - intros Hf. exists 0, a, b. simpl. repeat (split; auto). intros j u v L. lia. }
  destruct (stamp_ltb b a) eqn:E1.
  - assert (N : ~ before a b) by (unfold before; rewrite (stamp_ltb_asym b a E1); discriminate).
    assert (B1 : before b a) by exact E1.
    split; [rewrite (Here _ N); tauto|]. split; [rewrite (Here _ N); split; [discriminate|tauto]|].
    split; [|auto]. split; [discriminate|]. intros H. exfalso. apply N. apply (H 0); auto.
  - assert (N1 : ~ before b a) by (unfold before; rewrite E1; discriminate). destruct (stamp_ltb a b) eqn:E2; cbn [negb].
    + assert (B : before a b) by exact E2.
      split; [rewrite I1, (Shift (fun x y => before y x)); [reflexivity| |auto]|].
      { intros x y L. unfold before in *. rewrite (stamp_ltb_asym y x L). discriminate. }
      split; [rewrite I2, (Shift (fun x y => ~ before x y /\ ~ before y x)); [reflexivity|tauto|auto]|].
      split; [|exact I4]. rewrite I3. split.
      * intros H [|i] x y U V; [simpl in U, V; inversion U; inversion V; subst; auto|]. apply (H i); auto.
      * intros H i x y U V. apply (H (S i)); auto.
    + assert (N : ~ before a b) by (unfold before; rewrite E2; discriminate).
      split; [rewrite (Here _ N); split; [discriminate|tauto]|]. split; [rewrite (Here _ N); tauto|].
      split; [|auto]. split; [discriminate|]. intros H. exfalso. apply N. apply (H 0); auto.
Qed.

Definition reads_period_as (o : option pyval) (period : option nat) : Prop :=
  ((o = None \/ o = Some VNone) /\ period = None) \/ (exists v n, o = Some v /\ is_int v (Z.of_nat n) /\ period = Some n).

(** What the validator leaves as entry 'indices'. *)
Definition left_indices (v : option (string * string)) (old new : option pyval) : Prop :=
  match v with
  | None => exists l, new = Some (VList l)
  | Some (_, m) =>
      (m = "InsufficientPoints" /\ exists l, new = Some (VList l)) \/
      (m = "InvalidSeriesTimestamp" /\ new = Some VNone) \/
      (m <> "InsufficientPoints" /\ m <> "InvalidSeriesTimestamp" /\ new = old)
  end.
Lemma validator_spec : forall (rows : list (point T)) d g custom period nofill,
  get "granularity" d = Some (VGran g) ->
  (match get "customInterval" d with Some v => as_int v | None => None end) = custom ->
  (g = Microsecond -> (match custom with None => 1 | Some c => c end <= 4006)%Z) ->
  reads_period_as (get "period" d) period ->
  nofill = (match get "fillUpMode" d with Some VNoFill => true | _ => false end) ->
  exists v d', series_validator _ to_datetime rows d = (Ok v, d') /\ decides (series_rules to_datetime g custom period nofill) rows v /\
    left_indices v (get "indices" d) (get "indices" d') /\ frame ["indices"] d d' /\
    ((v = None \/ exists c, v = Some (c, "InsufficientPoints")) ->
      exists l ns, numbers _ rows = Ok ns /\ get "indices" d' = Some (VList l) /\ accepted_indices to_datetime g custom rows l /\
                   12 <= length rows /\ Forall (fun n => exists q, n = Fin q) ns).
Proof.
  intros rows d g custom period nofill HG HC HM HP HN. unfold series_validator. rewrite HG, HC.
  unfold series_rules.
  destruct (Nat.ltb_spec (length rows) 12) as [L12|L12].
  { exists (Some ("InvalidSeries", "NotEnoughPoints")), d. split; [reflexivity|]. split; [apply decides_hit; exact L12|].
    split; [right; right; repeat split; discriminate|]. split; [apply frame_refl|]. intros [X|(c & X)]; discriminate. }
  assert (R1 : ~ length rows < 12) by lia.
  destruct (Z.ltb_spec 8640 (Z.of_nat (length rows))) as [L|L].
  { eexists (Some _), d. split; [reflexivity|]. split; [apply decides_skip; [exact R1|]; apply decides_hit; exact L|].
    split; [right; right; repeat split; discriminate|]. split; [apply frame_refl|]. intros [X|(c & X)]; discriminate. }
  assert (R2 : ~ (8640 < Z.of_nat (length rows))%Z) by lia.
  set (plain := match g with GNone => true | _ => false end).
  assert (Pl : plain = true <-> g = GNone) by (unfold plain; destruct g; split; try discriminate; auto).
  destruct (numbers T rows) as [ns|e] eqn:EN.
  2:{ eexists (Some _), d. split; [reflexivity|]. split.
      { apply decides_skip; [exact R1|]. apply decides_skip; [exact R2|]. apply decides_hit. left. eapply numbers_err; eauto. }
      split; [right; right; repeat split; discriminate|]. split; [apply frame_refl|]. intros [X|(c & X)]; discriminate. }
  pose proof (numbers_ok rows ns EN) as F2.
  assert (HV : ~ exists x, In x rows /\ ~ has_number x).
  { intros (x & I & N). destruct (F2_in_l _ _ _ _ _ _ F2 I) as (n & _ & E). apply N. exists n. auto. }
  destruct (if plain then Some [] else match times T rows with Some l => to_datetime l | None => None end) as [st|] eqn:ET.
  2:{ eexists (Some _), d. split; [reflexivity|]. split.
      { apply decides_skip; [exact R1|]. apply decides_skip; [exact R2|]. apply decides_hit. right.
        destruct plain; [discriminate|]. split; [intros X; apply Pl in X; discriminate|]. intros (st & X). apply read_times_spec in X. congruence. }
      split; [right; right; repeat split; discriminate|]. split; [apply frame_refl|]. intros [X|(c & X)]; discriminate. }
  assert (R3 : ~ ((exists x, In x rows /\ ~ has_number x) \/ (g <> GNone /\ ~ exists st, read_times to_datetime rows st))).
  { intros [X|[X Y]]; [auto|]. apply Y. exists st. destruct plain; [exfalso; apply X, Pl; auto|]. apply read_times_spec. auto. }
  destruct (existsb overflow ns) eqn:EO.
  { eexists (Some _), d. split; [reflexivity|]. split.
    { apply decides_skip; [exact R1|]. apply decides_skip; [exact R2|]. apply decides_skip; [exact R3|]. apply decides_hit.
      apply existsb_exists in EO. destruct EO as (n & I & O). destruct (F2_in_r _ _ _ _ _ _ F2 I) as (x & I' & E).
      exists x, n. repeat (split; auto). apply overflow_spec. auto. }
    split; [right; right; repeat split; discriminate|]. split; [apply frame_refl|]. intros [X|(c & X)]; discriminate. }
  assert (R4 : ~ exists x n, In x rows /\ w_value x = Num n /\ too_large n).
  { intros (x & n & I & E & O). apply overflow_spec in O. destruct (F2_in_l _ _ _ _ _ _ F2 I) as (n' & I' & E').
    rewrite E in E'. inversion E'; subst n'. assert (X : existsb overflow ns = true) by (apply existsb_exists; eauto). congruence. }
  destruct (existsb is_nan ns) eqn:ENN.
  { eexists (Some _), d. split; [reflexivity|]. split.
    { apply decides_skip; [exact R1|]. apply decides_skip; [exact R2|]. apply decides_skip; [exact R3|]. apply decides_skip; [exact R4|]. apply decides_hit.
      apply existsb_exists in ENN. destruct ENN as (n & I & O). destruct (F2_in_r _ _ _ _ _ _ F2 I) as (x & I' & E).
      exists x. split; auto. destruct n; try discriminate. auto. }
    split; [right; right; repeat split; discriminate|]. split; [apply frame_refl|]. intros [X|(c & X)]; discriminate. }
  assert (R5 : ~ exists x, In x rows /\ w_value x = Num NaN).
  { intros (x & I & E). destruct (F2_in_l _ _ _ _ _ _ F2 I) as (n' & I' & E').
    rewrite E in E'. inversion E'; subst n'. assert (X : existsb is_nan ns = true) by (apply existsb_exists; exists NaN; auto). congruence. }
  assert (Fin_all : Forall (fun n => exists q, n = Fin q) ns).
  { apply Forall_forall. intros n I. destruct n as [q| | |]; [eauto| | |]; exfalso.
    - assert (X : existsb is_nan ns = true) by (apply existsb_exists; exists NaN; auto). congruence.
    - assert (X : existsb overflow ns = true) by (apply existsb_exists; exists PInf; auto). congruence.
    - assert (X : existsb overflow ns = true) by (apply existsb_exists; exists NInf; auto). congruence. }
  assert (LN : length ns = length rows) by (symmetry; eapply Forall2_length; exact F2).
  destruct plain eqn:EP.
  { assert (G0 : g = GNone) by (apply Pl; auto).
    exists None, (set "indices" (VList (zrange (length ns))) d). split; [reflexivity|]. split.
    { apply decides_skip; [exact R1|]. apply decides_skip; [exact R2|]. apply decides_skip; [exact R3|]. apply decides_skip; [exact R4|].
      apply decides_skip; [exact R5|]. repeat (apply decides_skip; [intros [X _]; contradiction|]). apply decides_nil. }
    split; [cbn [left_indices]; rewrite get_set_eq; eauto|]. split; [apply frame_set; [apply frame_refl|simpl; auto]|].
    intros _. exists (zrange (length ns)), ns. split; auto. split; [apply get_set_eq|]. split; [|auto]. left. split; auto.
    unfold zrange. rewrite LN. auto. }
  assert (NG : g <> GNone) by (intros X; apply Pl in X; discriminate).
  apply read_times_spec in ET. rename ET into RT.
  assert (LS : length st = length rows) by (apply read_times_length; auto).
  destruct (ascending_spec st) as (A1 & A2 & A3 & A4).
  destruct (Z.eqb_spec (is_timestamp_ascending st) (-1)) as [E1|E1].
  { eexists (Some _), d. split; [reflexivity|]. split.
    { apply decides_skip; [exact R1|]. apply decides_skip; [exact R2|]. apply decides_skip; [exact R3|]. apply decides_skip; [exact R4|].
      apply decides_skip; [exact R5|]. apply decides_hit. split; auto. exists st. split; auto. apply A1. auto. }
    split; [right; right; repeat split; discriminate|]. split; [apply frame_refl|]. intros [X|(c & X)]; discriminate. }
  assert (R6 : ~ (g <> GNone /\ exists st, read_times to_datetime rows st /\ first_flaw st (fun a b => before b a))).
  { intros (_ & st' & Q & F). rewrite (read_times_fun _ _ _ Q RT) in F. apply A1 in F. contradiction. }
  destruct (Z.eqb_spec (is_timestamp_ascending st) (-2)) as [E2|E2].
  { eexists (Some _), d. split; [reflexivity|]. split.
    { apply decides_skip; [exact R1|]. apply decides_skip; [exact R2|]. apply decides_skip; [exact R3|]. apply decides_skip; [exact R4|].
      apply decides_skip; [exact R5|]. apply decides_skip; [exact R6|]. apply decides_hit. split; auto. exists st. split; auto. apply A2. auto. }
    split; [right; right; repeat split; discriminate|]. split; [apply frame_refl|]. intros [X|(c & X)]; discriminate. }
  assert (R7 : ~ (g <> GNone /\ exists st, read_times to_datetime rows st /\ first_flaw st (fun a b => ~ before a b /\ ~ before b a))).
  { intros (_ & st' & Q & F). rewrite (read_times_fun _ _ _ Q RT) in F. apply A2 in F. contradiction. }
  assert (NE : st <> []) by (intros ->; simpl in LS; lia).
  destruct (indices_shape g custom st NE NG HM) as [(l & EI & LL)|(i & EI)]; rewrite EI.
  2:{ exists (Some ("InvalidSeries", "InvalidSeriesTimestamp")), (set "indices" VNone d). split; [reflexivity|]. split.
      { apply decides_skip; [exact R1|]. apply decides_skip; [exact R2|]. apply decides_skip; [exact R3|]. apply decides_skip; [exact R4|].
        apply decides_skip; [exact R5|]. apply decides_skip; [exact R6|]. apply decides_skip; [exact R7|]. apply decides_hit.
        split; auto. exists st, i. auto. }
      split; [right; left; split; [auto|apply get_set_eq]|]. split; [apply frame_set; [apply frame_refl|simpl; auto]|].
      intros [X|(c & X)]; discriminate. }
  assert (R8 : ~ (g <> GNone /\ exists st i, read_times to_datetime rows st /\ get_indices_from_timestamps g custom st = Ok (None, Some i))).
  { intros (_ & st' & j & Q & F). rewrite (read_times_fun _ _ _ Q RT) in F. rewrite EI in F. discriminate. }
  set (d' := set "indices" (VList l) d).
  assert (FR : frame ["indices"] d d') by (apply frame_set; [apply frame_refl|simpl; auto]).
  assert (Fin_ : exists l0 ns0, Ok ns = Ok ns0 /\ get "indices" d' = Some (VList l0) /\ accepted_indices to_datetime g custom rows l0 /\
                   12 <= length rows /\ Forall (fun n => exists q, n = Fin q) ns0).
  { exists l, ns. split; auto. split; [apply get_set_eq|]. split; [|auto]. right. split; auto. split; [congruence|]. exists st. auto. }
  replace (get "period" d') with (get "period" d) by (symmetry; apply FR; simpl; intuition discriminate).
  replace (get "fillUpMode" d') with (get "fillUpMode" d) by (symmetry; apply FR; simpl; intuition discriminate). rewrite <- HN.
  assert (Accept : (~ exists st l z p, read_times to_datetime rows st /\ get_indices_from_timestamps g custom st = Ok (Some l, None) /\
         nth_error l (length l - 1) = Some z /\ period = Some p /\
         ((z + 1 < 2 * Z.of_nat p + 1)%Z \/ (nofill = true /\ (Z.of_nat (length rows) < 2 * Z.of_nat p + 1)%Z))) ->
       exists v d'', (Ok (None : option (string * string)), d') = (Ok v, d'') /\ decides (series_rules to_datetime g custom period nofill) rows v /\
         left_indices v (get "indices" d) (get "indices" d'') /\ frame ["indices"] d d'' /\
         ((v = None \/ exists c, v = Some (c, "InsufficientPoints")) -> exists l0 ns0, Ok ns = Ok ns0 /\ get "indices" d'' = Some (VList l0) /\ accepted_indices to_datetime g custom rows l0 /\
                   12 <= length rows /\ Forall (fun n => exists q, n = Fin q) ns0)).
  { intros NI. exists None, d'. split; [reflexivity|]. split; [|split; [exists l; apply get_set_eq|split; [exact FR|intros _; exact Fin_]]].
    unfold series_rules. apply decides_skip; [exact R1|]. apply decides_skip; [exact R2|]. apply decides_skip; [exact R3|]. apply decides_skip; [exact R4|].
    apply decides_skip; [exact R5|]. apply decides_skip; [exact R6|]. apply decides_skip; [exact R7|]. apply decides_skip; [exact R8|].
    apply decides_skip; [|apply decides_nil]. intros (_ & X). exact (NI X). }
  destruct HP as [[HP ->]|(v & n & HP & VN & ->)].
  { destruct HP as [HP|HP]; rewrite HP; apply Accept; intros (? & ? & ? & ? & _ & _ & _ & X & _); discriminate. }
  rewrite HP. pose proof (proj2 (as_int_spec v (Z.of_nat n)) VN) as VI.
  assert (NV : v <> VNone) by (intros ->; inversion VN).
  assert (Fold : forall B (x y : B), match v with VNone => x | _ => y end = y) by (intros; destruct v; auto; congruence).
  rewrite Fold, VI.
  assert (exists z, nth_error l (length l - 1) = Some z) as (z & EZ).
  { destruct (nth_error l (length l - 1)) eqn:X; eauto. apply nth_error_None in X. lia. }
  rewrite (last_opt_nth _ l (length l - 1) z) by (auto; lia).
  destruct ((z + 1 <? Z.of_nat n * 2 + 1)%Z || (nofill && (Z.of_nat (length rows) <? Z.of_nat n * 2 + 1)%Z)) eqn:EB.
  - exists (Some ("InvalidModelArgument", "InsufficientPoints")), d'. split; [reflexivity|]. split.
    { apply decides_skip; [exact R1|]. apply decides_skip; [exact R2|]. apply decides_skip; [exact R3|]. apply decides_skip; [exact R4|].
      apply decides_skip; [exact R5|]. apply decides_skip; [exact R6|]. apply decides_skip; [exact R7|]. apply decides_skip; [exact R8|].
      apply decides_hit. split; auto. exists st, l, z, n. repeat (split; auto).
      apply orb_true_iff in EB. rewrite andb_true_iff, !Z.ltb_lt in EB. destruct EB as [EB|[E0 EB]]; [left|right; split; auto]; lia. }
    split; [left; split; [auto|exists l; apply get_set_eq]|]. split; [exact FR|]. intros _. exact Fin_.
  - apply Accept. intros (st' & l' & z' & p & Q & I & Z' & P & B). rewrite (read_times_fun _ _ _ Q RT), EI in I. inversion I; subst l'.
    inversion P; subst p. rewrite EZ in Z'. inversion Z'; subst z'.
    apply orb_false_iff in EB. rewrite andb_false_iff, !Z.ltb_ge in EB. destruct EB as [B1 B2]. destruct B as [B|[E0 B]]; [lia|].
    destruct B2 as [B2|B2]; [congruence|lia].
Qed.
End Validator.
