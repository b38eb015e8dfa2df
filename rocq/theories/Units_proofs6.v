(** Changing the unit: refined flags, V1 margins and the answer. *)
From Coq Require Import String List Arith ZArith QArith Qcanon Qround Lia Lqa Bool Sorted Permutation.
From Verif Require Import Base Num Sorting Kernel_model Kernel_spec FillUp_model Helpers_model Helpers_spec Margins_model SR_model SR_proofs3 Detect_model Detect_spec
  Detect_proofs Period_proofs3 Units_spec Units_proofs Units_proofs2 Units_proofs3 Units_proofs4 Units_proofs5.
Import ListNotations.
Open Scope nat_scope.

Lemma refined_unit : forall k b nt r r', (0 < k)%Qc -> moved k b nt r r' -> retold k b nt (refine_row_flags r) (refine_row_flags r').
Proof.
  intros k b nt r r' K (V & E & T & S & A & N & P). unfold refine_row_flags.
  assert (D : (r_value r' - r_expected r' = k * (r_value r - r_expected r))%Qc) by (rewrite V, E; ring). rewrite D, abs_pos_mult by auto.
  assert (Z0 := Qcabs_nonneg (r_value r - r_expected r)).
  destruct (Qcltb (Qcabs (r_value r - r_expected r)) EPS) eqn:C1; destruct (Qcltb (k * Qcabs (r_value r - r_expected r)) EPS) eqn:C2; qb_hyps;
    (split; [exact V|split; [exact E|split; [exact T|split; [exact S|]]]]); cbn [r_value r_expected r_anomaly r_neg r_pos]; auto;
    intros [SS|[K1 X]]; try discriminate X; exfalso; unfold same_side in *.
  - apply SS in C1. qlra.
  - apply SS in C2. qlra.
  - qnra.
Qed.

Section Margins.
Variable k : Qc.
Hypothesis K : (0 < k)%Qc.
Notation sc := (fun x : Qc => (k * x)%Qc).

Lemma unit0 : forall l, in_unit k 0 l = map sc l.
Proof. intros. apply map_ext. intros. ring. Qed.
Lemma leb_sc : forall x y, Qcleb (k * x) (k * y) = Qcleb x y.
Proof. intros. rewrite <- (leb_unit k 0 K x y). f_equal; ring. Qed.
Lemma ltb_sc : forall x y, Qcltb (k * x) (k * y) = Qcltb x y.
Proof. intros. rewrite <- (ltb_unit k 0 K x y). f_equal; ring. Qed.
Lemma min_sc : forall x y, Qcmin (k * x) (k * y) = (k * Qcmin x y)%Qc.
Proof. intros. unfold Qcmin. rewrite leb_sc. destruct (x <=? y)%Qc; auto. Qed.
Lemma max_sc : forall x y, Qcmax (k * x) (k * y) = (k * Qcmax x y)%Qc.
Proof. intros. unfold Qcmax. rewrite leb_sc. destruct (x <=? y)%Qc; auto. Qed.
Lemma clip_sc : forall lo hi x, np_clip (k * lo) (k * hi) (k * x) = (k * np_clip lo hi x)%Qc.
Proof. intros. unfold np_clip. rewrite max_sc, min_sc. auto. Qed.
Lemma qmin_sc : forall l, l <> [] -> qmin_list (map sc l) = (k * qmin_list l)%Qc.
Proof. intros l NE. rewrite <- unit0. unfold in_unit. rewrite qmin_map by auto. ring. Qed.
Lemma qmax_sc : forall l, l <> [] -> qmax_list (map sc l) = (k * qmax_list l)%Qc.
Proof. intros l NE. rewrite <- unit0. unfold in_unit. rewrite qmax_map by auto. ring. Qed.

Lemma refine_row_sc : forall nt sens ub lb r r', retold k 0 nt r r' ->
  rescaled k (r_value r) (refine_row sens ub lb r) (refine_row sens (k * ub) (k * lb) r').
Proof.
  intros nt sens ub lb r r' (V & E & T & S & F).
  assert (V1 : r_value r' = (k * r_value r)%Qc) by (rewrite V; ring). assert (E1 : r_expected r' = (k * r_expected r)%Qc) by (rewrite E; ring).
  split; [exact E1|]. intros C.
  assert (C' : same_side k (r_value r - r_expected r)%Qc \/ ((1 <= k)%Qc /\ r_anomaly r = true)).
  { destruct C as [C|[C1 C2]]; [left; exact C|right]. split; auto. unfold refine_row in C2. cbn [o_anomaly] in C2. destruct (_ && _); [discriminate|auto]. }
  destruct (F C') as (A & N & P). clear F C C'.
  unfold refine_row. cbn [o_upper o_lower o_anomaly o_neg o_pos o_severity o_expected]. rewrite V1, E1, A, N, P, !leb_sc, !ltb_sc.
  set (an := r_anomaly r). set (v := r_value r). set (e := r_expected r). set (c1 := (ub <? v)%Qc && negb an). set (c2 := (v <? lb)%Qc && negb an).
  set (c3 := an && ((v <=? ub)%Qc && (lb <=? v)%Qc)). set (c4 := (sens =? Q2Qc 100)%Qc).
  repeat split; auto.
  - destruct c4, c3, c2, c1; cbn [andb]; ring.
  - destruct c4, c3, c2, c1; cbn [andb]; ring.
  - intros H1 H2. destruct (if negb c4 && c3 then false else an); [|auto]. unfold calculate_severity_v1. cbn [negb]. cbv zeta. rewrite abs_pos_mult by auto.
    replace (k * v - k * e)%Qc with (k * (v - e))%Qc by ring. rewrite abs_pos_mult by auto.
    rewrite (proj2 (Qcleb_gt _ _) H1), (proj2 (Qcleb_gt _ _) H2). f_equal. field. assert (0 < EPS)%Qc by (vm_compute; reflexivity).
    split; intros X; [rewrite X in H1|rewrite X in K]; qlra.
Qed.

Lemma refine_margins_sc : forall nt sens rows rows' margins, Forall2 (retold k 0 nt) rows rows' -> length margins = length rows ->
  answers_alike (fun o o' => exists vs, vs = map r_value rows /\ length o = length rows /\ length o' = length rows /\ forall i v x x', nth_error vs i = Some v -> nth_error o i = Some x -> nth_error o' i = Some x' -> rescaled k v x x')
    (refine_margins rows sens margins) (refine_margins rows' sens (map sc margins)).
Proof.
  intros nt sens rows rows' margins F LM. unfold refine_margins.
  destruct rows as [|r0 t0] eqn:ER; destruct rows' as [|r0' t0'] eqn:ER'; [simpl; auto|inversion F|inversion F|]. rewrite <- ER, <- ER' in *.
  assert (NE : rows <> []) by (rewrite ER; discriminate). clear ER ER'. cbv zeta. cbn [answers_alike].
  set (ubs := map (fun p => r_expected (fst p) + snd p)%Qc (combine rows margins)).
  set (lbs := map (fun p => r_expected (fst p) - snd p)%Qc (combine rows margins)).
  assert (EU : map (fun p => r_expected (fst p) + snd p)%Qc (combine rows' (map sc margins)) = map sc ubs /\ map (fun p => r_expected (fst p) - snd p)%Qc (combine rows' (map sc margins)) = map sc lbs /\ map r_value rows' = map sc (map r_value rows) /\ map r_expected rows' = map sc (map r_expected rows)).
  { unfold ubs, lbs. clear NE ubs lbs. revert margins LM. induction F as [|r r' l l' R F IH]; intros [|m margins] LM; try discriminate; [simpl; auto|].
    injection LM as LM. destruct (IH margins LM) as (I1 & I2 & I3 & I4). destruct R as (V & E & _). cbn [combine map fst snd]. rewrite I1, I2, I3, I4, V, E.
    repeat split; f_equal; ring. }
  destruct EU as (-> & -> & -> & ->).
  assert (LU : length ubs = length rows) by (unfold ubs; rewrite map_length, combine_length; lia).
  assert (LL : length lbs = length rows) by (unfold lbs; rewrite map_length, combine_length; lia).
  assert (N1 : ubs <> []) by (intros X; rewrite X in LU; destruct rows; [congruence|discriminate]).
  assert (N2 : lbs <> []) by (intros X; rewrite X in LL; destruct rows; [congruence|discriminate]).
  assert (N3 : map r_value rows <> []) by (destruct rows; [congruence|discriminate]).
  assert (N4 : map r_expected rows <> []) by (destruct rows; [congruence|discriminate]).
  rewrite !qmin_sc, !qmax_sc, max_sc, min_sc by auto.
  set (A := qmin_list ubs). set (B := Qcmax _ _). set (C := Qcmin _ _). set (D := qmax_list lbs).
  assert (G1 : map (np_clip (k * A) (k * B)) (map sc ubs) = map sc (map (np_clip A B) ubs)) by (rewrite !map_map; apply map_ext; intros; apply clip_sc).
  assert (G2 : map (np_clip (k * C) (k * D)) (map sc lbs) = map sc (map (np_clip C D) lbs)) by (rewrite !map_map; apply map_ext; intros; apply clip_sc).
  rewrite G1, G2. assert (L1 : length (map (np_clip A B) ubs) = length rows) by (rewrite map_length; auto).
  assert (L2 : length (map (np_clip C D) lbs) = length rows) by (rewrite map_length; auto).
  revert L1 L2. generalize (map (np_clip A B) ubs) (map (np_clip C D) lbs). clear - F K. intros us ls L1 L2. eexists. split; [reflexivity|].
  revert us ls L1 L2. induction F as [|r r' l l' R F IH]; intros [|u us] [|w ws] L1 L2; try discriminate.
  - simpl. split; [auto|split; [auto|]]. intros [|i]; discriminate.
  - injection L1 as L1. injection L2 as L2. destruct (IH us ws L1 L2) as (I1 & I2 & I3). cbn [map zip3 length]. split; [lia|split; [lia|]].
    intros [|i] v x x'; cbn [nth_error]; [|apply I3]. intros X Y Z0. inversion X; inversion Y; inversion Z0; subst. eapply refine_row_sc; eauto.
Qed.

Lemma filter_map_retold : forall nt rows rows', Forall2 (retold k 0 nt) rows rows' ->
  map r_value (filter (fun r => (r_score r <=? EPS)%Qc) rows') = map sc (map r_value (filter (fun r => (r_score r <=? EPS)%Qc) rows)).
Proof.
  intros nt rows rows' F. induction F as [|r r' l l' R F IH]; simpl; auto. destruct R as (V & E & T & S & _). rewrite S.
  destruct (r_score r <=? EPS)%Qc; simpl; auto. rewrite IH, V. f_equal. ring.
Qed.
Lemma margins_v1_sc : forall nt sr sens rows rows', Forall2 (retold k 0 nt) rows rows' ->
  answers_alike (fun o o' => exists vs, vs = map r_value rows /\ length o = length rows /\ length o' = length rows /\ forall i v x x', nth_error vs i = Some v -> nth_error o i = Some x -> nth_error o' i = Some x' -> rescaled k v x x')
    (get_margins_v1 sr rows sens) (get_margins_v1 sr rows' sens).
Proof.
  intros nt sr sens rows rows' F. unfold get_margins_v1. destruct sr.
  - unfold get_spectral_residual_margins. cbv zeta. set (bar := (1 - sens / Q2Qc 100)%Qc).
    set (nm := match filter _ rows with [] => _ | _ => _ end). set (nm' := match filter _ rows' with [] => _ | _ => _ end).
    assert (EN : nm' = (k * nm)%Qc).
    { unfold nm, nm'. pose proof (filter_map_retold nt rows rows' F) as FM. destruct (filter _ rows) as [|r t], (filter _ rows') as [|r' t']; try discriminate; [ring|].
      rewrite FM. rewrite qmax_sc, qmin_sc by discriminate. ring. }
    match goal with |- answers_alike _ (refine_margins rows sens ?m) (refine_margins rows' sens ?m') => assert (EM : m' = map sc m) end.
    { rewrite EN. clear EN. clearbody nm bar. clear nm'. clear - F K. induction F as [|r r' l l' R F IH]; simpl; auto. destruct R as (V & E & T & S & _). rewrite S, IH. f_equal.
      destruct (r_score r <=? EPS)%Qc; auto. rewrite V, E. replace (k * r_value r + 0 - (k * r_expected r + 0))%Qc with (k * (r_value r - r_expected r))%Qc by ring.
      rewrite abs_pos_mult by auto. unfold Qcdiv. ring. }
    rewrite EM. apply (refine_margins_sc nt); auto. apply map_length.
  - unfold get_anomaly_detector_margins.
    match goal with |- answers_alike _ (refine_margins rows sens ?m) (refine_margins rows' sens ?m') => assert (EM : m' = map sc m) end.
    { clear - F K. induction F as [|r r' l l' R F IH]; simpl; auto. destruct R as (V & E & T & S & _). rewrite IH, E. f_equal.
      replace (k * r_expected r + 0)%Qc with (k * r_expected r)%Qc by ring. rewrite abs_pos_mult by auto. unfold Qcdiv. ring. }
    rewrite EM. apply (refine_margins_sc nt); auto. apply map_length.
Qed.
End Margins.
