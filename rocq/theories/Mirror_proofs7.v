(** Turning a series upside down: the margins. *)
From Coq Require Import String List Arith ZArith QArith Qcanon Qround Lia Lqa Bool Sorted Permutation.
From Verif Require Import Base Num Sorting FillUp_model Helpers_model Margins_model SR_model SR_proofs3 Detect_model Detect_spec
  Detect_proofs Period_proofs3 Units_spec Units_proofs Units_proofs2 Units_proofs3 Units_proofs7 Mirror_spec Mirror_proofs Mirror_proofs3.
Import ListNotations.
Open Scope nat_scope.

Lemma severity1_mir : forall v e a, calculate_severity_v1 (- v) (- e) a = calculate_severity_v1 v e a.
Proof.
  intros. unfold calculate_severity_v1. rewrite Qcabs_opp. replace (- v - - e)%Qc with (- (v - e))%Qc by ring. rewrite Qcabs_opp. auto.
Qed.
Lemma leb_opp : forall x y, (- x <=? - y)%Qc = (y <=? x)%Qc.
Proof. intros. apply eq_true_iff_eq. rewrite !Qcleb_le. split; intros H; qlra. Qed.
Lemma ltb_opp : forall x y, (- x <? - y)%Qc = (y <? x)%Qc.
Proof. intros. apply eq_true_iff_eq. rewrite !Qcltb_lt. split; intros H; qlra. Qed.
Lemma ltb_leb : forall x y, (x <? y)%Qc = negb (y <=? x)%Qc.
Proof. intros. destruct (x <? y)%Qc eqn:A, (y <=? x)%Qc eqn:B; auto; qb_hyps; exfalso; qlra. Qed.

Lemma refine_row_mir : forall nt sens u l u' l' r r', exchanged nt r r' ->
  (r_value r <=? u')%Qc = (r_value r <=? u)%Qc -> (l' <=? r_value r)%Qc = (l <=? r_value r)%Qc ->
  flipped (refine_row sens u l r) (refine_row sens (- l') (- u') r') /\
  (u' = u -> l' = l -> (l <= u)%Qc -> swapped_margins (refine_row sens u l r) (refine_row sens (- l') (- u') r')).
Proof.
  intros nt sens u l u' l' r r' ((V & E & _ & _ & A & _) & N & P) HU HL. unfold refine_row. cbv zeta. rewrite V, E, A, N, P.
  rewrite !leb_opp, !ltb_opp. rewrite !(ltb_leb _ (r_value r)), !(ltb_leb (r_value r)), HU, HL.
  rewrite (andb_comm (l <=? r_value r)%Qc). unfold flipped, swapped_margins.
  cbn [o_expected o_upper o_lower o_neg o_pos o_anomaly o_severity o_unit o_score]. split.
  - repeat split; auto. apply severity1_mir.
  - intros -> -> LU. destruct (r_anomaly r); cbn [negb andb];
      destruct (r_value r <=? u)%Qc eqn:UU, (l <=? r_value r)%Qc eqn:LL; cbn [negb andb]; destruct (sens =? Q2Qc 100)%Qc; cbn [andb]; try (split; ring).
    all: exfalso; qb_hyps; qlra.
Qed.

(** * Version 1 *)
Lemma exchanged_cols : forall nt rows rows', Forall2 (exchanged nt) rows rows' ->
  map r_value rows' = mir 0 (map r_value rows) /\ map r_expected rows' = mir 0 (map r_expected rows).
Proof.
  intros nt rows rows' F. induction F as [|r r' l l' ((V & E & _) & _) F0 IH]; simpl; auto. destruct IH as [A B]. rewrite A, B, V, E, !minus0. auto.
Qed.
Lemma combine_self : forall A B C (f : A -> B) (g : A * B -> C) l, map g (combine l (map f l)) = map (fun x => g (x, f x)) l.
Proof. induction l; simpl; auto. f_equal. auto. Qed.
Lemma zip3_self : forall A B C D (f : B -> C -> A -> D) (g : A -> B) (h : A -> C) l, zip3 f (map g l) (map h l) l = map (fun x => f (g x) (h x) x) l.
Proof. induction l; simpl; auto. f_equal. auto. Qed.
Definition tops (rows : list row) : Qc := Qcmax (qmax_list (map r_value rows)) (qmax_list (map r_expected rows)).
Definition bots (rows : list row) : Qc := Qcmin (qmin_list (map r_value rows)) (qmin_list (map r_expected rows)).
Lemma refine_margins_map : forall rows sens w, rows <> [] ->
  let ub r := (r_expected r + w r)%Qc in let lb r := (r_expected r - w r)%Qc in
  refine_margins rows sens (map w rows) =
  Ok (map (fun r => refine_row sens (np_clip (qmin_list (map ub rows)) (tops rows) (ub r)) (np_clip (bots rows) (qmax_list (map lb rows)) (lb r)) r) rows).
Proof.
  intros [|r0 rows] sens w NE; [congruence|]. cbv zeta. unfold refine_margins. remember (r0 :: rows) as l. clear Heql. cbv zeta.
  rewrite !combine_self. cbn [fst snd]. rewrite !map_map. rewrite zip3_self. auto.
Qed.
Lemma tops_mir : forall nt rows rows', rows <> [] -> Forall2 (exchanged nt) rows rows' -> tops rows' = (- bots rows)%Qc /\ bots rows' = (- tops rows)%Qc.
Proof.
  intros nt rows rows' NE F. destruct (exchanged_cols _ _ _ F) as [A B]. unfold tops, bots. rewrite A, B, !max_mir, !min_mir by (destruct rows; [congruence|discriminate]).
  unfold Qcmin, Qcmax. split.
  - destruct (0 - _ <=? 0 - _)%Qc eqn:E1; destruct (_ <=? _)%Qc eqn:E2 in |- *; qb_hyps; try qlra.
  - destruct (0 - _ <=? 0 - _)%Qc eqn:E1; destruct (_ <=? _)%Qc eqn:E2 in |- *; qb_hyps; try qlra.
Qed.
Lemma clip_upper : forall x m t, (m <= x)%Qc -> np_clip m t x = Qcmin x t.
Proof. intros x m t H. unfold np_clip. f_equal. unfold Qcmax. destruct (x <=? m)%Qc eqn:E; auto. qb_hyps. qlra. Qed.

Lemma v1_rows_mir : forall nt sens rows rows' w w', rows <> [] -> Forall2 (exchanged nt) rows rows' ->
  (forall r r', In r rows -> In r' rows' -> exchanged nt r r' -> w' r' = w r) ->
  answers_alike (fun o o' => Forall2 flipped o o' /\
      (band_reaches w rows -> (forall r, In r rows -> (0 <= w r)%Qc) -> Forall2 swapped_margins o o'))
    (refine_margins rows sens (map w rows)) (refine_margins rows' sens (map w' rows')).
Proof.
  intros nt sens rows rows' w w' NE F W. assert (NE' : rows' <> []) by (inversion F; subst; [congruence|discriminate]).
  rewrite !refine_margins_map by auto. cbv zeta. cbn [answers_alike].
  destruct (tops_mir _ _ _ NE F) as [ET EB]. rewrite ET, EB. clear ET EB.
  set (ub := fun r => (r_expected r + w r)%Qc). set (lb := fun r => (r_expected r - w r)%Qc).
  assert (EU : map (fun r => (r_expected r + w' r)%Qc) rows' = mir 0 (map lb rows)).
  { assert (G : Forall2 (fun r r' => w' r' = w r /\ exchanged nt r r') rows rows').
    { clear - F W. induction F as [|r r' l l' X F IH]; constructor; [split; auto; apply W; simpl; auto|]. apply IH. intros; apply W; simpl; auto. }
    clear - G. induction G as [|r r' l l' [X ((_ & E & _) & _)] G IH]; simpl; auto. rewrite IH, X, E, minus0. f_equal. unfold lb. ring. }
  assert (EL : map (fun r => (r_expected r - w' r)%Qc) rows' = mir 0 (map ub rows)).
  { assert (G : Forall2 (fun r r' => w' r' = w r /\ exchanged nt r r') rows rows').
    { clear - F W. induction F as [|r r' l l' X F IH]; constructor; [split; auto; apply W; simpl; auto|]. apply IH. intros; apply W; simpl; auto. }
    clear - G. induction G as [|r r' l l' [X ((_ & E & _) & _)] G IH]; simpl; auto. rewrite IH, X, E, minus0. f_equal. unfold ub. ring. }
  rewrite EU, EL, min_mir, max_mir by (destruct rows; [congruence|discriminate]). clear EU EL.
  set (mxl := qmax_list (map lb rows)). set (mnu := qmin_list (map ub rows)).
  assert (BR : band_reaches w rows -> (bots rows <= mxl)%Qc /\ (mnu <= tops rows)%Qc).
  { intros [(r & q & I1 & I2 & H) (r2 & q2 & I3 & I4 & H2)]. split.
    - assert (A : (lb r <= mxl)%Qc) by (apply qmax_list_ge; apply in_map; auto).
      assert (B : (bots rows <= r_value q)%Qc) by (eapply Qcle_trans; [apply Qcmin_l|apply qmin_list_le; apply in_map; auto]).
      assert (C : (bots rows <= r_expected q)%Qc) by (eapply Qcle_trans; [apply Qcmin_r|apply qmin_list_le; apply in_map; auto]).
      unfold lb in A. destruct H; qlra.
    - assert (A : (mnu <= ub r2)%Qc) by (apply qmin_list_le; apply in_map; auto).
      assert (B : (r_value q2 <= tops rows)%Qc) by (eapply Qcle_trans; [|apply Qcmax_l]; apply qmax_list_ge; apply in_map; auto).
      assert (C : (r_expected q2 <= tops rows)%Qc) by (eapply Qcle_trans; [|apply Qcmax_r]; apply qmax_list_ge; apply in_map; auto).
      unfold ub in A. destruct H2; qlra. }
  assert (P : forall r r', In r rows -> In r' rows' -> exchanged nt r r' ->
    let o := refine_row sens (np_clip mnu (tops rows) (ub r)) (np_clip (bots rows) mxl (lb r)) r in
    let o' := refine_row sens (np_clip (0 - mxl) (- bots rows) (r_expected r' + w' r')) (np_clip (- tops rows) (0 - mnu) (r_expected r' - w' r')) r' in
    flipped o o' /\ (band_reaches w rows -> (0 <= w r)%Qc -> swapped_margins o o')).
  { intros r r' I I' X. cbv zeta. rewrite (W r r' I I' X). assert (E : r_expected r' = (- r_expected r)%Qc) by apply X. rewrite E.
    assert (A1 : (mnu <= ub r)%Qc) by (apply qmin_list_le; apply in_map; auto).
    assert (A2 : (lb r <= mxl)%Qc) by (apply qmax_list_ge; apply in_map; auto).
    assert (A3 : (r_value r <= tops rows)%Qc) by (eapply Qcle_trans; [|apply Qcmax_l]; apply qmax_list_ge; apply in_map; auto).
    assert (A4 : (bots rows <= r_value r)%Qc) by (eapply Qcle_trans; [apply Qcmin_l|apply qmin_list_le; apply in_map; auto]).
    assert (A5 : (r_expected r <= tops rows)%Qc) by (eapply Qcle_trans; [|apply Qcmax_r]; apply qmax_list_ge; apply in_map; auto).
    assert (A6 : (bots rows <= r_expected r)%Qc) by (eapply Qcle_trans; [apply Qcmin_r|apply qmin_list_le; apply in_map; auto]).
    replace (np_clip (0 - mxl) (- bots rows) (- r_expected r + w r)) with (- Qcmax (lb r) (bots rows))%Qc.
    2:{ rewrite clip_upper by (unfold lb in A2; qlra). replace (- r_expected r + w r)%Qc with (- lb r)%Qc by (unfold lb; ring).
        unfold Qcmin, Qcmax. destruct (- lb r <=? - bots rows)%Qc eqn:C1, (lb r <=? bots rows)%Qc eqn:C2; qb_hyps; qlra. }
    replace (np_clip (- tops rows) (0 - mnu) (- r_expected r - w r)) with (- Qcmax (Qcmin (ub r) (tops rows)) mnu)%Qc.
    2:{ replace (- r_expected r - w r)%Qc with (- ub r)%Qc by (unfold ub; ring). unfold np_clip, Qcmin, Qcmax.
        destruct (- ub r <=? - tops rows)%Qc eqn:C1, (ub r <=? tops rows)%Qc eqn:C2; qb_hyps;
        match goal with |- context [(?x <=? 0 - mnu)%Qc] => destruct (x <=? 0 - mnu)%Qc eqn:C3 end;
        match goal with |- context [(?x <=? mnu)%Qc] => destruct (x <=? mnu)%Qc eqn:C4 end; qb_hyps; qlra. }
    rewrite clip_upper by auto.
    destruct (refine_row_mir nt sens (Qcmin (ub r) (tops rows)) (np_clip (bots rows) mxl (lb r)) (Qcmax (Qcmin (ub r) (tops rows)) mnu) (Qcmax (lb r) (bots rows)) r r' X) as [G1 G2].
    - apply eq_true_iff_eq. rewrite !Qcleb_le. unfold Qcmin, Qcmax.
      destruct (ub r <=? tops rows)%Qc eqn:C1; match goal with |- context [(?x <=? mnu)%Qc] => destruct (x <=? mnu)%Qc eqn:C4 end; qb_hyps; split; intros; qlra.
    - apply eq_true_iff_eq. rewrite !Qcleb_le. unfold np_clip, Qcmin, Qcmax.
      destruct (lb r <=? bots rows)%Qc eqn:C1; match goal with |- context [(?x <=? mxl)%Qc] => destruct (x <=? mxl)%Qc eqn:C4 end; qb_hyps; split; intros; qlra.
    - split; auto. intros B W0. destruct (BR B) as [B1 B2]. apply G2.
      + unfold Qcmin, Qcmax. destruct (ub r <=? tops rows)%Qc eqn:C1; match goal with |- context [(?x <=? mnu)%Qc] => destruct (x <=? mnu)%Qc eqn:C4 end; qb_hyps; qlra.
      + unfold np_clip, Qcmin, Qcmax. destruct (lb r <=? bots rows)%Qc eqn:C1; match goal with |- context [(?x <=? mxl)%Qc] => destruct (x <=? mxl)%Qc eqn:C4 end; qb_hyps; qlra.
      + unfold np_clip, Qcmin, Qcmax, ub, lb in *. destruct (_ <=? bots rows)%Qc eqn:C1; match goal with |- context [(?x <=? mxl)%Qc] => destruct (x <=? mxl)%Qc eqn:C4 end;
        destruct (_ <=? tops rows)%Qc eqn:C2; qb_hyps; qlra. }
  assert (GG : forall (l l' : list row) (Q : row -> row -> Prop), Forall2 (exchanged nt) l l' -> incl l rows -> incl l' rows' ->
    (forall r r', In r rows -> In r' rows' -> exchanged nt r r' -> Q r r') -> Forall2 Q l l').
  { intros l l' Q F0. induction F0 as [|r r' l l' X F0 IH]; intros I I' H; constructor; [apply H; auto; [apply I|apply I']; left; auto|].
    apply IH; auto; intros z Z0; [apply I|apply I']; right; auto. }
  split.
  - apply (Forall2_map_both _ _ _ _ (fun r r' => flipped (refine_row sens (np_clip mnu (tops rows) (ub r)) (np_clip (bots rows) mxl (lb r)) r) (refine_row sens (np_clip (0 - mxl) (- bots rows) (r_expected r' + w' r')) (np_clip (- tops rows) (0 - mnu) (r_expected r' - w' r')) r'))); auto.
    apply GG; auto using incl_refl. intros r r' I I' X. apply (P r r' I I' X).
  - intros B W0. apply (Forall2_map_both _ _ _ _ (fun r r' => swapped_margins (refine_row sens (np_clip mnu (tops rows) (ub r)) (np_clip (bots rows) mxl (lb r)) r) (refine_row sens (np_clip (0 - mxl) (- bots rows) (r_expected r' + w' r')) (np_clip (- tops rows) (0 - mnu) (r_expected r' - w' r')) r'))); auto.
    apply GG; auto using incl_refl. intros r r' I I' X. apply (P r r' I I' X); auto.
Qed.
Lemma quiet_mir : forall nt rows rows', Forall2 (exchanged nt) rows rows' ->
  map r_value (filter (fun r => r_score r <=? EPS)%Qc rows') = mir 0 (map r_value (filter (fun r => r_score r <=? EPS)%Qc rows)).
Proof.
  intros nt rows rows' F. induction F as [|r r' l l' ((V & _ & _ & C & _) & _) F IH]; auto. cbn [filter]. rewrite C.
  destruct (r_score r <=? EPS)%Qc; auto. simpl. rewrite IH, V, minus0. auto.
Qed.
Lemma half_width_mir : forall nt sr sens rows rows' r r', Forall2 (exchanged nt) rows rows' -> In r rows -> exchanged nt r r' ->
  half_width sr sens rows' r' = half_width sr sens rows r.
Proof.
  intros nt sr sens rows rows' r r' F I ((V & E & _ & C & _) & _). unfold half_width. cbv zeta. rewrite V, E, C. destruct sr; [|rewrite Qcabs_opp; auto].
  destruct (r_score r <=? EPS)%Qc eqn:B.
  - assert (NE : map r_value (filter (fun r => r_score r <=? EPS)%Qc rows) <> []).
    { intros X. apply map_eq_nil in X. assert (J : In r (filter (fun r => r_score r <=? EPS)%Qc rows)) by (apply filter_In; auto). rewrite X in J. contradiction. }
    rewrite (quiet_mir _ _ _ F), max_mir, min_mir by auto. f_equal. ring.
  - replace (- r_value r - - r_expected r)%Qc with (- (r_value r - r_expected r))%Qc by ring. rewrite Qcabs_opp. auto.
Qed.
Lemma v1_widths : forall sr rows sens, get_margins_v1 sr rows sens = refine_margins rows sens (map (half_width sr sens rows) rows).
Proof.
  intros [|] rows sens; [|reflexivity]. unfold get_margins_v1, get_spectral_residual_margins. cbv zeta. f_equal. apply map_ext_in. intros r I. unfold half_width. cbv zeta.
  destruct (r_score r <=? EPS)%Qc eqn:B; auto. destruct (filter _ rows) eqn:Q; auto.
  assert (J : In r (filter (fun r => r_score r <=? EPS)%Qc rows)) by (apply filter_In; auto). rewrite Q in J. contradiction.
Qed.
Lemma half_width_nonneg : forall sr sens rows r, (sens <= Q2Qc 100)%Qc -> In r rows -> (0 <= half_width sr sens rows r)%Qc.
Proof.
  intros sr sens rows r H I. unfold half_width. cbv zeta. assert (P100 : (0 < / Q2Qc 100)%Qc) by (vm_compute; auto). destruct sr.
  - destruct (r_score r <=? EPS)%Qc eqn:B.
    + assert (J : In r (filter (fun r => r_score r <=? EPS)%Qc rows)) by (apply filter_In; auto).
      assert (A : (qmin_list (map r_value (filter (fun r => r_score r <=? EPS)%Qc rows)) <= r_value r)%Qc) by (apply qmin_list_le; apply in_map; auto).
      assert (C : (r_value r <= qmax_list (map r_value (filter (fun r => r_score r <=? EPS)%Qc rows)))%Qc) by (apply qmax_list_ge; apply in_map; auto).
      assert (P : (0 < Q2Qc (1 # 100))%Qc) by (vm_compute; auto). set (a := qmin_list _) in *. set (b := qmax_list _) in *. clearbody a b. qnra.
    + assert (S0 : (0 < r_score r)%Qc). { assert (E0 : (0 < EPS)%Qc) by (vm_compute; auto). qb_hyps. qlra. }
      pose proof (Qcabs_nonneg (r_value r - r_expected r)) as N. assert (S1 : (0 < / r_score r)%Qc) by (apply Qcinv_pos; auto).
      assert (B1 : (0 <= 1 - sens / Q2Qc 100)%Qc).
      { assert (E1 : (Q2Qc 100 * / Q2Qc 100 = 1)%Qc) by (apply Qc_is_canon; reflexivity). unfold Qcdiv. set (u := (/ Q2Qc 100)%Qc) in *. set (h := Q2Qc 100) in *. clearbody u h. qnra. }
      unfold Qcdiv at 1. set (x := Qcabs _) in *. set (y := (/ r_score r)%Qc) in *. set (z := (1 - sens / Q2Qc 100)%Qc) in *. clearbody x y z.
      assert (0 <= x * y)%Qc by qnra. qnra.
  - pose proof (Qcabs_nonneg (r_expected r)) as N. unfold Qcdiv. set (x := Qcabs _) in *. set (u := (/ Q2Qc 100)%Qc) in *. set (h := Q2Qc 100) in *. clearbody x u h.
    assert (0 <= x * (h - sens))%Qc by qnra. qnra.
Qed.
Lemma v1_mir : forall nt sr sens rows rows', Forall2 (exchanged nt) rows rows' ->
  answers_alike (fun o o' => Forall2 flipped o o' /\ (band_reaches (half_width sr sens rows) rows -> (sens <= Q2Qc 100)%Qc -> Forall2 swapped_margins o o'))
    (get_margins_v1 sr rows sens) (get_margins_v1 sr rows' sens).
Proof.
  intros nt sr sens rows rows' F. rewrite !v1_widths. destruct rows as [|r0 rows]; [inversion F; simpl; auto|].
  remember (r0 :: rows) as l. assert (NE : l <> []) by (subst l; discriminate). clear Heql.
  eapply alike_impl; [|apply (v1_rows_mir nt sens l rows' (half_width sr sens l) (half_width sr sens rows') NE F)].
  - intros o o' [A B]. split; auto. intros BR S. apply B; auto. intros r I. apply half_width_nonneg; auto.
  - intros r r' I I' X. eapply half_width_mir; eauto.
Qed.

(** * Version 2 *)
Lemma score_even : forall v e u, calculate_anomaly_score (- v) (- e) u = calculate_anomaly_score v e u.
Proof. intros. unfold calculate_anomaly_score. replace (- e - - v)%Qc with (- (e - v))%Qc by ring. rewrite Qcabs_opp. auto. Qed.
Lemma changed_mir : forall u s v e a, (a = true \/ v <> e) ->
  answers_alike (fun m m' => m' = (snd m, fst m)) (calculate_changed_margin u s v e a) (calculate_changed_margin u s (- v) (- e) a).
Proof.
  intros u s v e a H. unfold calculate_changed_margin. match goal with |- context [bind ?g _] => destruct g as [f|] end; cbn [bind]; [|simpl; auto]. cbv zeta.
  replace (- e - - v)%Qc with (- (e - v))%Qc by ring. replace (- v - - e)%Qc with (- (v - e))%Qc by ring. rewrite !Qcabs_opp.
  destruct a; cbn [negb]; [simpl; auto|]. destruct H as [H|H]; [discriminate|].
  destruct (e <? v)%Qc eqn:A, (- e <? - v)%Qc eqn:B; simpl; auto; qb_hyps; exfalso; [qlra|]. apply H. qlra.
Qed.
Lemma margin_mir : forall u s v e a, (a = true \/ v <> e) ->
  answers_alike (fun m m' => m' = (snd m, fst m)) (calculate_margin u s v e a) (calculate_margin u s (- v) (- e) a).
Proof.
  intros u s v e a H. unfold calculate_margin. destruct (_ || _); [simpl; auto|]. destruct (u <=? 0)%Qc; [simpl; auto|]. cbv zeta.
  eapply alike_bind; [apply changed_mir; auto|]. intros m m' _ _ ->. destruct (_ =? _)%Qc; [simpl; auto|].
  eapply alike_bind; [apply changed_mir; auto|]. intros; simpl; auto.
Qed.
Lemma margin_tie : forall u s e, answers_alike (fun m m' : Qc * Qc => True) (calculate_margin u s e e false) (calculate_margin u s (- e) (- e) false).
Proof.
  intros u s e. unfold calculate_margin, calculate_changed_margin. destruct (_ || _); [simpl; auto|]. destruct (u <=? 0)%Qc; [simpl; auto|]. cbv zeta.
  destruct (Kernel_model.get factors (Z.to_nat (Qfloor (this s)))); cbn [bind]; [|simpl; auto]. cbn [negb].
  destruct (e <? e)%Qc, (- e <? - e)%Qc; cbn [bind]; (destruct (_ =? _)%Qc; [simpl; auto|]); destruct (Kernel_model.get factors _); cbn [bind]; simpl; auto.
Qed.
Definition flip_v2 (r : row) (o o' : outcome) : Prop := flipped o o' /\ (r_anomaly r = true \/ r_value r <> r_expected r -> swapped_margins o o').
Lemma v2_flags : forall a (p q : bool), (a && p) || (a && q) = (a && q) || (a && p).
Proof. intros [] [] []; auto. Qed.
Lemma v2_entire_mir : forall nt sens u r r', exchanged nt r r' -> answers_alike (flip_v2 r) (v2_entire_point sens u r) (v2_entire_point sens u r').
Proof.
  intros nt sens u r r' ((V & E & _ & C & A & _) & _ & _). unfold v2_entire_point. cbv zeta. rewrite V, E, A, score_even.
  apply (alike_bind _ _ _ _ eq); [apply alike_eq|]. intros sc _ _ _ <-.
  assert (EX : forall a b, (- r_expected r + b <? - r_value r)%Qc = (r_value r <? r_expected r - b)%Qc /\ (- r_value r <? - r_expected r - a)%Qc = (r_expected r + a <? r_value r)%Qc).
  { intros a b. split; apply eq_true_iff_eq; rewrite !Qcltb_lt; split; intros; qlra. }
  destruct (r_anomaly r) eqn:EA.
  - eapply alike_bind; [apply margin_mir; auto|]. intros [a b] m' _ _ ->. cbn [fst snd answers_alike andb]. destruct (EX a b) as [X1 X2]. rewrite X1, X2.
    unfold flip_v2, flipped, swapped_margins. cbn [o_expected o_upper o_lower o_neg o_pos o_anomaly o_severity o_unit o_score]. rewrite (orb_comm (r_expected r + a <? r_value r)%Qc).
    repeat split; auto.
  - destruct (Qc_eq_dec (r_value r) (r_expected r)) as [EQ|NQ].
    + rewrite EQ. eapply alike_bind; [apply margin_tie|]. intros [a b] [a' b'] _ _ _. cbn [fst snd answers_alike andb orb].
      unfold flip_v2, flipped, swapped_margins. cbn [o_expected o_upper o_lower o_neg o_pos o_anomaly o_severity o_unit o_score]. rewrite EA.
      split; [repeat split; auto|]. intros [X|X]; congruence.
    + eapply alike_bind; [apply margin_mir; auto|]. intros [a b] m' _ _ ->. cbn [fst snd answers_alike andb orb].
      unfold flip_v2, flipped, swapped_margins. cbn [o_expected o_upper o_lower o_neg o_pos o_anomaly o_severity o_unit o_score]. repeat split; auto.
Qed.
Lemma v2_last_mir : forall nt sens u r r', exchanged nt r r' -> answers_alike (flip_v2 r) (v2_last_point sens u r) (v2_last_point sens u r').
Proof.
  intros nt sens u r r' ((V & E & _ & C & A & _) & _ & _). unfold v2_last_point. cbv zeta. rewrite V, E, A, score_even.
  apply (alike_bind _ _ _ _ eq); [apply alike_eq|]. intros sc _ _ _ <-.
  assert (EX : forall a b, (- r_expected r + b <? - r_value r)%Qc = (r_value r <? r_expected r - b)%Qc /\ (- r_value r <? - r_expected r - a)%Qc = (r_expected r + a <? r_value r)%Qc).
  { intros a b. split; apply eq_true_iff_eq; rewrite !Qcltb_lt; split; intros; qlra. }
  destruct (r_anomaly r) eqn:EA.
  - eapply alike_bind; [apply margin_mir; auto|]. intros [a b] m' _ _ ->. cbn [fst snd answers_alike]. rewrite !andb_true_r. destruct (EX a b) as [X1 X2]. rewrite X1, X2.
    unfold flip_v2, flipped, swapped_margins. cbn [o_expected o_upper o_lower o_neg o_pos o_anomaly o_severity o_unit o_score]. rewrite (orb_comm (r_expected r + a <? r_value r)%Qc).
    repeat split; auto.
  - destruct (Qc_eq_dec (r_value r) (r_expected r)) as [EQ|NQ].
    + rewrite EQ. eapply alike_bind; [apply margin_tie|]. intros [a b] [a' b'] _ _ _. cbn [fst snd answers_alike]. rewrite !andb_false_r. cbn [orb].
      unfold flip_v2, flipped, swapped_margins. cbn [o_expected o_upper o_lower o_neg o_pos o_anomaly o_severity o_unit o_score]. rewrite EA.
      split; [repeat split; auto|]. intros [X|X]; congruence.
    + eapply alike_bind; [apply margin_mir; auto|]. intros [a b] m' _ _ ->. cbn [fst snd answers_alike]. rewrite !andb_false_r. cbn [orb].
      unfold flip_v2, flipped, swapped_margins. cbn [o_expected o_upper o_lower o_neg o_pos o_anomaly o_severity o_unit o_score]. repeat split; auto.
Qed.
Lemma units_mir : forall rows rows', Forall2 (exchanged true) rows rows' -> calculate_boundary_units rows' = calculate_boundary_units rows.
Proof.
  intros rows rows' F. unfold calculate_boundary_units. cbv zeta.
  assert (E1 : map r_trend (filter (fun r => negb (r_anomaly r)) rows') = mir 0 (map r_trend (filter (fun r => negb (r_anomaly r)) rows)) /\
    map (fun r => Qcabs (r_trend r)) rows' = map (fun r => Qcabs (r_trend r)) rows /\ length rows' = length rows).
  { induction F as [|r r' l l' ((_ & _ & T & _ & A & _) & _) F IH]; auto. destruct IH as (I1 & I2 & I3). cbn [filter map length]. rewrite A, I2, I3, T, Qcabs_opp by auto.
    split; auto. destruct (negb (r_anomaly r)); auto. simpl. rewrite I1, T, minus0 by auto. auto. }
  destruct E1 as (E1 & E2 & E3). rewrite E1. set (nm := map r_trend _).
  assert (E4 : forallb (fun u => (Qcabs u <? EPS)%Qc) (mir 0 nm) = forallb (fun u => (Qcabs u <? EPS)%Qc) nm).
  { clear. induction nm; simpl; auto. rewrite IHnm, minus0, Qcabs_opp. auto. }
  assert (E5 : map Qcabs (mir 0 nm) = map Qcabs nm) by (unfold in_unit; rewrite map_map; apply map_ext; intros x; rewrite minus0; apply Qcabs_opp).
  rewrite E4, E5. 
  assert (E6 : forall B (f : Qc -> B), map (fun r => f (Qcabs (r_trend r))) rows' = map (fun r => f (Qcabs (r_trend r))) rows).
  { intros B f. rewrite <- (map_map (fun r => Qcabs (r_trend r)) f), E2, map_map. auto. }
  rewrite (E6 _ (fun x => x * Q2Qc (1 # 2) + qmean (map Qcabs nm) * Q2Qc (1 # 2))%Qc).
  replace (map (fun _ : row => MIN_UNIT) rows') with (map (fun _ : row => MIN_UNIT) rows); auto. symmetry. exact (E6 _ (fun _ => MIN_UNIT)).
Qed.
