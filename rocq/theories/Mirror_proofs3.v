(** Turning a series upside down: the detectors. *)
From Coq Require Import String List Arith ZArith QArith Qcanon Qround Lia Lqa Bool Sorted Permutation.
From Verif Require Import Base Num Sorting Kernel_model Kernel_spec Kernel_proofs FillUp_model Helpers_model Helpers_spec Helpers_proofs Margins_model SR_model SR_proofs3 Detect_model Detect_spec
  Detect_proofs Detect_proofs2 Detect_proofs3 Detect_proofs4 Pipe_proofs Period_spec Period_proofs3 Const_spec Const_proofs Units_spec Units_proofs Units_proofs2 Units_proofs5 Mirror_spec Mirror_proofs Mirror_proofs2.
Import ListNotations.
Open Scope nat_scope.

Lemma minus0 : forall x, (minus * x + 0 = - x)%Qc. Proof. intros. unfold minus. ring. Qed.
Lemma max_mir : forall c l, l <> [] -> qmax_list (mir c l) = (c - qmin_list l)%Qc.
Proof.
  intros c l NE. rewrite mir_map. apply Qcle_antisym.
  - assert (NE' : map (fun x => c - x)%Qc l <> []) by (destruct l; [congruence|discriminate]). pose proof (qmax_list_in _ NE') as I.
    apply in_map_iff in I. destruct I as (x & <- & I). pose proof (qmin_list_le l x I). qlra.
  - apply qmax_list_ge. apply in_map_iff. exists (qmin_list l). split; auto. apply qmin_list_in; auto.
Qed.
Lemma min_mir : forall c l, l <> [] -> qmin_list (mir c l) = (c - qmax_list l)%Qc.
Proof.
  intros c l NE. rewrite mir_map. apply Qcle_antisym.
  - apply qmin_list_le. apply in_map_iff. exists (qmax_list l). split; auto. apply qmax_list_in; auto.
  - assert (NE' : map (fun x => c - x)%Qc l <> []) by (destruct l; [congruence|discriminate]). pose proof (qmin_list_in _ NE') as I.
    apply in_map_iff in I. destruct I as (x & <- & I). pose proof (qmax_list_ge l x I). qlra.
Qed.
Lemma varied_mir : forall c l, varied l -> varied (mir c l).
Proof.
  intros c l (x & y & X & Y & N). rewrite mir_map. exists (c - x)%Qc, (c - y)%Qc.
  split; [apply (in_map (fun x => c - x)%Qc); auto|]. split; [apply (in_map (fun x => c - x)%Qc); auto|]. intros E. apply N. apply (mir_inj c); auto.
Qed.
Lemma normed_mir : forall l, varied l -> normed (mir 0 l) = mir 1 (normed l).
Proof.
  intros l V. destruct (varied_minmax l V) as [NE P].
  assert (PZ : (qmax_list l - qmin_list l <> 0)%Qc) by (intro Z; rewrite Z in P; discriminate P).
  unfold normed. rewrite max_mir, min_mir by auto. rewrite !mir_map, !map_map. apply map_ext. intros x.
  replace (0 - qmin_list l - (0 - qmax_list l))%Qc with (qmax_list l - qmin_list l)%Qc by ring. field. auto.
Qed.
Lemma copies_map : forall (f : Qc -> Qc) m l, (forall x y, f x = f y -> x = y) -> copies (f m) (map f l) = copies m l.
Proof.
  intros f m l I. unfold copies. induction l as [|x l IH]; simpl; auto. replace (Qceqb (f x) (f m)) with (Qceqb x m).
  - destruct (Qceqb x m); simpl; auto.
  - apply eq_true_iff_eq. rewrite !Qceqb_eq. split; [congruence|apply I].
Qed.
Lemma far_apart : forall a b, (Qcabs b <= 1)%Qc -> (Q2Qc (1 # 50000) < Qcabs (a - b))%Qc -> isclose a b = false.
Proof.
  intros a b B H. unfold isclose. apply Qcleb_gt. assert (E : (Q2Qc (1 # 100000000) + Q2Qc (1 # 100000) * 1 < Q2Qc (1 # 50000))%Qc) by (vm_compute; auto).
  assert (0 < Q2Qc (1 # 100000))%Qc by (vm_compute; auto). assert (Q2Qc (1 # 100000) * Qcabs b <= Q2Qc (1 # 100000) * 1)%Qc by (apply Qcmul_le_l; qlra). qlra.
Qed.
Lemma abs_of_nonneg : forall x, (0 <= x)%Qc -> Qcabs x = x.
Proof. intros x H. unfold Qcabs. replace (0 <=? x)%Qc with true; auto. symmetry. apply Qcleb_le. auto. Qed.

Lemma settled_normed : forall cst l, varied l -> settled cst l -> settled_at cst 1 (normed l).
Proof.
  intros cst l V ST. destruct (varied_minmax l V) as [NE P]. set (lo := qmin_list l) in *. set (hi := qmax_list l) in *.
  assert (PZ : (hi - lo <> 0)%Qc) by (intro Z; rewrite Z in P; discriminate P). set (k := (/ (hi - lo))%Qc). set (b := (- lo / (hi - lo))%Qc).
  assert (K : (0 < k)%Qc) by (apply Qcinv_pos; auto). assert (KD : (k * (hi - lo) = 1)%Qc) by (unfold k; field; auto).
  assert (EB : forall x, (k * x + b = k * (x - lo))%Qc) by (intros; unfold k, b; field; auto).
  assert (EN : normed l = in_unit k b l) by reflexivity.
  assert (EL : qmin_list (normed l) = 0%Qc) by (unfold normed; fold lo hi; fold k b; rewrite qmin_map by auto; fold lo; rewrite EB; ring).
  assert (EH : qmax_list (normed l) = 1%Qc) by (unfold normed; fold lo hi; fold k b; rewrite qmax_map by auto; fold hi; rewrite EB; auto).
  assert (INJ : forall x y : Qc, (k * x + b)%Qc = (k * y + b)%Qc -> x = y).
  { intros x y E. rewrite !EB in E. assert (E2 : (k * (x - y) = 0)%Qc) by qlra. apply Qcmult_integral in E2. destruct E2 as [E2|E2]; [rewrite E2 in K; discriminate K|]. qlra. }
  destruct ST as [(_ & H)|(m & C & H)].
  - left. fold lo hi in H. rewrite EN, mad_unit by auto.
    replace (k * mad l / cst)%Qc with (k * (mad l / cst))%Qc by (unfold Qcdiv; ring). rewrite abs_pos_mult by auto.
    assert (X : (k * (Q2Qc (1 # 100000000) * (hi - lo)) < k * Qcabs (mad l / cst))%Qc) by (clear - K H; qnra).
    replace (k * (Q2Qc (1 # 100000000) * (hi - lo)))%Qc with (Q2Qc (1 # 100000000) * (k * (hi - lo)))%Qc in X by ring. rewrite KD in X. qlra.
  - right. exists (k * m + b)%Qc. fold lo hi in H. rewrite EL, EH. split.
    + rewrite EN. unfold in_unit. rewrite map_length, (copies_map (fun x => k * x + b)%Qc) by auto. auto.
    + rewrite EB. destruct H as [[-> | ->]|[H1 H2]]; [left; left; ring|left; right; auto|]. right.
      assert (A1 : (Q2Qc (1 # 50000) < k * (m - lo))%Qc).
      { assert (X : (k * (Q2Qc (1 # 50000) * (hi - lo)) < k * (m - lo))%Qc) by (clear - K H1; qnra).
        replace (k * (Q2Qc (1 # 50000) * (hi - lo)))%Qc with (Q2Qc (1 # 50000) * (k * (hi - lo)))%Qc in X by ring. rewrite KD in X. qlra. }
      assert (A2 : (Q2Qc (1 # 50000) < 1 - k * (m - lo))%Qc).
      { assert (X : (k * (Q2Qc (1 # 50000) * (hi - lo)) < k * (hi - m))%Qc) by (clear - K H2; qnra).
        replace (k * (Q2Qc (1 # 50000) * (hi - lo)))%Qc with (Q2Qc (1 # 50000) * (k * (hi - lo)))%Qc in X by ring. 
        replace (k * (hi - m))%Qc with (k * (hi - lo) - k * (m - lo))%Qc in X by ring. rewrite KD in X. qlra. }
      set (q := (k * (m - lo))%Qc) in *. assert (Z0 : (0 < Q2Qc (1 # 50000))%Qc) by (vm_compute; auto).
      assert (AB0 : (Qcabs 0 <= 1)%Qc) by (vm_compute; discriminate). assert (AB1 : (Qcabs 1 <= 1)%Qc) by (vm_compute; discriminate).
      repeat split; apply far_apart.
      * auto.
      * rewrite abs_of_nonneg by qlra. qlra.
      * auto.
      * rewrite Qcabs_sub_sym, abs_of_nonneg by qlra. qlra.
      * replace (1 - 0)%Qc with 1%Qc by ring. auto.
      * rewrite Qcabs_sub_sym. replace (1 - 0 - (1 - q))%Qc with q by ring. rewrite abs_of_nonneg by qlra. qlra.
      * replace (1 - 1)%Qc with 0%Qc by ring. auto.
      * replace (1 - q - (1 - 1))%Qc with (1 - q)%Qc by ring. rewrite abs_of_nonneg by qlra. qlra.
Qed.
Lemma normalize_mir : forall cst sort l, sorts_up sort -> l <> [] -> even_handed cst sort l ->
  exists z c mn mx mn' mx', normalize l = Ok (z, mn, mx) /\ normalize (mir 0 l) = Ok (mir c z, mn', mx') /\ length z = length l /\
    opposite_order sort z /\ settled_at cst c z.
Proof.
  intros cst sort l SU NE [HO HS]. assert (NE' : mir 0 l <> []) by (destruct l; [congruence|discriminate]).
  destruct (constant_or_varied l) as [[c0 H]|V].
  - destruct (normalize_const c0 l NE H) as (mn & mx & E).
    assert (H' : all_eq (0 - c0)%Qc (mir 0 l)).
    { intros y I. rewrite mir_map in I. apply in_map_iff in I. destruct I as (z & <- & I). rewrite (H z I). auto. }
    destruct (normalize_const _ _ NE' H') as (mn' & mx' & E'). exists l, 0%Qc, mn, mx, mn', mx'. repeat split; auto.
    + destruct HO as [ND|HO]; [apply distinct_opposite; auto|apply HO; exists mn, mx; auto].
    + right. exists c0. split.
      * assert (EC : copies c0 l = length l).
        { unfold copies. clear - H. induction l as [|x l IH]; simpl; auto. rewrite (H x) by (left; auto). rewrite Qceqb_refl. simpl. f_equal. apply IH.
          intros y I. apply H. right; auto. }
        rewrite EC. destruct l; [congruence|simpl; lia].
      * left. left. symmetry. apply H. apply qmin_list_in; auto.
  - destruct (normalize_varied l V) as (mn & mx & E). destruct (normalize_varied _ (varied_mir 0 l V)) as (mn' & mx' & E').
    rewrite normed_mir in E' by auto. exists (normed l), 1%Qc, mn, mx, mn', mx'. split; auto. split; auto.
    split; [apply map_length|]. split; [|apply settled_normed; auto].
    destruct HO as [ND|HO]; [|apply HO; exists mn, mx; auto]. apply distinct_opposite; auto. unfold normed. apply NoDup_map_inj; auto.
    destruct (varied_minmax l V) as [_ P]. intros x y EQ. assert (K : (0 < / (qmax_list l - qmin_list l))%Qc) by (apply Qcinv_pos; auto).
    set (k := (/ (qmax_list l - qmin_list l))%Qc) in *. assert (E2 : (k * (x - y) = 0)%Qc) by qlra.
    apply Qcmult_integral in E2. destruct E2 as [E2|E2]; [rewrite E2 in K; discriminate K|]. qlra.
Qed.

(** * Frames *)
Lemma mem_perm : forall i a b, Permutation a b -> mem_nat i a = mem_nat i b.
Proof.
  intros i a b P. apply eq_true_iff_eq. rewrite !mem_nat_in. split; intros H; [apply (Permutation_in _ P H)|apply (Permutation_in _ (Permutation_sym P) H)].
Qed.
Lemma blank_perm : forall a b l, Permutation a b -> blank a l = blank b l.
Proof.
  intros a b l P. unfold blank, mapi. generalize 0. induction l as [|x l IH]; intros n; simpl; auto. rewrite (mem_perm n a b P), IH. auto.
Qed.
Lemma filter_perm_len : forall (p : nat -> bool) a b, Permutation a b -> length (filter p a) = length (filter p b).
Proof. intros p a b P. induction P; simpl; auto; repeat destruct (p _); simpl; auto; congruence. Qed.
Lemma blank_trend_perm : forall a b p l, Permutation a b -> blank_trend a p l = blank_trend b p l.
Proof. intros a b p l P. unfold blank_trend. cbv zeta. rewrite (blank_perm a b l P), (filter_perm_len _ a b P). auto. Qed.

Lemma turned_row : forall nt (flag : bool) v e t t' s, (nt = true -> t' = (- t)%Qc) ->
  turned nt (mkRow v e t s flag (snd (modify_anomaly_status flag e v)) (fst (modify_anomaly_status flag e v)))
    (mkRow (- v) (- e) t' s flag (snd (modify_anomaly_status flag (- e) (- v))) (fst (modify_anomaly_status flag (- e) (- v)))).
Proof.
  intros nt flag v e t t' s HT. unfold turned. cbn [r_value r_expected r_trend r_score r_anomaly r_neg r_pos]. repeat split; auto.
  - unfold modify_anomaly_status. destruct flag; auto. cbn [negb]. destruct (v <? e)%Qc eqn:A, (- v <? - e)%Qc eqn:B; auto; qb_hyps; exfalso; [qlra|]. apply H. qlra.
  - unfold modify_anomaly_status. destruct flag; auto. cbn [negb]. destruct (v <? e)%Qc eqn:A, (- v <? - e)%Qc eqn:B; auto; qb_hyps; exfalso; [qlra|]. apply H. qlra.
Qed.
Lemma frame_mir : forall nt series e t idx idx', length t = length e -> Permutation idx' idx ->
  answers_alike (Forall2 (turned nt)) (result_frame series e (if nt then Some t else None) None idx)
    (result_frame (mir 0 series) (mir 0 e) (if nt then Some (mir 0 t) else None) None idx').
Proof.
  intros nt series e t idx idx' LT PM. unfold result_frame. cbv zeta. rewrite unit_length. cbn [column]. rewrite !bind_ok, unit_length.
  destruct (length e =? length series) eqn:E; [|simpl; auto]. rewrite !bind_ok. apply Nat.eqb_eq in E.
  assert (C : exists c c', column (length series) (if nt then Some t else None) = Ok c /\
    column (length series) (if nt then Some (mir 0 t) else None) = Ok c' /\ (nt = true -> c = t /\ c' = mir 0 t)).
  { destruct nt; cbn [column]; [|eexists _, _; split; [reflexivity|]; split; [reflexivity|discriminate]].
    rewrite unit_length, LT, E, Nat.eqb_refl. eauto 6. }
  destruct C as (c & c' & -> & -> & HC). rewrite !bind_ok. cbn [answers_alike].
  apply Forall2_nth_error; [rewrite !mapi_length, unit_length; auto|].
  intros i r r' Hr Hr'. rewrite nth_error_mapi in Hr, Hr'. rewrite unit_nth in Hr'.
  destruct (nth_error series i) as [v|] eqn:EV; [|discriminate]. cbn [option_map] in Hr, Hr'. inversion Hr; inversion Hr'; subst r r'. clear Hr Hr'.
  assert (Hi : i < length e) by (rewrite E; eapply nth_error_lt; eauto). destruct (nth_error_ex _ e i Hi) as [x Hx].
  assert (N1 : nth i e 0%Qc = x) by (apply nth_error_nth_d; auto).
  assert (N2 : nth i (mir 0 e) 0%Qc = (- x)%Qc) by (apply nth_error_nth_d; rewrite unit_nth, Hx; simpl; rewrite minus0; auto).
  unfold result_row. rewrite N1, N2, minus0, (mem_perm i idx' idx PM). cbv zeta. apply turned_row.
  intros N. destruct (HC N) as [-> ->]. destruct (nth_error_ex _ t i ltac:(lia)) as [y Hy].
  rewrite (nth_error_nth_d _ _ _ _ 0%Qc Hy). apply nth_error_nth_d. rewrite unit_nth, Hy. simpl. rewrite minus0. auto.
Qed.

(** * The two detectors *)
Section Detectors.
Variable cst : Qc.
Variable std : list Qc -> Qc.
Variable ppf : Qc -> Z -> Qc.
Variable sqrt : Qc -> Qc.
Variable table : list Qc.
Variable sort : list (nat * Qc) -> list (nat * Qc).
Hypothesis SU : sorts_up sort.
Hypothesis EV : even_spread std.
Variable trend_detection : list Qc -> option nat -> res (list Qc).
Variable decompose : bool -> list Qc -> nat -> res (list Qc * list Qc).
Hypothesis TD : trend_in_unit minus 0 trend_detection.

Lemma dt_detection_mir : forall series tv alpha ratio nt lm, 4 <= length series -> even_handed cst sort series ->
  answers_alike (fun d d' => snd d' = snd d /\ Forall2 (turned nt) (fst d) (fst d'))
    (dynamic_threshold_detection cst std ppf sqrt table sort trend_detection series tv alpha ratio nt lm)
    (dynamic_threshold_detection cst std ppf sqrt table sort trend_detection (mir 0 series) (mir 0 tv) alpha ratio nt lm).
Proof.
  intros series tv alpha ratio nt lm L4 EH. unfold dynamic_threshold_detection.
  destruct (normalize_mir cst sort series SU ltac:(destruct series; [simpl in L4; lia|discriminate]) EH)
    as (z & c & mn & mx & mn' & mx' & E1 & E2 & LZ & OO & ST). rewrite E1, E2. cbn [bind fst snd].
  destruct (dt_mir cst std ppf sqrt table sort SU EV c z alpha ratio lm ltac:(lia) OO ST) as (idx & idx' & m & D1 & D2 & PM).
  rewrite D1, D2. cbn [bind fst snd]. cbv zeta.
  apply (alike_bind _ _ _ _ (fun t t' => t' = mir 0 t)).
  - destruct idx as [|i idx]; [apply Permutation_sym, Permutation_nil in PM; subst idx'; simpl; auto|].
    destruct idx' as [|i' idx']; [apply Permutation_nil in PM; discriminate|].
    rewrite (blank_perm (i' :: idx') (i :: idx)) by auto. rewrite (blank_unit minus 0 (i :: idx) series : blank _ (mir 0 series) = _).
    eapply alike_bind; [apply interp_unit|]. intros s s' _ _ ->. apply TD.
  - intros t t' _ _ ->. eapply alike_bind; [apply (frame_mir nt series t t idx idx' eq_refl PM)|]. intros d d' _ _ M. simpl. auto.
Qed.
Lemma turned_cols : forall nt l l', Forall2 (turned nt) l l' ->
  map r_value l' = mir 0 (map r_value l) /\ map r_expected l' = mir 0 (map r_expected l) /\
  map r_anomaly l' = map r_anomaly l /\ length l' = length l /\ (nt = true -> map r_trend l' = mir 0 (map r_trend l)).
Proof.
  intros nt l l' H. induction H as [|r r' l l' M F IH]; simpl; auto.
  destruct M as (V & E & T & S & A & N). destruct IH as (I1 & I2 & I3 & I4 & I5). rewrite V, E, A, I1, I2, I3, I4.
  rewrite !minus0. repeat split; auto. intros X. rewrite T, I5 by auto. unfold in_unit. cbn [map]. rewrite ?minus0. auto.
Qed.

Lemma seasonal_mir : forall series period alpha ratio adj nt lm, parts_in_unit minus 0 decompose series period -> 4 <= length series ->
  (forall t s, decompose adj series period = Ok (t, s) -> length t = length series -> length s = length series ->
     let d := zip_with (fun a b => (a - b)%Qc) series s in
     even_handed cst sort d /\ even_handed cst sort (zip_with (fun a b => (a - b)%Qc) d t)) ->
  answers_alike (fun d d' => snd d' = snd d /\ Forall2 (turned nt) (fst d) (fst d'))
    (seasonal_series_detection cst std ppf sqrt table sort decompose series period alpha ratio adj nt lm)
    (seasonal_series_detection cst std ppf sqrt table sort decompose (mir 0 series) period alpha ratio adj nt lm).
Proof.
  intros series period alpha ratio adj nt lm PD L4 EH. unfold seasonal_series_detection. rewrite unit_length. cbv zeta.
  destruct (_ <? ratio)%Qc; [simpl; auto|]. destruct (length series =? 0); [simpl; auto|].
  destruct (length series <? _) eqn:EP; [simpl; auto|]. apply Nat.ltb_ge in EP.
  eapply alike_bind; [apply PD|]. intros [t s] [t' s'] EDC _ [E1 E2]. cbn [fst snd] in *. subst t' s'. rewrite !unit_length.
  destruct ((length t =? length series) && (length s =? length series)) eqn:EL; [|simpl; auto]. cbn [negb].
  apply andb_true_iff in EL. destruct EL as [LT LS]. apply Nat.eqb_eq in LT, LS. specialize (EH t s EDC LT LS). cbv zeta in EH.
  rewrite unit_minus. replace (0 - 0)%Qc with 0%Qc by ring. rewrite unit_minus. replace (0 - 0)%Qc with 0%Qc by ring.
  set (d := zip_with _ series s) in *. assert (LD : length d = length series) by (unfold d; rewrite zip_with_length; lia).
  set (rm := zip_with _ d t) in *. assert (LR : length rm = length series) by (unfold rm; rewrite zip_with_length; lia).
  destruct EH as [EH1 EH2].
  destruct (normalize_mir cst sort d SU ltac:(destruct d; [simpl in LD; lia|discriminate]) EH1)
    as (z & c & mn & mx & mn' & mx' & N1 & N2 & LZ & OO & ST). rewrite N1, N2. cbn [bind fst snd].
  destruct (normalize_mir cst sort rm SU ltac:(destruct rm; [simpl in LR; lia|discriminate]) EH2)
    as (y & c2 & mn2 & mx2 & mn2' & mx2' & N3 & N4 & LY & OY & SY). rewrite N3, N4. cbn [bind fst snd].
  destruct (ts_mir cst std ppf sqrt table sort SU EV c z c2 y alpha (if (ratio <? 1 / qn (length series))%Qc then (1 / qn (length series))%Qc else ratio) lm
    ltac:(lia) ltac:(lia) OO ST OY SY) as (idx & idx' & m & D1 & D2 & PM). rewrite D1, D2. cbn [bind fst snd].
  apply (alike_bind _ _ _ _ (fun u u' => length u = length series /\ u' = mir 0 u)).
  - destruct idx as [|i idx]; [apply Permutation_sym, Permutation_nil in PM; subst idx'; simpl; auto|].
    destruct idx' as [|i' idx']; [apply Permutation_nil in PM; discriminate|].
    rewrite (blank_trend_perm (i' :: idx') (i :: idx)) by auto. rewrite (blank_trend_unit minus 0 (i :: idx) period t : blank_trend _ _ (mir 0 t) = _).
    pose proof (interp_unit minus 0 (blank_trend (i :: idx) period t)) as I.
    destruct (interp (blank_trend (i :: idx) period t)) as [o|e] eqn:EO; destruct (interp (map _ _)) as [o'|e']; simpl in *; auto.
    split; auto. apply interp_len' in EO. rewrite EO, blank_trend_length; auto.
    pose proof (Nat.div_mod period 2 ltac:(lia)). lia.
  - intros u u' _ _ [LU ->]. rewrite unit_plus. eapply alike_bind.
    + apply (frame_mir nt series (zip_with Qcplus u s) u idx idx'); auto. rewrite zip_with_length. lia.
    + intros r r' _ _ M. simpl. auto.
Qed.

(** * The differenced series *)
Lemma turned_direction : forall nt r r', turned nt r r' -> turned nt (correct_anomaly_direction r) (correct_anomaly_direction r').
Proof.
  intros nt r r' M. assert (M0 := M). destruct M as (V & E & T & S & A & N). unfold correct_anomaly_direction. rewrite A.
  destruct (r_anomaly r); auto. unfold turned. cbv zeta. cbn [r_value r_expected r_trend r_score r_anomaly r_neg r_pos]. repeat split; auto.
  - rewrite V, E. destruct (- r_expected r <? - r_value r)%Qc eqn:B, (r_expected r <? r_value r)%Qc eqn:C; auto; qb_hyps; exfalso; [qlra|]. apply H. qlra.
  - rewrite V, E. destruct (- r_expected r <? - r_value r)%Qc eqn:B, (r_expected r <? r_value r)%Qc eqn:C; auto; qb_hyps; exfalso; [qlra|]. apply H. qlra.
Qed.
Lemma merge_mir : forall nt stationary results results' func func' series ratio, unit_blind minus 0 stationary ->
  length results = length series -> 2 <= length series -> Forall2 (turned nt) results results' ->
  (forall s r, looked_at stationary series s -> length s = length series ->
     answers_alike (fun d d' => Forall2 (turned nt) (fst d) (fst d')) (func s r) (func' (mir 0 s) r)) ->
  answers_alike (Forall2 (turned nt)) (merge_with_delta stationary results func series ratio)
    (merge_with_delta stationary results' func' (mir 0 series) ratio).
Proof.
  intros nt stationary results results' func func' series ratio SB LR L2 M HF. unfold merge_with_delta.
  eapply alike_bind; [apply include_delta_unit; auto|]. intros [dl s1] [dl' s1'] EI _ [E1 E2]. cbn [fst snd] in E1, E2. subst dl'. cbn [fst snd]. cbv zeta.
  destruct (dl <=? 0)%Z eqn:ED; [exact M|]. apply Z.leb_gt in ED. destruct E2 as [E2| ->]; [lia|].
  assert (LS : length s1 = length series) by (eapply should_include_len; eauto).
  rewrite unit_length. destruct (turned_cols _ _ _ M) as (MV & ME & MA & ML & MT).
  assert (CA : count_anomalies results' = count_anomalies results) by (rewrite !count_flags, MA; auto). rewrite CA.
  destruct (_ <=? _); [exact M|].
  eapply alike_bind; [apply HF; auto; right; eauto|]. intros [d m] [d' m'] _ _ EF. cbn [fst] in EF |- *.
  destruct (turned_cols _ _ _ EF) as (DV & DE & DA & LD & DT).
  rewrite LD, ML. destruct (length d =? length results) eqn:EL; [|simpl; auto]. apply Nat.eqb_eq in EL. cbn [negb].
  rewrite MA, DA. set (new_p := filter _ (range (length results))).
  assert (NP : forall p, In p new_p -> p < length results).
  { intros p I. apply filter_In in I. destruct I as [I J]. apply in_seq in I. lia. }
  assert (G1 : answers_alike (fun w w' => nt = true -> w' = mir 0 w)
    (correct_expected_value_in_delta new_p (map r_trend results) (map r_trend d) dl (map r_value results))
    (correct_expected_value_in_delta new_p (map r_trend results') (map r_trend d') dl (map r_value results'))).
  { rewrite MV. destruct nt.
    - rewrite MT, DT by auto. eapply alike_impl; [|apply unit_correct]. simpl. auto.
    - destruct (correct_ok new_p (map r_trend results) (map r_trend d) dl (map r_value results)) as [w1 W1];
        [intros p I; rewrite map_length; apply NP; auto| rewrite ?map_length; lia ..|].
      destruct (correct_ok new_p (map r_trend results') (map r_trend d') dl (mir 0 (map r_value results))) as [w2 W2];
        [intros p I; rewrite map_length; rewrite ML; apply NP; auto| rewrite ?unit_length, ?map_length; lia ..|].
      rewrite W1, W2. simpl. discriminate. }
  assert (G2 : answers_alike (fun w w' => w' = mir 0 w)
    (correct_expected_value_in_delta new_p (map r_expected results) (map r_expected d) dl (map r_value results))
    (correct_expected_value_in_delta new_p (map r_expected results') (map r_expected d') dl (map r_value results'))).
  { rewrite MV, ME, DE. apply unit_correct. }
  eapply alike_bind; [exact G1|]. intros t t' ET ET' HT. eapply alike_bind; [exact G2|]. intros e e' EE EE' ->.
  cbn [answers_alike]. apply Forall2_nth_error; [rewrite !mapi_length; auto|].
  intros i r r' Hr Hr'. rewrite nth_error_mapi in Hr, Hr'.
  destruct (nth_error results i) as [x|] eqn:EX; [|discriminate]. destruct (nth_error results' i) as [x'|] eqn:EX'; [|discriminate].
  cbn [option_map] in Hr, Hr'. inversion Hr; inversion Hr'; subst r r'. clear Hr Hr'.
  assert (MX : turned nt x x') by (exact (Forall2_at _ _ _ _ _ _ _ _ M EX EX')).
  destruct (mem_nat i new_p) eqn:EM; auto. apply mem_nat_in in EM. pose proof (NP i EM) as Hi.
  destruct (nth_error_ex _ d i ltac:(lia)) as [y EY]. destruct (nth_error_ex _ d' i ltac:(lia)) as [y' EY']. rewrite EY, EY'.
  assert (MY : turned nt y y') by (exact (Forall2_at _ _ _ _ _ _ _ _ EF EY EY')).
  destruct MY as (YV & YE & YT & YS & YA & YN). destruct MX as (XV & _).
  assert (LE : length e = length results) by (apply correct_expected_len in EE; rewrite map_length in EE; auto).
  assert (VE : nth i (mir 0 e) 0%Qc = (- nth i e 0)%Qc).
  { destruct (nth_error_ex _ e i ltac:(lia)) as [z EZ]. rewrite (nth_error_nth_d _ _ _ _ 0%Qc EZ).
    apply nth_error_nth_d. rewrite unit_nth, EZ. simpl. rewrite minus0. auto. }
  assert (VT : nt = true -> nth i t' 0%Qc = (- nth i t 0)%Qc).
  { intros N. rewrite (HT N). assert (LT : length t = length results) by (apply correct_expected_len in ET; rewrite map_length in ET; auto).
    destruct (nth_error_ex _ t i ltac:(lia)) as [z EZ]. rewrite (nth_error_nth_d _ _ _ _ 0%Qc EZ).
    apply nth_error_nth_d. rewrite unit_nth, EZ. simpl. rewrite minus0. auto. }
  rewrite VE, XV. set (ex := nth i e 0%Qc) in *. rewrite YS, YA. unfold correct_anomaly_direction. cbn [r_value r_expected r_trend r_score r_anomaly r_neg r_pos].
  assert (NA : r_anomaly y = true).
  { apply filter_In in EM. destruct EM as [_ EM]. apply andb_true_iff in EM. destruct EM as [_ EM].
    rewrite (nth_error_nth_d _ (map r_anomaly d) i (r_anomaly y)) in EM; auto. rewrite nth_error_map, EY. auto. }
  rewrite NA. cbv zeta. unfold turned. cbn [r_value r_expected r_trend r_score r_anomaly r_neg r_pos]. repeat split; auto.
  - destruct (- ex <? - r_value x)%Qc eqn:B, (ex <? r_value x)%Qc eqn:C; auto; qb_hyps; exfalso; [qlra|]. apply H. qlra.
  - destruct (- ex <? - r_value x)%Qc eqn:B, (ex <? r_value x)%Qc eqn:C; auto; qb_hyps; exfalso; [qlra|]. apply H. qlra.
Qed.
End Detectors.
