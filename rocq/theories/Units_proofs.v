(** Changing the unit: normalised data, the detectors' selections, frames. *)
From Coq Require Import String List Arith ZArith QArith Qcanon Qround Lia Lqa Bool Sorted Permutation.
From Verif Require Import Base Num Sorting Kernel_model Kernel_spec Kernel_proofs Kernel_proofs2 Kernel_proofs3 Kernel_props
  FillUp_model FillUp_spec FillUp_proofs6 FillUp_props
  Helpers_model Helpers_spec Helpers_proofs Helpers_proofs2 Helpers_props Margins_model SR_model SR_proofs2 Detect_model Detect_spec
  Detect_proofs Detect_proofs2 Detect_proofs3 Detect_proofs4 Detect_proofs5 Period_spec Period_proofs3 Pipe_proofs Const_spec Const_proofs Expect_proofs Units_spec.
Import ListNotations.
Open Scope nat_scope.

Lemma alike_bind : forall A B C D (R : A -> B -> Prop) (T : C -> D -> Prop) x y f g, answers_alike R x y ->
  (forall a b, x = Ok a -> y = Ok b -> R a b -> answers_alike T (f a) (g b)) -> answers_alike T (bind x f) (bind y g).
Proof. intros A B C D R T [a|e] [b|e'] f g H K; simpl in *; try contradiction; auto. Qed.
Lemma alike_eq : forall A (x : res A), answers_alike eq x x.
Proof. intros A [a|e]; simpl; auto. Qed.
Lemma alike_impl : forall A B (R T : A -> B -> Prop) x y, (forall a b, R a b -> T a b) -> answers_alike R x y -> answers_alike T x y.
Proof. intros A B R T [a|e] [b|e'] H; simpl; auto. Qed.

Lemma Forall2_nth_error : forall A B (R : A -> B -> Prop) l m, length l = length m ->
  (forall i x y, nth_error l i = Some x -> nth_error m i = Some y -> R x y) -> Forall2 R l m.
Proof.
  induction l as [|x l IH]; intros [|y m] L H; try discriminate; constructor.
  - apply (H 0); auto.
  - apply IH; [simpl in L; lia|]. intros i. apply (H (S i)).
Qed.

Lemma unit_length : forall k b l, length (in_unit k b l) = length l.
Proof. intros. apply map_length. Qed.
Lemma unit_nth : forall k b l i, nth_error (in_unit k b l) i = option_map (fun x => (k * x + b)%Qc) (nth_error l i).
Proof. intros. apply nth_error_map. Qed.
Lemma unit_minus : forall k b1 b2 l m, zip_with (fun x y => (x - y)%Qc) (in_unit k b1 l) (in_unit k b2 m) =
  in_unit k (b1 - b2)%Qc (zip_with (fun x y => (x - y)%Qc) l m).
Proof. induction l as [|x l IH]; intros [|y m]; simpl; auto. rewrite IH. f_equal. ring. Qed.
Lemma unit_plus : forall k b l m, zip_with Qcplus (in_unit k b l) (in_unit k 0 m) = in_unit k b (zip_with Qcplus l m).
Proof. induction l as [|x l IH]; intros [|y m]; simpl; auto. rewrite IH. f_equal. ring. Qed.

(** * Normalised data: unchanged, or constant on both sides *)
Definition same_shape (l l' : list Qc) : Prop := l' = l \/ (length l' = length l /\ exists c c', all_eq c l /\ all_eq c' l').

Lemma constant_or_varied : forall l : list Qc, (exists c, all_eq c l) \/ varied l.
Proof.
  induction l as [|x l IH]; [left; exists 0%Qc; intros y []|]. destruct IH as [[c H]|V].
  - destruct l as [|y l]; [left; exists x; intros z [<-|[]]; auto|]. destruct (Qc_eq_dec x y) as [->|N].
    + left. exists y. intros z [<-|I]; auto. rewrite (H z I). symmetry. apply H. left; auto.
    + right. exists x, y. simpl; auto.
  - right. destruct V as (a & b & A & B & N). exists a, b. simpl; auto.
Qed.
Lemma normalize_const : forall c l, l <> [] -> all_eq c l -> exists mn mx, normalize l = Ok (l, mn, mx).
Proof.
  intros c l NE H. destruct l as [|x t] eqn:EL; [congruence|]. rewrite <- EL in *. 
  assert (E1 : qmin_list l = c) by (apply H, qmin_list_in; auto). assert (E2 : qmax_list l = c) by (apply H, qmax_list_in; auto).
  exists c, c. assert (EN : normalize l = let mn := qmin_list l in let mx := qmax_list l in
    Ok (if (mn =? mx)%Qc then l else map (fun v => (v - mn) / (mx - mn))%Qc l, mn, mx)) by (destruct l; [congruence|reflexivity]).
  rewrite EN. cbv zeta. rewrite E1, E2. rewrite (proj2 (Qceqb_eq c c) eq_refl). auto.
Qed.
Lemma normalize_unit : forall k b l, (0 < k)%Qc ->
  answers_alike (fun r r' => same_shape (fst (fst r)) (fst (fst r'))) (normalize l) (normalize (in_unit k b l)).
Proof.
  intros k b l K. destruct l as [|x t] eqn:EL; [simpl; auto|]. rewrite <- EL. assert (NE : l <> []) by congruence. clear EL.
  assert (NE' : in_unit k b l <> []) by (destruct l; [congruence|discriminate]).
  destruct (constant_or_varied l) as [[c H]|V].
  - destruct (normalize_const c l NE H) as (mn & mx & E). 
    assert (H' : all_eq (k * c + b)%Qc (in_unit k b l)).
    { intros y I. apply in_map_iff in I. destruct I as (z & <- & I). rewrite (H z I). auto. }
    destruct (normalize_const _ _ NE' H') as (mn' & mx' & E'). rewrite E, E'. simpl. right. rewrite unit_length. eauto.
  - destruct (normalize_varied l V) as (mn & mx & E). destruct (normalize_varied _ (varied_affine k b l K V)) as (mn' & mx' & E').
    unfold in_unit. rewrite E, E'. simpl. left. apply normed_affine; auto.
Qed.

Section Units.
Variable cst : Qc.
Variable std : list Qc -> Qc.
Variable ppf : Qc -> Z -> Qc.
Variable sqrt : Qc -> Qc.
Variable table : list Qc.
Variable sort : list (nat * Qc) -> list (nat * Qc).
Hypothesis SU : sorts_up sort.
Notation crit alpha := (get_critical ppf sqrt table alpha).
Variable alpha : Qc.
Hypothesis CP : forall n m c, 2 * m + 2 <= n -> In c (crit alpha n m) -> (0 <= c)%Qc.

(** * Nothing is selected in constant data *)
Lemma sorted_const : forall c l, all_eq c l -> all_eq c (map snd (sorted_series sort l)).
Proof.
  intros c l H x I. unfold sorted_series in I. destruct (SU (combine (range (length l)) l)) as [P _].
  apply (Permutation_in _ (Permutation_sym (Permutation_map snd P))) in I.
  apply in_map_iff in I. destruct I as ([a v] & <- & I). apply in_combine_r in I. simpl. auto.
Qed.
Lemma median_const : forall c l, l <> [] -> all_eq c l -> qmedian l = c.
Proof.
  intros c l NE H. destruct (median_in_range l c c NE) as [A B]; [intros x I; rewrite (H x I); split; apply Qcle_refl|].
  apply Qcle_antisym; auto.
Qed.

Lemma insignificant_const : forall c l upper k thr, all_eq c l -> (0 <= thr)%Qc -> ~ significant cst std upper l k thr.
Proof.
  intros c l upper k thr H T (v & E & S). assert (EV : v = c) by (apply H; eapply nth_error_In; eauto). subst v.
  assert (NE : skipn k l <> []).
  { intros X. assert (L : length (skipn k l) = 0) by (rewrite X; auto). rewrite skipn_length in L. apply nth_error_lt in E. lia. }
  assert (HK : all_eq c (skipn k l)) by (apply all_eq_skipn; auto).
  assert (G : forall m s, m = c -> ~ outlying upper m s c thr).
  { intros m s -> O. unfold outlying in O. assert (P : (0 <= thr * Qcmax s (Q2Qc (1 # 100000000)))%Qc).
    { assert (0 <= Qcmax s (Q2Qc (1 # 100000000)))%Qc; [|qnra].
      apply Qcle_trans with (Q2Qc (1 # 100000000)); [vm_compute; discriminate|]. apply Qcmax_r. }
    destruct upper; qlra. }
  destruct S as [S|S]; revert S; apply G; [apply median_const; auto|apply all_eq_mean; auto].
Qed.

Lemma esd_const : forall c data maxo upper lm, 4 <= length data -> maxo <= length data / 2 - 1 -> all_eq c data ->
  esd_detect cst std (crit alpha) (sorted_series sort data) maxo None upper lm = Ok [].
Proof.
  intros c data maxo upper lm L4 HM HC. set (sorted := sorted_series sort data).
  assert (LS : length sorted = length data) by (apply sorted_length; auto).
  assert (SC : all_eq c (map snd sorted)) by (apply sorted_const; auto).
  unfold esd_detect. set (d := if upper then rev sorted else sorted). rewrite bind_ok.
  assert (LD : length d = length data) by (unfold d; destruct upper; rewrite ?rev_length; auto).
  assert (DC : all_eq c (map snd d)).
  { intros x I. apply SC. unfold d in I. destruct upper; auto. rewrite map_rev in I. apply in_rev. auto. }
  assert (TO : tail_ordered upper (map snd d)).
  { intros i j x y _ A B. apply nth_error_In in A, B. rewrite (DC x A), (DC y B). destruct upper; apply Qcle_refl. }
  pose proof (Nat.div_mod (length data) 2 ltac:(lia)) as DM.
  assert (LC : length (crit alpha (length sorted) maxo) >= maxo) by (rewrite get_critical_length; auto; lia).
  assert (LV : maxo <= length (map snd d)) by (rewrite map_length; lia).
  assert (NS : forall k, k < maxo -> ~ significant cst std upper (map snd d) k (nth k (crit alpha (length sorted) maxo) 0%Qc)).
  { intros k Hk. apply (insignificant_const c); auto. apply (CP (length sorted) maxo); [lia|]. apply nth_In. lia. }
  destruct lm.
  - destruct (first_pos _ d) as [li|]; auto.
    destruct (C19_esd_last cst std upper (map snd d) (map fst d) maxo (crit alpha (length sorted) maxo) li TO LV LC) as (n & E & C).
    rewrite E. destruct C as [[-> _]|(A & B & _)]; auto. exfalso. apply (NS (n - 1)); auto. lia.
  - destruct (C19_esd_entire cst std upper (map snd d) (map fst d) maxo (crit alpha (length sorted) maxo) TO LV LC) as (n & E & A & _ & B).
    rewrite E. destruct n as [|n]; auto. exfalso. apply (NS (S n - 1)); [lia|]. apply B. lia.
Qed.
Lemma zscore_const : forall c data maxo upper, 0 < length data -> all_eq c data -> zscore_detect cst std (sorted_series sort data) maxo upper = [].
Proof.
  intros c data maxo upper L0 HC. set (sorted := sorted_series sort data).
  assert (LS : length sorted = length data) by (apply sorted_length; auto).
  assert (SC : all_eq c (map snd sorted)) by (apply sorted_const; auto).
  assert (NE : map snd sorted <> []) by (intros X; assert (Y : length (map snd sorted) = 0) by (rewrite X; auto); rewrite map_length in Y; lia).
  unfold zscore_detect. cbv zeta. rewrite (median_const c _ NE SC), (all_eq_mean c _ NE SC).
  set (mad := (qmedian _ / cst)%Qc). set (cc := if (mad =? 0)%Qc then (c, std (map snd sorted)) else (c, mad)).
  assert (F : fst cc = c) by (unfold cc; destruct (mad =? 0)%Qc; auto).
  destruct (snd cc =? 0)%Qc eqn:EZ; auto. rewrite F.
  set (d := if upper then rev sorted else sorted).
  assert (DC : forall p, In p (firstn maxo d) -> snd p = c).
  { intros p I. apply firstn_incl in I. apply SC. apply in_map. unfold d in I. destruct upper; auto. apply in_rev. auto. }
  revert DC. generalize (firstn maxo d). induction l as [|p l IH]; intros DC; auto. simpl.
  rewrite (DC p) by (left; auto). replace (c - c)%Qc with 0%Qc by ring.
  assert (X : (Qcabs 0 / snd cc = 0)%Qc) by (unfold Qcdiv; replace (Qcabs 0) with 0%Qc by (apply Qc_is_canon; reflexivity); ring).
  rewrite X. destruct (Q2Qc 3 <? 0)%Qc eqn:E3; [vm_compute in E3; discriminate|]. apply IH. intros q I. apply DC. right; auto.
Qed.
Lemma majority_const : forall c data, 0 < length data -> all_eq c data ->
  get_verified_majority_value cst (map snd (sorted_series sort data)) = Ok None.
Proof.
  intros c data L0 HC. set (sorted := sorted_series sort data).
  assert (LS : length sorted = length data) by (apply sorted_length; auto).
  assert (SC : all_eq c (map snd sorted)) by (apply sorted_const; auto).
  unfold get_verified_majority_value. cbv zeta. rewrite map_length. destruct (isclose _ 0%Qc); auto.
  assert (G : forall k, k < length data -> get (map snd sorted) k = Ok c).
  { intros k Hk. destruct (nth_error_ex _ (map snd sorted) k) as [x Hx]; [rewrite map_length; lia|].
    rewrite (proj2 (get_ok _ _ _ _) Hx). f_equal. apply SC. eapply nth_error_In; eauto. }
  pose proof (Nat.div_mod (length sorted - 1) 2 ltac:(lia)).
  rewrite !G by lia. rewrite !bind_ok. replace (isclose c c) with true; auto. symmetry. unfold isclose. apply Qcleb_le.
  replace (c - c)%Qc with 0%Qc by ring. pose proof (Qcabs_nonneg c).
  assert (0 <= Q2Qc (1 # 100000) * Qcabs c)%Qc by (assert (0 <= Q2Qc (1 # 100000))%Qc by (vm_compute; discriminate); qnra).
  assert (0 <= Q2Qc (1 # 100000000))%Qc by (vm_compute; discriminate).
  replace (Qcabs 0) with 0%Qc by (apply Qc_is_canon; reflexivity). qlra.
Qed.

(** * The selections do not see the unit *)
Lemma dt_same : forall l l' ratio lm, 4 <= length l -> same_shape l l' ->
  dt_detect_anomaly cst std ppf sqrt table sort l' alpha ratio lm = dt_detect_anomaly cst std ppf sqrt table sort l alpha ratio lm.
Proof.
  intros l l' ratio lm L4 [->|(LL & c & c' & H & H')]; auto.
  unfold dt_detect_anomaly. cbv zeta. rewrite LL. rewrite (majority_const c l), (majority_const c' l') by (auto; lia). rewrite !bind_ok.
  set (maxo := dt_quota (length l) ratio). assert (HM : maxo <= length l / 2 - 1) by (unfold maxo, dt_quota; lia).
  unfold detect_tails. cbn [run_detectors].
  rewrite !(esd_const c l), !(esd_const c' l'), !(zscore_const c l), !(zscore_const c' l') by (auto; rewrite ?LL; auto; lia). auto.
Qed.
Lemma ts_same : forall l l' m m' ratio lm, 4 <= length l -> length m = length l -> same_shape l l' -> same_shape m m' ->
  ts_detect_anomaly cst std ppf sqrt table sort l' m' alpha ratio lm = ts_detect_anomaly cst std ppf sqrt table sort l m alpha ratio lm.
Proof.
  intros l l' m m' ratio lm L4 LM HL HM. unfold ts_detect_anomaly. cbv zeta.
  assert (LL : length l' = length l) by (destruct HL as [->|[X _]]; auto). rewrite LL.
  set (maxo := dt_quota (length l) ratio). assert (HX : maxo <= length l / 2 - 1) by (unfold maxo, dt_quota; lia).
  assert (G : forall d d', length d = length l -> same_shape d d' ->
    get_verified_majority_value cst (map snd (sorted_series sort d')) = get_verified_majority_value cst (map snd (sorted_series sort d)) /\
    (forall mj, get_verified_majority_value cst (map snd (sorted_series sort d)) = Ok mj -> forall upper,
       esd_detect cst std (crit alpha) (sorted_series sort d') maxo mj upper lm = esd_detect cst std (crit alpha) (sorted_series sort d) maxo mj upper lm) /\
    forall upper, zscore_detect cst std (sorted_series sort d') maxo upper = zscore_detect cst std (sorted_series sort d) maxo upper).
  { intros d d' LD [->|(LD' & c & c' & H & H')]; auto.
    rewrite (majority_const c d), (majority_const c' d') by (auto; lia). split; auto. split.
    - intros mj EM upper. inversion EM; subst mj. rewrite (esd_const c d), (esd_const c' d') by (auto; rewrite ?LD', ?LD; auto; lia). auto.
    - intros upper. rewrite (zscore_const c d), (zscore_const c' d') by (auto; lia). auto. }
  destruct (G l l' eq_refl HL) as (M1 & E1 & Z1). destruct (G m m' LM HM) as (M2 & E2 & _). rewrite M1, M2.
  destruct (get_verified_majority_value cst (map snd (sorted_series sort l))) as [mj|e]; cbn [bind]; [|reflexivity].
  destruct (get_verified_majority_value cst (map snd (sorted_series sort m))) as [mr|e]; cbn [bind]; [|reflexivity].
  unfold detect_tails. cbn [run_detectors]. rewrite (E1 mj eq_refl true), (E1 mj eq_refl false), (E2 mr eq_refl true), (E2 mr eq_refl false), (Z1 true), (Z1 false). reflexivity.
Qed.
End Units.

(** * Interpolation and frames *)
Section Frames.
Variable k b : Qc.
Notation f := (fun x : Qc => (k * x + b)%Qc).
Hypothesis K : (0 < k)%Qc.

Lemma known_unit : forall l i, known i (map (option_map f) l) = map (fun p => (fst p, f (snd p))) (known i l).
Proof. induction l as [|[v|] l IH]; intros i; simpl; rewrite ?IH; auto. Qed.
Lemma interp_at_unit : forall rest a va x,
  interp_at a (f va) (map (fun p => (fst p, f (snd p))) rest) x = option_map f (interp_at a va rest x).
Proof.
  induction rest as [|[a1 va1] rest IH]; intros a va x; simpl.
  - destruct (x =? a); auto.
  - destruct (x <? a); auto. destruct (x <? a1); simpl; auto. f_equal. ring.
Qed.
Lemma last_unit : forall (l : list (nat * Qc)) d, snd (last (map (fun p => (fst p, f (snd p))) l) (fst d, f (snd d))) = f (snd (last l d)).
Proof. induction l as [|x l IH]; intros d; auto. destruct l as [|y l]; auto. simpl in *. apply (IH d). Qed.
Lemma interp_unit : forall l, answers_alike (fun o o' => o' = map f o) (interp l) (interp (map (option_map f) l)).
Proof.
  intros l. unfold interp. rewrite known_unit. destruct (known 0 l) as [|[a va] rest]; simpl; auto.
  apply nth_error_ext_len; [rewrite map_length, !mapi_length, map_length; auto|].
  intros i Hi. rewrite nth_error_mapi, !nth_error_map, nth_error_mapi. destruct (nth_error l i) as [[v|]|]; simpl; auto.
  f_equal. unfold np_interp. destruct (i <? a); auto. rewrite interp_at_unit. destruct (interp_at a va rest i); simpl; auto.
  apply (last_unit rest (a, va)).
Qed.
Lemma blank_unit : forall idx l, blank idx (map f l) = map (option_map f) (blank idx l).
Proof.
  intros idx l. apply nth_error_ext_len; [rewrite map_length, !blank_length, map_length; auto|].
  intros i Hi. unfold blank. rewrite nth_error_map, !nth_error_mapi, nth_error_map. destruct (nth_error l i); simpl; auto.
  destruct (mem_nat i idx); auto.
Qed.
Lemma blank_trend_unit : forall idx p l, blank_trend idx p (map f l) = map (option_map f) (blank_trend idx p l).
Proof.
  intros idx p l. unfold blank_trend. cbv zeta. rewrite map_length, blank_unit.
  assert (R : forall n, repeat (@None Qc) n = map (option_map f) (repeat None n)) by (induction n; simpl; congruence).
  destruct (_ <=? _); auto. destruct (p / 2 =? 0); [apply R|]. rewrite map_app, <- R, firstn_map. auto.
Qed.

Lemma frame_unit : forall nt series e t idx, length t = length e ->
  answers_alike (Forall2 (moved k b nt)) (result_frame series e (if nt then Some t else None) None idx)
    (result_frame (map f series) (map f e) (if nt then Some (map f t) else None) None idx).
Proof.
  intros nt series e t idx LT. unfold result_frame. cbv zeta. rewrite map_length. cbn [column]. rewrite !bind_ok, map_length.
  destruct (length e =? length series) eqn:E; [|simpl; auto]. rewrite !bind_ok. apply Nat.eqb_eq in E.
  assert (C : exists c c', column (length series) (if nt then Some t else None) = Ok c /\
    column (length series) (if nt then Some (map f t) else None) = Ok c' /\ (nt = true -> c = t /\ c' = map f t)).
  { destruct nt; cbn [column]; [|eexists _, _; split; [reflexivity|]; split; [reflexivity|discriminate]].
    rewrite map_length, LT, E, Nat.eqb_refl. eauto 6. }
  destruct C as (c & c' & -> & -> & HC). rewrite !bind_ok. simpl.
  apply Forall2_nth_error; [rewrite !mapi_length, map_length; auto|].
  intros i r r' Hr Hr'. rewrite nth_error_mapi in Hr, Hr'. rewrite nth_error_map in Hr'.
  destruct (nth_error series i) as [v|] eqn:EV; [|discriminate]. simpl in Hr, Hr'. inversion Hr; inversion Hr'; subst r r'. clear Hr Hr'.
  assert (Hi : i < length e) by (rewrite E; eapply nth_error_lt; eauto). destruct (nth_error_ex _ e i Hi) as [x Hx].
  assert (N1 : nth i e 0%Qc = x) by (apply nth_error_nth_d; auto).
  assert (N2 : nth i (map f e) 0%Qc = f x) by (apply nth_error_nth_d; rewrite nth_error_map, Hx; auto).
  assert (S : modify_anomaly_status (mem_nat i idx) (f x) (f v) = modify_anomaly_status (mem_nat i idx) x v).
  { unfold modify_anomaly_status. destruct (negb _); auto. replace (f v <? f x)%Qc with (v <? x)%Qc; auto.
    apply eq_true_iff_eq. rewrite !Qcltb_lt. split; intros H; [qnra|]. destruct (Qclt_le_dec' v x); auto. exfalso. qnra. }
  unfold moved, result_row. cbn [r_value r_expected r_trend r_score r_anomaly r_neg r_pos]. rewrite N1, N2, S.
  repeat split; auto. intros N. destruct (HC N) as [-> ->]. destruct (nth_error_ex _ t i ltac:(lia)) as [y Hy].
  rewrite (nth_error_nth_d _ _ _ _ 0%Qc Hy). apply nth_error_nth_d. rewrite nth_error_map, Hy. auto.
Qed.
End Frames.
