(** The trend, the decomposition and the period search of a scaled series. *)
From Coq Require Import String List Arith ZArith QArith Qcanon Qround Lia Lqa Bool Sorted Permutation.
From Verif Require Import Base Num Sorting Kernel_model Period_spec Pipe_proofs2 Pipe_spec Const_spec Const_proofs Const_proofs2 Helpers_model Margins_model SR_model SR_proofs3 Detect_model Mv_model
  Period_model Period_proofs3 Period_proofs6 Trend_model Stl_model Pipe_model Units_spec Units_proofs Units_proofs2 Units_proofs5 Units_proofs6 Scale_spec.
Import ListNotations.
Open Scope nat_scope.

Section Median.
Variable k : Qc.
Hypothesis K : (0 < k)%Qc.
Variable r32 : Qc -> Qc.
Hypothesis R : forall x, r32 (k * x)%Qc = (k * r32 x)%Qc.
Notation sc := (fun x : Qc => (k * x)%Qc).
Notation lrel := (fun l l' => l' = map sc l).

Lemma sc_get : forall l i, answers_alike (fun x x' => x' = (k * x)%Qc) (get l i) (get (map sc l) i).
Proof. intros. unfold get. rewrite nth_error_map. destruct (nth_error l i); simpl; auto. Qed.
Lemma sc_upd : forall l i x, upd (map sc l) i (k * x)%Qc = map sc (upd l i x).
Proof. induction l as [|y l IH]; intros [|i] x; simpl; auto. f_equal. apply IH. Qed.
Lemma sc_bisect : forall fuel l x lo hi, bisect_right_loop fuel (map sc l) (k * x) lo hi = bisect_right_loop fuel l x lo hi.
Proof.
  induction fuel as [|f IH]; intros l x lo hi; cbn [bisect_right_loop]; destruct (negb (lo <? hi)); auto.
  cbv zeta. pose proof (sc_get l ((lo + hi) / 2)) as G. destruct (get l _) as [y|e], (get (map sc l) _) as [y'|e']; simpl in G; try contradiction; subst; cbn [bind]; auto.
  rewrite ltb_sc by auto. destruct (x <? y)%Qc; apply IH.
Qed.
Lemma sc_median : forall l i j, answers_alike (fun x x' => x' = (k * x)%Qc) (sorted_median l i j) (sorted_median (map sc l) i j).
Proof.
  intros. unfold sorted_median. cbv zeta. destruct (_ =? 0); [simpl; auto|]. destruct (_ =? 1); [apply sc_get|].
  eapply alike_bind; [apply sc_get|]. intros x x' _ _ ->. eapply alike_bind; [apply sc_get|]. intros y y' _ _ ->. simpl. unfold Qcdiv. ring.
Qed.
Lemma sc_up : forall index l add, answers_alike lrel (shift_up l index add) (shift_up (map sc l) index add).
Proof.
  induction index as [|i IH]; intros l add; cbn [shift_up]; destruct (add <? _); try (simpl; auto; fail).
  eapply alike_bind; [apply sc_get|]. intros x x' _ _ ->. rewrite sc_upd. apply IH.
Qed.
Lemma sc_down : forall n l index, answers_alike lrel (shift_down l index n) (shift_down (map sc l) index n).
Proof.
  induction n as [|n IH]; intros l index; cbn [shift_down]; [simpl; auto|].
  eapply alike_bind; [apply sc_get|]. intros x x' _ _ ->. rewrite sc_upd. apply IH.
Qed.
Lemma sc_insert : forall cur len key x, answers_alike lrel (win_insert cur len key x) (win_insert (map sc cur) len (k * key) (k * x)).
Proof.
  intros. unfold win_insert, bisect_right. rewrite firstn_map, map_length, sc_bisect.
  apply (alike_bind _ _ _ _ eq); [apply alike_eq|]. intros a a' _ _ <-. eapply alike_bind; [apply sc_up|]. intros c c' _ _ ->. simpl. apply sc_upd.
Qed.
Lemma sc_delete : forall cur len key, answers_alike lrel (win_delete cur len key) (win_delete (map sc cur) len (k * key)).
Proof.
  intros. unfold win_delete, bisect_right. rewrite firstn_map, !map_length, sc_bisect.
  apply (alike_bind _ _ _ _ eq); [apply alike_eq|]. intros a a' _ _ <-. destruct a; [|apply sc_down].
  eapply alike_bind; [apply sc_get|]. intros x x' _ _ ->. rewrite sc_upd. apply sc_down.
Qed.
Notation prel := (fun p p' => p' = (map sc (fst p), map sc (snd p))).
Lemma sc_fill : forall is data h two cur ans, answers_alike prel (mf_fill r32 data h two is cur ans) (mf_fill r32 (map sc data) h two is (map sc cur) (map sc ans)).
Proof.
  induction is as [|i is IH]; intros; cbn [mf_fill]; [simpl; auto|].
  eapply alike_bind; [apply sc_get|]. intros x x' _ _ ->. rewrite R. eapply alike_bind; [apply sc_insert|]. intros c c' _ _ ->.
  apply (alike_bind _ _ _ _ lrel).
  - destruct (_ && _); [|simpl; auto]. eapply alike_bind; [apply sc_median|]. intros m m' _ _ ->. simpl. rewrite R. apply sc_upd.
  - intros a a' _ _ ->. apply IH.
Qed.
Lemma sc_slide : forall is data h cur ans, answers_alike prel (mf_slide r32 data h is cur ans) (mf_slide r32 (map sc data) h is (map sc cur) (map sc ans)).
Proof.
  induction is as [|i is IH]; intros; cbn [mf_slide]; [simpl; auto|].
  eapply alike_bind; [apply sc_get|]. intros x x' _ _ ->. rewrite R. eapply alike_bind; [apply sc_delete|]. intros c c' _ _ ->.
  eapply alike_bind; [apply sc_get|]. intros y y' _ _ ->. rewrite R. eapply alike_bind; [apply sc_insert|]. intros d d' _ _ ->.
  eapply alike_bind; [apply sc_median|]. intros m m' _ _ ->. rewrite R, sc_upd. apply IH.
Qed.
Lemma sc_tail : forall is data h w cur ans, answers_alike lrel (mf_tail r32 data h is w cur ans) (mf_tail r32 (map sc data) h is w (map sc cur) (map sc ans)).
Proof.
  induction is as [|i is IH]; intros; cbn [mf_tail]; [simpl; auto|].
  eapply alike_bind; [apply sc_get|]. intros x x' _ _ ->. eapply alike_bind; [apply sc_delete|]. intros c c' _ _ ->. cbv zeta.
  eapply alike_bind; [apply sc_median|]. intros m m' _ _ ->. rewrite R, sc_upd. apply IH.
Qed.
Lemma sc_repeat : forall n, map sc (repeat 0%Qc n) = repeat 0%Qc n.
Proof. induction n; simpl; auto. f_equal; auto. ring. Qed.
Lemma sc_r32s : forall data, map r32 (map sc data) = map sc (map r32 data).
Proof. intros. rewrite !map_map. apply map_ext. auto. Qed.
Lemma median_filter_sc : forall data w two, answers_alike lrel (median_filter r32 data w two) (median_filter r32 (map sc data) w two).
Proof.
  intros. unfold median_filter. cbv zeta. rewrite map_length, sc_r32s. destruct (_ <? _); [simpl; auto|].
  rewrite <- (sc_repeat (2 * (w / 2) + 1)) at 2.
  eapply alike_bind; [apply sc_fill|]. intros [c a] p' _ _ ->. cbn [fst snd]. eapply alike_bind; [apply sc_median|]. intros m m' _ _ ->. rewrite R, sc_upd.
  eapply alike_bind; [apply sc_slide|]. intros [c2 a2] p' _ _ ->. cbn [fst snd]. destruct two; [apply sc_tail|simpl; auto].
Qed.
End Median.

Section Whole.
Variable k : Qc.
Hypothesis K : (0 < k)%Qc.
Variable L : libs.
Hypothesis SL : libs_in_scale k L.
Notation mv := (in_unit k 0).
Notation urel := (fun l l' => l' = mv l).

Lemma fit_scale : forall kd p data, kd = KSpline \/ kd = KMedian ->
  answers_alike urel (fit_with_period (l_r32 L) (l_aglet L) (l_mean_filter L) (l_line_filter L) (l_spline_filter L) data kd p)
    (fit_with_period (l_r32 L) (l_aglet L) (l_mean_filter L) (l_line_filter L) (l_spline_filter L) (mv data) kd p).
Proof.
  intros kd p data H. unfold fit_with_period. cbv zeta. rewrite unit_length. destruct H as [->| ->].
  - destruct (_ =? 0); [simpl; auto|]. eapply alike_bind; [apply (sc_spline_filter k L SL)|]. intros m m' _ _ ->. apply (sc_aglet k L SL).
  - rewrite unit0. eapply alike_bind; [apply (median_filter_sc k K (l_r32 L) (sc_r32 k L SL))|]. intros m m' _ _ ->. rewrite <- unit0. apply (sc_aglet k L SL).
Qed.
Lemma guess_scale : forall data,
  guess_trended_period (l_r32 L) (l_top L) (l_aglet L) (l_mean_filter L) (l_line_filter L) (l_spline_filter L) (trend_peaks L) (mv data) =
  guess_trended_period (l_r32 L) (l_top L) (l_aglet L) (l_mean_filter L) (l_line_filter L) (l_spline_filter L) (trend_peaks L) data.
Proof.
  intros data. unfold guess_trended_period. cbv zeta. rewrite unit_length.
  pose proof (fit_scale KMedian (Nat.min (length data / 3) 512) data (or_intror eq_refl)) as F.
  destruct (fit_with_period _ _ _ _ _ data KMedian _) as [b|e], (fit_with_period _ _ _ _ _ (mv data) KMedian _) as [b'|e']; simpl in F; try contradiction; subst; cbn [bind]; auto.
  rewrite (sc_top k L SL). cbn [finite32 negb]. rewrite unit_length. destruct (negb _); auto. rewrite unit_minus. replace (0 - 0)%Qc with 0%Qc by ring. unfold trend_peaks. rewrite (sc_peaks k L SL). auto.
Qed.
Lemma trend_scale : trend_in_unit k 0 (whole_trend L).
Proof.
  intros s p. unfold whole_trend, trend_detection. rewrite unit_length. destruct (_ <? 6).
  - cbn [answers_alike]. unfold in_unit at 2 3. rewrite !map_map. destruct s as [|x s]; auto. apply map_ext. intros.
    unfold in_unit. apply qmean_affine. discriminate.
  - unfold fit_trend. destruct p as [p|].
    + cbn [bind]. apply fit_scale; auto.
    + rewrite guess_scale. apply (alike_bind _ _ _ _ eq); [apply alike_eq|]. intros p p' _ _ <-. apply fit_scale; auto.
Qed.

Notation crel := (comps_in_scale k).
Lemma plus_sc : forall a c, answers_alike urel (zipq Qcplus a c) (zipq Qcplus (mv a) (mv c)).
Proof. intros. unfold zipq. rewrite !unit_length. destruct (_ =? _); simpl; auto. apply unit_plus. Qed.
Lemma nth_sc : forall l i, nth i (mv l) 0%Qc = (k * nth i l 0)%Qc.
Proof. intros. rewrite unit0. replace 0%Qc with (k * 0)%Qc at 1 by ring. apply map_nth. Qed.
Lemma abs_sc : forall x, Qcabs (k * x) = (k * Qcabs x)%Qc. Proof. intros. apply abs_pos_mult; auto. Qed.
Lemma phase_sc : forall data p, phase_before_end (mv data) p = mv (phase_before_end data p).
Proof. intros. unfold phase_before_end. rewrite unit_length, (unit0 k (map _ _)), map_map. apply map_ext. intros. apply nth_sc. Qed.
Lemma firstn_sc : forall n l, firstn n (mv l) = mv (firstn n l).
Proof. intros. unfold in_unit. apply firstn_map. Qed.
Lemma adjust_sc : forall data p, answers_alike crel (stl_adjust_trend (l_stl L) (l_exp L) (l_log L) data p false)
  (stl_adjust_trend (l_stl L) (l_exp L) (l_log L) (mv data) p false).
Proof.
  intros data p. unfold stl_adjust_trend. cbv zeta. rewrite phase_sc.
  destruct (phase_before_end data p) as [|x ph] eqn:P; [simpl; auto|]. cbn [in_unit map]. fold (mv ph).
  assert (M : qmedian ((k * x + 0)%Qc :: mv ph) = (k * qmedian (x :: ph) + 0)%Qc) by (change ((k * x + 0)%Qc :: mv ph) with (mv (x :: ph)); apply qmedian_affine; auto; discriminate).
  rewrite M. unfold stl_core. apply (alike_bind _ _ _ _ crel); [apply (sc_stl k L SL)|]. intros o o' _ _ (S1 & T1 & M1).
  apply (alike_bind _ _ _ _ crel).
  { replace (mv data ++ [(k * qmedian (x :: ph) + 0)%Qc]) with (mv (data ++ [qmedian (x :: ph)])) by apply unit_app. apply (sc_stl k L SL). }
  intros a a' _ _ (S2 & T2 & M2). rewrite M1, M2, !unit_length.
  eapply alike_bind; [apply unit_get|]. intros u u' _ _ ->.
  eapply (alike_bind _ _ _ _ (fun x x' => x' = (k * x + 0)%Qc)).
  { destruct (_ <? 2); [simpl; auto|]. apply unit_get. }
  intros v v' _ _ ->. replace (k * u + 0)%Qc with (k * u)%Qc by ring. replace (k * v + 0)%Qc with (k * v)%Qc by ring.
  rewrite !abs_sc, leb_sc by auto. destruct (Qcleb _ _); simpl.
  - repeat split; auto.
  - rewrite S2, T2, !firstn_sc. repeat split; auto.
Qed.
Lemma filter_ext_map : forall A (f g : A -> bool) l, (forall x, f x = g x) -> filter f l = filter g l.
Proof. intros A f g l E. induction l as [|x l IH]; simpl; auto. rewrite E, IH. auto. Qed.
Lemma far_sc : forall (m s : Qc) (ix : list nat) (v : list Qc), (s <> 0)%Qc ->
  map fst (filter (fun p : nat * Qc => (Q2Qc 3 <=? Qcabs (snd p - (k * m + 0)) / (k * s))%Qc) (combine ix (mv v))) =
  map fst (filter (fun p : nat * Qc => (Q2Qc 3 <=? Qcabs (snd p - m) / s)%Qc) (combine ix v)).
Proof.
  intros m s ix v Z. assert (KN : k <> 0%Qc) by (intro E; rewrite E in K; discriminate K). revert v. induction ix as [|i ix IH]; intros [|x v]; [reflexivity..|].
  cbn [in_unit map combine filter snd fst]. fold (mv v).
  replace (Qcabs (k * x + 0 - (k * m + 0)) / (k * s))%Qc with (Qcabs (x - m) / s)%Qc.
  2: { replace (k * x + 0 - (k * m + 0))%Qc with (k * (x - m))%Qc by ring. rewrite abs_sc. generalize (Qcabs (x - m)). intros u. field. split; auto. }
  destruct (Qcleb (Q2Qc 3) _); cbn [map fst]; rewrite IH; auto.
Qed.
Lemma outlier_sc : forall v p, get_outlier (l_std L) (mv v) p = get_outlier (l_std L) v p.
Proof.
  intros v p. unfold get_outlier. cbv zeta. destruct v as [|x v].
  { change (mv []) with (@nil Qc). auto. }
  assert (M : qmean (mv (x :: v)) = (k * qmean (x :: v) + 0)%Qc) by (apply qmean_affine; discriminate).
  rewrite (sc_std k L SL), M, !unit_length. remember (x :: v) as w.
  assert (Z : Qceqb (k * l_std L w) 0 = Qceqb (l_std L w) 0).
  { destruct (Qceqb (l_std L w) 0) eqn:E.
    - apply Qceqb_eq in E. rewrite E. apply Qceqb_eq. ring.
    - destruct (Qceqb (k * l_std L w) 0) eqn:F; auto. apply Qceqb_eq in F. exfalso.
      destruct (Qcmult_integral _ _ F) as [G|G]; [rewrite G in K; discriminate K|]. rewrite G in E. discriminate E. }
  rewrite Z. destruct (Qceqb (l_std L w) 0) eqn:E; auto. rewrite !(sc_std k L SL). rewrite far_sc; auto.
  intro G. rewrite G in E. discriminate E.
Qed.
Lemma ffill_from_sc : forall l o, ffill_from (option_map (fun x => k * x + 0)%Qc o) (cells_in_unit k 0 l) = cells_in_unit k 0 (ffill_from o l).
Proof. induction l as [|[x|] l IH]; intros o; simpl; auto; f_equal; try apply IH. apply (IH (Some x)). Qed.
Lemma ffill_sc : forall l, ffill (cells_in_unit k 0 l) = cells_in_unit k 0 (ffill l).
Proof. intros. unfold ffill. apply (ffill_from_sc l None). Qed.
Lemma bfill_sc : forall l, bfill (cells_in_unit k 0 l) = cells_in_unit k 0 (bfill l).
Proof.
  induction l as [|[x|] l IH]; simpl; auto; [f_equal; auto|]. fold (cells_in_unit k 0 l). rewrite IH. destruct (bfill l); auto.
Qed.
Lemma all_some_sc : forall l, Mv_model.all_some (cells_in_unit k 0 l) = option_map (in_unit k 0) (Mv_model.all_some l).
Proof. induction l as [|[x|] l IH]; simpl; auto. fold (cells_in_unit k 0 l). rewrite IH. destruct (Mv_model.all_some l); auto. Qed.
Lemma deoutlier_sc : forall adj s p,
  let f := if adj : bool then stl_adjust_trend (l_stl L) (l_exp L) (l_log L) else stl (l_stl L) (l_exp L) (l_log L) in
  answers_alike crel (de_outlier_stl (l_std L) s f p false) (de_outlier_stl (l_std L) (mv s) f p false).
Proof.
  intros adj s p f.
  assert (F : forall s, answers_alike crel (f s p false) (f (mv s) p false)).
  { intros t. subst f. destruct adj; [apply adjust_sc|]. apply (sc_stl k L SL). }
  unfold de_outlier_stl. eapply alike_bind; [apply F|]. intros d d' _ _ CR. pose proof CR as (S1 & T1 & M1). rewrite S1, M1.
  eapply alike_bind; [apply plus_sc|]. intros t t' _ _ ->. rewrite outlier_sc.
  destruct (get_outlier (l_std L) t p) as [|o os]; [simpl; auto|].
  set (ol := o :: os).
  assert (B : mapi (fun i v => if mem_pos i ol then None else Some v) (mv t) = cells_in_unit k 0 (mapi (fun i v => if mem_pos i ol then None else Some v) t)).
  { clear. unfold mapi. generalize 0. induction t as [|x t IH]; intros n; cbn [in_unit map mapi_from cells_in_unit]; auto. f_equal; [destruct (mem_pos n ol); auto|apply IH]. }
  rewrite B, ffill_sc, bfill_sc, all_some_sc. destruct (Mv_model.all_some (bfill (ffill _))) as [fl|]; simpl; auto.
  rewrite T1. apply (alike_bind _ _ _ _ urel); [apply plus_sc|]. intros w w' _ _ ->. apply F.
Qed.
Lemma eqb0_sc : forall x, Qceqb (k * x + 0) 0 = Qceqb x 0.
Proof.
  intros x. destruct (Qceqb x 0) eqn:E.
  - apply Qceqb_eq in E. subst. apply Qceqb_eq. ring.
  - destruct (Qceqb (k * x + 0) 0) eqn:F; auto. apply Qceqb_eq in F. exfalso.
    assert (G : (k * x)%Qc = 0%Qc) by (rewrite <- F; ring). destruct (Qcmult_integral _ _ G) as [H|H]; [rewrite H in K; discriminate K|]. subst. discriminate E.
Qed.
Lemma mape_sc : forall r s, mape (mv r) (mv s) = mape r s.
Proof.
  intros r s. unfold mape. cbv zeta.
  set (g := fun p : Qc * Qc => (k * fst p + 0, k * snd p + 0)%Qc).
  assert (A : filter (fun p => negb ((fst p =? 0)%Qc && (snd p =? 0)%Qc)) (combine (mv r) (mv s)) = map g (filter (fun p => negb ((fst p =? 0)%Qc && (snd p =? 0)%Qc)) (combine r s))).
  { revert s. induction r as [|x r IH]; intros [|y s]; simpl; auto. rewrite !eqb0_sc. destruct (negb _); simpl; fold (mv r); fold (mv s); rewrite IH; auto. }
  rewrite A. generalize (filter (fun p => negb ((fst p =? 0)%Qc && (snd p =? 0)%Qc)) (combine r s)). intros l.
  assert (Z : forall A (x y : A), match map g l with [] => x | _ :: _ => y end = match l with [] => x | _ :: _ => y end) by (intros; destruct l; auto).
  rewrite Z. clear Z A. destruct l as [|q0 l0] eqn:EL; auto. rewrite <- EL. clear EL q0 l0.
  assert (X : existsb (fun p => (snd p =? 0)%Qc) (map g l) = existsb (fun p => (snd p =? 0)%Qc) l).
  { induction l as [|p l IH]; simpl; auto. rewrite eqb0_sc, IH. auto. }
  rewrite X. destruct (existsb _ l) eqn:Y; auto. f_equal. f_equal. rewrite map_map. apply map_ext_in. intros p I. simpl. f_equal.
  assert (N : snd p <> 0%Qc).
  { intro Z. assert (existsb (fun p => (snd p =? 0)%Qc) l = true) by (apply existsb_exists; exists p; split; auto; apply Qceqb_eq; auto). congruence. }
  assert (KN : k <> 0%Qc) by (intro Z; rewrite Z in K; discriminate K).
  replace (k * fst p + 0)%Qc with (k * fst p)%Qc by ring. replace (k * snd p + 0)%Qc with (k * snd p)%Qc by ring. field. split; auto.
Qed.
Lemma parts_scale : forall s p, explained L s p -> parts_in_unit k 0 (decompose (l_stl L) (l_exp L) (l_log L) (l_std L)) s p.
Proof.
  intros s p E adj. unfold decompose, decomposition. cbv zeta.
  pose proof (deoutlier_sc adj s p) as D. cbv zeta in D. specialize (E adj).
  set (f := if adj then stl_adjust_trend (l_stl L) (l_exp L) (l_log L) else stl (l_stl L) (l_exp L) (l_log L)) in *.
  destruct (de_outlier_stl (l_std L) s f p false) as [d|e], (de_outlier_stl (l_std L) (mv s) f p false) as [d'|e']; simpl in D; try contradiction; subst; cbn [bind]; [|simpl; auto].
  destruct D as (S1 & T1 & M1). rewrite M1, !unit_length. destruct (negb _); cbn [bind]; [simpl; auto|].
  rewrite mape_sc. specialize (E d eq_refl).
  assert (A : ext_above MAPE_UB (mape (c_remainder d) s) = false).
  { unfold ext_above. destruct (mape _ _); auto; [|contradiction]. unfold MAPE_UB. apply Qcltb_ge. exact E. }
  rewrite A. cbn [bind answers_alike fst snd]. rewrite S1, T1. auto.
Qed.

Hypothesis OK : libs_ok L.
Hypothesis ST : steady L.
Lemma period_scale : forall g i l, whole_period L g i (cells_in_unit k 0 l) = whole_period L g i l.
Proof.
  intros g i l. unfold whole_period at 1 2, detected_period. rewrite all_some_unit. destruct (Detect_model.all_some l) as [s|] eqn:A; simpl; auto.
  assert (NE : s = [] \/ s <> []) by (destruct s; [left; auto|right; discriminate]). destruct NE as [->|NE]; [auto|].
  destruct (constant_or_varied s) as [(c & C)|(x & y & X & Y & N)].
  - assert (C' : all_eq (k * c + 0)%Qc (mv s)).
    { intros z I. apply in_map_iff in I. destruct I as (w & <- & I). rewrite (C w I). auto. }
    assert (NE' : mv s <> []) by (destruct s; [congruence|discriminate]).
    destruct (le_lt_dec 12 (length s)) as [L12|L12].
    + pose proof (whole_period_const L OK ST g i c s C (or_introl (sc_top k L SL)) L12) as E1.
      pose proof (whole_period_const L OK ST g i _ (mv s) C' (or_introl (sc_top k L SL)) ltac:(rewrite unit_length; auto)) as E2.
      unfold whole_period, detected_period in E1, E2. rewrite all_some_of_map in E1, E2. rewrite E1, E2. auto.
    + unfold default_detection, period_detection. cbn [negb].
      rewrite (verify_same _ _ _ (ok_nonneg L OK) c s) by auto. rewrite (verify_same _ _ _ (ok_nonneg L OK) (k * c + 0)%Qc (mv s)) by auto. cbn [bind].
      unfold spectrum_detect. rewrite unit_length. assert (E : (length s <? 12) = true) by (apply Nat.ltb_lt; auto). rewrite E. auto.
  - unfold default_detection. unfold in_unit. rewrite affine_detection; auto. exists x, y. auto.
Qed.
End Whole.
