(** Changing the unit: filling the gaps. *)
From Coq Require Import String List Arith ZArith QArith Qcanon Qround Lia Lqa Bool Sorted Permutation.
From Verif Require Import Base Num Sorting FillUp_model Helpers_model Margins_model SR_proofs SR_proofs3 Period_proofs3 Units_spec Units_proofs Units_proofs2.
Import ListNotations.
Open Scope nat_scope.

Section Fill.
Variable k b : Qc.
Hypothesis K : (0 < k)%Qc.
Notation f1 := (fun x : Qc => (k * x + b)%Qc).
Notation mo := (cells_in_unit k b).
Notation mv := (in_unit k b).
Notation fu := (fup_in_unit k b).
Variable spline : list nat -> list Qc -> nat -> Qc.
Hypothesis SP : spline_in_unit k b spline.

Lemma cells_length : forall l, length (mo l) = length l. Proof. intros. apply map_length. Qed.
Lemma cells_nth : forall l i, nth_error (mo l) i = option_map (option_map f1) (nth_error l i).
Proof. intros. apply nth_error_map. Qed.
Lemma cells_nth_d : forall l i, nth i (mo l) None = option_map f1 (nth i l None).
Proof. intros. apply (map_nth (option_map f1) l None i). Qed.
Lemma somes_unit : forall l, somes (mo l) = mv (somes l).
Proof. induction l as [|[v|] l IH]; simpl; auto. f_equal. auto. Qed.
Lemma none_unit : forall l, existsb is_none (mo l) = existsb is_none l.
Proof. induction l as [|[v|] l IH]; simpl; auto. Qed.
Lemma cells_some : forall l, mo (map Some l) = map Some (mv l).
Proof. intros. unfold cells_in_unit, in_unit. rewrite !map_map. auto. Qed.
Lemma cells_upd : forall l i v, upd (mo l) i (option_map f1 v) = mo (upd l i v).
Proof. induction l as [|y l IH]; intros [|i] v; simpl; auto. f_equal. apply IH. Qed.
Lemma cells_splice : forall l i r, splice (mo l) i (mo r) = mo (splice l i r).
Proof. intros. unfold splice, cells_in_unit. rewrite map_length, !map_app, firstn_map, skipn_map. auto. Qed.

Notation cellrel := (fun o o' => o' = mo o).
Lemma per_loop_unit : forall fuel arr fmc mc lev tb fw per i n,
  answers_alike cellrel (per_loop fuel arr fmc mc lev tb fw per i n) (per_loop fuel (mo arr) fmc mc lev tb fw per i n).
Proof.
  induction fuel as [|fuel IH]; intros; cbn [per_loop]; rewrite cells_length; destruct (_ || _); [simpl; auto..|].
  rewrite cells_nth. destruct (nth_error arr (Z.to_nat i)) as [a|]; cbn [option_map]; [|simpl; auto].
  destruct (nth_error fmc (Z.to_nat i)) as [fm|]; [|simpl; auto]. destruct (nth_error mc (Z.to_nat i)) as [m|]; [|simpl; auto].
  destruct (negb lev && (0 <? fm)).
  - eapply alike_bind; [apply IH|]. intros r r' _ _ ->. simpl. auto.
  - destruct a as [v|]; cbn [option_map]; (eapply alike_bind; [apply IH|]); intros r r' _ _ ->; simpl; auto.
Qed.
Lemma get_periodical_unit : forall arr i n period fmc mc lev sm fw,
  answers_alike cellrel (get_periodical_values arr i n period fmc mc lev sm fw) (get_periodical_values (mo arr) i n period fmc mc lev sm fw).
Proof.
  intros. unfold get_periodical_values. destruct (period <=? 0)%Z; [simpl; auto|]. cbv zeta. rewrite cells_length.
  eapply alike_bind; [apply per_loop_unit|]. intros r r' _ _ ->. simpl. destruct fw; auto. unfold cells_in_unit. rewrite map_rev. auto.
Qed.
Notation pairrel := (fun o o' => o' = option_map (fun p : list Qc * list Qc => (mv (fst p), mv (snd p))) o).
Lemma get_bf_unit : forall arr i vals j period fmc mc bn fn lev sm,
  answers_alike pairrel (get_bf arr i vals j period fmc mc bn fn lev sm) (get_bf (mo arr) i (mv vals) j period fmc mc bn fn lev sm).
Proof.
  intros. unfold get_bf. apply (alike_bind _ _ _ _ (fun p p' => p' = (mo (fst p), mo (snd p)))).
  - assert (G : answers_alike (fun p p' : list (option Qc) * list (option Qc) => p' = (mo (fst p), mo (snd p)))
      (do b0 <- get_periodical_values arr i bn period fmc mc lev sm false; do f <- get_periodical_values arr i fn period fmc mc lev sm true; Ok (b0, f))
      (do b0 <- get_periodical_values (mo arr) i bn period fmc mc lev sm false; do f <- get_periodical_values (mo arr) i fn period fmc mc lev sm true; Ok (b0, f))).
    { eapply alike_bind; [apply get_periodical_unit|]. intros x x' _ _ ->. eapply alike_bind; [apply get_periodical_unit|]. intros y y' _ _ ->. simpl. auto. }
    destruct lev, sm; auto. destruct (period =? 1)%Z; auto. simpl. rewrite !cells_some. unfold in_unit. rewrite !slice_map. auto.
  - intros [x y] p' _ _ ->. cbn [fst snd]. rewrite !none_unit, !cells_length, !somes_unit.
    destruct (_ || _); [|simpl; auto].
    destruct sm; simpl; auto; destruct (somes x), (somes y); simpl; auto.
Qed.
Lemma reduce_unit : forall r vs, answers_alike (fun x x' => x' = f1 x) (reduce r vs) (reduce r (mv vs)).
Proof.
  intros r [|x t]; [simpl; auto|]. assert (NE : x :: t <> []) by discriminate. remember (x :: t) as vs.
  assert (E : forall l, l <> [] -> reduce r l = Ok (match r with RAverage => qmean l | RMedian => qmedian l | RMin => qmin_list l | RMax => qmax_list l end))
    by (intros [|? ?] N; [congruence|reflexivity]).
  rewrite !E by (auto; subst vs; discriminate). simpl. unfold in_unit.
  destruct r; [apply qmean_affine|apply qmedian_affine|apply qmin_map|apply qmax_map]; auto.
Qed.
Lemma weighted_unit : forall vs ws, length vs = length ws ->
  qsum (map (fun p => fst p * snd p)%Qc (combine (mv vs) ws)) = (k * qsum (map (fun p => fst p * snd p) (combine vs ws)) + b * qsum ws)%Qc.
Proof.
  induction vs as [|v vs IH]; intros [|w ws] L; try discriminate; [cbn; ring|].
  cbn [in_unit map combine fst snd]. change (map f1 vs) with (mv vs).
  change (qsum (?h :: ?t)) with (h + qsum t)%Qc. rewrite IH by (simpl in L; lia).
  change (qsum (((v * w)%Qc) :: ?t)) with (v * w + qsum t)%Qc. change (qsum (w :: ws)) with (w + qsum ws)%Qc. ring.
Qed.
Lemma average_w_unit : forall vs ws, answers_alike (fun x x' => x' = f1 x) (np_average_w vs ws) (np_average_w (mv vs) ws).
Proof.
  intros vs ws. unfold np_average_w. rewrite unit_length. destruct (length vs =? length ws) eqn:E; [|simpl; auto]. apply Nat.eqb_eq in E. cbn [negb].
  cbv zeta. destruct (Qceqb (qsum ws) 0) eqn:Z0; [simpl; auto|]. cbn [answers_alike]. rewrite weighted_unit by auto.
  field. intros X. rewrite X in Z0. vm_compute in Z0. discriminate.
Qed.
Definition fres_unit (r : fres) : fres := match r with FScalar v => FScalar (option_map f1 v) | FList l => FList (mv l) end.
Notation fresrel := (fun r r' => r' = fres_unit r).
Lemma basic_unit : forall r kw arr i vals j fmc mc,
  answers_alike fresrel (basic_func r kw arr i vals j fmc mc) (basic_func r kw (mo arr) i (mv vals) j fmc mc).
Proof.
  intros. unfold basic_func. cbv zeta. eapply alike_bind; [apply get_bf_unit|]. intros bf bf' _ _ ->.
  destruct bf as [[x y]|]; cbn [option_map fst snd]; [|simpl; auto]. rewrite <- unit_app, !unit_length.
  assert (G : answers_alike fresrel (do v <- reduce r (x ++ y); Ok (FScalar (Some v))) (do v <- reduce r (mv (x ++ y)); Ok (FScalar (Some v)))).
  { eapply alike_bind; [apply reduce_unit|]. intros v v' _ _ ->. simpl. auto. }
  destruct r; auto. destruct (k_weights kw) as [ws|]; auto. destruct (negb _); [simpl; auto|].
  eapply alike_bind; [apply average_w_unit|]. intros v v' _ _ ->. simpl. auto.
Qed.
Notation listrel := (fun o o' => o' = mv o).
Lemma linear_seg_unit : forall mc i vals j, answers_alike listrel (linear_seg mc i vals j) (linear_seg mc i (mv vals) j).
Proof.
  intros mc i vals [|j]; [simpl; auto|]. unfold linear_seg. rewrite !unit_nth.
  destruct (nth_error vals j) as [va|]; cbn [option_map]; [|simpl; auto].
  destruct (nth_error vals (S j)) as [vb|]; cbn [option_map]; [|simpl; auto]. destruct (nth_error mc i) as [m|]; [|simpl; auto].
  cbn [answers_alike]. unfold in_unit. rewrite map_map. apply map_ext. intros x. ring.
Qed.
Lemma sequence_unit : forall l, sequence (map (option_map f1) l) = option_map mv (sequence l).
Proof. induction l as [|[v|] l IH]; simpl; auto. rewrite IH. destruct (sequence l); auto. Qed.
Lemma combine_unit : forall (idx : list nat) vals, combine idx (mv vals) = map (fun p => (fst p, f1 (snd p))) (combine idx vals).
Proof. induction idx as [|i idx IH]; intros [|v vals]; simpl; auto. f_equal. apply IH. Qed.
Lemma linear_entire_unit : forall vals idx full, answers_alike listrel (linear_entire vals idx full) (linear_entire (mv vals) idx full).
Proof.
  intros. unfold linear_entire. rewrite combine_unit. destruct (combine idx vals) as [|[a va] rest]; [simpl; auto|]. cbn [map fst snd].
  assert (E : map (interp_at a (f1 va) (map (fun p => (fst p, f1 (snd p))) rest)) full = map (option_map f1) (map (interp_at a va rest) full)).
  { rewrite map_map. apply map_ext. intros x. apply interp_at_unit. }
  rewrite E, sequence_unit. destruct (sequence _); simpl; auto.
Qed.
Lemma spline_entire_unit : forall vals idx full, answers_alike listrel (spline_entire spline vals idx full) (spline_entire spline (mv vals) idx full).
Proof.
  intros. unfold spline_entire. rewrite unit_length. destruct (_ <=? 3) eqn:E3; [simpl; auto|]. cbn [answers_alike]. unfold in_unit at 2. rewrite map_map.
  apply map_ext. intros x. apply SP. intros X. rewrite X in E3. discriminate.
Qed.
Lemma spline_seg_unit : forall kw arr i vals j fmc mc,
  answers_alike fresrel (spline_seg spline kw arr i vals j fmc mc) (spline_seg spline kw (mo arr) i (mv vals) j fmc mc).
Proof.
  intros. unfold spline_seg. eapply alike_bind; [apply get_bf_unit|]. intros bf bf' _ _ ->.
  destruct bf as [[x y]|]; cbn [option_map fst snd]; [|simpl; auto]. destruct (nth_error mc i) as [m|]; [|simpl; auto].
  cbv zeta. rewrite !unit_length. destruct (_ || _ || _) eqn:E3; [simpl; auto|]. cbn [answers_alike fres_unit]. f_equal. unfold in_unit at 3. rewrite map_map.
  apply map_ext. intros z. rewrite <- unit_app. apply SP. intros X. destruct x; [cbn in E3; rewrite orb_true_r in E3|]; discriminate.
Qed.
Lemma func_last_unit : forall vals j, answers_alike fresrel (func_last vals j) (func_last (mv vals) j).
Proof. intros. unfold func_last. rewrite unit_length. destruct j as [|j]; rewrite unit_nth; destruct (nth_error vals _); simpl; auto. Qed.

Definition kw_unit (kw kw' : kwargs) : Prop :=
  kw' = mkKw (k_bn kw) (k_fn kw) (k_lev kw) (k_cp kw) (k_period kw) (k_short kw) (k_weights kw) (option_map f1 (k_number kw)).
Lemma step_func_unit : forall m kw kw' arr i vals j fmc mc, kw_unit kw kw' ->
  answers_alike fresrel (step_func spline m kw arr i vals j fmc mc) (step_func spline m kw' (mo arr) i (mv vals) j fmc mc).
Proof.
  intros m kw kw' arr i vals j fmc mc ->.
  assert (G : forall r, answers_alike fresrel (basic_func r kw arr i vals j fmc mc)
    (basic_func r (mkKw (k_bn kw) (k_fn kw) (k_lev kw) (k_cp kw) (k_period kw) (k_short kw) (k_weights kw) (option_map f1 (k_number kw))) (mo arr) i (mv vals) j fmc mc))
    by (intros r; exact (basic_unit r kw arr i vals j fmc mc)).
  destruct m; cbn [step_func]; auto.
  - cbn [k_weights]. destruct (k_weights kw) eqn:EW; [|simpl; auto]. apply G.
  - simpl. auto.
  - apply func_last_unit.
  - eapply alike_bind; [apply linear_seg_unit|]. intros l l' _ _ ->. simpl. auto.
  - exact (spline_seg_unit kw arr i vals j fmc mc).
Qed.
Lemma step_loop_unit : forall fuel f func func' em i j full,
  (forall arr i j, answers_alike fresrel (func arr i j) (func' (mo arr) i j)) ->
  answers_alike cellrel (step_loop fuel f func em i j full) (step_loop fuel (fu f) func' em i j (mo full)).
Proof.
  induction fuel as [|fuel IH]; intros f func func' em i j full HF; cbn [step_loop fup_in_unit f_all f_indices f_values]; destruct (negb _); [simpl; auto..|].
  destruct (nth_error (f_indices f) j) as [x|]; [|simpl; auto]. destruct (x =? i); [apply (IH f); auto|]. destruct (i <? x); [|simpl; auto].
  pose proof (HF full i j) as H. destruct (func full i j) as [[v|l]|e], (func' (mo full) i j) as [r'|e']; simpl in H; try contradiction.
  - subst r'. cbn [fres_unit]. rewrite cells_upd. apply (IH f); auto.
  - subst r'. cbn [fres_unit]. rewrite unit_length, <- cells_some, cells_splice. apply (IH f); auto.
  - subst e'. assert (G : forall e0, answers_alike cellrel
      (match em with ERaise => Err e0 | ENone => step_loop fuel f func em (S i) j (upd full i None)
       | ELast => match func_last (f_values f) j with Ok (FScalar v) => step_loop fuel f func em (S i) j (upd full i v) | Ok (FList _) => Err OutOfFuel | Err e' => Err e' end end)
      (match em with ERaise => Err e0 | ENone => step_loop fuel (fu f) func' em (S i) j (upd (mo full) i None)
       | ELast => match func_last (mv (f_values f)) j with Ok (FScalar v) => step_loop fuel (fu f) func' em (S i) j (upd (mo full) i v) | Ok (FList _) => Err OutOfFuel | Err e' => Err e' end end)).
    { intros e0. destruct em; [simpl; auto| |].
      - change (upd (mo full) i None) with (upd (mo full) i (option_map f1 None)). rewrite cells_upd. apply IH; auto.
      - pose proof (func_last_unit (f_values f) j) as HL.
        destruct (func_last (f_values f) j) as [[v|l]|e1], (func_last (mv (f_values f)) j) as [r'|e1']; simpl in HL; try contradiction; subst; simpl; auto.
        rewrite cells_upd. apply IH; auto. }
    destruct e; try apply G. simpl. auto.
Qed.
Notation filledrel := (fun r r' : filled => r' = option_map (fun p => (mo (fst p), snd p)) r).
Lemma values_to_fill_unit : forall f, values_to_fill (fu f) = mo (values_to_fill f).
Proof.
  intros f. unfold values_to_fill. cbn [fup_in_unit f_indices f_values f_all]. rewrite combine_unit.
  replace (repeat (@None Qc) (f_all f)) with (mo (repeat None (f_all f))) at 1 by (unfold cells_in_unit; induction (f_all f); simpl; congruence).
  generalize (repeat (@None Qc) (f_all f)). induction (combine (f_indices f) (f_values f)) as [|p l IH]; intros acc; simpl; auto.
  rewrite (cells_upd acc (fst p) (Some (snd p)) : upd (mo acc) (fst p) (Some (f1 (snd p))) = _). apply IH.
Qed.
Lemma step_by_step_unit : forall f m em kw kw', kw_unit kw kw' ->
  answers_alike filledrel (step_by_step_fill_up spline f m em kw) (step_by_step_fill_up spline (fu f) m em kw').
Proof.
  intros f m [em|] kw kw' HK; [|simpl; auto]. unfold step_by_step_fill_up. cbn [fup_in_unit f_need]. destruct (f_need f); [|simpl; auto]. cbn [negb].
  eapply alike_bind.
  - change (mkFup (f_indices f) (mv (f_values f)) (f_all f) true (f_missing f) (f_tags f) (f_fmc f) (f_mc f)) with
      (mkFup (f_indices f) (mv (f_values f)) (f_all f) true (f_missing f) (f_tags f) (f_fmc f) (f_mc f)).
    cbn [f_all f_values f_fmc f_mc]. rewrite values_to_fill_unit. apply step_loop_unit.
    intros arr i j. apply step_func_unit; auto.
  - intros l l' _ _ ->. simpl. auto.
Qed.
Lemma entire_unit : forall f m em kw kw', kw_unit kw kw' ->
  answers_alike filledrel (entire_fill_up spline f m em kw) (entire_fill_up spline (fu f) m em kw').
Proof.
  intros f m em kw kw' HK. unfold entire_fill_up. cbv zeta. cbn [fup_in_unit f_values f_indices f_all f_tags].
  assert (G : forall r r', answers_alike listrel r r' -> answers_alike filledrel
    (match r with Ok l => Ok (Some (map Some l, f_tags f)) | Err e => match em with ERaise => Err e | ENone => Ok (Some (values_to_fill f, f_tags f)) | ELast => step_by_step_fill_up spline f MLast None kw end end)
    (match r' with Ok l => Ok (Some (map Some l, f_tags f)) | Err e => match em with ERaise => Err e | ENone => Ok (Some (values_to_fill (fu f), f_tags f)) | ELast => step_by_step_fill_up spline (fu f) MLast None kw' end end)).
  { intros [l|e] [l'|e'] H; simpl in H; try contradiction; subst.
    - simpl. rewrite cells_some. auto.
    - destruct em; simpl; auto. rewrite values_to_fill_unit. auto. }
  destruct m; apply G; [apply linear_entire_unit|apply spline_entire_unit].
Qed.

(** * The automatic mode *)
Lemma leb_unit : forall x y, Qcleb (f1 x) (f1 y) = Qcleb x y.
Proof. intros. apply eq_true_iff_eq. rewrite !Qcleb_le. split; intros H; [|qnra]. destruct (Qclt_le_dec' y x); auto. exfalso. qnra. Qed.
Lemma ltb_unit : forall x y, Qcltb (f1 x) (f1 y) = Qcltb x y.
Proof. intros. apply eq_true_iff_eq. rewrite !Qcltb_lt. split; intros H; [|qnra]. destruct (Qclt_le_dec' x y); auto. exfalso. qnra. Qed.
Lemma min_unit : forall x y, Qcmin (f1 x) (f1 y) = f1 (Qcmin x y).
Proof. intros. unfold Qcmin. rewrite leb_unit. destruct (x <=? y)%Qc; auto. Qed.
Lemma max_unit : forall x y, Qcmax (f1 x) (f1 y) = f1 (Qcmax x y).
Proof. intros. unfold Qcmax. rewrite leb_unit. destruct (x <=? y)%Qc; auto. Qed.
Lemma ascending_unit : forall l, is_ascending (mv l) = is_ascending l.
Proof. induction l as [|x [|y t] IH]; auto. cbn [in_unit map is_ascending] in *. rewrite leb_unit, IH. auto. Qed.
Lemma descending_unit : forall l, is_descending (mv l) = is_descending l.
Proof. induction l as [|x [|y t] IH]; auto. cbn [in_unit map is_descending] in *. rewrite leb_unit, IH. auto. Qed.
Lemma surrounding_unit : forall f full i m, surrounding (fu f) (mo full) i m = mv (surrounding f full i m).
Proof.
  intros. unfold surrounding. rewrite <- somes_unit. f_equal. unfold cells_in_unit. rewrite map_map. apply map_ext. intros z.
  cbn [fup_in_unit f_all f_tags]. destruct (_ && _); auto. apply cells_nth_d.
Qed.
Lemma clip_unit : forall full i m lo hi, clip_range (mo full) i m (f1 lo) (f1 hi) = mo (clip_range full i m lo hi).
Proof.
  intros. unfold clip_range, mapi, cells_in_unit. generalize 0. induction full as [|c l IH]; intros n; simpl; auto. rewrite IH. f_equal.
  destruct (_ && _); auto. destruct c as [v|]; auto. cbn [option_map]. f_equal. rewrite (max_unit v lo), (min_unit (Qcmax v lo) hi). auto.
Qed.
Lemma scatter_short_unit : forall f full i j m lo hi,
  answers_alike cellrel (scatter_short f full i j m lo hi) (scatter_short (fu f) (mo full) i j m (f1 lo) (f1 hi)).
Proof.
  intros. unfold scatter_short. cbv zeta. rewrite surrounding_unit, unit_length, ascending_unit, descending_unit.
  set (s := surrounding f full i m). eapply (alike_bind _ _ _ _ cellrel).
  - destruct (_ && _) eqn:E; [|simpl; auto]. apply andb_true_iff in E. destruct E as [E _]. apply Nat.ltb_lt in E.
    assert (NE : s <> []) by (intros X; rewrite X in E; simpl in E; lia).
    assert (H1 : hd 0%Qc (mv s) = f1 (hd 0%Qc s)) by (destruct s; [congruence|reflexivity]).
    assert (H2 : last (mv s) 0%Qc = f1 (last s 0%Qc)) by (apply (last_map _ _ f1); auto).
    rewrite H1, H2, min_unit, max_unit. set (mn := Qcmin _ _). set (mx := Qcmax _ _).
    assert (X : existsb (fun x => match nth x (mo full) None with Some v => Qcltb v (f1 mn) || Qcltb (f1 mx) v | None => false end) (seq i m) =
                existsb (fun x => match nth x full None with Some v => Qcltb v mn || Qcltb mx v | None => false end) (seq i m)).
    { induction (seq i m) as [|x l IH]; simpl; auto. rewrite IH, cells_nth_d. destruct (nth x full None); cbn [option_map]; auto. rewrite !ltb_unit. auto. }
    rewrite X. clear X. match goal with |- context [existsb ?F ?l] => destruct (existsb F l) end; [|simpl; auto].
    eapply alike_bind; [apply linear_seg_unit|]. intros l l' _ _ ->. cbn [answers_alike]. rewrite <- cells_some. apply cells_splice.
  - intros l l' _ _ ->. cbn [answers_alike]. apply clip_unit.
Qed.
Lemma repeat_none_unit : forall m, mo (repeat None m) = repeat None m.
Proof. induction m; simpl; auto. f_equal. auto. Qed.
Lemma scatter_loop_unit : forall fuel f period lo hi i j full,
  answers_alike cellrel (scatter_loop fuel f period lo hi i j full) (scatter_loop fuel (fu f) period (f1 lo) (f1 hi) i j (mo full)).
Proof.
  induction fuel as [|fuel IH]; intros; cbn [scatter_loop]; change (f_all (fu f)) with (f_all f); destruct (negb _); [simpl; auto..|].
  change (f_indices (fu f)) with (f_indices f). change (f_mc (fu f)) with (f_mc f).
  destruct (nth_error (f_indices f) j) as [x|]; [|simpl; auto]. destruct (x =? i); [apply IH|]. destruct (i <? x); [|simpl; auto]. cbv zeta.
  destruct (_ || _).
  - rewrite <- (repeat_none_unit (nth i (f_mc f) 0)) at 2. rewrite cells_splice. apply IH.
  - eapply alike_bind; [apply scatter_short_unit|]. intros l l' _ _ ->. apply IH.
Qed.
Lemma scatter_unit : forall f period, answers_alike cellrel (scatter_fill_up spline f period) (scatter_fill_up spline (fu f) period).
Proof.
  intros. unfold scatter_fill_up. change (f_indices (fu f)) with (f_indices f). change (f_all (fu f)) with (f_all f). change (f_values (fu f)) with (mv (f_values f)).
  eapply alike_bind; [apply spline_entire_unit|]. intros l l' E _ ->.
  assert (NE : f_values f <> []) by (intros X; rewrite X in E; discriminate).
  unfold in_unit at 1 2. rewrite qmin_map, qmax_map by auto. rewrite <- cells_some. apply scatter_loop_unit.
Qed.
Lemma known_indices_unit : forall l, known_indices (mo l) = known_indices l.
Proof.
  intros. unfold known_indices. rewrite cells_length. apply filter_ext. intros i. rewrite cells_nth_d. destruct (nth i l None); auto.
Qed.
Lemma get_values_some : forall l, get_values (map Some l) = Ok l.
Proof. induction l as [|x l IH]; simpl; auto. rewrite IH. auto. Qed.
Notation fuprel := (fun f f' => f' = fu f).
Lemma refup_unit : forall l, answers_alike fuprel (refup l) (refup (mo l)).
Proof.
  intros. unfold refup. rewrite known_indices_unit, somes_unit. unfold make_fup.
  destruct (map Z.of_nat (known_indices l)) as [|i0 rest]; [simpl; auto|]. rewrite !map_length, unit_length.
  destruct (negb _); [simpl; auto|]. rewrite !get_values_some. cbn [bind].
  destruct (scan i0 rest false 0) as [[found cnt]|e]; cbn [bind]; [|simpl; auto]. destruct (negb (i0 =? 0)%Z); [simpl; auto|]. cbv zeta.
  destruct (_ || _); [simpl; auto|]. destruct (tag_loop _ _ _ _) as [tl|e]; simpl; auto.
Qed.
Lemma auto_body_unit : forall f period, answers_alike cellrel (auto_body spline f period) (auto_body spline (fu f) period).
Proof.
  intros. unfold auto_body. destruct (period >? 1)%Z.
  - eapply alike_bind; [apply scatter_unit|]. intros s s' _ _ ->. eapply alike_bind; [apply refup_unit|]. intros p1 p1' _ _ ->.
    change (f_need (fu p1)) with (f_need p1).
    eapply (alike_bind _ _ _ _ cellrel).
    + destruct (f_need p1); [|rewrite somes_unit, <- cells_some; simpl; auto].
      eapply alike_bind; [apply (step_by_step_unit p1 MWeightedAvg (Some ENone) (auto_kw period) (auto_kw period)); reflexivity|].
      intros r r' _ _ ->. destruct r as [[l t]|]; simpl; auto.
    + intros l1 l1' _ _ ->. eapply alike_bind; [apply refup_unit|]. intros p2 p2' _ _ ->. change (f_need (fu p2)) with (f_need p2).
      destruct (f_need p2); [|rewrite somes_unit, <- cells_some; simpl; auto].
      eapply alike_bind; [apply (entire_unit p2 MLinear ERaise (auto_kw period) (auto_kw period)); reflexivity|].
      intros r r' _ _ ->. destruct r as [[l t]|]; simpl; auto.
  - change (f_values (fu f)) with (mv (f_values f)). change (f_indices (fu f)) with (f_indices f). change (f_all (fu f)) with (f_all f).
    eapply alike_bind; [apply linear_entire_unit|]. intros l l' _ _ ->. cbn [answers_alike]. rewrite cells_some. auto.
Qed.
Lemma auto_unit : forall f em period kw kw', kw_unit kw kw' ->
  answers_alike filledrel (auto_fill_up spline f em period kw) (auto_fill_up spline (fu f) em period kw').
Proof.
  intros f em period kw kw' HK. unfold auto_fill_up. pose proof (auto_body_unit f period) as H.
  destruct (auto_body spline f period) as [l|e], (auto_body spline (fu f) period) as [l'|e']; simpl in H; try contradiction; subst; [simpl; auto|].
  destruct em; simpl; auto. rewrite values_to_fill_unit. auto.
Qed.
Lemma fill_up_unit : forall f m em kw kw', kw_unit kw kw' ->
  answers_alike filledrel (fill_up spline f m em kw) (fill_up spline (fu f) m em kw').
Proof.
  intros f m em kw kw' ->. unfold fill_up. change (f_need (fu f)) with (f_need f). destruct (negb _); [simpl; auto|]. cbn [k_period].
  apply (alike_bind _ _ _ _ eq); [apply alike_eq|]. intros p p' _ _ <-. cbv zeta. cbn [k_bn k_fn k_lev k_cp k_short k_weights k_number].
  destruct m; [apply auto_unit|apply entire_unit|apply step_by_step_unit|simpl; auto]; reflexivity.
Qed.
Lemma fill_on_demand_unit : forall f mode fixed period,
  answers_alike filledrel (fill_up_on_demand spline f mode fixed period) (fill_up_on_demand spline (fu f) mode (option_map f1 fixed) period).
Proof. intros. destruct mode; cbn [fill_up_on_demand]; try (apply fill_up_unit; reflexivity); simpl; auto. Qed.
End Fill.
