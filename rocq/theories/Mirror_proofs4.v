(** Turning a series upside down: filling the gaps. *)
From Coq Require Import String List Arith ZArith QArith Qcanon Qround Lia Lqa Bool Sorted Permutation.
From Verif Require Import Base Num Sorting FillUp_model Helpers_model Margins_model SR_proofs SR_proofs3 Period_proofs3 Units_spec Units_proofs Units_proofs2 Units_proofs3
  Mirror_spec Mirror_proofs Mirror_proofs2 Mirror_proofs3.
Import ListNotations.
Open Scope nat_scope.

Section Fill.
Notation f1 := (fun x : Qc => (minus * x + 0)%Qc).
Notation mo := (cells_in_unit minus 0).
Notation mv := (in_unit minus 0).
Notation fu := (fup_in_unit minus 0).
Variable spline : list nat -> list Qc -> nat -> Qc.
Hypothesis SP : spline_in_unit minus 0 spline.
Notation cellrel := (fun o o' => o' = mo o).
Notation fresrel := (fun r r' => r' = fres_unit minus 0 r).
Notation filledrel := (fun r r' : filled => r' = option_map (fun p => (mo (fst p), snd p)) r).

Lemma average_mir : forall kw arr i vals j fmc mc,
  answers_alike fresrel (basic_func RAverage kw arr i vals j fmc mc) (basic_func RAverage kw (mo arr) i (mv vals) j fmc mc).
Proof.
  intros. unfold basic_func. cbv zeta. eapply alike_bind; [apply get_bf_unit|]. intros bf bf' _ _ ->.
  destruct bf as [[x y]|]; cbn [option_map fst snd]; [|simpl; auto]. rewrite <- unit_app, !unit_length.
  destruct (k_weights kw) as [ws|].
  - destruct (negb _); [simpl; auto|]. eapply alike_bind; [apply average_w_unit|]. intros v v' _ _ ->. simpl. auto.
  - assert (G : answers_alike (fun x x' => x' = f1 x) (reduce RAverage (x ++ y)) (reduce RAverage (mv (x ++ y)))).
    { destruct (x ++ y) as [|a l] eqn:E; [simpl; auto|]. rewrite <- E. assert (NE : x ++ y <> []) by (rewrite E; discriminate).
      assert (R : forall l, l <> [] -> reduce RAverage l = Ok (qmean l)) by (intros [|? ?] N; [congruence|reflexivity]).
      rewrite !R by (auto; rewrite E; discriminate). cbn [answers_alike]. unfold in_unit. apply qmean_affine; auto. }
    eapply alike_bind; [exact G|]. intros v v' _ _ ->. simpl. auto.
Qed.
Definition sideless (m : step_method) : bool := match m with MLast | MConstant | MWeightedAvg => true | _ => false end.
Lemma step_func_mir : forall m kw kw' arr i vals j fmc mc, sideless m = true -> kw_unit minus 0 kw kw' ->
  answers_alike fresrel (step_func spline m kw arr i vals j fmc mc) (step_func spline m kw' (mo arr) i (mv vals) j fmc mc).
Proof.
  intros m kw kw' arr i vals j fmc mc SL ->. destruct m; try discriminate; cbn [step_func].
  - cbn [k_weights]. pose proof (average_mir kw arr i vals j fmc mc) as G. destruct kw as [? ? ? ? ? ? [w|] ?]; [|simpl; auto]. exact G.
  - simpl. auto.
  - apply func_last_unit.
Qed.
Lemma step_by_step_mir : forall f m em kw kw', sideless m = true -> kw_unit minus 0 kw kw' ->
  answers_alike filledrel (step_by_step_fill_up spline f m em kw) (step_by_step_fill_up spline (fu f) m em kw').
Proof.
  intros f m [em|] kw kw' SL HK; [|simpl; auto]. unfold step_by_step_fill_up. cbn [fup_in_unit f_need]. destruct (f_need f); [|simpl; auto]. cbn [negb].
  eapply alike_bind.
  - cbn [f_all f_values f_fmc f_mc]. rewrite (values_to_fill_unit minus 0 f : values_to_fill (fu f) = _). apply step_loop_unit.
    intros arr i j. apply step_func_mir; auto.
  - intros l l' _ _ ->. simpl. auto.
Qed.

Lemma leb_mir : forall x y, Qcleb (f1 x) (f1 y) = Qcleb y x.
Proof. intros. cbv beta. rewrite !minus0. apply eq_true_iff_eq. rewrite !Qcleb_le. split; intros H; qlra. Qed.
Lemma ltb_mir : forall x y, Qcltb (f1 x) (f1 y) = Qcltb y x.
Proof. intros. cbv beta. rewrite !minus0. apply eq_true_iff_eq. rewrite !Qcltb_lt. split; intros H; qlra. Qed.
Lemma qcmin_mir : forall x y, Qcmin (f1 x) (f1 y) = f1 (Qcmax x y).
Proof. intros. unfold Qcmin, Qcmax. rewrite leb_mir. destruct (y <=? x)%Qc eqn:A, (x <=? y)%Qc eqn:B; auto; qb_hyps; f_equal; f_equal; try qlra. Qed.
Lemma qcmax_mir : forall x y, Qcmax (f1 x) (f1 y) = f1 (Qcmin x y).
Proof. intros. unfold Qcmin, Qcmax. rewrite leb_mir. destruct (y <=? x)%Qc eqn:A, (x <=? y)%Qc eqn:B; auto; qb_hyps; f_equal; f_equal; try qlra. Qed.
Lemma ascending_mir : forall l, is_ascending (mv l) = is_descending l.
Proof. induction l as [|x [|y t] IH]; auto. cbn [in_unit map is_ascending is_descending] in *. rewrite leb_mir, IH. auto. Qed.
Lemma descending_mir : forall l, is_descending (mv l) = is_ascending l.
Proof. induction l as [|x [|y t] IH]; auto. cbn [in_unit map is_ascending is_descending] in *. rewrite leb_mir, IH. auto. Qed.
Lemma clip_mir : forall v lo hi, (lo <= hi)%Qc -> Qcmin (Qcmax (f1 v) (f1 hi)) (f1 lo) = f1 (Qcmin (Qcmax v lo) hi).
Proof. 
  intros v lo hi H. cbv beta. rewrite (qcmax_mir v hi), (qcmin_mir (Qcmin v hi) lo). cbv beta. f_equal. f_equal. apply Qcle_antisym.
  - apply Qcmax_lub; [apply Qcmin_glb; [|apply Qcmin_r]|apply Qcmin_glb; [apply Qcmax_r|auto]].
    eapply Qcle_trans; [apply Qcmin_l|apply Qcmax_l].
  - destruct (Qclt_le_dec' v lo).
    + eapply Qcle_trans; [apply Qcmin_l|]. apply Qcmax_lub; [|apply Qcmax_r]. eapply Qcle_trans; [|apply Qcmax_r]. qlra.
    + eapply Qcle_trans; [|apply Qcmax_l]. apply Qcmin_glb; [|apply Qcmin_r]. eapply Qcle_trans; [apply Qcmin_l|]. apply Qcmax_lub; [apply Qcle_refl|auto].
Qed.
Lemma clip_range_mir : forall full i m lo hi, (lo <= hi)%Qc -> clip_range (mo full) i m (f1 hi) (f1 lo) = mo (clip_range full i m lo hi).
Proof.
  intros full i m lo hi LH. unfold clip_range, mapi, cells_in_unit. generalize 0. induction full as [|c l IH]; intros n; simpl; auto. rewrite IH. f_equal.
  destruct (_ && _); auto. destruct c as [v|]; auto. cbn [option_map]. f_equal. apply clip_mir; auto.
Qed.
Lemma scatter_short_mir : forall f full i j m lo hi, (lo <= hi)%Qc ->
  answers_alike cellrel (scatter_short f full i j m lo hi) (scatter_short (fu f) (mo full) i j m (f1 hi) (f1 lo)).
Proof.
  intros f full i j m lo hi LH. unfold scatter_short. cbv zeta. rewrite (surrounding_unit minus 0 f full i m), unit_length, ascending_mir, descending_mir.
  rewrite (orb_comm (is_descending _)). set (s := surrounding f full i m). eapply (alike_bind _ _ _ _ cellrel).
  - destruct (_ && _) eqn:E; [|simpl; auto]. apply andb_true_iff in E. destruct E as [E _]. apply Nat.ltb_lt in E.
    assert (NE : s <> []) by (intros X; rewrite X in E; simpl in E; lia).
    assert (H1 : hd 0%Qc (mv s) = f1 (hd 0%Qc s)) by (destruct s; [congruence|reflexivity]).
    assert (H2 : last (mv s) 0%Qc = f1 (last s 0%Qc)) by (apply (last_map _ _ f1); auto).
    rewrite H1, H2, qcmin_mir, qcmax_mir. set (mn := Qcmin _ _). set (mx := Qcmax _ _).
    assert (X : existsb (fun x => match nth x (mo full) None with Some v => Qcltb v (f1 mx) || Qcltb (f1 mn) v | None => false end) (seq i m) =
                existsb (fun x => match nth x full None with Some v => Qcltb v mn || Qcltb mx v | None => false end) (seq i m)).
    { induction (seq i m) as [|x l IH]; simpl; auto. rewrite IH, cells_nth_d. destruct (nth x full None); cbn [option_map]; auto. rewrite !ltb_mir.
      f_equal. apply orb_comm. }
    rewrite X. clear X. match goal with |- context [existsb ?F ?l] => destruct (existsb F l) end; [|simpl; auto].
    eapply alike_bind; [apply (linear_seg_unit minus 0)|]. intros l l' _ _ ->. cbn [answers_alike]. rewrite <- cells_some. apply cells_splice.
  - intros l l' _ _ ->. cbn [answers_alike]. apply clip_range_mir; auto.
Qed.
Lemma scatter_loop_mir : forall fuel f period lo hi i j full, (lo <= hi)%Qc ->
  answers_alike cellrel (scatter_loop fuel f period lo hi i j full) (scatter_loop fuel (fu f) period (f1 hi) (f1 lo) i j (mo full)).
Proof.
  induction fuel as [|fuel IH]; intros; cbn [scatter_loop]; change (f_all (fu f)) with (f_all f); destruct (negb _); [simpl; auto..|].
  change (f_indices (fu f)) with (f_indices f). change (f_mc (fu f)) with (f_mc f).
  destruct (nth_error (f_indices f) j) as [x|]; [|simpl; auto]. destruct (x =? i); [apply IH; auto|]. destruct (i <? x); [|simpl; auto]. cbv zeta.
  destruct (_ || _).
  - rewrite <- (repeat_none_unit minus 0 (nth i (f_mc f) 0)) at 2. rewrite cells_splice. apply IH; auto.
  - eapply alike_bind; [apply scatter_short_mir; auto|]. intros l l' _ _ ->. apply IH; auto.
Qed.
Lemma scatter_mir : forall f period, answers_alike cellrel (scatter_fill_up spline f period) (scatter_fill_up spline (fu f) period).
Proof.
  intros. unfold scatter_fill_up. change (f_indices (fu f)) with (f_indices f). change (f_all (fu f)) with (f_all f). change (f_values (fu f)) with (mv (f_values f)).
  eapply alike_bind; [apply (spline_entire_unit minus 0); auto|]. intros l l' E _ ->.
  assert (NE : f_values f <> []) by (intros X; rewrite X in E; discriminate).
  rewrite max_mir, min_mir by auto. rewrite <- cells_some.
  replace (0 - qmax_list (f_values f))%Qc with (f1 (qmax_list (f_values f))) by (cbv beta; rewrite minus0; ring).
  replace (0 - qmin_list (f_values f))%Qc with (f1 (qmin_list (f_values f))) by (cbv beta; rewrite minus0; ring).
  apply scatter_loop_mir. apply qmin_list_le. apply qmax_list_in; auto.
Qed.
Lemma auto_body_mir : forall f period, answers_alike cellrel (auto_body spline f period) (auto_body spline (fu f) period).
Proof.
  intros. unfold auto_body. destruct (period >? 1)%Z.
  - eapply alike_bind; [apply scatter_mir|]. intros s s' _ _ ->. eapply alike_bind; [apply refup_unit|]. intros p1 p1' _ _ ->.
    change (f_need (fu p1)) with (f_need p1).
    eapply (alike_bind _ _ _ _ cellrel).
    + destruct (f_need p1); [|rewrite somes_unit, <- cells_some; simpl; auto].
      eapply alike_bind; [apply (step_by_step_mir p1 MWeightedAvg (Some ENone) (auto_kw period) (auto_kw period)); reflexivity|].
      intros r r' _ _ ->. destruct r as [[l t]|]; simpl; auto.
    + intros l1 l1' _ _ ->. eapply alike_bind; [apply refup_unit|]. intros p2 p2' _ _ ->. change (f_need (fu p2)) with (f_need p2).
      destruct (f_need p2); [|rewrite somes_unit, <- cells_some; simpl; auto].
      eapply alike_bind; [apply (entire_unit minus 0 spline SP p2 MLinear ERaise (auto_kw period) (auto_kw period)); reflexivity|].
      intros r r' _ _ ->. destruct r as [[l t]|]; simpl; auto.
  - change (f_values (fu f)) with (mv (f_values f)). change (f_indices (fu f)) with (f_indices f). change (f_all (fu f)) with (f_all f).
    eapply alike_bind; [apply (linear_entire_unit minus 0)|]. intros l l' _ _ ->. cbn [answers_alike]. rewrite cells_some. auto.
Qed.
Lemma auto_mir : forall f em period kw kw', kw_unit minus 0 kw kw' ->
  answers_alike filledrel (auto_fill_up spline f em period kw) (auto_fill_up spline (fu f) em period kw').
Proof.
  intros f em period kw kw' HK. unfold auto_fill_up. pose proof (auto_body_mir f period) as H.
  destruct (auto_body spline f period) as [l|e], (auto_body spline (fu f) period) as [l'|e']; simpl in H; try contradiction; subst; [simpl; auto|].
  destruct em; simpl; auto. rewrite values_to_fill_unit. auto.
Qed.
Lemma fill_up_mir : forall f m em kw kw', (forall s, m = Step s -> sideless s = true) -> kw_unit minus 0 kw kw' ->
  answers_alike filledrel (fill_up spline f m em kw) (fill_up spline (fu f) m em kw').
Proof.
  intros f m em kw kw' SL ->. unfold fill_up. change (f_need (fu f)) with (f_need f). destruct (negb _); [simpl; auto|]. cbn [k_period].
  apply (alike_bind _ _ _ _ eq); [apply alike_eq|]. intros p p' _ _ <-. cbv zeta. cbn [k_bn k_fn k_lev k_cp k_short k_weights k_number].
  destruct m; [apply auto_mir|apply (entire_unit minus 0 spline SP)|apply step_by_step_mir; [apply SL; auto|]|simpl; auto]; reflexivity.
Qed.
Lemma fill_on_demand_mir : forall f mode fixed period,
  answers_alike filledrel (fill_up_on_demand spline f mode fixed period) (fill_up_on_demand spline (fu f) mode (option_map f1 fixed) period).
Proof.
  intros. destruct mode; cbn [fill_up_on_demand]; try (apply fill_up_mir; [intros s E; inversion E; reflexivity|reflexivity]); simpl; auto.
Qed.
End Fill.
