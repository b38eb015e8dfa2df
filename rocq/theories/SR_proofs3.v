(** Affine data and quantiles, for the padding of the spectral residual
    detector. *)
From Coq Require Import List Arith ZArith QArith Qcanon Qround Lia Bool Sorted Permutation.
From Verif Require Import Base Num Sorting Kernel_model Kernel_proofs Kernel_proofs2 Kernel_proofs5 Helpers_model Helpers_spec Helpers_proofs
  Helpers_proofs2 Helpers_props Margins_model SR_model SR_spec SR_spec2 SR_proofs SR_proofs2.
Import ListNotations.
Open Scope nat_scope.

Lemma two_qc : (Q2Qc 2 = 1 + 1)%Qc. Proof. apply Qc_is_canon; reflexivity. Qed.
Lemma two_neq : ((1 + 1)%Qc <> 0)%Qc. Proof. intro X. apply (f_equal this) in X. discriminate X. Qed.

Lemma median_map_affine : forall k c s, s <> [] ->
  median_of_sorted (map (fun x => k * x + c)%Qc s) = (k * median_of_sorted s + c)%Qc.
Proof.
  intros k c s NE. unfold median_of_sorted. rewrite map_length.
  assert (L : 0 < length s) by (destruct s; simpl; [congruence|lia]).
  assert (N : forall j, j < length s -> nth j (map (fun x => k * x + c)%Qc s) 0%Qc = (k * nth j s 0 + c)%Qc).
  { intros j Hj. rewrite (nth_indep _ _ (k * 0 + c)%Qc) by (rewrite map_length; auto).
    apply (map_nth (fun x => k * x + c)%Qc). }
  assert (D : length s / 2 < length s) by (apply Nat.div_lt; lia).
  destruct (Nat.odd (length s)) eqn:O; rewrite !N by lia; auto.
  set (u := nth (length s / 2 - 1) s 0%Qc). set (v := nth (length s / 2) s 0%Qc). rewrite two_qc. field. apply two_neq.
Qed.

Lemma qmedian_affine : forall k c l, l <> [] -> qmedian (map (fun x => k * x + c)%Qc l) = (k * qmedian l + c)%Qc.
Proof.
  intros k c l NE. unfold qmedian.
  assert (NS : qsort l <> []) by (intros X; apply NE; apply length_zero_iff_nil; rewrite <- (qsort_length l), X; auto).
  rewrite <- median_map_affine by auto. destruct (Qclt_le_dec k 0) as [K|K].
  - rewrite <- (median_of_sorted_rev (map _ (qsort l))). f_equal.
    apply qsorted_unique; [apply qsort_sorted| |].
    + pose proof (qsort_sorted l) as SS. clear NS. induction SS as [|a r SS IH F]; simpl; [constructor|].
      assert (G : forall A (R : A -> A -> Prop) l x, StronglySorted R l -> (forall y, In y l -> R y x) -> StronglySorted R (l ++ [x])).
      { clear. induction l as [|y t IH]; intros x HS HX; simpl; [repeat constructor|].
        inversion HS as [|? ? S' F]; subst. constructor; [apply IH; auto; intros z I; apply HX; right; auto|].
        apply Forall_app. split; auto. constructor; auto. apply HX. left. auto. }
      apply G; auto. intros y Hy. apply in_rev in Hy. apply in_map_iff in Hy. destruct Hy as (x & <- & Hx).
      rewrite Forall_forall in F. specialize (F x Hx). qnra.
    + etransitivity; [symmetry; apply qsort_perm|]. etransitivity; [|apply Permutation_rev]. apply Permutation_map, qsort_perm.
  - f_equal. apply (qsort_map_mono (fun x => k * x + c)%Qc). intros x y XY. qnra.
Qed.

Lemma mapi_from_map : forall A B C (f : nat -> B -> C) (g : A -> B) l k, mapi_from k f (map g l) = mapi_from k (fun i x => f i (g x)) l.
Proof. induction l as [|x t IH]; intros k; cbn; auto. rewrite IH. auto. Qed.
Lemma firstn_map' : forall A B (f : A -> B) l n, firstn n (map f l) = map f (firstn n l).
Proof. induction l as [|x t IH]; intros [|n]; cbn; auto. rewrite IH. auto. Qed.
Lemma last_map : forall A B (f : A -> B) l d e, l <> [] -> last (map f l) e = f (last l d).
Proof.
  induction l as [|x t IH]; intros d e NE; [congruence|]. destruct t as [|y u]; auto.
  change (last (map f (y :: u)) e = f (last (y :: u) d)). apply IH. discriminate.
Qed.
Lemma slopes_affine : forall (k c v : Qc) n l j, j + length l <= n - 1 ->
  qsum (mapi_from j (fun i x => ((k * v + c) - (k * x + c)) / qn (n - 1 - i))%Qc l) =
  (k * qsum (mapi_from j (fun i x => (v - x) / qn (n - 1 - i))%Qc l))%Qc.
Proof.
  induction l as [|x t IH]; intros j H; cbn [mapi_from].
  - cbn. ring.
  - cbn [length] in H. change (qsum (?a :: ?b)) with (a + qsum b)%Qc. rewrite IH by lia.
    cbn [qsum fold_right]. fold (qsum (mapi_from (S j) (fun (i : nat) (x0 : Qc) => ((v - x0) / qn (n - 1 - i))%Qc) t)).
    field. apply qn_neq0. lia.
Qed.

Lemma predict_affine : forall k c l p, predict_next l = Ok p -> predict_next (map (fun x => k * x + c)%Qc l) = Ok (k * p + c)%Qc.
Proof.
  intros k c l p H. unfold predict_next in *. rewrite map_length. cbv zeta in *.
  destruct (length l <=? 1) eqn:E; [discriminate|]. apply Nat.leb_gt in E. injection H as <-. f_equal.
  assert (NE : l <> []) by (intros ->; cbn in E; lia).
  rewrite qmedian_affine by auto. rewrite (last_map _ _ _ l 0%Qc) by auto. rewrite firstn_map'. unfold mapi. rewrite mapi_from_map.
  rewrite slopes_affine by (rewrite firstn_length; lia). field. apply qn_neq0. lia.
Qed.

Lemma nth_qn : forall n j, j < n -> nth j (map qn (range n)) 0%Qc = qn j.
Proof.
  intros n j H. rewrite (nth_indep _ _ (qn 0)) by (rewrite map_length; unfold range; rewrite seq_length; auto).
  rewrite map_nth. unfold range. rewrite seq_nth; auto.
Qed.
Lemma range_sorted : forall n, qsorted (map qn (range n)).
Proof.
  intros n. unfold range. generalize 0 as k. induction n as [|n IH]; intros k; cbn [List.seq map]; [constructor|]. constructor; [apply IH|].
  apply Forall_forall. intros y Y. apply in_map_iff in Y. destruct Y as (j & <- & J). apply in_seq in J. apply qn_le. lia.
Qed.
Lemma median_range : forall n, 0 < n -> (Q2Qc 2 * qmedian (map qn (range n)) = qn (n - 1))%Qc.
Proof.
  intros n H. unfold qmedian. rewrite (qsort_of_sorted _ (range_sorted n)). unfold median_of_sorted.
  assert (LR : length (map qn (range n)) = n) by (rewrite map_length; unfold range; apply seq_length). rewrite LR.
  pose proof (Nat.div_mod n 2 ltac:(lia)) as D. pose proof (Nat.mod_upper_bound n 2 ltac:(lia)).
  rewrite <- mod2_odd. assert (n / 2 < n) by (apply Nat.div_lt; lia).
  destruct (n mod 2 =? 1) eqn:E; rewrite ?Nat.eqb_eq, ?Nat.eqb_neq in E.
  - rewrite nth_qn by auto. rewrite two_qc. replace (n - 1) with (n / 2 + n / 2) by lia. rewrite qn_add. ring.
  - rewrite !nth_qn by lia. rewrite two_qc. replace (n - 1) with ((n / 2 - 1) + n / 2) by lia. rewrite qn_add. field. apply two_neq.
Qed.
Lemma slopes_line : forall n m j, j + m <= n - 1 ->
  qsum (mapi_from j (fun i x => (qn (n - 1) - x) / qn (n - 1 - i))%Qc (map qn (List.seq j m))) = qn m.
Proof.
  induction m as [|m IH]; intros j H; cbn [List.seq map mapi_from]; [reflexivity|].
  cbn [qsum fold_right]. fold (qsum (mapi_from (S j) (fun (i : nat) (x0 : Qc) => ((qn (n - 1) - x0) / qn (n - 1 - i))%Qc) (map qn (List.seq (S j) m)))).
  rewrite IH by lia.
  assert (X : (qn (n - 1) - qn j = qn (n - 1 - j))%Qc).
  { assert (Y : qn (n - 1) = qn ((n - 1 - j) + j)) by (f_equal; lia). rewrite Y, qn_add. ring. }
  rewrite X. replace (S m) with (1 + m) by lia. rewrite qn_add. change (qn 1) with 1%Qc. field. apply qn_neq0. lia.
Qed.
Lemma firstn_seq' : forall n k m, n <= m -> firstn n (List.seq k m) = List.seq k n.
Proof. induction n as [|n IH]; intros k [|m] H; try lia; auto. cbn [List.seq firstn]. rewrite IH by lia. auto. Qed.
Lemma predict_range : forall n, 2 <= n -> predict_next (map qn (range n)) = Ok (qn n).
Proof.
  intros n H. unfold predict_next. cbv zeta.
  assert (LN : length (map qn (range n)) = n) by (rewrite map_length; unfold range; apply seq_length). rewrite LN.
  assert (E : (n <=? 1) = false) by (apply Nat.leb_gt; lia). rewrite E. f_equal.
  rewrite (last_map _ _ qn (range n) 0).
  2:{ unfold range. destruct n; [lia|discriminate]. }
  assert (LR : last (range n) 0 = n - 1).
  { unfold range. replace n with (S (n - 1)) at 1 by lia. rewrite seq_S, last_last. lia. }
  rewrite LR.
  rewrite firstn_map'. unfold range at 2. rewrite firstn_seq' by lia. unfold mapi.
  rewrite slopes_line by lia. pose proof (median_range n ltac:(lia)) as M. rewrite two_qc in M.
  assert (H2 : (Q2Qc (1 # 2) = 1 / (1 + 1))%Qc) by (apply Qc_is_canon; reflexivity).
  assert (M' : (qmedian (map qn (range n)) = qn (n - 1) / (1 + 1))%Qc) by (rewrite <- M; field; apply two_neq).
  rewrite M', H2. rewrite qn_add. assert (N : qn n = (qn (n - 1) + 1)%Qc) by (replace n with ((n - 1) + 1) at 1 by lia; rewrite qn_add; reflexivity).
  rewrite N. change (qn 1) with 1%Qc. field. split; first [apply two_neq | apply qn_neq0; lia | intro X; apply (f_equal this) in X; discriminate X].
Qed.

(** * Quantiles *)
Lemma np_quantile_spec : forall l q x, np_quantile l q = Ok x -> (0 <= q)%Qc -> (q < 1)%Qc -> quantile l q x.
Proof.
  intros l q x H Q0 Q1. unfold np_quantile in H. cbv zeta in H.
  set (h := (qn (length l - 1) * q)%Qc) in *. set (k := Z.to_nat (Qfloor (this h))) in *.
  pose proof (qn_nonneg (length l - 1)) as NN. assert (H0 : (0 <= h)%Qc) by (unfold h; qnra).
  destruct (qfloor_bounds h) as [A B].
  assert (KZ : Z.of_nat k = Qfloor (this h)).
  { unfold k. apply Z2Nat.id. assert (X : (qz 0 < qz (Qfloor (this h) + 1))%Qc).
    { assert (Y : qz (Qfloor (this h) + 1) = (qz (Qfloor (this h)) + 1)%Qc).
      { rewrite qz_add. reflexivity. } rewrite Y. change (qz 0) with 0%Qc. qlra. }
    apply qz_lt in X. lia. }
  assert (KQ : qn k = qz (Qfloor (this h))) by (unfold qn; rewrite KZ; auto). rewrite <- KQ in A, B.
  destruct (get (qsort l) k) as [a|] eqn:GA; [|discriminate]. rewrite bind_ok in H. apply get_ok in GA.
  pose proof (nth_error_lt _ _ _ _ GA) as LA. rewrite qsort_length in LA.
  exists (qsort l), k, (h - qn k)%Qc. split; [symmetry; apply qsort_perm|]. split; [apply qsort_sorted|].
  split; [fold h; ring|]. split; [qlra|]. split; [qlra|]. split; auto.
  apply nth_error_nth with (d := 0%Qc) in GA.
  destruct (length l <=? S k) eqn:E.
  - apply Nat.leb_le in E. injection H as <-. rewrite GA.
    assert (HK : (h <= qn k)%Qc). { assert (EK : k = length l - 1) by lia. rewrite EK. unfold h. qnra. }
    assert (HH : h = qn k) by (apply Qcle_antisym; auto). rewrite HH. ring.
  - apply Nat.leb_gt in E. destruct (get (qsort l) (S k)) as [b|] eqn:GB; [|discriminate]. rewrite bind_ok in H. apply get_ok in GB.
    apply nth_error_nth with (d := 0%Qc) in GB. injection H as <-. rewrite GA. replace (k + 1) with (S k) by lia. rewrite GB. ring.
Qed.

Lemma ahead_spec : forall (P : Qc -> Prop) mn mx pad, (forall v, P v <-> (mn <= v)%Qc /\ (v <= mx)%Qc) ->
  forall rv i acc, exists w, ahead_loop rv mn mx pad i acc = w ++ acc /\ last_inliers P pad (rev rv) i w.
Proof.
  intros P mn mx pad HP. induction rv as [|v t IH]; intros i acc; destruct i as [|i]; cbn [ahead_loop].
  - exists []. split; auto. constructor.
  - exists (repeat pad (S i)). split; auto. constructor.
  - exists []. split; auto. constructor.
  - cbn [rev]. destruct ((mn <=? v)%Qc && (v <=? mx)%Qc) eqn:E.
    + apply andb_prop in E. destruct E as [E1 E2]. apply Qcleb_le in E1, E2.
      destruct (IH i (v :: acc)) as (w & -> & W). exists (w ++ [v]). split; [rewrite <- app_assoc; auto|].
      constructor; auto. apply HP. auto.
    + destruct (IH (S i) acc) as (w & -> & W). exists w. split; auto. apply li_skip; auto.
      intros X. apply HP in X. destruct X as [X1 X2]. apply Qcleb_le in X1, X2. rewrite X1, X2 in E. discriminate.
Qed.
