(** Lemmas about the spectral residual detector. *)
From Coq Require Import List Arith ZArith QArith Qcanon Qround Lia Bool Sorted Permutation.
From Verif Require Import Base Num Sorting Kernel_model FillUp_model Helpers_model Helpers_spec Helpers_proofs Helpers_proofs2 Helpers_props
  Margins_model SR_model SR_spec Detect_model Detect_spec Detect_proofs Detect_proofs2 Kernel_proofs.
Import ListNotations.
Open Scope nat_scope.

Lemma mapM2_from : forall A B C (f : A -> B -> res C) (g : nat -> C) a b k, length a = length b ->
  (forall i x y, nth_error a i = Some x -> nth_error b i = Some y -> f x y = Ok (g (k + i))) ->
  mapM2 f a b = Ok (map g (seq k (length a))).
Proof.
  intros A B C f g a. induction a as [|x s IH]; intros b k L H; destruct b as [|y t]; simpl in L; try discriminate L; auto.
  cbn [mapM2]. rewrite (H 0 x y) by auto. rewrite bind_ok. rewrite (IH t (S k)).
  - rewrite bind_ok. cbn [length seq map]. rewrite Nat.add_0_r. auto.
  - lia.
  - intros i u v U V. replace (S k + i) with (k + S i) by lia. apply H; auto.
Qed.

Lemma prefix_nth : forall l k, k <= length l -> nth_error (0%Qc :: cumsum 0%Qc l) k = Some (qsum (firstn k l)).
Proof.
  intros l [|k] H; auto. cbn [nth_error]. rewrite cumsum_nth by lia. f_equal. ring.
Qed.

Lemma slice_map : forall A B (f : A -> B) l a b, slice (map f l) a b = map f (slice l a b).
Proof. intros. unfold slice. rewrite skipn_map, firstn_map. auto. Qed.

Lemma combine_zip : forall A B (a : list A) (b : list B), map fst (combine a b) = firstn (length b) a.
Proof. induction a as [|x s IH]; intros [|y t]; simpl; auto. f_equal. auto. Qed.
Lemma combine_snd : forall A B (a : list A) (b : list B), length a = length b -> map snd (combine a b) = b.
Proof. induction a as [|x s IH]; intros [|y t] H; simpl in *; try discriminate; auto. f_equal. auto. Qed.
Lemma combine_fst : forall A B (a : list A) (b : list B), length a = length b -> map fst (combine a b) = a.
Proof. intros. rewrite combine_zip, <- H. apply firstn_all. Qed.
Lemma zip_with_combine : forall A B C (f : A -> B -> C) a b, zip_with f a b = map (fun p => f (fst p) (snd p)) (combine a b).
Proof. induction a as [|x s IH]; intros [|y t]; simpl; auto. f_equal. auto. Qed.
Lemma combine_map_r : forall A B C (f : B -> C) (a : list A) b, combine a (map f b) = map (fun p : A * B => (fst p, f (snd p))) (combine a b).
Proof. induction a as [|x s IH]; intros [|y t]; simpl; auto. f_equal. auto. Qed.

Lemma qsum_count : forall (P : list (Qc * bool)),
  qsum (map (fun p : Qc * bool => if snd p then 1%Qc else 0%Qc) P) = qn (length (filter snd P)).
Proof.
  induction P as [|[v b] t IH]; auto. cbn [map qsum filter snd]. rewrite IH. destruct b; cbn [length]; rewrite ?qn_S; ring.
Qed.
Lemma qsum_sel : forall (P : list (Qc * bool)),
  qsum (map (fun p : Qc * bool => if snd p then fst p else 0%Qc) P) = qsum (map fst (filter snd P)).
Proof.
  induction P as [|[v b] t IH]; auto. cbn [map qsum filter snd fst]. rewrite IH. destruct b; cbn [map qsum fst]; ring.
Qed.

(** The expected values before smoothing, in terms of the marks. *)
Definition marked_value (series : list Qc) (skel : list bool) (i : nat) : Qc :=
  if nth i skel true then nth i series 0%Qc else
  match map fst (filter snd (slice (combine series skel) (i / 2) (S i))) with
  | [] => qmean (firstn (S i) series)
  | w => qmean w
  end.

Lemma skeleton_expected_ok : forall series skel, length skel = length series ->
  skeleton_expected series skel = Ok (map (marked_value series skel) (range (length series))).
Proof.
  intros series skel L. unfold skeleton_expected. cbv zeta.
  set (P := combine series skel).
  assert (LP : length P = length series) by (unfold P; rewrite combine_length; lia).
  assert (ES : skel = map snd P) by (symmetry; apply combine_snd; auto).
  rewrite (zip_with_combine _ _ _ (fun v (b : bool) => if b then v else 0%Qc)). fold P.
  assert (EC : map (fun b : bool => if b then 1%Qc else 0%Qc) skel = map (fun p : Qc * bool => if snd p then 1%Qc else 0%Qc) P).
  { rewrite ES, map_map. auto. }
  rewrite EC.
  assert (LR : length (combine (range (length series)) series) = length series).
  { rewrite combine_length. unfold range. rewrite seq_length. lia. }
  transitivity (Ok (map (marked_value series skel) (seq 0 (length (combine (range (length series)) series))))).
  2:{ rewrite LR. auto. }
  apply mapM2_from; [lia|]. intros i [j v] b HA HB. rewrite Nat.add_0_l.
  assert (Hi : i < length series) by (rewrite <- L; apply (nth_error_lt _ _ _ _ HB)).
  assert (J : j = i /\ nth_error series i = Some v).
  { assert (X : nth_error (map fst (combine (range (length series)) series)) i = Some j) by (rewrite nth_error_map, HA; auto).
    assert (Y : nth_error (map snd (combine (range (length series)) series)) i = Some v) by (rewrite nth_error_map, HA; auto).
    rewrite combine_fst in X by (unfold range; rewrite seq_length; auto).
    rewrite combine_snd in Y by (unfold range; rewrite seq_length; auto).
    unfold range in X. rewrite nth_error_seq in X. assert (Z : (i <? length series) = true) by (apply Nat.ltb_lt; auto).
    rewrite Z in X. inversion X as [X1]. rewrite <- X1. auto. }
  destruct J as [-> EV]. cbn [fst snd]. unfold marked_value.
  rewrite (nth_error_nth_d _ _ _ _ true HB). destruct b.
  { f_equal. symmetry. apply nth_error_nth_d; auto. }
  assert (D : i / 2 <= i) by (apply Nat.div_le_upper_bound; lia).
  assert (G : forall l k, k <= length l -> get (0%Qc :: cumsum 0%Qc l) k = Ok (qsum (firstn k l))).
  { intros l k K. apply get_ok. apply prefix_nth. auto. }
  rewrite !G by (rewrite map_length; lia). repeat rewrite bind_ok.
  rewrite <- !qsum_slice by lia. rewrite !slice_map, qsum_count, qsum_sel.
  fold P. set (W := filter snd (slice P (i / 2) (S i))).
  destruct W as [|w W']; [cbn [length map]; rewrite qn_0, Qceqb_refl; auto|].
  assert (Z : (qn (length (w :: W')) =? 0)%Qc = false).
  { apply Qceqb_neq. apply qn_neq0. simpl. lia. }
  rewrite Z. cbn [map]. unfold qmean. cbn [length]. rewrite map_length. auto.
Qed.

Lemma marked_local : forall series scores i, length scores = length series -> i < length series ->
  marked_value series (map (fun s => (s <=? SKELETON)%Qc) scores) i = local_value series scores i.
Proof.
  intros series scores i L Hi. unfold marked_value, local_value, skeleton_values.
  destruct (nth_error_ex _ scores i) as [s Hs]; [lia|].
  rewrite (nth_error_nth_d _ _ _ (s <=? SKELETON)%Qc true) by (rewrite nth_error_map, Hs; auto).
  rewrite (nth_error_nth_d _ _ _ _ 0%Qc Hs). unfold SKELETON at 1. destruct (s <=? 1)%Qc; auto.
  replace (i + 1) with (S i) by lia.
  rewrite combine_map_r, slice_map.
  assert (X : forall l : list (Qc * Qc), map fst (filter snd (map (fun p => (fst p, (snd p <=? SKELETON)%Qc)) l)) =
                    map fst (filter (fun p => (snd p <=? 1)%Qc) l)).
  { induction l as [|[a b] t IH]; auto. cbn [map filter snd fst]. unfold SKELETON at 1.
    destruct (b <=? 1)%Qc; cbn [map fst]; rewrite IH; auto. }
  rewrite X. auto.
Qed.

Lemma qmean_within : forall series l, l <> [] -> (forall x, In x l -> In x series) -> within series (qmean l).
Proof.
  intros series l N H. apply qmean_bounds; auto. intros x I. apply H in I. split; [apply qmin_list_le|apply qmax_list_ge]; auto.
Qed.
Lemma in_slice : forall A (l : list A) a b x, In x (slice l a b) -> In x l.
Proof.
  intros A l a b x I. unfold slice in I. apply firstn_incl in I.
  apply In_nth_error in I. destruct I as [k I]. rewrite nth_error_skipn in I. apply nth_error_In in I. auto.
Qed.
Lemma skeleton_values_in : forall series scores lo hi x, In x (skeleton_values series scores lo hi) -> In x series.
Proof.
  intros series scores lo hi x I. unfold skeleton_values in I. apply in_map_iff in I. destruct I as ([a b] & <- & I).
  apply filter_In in I. destruct I as [I _]. apply in_slice in I. apply in_combine_l in I. auto.
Qed.
Lemma local_within : forall series scores i, i < length series -> within series (local_value series scores i).
Proof.
  intros series scores i Hi. unfold local_value. destruct (nth_error_ex _ series i Hi) as [v Hv].
  destruct (nth i scores 0 <=? 1)%Qc.
  - rewrite (nth_error_nth_d _ _ _ _ 0%Qc Hv). apply nth_error_In in Hv. split; [apply qmin_list_le|apply qmax_list_ge]; auto.
  - destruct (skeleton_values series scores (i / 2) (i + 1)) as [|w W] eqn:E.
    + apply qmean_within.
      * intros X. apply (f_equal (@length Qc)) in X. rewrite firstn_length in X. simpl in X. lia.
      * intros x I. apply firstn_incl in I. auto.
    + apply qmean_within; [discriminate|]. intros x I. rewrite <- E in I. apply skeleton_values_in in I. auto.
Qed.

Lemma trailing_within : forall series l n i, 0 < n -> i < length l -> (forall x, In x l -> within series x) ->
  within series (trailing_mean l n i).
Proof.
  intros series l n i Hn Hi H. unfold trailing_mean. apply qmean_bounds.
  - intros X. apply (f_equal (@length Qc)) in X. rewrite slice_length in X. simpl in X. lia.
  - intros x I. apply in_slice in I. apply H in I. auto.
Qed.

(** * Normalised score *)
Lemma ratio_23 : (MIN_SR_RAW_SCORE / (MAX_SR_RAW_SCORE - MIN_SR_RAW_SCORE) = Q2Qc (7 # 23))%Qc.
Proof. apply Qc_is_canon. reflexivity. Qed.
Lemma normalise_eq : forall s, normalise_score s = Qcmin (Qcmax (s - Q2Qc (7 # 23))%Qc 0) 1.
Proof. intros. unfold normalise_score, np_clip. rewrite ratio_23. auto. Qed.

(** * The columns of the frame *)
Lemma frame_columns : forall series e t s idx rows, result_frame series e t (Some s) idx = Ok rows ->
  map r_expected rows = e /\ map r_score rows = s /\ map r_value rows = series /\
  map r_anomaly rows = map (fun i => mem_nat i idx) (range (length series)).
Proof.
  intros series e t s idx rows H. unfold result_frame in H. cbv zeta in H.
  bind_inv H. bind_inv H. bind_inv H. inversion H; subst rows; clear H.
  pose proof (column_ok _ _ _ E) as L1. pose proof (column_ok _ _ _ E0) as L2.
  assert (a = s). { simpl in E. destruct (length s =? length series); inversion E; auto. } subst a.
  assert (a0 = e). { simpl in E0. destruct (length e =? length series); inversion E0; auto. } subst a0.
  rewrite !mapi_map. unfold result_row. cbv zeta. cbn [r_expected r_score r_value r_anomaly].
  repeat split; apply nth_error_ext_len; rewrite ?mapi_length, ?map_length; unfold range; rewrite ?seq_length; auto;
    intros i Hi; rewrite ?mapi_length in Hi; destruct (nth_error_ex _ series i ltac:(lia)) as [v Hv];
    rewrite nth_error_mapi, Hv; simpl.
  - destruct (nth_error_ex _ e i ltac:(lia)) as [x Hx]. rewrite Hx. f_equal. apply nth_error_nth_d; auto.
  - destruct (nth_error_ex _ s i ltac:(lia)) as [x Hx]. rewrite Hx. f_equal. apply nth_error_nth_d; auto.
  - auto.
  - rewrite nth_error_map, nth_error_seq. assert (X : (i <? length series) = true) by (apply Nat.ltb_lt; lia). rewrite X. auto.
Qed.
