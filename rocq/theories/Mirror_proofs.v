(** Turning a series upside down: the tail tests. *)
From Coq Require Import String List Arith ZArith QArith Qcanon Qround Lia Lqa Bool Sorted Permutation.
From Verif Require Import Base Num Sorting Kernel_model Kernel_spec Kernel_proofs FillUp_model Helpers_model Helpers_spec Margins_model SR_model SR_proofs3 Detect_model Detect_spec
  Detect_proofs Detect_proofs2 Detect_proofs3 Period_proofs3 Const_spec Const_proofs Units_spec Units_proofs Units_proofs2 Mirror_spec.
Import ListNotations.
Open Scope nat_scope.

Notation mir := (in_unit minus).
Lemma minus_val : forall c x, (minus * x + c = c - x)%Qc. Proof. intros. unfold minus. ring. Qed.
Lemma mir_map : forall c l, mir c l = map (fun x => (c - x)%Qc) l.
Proof. intros. unfold in_unit. apply map_ext. intros. apply minus_val. Qed.
Lemma get_mir : forall c l i, get (mir c l) i = bind (get l i) (fun x => Ok (c - x)%Qc).
Proof. intros. unfold get. rewrite unit_nth. destruct (nth_error l i); simpl; auto. rewrite minus_val. auto. Qed.

Lemma half_half : forall x y c : Qc, ((c - x + (c - y)) / Q2Qc 2 = c - (x + y) / Q2Qc 2)%Qc.
Proof.
  intros. replace (Q2Qc 2) with (1 + 1)%Qc by (apply Qc_is_canon; reflexivity). assert (H : (1 + 1)%Qc <> 0%Qc) by (vm_compute; discriminate).
  field. auto.
Qed.
Lemma sorted_median_mir : forall c l i j, sorted_median (mir c l) i j = bind (sorted_median l i j) (fun x => Ok (c - x)%Qc).
Proof.
  intros. unfold sorted_median. cbv zeta. destruct (_ =? 0); auto. destruct (_ =? 1); [apply get_mir|]. rewrite !get_mir.
  destruct (get l (i + (j - i) / 2 - 1)) as [x|]; cbn [bind]; auto. destruct (get l (i + (j - i) / 2)) as [y|]; cbn [bind]; auto. rewrite half_half. auto.
Qed.
Lemma dev_at_mir : forall c l i m, dev_at (mir c l) i (c - m)%Qc = dev_at l i m.
Proof.
  intros. unfold dev_at. rewrite get_mir. destruct (get l i) as [x|]; simpl; auto. f_equal.
  replace (c - x - (c - m))%Qc with (m - x)%Qc by ring. apply Qcabs_sub_sym.
Qed.
Lemma dev_before_mir : forall c l i m, dev_before (mir c l) i (c - m)%Qc = dev_before l i m.
Proof. intros c l [|i] m; simpl; auto. apply dev_at_mir. Qed.
Lemma fm_found_mir : forall c a b m i j, fm_found (mir c a) (mir c b) (c - m)%Qc i j = fm_found a b m i j.
Proof. intros. unfold fm_found. cbv zeta. rewrite !unit_length, !dev_before_mir, !dev_at_mir. auto. Qed.
Lemma fm_loop_mir : forall fuel c a b m h lo hi, fm_loop fuel (mir c a) (mir c b) (c - m)%Qc h lo hi = fm_loop fuel a b m h lo hi.
Proof.
  induction fuel as [|fuel IH]; intros; cbn [fm_loop]; destruct (negb _); auto. cbv zeta. destruct (_ <? _); auto.
  rewrite !unit_length, !dev_before_mir, !dev_at_mir, fm_found_mir.
  destruct (if _ <? _ then _ else _) as [[|]|]; cbn [bind]; auto.
  destruct (if 0 <? _ then _ else _) as [[|]|]; cbn [bind]; auto.
Qed.
Lemma fmsa_mir : forall c a b m, find_median_sorted_arrays (mir c a) (mir c b) (c - m)%Qc = find_median_sorted_arrays a b m.
Proof. intros. unfold find_median_sorted_arrays. rewrite !unit_length. apply fm_loop_mir. Qed.

Lemma mir_slice : forall c l a b, slice (mir c l) a b = mir c (slice l a b).
Proof. intros. unfold slice, in_unit. rewrite skipn_map, firstn_map. auto. Qed.
Lemma mir_rev : forall c l, rev (mir c l) = mir c (rev l).
Proof. intros. unfold in_unit. rewrite map_rev. auto. Qed.
Lemma qsum_mir : forall c l, qsum (mir c l) = (qn (length l) * c - qsum l)%Qc.
Proof.
  intros. rewrite mir_map. induction l as [|x l IH]; cbn [map qsum length]; [rewrite qn_0; ring|]. rewrite IH, qn_S. ring.
Qed.
Lemma qmean_mir : forall c l, l <> [] -> qmean (mir c l) = (c - qmean l)%Qc.
Proof.
  intros c l NE. unfold qmean. rewrite qsum_mir, unit_length. assert (H : qn (length l) <> 0%Qc) by (apply qn_neq0; destruct l; [congruence|simpl; lia]).
  field. auto.
Qed.
Lemma status_mir : forall c m s v t u, check_anomaly_status (c - m)%Qc s (c - v)%Qc t u = check_anomaly_status m s v t (negb u).
Proof.
  intros. unfold check_anomaly_status. cbv zeta. destruct u; simpl; [replace (c - v - (c - m))%Qc with (m - v)%Qc by ring|replace (c - m - (c - v))%Qc with (v - m)%Qc by ring]; auto.
Qed.

Section Tests.
Variable cst : Qc.
Variable std : list Qc -> Qc.
Hypothesis EV : even_spread std.

Lemma tail_test_mir : forall c l u k t, tail_test cst std (mir c l) u k t = tail_test cst std l (negb u) k t.
Proof.
  intros. unfold tail_test. cbv zeta. rewrite unit_length, sorted_median_mir.
  destruct (sorted_median l k (length l)) as [med|]; cbn [bind]; auto.
  rewrite mir_rev, mir_slice, unit_skipn, fmsa_mir. destruct (find_median_sorted_arrays _ _ _) as [md|]; cbn [bind]; auto.
  rewrite get_mir. destruct (get l k) as [v|] eqn:EG; cbn [bind]; auto. rewrite status_mir, mir_slice, (proj1 EV).
  assert (NE : slice l k (length l) <> []).
  { apply get_ok in EG. apply nth_error_lt in EG. intros X. apply (f_equal (@length _)) in X. unfold slice in X. rewrite firstn_length, skipn_length in X. simpl in X. lia. }
  rewrite qmean_mir, status_mir by auto. auto.
Qed.
Lemma tail_loop_mir : forall ks c l u la thr n, tail_loop cst std (mir c l) u la thr ks n = tail_loop cst std l (negb u) la thr ks n.
Proof.
  induction ks as [|k ks IH]; intros; cbn [tail_loop]; auto. destruct (thr k) as [t|]; cbn [bind]; auto. rewrite tail_test_mir.
  destruct (tail_test _ _ _ _ _ _) as [[|]|]; cbn [bind]; auto. destruct la; auto.
Qed.
Lemma gesd_mir : forall c l ix m cr u li, generalized_esd_test cst std (mir c l) ix m cr u li = generalized_esd_test cst std l ix m cr (negb u) li.
Proof. intros. unfold generalized_esd_test, tail_select. rewrite tail_loop_mir. auto. Qed.

Definition mir_pairs (c : Qc) (l : list (nat * Qc)) := map (fun p => (fst p, c - snd p)%Qc) l.
Lemma mir_pairs_snd : forall c l, map snd (mir_pairs c l) = mir c (map snd l).
Proof. intros. unfold mir_pairs. rewrite mir_map, !map_map. auto. Qed.
Lemma mir_pairs_fst : forall c l, map fst (mir_pairs c l) = map fst l.
Proof. intros. unfold mir_pairs. rewrite map_map. auto. Qed.
Lemma mir_pairs_len : forall c l, length (mir_pairs c l) = length l.
Proof. intros. apply map_length. Qed.
Lemma is_majority_mir : forall c m x, is_majority (c - m)%Qc (c - x)%Qc = is_majority m x.
Proof. intros. unfold is_majority. replace (c - x - (c - m))%Qc with (m - x)%Qc by ring. rewrite Qcabs_sub_sym. auto. Qed.
Lemma last_pos_mir : forall c m l, last_pos (fun p => is_majority (c - m)%Qc (snd p)) (mir_pairs c l) = last_pos (fun p : nat * Qc => is_majority m (snd p)) l.
Proof. induction l as [|x l IH]; simpl; auto. fold (mir_pairs c l). rewrite IH, is_majority_mir. auto. Qed.
Lemma first_pos_mir : forall c k l, first_pos (fun p => fst p =? k) (mir_pairs c l) = first_pos (fun p : nat * Qc => fst p =? k) l.
Proof. induction l as [|x l IH]; simpl; auto. fold (mir_pairs c l). rewrite IH. auto. Qed.
Lemma max_rev : forall l, fold_left Nat.max (rev l) 0 = fold_left Nat.max l 0.
Proof.
  assert (G : forall l a, fold_left Nat.max l a = Nat.max a (fold_left Nat.max l 0)).
  { induction l as [|x l IH]; intros a; simpl; [lia|]. rewrite IH, (IH x). lia. }
  induction l as [|x l IH]; simpl; auto. rewrite fold_left_app. cbn [fold_left]. rewrite IH, (G l x). lia.
Qed.
Lemma mir_pairs_rev : forall c l, rev (mir_pairs c l) = mir_pairs c (rev l).
Proof. intros. unfold mir_pairs. rewrite map_rev. auto. Qed.

(** One tail of the series upside down is the other tail of the series. *)
Lemma esd_mir : forall c crit sr m mj u la,
  esd_detect cst std crit (rev (mir_pairs c sr)) m (option_map (fun x => c - x)%Qc mj) u la = esd_detect cst std crit sr m mj (negb u) la.
Proof.
  intros. unfold esd_detect. rewrite rev_length, mir_pairs_len.
  assert (ED : (if u then rev (rev (mir_pairs c sr)) else rev (mir_pairs c sr)) = mir_pairs c (if negb u then rev sr else sr)).
  { destruct u; cbn [negb]; rewrite ?rev_involutive; auto. apply mir_pairs_rev. }
  rewrite ED, map_rev, mir_pairs_fst, max_rev. set (data := if negb u then rev sr else sr).
  destruct mj as [mv|]; cbn [option_map].
  - rewrite last_pos_mir. destruct (last_pos _ data) as [i|]; cbn [bind]; auto.
    assert (EF : firstn (S i) (mir_pairs c data) = mir_pairs c (firstn (S i) data)) by (unfold mir_pairs; rewrite firstn_map; auto).
    rewrite EF, mir_pairs_len, first_pos_mir, mir_pairs_snd, mir_pairs_fst. destruct la; [destruct (first_pos _ _); auto|]; apply gesd_mir.
  - cbn [bind]. rewrite first_pos_mir, mir_pairs_snd, mir_pairs_fst. destruct la; [destruct (first_pos _ _); auto|]; apply gesd_mir.
Qed.

Lemma qmedian_perm : forall l l', Permutation l l' -> qmedian l = qmedian l'.
Proof. intros. unfold qmedian. rewrite (qsort_perm_eq l l'); auto. Qed.
Lemma qmedian_mir : forall c l, l <> [] -> qmedian (mir c l) = (c - qmedian l)%Qc.
Proof. intros. unfold in_unit. rewrite qmedian_affine by auto. apply minus_val. Qed.
Lemma mad_mir : forall c l, l <> [] -> mad (mir c l) = mad l.
Proof.
  intros. unfold mad. rewrite qmedian_mir by auto. unfold in_unit. rewrite map_map. f_equal. apply map_ext. intros x. rewrite minus_val.
  replace (c - x - (c - qmedian l))%Qc with (qmedian l - x)%Qc by ring. apply Qcabs_sub_sym.
Qed.
Lemma mad_rev : forall l, mad (rev l) = mad l.
Proof.
  intros. unfold mad. assert (P : Permutation (rev l) l) by (symmetry; apply Permutation_rev). rewrite (qmedian_perm _ _ P).
  apply qmedian_perm. apply Permutation_map. auto.
Qed.
Lemma qmean_rev : forall l, qmean (rev l) = qmean l.
Proof.
  intros. unfold qmean. rewrite rev_length. f_equal. induction l as [|x l IH]; simpl; auto. rewrite qsum_app, IH. cbn [qsum]. ring.
Qed.
Lemma zscore_mir : forall c sr m u, sr <> [] -> zscore_detect cst std (rev (mir_pairs c sr)) m u = zscore_detect cst std sr m (negb u).
Proof.
  intros c sr m u NE. unfold zscore_detect. cbv zeta.
  change (qmedian (map (fun x => Qcabs (x - qmedian (map snd sr))) (map snd sr))) with (mad (map snd sr)).
  change (qmedian (map (fun x => Qcabs (x - qmedian (map snd (rev (mir_pairs c sr))))) (map snd (rev (mir_pairs c sr))))) with (mad (map snd (rev (mir_pairs c sr)))).
  rewrite map_rev, mir_pairs_snd. assert (NE' : map snd sr <> []) by (destruct sr; [congruence|discriminate]).
  rewrite mad_rev, mad_mir by auto. rewrite qmean_rev, (proj2 EV), (proj1 EV), qmean_mir by auto.
  rewrite (qmedian_perm (rev (mir c (map snd sr))) (mir c (map snd sr))) by (symmetry; apply Permutation_rev). rewrite qmedian_mir by auto.
  set (md := (mad (map snd sr) / cst)%Qc).
  set (c1 := if (md =? 0)%Qc then (_, std (map snd sr)) else _). set (c2 := if (md =? 0)%Qc then (qmean (map snd sr), _) else _).
  assert (E1 : snd c1 = snd c2) by (unfold c1, c2; destruct (md =? 0)%Qc; auto).
  assert (E2 : fst c1 = (c - fst c2)%Qc) by (unfold c1, c2; destruct (md =? 0)%Qc; auto).
  rewrite E1, E2. destruct (snd c2 =? 0)%Qc; auto.
  assert (ED : (if u then rev (rev (mir_pairs c sr)) else rev (mir_pairs c sr)) = mir_pairs c (if negb u then rev sr else sr)).
  { destruct u; cbn [negb]; rewrite ?rev_involutive; auto. apply mir_pairs_rev. }
  rewrite ED. assert (EF : forall d, firstn m (mir_pairs c d) = mir_pairs c (firstn m d)) by (intros; unfold mir_pairs; rewrite firstn_map; auto).
  rewrite EF. generalize (firstn m (if negb u then rev sr else sr)). induction l as [|p l IH]; auto.
  cbn [mir_pairs map filter fst snd]. fold (mir_pairs c l). replace (c - snd p - (c - fst c2))%Qc with (fst c2 - snd p)%Qc by ring.
  rewrite Qcabs_sub_sym. destruct (_ <? _)%Qc; cbn [map fst]; rewrite IH; auto.
Qed.
End Tests.

(** * The two tails joined *)
Lemma joined_perm : forall u l, NoDup u -> NoDup l ->
  Permutation (l ++ filter (fun i => negb (mem_nat i l)) u) (u ++ filter (fun i => negb (mem_nat i u)) l).
Proof.
  assert (G : forall (u l : list nat), NoDup u -> NoDup l -> (forall x, In x u -> ~ In x l) -> NoDup (u ++ l)).
  { clear. induction u as [|x t IH]; intros l N1 N2 D; simpl; auto. inversion N1; subst. constructor.
    - rewrite in_app_iff. intros [I|I]; auto. apply (D x); simpl; auto.
    - apply IH; auto. intros y Y. apply D. right; auto. }
  assert (ND : forall a b, NoDup a -> NoDup b -> NoDup (a ++ filter (fun i => negb (mem_nat i a)) b)).
  { intros a b A B. apply G; auto; [apply NoDup_filter; auto|]. intros x I J. apply filter_In in J. destruct J as [_ J].
    apply negb_true_iff in J. apply mem_nat_in in I. congruence. }
  assert (IN : forall a b x, In x (a ++ filter (fun i => negb (mem_nat i a)) b) <-> In x a \/ In x b).
  { intros a b x. rewrite in_app_iff, filter_In, negb_true_iff. split; [tauto|]. intros [I|I]; auto. destruct (mem_nat x a) eqn:E; auto.
    left. apply mem_nat_in; auto. }
  intros u l U L. apply NoDup_Permutation; auto. intros x. rewrite !IN. tauto.
Qed.
Lemma tails_swap : forall ds ds' maxo n, Forall2 (fun d d' => forall u, d' u = d (negb u)) ds ds' ->
  answers_alike (fun i i' : list nat => Permutation i' i) (detect_tails ds maxo n) (detect_tails ds' maxo n) \/
  (exists e e', detect_tails ds maxo n = Err e /\ detect_tails ds' maxo n = Err e').
Proof.
  intros ds ds' maxo n F.
  assert (R : forall u, run_detectors ds' u = run_detectors ds (negb u)).
  { intros u. induction F as [|d d' ds ds' H F IH]; cbn [run_detectors]; auto. rewrite H, IH. auto. }
  unfold detect_tails. rewrite !R. cbn [negb]. destruct (run_detectors ds true) as [a|e], (run_detectors ds false) as [b|e']; cbn [bind]; eauto.
  left. cbn [answers_alike]. apply joined_perm; apply rank_direction_len.
Qed.
