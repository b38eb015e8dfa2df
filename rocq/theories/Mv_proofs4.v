(** Multivariate detector, part 4: missing cells, weights, order of columns and rows. *)
From Coq Require Import String Ascii List Arith ZArith NArith Lia Bool Permutation Sorted.
From Verif Require Import Base Num Sorting Kernel_model Kernel_proofs Helpers_model Helpers_spec Helpers_proofs Helpers_proofs2
  Mv_model Mv_spec Mv_proofs.
Import ListNotations.
Open Scope nat_scope.

(** * Filling *)
Lemma ffill_from_length : forall col last, length (ffill_from last col) = length col.
Proof. induction col as [|[v|] t IH]; intros last; simpl; auto. Qed.
Lemma bfill_length : forall col, length (bfill col) = length col.
Proof. induction col as [|[v|] t IH]; simpl; auto. Qed.

Lemma ffill_from_spec : forall col last p o, nth_error (ffill_from last col) p = Some o ->
  (exists v, observed col p v /\ o = Some v) \/
  (nth_error col p = Some None /\ exists v, from_before col p v /\ o = Some v) \/
  (none_before col p /\ o = last).
Proof.
  induction col as [|c t IH]; intros last p o H; [destruct p; discriminate|].
  destruct p as [|p].
  - destruct c as [v|]; cbn in H; inversion H; subst.
    + left. exists v. split; reflexivity.
    + right. right. split; auto. intros k w Hk Ho. assert (k = 0) by lia. subst. discriminate.
  - destruct c as [v|]; cbn [ffill_from nth_error] in H.
    + destruct (IH _ _ _ H) as [(w & A & B)|[(N & w & (q & Q1 & Q2 & Q3) & B)|[A B]]].
      * left. eauto.
      * right. left. split; auto. exists w. split; auto. exists (S q). split; [lia|]. split; auto.
        intros [|k] u Hk Ho; [lia|]. apply (Q3 k u); [lia|auto].
      * right. left. split.
        { assert (Lp : p < length t) by (apply nth_error_lt in H; rewrite ffill_from_length in H; auto).
          destruct (nth_error_ex _ t p Lp) as [[w|] Ew]; cbn; [exfalso; apply (A p w); [lia|exact Ew]|auto]. }
        exists v. split; auto. exists 0. split; [lia|]. split; [reflexivity|].
        intros [|k] u Hk Ho; [lia|]. apply (A k u); [lia|auto].
    + destruct (IH _ _ _ H) as [(w & A & B)|[(N & w & (q & Q1 & Q2 & Q3) & B)|[A B]]].
      * left. eauto.
      * right. left. split; auto. exists w. split; auto. exists (S q). split; [lia|]. split; auto.
        intros [|k] u Hk Ho; [lia|]. apply (Q3 k u); [lia|auto].
      * right. right. split; auto. intros [|k] u Hk Ho; [discriminate|]. apply (A k u); [lia|auto].
Qed.
Lemma bfill_head : forall t, match bfill t with [] => None | h :: _ => h end =
  match nth_error (bfill t) 0 with None => None | Some o => o end.
Proof. intros t. destruct (bfill t); auto. Qed.
Lemma bfill_spec : forall col p o, nth_error (bfill col) p = Some o ->
  (exists v, observed col p v /\ o = Some v) \/
  (nth_error col p = Some None /\ exists v, from_after col p v /\ o = Some v) \/
  (none_after col p /\ o = None).
Proof.
  induction col as [|c t IH]; intros p o H; [destruct p; discriminate|].
  destruct p as [|p].
  - destruct c as [v|]; cbn in H; inversion H; subst.
    + left. exists v. split; reflexivity.
    + clear H. destruct (bfill t) as [|h r] eqn:E.
      * right. right. split; auto. apply (f_equal (@length _)) in E. rewrite bfill_length in E.
        destruct t; [|discriminate]. intros [|[|k]] w _ Ho; discriminate.
      * destruct (IH 0 h eq_refl) as [(w & A & B)|[(N & w & (q & Q1 & Q2 & Q3) & B)|[A B]]]; subst h.
        -- right. left. split; auto. exists w. split; auto. exists 1. split; [lia|]. split; auto.
           intros [|k] u Hk Ho; [discriminate|lia].
        -- right. left. split; auto. exists w. split; auto. exists (S q). split; [lia|]. split; auto.
           intros [|k] u Hk Ho; [discriminate|]. apply (Q3 k u); [lia|auto].
        -- right. right. split; auto. intros [|k] u Hk Ho; [discriminate|]. apply (A k u); [lia|auto].
  - assert (H' : nth_error (bfill t) p = Some o) by (destruct c; exact H).
    destruct (IH _ _ H') as [(w & A & B)|[(N & w & (q & Q1 & Q2 & Q3) & B)|[A B]]].
    + left. eauto.
    + right. left. split; auto. exists w. split; auto. exists (S q). split; [lia|]. split; auto.
      intros [|k] u Hk Ho; [lia|]. apply (Q3 k u); [lia|auto].
    + right. right. split; auto. intros [|k] u Hk Ho; [lia|]. apply (A k u); [lia|auto].
Qed.

Lemma not_observed : forall col p v, nth_error col p = Some None -> ~ observed col p v.
Proof. intros col p v H Ho. unfold observed in Ho. rewrite H in Ho. discriminate. Qed.
Lemma before_before : forall col p v w, from_before col p v -> from_before col p w -> v = w.
Proof.
  intros col p v w (q & A & B & C) (q' & A' & B' & C').
  destruct (Nat.lt_trichotomy q q') as [H|[H|H]].
  - exfalso. apply (C q' w); [lia|auto].
  - subst. unfold observed in *. congruence.
  - exfalso. apply (C' q v); [lia|auto].
Qed.
Lemma after_after : forall col p v w, from_after col p v -> from_after col p w -> v = w.
Proof.
  intros col p v w (q & A & B & C) (q' & A' & B' & C').
  destruct (Nat.lt_trichotomy q q') as [H|[H|H]].
  - exfalso. apply (C' q v); [lia|auto].
  - subst. unfold observed in *. congruence.
  - exfalso. apply (C q' w); [lia|auto].
Qed.
Lemma before_not_none : forall col p v, from_before col p v -> ~ none_before col p.
Proof. intros col p v (q & A & B & C) N. apply (N q v); [lia|auto]. Qed.
Lemma after_not_none : forall col p v, from_after col p v -> ~ none_after col p.
Proof. intros col p v (q & A & B & C) N. apply (N q v); [lia|auto]. Qed.

(** The observed cells after a forward (backward) fill. *)
Lemma ffill_observed : forall col p v, observed (ffill col) p v <-> observed col p v \/ (nth_error col p = Some None /\ from_before col p v).
Proof.
  intros col p v. split.
  - intros H. destruct (ffill_from_spec _ _ _ _ H) as [(w & A & B)|[(N & w & A & B)|[A B]]].
    + inversion B; subst; auto.
    + inversion B; subst; auto.
    + discriminate.
  - intros H. assert (Lp : p < length (ffill col)).
    { unfold ffill. rewrite ffill_from_length. destruct H as [H|[H _]]; eapply nth_error_lt; eauto. }
    destruct (nth_error_ex _ _ _ Lp) as [o Eo]. unfold observed. rewrite Eo. f_equal.
    destruct (ffill_from_spec _ _ _ _ Eo) as [(w & A & B)|[(N & w & A & B)|[A B]]]; subst.
    + destruct H as [H|[H _]]; [unfold observed in *; congruence|]. exfalso. eapply not_observed; eauto.
    + destruct H as [H|[_ H]]; [exfalso; eapply not_observed; eauto|]. f_equal. eapply before_before; eauto.
    + exfalso. destruct H as [H|[_ H]]; [apply (A p v); [lia|auto]|]. eapply before_not_none; eauto.
Qed.
Lemma bfill_observed : forall col p v, observed (bfill col) p v <-> observed col p v \/ (nth_error col p = Some None /\ from_after col p v).
Proof.
  intros col p v. split.
  - intros H. destruct (bfill_spec _ _ _ H) as [(w & A & B)|[(N & w & A & B)|[A B]]].
    + inversion B; subst; auto.
    + inversion B; subst; auto.
    + discriminate.
  - intros H. assert (Lp : p < length (bfill col)).
    { rewrite bfill_length. destruct H as [H|[H _]]; eapply nth_error_lt; eauto. }
    destruct (nth_error_ex _ _ _ Lp) as [o Eo]. unfold observed. rewrite Eo. f_equal.
    destruct (bfill_spec _ _ _ Eo) as [(w & A & B)|[(N & w & A & B)|[A B]]]; subst.
    + destruct H as [H|[H _]]; [unfold observed in *; congruence|]. exfalso. eapply not_observed; eauto.
    + destruct H as [H|[_ H]]; [exfalso; eapply not_observed; eauto|]. f_equal. eapply after_after; eauto.
    + exfalso. destruct H as [H|[_ H]]; [apply (A p v); [lia|auto]|]. eapply after_not_none; eauto.
Qed.

(** Everything before the first (after the last) value is filled from it. *)
Lemma prev_rest : forall col p v, none_before col p -> from_after col p v -> from_after (ffill col) p v.
Proof.
  intros col p v N (q & A & B & C). exists q. split; auto. split.
  - apply ffill_observed. auto.
  - intros k w Hk Ho. apply ffill_observed in Ho. destruct Ho as [Ho|[Hn (r & R1 & R2 & R3)]].
    + apply (C k w); auto.
    + destruct (Nat.le_gt_cases r p); [apply (N r w); auto|]. apply (C r w); [lia|auto].
Qed.
Lemma subs_rest : forall col p v, none_after col p -> from_before col p v -> from_before (bfill col) p v.
Proof.
  intros col p v N (q & A & B & C). exists q. split; auto. split.
  - apply bfill_observed. auto.
  - intros k w Hk Ho. apply bfill_observed in Ho. destruct Ho as [Ho|[Hn (r & R1 & R2 & R3)]].
    + apply (C k w); auto.
    + destruct (Nat.le_gt_cases p r); [apply (N r w); auto|]. apply (C r w); [lia|auto].
Qed.

Definition cell0 (c : option Qc) : Qc := match c with None => 0%Qc | Some v => v end.
Lemma nth_cell0 : forall l p v, observed l p v -> nth_error (map cell0 l) p = Some v.
Proof. intros l p v H. unfold observed in H. rewrite nth_error_map, H. auto. Qed.
Lemma nth_missing : forall l p, nth_error l p = Some None -> nth_error (map cell0 l) p = Some 0%Qc.
Proof. intros l p H. rewrite nth_error_map, H. auto. Qed.

Lemma fill_previous : forall value col,
  let out := fill_col FPrevious value col in
  length out = length col /\
  (forall p v, observed col p v -> nth_error out p = Some v) /\
  (forall p v, nth_error col p = Some None -> from_before col p v -> nth_error out p = Some v) /\
  (forall p v, nth_error col p = Some None -> none_before col p -> from_after col p v -> nth_error out p = Some v) /\
  (forall p, p < length col -> none_at_all col -> nth_error out p = Some 0%Qc).
Proof.
  intros value col out. unfold out, fill_col. cbv zeta. fold cell0.
  change (fun c => match c with None => 0%Qc | Some v => v end) with cell0.
  split; [unfold ffill; rewrite map_length, bfill_length, ffill_from_length; auto|].
  assert (Nf : forall p, none_before col p -> nth_error col p = Some None -> nth_error (ffill col) p = Some None).
  { intros p N Hn. assert (Lp : p < length (ffill col)) by (unfold ffill; rewrite ffill_from_length; eapply nth_error_lt; eauto).
    destruct (nth_error_ex _ _ _ Lp) as [[w|] Ew]; auto. exfalso.
    assert (Ho : observed (ffill col) p w) by exact Ew. apply ffill_observed in Ho.
    destruct Ho as [Ho|[_ Ho]]; [eapply not_observed; eauto|eapply before_not_none; eauto]. }
  split; [|split; [|split]].
  - intros p v H. apply nth_cell0. apply bfill_observed. left. apply ffill_observed. auto.
  - intros p v Hn H. apply nth_cell0. apply bfill_observed. left. apply ffill_observed. auto.
  - intros p v Hn N H. apply nth_cell0. apply bfill_observed. right. split; auto. apply prev_rest; auto.
  - intros p Lp N. apply nth_missing.
    assert (Hn : forall k, k < length col -> nth_error col k = Some None).
    { intros k Hk. destruct (nth_error_ex _ _ _ Hk) as [[w|] Ew]; auto. exfalso. apply (N k w). exact Ew. }
    assert (Lb : p < length (bfill (ffill col))) by (unfold ffill; rewrite bfill_length, ffill_from_length; auto).
    destruct (nth_error_ex _ _ _ Lb) as [[w|] Ew]; auto. exfalso.
    assert (Ho : observed (bfill (ffill col)) p w) by exact Ew. apply bfill_observed in Ho.
    assert (No : forall k u, ~ observed (ffill col) k u).
    { intros k u Hk. apply ffill_observed in Hk. destruct Hk as [Hk|[_ (q & _ & Hq & _)]]; eapply N; eauto. }
    destruct Ho as [Ho|[_ (q & _ & Hq & _)]]; eapply No; eauto.
Qed.
Lemma fill_subsequent : forall value col,
  let out := fill_col FSubsequent value col in
  length out = length col /\
  (forall p v, observed col p v -> nth_error out p = Some v) /\
  (forall p v, nth_error col p = Some None -> from_after col p v -> nth_error out p = Some v) /\
  (forall p v, nth_error col p = Some None -> none_after col p -> from_before col p v -> nth_error out p = Some v) /\
  (forall p, p < length col -> none_at_all col -> nth_error out p = Some 0%Qc).
Proof.
  intros value col out. unfold out, fill_col. cbv zeta.
  change (fun c => match c with None => 0%Qc | Some v => v end) with cell0.
  split; [unfold ffill; rewrite map_length, ffill_from_length, bfill_length; auto|].
  assert (Nf : forall p, none_after col p -> nth_error col p = Some None -> nth_error (bfill col) p = Some None).
  { intros p N Hn. assert (Lp : p < length (bfill col)) by (rewrite bfill_length; eapply nth_error_lt; eauto).
    destruct (nth_error_ex _ _ _ Lp) as [[w|] Ew]; auto. exfalso.
    assert (Ho : observed (bfill col) p w) by exact Ew. apply bfill_observed in Ho.
    destruct Ho as [Ho|[_ Ho]]; [eapply not_observed; eauto|eapply after_not_none; eauto]. }
  split; [|split; [|split]].
  - intros p v H. apply nth_cell0. apply ffill_observed. left. apply bfill_observed. auto.
  - intros p v Hn H. apply nth_cell0. apply ffill_observed. left. apply bfill_observed. auto.
  - intros p v Hn N H. apply nth_cell0. apply ffill_observed. right. split; auto. apply subs_rest; auto.
  - intros p Lp N. apply nth_missing.
    assert (Lb : p < length (ffill (bfill col))) by (unfold ffill; rewrite ffill_from_length, bfill_length; auto).
    destruct (nth_error_ex _ _ _ Lb) as [[w|] Ew]; auto. exfalso.
    assert (Ho : observed (ffill (bfill col)) p w) by exact Ew. apply ffill_observed in Ho.
    assert (No : forall k u, ~ observed (bfill col) k u).
    { intros k u Hk. apply bfill_observed in Hk. destruct Hk as [Hk|[_ (q & _ & Hq & _)]]; eapply N; eauto. }
    destruct Ho as [Ho|[_ (q & _ & Hq & _)]]; eapply No; eauto.
Qed.
Lemma fill_linear : forall value col,
  let out := fill_col FLinear value col in
  length out = length col /\
  ((exists p v, observed col p v) -> forall p v, nth_error out p = Some v -> is_interpolant col p v) /\
  (forall p, p < length col -> none_at_all col -> nth_error out p = Some 0%Qc).
Proof.
  intros value col out. unfold out, fill_col, interpolate_col. cbv zeta.
  change (fun c => match c with None => 0%Qc | Some v => v end) with cell0.
  assert (M : forall l, map cell0 (map Some l) = l).
  { intros l. rewrite map_map. cbn. apply map_id. }
  destruct (interp col) as [o|e] eqn:E.
  - rewrite M. assert (K : exists p v, observed col p v).
    { destruct (known 0 col) as [|[a va] rest] eqn:EK; [unfold interp in E; rewrite EK in E; discriminate|].
      assert (I : In (a, va) (known 0 col)) by (rewrite EK; left; auto).
      apply known_in in I. destruct I as (q & -> & Eq). exists q, va. exact Eq. }
    destruct (interp_spec col K) as (o' & Eo & L & P). rewrite E in Eo. inversion Eo; subst o'.
    split; auto. split; auto. intros p Hp N. exfalso. destruct K as (q & v & Hq). apply (N q v); auto.
  - rewrite map_length. split; auto. split.
    + intros K. destruct (interp_spec col K) as (o' & Eo & _). congruence.
    + intros p Hp N. apply nth_missing. destruct (nth_error_ex _ _ _ Hp) as [[w|] Ew]; auto.
      exfalso. apply (N p w). exact Ew.
Qed.
Lemma fill_const : forall m value col, m = FFixed \/ m = FZero ->
  let out := fill_col m value col in
  length out = length col /\
  (forall p v, observed col p v -> nth_error out p = Some v) /\
  (forall p, nth_error col p = Some None -> nth_error out p = Some (match m with FFixed => value | _ => 0%Qc end)).
Proof.
  intros m value col Hm out. unfold out, fill_col. cbv zeta.
  change (fun c => match c with None => 0%Qc | Some v => v end) with cell0.
  destruct Hm; subst m.
  - split; [rewrite !map_length; auto|]. unfold observed.
    split; intros; rewrite !nth_error_map, H; auto.
  - split; [rewrite !map_length; auto|]. unfold observed.
    split; intros; rewrite !nth_error_map, H; auto.
Qed.
Lemma fill_col_length : forall m value col, length (fill_col m value col) = length col.
Proof.
  intros [| | | |] value col.
  - apply fill_previous. - apply fill_subsequent. - apply fill_linear.
  - apply fill_const; auto. - apply fill_const; auto.
Qed.

(** * Column order *)
Lemma leb_refl' : forall s, String.leb s s = true.
Proof. intros s. destruct (String.leb_total s s); auto. Qed.
Lemma compare_trans : forall c a b d, (c = Lt \/ c = Eq) -> String.compare a b = c ->
  String.compare b d <> Gt -> String.compare a d <> Gt /\ (c = Lt -> String.compare a d = Lt).
Proof.
  intros c a. revert c. induction a as [|x a IH]; intros c b d Hc E N; destruct b as [|y b]; destruct d as [|z d]; cbn in *;
    try (destruct Hc; subst; discriminate); try congruence; try (split; congruence).
  - unfold Ascii.compare in *.
    destruct (N.compare (N_of_ascii x) (N_of_ascii y)) eqn:E1;
    destruct (N.compare (N_of_ascii y) (N_of_ascii z)) eqn:E2; try congruence;
    rewrite ?N.compare_eq_iff in *; rewrite ?N.compare_lt_iff in *.
    + rewrite E1, E2, N.compare_refl. apply (IH c b d); auto.
    + assert (L : N.compare (N_of_ascii x) (N_of_ascii z) = Lt) by (apply N.compare_lt_iff; lia). rewrite L.
      split; congruence.
    + assert (L : N.compare (N_of_ascii x) (N_of_ascii z) = Lt) by (apply N.compare_lt_iff; lia). rewrite L.
      split; congruence.
    + assert (L : N.compare (N_of_ascii x) (N_of_ascii z) = Lt) by (apply N.compare_lt_iff; lia). rewrite L.
      split; congruence.
    + destruct Hc; subst; discriminate.
    + destruct Hc; subst; discriminate.
Qed.
Lemma leb_trans' : forall a b c, String.leb a b = true -> String.leb b c = true -> String.leb a c = true.
Proof.
  intros a b c H1 H2. unfold String.leb in *.
  assert (N : String.compare b c <> Gt) by (destruct (String.compare b c); congruence).
  destruct (String.compare a b) eqn:E; try discriminate.
  - destruct (compare_trans Eq a b c (or_intror eq_refl) E N) as [A _]. destruct (String.compare a c); congruence.
  - destruct (compare_trans Lt a b c (or_introl eq_refl) E N) as [A _]. destruct (String.compare a c); congruence.
Qed.

Definition csorted {A} (l : list (string * A)) := StronglySorted (fun x y => String.leb (fst x) (fst y) = true) l.
Lemma cinsert_perm : forall A (l : list (string * A)) x, Permutation (x :: l) (cinsert x l).
Proof.
  induction l as [|y t IH]; intros x; simpl; auto. destruct (String.leb (fst x) (fst y)); auto.
  rewrite perm_swap. constructor. apply IH.
Qed.
Lemma csort_perm : forall A (l : list (string * A)), Permutation l (csort l).
Proof. induction l as [|x t IH]; simpl; auto. rewrite <- cinsert_perm. constructor. auto. Qed.
Lemma cinsert_sorted : forall A (l : list (string * A)) x, csorted l -> csorted (cinsert x l).
Proof.
  induction l as [|y t IH]; intros x Hs; simpl; [repeat constructor|].
  destruct (String.leb (fst x) (fst y)) eqn:E.
  - constructor; auto. constructor; auto. inversion Hs as [|? ? Hs' F]; subst.
    rewrite Forall_forall in *. intros z Iz. eapply leb_trans'; eauto.
  - inversion Hs as [|? ? Hs' F]; subst. constructor; [apply IH; auto|].
    rewrite Forall_forall in *. intros z Iz. apply (Permutation_in _ (Permutation_sym (cinsert_perm _ t x))) in Iz.
    destruct Iz as [<-|Iz]; auto. destruct (String.leb_total (fst y) (fst x)); congruence.
Qed.
Lemma csort_sorted : forall A (l : list (string * A)), csorted (csort l).
Proof. induction l as [|x t IH]; simpl; [constructor|]. apply cinsert_sorted; auto. Qed.
Lemma csorted_unique : forall A (a b : list (string * A)), csorted a -> csorted b -> NoDup (map fst a) ->
  Permutation a b -> a = b.
Proof.
  induction a as [|x s IH]; intros b Ha Hb N P.
  - apply Permutation_nil in P. auto.
  - destruct b as [|y t]; [apply Permutation_sym in P; apply Permutation_nil in P; discriminate|].
    inversion Ha as [|? ? Ha' Fa]; subst. inversion Hb as [|? ? Hb' Fb]; subst.
    rewrite Forall_forall in Fa, Fb.
    assert (E : x = y).
    { assert (Ix : In x (y :: t)) by (eapply Permutation_in; [exact P|left; auto]).
      assert (Iy : In y (x :: s)) by (eapply Permutation_in; [symmetry; exact P|left; auto]).
      destruct Iy as [Iy|Iy]; [auto|]. destruct Ix as [Ix|Ix]; [auto|].
      exfalso. assert (fst x = fst y) by (apply String.leb_antisym; auto).
      cbn in N. inversion N; subst. apply H2. rewrite H. apply in_map. auto. }
    subst y. f_equal. apply IH; auto.
    + cbn in N. inversion N; auto.
    + eapply Permutation_cons_inv; eauto.
Qed.
Lemma csort_perm_eq : forall A (a b : list (string * A)), NoDup (map fst a) -> Permutation a b -> csort a = csort b.
Proof.
  intros A a b N P. apply csorted_unique; auto using csort_sorted.
  - eapply Permutation_NoDup; [|exact N]. apply Permutation_map, csort_perm.
  - rewrite <- csort_perm, P. apply csort_perm.
Qed.
