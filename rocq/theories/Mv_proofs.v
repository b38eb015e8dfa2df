(** Multivariate detector, part 1: generic lemmas, order statistics, windows,
    batching, normalisation. *)
From Coq Require Import String List Arith ZArith Lia Bool Permutation Sorted QArith Qround.
From Verif Require Import Base Num Sorting Kernel_model Kernel_proofs Helpers_model Helpers_spec Helpers_proofs
  Mv_model Mv_spec.
Import ListNotations.
Open Scope nat_scope.

Ltac dbind H :=
  match type of H with
  | bind ?a _ = Ok _ => let E := fresh "E" in destruct a eqn:E; [rewrite bind_ok in H | discriminate H]
  end.

(** * mapM *)
Lemma mapM_ok : forall A B (f : A -> res B) l r,
  mapM f l = Ok r <-> Forall2 (fun x y => f x = Ok y) l r.
Proof.
  induction l as [|x t IH]; intros r; cbn [mapM].
  - split; intros H; [inversion H; constructor | inversion H; auto].
  - split; intros H.
    + dbind H. dbind H. inversion H; subst. constructor; auto. apply IH; auto.
    + inversion H as [|? y ? r' E F]; subst. rewrite E, bind_ok. apply IH in F. rewrite F, bind_ok. auto.
Qed.
Lemma mapM_total : forall A B (f : A -> res B) l, (forall x, In x l -> exists y, f x = Ok y) ->
  exists r, mapM f l = Ok r.
Proof.
  induction l as [|x t IH]; intros H; cbn [mapM]; eauto.
  destruct (H x) as [y Ey]; [left; auto|]. rewrite Ey, bind_ok.
  destruct IH as [r Er]; [intros; apply H; right; auto|]. rewrite Er, bind_ok. eauto.
Qed.
Lemma mapM_app : forall A B (f : A -> res B) a b,
  mapM f (a ++ b) = do x <- mapM f a; do y <- mapM f b; Ok (x ++ y).
Proof.
  induction a as [|h t IH]; intros b; cbn [mapM app].
  - rewrite bind_ok. destruct (mapM f b); auto.
  - destruct (f h) as [y|e]; auto. rewrite !bind_ok, IH.
    destruct (mapM f t) as [r|e]; auto. rewrite !bind_ok. destruct (mapM f b); auto.
Qed.
Lemma mapM_err : forall A B (f : A -> res B) l e, mapM f l = Err e -> exists x, In x l /\ f x = Err e.
Proof.
  induction l as [|h t IH]; intros e H; cbn [mapM] in H; [discriminate|].
  destruct (f h) eqn:E.
  - rewrite bind_ok in H. destruct (mapM f t) eqn:E2; [discriminate|]. cbn in H. inversion H; subst.
    destruct (IH e eq_refl) as (x & Ix & Ex). exists x; split; [right|]; auto.
  - cbn in H. inversion H; subst. exists h; split; [left|]; auto.
Qed.
Lemma F2_nth : forall A B (R : A -> B -> Prop) l r, Forall2 R l r ->
  forall k x, nth_error l k = Some x -> exists y, nth_error r k = Some y /\ R x y.
Proof.
  induction 1; intros [|k] z E; simpl in *; try discriminate.
  - inversion E; subst; eauto.
  - eauto.
Qed.
Lemma F2_nth_r : forall A B (R : A -> B -> Prop) l r, Forall2 R l r ->
  forall k y, nth_error r k = Some y -> exists x, nth_error l k = Some x /\ R x y.
Proof.
  induction 1; intros [|k] z E; simpl in *; try discriminate.
  - inversion E; subst; eauto.
  - eauto.
Qed.
Lemma F2_intro : forall A B (R : A -> B -> Prop) l r, length l = length r ->
  (forall k x y, nth_error l k = Some x -> nth_error r k = Some y -> R x y) -> Forall2 R l r.
Proof.
  induction l as [|a t IH]; intros [|b s] L H; simpl in L; try discriminate; constructor.
  - apply (H 0); auto.
  - apply IH; [lia|]. intros k x y. apply (H (S k)).
Qed.
Lemma F2_impl : forall A B (R Q : A -> B -> Prop) l r, (forall x y, R x y -> Q x y) ->
  Forall2 R l r -> Forall2 Q l r.
Proof. induction 2; constructor; auto. Qed.
Lemma F2_len : forall A B (R : A -> B -> Prop) l r, Forall2 R l r -> length l = length r.
Proof. induction 1; simpl; auto. Qed.
Lemma mapM_len : forall A B (f : A -> res B) l r, mapM f l = Ok r -> length r = length l.
Proof. intros A B f l r H. apply mapM_ok in H. symmetry. eapply F2_len; eauto. Qed.
Lemma mapM_nth : forall A B (f : A -> res B) l r k x, mapM f l = Ok r -> nth_error l k = Some x ->
  exists y, nth_error r k = Some y /\ f x = Ok y.
Proof. intros A B f l r k x H E. apply mapM_ok in H. exact (F2_nth _ _ _ _ _ H k x E). Qed.
Lemma mapM_nth_r : forall A B (f : A -> res B) l r k y, mapM f l = Ok r -> nth_error r k = Some y ->
  exists x, nth_error l k = Some x /\ f x = Ok y.
Proof. intros A B f l r k y H E. apply mapM_ok in H. exact (F2_nth_r _ _ _ _ _ H k y E). Qed.

Lemma nth_error_zip : forall A B C (f : A -> B -> C) a b k x y,
  nth_error a k = Some x -> nth_error b k = Some y -> nth_error (zip_with f a b) k = Some (f x y).
Proof.
  induction a as [|h t IH]; intros [|g s] [|k] x y Ea Eb; simpl in *; try discriminate; auto.
  inversion Ea; inversion Eb; subst; auto.
Qed.
Lemma nth_error_zip_inv : forall A B C (f : A -> B -> C) a b k z,
  nth_error (zip_with f a b) k = Some z ->
  exists x y, nth_error a k = Some x /\ nth_error b k = Some y /\ z = f x y.
Proof.
  induction a as [|h t IH]; intros [|g s] [|k] z E; simpl in *; try discriminate; auto.
  inversion E; eauto.
Qed.
Lemma zip_len : forall A B C (f : A -> B -> C) a b, length (zip_with f a b) = Nat.min (length a) (length b).
Proof. induction a as [|h t IH]; intros [|g s]; simpl; auto. Qed.

(** * Order statistics *)
Lemma count_perm : forall A (p : A -> bool) l r, Permutation l r -> count p l = count p r.
Proof.
  intros A p l r H. unfold count. induction H; simpl; auto.
  - destruct (p x); simpl; auto.
  - destruct (p x), (p y); simpl; auto.
  - congruence.
Qed.
Lemma count_app : forall A (p : A -> bool) l r, count p (l ++ r) = count p l + count p r.
Proof. intros. unfold count. rewrite filter_app, app_length. auto. Qed.
Lemma count_all : forall A (p : A -> bool) l, (forall x, In x l -> p x = true) -> count p l = length l.
Proof.
  unfold count. induction l as [|h t IH]; intros H; simpl; auto.
  rewrite H by (left; auto). simpl. rewrite IH; auto. intros; apply H; right; auto.
Qed.
Lemma count_none : forall A (p : A -> bool) l, (forall x, In x l -> p x = false) -> count p l = 0.
Proof.
  unfold count. induction l as [|h t IH]; intros H; simpl; auto.
  rewrite H by (left; auto). apply IH. intros; apply H; right; auto.
Qed.
Lemma count_le_length : forall A (p : A -> bool) l, count p l <= length l.
Proof. unfold count. induction l as [|h t IH]; simpl; auto. destruct (p h); simpl; lia. Qed.

Lemma sorted_split : forall l k t, qsorted l -> nth_error l k = Some t ->
  (forall x, In x (firstn k l) -> x <= t)%Qc /\ (forall x, In x (skipn (S k) l) -> t <= x)%Qc.
Proof.
  intros l k t Hs E. split; intros x Ix.
  - apply in_firstn_nth in Ix. destruct Ix as (p & Hp & Ep). eapply qsorted_nth with (i := p) (j := k); eauto. lia.
  - apply in_skipn_nth in Ix. destruct Ix as (p & Hp & Ep). eapply qsorted_nth with (i := k) (j := p); eauto. lia.
Qed.
Lemma qsort_rank : forall l k t, nth_error (qsort l) k = Some t -> has_rank l k t.
Proof.
  intros l k t E. pose proof (qsort_perm l) as P.
  destruct (sorted_split _ _ _ (qsort_sorted l) E) as [A B].
  assert (L : k < length (qsort l)) by (eapply nth_error_lt; eauto).
  repeat split.
  - eapply Permutation_in; [symmetry; exact P|]. eapply nth_error_In; eauto.
  - rewrite (count_perm _ _ _ _ P), (split_nth _ _ _ _ E), count_app.
    pose proof (count_le_length _ (fun x => (x <? t)%Qc) (firstn k (qsort l))).
    rewrite firstn_length in H.
    rewrite (count_none _ _ (t :: skipn (S k) (qsort l))); [lia|].
    intros x [<-|Ix]; apply Qcltb_ge; [apply Qcle_refl|auto].
  - rewrite (count_perm _ _ _ _ P), (split_nth _ _ _ _ E), count_app.
    rewrite (count_all _ _ (firstn k (qsort l))) by (intros; apply Qcleb_le; auto).
    rewrite firstn_length. change (t :: skipn (S k) (qsort l)) with ([t] ++ skipn (S k) (qsort l)).
    rewrite count_app. rewrite (count_all _ _ [t]); [simpl; lia|].
    intros x [<-|[]]. apply Qcleb_le, Qcle_refl.
Qed.
Lemma rank_unique : forall l k t u, has_rank l k t -> has_rank l k u -> t = u.
Proof.
  assert (X : forall l (t u : Qc), (t < u)%Qc -> count (fun x => x <=? t)%Qc l <= count (fun x => x <? u)%Qc l).
  { unfold count. induction l as [|h s IH]; intros t u H; simpl; auto.
    destruct (h <=? t)%Qc eqn:E; qb_hyps.
    - assert (E2 : (h <? u)%Qc = true) by (apply Qcltb_lt; qlra). rewrite E2. simpl. specialize (IH t u H). lia.
    - specialize (IH t u H). destruct (h <? u)%Qc; simpl; lia. }
  intros l k t u (_ & A1 & B1) (_ & A2 & B2).
  destruct (Qc_dec t u) as [[H|H]|H]; auto; exfalso.
  - pose proof (X l t u H). lia.
  - pose proof (X l u t H). lia.
Qed.

(** * qint *)
Lemma qint_spec : forall x, (0 <= x)%Qc -> (qn (qint x) <= x)%Qc /\ (x < qn (qint x) + 1)%Qc.
Proof.
  intros x H. unfold qint, qn. rewrite Z2Nat.id.
  - unfold qz, Qcle, Qclt in *. rewrite this_add, this_q. split; [apply Qfloor_le|].
    pose proof (Qlt_floor (this x)) as F. rewrite inject_Z_plus in F. exact F.
  - assert (F : (Qfloor (inject_Z 0) <= Qfloor (this x))%Z) by (apply Qfloor_resp_le; exact H).
    rewrite Qfloor_Z in F. exact F.
Qed.
Lemma qint_unique : forall x k, (qn k <= x)%Qc -> (x < qn k + 1)%Qc -> qint x = k.
Proof.
  intros x k A B. assert (P : (0 <= x)%Qc) by (pose proof (qn_nonneg k); qlra).
  destruct (qint_spec x P) as [C D].
  assert (qint x < S k) by (apply qn_lt; rewrite qn_S; qlra).
  assert (k < S (qint x)) by (apply qn_lt; rewrite qn_S; qlra). lia.
Qed.
Lemma qn95 : qn 95 = Q2Qc 95. Proof. apply Qc_is_canon; reflexivity. Qed.
Lemma qn100 : qn 100 = Q2Qc 100. Proof. apply Qc_is_canon; reflexivity. Qed.
Lemma qint95 : forall m, qint (qn m * Q2Qc (95 # 100))%Qc = 95 * m / 100.
Proof.
  intros m. remember (95 * m / 100) as k eqn:Ek.
  assert (A : 100 * k <= 95 * m) by (subst k; apply Nat.mul_div_le; lia).
  assert (B : 95 * m < 100 * S k) by (subst k; apply Nat.mul_succ_div_gt; lia).
  apply (proj1 (qn_le _ _)) in A. apply (proj1 (qn_lt _ _)) in B.
  rewrite (qn_mul 100 k), (qn_mul 95 m), qn95, qn100 in A.
  rewrite (qn_mul 100 (S k)), (qn_mul 95 m), (qn_S k), qn95, qn100 in B.
  apply qint_unique; qlra.
Qed.
Lemma pos95 : forall m, 0 < m -> 95 * m / 100 < m.
Proof. intros. apply Nat.div_lt_upper_bound; lia. Qed.

Lemma get_threshold_rank : forall scores, scores <> [] ->
  exists t, get_threshold scores = Ok t /\ has_rank scores (95 * length scores / 100) t.
Proof.
  intros [|h s] H; [congruence|]. unfold get_threshold. cbv zeta. rewrite qint95.
  destruct (get_in _ (qsort (h :: s)) (95 * length (qsort (h :: s)) / 100)) as (t & G & E).
  { apply pos95. rewrite qsort_length. simpl; lia. }
  exists t. split; auto. rewrite qsort_length in E. apply qsort_rank; auto.
Qed.

(** * Normalisation *)
Lemma clip_cut : forall lo hi x, (lo <= hi)%Qc -> cut_to lo hi x (clip lo hi x).
Proof. intros lo hi x H. unfold cut_to, clip, Qcmax. destruct (x <=? lo)%Qc eqn:E1; unfold Qcmin; qb_case; qb_hyps; repeat split; intros; auto; qlra. Qed.
Lemma cut_unique : forall lo hi x y z, (lo <= hi)%Qc -> cut_to lo hi x y -> cut_to lo hi x z -> y = z.
Proof.
  intros lo hi x y z H (A & B & C) (A' & B' & C').
  destruct (Qclt_le_dec' x lo) as [D|D]; [rewrite A, A'; auto|].
  destruct (Qclt_le_dec' hi x) as [F|F]; [rewrite B, B'; auto|]. rewrite C, C'; auto.
Qed.
Lemma clip_bounds : forall lo hi x, (lo <= hi)%Qc -> (lo <= clip lo hi x /\ clip lo hi x <= hi)%Qc.
Proof. intros lo hi x H. unfold clip, Qcmax. destruct (x <=? lo)%Qc eqn:E1; unfold Qcmin; qb_case; qb_hyps; split; auto; qlra. Qed.
Lemma clip_mono : forall lo hi x y, (x <= y)%Qc -> (clip lo hi x <= clip lo hi y)%Qc.
Proof.
  intros lo hi x y H. unfold clip, Qcmax. destruct (x <=? lo)%Qc eqn:E1; destruct (y <=? lo)%Qc eqn:E2;
    unfold Qcmin; qb_case; qb_hyps; auto; qlra.
Qed.

Lemma normalize_row_ok : forall row mn mx lo hi, length mn = length row -> length mx = length row ->
  exists out, normalize_row row mn mx lo hi = Ok out.
Proof.
  induction row as [|x r IH]; intros [|a s] [|b t] lo hi H1 H2; simpl in *; try discriminate; eauto.
  destruct (IH s t lo hi) as [o Eo]; try lia. rewrite Eo, bind_ok. eauto.
Qed.
Lemma normalize_row_spec : forall row mn mx lo hi out, (lo <= hi)%Qc ->
  normalize_row row mn mx lo hi = Ok out ->
  length mn = length row /\ length mx = length row /\ scaled_row lo hi mn mx row out.
Proof.
  intros row mn mx lo hi out H. revert mn mx out.
  induction row as [|x r IH]; intros [|a s] [|b t] out E; simpl in E; try discriminate.
  - inversion E; subst. split; auto. split; auto. split; auto. intros [|j]; discriminate.
  - dbind E. inversion E; subst. apply IH in E0. destruct E0 as (L1 & L2 & L3 & P).
    split; [simpl; lia|]. split; [simpl; lia|]. split; [simpl; lia|].
    intros [|j] x' a' b' y'; simpl; intros.
    + injection H0 as <-. injection H1 as <-. injection H2 as <-. injection H3 as <-. apply clip_cut; auto.
    + eapply P; eauto.
Qed.
(** The specification determines the normalised row. *)
Lemma scaled_row_unique : forall lo hi mn mx raw a b, (lo <= hi)%Qc ->
  length mn = length raw -> length mx = length raw ->
  scaled_row lo hi mn mx raw a -> scaled_row lo hi mn mx raw b -> a = b.
Proof.
  intros lo hi mn mx raw a b H L1 L2 (La & Pa) (Lb & Pb).
  apply nth_error_ext_len; [lia|]. intros k Hk.
  destruct (nth_error_ex _ a k ltac:(lia)) as [x Ex]. destruct (nth_error_ex _ b k ltac:(lia)) as [y Ey].
  destruct (nth_error_ex _ raw k ltac:(lia)) as [r Er]. destruct (nth_error_ex _ mn k ltac:(lia)) as [u Eu].
  destruct (nth_error_ex _ mx k ltac:(lia)) as [v Ev].
  rewrite Ex, Ey. f_equal. eapply cut_unique; eauto.
Qed.

(** * Windows *)
Lemma x_end_idx_spec : forall n w i h, 0 < i ->
  exists ends, x_end_idx n w i h = Ok ends /\ length ends = (n + 1 - h - w) / i /\
    forall k e, nth_error ends k = Some e -> e = w + k * i /\ e + h <= n.
Proof.
  intros n w i h Hi. destruct i as [|i]; [lia|]. unfold x_end_idx. cbv zeta.
  eexists. split; [reflexivity|]. unfold range. rewrite map_length, seq_length. split; auto.
  intros k e E. rewrite nth_error_map, nth_error_seq in E.
  destruct (k <? (n + 1 - h - w) / S i) eqn:C; [|discriminate]. simpl in E. inversion E; subst. clear E.
  split; [lia|]. apply Nat.ltb_lt in C.
  assert (S i * ((n + 1 - h - w) / S i) <= n + 1 - h - w) by (apply Nat.mul_div_le; lia). nia.
Qed.

Lemma dataset_spec : forall data d w i h mn mx lo hi, 0 < i -> 0 < w + h -> (lo <= hi)%Qc ->
  width d data -> length mn = d -> length mx = d ->
  exists samples, dataset data w i h mn mx lo hi = Ok samples /\
    length samples = (length data + 1 - h - w) / i /\
    forall k x y, nth_error samples k = Some (x, y) ->
      w + k * i + h <= length data /\
      scaled_rows lo hi mn mx (slice data (k * i) (k * i + w)) x /\
      exists t, nth_error data (k * i + w + h - 1) = Some t /\ scaled_row lo hi mn mx t y.
Proof.
  intros data d w i h mn mx lo hi Hi Hwh Hlh Wd Lmn Lmx.
  destruct (x_end_idx_spec (length data) w i h Hi) as (ends & E & L & P).
  unfold dataset. rewrite E, bind_ok.
  assert (Wn : forall r, In r data -> exists o, normalize_row r mn mx lo hi = Ok o).
  { intros r Ir. unfold width in Wd. rewrite Forall_forall in Wd. apply Wd in Ir.
    apply normalize_row_ok; lia. }
  destruct (mapM_total _ _ (sample_at data w h mn mx lo hi) ends) as [samples Es].
  { intros e Ie. apply In_nth_error in Ie. destruct Ie as [k Ek]. destruct (P k e Ek) as [-> B].
    unfold sample_at.
    destruct (mapM_total _ _ (fun r => normalize_row r mn mx lo hi) (slice data (w + k * i - w) (w + k * i))) as [x Ex].
    { intros r Ir. apply Wn. unfold slice in Ir.
      apply In_nth_error in Ir. destruct Ir as [q Iq]. rewrite nth_error_firstn, nth_error_skipn in Iq.
      destruct (q <? _); [|discriminate]. eapply nth_error_In; eauto. }
    rewrite Ex, bind_ok.
    destruct (get_in _ data (w + k * i + h - 1)) as (t & G & T); [lia|]. rewrite G, bind_ok.
    destruct (Wn t) as [y Ey]; [eapply nth_error_In; eauto|]. rewrite Ey, bind_ok. eauto. }
  exists samples. split; auto. split; [rewrite (mapM_len _ _ _ _ _ Es); auto|].
  intros k x y Ek. destruct (mapM_nth_r _ _ _ _ _ _ _ Es Ek) as (e & Ee & S1).
  destruct (P _ _ Ee) as [-> B]. split; [lia|]. unfold sample_at in S1.
  dbind S1. rename E0 into Ex. dbind S1. rename E0 into Et. dbind S1. rename E0 into Ey. inversion S1; subst.
  replace (w + k * i - w) with (k * i) in Ex by lia. replace (w + k * i) with (k * i + w) in Ex by lia.
  apply mapM_ok in Ex. split.
  - unfold scaled_rows. eapply F2_impl; [|exact Ex]. intros r o Ho.
    apply (normalize_row_spec _ _ _ _ _ _ Hlh Ho).
  - exists a0. apply get_ok in Et. replace (k * i + w + h - 1) with (w + k * i + h - 1) by lia.
    split; auto. apply (normalize_row_spec _ _ _ _ _ _ Hlh Ey).
Qed.

(** * Batching *)
Lemma chunks_concat : forall A f b (l : list A), 0 < b -> length l <= f -> concat (chunks f b l) = l.
Proof.
  induction f as [|f IH]; intros b l Hb Hl.
  - destruct l; [auto|simpl in Hl; lia].
  - destruct l as [|x t]; auto. cbn [chunks concat]. rewrite IH; auto.
    + apply firstn_skipn.
    + rewrite skipn_length. cbn [length] in *. lia.
Qed.
Lemma chunks_full : forall A f b (l : list A), 0 < b -> length l <= f ->
  concat (filter (fun g => length g =? b) (chunks f b l)) = firstn (length l / b * b) l /\
  length (filter (fun g => length g =? b) (chunks f b l)) = length l / b.
Proof.
  induction f as [|f IH]; intros b l Hb Hl.
  - destruct l; [|simpl in Hl; lia]. cbn [chunks filter concat length]. rewrite Nat.div_0_l by lia. auto.
  - destruct l as [|x t].
    { cbn [chunks filter concat length]. rewrite Nat.div_0_l by lia. auto. }
    cbn [chunks filter]. set (l := x :: t) in *.
    destruct (IH b (skipn b l) Hb) as [I1 I2].
    { rewrite skipn_length. assert (length l = S (length t)) by reflexivity. lia. }
    rewrite skipn_length in *. rewrite firstn_length.
    destruct (Nat.le_gt_cases b (length l)) as [C|C].
    + rewrite Nat.min_l by auto. rewrite Nat.eqb_refl. cbn [concat length]. rewrite I1, I2.
      assert (Q : length l / b = S ((length l - b) / b)).
      { replace (length l) with ((length l - b) + 1 * b) at 1 by lia. rewrite Nat.div_add by lia. lia. }
      rewrite Q. split; auto. cbn [Nat.mul].
      transitivity (firstn (b + (length l - b) / b * b) (firstn b l ++ skipn b l)); [|rewrite firstn_skipn; auto].
      rewrite firstn_app, firstn_firstn, firstn_length.
      rewrite Nat.min_r by lia. rewrite Nat.min_l by lia.
      replace (b + (length l - b) / b * b - b) with ((length l - b) / b * b) by lia. auto.
    + rewrite Nat.min_r by lia. destruct (length l =? b) eqn:E; [apply Nat.eqb_eq in E; lia|].
      rewrite I1, I2. replace (length l - b) with 0 by lia. rewrite Nat.div_0_l by lia.
      rewrite Nat.div_small by auto. simpl. auto.
Qed.
Lemma chunks_sizes : forall A f b (l : list A) g, 0 < b -> In g (chunks f b l) -> 0 < length g <= b.
Proof.
  induction f as [|f IH]; intros b l g Hb Hg; [inversion Hg|].
  destruct l as [|x t]; [inversion Hg|]. cbn [chunks] in Hg. destruct Hg as [<-|Hg].
  - rewrite firstn_length. simpl. lia.
  - eapply IH; eauto.
Qed.
