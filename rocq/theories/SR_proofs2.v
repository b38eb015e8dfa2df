(** Totality and selection of the spectral residual detector. *)
From Coq Require Import List Arith ZArith QArith Qcanon Qround Lia Bool Sorted Permutation.
From Verif Require Import Base Num Sorting Kernel_model Kernel_proofs FillUp_model Helpers_model Helpers_spec Helpers_proofs Helpers_proofs2 Helpers_props
  Margins_model SR_model SR_spec Detect_model Detect_spec Detect_proofs Detect_proofs2 Detect_proofs3 Detect_proofs4 SR_proofs.
Import ListNotations.
Open Scope nat_scope.

Lemma qfloor_bounds : forall x : Qc, (qz (Qfloor (this x)) <= x)%Qc /\ (x < qz (Qfloor (this x)) + 1)%Qc.
Proof.
  intros x. pose proof (Qfloor_le (this x)) as A. pose proof (Qlt_floor (this x)) as B. rewrite inject_Z_plus in B.
  split.
  - unfold Qcle. rewrite this_qz. auto.
  - unfold Qclt. rewrite this_add, this_qz. auto.
Qed.

Lemma np_quantile_total : forall values q, values <> [] -> (0 <= q)%Qc -> (q < 1)%Qc -> exists x, np_quantile values q = Ok x.
Proof.
  intros values q NE Q0 Q1. unfold np_quantile. cbv zeta.
  set (h := (qn (length values - 1) * q)%Qc). set (k := Z.to_nat (Qfloor (this h))).
  assert (LN : 0 < length values) by (destruct values; [contradiction|simpl; lia]).
  assert (K : k <= length values - 1).
  { destruct (qfloor_bounds h) as [A _].
    pose proof (qn_nonneg (length values - 1)) as NN.
    assert (H : (h <= qn (length values - 1))%Qc) by (unfold h; qnra).
    assert (X : (qz (Qfloor (this h)) <= qn (length values - 1))%Qc) by qlra.
    unfold qn in X. apply qz_le in X. unfold k. lia. }
  destruct (get_in _ (qsort values) k) as (a & Ea & _); [rewrite qsort_length; lia|]. rewrite Ea, bind_ok.
  destruct (length values <=? S k) eqn:E; [eauto|]. apply Nat.leb_gt in E.
  destruct (get_in _ (qsort values) (S k)) as (b & Eb & _); [rewrite qsort_length; lia|]. rewrite Eb, bind_ok. eauto.
Qed.

Lemma ahead_len : forall rv a b q i acc, length (ahead_loop rv a b q i acc) = i + length acc.
Proof.
  induction rv as [|v t IH]; intros a b q i acc; destruct i as [|i]; auto.
  - cbn [ahead_loop]. rewrite app_length, repeat_length. auto.
  - cbn [ahead_loop]. destruct ((a <=? v)%Qc && (v <=? b)%Qc); rewrite IH; simpl; lia.
Qed.

Lemma predict_next_total : forall l, 2 <= length l -> exists x, predict_next l = Ok x.
Proof.
  intros l H. unfold predict_next. cbv zeta. assert (X : (length l <=? 1) = false) by (apply Nat.leb_gt; lia). rewrite X. eauto.
Qed.

Lemma extend_total : forall values r, 3 <= length values -> exists x, extend_series values r = Ok (values ++ repeat x 5).
Proof.
  intros values r H. unfold extend_series.
  assert (NE : values <> []) by (intros X; subst; simpl in H; lia).
  destruct r.
  - destruct (np_quantile_total values (Q2Qc (3 # 4))) as [a ->]; auto; try qlra.
    destruct (np_quantile_total values (Q2Qc (1 # 2))) as [b ->]; auto; try qlra.
    destruct (np_quantile_total values (Q2Qc (1 # 4))) as [c ->]; auto; try qlra.
    repeat rewrite bind_ok.
    destruct (predict_next_total (ahead_loop (rev values) (c - Q2Qc (3 # 2) * (a - c)) (a + Q2Qc (3 # 2) * (a - c)) b 6 [])) as [x ->].
    { rewrite ahead_len. simpl. lia. }
    rewrite bind_ok. eauto.
  - rewrite bind_ok. destruct (predict_next_total (slice values (length values - 7) (length values - 1))) as [x ->].
    { rewrite slice_length. lia. }
    rewrite bind_ok. eauto.
Qed.

Lemma first_drop_total : forall scores x is d, (forall i, In i is -> i < length scores) ->
  exists k, first_drop scores x is d = Ok k /\ (In k is \/ k = d).
Proof.
  induction is as [|i t IH]; intros d H; cbn [first_drop]; [eauto|].
  destruct (get_in _ scores i) as (s & Es & _); [apply H; left; auto|]. rewrite Es, bind_ok.
  destruct (x <=? s)%Qc.
  - exists i. split; auto. left. left. auto.
  - destruct (IH d) as (k & E & K); [intros; apply H; right; auto|]. exists k. split; auto. destruct K; [left; right; auto|right; auto].
Qed.

Lemma nth_error_app_l : forall A (a b : list A) k, k < length a -> nth_error (a ++ b) k = nth_error a k.
Proof. intros. apply nth_error_app1. auto. Qed.

(** The candidates and the reported ones. *)
Lemma cand_labels : forall (scores : list Qc) n k i s, In (i, s) (combine (seq k n) scores) <->
  exists q, i = k + q /\ q < n /\ nth_error scores q = Some s.
Proof.
  induction scores as [|x t IH]; intros n k i s; destruct n as [|n]; simpl; split; try tauto.
  - intros (q & _ & X & _). lia.
  - intros (q & _ & _ & X). destruct q; discriminate X.
  - intros (q & _ & X & _). lia.
  - intros [X|X].
    + inversion X; subst. exists 0. repeat split; auto; lia.
    + apply IH in X. destruct X as (q & A & B & C). exists (S q). repeat split; auto; lia.
  - intros (q & A & B & C). destruct q as [|q].
    + left. inversion C; subst. rewrite Nat.add_0_r. auto.
    + right. apply IH. exists q. repeat split; auto; lia.
Qed.
Lemma cand_nodup : forall (l : list Qc) n k, NoDup (map fst (combine (seq k n) l)).
Proof.
  assert (G : forall (l : list Qc) n k, NoDup (map fst (combine (seq k n) l)) /\ forall x, In x (map fst (combine (seq k n) l)) -> k <= x).
  { induction l as [|y t IH]; intros [|n] k; simpl; try (split; [constructor; fail|intros ? []; fail]).
    destruct (IH n (S k)) as [I1 I2]. split.
    - constructor; auto. intros X. apply I2 in X. lia.
    - intros x [<-|X]; auto. apply I2 in X. lia. }
  intros. apply G.
Qed.

Lemma firstn_sorted_ge : forall (l : list (nat * Qc)) q a b, StronglySorted (fun a b => (snd b <= snd a)%Qc) l ->
  In a (firstn q l) -> In b l -> ~ In b (firstn q l) -> (snd b <= snd a)%Qc.
Proof.
  induction l as [|x t IH]; intros q a b HS A B NB; [destruct q; contradiction|].
  destruct q as [|q]; [contradiction|]. cbn [firstn] in *. inversion HS as [|? ? S' F]; subst.
  destruct B as [->|B]; [exfalso; apply NB; left; auto|].
  destruct A as [->|A].
  - rewrite Forall_forall in F. apply F; auto.
  - apply (IH q); auto. intros X. apply NB. right. auto.
Qed.

Section SR.
Variable transform : list Qc -> list Qc.
Variable std : list Qc -> Qc.
Variable trend_detection : list Qc -> option nat -> res (list Qc).
Variable sort_desc : list (nat * Qc) -> list (nat * Qc).
Notation gen := (generate_spectral_score transform).
Notation SR := (spectral_residual_detection transform std trend_detection sort_desc).

Definition length_preserving : Prop := forall l, length (transform l) = length l.

Lemma gen_total : length_preserving -> forall series r, 3 <= length series ->
  exists s, gen series r = Ok s /\ length s = length series.
Proof.
  intros LP series r H. unfold generate_spectral_score.
  destruct (extend_total series r H) as [x ->]. rewrite bind_ok. cbv zeta.
  set (mag := firstn (length series) (transform (series ++ repeat x 5))).
  assert (LM : length mag = length series).
  { unfold mag. rewrite firstn_length, LP, app_length. lia. }
  rewrite C23_average_filter_fill_to_n by lia. rewrite bind_ok. eexists. split; eauto.
  rewrite zip_with_length, !map_length. unfold range. rewrite seq_length. lia.
Qed.

(** The first position is a skeleton point. *)
Definition first_settled : Prop :=
  forall l m, nth_error (transform l) 0 = Some m -> (0 <= m)%Qc /\ ((m <= Q2Qc 2 * EPS)%Qc \/ (Q2Qc 3 * EPS < m)%Qc).

Lemma gen_first : first_settled -> forall series r s s0, gen series r = Ok s -> nth_error s 0 = Some s0 -> (s0 <= 1)%Qc.
Proof.
  intros FS series r s s0 H H0. unfold generate_spectral_score in H. bind_inv H. cbv zeta in H.
  set (mag := firstn (length series) (transform a)) in *.
  rewrite C23_average_filter_fill_to_n in H by lia. rewrite bind_ok in H. inversion H; subst s; clear H.
  rewrite zip_with_combine, nth_error_map in H0.
  destruct mag as [|m t] eqn:EM; [discriminate H0|].
  cbn [length range seq map combine nth_error option_map fst snd] in H0. unfold range in H0. cbn [seq map combine nth_error option_map fst snd] in H0.
  assert (PM : padded_mean (m :: t) 100 0 = m) by reflexivity.
  rewrite PM in H0.
  assert (X : nth_error (transform a) 0 = Some m).
  { assert (Y : nth_error mag 0 = Some m) by (rewrite EM; auto). unfold mag in Y. rewrite nth_error_firstn in Y.
    destruct (0 <? length series); [auto|discriminate Y]. }
  destruct (FS _ _ X) as [P Q]. inversion H0; subst s0; clear H0.
  assert (EP : (0 < EPS)%Qc) by (unfold EPS; qlra).
  destruct (isclose m EPS) eqn:EC.
  - apply Qcdiv_le_iff; auto. unfold isclose in EC. qb_hyps.
    assert (Z : (m <= Q2Qc 2 * EPS)%Qc).
    { destruct Q as [Q|Q]; auto. exfalso. revert EC Q EP. unfold EPS. qmm; qlra. }
    qmm; qlra.
  - unfold isclose in EC. qb_hyps.
    assert (M0 : (0 < m)%Qc). { revert EC P. unfold EPS. qmm; qlra. }
    apply Qcdiv_le_iff; auto. qmm; qlra.
Qed.

Lemma sr_detect_total : length_preserving -> forall series q lm, 12 <= length series ->
  exists scores m, sr_detect transform std series q lm = Ok (scores, m) /\ length scores = length series /\
    (first_settled -> exists s0, nth_error scores 0 = Some s0 /\ (s0 <= 1)%Qc).
Proof.
  intros LP series q lm H. unfold sr_detect. destruct lm; cbv zeta.
  2:{ destruct (gen_total LP series true) as (s & E & L); [lia|]. rewrite E, bind_ok. exists s, SpectralResidual. split; auto. split; auto.
      intros FS. destruct (nth_error_ex _ s 0) as [s0 H0]; [lia|]. exists s0. split; auto. eapply gen_first; eauto. }
  destruct (gen_total LP series false) as (s & E & L); [lia|]. rewrite E, bind_ok.
  set (n := length series) in *.
  set (md := Nat.min (Nat.max q (n / 10)) (45 * n / 100)).
  assert (MD : md <= n - 6).
  { unfold md. assert (45 * n / 100 <= n - 6); [|lia]. apply Nat.div_le_upper_bound; lia. }
  destruct (get_in _ series (n - 1)) as (vl & Ev & _); [fold n; lia|]. rewrite Ev, bind_ok.
  destruct (first_drop_total s (Q2Qc (3 # 2)) (seq (n - md) md) (n - 1)) as (k & Ek & K).
  { intros i I. apply in_seq in I. lia. }
  rewrite Ek, bind_ok.
  assert (KB : 6 <= k <= n - 1). { destruct K as [K| ->]; [apply in_seq in K|]; lia. }
  set (fl := firstn k series ++ [vl]).
  assert (LF : length fl = S k). { unfold fl. rewrite app_length, firstn_length. simpl. fold n. lia. }
  destruct (gen_total LP fl false) as (fs & Ef & Lf); [lia|]. rewrite Ef, bind_ok.
  destruct (get_in _ fs (length fs - 1)) as (f & Efl & _); [lia|]. rewrite Efl, bind_ok.
  set (sc := firstn k s ++ repeat (SKELETON * Q2Qc 2)%Qc (n - 1 - k) ++ skipn (n - 1) s).
  assert (LS : length sc = n). { unfold sc. rewrite !app_length, firstn_length, repeat_length, skipn_length. lia. }
  assert (F0 : forall x, first_settled -> exists s0, nth_error (upd sc (n - 1) x) 0 = Some s0 /\ (s0 <= 1)%Qc).
  { intros x FS. destruct (nth_error_ex _ s 0) as [s0 H0]; [lia|]. exists s0. split; [|apply (gen_first FS series false s s0 E H0)].
    rewrite nth_error_upd_other by lia. unfold sc. rewrite nth_error_app_l by (rewrite firstn_length; lia).
    rewrite nth_error_firstn. assert (X : (0 <? k) = true) by (apply Nat.ltb_lt; lia). rewrite X. auto. }
  destruct (_ && _); eexists; eexists; (split; [reflexivity|]); (split; [rewrite upd_length; auto|auto]).
Qed.

Lemma sr_inv : (forall l, Permutation l (sort_desc l)) -> forall series th ratio nt lm rows m, SR series th ratio nt lm = Ok (rows, m) ->
  exists scores e idx t, sr_detect transform std series (sr_quota (length series) ratio) lm = Ok (scores, m) /\
   length scores = length series /\
   (if lm then last_expected series (map (fun s => (s <=? SKELETON)%Qc) scores)
    else do e <- skeleton_expected series (map (fun s => (s <=? SKELETON)%Qc) scores); average_filter e 5 false) = Ok e /\
   result_frame series e t (Some (map normalise_score scores)) idx = Ok rows /\
   idx = map fst (firstn (sr_quota (length series) ratio)
           (sort_desc (filter (fun p => (th <=? snd p)%Qc) (combine (range (length series)) scores)))).
Proof.
  intros HP series th ratio nt lm rows m H. unfold spectral_residual_detection in H. cbv zeta in H.
  bind_inv H. bind_inv H. bind_inv H. bind_inv H. inversion H; subst rows m; clear H.
  destruct a as [scores m]. cbn [fst snd] in *.
  match type of E2 with result_frame _ _ ?t _ (map fst (firstn (Nat.min ?q (length ?c)) ?d)) = _ =>
    exists scores, a0, (map fst (firstn (Nat.min q (length c)) d)), t; set (cand := c) in * end.
  assert (LS : length scores = length series).
  { pose proof (frame_columns _ _ _ _ _ _ E2) as (_ & X & Y & _).
    apply (f_equal (@length Qc)) in X. apply (f_equal (@length Qc)) in Y. rewrite !map_length in *. lia. }
  split; auto. split; auto. split; auto. split; auto.
  rewrite (Permutation_length (HP cand)). rewrite firstn_min_length. auto.
Qed.

(** Entire and last mode answer every series of at least 12 points. *)
Lemma sr_total : length_preserving -> (forall s p, exists t, trend_detection s p = Ok t /\ length t = length s) ->
  forall series th ratio nt lm, 12 <= length series -> (lm = true -> first_settled) ->
  exists rows m, SR series th ratio nt lm = Ok (rows, m) /\ length rows = length series.
Proof.
  intros LP TD series th ratio nt lm H FS. unfold spectral_residual_detection. cbv zeta.
  destruct (sr_detect_total LP series (sr_quota (length series) ratio) lm H) as (scores & m & E & L & F0).
  rewrite E, bind_ok. cbn [fst snd].
  set (skel := map (fun s => (s <=? SKELETON)%Qc) scores).
  assert (EX : exists e, (if lm then last_expected series skel else do e <- skeleton_expected series skel; average_filter e 5 false) = Ok e
                         /\ length e = length series).
  { destruct lm.
    - destruct (F0 (FS eq_refl)) as (s0 & H0 & S1). unfold last_expected. cbv zeta.
      set (pts := map fst (filter snd (combine series skel))).
      assert (PN : pts <> []).
      { unfold pts, skel. destruct series as [|v t]; [simpl in H; lia|]. destruct scores as [|x sc]; [simpl in L; lia|].
        inversion H0; subst x. cbn [map combine filter snd].
        assert (X : (s0 <=? SKELETON)%Qc = true) by (apply Qcleb_le; auto). rewrite X. discriminate. }
      destruct (skipn (length pts / 2) pts) as [|w W] eqn:EW.
      + exfalso. apply (f_equal (@length Qc)) in EW. rewrite skipn_length in EW. cbn [length] in EW.
        assert (0 < length pts) by (destruct pts; [contradiction|simpl; lia]).
        assert (length pts / 2 < length pts) by (apply Nat.div_lt; lia). lia.
      + eexists. split; [reflexivity|]. rewrite app_length, firstn_length. simpl. lia.
    - rewrite skeleton_expected_ok by (unfold skel; rewrite map_length; auto). rewrite bind_ok.
      rewrite C23_average_filter_trailing_mean by lia. eexists. split; [reflexivity|].
      rewrite !map_length. unfold range. rewrite !seq_length. auto. }
  destruct EX as (e & -> & LE). rewrite bind_ok.
  assert (TX : exists t, (if nt then do t <- trend_detection e None; Ok (Some t) else Ok None) = Ok t /\
                (forall l, t = Some l -> length l = length series)).
  { destruct nt.
    - destruct (TD e None) as (t & -> & LT). rewrite bind_ok. eexists. split; [reflexivity|]. intros l X. inversion X; subst. lia.
    - eexists. split; [reflexivity|]. discriminate. }
  destruct TX as (t & -> & LT). rewrite bind_ok.
  match goal with |- context [result_frame ?a ?b ?c ?d ?i] => destruct (result_frame_total a b c d i) as (rows & ER); auto end.
  { intros l X. inversion X; subst. rewrite map_length. auto. }
  rewrite ER, bind_ok. exists rows, m. split; auto. apply result_frame_spec in ER. tauto.
Qed.
End SR.
