(** Properties of the multivariate detector: labels, thresholds, decisions and
    interpretation (C43-C45, C51-C53, C55, C72-C74, C76). *)
From Coq Require Import String List Arith ZArith Lia Bool Permutation Sorted.
From Verif Require Import Base Num Sorting Kernel_model Kernel_proofs Helpers_model Helpers_spec Helpers_proofs
  Mv_model Mv_state Mv_spec Mv_spec2 Mv_proofs Mv_proofs2 Mv_proofs3 Mv_proofs4 Mv_proofs5 Mv_proofs6 Mv_proofs7 Mv_toy Mv_props.
Import ListNotations.
Open Scope nat_scope.

(** * C43 *)
(** Labels come from the submitted order, scored rows from the label order. *)
Theorem C43_label_and_scored_row : forall parse_int isort argsort_desc gap e1 W net d c w th pct fs data params p' rs,
  good_sorts isort argsort_desc -> trained W d c w th pct -> fits c data ->
  predict parse_int isort argsort_desc gap e1 W net d fs data params = (p', Ok rs) ->
  exists order m value variables rows, increasing_order (f_index data) order /\ asks params m value /\
    prepared order m value data variables rows /\
    forall k r, nth_error rs k = Some r -> let q := c_input c + c_tw c - 1 + k in
      nth_error (f_index data) q = Some (r_index r) /\
      row_error (fun x => fst (net w x)) gap (c_min c) (c_max c) pct (c_input c) rows q (r_score r).
Proof.
  intros parse isort asort gap e1 W net d c w th pct fs data params p' rs [Gi Ga] Tr (H1 & H2 & H3 & H4 & H5 & H6) H.
  destruct (predict_spec _ _ _ _ _ _ _ Gi _ _ _ _ _ _ _ _ _ _ Tr H6 H1 H2 H3 H4 H5 H)
    as (m & v & vs & rows & total & attn & contrib & A & P & Lv & Ln & Lt & La & Lc & Rt & Ra & Rc & Lr & R).
  exists (isort (f_index data)), m, v, vs, rows. split; auto. split; auto. split; auto.
  intros k r E q. destruct (R k r E) as (E1 & E2 & _). split; auto.
  unfold q. replace (c_input c + c_tw c - 1 + k) with (c_input c + (c_tw c - 1 + k)) by lia. apply Rt. auto.
Qed.
Print Assumptions C43_label_and_scored_row.

(** What a caller expects of a result: its score is the error of predicting
    the complete row that carries its label (from whatever input). *)
Definition scores_its_label (prediction : list (list Qc) -> list Qc) (gap : Qc -> Qc) (mn mx pct : list Qc)
  (data : frame) (r : result) : Prop :=
  forall p t, nth_error (f_index data) p = Some (r_index r) -> length t = length (f_cols data) ->
    (forall j name col x, nth_error (f_cols data) j = Some (name, col) -> nth_error t j = Some x -> observed col p x) ->
    exists x y, scaled_row (Q2Qc (-1000)) (Q2Qc 1000) mn mx t y /\ weighted_error gap (prediction x) y pct (r_score r).

Definition C43_data : frame := toy_frame [1; 0]%Z (map Q2Qc [5; 7]%Q).
Example C43_seen : seen_all (toy_predict 1 1 (Q2Qc (4 # 10)) C43_data []) = Ok [(0%Z, true, 5 # 1)]%Q.
Proof. vm_compute. reflexivity. Qed.
Theorem C43_label_refuted : ~ (forall parse_int isort argsort_desc gap e1 W net d c w th pct fs data params p' rs r,
  good_sorts isort argsort_desc -> trained W d c w th pct -> fits c data -> NoDup (f_index data) ->
  predict parse_int isort argsort_desc gap e1 W net d fs data params = (p', Ok rs) -> In r rs ->
  scores_its_label (fun x => fst (net w x)) gap (c_min c) (c_max c) pct data r).
Proof.
  intros H.
  destruct (seen_inv _ _ C43_seen) as (p' & rs & Ep & S').
  destruct rs as [|r [|? ?]]; try discriminate S'. cbn in S'. unfold seen in S'. injection S' as R1 R2 R3.
  assert (Tr : trained unit (toy_detector 1 1 (Q2Qc (4 # 10))) (toy_config 1 1) tt (Q2Qc (4 # 10)) [1%Qc]) by (repeat split).
  assert (Ft : fits (toy_config 1 1) C43_data).
  { unfold fits. cbn. repeat split; auto. intros n c [Hc|[]]. inversion Hc; subst. reflexivity. }
  assert (Nd : NoDup (f_index C43_data)).
  { cbn. constructor; [intros [?|[]]; discriminate|]. constructor; [intros []|constructor]. }
  unfold toy_predict in Ep.
  specialize (H _ _ _ _ _ _ _ _ _ _ _ _ _ _ _ _ _ r (conj toy_isort_ok toy_argsort_ok) Tr Ft Nd Ep (or_introl eq_refl)).
  destruct (H 1 [Q2Qc 7]) as (x & y & (Ly & Sc) & cc & (_ & _ & Lc & Wc) & Es); auto.
  { rewrite R1. reflexivity. }
  { intros j name col z Ej Ez. destruct j as [|[|j]]; [|discriminate Ej|discriminate Ej]. cbn in Ej, Ez. inversion Ej; inversion Ez; subst. reflexivity. }
  cbn in Ly. destruct y as [|y [|? ?]]; try discriminate Ly. cbn in Lc. destruct cc as [|u [|? ?]]; try discriminate Lc.
  specialize (Sc 0 (Q2Qc 7) 0%Qc (Q2Qc (99999999 # 100000000)) y eq_refl eq_refl eq_refl eq_refl).
  assert (y = Q2Qc 7).
  { destruct Sc as (_ & _ & C). rewrite C; [|apply Qclt_le_weak; reflexivity|apply Qclt_le_weak; reflexivity].
    apply Qc_is_canon. reflexivity. }
  subst y. specialize (Wc 0 0%Qc (Q2Qc 7) 1%Qc u eq_refl eq_refl eq_refl eq_refl). subst u.
  rewrite Es in R3. vm_compute in R3. discriminate.
Qed.
Print Assumptions C43_label_refuted.

(** * C44 *)
(** The scores compared with each other: row [input + i] has score [total i].
    The threshold of the result for row [q = input + tw - 1 + k] is the 95%
    rank of the scores of rows [q - 2(tw-1) .. q - (tw-1)], cut at the first
    scored row. *)
Theorem C44_window_used : forall parse_int isort argsort_desc gap e1 W net d c w th pct fs data params p' rs,
  good_sorts isort argsort_desc -> trained W d c w th pct -> fits c data ->
  predict parse_int isort argsort_desc gap e1 W net d fs data params = (p', Ok rs) ->
  exists m value variables rows total, asks params m value /\
    prepared (isort (f_index data)) m value data variables rows /\
    length total = length (f_index data) - c_input c /\
    (forall i s, nth_error total i = Some s ->
       row_error (fun x => fst (net w x)) gap (c_min c) (c_max c) pct (c_input c) rows (c_input c + i) s) /\
    forall k r, nth_error rs k = Some r ->
      nth_error total (c_tw c - 1 + k) = Some (r_score r) /\
      exists t, let wd := slice total (k + 1 - c_tw c) (k + 1) in
        has_rank wd (95 * length wd / 100) t /\ (r_anomaly r = true <-> flagged th (r_score r) t).
Proof.
  intros parse isort asort gap e1 W net d c w th pct fs data params p' rs [Gi Ga] Tr (H1 & H2 & H3 & H4 & H5 & H6) H.
  destruct (predict_spec _ _ _ _ _ _ _ Gi _ _ _ _ _ _ _ _ _ _ Tr H6 H1 H2 H3 H4 H5 H)
    as (m & v & vs & rows & total & attn & contrib & A & P & Lv & Ln & Lt & La & Lc & Rt & Ra & Rc & Lr & R).
  exists m, v, vs, rows, total. split; auto. split; auto. split; auto. split; auto.
  intros k r E. destruct (R k r E) as (_ & E2 & E3 & _). auto.
Qed.
Print Assumptions C44_window_used.

(** The expected rule, on the scores the caller sees: from the [tw]-th result
    on, the threshold is the 95% rank of the [tw] scores ending there. *)
Definition expected_rule (tw : nat) (th : Qc) (rs : list result) : Prop :=
  forall k r t, tw - 1 <= k -> nth_error rs k = Some r ->
    has_rank (map r_score (slice rs (k + 1 - tw) (k + 1))) (95 * tw / 100) t ->
    (r_anomaly r = true <-> flagged th (r_score r) t).

(** With a window of one score the rule holds. *)
Theorem C44_window_one : forall parse_int isort argsort_desc gap e1 W net d c w th pct fs data params p' rs,
  good_sorts isort argsort_desc -> trained W d c w th pct -> fits c data -> c_tw c = 1 ->
  predict parse_int isort argsort_desc gap e1 W net d fs data params = (p', Ok rs) ->
  expected_rule 1 th rs.
Proof.
  intros parse isort asort gap e1 W net d c w th pct fs data params p' rs G Tr F Tw H.
  destruct (C44_window_used _ _ _ _ _ _ _ _ _ _ _ _ _ _ _ _ _ G Tr F H) as (m & v & vs & rows & total & _ & _ & _ & _ & R).
  intros k r t Hk E Rk. destruct (R k r E) as (E1 & t' & Rk' & D). rewrite Tw in *. cbn [Nat.sub Nat.add] in E1.
  replace (k + 1 - 1) with k in * by lia.
  assert (S1 : slice total k (k + 1) = [r_score r]).
  { apply nth_error_ext. intros i. rewrite nth_error_slice. replace (k + 1 - k) with 1 by lia.
    destruct i as [|i]; cbn; [rewrite Nat.add_0_r; auto|destruct i; reflexivity]. }
  assert (S2 : map r_score (slice rs k (k + 1)) = [r_score r]).
  { apply nth_error_ext. intros i. rewrite nth_error_map, nth_error_slice. replace (k + 1 - k) with 1 by lia.
    destruct i as [|i]; cbn; [rewrite Nat.add_0_r, E; auto|destruct i; reflexivity]. }
  rewrite S1 in Rk'. rewrite S2 in Rk. rewrite D. cbn in Rk'. rewrite (rank_unique _ _ _ _ Rk Rk'). tauto.
Qed.
Print Assumptions C44_window_one.

Definition C44_data : frame := toy_frame [0; 1; 2; 3]%Z (map Q2Qc [1#10; 45#100; 3#10; 4#10]%Q).
Example C44_seen : seen_all (toy_predict 1 2 (Q2Qc (4 # 10)) C44_data []) = Ok [(2%Z, false, 3 # 10); (3%Z, false, 2 # 5)]%Q.
Proof. vm_compute. reflexivity. Qed.
Theorem C44_threshold_window_refuted : ~ (forall parse_int isort argsort_desc gap e1 W net d c w th pct fs data params p' rs,
  good_sorts isort argsort_desc -> trained W d c w th pct -> fits c data -> StronglySorted Z.le (f_index data) ->
  predict parse_int isort argsort_desc gap e1 W net d fs data params = (p', Ok rs) -> expected_rule (c_tw c) th rs).
Proof.
  intros H. destruct (seen_inv _ _ C44_seen) as (p' & rs & Ep & S').
  destruct rs as [|r0 [|r1 [|? ?]]]; try discriminate S'. cbn in S'. unfold seen in S'. injection S' as R1 R2 R3 R4 R5 R6.
  assert (Tr : trained unit (toy_detector 1 2 (Q2Qc (4 # 10))) (toy_config 1 2) tt (Q2Qc (4 # 10)) [1%Qc]) by (repeat split).
  assert (Ft : fits (toy_config 1 2) C44_data).
  { unfold fits. cbn. repeat split; auto. intros n c [Hc|[]]. inversion Hc; subst. reflexivity. }
  assert (So : StronglySorted Z.le (f_index C44_data)).
  { cbn. repeat (constructor; [|repeat (constructor; try lia)]). constructor. }
  unfold toy_predict in Ep.
  specialize (H _ _ _ _ _ _ _ _ _ _ _ _ _ _ _ _ _ (conj toy_isort_ok toy_argsort_ok) Tr Ft So Ep).
  assert (S0 : r_score r0 = Q2Qc (3 # 10)) by (apply Qc_is_canon; rewrite R3; reflexivity).
  assert (S1 : r_score r1 = Q2Qc (4 # 10)) by (apply Qc_is_canon; rewrite R6; reflexivity).
  destruct (H 1 r1 (Q2Qc (4 # 10))) as [_ D]; auto.
  { cbn [c_tw toy_config]. change (slice [r0; r1] (1 + 1 - 2) (1 + 1)) with [r0; r1]. cbn [map]. rewrite S0, S1.
    change (95 * 2 / 100) with 1. split; [right; left; auto|]. vm_compute. split; lia. }
  rewrite R5 in D. discriminate D. left. rewrite S1. split; [apply Qcle_refl|]. right. apply Qcle_refl.
Qed.
Print Assumptions C44_threshold_window_refuted.

(** The unused helper in module.py takes the window ending at the row. *)
Theorem C44_detection_results_aligned : forall e1 lower upper tw rmses out, 0 < tw ->
  compute_detection e1 lower upper tw rmses = Ok out ->
  length out = length rmses + 1 - tw /\
  forall k b s v, nth_error out k = Some (b, s, v) ->
    nth_error rmses (k + tw - 1) = Some s /\ v = (s / e1)%Qc /\
    exists t, has_rank (slice rmses k (k + tw)) (95 * tw / 100) t /\
      (b = true <-> ((t <= s /\ lower <= s) \/ upper < s)%Qc).
Proof.
  intros e1 lower upper tw rmses out Ht H. unfold compute_detection in H. cbv zeta in H. dbind H.
  rename a into ths. inversion H; subst out. clear H. rewrite qint95 in E.
  assert (Lt : length ths = length rmses + 1 - tw).
  { rewrite (mapM_len _ _ _ _ _ E), map_length. unfold range. rewrite seq_length. auto. }
  assert (Ll : length (last_n (length rmses + 1 - tw) rmses) = length rmses + 1 - tw).
  { unfold last_n. rewrite skipn_length. lia. }
  split; [rewrite zip_len, Ll, Lt; lia|].
  intros k b s v Ek. apply nth_error_zip_inv in Ek. destruct Ek as (s' & t & Es & Et & Eq). inversion Eq; subst. clear Eq.
  assert (Hk : k < length ths) by (eapply nth_error_lt; eauto).
  unfold last_n in Es. rewrite nth_error_skipn in Es.
  replace (length rmses - (length rmses + 1 - tw) + k) with (k + tw - 1) in Es by lia. split; auto. split; auto.
  destruct (mapM_nth_r _ _ _ _ _ _ _ E Et) as (wd & Ew & Eg). unfold range in Ew. rewrite nth_error_map, nth_error_seq in Ew.
  destruct (k <? length rmses + 1 - tw) eqn:C; [|discriminate]. cbn in Ew. inversion Ew; subst wd.
  exists t. split.
  - apply qsort_rank. apply get_ok. auto.
  - unfold decide. rewrite orb_true_iff, andb_true_iff, !Qcleb_le, Qcltb_lt. tauto.
Qed.
Print Assumptions C44_detection_results_aligned.


(** * C45 *)
Lemma row_error_bounds : forall prediction gap mn mx pct input rows q s (e1 : Qc), 0 < length pct ->
  (forall x, 0 <= gap x /\ gap x <= e1)%Qc -> (forall x, In x pct -> 0 < x /\ x <= 1)%Qc ->
  row_error prediction gap mn mx pct input rows q s -> (0 <= s /\ s <= e1)%Qc.
Proof.
  intros prediction gap mn mx pct input rows q s e1 Hne Hg Hp (c & (_ & x & t & y & _ & _ & _ & T1 & T2 & T3 & T4) & ->).
  apply (qmean_bounds c 0%Qc e1).
  - destruct c; [cbn in T3; lia|congruence].
  - intros u I. apply In_nth_error in I. destruct I as [j Ej]. assert (Hj : j < length c) by (eapply nth_error_lt; eauto).
    destruct (nth_error_ex _ (prediction x) j) as [pp Epp]; [lia|]. destruct (nth_error_ex _ y j) as [yy Eyy]; [lia|].
    destruct (nth_error_ex _ pct j) as [ww Eww]; [lia|]. rewrite (T4 j pp yy ww u Epp Eyy Eww Ej).
    destruct (Hg (pp - yy)%Qc) as [G1 G2]. destruct (Hp ww) as [P1 P2]; [eapply nth_error_In; eauto|].
    split; [apply Qcmul_nonneg; qlra|]. set (g := gap (pp - yy)%Qc) in *.
    assert (0 <= g * (1 - ww))%Qc by (apply Qcmul_nonneg; qlra). qlra.
Qed.

Theorem C45_decisions_and_severity : forall parse_int isort argsort_desc gap e1 W net d c w th pct fs data params p' rs,
  good_sorts isort argsort_desc -> trained W d c w th pct -> fits c data -> pct <> [] ->
  (0 < e1)%Qc -> (forall x, 0 <= gap x /\ gap x <= e1)%Qc -> (forall x, In x pct -> 0 < x /\ x <= 1)%Qc ->
  predict parse_int isort argsort_desc gap e1 W net d fs data params = (p', Ok rs) ->
  forall r, In r rs ->
    (Q2Qc (1 # 2) < r_score r -> th < r_score r -> r_anomaly r = true)%Qc /\
    (r_score r < Q2Qc (3 # 10) -> r_score r < th -> r_anomaly r = false)%Qc /\
    (r_anomaly r = false -> r_severity r = 0)%Qc /\
    (r_anomaly r = true -> r_severity r * e1 = r_score r)%Qc /\
    (0 <= r_severity r /\ r_severity r <= 1)%Qc.
Proof.
  intros parse isort asort gap e1 W net d c w th pct fs data params p' rs [Gi Ga] Tr (H1 & H2 & H3 & H4 & H5 & H6) Hne He Hg Hp H r I.
  destruct (predict_spec _ _ _ _ _ _ _ Gi _ _ _ _ _ _ _ _ _ _ Tr H6 H1 H2 H3 H4 H5 H)
    as (m & v & vs & rows & total & attn & contrib & A & P & Lv & Ln & Lt & La & Lc & Rt & Ra & Rc & Lr & R).
  apply In_nth_error in I. destruct I as [k E]. destruct (R k r E) as (_ & E2 & (t & _ & D) & Sv & _).
  assert (Lp : 0 < length pct) by (destruct pct; [congruence|cbn; lia]).
  destruct (row_error_bounds _ _ _ _ _ _ _ _ _ e1 Lp Hg Hp (Rt _ _ E2)) as [B1 B2].
  assert (Hz : e1 <> 0%Qc) by (intros Z; rewrite Z in He; qlra).
  split; [|split; [|split; [|split]]].
  - intros X Y. apply D. right. auto.
  - intros X Y. destruct (r_anomaly r); auto. exfalso. destruct (proj1 D eq_refl) as [[_ [Q|Q]]|[Q _]]; try qlra.
  - intros X. rewrite Sv, X. auto.
  - intros X. rewrite Sv, X. field. auto.
  - rewrite Sv. destruct (r_anomaly r); [|split; qlra]. split.
    + apply Qcle_div_iff; auto; qlra.
    + apply Qcdiv_le_iff; auto; qlra.
Qed.
Print Assumptions C45_decisions_and_severity.
Example C45_example :
  seen_all (toy_predict 1 1 (Q2Qc (4 # 10)) (toy_frame [1; 2; 3; 4]%Z (map Q2Qc [1#10; 6#10; 2#10; 35#100]%Q)) [])
  = Ok [(2%Z, true, 3 # 5); (3%Z, false, 1 # 5); (4%Z, true, 7 # 20)]%Q.
Proof. vm_compute. reflexivity. Qed.

(** * C51 *)
Theorem C51_interpretation : forall parse_int isort argsort_desc gap e1 W net d c w th pct fs data params p' rs,
  good_sorts isort argsort_desc -> trained W d c w th pct -> fits c data -> net_shape W net w (length (f_cols data)) ->
  predict parse_int isort argsort_desc gap e1 W net d fs data params = (p', Ok rs) ->
  exists m value variables rows attn, asks params m value /\
    prepared (isort (f_index data)) m value data variables rows /\ length variables = length (f_cols data) /\
    (forall i a, nth_error attn i = Some a ->
       exists x, scaled_rows (Q2Qc (-1000)) (Q2Qc 1000) (c_min c) (c_max c) (slice rows i (i + c_input c)) x /\ a = snd (net w x)) /\
    forall k r, nth_error rs k = Some r ->
      exists terms shares a,
        row_terms (fun x => fst (net w x)) gap (c_min c) (c_max c) pct (c_input c) rows (c_input c + c_tw c - 1 + k) terms /\
        length shares = length variables /\ qsum shares = 1%Qc /\
        (forall j x y, nth_error terms j = Some x -> nth_error shares j = Some y -> y * qsum terms = x)%Qc /\
        nth_error attn (c_tw c - 1 + k) = Some a /\
        Permutation (combine (map e_name (r_interp r)) (map e_score (r_interp r))) (combine variables shares) /\
        (forall i j x y, i < j -> nth_error (r_interp r) i = Some x -> nth_error (r_interp r) j = Some y ->
           (e_score y <= e_score x)%Qc) /\
        forall e, In e (r_interp r) -> exists v change,
          nth_error variables v = Some (e_name e) /\ nth_error shares v = Some (e_score e) /\
          length change = length variables /\
          (forall j x, nth_error change j = Some x ->
             x = (cell a v j - qmean (map (fun m => cell m v j) (slice attn k (k + c_tw c))))%Qc) /\
          largest_changes variables change (e_changed e).
Proof.
  intros parse isort asort gap e1 W net d c w th pct fs data params p' rs [Gi Ga] Tr (H1 & H2 & H3 & H4 & H5 & H6) Hn H.
  destruct (predict_spec _ _ _ _ _ _ _ Gi _ _ _ _ _ _ _ _ _ _ Tr H6 H1 H2 H3 H4 H5 H)
    as (m & v & vs & rows & total & attn & contrib & A & P & Lv & Ln & Lt & La & Lc & Rt & Ra & Rc & Lr & R).
  exists m, v, vs, rows, attn. split; auto. split; auto. split; auto. split; auto.
  intros k r E. destruct (R k r E) as (_ & _ & _ & _ & cn & cs & mt & Ecn & Ecs & Emt & Eint).
  destruct (Rc _ _ Ecn) as (Lcn & Tn). destruct (contributor_scores_spec _ _ Ecs) as (Nz & Lcs & Sum & Sh).
  apply attention_nth in Emt; auto; [|lia]. destruct Emt as (a & Ea & Em).
  exists cn, cs, a.
  assert (Lvc : length vs = length cs) by congruence.
  destruct (interpretation_spec asort vs cs mt (r_interp r) (Ga cs) Lvc Eint) as (I1 & I2 & I3).
  split; [replace (c_input c + c_tw c - 1 + k) with (c_input c + (c_tw c - 1 + k)) by lia; auto|].
  split; [congruence|]. split; auto. split.
  { intros j x y Ex Ey. rewrite (Sh j x y Ex Ey). field. auto. }
  split; auto. split; auto. split; auto.
  intros e Ie. destruct (I3 e Ie) as (u & row & V1 & V2 & V3 & V4). exists u, row. split; auto. split; auto.
  assert (Sa : length a = length vs /\ width (length vs) a).
  { destruct (Ra _ _ Ea) as (x & _ & ->). destruct (Hn x) as (_ & B1 & B2). rewrite Lv. auto. }
  destruct (mat_mean_shape (length vs) (slice attn k (k + c_tw c))) as [B1 B2].
  destruct (mat_sub_shape (length vs) a (mat_mean (length vs) (slice attn k (k + c_tw c)))) as [B3 B4]; try tauto.
  rewrite Em in V3. assert (Lrow : length row = length vs).
  { unfold width in B4. rewrite Forall_forall in B4. apply B4. eapply nth_error_In; eauto. }
  split; auto. split.
  - intros j x Ej. rewrite (mat_sub_cell _ _ _ _ _ _ V3 Ej). f_equal.
    rewrite mat_mean_cell; auto; [eapply nth_error_lt; eauto|]. rewrite <- Lrow. eapply nth_error_lt; eauto.
  - apply (changed_spec asort vs row (e_changed e) _ eq_refl); auto.
Qed.
Print Assumptions C51_interpretation.

(** * C52 *)
Definition same_but_batch (c c' : config) : Prop :=
  c_input c = c_input c' /\ c_tw c = c_tw c' /\ c_min c = c_min c' /\ c_max c = c_max c'.
Theorem C52_batch_size_irrelevant : forall parse_int isort argsort_desc gap e1 W net d d' c c' w th pct fs data params,
  trained W d c w th pct -> trained W d' c' w th pct -> same_but_batch c c' -> 0 < c_batch c -> 0 < c_batch c' ->
  predict parse_int isort argsort_desc gap e1 W net d fs data params =
  predict parse_int isort argsort_desc gap e1 W net d' fs data params.
Proof.
  intros parse isort asort gap e1 W net d d' c c' w th pct fs data params (A1 & A2 & A3 & A4) (B1 & B2 & B3 & B4) (S1 & S2 & S3 & S4) H H'.
  unfold predict. destruct (process_data_and_params parse isort data params) as [q [[[vs rs] cfg]|e]]; auto. f_equal.
  unfold predict_core. rewrite A2, B2, !bind_ok, A1, B1, A2, B2, A3, B3, A4, B4, S1, S2, S3, S4.
  rewrite (inference_batch_free (net w) gap (c_input c') (c_batch c) (c_batch c')) by auto. auto.
Qed.
Print Assumptions C52_batch_size_irrelevant.
Theorem C52_batches : forall A b (l : list A), 0 < b ->
  (exists g, loader false b l = Ok g /\ grouped b l g) /\
  (exists g, loader true b l = Ok g /\ grouped_full b l g /\ length g = length l / b).
Proof.
  intros A b l Hb. split.
  - destruct (loader_total _ false b l Hb) as [g E]. exists g. split; auto. eapply loader_grouped; eauto.
  - destruct (loader_total _ true b l Hb) as [g E]. exists g. destruct (loader_grouped_full _ _ _ _ E) as (G1 & G2 & _). auto.
Qed.
Print Assumptions C52_batches.
Example C52_example : loader true 2 [1; 2; 3; 4; 5] = Ok [[1; 2]; [3; 4]] /\ loader false 2 [1; 2; 3; 4; 5] = Ok [[1; 2]; [3; 4]; [5]].
Proof. split; reflexivity. Qed.

(** * C53 *)
Theorem C53_weights : forall data window, 0 < window ->
  exists cols strong, Permutation cols (filter (fun c => negb (String.eqb (fst c) "timestamp")) (f_cols data)) /\
    StronglySorted (fun a b => String.leb a b = true) (map fst cols) /\
    (forall col, calm col -> strong col = false) /\ (forall col, spiky window col -> strong col = true) /\
    length (pct_weights data window) = length cols /\
    forall j name col w, nth_error cols j = Some (name, col) -> nth_error (pct_weights data window) j = Some w ->
      (0 < w /\ w <= 1)%Qc /\ (strong col = false -> w = 1%Qc) /\
      (strong col = true -> w = (qn (count strong (map snd cols)) / qn (length cols))%Qc).
Proof.
  intros data window Hw. unfold pct_weights. set (cs := filter _ _).
  exists (csort cs), (fun col => strongly (variability window col)).
  split; [apply Permutation_sym, csort_perm|]. split; [apply csorted_names, csort_sorted|].
  split; [intros col Hc; apply calm_not_strong; auto|]. split; [intros col (P1 & P2 & P3); apply spiky_strong; auto|].
  split; [unfold reweight; rewrite !map_length; auto|].
  intros j name col w Ej Ew.
  assert (Ev : nth_error (map (fun c => variability window (snd c)) (csort cs)) j = Some (variability window col)).
  { rewrite nth_error_map, Ej. reflexivity. }
  destruct (reweight_spec _ _ _ _ Ev Ew) as (R1 & R2 & R3). split; auto. split; auto.
  intros Hs. rewrite (R2 Hs), map_length. f_equal. f_equal. unfold count. clear.
  induction (csort cs) as [|x t IH]; cbn; auto. destruct (strongly (variability window (snd x))); cbn; rewrite IH; auto.
Qed.
Print Assumptions C53_weights.
Example C53_example :
  map this (pct_weights (Frame [0; 1; 2; 3; 4; 5]%Z
    [("calm"%string, map (fun q => Some (Q2Qc q)) [5; 6; 5; 7; 6; 5]%Q);
     ("spiky"%string, map (fun q => Some (Q2Qc q)) [1; 100; 1; 100; 1; 100]%Q)]) 3) = [1; 1 # 2]%Q.
Proof. vm_compute. reflexivity. Qed.

(** * C55 *)
Theorem C55_training_threshold : forall level scores, (0 <= level)%Qc -> scores <> [] ->
  ((level < 1)%Qc -> exists th mx mn, compute_thresholds level (Some scores) = Ok (th, mx, mn) /\
     In th scores /\ In mx scores /\ In mn scores /\
     (forall s, In s scores -> mn <= s /\ s <= mx)%Qc /\
     (qn (count (fun s => th <? s)%Qc scores) <= (1 - level) * qn (length scores))%Qc /\
     (qn (count (fun s => s <? th)%Qc scores) <= level * qn (length scores))%Qc) /\
  ((1 <= level)%Qc -> compute_thresholds level (Some scores) = Err IndexErr).
Proof.
  intros level scores H0 Hne. assert (Ln : 0 < length scores) by (destruct scores; [congruence|cbn; lia]).
  assert (Lq : (0 < qn (length scores))%Qc) by (apply qn_pos; auto).
  assert (NN : (0 <= qn (length scores) * level)%Qc) by (apply Qcmul_nonneg; qlra).
  destruct (qint_spec _ NN) as [Q1 Q2]. unfold compute_thresholds. rewrite qsort_length.
  set (k := qint (qn (length scores) * level)) in *. split.
  - intros H1. assert (Hk : k < length scores).
    { apply qn_lt. assert (0 < qn (length scores) * (1 - level))%Qc by (apply Qcmul_pos; qlra). qlra. }
    destruct (nth_error_ex _ (qsort scores) k) as [th Eth]; [rewrite qsort_length; auto|].
    rewrite (proj2 (get_ok _ _ _ _) Eth), bind_ok. exists th, (qmax_list scores), (qmin_list scores). split; auto.
    destruct (qsort_rank _ _ _ Eth) as (R1 & R2 & R3). split; auto.
    split; [apply qmax_list_in; auto|]. split; [apply qmin_list_in; auto|].
    split; [intros s I; split; [apply qmin_list_le; auto|apply qmax_list_ge; auto]|]. split.
    + assert (C : count (fun s => th <? s)%Qc scores + count (fun s => s <=? th)%Qc scores = length scores).
      { clear. induction scores as [|x t IH]; cbn; auto. unfold count in *. cbn.
        destruct (th <? x)%Qc eqn:E1; destruct (x <=? th)%Qc eqn:E2; qb_hyps; cbn; try lia; qlra. }
      assert (C' : count (fun s => th <? s)%Qc scores + S k <= length scores) by lia.
      apply (proj1 (qn_le _ _)) in C'. rewrite qn_add, (qn_S k) in C'. qlra.
    + apply (proj1 (qn_le _ _)) in R2. qlra.
  - intros H1. assert (Hk : length scores <= k).
    { destruct (le_lt_dec (length scores) k); auto. exfalso. assert (Sk : S k <= length scores) by lia.
      apply (proj1 (qn_le _ _)) in Sk. rewrite (qn_S k) in Sk.
      assert (0 <= qn (length scores) * (level - 1))%Qc by (apply Qcmul_nonneg; qlra). qlra. }
    unfold get. rewrite (proj2 (nth_error_None (qsort scores) k)); [reflexivity|rewrite qsort_length; auto].
Qed.
Print Assumptions C55_training_threshold.
Theorem C55_adaptive_threshold : forall scores, scores <> [] ->
  exists t, get_threshold scores = Ok t /\ has_rank scores (95 * length scores / 100) t.
Proof. exact get_threshold_rank. Qed.
Print Assumptions C55_adaptive_threshold.
Example C55_example : exists th mx mn, compute_thresholds (Q2Qc (8 # 10)) (Some (map Q2Qc [3; 1; 5; 2; 4]%Q)) = Ok (th, mx, mn) /\
  (this th, this mx, this mn) = (5, 5, 1)%Q.
Proof. do 3 eexists. split; [reflexivity|reflexivity]. Qed.
