(** Multivariate detector, part 5: weights of strongly varying variables, frame processing, parameters. *)
From Coq Require Import String Ascii List Arith ZArith Lia Bool Permutation Sorted.
From Verif Require Import Base Num Sorting Kernel_model Kernel_proofs Helpers_model Helpers_spec Helpers_proofs
  Mv_model Mv_state Mv_spec Mv_proofs Mv_proofs2 Mv_proofs4.
Import ListNotations.
Open Scope nat_scope.

(** * Weights *)
Lemma all_some_map : forall A (l : list (option A)) r, all_some l = Some r <-> l = map Some r.
Proof.
  induction l as [|[x|] t IH]; intros r; cbn.
  - split; intros H; [inversion H; auto|destruct r; [auto|discriminate]].
  - split; intros H.
    + destruct (all_some t) as [r'|] eqn:E; [|discriminate]. inversion H; subst. cbn. f_equal. apply IH; auto.
    + destruct r as [|y r']; [discriminate|]. cbn in H. inversion H; subst.
      assert (E : all_some (map Some r') = Some r') by (apply IH; auto). rewrite E. auto.
  - split; intros H; [discriminate|]. destruct r; discriminate.
Qed.
Lemma somes_in : forall A (l : list (option A)) x, In x (somes l) <-> In (Some x) l.
Proof.
  induction l as [|[y|] t IH]; intros x; cbn.
  - tauto.
  - rewrite IH. split; intros [H|H]; auto; [left; congruence|left; congruence].
  - rewrite IH. split; [auto|intros [H|H]; [discriminate|auto]].
Qed.

Lemma neighbour_length : forall col, length (neighbour_change col) = length col.
Proof.
  intros col. unfold neighbour_change. cbv zeta. rewrite !zip_len, app_length.
  set (s := map _ col). assert (Hs : length s = length col) by (unfold s; apply map_length).
  clearbody s. assert (length (tl s) = length s - 1) by (destruct s; simpl; lia). cbn [length]. lia.
Qed.
Lemma neighbour_nth : forall col r o, nth_error (neighbour_change col) r = Some o ->
  forall x, o = Some x -> exists a b c u v, 0 < r /\
    nth_error col (r - 1) = Some (Some a) /\ nth_error col r = Some (Some b) /\ nth_error col (r + 1) = Some (Some c) /\
    rel_change (Some (a + eps4)%Qc) (Some (b + eps4)%Qc) = Some u /\
    rel_change (Some (c + eps4)%Qc) (Some (b + eps4)%Qc) = Some v /\ x = Qcmax u v.
Proof.
  intros col r o H x ->. unfold neighbour_change in H. cbv zeta in H.
  apply nth_error_zip_inv in H. destruct H as (o1 & o2 & H1 & H2 & H3).
  apply nth_error_zip_inv in H1. destruct H1 as (p & b & P1 & P2 & P3).
  apply nth_error_zip_inv in H2. destruct H2 as (c & b' & C1 & C2 & C3).
  rewrite P2 in C2. inversion C2; subst b'. clear C2.
  unfold omax in H3. destruct o1 as [u|]; [|discriminate]. destruct o2 as [v|]; [|discriminate].
  inversion H3; subst x.
  assert (R : forall p b u, Some u = rel_change p b -> exists a d, p = Some a /\ b = Some d).
  { intros p' b' u' E. unfold rel_change in E. destruct p', b'; try discriminate; eauto. }
  destruct (R _ _ _ P3) as (pa & ba & -> & ->). destruct (R _ _ _ C3) as (ca & ba' & -> & E'). inversion E'; subst ba'.
  rewrite nth_error_map in P2. destruct (nth_error col r) as [[b0|]|] eqn:Eb; cbn in P2; try discriminate.
  inversion P2; subst ba.
  destruct r as [|r]; [cbn in P1; discriminate|]. cbn [nth_error] in P1. rewrite nth_error_map in P1.
  destruct (nth_error col r) as [[a0|]|] eqn:Ea; cbn in P1; try discriminate. inversion P1; subst pa.
  assert (C1' : nth_error (map (option_map (fun v0 : Qc => (v0 + Q2Qc (1 # 10000))%Qc)) col) (S (S r)) = Some (Some ca)).
  { set (s := map _ col) in *. clearbody s. destruct s as [|s0 s1]; cbn [tl] in C1; cbn [nth_error].
    - destruct r; discriminate.
    - destruct (Nat.lt_ge_cases (S r) (length s1)).
      + rewrite nth_error_app1 in C1 by auto. auto.
      + rewrite nth_error_app2 in C1 by auto. destruct (S r - length s1) as [|[|q]]; cbn in C1; discriminate. }
  rewrite nth_error_map in C1'. destruct (nth_error col (S (S r))) as [[c0|]|] eqn:Ec; cbn in C1'; try discriminate.
  inversion C1'; subst ca.
  exists a0, b0, c0, u, v. replace (S r - 1) with r by lia. replace (S r + 1) with (S (S r)) by lia.
  repeat split; auto. lia.
Qed.


Lemma rel_small : forall a b u, (0 < a -> 0 < b -> a <= Q2Qc (29 # 10) * b ->
  rel_change (Some a) (Some b) = Some u -> u <= Q2Qc (19 # 10))%Qc.
Proof.
  intros a b u Ha Hb H E. unfold rel_change in E.
  destruct (b =? 0)%Qc eqn:Z; [qb_hyps; subst; qlra|].
  inversion E; subst. clear E. 
  assert (D1 : (a / b <= Q2Qc (29 # 10))%Qc) by (apply Qcdiv_le_iff; auto).
  assert (D2 : (0 <= a / b)%Qc) by (apply Qcdiv_nonneg; auto; qlra).
  assert (A : (Qcabs (a / b - 1) <= Q2Qc (19 # 10))%Qc) by (unfold Qcabs; qb_case; qb_hyps; qlra).
  unfold clip. eapply Qcle_trans; [apply Qcmin_l|]. apply Qcmax_lub; auto. qlra.
Qed.
Lemma neighbour_small : forall col x, calm col -> In (Some x) (neighbour_change col) -> (x <= Q2Qc (19 # 10))%Qc.
Proof.
  intros col x C I. apply In_nth_error in I. destruct I as [r E].
  destruct (neighbour_nth _ _ _ E x eq_refl) as (a & b & c & u & v & Hr & Ea & Eb & Ec & Eu & Ev & ->).
  pose proof (C (r - 1) a b Ea) as C1. replace (r - 1 + 1) with r in C1 by lia. specialize (C1 Eb).
  pose proof (C r b c Eb Ec) as C2. destruct C1 as (H1 & H2 & H3 & H4). destruct C2 as (H5 & H6 & H7 & H8).
  apply Qcmax_lub; [exact (rel_small _ _ _ H1 H2 H3 Eu)|exact (rel_small _ _ _ H6 H5 H8 Ev)].
Qed.
Lemma rolling_nth : forall w l r o, nth_error (rolling_max w l) r = Some o ->
  forall x, o = Some x -> w <= S r /\ exists v, slice l (S r - w) (S r) = map Some v /\ x = qmax_list v.
Proof.
  intros w l r o H x ->. unfold rolling_max in H. rewrite nth_error_mapi in H.
  destruct (nth_error l r) as [z|]; cbn [option_map] in H; [|discriminate].
  destruct (S r <? w) eqn:C; [discriminate|]. apply Nat.ltb_ge in C. split; auto.
  destruct (all_some (slice l (S r - w) (S r))) as [v|] eqn:E; [|discriminate]. cbn in H. inversion H; subst.
  exists v. split; auto. apply all_some_map; auto.
Qed.
Lemma calm_not_strong : forall w col, 0 < w -> calm col -> strongly (variability w col) = false.
Proof.
  intros w col Hw C. unfold strongly, variability, nanmean.
  set (l := rolling_max w (neighbour_change col)).
  destruct (somes l) as [|m0 ms] eqn:E; auto. apply Qcltb_ge. rewrite <- E.
  assert (NE : somes l <> []) by congruence.
  assert (B : forall x, In x (somes l) -> (qmin_list (somes l) <= x /\ x <= Q2Qc (19 # 10))%Qc).
  { intros x I. split; [apply qmin_list_le; auto|]. apply somes_in in I. apply In_nth_error in I. destruct I as [r Er].
    destruct (rolling_nth _ _ _ _ Er x eq_refl) as (Hr & v & Ev & ->).
    assert (Nv : v <> []).
    { intros ->. apply (f_equal (@length _)) in Ev. rewrite slice_length in Ev. cbn [map length] in Ev.
      assert (r < length (rolling_max w (neighbour_change col))) by (eapply nth_error_lt; eauto).
      unfold rolling_max in H. rewrite mapi_length in H. lia. }
    pose proof (qmax_list_in v Nv) as I. apply (neighbour_small col); auto.
    assert (I2 : In (Some (qmax_list v)) (slice (neighbour_change col) (S r - w) (S r))) by (rewrite Ev; apply in_map; auto).
    unfold slice in I2. apply in_firstn_nth in I2. destruct I2 as (p & _ & Ep). rewrite nth_error_skipn in Ep.
    eapply nth_error_In; eauto. }
  destruct (qmean_bounds (somes l) (qmin_list (somes l)) (Q2Qc (19 # 10)) NE); auto; intros; apply B; auto.
Qed.

Lemma rel_big : forall a b, (0 < b -> Q2Qc (29 # 10) * b < a ->
  exists u, rel_change (Some a) (Some b) = Some u /\ Q2Qc (19 # 10) < u)%Qc.
Proof.
  intros a b Hb H. unfold rel_change. destruct (b =? 0)%Qc eqn:Z; [qb_hyps; subst; qlra|].
  eexists. split; [reflexivity|].
  assert (D1 : (Q2Qc (29 # 10) < a / b)%Qc) by (apply Qclt_div_iff; auto).
  unfold clip, Qcabs, Qcmax. destruct (0 <=? a / b - 1)%Qc eqn:E1; qb_hyps; [|qlra].
  destruct (a / b - 1 <=? 0)%Qc eqn:E2; qb_hyps; [qlra|]. unfold Qcmin. qb_case; qb_hyps; qlra.
Qed.
Lemma rel_some : forall a b, (0 < b)%Qc -> exists u, rel_change (Some a) (Some b) = Some u.
Proof. intros a b H. unfold rel_change. destruct (b =? 0)%Qc eqn:Z; [qb_hyps; subst; qlra|]. eauto. Qed.

Lemma nth_error_shift_map : forall (s : list (option Qc)) r, S r < length s -> nth_error (tl s ++ [None]) r = nth_error s (S r).
Proof.
  intros [|h t] r H; cbn in H; [lia|]. cbn [tl nth_error]. rewrite nth_error_app1 by lia. auto.
Qed.
Lemma neighbour_interior : forall col r, positive_col col -> 0 < r -> r + 1 < length col ->
  exists x, nth_error (neighbour_change col) r = Some (Some x) /\ (spike col r -> (Q2Qc (19 # 10) < x)%Qc).
Proof.
  intros col r P Hr Hn.
  destruct (P (r - 1)) as (a & Ea & Ha); [lia|]. destruct (P r) as (b & Eb & Hb); [lia|].
  destruct (P (r + 1)) as (c & Ec & Hc); [lia|].
  destruct (rel_some (a + eps4)%Qc (b + eps4)%Qc Hb) as [u Eu]. destruct (rel_some (c + eps4)%Qc (b + eps4)%Qc Hb) as [v Ev].
  exists (Qcmax u v). split.
  - unfold neighbour_change. cbv zeta. set (s := map _ col).
    assert (Es : forall q z, nth_error col q = Some (Some z) -> nth_error s q = Some (Some (z + eps4)%Qc)).
    { intros q z E. unfold s. rewrite nth_error_map, E. auto. }
    apply (nth_error_zip _ _ _ omax _ _ r (Some u) (Some v)).
    + rewrite <- Eu. apply nth_error_zip; [|auto]. destruct r as [|r]; [lia|]. cbn [nth_error].
      replace (S r - 1) with r in Ea by lia. auto.
    + rewrite <- Ev. apply nth_error_zip; [|auto]. rewrite nth_error_shift_map.
      * replace (S r) with (r + 1) by lia. auto.
      * unfold s. rewrite map_length. lia.
  - intros (q & z & b' & Hq & Eq & Eb' & Hb' & Hz). rewrite Eb in Eb'. inversion Eb'; subst b'.
    destruct (rel_big _ _ Hb' Hz) as (w & Ew & Hw).
    destruct Hq as [Hq|Hq].
    + assert (q = r - 1) by lia. subst q. rewrite Ea in Eq. inversion Eq; subst z. rewrite Eu in Ew. inversion Ew; subst.
      eapply Qclt_le_trans; [exact Hw|apply Qcmax_l].
    + subst q. rewrite Ec in Eq. inversion Eq; subst z. rewrite Ev in Ew. inversion Ew; subst.
      eapply Qclt_le_trans; [exact Hw|apply Qcmax_r].
Qed.
Lemma neighbour_ends : forall col r x, nth_error (neighbour_change col) r = Some (Some x) -> 0 < r /\ r + 1 < length col.
Proof.
  intros col r x E. destruct (neighbour_nth _ _ _ E x eq_refl) as (a & b & c & u & v & Hr & _ & _ & Ec & _).
  split; auto. eapply nth_error_lt; eauto.
Qed.
Lemma mean_gt : forall l b, l <> [] -> (forall x, In x l -> b < x)%Qc -> (b < qmean l)%Qc.
Proof.
  intros l b NE H. destruct (qmean_bounds l (qmin_list l) (qmax_list l) NE) as [A _].
  - intros x I. split; [apply qmin_list_le|apply qmax_list_ge]; auto.
  - eapply Qclt_le_trans; [|exact A]. apply H. apply qmin_list_in; auto.
Qed.
Lemma spiky_strong : forall w col, 0 < w -> positive_col col -> w + 2 <= length col ->
  (forall s, 0 < s -> s + w < length col -> exists r, s <= r < s + w /\ spike col r) ->
  strongly (variability w col) = true.
Proof.
  intros w col Hw P L H. unfold strongly, variability, nanmean.
  set (l := rolling_max w (neighbour_change col)).
  assert (In1 : exists x, In (Some x) l).
  { assert (Lw : w < length l) by (unfold l, rolling_max; rewrite mapi_length, neighbour_length; lia).
    destruct (nth_error_ex _ l w Lw) as [o Eo]. unfold l, rolling_max in Eo. rewrite nth_error_mapi in Eo.
    destruct (nth_error (neighbour_change col) w); [|discriminate]. cbn [option_map] in Eo.
    destruct (S w <? w) eqn:C; [apply Nat.ltb_lt in C; lia|].
    assert (HS : exists v, slice (neighbour_change col) (S w - w) (S w) = map Some v).
    { replace (S w - w) with 1 by lia.
      assert (X : forall k, exists v, k <= w -> slice (neighbour_change col) 1 (S k) = map Some v).
      { induction k as [|k [v IH]]; [exists []; intros; unfold slice; cbn; auto|].
        destruct (Nat.le_gt_cases (S k) w) as [Hk|Hk]; [|exists []; lia].
        destruct (neighbour_interior col (S k) P) as (x & Ex & _); [lia|lia|].
        exists (v ++ [x]). intros _. rewrite map_app. cbn [map]. rewrite <- IH by lia.
        apply nth_error_ext. intros j. rewrite nth_error_slice.
        assert (Ls : length (slice (neighbour_change col) 1 (S k)) = k) by (rewrite slice_length, neighbour_length; lia).
        destruct (j <? S (S k) - 1) eqn:Cj.
        - apply Nat.ltb_lt in Cj. destruct (Nat.lt_ge_cases j k).
          + rewrite nth_error_app1 by lia. rewrite nth_error_slice. destruct (j <? S k - 1) eqn:Cj'; auto.
            apply Nat.ltb_ge in Cj'. lia.
          + assert (j = k) by lia. subst j. rewrite nth_error_app2 by lia. rewrite Ls, Nat.sub_diag. cbn. auto.
        - apply Nat.ltb_ge in Cj. symmetry. apply nth_error_None. rewrite app_length, Ls. cbn. lia. }
      destruct (X w) as [v Ev]. exists v. apply Ev. lia. }
    destruct HS as [v Ev]. rewrite Ev in Eo.
    assert (E2 : all_some (map Some v) = Some v) by (apply all_some_map; auto). rewrite E2 in Eo. cbn in Eo.
    exists (qmax_list v). unfold l, rolling_max. eapply nth_error_In with (n := w). rewrite nth_error_mapi.
    destruct (nth_error_ex _ (neighbour_change col) w) as [z Ez]; [rewrite neighbour_length; lia|]. rewrite Ez. cbn [option_map].
    rewrite C, Ev, E2. auto. }
  destruct In1 as [x0 I0]. apply somes_in in I0.
  destruct (somes l) as [|m0 ms] eqn:E; [destruct I0|]. rewrite <- E. apply Qcltb_lt.
  apply mean_gt; [congruence|]. intros x I. apply somes_in in I. apply In_nth_error in I. destruct I as [r Er].
  destruct (rolling_nth _ _ _ _ Er x eq_refl) as (Hr & v & Ev & ->).
  assert (Lr : r < length col).
  { apply nth_error_lt in Er. unfold l, rolling_max in Er. rewrite mapi_length, neighbour_length in Er. auto. }
  assert (Sl : forall q, S r - w <= q < S r -> exists y, nth_error (neighbour_change col) q = Some (Some y) /\ In y v).
  { intros q Hq. assert (Eq : nth_error (map Some v) (q - (S r - w)) = nth_error (neighbour_change col) q).
    { rewrite <- Ev, nth_error_slice. destruct (q - (S r - w) <? S r - (S r - w)) eqn:C; [|apply Nat.ltb_ge in C; lia].
      f_equal. lia. }
    rewrite nth_error_map in Eq. destruct (nth_error v (q - (S r - w))) as [y|] eqn:Ey; cbn [option_map] in Eq.
    - exists y. split; auto. eapply nth_error_In; eauto.
    - symmetry in Eq. apply nth_error_None in Eq. rewrite neighbour_length in Eq. lia. }
  destruct (Sl (S r - w)) as (y1 & Ey1 & _); [lia|]. apply neighbour_ends in Ey1.
  destruct (Sl r) as (y2 & Ey2 & _); [lia|]. apply neighbour_ends in Ey2.
  destruct (H (S r - w)) as (q & Hq & Sp); [lia|lia|].
  destruct (Sl q) as (y & Ey & Iy); [lia|].
  destruct (neighbour_interior col q P) as (x' & Ex' & Hx'); [lia|lia|].
  rewrite Ey in Ex'. inversion Ex'; subst x'. eapply Qclt_le_trans; [apply Hx'; auto|]. apply qmax_list_ge; auto.
Qed.

Lemma reweight_spec : forall pct j v w, nth_error pct j = Some v -> nth_error (reweight pct) j = Some w ->
  (strongly v = false -> w = 1%Qc) /\
  (strongly v = true -> w = (qn (count strongly pct) / qn (length pct))%Qc) /\ (0 < w /\ w <= 1)%Qc.
Proof.
  intros pct j v w Ev Ew. unfold reweight in Ew. cbv zeta in Ew. rewrite nth_error_map, Ev in Ew. cbn in Ew.
  destruct (strongly v) eqn:E; inversion Ew; subst.
  - split; [discriminate|]. split; auto. clear Ew.
    assert (Lp : 0 < length pct) by (apply nth_error_lt in Ev; lia).
    assert (C0 : 0 < count strongly pct).
    { unfold count. assert (I : In v (filter strongly pct)) by (apply filter_In; split; auto; eapply nth_error_In; eauto).
      destruct (filter strongly pct); [destruct I|]. cbn. lia. }
    pose proof (count_le_length _ strongly pct) as C1. unfold count in *.
    split.
    + apply Qclt_div_iff; [apply qn_pos; auto|]. rewrite Qcmult_0_l. apply qn_pos; auto.
    + apply Qcdiv_le_iff; [apply qn_pos; auto|]. rewrite Qcmult_1_l. apply (proj1 (qn_le _ _)). auto.
  - split; auto. split; [discriminate|]. split; qlra.
Qed.

(** * Frames *)
Definition well_formed (data : frame) : Prop :=
  Forall (fun c => length (snd c) = length (f_index data)) (f_cols data).

Lemma process_spec : forall isort m v data variables rows, process isort m v data = (variables, rows) ->
  (forall l, length (isort l) = length l) ->
  variables = map fst (csort (f_cols data)) /\ length rows = length (f_index data) /\
  width (length variables) rows /\
  forall r j name col row, nth_error (csort (f_cols data)) j = Some (name, col) -> nth_error rows r = Some row ->
    nth_error row j = nth_error (fill_col m v (permute None (isort (f_index data)) col)) r.
Proof.
  intros isort m v data variables rows H Hi. unfold process in H. inversion H; subst; clear H.
  split; auto. split; [rewrite map_length; unfold range; apply seq_length|]. split.
  - unfold width. rewrite Forall_forall. intros r I. apply in_map_iff in I. destruct I as (k & <- & _).
    unfold row_of. rewrite !map_length. auto.
  - intros r j name col row Ej Er. unfold range in Er. rewrite nth_error_map, nth_error_seq in Er.
    destruct (r <? length (f_index data)) eqn:C; [|discriminate]. apply Nat.ltb_lt in C. cbn in Er. inversion Er; subst.
    unfold row_of. rewrite !nth_error_map, Ej. cbn [option_map snd].
    symmetry. apply nth_error_nth'. rewrite fill_col_length. unfold permute. rewrite map_length, Hi. auto.
Qed.

(** * Dictionaries *)
Lemma dget_dset : forall k k' v d, dget k (dset k' v d) = if String.eqb k k' then Some v else dget k d.
Proof.
  induction d as [|[q w] t IH]; cbn.
  - destruct (String.eqb k k') eqn:E; auto.
  - destruct (String.eqb k' q) eqn:E1; cbn.
    + apply String.eqb_eq in E1. subst q. destruct (String.eqb k k'); auto.
    + destruct (String.eqb k q) eqn:E2.
      * apply String.eqb_eq in E2. subst q. destruct (String.eqb k k') eqn:E3; auto.
        apply String.eqb_eq in E3. subst. rewrite String.eqb_refl in E1. discriminate.
      * rewrite IH. auto.
Qed.
Lemma dget_filter : forall (p : string -> bool) k d, dget k (filter (fun kv => p (fst kv)) d) = if p k then dget k d else None.
Proof.
  induction d as [|[q w] t IH]; cbn; [destruct (p k); auto|].
  destruct (p q) eqn:E; cbn.
  - destruct (String.eqb k q) eqn:E2; [apply String.eqb_eq in E2; subst; rewrite E; auto|auto].
  - rewrite IH. destruct (String.eqb k q) eqn:E2; auto. apply String.eqb_eq in E2. subst. rewrite E. auto.
Qed.
Lemma mk_config_ext : forall d d', (forall k, dget k d = dget k d') -> mk_config d = mk_config d'.
Proof.
  intros d d' H. unfold mk_config, nat_field, num_field, str_field. rewrite !H. auto.
Qed.

Lemma process_params_spec : forall parse isort data params p' variables rows cfg,
  process_data_and_params parse isort data params = (p', Ok (variables, rows, cfg)) ->
  exists i t m v,
    compute_window_sizes parse (or_else (dget "sliding_window" params) PNone) = Ok (i, t) /\
    data_processor (or_else (dget "fill_na_method" params) (PStr "Linear"))
                   (or_else (dget "fill_na_value" params) (PFloat 0)) = Ok (m, v) /\
    process isort m v data = (variables, rows) /\
    (0 <= i)%Z /\ (0 <= t)%Z /\ c_input cfg = Z.to_nat i /\ c_tw cfg = Z.to_nat t /\ c_dim cfg = length variables /\
    mk_config p' = Ok cfg /\
    forall k, dget k p' =
      if String.eqb k "data_dim" then Some (PInt (Z.of_nat (length variables)))
      else if String.eqb k "threshold_window" then Some (PInt t)
      else if String.eqb k "input_size" then Some (PInt i)
      else if is_field k then dget k params else None.
Proof.
  intros parse isort data params p' variables rows cfg H. unfold process_data_and_params in H.
  destruct (compute_window_sizes parse (or_else (dget "sliding_window" params) PNone)) as [[i t]|e] eqn:E1; [|discriminate].
  destruct (data_processor _ _) as [[m v]|e] eqn:E2; [|discriminate].
  destruct (process isort m v data) as [vs rs] eqn:E3.
  set (d0 := dset "data_dim" _ _) in H. inversion H as [[Hp Hc]]. clear H. subst p'.
  destruct (mk_config d0) as [c|e] eqn:E4; [|discriminate Hc]. rewrite bind_ok in Hc. inversion Hc; subst.
  assert (D : forall k, dget k d0 =
      if String.eqb k "data_dim" then Some (PInt (Z.of_nat (length variables)))
      else if String.eqb k "threshold_window" then Some (PInt t)
      else if String.eqb k "input_size" then Some (PInt i)
      else if is_field k then dget k params else None).
  { intros k. unfold d0. rewrite dget_dset. destruct (String.eqb k "data_dim") eqn:K1; auto.
    rewrite (dget_filter is_field), !dget_dset.
    destruct (String.eqb k "threshold_window") eqn:K2; [apply String.eqb_eq in K2; subst; auto|].
    destruct (String.eqb k "input_size") eqn:K3; [apply String.eqb_eq in K3; subst; auto|]. auto. }
  exists i, t, m, v. repeat (split; [solve [auto]|]).
  assert (N : forall k df z n, dget k d0 = Some (PInt z) -> nat_field k df d0 = Ok n -> (0 <= z)%Z /\ n = Z.to_nat z).
  { intros k df z n K F. unfold nat_field in F. rewrite K in F. destruct (z <? 0)%Z eqn:Z0; [discriminate|].
    inversion F. apply Z.ltb_ge in Z0. auto. }
  pose proof E4 as E4'. unfold mk_config in E4.
  destruct (nat_field "data_dim" 0 d0) as [x1|] eqn:F1; [|discriminate]. rewrite bind_ok in E4.
  destruct (nat_field "input_size" 200 d0) as [x2|] eqn:F2; [|discriminate]. rewrite bind_ok in E4.
  destruct (nat_field "threshold_window" 200 d0) as [x3|] eqn:F3; [|discriminate]. rewrite bind_ok in E4.
  assert (K1 : dget "data_dim" d0 = Some (PInt (Z.of_nat (length variables)))) by (rewrite D; reflexivity).
  assert (K2 : dget "input_size" d0 = Some (PInt i)) by (rewrite D; reflexivity).
  assert (K3 : dget "threshold_window" d0 = Some (PInt t)) by (rewrite D; reflexivity).
  destruct (N _ _ _ _ K1 F1) as [_ ->]. destruct (N _ _ _ _ K2 F2) as [Z2 ->]. destruct (N _ _ _ _ K3 F3) as [Z3 ->].
  repeat dbind E4. inversion E4; subst. cbn [c_input c_tw c_dim].
  repeat split; auto using Nat2Z.id.
Qed.
