(** Multivariate detector, part 8: what a successful fit did. *)
From Coq Require Import String List Arith ZArith Lia Bool Permutation Sorted.
From Verif Require Import Base Num Sorting Kernel_model Kernel_proofs Helpers_model Helpers_spec Helpers_proofs
  Mv_model Mv_state Mv_spec Mv_spec2 Mv_proofs Mv_proofs2 Mv_proofs3 Mv_proofs4 Mv_proofs5 Mv_proofs6 Mv_proofs7.
Import ListNotations.
Open Scope nat_scope.

Lemma fold_oadd : forall l a, fold_left oadd l a = match a with None => None | Some x => option_map (fun s => x + s)%Qc (osum l) end.
Proof.
  induction l as [|y t IH]; intros a; cbn [fold_left osum].
  - destruct a; cbn; auto. f_equal. qlra.
  - rewrite IH. destruct a as [x|], y as [y|]; cbn; auto. destruct (osum t); cbn; auto. f_equal. qlra.
Qed.
Lemma concat_len : forall A (g : list (list A)), list_sum (map (@length A) g) = length (concat g).
Proof. induction g; cbn; auto. rewrite app_length. unfold list_sum in IHg. cbn in *. rewrite IHg. auto. Qed.

Lemma evaluate_epoch_spec : forall W (vloss : W -> list (list (list Qc) * list Qc) -> option Qc) w b val groups,
  loader false b val = Ok groups ->
  grouped b val groups /\
  evaluate_epoch W vloss w groups =
    if length val =? 0 then Some 0%Qc else option_map (fun s => s / qn (length val))%Qc (osum (map (vloss w) groups)).
Proof.
  intros W vloss w b val groups H. destruct (loader_grouped _ _ _ _ H) as [G Hb]. split; auto. destruct G as [C G].
  unfold evaluate_epoch. destruct (meter_spec _ (vloss w) (@length _) groups meter0) as (A1 & A2 & A3).
  destruct groups as [|g gs].
  - cbn in C. subst val. reflexivity.
  - assert (L : length (g :: gs) <> 0) by discriminate. rewrite A3 by discriminate. cbn [meter0 m_sum m_count].
    rewrite fold_oadd, concat_len, C, Nat.add_0_l. assert (Hv : length val <> 0).
    { rewrite <- C. destruct (G 0 g eq_refl) as [Hg _]. cbn. rewrite app_length. lia. }
    apply Nat.eqb_neq in Hv. rewrite Hv. destruct (osum _); cbn; auto. f_equal. f_equal. qlra.
Qed.

Lemma nat_field_setting : forall k def d n, nat_field k def d = Ok n -> setting k def d n.
Proof.
  intros k def d n H. unfold nat_field in H. unfold setting. destruct (dget k d) as [v|]; [|inversion H; auto].
  right. destruct v; try discriminate. destruct (z <? 0)%Z eqn:E; [discriminate|]. inversion H; subst. apply Z.ltb_ge in E.
  rewrite Z2Nat.id; auto.
Qed.
Lemma num_field_setting : forall k def d n, num_field k def d = Ok n -> share_setting k def d n.
Proof.
  intros k def d n H. unfold num_field in H. unfold share_setting. destruct (dget k d) as [v|]; [|inversion H; auto].
  destruct v; try discriminate; inversion H; subst; eauto.
Qed.

Lemma column_max_spec : forall rows dim, rows <> [] -> width dim rows -> length (column_max rows dim) = dim /\
  forall j v, nth_error (column_max rows dim) j = Some v -> column_extreme (fun v x => x <= v)%Qc rows j v.
Proof.
  intros rows dim Hn Hw. unfold column_max, range. split; [rewrite map_length, seq_length; auto|].
  intros j v H. rewrite nth_error_map in H. destruct (nth_error (seq 0 dim) j) as [i|] eqn:E; [|discriminate].
  assert (j < dim) by (apply nth_error_lt in E; rewrite seq_length in E; auto). rewrite nth_error_seq in E.
  destruct (j <? dim); [|discriminate]. inversion E; subst i. cbn in H. inversion H; subst v. clear H E.
  unfold width in Hw. rewrite Forall_forall in Hw.
  assert (N : map (fun r => nth j r 0%Qc) rows <> []) by (destruct rows; [congruence|discriminate]).
  split.
  - pose proof (qmax_list_in _ N) as I. apply in_map_iff in I. destruct I as (r & Er & I). exists r. split; auto.
    rewrite <- Er. apply nth_error_nth'. rewrite (Hw r I). auto.
  - intros r x I Ex. apply qmax_list_ge. apply in_map_iff. exists r. split; auto. apply (nth_error_nth_d _ _ _ _ 0%Qc Ex).
Qed.
Lemma column_min_spec : forall rows dim, rows <> [] -> width dim rows -> length (column_min rows dim) = dim /\
  forall j v, nth_error (column_min rows dim) j = Some v -> column_extreme (fun v x => v <= x)%Qc rows j v.
Proof.
  intros rows dim Hn Hw. unfold column_min, range. split; [rewrite map_length, seq_length; auto|].
  intros j v H. rewrite nth_error_map in H. destruct (nth_error (seq 0 dim) j) as [i|] eqn:E; [|discriminate].
  assert (j < dim) by (apply nth_error_lt in E; rewrite seq_length in E; auto). rewrite nth_error_seq in E.
  destruct (j <? dim); [|discriminate]. inversion E; subst i. cbn in H. inversion H; subst v. clear H E.
  unfold width in Hw. rewrite Forall_forall in Hw.
  assert (N : map (fun r => nth j r 0%Qc) rows <> []) by (destruct rows; [congruence|discriminate]).
  split.
  - pose proof (qmin_list_in _ N) as I. apply in_map_iff in I. destruct I as (r & Er & I). exists r. split; auto.
    rewrite <- Er. apply nth_error_nth'. rewrite (Hw r I). auto.
  - intros r x I Ex. apply qmin_list_le. apply in_map_iff. exists r. split; auto. apply (nth_error_nth_d _ _ _ _ 0%Qc Ex).
Qed.

Lemma In_firstn : forall A (l : list A) k x, In x (firstn k l) -> In x l.
Proof. induction l as [|y t IH]; intros [|k] x H; cbn in *; try contradiction. destruct H; eauto. Qed.
Lemma In_skipn : forall A (l : list A) k x, In x (skipn k l) -> In x l.
Proof. induction l as [|y t IH]; intros [|k] x H; cbn in *; try contradiction; eauto. Qed.
Lemma In_slice : forall A (l : list A) i j x, In x (slice l i j) -> In x l.
Proof. intros A l i j x H. unfold slice in H. repeat first [apply In_firstn in H | apply In_skipn in H]. auto. Qed.
Lemma firstn_width : forall d k (rows : list (list Qc)), width d rows -> width d (firstn k rows).
Proof. intros d k rows H. unfold width in *. rewrite Forall_forall in *. intros r I. apply H. eapply In_firstn; eauto. Qed.
Lemma slice_width : forall d i j (rows : list (list Qc)), width d rows -> width d (slice rows i j).
Proof. intros d i j rows H. unfold width in *. rewrite Forall_forall in *. intros r I. apply H. eapply In_slice; eauto. Qed.

Section Fit.
Variable parse_int : string -> option Z.
Variable isort : list Z -> list nat.
Variable gap : Qc -> Qc.
Variable W : Type.
Variable net : W -> list (list Qc) -> list Qc * mat.
Variable T : Type.
Variable t_init : config -> T.
Variable t_step : config -> T -> list (list (list Qc) * list Qc) -> T.
Variable t_weights : T -> W.
Variable vloss : W -> list (list (list Qc) * list Qc) -> option Qc.
Variable shuffle : nat -> list (list (list Qc) * list Qc) -> list (list (list Qc) * list Qc).
Notation fit_ := (fit parse_int isort gap W net T t_init t_step t_weights vloss shuffle).

(** The settings of a training run: the windows, the normalisation range and
    the training and validation samples. *)
Definition fit_setup (params : dict) (data : frame) (c : config) (rows : list (list Qc)) (tl : nat)
  (train val : list (list (list Qc) * list Qc)) : Prop :=
  let dim := length (f_cols data) in
  setting "epochs" 100 params (c_epochs c) /\ setting "batch_size" 128 params (c_batch c) /\
  setting "interval" 10 params (c_interval c) /\ setting "horizon" 1 params (c_horizon c) /\
  share_setting "train_ratio" (Q2Qc (8 # 10)) params (c_train_ratio c) /\
  share_setting "val_ratio" (Q2Qc (1 # 10)) params (c_val_ratio c) /\
  share_setting "level" (Q2Qc (8 # 10)) params (c_level c) /\
  (exists m v variables, asks params m v /\ prepared (isort (f_index data)) m v data variables rows) /\
  0 < tl /\ ((0 <= c_train_ratio c)%Qc -> share (length (f_index data)) (c_train_ratio c) tl) /\
  length (c_max c) = dim /\ length (c_min c) = dim /\
  (forall j v, nth_error (c_max c) j = Some v -> column_extreme (fun v x => x <= v)%Qc (firstn tl rows) j v) /\
  (forall j v, nth_error (c_min c) j = Some v -> column_extreme (fun v x => v <= x)%Qc (firstn tl rows) j v) /\
  train <> [] /\
  (0 < c_input c + c_horizon c ->
   windows_of (firstn tl rows) (c_input c) (c_interval c) (c_horizon c) (c_min c) (c_max c) 0 1 train) /\
  ((0 <= c_val_ratio c)%Qc -> exists vl, share (length (f_index data)) (c_val_ratio c) vl /\
     windows_of (slice rows tl (vl + tl)) (c_input c) 1 1 (c_min c) (c_max c) (Q2Qc (-1000)) (Q2Qc 1000) val).

(** Training states and validation losses, epoch after epoch. *)
Definition fit_run (c : config) (train val : list (list (list Qc) * list Qc))
  (state : nat -> T) (loss : nat -> option Qc) : Prop :=
  state 0 = t_init c /\
  (forall k, exists groups, grouped_full (c_batch c) (shuffle k train) groups /\
     length groups = length (shuffle k train) / c_batch c /\
     state (S k) = fold_left (t_step c) groups (state k)) /\
  (forall k, exists groups, grouped (c_batch c) val groups /\
     loss k = if length val =? 0 then Some 0%Qc
              else option_map (fun s => s / qn (length val))%Qc (osum (map (vloss (t_weights (state (S k)))) groups))).

(** The file a fit writes to. *)
Definition saved_at (params : dict) (path : string) : Prop :=
  exists dir, ((dget "save" params = None /\ dir = "model"%string) \/ dget "save" params = Some (PStr dir)) /\
    path = (dir ++ "/best_multi_ad_model.pt")%string.

(** Training scores and the thresholds taken from them. *)
Definition fit_scores (c : config) (w : W) (pct : list Qc) (rows : list (list Qc)) (tl : nat) (scores : list Qc) : Prop :=
  length scores = length (firstn tl rows) - c_input c /\
  forall i s, nth_error scores i = Some s ->
    row_error (fun x => fst (net w x)) gap (c_min c) (c_max c) pct (c_input c) (firstn tl rows) (c_input c + i) s.

Lemma fit_spec : forall d fs data params p' fs' d', (forall l, increasing_order l (isort l)) -> rectangular data ->
  fit_ d fs data params = (p', fs', Ok d') ->
  exists c rows tl train val state loss path,
    fit_setup params data c rows tl train val /\
    compute_window_sizes parse_int (or_else (dget "sliding_window" params) PNone) = Ok (Z.of_nat (c_input c), Z.of_nat (c_tw c)) /\
    fit_run c train val state loss /\ saved_at params path /\
    (forall q, q <> path -> fget W q fs' = fget W q fs) /\ d_path W d' = Some path /\
    d_variables W d' = Some (map fst (csort (f_cols data))) /\
    exists k, fget W path fs' = Some k /\
      d_config W d' = Some (k_config W k) /\ d_model W d' = Some (k_weights W k) /\ d_pct W d' = Some (k_pct W k) /\
      ((exists j, first_best loss 0 (c_epochs c) j /\
          k = Ckpt W (t_weights (state (S j))) c (pct_weights data (c_tw c + c_input c)) (d_threshold W d) (d_max W d) (d_min W d)) \/
       (fget W path fs = Some k /\ forall i, i < c_epochs c -> loss i = None)) /\
      exists inf th mx mn,
        inference (net (k_weights W k)) gap (c_input (k_config W k)) (c_batch (k_config W k)) (c_min (k_config W k))
          (c_max (k_config W k)) (k_pct W k) (firstn tl rows) = Ok inf /\
        compute_thresholds (c_level (k_config W k)) (snd (fst inf)) = Ok (th, mx, mn) /\
        d_threshold W d' = Some th /\ d_max W d' = Some mx /\ d_min W d' = Some mn.
Proof.
  intros d fs data params p' fs' d' Hi Hr H. apply fit_inv in H. destruct H as (variables & values & cfg0 & Ep & H).
  destruct (process_params_spec _ _ _ _ _ _ _ _ Ep) as (iz & tz & m & v & Ew & Ed & Epr & I0 & T0 & Ci & Ct & Cd & Em & Dg).
  pose proof (process_prepared _ _ _ _ _ _ Hi Hr Epr) as Prep. pose proof Prep as (Lv & Wv & _).
  assert (Ldim : length variables = length (f_cols data)).
  { unfold process in Epr. inversion Epr. rewrite map_length. symmetry. apply Permutation_length, csort_perm. }
  apply fit_core_inv in H. cbv zeta in H. destruct H as (Ntr & train & val & val_set & k & inf & th & Etr & Nt & Evs & Ev & Er & Ek & Ei & Eth & ->).
  set (tl := qint (qn (length (f_index data)) * c_train_ratio cfg0)%Qc) in *.
  set (vl := qint (qn (length (f_index data)) * c_val_ratio cfg0)%Qc) in *.
  set (mx := column_max (firstn tl values) (length variables)) in *.
  set (mn := column_min (firstn tl values) (length variables)) in *.
  set (c := with_base cfg0 (length variables) mx mn) in *.
  set (path := (c_save cfg0 ++ "/best_multi_ad_model.pt")%string) in *.
  destruct (loader_grouped _ _ _ _ Ev) as [_ Hb].
  destruct (training_run_exists W T t_init t_step t_weights vloss shuffle c train val) as (state & loss & R); [exact Hb|].
  pose proof R as (R0 & R1 & R2). rewrite <- R0 in Er.
  assert (RS : (forall q, q <> path -> fget W q fs' = fget W q fs) /\
    ((fs' = fs /\ forall i, 0 <= i < 0 + c_epochs cfg0 -> improves (loss i) None = false) \/
     (exists j, first_best loss 0 (0 + c_epochs cfg0) j /\ improves (loss j) None = true /\
        fget W path fs' = Some (Ckpt W (t_weights (state (S j))) c (pct_weights data (c_tw cfg0 + c_input cfg0)) (d_threshold W d) (d_max W d) (d_min W d))))).
  { eapply run_spec; eauto. }
  destruct RS as [Ho Hk].
  assert (Dg' : forall q, is_field q = true -> q <> "data_dim"%string -> q <> "threshold_window"%string -> q <> "input_size"%string ->
    dget q p' = dget q params).
  { intros q F A1 A2 A3. rewrite Dg. apply String.eqb_neq in A1, A2, A3. rewrite A1, A2, A3, F. auto. }
  assert (St : forall q def n, nat_field q def p' = Ok n -> is_field q = true -> q <> "data_dim"%string -> q <> "threshold_window"%string -> q <> "input_size"%string -> setting q def params n).
  { intros q def n Hq F A1 A2 A3. apply nat_field_setting in Hq. unfold setting in *. rewrite (Dg' q F A1 A2 A3) in Hq. auto. }
  assert (Sn : forall q def n, num_field q def p' = Ok n -> is_field q = true -> q <> "data_dim"%string -> q <> "threshold_window"%string -> q <> "input_size"%string -> share_setting q def params n).
  { intros q def n Hq F A1 A2 A3. apply num_field_setting in Hq. unfold share_setting in *. rewrite (Dg' q F A1 A2 A3) in Hq. auto. }
  unfold mk_config in Em.
  dbind Em. dbind Em. dbind Em. dbind Em. rename E2 into F_ep. dbind Em. rename E2 into F_ba. dbind Em. rename E2 into F_in.
  dbind Em. rename E2 into F_ho. dbind Em. rename E2 into F_tr. dbind Em. rename E2 into F_va. dbind Em. rename E2 into F_le.
  dbind Em. rename E2 into F_sa.
  assert (Ec : cfg0 = Config a a0 a1 a2 a3 a4 a5 a6 a7 a8 a9 [] []) by congruence. clear Em.
  exists c, values, tl, train, val_set, state, loss, path.
  assert (Htl : 0 < tl) by (destruct tl; [cbn in Ntr; congruence|lia]).
  assert (Wt : width (length variables) (firstn tl values)) by (apply firstn_width; auto).
  destruct (column_max_spec _ _ Ntr Wt) as [Lmx Pmx]. destruct (column_min_spec _ _ Ntr Wt) as [Lmn Pmn]. fold mx in Lmx, Pmx. fold mn in Lmn, Pmn.
  split; [|split; [|split; [|split; [|split; [|split; [|split; [|]]]]]]].
  - unfold fit_setup. cbv zeta.
    split; [change (c_epochs c) with (c_epochs cfg0); rewrite Ec; apply St; auto; discriminate|].
    split; [change (c_batch c) with (c_batch cfg0); rewrite Ec; apply St; auto; discriminate|].
    split; [change (c_interval c) with (c_interval cfg0); rewrite Ec; apply St; auto; discriminate|].
    split; [change (c_horizon c) with (c_horizon cfg0); rewrite Ec; apply St; auto; discriminate|].
    split; [change (c_train_ratio c) with (c_train_ratio cfg0); rewrite Ec; apply Sn; auto; discriminate|].
    split; [change (c_val_ratio c) with (c_val_ratio cfg0); rewrite Ec; apply Sn; auto; discriminate|].
    split; [change (c_level c) with (c_level cfg0); rewrite Ec; apply Sn; auto; discriminate|].
    split. { exists m, v, variables. split; auto. eapply processor_asks; eauto. }
    split; [auto|]. split.
    { intros Hp. change (c_train_ratio c) with (c_train_ratio cfg0) in *. unfold share, tl. apply qint_spec. apply Qcmul_nonneg; auto. apply qn_nonneg. }
    split; [change (c_max c) with mx; lia|]. split; [change (c_min c) with mn; lia|].
    split; [auto|]. split; [auto|]. split; [auto|].
    assert (Hint : 0 < c_interval cfg0).
    { destruct (c_interval cfg0) as [|q]; [|lia]. unfold dataset, x_end_idx in Etr. discriminate Etr. }
    split.
    { intros Hh. assert (Hh' : 0 < c_input cfg0 + c_horizon cfg0) by (exact Hh). destruct (dataset_spec (firstn tl values) (length variables) (c_input cfg0) (c_interval cfg0) (c_horizon cfg0) mn mx 0 1) as (s & X1 & X2); auto.
      { discriminate. } fold mn mx in Etr. rewrite Etr in X1. assert (s = train) by congruence. subst s. exact X2. }
    intros Hv. exists vl. split; [unfold share, vl; apply qint_spec; apply Qcmul_nonneg; auto; apply qn_nonneg|].
    destruct (dataset_spec (slice values tl (vl + tl)) (length variables) (c_input cfg0) 1 1 mn mx (Q2Qc (-1000)) (Q2Qc 1000)) as (s & X1 & X2); auto; try lia.
    { discriminate. } { apply slice_width; auto. } rewrite Evs in X1. assert (s = val_set) by congruence. subst s. exact X2.
  - rewrite Ew. change (c_input c) with (c_input cfg0). change (c_tw c) with (c_tw cfg0). rewrite Ci, Ct, !Z2Nat.id by auto. auto.
  - split; auto. split.
    + intros q. destruct (R1 q) as (g & Eg & Es). destruct (loader_grouped_full _ _ _ _ Eg) as (G1 & G2 & _). exists g. auto.
    + intros q. destruct (evaluate_epoch_spec _ vloss (t_weights (state (S q))) _ _ _ Ev) as [G1 G2]. exists val. split; auto.
      rewrite R2, G2. auto.
  - exists (c_save cfg0). split; auto. rewrite Ec. cbn [c_save]. unfold str_field in F_sa. rewrite (Dg' "save"%string) in F_sa by (auto; discriminate).
    destruct (dget "save" params) as [[]|]; try discriminate; inversion F_sa; auto.
  - exact Ho.
  - reflexivity.
  - cbn [d_variables]. f_equal. unfold process in Epr. inversion Epr. auto.
  - exists k. split; auto. split; auto. split; auto. split; auto. split.
    + destruct Hk as [[-> Hk]|(j & B & _ & Ej)].
      * right. split; auto. intros i Hlt. specialize (Hk i). change (c_epochs c) with (c_epochs cfg0) in Hlt.
        specialize (Hk ltac:(lia)). destruct (loss i); auto. discriminate.
      * left. exists j. split; auto. rewrite Ek in Ej. injection Ej as ->. reflexivity.
    + destruct th as [[x y] z]. exists inf, x, y, z. repeat split; auto.
Qed.
End Fit.
