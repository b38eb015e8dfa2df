(** Properties of the multivariate detector: fitting, checkpoints and the
    parameter dictionary (C47-C49, C54-C56, C70, C71, C75, C76). *)
From Coq Require Import String List Arith ZArith Lia Bool Permutation Sorted.
From Verif Require Import Base Num Sorting Kernel_model Kernel_proofs Helpers_model Helpers_spec Helpers_proofs
  Mv_model Mv_state Mv_spec Mv_spec2 Mv_proofs Mv_proofs2 Mv_proofs3 Mv_proofs4 Mv_proofs5 Mv_proofs6 Mv_proofs7 Mv_proofs8
  Mv_toy Mv_props Mv_props2 Mv_props3.
Import ListNotations.
Open Scope nat_scope.

(** A training procedure for the examples: the weights count the optimizer
    steps, the network always predicts 0 and the validation loss of a batch is
    looked up. *)
Definition toy_fit (losses : nat -> option Qc) (d : detector nat) (fs : files nat) (data : frame) (params : dict) :=
  fit (fun _ => None) toy_isort Qcabs nat (fun _ => toy_net tt) nat (fun _ => 0) (fun _ t _ => S t) (fun t => t)
    (fun w _ => losses w) (fun _ l => l) d fs data params.
Definition toy_rows : frame := toy_frame [0; 1; 2; 3; 4; 5; 6; 7; 8; 9]%Z
  (map Q2Qc [1; 2; 1; 3; 1; 2; 2; 1; 3; 1]%Q).
Definition toy_params : dict :=
  [("sliding_window"%string, PInt 4); ("interval"%string, PInt 1); ("batch_size"%string, PInt 2);
   ("epochs"%string, PInt 4); ("train_ratio"%string, PFloat (Q2Qc (6 # 10))); ("val_ratio"%string, PFloat (Q2Qc (4 # 10)))].
(** What can be seen of a fit: weights, threshold, window sizes. *)
Definition fit_seen {W} (x : dict * files W * res (detector W)) : res (option W * option Q * option (nat * nat)) :=
  do d <- snd x; Ok (d_model W d, option_map this (d_threshold W d), option_map (fun c => (c_input c, c_tw c)) (d_config W d)).
Lemma fit_seen_inv : forall W (x : dict * files W * res (detector W)) y, fit_seen x = Ok y ->
  exists p fs d, x = (p, fs, Ok d) /\ (d_model W d, option_map this (d_threshold W d), option_map (fun c => (c_input c, c_tw c)) (d_config W d)) = y.
Proof. intros W [[p fs] [d|e]] y H; cbn in H; inversion H. eauto. Qed.
Definition toy_losses (w : nat) : option Qc := nth w [None; None; Some (Q2Qc 7); None; Some 1%Qc; None; Some 1%Qc; None; Some (Q2Qc 3)] None.

Example toy_fit_seen : fit_seen (toy_fit toy_losses (fresh nat) [] toy_rows toy_params) = Ok (Some 4, Some (200000000 # 200000001)%Q, Some (2, 2)).
Proof. vm_compute. reflexivity. Qed.

(** * C47 *)
Theorem C47_window_sizes :
  forall parse_int isort gap W net T t_init t_step t_weights vloss shuffle d fs data params p' fs' d' path,
  (forall l, increasing_order l (isort l)) -> rectangular data -> saved_at params path -> fget W path fs = None ->
  fit parse_int isort gap W net T t_init t_step t_weights vloss shuffle d fs data params = (p', fs', Ok d') ->
  exists c, d_config W d' = Some c /\
    (dget "sliding_window" params = None -> c_input c = 200 /\ c_tw c = 200) /\
    (forall w, dget "sliding_window" params = Some (PInt w) -> (0 < w)%Z ->
       Z.of_nat (c_input c) = (w / 2)%Z /\ 0 < c_tw c <= 200 /\
       (Z.of_nat (c_input c + c_tw c) = w <-> (w <= 400)%Z) /\ (Z.of_nat (c_input c + c_tw c) <= w)%Z).
Proof.
  intros parse isort gap W net T t_init t_step t_weights vloss shuffle d fs data params p' fs' d' path Gi Hr Hp Hn H.
  destruct (fit_spec _ _ _ _ _ _ _ _ _ _ _ _ _ _ _ _ _ _ Gi Hr H) as (c & rows & tl & train & val & state & loss & path' & _ & Ew & _ & Sv & _ & _ & _ & k & Ek & Ec & _ & _ & D & _).
  assert (path' = path).
  { destruct Hp as (x & Hx & ->). destruct Sv as (y & Hy & ->).
    destruct Hx as [[A1 ->]|A1], Hy as [[A2 ->]|A2]; rewrite A1 in A2; try discriminate; auto. injection A2 as ->. auto. }
  subst path'. destruct D as [(j & _ & ->)|[D _]]; [|congruence].
  exists c. split; [auto|]. split.
  - intros E. rewrite E in Ew. cbn in Ew. injection Ew as A1 A2. lia.
  - intros w E Hw. rewrite E in Ew. cbn [or_else compute_window_sizes] in Ew. destruct (Z.eqb_spec w 0); [lia|].
    unfold sizes in Ew. cbv zeta in Ew. injection Ew as A1 A2.
    pose proof (Z.div_mod w 2 ltac:(lia)). pose proof (Z.mod_pos_bound w 2 ltac:(lia)). split; [lia|]. split; [lia|]. split; lia.
Qed.
Print Assumptions C47_window_sizes.
Theorem C47_rows_needed : forall parse_int isort argsort_desc gap e1 W net d c w th pct fs data params p' r,
  (forall l, increasing_order l (isort l)) -> rectangular data -> trained W d c w th pct ->
  length (f_index data) < c_input c + c_tw c ->
  predict parse_int isort argsort_desc gap e1 W net d fs data params = (p', r) ->
  (forall rs, r <> Ok rs) /\ (params = [] -> r = Err ValueErr).
Proof.
  intros parse isort asort gap e1 W net d c w th pct fs data params p' r Gi Hr Tr Hl H. pose proof Tr as (A & B & C & D). split.
  - intros rs ->. eapply predict_inv in H; [|exact Gi|exact Tr|exact Hr].
    destruct H as (m & v & vs & rows & cs & ts & ms & _ & (Lv & _) & _ & L & _). lia.
  - intros ->. unfold predict, process_data_and_params in H. cbn [dget or_else compute_window_sizes] in H.
    change (data_processor (PStr "Linear") (PFloat 0)) with (Ok (FLinear, 0%Qc)) in H. cbv iota beta zeta in H.
    destruct (process isort FLinear 0%Qc data) as [vs rows] eqn:Epr.
    destruct (process_prepared _ _ _ _ _ _ Gi Hr Epr) as (Lv & _).
    set (q := dset "data_dim" _ _) in H.
    assert (Eq : exists cfg, mk_config q = Ok cfg).
    { assert (Ed : nat_field "data_dim" 0 q = Ok (length vs)).
      { unfold nat_field. replace (dget "data_dim" q) with (Some (PInt (Z.of_nat (length vs)))) by reflexivity.
        destruct (Z.of_nat (length vs) <? 0)%Z eqn:E; [apply Z.ltb_lt in E; lia|]. rewrite Nat2Z.id. auto. }
      unfold mk_config. rewrite Ed, bind_ok. eexists. reflexivity. }
    destruct Eq as [cfg Eq]. rewrite Eq, bind_ok in H. injection H as _ <-.
    unfold predict_core. rewrite B, bind_ok, A, B. destruct (length rows <? c_tw c + c_input c) eqn:E; auto.
    apply Nat.ltb_ge in E. lia.
Qed.
Print Assumptions C47_rows_needed.
Example C47_example : seen_all (toy_predict 2 2 1%Qc (toy_frame [1; 2; 3]%Z [0; 1; 0]%Qc) []) = Err ValueErr.
Proof. vm_compute. reflexivity. Qed.

(** * C48 *)
(** What the second call with the same dictionary uses. *)
Theorem C48_second_call : forall parse_int isort data data' params p' variables rows cfg,
  process_data_and_params parse_int isort data params = (p', Ok (variables, rows, cfg)) ->
  exists p'' variables' rows' cfg',
    process_data_and_params parse_int isort data' p' = (p'', Ok (variables', rows', cfg')) /\
    c_input cfg' = 200 /\ c_tw cfg' = 200 /\
    process isort FLinear 0%Qc data' = (variables', rows') /\
    c_epochs cfg' = c_epochs cfg /\ c_batch cfg' = c_batch cfg /\ c_interval cfg' = c_interval cfg /\
    c_horizon cfg' = c_horizon cfg /\ c_train_ratio cfg' = c_train_ratio cfg /\ c_val_ratio cfg' = c_val_ratio cfg /\
    c_level cfg' = c_level cfg /\ c_save cfg' = c_save cfg.
Proof.
  intros parse isort data data' params p' variables rows cfg H.
  destruct (process_params_spec _ _ _ _ _ _ _ _ H) as (iz & tz & m & v & _ & _ & _ & _ & _ & _ & _ & _ & Em & Dg).
  unfold process_data_and_params.
  assert (Z1 : dget "sliding_window" p' = None) by (rewrite Dg; reflexivity).
  assert (Z2 : dget "fill_na_method" p' = None) by (rewrite Dg; reflexivity).
  assert (Z3 : dget "fill_na_value" p' = None) by (rewrite Dg; reflexivity).
  rewrite Z1, Z2, Z3. cbn [or_else compute_window_sizes].
  change (data_processor (PStr "Linear") (PFloat 0)) with (Ok (FLinear, 0%Qc)). cbv iota beta zeta.
  destruct (process isort FLinear 0%Qc data') as [vs rs] eqn:Epr.
  set (q := dset "data_dim" _ _).
  assert (Dq : forall k, dget k q = if String.eqb k "data_dim" then Some (PInt (Z.of_nat (length vs)))
    else if String.eqb k "threshold_window" then Some (PInt 200) else if String.eqb k "input_size" then Some (PInt 200)
    else if is_field k then dget k p' else None).
  { intros k. unfold q. rewrite dget_dset. destruct (String.eqb k "data_dim") eqn:E1; auto.
    rewrite dget_filter, !dget_dset. destruct (String.eqb k "threshold_window") eqn:E2.
    - apply String.eqb_eq in E2. subst k. auto.
    - destruct (String.eqb k "input_size") eqn:E3; [apply String.eqb_eq in E3; subst k; auto|]. auto. }
  unfold mk_config in Em.
  dbind Em. dbind Em. dbind Em. dbind Em. rename E2 into F_ep. dbind Em. rename E2 into F_ba. dbind Em. rename E2 into F_in.
  dbind Em. rename E2 into F_ho. dbind Em. rename E2 into F_tr. dbind Em. rename E2 into F_va. dbind Em. rename E2 into F_le.
  dbind Em. rename E2 into F_sa.
  assert (Ec : cfg = Config a a0 a1 a2 a3 a4 a5 a6 a7 a8 a9 [] []) by congruence. clear Em. subst cfg.
  assert (Mq : mk_config q = Ok (Config (length vs) 200 200 a2 a3 a4 a5 a6 a7 a8 a9 [] [])).
  { unfold mk_config.
    assert (Nf : forall k def, dget k q = dget k p' -> nat_field k def q = nat_field k def p') by (intros k def E4; unfold nat_field; rewrite E4; auto).
    assert (Uf : forall k def, dget k q = dget k p' -> num_field k def q = num_field k def p') by (intros k def E4; unfold num_field; rewrite E4; auto).
    assert (D1 : nat_field "data_dim" 0 q = Ok (length vs)).
    { unfold nat_field. rewrite Dq. cbn [String.eqb Ascii.eqb Bool.eqb]. destruct (Z.of_nat (length vs) <? 0)%Z eqn:E4; [apply Z.ltb_lt in E4; lia|]. rewrite Nat2Z.id. auto. }
    assert (D2 : nat_field "input_size" 200 q = Ok 200) by (unfold nat_field; rewrite Dq; reflexivity).
    assert (D3 : nat_field "threshold_window" 200 q = Ok 200) by (unfold nat_field; rewrite Dq; reflexivity).
    rewrite D1, bind_ok, D2, bind_ok, D3, bind_ok.
    rewrite (Nf "epochs"%string) by (rewrite Dq; reflexivity). rewrite F_ep, bind_ok.
    rewrite (Nf "batch_size"%string) by (rewrite Dq; reflexivity). rewrite F_ba, bind_ok.
    rewrite (Nf "interval"%string) by (rewrite Dq; reflexivity). rewrite F_in, bind_ok.
    rewrite (Nf "horizon"%string) by (rewrite Dq; reflexivity). rewrite F_ho, bind_ok.
    rewrite (Uf "train_ratio"%string) by (rewrite Dq; reflexivity). rewrite F_tr, bind_ok.
    rewrite (Uf "val_ratio"%string) by (rewrite Dq; reflexivity). rewrite F_va, bind_ok.
    rewrite (Uf "level"%string) by (rewrite Dq; reflexivity). rewrite F_le, bind_ok.
    unfold str_field in *. rewrite Dq. cbn [String.eqb Ascii.eqb Bool.eqb is_field existsb config_fields orb]. rewrite F_sa. auto. }
  rewrite Mq, bind_ok. do 4 eexists. split; [reflexivity|]. repeat split.
Qed.
Print Assumptions C48_second_call.
(** A dictionary that names none of the three consumed keys gives the same
    settings every time. *)
Theorem C48_untouched_settings : forall parse_int isort data params p' variables rows cfg,
  dget "sliding_window" params = None -> dget "fill_na_method" params = None -> dget "fill_na_value" params = None ->
  process_data_and_params parse_int isort data params = (p', Ok (variables, rows, cfg)) ->
  exists p'', process_data_and_params parse_int isort data p' = (p'', Ok (variables, rows, cfg)).
Proof.
  intros parse isort data params p' variables rows cfg H1 H2 H3 H.
  destruct (process_params_spec _ _ _ _ _ _ _ _ H) as (iz & tz & m & v & Ew & Ed & Epr & _ & _ & Ci & Ct & Cd & Em & Dg).
  rewrite H1 in Ew. cbn in Ew. rewrite H2, H3 in Ed. cbn in Ed.
  injection Ew as <- <-. injection Ed as <- <-.
  unfold process_data_and_params.
  assert (Z1 : dget "sliding_window" p' = None) by (rewrite Dg; reflexivity).
  assert (Z2 : dget "fill_na_method" p' = None) by (rewrite Dg; reflexivity).
  assert (Z3 : dget "fill_na_value" p' = None) by (rewrite Dg; reflexivity).
  rewrite Z1, Z2, Z3. cbn [or_else compute_window_sizes].
  change (data_processor (PStr "Linear") (PFloat 0)) with (Ok (FLinear, 0%Qc)). cbv iota beta zeta. rewrite Epr.
  eexists. f_equal. rewrite <- (mk_config_ext p').
  - rewrite Em. auto.
  - intros k. rewrite dget_dset, Dg. destruct (String.eqb k "data_dim") eqn:E1; auto.
    rewrite dget_filter, !dget_dset, Dg, E1. destruct (String.eqb k "threshold_window") eqn:E2.
    + apply String.eqb_eq in E2. subst k. auto.
    + destruct (String.eqb k "input_size") eqn:E3; [apply String.eqb_eq in E3; subst k; auto|]. destruct (is_field k); auto.
Qed.
Print Assumptions C48_untouched_settings.
Example C48_second_fit_seen :
  fit_seen (toy_fit toy_losses (fresh nat) [] toy_rows (fst (fst (toy_fit toy_losses (fresh nat) [] toy_rows toy_params)))) = Err ValueErr.
Proof. vm_compute. reflexivity. Qed.
Theorem C48_refit_refuted :
  ~ (forall parse_int isort gap W net T t_init t_step t_weights vloss shuffle d fs data params p' fs' d',
     (forall l, increasing_order l (isort l)) -> rectangular data ->
     fit parse_int isort gap W net T t_init t_step t_weights vloss shuffle d fs data params = (p', fs', Ok d') ->
     exists p'' fs'' d'', fit parse_int isort gap W net T t_init t_step t_weights vloss shuffle d fs data p' = (p'', fs'', Ok d'')).
Proof.
  intros H. destruct (fit_seen_inv _ _ _ toy_fit_seen) as (p & fs & d & E & _).
  pose proof C48_second_fit_seen as Q. rewrite E in Q. cbn [fst] in Q.
  unfold toy_fit in E.
  assert (R : rectangular toy_rows) by (intros n c [Hc|[]]; injection Hc as _ <-; reflexivity).
  specialize (H _ _ _ _ _ _ _ _ _ _ _ _ _ _ _ _ _ _ toy_isort_ok R E). destruct H as (p2 & fs2 & d2 & E2).
  unfold toy_fit in Q. rewrite E2 in Q. discriminate Q.
Qed.
Print Assumptions C48_refit_refuted.

(** * C49 *)
Theorem C49_first_best_epoch_kept :
  forall parse_int isort gap W net T t_init t_step t_weights vloss shuffle d fs data params p' fs' d',
  (forall l, increasing_order l (isort l)) -> rectangular data ->
  fit parse_int isort gap W net T t_init t_step t_weights vloss shuffle d fs data params = (p', fs', Ok d') ->
  exists c rows tl train val state loss path,
    fit_setup isort params data c rows tl train val /\
    fit_run W T t_init t_step t_weights vloss shuffle c train val state loss /\ saved_at params path /\
    ((exists j, first_best loss 0 (c_epochs c) j /\ d_model W d' = Some (t_weights (state (S j))) /\ d_config W d' = Some c) \/
     ((forall i, i < c_epochs c -> loss i = None) /\
      exists k, fget W path fs = Some k /\ d_model W d' = Some (k_weights W k) /\ d_config W d' = Some (k_config W k) /\
        d_pct W d' = Some (k_pct W k))).
Proof.
  intros parse isort gap W net T t_init t_step t_weights vloss shuffle d fs data params p' fs' d' Gi Hr H.
  destruct (fit_spec _ _ _ _ _ _ _ _ _ _ _ _ _ _ _ _ _ _ Gi Hr H) as (c & rows & tl & train & val & state & loss & path & Su & Ew & Ru & Sv & _ & _ & _ & k & Ek & Ec & Em & Epc & D & _).
  exists c, rows, tl, train, val, state, loss, path. split; auto. split; auto. split; auto.
  destruct D as [(j & B & ->)|[D L]].
  - left. exists j. auto.
  - right. split; auto. exists k. auto.
Qed.
Print Assumptions C49_first_best_epoch_kept.
(** Four epochs of two steps with mean losses 7/2, 1/2, 1/2, 3/2: the weights
    after the second epoch are kept. *)
Example C49_example : fit_seen (toy_fit toy_losses (fresh nat) [] toy_rows toy_params) = Ok (Some 4, Some (200000000 # 200000001)%Q, Some (2, 2)).
Proof. exact toy_fit_seen. Qed.

(** * C56, the reported loss *)
Theorem C56_epoch_loss : forall W (vloss : W -> list (list (list Qc) * list Qc) -> option Qc) w b val groups,
  loader false b val = Ok groups -> val <> [] ->
  concat groups = val /\
  evaluate_epoch W vloss w groups = option_map (fun s => s / qn (length val))%Qc (osum (map (vloss w) groups)).
Proof.
  intros W vloss w b val groups H Hv. destruct (evaluate_epoch_spec _ vloss w _ _ _ H) as [[C _] E]. split; auto.
  rewrite E. destruct val; [congruence|]. reflexivity.
Qed.
Print Assumptions C56_epoch_loss.
Example C56_epoch_loss_example :
  (do g <- loader false 2 [([], [1%Qc]); ([], [0%Qc]); ([], [1%Qc])];
   Ok (option_map this (evaluate_epoch unit (fun _ b => Some (qsum (concat (map snd b)))) tt g))) = Ok (Some (2 # 3)%Q).
Proof. vm_compute. reflexivity. Qed.

(** * C70 *)
Theorem C70_no_validation_windows :
  forall parse_int isort gap W net T t_init t_step t_weights vloss shuffle d fs data params p' fs' d',
  (forall l, increasing_order l (isort l)) -> rectangular data ->
  fit parse_int isort gap W net T t_init t_step t_weights vloss shuffle d fs data params = (p', fs', Ok d') ->
  exists c rows tl train val state loss,
    fit_setup isort params data c rows tl train val /\
    fit_run W T t_init t_step t_weights vloss shuffle c train val state loss /\
    (0 < c_epochs c -> (0 <= c_val_ratio c)%Qc ->
     (qn (length (f_index data)) * c_val_ratio c < qn (c_input c) + 1)%Qc ->
     d_model W d' = Some (t_weights (state 1))).
Proof.
  intros parse isort gap W net T t_init t_step t_weights vloss shuffle d fs data params p' fs' d' Gi Hr H.
  destruct (fit_spec _ _ _ _ _ _ _ _ _ _ _ _ _ _ _ _ _ _ Gi Hr H) as (c & rows & tl & train & val & state & loss & path & Su & Ew & Ru & Sv & _ & _ & _ & k & Ek & Ec & Em & Epc & D & _).
  exists c, rows, tl, train, val, state, loss. split; auto. split; auto. intros He Hv Hlt.
  destruct Su as (_ & _ & _ & _ & _ & _ & _ & _ & _ & _ & _ & _ & _ & _ & _ & _ & Va).
  destruct (Va Hv) as (vl & [V1 V2] & Lw & _).
  assert (vl <= c_input c). { assert (vl < S (c_input c)); [|lia]. apply qn_lt. rewrite (qn_S (c_input c)). qlra. }
  assert (Lv : length val = 0).
  { rewrite Lw, Nat.div_1_r. unfold slice. rewrite firstn_length. lia. }
  destruct Ru as (_ & _ & R2).
  assert (L0 : forall i, loss i = Some 0%Qc) by (intros i; destruct (R2 i) as (g & _ & ->); rewrite Lv; auto).
  destruct D as [(j & (Hj & x & Ex & B1 & _) & ->)|[_ L]].
  - rewrite Em. cbn [k_weights]. f_equal. f_equal. f_equal. f_equal. destruct j as [|j]; auto.
    specialize (B1 0 0%Qc ltac:(lia) (L0 0)). rewrite L0 in Ex. injection Ex as <-. qlra.
  - specialize (L 0 He). rewrite L0 in L. discriminate.
Qed.
Print Assumptions C70_no_validation_windows.
(** The default validation share of 10 rows is one row: later epochs never count. *)
Definition C70_params : dict := [("sliding_window"%string, PInt 4); ("interval"%string, PInt 1); ("batch_size"%string, PInt 2); ("epochs"%string, PInt 4)].
Example C70_example : fit_seen (toy_fit toy_losses (fresh nat) [] toy_rows C70_params) = Ok (Some 3, Some (100000000 # 200000001)%Q, Some (2, 2)).
Proof. vm_compute. reflexivity. Qed.

(** * C71 *)
Theorem C71_too_few_windows_for_a_batch :
  forall parse_int isort gap W net T t_init t_step t_weights vloss shuffle d fs data params p' fs' d',
  (forall l, increasing_order l (isort l)) -> (forall k l, length (shuffle k l) = length l) -> rectangular data ->
  fit parse_int isort gap W net T t_init t_step t_weights vloss shuffle d fs data params = (p', fs', Ok d') ->
  exists c rows tl train val state loss path,
    fit_setup isort params data c rows tl train val /\
    fit_run W T t_init t_step t_weights vloss shuffle c train val state loss /\ saved_at params path /\
    (length train < c_batch c -> fget W path fs = None -> d_model W d' = Some (t_weights (t_init c))).
Proof.
  intros parse isort gap W net T t_init t_step t_weights vloss shuffle d fs data params p' fs' d' Gi Gs Hr H.
  destruct (fit_spec _ _ _ _ _ _ _ _ _ _ _ _ _ _ _ _ _ _ Gi Hr H) as (c & rows & tl & train & val & state & loss & path & Su & Ew & Ru & Sv & _ & _ & _ & k & Ek & Ec & Em & Epc & D & _).
  exists c, rows, tl, train, val, state, loss, path. split; auto. split; auto. split; auto. intros Hlt Hn.
  destruct Ru as (R0 & R1 & _).
  assert (C : forall i, state i = t_init c).
  { induction i as [|i IH]; auto. destruct (R1 i) as (g & _ & Lg & ->). rewrite Gs, Nat.div_small in Lg by auto.
    destruct g; [|discriminate]. auto. }
  destruct D as [(j & _ & ->)|[D _]]; [|congruence]. rewrite Em. cbn [k_weights]. rewrite C. auto.
Qed.
Print Assumptions C71_too_few_windows_for_a_batch.
Definition C71_params : dict := [("sliding_window"%string, PInt 4); ("interval"%string, PInt 1); ("epochs"%string, PInt 4)].
Example C71_example : fit_seen (toy_fit (fun _ => Some 0%Qc) (fresh nat) [] toy_rows C71_params) = Ok (Some 0, Some (100000000 # 200000001)%Q, Some (2, 2)).
Proof. vm_compute. reflexivity. Qed.

(** * C54 *)
(** What the checkpoint file holds after a fit that improved at least once. *)
Theorem C54_checkpoint_contents :
  forall parse_int isort gap W net T t_init t_step t_weights vloss shuffle d fs data params p' fs' d' path,
  (forall l, increasing_order l (isort l)) -> rectangular data -> saved_at params path -> fget W path fs = None ->
  fit parse_int isort gap W net T t_init t_step t_weights vloss shuffle d fs data params = (p', fs', Ok d') ->
  exists r, load_checkpoint W (fresh W) fs' path = Ok r /\
    d_config W r = d_config W d' /\ d_model W r = d_model W d' /\ d_pct W r = d_pct W d' /\
    d_threshold W r = d_threshold W d /\ d_max W r = d_max W d /\ d_min W r = d_min W d.
Proof.
  intros parse isort gap W net T t_init t_step t_weights vloss shuffle d fs data params p' fs' d' path Gi Hr Hp Hn H.
  destruct (fit_spec _ _ _ _ _ _ _ _ _ _ _ _ _ _ _ _ _ _ Gi Hr H) as (c & rows & tl & train & val & state & loss & path' & Su & Ew & Ru & Sv & _ & _ & _ & k & Ek & Ec & Em & Epc & D & _).
  assert (path' = path).
  { destruct Hp as (x & Hx & ->). destruct Sv as (y & Hy & ->).
    destruct Hx as [[A1 ->]|A1], Hy as [[A2 ->]|A2]; rewrite A1 in A2; try discriminate; auto. injection A2 as ->. auto. }
  subst path'. unfold load_checkpoint. rewrite Ek. eexists. split; [reflexivity|]. cbn.
  rewrite Ec, Em, Epc. destruct D as [(j & _ & ->)|[D _]]; [|congruence]. repeat split.
Qed.
Print Assumptions C54_checkpoint_contents.
(** A detector restored from the file of a first fit cannot predict. *)
Theorem C54_restored_detector_fails :
  forall parse_int isort argsort_desc gap e1 W net T t_init t_step t_weights vloss shuffle fs data params p' fs' d' path r data2 params2 p2 x,
  (forall l, increasing_order l (isort l)) -> rectangular data -> saved_at params path -> fget W path fs = None ->
  fit parse_int isort gap W net T t_init t_step t_weights vloss shuffle (fresh W) fs data params = (p', fs', Ok d') ->
  load_checkpoint W (fresh W) fs' path = Ok r ->
  predict parse_int isort argsort_desc gap e1 W net r fs' data2 params2 = (p2, x) -> forall rs, x <> Ok rs.
Proof.
  intros parse isort asort gap e1 W net T t_init t_step t_weights vloss shuffle fs data params p' fs' d' path r data2 params2 p2 x Gi Hr Hp Hn H Hl Hpr rs ->.
  destruct (C54_checkpoint_contents _ _ _ _ _ _ _ _ _ _ _ _ _ _ _ _ _ _ _ Gi Hr Hp Hn H) as (r' & E & _ & Em & _ & Et & _).
  rewrite Hl in E. injection E as <-. cbn in Et.
  destruct (fit_spec _ _ _ _ _ _ _ _ _ _ _ _ _ _ _ _ _ _ Gi Hr H) as (c & rows & tl & train & val & state & loss & path' & _ & _ & _ & _ & _ & _ & _ & k & _ & _ & Em' & _).
  rewrite Em' in Em. unfold predict in Hpr.
  destruct (process_data_and_params parse isort data2 params2) as [q [[[vs vals] cfg]|e]]; [|discriminate].
  injection Hpr as _ Hpr. unfold predict_core in Hpr. rewrite Em, bind_ok, Em, Et in Hpr.
  destruct (d_config W r); [|discriminate]. destruct (length vals <? _); discriminate.
Qed.
Print Assumptions C54_restored_detector_fails.
Definition C54_fit := toy_fit toy_losses (fresh nat) [] toy_rows toy_params.
Definition toy_predict_n (d : detector nat) (data : frame) :=
  predict (fun _ => None) toy_isort toy_argsort Qcabs (Q2Qc (1718 # 1000)) nat (fun _ => toy_net tt) d [] data [].
Definition C54_data : frame := toy_frame [0; 1; 2; 3; 4]%Z (map Q2Qc [2; 3; 2; 2; 3]%Q).
Example C54_example :
  (do d <- snd C54_fit; seen_all (toy_predict_n d C54_data)) = Ok [(3%Z, true, 100000000 # 200000001); (4%Z, true, 200000000 # 200000001)]%Q /\
  (do d <- load_checkpoint nat (fresh nat) (snd (fst C54_fit)) "model/best_multi_ad_model.pt"; seen_all (toy_predict_n d C54_data)) = Err TypeErr.
Proof. split; vm_compute; reflexivity. Qed.
Theorem C54_restored_detector_refuted :
  ~ (forall parse_int isort argsort_desc gap e1 W net T t_init t_step t_weights vloss shuffle fs data params p' fs' d' path r data2 params2 p2 rs,
     good_sorts isort argsort_desc -> rectangular data -> saved_at params path -> fget W path fs = None ->
     fit parse_int isort gap W net T t_init t_step t_weights vloss shuffle (fresh W) fs data params = (p', fs', Ok d') ->
     load_checkpoint W (fresh W) fs' path = Ok r ->
     predict parse_int isort argsort_desc gap e1 W net d' fs' data2 params2 = (p2, Ok rs) ->
     predict parse_int isort argsort_desc gap e1 W net r fs' data2 params2 = (p2, Ok rs)).
Proof.
  intros H. destruct (fit_seen_inv _ _ _ toy_fit_seen) as (p & fs & d & E & _).
  assert (R : rectangular toy_rows) by (intros n c [Hc|[]]; injection Hc as _ <-; reflexivity).
  assert (Sv : saved_at toy_params "model/best_multi_ad_model.pt") by (exists "model"%string; split; [left; split; reflexivity|reflexivity]).
  assert (N : fget nat "model/best_multi_ad_model.pt" [] = None) by reflexivity.
  assert (Q : exists l, (do d <- snd C54_fit; seen_all (toy_predict_n d C54_data)) = Ok l).
  { eexists. vm_compute. reflexivity. }
  destruct Q as [l Q]. unfold C54_fit in Q. rewrite E in Q. cbn [snd] in Q. rewrite bind_ok in Q.
  destruct (seen_inv _ _ Q) as (p2 & rs & Ep & _).
  unfold toy_fit in E.
  destruct (C54_checkpoint_contents _ _ _ _ _ _ _ _ _ _ _ _ _ _ _ _ _ _ _ toy_isort_ok R Sv N E) as (r & Er & _).
  unfold toy_predict_n in Ep.
  assert (Ep' : predict (fun _ => None) toy_isort toy_argsort Qcabs (Q2Qc (1718 # 1000)) nat (fun _ => toy_net tt) d fs C54_data [] = (p2, Ok rs)).
  { rewrite <- Ep. unfold predict. destruct (process_data_and_params _ _ _ _) as [q [[[vs vals] cfg]|e]]; auto. f_equal.
    unfold predict_core.
    destruct (fit_spec _ _ _ _ _ _ _ _ _ _ _ _ _ _ _ _ _ _ toy_isort_ok R E) as (c & rows & tl & train & val & state & loss & path' & _ & _ & _ & _ & _ & _ & _ & k & _ & _ & Em' & _).
    rewrite Em'. auto. }
  specialize (H _ _ _ _ _ _ _ _ _ _ _ _ _ _ _ _ _ _ _ _ _ _ _ _ _ (conj toy_isort_ok toy_argsort_ok) R Sv N E Er Ep').
  exact (C54_restored_detector_fails _ _ _ _ _ _ _ _ _ _ _ _ _ _ _ _ _ _ _ _ _ _ _ _ _ toy_isort_ok R Sv N E Er H rs eq_refl).
Qed.
Print Assumptions C54_restored_detector_refuted.

(** * C55 for a fitted detector *)
Theorem C55_fitted_threshold :
  forall parse_int isort gap W net T t_init t_step t_weights vloss shuffle d fs data params p' fs' d' path,
  (forall l, increasing_order l (isort l)) -> rectangular data -> saved_at params path -> fget W path fs = None ->
  fit parse_int isort gap W net T t_init t_step t_weights vloss shuffle d fs data params = (p', fs', Ok d') ->
  exists c w pct rows tl train val scores th mx mn,
    d_config W d' = Some c /\ d_model W d' = Some w /\ d_pct W d' = Some pct /\
    d_threshold W d' = Some th /\ d_max W d' = Some mx /\ d_min W d' = Some mn /\
    (0 < c_input c -> (0 <= c_level c)%Qc ->
     fit_setup isort params data c rows tl train val /\
     fit_scores gap W net c w pct rows tl scores /\ (c_level c < 1)%Qc /\
     In th scores /\ In mx scores /\ In mn scores /\ (forall s, In s scores -> mn <= s /\ s <= mx)%Qc /\
     (qn (count (fun s => th <? s)%Qc scores) <= (1 - c_level c) * qn (length scores))%Qc /\
     (qn (count (fun s => s <? th)%Qc scores) <= c_level c * qn (length scores))%Qc).
Proof.
  intros parse isort gap W net T t_init t_step t_weights vloss shuffle d fs data params p' fs' d' path Gi Hr Hp Hn H.
  destruct (fit_spec _ _ _ _ _ _ _ _ _ _ _ _ _ _ _ _ _ _ Gi Hr H) as (c & rows & tl & train & val & state & loss & path' & Su & Ew & Ru & Sv & _ & _ & _ & k & Ek & Ec & Em & Epc & D & inf & th & mx & mn & Ei & Eth & T1 & T2 & T3).
  assert (path' = path).
  { destruct Hp as (x & Hx & ->). destruct Sv as (y & Hy & ->).
    destruct Hx as [[A1 ->]|A1], Hy as [[A2 ->]|A2]; rewrite A1 in A2; try discriminate; auto. injection A2 as ->. auto. }
  subst path'. destruct D as [(j & _ & Hk)|[D _]]; [|congruence].
  assert (Ekc : k_config W k = c) by (subst k; auto). rewrite Ekc in *.
  destruct inf as [[ics ts] ims]. cbn [fst snd] in Eth. destruct ts as [scores|]; [|discriminate].
  exists c, (k_weights W k), (k_pct W k), rows, tl, train, val, scores, th, mx, mn.
  do 6 (split; [auto|]). intros Hin Hlv.
  split; auto. pose proof Su as (_ & _ & _ & _ & _ & _ & _ & (m & v & variables & _ & (Lr & Wr & cols & Pc & Ev & _)) & Htl & _ & Lmx & Lmn & _).
  assert (Ld : length variables = length (f_cols data)) by (rewrite Ev, map_length; apply Permutation_length; auto).
  assert (Hb : 0 < c_batch c).
  { destruct Ru as (_ & R1 & _). destruct (R1 0) as (g & _). destruct (c_batch c) eqn:Eb; [|lia].
    exfalso. unfold inference in Ei. destruct (dataset _ _ _ _ _ _ _ _) in Ei; discriminate Ei. }
  assert (Wt : width (length variables) (firstn tl rows)) by (apply firstn_width; auto).
  assert (Lmn' : length (c_min c) = length variables) by congruence. assert (Lmx' : length (c_max c) = length variables) by congruence.
  pose proof Ei as Ei2. rewrite inference_spec in Ei by auto. dbind Ei. dbind Ei.
  assert (Es : exists cs ms, ics = Some cs /\ ims = Some ms).
  { destruct a as [|aa at_]; inversion Ei; subst; eauto. }
  destruct Es as (cs & ms & -> & ->). clear Ei E E0.
  destruct (inference_rows _ _ (length variables) _ _ _ _ _ _ _ _ _ Hb Hin Wt Lmn' Lmx' Ei2) as (N1 & N2 & N3 & N4 & P).
  assert (Ns : scores <> []) by (intros ->; cbn in N4; lia).
  destruct (C55_training_threshold (c_level c) scores Hlv Ns) as [Q1 Q2].
  assert (Hl1 : (c_level c < 1)%Qc).
  { destruct (Qclt_le_dec' (c_level c) 1) as [Hl|Hl]; auto. rewrite (Q2 Hl) in Eth. discriminate. }
  destruct (Q1 Hl1) as (th' & mx' & mn' & Eth' & Rest). rewrite Eth in Eth'. injection Eth' as -> -> ->.
  split; [|split; [auto|exact Rest]].
  split.
  - exact N2.
  - intros i s Es.
    assert (Hi : i < length scores) by (eapply nth_error_lt; eauto).
    destruct (nth_error_ex _ cs i ltac:(lia)) as [ci Eci]. destruct (nth_error_ex _ ms i ltac:(lia)) as [mi Emi].
    destruct (P i ci s mi Eci Es Emi) as (x & t & y & S1 & S2 & S3 & _ & S5 & _ & _ & S6).
    exists ci. split; [|exact S5]. split; [lia|]. exists x, t, y.
    replace (c_input c + i - c_input c) with i by lia. replace (c_input c + i) with (i + c_input c) by lia.
    split; [exact S1|]. split; [exact S2|]. split; [exact S3|exact S6].
Qed.
Print Assumptions C55_fitted_threshold.

(** * C75 *)
(** The weights skip the column, the rows do not: their lengths differ.
    (With exactly two columns numpy would broadcast the single weight.) *)
Theorem C75_timestamp_column_rejected :
  forall parse_int isort gap W net T t_init t_step t_weights vloss shuffle d fs data params p' fs' r path,
  (forall l, increasing_order l (isort l)) -> rectangular data -> saved_at params path -> fget W path fs = None ->
  3 <= length (f_cols data) -> In "timestamp"%string (map fst (f_cols data)) ->
  fit parse_int isort gap W net T t_init t_step t_weights vloss shuffle d fs data params = (p', fs', r) ->
  forall d', r <> Ok d'.
Proof.
  intros parse isort gap W net T t_init t_step t_weights vloss shuffle d fs data params p' fs' r path Gi Hr Hp Hn _ Hts H d' ->.
  destruct (fit_spec _ _ _ _ _ _ _ _ _ _ _ _ _ _ _ _ _ _ Gi Hr H) as (c & rows & tl & train & val & state & loss & path' & Su & Ew & Ru & Sv & _ & _ & _ & k & Ek & Ec & Em & Epc & D & inf & th & mx & mn & Ei & Eth & T1 & T2 & T3).
  assert (path' = path).
  { destruct Hp as (x & Hx & ->). destruct Sv as (y & Hy & ->).
    destruct Hx as [[A1 ->]|A1], Hy as [[A2 ->]|A2]; rewrite A1 in A2; try discriminate; auto. injection A2 as ->. auto. }
  subst path'. destruct D as [(j & _ & Hk)|[D _]]; [|congruence].
  assert (Ekc : k_config W k = c) by (subst k; auto). assert (Ekp : k_pct W k = pct_weights data (c_tw c + c_input c)) by (subst k; auto).
  rewrite Ekc, Ekp in *.
  assert (Lp : length (pct_weights data (c_tw c + c_input c)) < length (f_cols data)).
  { unfold pct_weights, reweight. rewrite !map_length. rewrite <- (Permutation_length (csort_perm _ _)).
    apply in_map_iff in Hts. destruct Hts as (x & Ex & Ix).
    clear -Ex Ix. induction (f_cols data) as [|y t IH]; [contradiction|]. cbn [filter].
    assert (Hle : length (filter (fun c0 => negb (fst c0 =? "timestamp")%string) t) <= length t).
    { clear. induction t as [|z t IH]; cbn; auto. destruct (negb _); cbn; lia. }
    destruct Ix as [->|Ix].
    - rewrite Ex. cbn. lia.
    - specialize (IH Ix). destruct (negb _); cbn [length]; lia. }
  destruct inf as [[ics ts] ims]. cbn [fst snd] in Eth. destruct ts as [scores|]; [|discriminate].
  destruct Su as (_ & _ & _ & _ & _ & _ & _ & (m & v & variables & _ & (Lr & Wr & cols & Pc & Ev & _)) & Htl & _ & Lmx & Lmn & _).
  assert (Ld : length variables = length (f_cols data)) by (rewrite Ev, map_length; apply Permutation_length; auto).
  assert (Hb : 0 < c_batch c).
  { destruct (c_batch c) eqn:Eb; [|lia]. exfalso. unfold inference in Ei. destruct (dataset _ _ _ _ _ _ _ _) in Ei; discriminate Ei. }
  assert (Wt : width (length variables) (firstn tl rows)) by (apply firstn_width; auto).
  rewrite inference_spec in Ei by auto.
  destruct (dataset_spec (firstn tl rows) (length variables) (c_input c) 1 1 (c_min c) (c_max c) (Q2Qc (-1000)) (Q2Qc 1000)) as (sm & Es & _ & Ps); try congruence; try lia.
  { discriminate. }
  rewrite Es, bind_ok in Ei. destruct sm as [|[x y] st]; [discriminate|].
  cbn [mapM] in Ei. destruct (score_sample _ _ _ (x, y)) as [r0|] eqn:Er; [|discriminate].
  unfold score_sample in Er. cbn [fst snd] in Er. destruct (net _ x) as [pr at_]. dbind Er. apply contributions_spec in E.
  destruct E as (_ & E & _). destruct (Ps 0 x y eq_refl) as (_ & _ & t & Et & Ly & _).
  assert (Lt : length t = length variables).
  { unfold width in Wt. rewrite Forall_forall in Wt. apply Wt. eapply nth_error_In; eauto. }
  lia.
Qed.
Print Assumptions C75_timestamp_column_rejected.
Definition C75_data : frame := Frame [0; 1]%Z [("a"%string, [None; None]); ("b"%string, [None; None]); ("timestamp"%string, [None; None])].
Example C75_example : rectangular C75_data /\ 3 <= length (f_cols C75_data) /\ In "timestamp"%string (map fst (f_cols C75_data)).
Proof.
  split; [intros n c [H|[H|[H|[]]]]; inversion H; reflexivity|]. split; [cbn; lia|]. right. right. left. reflexivity.
Qed.

(** * C76 *)
(** Reordering the rows can change a fit only through the variable weights. *)
Theorem C76_rows_matter_only_for_weights :
  forall parse_int isort gap W net T t_init t_step t_weights vloss shuffle d fs a b params,
  (forall l, increasing_order l (isort l)) -> rectangular a -> NoDup (f_index a) -> same_rows a b ->
  (forall w, pct_weights a w = pct_weights b w) ->
  fit parse_int isort gap W net T t_init t_step t_weights vloss shuffle d fs a params =
  fit parse_int isort gap W net T t_init t_step t_weights vloss shuffle d fs b params.
Proof.
  intros parse isort gap W net T t_init t_step t_weights vloss shuffle d fs a b params Gi Hr Nd Sr Hw.
  assert (Pr : forall m v, process isort m v a = process isort m v b) by (intros; apply process_same_rows; auto).
  assert (Li : length (f_index b) = length (f_index a)) by (apply (process_same_rows isort FZero 0%Qc); auto).
  assert (Pp : process_data_and_params parse isort a params = process_data_and_params parse isort b params).
  { unfold process_data_and_params. destruct (compute_window_sizes parse _) as [[i t]|e]; auto.
    destruct (data_processor _ _) as [[m v]|e]; auto. rewrite Pr. auto. }
  unfold fit. rewrite Pp. destruct (process_data_and_params parse isort b params) as [q [[[vs rs] cfg]|e]]; auto.
  unfold fit_core. rewrite Li, Hw. auto.
Qed.
Print Assumptions C76_rows_matter_only_for_weights.
(** Two variables: one alternates in time order, the other is constant. *)
Definition toy_fit2 (data : frame) (params : dict) :=
  fit (fun _ => None) toy_isort Qcabs nat (fun _ _ => ([0; 0]%Qc, [[1; 1]; [1; 1]]%Qc)) nat (fun _ => 0) (fun _ t _ => S t) (fun t => t)
    (fun w _ => Some 1%Qc) (fun _ l => l) (fresh nat) [] data params.
Definition C76_time : frame := Frame [0; 1; 2; 3; 4; 5; 6; 7]%Z
  [("a"%string, map Some [0; 1; 0; 1; 0; 1; 0; 1]%Qc); ("b"%string, map Some [1; 1; 1; 1; 1; 1; 1; 1]%Qc)].
Definition C76_mixed : frame := Frame [0; 2; 4; 6; 1; 3; 5; 7]%Z
  [("a"%string, map Some [0; 0; 0; 0; 1; 1; 1; 1]%Qc); ("b"%string, map Some [1; 1; 1; 1; 1; 1; 1; 1]%Qc)].
Definition C76_params : dict := [("sliding_window"%string, PInt 2); ("interval"%string, PInt 1); ("epochs"%string, PInt 1)].
Definition weights_seen {W} (x : dict * files W * res (detector W)) : res (option (list Q) * option Q) :=
  do d <- snd x; Ok (option_map (map this) (d_pct W d), option_map this (d_threshold W d)).
Lemma weights_seen_inv : forall W (x : dict * files W * res (detector W)) y, weights_seen x = Ok y ->
  exists p fs d, x = (p, fs, Ok d) /\ (option_map (map this) (d_pct W d), option_map this (d_threshold W d)) = y.
Proof. intros W [[p fs] [d|e]] y H; cbn in H; inversion H. eauto. Qed.
Example C76_seen_time : weights_seen (toy_fit2 C76_time C76_params) = Ok (Some [1 # 2; 1]%Q, Some (25000000 # 100000001)%Q).
Proof. vm_compute. reflexivity. Qed.
Example C76_seen_mixed : weights_seen (toy_fit2 C76_mixed C76_params) = Ok (Some [1; 1]%Q, Some (50000000 # 100000001)%Q).
Proof. vm_compute. reflexivity. Qed.
Theorem C76_row_order_refuted :
  ~ (forall parse_int isort gap W net T t_init t_step t_weights vloss shuffle d fs a b params pa fa da pb fb db,
     (forall l, increasing_order l (isort l)) -> rectangular a -> NoDup (f_index a) -> same_rows a b ->
     fit parse_int isort gap W net T t_init t_step t_weights vloss shuffle d fs a params = (pa, fa, Ok da) ->
     fit parse_int isort gap W net T t_init t_step t_weights vloss shuffle d fs b params = (pb, fb, Ok db) ->
     d_threshold W da = d_threshold W db).
Proof.
  intros H. destruct (weights_seen_inv _ _ _ C76_seen_time) as (pa & fa & da & Ea & Sa).
  destruct (weights_seen_inv _ _ _ C76_seen_mixed) as (pb & fb & db & Eb & Sb). unfold toy_fit2 in Ea, Eb.
  assert (R : rectangular C76_time) by (intros n c [Hc|[Hc|[]]]; injection Hc as _ <-; reflexivity).
  assert (Nd : NoDup (f_index C76_time)).
  { cbn. repeat (constructor; [cbn; intuition discriminate|]). constructor. }
  assert (Sr : same_rows C76_time C76_mixed).
  { exists [0; 2; 4; 6; 1; 3; 5; 7]. split.
    { cbn. apply NoDup_Permutation; [repeat (constructor; [cbn; intuition discriminate|]); constructor
        |repeat (constructor; [cbn; intuition discriminate|]); constructor|]. intros x; cbn; intuition. }
    assert (Rr : forall A (l l' : list A), length l' = 8 ->
      (forall r i, In (r, i) [(0, 0); (1, 2); (2, 4); (3, 6); (4, 1); (5, 3); (6, 5); (7, 7)] -> nth_error l' r = nth_error l i) ->
      reordered [0; 2; 4; 6; 1; 3; 5; 7] l l').
    { intros A l l' L E. split; auto. intros r i Er.
      apply E. do 8 (destruct r as [|r]; [injection Er as <-; cbn; tauto|]). destruct r; discriminate Er. }
    split; [|constructor; [split; [auto|]|constructor; [split; [auto|]|constructor]]]; (apply Rr; [reflexivity|]); intros r i I;
      (do 8 (destruct I as [I|I]; [injection I as <- <-; reflexivity|])); destruct I. }
  specialize (H _ _ _ _ _ _ _ _ _ _ _ _ _ _ _ _ _ _ _ _ _ _ toy_isort_ok R Nd Sr Ea Eb).
  injection Sa as _ Sa. injection Sb as _ Sb. rewrite H, Sb in Sa. discriminate Sa.
Qed.
Print Assumptions C76_row_order_refuted.

(** * An example for C51: two variables, an attention map that moves. *)
Definition toy_net2 (_ : unit) (x : list (list Qc)) : list Qc * mat :=
  let v := nth 0 (last x []) 0%Qc in ([0; 0]%Qc, [[v; 1 - v]; [1 - v; v]]%Qc).
Definition toy_detector2 : detector unit :=
  Detector unit (Some (Config 2 1 2 1 2 1 1 (Q2Qc (8 # 10)) (Q2Qc (1 # 10)) (Q2Qc (8 # 10)) "model" (toy_max ++ toy_max) [0; 0]%Qc))
    (Some tt) (Some [1; 1]%Qc) (Some (Q2Qc (4 # 10))) None None None (Some ["a"; "b"]%string).
Definition C51_data : frame := Frame [1; 2; 3]%Z
  [("b"%string, map (fun q => Some (Q2Qc q)) [1#10; 2#10; 6#10]%Q); ("a"%string, map (fun q => Some (Q2Qc q)) [1#10; 5#10; 2#10]%Q)].
Example C51_example :
  (do rs <- snd (predict (fun _ => None) toy_isort toy_argsort Qcabs (Q2Qc (1718 # 1000)) unit toy_net2 toy_detector2 [] C51_data []);
   Ok (map (fun r => map (fun e => (e_name e, this (e_score e), map (fun nv => (fst nv, this (snd nv))) (e_changed e))) (r_interp r)) rs)) =
  Ok [[("b"%string, 3 # 4, [("a"%string, -1 # 5); ("b"%string, 1 # 5)]); ("a"%string, 1 # 4, [("a"%string, 1 # 5); ("b"%string, -1 # 5)])]]%Q.
Proof. vm_compute. reflexivity. Qed.
