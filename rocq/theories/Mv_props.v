(** Properties of the multivariate detector: preparation, windows, scores,
    decisions and interpretation (C41-C46, C50-C53, C55, C72-C74). *)
From Coq Require Import String List Arith ZArith Lia Bool Permutation Sorted.
From Verif Require Import Base Num Sorting Kernel_model Kernel_proofs Helpers_model Helpers_spec Helpers_proofs
  Mv_model Mv_state Mv_spec Mv_spec2 Mv_proofs Mv_proofs2 Mv_proofs3 Mv_proofs4 Mv_proofs5 Mv_proofs6 Mv_proofs7 Mv_toy.
Import ListNotations.
Open Scope nat_scope.

(** * C41 *)
Theorem C41_windows_inside : forall rows d input interval horizon mn mx lo hi,
  0 < interval -> 0 < input + horizon -> (lo <= hi)%Qc -> width d rows -> length mn = d -> length mx = d ->
  exists samples, dataset rows input interval horizon mn mx lo hi = Ok samples /\
    windows_of rows input interval horizon mn mx lo hi samples.
Proof.
  intros rows d w i h mn mx lo hi Hi Hw Hl Wd L1 L2.
  destruct (dataset_spec rows d w i h mn mx lo hi Hi Hw Hl Wd L1 L2) as (s & E & L & P). exists s. split; auto. split; auto.
Qed.
Print Assumptions C41_windows_inside.
Corollary C41_one_window_per_row : forall rows d input mn mx lo hi, 0 < input -> (lo <= hi)%Qc ->
  width d rows -> length mn = d -> length mx = d ->
  exists samples, dataset rows input 1 1 mn mx lo hi = Ok samples /\ length samples = length rows - input.
Proof.
  intros rows d w mn mx lo hi Hw Hl Wd L1 L2.
  destruct (C41_windows_inside rows d w 1 1 mn mx lo hi) as (s & E & L & _); auto; try lia.
  exists s. split; auto. rewrite L, Nat.div_1_r. lia.
Qed.
Print Assumptions C41_one_window_per_row.
(** A window that still fits after the last one is not used unless the number
    of possible windows is a multiple of the interval. *)
Corollary C41_complete_window_dropped : forall rows d input interval horizon mn mx lo hi samples,
  0 < interval -> 0 < input + horizon -> (lo <= hi)%Qc -> width d rows -> length mn = d -> length mx = d ->
  dataset rows input interval horizon mn mx lo hi = Ok samples ->
  (input + length samples * interval + horizon <= length rows <->
   (length rows + 1 - horizon - input) mod interval <> 0).
Proof.
  intros rows d w i h mn mx lo hi s Hi Hw Hl Wd L1 L2 E.
  destruct (C41_windows_inside rows d w i h mn mx lo hi Hi Hw Hl Wd L1 L2) as (s' & E' & L & _).
  rewrite E in E'. inversion E'; subst s'. rewrite L. set (n := length rows + 1 - h - w).
  pose proof (Nat.div_mod n i ltac:(lia)) as D. pose proof (Nat.mod_upper_bound n i ltac:(lia)) as U.
  set (q := n / i) in *. rewrite (Nat.mul_comm q i). unfold n in *. split; intros H; lia.
Qed.
Print Assumptions C41_complete_window_dropped.
Example C41_example : exists samples,
  dataset (map (fun k => [qn k]) (seq 0 9)) 3 2 2 [0%Qc] [1%Qc] 0%Qc 1%Qc = Ok samples /\ length samples = 2.
Proof. eexists. split; [reflexivity|reflexivity]. Qed.
(** Seven rows allow three windows of 4 + 1 rows; interval 10 (the default) uses none. *)
Example C41_dropped_example : dataset (map (fun k => [qn k]) (seq 0 7)) 4 10 1 [0%Qc] [1%Qc] 0%Qc 1%Qc = Ok [].
Proof. reflexivity. Qed.

(** * C46 *)
Theorem C46_preparation : forall parse_int isort data params p' variables rows cfg,
  (forall l, increasing_order l (isort l)) -> rectangular data ->
  process_data_and_params parse_int isort data params = (p', Ok (variables, rows, cfg)) ->
  exists m value, asks params m value /\ prepared (isort (f_index data)) m value data variables rows.
Proof.
  intros parse isort data params p' vs rows cfg Hi Hr H.
  destruct (process_params_spec _ _ _ _ _ _ _ _ H) as (i & t & m & v & _ & Ed & Ep & _).
  exists m, v. split; [apply processor_asks; auto|apply process_prepared; auto].
Qed.
Print Assumptions C46_preparation.
(** One column, every method: nothing is missing and observed cells are kept. *)
Theorem C46_filling : forall m value col,
  length (fill_col m value col) = length col /\
  (forall p v, observed col p v -> nth_error (fill_col m value col) p = Some v) /\
  (forall p, nth_error col p = Some None ->
     exists x, nth_error (fill_col m value col) p = Some x /\ fill_value m value col p x).
Proof.
  intros m value col. split; [apply fill_col_length|]. split.
  - intros p v O. assert (L : p < length (fill_col m value col)) by (rewrite fill_col_length; eapply nth_error_lt; exact O).
    destruct (nth_error_ex _ _ _ L) as [x E]. destruct (fill_col_value _ _ _ _ _ E) as [O'|[M _]].
    + unfold observed in *. congruence.
    + unfold observed in O. congruence.
  - intros p M. assert (L : p < length (fill_col m value col)) by (rewrite fill_col_length; eapply nth_error_lt; exact M).
    destruct (nth_error_ex _ _ _ L) as [x E]. exists x. split; auto. apply fill_col_value; auto.
Qed.
Print Assumptions C46_filling.
Example C46_example :
  let col := [None; Some 1%Qc; None; None; Some (Q2Qc 7); None] in
  map this (fill_col FLinear 0%Qc col) = map this (map Q2Qc [1; 1; 3; 5; 7; 7]%Q) /\
  map this (fill_col FPrevious 0%Qc col) = map this (map Q2Qc [1; 1; 1; 1; 7; 7]%Q) /\
  map this (fill_col FSubsequent 0%Qc col) = map this (map Q2Qc [1; 1; 7; 7; 7; 7]%Q) /\
  map this (fill_col FZero (Q2Qc 9) col) = map this (map Q2Qc [0; 1; 0; 0; 7; 0]%Q) /\
  map this (fill_col FFixed (Q2Qc 9) col) = map this (map Q2Qc [9; 1; 9; 9; 7; 9]%Q).
Proof. vm_compute. repeat split. Qed.

(** * C50 *)
Lemma eps8_pos : (0 < Q2Qc (1 # 100000000))%Qc.
Proof. reflexivity. Qed.
Theorem C50_normalisation : forall mn mx lo hi, (mn <= mx)%Qc -> (lo <= hi)%Qc ->
  (mx - mn + Q2Qc (1 # 100000000) <> 0)%Qc /\
  (forall x, cut_to lo hi ((x - mn) / (mx - mn + Q2Qc (1 # 100000000))) (minmax1 x mn mx lo hi))%Qc /\
  (forall x, lo <= minmax1 x mn mx lo hi /\ minmax1 x mn mx lo hi <= hi)%Qc /\
  (forall x y, x <= y -> minmax1 x mn mx lo hi <= minmax1 y mn mx lo hi)%Qc /\
  (lo <= 0 -> 1 <= hi -> forall x, mn <= x -> x <= mx ->
     0 <= minmax1 x mn mx lo hi /\ minmax1 x mn mx lo hi < 1 /\
     minmax1 x mn mx lo hi * (mx - mn + Q2Qc (1 # 100000000)) = x - mn)%Qc.
Proof.
  intros mn mx lo hi Hm Hl. pose proof eps8_pos as E. set (e := Q2Qc (1 # 100000000)) in *.
  assert (D : (0 < mx - mn + e)%Qc) by qlra. assert (D0 : (mx - mn + e <> 0)%Qc) by (intros Z; rewrite Z in D; qlra).
  split; auto. unfold minmax1. change eps8 with e.
  split; [intros x; apply clip_cut; auto|]. split; [intros x; apply clip_bounds; auto|]. split.
  - intros x y Hxy. apply clip_mono. apply Qcdiv_le_iff; auto.
    replace ((y - mn) / (mx - mn + e) * (mx - mn + e))%Qc with (y - mn)%Qc by (field; auto). qlra.
  - intros H0 H1 x Hx1 Hx2. set (u := ((x - mn) / (mx - mn + e))%Qc).
    assert (U : (u * (mx - mn + e) = x - mn)%Qc) by (unfold u; field; auto).
    assert (U0 : (0 <= u)%Qc) by (unfold u; apply Qcle_div_iff; auto; rewrite ?Qcmult_0_l; qlra).
    assert (U1 : (u < 1)%Qc) by (unfold u; apply Qcdiv_lt_iff; auto; rewrite Qcmult_1_l; qlra).
    destruct (clip_cut lo hi u Hl) as (_ & _ & C). rewrite C by qlra. auto.
Qed.
Print Assumptions C50_normalisation.
Corollary C50_constant_variable : forall mn lo hi, (lo <= 0)%Qc -> (1 <= hi)%Qc -> minmax1 mn mn mn lo hi = 0%Qc.
Proof.
  intros mn lo hi H0 H1.
  destruct (C50_normalisation mn mn lo hi) as (D & _ & _ & _ & P); [qlra|qlra|].
  destruct (P H0 H1 mn) as (_ & _ & E); [qlra|qlra|].
  replace (mn - mn)%Qc with 0%Qc in * by ring.
  apply Qcmult_integral in E. destruct E as [E|E]; auto. contradiction.
Qed.
Print Assumptions C50_constant_variable.
Example C50_example : this (minmax1 (Q2Qc 3) (Q2Qc 2) (Q2Qc 6) 0 1) = this (Q2Qc (100000000 # 400000001)).
Proof. reflexivity. Qed.

(** * Hypotheses shared by the statements about predict *)
Definition good_sorts (isort : list Z -> list nat) (argsort_desc : list Qc -> list nat) : Prop :=
  (forall l, increasing_order l (isort l)) /\ (forall l, decreasing_order l (argsort_desc l)).
(** The configuration fits the frame. *)
Definition fits (c : config) (data : frame) : Prop :=
  0 < c_input c /\ 0 < c_tw c /\ 0 < c_batch c /\
  length (c_min c) = length (f_cols data) /\ length (c_max c) = length (f_cols data) /\ rectangular data.

(** * C42 *)
Theorem C42_results_aligned : forall parse_int isort argsort_desc gap e1 W net d c w th pct fs data params p' rs,
  good_sorts isort argsort_desc -> trained W d c w th pct -> fits c data -> StronglySorted Z.le (f_index data) ->
  predict parse_int isort argsort_desc gap e1 W net d fs data params = (p', Ok rs) ->
  exists m value variables rows, asks params m value /\
    prepared (seq 0 (length (f_index data))) m value data variables rows /\
    c_input c + c_tw c <= length (f_index data) /\
    length rs = length (f_index data) - c_input c - c_tw c + 1 /\
    forall k r, nth_error rs k = Some r -> let q := c_input c + c_tw c - 1 + k in
      nth_error (f_index data) q = Some (r_index r) /\
      row_error (fun x => fst (net w x)) gap (c_min c) (c_max c) pct (c_input c) rows q (r_score r).
Proof.
  intros parse isort asort gap e1 W net d c w th pct fs data params p' rs [Gi Ga] Tr (H1 & H2 & H3 & H4 & H5 & H6) Hs H.
  destruct (predict_spec _ _ _ _ _ _ _ Gi _ _ _ _ _ _ _ _ _ _ Tr H6 H1 H2 H3 H4 H5 H)
    as (m & v & vs & rows & total & attn & contrib & A & P & Lv & Ln & Lt & La & Lc & Rt & Ra & Rc & Lr & R).
  exists m, v, vs, rows. split; auto. split.
  { destruct (Gi (f_index data)) as (_ & _ & Id). rewrite (Id Hs) in P. auto. }
  split; auto. split; [lia|]. intros k r E q. destruct (R k r E) as (E1 & E2 & _). split; auto.
  unfold q. replace (c_input c + c_tw c - 1 + k) with (c_input c + (c_tw c - 1 + k)) by lia. apply Rt. auto.
Qed.
Print Assumptions C42_results_aligned.
(** predict answers whenever the sizes match and no row is predicted exactly. *)
Theorem C42_predict_answers : forall parse_int isort argsort_desc gap e1 W net d c w th pct fs data params p' variables rows cfg,
  good_sorts isort argsort_desc -> trained W d c w th pct -> fits c data ->
  process_data_and_params parse_int isort data params = (p', Ok (variables, rows, cfg)) ->
  length pct = length (f_cols data) -> net_shape W net w (length (f_cols data)) ->
  (forall q s, row_error (fun x => fst (net w x)) gap (c_min c) (c_max c) pct (c_input c) rows q s -> s <> 0%Qc) ->
  (c_input c + c_tw c <= length (f_index data) <->
   exists rs, predict parse_int isort argsort_desc gap e1 W net d fs data params = (p', Ok rs)).
Proof.
  intros parse isort asort gap e1 W net d c w th pct fs data params p' vs rows cfg [Gi Ga] Tr (H1 & H2 & H3 & H4 & H5 & H6) Ep Lp Hn Hz.
  destruct (process_params_spec _ _ _ _ _ _ _ _ Ep) as (i & t & m & v & _ & Ed & Epr & _).
  pose proof (process_prepared isort m v data vs rows Gi H6 Epr) as P.
  assert (Lv : length vs = length (f_cols data)).
  { destruct P as (_ & _ & cols & Pc & -> & _). rewrite map_length. apply Permutation_length; auto. }
  destruct P as (Lr & Wd & _). split.
  - intros Hl. unfold predict. rewrite Ep.
    destruct (predict_core_total asort gap e1 W net d c w th pct fs data vs rows) as [rs E]; auto; try congruence; try lia.
    + rewrite Lv. auto.
    + intros contrib total attn c0 Ei I Z.
      assert (Wd' : width (length (f_cols data)) rows) by (rewrite <- Lv; auto).
      destruct (inference_rows _ _ _ _ _ _ _ _ _ _ _ _ H3 H1 Wd' H4 H5 Ei) as (N1 & N2 & N3 & N4 & Q).
      apply In_nth_error in I. destruct I as [k Ek]. assert (Hk : k < length contrib) by (eapply nth_error_lt; eauto).
      destruct (nth_error_ex _ total k) as [s Es]; [lia|]. destruct (nth_error_ex _ attn k) as [a Ea]; [lia|].
      destruct (Q k c0 s a Ek Es Ea) as (x & t0 & y & S1 & S2 & S3 & _ & S5 & _ & _ & S4).
      apply (Hz (k + c_input c) s).
      * exists c0. split; auto. split; [lia|]. exists x, t0, y. replace (k + c_input c - c_input c) with k by lia. auto.
      * rewrite S5. unfold qmean. rewrite Z. unfold Qcdiv. ring.
    + rewrite E. eauto.
  - intros [rs H]. destruct (predict_spec _ _ _ _ _ _ _ Gi _ _ _ _ _ _ _ _ _ _ Tr H6 H1 H2 H3 H4 H5 H)
      as (? & ? & ? & ? & ? & ? & ? & _ & _ & _ & Ln & _). auto.
Qed.
Print Assumptions C42_predict_answers.
Example C42_example :
  seen_all (toy_predict 2 2 (Q2Qc (4 # 10)) (toy_frame [10; 11; 12; 13; 14]%Z (map Q2Qc [1#10; 2#10; 45#100; 4#10; 2#10]%Q)) [])
  = Ok [(13%Z, false, 2 # 5); (14%Z, false, 1 # 5)]%Q.
Proof. vm_compute. reflexivity. Qed.
