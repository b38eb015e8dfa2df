(** Multivariate detector, part 6: training loop, checkpoints, fit and predict. *)
From Coq Require Import String List Arith ZArith Lia Bool Permutation Sorted.
From Verif Require Import Base Num Sorting Kernel_model Kernel_proofs Helpers_model Helpers_spec Helpers_proofs
  Mv_model Mv_state Mv_spec Mv_spec2 Mv_proofs Mv_proofs2 Mv_proofs3 Mv_proofs4 Mv_proofs5.
Import ListNotations.
Open Scope nat_scope.


Lemma meter_spec : forall A (f : A -> option Qc) (g : A -> nat) l m,
  m_sum (fold_left (fun m b => meter_update m (f b) (g b)) l m) =
    fold_left oadd (map f l) (m_sum m) /\
  m_count (fold_left (fun m b => meter_update m (f b) (g b)) l m) = m_count m + list_sum (map g l) /\
  (l <> [] -> m_avg (fold_left (fun m b => meter_update m (f b) (g b)) l m) =
     option_map (fun x => x / qn (m_count m + list_sum (map g l)))%Qc (fold_left oadd (map f l) (m_sum m))).
Proof.
  induction l as [|b t IH]; intros m.
  - cbn. repeat split; auto. congruence.
  - cbn [fold_left map list_sum fold_right]. destruct (IH (meter_update m (f b) (g b))) as (A1 & A2 & A3).
    split; auto. split; [rewrite A2; cbn [meter_update m_count]; unfold list_sum; lia|].
    intros _. destruct t as [|b' t'].
    + cbn. unfold list_sum. cbn. rewrite Nat.add_0_r. auto.
    + rewrite A3 by congruence. cbn [meter_update m_count m_sum]. unfold list_sum. rewrite Nat.add_assoc. auto.
Qed.

Lemma loader_total : forall A dl b (l : list A), 0 < b -> exists g, loader dl b l = Ok g.
Proof. intros A dl [|b] l H; [lia|]. cbn. eauto. Qed.

Section Detector.
Variable parse_int : string -> option Z.
Variable isort : list Z -> list nat.
Variable argsort_desc : list Qc -> list nat.
Variable gap : Qc -> Qc.
Variable e1 : Qc.
Variable W : Type.
Variable net : W -> list (list Qc) -> list Qc * mat.
Variable T : Type.
Variable t_init : config -> T.
Variable t_step : config -> T -> list (list (list Qc) * list Qc) -> T.
Variable t_weights : T -> W.
Variable vloss : W -> list (list (list Qc) * list Qc) -> option Qc.
Variable shuffle : nat -> list (list (list Qc) * list Qc) -> list (list (list Qc) * list Qc).

Notation run := (run_epochs W T t_step t_weights vloss shuffle).
Notation fitc := (fit_core gap W net T t_init t_step t_weights vloss shuffle).
Notation fit_ := (fit parse_int isort gap W net T t_init t_step t_weights vloss shuffle).
Notation predictc := (predict_core argsort_desc gap e1 W net).
Notation predict_ := (predict parse_int isort argsort_desc gap e1 W net).

(** The sequence of training states and validation losses of a run. *)
Definition training_run (cfg : config) (train : list (list (list Qc) * list Qc))
  (val : list (list (list (list Qc) * list Qc))) (state : nat -> T) (loss : nat -> option Qc) : Prop :=
  state 0 = t_init cfg /\
  (forall k, exists groups, loader true (c_batch cfg) (shuffle k train) = Ok groups /\
     state (S k) = fold_left (t_step cfg) groups (state k)) /\
  (forall k, loss k = evaluate_epoch W vloss (t_weights (state (S k))) val).

Lemma training_run_exists : forall cfg train val, 0 < c_batch cfg ->
  exists state loss, training_run cfg train val state loss.
Proof.
  intros cfg train val Hb.
  set (grp := fun k => match loader true (c_batch cfg) (shuffle k train) with Ok g => g | Err _ => [] end).
  set (state := fix st (k : nat) : T := match k with O => t_init cfg | S k' => fold_left (t_step cfg) (grp k') (st k') end).
  exists state, (fun k => evaluate_epoch W vloss (t_weights (state (S k))) val).
  split; [reflexivity|]. split; [|reflexivity]. intros k.
  destruct (loader_total _ true _ (shuffle k train) Hb) as [g Eg]. exists g. split; auto.
  cbn [state]. unfold grp. rewrite Eg. auto.
Qed.

Lemma fget_fput : forall p q c (fs : files W), fget W q (fput W p c fs) = if String.eqb q p then Some c else fget W q fs.
Proof. intros. reflexivity. Qed.

Lemma run_spec : forall cfg d path pct train val state loss fuel k best fs fs',
  training_run cfg train val state loss ->
  run fuel k cfg d path pct train val (state k) best fs = Ok fs' ->
  (forall q, q <> path -> fget W q fs' = fget W q fs) /\
  ((fs' = fs /\ forall i, k <= i < k + fuel -> improves (loss i) best = false) \/
   (exists j, first_best loss k (k + fuel) j /\ improves (loss j) best = true /\
      fget W path fs' = Some (Ckpt W (t_weights (state (S j))) cfg pct (d_threshold W d) (d_max W d) (d_min W d)))).
Proof.
  intros cfg d path pct train val state loss fuel.
  induction fuel as [|f IH]; intros k best fs fs' R H; cbn [run_epochs] in H.
  - inversion H; subst. split; auto. left. split; auto. intros; lia.
  - destruct R as (R0 & R1 & R2). destruct (R1 k) as (g & Eg & Es). rewrite Eg, bind_ok in H.
    unfold train_epoch in H. rewrite <- Es, <- R2 in H.
    destruct (improves (loss k) best) eqn:Im.
    + apply IH in H; [|repeat split; auto]. destruct H as [Ho H]. split.
      { intros q Hq. rewrite Ho by auto. rewrite fget_fput. destruct (String.eqb q path) eqn:E; auto.
        apply String.eqb_eq in E. contradiction. }
      right. destruct (loss k) as [x|] eqn:El; [|destruct best; discriminate].
      destruct H as [[-> Hn]|(j & (Hj & y & Ey & B1 & B2) & Ij & Ej)].
      * exists k. split; [|split; [rewrite El; auto|rewrite fget_fput, String.eqb_refl; auto]].
        split; [lia|]. exists x. split; auto. split; [intros; lia|].
        intros i y Hi Ey. specialize (Hn i ltac:(lia)). rewrite Ey in Hn. cbn in Hn. qb_hyps. auto.
      * assert (Hyx : (y < x)%Qc) by (rewrite Ey in Ij; cbn in Ij; qb_hyps; auto).
        exists j. split; [|split; auto].
        -- split; [lia|]. exists y. split; auto. split.
           ++ intros i z Hi Ez. destruct (Nat.eq_dec i k) as [->|]; [congruence|]. apply (B1 i z); auto. lia.
           ++ intros i z Hi Ez. apply (B2 i z); auto. lia.
        -- rewrite Ey. destruct best as [b|]; cbn in *; auto. qb_hyps. apply Qcltb_lt. qlra.
    + apply IH in H; [|repeat split; auto]. destruct H as [Ho H]. split; auto.
      destruct H as [[-> Hn]|(j & (Hj & y & Ey & B1 & B2) & Ij & Ej)].
      * left. split; auto. intros i Hi. destruct (Nat.eq_dec i k) as [->|]; auto. apply Hn. lia.
      * right. exists j. split; [|split; auto]. split; [lia|]. exists y. split; auto. split.
        -- intros i z Hi Ez. destruct (Nat.eq_dec i k) as [->|].
           ++ rewrite Ez in Im. rewrite Ey in Ij. destruct best as [b|]; cbn in *; qb_hyps; [qlra|discriminate].
           ++ apply (B1 i z); auto. lia.
        -- intros i z Hi Ez. apply (B2 i z); auto. lia.
Qed.

(** The pieces of a successful fit. *)
Lemma fit_core_inv : forall d fs data variables values cfg0 fs' d',
  fitc d fs data variables values cfg0 = (fs', Ok d') ->
  let pct := pct_weights data (c_tw cfg0 + c_input cfg0) in
  let path := (c_save cfg0 ++ "/best_multi_ad_model.pt")%string in
  let n := length (f_index data) in
  let tl := qint (qn n * c_train_ratio cfg0)%Qc in
  let vl := qint (qn n * c_val_ratio cfg0)%Qc in
  let train_data := firstn tl values in
  let mx := column_max train_data (length variables) in
  let mn := column_min train_data (length variables) in
  let cfg := with_base cfg0 (length variables) mx mn in
  train_data <> [] /\
  exists train val val_set k inf th,
    dataset train_data (c_input cfg0) (c_interval cfg0) (c_horizon cfg0) mn mx 0 1 = Ok train /\ train <> [] /\
    dataset (slice values tl (vl + tl)) (c_input cfg0) 1 1 mn mx (Q2Qc (-1000)) (Q2Qc 1000) = Ok val_set /\
    loader false (c_batch cfg0) val_set = Ok val /\
    run (c_epochs cfg0) 0 cfg d path pct train val (t_init cfg) None fs = Ok fs' /\
    fget W path fs' = Some k /\
    inference (net (k_weights W k)) gap (c_input (k_config W k)) (c_batch (k_config W k)) (c_min (k_config W k))
      (c_max (k_config W k)) (k_pct W k) train_data = Ok inf /\
    compute_thresholds (c_level (k_config W k)) (snd (fst inf)) = Ok th /\
    d' = Detector W (Some (k_config W k)) (Some (k_weights W k)) (Some (k_pct W k))
           (Some (fst (fst th))) (Some (snd (fst th))) (Some (snd th)) (Some path) (Some variables).
Proof.
  intros d fs data variables values cfg0 fs' d' H pct path n tl vl train_data mx mn cfg.
  unfold fit_core in H. fold n in H. fold tl in H. fold vl in H. fold train_data in H. cbv zeta in H.
  destruct train_data as [|r0 rs] eqn:Etd; [discriminate|]. split; [congruence|].
  rewrite <- Etd in *. fold mx in H. fold mn in H. fold cfg in H. fold path in H. fold pct in H.
  cbn [c_input c_interval c_horizon c_batch c_epochs with_base cfg] in H.
  match type of H with context [match ?X with Ok _ => _ | Err _ => _ end] =>
    match X with bind _ _ => destruct X as [fsx|e] eqn:EX end end; [|discriminate].
  dbind EX. rename a into train. rename E into Etr.
  destruct (length train =? 0) eqn:Ntr; [discriminate|]. rewrite bind_ok in EX. apply Nat.eqb_neq in Ntr.
  dbind EX. rename a into val_set. rename E into Evs. dbind EX. rename a into val. rename E into Eval.
  inversion H as [[Hf Hd]]. subst fsx. clear H.
  dbind Hd. rename a into d1. unfold load_checkpoint in E. destruct (fget W path fs') as [k|] eqn:Ek; [|discriminate].
  inversion E; subst d1. clear E. cbn [d_config d_model d_pct d_path d_variables] in Hd.
  dbind Hd. dbind Hd. inversion Hd; subst d'. clear Hd.
  exists train, val, val_set, k, a, a0. unfold cfg, mx, mn. rewrite <- Etd.
  assert (train <> []) by (intros ->; apply Ntr; auto). repeat split; auto.
Qed.

Lemma fit_inv : forall d fs data params p' fs' d', fit_ d fs data params = (p', fs', Ok d') ->
  exists variables values cfg0,
    process_data_and_params parse_int isort data params = (p', Ok (variables, values, cfg0)) /\
    fitc d fs data variables values cfg0 = (fs', Ok d').
Proof.
  intros d fs data params p' fs' d' H. unfold fit in H.
  destruct (process_data_and_params parse_int isort data params) as [q [[[vs rs] c]|e]] eqn:E; [|discriminate].
  destruct (fit_core _ _ _ _ _ _ _ _ _ d fs data vs rs c) as [fq r] eqn:E2.
  inversion H; subst. exists vs, rs, c. auto.
Qed.

(** A detector that holds a trained model. *)
Definition trained (d : detector W) (c : config) (w : W) (th : Qc) (pct : list Qc) : Prop :=
  d_config W d = Some c /\ d_model W d = Some w /\ d_threshold W d = Some th /\ d_pct W d = Some pct.

Lemma predict_core_inv : forall d c w th pct fs data variables values rs, trained d c w th pct ->
  predictc d fs data variables values = Ok rs ->
  c_tw c + c_input c <= length values /\
  exists contrib total attn,
    inference (net w) gap (c_input c) (c_batch c) (c_min c) (c_max c) pct values = Ok (Some contrib, Some total, Some attn) /\
    assemble argsort_desc e1 (c_tw c) th (f_index data) variables contrib total attn = Ok rs.
Proof.
  intros d c w th pct fs data variables values rs (A & B & C & D) H. unfold predict_core in H.
  rewrite B, bind_ok, A, B in H. destruct (length values <? c_tw c + c_input c) eqn:L; [discriminate|].
  apply Nat.ltb_ge in L. split; auto. rewrite C, D in H. dbind H.
  destruct a as [[[cs|] [ts|]] [ms|]]; try discriminate. exists cs, ts, ms. auto.
Qed.

(** The network answers with one number per variable and a square attention map. *)
Definition net_shape (w : W) (dim : nat) : Prop :=
  forall x, length (fst (net w x)) = dim /\ length (snd (net w x)) = dim /\ width dim (snd (net w x)).

Lemma inference_total : forall w d input batch mn mx pct values, 0 < batch -> 0 < input -> net_shape w d ->
  width d values -> length mn = d -> length mx = d -> length pct = d -> input < length values ->
  exists cs ts ms, inference (net w) gap input batch mn mx pct values = Ok (Some cs, Some ts, Some ms).
Proof.
  intros w d input batch mn mx pct values Hb Hi Hn Wd L1 L2 L3 Ln. rewrite inference_spec by auto.
  destruct (dataset_spec values d input 1 1 mn mx (Q2Qc (-1000)) (Q2Qc 1000)) as (sm & Es & Ls & Ps); auto; try lia.
  { discriminate. }
  rewrite Es, bind_ok. rewrite Nat.div_1_r in Ls.
  destruct (mapM_total _ _ (score_sample (net w) gap pct) sm) as [rs Er].
  { intros [x y] I. apply In_nth_error in I. destruct I as [k Ek]. destruct (Ps _ _ _ Ek) as (_ & _ & t & Et & Ly & _).
    assert (Lt : length t = d).
    { unfold width in Wd. rewrite Forall_forall in Wd. apply Wd. eapply nth_error_In; eauto. }
    unfold score_sample. cbn [fst snd]. destruct (net w x) as [pred attn] eqn:En. destruct (Hn x) as [Hp _]. rewrite En in Hp.
    cbn [fst] in Hp. destruct (contributions_total gap pred y pct) as [c Ec]; try lia. rewrite Ec, bind_ok. eauto. }
  rewrite Er, bind_ok. destruct sm as [|s0 st]; [cbn in Ls; lia|]. eauto.
Qed.

Lemma mat_sub_shape : forall d a b, length a = d -> length b = d -> width d a -> width d b ->
  length (mat_sub a b) = d /\ width d (mat_sub a b).
Proof.
  intros d a b La Lb Wa Wb. unfold mat_sub. split; [rewrite zip_len; lia|].
  unfold width in *. rewrite Forall_forall in *. intros r I. apply In_nth_error in I. destruct I as [k Ek].
  apply nth_error_zip_inv in Ek. destruct Ek as (x & y & Ex & Ey & ->). rewrite zip_len.
  apply nth_error_In in Ex, Ey. rewrite (Wa x), (Wb y); auto. lia.
Qed.
Lemma mat_mean_shape : forall d ms, length (mat_mean d ms) = d /\ width d (mat_mean d ms).
Proof.
  intros d ms. unfold mat_mean, range. split; [rewrite map_length, seq_length; auto|].
  unfold width. rewrite Forall_forall. intros r I. apply in_map_iff in I. destruct I as (k & <- & _).
  rewrite map_length, seq_length. auto.
Qed.

Lemma attention_shape : forall d tw len attn m, (forall a, In a attn -> length a = d /\ width d a) ->
  In m (attention_change d tw len attn) -> length m = d /\ width d m.
Proof.
  intros d tw len attn m H I. unfold attention_change in I. cbv zeta in I. apply In_nth_error in I. destruct I as [k Ek].
  apply nth_error_zip_inv in Ek. destruct Ek as (x & y & Ex & Ey & ->).
  unfold last_n in Ex, Ey. rewrite nth_error_skipn in Ex, Ey. apply nth_error_In in Ex, Ey.
  apply in_map_iff in Ey. destruct Ey as (q & <- & _). destruct (H x Ex). destruct (mat_mean_shape d (slice attn q (q + tw))).
  apply mat_sub_shape; auto.
Qed.

Lemma predict_core_total : forall d c w th pct fs data variables values, trained d c w th pct ->
  (forall l, decreasing_order l (argsort_desc l)) ->
  let dim := length variables in
  0 < c_input c -> 0 < c_tw c -> 0 < c_batch c -> length values = length (f_index data) ->
  width dim values -> length (c_min c) = dim -> length (c_max c) = dim -> length pct = dim -> net_shape w dim ->
  (forall contrib total attn c0,
     inference (net w) gap (c_input c) (c_batch c) (c_min c) (c_max c) pct values = Ok (Some contrib, Some total, Some attn) ->
     In c0 contrib -> qsum c0 <> 0%Qc) ->
  c_tw c + c_input c <= length values -> exists rs, predictc d fs data variables values = Ok rs.
Proof.
  intros d c w th pct fs data variables values Tr Ha dim Hi Ht Hb Lv Wd L1 L2 L3 Hn Hs Hl.
  destruct (inference_total w dim (c_input c) (c_batch c) (c_min c) (c_max c) pct values) as (cs & ts & ms & E); auto; [lia|].
  destruct Tr as (A & B & C & D). unfold predict_core. rewrite B, bind_ok, A, B.
  destruct (length values <? c_tw c + c_input c) eqn:L; [apply Nat.ltb_lt in L; lia|]. rewrite C, D, E, bind_ok.
  destruct (inference_rows _ _ dim _ _ _ _ _ _ _ _ _ Hb Hi Wd L1 L2 E) as (N1 & N2 & N3 & N4 & P).
  apply assemble_total; auto; try lia.
  - intros c0 I. eapply Hs; eauto.
  - intros c0 cs0 m I Ec Im. destruct (contributor_scores_spec _ _ Ec) as (_ & Lc & _ & _).
    assert (Lc0 : length c0 = dim).
    { apply In_nth_error in I. destruct I as [k Ek].
      assert (Hk : k < length cs) by (eapply nth_error_lt; eauto).
      destruct (nth_error_ex _ ts k ltac:(lia)) as [s Es]. destruct (nth_error_ex _ ms k ltac:(lia)) as [m' Em].
      destruct (P k c0 s m' Ek Es Em) as (x & t & y & _ & _ & _ & _ & _ & _ & Lx & _). auto. }
    assert (Sh : length m = dim /\ width dim m).
    { eapply attention_shape; [|exact Im]. intros a Ia. apply In_nth_error in Ia. destruct Ia as [k Ek].
      assert (Hk : k < length ms) by (eapply nth_error_lt; eauto).
      destruct (nth_error_ex _ ts k ltac:(lia)) as [s Es]. destruct (nth_error_ex _ cs k ltac:(lia)) as [c' Ec'].
      destruct (P k c' s a Ec' Es Ek) as (x & t & y & _ & _ & _ & _ & _ & -> & _). destruct (Hn x) as (_ & H2 & H3). auto. }
    destruct Sh. apply interpretation_total; auto; try (unfold dim in *; lia).
    rewrite Lc, Lc0. auto.
Qed.
End Detector.
