(** Multivariate detector, part 7: from the pieces to predict. *)
From Coq Require Import String List Arith ZArith Lia Bool Permutation Sorted.
From Verif Require Import Base Num Sorting Kernel_model Kernel_proofs Helpers_model Helpers_spec Helpers_proofs
  Mv_model Mv_state Mv_spec Mv_spec2 Mv_proofs Mv_proofs2 Mv_proofs3 Mv_proofs4 Mv_proofs5 Mv_proofs6.
Import ListNotations.
Open Scope nat_scope.

(** * Filling *)
Lemma cell_cases : forall (col : list (option Qc)) p, p < length col ->
  (exists v, observed col p v) \/ nth_error col p = Some None.
Proof. intros col p H. destruct (nth_error_ex _ col p H) as [[v|] E]; [left; exists v; auto|right; auto]. Qed.
Lemma missing_before : forall col p, p < length col -> nth_error col p = Some None ->
  (exists v, from_before col p v) \/ none_before col p.
Proof.
  intros col p H M. destruct (nth_error_ex _ (ffill_from None col) p) as [o Eo]; [rewrite ffill_from_length; auto|].
  destruct (ffill_from_spec _ _ _ _ Eo) as [(v & Ho & _)|[(_ & v & B & _)|(N & _)]]; eauto.
  exfalso. eapply not_observed; eauto.
Qed.
Lemma missing_after : forall col p, p < length col -> nth_error col p = Some None ->
  (exists v, from_after col p v) \/ none_after col p.
Proof.
  intros col p H M. destruct (nth_error_ex _ (bfill col) p) as [o Eo]; [rewrite bfill_length; auto|].
  destruct (bfill_spec _ _ _ Eo) as [(v & Ho & _)|[(_ & v & B & _)|(N & _)]]; eauto.
  exfalso. eapply not_observed; eauto.
Qed.
Lemma none_both : forall col p, none_before col p -> none_after col p -> none_at_all col.
Proof. intros col p A B k w O. destruct (le_lt_dec k p); [eapply A; eauto|eapply B; [|exact O]; lia]. Qed.
Lemma any_observed : forall col, (exists p v, observed col p v) \/ none_at_all col.
Proof.
  induction col as [|[v|] t IH].
  - right. intros k w O. unfold observed in O. destruct k; discriminate.
  - left. exists 0, v. reflexivity.
  - destruct IH as [(p & v & O)|N]; [left; exists (S p), v; auto|].
    right. intros [|k] w O; [discriminate|]. apply (N k w O).
Qed.

Lemma fill_col_value : forall m value col p x, nth_error (fill_col m value col) p = Some x -> fill_value m value col p x.
Proof.
  intros m value col p x H. assert (Hp : p < length col).
  { rewrite <- (fill_col_length m value col). eapply nth_error_lt; eauto. }
  destruct (cell_cases col p Hp) as [[v Ho]|M].
  - left. assert (nth_error (fill_col m value col) p = Some v); [|congruence].
    destruct m.
    + destruct (fill_previous value col) as (_ & A & _). auto.
    + destruct (fill_subsequent value col) as (_ & A & _). auto.
    + destruct (fill_linear value col) as (_ & A & _). specialize (A ltac:(eauto) p x H).
      destruct A as [A|[(a & b & _ & _ & [A1 A2] & _ & _ & N & _)|[(b & A1 & _ & N)|(a & A1 & _ & N)]]].
      * unfold observed in Ho. congruence.
      * exfalso. eapply N; [|exact Ho]. lia.
      * exfalso. eapply N; [|exact Ho]. lia.
      * exfalso. eapply N; [|exact Ho]. lia.
    + destruct (fill_const FZero value col (or_intror eq_refl)) as (_ & A & _). auto.
    + destruct (fill_const FFixed value col (or_introl eq_refl)) as (_ & A & _). auto.
  - right. split; auto. destruct m.
    + destruct (fill_previous value col) as (_ & _ & A & B & C).
      destruct (missing_before col p Hp M) as [[v F]|N].
      * left. rewrite (A p v M F) in H. inversion H; subst; auto.
      * destruct (missing_after col p Hp M) as [[v F]|N'].
        -- right. left. split; auto. rewrite (B p v M N F) in H. inversion H; subst; auto.
        -- right. right. assert (Z : none_at_all col) by (eapply none_both; eauto). split; auto.
           rewrite (C p Hp Z) in H. congruence.
    + destruct (fill_subsequent value col) as (_ & _ & A & B & C).
      destruct (missing_after col p Hp M) as [[v F]|N].
      * left. rewrite (A p v M F) in H. inversion H; subst; auto.
      * destruct (missing_before col p Hp M) as [[v F]|N'].
        -- right. left. split; auto. rewrite (B p v M N F) in H. inversion H; subst; auto.
        -- right. right. assert (Z : none_at_all col) by (eapply none_both; eauto). split; auto.
           rewrite (C p Hp Z) in H. congruence.
    + destruct (fill_linear value col) as (_ & A & B). destruct (any_observed col) as [E|Z].
      * left. auto.
      * right. split; auto. rewrite (B p Hp Z) in H. congruence.
    + destruct (fill_const FZero value col (or_intror eq_refl)) as (_ & _ & A). rewrite (A p M) in H. congruence.
    + destruct (fill_const FFixed value col (or_introl eq_refl)) as (_ & _ & A). rewrite (A p M) in H. congruence.
Qed.

(** * Preparation *)
Lemma increasing_length : forall l o, increasing_order l o -> length o = length l.
Proof. intros l o (P & _). apply Permutation_length in P. rewrite seq_length in P. auto. Qed.
Lemma increasing_lt : forall l o i, increasing_order l o -> In i o -> i < length l.
Proof. intros l o i (P & _) I. apply (Permutation_in _ P) in I. apply in_seq in I. lia. Qed.

Lemma csorted_names : forall A (l : list (string * A)), csorted l -> StronglySorted (fun a b => String.leb a b = true) (map fst l).
Proof.
  induction 1 as [|x l H IH F]; cbn; constructor; auto. rewrite Forall_forall in *. intros y I.
  apply in_map_iff in I. destruct I as (z & <- & I). auto.
Qed.

Lemma permute_reordered : forall (order : list nat) (col : list (option Qc)), (forall i, In i order -> i < length col) ->
  reordered order col (permute None order col).
Proof.
  intros order col H. split; [unfold permute; rewrite map_length; auto|]. intros r i E. unfold permute.
  rewrite nth_error_map, E. cbn [option_map]. symmetry. apply nth_error_nth'. apply H. eapply nth_error_In; eauto.
Qed.

Lemma process_prepared : forall isort m v data variables rows, (forall l, increasing_order l (isort l)) ->
  rectangular data -> process isort m v data = (variables, rows) ->
  prepared (isort (f_index data)) m v data variables rows.
Proof.
  intros isort m v data variables rows Hi Hr H.
  destruct (process_spec isort m v data variables rows H) as (-> & L & Wd & P).
  { intros l. apply increasing_length; auto. }
  split; auto. split; auto. exists (csort (f_cols data)). split; [apply Permutation_sym, csort_perm|]. split; auto.
  split; [apply csorted_names, csort_sorted|].
  intros r j name col row x Ej Er Ex. exists (permute None (isort (f_index data)) col). split.
  - apply permute_reordered. intros i I. rewrite (Hr name col).
    + eapply increasing_lt; eauto.
    + apply (Permutation_in _ (Permutation_sym (csort_perm _ (f_cols data)))). eapply nth_error_In; eauto.
  - apply fill_col_value. rewrite <- (P r j name col row); auto.
Qed.

Lemma reordered_seq : forall A (col col' : list A), reordered (seq 0 (length col)) col col' -> col' = col.
Proof.
  intros A col col' [L H]. rewrite seq_length in L. apply nth_error_ext. intros r.
  destruct (lt_dec r (length col)) as [Hr|Hr].
  - apply H. rewrite nth_error_seq. apply Nat.ltb_lt in Hr. rewrite Hr. auto.
  - rewrite (proj2 (nth_error_None col' r)), (proj2 (nth_error_None col r)); auto; lia.
Qed.

Lemma method_name_inv : forall s m, method_of_name s = Some m -> s = method_name m.
Proof.
  intros s m H. unfold method_of_name in H.
  destruct (String.eqb s "Previous") eqn:E1; [apply String.eqb_eq in E1; inversion H; subst; auto|].
  destruct (String.eqb s "Subsequent") eqn:E2; [apply String.eqb_eq in E2; inversion H; subst; auto|].
  destruct (String.eqb s "Linear") eqn:E3; [apply String.eqb_eq in E3; inversion H; subst; auto|].
  destruct (String.eqb s "Zero") eqn:E4; [apply String.eqb_eq in E4; inversion H; subst; auto|].
  destruct (String.eqb s "Fixed") eqn:E5; [apply String.eqb_eq in E5; inversion H; subst; auto|]. discriminate.
Qed.

Lemma processor_asks : forall params m v,
  data_processor (or_else (dget "fill_na_method" params) (PStr "Linear"))
                 (or_else (dget "fill_na_value" params) (PFloat 0)) = Ok (m, v) -> asks params m v.
Proof.
  intros params m v H. unfold data_processor in H. unfold asks.
  destruct (dget "fill_na_method" params) as [x|]; cbn [or_else] in H.
  - destruct x as [| | | |s|]; try discriminate. destruct (method_of_name s) as [m'|] eqn:E; [|discriminate].
    apply method_name_inv in E. subst s.
    destruct (dget "fill_na_value" params) as [y|]; cbn [or_else] in H; [destruct y; try discriminate|]; inversion H; subst; auto.
  - cbn in H. destruct (dget "fill_na_value" params) as [y|]; cbn [or_else] in H; [destruct y; try discriminate|]; inversion H; subst; auto.
Qed.

(** * Attention *)
Lemma attention_nth : forall d tw attn k m, 0 < tw -> tw <= length attn ->
  nth_error (attention_change d tw (length attn + 1 - tw) attn) k = Some m ->
  exists a, nth_error attn (tw - 1 + k) = Some a /\ m = mat_sub a (mat_mean d (slice attn k (k + tw))).
Proof.
  intros d tw attn k m Ht Hl H. unfold attention_change in H. cbv zeta in H.
  apply nth_error_zip_inv in H. destruct H as (x & y & Ex & Ey & ->). unfold last_n in Ex, Ey.
  rewrite nth_error_skipn in Ex, Ey. rewrite map_length in Ey. unfold range in Ey. rewrite seq_length in Ey.
  replace (length attn + 1 - tw - (length attn + 1 - tw) + k) with k in Ey by lia.
  replace (length attn - (length attn + 1 - tw) + k) with (tw - 1 + k) in Ex by lia.
  rewrite nth_error_map, nth_error_seq in Ey. destruct (k <? length attn + 1 - tw) eqn:C; [|discriminate].
  cbn in Ey. inversion Ey; subst. exists x. auto.
Qed.
Lemma mat_sub_cell : forall a b v row j x, nth_error (mat_sub a b) v = Some row -> nth_error row j = Some x ->
  x = (cell a v j - cell b v j)%Qc.
Proof.
  intros a b v row j x H E. unfold mat_sub in H. apply nth_error_zip_inv in H. destruct H as (ra & rb & Ea & Eb & ->).
  apply nth_error_zip_inv in E. destruct E as (y & z & Ey & Ez & ->). unfold cell.
  rewrite (nth_error_nth_d _ _ _ _ [] Ea), (nth_error_nth_d _ _ _ _ [] Eb).
  rewrite (nth_error_nth_d _ _ _ _ 0%Qc Ey), (nth_error_nth_d _ _ _ _ 0%Qc Ez). auto.
Qed.
Lemma mat_mean_cell : forall d ms v j, v < d -> j < d -> cell (mat_mean d ms) v j = qmean (map (fun m => cell m v j) ms).
Proof.
  intros d ms v j Hv Hj. unfold cell, mat_mean, range.
  assert (E : nth_error (map (fun i => map (fun j0 => qmean (map (fun m => entry m i j0) ms)) (seq 0 d)) (seq 0 d)) v
    = Some (map (fun j0 => qmean (map (fun m => entry m v j0) ms)) (seq 0 d))).
  { rewrite nth_error_map, nth_error_seq. apply Nat.ltb_lt in Hv. rewrite Hv. auto. }
  rewrite (nth_error_nth_d _ _ _ _ [] E).
  assert (F : nth_error (map (fun j0 => qmean (map (fun m => entry m v j0) ms)) (seq 0 d)) j =
    Some (qmean (map (fun m => entry m v j) ms))).
  { rewrite nth_error_map, nth_error_seq. apply Nat.ltb_lt in Hj. rewrite Hj. auto. }
  rewrite (nth_error_nth_d _ _ _ _ 0%Qc F). auto.
Qed.

Lemma decide_flagged : forall th s t, decide (Qcmax (Q2Qc (1 # 2)) th) (Qcmin (Q2Qc (3 # 10)) th) s t = true <-> flagged th s t.
Proof.
  intros th s t. unfold decide, flagged. rewrite orb_true_iff, andb_true_iff, !Qcleb_le, Qcltb_lt.
  unfold Qcmax, Qcmin. destruct (Q2Qc (1 # 2) <=? th)%Qc eqn:A; destruct (Q2Qc (3 # 10) <=? th)%Qc eqn:B; qb_hyps.
  all: split; [intros [[H1 H2]|H2]; [left; split; [assumption|first [left; qlra | right; qlra]] | right; split; qlra]|].
  all: intros [[H1 [H2|H2]]|[H1 H2]]; [left; split; [assumption|qlra] | left; split; [assumption|qlra] | right; qlra].
Qed.

(** * Grouping *)
Lemma chunks_grouped : forall A f b (l : list A), 0 < b -> length l <= f -> grouped b l (chunks f b l).
Proof.
  intros A f b l Hb Hf. split; [apply chunks_concat; auto|]. revert l Hf.
  induction f as [|f IH]; intros l Hf i g E; [destruct i; discriminate|].
  destruct l as [|x t]; [destruct i; discriminate|].
  split.
  - eapply chunks_sizes; [exact Hb|]. eapply nth_error_In. exact E.
  - intros Hs. cbn [chunks] in *. destruct i as [|i].
    + cbn [nth_error] in E. inversion E; subst. rewrite firstn_length.
      destruct (chunks f b (skipn b (x :: t))) as [|g' gs] eqn:C; [cbn [length] in Hs; lia|].
      assert (0 < length (skipn b (x :: t))).
      { destruct f; [discriminate|]. destruct (skipn b (x :: t)); [discriminate|cbn; lia]. }
      rewrite skipn_length in H. lia.
    + cbn [nth_error] in E. cbn [length] in Hs. apply (IH (skipn b (x :: t))) in E.
      * apply E. lia.
      * rewrite skipn_length. cbn [length] in Hf |- *. lia.
Qed.
Lemma loader_grouped : forall A b (l : list A) g, loader false b l = Ok g -> grouped b l g /\ 0 < b.
Proof. intros A [|b] l g H; [discriminate|]. cbn in H. inversion H; subst. split; [apply chunks_grouped; lia|lia]. Qed.
Lemma loader_grouped_full : forall A b (l : list A) g, loader true b l = Ok g ->
  grouped_full b l g /\ length g = length l / b /\ 0 < b.
Proof.
  intros A [|b] l g H; [discriminate|]. cbn [loader] in H. inversion H; subst. clear H.
  destruct (chunks_full A (length l) (S b) l ltac:(lia) ltac:(lia)) as [P1 P2]. split; [|split; [auto|lia]].
  split; auto. rewrite Forall_forall. intros g I. apply filter_In in I. destruct I as [_ I]. apply Nat.eqb_eq in I. auto.
Qed.

Section Predict.
Variable parse_int : string -> option Z.
Variable isort : list Z -> list nat.
Variable argsort_desc : list Qc -> list nat.
Variable gap : Qc -> Qc.
Variable e1 : Qc.
Variable W : Type.
Variable net : W -> list (list Qc) -> list Qc * mat.
Hypothesis isort_ok : forall l, increasing_order l (isort l).

Notation predict_ := (predict parse_int isort argsort_desc gap e1 W net).

Lemma predict_inv : forall d c w th pct fs data params p' rs, trained W d c w th pct -> rectangular data ->
  predict_ d fs data params = (p', Ok rs) ->
  exists m v variables rows contrib total attn, asks params m v /\
    prepared (isort (f_index data)) m v data variables rows /\ length variables = length (f_cols data) /\
    c_tw c + c_input c <= length rows /\
    inference (net w) gap (c_input c) (c_batch c) (c_min c) (c_max c) pct rows = Ok (Some contrib, Some total, Some attn) /\
    assemble argsort_desc e1 (c_tw c) th (f_index data) variables contrib total attn = Ok rs.
Proof.
  intros d c w th pct fs data params p' rs Tr Hr H. unfold predict in H.
  destruct (process_data_and_params parse_int isort data params) as [q [[[vs rows] cfg]|e]] eqn:E; [|discriminate].
  injection H as Hq H2. subst q. destruct (process_params_spec _ _ _ _ _ _ _ _ E) as (i & t & m & v & _ & Ed & Ep & _).
  destruct (predict_core_inv _ _ _ _ _ _ _ _ _ _ _ _ _ _ _ Tr H2) as (L & cs & ts & ms & Ei & Ea).
  assert (P : prepared (isort (f_index data)) m v data vs rows) by (apply process_prepared; auto).
  exists m, v, vs, rows, cs, ts, ms. split; [apply processor_asks; auto|]. split; auto. split; [|split; [auto|split; auto]].
  destruct P as (_ & _ & cols & Pc & -> & _). rewrite map_length. apply Permutation_length; auto.
Qed.

(** Everything a result of predict says. *)
Lemma predict_spec : forall d c w th pct fs data params p' rs, trained W d c w th pct -> rectangular data ->
  0 < c_input c -> 0 < c_tw c -> 0 < c_batch c ->
  length (c_min c) = length (f_cols data) -> length (c_max c) = length (f_cols data) ->
  predict_ d fs data params = (p', Ok rs) ->
  exists m v variables rows total attn contrib, asks params m v /\
    prepared (isort (f_index data)) m v data variables rows /\ length variables = length (f_cols data) /\
    c_input c + c_tw c <= length (f_index data) /\
    length total = length (f_index data) - c_input c /\ length attn = length total /\ length contrib = length total /\
    (forall i s, nth_error total i = Some s ->
       row_error (fun x => fst (net w x)) gap (c_min c) (c_max c) pct (c_input c) rows (c_input c + i) s) /\
    (forall i a, nth_error attn i = Some a ->
       exists x, scaled_rows (Q2Qc (-1000)) (Q2Qc 1000) (c_min c) (c_max c) (slice rows i (i + c_input c)) x /\ a = snd (net w x)) /\
    (forall i cn, nth_error contrib i = Some cn -> length cn = length variables /\
       row_terms (fun x => fst (net w x)) gap (c_min c) (c_max c) pct (c_input c) rows (c_input c + i) cn) /\
    length rs = length total + 1 - c_tw c /\
    forall k r, nth_error rs k = Some r ->
      nth_error (f_index data) (c_input c + c_tw c - 1 + k) = Some (r_index r) /\
      nth_error total (c_tw c - 1 + k) = Some (r_score r) /\
      (exists t, let wd := slice total (k + 1 - c_tw c) (k + 1) in
        has_rank wd (95 * length wd / 100) t /\ (r_anomaly r = true <-> flagged th (r_score r) t)) /\
      r_severity r = (if r_anomaly r then (r_score r / e1)%Qc else 0%Qc) /\
      (exists cn cs mt, nth_error contrib (c_tw c - 1 + k) = Some cn /\ contributor_scores cn = Ok cs /\
        nth_error (attention_change (length variables) (c_tw c) (length attn + 1 - c_tw c) attn) k = Some mt /\
        interpretation argsort_desc variables cs mt = Ok (r_interp r)).
Proof.
  intros d c w th pct fs data params p' rs Tr Hr Hi Ht Hb L1 L2 H.
  destruct (predict_inv _ _ _ _ _ _ _ _ _ _ Tr Hr H) as (m & v & vs & rows & cs & ts & ms & A & P & Lv & Ln & Ei & Ea).
  pose proof P as (Lr & Wd & _).
  assert (Wd' : width (length (f_cols data)) rows) by (rewrite <- Lv; auto).
  destruct (inference_rows _ _ _ _ _ _ _ _ _ _ _ _ Hb Hi Wd' L1 L2 Ei) as (N1 & N2 & N3 & N4 & Q).
  rewrite Lr in *.
  assert (LC : length cs = length ts) by lia. assert (LM : length ms = length ts) by lia.
  destruct (assemble_spec _ _ _ _ _ _ _ _ _ _ Ht LC LM Ea) as (R1 & R2 & R3).
  assert (Q' : forall i s, nth_error ts i = Some s -> exists cn a, nth_error cs i = Some cn /\ nth_error ms i = Some a).
  { intros i s E. apply nth_error_lt in E. destruct (nth_error_ex _ cs i) as [cn ?]; [lia|].
    destruct (nth_error_ex _ ms i) as [a ?]; [lia|]. eauto. }
  exists m, v, vs, rows, ts, ms, cs. split; auto. split; auto. split; auto. split; [lia|]. split; auto. split; [exact LM|].
  split; [exact LC|]. split; [|split; [|split; [|split; auto]]].
  - intros i s E. destruct (Q' i s E) as (cn & a & Ec & Em). destruct (Q i cn s a Ec E Em) as (x & t & y & S1 & S2 & S3 & _ & S5 & _ & _ & S4).
    exists cn. split; auto. split; [lia|]. exists x, t, y. replace (c_input c + i - c_input c) with i by lia.
    replace (c_input c + i) with (i + c_input c) by lia. auto.
  - intros i a E. assert (Hl : i < length ts) by (apply nth_error_lt in E; lia).
    destruct (nth_error_ex _ ts i Hl) as [s Es]. destruct (Q' i s Es) as (cn & a' & Ec & Em).
    rewrite E in Em. inversion Em; subst a'. destruct (Q i cn s a Ec Es E) as (x & t & y & S1 & _ & _ & _ & _ & S5 & _). eauto.
  - intros i cn Ec. assert (Hl : i < length ts) by (apply nth_error_lt in Ec; lia).
    destruct (nth_error_ex _ ts i Hl) as [s Es]. destruct (Q' i s Es) as (cn' & a & Ec' & Em).
    destruct (Q i cn s a Ec Es Em) as (x & t & y & S1 & S2 & S3 & _ & _ & _ & S6 & S4).
    split; [congruence|]. split; [lia|]. exists x, t, y. replace (c_input c + i - c_input c) with i by lia.
    replace (c_input c + i) with (i + c_input c) by lia. auto.
  - intros k r E. destruct (R3 k r E) as (E1 & E2 & (t & E3 & E4) & E5 & E6). split.
    + replace (length (f_index data) - (length ts + 1 - c_tw c) + k) with (c_input c + c_tw c - 1 + k) in E1 by lia. auto.
    + split; auto. split; [|split; auto].
      * exists t. split; auto. rewrite E4. apply decide_flagged.
      * rewrite LM. exact E6.
Qed.
End Predict.
