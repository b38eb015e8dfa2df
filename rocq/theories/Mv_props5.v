(** Values far outside the training range (C94). *)
From Coq Require Import String List Arith ZArith Lia Bool Permutation Sorted.
From Verif Require Import Base Num Sorting Kernel_model Kernel_proofs Helpers_model Helpers_spec Helpers_proofs
  Mv_model Mv_state Mv_spec Mv_spec2 Mv_spec3 Mv_proofs Mv_proofs2 Mv_proofs3 Mv_proofs4 Mv_proofs5 Mv_proofs6 Mv_proofs7 Mv_proofs8 Mv_proofs9
  Mv_toy Mv_props Mv_props2.
Import ListNotations.
Open Scope nat_scope.

(** What is known of the error function (C45_error_function) and of the network
    (C92_answers_in_range). *)
Definition good_gap (gap : Qc -> Qc) (e1 : Qc) : Prop :=
  (forall x, 0 <= gap x /\ gap x <= e1)%Qc /\ (forall x, Q2Qc (1 # 2) <= Qcabs x -> gap x = e1)%Qc /\ (Q2Qc (2 # 5) <= e1)%Qc.
Definition good_net (prediction : list (list Qc) -> list Qc) : Prop := forall x v, In v (prediction x) -> (0 <= v /\ v <= 1)%Qc.

(** ** C94 *)
(** Some variables far off: the score is at least their share of the weights. *)
Theorem C94_far_variables : forall parse_int isort argsort_desc gap e1 W net d c w th pct train window fs data params p' rs,
  good_sorts isort argsort_desc -> trained W d c w th pct -> fits c data -> pct = pct_weights train window -> pct <> [] ->
  good_net (fun x => fst (net w x)) -> good_gap gap e1 -> ranges (c_min c) (c_max c) ->
  predict parse_int isort argsort_desc gap e1 W net d fs data params = (p', Ok rs) ->
  exists m value variables rows, asks params m value /\ prepared (isort (f_index data)) m value data variables rows /\
    forall k r row u, nth_error rs k = Some r -> nth_error rows (c_input c + c_tw c - 1 + k) = Some row ->
      far_weights (c_min c) (c_max c) pct row u ->
      (e1 * qmean u <= r_score r)%Qc /\
      (Q2Qc (1 # 2) < e1 * qmean u -> th < e1 * qmean u -> r_anomaly r = true /\ qmean u <= r_severity r)%Qc.
Proof.
  intros parse isort asort gap e1 W net d c w th pct train window fs data params p' rs [Gi Ga] Tr (H1 & H2 & H3 & H4 & H5 & H6)
    Hp Hne Hn (Hg & Hf & He) Hr H.
  destruct (predict_spec _ _ _ _ _ _ _ Gi _ _ _ _ _ _ _ _ _ _ Tr H6 H1 H2 H3 H4 H5 H)
    as (m & v & vs & rows & total & attn & contrib & A & P & Lv & Ln & Lt & La & Lc & Rt & Ra & Rc & Lr & R).
  exists m, v, vs, rows. split; auto. split; auto. intros k r row u Ek Er Fu.
  destruct (R k r Ek) as (_ & E2 & (t & _ & D) & Sv & _).
  assert (Pp : forall x, In x pct -> (0 < x /\ x <= 1)%Qc) by (subst pct; apply pct_unit).
  replace (c_input c + c_tw c - 1 + k) with (c_input c + (c_tw c - 1 + k)) in Er by lia.
  pose proof (score_least gap e1 Hg Hf _ Hn pct Hne Pp _ _ _ _ _ _ row u Hr (Rt _ _ E2) Er Fu) as S1. split; auto.
  intros X Y. assert (An : r_anomaly r = true) by (apply D; right; split; qlra). split; auto.
  rewrite Sv, An. apply Qcle_div_iff; [qlra|]. qlra.
Qed.
Print Assumptions C94_far_variables.

(** All variables far off: reported, with the largest score there is. *)
Theorem C94_far_row_reported : forall parse_int isort argsort_desc gap e1 W net d c w th pct train window fs data params p' rs,
  good_sorts isort argsort_desc -> trained W d c w th pct -> fits c data -> pct = pct_weights train window -> pct <> [] ->
  good_net (fun x => fst (net w x)) -> good_gap gap e1 -> ranges (c_min c) (c_max c) ->
  predict parse_int isort argsort_desc gap e1 W net d fs data params = (p', Ok rs) ->
  exists m value variables rows, asks params m value /\ prepared (isort (f_index data)) m value data variables rows /\
    forall k r row, nth_error rs k = Some r -> nth_error rows (c_input c + c_tw c - 1 + k) = Some row ->
      beyond_row (c_min c) (c_max c) row ->
      r_anomaly r = true /\ (Q2Qc (3 # 4) <= r_severity r)%Qc /\ r_severity r = qmean pct /\
      forall r', In r' rs -> (r_score r' <= r_score r /\ r_severity r' <= r_severity r)%Qc.
Proof.
  intros parse isort asort gap e1 W net d c w th pct train window fs data params p' rs [Gi Ga] Tr (H1 & H2 & H3 & H4 & H5 & H6)
    Hp Hne Hn (Hg & Hf & He) Hr H.
  destruct (predict_spec _ _ _ _ _ _ _ Gi _ _ _ _ _ _ _ _ _ _ Tr H6 H1 H2 H3 H4 H5 H)
    as (m & v & vs & rows & total & attn & contrib & A & P & Lv & Ln & Lt & La & Lc & Rt & Ra & Rc & Lr & R).
  exists m, v, vs, rows. split; auto. split; auto. intros k r row Ek Er Fr.
  assert (Pp : forall x, In x pct -> (0 < x /\ x <= 1)%Qc) by (subst pct; apply pct_unit).
  assert (Mx : forall i s, nth_error total i = Some s -> (s <= e1 * qmean pct)%Qc).
  { intros i s E. eapply (score_most gap e1 Hg); eauto. }
  destruct (R k r Ek) as (_ & E2 & (t & [It _] & D) & Sv & _).
  replace (c_input c + c_tw c - 1 + k) with (c_input c + (c_tw c - 1 + k)) in Er by lia.
  assert (Lrow : length row = length pct).
  { destruct (Rt _ _ E2) as (cn & (_ & x & t' & y & _ & Et & [Ly _] & T1 & T2 & _) & _). rewrite Er in Et. inversion Et; subst. lia. }
  assert (Fu : far_weights (c_min c) (c_max c) pct row pct).
  { split; auto. intros j x Ex. right. split; auto. apply Fr. rewrite Lrow. eapply nth_error_lt; eauto. }
  pose proof (score_least gap e1 Hg Hf _ Hn pct Hne Pp _ _ _ _ _ _ row pct Hr (Rt _ _ E2) Er Fu) as S1.
  pose proof (Mx _ _ E2) as S2. assert (Es : r_score r = (e1 * qmean pct)%Qc) by (apply Qcle_antisym; auto).
  assert (Mp : (Q2Qc (3 # 4) <= qmean pct)%Qc) by (subst pct; apply pct_mean; auto).
  assert (E1 : (0 <= (e1 - Q2Qc (2 # 5)) * qmean pct)%Qc) by (apply Qcmul_nonneg; qlra).
  assert (An : r_anomaly r = true).
  { apply D. left. split; [|left; rewrite Es; qlra]. apply In_slice in It. apply In_nth_error in It. destruct It as [i Ei].
    rewrite Es. eauto. }
  assert (Sev : r_severity r = qmean pct) by (rewrite Sv, An, Es; field; intros Z; rewrite Z in He; revert He; qlra).
  split; auto. split; [rewrite Sev; auto|]. split; auto.
  intros r' I. apply In_nth_error in I. destruct I as [k' Ek']. destruct (R k' r' Ek') as (_ & E2' & _ & Sv' & _).
  pose proof (Mx _ _ E2') as S3. split; [rewrite Es; auto|]. rewrite Sev, Sv'. destruct (r_anomaly r'); [|qlra].
  apply Qcdiv_le_iff; [qlra|]. replace (qmean pct * e1)%Qc with (e1 * qmean pct)%Qc by ring. auto.
Qed.
Print Assumptions C94_far_row_reported.

(** A network for [n] variables that always predicts 0, and the error function
    with a straight line instead of the exponential. *)
Definition flat_net (n : nat) (_ : unit) (_ : list (list Qc)) : list Qc * mat := (repeat 0%Qc n, repeat (repeat 0%Qc n) n).
Definition flat_gap (x : Qc) : Qc := (Qcmin (Qcabs x + Qcabs x) 1 * Q2Qc (1718 # 1000))%Qc.
Definition flat_config (n : nat) : config :=
  Config n 1 1 1 2 1 1 (Q2Qc (8 # 10)) (Q2Qc (1 # 10)) (Q2Qc (8 # 10)) "model" (repeat 1%Qc n) (repeat 0%Qc n).
Definition flat_detector (n : nat) (pct : list Qc) : detector unit :=
  Detector unit (Some (flat_config n)) (Some tt) (Some pct) (Some (Q2Qc (4 # 10))) None None None None.
Definition names : list string := ["a"; "b"; "c"; "d"; "e"; "f"]%string.
(** Every variable moves by small steps in training: all weights are 1. *)
Definition quiet (n : nat) : frame := Frame [1; 2; 3]%Z (map (fun x => (x, map (fun q => Some (Q2Qc q)) [1; 1; 1]%Q)) (firstn n names)).
Definition two_rows (n : nat) (last : list Q) : frame :=
  Frame [1; 2]%Z (map (fun nq => (fst nq, map (fun q => Some (Q2Qc q)) [1 # 1000; snd nq]%Q)) (combine (firstn n names) last)).
Definition flat_predict (n : nat) (last : list Q) : dict * res (list result) :=
  predict (fun _ => None) toy_isort toy_argsort flat_gap (Q2Qc (1718 # 1000)) unit (flat_net n)
    (flat_detector n (pct_weights (quiet n) 2)) [] (two_rows n last) [].

Lemma flat_gap_good : good_gap flat_gap (Q2Qc (1718 # 1000)).
Proof.
  split; [|split; [|apply Qclt_le_weak; reflexivity]].
  - intros x. unfold flat_gap. pose proof (Qcabs_nonneg x). split; unfold Qcmin; qb_case; qb_hyps; qlra.
  - intros x H. unfold flat_gap. assert (E : Qcmin (Qcabs x + Qcabs x) 1 = 1%Qc); [|rewrite E; ring].
    apply Qcle_antisym; unfold Qcmin; qb_case; qb_hyps; qlra.
Qed.
Lemma flat_net_good : forall n, good_net (fun x => fst (flat_net n tt x)).
Proof. intros n x v I. cbn in I. apply repeat_spec in I. subst v. split; [apply Qcle_refl|apply Qclt_le_weak; reflexivity]. Qed.
Lemma flat_ranges : forall n, ranges (c_min (flat_config n)) (c_max (flat_config n)).
Proof.
  intros n j a b Ea Eb. apply nth_error_In, repeat_spec in Ea, Eb. subst. apply Qclt_le_weak. reflexivity.
Qed.
Lemma flat_fits : forall n last, n <= 6 -> length last = n -> fits (flat_config n) (two_rows n last).
Proof.
  intros n last Hn Ll. unfold fits. cbn [flat_config c_input c_tw c_batch c_min c_max two_rows f_cols].
  rewrite map_length, combine_length, firstn_length, !repeat_length. cbn [length names]. repeat split; try lia.
  intros name col I. cbn in I. apply in_map_iff in I. destruct I as (x & Ex & _). inversion Ex. reflexivity.
Qed.

(** Two of two variables far off. *)
Example C94_example : seen_all (flat_predict 2 [5; -3]%Q) = Ok [(2%Z, true, 859 # 500)]%Q.
Proof. vm_compute. reflexivity. Qed.
Example C94_example_use : exists p' r, flat_predict 2 [5; -3]%Q = (p', Ok [r]) /\ (Q2Qc (3 # 4) <= r_severity r)%Qc.
Proof.
  destruct (seen_inv _ _ C94_example) as (p' & rs & Ep & S'). destruct rs as [|r [|? ?]]; try discriminate S'.
  exists p', r. split; auto.
  destruct (C94_far_row_reported (fun _ => None) toy_isort toy_argsort flat_gap (Q2Qc (1718 # 1000)) unit (flat_net 2)
    (flat_detector 2 (pct_weights (quiet 2) 2)) (flat_config 2) tt (Q2Qc (4 # 10)) (pct_weights (quiet 2) 2) (quiet 2) 2 []
    (two_rows 2 [5; -3]%Q) [] p' [r] (conj toy_isort_ok toy_argsort_ok)) as (m & v & vs & rows & A & P & T); auto.
  { repeat split. } { apply flat_fits; auto. } { discriminate. } { apply flat_net_good. } { apply flat_gap_good. } { apply flat_ranges. }
  destruct P as (Lr & Wd & cols & Pc & Ev & _ & F). cbn in Lr.
  destruct (nth_error rows 1) as [row|] eqn:Er; [|apply nth_error_None in Er; lia].
  apply (T 0 r row eq_refl Er). intros j Hj.
  assert (Lrow : length row = 2).
  { unfold width in Wd. rewrite Forall_forall in Wd. rewrite (Wd row) by (eapply nth_error_In; eauto). subst vs. rewrite map_length.
    rewrite (Permutation_length Pc). reflexivity. }
  destruct (nth_error_ex _ row j Hj) as [x Ex]. destruct (nth_error_ex _ cols j) as [[name col] Ec].
  { rewrite (Permutation_length Pc). cbn. lia. }
  destruct (F 1 j name col row x Ec Er Ex) as (col' & [Lc Re] & Fv).
  assert (Eo : toy_isort (f_index (two_rows 2 [5; -3]%Q)) = [0; 1]) by reflexivity. rewrite Eo in *.
  specialize (Re 1 1 eq_refl). unfold fill_value, observed in Fv. rewrite Re in Fv.
  assert (I : In (name, col) (f_cols (two_rows 2 [5; -3]%Q))) by (eapply Permutation_in; [exact Pc|eapply nth_error_In; eauto]).
  exists 0%Qc, 1%Qc, x. cbn [flat_config c_min c_max].
  assert (J : forall y : Qc, nth_error (repeat y 2) j = Some y) by (intros y; rewrite Lrow in Hj; destruct j as [|[|j]]; [reflexivity|reflexivity|lia]).
  rewrite !J. split; auto. split; auto. split; auto. unfold beyond.
  cbn in I. destruct I as [I|[I|[]]]; inversion I; subst; cbn in Fv; destruct Fv as [Fv|[Fv _]]; try discriminate Fv; inversion Fv; subst x.
  - left. unfold Qcle, Qle. cbn. lia.
  - right. unfold Qcle, Qle. cbn. lia.
Qed.

(** One of six variables far off is not enough, however far. *)
Example C94_one_of_six : seen_all (flat_predict 6 [1000; 1#1000; 1#1000; 1#1000; 1#1000; 1#1000]%Q) = Ok [(2%Z, false, 28919666953 # 100000001000)]%Q.
Proof. vm_compute. reflexivity. Qed.
Theorem C94_single_variable_refuted : ~ (forall parse_int isort argsort_desc gap e1 W net d c w th pct train window fs data params p' rs,
  good_sorts isort argsort_desc -> trained W d c w th pct -> fits c data -> pct = pct_weights train window -> pct <> [] ->
  good_net (fun x => fst (net w x)) -> good_gap gap e1 -> ranges (c_min c) (c_max c) ->
  predict parse_int isort argsort_desc gap e1 W net d fs data params = (p', Ok rs) ->
  exists m value variables rows, asks params m value /\ prepared (isort (f_index data)) m value data variables rows /\
    forall k r row j, nth_error rs k = Some r -> nth_error rows (c_input c + c_tw c - 1 + k) = Some row ->
      beyond_at (c_min c) (c_max c) row j -> r_anomaly r = true).
Proof.
  intros H. set (last := [1000; 1#1000; 1#1000; 1#1000; 1#1000; 1#1000]%Q).
  destruct (seen_inv _ _ C94_one_of_six) as (p' & rs & Ep & S'). destruct rs as [|r [|? ?]]; try discriminate S'.
  cbn in S'. unfold seen in S'. injection S' as _ R2 _.
  destruct (H (fun _ => None) toy_isort toy_argsort flat_gap (Q2Qc (1718 # 1000)) unit (flat_net 6)
    (flat_detector 6 (pct_weights (quiet 6) 2)) (flat_config 6) tt (Q2Qc (4 # 10)) (pct_weights (quiet 6) 2) (quiet 6) 2 []
    (two_rows 6 last) [] p' [r] (conj toy_isort_ok toy_argsort_ok)) as (m & v & vs & rows & A & P & T); auto.
  { repeat split. } { apply flat_fits; auto. } { discriminate. } { apply flat_net_good. } { apply flat_gap_good. } { apply flat_ranges. }
  destruct P as (Lr & Wd & cols & Pc & Ev & _ & F). cbn in Lr.
  destruct (nth_error rows 1) as [row|] eqn:Er; [|apply nth_error_None in Er; lia].
  assert (Lrow : length row = 6).
  { unfold width in Wd. rewrite Forall_forall in Wd. rewrite (Wd row) by (eapply nth_error_In; eauto). subst vs. rewrite map_length.
    rewrite (Permutation_length Pc). reflexivity. }
  set (col := map (fun q => Some (Q2Qc q)) [1 # 1000; 1000]%Q).
  assert (I : In ("a"%string, col) cols) by (eapply Permutation_in; [apply Permutation_sym, Pc|left; reflexivity]).
  apply In_nth_error in I. destruct I as [j Ec]. assert (Hj : j < 6).
  { apply nth_error_lt in Ec. rewrite (Permutation_length Pc) in Ec. exact Ec. }
  destruct (nth_error_ex _ row j) as [x Ex]; [lia|].
  destruct (F 1 j "a"%string col row x Ec Er Ex) as (col' & [Lc Re] & Fv).
  assert (Eo : toy_isort (f_index (two_rows 6 last)) = [0; 1]) by reflexivity. rewrite Eo in *.
  specialize (Re 1 1 eq_refl). unfold fill_value, observed in Fv. rewrite Re in Fv.
  assert (B : r_anomaly r = true); [|congruence].
  apply (T 0 r row j eq_refl Er). exists 0%Qc, 1%Qc, x. cbn [flat_config c_min c_max].
  assert (J : forall y : Qc, nth_error (repeat y 6) j = Some y).
  { intros y. do 6 (destruct j as [|j]; [reflexivity|]). lia. }
  rewrite !J. split; auto. split; auto. split; auto.
  cbn in Fv. destruct Fv as [Fv|[Fv _]]; [|discriminate Fv]. inversion Fv; subst x. left. unfold Qcle, Qle. cbn. lia.
Qed.
Print Assumptions C94_single_variable_refuted.
(** Two of six are, since their share of the score exceeds both thresholds. *)
Example C94_two_of_six : seen_all (flat_predict 6 [1000; -50; 1#1000; 1#1000; 1#1000; 1#1000]%Q) = Ok [(2%Z, true, 28747866953 # 50000000500)]%Q.
Proof. vm_compute. reflexivity. Qed.
