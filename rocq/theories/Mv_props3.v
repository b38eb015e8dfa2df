(** Properties of the multivariate detector: column order, row order and
    variable names (C72-C74). *)
From Coq Require Import String List Arith ZArith Lia Bool Permutation Sorted.
From Verif Require Import Base Num Sorting Kernel_model Kernel_proofs Helpers_model Helpers_spec Helpers_proofs
  Mv_model Mv_state Mv_spec Mv_spec2 Mv_proofs Mv_proofs2 Mv_proofs3 Mv_proofs4 Mv_proofs5 Mv_proofs6 Mv_proofs7 Mv_toy Mv_props.
Import ListNotations.
Open Scope nat_scope.

Lemma filter_perm : forall A (p : A -> bool) a b, Permutation a b -> Permutation (filter p a) (filter p b).
Proof.
  intros A p a b H. induction H; cbn; auto.
  - destruct (p x); auto.
  - destruct (p x), (p y); auto. apply perm_swap.
  - eapply perm_trans; eauto.
Qed.
Lemma filter_names_nodup : forall A (p : string * A -> bool) l, NoDup (map fst l) -> NoDup (map fst (filter p l)).
Proof.
  induction l as [|x t IH]; intros H; cbn; auto. inversion H; subst. destruct (p x); cbn; auto. constructor; auto.
  intros I. apply H2. apply in_map_iff in I. destruct I as (y & E & I). apply filter_In in I. rewrite <- E. apply in_map. tauto.
Qed.

(** * C72 *)
Theorem C72_column_order_irrelevant :
  forall parse_int isort argsort_desc gap e1 W net T t_init t_step t_weights vloss shuffle d fs a b params,
  f_index a = f_index b -> Permutation (f_cols a) (f_cols b) -> NoDup (map fst (f_cols a)) ->
  predict parse_int isort argsort_desc gap e1 W net d fs a params =
  predict parse_int isort argsort_desc gap e1 W net d fs b params /\
  fit parse_int isort gap W net T t_init t_step t_weights vloss shuffle d fs a params =
  fit parse_int isort gap W net T t_init t_step t_weights vloss shuffle d fs b params.
Proof.
  intros parse isort asort gap e1 W net T t_init t_step t_weights vloss shuffle d fs a b params Hi Hp Nd.
  assert (Pr : forall m v, process isort m v a = process isort m v b).
  { intros m v. unfold process. rewrite Hi, (csort_perm_eq _ _ _ Nd Hp). auto. }
  assert (Pw : forall w, pct_weights a w = pct_weights b w).
  { intros w. unfold pct_weights. rewrite (csort_perm_eq _ _ _ (filter_names_nodup _ _ _ Nd) (filter_perm _ _ _ _ Hp)). auto. }
  assert (Pp : process_data_and_params parse isort a params = process_data_and_params parse isort b params).
  { unfold process_data_and_params. destruct (compute_window_sizes parse _) as [[i t]|e]; auto.
    destruct (data_processor _ _) as [[m v]|e]; auto. rewrite Pr. auto. }
  unfold predict, fit. rewrite Pp. split.
  - destruct (process_data_and_params parse isort b params) as [q [[[vs rs] cfg]|e]]; auto. unfold predict_core. rewrite Hi. auto.
  - destruct (process_data_and_params parse isort b params) as [q [[[vs rs] cfg]|e]]; auto. unfold fit_core. rewrite Hi, Pw. auto.
Qed.
Print Assumptions C72_column_order_irrelevant.
Example C72_example :
  let a := Frame [0; 1]%Z [("x"%string, [Some 1%Qc; None]); ("b"%string, [None; Some 0%Qc])] in
  let b := Frame [0; 1]%Z [("b"%string, [None; Some 0%Qc]); ("x"%string, [Some 1%Qc; None])] in
  f_index a = f_index b /\ Permutation (f_cols a) (f_cols b) /\ NoDup (map fst (f_cols a)).
Proof.
  cbv zeta. split; auto. split; [apply perm_swap|]. cbn. constructor; [intros [?|[]]; discriminate|]. constructor; [intros []|constructor].
Qed.

(** * C73 *)
(** [b] has the rows of [a] in another order. *)
Definition same_rows (a b : frame) : Prop :=
  exists sigma, Permutation sigma (seq 0 (length (f_index a))) /\ reordered sigma (f_index a) (f_index b) /\
    Forall2 (fun x y => fst x = fst y /\ reordered sigma (snd x) (snd y)) (f_cols a) (f_cols b).
(** Two results that differ at most in their label. *)
Definition same_finding (r s : result) : Prop :=
  r_anomaly r = r_anomaly s /\ r_score r = r_score s /\ r_severity r = r_severity s /\ r_interp r = r_interp s.

Lemma cinsert_F2 : forall A B (R : string * A -> string * B -> Prop), (forall x y, R x y -> fst x = fst y) ->
  forall a b, Forall2 R a b -> forall x y, R x y -> Forall2 R (cinsert x a) (cinsert y b).
Proof.
  intros A B R HR a b H. induction H as [|u v a b Huv H IH]; intros x y Hxy; cbn; auto.
  rewrite (HR _ _ Hxy), (HR _ _ Huv). destruct (String.leb (fst y) (fst v)); constructor; auto.
Qed.
Lemma csort_F2 : forall A B (R : string * A -> string * B -> Prop), (forall x y, R x y -> fst x = fst y) ->
  forall a b, Forall2 R a b -> Forall2 R (csort a) (csort b).
Proof. intros A B R HR a b H. induction H; cbn; auto. apply cinsert_F2; auto. Qed.

Lemma sorted_perm_unique : forall a b, StronglySorted Z.le a -> StronglySorted Z.le b -> Permutation a b -> a = b.
Proof.
  induction a as [|x a IH]; intros b Ha Hb P.
  - apply Permutation_nil in P. auto.
  - inversion Ha as [|? ? Ha1 Ha2]; subst. destruct b as [|y b]; [apply Permutation_sym, Permutation_nil in P; discriminate|].
    inversion Hb as [|? ? Hb1 Hb2]; subst. rewrite Forall_forall in *.
    assert (x = y).
    { assert (I1 : In x (y :: b)) by (eapply Permutation_in; [exact P|left; auto]).
      assert (I2 : In y (x :: a)) by (eapply Permutation_in; [apply Permutation_sym; exact P|left; auto]).
      destruct I1 as [->|I1]; auto. destruct I2 as [->|I2]; auto. apply Ha2 in I2. apply Hb2 in I1. lia. }
    subst y. f_equal. apply IH; auto. eapply Permutation_cons_inv; eauto.
Qed.
Lemma sorted_of_nth : forall l, (forall i j x y, i < j -> nth_error l i = Some x -> nth_error l j = Some y -> (x <= y)%Z) ->
  StronglySorted Z.le l.
Proof.
  induction l as [|x t IH]; intros H; constructor.
  - apply IH. intros i j u v Hij Ei Ej. apply (H (S i) (S j)); auto. lia.
  - rewrite Forall_forall. intros y I. apply In_nth_error in I. destruct I as [k Ek]. apply (H 0 (S k)); auto. lia.
Qed.
Lemma map_nth_seq : forall A (l : list A) d, map (fun i => nth i l d) (seq 0 (length l)) = l.
Proof.
  intros A l d. apply nth_error_ext. intros k. rewrite nth_error_map, nth_error_seq.
  destruct (k <? length l) eqn:E.
  - apply Nat.ltb_lt in E. cbn. symmetry. apply nth_error_nth'. auto.
  - apply Nat.ltb_ge in E. cbn. symmetry. apply nth_error_None. auto.
Qed.
Lemma sorted_labels : forall l o, increasing_order l o ->
  Permutation (map (fun i => nth i l 0%Z) o) l /\ StronglySorted Z.le (map (fun i => nth i l 0%Z) o).
Proof.
  intros l o H. pose proof H as (P & S & _). split.
  - eapply perm_trans; [apply Permutation_map; exact P|]. rewrite map_nth_seq. auto.
  - apply sorted_of_nth. intros i j x y Hij Ei Ej. rewrite nth_error_map in Ei, Ej.
    destruct (nth_error o i) as [a|] eqn:Ea; [|discriminate]. destruct (nth_error o j) as [b|] eqn:Eb; [|discriminate].
    cbn in Ei, Ej. inversion Ei; inversion Ej; subst. apply (S i j a b); auto.
    + apply nth_error_nth'. eapply increasing_lt; eauto. eapply nth_error_In; eauto.
    + apply nth_error_nth'. eapply increasing_lt; eauto. eapply nth_error_In; eauto.
Qed.
Lemma reordered_perm : forall (s : list nat) (a b : list Z), Permutation s (seq 0 (length a)) -> reordered s a b -> Permutation b a.
Proof.
  intros s a b P [L H]. assert (E : b = map (fun i => nth i a 0%Z) s).
  { apply nth_error_ext. intros k. rewrite nth_error_map. destruct (nth_error s k) as [i|] eqn:Ek; cbn.
    - rewrite (H k i Ek). apply nth_error_nth'. apply nth_error_In in Ek. apply (Permutation_in _ P) in Ek. apply in_seq in Ek. lia.
    - apply nth_error_None in Ek. apply nth_error_None. lia. }
  rewrite E. eapply perm_trans; [apply Permutation_map; exact P|]. rewrite map_nth_seq. auto.
Qed.

Lemma process_same_rows : forall isort m v a b, (forall l, increasing_order l (isort l)) -> rectangular a ->
  NoDup (f_index a) -> same_rows a b -> process isort m v a = process isort m v b /\ length (f_index b) = length (f_index a).
Proof.
  intros isort m v a b Hi Hr Nd (s & Ps & Ri & Rc).
  assert (Ls : length s = length (f_index a)) by (apply Permutation_length in Ps; rewrite seq_length in Ps; auto).
  pose proof Ri as [Lb Rb]. split; [|lia].
  assert (F : Forall2 (fun x y => fst x = fst y /\ reordered s (snd x) (snd y)) (csort (f_cols a)) (csort (f_cols b))).
  { apply csort_F2; auto. intros x y [? _]; auto. }
  unfold process. rewrite Lb, Ls. f_equal.
  - clear -F. induction F as [|x y p q [H _] F IH]; cbn; auto. congruence.
  - f_equal. f_equal.
    assert (Hall : forall c, In c (csort (f_cols a)) -> length (snd c) = length (f_index a)).
    { intros [n c] I. apply (Hr n). apply (Permutation_in _ (Permutation_sym (csort_perm _ _))). auto. }
    set (o1 := isort (f_index a)). set (o2 := isort (f_index b)).
    assert (Eo : forall q A B, nth_error o1 q = Some A -> nth_error o2 q = Some B -> nth_error s B = Some A).
    { intros q A B EA EB. destruct (sorted_labels _ _ (Hi (f_index a))) as [P1 S1]. destruct (sorted_labels _ _ (Hi (f_index b))) as [P2 S2].
      fold o1 in P1, S1. fold o2 in P2, S2.
      assert (Eq : map (fun i => nth i (f_index a) 0%Z) o1 = map (fun i => nth i (f_index b) 0%Z) o2).
      { apply sorted_perm_unique; auto. eapply perm_trans; [exact P1|]. eapply perm_trans; [|apply Permutation_sym; exact P2].
        apply Permutation_sym. eapply reordered_perm; eauto. }
      assert (E1 : nth_error (map (fun i => nth i (f_index a) 0%Z) o1) q = Some (nth A (f_index a) 0%Z)) by (rewrite nth_error_map, EA; auto).
      rewrite Eq, nth_error_map, EB in E1. cbn in E1. inversion E1 as [E2]. clear E1.
      assert (HA : A < length (f_index a)) by (apply (increasing_lt _ o1); [apply Hi|eapply nth_error_In; eauto]).
      assert (HB : B < length (f_index b)) by (apply (increasing_lt _ o2); [apply Hi|eapply nth_error_In; eauto]).
      destruct (nth_error_ex _ s B) as [C EC]; [lia|]. rewrite EC. f_equal.
      assert (HC : C < length (f_index a)).
      { apply nth_error_In in EC. apply (Permutation_in _ Ps) in EC. apply in_seq in EC. lia. }
      pose proof (Rb B C EC) as E3. rewrite (nth_error_nth' (f_index b) 0%Z HB), (nth_error_nth' (f_index a) 0%Z HC) in E3.
      inversion E3 as [E4]. rewrite E4 in E2.
      apply (proj1 (NoDup_nth (f_index a) 0%Z) Nd); auto. }
    assert (Lo1 : length o1 = length (f_index a)) by (apply increasing_length; apply Hi).
    assert (Lo2 : length o2 = length (f_index a)) by (transitivity (length (f_index b)); [apply increasing_length; apply Hi|lia]).
    clearbody o1 o2. induction F as [|x y p q [_ [L1 L2]] F IH]; cbn; auto. f_equal; [f_equal|].
    + apply nth_error_ext. intros k. unfold permute. rewrite !nth_error_map.
      destruct (nth_error o1 k) as [A|] eqn:EA.
      * assert (Hk : k < length o2) by (apply nth_error_lt in EA; lia). destruct (nth_error_ex _ o2 k Hk) as [B EB]. rewrite EB. cbn.
        f_equal. specialize (Eo k A B EA EB). specialize (L2 B A Eo).
        destruct (nth_error (snd y) B) as [u|] eqn:EU.
        -- rewrite (nth_error_nth_d _ _ _ _ None EU). symmetry in L2. rewrite (nth_error_nth_d _ _ _ _ None L2). auto.
        -- symmetry in L2. apply nth_error_None in L2. apply nth_error_None in EU. rewrite !nth_overflow by lia. auto.
      * assert (EB : nth_error o2 k = None) by (apply nth_error_None; apply nth_error_None in EA; lia). rewrite EB. auto.
    + apply IH. intros c I. apply Hall. right. auto.
Qed.

Lemma pack_rows_labels : forall asort vs i i' anoms scores sev cs ms rs, length i = length i' ->
  pack_rows asort vs i anoms scores sev cs ms = Ok rs ->
  exists rs', pack_rows asort vs i' anoms scores sev cs ms = Ok rs' /\ Forall2 same_finding rs rs'.
Proof.
  intros asort vs. induction i as [|x i IH]; intros [|x' i'] anoms scores sev cs ms rs L H; cbn in L; try lia.
  - cbn in H. inversion H; subst. exists []. split; auto.
  - destruct anoms as [|a anoms]; [discriminate|]. destruct scores as [|s scores]; [discriminate|].
    destruct sev as [|v sev]; [discriminate|]. destruct cs as [|c cs]; [discriminate|]. destruct ms as [|m ms]; [discriminate|].
    cbn [pack_rows] in *. dbind H. dbind H. inversion H; subst. clear H.
    destruct (IH i' _ _ _ _ _ _ ltac:(lia) E0) as (rs' & Er & F). eexists. cbn [pack_rows]. rewrite ?E, bind_ok, Er, bind_ok.
    split; [reflexivity|]. constructor; auto. repeat split.
Qed.
Lemma pack_rows_index : forall asort vs i anoms scores sev cs ms rs,
  pack_rows asort vs i anoms scores sev cs ms = Ok rs -> map r_index rs = i.
Proof.
  intros asort vs. induction i as [|x i IH]; intros anoms scores sev cs ms rs H.
  - cbn in H. inversion H; subst. auto.
  - destruct anoms as [|a anoms]; [discriminate|]. destruct scores as [|s scores]; [discriminate|].
    destruct sev as [|v sev]; [discriminate|]. destruct cs as [|c cs]; [discriminate|]. destruct ms as [|m ms]; [discriminate|].
    cbn [pack_rows] in H. dbind H. dbind H. inversion H; subst. cbn. f_equal. eauto.
Qed.

Theorem C73_scores_ignore_row_order : forall parse_int isort argsort_desc gap e1 W net d fs a b params p' rs,
  good_sorts isort argsort_desc -> rectangular a -> NoDup (f_index a) -> same_rows a b ->
  predict parse_int isort argsort_desc gap e1 W net d fs a params = (p', Ok rs) ->
  exists rs', predict parse_int isort argsort_desc gap e1 W net d fs b params = (p', Ok rs') /\
    Forall2 same_finding rs rs' /\
    map r_index rs = skipn (length (f_index a) - length rs) (f_index a) /\
    map r_index rs' = skipn (length (f_index b) - length rs') (f_index b).
Proof.
  intros parse isort asort gap e1 W net d fs a b params p' rs [Gi Ga] Hr Nd Sr H.
  assert (Pr : forall m v, process isort m v a = process isort m v b) by (intros; apply process_same_rows; auto).
  assert (Li : length (f_index b) = length (f_index a)) by (apply (process_same_rows isort FZero 0%Qc); auto).
  assert (Pp : process_data_and_params parse isort a params = process_data_and_params parse isort b params).
  { unfold process_data_and_params. destruct (compute_window_sizes parse _) as [[i t]|e]; auto.
    destruct (data_processor _ _) as [[m v]|e]; auto. rewrite Pr. auto. }
  unfold predict in *. rewrite <- Pp. destruct (process_data_and_params parse isort a params) as [q [[[vs vals] cfg]|e]]; [|discriminate].
  injection H as -> H. unfold predict_core in *.
  destruct (match d_model W d with Some _ => Ok d | None => _ end) as [a0|]; [|discriminate]. rewrite bind_ok in H. setoid_rewrite bind_ok.
  destruct (d_config W a0) as [c|]; [|discriminate].
  destruct (d_model W a0) as [w|]; [|discriminate].
  destruct (length vals <? c_tw c + c_input c); [discriminate|].
  destruct (d_threshold W a0) as [th|]; [|discriminate]. destruct (d_pct W a0) as [pct|]; [|discriminate].
  destruct (inference _ _ _ _ _ _ _ vals) as [a1|]; [|discriminate]. rewrite bind_ok in H. setoid_rewrite bind_ok.
  destruct a1 as [[[cs|] [ts|]] [ms|]]; try discriminate.
  unfold assemble in *. cbv zeta in *. destruct (mapM contributor_scores cs) as [x1|]; [|discriminate].
  rewrite bind_ok in H. setoid_rewrite bind_ok. destruct (thresholds _ ts) as [x2|]; [|discriminate].
  rewrite bind_ok in H. setoid_rewrite bind_ok.
  unfold pack_response in *. rewrite Li. destruct (length (f_index a) <? _) eqn:C; [discriminate|].
  match type of H with pack_rows _ _ ?i _ _ _ _ _ = _ => set (i1 := i) in * end.
  match goal with |- context [skipn ?n (f_index b)] => set (i2 := skipn n (f_index b)) end.
  destruct (pack_rows_labels _ _ i1 i2 _ _ _ _ _ _ ltac:(unfold i1, i2; rewrite !skipn_length; lia) H) as (rs' & Er & F).
  exists rs'. rewrite Er. split; auto. split; auto.
  assert (Lr : length rs' = length rs) by (symmetry; eapply F2_len; eauto).
  pose proof (pack_rows_index _ _ _ _ _ _ _ _ _ H) as X1. pose proof (pack_rows_index _ _ _ _ _ _ _ _ _ Er) as X2.
  assert (L1 : length rs = length i1) by (rewrite <- X1, map_length; auto).
  apply Nat.ltb_ge in C.
  split; [rewrite X1; unfold i1 in *; rewrite skipn_length in L1; f_equal; lia|].
  rewrite X2; unfold i1, i2 in *; rewrite skipn_length in L1; f_equal; lia.
Qed.
Print Assumptions C73_scores_ignore_row_order.
Example C73_example :
  let a := toy_frame [1; 2; 3; 4]%Z (map Q2Qc [1#10; 6#10; 2#10; 35#100]%Q) in
  let b := toy_frame [3; 2; 4; 1]%Z (map Q2Qc [2#10; 6#10; 35#100; 1#10]%Q) in
  seen_all (toy_predict 1 1 (Q2Qc (4 # 10)) a []) = Ok [(2%Z, true, 3 # 5); (3%Z, false, 1 # 5); (4%Z, true, 7 # 20)]%Q /\
  seen_all (toy_predict 1 1 (Q2Qc (4 # 10)) b []) = Ok [(2%Z, true, 3 # 5); (4%Z, false, 1 # 5); (1%Z, true, 7 # 20)]%Q.
Proof. cbv zeta. split; vm_compute; reflexivity. Qed.

(** * C74 *)
(** Only the contents of the columns in name order matter, not their names. *)
Lemma pack_rows_names : forall asort vs vs' i anoms scores sev cs ms rs rs',
  pack_rows asort vs i anoms scores sev cs ms = Ok rs -> pack_rows asort vs' i anoms scores sev cs ms = Ok rs' ->
  Forall2 (fun r r' => r_index r = r_index r' /\ r_anomaly r = r_anomaly r' /\ r_score r = r_score r' /\ r_severity r = r_severity r') rs rs'.
Proof.
  intros asort vs vs'. induction i as [|x i IH]; intros anoms scores sev cs ms rs rs' H H'.
  - cbn in *. inversion H; inversion H'; subst. auto.
  - destruct anoms as [|a anoms]; [discriminate|]. destruct scores as [|s scores]; [discriminate|].
    destruct sev as [|v sev]; [discriminate|]. destruct cs as [|c cs]; [discriminate|]. destruct ms as [|m ms]; [discriminate|].
    cbn [pack_rows] in *. dbind H. dbind H. dbind H'. dbind H'. inversion H; inversion H'; subst. constructor; [repeat split|]. eauto.
Qed.
Theorem C74_names_ignored : forall parse_int isort argsort_desc gap e1 W net d fs a b params p rs p' rs' cols cols',
  f_index a = f_index b -> Permutation cols (f_cols a) -> Permutation cols' (f_cols b) ->
  StronglySorted (fun x y => String.leb x y = true) (map fst cols) -> NoDup (map fst cols) ->
  StronglySorted (fun x y => String.leb x y = true) (map fst cols') -> NoDup (map fst cols') ->
  map snd cols = map snd cols' ->
  predict parse_int isort argsort_desc gap e1 W net d fs a params = (p, Ok rs) ->
  predict parse_int isort argsort_desc gap e1 W net d fs b params = (p', Ok rs') ->
  Forall2 (fun r r' => r_index r = r_index r' /\ r_anomaly r = r_anomaly r' /\ r_score r = r_score r' /\ r_severity r = r_severity r') rs rs'.
Proof.
  intros parse isort asort gap e1 W net d fs a b params p rs p' rs' cols cols' Hi P1 P2 S1 N1 S2 N2 Hs H H'.
  assert (SS : forall l : list (string * list (option Qc)), StronglySorted (fun x y => String.leb x y = true) (map fst l) -> csorted l).
  { induction l as [|x t IH]; intros Q; cbn in Q; inversion Q; subst; constructor; [apply IH; auto|]. apply Forall_forall. intros y I. match goal with F : Forall _ (map fst t) |- _ => rewrite Forall_forall in F; apply F end. apply in_map; auto. }
  assert (C1 : csort (f_cols a) = cols).
  { symmetry. apply csorted_unique; auto; [apply csort_sorted|]. eapply perm_trans; [exact P1|apply csort_perm]. }
  assert (C2 : csort (f_cols b) = cols').
  { symmetry. apply csorted_unique; auto; [apply csort_sorted|]. eapply perm_trans; [exact P2|apply csort_perm]. }
  assert (Pr : forall m v, snd (process isort m v a) = snd (process isort m v b) /\ length (fst (process isort m v a)) = length (fst (process isort m v b))).
  { intros m v. unfold process. cbn [fst snd]. rewrite C1, C2, Hi. split.
    - f_equal. f_equal. rewrite <- (map_map snd (fun c => fill_col m v (permute None (isort (f_index b)) c))), Hs.
      rewrite (map_map snd). auto.
    - apply (f_equal (@length _)) in Hs. rewrite !map_length in *. auto. }
  unfold predict in *.
  destruct (process_data_and_params parse isort a params) as [q [[[vs vals] cfg]|e]] eqn:E1; [|discriminate].
  destruct (process_data_and_params parse isort b params) as [q' [[[vs' vals'] cfg']|e]] eqn:E2; [|discriminate].
  destruct (process_params_spec _ _ _ _ _ _ _ _ E1) as (i1 & t1 & m & v & _ & Ed1 & Ep1 & _).
  destruct (process_params_spec _ _ _ _ _ _ _ _ E2) as (i2 & t2 & m2 & v2 & _ & Ed2 & Ep2 & _).
  rewrite Ed1 in Ed2. inversion Ed2; subst m2 v2. destruct (Pr m v) as [Pr1 Pr2]. rewrite Ep1, Ep2 in Pr1, Pr2. cbn in Pr1, Pr2. subst vals'.
  injection H as _ H. injection H' as _ H'. unfold predict_core in *. rewrite <- Hi in H'.
  destruct (match d_model W d with Some _ => Ok d | None => _ end) as [a0|]; [|discriminate]. rewrite bind_ok in H, H'.
  destruct (d_config W a0) as [c|]; [|discriminate].
  destruct (d_model W a0) as [w|]; [|discriminate].
  destruct (length vals <? c_tw c + c_input c); [discriminate|].
  destruct (d_threshold W a0) as [th|]; [|discriminate]. destruct (d_pct W a0) as [pct|]; [|discriminate].
  dbind H. rewrite bind_ok in H'. destruct a1 as [[[cs|] [ts|]] [ms|]]; try discriminate.
  unfold assemble in *. cbv zeta in *. dbind H. dbind H. rewrite !bind_ok in H'. rewrite <- Pr2 in H'.
  unfold pack_response in *. destruct (length (f_index a) <? _); [discriminate|].
  eapply pack_rows_names; eauto.
Qed.
Print Assumptions C74_names_ignored.
(** The detector was fitted on the variable "a"; a frame with the variable
    "pressure" is scored all the same. *)
Definition C74_data : frame := Frame [1; 2]%Z [("pressure"%string, map (fun q => Some (Q2Qc q)) [1#10; 6#10]%Q)].
Example C74_seen : seen_all (toy_predict 1 1 (Q2Qc (4 # 10)) C74_data []) = Ok [(2%Z, true, 3 # 5)]%Q.
Proof. vm_compute. reflexivity. Qed.
Theorem C74_unknown_variables_refuted :
  ~ (forall parse_int isort argsort_desc gap e1 W net d c w th pct known fs data params p' rs,
  good_sorts isort argsort_desc -> trained W d c w th pct -> fits c data -> d_variables W d = Some known ->
  predict parse_int isort argsort_desc gap e1 W net d fs data params = (p', Ok rs) ->
  Permutation (map fst (f_cols data)) known).
Proof.
  intros H. destruct (seen_inv _ _ C74_seen) as (p' & rs & Ep & _). unfold toy_predict in Ep.
  assert (Tr : trained unit (toy_detector 1 1 (Q2Qc (4 # 10))) (toy_config 1 1) tt (Q2Qc (4 # 10)) [1%Qc]) by (repeat split).
  assert (Ft : fits (toy_config 1 1) C74_data).
  { unfold fits. cbn. repeat split; auto. intros n c [Hc|[]]. inversion Hc; subst. reflexivity. }
  specialize (H _ _ _ _ _ _ _ _ _ _ _ _ ["a"%string] _ _ _ _ _ (conj toy_isort_ok toy_argsort_ok) Tr Ft eq_refl Ep).
  cbn in H. apply Permutation_length_1 in H. discriminate H.
Qed.
Print Assumptions C74_unknown_variables_refuted.
