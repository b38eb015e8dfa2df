(** Changing the unit: the detector and the answers. *)
From Coq Require Import String List Arith ZArith QArith Qcanon Qround Lia Lqa Bool Sorted Permutation.
From Verif Require Import Base Num Sorting Kernel_model Kernel_spec FillUp_model FillUp_spec FillUp_proofs FillUp_proofs6 FillUp_props Helpers_model Helpers_spec
  Margins_model SR_model SR_proofs3 Detect_model Detect_spec Detect_proofs Detect_props Pipe_proofs2 Period_proofs3
  Units_spec Units_proofs Units_proofs2 Units_proofs3 Units_proofs4 Units_proofs5 Units_proofs6.
Import ListNotations.
Open Scope nat_scope.

Lemma get_values_map : forall vs, get_values (map Some vs) = Ok vs.
Proof. induction vs; simpl; auto. rewrite IHvs. auto. Qed.

Lemma fup_unit : forall k b ix vs n f, make_fup (Some ix) (map Some vs) n = Ok f ->
  make_fup (Some ix) (map Some (in_unit k b vs)) n = Ok (fup_in_unit k b f).
Proof.
  intros k b ix vs n f H. destruct ix as [|i0 rest]; [simpl in *; inversion H; reflexivity|]. unfold make_fup in *.
  rewrite get_values_map in *. unfold in_unit. rewrite !map_length in *.
  destruct (negb _); [discriminate|]. cbn [bind] in *. destruct (scan i0 rest false 0) as [[found cnt]|e]; [|discriminate]. cbn [bind] in *.
  destruct (negb (i0 =? 0)%Z); [discriminate|]. destruct (negb found || _); [inversion H; reflexivity|].
  match goal with |- bind ?t _ = _ => destruct t as [tl|e]; [|discriminate] end. cbn [bind] in *. inversion H. reflexivity.
Qed.

Lemma analysed_len : forall spline ix a s, make_fup (Some ix) (map Some (a_values a)) default_maxlen = Ok (a_fup a) ->
  through_knots spline ix a -> 4 <= length ix -> analysed spline a s -> 4 <= length s.
Proof.
  intros spline ix a s HF TK L4 [->|(p & tags & E)].
  - destruct ix as [|i0 rest]; [simpl in L4; lia|]. destruct (make_fup_ok_inv (i0 :: rest) _ _ _ ltac:(discriminate) HF) as ([W|(LI & _)] & _); [congruence|].
    rewrite map_length in LI. lia.
  - assert (NE : ix <> []) by (destruct ix; [simpl in L4; lia|discriminate]).
    destruct (make_fup_ok_inv _ _ _ _ NE HF) as (_ & _ & _ & _ & EM & EN & _).
    assert (LS : f_need (a_fup a) = true /\ length s = f_all (a_fup a)).
    { destruct (f_need (a_fup a)) eqn:HN.
      - split; auto. destruct (a_mode a) eqn:MD.
        4:{ destruct (C38_fixed_fill_is_constant spline ix _ default_maxlen (a_fup a) (a_fixed a) (Some (Z.of_nat p)) HF HN) as (full & E' & LL & _).
            rewrite E in E'. inversion E'; subst full. rewrite map_length in LL. auto. }
        all: edestruct (fill_cases spline ix (map Some (a_values a)) (a_fup a) (a_mode a) (a_fixed a) (Some (Z.of_nat p)) HF) as [[_ X]|(_ & _ & _ & s0 & X & LX & _)];
          try (rewrite MD; discriminate); auto; try lia; rewrite MD in X; rewrite X in E; inversion E; subst; auto;
          rewrite <- LX; match goal with Q : map Some _ = map Some _ |- _ => apply (f_equal (@length _)) in Q; rewrite !map_length in Q; lia end.
      - exfalso. destruct (a_mode a); cbn [fill_up_on_demand] in E; unfold fill_up in E; rewrite ?HN in E; discriminate. }
    destruct LS as [HN ->]. apply EN in HN. lia.
Qed.

Lemma Forall2_map_both : forall A B C D (P : A -> B -> Prop) (Q : C -> D -> Prop) f g l l', (forall x y, P x y -> Q (f x) (g y)) -> Forall2 P l l' -> Forall2 Q (map f l) (map g l').
Proof. intros A B C D P Q f g l l' H F. induction F; simpl; constructor; auto. Qed.

Section Answer.
Variable cst : Qc.
Variable std : list Qc -> Qc.
Variable ppf : Qc -> Z -> Qc.
Variable sqrt : Qc -> Qc.
Variable table : list Qc.
Variable sort : list (nat * Qc) -> list (nat * Qc).
Variable sort_desc : list (nat * Qc) -> list (nat * Qc).
Variable trend_detection : list Qc -> option nat -> res (list Qc).
Variable decompose : bool -> list Qc -> nat -> res (list Qc * list Qc).
Variable transform : list Qc -> list Qc.
Variable stationary : list Qc -> bool.
Variable spline : list nat -> list Qc -> nat -> Qc.
Variable period_detection : list (option Qc) -> res nat.
Hypothesis SU : sorts_up sort.
Variable alpha : Qc.
Hypothesis CP : forall n m c, 2 * m + 2 <= n -> In c (get_critical ppf sqrt table alpha n m) -> (0 <= c)%Qc.
Variable k b : Qc.
Hypothesis K : (0 < k)%Qc.
Hypothesis TD : trend_in_unit k b trend_detection.
Hypothesis T0 : trend_in_unit k 0 trend_detection.
Hypothesis SB : unit_blind k b stationary.
Hypothesis S0 : unit_blind k 0 stationary.
Hypothesis SP : spline_in_unit k b spline.
Hypothesis PB : forall l, period_detection (cells_in_unit k b l) = period_detection l.
Notation detect := (detect_model cst std ppf sqrt table sort sort_desc trend_detection decompose transform stationary spline period_detection).

Lemma detect_unit : forall a d period lm, a_alpha a = alpha ->
  (forall s p, analysed spline a s -> 1 < p -> (match period with Some q => p = q | None => True end) -> parts_in_unit k b decompose s p) -> (forall s, analysed spline a s -> 4 <= length s) ->
  (fine_grained a = true -> b = 0%Qc /\ scale_blind k transform /\ spread_in_unit k std /\ (forall s, analysed spline a s -> same_side k (mad s / cst)%Qc)) ->
  answers_alike (same_answer_rows k b (a_need_trend a)) (detect a d period lm) (detect (args_in_unit k b a) d period lm).
Proof.
  intros a d period lm EA PD HL HF. unfold detect_model.
  apply (alike_bind _ _ _ _ (same_report k b (a_need_trend a))).
  - change (a_majority (args_in_unit k b a)) with (a_majority a). destruct (should_trigger_model_selection d (a_majority a)).
    + eapply select_unit; eauto.
    + unfold detect_without_model_selection. destruct (d_params d) as [pp|]; [|simpl; auto].
      assert (G : forall per : option nat, answers_alike (same_report k b (a_need_trend a))
        (match per with None => Err TypeErr | Some p =>
           if (1 <? p) && (Q2Qc (1 # 2) <? missing_ratio (a_fup a))%Qc then Err (RequestErr "InvalidSeries") else
              do _ <- (if (1 <? p) || match a_mode a with FMFixed => true | _ => false end
                       then fill_up_on_demand spline (a_fup a) (a_mode a) (a_fixed a) (Some (Z.of_nat p))
                       else Ok None);
              Err TypeErr end)
        (match per with None => Err TypeErr | Some p =>
           if (1 <? p) && (Q2Qc (1 # 2) <? missing_ratio (a_fup (args_in_unit k b a)))%Qc then Err (RequestErr "InvalidSeries") else
              do _ <- (if (1 <? p) || match a_mode (args_in_unit k b a) with FMFixed => true | _ => false end
                       then fill_up_on_demand spline (a_fup (args_in_unit k b a)) (a_mode (args_in_unit k b a)) (a_fixed (args_in_unit k b a)) (Some (Z.of_nat p))
                       else Ok None);
              Err TypeErr end)).
      { intros [p|]; [|simpl; auto]. change (missing_ratio (a_fup (args_in_unit k b a))) with (missing_ratio (a_fup a)).
        destruct (_ && _); [simpl; auto|]. change (a_mode (args_in_unit k b a)) with (a_mode a). destruct (_ || _); [|simpl; auto].
        eapply alike_bind; [apply (fill_on_demand_unit k b K spline SP)|]. intros; simpl; auto. }
      destruct period as [p0|], pp as [[p1|]|]; first [apply (G (Some p1))|apply (G (Some p0))|apply (G None)|simpl; auto].
  - intros [[[rows p] m] fl] [[[rows' p'] m'] fl'] _ _ (-> & -> & -> & F). simpl. repeat split; auto.
    apply (Forall2_map_both _ _ _ _ _ _ _ _ _ _ (fun x y => refined_unit k b _ x y K)). auto.
Qed.
End Answer.

Section Present.
Variable k : Qc.
Hypothesis K : (0 < k)%Qc.

Definition outs_alike (vs : list Qc) (o o' : list outcome) : Prop :=
  length o = length vs /\ length o' = length vs /\
  forall i v x x', nth_error vs i = Some v -> nth_error o i = Some x -> nth_error o' i = Some x' -> rescaled k v x x'.
Lemma last_sc : forall vs o o', outs_alike vs o o' ->
  answers_alike (fun x x' => exists v, nth_error vs (length vs - 1) = Some v /\ rescaled k v x x') (last_opt o) (last_opt o').
Proof.
  intros vs o o' (L1 & L2 & H). unfold last_opt.
  destruct (rev o) as [|x t] eqn:R1; destruct (rev o') as [|x' t'] eqn:R2; apply (f_equal (@rev _)) in R1, R2; rewrite rev_involutive in R1, R2; subst.
  - simpl; auto.
  - simpl in *. rewrite app_length in L2. simpl in L2. lia.
  - simpl in *. rewrite app_length in L1. simpl in L1. lia.
  - cbn [rev] in *. rewrite app_length in L1, L2. simpl in L1, L2. cbn [answers_alike].
    destruct (nth_error_ex _ vs (length vs - 1) ltac:(lia)) as [v Hv]. exists v. split; auto. apply (H (length vs - 1)); auto.
    + rewrite nth_error_app2 by lia. replace (length vs - 1 - length (rev t)) with 0 by lia. auto.
    + rewrite nth_error_app2 by lia. replace (length vs - 1 - length (rev t')) with 0 by lia. auto.
Qed.

Lemma entire_sc : forall nt sr sens rows rows', Forall2 (retold k 0 nt) rows rows' ->
  answers_alike (outs_alike (map r_value rows)) (get_margins_v1 sr rows sens) (get_margins_v1 sr rows' sens).
Proof.
  intros nt sr sens rows rows' F. eapply alike_impl; [|apply (margins_v1_sc k K nt sr sens rows rows' F)].
  intros o o' (vs & -> & L1 & L2 & H). unfold outs_alike. rewrite map_length. auto.
Qed.
Lemma zip_pair_nth : forall A B (a : list A) (b : list B) i, nth_error (zip_pair a b) i =
  match nth_error a i, nth_error b i with Some x, Some y => Some (x, y) | _, _ => None end.
Proof. induction a as [|x a IH]; intros [|y b] [|i]; simpl; auto. destruct (nth_error a i); auto. Qed.
End Present.
