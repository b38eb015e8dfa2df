(** C121: timestamps decide the places on the grid and the labels, nothing else. *)
From Coq Require Import String Ascii List Arith ZArith QArith Qcanon Bool Lia.
From Verif Require Import Base Num FillUp_model Margins_model Margins_proofs SR_model Detect_model Dates_model
  Request_model Request_spec Request_proofs Request_proofs2 Request_proofs3 Request_proofs4 Request_proofs6 Request_proofs7 Request_proofs8 Request_props
  Mirror_proofs7 Pipe_model Pipe_props Lone_props2 Follow_spec Follow_proofs Follow_props Defaults_proofs Labels_spec.
Import ListNotations.
Open Scope string_scope.
Open Scope nat_scope.

Lemma same_values_length : forall T T' (rows : list (point T)) (rows' : list (point T')), same_values rows rows' -> length rows' = length rows.
Proof. intros T T' rows rows' F. symmetry. eapply Forall2_length; eauto. Qed.
Lemma same_numbers : forall T T' (rows : list (point T)) (rows' : list (point T')) vs, same_values rows rows' ->
  Forall2 (fun x v => w_value x = Num (Request_model.Fin v)) rows vs -> Forall2 (fun x v => w_value x = Num (Request_model.Fin v)) rows' vs.
Proof.
  intros T T' rows rows' vs F. revert vs. induction F as [|x y rows rows' E F IH]; intros vs H; inversion H; subst; constructor; auto. congruence.
Qed.
Lemma same_values_in : forall T T' (rows : list (point T)) (rows' : list (point T')) y, same_values rows rows' -> In y rows' -> exists x, In x rows /\ w_value y = w_value x.
Proof.
  intros T T' rows rows' y F. induction F as [|a b rows rows' E F IH]; simpl; [tauto|]. intros [->|I]; [eauto|]. destruct (IH I) as (x & I' & E'). eauto.
Qed.
Lemma same_values_sym : forall T T' (rows : list (point T)) (rows' : list (point T')), same_values rows rows' -> same_values rows' rows.
Proof. intros T T' rows rows' F. induction F; constructor; auto. Qed.
Lemma zip_snd : forall A B (l : list A) (os : list B), length l = length os -> map snd (zip_pair l os) = os.
Proof. intros A B. induction l as [|a l IH]; intros [|o os] H; simpl in *; try discriminate; auto. f_equal. auto. Qed.

Lemma entire_length : forall v1 sr rs sens o, get_margins_entire v1 sr rs sens = Ok o -> length o = length rs.
Proof.
  intros v1 sr rs sens o G. destruct v1; cbn [get_margins_entire] in G.
  - rewrite v1_widths in G. destruct rs as [|r0 rs]; [discriminate|]. rewrite refine_margins_map in G by discriminate. cbv zeta in G. apply (f_equal (fun x => match x with Ok y => length y | Err _ => 0 end)) in G. rewrite map_length in G. auto.
  - destruct rs as [|r0 rs]; [discriminate|]. unfold get_margins_v2_entire in G.
    assert (LM : forall us l o, mapM2 (v2_entire_point sens) us l = Ok o -> length us = length l -> length o = length l).
    { clear. induction us as [|u us IH]; intros [|r l] o G L; simpl in *; try lia; [injection G as <-; auto|].
      destruct (v2_entire_point sens u r); [|discriminate]. cbn [bind] in G. destruct (mapM2 _ us l) eqn:Q; [|discriminate]. cbn [bind] in G. injection G as <-. simpl. f_equal. eapply IH; eauto. }
    eapply LM; [exact G|]. unfold calculate_boundary_units. cbv zeta. destruct (forallb _ _); rewrite ?map_length; auto.
Qed.

Section Two.
Context {T T' : Type}.
Variable to_datetime : list T -> option (list stamp).
Hypothesis to_datetime_length : forall l st, to_datetime l = Some st -> length st = length l.
Variable to_datetime' : list T' -> option (list stamp).
Hypothesis to_datetime_length' : forall l st, to_datetime' l = Some st -> length st = length l.
Variable majority : list Qc -> Qc.
Variable beyond : list (point T) -> settings -> res (reply T).
Variable beyond' : list (point T') -> settings -> res (reply T').

(** C121. Two accepted series with the same values at the same places of the grid
    get the same outcomes. *)
Theorem C121_grid : forall detect o rows rows' d mode,
  rows <> [] -> decides parameter_rules d None -> (forall s, reads d s -> micro_ok s) ->
  (forall s, reads d s -> good_series to_datetime (s_gran s) (s_interval s) (s_period s) (nofill_of d) rows) ->
  (forall s, reads d s -> good_series to_datetime' (s_gran s) (s_interval s) (s_period s) (nofill_of d) rows') ->
  (forall dd, ~ given "detector" d (VDict dd)) -> o__error o = None -> mode_for o d = Some mode ->
  same_values rows rows' ->
  (forall s l l', reads d s -> accepted_indices to_datetime (s_gran s) (s_interval s) rows l -> accepted_indices to_datetime' (s_gran s) (s_interval s) rows' l' -> l' = l) ->
  same_results (result (predict T to_datetime majority detect beyond o (DFrame rows) (Some d)))
               (result (predict T' to_datetime' majority detect beyond' o (DFrame rows') (Some d))).
Proof.
  intros detect o rows rows' d mode NE H M G G' ND HE HM SV SI.
  assert (NE' : rows' <> []) by (intros ->; inversion SV; subst; congruence).
  destruct (predict_accepted to_datetime to_datetime_length majority beyond o rows d mode NE H M G ND HE HM) as (s & l & vs & R & B & AI & _ & FV & EQ).
  destruct (predict_accepted to_datetime' to_datetime_length' majority beyond' o rows' d mode NE' H M G' ND HE HM) as (s' & l' & vs' & R' & B' & AI' & _ & FV' & EQ').
  assert (s' = s).
  { eapply reads_fun; eauto. }
  subst s'. assert (l' = l) by (eapply SI; eauto). subst l'.
  assert (vs' = vs). { eapply values_fun; [exact FV'|]. eapply same_numbers; eauto. } subst vs'.
  unfold result. rewrite EQ, EQ'. destruct (make_fup _ _ _) as [f|e]; [|left; exists e; auto]. rewrite !bind_ok.
  match goal with |- context [detect ?a ?b ?c ?e] => destruct (detect a b c e) as [[[[out p] m] q]|e0]; [|left; exists e0; auto] end. rewrite !bind_ok. cbv zeta.
  rewrite !labels_length, (same_values_length _ _ _ _ SV).
  destruct (length rows =? length out) eqn:EL; cbn [negb]; [|left; eauto]. apply Nat.eqb_eq in EL.
  assert (LA : forall U (rr : list (point U)), rr <> [] -> exists t, last_opt (labels U rr) = Ok t).
  { intros U rr N. pose proof (labels_length rr) as LL. destruct (labels U rr) as [|a t]; [destruct rr; [congruence|discriminate]|]. clear. unfold last_opt. destruct (rev (a :: t)) as [|b u] eqn:E; [|eauto]. apply (f_equal (@length _)) in E. rewrite rev_length in E. discriminate. }
  assert (LAST : same_results
    (do o0 <- get_margins_last (s_v1 s) (is_sr m) out (qz (s_sensitivity s)); do t <- last_opt (labels T rows); Ok (ALatest T t o0 p (suggested_window (s_gran s) p)))
    (do o0 <- get_margins_last (s_v1 s) (is_sr m) out (qz (s_sensitivity s)); do t <- last_opt (labels T' rows'); Ok (ALatest T' t o0 p (suggested_window (s_gran s) p)))).
  { destruct (get_margins_last _ _ _ _) as [ol|e]; [|left; exists e; auto]. rewrite !bind_ok.
    destruct (LA T rows NE) as (t & ->). destruct (LA T' rows' NE') as (t' & ->). rewrite !bind_ok. right. eexists. eexists. split; [reflexivity|]. split; [reflexivity|]. simpl. auto. }
  destruct mode as [| | | | | | |[|]| | | |]; try exact LAST.
  destruct (get_margins_entire (s_v1 s) (is_sr m) out (qz (s_sensitivity s))) as [os|e] eqn:ME; [|left; exists e; auto]. rewrite !bind_ok.
  right. eexists. eexists. split; [reflexivity|]. split; [reflexivity|]. simpl. split; auto.
  assert (LO : length os = length out).
  { eapply entire_length; eauto. }
  rewrite !zip_snd; auto; rewrite labels_length; [congruence|rewrite (same_values_length _ _ _ _ SV); congruence].
Qed.

(** C121. The same moments in another notation, or no granularity and any
    timestamps or none: if the first series is accepted so is the second, and it
    gets the same outcomes. *)
Theorem C121_notation : forall detect o rows rows' d mode,
  rows <> [] -> decides parameter_rules d None -> (forall s, reads d s -> micro_ok s) ->
  (forall s, reads d s -> good_series to_datetime (s_gran s) (s_interval s) (s_period s) (nofill_of d) rows) ->
  (forall dd, ~ given "detector" d (VDict dd)) -> o__error o = None -> mode_for o d = Some mode ->
  same_values rows rows' ->
  (forall s, reads d s -> s_gran s = GNone \/ exists st, read_times to_datetime rows st /\ read_times to_datetime' rows' st) ->
  (forall s, reads d s -> good_series to_datetime' (s_gran s) (s_interval s) (s_period s) (nofill_of d) rows') /\
  same_results (result (predict T to_datetime majority detect beyond o (DFrame rows) (Some d)))
               (result (predict T' to_datetime' majority detect beyond' o (DFrame rows') (Some d))).
Proof.
  intros detect o rows rows' d mode NE H M G ND HE HM SV TM.
  assert (G' : forall s, reads d s -> good_series to_datetime' (s_gran s) (s_interval s) (s_period s) (nofill_of d) rows').
  { intros s R. destruct (G s R) as (A & B & C & D). unfold good_series. rewrite (same_values_length _ _ _ _ SV). split; auto. split; auto. split.
    - intros y I. destruct (same_values_in _ _ _ _ y SV I) as (x & I' & ->). auto.
    - intros N. destruct (D N) as (st & l & RT & K). destruct (TM s R) as [X|(st0 & R1 & R2)]; [congruence|].
      rewrite (read_times_fun _ _ _ _ RT R1) in K. exists st0, l. auto. }
  split; auto. eapply C121_grid; eauto.
  intros s l l' R AI AI'. destruct AI as [(E & ->)|(N & _ & st & RT & E)]; destruct AI' as [(E' & ->)|(N' & _ & st' & RT' & E')]; try congruence.
  - rewrite (same_values_length _ _ _ _ SV). auto.
  - destruct (TM s R) as [X|(st0 & R1 & R2)]; [congruence|]. rewrite (read_times_fun _ _ _ _ RT R1) in E. rewrite (read_times_fun _ _ _ _ RT' R2) in E'. congruence.
Qed.
End Two.
Print Assumptions C121_grid.
Print Assumptions C121_notation.

(** The gappy days by number, and with no granularity no timestamps at all; on
    other days the same values are answered where they were refused. *)
Definition numbered : list (point Z) := map (fun n => mkPoint (Some n) (Num (Fin (qz n)))) gappy_days.
Definition by_number (l : list Z) : option (list stamp) := Some (map day l).
Definition ask_numbered := predict Z by_number (fun _ => 0%Qc) ex_detect (fun _ _ => Err Generic).
Definition timeless : list (point Z) := map (fun n => mkPoint None (Num (Fin (qz n)))) gappy_days.
Definition asks_plain : dict := [("granularity", VStr "none"); ("detect_mode", VMode ENTIRE)].
Definition gapless : list (point stamp) :=
  map (fun n => mkPoint (Some (day (if (n <? 4)%Z then n else n - 1)%Z)) (Num (Fin (qz n)))) gappy_days.
Example C121_case :
  usual asks_linear gappy /\ same_values gappy numbered /\
  (exists st, read_times parsed gappy st /\ read_times by_number numbered st) /\
  same_results (result (ask_detector (fresh VNone) (DFrame gappy) (Some asks_linear)))
               (result (ask_numbered (fresh VNone) (DFrame numbered) (Some asks_linear))) /\
  is_entire (result (ask_detector (fresh VNone) (DFrame gappy) (Some asks_linear))) 12 /\
  (forall s, reads asks_plain s -> s_gran s = GNone) /\ same_values gappy timeless /\
  (exists l p, result (ask_numbered (fresh VNone) (DFrame timeless) (Some asks_plain)) = Ok (AEntire Z l p) /\ length l = 12) /\
  same_values gappy gapless /\
  ~ same_results (result (ask_detector (fresh VNone) (DFrame gappy) (Some asks_fixed)))
                 (result (ask_detector (fresh VNone) (DFrame gapless) (Some asks_fixed))).
Proof.
  assert (U : usual asks_linear gappy) by (apply gappy_usual; simpl; auto).
  assert (SV : same_values gappy numbered) by (unfold same_values, gappy, daily, numbered, gappy_days; cbn [map]; repeat constructor).
  assert (RT : exists st, read_times parsed gappy st /\ read_times by_number numbered st).
  { exists (map day gappy_days). split.
    - exists (map day gappy_days). split; [|reflexivity]. unfold gappy, daily, gappy_days. cbn [map]. repeat constructor.
    - exists gappy_days. split; [|reflexivity]. unfold numbered, gappy_days. cbn [map]. repeat constructor. }
  split; [exact U|]. split; [exact SV|]. split; [exact RT|]. split; [|split; [do 2 eexists; split; vm_compute; reflexivity|]].
  { destruct U as (U1 & U2 & U3 & U4 & U5 & U6).
    refine (proj2 (C121_notation parsed parsed_length by_number _ (fun _ => 0%Qc) _ _ _ (fresh VNone) gappy numbered asks_linear (VMode ENTIRE) U1 U2 U3 U4 U5 eq_refl U6 SV _)).
    - intros l st E. inversion E. apply map_length.
    - intros s R. right. exact RT. }
  split; [|split; [unfold same_values, gappy, daily, timeless, gappy_days; cbn [map]; repeat constructor|split; [do 2 eexists; split; vm_compute; reflexivity|]]].
  { intros s R. destruct (reads_granularity asks_plain s R) as [[_ E]|(v & E & n & -> & M)]; [exact E|]. unfold given in E. cbn in E. inversion E; subst n.
    simpl in M. repeat (destruct M as [M|M]; [inversion M; auto|]). contradiction. }
  split; [unfold same_values, gappy, daily, gapless, gappy_days; cbn [map]; repeat constructor|].
  assert (E : result (ask_detector (fresh VNone) (DFrame gappy) (Some asks_fixed)) = Err Generic) by (vm_compute; reflexivity).
  rewrite E. intros [(e & X & Y)|(y & y' & X & _)]; [|discriminate]. injection X as <-. vm_compute in Y. discriminate.
Qed.
