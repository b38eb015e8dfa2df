(** The spectrum detector and period_detection. *)
From Coq Require Import String List Arith ZArith QArith Qcanon Lia Bool Sorted.
From Verif Require Import Base Num Kernel_model Kernel_spec Kernel_proofs Kernel_proofs4 Kernel_proofs5 Kernel_proofs6
  Helpers_model Helpers_spec Helpers_proofs Helpers_proofs2 Detect_model Period_model Period_spec
  Period_proofs Period_proofs2 Period_proofs3.
Import ListNotations.
Open Scope nat_scope.

Lemma gcv_shape : forall data p r, gcv data p = Ok r -> 0 < p /\ 2 * p <= length data /\ length (snd r) = p.
Proof.
  intros data p r E. destruct (Nat.eq_dec p 0) as [->|N]; [discriminate|].
  assert (Hp : 0 < p) by lia.
  destruct (le_lt_dec (2 * p) (length data)) as [L|L].
  - rewrite gcv_ok in E by auto. injection E as <-. cbn [snd]. rewrite map_length. unfold range.
    rewrite seq_length. auto.
  - rewrite gcv_zero in E by auto. discriminate.
Qed.

Lemma max_gcv_loop_from : forall data ps best r, max_gcv_loop data ps best = Ok (Some r) ->
  best = Some r \/ exists p, In p ps /\ gcv data p = Ok r.
Proof.
  intros data. induction ps as [|p t IH]; intros best r; cbn [max_gcv_loop].
  - intros E. inversion E. auto.
  - destruct (gcv data p) as [q|] eqn:G; [|discriminate]. rewrite bind_ok. intros E.
    destruct (IH _ _ E) as [B|(p' & I & GE)]; [|right; exists p'; split; [right; auto|auto]].
    destruct best as [b|].
    + destruct (fst q <? fst b)%Qc; inversion B; subst; auto. right. exists p. split; [left; auto|auto].
    + inversion B; subst. right. exists p. split; [left; auto|auto].
Qed.

Lemma phase_length : forall l p, 0 < p -> l <> [] -> (length (phase l 0 p) - 1) * p < length l /\ 0 < length (phase l 0 p).
Proof.
  intros l p Hp NE. assert (L0 : 0 < length l) by (destruct l; [congruence|cbn; lia]).
  assert (P0 : 0 < length (phase l 0 p)).
  { destruct (nth_error (phase l 0 p) 0) eqn:E; [apply nth_error_lt in E; auto|].
    rewrite phase_nth in E by auto. apply nth_error_None in E. lia. }
  split; auto.
  destruct (nth_error_ex _ (phase l 0 p) (length (phase l 0 p) - 1) ltac:(lia)) as (x & E).
  rewrite phase_nth in E by auto. apply nth_error_lt in E. lia.
Qed.

Lemma seq_between : forall s n x, In x (seq s n) -> s <= x < s + n.
Proof. intros. apply in_seq in H. lia. Qed.

Lemma peak_insert_in : forall a l x, In x (peak_insert a l) <-> x = a \/ In x l.
Proof.
  intros a. induction l as [|b t IH]; intros x; cbn [peak_insert].
  - cbn. intuition.
  - destruct (peak_leb a b); cbn; [intuition|]. rewrite IH. intuition.
Qed.
Lemma sort_peaks_in : forall l x, In x (sort_peaks l) <-> In x l.
Proof.
  induction l as [|a t IH]; intros x; cbn [sort_peaks fold_right]; [tauto|].
  fold (sort_peaks t). rewrite peak_insert_in, IH. cbn. intuition.
Qed.
Lemma peak_ranges_in : forall ps s x, In x (peak_ranges s ps) -> exists p w lo hi, In (p, w, lo, hi) ps /\ lo <= x <= hi.
Proof.
  induction ps as [|[[[p w] lo] hi] t IH]; intros s x I; cbn [peak_ranges] in I; [destruct I|].
  apply in_app_or in I. destruct I as [I|I].
  - apply seq_between in I. exists p, w, lo, hi. split; [left; auto|]. lia.
  - destruct (IH _ _ I) as (p' & w' & lo' & hi' & J & B). exists p', w', lo', hi'. split; [right; auto|auto].
Qed.

Section Spectrum.
Variable std : list Qc -> Qc.
Variable r32 : Qc -> Qc.
Variable rnd : nat -> nat -> nat -> nat.
Variable acf : list Qc -> nat -> res (list (option Qc) * list (option Qc)).
Variable peaks : list Qc -> Qc -> option (list peak).
Variable fit_trend : string -> list Qc -> res (list Qc).
Notation fit_seasons := (fit_seasons std acf peaks fit_trend).
Notation calculate_period := (calculate_period std acf peaks fit_trend).
Notation detect_loop := (detect_loop std acf peaks fit_trend).
Notation spectrum_detect := (spectrum_detect std acf peaks fit_trend).
Notation period_detection := (period_detection std r32 rnd acf peaks fit_trend).

(** * The correlogram *)
Lemma correlogram_ok : forall data a c,
  let mp := Nat.min (length data / 3) (2880 * 2) in
  acf data mp = Ok (a, c) -> length a = S mp -> length c = S mp -> 0 < mp ->
  exists V, correlogram_detector acf data = Ok (lags MIN_PERIOD mp V) /\
    inv (skipn 1 a) (skipn 1 c) (Q2Qc (1 # 10)) V /\
    (forall i, i < mp -> ~ In i V -> exists j x y, nth_error (skipn 1 a) i = Some (Some x) /\
       nth_error (skipn 1 a) j = Some (Some y) /\ (x <= y)%Qc /\ ~ clear (skipn 1 a) (skipn 1 c) (Q2Qc (1 # 10)) j).
Proof.
  intros data a c mp E LA LC MP. unfold correlogram_detector. fold mp. rewrite E, bind_ok. cbn [fst snd].
  clear E. clearbody mp.
  assert (L1 : length (skipn 1 a) = mp) by (rewrite skipn_length; lia).
  assert (L2 : length (skipn 1 c) = mp) by (rewrite skipn_length; lia).
  destruct (correlogram_loop_spec (skipn 1 a) (skipn 1 c) MIN_PERIOD mp (Q2Qc (1 # 10)))
    with (fuel := S mp) (V := @nil nat) as (V & EV & IV & NV).
  - intro X. rewrite X in L1. cbn in L1. lia.
  - lia.
  - reflexivity.
  - constructor; [apply NoDup_nil|intros i []|intros i []|apply SSorted_nil|intros i j []].
  - cbn [length]. lia.
  - exists V. cbv zeta in *. rewrite L1.
    assert (Z0 : zeroed (skipn 1 a) [] = skipn 1 a).
    { apply nth_error_ext. intros k. rewrite zeroed_nth. destruct (nth_error (skipn 1 a) k); reflexivity. }
    rewrite Z0 in EV. split; [exact EV|]. split; auto. rewrite L1 in NV. auto.
Qed.

Lemma lags_range : forall mn mx V p, In p (lags mn mx V) -> mn < p /\ p < mx.
Proof.
  intros mn mx V p I. unfold lags in I. apply in_map_iff in I. destruct I as (i & <- & I).
  apply filter_In in I. destruct I as [_ I]. unfold in_range in I. apply andb_prop in I.
  destruct I as [A B]. apply Nat.ltb_lt in A. apply Nat.ltb_lt in B. auto.
Qed.

Lemma correlogram_from : forall fuel ac upper mn mx th ps out,
  correlogram_loop fuel ac upper mn mx th ps = Ok out ->
  (forall p, In p ps -> mn < p /\ p < mx) -> forall p, In p out -> mn < p /\ p < mx.
Proof.
  induction fuel as [|k IH]; intros ac upper mn mx th ps out E H p I; cbn [correlogram_loop] in E; [discriminate|].
  destruct (argmax ac) as [i|]; [|discriminate]. rewrite bind_ok in E.
  destruct (get ac i) as [a|]; [|discriminate]. rewrite bind_ok in E.
  destruct (get upper i) as [c|]; [|discriminate]. rewrite bind_ok in E. cbv zeta in E.
  destruct (nan_lt a (nan_sub c a) || nan_lt a (Some th)); [inversion E; subst; auto|].
  apply (IH _ _ _ _ _ _ _ E); auto. intros q J.
  destruct ((mn <? i + 1) && (i + 1 <? mx)) eqn:C; auto.
  apply in_app_or in J. destruct J as [J|[<-|[]]]; auto.
  apply andb_prop in C. destruct C as [A B]. apply Nat.ltb_lt in A. apply Nat.ltb_lt in B. auto.
Qed.

(** Lower bound of the candidate periods. *)
Definition candidates_from (lowest : nat) (correlogram : bool) : Prop :=
  correlogram = true /\ lowest <= 5 \/ lowest <= 4 /\ peaks_fit lowest peaks.

Lemma fit_seasons_length : forall low data tt th mv cg s, candidates_from low cg ->
  fit_seasons data tt th mv cg = Ok (Some s) -> low <= length s.
Proof.
  intros low data tt th mv cg s CF. unfold Period_model.fit_seasons.
  destruct (smooth_spikes std data) as [d|]; [|discriminate]. rewrite bind_ok.
  destruct (match tt with None => Ok (repeat 0%Qc (length d)) | Some kind => fit_trend kind d end) as [t|]; [|discriminate].
  rewrite bind_ok. destruct (negb (length t =? length d)); [discriminate|]. cbv zeta.
  set (dd := zip_with _ d t). destruct (close_to_zero (qvar dd)); [discriminate|].
  destruct (if negb cg then Ok (periodogram_detector peaks dd th) else correlogram_detector acf dd) as [ps|] eqn:EP; [|discriminate].
  rewrite bind_ok. destruct (length ps =? 0); [discriminate|].
  destruct (max_gcv dd ps) as [[[mse seasons]|]|] eqn:EG; try discriminate. rewrite bind_ok.
  destruct (close_to_zero mse || (mv <=? 1 - mse / qvar dd)%Qc); intros X; inversion X; subst s.
  destruct (max_gcv_loop_from dd ps None _ EG) as [B|(p & I & G)]; [discriminate|].
  destruct (gcv_shape dd p _ G) as (_ & _ & LP). cbn [snd] in LP. rewrite LP.
  destruct cg; cbn [negb] in EP.
  - unfold correlogram_detector in EP. set (mp := Nat.min _ _) in EP.
    destruct (acf dd mp) as [[a c]|]; [|discriminate]. rewrite bind_ok in EP. cbn [fst snd] in EP.
    destruct (correlogram_from _ _ _ _ _ _ _ _ EP (fun p I => match I with end) p I) as [A _].
    unfold MIN_PERIOD in A. destruct CF as [[_ CF]|[CF _]]; lia.
  - destruct CF as [[CF _]|[CF CP]]; [discriminate|]. inversion EP; subst ps. clear EP.
    unfold periodogram_detector in I. destruct (negb (th =? 0)%Qc).
    + destruct (peaks dd th) as [pk|] eqn:EK; [|destruct I].
      destruct (peak_ranges_in _ _ _ I) as (q & w & lo & hi & J & B). apply (proj1 (sort_peaks_in pk _)) in J.
      destruct (CP dd th pk q w lo hi EK J). lia.
    + destruct (peak_ranges_in _ _ _ I) as (q & w & lo & hi & [J|[]] & B). inversion J; subst. lia.
Qed.

Lemma calculate_fits : forall series tt th mv cg p, calculate_period series tt th mv cg = Ok p -> p <> 0 ->
  2 * p < length series.
Proof.
  intros series tt th mv cg p. unfold Period_model.calculate_period.
  destruct (length series <? 12); [intros E; inversion E; congruence|].
  destruct (fit_seasons series tt th mv cg) as [[s|]|]; try discriminate; rewrite bind_ok.
  - destruct (length s =? 0) eqn:E0; [intros E; inversion E; congruence|]. apply Nat.eqb_neq in E0. cbv zeta.
    destruct (_ <=? _)%Qc eqn:C; intros E; inversion E; subst p; [congruence|]. intros _.
    apply Qcleb_gt in C. assert (P : (0 < qn (length s))%Qc) by (apply qn_pos; lia).
    assert (D : (Q2Qc 2 < qn (length series) / qn (length s))%Qc) by qlra.
    apply Qclt_div_iff in D; auto. change (Q2Qc 2) with (qn 2) in D. rewrite <- qn_mul in D.
    apply qn_lt in D. auto.
  - intros E; inversion E; congruence.
Qed.

Lemma calculate_low : forall low series tt th mv cg p, candidates_from low cg ->
  calculate_period series tt th mv cg = Ok p -> p = 0 \/ low <= p.
Proof.
  intros low series tt th mv cg p CF. unfold Period_model.calculate_period.
  destruct (length series <? 12); [intros E; inversion E; auto|].
  destruct (fit_seasons series tt th mv cg) as [[s|]|] eqn:EF; try discriminate; rewrite bind_ok.
  - destruct (length s =? 0) eqn:E0; [intros E; inversion E; auto|]. cbv zeta.
    destruct (_ <=? _)%Qc eqn:C; intros E; inversion E; subst p; auto. right.
    apply (fit_seasons_length low series tt th mv cg s CF EF).
  - intros E; inversion E; auto.
Qed.

Lemma detect_loop_fits : forall n tt th mv cg fuel series v q out,
  2 * v < length series -> 0 < v -> q * (length series - 1) < n -> 0 < q ->
  detect_loop fuel series v (q * v) tt th mv cg = Ok out ->
  2 * out < n /\ q * v <= out.
Proof.
  intros n tt th mv cg. induction fuel as [|k IH]; intros series v q out HV V0 HQ Q0 E; cbn [Period_model.detect_loop] in E.
  - destruct (v =? 0) eqn:EV; [apply Nat.eqb_eq in EV; lia|discriminate].
  - destruct (v =? 0) eqn:EV; [apply Nat.eqb_eq in EV; lia|]. cbv zeta in E.
    set (s' := phase series 0 v) in *.
    destruct (calculate_period s' tt th mv cg) as [v'|] eqn:EC; [|discriminate]. rewrite bind_ok in E.
    assert (NE : series <> []) by (intro X; subst series; cbn in HV; lia).
    destruct (phase_length series v V0 NE) as [PL P0]. fold s' in PL, P0.
    destruct (v' =? 0) eqn:EV'; cbn [negb] in E.
    + assert (D : Ok (q * v) = Ok out).
      { destruct k; cbn [Period_model.detect_loop] in E; rewrite EV' in E; exact E. }
      inversion D; subst out. nia.
    + apply Nat.eqb_neq in EV'. pose proof (calculate_fits s' tt th mv cg v' EC EV') as F.
      destruct (IH s' v' (q * v) out F ltac:(lia)) as [A B].
      * rewrite <- Nat.mul_assoc. nia.
      * nia.
      * exact E.
      * split; auto. nia.
Qed.
End Spectrum.
