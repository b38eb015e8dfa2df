(** What an accepted request asks of the detector. *)
From Coq Require Import String Ascii List Arith ZArith QArith Qcanon Bool Lia.
From Verif Require Import Base Num FillUp_model FillUp_spec FillUp_proofs Helpers_model Margins_model Margins_props SR_model Detect_model Dates_model
  Request_model Request_spec Request_proofs Request_proofs2 Request_proofs3 Request_proofs4 Request_proofs5 Request_proofs6.
Import ListNotations.
Open Scope string_scope.
Open Scope nat_scope.

Lemma reads_asked : forall T majority d s (rows : list (point T)) l vs f, reads d s ->
  Forall2 (fun x v => w_value x = Num (Fin v)) rows vs -> make_fup (Some l) (map Some vs) default_maxlen = Ok f ->
  (forall z, s_interval s = Some z -> (0 <= z)%Z) ->
  asked majority d rows l (mkArgs vs f (fst (s_fill s)) (snd (s_fill s)) (s_ratio s) (s_alpha s) (s_threshold s)
             (negb (s_v1 s)) (majority vs) (s_gran s) (option_map Z.to_nat (s_interval s))) (s_period s).
Proof.
  intros T majority d s rows l vs f R V F P. destruct R.
  constructor; cbn [a_values a_fup a_mode a_fixed a_alpha a_ratio a_threshold a_need_trend a_majority a_gran a_interval]; auto.
  - rewrite <- reads_boundary. destruct (s_v1 s); simpl; intuition discriminate.
  - destruct reads_interval as [[E H]|(v & G & z & I & H)].
    + left. rewrite H. auto.
    + right. exists v. split; auto. exists (Z.to_nat z). rewrite H. simpl. rewrite Z2Nat.id by auto. auto.
Qed.

Lemma interval_nonneg : forall d s, decides parameter_rules d None -> reads d s -> forall z, s_interval s = Some z -> (0 <= z)%Z.
Proof.
  intros d s D R z E. unfold parameter_rules in D.
  apply decides_cons_none in D. destruct D as [_ D]. apply decides_cons_none in D. destruct D as [_ D].
  apply decides_cons_none in D. destruct D as [D _]. unfold bad in D.
  destruct (reads_interval d s R) as [[_ H]|(v & G & z' & I & H)]; [congruence|]. rewrite E in H. inversion H; subst z'.
  apply Z.nlt_ge. intros L. apply D. exists v. split; auto. intros (z2 & I2 & P). pose proof (as_int_spec v z) as A1. pose proof (as_int_spec v z2) as A2.
  apply A1 in I. apply A2 in I2. rewrite I in I2. inversion I2; subst. lia.
Qed.

Section Predict.
Context {T : Type}.
Variable to_datetime : list T -> option (list stamp).
Hypothesis to_datetime_length : forall l st, to_datetime l = Some st -> length st = length l.
Variable majority : list Qc -> Qc.
Variable beyond : list (point T) -> settings -> res (reply T).

Lemma labels_spec : forall (rows : list (point T)) i t, nth_error (labels T rows) i = Some t -> labelled rows i t.
Proof.
  intros rows i t H. unfold labels in H. destruct (times T rows) as [ts|] eqn:E.
  - left. apply times_spec in E. rewrite nth_error_map in H. destruct (nth_error ts i) as [s|] eqn:Es; [|discriminate]. inversion H; subst t.
    assert (K : exists x, nth_error rows i = Some x /\ w_time x = Some s).
    { clear H. revert i Es. induction E as [|x y rows ts X E IH]; intros [|i] Es; simpl in *; try discriminate.
      - inversion Es; subst. eauto.
      - apply IH; auto. }
    destruct K as (x & K1 & K2). exists x, s. split; auto. split; auto. split; auto.
    intros y I. destruct (F2_in_l _ _ _ _ _ _ E I) as (s' & _ & X). congruence.
  - right. rewrite nth_error_map in H. destruct (nth_error (List.seq 0 (length rows)) i) as [n|] eqn:En; [|discriminate]. inversion H; subst t.
    assert (L : i < length rows). { rewrite <- (seq_length (length rows) 0). apply nth_error_Some. congruence. }
    rewrite (nth_error_nth' _ 0) in En by (rewrite seq_length; auto). rewrite seq_nth in En by auto. inversion En; subst n. split; auto. split; auto.
    clear - E. induction rows as [|x rows IH]; simpl in E; [discriminate|]. destruct (w_time x) as [s|] eqn:Ex.
    + destruct (times T rows); [discriminate|]. destruct IH as (y & I & N); auto. exists y. simpl. auto.
    + exists x. simpl. auto.
Qed.

Lemma predict_accepted : forall o rows d mode, rows <> [] -> decides parameter_rules d None -> (forall s, reads d s -> micro_ok s) ->
  (forall s, reads d s -> good_series to_datetime (s_gran s) (s_interval s) (s_period s) (nofill_of d) rows) ->
  (forall dd, ~ given "detector" d (VDict dd)) -> o__error o = None -> mode_for o d = Some mode ->
  exists s l vs, reads d s /\ (0 <= s_sensitivity s <= 100)%Z /\ accepted_indices to_datetime (s_gran s) (s_interval s) rows l /\
    12 <= length rows /\ Forall2 (fun x v => w_value x = Num (Fin v)) rows vs /\
    forall detect, fst (fst (predict T to_datetime majority detect beyond o (DFrame rows) (Some d))) =
      do f <- make_fup (Some l) (map Some vs) default_maxlen;
      do r <- detect (mkArgs vs f (fst (s_fill s)) (snd (s_fill s)) (s_ratio s) (s_alpha s) (s_threshold s)
                       (negb (s_v1 s)) (majority vs) (s_gran s) (option_map Z.to_nat (s_interval s)))
                     (mkDet None None) (s_period s) (match mode with VMode LATEST => true | _ => false end);
      let '(out, p, m, _) := r in
      let ts := labels T rows in
      if negb (length ts =? length out) then Err ValueErr else
      match mode with
      | VMode ENTIRE =>
          do os <- get_margins_entire (s_v1 s) (is_sr m) out (qz (s_sensitivity s));
          Ok (AEntire _ (zip_pair ts os) p)
      | _ =>
          do o <- get_margins_last (s_v1 s) (is_sr m) out (qz (s_sensitivity s));
          do t <- last_opt ts;
          Ok (ALatest _ t o p (suggested_window (s_gran s) p))
      end.
Proof.
  intros o rows d mode NE H M G ND HE HM. destruct (params_accepted d H) as (s & e & E & R & B).
  pose proof (proj2 (series_ok_iff to_datetime to_datetime_length (s_gran s) (s_interval s) (s_period s) (nofill_of d) rows (M s R)) (G s R)) as D0.
  destruct (predict_past to_datetime to_datetime_length majority (fun _ _ _ _ => Err Generic) beyond o rows d s e NE E (M s R)) as (v & d' & EV & D & L & A & _ & _).
  pose proof (decides_fun _ _ _ _ _ _ D0 D) as <-. destruct (A (or_introl eq_refl)) as (l & ns & EN & EI & AI & L12 & F).
  destruct (numbers_finite rows ns EN F) as (vs & EF & FV).
  exists s, l, vs. split; auto. split; auto. split; auto. split; auto. split; auto. intros detect.
  destruct (predict_past to_datetime to_datetime_length majority detect beyond o rows d s e NE E (M s R)) as (v2 & d2 & EV2 & _ & _ & _ & _ & EP).
  rewrite EV in EV2. inversion EV2; subst v2 d2. rewrite EP, EI, HM, HE. cbn zeta. cbn [fst snd]. unfold answer_request. rewrite EN, bind_ok, EF, (reads_no_detector d s R ND).
  unfold make_model. destruct (make_fup (Some l) (map Some vs) default_maxlen) as [f|x]; reflexivity.
Qed.
End Predict.
