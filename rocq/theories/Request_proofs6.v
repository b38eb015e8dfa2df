(** The series that pass every check. *)
From Coq Require Import String Ascii List Arith ZArith QArith Qcanon Bool Lia.
From Verif Require Import Base Num FillUp_model Helpers_model Margins_model SR_model Detect_model Dates_model
  Request_model Request_spec Request_proofs Request_proofs2 Request_proofs3.
Import ListNotations.
Open Scope string_scope.
Open Scope nat_scope.

Section Good.
Context {T : Type}.
Variable to_datetime : list T -> option (list stamp).
Hypothesis to_datetime_length : forall l st, to_datetime l = Some st -> length st = length l.

Lemma decides_cons_none : forall V A (v : V) (P : A -> Prop) t x, decides ((v, P) :: t) x None -> ~ P x /\ decides t x None.
Proof. intros V A v P t x H. inversion H; subst. auto. Qed.

Lemma series_ok_iff : forall g custom period nofill (rows : list (point T)),
  (g = Microsecond -> (match custom with None => 1 | Some c => c end <= 4006)%Z) ->
  decides (series_rules to_datetime g custom period nofill) rows None <-> good_series to_datetime g custom period nofill rows.
Proof.
  intros g custom period nofill rows M. unfold series_rules, good_series. split.
  - intros H.
    apply decides_cons_none in H. destruct H as [H1 H]. apply decides_cons_none in H. destruct H as [H2 H].
    apply decides_cons_none in H. destruct H as [H3 H]. apply decides_cons_none in H. destruct H as [H4 H].
    apply decides_cons_none in H. destruct H as [H5 H]. apply decides_cons_none in H. destruct H as [H6 H].
    apply decides_cons_none in H. destruct H as [H7 H]. apply decides_cons_none in H. destruct H as [H8 H].
    apply decides_cons_none in H. destruct H as [H9 _].
    split; [lia|]. split; [lia|]. split.
    + intros x I. destruct (w_value x) as [|e|n] eqn:E.
      * exfalso. apply H3. left. exists x. split; auto. intros [n N]. congruence.
      * exfalso. apply H3. left. exists x. split; auto. intros [n N]. congruence.
      * destruct n as [q| | |].
        -- exists q. split; auto. split; apply Qcnot_lt_le; intros L; apply H4; exists x, (Fin q); split; auto; split; auto; right; right; exists q; auto.
        -- exfalso. apply H5. eauto.
        -- exfalso. apply H4. exists x, PInf. unfold too_large. auto.
        -- exfalso. apply H4. exists x, NInf. unfold too_large. auto.
    + intros NG. destruct (match times _ rows with Some l => to_datetime l | None => None end) as [st|] eqn:ET.
      2:{ exfalso. apply H3. right. split; auto. intros [st R]. apply (read_times_spec to_datetime) in R. congruence. }
      apply read_times_spec in ET. pose proof (read_times_length to_datetime to_datetime_length rows st ET) as L.
      destruct (ascending_spec st) as (A1 & A2 & A3 & A4).
      destruct (indices_shape g custom st) as [(l & EI & LI)|(i & EI)]; auto.
      { intros ->. simpl in L. lia. }
      2:{ exfalso. apply H8. split; auto. exists st, i. auto. }
      exists st, l. split; auto. split.
      { apply A3. destruct A4 as [A|[A|A]]; auto; exfalso.
        - apply H6. split; auto. exists st. split; auto. apply A1; auto.
        - apply H7. split; auto. exists st. split; auto. apply A2; auto. }
      split; auto. intros p ->. split.
      * intros z Hz. apply Z.nlt_ge. intros LT. apply H9. split; auto. exists st, l, z, p. repeat split; auto. left. lia.
      * intros HN. assert (Y : exists z, nth_error l (length l - 1) = Some z).
        { destruct (nth_error l (length l - 1)) eqn:E; eauto. apply nth_error_None in E. lia. }
        destruct Y as [z Hz]. apply Z.nle_gt. intros LT. apply H9. split; auto. exists st, l, z, p. repeat split; auto. right. split; auto. lia.
  - intros (G1 & G2 & G3 & G4).
    assert (U : g <> GNone -> forall st', read_times to_datetime rows st' ->
      (forall i a b, nth_error st' i = Some a -> nth_error st' (S i) = Some b -> before a b) /\
      exists l, get_indices_from_timestamps g custom st' = Ok (Some l, None) /\
      forall p, period = Some p ->
       (forall z, nth_error l (length l - 1) = Some z -> (2 * Z.of_nat p <= z)%Z) /\
       (nofill = true -> (2 * Z.of_nat p < Z.of_nat (length rows))%Z)).
    { intros NG st' R'. destruct (G4 NG) as (st & l & R & A & I & P). rewrite (read_times_fun to_datetime rows st' st R' R). split; auto. exists l. auto. }
    apply decides_skip; [lia|]. apply decides_skip; [lia|]. apply decides_skip.
    { intros [(x & I & N)|(NG & N)].
      - destruct (G3 x I) as (q & E & _). apply N. exists (Fin q). auto.
      - destruct (G4 NG) as (st & l & R & _). apply N. eauto. }
    apply decides_skip.
    { intros (x & n & I & E & TL). destruct (G3 x I) as (q & E' & B1 & B2). rewrite E in E'. inversion E'; subst n.
      destruct TL as [X|[X|(q' & X & [Y|Y])]]; inversion X; subst q'.
      - apply (Qclt_not_le _ _ Y). auto.
      - apply (Qclt_not_le _ _ Y). auto. }
    apply decides_skip.
    { intros (x & I & E). destruct (G3 x I) as (q & E' & _). congruence. }
    apply decides_skip.
    { intros (NG & st & R & F). destruct (U NG st R) as (A & _). destruct (ascending_spec st) as (A1 & _ & A3 & _).
      apply A1 in F. apply A3 in A. rewrite F in A. discriminate. }
    apply decides_skip.
    { intros (NG & st & R & F). destruct (U NG st R) as (A & _). destruct (ascending_spec st) as (_ & A2 & A3 & _).
      apply A2 in F. apply A3 in A. rewrite F in A. discriminate. }
    apply decides_skip.
    { intros (NG & st & i & R & E). destruct (U NG st R) as (_ & l & I & _). rewrite E in I. discriminate. }
    apply decides_skip; [|constructor].
    intros (NG & st & l & z & p & R & E & Hz & HP & D). destruct (U NG st R) as (_ & l' & I & P). rewrite E in I. inversion I; subst l'.
    destruct (P p HP) as [P1 P2]. specialize (P1 z Hz). destruct D as [D|[D1 D2]]; [lia|]. specialize (P2 D1). lia.
Qed.

(** The indices of a good series are those of a filling process that accepts
    them: numbered from 0 when no granularity is given. *)
Lemma numbers_finite : forall (rows : list (point T)) ns, numbers _ rows = Ok ns -> Forall (fun n => exists q, n = Fin q) ns ->
  exists vs, finite ns = Some vs /\ Forall2 (fun x v => w_value x = Num (Fin v)) rows vs.
Proof.
  intros rows ns H F. apply numbers_ok in H. induction H as [|x n rows ns E H IH]; [exists []; split; [reflexivity|constructor]|].
  inversion F as [|? ? [q ->] F']; subst. destruct (IH F') as (vs & E2 & H2). exists (q :: vs). simpl. rewrite E2. split; auto.
Qed.
End Good.
