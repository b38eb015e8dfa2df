(** The histogram detector: frames, masks, answers. *)
From Coq Require Import List Arith ZArith QArith Qcanon Lia Bool.
From Verif Require Import Base Num Helpers_model Helpers_spec Helpers_proofs Detect_proofs Expect_proofs Hbos_model Hbos_spec.
Import ListNotations.
Open Scope nat_scope.

Lemma zip_nth_inv : forall A B C (f : A -> B -> C) a b k z, nth_error (zip_with f a b) k = Some z ->
  exists x y, nth_error a k = Some x /\ nth_error b k = Some y /\ z = f x y.
Proof.
  induction a as [|x a IH]; intros [|y b] [|k] z H; try discriminate; cbn in *.
  - injection H as <-. eauto.
  - apply IH. auto.
Qed.
Lemma rows_of_length : forall any series expected trend score mask, length expected = length series -> length mask = length series ->
  length (rows_of any series expected trend score mask) = length series.
Proof.
  intros any. induction series as [|v series IH]; intros [|e expected] trend score [|a mask] E M; try discriminate; cbn in *; auto.
Qed.
Lemma nth_tl : forall A (l : list A) i, nth_error (tl l) i = nth_error l (S i).
Proof. intros A [|x l] i; auto. destruct i; auto. Qed.
Lemma rows_of_nth : forall any series expected trend score mask i r, nth_error (rows_of any series expected trend score mask) i = Some r ->
  exists a, nth_error series i = Some (h_value r) /\ nth_error expected i = Some (h_expected r) /\ nth_error mask i = Some a /\ h_anomaly r = a /\
    h_trend r = match trend with Some t => nth_error t i | None => None end /\ h_score r = match score with Some t => nth_error t i | None => None end /\
    h_dir r = if any then Some (modify_anomaly_status a (h_expected r) (h_value r)) else None.
Proof.
  intros any. induction series as [|v series IH]; intros [|e expected] trend score [|a mask] [|i] r H; try discriminate; cbn [rows_of nth_error] in H.
  - injection H as <-. exists a. destruct trend as [[|? ?]|], score as [[|? ?]|]; cbn; repeat split; auto.
  - destruct (IH _ _ _ _ _ _ H) as (b & H1 & H2 & H3 & H4 & H5 & H6 & H7). exists b. cbn [nth_error]. repeat split; auto.
    + rewrite H5. destruct trend as [t|]; auto. apply nth_tl.
    + rewrite H6. destruct score as [t|]; auto. apply nth_tl.
Qed.

Lemma mask_exceeds : forall threshold scores i, nth_error (map (fun s => (threshold <? s)%Qc) scores) i = Some true <-> exceeds threshold scores i.
Proof.
  intros threshold scores i. unfold exceeds. rewrite nth_error_map. destruct (nth_error scores i) as [s|]; cbn.
  - split.
    + intros H. injection H as H. exists s. split; auto. apply Qcltb_lt. auto.
    + intros (x & X & L). injection X as <-. f_equal. apply Qcltb_lt. auto.
  - split; [discriminate|]. intros (x & X & _). discriminate.
Qed.
Lemma any_exceeds : forall threshold scores, existsb (fun b : bool => b) (map (fun s => (threshold <? s)%Qc) scores) = true <-> exists j, exceeds threshold scores j.
Proof.
  intros threshold scores. rewrite existsb_exists. split.
  - intros (b & I & ->). apply In_nth_error in I. destruct I as (j & J). exists j. apply mask_exceeds. auto.
  - intros (j & J). apply mask_exceeds in J. exists true. split; auto. eapply nth_error_In; eauto.
Qed.
Lemma count_le : forall mask, count mask <= length mask.
Proof. intros mask. unfold count. induction mask as [|[] mask IH]; cbn; lia. Qed.
Lemma count_all : forall mask, count mask = length mask <-> forall i, i < length mask -> nth_error mask i = Some true.
Proof.
  intros mask. unfold count. induction mask as [|b mask IH]; cbn.
  - split; auto. intros _ i H. lia.
  - split.
    + destruct b; cbn; intros H.
      * injection H as H. intros [|i] L; auto. cbn. apply IH; auto. lia.
      * pose proof (count_le mask) as C. unfold count in C. lia.
    + intros H. pose proof (H 0 ltac:(lia)) as H0. cbn in H0. injection H0 as ->. cbn. f_equal. apply IH. intros i L. apply (H (S i)). lia.
Qed.

(** The frame meets the specification. *)
Lemma rows_reported : forall series scores threshold expected trend score,
  length expected = length series -> length scores = length series ->
  let mask := map (fun s => (threshold <? s)%Qc) scores in
  reported_rows series scores threshold (fun i e => nth_error expected i = Some e)
    (rows_of (existsb (fun b : bool => b) mask) series expected trend score mask).
Proof.
  intros series scores threshold expected trend score LE LS mask.
  split; [apply rows_of_length; auto; unfold mask; rewrite map_length; auto|]. split; auto.
  intros i r H. destruct (rows_of_nth _ _ _ _ _ _ _ _ H) as (a & H1 & H2 & H3 & H4 & _ & _ & H7).
  split; auto. split; auto. split.
  - rewrite H4, <- mask_exceeds. fold mask. rewrite H3. split; [intros ->; auto|]. intros X. injection X as ->. auto.
  - rewrite H7, H4. destruct (existsb (fun b : bool => b) mask) eqn:E.
    + unfold modify_anomaly_status. destruct a; cbn [negb].
      * destruct (h_value r <? h_expected r)%Qc eqn:EQ.
        -- apply Qcltb_lt in EQ. split; [apply any_exceeds; auto|]. split; split; try discriminate; auto. intros [_ L]. exfalso. qlra.
        -- apply Qcltb_ge in EQ. split; [apply any_exceeds; auto|]. split; split; try discriminate; auto. intros [_ L]. exfalso. qlra.
      * split; [apply any_exceeds; auto|]. split; split; try discriminate; intros [X _]; discriminate.
    + intros j J. assert (X : existsb (fun b : bool => b) mask = true) by (apply any_exceeds; eauto). congruence.
Qed.
Lemma mask_without : forall threshold scores trend, length scores = length trend ->
  without_reported threshold scores trend (mask_nan (map (fun s => (threshold <? s)%Qc) scores) trend).
Proof.
  intros threshold scores trend L. split; [unfold mask_nan; rewrite zip_with_length, map_length; lia|].
  intros i. split.
  - intros X x Hx. apply mask_exceeds in X. unfold mask_nan in Hx. destruct (zip_nth_inv _ _ _ _ _ _ _ _ Hx) as (b & t & B & _ & ->). rewrite X in B. injection B as <-. auto.
  - intros X. destruct (nth_error trend i) as [t|] eqn:E; cbn.
    + assert (Li : i < length trend) by (apply nth_error_Some; congruence).
      destruct (nth_error (map (fun s => (threshold <? s)%Qc) scores) i) as [b|] eqn:B.
      2:{ apply nth_error_None in B. rewrite map_length in B. lia. }
      destruct b; [exfalso; apply X, mask_exceeds; auto|].
      unfold mask_nan. erewrite Helpers_proofs.zip_with_nth; eauto. reflexivity.
    + apply nth_error_None in E. apply nth_error_None. unfold mask_nan. rewrite zip_with_length. lia.
Qed.
