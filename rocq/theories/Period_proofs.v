(** Proofs about the correlogram search. *)
From Coq Require Import String List Arith ZArith QArith Qcanon Lia Bool Sorted.
From Verif Require Import Base Num Kernel_model Helpers_model Detect_model Period_model Period_spec.
Import ListNotations.
Open Scope nat_scope.

Lemma argmax_from_spec : forall l (full : list (option Qc)) i besti b,
  (forall k x, nth_error l k = x -> nth_error full (i + k) = x) ->
  besti < i -> nth_error full besti = Some b ->
  (match b with
   | None => forall k, k < besti -> exists x, nth_error full k = Some (Some x)
   | Some v => (forall k, k < i -> exists x, nth_error full k = Some (Some x) /\ (x <= v)%Qc) /\
               (forall k x, k < besti -> nth_error full k = Some (Some x) -> (x < v)%Qc)
   end) ->
  let m := argmax_from i besti b l in
  exists w, nth_error full m = Some w /\
  match w with
  | None => forall k, k < m -> exists x, nth_error full k = Some (Some x)
  | Some v => (forall k, k < length full -> exists x, nth_error full k = Some (Some x) /\ (x <= v)%Qc) /\
              (forall k x, k < m -> nth_error full k = Some (Some x) -> (x < v)%Qc)
  end.
Proof.
  induction l as [|h t IH]; intros full i besti b HF HB HN HI.
  - destruct b as [v|]; cbn [argmax_from].
    + exists (Some v). split; auto. destruct HI as [H1 H2]. split; auto.
      intros k Lk. apply H1. assert (~ i <= k); [|lia]. intro L.
      assert (E0 : nth_error (@nil (option Qc)) 0 = None) by reflexivity.
      specialize (HF 0 None E0). apply nth_error_None in HF. lia.
    + exists None. auto.
  - destruct b as [v|]; [|exists None; cbn; auto].
    assert (HT : forall k x, nth_error t k = x -> nth_error full (S i + k) = x).
    { intros k x E. rewrite <- (HF (S k) x E). f_equal. lia. }
    assert (H0 : nth_error full i = Some h).
    { rewrite <- (HF 0 (Some h) eq_refl). f_equal. lia. }
    destruct HI as [H1 H2]. destruct h as [x|]; cbn [argmax_from].
    + destruct (v <? x)%Qc eqn:E.
      * apply Qcltb_lt in E. apply (IH full (S i) i (Some x)); auto.
        split.
        -- intros k Lk. destruct (Nat.eq_dec k i) as [->|N].
           ++ exists x. split; auto. qlra.
           ++ destruct (H1 k ltac:(lia)) as (y & Ey & Ly). exists y. split; auto. qlra.
        -- intros k y Lk Ey. destruct (H1 k Lk) as (z & Ez & Lz). rewrite Ez in Ey. inversion Ey; subst. qlra.
      * apply Qcltb_ge in E. apply (IH full (S i) besti (Some v)); auto.
        split; auto. intros k Lk. destruct (Nat.eq_dec k i) as [->|N].
        -- exists x. split; auto.
        -- apply H1. lia.
    + exists None. split; auto. intros k Lk. destruct (H1 k Lk) as (y & Ey & _). eauto.
Qed.

Lemma argmax_spec : forall l, l <> [] -> exists i w, argmax l = Ok i /\ nth_error l i = Some w /\
  match w with
  | None => forall k, k < i -> exists x, nth_error l k = Some (Some x)
  | Some v => (forall k, k < length l -> exists x, nth_error l k = Some (Some x) /\ (x <= v)%Qc) /\
              (forall k x, k < i -> nth_error l k = Some (Some x) -> (x < v)%Qc)
  end.
Proof.
  intros [|h t] H; [congruence|].
  destruct (argmax_from_spec t (h :: t) 1 0 h) as (w & E & S).
  - intros k x E. auto.
  - lia.
  - reflexivity.
  - destruct h as [v|].
    + split.
      * intros k Lk. assert (k = 0) by lia. subst. exists v. split; auto. qlra.
      * intros k x Lk. lia.
    + intros k Lk. lia.
  - exists (argmax_from 1 0 h t), w. split; [reflexivity|]. auto.
Qed.

(** The array after the lags [V] were set to zero. *)
Definition mem (i : nat) (V : list nat) : bool := existsb (Nat.eqb i) V.
Lemma mem_in : forall i V, mem i V = true <-> In i V.
Proof.
  intros. unfold mem. rewrite existsb_exists. split.
  - intros (x & I & E). apply Nat.eqb_eq in E. subst. auto.
  - intros I. exists i. rewrite Nat.eqb_refl. auto.
Qed.
Lemma mem_false : forall i V, mem i V = false <-> ~ In i V.
Proof. intros. rewrite <- mem_in. destruct (mem i V); split; intro; congruence. Qed.

Definition zeroed (ac : list (option Qc)) (V : list nat) : list (option Qc) :=
  mapi (fun i x => if mem i V then Some 0%Qc else x) ac.
Lemma zeroed_length : forall ac V, length (zeroed ac V) = length ac.
Proof. intros. apply mapi_length. Qed.
Lemma zeroed_nth : forall ac V i, nth_error (zeroed ac V) i =
  option_map (fun x => if mem i V then Some 0%Qc else x) (nth_error ac i).
Proof. intros. unfold zeroed. rewrite nth_error_mapi. reflexivity. Qed.
Lemma zeroed_upd : forall ac V i, upd (zeroed ac V) i (Some 0%Qc) = zeroed ac (V ++ [i]).
Proof.
  intros. apply nth_error_ext. intros k. rewrite nth_error_upd, !zeroed_nth, zeroed_length.
  assert (M : mem k (V ++ [i]) = mem k V || (k =? i)).
  { unfold mem. rewrite existsb_app. cbn. rewrite orb_false_r. reflexivity. }
  rewrite M. destruct (k =? i) eqn:E.
  - apply Nat.eqb_eq in E. subst. destruct (i <? length ac) eqn:L.
    + apply Nat.ltb_lt in L. destruct (nth_error_ex _ ac i L) as (x & Ex). rewrite Ex. cbn.
      rewrite orb_true_r. reflexivity.
    + apply Nat.ltb_ge in L. rewrite nth_error_ge_none by auto. reflexivity.
  - rewrite orb_false_r. reflexivity.
Qed.

Lemma nodup_below : forall n (V : list nat), NoDup V -> (forall i, In i V -> i < n) -> length V <= n.
Proof.
  intros n V ND HV. rewrite <- (seq_length n 0). apply NoDup_incl_length; auto.
  intros i Hi. apply in_seq. specialize (HV i Hi). lia.
Qed.

Lemma nodup_snoc : forall (V : list nat) i, NoDup V -> ~ In i V -> NoDup (V ++ [i]).
Proof.
  induction V as [|h t IH]; intros i ND NI; cbn.
  - constructor; [intros []|constructor].
  - inversion ND; subst. constructor.
    + rewrite in_app_iff. cbn. intros [X|[X|[]]]; [auto|]. subst. apply NI. left; auto.
    + apply IH; auto. intro X. apply NI. right; auto.
Qed.

Section Loop.
Variables (ac upper : list (option Qc)) (mn mx : nat) (thresh : Qc).
Hypothesis HA : ac <> [].
Hypothesis HU : length upper = length ac.
Hypothesis HT : (0 < thresh)%Qc.

Definition clear (i : nat) : Prop :=
  exists a c, nth_error ac i = Some a /\ nth_error upper i = Some c /\ clear_peak thresh a c.

Record inv (V : list nat) : Prop := mkInv {
  inv_nodup : NoDup V;
  inv_range : forall i, In i V -> i < length ac;
  inv_clear : forall i, In i V -> clear i;
  inv_sorted : StronglySorted (searched_before ac) V;
  inv_rest : forall i j, In i V -> ~ In j V -> j < length ac -> searched_before ac i j }.

Definition in_range (i : nat) : bool := (mn <? i + 1) && (i + 1 <? mx).
Definition lags (V : list nat) : list nat := map (fun i => i + 1) (filter in_range V).

Lemma lags_snoc : forall V i, lags (V ++ [i]) = if in_range i then lags V ++ [i + 1] else lags V.
Proof.
  intros. unfold lags. rewrite filter_app, map_app. cbn. destruct (in_range i); cbn; auto.
  apply app_nil_r.
Qed.

Lemma strongly_snoc : forall (P : nat -> nat -> Prop) V i, StronglySorted P V -> (forall j, In j V -> P j i) ->
  StronglySorted P (V ++ [i]).
Proof.
  intros P V i HS HF. induction V as [|h t IH]; cbn.
  - constructor; constructor.
  - inversion HS; subst. constructor.
    + apply IH; auto. intros j Hj. apply HF. right; auto.
    + apply Forall_app. split; auto. constructor; auto. apply HF. left; auto.
Qed.

Lemma correlogram_loop_spec : forall fuel V, inv V -> fuel + length V = S (length ac) ->
  exists W, correlogram_loop fuel (zeroed ac V) upper mn mx thresh (lags V) = Ok (lags W) /\ inv W /\
    (forall i, i < length ac -> ~ In i W -> exists j a x, nth_error ac i = Some (Some a) /\
       nth_error ac j = Some (Some x) /\ (a <= x)%Qc /\ ~ clear j).
Proof.
  induction fuel as [|fuel IH]; intros V I HL.
  - pose proof (nodup_below _ V (inv_nodup V I) (inv_range V I)). lia.
  - cbn [correlogram_loop].
    assert (NE : zeroed ac V <> []).
    { intro E. apply (f_equal (@length _)) in E. rewrite zeroed_length in E. destruct ac; [congruence|discriminate]. }
    destruct (argmax_spec _ NE) as (i & w & EA & EN & SP). rewrite EA, bind_ok.
    unfold get at 1. rewrite EN, bind_ok.
    assert (Li : i < length ac). { apply nth_error_lt in EN. rewrite zeroed_length in EN. auto. }
    destruct (nth_error_ex _ upper i ltac:(lia)) as (c & EC). unfold get at 1. rewrite EC, bind_ok.
    cbv zeta. pose proof EN as EN'. rewrite zeroed_nth in EN'.
    destruct (nth_error ac i) as [a|] eqn:EI; [|discriminate]. cbn [option_map] in EN'.
    destruct (nan_lt w (nan_sub c w) || nan_lt w (Some thresh)) eqn:ST.
    + (* stop *)
      exists V. split; [reflexivity|]. split; auto. intros k Lk NK.
      destruct w as [x|]; [|destruct c; discriminate]. destruct SP as [SP _].
      destruct (SP k ltac:(rewrite zeroed_length; auto)) as (y & Ey & Ly).
      rewrite zeroed_nth in Ey. destruct (nth_error ac k) as [ak|] eqn:EK; [|discriminate].
      cbn [option_map] in Ey. rewrite (proj2 (mem_false k V) NK) in Ey. inversion Ey; subst ak.
      destruct (mem i V) eqn:MI.
      * (* a zeroed entry is the maximum *)
        inversion EN'. subst x. exists k, y, y. split; auto. split; auto. split; [qlra|].
        intros (a' & c' & A1 & A2 & A3). rewrite EK in A1. inversion A1; subst. destruct A3 as [A3 _]. qlra.
      * inversion EN'; subst a. exists i, y, x. split; auto. split; auto. split; auto.
        intros (a' & c' & A1 & A2 & A3). rewrite EI in A1. rewrite EC in A2. inversion A1; inversion A2; subst a' c'.
        destruct A3 as [A3 A4]. apply orb_prop in ST. destruct ST as [ST|ST].
        -- destruct c as [u|]; [|discriminate]. cbn in ST. apply Qcltb_lt in ST. qlra.
        -- cbn in ST. apply Qcltb_lt in ST. qlra.
    + apply orb_false_elim in ST. destruct ST as [S1 S2].
      assert (MI : mem i V = false).
      { destruct (mem i V) eqn:M; auto. inversion EN'; subst w. cbn in S2. apply Qcltb_ge in S2. qlra. }
      rewrite MI in EN'. inversion EN'; subst a. pose proof (proj1 (mem_false i V) MI) as NI.
      assert (CL : clear i).
      { exists w, c. split; auto. split; auto. destruct w as [x|]; [|exact Logic.I]. cbn in S2. apply Qcltb_ge in S2.
        split; auto. destruct c as [u|]; [|exact Logic.I]. cbn in S1. apply Qcltb_ge in S1. auto. }
      rewrite zeroed_upd.
      replace (if (mn <? i + 1) && (i + 1 <? mx) then lags V ++ [i + 1] else lags V) with (lags (V ++ [i]))
        by (rewrite lags_snoc; reflexivity).
      apply IH.
      * constructor.
        -- apply nodup_snoc; auto. apply (inv_nodup V I).
        -- intros j Hj. apply in_app_or in Hj. destruct Hj as [Hj|[<-|[]]]; auto. apply (inv_range V I); auto.
        -- intros j Hj. apply in_app_or in Hj. destruct Hj as [Hj|[<-|[]]]; auto. apply (inv_clear V I); auto.
        -- apply strongly_snoc; [apply (inv_sorted V I)|]. intros j Hj. apply (inv_rest V I); auto.
        -- intros j k Hj NK Lk. rewrite in_app_iff in NK. cbn in NK.
           apply in_app_or in Hj. destruct Hj as [Hj|[<-|[]]]; [apply (inv_rest V I); tauto|].
           destruct (nth_error_ex _ ac k Lk) as (ak & EK). unfold searched_before. rewrite EI, EK.
           assert (EZ : nth_error (zeroed ac V) k = Some ak).
           { rewrite zeroed_nth, EK. cbn. rewrite (proj2 (mem_false k V)) by tauto. auto. }
           destruct w as [x|].
           ++ destruct SP as [SP1 SP2]. destruct (SP1 k ltac:(rewrite zeroed_length; auto)) as (y & Ey & Ly).
              rewrite EZ in Ey. inversion Ey; subst ak.
              destruct (Qclt_le_dec' y x) as [L|L]; [left; auto|]. right.
              assert (y = x) by qlra. split; auto. subst y.
              destruct (Nat.lt_ge_cases i k) as [|G]; auto.
              assert (k < i) by (destruct (Nat.eq_dec k i); [subst; tauto|lia]).
              specialize (SP2 k x ltac:(auto) EZ). qlra.
           ++ destruct ak as [y|]; auto. destruct (Nat.lt_ge_cases i k) as [|G]; auto.
              assert (K : k < i) by (destruct (Nat.eq_dec k i); [subst; tauto|lia]).
              destruct (SP k K) as (z & Ez). congruence.
      * rewrite app_length. cbn. lia.
Qed.
End Loop.
