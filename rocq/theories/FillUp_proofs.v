From Coq Require Import List Arith ZArith Lia Bool Sorted.
From Verif Require Import Base Num Sorting FillUp_model FillUp_spec.
Import ListNotations.
Open Scope nat_scope.

(** * Constructor *)
Lemma get_values_ok : forall vs l, get_values vs = Ok l <-> vs = map Some l.
Proof.
  induction vs as [|[v|] t IH]; intros l; simpl.
  - split; intros H. { inversion H; auto. } destruct l; [auto|discriminate].
  - unfold bind. destruct (get_values t) as [r|e] eqn:E.
    + split; intros H.
      * inversion H; subst; simpl. f_equal. apply IH; auto.
      * destruct l as [|a l]; simpl in H; inversion H; subst.
        pose proof (proj2 (IH l) eq_refl) as Q. inversion Q; auto.
    + split; intros H; [discriminate|].
      destruct l as [|a l]; simpl in H; inversion H; subst.
      pose proof (proj2 (IH l) eq_refl) as Q. inversion Q; auto.
  - split; intros H; [discriminate|]. destruct l; discriminate.
Qed.

Lemma get_values_err : forall vs e, get_values vs = Err e -> e = ValueErr /\ In None vs.
Proof.
  induction vs as [|[v|] t IH]; intros e; simpl; try discriminate.
  - unfold bind. destruct (get_values t) eqn:E; [discriminate|].
    intros H; inversion H; subst. destruct (IH e eq_refl); auto.
  - intros H; inversion H; auto.
Qed.

Lemma scan_ok : forall rest prev found cnt fd c,
  scan prev rest found cnt = Ok (fd, c) ->
  StronglySorted Z.lt (prev :: rest) /\
  (c = cnt + (last (prev :: rest) 0 - prev) - Z.of_nat (length rest))%Z /\
  (cnt <= c)%Z /\ (fd = true <-> (found = true \/ cnt < c)%Z).
Proof.
  induction rest as [|x t IH]; intros prev found cnt fd c H.
  - inversion H; subst; simpl. split; [repeat constructor|].
    repeat split; try lia; intros; [auto|]. destruct H0; auto; lia.
  - simpl scan in H. destruct (x <=? prev)%Z eqn:E1; [discriminate|].
    apply Z.leb_gt in E1.
    assert (ST : StronglySorted Z.lt (x :: t) -> StronglySorted Z.lt (prev :: x :: t)).
    { intros S. constructor; auto. inversion S; subst. constructor; [lia|].
      rewrite Forall_forall in *. intros y Hy. specialize (H3 y Hy). lia. }
    destruct (x >? prev + 1)%Z eqn:E2; rewrite Z.gtb_ltb in E2.
    + apply Z.ltb_lt in E2. apply IH in H. destruct H as (S & C & L & F).
      split; [auto|]. simpl length. simpl last in C |- *.
      split; [destruct t; lia|]. split; [lia|]. rewrite F. split; intros; [right; lia|]. left; auto.
    + apply Z.ltb_ge in E2. apply IH in H. destruct H as (S & C & L & F).
      split; [auto|]. simpl length. simpl last in C |- *.
      split; [destruct t; lia|]. split; [lia|]. auto.
Qed.

Lemma scan_sorted_ok : forall rest prev found cnt,
  StronglySorted Z.lt (prev :: rest) -> exists r, scan prev rest found cnt = Ok r.
Proof.
  induction rest as [|x t IH]; intros prev found cnt S; simpl; eauto.
  inversion S as [|? ? S' F]; subst. inversion F; subst.
  destruct (x <=? prev)%Z eqn:E; [apply Z.leb_le in E; lia|].
  destruct (x >? prev + 1)%Z; apply IH; auto.
Qed.

Lemma scan_err : forall rest prev found cnt e, scan prev rest found cnt = Err e -> e = ValueErr.
Proof.
  induction rest as [|x t IH]; intros prev found cnt e; simpl; try discriminate.
  destruct (x <=? prev)%Z. { congruence. }
  destruct (x >? prev + 1)%Z; apply IH.
Qed.

(** * Facts on strictly increasing nat lists *)
Notation incr := (StronglySorted lt).

Lemma incr_last_ge : forall l x d, incr l -> In x l -> x <= last l d.
Proof.
  induction l as [|a t IH]; intros x d S I; [destruct I|].
  inversion S as [|? ? S' F]; subst. destruct t as [|b t'].
  - destruct I as [->|[]]; simpl; auto.
  - change (last (a :: b :: t') d) with (last (b :: t') d). destruct I as [->|I]; [|auto].
    assert (x < b) by (inversion F; auto).
    pose proof (IH b d S' (or_introl eq_refl)). lia.
Qed.

Lemma last_In : forall A (l : list A) d, l <> [] -> In (last l d) l.
Proof.
  induction l as [|a t IH]; intros d H; [congruence|].
  destruct t as [|b t']; [left; auto|]. right. apply IH. discriminate.
Qed.

Lemma incr_nth : forall l i j x y, incr l -> i < j ->
  nth_error l i = Some x -> nth_error l j = Some y -> x < y.
Proof.
  induction l as [|a t IH]; intros i j x y S L Hi Hj.
  - destruct i; discriminate.
  - inversion S as [|? ? S' F]; subst. destruct i as [|i]; destruct j as [|j]; simpl in *; try lia.
    + inversion Hi; subst. rewrite Forall_forall in F. apply F. eapply nth_error_In; eauto.
    + apply (IH i j x y); auto. lia.
Qed.

Lemma incr_nth_inj : forall l i j x, incr l ->
  nth_error l i = Some x -> nth_error l j = Some x -> i = j.
Proof.
  intros l i j x S Hi Hj. destruct (Nat.lt_trichotomy i j) as [L|[E|L]]; auto.
  - pose proof (incr_nth l i j x x S L Hi Hj). lia.
  - pose proof (incr_nth l j i x x S L Hj Hi). lia.
Qed.

Lemma incr_nth_le : forall l i j x y, incr l -> i <= j ->
  nth_error l i = Some x -> nth_error l j = Some y -> x <= y.
Proof.
  intros l i j x y S L Hi Hj. destruct (Nat.eq_dec i j) as [->|N].
  - rewrite Hi in Hj. inversion Hj; lia.
  - pose proof (incr_nth l i j x y S ltac:(lia) Hi Hj). lia.
Qed.

Lemma incr_app_inv : forall a b, incr (a ++ b) ->
  incr a /\ incr b /\ forall x y, In x a -> In y b -> x < y.
Proof.
  induction a as [|h t IH]; intros b S; simpl in *.
  - split; [constructor|split; auto; intros x y []].
  - inversion S as [|? ? S' F]; subst. destruct (IH _ S') as (A & B & C).
    rewrite Forall_forall in F. split; [|split; auto].
    + constructor; auto. rewrite Forall_forall. intros y Hy. apply F, in_or_app; auto.
    + intros x y [->|Hx] Hy; [apply F, in_or_app; auto|auto].
Qed.

Lemma in_dec_nat : forall p (l : list nat), {In p l} + {~ In p l}.
Proof. intros. apply in_dec. apply Nat.eq_dec. Qed.

Lemma gap_unique : forall W p a b a' b', gap_around W p a b -> gap_around W p a' b' -> a = a' /\ b = b'.
Proof.
  intros W p a b a' b' (A1 & A2 & A3 & A4) (B1 & B2 & B3 & B4).
  pose proof (A4 _ B1). pose proof (A4 _ B2). pose proof (B4 _ A1). pose proof (B4 _ A2). lia.
Qed.

(** * The tag loop *)
Definition row_ok (W : list nat) (p : nat) (t : bool * nat * nat) : Prop :=
  let '(tag, fm, c) := t in
  (tag = true <-> ~ In p W) /\
  In (p + fm) W /\ (forall q, In q W -> q < p \/ p + fm <= q) /\
  (In p W -> c = 0) /\
  (~ In p W -> exists a b, gap_around W p a b /\ c = b - a - 1).

Lemma tag_loop_ok : forall n i pre idx cnt,
  incr (pre ++ idx) ->
  (forall q, In q pre -> q < i) ->
  (forall q, In q idx -> i <= q) ->
  i + n = S (last (pre ++ idx) 0) ->
  (n <> 0 -> In i idx \/ exists a x, gap_around (pre ++ idx) i a x /\
      ((i = S a /\ cnt = 0) \/ (cnt = x - a - 1 /\ cnt <> 0))) ->
  exists tl, tag_loop n i idx cnt = Ok tl /\ length tl = n /\
    forall k t, nth_error tl k = Some t -> row_ok (pre ++ idx) (i + k) t.
Proof.
  induction n as [|n IH]; intros i pre idx cnt SO HP HI HN HC.
  - exists []. simpl. repeat split; auto. intros [|k] t H; discriminate.
  - destruct (incr_app_inv _ _ SO) as (Spre & Sidx & Scross).
    assert (NE : pre ++ idx <> []).
    { intro E. rewrite E in *. simpl in HN. destruct HC as [H|H]; auto.
      - apply app_eq_nil in E. destruct E; subst. destruct H.
      - destruct H as (a & x & (H & _) & _). destruct H. }
    assert (LI : In (last (pre ++ idx) 0) idx).
    { pose proof (last_In _ (pre ++ idx) 0 NE) as H. apply in_app_or in H.
      destruct H as [H|H]; auto. apply HP in H. lia. }
    destruct idx as [|x t]; [destruct LI|].
    simpl tag_loop. specialize (HC ltac:(lia)).
    destruct (x =? i) eqn:E.
    + apply Nat.eqb_eq in E. subst x.
      inversion Sidx as [|? ? St Ft]; subst. rewrite Forall_forall in Ft.
      assert (EQ : pre ++ i :: t = (pre ++ [i]) ++ t) by (rewrite <- app_assoc; auto).
      destruct (IH (S i) (pre ++ [i]) t 0) as (tl & H1 & H2 & H3).
      * rewrite <- EQ; auto.
      * intros q Hq. apply in_app_or in Hq. destruct Hq as [Hq|[<-|[]]]; [|lia].
        specialize (HP q Hq). lia.
      * intros q Hq. specialize (Ft q Hq). lia.
      * rewrite <- EQ. lia.
      * intros Hn. rewrite <- EQ.
        assert (LT : In (last (pre ++ i :: t) 0) t) by (destruct LI as [LI|LI]; auto; lia).
        destruct t as [|y t']; [destruct LT|].
        destruct (Nat.eq_dec y (S i)) as [->|NEy]; [left; left; auto|].
        right. exists i, y. split; [|auto].
        split; [apply in_or_app; right; left; auto|].
        split; [apply in_or_app; right; right; left; auto|].
        pose proof (Ft y (or_introl eq_refl)). split; [lia|].
        intros q Hq. apply in_app_or in Hq. destruct Hq as [Hq|[<-|[<-|Hq]]].
        -- specialize (HP q Hq). lia.
        -- lia.
        -- lia.
        -- inversion St as [|? ? _ Fy]; subst. rewrite Forall_forall in Fy.
           specialize (Fy q Hq). lia.
      * rewrite H1. simpl. exists ((false, i - i, 0) :: tl). repeat split; auto.
        -- simpl. congruence.
        -- intros k r Hk. destruct k as [|k]; simpl in Hk.
           ++ inversion Hk; subst. rewrite Nat.add_0_r, Nat.sub_diag.
              assert (Ii : In i (pre ++ i :: t)) by (apply in_or_app; right; left; auto).
              red. rewrite Nat.add_0_r. split; [split; [discriminate|tauto]|]. split; auto. split; [intros; lia|].
              split; auto. tauto.
           ++ apply H3 in Hk. rewrite EQ. replace (i + S k) with (S i + k) by lia. auto.
    + apply Nat.eqb_neq in E. pose proof (HI x (or_introl eq_refl)).
      destruct (i <? x) eqn:E2; [|apply Nat.ltb_ge in E2; lia]. apply Nat.ltb_lt in E2.
      assert (NI : ~ In i (pre ++ x :: t)).
      { intro I. apply in_app_or in I. destruct I as [I|[I|I]]; [apply HP in I; lia|lia|].
        inversion Sidx as [|? ? _ Fx]; subst. rewrite Forall_forall in Fx. apply Fx in I. lia. }
      destruct HC as [HC|(a & b & G & HC)]; [exfalso; apply NI, in_or_app; auto|].
      assert (b = x).
      { destruct G as (G1 & G2 & G3 & G4).
        assert (Ix : In x (pre ++ x :: t)) by (apply in_or_app; right; left; auto).
        destruct (G4 x Ix); [lia|]. apply in_app_or in G2.
        destruct G2 as [G2|[G2|G2]]; [apply HP in G2; lia|auto|].
        inversion Sidx as [|? ? _ Fx]; subst. rewrite Forall_forall in Fx. apply Fx in G2. lia. }
      subst b.
      set (c := if cnt =? 0 then x - i else cnt).
      assert (Hc : c = x - a - 1 /\ c <> 0).
      { unfold c. destruct HC as [[H1 H2]|[H1 H2]].
        - subst cnt. simpl. lia.
        - destruct (cnt =? 0) eqn:E3; [apply Nat.eqb_eq in E3; lia|lia]. }
      destruct (IH (S i) pre (x :: t) c) as (tl & H1 & H2 & H3); auto.
      * intros q Hq. specialize (HP q Hq). lia.
      * intros q Hq. specialize (HI q Hq). destruct (Nat.eq_dec q i) as [->|]; [|lia].
        exfalso. apply NI, in_or_app; auto.
      * lia.
      * intros Hn. destruct (Nat.eq_dec x (S i)) as [->|Nx]; [left; left; auto|].
        right. exists a, x. split; [|auto]. destruct G as (G1 & G2 & G3 & G4).
        repeat split; auto; lia.
      * rewrite H1. simpl. exists ((true, x - i, c) :: tl). split; auto. split; [simpl; congruence|].
        intros k r Hk. destruct k as [|k]; simpl in Hk.
        -- inversion Hk; subst r. rewrite Nat.add_0_r. red.
           split; [split; auto|]. replace (i + (x - i)) with x by lia.
           split; [apply in_or_app; right; left; auto|].
           destruct G as (G1 & G2 & G3 & G4).
           split; [intros q Hq; destruct (G4 q Hq); lia|].
           split; [tauto|]. intros _. exists a, x. repeat split; auto; lia.
        -- apply H3 in Hk. replace (i + S k) with (S i + k) by lia. auto.
Qed.

(** * What an accepted process looks like *)
Record wf_fup (f : fup) : Prop := {
  wf_incr : incr (f_indices f);
  wf_len : length (f_indices f) = length (f_values f);
  wf_hd : hd_error (f_indices f) = Some 0;
  wf_all : f_all f = S (last (f_indices f) 0);
  wf_tags_len : length (f_tags f) = f_all f;
  wf_fmc_len : length (f_fmc f) = f_all f;
  wf_mc_len : length (f_mc f) = f_all f;
  wf_rows : forall p tag fm c,
      nth_error (f_tags f) p = Some tag -> nth_error (f_fmc f) p = Some fm ->
      nth_error (f_mc f) p = Some c -> row_ok (f_indices f) p (tag, fm, c)
}.

Lemma incr_of_Z : forall l, StronglySorted Z.lt l -> (forall x, In x l -> 0 <= x)%Z ->
  incr (map Z.to_nat l).
Proof.
  induction l as [|a t IH]; intros S H; simpl; constructor.
  - inversion S; subst. apply IH; auto. intros; apply H; right; auto.
  - inversion S as [|? ? _ F]; subst. rewrite Forall_forall in *. intros y Hy.
    apply in_map_iff in Hy. destruct Hy as (z & <- & Hz). specialize (F z Hz).
    pose proof (H a (or_introl eq_refl)). lia.
Qed.

Lemma last_map_Z : forall l x, last (map Z.to_nat (x :: l)) 0 = Z.to_nat (last (x :: l) 0%Z).
Proof.
  induction l as [|a t IH]; intros x; auto.
  change (last (map Z.to_nat (x :: a :: t)) 0) with (last (map Z.to_nat (a :: t)) 0).
  rewrite IH. reflexivity.
Qed.

Lemma sorted_nonneg : forall rest, StronglySorted Z.lt (0%Z :: rest) ->
  forall x, In x (0%Z :: rest) -> (0 <= x)%Z.
Proof.
  intros rest S x I. inversion S as [|? ? _ F]; subst. rewrite Forall_forall in F.
  destruct I as [<-|I]; [lia|]. specialize (F x I). lia.
Qed.

Lemma make_fup_ok_inv : forall ix vs maxlen f, ix <> [] ->
  make_fup (Some ix) vs maxlen = Ok f ->
  well_formed_points ix vs /\
  f_indices f = map Z.to_nat ix /\ vs = map Some (f_values f) /\
  Z.of_nat (f_all f) = (last ix 0 + 1)%Z /\
  f_missing f = (Z.of_nat (f_all f) - Z.of_nat (length ix))%Z /\
  (f_need f = true <-> (0 < f_missing f /\ Z.of_nat (f_all f) <= maxlen)%Z) /\
  (f_need f = true -> wf_fup f) /\
  incr (f_indices f) /\ hd_error (f_indices f) = Some 0 /\
  length (f_indices f) = length (f_values f) /\ f_all f = S (last (f_indices f) 0).
Proof.
  intros ix vs maxlen f NE H. destruct ix as [|i0 rest]; [congruence|].
  cbn [make_fup] in H.
  destruct (length (i0 :: rest) =? length vs) eqn:EL; cbn [negb] in H; [|discriminate].
  apply Nat.eqb_eq in EL. unfold bind in H.
  destruct (get_values vs) as [l|e] eqn:EG; [|discriminate].
  destruct (scan i0 rest false 0) as [[fd c]|e] eqn:ES; [|discriminate].
  destruct (i0 =? 0)%Z eqn:E0; cbn [negb] in H; [|discriminate].
  apply Z.eqb_eq in E0. subst i0. apply get_values_ok in EG. subst vs.
  destruct (scan_ok _ _ _ _ _ _ ES) as (SS & HC & HL & HF).
  pose proof (sorted_nonneg _ SS) as NN.
  pose proof (incr_of_Z _ SS NN) as SI.
  assert (HA : Z.of_nat (S (last (map Z.to_nat (0%Z :: rest)) 0)) = (last (0%Z :: rest) 0 + 1)%Z).
  { rewrite last_map_Z. rewrite Nat2Z.inj_succ, Z2Nat.id; [lia|].
    apply NN. apply last_In. discriminate. }
  assert (HM : (c = Z.of_nat (S (last (map Z.to_nat (0%Z :: rest)) 0%nat)) -
                    Z.of_nat (length (0%Z :: rest)))%Z).
  { rewrite HA, HC. simpl length. lia. }
  assert (HD : hd_error (map Z.to_nat (0%Z :: rest)) = Some 0) by reflexivity.
  rewrite map_length in EL.
  assert (LV : length (map Z.to_nat (0%Z :: rest)) = length l) by (rewrite map_length; auto).
  assert (WP : well_formed_points (0%Z :: rest) (map Some l)).
  { right. rewrite map_length. split; auto. split; [|split; auto].
    intro I. apply in_map_iff in I. destruct I as (z & D & _). discriminate. }
  set (all := S (last (map Z.to_nat (0%Z :: rest)) 0)) in *.
  destruct (negb fd || (Z.of_nat all >? maxlen)%Z) eqn:EN.
  - injection H as <-. cbn [f_indices f_values f_all f_missing f_need].
    do 5 (split; [solve [auto]|]). split.
    { split; [discriminate|]. intros [A B]. rewrite Z.gtb_ltb in EN.
      apply orb_true_iff in EN. destruct EN as [EN|EN].
      - apply negb_true_iff in EN. assert (fd = true) by (apply HF; right; lia). congruence.
      - apply Z.ltb_lt in EN. lia. }
    split; [discriminate|]. auto.
  - apply orb_false_iff in EN. destruct EN as [EN1 EN2].
    apply negb_false_iff in EN1. rewrite Z.gtb_ltb in EN2. apply Z.ltb_ge in EN2.
    destruct (tag_loop_ok all 0 [] (map Z.to_nat (0%Z :: rest)) 0) as (tl & T1 & T2 & T3); auto.
    { intros q []. }
    { intros; lia. }
    { intros _. left. left. reflexivity. }
    rewrite T1 in H. injection H as <-.
    cbn [f_indices f_values f_all f_missing f_need].
    do 5 (split; [solve [auto]|]). split.
    { split; auto. intros _. split; auto.
      apply HF in EN1. destruct EN1 as [EN1|EN1]; [discriminate|lia]. }
    split; [|auto]. intros _.
    constructor; cbn [f_indices f_values f_all f_missing f_need f_tags f_fmc f_mc];
      rewrite ?map_length; auto.
    intros p tag fm c' H1 H2 H3.
    apply nth_error_map_some in H1. destruct H1 as (t1 & N1 & <-).
    rewrite nth_error_map, N1 in H2, H3. simpl in H2, H3. inversion H2; inversion H3; subst.
    apply T3 in N1. destruct t1 as [[? ?] ?]. exact N1.
Qed.

Lemma make_fup_accepts : forall ix vs maxlen,
  well_formed_points ix vs -> exists f, make_fup (Some ix) vs maxlen = Ok f.
Proof.
  intros ix vs maxlen [->|(HL & HN & HH & HS)].
  - eexists. reflexivity.
  - destruct ix as [|i0 rest]; [discriminate|]. simpl in HH. inversion HH; subst i0.
    cbn [make_fup]. rewrite HL, Nat.eqb_refl. cbn [negb]. unfold bind.
    destruct (get_values vs) as [l|e] eqn:EG.
    2:{ apply get_values_err in EG. tauto. }
    destruct (scan_sorted_ok rest 0%Z false 0%Z HS) as [[fd c] ES]. rewrite ES. simpl Z.eqb. cbn [negb].
    destruct (_ || _); [eauto|].
    destruct (tag_loop_ok (S (last (map Z.to_nat (0%Z :: rest)) 0)) 0 [] (map Z.to_nat (0%Z :: rest)) 0)
      as (tl & T1 & _); auto.
    + simpl. change (0 :: map Z.to_nat rest) with (map Z.to_nat (0%Z :: rest)).
      apply incr_of_Z; [auto|apply sorted_nonneg; auto].
    + intros q [].
    + intros; lia.
    + intros _. left. left. reflexivity.
    + rewrite T1. eauto.
Qed.

Lemma make_fup_rejects : forall ix vs maxlen e,
  make_fup (Some ix) vs maxlen = Err e -> e = ValueErr /\ ~ well_formed_points ix vs.
Proof.
  intros ix vs maxlen e H. split.
  - destruct ix as [|i0 rest]; [discriminate|]. cbn [make_fup] in H.
    destruct (length (i0 :: rest) =? length vs); cbn [negb] in H; [|congruence].
    unfold bind in H. destruct (get_values vs) as [l|e'] eqn:EG.
    2:{ apply get_values_err in EG. destruct EG; congruence. }
    destruct (scan i0 rest false 0) as [[fd c]|e'] eqn:ES.
    2:{ apply scan_err in ES. congruence. }
    destruct (i0 =? 0)%Z eqn:E0; cbn [negb] in H; [|congruence].
    apply Z.eqb_eq in E0. subst i0.
    destruct (scan_ok _ _ _ _ _ _ ES) as (SS & _).
    destruct (_ || _); [discriminate|].
    destruct (tag_loop_ok (S (last (map Z.to_nat (0%Z :: rest)) 0)) 0 [] (map Z.to_nat (0%Z :: rest)) 0)
      as (tl & T1 & _); auto.
    + simpl. change (0 :: map Z.to_nat rest) with (map Z.to_nat (0%Z :: rest)).
      apply incr_of_Z; [auto|apply sorted_nonneg; auto].
    + intros q [].
    + intros; lia.
    + intros _. left. left. reflexivity.
    + rewrite T1 in H. discriminate.
  - intros W. destruct (make_fup_accepts ix vs maxlen W) as [f Hf]. congruence.
Qed.
