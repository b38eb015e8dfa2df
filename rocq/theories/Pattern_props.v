(** Property C95: the names given to periods. *)
From Coq Require Import ZArith List Lia.
From Verif Require Import Base Detect_model Pattern_model Pattern_spec.
Import ListNotations.
Open Scope Z_scope.

Lemma lasts_iff : forall g n, lasts g n <->
  (g = Yearly /\ n = 29030400000) \/ (g = Monthly /\ n = 2419200000) \/ (g = Weekly /\ n = 604800000) \/ (g = Daily /\ n = 86400000) \/
  (g = Hourly /\ n = 3600000) \/ (g = Minutely /\ n = 60000) \/ (g = Secondly /\ n = 1000) \/ (g = Microsecond /\ n = 1).
Proof.
  intros g n. unfold lasts, ladder. split.
  - intros H. repeat (inversion H as [? ? ? E1 E2|? ? ? ? H' E1]; subst; clear H; [cbn; tauto|rename H' into H]). inversion H.
  - intros H. repeat (destruct H as [[-> ->]|H]; [repeat first [apply lasts_here | apply lasts_later]|]).
    destruct H as [-> ->]. repeat first [apply lasts_here | apply lasts_later].
Qed.
Lemma lasts_fun : forall g n n', lasts g n -> lasts g n' -> n = n'.
Proof.
  intros g n n' H H'. rewrite lasts_iff in *.
  repeat (destruct H as [[-> ->]|H]; [repeat (destruct H' as [[? ->]|H']; [try discriminate; auto|]); destruct H' as [? ->]; try discriminate; auto|]).
  destruct H as [-> ->]. repeat (destruct H' as [[? ->]|H']; [try discriminate; auto|]). destruct H'; auto.
Qed.
Lemma lasts_inj : forall g g' n, lasts g n -> lasts g' n -> g = g'.
Proof.
  intros g g' n H H'. rewrite lasts_iff in *.
  repeat (destruct H as [[-> ->]|H]; [repeat (destruct H' as [[-> ?]|H']; [try lia; auto|]); destruct H' as [-> ?]; try lia; auto|]).
  destruct H as [-> ->]. repeat (destruct H' as [[-> ?]|H']; [try lia; auto|]). destruct H'; auto.
Qed.
Lemma lasts_pos : forall g n, lasts g n -> 1 <= n.
Proof. intros g n H. rewrite lasts_iff in H. lia. Qed.
Lemma largest_unique : forall ms g g', largest_unit ms g -> largest_unit ms g' -> g = g'.
Proof.
  intros ms g g' [(n & L & B & M)|(-> & N)] [(n' & L' & B' & M')|(-> & N')]; auto.
  - assert (n = n') by (specialize (M _ _ L' B'); specialize (M' _ _ L B); lia). subst. eapply lasts_inj; eauto.
  - specialize (N' _ _ L). lia.
  - specialize (N _ _ L'). lia.
Qed.

(** C95. The name is that of the largest unit not longer than the period. *)
Theorem C95_largest_unit : forall period g custom ms, cycle_length g (match custom with None => 1 | Some i => i end) period ms ->
  forall r, get_period_pattern period g custom = r <-> largest_unit ms r.
Proof.
  intros period g custom ms H.
  assert (E : get_ms_by_granularity g (match custom with None => Some 1 | c => c end) * period = ms).
  { destruct H as [[-> ->]|(n & L & ->)]; [reflexivity|]. rewrite lasts_iff in L. 
    repeat (destruct L as [[-> ->]|L]; [destruct custom; reflexivity|]). destruct L as [-> ->]. destruct custom; unfold get_ms_by_granularity, MILLI_MS; lia. }
  assert (G : largest_unit ms (get_period_pattern period g custom)).
  { unfold get_period_pattern. rewrite E. clear. unfold get_pattern_by_ms, largest_unit.
    unfold YEAR_MS, MONTH_MS, WEEK_MS, DAY_MS, HOUR_MS, MINUTE_MS, SECOND_MS, MILLI_MS. rewrite !Z.geb_leb.
    repeat match goal with |- context [if ?a <=? ms then _ else _] => destruct (Z.leb_spec a ms);
      [left; eexists; split; [apply lasts_iff; tauto|split; [lia|intros g' n'; rewrite lasts_iff; lia]]|] end.
    right. split; auto. intros g' n'. rewrite lasts_iff. lia. }
  intros r. split; [intros <-; auto|]. intros R. eapply largest_unique; eauto.
Qed.
Print Assumptions C95_largest_unit.

(** C95. A longer period never gets the name of a smaller unit. *)
Theorem C95_monotone : forall p p' g custom n n', (0 <= match custom with None => 1 | Some i => i end) -> p <= p' ->
  lasts (get_period_pattern p g custom) n -> lasts (get_period_pattern p' g custom) n' -> n <= n'.
Proof.
  intros p p' g custom n n' H0 HP L L'. set (i := match custom with None => 1 | Some i => i end) in *.
  assert (C : exists u, 0 <= u /\ forall q, cycle_length g i q (u * i * q)).
  { destruct g; try (eexists; split; [|intros q; right; eexists; split; [apply lasts_iff; intuition eauto|reflexivity]]; lia).
    exists 0. split; [lia|]. intros q. left. split; auto. }
  destruct C as (u & U & C).
  assert (LE : u * i * p <= u * i * p') by (apply Z.mul_le_mono_nonneg_l; lia).
  destruct (proj1 (C95_largest_unit p g custom _ (C p) _) eq_refl) as [(m & M & B & _)|(E & _)]; [|rewrite E, lasts_iff in L; intuition discriminate].
  destruct (proj1 (C95_largest_unit p' g custom _ (C p') _) eq_refl) as [(m' & M' & B' & X')|(E & _)]; [|rewrite E, lasts_iff in L'; intuition discriminate].
  rewrite (lasts_fun _ _ _ L M), (lasts_fun _ _ _ L' M'). apply (X' _ _ M). lia.
Qed.
Print Assumptions C95_monotone.

(** C95. One unit is called by its own name; a full turn of the ladder by the next. *)
Theorem C95_own_unit : forall g, get_period_pattern 1 g None = g.
Proof. intros []; reflexivity. Qed.
Print Assumptions C95_own_unit.

(** Weekly cycles of hourly data, a year of weeks, 30 days, two hours of data
    every 15 minutes, a period of 0 and data without granularity. *)
Example C95_examples :
  get_period_pattern 168 Hourly None = Weekly /\ get_period_pattern 52 Weekly None = Yearly /\
  get_period_pattern 30 Daily (Some 1) = Monthly /\ get_period_pattern 8 Minutely (Some 15) = Hourly /\
  get_period_pattern 0 Daily None = GNone /\ get_period_pattern 7 GNone None = GNone /\
  cycle_length Hourly 1 168 604800000 /\ lasts (get_period_pattern 168 Hourly None) 604800000.
Proof.
  repeat split. right. exists 3600000. split; [apply lasts_iff; tauto|reflexivity]. apply lasts_iff. tauto.
Qed.
