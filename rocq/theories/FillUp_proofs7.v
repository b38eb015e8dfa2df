(** Statistic fills and gap listings: lemmas. *)
From Coq Require Import List Arith ZArith QArith Qcanon Lia Bool Sorted Permutation.
From Verif Require Import Base Num Sorting FillUp_model FillUp_spec FillUp_spec2 FillUp_proofs FillUp_proofs2
  FillUp_proofs3 FillUp_proofs4 FillUp_proofs5 FillUp_proofs6.
Import ListNotations.
Open Scope nat_scope.

Lemma somes_app : forall A (a b : list (option A)), somes (a ++ b) = somes a ++ somes b.
Proof. intros. unfold somes. apply flat_map_app. Qed.
Lemma somes_rev : forall A (l : list (option A)), somes (rev l) = rev (somes l).
Proof.
  induction l as [|[x|] t IH]; [reflexivity| |]; cbn [rev]; rewrite somes_app, IH; cbn [somes flat_map app rev];
    rewrite ?app_nil_r; reflexivity.
Qed.
Lemma somes_map_Some : forall A (l : list A), somes (map Some l) = l.
Proof. induction l; cbn; [auto|]. f_equal. auto. Qed.

(** Collecting looked-up values over a range of positions. *)
Lemma collect : forall (L : nat -> option Qc) n a kv,
  StronglySorted (fun x y => fst x < fst y) kv -> (forall p, In p kv -> a <= fst p) ->
  (forall q v, a <= q -> (L q = Some v <-> In (q, v) kv)) ->
  somes (map L (seq a n)) = map snd (filter (fun p => fst p <? a + n) kv).
Proof.
  intros L. induction n as [|n IH]; intros a kv SS GE HL.
  - cbn [seq map]. rewrite Nat.add_0_r. symmetry. replace (filter (fun p => fst p <? a) kv) with (@nil (nat * Qc)); auto.
    symmetry. clear - GE. induction kv as [|p t IH]; auto. cbn [filter].
    pose proof (GE p (or_introl eq_refl)). replace (fst p <? a) with false by (symmetry; apply Nat.ltb_ge; lia).
    apply IH. intros; apply GE; right; auto.
  - cbn [seq map]. change (L a :: map L (seq (S a) n)) with ([L a] ++ map L (seq (S a) n)). rewrite somes_app.
    replace (a + S n) with (S a + n) by lia.
    destruct kv as [|[k v] t].
    + destruct (L a) as [x|] eqn:EA; [apply HL in EA; [destruct EA|lia]|].
      rewrite (IH (S a) []); auto. { intros p []. } intros q w Q. apply HL. lia.
    + inversion SS as [|? ? S2 F]; subst. rewrite Forall_forall in F.
      destruct (Nat.eq_dec k a) as [->|N].
      * rewrite (proj2 (HL a v ltac:(lia)) (or_introl eq_refl)). cbn [filter fst].
        replace (a <? S a + n) with true by (symmetry; apply Nat.ltb_lt; lia). cbn [map snd somes flat_map app].
        f_equal. apply IH; [exact S2| |].
        -- intros p I. specialize (F p I). cbn in F. lia.
        -- intros q w Q. rewrite HL by lia. split; [intros [E|I]; [inversion E; lia|auto]|right; auto].
      * assert (EA : L a = None).
        { destruct (L a) as [x|] eqn:EA; auto. apply HL in EA; auto. destruct EA as [E|I]; [inversion E; congruence|].
          specialize (F _ I). cbn in F. specialize (GE (k, v) (or_introl eq_refl)). cbn in GE. lia. }
        rewrite EA. cbn [somes flat_map app]. rewrite (IH (S a) ((k, v) :: t)); auto.
        -- intros p [E|I]; [subst p; specialize (GE (k, v) (or_introl eq_refl)); cbn in *; lia|].
           specialize (F p I). specialize (GE (k, v) (or_introl eq_refl)). cbn in *. lia.
        -- intros q w Q. apply HL. lia.
Qed.

Lemma map_snd_combine : forall A B (a : list A) (b : list B), length a = length b -> map snd (combine a b) = b.
Proof. induction a as [|x t IH]; intros [|y b] L; cbn in *; try lia; auto. f_equal. apply IH. lia. Qed.

Section Near.
Variable f : fup.
Hypothesis W : wf_fup f.
Let kv := combine (f_indices f) (f_values f).

Lemma kv_sorted : StronglySorted (fun x y => fst x < fst y) kv.
Proof.
  unfold kv. pose proof (wf_incr f W) as I. pose proof (wf_len f W) as L. revert I L.
  generalize (f_indices f) (f_values f). induction l as [|i t IH]; intros [|v vs] I L; cbn in *; try lia; [constructor|].
  inversion I as [|? ? I2 F]; subst. constructor; [apply IH; auto|].
  rewrite Forall_forall in *. intros [k w] J. apply in_combine_l in J. apply F in J. exact J.
Qed.

Lemma lookup_kv : forall q v, lookup_obs f q = Some v <-> In (q, v) kv.
Proof.
  intros q v. unfold kv. split.
  - intros E. apply lookup_in_values in E; auto. destruct E as (k & A & B).
    apply (nth_error_In _ k). rewrite nth_error_combine, A, B. reflexivity.
  - intros I. apply In_nth_error in I. destruct I as (k & E). rewrite nth_error_combine in E.
    destruct (nth_error (f_indices f) k) as [a|] eqn:A; [|discriminate].
    destruct (nth_error (f_values f) k) as [b|] eqn:B; [|discriminate]. inversion E; subst.
    unfold lookup_obs. destruct (values_to_fill_spec f W) as [[_ V] _]. rewrite (V q v); auto. exists k; auto.
Qed.

Lemma filter_split : forall i j, ptr (f_indices f) i j ->
  filter (fun p => fst p <? i) kv = firstn j kv.
Proof.
  intros i j [P1 P2]. unfold kv. pose proof (wf_len f W) as L. revert j P1 P2 L.
  generalize (f_indices f) (f_values f). induction l as [|a t IH]; intros [|v vs] j P1 P2 L; cbn [combine length filter fst] in *; try lia;
    [destruct j; auto|].
  destruct j as [|j].
  - cbn [firstn]. assert (A : i <= a) by (apply (P2 0 a); cbn; auto; lia).
    replace (a <? i) with false by (symmetry; apply Nat.ltb_ge; lia).
    change (@nil (nat * Qc)) with (firstn 0 (combine t vs)). apply IH; [intros k y K; lia| |lia].
    intros k y K E. apply (P2 (S k) y); [lia|auto].
  - assert (A : a < i) by (apply (P1 0 a); cbn; auto; lia).
    replace (a <? i) with true by (symmetry; apply Nat.ltb_lt; lia). cbn [firstn]. f_equal.
    apply IH; [| |lia].
    + intros k y K E. apply (P1 (S k) y); [lia|auto].
    + intros k y K E. apply (P2 (S k) y); [lia|auto].
Qed.

Lemma div_one : forall n, n / 1 = n. Proof. intros. apply Nat.div_1_r. Qed.

Lemma positions_before_one : forall i, positions_before i 1 = rev (seq 0 i).
Proof.
  intros i. unfold positions_before. rewrite div_one. apply nth_error_ext. intros k.
  rewrite nth_error_map, nth_error_seq. destruct (k <? i) eqn:E.
  - apply Nat.ltb_lt in E. cbn [option_map]. symmetry.
    rewrite nth_error_nth' with (d := 0) by (rewrite rev_length, seq_length; auto).
    rewrite rev_nth by (rewrite seq_length; auto). rewrite seq_length, seq_nth by lia. f_equal. lia.
  - apply Nat.ltb_ge in E. cbn [option_map]. symmetry. apply nth_error_None. rewrite rev_length, seq_length. auto.
Qed.
Lemma positions_after_one : forall i len, positions_after i 1 len = seq (S i) (len - 1 - i).
Proof.
  intros i len. unfold positions_after. rewrite div_one. apply nth_error_ext. intros k.
  rewrite nth_error_map, !nth_error_seq. destruct (k <? len - 1 - i); cbn; auto. f_equal. lia.
Qed.

Lemma before_one : forall i j, ptr (f_indices f) i j -> nearest_before f i 1 = rev (firstn j (f_values f)).
Proof.
  intros i j P. unfold nearest_before. rewrite positions_before_one, map_rev, somes_rev. f_equal.
  rewrite (collect (lookup_obs f) i 0 kv).
  - cbn [Nat.add]. rewrite (filter_split i j P). rewrite <- firstn_map. unfold kv. rewrite map_snd_combine; auto.
    apply (wf_len f W).
  - apply kv_sorted.
  - intros; lia.
  - intros q v _. apply lookup_kv.
Qed.

Lemma after_one : forall i j x, ptr (f_indices f) i j -> nth_error (f_indices f) j = Some x -> i < x ->
  nearest_after f i 1 = skipn j (f_values f).
Proof.
  intros i j x P Hx Lx. destruct (ptr_gap _ i j x (wf_incr f W) (wf_hd f W) Hx Lx P) as (NI & _).
  unfold nearest_after. rewrite positions_after_one.
  assert (LI : i < f_all f) by (pose proof (wf_in_lt f x W (nth_error_In _ _ Hx)); lia).
  assert (KV : kv = firstn j kv ++ skipn j kv) by (symmetry; apply firstn_skipn).
  assert (FA : forall p, In p (firstn j kv) -> fst p < i).
  { intros p I. rewrite <- (filter_split i j P) in I. apply filter_In in I. destruct I as [_ I]. apply Nat.ltb_lt in I. auto. }
  assert (SB : forall p, In p (skipn j kv) -> i < fst p).
  { intros [k v] I. assert (I2 : In (k, v) kv) by (rewrite KV; apply in_or_app; auto).
    apply In_nth_error in I. destruct I as (n & E). rewrite nth_error_skipn in E. unfold kv in E.
    rewrite nth_error_combine in E. destruct (nth_error (f_indices f) (j + n)) as [a|] eqn:A; [|discriminate].
    destruct (nth_error (f_values f) (j + n)) as [b|]; [|discriminate]. inversion E; subst. cbn.
    pose proof (proj2 P (j + n) k ltac:(lia) A). destruct (Nat.eq_dec k i); [|lia]. subst k.
    exfalso. apply NI. eapply nth_error_In; eauto. }
  assert (SS : StronglySorted (fun x y => fst x < fst y) (skipn j kv)).
  { pose proof kv_sorted as S0. clear - S0. revert S0. generalize kv. induction j as [|j IH]; intros l S0; auto.
    destruct l; auto. inversion S0; subst. cbn. auto. }
  rewrite (collect (lookup_obs f) _ (S i) (skipn j kv)); auto.
  - replace (filter (fun p => fst p <? S i + (f_all f - 1 - i)) (skipn j kv)) with (skipn j kv).
    + rewrite <- skipn_map. unfold kv. rewrite map_snd_combine; auto. apply (wf_len f W).
    + symmetry. assert (ALL : forall p, In p (skipn j kv) -> fst p < f_all f).
      { intros [k v] I. cbn. apply (wf_in_lt f k W). assert (I2 : In (k, v) kv) by (rewrite KV; apply in_or_app; auto).
        unfold kv in I2. apply in_combine_l in I2. auto. }
      clear - ALL LI. induction (skipn j kv) as [|p t IH]; auto. cbn [filter].
      pose proof (ALL p (or_introl eq_refl)). replace (fst p <? S i + (f_all f - 1 - i)) with true by (symmetry; apply Nat.ltb_lt; lia).
      f_equal. apply IH. intros; apply ALL; right; auto.
  - intros q v Q. rewrite lookup_kv. rewrite KV at 1. rewrite in_app_iff. split; auto.
    intros [I|I]; auto. apply FA in I. cbn in I. lia.
Qed.

(** The neighbours used for a missing position when as many as possible of the
    nearest submitted ones are taken. *)
Lemma get_bf_best : forall arr i j x P bn fn, agrees f arr -> ptr (f_indices f) i j ->
  nth_error (f_indices f) j = Some x -> i < x -> 0 < P -> 0 < bn + fn ->
  get_bf arr i (f_values f) j (Z.of_nat P) (f_fmc f) (f_mc f) bn fn false STryBest =
  Ok (match firstn bn (nearest_before f i P), firstn fn (nearest_after f i P) with
      | [], [] => None
      | b, a => Some (rev b, a)
      end).
Proof.
  intros arr i j x P bn fn A PT Hx Lx HP HB.
  assert (LI : i < f_all f) by (pose proof (wf_in_lt f x W (nth_error_In _ _ Hx)); lia).
  assert (BF : exists b a, (match (Z.of_nat P =? 1)%Z with
     | true => Ok (map Some (slice (f_values f) (j - Nat.min bn j) j), map Some (slice (f_values f) j (j + fn)))
     | false =>
         do b <- get_periodical_values arr i bn (Z.of_nat P) (f_fmc f) (f_mc f) false STryBest false;
         do f <- get_periodical_values arr i fn (Z.of_nat P) (f_fmc f) (f_mc f) false STryBest true;
         Ok (b, f)
     end) = Ok (b, a) /\ somes b = rev (firstn bn (nearest_before f i P)) /\ somes a = firstn fn (nearest_after f i P)).
  { destruct (Z.of_nat P =? 1)%Z eqn:EP.
    - apply Z.eqb_eq in EP. assert (P = 1) by lia. subst P. eexists _, _. split; [reflexivity|].
      rewrite !somes_map_Some. rewrite (before_one i j PT), (after_one i j x PT Hx Lx). split.
      + pose proof (nth_error_lt _ _ _ _ Hx) as LJ. rewrite (wf_len f W) in LJ.
        rewrite firstn_rev, rev_involutive, firstn_length. unfold slice. rewrite skipn_firstn_comm.
        f_equal; f_equal; lia.
      + unfold slice. f_equal. lia.
    - destruct (gpv_spec f arr i bn P false STryBest false W A HP LI) as (b & B1 & _ & _ & _ & B5).
      destruct (gpv_spec f arr i fn P false STryBest true W A HP LI) as (a & A1 & _ & _ & _ & A5).
      rewrite B1, A1. rewrite !bind_ok. exists b, a. split; auto.
      destruct (B5 eq_refl) as [_ B]. destruct (A5 eq_refl) as [_ C]. cbv zeta in B, C.
      split; [|apply C; auto]. rewrite <- (B eq_refl), rev_involutive. auto. }
  destruct BF as (b & a & E & SB & SA). unfold get_bf. rewrite E, bind_ok.
  assert (FULL : forall l : list (option Qc), existsb is_none l = false -> length (somes l) = length l).
  { induction l as [|[v|] t IH]; cbn; intros; auto; discriminate. }
  assert (NE : existsb is_none b || (length b <? bn) || existsb is_none a || (length a <? fn) = false ->
    somes b <> [] \/ somes a <> []).
  { intros C. apply orb_false_iff in C. destruct C as [C C4]. apply orb_false_iff in C. destruct C as [C C3].
    apply orb_false_iff in C. destruct C as [C1 C2]. apply Nat.ltb_ge in C2, C4.
    pose proof (FULL b C1). pose proof (FULL a C3). destruct (somes b), (somes a); cbn in *; auto; try (left; discriminate); try (right; discriminate). lia. }
  destruct (existsb is_none b || (length b <? bn) || existsb is_none a || (length a <? fn)).
  - rewrite SB, SA. destruct (firstn bn (nearest_before f i P)) as [|u t]; cbn [rev].
    + destruct (firstn fn (nearest_after f i P)); reflexivity.
    + destruct (rev t ++ [u]) eqn:ER; auto. destruct (rev t); discriminate.
  - specialize (NE eq_refl). rewrite SB, SA in *. destruct (firstn bn (nearest_before f i P)); auto.
    destruct (firstn fn (nearest_after f i P)); auto. destruct NE; exfalso; auto.
Qed.
End Near.

(** [step_const] for every handling of exceptions. *)
Lemma step_fill : forall sp f m em kw (val : nat -> option Qc), wf_fup f -> f_need f = true ->
  m <> MLinearSeg -> m <> MSplineSeg ->
  (forall arr i j x, agrees f arr -> ptr (f_indices f) i j -> nth_error (f_indices f) j = Some x -> i < x ->
     step_func sp m kw arr i (f_values f) j (f_fmc f) (f_mc f) = Ok (FScalar (val i))) ->
  exists full, step_by_step_fill_up sp f m (Some em) kw = Ok (Some (full, f_tags f)) /\ agrees f full /\
    forall p, p < f_all f -> ~ In p (f_indices f) -> nth_error full p = Some (val p).
Proof.
  intros sp f m em kw val W HN N1 N2 HV. unfold step_by_step_fill_up. rewrite HN. simpl.
  destruct (values_to_fill_spec f W) as [V1 V2].
  pose proof (step_loop_scalar f
        (fun arr i j => step_func sp m kw arr i (f_values f) j (f_fmc f) (f_mc f)) em W) as SL.
  specialize (SL ltac:(intros full0 i j x Af Pt Hx Lt; apply step_func_scalar; auto;
         assert (x < f_all f) by (apply wf_in_lt; auto; eapply nth_error_In; eauto); lia)
         (f_all f) 0 0 (values_to_fill f) (ptr_0 _) ltac:(lia) V1).
  destruct (step_loop _ _ _ _ _ _ _) as [full'|e].
  - destruct SL as (A & _ & SM). simpl. exists full'. split; auto. split; auto.
    intros p Lp NI. destruct (SM p ltac:(lia) NI) as (fp & jp & v & Q1 & Q2 & Q3 & Q4).
    pose proof Lp as Lp'. rewrite (wf_all f W) in Lp'.
    destruct (ptr_next _ p jp (wf_incr f W) (wf_ne f W) Lp' Q2) as (x & Hx & Lx).
    assert (p < x).
    { destruct (Nat.eq_dec p x) as [->|]; [|lia]. exfalso. apply NI. eapply nth_error_In; eauto. }
    destruct Q4 as [Q4|(e & Q4 & _)]; rewrite (HV fp p jp x) in Q4 by auto; inversion Q4; subst; auto.
  - destruct SL as (_ & _ & fp & p & jp & x & Q1 & Q2 & Q3 & Q4 & Q5).
    rewrite (HV fp p jp x) in Q5 by auto. discriminate.
Qed.

(** The reductions. *)
Definition red_of (s : statistic) : red :=
  match s with SMin => RMin | SMax => RMax | SMean => RAverage | SMedian => RMedian end.

Lemma reduce_statistic : forall s l, l <> [] -> exists v, reduce (red_of s) l = Ok v /\ is_statistic s l v.
Proof.
  intros s l NE. unfold reduce. destruct l as [|a t] eqn:EL; [congruence|]. rewrite <- EL in *. clear EL a t.
  assert (L : 0 < length l) by (destruct l; [congruence|cbn; lia]).
  eexists. split; [reflexivity|]. destruct s; cbn [red_of is_statistic].
  - split; [apply qmin_list_in; auto|apply qmin_list_le].
  - split; [apply qmax_list_in; auto|apply qmax_list_ge].
  - unfold qmean. field. apply qn_neq0. auto.
  - exists (qsort l). split; [symmetry; apply qsort_perm|]. split; [apply qsort_sorted|].
    unfold qmedian, median_of_sorted. rewrite qsort_length. set (n := length l) in *.
    assert (N : forall k, k < n -> nth_error (qsort l) k = Some (nth k (qsort l) 0%Qc)).
    { intros k K. apply nth_error_nth'. rewrite qsort_length. auto. }
    assert (D : n / 2 < n) by (apply Nat.div_lt; lia).
    assert (D' : (n - 1) / 2 < n) by (apply Nat.div_lt_upper_bound; lia).
    exists (nth ((n - 1) / 2) (qsort l) 0%Qc), (nth (n / 2) (qsort l) 0%Qc). split; auto. split; auto.
    destruct (Nat.odd n) eqn:O.
    + apply Nat.odd_spec in O. destruct O as (k & O). replace ((n - 1) / 2) with (n / 2); auto.
      rewrite O. replace (2 * k + 1 - 1) with (k * 2) by lia. rewrite Nat.div_mul by lia.
      replace (2 * k + 1) with (1 + k * 2) by lia. rewrite Nat.div_add by lia. reflexivity.
    + assert (EV : Nat.Even n) by (apply Nat.even_spec; rewrite <- Nat.negb_odd, O; auto).
      destruct EV as (k & EV). replace ((n - 1) / 2) with (n / 2 - 1);
        [replace (Q2Qc 2) with (1 + 1)%Qc by (apply Qc_is_canon; reflexivity); field; discriminate|].
      rewrite EV. replace (2 * k) with (k * 2) by lia. rewrite Nat.div_mul by lia.
      replace (k * 2 - 1) with (1 + (k - 1) * 2) by lia. rewrite Nat.div_add by lia. cbn. lia.
Qed.

(** Weighted mean: the weights line up with the neighbours. *)
Lemma qsum_combine_nth : forall (b w : list Qc), length b = length w ->
  qsum (map (fun p => fst p * snd p)%Qc (combine b w)) =
  qsum (map (fun k => nth k b 0 * nth k w 0)%Qc (seq 0 (length b))).
Proof.
  intros b w L. f_equal. apply nth_error_ext. intros k. rewrite !nth_error_map, nth_error_combine, nth_error_seq.
  destruct (k <? length b) eqn:E.
  - apply Nat.ltb_lt in E. rewrite !nth_error_nth' with (d := 0%Qc) by lia. reflexivity.
  - apply Nat.ltb_ge in E. apply nth_error_None in E. rewrite E. reflexivity.
Qed.
Lemma qsum_nth : forall w : list Qc, qsum w = qsum (map (fun k => nth k w 0%Qc) (seq 0 (length w))).
Proof.
  intros w. f_equal. apply nth_error_ext. intros k. rewrite nth_error_map, nth_error_seq.
  destruct (k <? length w) eqn:E.
  - apply Nat.ltb_lt in E. rewrite nth_error_nth' with (d := 0%Qc) by lia. reflexivity.
  - apply Nat.ltb_ge in E. apply nth_error_None in E. rewrite E. reflexivity.
Qed.
Lemma qsum_rev : forall l, qsum (rev l) = qsum l.
Proof. induction l as [|x t IH]; auto. cbn [rev]. rewrite qsum_app, IH. cbn [qsum fold_right]. ring. Qed.
Lemma rev_seq_map : forall A (g : nat -> A) n, rev (map g (seq 0 n)) = map (fun k => g (n - 1 - k)) (seq 0 n).
Proof.
  intros A g n. apply nth_error_ext. intros k. destruct (Nat.lt_ge_cases k n) as [L|L].
  - rewrite nth_error_map, nth_error_seq. apply Nat.ltb_lt in L as L2. rewrite L2. cbn [option_map Nat.add].
    destruct n as [|n]; [lia|]. rewrite nth_error_nth' with (d := g 0) by (rewrite rev_length, map_length, seq_length; auto).
    rewrite rev_nth by (rewrite map_length, seq_length; auto). rewrite map_length, seq_length, map_nth, seq_nth by lia.
    f_equal. f_equal. lia.
  - rewrite !(proj2 (nth_error_None _ _)); auto; rewrite ?rev_length, map_length, seq_length; auto.
Qed.

Lemma seq_split : forall a b, seq 0 (a + b) = seq 0 a ++ map (fun k => a + k) (seq 0 b).
Proof.
  intros a b. rewrite seq_app. f_equal. cbn [Nat.add]. rewrite <- (Nat.add_0_r a) at 1.
  apply nth_error_ext. intros k. rewrite nth_error_map, !nth_error_seq. destruct (k <? b); cbn; auto.
Qed.

Lemma slice_nth : forall A (l : list A) a b k d, b <= length l -> k < b - a -> nth k (slice l a b) d = nth (a + k) l d.
Proof.
  intros A l a b k d L K. pose proof (nth_error_slice A l a b k) as E.
  assert (K2 : k < length (slice l a b)) by (rewrite slice_length; lia).
  rewrite (nth_error_nth' _ d K2) in E. replace (k <? b - a) with true in E by (symmetry; apply Nat.ltb_lt; auto).
  rewrite nth_error_nth' with (d := d) in E by lia. congruence.
Qed.

Lemma weighted_sum : forall ws bn nb nf (g : Qc -> Qc -> Qc), length nb <= bn -> bn + length nf <= length ws ->
  qsum (map (fun k => g (nth k (slice ws (bn - length nb) (bn + length nf)) 0%Qc) (nth k (rev nb ++ nf) 0%Qc))
    (seq 0 (length nb + length nf))) = weighted ws bn nb nf g.
Proof.
  intros ws bn nb nf g LB LW. rewrite seq_split, map_app, qsum_app. unfold weighted. f_equal.
  - rewrite <- qsum_rev, rev_seq_map. f_equal. apply map_ext_in. intros k K. apply in_seq in K.
    rewrite slice_nth by lia. rewrite app_nth1 by (rewrite rev_length; lia). rewrite rev_nth by lia.
    f_equal; f_equal; lia.
  - rewrite map_map. f_equal. apply map_ext_in. intros k K. apply in_seq in K.
    rewrite slice_nth by lia. rewrite app_nth2 by (rewrite rev_length; lia). rewrite rev_length.
    f_equal; f_equal; lia.
Qed.

Lemma weighted_average : forall ws bn nb nf, length nb <= bn -> bn + length nf <= length ws ->
  nb ++ nf <> [] -> (forall w, In w ws -> 0 < w)%Qc ->
  exists v, np_average_w (rev nb ++ nf) (slice ws (bn - length nb) (bn + length nf)) = Ok v /\
    (0 < weighted ws bn nb nf (fun w _ => w))%Qc /\
    (v * weighted ws bn nb nf (fun w _ => w) = weighted ws bn nb nf (fun w x => w * x))%Qc.
Proof.
  intros ws bn nb nf LB LW NE PW. set (W := slice ws (bn - length nb) (bn + length nf)).
  assert (LSW : length W = length nb + length nf) by (unfold W; rewrite slice_length; lia).
  assert (EW : qsum W = weighted ws bn nb nf (fun w _ => w)).
  { rewrite qsum_nth, LSW. unfold W. apply (weighted_sum ws bn nb nf (fun w _ => w)); auto. }
  assert (POS : (0 < qsum W)%Qc).
  { apply qsum_pos. - intro E. rewrite E in LSW. cbn in LSW. destruct nb, nf; cbn in LSW; try lia. auto.
    - intros w I. apply PW. apply (slice_incl _ ws _ _ w I). }
  unfold np_average_w. rewrite app_length, rev_length, LSW, Nat.eqb_refl. cbn [negb]. cbv zeta.
  destruct (Qceqb (qsum W) 0) eqn:EZ; [apply Qceqb_eq in EZ; rewrite EZ in POS; discriminate|].
  eexists. split; [reflexivity|]. rewrite <- EW. split; auto.
  rewrite <- (weighted_sum ws bn nb nf (fun w x => w * x)%Qc LB LW). fold W.
  rewrite qsum_combine_nth by (rewrite app_length, rev_length; auto). rewrite app_length, rev_length.
  set (X := qsum (map (fun k => nth k (rev nb ++ nf) 0 * nth k W 0)%Qc (seq 0 (length nb + length nf)))).
  replace (qsum (map (fun k => nth k W 0 * nth k (rev nb ++ nf) 0)%Qc (seq 0 (length nb + length nf)))) with X.
  - field. intro E. rewrite E in POS. discriminate.
  - unfold X. f_equal. apply map_ext. intros. ring.
Qed.

Lemma statistic_perm : forall s l l' v, Permutation l l' -> is_statistic s l v -> is_statistic s l' v.
Proof.
  intros s l l' v P. pose proof (Permutation_length P) as L. destruct s; cbn [is_statistic].
  - intros [A B]. split; [eapply Permutation_in; eauto|]. intros x I. apply B. eapply Permutation_in; [symmetry; eauto|auto].
  - intros [A B]. split; [eapply Permutation_in; eauto|]. intros x I. apply B. eapply Permutation_in; [symmetry; eauto|auto].
  - rewrite <- L. intros ->. clear L. induction P; auto; cbn [qsum fold_right] in *.
    + fold (qsum l) (qsum l'). rewrite IHP. auto.
    + fold (qsum l). ring.
    + congruence.
  - rewrite <- L. intros (s & A & B). exists s. split; auto. rewrite <- P. auto.
Qed.

Definition method_of (s : statistic) : step_method :=
  match s with SMin => MMin | SMax => MMax | SMean => MAverage | SMedian => MMedian end.

(** The period used for looking up neighbours. *)
Definition lookup_period (kw : kwargs) : nat :=
  match k_period kw with Some q => if k_cp kw && (1 <? q)%Z then Z.to_nat q else 1 | None => 1 end.

Section Fill.
Variable sp : list nat -> list Qc -> nat -> Qc.
Variables (ix : list Z) (vs : list (option Qc)) (maxlen : Z) (f : fup) (kw : kwargs).
Hypothesis HF : make_fup (Some ix) vs maxlen = Ok f.
Hypothesis HN : f_need f = true.
Hypothesis HLv : k_lev kw = false.
Hypothesis HSh : k_short kw = STryBest.
Hypothesis HB : 0 < k_bn kw + k_fn kw.
Hypothesis HP : forall p, k_period kw = Some p -> (0 <= p)%Z.

Lemma lookup_period_pos : 0 < lookup_period kw.
Proof.
  unfold lookup_period. destruct (k_period kw); [|lia]. destruct (k_cp kw); cbn [andb]; [|lia].
  destruct (1 <? z)%Z eqn:E; [apply Z.ltb_lt in E; lia|lia].
Qed.

Lemma not_given_in : forall p, ~ is_given ix p -> ~ In p (f_indices f).
Proof.
  intros p NG I. apply NG. destruct (accepted_facts _ _ _ _ HF HN) as (W & EI & _ & NN & _).
  rewrite EI in I. apply in_map_iff in I. destruct I as (z & E & I). unfold is_given. rewrite <- E, Z2Nat.id; auto.
Qed.

Lemma fill_core : forall m em (val : nat -> option Qc) (red : list Qc -> list Qc -> res (option Qc)),
  m <> MLinearSeg -> m <> MSplineSeg ->
  (forall kw' arr i j, k_bn kw' = k_bn kw -> k_fn kw' = k_fn kw -> k_lev kw' = false -> k_short kw' = STryBest ->
     k_weights kw' = k_weights kw -> lookup_period kw' = lookup_period kw ->
     (do bf <- get_bf arr i (f_values f) j (Z.of_nat (lookup_period kw)) (f_fmc f) (f_mc f) (k_bn kw) (k_fn kw) false STryBest;
      match bf with None => Ok (FScalar None) | Some (b, a) => do v <- red b a; Ok (FScalar v) end) =
     step_func sp m kw' arr i (f_values f) j (f_fmc f) (f_mc f)) ->
  (forall p, p < f_all f ->
     let b := before ix vs p (lookup_period kw) (k_bn kw) in
     let a := after ix vs p (lookup_period kw) (k_fn kw) (f_all f) in
     match b, a with [], [] => val p = None | _, _ => red (rev b) a = Ok (val p) end) ->
  exists full, fill_up sp f (Step m) em kw = Ok (Some (full, f_tags f)) /\ length full = f_all f /\
    carries ix vs full /\
    forall p, p < f_all f -> ~ is_given ix p -> nth_error full p = Some (val p).
Proof.
  intros m em val red N1 N2 HS HV. destruct (accepted_facts _ _ _ _ HF HN) as (W & _).
  unfold fill_up. rewrite HN. cbn [negb].
  assert (EP : exists p, (match k_period kw with
           | None => Ok 1%Z
           | Some p => if (p <? 0)%Z then Err ValueErr else Ok (Z.max p 1)
           end) = Ok p /\ (if k_cp kw && (1 <? p)%Z then Z.to_nat p else 1) = lookup_period kw).
  { unfold lookup_period. destruct (k_period kw) as [p|] eqn:E.
    - specialize (HP p eq_refl). replace (p <? 0)%Z with false by (symmetry; apply Z.ltb_ge; auto).
      eexists. split; [reflexivity|]. destruct (k_cp kw); auto. cbn [andb].
      destruct (1 <? p)%Z eqn:E2; [apply Z.ltb_lt in E2|apply Z.ltb_ge in E2].
      + replace (1 <? Z.max p 1)%Z with true by (symmetry; apply Z.ltb_lt; lia). f_equal. lia.
      + replace (1 <? Z.max p 1)%Z with false by (symmetry; apply Z.ltb_ge; lia). auto.
    - exists 1%Z. split; auto. destruct (k_cp kw); auto. }
  destruct EP as (p0 & -> & EQ). rewrite bind_ok.
  set (kw' := mkKw (k_bn kw) (k_fn kw) (k_lev kw) (k_cp kw) (Some p0) (k_short kw) (k_weights kw) (k_number kw)).
  destruct (step_fill sp f m em kw' val W HN N1 N2) as (full & E & A & V).
  - intros arr i j x AG PT Hx Lx. rewrite <- HS by (auto; cbn; auto).
    rewrite (get_bf_best f W arr i j x _ _ _ AG PT Hx Lx lookup_period_pos HB). rewrite bind_ok.
    assert (LI : i < f_all f) by (pose proof (wf_in_lt f x W (nth_error_In _ _ Hx)); lia).
    specialize (HV i LI). cbv zeta in HV. unfold before, after in HV. unfold nearest_before, nearest_after.
    rewrite !(nearest_values_at ix vs maxlen f _ HF HN).
    destruct (firstn (k_bn kw) _) as [|u t]; [destruct (firstn (k_fn kw) _) as [|u t]|].
    + rewrite HV. auto.
    + rewrite HV. auto.
    + rewrite HV. auto.
  - exists full. split; auto. split; [apply A|]. split; [apply (carries_agrees ix vs maxlen f full HF HN) in A || apply (proj2 (carries_agrees ix vs maxlen f full HF HN)); apply A|].
    intros p Lp NG. apply V; auto. apply not_given_in. auto.
Qed.
End Fill.

(** * Gap listings *)
Section Gaps.
Variables (ix : list Z) (vs : list (option Qc)) (maxlen : Z) (f : fup).
Hypothesis HF : make_fup (Some ix) vs maxlen = Ok f.
Hypothesis HN : f_need f = true.

Lemma fmc_facts : forall p, p < f_all f ->
  is_given ix (p + nth p (f_fmc f) 0) /\ (forall q, p <= q < p + nth p (f_fmc f) 0 -> ~ is_given ix q).
Proof.
  intros p Lp. destruct (accepted_facts _ _ _ _ HF HN) as (W & _).
  destruct (nth_error_ex _ (f_tags f) p ltac:(rewrite (wf_tags_len f W); auto)) as [tag Ht].
  destruct (nth_error_ex _ (f_fmc f) p ltac:(rewrite (wf_fmc_len f W); auto)) as [fwd Hf].
  destruct (nth_error_ex _ (f_mc f) p ltac:(rewrite (wf_mc_len f W); auto)) as [cnt Hm].
  destruct (wf_rows f W p tag fwd cnt Ht Hf Hm) as (R1 & R2 & R3 & R4 & R5).
  pose proof (fun q => is_given_in ix vs maxlen f q HF HN) as IG.
  rewrite (nth_error_nth _ _ _ Hf). split; [apply IG; auto|].
  intros q Lq Gq. apply IG in Gq. destruct (R3 q Gq); lia.
Qed.
Lemma given_lt : forall p, is_given ix p -> p < f_all f.
Proof.
  intros p G. destruct (accepted_facts _ _ _ _ HF HN) as (W & _).
  apply (wf_in_lt f p W). apply (is_given_in ix vs maxlen f p HF HN). auto.
Qed.
Lemma given_zero : is_given ix 0.
Proof.
  destruct (accepted_facts _ _ _ _ HF HN) as (W & _). apply (is_given_in ix vs maxlen f 0 HF HN).
  pose proof (wf_hd f W) as H. destruct (f_indices f); cbn in H; inversion H. left. auto.
Qed.
Lemma fmc_zero : forall p, p < f_all f -> (0 < nth p (f_fmc f) 0 <-> ~ is_given ix p).
Proof.
  intros p Lp. destruct (fmc_facts p Lp) as [A B]. split.
  - intros H. apply B. lia.
  - intros NG. destruct (nth p (f_fmc f) 0); [|lia]. rewrite Nat.add_0_r in A. contradiction.
Qed.

Lemma missing_indices_spec : (forall p, In p (get_missing_indices f) <-> p < f_all f /\ ~ is_given ix p) /\
  StronglySorted lt (get_missing_indices f).
Proof.
  split.
  - intros p. unfold get_missing_indices, range. rewrite filter_In, in_seq, Nat.ltb_lt. split.
    + intros [A B]. split; [lia|]. apply fmc_zero; auto. lia.
    + intros [A B]. split; [lia|]. apply fmc_zero; auto.
  - unfold get_missing_indices, range. generalize (fun i => 0 <? nth i (f_fmc f) 0). intros g.
    generalize 0. generalize (f_all f). intros n. induction n as [|n IH]; intros k; cbn [seq filter]; [constructor|].
    destruct (g k); auto. constructor; auto. rewrite Forall_forall. intros x I.
    apply filter_In in I. destruct I as [I _]. apply in_seq in I. lia.
Qed.

Lemma segments_loop_spec : forall fuel i, f_all f - i <= fuel ->
  (i < f_all f -> ~ is_given ix i -> 0 < i /\ is_given ix (i - 1)) ->
  let r := missing_segments_loop fuel i f in
  (forall s l, In (s, l) r -> i <= s /\ is_gap ix s l) /\
  (forall s l, i <= s -> is_gap ix s l -> In (s, l) r) /\
  StronglySorted lt (map fst r).
Proof.
  induction fuel as [|k IH]; intros i HFu INV r; subst r; cbn [missing_segments_loop].
  - split; [intros s l []|]. split; [|constructor]. intros s l Ls (A & B & C & D & E). apply given_lt in E. lia.
  - destruct (i <? f_all f) eqn:EI; [apply Nat.ltb_lt in EI|apply Nat.ltb_ge in EI].
    2:{ split; [intros s l []|]. split; [|constructor]. intros s l Ls (A & B & C & D & E). apply given_lt in E. lia. }
    destruct (fmc_facts i EI) as [F1 F2]. cbv zeta. set (c := nth i (f_fmc f) 0) in *. clearbody c.
    destruct (0 <? c) eqn:EC; [apply Nat.ltb_lt in EC|apply Nat.ltb_ge in EC].
    + assert (NG : ~ is_given ix i) by (apply F2; lia). destruct (INV EI NG) as [I0 I1].
      destruct (IH (i + c)) as (A & B & C); [lia|intros _ X; contradiction|].
      assert (G : is_gap ix i c) by (split; auto; split; auto).
      split; [|split].
      * intros s l [E|I]; [inversion E; subst; auto|]. destruct (A s l I). split; auto. lia.
      * intros s l Ls GAP. pose proof GAP as (A1 & A2 & A3 & A4 & A5).
        destruct (Nat.eq_dec s i) as [->|N].
        -- left. f_equal. destruct (Nat.lt_trichotomy l c) as [X|[X|X]]; auto.
           ++ exfalso. apply (F2 (i + l)); auto. lia.
           ++ exfalso. apply (A2 (i + c)); auto. lia.
        -- right. apply B; auto. destruct (Nat.le_gt_cases (i + c) s); auto. exfalso. apply (F2 (s - 1)); auto. lia.
      * cbn [map fst]. constructor; auto. rewrite Forall_forall. intros x I. apply in_map_iff in I.
        destruct I as ([s l] & <- & I). destruct (A s l I). cbn. lia.
    + assert (c = 0) by lia. subst c. rewrite Nat.add_0_r in F1.
      destruct (IH (i + 1)) as (A & B & C); [lia|intros _ _; split; [lia|rewrite Nat.add_sub; auto]|].
      split; [|split; auto].
      * intros s l I. destruct (A s l I). split; auto. lia.
      * intros s l Ls GAP. apply B; auto. pose proof GAP as (A1 & A2 & _).
        destruct (Nat.eq_dec s i) as [->|]; [|lia]. exfalso. apply (A2 i); auto. lia.
Qed.
End Gaps.
