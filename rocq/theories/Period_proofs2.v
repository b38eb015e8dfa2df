(** The numeric tests of the simple detector always answer. *)
From Coq Require Import String List Arith ZArith QArith Qcanon Lia Bool Sorted.
From Verif Require Import Base Num Kernel_model Kernel_spec Kernel_proofs Kernel_proofs4 Kernel_proofs5 Kernel_proofs6
  Helpers_model Helpers_spec Helpers_proofs Helpers_proofs2 Detect_model Period_model Period_spec.
Import ListNotations.
Open Scope nat_scope.

(** * median_filter answers for every rounding *)
Lemma get_total : forall A (l : list A) i, i < length l -> exists x, get l i = Ok x.
Proof. intros. unfold get. destruct (nth_error_ex _ l i H) as (x & ->). eauto. Qed.

Lemma bisect_total : forall l x fuel lo hi, hi - lo <= fuel -> lo <= hi -> hi <= length l ->
  exists r, bisect_right_loop fuel l x lo hi = Ok r /\ lo <= r <= hi.
Proof.
  intros l x. induction fuel as [|k IH]; intros lo hi HF HL HH; cbn [bisect_right_loop].
  - assert (E : (lo <? hi) = false) by (apply Nat.ltb_ge; lia). rewrite E. exists lo. split; [reflexivity|lia].
  - destruct (lo <? hi) eqn:E; cbn [negb]; [|exists lo; apply Nat.ltb_ge in E; split; [reflexivity|lia]].
    apply Nat.ltb_lt in E. pose proof (Nat.div_mod (lo + hi) 2 ltac:(lia)).
    pose proof (Nat.mod_upper_bound (lo + hi) 2 ltac:(lia)).
    destruct (get_total _ l ((lo + hi) / 2) ltac:(lia)) as (y & ->). rewrite bind_ok.
    destruct (x <? y)%Qc.
    + destruct (IH lo ((lo + hi) / 2)) as (r & -> & R); try lia. exists r. split; auto. lia.
    + destruct (IH (S ((lo + hi) / 2)) hi) as (r & -> & R); try lia. exists r. split; auto. lia.
Qed.

Lemma shift_up_total : forall index l add, index < length l -> exists r, shift_up l index add = Ok r /\ length r = length l.
Proof.
  induction index as [|k IH]; intros l add L; cbn [shift_up].
  - destruct (add <? 0); eauto.
  - destruct (add <? S k); [|eauto]. destruct (get_total _ l k ltac:(lia)) as (x & ->). rewrite bind_ok.
    destruct (IH (upd l (S k) x) add) as (r & E & R); [rewrite upd_length; lia|].
    exists r. split; auto. rewrite R. apply upd_length.
Qed.

Lemma shift_down_total : forall n l index, index + n < length l \/ n = 0 ->
  exists r, shift_down l index n = Ok r /\ length r = length l.
Proof.
  induction n as [|n IH]; intros l index L; cbn [shift_down]; [eauto|].
  destruct (get_total _ l (S index) ltac:(lia)) as (x & ->). rewrite bind_ok.
  destruct (IH (upd l index x) (S index)) as (r & E & R); [rewrite upd_length; lia|].
  exists r. split; auto. rewrite R. apply upd_length.
Qed.

Lemma win_insert_total : forall cur len key x, len < length cur ->
  exists c, win_insert cur len key x = Ok c /\ length c = length cur.
Proof.
  intros cur len key x L. unfold win_insert, bisect_right.
  destruct (bisect_total (firstn len cur) key (length (firstn len cur)) 0 (length (firstn len cur))) as (r & -> & _); try lia.
  rewrite bind_ok. destruct (shift_up_total len cur r L) as (c & -> & LC). rewrite bind_ok.
  eexists. split; [reflexivity|]. rewrite upd_length. auto.
Qed.

Lemma win_delete_total : forall cur len key, 0 < len -> len <= length cur ->
  exists c, win_delete cur len key = Ok c /\ length c = length cur.
Proof.
  intros cur len key L0 L. unfold win_delete, bisect_right.
  destruct (bisect_total (firstn len cur) key (length (firstn len cur)) 0 (length (firstn len cur))) as (r & -> & LR); try lia.
  rewrite firstn_length in LR. rewrite bind_ok. destruct r as [|d].
  - destruct (get_total _ cur 0 ltac:(lia)) as (x & ->). rewrite bind_ok.
    destruct (shift_down_total (len - 1) (upd cur (length cur - 1) x) 0) as (c & E & LC).
    + rewrite upd_length. lia.
    + exists c. split; auto. rewrite LC. apply upd_length.
  - destruct (shift_down_total (len - 1 - d) cur d) as (c & E & LC); [lia|]. exists c. auto.
Qed.

Lemma sorted_median_total : forall cur n, 0 < n -> n <= length cur -> exists m, sorted_median cur 0 n = Ok m.
Proof.
  intros cur n L0 L. unfold sorted_median. rewrite Nat.sub_0_r.
  destruct (n =? 0) eqn:E; [apply Nat.eqb_eq in E; lia|]. cbn [Nat.add].
  pose proof (Nat.div_mod n 2 ltac:(lia)). pose proof (Nat.mod_upper_bound n 2 ltac:(lia)).
  destruct (n mod 2 =? 1) eqn:M.
  - apply get_total. lia.
  - apply Nat.eqb_neq in M.
    destruct (get_total _ cur (n / 2 - 1) ltac:(lia)) as (x & ->). rewrite bind_ok.
    destruct (get_total _ cur (n / 2) ltac:(lia)) as (y & ->). rewrite bind_ok. eauto.
Qed.

Section MFTotal.
Variables (r32 : Qc -> Qc) (data : list Qc) (h : nat).
Hypothesis LEN : 2 * h + 1 <= length data.

Lemma mf_fill_total : forall two_end n i cur ans, i + n = 2 * h + 1 -> length cur = 2 * h + 1 ->
  length ans = length data ->
  exists cur' ans', mf_fill r32 data h two_end (seq i n) cur ans = Ok (cur', ans') /\ length cur' = 2 * h + 1 /\
    length ans' = length data.
Proof.
  intros two_end. induction n as [|n IH]; intros i cur ans HN LC LA; cbn [seq mf_fill]; [eauto|].
  destruct (get_total _ data i ltac:(lia)) as (x & ->). rewrite bind_ok.
  destruct (win_insert_total cur i (r32 x) (r32 x)) as (c & -> & LC'); [lia|]. rewrite bind_ok.
  destruct ((h <=? i) && two_end).
  - destruct (sorted_median_total c (S i)) as (m & ->); [lia|lia|]. rewrite !bind_ok.
    apply IH; try lia. rewrite upd_length. auto.
  - rewrite bind_ok. apply IH; try lia.
Qed.

Lemma mf_slide_total : forall n i cur ans, i + n = length data - h -> h < i -> length cur = 2 * h + 1 ->
  length ans = length data ->
  exists cur' ans', mf_slide r32 data h (seq i n) cur ans = Ok (cur', ans') /\ length cur' = 2 * h + 1 /\
    length ans' = length data.
Proof.
  induction n as [|n IH]; intros i cur ans HN HI LC LA; cbn [seq mf_slide]; [eauto|].
  destruct (get_total _ data (i - h - 1) ltac:(lia)) as (x & ->). rewrite bind_ok.
  destruct (win_delete_total cur (2 * h + 1) (r32 x)) as (c & -> & LC'); [lia|lia|]. rewrite bind_ok.
  destruct (get_total _ data (i + h) ltac:(lia)) as (y & ->). rewrite bind_ok.
  destruct (win_insert_total c (2 * h) (r32 y) (r32 y)) as (c2 & -> & LC2); [lia|]. rewrite bind_ok.
  destruct (sorted_median_total c2 (2 * h + 1)) as (m & ->); [lia|lia|]. rewrite bind_ok.
  apply IH; try lia. rewrite upd_length. auto.
Qed.

Lemma mf_tail_total : forall n i wl cur ans, i + n = length data -> h < i -> n < wl -> wl <= length cur ->
  length ans = length data ->
  exists ans', mf_tail r32 data h (seq i n) wl cur ans = Ok ans' /\ length ans' = length data.
Proof.
  induction n as [|n IH]; intros i wl cur ans HN HI HW LC LA; cbn [seq mf_tail]; [eauto|].
  destruct (get_total _ data (i - h - 1) ltac:(lia)) as (x & ->). rewrite bind_ok.
  destruct (win_delete_total cur wl x) as (c & -> & LC'); [lia|lia|]. rewrite bind_ok. cbv zeta.
  destruct (sorted_median_total c (wl - 1)) as (m & ->); [lia|lia|]. rewrite bind_ok.
  apply IH; try lia. rewrite upd_length. auto.
Qed.
End MFTotal.

Lemma median_filter_total : forall r32 data window two_end,
  exists out, median_filter r32 data window two_end = Ok out /\ length out = length data.
Proof.
  intros r32 data window two_end. unfold median_filter. set (h := window / 2).
  destruct (length data <? 2 * h + 1) eqn:E.
  - eexists. split; [reflexivity|]. apply map_length.
  - apply Nat.ltb_ge in E.
    destruct (mf_fill_total r32 data h E two_end (2 * h + 1) 0 (repeat 0%Qc (2 * h + 1)) (map r32 data))
      as (cur & ans & E1 & L1 & A1); auto.
    { apply repeat_length. } { apply map_length. }
    unfold range. rewrite E1, bind_ok. cbv beta iota.
    destruct (sorted_median_total cur (2 * h + 1)) as (m & ->); [lia|lia|]. rewrite bind_ok.
    destruct (mf_slide_total r32 data h E (length data - h - S h) (S h) cur (upd ans h (r32 m)))
      as (cur2 & ans2 & E2 & L2 & A2); try lia.
    { rewrite upd_length. auto. }
    rewrite E2, bind_ok. cbv beta iota. destruct two_end; [|eauto].
    apply mf_tail_total; try lia.
Qed.

(** * Variance *)
Lemma qvar_variance : forall l, qvar l = variance l.
Proof. intros. unfold qvar, variance, qmean. rewrite map_length. reflexivity. Qed.

Lemma qmean_ge_some : forall l, l <> [] -> exists x, In x l /\ (x <= qmean l)%Qc.
Proof.
  intros l H. exists (qmin_list l). split; [apply qmin_list_in; auto|].
  apply (qmean_bounds l (qmin_list l) (qmax_list l)); auto.
  intros x Hx. split; [apply qmin_list_le|apply qmax_list_ge]; auto.
Qed.

Lemma within_variance : forall l, l <> [] -> exists x, In x l /\
  ((x - qmean l) * (x - qmean l) <= qvar l)%Qc.
Proof.
  intros l H. destruct (qmean_ge_some (map (fun x => (x - qmean l) * (x - qmean l))%Qc l)) as (y & I & L).
  - destruct l; [congruence|discriminate].
  - apply in_map_iff in I. destruct I as (x & <- & I). exists x. auto.
Qed.

Lemma qvar_nonneg : forall l, l <> [] -> (0 <= qvar l)%Qc.
Proof.
  intros l H. destruct (within_variance l H) as (x & _ & L).
  pose proof (Qcsqr_nonneg (x - qmean l)). qlra.
Qed.

(** |d| < 3 s from d^2 < 9 s^2 *)
Lemma below_three : forall d s : Qc, (0 <= s)%Qc -> (d * d <= Q2Qc (8999 # 1000) * (s * s))%Qc ->
  (Qcabs d / (s + Q2Qc (1 # 100000000)) < Q2Qc 3)%Qc.
Proof.
  intros d s Hs H. apply Qcdiv_lt_iff; [qlra|].
  destruct (Qclt_le_dec' (Qcabs d) (Q2Qc 3 * (s + Q2Qc (1 # 100000000)))) as [L|L]; auto.
  exfalso. assert (A : (Qcabs d * Qcabs d = d * d)%Qc) by (unfold Qcabs; destruct (0 <=? d)%Qc; ring).
  rewrite <- A in H. set (a := Qcabs d) in *.
  assert (Q2Qc 3 * s < a)%Qc by qlra.
  assert ((Q2Qc 3 * s) * (Q2Qc 3 * s) < a * a \/ a * a <= (Q2Qc 3 * s) * (Q2Qc 3 * s))%Qc as [X|X]
    by (destruct (Qclt_le_dec' ((Q2Qc 3 * s) * (Q2Qc 3 * s)) (a * a)); auto); qnra.
Qed.

Section Std.
Variable std : list Qc -> Qc.
Hypothesis FS : fair_std std.

Lemma eps8_pos : (0 < Q2Qc (1 # 100000000))%Qc. Proof. reflexivity. Qed.

Lemma smooth_total : forall data, data <> [] ->
  exists r, smooth_spikes std data = Ok r /\ length r = length data.
Proof.
  intros data H. unfold smooth_spikes. destruct (FS data H) as [S0 S1].
  destruct (within_variance data H) as (x & I & L).
  apply In_nth_error in I. destruct I as (k & E).
  match goal with |- context [interp ?l] => set (bl := l) end.
  assert (K : nth_error bl k = Some (Some x)).
  { unfold bl. rewrite nth_error_map, E. cbn [option_map].
    assert (X : (Qcabs (x - qmean data) / (std data + Q2Qc (1 # 100000000)) < Q2Qc 3)%Qc).
    { apply below_three; auto. rewrite qvar_variance in L. qnra. }
    replace (Q2Qc 3 <=? Qcabs (x - qmean data) / (std data + Q2Qc (1 # 100000000)))%Qc with false
      by (symmetry; apply Qcleb_gt; auto). rewrite andb_false_r. reflexivity. }
  destruct (interp_spec bl) as (out & EO & LO & _); [exists k, x; auto|].
  exists out. split; auto. rewrite LO. unfold bl. apply map_length.
Qed.

Lemma interp_all_known : forall l, l <> [] -> interp (map Some l) = Ok l.
Proof.
  intros l H. destruct (interp_spec (map Some l)) as (out & -> & LO & SP).
  - destruct l as [|x t]; [congruence|]. exists 0, x. reflexivity.
  - f_equal. rewrite map_length in LO. apply nth_error_ext_len; auto.
    intros k Lk. destruct (nth_error_ex _ out k Lk) as (v & E). rewrite E.
    specialize (SP k v E).
    destruct (nth_error_ex _ l k ltac:(lia)) as (w & EW).
    assert (KK : forall q, q < length l -> exists z, nth_error (map Some l) q = Some (Some z)).
    { intros q Lq. destruct (nth_error_ex _ l q Lq) as (z & Ez). exists z. rewrite nth_error_map, Ez. auto. }
    destruct SP as [SP|[(a & b & x & y & L & Hx & Hy & NN & _)|[(b & L & Hb & NN)|(a & L & Ha & NN)]]].
    + rewrite nth_error_map, EW in SP. cbn in SP. congruence.
    + exfalso. destruct (KK k ltac:(lia)) as (z & Ez). apply (NN k z L Ez).
    + exfalso. destruct (KK k ltac:(lia)) as (z & Ez). apply (NN k z L Ez).
    + exfalso. destruct (KK k ltac:(lia)) as (z & Ez). apply (NN k z L Ez).
Qed.

Lemma smooth_no_spikes : forall data, data <> [] -> no_spikes data -> smooth_spikes std data = Ok data.
Proof.
  intros data H NS. unfold smooth_spikes. destruct (FS data H) as [S0 S1].
  rewrite (map_ext_in _ Some).
  - apply interp_all_known; auto.
  - intros x I. specialize (NS x I). cbv zeta in NS. fold (qmean data) in NS.
    assert (X : (Qcabs (x - qmean data) / (std data + Q2Qc (1 # 100000000)) < Q2Qc 3)%Qc).
    { apply below_three; auto. qnra. }
    replace (Q2Qc 3 <=? Qcabs (x - qmean data) / (std data + Q2Qc (1 # 100000000)))%Qc with false
      by (symmetry; apply Qcleb_gt; auto). rewrite andb_false_r. reflexivity.
Qed.

Variable r32 : Qc -> Qc.
Variable rnd : nat -> nat -> nat -> nat.

Lemma check_total : forall values p d, 0 < p -> 2 * p <= length values ->
  exists b, check_period values p d = Ok b.
Proof.
  intros values p d Hp L. unfold check_period. rewrite gcv_ok by auto. rewrite bind_ok. eauto.
Qed.

Lemma normalize_total : forall values, values <> [] ->
  exists out mn mx, normalize values = Ok (out, mn, mx) /\ length out = length values.
Proof.
  intros values H. destruct (normalize_spec values H) as (out & mn & mx & E & L & _). eauto.
Qed.

Lemma is_valid_total : forall values p, 0 < p -> 2 * p < length values ->
  exists b, is_valid_period std r32 rnd values p = Ok b.
Proof.
  intros values p Hp L. unfold is_valid_period.
  assert (NE : values <> []) by (intro X; subst; cbn in L; lia).
  destruct (normalize_total values NE) as (normed & mn & mx & -> & LN). rewrite bind_ok. cbv zeta. cbn [fst].
  assert (NN : normed <> []) by (intro X; subst; cbn in LN; lia).
  destruct (smooth_total normed NN) as (rs & -> & LR). rewrite bind_ok.
  destruct (close_to_zero (qvar rs)); [eauto|].
  destruct (check_total rs p false) as (b & ->); [lia|lia|]. rewrite bind_ok.
  destruct b; [eauto|].
  destruct (median_filter_total r32 normed p true) as (mt & -> & LM). rewrite bind_ok.
  set (dt := zip_with _ normed mt).
  assert (LD : length dt = length normed) by (unfold dt; rewrite zip_with_length; lia).
  destruct (smooth_total dt) as (dt2 & -> & LD2); [intro X; rewrite X in LD; cbn in LD; lia|]. rewrite bind_ok.
  rewrite bucket_spec by lia. rewrite bind_ok.
  match goal with |- context [close_to_zero (qvar ?l)] => set (dt3 := l) end.
  assert (LD3 : length dt3 = length dt2) by (unfold dt3; apply mapi_length).
  destruct (close_to_zero (qvar dt3)); [eauto|].
  apply check_total; lia.
Qed.
End Std.
