(** A lone spike on a level series has no period (C116). *)
From Coq Require Import String List Arith ZArith QArith Qcanon Qround Lia Bool Sorted Permutation.
From Verif Require Import Base Num Sorting FillUp_proofs2 Kernel_model Kernel_spec Kernel_proofs Kernel_proofs3 Kernel_props Helpers_model Helpers_spec Helpers_proofs Helpers_proofs2 Helpers_props
  Margins_model SR_model Detect_model Detect_spec Detect_proofs Detect_proofs2 Period_model Period_spec Period_proofs Period_proofs2 Period_proofs3 Period_proofs6 Spike_spec Spike_proofs Spike_proofs3 Lone_spec Lone_proofs.
Import ListNotations.
Open Scope nat_scope.

Section Smooth.
Variable std : list Qc -> Qc.
Hypothesis FA : fair_std std.
(** Of zeros and a one (or ones and a zero) only the odd one out is three
    deviations and 10^-8 from the mean. *)
Lemma smooth_scores : forall n k y d, 12 <= n -> k < n -> (d * d = 1)%Qc -> close_std std (spiked n k y d) ->
  let vs := spiked n k y d in let s := (std vs + Q2Qc (1 # 100000000))%Qc in
  (0 < s)%Qc /\ (Q2Qc 3 <=? Qcabs (y + d - qmean vs) / s)%Qc = true /\ (Q2Qc 3 <=? Qcabs (y - qmean vs) / s)%Qc = false.
Proof.
  intros n k y d N K DD [S0 SC]. cbv zeta. set (vs := spiked n k y d) in *. assert (P : Permutation vs (spiked n k y d)) by apply Permutation_refl. clearbody vs. assert (LV : length vs = n) by (rewrite (Permutation_length P); apply spiked_length).
  assert (QM : qmean vs = (y + d / qn n)%Qc). { rewrite <- (spiked_mean n k y d K). unfold qmean. rewrite LV, spiked_length, (qsum_perm _ _ P). auto. }
  destruct (FA vs) as [_ SF]. { intros ->. cbn in LV. lia. }
  assert (VV : variance vs = variance (spiked n k y d)).
  { unfold variance. rewrite LV, spiked_length, (qsum_perm _ _ P). f_equal. apply qsum_perm. apply Permutation_map. auto. }
  rewrite VV in SF. pose proof (spiked_variance n k y d K) as VA. pose proof (spiked_deviations n k y d K) as DE.
  assert (DV : qsum (map (fun x => (x - qmean vs) * (x - qmean vs))%Qc vs) =
               qsum (map (fun x => (x - qmean (spiked n k y d)) * (x - qmean (spiked n k y d)))%Qc (spiked n k y d))).
  { rewrite QM, (spiked_mean n k y d K). apply qsum_perm. apply Permutation_map. auto. }
  rewrite DV, LV in SC. rewrite QM. clear DV VV QM P LV. set (sd := std vs) in *. set (va := variance _) in *. set (de := qsum _) in *. clearbody sd va de.
  rewrite DD in *. destruct n as [|m]; [lia|]. replace (S m - 1) with m in * by lia.
  assert (M1 : (Q2Qc 11 <= qn m)%Qc) by (change (Q2Qc 11) with (qn 11); apply qn_le; lia).
  assert (Q : qn (S m) <> 0%Qc) by (apply qn_neq0; lia). rewrite qn_S in *. set (q := qn m) in *. clearbody q. set (w := (1 + q)%Qc) in *.
  assert (W0 : (0 < w)%Qc) by (unfold w; qlra).
  set (z := (sd * w)%Qc). assert (Z0 : (0 <= z)%Qc) by (unfold z; apply Qcmul_nonneg; auto; apply Qclt_le_weak; auto).
  assert (U1 : (z * z <= Q2Qc (101 # 100) * q)%Qc).
  { assert (X : (0 <= w * (Q2Qc (101 # 100) * de - w * (sd * sd)))%Qc) by (apply Qcmul_nonneg; [apply Qclt_le_weak; auto|qlra]).
    replace (w * (Q2Qc (101 # 100) * de - w * (sd * sd)))%Qc with (Q2Qc (101 # 100) * (w * de) - z * z)%Qc in X by (unfold z; ring).
    rewrite DE in X. rewrite Qcmult_1_r in X. qlra. }
  assert (U2 : (q <= Q2Qc (101 # 100) * (z * z))%Qc).
  { assert (X : (0 <= w * w * (Q2Qc (101 # 100) * (sd * sd) - va))%Qc) by (apply Qcmul_nonneg; [apply Qcmul_nonneg; apply Qclt_le_weak; auto|qlra]).
    replace (w * w * (Q2Qc (101 # 100) * (sd * sd) - va))%Qc with (Q2Qc (101 # 100) * (z * z) - w * w * va)%Qc in X by (unfold z; ring).
    rewrite VA in X. rewrite Qcmult_1_r in X. qlra. }
  assert (SP : (0 < sd)%Qc).
  { apply Qcle_lt_or_eq in S0. destruct S0 as [|X]; auto. exfalso. unfold z in U2. rewrite <- X in U2.
    replace (Q2Qc (101 # 100) * (Q2Qc 0 * w * (Q2Qc 0 * w)))%Qc with 0%Qc in U2 by ring. qlra. }
  assert (ZP : (0 < z)%Qc) by (unfold z; apply Qcmul_pos; auto).
  assert (A1 : Qcabs (y + d - (y + d / w)) = (q / w)%Qc).
  { replace (y + d - (y + d / w))%Qc with (d * (q / w))%Qc by (unfold w in *; field; auto). apply abs_unit; auto.
    apply Qclt_le_weak. unfold Qcdiv. apply Qcmul_pos; [qlra|]. apply Qcinv_pos; auto. }
  assert (A2 : Qcabs (y - (y + d / w)) = (1 / w)%Qc).
  { replace (y - (y + d / w))%Qc with (- (d * (1 / w)))%Qc by (field; auto). rewrite Qcabs_opp. apply abs_unit; auto.
    apply Qclt_le_weak. unfold Qcdiv. apply Qcmul_pos; [reflexivity|]. apply Qcinv_pos; auto. }
  assert (ZN : z <> 0%Qc) by (intro X; rewrite X in ZP; discriminate). assert (SN : sd <> 0%Qc) by (intro X; rewrite X in SP; discriminate).
  set (e := Q2Qc (1 # 100000000)). assert (E0 : (0 < e)%Qc) by reflexivity. assert (E1 : (Q2Qc 100000000 * e = 1)%Qc) by (apply Qc_is_canon; reflexivity). clearbody e.
  cbv zeta. assert (SE : (0 < sd + e)%Qc) by qlra. assert (SN' : (sd + e)%Qc <> 0%Qc) by (intro X; rewrite X in SE; discriminate).
  assert (WE : (0 < w * e)%Qc) by (apply Qcmul_pos; auto). set (v := (z + w * e)%Qc). assert (VP : (0 < v)%Qc) by (unfold v; qlra).
  assert (VN : v <> 0%Qc) by (intro X; rewrite X in VP; discriminate).
  assert (SV : (sd + e = v / w)%Qc) by (unfold v, z; field; auto).
  rewrite A1, A2. replace (q / w / (sd + e))%Qc with (q / v)%Qc by (rewrite SV; field; auto). replace (1 / w / (sd + e))%Qc with (1 / v)%Qc by (rewrite SV; field; auto).
  split; [auto|]. split.
  - apply Qcleb_le. apply Qcnot_lt_le. intro X. apply Qcdiv_lt_iff in X; auto.
    assert (WQ : (Q2Qc 100000000 * (w * e) = 1 + q)%Qc) by (transitivity (w * (Q2Qc 100000000 * e))%Qc; [ring|rewrite E1; unfold w; ring]).
    set (we := (w * e)%Qc) in *. clearbody we. unfold v in X.
    assert (X1 : (Q2Qc (33 # 100) * q <= z)%Qc) by qlra.
    assert (Y : (0 <= (z - Q2Qc (33 # 100) * q) * (z + Q2Qc (33 # 100) * q))%Qc) by (apply Qcmul_nonneg; qlra).
    replace ((z - Q2Qc (33 # 100) * q) * (z + Q2Qc (33 # 100) * q))%Qc with (z * z - Q2Qc (1089 # 10000) * (q * q))%Qc in Y
      by (replace (Q2Qc (1089 # 10000)) with (Q2Qc (33 # 100) * Q2Qc (33 # 100))%Qc by (apply Qc_is_canon; reflexivity); ring).
    assert (Y2 : (0 <= (q - Q2Qc 11) * q)%Qc) by (apply Qcmul_nonneg; qlra). set (zz := (z * z)%Qc) in *.
    replace ((q - Q2Qc 11) * q)%Qc with (q * q - Q2Qc 11 * q)%Qc in Y2 by ring. set (qq := (q * q)%Qc) in *. clearbody zz qq. qlra.
  - apply Qcleb_gt. apply Qcdiv_lt_iff; auto. apply Qcnot_le_lt. intro X. unfold v in X.
    assert (Z1 : (z <= Q2Qc (1 # 3))%Qc) by qlra.
    assert (Y : (0 <= (Q2Qc (1 # 3) - z) * (Q2Qc (1 # 3) + z))%Qc) by (apply Qcmul_nonneg; qlra).
    replace ((Q2Qc (1 # 3) - z) * (Q2Qc (1 # 3) + z))%Qc with (Q2Qc (1 # 9) - z * z)%Qc in Y by (replace (Q2Qc (1 # 9)) with (Q2Qc (1 # 3) * Q2Qc (1 # 3))%Qc by (apply Qc_is_canon; reflexivity); ring).
    set (zz := (z * z)%Qc) in *. clearbody zz. qlra.
Qed.

(** Taken out, the spike leaves the level. *)
Lemma smooth_spiked : forall n k y d, 12 <= n -> k < n -> (d * d = 1)%Qc -> close_std std (spiked n k y d) ->
  smooth_spikes std (spiked n k y d) = Ok (repeat y n).
Proof.
  intros n k y d N K DD CS. destruct (smooth_scores n k y d N K DD CS) as (S0 & S1 & S2). unfold smooth_spikes. cbv zeta in *.
  set (vs := spiked n k y d) in *. set (s := (std vs + Q2Qc (1 # 100000000))%Qc) in *.
  assert (SN : (s =? 0)%Qc = false). { destruct (s =? 0)%Qc eqn:X; auto. apply Qceqb_eq in X. rewrite X in S0. discriminate. }
  set (blanked := map _ vs).
  assert (PB : forall t x, nth_error blanked t = Some (Some x) -> x = y).
  { intros t x H. unfold blanked in H. rewrite nth_error_map in H. destruct (nth_error vs t) as [v|] eqn:E; [|discriminate]. cbn [option_map] in H.
    assert (t < n) by (apply nth_error_lt in E; unfold vs in E; rewrite spiked_length in E; auto). unfold vs in E. rewrite spiked_nth in E by auto.
    rewrite SN in H. cbn [negb andb] in H. assert (v = if t =? k then (y + d)%Qc else y) by congruence. destruct (t =? k); subst v; [rewrite S1 in H|rewrite S2 in H]; congruence. }
  assert (LB : length blanked = n) by (unfold blanked; rewrite map_length; apply spiked_length).
  destruct (C24_interp_interpolates blanked) as (out & E & LO & _).
  { set (j := if k =? 0 then 1 else 0). assert (J : j < n /\ (j =? k) = false). { unfold j. destruct (k =? 0) eqn:X; [apply Nat.eqb_eq in X|apply Nat.eqb_neq in X]; split; try lia; apply Nat.eqb_neq; lia. }
    destruct J as [J1 J2]. exists j, y. unfold blanked. rewrite nth_error_map.
    assert (NJ : nth_error vs j = Some y) by (unfold vs; rewrite spiked_nth by auto; rewrite J2; auto). rewrite NJ. cbn [option_map].
    rewrite S2, andb_false_r. reflexivity. }
  rewrite E. f_equal. assert (R : forall v, In v out -> v = y).
  { intros v I. destruct (C24_interp_in_range blanked out y y E) with (v := v) as [A B]; auto.
    - intros q x H. rewrite (PB q x H). split; apply Qcle_refl.
    - apply Qcle_antisym; auto. }
  rewrite <- LB, <- LO. clear - R. induction out as [|v t IH]; auto. cbn [length repeat]. rewrite (R v) by (left; auto). f_equal. apply IH. intros; apply R; right; auto.
Qed.
End Smooth.

Section Search.
Variable std : list Qc -> Qc.
Variable r32 : Qc -> Qc.
Variable rnd : nat -> nat -> nat -> nat.
Variable acf : list Qc -> nat -> res (list (option Qc) * list (option Qc)).
Variable peaks : list Qc -> Qc -> option (list peak).
Variable fit_trend : string -> list Qc -> res (list Qc).
Hypothesis FA : fair_std std.
Hypothesis CS : forall l, l <> [] -> (forall x, In x l -> x = 0%Qc \/ x = 1%Qc) -> close_std std l.
Notation period_detection := (period_detection std r32 rnd acf peaks fit_trend).

(** Scaled and without its spikes the series is level. *)
Lemma scaled_smooth : forall n k b c, 12 <= n -> k < n -> c <> 0%Qc ->
  exists s mn mx y, normalize (spiked n k b c) = Ok (s, mn, mx) /\ length s = n /\ (y = 0 \/ y = 1)%Qc /\ smooth_spikes std s = Ok (repeat y n).
Proof.
  intros n k b c N K C. destruct (spiked_normalize n k b c ltac:(lia) K C) as (mn & mx & E). set (s := if (0 <? c)%Qc then spiked n k 0%Qc 1%Qc else spiked n k 1%Qc (- (1))%Qc) in E.
  exists s, mn, mx, (if (0 <? c)%Qc then 0%Qc else 1%Qc). split; auto. unfold s.
  assert (G : forall y d, (y = 0 \/ y = 1)%Qc -> (y + d = 0 \/ y + d = 1)%Qc -> (d * d = 1)%Qc -> smooth_spikes std (spiked n k y d) = Ok (repeat y n)).
  { intros y d Y YD DD. apply smooth_spiked; auto. apply CS.
    - intro X. apply (f_equal (@length Qc)) in X. rewrite spiked_length in X. cbn in X. lia.
    - intros x I. unfold spiked in I. apply in_map_iff in I. destruct I as (t & <- & _). destruct (t =? k); auto. }
  destruct (0 <? c)%Qc; (split; [apply spiked_length|]; split; [auto|]; apply G; auto); try (left; apply Qc_is_canon; reflexivity); try (right; apply Qc_is_canon; reflexivity); apply Qc_is_canon; reflexivity.
Qed.

Lemma repeat_var : forall y n, 0 < n -> qvar (repeat y n) = 0%Qc.
Proof. intros y n N. apply (qvar_same y); [destruct n; [lia|discriminate]|]. intros x I. apply repeat_spec in I. auto. Qed.

Lemma lone_verify : forall n k b c g i, 12 <= n -> k < n -> c <> 0%Qc -> verify_period std r32 rnd (spiked n k b c) g i = Ok None.
Proof.
  intros n k b c g i N K C. unfold verify_period.
  assert (V : forall p, is_valid_period std r32 rnd (spiked n k b c) p = Ok false).
  { intros p. unfold is_valid_period. destruct (scaled_smooth n k b c N K C) as (s & mn & mx & y & -> & _ & _ & E). rewrite bind_ok. cbn [fst]. rewrite E, bind_ok.
    rewrite repeat_var by lia. reflexivity. }
  assert (E : forall ps, verify_loop std r32 rnd (spiked n k b c) ps = Ok None).
  { induction ps as [|p t IH]; cbn [verify_loop]; [reflexivity|]. rewrite V, bind_ok, IH. destruct (_ || _); reflexivity. }
  rewrite E, bind_ok. destruct (_ =? _); reflexivity.
Qed.

Lemma lone_detection : forall n k b c tt th mv cg g i skip, 12 <= n -> k < n -> c <> 0%Qc ->
  (forall kind y, tt = Some kind -> (y = 0 \/ y = 1)%Qc -> exists t e, fit_trend kind (repeat y n) = Ok t /\ length t = n /\ (forall x, In x t -> x = e)) ->
  period_detection (spiked n k b c) tt th mv cg g i skip = Ok (0, 1).
Proof.
  intros n k b c tt th mv cg g i skip N K C HT.
  assert (ES : spectrum_detect std acf peaks fit_trend (spiked n k b c) tt th mv cg = Ok 0).
  { unfold spectrum_detect. rewrite spiked_length. replace (n <? 12) with false by (symmetry; apply Nat.ltb_ge; auto).
    destruct (scaled_smooth n k b c N K C) as (s & mn & mx & y & -> & LS & Y & E). rewrite bind_ok. cbn [fst].
    assert (EC : calculate_period std acf peaks fit_trend s tt th mv cg = Ok 0).
    { unfold calculate_period. rewrite LS. replace (n <? 12) with false by (symmetry; apply Nat.ltb_ge; auto).
      unfold fit_seasons. rewrite E, bind_ok.
      assert (ET : exists t d, (match tt with None => Ok (repeat 0%Qc (length (repeat y n))) | Some kind => fit_trend kind (repeat y n) end) = Ok t /\
         length t = n /\ forall x, In x t -> x = d).
      { destruct tt as [kind|]; [apply HT; auto|]. exists (repeat 0%Qc n), 0%Qc. rewrite repeat_length. split; auto.
        split; [apply repeat_length|]. intros x I. apply repeat_spec in I. auto. }
      destruct ET as (t & d & -> & LT & HD). rewrite bind_ok, LT, repeat_length, Nat.eqb_refl. cbn [negb]. cbv zeta.
      assert (LZ : length (zip_with (fun a b : Qc => (a - b)%Qc) (repeat y n) t) = n) by (rewrite zip_with_length, repeat_length; lia).
      assert (HZ : forall x, In x (zip_with (fun a b : Qc => (a - b)%Qc) (repeat y n) t) -> x = (y - d)%Qc).
      { clear - HD. revert t HD. induction n as [|n IH]; intros t HD x I; [destruct I|]. destruct t as [|b t]; [destruct I|]. destruct I as [<-|I].
        - rewrite (HD b) by (left; auto). reflexivity.
        - apply (IH t); auto. intros z J. apply HD. right; auto. }
      rewrite (qvar_same (y - d)); [reflexivity| |auto].
      intro X. rewrite X in LZ. cbn in LZ. lia. }
    rewrite EC, bind_ok. reflexivity. }
  unfold Period_model.period_detection. rewrite ES, bind_ok. destruct skip; cbn [negb]; [rewrite bind_ok; reflexivity|].
  rewrite lone_verify, bind_ok by auto. reflexivity.
Qed.
End Search.
