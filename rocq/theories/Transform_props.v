(** C61: the optimised transform against its commented reference. *)
From Coq Require Import List Arith ZArith Lia Lra Bool Reals SpecFloat.
From Verif Require Import Base Helpers_model Transform_model Transform_spec.
Import ListNotations.
Open Scope R_scope.

Lemma rsum_app : forall a b, rsum (a ++ b) = rsum a + rsum b.
Proof. induction a as [|x t IH]; intros b; simpl; [lra|]. rewrite IH. lra. Qed.
Lemma rsum_rev : forall a, rsum (rev a) = rsum a.
Proof. induction a as [|x t IH]; simpl; auto. rewrite rsum_app. simpl. lra. Qed.

Lemma mult_log : forall cur l d, cur = exp l -> 0 <= d ->
  (if Rlt_dec 0 d then cur * d else cur) = exp (l + log_or_zero d).
Proof.
  intros cur l d -> H. unfold log_or_zero. destruct (Rlt_dec 0 d) as [G|G]; destruct (Req_EM_T d 0) as [Z|Z]; try lra.
  - rewrite exp_plus, exp_ln; auto.
  - rewrite Rplus_0_r. auto.
Qed.
Lemma div_log : forall cur l d, cur = exp l -> 0 <= d ->
  (if Rlt_dec 0 d then cur / d else cur) = exp (l - log_or_zero d).
Proof.
  intros cur l d -> H. unfold log_or_zero. destruct (Rlt_dec 0 d) as [G|G]; destruct (Req_EM_T d 0) as [Z|Z]; try lra.
  - unfold Rminus, Rdiv. rewrite exp_plus, exp_Ropp, exp_ln; auto.
  - rewrite Rminus_0_r. auto.
Qed.
Lemma root_exp : forall l n, 0 < n -> Rpower (exp l) (1 / n) = exp (l / n).
Proof. intros l n H. unfold Rpower. rewrite ln_exp. f_equal. field. lra. Qed.

Lemma mean3_short : forall seen d t, (length seen < 3)%nat ->
  mean3 (rev seen ++ d :: t) (length seen) = rsum (d :: seen) / INR (length seen + 1).
Proof.
  intros seen d t H. unfold mean3. cbv zeta. replace (length seen + 1 - 3)%nat with 0%nat by lia.
  assert (S : slice (rev seen ++ d :: t) 0 (length seen + 1) = rev seen ++ [d]).
  { unfold slice. simpl skipn. rewrite Nat.sub_0_r. rewrite firstn_app, rev_length.
    rewrite firstn_all2 by (rewrite rev_length; lia). replace (length seen + 1 - length seen)%nat with 1%nat by lia. auto. }
  rewrite S, rsum_app, rsum_rev, app_length, rev_length. simpl length. simpl rsum. f_equal. lra.
Qed.
Lemma mean3_full : forall rest a b c d t,
  mean3 (rev (a :: b :: c :: rest) ++ d :: t) (length (a :: b :: c :: rest)) = (d + a + b) / 3.
Proof.
  intros rest a b c d t. unfold mean3. cbv zeta. set (i := length (a :: b :: c :: rest)).
  assert (I : i = (length rest + 3)%nat) by (unfold i; simpl; lia).
  assert (S : slice (rev (a :: b :: c :: rest) ++ d :: t) (i + 1 - 3) (i + 1) = [b; a; d]).
  { unfold slice. simpl rev. rewrite <- !app_assoc. simpl app.
    replace (i + 1 - 3)%nat with (length (rev rest) + 1)%nat by (rewrite rev_length; lia).
    rewrite skipn_app, skipn_all2 by lia. replace (length (rev rest) + 1 - length (rev rest))%nat with 1%nat by lia.
    replace (i + 1 - (length (rev rest) + 1))%nat with 3%nat by (rewrite rev_length; lia). reflexivity. }
  rewrite S. simpl. lra.
Qed.

(** The running product holds the product of the last three non-zero
    magnitudes. *)
Lemma amplitudes_spec : forall mag seen cur, (forall d, In d seen -> 0 <= d) -> (forall d, In d mag -> 0 <= d) ->
  cur = exp (rsum (firstn 3 (map log_or_zero seen))) ->
  amplitudes cur (length seen) seen mag =
  map (fun j => exp (mean3 (map log_or_zero (rev seen ++ mag)) j)) (seq (length seen) (length mag)).
Proof.
  induction mag as [|d t IH]; intros seen cur HS HM HC; auto. cbn [amplitudes].
  assert (D : 0 <= d) by (apply HM; left; auto).
  rewrite (mult_log _ _ _ HC D).
  assert (NEXT : forall cur', cur' = exp (rsum (firstn 3 (map log_or_zero (d :: seen)))) ->
     amplitudes cur' (S (length seen)) (d :: seen) t =
     map (fun j => exp (mean3 (map log_or_zero (rev seen ++ d :: t)) j)) (seq (S (length seen)) (length t))).
  { intros cur' E. pose proof (IH (d :: seen) cur') as X. cbn [length rev] in X. rewrite <- app_assoc in X. apply X; auto.
    - intros x [<-|I]; auto.
    - intros x I. apply HM. right. auto. }
  cbn [length seq map]. destruct (length seen <? 3)%nat eqn:E.
  - apply Nat.ltb_lt in E.
    assert (F : firstn 3 (map log_or_zero seen) = map log_or_zero seen) by (apply firstn_all2; rewrite map_length; lia).
    f_equal.
    + rewrite root_exp by (apply lt_0_INR; lia). f_equal. rewrite F, map_app, map_rev. cbn [map].
      pose proof (mean3_short (map log_or_zero seen) (log_or_zero d) (map log_or_zero t)) as M. rewrite map_length in M.
      rewrite M by auto. cbn [rsum]. f_equal. lra.
    + apply NEXT. f_equal. cbn [map]. rewrite F. rewrite firstn_all2 by (simpl; rewrite map_length; lia). cbn [rsum]. lra.
  - apply Nat.ltb_ge in E. destruct seen as [|a [|b [|c rest]]]; try (simpl in E; lia).
    cbn [nth]. assert (C : 0 <= c) by (apply HS; simpl; auto).
    rewrite (div_log _ _ _ eq_refl C). cbn [map firstn rsum].
    f_equal.
    + rewrite root_exp by lra. f_equal. rewrite map_app, map_rev. cbn [map].
      pose proof (mean3_full (map log_or_zero rest) (log_or_zero a) (log_or_zero b) (log_or_zero c) (log_or_zero d) (map log_or_zero t)) as M.
      cbn [length] in *. rewrite map_length in M. rewrite M. f_equal. lra.
    + apply NEXT. f_equal. cbn [map firstn rsum]. lra.
Qed.

(** C61, the amplitudes: the geometric mean of the (up to) last three non-zero
    magnitudes. *)
Theorem C61_amplitude_is_geometric_mean : forall mag, (forall d, In d mag -> 0 <= d) ->
  amplitudes 1 0 [] mag = map (fun i => exp (mean3 (map log_or_zero mag) i)) (range (length mag)).
Proof. intros mag H. apply (amplitudes_spec mag [] 1); auto. - intros d []. - simpl. rewrite exp_0. auto. Qed.
Print Assumptions C61_amplitude_is_geometric_mean.

Lemma modulus_zero : forall z, modulus z = 0 -> fst z = 0 /\ snd z = 0.
Proof.
  intros [a b]. unfold modulus. cbn [fst snd]. intros H. apply sqrt_eq_0 in H; [|nra]. split; nra.
Qed.

(** C61. The optimised code returns what the commented reference returns, for
    every spectrum. *)
Theorem C61_transform_is_reference : forall trans, residual_core trans = reference_transform trans.
Proof.
  intros trans. unfold residual_core, reference_transform. cbv zeta.
  assert (M : map (fun z => R_sqrt.sqrt (fst z ^ 2 + snd z ^ 2)) trans = map modulus trans).
  { apply map_ext. intros z. unfold modulus. f_equal. ring. }
  rewrite M, C61_amplitude_is_geometric_mean.
  2:{ intros d I. apply in_map_iff in I. destruct I as (z & <- & _). apply sqrt_pos. }
  assert (LR : length (map (fun i : nat => exp (mean3 (map log_or_zero (map modulus trans)) i)) (range (length (map modulus trans)))) = length trans).
  { rewrite map_length. unfold range. rewrite seq_length, map_length. auto. }
  assert (ZL : forall A B C (f : A -> B -> C) a b, length (zip_with f a b) = Nat.min (length a) (length b)).
  { induction a as [|x s IHa]; intros [|y u]; simpl; auto. }
  assert (ZN : forall A B C (f : A -> B -> C) a b k x y, nth_error a k = Some x -> nth_error b k = Some y ->
     nth_error (zip_with f a b) k = Some (f x y)).
  { induction a as [|u s IHa]; intros [|w v] [|k] x y X Y; simpl in *; try discriminate; auto. congruence. }
  apply nth_error_ext_len; [rewrite ZL, LR, mapi_length; lia|].
  intros i Hi. rewrite ZL, LR in Hi. destruct (nth_error_ex _ trans i ltac:(lia)) as [z Hz].
  rewrite nth_error_mapi, Hz. simpl option_map.
  erewrite ZN; [|exact Hz|].
  2:{ rewrite nth_error_map. unfold range. rewrite nth_error_seq, map_length.
      assert (X : (i <? length trans)%nat = true) by (apply Nat.ltb_lt; lia). rewrite X. reflexivity. }
  simpl Nat.add. f_equal. unfold reference_point. cbv zeta.
  set (g := mean3 (map log_or_zero (map modulus trans)) i).
  assert (N : nth i (map log_or_zero (map modulus trans)) 0 = log_or_zero (modulus z)).
  { apply nth_error_nth_d. rewrite !nth_error_map, Hz. auto. }
  rewrite N. pose proof (exp_pos g) as G.
  destruct (Req_EM_T (exp g) 0) as [Z|Z]; [lra|].
  destruct (Req_EM_T (modulus z) 0) as [Q|Q].
  - destruct (modulus_zero z Q) as [-> ->]. f_equal; field; lra.
  - assert (P : 0 < modulus z). { pose proof (sqrt_pos (fst z * fst z + snd z * snd z)) as P. fold (modulus z) in P. lra. }
    unfold log_or_zero. destruct (Req_EM_T (modulus z) 0) as [W|W]; [contradiction|].
    unfold Rminus. rewrite exp_plus, exp_Ropp, exp_ln by auto. f_equal; field; lra.
Qed.
Print Assumptions C61_transform_is_reference.

(** A spectrum with a zero in it. *)
Example C61_example : amplitudes 1 0 [] [2; 0; 4; 1; 8] =
  [exp (ln 2); exp (ln 2 / 2); exp ((ln 2 + ln 4) / 3); exp (ln 4 / 3); exp ((ln 4 + ln 8) / 3)].
Proof.
  rewrite C61_amplitude_is_geometric_mean.
  - unfold range. simpl length. simpl seq. simpl map. unfold mean3. cbv zeta. simpl.
    assert (L0 : log_or_zero 0 = 0) by (unfold log_or_zero; destruct (Req_EM_T 0 0); lra).
    assert (L : forall x, x <> 0 -> log_or_zero x = ln x) by (intros x X; unfold log_or_zero; destruct (Req_EM_T x 0); tauto).
    rewrite L0, (L 2), (L 4), (L 1), (L 8), ln_1 by lra. repeat f_equal; lra.
  - simpl. intros d H. lra.
Qed.

(** * Floating point *)
Definition inf := S754_infinity false.
Definition normal (x : spec_float) : Prop := exists m e, x = S754_finite false m e.

Lemma inf_stays : forall mag i seen, (forall d, In d mag -> normal d) -> (forall d, In d seen -> normal d) ->
  running_product inf i seen mag = repeat inf (length mag).
Proof.
  induction mag as [|d t IH]; intros i seen HM HS; auto. cbn [running_product].
  destruct (HM d (or_introl eq_refl)) as (m & e & ->).
  assert (X : (if sf_pos (S754_finite false m e) then SFmul 53 1024 inf (S754_finite false m e) else inf) = inf) by reflexivity.
  rewrite X.
  assert (Y : (if (i <? 3)%nat then inf
     else if sf_pos (nth 2 seen (S754_zero false)) then SFdiv 53 1024 inf (nth 2 seen (S754_zero false)) else inf) = inf).
  { destruct (i <? 3)%nat; auto. destruct (nth_in_or_default 2 seen (S754_zero false)) as [I| ->]; auto.
    destruct (HS _ I) as (m' & e' & ->). auto. }
  rewrite Y. cbn [length repeat]. f_equal. apply IH.
  - intros x I. apply HM. right. auto.
  - intros x [<-|I]; auto. exists m, e. auto.
Qed.

(** 1e103 in binary64; the validator accepts values up to 1e100, of which the
    Fourier coefficient is the sum over up to 8640 points. *)
Definition big : spec_float := binary_normalize 53 1024 (10 ^ 103) 0 false.

(** C61 does not carry over to binary64: three coefficients of 1e103 overflow
    the running product, which then never recovers: every later amplitude is
    infinite, although each geometric mean is at most 1e103. *)
Theorem C61_float_overflow_refuted : normal big /\ forall rest, (forall d, In d rest -> normal d) ->
  skipn 2 (running_product (binary_normalize 53 1024 1 0 false) 0 [] (big :: big :: big :: rest)) =
  repeat inf (S (length rest)).
Proof.
  assert (B : normal big) by (unfold normal; vm_compute; eauto).
  split; auto. intros rest H.
  set (one := binary_normalize 53 1024 1 0 false).
  assert (P : sf_pos big = true) by (vm_compute; auto).
  assert (O : SFmul 53 1024 (SFmul 53 1024 (SFmul 53 1024 one big) big) big = inf) by (vm_compute; auto).
  cbn [running_product skipn]. rewrite P. cbn [Nat.ltb Nat.leb]. rewrite O. cbn [repeat]. f_equal.
  apply inf_stays; auto. intros d [<-|[<-|[<-|[]]]]; auto.
Qed.
Print Assumptions C61_float_overflow_refuted.
