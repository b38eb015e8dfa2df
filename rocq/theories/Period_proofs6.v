(** period_detection: unit changes, constant series, repeating series, and the
    series the detector sees afterwards. *)
From Coq Require Import String List Arith ZArith QArith Qcanon Lia Bool Sorted.
From Verif Require Import Base Num Kernel_model Kernel_spec Kernel_proofs Kernel_proofs4 Kernel_proofs5 Kernel_proofs6
  Helpers_model Helpers_spec Helpers_proofs Helpers_proofs2 Detect_model Period_model Period_spec
  Period_proofs Period_proofs2 Period_proofs3 Period_proofs4 Period_proofs5.
Import ListNotations.
Open Scope nat_scope.

Section Detection.
Variable std : list Qc -> Qc.
Variable r32 : Qc -> Qc.
Variable rnd : nat -> nat -> nat -> nat.
Variable acf : list Qc -> nat -> res (list (option Qc) * list (option Qc)).
Variable peaks : list Qc -> Qc -> option (list peak).
Variable fit_trend : string -> list Qc -> res (list Qc).
Notation calculate_period := (calculate_period std acf peaks fit_trend).
Notation spectrum_detect := (spectrum_detect std acf peaks fit_trend).
Notation period_detection := (period_detection std r32 rnd acf peaks fit_trend).

(** * Change of unit *)
Section Affine.
Variables (k c : Qc) (l : list Qc).
Hypothesis K : (0 < k)%Qc.
Hypothesis V : varied l.
Let l' := map (fun x => k * x + c)%Qc l.

Lemma affine_normed : normalize l' = normalize l \/
  exists mn mx mn' mx', normalize l = Ok (normed l, mn, mx) /\ normalize l' = Ok (normed l, mn', mx').
Proof.
  right. destruct (normalize_varied l V) as (mn & mx & E).
  destruct (normalize_varied l' (varied_affine k c l K V)) as (mn' & mx' & E').
  exists mn, mx, mn', mx'. split; auto. rewrite E'. unfold l'. rewrite normed_affine by auto. reflexivity.
Qed.

Lemma affine_valid : forall p, is_valid_period std r32 rnd l' p = is_valid_period std r32 rnd l p.
Proof.
  intros p. unfold is_valid_period. destruct affine_normed as [->|(mn & mx & mn' & mx' & -> & ->)]; reflexivity.
Qed.

Lemma affine_loop : forall ps, verify_loop std r32 rnd l' ps = verify_loop std r32 rnd l ps.
Proof.
  induction ps as [|p t IH]; [reflexivity|]. cbn [verify_loop]. rewrite affine_valid, IH.
  unfold l'. rewrite map_length. reflexivity.
Qed.

Lemma affine_verify : forall g i, verify_period std r32 rnd l' g i = verify_period std r32 rnd l g i.
Proof. intros. unfold verify_period. rewrite affine_loop. unfold l'. rewrite map_length. reflexivity. Qed.

Lemma affine_spectrum : forall tt th mv cg, spectrum_detect l' tt th mv cg = spectrum_detect l tt th mv cg.
Proof.
  intros. unfold Period_model.spectrum_detect.
  replace (length l') with (length l) by (unfold l'; rewrite map_length; reflexivity).
  destruct (length l <? 12); [reflexivity|].
  destruct affine_normed as [->|(mn & mx & mn' & mx' & -> & ->)]; reflexivity.
Qed.

Lemma affine_detection : forall tt th mv cg g i skip,
  period_detection l' tt th mv cg g i skip = period_detection l tt th mv cg g i skip.
Proof.
  intros. unfold Period_model.period_detection. rewrite affine_verify, affine_spectrum. reflexivity.
Qed.
End Affine.

(** * Constant series *)
Lemma qsum_same : forall c l, (forall x, In x l -> x = c) -> qsum l = (qn (length l) * c)%Qc.
Proof.
  intros c. induction l as [|x t IH]; intros H; cbn [qsum length].
  - change (qn 0) with 0%Qc. ring.
  - rewrite (H x) by (left; auto). rewrite IH by (intros; apply H; right; auto). rewrite qn_S. ring.
Qed.
Lemma qmean_same : forall c l, l <> [] -> (forall x, In x l -> x = c) -> qmean l = c.
Proof.
  intros c l NE H. unfold qmean. rewrite (qsum_same c l H). field. apply qn_neq0. destruct l; cbn; [congruence|lia].
Qed.
Lemma qvar_same : forall c l, l <> [] -> (forall x, In x l -> x = c) -> qvar l = 0%Qc.
Proof.
  intros c l NE H. unfold qvar. apply qmean_same.
  - destruct l; [congruence|discriminate].
  - intros y I. apply in_map_iff in I. destruct I as (x & <- & I). rewrite (H x I), (qmean_same c l NE H). ring.
Qed.
Lemma close_zero : close_to_zero 0%Qc = true. Proof. reflexivity. Qed.

Hypothesis SP : forall l, (0 <= std l)%Qc.

Lemma smooth_same : forall c l, l <> [] -> (forall x, In x l -> x = c) -> smooth_spikes std l = Ok l.
Proof.
  intros c l NE H. unfold smooth_spikes. cbv zeta. rewrite (qmean_same c l NE H).
  rewrite <- (interp_all_known l NE). f_equal. apply map_ext_in. intros x I.
  rewrite (H x I). replace (c - c)%Qc with 0%Qc by ring.
  pose proof (SP l). pose proof eps8_pos.
  replace (Q2Qc 3 <=? Qcabs 0 / (std l + Q2Qc (1 # 100000000)))%Qc with false; [rewrite andb_false_r; reflexivity|].
  symmetry. apply Qcleb_gt. change (Qcabs 0) with 0%Qc.
  replace (0 / (std l + Q2Qc (1 # 100000000)))%Qc with 0%Qc; [reflexivity|].
  field. intro Z. assert (X : (0 < std l + Q2Qc (1 # 100000000))%Qc) by qlra. rewrite Z in X. discriminate X.
Qed.

Lemma normalize_same : forall c l, l <> [] -> (forall x, In x l -> x = c) ->
  exists s mn mx, normalize l = Ok (s, mn, mx) /\ length s = length l /\ (forall x, In x s -> x = c).
Proof.
  intros c l NE H. destruct l as [|x0 t]; [congruence|]. unfold normalize. do 3 eexists. split; [reflexivity|].
  assert (M1 : qmin_list (x0 :: t) = c) by (apply H; apply qmin_list_in; discriminate).
  assert (M2 : qmax_list (x0 :: t) = c) by (apply H; apply qmax_list_in; discriminate).
  rewrite M1, M2. replace (c =? c)%Qc with true by (symmetry; apply Qceqb_eq; auto). split; auto.
Qed.

Lemma valid_same : forall c l p, l <> [] -> (forall x, In x l -> x = c) ->
  is_valid_period std r32 rnd l p = Ok false.
Proof.
  intros c l p NE H. unfold is_valid_period.
  destruct (normalize_same c l NE H) as (s & mn & mx & -> & LS & HS). rewrite bind_ok. cbn [fst].
  assert (NS : s <> []) by (destruct s; [destruct l; [congruence|discriminate]|discriminate]).
  rewrite (smooth_same c s NS HS), bind_ok, (qvar_same c s NS HS), close_zero. reflexivity.
Qed.

Lemma verify_same : forall c l g i, l <> [] -> (forall x, In x l -> x = c) ->
  verify_period std r32 rnd l g i = Ok None.
Proof.
  intros c l g i NE H. unfold verify_period.
  assert (E : forall ps, verify_loop std r32 rnd l ps = Ok None).
  { induction ps as [|p t IH]; cbn [verify_loop]; [reflexivity|].
    rewrite (valid_same c l _ NE H), bind_ok, IH. destruct (_ || _); reflexivity. }
  rewrite E, bind_ok. destruct (_ =? _); reflexivity.
Qed.

Lemma detection_same : forall c l tt th mv cg g i skip, 12 <= length l -> (forall x, In x l -> x = c) ->
  (forall kind, tt = Some kind -> exists t d, fit_trend kind l = Ok t /\ length t = length l /\ (forall x, In x t -> x = d)) ->
  period_detection l tt th mv cg g i skip = Ok (0, 1).
Proof.
  intros c l tt th mv cg g i skip L H HT.
  assert (NE : l <> []) by (intro X; subst l; cbn in L; lia).
  assert (ES : spectrum_detect l tt th mv cg = Ok 0).
  { unfold Period_model.spectrum_detect. replace (length l <? 12) with false by (symmetry; apply Nat.ltb_ge; auto).
    destruct (normalize_same c l NE H) as (s & mn & mx & -> & LS & HS). rewrite bind_ok. cbn [fst].
    assert (SL : s = l).
    { apply nth_error_ext. intros j. destruct (nth_error s j) as [x|] eqn:E1; destruct (nth_error l j) as [y|] eqn:E2; auto.
      - rewrite (HS x), (H y); eauto using nth_error_In.
      - apply nth_error_None in E2. assert (j < length s) by (apply nth_error_Some; congruence). lia.
      - apply nth_error_None in E1. assert (j < length l) by (apply nth_error_Some; congruence). lia. }
    subst s.
    assert (EC : calculate_period l tt th mv cg = Ok 0).
    { unfold Period_model.calculate_period. replace (length l <? 12) with false by (symmetry; apply Nat.ltb_ge; auto).
      unfold fit_seasons. rewrite (smooth_same c l NE H), bind_ok.
      assert (ET : exists t d, (match tt with None => Ok (repeat 0%Qc (length l)) | Some kind => fit_trend kind l end) = Ok t /\
         length t = length l /\ forall x, In x t -> x = d).
      { destruct tt as [kind|]; [apply HT; auto|]. exists (repeat 0%Qc (length l)), 0%Qc. split; auto.
        split; [apply repeat_length|]. intros x I. apply repeat_spec in I. auto. }
      destruct ET as (t & d & -> & LT & HD). rewrite bind_ok, LT, Nat.eqb_refl. cbn [negb]. cbv zeta.
      assert (LZ : length (zip_with (fun a b : Qc => (a - b)%Qc) l t) = length l) by (rewrite zip_with_length; lia).
      assert (HZ : forall x, In x (zip_with (fun a b : Qc => (a - b)%Qc) l t) -> x = (c - d)%Qc).
      { clear - H HD. revert t HD. induction l as [|a r IH]; intros t HD x I;
          [destruct I|]. destruct t as [|b t]; [destruct I|]. destruct I as [<-|I].
        - rewrite (H a), (HD b) by (left; auto). reflexivity.
        - apply (IH (fun x J => H x (or_intror J)) t); auto. intros y J. apply HD. right; auto. }
      rewrite (qvar_same (c - d)), close_zero; [reflexivity| |auto].
      intro X. rewrite X in LZ. cbn in LZ. lia. }
    rewrite EC, bind_ok. reflexivity. }
  unfold Period_model.period_detection. rewrite ES, bind_ok.
  destruct skip; cbn [negb]; [rewrite bind_ok; reflexivity|].
  rewrite (verify_same c l g i NE H), bind_ok. reflexivity.
Qed.
End Detection.

(** * Repeating series *)
Section Repeating.
Variable std : list Qc -> Qc.
Hypothesis FS : fair_std std.
Variable r32 : Qc -> Qc.
Variable rnd : nat -> nat -> nat -> nat.
Variable acf : list Qc -> nat -> res (list (option Qc) * list (option Qc)).
Variable peaks : list Qc -> Qc -> option (list peak).
Variable fit_trend : string -> list Qc -> res (list Qc).
Notation period_detection := (period_detection std r32 rnd acf peaks fit_trend).
Variable data : list Qc.
Hypothesis V : varied data.
Hypothesis NS : no_spikes data.
Hypothesis B : (Z.of_nat (length data) <= 10000000)%Z.

Lemma repeats_loop_head : forall p t, (4 <= p)%Z -> (2 * p < Z.of_nat (length data))%Z ->
  repeats data (Z.to_nat p) -> verify_loop std r32 rnd data (p :: t) = Ok (Some p).
Proof.
  intros p t P4 PL R. cbn [verify_loop].
  replace ((Z.of_nat (length data) <=? p * 2)%Z || (p <? Z.of_nat MIN_PERIOD)%Z) with false.
  - rewrite (repeats_valid std FS r32 rnd data (Z.to_nat p)) by (auto; lia). reflexivity.
  - symmetry. apply orb_false_intro; [apply Z.leb_gt; lia|apply Z.ltb_ge; change (Z.of_nat MIN_PERIOD) with 4%Z; lia].
Qed.

(** A guess that is longer than half the series is skipped. *)
Lemma loop_skip : forall p t, (Z.of_nat (length data) <= 2 * p)%Z ->
  verify_loop std r32 rnd data (p :: t) = verify_loop std r32 rnd data t.
Proof.
  intros p t L. cbn [verify_loop]. replace (Z.of_nat (length data) <=? p * 2)%Z with true by (symmetry; apply Z.leb_le; lia).
  reflexivity.
Qed.

Lemma guess_head : forall g i s, standard_period g i = Ok s -> (4 <= s)%Z -> exists t, guess_period g i = s :: t.
Proof. intros g i s E L. unfold standard_period, guess_period in *. destruct g; inversion E; subst; eauto; lia. Qed.

Lemma repeats_standard : forall g i s, standard_period g i = Ok s -> (4 <= s)%Z -> (2 * s < Z.of_nat (length data))%Z ->
  repeats data (Z.to_nat s) -> verify_period std r32 rnd data g i = Ok (Some (Z.to_nat s)).
Proof.
  intros g i s E S4 SL R. unfold verify_period. destruct (guess_head g i s E S4) as (t & ->).
  cbn [length Nat.eqb]. rewrite repeats_loop_head by auto. rewrite bind_ok, E, bind_ok.
  rewrite Z.mod_same by lia. replace (Z.of_nat (length data) <=? s * 2)%Z with false by (symmetry; apply Z.leb_gt; lia).
  reflexivity.
Qed.

Lemma detection_simple : forall g i p tt th mv cg, verify_period std r32 rnd data g i = Ok (Some p) -> p <> 0 ->
  period_detection data tt th mv cg g i false = Ok (p, 0).
Proof.
  intros g i p tt th mv cg E N. unfold Period_model.period_detection. cbn [negb]. rewrite E, bind_ok.
  destruct p; [congruence|reflexivity].
Qed.

(** A multiple of a repeating distance repeats. *)
Lemma repeats_mul : forall k p, repeats data p -> repeats data (k * p).
Proof.
  intros k p R i x y Hx Hy. exact (repeats_steps data p R k i x y Hx Hy).
Qed.
End Repeating.
