(** Totality of the model selection. *)
From Coq Require Import String List Arith ZArith QArith Qcanon Qround Lia Lqa Bool Sorted Permutation.
From Verif Require Import Base Num Sorting Kernel_model Kernel_spec Kernel_proofs
  FillUp_model FillUp_spec FillUp_proofs FillUp_proofs6 FillUp_props
  Helpers_model Helpers_spec Helpers_proofs Helpers_proofs2 Helpers_props Margins_model SR_model SR_proofs2 Detect_model Detect_spec
  Detect_proofs Detect_proofs2 Detect_proofs3 Detect_proofs4 Detect_proofs5 Period_spec SR_spec SR_proofs SR_props Units_spec Pipe_proofs.
Import ListNotations.
Open Scope nat_scope.

Lemma all_known : forall (l : list (option Qc)), (forall p, p < length l -> exists v, nth_error l p = Some (Some v)) ->
  exists s, l = map Some s.
Proof.
  induction l as [|x t IH]; intros H; [exists []; auto|].
  destruct (H 0) as [v Hv]; [simpl; lia|]. simpl in Hv. inversion Hv; subst x.
  destruct IH as [s Hs]. { intros p Lp. apply (H (S p)). simpl. lia. }
  exists (v :: s). simpl. congruence.
Qed.
Lemma all_some_of_map : forall s, Detect_model.all_some (map Some s) = Some s.
Proof. induction s; simpl; auto. rewrite IHs. auto. Qed.

Lemma next_given : forall ix p, StronglySorted Z.lt ix -> (exists q, In q ix /\ (p < q)%Z) ->
  exists b, In b ix /\ (p < b)%Z /\ forall q, In q ix -> (q <= p \/ b <= q)%Z.
Proof.
  induction ix as [|z t IH]; intros p HS (q & I & H); [destruct I|]. inversion HS as [|? ? HT HF]; subst. rewrite Forall_forall in HF.
  destruct (Z_lt_le_dec p z) as [L|L].
  - exists z. split; [left; auto|]. split; auto. intros q' [<-|J]; [lia|]. apply HF in J. lia.
  - destruct I as [<-|I]; [lia|]. destruct (IH p HT (ex_intro _ q (conj I H))) as (b & B1 & B2 & B3).
    exists b. split; [right; auto|]. split; auto. intros q' [<-|J]; [lia|auto].
Qed.
Lemma sized_pair : forall C va vb x, (Qcabs va <= C)%Qc -> (Qcabs vb <= C)%Qc -> (Qcmin va vb <= x)%Qc -> (x <= Qcmax va vb)%Qc -> (Qcabs x <= C)%Qc.
Proof. intros C va vb x. unfold Qcmin, Qcmax, Qcabs. qb_case; qb_hyps; intros; qlra. Qed.

(** The filled series exists, and is made of the given values (of the fixed one). *)
Definition within_given (ix : list Z) (vs : list (option Qc)) (mode : fill_mode) (fixed : option Qc) (s : list Qc) : Prop :=
  forall C, (forall p v, given ix vs p v -> (Qcabs v <= C)%Qc) -> (forall q, mode = FMFixed -> fixed = Some q -> (Qcabs q <= C)%Qc) -> sized C s.
Lemma fill_cases : forall sp ix vs f mode fixed period,
  make_fup (Some ix) vs default_maxlen = Ok f ->
  (mode = FMFixed -> f_need f = true -> fixed <> None) ->
  (mode = FMAuto -> forall p v, given ix vs p v -> sp (f_indices f) (f_values f) p = v) ->
  4 <= length ix -> (match period with Some p => 0 <= p | None => True end)%Z ->
  (f_need f = false \/ mode = FMNo \/ mode = FMZero) /\ fill_up_on_demand sp f mode fixed period = Ok None \/
  f_need f = true /\ mode <> FMNo /\ mode <> FMZero /\
    exists s, fill_up_on_demand sp f mode fixed period = Ok (Some (map Some s, f_tags f)) /\ length s = f_all f /\ within_given ix vs mode fixed s.
Proof.
  intros sp ix vs f mode fixed period HF HX HS L4 HP. destruct (f_need f) eqn:HN.
  2:{ left. split; auto. destruct mode; cbn [fill_up_on_demand]; unfold fill_up; rewrite ?HN; reflexivity. }
  assert (LG : forall m, m = FMPrevious \/ m = FMUseLast -> exists full, fill_up_on_demand sp f m fixed period = Ok (Some (full, f_tags f)) /\ length full = f_all f /\
    forall p, p < f_all f -> exists a v, nth_error full p = Some (Some v) /\ given ix vs a v /\ a <= p /\ forall q, is_given ix q -> q <= a \/ p < q).
  { intros m Hm. exact (C03_previous_is_last_observation sp ix vs default_maxlen f m fixed period HF HN Hm). }
  assert (PL : mode = FMPrevious \/ mode = FMUseLast -> exists s, fill_up_on_demand sp f mode fixed period = Ok (Some (map Some s, f_tags f)) /\ length s = f_all f /\ within_given ix vs mode fixed s).
  { intros HM. destruct (LG mode HM) as (full & E & L & K).
    destruct (all_known full) as [s Hs]. { intros p Lp. destruct (K p ltac:(lia)) as (a & v & A & _). eauto. }
    subst full. rewrite map_length in L. exists s. split; auto. split; auto.
    intros C HC _ x I. apply In_nth_error in I. destruct I as [k Hk]. pose proof (nth_error_lt _ _ _ _ Hk) as Lk.
    destruct (K k ltac:(lia)) as (a & v & A & G & _). rewrite nth_error_map, Hk in A. inversion A; subst v. eauto. }
  assert (GV : forall p, In (Z.of_nat p) ix -> exists v, given ix vs p v).
  { intros p I. destruct (accepted_facts _ _ _ _ HF HN) as (_ & _ & EV & _ & LL & _).
    apply In_nth_error in I. destruct I as [k Hk]. pose proof (nth_error_lt _ _ _ _ Hk) as Lk.
    rewrite EV, map_length in LL. destruct (nth_error_ex _ (f_values f) k ltac:(lia)) as [v Hv].
    exists v, k. split; auto. rewrite EV, nth_error_map, Hv. auto. }
  destruct mode eqn:EM.
  - left. auto.
  - right. split; auto. split; [congruence|]. split; [congruence|]. auto.
  - right. split; auto. split; [congruence|]. split; [congruence|]. auto.
  - right. split; auto. split; [congruence|]. split; [congruence|].
    destruct fixed as [q|]; [|exfalso; apply HX; auto].
    destruct (C38_fixed_fill_is_constant sp ix vs default_maxlen f (Some q) period HF HN) as (full & E & L & C & K).
    destruct (all_known full) as [s Hs].
    { intros p Lp. destruct (in_dec Z.eq_dec (Z.of_nat p) ix) as [I|I]; [|exists q; apply K; auto; lia].
      destruct (GV p I) as (v & G). exists v. apply C. exact G. }
    subst full. rewrite map_length in L. exists s. split; auto. split; auto.
    intros D HC HQ x I. apply In_nth_error in I. destruct I as [k Hk]. pose proof (nth_error_lt _ _ _ _ Hk) as Lk.
    destruct (in_dec Z.eq_dec (Z.of_nat k) ix) as [I|I].
    + destruct (GV k I) as (v & G). pose proof (C k v G) as Cv. rewrite nth_error_map, Hk in Cv. inversion Cv; subst v. eauto.
    + pose proof (K k ltac:(lia) I) as Kq. rewrite nth_error_map, Hk in Kq. inversion Kq; subst. auto.
  - left. auto.
  - right. split; auto. split; [congruence|]. split; [congruence|].
    destruct (C04_linear_interpolates sp ix vs default_maxlen f fixed period HF HN) as (s & E & L & G1 & G2). exists s. split; auto. split; auto.
    intros C HC _ x I. apply In_nth_error in I. destruct I as [k Hk]. pose proof (nth_error_lt _ _ _ _ Hk) as Lk.
    destruct (in_dec Z.eq_dec (Z.of_nat k) ix) as [I|I].
    + destruct (GV k I) as (v & G). rewrite (G1 k v G) in Hk. inversion Hk; subst v. eauto.
    + destruct (LG FMPrevious (or_introl eq_refl)) as (fp & _ & _ & KP). destruct (KP k ltac:(lia)) as (a & va & _ & Ga & La & Ma).
      assert (NE : ix <> []) by (intro X; subst; simpl in L4; lia).
      destruct (make_fup_ok_inv _ _ _ _ NE HF) as ([W0|(_ & _ & W1 & W2)] & _ & _ & EA & _); [congruence|].
      destruct (next_given ix (Z.of_nat k) W2) as (b & B1 & B2 & B3).
      { exists (last ix 0%Z). split; [apply last_In; auto|].
        assert (In (last ix 0%Z) ix) by (apply last_In; auto). assert (last ix 0%Z <> Z.of_nat k) by (intro X; rewrite X in *; contradiction). lia. }
      assert (EB : Z.of_nat (Z.to_nat b) = b) by lia.
      destruct (GV (Z.to_nat b)) as (vb & Gb); [rewrite EB; auto|].
      assert (A0 : a <> k). { intro; subst a. apply I. destruct Ga as (j & J & _). apply nth_error_In in J. auto. }
      destruct (G2 k a (Z.to_nat b) va vb) as (N & LO & HI); auto.
      * split; [destruct Ga as (j & J & _); apply nth_error_In in J; exact J|]. split; [unfold is_given; rewrite EB; auto|]. split; [lia|].
        intros q Q. destruct (Ma q Q) as [H|H]; [auto|right]. destruct (B3 _ Q) as [H2|H2]; lia.
      * rewrite Hk in N. inversion N; subst x. apply (sized_pair C va vb); [apply (HC a)|apply (HC (Z.to_nat b))| |]; auto.
  - right. split; auto. split; [congruence|]. split; [congruence|].
    destruct (C05_auto_complete_and_bounded sp ix vs f period HF HN HP L4 (HS eq_refl)) as (s & E & L & _ & K). exists s. split; auto. split; auto.
    intros C HC _ x I. destruct (K x I) as (p1 & v1 & p2 & v2 & G1 & G2 & H1 & H2). apply HC in G1. apply HC in G2. revert G1 G2 H1 H2. clear.
    unfold Qcabs. qb_case; qb_hyps; intros; qlra.
Qed.

Section Select.
Variable cst : Qc.
Variable std : list Qc -> Qc.
Variable ppf : Qc -> Z -> Qc.
Variable sqrt : Qc -> Qc.
Variable table : list Qc.
Variable sort sort_desc : list (nat * Qc) -> list (nat * Qc).
Variable trend_detection : list Qc -> option nat -> res (list Qc).
Variable decompose : bool -> list Qc -> nat -> res (list Qc * list Qc).
Variable transform : list Qc -> list Qc.
Variable stationary : list Qc -> bool.
Variable spline : list nat -> list Qc -> nat -> Qc.
Variable period_detection : list (option Qc) -> res nat.
Hypothesis SU : sorts_up sort.
Variable bnd : Qc.
Hypothesis TN : forall s, sized (Q2Qc 4 * bnd)%Qc s -> exists t, trend_detection s None = Ok t /\ length t = length s.
Hypothesis TD : forall s p, (p = Some 0 \/ p = Some 1) -> exists t, trend_detection s p = Ok t /\ length t = length s.
Hypothesis DC : forall adjust s p, 1 < p -> 2 * p < length s ->
  exists t e, decompose adjust s p = Ok (t, e) /\ length t = length s /\ length e = length s.
Hypothesis TL : length_preserving transform.

(** The detectors only ask for a trend without a period, of values as large as
    those they are given. *)
Definition td_none (C : Qc) (s : list Qc) (p : option nat) : res (list Qc) :=
  match p with None => if forallb (fun x => (Qcabs x <=? C)%Qc) s then trend_detection s None else Ok s | Some _ => Ok s end.
Lemma boundedb : forall C s, forallb (fun x => (Qcabs x <=? C)%Qc) s = true <-> sized C s.
Proof.
  intros C s. rewrite forallb_forall. unfold sized. split; intros H x I; apply Qcleb_le; auto.
Qed.
Lemma td_none_total : forall s p, exists t, td_none (Q2Qc 4 * bnd) s p = Ok t /\ length t = length s.
Proof.
  intros s [p|]; cbn [td_none]; [eauto|]. destruct (forallb _ s) eqn:E; [|eauto]. apply boundedb in E. auto.
Qed.
Lemma td_none_eq : forall C s, sized C s -> td_none C s None = trend_detection s None.
Proof. intros C s H. cbn [td_none]. apply boundedb in H. rewrite H. auto. Qed.

Lemma bounded_abs : forall C l, sized C l <-> forall x, In x l -> (- C <= x /\ x <= C)%Qc.
Proof.
  intros C l. split; intros H x I; specialize (H x I); revert H; unfold Qcabs; destruct (0 <=? x)%Qc eqn:E;
    first [apply Qcleb_le in E|apply Qcleb_gt in E]; first [intros [H1 H2]; qlra|intros H; split; qlra].
Qed.
Lemma blank_bounded : forall C idx s o, sized C s -> interp (blank idx s) = Ok o -> sized C o.
Proof.
  intros C idx s o HB E. set (kn := blank idx s) in *.
  assert (HK : forall q x, nth_error kn q = Some (Some x) -> (- C <= x /\ x <= C)%Qc).
  { intros q x Hq. unfold kn, blank in Hq. rewrite nth_error_mapi in Hq. destruct (nth_error s q) as [y|] eqn:Ey; [|discriminate].
    cbn [option_map] in Hq. apply nth_error_In in Ey. pose proof (proj1 (bounded_abs C s) HB y Ey). destruct (mem_nat _ _) in Hq; inversion Hq; subst; auto. }
  destruct (known 0 kn) as [|[a va] rest] eqn:EK; [unfold interp in E; rewrite EK in E; discriminate|].
  destruct (interp_spec kn) as (o' & Eo & L & P).
  { assert (I : In (a, va) (known 0 kn)) by (rewrite EK; left; auto). apply known_in in I. destruct I as (q & -> & I). eauto. }
  rewrite Eo in E. inversion E; subst o'. apply bounded_abs. intros x I. apply In_nth_error in I. destruct I as [k Hk].
  eapply interpolant_bounds; eauto.
Qed.
Lemma dt_same : forall C tv series alpha ratio nt lm, sized C series ->
  dynamic_threshold_detection cst std ppf sqrt table sort trend_detection series tv alpha ratio nt lm =
  dynamic_threshold_detection cst std ppf sqrt table sort (td_none C) series tv alpha ratio nt lm.
Proof.
  intros C tv series alpha ratio nt lm HB. unfold dynamic_threshold_detection.
  destruct (normalize series) as [[[u mn] mx]|e]; [|reflexivity]. rewrite !bind_ok. cbn [fst].
  destruct (dt_detect_anomaly _ _ _ _ _ _ _ _ _ _) as [[idx m]|e]; [|reflexivity]. rewrite !bind_ok. cbn [fst].
  destruct idx as [|i it]; [reflexivity|]. set (idx := i :: it).
  destruct (interp (blank idx series)) as [o|e] eqn:EO; [|reflexivity]. rewrite !bind_ok. rewrite td_none_eq; auto. eapply blank_bounded; eauto.
Qed.
Lemma dt_answers : forall tv series alpha ratio nt lm, 4 <= length series -> length tv = length series -> sized (Q2Qc 4 * bnd)%Qc series ->
  exists rows m, dynamic_threshold_detection cst std ppf sqrt table sort trend_detection series tv alpha ratio nt lm = Ok (rows, m) /\
    length rows = length series.
Proof.
  intros tv series alpha ratio nt lm L4 LT HB.
  destruct (dt_total cst std ppf sqrt table sort SU (td_none (Q2Qc 4 * bnd)) td_none_total series tv alpha ratio nt lm L4 LT) as (u & mn & mx & idx & m & rows & _ & _ & E & L & _).
  exists rows, m. rewrite (dt_same (Q2Qc 4 * bnd)); auto.
Qed.

Lemma range_bounded : forall C series e, series <> [] -> sized C series -> within series e -> (- C <= e /\ e <= C)%Qc.
Proof.
  intros C series e NE HB [W1 W2]. rewrite bounded_abs in HB.
  destruct (HB _ (qmin_list_in series NE)). destruct (HB _ (qmax_list_in series NE)). split; qlra.
Qed.
(** The expected values of the spectral residual detector, whatever trend is
    asked for: sized by the series (C59). *)
Lemma sr_expected_bounded : forall C series ratio lm scores m e, 12 <= length series -> sized C series ->
  sr_detect transform std series (sr_quota (length series) ratio) lm = Ok (scores, m) -> length scores = length series ->
  (if lm then last_expected series (map (fun s => (s <=? SKELETON)%Qc) scores)
   else do e <- skeleton_expected series (map (fun s => (s <=? SKELETON)%Qc) scores); average_filter e 5 false) = Ok e ->
  length e = length series -> sized C e.
Proof.
  intros C series ratio lm scores m e L12 HB ES LS EE LE. assert (NE : series <> []) by (destruct series; [simpl in L12; lia|discriminate]).
  assert (R : exists rows, spectral_residual_detection transform std (fun s _ => Ok s) ex_sort series 0 ratio false lm = Ok (rows, m) /\ map r_expected rows = e).
  { unfold spectral_residual_detection. cbv zeta. rewrite ES, bind_ok. cbn [fst snd]. rewrite EE, bind_ok, bind_ok.
    match goal with |- context [result_frame ?a ?b ?c ?d ?i] => destruct (result_frame_total a b c d i) as (rows & ER); auto end.
    { discriminate. } { intros l X. inversion X; subst. rewrite map_length. auto. }
    exists rows. rewrite ER, bind_ok. split; auto. destruct (frame_columns _ _ _ _ _ _ ER) as (EX & _). auto. }
  destruct R as (rows & ER & EX). apply bounded_abs. intros x I. apply (range_bounded C series); auto. rewrite <- EX in I. destruct lm.
  - destruct (C59_expected_latest _ _ _ _ ex_sort_ok _ _ _ _ _ _ _ ER ES) as [E W]. rewrite E in I. apply in_app_or in I. destruct I as [I|[<-|[]]]; auto.
    assert (J : In x series) by (rewrite <- (firstn_skipn (length series - 1) series); apply in_or_app; auto).
    split; [apply qmin_list_le|apply qmax_list_ge]; auto.
  - unfold sr_detect in ES. destruct (generate_spectral_score transform series true) as [sc|] eqn:EG; [|discriminate].
    destruct (C59_expected_entire _ _ _ _ ex_sort_ok _ _ _ _ _ _ _ ER EG) as [_ W]. rewrite Forall_forall in W. auto.
Qed.
Lemma sr_answers : forall series th ratio nt lm, 12 <= length series -> (lm = true -> first_settled transform) -> sized (Q2Qc 4 * bnd)%Qc series ->
  exists rows m, spectral_residual_detection transform std trend_detection sort_desc series th ratio nt lm = Ok (rows, m) /\
    length rows = length series.
Proof.
  intros series th ratio nt lm L FS HB.
  destruct (sr_total transform std (td_none (Q2Qc 4 * bnd)) sort_desc TL td_none_total series th ratio nt lm L FS) as (rows & m & E & LR).
  exists rows, m. split; auto. rewrite <- E. unfold spectral_residual_detection. cbv zeta.
  destruct (sr_detect_total _ std TL series (sr_quota (length series) ratio) lm L) as (scores & m' & ES & LS & _).
  rewrite ES, !bind_ok. cbn [fst snd].
  match goal with |- bind ?x _ = bind ?x _ => destruct x as [e|ex] eqn:EE; [|reflexivity] end. rewrite !bind_ok.
  destruct nt; [|reflexivity].
  assert (LE : length e = length series).
  { unfold spectral_residual_detection in E. cbv zeta in E. rewrite ES, bind_ok in E. cbn [fst snd] in E. rewrite EE, bind_ok in E.
    bind_inv E. bind_inv E. destruct (frame_columns _ _ _ _ _ _ E1) as (EX & _). rewrite <- EX, map_length.
    inversion E; subst. auto. }
  rewrite td_none_eq; auto. eapply sr_expected_bounded; eauto.
Qed.

Notation SELECT := (detect_with_model_selection cst std ppf sqrt table sort sort_desc trend_detection decompose transform stationary
  spline period_detection).

Lemma ratio_at_most : forall a lm, (0 <= a_ratio a)%Qc ->
  ((if lm && (Q2Qc (6 # 10) <? a_majority a)%Qc then refine_max_ratio (a_majority a) (a_ratio a) else a_ratio a) <= a_ratio a)%Qc.
Proof.
  intros a lm H0. destruct (lm && _) eqn:E; [|apply Qcle_refl]. apply andb_true_iff in E. destruct E as [_ E]. apply Qcltb_lt in E.
  assert (E6 : (0 < Q2Qc (6 # 10))%Qc) by reflexivity.
  unfold refine_max_ratio. assert (((1 - a_majority a) * a_ratio a <= a_ratio a)%Qc) by qnra. qmm; qlra.
Qed.

Lemma quota_le : forall n r r', (r <= r')%Qc -> dt_quota n r <= Nat.max (Z.to_nat (Qceiling (this (qn n * r')%Qc))) 1.
Proof.
  intros n r r' H. unfold dt_quota. pose proof (qn_nonneg n).
  assert (E : (qn n * r <= qn n * r')%Qc) by qnra. apply Qceiling_resp_le in E. lia.
Qed.

Lemma select_total : forall ix a period lm,
  make_fup (Some ix) (map Some (a_values a)) default_maxlen = Ok (a_fup a) ->
  12 <= length ix -> length ix = length (a_values a) ->
  through_knots spline ix a ->
  (a_mode a = FMFixed -> f_need (a_fup a) = true -> a_fixed a <> None) ->
  (0 <= a_ratio a)%Qc -> (a_ratio a <= Q2Qc (49 # 100))%Qc -> (lm = true -> first_settled transform) ->
  (exists p, (period = Some p \/ period = None /\
        (Q2Qc (1 # 2) < missing_ratio (a_fup a))%Qc /\ p = 0 \/
        period = None /\ (missing_ratio (a_fup a) <= Q2Qc (1 # 2))%Qc /\
        period_detection_with_filled_values spline period_detection (a_fup a) (a_mode a) (a_fixed a) = Ok p) /\
     (1 < p -> (missing_ratio (a_fup a) <= Q2Qc (1 # 2))%Qc /\
        forall filled, fill_up_on_demand spline (a_fup a) (a_mode a) (a_fixed a) (Some (Z.of_nat p)) = Ok filled ->
          let n := length (match filled with Some (full, _) => full | None => map Some (a_values a) end) in
          2 * p < n /\ (2 * Qceiling (this (qn n * a_ratio a)%Qc) + Z.of_nat (p / 2) < Z.of_nat n)%Z)) ->
  (period = None \/ (exists p, period = Some p /\ p <= 1) -> forall s, analysed spline a s -> sized bnd s) ->
  exists r, SELECT a period lm = Ok r.
Proof.
  intros ix a period lm HF L12 LI TK HX R0 R4 FS (p & HP & H1) HAN. unfold detect_with_model_selection. cbv zeta.
  set (mr := if lm && _ then _ else _).
  assert (RM : (mr <= a_ratio a)%Qc) by (pose proof (ratio_at_most a lm R0) as X; exact X).
  assert (EP : match period with Some p => Ok p | None => if (Q2Qc (1 # 2) <? missing_ratio (a_fup a))%Qc then Ok 0
      else period_detection_with_filled_values spline period_detection (a_fup a) (a_mode a) (a_fixed a) end = Ok p).
  { destruct HP as [->|[(-> & A & ->)|(-> & A & B)]]; auto.
    - rewrite (proj2 (Qcltb_lt _ _) A). auto.
    - rewrite (proj2 (Qcltb_ge _ _) A). auto. }
  rewrite EP, bind_ok.
  assert (HA1 : p <= 1 -> forall s, analysed spline a s -> sized bnd s).
  { intros P1. apply HAN. destruct HP as [->|[(-> & _)|(-> & _)]]; eauto. }
  assert (EI : (1 <? p) && (Q2Qc (1 # 2) <? missing_ratio (a_fup a))%Qc = false).
  { destruct (1 <? p) eqn:E; auto. apply Nat.ltb_lt in E. destruct (H1 E) as [A _]. cbn [andb]. apply Qcltb_ge. auto. }
  rewrite EI. clear EI EP HP.
  assert (EF : exists filled s, (if (1 <? p) || fills_without_period (a_mode a) then fill_up_on_demand spline (a_fup a) (a_mode a) (a_fixed a) (Some (Z.of_nat p)) else Ok None) = Ok filled /\
     match filled with None => Ok (a_values a) | Some (full, _) => match Detect_model.all_some full with Some s => Ok s | None => Err Generic end end = Ok s /\
     (p <= 1 -> sized bnd s) /\ 12 <= length s /\ (1 < p -> 2 * p < length s /\ (2 * Qceiling (this (qn (length s) * a_ratio a)%Qc) + Z.of_nat (p / 2) < Z.of_nat (length s))%Z)).
  { destruct ((1 <? p) || fills_without_period (a_mode a)) eqn:EB.
    - destruct (fill_cases spline ix (map Some (a_values a)) (a_fup a) (a_mode a) (a_fixed a) (Some (Z.of_nat p)) HF HX TK ltac:(lia) (Nat2Z.is_nonneg p))
        as [(_ & E)|(HN & _ & _ & s & E & LS & _)].
      + exists None, (a_values a). split; auto. split; auto. split; [intros P1; apply (HA1 P1); left; auto|]. split; [lia|]. intros X. destruct (H1 X) as [_ B]. specialize (B _ E). cbv beta iota zeta in B; rewrite map_length in B. auto.
      + exists (Some (map Some s, f_tags (a_fup a))), s. split; auto. split; [rewrite all_some_of_map; auto|]. split; [intros P1; apply (HA1 P1); right; eauto|]. split.
        * rewrite LS. assert (NE : ix <> []) by (intros X; subst; simpl in L12; lia).
          destruct (C01_counts ix _ _ _ NE HF) as (_ & A & B). apply B in HN. lia.
        * intros X. destruct (H1 X) as [_ B]. specialize (B _ E). cbv beta iota zeta in B. rewrite map_length in B. auto.
    - exists None, (a_values a). split; auto. split; auto. split; [intros P1; apply (HA1 P1); left; auto|]. split; [lia|]. intros X. apply orb_false_iff in EB. destruct EB as [EB _]. apply Nat.ltb_ge in EB. lia. }
  destruct EF as (filled & s & E1 & E2 & BS & LS & LP). rewrite E1, bind_ok, E2, bind_ok.
  match goal with |- exists r, bind ?x _ = Ok r => assert (X : exists rm, x = Ok rm) end.
  2:{ destruct X as (rm & ->). rewrite bind_ok. eauto. }
  destruct (1 <? p) eqn:EP1.
  - apply Nat.ltb_lt in EP1. destruct (LP EP1) as [LP1 LP2]. destruct (DC lm s p EP1 LP1) as (t & e & ED & LT & LE).
    pose proof (quota_le (length s) mr (a_ratio a) RM) as Q. pose proof (Nat.mul_div_le p 2 ltac:(lia)).
    destruct (ts_total cst std ppf sqrt table sort SU decompose s p (a_alpha a) mr lm (a_need_trend a) lm t e) as (rows & m & E & _); eauto; try lia.
    qlra.
  - apply Nat.ltb_ge in EP1.
    assert (BS4 : sized (Q2Qc 4 * bnd)%Qc s).
    { intros x I. pose proof (BS EP1 x I). pose proof (Qcabs_nonneg x). qlra. }
    destruct (should_trigger_sr _ _ _ _).
    + destruct (sr_answers s (a_threshold a) mr (a_need_trend a) lm LS FS BS4) as (rows & m & E & L). rewrite E, bind_ok. cbn [fst snd].
      match goal with |- context [merge_with_delta _ _ ?f _ _] => destruct (merge_total stationary bnd rows f s mr (length s)) as (out & EM & _) end; auto; try lia.
      * intros s' r LS' BS'. destruct (sr_answers s' (a_threshold a) r (a_need_trend a) lm ltac:(lia) FS BS') as (rows' & m' & E' & L'). exists rows', m'. split; auto. lia.
      * rewrite EM, bind_ok. eauto.
    + destruct (TD s (Some p)) as (tv & ET & LT). { destruct p as [|[|p]]; auto. lia. } rewrite ET, bind_ok.
      destruct (dt_answers tv s (a_alpha a) mr (a_need_trend a) lm ltac:(lia) LT BS4) as (rows & m & E & L). rewrite E, bind_ok. cbn [fst snd].
      match goal with |- context [merge_with_delta _ _ ?f _ _] => destruct (merge_total stationary bnd rows f s mr (length s)) as (out & EM & _) end; auto; try lia.
      * intros s' r LS' BS'. destruct (dt_answers tv s' (a_alpha a) r (a_need_trend a) lm ltac:(lia) ltac:(lia) BS') as (rows' & m' & E' & L'). exists rows', m'. split; auto. lia.
      * rewrite EM, bind_ok. eauto.
Qed.
End Select.
