(** Properties C23-C27 and C63: numeric helpers. *)
From Coq Require Import List Arith ZArith QArith Qcanon Lia Bool.
From Verif Require Import Base Num Sorting Kernel_model Kernel_proofs Kernel_props Helpers_model Helpers_spec
  Helpers_proofs Helpers_proofs2.
Import ListNotations.
Open Scope nat_scope.

(** C23. average_filter is the mean of the last min(n, i+1) values. *)
Theorem C23_average_filter_trailing_mean : forall values n, 0 < n ->
  average_filter values n false = Ok (map (trailing_mean values n) (range (length values))).
Proof.
  intros values n HN. destruct (average_filter_spec values n false HN) as (o & E & L & H). rewrite E. f_equal.
  apply nth_error_ext_len; [rewrite map_length; unfold range; rewrite seq_length; auto|].
  intros i Hi. rewrite H by lia. rewrite nth_error_map. unfold range. rewrite nth_error_seq.
  assert (X : (i <? length values) = true) by (apply Nat.ltb_lt; lia). rewrite X. auto.
Qed.
Print Assumptions C23_average_filter_trailing_mean.
(** C23. With fill_to_n the mean is over [n] values, absent ones replaced by
    the mean of the values before the current one. *)
Theorem C23_average_filter_fill_to_n : forall values n, 0 < n ->
  average_filter values n true = Ok (map (padded_mean values n) (range (length values))).
Proof.
  intros values n HN. destruct (average_filter_spec values n true HN) as (o & E & L & H). rewrite E. f_equal.
  apply nth_error_ext_len; [rewrite map_length; unfold range; rewrite seq_length; auto|].
  intros i Hi. rewrite H by lia. rewrite nth_error_map. unfold range. rewrite nth_error_seq.
  assert (X : (i <? length values) = true) by (apply Nat.ltb_lt; lia). rewrite X. auto.
Qed.
Print Assumptions C23_average_filter_fill_to_n.
Example C23_example :
  match average_filter (zs [4; 8; 3; 5]%Z) 3 false, average_filter (zs [4; 8; 3; 5]%Z) 3 true with
  | Ok a, Ok b => map this a = [4; 6; 5; 16#3]%Q /\ map this b = [4; 16#3; 5; 16#3]%Q
  | _, _ => False end.
Proof. vm_compute. auto. Qed.

(** C24. interp replaces missing values by the linear interpolation of the
    neighbouring known ones (the nearest one outside), keeps the others. *)
Theorem C24_interp_interpolates : forall values, (exists p v, nth_error values p = Some (Some v)) ->
  exists out, interp values = Ok out /\ length out = length values /\
    forall p v, nth_error out p = Some v -> is_interpolant values p v.
Proof. exact interp_spec. Qed.
Print Assumptions C24_interp_interpolates.
(** C24. ... so it stays in the range of the known values. *)
Theorem C24_interp_in_range : forall values out lo hi, interp values = Ok out ->
  (forall q x, nth_error values q = Some (Some x) -> lo <= x /\ x <= hi)%Qc ->
  forall v, In v out -> (lo <= v /\ v <= hi)%Qc.
Proof.
  intros values out lo hi E B v Hv.
  destruct (known 0 values) as [|[a va] rest] eqn:EK; [unfold interp in E; rewrite EK in E; discriminate|].
  destruct (interp_spec values) as (out' & E' & _ & H).
  { assert (I : In (a, va) (known 0 values)) by (rewrite EK; left; auto).
    apply known_in in I. destruct I as (q & -> & Eq). eauto. }
  rewrite E in E'. inversion E'; subst out'. apply In_nth_error in Hv. destruct Hv as (p & Hp).
  eapply interpolant_bounds; eauto.
Qed.
Print Assumptions C24_interp_in_range.
(** C24. A series without any value raises. *)
Theorem C24_interp_nothing_known : forall values, (forall p v, nth_error values p <> Some (Some v)) ->
  interp values = Err ValueErr.
Proof. exact interp_fails. Qed.
Print Assumptions C24_interp_nothing_known.
Example C24_example :
  match interp [None; Some (qz 2); None; None; Some (qz 8); None] with
  | Ok o => map this o = [2; 2; 4; 6; 8; 8]%Q | _ => False end.
Proof. vm_compute. auto. Qed.

(** C25. normalize: min and max are attained bounds; a constant series is
    returned as it is, any other is mapped into [0,1] strictly monotonically,
    hitting 0 exactly at the minimum and 1 exactly at the maximum. *)
Theorem C25_normalize : forall values, values <> [] ->
  exists out mn mx, normalize values = Ok (out, mn, mx) /\ length out = length values /\
    In mn values /\ In mx values /\ (forall x, In x values -> mn <= x /\ x <= mx)%Qc /\
    (mn = mx -> out = values) /\
    (mn <> mx -> forall i x u, nth_error values i = Some x -> nth_error out i = Some u ->
        (0 <= u /\ u <= 1)%Qc /\ (u = 0%Qc <-> x = mn) /\ (u = 1%Qc <-> x = mx) /\
        (forall j y w, nth_error values j = Some y -> nth_error out j = Some w -> (x < y <-> u < w)%Qc)).
Proof. exact normalize_spec. Qed.
Print Assumptions C25_normalize.
Example C25_example :
  match normalize (zs [3; 1; 5; 2]%Z) with
  | Ok (o, mn, mx) => map this o = [1#2; 0; 1; 1#4]%Q /\ this mn = 1%Q /\ this mx = 5%Q | _ => False end.
Proof. vm_compute. auto. Qed.

(** C26. When the abscissas are not all equal, leastsq returns a line with
    the least sum of squared residuals among all lines. *)
Theorem C26_leastsq_minimises : forall x y, length x = length y ->
  (exists u v, In u x /\ In v x /\ u <> v) ->
  exists a b, leastsq x y = Ok (a, b) /\ forall a' b', (sq_error a b x y <= sq_error a' b' x y)%Qc.
Proof.
  intros x y L H. destruct (leastsq_defined x y L H) as (a & b & E). exists a, b. split; auto.
  pose proof (leastsq_spec x y L) as S. rewrite E in S. auto.
Qed.
Print Assumptions C26_leastsq_minimises.
(** C26. Constant abscissas: division by zero. *)
Theorem C26_leastsq_constant_x : forall x y c, length x = length y -> (forall u, In u x -> u = c) ->
  leastsq x y = Err ZeroDiv.
Proof.
  intros x y c L H. unfold leastsq. assert (E : (length x =? length y) = true) by (apply Nat.eqb_eq; auto). rewrite E.
  cbn [negb]. cbv zeta.
  assert (S1 : forall l, (forall u, In u l -> u = c) -> qsum l = (qn (length l) * c)%Qc /\ qsum (zip_with Qcmult l l) = (qn (length l) * (c * c))%Qc).
  { induction l as [|v t IH]; intros HL; cbn [qsum zip_with length]; [rewrite qn_0; split; ring|].
    destruct IH as [I1 I2]; [intros; apply HL; right; auto|]. rewrite I1, I2, qn_S.
    rewrite (HL v) by (left; auto). split; ring. }
  destruct (S1 x H) as [H1 H2]. rewrite H1, H2.
  destruct (_ =? 0)%Qc eqn:D; qb_hyps; auto. exfalso. apply D. ring.
Qed.
Print Assumptions C26_leastsq_constant_x.
Example C26_example :
  match leastsq (zs [0; 1; 2]%Z) (zs [1; 2; 6]%Z) with
  | Ok (a, b) => this a = (5#2)%Q /\ this b = (1#2)%Q | _ => False end.
Proof. vm_compute. auto. Qed.

(** C27. Whatever the stationarity tests answer, the series used for
    re-detection is the original (no differencing), its first difference, or
    its second difference; all have the length of the original, and
    reverse_delta recovers the first difference from the second. *)
Theorem C27_differencing_can_be_undone : forall stationary values v0 v1 rest,
  values = v0 :: v1 :: rest -> 4 <= length values ->
  exists z s, should_include_delta stationary values = Ok (z, s) /\ length s = length values /\
    ((z = (-1)%Z \/ z = 0%Z) /\ s = values \/
     z = 1%Z /\ difference_from 0 values s \/
     z = 2%Z /\ exists d1, difference_from 0 values d1 /\ difference_from 1 d1 s /\
        reverse_delta (v1 - v0)%Qc 2 s = Ok d1).
Proof.
  intros stationary values v0 v1 rest EV L. unfold should_include_delta, range. cbn [seq include_loop].
  destruct (stationary values) eqn:E0.
  { exists 0%Z, values. split; auto. }
  destruct (get_delta_spec 0 values ltac:(lia)) as (d1 & G1 & D1 & F1). rewrite G1, bind_ok.
  pose proof (proj1 D1) as L1.
  destruct (stationary d1) eqn:E1.
  { exists 1%Z, d1. split; auto. }
  destruct (get_delta_spec 1 d1 ltac:(lia)) as (d2 & G2 & D2 & F2). rewrite G2, bind_ok.
  pose proof (proj1 D2) as L2.
  destruct (stationary d2) eqn:E2.
  { exists 2%Z, d2. split; auto. split; [congruence|]. right. right. split; auto. exists d1. split; auto. split; auto.
    apply reverse_delta_spec; auto; try lia.
    assert (N1 : nth_error d1 1 = Some (v1 - v0)%Qc) by (apply (proj2 D1); auto; rewrite EV; auto).
    intros p Hp. destruct p as [|[|p]]; [|auto|lia]. rewrite (F1 0) by lia. auto. }
  destruct (get_delta_spec 2 d2 ltac:(lia)) as (d3 & G3 & D3 & F3). rewrite G3, bind_ok.
  exists (-1)%Z, values. split; auto.
Qed.
Print Assumptions C27_differencing_can_be_undone.

(** C27. Expected values put back: at every listed position but 0 the
    expected value becomes the previous expected value plus the (first)
    difference; other positions keep theirs. *)
Theorem C27_expected_values_put_back : forall pos ori new delta values d1,
  length new = length ori -> length ori = length values -> (forall p, In p pos -> p < length ori) ->
  (delta = 2%Z /\ (exists v0 v1, nth_error values 0 = Some v0 /\ nth_error values 1 = Some v1 /\
       reverse_delta (v1 - v0)%Qc 2 new = Ok d1) \/ delta <> 2%Z /\ d1 = new) ->
  length d1 = length ori ->
  exists out, correct_expected_value_in_delta pos ori new delta values = Ok out /\ length out = length ori /\
    (forall p, ~ In p pos \/ p = 0 -> nth_error out p = nth_error ori p) /\
    (forall p e d, In (S p) pos -> nth_error ori p = Some e -> nth_error d1 (S p) = Some d ->
       nth_error out (S p) = Some (e + d)%Qc).
Proof.
  intros pos ori new delta values d1 L1 L2 HP HD LD. unfold correct_expected_value_in_delta.
  assert (ED : (if (delta =? 2)%Z then
               do v1 <- get values 1; do v0 <- get values 0;
               reverse_delta (v1 - v0)%Qc 2 new
             else Ok new) = Ok d1).
  { destruct HD as [(-> & v0 & v1 & H0 & H1 & R)|(NE & ->)].
    - rewrite Z.eqb_refl. apply get_ok in H0. apply get_ok in H1. rewrite H1, bind_ok, H0, bind_ok. auto.
    - apply Z.eqb_neq in NE. rewrite NE. auto. }
  rewrite ED, bind_ok. clear ED HD L1.
  assert (G : forall pos out0, (forall p, In p pos -> p < length ori) -> length out0 = length ori ->
    exists out, correct_loop ori d1 out0 pos = Ok out /\ length out = length ori /\
     (forall p, ~ In p pos \/ p = 0 -> nth_error out p = nth_error out0 p) /\
     (forall p e d, In (S p) pos -> nth_error ori p = Some e -> nth_error d1 (S p) = Some d ->
       nth_error out (S p) = Some (e + d)%Qc)).
  { clear pos HP. induction pos as [|q t IH]; intros out0 HP L0.
    - exists out0. simpl. repeat split; auto. intros p e d [].
    - destruct q as [|q]; cbn [correct_loop].
      + destruct (IH out0) as (out & E & LO & H1 & H2); auto. { intros; apply HP; right; auto. }
        exists out. split; auto. split; auto. split.
        * intros p [N|N]; apply H1; auto. left. intro X. apply N. right; auto.
        * intros p e d [X|X]; [discriminate|]. apply H2; auto.
      + assert (LQ : S q < length ori) by (apply HP; left; auto).
        destruct (get_in _ ori q ltac:(lia)) as (e0 & GE & NE). rewrite GE, bind_ok.
        destruct (get_in _ d1 (S q) ltac:(lia)) as (d0 & GD & ND). rewrite GD, bind_ok.
        destruct (IH (upd out0 (S q) (e0 + d0)%Qc)) as (out & E & LO & H1 & H2).
        { intros; apply HP; right; auto. } { rewrite upd_length; auto. }
        exists out. split; auto. split; auto. split.
        * intros p [N|N].
          -- rewrite H1 by (left; intro X; apply N; right; auto).
             apply nth_error_upd_other. intro X. apply N. left. auto.
          -- subst. rewrite H1 by auto. apply nth_error_upd_other. lia.
        * intros p e d [X|X] He Hd; [|apply H2; auto]. inversion X; subst q.
          destruct (in_dec Nat.eq_dec (S p) t) as [I|I]; [apply H2; auto|].
          rewrite H1 by auto. rewrite nth_error_upd_same by lia. congruence. }
  apply G; auto.
Qed.
Print Assumptions C27_expected_values_put_back.
Example C27_example :
  let values := zs [1; 4; 9; 16; 25]%Z in
  match should_include_delta (fun l => match l with x :: y :: z :: _ => (x =? y)%Qc && (y =? z)%Qc | _ => false end) values with
  | Ok (z, s) => z = 2%Z /\ map this s = [2; 2; 2; 2; 2]%Q /\
      match reverse_delta (qz 3) 2 s with Ok d => map this d = [3; 3; 5; 7; 9]%Q | _ => False end
  | _ => False end.
Proof. vm_compute. auto. Qed.

(** C63. For a table generated for its own length, every request up to that
    length reads the values it would have calculated; quotas within the series
    length always give that many critical values. *)
Theorem C63_critical_values_shared : forall ppf sqrt table alpha n m, m <= n ->
  (forall j x, nth_error table j = Some x ->
     x = calculate_esd_values ppf sqrt (j + 1) alpha (length table)) ->
  get_critical ppf sqrt table alpha n m = map (fun i => calculate_esd_values ppf sqrt i alpha n) (seq 1 m).
Proof. exact get_critical_spec. Qed.
Print Assumptions C63_critical_values_shared.
Theorem C63_critical_values_count : forall ppf sqrt table alpha n m, m <= n ->
  length (get_critical ppf sqrt table alpha n m) = m.
Proof. exact get_critical_length. Qed.
Print Assumptions C63_critical_values_count.
(** C63. The detector of C19 therefore never runs out of critical values. *)
Theorem C63_esd_detect_total : forall cst std ppf sqrt table alpha series maxo majority upper last,
  Kernel_spec.tail_ordered false (map snd series) -> 4 <= length series -> maxo <= length series / 2 - 1 ->
  majority = None \/ majority = option_map snd (nth_error series ((length series - 1) / 2)) ->
  exists r, esd_detect cst std (get_critical ppf sqrt table alpha) series maxo majority upper last = Ok r /\
    length r <= maxo.
Proof.
  intros. destruct (C19_esd_detect_in_range cst std (get_critical ppf sqrt table alpha) series maxo majority upper last)
    as (r & n & E & _ & L & _); auto.
  - intros n m L. rewrite get_critical_length; auto.
  - exists r. auto.
Qed.
Print Assumptions C63_esd_detect_total.
Example C63_example :
  let ppf := fun (p : Qc) (df : Z) => p in let sqrt := fun x : Qc => x in
  let table := map (fun i => calculate_esd_values ppf sqrt i (Q2Qc (5#100)) 10) (seq 1 10) in
  get_critical ppf sqrt table (Q2Qc (5#100)) 7 3 =
  map (fun i => calculate_esd_values ppf sqrt i (Q2Qc (5#100)) 7) [1; 2; 3].
Proof. apply C63_critical_values_shared; [lia|]. intros j x H. rewrite nth_error_map in H.
  rewrite nth_error_seq in H. destruct (j <? 10); simpl in H; inversion H; subst.
  rewrite map_length, seq_length. replace (j + 1) with (S j) by lia. reflexivity. Qed.
