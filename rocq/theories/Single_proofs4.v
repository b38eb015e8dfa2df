(** The two tests on floats standing for given numbers (C110, C111). *)
From Coq Require Import List Arith ZArith Lia Bool.
From Verif Require Import Base Num Sorting Kernel_model Kernel_spec Kernel_proofs Kernel_proofs2 Kernel_proofs3.
From Verif Require Import Single_model Single_spec Single_proofs Single_proofs2 Single_proofs3.
Import ListNotations.
Open Scope nat_scope.

Section G.
(** Gaussian.ppf(3/4) = 0.6744897...; np.std over exact numbers; np.mean and
    np.std as computed on arrays of floats. *)
Variable cst : Qc.
Variables std mean32 std32 : list Qc -> Qc.
Variable tau : Qc.
Hypothesis CST : (Q2Qc (67 # 100) <= cst /\ cst <= Q2Qc (68 # 100))%Qc.
(** [ws] are the doubles handed to the test, [vals] the numbers they stand
    for, [g] turns one of the latter into the float used. *)
Variable g : Qc -> Qc.
Hypothesis GF : forall x, single (g x) = g x.
Hypothesis GM : forall x y, (x <= y)%Qc -> (g x <= g y)%Qc.
Hypothesis TAU : (0 <= tau /\ tau <= 1)%Qc.

Lemma measured_accurate : forall w, measured g std mean32 std32 tau w -> accurate g std mean32 std32 tau w.
Proof.
  intros w (A & B & C). unfold accurate, within. split; [|split; auto].
  - set (x := mean32 (map g w)) in *. set (y := qmean w) in *. clearbody x y. clear - A.
    assert (x - y <= Qcabs (x - y) /\ y - x <= Qcabs (x - y))%Qc as [G1 G2] by (clear; split; qmm; qlra).
    set (z := Qcabs (x - y)) in *. clearbody z. split; qlra.
  - set (x := std32 (map g w)) in *. set (y := std w) in *. clearbody x y. clear - B.
    assert (x - y <= Qcabs (x - y) /\ y - x <= Qcabs (x - y))%Qc as [G1 G2] by (clear; split; qmm; qlra).
    set (z := Qcabs (x - y)) in *. clearbody z. split; qlra.
Qed.

(** The test of one position. *)
Definition verdict (vals : list Qc) (upper : bool) (k : nat) (c : Qc) : bool :=
  match tail_test32 single double cst mean32 std32 (map g vals) upper k (single c) with Ok b => b | Err _ => false end.

Lemma verdict_spec : forall upper vals k c, tail_ordered upper vals -> unit_range g vals -> k < length vals ->
  (0 <= c)%Qc -> measured g std mean32 std32 tau (skipn k vals) ->
  tail_test32 single double cst mean32 std32 (map g vals) upper k (single c) = Ok (verdict vals upper k c) /\
  (clearly_significant cst std tau upper vals k c -> verdict vals upper k c = true) /\
  (clearly_insignificant cst std tau upper vals k c -> verdict vals upper k c = false).
Proof.
  intros upper vals k c H UR L C M. apply tail_ordered_ordered in H. apply measured_accurate in M.
  destruct (test32_close single double single_rounding double_rounding g GF GM cst CST std mean32 std32 tau TAU
    upper vals k c H UR L C M) as (b & E & S1 & S2).
  unfold verdict. rewrite E. auto.
Qed.

Lemma tests_of : forall upper vals thr (thr' : nat -> Qc) lo hi, tail_ordered upper vals -> unit_range g vals -> hi <= length vals ->
  (forall k, lo <= k < hi -> thr k = Ok (thr' k) /\ (0 <= thr' k)%Qc /\ measured g std mean32 std32 tau (skipn k vals)) ->
  tests single double cst mean32 std32 (map g vals) upper thr (fun k => verdict vals upper k (thr' k)) lo hi.
Proof.
  intros upper vals thr thr' lo hi H UR L A k Lk. destruct (A k Lk) as (E & C & M).
  exists (thr' k). split; auto. apply verdict_spec; auto. lia.
Qed.

(** The thresholds used at each position. *)
Lemma get_thr : forall (critical : list Qc) k c, nth_error critical k = Some c -> get critical k = Ok (nth k critical 0%Qc) /\ nth k critical 0%Qc = c.
Proof. intros. unfold get. rewrite H. rewrite (nth_error_nth_d _ _ _ _ 0%Qc H). auto. Qed.

(** Entire mode. A position whose statistic is beyond its critical value
    by more than the band is selected, along with all before it; and the
    selection never ends at a position whose statistics are both within their
    critical value by more than the band. *)
Lemma gen_esd_entire : forall upper ws vals index maxo critical,
  map single ws = map g vals ->
  tail_ordered upper vals -> unit_range g vals -> maxo <= length vals ->
  (forall k, k < maxo -> exists c, nth_error critical k = Some c /\ (0 <= c)%Qc) ->
  (forall k, k < maxo -> measured g std mean32 std32 tau (skipn k vals)) ->
  exists n, generalized_esd_test32 single double cst mean32 std32 ws index maxo critical upper None = Ok (firstn n index) /\
    n <= maxo /\
    (forall k c, k < maxo -> nth_error critical k = Some c -> clearly_significant cst std tau upper vals k c -> k < n) /\
    (forall c, 0 < n -> nth_error critical (n - 1) = Some c -> ~ clearly_insignificant cst std tau upper vals (n - 1) c).
Proof.
  intros upper ws vals index maxo critical WS H UR L CR ME.
  assert (CR' : forall k, k < maxo -> get critical k = Ok (nth k critical 0%Qc) /\ (0 <= nth k critical 0%Qc)%Qc).
  { intros k Lk. destruct (CR k Lk) as (c & E & C). destruct (get_thr _ _ _ E) as [G EQ]. rewrite EQ in *. auto. }
  assert (T : tests single double cst mean32 std32 (map single ws) upper (get critical)
               (fun k => verdict vals upper k (nth k critical 0%Qc)) 0 maxo).
  { rewrite WS. apply tests_of; auto. intros k Lk. destruct (CR' k ltac:(lia)). split; [auto|]. split; auto. apply ME. lia. }
  destruct (select32_entire single double cst mean32 std32 ws upper (get critical) _ index maxo T) as (n & E & Ln & S1 & S2).
  exists n. split; [exact E|]. split; auto. split.
  - intros k c Lk Ec CS. apply S1; auto. destruct (get_thr _ _ _ Ec) as [_ EQ]. destruct (CR' k Lk) as [_ C0]. rewrite EQ in *.
    apply (verdict_spec upper vals k c H UR ltac:(lia) C0 (ME k Lk)); auto.
  - intros c Ln0 Ec CI. specialize (S2 Ln0). cbv beta in S2.
    destruct (get_thr _ _ _ Ec) as [_ EQ]. destruct (CR' (n - 1) ltac:(lia)) as [_ C0]. rewrite EQ in *.
    destruct (verdict_spec upper vals (n - 1) c H UR ltac:(lia) C0 (ME (n - 1) ltac:(lia))) as (_ & _ & V). rewrite V in S2 by auto. discriminate.
Qed.

(** Last mode: the loop starts at the position of the last point and
    stops at the first one found significant. *)
Lemma gen_esd_last : forall upper ws vals index maxo critical li,
  map single ws = map g vals ->
  tail_ordered upper vals -> unit_range g vals -> maxo <= length vals ->
  (forall k, k < maxo -> exists c, nth_error critical k = Some c /\ (0 <= c)%Qc) ->
  (forall k, k < maxo -> measured g std mean32 std32 tau (skipn k vals)) ->
  exists n, generalized_esd_test32 single double cst mean32 std32 ws index maxo critical upper (Some li) = Ok (firstn n index) /\
    (forall k c, li <= k < maxo -> (n = 0 \/ k < n - 1) -> nth_error critical k = Some c ->
       ~ clearly_significant cst std tau upper vals k c) /\
    (0 < n -> li < n /\ n <= maxo /\
       forall c, nth_error critical (n - 1) = Some c -> ~ clearly_insignificant cst std tau upper vals (n - 1) c).
Proof.
  intros upper ws vals index maxo critical li WS H UR L CR ME.
  assert (CR' : forall k, k < maxo -> get critical k = Ok (nth k critical 0%Qc) /\ (0 <= nth k critical 0%Qc)%Qc).
  { intros k Lk. destruct (CR k Lk) as (c & E & C). destruct (get_thr _ _ _ E) as [G EQ]. rewrite EQ in *. auto. }
  assert (T : tests single double cst mean32 std32 (map single ws) upper (get critical)
               (fun k => verdict vals upper k (nth k critical 0%Qc)) li maxo).
  { rewrite WS. apply tests_of; auto. intros k Lk. destruct (CR' k ltac:(lia)). split; [auto|]. split; auto. apply ME. lia. }
  destruct (select32_last single double cst mean32 std32 ws upper (get critical) _ index maxo li T) as (n & E & C).
  assert (V : forall k c, k < maxo -> nth_error critical k = Some c ->
    (clearly_significant cst std tau upper vals k c -> verdict vals upper k (nth k critical 0%Qc) = true) /\
    (clearly_insignificant cst std tau upper vals k c -> verdict vals upper k (nth k critical 0%Qc) = false)).
  { intros k c Lk Ec. destruct (get_thr _ _ _ Ec) as [_ EQ]. destruct (CR' k Lk) as [_ C0]. rewrite EQ in *.
    apply (verdict_spec upper vals k c H UR ltac:(lia) C0 (ME k Lk)). }
  exists n. split; [exact E|]. destruct C as [[-> N]|(A & B & S1 & N)].
  - split; [|lia]. intros k c Lk _ Ec CS. destruct (V k c ltac:(lia) Ec) as [V1 _]. rewrite N in V1 by auto.
    specialize (V1 CS). discriminate.
  - split.
    + intros k c Lk [X|X] Ec CS; [lia|]. destruct (V k c ltac:(lia) Ec) as [V1 _]. rewrite N in V1 by lia.
      specialize (V1 CS). discriminate.
    + intros _. split; auto. split; auto. intros c Ec CI. destruct (V (n - 1) c ltac:(lia) Ec) as [_ V2].
      specialize (V2 CI). cbv beta in S1. congruence.
Qed.

Lemma band_nonneg : forall c, (0 <= c)%Qc -> (0 <= band tau c)%Qc.
Proof. intros. unfold band. destruct TAU. apply Qcmul_nonneg; qlra. Qed.

Lemma same_verdict : forall upper vals k c, tail_ordered upper vals -> unit_range g vals -> k < length vals ->
  (0 <= c)%Qc -> measured g std mean32 std32 tau (skipn k vals) -> decided cst std tau upper vals k c ->
  tail_test32 single double cst mean32 std32 (map g vals) upper k (single c) = tail_test cst std vals upper k c.
Proof.
  intros upper vals k c H UR L C M D.
  destruct (verdict_spec upper vals k c H UR L C M) as (-> & V1 & V2).
  destruct (tail_test_spec cst std upper vals k c ltac:(apply tail_ordered_ordered; auto) L) as (s & -> & SP). f_equal.
  pose proof (band_nonneg c C) as BN. destruct D as [D|D].
  - rewrite (V1 D). symmetry. apply SP. destruct D as (v & Ev & D). exists v. split; auto.
    unfold clearly_outlying, outlying, distance in *. destruct D as [D|D]; [left|right]; destruct upper; qlra.
  - rewrite (V2 D). destruct s; auto. exfalso. destruct (proj1 SP eq_refl) as (v & Ev & X).
    destruct D as (v' & Ev' & D1 & D2). rewrite Ev in Ev'. inversion Ev'; subst v'.
    unfold clearly_inlying, outlying, distance in *. destruct X as [X|X].
    + set (Se := Qcmax (mad (skipn k vals) / cst) (Q2Qc (1 # 100000000))) in *.
      assert (0 <= Se)%Qc by (unfold Se; clear; qmm; qlra). clearbody Se.
      pose proof (Qcmul_nonneg c Se C ltac:(auto)). destruct D1; destruct upper; qlra.
    + destruct upper; qlra.
Qed.

Lemma same_loop : forall upper last vals thr ks num, 
  (forall k, In k ks -> exists c, thr k = Ok c /\
     tail_test32 single double cst mean32 std32 (map g vals) upper k (single c) = tail_test cst std vals upper k c) ->
  tail_loop32 single double cst mean32 std32 (map g vals) upper last thr ks num = tail_loop cst std vals upper last thr ks num.
Proof.
  induction ks as [|k ks IH]; intros num A; auto. cbn [tail_loop32 tail_loop].
  destruct (A k ltac:(simpl; auto)) as (c & -> & E). cbn [bind]. rewrite E.
  destruct (tail_test cst std vals upper k c) as [[|]|]; cbn [bind]; auto.
  - destruct last; auto. apply IH. intros; apply A; simpl; auto.
  - apply IH. intros; apply A; simpl; auto.
Qed.

(** When every visited position is decided, single precision returns
    exactly what the test over exact numbers returns, in both modes. *)
Lemma gen_esd_agrees : forall upper ws vals index maxo critical last_index,
  map single ws = map g vals ->
  tail_ordered upper vals -> unit_range g vals -> maxo <= length vals ->
  (forall k, k < maxo -> exists c, nth_error critical k = Some c /\ (0 <= c)%Qc /\ decided cst std tau upper vals k c) ->
  (forall k, k < maxo -> measured g std mean32 std32 tau (skipn k vals)) ->
  generalized_esd_test32 single double cst mean32 std32 ws index maxo critical upper last_index =
  generalized_esd_test cst std vals index maxo critical upper last_index.
Proof.
  intros upper ws vals index maxo critical li WS H UR L CR ME.
  unfold generalized_esd_test32, generalized_esd_test, tail_select32, tail_select.
  rewrite WS, same_loop; auto. intros k I. apply in_seq in I. destruct (CR k ltac:(lia)) as (c & E & C & D).
  exists c. unfold get. rewrite E. split; auto. apply same_verdict; auto; try lia. apply ME; lia.
Qed.
Lemma gen_threshold_agrees : forall upper ws vals index maxo threshold last_index,
  map single ws = map g vals ->
  tail_ordered upper vals -> unit_range g vals -> maxo <= length vals -> (0 <= threshold)%Qc ->
  (forall k, k < maxo -> decided cst std tau upper vals k threshold) ->
  (forall k, k < maxo -> measured g std mean32 std32 tau (skipn k vals)) ->
  dynamic_threshold32 single double cst mean32 std32 ws index maxo threshold upper last_index =
  dynamic_threshold cst std vals index maxo threshold upper last_index.
Proof.
  intros upper ws vals index maxo threshold li WS H UR L C DE ME.
  unfold dynamic_threshold32, dynamic_threshold, tail_select32, tail_select.
  rewrite WS, same_loop; auto. intros k I. apply in_seq in I. exists threshold. split; auto.
  apply same_verdict; auto; try lia. { apply ME; lia. } apply DE; lia.
Qed.
End G.
