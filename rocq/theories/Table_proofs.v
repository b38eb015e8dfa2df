(** Every entry of the table, by one pass over it (C115). *)
From Coq Require Import List Arith ZArith QArith Qcanon Lia Bool.
From Verif Require Import Base Num Kernel_proofs Helpers_model Table_data Table_model.
Import ListNotations.
Open Scope nat_scope.

(** [m] is the number of observations the first entry is for. *)
Fixpoint pass (l : list Z) (m : Z) : bool :=
  match l with
  | [] => (m =? 0)%Z
  | z :: t =>
    ((0 <=? z) && (z * 10000 <? 45414 * 2 ^ 23) && (if 8 <=? m then 2 * 2 ^ 23 <? z else true) &&
     (if 2 <=? m then z * z * m <? (m - 1) * (m - 1) * 2 ^ 46 else z =? 0) &&
     (if 3 <=? m then match t with y :: _ => y <? z | [] => false end else true))%Z && pass t (m - 1)
  end.
Lemma table_pass : pass table_values 18000 = true.
Proof. vm_compute. reflexivity. Qed.
Lemma pass_nth : forall l m, pass l m = true -> (0 <= m)%Z -> m = Z.of_nat (length l) /\
  forall j z, nth_error l j = Some z -> let k := (m - Z.of_nat j)%Z in
    (0 <= z /\ z * 10000 < 45414 * 2 ^ 23 /\ (8 <= k -> 2 * 2 ^ 23 < z) /\ (2 <= k -> z * z * k < (k - 1) * (k - 1) * 2 ^ 46))%Z /\
    (3 <= k -> exists y, nth_error l (S j) = Some y /\ y < z)%Z.
Proof.
  induction l as [|x t IH]; intros m P M.
  - cbn in P. apply Z.eqb_eq in P. split; [cbn; lia|]. intros [|j] z H; discriminate.
  - cbn [pass] in P. rewrite !andb_true_iff in P. destruct P as (((((P1 & P2) & P3) & P4) & P5) & P6).
    apply Z.leb_le in P1. apply Z.ltb_lt in P2.
    assert (M1 : (1 <= m)%Z).
    { destruct (Z.leb_spec 2 m); [lia|]. destruct (Z.eq_dec m 0) as [->|]; [|lia]. exfalso. clear -P6. change (0 - 1)%Z with (-1)%Z in P6.
      assert (G : forall l q, (q < 0)%Z -> pass l q = true -> False).
      { induction l as [|y l IH]; intros q Q H; cbn in H; [apply Z.eqb_eq in H; lia|]. rewrite !andb_true_iff in H. destruct H as (_ & H). apply (IH (q - 1)%Z); auto. lia. }
      apply (G t (-1)%Z); auto. lia. }
    destruct (IH (m - 1)%Z P6 ltac:(lia)) as [E H]. split; [cbn [length]; lia|]. intros [|j] z Hz.
    + cbn in Hz. assert (x = z) by congruence. subst z. cbn zeta. replace (m - Z.of_nat 0)%Z with m by lia.
      split; [split; [auto|]; split; [auto|]; split; intro Q|intro Q].
      * replace (8 <=? m)%Z with true in P3 by (symmetry; apply Z.leb_le; auto). apply Z.ltb_lt in P3. auto.
      * replace (2 <=? m)%Z with true in P4 by (symmetry; apply Z.leb_le; auto). apply Z.ltb_lt in P4. auto.
      * replace (3 <=? m)%Z with true in P5 by (symmetry; apply Z.leb_le; auto). destruct t as [|y t]; [discriminate|]. exists y. cbn. apply Z.ltb_lt in P5. auto.
    + cbn [nth_error] in *. specialize (H j z Hz). cbn zeta in *. replace (m - 1 - Z.of_nat j)%Z with (m - Z.of_nat (S j))%Z in H by lia. auto.
Qed.
Lemma table_size : Z.of_nat (length critical_table) = 18000%Z.
Proof. unfold critical_table. rewrite map_length. destruct (pass_nth _ _ table_pass ltac:(lia)) as [E _]. lia. Qed.

(** The entry for [m] observations. *)
Lemma table_entry : forall m, (1 <= m <= 18000)%Z -> exists c, nth_error critical_table (length critical_table - Z.to_nat m) = Some c /\
  (0 <= c /\ c < Q2Qc (45414 # 10000))%Qc /\ ((8 <= m)%Z -> Q2Qc 2 < c)%Qc /\ ((2 <= m)%Z -> c * c * qz m < (qz m - 1) * (qz m - 1))%Qc /\
  ((3 <= m)%Z -> exists c', nth_error critical_table (S (length critical_table - Z.to_nat m)) = Some c' /\ (c' < c)%Qc).
Proof.
  intros m M. pose proof table_size as TS. set (j := length critical_table - Z.to_nat m). assert (J : Z.of_nat j = (18000 - m)%Z) by (unfold j; lia).
  destruct (pass_nth _ _ table_pass ltac:(lia)) as [E H]. unfold critical_table in *. rewrite map_length in *.
  destruct (nth_error table_values j) as [z|] eqn:Z0; [|apply nth_error_None in Z0; lia].
  specialize (H j z Z0). cbn zeta in H. rewrite J in H. replace (18000 - (18000 - m))%Z with m in H by lia. destruct H as ((H1 & H2 & H3 & H4) & H5).
  clearbody j. exists (qz z / qz (2 ^ 23))%Qc. rewrite nth_error_map, Z0. split; [reflexivity|].
  assert (T : (0 < qz (2 ^ 23))%Qc) by reflexivity.
  assert (D : forall y, (qz y / qz (2 ^ 23) * qz (2 ^ 23) = qz y)%Qc) by (intros y; field; discriminate).
  set (c := (qz z / qz (2 ^ 23))%Qc). assert (EC : qz z = (c * qz (2 ^ 23))%Qc) by (symmetry; apply D). 
  split; [split|split; [|split]].
  - unfold c, Qcdiv. apply Qcmul_nonneg; [rewrite <- qz_0; apply (proj1 (qz_le _ _)); auto|]. vm_compute. discriminate.
  - apply qz_lt in H2. rewrite !qz_mul, EC in H2. replace (qz (2 ^ 23)) with (Q2Qc 8388608) in H2 by (apply Qc_is_canon; reflexivity).
    change (qz 10000) with (Q2Qc 10000) in H2. change (qz 45414) with (Q2Qc 45414) in H2. clearbody c. qlra.
  - intros M8. specialize (H3 M8). apply qz_lt in H3. rewrite !qz_mul, EC in H3. replace (qz (2 ^ 23)) with (Q2Qc 8388608) in H3 by (apply Qc_is_canon; reflexivity).
    change (qz 2) with (Q2Qc 2) in H3. clearbody c. qlra.
  - intros M2. specialize (H4 M2). apply qz_lt in H4. rewrite !qz_mul, qz_sub, EC in H4. change (qz 1) with 1%Qc in H4.
    replace (qz (2 ^ 46)) with (qz (2 ^ 23) * qz (2 ^ 23))%Qc in H4 by (apply Qc_is_canon; reflexivity). set (w := qz (2 ^ 23)) in *. clearbody c w.
    apply Qcnot_le_lt. intro X. set (A := (c * c * qz m)%Qc) in *. set (B := ((qz m - 1) * (qz m - 1))%Qc) in *.
    replace (c * w * (c * w) * qz m)%Qc with (A * (w * w))%Qc in H4 by (unfold A; ring). clearbody A B.
    pose proof (Qcmul_nonneg _ _ (proj1 (Qcle_minus_iff _ _) X) (Qclt_le_weak _ _ (Qcmul_pos _ _ T T))) as Y.
    replace ((A + - B) * (w * w))%Qc with (A * (w * w) - B * (w * w))%Qc in Y by ring. set (p := (A * (w * w))%Qc) in *. set (q := (B * (w * w))%Qc) in *. clearbody p q. qlra.
  - intros M3. destruct (H5 M3) as (y & Y & YZ). exists (qz y / qz (2 ^ 23))%Qc. rewrite nth_error_map, Y. split; auto.
    apply qz_lt in YZ. unfold c, Qcdiv. apply Qcmult_lt_compat_r; auto.
Qed.
