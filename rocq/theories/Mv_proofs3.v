(** Multivariate detector, part 3: interpretation of a result. *)
From Coq Require Import String List Arith ZArith Lia Bool Permutation Sorted.
From Verif Require Import Base Num Sorting Kernel_model Kernel_proofs Helpers_model Helpers_spec Helpers_proofs
  Mv_model Mv_spec Mv_proofs Mv_proofs2.
Import ListNotations.
Open Scope nat_scope.

Lemma mapM_map : forall A B C (f : B -> res C) (g : A -> B) l, mapM f (map g l) = mapM (fun x => f (g x)) l.
Proof. induction l as [|x t IH]; cbn; auto. rewrite IH. auto. Qed.

Lemma order_nodup : forall l o, decreasing_order l o -> NoDup o.
Proof. intros l o [P _]. apply Permutation_sym in P. eapply Permutation_NoDup; [exact P|apply seq_NoDup]. Qed.
Lemma order_lt : forall l o k, decreasing_order l o -> In k o -> k < length l.
Proof. intros l o k [P _] I. apply (Permutation_in _ P) in I. apply in_seq in I. lia. Qed.

(** Positions listed as changed. *)
Definition listed (limit : Qc) (row : list Qc) (top : list nat) : list nat :=
  filter (fun k => (limit <? Qcabs (nth k row 0%Qc))%Qc) top.

Lemma filter_incl_nodup : forall A (p : A -> bool) l, NoDup l -> NoDup (filter p l).
Proof. intros. apply NoDup_filter; auto. Qed.

Lemma changed_spec : forall asort variables row ch limit,
  limit = Qcmin (Q2Qc (1 # 1000)) (1 / (Q2Qc (125 # 100) * qn (length variables)))%Qc ->
  decreasing_order (map Qcabs row) (asort (map Qcabs row)) ->
  changed_variables asort variables row = Ok ch ->
  exists ks, Forall2 (fun k nv => nth_error variables k = Some (fst nv) /\ nth_error row k = Some (snd nv)) ks ch /\
    NoDup ks /\ length ks <= 10 /\
    (forall k x, In k ks -> nth_error row k = Some x -> limit < Qcabs x)%Qc /\
    (forall i j x y, i < j -> nth_error ch i = Some x -> nth_error ch j = Some y ->
       (Qcabs (snd y) <= Qcabs (snd x))%Qc) /\
    (forall k x, ~ In k ks -> nth_error row k = Some x -> (limit < Qcabs x)%Qc ->
       length ks = 10 /\ forall nv, In nv ch -> (Qcabs x <= Qcabs (snd nv))%Qc).
Proof.
  intros asort variables row ch limit El D H. unfold changed_variables in H. rewrite <- El in H. cbv zeta in H. clear El.
  set (o := asort (map Qcabs row)) in *. set (top := firstn 10 o) in *.
  dbind H. rename a into all. rename E into Ea.
  assert (Eall : all = map (fun k => (k, nth k row 0%Qc)) top).
  { apply mapM_ok in Ea. clear H. induction Ea as [|k y ks r E1 E2 IH]; cbn; auto. rewrite <- IH. f_equal.
    dbind E1. apply get_ok in E. inversion E1; subst. rewrite (nth_error_nth_d _ _ _ _ 0%Qc E). auto. }
  assert (Hf : filter (fun kv : nat * Qc => (limit <? Qcabs (snd kv))%Qc) all = map (fun k => (k, nth k row 0%Qc)) (listed limit row top)).
  { subst all. clear. unfold listed. induction top as [|k t IH]; cbn; auto.
    destruct (limit <? Qcabs (nth k row 0))%Qc; cbn; rewrite IH; auto. }
  rewrite Hf, mapM_map in H. cbn [fst snd] in H.
  set (ks := listed limit row top) in *. apply mapM_ok in H.
  assert (Nt : NoDup top).
  { pose proof (order_nodup _ _ D) as N. rewrite <- (firstn_skipn 10 o) in N. fold top in N. clear -N.
    induction top as [|h t IH]; [constructor|]. cbn in N. inversion N as [|? ? N1 N2]; subst. constructor; auto.
    intro I. apply N1. apply in_or_app; auto. }
  assert (It : forall k, In k top -> k < length row).
  { intros k I. apply in_firstn_nth in I. destruct I as (p & _ & Ep). apply nth_error_In in Ep.
    apply (order_lt _ _ _ D) in Ep. rewrite map_length in Ep. auto. }
  assert (Ik : forall k, In k ks -> In k top /\ (limit < Qcabs (nth k row 0))%Qc).
  { intros k I. unfold ks, listed in I. apply filter_In in I. destruct I as [I1 I2]. qb_hyps. auto. }
  assert (Dt : forall i j a b, i < j -> nth_error o i = Some a -> nth_error o j = Some b ->
             (Qcabs (nth b row 0) <= Qcabs (nth a row 0))%Qc).
  { intros i j a b Hij Ea' Eb'. destruct D as [D1 D2].
    assert (La : a < length row).
    { apply nth_error_In in Ea'. apply (Permutation_in _ D1) in Ea'. apply in_seq in Ea'. rewrite map_length in Ea'. lia. }
    assert (Lb : b < length row).
    { apply nth_error_In in Eb'. apply (Permutation_in _ D1) in Eb'. apply in_seq in Eb'. rewrite map_length in Eb'. lia. }
    destruct (nth_error_ex _ row a La) as [x Ex]. destruct (nth_error_ex _ row b Lb) as [y Ey].
    rewrite (nth_error_nth_d _ _ _ _ 0%Qc Ex), (nth_error_nth_d _ _ _ _ 0%Qc Ey).
    eapply D2 with (i := i) (j := j) (a := a) (b := b); eauto; rewrite nth_error_map, ?Ex, ?Ey; auto. }
  assert (Hv : Forall2 (fun k nv => nth_error variables k = Some (fst nv) /\ nth_error row k = Some (snd nv)) ks ch).
  { apply F2_intro; [eapply F2_len; eauto|]. intros q k nv Ek En.
    destruct (F2_nth _ _ _ _ _ H q k Ek) as (nv' & En' & Hn). rewrite En in En'. inversion En'; subst nv'.
    dbind Hn. inversion Hn; subst. cbn [fst snd]. apply get_ok in E. split; auto.
    apply nth_error_In in Ek. apply Ik in Ek. destruct Ek as [Ek _]. apply It in Ek.
    destruct (nth_error_ex _ row k Ek) as [x Ex]. rewrite Ex, (nth_error_nth_d _ _ _ _ 0%Qc Ex). auto. }
  (* listed positions appear in decreasing order *)
  assert (Sk : forall p q l, (forall i j a b, i < j -> nth_error l i = Some a -> nth_error l j = Some b ->
                 (Qcabs (nth b row 0) <= Qcabs (nth a row 0))%Qc) -> p < q ->
               forall a b, nth_error (listed limit row l) p = Some a -> nth_error (listed limit row l) q = Some b ->
               (Qcabs (nth b row 0) <= Qcabs (nth a row 0))%Qc).
  { intros p q l. revert p q. induction l as [|h t IHl]; intros p q Hl Hpq a b Ha Hb.
    - destruct p; discriminate.
    - unfold listed in Ha, Hb. cbn [filter] in Ha, Hb.
      assert (Ht : forall i j a b, i < j -> nth_error t i = Some a -> nth_error t j = Some b ->
                 (Qcabs (nth b row 0) <= Qcabs (nth a row 0))%Qc).
      { intros i j a' b' Hij E1 E2. apply (Hl (S i) (S j)); auto. lia. }
      destruct (limit <? Qcabs (nth h row 0))%Qc.
      + destruct q as [|q]; [lia|]. destruct p as [|p].
        * cbn in Ha. inversion Ha; subst a. cbn in Hb. apply nth_error_In in Hb. apply filter_In in Hb.
          destruct Hb as [Hb _]. apply In_nth_error in Hb. destruct Hb as [j Ej]. apply (Hl 0 (S j)); auto. lia.
        * cbn in Ha, Hb. apply (IHl p q); auto. lia.
      + apply (IHl p q); auto. }
  assert (Dtop : forall i j a b, i < j -> nth_error top i = Some a -> nth_error top j = Some b ->
                 (Qcabs (nth b row 0) <= Qcabs (nth a row 0))%Qc).
  { intros i j a b Hij E1 E2. unfold top in E1, E2. rewrite nth_error_firstn in E1, E2.
    destruct (i <? 10); [|discriminate]. destruct (j <? 10); [|discriminate]. apply (Dt i j); auto. }
  exists ks. split; auto. split; [apply filter_incl_nodup; auto|].
  split.
  { unfold ks, listed. etransitivity; [apply count_le_length|]. unfold top. rewrite firstn_length. lia. }
  split.
  { intros k x I Ex. apply Ik in I. destruct I as [_ I]. rewrite (nth_error_nth_d _ _ _ _ 0%Qc Ex) in I. auto. }
  split.
  { intros i j x y Hij Ex Ey.
    destruct (F2_nth_r _ _ _ _ _ Hv i x Ex) as (a & Ka & _ & Ra).
    destruct (F2_nth_r _ _ _ _ _ Hv j y Ey) as (b & Kb & _ & Rb).
    pose proof (Sk i j top Dtop Hij a b Ka Kb) as Hle.
    rewrite (nth_error_nth_d _ _ _ _ 0%Qc Ra), (nth_error_nth_d _ _ _ _ 0%Qc Rb) in Hle. auto. }
  intros k x Nk Ex Hx.
  assert (Lk : k < length row) by (eapply nth_error_lt; eauto).
  assert (Ntop : ~ In k top).
  { intro I. apply Nk. unfold ks, listed. apply filter_In. split; auto. apply Qcltb_lt.
    rewrite (nth_error_nth_d _ _ _ _ 0%Qc Ex). auto. }
  assert (Io : In k o).
  { destruct D as [D1 _]. apply Permutation_sym in D1. apply (Permutation_in _ D1). apply in_seq. rewrite map_length. lia. }
  assert (Is : In k (skipn 10 o)).
  { rewrite <- (firstn_skipn 10 o) in Io. apply in_app_or in Io. destruct Io; auto. contradiction. }
  apply in_skipn_nth in Is. destruct Is as (p & Hp & Ep).
  assert (Lo : 10 < length o) by (apply nth_error_lt in Ep; lia).
  assert (Big : forall q, In q top -> (Qcabs x <= Qcabs (nth q row 0))%Qc).
  { intros q I. unfold top in I. apply in_firstn_nth in I. destruct I as (i & Hi & Ei).
    pose proof (Dt i p q k ltac:(lia) Ei Ep) as Hle. rewrite (nth_error_nth_d _ _ _ _ 0%Qc Ex) in Hle. auto. }
  assert (All : ks = top).
  { unfold ks, listed. clear -Big Hx. induction top as [|h t IH]; cbn; auto.
    assert (E : (limit <? Qcabs (nth h row 0))%Qc = true).
    { apply Qcltb_lt. specialize (Big h (or_introl eq_refl)). qlra. }
    rewrite E, IH; auto. intros; apply Big; right; auto. }
  split.
  - rewrite All. unfold top. rewrite firstn_length. lia.
  - intros nv I. apply In_nth_error in I. destruct I as [q Eq].
    destruct (F2_nth_r _ _ _ _ _ Hv q nv Eq) as (k' & Ek' & _ & Er).
    apply nth_error_In in Ek'. rewrite All in Ek'. apply Big in Ek'.
    rewrite (nth_error_nth_d _ _ _ _ 0%Qc Er) in Ek'. auto.
Qed.

Lemma interpretation_spec : forall asort variables contrib attn es,
  decreasing_order contrib (asort contrib) -> length variables = length contrib ->
  interpretation asort variables contrib attn = Ok es ->
  Permutation (combine (map e_name es) (map e_score es)) (combine variables contrib) /\
  (forall i j a b, i < j -> nth_error es i = Some a -> nth_error es j = Some b -> (e_score b <= e_score a)%Qc) /\
  (forall e, In e es -> exists v row, nth_error variables v = Some (e_name e) /\ nth_error contrib v = Some (e_score e) /\
     nth_error attn v = Some row /\ changed_variables asort variables row = Ok (e_changed e)).
Proof.
  intros asort variables contrib attn es D L H. unfold interpretation in H.
  assert (F : Forall2 (fun v e => nth_error variables v = Some (e_name e) /\ nth_error contrib v = Some (e_score e) /\
     exists row, nth_error attn v = Some row /\ changed_variables asort variables row = Ok (e_changed e)) (asort contrib) es).
  { apply mapM_ok in H. eapply F2_impl; [|exact H]. intros v e He. cbv beta in He.
    dbind He. dbind He. dbind He. dbind He. inversion He; subst. cbn.
    apply get_ok in E, E1, E2. repeat split; auto. exists a; auto. }
  split; [|split].
  - assert (P : mapM (get (combine variables contrib)) (asort contrib) = Ok (combine (map e_name es) (map e_score es))).
    { apply mapM_ok. clear -F. induction F as [|v e o es' (A & B & _) F IH]; cbn; constructor; auto.
      apply get_ok. clear -A B. revert v contrib A B.
      induction variables as [|n t IH]; intros [|v] [|c s] A B; cbn in *; try discriminate.
      - inversion A; inversion B; auto.
      - auto. }
    eapply mapM_get_perm; [|exact P]. destruct D as [D _]. rewrite combine_length, L, Nat.min_id. auto.
  - intros i j a b Hij Ea Eb.
    destruct (F2_nth_r _ _ _ _ _ F i a Ea) as (va & Va & _ & Ca & _).
    destruct (F2_nth_r _ _ _ _ _ F j b Eb) as (vb & Vb & _ & Cb & _).
    destruct D as [_ D]. eapply D; eauto.
  - intros e I. apply In_nth_error in I. destruct I as [k Ek].
    destruct (F2_nth_r _ _ _ _ _ F k e Ek) as (v & _ & A & B & row & C & D'). exists v, row. auto.
Qed.

Lemma interpretation_total : forall asort variables contrib attn,
  (forall l, decreasing_order l (asort l)) -> length variables = length contrib ->
  length attn = length contrib -> width (length contrib) attn ->
  exists es, interpretation asort variables contrib attn = Ok es.
Proof.
  intros asort variables contrib attn Ha L1 L2 Wd. unfold interpretation. apply mapM_total.
  intros v Iv. apply (order_lt _ _ _ (Ha contrib)) in Iv.
  destruct (get_in _ attn v) as (row & G & E); [lia|]. rewrite G, bind_ok.
  assert (Lr : length row = length contrib).
  { unfold width in Wd. rewrite Forall_forall in Wd. apply Wd. eapply nth_error_In; eauto. }
  assert (Hc : exists ch, changed_variables asort variables row = Ok ch).
  { unfold changed_variables. cbv zeta.
    set (o := asort (map Qcabs row)).
    destruct (mapM_total _ _ (fun k => do v0 <- get row k; Ok (k, v0)) (firstn 10 o)) as [all Eall].
    { intros k Ik. apply in_firstn_nth in Ik. destruct Ik as (p & _ & Ep). apply nth_error_In in Ep.
      apply (order_lt _ _ _ (Ha _)) in Ep. rewrite map_length in Ep.
      destruct (get_in _ row k Ep) as (x & Gx & _). rewrite Gx, bind_ok. eauto. }
    rewrite Eall, bind_ok. apply mapM_total. intros [k x] Ik. apply filter_In in Ik. destruct Ik as [Ik _].
    apply In_nth_error in Ik. destruct Ik as [p Ep]. destruct (mapM_nth_r _ _ _ _ _ _ _ Eall Ep) as (k' & Ek' & Hk').
    dbind Hk'. inversion Hk'; subst. apply get_ok in E0. apply nth_error_lt in E0. cbn [fst snd].
    destruct (get_in _ variables k) as (nm & Gn & _); [lia|]. rewrite Gn, bind_ok. eauto. }
  destruct Hc as [ch Ech]. rewrite Ech, bind_ok.
  destruct (get_in _ variables v) as (nm & Gn & _); [lia|]. rewrite Gn, bind_ok.
  destruct (get_in _ contrib v) as (sc & Gs & _); [lia|]. rewrite Gs, bind_ok. eauto.
Qed.

Lemma contributor_scores_spec : forall c cs, contributor_scores c = Ok cs ->
  qsum c <> 0%Qc /\ length cs = length c /\ qsum cs = 1%Qc /\
  forall j x y, nth_error c j = Some x -> nth_error cs j = Some y -> y = (x / qsum c)%Qc.
Proof.
  intros c cs H. unfold contributor_scores in H. destruct (qsum c =? 0)%Qc eqn:E; [discriminate|]. qb_hyps.
  inversion H; subst. rewrite map_length. split; auto. split; auto. split.
  - assert (X : forall s l, qsum (map (fun x => (x / s)%Qc) l) = (qsum l / s)%Qc).
    { intros s l. induction l as [|h t IH]; cbn [map qsum fold_right]; unfold Qcdiv in *.
      - cbn. ring.
      - unfold qsum in *. cbn [fold_right]. rewrite IH. ring. }
    rewrite X. unfold Qcdiv. apply Qcmult_inv_r. auto.
  - intros j x y Ex Ey. rewrite nth_error_map, Ex in Ey. cbn in Ey. inversion Ey; auto.
Qed.
