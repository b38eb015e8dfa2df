(** Property C19 for DynamicFilter.detect. *)
From Coq Require Import List Arith ZArith QArith Qcanon Lia Bool Sorted.
From Verif Require Import Base Num Sorting Kernel_model Kernel_spec Kernel_proofs Kernel_proofs2 Kernel_proofs3 Kernel_props.
Import ListNotations.
Open Scope nat_scope.

Lemma first_pos_some : forall A (p : A -> bool) l x, In x l -> p x = true -> exists i, first_pos p l = Some i.
Proof.
  induction l as [|h t IH]; intros x I P; [destruct I|]. cbn [first_pos]. destruct (p h) eqn:E; [eauto|].
  destruct I as [->|I]; [congruence|]. destruct (IH x I P) as (i & ->). cbn. eauto.
Qed.
Lemma fold_max_in : forall l a, fold_left Nat.max l a = a \/ In (fold_left Nat.max l a) l.
Proof.
  induction l as [|x t IH]; intros a; cbn [fold_left]; auto. destruct (IH (Nat.max a x)) as [E|I]; [|right; right; auto].
  rewrite E. destruct (Nat.max_spec a x) as [[_ ->]|[_ ->]]; auto. right. left. auto.
Qed.
Lemma fold_max_hit : forall l, l <> [] -> In (fold_left Nat.max l 0) l.
Proof.
  intros l NE. destruct (fold_max_in l 0) as [E|I]; auto. destruct l as [|x t]; [congruence|].
  destruct (fold_max_ge (x :: t) 0) as [_ G]. specialize (G x (or_introl eq_refl)). rewrite E in *. left. lia.
Qed.

(** C19. DynamicFilter.detect on a series in ascending order of value: in
    entire mode the prefix, in tail order, ending at the last significant
    position; in last mode nothing, or the prefix ending at the first
    significant position from the newest label on. *)
Theorem C19_dynamic_detect : forall cst std series maxo thr (upper last : bool),
  tail_ordered false (map snd series) -> series <> [] -> maxo <= length series ->
  let tail := if upper then rev series else series in
  let sig k := significant cst std upper (map snd tail) k thr in
  exists n, dynamic_detect cst std series maxo thr upper last = Ok (firstn n (map fst tail)) /\
    (if last then exists li, (exists lab v, nth_error tail li = Some (lab, v) /\ forall p, In p series -> fst p <= lab) /\
       (n = 0 /\ (forall k, li <= k < maxo -> ~ sig k) \/
        li < n <= maxo /\ sig (n - 1) /\ forall k, li <= k < n - 1 -> ~ sig k)
     else n <= maxo /\ (forall k, k < maxo -> sig k -> k < n) /\ (0 < n -> sig (n - 1))).
Proof.
  intros cst std series maxo thr upper last HO NE HM tail sig.
  assert (OT : tail_ordered upper (map snd tail)).
  { apply tail_ordered_ordered. apply tail_ordered_ordered in HO. unfold tail. destruct upper; auto.
    cbn [ordered] in *. rewrite map_rev, rev_involutive. auto. }
  assert (LT : maxo <= length (map snd tail)) by (rewrite map_length; unfold tail; destruct upper; rewrite ?rev_length; auto).
  assert (IT : forall p, In p tail <-> In p series).
  { intros p. unfold tail. destruct upper; [symmetry; apply in_rev|reflexivity]. }
  unfold dynamic_detect. fold tail. destruct last.
  - set (lab := fold_left Nat.max (map fst tail) 0).
    assert (NT : map fst tail <> []).
    { unfold tail. destruct upper; intro X; apply map_eq_nil in X; auto. apply (f_equal (@rev _)) in X.
      rewrite rev_involutive in X. auto. }
    pose proof (fold_max_hit _ NT) as IL. fold lab in IL. apply in_map_iff in IL. destruct IL as (pt & EL & IL).
    destruct (first_pos_some _ (fun p => fst p =? lab) tail pt IL ltac:(cbv beta; rewrite EL; apply Nat.eqb_refl)) as (li & EF).
    rewrite EF. destruct (C19_dynamic_last cst std upper (map snd tail) (map fst tail) maxo thr li OT LT) as (n & E & C).
    exists n. split; auto. exists li. split; auto.
    destruct (first_pos_spec _ _ _ _ EF) as ([lb v] & Hx & Px). cbn in Px. apply Nat.eqb_eq in Px. subst lb.
    exists lab, v. split; auto. intros p Hp. apply (fold_max_ge (map fst tail) 0). apply in_map. apply IT. auto.
  - destruct (C19_dynamic_entire cst std upper (map snd tail) (map fst tail) maxo thr OT LT) as (n & E & C).
    exists n. auto.
Qed.
Print Assumptions C19_dynamic_detect.
Example C19_dynamic_detect_example :
  let cst := Q2Qc (674 # 1000) in let std := fun _ : list Qc => qz 1000 in
  tail_ordered false (map snd ex_series) /\
  dynamic_detect cst std ex_series 4 (qz 3) true false = Ok [10; 9] /\
  dynamic_detect cst std ex_series 4 (qz 3) true true = Ok [10] /\
  dynamic_detect cst std ex_series 4 (qz 3) false true = Ok [].
Proof. split; [apply tail_ordered_ordered; apply sortedb_sorted; reflexivity|]. vm_compute. auto. Qed.
