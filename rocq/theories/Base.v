(** Shared vocabulary: Python exceptions as values, list helpers that mirror
    Python list operations, and lemmas about them. *)
From Coq Require Import String List Arith ZArith Lia Bool.
Import ListNotations.

(** Python exception classes that occur in the modelled code. [OutOfFuel] is
    not a Python exception: it marks a loop that did not finish within the fuel
    given to its model; theorems show it unreachable where they claim
    termination. *)
Inductive exn : Type :=
| TypeErr
| ValueErr
| KeyErr
| IndexErr
| AttrErr
| ImportErr
| ZeroDiv
| NotImplErr
| Generic                 (* bare [Exception(...)] *)
| RequestErr (code : string)   (* AnomalyDetectionRequestError *)
| FormatErr               (* DataFormatError *)
| ParamErr                (* InvalidParameterError *)
| AssertErr               (* AssertionError *)
| FileErr                 (* FileNotFoundError *)
| RuntimeErr              (* RuntimeError of torch *)
| OutOfFuel.

Inductive res (A : Type) : Type :=
| Ok (a : A)
| Err (e : exn).
Arguments Ok {A} a.
Arguments Err {A} e.

Definition bind {A B} (x : res A) (f : A -> res B) : res B :=
  match x with Ok a => f a | Err e => Err e end.

Notation "'do' x <- a ; b" := (bind a (fun x => b))
  (at level 200, x name, a at level 100, b at level 200).

Lemma bind_ok : forall A B (a : A) (g : A -> res B), bind (Ok a) g = g a.
Proof. reflexivity. Qed.

Definition is_ok {A} (x : res A) : bool :=
  match x with Ok _ => true | Err _ => false end.

(** Python [l[i] = x] on a list, [i] in range (out of range: unchanged; the
    models use it only in range). *)
Fixpoint upd {A} (l : list A) (i : nat) (x : A) : list A :=
  match l, i with
  | [], _ => []
  | _ :: t, O => x :: t
  | h :: t, S k => h :: upd t k x
  end.

(** Python [l[i:i+len(r)] = r]. *)
Definition splice {A} (l : list A) (i : nat) (r : list A) : list A :=
  firstn i l ++ r ++ skipn (i + length r) l.

(** Python [l[a:b]] with [0 <= a], [0 <= b]. *)
Definition slice {A} (l : list A) (a b : nat) : list A :=
  firstn (b - a) (skipn a l).

(** [range(n)] *)
Definition range (n : nat) : list nat := seq 0 n.

Fixpoint mapi_from {A B} (k : nat) (f : nat -> A -> B) (l : list A) : list B :=
  match l with [] => [] | x :: t => f k x :: mapi_from (S k) f t end.
Definition mapi {A B} (f : nat -> A -> B) (l : list A) : list B := mapi_from 0 f l.

(** * Lemmas *)

Lemma upd_length : forall A (l : list A) i x, length (upd l i x) = length l.
Proof. induction l; intros [|i] x; simpl; auto. Qed.

Lemma nth_error_upd : forall A (l : list A) i x k,
  nth_error (upd l i x) k =
  if (k =? i)%nat then (if (i <? length l)%nat then Some x else None) else nth_error l k.
Proof.
  induction l as [|h t IH]; intros i x k.
  - simpl. destruct (k =? i)%nat; destruct k; reflexivity.
  - destruct i as [|i]; destruct k as [|k]; simpl; auto.
    rewrite IH. destruct (k =? i)%nat eqn:E; auto.
Qed.

Lemma nth_error_upd_same : forall A (l : list A) i x,
  (i < length l)%nat -> nth_error (upd l i x) i = Some x.
Proof.
  intros. rewrite nth_error_upd, Nat.eqb_refl.
  destruct (i <? length l)%nat eqn:E; auto. apply Nat.ltb_ge in E; lia.
Qed.

Lemma nth_error_upd_other : forall A (l : list A) i x k,
  k <> i -> nth_error (upd l i x) k = nth_error l k.
Proof.
  intros. rewrite nth_error_upd. destruct (k =? i)%nat eqn:E; auto.
  apply Nat.eqb_eq in E; congruence.
Qed.

Lemma nth_error_firstn : forall A (l : list A) n k,
  nth_error (firstn n l) k = if (k <? n)%nat then nth_error l k else None.
Proof.
  induction l as [|h t IH]; intros [|n] [|k]; simpl; auto.
  - destruct (S k <? S n)%nat; auto.
  - rewrite IH. reflexivity.
Qed.

Lemma nth_error_skipn : forall A (l : list A) n k,
  nth_error (skipn n l) k = nth_error l (n + k).
Proof.
  induction l as [|h t IH]; intros [|n] k; simpl; auto.
  destruct k; auto.
Qed.

Lemma nth_error_slice : forall A (l : list A) a b k,
  nth_error (slice l a b) k =
  if (k <? b - a)%nat then nth_error l (a + k) else None.
Proof.
  intros. unfold slice. rewrite nth_error_firstn, nth_error_skipn. reflexivity.
Qed.

Lemma slice_length : forall A (l : list A) a b,
  length (slice l a b) = Nat.min (b - a) (length l - a).
Proof. intros. unfold slice. rewrite firstn_length, skipn_length. lia. Qed.

Lemma splice_length : forall A (l : list A) i r,
  (i + length r <= length l)%nat -> length (splice l i r) = length l.
Proof.
  intros. unfold splice. rewrite !app_length, firstn_length, skipn_length. lia.
Qed.

Lemma nth_error_splice : forall A (l : list A) i r k,
  (i + length r <= length l)%nat ->
  nth_error (splice l i r) k =
  if ((i <=? k) && (k <? i + length r))%nat then nth_error r (k - i) else nth_error l k.
Proof.
  intros A l i r k H. unfold splice.
  destruct (i <=? k)%nat eqn:E1.
  - apply Nat.leb_le in E1.
    rewrite nth_error_app2 by (rewrite firstn_length; lia).
    rewrite firstn_length. replace (Nat.min i (length l)) with i by lia.
    destruct (k <? i + length r)%nat eqn:E2; simpl.
    + apply Nat.ltb_lt in E2. rewrite nth_error_app1 by lia. reflexivity.
    + apply Nat.ltb_ge in E2. rewrite nth_error_app2 by lia.
      rewrite nth_error_skipn. f_equal. lia.
  - apply Nat.leb_gt in E1. simpl.
    rewrite nth_error_app1 by (rewrite firstn_length; lia).
    rewrite nth_error_firstn. destruct (k <? i)%nat eqn:E2; auto.
    apply Nat.ltb_ge in E2; lia.
Qed.

Lemma nth_error_ext : forall A (l1 l2 : list A),
  (forall k, nth_error l1 k = nth_error l2 k) -> l1 = l2.
Proof.
  induction l1 as [|h t IH]; intros [|h2 t2] H; auto.
  - specialize (H 0%nat); discriminate.
  - specialize (H 0%nat); discriminate.
  - f_equal.
    + specialize (H 0%nat). simpl in H. congruence.
    + apply IH. intros k. apply (H (S k)).
Qed.

Lemma nth_error_ext_len : forall A (l1 l2 : list A),
  length l1 = length l2 ->
  (forall k, (k < length l1)%nat -> nth_error l1 k = nth_error l2 k) -> l1 = l2.
Proof.
  intros A l1 l2 HL H. apply nth_error_ext. intros k.
  destruct (Nat.lt_ge_cases k (length l1)) as [L|L]; auto.
  rewrite (proj2 (nth_error_None l1 k)) by lia.
  rewrite (proj2 (nth_error_None l2 k)) by lia. auto.
Qed.

Lemma nth_error_lt : forall A (l : list A) k x,
  nth_error l k = Some x -> (k < length l)%nat.
Proof. intros. apply nth_error_Some. congruence. Qed.

Lemma nth_error_ge_none : forall A (l : list A) k,
  (length l <= k)%nat -> nth_error l k = None.
Proof. intros. apply nth_error_None. auto. Qed.

Lemma nth_error_ex : forall A (l : list A) k,
  (k < length l)%nat -> exists x, nth_error l k = Some x.
Proof.
  intros. destruct (nth_error l k) eqn:E; eauto.
  apply nth_error_None in E; lia.
Qed.

Lemma nth_error_repeat : forall A (x : A) n k,
  nth_error (repeat x n) k = if (k <? n)%nat then Some x else None.
Proof.
  induction n; intros [|k]; simpl; auto. rewrite IHn. reflexivity.
Qed.

Lemma nth_error_seq : forall len start k,
  nth_error (seq start len) k = if (k <? len)%nat then Some (start + k)%nat else None.
Proof.
  induction len as [|len IH]; intros s k.
  - destruct k; reflexivity.
  - destruct k as [|k]; simpl seq; simpl nth_error.
    + rewrite Nat.add_0_r. reflexivity.
    + rewrite IH. change (S k <? S len)%nat with (k <? len)%nat.
      destruct (k <? len)%nat; auto. rewrite Nat.add_succ_comm. reflexivity.
Qed.

Lemma nth_error_nth_d : forall A (l : list A) k x d,
  nth_error l k = Some x -> nth k l d = x.
Proof. intros. apply nth_error_nth with (d:=d) in H. auto. Qed.

Lemma nth_error_of_nth : forall A (l : list A) k d,
  (k < length l)%nat -> nth_error l k = Some (nth k l d).
Proof. intros. apply nth_error_nth'; auto. Qed.

Lemma mapi_from_length : forall A B (f : nat -> A -> B) l k,
  length (mapi_from k f l) = length l.
Proof. induction l; simpl; intros; auto. Qed.

Lemma mapi_length : forall A B (f : nat -> A -> B) l, length (mapi f l) = length l.
Proof. intros; apply mapi_from_length. Qed.

Lemma nth_error_mapi_from : forall A B (f : nat -> A -> B) l k i,
  nth_error (mapi_from k f l) i = option_map (f (k + i)%nat) (nth_error l i).
Proof.
  induction l; intros k [|i]; simpl; auto.
  - rewrite Nat.add_0_r; auto.
  - rewrite IHl. replace (S k + i)%nat with (k + S i)%nat by lia. auto.
Qed.

Lemma nth_error_mapi : forall A B (f : nat -> A -> B) l i,
  nth_error (mapi f l) i = option_map (f i) (nth_error l i).
Proof. intros. unfold mapi. rewrite nth_error_mapi_from. auto. Qed.

Lemma last_nth_error : forall A (l : list A) d, l <> [] ->
  nth_error l (length l - 1) = Some (last l d).
Proof.
  induction l as [|h t IH]; intros d H; [congruence|].
  destruct t as [|h2 t]; auto.
  simpl length. replace (S (S (length t)) - 1)%nat with (S (length t))%nat by lia.
  simpl. specialize (IH d ltac:(discriminate)). simpl length in IH.
  replace (S (length t) - 1)%nat with (length t) in IH by lia. auto.
Qed.

Lemma nth_error_map_some : forall A B (f : A -> B) l k y,
  nth_error (map f l) k = Some y -> exists x, nth_error l k = Some x /\ f x = y.
Proof.
  intros A B f l k y H. rewrite nth_error_map in H.
  destruct (nth_error l k); simpl in H; inversion H; eauto.
Qed.
