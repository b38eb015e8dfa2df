(** Parsing of written timestamps. *)
From Coq Require Import List ZArith Lia Bool String Ascii.
From Verif Require Import Base Dates_model Dates_spec Dates_proofs.
Import ListNotations.
Open Scope Z_scope.

(** ** Digits *)
Lemma digit_char : forall n, 0 <= n <= 9 -> digit (char_of n) = Some n.
Proof.
  intros n H. assert (C : n = 0 \/ n = 1 \/ n = 2 \/ n = 3 \/ n = 4 \/ n = 5 \/ n = 6 \/ n = 7 \/ n = 8 \/ n = 9) by lia.
  repeat destruct C as [->|C]; try subst; reflexivity.
Qed.
Lemma char_digit : forall c n, digit c = Some n -> 0 <= n <= 9 /\ c = char_of n.
Proof.
  intros c n H. unfold digit in H. destruct ((0 <=? Z.of_nat (nat_of_ascii c) - 48) && (Z.of_nat (nat_of_ascii c) - 48 <=? 9)) eqn:E; [|discriminate].
  injection H as <-. apply andb_true_iff in E. destruct E as [E1 E2]. apply Z.leb_le in E1, E2. split; [lia|].
  unfold char_of. replace (48 + Z.to_nat (Z.of_nat (nat_of_ascii c) - 48))%nat with (nat_of_ascii c) by lia.
  symmetry. apply ascii_nat_embedding.
Qed.
Lemma not_digit : forall c, digit c = None -> forall n, 0 <= n <= 9 -> char_of n <> c.
Proof. intros c H n B E. subst. rewrite digit_char in H by auto. discriminate. Qed.
Lemma split2 : forall n, 0 <= n <= 99 -> 0 <= n / 10 <= 9 /\ 0 <= n mod 10 <= 9 /\ 10 * (n / 10) + n mod 10 = n.
Proof. intros n H. pose proof (Z.div_mod n 10). pose proof (Z.mod_pos_bound n 10). lia. Qed.
Lemma is_digit_char : forall n, 0 <= n <= 9 -> is_digit (char_of n) = true.
Proof. intros. unfold is_digit. rewrite digit_char; auto. Qed.

(** ** What a match of a layout says *)
Lemma match_lit : forall pat c s, In c pat -> c <> "D"%char -> match_layout pat s = true -> In c s.
Proof.
  induction pat as [|p pt IH]; intros c s I N H; [destruct I|].
  destruct s as [|a st]; [discriminate|]. cbn [match_layout] in H. apply andb_true_iff in H. destruct H as [H1 H2].
  destruct I as [<-|I].
  - destruct (Ascii.eqb p "D") eqn:E; [apply Ascii.eqb_eq in E; congruence|]. apply Ascii.eqb_eq in H1. left. auto.
  - right. eapply IH; eauto.
Qed.
Lemma match_chars : forall pat s, match_layout pat s = true ->
  Forall (fun c => is_digit c = true \/ nat_of_ascii c = 10%nat \/ In c pat) s.
Proof.
  induction pat as [|p pt IH]; intros s H.
  - destruct s as [|c [|c' s]]; try discriminate; auto. constructor; auto. right. left. apply Nat.eqb_eq. auto.
  - destruct s as [|a st]; [discriminate|]. cbn [match_layout] in H. apply andb_true_iff in H. destruct H as [H1 H2]. constructor.
    + destruct (Ascii.eqb p "D"); auto. apply Ascii.eqb_eq in H1. subst. right. right. left. auto.
    + eapply Forall_impl; [|apply IH; eauto]. cbn. intuition.
Qed.
Lemma match_length : forall pat s, match_layout pat s = true -> (List.length s = List.length pat \/ List.length s = S (List.length pat)).
Proof.
  induction pat as [|p pt IH]; intros s H.
  - destruct s as [|c [|c' s]]; try discriminate; auto.
  - destruct s as [|a st]; [discriminate|]. cbn [match_layout] in H. apply andb_true_iff in H. destruct (IH st) as [L|L]; try tauto; cbn; lia.
Qed.

(** ** What a successful parse consumed *)
Definition literal (c : ascii) (items : list item) : Prop := In (Lit c) items.
Lemma one_rest : forall lo s v r, In (v, r) (one lo s) -> exists a, s = a :: r /\ is_digit a = true.
Proof.
  intros lo [|a t] v r H; [destruct H|]. cbn in H. destruct (digit a) eqn:E; [|destruct H]. destruct (lo <=? z); [|destruct H].
  destruct H as [H|[]]. injection H as <- <-. exists a. unfold is_digit. rewrite E. auto.
Qed.
Lemma two_rest : forall lo hi s v r, In (v, r) (two lo hi s) -> exists a b, s = a :: b :: r /\ is_digit a = true /\ is_digit b = true.
Proof.
  intros lo hi [|a [|b t]] v r H; try (destruct H; fail). cbn in H. destruct (digit a) eqn:E; [|destruct H]. destruct (digit b) eqn:F; [|destruct H].
  destruct (_ && _); [|destruct H]. destruct H as [H|[]]. injection H as <- <-. exists a, b. unfold is_digit. rewrite E, F. auto.
Qed.
Lemma alts_rest : forall d s v r, In (v, r) (alts d s) -> exists pre, s = pre ++ r /\ Forall (fun c => is_digit c = true \/ is_space c = true) pre.
Proof.
  assert (T : forall lo hi s v r, In (v, r) (two lo hi s) -> exists pre, s = pre ++ r /\ Forall (fun c => is_digit c = true \/ is_space c = true) pre).
  { intros lo hi s v r H. apply two_rest in H. destruct H as (a & b & -> & A & B). exists [a; b]. split; auto. }
  assert (O : forall lo s v r, In (v, r) (one lo s) -> exists pre, s = pre ++ r /\ Forall (fun c => is_digit c = true \/ is_space c = true) pre).
  { intros lo s v r H. apply one_rest in H. destruct H as (a & -> & A). exists [a]. split; auto. }
  intros d s v r H. destruct d; cbn [alts] in H; try (apply in_app_or in H; destruct H as [H|H]); eauto.
  - destruct s as [|a [|b [|c [|e t]]]]; try (destruct H; fail).
    destruct (digit a) eqn:E1; [|destruct H]. destruct (digit b) eqn:E2; [|destruct H]. destruct (digit c) eqn:E3; [|destruct H]. destruct (digit e) eqn:E4; [|destruct H].
    destruct H as [H|[]]. injection H as <- <-. exists [a; b; c; e]. split; [reflexivity|]. unfold is_digit.
    constructor; [left; rewrite E1; auto|]. constructor; [left; rewrite E2; auto|].
    constructor; [left; rewrite E3; auto|]. constructor; [left; rewrite E4; auto|]. constructor.
  - apply in_app_or in H. destruct H as [H|H]; eauto. destruct s as [|a t]; [destruct H|]. cbn [blank_one] in H.
    destruct (nat_of_ascii a =? 32)%nat eqn:E; [|destruct H]. apply one_rest in H. destruct H as (b & -> & B).
    exists [a; b]. split; auto. constructor; [|auto]. right. unfold is_space. rewrite E. auto.
Qed.
Lemma spaces_rest : forall s r, In r (spaces s) -> exists pre, s = pre ++ r /\ Forall (fun c => is_space c = true) pre.
Proof.
  induction s as [|a t IH]; intros r H; [destruct H|]. cbn [spaces] in H. destruct (is_space a) eqn:E; [|destruct H].
  apply in_app_or in H. destruct H as [H|[H|[]]].
  - destruct (IH r H) as (pre & -> & F). exists (a :: pre). split; auto.
  - subst. exists [a]. auto.
Qed.
Lemma first_some_in : forall A B (f : A -> option B) l y, first_some f l = Some y -> exists x, In x l /\ f x = Some y.
Proof.
  induction l as [|x t IH]; intros y H; [discriminate|]. cbn [first_some] in H. destruct (f x) eqn:E.
  - injection H as <-. exists x. split; [left|]; auto.
  - destruct (IH y H) as (z & I & Z). exists z. split; [right|]; auto.
Qed.
Lemma first_some_none : forall A B (f : A -> option B) l, (forall x, In x l -> f x = None) -> first_some f l = None.
Proof. induction l as [|x t IH]; intros H; auto. cbn. rewrite H by (left; auto). apply IH. intros. apply H. right. auto. Qed.
(** A character that is no digit, no space and no literal stays unread. *)
Lemma parse_keeps : forall items s f f' r c, parse items s f = Some (f', r) ->
  is_digit c = false -> is_space c = false -> ~ literal c items -> In c s -> In c r.
Proof.
  unfold literal. induction items as [|it items IH]; intros s f f' r c H D W L I; cbn [parse] in H; [injection H as _ <-; auto|].
  destruct it as [a| |d].
  - destruct s as [|b s]; [discriminate|]. destruct (Ascii.eqb b a) eqn:E; [|discriminate]. apply Ascii.eqb_eq in E. subst.
    destruct I as [->|I]; [exfalso; apply L; left; auto|]. eapply IH; eauto. intros X. apply L. right. auto.
  - apply first_some_in in H. destruct H as (s' & J & H). apply spaces_rest in J. destruct J as (pre & -> & F).
    eapply IH; eauto; [intros X; apply L; right; auto|]. apply in_app_or in I. destruct I as [I|I]; auto.
    rewrite Forall_forall in F. apply F in I. congruence.
  - apply first_some_in in H. destruct H as ((v, s') & J & H). apply alts_rest in J. destruct J as (pre & -> & F).
    eapply IH; eauto; [intros X; apply L; right; auto|]. apply in_app_or in I. destruct I as [I|I]; auto.
    rewrite Forall_forall in F. apply F in I. destruct I; congruence.
Qed.
(** Every literal of the format must be in the text. *)
Lemma parse_needs : forall items s f p c, parse items s f = Some p -> literal c items -> In c s.
Proof.
  unfold literal. induction items as [|it items IH]; intros s f p c H L; [destruct L|]. cbn [parse] in H. destruct it as [a| |d].
  - destruct s as [|b s]; [discriminate|]. destruct (Ascii.eqb b a) eqn:E; [|discriminate]. apply Ascii.eqb_eq in E. subst.
    destruct L as [L|L]; [injection L as ->; left; auto|]. right. eapply IH; eauto.
  - destruct L as [L|L]; [discriminate|]. apply first_some_in in H. destruct H as (s' & J & H). apply spaces_rest in J. destruct J as (pre & -> & F).
    apply in_or_app. right. eapply IH; eauto.
  - destruct L as [L|L]; [discriminate|]. apply first_some_in in H. destruct H as ((v, s') & J & H). apply alts_rest in J. destruct J as (pre & -> & F).
    apply in_or_app. right. eapply IH; eauto.
Qed.

(** ** The three layouts that never parse *)
Lemma strptime_keeps : forall s fmt c, is_digit c = false -> is_space c = false -> ~ literal c fmt -> In c s -> strptime s fmt = Err ValueErr.
Proof.
  intros s fmt c D W L I. unfold strptime. destruct (parse fmt s _) as [[f [|a r]]|] eqn:E; auto.
  exfalso. exact (parse_keeps _ _ _ _ _ _ E D W L I).
Qed.
Lemma strptime_needs : forall s fmt c, literal c fmt -> ~ In c s -> strptime s fmt = Err ValueErr.
Proof.
  intros s fmt c L N. unfold strptime. destruct (parse fmt s _) as [p|] eqn:E; auto. exfalso. apply N. eapply parse_needs; eauto.
Qed.
Ltac no_lit := let H := fresh in intros H; vm_compute in H; repeat destruct H as [H|H]; try discriminate H; try destruct H.
Ltac is_in := vm_compute; tauto.
Ltac absent H := (* a character outside the layout is not in the text *)
  let I := fresh in intros I; apply match_chars in H; rewrite Forall_forall in H; specialize (H _ I);
  destruct H as [H|[H|H]]; [discriminate H|discriminate H|vm_compute in H; repeat destruct H as [H|H]; try discriminate H; try destruct H].
Lemma plus_layout : forall s, match_layout (chars "DDDD-DD-DD DD:DD:DD +DDDD") s = true -> format_timestamp_str s = Err ValueErr.
Proof.
  intros s H. unfold format_timestamp_str, layouts. cbn [find_layout]. rewrite H.
  apply (strptime_keeps s _ "+"%char); try reflexivity; [no_lit|]. eapply match_lit; eauto; [is_in|discriminate].
Qed.
Lemma long_slash_layout : forall s, match_layout (chars "DD/DD/DDDD") s = true -> format_timestamp_str s = Err ValueErr.
Proof.
  intros s H.
  assert (Dash : ~ In "-"%char s) by (absent H).
  assert (Slash : In "/"%char s) by (eapply match_lit; eauto; [is_in|discriminate]).
  assert (P : forall pat, In "-"%char pat -> match_layout pat s = false).
  { intros pat I. destruct (match_layout pat s) eqn:E; auto. exfalso. apply Dash. eapply match_lit; eauto. discriminate. }
  assert (Q : match_layout (chars "DD/DD/DD") s = false).
  { destruct (match_layout (chars "DD/DD/DD") s) eqn:E; auto. apply match_length in E. apply match_length in H. cbn in E, H. lia. }
  unfold format_timestamp_str, layouts. cbn [find_layout]. rewrite !P by is_in. rewrite Q, H.
  apply (strptime_keeps s _ "/"%char); try reflexivity; auto. no_lit.
Qed.
Lemma digits_layout : forall s, match_layout (chars "DDDDDDDD") s = true -> format_timestamp_str s = Err ValueErr.
Proof.
  intros s H.
  assert (Dash : ~ In "-"%char s) by (absent H).
  assert (Slash : ~ In "/"%char s) by (absent H).
  assert (P : forall pat, In "-"%char pat -> match_layout pat s = false).
  { intros pat I. destruct (match_layout pat s) eqn:E; auto. exfalso. apply Dash. eapply match_lit; eauto. discriminate. }
  assert (Q : forall pat, In "/"%char pat -> match_layout pat s = false).
  { intros pat I. destruct (match_layout pat s) eqn:E; auto. exfalso. apply Slash. eapply match_lit; eauto. discriminate. }
  unfold format_timestamp_str, layouts. cbn [find_layout]. rewrite !P by is_in. rewrite !Q by is_in. rewrite H.
  apply (strptime_needs s _ "/"%char); auto. is_in.
Qed.

(** ** The five layouts that parse *)
Lemma match_D : forall pt s, match_layout ("D"%char :: pt) s = true ->
  exists n st, 0 <= n <= 9 /\ s = char_of n :: st /\ match_layout pt st = true.
Proof.
  intros pt [|a st] H; [discriminate|]. cbn [match_layout] in H. change (Ascii.eqb "D" "D") with true in H. cbv iota in H.
  apply andb_true_iff in H. destruct H as [H1 H2]. unfold is_digit in H1. destruct (digit a) as [n|] eqn:E; [|discriminate].
  apply char_digit in E. exists n, st. intuition. subst. auto.
Qed.
Lemma match_c : forall p pt s, Ascii.eqb p "D" = false -> match_layout (p :: pt) s = true -> exists st, s = p :: st /\ match_layout pt st = true.
Proof.
  intros p pt [|a st] N H; [discriminate|]. cbn [match_layout] in H. rewrite N in H. apply andb_true_iff in H. destruct H as [H1 H2].
  apply Ascii.eqb_eq in H1. subst. exists st. auto.
Qed.
Lemma match_DD : forall pt s, match_layout ("D"%char :: "D"%char :: pt) s = true ->
  exists n st, 0 <= n <= 99 /\ s = d2 n ++ st /\ match_layout pt st = true.
Proof.
  intros pt s H. apply match_D in H. destruct H as (a & s1 & A & -> & H). apply match_D in H. destruct H as (b & s2 & B & -> & H).
  exists (10 * a + b), s2. split; [lia|]. split; auto. unfold d2.
  replace ((10 * a + b) / 10) with a by (apply Z.div_unique with b; lia). replace ((10 * a + b) mod 10) with b by (apply Z.mod_unique with a; lia). reflexivity.
Qed.
Lemma match_DDDD : forall pt s, match_layout ("D"%char :: "D"%char :: "D"%char :: "D"%char :: pt) s = true ->
  exists n st, 0 <= n <= 9999 /\ s = d4 n ++ st /\ match_layout pt st = true.
Proof.
  intros pt s H. apply match_DD in H. destruct H as (a & s1 & A & -> & H). apply match_DD in H. destruct H as (b & s2 & B & -> & H).
  exists (100 * a + b), s2. split; [lia|]. split; auto. unfold d4.
  replace ((100 * a + b) / 100) with a by (apply Z.div_unique with b; lia). replace ((100 * a + b) mod 100) with b by (apply Z.mod_unique with a; lia).
  rewrite app_assoc. reflexivity.
Qed.

(** *** Directives on two digits *)
Definition in_range (d : directive) (n : Z) : bool :=
  match d with
  | DY => true | Dy => true
  | Dm => (1 <=? n) && (n <=? 12) | Dd => (1 <=? n) && (n <=? 31)
  | DH => n <=? 23 | DM => n <=? 59 | DS => n <=? 61
  end.
Lemma two_d2 : forall lo hi n r, 0 <= n <= 99 -> two lo hi (d2 n ++ r) = if (lo <=? n) && (n <=? hi) then [(n, r)] else [].
Proof.
  intros lo hi n r H. destruct (split2 n H) as (A & B & C). unfold d2. cbn [app two]. rewrite !digit_char by auto. rewrite C. reflexivity.
Qed.
Lemma one_d2 : forall lo n r, 0 <= n <= 99 ->
  one lo (d2 n ++ r) = [] \/ exists v c, one lo (d2 n ++ r) = [(v, c :: r)] /\ is_digit c = true.
Proof.
  intros lo n r H. destruct (split2 n H) as (A & B & C). unfold d2. cbn [app one]. rewrite digit_char by auto.
  destruct (lo <=? n / 10); auto. right. exists (n / 10), (char_of (n mod 10)). split; auto. apply is_digit_char; auto.
Qed.
Lemma blank_d2 : forall n r, 0 <= n <= 99 -> blank_one (d2 n ++ r) = [].
Proof.
  intros n r H. destruct (split2 n H) as (A & B & C). unfold d2. cbn [app blank_one].
  destruct (nat_of_ascii (char_of (n / 10)) =? 32)%nat eqn:E; auto. apply Nat.eqb_eq in E.
  pose proof (digit_char _ A) as D. unfold digit in D. rewrite E in D. discriminate.
Qed.
Lemma alts_d2 : forall d n r, d <> DY -> 0 <= n <= 99 ->
  exists more, alts d (d2 n ++ r) = (if in_range d n then [(n, r)] else []) ++ more /\
    (more = [] \/ exists v c, more = [(v, c :: r)] /\ is_digit c = true).
Proof.
  intros d n r ND H. destruct d; try congruence; cbn [alts in_range]; rewrite two_d2 by auto; try (rewrite blank_d2 by auto; rewrite app_nil_r).
  - eexists. split; [reflexivity|]. apply one_d2. auto.
  - eexists. split; [reflexivity|]. apply one_d2. auto.
  - assert (0 <=? n = true) as -> by (apply Z.leb_le; lia). cbn [andb]. eexists. split; [reflexivity|]. apply one_d2. auto.
  - assert (0 <=? n = true) as -> by (apply Z.leb_le; lia). cbn [andb]. eexists. split; [reflexivity|]. apply one_d2. auto.
  - assert (0 <=? n = true) as -> by (apply Z.leb_le; lia). cbn [andb]. eexists. split; [reflexivity|]. apply one_d2. auto.
  - exists []. split; auto. assert (0 <=? n = true) as -> by (apply Z.leb_le; lia). assert (n <=? 99 = true) as -> by (apply Z.leb_le; lia). reflexivity.
Qed.
(** The items after a directive refuse a digit, so two digits are read or the
    match fails. *)
Definition refuses (items : list item) : Prop := forall c s f, is_digit c = true -> parse items (c :: s) f = None.
Lemma lit_refuses : forall c items, is_digit c = false -> refuses (Lit c :: items).
Proof.
  intros c items N a s f D. cbn [parse]. destruct (Ascii.eqb a c) eqn:E; auto. apply Ascii.eqb_eq in E. congruence.
Qed.
Lemma digit_not_space : forall c, is_digit c = true -> is_space c = false.
Proof.
  intros c D. unfold is_digit in D. destruct (digit c) as [n|] eqn:E; [|discriminate]. apply char_digit in E. destruct E as [B ->].
  assert (C : n = 0 \/ n = 1 \/ n = 2 \/ n = 3 \/ n = 4 \/ n = 5 \/ n = 6 \/ n = 7 \/ n = 8 \/ n = 9) by lia.
  repeat destruct C as [->|C]; try subst; reflexivity.
Qed.
Lemma space_refuses : forall items, refuses (Space :: items).
Proof. intros items a s f D. cbn [parse spaces]. rewrite digit_not_space; auto. Qed.
Lemma dir_then : forall d items n r f, d <> DY -> 0 <= n <= 99 -> refuses items ->
  parse (Dir d :: items) (d2 n ++ r) f = if in_range d n then parse items r (set_field d n f) else None.
Proof.
  intros d items n r f ND H Rf. cbn [parse]. destruct (alts_d2 d n r ND H) as (more & -> & M).
  assert (None' : first_some (fun vs => parse items (snd vs) (set_field d (fst vs) f)) more = None).
  { destruct M as [->|(v & c & -> & D)]; auto. cbn [first_some fst snd]. rewrite Rf; auto. }
  destruct (in_range d n); cbn [app first_some fst snd]; [|auto]. destruct (parse items r _); auto.
Qed.
Lemma dir_last : forall d n r f, d <> DY -> 0 <= n <= 99 ->
  (in_range d n = true -> parse [Dir d] (d2 n ++ r) f = Some (set_field d n f, r)) /\
  (in_range d n = false -> forall f', parse [Dir d] (d2 n ++ r) f <> Some (f', [])).
Proof.
  intros d n r f ND H. cbn [parse]. destruct (alts_d2 d n r ND H) as (more & -> & M). split; intros E; rewrite E; cbn [app first_some fst snd]; auto.
  intros f' X. destruct M as [->|(v & c & -> & D)]; cbn [first_some fst snd] in X; discriminate.
Qed.
Lemma year_then : forall items n r f, 0 <= n <= 9999 -> parse (Dir DY :: items) (d4 n ++ r) f = parse items r (set_field DY n f).
Proof.
  intros items n r f H.
  assert (H1 : 0 <= n / 100 <= 99) by (pose proof (Z.div_mod n 100); pose proof (Z.mod_pos_bound n 100); lia).
  assert (H2 : 0 <= n mod 100 <= 99) by (pose proof (Z.mod_pos_bound n 100); lia).
  destruct (split2 _ H1) as (A & B & C). destruct (split2 _ H2) as (A' & B' & C').
  unfold d4, d2. cbn [app parse alts]. rewrite !digit_char by auto. cbn [first_some fst snd].
  replace (1000 * (n / 100 / 10) + 100 * ((n / 100) mod 10) + 10 * (n mod 100 / 10) + (n mod 100) mod 10) with n.
  - destruct (parse items r _); auto.
  - pose proof (Z.div_mod n 100). lia.
Qed.
Lemma lit_then : forall c items r f, parse (Lit c :: items) (c :: r) f = parse items r f.
Proof. intros. cbn [parse]. rewrite Ascii.eqb_refl. auto. Qed.
Lemma space_then : forall items n r f, 0 <= n <= 99 -> parse (Space :: items) (" "%char :: d2 n ++ r) f = parse items (d2 n ++ r) f.
Proof.
  intros items n r f H. destruct (split2 n H) as (A & B & C). cbn [parse spaces]. change (is_space " ") with true. cbv iota.
  unfold d2. cbn [app spaces]. rewrite (digit_not_space (char_of (n / 10))) by (apply is_digit_char; auto). cbn [app first_some].
  destruct (parse items _ f); auto.
Qed.

(** *** Whole texts *)
Lemma mk_bad : forall f, in_range Dm (f_m f) = false \/ in_range Dd (f_d f) = false \/ in_range DH (f_h f) = false \/
  in_range DM (f_mi f) = false \/ in_range DS (f_s f) = false -> mk_datetime f = Err ValueErr.
Proof.
  intros f H. unfold mk_datetime. cbn [in_range] in H. pose proof (days_range (f_y f) (f_m f)) as D.
  match goal with |- (if ?c then _ else _) = _ => destruct c eqn:E; auto end. exfalso.
  repeat match goal with X : _ && _ = true |- _ => apply andb_true_iff in X; destruct X end.
  repeat match goal with X : (_ <=? _) = true |- _ => apply Z.leb_le in X end.
  repeat match goal with X : _ \/ _ |- _ => destruct X end;
  try match goal with X : _ && _ = false |- _ => apply andb_false_iff in X; destruct X end;
  match goal with X : (_ <=? _) = false |- _ => apply Z.leb_gt in X end; lia.
Qed.
Definition finish (f : fields) (tail : list ascii) : res stamp := match tail with [] => mk_datetime f | _ => Err ValueErr end.
Lemma last_finish : forall d n r f items s0 s,
  d <> DY -> 0 <= n <= 99 -> parse items s0 (Fields 1900 1 1 0 0 0) = parse [Dir d] (d2 n ++ r) f -> s = s0 ->
  (in_range d n = false -> mk_datetime (set_field d n f) = Err ValueErr) ->
  strptime s items = finish (set_field d n f) r.
Proof.
  intros d n r f items s0 s ND H E -> B. unfold strptime. rewrite E. destruct (dir_last d n r f ND H) as [A C]. unfold finish.
  destruct (in_range d n) eqn:I.
  - rewrite A by auto. destruct r; auto.
  - rewrite B by auto. destruct (parse [Dir d] _ f) as [[f' [|c t]]|] eqn:X; auto; [|destruct r; auto|destruct r; auto].
    exfalso. exact (C eq_refl f' eq_refl).
Qed.
Lemma none_finish : forall items s f tail, parse items s (Fields 1900 1 1 0 0 0) = None -> mk_datetime f = Err ValueErr ->
  strptime s items = finish f tail.
Proof. intros items s f tail E B. unfold strptime, finish. rewrite E. destruct tail; auto. Qed.
Lemma day_then : forall items y m d r f, 0 <= y <= 9999 -> 0 <= m <= 99 -> 0 <= d <= 99 -> refuses items ->
  parse (Dir DY :: Lit "-" :: Dir Dm :: Lit "-" :: Dir Dd :: items) (d4 y ++ "-"%char :: d2 m ++ "-"%char :: d2 d ++ r) f =
  if in_range Dm m then if in_range Dd d then parse items r (Fields y m d (f_h f) (f_mi f) (f_s f)) else None else None.
Proof.
  intros items y m d r f Hy Hm Hd Rf. rewrite year_then, lit_then, dir_then by (auto; try discriminate; apply lit_refuses; auto).
  destruct (in_range Dm m); auto. rewrite lit_then, dir_then by (auto; discriminate). reflexivity.
Qed.
Lemma hour_then : forall items h mi r f, 0 <= h <= 99 -> 0 <= mi <= 99 ->
  parse (Dir DH :: Lit ":" :: Dir DM :: items) (d2 h ++ ":"%char :: d2 mi ++ r) f =
  if in_range DH h then parse (Dir DM :: items) (d2 mi ++ r) (set_field DH h f) else None.
Proof.
  intros items h mi r f Hh Hm. rewrite dir_then by (auto; try discriminate; apply lit_refuses; auto).
  destruct (in_range DH h); auto.
  all: try (rewrite lit_then; auto).
Qed.
Lemma minute_then : forall items mi r f, 0 <= mi <= 99 ->
  parse (Dir DM :: Lit ":" :: items) (d2 mi ++ ":"%char :: r) f =
  if in_range DM mi then parse items r (set_field DM mi f) else None.
Proof.
  intros items mi r f Hm. rewrite dir_then by (auto; try discriminate; apply lit_refuses; auto).
  destruct (in_range DM mi); auto.
  all: try (rewrite lit_then; auto).
Qed.
Ltac bad := unfold finish; rewrite mk_bad by (cbn [f_m f_d f_h f_mi f_s set_field]; auto); destruct_tail
with destruct_tail := match goal with t : list ascii |- _ => destruct t; reflexivity end.
Ltac rng d n := let E := fresh "E" in destruct (in_range d n) eqn:E; [|bad].
Ltac side := first [lia | discriminate | apply space_refuses | apply lit_refuses; reflexivity].
Section Texts.
  Variables (y m d h mi s : Z) (tail : list ascii).
  Hypotheses (Hy : 0 <= y <= 9999) (Hm : 0 <= m <= 99) (Hd : 0 <= d <= 99) (Hh : 0 <= h <= 99) (Hmi : 0 <= mi <= 99) (Hs : 0 <= s <= 99).
  Let day (r : list ascii) := d4 y ++ "-"%char :: d2 m ++ "-"%char :: d2 d ++ r.
  Let hm (r : list ascii) := d2 h ++ ":"%char :: d2 mi ++ r.
  Let F0 := Fields 1900 1 1 0 0 0.

  Lemma finish_last : forall dr n f, dr <> DY -> 0 <= n <= 99 -> (in_range dr n = false -> mk_datetime (set_field dr n f) = Err ValueErr) ->
    match parse [Dir dr] (d2 n ++ tail) f with Some (f', []) => mk_datetime f' | _ => Err ValueErr end = finish (set_field dr n f) tail.
  Proof.
    intros dr n f ND H B. destruct (dir_last dr n tail f ND H) as [A C]. unfold finish. destruct (in_range dr n) eqn:I.
    - rewrite A by auto. destruct tail; auto.
    - rewrite B by auto. specialize (C eq_refl). destruct (parse [Dir dr] _ f) as [[f' [|c t]]|]; try (destruct tail; reflexivity).
      exfalso. exact (C f' eq_refl).
  Qed.
  Lemma text_T : strptime (day ("T"%char :: hm (":"%char :: d2 s ++ tail))) (fmt_of (chars "%Y-%m-%dT%H:%M:%S")) = finish (Fields y m d h mi s) tail.
  Proof.
    change (fmt_of _) with [Dir DY; Lit "-"; Dir Dm; Lit "-"; Dir Dd; Lit "T"; Dir DH; Lit ":"; Dir DM; Lit ":"; Dir DS].
    unfold strptime, day, hm. rewrite day_then by side. rng Dm m. rng Dd d. rewrite lit_then, hour_then by side. rng DH h.
    rewrite minute_then by side. rng DM mi. apply (finish_last DS s); try side. intros E3. apply mk_bad. cbn [f_s set_field]. auto.
  Qed.
  Lemma text_Z : strptime (day ("T"%char :: hm (":"%char :: d2 s ++ "Z"%char :: tail))) (fmt_of (chars "%Y-%m-%dT%H:%M:%SZ")) = finish (Fields y m d h mi s) tail.
  Proof.
    change (fmt_of _) with [Dir DY; Lit "-"; Dir Dm; Lit "-"; Dir Dd; Lit "T"; Dir DH; Lit ":"; Dir DM; Lit ":"; Dir DS; Lit "Z"].
    unfold strptime, day, hm. rewrite day_then by side. rng Dm m. rng Dd d. rewrite lit_then, hour_then by side. rng DH h.
    rewrite minute_then by side. rng DM mi. rewrite dir_then by side. rng DS s. rewrite lit_then. cbn [parse]. destruct tail; reflexivity.
  Qed.
  Lemma text_Space : strptime (day (" "%char :: hm (":"%char :: d2 s ++ tail))) (fmt_of (chars "%Y-%m-%d %H:%M:%S")) = finish (Fields y m d h mi s) tail.
  Proof.
    change (fmt_of _) with [Dir DY; Lit "-"; Dir Dm; Lit "-"; Dir Dd; Space; Dir DH; Lit ":"; Dir DM; Lit ":"; Dir DS].
    unfold strptime, day, hm. rewrite day_then by side. rng Dm m. rng Dd d. rewrite space_then, hour_then by side. rng DH h.
    rewrite minute_then by side. rng DM mi. apply (finish_last DS s); try side. intros E3. apply mk_bad. cbn [f_s set_field]. auto.
  Qed.
  Lemma text_Minutes : strptime (day (" "%char :: hm tail)) (fmt_of (chars "%Y-%m-%d %H:%M")) = finish (Fields y m d h mi 0) tail.
  Proof.
    change (fmt_of _) with [Dir DY; Lit "-"; Dir Dm; Lit "-"; Dir Dd; Space; Dir DH; Lit ":"; Dir DM].
    unfold strptime, day, hm. rewrite day_then by side. rng Dm m. rng Dd d. rewrite space_then, hour_then by side. rng DH h.
    apply (finish_last DM mi); try side. intros E3. apply mk_bad. cbn [f_mi set_field]. auto.
  Qed.
  Lemma text_Slash : 0 <= y <= 99 ->
    strptime (d2 m ++ "/"%char :: d2 d ++ "/"%char :: d2 y ++ tail) (fmt_of (chars "%m/%d/%y")) =
    finish (Fields (if y <=? 68 then y + 2000 else y + 1900) m d 0 0 0) tail.
  Proof.
    intros Hy2. change (fmt_of _) with [Dir Dm; Lit "/"; Dir Dd; Lit "/"; Dir Dy].
    unfold strptime. rewrite dir_then by side. rng Dm m. rewrite lit_then, dir_then by side. rng Dd d. rewrite lit_then.
    rewrite (finish_last Dy y); try side. reflexivity.
  Qed.
End Texts.

Lemma mk_ok : forall y m d h mi s st, 0 <= h -> 0 <= mi -> 0 <= s ->
  (mk_datetime (Fields y m d h mi s) = Ok st <-> moment y m d h mi s st).
Proof.
  intros y m d h mi s st Hh Hmi Hs. unfold moment. rewrite valid_iff. unfold mk_datetime. cbn [f_y f_m f_d f_h f_mi f_s yr mo dy].
  match goal with |- (if ?c then _ else _) = _ <-> _ => destruct c eqn:E end.
  - repeat match goal with X : _ && _ = true |- _ => apply andb_true_iff in X; destruct X end.
    repeat match goal with X : (_ <=? _) = true |- _ => apply Z.leb_le in X end.
    replace (((h * 60 + mi) * 60 + s) * 1000000) with ((h * 3600 + mi * 60 + s) * second_us) by (unfold second_us; lia).
    split; [intros X; injection X as <-; intuition; lia|]. intros (_ & _ & _ & _ & _ & ->). auto.
  - split; [discriminate|]. intros ((A & B) & C & D & F & G & _). exfalso.
    repeat match goal with X : _ && _ = false |- _ => apply andb_false_iff in X; destruct X as [X|X] end;
    match goal with X : (_ <=? _) = false |- _ => apply Z.leb_gt in X end; lia.
Qed.
Lemma finish_ok : forall y m d h mi s st tail, 0 <= h -> 0 <= mi -> 0 <= s ->
  finish (Fields y m d h mi s) tail = Ok st -> tail = [] /\ moment y m d h mi s st.
Proof. intros y m d h mi s st [|] Hh Hmi Hs E; cbn [finish] in E; [|discriminate]. split; auto. apply mk_ok; auto. Qed.

Ltac mc H := first [apply match_DDDD in H | apply match_DD in H].
(** Reading: whatever is accepted is the writing of that moment. *)
Lemma accepted_written : forall t st, format_timestamp_str t = Ok st ->
  exists w y m d h mi s, t = render w y m d h mi s /\ moment y m d h mi s st /\ writable w y h mi s.
Proof.
  intros t st H.
  destruct (match_layout (chars "DDDD-DD-DD DD:DD:DD +DDDD") t) eqn:L1; [rewrite (plus_layout t L1) in H; discriminate|].
  destruct (match_layout (chars "DD/DD/DDDD") t) eqn:L7; [rewrite (long_slash_layout t L7) in H; discriminate|].
  destruct (match_layout (chars "DDDDDDDD") t) eqn:L8; [rewrite (digits_layout t L8) in H; discriminate|].
  unfold format_timestamp_str, layouts in H. cbn [find_layout] in H. rewrite L1, L7, L8 in H. clear L1 L7 L8.
  destruct (match_layout (chars "DDDD-DD-DDTDD:DD:DDZ") t) eqn:L2.
  { apply match_DDDD in L2. destruct L2 as (y & t1 & Hy & -> & L). apply match_c in L; [|reflexivity]. destruct L as (t2 & -> & L).
    apply match_DD in L. destruct L as (m & t3 & Hm & -> & L). apply match_c in L; [|reflexivity]. destruct L as (t4 & -> & L).
    apply match_DD in L. destruct L as (d & t5 & Hd & -> & L). apply match_c in L; [|reflexivity]. destruct L as (t6 & -> & L).
    apply match_DD in L. destruct L as (h & t7 & Hh & -> & L). apply match_c in L; [|reflexivity]. destruct L as (t8 & -> & L).
    apply match_DD in L. destruct L as (mi & t9 & Hmi & -> & L). apply match_c in L; [|reflexivity]. destruct L as (t10 & -> & L).
    apply match_DD in L. destruct L as (s & t11 & Hs & -> & L). apply match_c in L; [|reflexivity]. destruct L as (t12 & -> & L).
    rewrite text_Z in H by auto. apply finish_ok in H; try lia. destruct H as [-> M]. exists WZ, y, m, d, h, mi, s. split; [reflexivity|]. split; cbn; auto. }
  destruct (match_layout (chars "DDDD-DD-DDTDD:DD:DD") t) eqn:L3.
  { apply match_DDDD in L3. destruct L3 as (y & t1 & Hy & -> & L). apply match_c in L; [|reflexivity]. destruct L as (t2 & -> & L).
    apply match_DD in L. destruct L as (m & t3 & Hm & -> & L). apply match_c in L; [|reflexivity]. destruct L as (t4 & -> & L).
    apply match_DD in L. destruct L as (d & t5 & Hd & -> & L). apply match_c in L; [|reflexivity]. destruct L as (t6 & -> & L).
    apply match_DD in L. destruct L as (h & t7 & Hh & -> & L). apply match_c in L; [|reflexivity]. destruct L as (t8 & -> & L).
    apply match_DD in L. destruct L as (mi & t9 & Hmi & -> & L). apply match_c in L; [|reflexivity]. destruct L as (t10 & -> & L).
    apply match_DD in L. destruct L as (s & t11 & Hs & -> & L).
    rewrite text_T in H by auto. apply finish_ok in H; try lia. destruct H as [-> M]. exists WT, y, m, d, h, mi, s. split; [reflexivity|]. split; cbn; auto. }
  destruct (match_layout (chars "DDDD-DD-DD DD:DD:DD") t) eqn:L4.
  { apply match_DDDD in L4. destruct L4 as (y & t1 & Hy & -> & L). apply match_c in L; [|reflexivity]. destruct L as (t2 & -> & L).
    apply match_DD in L. destruct L as (m & t3 & Hm & -> & L). apply match_c in L; [|reflexivity]. destruct L as (t4 & -> & L).
    apply match_DD in L. destruct L as (d & t5 & Hd & -> & L). apply match_c in L; [|reflexivity]. destruct L as (t6 & -> & L).
    apply match_DD in L. destruct L as (h & t7 & Hh & -> & L). apply match_c in L; [|reflexivity]. destruct L as (t8 & -> & L).
    apply match_DD in L. destruct L as (mi & t9 & Hmi & -> & L). apply match_c in L; [|reflexivity]. destruct L as (t10 & -> & L).
    apply match_DD in L. destruct L as (s & t11 & Hs & -> & L).
    rewrite text_Space in H by auto. apply finish_ok in H; try lia. destruct H as [-> M]. exists WSpace, y, m, d, h, mi, s. split; [reflexivity|]. split; cbn; auto. }
  destruct (match_layout (chars "DDDD-DD-DD DD:DD") t) eqn:L5.
  { apply match_DDDD in L5. destruct L5 as (y & t1 & Hy & -> & L). apply match_c in L; [|reflexivity]. destruct L as (t2 & -> & L).
    apply match_DD in L. destruct L as (m & t3 & Hm & -> & L). apply match_c in L; [|reflexivity]. destruct L as (t4 & -> & L).
    apply match_DD in L. destruct L as (d & t5 & Hd & -> & L). apply match_c in L; [|reflexivity]. destruct L as (t6 & -> & L).
    apply match_DD in L. destruct L as (h & t7 & Hh & -> & L). apply match_c in L; [|reflexivity]. destruct L as (t8 & -> & L).
    apply match_DD in L. destruct L as (mi & t9 & Hmi & -> & L).
    rewrite text_Minutes in H by auto. apply finish_ok in H; try lia. destruct H as [-> M]. exists WMinutes, y, m, d, h, mi, 0. split; [reflexivity|]. split; cbn; auto. }
  destruct (match_layout (chars "DD/DD/DD") t) eqn:L6; [|discriminate].
  apply match_DD in L6. destruct L6 as (m & t1 & Hm & -> & L). apply match_c in L; [|reflexivity]. destruct L as (t2 & -> & L).
  apply match_DD in L. destruct L as (d & t3 & Hd & -> & L). apply match_c in L; [|reflexivity]. destruct L as (t4 & -> & L).
  apply match_DD in L. destruct L as (y & t5 & Hy & -> & L).
  rewrite text_Slash in H by (auto; lia). apply finish_ok in H; try lia. destruct H as [-> M].
  exists WSlash, (if y <=? 68 then y + 2000 else y + 1900), m, d, 0, 0, 0. split.
  - cbn [render]. replace ((if y <=? 68 then y + 2000 else y + 1900) mod 100) with y; [reflexivity|].
    destruct (y <=? 68); [apply Z.mod_unique with 20|apply Z.mod_unique with 19]; lia.
  - split; auto. cbn. destruct (y <=? 68) eqn:E; [apply Z.leb_le in E|apply Z.leb_gt in E]; lia.
Qed.

(** Writing: every moment is read back. *)
Lemma match_d2 : forall n pt s, 0 <= n <= 99 -> match_layout ("D"%char :: "D"%char :: pt) (d2 n ++ s) = match_layout pt s.
Proof.
  intros n pt s H. destruct (split2 n H) as (A & B & C). unfold d2. cbn [app match_layout]. change (Ascii.eqb "D" "D") with true. cbv iota.
  rewrite !is_digit_char by auto. reflexivity.
Qed.
Lemma match_d4 : forall n pt s, 0 <= n <= 9999 -> match_layout ("D"%char :: "D"%char :: "D"%char :: "D"%char :: pt) (d4 n ++ s) = match_layout pt s.
Proof.
  intros n pt s H. unfold d4. rewrite <- app_assoc. rewrite !match_d2; auto.
  - pose proof (Z.mod_pos_bound n 100). lia.
  - pose proof (Z.div_mod n 100). pose proof (Z.mod_pos_bound n 100). lia.
Qed.
Lemma match_same : forall p pt s, Ascii.eqb p "D" = false -> match_layout (p :: pt) (p :: s) = match_layout pt s.
Proof. intros p pt s H. cbn [match_layout]. rewrite H, Ascii.eqb_refl. reflexivity. Qed.
Lemma match_other : forall p pt c s, (if Ascii.eqb p "D" then is_digit c else Ascii.eqb p c) = false -> match_layout (p :: pt) (c :: s) = false.
Proof. intros p pt c s H. cbn [match_layout]. rewrite H. reflexivity. Qed.
Ltac ml := repeat first
  [ rewrite match_d4 by lia | rewrite match_d2 by lia | rewrite match_same by reflexivity | rewrite match_other by reflexivity ].
Lemma written_accepted : forall w y m d h mi s st, moment y m d h mi s st -> writable w y h mi s ->
  format_timestamp_str (render w y m d h mi s) = Ok st.
Proof.
  intros w y m d h mi s st M W. pose proof M as M0. destruct M0 as (V & Hy & Hh & Hmi & Hs & _). apply valid_iff in V. cbn [yr mo dy] in V.
  pose proof (days_range y m) as DR.
  assert (Hm' : 0 <= m <= 99) by lia. assert (Hd' : 0 <= d <= 99) by lia.
  apply mk_ok in M; try lia.
  unfold format_timestamp_str, layouts.
  destruct w; cbn [render writable] in *; rewrite <- ?app_assoc; cbn [app].
  - change (ch 84) with "T"%char. change (ch 90) with "Z"%char. change dash with "-"%char. change colon with ":"%char.
    pose proof (text_Z y m d h mi s [] ltac:(lia) Hm' Hd' ltac:(lia) ltac:(lia) ltac:(lia)) as T. rewrite <- M. cbn [finish] in T. rewrite <- T.
    cbn [find_layout]. unfold chars. cbn [list_ascii_of_string]. ml. reflexivity.
  - change (ch 84) with "T"%char. change dash with "-"%char. change colon with ":"%char.
    pose proof (text_T y m d h mi s [] ltac:(lia) Hm' Hd' ltac:(lia) ltac:(lia) ltac:(lia)) as T. rewrite <- M. cbn [finish] in T. rewrite <- T.
    rewrite <- (app_nil_r (d2 s)). cbn [find_layout]. unfold chars. cbn [list_ascii_of_string]. ml. rewrite app_nil_r. reflexivity.
  - change dash with "-"%char. change colon with ":"%char. change blank with " "%char.
    pose proof (text_Space y m d h mi s [] ltac:(lia) Hm' Hd' ltac:(lia) ltac:(lia) ltac:(lia)) as T. rewrite <- M. cbn [finish] in T. rewrite <- T.
    rewrite <- (app_nil_r (d2 s)). cbn [find_layout]. unfold chars. cbn [list_ascii_of_string]. ml. rewrite app_nil_r. reflexivity.
  - subst s. change dash with "-"%char. change colon with ":"%char. change blank with " "%char.
    pose proof (text_Minutes y m d h mi [] ltac:(lia) Hm' Hd' ltac:(lia) ltac:(lia)) as T. rewrite <- M. cbn [finish] in T. rewrite <- T.
    rewrite <- (app_nil_r (d2 mi)). cbn [find_layout]. unfold chars. cbn [list_ascii_of_string]. ml. rewrite app_nil_r. reflexivity.
  - destruct W as (-> & -> & -> & W). change slash with "/"%char.
    assert (Ym : 0 <= y mod 100 <= 99) by (pose proof (Z.mod_pos_bound y 100); lia).
    pose proof (text_Slash (y mod 100) m d [] ltac:(lia) Hm' Hd' Ym) as T. rewrite <- M. cbn [finish] in T.
    replace (if y mod 100 <=? 68 then y mod 100 + 2000 else y mod 100 + 1900) with y in T.
    + rewrite <- T. rewrite <- (app_nil_r (d2 (y mod 100))). cbn [find_layout]. unfold chars. cbn [list_ascii_of_string]. ml. rewrite app_nil_r. reflexivity.
    + destruct (Z_le_gt_dec 2000 y).
      * assert (y mod 100 = y - 2000) as -> by (symmetry; apply Z.mod_unique with 20; lia). assert (y - 2000 <=? 68 = true) as -> by (apply Z.leb_le; lia). lia.
      * assert (y mod 100 = y - 1900) as -> by (symmetry; apply Z.mod_unique with 19; lia). assert (y - 1900 <=? 68 = false) as -> by (apply Z.leb_gt; lia). lia.
Qed.
