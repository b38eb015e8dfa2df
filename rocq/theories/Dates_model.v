(** Calendar arithmetic and conversion of timestamps to grid indices. *)
From Coq Require Import List ZArith Lia Bool String Ascii.
From Flocq Require Import Core.Zaux Core.FLX IEEE754.BinarySingleNaN.
From Verif Require Import Base Helpers_model Detect_model.
Import ListNotations.
Open Scope Z_scope.

(** * Dates *)
(** A pandas Timestamp without time zone: proleptic Gregorian date and
    microseconds since midnight (nanoseconds are not modelled). *)
Record date := Date { yr : Z; mo : Z; dy : Z }.
Record stamp := Stamp { s_date : date; s_us : Z }.

(** calendar.isleap, calendar.monthrange *)
Definition leap (y : Z) : bool := (y mod 4 =? 0) && (negb (y mod 100 =? 0) || (y mod 400 =? 0)).
(** date_utils.py:93-94 *)
Definition get_days_in_month (y m : Z) : Z :=
  if m =? 2 then (if leap y then 29 else 28)
  else if (m =? 4) || (m =? 6) || (m =? 9) || (m =? 11) then 30 else 31.

(** [a < b] of datetime: field by field. *)
Definition stamp_ltb (a b : stamp) : bool :=
  let p := s_date a in let q := s_date b in
  (yr p <? yr q) || ((yr p =? yr q) && ((mo p <? mo q) || ((mo p =? mo q) &&
    ((dy p <? dy q) || ((dy p =? dy q) && (s_us a <? s_us b)))))).

(** date_utils.py:83-90 *)
Record date_difference := Diff { d_years : Z; d_months : Z; d_days : Z }.

(** date_utils.py:97-129 *)
Definition get_date_difference (a0 b0 : stamp) : date_difference :=
  let '(a, b, factor) := if stamp_ltb a0 b0 then (s_date b0, s_date a0, -1) else (s_date a0, s_date b0, 1) in
  let a_days_in_month := get_days_in_month (yr a) (mo a) in
  let b_days_in_month := get_days_in_month (yr b) (mo b) in
  let '(diff_day, diff_month) :=
    if (yr a =? yr b) && (mo a =? mo b) then (dy a - dy b, 0)
    else if (dy a =? dy b) || ((dy a =? a_days_in_month) && (dy b =? b_days_in_month))
         || (negb (a_days_in_month =? b_days_in_month) &&
             (((dy a =? a_days_in_month) && (dy a <? dy b)) || ((dy b =? b_days_in_month) && (dy b <? dy a))))
    then (0, mo a - mo b)
    else if dy b <? dy a then (dy a - dy b, mo a - mo b)
    else (b_days_in_month - dy b + dy a, mo a - mo b - 1) in
  let diff_year := yr a - yr b in
  let '(diff_year, diff_month) := if diff_month <? 0 then (diff_year - 1, diff_month + 12) else (diff_year, diff_month) in
  Diff (factor * diff_year) (factor * diff_month) (factor * diff_day).

(** * Seconds since the epoch *)
(** Days from 1970-01-01: 365 per year, leap days before the year, days of the
    months before, day of the month. *)
Definition days_before_month (y m : Z) : Z :=
  fold_left (fun acc k => acc + get_days_in_month y k) (map Z.of_nat (seq 1 (Z.to_nat (m - 1)))) 0.
Definition days_before_year (y : Z) : Z := let p := y - 1 in p * 365 + p / 4 - p / 100 + p / 400.
Definition ordinal (d : date) : Z := days_before_year (yr d) + days_before_month (yr d) (mo d) + dy d.
Definition epoch_us (s : stamp) : Z := (ordinal (s_date s) - ordinal (Date 1970 1 1)) * 86400000000 + s_us s.

(** * Doubles *)
Definition f64 := binary_float 53 1024.
#[global] Instance prec53 : Prec_gt_0 53 := eq_refl.
#[global] Instance prec53_emax : Prec_lt_emax 53 1024 := eq_refl.
(** float(int); overflow is not an issue for the integers that occur. *)
Definition of_Z (z : Z) : f64 := binary_normalize 53 1024 _ _ mode_NE z 0 false.
Definition fdiv (x y : f64) : f64 := Bdiv mode_NE x y.
Definition fsub (x y : f64) : f64 := Bminus mode_NE x y.
Definition fmul (x y : f64) : f64 := Bmult mode_NE x y.
(** int(float) of a finite number *)
Definition to_Z (x : f64) : Z := Btrunc x.
(** float.is_integer *)
Definition is_integer (x : f64) : bool :=
  match x with
  | B754_zero _ => true
  | B754_finite _ m e _ => (0 <=? e) || (Zpos m mod 2 ^ (- e) =? 0)
  | _ => false
  end.
(** The literal 0.001 (the double nearest to 1/1000). *)
Definition MICRO_SECOND : f64 := fdiv (of_Z 1) (of_Z 1000).

(** Timestamp.timestamp(): the double nearest to microseconds / 10^6. (pandas
    computes round(nanoseconds / 1e9, 6), which is that double as long as the
    two roundings stay below half a microsecond, i.e. before the year 2106, and
    for all whole seconds.) *)
Definition timestamp (s : stamp) : f64 := fdiv (of_Z (epoch_us s)) (of_Z 1000000).

(** helpers.py:137-159 for the granularities with whole seconds *)
Definition get_second_by_granularity (g : granularity) (custom_interval : Z) : res Z :=
  match g with
  | Secondly => Ok custom_interval
  | Minutely => Ok (60 * custom_interval)
  | Hourly => Ok (3600 * custom_interval)
  | Daily => Ok (86400 * custom_interval)
  | Weekly => Ok (604800 * custom_interval)
  | Monthly => Ok (2419200 * custom_interval)
  | Yearly => Ok (29030400 * custom_interval)
  | GNone => Ok 0
  | Microsecond => Err TypeErr   (* not a whole number; see below *)
  end.
(** helpers.py:162-163 for microsecond: int(0.001 * custom_interval * 1000) *)
Definition get_microsecond_by_granularity (custom_interval : Z) : Z :=
  to_Z (fmul (fmul MICRO_SECOND (of_Z custom_interval)) (of_Z 1000)).

(** * helpers.py:194-246 *)
(** First position whose element fails the test. *)
Fixpoint first_bad {A} (ok : A -> bool) (i : nat) (l : list A) : option nat :=
  match l with [] => None | x :: t => if ok x then first_bad ok (S i) t else Some i end.
(** 240-246 *)
Definition to_indices (q : list f64) : option (list Z) * option nat :=
  match first_bad is_integer 0 q with
  | Some i => (None, Some i)
  | None => (Some (map to_Z q), None)
  end.
Definition get_indices_from_timestamps (g : granularity) (custom : option Z) (ts : list stamp)
  : res (option (list Z) * option nat) :=
  let ci := Z.max (match custom with None => 1 | Some c => c end) 1 in
  match ts with
  | [] => Ok (Some [], None)
  | start :: _ =>
      match g with
      | Microsecond =>
          let interval := get_microsecond_by_granularity ci in
          let ms s := to_Z (fmul (timestamp s) (of_Z 1000)) in
          if interval =? 0 then Err ZeroDiv else
          Ok (to_indices (map (fun t => fdiv (of_Z (ms t - ms start)) (of_Z interval)) ts))
      | Monthly =>
          let deltas := map (fun t => get_date_difference t start) ts in
          match first_bad (fun d => d_days d =? 0) 0 deltas with
          | Some i => Ok (None, Some i)
          | None => Ok (to_indices (map (fun d => fdiv (of_Z (d_months d + d_years d * 12)) (of_Z ci)) deltas))
          end
      | Yearly =>
          let deltas := map (fun t => get_date_difference t start) ts in
          match first_bad (fun d => (d_days d =? 0) && (d_months d =? 0)) 0 deltas with
          | Some i => Ok (None, Some i)
          | None => Ok (to_indices (map (fun d => fdiv (of_Z (d_years d)) (of_Z ci)) deltas))
          end
      | _ =>
          do interval <- get_second_by_granularity g ci;
          if interval =? 0 then Err ZeroDiv else
          Ok (to_indices (map (fun t => fdiv (fsub (timestamp t) (timestamp start)) (of_Z interval)) ts))
      end
  end.

(** * date_utils.py:26-45 *)
(** A string is the list of its characters (ASCII; other digits that Python's
    [\d] accepts are not modelled). *)
Definition digit (c : ascii) : option Z :=
  let n := Z.of_nat (nat_of_ascii c) - 48 in if (0 <=? n) && (n <=? 9) then Some n else None.
Definition is_digit (c : ascii) : bool := match digit c with Some _ => true | None => false end.
Definition is_space (c : ascii) : bool :=
  let n := nat_of_ascii c in ((n =? 32) || ((9 <=? n) && (n <=? 13)) || ((28 <=? n) && (n <=? 31)))%nat.

(** ** re.match of a layout: [D] stands for [\d], other characters for
    themselves; [$] also matches before a final newline. *)
Fixpoint match_layout (pat : list ascii) (s : list ascii) : bool :=
  match pat, s with
  | [], [] => true
  | [], [c] => (nat_of_ascii c =? 10)%nat
  | p :: pt, c :: st => (if Ascii.eqb p "D" then is_digit c else Ascii.eqb p c) && match_layout pt st
  | _, _ => false
  end.

(** ** datetime.strptime for the numeric directives *)
Inductive directive := DY | Dm | Dd | DH | DM | DS | Dy.
Inductive item := Lit (c : ascii) | Space | Dir (d : directive).

(** All ways a directive can match a prefix, in the order of the alternatives
    of its regular expression (_strptime.py: TimeRE). *)
Definition one (lo : Z) (s : list ascii) : list (Z * list ascii) :=
  match s with
  | a :: t => match digit a with Some x => if lo <=? x then [(x, t)] else [] | None => [] end
  | _ => []
  end.
Definition two (lo hi : Z) (s : list ascii) : list (Z * list ascii) :=
  match s with
  | a :: b :: t =>
      match digit a, digit b with
      | Some x, Some y => if (lo <=? 10 * x + y) && (10 * x + y <=? hi) then [(10 * x + y, t)] else []
      | _, _ => []
      end
  | _ => []
  end.
(** ' [1-9]' in the expression of %d *)
Definition blank_one (s : list ascii) : list (Z * list ascii) :=
  match s with a :: t => if (nat_of_ascii a =? 32)%nat then one 1 t else [] | _ => [] end.
Definition alts (d : directive) (s : list ascii) : list (Z * list ascii) :=
  match d with
  | DY => match s with
          | a :: b :: c :: e :: t =>
              match digit a, digit b, digit c, digit e with
              | Some x, Some y, Some z, Some w => [(1000 * x + 100 * y + 10 * z + w, t)]
              | _, _, _, _ => []
              end
          | _ => []
          end
  | Dy => two 0 99 s
  | Dm => two 1 12 s ++ one 1 s
  | Dd => two 1 31 s ++ one 1 s ++ blank_one s
  | DH => two 0 23 s ++ one 0 s
  | DM => two 0 59 s ++ one 0 s
  | DS => two 0 61 s ++ one 0 s
  end.
(** [\s+], longest match first *)
Fixpoint spaces (s : list ascii) : list (list ascii) :=
  match s with a :: t => if is_space a then spaces t ++ [t] else [] | [] => [] end.

Record fields := Fields { f_y : Z; f_m : Z; f_d : Z; f_h : Z; f_mi : Z; f_s : Z }.
Definition set_field (d : directive) (v : Z) (f : fields) : fields :=
  match d with
  | DY => Fields v (f_m f) (f_d f) (f_h f) (f_mi f) (f_s f)
  | Dy => Fields (if v <=? 68 then v + 2000 else v + 1900) (f_m f) (f_d f) (f_h f) (f_mi f) (f_s f)
  | Dm => Fields (f_y f) v (f_d f) (f_h f) (f_mi f) (f_s f)
  | Dd => Fields (f_y f) (f_m f) v (f_h f) (f_mi f) (f_s f)
  | DH => Fields (f_y f) (f_m f) (f_d f) v (f_mi f) (f_s f)
  | DM => Fields (f_y f) (f_m f) (f_d f) (f_h f) v (f_s f)
  | DS => Fields (f_y f) (f_m f) (f_d f) (f_h f) (f_mi f) v
  end.
Fixpoint first_some {A B} (f : A -> option B) (l : list A) : option B :=
  match l with [] => None | x :: t => match f x with Some y => Some y | None => first_some f t end end.
(** Backtracking match; the unread rest is returned. *)
Fixpoint parse (items : list item) (s : list ascii) (f : fields) : option (fields * list ascii) :=
  match items with
  | [] => Some (f, s)
  | Lit c :: t => match s with a :: s' => if Ascii.eqb a c then parse t s' f else None | [] => None end
  | Space :: t => first_some (fun s' => parse t s' f) (spaces s)
  | Dir d :: t => first_some (fun vs => parse t (snd vs) (set_field d (fst vs) f)) (alts d s)
  end.
(** datetime(...): ValueError outside the calendar. *)
Definition mk_datetime (f : fields) : res stamp :=
  if (1 <=? f_y f) && (f_y f <=? 9999) && (1 <=? f_m f) && (f_m f <=? 12) && (1 <=? f_d f)
     && (f_d f <=? get_days_in_month (f_y f) (f_m f)) && (f_h f <=? 23) && (f_mi f <=? 59) && (f_s f <=? 59)
  then Ok (Stamp (Date (f_y f) (f_m f) (f_d f)) (((f_h f * 60 + f_mi f) * 60 + f_s f) * 1000000))
  else Err ValueErr.
Definition strptime (s : list ascii) (fmt : list item) : res stamp :=
  match parse fmt s (Fields 1900 1 1 0 0 0) with
  | Some (f, []) => mk_datetime f
  | _ => Err ValueErr      (* no match, or unconverted data remains *)
  end.

Definition chars (s : string) : list ascii := list_ascii_of_string s.
(** A format string: %x are directives, white space matches any white space. *)
Fixpoint fmt_of (s : list ascii) : list item :=
  match s with
  | [] => []
  | c :: t =>
      if Ascii.eqb c "%" then
        match t with
        | d :: t =>
            Dir (if Ascii.eqb d "Y" then DY else if Ascii.eqb d "m" then Dm else if Ascii.eqb d "d" then Dd
                 else if Ascii.eqb d "H" then DH else if Ascii.eqb d "M" then DM else if Ascii.eqb d "S" then DS else Dy)
            :: fmt_of t
        | [] => [Lit c]
        end
      else if is_space c then Space :: fmt_of t else Lit c :: fmt_of t
  end.

(** The layouts of date_utils.py:27-43 with the format each is parsed with. *)
Definition layouts : list (string * string) :=
  [("DDDD-DD-DD DD:DD:DD +DDDD", "%Y-%m-%d %H:%M:%S");
   ("DDDD-DD-DDTDD:DD:DDZ", "%Y-%m-%dT%H:%M:%SZ");
   ("DDDD-DD-DDTDD:DD:DD", "%Y-%m-%dT%H:%M:%S");
   ("DDDD-DD-DD DD:DD:DD", "%Y-%m-%d %H:%M:%S");
   ("DDDD-DD-DD DD:DD", "%Y-%m-%d %H:%M");
   ("DD/DD/DD", "%m/%d/%y");
   ("DD/DD/DDDD", "%Y%m%d");
   ("DDDDDDDD", "%Y/%m/%d/%H")]%string.
Fixpoint find_layout (ls : list (string * string)) (s : list ascii) : option string :=
  match ls with
  | [] => None
  | (pat, fmt) :: t => if match_layout (chars pat) s then Some fmt else find_layout t s
  end.
(** date_utils.py:26-45 *)
Definition format_timestamp_str (s : list ascii) : res stamp :=
  match find_layout layouts s with
  | Some fmt => strptime s (fmt_of (chars fmt))
  | None => Err ValueErr
  end.
