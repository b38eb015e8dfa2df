(** The margins, scores and flags in the double arithmetic the program uses:
    /repo/src/anomaly_detector/univariate/util/boundary_utils.py and refine.py.
    Margins_model.v has the same functions over exact rationals. Here every
    [+], [-], [*], [/] rounds to the nearest double (ties to even), as numpy and
    python do. The sensitivity is an integer (the request checks that). *)
From Coq Require Import List ZArith Lia Bool QArith.
From Flocq Require Import Core.Zaux IEEE754.BinarySingleNaN.
From Verif Require Import Base Dates_model.
From Verif Require Kernel_model Margins_model.
Import ListNotations.
Open Scope Z_scope.

(** * Operations *)
Definition fadd (x y : f64) : f64 := Bplus mode_NE x y.
Definition fabs (x : f64) : f64 := Babs x.
Definition fltb (x y : f64) : bool := Bltb x y.
Definition fleb (x y : f64) : bool := Bleb x y.
(** python's min, max of two and numpy's of an array, no NaN among the arguments *)
Definition fmax (x y : f64) : f64 := if fltb x y then y else x.
Definition fmin (x y : f64) : f64 := if fltb y x then y else x.
Definition fmax_list (d : f64) (l : list f64) : f64 := fold_left fmax l d.
Definition fmin_list (d : f64) (l : list f64) : f64 := fold_left fmin l d.

(** * Literals *)
(** [m * 2^e] for a mantissa of at most 53 bits: no rounding. *)
Definition lit (p : Z * Z) : f64 := binary_normalize 53 1024 _ _ mode_NE (fst p) (snd p) false.
Definition zero : f64 := of_Z 0.
Definition one : f64 := of_Z 1.
Definition half : f64 := fdiv (of_Z 1) (of_Z 2).
(** fields.py EPS; boundary_utils.py:9-10 *)
Definition EPS : f64 := fdiv (of_Z 1) (of_Z 100000000).
Definition IGNORE_RATIO : f64 := fdiv (of_Z 1) (of_Z 10000).
Definition MIN_UNIT : f64 := fdiv (of_Z 3) (of_Z 10).
(** boundary_utils.py:46-59, the doubles nearest to the decimal literals
    (see [factor_lits_nearest] in Fmargins_proofs.v), as mantissa and exponent. *)
Definition factor_lits : list (Z * Z) :=
  [ (4679521487814656, -43); (8669429282688205, -44); (8007963087418164, -44); (7374644389819188, -44); 
    (6769473189891277, -44); (6192449487634432, -44); (5643573283048653, -44); (5122844576133939, -44); 
    (4630263366890292, -44); (8331659310635418, -45); (7459086882832384, -45); (6642809450371482, -45); 
    (5882827013252711, -45); (5179139571476070, -45); (4531747125041562, -45); (7881299347898368, -46); 
    (6811694436397875, -46); (5854679515581645, -46); (5010254585449677, -46); (8556839292003942, -47); 
    (7318349394477056, -47); (6305039478318694, -47); (5516909543528858, -47); (4953959590107546, -47); 
    (4616189618054758, -47); (8444249301319680, -48); (8092405580431360, -48); (7740561859543040, -48); 
    (7388718138654720, -48); (7036874417766400, -48); (6685030696878080, -48); (6333186975989760, -48); 
    (5981343255101440, -48); (5629499534213120, -48); (5277655813324800, -48); (4925812092436480, -48); 
    (4573968371548160, -48); (8444249301319680, -49); (7740561859543040, -49); (7036874417766400, -49); 
    (6333186975989760, -49); (5629499534213120, -49); (4925812092436480, -49); (8444249301319680, -50); 
    (7036874417766400, -50); (5629499534213120, -50); (5179139571476068, -50); (4728779608739020, -50); 
    (8556839292003936, -51); (7656119366529840, -51); (6755399441055744, -51); (5854679515581640, -51); 
    (4953959590107544, -51); (8106479329266880, -52); (6305039478318688, -52); (4503599627370496, -52); 
    (8646911284551352, -53); (8286623314361712, -53); (7926335344172072, -53); (7566047373982432, -53); 
    (7205759403792792, -53); (6845471433603152, -53); (6485183463413512, -53); (6124895493223872, -53); 
    (5764607523034232, -53); (5404319552844596, -53); (5134103575202368, -53); (4863887597560136, -53); 
    (4593671619917908, -53); (8646911284551360, -54); (8106479329266896, -54); (7566047373982440, -54); 
    (7025615418697976, -54); (6485183463413520, -54); (5944751508129056, -54); (5404319552844592, -54); 
    (5134103575202364, -54); (4863887597560132, -54); (4593671619917904, -54); (8646911284551344, -55); 
    (8106479329266888, -55); (7566047373982424, -55); (7025615418697968, -55); (6485183463413512, -55); 
    (5944751508129048, -55); (5404319552844592, -55); (4978524678984112, -55); (4552729805123632, -55); 
    (8253869862526288, -56); (7402280114805328, -56); (6550690367084352, -56); (5699100619363392, -56); 
    (4847510871642432, -56); (6288662752400992, -57); (6917529027641088, -59); (4611686018427388, -59); 
    (7003998140486596, -60); (4784624244118415, -60); (5130500695500468, -61); (5534023222112864, -64); 
    (0, 0) ].
Definition factors : list f64 := map lit factor_lits.

(** * boundary_utils.py *)
(** boundary_utils.py:74-90 *)
Definition calculate_changed_margin (unit : f64) (sens : Z) (value expected : f64) (is_anomaly : bool)
  : res (f64 * f64) :=
  do f <- Kernel_model.get factors (Z.to_nat sens);
  let delta := fmul unit f in
  if negb is_anomaly then
    let delta := fadd (fabs (fsub expected value)) (fmul delta half) in
    if fltb expected value then Ok (delta, fdiv delta (of_Z 3)) else Ok (fdiv delta (of_Z 3), delta)
  else
    let d := fabs (fsub value expected) in
    let delta := if fltb (fmul delta IGNORE_RATIO) d && fltb d delta && (sens =? 99)
                 then fmul (fabs (fsub expected value)) half else delta in
    Ok (delta, delta).

(** boundary_utils.py:73-107; the sensitivity is an integer, so lb = sensitivity. *)
Definition calculate_margin (unit : f64) (sens : Z) (value expected : f64) (is_anomaly : bool)
  : res (f64 * f64) :=
  if (sens <? 0) || (100 <? sens) then Err Generic else
  if fleb unit zero then Err Generic else
  calculate_changed_margin unit sens value expected is_anomaly.

(** bisect.bisect_left on [a], entries lo..hi-1; [fuel] bounds the halvings. *)
Fixpoint bisect_left_loop (fuel : nat) (a : list f64) (x : f64) (lo hi : nat) : res nat :=
  match fuel with
  | O => Err OutOfFuel
  | S fuel =>
      if (lo <? hi)%nat then
        let mid := ((lo + hi) / 2)%nat in
        do m <- Kernel_model.get a mid;
        if fltb m x then bisect_left_loop fuel a x (mid + 1) hi
        else bisect_left_loop fuel a x lo mid
      else Ok lo
  end.
Definition bisect_left (a : list f64) (x : f64) : res nat :=
  bisect_left_loop (S (length a)) a x 0 (length a).

(** boundary_utils.py:110-122 *)
Definition calculate_anomaly_score (value expected unit : f64) : res f64 :=
  let dist := fdiv (fabs (fsub expected value)) unit in
  let margins := rev factors in
  do lb <- bisect_left margins dist;
  if (lb =? 0)%nat then Ok zero
  else if (100 <=? lb)%nat then Ok (of_Z 100)
  else do a <- Kernel_model.get margins (lb - 1); do b <- Kernel_model.get margins lb;
       Ok (fadd (of_Z (Z.of_nat lb - 1)) (fdiv (fsub dist a) (fsub b a))).

(** boundary_utils.py:125-133 *)
Definition calculate_severity_v1 (value expected : f64) (is_anomaly : bool) : f64 :=
  if negb is_anomaly then zero else
  let base := fabs expected in
  let base := if fleb base EPS then MIN_UNIT else base in
  fmin (fdiv (fabs (fsub value expected)) base) one.

(** boundary_utils.py:136-140 *)
Definition calculate_severity_v2 (score : f64) (is_anomaly : bool) : f64 :=
  if negb is_anomaly then zero else fdiv score (of_Z 100).

(** * refine.py *)
(** The columns of the result frame used here, one row (fields.py). *)
Record row := mkRow { r_value : f64; r_expected : f64; r_score : f64; r_anomaly : bool; r_neg : bool; r_pos : bool }.
Record outcome := mkOut {
  o_upper : f64; o_lower : f64; o_neg : bool; o_pos : bool; o_anomaly : bool; o_severity : f64 }.

(** refine.py:117-128 and 130-143, one point of V2; the two modes compute the
    same numbers and flags, only the severity looks at the flag before (last) or
    after (entire) the comparison with the band. *)
Definition v2_point (last : bool) (sens : Z) (unit : f64) (r : row) : res outcome :=
  let v := r_value r in
  let e := r_expected r in
  let a := r_anomaly r in
  do score <- calculate_anomaly_score v e unit;
  do m <- calculate_margin unit sens v e a;
  let pos := a && fltb (fadd e (fst m)) v in
  let neg := a && fltb v (fsub e (snd m)) in
  let an := neg || pos in
  Ok (mkOut (fst m) (snd m) neg pos an (calculate_severity_v2 score (if last then a else an))).

(** np.clip *)
Definition np_clip (lo hi x : f64) : f64 := fmin (fmax x lo) hi.

(** refine.py:19-46, one row; [ub], [lb] are the clipped boundaries. *)
Definition refine_row (sens : Z) (ub lb : f64) (r : row) : outcome :=
  let v := r_value r in
  let e := r_expected r in
  let up := fsub ub e in
  let lo := fsub e lb in
  let anomaly_refine := r_anomaly r && (fleb v ub && fleb lb v) in
  let upper_refine := fltb ub v && negb (r_anomaly r) in
  let c101 := fdiv (of_Z 101) (of_Z 100) in
  let up := if upper_refine then fmul (fsub v e) c101 else up in
  let lo := if upper_refine then up else lo in
  let lower_refine := fltb v lb && negb (r_anomaly r) in
  let lo := if lower_refine then fmul (fsub e v) c101 else lo in
  let up := if lower_refine then lo else up in
  let up := if (sens =? 100) && anomaly_refine then zero else up in
  let lo := if (sens =? 100) && anomaly_refine then zero else lo in
  let off := negb (sens =? 100) && anomaly_refine in
  let an := if off then false else r_anomaly r in
  mkOut up lo (if off then false else r_neg r) (if off then false else r_pos r) an
        (calculate_severity_v1 v e an).

(** refine.py:10-48; np.min of an empty array raises ValueError. *)
Definition refine_margins (rows : list row) (sens : Z) (margin : row -> f64) : res (list outcome) :=
  match rows with
  | [] => Err ValueErr
  | r0 :: _ =>
    let ub r := fadd (r_expected r) (margin r) in
    let lb r := fsub (r_expected r) (margin r) in
    let min_ub := fmin_list (ub r0) (map ub rows) in
    let max_lb := fmax_list (lb r0) (map lb rows) in
    let top := fmax (fmax_list (r_value r0) (map r_value rows)) (fmax_list (r_expected r0) (map r_expected rows)) in
    let bot := fmin (fmin_list (r_value r0) (map r_value rows)) (fmin_list (r_expected r0) (map r_expected rows)) in
    Ok (map (fun r => refine_row sens (np_clip min_ub top (ub r)) (np_clip bot max_lb (lb r)) r) rows)
  end.

(** refine.py:67-75 *)
Definition normal_margin (rows : list row) : f64 :=
  match map r_value (filter (fun r => fleb (r_score r) EPS) rows) with
  | [] => zero
  | v :: l => fmul (fsub (fmax_list v l) (fmin_list v l)) (fdiv (of_Z 1) (of_Z 100))
  end.
(** refine.py:75 *)
Definition bar (sens : Z) : f64 := fsub one (fdiv (of_Z sens) (of_Z 100)).
(** refine.py:51-82 *)
Definition get_spectral_residual_margins (rows : list row) (sens : Z) : res (list outcome) :=
  refine_margins rows sens (fun r =>
    if fleb (r_score r) EPS then normal_margin rows
    else fmul (fdiv (fabs (fsub (r_value r) (r_expected r))) (r_score r)) (bar sens)).

(** refine.py:85-91 *)
Definition get_anomaly_detector_margins (rows : list row) (sens : Z) : res (list outcome) :=
  refine_margins rows sens (fun r => fdiv (fmul (fabs (r_expected r)) (of_Z (100 - sens))) (of_Z 100)).

(** refine.py:94-107; [sr] says model_id == ModelType.SpectralResidual *)
Definition get_margins_v1 (sr : bool) (rows : list row) (sens : Z) : res (list outcome) :=
  if sr then get_spectral_residual_margins rows sens else get_anomaly_detector_margins rows sens.
