(** Multivariate detector: data preparation, sliding windows, scoring,
    thresholds, decisions and response packing.

    Cells of a frame are [option Qc] ([None] = NaN). The network is a function
    from one normalised input window to its prediction and attention map
    (module.py:175-193): in eval mode every layer treats the samples of a batch
    separately, dropout is off and the latent noise is a constant buffer.
    Floating-point rounding is not modelled. *)
From Coq Require Import String List Arith ZArith Lia Bool QArith Qround.
From Verif Require Import Base Num Sorting Kernel_model Helpers_model.
Import ListNotations.
Open Scope nat_scope.

Fixpoint mapM {A B} (f : A -> res B) (l : list A) : res (list B) :=
  match l with
  | [] => Ok []
  | x :: t => do y <- f x; do r <- mapM f t; Ok (y :: r)
  end.

(** [int(x)] for a non-negative number. *)
Definition qint (x : Qc) : nat := Z.to_nat (Qfloor (this x)).

(** * common/data_processor.py *)

(** common/constants.py:16-21 *)
Inductive fill_method := FPrevious | FSubsequent | FLinear | FZero | FFixed.

(** fillna(method="ffill", limit=len(data)): the limit is never reached. *)
Fixpoint ffill_from (last : option Qc) (col : list (option Qc)) : list (option Qc) :=
  match col with
  | [] => []
  | Some v :: t => Some v :: ffill_from (Some v) t
  | None :: t => last :: ffill_from last t
  end.
Definition ffill (col : list (option Qc)) := ffill_from None col.
(** fillna(method="bfill", limit=len(data)) *)
Fixpoint bfill (col : list (option Qc)) : list (option Qc) :=
  match col with
  | [] => []
  | Some v :: t => Some v :: bfill t
  | None :: t => let r := bfill t in match r with [] => None | h :: _ => h end :: r
  end.
(** DataFrame.interpolate(method="linear", limit_direction="both"): np.interp
    over the row numbers; a column without any value is left as it is. *)
Definition interpolate_col (col : list (option Qc)) : list (option Qc) :=
  match interp col with Ok o => map Some o | Err _ => col end.

(** common/data_processor.py:38-62, one column; the last step fillna(0) leaves
    no missing cell. Conversion to float (42-45) is not modelled: cells are
    numbers. *)
Definition fill_col (m : fill_method) (value : Qc) (col : list (option Qc)) : list Qc :=
  let out :=
    match m with
    | FPrevious => bfill (ffill col)
    | FSubsequent => ffill (bfill col)
    | FLinear => interpolate_col col
    | FFixed => map (fun c => match c with None => Some value | Some v => Some v end) col
    | FZero => col
    end in
  map (fun c => match c with None => 0%Qc | Some v => v end) out.

(** A data frame: index labels and named columns. *)
Record frame := Frame { f_index : list Z; f_cols : list (string * list (option Qc)) }.

(** sorted(data.columns) / data[...] for distinct column names. *)
Fixpoint cinsert {A} (x : string * A) (l : list (string * A)) : list (string * A) :=
  match l with
  | [] => [x]
  | y :: t => if String.leb (fst x) (fst y) then x :: l else y :: cinsert x t
  end.
Fixpoint csort {A} (l : list (string * A)) : list (string * A) :=
  match l with [] => [] | x :: t => cinsert x (csort t) end.

Definition permute {A} (d : A) (order : list nat) (l : list A) : list A :=
  map (fun i => nth i l d) order.

(** Row [r] of the columns [cols]. *)
Definition row_of (cols : list (list Qc)) (r : nat) : list Qc := map (fun c => nth r c 0%Qc) cols.

Section Process.
(** [sort_index]'s permutation: positions of the rows in increasing label
    order (pandas leaves the order of equal labels open). *)
Variable isort : list Z -> list nat.

(** common/data_processor.py:29-36 and model.py:415-418: variable names in
    sorted order and the matrix of rows. *)
Definition process (m : fill_method) (value : Qc) (data : frame) : list string * list (list Qc) :=
  let order := isort (f_index data) in
  let cols := csort (f_cols data) in
  let filled := map (fun c => fill_col m value (permute None order (snd c))) cols in
  (map fst cols, map (row_of filled) (range (length (f_index data)))).
End Process.

(** * multivariate/util.py *)

(** util.py:28-32, p = 0.95 *)
Definition get_threshold (scores : list Qc) : res Qc :=
  match scores with
  | [] => Ok 0%Qc
  | _ => let data := qsort scores in get data (qint (qn (length data) * Q2Qc (95 # 100))%Qc)
  end.

(** util.py:35-43, one number (arrays element by element). A zero divisor
    (max_val = min_val - 1e-8) gives inf in numpy, 0 here. *)
Definition clip (lo hi x : Qc) : Qc := Qcmin (Qcmax x lo) hi.
Definition eps8 : Qc := Q2Qc (1 # 100000000).
Definition minmax1 (x mn mx clip_min clip_max : Qc) : Qc :=
  clip clip_min clip_max ((x - mn) / (mx - mn + eps8))%Qc.

(** numpy broadcasting of a row against the vectors of extrema: equal lengths
    (a vector of length 1, which numpy would stretch, is not modelled). *)
Fixpoint normalize_row (row mn mx : list Qc) (lo hi : Qc) : res (list Qc) :=
  match row, mn, mx with
  | [], [], [] => Ok []
  | x :: r, a :: s, b :: t => do o <- normalize_row r s t lo hi; Ok (minmax1 x a b lo hi :: o)
  | _, _, _ => Err ValueErr
  end.

(** util.py:61-65 for one pair of neighbours: |previous/current - 1| clipped to
    [0, 2]; NaN if one is missing or both are zero, infinity clips to 2. *)
Definition rel_change (other cur : option Qc) : option Qc :=
  match other, cur with
  | Some a, Some b =>
      if (b =? 0)%Qc then (if (a =? 0)%Qc then None else Some (Q2Qc 2))
      else Some (clip 0 (Q2Qc 2) (Qcabs (a / b - 1)))
  | _, _ => None
  end.
Definition omax (a b : option Qc) : option Qc :=
  match a, b with Some x, Some y => Some (Qcmax x y) | _, _ => None end.
(** util.py:61-66 *)
Definition neighbour_change (col : list (option Qc)) : list (option Qc) :=
  let s := map (option_map (fun v => (v + Q2Qc (1 # 10000))%Qc)) col in
  let prev := None :: s in
  let next := tl s ++ [None] in
  zip_with omax (zip_with rel_change prev s) (zip_with rel_change next s).

Fixpoint all_some {A} (l : list (option A)) : option (list A) :=
  match l with
  | [] => Some []
  | None :: _ => None
  | Some x :: t => match all_some t with None => None | Some r => Some (x :: r) end
  end.
Fixpoint somes {A} (l : list (option A)) : list A :=
  match l with [] => [] | None :: t => somes t | Some x :: t => x :: somes t end.
(** pandas rolling(window).max(): missing until the window is full and where
    it contains a missing value. *)
Definition rolling_max (window : nat) (l : list (option Qc)) : list (option Qc) :=
  mapi (fun r _ =>
    if S r <? window then None
    else option_map qmax_list (all_some (slice l (S r - window) (S r)))) l.
(** pandas mean(): of the present values. *)
Definition nanmean (l : list (option Qc)) : option Qc :=
  match somes l with [] => None | v => Some (qmean v) end.
(** util.py:61-67 for one column, [window] >= 1 *)
Definition variability (window : nat) (col : list (option Qc)) : option Qc :=
  nanmean (rolling_max window (neighbour_change col)).
Definition strongly (v : option Qc) : bool :=
  match v with None => false | Some x => (Q2Qc (19 # 10) <? x)%Qc end.
(** util.py:69-76 *)
Definition reweight (pct : list (option Qc)) : list Qc :=
  let reweight_value := (qn (length (filter strongly pct)) / qn (length pct))%Qc in
  map (fun v => if strongly v then reweight_value else 1%Qc) pct.
(** util.py:46-76; the data as given to fit: rows unsorted, not filled, columns
    sorted, a column named "timestamp" dropped. *)
Definition pct_weights (data : frame) (window : nat) : list Qc :=
  let cols := filter (fun c => negb (String.eqb (fst c) "timestamp")) (f_cols data) in
  reweight (map (fun c => variability window (snd c)) (csort cols)).

(** * multivariate/dataset.py *)

(** dataset.py:50-58. range(window, n - horizon + 1) has
    max(0, n - horizon + 1 - window) elements; interval 0 is a division by zero. *)
Definition x_end_idx (n window interval horizon : nat) : res (list nat) :=
  let count := n + 1 - horizon - window in
  match interval with
  | O => Err ZeroDiv
  | _ => Ok (map (fun j => window + j * interval) (range (count / interval)))
  end.
(** dataset.py:63-82; window + horizon >= 1, so the target index is not negative. *)
Definition sample_at (data : list (list Qc)) (window horizon : nat) (mn mx : list Qc) (lo hi : Qc) (e : nat)
  : res (list (list Qc) * list Qc) :=
  do x <- mapM (fun r => normalize_row r mn mx lo hi) (slice data (e - window) e);
  do t <- get data (e + horizon - 1);
  do y <- normalize_row t mn mx lo hi;
  Ok (x, y).
Definition dataset (data : list (list Qc)) (window interval horizon : nat) (mn mx : list Qc) (lo hi : Qc)
  : res (list (list (list Qc) * list Qc)) :=
  do ends <- x_end_idx (length data) window interval horizon;
  mapM (sample_at data window horizon mn mx lo hi) ends.

(** torch DataLoader: consecutive groups of [b] samples, the last one possibly
    shorter; with drop_last a shorter last group is dropped. *)
Fixpoint chunks {A} (fuel b : nat) (l : list A) : list (list A) :=
  match fuel, l with
  | S f, _ :: _ => firstn b l :: chunks f b (skipn b l)
  | _, _ => []
  end.
Definition loader {A} (drop_last : bool) (b : nat) (l : list A) : res (list (list A)) :=
  match b with
  | O => Err ValueErr
  | _ =>
      let c := chunks (length l) b l in
      Ok (if drop_last then filter (fun g => length g =? b) c else c)
  end.

(** * multivariate/model.py: inference and decisions *)

(** util.py:79-84 *)
Definition append_result {A} (result : option (list A)) (batch : list A) : option (list A) :=
  match result with None => Some batch | Some r => Some (r ++ batch) end.

Definition mat := list (list Qc).

Section Infer.
(** Prediction and attention map for one input window. *)
Variable net : list (list Qc) -> list Qc * mat.
(** exp(min(2|d|, 1)) - 1, see Mv_real.v *)
Variable gap : Qc -> Qc.

(** model.py:322-340 for one sample: weighted contribution of every variable.
    Mismatched dimensions raise (numpy/torch broadcasting of length 1 is not
    modelled). *)
Fixpoint contributions (pred target pct : list Qc) : res (list Qc) :=
  match pred, target, pct with
  | [], [], [] => Ok []
  | p :: a, t :: b, w :: c => do r <- contributions a b c; Ok ((gap (p - t) * w)%Qc :: r)
  | _, _, _ => Err ValueErr
  end.
(** One sample: contributions, their mean, attention map. *)
Definition score_sample (pct : list Qc) (s : list (list Qc) * list Qc) : res (list Qc * Qc * mat) :=
  let '(pred, attn) := net (fst s) in
  do c <- contributions pred (snd s) pct;
  Ok (c, qmean c, attn).

(** model.py:303-367 *)
Fixpoint infer_batches (pct : list Qc) (batches : list (list (list (list Qc) * list Qc)))
  (acc : option (list (list Qc)) * option (list Qc) * option (list mat))
  : res (option (list (list Qc)) * option (list Qc) * option (list mat)) :=
  match batches with
  | [] => Ok acc
  | b :: t =>
      do rs <- mapM (score_sample pct) b;
      let '(cs, ts, ms) := acc in
      infer_batches pct t
        (append_result cs (map (fun r => fst (fst r)) rs),
         append_result ts (map (fun r => snd (fst r)) rs),
         append_result ms (map snd rs))
  end.
Definition inference (input batch : nat) (mn mx pct : list Qc) (values : list (list Qc))
  : res (option (list (list Qc)) * option (list Qc) * option (list mat)) :=
  do samples <- dataset values input 1 1 mn mx (Q2Qc (-1000)) (Q2Qc 1000);
  do batches <- loader false batch samples;
  infer_batches pct batches (None, None, None).

(** model.py:383-390; np.sort(None) raises *)
Definition compute_thresholds (level : Qc) (total : option (list Qc)) : res (Qc * Qc * Qc) :=
  match total with
  | None => Err ValueErr
  | Some scores =>
      let s := qsort scores in
      do th <- get s (qint (qn (length s) * level)%Qc);
      Ok (th, qmax_list scores, qmin_list scores)
  end.
End Infer.

(** model.py:247-254 *)
Definition thresholds (tw : nat) (scores : list Qc) : res (list Qc) :=
  let n := length scores in
  mapM (fun i => get_threshold (slice scores (n - tw - i) (n - i)))
       (rev (seq (tw - 1) (n - (tw - 1)))).
(** model.py:233-234, 257-262 *)
Definition decide (upper lower s t : Qc) : bool := ((t <=? s) && (lower <=? s) || (upper <? s))%Qc.
(** model.py:240-243; 0/0 is NaN in numpy: the row of a perfectly predicted
    time is not modelled ([Err Generic]). *)
Definition contributor_scores (c : list Qc) : res (list Qc) :=
  let s := qsum c in
  if (s =? 0)%Qc then Err Generic else Ok (map (fun x => x / s)%Qc c).
(** model.py:268-271: entry-wise mean of the matrices of a window *)
Definition entry (m : mat) (i j : nat) : Qc := nth j (nth i m []) 0%Qc.
Definition mat_mean (dim : nat) (ms : list mat) : mat :=
  map (fun i => map (fun j => qmean (map (fun m => entry m i j) ms)) (range dim)) (range dim).
Definition mat_sub (a b : mat) : mat := zip_with (zip_with (fun x y => (x - y)%Qc)) a b.
(** [l[-n:]] for n <= len(l), n >= 1 *)
Definition last_n {A} (n : nat) (l : list A) : list A := skipn (length l - n) l.

(** model.py:265-273: attention minus its mean over the window ending there *)
Definition attention_change (dim tw len : nat) (attn : list mat) : list mat :=
  let n := length attn in
  let previous := map (fun k => mat_mean dim (slice attn k (k + tw))) (range (n + 1 - tw)) in
  zip_with mat_sub (last_n len attn) (last_n len previous).

(** * model.py: _pack_response *)
Record interp_entry := Entry { e_name : string; e_score : Qc; e_changed : list (string * Qc) }.
Record result := Result { r_index : Z; r_anomaly : bool; r_score : Qc; r_severity : Qc; r_interp : list interp_entry }.

Section Pack.
(** torch.argsort(..., descending=True) on one row *)
Variable argsort_desc : list Qc -> list nat.

(** model.py:475-487 *)
Definition changed_variables (variables : list string) (attn_row : list Qc) : res (list (string * Qc)) :=
  let order := firstn 10 (argsort_desc (map Qcabs attn_row)) in
  let limit := Qcmin (Q2Qc (1 # 1000)) (1 / (Q2Qc (125 # 100) * qn (length variables)))%Qc in
  do all <- mapM (fun k => do v <- get attn_row k; Ok (k, v)) order;
  mapM (fun kv => do name <- get variables (fst kv); Ok (name, snd kv))
       (filter (fun kv => (limit <? Qcabs (snd kv))%Qc) all).
(** model.py:470-497 for one result; the gather of 437-448 selects the
    attention rows in contributor order *)
Definition interpretation (variables : list string) (contrib : list Qc) (attn : mat) : res (list interp_entry) :=
  mapM (fun v =>
    do attn_row <- get attn v;
    do changed <- changed_variables variables attn_row;
    do name <- get variables v;
    do score <- get contrib v;
    Ok (Entry name score changed)) (argsort_desc contrib).

Fixpoint pack_rows (variables : list string) (index : list Z) (anoms : list bool) (scores sev : list Qc)
  (contribs : list (list Qc)) (attns : list mat) : res (list result) :=
  match index, anoms, scores, sev, contribs, attns with
  | i :: index, a :: anoms, s :: scores, v :: sev, c :: contribs, m :: attns =>
      do inter <- interpretation variables c m;
      do rest <- pack_rows variables index anoms scores sev contribs attns;
      Ok (Result i a s v inter :: rest)
  | [], _, _, _, _, _ => Ok []
  | _, _, _, _, _, _ => Err IndexErr
  end.
(** model.py:424-507 *)
Definition pack_response (index : list Z) (variables : list string) (anoms : list bool) (scores sev : list Qc)
  (contribs : list (list Qc)) (attns : list mat) : res (list result) :=
  if length index <? length anoms then Err AssertErr else
  pack_rows variables (skipn (length index - length anoms) index) anoms scores sev contribs attns.

(** model.py:240-284 after inference. [e1] stands for np.e - 1. *)
Definition assemble (e1 : Qc) (tw : nat) (th : Qc) (index : list Z) (variables : list string)
  (contrib : list (list Qc)) (total : list Qc) (attn : list mat) : res (list result) :=
  let upper := Qcmax (Q2Qc (1 # 2)) th in
  let lower := Qcmin (Q2Qc (3 # 10)) th in
  do cs <- mapM contributor_scores contrib;
  do ths <- thresholds tw total;
  let scores := skipn (tw - 1) total in
  let anoms := zip_with (decide upper lower) scores ths in
  let severity := zip_with (fun (s : Qc) (a : bool) => if a then (s / e1)%Qc else 0%Qc) scores anoms in
  let attns := attention_change (length variables) tw (length anoms) attn in
  pack_response index variables anoms scores severity (skipn (tw - 1) cs) attns.
End Pack.
