(** Multivariate detector: parameter dictionary, fit, checkpoints, predict. *)
From Coq Require Import String List Arith ZArith Lia Bool QArith Qround.
From Verif Require Import Base Num Sorting Kernel_model Helpers_model Mv_model.
Import ListNotations.
Open Scope nat_scope.

(** Values found in the params dictionary. *)
Inductive pyval :=
| PNone | PBool (b : bool) | PInt (z : Z) | PFloat (q : Qc) | PStr (s : string)
| POther (* any other truthy object that int() rejects *).
Definition dict := list (string * pyval).

(** [d.get(k)], [d[k] = v] *)
Fixpoint dget (k : string) (d : dict) : option pyval :=
  match d with
  | [] => None
  | (k', v) :: t => if String.eqb k k' then Some v else dget k t
  end.
Fixpoint dset (k : string) (v : pyval) (d : dict) : dict :=
  match d with
  | [] => [(k, v)]
  | (k', v') :: t => if String.eqb k k' then (k', v) :: t else (k', v') :: dset k v t
  end.

(** contract.py:27-52, names of the fields of MultiADConfig *)
Definition config_fields : list string :=
  ["data_dim"; "cnn_kernel_size"; "input_size"; "gat_window_size"; "hidden_size"; "epochs";
   "batch_size"; "seed"; "z_dim"; "enc_dim"; "dec_dim"; "interval"; "lr"; "beta"; "gamma";
   "device"; "horizon"; "dropout"; "save"; "train_ratio"; "val_ratio"; "normalize_base";
   "threshold_window"; "level"]%string.
Definition is_field (k : string) : bool := existsb (String.eqb k) config_fields.

(** The fields of MultiADConfig the modelled code reads. *)
Record config := Config {
  c_dim : nat; c_input : nat; c_tw : nat; c_epochs : nat; c_batch : nat; c_interval : nat; c_horizon : nat;
  c_train_ratio : Qc; c_val_ratio : Qc; c_level : Qc; c_save : string;
  c_max : list Qc; c_min : list Qc   (* normalize_base *) }.

(** Reading a numeric field; values of another type raise later in the code,
    here at once. *)
Definition nat_field (k : string) (default : nat) (d : dict) : res nat :=
  match dget k d with
  | None => Ok default
  | Some (PInt z) => if (z <? 0)%Z then Err ValueErr else Ok (Z.to_nat z)
  | Some _ => Err TypeErr
  end.
Definition num_field (k : string) (default : Qc) (d : dict) : res Qc :=
  match dget k d with
  | None => Ok default
  | Some (PFloat q) => Ok q
  | Some (PInt z) => Ok (qz z)
  | Some _ => Err TypeErr
  end.
Definition str_field (k default : string) (d : dict) : res string :=
  match dget k d with
  | None => Ok default
  | Some (PStr s) => Ok s
  | Some _ => Err TypeErr
  end.
(** contract.py:27-52: the dataclass constructor with its defaults. *)
Definition mk_config (d : dict) : res config :=
  do dim <- nat_field "data_dim" 0 d;
  do input <- nat_field "input_size" 200 d;
  do tw <- nat_field "threshold_window" 200 d;
  do epochs <- nat_field "epochs" 100 d;
  do batch <- nat_field "batch_size" 128 d;
  do interval <- nat_field "interval" 10 d;
  do horizon <- nat_field "horizon" 1 d;
  do tr <- num_field "train_ratio" (Q2Qc (8 # 10)) d;
  do vr <- num_field "val_ratio" (Q2Qc (1 # 10)) d;
  do level <- num_field "level" (Q2Qc (8 # 10)) d;
  do save <- str_field "save" "model" d;
  Ok (Config dim input tw epochs batch interval horizon tr vr level save [] []).

(** constants.py:16-21 by name *)
Definition method_of_name (s : string) : option fill_method :=
  if String.eqb s "Previous" then Some FPrevious
  else if String.eqb s "Subsequent" then Some FSubsequent
  else if String.eqb s "Linear" then Some FLinear
  else if String.eqb s "Zero" then Some FZero
  else if String.eqb s "Fixed" then Some FFixed
  else None.
(** data_processor.py:13-27. Attribute names of the Enum class other than its
    members (which pass hasattr and then raise KeyError) are not modelled. *)
Definition data_processor (name value : pyval) : res (fill_method * Qc) :=
  match name with
  | PStr s =>
      match method_of_name s with
      | None => Err ParamErr
      | Some m => match value with PFloat q => Ok (m, q) | _ => Err ParamErr end
      end
  | _ => Err TypeErr
  end.

Section Detector.
(** int(str) *)
Variable parse_int : string -> option Z.
Variable isort : list Z -> list nat.
Variable argsort_desc : list Qc -> list nat.
Variable gap : Qc -> Qc.
Variable e1 : Qc.
(** Network weights and the network (module.py:141-193). *)
Variable W : Type.
Variable net : W -> list (list Qc) -> list Qc * mat.
(** Training state: network, optimizer and random generator; one optimizer step
    on a batch (model.py:169-185); the freshly built network (model.py:101). *)
Variable T : Type.
Variable t_init : config -> T.
Variable t_step : config -> T -> list (list (list Qc) * list Qc) -> T.
Variable t_weights : T -> W.
(** Summed validation loss of one batch (module.py:198-209); [None] is NaN. *)
Variable vloss : W -> list (list (list Qc) * list Qc) -> option Qc.
(** DataLoader(shuffle=True) in the given epoch. *)
Variable shuffle : nat -> list (list (list Qc) * list Qc) -> list (list (list Qc) * list Qc).

Definition sizes (z : Z) : Z * Z := let i := Z.div z 2 in (i, Z.min 200 (z - i)).
(** int(float): towards zero *)
Definition trunc (q : Qc) : Z := Z.quot (Qnum (this q)) (Zpos (Qden (this q))).
(** model.py:369-381 *)
Definition compute_window_sizes (w : pyval) : res (Z * Z) :=
  match w with
  | PNone => Ok (200, 200)%Z
  | PBool b => Ok (if b then sizes 1 else (200, 200)%Z)
  | PInt z => Ok (if Z.eqb z 0 then (200, 200)%Z else sizes z)
  | PFloat q => Ok (if (q =? 0)%Qc then (200, 200)%Z else sizes (trunc q))
  | PStr s =>
      if String.eqb s "" then Ok (200, 200)%Z
      else match parse_int s with None => Err ValueErr | Some z => Ok (sizes z) end
  | POther => Err TypeErr
  end.

Definition or_else (o : option pyval) (d : pyval) : pyval := match o with None => d | Some v => v end.

(** model.py:392-421. The first component is the caller's dictionary after the
    call: it is changed in place, also when the call raises. *)
Definition process_data_and_params (data : frame) (params : dict)
  : dict * res (list string * list (list Qc) * config) :=
  let fill_na_method := or_else (dget "fill_na_method" params) (PStr "Linear") in
  let fill_na_value := or_else (dget "fill_na_value" params) (PFloat 0) in
  match compute_window_sizes (or_else (dget "sliding_window" params) PNone) with
  | Err e => (params, Err e)
  | Ok (i, t) =>
      let params := dset "threshold_window" (PInt t) (dset "input_size" (PInt i) params) in
      let params := filter (fun kv => is_field (fst kv)) params in
      match data_processor fill_na_method fill_na_value with
      | Err e => (params, Err e)
      | Ok (m, v) =>
          let '(variables, values) := process isort m v data in
          let params := dset "data_dim" (PInt (Z.of_nat (length variables))) params in
          (params, do cfg <- mk_config params; Ok (variables, values, cfg))
      end
  end.

(** The dictionary written by save_checkpoint (model.py:140-151). *)
Record checkpoint := Ckpt {
  k_weights : W; k_config : config; k_pct : list Qc;
  k_threshold : option Qc; k_max : option Qc; k_min : option Qc }.
(** Instance attributes (model.py:42-51). *)
Record detector := Detector {
  d_config : option config; d_model : option W; d_pct : option (list Qc);
  d_threshold : option Qc; d_max : option Qc; d_min : option Qc;
  d_path : option string; d_variables : option (list string) }.
(** model.py:42-51 *)
Definition fresh : detector := Detector None None None None None None None None.

(** Files by path. *)
Definition files := list (string * checkpoint).
Fixpoint fget (p : string) (fs : files) : option checkpoint :=
  match fs with [] => None | (q, c) :: t => if String.eqb p q then Some c else fget p t end.
Definition fput (p : string) (c : checkpoint) (fs : files) : files := (p, c) :: fs.

(** model.py:153-161; the attributes not in the checkpoint are kept. *)
Definition load_checkpoint (d : detector) (fs : files) (path : string) : res detector :=
  match fget path fs with
  | None => Err FileErr
  | Some k => Ok (Detector (Some (k_config k)) (Some (k_weights k)) (Some (k_pct k))
                    (k_threshold k) (k_max k) (k_min k) (d_path d) (d_variables d))
  end.

(** util.py:10-25 with is_sum=True: avg is 0.0 before the first update. *)
Definition oadd (a b : option Qc) : option Qc :=
  match a, b with Some x, Some y => Some (x + y)%Qc | _, _ => None end.
Record meter := Meter { m_sum : option Qc; m_count : nat; m_avg : option Qc }.
Definition meter0 : meter := Meter (Some 0%Qc) 0 (Some 0%Qc).
Definition meter_update (m : meter) (val : option Qc) (num : nat) : meter :=
  let s := oadd (m_sum m) val in
  let c := m_count m + num in
  Meter s c (option_map (fun x => x / qn c)%Qc s).
(** model.py:190-213: only the total loss is used by fit. *)
Definition evaluate_epoch (w : W) (batches : list (list (list (list Qc) * list Qc))) : option Qc :=
  m_avg (fold_left (fun m b => meter_update m (vloss w b) (length b)) batches meter0).
(** model.py:163-188, effect on the training state *)
Definition train_epoch (cfg : config) (t : T) (batches : list (list (list (list Qc) * list Qc))) : T :=
  fold_left (t_step cfg) batches t.

(** [valid_loss < best_val]; [best] is [None] for np.Inf, a NaN loss is never smaller. *)
Definition improves (loss best : option Qc) : bool :=
  match loss, best with
  | None, _ => false
  | Some _, None => true
  | Some x, Some b => (x <? b)%Qc
  end.

(** model.py:105-131: [d] already holds config, pct_weight and model_path;
    returns the files. *)
Fixpoint run_epochs (fuel k : nat) (cfg : config) (d : detector) (path : string) (pct : list Qc)
  (train : list (list (list Qc) * list Qc)) (val : list (list (list (list Qc) * list Qc)))
  (t : T) (best : option Qc) (fs : files) : res files :=
  match fuel with
  | O => Ok fs
  | S f =>
      do batches <- loader true (c_batch cfg) (shuffle k train);
      let t := train_epoch cfg t batches in
      let loss := evaluate_epoch (t_weights t) val in
      if improves loss best then
        run_epochs f (S k) cfg d path pct train val t loss
          (fput path (Ckpt (t_weights t) cfg pct (d_threshold d) (d_max d) (d_min d)) fs)
      else run_epochs f (S k) cfg d path pct train val t best fs
  end.

Definition column_max (rows : list (list Qc)) (dim : nat) : list Qc :=
  map (fun j => qmax_list (map (fun r => nth j r 0%Qc) rows)) (range dim).
Definition column_min (rows : list (list Qc)) (dim : nat) : list Qc :=
  map (fun j => qmin_list (map (fun r => nth j r 0%Qc) rows)) (range dim).
Definition with_base (cfg : config) (dim : nat) (mx mn : list Qc) : config :=
  Config dim (c_input cfg) (c_tw cfg) (c_epochs cfg) (c_batch cfg) (c_interval cfg) (c_horizon cfg)
    (c_train_ratio cfg) (c_val_ratio cfg) (c_level cfg) (c_save cfg) mx mn.

(** model.py:56-138 after parameter processing. Ratios are non-negative.
    DataLoader(shuffle=True) rejects an empty training set (torch's RandomSampler
    raises ValueError). *)
Definition fit_core (d : detector) (fs : files) (data : frame) (variables : list string)
  (values : list (list Qc)) (cfg0 : config) : files * res detector :=
  let pct := pct_weights data (c_tw cfg0 + c_input cfg0) in
  let path := (c_save cfg0 ++ "/best_multi_ad_model.pt")%string in
  let n := length (f_index data) in
  let train_length := qint (qn n * c_train_ratio cfg0)%Qc in
  let valid_length := qint (qn n * c_val_ratio cfg0)%Qc in
  let train_data := firstn train_length values in
  let val_data := slice values train_length (valid_length + train_length) in
  match train_data with
  | [] => (fs, Err ValueErr)
  | _ =>
    let dim := length variables in
    let mx := column_max train_data dim in
    let mn := column_min train_data dim in
    let cfg := with_base cfg0 dim mx mn in
    match (do train_set <- dataset train_data (c_input cfg) (c_interval cfg) (c_horizon cfg) mn mx 0 1;
           do _ <- (if length train_set =? 0 then Err ValueErr else Ok tt);
           do val_set <- dataset val_data (c_input cfg) 1 1 mn mx (Q2Qc (-1000)) (Q2Qc 1000);
           do val <- loader false (c_batch cfg) val_set;
           run_epochs (c_epochs cfg) 0 cfg d path pct train_set val (t_init cfg) None fs)
    with
    | Err e => (fs, Err e)
    | Ok fs' =>
        (fs',
         do d' <- load_checkpoint (Detector (Some cfg) (d_model d) (Some pct) (d_threshold d) (d_max d) (d_min d)
                                     (Some path) (Some variables)) fs' path;
         match d_config d', d_model d', d_pct d' with
         | Some c, Some w, Some p =>
             do inf <- inference (net w) gap (c_input c) (c_batch c) (c_min c) (c_max c) p train_data;
             do th <- compute_thresholds (c_level c) (snd (fst inf));
             Ok (Detector (d_config d') (d_model d') (d_pct d') (Some (fst (fst th))) (Some (snd (fst th)))
                   (Some (snd th)) (d_path d') (d_variables d'))
         | _, _, _ => Err AttrErr
         end)
    end
  end.
(** model.py:53-138: the caller's dictionary, the files and the detector after
    the call. *)
Definition fit (d : detector) (fs : files) (data : frame) (params : dict) : dict * files * res detector :=
  match process_data_and_params data params with
  | (params', Err e) => (params', fs, Err e)
  | (params', Ok (variables, values, cfg)) =>
      let '(fs', r) := fit_core d fs data variables values cfg in (params', fs', r)
  end.

(** model.py:220-284 after parameter processing. *)
Definition predict_core (d : detector) (fs : files) (data : frame) (variables : list string)
  (values : list (list Qc)) : res (list result) :=
  do d <- match d_model d with
          | Some _ => Ok d
          | None =>
              match d_path d with
              | None => Err ValueErr
              | Some p => match load_checkpoint d fs p with Ok d' => Ok d' | Err _ => Err ValueErr end
              end
          end;
  match d_config d, d_model d with
  | Some c, Some w =>
      if length values <? c_tw c + c_input c then Err ValueErr else
      match d_threshold d, d_pct d with
      | None, _ => Err TypeErr        (* max(0.5, None) *)
      | Some _, None => Err TypeErr
      | Some th, Some pct =>
          do inf <- inference (net w) gap (c_input c) (c_batch c) (c_min c) (c_max c) pct values;
          match inf with
          | (Some contrib, Some total, Some attn) =>
              assemble argsort_desc e1 (c_tw c) th (f_index data) variables contrib total attn
          | _ => Err TypeErr
          end
      end
  | _, _ => Err AttrErr
  end.
(** model.py:215-284 *)
Definition predict (d : detector) (fs : files) (data : frame) (params : dict) : dict * res (list result) :=
  match process_data_and_params data params with
  | (params', Err e) => (params', Err e)
  | (params', Ok (variables, values, _)) => (params', predict_core d fs data variables values)
  end.

(** * module.py:221-272, DetectionResults.compute_detection_results: decisions
    computed from stacked windows of the scores. [tw] >= 1. *)
Definition compute_detection (lower upper : Qc) (tw : nat) (rmses : list Qc) : res (list (bool * Qc * Qc)) :=
  let inference_length := length rmses + 1 - tw in
  let stacked := map (fun k => slice rmses k (k + tw)) (range (length rmses + 1 - tw)) in
  let pos := qint (qn tw * Q2Qc (95 # 100))%Qc in
  do ths <- mapM (fun wd => get (qsort wd) pos) stacked;
  let scores := last_n inference_length rmses in
  Ok (zip_with (fun s t => (decide upper lower s t, s, (s / e1)%Qc)) scores ths).
End Detector.
