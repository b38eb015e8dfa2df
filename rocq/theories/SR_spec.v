(** Specifications for the spectral residual detector. *)
From Coq Require Import List Arith ZArith Lia Bool.
From Verif Require Import Base Num Helpers_spec.
Import ListNotations.
Open Scope nat_scope.

(** The values at the skeleton points (raw score at most 1) among the
    positions lo .. hi-1. *)
Definition skeleton_values (series scores : list Qc) (lo hi : nat) : list Qc :=
  map fst (filter (fun p => (snd p <=? 1)%Qc) (slice (combine series scores) lo hi)).

(** A skeleton point stands for itself; any other position [i] for the mean of
    the skeleton points in i//2 .. i, or of all points up to [i] if there are
    none. *)
Definition local_value (series scores : list Qc) (i : nat) : Qc :=
  if (nth i scores 0 <=? 1)%Qc then nth i series 0%Qc else
  match skeleton_values series scores (i / 2) (i + 1) with
  | [] => qmean (firstn (i + 1) series)
  | w => qmean w
  end.

Definition within (series : list Qc) (e : Qc) : Prop := (qmin_list series <= e <= qmax_list series)%Qc.

(** The score normalised as the comment in the code describes it: 0 up to the
    minimum raw score 3.5, 1 from the maximum raw score 15 on. *)
Definition intended_score (s : Qc) : Qc :=
  Qcmin (Qcmax ((s - Q2Qc (7 # 2)) / (Q2Qc 15 - Q2Qc (7 # 2)))%Qc 0) 1.
