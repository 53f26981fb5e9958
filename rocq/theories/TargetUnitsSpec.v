(** TargetUnitsSpec.v - vocabulary for targets in other units. *)
From Coq Require Import Reals.
From Verif Require Import Base F32 Column Num Forest Config Score SplitSpec Split Tree Train Loss LossSpec UnitsSpec.
Local Close Scope R_scope.

(** The first [n] targets are finite floats. *)
Definition finite_targets (y : float_vector) (n : nat) (t : nat -> f32) : Prop :=
  forall i, i < n -> y i = Ret (t i) /\ a_float (t i) /\ finite_float (t i) = true.
(** What training leaves behind, with all gains multiplied by [k] and all scores and function values by [s] *)
Definition trained_scaled (k s : R) (r : trained Exact) : trained Exact :=
  mkTrained (tr_status r) (map (tree_times k s) (tr_forest r)) (map (fun x : Exact => (s * x)%R : Exact) (tr_f r)).
(** What the weights of pairs are multiplied by when the targets are multiplied by [s]: with pair_weight_by_delta_target they are differences of targets. *)
Definition pair_unit (delta_target : bool) (s : R) : R := if delta_target then s else 1%R.
