(** PairReportSpec.v - vocabulary for the progress messages of pairwise losses, in exact arithmetic. *)
From Coq Require Import Reals.
From Verif Require Import Base F32 Num Loss LossSpec Pairwise PairSpec PairStepSpec.
Local Close Scope R_scope.

(** The weighted mean of the losses of pairs when the function values are [f] *)
Definition mean_pairs_loss (lossf : Exact -> Exact -> point Exact) (t : nat -> f32) (us : list (push Exact)) (f : list R) : R :=
  (pairs_loss lossf t us f / pairs_weight us)%R.

(** The loss of a pair of rows with the same function value and targets that differ by [gap] *)
Inductive level_loss : (Exact -> Exact -> point Exact) -> (R -> R) -> Prop :=
| LevelAuc : level_loss (fun _ d => huberized_hinge n1 d) (fun _ => 1 / 2)%R
| LevelGbrank : level_loss (fun t d => squared_hinge t d) (fun gap => gap * gap)%R
| LevelLogloss : level_loss (fun _ d => log_loss n1 d) (fun _ => ln 2).
