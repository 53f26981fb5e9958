(** FactorySpec.v - the loss functions by name, as formulas over the reals. *)
From Coq Require Import SpecFloat Reals.
From Verif Require Import Base F32 Num Config Split SplitSpec.
Local Open Scope R_scope.

(** log(1 + e^-m), and 0 / (1 - m)^2 / 2 / 1/2 - m for m >= 1 / 0 <= m <= 1 / m <= 0 *)
Definition logistic (m : R) : R := ln (1 + exp (- m)).
Definition huber (m : R) : R := if Rle_dec 1 m then 0 else if Rle_dec 0 m then (1 - m) ^ 2 / 2 else 1 / 2 - m.

(** Losses of a row with target [y] and function value [f]; the binary ones want targets 1 and -1. *)
Inductive row_loss : String.string -> bool -> (R -> R -> R) -> Prop :=
| RowMse : row_loss "mse" false (fun y f => (y - f) ^ 2)
| RowLogloss : row_loss "logloss" true (fun y f => logistic (y * f))
| RowHuber : row_loss "huberized_hinge" true (fun y f => huber (y * f)).

(** Losses of a pair with differences [t] of the targets and [d] of the function values; the last one ranks the rows. *)
Inductive pair_loss : String.string -> bool -> (R -> R -> R) -> Prop :=
| PairAuc : pair_loss "auc" false (fun _ d => huber d)
| PairGbrank : pair_loss "gbrank" false (fun t d => Rmax 0 (t - d) ^ 2)
| PairLogloss : pair_loss "pairwise_logloss" false (fun _ d => logistic d)
| PairLambda : pair_loss "lambdamart" true (fun _ d => logistic d).

(** The weight of a pair with targets [a] and [b] and ranks [i] and [j]: 1, or the difference of the targets; for LambdaMART
    the change of the DCG when the two change places. *)
Definition dcg_discount (c : config Exact) (rank : nat) : R :=
  let base := if Rlt_dec 0 (real_of (cf_dcg_base c)) then real_of (cf_dcg_base c) else 2 in ln base / ln (base + INR rank).
Definition pair_weight (ranked : bool) (c : config Exact) (a b : R) (i j : nat) : R :=
  if ranked then (a - b) * Rabs (dcg_discount c i - dcg_discount c j)
  else if cf_delta_target c then a - b else 1.
