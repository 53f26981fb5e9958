(** OtherUnitsSpec.v - vocabulary for targets in other units with auc, pairwise_logloss and lambdamart. *)
From Coq Require Import Reals.
From Verif Require Import Base F32 Num Config Train Loss Pairwise TargetUnitsSpec.
Local Close Scope R_scope.

(** The arguments of auc, pairwise_logloss and lambdamart, and what the weights of their pairs are multiplied by when the targets are multiplied by [s] *)
Definition other_kind (c : config Exact) (s a : R) (wr : bool) (weight : float_vector -> group -> nat * nat -> res Exact) (lossf : Exact -> Exact -> point Exact) : Prop :=
  (wr = false /\ weight = basic_weight (cf_delta_target c) /\ a = pair_unit (cf_delta_target c) s /\
     (lossf = (fun _ d => huberized_hinge (n1 : Exact) d) \/ lossf = (fun _ d => log_loss (n1 : Exact) d))) \/
  (wr = true /\ weight = lambda_weight (dcg_base c) /\ a = s /\ lossf = (fun _ d => log_loss (n1 : Exact) d)).
