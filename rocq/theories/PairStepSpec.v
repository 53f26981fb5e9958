(** PairStepSpec.v - vocabulary for a round of boosting with a pairwise loss, in exact arithmetic. *)
From Coq Require Import SpecFloat Reals.
From Verif Require Import Base F32 Column Num Config Train Loss LossSpec ConstantSpec StepSpec Pairwise PairSpec.
Local Close Scope R_scope.

(** The loss functions of pairs: the ratio of derivative and gradient, and the largest hessian *)
Inductive pair_scale : (Exact -> Exact -> point Exact) -> R -> R -> Prop :=
| ScaleAuc : pair_scale (fun _ d => huberized_hinge n1 d) 1%R 1%R
| ScaleGbrank : pair_scale (fun t d => squared_hinge t d) 2%R 1%R
| ScaleLogloss : pair_scale (fun _ d => log_loss n1 d) 1%R (1 / 4)%R.

(** The sum of a quantity over pairs *)
Definition over (us : list (push Exact)) (q : push Exact -> R) : R := fold_right Rplus 0%R (map q us).
Definition pairs_weight (us : list (push Exact)) : R := over us exact_weight.
(** The loss of pairs when the function values are [f] *)
Definition pairs_loss (lossf : Exact -> Exact -> point Exact) (t : nat -> f32) (us : list (push Exact)) (f : list R) : R :=
  over us (fun u => exact_weight u * loss_of lossf (real_of (t (pu_pos u)) - real_of (t (pu_neg u))) (nth (pu_pos u) f 0 - nth (pu_neg u) f 0))%R.

(** [us] are the sampled pairs of all groups: for every group the number asked for, in the right order, with weight, loss and
    derivatives as in PairSpec.v. *)
Definition sampled (srt : (nat -> nat -> bool) -> list nat -> list nat) (to_uint : Exact -> res nat) (c : config Exact) (with_rerank : bool)
    (weight : float_vector -> group -> nat * nat -> res Exact) (lossf : Exact -> Exact -> point Exact) (n : nat) (y : float_vector)
    (rows : list (list nat)) (wv : nat -> R) (t : nat -> f32) (p : @pairwise Exact) (f : list R) (us : list (push Exact)) : Prop :=
  exists pieces, us = concat pieces /\ Forall2 (fun rk piece => exists g0 g, In g0 (pr_groups p) /\ reranked srt with_rerank (f : list Exact) g0 = Ret g /\
    Permutation rk (gr_rows g) /\ samples_of (N := Exact) to_uint c n rows t rk = Ret (List.length piece) /\
    Forall (is_push (N := Exact) weight lossf y wv t f g (rescale (N := Exact) c rows t rk)) piece) rows pieces.

Section Step.
Variables (wv : nat -> R) (us : list (push Exact)) (f : list R) (lambda : R) (label : nat -> list bool).
(** The weighted gradients and hessians of the rows in the leaf of row [i] *)
Definition pair_leaf_g i : R := total (leaf_mates f label i) (fun r => wv r * exact_g (pushed us r))%R.
Definition pair_leaf_h i : R := total (leaf_mates f label i) (fun r => wv r * exact_h (pushed us r))%R.
(** The weight of the pairs that meet the leaf, twice that of pairs with both rows in it *)
Definition pair_leaf_w i : R :=
  total (leaf_mates f label i) (fun r => over us (fun u => if (pu_pos u =? r) || (pu_neg u =? r) then exact_weight u else 0%R)).
Definition pair_tree (s : nat -> R) : Prop :=
  forall i, i < List.length f -> ((pair_leaf_h i + lambda <> 0 -> s i = pair_leaf_g i / (pair_leaf_h i + lambda)) /\ (pair_leaf_h i + lambda = 0 -> s i = 0))%R.
End Step.
(** From [f] to [f'] by a tree that is scored by the gradients of the pairs *)
Definition pair_step (wv : nat -> R) (us : list (push Exact)) (k lambda : R) (f f' : list R) : Prop :=
  List.length f' = List.length f /\ exists label s, pair_tree wv us f lambda label s /\ forall i, i < List.length f -> (nth i f' 0 = nth i f 0 + k * s i)%R.
