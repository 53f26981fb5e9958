(** UnitsSpec.v - vocabulary: weights in other units, shifted targets. *)
From Coq Require Import Reals.
From Verif Require Import Base F32 Num Forest Config Train.
Local Close Scope R_scope.

(** The same result with other contents. *)
Definition res_map {A B} (f : A -> B) (r : res A) : res B := match r with Ret a => Ret (f a) | Undef => Undef | Fatal => Fatal end.

(** Every weight is multiplied by [a]. *)
Definition times (a : R) (w w' : float_vector) : Prop :=
  forall i, match w i, w' i with
            | Ret x, Ret x' => real_of x' = (a * real_of x)%R
            | Undef, Undef | Fatal, Fatal => True
            | _, _ => False
            end.
(** The limits that are compared with sums of weights multiplied by [a], and another least gain. *)
Definition config_times (a mg : R) (c : config Exact) : config Exact :=
  mkConfig (cf_num_trees c) (cf_num_leaves c) (cf_shrinkage c) (mg : Exact) (a * cf_l2_lambda c : Exact)%R (a * cf_min_hessian c : Exact)%R
    (cf_example_rate c) (cf_feature_rate c) (cf_eval_interval c) (cf_float_features c) (cf_cat_features c) (cf_weight_column c) (cf_target_column c)
    (cf_binarize_target c) (cf_group_column c) (cf_loss_func c) (cf_pair_rate c) (cf_delta_target c) (cf_dcg_base c) (cf_equal_groups c).

(** All gains of a tree multiplied by [k], all scores by [s]. *)
Definition split_times (k : R) (sp : split Exact) : split Exact := mkSplit (sp_feature sp) (sp_float sp) (sp_cat sp) (k * sp_gain sp : Exact)%R.
Fixpoint tree_times (k s : R) (t : tree Exact) : tree Exact :=
  match t with
  | TNone => TNone
  | TNode x sp l r => TNode (s * x : Exact)%R (option_map (split_times k) sp) (tree_times k s l) (tree_times k s r)
  end.
(** Gradients multiplied by [s]; the second derivatives stay. *)
Definition grads_times (s : R) (gd : list (grad Exact)) : list (grad Exact) := map (fun d : grad Exact => mkG (s * gg d : Exact)%R (gh d)) gd.

(** The score of the first tree (the constant) is increased by [b]. *)
Definition constant_plus (b : R) (f : forest Exact) : forest Exact :=
  match f with TNode x sp l r :: ts => TNode (x + b : Exact)%R sp l r :: ts | _ => f end.

(** What training leaves behind, with all gains multiplied by [a]. *)
Definition trained_times (a : R) (r : trained Exact) : trained Exact := mkTrained (tr_status r) (map (tree_times a 1) (tr_forest r)) (tr_f r).
