(** NamesSpec.v - vocabulary: other names of the columns and other strings for the categories. *)
From Coq Require Import SpecFloat.
From Verif Require Import Base F32 Column ColumnSpec DataStore Num Forest Config Eval Train.

Section Names.
(** [rho n] is the new name of column [n], [sigma n s] the new string for [s] in column [n]. *)
Variables (rho : str -> str) (sigma : str -> str -> str).

(** Different names stay different, different strings of a column too; the empty name (no column) and the string of missing values stay. *)
Definition renaming : Prop :=
  (forall a b, rho a = rho b -> a = b) /\ rho [] = [] /\
  forall n, (forall a b, sigma n a = sigma n b -> a = b) /\ sigma n missing_str = missing_str.

(** A column, and the one loaded from the same data with the new strings. *)
Inductive renamed_column (n : str) : column -> column -> Prop :=
| RenStrings blocks : renamed_column n (mkCol n (BodyS (string_column_of blocks))) (mkCol (rho n) (BodyS (string_column_of (map (map (sigma n)) blocks))))
| RenNumbers body : (forall s, body <> BodyS s) -> renamed_column n (mkCol n body) (mkCol (rho n) body).

(** The same data with new names and strings; a set of names is iterated over in the same order. *)
Definition renamed_view (v v' : view) : Prop :=
  v_rows v' = v_rows v /\ (forall l, v_order v' (map rho l) = map rho (v_order v l)) /\
  forall n, match v_get v n, v_get v' (rho n) with
            | Some c, Some c' => renamed_column n c c'
            | None, None => True
            | _, _ => False
            end.

Context {N : Num}.

(** New names in a configuration and in a forest. *)
Definition ren_config (c : config N) : config N :=
  mkConfig (cf_num_trees c) (cf_num_leaves c) (cf_shrinkage c) (cf_min_gain c) (cf_l2_lambda c) (cf_min_hessian c) (cf_example_rate c)
    (cf_feature_rate c) (cf_eval_interval c) (map rho (cf_float_features c)) (map rho (cf_cat_features c)) (rho (cf_weight_column c))
    (rho (cf_target_column c)) (cf_binarize_target c) (rho (cf_group_column c)) (cf_loss_func c) (cf_pair_rate c) (cf_delta_target c)
    (cf_dcg_base c) (cf_equal_groups c).
Definition ren_split (sp : split N) : split N :=
  mkSplit (rho (sp_feature sp)) (sp_float sp)
    (match sp_cat sp with Some (names, idx) => Some (map (sigma (sp_feature sp)) names, idx) | None => None end) (sp_gain sp).
Fixpoint ren_tree (t : tree N) : tree N :=
  match t with
  | TNone => TNone
  | TNode s sp l r => TNode s (option_map ren_split sp) (ren_tree l) (ren_tree r)
  end.
Definition ren_forest (f : forest N) : forest N := map ren_tree f.
Definition ren_result (r : res (trained N)) : res (trained N) :=
  match r with
  | Ret r => Ret (mkTrained (tr_status r) (ren_forest (tr_forest r)) (tr_f r))
  | Undef => Undef
  | Fatal => Fatal
  end.
End Names.
