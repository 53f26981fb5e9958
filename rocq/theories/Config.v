(** Config.v - the Config message (src/proto/config.proto) and the small functions of src/gbdt_algo/utils.cc.
    Definitions only. *)
From Coq Require Import SpecFloat.
From Verif Require Import Base F32 Column DataStore Num Forest Eval.

Definition f32_zero : f32 := S754_zero false.
Definition f32_one : f32 := f32_of_Z 1.

(** The fields used below; float fields are f32, double fields are numbers. *)
Record config (N : Num) := mkConfig {
  cf_num_trees : Z;
  cf_num_leaves : Z;
  cf_shrinkage : f32;
  cf_min_gain : N;
  cf_l2_lambda : N;
  cf_min_hessian : N;
  cf_example_rate : f32;
  cf_feature_rate : f32;
  cf_eval_interval : Z;
  cf_float_features : list str;
  cf_cat_features : list str;
  cf_weight_column : str;
  cf_target_column : str;
  cf_binarize_target : bool;
  cf_group_column : str;
  cf_loss_func : str;
  cf_pair_rate : f32;
  cf_delta_target : bool;
  cf_dcg_base : f32;
  cf_equal_groups : bool
}.
Arguments mkConfig {N}.
Arguments cf_num_trees {N}. Arguments cf_num_leaves {N}. Arguments cf_shrinkage {N}. Arguments cf_min_gain {N}.
Arguments cf_l2_lambda {N}. Arguments cf_min_hessian {N}. Arguments cf_example_rate {N}. Arguments cf_feature_rate {N}.
Arguments cf_eval_interval {N}. Arguments cf_float_features {N}. Arguments cf_cat_features {N}.
Arguments cf_weight_column {N}. Arguments cf_target_column {N}. Arguments cf_binarize_target {N}.
Arguments cf_group_column {N}. Arguments cf_loss_func {N}. Arguments cf_pair_rate {N}. Arguments cf_delta_target {N}.
Arguments cf_dcg_base {N}. Arguments cf_equal_groups {N}.

Section Config.
Context {N : Num}.

(** CheckConfig (utils.cc:204-228) *)
Definition check_config (c : config N) : status :=
  if (cf_num_trees c <=? 0)%Z then SErr INVALID_ARGUMENT
  else if (cf_num_leaves c <=? 0)%Z then SErr INVALID_ARGUMENT
  else if fleb (cf_example_rate c) f32_zero || fltb f32_one (cf_example_rate c) then SErr INVALID_ARGUMENT
  else if fleb (cf_feature_rate c) f32_zero || fltb f32_one (cf_feature_rate c) then SErr INVALID_ARGUMENT
  else SOk.

(** The loop of GetTestPoints (140-143), at most [fuel] rounds; push_back then reverse gives the list built by
    putting later points in front. *)
Fixpoint points_loop (fuel : nat) (interval point : Z) (acc : list Z) : list Z :=
  match fuel with
  | O => acc
  | S k => if (0 <? point)%Z then points_loop k interval (point - interval) (point :: acc) else acc
  end.
(** GetTestPoints (134-149).  The loop makes at most forest_size rounds. *)
Definition test_points (c : config N) (forest_size : Z) : list Z :=
  if (0 <? cf_eval_interval c)%Z then points_loop (Z.to_nat forest_size) (cf_eval_interval c) forest_size []
  else [forest_size].

(** GetFeaturesSetFromConfig (151-155) *)
Definition config_features (c : config N) : list str :=
  fold_left (fun acc s => set_insert s acc) (cf_float_features c ++ cf_cat_features c) [].

(** GetRawFloatColumn (data_store.cc:40-50) *)
Definition get_raw (get : str -> option column) (n : str) : option rcol :=
  match get n with Some c => match c_body c with BodyR r => Some r | _ => None end | None => None end.

(** FloatVector: a function from row to float *)
Definition float_vector := nat -> res f32.

(** GetSampleWeightsOrDie (157-168) *)
Definition sample_weights (c : config N) (get : str -> option column) : res float_vector :=
  match cf_weight_column c with
  | [] => Ret (fun _ => Ret f32_one)
  | n => match get_raw get n with None => Fatal | Some r => Ret (fun i => vget (r_floats r) i) end
  end.

(** GetTargetsOrDie (170-183) *)
Definition targets (c : config N) (get : str -> option column) : res float_vector :=
  match cf_target_column c with
  | [] => Fatal
  | n =>
      match get_raw get n with
      | None => Fatal
      | Some r =>
          Ret (fun i => let! x := vget (r_floats r) i in
                        if cf_binarize_target c then Ret (if fltb f32_zero x then f32_one else f32_of_Z (-1))
                        else Ret x)
      end
  end.

(** GetGroupOrDie (185-193): [None] when no group column is configured *)
Definition group_column (c : config N) (get : str -> option column) : res (option strcol) :=
  match cf_group_column c with
  | [] => Ret None
  | n => match get n with
         | Some col => match c_body col with BodyS s => Ret (Some s) | _ => Fatal end
         | None => Fatal
         end
  end.

(** ** Feature importance (utils.cc:79-108) *)
(** map[k] += v on an unordered_map<string, double> *)
Fixpoint map_add (k : str) (v : N) (m : list (str * N)) : list (str * N) :=
  match m with
  | [] => [(k, nadd n0 v)]
  | (k', x) :: t => if str_eqb k k' then (k', nadd x v) :: t else (k', x) :: map_add k v t
  end.
Fixpoint importance_tree (t : tree N) (m : list (str * N)) : list (str * N) :=
  match t with
  | TNone => m
  | TNode _ sp l r =>
      if present l then
        let s := the_split sp in
        importance_tree r (importance_tree l (map_add (sp_feature s) (sp_gain s) m))
      else m
  end.
Definition importance_map (f : forest N) : list (str * N) := fold_left (fun m t => importance_tree t m) f [].

(** What std::sort guarantees, for a strict weak order: a rearrangement without inversions. *)
Definition std_sorted {A} (lt : A -> A -> bool) (l l' : list A) : Prop :=
  Permutation l l' /\ forall i j a b, i < j -> nth_error l' i = Some a -> nth_error l' j = Some b -> lt b a = false.

(** ComputeFeatureImportance (88-108): the order of equal entries is up to the library *)
Definition feature_importance (f : forest N) (out : list (str * N)) : Prop :=
  exists sorted, std_sorted (fun x y => nltb (snd y) (snd x)) (importance_map f) sorted /\
    out = match sorted with
          | [] => []
          | (_, top) :: _ => map (fun p => (fst p, ndiv (snd p) top)) sorted
          end.
End Config.
