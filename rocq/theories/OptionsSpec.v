(** OptionsSpec.v - vocabulary for configurations written as JSON. *)
From Coq Require Import SpecFloat Reals.
From Verif Require Import Base F32 Num Forest Config StopwatchSpec SplitSpec SavedSpec TrainedSpec Draw.

(** The two names of an option (src/proto/config.proto): the declared one, and the same in camel case *)
Definition both_names : list (str * str) :=
  map (fun p => (lit (fst p), lit (snd p)))
    [("num_trees", "numTrees"); ("num_leaves", "numLeaves"); ("shrinkage", "shrinkage"); ("min_gain", "minGain"); ("l2_lambda", "l2Lambda"); ("min_hessian", "minHessian");
     ("example_sampling_rate", "exampleSamplingRate"); ("feature_sampling_rate", "featureSamplingRate"); ("eval_interval", "evalInterval"); ("loss_func", "lossFunc");
     ("pair_sampling_rate", "pairSamplingRate"); ("pair_weight_by_delta_target", "pairWeightByDeltaTarget"); ("lambdamart_dcg_base", "lambdamartDcgBase");
     ("equal_group_weight", "equalGroupWeight"); ("float_feature", "floatFeature"); ("categorical_feature", "categoricalFeature"); ("weight_column", "weightColumn");
     ("target_column", "targetColumn"); ("binarize_target", "binarizeTarget"); ("group_column", "groupColumn"); ("additional_float_column", "additionalFloatColumn");
     ("additional_string_column", "additionalStringColumn")]%string.
Definition spells (name k : str) : Prop := In (name, k) both_names \/ (k = name /\ In name (map fst both_names)).

(** What a value stands for in a field of one of the types *)
Definition means_int (j : json) (z : Z) : Prop := exists x, j = JNum x /\ finite_float x = true /\ real_of x = IZR z /\ (-2147483648 <= z <= 2147483647)%Z.
(** Numbers, and NaN and the infinities as strings; zeros lose their sign. *)
Inductive means_double : json -> f64 -> Prop :=
| MeansZero s : means_double (JNum (S754_zero s)) (S754_zero false)
| MeansNumber x : (forall s, x <> S754_zero s) -> means_double (JNum x) x
| MeansNaN : means_double (JStr (lit "NaN")) S754_nan
| MeansInfinity : means_double (JStr (lit "Infinity")) (S754_infinity false)
| MeansMinusInfinity : means_double (JStr (lit "-Infinity")) (S754_infinity true).
(** Finite numbers beyond the largest float are refused, the others rounded. *)
Definition means_float (j : json) (y : f32) : Prop :=
  exists x, means_double j x /\ (finite_float x = true -> (Rabs (real_of x) <= max_float)%R) /\ same_number (to_f32 x) y /\ y <> S754_zero true.
Definition means_bool (j : json) (b : bool) : Prop := j = JBool b.
Definition means_text (j : json) (s : str) : Prop := j = JStr s.
Definition means_texts (j : json) (l : list str) : Prop := j = JList (map JStr l).

(** The options of [l] give [a] for [name]: it is written there, or it is not and [a] is the default value. *)
Definition chosen {A} (means : json -> A -> Prop) (default : A) (l : list (str * json)) (name : String.string) (a : A) : Prop :=
  (exists k v, In (k, v) l /\ spells (lit name) k /\ means v a) \/ ((forall k v, In (k, v) l -> ~ spells (lit name) k) /\ a = default).
(** Every option is named at most once. *)
Definition named_once (l : list (str * json)) : Prop :=
  forall l1 l2 k v k' v' name, l = l1 ++ (k, v) :: l2 -> In (k', v') (l1 ++ l2) -> spells name k -> ~ spells name k'.
Section Spec.
Context {c_exp c_log : f64 -> f64}.
Notation N := (IEEE c_exp c_log).
Definition zero : spec_float := S754_zero false.
Definition configures (l : list (str * json)) (c : config N) (more_floats more_strings : list str) : Prop :=
  (forall k v, In (k, v) l -> exists name, spells name k) /\
  chosen means_int 0%Z l "num_trees" (cf_num_trees c) /\ chosen means_int 0%Z l "num_leaves" (cf_num_leaves c) /\ chosen means_float zero l "shrinkage" (cf_shrinkage c) /\
  chosen means_double zero l "min_gain" (cf_min_gain c) /\ chosen means_double zero l "l2_lambda" (cf_l2_lambda c) /\ chosen means_double zero l "min_hessian" (cf_min_hessian c) /\
  chosen means_float zero l "example_sampling_rate" (cf_example_rate c) /\ chosen means_float zero l "feature_sampling_rate" (cf_feature_rate c) /\
  chosen means_int 0%Z l "eval_interval" (cf_eval_interval c) /\ chosen means_text [] l "loss_func" (cf_loss_func c) /\ chosen means_float zero l "pair_sampling_rate" (cf_pair_rate c) /\
  chosen means_bool false l "pair_weight_by_delta_target" (cf_delta_target c) /\ chosen means_float zero l "lambdamart_dcg_base" (cf_dcg_base c) /\
  chosen means_bool false l "equal_group_weight" (cf_equal_groups c) /\ chosen means_texts [] l "float_feature" (cf_float_features c) /\
  chosen means_texts [] l "categorical_feature" (cf_cat_features c) /\ chosen means_text [] l "weight_column" (cf_weight_column c) /\
  chosen means_text [] l "target_column" (cf_target_column c) /\ chosen means_bool false l "binarize_target" (cf_binarize_target c) /\
  chosen means_text [] l "group_column" (cf_group_column c) /\ chosen means_texts [] l "additional_float_column" more_floats /\
  chosen means_texts [] l "additional_string_column" more_strings.
(** All scores are zero, or not numbers. *)
Fixpoint adds_nothing (t : tree N) : Prop :=
  match t with
  | TNone => True
  | TNode s _ l r => ((exists b, (s : f64) = S754_zero b) \/ (s : f64) = S754_nan) /\ adds_nothing l /\ adds_nothing r
  end.
End Spec.
