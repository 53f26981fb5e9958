(** Options.v - model of reading the configuration from JSON text: JsonUtils::FromJson (src/utils/json_utils.cc:58-68) for the message of
    src/proto/config.proto, as used in src/main.cc:115-119, 170-174 and src/python/train_gbdt_py.cc:51-56, and of the options that the Python package adds
    (gbdt/_gbdt.py:33-43).  Definitions only.  Simplifications as in Saved.v and JsonText.v: no object has two fields of one name; null and numbers
    written as strings are left out. *)
From Coq Require Import SpecFloat.
From Verif Require Import Base F32 Num Strings Forest Config Driver Stopwatch Print Draw Saved JsonText.

(** The library's other name of a field: letters after underscores are in upper case, the underscores left out. *)
Definition upper (c : ascii) : ascii := let n := nat_of_ascii c in if (97 <=? n) && (n <=? 122) then ascii_of_nat (n - 32) else c.
Fixpoint camel_case (up : bool) (s : str) : str :=
  match s with
  | [] => []
  | c :: t => if is_char 95 c then camel_case true t else (if up then upper c else c) :: camel_case false t
  end.
Definition spellings (name : String.string) : list str := [lit name; camel_case false (lit name)].
(** The fields of config.proto:21-69 *)
Definition option_names : list String.string :=
  ["num_trees"; "num_leaves"; "shrinkage"; "min_gain"; "l2_lambda"; "min_hessian"; "example_sampling_rate"; "feature_sampling_rate"; "eval_interval"; "loss_func";
   "pair_sampling_rate"; "pair_weight_by_delta_target"; "lambdamart_dcg_base"; "equal_group_weight"; "float_feature"; "categorical_feature"; "weight_column";
   "target_column"; "binarize_target"; "group_column"; "additional_float_column"; "additional_string_column"]%string.

(** The value of an option, or its default value *)
Definition option_value {A} (convert : json -> option A) (default : A) (name : String.string) (l : list (str * json)) : option A :=
  opt! x := field convert (spellings name) l in Some (otherwise default x).
Definition zero_free (convert : json -> option spec_float) (j : json) : option spec_float := opt! x := convert j in Some (plain_zero x).
Section Options.
Context {c_exp c_log : f64 -> f64}.
Notation N := (IEEE c_exp c_log).
(** The configuration, the additional float columns and the additional string columns *)
Definition config_of (j : json) : option (config N * (list str * list str)) :=
  match j with
  | JDict l =>
      if known (concat (map spellings option_names)) l then
        opt! num_trees := option_value json_int 0%Z "num_trees" l in
        opt! num_leaves := option_value json_int 0%Z "num_leaves" l in
        opt! shrinkage := option_value (zero_free json_float) (S754_zero false) "shrinkage" l in
        opt! min_gain := option_value (zero_free json_double) (S754_zero false) "min_gain" l in
        opt! l2_lambda := option_value (zero_free json_double) (S754_zero false) "l2_lambda" l in
        opt! min_hessian := option_value (zero_free json_double) (S754_zero false) "min_hessian" l in
        opt! example_rate := option_value (zero_free json_float) (S754_zero false) "example_sampling_rate" l in
        opt! feature_rate := option_value (zero_free json_float) (S754_zero false) "feature_sampling_rate" l in
        opt! eval_interval := option_value json_int 0%Z "eval_interval" l in
        opt! loss_func := option_value json_string [] "loss_func" l in
        opt! pair_rate := option_value (zero_free json_float) (S754_zero false) "pair_sampling_rate" l in
        opt! delta_target := option_value json_bool false "pair_weight_by_delta_target" l in
        opt! dcg_base := option_value (zero_free json_float) (S754_zero false) "lambdamart_dcg_base" l in
        opt! equal_groups := option_value json_bool false "equal_group_weight" l in
        opt! float_features := option_value (json_list json_string) [] "float_feature" l in
        opt! cat_features := option_value (json_list json_string) [] "categorical_feature" l in
        opt! weight_column := option_value json_string [] "weight_column" l in
        opt! target_column := option_value json_string [] "target_column" l in
        opt! binarize := option_value json_bool false "binarize_target" l in
        opt! group_column := option_value json_string [] "group_column" l in
        opt! more_floats := option_value (json_list json_string) [] "additional_float_column" l in
        opt! more_strings := option_value (json_list json_string) [] "additional_string_column" l in
        Some (mkConfig (N := N) num_trees num_leaves shrinkage (min_gain : N) (l2_lambda : N) (min_hessian : N) example_rate feature_rate eval_interval float_features cat_features
                weight_column target_column binarize group_column loss_func pair_rate delta_target dcg_base equal_groups, (more_floats, more_strings))
      else None
  | _ => None
  end.
(** FromJson *)
Definition read_config (text : str) : option (config N * (list str * list str)) := obind (parse_json text) config_of.
(** What the command line program reads (main.cc:116-119, 171-174; gbdt_algo/utils.cc:195-202) and writes (main.cc:148-153); [meta] stands for meta_info *)
Definition text_config (s : str) : option (config N) := option_map fst (read_config s).
Definition text_forest (s : str) : option (forest N) := option_map fst (read_forest s).
Definition forest_file (meta : forest N -> str) (f : forest N) : option str := Some (forest_text 9 f (meta f)).
End Options.

(** ** gbdt/_gbdt.py *)
(** config[k] = v *)
Fixpoint assign (k : str) (v : json) (l : list (str * json)) : list (str * json) :=
  match l with
  | [] => [(k, v)]
  | (k', v') :: t => if str_eqb k k' then (k, v) :: t else (k', v') :: assign k v t
  end.
(** if k not in config: config[k] = v *)
Definition assign_new (k : str) (v : json) (l : list (str * json)) : list (str * json) :=
  if existsb (fun kv => str_eqb k (fst kv)) l then l else l ++ [(k, v)].
(** The dictionary given to json.dumps (36-41, 45) *)
Definition package_options (floats cats : list str) (l : list (str * json)) : list (str * json) :=
  assign_new (lit "feature_sampling_rate") (JNum (of_int 1))
    (assign_new (lit "example_sampling_rate") (JNum (of_int 1))
      (assign (lit "categorical_feature") (JList (map JStr cats)) (assign (lit "float_feature") (JList (map JStr floats)) l))).
