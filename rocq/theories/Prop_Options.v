(** Prop_Options.v - the options of a configuration file (property C97). *)
From Coq Require Import SpecFloat Reals.
From Verif Require Import Base F32 Column DataStore Strings Tsv Flatfiles Num Forest Config Score Eval SplitSpec Tree Train Loss Pairwise Driver DriverSpec Stopwatch Print Draw Saved SavedSpec JsonText JsonSpec Options OptionsSpec
  Options_proofs Prop_Score Prop_Tree Prop_Draw Prop_Train Prop_Saved Prop_JsonText.
Local Close Scope R_scope.

(** A configuration is accepted if all its fields are options, written in either way, with values of their types; each option has the value that is
    written, and otherwise 0, false or nothing. *)
Theorem C97_options {c_exp c_log : f64 -> f64} text l (c : config (IEEE c_exp c_log)) more_floats more_strings : json_document (JDict l) text -> named_once l ->
  read_config text = Some (c, (more_floats, more_strings)) <-> configures l c more_floats more_strings.
Proof. exact (read_config_iff text l c more_floats more_strings). Qed.
Print Assumptions C97_options.
(** Only texts of objects are configurations. *)
Theorem C97_objects {c_exp c_log : f64 -> f64} text r : read_config (c_exp := c_exp) (c_log := c_log) text = Some r -> exists l, json_document (JDict l) text.
Proof. exact (read_object text r). Qed.
Print Assumptions C97_objects.

(** The numbers of trees and leaves and the two sampling rates have no usable default values: without one of them training does not succeed. *)
Theorem C97_required {c_exp c_log : f64 -> f64} l (c : config (IEEE c_exp c_log)) more_floats more_strings name :
  configures l c more_floats more_strings -> (forall k v, In (k, v) l -> ~ spells (lit name) k) ->
  In name ["num_trees"; "num_leaves"; "example_sampling_rate"; "feature_sampling_rate"]%string -> check_config c = SErr INVALID_ARGUMENT.
Proof. exact (missing_refused l c more_floats more_strings name). Qed.
Print Assumptions C97_required.
Theorem C97_program {c_exp c_log : f64 -> f64} fs can_open parse_forest print_forest show flat tsv srt top draw to_uint pick importance fg l text name ws :
  fg_mode fg = lit "train" -> fs (fg_config_file fg) = Some text -> json_document (JDict l) text -> named_once l ->
  (forall k v, In (k, v) l -> ~ spells (lit name) k) -> In name ["num_trees"; "num_leaves"; "example_sampling_rate"; "feature_sampling_rate"]%string ->
  main (N := IEEE c_exp c_log) fs can_open text_config parse_forest print_forest show flat tsv srt top draw to_uint pick importance fg <> (ws, Exits).
Proof. exact (missing_dies fs can_open parse_forest print_forest show flat tsv srt top draw to_uint pick importance fg l text name ws). Qed.
Print Assumptions C97_program.

(** Without the shrinkage training goes on, but learns nothing: all trees behind the constant have scores of zero (or NaN). *)
Theorem C97_shrinkage {c_exp c_log : f64 -> f64} l (c : config (IEEE c_exp c_log)) more_floats more_strings v threads top draw pos srt names w y lf r :
  configures l c more_floats more_strings -> (forall k v, In (k, v) l -> ~ spells (lit "shrinkage") k) ->
  train v threads top draw pos srt names w y lf c None = Ret r -> Forall adds_nothing (tl (tr_forest r)).
Proof. exact (missing_shrinkage l c more_floats more_strings v threads top draw pos srt names w y lf r). Qed.
Print Assumptions C97_shrinkage.

(** The Python package replaces the features and adds missing sampling rates, and nothing else; *)
Theorem C97_package floats cats l : NoDup (map fst l) -> NoDup (map fst (package_options floats cats l)) /\
  forall k v, In (k, v) (package_options floats cats l) <->
    (k = lit "float_feature" /\ v = JList (map JStr floats)) \/ (k = lit "categorical_feature" /\ v = JList (map JStr cats)) \/
    (k <> lit "float_feature" /\ k <> lit "categorical_feature" /\ In (k, v) l) \/
    (In k [lit "example_sampling_rate"; lit "feature_sampling_rate"] /\ ~ In k (map fst l) /\ v = JNum (of_int 1)).
Proof. exact (package_in floats cats l). Qed.
Print Assumptions C97_package.
(** the dictionary it leaves behind for the caller is as good as the one it was given. *)
Theorem C97_again floats cats floats' cats' l : package_options floats cats (package_options floats' cats' l) = package_options floats cats l.
Proof. exact (package_again floats cats floats' cats' l). Qed.
Print Assumptions C97_again.
(** It does not see names in camel case: then the text it makes names one option twice. *)
Theorem C97_twice_refuted : exists l, NoDup (map fst l) /\ named_once l /\ forall floats cats, ~ named_once (package_options floats cats l).
Proof. exact twice_named. Qed.
Print Assumptions C97_twice_refuted.

(** A configuration with a shrinkage and without *)
Definition ex_options (s : String.string) := option_map fst (read_config (c_exp := fun x => x) (c_log := fun x => x) (ex_quoted s)).
Example C97_example :
  match ex_options "{'numTrees': 2, 'num_leaves': 3.0, 'example_sampling_rate': 1, 'featureSamplingRate': 10e-1, 'shrinkage': 0.5, 'float_feature': ['x'], 'target_column': 'y', 'binarize_target': true}" with
  | Some c => (cf_num_trees c, cf_num_leaves c, cf_shrinkage c, cf_feature_rate c) = (2%Z, 3%Z, to_f32 half, f32_one) /\ (cf_l2_lambda c : f64) = S754_zero false /\ cf_float_features c = [lit "x"] /\
      cf_target_column c = lit "y" /\ cf_binarize_target c = true /\ cf_loss_func c = [] /\ check_config c = SOk
  | None => False
  end /\
  match ex_options "{'num_trees': 2, 'num_leaves': 3, 'example_sampling_rate': 1, 'feature_sampling_rate': 1, 'float_feature': ['x'], 'categorical_feature': ['s']}" with
  | Some c => match ex_train (mse_loss 2) ex_y c None with Ret r => tr_status r = SOk /\ map (map (fun n => match snd (fst n) with S754_zero _ => true | _ => false end)) (map ex_nodes (tl (tr_forest r))) = repeat (repeat true 5) 2 | _ => False end
  | None => False
  end /\
  map (fun s => match ex_options s with Some _ => false | None => true end) ["{'num_tree': 2}"; "{'num_trees': 2.5}"; "{'num_trees': 3000000000}"; "{'shrinkage': 1e39}"; "{'float_feature': 'x'}"; "[]"]%string = repeat true 6.
Proof. vm_compute. repeat split; reflexivity. Qed.
