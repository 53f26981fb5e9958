(** Prop_Driver.v - properties C67 to C69.  Statements only.  Model: Driver.v; vocabulary: DriverSpec.v. *)
From Coq Require Import SpecFloat.
From Verif Require Import Base F32 Column DataStore Strings StringsSpec Tsv Flatfiles Num Forest Config Score ScoreSpec Eval EvalSpec Split_proofs Tree
  Tree_proofs TreeSpec Train TrainSpec Loss Pairwise Driver DriverSpec Driver_proofs Prop_Score Prop_Split Prop_Tree Prop_Train.

Section Program.
Context {N : Num}.
Variables (fs : files_t) (can_open : str -> bool)
  (parse_config : str -> option (config N)) (parse_forest : str -> option (forest N))
  (print_forest : forest N -> option str) (show : N -> str)
  (flat : list str -> source) (tsv : list str -> config N -> source)
  (srt : (nat -> nat -> bool) -> list nat -> list nat) (top : nat -> nat -> list N -> nat)
  (draw : Z -> nat -> spec_float) (to_uint : N -> res nat) (pick : Z -> nat -> nat -> nat * nat)
  (importance : forest N -> list (str * N)).
Notation main := (main fs can_open parse_config parse_forest print_forest show flat tsv srt top draw to_uint pick importance).

(** ** C67 - training from the command line *)
(** The program reaches its end exactly if all its steps succeed, and then it wrote these two files. *)
Theorem C67_train fg ws : fg_mode fg = lit "train" ->
  (main fg = (ws, Exits) <->
   exists c src base lf w y r text,
     configured fs parse_config fg c /\ fg_output_dir fg <> [] /\ data_of flat tsv fg c src /\ base_given fs parse_forest fg base /\
     create_loss srt (fg_num_threads fg) to_uint (pick (fg_seed fg)) c = Some lf /\
     sample_weights c (src_get src) = Ret w /\ targets c (src_get src) = Ret y /\
     train (source_view src (asked_for_training c)) (fg_num_threads fg) top (draw (fg_seed fg)) 0 srt (config_features c) w y lf c base = Ret r /\
     tr_status r = SOk /\ print_forest (tr_forest r) = Some text /\
     can_open (out_file fg ".json") = true /\ can_open (out_file fg ".fimps") = true /\
     ws = [(out_file fg ".json", text); (out_file fg ".fimps", separated (report show (importance (tr_forest r))))]).
Proof. exact (main_train_exits fs can_open parse_config parse_forest print_forest show flat tsv srt top draw to_uint pick importance fg ws). Qed.

(** Otherwise it wrote nothing; or only the model, if the second file can not be opened. *)
Theorem C67_failure fg ws e : fg_mode fg = lit "train" -> main fg = (ws, e) -> e <> Exits ->
  ws = [] \/ exists text, ws = [(out_file fg ".json", text)] /\ e = Dies /\ can_open (out_file fg ".fimps") = false.
Proof. exact (main_train_fails fs can_open parse_config parse_forest print_forest show flat tsv srt top draw to_uint pick importance fg ws e). Qed.

(** The features are those of both lists, each once. *)
Theorem C67_features (c : config N) : NoDup (config_features c) /\
  forall x, In x (config_features c) <-> In x (cf_float_features c) \/ In x (cf_cat_features c).
Proof. exact (conj (config_features_nodup c) (config_features_in c)). Qed.

(** Other modes than training and testing do nothing. *)
Theorem C67_mode fg : fg_mode fg <> lit "train" -> fg_mode fg <> lit "test" -> main fg = ([], Dies).
Proof. exact (main_is_neither fs can_open parse_config parse_forest print_forest show flat tsv srt top draw to_uint pick importance fg). Qed.

(** ** C68 - testing from the command line *)
(** One score file for each of the tree counts of C53, in order, with the predictions of the first trees. *)
Theorem C68_test fg c src (f : forest N) : fg_mode fg = lit "test" ->
  configured fs parse_config fg c -> fg_output_dir fg <> [] -> fg_testing_model_file fg <> [] ->
  model_in fs parse_forest (fg_testing_model_file fg) f -> data_of flat tsv fg c src ->
  let v := source_view src (collect_features f) in
  1 <= fg_num_threads fg -> reorders v -> loads v f -> forest_fits v f -> f <> [] ->
  (forall p, reported_at c (zlen f) p -> can_open (score_name (fg_output_dir fg) p) = true) ->
  exists W,
    main fg = (map (fun x => (score_name (fg_output_dir fg) (fst x), separated (map show (snd x)))) W, Exits) /\
    StronglySorted Z.lt (map fst W) /\ (forall p, In p (map fst W) <-> reported_at c (zlen f) p) /\
    (forall p sc, In (p, sc) W -> predictions v (firstn (Z.to_nat p) f) sc).
Proof. exact (test_writes fs can_open parse_config parse_forest print_forest show flat tsv srt top draw to_uint pick importance fg c src f). Qed.

(** It reaches its end only if flags, files and evaluation are in order. *)
Theorem C68_success fg ws : fg_mode fg = lit "test" ->
  (main fg = (ws, Exits) <->
   exists c src f W,
     configured fs parse_config fg c /\ fg_output_dir fg <> [] /\ fg_testing_model_file fg <> [] /\
     model_in fs parse_forest (fg_testing_model_file fg) f /\ data_of flat tsv fg c src /\
     evaluate_checkpoints (source_view src (collect_features f)) (fg_num_threads fg)
       (fun p => can_open (score_name (fg_output_dir fg) p)) f (test_points c (zlen f)) = Ret (SOk, W) /\
     ws = map (fun x => (score_name (fg_output_dir fg) (fst x), separated (map show (snd x)))) W).
Proof. exact (main_test_exits fs can_open parse_config parse_forest print_forest show flat tsv srt top draw to_uint pick importance fg ws). Qed.
End Program.
Print Assumptions C67_train.
Print Assumptions C67_failure.
Print Assumptions C67_features.
Print Assumptions C67_mode.
Print Assumptions C68_test.
Print Assumptions C68_success.

(** The columns that training reads: without a weight column all weights are 1; a target is 1 or -1 if targets are made binary (1 if it is positive);
    columns of other types and missing ones end the program. *)
Theorem C67_weights {N : Num} (c : config N) get :
  (cf_weight_column c = [] -> exists w, sample_weights c get = Ret w /\ forall i, w i = Ret (f32_of_Z 1)) /\
  (forall l, cf_weight_column c <> [] -> raw_values get (cf_weight_column c) l ->
     exists w, sample_weights c get = Ret w /\ forall i x, nth_error l i = Some x -> w i = Ret x) /\
  (cf_weight_column c <> [] -> (forall l, ~ raw_values get (cf_weight_column c) l) -> sample_weights c get = Fatal).
Proof. exact (weights_read c get). Qed.
Print Assumptions C67_weights.
Theorem C67_targets {N : Num} (c : config N) get :
  (forall l, cf_target_column c <> [] -> raw_values get (cf_target_column c) l ->
     exists y, targets c get = Ret y /\ forall i x, nth_error l i = Some x ->
       y i = Ret (if cf_binarize_target c then f32_of_Z (if fltb f32_zero x then 1 else -1) else x)) /\
  (cf_target_column c = [] \/ (forall l, ~ raw_values get (cf_target_column c) l) -> targets c get = Fatal).
Proof. exact (targets_read c get). Qed.
Print Assumptions C67_targets.
Theorem C67_groups {N : Num} (c : config N) get :
  (cf_group_column c = [] -> group_column c get = Ret None) /\
  (forall s, cf_group_column c <> [] -> text_column get (cf_group_column c) s -> group_column c get = Ret (Some s)) /\
  (cf_group_column c <> [] -> (forall s, ~ text_column get (cf_group_column c) s) -> group_column c get = Fatal).
Proof. exact (group_read c get). Qed.
Print Assumptions C67_groups.
Example C67_columns_example :
  let get := fun n => if str_eqb n (lit "y") then Some (mkCol (lit "y") (BodyR (create_raw [f32_of_Z 3; f32_of_Z (-2); f32_zero]))) else None in
  let c b w := mkConfig (N := Ex) 2 2 f32_one (dbl 0) (dbl 0) (dbl 0) f32_one f32_one 2 [] [] w (lit "y") b (lit "g") (lit "mse") f32_zero false f32_zero false in
  match targets (c true []) get with Ret y => map y [0; 1; 2; 3] | _ => [] end = [Ret (f32_of_Z 1); Ret (f32_of_Z (-1)); Ret (f32_of_Z (-1)); Undef] /\
  match targets (c false []) get with Ret y => map y [0; 1; 2; 3] | _ => [] end = [Ret (f32_of_Z 3); Ret (f32_of_Z (-2)); Ret f32_zero; Undef] /\
  match sample_weights (c false (lit "y")) get with Ret w => map w [0; 1] | _ => [] end = [Ret (f32_of_Z 3); Ret (f32_of_Z (-2))] /\
  match sample_weights (c false []) get with Ret w => map w [0; 7] | _ => [] end = [Ret (f32_of_Z 1); Ret (f32_of_Z 1)] /\
  match sample_weights (c false (lit "z")) get with Fatal => true | _ => false end = true /\ group_column (c false []) get = Fatal.
Proof. vm_compute. repeat split; reflexivity. Qed.

(** Different tree counts have different files. *)
Theorem C68_names dir a b : score_name dir a = score_name dir b -> a = b.
Proof. exact (score_name_inj dir a b). Qed.
Print Assumptions C68_names.

(** Testing the model that was trained, on the same data: the last file holds the values training ended with.
    In exact arithmetic (with rounding see C38), if the JSON text is read as the forest that was printed. *)
Theorem C68_train_then_test (fs' : files_t) can_open' (parse_config : str -> option (config Exact)) parse_forest print_forest show flat tsv srt top
    draw to_uint pick importance fg fg' c src base lf w y r text :
  train (source_view src (asked_for_training c)) (fg_num_threads fg) top (draw (fg_seed fg)) 0 srt (config_features c) w y lf c base = Ret r ->
  tr_status r = SOk ->
  training (source_view src (asked_for_training c)) (fg_num_threads fg) top srt (config_features c) w lf ->
  (forall b, base = Some b -> base_ok (source_view src (asked_for_training c)) b) ->
  fg_mode fg' = lit "test" -> configured fs' parse_config fg' c -> data_of flat tsv fg' c src ->
  fg_output_dir fg' <> [] -> fg_testing_model_file fg' = out_file fg ".json" ->
  fs' (out_file fg ".json") = Some text -> text <> [] -> parse_forest text = Some (tr_forest r) ->
  src_rows src (collect_features (tr_forest r)) = src_rows src (asked_for_training c) -> 1 <= fg_num_threads fg' ->
  (forall p, reported_at c (zlen (tr_forest r)) p -> can_open' (score_name (fg_output_dir fg') p) = true) ->
  exists others,
    main (N := Exact) fs' can_open' parse_config parse_forest print_forest show flat tsv srt top draw to_uint pick importance fg' =
      (others ++ [(score_name (fg_output_dir fg') (zlen (tr_forest r)), separated (map show (tr_f r)))], Exits).
Proof.
  exact (train_then_test fs' can_open' parse_config parse_forest print_forest show flat tsv srt top draw to_uint pick importance fg fg' c src base lf w y r text).
Qed.
Print Assumptions C68_train_then_test.

(** ** C69 - constant forests and flat files *)
(** A flat file store has no rows before a column was loaded, and a forest of constants loads none: the score files of such
    a forest are empty, whatever the data. *)
Theorem C69_no_scores (N : Num) (fs : files_t) strtof order can_open (parse_config : str -> option (config N)) parse_forest print_forest show tsv srt top
    draw to_uint pick importance fg c (f : forest N) :
  fg_mode fg = lit "test" -> configured fs parse_config fg c -> fg_output_dir fg <> [] -> fg_testing_model_file fg <> [] ->
  model_in fs parse_forest (fg_testing_model_file fg) f -> fg_flatfiles_dirs fg <> [] -> 1 <= fg_num_threads fg ->
  (forall l x, In x (order l) <-> In x l) -> f <> [] -> (forall t, In t f -> exists s, t = TNode s None TNone TNone) ->
  (forall p, can_open (score_name (fg_output_dir fg) p) = true) ->
  exists points, (forall p, In p points <-> reported_at c (zlen f) p) /\
    main fs can_open parse_config parse_forest print_forest show (flat_source fs strtof order) tsv srt top draw to_uint pick importance fg =
      (map (fun p => (score_name (fg_output_dir fg) p, [])) points, Exits).
Proof.
  exact (constant_test fs strtof order can_open parse_config parse_forest print_forest show tsv srt top draw to_uint pick importance fg c f).
Qed.
Print Assumptions C69_no_scores.

(** A small disk: configuration, model and (for C69) one flat file with three rows. *)
Definition ex_round (x : f64) : Z := match x with S754_finite s m e => (if s then -1 else 1) * (Zpos m * 2 ^ 60 / 2 ^ (60 - e))%Z | _ => 0 end.
Definition ex_show (x : f64) : str := dec (ex_round x).
Definition ex_main_cfg : config Ex :=
  mkConfig 2 2 f32_one (dbl 0) (dbl 0) (dbl 0) f32_one f32_one 2 [lit "x"] [lit "s"] [] (lit "y") false [] (lit "mse") f32_zero false f32_zero false.
Definition ex_main_col : column := mkCol (lit "y") (BodyR (create_raw (map fl [9; 11; 4; 6; 4]%Z))).
Definition ex_source (files : list str) (_ : config Ex) : source :=
  mkSource (if str_eqb (concat files) (lit "ab") then SOk else SErr NOT_FOUND)
    (fun n => if str_eqb n (lit "y") then Some ex_main_col else v_get ex_train_view n) (fun _ => 5) (fun l => l).
Definition ex_trained : forest Ex :=
  match ex_train (mse_loss 2) (ex_targets (map fl [9; 11; 4; 6; 4]%Z)) ex_main_cfg (Some ex_base) with Ret r => tr_forest r | _ => [] end.
Definition ex_disk (n : str) : option str :=
  assoc n [(lit "cfg", lit "{}"); (lit "base.json", lit "base"); (lit "out/forest.json", lit "trained"); (lit "empty", []);
           (lit "constant.json", lit "constant"); (lit "data/y", lit "# dtype=raw_floats" ++ [newline] ++ lit "1" ++ [newline] ++ lit "2" ++ [newline] ++ lit "3")].
Definition ex_parse (text : str) : option (forest Ex) :=
  assoc text [(lit "base", ex_base); (lit "trained", ex_trained); (lit "constant", [constant_tree (dbl 1); constant_tree (dbl 2)])].
Definition ex_print (f : forest Ex) : option str := Some (lit "trees " ++ dec (zlen f)).
Definition ex_main (can_open : str -> bool) (fg : flags) : run :=
  main ex_disk can_open (fun text => if str_eqb text (lit "{}") then Some ex_main_cfg else None) ex_parse ex_print ex_show
    (flat_source ex_disk (fun _ => (S754_zero false, O)) (fun l => l)) ex_source
    insertion_sort (fun _ => first_top) (fun _ _ => half) double_to_uint (fun _ _ n => (n, n)) (fun f => [(lit "x", dbl 3); (lit "s", dbl 2)]) fg.
Definition ex_flags (mode model base : String.string) : flags :=
  mkFlags (lit mode) (lit "cfg") [] (lit "a,b") (lit model) (lit base) (lit "out") (lit "forest") 1 2.
Example C67_example :
  ex_main (fun _ => true) (ex_flags "train" "" "base.json") =
    ([(lit "out/forest.json", lit "trees 4"); (lit "out/forest.fimps", lit "x" ++ [tabulator] ++ lit "3" ++ [newline] ++ lit "s" ++ [tabulator] ++ lit "2")], Exits) /\
  ex_main (fun n => str_eqb n (lit "out/forest.json")) (ex_flags "train" "" "base.json") = ([(lit "out/forest.json", lit "trees 4")], Dies) /\
  ex_main (fun _ => true) (ex_flags "train" "" "missing") = ([], Dies) /\
  ex_main (fun _ => true) (ex_flags "train" "" "empty") = ([], Dies) /\
  ex_main (fun _ => true) (mkFlags (lit "train") (lit "cfg") [] (lit "b,a") [] [] (lit "out") (lit "forest") 1 2) = ([], Dies) /\
  ex_main (fun _ => true) (ex_flags "predict" "" "") = ([], Dies).
Proof. vm_compute. repeat split; reflexivity. Qed.

Example C68_example :
  ex_main (fun _ => true) (ex_flags "test" "out/forest.json" "") =
    ([(lit "out/forest.2.score", separated (map lit ["6"; "8"; "6"; "8"; "6"]%string)); (lit "out/forest.4.score", separated (map lit ["9"; "11"; "4"; "6"; "4"]%string))],
     Exits).
Proof. vm_compute. repeat split; reflexivity. Qed.

Example C69_example :
  let fg := mkFlags (lit "test") (lit "cfg") (lit "data") [] (lit "constant.json") [] (lit "out") (lit "forest") 1 2 in
  ex_main (fun _ => true) fg = ([(lit "out/forest.2.score", [])], Exits) /\
  option_map col_size (match load_flat ex_disk (fun _ => (S754_zero false, O)) [lit "data"] (lit "y") with Ret c => c | _ => None end) = Some (Ret 3).
Proof. vm_compute. repeat split; reflexivity. Qed.
