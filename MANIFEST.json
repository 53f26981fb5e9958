{
 "claims": [
  {
   "property": "C01",
   "status": "proved",
   "theorems": [
    "C01_string_column_roundtrip"
   ],
   "note": "Proved for all block lists whose dictionary has fewer than 2^32 entries."
  },
  {
   "property": "C02",
   "status": "proved",
   "theorems": [
    "C02_string_dictionary"
   ],
   "note": "Proved, same bound as C01."
  },
  {
   "property": "C03",
   "status": "proved",
   "theorems": [
    "C03_bucketized_frozen",
    "C03_string_frozen",
    "C03_string_add_guard_refuted",
    "C03_raw_add_guard_refuted"
   ],
   "note": "Proved: bucketized Add/Finalize and string Finalize guards; the missing string and raw Add guards are shown as refutations."
  },
  {
   "property": "C04",
   "status": "proved",
   "theorems": [
    "C04_bucketized_size_missing",
    "C04_raw_roundtrip"
   ],
   "note": "Proved for 1 <= num_buckets <= 21474836 and fewer than 2^32-2 rows; includes the raw float column round trip."
  },
  {
   "property": "C05",
   "status": "proved",
   "theorems": [
    "C05_bucket_contains"
   ],
   "note": "Proved for data without +infinity."
  },
  {
   "property": "C06",
   "status": "proved",
   "theorems": [
    "C06_bucket_order",
    "C06_infinity_refuted"
   ],
   "note": "Proved for data without +infinity; refuted with +infinity by a witness."
  },
  {
   "property": "C07",
   "status": "proved",
   "theorems": [
    "C07_small_columns_lossless",
    "C07_enough_buckets_refuted"
   ],
   "note": "Proved; a witness shows that 'distinct values <= budget' alone is not enough."
  },
  {
   "property": "C08",
   "status": "proved",
   "theorems": [
    "C08_bucket_count",
    "C08_budget_refuted"
   ],
   "note": "Proved with the sharp bound 2B+1, attained by a witness."
  },
  {
   "property": "C09",
   "status": "proved",
   "theorems": [
    "C09_division_by_zero",
    "C09_default_budget"
   ],
   "note": "Proved as an equivalence, plus the default-budget corollary."
  },
  {
   "property": "C10",
   "status": "proved",
   "theorems": [
    "C10_block_split",
    "C10_large_refuted"
   ],
   "note": "Proved as equality of the built columns; a witness shows it fails beyond 100*num_buckets."
  },
  {
   "property": "C11",
   "status": "proved",
   "theorems": [
    "C11_store_is_map"
   ],
   "note": "Proved for every operation sequence over finalized columns and every choice of begin() on the hash map."
  },
  {
   "property": "C12",
   "status": "proved",
   "theorems": [
    "C12_rectangular",
    "C12_empty_column_refuted"
   ],
   "note": "Proved for non-empty columns; the empty-column case is refuted by a witness."
  },
  {
   "property": "C13",
   "status": "proved",
   "theorems": [
    "C13_typed_getters",
    "C13_typed_listings"
   ],
   "note": "Proved for every store."
  },
  {
   "property": "C14",
   "status": "proved",
   "theorems": [
    "C14_join_of_split",
    "C14_split_of_join",
    "C14_pieces",
    "C14_empty_delimiter"
   ],
   "note": "Proved; the empty delimiter is shown to loop for ever (modelled as Fatal)."
  },
  {
   "property": "C15",
   "status": "proved",
   "theorems": [
    "C15_block_rows",
    "C15_block_success"
   ],
   "note": "Proved for every file content and every number parser."
  },
  {
   "property": "C16",
   "status": "proved",
   "theorems": [
    "C16_load_result",
    "C16_schedule_independent",
    "C16_terminates",
    "C16_missing_name"
   ],
   "note": "Proved over a transition system with arbitrary completion order of parser threads and arbitrary order of per-column tasks; the only crash is the division by zero of C09."
  },
  {
   "property": "C17",
   "status": "proved",
   "theorems": [
    "C17_duplicate_name",
    "C17_distinct_names"
   ],
   "note": "Proved: duplicate names end in use after free on every schedule; distinct names give live handles of the right types."
  },
  {
   "property": "C18",
   "status": "proved",
   "theorems": [
    "C18_strings",
    "C18_raw_floats",
    "C18_bucketized",
    "C18_unknown_type",
    "C18_no_file",
    "C18_roundtrip"
   ],
   "note": "Proved for every file content; strings need a dictionary of fewer than 2^32 entries."
  },
  {
   "property": "C19",
   "status": "proved",
   "theorems": [
    "C19_distinct_names",
    "C19_progress",
    "C19_same_name_refuted"
   ],
   "note": "Proved over all interleavings of critical sections; the same-name race is exhibited by a schedule."
  },
  {
   "property": "C20",
   "status": "proved",
   "theorems": [
    "C20_all_tasks_run",
    "C20_order"
   ],
   "note": "Proved over all interleavings, for every number of workers and tasks."
  },
  {
   "property": "C21",
   "status": "proved",
   "theorems": [
    "C21_no_deadlock",
    "C21_no_lost_wakeup",
    "C21_terminates",
    "C21_zero_workers"
   ],
   "note": "Proved, including that zero workers never run a task."
  },
  {
   "property": "C22",
   "status": "proved",
   "theorems": [
    "C22_ranges",
    "C22_slices",
    "C22_no_groups"
   ],
   "note": "Proved; zero groups divide by zero."
  },
  {
   "property": "C23",
   "status": "proved",
   "theorems": [
    "C23_subsample",
    "C23_extreme_rates",
    "C23_seed"
   ],
   "note": "Proved for an arbitrary random stream."
  },
  {
   "property": "C24",
   "status": "proved",
   "theorems": [
    "C24_partition",
    "C24_decision",
    "C24_wrong_kind"
   ],
   "note": "Proved for every arithmetic, for columns as the library builds them."
  },
  {
   "property": "C25",
   "status": "proved",
   "theorems": [
    "C25_cleared_indices"
   ],
   "note": "Proved for every string column; C37 lifts it to whole forests."
  },
  {
   "property": "C26",
   "status": "proved",
   "theorems": [
    "C26_routing",
    "C26_add_tree_scores",
    "C26_terminates"
   ],
   "note": "Proved for every interleaving of single reads and writes of the workers, with termination."
  },
  {
   "property": "C27",
   "status": "proved",
   "theorems": [
    "C27_evaluate",
    "C27_leaves",
    "C27_unusable_column",
    "C27_concatenation"
   ],
   "note": "Proved for every arithmetic (each leaf score s enters as s + 0)."
  },
  {
   "property": "C28",
   "status": "proved",
   "theorems": [
    "C28_checkpoints",
    "C28_increasing",
    "C28_unsorted_refuted"
   ],
   "note": "Proved, including failing file opens; the unsorted case is refuted by a witness."
  },
  {
   "property": "C29",
   "status": "proved",
   "theorems": [
    "C29_split_point",
    "C29_ieee",
    "C29_exact",
    "C29_nan_min_gain_refuted"
   ],
   "note": "Proved for every arithmetic with ordered comparisons, instantiated for doubles and reals; a NaN min_gain is shown to remove the tolerance."
  },
  {
   "property": "C30",
   "status": "proved",
   "theorems": [
    "C30_gain",
    "C30_best",
    "C30_category",
    "C30_cancelled_refuted",
    "C30_missing_refuted"
   ],
   "note": "Proved in exact arithmetic, with optimality; the two cancellation cases are refuted by witnesses in doubles."
  },
  {
   "property": "C31",
   "status": "proved",
   "theorems": [
    "C31_between",
    "C31_strict",
    "C31_divides",
    "C31_missing_divides",
    "C31_search",
    "C31_adjacent_refuted",
    "C31_overflow_refuted"
   ],
   "note": "Proved for all finite floats through Flocq; rounding and overflow failures exhibited end to end."
  },
  {
   "property": "C32",
   "status": "proved",
   "theorems": [
    "C32_best",
    "C32_sorts",
    "C32_lambda_refuted",
    "C32_cancelled_refuted"
   ],
   "note": "Proved in exact arithmetic for every sorting function; both missing conditions are shown necessary by witnesses."
  },
  {
   "property": "C33",
   "status": "proved",
   "theorems": [
    "C33_shape",
    "C33_returns"
   ],
   "note": "Proved for every arithmetic with ordered comparisons; a tree is always returned in exact arithmetic, and in doubles when there are no string features."
  },
  {
   "property": "C34",
   "status": "proved",
   "theorems": [
    "C34_node",
    "C34_one_leaf",
    "C34_score",
    "C34_empty_leaf_refuted"
   ],
   "note": "Proved for every arithmetic; the Newton step is stated in exact arithmetic; a leaf without rows is exhibited."
  },
  {
   "property": "C35",
   "status": "proved",
   "theorems": [
    "C35_best_first",
    "C35_queue"
   ],
   "note": "Proved for every tie-breaking of the priority queue."
  },
  {
   "property": "C36",
   "status": "proved",
   "theorems": [
    "C36_feature",
    "C36_schedule"
   ],
   "note": "Proved for every schedule of single reads and writes."
  },
  {
   "property": "C37",
   "status": "proved",
   "theorems": [
    "C37_shape",
    "C37_returns"
   ],
   "note": "Proved for every loss whose state keeps the gradient vector as long as the rows; the run is shown to end in exact arithmetic, and in doubles without string features."
  },
  {
   "property": "C38",
   "status": "proved",
   "theorems": [
    "C38_predictions",
    "C38_rounding_refuted"
   ],
   "note": "Proved in exact arithmetic; the difference by rounding in doubles is exhibited."
  },
  {
   "property": "C39",
   "status": "proved",
   "theorems": [
    "C39_base",
    "C39_training"
   ],
   "note": "Proved for every arithmetic."
  },
  {
   "property": "C40",
   "status": "proved",
   "theorems": [
    "C40_nodes",
    "C40_ways",
    "C40_rows"
   ],
   "note": "Proved for every arithmetic with ordered comparisons."
  },
  {
   "property": "C41",
   "status": "proved",
   "theorems": [
    "C41_descent"
   ],
   "note": "Proved in exact arithmetic for every round of every training run."
  },
  {
   "property": "C42",
   "status": "proved",
   "theorems": [
    "C42_logloss",
    "C42_huberized_hinge",
    "C42_mse",
    "C42_squared_hinge",
    "C42_overflow_refuted"
   ],
   "note": "Proved with derivatives of real functions; the NaN of logloss in doubles is exhibited."
  },
  {
   "property": "C43",
   "status": "proved",
   "theorems": [
    "C43_newton",
    "C43_init",
    "C43_mse",
    "C43_stale_refuted"
   ],
   "note": "Proved for every arithmetic; the closed form for mse in exact arithmetic; the gradients that are not those at the constant are exhibited."
  },
  {
   "property": "C44",
   "status": "proved",
   "theorems": [
    "C44_init",
    "C44_binarized"
   ],
   "note": "Proved for doubles, for every valid float including NaN and infinities."
  },
  {
   "property": "C45",
   "status": "proved",
   "theorems": [
    "C45_pairs"
   ],
   "note": "For every sorting function meeting the contract of std::sort. uint64 counts are natural numbers."
  },
  {
   "property": "C46",
   "status": "proved",
   "theorems": [
    "C46_rerank"
   ],
   "note": "For IEEE doubles and for exact arithmetic (any ordered number type)."
  },
  {
   "property": "C47",
   "status": "proved",
   "theorems": [
    "C47_round",
    "C47_balance",
    "C47_init",
    "C47_count"
   ],
   "note": "C47_round: all schedules of the tasks, any generator and any number type; C47_balance draws the conclusions in exact arithmetic. The number of samples per group is assumed to convert to an integer (it does not in C48_ties)."
  },
  {
   "property": "C48",
   "status": "proved",
   "theorems": [
    "C48_groups",
    "C48_partition",
    "C48_ties"
   ],
   "note": "C48_ties is for IEEE doubles with any exp and log. A NaN target is outside (std::sort is undefined then)."
  },
  {
   "property": "C49",
   "status": "proved",
   "theorems": [
    "C49_discount",
    "C49_weight",
    "C49_table_refuted",
    "C49_base_one_refuted"
   ],
   "note": "Exact arithmetic for the discount and the weight. The table of the constructor and base 1 are recorded as refutations."
  },
  {
   "property": "C50",
   "status": "proved",
   "theorems": [
    "C50_check",
    "C50_range",
    "C50_nan_refuted"
   ],
   "note": "Proved for every configuration; the acceptance of a NaN rate is exhibited and shown to leave every row out."
  },
  {
   "property": "C51",
   "status": "proved",
   "theorems": [
    "C51_load_features",
    "C51_error"
   ],
   "note": "Proved for every store and name list."
  },
  {
   "property": "C52",
   "status": "proved",
   "theorems": [
    "C52_importance",
    "C52_normalised"
   ],
   "note": "Proved for every arithmetic and every outcome of std::sort; the first entry being 1 is for exact arithmetic."
  },
  {
   "property": "C53",
   "status": "proved",
   "theorems": [
    "C53_test_points",
    "C53_no_interval"
   ],
   "note": "Proved for every size and interval."
  },
  {
   "property": "C54",
   "status": "proved",
   "theorems": [
    "C54_features",
    "C54_same_prediction",
    "C54_no_split_refuted"
   ],
   "note": "Proved; a node without split message is shown to read an unreported column."
  },
  {
   "property": "C55",
   "status": "proved",
   "theorems": [
    "C55_bounds_checked",
    "C55_huge_column_refuted",
    "C55_iteration",
    "C55_created",
    "C55_buckets"
   ],
   "note": "Values are what the column classes return; strings are taken to be valid UTF-8."
  },
  {
   "property": "C56",
   "status": "proved",
   "theorems": [
    "C56_silent",
    "C56_add"
   ],
   "note": "Exact for every status code and every store."
  },
  {
   "property": "C57",
   "status": "proved",
   "theorems": [
    "C57_slice",
    "C57_any_length",
    "C57_out_of_range",
    "C57_copy"
   ],
   "note": "The bound 60000 is twice the default number of buckets; the crash for 29999 distinct values is C09."
  },
  {
   "property": "C58",
   "status": "proved",
   "theorems": [
    "C58_rounds"
   ],
   "note": "Proved for every loss and every configuration."
  },
  {
   "property": "C59",
   "status": "proved",
   "theorems": [
    "C59_schedule",
    "C59_exact",
    "C59_threads_refuted",
    "C59_no_threads_refuted"
   ],
   "note": "Proved; dependence on the number of threads in doubles and the division by zero without threads are exhibited."
  },
  {
   "property": "C60",
   "status": "proved",
   "theorems": [
    "C60_trim",
    "C60_has_prefix",
    "C60_has_suffix",
    "C60_string_cast",
    "C60_lines"
   ],
   "note": "Proved, including the out-of-bounds reads of HasPrefix and HasSuffix."
  },
  {
   "property": "C61",
   "status": "proved",
   "theorems": [
    "C61_schedules",
    "C61_training"
   ],
   "note": "Proved for every schedule of single reads and writes."
  },
  {
   "property": "C62",
   "status": "proved",
   "theorems": [
    "C62_one_group",
    "C62_refuted"
   ],
   "note": "One group is proved for every generator; several groups are refuted by two schedules of a concrete round. A step is a read or a write of the whole generator state, which is finer than a lock and coarser than the real code, where the race itself is undefined."
  },
  {
   "property": "C63",
   "status": "proved",
   "theorems": [
    "C63_handles"
   ],
   "note": "Addresses are numbered; destroying the store is the same as clearing it."
  },
  {
   "property": "C64",
   "status": "proved",
   "theorems": [
    "C64_from_dict",
    "C64_length",
    "C64_from_df",
    "C64_override_refuted"
   ],
   "note": "Values of a column are assumed to convert to the type of the column; other conversions raise in pybind11, which is not modelled."
  },
  {
   "property": "C65",
   "status": "proved",
   "theorems": [
    "C65_trains",
    "C65_rejects",
    "C65_unfilled_refuted"
   ],
   "note": "For every loss and every training function. JSON parsing is a status and a configuration."
  },
  {
   "property": "C66",
   "status": "proved",
   "theorems": [
    "C66_missing_feature",
    "C66_features"
   ],
   "note": "The configuration is assumed to survive json.dumps and JsonUtils::FromJson."
  },
  {
   "property": "C67",
   "status": "proved",
   "theorems": [
    "C67_train",
    "C67_failure",
    "C67_features",
    "C67_mode",
    "C67_weights",
    "C67_targets",
    "C67_groups"
   ],
   "note": "The JSON library, number formatting and the data stores are parameters; writing to an open file is assumed to succeed."
  },
  {
   "property": "C68",
   "status": "proved",
   "theorems": [
    "C68_test",
    "C68_success",
    "C68_names",
    "C68_train_then_test"
   ],
   "note": "The second claim assumes that the printed model is read back as the same forest, and that both runs see the same number of rows (see C69)."
  },
  {
   "property": "C69",
   "status": "proved",
   "theorems": [
    "C69_no_scores"
   ],
   "note": "A finding: the expected scores are the constants, one per row."
  },
  {
   "property": "C70",
   "status": "proved",
   "theorems": [
    "C70_row_losses",
    "C70_pair_losses",
    "C70_unknown"
   ],
   "note": "Over the reals; C42 covers what double rounding does to the logistic loss."
  },
  {
   "property": "C71",
   "status": "proved",
   "theorems": [
    "C71_predict",
    "C71_unknown_column",
    "C71_same_row",
    "C71_short"
   ],
   "note": "End to end from py_add_all to forest_predict; score_of (ValueSpec.v) does not mention stores, buckets or category numbers."
  },
  {
   "property": "C72",
   "status": "proved",
   "theorems": [
    "C72_partial_dependency",
    "C72_errors"
   ],
   "note": "The drawing itself (mean, standard deviation, matplotlib) is not modelled; the result is the data drawn."
  },
  {
   "property": "C73",
   "status": "proved",
   "theorems": [
    "C73_training",
    "C73_doubles_refuted"
   ],
   "note": "pointwise losses; the pairwise losses share one random generator between tasks, so their result depends on the schedule"
  },
  {
   "property": "C74",
   "status": "proved",
   "theorems": [
    "C74_predictions",
    "C74_trained",
    "C74_finite"
   ],
   "note": ""
  },
  {
   "property": "C75",
   "status": "proved",
   "theorems": [
    "C75_tsv",
    "C75_not_loaded",
    "C75_columns",
    "C75_flat"
   ],
   "note": "The number formatting and the JSON parser are parameters."
  },
  {
   "property": "C76",
   "status": "proved",
   "theorems": [
    "C76_parts",
    "C76_short",
    "C76_undefined",
    "C76_sixty_refuted"
   ],
   "note": "Numbers between 2147483699999 and 2147483700000 milliseconds are not covered (they depend on the rounding of the quotients)."
  },
  {
   "property": "C77",
   "status": "proved",
   "theorems": [
    "C77_training",
    "C77_reordered",
    "C77_unweighted",
    "C77_doubles_refuted"
   ],
   "note": "The columns of the two data sets have the same bucket limits and dictionary codes; which limits loading chooses is the subject of properties C05 to C08.  Pairwise losses are not covered."
  },
  {
   "property": "C78",
   "status": "proved",
   "theorems": [
    "C78_increasing",
    "C78_any",
    "C78_missing",
    "C78_bad_line",
    "C78_finished",
    "C78_unsorted_refuted",
    "C78_unwritable_refuted",
    "C78_interleaved_refuted"
   ],
   "note": "the generator is a state machine over file contents (PyScores.v); show and parse of doubles are parameters"
  },
  {
   "property": "C79",
   "status": "proved",
   "theorems": [
    "C79_text",
    "C79_unique",
    "C79_order",
    "C79_exact",
    "C79_read",
    "C79_round_trip",
    "C79_survives",
    "C79_checkpoints"
   ],
   "note": "operator<< with the default precision and float() on its output (Print.v); discharges the hypothesis of C78 for doubles"
  },
  {
   "property": "C80",
   "status": "proved",
   "theorems": [
    "C80_partition",
    "C80_weights",
    "C80_rows",
    "C80_blank_rows_refuted",
    "C80_out_of_bag",
    "C80_out_of_bag_rounded",
    "C80_in_bag",
    "C80_one_bag_refuted",
    "C80_honest",
    "C80_config_refuted"
   ],
   "note": "the commands that bagged.py runs are those of Driver.v; that the JSON library rejects unknown fields is a hypothesis (its documented default)"
  },
  {
   "property": "C81",
   "status": "proved",
   "theorems": [
    "C81_tree",
    "C81_weights",
    "C81_queue",
    "C81_targets",
    "C81_limits_refuted",
    "C81_small_mean_refuted",
    "C81_scale_refuted"
   ],
   "note": "exact arithmetic (the real instance of the model); pairwise losses are left out; the priority queue is assumed to choose the same position when all gains are multiplied by a positive number, shown for the queue that takes the first largest"
  },
  {
   "property": "C82",
   "status": "proved",
   "theorems": [
    "C82_buckets",
    "C82_halfway",
    "C82_units",
    "C82_continue",
    "C82_order_refuted",
    "C82_new_rows_refuted"
   ],
   "note": "powers of two only, with magnitudes between 2^-100 and 2^100; infinite values are left out; both columns are loaded in blocks of the same sizes with the same number of buckets"
  },
  {
   "property": "C83",
   "status": "proved",
   "theorems": [
    "C83_files",
    "C83_long_line",
    "C83_strings",
    "C83_raw_floats",
    "C83_float_features_refused",
    "C83_hash_refuted",
    "C83_names_refuted",
    "C83_quotes_refuted"
   ],
   "note": "Python's csv module is modelled from its documentation and implementation, in the default dialect; short rows leave short columns (the loader of the store refuses them, C14); reading the configuration is not modelled"
  },
  {
   "property": "C84",
   "status": "proved",
   "theorems": [
    "C84_picture",
    "C84_finite",
    "C84_shape",
    "C84_forest",
    "C84_script",
    "C84_missing_refuted",
    "C84_less_refuted",
    "C84_labels_refuted",
    "C84_program_refuted",
    "C84_quotes_refuted"
   ],
   "note": "JSON output of protobuf is modelled from its documentation (numbers, booleans, strings and lists always printed); the number Python reads for a float is a parameter; names are ASCII; Graphviz itself is not modelled; the script's labels of categories are specified for names without quotes and backslashes"
  },
  {
   "property": "C85",
   "status": "proved",
   "theorems": [
    "C85_metrics",
    "C85_files",
    "C85_best",
    "C85_order",
    "C85_rmse",
    "C85_zero",
    "C85_near",
    "C85_average_refuted",
    "C85_missing_refuted",
    "C85_last_line_refuted",
    "C85_ties_refuted",
    "C85_lengths_refuted"
   ],
   "note": "reading options, the order and the text of printed numbers are not modelled; the reading and the text of a float are parameters; scores are no NaN; values over exact numbers, C85_order for any arithmetic"
  },
  {
   "property": "C86",
   "status": "proved",
   "theorems": [
    "C86_training",
    "C86_losses",
    "C86_equal_values",
    "C86_sampled_refuted",
    "C86_copy_in_front_refuted",
    "C86_missing_refuted"
   ],
   "note": "both runs are assumed to be covered by the conventions of training (C35); the losses that draw pairs are excluded, as are sampled rows and features"
  },
  {
   "property": "C87",
   "status": "proved",
   "theorems": [
    "C87_numbers",
    "C87_dictionary",
    "C87_strings",
    "C87_training",
    "C87_text_refuted",
    "C87_large_refuted",
    "C87_crash_refuted",
    "C87_zeros_refuted"
   ],
   "note": "the training part is in exact arithmetic (C77 shows that with doubles the order matters) and assumes that both runs are covered by the conventions of training (C35); the losses of pairs are excluded, as are sampled rows and features"
  },
  {
   "property": "C88",
   "status": "proved",
   "theorems": [
    "C88_one_tree",
    "C88_stale_refuted",
    "C88_two_trees_refuted"
   ],
   "note": "exact arithmetic; the refutations are computed with doubles"
  },
  {
   "property": "C89",
   "status": "proved",
   "theorems": [
    "C89_training",
    "C89_inputs",
    "C89_prediction",
    "C89_importance",
    "C89_order_refuted",
    "C89_missing_refuted"
   ],
   "note": "any arithmetic; the iteration order of the unordered_set is a hypothesis"
  },
  {
   "property": "C90",
   "status": "proved",
   "theorems": [
    "C90_outcome",
    "C90_frame",
    "C90_no_files",
    "C90_no_first_file",
    "C90_no_title",
    "C90_repeated_refuted"
   ],
   "note": "strtof is a parameter; files do not change during the load"
  },
  {
   "property": "C91",
   "status": "proved",
   "theorems": [
    "C91_rows",
    "C91_row",
    "C91_no_rows",
    "C91_out_of_range",
    "C91_range",
    "C91_named",
    "C91_unnamed",
    "C91_column_text",
    "C91_column_readable",
    "C91_quotes_refuted",
    "C91_store_text",
    "C91_store_readable",
    "C91_empty_text"
   ],
   "note": "the text of a float (cppformat) is a parameter"
  },
  {
   "property": "C92",
   "status": "proved",
   "theorems": [
    "C92_way",
    "C92_downhill",
    "C92_settled",
    "C92_log_odds",
    "C92_log_way",
    "C92_log_one_class",
    "C92_hinge_start",
    "C92_hinge_refuted"
   ],
   "note": "exact arithmetic except for the refutation"
  },
  {
   "property": "C93",
   "status": "proved",
   "theorems": [
    "C93_rounds",
    "C93_direction",
    "C93_small_step",
    "C93_bounded",
    "C93_first_logloss",
    "C93_raised_refuted"
   ],
   "note": "exact arithmetic except for the refutation"
  },
  {
   "property": "C94",
   "status": "proved",
   "theorems": [
    "C94_loaded",
    "C94_predictions",
    "C94_again",
    "C94_digits",
    "C94_eight_digits_refuted",
    "C94_largest_refuted",
    "C94_stray",
    "C94_spellings"
   ],
   "note": "JSON values, not their text; the conversion follows the library's documentation"
  },
  {
   "property": "C95",
   "status": "proved",
   "theorems": [
    "C95_numbers",
    "C95_loaded",
    "C95_predictions",
    "C95_largest_refuted"
   ],
   "note": "exp and log are any functions that give doubles; the L2 penalty is a double"
  },
  {
   "property": "C96",
   "status": "proved",
   "theorems": [
    "C96_documents",
    "C96_written",
    "C96_kept",
    "C96_loaded",
    "C96_spellings",
    "C96_numbers",
    "C96_files"
   ],
   "note": "null, escaped surrogate pairs and the library's leniency (comments, single quotes) are left out; objects do not name a field twice; in C96_files exp and log give doubles"
  },
  {
   "property": "C97",
   "status": "proved",
   "theorems": [
    "C97_options",
    "C97_objects",
    "C97_required",
    "C97_program",
    "C97_shrinkage",
    "C97_package",
    "C97_again",
    "C97_twice_refuted"
   ],
   "note": "null and numbers written as strings are left out; what the library does with an option that is named twice is not modelled"
  },
  {
   "property": "C98",
   "status": "proved",
   "theorems": [
    "C98_scores",
    "C98_importance",
    "C98_training",
    "C98_program",
    "C98_text_refuted"
   ],
   "note": "Doubles; exp and log are any functions (for the program: giving doubles). Importance assumes gains that are doubles, as in C94."
  },
  {
   "property": "C99",
   "status": "proved",
   "theorems": [
    "C99_round",
    "C99_count",
    "C99_percent",
    "C99_reported",
    "C99_mse",
    "C99_rising_refuted",
    "C99_weightless_refuted",
    "C99_negative_refuted"
   ],
   "note": "Report.v adds the loss of the last pass and the messages to the loops of Loss.v and Train.v; C99_round ties it to the round of the training. The pairwise message, the times and the format of the numbers are not modelled."
  },
  {
   "property": "C100",
   "status": "proved",
   "theorems": [
    "C100_rounds",
    "C100_leaf",
    "C100_level",
    "C100_weights_refuted",
    "C100_later_refuted"
   ],
   "note": "C100_rounds covers the whole training; the sampled pairs are those of C47. C100_leaf and C100_level state the conditions for one round."
  },
  {
   "property": "C101",
   "status": "proved",
   "theorems": [
    "C101_round",
    "C101_count",
    "C101_percent",
    "C101_schedules",
    "C101_reported",
    "C101_none_refuted",
    "C101_rising_refuted"
   ],
   "note": "Messages of pairwise losses: NaN when no pair is sampled, and rising losses, are recorded as refutations."
  },
  {
   "property": "C102",
   "status": "proved",
   "theorems": [
    "C102_order",
    "C102_distances",
    "C102_doubles",
    "C102_sort",
    "C102_gbrank_refuted",
    "C102_weights_refuted",
    "C102_mse_refuted"
   ],
   "note": "std::sort is a function of the comparisons of the elements it is given (hypothesis compares_only); sequential schedule of the tasks as in train; in doubles no target -0"
  },
  {
   "property": "C103",
   "status": "proved",
   "theorems": [
    "C103_base",
    "C103_constant",
    "C103_doubles_refuted",
    "C103_inside_refuted"
   ],
   "note": "exact arithmetic; std::sort is a function of the comparisons of the elements it is given (compares_only); sequential schedule of the tasks as in train"
  },
  {
   "property": "C104",
   "status": "proved",
   "theorems": [
    "C104_weights",
    "C104_losses",
    "C104_messages",
    "C104_groups",
    "C104_power_refuted",
    "C104_equal_refuted"
   ],
   "note": "exact arithmetic; sequential schedule of the tasks as in train; where the built-in smallest gain 1/1000000 is the limit it would have to be multiplied too, as in C81"
  },
  {
   "property": "C105",
   "status": "proved",
   "theorems": [
    "C105_gbrank",
    "C105_messages",
    "C105_lambda_refuted",
    "C105_auc_refuted"
   ],
   "note": "exact arithmetic; sequential schedule of the tasks as in train; where the built-in smallest gain 1/1000000 is the limit it would have to be multiplied too, as in C81"
  },
  {
   "property": "C106",
   "status": "proved",
   "theorems": [
    "C106_others",
    "C106_messages",
    "C106_losses",
    "C106_lambdamart_refuted"
   ],
   "note": "exact arithmetic; sequential schedule of the tasks as in train; where the built-in smallest gain 1/1000000 is the limit it would have to be multiplied too, as in C81; gbrank is C105"
  }
 ]
}