# Verification of yarny/gbdt in Rocq/Coq

Source under verification: `/repo` (C++ in `src/`, thin Python layer in `gbdt/`).  Nothing in `/repo` is
built or run; the model is written from the source text, function by function.

## Trusted base

* The Coq 8.16.1 kernel.
* The axioms `Print Assumptions` lists for each theorem (printed below every property theorem when
  the development is built; summary in "Axioms").
* The correspondence between the model and the C++ text.  Every definition of the model carries a comment
  with file and lines and the simplifications made.

## Axioms

No axiom is added.  `Print Assumptions` gives one of two answers for a property theorem:

* *Closed under the global context* for all theorems about discrete code and about IEEE arithmetic by computation.
* For theorems over the real numbers (marked `[R]` below; a few of them only need functional extensionality): `ClassicalDedekindReals.sig_forall_dec`,
  `ClassicalDedekindReals.sig_not_dec`, `FunctionalExtensionality.functional_extensionality_dep` and
  `Classical_Prop.classic`, all from Coq's standard library (they come in with `Reals`, and with Flocq and
  Coquelicot, which are built on `Reals` and add none).

## General modelling decisions

* **Undefined behaviour is an outcome.**  `res A = Ret a | Undef | Fatal`: `Undef` is C++ undefined
  behaviour (division by zero, out-of-bounds, use after free, a comparison function that is not an order),
  `Fatal` is a `CHECK`/`LOG(FATAL)` process abort or a loop that never ends (SplitStringUsing with an empty delimiter).
  Waiting for ever is a state without successor in the transition systems of the thread pool and the data loaders.
* **Status** values keep the error code, not the message.
* **32-bit feature values** are IEEE single floats in the standard library's executable `SpecFloat` format
  (NaN, infinities, signed zeros, subnormals), compared with `SFcompare`.
* **double arithmetic** (gradients, scores, gains) is a parameter: the functions take a record of operations
  `Num`, instantiated (a) with IEEE binary64 (`IEEE c_exp c_log`: `SpecFloat` at precision 53, emax 1024; executable; `exp` and
  `log` are arbitrary functions) and (b) with the real numbers (`Exact`).  A theorem says which one it is about; theorems
  stated for every `Num` hold of both.  Fused multiply-add is assumed not to be used.
* **Storing a double in a float and adding**: sums and products of two floats are taken in double and stored; for these operations
  this rounds only once in effect.
* **Machine integers**: indices and row counts are `nat`/`Z`.  Wrap-around is modelled where the code depends on
  it (width narrowing of integer columns, `num_buckets_ - bucket_maxs_.size()` in unsigned 64 bit, negative Python
  indices, `num_leaves` converted to `size_t`).  Elsewhere row counts are assumed below 2^31 and pair counts below 2^64;
  stated at the definitions.
* **Hash maps** have unspecified iteration order: theorems quantify over every order, and over every choice of `begin()`.
* **Random numbers** are an explicit stream argument.  The generator that the tasks of a pairwise loss share without a lock is a
  memory cell; the model lets tasks interleave at reads and writes of the whole generator state, although the race is undefined
  behaviour in C++.
* **Sorting** is a function argument with the contract of `std::sort` (`sorts`); ties are broken in any way.  A NaN key makes the
  comparison function no strict weak order: `Undef`.
* **Threads**: small-step interleaving of single reads and writes of shared memory (`Par.v`) for the tasks given to the pool,
  of critical sections for the pool itself, the lazily loading store and the TSV loader.
* **HasPrefix on a text that is too short** reads past its end (`Undef`, C60); inside the flat file reader, where this concerns
  an empty line and the prefix "#", the model takes the reading of every implementation (a terminating NUL, so no match).
* **External code** not modelled: protobuf (messages are Coq records; their JSON form and its text are modelled after the documentation, `Draw.v`, `Saved.v`, `JsonText.v`), the file system
  (a function from names to contents), logging, `fmt`, gflags, pybind11 marshalling (lists have elements of the declared type,
  strings are valid UTF-8), `strtof` (an arbitrary function), pandas.

## Files (`rocq/theories`)

Model files contain definitions only; `*Spec.v` files contain the vocabulary of the theorems, written without the functions
they are about; `Prop_*.v` files contain statements, examples and `Print Assumptions`; `*_proofs.v` contain the proofs.

| area | properties | model | specification | method |
|---|---|---|---|---|
| columns | C01-C10 | `Column.v` | `ColumnSpec.v` | invariants over Add/Finalize sequences |
| data store | C11-C13 | `DataStore.v` | `DataStoreSpec.v` | refinement to a finite map |
| text input | C14-C19, C60 | `Strings.v`, `Tsv.v`, `Flatfiles.v` | `StringsSpec.v`, `TsvSpec.v`, `FlatSpec.v` | round trips, induction on text, invariants of transition systems |
| thread pool | C20, C21 | `ThreadPool.v` | in the statements | invariants and a variant of the transition system |
| sampling | C22, C23 | `Subsampling.v` | in the statements | induction |
| partition and scoring | C24-C28, C51, C54 | `Par.v`, `Forest.v`, `Score.v`, `Eval.v` | `ScoreSpec.v`, `EvalSpec.v` | loop invariants, commuting interleavings |
| split search | C29-C32 | `Split.v` | `SplitSpec.v` | scan invariant; convexity over R; Flocq for rounding |
| tree fitting | C33-C36, C59 | `Tree.v` | `TreeSpec.v` | invariant of the best-first loop |
| boosting | C37-C41, C58 | `Train.v` | `TrainSpec.v` | invariant over iterations |
| losses | C42-C44, C61 | `Loss.v` | `LossSpec.v` | derivatives over R |
| pairwise losses | C45-C49, C62 | `Pairwise.v` | `PairSpec.v` | counting bijection, commuting interleavings |
| losses by name | C70 | `Loss.v`, `Pairwise.v` | `FactorySpec.v` | real arithmetic |
| configuration, reports | C50, C52, C53 | `Config.v` | `ConfigSpec.v` | induction |
| Python layer | C55-C57, C63-C66 | `Python.v` | `PythonSpec.v` | case analysis, reuse of column theorems |
| accuracy of predictions | C74 | `Eval.v`, `Train.v` | `AccuracySpec.v` | Flocq, induction on the sum |
| number of threads | C73 | `Train.v`, `Loss.v` | `TrainSpec.v` | simulation, sums of reals |
| values to predictions | C71, C72 | `PyPlot.v` | `ValueSpec.v` | simulation of tables by stores |
| text to scores | C75 | `TsvSource.v` (with `Tsv.v`, `Flatfiles.v`, `Driver.v`) | `TextSpec.v` | stores show tables |
| durations | C76 | `Stopwatch.v` | `StopwatchSpec.v` | rounding error analysis |
| checkpoints from Python | C78 | `PyScores.v` | `PyScoresSpec.v` | state machine of the generator |
| decimal text of scores | C79 | `Print.v` | `PrintSpec.v` | exact integer arithmetic; reading rounds once |
| bagging | C80 | `Bagging.v` (with `Driver.v`, `Train.v`) | `BaggingSpec.v` | C77 for targets of weight 0 |
| units of weights, shifted targets | C81 | `Tree.v`, `Train.v`, `Loss.v` | `UnitsSpec.v` | simulation of scaled and shifted runs |
| metrics scripts | C85 | `Metrics.v` | `MetricsSpec.v` | dictionaries, rearrangement, Minkowski |
| features that add nothing | C86 | `Train.v`, `Tree.v`, `Split.v` | `PaddedSpec.v` | best split over a list with useless entries |
| the order of the rows | C87 | `Column.v`, `Train.v` | `RowsSpec.v` | simulation of runs over permuted tables |
| the range of predictions | C88 | `Train.v`, `Loss.v`, `Eval.v` | `TrainSpec.v`, `LossSpec.v`, `EvalSpec.v` | one tree |
| names | C89 | `Train.v`, `Eval.v`, `Config.v`, `Pairwise.v` | `NamesSpec.v` | renaming columns, categories and groups |
| TSV from Python | C90 | `PyTsv.v`, `Tsv.v`, `Python.v` | `PyTsvSpec.v` | load_tsv, from_tsvs, to_df: from text to data frame, failures keep the store |
| Looking at data | C91 | `PyView.v`, `Python.v` | `PyViewSpec.v` | `ds[i]`, `ds[a, b]`, `ds[name]`; what the repr of columns and stores tells |
| The constant of a round | C92 | `Loss.v` | `ConstantSpec.v` | Newton steps, best constants, log odds, one class, hinge start |
| A round | C93 | `Train.v`, `Tree.v`, `Loss.v` | `StepSpec.v` | losses between tangents and parabolas, leaf by leaf |
| Saved forests | C94 | `Saved.v`, `Draw.v`, `Eval.v` | `SavedSpec.v`, `SpellingSpec.v` | gaps between floats against decimal errors; induction over messages |
| Saving what was trained | C95 | `Train.v`, `Saved.v` | `TrainedSpec.v`, `SavedSpec.v` | sets of numbers closed under the operations of the model |
| Text of JSON | C96 | `JsonText.v`, `Options.v` | `JsonSpec.v` (RFC 8259) | parser sound and complete for the grammar; texts of numbers as in C79 |
| Options | C97 | `Options.v`, `Config.v`, `Train.v` | `OptionsSpec.v`, `JsonSpec.v` | names by computation; option by option |
| Loaded forests in use | C98 | `Score.v`, `Train.v`, `Config.v`, `Driver.v`, `Options.v` | `ReloadSpec.v`, `SavedSpec.v`, `DriverSpec.v` | equal programs, since -0 + 0 = 0; relation between two trainings |
| Progress messages | C99 | `Report.v`, `Loss.v`, `Train.v` | `ReportSpec.v`, `StepSpec.v`, `ConstantSpec.v` | induction over rounds; leaf-wise sums of squares |
| A round with a pairwise loss | C100 | `Pairwise.v`, `Train.v`, `Tree.v` | `PairStepSpec.v`, `PairSpec.v`, `StepSpec.v` | sums over pairs exchanged with sums over rows; parabolas above the losses; leaf by leaf |
| Progress messages of pairwise losses | C101 | `PairReport.v`, `Report.v`, `Pairwise.v`, `Train.v` | `PairReportSpec.v`, `PairStepSpec.v`, `ReportSpec.v` | sums of the slices carried through all schedules; induction over rounds |
| What pairwise losses see of the targets | C102 | `Pairwise.v`, `Train.v` | `TargetsSpec.v`, `PairSpec.v`, `SplitSpec.v` | the programs of all tasks are equal; induction over rounds; Flocq for the difference of two floats in double |
| What pairwise losses see of a base forest | C103 | `Pairwise.v`, `Train.v` | `BaseShiftSpec.v`, `TargetsSpec.v`, `UnitsSpec.v` | the programs of all tasks are equal for function values with equal distances; induction over rounds |
| Units of weights with pairwise losses | C104 | `Pairwise.v`, `PairReport.v`, `Train.v`, `Tree.v` | `PairUnitsSpec.v`, `UnitsSpec.v`, `TargetsSpec.v` | simulation of the programs of all tasks on related memories; the lemmas of C81 for trees whose weighted gradients are multiplied |
| Units of targets with gbrank | C105 | `Pairwise.v`, `PairReport.v`, `Train.v`, `Tree.v` | `TargetUnitsSpec.v`, `UnitsSpec.v`, `TargetsSpec.v` | simulation of the programs of all tasks on memories whose gradients are multiplied; C102 for the pairs, the lemmas of C81 for trees |
| Units of targets with the other pairwise losses | C106 | `Pairwise.v`, `PairReport.v`, `Train.v`, `Tree.v` | `OtherUnitsSpec.v`, `TargetUnitsSpec.v`, `UnitsSpec.v` | as C104, with the weights of pairs multiplied |
| drawings | C84 | `Draw.v` | `DrawSpec.v` | Graphviz |
| conversion to flat files | C83 | `Convert.v` (with `Flatfiles.v`) | `ConvertSpec.v` | line by line, through the flat file reader |
| units of feature values | C82 | `Column.v`, `Split.v`, `Tree.v`, `Train.v` | `OrderSpec.v` | simulation; powers of two scale floats exactly |
| rows and weights | C77 | `Train.v`, `Loss.v`, `Tree.v` | `MergeSpec.v` | simulation of two runs, sums of reals |
| command line program | C67-C69 | `Driver.v` | `DriverSpec.v` | case analysis |

Not modelled: `flags.cc` and the text of log messages (except durations and the numbers of progress messages).

## Refutations

Theorems named `..._refuted` exhibit inputs for which the claim a reader would expect is false of the code as it is:

* C03: string and raw float columns accept `Add` after `Finalize`.  C06: +infinity gets the bucket below the one of FLT_MAX-bounded values.
* C07: fewer distinct values than buckets is not enough for lossless storage.  C08: the bound `2 * num_buckets` is exceeded by one.
* C10: more than `100 * num_buckets` rows: the blocks matter.  C12: a column of no rows is always accepted.
* C19: two threads that ask for the same flat file column: one gets a pointer to a destroyed column.
* C28: unsorted checkpoints are skipped.  C29: a NaN `min_gain` removes the tolerance.
* C30, C32: gradients that cancel to 0 make rows invisible to the split search; with an L2 term the sorted order misses the best subset.
* C31: adjacent or huge floats: the threshold rounds to a limit or overflows.
* C34: a leaf without training rows.  C38: in doubles the prediction differs from the trained function by rounding.
* C42: logloss is NaN for large margins.  C43: the gradients returned are those before the last Newton step.
* C49: the discount table is written out of bounds; base 1 gives NaN.  C50: NaN sampling rates are accepted.
* C54: a node without split message reads an unreported column.  C55: columns of more than 2^31 rows.
* C59: in doubles the sum depends on the number of threads; no threads divide by zero.  C62: several groups: the result depends on the schedule.
* C64: an override to "string" drops a numeric column.  C65: an unfilled store is dereferenced.
* C69: testing a forest without a split (only constants) writes no scores, because no column gives the number of rows.
* C73, C77: in doubles the trained forest depends on the number of threads and on the order of the rows.
* C76: 59.96 seconds are written `60.0s`.
* C78: checkpoints that are not increasing, files that cannot be written and two iterations at once give scores of another call.
* C79: distinct scores may get the same text; tiny scores (below 1e-307) may be printed differently after being read.
* C80: the configuration written by `bagged.py` has a field that the program does not know, so no bag is trained; one bag divides by zero; blank rows are not counted.
* C81: targets can not be given in other units and a small mean is not taken out of the gradients, because the convergence threshold 1e-4 is absolute; scaling weights without the limits changes the forest.
* C82: the order of the feature values does not decide about the training: rows without gradient are invisible to the split search and end on the side of the halfway point; the threshold below all values is 0.001 below the smallest one in any unit.
* C83: a float feature written by the converter has the type `binned_floats` and never loads; values starting with '#' are dropped as comments; the titles `a b` and `a_b` share a file; a quote at the start of a cell swallows the following tabs and lines.
* C84: `draw_trees.py` shows missing values on the right whatever the tree says; labels read `<=` though equal values go right; different trees can have the same drawing; the main program of the visualizer draws tree number 1 and fails on a forest of one tree; a category with an apostrophe ends the script's label early.
* C85: `compute_metrics.py` rounds average numbers of rows down; silently leaves out the last group if scores or targets are missing; makes a last group line without newline a group of its own; depends on the order of rows with equal scores; `compute_rmse.py` prints a number for files of different lengths before it fails.
* C86: with sampled rows an added constant column changes the result (it uses up random numbers); a copy in front of its original takes its place in the forest; a column that is constant except for missing rows is used.
* C87: if strings first appear in another order, tied categories are divided differently and predictions change; beyond 100 values per bucket the bucket limits depend on which rows come first, up to undefined behaviour for one order and none for another; of +0 and -0 the first becomes the limit.
* C88: a mean target of at most 0.0001 is added twice in the first round (C43), so predictions exceed the range of the targets; with two trees predictions leave the range anyway.
* C89: the order in which the set of features is walked through decides ties; a group called `__missing__` is out of bounds.
* C90: naming a column twice in from_tsvs (e.g. raw and bucketized) uses a destroyed column object.
* C91: repr of string columns does not escape quotation marks; different columns can show the same text.
* C92: with huberized_hinge, from function values that are not 0, the constant of a round can raise the loss (13/8 to 35/2) and stop where all hessians are 0.
* C93: with huberized_hinge and no L2 penalty a tree can raise the training loss (51/2 to more than 26), because rows on the linear part have no hessian.
* C94: eight digits of a float do not read back (10000 + 21/1024 becomes the next float; whether eight or nine are written depends on the version of the JSON library); a forest with the largest float as score is saved but refused when loaded.
* C95: if all targets are the largest float, the trained forest has this float as its constant and is refused when loaded.
* C97: the Python package adds `example_sampling_rate` to a dictionary with `exampleSamplingRate`; without `shrinkage` (default 0) training learns nothing and reports success.
* C98: a forest with a score -0 and the forest loaded from its text have different texts.
* C99: with huberized_hinge the reported loss can rise; without weight it is NaN; with negative weights the percentages can stay 0 while the loss changes.
* C100: with row weights that differ the first pairwise round can raise the loss of its pairs; without l2_lambda a later round can.
* C101: if no group gives a pair, the messages of a pairwise loss contain only NaN; without l2_lambda the reported loss can rise (it is that of the pairs sampled for the round).
* C102: the order of the targets inside groups does not determine the training with gbrank or with weighting by delta target; their distances do not determine it with mse.
* C103: in doubles a large constant in the base forest (2^60) changes the later trees of a pairwise training.
* C104: with weights multiplied by 2 a pairwise training needs limits multiplied by 8; with 2 (right for pointwise losses, C81) or 4 the trees differ. `equal_group_weight` does not make up for the weights of a group.
* C105: with `pair_weight_by_delta_target` and targets times 2 the same `l2_lambda` gives other scores, without it twice the `l2_lambda` does. The scores of auc do not follow the unit of the targets.
* C106: lambdamart with targets times 2 and the same `l2_lambda` gives other scores, even without `pair_weight_by_delta_target`.

## Mutation testing

`seeded/LOG.jsonl` has one line per edited model: the definition, the edit, the claim it breaks, the lemmas whose proofs
failed, the property theorems that depend on them, and the theorems tightened afterwards.

## Properties, theorems and status

Generated from MANIFEST.json and properties.jsonl.  `[R]` marks a theorem that uses the axioms of the classical
reals listed above; every other theorem is closed under the global context.  Every property has at least one
`Example` beside its theorems.

**C01 String columns give back exactly the strings that were added** (proved; `Prop_Column.v`).  `C01_string_column_roundtrip`.  Proved for all block lists whose dictionary has fewer than 2^32 entries.

**C02 The category dictionary of a string column is a bijection in order of first appearance** (proved; `Prop_Column.v`).  `C02_string_dictionary`.  Proved, same bound as C01.

**C03 Finalized columns are frozen** (proved; `Prop_Column.v`).  `C03_bucketized_frozen`, `C03_string_frozen`, `C03_string_add_guard_refuted`, `C03_raw_add_guard_refuted`.  Proved: bucketized Add/Finalize and string Finalize guards; the missing string and raw Add guards are shown as refutations.

**C04 Bucketizing keeps every row and keeps missingness exact** (proved; `Prop_Column.v`).  `C04_bucketized_size_missing`, `C04_raw_roundtrip`.  Proved for 1 <= num_buckets <= 21474836 and fewer than 2^32-2 rows; includes the raw float column round trip.

**C05 The bucket of a value contains the value, and its lower end is tight** (proved; `Prop_Column.v`).  `C05_bucket_contains`.  Proved for data without +infinity.

**C06 Bucket numbers respect numeric order** (proved; `Prop_Column.v`).  `C06_bucket_order`, `C06_infinity_refuted`.  Proved for data without +infinity; refuted with +infinity by a witness.

**C07 Small columns are stored losslessly** (proved; `Prop_Column.v`).  `C07_small_columns_lossless`, `C07_enough_buckets_refuted`.  Proved; a witness shows that 'distinct values <= budget' alone is not enough.

**C08 The number of buckets stays within twice the budget** (proved; `Prop_Column.v`).  `C08_bucket_count`, `C08_budget_refuted`.  Proved with the sharp bound 2B+1, attained by a witness.

**C09 When building buckets divides by zero** (proved; `Prop_Column.v`).  `C09_division_by_zero`, `C09_default_budget`.  Proved as an equivalence, plus the default-budget corollary.

**C10 Splitting the data into blocks does not change a bucketized column** (proved; `Prop_Column.v`).  `C10_block_split`, `C10_large_refuted`.  Proved as equality of the built columns; a witness shows it fails beyond 100*num_buckets.

**C11 The data store behaves as a finite map from names to columns** (proved; `Prop_DataStore.v`).  `C11_store_is_map`.  Proved for every operation sequence over finalized columns and every choice of begin() on the hash map.

**C12 All columns of a data store have the same number of rows** (proved; `Prop_DataStore.v`).  `C12_rectangular`, `C12_empty_column_refuted`.  Proved for non-empty columns; the empty-column case is refuted by a witness.

**C13 Typed access never confuses column types** (proved; `Prop_DataStore.v`).  `C13_typed_getters`, `C13_typed_listings`.  Proved for every store.

**C14 Splitting and joining strings are inverse** (proved; `Prop_Strings.v`).  `C14_join_of_split`, `C14_split_of_join`, `C14_pieces`, `C14_empty_delimiter`.  Proved; the empty delimiter is shown to loop for ever (modelled as Fatal).

**C15 A TSV block is parsed row by row and all its columns line up** (proved; `Prop_Tsv.v`).  `C15_block_rows`, `C15_block_success`.  Proved for every file content and every number parser.

**C16 Loading several TSV files equals loading their rows in order, whatever the thread schedule** (proved; `Prop_Tsv.v`).  `C16_load_result`, `C16_schedule_independent`, `C16_terminates`, `C16_missing_name`.  Proved over a transition system with arbitrary completion order of parser threads and arbitrary order of per-column tasks; the only crash is the division by zero of C09.

**C17 Naming a TSV column twice in the configuration is a memory error** (proved; `Prop_Tsv.v`).  `C17_duplicate_name`, `C17_distinct_names`.  Proved: duplicate names end in use after free on every schedule; distinct names give live handles of the right types.

**C18 A flat file column holds one row per line** (proved; `Prop_Flatfiles.v`).  `C18_strings`, `C18_raw_floats`, `C18_bucketized`, `C18_unknown_type`, `C18_no_file`, `C18_roundtrip`.  Proved for every file content; strings need a dictionary of fewer than 2^32 entries.

**C19 Concurrent lazy loading of flat file columns** (proved; `Prop_Flatfiles.v`).  `C19_distinct_names`, `C19_progress`, `C19_same_name_refuted`.  Proved over all interleavings of critical sections; the same-name race is exhibited by a schedule.

**C20 The thread pool runs every enqueued task exactly once before its destructor returns** (proved; `Prop_ThreadPool.v`).  `C20_all_tasks_run`, `C20_order`.  Proved over all interleavings, for every number of workers and tasks.

**C21 The thread pool cannot deadlock, and needs at least one worker** (proved; `Prop_ThreadPool.v`).  `C21_no_deadlock`, `C21_no_lost_wakeup`, `C21_terminates`, `C21_zero_workers`.  Proved, including that zero workers never run a task.

**C22 Work division covers every sample exactly once** (proved; `Prop_Subsampling.v`).  `C22_ranges`, `C22_slices`, `C22_no_groups`.  Proved; zero groups divide by zero.

**C23 Uniform subsampling picks an increasing subset, decided row by row** (proved; `Prop_Subsampling.v`).  `C23_subsample`, `C23_extreme_rates`, `C23_seed`.  Proved for an arbitrary random stream.

**C24 Partition divides a slice into the two sides of a split** (proved; `Prop_Score.v`).  `C24_partition`, `C24_decision`, `C24_wrong_kind`.  Proved for every arithmetic, for columns as the library builds them.

**C25 Dropping the internal category indices of a trained split does not change its decisions** (proved; `Prop_Score.v`).  `C25_cleared_indices`.  Proved for every string column; C37 lifts it to whole forests.

**C26 Adding a tree's scores gives each row exactly its own leaf's score once** (proved; `Prop_Score.v`).  `C26_routing`, `C26_add_tree_scores`, `C26_terminates`.  Proved for every interleaving of single reads and writes of the workers, with termination.

**C27 The forest's prediction is the sum of its trees' leaf scores, added in tree order** (proved; `Prop_Eval.v`).  `C27_evaluate`, `C27_leaves`, `C27_unusable_column`, `C27_concatenation`.  Proved for every arithmetic (each leaf score s enters as s + 0).

**C28 Checkpointed prediction writes exactly the requested prefixes** (proved; `Prop_Eval.v`).  `C28_checkpoints`, `C28_increasing`, `C28_unsorted_refuted`.  Proved, including failing file opens; the unsorted case is refuted by a witness.

**C29 The split scan returns the first best admissible split point** (proved; `Prop_Split.v`).  `C29_split_point`, `C29_ieee`, `C29_exact` [R], `C29_nan_min_gain_refuted`.  Proved for every arithmetic with ordered comparisons, instantiated for doubles and reals; a NaN min_gain is shown to remove the tolerance.

**C30 The gain recorded for a numeric split is the true energy reduction of the partition it makes** (proved; `Prop_Split.v`).  `C30_gain` [R], `C30_best` [R], `C30_category` [R], `C30_cancelled_refuted`, `C30_missing_refuted`.  Proved in exact arithmetic, with optimality; the two cancellation cases are refuted by witnesses in doubles.

**C31 The stored threshold never sends a right row left, but can fail to send a left row left** (proved; `Prop_Split.v`).  `C31_between` [R], `C31_strict` [R], `C31_divides` [R], `C31_missing_divides` [R], `C31_search` [R], `C31_adjacent_refuted`, `C31_overflow_refuted`.  Proved for all finite floats through Flocq; rounding and overflow failures exhibited end to end.

**C32 Sorting categories by score finds the best subset exactly when there is no L2 term** (proved; `Prop_Split.v`).  `C32_best` [R], `C32_sorts`, `C32_lambda_refuted`, `C32_cancelled_refuted`.  Proved in exact arithmetic for every sorting function; both missing conditions are shown necessary by witnesses.

**C33 Fitted trees are full binary trees with at most num_leaves leaves** (proved; `Prop_Tree.v`).  `C33_shape`, `C33_returns`.  Proved for every arithmetic with ordered comparisons; a tree is always returned in exact arithmetic, and in doubles when there are no string features.

**C34 Every leaf's score is the regularised Newton step of exactly the training rows routed to it** (proved; `Prop_Tree.v`).  `C34_node`, `C34_one_leaf`, `C34_score` [R], `C34_empty_leaf_refuted`.  Proved for every arithmetic; the Newton step is stated in exact arithmetic; a leaf without rows is exhibited.

**C35 Trees grow best-first and stop early only when nothing is left to gain** (proved; `Prop_Tree.v`).  `C35_best_first`, `C35_queue`.  Proved for every tie-breaking of the priority queue.

**C36 The chosen feature is the first of largest gain among the sampled features, whatever the schedule** (proved; `Prop_Tree.v`).  `C36_feature`, `C36_schedule`.  Proved for every schedule of single reads and writes.

**C37 A trained forest has the promised shape** (proved; `Prop_Train.v`).  `C37_shape`, `C37_returns`.  Proved for every loss whose state keeps the gradient vector as long as the rows; the run is shown to end in exact arithmetic, and in doubles without string features.

**C38 What training optimised is what prediction returns** (proved; `Prop_Train.v`).  `C38_predictions` [R], `C38_rounding_refuted`.  Proved in exact arithmetic; the difference by rounding in doubles is exhibited.

**C39 Continuing from a base forest starts from that forest's predictions** (proved; `Prop_Train.v`).  `C39_base` [R], `C39_training` [R].  Proved for every arithmetic.

**C40 Shrinkage scales the tree's prediction and nothing else** (proved; `Prop_Train.v`).  `C40_nodes`, `C40_ways`, `C40_rows` [R].  Proved for every arithmetic with ordered comparisons.

**C41 With squared error each boosting round does not increase the training loss** (proved; `Prop_Loss.v`).  `C41_descent` [R].  Proved in exact arithmetic for every round of every training run.

**C42 Gradients and hessians are derivatives of the reported loss** (proved; `Prop_Loss.v`).  `C42_logloss` [R], `C42_huberized_hinge` [R], `C42_mse` [R], `C42_squared_hinge` [R], `C42_overflow_refuted`.  Proved with derivatives of real functions; the NaN of logloss in doubles is exhibited.

**C43 The per-round constant is found by at most ten Newton steps; for mse it is the weighted mean residual** (proved; `Prop_Loss.v`).  `C43_newton`, `C43_init`, `C43_mse` [R], `C43_stale_refuted`.  Proved for every arithmetic; the closed form for mse in exact arithmetic; the gradients that are not those at the constant are exhibited.

**C44 Classification losses accept exactly the targets -1 and +1** (proved; `Prop_Loss.v`).  `C44_init` [R], `C44_binarized`.  Proved for doubles, for every valid float including NaN and infinities.

**C45 Pair indices of a group enumerate the ordered pairs exactly once** (proved; `Prop_Pair.v`).  `C45_pairs`.  For every sorting function meeting the contract of std::sort. uint64 counts are natural numbers.

**C46 Reranking orders a group by descending prediction** (proved; `Prop_Pair.v`).  `C46_rerank`.  For IEEE doubles and for exact arithmetic (any ordered number type).

**C47 Pairwise losses push rows against each other, group by group** (proved; `Prop_Pair.v`).  `C47_round`, `C47_balance` [R], `C47_init`, `C47_count` [R].  C47_round: all schedules of the tasks, any generator and any number type; C47_balance draws the conclusions in exact arithmetic. The number of samples per group is assumed to convert to an integer (it does not in C48_ties).

**C48 Pairwise losses mishandle missing groups and tie-only groups** (proved; `Prop_Pair.v`).  `C48_groups`, `C48_partition`, `C48_ties`.  C48_ties is for IEEE doubles with any exp and log. A NaN target is outside (std::sort is undefined then).

**C49 LambdaMART weights depend on the rank distance through a decreasing discount** (proved; `Prop_Pair.v`).  `C49_discount` [R], `C49_weight` [R], `C49_table_refuted`, `C49_base_one_refuted`.  Exact arithmetic for the discount and the weight. The table of the constructor and base 1 are recorded as refutations.

**C50 The configuration check accepts exactly the documented ranges, plus NaN rates** (proved; `Prop_Config.v`).  `C50_check`, `C50_range`, `C50_nan_refuted`.  Proved for every configuration; the acceptance of a NaN rate is exhibited and shown to leave every row out.

**C51 Feature loading succeeds exactly when every feature exists** (proved; `Prop_Eval.v`).  `C51_load_features`, `C51_error`.  Proved for every store and name list.

**C52 Feature importance is the normalised total gain per feature** (proved; `Prop_Config.v`).  `C52_importance`, `C52_normalised` [R].  Proved for every arithmetic and every outcome of std::sort; the first entry being 1 is for exact arithmetic.

**C53 Evaluation points count down from the forest size in steps of the interval** (proved; `Prop_Config.v`).  `C53_test_points`, `C53_no_interval`.  Proved for every size and interval.

**C54 Prediction only reads the features the forest reports** (proved; `Prop_Eval.v`).  `C54_features`, `C54_same_prediction`, `C54_no_split_refuted`.  Proved; a node without split message is shown to read an unreported column.

**C55 Python column access is bounds checked, including negative indices** (proved; `Prop_Python.v`).  `C55_bounds_checked`, `C55_huge_column_refuted`, `C55_iteration`, `C55_created`, `C55_buckets`.  Values are what the column classes return; strings are taken to be valid UTF-8.

**C56 Which store errors reach a Python caller** (proved; `Prop_Python.v`).  `C56_silent`, `C56_add`.  Exact for every status code and every store.

**C57 Slicing a Python data store keeps the values of the selected rows** (proved; `Prop_Python.v`).  `C57_slice`, `C57_any_length`, `C57_out_of_range`, `C57_copy`.  The bound 60000 is twice the default number of buckets; the crash for 29999 distinct values is C09.

**C58 Training aborts on a non-finite constant** (proved; `Prop_Train.v`).  `C58_rounds`.  Proved for every loss and every configuration.

**C59 Weighted sums do not depend on the number of threads (exact arithmetic) nor on the schedule (IEEE)** (proved; `Prop_Tree.v`).  `C59_schedule`, `C59_exact` [R], `C59_threads_refuted`, `C59_no_threads_refuted`.  Proved; dependence on the number of threads in doubles and the division by zero without threads are exhibited.

**C60 Prefix, suffix and trim helpers** (proved; `Prop_Strings.v`).  `C60_trim`, `C60_has_prefix`, `C60_has_suffix`, `C60_string_cast`, `C60_lines`.  Proved, including the out-of-bounds reads of HasPrefix and HasSuffix.

**C61 The pass over the rows of a pointwise loss is free of interference, and training with it returns** (proved; `Prop_Loss.v`).  `C61_schedules`, `C61_training`.  Proved for every schedule of single reads and writes.

**C62 Pairwise training is reproducible only with one group** (proved; `Prop_Pair.v`).  `C62_one_group`, `C62_refuted`.  One group is proved for every generator; several groups are refuted by two schedules of a concrete round. A step is a read or a write of the whole generator state, which is finer than a lock and coarser than the real code, where the race itself is undefined.

**C63 A Python column object is valid until its column is deleted** (proved; `Prop_Python.v`).  `C63_handles`.  Addresses are numbered; destroying the store is the same as clearing it.

**C64 Loading a dictionary or a data frame** (proved; `Prop_Python.v`).  `C64_from_dict`, `C64_length`, `C64_from_df`, `C64_override_refuted`.  Values of a column are assumed to convert to the type of the column; other conversions raise in pybind11, which is not modelled.

**C65 Training from Python checks its arguments first** (proved; `Prop_Python.v`).  `C65_trains`, `C65_rejects`, `C65_unfilled_refuted`.  For every loss and every training function. JSON parsing is a status and a configuration.

**C66 The training function of the Python package uses exactly the requested features** (proved; `Prop_Python.v`).  `C66_missing_feature`, `C66_features`.  The configuration is assumed to survive json.dumps and JsonUtils::FromJson.

**C67 Training from the command line** (proved; `Prop_Driver.v`).  `C67_train`, `C67_failure`, `C67_features`, `C67_mode`, `C67_weights`, `C67_targets`, `C67_groups`.  The JSON library, number formatting and the data stores are parameters; writing to an open file is assumed to succeed.

**C68 Testing from the command line** (proved; `Prop_Driver.v`).  `C68_test`, `C68_success`, `C68_names`, `C68_train_then_test` [R].  The second claim assumes that the printed model is read back as the same forest, and that both runs see the same number of rows (see C69).

**C69 A forest of constants tested on flat files gets no scores** (proved; `Prop_Driver.v`).  `C69_no_scores`.  A finding: the expected scores are the constants, one per row.

**C70 The name of a loss decides what is minimised** (proved; `Prop_Factory.v`).  `C70_row_losses` [R], `C70_pair_losses` [R], `C70_unknown` [R].  Over the reals; C42 covers what double rounding does to the logistic loss.

**C71 Predictions from Python follow from the values of the table** (proved; `Prop_Value.v`).  `C71_predict`, `C71_unknown_column`, `C71_same_row`, `C71_short`.  End to end from py_add_all to forest_predict; score_of (ValueSpec.v) does not mention stores, buckets or category numbers.

**C72 Partial dependency measures the effect of one column** (proved; `Prop_Value.v`).  `C72_partial_dependency`, `C72_errors`.  The drawing itself (mean, standard deviation, matplotlib) is not modelled; the result is the data drawn.

**C73 In exact arithmetic the trained forest does not depend on the number of threads** (proved; `Prop_Threads.v`).  `C73_training` [R], `C73_doubles_refuted`.  pointwise losses; the pairwise losses share one random generator between tasks, so their result depends on the schedule

**C74 Predictions are finite and close to the exact sum of the leaf scores** (proved; `Prop_Accuracy.v`).  `C74_predictions` [R], `C74_trained` [R], `C74_finite`.  

**C75 From text files to score files** (proved; `Prop_Text.v`).  `C75_tsv`, `C75_not_loaded`, `C75_columns`, `C75_flat`.  The number formatting and the JSON parser are parameters.

**C76 Durations in log messages** (proved; `Prop_Stopwatch.v`).  `C76_parts` [R], `C76_short` [R], `C76_undefined` [R], `C76_sixty_refuted`.  Numbers between 2147483699999 and 2147483700000 milliseconds are not covered (they depend on the rounding of the quotients).

**C77 Rows count by their weight** (proved; `Prop_Merge.v`).  `C77_training` [R], `C77_reordered` [R], `C77_unweighted` [R], `C77_doubles_refuted`.  The columns of the two data sets have the same bucket limits and dictionary codes; which limits loading chooses is the subject of properties C05 to C08.  Pairwise losses are not covered.

**C78 Predictions at checkpoints from Python** (proved; `Prop_PyScores.v`).  `C78_increasing`, `C78_any`, `C78_missing`, `C78_bad_line`, `C78_finished`, `C78_unsorted_refuted`, `C78_unwritable_refuted`, `C78_interleaved_refuted`.  the generator is a state machine over file contents (PyScores.v); show and parse of doubles are parameters

**C79 Scores in decimal** (proved; `Prop_Print.v`).  `C79_text` [R], `C79_unique` [R], `C79_order` [R], `C79_exact` [R], `C79_read` [R], `C79_round_trip` [R], `C79_survives` [R], `C79_checkpoints` [R].  operator<< with the default precision and float() on its output (Print.v); discharges the hypothesis of C78 for doubles

**C80 Bagging** (proved; `Prop_Bagging.v`).  `C80_partition`, `C80_weights`, `C80_rows`, `C80_blank_rows_refuted`, `C80_out_of_bag` [R], `C80_out_of_bag_rounded`, `C80_in_bag` [R], `C80_one_bag_refuted`, `C80_honest` [R], `C80_config_refuted`.  the commands that bagged.py runs are those of Driver.v; that the JSON library rejects unknown fields is a hypothesis (its documented default)

**C81 Units of weights and targets** (proved; `Prop_Units.v`).  `C81_tree` [R], `C81_weights` [R], `C81_queue` [R], `C81_targets` [R], `C81_limits_refuted`, `C81_small_mean_refuted`, `C81_scale_refuted`.  exact arithmetic (the real instance of the model); pairwise losses are left out; the priority queue is assumed to choose the same position when all gains are multiplied by a positive number, shown for the queue that takes the first largest

**C82 Units of feature values** (proved; `Prop_Order.v`).  `C82_buckets`, `C82_halfway` [R], `C82_units` [R], `C82_continue` [R], `C82_order_refuted`, `C82_new_rows_refuted`.  powers of two only, with magnitudes between 2^-100 and 2^100; infinite values are left out; both columns are loaded in blocks of the same sizes with the same number of buckets

**C83 Converting TSV text to flat files** (proved; `Prop_Convert.v`).  `C83_files`, `C83_long_line`, `C83_strings`, `C83_raw_floats`, `C83_float_features_refused`, `C83_hash_refuted`, `C83_names_refuted`, `C83_quotes_refuted`.  Python's csv module is modelled from its documentation and implementation, in the default dialect; short rows leave short columns (the loader of the store refuses them, C14); reading the configuration is not modelled

**C84 Drawings of trees** (proved; `Prop_Draw.v`).  `C84_picture` [R], `C84_finite` [R], `C84_shape` [R], `C84_forest`, `C84_script` [R], `C84_missing_refuted`, `C84_less_refuted`, `C84_labels_refuted`, `C84_program_refuted`, `C84_quotes_refuted`.  JSON output of protobuf is modelled from its documentation (numbers, booleans, strings and lists always printed); the number Python reads for a float is a parameter; names are ASCII; Graphviz itself is not modelled; the script's labels of categories are specified for names without quotes and backslashes

**C85 Metrics of ranked groups and root of the mean squared error** (proved; `Prop_Metrics.v`).  `C85_metrics` [R], `C85_files`, `C85_best` [R], `C85_order`, `C85_rmse` [R], `C85_zero` [R], `C85_near` [R], `C85_average_refuted`, `C85_missing_refuted`, `C85_last_line_refuted`, `C85_ties_refuted`, `C85_lengths_refuted`.  reading options, the order and the text of printed numbers are not modelled; the reading and the text of a float are parameters; scores are no NaN; values over exact numbers, C85_order for any arithmetic

**C86 Features that add nothing change nothing** (proved; `Prop_Padded.v`).  `C86_training`, `C86_losses`, `C86_equal_values`, `C86_sampled_refuted`, `C86_copy_in_front_refuted`, `C86_missing_refuted`.  both runs are assumed to be covered by the conventions of training (C35); the losses that draw pairs are excluded, as are sampled rows and features

**C87 The order of the rows** (proved; `Prop_Rows.v`).  `C87_numbers`, `C87_dictionary`, `C87_strings`, `C87_training` [R], `C87_text_refuted`, `C87_large_refuted`, `C87_crash_refuted`, `C87_zeros_refuted`.  the training part is in exact arithmetic (C77 shows that with doubles the order matters) and assumes that both runs are covered by the conventions of training (C35); the losses of pairs are excluded, as are sampled rows and features

**C88 One tree stays within the range of the targets** (proved; `Prop_Range.v`).  `C88_one_tree` [R], `C88_stale_refuted`, `C88_two_trees_refuted`.  exact arithmetic; the refutations are computed with doubles

**C89 Names do not matter** (proved; `Prop_Names.v`).  `C89_training` [R], `C89_inputs`, `C89_prediction` [R], `C89_importance`, `C89_order_refuted`, `C89_missing_refuted`.  any arithmetic; the iteration order of the unordered_set is a hypothesis

**C90 Loading TSV files from Python** (proved; `Prop_PyTsv.v`).  `C90_outcome`, `C90_frame`, `C90_no_files`, `C90_no_first_file`, `C90_no_title`, `C90_repeated_refuted`.  strtof is a parameter; files do not change during the load

**C91 Indexing and repr of data stores** (proved; `Prop_PyView.v`).  `C91_rows`, `C91_row`, `C91_no_rows`, `C91_out_of_range`, `C91_range`, `C91_named`, `C91_unnamed`, `C91_column_text`, `C91_column_readable`, `C91_quotes_refuted`, `C91_store_text`, `C91_store_readable`, `C91_empty_text`.  the text of a float (cppformat) is a parameter

**C92 The constant of a round** (proved; `Prop_Constant.v`).  `C92_way` [R], `C92_downhill` [R], `C92_settled` [R], `C92_log_odds` [R], `C92_log_way` [R], `C92_log_one_class` [R], `C92_hinge_start` [R], `C92_hinge_refuted`.  exact arithmetic except for the refutation

**C93 A round with any pointwise loss** (proved; `Prop_Step.v`).  `C93_rounds` [R], `C93_direction` [R], `C93_small_step` [R], `C93_bounded` [R], `C93_first_logloss` [R], `C93_raised_refuted`.  exact arithmetic except for the refutation

**C94 A forest survives saving and loading** (proved; `Prop_Saved.v`).  `C94_loaded` [R], `C94_predictions` [R], `C94_again` [R], `C94_digits` [R], `C94_eight_digits_refuted` [R], `C94_largest_refuted` [R], `C94_stray`, `C94_spellings`.  JSON values, not their text; the conversion follows the library's documentation

**C95 A trained forest can be saved and loaded** (proved; `Prop_Trained.v`).  `C95_numbers` [R], `C95_loaded` [R], `C95_predictions` [R], `C95_largest_refuted`.  exp and log are any functions that give doubles; the L2 penalty is a double

**C96 The text of a saved forest** (proved; `Prop_JsonText.v`).  `C96_documents`, `C96_written` [R], `C96_kept` [R], `C96_loaded` [R], `C96_spellings`, `C96_numbers` [R], `C96_files` [R].  null, escaped surrogate pairs and the library's leniency (comments, single quotes) are left out; objects do not name a field twice; in C96_files exp and log give doubles

**C97 The options of a configuration** (proved; `Prop_Options.v`).  `C97_options` [R], `C97_objects`, `C97_required` [R], `C97_program` [R], `C97_shrinkage` [R], `C97_package`, `C97_again`, `C97_twice_refuted`.  null and numbers written as strings are left out; what the library does with an option that is named twice is not modelled

**C98 A loaded forest does what the saved one did** (proved; `Prop_Reload.v`).  `C98_scores` [R], `C98_importance` [R], `C98_training` [R], `C98_program` [R], `C98_text_refuted` [R].  Doubles; exp and log are any functions (for the program: giving doubles). Importance assumes gains that are doubles, as in C94.

**C99 Progress messages** (proved; `Prop_Report.v`).  `C99_round`, `C99_count`, `C99_percent`, `C99_reported` [R], `C99_mse` [R], `C99_rising_refuted`, `C99_weightless_refuted`, `C99_negative_refuted`.  Report.v adds the loss of the last pass and the messages to the loops of Loss.v and Train.v; C99_round ties it to the round of the training. The pairwise message, the times and the format of the numbers are not modelled.

**C100 A round with a pairwise loss** (proved; `Prop_PairStep.v`).  `C100_rounds` [R], `C100_leaf` [R], `C100_level` [R], `C100_weights_refuted`, `C100_later_refuted`.  C100_rounds covers the whole training; the sampled pairs are those of C47. C100_leaf and C100_level state the conditions for one round.

**C101 Progress messages of pairwise losses report the mean loss of the pairs used** (proved; `Prop_PairReport.v`).  `C101_round`, `C101_count`, `C101_percent`, `C101_schedules` [R], `C101_reported` [R], `C101_none_refuted`, `C101_rising_refuted`.  Messages of pairwise losses: NaN when no pair is sampled, and rising losses, are recorded as refutations.

**C102 Pairwise losses see only the order, or only the distances, of the targets inside groups** (proved; `Prop_Targets.v`).  `C102_order` [R], `C102_distances` [R], `C102_doubles` [R], `C102_sort`, `C102_gbrank_refuted`, `C102_weights_refuted`, `C102_mse_refuted`.  std::sort is a function of the comparisons of the elements it is given (hypothesis compares_only); sequential schedule of the tasks as in train; in doubles no target -0

**C103 With a pairwise loss only the distances of base predictions inside groups matter** (proved; `Prop_BaseShift.v`).  `C103_base` [R], `C103_constant` [R], `C103_doubles_refuted`, `C103_inside_refuted`.  exact arithmetic; std::sort is a function of the comparisons of the elements it is given (compares_only); sequential schedule of the tasks as in train

**C104 With a pairwise loss the weights of rows count three times** (proved; `Prop_PairUnits.v`).  `C104_weights` [R], `C104_losses` [R], `C104_messages` [R], `C104_groups` [R], `C104_power_refuted`, `C104_equal_refuted`.  exact arithmetic; sequential schedule of the tasks as in train; where the built-in smallest gain 1/1000000 is the limit it would have to be multiplied too, as in C81

**C105 With gbrank the unit of the targets is the unit of the scores** (proved; `Prop_TargetUnits.v`).  `C105_gbrank` [R], `C105_messages` [R], `C105_lambda_refuted`, `C105_auc_refuted`.  exact arithmetic; sequential schedule of the tasks as in train; where the built-in smallest gain 1/1000000 is the limit it would have to be multiplied too, as in C81

**C106 With auc, pairwise_logloss and lambdamart targets have no unit or count as weights** (proved; `Prop_OtherUnits.v`).  `C106_others` [R], `C106_messages` [R], `C106_losses` [R], `C106_lambdamart_refuted`.  exact arithmetic; sequential schedule of the tasks as in train; where the built-in smallest gain 1/1000000 is the limit it would have to be multiplied too, as in C81; gbrank is C105
