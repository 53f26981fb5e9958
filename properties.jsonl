{"id": "C01", "title": "String columns give back exactly the strings that were added", "statement": "After any sequence of Add(block) calls followed by Finalize(), a string column has as many rows as strings were added, and get_row_string(i) is the i-th added string in order. This holds for every split of the data into blocks and for every number of distinct strings, i.e. whichever of the 8-, 16- or 32-bit storage widths Finalize picks.", "quantifier": "all lists of string blocks with fewer than 2^32-1 distinct strings, all row indices", "why_tests_cant": "A test tries a few short vectors; the width switch happens at 256 and 65536 distinct strings and depends on an off-by-one relation between dictionary size and largest stored index.", "anchors": ["src/data_store/column.cc: StringColumn::Add, StringColumn::Finalize, StringColumn::get_row_string, IntegerizedColumn::Finalize, ConvertIntVector", "src/data_store/column.h: StringColumn"]}
{"id": "C02", "title": "The category dictionary of a string column is a bijection in order of first appearance", "statement": "In a string column, indices 0..max_int-1 and the distinct strings (plus the reserved \"__missing__\" at index 0) correspond one to one: get_cat_index(get_cat_string(k)) = k, get_cat_index(s) succeeds exactly for \"__missing__\" and strings that were added, indices are handed out in order of first appearance, and a row is missing exactly when its string is \"__missing__\".", "quantifier": "all lists of string blocks, all strings, all indices below max_int", "why_tests_cant": "Tests look at a handful of strings; uniqueness and order must hold after any history of Adds.", "anchors": ["src/data_store/column.h: StringColumn::get_cat_index, get_cat_string, max_int, IntegerCol::missing", "src/data_store/column.cc: StringColumn::Add"]}
{"id": "C03", "title": "Finalized columns are frozen", "statement": "After Finalize(), a further Add or Finalize on a bucketized float column sets FAILED_PRECONDITION and leaves every row, bucket limit and size as it was; a second Finalize of a string column also sets FAILED_PRECONDITION and changes no row. The Add guard is missing for string and raw float columns: an Add after Finalize is accepted with status OK, changing the observable dictionary of a string column and the rows of a raw float column.", "quantifier": "all columns reachable by any sequence of Add and Finalize calls, all later blocks", "why_tests_cant": "The interesting cases are arbitrary histories before the late call; tests check one history at most.", "anchors": ["src/data_store/column.cc: BucketizedFloatColumn::Add, BucketizedFloatColumn::Finalize, RawFloatColumn::Add, RawFloatColumn::Finalize, StringColumn::Add, StringColumn::Finalize"]}
{"id": "C04", "title": "Bucketizing keeps every row and keeps missingness exact", "statement": "A bucketized float column has exactly one row per added value, in order, and row i is missing exactly when the i-th added value is NaN, for every data set, bucket budget and block split for which construction does not crash.", "quantifier": "all lists of blocks of 32-bit floats (including NaN, infinities and signed zeros), all positive bucket budgets", "why_tests_cant": "Depends on interplay of buffering, late bucket building and width narrowing, over arbitrary data; tests sample a few vectors.", "anchors": ["src/data_store/column.cc: BucketizedFloatColumn::Add, AddBucketizedVec, AddBucketizedVecHelper, BuildBuckets, Finalize", "src/data_store/column.h: IntegerCol::missing"]}
{"id": "C05", "title": "The bucket of a value contains the value, and its lower end is tight", "statement": "For every non-missing value v that is not +infinity, at row i: get_row_min(i) <= v <= get_row_max(i), and get_row_min(i) is equal to some value that was added to the column and fell in the same bucket.", "quantifier": "all blocks of 32-bit floats without +infinity, all positive bucket budgets, all rows", "why_tests_cant": "Bucket limits are data dependent and adjusted as blocks arrive; only an invariant over all histories settles it.", "anchors": ["src/data_store/column.cc: AddBucketizedVecHelper, BuildBuckets, UniformBinning", "src/data_store/column.h: BucketizedFloatColumn::get_row_min, get_row_max"]}
{"id": "C06", "title": "Bucket numbers respect numeric order", "statement": "For rows i, j holding non-missing values a, b below +infinity: bucket(i) < bucket(j) implies a < b and get_row_max(i) < get_row_min(j); and a <= b implies bucket(i) <= bucket(j). When +infinity occurs in the data this fails (a finite value can get a larger bucket number than +infinity).", "quantifier": "all blocks of 32-bit floats, all positive bucket budgets, all pairs of rows", "why_tests_cant": "Order preservation is a statement about all pairs of values in all data sets; the split search silently relies on it.", "anchors": ["src/data_store/column.cc: BuildBuckets, UniformBinning, AddBucketizedVecHelper"]}
{"id": "C07", "title": "Small columns are stored losslessly", "statement": "If a bucketized column is created from one vector with fewer than 2*num_buckets values (59999 or fewer with the default budget), then get_row_min(i) = get_row_max(i) = the value itself for every non-missing row below +infinity.", "quantifier": "all vectors with fewer than 2*num_buckets values, all rows", "why_tests_cant": "Needs reasoning about integer division and the binning rule for every data set up to tens of thousands of rows.", "anchors": ["src/data_store/column.cc: BuildBuckets, UniformBinning, Column::CreateBucketizedFloatColumn"]}
{"id": "C08", "title": "The number of buckets stays within twice the budget", "statement": "A bucketized column built with budget B >= 1 has max_int() <= 2*B + 1 buckets, for every input for which construction does not crash; the budget itself is not an upper bound.", "quantifier": "all lists of blocks, all budgets B >= 1", "why_tests_cant": "The two-stage binning rule makes the worst case data dependent; tests only check a few shapes.", "anchors": ["src/data_store/column.cc: BuildBuckets, UniformBinning"]}
{"id": "C09", "title": "When building buckets divides by zero", "statement": "Building a bucketized column from one vector with budget B in 1..21474836 has undefined behaviour (an integer division by zero, a crash in practice) exactly when the number of distinct non-NaN values that occur at least max(1, n/B) times is B-1, where n counts all values including NaN. In particular every vector with exactly 29999 distinct values and at most 59999 rows crashes the default-budget constructor.", "quantifier": "all vectors of 32-bit floats with fewer than 2^31 values, all budgets in range", "why_tests_cant": "The crash needs an exact coincidence of counts that no hand-written test hits.", "anchors": ["src/data_store/column.cc: BuildBuckets lines 276-283"]}
{"id": "C10", "title": "Splitting the data into blocks does not change a bucketized column", "statement": "As long as the total number of values is at most 100*num_buckets, adding the values in any sequence of blocks and finalizing gives the same observable column (rows, bucket limits, size) as adding them in one block.", "quantifier": "all lists of blocks with at most 100*num_buckets values in total, all budgets", "why_tests_cant": "A claim over all ways to split all data sets.", "anchors": ["src/data_store/column.cc: BucketizedFloatColumn::Add, Finalize, BuildBuckets"]}
{"id": "C11", "title": "The data store behaves as a finite map from names to columns", "statement": "After any sequence of Add, RemoveColumnIfExists and GetColumn calls, GetColumn(n) returns the column most recently added successfully under n and not removed since, and nothing otherwise. Add of an existing name fails with ALREADY_EXISTS, Add of a column whose length differs from num_rows() > 0 fails with OUT_OF_RANGE, a failing Add changes nothing, every other Add succeeds.", "quantifier": "all operation sequences, all names and columns, all iteration orders of the hash map", "why_tests_cant": "A refinement statement over all histories and over the unspecified hash-map iteration order.", "anchors": ["src/data_store/data_store.cc: DataStore::Add, GetColumn, RemoveColumnIfExists, num_rows"]}
{"id": "C12", "title": "All columns of a data store have the same number of rows", "statement": "If every added column is non-empty, then after any sequence of Add and Remove calls all stored columns have num_rows() rows. With empty columns this fails: after adding an empty column a data store can hold columns of different positive lengths.", "quantifier": "all operation sequences, all iteration orders of the hash map", "why_tests_cant": "Invariant over histories; the failing case needs an empty column first, which no test does.", "anchors": ["src/data_store/data_store.cc: DataStore::Add, num_rows"]}
{"id": "C13", "title": "Typed access never confuses column types", "statement": "GetStringColumn, GetBucketizedFloatColumn and GetRawFloatColumn return a column for name n exactly when GetColumn(n) exists and has that type, and the three typed listings together contain each stored column exactly once.", "quantifier": "all stores reachable by any operation sequence, all names", "why_tests_cant": "Exhaustiveness over all stores.", "anchors": ["src/data_store/data_store.cc: GetStringColumn, GetRawFloatColumn, GetBucketizedFloatColumn, GetStringColumns, GetRawFloatColumns, GetBucketizedFloatColumns"]}
{"id": "C14", "title": "Splitting and joining strings are inverse", "statement": "For every non-empty delimiter d, joining the pieces of split(s, d) with d gives back s, and for a one-character d no piece contains it; conversely split(join(ws, d), d) = ws for every list ws of words that do not contain the one-character d, unless ws is [] or [\"\"]. split(\"\", d) is the empty list.", "quantifier": "all strings, all delimiters, all word lists", "why_tests_cant": "Round trips over all strings.", "anchors": ["src/utils/utils.cc: SplitStringUsing, strings::split", "src/utils/utils_inl.h: strings::JoinStrings"]}
{"id": "C15", "title": "A TSV block is parsed row by row and all its columns line up", "statement": "Reading a TSV text (with or without header line) with given float and string column positions either succeeds, and then every requested column has one entry per non-empty data line, the k-th entry coming from the k-th such line at the requested position (floats: the parsed number, or NaN for one of the seven missing tokens), or fails with OUT_OF_RANGE if the first offending line is too short, INVALID_ARGUMENT if its cell is neither a number nor a missing token.", "quantifier": "all file contents, all lists of column positions, all number parsers", "why_tests_cant": "Alignment for all file contents including CRLF endings, blank lines, missing final newline.", "anchors": ["src/data_store/tsv_block.cc: TSVBlock::ReadTSV", "src/utils/utils.cc: ReadLine, SplitStringUsing, StringCast"]}
{"id": "C16", "title": "Loading several TSV files equals loading their rows in order, whatever the thread schedule", "statement": "TSVDataStore loads blocks in parallel but every column holds the rows of file 1, then file 2, and so on; the status is the status of the first bad file; the result does not depend on the order in which parser threads finish.", "quantifier": "all lists of files, all configurations, all completion orders of the parser threads", "why_tests_cant": "Schedules cannot be enumerated by tests.", "anchors": ["src/data_store/tsv_data_store.cc: LoadTSVs, ProcessBlock, SetupColumns, Finalize"]}
{"id": "C17", "title": "Naming a TSV column twice in the configuration is a memory error", "statement": "Setting up a TSV load in which the same column name is used in two roles (or twice in one role), and is present in the header, leaves a dangling column pointer that is used when the first block is processed: undefined behaviour. If all names are distinct and present, no such error happens, and each name ends up as a column of the type of its role.", "quantifier": "all configurations, all header lines", "why_tests_cant": "Exact characterisation over all configurations; memory errors are not observable by ordinary assertions.", "anchors": ["src/data_store/tsv_data_store.cc: SetupColumns, ProcessBlock"]}
{"id": "C18", "title": "A flat file column holds one row per line", "statement": "Loading a flat file whose header declares dtype strings / raw_floats / bucketized_floats gives one row per line after skipping lines that start with '#', in order, for files with or without final newline; an unparsable float cell is missing. Consequently writing strings that contain no line break, do not start with '#' and do not end in CR, one per line, and loading them gives the same strings back.", "quantifier": "all file contents, all string lists with the stated shape", "why_tests_cant": "Round trip over all contents.", "anchors": ["src/data_store/flatfiles_data_store.cc: LoadColumn, LoadStringColumn, LoadFloatColumn", "src/utils/utils.cc: ReadLine"]}
{"id": "C19", "title": "Concurrent lazy loading of flat file columns", "statement": "When threads call GetColumn on a flat-file store concurrently for pairwise different names, every pointer returned stays valid and later calls return the same column. When two threads ask for the same not-yet-loaded name, there is a schedule in which a pointer already returned is destroyed by the other thread.", "quantifier": "all numbers of threads, all name assignments, all interleavings", "why_tests_cant": "A property of all interleavings.", "anchors": ["src/data_store/flatfiles_data_store.cc: GetColumn, LoadColumn"]}
{"id": "C20", "title": "The thread pool runs every enqueued task exactly once before its destructor returns", "statement": "For a pool with at least one worker, under every interleaving of the owner and the workers, when the destructor returns every enqueued task has been run exactly once and no task is running; tasks are started in the order in which they were enqueued.", "quantifier": "all numbers of workers >= 1, all task lists, all interleavings, all spurious wake-ups", "why_tests_cant": "A property of all interleavings.", "anchors": ["src/utils/threadpool.cc: Enqueue, Invoke, ShutDown, ~ThreadPool"]}
{"id": "C21", "title": "The thread pool cannot deadlock, and needs at least one worker", "statement": "For a pool with at least one worker and terminating tasks, in every reachable state in which the destructor has not returned some thread can take a step, no wake-up is lost, and every execution is finite except for spurious wake-ups. With zero workers the destructor returns and no task ever runs.", "quantifier": "all numbers of workers, all task lists, all interleavings", "why_tests_cant": "Absence of deadlock is a statement about all reachable states.", "anchors": ["src/utils/threadpool.cc: Enqueue, Invoke, ShutDown"]}
{"id": "C22", "title": "Work division covers every sample exactly once", "statement": "DivideSamples(n, g) with g >= 1 yields g slices whose concatenation is 0..n-1 (for the slice version: the given samples in order), and whose sizes differ by at most one, larger ones first. g = 0 is a division by zero.", "quantifier": "all n, all g", "why_tests_cant": "All sizes and group counts.", "anchors": ["src/utils/subsampling.cc: DivideSamplesHelper, DivideSamples, CreateAllSamples"]}
{"id": "C23", "title": "Uniform subsampling picks an increasing subset, decided row by row", "statement": "UniformSubsample(n, rate) returns a strictly increasing list of indices below n; index i is picked exactly when the i-th random number drawn is below rate; a rate of 1 picks every index and a rate of 0 none; the result is a function of the seed and of the draws made since seeding.", "quantifier": "all n, rates, random streams with values in [0,1)", "why_tests_cant": "All random streams.", "anchors": ["src/utils/subsampling.cc: UniformSubsample, Reseed"]}
{"id": "C24", "title": "Partition divides a slice into the two sides of a split", "statement": "Partition(column, split, samples) only permutes the entries of its slice and returns k such that the first k entries of the slice are the rows that go to the left child, in their old order, and the rest are the other rows in some order, where a row goes left for a numeric split iff it is missing and missing goes left, or its bucket upper limit is below the threshold, and for a categorical split iff its category is listed.", "quantifier": "all columns, splits, sample vectors and slices", "why_tests_cant": "In-place permutation over arbitrary input; an off-by-one corrupts neighbouring slices that other threads use.", "anchors": ["src/gbdt_algo/split_algo.cc: Partition"]}
{"id": "C25", "title": "Dropping the internal category indices of a trained split does not change its decisions", "statement": "A categorical split whose category names were filled in from its internal indices on a column sends exactly the same rows of that column left after the indices are cleared, so a forest saved without internal fields predicts as during training.", "quantifier": "all string columns, all index lists valid for the column, all rows", "why_tests_cant": "Needs the dictionary bijection for every column.", "anchors": ["src/gbdt_algo/split_algo.cc: Partition (string)", "src/gbdt_algo/gbdt_algo.cc: ClearInternalFields", "src/gbdt_algo/tree_algo.cc: FindBestFeatureAndSplit"]}
{"id": "C26", "title": "Adding a tree's scores gives each row exactly its own leaf's score once", "statement": "AddTreeScores(tree, c, scores) adds (score of the leaf the row is routed to + c) to each row's entry exactly once and touches nothing else, whatever the number of worker threads, the way samples are divided, the permutation left behind by earlier calls, and the interleaving of the workers.", "quantifier": "all trees, data stores, score vectors, thread counts >= 1, interleavings, call histories", "why_tests_cant": "Quantifies over schedules and over the hidden permuted state kept between calls.", "anchors": ["src/gbdt_algo/compute_tree_scores.cc: AddTreeScores, AddSampleTreeScores, ComputeTreeScores", "src/gbdt_algo/split_algo.cc: Partition"]}
{"id": "C27", "title": "The forest's prediction is the sum of its trees' leaf scores, added in tree order", "statement": "EvaluateForest gives row i the value 0 + s_1 + ... + s_T (left to right) where s_t is the score of the leaf of tree t that row i is routed to; and evaluating a concatenation of forests continues from the scores of the first.", "quantifier": "all forests, stores, rows", "why_tests_cant": "All forests and data.", "anchors": ["src/gbdt_algo/evaluation.cc: EvaluateForest"]}
{"id": "C28", "title": "Checkpointed prediction writes exactly the requested prefixes", "statement": "EvaluateForest with checkpoint list p_1, p_2, ... writes a score file for p exactly when p is a tree count between 1 and the forest size that is larger than every checkpoint before it in the list (and, for p = 1, is the first of the list); the file holds the sums over the first p trees. So a strictly increasing list within range is written completely, and a checkpoint listed after a larger one is silently never written. At the first file that can not be opened the run stops with ABORTED.", "quantifier": "all forests, all checkpoint lists", "why_tests_cant": "All orders of all lists.", "anchors": ["src/gbdt_algo/evaluation.cc: EvaluateForest lines 57-87"]}
{"id": "C29", "title": "The split scan returns the first best admissible split point", "statement": "FindBestSplitPoint examines every cut between consecutive non-empty buckets with missing rows on the left or on the right, and returns the first candidate of largest gain among those whose smaller child hessian exceeds min_hessian and whose gain exceeds max(min_gain, 1e-6); it returns nothing exactly when there is no such candidate.", "quantifier": "all histograms, all parameters, both in exact and in IEEE double arithmetic", "why_tests_cant": "Optimality over all candidates of all histograms.", "anchors": ["src/gbdt_algo/split_algo.cc: FindBestSplitPoint"]}
{"id": "C30", "title": "The gain recorded for a numeric split is the true energy reduction of the partition it makes", "statement": "In exact arithmetic, if no occupied bucket has exactly one of gradient sum and hessian sum equal to zero, the recorded gain equals energy(left rows)+energy(right rows)-energy(all rows) for the row sets that Partition produces from the returned split, provided the threshold separates the two buckets (C31), and no other cut of the value range with missing rows on either side that keeps both children above min_hessian has a larger reduction. The same holds for string columns without the proviso. If the gradients of some bucket cancel while its hessian does not, the recorded gain can exceed the true one; the same for missing rows.", "quantifier": "all columns, gradients, weights, sample sets, parameters", "why_tests_cant": "Links three pieces of code over all data.", "anchors": ["src/gbdt_algo/split_algo.cc: ComputeHistograms, FindBestSplitPoint, FindBestFloatSplit, Partition"]}
{"id": "C31", "title": "The stored threshold never sends a right row left, but can fail to send a left row left", "statement": "For limits l < r of neighbouring non-empty buckets whose 32-bit sum does not overflow, the stored threshold satisfies l <= t <= r, so rows at or above r go right; if a float lies between l and r then l < t, so the rows are divided exactly as the recorded gain says. For adjacent floats t can be equal to l, and then the rows of the left bucket go right although the recorded gain put them left; if the sum overflows every row can go left.", "quantifier": "all pairs of finite 32-bit floats whose sum does not overflow", "why_tests_cant": "Rounding behaviour over all pairs of floats.", "anchors": ["src/gbdt_algo/split_algo.cc: FindBestFloatSplit lines 222-231, Partition"]}
{"id": "C32", "title": "Sorting categories by score finds the best subset exactly when there is no L2 term", "statement": "In exact arithmetic with l2_lambda = 0, min_hessian = 0, positive category hessians and no category whose gradients cancel, the returned split has a gain at least as large as every division of the categories into two non-empty sets (and if nothing is returned, no division exceeds max(min_gain, 1e-6)); with l2_lambda > 0, or with a category whose gradients cancel, it can be strictly worse than another subset.", "quantifier": "all string columns, gradients and weights as stated, all sorting functions, all subsets", "why_tests_cant": "Exponentially many subsets for every data set; the documentation claims optimality without the condition.", "anchors": ["src/gbdt_algo/split_algo.cc: SortOnNodeScore, FindBestStringSplit", "docs/ALGORITHMS.md"]}
{"id": "C33", "title": "Fitted trees are full binary trees with at most num_leaves leaves", "statement": "A tree produced by FitTreeToGradients has at least 1 and at most max(1, num_leaves) leaves (num_leaves converted to size_t, so a negative value does not bound the tree), every internal node has two children and a split with positive gain on one of the given features, and the number of internal nodes is the number of leaves minus one.", "quantifier": "all data stores, gradients, configurations, random streams, tie-breaking of the priority queue", "why_tests_cant": "All runs of a nondeterministic loop.", "anchors": ["src/gbdt_algo/tree_algo.cc: FitTreeToGradients, FindBestFeatureAndSplit"]}
{"id": "C34", "title": "Every leaf's score is the regularised Newton step of exactly the training rows routed to it", "statement": "After FitTreeToGradients the sample slices of the leaves are a partition of the sampled rows, each leaf's slice is exactly the sampled rows the finished tree routes to that leaf, and the leaf's score is G/(H+lambda) (0 if H+lambda = 0) for the weighted gradient and hessian sums of that slice, stored as a float. A leaf can be left without any row: neighbouring float values give a threshold that separates nothing.", "quantifier": "all data stores, gradients, weights, configurations, random streams", "why_tests_cant": "All data; the in-place repartitioning of one shared sample vector must keep all slices disjoint.", "anchors": ["src/gbdt_algo/tree_algo.cc: FitTreeToGradients, ComputeWeightedSum", "src/loss_func/gradient_data.h: Score"]}
{"id": "C35", "title": "Trees grow best-first and stop early only when nothing is left to gain", "statement": "Each expansion step splits a leaf whose gain is maximal among the current leaves; growth stops only when there are num_leaves leaves or when no leaf has an admissible split of positive gain.", "quantifier": "all runs", "why_tests_cant": "All runs of the loop with all tie breaks.", "anchors": ["src/gbdt_algo/tree_algo.cc: FitTreeToGradients"]}
{"id": "C36", "title": "The chosen feature is the first of largest gain among the sampled features, whatever the schedule", "statement": "FindBestFeatureAndSplit returns the first sampled feature whose best split has the largest positive gain, and no feature if all gains are zero; the result does not depend on the order in which worker threads finish.", "quantifier": "all feature lists, random streams, completion orders", "why_tests_cant": "All schedules.", "anchors": ["src/gbdt_algo/tree_algo.cc: FindBestFeatureAndSplit"]}
{"id": "C37", "title": "A trained forest has the promised shape", "statement": "A successful TrainGBDT returns 1 constant tree, then the multi-node trees of the base forest in order, then num_trees fitted trees; no node carries internal category indices and a node carries a split exactly if it has children.", "quantifier": "all data stores, configurations, base forests, losses, random streams", "why_tests_cant": "All runs.", "anchors": ["src/gbdt_algo/gbdt_algo.cc: TrainGBDT, InitializeWithBaseForest, ClearInternalFields, ApplyShrinkage"]}
{"id": "C38", "title": "What training optimised is what prediction returns", "statement": "In exact arithmetic, the function values that training maintains for each training row after the last iteration equal the values EvaluateForest computes for that row with the returned forest on the training data.", "quantifier": "all data stores, configurations, base forests, losses, random streams", "why_tests_cant": "Needs the invariant through all boosting iterations, including the merged constant tree and the cleared fields.", "anchors": ["src/gbdt_algo/gbdt_algo.cc: TrainGBDT, InitializeWithBaseForest, UpdateFunctionScores", "src/gbdt_algo/evaluation.cc: EvaluateForest"]}
{"id": "C39", "title": "Continuing from a base forest starts from that forest's predictions", "statement": "In exact arithmetic, after InitializeWithBaseForest the function values and the new forest's predictions both equal the base forest's predictions on every row, and the first question training asks the loss is about those predictions.", "quantifier": "all base forests, stores, rows", "why_tests_cant": "All forests, including several or no constant trees.", "anchors": ["src/gbdt_algo/gbdt_algo.cc: InitializeWithBaseForest"]}
{"id": "C40", "title": "Shrinkage scales the tree's prediction and nothing else", "statement": "ApplyShrinkage(s) multiplies the score every row receives from the tree by s in exact arithmetic and leaves routing, splits and gains unchanged.", "quantifier": "all trees, factors, rows", "why_tests_cant": "All trees.", "anchors": ["src/gbdt_algo/gbdt_algo.cc: ApplyShrinkage"]}
{"id": "C41", "title": "With squared error each boosting round does not increase the training loss", "statement": "In exact arithmetic with the mse loss, non-negative weights, no row sampling, l2_lambda >= 0 and 0 <= shrinkage <= 1, the weighted squared error of the training function values after a round is at most that before the round, also in rounds whose gradients are those before the constant was added.", "quantifier": "all data, trees fitted with leaf Newton scores, configurations in range", "why_tests_cant": "An inequality over all data sets.", "anchors": ["src/gbdt_algo/gbdt_algo.cc: TrainGBDT", "src/gbdt_algo/tree_algo.cc: FitTreeToGradients", "src/loss_func/loss_func_pointwise.cc: ComputeFunctionalGradientsAndHessians"]}
{"id": "C42", "title": "Gradients and hessians are derivatives of the reported loss", "statement": "For logloss and huberized hinge with targets +-1, g is minus the first derivative and h the second derivative (away from the two kinks of the hinge) of the reported loss in f; for mse and squared hinge g and h are exactly half of that, so the Newton step g/h is the same; hessians are never negative.", "quantifier": "all real targets (in the loss's domain) and predictions", "why_tests_cant": "A calculus statement about all reals.", "anchors": ["src/loss_func/loss_func_math.cc: ComputeMSE, ComputeLogLoss, ComputeHuberizedHinge, ComputeSquaredHinge"]}
{"id": "C43", "title": "The per-round constant is found by at most ten Newton steps; for mse it is the weighted mean residual", "statement": "ComputeFunctionalGradientsAndHessians of a pointwise loss evaluates the loss at most 10 times; c is the sum of the Newton steps; the returned per-row gradients are those at f plus c minus the last step. For mse in exact arithmetic with non-zero total weight c is the weighted mean of y - f and the returned gradients are y - f - c, or y - f if |c| <= 1e-4.", "quantifier": "all data, all weights, all losses", "why_tests_cant": "All data.", "anchors": ["src/loss_func/loss_func_pointwise.cc: Pointwise::ComputeFunctionalGradientsAndHessians"]}
{"id": "C44", "title": "Classification losses accept exactly the targets -1 and +1", "statement": "Init of logloss and huberized_hinge succeeds iff every target is 1 or -1 (otherwise INVALID_ARGUMENT); with binarize_target set, every target column is turned into +-1 targets (1 iff > 0) and Init succeeds.", "quantifier": "all target columns including NaN", "why_tests_cant": "All columns.", "anchors": ["src/loss_func/loss_func_logloss.cc: Init", "src/loss_func/loss_func_huberized_hinge.cc: Init", "src/gbdt_algo/utils.cc: GetTargetsOrDie"]}
{"id": "C45", "title": "Pair indices of a group enumerate the ordered pairs exactly once", "statement": "For a group of rows with NaN-free targets, num_pairs is the number of (i, j) with y_i > y_j, and SamplePair's map from indices 0..num_pairs-1 to pairs is a bijection onto those pairs, so uniform indices give uniform pairs; the pair is always returned with the higher target first.", "quantifier": "all groups, all target vectors without NaN, all indices", "why_tests_cant": "Bijection over all groups with arbitrary ties.", "anchors": ["src/loss_func/group.cc: Group::Group, SamplePair"]}
{"id": "C46", "title": "Reranking orders a group by descending prediction", "statement": "Rerank(f) makes rank a bijection from the group's rows to 0..size-1 with f(i) > f(j) implying rank(i) < rank(j).", "quantifier": "all groups, all NaN-free score vectors", "why_tests_cant": "All vectors.", "anchors": ["src/loss_func/group.cc: Group::Rerank"]}
{"id": "C47", "title": "Pairwise losses push rows against each other, group by group", "statement": "For every pairwise loss, in exact arithmetic: whatever pairs are sampled, the gradients of each group sum to zero, a row only receives contributions from pairs of its own group, hessians are non-negative when sampled weights are, rows in groups without pairs get zero, the constant is zero, and the number of pairs sampled is the computed share rounded down (undefined if uint64 can not hold it).", "quantifier": "all groups, sampled pairs, losses, weights", "why_tests_cant": "All random choices.", "anchors": ["src/loss_func/loss_func_pairwise.cc: ComputeFunctionalGradientsAndHessians", "src/loss_func/group.cc"]}
{"id": "C48", "title": "Pairwise losses mishandle missing groups and tie-only groups", "statement": "Reading the groups of a group column has undefined behaviour (index -1 into the group list) exactly when some row's group is \"__missing__\"; otherwise every row belongs to exactly one group, the one with its group string. If all targets of the store are equal, every round converts a NaN to an integer, which is undefined.", "quantifier": "all group columns", "why_tests_cant": "Memory errors are not visible to assertions; all columns.", "anchors": ["src/loss_func/loss_func_pairwise.cc: Pairwise::Init"]}
{"id": "C49", "title": "LambdaMART weights depend on the rank distance through a decreasing discount", "statement": "For dcg base b > 1 the discount log(b)/log(b + rank) is positive, 1 at rank 0 and strictly decreasing; the pair weight is the target difference times the absolute difference of the discounts: non-negative, symmetric in the two rows' ranks and zero exactly if ranks or targets coincide. The constructor's table of discounts is reserved but indexed as if it had elements, which is undefined behaviour, and a base of 1 gives NaN.", "quantifier": "all bases > 1, all ranks, all pairs", "why_tests_cant": "Analytic statement over all ranks and bases.", "anchors": ["src/loss_func/loss_func_lambdamart.cc: ComputeDiscount, PairWeightingFunc"]}
{"id": "C50", "title": "The configuration check accepts exactly the documented ranges, plus NaN rates", "statement": "CheckConfig returns OK iff num_trees > 0, num_leaves > 0 and each sampling rate is not <= 0 and not > 1; a NaN sampling rate is accepted, and then every row is left out.", "quantifier": "all configurations", "why_tests_cant": "All values including NaN.", "anchors": ["src/gbdt_algo/utils.cc: CheckConfig", "src/utils/subsampling.cc: UniformSubsample"]}
{"id": "C51", "title": "Feature loading succeeds exactly when every feature exists", "statement": "LoadFeatures returns OK iff every requested name has a column whose status is OK, and then the list holds exactly the columns of the names in iteration order; otherwise the status is NOT_FOUND or the column's status for the first name that fails, and no columns are returned.", "quantifier": "all name lists, all stores", "why_tests_cant": "All stores and orders.", "anchors": ["src/gbdt_algo/utils.cc: LoadFeatures"]}
{"id": "C52", "title": "Feature importance is the normalised total gain per feature", "statement": "ComputeFeatureImportance lists each feature that splits an internal node exactly once, with its total gain divided by the largest total, in non-increasing order, first entry 1 when gains are positive.", "quantifier": "all forests", "why_tests_cant": "All forests.", "anchors": ["src/gbdt_algo/utils.cc: ComputeFeatureImportance"]}
{"id": "C53", "title": "Evaluation points count down from the forest size in steps of the interval", "statement": "GetTestPoints returns an increasing list of positive tree counts ending in the forest size whose consecutive differences are eval_interval, with first element at most eval_interval; just the forest size if the interval is not positive.", "quantifier": "all sizes and intervals", "why_tests_cant": "All integers.", "anchors": ["src/gbdt_algo/utils.cc: GetTestPoints"]}
{"id": "C54", "title": "Prediction only reads the features the forest reports", "statement": "Two data stores that agree on the columns named by CollectAllFeatures(forest) give the same EvaluateForest result; the names are exactly the features of the splits in the forest. A node with children but no split message reads the column named by the empty string, which is not reported.", "quantifier": "all forests, all pairs of stores", "why_tests_cant": "A two-run (non-interference) property.", "anchors": ["src/gbdt_algo/utils.cc: CollectAllFeatures", "src/gbdt_algo/compute_tree_scores.cc"]}
{"id": "C55", "title": "Python column access is bounds checked, including negative indices", "statement": "get(i) of each Python column class returns the value of row i for 0 <= i < size and raises out_of_range for every other 32-bit i, if the column has at most 2^31 rows; in a longer column the index -1 is row 2^32-1 instead of an error. Iterating over a column gives its values.", "quantifier": "all columns, all 32-bit integers", "why_tests_cant": "The check relies on a signed/unsigned comparison; all integers.", "anchors": ["src/python/column_py.cc: get"]}
{"id": "C56", "title": "Which store errors reach a Python caller", "statement": "Adding a column of mismatched length from Python raises an exception, but adding a column under an existing name raises nothing and leaves the old column in place, because ALREADY_EXISTS is not translated into an exception.", "quantifier": "all stores, all columns", "why_tests_cant": "A missing case in a translation table; exact characterisation over all codes.", "anchors": ["src/python/gbdt_py_base.cc: ThrowException", "src/python/datastore_py.cc: AddStringColumn, AddBucketizedFloatColumn, AddRawFloatColumn"]}
{"id": "C57", "title": "Slicing a Python data store keeps the values of the selected rows", "statement": "slice(indices) of a store gives columns whose row k equals row indices[k] of the original for string and raw float columns always, and for bucketized columns (compared by get, up to the sign of zero) whenever fewer than 2*num_buckets rows are selected and no +infinity occurs; an index that is not a row raises IndexError. It succeeds unless a bucketized column has exactly num_buckets-1 distinct values in the selected rows (see C09).", "quantifier": "all stores, all index lists", "why_tests_cant": "All data.", "anchors": ["gbdt/_data_store.py: slice, copy", "src/python/column_py.cc", "src/data_store/column.cc"]}
{"id": "C58", "title": "Training aborts on a non-finite constant", "statement": "If the loss reports a NaN or infinite constant in some round, TrainGBDT returns INTERNAL and no later round runs; if it returns OK all round constants were finite.", "quantifier": "all losses, all data", "why_tests_cant": "All runs.", "anchors": ["src/gbdt_algo/gbdt_algo.cc: TrainGBDT lines 165-175"]}
{"id": "C59", "title": "Weighted sums do not depend on the number of threads (exact arithmetic) nor on the schedule (IEEE)", "statement": "ComputeWeightedSum equals the sum over the slice of w*g and w*h in exact arithmetic for every thread count; in any arithmetic the result is a function of the slice and the thread count only, not of the order in which workers finish.", "quantifier": "all slices, weights, gradients, thread counts, completion orders", "why_tests_cant": "All schedules.", "anchors": ["src/gbdt_algo/tree_algo.cc: ComputeWeightedSum"]}
{"id": "C60", "title": "Prefix, suffix and trim helpers", "statement": "TrimWhiteSpace returns the input without its maximal white-space prefix and suffix; HasPrefix(s, p) decides prefixhood for every s at least as long as p, and reads past the end of s (undefined behaviour) when s is shorter than p and agrees with it so far.", "quantifier": "all strings", "why_tests_cant": "All strings; out-of-bounds reads are invisible to assertions.", "anchors": ["src/utils/utils.cc: HasPrefix, HasSuffix", "src/utils/utils.h: LTrimWhiteSpace, RTrimWhiteSpace, TrimWhiteSpace"]}
{"id": "C61", "title": "The pass over the rows of a pointwise loss is free of interference, and training with it returns", "statement": "The tasks that compute gradients and partial sums of a pointwise loss can be interleaved in any way: no access is out of range, no task is ever stuck, and the final gradients and totals are those of running the slices in turn. Training with a pointwise loss whose targets and weights cover the rows always returns.", "quantifier": "all losses, data, thread counts and schedules", "why_tests_cant": "Schedules cannot be enumerated by tests.", "anchors": ["src/loss_func/loss_func_pointwise.cc: ComputeFunctionalGradientsAndHessians", "src/gbdt_algo/gbdt_algo.cc: TrainGBDT"]}
{"id": "C62", "title": "Pairwise training is reproducible only with one group", "statement": "With one group, every schedule of the tasks of a round ends with the same gradients and the same generator state. With several groups the tasks draw from one generator without a lock: the gradients depend on the schedule, and two tasks may draw the same number.", "quantifier": "all data, schedules and random streams for one group; two groups as counterexample", "why_tests_cant": "A test sees one schedule.", "anchors": ["src/loss_func/loss_func_pairwise.cc: ComputeFunctionalGradientsAndHessians", "src/utils/subsampling.h: get_generator"]}
{"id": "C63", "title": "A Python column object is valid until its column is deleted", "statement": "A column object obtained from a data store returns the values of that column as long as the name is not erased and the store is neither cleared nor destroyed; after that every access through it is undefined behaviour, even if a column of the same name has been added again.", "quantifier": "all sequences of add, erase, clear, get and access", "why_tests_cant": "Dangling pointers often appear to work in a test; all histories.", "anchors": ["src/python/column_py.h", "src/python/datastore_py.cc: GetStringColumn, RemoveColumnIfExists, Clear"]}
{"id": "C64", "title": "Loading a dictionary or a data frame", "statement": "from_dict keeps the first column listed under a name and drops later ones without an error; a column of another length under a new name raises IndexError. from_df gives every column its documented type, except that a numeric column with the override 'string' is not loaded at all and a column that is not numeric is a string column whatever its override.", "quantifier": "all dictionaries and frames, all overrides", "why_tests_cant": "The failure is silent; all combinations of types and overrides.", "anchors": ["gbdt/_data_store.py: from_dict, from_df"]}
{"id": "C65", "title": "Training from Python checks its arguments first", "statement": "TrainPy returns a forest only from a training on the given store with a known loss, a non-empty set of the configured features, and weights and targets defined on every row (the given lists, else ones and the target column). Lists of the wrong length, no target and a target that is not a raw float column raise ValueError. On a store that was never filled, training with a target column dereferences a null pointer, as does predict_and_output.", "quantifier": "all stores, lists and configurations", "why_tests_cant": "The null dereference needs a particular combination of arguments.", "anchors": ["src/python/train_gbdt_py.cc: TrainPy", "src/python/forest_py.cc: Predict, PredictAndOutput"]}
{"id": "C66", "title": "The training function of the Python package uses exactly the requested features", "statement": "train(features=...) raises ValueError if a requested feature is not a bucketized or string column of the store; otherwise a forest is returned only from a training on exactly the requested features, of which there is at least one and all of which load.", "quantifier": "all stores and feature lists", "why_tests_cant": "All stores and lists.", "anchors": ["gbdt/_gbdt.py: train", "src/python/train_gbdt_py.cc: TrainPy", "src/gbdt_algo/utils.cc: LoadFeatures"]}
{"id": "C67", "title": "Training from the command line", "statement": "In mode train the program returns from main exactly if the configuration, the data store (flat file directories if given, else TSV files, both separated by commas), the optional base model, the loss, weights, targets, the training and the JSON printing all succeed and both output files can be opened; then it wrote the printed forest and the importance report, one feature per line. Otherwise it wrote nothing, or only the model. Modes other than train and test abort. The features are those of both configured lists, each once. Without a weight column all weights are 1; binary targets are 1 if positive, else -1; missing weight, target or group columns and those of the wrong type end the program.", "quantifier": "all flags, file contents, data, random streams", "why_tests_cant": "All combinations of failing steps.", "anchors": ["src/main.cc: main, Train, LoadDataStoreOrDie, FeatureImportanceFormatted", "src/utils/utils.cc: ReadFileToStringOrDie, WriteStringToFile", "src/gbdt_algo/utils.cc: LoadForestOrDie, GetFeaturesSetFromConfig"]}
{"id": "C68", "title": "Testing from the command line", "statement": "In mode test the program writes, for each tree count of GetTestPoints in increasing order, one file (different counts, different names) whose lines are the predictions of that many trees. Testing the model just trained on the same data ends with a file holding the function values training ended with (exact arithmetic).", "quantifier": "all flags, forests, data; exact arithmetic for the second claim", "why_tests_cant": "Relates two runs of the program on all data.", "anchors": ["src/main.cc: Test", "src/gbdt_algo/evaluation.cc: EvaluateForest, WriteScoreFile", "src/gbdt_algo/utils.cc: GetTestPoints"]}
{"id": "C69", "title": "A forest of constants tested on flat files gets no scores", "statement": "A flat file store has no rows until a column is loaded, and a forest whose trees are all single nodes loads no column: all its score files are empty, whatever the data.", "quantifier": "all such forests, all flat files", "why_tests_cant": "Needs a forest without splits (as trained on constant targets) and a lazily loading store.", "anchors": ["src/data_store/data_store.cc: num_rows", "src/data_store/flatfiles_data_store.cc: GetColumn", "src/gbdt_algo/evaluation.cc: EvaluateForest", "src/main.cc: Test"]}
{"id": "C70", "title": "The name of a loss decides what is minimised", "statement": "For every documented loss name the configured loss is the documented formula, over the reals: squared error, logistic and huberized hinge losses of a row; huberized hinge (auc), squared shortfall (gbrank) and logistic losses of a pair; pairs weigh 1 or their target difference, for LambdaMART the change of the DCG on exchanging the rows. Every other name gives no loss.", "quantifier": "all configurations, row targets, function values, pairs", "why_tests_cant": "The names are dispatched over a string table; formulas live in different files with different sign conventions.", "anchors": ["src/loss_func/loss_func_factory.cc: CreateLossFunc", "src/loss_func/loss_func_auc.h", "src/loss_func/loss_func_gbrank.h", "src/loss_func/loss_func_pairwise_logloss.h", "src/loss_func/loss_func_lambdamart.cc", "src/loss_func/loss_func_math.cc"]}
{"id": "C71", "title": "Predictions from Python follow from the values of the table", "statement": "A table given to DataStore.from_dict as lists (fewer than 60000 rows, no +infinity in bucketized columns, columns that can be bucketized) and a forest whose splits name columns of fitting type: Forest.predict returns one score per row, and the score of a row is the sum, from the first tree to the last, of the leaf scores found by comparing the row's own values with the splits (missing as the split says, a number left if below the threshold, a string left if it is in the category list, raw floats right). So neither buckets, category numbers, threads, hash order nor the other rows matter. A forest that names a column which the table does not have raises.", "quantifier": "all tables, forests, hash orders, thread counts >= 1, number systems", "why_tests_cant": "The bucket limits and internal category numbers depend on all values of a column; a test sees only a few columns.", "anchors": ["gbdt/_forest.py", "src/python/forest_py.cc", "src/gbdt_algo/evaluation.cc", "src/data_store/column.cc"]}
{"id": "C72", "title": "Partial dependency measures the effect of one column", "statement": "plot_partial_dependency on a bucketized or string column of such a table pairs every requested value v with, per row, score(row with v in the column) - score(row with the starting value in the column), all other columns as in the given table; values of bucketized columns come in sorted order.  The starting value is x0 if given, else NaN (floats) or the first value (strings).  Unknown and raw float columns raise ValueError, an empty list for a string column without x0 IndexError.", "quantifier": "all tables, forests, value lists, hash orders, thread counts", "why_tests_cant": "The values are set one after the other in one store that is copied once; leftovers of an earlier value would only show for some orders.", "anchors": ["gbdt/_partial_dependency_plot.py"]}
{"id": "C73", "title": "In exact arithmetic the trained forest does not depend on the number of threads", "statement": "With a pointwise loss and real numbers in place of doubles, training with any positive number of threads leaves the same status, the same forest (structure, thresholds, categories, gains and scores) and the same function values.  With doubles this is false: sums are associated differently, and there is a data set on which the sign of a row's value depends on the number of threads.", "quantifier": "all stores, configurations, base forests that fit, targets and weights defined on all rows, positive thread counts", "why_tests_cant": "Whole training runs for all pairs of thread counts.", "anchors": ["src/gbdt_algo/tree_algo.cc", "src/gbdt_algo/gbdt_algo.cc", "src/loss_func/loss_func_pointwise.cc"]}
{"id": "C74", "title": "Predictions are finite and close to the exact sum of the leaf scores", "statement": "With IEEE doubles, for a forest of T <= 2^31 trees whose node scores are finite floats, every prediction is finite and differs from the real sum of the row's leaf scores by at most T * 2^-52 times the sum of their absolute values.  Training leaves only float scores (given a base forest with float scores).", "quantifier": "all forests with finite float scores, stores, rows", "why_tests_cant": "A bound for all forests and rounding patterns; tests see a few sums.", "anchors": ["src/gbdt_algo/evaluation.cc", "src/gbdt_algo/gbdt_algo.cc"]}
{"id": "C75", "title": "From text files to score files", "statement": "Testing a model on TSV files (loaded by any schedule of the pool) or on flat files, with fewer than 60000 rows, no +infinity and bucketizable numeric columns: there is one score file per reported tree count, and its lines are, for the data lines in order over all files, the sums of the leaf scores found by comparing the cells under the column's title (tokens such as ? or NaN, and in flat files anything that is no number, are missing) with the splits of the model.  So both formats of one table give the same files.", "quantifier": "all file contents, configurations, forests, schedules, hash orders", "why_tests_cant": "Composes parsing, bucketizing, scheduling, traversal and output; a test checks a few files under one schedule.", "anchors": ["src/main.cc: Test", "src/data_store/tsv_data_store.cc", "src/data_store/tsv_block.cc", "src/data_store/flatfiles_data_store.cc", "src/gbdt_algo/evaluation.cc"]}
{"id": "C76", "title": "Durations in log messages", "statement": "A duration of at least a second and below 2^31 seconds is written as days, hours below 24, minutes below 60 and tenths of a second, without the parts that are 0, and their sum differs from the duration by at most half a tenth (plus a microsecond of rounding); below a second the whole milliseconds are written.  NaN, infinities and longer durations are undefined behaviour.  The seconds may be written as 60.0 (refuted: they are below 60).", "quantifier": "all doubles", "why_tests_cant": "The split uses rounded quotients: a test of four durations says nothing about the ones next to a multiple of a minute.", "anchors": ["src/utils/stopwatch.cc"]}
{"id": "C77", "title": "Rows count by their weight", "statement": "In exact arithmetic, with example and feature rates that take everything and a pointwise loss: if every row of one data set is a copy of a row of a second (same buckets, categories and target) and the weight of every row of the second is the sum of the weights of its copies, then training on the second leaves the same status, the same forest and the same function values as training on the first.  So identical rows can be merged, rows reordered and rows of weight 0 left out, and the targets of rows of weight 0 do not matter, whatever the numbers of threads.  With doubles the order of the rows matters (refuted).", "quantifier": "all data sets with numeric and categorical columns, weights, targets, base forests, configurations with full sampling, pointwise losses, thread counts, random streams", "why_tests_cant": "It relates two whole training runs on different data; a test compares a few pairs of runs, whose rounding errors hide or fake a difference.", "anchors": ["src/gbdt_algo/gbdt_algo.cc", "src/gbdt_algo/tree_algo.cc", "src/gbdt_algo/split_algo.cc", "src/loss_func/loss_func_pointwise.cc"]}
{"id": "C78", "title": "Predictions at checkpoints from Python", "statement": "Iterating over predict_at_checkpoints with increasing checkpoints between 1 and the number of trees gives, for each checkpoint in order, the scores of all rows of the table under the first trees (as they come back from their decimal text), whatever the temporary directory held before and whatever happens to other files meanwhile. With other checkpoint lists the items for written checkpoints are right; a checkpoint that was not written gives the scores of an earlier call, possibly of another forest, or an exception. Files that cannot be written raise nothing and old scores are given, and two iterations at the same time mix up their scores (refuted). A forest that names a missing column raises an exception at the first call and writes nothing; a generator that gave no item only stops from then on.", "quantifier": "all tables loadable without loss, forests, checkpoint lists, prior file contents, interference with other files", "why_tests_cant": "Tests run one iteration in a clean directory; stale files and interleaved generators only show up across calls.", "anchors": ["gbdt/_forest.py", "src/gbdt_algo/evaluation.cc", "src/python/forest_py.cc"]}
{"id": "C79", "title": "Scores in decimal", "statement": "The text that is written for a finite score denotes a decimal number of at most six significant digits, the closest one to the score (of two the even one), so it is off by at most 5 parts in a million; printing never reverses the order of two scores, and scores of at most six digits are printed exactly. Reading decimal text gives the nearest double, so every score survives being written and read within 5.1 parts in a million, and the text that is read and printed again is the same, if the magnitude is at least 1e-307; zeros, infinities and NaN are unchanged. Distinct scores may get the same text, and below 1e-307 the text may change (refuted).", "quantifier": "all doubles; all decimal texts up to the largest double", "why_tests_cant": "Decimal conversion fails on rare values at powers of ten, ties and the ends of the range, which samples miss.", "anchors": ["src/gbdt_algo/evaluation.cc", "src/main.cc", "gbdt/_forest.py"]}
{"id": "C80", "title": "Bagging", "statement": "With at least one bag every row is left out of exactly one bag, and the file of weights that is written for a bag is loaded as a column with 0 for the rows left out and 1 for the others; it has as many rows as the data if no row of the file that is counted is blank. The out of bag score of a row is the score of the one forest trained without it, and in exact arithmetic with a pointwise loss it does not depend on the target of that row; the in bag score is the average over the other bags. The script does not get that far: the configuration it writes is rejected, so no bag is trained; with one bag the in bag score divides by zero; blank rows are not counted (refuted).", "quantifier": "all hash functions, numbers of bags and rows, score lists, data sets, targets, pointwise losses, configurations", "why_tests_cant": "That a score does not depend on a value is a statement about pairs of whole training runs; a test tries a few values.", "anchors": ["scripts/bagged.py", "src/utils/json_utils.cc", "src/proto/config.proto", "src/gbdt_algo/gbdt_algo.cc"]}
{"id": "C81", "title": "Units of weights and targets", "statement": "In exact arithmetic, training of a pointwise loss with all weights multiplied by a positive number, and the L2 penalty, the smallest hessian and the smallest gain multiplied likewise (where the built-in smallest gain 1e-6 is no limit), ends the same way with the same forest and function values, except that the gains are multiplied; a single tree also keeps its shape when the gradients are multiplied. With squared error, adding a number to all targets adds it to the constant and all function values and changes nothing else, if the weighted mean of the targets is 0 or larger than 1e-4 in size before and after. Without scaling the limits, or with a mean of at most 1e-4 that is not 0, both fail: the absolute convergence threshold leaves the mean in the gradients, so the function values become twice the targets (refuted).", "quantifier": "all data sets, weights, targets, configurations, random numbers, positive factors and shifts; base forests for the weights; exact arithmetic", "why_tests_cant": "Invariance relates two trainings; a test compares one run with expected numbers and does not notice a constant that depends on the unit of the targets.", "anchors": ["src/gbdt_algo/tree_algo.cc", "src/gbdt_algo/split_algo.cc", "src/gbdt_algo/gbdt_algo.cc", "src/loss_func/loss_func_pointwise.cc"]}
{"id": "C82", "title": "Units of feature values", "statement": "Multiplying all values of a float feature by a power of two, each feature by its own, changes nothing but the thresholds: training ends the same way, with the same function values, and with the same trees, categories, gains and scores, whatever the loss and the arithmetic, also when it continues from the forest. Thresholds halfway between two values sort new values alike too. Bucketizing sees only the order of the values: replacing them by others in the same order keeps every bucket number. The order alone does not decide about training, because a row without gradient is invisible to the search and falls on the side where the halfway point leaves it; and the threshold that divides missing values from the others lies 0.001 below the smallest value whatever the unit, so new rows can be sorted differently (both refuted).", "quantifier": "all data sets with values that are missing, zero or of size between 2^-100 and 2^100 before and after, all powers of two per feature, all losses, configurations, random numbers, thread counts and arithmetics", "why_tests_cant": "The claim relates two trainings on different data; thresholds come from two rounded float operations whose scaling has to be shown for all pairs of limits, including the last bucket that ends at the largest float.", "anchors": ["src/data_store/column.cc", "src/gbdt_algo/split_algo.cc", "src/gbdt_algo/tree_algo.cc", "src/gbdt_algo/gbdt_algo.cc"]}
{"id": "C83", "title": "Converting TSV text to flat files", "statement": "For text without quotes the converter writes one file per title, named after the title with blanks and slashes replaced, holding the type line and then the cells of that column, line by line; a line with more cells than titles ends it. Columns listed as strings or raw floats load from these files exactly as the TSV loader loads them from the text, if no value starts with '#'. Columns listed nowhere are written with the type `binned_floats`, which the loader does not know, so they never load. Refuted: values that start with '#' (the loader drops the row), different titles always having different files, and text with quotes (a quote swallows tabs and lines).", "quantifier": "all texts, delimiters, lists of columns and directories", "why_tests_cant": "The claim composes three parsers (Python's csv automaton, the flat file loader, the TSV loader) on all texts; no test in the repository runs the script.", "anchors": ["scripts/convert_tsv_to_filatfiles.py", "src/data_store/flatfiles_data_store.cc", "src/data_store/tsv_data_store.cc"]}
{"id": "C84", "title": "Drawings of trees", "statement": "The visualizer of the Python package draws a tree with one shape per node, named after the path to it, and one arrow from every node to each of its children; labels hold the feature, the threshold rounded to three decimals or the categories, a star at the side that missing values take, and the score rounded to six decimals. It fails exactly if a score or threshold is NaN or infinite. Trees with the same drawing have the same shape. The script draw_trees.py writes the same nodes and arrows as text. Refuted: the script shows on which side missing values go (it draws the same whatever the side); values equal to the threshold go left, as the label `<=` says (they go right); different trees have different drawings; the visualizer's main program works for a forest of one tree; names with apostrophes are safe in the script.", "quantifier": "all trees whose nodes have no or two children, all names, numbers and positions in the forest", "why_tests_cant": "Claims about all trees, and failures for numbers that only appear as strings in JSON; nothing in the repository tests the drawing code.", "anchors": ["gbdt/_forest_visualizer.py", "scripts/draw_trees.py", "src/utils/json_utils.cc", "src/proto/tree.proto"]}
{"id": "C85", "title": "Metrics of ranked groups and root of the mean squared error", "statement": "compute_metrics.py splits the rows into runs with the same group line, ranks each run by falling score (stable), and prints, for all targets together and for every target, the sum over the groups of the targets discounted by ln(2.4)/ln(rank+2.4) and the number of rows, each by the number of groups. No scores give a larger total than the targets used as scores; only the order of the scores matters (in any arithmetic). compute_rmse.py prints the root of the mean squared difference; it is zero only if all scores equal the responses, and changes by no more than the largest change of a score. Refuted: the average number of rows is printed (it is rounded down); a missing score or target is an error (the last group is left out silently); a newline after the last group line does not matter; the order of rows does not matter (it does for equal scores); compute_rmse.py prints nothing for files of different lengths.", "quantifier": "all files, all readings of numbers, all numbers of rows and groups; exact numbers for the values", "why_tests_cant": "Claims about all orders of rows and all scores (optimality of a ranking, continuity); the silent loss of the last group shows only for files of different lengths, and no test of the repository runs the scripts.", "anchors": ["scripts/compute_metrics.py", "scripts/compute_rmse.py"]}
{"id": "C86", "title": "Features that add nothing change nothing", "statement": "When all rows and features are sampled and the loss looks at one row at a time, training with additional features that add nothing - raw columns, columns whose rows do not differ (all values equal or all missing), and copies under other names of features in front of them - gives the same status, forest and function values as training without them, at any position of the random stream. Refuted: the same with sampling of rows (an added constant column uses up random numbers); for copies in front of their originals (the copy takes the place of the original); for columns that are constant except for missing rows (they tell which rows are missing).", "quantifier": "all data stores, features, configurations, losses without random numbers, base forests, thread counts, random streams; any ordered arithmetic, doubles included", "why_tests_cant": "A claim about pairs of training runs on all data sets and all places of the added columns; the tests train on fixed features.", "anchors": ["src/gbdt_algo/gbdt_algo.cc", "src/gbdt_algo/tree_algo.cc", "src/gbdt_algo/split_algo.cc", "src/utils/subsampling.cc"]}
{"id": "C87", "title": "The order of the rows", "statement": "Take the same rows in another order, cut into blocks differently. A numeric column with at most 100 values per bucket, in which equal values are identical, gets the same bucket limits and the same least values, and every row keeps its bucket; if one order loads without undefined behaviour, so does the other. The dictionary of a text column is exactly the list of its strings in the order in which they first appear; if that order is the same, every row keeps its category. If all columns are like that and every row keeps its weight and target, then in exact arithmetic, when all rows and features are sampled, training for a loss of one row each leaves the same status, the same forest and the same function value of every row. Each condition is needed: with other orders of strings categories that tie are divided differently; beyond 100 values per bucket the limits come from the first rows, and the order even decides whether loading has undefined behaviour; with +0 beside -0 the limit is the first of them.", "quantifier": "all tables, all permutations of their rows and all ways to cut them into blocks; all configurations, losses of one row each, base forests, thread counts, random streams", "why_tests_cant": "A claim about pairs of runs on all data sets and all permutations; the tests load fixed tables in one order.", "anchors": ["src/data_store/column.cc", "src/data_store/column.h", "src/gbdt_algo/gbdt_algo.cc", "src/gbdt_algo/split_algo.cc"]}
{"id": "C88", "title": "One tree stays within the range of the targets", "statement": "A forest trained for the mse loss with one tree, no base forest, a shrinkage between 0 and 1 and l2_lambda >= 0 predicts, for any row of any store (trained on or not), a value between the smallest and the largest target of a row of positive weight, in exact arithmetic and if the weighted mean of the targets is larger than 0.0001 in absolute value. If the mean is smaller it is added twice (the gradients are those before the constant), and the range is exceeded by at most 0.0001: five targets of 2^-14 are predicted as 2^-13. With two trees predictions can leave the range: for targets of 0 and 24, 32 is predicted.", "quantifier": "all data sets with non-negative weights not all 0, all rows predicted, all configurations with one tree, samplings of rows and features, thread counts, random streams", "why_tests_cant": "A bound on the predictions for all possible rows and all trainings; tests compare some predictions with expected values.", "anchors": ["src/gbdt_algo/gbdt_algo.cc", "src/gbdt_algo/tree_algo.cc", "src/loss_func/loss_func_pointwise.cc", "src/loss_func/loss_func_math.cc"]}
{"id": "C89", "title": "Names do not matter", "statement": "If the columns get other names (different ones stay different, the empty name stays) and the categories of the string columns and the groups other strings (in each column different ones stay different, __missing__ stays), if the configuration and the base forest are renamed alike and the sets of feature names are walked through in the same order, then the weights, targets and the loss come out the same, and TrainGBDT returns the same status and function values and the same forest with the new names and strings: same shape, scores, thresholds and gains. The renamed forest gives the renamed data the same scores, finally and at every checkpoint, and the feature importances are those of the features renamed. For every loss function and in any arithmetic, hence also in doubles. The order of the set does matter: of two features that split equally well the first wins; and a group whose string becomes __missing__ makes the pairwise losses write out of bounds.", "quantifier": "all renamings, data sets, configurations, loss functions, base forests, thread counts, samplings, random streams and arithmetics", "why_tests_cant": "An equality of two whole trainings for every renaming; tests use one set of names.", "anchors": ["src/gbdt_algo/gbdt_algo.cc", "src/gbdt_algo/tree_algo.cc", "src/gbdt_algo/split_algo.cc", "src/gbdt_algo/evaluation.cc", "src/gbdt_algo/utils.cc", "src/data_store/column.cc", "src/loss_func/loss_func_pairwise.cc"]}
{"id": "C90", "title": "Loading TSV files from Python", "statement": "load_tsv and DataLoader.from_tsvs, called with three lists of distinct names that are all titles of the first file, have one outcome whatever the thread schedule. Either the store holds exactly the columns asked for, each of the type of its list, with the cells under its title in all data lines of all files in order (strings and raw floats exactly, bucketized floats as in C55), len() is the number of data lines, and to_df hands pandas each column once with these values; or an exception is raised and the old contents of the store are kept: IndexError for a line with too few cells, ValueError for a cell that is neither a number nor a missing token, RuntimeError for a file that can not be opened, for the first such line of the first such file; or bucketizing divides by zero (C09). An empty list of files raises ValueError; a first file that can not be opened and a name that is no title raise RuntimeError; the old contents stay. Naming a column twice (for example as a bucketized and as a raw column) is undefined behaviour if the first file is readable.", "quantifier": "all file contents, lists of files and names, old stores and thread schedules (fewer than 2^31 data lines)", "why_tests_cant": "Thread schedules and arbitrary file contents; tests load one file on one schedule and do not look at the store after a failure.", "anchors": ["src/python/datastore_py.cc", "gbdt/_data_store.py", "src/data_store/tsv_data_store.cc", "src/data_store/tsv_block.cc", "src/python/gbdt_py_base.cc"]}
{"id": "C91", "title": "Indexing and repr of data stores", "statement": "For a data store whose columns hold the same number of rows, ds[a, b] (a tuple) has the same columns with the values of the rows from a up to b (as in C57: bucketized values up to the sign of zero), if 0 <= a, b <= len(ds) and b - a < 29999; ds[i] has the single row i; if a >= b the columns are empty wherever a and b are. A row below 0 or not below len(ds) raises IndexError: negative rows do not count from the end and ranges are not cut short. ds[name] is the listed column of that name, ValueError if there is none. repr(column) shows the type, the first ten values with commas between them, strings in quotation marks, and ' ...' exactly if there are more than ten; equal texts of columns with plain values (strings without quotation marks, float texts that are not empty and have no comma, blank or bracket) mean equal types, equally shown first values and the same answer to 'more than ten'. Quotation marks are not escaped: a column of one string can show the same text as a column of two. repr(ds) tells the number of columns of each type and the number of rows, 'Empty data store.' exactly for a store without contents; equal texts of stores mean equal numbers.", "quantifier": "all stores, keys, columns and float formats (fewer than 2^31 rows)", "why_tests_cant": "All stores and indices, and the converse (what a text tells about the data), cannot be tested; tests do not look at repr at all.", "anchors": ["gbdt/_data_store.py", "src/python/column_py.cc", "src/python/datastore_py.h", "src/data_store/data_store.cc"]}
{"id": "C92", "title": "The constant of a round", "statement": "In exact arithmetic, each round of a pointwise loss visits constants from 0 on by Newton steps (sum of weighted gradients over sum of weighted hessians, no step if the latter is 0), stops at the first step of at most 1/10000 or after ten, returns the last constant and the gradients at the last but one. For mse, logloss, huberized_hinge and squared_hinge (targets -1 and 1 for the last three) with weights >= 0 no step goes uphill, and a step is 0 exactly at a constant of least loss (unless the hessians vanish). If fewer than ten steps are taken, the last constant but one loses against any other constant at most 1/10000 of the sum of the weights (a quarter for logloss, twice for mse and squared_hinge) per unit of distance. Logloss from function values 0 with both classes: the logarithm of the odds ln(P/M) is the only best constant; the steps come nearer from one side, never pass it and never raise the loss. With one class only, all ten steps are taken and the constant ends between 10 and 20 (or -20 and -10). Huberized hinge from function values 0: the constant is exactly the best one, 1 - M/P or P/M - 1, unless the first step is already short. From other function values this is false: the steps can go too far, stop where all hessians are 0 and raise the loss (13/8 to 35/2 in doubles).", "quantifier": "all numbers of rows and threads, weights, targets, function values (exact real arithmetic); the refutation in IEEE doubles", "why_tests_cant": "Optimality against all constants and the behaviour of Newton's method for all data are statements about infinitely many inputs; the overshoot needs function values as a base forest or earlier rounds leave them.", "anchors": ["src/loss_func/loss_func_pointwise.cc", "src/loss_func/loss_func_math.cc", "src/loss_func/gradient_data.h"]}
{"id": "C93", "title": "A round with any pointwise loss", "statement": "In exact arithmetic with all rows sampled, every round of training with mse, logloss or huberized_hinge adds to each function value the constant of C92 and the shrunken Newton step (sum of weighted gradients over sum of weighted hessians plus l2_lambda) of the training rows in the row's leaf, both taken at the last Newton constant but one. From those function values the tree points downhill, strictly unless all its scores are 0 (weights and l2_lambda >= 0). The shrunken step does not raise the loss if in every leaf shrinkage * weight * largest hessian of a row (1, for logloss 1/4) is at most twice the regularised hessian: for mse every shrinkage up to 2. If l2_lambda is at least shrinkage * total weight * largest hessian, then after a round with fewer than ten Newton steps the loss exceeds that at the last constant but one by at most 10^-8 of the total weight (a quarter of it for logloss, twice for mse); for the first round of logloss without base forest, with both classes present, the same holds against the loss before the round. Without that penalty it is false: with huberized_hinge, shrinkage 1 and no penalty the first tree can raise the training loss (51/2 to more than 26 in doubles, four rows), because rows on the linear part of the hinge have no hessian.", "quantifier": "all data sets, weights, targets, base forests, numbers of trees and threads (exact real arithmetic); the refutation in IEEE doubles", "why_tests_cant": "The bounds hold for all data and compare against all function values; whether a tree raises the loss depends on gradients and hessians inside a leaf, which tests of single losses do not combine.", "anchors": ["src/gbdt_algo/gbdt_algo.cc", "src/gbdt_algo/tree_algo.cc", "src/loss_func/loss_func_pointwise.cc", "src/loss_func/loss_func_math.cc"]}
{"id": "C94", "title": "A forest survives saving and loading", "statement": "A forest written as JSON and loaded again (trees present, numbers of the fields' types, no finite float of the largest magnitude) is the same forest, except that -0 becomes 0; not-a-numbers and infinities are kept. On every data store and with every number of threads it gives exactly the same scores or fails in the same way, and saving and loading it again changes nothing. This needs the decimal texts to stand for the numbers: six digits of a float that read back or else the nearest nine digits are enough, read as the nearest double and then narrowed, and fifteen or seventeen digits of a double. Eight digits of a float are not enough (10000 + 21/1024 becomes the next float), and the largest float is written as a number that is refused when loaded. Objects of a forest or of its trees with fields of other names are refused; an object without fields is a forest without trees. In all objects a field may have its declared name or its camel case name, the fields may come in any order, and fields with default values (0, false, empty text, empty list) may be left out, without changing what is loaded.", "quantifier": "all forests, meta texts, stores, thread counts and all writers of decimal texts with the stated digits", "why_tests_cant": "All floats are covered, and digit counts that are one too small fail for few floats only.", "anchors": ["src/utils/json_utils.cc", "src/proto/tree.proto", "src/python/forest_py.cc", "gbdt/_forest.py", "src/gbdt_algo/evaluation.cc"]}
{"id": "C95", "title": "A trained forest can be saved and loaded", "statement": "Whatever the loss, the data, the number of threads, the random draws and the base forest (if its own numbers are of their types), training returns a forest whose scores and thresholds are values of a float, whose gains are values of a double, and in which no tree is missing. If training succeeds, every split has a condition of exactly one kind and no leftover bucket numbers. So the saved forest (C94) is read back as it was, but for signs of zeros, and gives exactly the same scores or the same failure on every store, unless one of its scores or thresholds is the largest float. A forest trained on targets that are all the largest float is refused when loaded.", "quantifier": "all seven losses, stores, targets, weights, configurations, thread counts, draws, base forests, exp and log functions that give doubles, and writers of decimal texts", "why_tests_cant": "Tests save forests of a few trainings; a score kept in double precision or a leftover bucket number would show only in some of them.", "anchors": ["src/gbdt_algo/gbdt_algo.cc", "src/gbdt_algo/tree_algo.cc", "src/gbdt_algo/split_algo.cc", "src/loss_func/loss_func_factory.cc", "src/utils/json_utils.cc"]}
{"id": "C96", "title": "The text of a saved forest", "statement": "The texts that are read as JSON are exactly those of the grammar of RFC 8259 (without null and escaped code points beyond 16 bits), and each is read as the value it stands for: blanks between tokens, escapes in strings and other spellings of a number make no difference, and no text has two readings. What is written for a forest is such a text of its JSON form, whatever characters occur in feature names, categories and the note; the nine, fifteen or seventeen digits of a number denote what C94 says. So the model file of the command line program, read again, is the forest that was trained, but for signs of zeros, unless one of its floats is the largest one - also if training started from the model file of another forest. Whatever text is accepted as a forest or a configuration, its numbers are values of their types.", "quantifier": "all texts, forests, notes, configuration files, base model files, data stores, thread counts and draws", "why_tests_cant": "Tests read a few model files; strings with quotes, control characters or backslashes, numbers in exponent notation and hand-written files need all texts.", "anchors": ["src/utils/json_utils.cc", "src/main.cc", "src/gbdt_algo/utils.cc", "src/python/forest_py.cc", "src/proto/tree.proto"]}
{"id": "C97", "title": "The options of a configuration", "statement": "A text is accepted as a configuration exactly if it is a JSON object whose fields are options of config.proto, each named at most once, by its declared name or in camel case, with values of their types (whole numbers that fit into 32 bits, however written; floats up to the largest; NaN and infinities as strings). Each option then has the value that is written, and an option that is left out is 0, false or empty. Consequences: without num_trees, num_leaves or one of the two sampling rates training is refused, so the command line program never succeeds; without shrinkage training succeeds, but every tree behind the constant has only zeros (or NaN) as scores. The Python package replaces the two feature lists, adds the sampling rates 1 if they are missing and changes nothing else; using the changed dictionary again makes no difference. It does not see names in camel case: with exampleSamplingRate in the dictionary its text names the option twice.", "quantifier": "all texts, dictionaries, stores, targets, losses, thread counts and draws", "why_tests_cant": "Tests use complete configurations; wrong types, left-out options and mixed spellings of 22 options are too many to try.", "anchors": ["src/proto/config.proto", "src/utils/json_utils.cc", "src/main.cc", "src/python/train_gbdt_py.cc", "gbdt/_gbdt.py"]}
{"id": "C98", "title": "A loaded forest does what the saved one did", "statement": "A forest loaded from its text differs from the saved one in the signs of zeros at most (C94), and that is never seen: both give bit for bit the same scores at every checkpoint or fail in the same way, have the same feature importance, and training that starts from either has the same status, the same function values and again forests that differ in signs of zeros at most. So after the command line program has trained (no float of the largest magnitude), a later test run that is given the model file writes exactly the files it would write with the trained forest itself, and a training that is given it as base ends in the same way. The texts themselves can differ: a score -0 is written -0 the first time and 0 after loading.", "quantifier": "all forests, stores, configurations, losses, draws, thread counts and file systems", "why_tests_cant": "Zeros of both signs arise in few data sets, and a difference would need two programs run on the same data for all data.", "anchors": ["src/gbdt_algo/compute_tree_scores.cc", "src/gbdt_algo/evaluation.cc", "src/gbdt_algo/gbdt_algo.cc", "src/gbdt_algo/utils.cc", "src/utils/json_utils.cc", "src/main.cc"]}
{"id": "C99", "title": "Progress messages", "statement": "During a training with a pointwise loss one progress message is logged for each tree that is added, also when the training stops early because it diverges (the diverging round logs none). The loss it names is the weighted mean of the row losses where the last Newton step of the round's constant starts, not of the function values before or after the round; computing it does not change constant or gradients. Every percentage is relative to the first reported loss, as long as that is not negative, and 0 if it is 0. In exact arithmetic and with all rows sampled, for mse with weights that are not negative (and not all 0), shrinkage in [0,1] and l2_lambda not negative, the reported losses never rise, never fall below the loss of the final function values, and the percentages lie between 0 and 100 and never fall. For huberized_hinge reported losses can rise (negative percentage); with weights that are all 0 both numbers are NaN; with negative weights the first loss can be negative, and then all percentages compare the message with itself.", "quantifier": "all data sets, weights, targets, losses, configurations, thread counts, base forests, numbers of rounds", "why_tests_cant": "Log texts are not asserted in any test; whether they are monotone depends on all rounds of all data sets, and the message uses the total of the last pass of a loop with a data-dependent number of passes.", "anchors": ["src/loss_func/loss_func_pointwise.cc", "src/loss_func/loss_func_pointwise.h", "src/gbdt_algo/gbdt_algo.cc"]}
{"id": "C100", "title": "A round with a pairwise loss", "statement": "In exact arithmetic with all rows sampled for the tree, every round of training with auc, pairwise_logloss, gbrank or lambdamart draws pairs of rows of the groups and adds to each function value the shrunken Newton step of the rows in its leaf (sum of weighted gradients over sum of weighted hessians plus l2_lambda), where the gradients and hessians of the rows are those of the drawn pairs. If all rows have the same positive weight, the loss of the drawn pairs does not rise when in every leaf shrinkage * row weight * weight of the drawn pairs that meet the leaf * largest hessian of a pair (1, for the logistic losses 1/4) is at most the leaf's hessian plus l2_lambda; this holds if l2_lambda is at least 2 * shrinkage * row weight * largest hessian * weight of all drawn pairs, and, because hessians of pairs are added doubled to both rows, with any l2_lambda >= 0 and shrinkage of at most 2 whenever the rows of the drawn pairs have equal function values, as in the first round without base forest. Rows of different weight enter the weight of a pair and again the sums of a leaf, and then even the first round can raise the loss; so can a later round without l2_lambda.", "quantifier": "all data sets, targets, groups, draws, base forests, numbers of trees and threads (exact real arithmetic); the refutations in IEEE doubles", "why_tests_cant": "Whether the loss of the drawn pairs falls depends on how pairs, leaves and draws meet; tests look at gradients of single rounds or the final metric of one data set.", "anchors": ["src/loss_func/loss_func_pairwise.cc", "src/loss_func/loss_func_lambdamart.cc", "src/loss_func/loss_func_math.cc", "src/gbdt_algo/gbdt_algo.cc", "src/gbdt_algo/tree_algo.cc"]}
{"id": "C101", "title": "Progress messages of pairwise losses report the mean loss of the pairs used", "statement": "A training with auc, pairwise_logloss, gbrank or lambdamart logs one message for each tree it adds, and the round that prepares a message changes nothing else. In exact arithmetic and for every schedule of the tasks, the reported loss is the weighted mean of the losses, at the function values before the round, of exactly those sampled pairs whose gradients the round adds to the rows and from which its tree is built. All percentages refer to the first reported loss if it is not negative. With weights that are not negative and sampled pairs of positive total weight the loss is not negative and the percentage at most 100; without a base forest the first loss is 1/2 for auc, ln 2 for pairwise_logloss and lambdamart, and the weighted mean of the squared target differences for gbrank. Refuted: that the messages always contain numbers (if no group gives a pair, loss and percentage are NaN), and that the reported loss falls.", "quantifier": "for all data, groups, targets, weights, configurations, random streams, thread counts and schedules; counts and percentages for any number type, the values in exact arithmetic with all rows sampled", "why_tests_cant": "Tests do not look at log messages, and the sampled pairs differ from run to run with the schedule, so no expected loss can be written down for more than one thread.", "anchors": ["src/loss_func/loss_func_pairwise.cc", "src/loss_func/loss_func_pairwise.h", "src/gbdt_algo/gbdt_algo.cc"]}
{"id": "C102", "title": "Pairwise losses see only the order, or only the distances, of the targets inside groups", "statement": "With loss auc or pairwise_logloss and without pair weighting by delta target, two target columns without NaN that order the rows of every group alike give the same training: the same status, forest and function values, in any arithmetic, whatever the other rows, weights, sampling and base forest. With any of the four pairwise losses and any pair weighting, two columns of finite targets with the same distances between the rows of every group (for example a number added to all targets of a group) give the same training, in exact arithmetic and also bit for bit in doubles if no target is -0. The sort is any that orders correctly and looks only at comparisons of the elements it gets. For gbrank, or with weighting by delta target, the order alone is not enough; for mse the distances are not enough.", "quantifier": "all data, target columns, group columns without missing groups, configurations, weights, base forests, thread numbers, random streams, queues and sorts that depend only on comparisons", "why_tests_cant": "A relation between two trainings on all pairs of target columns; tests train on one column.", "anchors": ["src/loss_func/loss_func_pairwise.cc", "src/loss_func/group.cc", "src/loss_func/loss_func_auc.h", "src/loss_func/loss_func_gbrank.h", "src/loss_func/loss_func_pairwise_logloss.h", "src/loss_func/loss_func_lambdamart.cc"]}
{"id": "C103", "title": "With a pairwise loss only the distances of base predictions inside groups matter", "statement": "In exact arithmetic, with any pairwise loss: if two base forests (or none) predict values with the same distances between the rows of every group, continuing from them gives the same status and the same new trees, and every function value grows by the same amount; each trained forest keeps the non-constant trees of its own base in front of the new ones. In particular a constant tree in front of the base forest is added to the constant of the trained forest and to all function values and changes nothing else. In doubles this fails for constants large enough to absorb the scores of the trees.", "quantifier": "all data, targets without NaN, group columns without missing groups, configurations, weights, pairs of base forests that can be evaluated, thread numbers, random streams, queues and sorts that depend only on comparisons", "why_tests_cant": "A relation between two trainings for all pairs of base forests; the tests train without base forest or with one fixed one.", "anchors": ["src/gbdt_algo/gbdt_algo.cc", "src/loss_func/loss_func_pairwise.cc", "src/loss_func/group.cc"]}
{"id": "C104", "title": "With a pairwise loss the weights of rows count three times", "statement": "In exact arithmetic, with any pairwise loss (auc, gbrank, pairwise_logloss and lambdamart among them): training with all weights multiplied by a > 0 gives the same status, the same function values, the same progress messages and the same forest up to gains multiplied by a*a*a, if l2_lambda, min_hessian and the smallest gain are multiplied by a*a*a, because a pair weighs the product of its rows' weights and the tree weights every row's gradient again. If instead the weights of the rows of every group are multiplied by a factor of the group, a round samples the same pairs and the product of weight and gradient of every row is multiplied by the third power of its group's factor. Limits multiplied by a or a*a do not do, and equal_group_weight does not undo the weights of a group.", "quantifier": "all data, weights, targets, configurations, base forests, thread numbers, random streams, queues that do not depend on units, sorts and loss functions of pairs (for factors of groups: targets without NaN, group columns without missing groups, every state of the loss object that trainings reach)", "why_tests_cant": "A relation between two trainings for all inputs and factors; the tests of the pairwise losses use one set of weights.", "anchors": ["src/loss_func/loss_func_pairwise.cc", "src/gbdt_algo/tree_algo.cc", "src/gbdt_algo/gbdt_algo.cc"]}
{"id": "C105", "title": "With gbrank the unit of the targets is the unit of the scores", "statement": "In exact arithmetic: training with gbrank on targets multiplied by s > 0, from a base forest whose scores are multiplied by s, gives the same status and the same trees with all scores and function values multiplied by s and all gains by a*s*s, and progress messages with losses multiplied by s*s and unchanged reductions, if l2_lambda and min_hessian are multiplied by a and the smallest gain by a*s*s. Here a is 1, or s if pairs are weighted by the difference of their targets. So without pair_weight_by_delta_target l2_lambda means the same in all units, and with it it has to grow with the unit; l2_lambda treated the other way gives other scores. auc has no such unit: its scores stay as they are.", "quantifier": "all data, weights, finite targets, factors s > 0, configurations, base forests, group columns without missing groups, thread numbers, random streams, picks of pairs, sorts that only compare, queues that do not depend on units", "why_tests_cant": "A relation between two trainings for all inputs and factors; no test trains with gbrank or looks at its gradients.", "anchors": ["src/loss_func/loss_func_pairwise.cc", "src/loss_func/loss_func_gbrank.h", "src/loss_func/loss_func_math.cc", "src/gbdt_algo/gbdt_algo.cc"]}
{"id": "C106", "title": "With auc, pairwise_logloss and lambdamart targets have no unit or count as weights", "statement": "In exact arithmetic: training with auc, pairwise_logloss or lambdamart on targets multiplied by s > 0 gives the same status, the same function values, the same progress messages and the same forest up to gains multiplied by a, if l2_lambda, min_hessian and the smallest gain are multiplied by a. Here a is s for lambdamart, s for auc and pairwise_logloss if pairs are weighted by the difference of their targets, and 1 otherwise. So lambdamart needs another l2_lambda in other units even without pair_weight_by_delta_target, and the same one gives other scores.", "quantifier": "all data, weights, finite targets, factors s > 0, configurations, base forests, group columns without missing groups, thread numbers, random streams, picks of pairs, sorts that only compare, queues that do not depend on units", "why_tests_cant": "A relation between two trainings for all inputs and factors; the tests of these losses look at the gradients of one set of targets.", "anchors": ["src/loss_func/loss_func_pairwise.cc", "src/loss_func/loss_func_lambdamart.cc", "src/loss_func/loss_func_auc.h", "src/loss_func/loss_func_pairwise_logloss.h", "src/gbdt_algo/gbdt_algo.cc"]}
