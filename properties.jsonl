{"id": "C01", "title": "Fitted accuracy tree is optimal", "statement": "Fitting with the accuracy task returns a tree whose number of misclassified training instances is the minimum over all binary decision trees on the given binary features that respect max-depth, max-num-nodes and min-leaf-node-size, whenever any such tree exists and the time limit is not hit.", "quantifier": "every training set, every number of features and labels, every depth/node/leaf-size budget and every setting of the bounding, caching, similarity and terminal-solver switches", "why_tests_cant": "the set of competing trees and of datasets is unbounded; a test can only compare against brute force on a few small datasets", "anchors": ["src/solver/solver.cpp: Solver::Solve, SolveSubTree, SolveSubTreeGeneralCase, SolveTerminalNode", "src/solver/terminal_solver.cpp: TerminalSolver::Solve", "include/tasks/accuracy/accuracy.h"]}
{"id": "C02", "title": "Returned tree respects the size budgets", "statement": "The tree returned by fit never has depth above max-depth, never more branching nodes than max-num-nodes, and every leaf holds at least min-leaf-node-size training instances.", "quantifier": "every dataset and every budget and switch setting", "why_tests_cant": "the tree is rebuilt from cached sub-solutions, so a violation can depend on the whole search history", "anchors": ["src/solver/solver.cpp: ConstructOptimalTree, SatisfiesMinimumLeafNodeSize", "src/solver/terminal_solver.cpp: ConstructOptimalTree"]}
{"id": "C03", "title": "Reported training score is the tree's real score", "statement": "The training score reported with a fitted accuracy tree equals the value obtained by sending every training instance down the returned tree and counting errors.", "quantifier": "every tree and every dataset, including features the solver flipped internally", "why_tests_cant": "needs to hold for all trees and all flipped-feature patterns", "anchors": ["include/solver/tree.h: ComputeTrainScore, ComputeTestScore, FlipFlippedFeatures", "include/solver/result.h: InternalTrainScore"]}
{"id": "C04", "title": "The proven-optimal flag can be trusted for a fresh fit", "statement": "If a fresh fit reports that its result is proven optimal, then the clock never expired during the search and the returned objective value is the optimum; the point at which the time limit strikes is irrelevant.", "quantifier": "every moment at which the time limit may expire", "why_tests_cant": "the expiry moment is a schedule; tests cannot enumerate all interleavings of the clock with the search", "anchors": ["src/solver/solver.cpp: Solve lines 113,138,168,174, SolveSubTree line 280, SolveSubTreeGeneralCase lines 399,463,479", "include/utils/stopwatch.h"]}
{"id": "C05", "title": "Algorithmic switches never change the objective value", "statement": "Turning upper bounding, lower bounding, the similarity bound, branch or dataset caching on or off, or choosing another feature order, does not change the training error of the returned tree.", "quantifier": "all pairs of switch settings on all datasets", "why_tests_cant": "quantifies over all pairs of configurations and all datasets", "anchors": ["src/solver/solver.cpp", "src/solver/cache.cpp", "src/solver/similarity_lowerbound.cpp", "include/solver/feature_selector.h"]}
{"id": "C06", "title": "Depth-two search is optimal for every minimum leaf size", "statement": "With min-leaf-node-size m the specialised depth-two search finds the best tree with at most three branching nodes whose leaves all hold at least m instances.", "quantifier": "every dataset and every m", "why_tests_cant": "a wrong skip condition only shows on particular count patterns for m >= 2", "anchors": ["src/solver/terminal_solver.cpp: Solve lines 52-62"]}
{"id": "C07", "title": "All-trees mode finds the optimum", "statement": "With all-trees enabled, fit still returns a tree of minimum training error within the budgets.", "quantifier": "every dataset and every budget", "why_tests_cant": "depends on lower bounds left behind by earlier iterations of the same fit", "anchors": ["src/solver/solver.cpp: Solve lines 110-139, SolveTerminalNode lines 557-581"]}
{"id": "C08", "title": "A branch identifies a set of decisions, independent of order", "statement": "Two paths that take the same set of (feature, direction) decisions have equal branches and equal hash-map keys, and two paths with different decision sets have different branches.", "quantifier": "all sequences of left/right decisions on all features", "why_tests_cant": "all permutations of all decision sequences", "anchors": ["src/model/branch.cpp: LeftChildBranch, RightChildBranch, AddFeatureBranch", "include/model/branch.h: operator=="]}
{"id": "C09", "title": "Splitting partitions the data", "statement": "Splitting a view on a feature puts every instance in exactly one side, absent to the left and present to the right, keeps label groups and relative order, and the sizes add up.", "quantifier": "all views and features", "why_tests_cant": "all datasets", "anchors": ["src/model/data.cpp: ADataView::SplitData", "src/solver/data_splitter.cpp"]}
{"id": "C10", "title": "Instances at a node are determined by the branch", "statement": "The data reached by following decisions in any order depends only on the branch; so results stored for a branch may be reused when the same decisions are taken in another order.", "quantifier": "all datasets, all decision sequences and all their permutations", "why_tests_cant": "unbounded permutations", "anchors": ["src/model/data.cpp: SplitData", "src/model/branch.cpp", "src/solver/branch_cache.cpp"]}
{"id": "C11", "title": "Dataset-cache keys identify subsets of instances", "statement": "Two sub-datasets of the training set get equal cache keys exactly when they contain the same instances; the small iterator memo in front of the map never returns an entry of another dataset.", "quantifier": "all sub-datasets and all histories of cache operations", "why_tests_cant": "needs all subsets and all operation histories", "anchors": ["include/model/data.h: ADataViewBitSet", "include/utils/dynamic_bitset.h", "src/solver/dataset_cache.cpp: FindIterator, InvalidateStoredIterators"]}
{"id": "C12", "title": "Cached results stay valid for every reuse", "statement": "Whatever sequence of store, bound update, transfer and retrieve calls is made with valid facts, an assignment retrieved as optimal for a depth and node budget is optimal for that budget, and a retrieved lower bound never exceeds the optimum.", "quantifier": "all histories of cache calls, all keys, all budgets", "why_tests_cant": "all histories", "anchors": ["src/solver/branch_cache.cpp", "src/solver/dataset_cache.cpp", "src/solver/cache.cpp", "include/solver/cache_entry.h"]}
{"id": "C13", "title": "Depth-two frequency counts are exact", "statement": "For every pair of features the four cell counts and per-label costs derived from the pair counters equal the real counts and costs of the four groups of instances (feature absent/present x absent/present).", "quantifier": "all datasets and all feature pairs", "why_tests_cant": "inclusion-exclusion must hold for every dataset", "anchors": ["src/solver/cost_combiner.cpp: UpdateCosts, CalcSols, GetCounts", "src/solver/counter.cpp", "src/solver/cost_storage.cpp"]}
{"id": "C14", "title": "Incremental counting equals recounting", "statement": "After any sequence of depth-two calls on any datasets, counters updated by adding and removing differences equal counters recomputed from scratch for the current dataset.", "quantifier": "all sequences of datasets", "why_tests_cant": "history-dependent state", "anchors": ["src/solver/cost_combiner.cpp: CostCalculator::Initialize, UpdateCosts", "src/solver/difference_computer.cpp: ComputeDifference"]}
{"id": "C15", "title": "Feature-pair storage never collides", "statement": "Distinct unordered feature pairs are stored at distinct positions inside the allocated storage, and every position belongs to a pair.", "quantifier": "all numbers of features and all pairs", "why_tests_cant": "all sizes", "anchors": ["src/solver/cost_storage.cpp: IndexSymmetricMatrix", "src/solver/counter.cpp", "src/model/feature_vector.cpp: ComputeFeaturePairIndices", "src/solver/cost_combiner.cpp: InitializeIndexInfos"]}
{"id": "C16", "title": "Depth-two search is optimal with the default leaf size", "statement": "With min-leaf-node-size 1 the depth-two search returns, for node budgets one, two and three, the minimum training error over all trees within that budget.", "quantifier": "all datasets", "why_tests_cant": "all datasets and all competing trees", "anchors": ["src/solver/terminal_solver.cpp: Solve, SolveOneNode, UpdateBestTwoNodeAssignment, UpdateBestThreeNodeAssignment"]}
{"id": "C17", "title": "Dataset differences are exact", "statement": "The difference routine reports exactly the instances to add and to remove per label, its counts equal their numbers, and applying the difference to the old data yields the new data.", "quantifier": "all pairs of views over the same training data", "why_tests_cant": "all pairs of subsets", "anchors": ["src/solver/difference_computer.cpp"]}
{"id": "C18", "title": "Similarity lower bound never exceeds the optimum", "statement": "The lower bound obtained from a previously solved similar dataset (its bound minus the worst possible contribution of the removed instances) never exceeds the optimum of the new dataset.", "quantifier": "all pairs of datasets, all budgets, each additive task", "why_tests_cant": "all pairs of datasets", "anchors": ["src/solver/similarity_lowerbound.cpp: ComputeLowerBound", "include/tasks/*: GetWorstPerLabel"]}
{"id": "C19", "title": "Pareto fronts keep exactly the non-dominated solutions", "statement": "After any sequence of additions a solution front contains no two solutions of which one dominates the other, contains only solutions that were added, and for every added solution contains one that dominates it.", "quantifier": "all sequences of added solutions for tasks whose dominance is reflexive and transitive", "why_tests_cant": "all sequences", "anchors": ["include/model/container.h: InternalAdd, InternalAddD0, InternalAddOrMerge"]}
{"id": "C20", "title": "Best F1 score is on the computed front", "statement": "Dominance on (false negatives, false positives) implies at least as good an F1 score, combining subtrees preserves dominance, hence keeping only non-dominated subtree results never loses the best F1 score.", "quantifier": "all counts and all subtree combinations", "why_tests_cant": "all counts", "anchors": ["include/tasks/accuracy/f1score.h", "src/tasks/accuracy/f1score.cpp", "src/solver/solver.cpp: Merge"]}
{"id": "C21", "title": "Feature vectors stay consistent under flip and disable", "statement": "After any sequence of flips and disables, the list of present features is strictly increasing and lists exactly the features reported present, flipping twice is the identity, and a disabled feature is absent.", "quantifier": "all vectors and all operation sequences", "why_tests_cant": "all sequences", "anchors": ["src/model/feature_vector.cpp", "include/model/feature_vector.h"]}
{"id": "C22", "title": "Preprocessing is invisible to the user", "statement": "Flipping frequent features during training and un-flipping the returned tree gives the same prediction on every original instance as the internal tree gives on the flipped instance; dropping redundant and duplicate features does not change the optimum.", "quantifier": "all datasets, trees and instances", "why_tests_cant": "all trees and instances", "anchors": ["src/solver/solver.cpp: PreprocessData, PostProcessTree", "include/solver/tree.h: FlipFlippedFeatures, Classify"]}
{"id": "C23", "title": "Predictions follow the returned tree row by row", "statement": "predict returns for row i the label of the leaf reached by row i in the returned tree, in input order and independent of the other rows.", "quantifier": "all trees and all test sets", "why_tests_cant": "all trees and test sets", "anchors": ["include/solver/tree.h: Classify", "src/solver/solver.cpp: Predict", "src/bindings.cpp"]}
{"id": "C24", "title": "Train/test and k-fold splits partition the data", "statement": "A train/test split puts every instance in exactly one part with the requested test size; in a k-fold split every instance is in exactly one test fold and in the training part of all other folds.", "quantifier": "all datasets, percentages, fold counts and random orders", "why_tests_cant": "all shuffles", "anchors": ["src/model/data.cpp: TrainTestSplitData, KFoldSplit"]}
{"id": "C25", "title": "Stratified splitting works for every dataset and keeps labels", "statement": "Stratified train/test and k-fold splitting succeeds for every non-empty dataset and keeps each instance in the group of its own label.", "quantifier": "all datasets and folds", "why_tests_cant": "all datasets", "anchors": ["src/model/data.cpp: TrainTestSplitData lines 76-90, KFoldSplit line 241"]}
{"id": "C26", "title": "The feature heap pops every key once in priority order", "statement": "After filling the feature heap with any priorities, repeatedly taking the maximum returns every key exactly once in non-increasing order of priority; the order and the position maps hold after every operation the feature selector makes.", "quantifier": "all sequences of heap operations", "why_tests_cant": "all sequences", "anchors": ["src/utils/key_value_heap.cpp"]}
{"id": "C27", "title": "Feature ordering strategies only permute features", "statement": "In-order and Gini feature selection both yield every feature exactly once, so the choice of ordering cannot exclude a tree from the search.", "quantifier": "all datasets", "why_tests_cant": "all datasets", "anchors": ["include/solver/feature_selector.h", "src/solver/feature_selector_gini.cpp"]}
{"id": "C28", "title": "Bit sets behave like sets of positions", "statement": "Setting, clearing and toggling a bit changes exactly that bit, and two bit sets of equal size are equal exactly when they contain the same positions.", "quantifier": "all sizes and operation sequences", "why_tests_cant": "all sequences", "anchors": ["include/utils/dynamic_bitset.h"]}
{"id": "C29", "title": "Accepted parameters are always within their declared range", "statement": "Whatever sequence of set calls and command-line arguments is given, every numeric parameter read back is within its declared range, categorical ones are among the allowed values, setting one parameter leaves the others unchanged, and unknown names are rejected.", "quantifier": "all sequences of set calls", "why_tests_cant": "all sequences", "anchors": ["src/utils/parameter_handler.cpp"]}
{"id": "C30", "title": "Budget normalisation keeps the meaning of the budgets", "statement": "The consistency check accepts exactly the budget pairs the search can handle and rejects node budgets larger than a full tree of the given depth.", "quantifier": "all depth and node budgets", "why_tests_cant": "all integers", "anchors": ["src/utils/parameter_handler.cpp: CheckParameters", "src/bindings.cpp"]}
{"id": "C31", "title": "Hyper-tuning tries every admissible budget once", "statement": "The tuning grid lists every pair (d,n) with d<=n<=min(max nodes, 2^d-1) and d<=max depth exactly once and only valid pairs.", "quantifier": "all budgets", "why_tests_cant": "all budgets", "anchors": ["src/tasks/optimization_task.cpp: GetTuneRunConfiguration"]}
{"id": "C32", "title": "Hyper-tuning selects a best configuration", "statement": "The configuration chosen has the best average validation score among all tried configurations, the earliest one in case of ties for score-maximising tasks.", "quantifier": "all score tables", "why_tests_cant": "all score tables", "anchors": ["src/solver/solver.cpp: HyperSolve lines 973-980", "include/tasks/optimization_task.h: CompareScore"]}
{"id": "C33", "title": "Result lists are ordered and scores averaged exactly", "statement": "Solutions in a result are kept sorted by score with the best first whatever the order in which they are added, no solution is lost, and the averaged score is the arithmetic mean.", "quantifier": "all sequences of added solutions", "why_tests_cant": "all sequences", "anchors": ["include/solver/result.h: AddSolution, GetAverage", "src/solver/result.cpp"]}
{"id": "C34", "title": "Equivalent-points bound never exceeds any tree's error", "statement": "The task lower bound that sums, over groups of instances with identical features, the instances outside the majority label never exceeds the number of errors of any decision tree of any size.", "quantifier": "all datasets and all trees", "why_tests_cant": "all datasets and trees", "anchors": ["src/tasks/accuracy/cost_complex_accuracy.cpp: ComputeLowerBound, PreprocessData"]}
{"id": "C35", "title": "Cost-complexity bounds are sound", "statement": "For objectives with a constant cost per branching node, the lower bounds used for pruning never exceed the optimum of the subproblem.", "quantifier": "all datasets, costs and budgets", "why_tests_cant": "all search states", "anchors": ["src/solver/solver.cpp: ComputeLowerBound lines 640-674, SolveSubTreeGeneralCase lines 516-525, ReduceNodeBudget"]}
{"id": "C36", "title": "Cost-sensitive costs are consistent", "statement": "The cost of a leaf is the same whether computed directly or by the depth-two counters, and test costs on a path are charged once in full per feature group, discounted within a bought group and free when repeated.", "quantifier": "all cost matrices, datasets and paths", "why_tests_cant": "all cost matrices and paths", "anchors": ["src/tasks/cost_sensitive.cpp: GetLeafCosts, GetInstanceLeafD2Costs, GetBranchingCosts, ComputeTotalTestCosts"]}
{"id": "C37", "title": "Policy score shifting does not change the best policy", "statement": "Shifting all treatment scores to be non-negative adds the same constant per instance to every policy, so the ranking of all trees is unchanged and all leaf costs are non-negative.", "quantifier": "all datasets and pairs of trees", "why_tests_cant": "all datasets and trees", "anchors": ["src/tasks/prescriptive_policy.cpp: InformTrainData, GetLeafCosts"]}
{"id": "C38", "title": "Baseline hazard is the Nelson-Aalen estimator", "statement": "The baseline cumulative hazard is a positive non-decreasing step function whose value at time t is the sum over event times up to t of deaths divided by the number at risk, and the lookup returns the value of the last step not after t.", "quantifier": "all event/time datasets and all query times", "why_tests_cant": "all datasets", "anchors": ["src/tasks/survival_analysis.cpp: ComputeHazardFunction, BinarySearch"]}
{"id": "C39", "title": "Regression leaf is the error-minimising constant", "statement": "The leaf label is the mean of the targets, the cost equals the sum of squared errors, no constant is better, and splitting never increases the minimum cost.", "quantifier": "all multisets of targets", "why_tests_cant": "all multisets", "anchors": ["src/tasks/regression/regression.cpp: SolveLeafNode, GetLeafCosts, ComputeD2Costs"]}
{"id": "C40", "title": "One-dimensional clustering is optimal", "statement": "For any number of sorted values with positive weights, the clustering routine behind the k-means bound returns the least within-cluster sum of squares plus the price per additional cluster, over all choices of up to K centers and all assignments of values to them.", "quantifier": "all value lists, positive weights, K and prices", "why_tests_cant": "all value lists", "anchors": ["src/tasks/regression/ckmeans/Ckmeans.1d.dp.cpp: fill_dp_matrix_dynamic_stop", "src/tasks/regression/ckmeans/fill_log_linear.cpp", "src/tasks/regression/ckmeans/fill_SMAWK.cpp"]}
{"id": "C41", "title": "Binarisation is faithful", "statement": "Threshold features of a column are monotone in the value and nested, every training value falls in exactly one interval, and category indicators of a row are mutually exclusive.", "quantifier": "all columns and thresholds", "why_tests_cant": "all columns", "anchors": ["pystreed/binarizer.py"]}
{"id": "C42", "title": "Tree size measures and text form agree", "statement": "For every tree the number of leaves is the number of branching nodes plus one, nodes are at most 2^depth-1, and the printed tree text determines the tree.", "quantifier": "all trees", "why_tests_cant": "all trees", "anchors": ["include/solver/tree.h: Depth, NumNodes, BuildTreeString"]}
{"id": "C43", "title": "Predicted probabilities are class frequencies of the reached leaf", "statement": "predict_proba assigns to every row the class frequencies of the training rows reaching the same leaf; rows are non-negative, sum to one, and the predicted label attains the maximum for an accuracy-optimal leaf.", "quantifier": "all trees, training and test sets", "why_tests_cant": "all trees and sets", "anchors": ["pystreed/classification.py: _recursive_predict_proba"]}
{"id": "C44", "title": "Reading a dataset file is lossless", "statement": "Reading a well-formed file yields one instance per line with the written label and feature bits, grouped by label with increasing ids.", "quantifier": "all well-formed files", "why_tests_cant": "all files", "anchors": ["src/utils/file_reader.cpp: ReadFromFile, FillDataView"]}
{"id": "C45", "title": "Fitting again on the same data gives the same answer", "statement": "Calling the solver a second time on the same training data and parameters returns a tree with the same training score.", "quantifier": "all datasets and parameters", "why_tests_cant": "history-dependent state", "anchors": ["src/solver/solver.cpp: InitializeSolver lines 219-221, Solve lines 88-100"]}
{"id": "C46", "title": "Node budgets below a full tree are searched exactly", "statement": "With max-num-nodes set to two (below the three of a full tree of depth two) fit returns a tree with the fewest training errors among all trees with at most two branching nodes.", "quantifier": "every dataset", "why_tests_cant": "an early exit only hides the better two-node tree for particular data and feature orders", "anchors": ["src/solver/terminal_solver.cpp: Solve line 70, UpdateBestTwoNodeAssignment", "src/solver/solver.cpp: SolveTerminalNode lines 556-590"]}
{"id": "C47", "title": "The similarity bound does not lose the optimum for larger leaves", "statement": "Switching the similarity lower bound on never makes fit return a worse tree, also when min-leaf-node-size is larger than one.", "quantifier": "every dataset and every minimum leaf size", "why_tests_cant": "depends on which earlier sub-datasets happen to be in the archive", "anchors": ["src/solver/similarity_lowerbound.cpp: ComputeLowerBound", "src/solver/solver.cpp: UpdateCacheUsingSimilarity, SatisfiesMinimumLeafNodeSize"]}
{"id": "C48", "title": "The returned tree attains the value found by the search", "statement": "Under the default settings the training error of the tree handed to the user equals the optimal value the search found, for every depth.", "quantifier": "every dataset and every depth budget", "why_tests_cant": "the tree is rebuilt from cache entries left by other branches of the search; the mismatch needs depth four and particular data", "anchors": ["src/solver/solver.cpp: ConstructOptimalTree lines 1055-1102", "src/solver/dataset_cache.cpp: StoreOptimalBranchAssignment", "src/solver/terminal_solver.cpp: Solve line 70"]}
{"id": "C49", "title": "Removing any key keeps the heap order", "statement": "Removing an arbitrary key from the feature heap leaves a heap: the maximum reported afterwards is the largest remaining priority.", "quantifier": "all heap states reachable by operations and all keys", "why_tests_cant": "only some shapes of the array expose a wrong sift direction", "anchors": ["src/utils/key_value_heap.cpp KeyValueHeap::Remove"]}
{"id": "C50", "title": "A second prediction never uses released memory", "statement": "Calling predict twice on one fitted model with different tables reads only live data and the second call depends only on its own table.", "quantifier": "all pairs of tables, in particular with equally many rows", "why_tests_cant": "whether stale memory is read depends on the allocator and on row counts", "anchors": ["src/bindings.cpp _predict", "src/solver/solver.cpp InitializeTest", "src/model/data.cpp ADataView::operator=="]}
{"id": "C51", "title": "The reported question length is the real average", "statement": "The average path length reported with a training score is the average over the training rows of the number of tests on the row's path plus one per the code's convention, i.e. its total equals the sum over rows of tests asked plus the number of rows.", "quantifier": "all data sets and all fits", "why_tests_cant": "sums over all rows and all trees", "anchors": ["src/solver/solver.cpp ComputeTrainScore", "include/solver/result.h Score"]}
{"id": "C52", "title": "Exact optimality without the depth-two solver", "statement": "With the depth-two solver switched off, fit returns a tree of minimum training error for every depth, node budget and minimum leaf size, whatever the other switches (similarity bound only with leaf size one).", "quantifier": "all data sets, depths, node budgets, leaf sizes and switch settings", "why_tests_cant": "optimality is a statement about all trees and all data", "anchors": ["src/solver/solver.cpp SolveSubTree, SolveSubTreeGeneralCase, ConstructOptimalTree"]}
{"id": "C53", "title": "The optimal value is found at every depth with default switches", "statement": "With the default switches, leaf size one and a full node budget, the value found by the search is the minimum training error at every depth.", "quantifier": "all data sets and depths", "why_tests_cant": "optimality is a statement about all trees and all data", "anchors": ["src/solver/solver.cpp Solve, SolveSubTree, SolveTerminalNode", "src/solver/terminal_solver.cpp"]}
{"id": "C54", "title": "Remembered data splits equal direct splits", "statement": "Every split handed out by the memo of data splits equals splitting the data it was asked for, for the training memo and the test memo, whatever the order of splits and clearings.", "quantifier": "all sequences of split and clear calls of a solve, a prediction or a score", "why_tests_cant": "a stale memo entry only shows for particular call histories", "anchors": ["src/solver/data_splitter.cpp", "src/solver/solver.cpp InitializeSolver, InitializeTest"]}
{"id": "C55", "title": "A failed fit leaves no tree of an earlier fit", "statement": "After a fit that finds no feasible tree the estimator hands out no tree: predict, get_tree, print_tree and the size queries all refuse.", "quantifier": "all histories of fits", "why_tests_cant": "depends on what attributes an earlier fit left behind", "anchors": ["pystreed/base.py fit, is_fitted, predict, get_tree"]}
{"id": "C56", "title": "Answers of an estimator come from one fit", "statement": "After a fit returns, everything the estimator answers is what a new estimator with the same settings answers after this fit alone, and predictions, size queries and the tree all speak of the same result.", "quantifier": "all histories of set_params, fit, predict, score and query calls", "why_tests_cant": "stale attributes only show for particular histories", "anchors": ["pystreed/base.py fit, predict, score, _should_reset_solver, _binarize_data"]}
{"id": "C57", "title": "Accepted settings never end the process", "statement": "Settings that pass the validation of the estimator reach the search; none of them makes the process exit.", "quantifier": "all settings of an estimator", "why_tests_cant": "the combinations of task, budgets, costs and limits are unbounded", "anchors": ["pystreed/base.py _parameter_constraints, _initialize_param_handler", "src/utils/parameter_handler.cpp CheckParameters, CheckFloatParameter", "src/bindings.cpp initialize_streed_solver"]}
{"id": "C58", "title": "Tuning that runs late still returns", "statement": "When hyper-tuning uses up the time limit, the best tree for the chosen configuration, or no tree, is returned and the process goes on.", "quantifier": "all run times and time limits", "why_tests_cant": "depends on the clock at the end of tuning", "anchors": ["src/solver/solver.cpp: HyperSolve lines 987-989", "src/utils/parameter_handler.cpp: SetFloatParameter"]}
{"id": "C59", "title": "Survival leaves are maximum-likelihood estimates", "statement": "The risk factor of a survival leaf minimises the deviance of the proportional hazards model over its rows, the value of the leaf is that minimum, scoring the leaf gives the same value, and the depth-two solver computes the same factor and value from its counters whatever rows were added and taken away; no tree of the same shape with other risk factors has a smaller loss.", "quantifier": "all non-empty sets of rows with positive baseline hazards, all risk factors and all trees", "why_tests_cant": "a statement about all real risk factors and all leaves", "anchors": ["src/tasks/survival_analysis.cpp SolveLeafNode, GetLeafCosts, GetInstanceLeafD2Costs, ComputeD2Costs, GetLabel"]}
{"id": "C60", "title": "k-means bound is sound and keeps regression trees optimal", "statement": "The k-means lower bound for cost-complex regression never exceeds squared errors plus node costs of any tree within the node budget, for any order in which budgets are asked; and a fit with it returns a tree of the same cost as without.", "quantifier": "all data sets, budgets, sequences of calls and trees", "why_tests_cant": "needs all trees and all call orders", "anchors": ["src/tasks/regression/cost_complex_regression.cpp: ComputeLowerBound", "src/solver/solver.cpp: ComputeLowerBound"]}
{"id": "C61", "title": "Fair trees are within the limit and best", "statement": "With the group fairness or equality-of-opportunity task fit returns a tree that does not test the sensitive column, whose discrimination (difference of the positive rates of the groups) is at most the limit, and no allowed tree of this kind makes fewer errors; the reported number of errors is the one of the tree.", "quantifier": "all data sets with two labels, both groups present, all limits, depths, node budgets, leaf sizes and feature orders", "why_tests_cant": "optimality under a constraint is a statement about all trees and all data", "anchors": ["src/tasks/group_fairness.cpp: GetLeafCosts, ComputeTrainScore", "include/tasks/group_fairness.h: Dominates, operator==, SatisfiesConstraint", "src/tasks/eq_opp.cpp", "src/solver/solver.cpp: SolveSubTree, Merge"]}
{"id": "C62", "title": "The coding of the groups does not matter", "statement": "Exchanging the values 0 and 1 of the sensitive column changes neither the number of errors of the returned fair tree nor whether it is within the limit.", "quantifier": "all data sets with two groups and labels, limits and budgets", "why_tests_cant": "compares two fits for all data", "anchors": ["src/tasks/group_fairness.cpp", "include/tasks/group_fairness.h", "src/solver/solver.cpp: PreprocessData"]}
{"id": "C63", "title": "Scores of fair trees on test data", "statement": "The score of a tree on test data is its accuracy there if its discrimination there is at most the limit, and 0 otherwise.", "quantifier": "all training data, test data, trees and limits", "why_tests_cant": "depends on the sizes of the groups in both data sets", "anchors": ["src/tasks/group_fairness.cpp: InformTestData, ComputeTestTestScore", "include/tasks/group_fairness.h: GetTestLeafCosts", "src/tasks/eq_opp.cpp"]}
{"id": "C64", "title": "Fairness on data of a single group", "statement": "When one of the groups has no counted member there is nothing to discriminate, so the constraint excludes no tree.", "quantifier": "all data sets in which a group is empty, all trees", "why_tests_cant": "division by zero only shows on degenerate data", "anchors": ["src/tasks/group_fairness.cpp: GetLeafCosts", "include/tasks/group_fairness.h: SatisfiesConstraint"]}
{"id": "C65", "title": "The sensitive column comes first in every call", "statement": "Whatever the position or name given for the sensitive column, and whatever calls were made before on the same data object, a call hands the search the sensitive column first and the other columns once each in their order.", "quantifier": "all tables, positions, names and histories of fit, predict and score", "why_tests_cant": "depends on the history of calls on one object", "anchors": ["pystreed/group_fair.py: _move_sensitive_feature_first, fit, predict, score"]}
{"id": "C66", "title": "The constrained groups are those of the sensitive column", "statement": "After binarization the column by which the groups are formed is the sensitive column, or a threshold or category of it.", "quantifier": "all tables and binarization settings", "why_tests_cant": "depends on the types of all columns", "anchors": ["pystreed/binarizer.py: Binarizer.transform, get_column_types", "pystreed/group_fair.py: fit"]}
{"id": "C67", "title": "Listed categorical columns are treated as categorical", "statement": "Every estimator binarizes the columns that are passed as categorical into indicators of categories.", "quantifier": "all estimators and lists of columns", "why_tests_cant": "one test per estimator and argument order", "anchors": ["pystreed/base.py: fit", "pystreed/group_fair.py: fit", "pystreed/cost_sensitive_classification.py: fit", "pystreed/instance_cost_sensitive_classification.py: fit"]}
{"id": "C68", "title": "Piecewise linear models use the columns of their last fit", "statement": "A fit of the piecewise linear regressor without explicit columns works on the continuous columns of its own data, and later predictions work on the columns of the last fit.", "quantifier": "all histories of fit, predict and score calls", "why_tests_cant": "depends on what earlier calls left behind", "anchors": ["pystreed/regression.py: _get_continuous_columns, fit, predict, score"]}
{"id": "C69", "title": "Leaves of simple linear trees are best lines", "statement": "A leaf of a simple linear regression tree exists when the rows of the leaf are at least the minimum leaf size; its model is a line in one continuous column whose squared error plus ridge penalty is the reported cost and is not larger than that of any other line in any column.", "quantifier": "all data sets, parts of the data selected by the binary columns, penalties and leaf sizes", "why_tests_cant": "the minimum is over all real slopes, intercepts and columns", "anchors": ["src/tasks/regression/piecewise_simple_linear_regression.cpp: SolveLeafNode, GetSimpleModel, InformTrainData"]}
{"id": "C70", "title": "One cost for simple linear trees", "statement": "Putting rows with equal binary columns together does not change costs: the training cost of a tree with lines in its leaves is the sum of the squared errors over the rows plus the penalties, the depth-two solver's counters give the cost and the line of the leaf whatever was added and taken away, and training again on the same data gives the same model.", "quantifier": "all data sets, trees, parts of the data and histories of counters", "why_tests_cant": "only groups of equal rows expose wrong merging", "anchors": ["src/tasks/regression/piecewise_simple_linear_regression.cpp: PreprocessData, PreprocessTrainData, GetLeafCosts, GetInstanceLeafD2Costs, ComputeD2Costs, GetLabel"]}
{"id": "C71", "title": "Costs of similar data bound costs for linear models", "statement": "For the tasks with linear models in the leaves the cost known for one part of the data, minus the amount for the rows that the other part lacks, is never more than the cost of the other part, so reusing it never changes the result.", "quantifier": "all pairs of parts of a data set and all trees", "why_tests_cant": "needs all pairs of data sets and all models", "anchors": ["src/tasks/regression/piecewise_simple_linear_regression.cpp: ComputeSimilarityLowerBound", "include/tasks/regression/piecewise_simple_linear_regression.h: GetWorstPerLabel", "src/tasks/regression/piecewise_linear_regression.cpp: ComputeSimilarityLowerBound, InformTrainData", "include/tasks/regression/piecewise_linear_regression.h: GetWorstPerLabel"]}
{"id": "C72", "title": "Every leaf with rows gets a linear model", "statement": "In piecewise linear regression a leaf with at least the minimum number of rows gets a model unless the lasso penalty makes the constant model the best one; in particular a leaf in which all targets are equal gets the constant model.", "quantifier": "all data sets, penalties and parts of the data", "why_tests_cant": "depends on the covariances of each leaf", "anchors": ["src/tasks/regression/piecewise_linear_regression.cpp: SolveGLMNet, SolveLeafNode"]}
{"id": "C73", "title": "Reported leaf costs are the errors of the linear models", "statement": "The cost reported for a leaf with a linear model is the squared error of that model on the rows of the leaf plus the lasso and ridge penalties, and is never negative; the training score of a leaf is its squared error.", "quantifier": "all data sets, penalties, columns and coefficients", "why_tests_cant": "cut-offs for small coefficients and covariances show on special data only", "anchors": ["src/tasks/regression/piecewise_linear_regression.cpp: SolveGLMNet, GetLeafCosts"]}
{"id": "C74", "title": "Linear models in leaves minimise the elastic net", "statement": "The model of a leaf minimises squared error plus lasso and ridge penalties over all coefficients and intercepts.", "quantifier": "all data sets, penalties and linear models", "why_tests_cant": "the minimum is over all real coefficients, and slow convergence shows on special data", "anchors": ["src/tasks/regression/piecewise_linear_regression.cpp: SolveGLMNet"]}
{"id": "C75", "title": "The returned tree works on the data as given", "statement": "Predictions of the returned tree on rows as the user gives them equal the predictions of the tree found on the standardised rows.", "quantifier": "all trees, means, standard deviations and rows", "why_tests_cant": "needs all trees and degenerate columns", "anchors": ["src/tasks/regression/piecewise_linear_regression.cpp: PreprocessTrainData, PostProcessTree"]}
{"id": "C76", "title": "Best F1-score with every switch", "statement": "With any combination of the switches for bounds, caches and the depth-two solver, the tree returned for the F1-score has the best F1-score among the trees within the depth, node and leaf size limits.", "quantifier": "all data sets, limits and combinations of switches", "why_tests_cant": "interaction of bounds, caches and early stopping shows on few data sets", "anchors": ["src/solver/solver.cpp: SolveSubTree, SolveSubTreeGeneralCase, SolveTerminalNode, SubtractUBs", "src/solver/terminal_solver.cpp: Solve", "include/tasks/f1score.h: F1Score"]}
{"id": "C77", "title": "Fair trees ignore the sensitive column with every switch", "statement": "With any combination of the switches, a tree returned for group fairness or equality of opportunity does not test the sensitive column.", "quantifier": "all data sets, limits and combinations of switches", "why_tests_cant": "needs data where another tree of equal value uses the column", "anchors": ["src/solver/terminal_solver.cpp: ConstructOptimalTree", "src/solver/solver.cpp: SolveSubTreeGeneralCase, ConstructOptimalTree", "include/tasks/group_fairness.h: MayBranchOnFeature", "include/tasks/eq_opp.h: MayBranchOnFeature"]}
{"id": "C78", "title": "Every leaf has a label", "statement": "With any combination of the switches, every leaf of a tree returned for the F1-score or a fairness task has a label of the data.", "quantifier": "all data sets, limits and combinations of switches", "why_tests_cant": "reconstruction can fail only after particular histories of bounds and caches", "anchors": ["src/solver/solver.cpp: ConstructOptimalTree, Merge", "src/solver/terminal_solver.cpp: ConstructOptimalTree"]}
{"id": "C79", "title": "Fair optimum with every switch", "statement": "With any combination of the switches, no tree within the limits that respects the discrimination limit and does not test the sensitive column makes fewer errors than the tree returned for group fairness or equality of opportunity.", "quantifier": "all data sets, limits and combinations of switches", "why_tests_cant": "interaction of bounds and caches shows on few data sets", "anchors": ["src/solver/solver.cpp: SolveSubTree, SubtractUBs, AddRootRelaxSols, SolveTerminalNode", "src/solver/terminal_solver.cpp: Solve", "include/tasks/group_fairness.h: ExtremePoints, RelaxRootSolution", "include/tasks/eq_opp.h: ExtremePoints, RelaxRootSolution"]}
{"id": "C80", "title": "Reported values are real with every switch", "statement": "With any combination of the switches for bounds, caches and the depth-two solver, what is reported for the F1-score or a fairness task is the value of some tree within all limits (and, for fairness, within the discrimination limit and without the sensitive column), and a returned labelled tree has the reported value, respects depth and leaf size and, for fairness, the discrimination limit.", "quantifier": "all data sets, limits and combinations of switches", "why_tests_cant": "interaction of bounds, caches and reconstruction shows on few data sets", "anchors": ["src/solver/solver.cpp: SolveSubTree, SolveSubTreeGeneralCase, SolveTerminalNode, ConstructOptimalTree", "src/solver/terminal_solver.cpp: Solve, ConstructOptimalTree", "src/solver/branch_cache.cpp", "src/solver/dataset_cache.cpp"]}
{"id": "C81", "title": "Tables of another width are refused", "statement": "After a fit that found a tree, and any later calls other than fit, predict and score raise an error for a table that, once binarised, has another number of columns than the training table had.", "quantifier": "all estimators, histories of calls and tables", "why_tests_cant": "all histories", "anchors": ["pystreed/base.py: predict, score, _process_predict_data, _process_score_data"]}
{"id": "C82", "title": "Least total cost with costs per instance", "statement": "With a non-negative cost per row and label, a fit reported as optimal returns a tree whose total cost over the training rows is the least of all trees within the depth, node and leaf size limits that give the considered labels; the reported training score is that total.", "quantifier": "all cost tables, binary data sets, limits, search settings and clocks", "why_tests_cant": "all cost tables and settings", "anchors": ["src/tasks/instance_cost_sensitive.cpp: GetLeafCosts, PreprocessTrainData", "include/tasks/instance_cost_sensitive.h", "pystreed/instance_cost_sensitive_classification.py: fit, _check_data"]}
{"id": "C83", "title": "The policy with the best estimated outcome", "statement": "A prescriptive policy fit that is reported as optimal returns a tree whose total estimated outcome over the training rows, by the chosen teacher method, is the highest of all trees within the limits; the training score ranks policies by that total.", "quantifier": "all data sets, teacher methods, limits, search settings and clocks", "why_tests_cant": "all data sets and settings", "anchors": ["src/tasks/prescriptive_policy.cpp", "include/tasks/prescriptive_policy.h", "pystreed/prescriptive_policy_generation.py: fit"]}
{"id": "C84", "title": "Least misclassification and test costs", "statement": "A cost-sensitive fit that is reported as optimal returns a tree with the least sum of misclassification costs and test costs on the training rows among all trees within the limits, where every row pays once for every original feature it is tested on.", "quantifier": "all cost matrices, test costs, data sets, limits and search settings", "why_tests_cant": "all costs and settings", "anchors": ["src/tasks/cost_sensitive.cpp: GetBranchingCosts, GetLeafCosts", "src/solver/solver.cpp: PreprocessData", "src/solver/dataset_cache.cpp", "pystreed/cost_sensitive_classification.py"]}
{"id": "C85", "title": "Least errors plus cost of the nodes", "statement": "A fit for cost-complex accuracy that is reported as optimal returns a tree with the least sum of training errors and cost per branching node among all trees within the depth, node and leaf size limits; the reported training score is the share of the rows that are labelled right; the order of the rows does not matter.", "quantifier": "all data sets, costs per node, limits, search settings and clocks", "why_tests_cant": "all data sets and settings", "anchors": ["src/tasks/accuracy/cost_complex_accuracy.cpp: PreprocessData, PreprocessTrainData, GetLeafCosts", "include/tasks/accuracy/cost_complex_accuracy.h: GetBranchingCosts", "src/solver/solver.cpp: Solve, SolveSubTreeGeneralCase, ReduceNodeBudget"]}
{"id": "C86", "title": "Predicted survival curves", "statement": "After a fit of a survival tree, a prediction gives values exactly at the distinct training times in increasing order; the cumulative hazard is positive, never falls and is the row's risk factor times the Nelson-Aalen estimate; the survival probability is exp of minus that hazard, lies strictly between 0 and 1 and never rises; risk scores rank rows exactly by their risk factors; in each leaf with an event the predicted cumulative hazards of the training rows at their own times sum to the number of events; a refused fit does not change predictions.", "quantifier": "all training data with times that are not negative, trees, rows and sequences of fits", "why_tests_cant": "Curves, ranks and sums over all data sets and the state left behind by a fit that raises cannot be covered by examples.", "anchors": ["pystreed/survival_analysis.py: fit, predict, predict_cumulative_hazard_function, predict_survival_function", "src/tasks/survival_analysis.cpp: SolveLeafNode"]}
{"id": "C87", "title": "Policy tables are read as documented", "statement": "A table of targets that follows the documented layout for K treatments reaches the solver as meant, in fits, predictions and scores: treatment, outcome, propensity, K predicted outcomes and, if given, the optimal treatment and K outcomes.", "quantifier": "all numbers of treatments, tables in both layouts, and histories of calls", "why_tests_cant": "The layout is guessed from the number of columns and the values of one column; tests use tables in which every treatment occurs.", "anchors": ["pystreed/prescriptive_policy_generation.py: _check_data, fit, predict, score", "include/tasks/prescriptive_policy.h: PPGData", "src/tasks/prescriptive_policy.cpp: GetTestLeafCosts"]}
{"id": "C88", "title": "Cost tables are read as given", "statement": "The targets of the instance-cost-sensitive estimator are costs per row and label: a fit takes the number of labels from them and gives each row its first cheapest label; later calls refuse costs for another number of labels.", "quantifier": "all tables, lists of cost vectors and earlier fits", "why_tests_cant": "All shapes of tables and lists.", "anchors": ["pystreed/instance_cost_sensitive_classification.py: _check_data, fit, predict, score"]}
{"id": "C89", "title": "Least squared error of regression trees", "statement": "A fit for regression or cost-complex regression that is reported as optimal returns a tree within the limits with the mean of its rows at every leaf, whose squared error on the training rows (plus, for cost-complex regression, the cost of its nodes) is the least among all trees within the limits with any numbers at the leaves; the training score is the mean squared error on the training rows.", "quantifier": "all data sets, targets, cost-complexity parameters, limits, search settings and clocks", "why_tests_cant": "the minimum is over all trees and all real leaf values", "anchors": ["src/tasks/regression/regression.cpp: SolveLeafNode, GetLeafCosts", "src/tasks/regression/cost_complex_regression.cpp: PreprocessData, PreprocessTrainData, InformTrainData, SolveLeafNode", "include/tasks/regression/cost_complex_regression.h: GetBranchingCosts, ComputeTrainScore", "include/solver/tree.h: IsLabelNode, ComputeTrainScore", "src/solver/solver.cpp: Solve"]}
{"id": "C90", "title": "Score of cost-sensitive trees", "statement": "The score of a cost-sensitive tree ranks trees like their costs per row; a fit reported as optimal has a training score between 0 and 1, where 1 stands for the total of all test costs plus the largest misclassification cost for every row outside the biggest class.", "quantifier": "all cost matrices, feature costs, data sets, limits and settings of the search", "why_tests_cant": "the bound is over all data sets and every cost specification", "anchors": ["src/tasks/cost_sensitive.cpp: CostSensitive::ComputeScore, ComputeTrainTestScore", "include/tasks/cost_sensitive.h: CostSensitive", "pystreed/cost_sensitive_classification.py: STreeDCostSensitiveClassifier.fit"]}
{"id": "C91", "title": "Cost files", "statement": "CostSpecifier(filename, number of labels) reads the misclassification matrix and the cost, discount cost, group and range of every original feature exactly as they are written, whatever blanks separate them, and refuses files that are incomplete.", "quantifier": "all numbers, names and groups, separators and line ends", "why_tests_cant": "files of any length with any text", "anchors": ["src/tasks/cost_sensitive.cpp: CostSpecifier::CostSpecifier", "bindings/bindings.cpp: CostSpecifier"]}
{"id": "C92", "title": "Cost specification that fits the data", "statement": "The costs of a test are looked up within the cost tables, or the cost specification is refused because it does not cover the features of the data.", "quantifier": "all cost specifications, branches and features", "why_tests_cant": "reads outside a vector need not be visible in a test run", "anchors": ["src/tasks/cost_sensitive.cpp: CostSensitive::GetBranchingCosts, InformTrainData", "pystreed/cost_sensitive_classification.py: STreeDCostSensitiveClassifier.fit"]}
{"id": "C93", "title": "Configurations that tuning skips", "statement": "When hyper-tuning skips the remaining node costs of a fold because a tree of the largest size was found, the scores it copies are scores of optimal trees of the skipped configurations, so the outcome of tuning is as if they had been run.", "quantifier": "all data, numbers of configurations, trees within the limits and node costs in descending order", "why_tests_cant": "the skipped runs are never made, so no test compares them", "anchors": ["src/solver/solver.cpp: Solver::HyperSolve", "src/tasks/accuracy/cost_complex_accuracy.cpp: GetTuneRunConfiguration", "src/tasks/regression/cost_complex_regression.cpp: GetTuneRunConfiguration"]}
{"id": "C94", "title": "Tuning of linear regression trees", "statement": "Hyper-tuning of piecewise linear and simple linear regression ends with a node cost and penalties from the documented grids (scaled by the largest correlation of a column with the targets), chosen in the last phase by the mean score on the folds, for all targets.", "quantifier": "all data, results of the runs on the folds and starting parameters", "why_tests_cant": "the outcome depends on the scores of all runs", "anchors": ["src/tasks/regression/piecewise_linear_regression.cpp: GetTuneRunConfiguration, ComputeMaxLambda", "src/tasks/regression/piecewise_simple_linear_regression.cpp: GetTuneRunConfiguration", "src/solver/solver.cpp: Solver::HyperSolve"]}
{"id": "C95", "title": "Leaves of piecewise linear regression belong to their fit", "statement": "The model of every leaf of a piecewise linear regression tree is computed from the data and the penalties of its own fit, whatever was fitted before with the same solver (as in hyper-tuning), although the last leaf is kept for reuse.", "quantifier": "all histories of fits, branches in any order", "why_tests_cant": "stale values appear only after particular sequences of branches", "anchors": ["src/tasks/regression/piecewise_linear_regression.cpp: SolveLeafNode", "src/solver/solver.cpp: Solver::Solve, HyperSolve"]}
{"id": "C96", "title": "Colours of exported leaves", "statement": "export_dot of a fitted classification tree writes a valid colour code for every leaf, with a colour of its own for every label, after any history of fits and exports of the estimator.", "quantifier": "all numbers of classes, trees and histories of fits and exports", "why_tests_cant": "the stored palette depends on the history of the estimator, and colours may meet only for particular numbers of classes", "anchors": ["pystreed/utils.py: _color_brew", "pystreed/classification.py: _export_dot_leaf_node", "pystreed/cost_sensitive_classification.py: _export_dot_leaf_node", "pystreed/group_fair.py: _export_dot_leaf_node", "pystreed/prescriptive_policy_generation.py: _export_dot_leaf_node", "pystreed/base.py: export_dot"]}
{"id": "C97", "title": "Colours of branching nodes of cost-sensitive trees", "statement": "The colour of a branching node in an exported instance-cost-sensitive tree is a valid colour code: the colour of the label with the least costs, the stronger the more clearly it is the cheapest.", "quantifier": "all cost vectors, also negative ones, and all numbers of classes", "why_tests_cant": "divisions and cut-offs depend on the costs of all rows of a node", "anchors": ["pystreed/instance_cost_sensitive_classification.py: _get_branching_color", "pystreed/utils.py: _color_brew"]}
{"id": "C98", "title": "Optimal trees with simple linear leaves", "statement": "A proven fit of STreeDPiecewiseLinearRegressor with simple=True returns a tree within the depth, node and leaf-size limits (at least five rows per leaf) with a line over at most one column in every leaf; its training score is the total of squared errors and ridge penalties per row, and no node costs are part of it; and no tree within the limits with any such lines has a smaller total of squared errors, ridge penalties and node costs, for the penalties given as parameters.", "quantifier": "all rows with rational targets and columns, parameters, limits, cache switches and clocks", "why_tests_cant": "optimality ranges over infinitely many trees and lines", "anchors": ["src/tasks/regression/piecewise_simple_linear_regression.cpp: SolveLeafNode, GetBranchingCosts, InformTrainData", "include/tasks/regression/piecewise_simple_linear_regression.h: UpdateParameters", "pystreed/regression.py: STreeDPiecewiseLinearRegressor._initialize_param_handler", "src/solver/solver.cpp: Solver::Solve"]}
{"id": "C99", "title": "Optimal survival trees", "statement": "A proven fit of STreeDSurvivalAnalysis returns a tree within the depth, node and leaf-size limits with positive risk factors; its training score is its loss (the deviance of the proportional hazards model with the Nelson-Aalen baseline hazard) per row; and no tree within the limits with any positive risk factors has a smaller loss.", "quantifier": "all rows with times, events and binary features, limits, cache switches, clocks and roundings of the computed losses", "why_tests_cant": "optimality ranges over infinitely many trees and risk factors", "anchors": ["src/tasks/survival_analysis.cpp: SolveLeafNode, GetLeafCosts, PreprocessTrainData", "src/solver/solver.cpp: Solve", "pystreed/survival_analysis.py: fit"]}
{"id": "C100", "title": "Calls of one solver on the same data", "statement": "When one solver is called several times on the same training data with different limits, as tuning does for the configurations of a fold, every call that is proven optimal returns a best tree within its limits, or no tree if an earlier call already returned one that is as good; returned trees are within the limits of their own call.", "quantifier": "all data, sequences of limits with or without resets, switches", "why_tests_cant": "the caches, the archive and the upper bound left by earlier calls depend on the whole history", "anchors": ["src/solver/solver.cpp: Solve lines 79-205, InitializeSolver lines 208-244, HyperSolve lines 905-990", "src/tasks/optimization_task.cpp: GetTuneRunConfiguration"]}
{"id": "C101", "title": "The tuned node cost is used", "statement": "After hyper-tuning, the tree that is returned is fitted with the chosen parameters: the cost of a node is the chosen cost-complexity times the spread of the targets (or the number of rows for accuracy).", "quantifier": "all data, orders of the rows, initial and tuned parameters", "why_tests_cant": "whether the last fit prepares the data again depends on the order and the repetitions of the rows", "anchors": ["src/solver/solver.cpp: HyperSolve lines 905-990, InitializeSolver lines 212-242", "src/model/data.cpp: ADataView::operator==", "src/tasks/regression/piecewise_linear_regression.cpp: PreprocessTrainData, InformTrainData", "src/tasks/regression/cost_complex_regression.cpp: PreprocessData, PreprocessTrainData", "src/tasks/regression/piecewise_simple_linear_regression.cpp: PreprocessTrainData", "include/tasks/accuracy/cost_complex_accuracy.h: GetBranchingCosts"]}
{"id": "C102", "title": "Printed conditions are the conditions tested", "statement": "For a tree fitted on a data frame, the condition printed for every branching node says in terms of the columns of the user's table which rows go to the 'satisfied' branch, no two different conditions are printed alike, and printing never raises an error.", "quantifier": "all data frames, labels, values, thresholds and trees", "why_tests_cant": "ranges over all texts and numbers; rounding and separators matter only for particular ones", "anchors": ["pystreed/binarizer.py: CategoricalBinarizer.fit, KThresholdBinarizer.fit, Binarizer.transform", "pystreed/base.py: _get_predicate_str, print_tree", "pystreed/utils.py: _dynamic_float_formatter"]}
{"id": "C103", "title": "The best small regression trees", "statement": "For subtrees of depth at most two with constant leaves, the special solver used in regression and cost-complex regression returns the root, value and sizes of a tree with the least squared error plus node costs among all trees of at most one, two and three branching nodes on the rows of that subtree, whatever numbers stand at the leaves, and whichever parts of the data it was called on before; the tree it then constructs has that value and means at its leaves.", "quantifier": "all tables with whole targets, paths to the subtree, earlier calls and prices", "why_tests_cant": "the incremental counts depend on the whole history of calls; the minimum is over infinitely many trees", "anchors": ["src/solver/terminal_solver.cpp: Solve, SolveOneNode, UpdateBestTwoNodeAssignment, UpdateBestThreeNodeAssignment, ConstructOptimalTree", "src/solver/cost_combiner.cpp: Initialize, InitializeReconstruct, UpdateCosts, UpdateCostsReconstruct, CalcSols", "src/tasks/regression/regression.cpp: GetInstanceLeafD2Costs, ComputeD2Costs", "src/tasks/regression/cost_complex_regression.cpp: GetInstanceLeafD2Costs, ComputeD2Costs"]}
{"id": "C104", "title": "The best small survival trees", "statement": "For subtrees of depth at most two the special solver used in survival analysis returns the root, value and sizes of a tree with the least total leaf loss among all trees of at most one and of at most three branching nodes on the rows of that subtree, whichever parts of the data it was called on before; the tree it then constructs has that value, and each leaf predicts the number of events of its rows (at least one half) divided by the sum of their hazards.", "quantifier": "all tables of binary features, hazards and events, paths to the subtree, earlier calls and constructions, and every function in place of the computed logarithm", "why_tests_cant": "tests compare a few data sets; the answer depends on counters updated from whatever part of the data was solved before", "anchors": ["src/solver/terminal_solver.cpp: Solve, SolveOneNode, ConstructOptimalTree", "src/solver/cost_combiner.cpp: UpdateCosts, InitializeReconstruct", "src/tasks/survival_analysis.cpp: GetInstanceLeafD2Costs, ComputeD2Costs, GetLabel"]}
{"id": "C105", "title": "The listing of changed parameters", "statement": "With verbose output the command-line program lists at its start exactly the parameters that will be used with a value other than the documented default, each once under its category with its value, or says that all defaults are used; a parameter that was not named in the arguments is not listed.", "quantifier": "all argument lists and all series of calls that set parameters", "why_tests_cant": "a test sees a few settings; a parameter that is compared with the wrong entry, left out or listed under a wrong heading shows only for the settings that change it", "anchors": ["src/utils/parameter_handler.cpp:ParameterHandler::PrintParametersDifferentFromDefault", "src/solver/define_parameters.cpp:ParameterHandler::DefineParameters", "src/main.cpp:main"]}
