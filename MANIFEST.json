{
 "claims": [
  {
   "property": "C01",
   "status": "partial",
   "theorems": [
    "C01_accuracy_optimal_partial",
    "C01_no_tree",
    "C52_optimal_without_depth_two_solver",
    "C53_default_value_optimal"
   ],
   "note": "Proved for a fresh fit with the accuracy task on the user's rows: without the depth-two solver for every depth and budget; with it up to depth three for every use of caches, bounds and feature order. What the hypotheses exclude is refuted: C06, C07, C46, C47 and, for depth four and above with the depth-two solver, C48."
  },
  {
   "property": "C02",
   "status": "partial",
   "theorems": [
    "C02_budgets_partial",
    "C02_too_few_rows"
   ],
   "note": "Depth, leaf size, labels, features for all switches and clocks. The node budget is proved for full budgets, budgets of at most one node, without caches, and with the data set cache (the default) up to depth three; missing: max-num-nodes below 2^depth-1 with the branch cache, or with the data set cache at depth four and more."
  },
  {
   "property": "C03",
   "status": "proved",
   "theorems": [
    "C03_training_score"
   ],
   "note": "All switches, budgets and clocks."
  },
  {
   "property": "C04",
   "status": "proved",
   "theorems": [
    "C04_proven_is_timely",
    "C04_no_limit_is_proven",
    "C53_default_value_optimal"
   ],
   "note": "A proven result is identical to the result without time limit, whose optimality is C01/C52/C53."
  },
  {
   "property": "C05",
   "status": "partial",
   "theorems": [
    "C05_switches_partial"
   ],
   "note": "For the settings under which C01 is proved (all caches, bounds and orders up to depth three); the others are refuted (C06, C07, C46, C47, C48)."
  },
  {
   "property": "C06",
   "status": "partial",
   "theorems": [
    "C06_leaf_size_partial",
    "C06_depth_two_leaf_size_refuted"
   ],
   "note": "REFUTED in general: the theorem gives a data set (minimum leaf size 2). Holds for minimum leaf size 1, and for all leaf sizes without the depth-two solver and the similarity bound."
  },
  {
   "property": "C07",
   "status": "partial",
   "theorems": [
    "C07_all_trees_partial",
    "C07_all_trees_refuted"
   ],
   "note": "REFUTED with the depth-two solver (exclusive-or data set). Holds without it, for every depth and budget."
  },
  {
   "property": "C08",
   "status": "proved",
   "theorems": [
    "C08_branch_canonical"
   ],
   "note": "Equality of branches is equality up to order of the decisions."
  },
  {
   "property": "C09",
   "status": "proved",
   "theorems": [
    "C09_split_partition"
   ],
   "note": ""
  },
  {
   "property": "C10",
   "status": "proved",
   "theorems": [
    "C10_data_determined_by_branch"
   ],
   "note": ""
  },
  {
   "property": "C11",
   "status": "proved",
   "theorems": [
    "C11_keys",
    "C11_memo"
   ],
   "note": "The memo is compared by branch only; C10 supplies the hypothesis that a branch always comes with the same data within one solve."
  },
  {
   "property": "C12",
   "status": "proved",
   "theorems": [
    "C12_every_history",
    "C12_found"
   ],
   "note": "Branch cache and dataset cache behind the common interface, any cost function that is at least 0, every history of store, raise and transfer calls with true facts, starting from empty caches."
  },
  {
   "property": "C13",
   "status": "proved",
   "theorems": [
    "C13_pair_counts_exact",
    "C13_single_counts_exact"
   ],
   "note": "All additive tasks."
  },
  {
   "property": "C14",
   "status": "proved",
   "theorems": [
    "C14_incremental_counts",
    "C14_tables_exact"
   ],
   "note": "Histories of calls on subsets (reached by branches) of one data set, as the search makes them; all additive tasks."
  },
  {
   "property": "C15",
   "status": "proved",
   "theorems": [
    "C15_pair_index_bijection",
    "C15_vector_pairs"
   ],
   "note": ""
  },
  {
   "property": "C16",
   "status": "partial",
   "theorems": [
    "C16_depth_two_optimal_partial",
    "C16_depth_two_errors_partial"
   ],
   "note": "Proved for the budgets one and three (all additive tasks); the budget two is refuted, see C46."
  },
  {
   "property": "C17",
   "status": "proved",
   "theorems": [
    "C17_differences_exact",
    "C17_total_difference_zero"
   ],
   "note": ""
  },
  {
   "property": "C18",
   "status": "partial",
   "theorems": [
    "C18_tree",
    "C18_bound",
    "C18_no_difference",
    "C18_custom",
    "C18_instance_costs",
    "C18_leaf_size_refuted",
    "C18_regression_refuted"
   ],
   "note": "Proved for every additive objective with a constant cost per node when the minimum leaf size is at most one; the own bound of the instance-cost task is proved per tree. REFUTED for a minimum leaf size of two and for cost-complex regression (the variance inside a group is missing in the worst contribution)."
  },
  {
   "property": "C19",
   "status": "proved",
   "theorems": [
    "C19_front",
    "C19_front_f1",
    "C19_bounded_front",
    "C19_bounded_front_f1",
    "C19_mixed_merge_refuted",
    "C19_mixed_merge_shrinks",
    "C19_fewer_nodes_refuted"
   ],
   "note": "Any history of additions, copies and clearings. Bounded containers: proved for the two consistent merges; the two mixed merges used for bounds lose solutions (refuted), and an equal value with fewer nodes does not replace the kept one."
  },
  {
   "property": "C20",
   "status": "proved",
   "theorems": [
    "C20_dominance",
    "C20_sums",
    "C20_best_value",
    "C20_best_f1_tree"
   ],
   "note": "From the user's rows to the returned tree, with bounds, caches and depth-two solver off; double rounding is a hypothesis met by rounding to 53 bits."
  },
  {
   "property": "C21",
   "status": "proved",
   "theorems": [
    "C21_vectors_consistent",
    "C21_flip_disable"
   ],
   "note": ""
  },
  {
   "property": "C22",
   "status": "proved",
   "theorems": [
    "C22_unflipped_tree",
    "C22_same_optimum"
   ],
   "note": "All additive tasks."
  },
  {
   "property": "C23",
   "status": "proved",
   "theorems": [
    "C23_predict",
    "C23_score"
   ],
   "note": "Integer labels; the same tables and trees for the score of accuracy."
  },
  {
   "property": "C24",
   "status": "proved",
   "theorems": [
    "C24_train_test",
    "C24_kfold"
   ],
   "note": "Sizes with exact rational rounding instead of double; the shuffle is an arbitrary permutation."
  },
  {
   "property": "C25",
   "status": "partial",
   "theorems": [
    "C25_train_test_partial",
    "C25_enough_rows_partial",
    "C25_folds_balanced_partial",
    "C25_stratified_kfold_refuted",
    "C25_small_regression_refuted"
   ],
   "note": "REFUTED for k folds (groups of the wrong label) and for regression with one to nine rows. Train/test splitting of classification data always succeeds and keeps the labels; k folds have their share of every label up to one row; regression with ten or more rows succeeds."
  },
  {
   "property": "C26",
   "status": "proved",
   "theorems": [
    "C26_pop_all_sorted",
    "C26_pop_max"
   ],
   "note": ""
  },
  {
   "property": "C27",
   "status": "proved",
   "theorems": [
    "C27_orders_are_permutations",
    "C27_gini_order_by_gain"
   ],
   "note": ""
  },
  {
   "property": "C28",
   "status": "partial",
   "theorems": [
    "C28_set_and_toggle",
    "C28_equality",
    "C28_clear_refuted",
    "C28_size_zero_refuted"
   ],
   "note": "Set, toggle, membership and equality proved; clearing a bit and size zero REFUTED."
  },
  {
   "property": "C29",
   "status": "partial",
   "theorems": [
    "C29_ranges",
    "C29_accepts",
    "C29_rejects",
    "C29_unknown",
    "C29_others_unchanged",
    "C29_command_line",
    "C29_declare_twice",
    "C29_nan_refuted",
    "C29_missing_value_refuted",
    "C29_blank_value_refuted",
    "C29_declare_bool_twice_refuted"
   ],
   "note": "Proved for numbers; refuted for not-a-number, which every float parameter accepts, for a command line whose last value is missing or blank (undefined behaviour), and for declaring a Boolean twice."
  },
  {
   "property": "C30",
   "status": "proved",
   "theorems": [
    "C30_check",
    "C30_estimator"
   ],
   "note": "Exact condition of the check; the estimator always passes min(nodes, 2^depth - 1). A not-a-number cost complexity passes the check."
  },
  {
   "property": "C31",
   "status": "proved",
   "theorems": [
    "C31_grid",
    "C31_once",
    "C31_every_tree"
   ],
   "note": "Exact contents, no repetition, and every tree within the budgets has its size in the grid."
  },
  {
   "property": "C32",
   "status": "partial",
   "theorems": [
    "C32_best_largest",
    "C32_best_smallest",
    "C32_chooses",
    "C32_carried",
    "C32_enough_data",
    "C32_costs",
    "C32_ties_refuted",
    "C32_small_data_refuted"
   ],
   "note": "Proved for finished runs (best mean score, earliest of the best). An unfinished run copies an earlier score of its fold. REFUTED: cost-complex accuracy with fewer than ten rows has no configuration and index -1 is read; the cost-sensitive comparison takes the last of tied ones."
  },
  {
   "property": "C33",
   "status": "partial",
   "theorems": [
    "C33_average",
    "C33_kept",
    "C33_single",
    "C33_first_is_lowest",
    "C33_best_first_refuted"
   ],
   "note": "Nothing is lost, ascending order, exact mean. REFUTED: the first solution is the one of lowest score, also for tasks that maximise; harmless only for a single solution."
  },
  {
   "property": "C34",
   "status": "proved",
   "theorems": [
    "C34_sound",
    "C34_defined",
    "C34_fuel",
    "C34_trees",
    "C34_vectors_ok",
    "C34_memo",
    "C34_exact_refuted",
    "C34_first_group_refuted",
    "C34_new_data_refuted"
   ],
   "note": "Sound for every classifier and every tree, for every non-empty part of the data, and for all calls through the memo as long as a branch stands for one set of points. Findings: the bound is weaker than the sum over groups it describes, and the memo is not emptied for new data (not reachable from fit, which makes a new solver)."
  },
  {
   "property": "C35",
   "status": "partial",
   "theorems": [
    "C35_reduce_budget",
    "C35_reduced_depth",
    "C35_break",
    "C35_accuracy",
    "C35_lower_bound_partial",
    "C35_task_bound",
    "C35_accuracy_bound_partial",
    "C35_bound_refuted",
    "C35_value_refuted"
   ],
   "note": "Integer costs per node, exact arithmetic (tolerance 1e-6 left out). Budget reduction, early exit and the lower bound proved for every task with a constant cost per node; the lower bound only for subproblems at least as deep as the searches that are finished. For accuracy the task's own bound is proved sound on every subproblem of the preprocessed data, so nothing is assumed of the task. REFUTED for the other subproblems: max_depth_finished is used although the other side of a split may need the depth; with the default settings cost-complex accuracy returns a tree of cost 10 as proven optimal where a tree of cost 8 exists (32 rows, 4 features, depth 3)."
  },
  {
   "property": "C36",
   "status": "partial",
   "theorems": [
    "C36_tables",
    "C36_charge",
    "C36_path_charges",
    "C36_tree_cost",
    "C36_leaf_costs",
    "C36_depth_two",
    "C36_total_test_costs",
    "C36_total_is_bound",
    "C36_worst_instance",
    "C36_total_bound_refuted",
    "C36_diagonal_refuted",
    "C36_instance_costs",
    "C36_negative_costs_refuted"
   ],
   "note": "Integer costs. Test costs (all specifications that divide the binary features, all paths, all trees) proved in full. Leaf costs agree between search and depth-two counters when right predictions are free; REFUTED with a cost on the diagonal. Also: the total test costs are a bound for one instance only when the discount is the same within a group (REFUTED otherwise), and negative costs per instance are cut off by the depth-two solver only."
  },
  {
   "property": "C37",
   "status": "proved",
   "theorems": [
    "C37_shift",
    "C37_ranking",
    "C37_outcome",
    "C37_nonnegative",
    "C37_counters",
    "C37_worst",
    "C37_tiny_refuted"
   ],
   "note": "For all data with distinct ids and all trees. The worst case per label stays an upper bound through any history of trainings of one task object. Finding: with a propensity of at most 1e-6 the doubly robust score drops the predicted outcome."
  },
  {
   "property": "C38",
   "status": "proved",
   "theorems": [
    "C38_value",
    "C38_exact",
    "C38_python",
    "C38_positive",
    "C38_monotone",
    "C38_agree",
    "C38_close_refuted"
   ],
   "note": "Exact rational arithmetic. The solver's lookup is the estimator at t + 1e-6: equal to the estimator at t unless an event falls within 1e-6 after t (refuted in that case). The Python estimator is exact for all t >= 0; both agree outside the tolerance."
  },
  {
   "property": "C39",
   "status": "proved",
   "theorems": [
    "C39_leaf",
    "C39_costs",
    "C39_counters",
    "C39_undo",
    "C39_split",
    "C39_merge",
    "C39_cc_leaf",
    "C39_bound",
    "C39_second_training_refuted"
   ],
   "note": "Exact arithmetic. Both constant regression tasks; for the cost-complex one also that joining rows with equal features changes the cost of no tree and that its equivalent-points bound never exceeds the cost of a tree. Finding: the last group is joined in the data set itself, so a second training on the same data set counts rows twice (C++ interface only: fit makes a new data set)."
  },
  {
   "property": "C40",
   "status": "proved",
   "theorems": [
    "C40_clustering",
    "C40_zero_weight_refuted",
    "C40_cells_refuted"
   ],
   "note": "Exact rationals. Clustering routine with early stop against all choices of centers and all assignments, any number of points with positive weights (the only weights the bound passes); both row fillers, the one for at most 300 points and SMAWK. Beside it: a first weight of zero (documented as equal weights) makes every cost zero; cells of the SMAWK matrix with more clusters than distinct values need not be minimal, which never reaches the answer."
  },
  {
   "property": "C41",
   "status": "partial",
   "theorems": [
    "C41_ascending",
    "C41_interval",
    "C41_monotone",
    "C41_count",
    "C41_inside",
    "C41_both_sides",
    "C41_quantiles",
    "C41_separates",
    "C41_exclusive",
    "C41_one_category",
    "C41_category_count",
    "C41_categories_separate",
    "C41_width",
    "C41_binary",
    "C41_lossless",
    "C41_constant_indicator_refuted",
    "C41_once_refuted"
   ],
   "note": "Nested and monotone thresholds, evenly spread quantiles, exclusive categories, exactly one for training values with three or more, lossless for few values, all proved with exact arithmetic. REFUTED: a categorical 0/1 column comes twice, and the quantile strategy can give a threshold all training rows meet. Thresholds of the strategy tree are an input."
  },
  {
   "property": "C42",
   "status": "partial",
   "theorems": [
    "C42_sizes",
    "C42_string",
    "C42_print",
    "C42_print_reads",
    "C42_default_names",
    "C42_own_names",
    "C42_dot",
    "C42_dot_numbers",
    "C42_dot_determines",
    "C42_equal_names_refuted"
   ],
   "note": "Sizes, the C++ text, the printed tree and the exported graph each determine the tree, for integer labels and distinct one-line names; the printed tree read by its indentation gives the predictions. REFUTED for names that print alike: thresholds are rounded when printed."
  },
  {
   "property": "C43",
   "status": "partial",
   "theorems": [
    "C43_shares",
    "C43_distribution",
    "C43_works",
    "C43_columns",
    "C43_minority_refuted",
    "C43_gap_refuted"
   ],
   "note": "Whenever a result is returned it is the class frequencies of the leaf; a result with one column per label is returned for majority leaves and labels 0..k-1. REFUTED: a leaf with a minority label (F1) or labels with gaps raise an error."
  },
  {
   "property": "C44",
   "status": "proved",
   "theorems": [
    "C44_rows_read",
    "C44_train_and_test",
    "C44_train_only",
    "C44_classification_files",
    "C44_sample",
    "C44_other_value",
    "C44_separators",
    "C44_blank_line_refuted",
    "C44_wider_line_refuted",
    "C44_narrower_line_refuted",
    "C44_two_blanks_refuted",
    "C44_negative_label_refuted",
    "C44_first_rows_refuted"
   ],
   "note": "Character-level model of the reader (release build, assertions off). A well-formed file has one separator character per feature column, equal widths and no blank lines; LF or CRLF, missing final newline allowed. Generic in label type and extra data, instantiated for integer labels. The refuted theorems show what happens to blank lines, uneven widths, doubled blanks, negative labels and that num-instances draws a sample. The train-test split is C24."
  },
  {
   "property": "C45",
   "status": "partial",
   "theorems": [
    "C45_second_solve_refuted",
    "C100_best_so_far"
   ],
   "note": "REFUTED: the claim is false of the code: a second Solve on the same data returns no tree. What holds: the best tree over all calls so far is optimal for the limits of every call so far (C100_best_so_far)."
  },
  {
   "property": "C46",
   "status": "partial",
   "theorems": [
    "C46_node_budget_partial",
    "C46_two_nodes_refuted"
   ],
   "note": "REFUTED with the depth-two solver: the theorem gives a data set. Holds without it for every depth and node budget."
  },
  {
   "property": "C47",
   "status": "partial",
   "theorems": [
    "C47_similarity_partial",
    "C47_similarity_leaf_size_refuted"
   ],
   "note": "REFUTED for minimum leaf size 2: the theorem gives a data set. Holds for minimum leaf size 1."
  },
  {
   "property": "C48",
   "status": "partial",
   "theorems": [
    "C48_depth_three_partial",
    "C48_depth_four_rebuild_refuted"
   ],
   "note": "Proved up to depth three for every use of the caches and bounds, and for every depth without the depth-two solver. REFUTED beyond: the second theorem gives a data set for depth 4 and default settings."
  },
  {
   "property": "C49",
   "status": "partial",
   "theorems": [
    "C49_remove_partial",
    "C49_remove_breaks_order_refuted"
   ],
   "note": "REFUTED: the theorem gives a heap whose order is broken. Proved after any history: exactly the removed key leaves, priorities stay, the next maximum is right, and an exact condition for the order to be kept. The selector never removes arbitrary keys."
  },
  {
   "property": "C50",
   "status": "partial",
   "theorems": [
    "C50_changing_sizes_partial",
    "C50_second_predict_refuted",
    "C50_always_refuted"
   ],
   "note": "REFUTED: every second predict with equally many rows reads released memory. Proved for any history in which consecutive tables differ in size."
  },
  {
   "property": "C51",
   "status": "proved",
   "theorems": [
    "C51_question_length"
   ],
   "note": ""
  },
  {
   "property": "C52",
   "status": "proved",
   "theorems": [
    "C52_optimal_without_depth_two_solver"
   ],
   "note": ""
  },
  {
   "property": "C53",
   "status": "proved",
   "theorems": [
    "C53_default_value_optimal"
   ],
   "note": ""
  },
  {
   "property": "C54",
   "status": "proved",
   "theorems": [
    "C54_splits"
   ],
   "note": ""
  },
  {
   "property": "C55",
   "status": "partial",
   "theorems": [
    "C55_refuses_after_failed_fit",
    "C55_no_tree_before",
    "C55_get_tree_refuted",
    "C55_never_fitted_refuted"
   ],
   "note": "Predict, score and size queries refuse after a fit without a tree; REFUTED for get_tree, print_tree and export_dot, which keep the tree of an earlier fit, and a never fitted object passes the fitted check."
  },
  {
   "property": "C56",
   "status": "proved",
   "theorems": [
    "C56_history_free",
    "C56_one_result",
    "C56_after_raise_refuted"
   ],
   "note": "Every history, for a fit that returns; REFUTED after a fit that raises: the binarizer is already replaced."
  },
  {
   "property": "C57",
   "status": "partial",
   "theorems": [
    "C57_exact",
    "C57_nodes_refuted",
    "C57_time_refuted"
   ],
   "note": "REFUTED; the theorem gives the exact condition under which the search is reached."
  },
  {
   "property": "C58",
   "status": "partial",
   "theorems": [
    "C58_late_refuted",
    "C58_in_time"
   ],
   "note": "REFUTED: a negative rest of time is rejected by the parameter handler, which ends the process; with time left it is kept."
  },
  {
   "property": "C59",
   "status": "proved",
   "theorems": [
    "C59_leaf_optimal",
    "C59_leaf_unique",
    "C59_score",
    "C59_counters",
    "C59_tree",
    "C59_reached",
    "C59_no_event_refuted"
   ],
   "note": "Real arithmetic (axioms of the standard library's reals). Finding: a leaf without an event has value 0 in the search but scores 1/2."
  },
  {
   "property": "C60",
   "status": "partial",
   "theorems": [
    "C60_bound",
    "C60_task_bound",
    "C60_search_refuted"
   ],
   "note": "The bound itself is proved for both settings, every part of every data set, every sequence of node budgets and the memo of a branch, and as the search asks the task for it. REFUTED for the search: the sparse bound adds a cost per node to a bound that already contains it, and a fit returns 11 as proven optimal where a tree of cost 9 exists (8 rows, 2 features, depth 2, terminal solver and similarity bound off)."
  },
  {
   "property": "C61",
   "status": "partial",
   "theorems": [
    "C61_fair_optimum_partial",
    "C61_refuted"
   ],
   "note": "Both tasks, all data, limits, sizes and feature orders, bounds, caches and depth-two solver off, exact arithmetic; proved while the product of the group sizes is below 10000 and no column is a copy of the sensitive one. REFUTED above: the tolerance 1e-4 on group scores drops a subtree that was needed (201 rows)."
  },
  {
   "property": "C62",
   "status": "partial",
   "theorems": [
    "C62_group_coding_partial",
    "C62_refuted"
   ],
   "note": "Under the hypotheses of C61. REFUTED with a copy of the sensitive column: it is disabled or usable depending on which group is larger."
  },
  {
   "property": "C63",
   "status": "partial",
   "theorems": [
    "C63_test_score_partial",
    "C63_train_score",
    "C63_large_refuted",
    "C63_small_refuted"
   ],
   "note": "Proved for training data and for test data with groups of the same sizes. REFUTED otherwise, for all trees: test rows are divided by the training group sizes, so test data twice as large scores 0 and test data half as large never violates the limit."
  },
  {
   "property": "C64",
   "status": "partial",
   "theorems": [
    "C64_no_group1_refuted",
    "C64_no_group0_refuted",
    "C64_no_group_refuted",
    "C64_both_groups"
   ],
   "note": "REFUTED: with an empty group the scores are NaN and only trees that always answer 1 (or always 0) pass; with both empty (equality of opportunity without positive rows) none does. With both groups the test with NaN agrees with the exact one of C61."
  },
  {
   "property": "C65",
   "status": "partial",
   "theorems": [
    "C65_array_partial",
    "C65_name_partial",
    "C65_index_predict_partial",
    "C65_negative_refuted",
    "C65_index_refit_refuted"
   ],
   "note": "Proved for arrays with an index from the front, for data frames with a name (every history) and for predictions with an index. REFUTED for negative indices on arrays (columns are duplicated) and for a second fit on the same data frame with an index (another column is moved to the front)."
  },
  {
   "property": "C66",
   "status": "partial",
   "theorems": [
    "C66_binary_partial",
    "C66_threshold_partial",
    "C66_refuted"
   ],
   "note": "Proved for a sensitive column with values 0 and 1, and for data without binary and categorical columns. REFUTED for every other sensitive column when some column is binary: that column takes its place."
  },
  {
   "property": "C67",
   "status": "partial",
   "theorems": [
    "C67_routed_partial",
    "C67_refuted"
   ],
   "note": "Proved for five estimators. REFUTED for the fair and the cost-sensitive classifier (always a ValueError) and the instance-cost-sensitive one (ignored)."
  },
  {
   "property": "C68",
   "status": "partial",
   "theorems": [
    "C68_first_fit_partial",
    "C68_continuous",
    "C68_refit_refuted",
    "C68_matrix_refuted"
   ],
   "note": "Proved for the first fit and all predictions after it, with the exact set of columns that count as continuous. REFUTED for a second fit and for fits on a matrix."
  },
  {
   "property": "C69",
   "status": "partial",
   "theorems": [
    "C69_leaf_partial",
    "C69_variance",
    "C69_refuted"
   ],
   "note": "REFUTED when the values of a column are close together (determinant below 0.001): the leaf is constant although a line fits exactly. Otherwise the leaf is best for every data set, penalty and part of the data."
  },
  {
   "property": "C70",
   "status": "partial",
   "theorems": [
    "C70_costs",
    "C70_counters",
    "C70_undo",
    "C70_merge",
    "C70_second_training_refuted"
   ],
   "note": "Costs, counters and merging proved for all data. REFUTED for training again on the same data: the last group is put together in place and counted twice."
  },
  {
   "property": "C71",
   "status": "partial",
   "theorems": [
    "C71_simple_refuted",
    "C71_simple_partial",
    "C71_linear_refuted",
    "C71_linear_partial"
   ],
   "note": "REFUTED for simple linear regression (a line leaves the range of the targets) and for piecewise linear regression (the search for coefficients stops early on the smaller data). Holds for simple linear regression with predictions in the range and rows not put together, and for piecewise linear regression whenever the old rows have one the new rows lack."
  },
  {
   "property": "C72",
   "status": "partial",
   "theorems": [
    "C72_condition",
    "C72_constant_target_refuted"
   ],
   "note": "REFUTED: a leaf with equal targets gets no model at all. The exact condition is proved for all data and penalties."
  },
  {
   "property": "C73",
   "status": "partial",
   "theorems": [
    "C73_cost_partial",
    "C73_score",
    "C73_refuted"
   ],
   "note": "REFUTED: for coefficients below 0.0001 a product is left out and the cost of a perfect model is far below zero. Holds for all data when no coefficient and no covariance is tiny; the training score is the squared error without condition."
  },
  {
   "property": "C74",
   "status": "partial",
   "theorems": [
    "C74_mean_partial",
    "C74_one_column_partial",
    "C74_settled_partial",
    "C74_refuted",
    "C74_lasso_refuted"
   ],
   "note": "REFUTED: for two strongly correlated columns the search stops with more than 99 percent of the error although an exact model exists, and with a lasso penalty a coefficient that should return to zero stays. Proved: never worse than the mean; the best model for one column; the best model without lasso if one more pass changes nothing."
  },
  {
   "property": "C75",
   "status": "partial",
   "theorems": [
    "C75_partial",
    "C75_constant_column_refuted",
    "C75_narrow_column_refuted"
   ],
   "note": "REFUTED for constant columns (division by zero in every leaf) and for standard deviations below 0.000001. Holds for all trees and rows when all standard deviations are at least that."
  },
  {
   "property": "C76",
   "status": "partial",
   "theorems": [
    "C76_refuted",
    "C76_depth_two_partial"
   ],
   "note": "REFUTED with the default switches and two nodes at depth two: a perfect three-node tree stops the depth-two solver before its two-node result is complete. Proved for all data (leaves of at least one row, fewer than 2^25 rows), the depth-two solver on and all other switches: at most one split, and depth two with three splits."
  },
  {
   "property": "C77",
   "status": "partial",
   "theorems": [
    "C77_refuted",
    "C77_partial"
   ],
   "note": "REFUTED with the default switches for both fairness tasks on three and four rows. Holds for all data (fewer than 10000 pairs of rows of the two groups), limits and other switches when the depth-two solver is off."
  },
  {
   "property": "C78",
   "status": "partial",
   "theorems": [
    "C78_refuted",
    "C78_f1_refuted",
    "C76_depth_two_partial"
   ],
   "note": "REFUTED for both fairness tasks with the default switches at depth three (a tree without labels is returned), and for the F1-score with all sizes tried and the depth-two solver off. For the F1-score with the depth-two solver on, at most one split or depth two with three splits, a labelled tree is always returned."
  },
  {
   "property": "C79",
   "status": "partial",
   "theorems": [
    "C79_refuted",
    "C79_no_upper_bound_refuted"
   ],
   "note": "REFUTED for both tasks with the default switches at depth three, and at depth two with upper bounds off."
  },
  {
   "property": "C80",
   "status": "partial",
   "theorems": [
    "C80_f1_sound",
    "C80_fair_sound"
   ],
   "note": "For all switches, data, limits and both loops over sizes; fairness with fewer than 10000 pairs of rows of the two groups. Missing: a node limit below 2^depth-1 for the rebuilt tree (the reported value is shown to be attained within it)."
  },
  {
   "property": "C81",
   "status": "proved",
   "theorems": [
    "C81_width"
   ],
   "note": "For any parts of the estimator, any history before the fit and any calls other than fit after it; a table the binarizer itself refuses also raises (C56)."
  },
  {
   "property": "C82",
   "status": "partial",
   "theorems": [
    "C82_optimal_partial",
    "C82_near_partial",
    "C82_no_tree",
    "C82_score",
    "C82_python_partial",
    "C82_last_label_refuted",
    "C82_large_costs_refuted"
   ],
   "note": "For whole costs (or multiples of a unit) with a sum of largest costs below 10000 units; the comparison of the code has a relative tolerance of 1e-4, and with larger costs a better tree can be missed (refuted). For costs of any size and searches without lower bounds and depth-two solver, the tree is proved to be within the factor (10001/10000)^((d+1)(d+2)/2) of the best, less than 1.0011 for depth three. From Python, labels above the largest label that is the cheapest one of some row are never considered (refuted)."
  },
  {
   "property": "C83",
   "status": "partial",
   "theorems": [
    "C83_optimal_partial",
    "C83_value",
    "C83_share",
    "C83_large_span_refuted",
    "C83_ranking_refuted"
   ],
   "note": "For outcomes that are multiples of a unit and span less than 10000 units over all rows, propensities above 1e-6 and treatments up to the largest historic one; without the bound on the span it is refuted (relative tolerance of the comparison). REFUTED for the reported score: it is the share of rows that get their optimal treatment (C83_share), and of treatment 0 when the table has no optimal treatments."
  },
  {
   "property": "C84",
   "status": "partial",
   "theorems": [
    "C84_test_costs_partial",
    "C84_near_partial",
    "C84_no_test_costs_partial",
    "C84_lower_bound_refuted",
    "C84_duplicate_refuted",
    "C84_data_cache_refuted"
   ],
   "note": "Proved with test costs and group discounts for searches without lower bounds, depth-two solver and data set cache when no column repeats another one (costs below 10000 units: optimal; any size: within a factor (10001/10000)^((d+1)(d+2)/2)), and without test costs for every combination of switches. Refuted otherwise: with the default settings the stored lower bound of a branch can exceed the cost of its leaf; of two equal features the later one is dropped although it is cheaper to test; on the command line the data set cache ignores the path on which the test costs depend."
  },
  {
   "property": "C85",
   "status": "partial",
   "theorems": [
    "C85_optimal_partial",
    "C85_near_partial",
    "C85_score",
    "C85_default_refuted"
   ],
   "note": "Proved for searches without lower bounds and depth-two solver, with upper bounds, for a whole number as the cost of a node (below 10000 in total: optimal; any size: within a factor (10001/10000)^((d+1)(d+2)/2)); the score for all settings. Refuted with the default settings (consequence of C35_value_refuted)."
  },
  {
   "property": "C86",
   "status": "partial",
   "theorems": [
    "C86_times",
    "C86_curves",
    "C86_ranking",
    "C86_calibrated",
    "C86_last_fit",
    "C86_refused_fit_refuted"
   ],
   "note": "Proved over the reals for every data set with times that are not negative. REFUTED in one part: a fit that is refused by the checks of the base class replaces the baseline hazard, so later predictions mix the old tree with the new data. get_unique_times belongs to sksurv and is modelled by its documentation."
  },
  {
   "property": "C87",
   "status": "partial",
   "theorems": [
    "C87_fit_partial",
    "C87_later",
    "C87_unseen_refuted",
    "C87_gap_refuted",
    "C87_score_refuted"
   ],
   "note": "Proved for fits in whose data every treatment occurs and for all later calls. REFUTED otherwise: a fit counts the treatments that occur, so a documented table with an unseen treatment is refused or, if the number of treatments is one more than twice those that occur, read with predicted outcomes in the place of the optimal treatment and the counterfactual outcomes; gaps in the numbers of the treatments are not noticed; a test table without optimal treatments is scored against treatment 0."
  },
  {
   "property": "C88",
   "status": "partial",
   "theorems": [
    "C88_fit",
    "C88_later",
    "C88_vectors_refuted"
   ],
   "note": "Proved for arrays. REFUTED for lists of CostVector objects, whose lengths are not checked."
  },
  {
   "property": "C89",
   "status": "partial",
   "theorems": [
    "C89_regression_partial",
    "C89_cost_complex_partial",
    "C89_sentinel_refuted",
    "C89_similarity_refuted",
    "C89_lower_bound_refuted"
   ],
   "note": "Proved up to the factor (10001/10000)^((d+1)(d+2)/2) of the tolerant comparisons for searches without lower bounds and depth-two solver, for whole targets (or multiples of a unit) of any size up to 2^31-2 with exact arithmetic; cost-complex regression with upper bounds on and a minimum leaf size of 1. REFUTED with lower bounds: regression with the similarity bound and leaves of two rows (a tree with 4/3 of the least error is reported as optimal), cost-complex regression with stored lower bounds. Refuted for a leaf mean of exactly 2147483647, which stands for a missing label."
  },
  {
   "property": "C90",
   "status": "partial",
   "theorems": [
    "C90_rank",
    "C90_at_most_one_partial",
    "C90_one_class_refuted"
   ],
   "note": "Ranking proved for all costs; the range of the training score where C84 proves the optimum (no lower bounds and depth-two solver, distinct columns, costs below 10000 in total). Refuted: with one class and no test costs the score is a division by zero."
  },
  {
   "property": "C91",
   "status": "partial",
   "theorems": [
    "C91_read",
    "C91_lines_refuted"
   ],
   "note": "Reading proved for decimal numbers without exponent (values exact instead of doubles). Refuted: incomplete files are not refused: an empty line at the end becomes a feature whose numbers have no value, and a short row of the matrix repeats its last number."
  },
  {
   "property": "C92",
   "status": "partial",
   "theorems": [
    "C92_inside",
    "C92_outside_refuted"
   ],
   "note": "Proved for specifications whose ranges divide the features of the data. Refuted: a specification of fewer features than the data is accepted, and the costs of the others are read behind the table."
  },
  {
   "property": "C93",
   "status": "partial",
   "theorems": [
    "C93_skipped",
    "C93_same_scores",
    "C93_grids",
    "C93_ties_refuted"
   ],
   "note": "Every copied score is that of an optimal tree of the skipped configuration, and the scores are the same whenever optimal trees have one test score; refuted with ties, where the skipped run might have returned another optimal tree. Runs that are finished; node costs with exact arithmetic."
  },
  {
   "property": "C94",
   "status": "partial",
   "theorems": [
    "C94_scale",
    "C94_linear",
    "C94_linear_range",
    "C94_simple",
    "C94_simple_range",
    "C94_accepted",
    "C94_large_refuted"
   ],
   "note": "All three phases are described: the grids, the parameters they start from and the choice by mean score, with scores carried over after a tree of the largest size in the phase of the node costs. Proved whenever the largest correlation is at most 2*10^12; REFUTED above: half of it exceeds the range of the penalty parameter and the process ends. Runs on folds are inputs."
  },
  {
   "property": "C95",
   "status": "proved",
   "theorems": [
    "C95_fresh",
    "C95_needs_root"
   ],
   "note": "All histories; every fit first solves the leaf of all rows (solver.cpp:88-100), and the second theorem shows that this is what the memo relies on."
  },
  {
   "property": "C96",
   "status": "partial",
   "theorems": [
    "C96_palette",
    "C96_many_refuted",
    "C96_export_partial",
    "C96_refit_refuted",
    "C96_gap_refuted"
   ],
   "note": "Proved for up to 360 classes, labels without gaps and the same number of classes in all fits of the estimator. REFUTED otherwise: with more than 360 classes two labels share a colour; after a fit with more classes than at the first export, and for labels with a gap such as {0,2}, export_dot ends with an IndexError. Colours with exact arithmetic."
  },
  {
   "property": "C97",
   "status": "partial",
   "theorems": [
    "C97_code_partial",
    "C97_clear_refuted",
    "C97_single_refuted"
   ],
   "note": "Proved for two or more classes: a valid code of a least-cost label between its colour and white. REFUTED: the strength does not show how clear the choice is, and with one class there is no second cost (IndexError)."
  },
  {
   "property": "C98",
   "status": "partial",
   "theorems": [
    "C98_simple_partial",
    "C98_units",
    "C98_ridge_refuted",
    "C98_lower_bound_refuted"
   ],
   "note": "Near-optimal (factor (10001/10000)^e) over all trees of lines, for lower bounds and depth-two solver off, upper bounds on, exact arithmetic in units that make all costs whole (they exist for all data: C98_units), columns with distinct values in their leaves, and the penalty given as lasso_penalty. REFUTED with stored lower bounds (a leaf is reported as optimal although a tree costs less), and for ridge_penalty: the parameter is not read, the ridge penalty is taken from lasso_penalty."
  },
  {
   "property": "C99",
   "status": "partial",
   "theorems": [
    "C99_survival_partial",
    "C99_units",
    "C99_numbers",
    "C99_quiet_refuted"
   ],
   "note": "Near-optimal: factor (10001/10000)^e, rounding of the computed leaf losses up to eps per row (such numbers exist for every eps > 0: C99_numbers), and one half for each leaf of the returned tree without an observed event; lower bounds and depth-two solver off. REFUTED without the last term: the search counts a leaf without events as 0 but labels it with a risk factor of loss 1/2."
  },
  {
   "property": "C100",
   "status": "partial",
   "theorems": [
    "C100_best_so_far",
    "C100_limits",
    "C100_tuning",
    "C100_first_is_fit",
    "C100_own_best_refuted"
   ],
   "note": "Proved without the depth-two solver: the best tree returned so far is at least as good as every tree within the limits of any call so far. REFUTED per call: with the default settings a configuration of tuning returns a worse tree than the configuration before it, marked as proven optimal. Limits: depth and leaf size with any switches and clock; the node limit below a full tree is not covered."
  },
  {
   "property": "C101",
   "status": "partial",
   "theorems": [
    "C101_linear_refuted",
    "C101_accuracy",
    "C101_regression",
    "C101_regression_fit",
    "C101_regression_refuted",
    "C101_simple_refuted"
   ],
   "note": "REFUTED for piecewise linear regression (the node cost of the last fit is always the one of the parameter before the tuning) and, for rows in strictly descending order of their features, for cost-complex and simple linear regression. Proved for cost-complex accuracy, and for cost-complex regression on all other rows: there the last fit is the fit with the tuned parameter (C101_regression_fit)."
  },
  {
   "property": "C102",
   "status": "partial",
   "theorems": [
    "C102_conditions_partial",
    "C102_follow_partial",
    "C102_exact",
    "C102_names",
    "C102_threshold_names",
    "C102_rounded_refuted",
    "C102_raises_refuted",
    "C102_numbered_refuted",
    "C102_quote_refuted"
   ],
   "note": "Proved for frames whose labels and category values have no '<': the printed condition states the test, a threshold being off by at most half a percent (exact for few decimals), and following the printed conditions gives the prediction unless a value lies between a threshold and its printed form. REFUTED in general: rounding (C102_rounded_refuted), errors for names with ' <= ' (C102_raises_refuted), numbering of columns without text labels (C102_numbered_refuted), quotes (C102_quote_refuted)."
  },
  {
   "property": "C103",
   "status": "partial",
   "theorems": [
    "C103_best_partial",
    "C103_built_partial",
    "C103_sizes_partial",
    "C103_any_size_partial",
    "C103_built_sizes_partial",
    "C103_two_nodes_refuted",
    "C103_leaf_size_refuted",
    "C103_range_refuted",
    "C103_tiny_targets_refuted"
   ],
   "note": "Proved for both tasks, all histories of calls and constructions, whole targets and a minimum leaf size of one: the answers for one and three nodes are the best ones, and the answer for two nodes when nodes have a positive price; the tree constructed from such an answer exists, is within the limits and has the reported value (C103_built_partial). For any minimum leaf size the answer for one node is the best one, and the answers for two and three nodes belong to trees within the limits and do not get worse with more nodes (C103_sizes_partial); they are the best ones unless the number of rows is between 3*m and 4*m-2 for a minimum leaf size m (C103_any_size_partial). For any minimum leaf size the tree constructed from an answer exists, is within the limits, has the root and sizes of the answer and is never worse than reported, and has the reported value where the answer is the best one (C103_built_sizes_partial). REFUTED otherwise: the answer for two nodes without a price (C103_two_nodes_refuted), leaf sizes of two or more on few rows (C103_leaf_size_refuted: m = 2 and six rows; C103_range_refuted: every leaf size m >= 2 and every number of rows between 3*m and 4*m-2, so that the range of C103_any_size_partial is exact), targets of at most a millionth (C103_tiny_targets_refuted). Missing: rational targets for regression between these, and the search above the solver, which uses these answers."
  },
  {
   "property": "C104",
   "status": "partial",
   "theorems": [
    "C104_best_partial",
    "C104_built_partial",
    "C104_sizes_partial",
    "C104_any_size_partial",
    "C104_built_sizes_partial",
    "C104_two_nodes_refuted",
    "C104_leaf_size_refuted",
    "C104_range_refuted"
   ],
   "note": "Proved for all histories of calls and constructions, every function in place of the logarithm and a minimum leaf size of one: the answers for one and three nodes are the best ones, and the tree constructed from the answer for three nodes exists, is within the limits, has the reported value and the risk factors of its leaves. For any minimum leaf size the answer for one node is the best one, and the answers for two and three nodes belong to trees within the limits and do not get worse with more nodes (C104_sizes_partial); the answer for three nodes is the best one unless the number of rows is between 3*m and 4*m-2 for a minimum leaf size m (C104_any_size_partial). For any minimum leaf size the tree constructed from an answer exists, is within the limits, predicts the risk factors of its leaves, has the root and sizes of the answer and is never worse than reported, and has the reported value where the answer is the best one (C104_built_sizes_partial). Missing: the answer for two nodes (C104_two_nodes_refuted: the search stops early) and larger leaf sizes on few rows (C104_leaf_size_refuted: m = 2 and six rows; C104_range_refuted: every leaf size m >= 2 and every number of rows between 3*m and 4*m-2, so that the range of C104_any_size_partial is exact). The hazards are given per row; rounding and removed features are not modelled, and the solver is not composed with the full search here."
  },
  {
   "property": "C105",
   "status": "partial",
   "theorems": [
    "C105_listed",
    "C105_not_listed",
    "C105_once",
    "C105_category",
    "C105_default",
    "C105_command_line",
    "C105_texts",
    "C105_digits_refuted"
   ],
   "note": "Which parameters are listed, where and how often is proved for every accepted argument list and series of calls. REFUTED for the value: numbers with a fraction are printed with six digits, so a positive cost-complexity below 5e-7 is listed as 0.000000, the text of the default. The help summary is not modelled."
  }
 ]
}