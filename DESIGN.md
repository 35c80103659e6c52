# Formal model of STreeD (pystreed) in Rocq

## Layout

* `rocq/theories/Model_*.v`  – the model: total, computable Gallina functions, each with a comment citing the
  file and lines of `/repo` it models and any simplification. No proofs.
* `rocq/theories/Spec_*.v`   – small specifications written without using the model's helper functions.
* `rocq/theories/Proofs_*.v` – lemmas.
* `rocq/theories/Props_*.v`  – the property theorems, `Print Assumptions`, and `Example`s showing that the
  hypotheses are met by concrete non-trivial cases. `_refuted` theorems are findings: the English claim is
  false of the code as written, the theorem gives a concrete input.

## Conventions

* Integer objectives (`int`) are modelled in `Z` without overflow: the model's theorems assume fewer than
  `INT32_MAX` instances where it matters. `double` objectives are modelled by exact rationals or integers;
  rounding is not modelled. The relative comparison tolerance `DBL_DIFF = 1e-4` is modelled where a theorem
  is about it.
* `runtime_assert` is a no-op in release builds (`include/base.h:31-35`), so it is not modelled as a check.
* Out-of-range accesses, division by zero and thrown exceptions are explicit `None`/error outcomes.
* Randomness (`std::shuffle`) is an arbitrary permutation given as input; the clock is an arbitrary oracle.
* `std::unordered_map` is modelled by an association list with the C++ equality on keys; hash values only
  affect speed and are not modelled.

## Plan per property

| id | what is modelled | how it is proved |
|----|------------------|------------------|
| C01 | `Solve`, `SolveSubTree`, `SolveSubTreeGeneralCase`, `SolveTerminalNode`, bounds, caches, similarity archive, as one state-passing recursive function over the node budget/depth | refinement to a brute-force specification over all trees; invariant: every cache entry and every bound is sound |
| C02 | `ConstructOptimalTree` (solver and terminal solver) | invariant that each cached node can be rebuilt within its budget |
| C03 | `ComputeTrainScore`, `ComputeTestScore`, `FlipFlippedFeatures` | induction on trees |
| C04 | the clock as an oracle `nat -> bool` consulted at each check | monotonicity of expiry plus C01 invariant |
| C05 | as C01 | corollary of C01 (both equal the optimum) |
| C06 | terminal solver with general leaf size | refuted by witness (feature filter lines 59-60); proved for leaf size one, and without the depth-two solver |
| C07 | `Solve` in all-trees mode | refuted by witness (bounds stored for budgets never searched); proved without the depth-two solver |
| C08 | branch codes and sorted insertion | sorted permutation is unique |
| C09 | `SplitData` on views grouped by label | induction on lists |
| C10 | folding `SplitData` over a path | filters commute |
| C11 | bit-set key, iterator memo | extensionality; simulation relation between memo and plain map |
| C12 | both caches, entry vectors, transfer | invariant by induction over operation sequences |
| C13 | counters, cost storage, inclusion-exclusion | induction over instances |
| C14 | `CostCalculator::Initialize` as state machine | invariant over call sequences |
| C15 | triangular index | arithmetic, injectivity and surjectivity |
| C16 | terminal solver (accuracy) | case analysis on trees of depth two |
| C17 | sorted-merge difference | induction on two sorted lists |
| C18 | similarity bound per task | removal lemma on trees; refuted for group fairness, cost-sensitive, cost-complex regression |
| C19 | container insertions | invariant over insert sequences |
| C20 | F1 task functions, `Merge` | arithmetic on rationals by cross-multiplication |
| C21 | feature vector | invariant over op sequences |
| C22 | `PreprocessData`, tree flips | simulation between flipped and original data |
| C23 | `Classify`, `Predict` | induction on tree |
| C24 | split functions over an arbitrary permutation | permutation reasoning |
| C25 | stratified variants with explicit error outcomes | refuted by witness; train/test split and shares of the labels in the folds proved |
| C26 | array heap with position maps | invariant over op sequences; non-root removal refuted |
| C27 | selectors | permutation reasoning using C26 |
| C28 | bit set | bit-level lemmas; `ClearBit` refuted |
| C29 | parameter maps | invariant over op sequences |
| C30 | `CheckParameters` | arithmetic |
| C31 | grid generation | list membership and `NoDup` |
| C32 | selection loop | fold invariant |
| C33 | result insertion | sortedness invariant |
| C34 | equivalent-points bound | per-group counting |
| C35 | bounds of sparse objectives, with the own bound of the accuracy task | budgets by counting nodes; the own bound from C34 through the flips and removals; depth reuse refuted by witness |
| C36 | cost-sensitive task | induction; refuted for non-zero diagonal |
| C37 | shift of scores | arithmetic on sums |
| C38 | hazard computation and binary search | invariants over sorted event lists |
| C39 | mean and sum of squares over Q | algebra |
| C40 | clustering dynamic program with both row fillers (divide and conquer up to 300 points, SMAWK above) | refinement to minimum over partitions; SMAWK by total monotonicity, cells beyond the number of distinct values excluded (they may be wrong: refuted) |
| C41 | threshold and category encoders | order lemmas |
| C42 | tree measures and printing | induction, unambiguous parsing |
| C43 | probability recursion | induction on tree |
| C44 | line parser | round trip |
| C45 | second `Solve` on the same data | refuted by witness (upper bound persists); what holds over all calls: C100 |
| C46 | as C01, budget of two nodes | refuted by witness: the depth-two solver stops at a zero right-hand side; proved without the depth-two solver (Props_Limits.v) |
| C47 | similarity bound in the search, leaf size two | refuted by witness; proved for leaf size one |
| C48 | reconstruction from the caches | up to depth three and for every use of the caches: invariant on the entries of both caches for budgets (1,1), (2,2) and (2,3) and on the root result; depth four refuted by witness |
| C49 | heap removal of any key | refuted by witness; what does hold (keys, priorities, next maximum, exact condition for the order) by the heap invariant |
| C50 | objects kept alive by the Python wrapper across `predict` calls | histories; refuted for equal sizes |
| C51 | average path length of `ComputeTrainScore` | induction on trees |
| C52 | as C01 without the depth-two solver | refinement to brute force, invariant over caches, bounds and archive |
| C53 | as C01 with the depth-two solver, value only | the same invariant with the value of the depth-two solver |
| C54 | memo of data splits, training and test | simulation relation over histories |
| C55 | attributes of the estimator across `fit`, failed `fit` and queries | histories; refuted for three queries |
| C56 | as C55 | histories compared with a new object |
| C57 | Python validation followed by the C++ parameter handler | exact condition; refuted |
| C58 | time arithmetic of hyper-tuning | refuted by witness |
| C59 | survival leaf, score and counters over the standard library's reals | derivative-free convexity argument (x - 1 >= ln x) |
| C60 | k-means bound, its memo and its use in the sparse bound | optimality of the dynamic program (Monge inequality, ties included), groups of equal features; refuted for the search |
| C61 | fairness tasks on the search over fronts: leaf costs, tolerance, constraint, preprocessing | invariant of the front search with the constraint; reduction of row counts to costs; refuted for large groups |
| C62 | as C61, on recoded rows | corollary of C61 in both directions; refuted with a copy of the sensitive column |
| C63 | test score of the fairness tasks with flipped test data | row counts of the test value; two universal refutations |
| C64 | group scores with NaN, test of the constraint | induction on trees; refuted |
| C65 | moving the sensitive column in arrays and data frames, histories of calls | list reasoning, invariant over calls; two universal refutations |
| C66 | order of the columns after binarization | first element of a filter; refuted |
| C67 | argument routing of the fit functions | case analysis; refuted |
| C68 | stored continuous columns over histories of calls | invariant over calls; two universal refutations |
| C69 | preprocessing, merging, leaf and variances of simple linear regression over rationals | sums over merged items equal sums over rows; quadratic minimisation per column; first minimum over columns; refutation for close values |
| C70 | leaf costs, counters of the depth-two solver, merging, tree costs, data set after training | same sums give the same model; induction over trees; refutation for a second training |
| C71 | similarity bounds of the two linear tasks | instance of the general walk over two sorted lists; refutations by extrapolation and by missing leaf models |
| C72 | the condition of the leaf of piecewise linear regression (glmnet) | largest covariance with the target by induction over columns; refutation for equal targets |
| C73 | coordinate descent with its lazily filled covariance table, leaf cost, training score | state invariant of the passes (table entries are covariances or zero); expansion of the square; refutation with a tiny coefficient |
| C74 | the passes and stop tests of the coordinate descent | every step does not increase the objective (soft threshold minimises a parabola); convexity at settled states; refutations by early stopping and by stuck coefficients |
| C75 | standardisation of the columns and its reversal in the tree | induction over columns and trees; refutations for zero and tiny standard deviations |
| C76 | the search on fronts in every configuration: bounds, caches, similarity bound, depth-two solver, reconstruction | refutation by evaluation on four rows; at most one split and depth two with three splits with the depth-two solver on: that solver's fronts cover every allowed tree (induction over its loops), one root call uses nothing else, and reconstruction finds the tree |
| C77 | as C76, for the fairness tasks | refutation by evaluation on three and four rows; soundness as for C80 when the depth-two solver is off |
| C78 | as C76: reconstruction from caches and by a new search | refutations by evaluation on five and six rows |
| C79 | as C77 | refutations by evaluation on four and five rows |
| C80 | as C76 | invariant: every stored or returned front has only values of allowed trees, by induction over the fuel of the search with the caches as state; the same for the reconstruction |
| C81 | life of an estimator object (as C55, C56) | invariant: calls other than fit keep the binarizer, its number of columns and the result |
| C82 | the task as a record of the solver model (Model_Tasks.v), loading with additional label groups, np.argmin of the Python layer | instance of the search proofs for tasks that compare with a tolerance; rows to views by C48; costs of any size: search proofs with a tolerance (Proofs_Near, Proofs_NearFit) |
| C83 | the task with the cost table and worst_per_label of C37, in units of 1/D | table entries are scores minus their minimum and non-negative; bounds of worst_per_label; search proofs; order of costs to order of outcomes |
| C84 | the task with the cost tables and test costs of C35 | search proofs for all switches where test costs are zero; search proofs with branching costs (Proofs_Plain, Proofs_PlainFit) without lower bounds and depth-two solver; three computed counterexamples |
| C85 | cost-complex accuracy with the sort of its preprocessing | search proofs with branching costs without lower bounds and depth-two solver; computed counterexample with the default settings |
| C86 | the predictions of survival trees over the standard library's reals, and the object's state over fits that pass or are refused | from C38 (Nelson-Aalen), C59 (leaf factors) and monotonicity of exp; computed counterexample for refused fits |
| C87 | the reading of policy tables, with the documented layout as specification | induction over the rows; the outcome for every number of treatments seen and meant |
| C88 | the reading of cost tables and cost vectors | induction over rows and costs |
| C89 | fits of regression and cost-complex regression: items, merging, leaf means and errors, node costs, score, the walk through the tree | values of the search in units of 1/n! are squared errors of best leaves (induction over the tree); near-optimal search; sums over merged items equal sums over rows; quadratic minimisation per leaf |
| C90 | ComputeScore in rational numbers, class counts | optimal fit of C84 against the tree with one leaf of the biggest class; fractions with one denominator |
| C91 | the constructor of CostSpecifier from a file: getline, operator>> into double, int and string with stream state | induction over words, numbers of a row and lines; general theorem about incomplete files |
| C92 | GetBranchingCosts with checked reads | lengths of the tables from the invariant of C36 |
| C93 | the table of scores of a fold with skipping (model of C32), optimal trees for a node cost as a specification | a largest tree optimal for one node cost is optimal for every lower one; induction over the configurations |
| C94 | the grids of both linear regressions, the scale, the loop over phases, the range check of the parameters | case analysis of the three phases; C32 for the choice; fold invariant for the scale |
| C95 | the memo of the last leaf as a state that lives through all fits of a solver | invariant: the memo is empty, at the root, or holds the leaf of the current fit |
| C96 | the palette, the stored palette of the estimator as a state over fits and exports, the colour codes | injectivity of the hues by floor arithmetic; invariant over histories |
| C97 | the colour of a branching node from the two least costs | bounds of the blend; selection of the least cost |
| C98 | fits with simple linear leaves: rows, minimum leaf size, leaf costs, node cost, the search of C83 on them, filling the leaves | near-optimality of the search for custom leaf costs (Proofs_Custom) and optimality of the leaf line (C69) lifted over trees |
| C99 | fits of survival trees: rows, baseline hazards, computed leaf losses, the search of C83 on them, risk factors and score | near-optimality of the search for custom leaf costs (Proofs_Custom), distance of computed and exact losses summed over leaves, leaf optimality (C59) |
| C100 | several calls of `Solve` with one solver on the same data (kept caches, archive and global upper bound; resets when the depth grows), the calls of a fold in tuning | the outer loop from any bound and state that meet the invariants (Proofs_Outer.solve_from), induction over the calls; witness for the refuted part |
| C101 | the last fit of `HyperSolve`: comparison of views, preparation of the data and the node cost per task | the prepared data keep identifiers and sums, are prepared once (idempotence), and equal the given data exactly for rows in strictly descending order |
| C102 | the names of binarised columns, `_escape`, `_get_predicate_str`, `_dynamic_float_formatter` with exact decimals, `str.split`, reading of decimal texts | digits are read back; rounding error per format; names without "<" split at the separator only; induction on the tree |
| C103 | cost calculator and terminal solver for the two regression tasks (counts and sums of targets, squares and weights per pair of features, incremental update between calls, the tables of the reconstruction), squared errors and means of leaves | invariant: after any calls the table holds the sums of the current data; the tables give the least squared errors; loop over pairs of features covers all trees of depth two; the reconstruction finds children at most as expensive as those of a best tree; items stand for rows at every path; for larger leaf sizes a second loop invariant: every answer has a tree, and the tables cover every pair of features that take part; the reconstruction finds children no more expensive than those of the tree of the answer |
| C104 | cost calculator and terminal solver for survival analysis (hazard, event and log-hazard sums per pair of features, incremental update, reconstruction) | as C103, with counts of one per row; the loss of a leaf depends only on its three sums; any function that respects equality stands for the logarithm |
| C105 | the listing of changed parameters (loops over categories and parameters, comparison with the default, six-digit texts) on top of the handler of C29, and the first steps of main | the listing is a filter of the declared table; a hand-written table of defaults is the specification; parameters not named keep their values by C29 |

## Trusted base

* The kernel of Coq 8.16.1 (including `vm_compute`, used for examples and refutations).
* The correspondence between `Model_*.v` and `/repo`: the citations in the comments, checked by reading only.
* The statements: `Spec_*.v` and the definitions in `Props_*.v` marked "Specification".
* Axioms: none of our own. `Print Assumptions` reports "Closed under the global context" for every theorem of
  `MANIFEST.json` except those below, which use the standard library's real numbers and list (all or some of)
  `ClassicalDedekindReals.sig_not_dec`, `ClassicalDedekindReals.sig_forall_dec`,
  `FunctionalExtensionality.functional_extensionality_dep`, `Classical_Prop.classic`:
  `C59_leaf_optimal`, `C59_leaf_unique`, `C59_score`, `C59_counters`, `C59_tree`, `C59_reached`, `C59_no_event_refuted`, `C86_curves`, `C86_ranking`, `C86_calibrated`, `C86_last_fit`, `C86_refused_fit_refuted`, `C99_survival_partial`, `C99_numbers`, `C99_quiet_refuted`.
* The closed ones: `C01_accuracy_optimal_partial`, `C01_no_tree`, `C52_optimal_without_depth_two_solver`, `C53_default_value_optimal`, `C02_budgets_partial`, `C02_too_few_rows`, `C03_training_score`, `C04_proven_is_timely`, `C04_no_limit_is_proven`, `C53_default_value_optimal`, `C05_switches_partial`, `C06_leaf_size_partial`, `C06_depth_two_leaf_size_refuted`, `C07_all_trees_partial`, `C07_all_trees_refuted`, `C08_branch_canonical`, `C09_split_partition`, `C10_data_determined_by_branch`, `C11_keys`, `C11_memo`, `C12_every_history`, `C12_found`, `C13_pair_counts_exact`, `C13_single_counts_exact`, `C14_incremental_counts`, `C14_tables_exact`, `C15_pair_index_bijection`, `C15_vector_pairs`, `C16_depth_two_optimal_partial`, `C16_depth_two_errors_partial`, `C17_differences_exact`, `C17_total_difference_zero`, `C18_tree`, `C18_bound`, `C18_no_difference`, `C18_custom`, `C18_instance_costs`, `C18_leaf_size_refuted`, `C18_regression_refuted`, `C19_front`, `C19_front_f1`, `C19_bounded_front`, `C19_bounded_front_f1`, `C19_mixed_merge_refuted`, `C19_mixed_merge_shrinks`, `C19_fewer_nodes_refuted`, `C20_dominance`, `C20_sums`, `C20_best_value`, `C20_best_f1_tree`, `C21_vectors_consistent`, `C21_flip_disable`, `C22_unflipped_tree`, `C22_same_optimum`, `C23_predict`, `C23_score`, `C24_train_test`, `C24_kfold`, `C25_train_test_partial`, `C25_enough_rows_partial`, `C25_folds_balanced_partial`, `C25_stratified_kfold_refuted`, `C25_small_regression_refuted`, `C26_pop_all_sorted`, `C26_pop_max`, `C27_orders_are_permutations`, `C27_gini_order_by_gain`, `C28_set_and_toggle`, `C28_equality`, `C28_clear_refuted`, `C28_size_zero_refuted`, `C29_ranges`, `C29_accepts`, `C29_rejects`, `C29_unknown`, `C29_others_unchanged`, `C29_command_line`, `C29_declare_twice`, `C29_nan_refuted`, `C29_missing_value_refuted`, `C29_blank_value_refuted`, `C29_declare_bool_twice_refuted`, `C30_check`, `C30_estimator`, `C31_grid`, `C31_once`, `C31_every_tree`, `C32_best_largest`, `C32_best_smallest`, `C32_chooses`, `C32_carried`, `C32_enough_data`, `C32_costs`, `C32_ties_refuted`, `C32_small_data_refuted`, `C33_average`, `C33_kept`, `C33_single`, `C33_first_is_lowest`, `C33_best_first_refuted`, `C34_sound`, `C34_defined`, `C34_fuel`, `C34_trees`, `C34_vectors_ok`, `C34_memo`, `C34_exact_refuted`, `C34_first_group_refuted`, `C34_new_data_refuted`, `C35_reduce_budget`, `C35_reduced_depth`, `C35_break`, `C35_accuracy`, `C35_lower_bound_partial`, `C35_task_bound`, `C35_accuracy_bound_partial`, `C35_bound_refuted`, `C35_value_refuted`, `C36_tables`, `C36_charge`, `C36_path_charges`, `C36_tree_cost`, `C36_leaf_costs`, `C36_depth_two`, `C36_total_test_costs`, `C36_total_is_bound`, `C36_worst_instance`, `C36_total_bound_refuted`, `C36_diagonal_refuted`, `C36_instance_costs`, `C36_negative_costs_refuted`, `C37_shift`, `C37_ranking`, `C37_outcome`, `C37_nonnegative`, `C37_counters`, `C37_worst`, `C37_tiny_refuted`, `C38_value`, `C38_exact`, `C38_python`, `C38_positive`, `C38_monotone`, `C38_agree`, `C38_close_refuted`, `C39_leaf`, `C39_costs`, `C39_counters`, `C39_undo`, `C39_split`, `C39_merge`, `C39_cc_leaf`, `C39_bound`, `C39_second_training_refuted`, `C40_clustering`, `C40_zero_weight_refuted`, `C40_cells_refuted`, `C41_ascending`, `C41_interval`, `C41_monotone`, `C41_count`, `C41_inside`, `C41_both_sides`, `C41_quantiles`, `C41_separates`, `C41_exclusive`, `C41_one_category`, `C41_category_count`, `C41_categories_separate`, `C41_width`, `C41_binary`, `C41_lossless`, `C41_constant_indicator_refuted`, `C41_once_refuted`, `C42_sizes`, `C42_string`, `C42_print`, `C42_print_reads`, `C42_default_names`, `C42_own_names`, `C42_dot`, `C42_dot_numbers`, `C42_dot_determines`, `C42_equal_names_refuted`, `C43_shares`, `C43_distribution`, `C43_works`, `C43_columns`, `C43_minority_refuted`, `C43_gap_refuted`, `C44_rows_read`, `C44_train_and_test`, `C44_train_only`, `C44_classification_files`, `C44_sample`, `C44_other_value`, `C44_separators`, `C44_blank_line_refuted`, `C44_wider_line_refuted`, `C44_narrower_line_refuted`, `C44_two_blanks_refuted`, `C44_negative_label_refuted`, `C44_first_rows_refuted`, `C45_second_solve_refuted`, `C100_best_so_far`, `C46_node_budget_partial`, `C46_two_nodes_refuted`, `C47_similarity_partial`, `C47_similarity_leaf_size_refuted`, `C48_depth_three_partial`, `C48_depth_four_rebuild_refuted`, `C49_remove_partial`, `C49_remove_breaks_order_refuted`, `C50_changing_sizes_partial`, `C50_second_predict_refuted`, `C50_always_refuted`, `C51_question_length`, `C52_optimal_without_depth_two_solver`, `C53_default_value_optimal`, `C54_splits`, `C55_refuses_after_failed_fit`, `C55_no_tree_before`, `C55_get_tree_refuted`, `C55_never_fitted_refuted`, `C56_history_free`, `C56_one_result`, `C56_after_raise_refuted`, `C57_exact`, `C57_nodes_refuted`, `C57_time_refuted`, `C58_late_refuted`, `C58_in_time`, `C60_bound`, `C60_task_bound`, `C60_search_refuted`, `C61_fair_optimum_partial`, `C61_refuted`, `C62_group_coding_partial`, `C62_refuted`, `C63_test_score_partial`, `C63_train_score`, `C63_large_refuted`, `C63_small_refuted`, `C64_no_group1_refuted`, `C64_no_group0_refuted`, `C64_no_group_refuted`, `C64_both_groups`, `C65_array_partial`, `C65_name_partial`, `C65_index_predict_partial`, `C65_negative_refuted`, `C65_index_refit_refuted`, `C66_binary_partial`, `C66_threshold_partial`, `C66_refuted`, `C67_routed_partial`, `C67_refuted`, `C68_first_fit_partial`, `C68_continuous`, `C68_refit_refuted`, `C68_matrix_refuted`, `C69_leaf_partial`, `C69_variance`, `C69_refuted`, `C70_costs`, `C70_counters`, `C70_undo`, `C70_merge`, `C70_second_training_refuted`, `C71_simple_refuted`, `C71_simple_partial`, `C71_linear_refuted`, `C71_linear_partial`, `C72_condition`, `C72_constant_target_refuted`, `C73_cost_partial`, `C73_score`, `C73_refuted`, `C74_mean_partial`, `C74_one_column_partial`, `C74_settled_partial`, `C74_refuted`, `C74_lasso_refuted`, `C75_partial`, `C75_constant_column_refuted`, `C75_narrow_column_refuted`, `C76_refuted`, `C76_depth_two_partial`, `C77_refuted`, `C77_partial`, `C78_refuted`, `C78_f1_refuted`, `C76_depth_two_partial`, `C79_refuted`, `C79_no_upper_bound_refuted`, `C80_f1_sound`, `C80_fair_sound`, `C81_width`, `C82_optimal_partial`, `C82_near_partial`, `C82_no_tree`, `C82_score`, `C82_python_partial`, `C82_last_label_refuted`, `C82_large_costs_refuted`, `C83_optimal_partial`, `C83_value`, `C83_share`, `C83_large_span_refuted`, `C83_ranking_refuted`, `C84_test_costs_partial`, `C84_near_partial`, `C84_no_test_costs_partial`, `C84_lower_bound_refuted`, `C84_duplicate_refuted`, `C84_data_cache_refuted`, `C85_optimal_partial`, `C85_near_partial`, `C85_score`, `C85_default_refuted`, `C86_times`, `C87_fit_partial`, `C87_later`, `C87_unseen_refuted`, `C87_gap_refuted`, `C87_score_refuted`, `C88_fit`, `C88_later`, `C88_vectors_refuted`, `C89_regression_partial`, `C89_cost_complex_partial`, `C89_sentinel_refuted`, `C89_similarity_refuted`, `C89_lower_bound_refuted`, `C90_rank`, `C90_at_most_one_partial`, `C90_one_class_refuted`, `C91_read`, `C91_lines_refuted`, `C92_inside`, `C92_outside_refuted`, `C93_skipped`, `C93_same_scores`, `C93_grids`, `C93_ties_refuted`, `C94_scale`, `C94_linear`, `C94_linear_range`, `C94_simple`, `C94_simple_range`, `C94_accepted`, `C94_large_refuted`, `C95_fresh`, `C95_needs_root`, `C96_palette`, `C96_many_refuted`, `C96_export_partial`, `C96_refit_refuted`, `C96_gap_refuted`, `C97_code_partial`, `C97_clear_refuted`, `C97_single_refuted`, `C98_simple_partial`, `C98_units`, `C98_ridge_refuted`, `C98_lower_bound_refuted`, `C99_units`, `C100_best_so_far`, `C100_limits`, `C100_tuning`, `C100_first_is_fit`, `C100_own_best_refuted`, `C101_linear_refuted`, `C101_accuracy`, `C101_regression`, `C101_regression_fit`, `C101_regression_refuted`, `C101_simple_refuted`, `C102_conditions_partial`, `C102_follow_partial`, `C102_exact`, `C102_names`, `C102_threshold_names`, `C102_rounded_refuted`, `C102_raises_refuted`, `C102_numbered_refuted`, `C102_quote_refuted`, `C103_best_partial`, `C103_built_partial`, `C103_sizes_partial`, `C103_any_size_partial`, `C103_built_sizes_partial`, `C103_two_nodes_refuted`, `C103_leaf_size_refuted`, `C103_range_refuted`, `C103_tiny_targets_refuted`, `C104_best_partial`, `C104_built_partial`, `C104_sizes_partial`, `C104_any_size_partial`, `C104_built_sizes_partial`, `C104_two_nodes_refuted`, `C104_leaf_size_refuted`, `C104_range_refuted`, `C105_listed`, `C105_not_listed`, `C105_once`, `C105_category`, `C105_default`, `C105_command_line`, `C105_texts`, `C105_digits_refuted`.

## What is modelled

| code | model |
|------|-------|
| `model/feature_vector`, `model/branch`, `model/data`, `model/node`, `model/container` | FeatureVector, Data, Node, Container, Pareto |
| `solver/cache*`, `branch_cache`, `dataset_cache`, `data_splitter` | Cache, DatasetIter, Data |
| `solver/counter`, `cost_storage`, `cost_combiner`, `difference_computer`, `terminal_solver` | Terminal |
| `solver/solver.cpp`: Solve, SolveSubTree, general case, terminal case, leaf, bounds, reconstruction, budget reduction, preprocessing, similarity bound, time limit | Solver, Preproc |
| search for tasks with a partial order (F1, group fairness, equality of opportunity) without bounds, caches and depth-two solver; the same in every configuration | Pareto, Fairness; Front |
| `solver/feature_selector*`, `utils/key_value_heap` | Heap, Preproc |
| `solver/result`, `solver/tuning.h`, `define_parameters`, `utils/parameter_handler` | Tuning, TunePhases, Params |
| `utils/dynamic_bitset`, `utils/file_reader`, `model/data` splits | Bitset, FileReader, Splits |
| tasks: accuracy, cost-complex accuracy, cost-sensitive, instance-cost-sensitive, F1, prescriptive policy, regression, cost-complex regression, simple linear regression (leaves, counters, merging, similarity), piecewise linear regression (coordinate descent, costs, standardisation, similarity), survival analysis (leaves, bounds, preprocessing, test costs, hazards) | Node, CostComplex, EquivPoints, CostSensitive, CostFile, Similarity, Pareto, Policy, Tasks, Regression, RegFit, Kmeans, KmeansBound, SimpleLinear, GlmNet, Survival, SurvLeaf |
| `bindings.cpp`, `pystreed/*.py`: fit, predict, predict_proba, score, validation, printing, export, binarizer, hazards, sensitive and continuous columns | Predict, Estimator, Proba, Text, Binarizer, Params, Survival, SurvPredict, PyData, PolicyTable |

## What is not modelled

* Rounding, overflow, not-a-number and infinity of machine numbers, except where a property is about them.
* Hash functions and their collisions; allocation, copying and lifetimes of C++ objects, except C50.
* Random number generators (arbitrary permutations instead), the wall clock (arbitrary oracle instead).
* The decision-tree and k-bins discretisers of scikit-learn behind the binarizer; pandas and numpy conversions.
* Logging, statistics, the command line front end beyond parameter parsing, continuous integration files.

## Findings

The theorems with suffix `_refuted` name inputs on which the code does not do what the property says. The ones
that change answers with settings a user of the Python package can reach:

* C35: cost-complex accuracy, default settings: a worse tree is returned as proven optimal.
* C60: cost-complex regression with the default k-means bound: node costs are counted twice in the bound.
* C06, C46, C47, C48: minimum leaf size of two, budget of two nodes, similarity bound with larger leaves,
  reconstruction from depth four.
* C07, C45: all-trees mode with the depth-two solver, a second `Solve` on one solver.
* C18: the similarity bound of cost-complex regression is not a bound.
* C25: stratified folds use wrong labels; regression with few rows divides by zero.
* C32, C33: tuning without configurations; order of several solutions.
* C36: costs on the diagonal of the cost matrix.
* C41, C42, C43, C44: thresholds met by all rows, names that print alike, probabilities for minority leaves,
  blank or uneven lines.
* C61, C62, C63, C64: fair trees: tolerance on group scores, copies of the sensitive column, test scores divided by
  training group sizes, data of one group.
* C65, C66, C67, C68: negative index or second fit, non-binary sensitive column, categorical columns of three
  estimators, continuous columns of a second fit.
* C69, C70, C71: simple linear regression: constant leaf for close values, last group counted twice by a second
  training, similarity bound broken by extrapolation.
* C72, C73, C74, C75: piecewise linear regression: no model for equal targets, negative costs with tiny coefficients,
  early stop for correlated columns, coefficients stuck with a lasso penalty, division by zero for constant columns.
* C76, C77, C78, C79: F1-score and fairness tasks with default settings: budget of two nodes, trees that test the
  sensitive column, trees without labels, more errors than needed.
* C82, C83: costs or outcomes that add up to more than 10000 units: trees whose costs differ by less than one
  ten-thousandth are taken as equal; labels above all cheapest ones are never considered (C82).
* C83: the score of policies is the share of rows that get the treatment given as optimal, and for tables without optimal
  treatments the share that gets treatment 0 (prescriptive_policy.h:14-15); it does not rank policies by their outcome.
* C84: with test costs and default settings the stored lower bounds cut off the best tree; the cheaper of two equal
  features is dropped; the data set cache with test costs (command line).
* C85: cost-complex accuracy with the default settings returns a tree that costs more than needed.
* C86: a survival fit that is refused after its first lines leaves the old tree with the baseline hazard and the times of the refused data.
* C87: the policy estimator takes the number of treatments from the data, so that a documented table with a treatment that does not occur is refused or read wrongly (e.g. five treatments of which two occur); a test table without optimal treatments is scored against treatment 0.
* C88: lists of cost vectors of different lengths are accepted.
* C89: with lower bounds on, regression trees are reported as optimal that are not: the similarity bound ignores the minimum leaf size (seven rows, minimum 2: 4/3 of the least error), and for cost-complex regression the stored bound of an unfinished branch can exceed the cost of its leaf (six rows).
* C89: a leaf with the mean 2147483647 is taken for a node without label, and null children are read.
* C90: with one class in the training data and no test costs the score divides by zero.
* C91: an empty line at the end of a cost file is read as a feature with uninitialised costs and range; a short row of the matrix repeats its last number; text that is no number counts as 0.
* C92: no check compares the features of a cost specification with those of the data; missing ones are read behind the end of the table.
* C93: of two optimal trees with different test scores the skipped run might have returned the other one.
* C94: with very large targets (correlation above 2*10^12) hyper-tuning of piecewise linear regression ends the process.
* C96: the palette of export_dot is made once per estimator; a later fit with more classes, or labels with a gap, makes export_dot fail; above 360 classes colours repeat.
* C97: the strength of the colour of branching nodes does not show how clear the choice is: costs [0;1] give white like [1;1]; one class fails.
* C98: the same stored bound makes fits with simple linear leaves return a worse tree as optimal (30 rows).
* C98: STreeDPiecewiseLinearRegressor with simple=True ignores ridge_penalty: UpdateParameters reads the ridge penalty from "lasso-penalty" (piecewise_simple_linear_regression.h:68), so lasso_penalty acts as the ridge penalty.
* C99: survival trees may prefer leaves without events: SolveLeafNode counts such a leaf as 0 (survival_analysis.cpp:130-136), but its label has the loss 1/2 when scored, so that the returned tree need not be the one with the least loss.
* C100: tuning reuses the solver for the configurations of a fold with the same depth. The search returns a cached tree of a smaller depth without comparing it with the global upper bound (solver.cpp:291-297), and the larger depth then finds nothing below the bound, so a configuration with more nodes gets a worse tree than the one before, marked as proven optimal; its score enters the choice of the configuration.
* C101: the last fit of tuning is given the data that are already prepared. If their identifiers are those of the data given at first, InitializeSolver returns before the data are prepared (solver.cpp:221), and the node cost, which is computed there, stays the one of the old cost-complexity parameter. For piecewise linear regression this is always so: the tuned cost-complexity has no effect on the returned tree. For cost-complex and simple linear regression it is so when the rows come in strictly descending order of their features; otherwise the sorted or merged data differ from the given ones and the tuned parameter is used.
* C102: base.py:390-394 takes every name with " <= " for a threshold: a user's column named like "age <= high", a category with " <= " in it, or a threshold on a column with " <= " in its name makes print_tree and export_dot raise an error. Thresholds are printed with six or two decimals or three digits, so rows between the threshold and its printed form go to the branch that the text excludes, and different thresholds can look alike. For frames whose labels are no texts, categorical and continuous columns are numbered separately. The second value of a two-valued column is written without escaping its quotes (binarizer.py:185-189).
* C103: the search over pairs of features stops as soon as the best solution with three nodes has value zero (terminal_solver.cpp:70), so without node costs the solution for two nodes may not be the best one. A feature with less than 2 * min_leaf_node_size rows on both sides is not tried as a child either (terminal_solver.cpp:60), which misses trees of two nodes when the minimum leaf size m is at least two and there are 3m to 4m-2 rows; with fewer or more rows nothing is missed (C103_any_size_partial), and for every such m and number of rows there are data on which a perfect tree is missed (C103_range_refuted, and C104_range_refuted for survival trees). regression.h:41 takes targets of at most a millionth for zero.
* C104: both effects of C103 on the search also occur in survival analysis: there is no node cost, so a solver that is asked for exactly two branching nodes can miss the best tree once a perfect tree with three nodes is found (the optimal tree for a node limit of two at depth two is then not returned), and min_leaf_node_size above one can hide trees.
* C105: the listing prints fractions with six digits (std::to_string), so a changed value can be shown with the text of the default, e.g. -cost-complexity 1e-7 as 0.000000.
* C50, C55, C57, C58: released memory on a second `predict`, stale tree after a failed fit, settings and late
  tuning that end the process.
