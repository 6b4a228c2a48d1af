{"id": "C01", "title": "Single-feature partial dependence is exact", "statement": "After calculate_pd_single succeeds for a feature, the value returned by get_pd_single for any value v the feature takes in X is the mean, over all rows of X, of the model's prediction for the row with the feature replaced by v. Before that, and after any history of calls, a value read is either NaN or exactly that mean.", "quantifier": "all data frames, all row-wise predict functions, all batch sizes, all histories of calculate_* calls on one calculator (including calls that raised)", "why_tests_cant": "the value of a cell depends on how requests were batched and on every earlier call; tests only check for absence of NaN", "anchors": ["artemis/_utilities/pd_calculator.py: PartialDependenceCalculator.calculate_pd_single, fill_pd_single, get_pd_single", "artemis/_utilities/ops.py: partial_dependence_value"]}
{"id": "C02", "title": "Pairwise partial dependence is exact", "statement": "After calculate_pd_pairs succeeds for a pair (a,b) with all_combinations=True, get_pd_pairs(a,b) holds for every combination of values of a and b the mean prediction over X with both columns replaced; with all_combinations=False this holds for every combination observed in a row of X. At any time a cell is NaN or exactly that mean.", "quantifier": "all data frames, row-wise predict functions, pair lists in either feature order, both modes, batch sizes and call histories", "why_tests_cant": "unbounded combinations of pairs, duplicates among observed value pairs, batch boundaries and histories", "anchors": ["artemis/_utilities/pd_calculator.py: calculate_pd_pairs, fill_pd_pairs, get_pd_pairs, _get_pair_key"]}
{"id": "C03", "title": "Complement partial dependence is exact", "statement": "After calculate_pd_minus_single succeeds for feature f, the i-th entry of get_pd_minus_single(f) is the mean over all rows r of X of the prediction for the i-th row of X with f taken from r, and at any time an entry is NaN or exactly that mean.", "quantifier": "all data frames, row-wise predict functions, feature lists, batch sizes and call histories", "why_tests_cant": "depends on row order, batching and history for inputs of every size", "anchors": ["artemis/_utilities/pd_calculator.py: calculate_pd_minus_single, fill_pd_minus_single, get_pd_minus_single"]}
{"id": "C04", "title": "Results do not depend on batch size or on call history", "statement": "Two calculators for the same data and the same row-wise model, with different batch sizes and different earlier calls, return the same partial dependence values for a feature (pair) once each has calculated it.", "quantifier": "all pairs of batch sizes and call histories", "why_tests_cant": "a relational property over two arbitrary executions", "anchors": ["artemis/_utilities/pd_calculator.py: PartialDependenceCalculator.batchsize, calculate_pd_single, calculate_pd_pairs, calculate_pd_minus_single"]}
{"id": "C05", "title": "Prediction requests are bounded and respect the batch size", "statement": "Every prediction request made by calculate_pd_pairs contains at most batchsize + len(X) rows, every request made by calculate_pd_single or calculate_pd_minus_single at most batchsize + len(X)*k rows (k the largest number of requests one feature needs), all requests but the last exceed batchsize, and every request's row count is a positive multiple of len(X).", "quantifier": "all data frames, pair/feature lists, batch sizes and cache states", "why_tests_cant": "a bound over all request sequences", "anchors": ["artemis/_utilities/pd_calculator.py: calculate_pd_single, calculate_pd_pairs, calculate_pd_minus_single"]}
{"id": "C06", "title": "Already calculated values are never requested again", "statement": "Calling a calculate_* method again for features or pairs whose values have all been calculated (no NaN) performs no prediction and changes nothing; no cell that is not NaN is ever overwritten by calculate_pd_pairs.", "quantifier": "all cache states reachable by any history, all feature lists", "why_tests_cant": "must hold in every reachable cache state", "anchors": ["artemis/_utilities/pd_calculator.py: calculate_pd_single, calculate_pd_pairs, calculate_pd_minus_single"]}
{"id": "C07", "title": "Calculations do not disturb unrelated cache entries", "statement": "calculate_* for a set of features or pairs leaves the entries of every other feature and pair, the entries of the two other tables, the value grids, the data and the table shapes unchanged. The grids are the strictly increasing lists of the distinct values of each column.", "quantifier": "all calculators, features and pairs", "why_tests_cant": "frame property over all states", "anchors": ["artemis/_utilities/pd_calculator.py: PartialDependenceCalculator.__init__, fill_pd_single, fill_pd_pairs, fill_pd_minus_single"]}
{"id": "C08", "title": "An exception from the model never corrupts the cache", "statement": "If the predict function raises during any of the prediction requests of any calculate_* call, every cell of the calculator is still NaN or correct, and repeating the call with a predict function that now succeeds produces exactly the values an undisturbed run produces.", "quantifier": "every crash point (index of the failing prediction request) in every history", "why_tests_cant": "tests cannot fail the model at each possible request", "anchors": ["artemis/_utilities/pd_calculator.py: calculate_pd_single, calculate_pd_pairs, calculate_pd_minus_single, fill_pd_single, fill_pd_pairs, fill_pd_minus_single"]}
{"id": "C09", "title": "Pair lookups do not depend on argument order when values are given", "statement": "get_pd_pairs(a, b, values) equals get_pd_pairs(b, a, swapped values) for every list of value pairs, and both raise for unknown features or values.", "quantifier": "all calculators, feature pairs and value lists", "why_tests_cant": "all states and value lists", "anchors": ["artemis/_utilities/pd_calculator.py: get_pd_pairs, reorder_pair_values, _get_pair_key"]}
{"id": "C10", "title": "The full pair matrix is oriented by the arguments", "statement": "get_pd_pairs(a, b) without values is the matrix whose entry [i, j] is the partial dependence at the i-th value of a and the j-th value of b.", "quantifier": "all calculators and all argument orders", "why_tests_cant": "must hold for both argument orders of every pair", "anchors": ["artemis/_utilities/pd_calculator.py: get_pd_pairs", "artemis/_utilities/zenplot.py: get_pd_pairs_values"]}
{"id": "C11", "title": "Missing values and unknown features are rejected, never silently mis-computed", "statement": "If a requested feature is not a column, calculate_* raises KeyError (or IndexError when a requested feature also contains a missing value); if a requested feature contains a missing value (NaN), calculate_pd_single and calculate_pd_pairs raise IndexError; in neither case is any wrong value stored.", "quantifier": "all data frames with missing values, all feature lists", "why_tests_cant": "all positions of the missing values and all features", "anchors": ["artemis/_utilities/pd_calculator.py: get_index, calculate_pd_single, calculate_pd_pairs"]}
{"id": "C12", "title": "Friedman pair table is the H-statistic of every pair", "statement": "After fit, ovo has exactly one row per unordered pair of included features; its value is sum((c(PD_ij)-c(PD_i)-c(PD_j))^2)/sum(c(PD_ij)^2) over the rows of the sampled data (c = centring), or the square root of the mean numerator when normalized=False, with undefined (0/0) values replaced by 0; rows are in descending order of value and contain no NaN.", "quantifier": "all data frames, row-wise models, feature lists, batch sizes, supplied or fresh calculators", "why_tests_cant": "all inputs and cache states", "anchors": ["artemis/interactions_methods/model_agnostic/partial_dependence_based/_friedman_h_statistic.py: FriedmanHStatisticMethod.fit, _calculate_ovo_interactions_from_pd, _calculate_hstat_value", "artemis/interactions_methods/model_agnostic/partial_dependence_based/_pdp.py: PartialDependenceBasedMethod.fit"]}
{"id": "C13", "title": "Friedman one-vs-all table is the H-statistic of every feature against the rest", "statement": "After fit with calculate_ova=True, ova has exactly one row per included feature, whose value is the H-statistic built from the feature's partial dependence, the complement partial dependence and the predictions, with 0/0 replaced by 0, in descending order.", "quantifier": "all data frames, row-wise models and feature lists", "why_tests_cant": "all inputs and cache states", "anchors": ["artemis/interactions_methods/model_agnostic/partial_dependence_based/_friedman_h_statistic.py: _calculate_ova_interactions_from_pd"]}
{"id": "C14", "title": "Features that do not interact get H-statistic 0", "statement": "If the model is a sum of a part that ignores feature i and a part that ignores feature j, the pair (i,j) has H value 0 (normalized or not); if the model is a function of feature i plus a function of the other features, the one-vs-all value of i is 0.", "quantifier": "all such models, data sets and feature pairs", "why_tests_cant": "a statement over all decomposable models", "anchors": ["artemis/interactions_methods/model_agnostic/partial_dependence_based/_friedman_h_statistic.py: _calculate_hstat_value"]}
{"id": "C15", "title": "H-statistic values are non-negative, symmetric and scale-free", "statement": "Every H value is >= 0; exchanging the two features does not change it; adding a constant to the predictions does not change it; multiplying the predictions by c != 0 leaves the normalized value unchanged and multiplies the unnormalized one by |c|.", "quantifier": "all partial dependence vectors and constants", "why_tests_cant": "over all reals", "anchors": ["artemis/interactions_methods/model_agnostic/partial_dependence_based/_friedman_h_statistic.py: _calculate_hstat_value"]}
{"id": "C16", "title": "The normalized H-statistic lies in [0, 1]", "statement": "Every normalized H value reported in ovo lies between 0 (no interaction) and 1.", "quantifier": "all models and data", "why_tests_cant": "universal bound", "anchors": ["artemis/interactions_methods/model_agnostic/partial_dependence_based/_friedman_h_statistic.py: _calculate_hstat_value"]}
{"id": "C17", "title": "Greenwell pair table is the mean of the two conditional importances' deviations", "statement": "After fit, ovo has exactly one row per unordered pair of included features; its value is the mean of (a) the sample standard deviation over the values of the first feature of the conditional importance of the second, and (b) the converse, where the conditional importance is the sample standard deviation of the partial dependence for numerical features and a quarter of its range for others; rows are in descending order.", "quantifier": "all data frames whose included features have at least two distinct values, all row-wise models", "why_tests_cant": "all inputs", "anchors": ["artemis/interactions_methods/model_agnostic/partial_dependence_based/_greenwell.py: GreenwellMethod._calculate_ovo_interactions_from_pd, _calc_conditional_imp"]}
{"id": "C18", "title": "Features that do not interact get Greenwell value 0, and values are non-negative", "statement": "If the model is a sum of a part ignoring feature i and a part ignoring feature j the Greenwell value of (i,j) is 0, and every value is >= 0.", "quantifier": "all such models and data sets, numerical or categorical features", "why_tests_cant": "over all models", "anchors": ["artemis/interactions_methods/model_agnostic/partial_dependence_based/_greenwell.py: _calculate_ovo_interactions_from_pd"]}
{"id": "C19", "title": "Greenwell fit fails exactly on features with fewer than two distinct values", "statement": "With at least one pair and a complete calculator, fit raises StatisticsError iff some included feature takes fewer than two distinct values in the data; otherwise it succeeds.", "quantifier": "all data frames and feature lists", "why_tests_cant": "all inputs", "anchors": ["artemis/interactions_methods/model_agnostic/partial_dependence_based/_greenwell.py: _calculate_ovo_interactions_from_pd"]}
{"id": "C20", "title": "Partial dependence importance is the spread of the partial dependence", "statement": "importance() returns one row per requested feature with the (population) standard deviation of its partial dependence over its distinct values (numerical) or a quarter of its range (others), in descending order; a feature the model ignores gets 0, every value is >= 0.", "quantifier": "all data frames, models, feature lists and calculators", "why_tests_cant": "all inputs", "anchors": ["artemis/importance_methods/model_agnostic/_pdp.py: PartialDependenceBasedImportance.importance, _pdp_importance, _calc_importance"]}
{"id": "C21", "title": "Supplying a calculator changes nothing but speed", "statement": "fit(pd_calculator=c), for a calculator c over the same model, predict function and data with an arbitrary call history, gives the same ovo, ova and feature_importance as fit without it; a calculator for a different model or different data is rejected with ValueError and is not modified.", "quantifier": "all calculators in all reachable states", "why_tests_cant": "all histories of the shared object", "anchors": ["artemis/interactions_methods/model_agnostic/partial_dependence_based/_pdp.py: PartialDependenceBasedMethod.fit", "artemis/importance_methods/model_agnostic/_pdp.py: importance", "artemis/additivity/_additivity_meter.py: AdditivityMeter.fit"]}
{"id": "C22", "title": "A calculator built for another predict function is rejected", "statement": "fit(model, X, predict_function=p, pd_calculator=c) explains p: it either uses partial dependence values of p or raises.", "quantifier": "all predict functions and calculators", "why_tests_cant": "relational over functions", "anchors": ["artemis/interactions_methods/model_agnostic/partial_dependence_based/_pdp.py: PartialDependenceBasedMethod.fit"]}
{"id": "C23", "title": "The additivity index of an additive model is 1", "statement": "On data with no column called centered_prediction: for a model that is a sum of functions of single features and is not constant on the data, AdditivityMeter.fit returns exactly 1 (in exact arithmetic); for every model the index is at most 1 whenever it is a number, and it equals 1 only if on every row the centred partial dependences add up to the centred prediction.", "quantifier": "all data frames, additive and non-additive models", "why_tests_cant": "over all models", "anchors": ["artemis/additivity/_additivity_meter.py: AdditivityMeter.fit, _calculate_additivity"]}
{"id": "C24", "title": "The additivity index lies in [0, 1]", "statement": "AdditivityMeter.fit returns a value from the interval [0, 1] for every model, as documented.", "quantifier": "all models and data", "why_tests_cant": "universal bound", "anchors": ["artemis/additivity/_additivity_meter.py: AdditivityMeter.fit (docstring)"]}
{"id": "C25", "title": "Performance-based interaction is the documented contrast of permuted scores", "statement": "After fit, ovo has one row per unordered pair of included features; the value is the mean over n_repeat repetitions of |S_12 - S_1 - S_2 + S_0| where S_0 is the metric on the data and S_1, S_2, S_12 the metric after permuting the first, the second, or both columns (jointly), for error metrics and accuracy alike; values are >= 0 and in descending order.", "quantifier": "all data, models, metrics, feature lists, repetitions and permutations drawn", "why_tests_cant": "quantifies over all random draws", "anchors": ["artemis/interactions_methods/model_agnostic/performance_based/_sejong_oh.py: _perf_based_ovo, _inter, _permute_score, _neg_if_class"]}
{"id": "C26", "title": "Permutation methods only permute the selected columns", "statement": "Every data frame on which SejongOhMethod or PermutationImportance evaluates the model has the rows of X with only the selected columns rearranged by one common permutation; all other columns and the caller's X and y are unchanged, at every step of the run.", "quantifier": "all data, features, repetitions and random draws", "why_tests_cant": "must hold at every step for all draws", "anchors": ["artemis/interactions_methods/model_agnostic/performance_based/_sejong_oh.py: _permute_score", "artemis/importance_methods/model_agnostic/_permutational_importance.py: _corrupted_scores"]}
{"id": "C27", "title": "Features irrelevant to the model get performance-based value 0", "statement": "If the model's predictions depend on neither feature of a pair, the pair's value is 0; if they do not depend on one feature, its permutation importance is 0.", "quantifier": "all models, data, metrics and random draws", "why_tests_cant": "over all draws", "anchors": ["artemis/interactions_methods/model_agnostic/performance_based/_sejong_oh.py: _inter", "artemis/importance_methods/model_agnostic/_permutational_importance.py: _permutation_importance"]}
{"id": "C28", "title": "A pair with one irrelevant feature gets performance-based value 0", "statement": "If the model's predictions do not depend on one of the two features of a pair, the pair's performance-based interaction value is 0.", "quantifier": "all models, data and random draws", "why_tests_cant": "over all draws", "anchors": ["artemis/interactions_methods/model_agnostic/performance_based/_sejong_oh.py: _inter"]}
{"id": "C29", "title": "A fixed random_state makes Sejong Oh results reproducible", "statement": "Two fits of SejongOhMethod with the same random_state, model, data and arguments produce the same ovo and the same feature_importance.", "quantifier": "all runs (all states of the operating system's entropy source)", "why_tests_cant": "relational over two runs", "anchors": ["artemis/interactions_methods/model_agnostic/performance_based/_sejong_oh.py: SejongOhMethod.fit", "artemis/interactions_methods/_method.py: FeatureInteractionMethod.__init__", "artemis/importance_methods/_method.py: FeatureImportanceMethod.__init__"]}
{"id": "C30", "title": "Sampling keeps each row with its own target", "statement": "When n is given, every sampled row of X is paired with the target of that same row, the n rows are distinct rows of X, and n > len(X) raises.", "quantifier": "all data frames (any index), targets given as arrays or Series, and all random draws", "why_tests_cant": "all index layouts and draws", "anchors": ["artemis/_utilities/ops.py: sample_both_if_not_none, sample_if_not_none"]}
{"id": "C31", "title": "Permutation importance is the mean drop in performance, one row per feature", "statement": "importance(features=fs) returns exactly one row per distinct feature of fs: the mean score over n_repeat shuffles of the feature minus the score on the data, negated for accuracy, in descending order.", "quantifier": "all data, models, metrics, features, repetitions and draws", "why_tests_cant": "over all draws", "anchors": ["artemis/importance_methods/model_agnostic/_permutational_importance.py: _permutation_importance, _corrupted_scores"]}
{"id": "C32", "title": "Permutation importance defaults to all features", "statement": "PermutationImportance.importance without features uses all columns of X, as documented.", "quantifier": "all data", "why_tests_cant": "documented default", "anchors": ["artemis/importance_methods/model_agnostic/_permutational_importance.py: PermutationImportance.importance, _corrupted_scores"]}
{"id": "C33", "title": "Performance metrics are the textbook ones", "statement": "MSE is the mean squared difference (>= 0, 0 iff predictions equal targets), RMSE its square root, Accuracy the fraction of equal entries (in [0,1], 1 iff all equal); RMSE and MSE apply to regression only, Accuracy to classification only.", "quantifier": "all non-empty target/prediction vectors of equal length", "why_tests_cant": "over all vectors", "anchors": ["artemis/_utilities/performance_metrics.py: RMSE, MSE, Accuracy"]}
{"id": "C34", "title": "Node depths are computed correctly for every tree layout", "statement": "For every decision tree stored in scikit-learn's child arrays, whatever the numbering of its nodes, the breadth-first pass terminates, assigns each node its distance from the root, and lists for each feature exactly the nodes splitting on it, shallowest first.", "quantifier": "all finite binary trees and all node numberings", "why_tests_cant": "unbounded tree shapes", "anchors": ["artemis/interactions_methods/model_specific/random_forest/_conditional_minimal_depth.py: _bfs, _next_level, _split_var_to_ids, _append_nodes_to_split_var, _delete_leaves"]}
{"id": "C35", "title": "Subtree id ranges are exact for depth-first numbered trees", "statement": "For a tree whose nodes are numbered depth-first (as scikit-learn's default builder does), the ids between a node and the computed upper bound are exactly the ids of its subtree.", "quantifier": "all trees and nodes", "why_tests_cant": "unbounded tree shapes", "anchors": ["artemis/interactions_methods/model_specific/random_forest/_conditional_minimal_depth.py: _calculate_maximal_id_in_subtree, _f_2_split_nodes_in_f_1_subtree"]}
{"id": "C36", "title": "Conditional minimal depth of a tree", "statement": "For a depth-first numbered tree and features f1, f2 both used in it: the value reported is the minimum, over the shallowest nodes splitting on f1, of (distance to the closest f2-node strictly below it, minus 1) when there is one and of the depth of the rightmost leaf below it otherwise; the occurrence flag is 1 iff some shallowest f1-node has an f2-node below it; if f1 or f2 is unused the value is missing.", "quantifier": "all trees and feature pairs", "why_tests_cant": "unbounded tree shapes", "anchors": ["artemis/interactions_methods/model_specific/random_forest/_conditional_minimal_depth.py: _conditional_minimal_depth"]}
{"id": "C37", "title": "Conditional minimal depth is a minimum over f2-descendants", "statement": "Whenever f2 occurs below a shallowest f1-node, the value reported for (f1, f2) is the minimum distance to the closest f2-node below a shallowest f1-node (as the docstring says), for every scikit-learn forest.", "quantifier": "all trees, all numberings scikit-learn can produce", "why_tests_cant": "unbounded tree shapes", "anchors": ["artemis/interactions_methods/model_specific/random_forest/_conditional_minimal_depth.py: _conditional_minimal_depth (docstring)"]}
{"id": "C38", "title": "Forest summary averages per ordered pair", "statement": "ovo has exactly one row per ordered pair of distinct features, whose value is the mean over the trees in which the value is defined (missing if none) and whose n_occurences counts the trees with the occurrence flag; rows are sorted by n_occurences descending, then value ascending with missing values last.", "quantifier": "all forests and feature sets", "why_tests_cant": "all sizes", "anchors": ["artemis/interactions_methods/model_specific/random_forest/_conditional_minimal_depth.py: _summarise_results, _calculate_conditional_minimal_depths"]}
{"id": "C39", "title": "Minimal depth importance is the mean first-use depth", "statement": "feature_importance has exactly one row per feature used in some tree: the mean, over the trees using it, of the depth of its shallowest split, in ascending order; without the trees it raises FeatureImportanceWithoutInteractionException.", "quantifier": "all forests", "why_tests_cant": "all sizes", "anchors": ["artemis/importance_methods/model_specific/_minimal_depth.py: MinimalDepthImportance.importance, _check_preconditions"]}
{"id": "C40", "title": "Undirected comparison table of conditional minimal depth", "statement": "The table used for comparisons and interaction_value has one row per unordered pair of features, with the mean of the values of its two directions.", "quantifier": "all feature names and values", "why_tests_cant": "all feature names", "anchors": ["artemis/interactions_methods/model_specific/random_forest/_conditional_minimal_depth.py: ConditionalMinimalDepthMethod._compare_ovo"]}
{"id": "C41", "title": "interaction_value is symmetric and returns the pair's own row", "statement": "interaction_value(f1, f2) equals interaction_value(f2, f1); it is the value of a row of ovo for exactly these two features (the strongest one if both directions are listed) and raises IndexError when the pair is not listed and MethodNotFittedException when not fitted.", "quantifier": "all fitted methods and feature pairs", "why_tests_cant": "all tables", "anchors": ["artemis/interactions_methods/_method.py: FeatureInteractionMethod.interaction_value, _compare_ovo"]}
{"id": "C42", "title": "Parent information and depth of boosted trees", "statement": "After the per-tree pass, every internal node other than the root carries the gain, cover and feature of its actual parent, and for XGBoost its true depth; leaves carry none; a node is marked as interaction iff its gain exceeds its parent's and its feature differs.", "quantifier": "all trees in which parents are listed before children", "why_tests_cant": "unbounded tree shapes", "anchors": ["artemis/interactions_methods/model_specific/gb_trees/_split_score.py: _prepare_stats, _calculate_full_result", "artemis/importance_methods/model_specific/_split_score.py: _calculate_depth_for_one_tree"]}
{"id": "C43", "title": "Split score tables aggregate exactly the right nodes", "statement": "full_ovo has exactly one row per (parent feature, child feature) occurring among the selected nodes; its frequency is the number of such nodes, sum_gain/sum_cover the sums and mean_gain/mean_cover/mean_depth the means over them; frequencies and sums add up to the totals over all selected nodes.", "quantifier": "all models and both settings of only_def_interactions", "why_tests_cant": "all sizes", "anchors": ["artemis/interactions_methods/model_specific/gb_trees/_split_score.py: _get_summary, _get_ovo"]}
{"id": "C44", "title": "Split score ovo is ordered by strength", "statement": "ovo is sorted by the selected metric, ascending exactly when the metric is mean_depth, and contains the values of that metric.", "quantifier": "all models and metrics", "why_tests_cant": "all tables", "anchors": ["artemis/interactions_methods/model_specific/gb_trees/_split_score.py: _get_ovo, SplitScoreMethod._interactions_ascending_order"]}
{"id": "C45", "title": "Split score fit works for every supported boosting model", "statement": "SplitScoreMethod.fit succeeds for every trained XGBoost or LightGBM model and every supported metric.", "quantifier": "all models, including ensembles of stumps", "why_tests_cant": "all models", "anchors": ["artemis/interactions_methods/model_specific/gb_trees/_split_score.py: _calculate_full_result, _COLUMNS_TO_CHOSE"]}
{"id": "C46", "title": "Unsupported models, metrics and visualizations are rejected", "statement": "Models from other packages raise ModelNotSupportedException, cover-based metrics on LightGBM raise MetricNotSupportedException, a visualization type not listed for the method raises VisualizationNotSupportedException, before anything is computed or drawn; all others are accepted.", "quantifier": "all class names, metric names and visualization names", "why_tests_cant": "all strings", "anchors": ["artemis/_utilities/_handler.py: GBTreesHandler.unify_structure", "artemis/interactions_methods/model_specific/gb_trees/_split_score.py: _check_metrics_with_available_info", "artemis/visualizer/_visualizer.py: Visualizer.plot, accepts", "artemis/visualizer/_configuration.py: VisualizationConfigurationProvider"]}
{"id": "C47", "title": "A rejected fit leaves the method as it was", "statement": "If fit raises, the results and ordering behaviour (ovo, interaction_value, comparison tables) of a previously fitted method are unchanged.", "quantifier": "all methods, all earlier states and all failing arguments", "why_tests_cant": "all histories", "anchors": ["artemis/interactions_methods/model_specific/gb_trees/_split_score.py: SplitScoreMethod.fit", "artemis/interactions_methods/model_agnostic/partial_dependence_based/_pdp.py: PartialDependenceBasedMethod.fit"]}
{"id": "C48", "title": "Split score importance metrics", "statement": "feature_importance has one row per splitting feature; sum_gain, sum_cover, mean_gain, mean_cover, mean_depth and mean_weighted_depth aggregate exactly the nodes splitting on the feature; root_frequency counts the trees whose root splits on it (summing to the number of split roots), weighted_root_frequency weighs it by the share of root gain.", "quantifier": "all models, feature filters and metrics", "why_tests_cant": "all sizes", "anchors": ["artemis/importance_methods/model_specific/_split_score.py: _calculate_all_feature_importance, _calculate_basic_metrics, _calculate_root_metrics, _calculate_mean_weighted_depth_metric, _select_metric"]}
{"id": "C49", "title": "Split score importance is ordered by importance", "statement": "feature_importance is sorted in the direction announced by importance_ascending_order, most important feature first, for every metric.", "quantifier": "all models and metrics", "why_tests_cant": "all metrics", "anchors": ["artemis/importance_methods/model_specific/_split_score.py: _select_metric, importance_ascending_order"]}
{"id": "C50", "title": "Self-correlation is 1 and correlations are bounded and symmetric", "statement": "The Pearson, Spearman and Kendall values reported by correlation lie in [-1,1], are symmetric in the two methods, and are 1 for a method compared with itself (when it has at least two pairs).", "quantifier": "all fitted method pairs over the same features", "why_tests_cant": "over all rankings", "anchors": ["artemis/comparison/_method_comparator.py: correlation, _rank_interaction_values_encoded"]}
{"id": "C51", "title": "Method correlation does not depend on feature names", "statement": "Renaming the features consistently in both methods does not change the reported correlation.", "quantifier": "all rankings and renamings", "why_tests_cant": "relational over renamings", "anchors": ["artemis/comparison/_method_comparator.py: _rank_interaction_values_encoded, _alphabetical_order_pair"]}
{"id": "C52", "title": "Pairs are encoded consistently in both methods", "statement": "When both methods list the same unordered pairs, two rows (of either method) get the same code iff they are about the same pair.", "quantifier": "all feature names and rankings", "why_tests_cant": "all strings", "anchors": ["artemis/comparison/_method_comparator.py: _rank_interaction_values_encoded, _alphabetical_order_pair"]}
{"id": "C53", "title": "The correlation box shows the correlations of the plotted methods", "statement": "comparison_plot(m1, m2, add_correlation_box=True) shows the correlations of m1 and m2, whatever was compared before with the same comparator.", "quantifier": "all histories of summary and comparison_plot calls", "why_tests_cant": "all histories", "anchors": ["artemis/comparison/_method_comparator.py: comparison_plot, summary"]}
{"id": "C54", "title": "Comparison plot pairs up the two methods' values", "statement": "comparison_plot puts one point per pair of method1, with method1's value on x and method2's value for the same pair on y; it raises exactly when method2 does not list some pair of method1; summary raises MethodNotFittedException if either method is not fitted.", "quantifier": "all fitted method pairs", "why_tests_cant": "all tables", "anchors": ["artemis/comparison/_method_comparator.py: comparison_plot, summary, _assert_fitted_ovo", "artemis/interactions_methods/_method.py: interaction_value"]}
{"id": "C55", "title": "Heatmap matrix shows interactions off the diagonal and importance on it", "statement": "For undirected methods the heatmap matrix is symmetric, holds the interaction value of each listed pair and the importance of each feature on its diagonal; reordering permutes rows and columns simultaneously.", "quantifier": "all tables", "why_tests_cant": "all sizes", "anchors": ["artemis/visualizer/_visualizer.py: plot_heatmap, _feature_importance_diag, order_heatmap"]}
{"id": "C56", "title": "Every accepted plot works after fit", "statement": "After a successful fit, plot succeeds for every accepted visualization type (heatmap needs an importance for each listed feature; the one-vs-all requirement of FriedmanHStatisticMethod.plot is only needed for one-vs-all charts).", "quantifier": "all methods, models and data", "why_tests_cant": "all fitted states", "anchors": ["artemis/visualizer/_visualizer.py: _feature_importance_diag", "artemis/interactions_methods/model_agnostic/partial_dependence_based/_friedman_h_statistic.py: plot", "artemis/interactions_methods/model_specific/random_forest/_conditional_minimal_depth.py: fit"]}
{"id": "C57", "title": "Graph edge widths are normalised and follow interaction strength", "statement": "Edge widths lie in [0, max_edge_width] and, for methods where larger means stronger, a stronger interaction never gets a thinner edge and irrelevant interactions get the thinnest.", "quantifier": "all tables with at least two distinct values", "why_tests_cant": "over all reals", "anchors": ["artemis/visualizer/_visualizer.py: _interactions_to_edge_widths, _scale_to_unit_interval, _filter_insignificant_interactions, _map_to_width"]}
{"id": "C58", "title": "Graph edge widths follow strength for depth-like methods too", "statement": "For methods where smaller means stronger, a stronger (smaller, relevant) interaction never gets a thinner edge than a weaker one.", "quantifier": "all tables", "why_tests_cant": "over all reals", "anchors": ["artemis/visualizer/_visualizer.py: _reverse_scale_for_ascending"]}
{"id": "C59", "title": "The summary plot draws the same graph as the graph plot", "statement": "plot('summary') draws the interaction graph with the same ordering convention as plot('graph').", "quantifier": "all methods", "why_tests_cant": "all methods", "anchors": ["artemis/visualizer/_visualizer.py: plot_summary"]}
{"id": "C60", "title": "Zenplot visits distinct pairs along shared features", "statement": "plot_zenplot with zenpath_length = k shows k distinct pairs of ovo, starting with the strongest; each next panel is the strongest unused candidate sharing the exit feature when there is one, and the first unused candidate otherwise; it raises exactly when ovo has at most k rows.", "quantifier": "all ovo tables and k >= 1", "why_tests_cant": "all tables", "anchors": ["artemis/interactions_methods/model_agnostic/partial_dependence_based/_pdp.py: plot_zenplot", "artemis/_utilities/zenplot.py: find_next_pair_index, get_second_feature"]}
{"id": "C61", "title": "Zenplot colour range covers all shown values", "statement": "The colour range [min_pd, max_pd] used by plot_zenplot contains every partial dependence value of the candidate pairs (when none is NaN).", "quantifier": "all calculators and tables", "why_tests_cant": "over all reals", "anchors": ["artemis/_utilities/zenplot.py: get_pd_dict"]}
{"id": "C62", "title": "Refitting without one-vs-all does not show stale one-vs-all results", "statement": "After fit(calculate_ova=False), the method does not show one-vs-all values of an earlier fit.", "quantifier": "all histories of fit calls", "why_tests_cant": "all histories", "anchors": ["artemis/interactions_methods/model_agnostic/partial_dependence_based/_friedman_h_statistic.py: fit, plot"]}
{"id": "C63", "title": "Plot before fit is rejected", "statement": "plot, interaction_value and comparison on a method that was never fitted raise MethodNotFittedException, for every method class.", "quantifier": "all methods and histories without fit", "why_tests_cant": "all histories", "anchors": ["artemis/interactions_methods/_method.py: plot, _compare_ovo", "artemis/interactions_methods/model_agnostic/partial_dependence_based/_friedman_h_statistic.py: plot", "artemis/comparison/_method_comparator.py: _assert_fitted_ovo"]}
{"id": "C64", "title": "Labels sit on the left half circle", "statement": "point_left_side_circle(x, y, r) returns a point at distance |r| from (x, y), with abscissa at most x when r >= 0, for every random draw.", "quantifier": "all reals and draws", "why_tests_cant": "over all reals", "anchors": ["artemis/_utilities/ops.py: point_left_side_circle"]}
{"id": "C65", "title": "The explained prediction function is the documented one", "statement": "get_predict_function returns the supplied function when given, else the second column of predict_proba when the model has it, else predict.", "quantifier": "all models and functions", "why_tests_cant": "decision rule over all models", "anchors": ["artemis/_utilities/ops.py: get_predict_function, yhat_default, yhat_proba_default"]}
{"id": "C66", "title": "Missing values in columns that are not included do not matter", "statement": "fit(model, X, features=fs) of the Friedman method succeeds whenever the included features fs are columns of X without missing values and the model answers every request.", "quantifier": "all data frames, feature lists and models", "why_tests_cant": "all inputs, including frames with missing values in other columns", "anchors": ["artemis/importance_methods/model_agnostic/_pdp.py: _pdp_importance", "artemis/interactions_methods/model_agnostic/partial_dependence_based/_pdp.py: PartialDependenceBasedMethod.fit"]}
{"id": "C67", "title": "Looking up a single partial dependence rejects unknown keys", "statement": "get_pd_single(feature, values) raises KeyError for a feature that is not a column (with no value list, or with a list of at least one value) and IndexError when some requested value does not occur in that column, and never returns a number in these cases; when every requested value occurs (and is not NaN) it answers with one number per requested value, the partial dependence at that value.", "quantifier": "all calculators, features and values", "why_tests_cant": "over all values and columns", "anchors": ["artemis/_utilities/pd_calculator.py: PartialDependenceCalculator.get_pd_single"]}
{"id": "C68", "title": "The additivity index does not depend on the names of the columns", "statement": "Renaming the columns of the data injectively leaves the result of AdditivityMeter.fit unchanged for a model that reads its input by position.", "quantifier": "all data frames, models and injective renamings", "why_tests_cant": "universal over names; fails only for the name the code itself uses for a helper column", "anchors": ["artemis/additivity/_additivity_meter.py: AdditivityMeter.fit, _calculate_additivity"]}
{"id": "C69", "title": "Conditional minimal depth can be fitted to every forest", "statement": "ConditionalMinimalDepthMethod.fit succeeds for every fitted scikit-learn forest that carries feature names, whatever trees it consists of.", "quantifier": "all forests", "why_tests_cant": "universal over fitted models; fails only for forests in which no tree has a split", "anchors": ["artemis/interactions_methods/model_specific/random_forest/_conditional_minimal_depth.py: ConditionalMinimalDepthMethod.fit", "artemis/importance_methods/model_specific/_minimal_depth.py: MinimalDepthImportance.importance"]}
{"id": "C70", "title": "Feature names do not matter to the split score method", "statement": "The interaction tables of SplitScoreMethod list every parent-child split of the model whatever the features are called.", "quantifier": "all trained models and all feature names", "why_tests_cant": "Tests use a handful of ordinary column names; the claim ranges over all strings, including those the packages use as markers (\"Leaf\").", "anchors": ["artemis/_utilities/_handler.py: GBTreesHandler", "artemis/importance_methods/model_specific/_split_score.py: _calculate_all_feature_importance"]}
{"id": "C71", "title": "Lollipop chart shows the requested share of the trees", "statement": "plot('lollipop', max_trees=p) of SplitScoreMethod shows the roots, and the nodes down to max_depth, of the first share p of the trees (all of them for p = 1).", "quantifier": "all models and shares", "why_tests_cant": "all ensembles", "anchors": ["artemis/visualizer/_visualizer.py: plot_lollipop"]}
{"id": "C72", "title": "A given title is shown", "statement": "plot(vis_type, title=t) shows the title t (as the title of the figure for 'summary', else of the axes); the default title is used only when none is given.", "quantifier": "all methods, visualization types and titles", "why_tests_cant": "all strings and all chart types", "anchors": ["artemis/visualizer/_visualizer.py: plot and the plot_ methods"]}
{"id": "C73", "title": "Bar charts show the strongest interactions", "statement": "The pair and one-vs-all bar charts show the top_k strongest rows of the fitted table, strongest first, each with its value; no row left out is stronger than a row shown.", "quantifier": "all fitted tables and top_k", "why_tests_cant": "all tables", "anchors": ["artemis/visualizer/_visualizer.py: plot_barchart_ovo, plot_barchart_ova"]}
{"id": "C74", "title": "Graph edge labels mark the strongest relevant interactions", "statement": "The interaction graph labels at most n_highest_with_labels edges: positive interactions that are relevant (not below the threshold), strongest first; a relevant positive interaction without label is not stronger than a labelled one. With a label count of 0 nothing is labelled.", "quantifier": "all tables, thresholds and counts", "why_tests_cant": "all tables", "anchors": ["artemis/visualizer/_visualizer.py: plot_interaction_graph, _get_edge_labels"]}
{"id": "C75", "title": "The conditional bar chart compares with the unconditional depth of the same feature", "statement": "plot('bar_chart_conditional') of ConditionalMinimalDepthMethod shows the first top_k rows of ovo with their value and number of occurences, and marks next to each the importance of its second feature.", "quantifier": "all fitted tables and top_k", "why_tests_cant": "all tables", "anchors": ["artemis/visualizer/_visualizer.py: plot_barchart_conditional"]}
{"id": "C76", "title": "Summary panels equal the single plots", "statement": "Each panel of plot('summary') (heatmap, bar charts) is the one that the corresponding plot draws for the same keyword arguments.", "quantifier": "all methods, tables and arguments", "why_tests_cant": "all methods and arguments", "anchors": ["artemis/visualizer/_visualizer.py: plot_summary"]}
{"id": "C77", "title": "Zenplot panels show the partial dependence function of their pair", "statement": "After fit, panel i of plot_zenplot lies in the grid at row i//2 and column (i+1)//2, carries the sorted distinct values of the two features of its pair on its axes (first feature along x for even i, along y for odd i), and each cell is the mean prediction with the two features set to the values of its row and column (after Friedman's method cells whose values never occur together may be undefined).", "quantifier": "all successful fits, path lengths and panels", "why_tests_cant": "the cell must sit at the right place for all data and both storage orders of a pair", "anchors": ["artemis/interactions_methods/model_agnostic/partial_dependence_based/_pdp.py: plot_zenplot", "artemis/_utilities/zenplot.py: get_pd_pairs_values"]}
{"id": "C78", "title": "Profiles show the partial dependence function", "statement": "After fit, plot_profile(f1) draws the one-feature partial dependence function of f1 over its sorted distinct values, and plot_profile(f1, f2) draws the two-feature function, with the axes labelled by the features they carry, the same picture for (f2, f1).", "quantifier": "all successful fits and features", "why_tests_cant": "all data, all models and both orders", "anchors": ["artemis/interactions_methods/model_agnostic/partial_dependence_based/_pdp.py: plot_profile"]}
{"id": "C79", "title": "Zenplot axis labels name the feature on the axis", "statement": "In every panel of plot_zenplot, the title names the feature along x and the y label the feature along y, when they are set.", "quantifier": "all tables, calculators and path lengths", "why_tests_cant": "all paths", "anchors": ["artemis/interactions_methods/model_agnostic/partial_dependence_based/_pdp.py: plot_zenplot"]}
{"id": "C80", "title": "Profiles and zenplots before fit are reported as such", "statement": "plot_profile and plot_zenplot raise MethodNotFittedException before fit, like plot and interaction_value.", "quantifier": "all arguments", "why_tests_cant": "all arguments", "anchors": ["artemis/interactions_methods/model_agnostic/partial_dependence_based/_pdp.py: plot_profile, plot_zenplot"]}
{"id": "C81", "title": "Zenplot colour range is tight", "statement": "The ends of the colour range of plot_zenplot are the smallest and the largest partial dependence value of the candidate pairs.", "quantifier": "all fits", "why_tests_cant": "all reals", "anchors": ["artemis/_utilities/zenplot.py: get_pd_dict"]}
{"id": "C82", "title": "Heatmap orders features by strength", "statement": "The rows and columns of the heatmap are ordered by the strength of the features: importance relative to the largest importance plus strongest interaction relative to the largest number shown; strongest first.", "quantifier": "all tables, importances and names", "why_tests_cant": "all reals, all matrix sizes, names and missing pairs", "anchors": ["artemis/visualizer/_visualizer.py: order_heatmap"]}
{"id": "C83", "title": "Plots follow the direction of the measure", "statement": "Heatmaps reverse the colour map exactly for the measures where smaller is stronger (conditional minimal depth; mean depth metrics of the split score), separately for interactions and importance; graphs are directed exactly for conditional minimal depth and have no edge labels where smaller is stronger.", "quantifier": "all methods, fits, metrics and tables", "why_tests_cant": "all metric combinations and states", "anchors": ["artemis/visualizer/_visualizer.py: plot_heatmap, plot_interaction_graph", "artemis/interactions_methods/model_specific/gb_trees/_split_score.py: plot"]}
{"id": "C84", "title": "Values drawn by a zenplot lie in its colour range", "statement": "After any fit, every defined value drawn in a panel of plot_zenplot lies between the ends of the colour range used for the plot.", "quantifier": "all fits, models, data and path lengths", "why_tests_cant": "over all models and data; depends on which cells of the partial dependence matrices are defined", "anchors": ["artemis/_utilities/zenplot.py: get_pd_dict", "artemis/interactions_methods/model_agnostic/partial_dependence_based/_pdp.py: plot_zenplot"]}
{"id": "C85", "title": "Included features do not influence each other's values", "statement": "For Friedman's and Greenwell's methods, fitting the same model on the same rows with other included features, or naming them in another order, gives the same interaction value for every pair, the same one-vs-all value and the same importance for every feature that both fits include.", "quantifier": "all data, models and feature lists", "why_tests_cant": "all feature subsets, orders and models; involves shared caches of the calculator", "anchors": ["artemis/interactions_methods/model_agnostic/partial_dependence_based/_friedman_h_statistic.py", "artemis/interactions_methods/model_agnostic/partial_dependence_based/_greenwell.py", "artemis/importance_methods/model_agnostic/_pdp.py"]}
{"id": "C86", "title": "Results depend on the data, not on its layout", "statement": "Reordering the rows of X, repeating all of them equally often, or reordering the columns (with a model that reads them by name) changes neither the interaction values of Friedman's and Greenwell's methods, nor the one-vs-all values, the partial dependence importance, or the additivity index.", "quantifier": "all data sets, permutations and models", "why_tests_cant": "all permutations of all data; the code works with positional caches and chunked predictions", "anchors": ["artemis/_utilities/pd_calculator.py", "artemis/interactions_methods/model_agnostic/partial_dependence_based/_friedman_h_statistic.py", "artemis/interactions_methods/model_agnostic/partial_dependence_based/_greenwell.py", "artemis/additivity/_additivity_meter.py"]}
{"id": "C87", "title": "Predictions on another scale", "statement": "Replacing the predictions h by c*h + k multiplies Greenwell's interaction values and the partial dependence importance by |c|, and (for c other than 0) leaves the additivity index unchanged.", "quantifier": "all models, data, c and k", "why_tests_cant": "all reals and all data", "anchors": ["artemis/interactions_methods/model_agnostic/partial_dependence_based/_greenwell.py", "artemis/importance_methods/model_agnostic/_pdp.py", "artemis/additivity/_additivity_meter.py"]}
{"id": "C88", "title": "Restricting split score importance to some features only drops rows", "statement": "Calling the split score importance for a list of features gives exactly the rows of the full table that belong to those features, with the same values, and it works whenever the model splits on at least one of them.", "quantifier": "all trained ensembles, feature lists and metrics", "why_tests_cant": "all trees and all feature lists", "anchors": ["artemis/importance_methods/model_specific/_split_score.py"]}
{"id": "C89", "title": "Split score importance called without the method", "statement": "SplitScoreImportance().importance(model) on a trained model gives the table that fitting SplitScoreMethod on that model reports, and without a metric it uses the documented one.", "quantifier": "all trained ensembles and metrics", "why_tests_cant": "all trees and metrics; the direct entry point shares only part of the path of the method", "anchors": ["artemis/importance_methods/model_specific/_split_score.py", "artemis/interactions_methods/model_specific/gb_trees/_split_score.py"]}
{"id": "C90", "title": "One-off partial dependence values", "statement": "The helper for a single partial dependence value returns the mean prediction over all rows with the named columns replaced, rejects a column that does not exist before the model is asked, and agrees with the cached tables for one and for two columns; removing a column from a list removes exactly that one.", "quantifier": "all frames, replacements and row-wise models", "why_tests_cant": "all data and models", "anchors": ["artemis/_utilities/ops.py", "artemis/_utilities/pd_calculator.py"]}
{"id": "C91", "title": "PartialDependenceVisualizer draws", "statement": "PartialDependenceVisualizer(model, X).plot(features) draws the partial dependence of the features.", "quantifier": "all models, data, features and keyword arguments", "why_tests_cant": "concerns every combination of keywords", "anchors": ["artemis/visualizer/_pdp_visualizer.py"]}
{"id": "C92", "title": "The prediction budget of a fit", "statement": "A fit of Friedman's or Greenwell's method without a given calculator sends the model only as many rows as there are profiles to compute: one profile per observed pair of values (Friedman) or per combination of distinct values (Greenwell) for each pair of features, one per distinct value of each column and, for one-versus-all, one per row and feature, each costing one copy of the sampled data. No value is asked for twice. No single request is larger than the batch size plus one group of profiles.", "quantifier": "all models (also failing ones), data, features, batch sizes; the exact count for row-wise models with number-valued profiles", "why_tests_cant": "the count depends on the batching loop, on which cells are already filled and on the order of the stages; a test fixes one data set and one batch size", "anchors": ["artemis/_utilities/pd_calculator.py", "artemis/interactions_methods/model_agnostic/partial_dependence_based/_pdp.py", "artemis/interactions_methods/model_agnostic/partial_dependence_based/_friedman_h_statistic.py", "artemis/interactions_methods/model_agnostic/partial_dependence_based/_greenwell.py", "artemis/importance_methods/model_agnostic/_pdp.py"]}
{"id": "C93", "title": "Features the model ignores do not interact, also in doubles", "statement": "After FriedmanHStatisticMethod.fit computed in double precision, two features that the model does not use have the interaction value 0.", "quantifier": "all models, data and features; every summation order", "why_tests_cant": "the value depends on how averages of equal numbers round, which differs from data set to data set", "anchors": ["artemis/interactions_methods/model_agnostic/partial_dependence_based/_friedman_h_statistic.py", "artemis/_utilities/ops.py"]}
{"id": "C94", "title": "H values are numbers and not negative, also in doubles", "statement": "Every interaction value in ovo and ova reported by FriedmanHStatisticMethod.fit, normalized or not, computed in double precision with any order of summation, compares as greater than or equal to 0 (in particular it is not NaN).", "quantifier": "all models, data, features and summation orders, including overflow, underflow and NaN predictions", "why_tests_cant": "rounding, overflow and undefined values are reached by few inputs", "anchors": ["artemis/interactions_methods/model_agnostic/partial_dependence_based/_friedman_h_statistic.py"]}
{"id": "C95", "title": "A constant model is reported as additive", "statement": "For a model that returns the same prediction for every row, which is additive, AdditivityMeter.fit returns 1 (documented: 1 means that the model is additive, 0 that it is not).", "quantifier": "all constants and data", "why_tests_cant": "the result depends on the rounding of an average of equal numbers", "anchors": ["artemis/additivity/_additivity_meter.py"]}
{"id": "C96", "title": "The additivity index never exceeds 1", "statement": "The value returned by AdditivityMeter.fit in double arithmetic is NaN or at most 1, whatever the model, the data, the sample and the calculator, in whichever order the sums are formed; the same value is stored on the meter.", "quantifier": "all models, data, arguments and summation orders", "why_tests_cant": "rounding of sums and quotients of arbitrary doubles", "anchors": ["artemis/additivity/_additivity_meter.py"]}
{"id": "C97", "title": "Methods may share a calculator", "statement": "After method A has been fitted, fitting method B with A's pd_calculator (with whatever features, method and outcome), or calling calculate_* on it, leaves A's pictures as they were: plot_profile(f) is unchanged, and plot_profile(f1, f2) raises the same exception or draws the same labels, axes and numbers, except that cells that were undefined may become defined. AdditivityMeter.fit and the partial dependence importance with A's calculator (whatever comes of them) change no picture of A at all: every plot_profile of one or two features and every plot_zenplot stays exactly the same.", "quantifier": "all models, data, methods, features, later calls and fits, including failing ones", "why_tests_cant": "any sequence of later calls, including ones interrupted by the model", "anchors": ["artemis/interactions_methods/model_agnostic/partial_dependence_based/_pdp.py", "artemis/_utilities/pd_calculator.py", "artemis/additivity/_additivity_meter.py"]}
{"id": "C98", "title": "A calculator whose data was changed in place is not used for the new data", "statement": "If cells of the data frame are assigned after a calculator was built for it, fit with that frame and that calculator raises or explains the new data.", "quantifier": "all models, data and assignments", "why_tests_cant": "needs aliasing between the caller's frame and the calculator's, for arbitrary assignments", "anchors": ["artemis/_utilities/pd_calculator.py", "artemis/interactions_methods/model_agnostic/partial_dependence_based/_pdp.py"]}
{"id": "C99", "title": "A refit forgets earlier fits", "statement": "A successful fit leaves the results that a new object made with the same random_state has after a fit with the same arguments, whatever the object was used for before; a fit that raises does so for the new object as well, with the same exception.", "quantifier": "all methods, earlier states and arguments", "why_tests_cant": "all states an object can be in", "anchors": ["artemis/interactions_methods/_method.py", "artemis/additivity/_additivity_meter.py"]}
{"id": "C100", "title": "Performance-based pair values survive rounding", "statement": "With numbers as IEEE doubles, summed in any order: every pair value of the performance-based method is NaN or at least 0, and it is exactly 0 when the model ignores both features and its score is a number.", "quantifier": "all models, data, metrics, seeds, repetitions and orders of summation", "why_tests_cant": "all doubles and all summation orders; rounding errors of a few tests say nothing about other values", "anchors": ["artemis/interactions_methods/model_agnostic/performance_based/_sejong_oh.py"]}
{"id": "C101", "title": "Permutation importance of an ignored feature in doubles", "statement": "With numbers as IEEE doubles, summed in any order: the permutation importance of a feature the model ignores is 0.", "quantifier": "all models, data, metrics, seeds, repetitions and orders of summation", "why_tests_cant": "a bound on the accumulated rounding error of every sum, not of the sums tried", "anchors": ["artemis/importance_methods/model_agnostic/_permutational_importance.py", "artemis/interactions_methods/model_agnostic/performance_based/_sejong_oh.py"]}
{"id": "C102", "title": "Edge widths survive rounding", "statement": "With numbers as IEEE doubles: if two of the values to be drawn differ after the threshold has been applied, every edge of the graph has a width between 0 and the maximal width (or NaN if its value is missing); for measures where large values are strong, the strongest pair gets exactly the maximal width, the weakest 0, a stronger pair is never drawn thinner, and pairs below the threshold get 0.", "quantifier": "all tables of non-negative doubles, thresholds and widths", "why_tests_cant": "all doubles, including subnormal ones and quotients that round", "anchors": ["artemis/visualizer/_visualizer.py"]}
{"id": "C103", "title": "Nodes of the interaction graph are sized by importance", "statement": "In the graph drawn by plot, each feature's node has the area node_size * importance / largest importance: between 0 and node_size, the most important feature has the area node_size, a more important feature never has a smaller node, and areas are in proportion to importances.", "quantifier": "all methods, fitted states, node sizes", "why_tests_cant": "all importance tables any fit can produce, including negative ones and depths", "anchors": ["artemis/visualizer/_visualizer.py"]}
{"id": "C104", "title": "Lollipop annotations name the interactions and the strong roots", "statement": "In the lollipop plot of the split score method with labels=True, a drawn inner node carries an annotation exactly when its gain exceeds its parent's and the parent splits on another feature, and the annotation is 'parent:child' in that order; a drawn root carries the name of its feature exactly when its gain is not below label_threshold times the largest gain of a drawn root. Only the first share of the trees and the requested depths are drawn. labels=False gives no annotations.", "quantifier": "all boosted ensembles, trees, gains, thresholds, shares and depths", "why_tests_cant": "which nodes of which trees are annotated, for every ensemble of any shape", "anchors": ["artemis/visualizer/_visualizer.py", "artemis/_utilities/_handler.py"]}
{"id": "C105", "title": "Partial dependence importance in doubles", "statement": "With numbers as IEEE doubles, summed in any order: every partial dependence importance reported by fit is a number that is not negative, and it is exactly 0 for a feature that the model ignores.", "quantifier": "all models, data, feature kinds, methods and orders of summation", "why_tests_cant": "all doubles and all summation orders; a few tested models round by accident to 0", "anchors": ["artemis/importance_methods/model_agnostic/_pdp.py"]}
{"id": "C106", "title": "Arguments of the summary reach the charts they name", "statement": "plot('summary', **kwargs): a dictionary given under the name of a chart ('heatmap', 'graph', 'bar_chart', 'bar_chart_ova') makes that panel of the summary the one that plot(name, **dictionary) draws, whatever the other arguments are.", "quantifier": "all methods, tables, titles and keyword dictionaries", "why_tests_cant": "every combination of keyword dictionaries and every fitted table", "anchors": ["artemis/visualizer/_visualizer.py", "artemis/interactions_methods/_method.py"]}
{"id": "C107", "title": "Documented defaults of plot", "statement": "Passing a keyword of plot with its documented default (top_k 10, or 15 for 'bar_chart_conditional'; n_highest_with_labels 5; max_trees 0.2, max_depth 1, label_threshold 0.1, labels True) draws exactly what leaving it out draws, whatever the other keywords are. The same holds for the defaults of the graph that depend on the method: threshold_relevant_interaction 0.05 (0.1 for the performance based and split score methods, 0.6 for conditional minimal depth) and max_edge_width 20 (3 for conditional minimal depth).", "quantifier": "all methods, tables, titles and other keywords", "why_tests_cant": "equality of two figures for every table and every set of further arguments", "anchors": ["artemis/visualizer/_visualizer.py", "artemis/interactions_methods/_method.py", "artemis/interactions_methods/model_specific/gb_trees/_split_score.py", "artemis/interactions_methods/model_specific/random_forest/_conditional_minimal_depth.py", "artemis/visualizer/_configuration.py:8-19, 121-172"]}
{"id": "C108", "title": "Documented chart types are accepted", "statement": "Every value listed for vis_type in the documentation of a method's plot is accepted: it never raises VisualizationNotSupported on a fitted method.", "quantifier": "all methods, fitted tables, titles and keywords", "why_tests_cant": "all fitted states of all methods", "anchors": ["artemis/visualizer/_visualizer.py", "artemis/interactions_methods/_method.py", "artemis/interactions_methods/model_specific/gb_trees/_split_score.py"]}
{"id": "C109", "title": "A metric does not depend on the container of the target", "statement": "MSE, RMSE and Accuracy give the same value whether the target is a pandas Series (with any index) or an array with the same values, also when some targets are missing and for any number of predictions.", "quantifier": "all targets (complete or with missing values), predictions of the same length and indexes", "why_tests_cant": "quantifies over all targets and indexes; a test compares two containers of one target", "anchors": ["artemis/_utilities/performance_metrics.py", "artemis/interactions_methods/model_agnostic/performance_based/_sejong_oh.py"]}
{"id": "C110", "title": "Metrics computed in doubles", "statement": "In double precision: MSE and RMSE are never negative, are exactly 0 for perfect finite predictions and only then; accuracy lies between 0 and 1, is 1 exactly when every prediction hits and 0 exactly when none does.", "quantifier": "all finite targets and predictions (at most 2^52 rows), any order of summation", "why_tests_cant": "concerns every pair of vectors of doubles and every summation order", "anchors": ["artemis/_utilities/performance_metrics.py"]}
{"id": "C111", "title": "interaction_value returns the statistic of the model", "statement": "For every model computing a function h row by row and every data set meeting the documented requirements (complete rows, at least two different feature columns; for Greenwell, features that vary), fit succeeds and interaction_value(f1, f2), in either order, returns Friedman's H (or Greenwell's measure) of h for these two columns on the rows used; for any other two names it raises IndexError.", "quantifier": "all models, data, samples, feature lists, calculators and previous states of the method", "why_tests_cant": "all models and data, from the input of fit to the value returned", "anchors": ["artemis/interactions_methods/model_agnostic/partial_dependence_based/_friedman_h_statistic.py", "artemis/interactions_methods/model_agnostic/partial_dependence_based/_greenwell.py", "artemis/interactions_methods/_method.py"]}
{"id": "C112", "title": "Charts of a fitted method show the statistics of the model", "statement": "Under the same assumptions: the heatmap after fit has every fitted feature once on both axes, the importance of each feature on the diagonal and the statistic of each pair in both of its off-diagonal cells; the bar chart shows the top_k strongest pairs with their statistics in decreasing order; the one-vs-all chart the top_k features with their overall H.", "quantifier": "all models, data, feature lists, titles and keywords", "why_tests_cant": "from the input of fit to the drawn figure, for all models and data", "anchors": ["artemis/interactions_methods/model_agnostic/partial_dependence_based/_friedman_h_statistic.py", "artemis/interactions_methods/model_agnostic/partial_dependence_based/_greenwell.py", "artemis/visualizer/_visualizer.py", "artemis/interactions_methods/_method.py"]}
{"id": "C113", "title": "The comparison plot shows the statistics of both models", "statement": "For two fitted partial dependence methods (any kinds, models and data), the comparison plot has one point per pair of features of the first method, at (statistic of the first, statistic of the second) for that pair, the strongest n labelled with their names, provided the second was fitted on all features of the first; otherwise it raises IndexError.", "quantifier": "all pairs of methods, models, data and comparator states", "why_tests_cant": "from the inputs of two fits to the drawn points", "anchors": ["artemis/comparison/_method_comparator.py", "artemis/interactions_methods/model_agnostic/partial_dependence_based/_friedman_h_statistic.py", "artemis/interactions_methods/model_agnostic/partial_dependence_based/_greenwell.py", "artemis/interactions_methods/_method.py"]}
{"id": "C114", "title": "Keywords of a chart: each changes what it names, the others nothing", "statement": "The figure of plot depends only on the keyword arguments its chart documents; all others, misspelt ones included, are ignored without error. top_k is the number of bars drawn; the two colour maps of the heatmap are taken each from its own argument and change nothing else; at most n_highest_with_labels edges are labelled, none below threshold_relevant_interaction; max_edge_width multiplies the widths of the edges and changes nothing else; max_depth is the number of series in the lollipop chart, max_trees cuts the trees shown, label_threshold the roots labelled, labels=False removes all annotations.", "quantifier": "all methods, results, titles and keyword dictionaries", "why_tests_cant": "all dictionaries of keyword arguments over all results", "anchors": ["artemis/visualizer/_visualizer.py", "artemis/visualizer/_configuration.py", "artemis/interactions_methods/_method.py"]}
{"id": "C115", "title": "Performance based method: values and charts from the input of fit", "statement": "After fit on finite data with a real valued model and one of the offered metrics, the value of a pair is the mean over the repetitions of |score with both columns shuffled - score with the first shuffled - score with the second shuffled + score of the model|, each shuffled by its own draw of the generator; pairs not among the chosen features raise IndexError. The heatmap shows these values and the permutation importances on its diagonal, the bar chart the largest of them in order.", "quantifier": "all models, metrics offered, frames, targets, generators, numbers of repetitions, pairs and keyword arguments", "why_tests_cant": "all models and data sets", "anchors": ["artemis/interactions_methods/model_agnostic/performance_based/_sejong_oh.py", "artemis/importance_methods/model_agnostic/_permutational_importance.py", "artemis/_utilities/performance_metrics.py", "artemis/visualizer/_visualizer.py"]}
{"id": "C116", "title": "Comparison of any two model agnostic methods shows both statistics", "statement": "The comparison chart of two fitted model agnostic methods, partial dependence based or performance based, has one point per pair of the features of the first: the statistic of the first method against that of the second, strongest first, labelled with the names of the pair, none of the axes inverted. If the second method was not fitted on all features of the first, IndexError is raised.", "quantifier": "all pairs of fitted methods, frames and selections of features", "why_tests_cant": "all pairs of methods, models and data sets", "anchors": ["artemis/comparison/_method_comparator.py", "artemis/interactions_methods/model_agnostic/performance_based/_sejong_oh.py"]}
{"id": "C117", "title": "Conditional minimal depth: values and charts from the forest", "statement": "After fit on a forest whose trees are numbered depth first and use every feature, the heatmap has at row f1 and column f2 the mean over the trees splitting on both of the depth at which f2 first follows f1, empty if there is no such tree, and on the diagonal the mean depth of the first use; the conditional bar chart lists the ordered pairs met in most trees first, nearest first among these, with the number of trees and the unconditional depth of f2; interaction_value is the mean of the two directions, missing exactly if no tree splits on both.", "quantifier": "all forests, feature names (not colliding when glued, see C40) and keyword arguments", "why_tests_cant": "all forests", "anchors": ["artemis/interactions_methods/model_specific/random_forest/_conditional_minimal_depth.py", "artemis/importance_methods/model_specific/_minimal_depth.py", "artemis/interactions_methods/_method.py", "artemis/visualizer/_visualizer.py"]}
{"id": "C118", "title": "Split score: values and charts from the boosted ensemble", "statement": "After fit on an XGBoost or LightGBM ensemble with finite gains, interaction_value is the requested statistic (sum or mean of gain or cover, mean depth, frequency) of the nodes splitting on one feature directly below a split on the other, for the stronger of the two directions, and IndexError if there are none; the bar chart lists all directions strongest first; with only_def_interactions the heatmap shows the importance of each feature on the diagonal and each direction in its own cell, filled from the other direction where one does not occur.", "quantifier": "all trained ensembles, statistics, importance metrics and keyword arguments", "why_tests_cant": "all ensembles", "anchors": ["artemis/interactions_methods/model_specific/gb_trees/_split_score.py", "artemis/importance_methods/model_specific/_split_score.py", "artemis/interactions_methods/_method.py", "artemis/visualizer/_visualizer.py"]}
{"id": "C119", "title": "The interaction graph of a fitted method shows its statistics", "statement": "After fit of a partial dependence method or of the performance based method, the interaction graph has exactly one edge per pair of the fitted features; the widths lie between 0 and the maximal width, which is used; a pair with a statistic below the threshold gets the width 0, and among relevant pairs a larger statistic gives a strictly thicker edge; the edge labels are the statistics of relevant pairs, each pair at most once, at most the requested number, strongest first, and no pair left without a label has a larger statistic than a labelled one.", "quantifier": "all models, data sets, features, random states, thresholds, widths and numbers of labels, given one relevant pair and another value", "why_tests_cant": "all models and data sets", "anchors": ["artemis/visualizer/_visualizer.py", "artemis/visualizer/_configuration.py", "artemis/interactions_methods/_method.py"]}
{"id": "C120", "title": "The comparison plot of any two fitted methods shows their values", "statement": "For any two fitted methods, tree based ones included, the comparison plot has one point per pair of the first method (per direction of a pair for the split score), strongest first and missing values last; x is the value of the first method, y what interaction_value of the second gives (the stronger direction for the split score, the mean of both directions for the minimal depth); the axis of a depth is inverted and the first n points are labelled; if the second method lacks a pair of the first, IndexError is raised.", "quantifier": "all fitted methods of every kind, data sets, models and numbers of labels", "why_tests_cant": "all pairs of methods", "anchors": ["artemis/comparison/_method_comparator.py", "artemis/interactions_methods/_method.py", "artemis/interactions_methods/model_specific/random_forest/_conditional_minimal_depth.py", "artemis/interactions_methods/model_specific/gb_trees/_split_score.py"]}
{"id": "C121", "title": "The correlations measure how far two rankings agree", "statement": "When two methods rank the same pairs, each reported correlation is the correlation of the positions of the pairs in the two rankings; it is 1 exactly if both list the pairs in the same order, and opposite rankings have a negative correlation.", "quantifier": "all rankings of the same pairs", "why_tests_cant": "all permutations", "anchors": ["artemis/comparison/_method_comparator.py"]}
{"id": "C122", "title": "The correlation box", "statement": "The box of a summary lists Pearson, Kendall and Spearman, each within 0.0005 of the correlation of the two methods and in [-1, 1]; a printed 1.0 means that the methods rank the pairs in the same order.", "quantifier": "all methods and rankings", "why_tests_cant": "all rankings, and a bound on the number of pairs", "anchors": ["artemis/comparison/_method_comparator.py"]}
{"id": "C123", "title": "Numbers on the edges of the interaction graph", "statement": "Each printed number is within 0.005 of the statistic of its pair, they decrease (weakly) as the statistics do, and 0.0 is printed exactly for statistics up to 0.005, so never with a relevance threshold above 0.005.", "quantifier": "all graphs with the properties of C119", "why_tests_cant": "over all reals", "anchors": ["artemis/visualizer/_visualizer.py"]}
{"id": "C124", "title": "The number of predictions of the performance based method, the permutation importance and the additivity meter", "statement": "A successful fit of the performance based method on f features with r repetitions asks the model exactly 2 + r * (3 * f * (f-1) / 2 + f) times, each time for all rows used; the permutation importance asks exactly 1 + r * f times; a failing call asks at most as often. The additivity meter asks for at most (number of values of all columns) * rows profiles and once more for the data itself.", "quantifier": "all data sets, models, metrics, repetitions and feature lists", "why_tests_cant": "all sizes", "anchors": ["artemis/interactions_methods/model_agnostic/performance_based/_sejong_oh.py", "artemis/importance_methods/model_agnostic/_permutational_importance.py", "artemis/additivity/_additivity_meter.py"]}
{"id": "C125", "title": "Conditional minimal depth and minimal depth importance in double precision", "statement": "For forests of moderate size (2 T^2 D < 2^52 for T trees of height at most D) each reported mean is the double closest to the exact mean over the trees, whatever the order of summation, a missing value appears exactly where no tree reports; two values compare as the exact means do, so the rows are ordered exactly as the exact means require; the same holds for the importance. If no two feature names collide when joined, the comparison value of a pair lies between its two directions.", "quantifier": "all forests of moderate size, all orders and groupings of the additions", "why_tests_cant": "all forests and all rounding behaviours", "anchors": ["artemis/interactions_methods/model_specific/random_forest/_conditional_minimal_depth.py", "artemis/importance_methods/model_specific/_minimal_depth.py"]}
{"id": "C126", "title": "Depths and frequencies of the split score method in double precision", "statement": "For ensembles of moderate size (2 M^2 D < 2^52 for M nodes of depth at most D) each mean depth of a pair and of a feature is the double closest to the exact mean depth of its nodes, and the rows are ordered exactly as the exact means require (pairs ascending, features descending); frequencies and root frequencies are exact counts, in descending order, missing for features never at a root.", "quantifier": "all ensembles of moderate size of both packages, all orders and groupings of the additions", "why_tests_cant": "all ensembles and all rounding behaviours", "anchors": ["artemis/interactions_methods/model_specific/gb_trees/_split_score.py", "artemis/importance_methods/model_specific/_split_score.py"]}
{"id": "C127", "title": "Terms of the model a value does not see", "statement": "If h' = h + e and the term e does not involve two features together (it is a sum of a part without the one and a part without the other), both models have the same unnormalised H statistic for this pair; if e involves neither feature, the same normalised H statistic and the same Greenwell value; if e does not mix a feature with the others, the same unnormalised one versus all value; if e does not involve a feature, the same partial dependence importance of it.", "quantifier": "all data sets, models with real predictions, added terms, features; exact arithmetic", "why_tests_cant": "all models and terms", "anchors": ["artemis/interactions_methods/model_agnostic/partial_dependence_based/_friedman_h_statistic.py", "artemis/interactions_methods/model_agnostic/partial_dependence_based/_greenwell.py", "artemis/importance_methods/model_agnostic/_pdp.py"]}
{"id": "C128", "title": "The order of the trees of a forest does not matter", "statement": "Fitting the conditional minimal depth method on a forest and on the same trees in another order gives the same rows (values and occurrences) and the same importance rows up to the order of tied rows; in double precision to the last bit for forests of moderate size (as in C125), whatever the orders of the additions.", "quantifier": "all forests, all permutations of the trees, all previous states of the method", "why_tests_cant": "all permutations", "anchors": ["artemis/interactions_methods/model_specific/random_forest/_conditional_minimal_depth.py", "artemis/importance_methods/model_specific/_minimal_depth.py"]}
{"id": "C129", "title": "The order of the trees of a boosted ensemble does not matter", "statement": "Fitting the split score method on an ensemble and on the same trees in another order (or listed in another order) ends with the same outcome and gives the same rows for pairs and features up to the order of tied rows.", "quantifier": "all ensembles of both packages, permutations of the trees, metrics and previous states", "why_tests_cant": "all permutations", "anchors": ["artemis/interactions_methods/model_specific/gb_trees/_split_score.py", "artemis/importance_methods/model_specific/_split_score.py"]}
{"id": "C130", "title": "Renaming the features and recoding their values", "statement": "If the columns of the data get other names and their values are written in another way, and the model reads the new values as it read the old ones, the Friedman H statistic gives the same values for the renamed pairs and features (up to the order of tied rows), in any arithmetic; so do the partial dependence importance and the Greenwell method if different values of a column stay different; the additivity index is the same.", "quantifier": "all data sets, row-wise models, renamings, recodings, earlier states of the method", "why_tests_cant": "all recodings and models", "anchors": ["artemis/_utilities/pd_calculator.py", "artemis/interactions_methods/model_agnostic/partial_dependence_based/_friedman_h_statistic.py", "artemis/interactions_methods/model_agnostic/partial_dependence_based/_greenwell.py", "artemis/importance_methods/model_agnostic/_pdp.py", "artemis/additivity/_additivity_meter.py"]}
{"id": "C131", "title": "A tree structure object that is reused", "statement": "A GBTreesHandler on which unify_structure is called several times holds what the last call gave: after a call that succeeds, a fit on it is the fit on the last model alone, whatever was tried before; a call that raises leaves the object as it was.", "quantifier": "all sequences of unify_structure calls (accepted, rejected, failing), all later fits", "why_tests_cant": "all call sequences", "anchors": ["artemis/_utilities/_handler.py", "artemis/interactions_methods/model_specific/gb_trees/_split_score.py"]}
{"id": "C132", "title": "Models that do not predict row by row", "statement": "For a prediction function about which nothing is assumed (random, depending on the request, failing now and then) every value returned by get_pd_single, get_pd_pairs and get_pd_minus_single is NaN or the mean of the answers the model gave, in one of the requests made, for exactly the rows of the data with these values set; after a successful calculation every requested value is such a mean. If the answers are always within eps of a function, the values are within eps of its partial dependence; if they are always between two bounds, so are the values.", "quantifier": "all prediction functions, data sets, batch sizes, sequences of calls", "why_tests_cant": "all prediction functions, also random ones", "anchors": ["artemis/_utilities/pd_calculator.py"]}
{"id": "C133", "title": "Nearly equal models get nearly equal values", "statement": "If two row-wise models differ by at most eps on every row whose cells occur in their columns, then on the same sampled data the unnormalised Friedman H statistics of every pair and every feature differ by at most 3*eps, the Greenwell values by at most 2*eps, the partial dependence importances by at most eps; pairs whose values are more than 6*eps apart keep their order in the table. The same is expected of the normalised H statistic (refuted: it jumps from 0 to 1/9 arbitrarily close to a constant model). Where the joint effect (for the additivity index: the predictions) of the first model has standard deviation sigma > eps, the roots of two normalised H values differ by at most eps*(3+root)/(sigma-eps), and the roots of the unexplained shares of two additivity indices over w columns by at most eps*(2w+root)/(sigma-eps).", "quantifier": "all data sets, pairs of models, eps, earlier states of the method", "why_tests_cant": "all pairs of models and all eps", "anchors": ["artemis/_utilities/pd_calculator.py", "artemis/interactions_methods/model_agnostic/partial_dependence_based/_friedman_h_statistic.py", "artemis/interactions_methods/model_agnostic/partial_dependence_based/_greenwell.py", "artemis/importance_methods/model_agnostic/_pdp.py", "artemis/additivity/_additivity_meter.py"]}
{"id": "C134", "title": "Explaining a model that answers differently every time", "statement": "If every answer of the model (random, or depending on the request) is within eps of a function of the row, the Friedman fit returns on complete data, and its unnormalised values for pairs and features are within 3*eps of the H statistic of that function; the Greenwell values are within 2*eps and the importances within eps of theirs; two fits on the same data differ by at most 6*eps for each pair. On data without a column called centered_prediction, the additivity meter returns an index of at most 1 whose distance from 1 has a root within eps*(2*columns + root)/(sigma - eps) of that of the function, when the predictions of the function have a standard deviation sigma above eps; for an additive function the index is at least 1 - (2*columns*eps/(sigma-eps))^2. Pairs (and features, one versus all) whose unnormalised H statistics of the function differ by more than 6*eps are listed in the right order. Two additivity indices measured on the same data differ, in the root of their distance from 1, by at most twice the bound above.", "quantifier": "all data sets, prediction functions within eps of a function of the row, eps, supplied calculators, earlier states of the method", "why_tests_cant": "all noisy prediction functions", "anchors": ["artemis/_utilities/pd_calculator.py", "artemis/interactions_methods/model_agnostic/partial_dependence_based/_friedman_h_statistic.py", "artemis/interactions_methods/model_agnostic/partial_dependence_based/_greenwell.py", "artemis/importance_methods/model_agnostic/_pdp.py", "artemis/additivity/_additivity_meter.py"]}
{"id": "C135", "title": "What the values measure", "statement": "If a model is a sum of terms that do not use the two features of a pair together, of one term in the two features that averages to zero over the data when either feature is held, and of further terms that average to zero, then the unnormalised H value of the pair is the standard deviation of the pair's term over the data; the value of a feature against the others is the standard deviation of the part that mixes it with others. When the columns are independent in the data, the squared unnormalised value of a pair is the variance of its joint partial dependence less the variances of the two single ones, the normalised value is the share of the variance of the joint partial dependence that the single ones do not account for, the same holds for a feature against the others with the predictions, and the additivity index is the sum of the variances of the single partial dependences divided by the variance of the predictions.", "quantifier": "all data sets, row-wise models, decompositions, earlier states", "why_tests_cant": "all models and data sets", "anchors": ["artemis/_utilities/pd_calculator.py", "artemis/interactions_methods/model_agnostic/partial_dependence_based/_friedman_h_statistic.py", "artemis/additivity/_additivity_meter.py"]}
{"id": "C136", "title": "How accurate the double arithmetic is", "statement": "For a model whose predictions are doubles of absolute value at most B on all rows made of values of the data, every partial dependence value that is computed in doubles (sums in any order) is a number within 2n 2^-53 B + 2^-1075 of the exact average of these predictions, n being the number of rows. Every unnormalised H value of a pair, and of a feature against the others, is a number within 100 n 2^-53 B + 2^-530 of the value which the same model gets in exact arithmetic. The normalised values, the default, are within 8 (E/s) (1 + value), where E is that bound and s, at least 4E, is the standard deviation of the joint effect. So a pair without an interaction gets a value at the level of the rounding errors, and pairs whose exact values differ by more than twice the bound are listed in the right order.", "quantifier": "all data sets with at most 2^40 rows, row-wise models with predictions up to 2^480, orders of summation, earlier states", "why_tests_cant": "rounding errors depend on the data; all data sets", "anchors": ["artemis/_utilities/pd_calculator.py", "artemis/interactions_methods/model_agnostic/partial_dependence_based/_friedman_h_statistic.py"]}
{"id": "C137", "title": "How accurate importance values and the additivity index are in doubles", "statement": "For a model as in C136, the importance of every feature computed in doubles, with any order of summation, is a number within 40 n 2^-53 B + 2^-530 of the importance in exact arithmetic, and two features whose exact importances differ by more than twice this are ranked in the right order. The additivity index of a data set with n rows and w columns is a number within 9 (E/s) (2 - y) of the exact index y, where E = 100 (n+w) 2^-53 (w+1) B + 2^-530 and s, at least 4E, is the root mean square deviation of the predictions.", "quantifier": "all data sets with at most 2^40 rows and columns, row-wise models with predictions up to 2^480/(w+1), orders of summation, numeric and categorical features, earlier states, calculators", "why_tests_cant": "rounding errors depend on the data; all data sets", "anchors": ["artemis/importance_methods/model_agnostic/_pdp.py", "artemis/additivity/_additivity_meter.py", "artemis/_utilities/pd_calculator.py"]}
{"id": "C138", "title": "How accurate scores, performance based interactions and permutation importances are in doubles", "statement": "When target values and predictions are doubles up to B, the score of n rows computed in doubles, with any order of summation, is a number within e of the score in exact arithmetic, where e is 30 n 2^-53 B^2 + 2^-1072 for the mean squared error, 24 n 2^-53 B + 2^-530 for its root and 2 n 2^-53 + 2^-1075 for the accuracy. Every performance based interaction value is a number within 8 e + 30 r 2^-53 M + 2^-1075 of the exact value, and every permutation importance within 3 e + 5 r 2^-53 M + 2^-1073, where r is the number of repetitions and M the largest possible score.", "quantifier": "all data sets with up to 2^40 rows, row-wise models, bounds B up to 2^240, metrics, orders of summation, numbers of repetitions up to 2^40, random generators, sample sizes, feature selections, earlier states", "why_tests_cant": "rounding errors depend on the data and on the shuffles", "anchors": ["artemis/_utilities/performance_metrics.py", "artemis/interactions_methods/model_agnostic/performance_based/_sejong_oh.py", "artemis/importance_methods/model_agnostic/_permutational_importance.py"]}
{"id": "C139", "title": "What the permutation based values are on average over the draws", "statement": "For the mean squared error and the accuracy, averaged over draws that move every row to every position equally often (for instance all draws), the score with some columns shuffled is the mean score over all pairs of rows, those columns being taken from the second row. The average permutation importance of a feature is the difference between this mixed score and the original score, and the average performance based interaction value of a pair is at least the absolute value of the joint mixed score minus the two single ones plus the original one. For a model that adds an effect of one feature, an effect of another and a remainder, this contrast under the mean squared error is four times the covariance of the two effects, whatever the target. Two features that do not interact in the model but have correlated effects are therefore reported as interacting: their value is at least four times the absolute covariance on average, and positive for some draw.", "quantifier": "all data sets, row-wise models, targets, numbers of repetitions, feature selections, sets of draws with this evenness", "why_tests_cant": "averages over all random draws cannot be enumerated, and a test on single draws says nothing about them", "anchors": ["artemis/interactions_methods/model_agnostic/performance_based/_sejong_oh.py", "artemis/importance_methods/model_agnostic/_permutational_importance.py", "artemis/_utilities/performance_metrics.py"]}
{"id": "C140", "title": "Renaming features and recoding values: permutation based and forest methods", "statement": "If the features get other names (different ones staying different) and the values of each column are written in another way, and the model answers the recoded requests as the old model answered the old ones, then fitting the performance based method with the same generator gives the same tables with the new names, in the same order, the same generator state, the recoded requests in the same sequence and, if it fails, the same error; likewise permutation importance. Renaming the features of a forest renames both tables of the conditional minimal depth method and changes nothing else.", "quantifier": "all data, codings, renamings, models (row-wise or not, failing or not), metrics, arithmetics, generators, earlier states, forests", "why_tests_cant": "the set of renamings and codings is unbounded, and the claim relates two whole runs", "anchors": ["artemis/interactions_methods/model_agnostic/performance_based/_sejong_oh.py", "artemis/importance_methods/model_agnostic/_permutational_importance.py", "artemis/interactions_methods/model_specific/random_forest/_conditional_minimal_depth.py", "artemis/importance_methods/model_specific/_minimal_depth.py"]}
{"id": "C141", "title": "When fitting the performance based method succeeds, and how it fails", "statement": "With a model that answers every request with one number per row and a target that can be compared with its predictions (equal lengths, or one of the two is a single number that numpy spreads over the other), fitting the performance based method either succeeds or raises KeyError; it succeeds exactly if at least one feature is included and, unless there are no repetitions, every included feature is a column of the data; the same holds for permutation importance. A model without a predict method gives AttributeError without any request, a target that cannot be compared ValueError after one request, an error of the model on the first request is passed on, and a failed sampling is reported without changing the earlier results.", "quantifier": "all data, models (row-wise or not), metrics of the library, arithmetics, generators, earlier states, feature lists, numbers of repetitions, sample sizes", "why_tests_cant": "the claim is an equivalence over all inputs, including all invalid ones", "anchors": ["artemis/interactions_methods/model_agnostic/performance_based/_sejong_oh.py", "artemis/importance_methods/model_agnostic/_permutational_importance.py", "artemis/_utilities/performance_metrics.py"]}
{"id": "C142", "title": "Error messages name their cause", "statement": "The class name that is read from the text of a model's type is the class name, for every name without line breaks; an unsupported model is reported with its class and with the part of the class name before the first dot as package. The metric that is reported as unsupported is the requested interaction metric if LightGBM lacks it, and otherwise the requested importance metric that it lacks. A plot request that is refused is reported with the name of the method and, for a method that is fitted, the requested chart. Two errors of the library with the same message are the same error with the same arguments.", "quantifier": "all class names, metric names, chart names, methods, method states", "why_tests_cant": "the sets of class, chart and metric names are infinite, and uniqueness relates all pairs of messages", "anchors": ["artemis/_utilities/exceptions.py", "artemis/_utilities/_handler.py", "artemis/interactions_methods/model_specific/gb_trees/_split_score.py", "artemis/visualizer/_visualizer.py", "artemis/visualizer/_configuration.py"]}
{"id": "C143", "title": "A model that raises: the exception reaches the caller, nothing is asked after it, and calling again works", "statement": "If the predict function raises during fit of the Friedman or Greenwell method, during the partial dependence importance or during AdditivityMeter.fit, then the request at which it raised is the last one made to the model, and the call raises exactly that exception. Conversely every exception of these calls is either the one raised by the model at the last request (or at the additional prediction of the rows of the data) or a KeyError, IndexError, ValueError or StatisticsError. The same holds for fit of the performance based method and for the permutation importance, over all their permutations and repetitions: there the other exceptions are those four, a TypeError of an importance without features, and what the metric raises. Calling fit of a partial dependence based method again with the calculator the failed calls left behind, when the model answers from now on, has the same outcome and the same tables as a call of a model that never failed. The same holds for AdditivityMeter.fit (the index, the table of effects and the predictions) and for the partial dependence importance. A call of AdditivityMeter.fit that raises leaves the index as it was, so after any sequence of calls the index is that of the last call that returned; the stored predictions are those of before or the model's answer in this call.", "quantifier": "all models (any function of call number and rows), data, features, sample sizes, batch sizes, states of the method, calculators with any history", "why_tests_cant": "A test makes the model fail at one chosen request; the claim covers a failure at every request of every run, and every history of a calculator.", "anchors": ["artemis/_utilities/pd_calculator.py:64-156", "artemis/interactions_methods/model_agnostic/partial_dependence_based/_pdp.py:41-109", "artemis/interactions_methods/model_agnostic/partial_dependence_based/_friedman_h_statistic.py:68-109", "artemis/importance_methods/model_agnostic/_pdp.py:48-128", "artemis/additivity/_additivity_meter.py:40-117", "artemis/interactions_methods/model_agnostic/performance_based/_sejong_oh.py:71-173", "artemis/importance_methods/model_agnostic/_permutational_importance.py:86-136"]}
{"id": "C144", "title": "A model that returns a wrong number of predictions is noticed", "statement": "If the predict function answers a request with a number of predictions other than the number of rows, the call raises an error instead of reporting values.", "quantifier": "all models (any function of call number and rows), data, targets, metrics of the library, sample sizes, features, repetitions, states", "why_tests_cant": "A test uses one wrong length at one request; the claim covers every request of every run and every length, including those numpy broadcasts.", "anchors": ["artemis/_utilities/performance_metrics.py:21-45", "artemis/_utilities/pd_calculator.py:137-156", "artemis/interactions_methods/model_agnostic/partial_dependence_based/_friedman_h_statistic.py:192-226", "artemis/additivity/_additivity_meter.py:97-117", "artemis/interactions_methods/model_agnostic/performance_based/_sejong_oh.py:71-173", "artemis/importance_methods/model_agnostic/_permutational_importance.py:86-136"]}
{"id": "C145", "title": "Nearly equal models get nearly equal performance based values", "statement": "If the scores of two row-wise models differ by at most gap on every table of the size of the data whose cells occur in their columns, then two fits of the performance based method on the same data and the same draws give every pair values at most 4*gap apart; pairs more than 8*gap apart keep their order in the table; the permutation importances differ by at most 2*gap when they see the same draws. For predictions at most eps apart the gap is eps for RMSE and eps*(2M+eps) for MSE if no prediction of the first model is further than M from a target. For accuracy there is no such bound: arbitrarily close models can get values 1/5 and 0 for the same pair.", "quantifier": "all data sets, targets, pairs of models, metrics, eps, repetitions, generators, earlier states of the method", "why_tests_cant": "all pairs of models, all draws and all eps", "anchors": ["artemis/interactions_methods/model_agnostic/performance_based/_sejong_oh.py", "artemis/importance_methods/model_agnostic/_permutational_importance.py", "artemis/_utilities/performance_metrics.py"]}
{"id": "C146", "title": "Performance based values with targets and predictions on another scale", "statement": "If the targets and the predictions are both replaced by c*y + k (c other than 0), two fits on the same data and the same draws give every pair and every permutation importance the old value times a positive factor: |c| for RMSE, c squared for MSE, 1 for accuracy; pairs of different strength keep their order in the table.", "quantifier": "all data sets, targets, models, c and k, metrics, repetitions, generators, earlier states of the method", "why_tests_cant": "all reals, all models and all draws", "anchors": ["artemis/interactions_methods/model_agnostic/performance_based/_sejong_oh.py", "artemis/importance_methods/model_agnostic/_permutational_importance.py", "artemis/_utilities/performance_metrics.py"]}
{"id": "C147", "title": "Performance based values and permutation importance of a model that answers differently every time", "statement": "If every answer of the model to a table is within eps of a function h of the row (a stochastic or non-deterministic model), the fit returns, every pair value is within 4*gap of the documented statistic of h and every permutation importance within 2*gap of that of h, where gap is eps for RMSE and eps*(2M+eps) for MSE (M: the largest distance of a prediction of h from a target); a feature that h ignores has an importance of at most 2*gap; pairs whose statistics differ by more than 8*gap are listed in the right order; two fits with the same draws give values at most 8*gap apart.", "quantifier": "all data sets, targets, models (also ones whose answer depends on the earlier calls and on the other rows), metrics, repetitions, generators, earlier states of the method", "why_tests_cant": "all models, reals and draws", "anchors": ["artemis/interactions_methods/model_agnostic/performance_based/_sejong_oh.py", "artemis/importance_methods/model_agnostic/_permutational_importance.py", "artemis/_utilities/performance_metrics.py"]}
