{
 "claims": [
  {
   "property": "C01",
   "status": "proved",
   "theorems": [
    "C01_single_exact",
    "C01_single_always_sound"
   ],
   "note": "Every history of calculate_* calls, calls that raised included; any row-wise predict function."
  },
  {
   "property": "C02",
   "status": "proved",
   "theorems": [
    "C02_pairs_exact",
    "C02_pairs_always_sound"
   ],
   "note": "Both modes, both argument orders."
  },
  {
   "property": "C03",
   "status": "proved",
   "theorems": [
    "C03_minus_exact",
    "C03_minus_always_sound"
   ],
   "note": ""
  },
  {
   "property": "C04",
   "status": "proved",
   "theorems": [
    "C04_single_history_independent",
    "C04_pairs_history_independent",
    "C04_minus_history_independent"
   ],
   "note": ""
  },
  {
   "property": "C05",
   "status": "proved",
   "theorems": [
    "C05_pairs_requests",
    "C05_single_requests",
    "C05_minus_requests"
   ],
   "note": "Requests are the logged arguments of the predict oracle."
  },
  {
   "property": "C06",
   "status": "proved",
   "theorems": [
    "C06_single_reuse",
    "C06_minus_reuse",
    "C06_pairs_reuse",
    "C06_pairs_never_overwritten"
   ],
   "note": ""
  },
  {
   "property": "C07",
   "status": "proved",
   "theorems": [
    "C07_single_isolation",
    "C07_minus_isolation",
    "C07_pairs_isolation",
    "C07_grids"
   ],
   "note": ""
  },
  {
   "property": "C08",
   "status": "proved",
   "theorems": [
    "C08_single_retry",
    "C08_minus_retry",
    "C08_pairs_retry",
    "C01_single_always_sound",
    "C02_pairs_always_sound",
    "C03_minus_always_sound"
   ],
   "note": "The always_sound theorems give the state after a crash, the retry theorems the repeated call."
  },
  {
   "property": "C09",
   "status": "proved",
   "theorems": [
    "C09_pairs_order",
    "C09_pairs_rejected"
   ],
   "note": ""
  },
  {
   "property": "C10",
   "status": "partial",
   "theorems": [
    "C10_full_matrix_partial",
    "C10_full_matrix_refuted"
   ],
   "note": "Holds when the features are named in column order; for the reversed order the code returns the un-transposed matrix, shown by the refutation."
  },
  {
   "property": "C100",
   "status": "proved",
   "theorems": [
    "C100_nonnegative",
    "C100_ignored_pair"
   ],
   "note": "binary64 arithmetic, sums in any order"
  },
  {
   "property": "C101",
   "status": "partial",
   "theorems": [
    "C101_importance_partial",
    "C101_fit_partial",
    "C101_zero_refuted"
   ],
   "note": "The importance is not exactly 0: with accuracy 1/3 and 10 repetitions it is -2^-54 (refuted by computation in binary64). Proved instead, without bound on the data: it is finite and at most (n_repeat+2)/2^52 times the model's score plus one unit of the smallest double, and 0 when the score is 0, unless the sum of the scores can overflow."
  },
  {
   "property": "C102",
   "status": "proved",
   "theorems": [
    "C102_range",
    "C102_order"
   ],
   "note": "binary64 arithmetic"
  },
  {
   "property": "C103",
   "status": "partial",
   "theorems": [
    "C103_sizes_partial",
    "C103_fit_partial",
    "C103_depth_refuted",
    "C103_negative_refuted",
    "C103_zero_refuted"
   ],
   "note": "Proved for importances that are not negative with one positive, in particular for the partial dependence methods. False for depths (the most important feature gets the smallest node; edges are reversed for such measures, nodes are not), negative permutation importances (nodes bigger than node_size, the less important one bigger) and when the largest importance is 0 (areas NaN and -inf)."
  },
  {
   "property": "C104",
   "status": "proved",
   "theorems": [
    "C104_nodes",
    "C104_roots",
    "C104_roots_xgboost"
   ],
   "note": "Trees as in C42. Gains are assumed not to be NaN in the statement on roots. C104_roots_xgboost covers XGBoost ensembles with trees of a single leaf (not annotated, not counted for the share of the trees); C104_roots, for both packages, assumes that every tree splits."
  },
  {
   "property": "C105",
   "status": "partial",
   "theorems": [
    "C105_nonnegative",
    "C105_categorical_partial",
    "C105_one_value_partial",
    "C105_numerical_refuted"
   ],
   "note": "Row-wise models. Not negative: proved. Exactly 0 for ignored features: proved for categorical features and for features with one value, false for numerical ones (the standard deviation of equal averages may be a rounding error)."
  },
  {
   "property": "C106",
   "status": "partial",
   "theorems": [
    "C106_summary_partial",
    "C106_bar_chart_partial",
    "C106_bar_chart_refuted"
   ],
   "note": "Proved: the heatmap panel is the single heatmap where low importance is not better or importance_color_map is given (otherwise C76's colour map differs); the graph panel where a high value means a strong interaction (C59); the pair bars under the name 'bar_chart_ovo'; the one-versus-all bars where no title is given in the dictionary (the single chart ignores its title). Refuted for 'bar_chart': arguments under the documented name are dropped."
  },
  {
   "property": "C107",
   "status": "proved",
   "theorems": [
    "C107_defaults",
    "C107_graph_defaults"
   ],
   "note": "For the keywords that the model reads. cbar_shrink (documented default 1, code 0.8), fonts and colours are not modelled. C107_graph_defaults: the defaults of the graph that depend on the method."
  },
  {
   "property": "C108",
   "status": "partial",
   "theorems": [
    "C108_documented_partial",
    "C108_lolliplot_refuted"
   ],
   "note": "Refuted for the split score method: its documentation says 'lolliplot', the code accepts 'lollipop' only, so the documented name raises on every fitted method. Proved for all other documented names."
  },
  {
   "property": "C109",
   "status": "partial",
   "theorems": [
    "C109_container_partial",
    "C109_series_partial",
    "C109_accuracy_partial",
    "C109_array_refuted",
    "C109_lengths_refuted"
   ],
   "note": "Equal for complete targets of the length of the predictions and, for Accuracy, also with missing targets (a missing target never counts as a hit). Refuted for MSE and RMSE: with a missing target a Series gives the metric over the rows whose target is known while an array gives NaN. Refuted for other lengths: a single prediction is broadcast over an array and refused for a Series by Accuracy, a single target in an array is broadcast and in a Series refused."
  },
  {
   "property": "C11",
   "status": "proved",
   "theorems": [
    "C11_single_rejects",
    "C11_minus_rejects",
    "C11_pairs_rejects"
   ],
   "note": "That no wrong value is stored is the always_sound theorems of C01-C03."
  },
  {
   "property": "C110",
   "status": "partial",
   "theorems": [
    "C110_nonnegative",
    "C110_perfect",
    "C110_zero_partial",
    "C110_accuracy",
    "C110_zero_refuted",
    "C110_rmse_zero_partial"
   ],
   "note": "Everything but \"only then\" for MSE and RMSE: squares of tiny errors underflow to 0 (refuted by computation). MSE = 0 or RMSE = 0 implies that every error is below 2^-500 (at most 2^52 rows). Equal lengths of targets and predictions."
  },
  {
   "property": "C111",
   "status": "proved",
   "theorems": [
    "C111_value"
   ],
   "note": "Over the real numbers; complete data, a model that answers every table."
  },
  {
   "property": "C112",
   "status": "proved",
   "theorems": [
    "C112_heatmap",
    "C112_bars",
    "C112_bars_ova"
   ],
   "note": "Over the real numbers. The order of the labels on the heatmap is C82, colours and rendering are not modelled."
  },
  {
   "property": "C113",
   "status": "proved",
   "theorems": [
    "C113_points",
    "C113_missing"
   ],
   "note": "Over the real numbers."
  },
  {
   "property": "C114",
   "status": "proved",
   "theorems": [
    "C114_unrelated",
    "C114_heatmap",
    "C114_bars",
    "C114_labels",
    "C114_width",
    "C114_lollipop"
   ],
   "note": "Dictionary level (Keywords.v): read from the keyword dictionary to the drawn figure. Misspelt names are ignored silently (C114_misspelt)."
  },
  {
   "property": "C115",
   "status": "proved",
   "theorems": [
    "C115_value",
    "C115_heatmap",
    "C115_bars"
   ],
   "note": "from the input of fit; exact arithmetic (see C110 for doubles)"
  },
  {
   "property": "C116",
   "status": "proved",
   "theorems": [
    "C116_points",
    "C116_missing"
   ],
   "note": "any combination of the Friedman, Greenwell and Oh methods"
  },
  {
   "property": "C117",
   "status": "proved",
   "theorems": [
    "C117_heatmap",
    "C117_bars",
    "C117_value"
   ],
   "note": "from the trees of the forest; forests that do not use every feature or number nodes otherwise are covered by C36, C56 and C69; C117_value assumes that the glued names tell the pairs apart (C40_compare_refuted shows it is needed)"
  },
  {
   "property": "C118",
   "status": "proved",
   "theorems": [
    "C118_value",
    "C118_bars",
    "C118_heatmap"
   ],
   "note": "from the trees of the ensemble; the root frequency metrics of the importance are left to C48; ensembles whose features do not all take part in interactions cannot be drawn (C56)"
  },
  {
   "property": "C119",
   "status": "proved",
   "theorems": [
    "C119_dependence",
    "C119_performance"
   ],
   "note": "needs a relevant pair and another value (see C57_all_irrelevant_refuted for tables without); finite H for the normalised Friedman statistic; graphs of the tree methods: C57_split_refuted, C58_refuted"
  },
  {
   "property": "C12",
   "status": "proved",
   "theorems": [
    "C12_friedman_pairs",
    "C12_friedman_order"
   ],
   "note": "Keys, values and absence of NaN for any numbers with IEEE order laws; descending order over the extended reals."
  },
  {
   "property": "C120",
   "status": "proved",
   "theorems": [
    "C120_points",
    "C120_missing"
   ],
   "note": "names of forest features must not collide when glued (see C40); a fitted split score needs one pair"
  },
  {
   "property": "C121",
   "status": "partial",
   "theorems": [
    "C121_same_order_partial",
    "C121_alphabetical_partial",
    "C121_opposite_refuted"
   ],
   "note": "1 exactly for the same order, and a bound away from 1 otherwise; the correlation of the positions is reported if the first method lists the pairs alphabetically, but not in general: the codes of the labels are correlated row by row, and opposite rankings can get 1/2 (Pearson, Spearman) and 1/3 (Kendall); names without the separator (see C52)"
  },
  {
   "property": "C122",
   "status": "partial",
   "theorems": [
    "C122_box",
    "C122_one_partial",
    "C122_one_refuted"
   ],
   "note": "lines of the box proved; 1.0 means the same ranking up to 89 pairs (Kendall) and 28 pairs (Pearson, Spearman); refuted for the 91 pairs of 14 features"
  },
  {
   "property": "C123",
   "status": "proved",
   "theorems": [
    "C123_labels"
   ],
   "note": "on real numbers; applies to the labels of C119"
  },
  {
   "property": "C124",
   "status": "proved",
   "theorems": [
    "C124_performance",
    "C124_importance",
    "C124_additivity"
   ],
   "note": "distinct feature names; the generator satisfies rng_ok"
  },
  {
   "property": "C125",
   "status": "proved",
   "theorems": [
    "C125_rounded",
    "C125_order",
    "C125_importance",
    "C125_compare"
   ],
   "note": "sizes as stated; any order and grouping of the additions; depth-first node order (as C36); comparison value when no two names collide"
  },
  {
   "property": "C126",
   "status": "proved",
   "theorems": [
    "C126_mean_depth",
    "C126_frequency",
    "C126_importance",
    "C126_roots"
   ],
   "note": "sizes as stated; any order and grouping of the additions; some node below a root splits, no feature is called Leaf"
  },
  {
   "property": "C127",
   "status": "proved",
   "theorems": [
    "C127_pairs",
    "C127_one_versus_all",
    "C127_greenwell",
    "C127_importance"
   ],
   "note": ""
  },
  {
   "property": "C128",
   "status": "proved",
   "theorems": [
    "C128_exact",
    "C128_doubles"
   ],
   "note": ""
  },
  {
   "property": "C129",
   "status": "partial",
   "theorems": [
    "C129_exact_partial",
    "C129_pair_depths_partial",
    "C129_feature_depths_partial",
    "C129_refuted"
   ],
   "note": "Proved in exact arithmetic for all metrics, and to the last bit in doubles for depths and frequencies. In doubles the mean weighted depth depends on the order of the trees through rounding (refuted by computation)."
  },
  {
   "property": "C13",
   "status": "proved",
   "theorems": [
    "C13_friedman_ova",
    "C13_friedman_ova_order"
   ],
   "note": ""
  },
  {
   "property": "C130",
   "status": "proved",
   "theorems": [
    "C130_friedman",
    "C130_importance",
    "C130_greenwell",
    "C130_additivity"
   ],
   "note": "H statistic in any arithmetic including doubles; importance, Greenwell and additivity over the reals"
  },
  {
   "property": "C131",
   "status": "partial",
   "theorems": [
    "C131_accepted",
    "C131_last",
    "C131_trees_partial",
    "C131_rejected_partial",
    "C131_no_model",
    "C131_metric_refuted",
    "C131_depth_refuted"
   ],
   "note": "true after successful calls, and the trees survive a rejected call; false for the whole object: the package name is overwritten before it is checked, so that after a rejected call unsupported metrics are no longer rejected for LightGBM and depths of XGBoost trees become NaN"
  },
  {
   "property": "C132",
   "status": "proved",
   "theorems": [
    "C132_single",
    "C132_minus",
    "C132_pairs",
    "C132_noise",
    "C132_range"
   ],
   "note": "no assumption on the prediction function; noise and range over the reals"
  },
  {
   "property": "C133",
   "status": "partial",
   "theorems": [
    "C133_pairs_partial",
    "C133_one_versus_all_partial",
    "C133_nearly_additive_partial",
    "C133_order_partial",
    "C133_greenwell_partial",
    "C133_importance_partial",
    "C133_normalised_refuted",
    "C133_normalised_pairs_partial",
    "C133_normalised_one_versus_all_partial",
    "C133_normalised_nearly_additive_partial",
    "C133_additivity_partial",
    "C133_nearly_additive_index_partial"
   ],
   "note": "Proved for the unnormalised statistic, Greenwell and the importance. For the normalised H statistic the claim is false (C133_normalised_refuted: the joint effect may be as small as the difference of the models); proved for it: if the joint effect of the pair has standard deviation sigma > eps, the roots of the two values differ by at most eps*(3+root)/(sigma-eps), also for one versus all, and a model near one without the interaction has root at most 3*eps/(sigma-eps). The additivity index of models whose predictions spread by more than eps: the roots of the unexplained shares of w columns differ by at most eps*(2w+root)/(sigma-eps)."
  },
  {
   "property": "C134",
   "status": "proved",
   "theorems": [
    "C134_pairs",
    "C134_one_versus_all",
    "C134_importance",
    "C134_greenwell",
    "C134_returns",
    "C134_repeated",
    "C134_normalised_pairs",
    "C134_normalised_one_versus_all",
    "C134_additivity",
    "C134_additivity_near_one",
    "C134_additivity_returns",
    "C134_order",
    "C134_one_versus_all_order",
    "C134_additivity_repeated"
   ],
   "note": " Normalised H statistic: the root of the value is within eps*(3+root)/(sigma-eps), where sigma > eps is the standard deviation of the joint effect (of the predictions for one versus all). Additivity index: Props_Noise4; a column called centered_prediction is excluded in the statement (see C23)."
  },
  {
   "property": "C135",
   "status": "proved",
   "theorems": [
    "C135_pair_term",
    "C135_one_versus_all_term",
    "C135_pair_share",
    "C135_one_versus_all_share",
    "C135_additivity_share"
   ],
   "note": "over the reals; rows of the sampled data are not empty; normalised: the variance in the denominator is not zero"
  },
  {
   "property": "C136",
   "status": "proved",
   "theorems": [
    "C136_partial_dependence",
    "C136_pairs",
    "C136_one_versus_all",
    "C136_normalised_pairs",
    "C136_normalised_one_versus_all",
    "C136_no_interaction",
    "C136_order"
   ],
   "note": "Error bounds of the double computation against the same model in exact arithmetic. The normalised bound assumes that the spread of the joint effect is at least four times the error; C93_unused_refuted shows that it fails without."
  },
  {
   "property": "C137",
   "status": "proved",
   "theorems": [
    "C137_importance",
    "C137_importance_order",
    "C137_additivity"
   ],
   "note": "Any binary64 summation order; compared with the model evaluated in the extended reals."
  },
  {
   "property": "C138",
   "status": "proved",
   "theorems": [
    "C138_metric",
    "C138_pairs",
    "C138_importance",
    "C138_fit_importance"
   ],
   "note": "doubles with any order of summation; values may not be special (inf, NaN) and bounded by 2^240; example with three rows and three repetitions computed in binary64"
  },
  {
   "property": "C139",
   "status": "proved",
   "theorems": [
    "C139_shuffled",
    "C139_importance",
    "C139_fit_importance",
    "C139_pairs",
    "C139_separate",
    "C139_separate_pairs",
    "C139_all_draws"
   ],
   "note": "exact arithmetic; the even sets of draws include the set of all draws (C139_all_draws)"
  },
  {
   "property": "C14",
   "status": "proved",
   "theorems": [
    "C14_no_interaction_pair",
    "C14_no_interaction_ova"
   ],
   "note": "Exact real arithmetic."
  },
  {
   "property": "C140",
   "status": "proved",
   "theorems": [
    "C140_importance",
    "C140_performance",
    "C140_forest"
   ],
   "note": "assumes that sorting a table looks at the sorted column only"
  },
  {
   "property": "C141",
   "status": "proved",
   "theorems": [
    "C141_features",
    "C141_importance",
    "C141_no_predict",
    "C141_lengths",
    "C141_model_error",
    "C141_sampling"
   ],
   "note": "Comparable targets include those numpy broadcasts (length one, or one row), which the code accepts."
  },
  {
   "property": "C142",
   "status": "proved",
   "theorems": [
    "C142_class",
    "C142_distinct",
    "C142_plots",
    "C142_metrics",
    "C142_models"
   ],
   "note": "the two classes that take the name of a method (not fitted, not supported) are told apart by their text"
  },
  {
   "property": "C143",
   "status": "proved",
   "theorems": [
    "C143_fit",
    "C143_importance",
    "C143_additivity",
    "C143_permutation",
    "C143_performance",
    "C143_again",
    "C143_additivity_again",
    "C143_importance_again",
    "C143_additivity_kept",
    "C143_additivity_last"
   ],
   "note": "Exceptions are values of the model of Python's exceptions; which exception a model raises is unrestricted. C143_again assumes complete data and known features, as the run without failures does."
  },
  {
   "property": "C144",
   "status": "partial",
   "theorems": [
    "C144_permutation_partial",
    "C144_performance_partial",
    "C144_additivity_partial",
    "C144_one_versus_all_partial",
    "C144_pairs_refuted",
    "C144_single_number_refuted",
    "C144_surplus",
    "C144_surplus_importance",
    "C144_padded"
   ],
   "note": "Holds for the performance based method and the permutation importance when the number of predictions cannot be broadcast against the target (the request is the last and ValueError is raised), for the predictions of the data in the additivity meter (any wrong number), and in Friedman's one versus all (any wrong number but a single one). Refuted for the partial dependence of features and pairs: slices of a too short answer are averaged as they are, a model that answers nothing is reported as having no interactions and unimportant features; and a single number is broadcast by the metrics. What is computed from answers of any length is C132. For surplus predictions the exact behaviour is proved: fit and importance give what they give for the answers cut to one prediction per row (C144_surplus)."
  },
  {
   "property": "C145",
   "status": "proved",
   "theorems": [
    "C145_rmse",
    "C145_mse",
    "C145_pairs",
    "C145_importance",
    "C145_order",
    "C145_accuracy_jumps"
   ],
   "note": "Exact real arithmetic; the two runs share the sampled data, the generator state, the features and the number of repetitions."
  },
  {
   "property": "C146",
   "status": "proved",
   "theorems": [
    "C146_pairs",
    "C146_importance",
    "C146_order"
   ],
   "note": "Exact real arithmetic; the importances under the additional assumption that the unseeded generators of the two fits start in the same state."
  },
  {
   "property": "C147",
   "status": "proved",
   "theorems": [
    "C147_rmse",
    "C147_mse",
    "C147_returns",
    "C147_pairs",
    "C147_importance",
    "C147_unused",
    "C147_order",
    "C147_repeated"
   ],
   "note": "The gap is stated for any metric as a bound on the score of each answer (answers_near); C147_rmse and C147_mse derive it from a bound on each prediction. No such bound exists for accuracy (C145_accuracy_jumps)."
  },
  {
   "property": "C15",
   "status": "proved",
   "theorems": [
    "C15_nonnegative",
    "C15_symmetric",
    "C15_affine"
   ],
   "note": "Exact real arithmetic; shift and scale are one theorem about predictions c*h+k."
  },
  {
   "property": "C16",
   "status": "partial",
   "theorems": [
    "C16_bounded_partial",
    "C16_bounded_refuted"
   ],
   "note": "False as stated: the code reports 3/2 and +inf for correlated columns (refuted). Proved when both columns are empirically independent of the rest."
  },
  {
   "property": "C17",
   "status": "proved",
   "theorems": [
    "C17_greenwell_pairs"
   ],
   "note": "Exact real arithmetic."
  },
  {
   "property": "C18",
   "status": "proved",
   "theorems": [
    "C18_greenwell_zero",
    "C18_greenwell_nonnegative"
   ],
   "note": "Exact real arithmetic."
  },
  {
   "property": "C19",
   "status": "proved",
   "theorems": [
    "C19_greenwell_constant_feature"
   ],
   "note": "For data without missing values and a model that answers; also shows that the failing fit leaves the tables unchanged."
  },
  {
   "property": "C20",
   "status": "proved",
   "theorems": [
    "C20_importance",
    "C20_fit_importance"
   ],
   "note": "Exact real arithmetic."
  },
  {
   "property": "C21",
   "status": "proved",
   "theorems": [
    "C21_same_results",
    "C21_same_outcome",
    "C21_rejected",
    "C21_additivity_same",
    "C21_additivity_rejected"
   ],
   "note": ""
  },
  {
   "property": "C22",
   "status": "partial",
   "theorems": [
    "C22_given_function_partial",
    "C22_calculator_wins_partial",
    "C22_calculator_importance_partial",
    "C22_given_function_refuted"
   ],
   "note": "False as stated: a calculator of another predict function over the same model and data is accepted (refuted). Proved when no calculator is supplied. With a calculator the pair table and the importance are proved to be those of the calculator's function, whatever predict function is passed."
  },
  {
   "property": "C23",
   "status": "proved",
   "theorems": [
    "C23_additive_model",
    "C23_at_most_one",
    "C23_one_means_additive",
    "C23_fit_returns"
   ],
   "note": "Over exact reals, for data without a column called centered_prediction (see C68)."
  },
  {
   "property": "C24",
   "status": "partial",
   "theorems": [
    "C24_in_unit_interval_partial",
    "C24_in_unit_interval_refuted"
   ],
   "note": "The documented interval is refuted by a concrete model with a negative index; the index is proved at most 1 and proved in [0,1] when the columns are empirically independent (for instance a full factorial design)."
  },
  {
   "property": "C25",
   "status": "proved",
   "theorems": [
    "C25_interaction_values",
    "C25_fit_returns"
   ],
   "note": "Over exact reals, for distinct features, n_repeat > 0 and scores that are numbers."
  },
  {
   "property": "C26",
   "status": "proved",
   "theorems": [
    "C26_only_selected_columns",
    "C26_importance_requests"
   ],
   "note": "For every model, metric and outcome of the run."
  },
  {
   "property": "C27",
   "status": "proved",
   "theorems": [
    "C27_irrelevant_pair_zero",
    "C27_irrelevant_feature_zero"
   ],
   "note": "Over exact reals."
  },
  {
   "property": "C28",
   "status": "partial",
   "theorems": [
    "C28_one_irrelevant_partial",
    "C28_one_irrelevant_refuted"
   ],
   "note": "Refuted by a concrete run: the score of the jointly permuted data uses another shuffle of the relevant feature. Proved: exactly which difference of scores is reported."
  },
  {
   "property": "C29",
   "status": "partial",
   "theorems": [
    "C29_interactions_reproducible_partial",
    "C29_reproducible_refuted"
   ],
   "note": "ovo is reproducible; feature_importance is not, because the inner importance object is created without a seed (refuted by two concrete runs)."
  },
  {
   "property": "C30",
   "status": "partial",
   "theorems": [
    "C30_rows_keep_targets_partial",
    "C30_distinct_rows",
    "C30_too_many",
    "C30_all_rows",
    "C30_array_labels_partial",
    "C30_rows_keep_targets_refuted"
   ],
   "note": "Proved for array targets with the default index and for Series with the labels of the data; refuted for arrays with any other index. For these, C30_array_labels_partial says exactly which target each sampled row gets (the one at the position its label denotes) and when IndexError is raised."
  },
  {
   "property": "C31",
   "status": "proved",
   "theorems": [
    "C31_importance_values"
   ],
   "note": "Over exact reals, n_repeat > 0."
  },
  {
   "property": "C32",
   "status": "partial",
   "theorems": [
    "C32_all_columns_partial",
    "C32_default_features_refuted"
   ],
   "note": "The documented default fails for every model and data; naming all columns explicitly works."
  },
  {
   "property": "C33",
   "status": "proved",
   "theorems": [
    "C33_mse",
    "C33_rmse",
    "C33_accuracy",
    "C33_applicability"
   ],
   "note": "Over exact reals, equal non-zero lengths."
  },
  {
   "property": "C34",
   "status": "proved",
   "theorems": [
    "C34_breadth_first"
   ],
   "note": "Any stored tree, any node numbering; the loop also ends within node_count iterations by itself."
  },
  {
   "property": "C35",
   "status": "proved",
   "theorems": [
    "C35_subtree_range"
   ],
   "note": ""
  },
  {
   "property": "C36",
   "status": "proved",
   "theorems": [
    "C36_conditional_depth",
    "C36_reports_unique"
   ],
   "note": "The relation reports is the specification; it determines the value uniquely."
  },
  {
   "property": "C37",
   "status": "partial",
   "theorems": [
    "C37_minimum_partial",
    "C37_minimum_refuted",
    "C37_best_first_refuted"
   ],
   "note": "False as stated: a shallowest f1-node without f2 below it contributes a leaf depth, and best-first numbered trees (max_leaf_nodes) miss f2-nodes. Proved: a lower bound always, and the minimum when every shallowest f1-node has f2 below it in a depth-first numbered tree."
  },
  {
   "property": "C38",
   "status": "proved",
   "theorems": [
    "C38_summary",
    "C38_values"
   ],
   "note": "C38_values adds the per-tree meaning for depth-first numbered trees."
  },
  {
   "property": "C39",
   "status": "proved",
   "theorems": [
    "C39_importance",
    "C39_first_use",
    "C39_needs_trees"
   ],
   "note": ""
  },
  {
   "property": "C40",
   "status": "partial",
   "theorems": [
    "C40_compare_partial",
    "C40_mean_of_directions_partial",
    "C40_equal_lengths",
    "C40_compare_refuted"
   ],
   "note": "False as stated: names are joined without a separator, so a+bb and ab+b merge. Proved when no two pairs of names join to the same text, e.g. when the names have equal length."
  },
  {
   "property": "C41",
   "status": "proved",
   "theorems": [
    "C41_symmetric",
    "C41_value",
    "C41_not_fitted"
   ],
   "note": "For the base class; the conditional minimal depth table that interaction_value reads there is characterised by C40."
  },
  {
   "property": "C42",
   "status": "proved",
   "theorems": [
    "C42_one_tree",
    "C42_full_result",
    "C42_importance_depths",
    "C42_tree_numbers"
   ],
   "note": "Trees listed parents first, ids distinct within a tree, root 0 for XGBoost, no XGBoost feature called \"Leaf\" (see C70)."
  },
  {
   "property": "C43",
   "status": "proved",
   "theorems": [
    "C43_tables",
    "C43_values_real",
    "C43_totals_real"
   ],
   "note": ""
  },
  {
   "property": "C44",
   "status": "proved",
   "theorems": [
    "C44_order"
   ],
   "note": ""
  },
  {
   "property": "C45",
   "status": "partial",
   "theorems": [
    "C45_fit_partial",
    "C45_stumps_refuted",
    "C45_zero_gain_refuted"
   ],
   "note": "False as stated: ensembles of stumps raise KeyError and a feature whose gains add up to zero raises ZeroDivisionError. C45_fit_partial gives the exact outcome for every trained model."
  },
  {
   "property": "C46",
   "status": "proved",
   "theorems": [
    "C46_models",
    "C46_metrics",
    "C46_accepted",
    "C46_visualizations",
    "C46_accepted_types"
   ],
   "note": "Models, metrics and visualization types."
  },
  {
   "property": "C47",
   "status": "partial",
   "theorems": [
    "C47_pd_rejected_partial",
    "C47_pd_rejected_refuted",
    "C47_forest_partial",
    "C47_forest_refuted",
    "C47_split_partial",
    "C47_split_tables_partial",
    "C47_split_refuted"
   ],
   "note": "False as stated: a fit failing in its importance stage has already replaced the pair table (partial dependence methods, forests), and a failed split score fit has already changed the metric, which reverses the comparison table. Proved for rejected models and for failures before those points."
  },
  {
   "property": "C48",
   "status": "partial",
   "theorems": [
    "C48_rows",
    "C48_all_nodes",
    "C48_roots",
    "C48_root_counts",
    "C48_fit",
    "C48_weighted_real",
    "C48_root_frequency_partial",
    "C48_root_frequency_refuted"
   ],
   "note": "One expectation is false: features at no root get a missing root frequency, not 0. Everything else is proved."
  },
  {
   "property": "C49",
   "status": "partial",
   "theorems": [
    "C49_order_partial",
    "C49_order_refuted"
   ],
   "note": "False as stated: the table is always descending, also for the two depth metrics announced as ascending."
  },
  {
   "property": "C50",
   "status": "partial",
   "theorems": [
    "C50_bounded",
    "C50_symmetric",
    "C50_self_partial",
    "C50_self_plain_partial",
    "C50_self_refuted",
    "C50_unknown_method"
   ],
   "note": "Bounds and symmetry proved over the reals for all fitted methods. Self-correlation is 1 whenever two listed pairs have different labels (in particular for two different pairs of features without '-' in their names); without that it is false: pairs whose names collide once joined with '-' give a missing correlation. Any other method name is rejected (ValueError)."
  },
  {
   "property": "C51",
   "status": "partial",
   "theorems": [
    "C51_names_partial",
    "C51_names_refuted"
   ],
   "note": "Only invariant under renamings that keep the alphabetical order of the pair labels; the codes are alphabetical ranks, so other renamings change the correlation (refuted by a concrete pair of rankings)."
  },
  {
   "property": "C52",
   "status": "partial",
   "theorems": [
    "C52_codes_partial",
    "C52_codes_refuted"
   ],
   "note": "Proved for feature names without '-'; with it, two different pairs can share a label and a code."
  },
  {
   "property": "C53",
   "status": "partial",
   "theorems": [
    "C53_summary_partial",
    "C53_first_plot_partial",
    "C53_box_refuted"
   ],
   "note": "summary and the first comparison_plot of a comparator show their own correlations; after a summary, comparison_plot shows the box of the methods summarised then."
  },
  {
   "property": "C54",
   "status": "proved",
   "theorems": [
    "C54_points",
    "C54_not_fitted",
    "C54_plot_not_fitted",
    "C54_no_pairs",
    "C54_summary_labels"
   ],
   "note": "Includes the labels and the axis directions. Tables without pairs are a separate case (ValueError / AttributeError). summary labels the first three pairs."
  },
  {
   "property": "C55",
   "status": "partial",
   "theorems": [
    "C55_heatmap_partial",
    "C55_symmetric_partial",
    "C55_colours",
    "C55_split_refuted"
   ],
   "note": "Proved for every drawn heatmap of a table whose pairs are of two different features and have one value each (as all methods but SplitScoreMethod produce): each layer, label and colour map is described, and undirected heatmaps are symmetric. Refuted for SplitScoreMethod, which lists both orders of a pair and a feature with itself."
  },
  {
   "property": "C56",
   "status": "partial",
   "theorems": [
    "C56_ready_partial",
    "C56_no_importance_partial",
    "C56_isolated_node_partial",
    "C56_friedman_partial",
    "C56_greenwell_partial",
    "C56_friedman_no_ova_partial",
    "C56_sejong_partial",
    "C56_forest_partial",
    "C56_forest_unused_partial",
    "C56_split_partial",
    "C56_friedman_refuted",
    "C56_forest_refuted",
    "C56_split_refuted"
   ],
   "note": "Every accepted plot succeeds after fit: Friedman with one-vs-all, Greenwell, Sejong Oh (if a score is defined), forests that use all features, boosters where each feature is in a pair. Refuted otherwise: Friedman with calculate_ova=False raises MethodNotFittedException for every plot, a forest with an unused feature gives IndexError, a booster feature in no listed pair gives NetworkXError."
  },
  {
   "property": "C57",
   "status": "partial",
   "theorems": [
    "C57_widths_partial",
    "C57_all_irrelevant_refuted",
    "C57_split_refuted"
   ],
   "note": "Proved over the reals for tables with one row per edge, a relevant non-zero value and another different value. Refuted: when no interaction is relevant all widths are NaN although the values differ; SplitScoreMethod lists the strongest pair twice and the second row overwrites its edge."
  },
  {
   "property": "C58",
   "status": "partial",
   "theorems": [
    "C58_widths_partial",
    "C58_strongest_partial",
    "C58_refuted"
   ],
   "note": "Proved for positive values with some irrelevant interaction. Refuted for a fitted forest: the strongest interaction (0) is drawn with width 0."
  },
  {
   "property": "C59",
   "status": "partial",
   "theorems": [
    "C59_graph_partial",
    "C59_refuted"
   ],
   "note": "Holds where larger means stronger; for ConditionalMinimalDepthMethod the summary's graph is drawn with the opposite order."
  },
  {
   "property": "C60",
   "status": "proved",
   "theorems": [
    "C60_path",
    "C60_distinct",
    "C60_outcome",
    "C60_fitted",
    "C60_default_length"
   ],
   "note": "walk is the independent description of the path. C60_outcome and C60_fitted: with more than k pairs the plot exists, otherwise IndexError, so the default length 7 fails with up to four features (C60_default_length)."
  },
  {
   "property": "C61",
   "status": "proved",
   "theorems": [
    "C61_range"
   ],
   "note": "C61_range covers all values of the candidates and of the panels when none is undefined, which is the statement. See C84 for undefined cells."
  },
  {
   "property": "C62",
   "status": "partial",
   "theorems": [
    "C62_ova_fresh_partial",
    "C62_never_requested_partial",
    "C62_stale_ova_refuted"
   ],
   "note": "False as stated (refuted)."
  },
  {
   "property": "C63",
   "status": "proved",
   "theorems": [
    "C63_pd",
    "C63_sejong",
    "C63_forest",
    "C63_split",
    "C54_not_fitted"
   ],
   "note": "Every method class: plot of any kind and interaction_value; comparison by the method comparator."
  },
  {
   "property": "C64",
   "status": "proved",
   "theorems": [
    "C64_left_half_circle"
   ],
   "note": "Over the reals, for every draw u in [0,1)."
  },
  {
   "property": "C65",
   "status": "proved",
   "theorems": [
    "C65_documented_function",
    "C65_fit_explains_it"
   ],
   "note": ""
  },
  {
   "property": "C66",
   "status": "partial",
   "theorems": [
    "C66_fit_succeeds_partial",
    "C66_iff_partial",
    "C66_excluded_column_refuted"
   ],
   "note": "False as stated: a missing value in an excluded column makes fit raise IndexError (refuted). Proved instead: with known, distinct features and a model that answers, fit succeeds if and only if the whole sampled frame is complete."
  },
  {
   "property": "C67",
   "status": "proved",
   "theorems": [
    "C67_single_rejected",
    "C01_single_exact"
   ],
   "note": "Error behaviour for every reachable calculator; the value returned for known values is C01."
  },
  {
   "property": "C68",
   "status": "partial",
   "theorems": [
    "C68_names_irrelevant_partial",
    "C68_names_irrelevant_refuted"
   ],
   "note": "True for all names other than centered_prediction; a column of that name is overwritten by the code, refuted on a concrete frame."
  },
  {
   "property": "C69",
   "status": "partial",
   "theorems": [
    "C69_fit_succeeds_partial",
    "C69_fit_refuted"
   ],
   "note": "False as stated: a forest without any split raises KeyError. Proved: the exact outcome for every forest."
  },
  {
   "property": "C70",
   "status": "partial",
   "theorems": [
    "C70_lightgbm_partial",
    "C70_leaf_name_refuted"
   ],
   "note": "False as stated: XGBoost splits on a feature called \"Leaf\" are taken for leaves. Proved for LightGBM; C42-C44 hold for XGBoost when no feature has this name."
  },
  {
   "property": "C71",
   "status": "partial",
   "theorems": [
    "C71_roots_partial",
    "C71_nodes_partial",
    "C71_refuted",
    "C71_cut_refuted"
   ],
   "note": "Described exactly which roots and nodes are drawn. The last tree is never drawn for p = 1, a single tree is not drawn at all, and roots and nodes are cut at different trees."
  },
  {
   "property": "C72",
   "status": "partial",
   "theorems": [
    "C72_titles_partial",
    "C72_ova_partial",
    "C72_refuted"
   ],
   "note": "All charts but bar_chart_ova, which ignores the title."
  },
  {
   "property": "C73",
   "status": "proved",
   "theorems": [
    "C73_pairs",
    "C73_features"
   ],
   "note": "For the tables, sorted by fit."
  },
  {
   "property": "C74",
   "status": "proved",
   "theorems": [
    "C74_labels",
    "C74_none"
   ],
   "note": ""
  },
  {
   "property": "C75",
   "status": "proved",
   "theorems": [
    "C75_conditional"
   ],
   "note": ""
  },
  {
   "property": "C76",
   "status": "partial",
   "theorems": [
    "C76_heatmap_partial",
    "C76_bars",
    "C76_refuted"
   ],
   "note": "Bar charts always; the heatmap where larger importance is better. For ConditionalMinimalDepthMethod the summary's heatmap has the wrong colour direction for importances."
  },
  {
   "property": "C77",
   "status": "proved",
   "theorems": [
    "C77_panels"
   ],
   "note": "The statement allows undefined cells off the data after Friedman's method; on the data, and always after Greenwell's method, the cells are exact (drawn)."
  },
  {
   "property": "C78",
   "status": "partial",
   "theorems": [
    "C78_single",
    "C78_pair",
    "C78_friedman_refuted",
    "C78_outside_refuted",
    "C78_refused"
   ],
   "note": "One-feature profiles and Greenwell's pair profiles are exact. Friedman's pair profiles have undefined cells off the data (C78_friedman_refuted), and pairs outside the fitted features are drawn without any value instead of being rejected (C78_outside_refuted). C78_refused: exactly which profile calls are rejected, and how."
  },
  {
   "property": "C79",
   "status": "partial",
   "theorems": [
    "C79_labels_partial",
    "C79_last_label_refuted"
   ],
   "note": "True for all panels but the last one, whose second axis gets the name of a feature of the next pair, which is not drawn."
  },
  {
   "property": "C80",
   "status": "partial",
   "theorems": [
    "C80_before_fit_partial",
    "C80_before_fit_refuted"
   ],
   "note": "The calls do raise, but AttributeError on None instead of MethodNotFittedException."
  },
  {
   "property": "C81",
   "status": "partial",
   "theorems": [
    "C81_tight_partial",
    "C81_exact_partial",
    "C81_tight_refuted"
   ],
   "note": "The search starts with 1 as minimum and 0 as maximum, so the range is only tight when some value is at most 1 and some value at least 0: refuted in general, proved under that condition."
  },
  {
   "property": "C82",
   "status": "partial",
   "theorems": [
    "C82_order_partial",
    "C82_missing_refuted",
    "C82_case_refuted",
    "C82_ascending_refuted"
   ],
   "note": "C82_order_partial: order by strength for complete tables of finite values with a positive importance and names distinct in lower case. A feature not listed with the first other feature gets an undefined score and is put last (C82_missing_refuted, on a trained model); names that differ in case only share a score (C82_case_refuted); where smaller is stronger the weakest interaction counts (C82_ascending_refuted)."
  },
  {
   "property": "C83",
   "status": "proved",
   "theorems": [
    "C83_split",
    "C83_split_graph",
    "C83_forest",
    "C83_agnostic"
   ],
   "note": ""
  },
  {
   "property": "C84",
   "status": "partial",
   "theorems": [
    "C84_greenwell_partial",
    "C84_friedman_refuted"
   ],
   "note": "True after Greenwell's method when the averaged predictions are defined. After Friedman's method cells off the data are undefined, and a pair with undefined cells hides the values seen before it, so drawn values can lie outside the range (C84_friedman_refuted)."
  },
  {
   "property": "C85",
   "status": "proved",
   "theorems": [
    "C85_features"
   ],
   "note": "Both fits have the same rows and model; keeps and keeps1 say that every row about features of the second fit is also in its table, a pair possibly with its names exchanged. The sampled rows are the same by hypothesis (same n and seed, or no sampling)."
  },
  {
   "property": "C86",
   "status": "proved",
   "theorems": [
    "C86_layout",
    "C86_layout_additivity"
   ],
   "note": "same_data: same names, same cells under the same names, rows equal up to order and up to repeating all of them. Over the reals; floating point sums depend on the order of the rows."
  },
  {
   "property": "C87",
   "status": "proved",
   "theorems": [
    "C87_greenwell",
    "C87_importance",
    "C87_additivity"
   ],
   "note": "Over the reals. Friedman's H is C15."
  },
  {
   "property": "C88",
   "status": "partial",
   "theorems": [
    "C88_restriction_partial",
    "C88_restriction_works",
    "C88_weighted_root_refuted"
   ],
   "note": "Proved for every metric but weighted_root_frequency. For that metric the claim is false: the weights are taken over the selected features only, so the value of a feature changes with the selection."
  },
  {
   "property": "C89",
   "status": "partial",
   "theorems": [
    "C89_handler_partial",
    "C89_model_refuted",
    "C89_default_metric_refuted",
    "C89_given_trees_partial"
   ],
   "note": "Proved for a model already converted to a handler. False for the model itself (AttributeError), and without a metric the sum of gains is used where the documentation promises the mean. Trees handed in decide alone."
  },
  {
   "property": "C90",
   "status": "proved",
   "theorems": [
    "C90_value",
    "C90_unknown",
    "C90_agrees",
    "C90_agrees_pairs",
    "C90_remove_element",
    "C90_remove_unknown"
   ],
   "note": ""
  },
  {
   "property": "C91",
   "status": "partial",
   "theorems": [
    "C91_always_fails_refuted"
   ],
   "note": "False: plot passes the keyword _ax, which scikit-learn's from_estimator does not accept, so every call raises TypeError. Nothing of the positive claim is provable. Rests on the signature of from_estimator (DESIGN.md, section 7)."
  },
  {
   "property": "C92",
   "status": "proved",
   "theorems": [
    "C92_request_size",
    "C92_rows_any_model",
    "C92_rows"
   ],
   "note": "Counts the requests of the calculator; Friedman's one-versus-all predicts the sampled data once more directly. C92_request_size and C92_rows_any_model hold for any model, also one that fails in the middle. C92_rows needs profiles that are not NaN, since NaN profiles are asked for again (C92_nan_example). C92_example meets the bounds exactly."
  },
  {
   "property": "C93",
   "status": "partial",
   "theorems": [
    "C93_zero_or_one_partial",
    "C93_unused_refuted"
   ],
   "note": "False as stated. The average of equal doubles can differ from them in the last bit; then numerator and denominator are the same rounding error and the value is 1, the largest in the table (C93_unused_refuted, IEEE binary64). Proved: for every model, data and summation order the reported value is exactly 0 or exactly 1. In exact arithmetic it is 0 (C14)."
  },
  {
   "property": "C94",
   "status": "proved",
   "theorems": [
    "C94_nonnegative"
   ],
   "note": "IEEE binary64 after Coq.Floats.SpecFloat; the order of summation is any tree of additions. C93_unused_refuted is a case that meets the hypotheses."
  },
  {
   "property": "C95",
   "status": "partial",
   "theorems": [
    "C95_constant_partial",
    "C95_exact_partial",
    "C95_constant_refuted"
   ],
   "note": "False as stated: in doubles the index of a constant model is NaN or 0, never 1 (C95_constant_partial, for all models, data and summation orders), and it is 0 for the prediction 1/10 on three rows. In exact arithmetic it is NaN."
  },
  {
   "property": "C96",
   "status": "proved",
   "theorems": [
    "C96_at_most_one"
   ],
   "note": "For every run that returns, with no assumption on the model; every order of summation (added)."
  },
  {
   "property": "C97",
   "status": "proved",
   "theorems": [
    "C97_calls",
    "C97_fits",
    "C97_first_order",
    "C97_additivity",
    "C97_importance"
   ],
   "note": "for the partial dependence methods; C21 says that the second method gets the results it would have had on its own"
  },
  {
   "property": "C98",
   "status": "partial",
   "theorems": [
    "C98_known_values_partial",
    "C98_stale_refuted"
   ],
   "note": "False: without sampling the calculator holds the caller's frame, so the comparison with the data always succeeds; C98_stale_refuted gives a fit that mixes old and new values and reports an interaction with a feature the model ignores. Proved: Friedman's method refuses the calculator if an included column has a value that was not there when the calculator was built."
  },
  {
   "property": "C99",
   "status": "partial",
   "theorems": [
    "C99_pd_partial",
    "C99_additivity_partial",
    "C99_forest",
    "C99_split",
    "C99_performance_partial",
    "C99_sampled_refuted",
    "C99_performance_refuted"
   ],
   "note": "True for the tree methods; true for the other methods if the generators agree, which they do unless an earlier fit has drawn from them (partial dependence and additivity: unless n is given). False otherwise: the generator is made once per object, so a second fit draws other rows or permutations. The one-vs-all table of a fit without calculate_ova is the subject of C62."
  }
 ]
}
