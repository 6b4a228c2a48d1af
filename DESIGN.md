# Formal model of pyartemis/artemis in Rocq

## 1. What is modelled, in one paragraph

artemis computes feature interaction and feature importance tables from (a) a
black-box prediction function evaluated on modified copies of a data frame or
(b) the node tables of tree ensembles.  Its state machine core is the partial
dependence cache (`PartialDependenceCalculator`), its pure core are the
statistics computed from the cache, from permuted scores and from trees, and
the table manipulations (sorting, grouping, matrix building, encoding) done on
the results.  Every one of these is modelled as a total computable Gallina
function, branch by branch, with Python exceptions as values (`result`).

## 2. Modelling conventions

* **Numbers.**  Model code is generic in a record `num_ops V` of the numpy
  operations used (add, sub, mul, div, sqrt, abs, comparison, NaN test, sum of a
  list).  Structural theorems hold for *any* `num_ops`, hence also for IEEE
  doubles with any summation order; where an order is needed its laws are an
  explicit hypothesis (`num_ord_ok`).  Algebraic theorems are about the instance
  `xR`: the reals extended with +inf, -inf and NaN (exact arithmetic,
  IEEE special values, one zero).  Refutations and examples are computed in
  `xQ`, the same construction over the rationals.  Rounding is modelled by the
  instance `fl64` (used wherever a claim speaks of doubles: C93-C96, C100-C102, C105, C110, C122,
  C126, C129, C136-C138): binary64 as specified in Coq.Floats.SpecFloat, with the
  order of summation as a parameter; `fl64` satisfies `num_ord_ok`, so that every
  structural theorem applies to it.  The refutation of exact zeros in C101 uses numpy's
  pairwise order of summation (`NpSum`), written from memory of numpy's `pairwise_sum`.
* **Cells.**  Data frame cells have a generic type `C` with an equality and an
  order test (`cell_ops`); `c_eqb v v = false` characterises NaN.  0.0 and -0.0
  and equal values of different dtype are identified.
* **Data frames.**  Column names (distinct strings), integer index, rows.  Dtypes
  are reduced to one bit (numeric or not), which is all the code looks at.
* **The model being explained** is an oracle `nat -> list row -> result (list V)`:
  the nat is the number of the call, so that it can fail at any chosen request.
  "Row-wise" is the hypothesis that whenever it succeeds it maps a fixed function
  over the rows.
* **Sorting.**  pandas' single-key `sort_values` is not stable, so the sort is a
  parameter with the hypothesis that it returns a sorted permutation; insertion
  sort is given as an instance.
* **Randomness.**  Random draws are streams passed as arguments (theorems
  quantify over them).
* **Loops.**  Structural recursion; the breadth-first loop of the conditional
  minimal depth uses fuel, and its theorems show it is never exhausted.
* **Plots.**  A plotting call returns the data handed to matplotlib, seaborn and
  networkx (titles, labels, values, widths, colour maps, positions in the grid).
* **Theorem names.**  `Cxx_name` belongs to property Cxx.  `_refuted` theorems
  exhibit inputs on which the code violates the property (as an existential,
  computed by `vm_compute`); `_partial` theorems prove the property under extra
  hypotheses or prove a weaker conclusion.  `_example` shows that the hypotheses of
  the theorems around it can be met by a non-trivial input.

## 3. Plan per property

| id | plan |
|----|------|
| C01-C03 | `PdCalc.v` models every method of the calculator; `PdSpec.v` defines partial dependence directly on the frame; invariant "every cell is NaN or the spec value" by induction over batches, then over operation lists |
| C04 | corollary of C01-C03 for two calculators |
| C05, C06 | the request log is part of the state; invariant over the batching loop |
| C07 | frame lemmas for the three fill loops, induction over operations |
| C08 | the oracle may fail at any request: the invariant of C01-C03 is proved for failing calls too; retry theorem |
| C09, C10 | lookup lemmas; C10 refuted for the reversed order |
| C11 | error characterisation |
| C12, C13 | table characterisation for any `num_ops`: rows are a sorted permutation of the specified rows |
| C14, C15 | algebra in `xR` |
| C16 | refuted with a witness in `xQ` |
| C17-C20 | as C12/C14 |
| C21 | corollary of C01-C04 for the method-level fit; rejection checks |
| C22 | refuted with witness; with a calculator, the tables are those of the calculator's function (`Props_Strong`) |
| C23, C24 | algebra in `xR`; the interval is refuted, the upper bound is proved |
| C25-C29, C31, C32 | permutation streams; theorems for all streams; C28, C29 (importance part) and C32 refuted |
| C30 | refuted for arrays with non-default index, proved for default index and for Series; other array labels characterised exactly (`Props_Strong`) |
| C33 | algebra in `xR` |
| C34-C37 | inductive trees, array layout relation, BFS invariant; C37 refuted twice |
| C38-C41 | table theorems over `num_ops`; C40 refuted on colliding names and proved under injectivity |
| C42-C49 | tree node tables; C45, C47 (part), C49 refuted |
| C50-C54 | correlation algebra (Cauchy-Schwarz) in `xR`; C51-C53 refuted in part |
| C55-C59 | matrix and width functions; C56, C58, C59 refuted |
| C60, C61 | zenplot path invariant |
| C62, C63 | method state machine over histories of calls |
| C64 | trigonometry in R |
| C65 | decision function |
| C66-C70 | behaviours found while modelling: refuted, with the exact or restricted positive statement |
| C71-C76 | panels described by the rows of the tables they are drawn from |
| C77-C81 | zenplot panels and profiles against `PdSpec`; C78-C81 refuted in part |
| C82, C83 | heatmap order as a real-valued score; colour maps per method and metric |
| C84 | the drawn cells against the colour range; refuted for Friedman's method |
| C85, C86 | two fits related by `same_data` and `same_model` (`Views`); means over permuted and repeated rows |
| C87 | affine images of the real formulas of C17, C20, C23 |
| C88, C89 | the importance table as a row per feature; restriction keeps rows; direct call against the fit; refuted in part |
| C90 | the changed row as a map over columns, against `PdSpec` |
| C91 | refuted: the keyword `_ax` is not a parameter of scikit-learn's function |
| C92 | rows requested per stage (`Cost`), summed over the stages of a fit |
| C93-C95 | doubles (`Float`): an average of equal numbers and a quotient of equal sums; refuted by computation in binary64 |
| C96 | rounding to nearest never crosses a double (`FloatRound`), so one minus a non-negative number is at most one |
| C97 | a filled table of single values is an invariant of every later call; pair cells holding a number are kept |
| C98 | in-place assignment replaces the frame of the calculator (`edited`); refuted in general; Friedman's method refuses unknown values |
| C99 | two fits from different states give the same results; refuted when the generator is used |
| C100 | signs of doubles and exact cancellation; an average of zeros |
| C101 | error of each rounded operation in units of the smallest double (`FloatErr`), summed over any tree of additions; zero refuted by computation |
| C102 | rounded subtraction, division and multiplication are monotone (`FloatMono`, `FloatOps`) |
| C103 | areas as shares of the largest importance; refuted for depths, negative importances and zeros |
| C104 | the annotated points of the figure against the trees they come from (tree numbers kept through the unified table) |
| C105 | a larger double minus a smaller one is not negative; equal averages have range 0; the standard deviation of equal averages refuted by computation |
| C106 | the summary reads four dictionaries; each panel equals the single chart called with that dictionary; the name 'bar_chart' is not read (refuted by a table of two pairs) |
| C107 | a keyword equal to the default of `pop` gives the same record of arguments up to that field; the chart reads the field through `pop` only |
| C108 | membership of the documented names in the accepted ones (C46); 'lolliplot' refuted for every fitted state |
| C109 | the mean of a Series drops NaN: equality of the mean over the kept rows with the specification over the known targets; for arrays one NaN makes every sum NaN |
| C110 | signs of rounded squares and sums (`FloatOps`), exact zero for equal doubles, counts below 2^53 are exact; the converse bounded through the monotone square |
| C111, C112, C113 | `Props_EndToEnd`: assumptions on the input of `fit` only; composition of success (C66, C19), values (C12, C13, C17, C20), the charts (C55, C56, C73) and the comparator (C54); statistics restated in plain real arithmetic |
| C114 | `Props_Keywords2`: the keyword names of each chart listed as specification; agreement on these names gives the same figure; one theorem per keyword on the drawn panel |
| C115, C116 | `Props_EndToEnd2`: assumptions on the input of `fit` only; Oh's statistic and the permutation importance restated in real arithmetic over the draws of the generator; comparator for any two of the three model agnostic methods |
| C117 | `Props_EndToEnd3`: assumptions on the stored trees only; composition of C36, C38, C39, C40 with the charts C55, C56, C75; values restated as real means over the trees |
| C118 | `Props_EndToEnd4`: assumptions on the trained ensemble only; composition of C41, C43, C44, C45, C48 with the charts; statistics restated as real sums and means over the nodes; heatmap of a table with both directions of a pair |
| C119 | `Props_EndToEnd5`: the graph drawn after fit, from the statistics of C111, C112 and C115 through C57 to edges and labels; one edge per pair by uniqueness of the rows up to swapping |
| C120 | `Props_EndToEnd6`: one view of all fitted methods (rows, values, direction) established from C111, C112, C115, C117, C118; then C54 |
| C121 | `Props_Ranks`: the codes of a ranking are a permutation; spread of a permutation in closed form; equality in Cauchy-Schwarz, with a gap by parity (Pearson, Spearman) and by one exchanged sign (Kendall); correlations do not depend on the order of the rows; opposite rankings refuted by computation |
| C122, C123 | `Props_Ranks2` on `Printed`: rounding to nearest even is within half a unit and monotone; 91 pairs refuted through the exact values of the correlations |
| C124 | `Props_Budget2`: the log of requests counted along the loops, with the exact number on success |
| C125 | `FloatInt`, `Props_ForestFloat`: sums of whole numbers below 2^53 are exact in any order, so the mean is one correctly rounded division; two fractions with small denominators differ by more than the rounding, so the order is exact.  (pandas' grouped mean uses compensated summation, which gives the same result for whole numbers.) |
| C126 | `Props_SplitFloat`: the same argument over the nodes of an ensemble; counts are exact |
| C127 | `Props_Terms`: the double difference behind the H statistic, the deviations behind Greenwell's value and the spread behind the importance are shifted by constants only |
| C128, C129 | `Props_TreeOrder`: each table is determined by the multiset of trees (nodes); sums over the extended reals do not depend on the order; sums of depths are exact in doubles, so that the bits agree; `np.average` with gains as weights is refuted in doubles |
| C130 | `Props_Recode`: the rows a value is computed from correspond row by row; the tables have corresponding keys with equal values and are therefore permutations of each other |
| C131 | `GbHandler`, `Props_GbHandler`: the attributes of the object along a sequence of calls; the package is assigned before it is checked, so that a rejected call leaves the old trees under a new package name (refuted with the wrong values this produces) |
| C132 | `PdAny`, `Props_Any`: the invariant of the calculator without a row-wise model: each cell refers to a position in the log of requests; noise bounds by the mean of bounded differences |
| C133 | `Props_Stable`: each statistic is a root mean square of centred values, hence 1-Lipschitz in them (Minkowski); the order of the table from the distance of the values; refuted for the normalised statistic by a scaled product |
| C134 | `Props_Noise`, `Props_Noise2` (normalised), `Props_Noise4` (additivity index): the calculator's answers from C132, the statistics from the Lipschitz bounds of C133; a fit with a model that never raises returns |
| C135 | `Props_Anova`: the statistic of a sum of terms from C127, orthogonality of the effects from the independence lemma of C16 and the decomposition of C23; example on the corners of a cube |
| C136 | `FloatReal`: every rounded operation as a real number with an error; `Props_Accuracy`: the errors carried through averages, centring, squares, root and quotient; the exact value is that of the model in the extended reals; examples in binary64 |
| C137 | `Props_Accuracy2`: the errors of C136 carried through standard deviation, range, sum of effects and the quotient of two sums of squares; examples in binary64 |
| C138 | `Props_Accuracy3`: the errors of differences, squares, root and mean of a metric, of a sum of up to eight scores and of the means over repetitions; a run in binary64 |
| C139 | `Props_Draws`: the mixed score as the double mean over rows, exchange of the means over draws and rows, the covariance identity for separate effects, the generator reading its permutations from a list; runs with the rotations and with all permutations |
| C140 | `Props_Equiv`: simulation between the actions on the data and on the recoded data (`sim`), sorting by keys only; runs with exchanged names and another unit |
| C141 | `Props_Outcome`: outcomes of actions over all states (`outcome`), shape of the permuted rows; runs with a model that is not row-wise and with each kind of failure |
| C142 | `Messages`, `Props_Messages`: the texts and the places that raise them, the regular expression for the class name (lookbehind, greedy, no line breaks), string endings for the injectivity |
| C143 | outcomes of the partial dependence and permutation based calls when predict raises (any request): propagation, last request, exceptions of the library, and equality of a later call with a run without failures |
| C144 | outcomes of all model agnostic calls when the predict function returns a wrong number of predictions, with numpy's broadcasting |
| C145 | performance based values and permutation importances of two models whose scores differ little; RMSE and MSE of nearby predictions; jump of the accuracy |
| C146 | performance based values and permutation importances when targets and predictions are rescaled together |
| C147 | C147 (Props_Noise3, on PermAny): performance based method and permutation importance with models that do not predict row by row. |

## 4. Files

| file | content |
|------|---------|
| `Py`, `Num`, `NumR`, `Sorting`, `Frame`, `Rng` | exceptions, dictionaries, list facts; numbers and their instances over the reals and rationals; sorting; data frames; random generators |
| `Float`, `FloatRound`, `FloatMono`, `FloatOps`, `FloatErr`, `FloatInt`, `FloatReal`, `NpSum` | IEEE doubles as an instance of the numbers: order, signs, exact cases, sums and means of whole numbers; bounds on rounding; monotonicity and error of the operations; doubles as real numbers with relative errors; numpy's order of summation |
| `PdCalc`, `PdMethods`, `Additivity`, `Perm`, `CondDepth`, `SplitScore`, `Comparator`, `Compared`, `Visual`, `Keywords`, `Nodes`, `Zenplot`, `Helpers`, `Printed`, `GbHandler`, `Messages` | the model; each definition cites the lines it models |
| `PdSpec`, `MethodSpec`, `TreeFacts` (first part), `SplitFacts` (first part), head of each `Props_*` | specifications, written without the definitions of the model |
| `*Facts`, `PdProofs`, `PdTheorems`, `PdErrors`, `PdApi`, `PdMethodRun`, `PdMethodReal*`, `PermRun`, `SplitTables`, `SplitImp`, `EngineFacts`, `PdAny`, `Cost`, `Views` (with the specification of C85 and C86) | lemmas |
| `Props_*` | the theorems named in MANIFEST.json, with examples and `Print Assumptions` |

## 5. Trusted base

* The kernel of Coq 8.16.1 (including `vm_compute`, used for examples and
  refutations) and the checked build of the standard library.  No axiom,
  parameter or hypothesis is added; nothing is admitted; no plugin, no functor.
* The axioms of the standard library's real numbers, for the theorems listed in
  section 8: `ClassicalDedekindReals.sig_forall_dec`,
  `ClassicalDedekindReals.sig_not_dec` and
  `FunctionalExtensionality.functional_extensionality_dep`.  All other theorems
  are closed under the global context.
* That the model describes the code.  The correspondence was established by
  reading; the code was never run.

## 6. What is modelled

| source file | modelled | left out |
|---|---|---|
| `_utilities/pd_calculator.py` | everything | progress bars; dtypes of the intermediate frames |
| `_utilities/ops.py` | `all_if_none`, `center`, `sample_if_not_none`, `sample_both_if_not_none`, `split_features_num_cat`, `get_predict_function`, `yhat_*`, `point_left_side_circle`, `remove_element`, `partial_dependence_value` (`Helpers`) | |
| `_utilities/performance_metrics.py` | everything | numbers only (class labels encoded as numbers) |
| `_utilities/split_score_metrics.py`, `domain.py` | the constants that the code branches on | progress messages |
| `_utilities/_handler.py` | recognition of the model by module and class name, also from the text of its type (`Messages`), unified tables for XGBoost and LightGBM, repeated calls on one object (`GbHandler`) | `trees_to_dataframe` of both libraries (its result is the input) |
| `_utilities/zenplot.py` | everything | |
| `_utilities/exceptions.py` | which exception is raised, and its message (`Messages`) | texts of the `ValueError`s of `_pdp.py` and `_additivity_meter.py` |
| `additivity/_additivity_meter.py` | everything | |
| `comparison/_method_comparator.py` | everything | fonts, the random position of labels beyond C64; printed numbers are rounded in the reals, not in doubles (`Printed`) |
| `importance_methods/*` | everything | progress bars |
| `interactions_methods/_method.py`, `.../_pdp.py`, `_friedman_h_statistic.py`, `_greenwell.py`, `_sejong_oh.py`, `_split_score.py`, `_conditional_minimal_depth.py` | everything | progress bars |
| `visualizer/_configuration.py`, `_visualizer.py` | which panels with which data, titles, labels, widths, colour maps, keyword names and defaults | figure sizes, fonts, fixed colours, positions |
| `visualizer/_pdp_visualizer.py` | the call to scikit-learn with its keywords (`Helpers`) | what scikit-learn draws |

## 7. Assumptions about the libraries

* *numpy*: `unique` sorts and removes duplicates; `mean`, `std`, `max`, `min`
  propagate NaN on arrays; division never raises; `np.sum` is any function of the
  list in structural theorems and the exact sum in `xR`/`xQ`.
* *pandas*: column selection by a missing name raises KeyError;
  `Series.mean/max/min` skip NaN; `sort_values` returns a sorted permutation with
  NaN last; `groupby` sorts its groups; `pivot_table` drops missing values and
  sorts rows and columns; `DataFrame.sample` draws distinct positions and raises
  ValueError for more rows than there are; assignment of a Series aligns labels,
  of an array goes by position; `corr` ignores incomplete rows; setting a whole column
  replaces the array (pandas 1.3 and later), so that the exchange of the feature columns
  for the heatmap reads the old values.
* *numpy.random*: `permutation` returns a permutation, equal generators give equal
  draws (`rng_ok`).
* *scikit-learn*: the arrays of a tree are those of a binary tree (relation
  `stored` between arrays and inductive trees); node order is depth-first unless
  `max_leaf_nodes` is set; `PartialDependenceDisplay.from_estimator` has the
  parameters of versions 1.1 to 1.5 and takes no other keywords (C91).
* *xgboost, lightgbm*: `trees_to_dataframe` lists every node of every tree once
  (relation `trained`); XGBoost marks leaves by the feature name "Leaf".
* *matplotlib, seaborn, networkx*: a bar chart or heatmap without any row
  raises; `contour` needs a matrix of at least 2 x 2; drawing a node that is not
  in the graph raises NetworkXError; a later edge between the same nodes replaces
  the earlier one.
* `str.lower` is an arbitrary function in the theorems about heatmaps.
* *Broadcasting*: where an array returned by the predict function meets another array
  (metrics, one-versus-all), arrays of length one are broadcast and other differing
  lengths raise ValueError; a Series is not extended to the length of an array, and
  comparing with a Series needs equal lengths (C141, C144).
* Not modelled: `statistics.stdev` on NaN or infinite values (some Python versions
  raise); the upcast of mixed dtypes by `iterrows` in `calculate_pd_minus_single`;
  negative sample sizes.

## 8. Print Assumptions, theorem by theorem

Each `Props_*` file prints the assumptions of its theorems when it is compiled.

**Closed under the global context** (334 theorems of MANIFEST.json):
`C01_single_exact`, `C01_single_always_sound`, `C02_pairs_exact`, `C02_pairs_always_sound`,
`C03_minus_exact`, `C03_minus_always_sound`, `C04_single_history_independent`,
`C04_pairs_history_independent`, `C04_minus_history_independent`, `C05_pairs_requests`,
`C05_single_requests`, `C05_minus_requests`, `C06_single_reuse`, `C06_minus_reuse`,
`C06_pairs_reuse`, `C06_pairs_never_overwritten`, `C07_single_isolation`, `C07_minus_isolation`,
`C07_pairs_isolation`, `C07_grids`, `C08_single_retry`, `C08_minus_retry`, `C08_pairs_retry`,
`C09_pairs_order`, `C09_pairs_rejected`, `C10_full_matrix_partial`, `C10_full_matrix_refuted`,
`C100_nonnegative`, `C100_ignored_pair`, `C101_importance_partial`, `C101_fit_partial`,
`C101_zero_refuted`, `C102_range`, `C102_order`, `C103_depth_refuted`, `C103_negative_refuted`,
`C103_zero_refuted`, `C104_nodes`, `C104_roots`, `C104_roots_xgboost`, `C105_nonnegative`,
`C105_categorical_partial`, `C105_one_value_partial`, `C105_numerical_refuted`,
`C106_summary_partial`, `C106_bar_chart_partial`, `C106_bar_chart_refuted`, `C107_defaults`,
`C107_graph_defaults`, `C108_documented_partial`, `C108_lolliplot_refuted`,
`C109_container_partial`, `C109_lengths_refuted`, `C11_single_rejects`, `C11_minus_rejects`,
`C11_pairs_rejects`, `C110_nonnegative`, `C110_perfect`, `C110_zero_partial`, `C110_accuracy`,
`C110_zero_refuted`, `C110_rmse_zero_partial`, `C114_unrelated`, `C114_heatmap`, `C114_bars`,
`C114_labels`, `C114_width`, `C114_lollipop`, `C12_friedman_pairs`, `C121_opposite_refuted`,
`C124_performance`, `C124_importance`, `C124_additivity`, `C125_rounded`, `C125_order`,
`C125_importance`, `C125_compare`, `C126_mean_depth`, `C126_frequency`, `C126_importance`,
`C126_roots`, `C128_doubles`, `C129_pair_depths_partial`, `C129_feature_depths_partial`,
`C129_refuted`, `C13_friedman_ova`, `C130_friedman`, `C131_accepted`, `C131_last`,
`C131_trees_partial`, `C131_rejected_partial`, `C131_no_model`, `C131_metric_refuted`,
`C131_depth_refuted`, `C132_single`, `C132_minus`, `C132_pairs`, `C140_importance`,
`C140_performance`, `C140_forest`, `C141_features`, `C141_importance`, `C141_no_predict`,
`C141_lengths`, `C141_model_error`, `C141_sampling`, `C142_class`, `C142_distinct`, `C142_plots`,
`C142_metrics`, `C142_models`, `C143_fit`, `C143_importance`, `C143_additivity`,
`C143_permutation`, `C143_performance`, `C143_again`, `C143_additivity_again`,
`C143_importance_again`, `C143_additivity_kept`, `C143_additivity_last`,
`C144_permutation_partial`, `C144_performance_partial`, `C144_additivity_partial`,
`C144_one_versus_all_partial`, `C144_pairs_refuted`, `C144_single_number_refuted`, `C144_surplus`,
`C144_surplus_importance`, `C144_padded`, `C16_bounded_refuted`, `C19_greenwell_constant_feature`,
`C21_same_results`, `C21_same_outcome`, `C21_rejected`, `C21_additivity_same`,
`C21_additivity_rejected`, `C22_given_function_partial`, `C22_calculator_wins_partial`,
`C22_given_function_refuted`, `C23_fit_returns`, `C24_in_unit_interval_refuted`, `C25_fit_returns`,
`C26_only_selected_columns`, `C26_importance_requests`, `C28_one_irrelevant_refuted`,
`C29_interactions_reproducible_partial`, `C29_reproducible_refuted`,
`C30_rows_keep_targets_partial`, `C30_distinct_rows`, `C30_too_many`, `C30_all_rows`,
`C30_array_labels_partial`, `C30_rows_keep_targets_refuted`, `C32_default_features_refuted`,
`C34_breadth_first`, `C35_subtree_range`, `C36_conditional_depth`, `C36_reports_unique`,
`C37_minimum_partial`, `C37_minimum_refuted`, `C37_best_first_refuted`, `C38_summary`,
`C38_values`, `C39_importance`, `C39_first_use`, `C39_needs_trees`, `C40_compare_partial`,
`C40_equal_lengths`, `C40_compare_refuted`, `C41_symmetric`, `C41_value`, `C41_not_fitted`,
`C42_one_tree`, `C42_full_result`, `C42_importance_depths`, `C42_tree_numbers`, `C43_tables`,
`C44_order`, `C45_fit_partial`, `C45_stumps_refuted`, `C45_zero_gain_refuted`, `C46_models`,
`C46_metrics`, `C46_accepted`, `C46_visualizations`, `C46_accepted_types`,
`C47_pd_rejected_partial`, `C47_pd_rejected_refuted`, `C47_forest_partial`, `C47_forest_refuted`,
`C47_split_partial`, `C47_split_tables_partial`, `C47_split_refuted`, `C48_rows`, `C48_all_nodes`,
`C48_roots`, `C48_root_counts`, `C48_fit`, `C48_root_frequency_partial`,
`C48_root_frequency_refuted`, `C49_order_partial`, `C49_order_refuted`, `C50_self_refuted`,
`C50_unknown_method`, `C51_names_partial`, `C51_names_refuted`, `C52_codes_partial`,
`C52_codes_refuted`, `C53_summary_partial`, `C53_first_plot_partial`, `C53_box_refuted`,
`C54_points`, `C54_not_fitted`, `C54_plot_not_fitted`, `C54_no_pairs`, `C54_summary_labels`,
`C55_heatmap_partial`, `C55_symmetric_partial`, `C55_colours`, `C55_split_refuted`,
`C56_ready_partial`, `C56_no_importance_partial`, `C56_isolated_node_partial`,
`C56_friedman_partial`, `C56_greenwell_partial`, `C56_friedman_no_ova_partial`,
`C56_sejong_partial`, `C56_split_partial`, `C56_friedman_refuted`, `C56_forest_refuted`,
`C56_split_refuted`, `C57_all_irrelevant_refuted`, `C57_split_refuted`, `C58_refuted`,
`C59_graph_partial`, `C59_refuted`, `C60_path`, `C60_distinct`, `C60_outcome`, `C60_fitted`,
`C60_default_length`, `C61_range`, `C62_ova_fresh_partial`, `C62_never_requested_partial`,
`C62_stale_ova_refuted`, `C63_pd`, `C63_sejong`, `C63_forest`, `C63_split`,
`C65_documented_function`, `C65_fit_explains_it`, `C66_fit_succeeds_partial`, `C66_iff_partial`,
`C66_excluded_column_refuted`, `C67_single_rejected`, `C68_names_irrelevant_partial`,
`C68_names_irrelevant_refuted`, `C69_fit_succeeds_partial`, `C69_fit_refuted`,
`C70_lightgbm_partial`, `C70_leaf_name_refuted`, `C71_refuted`, `C71_cut_refuted`,
`C72_titles_partial`, `C72_ova_partial`, `C72_refuted`, `C73_pairs`, `C73_features`, `C74_labels`,
`C74_none`, `C75_conditional`, `C76_heatmap_partial`, `C76_bars`, `C76_refuted`, `C77_panels`,
`C78_single`, `C78_pair`, `C78_friedman_refuted`, `C78_outside_refuted`, `C78_refused`,
`C79_labels_partial`, `C79_last_label_refuted`, `C80_before_fit_partial`, `C80_before_fit_refuted`,
`C81_tight_partial`, `C81_exact_partial`, `C81_tight_refuted`, `C82_missing_refuted`,
`C82_case_refuted`, `C82_ascending_refuted`, `C83_split`, `C83_split_graph`, `C83_forest`,
`C83_agnostic`, `C84_greenwell_partial`, `C84_friedman_refuted`, `C88_restriction_partial`,
`C88_restriction_works`, `C88_weighted_root_refuted`, `C89_handler_partial`, `C89_model_refuted`,
`C89_default_metric_refuted`, `C89_given_trees_partial`, `C90_value`, `C90_unknown`, `C90_agrees`,
`C90_agrees_pairs`, `C90_remove_element`, `C90_remove_unknown`, `C91_always_fails_refuted`,
`C92_request_size`, `C92_rows_any_model`, `C92_rows`, `C93_zero_or_one_partial`,
`C93_unused_refuted`, `C94_nonnegative`, `C95_constant_partial`, `C95_constant_refuted`,
`C96_at_most_one`, `C97_calls`, `C97_fits`, `C97_first_order`, `C97_additivity`, `C97_importance`,
`C98_known_values_partial`, `C98_stale_refuted`, `C99_pd_partial`, `C99_additivity_partial`,
`C99_forest`, `C99_split`, `C99_performance_partial`, `C99_sampled_refuted`,
`C99_performance_refuted`.

**`sig_forall_dec`, `sig_not_dec`, `functional_extensionality_dep`** (162 theorems):
`C103_sizes_partial`, `C103_fit_partial`, `C109_series_partial`, `C109_accuracy_partial`,
`C109_array_refuted`, `C111_value`, `C112_heatmap`, `C112_bars`, `C112_bars_ova`, `C113_points`,
`C113_missing`, `C115_value`, `C115_heatmap`, `C115_bars`, `C116_points`, `C116_missing`,
`C117_heatmap`, `C117_bars`, `C117_value`, `C118_value`, `C118_bars`, `C118_heatmap`,
`C119_dependence`, `C119_performance`, `C12_friedman_order`, `C120_points`, `C120_missing`,
`C121_same_order_partial`, `C121_alphabetical_partial`, `C122_box`, `C122_one_partial`,
`C122_one_refuted`, `C123_labels`, `C127_pairs`, `C127_one_versus_all`, `C127_greenwell`,
`C127_importance`, `C128_exact`, `C129_exact_partial`, `C13_friedman_ova_order`, `C130_importance`,
`C130_greenwell`, `C130_additivity`, `C132_noise`, `C132_range`, `C133_pairs_partial`,
`C133_one_versus_all_partial`, `C133_nearly_additive_partial`, `C133_order_partial`,
`C133_greenwell_partial`, `C133_importance_partial`, `C133_normalised_refuted`,
`C133_normalised_pairs_partial`, `C133_normalised_one_versus_all_partial`,
`C133_normalised_nearly_additive_partial`, `C133_additivity_partial`,
`C133_nearly_additive_index_partial`, `C134_pairs`, `C134_one_versus_all`, `C134_importance`,
`C134_greenwell`, `C134_returns`, `C134_repeated`, `C134_normalised_pairs`,
`C134_normalised_one_versus_all`, `C134_additivity`, `C134_additivity_near_one`,
`C134_additivity_returns`, `C134_order`, `C134_one_versus_all_order`, `C134_additivity_repeated`,
`C135_pair_term`, `C135_one_versus_all_term`, `C135_pair_share`, `C135_one_versus_all_share`,
`C135_additivity_share`, `C136_pairs`, `C136_one_versus_all`, `C136_normalised_pairs`,
`C136_normalised_one_versus_all`, `C136_no_interaction`, `C136_order`, `C137_importance`,
`C137_importance_order`, `C137_additivity`, `C138_metric`, `C138_pairs`, `C138_importance`,
`C138_fit_importance`, `C139_shuffled`, `C139_importance`, `C139_fit_importance`, `C139_pairs`,
`C139_separate`, `C139_separate_pairs`, `C14_no_interaction_pair`, `C14_no_interaction_ova`,
`C145_rmse`, `C145_mse`, `C145_pairs`, `C145_importance`, `C145_order`, `C145_accuracy_jumps`,
`C146_pairs`, `C146_importance`, `C146_order`, `C147_rmse`, `C147_mse`, `C147_returns`,
`C147_pairs`, `C147_importance`, `C147_unused`, `C147_order`, `C147_repeated`, `C15_nonnegative`,
`C15_symmetric`, `C15_affine`, `C16_bounded_partial`, `C17_greenwell_pairs`, `C18_greenwell_zero`,
`C18_greenwell_nonnegative`, `C20_importance`, `C20_fit_importance`,
`C22_calculator_importance_partial`, `C23_additive_model`, `C23_at_most_one`,
`C23_one_means_additive`, `C24_in_unit_interval_partial`, `C25_interaction_values`,
`C27_irrelevant_pair_zero`, `C27_irrelevant_feature_zero`, `C28_one_irrelevant_partial`,
`C31_importance_values`, `C32_all_columns_partial`, `C33_mse`, `C33_rmse`, `C33_accuracy`,
`C33_applicability`, `C40_mean_of_directions_partial`, `C43_values_real`, `C43_totals_real`,
`C48_weighted_real`, `C50_bounded`, `C50_symmetric`, `C50_self_partial`, `C50_self_plain_partial`,
`C56_forest_partial`, `C56_forest_unused_partial`, `C57_widths_partial`, `C58_widths_partial`,
`C58_strongest_partial`, `C64_left_half_circle`, `C71_roots_partial`, `C71_nodes_partial`,
`C82_order_partial`, `C85_features`, `C86_layout`, `C86_layout_additivity`, `C87_greenwell`,
`C87_importance`, `C87_additivity`, `C95_exact_partial`.

**`sig_forall_dec`, `functional_extensionality_dep`** (2 theorems):
`C136_partial_dependence`, `C139_all_draws`.
