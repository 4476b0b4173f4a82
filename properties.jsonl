{"id": "C01", "title": "n_jobs never changes results", "statement": "For every list of group-time tasks and every order in which worker threads finish, att_gt(n_jobs=k) assembles exactly the list that n_jobs=1 produces: same cells, same order, one result per cell.", "quantifier": "all task functions, all task lists, all completion orders (permutations)", "why_tests_cant": "The completion order of a thread pool is nondeterministic; a test observes a handful of schedules out of n! of them.", "anchors": ["moderndid/core/parallel.py:parallel_map", "moderndid/did/compute_att_gt.py:compute_att_gt"]}
{"id": "C02", "title": "Tree reduction equals sequential reduction and terminates", "statement": "Combining per-partition statistics with the Dask tree reduction gives, for every number of partitions >= 1 and every fan-in >= 2, the same value as combining them left to right, whenever the combiner is associative; it always terminates, uses every partition exactly once, and preserves order.", "quantifier": "all partition lists, all fan-ins >= 2, all associative combiners", "why_tests_cant": "Partition counts and fan-in combinations are unbounded; off-by-one grouping bugs show only at particular residues.", "anchors": ["moderndid/dask/_gram.py:tree_reduce", "moderndid/distributed/_gram.py:_reduce_group"]}
{"id": "C03", "title": "Gram statistics are independent of the partitioning", "statement": "The weighted Gram matrix X'WX, right-hand side X'Wy and row count obtained by splitting the rows over any number of workers (in any contiguous or permuted split, with empty partitions allowed) equal those of the undivided data, so distributed regression solves the same normal equations as the single-machine regression.", "quantifier": "all design matrices, weights, responses, and all ways to split them into partitions", "why_tests_cant": "The number of ways to split rows is exponential; tests fix a few partition counts.", "anchors": ["moderndid/distributed/_gram.py:partition_gram", "moderndid/distributed/_gram.py:_sum_gram_pair", "moderndid/distributed/_utils.py:_reduce_gram_list", "moderndid/dask/_gram.py:distributed_gram", "moderndid/distributed/_regression.py:wls_from_partition_list"]}
{"id": "C04", "title": "Tiled Gram computation equals the direct one", "statement": "weighted_gram returns the same Gram matrix and right-hand side whatever block_size >= 1 is used; each entry (i,j) is the weighted inner product of columns i and j and the result is symmetric.", "quantifier": "all matrices, weight vectors, column counts and block sizes", "why_tests_cant": "The tiled branch only runs for k > 128 columns; tests rarely build such designs and can only sample the block boundaries.", "anchors": ["moderndid/distributed/_gram.py:weighted_gram"]}
{"id": "C05", "title": "Distributed DiD cell equals the pooled computation", "statement": "For one group-time cell the distributed ATT and every unit's influence value computed from summed per-partition statistics equal the values computed on the concatenated data, for the dr, ipw and reg methods, for every partitioning of the units (including partitions with only treated, only control, or no units).", "quantifier": "all unit data, fitted scores/regressions, trimming levels and partitionings", "why_tests_cant": "Partitionings are unbounded in number and skewed partitions (all treated/empty) are rarely exercised.", "anchors": ["moderndid/distributed/_did_partition.py:_partition_did_global_stats", "moderndid/distributed/_did_partition.py:_partition_compute_did_if", "moderndid/distributed/_utils.py:sum_global_stats"]}
{"id": "C06", "title": "Group encoding of never-treated units", "statement": "After preprocessing, a unit's group is infinity exactly when the user coded 0 or infinity or a first-treatment date after the last observed period; every other group code is unchanged, and no group code outside the input appears.", "quantifier": "all datasets and group codings", "why_tests_cant": "Requires reasoning about every combination of group code and observed period range.", "anchors": ["moderndid/core/preprocess/transformers.py:TreatmentEncoder"]}
{"id": "C07", "title": "Already-treated units are removed and every remaining cohort has a usable base period", "statement": "After preprocessing no retained unit has a treatment date at or before first_period + anticipation, no eligible unit is removed by that step, and consequently every remaining finite cohort g has at least one observed period strictly before g - anticipation, so estimation never fails for want of a base period.", "quantifier": "all datasets, anticipation values and control-group settings", "why_tests_cant": "A missing base period would raise only for particular gap patterns between periods and cohorts.", "anchors": ["moderndid/core/preprocess/transformers.py:EarlyTreatmentFilter", "moderndid/core/preprocess/transformers.py:ControlGroupCreator", "moderndid/did/compute_att_gt.py:run_att_gt_estimation"]}
{"id": "C08", "title": "A comparison group always exists after control-group construction", "statement": "When the data contain no never-treated units and control_group='nevertreated', preprocessing re-labels exactly the last cohort as never treated and removes exactly the periods from latest_g - anticipation on, so no remaining observation of the re-labelled units is post-treatment (or within its anticipation window); with 'notyettreated' only the periods are removed.", "quantifier": "all datasets without never-treated units", "why_tests_cant": "Holds over all cohort/period configurations, including irregular spacing.", "anchors": ["moderndid/core/preprocess/transformers.py:ControlGroupCreator"]}
{"id": "C09", "title": "Balancing keeps exactly the fully observed units", "statement": "With allow_unbalanced_panel=False, the retained units are exactly the units observed once in every period of the data, every retained row is an input row in its original order, and the result has (#units x #periods) rows; applying the balancing again changes nothing.", "quantifier": "all panels without duplicate (unit, period) rows", "why_tests_cant": "Any missing-pattern may occur; the row-count shortcut used is right only under the duplicate-freeness check, which must be shown to suffice.", "anchors": ["moderndid/core/preprocess/transformers.py:PanelBalancer", "moderndid/core/preprocess/utils.py:make_balanced_panel", "moderndid/core/preprocess/validators.py:PanelStructureValidator"]}
{"id": "C10", "title": "Unit alignment of the panel tensors", "statement": "For every balanced panel, position i of the period-t outcome vector, of the unit-level group vector and of the unit-level weight vector refers to the same unit for every t, whatever the input row order.", "quantifier": "all balanced panels, all input row orders", "why_tests_cant": "Misalignment is silent: numbers still come out. It must hold for every sort order and cohort mix.", "anchors": ["moderndid/core/preprocess/tensors.py:PanelTensorFactory.create_outcomes_tensor", "moderndid/core/preprocess/tensors.py:BaseTensorFactory.create_time_invariant_data", "moderndid/core/preprocess/transformers.py:DataSorter"]}
{"id": "C11", "title": "Treated and comparison sets of an ATT(g,t) cell are exactly the documented ones", "statement": "In each cell the units marked treated are exactly those with group g; the units marked comparison are exactly the never-treated ones ('nevertreated') or exactly the units, other than group g, whose group exceeds the later of the evaluated and base period by more than the anticipation window ('notyettreated'); all other units are excluded.", "quantifier": "all balanced panels, cohort sets, cells (g,t), both control-group modes, both base-period modes, all anticipation values", "why_tests_cant": "The panel path computes this by offset arithmetic on cohort block sizes; only a proof covers every block layout.", "anchors": ["moderndid/did/compute_att_gt.py:get_did_cohort_index"]}
{"id": "C12", "title": "No forbidden comparisons", "statement": "No unit that is treated (or inside its anticipation window) at the evaluated period or at the base period is ever used as a comparison unit in an ATT(g,t) cell.", "quantifier": "all panels, cells, control-group modes, base-period modes", "why_tests_cant": "This is the central validity guarantee versus TWFE; it must hold for every cohort/period configuration.", "anchors": ["moderndid/did/compute_att_gt.py:get_did_cohort_index", "moderndid/did/compute_att_gt.py:run_att_gt_estimation"]}
{"id": "C13", "title": "Base period selection", "statement": "For post-treatment cells (and for all cells with base_period='universal') the base period is the last observed period strictly before g - anticipation; for pre-treatment cells with base_period='varying' it is the period immediately preceding the evaluated one. The base period always precedes g - anticipation for post cells.", "quantifier": "all period lists (irregular spacing allowed), cohorts and anticipation values", "why_tests_cant": "Index arithmetic with the time_factor shift must be right for every period list.", "anchors": ["moderndid/did/compute_att_gt.py:run_att_gt_estimation"]}
{"id": "C14", "title": "Cell enumeration of att_gt", "statement": "The reported (group,time) pairs are pairwise distinct and sorted by group then time; with 'varying' every evaluated time is a period after the first, with 'universal' every period of every cohort is reported, the cell at the base period reports an effect of exactly 0 with zero influence; the post flag is 1 exactly when group <= time.", "quantifier": "all preprocessed datasets", "why_tests_cant": "Which cells exist depends on feasibility of each 2x2; tests see a few designs.", "anchors": ["moderndid/did/compute_att_gt.py:compute_att_gt", "moderndid/did/compute_att_gt.py:_process_gt_cell_did"]}
{"id": "C15", "title": "Influence functions are supported on the cell's sample and correctly rescaled", "statement": "For each cell, units outside the cell's sample have influence exactly 0 and the population mean of the padded influence function equals the mean of the 2x2 influence function over the cell's sample.", "quantifier": "all cells and all 2x2 influence vectors", "why_tests_cant": "The n/n1 rescaling must be right for every sample split.", "anchors": ["moderndid/did/compute_att_gt.py:run_drdid"]}
{"id": "C16", "title": "Unbalanced-panel influence rows line up with the unit-level group vector", "statement": "When panel data are analysed as an unbalanced panel (panel=False, allow_unbalanced_panel=True), row i of the returned influence-function matrix and entry i of the returned unit-level group vector refer to the same unit, so aggte may combine them row by row.", "quantifier": "all unbalanced panels", "why_tests_cant": "Misalignment is silent and depends on the relation between id order and (time, group, id) order.", "anchors": ["moderndid/did/compute_att_gt.py:run_drdid", "moderndid/core/preprocess/tensors.py:BaseTensorFactory.create_time_invariant_data", "moderndid/did/compute_aggte.py:compute_aggte"]}
{"id": "C17", "title": "Aggregates are convex combinations of the ATT(g,t)'s they cover", "statement": "For each aggregation type every reported effect is a weighted average of the covered ATT(g,t) with nonnegative weights summing to one; hence it lies between their minimum and maximum and equals c if they all equal c.", "quantifier": "all sets of ATT(g,t), group probabilities, types, event windows", "why_tests_cant": "Weights are data-dependent; only a proof covers all.", "anchors": ["moderndid/did/compute_aggte.py:_compute_simple_att", "moderndid/did/compute_aggte.py:_compute_dynamic_att", "moderndid/did/compute_aggte.py:_compute_calendar_att", "moderndid/did/compute_aggte.py:_compute_group_att"]}
{"id": "C18", "title": "Overall group effect covers only cohorts that have an effect", "statement": "The overall effect of type='group' is the probability-weighted average of the reported group effects; cohorts for which no post-treatment effect exists do not influence it.", "quantifier": "all MPResults", "why_tests_cant": "Whether a cohort has no post cell depends on the design.", "anchors": ["moderndid/did/compute_aggte.py:_compute_group_att"]}
{"id": "C19", "title": "Time recoding is order preserving and lossless", "statement": "The internal recoding of periods/groups to 1..K preserves order and equality of all group and time values, and converting back returns the original value; the vectorised lookup agrees with the scalar one for every input including values not in the list.", "quantifier": "all finite sets of period and group values, all query values", "why_tests_cant": "searchsorted boundary behaviour must be right for every value.", "anchors": ["moderndid/did/compute_aggte.py:_orig2t", "moderndid/did/compute_aggte.py:_orig2t_array", "moderndid/did/compute_aggte.py:_t2orig"]}
{"id": "C20", "title": "Event-study aggregation uses exactly the matching event time", "statement": "theta_es(e) averages exactly the cells with time - group = e (and group eligible under balance_e) with weights proportional to the group probabilities; reported event times are exactly those present within [min_e, max_e], strictly increasing.", "quantifier": "all cell sets, windows and balance_e values", "why_tests_cant": "Windows, gaps and balance restrictions interact.", "anchors": ["moderndid/did/compute_aggte.py:_compute_dynamic_att"]}
{"id": "C21", "title": "balance_e keeps the composition of groups constant", "statement": "With balance_e set, the set of cohorts averaged is the same at every reported event time.", "quantifier": "all complete group-time grids, all balance_e values", "why_tests_cant": "Composition depends on the joint pattern of cohorts and periods.", "anchors": ["moderndid/did/compute_aggte.py:_compute_dynamic_att"]}
{"id": "C22", "title": "Weight-estimation influence is the exact derivative of the weights and nets to zero", "statement": "The adjustment for estimated aggregation weights sums to zero across the averaged cells for every unit, averages to zero across units for every cell, and is the directional derivative of the normalised weights with respect to the group probabilities.", "quantifier": "all unit weights, unit groups and kept cells", "why_tests_cant": "An algebraic identity over arbitrary real data.", "anchors": ["moderndid/did/compute_aggte.py:_compute_weight_inf_func"]}
{"id": "C23", "title": "max_e is measured in event time for every aggregation type", "statement": "With max_e = m, no aggregate includes an ATT(g,t) with t - g > m.", "quantifier": "all period lists, including irregularly spaced ones", "why_tests_cant": "Requires irregular spacing combined with windowing; a universally quantified statement.", "anchors": ["moderndid/did/compute_aggte.py:compute_aggte"]}
{"id": "C24", "title": "Sampling weights passed to att_gt reach the aggregation", "statement": "If att_gt is called with weightsname=w, the group probabilities used by aggte are weighted by that column, whatever the column is called.", "quantifier": "all column names and weight columns", "why_tests_cant": "Depends on the name of the column; tests use one name.", "anchors": ["moderndid/core/preprocess/tensors.py:BaseTensorFactory.create_time_invariant_data", "moderndid/did/att_gt.py:att_gt", "moderndid/did/compute_aggte.py:compute_aggte"]}
{"id": "C25", "title": "Two-period DR estimator: invariances and reduction to the 2x2 mean difference", "statement": "For the panel estimators (dr, ipw, reg): adding a constant to every outcome change leaves the ATT unchanged; multiplying outcomes by c multiplies it by c; multiplying all sampling weights by a positive constant changes nothing; reordering units changes nothing; without covariates all three equal the weighted difference in mean outcome changes between treated and comparison units.", "quantifier": "all outcome, treatment, weight vectors; all constants; all permutations", "why_tests_cant": "Identities over arbitrary real vectors.", "anchors": ["moderndid/drdid/estimators/drdid_panel.py:drdid_panel", "moderndid/drdid/estimators/std_ipw_did_panel.py", "moderndid/drdid/estimators/reg_did_panel.py"]}
{"id": "C26", "title": "Double robustness at the sample level", "statement": "If the outcome regression fits the untreated trend exactly in the comparison sample and treated sample means, or if the propensity weights balance the regressors exactly, the DR estimate equals the treated mean minus the corresponding counterfactual; in particular with exact balance the estimate does not depend on the regression coefficients.", "quantifier": "all data and all coefficient vectors", "why_tests_cant": "An algebraic identity over arbitrary real data.", "anchors": ["moderndid/drdid/estimators/drdid_panel.py:drdid_panel"]}
{"id": "C27", "title": "Influence functions average to zero and are the derivative of the estimate", "statement": "The influence function returned by the two-period DR/reg/ipw estimators averages exactly to zero over the estimation sample whenever the first-stage estimating equations (normal equations, score equations) hold. Moreover each unit's influence value is the derivative of the estimate with respect to that unit's weight: re-running the estimator with every weight multiplied by 1+e*h(unit) changes the estimate by e times the sample average of h times the influence values, to first order in e.", "quantifier": "all data, weight directions and first-stage solutions", "why_tests_cant": "Algebraic identity over arbitrary data.", "anchors": ["moderndid/drdid/estimators/drdid_panel.py:_compute_influence_function", "moderndid/drdid/estimators/reg_did_panel.py", "moderndid/drdid/estimators/std_ipw_did_panel.py"]}
{"id": "C28", "title": "Clustered bootstrap aggregates each cluster once", "statement": "In the multiplier bootstrap with clusters, each cluster receives one draw; a cluster's contribution is the average of its members' influence values, and results do not depend on the labels or order of clusters; with singleton clusters it coincides with the unclustered bootstrap.", "quantifier": "all influence matrices, cluster assignments and multiplier draws", "why_tests_cant": "Random draws and label permutations cannot be enumerated.", "anchors": ["moderndid/did/mboot.py:mboot"]}
{"id": "C29", "title": "DDD subgroup coding partitions the sample", "statement": "Every observation gets exactly one of the four subgroup codes and the code determines (treated cohort?, eligible?) and conversely.", "quantifier": "all treatment and partition vectors", "why_tests_cant": "Totality/injectivity over all codings.", "anchors": ["moderndid/core/preprocess/utils.py:create_ddd_subgroups"]}
{"id": "C30", "title": "First-treatment group derivation", "statement": "get_group assigns each unit the earliest period in which its treatment indicator is positive, and 0 if there is none, whatever the row order, and leaves all other columns and the row order unchanged.", "quantifier": "all datasets and row orders", "why_tests_cant": "Row orders and treatment paths are unbounded.", "anchors": ["moderndid/core/panel.py:get_group", "moderndid/core/preprocess/utils.py:get_group"]}
{"id": "C31", "title": "One influence row per unit", "statement": "Every column of the influence-function matrix returned by att_gt has exactly one entry per unit, i.e. as many rows as n_units and as the unit-level group vector.", "quantifier": "every input data set, configuration (panel / repeated cross-section / unbalanced), cell and 2x2 estimator", "why_tests_cant": "the claim ranges over all data layouts and estimators; tests exercise a few shapes", "anchors": ["moderndid/did/compute_att_gt.py:compute_att_gt", "moderndid/did/compute_att_gt.py:run_drdid", "moderndid/did/att_gt.py:att_gt"]}
{"id": "C32", "title": "A failed 2x2 estimation is never reported as a zero effect", "statement": "A group-time cell whose 2x2 estimation failed or produced no number is not reported as an effect of exactly zero.", "quantifier": "every cell of every data set, both base-period modes, every estimator outcome", "why_tests_cant": "failure of the estimator inside a cell can occur for any data; tests only see the successful cells", "anchors": ["moderndid/did/compute_att_gt.py:compute_att_gt", "moderndid/did/compute_att_gt.py:run_drdid", "moderndid/did/att_gt.py:att_gt"]}
{"id": "C33", "title": "att_gt does not crash on preprocessed data", "statement": "Group-time estimation on data accepted by preprocessing terminates with a result rather than an uncaught exception.", "quantifier": "every data set accepted by preprocessing and every configuration", "why_tests_cant": "crash freedom quantifies over every accepted data set", "anchors": ["moderndid/did/compute_att_gt.py:compute_att_gt", "moderndid/did/compute_att_gt.py:run_drdid", "moderndid/did/att_gt.py:att_gt"]}
{"id": "C34", "title": "An aggregate that covers no effect is not reported as a number", "statement": "If no ATT(g,t) qualifies for an aggregate (no post-treatment effect, no event time, no cohort), aggte reports it as missing rather than as a numerical effect.", "quantifier": "all MPResults, types and windows", "why_tests_cant": "whether an aggregate is empty depends on the design; tests use designs with effects everywhere", "anchors": ["moderndid/did/compute_aggte.py:_compute_simple_att", "moderndid/did/compute_aggte.py:_compute_dynamic_att", "moderndid/did/compute_aggte.py:_compute_group_att", "moderndid/did/compute_aggte.py:_compute_calendar_att"]}
{"id": "C35", "title": "Aggregation keeps influence functions centred", "statement": "If every ATT(g,t) influence function has one value per unit and averages to zero, so does every aggregated influence function, including the weight-estimation adjustment.", "quantifier": "all MPResults, unit weights, types and windows", "why_tests_cant": "an algebraic identity over arbitrary data", "anchors": ["moderndid/did/compute_aggte.py:_compute_simple_att", "moderndid/did/compute_aggte.py:_compute_dynamic_att", "moderndid/did/compute_aggte.py:_compute_group_att", "moderndid/did/compute_aggte.py:_compute_calendar_att", "moderndid/did/compute_aggte.py:_get_agg_inf_func"]}
{"id": "C36", "title": "The aggregated influence function is the derivative of the aggregate", "statement": "For every aggregation type, the influence values aggte reports for the overall and by-effects are the derivative of those effects when every unit's weight is perturbed and each ATT(g,t) moves as its own influence values say, including the part due to estimated weights.", "quantifier": "all MPResults, unit weights, perturbation directions, cell paths, types and windows", "why_tests_cant": "a derivative over all directions and all data; a test compares one number", "anchors": ["moderndid/did/compute_aggte.py:_get_agg_inf_func", "moderndid/did/compute_aggte.py:_compute_weight_inf_func", "moderndid/did/compute_aggte.py:_compute_group_att", "moderndid/did/compute_aggte.py:_compute_dynamic_att"]}
{"id": "C37", "title": "Analytical standard errors are those of the estimator on the cell's sample", "statement": "The standard error att_gt reports for a cell equals the one the two-period estimator computes on that cell's data (values summed within unit for unbalanced panels), and aggregates' variances follow from the covariance of the cells' influence functions.", "quantifier": "all panels, cells, estimators with centred influence functions and aggregations", "why_tests_cant": "the scaling must hold for every sample size and composition", "anchors": ["moderndid/did/att_gt.py:att_gt", "moderndid/did/compute_aggte.py:_compute_se", "moderndid/drdid/estimators/drdid_panel.py:drdid_panel"]}
{"id": "C38", "title": "Distributed driver: cell table and scheduling independence", "statement": "dask_att_gt_mp on panel data evaluates the grid of cohorts x periods (all periods for the universal base, all but the first for the varying base), uses for every cell the same base period and post flag as att_gt, and its reported rows (group, time, estimate, post flag, in that order) and their influence columns do not depend on the order in which cohorts finish on the cluster; row j and influence column j belong to the same (group, time) cell; chunked covariance equals the plain covariance for every chunk size.", "quantifier": "all period and cohort lists, anticipations, base modes, per-cell outcomes (estimate, dropped, raised) and all completion orders of the cohort tasks", "why_tests_cant": "completion orders and patterns of dropped cells are unbounded and non-deterministic; tests run one schedule", "anchors": ["moderndid/dask/_did_mp.py:dask_att_gt_mp", "moderndid/dask/_did_mp.py:_process_did_cohort_cells", "moderndid/distributed/_utils.py:chunked_vcov", "moderndid/distributed/_utils.py:auto_tune_partitions"]}
{"id": "C39", "title": "Distributed cell sample", "statement": "For every (g,t) cell, the distributed multi-period estimator on panel data uses each unit of cohort g and each comparison unit observed in both periods exactly once, with that unit's own outcomes, weight and covariates; the wide and the streamed path build the same sample; the treated and comparison units are those att_gt uses.", "quantifier": "all panels, cells, base periods, sets of needed periods and comparison-group choices", "why_tests_cant": "joins, filters and merge trees must select the right rows for every panel; tests compare estimates on a few designs", "anchors": ["moderndid/dask/_did_streaming.py:prepare_did_cell_partitions", "moderndid/dask/_utils.py:prepare_cohort_wide_pivot", "moderndid/distributed/_did_partition.py:_build_did_partition_arrays", "moderndid/distributed/_did_partition.py:_attach_cell_outcomes"]}
{"id": "C40", "title": "Bootstrap standard errors and uniform bands", "statement": "mboot reports for every parameter the interquartile range of its bootstrap draws / 1.3489795 / sqrt(number of clusters), never negative, and missing if the draws do not vary; its critical value is such that in at least floor((1-alp)(biters-1))+1 of the draws all parameters lie simultaneously within crit_val standard errors; measuring parameters in other units rescales the standard errors and leaves the critical value unchanged.", "quantifier": "all influence matrices, sample sizes, levels, multiplier draws and positive rescalings", "why_tests_cant": "quantiles of arbitrary draws; tests use one seed and tolerances", "anchors": ["moderndid/did/mboot.py:mboot"]}
{"id": "C41", "title": "Distributed bootstrap equals the local bootstrap", "statement": "Splitting the influence matrix over any number of partitions, drawing multipliers per partition and tree-reducing the sums yields exactly the bootstrap of the whole matrix with the same multipliers, and hence the same standard errors and critical value.", "quantifier": "all matrices, partitions, fan-ins and multiplier draws", "why_tests_cant": "partitionings and reduction orders cannot be enumerated; seeds differ between backends so tests cannot compare them", "anchors": ["moderndid/distributed/_bootstrap.py:_local_bootstrap", "moderndid/distributed/_bootstrap.py:compute_bootstrap_se", "moderndid/dask/_bootstrap.py:distributed_mboot_ddd"]}
{"id": "C42", "title": "Panel balance utilities agree and do what they say", "statement": "is_balanced_panel, not has_gaps and an empty scan_gaps are equivalent to: every unit is observed in every period. scan_gaps lists exactly the missing unit-period pairs; fill_panel_gaps keeps every row and adds exactly one null row per missing pair, leaving no gaps; complete_data keeps exactly the units with enough distinct periods; make_balanced_panel keeps exactly the fully observed units when no unit-period pair is duplicated.", "quantifier": "all frames with non-null unit and period columns, all orders in which polars returns unique values", "why_tests_cant": "Frames are unbounded; agreement of differently computed counts (pairs, rows, distinct periods) must hold for every pattern of gaps and duplicates.", "anchors": ["moderndid/core/panel.py:scan_gaps,has_gaps,fill_panel_gaps,complete_data", "moderndid/core/preprocess/utils.py:is_balanced_panel,make_balanced_panel"]}
{"id": "C43", "title": "Deduplication leaves one row per unit-period pair", "statement": "deduplicate_panel returns exactly one row for every observed unit-period pair and none for others; 'first'/'last' keep the first/last row of the pair in frame order, 'mean' averages the non-null numeric values and keeps the first row's other columns; a frame without duplicates is only permuted.", "quantifier": "all frames, all strategies, all output orders", "why_tests_cant": "Unbounded duplicate patterns and engine-dependent output order.", "anchors": ["moderndid/core/panel.py:deduplicate_panel"]}
{"id": "C44", "title": "diagnose_panel counts are exact and its suggestions work", "statement": "Each count reported by diagnose_panel is the cardinality of the set it names; a remedy is suggested exactly when the problem exists and applying the remedy clears it (duplicates, gaps, unbalanced units).", "quantifier": "all frames and treatment columns", "why_tests_cant": "Counts are derived by subtraction of other counts; they must match set cardinalities for every frame.", "anchors": ["moderndid/core/panel.py:diagnose_panel,are_varying"]}
{"id": "C45", "title": "First differences", "statement": "get_first_difference sorts by unit and period and sets dy to the outcome minus the outcome of the unit's previous observed period, null in the first period or when an outcome is null.", "quantifier": "all panels without duplicated pairs, all row orders", "why_tests_cant": "Row orders and gap patterns are unbounded.", "anchors": ["moderndid/core/preprocess/utils.py:get_first_difference"]}
{"id": "C46", "title": "Smoothness constraints mean what they say", "statement": "The constraint matrix and vector built for the smoothness restriction (optionally with a bias-sign or monotonicity restriction) are satisfied by a vector of period coefficients exactly when the trend it lists, taken as 0 at the reference period, has all second differences within M (and obeys the shape restriction); the post-treatment-only version keeps exactly the second differences touching a post period.", "quantifier": "all numbers of pre and post periods, all M, all trends, all shape restrictions", "why_tests_cant": "The matrix is built row by row from index arithmetic with the reference column deleted; equivalence must hold for every dimension and every trend.", "anchors": ["moderndid/didhonest/delta/sd/sd.py:_create_sd_constraint_matrix,_create_sd_constraint_vector", "moderndid/didhonest/delta/sd/sdb.py", "moderndid/didhonest/delta/sd/sdm.py", "moderndid/didhonest/bounds.py:create_sign_constraint_matrix,create_monotonicity_constraint_matrix", "moderndid/didhonest/numba.py"]}
{"id": "C47", "title": "Relative-magnitude constraints", "statement": "For each reference period and sign the constraint system holds exactly when the signed reference step dominates every pre-treatment step and, times Mbar, every post-treatment step; the union over references is Delta^RM(Mbar).", "quantifier": "all dimensions, Mbar, trends, reference periods and signs", "why_tests_cant": "A union of polyhedra over all reference periods; a test checks shapes, not set equality.", "anchors": ["moderndid/didhonest/delta/rm/rm.py:_create_relative_magnitudes_constraint_matrix,compute_identified_set_rm", "moderndid/didhonest/delta/rm/rmb.py", "moderndid/didhonest/delta/rm/rmm.py"]}
{"id": "C48", "title": "Second-difference relative-magnitude constraints", "statement": "The union over reference periods and signs of the systems used for the SDRM restrictions is exactly the set of trends whose post-treatment second differences are at most Mbar times the largest pre-treatment second difference, with the shape restriction.", "quantifier": "all dimensions, Mbar, trends, shapes", "why_tests_cant": "Set equality of a union of polyhedra for every dimension.", "anchors": ["moderndid/didhonest/delta/sdrm/sdrm.py", "moderndid/didhonest/delta/sdrm/sdrmb.py", "moderndid/didhonest/delta/sdrm/sdrmm.py", "moderndid/didhonest/numba.py:_create_sdrm_constraint_matrix_impl"]}
{"id": "C49", "title": "Identified set under smoothness", "statement": "compute_identified_set_sd (and its bias/monotone variants) returns the exact range of l'tau consistent with the pre-treatment coefficients and the restriction; the set is non-empty exactly when the pre-treatment second differences are within M.", "quantifier": "all coefficient vectors, weights l, M, dimensions, and any LP solver that meets its contract", "why_tests_cant": "Exactness of an optimum over an unbounded family of polyhedra, and the infeasible fallback.", "anchors": ["moderndid/didhonest/delta/sd/sd.py:compute_identified_set_sd", "moderndid/didhonest/delta/sd/sdb.py:compute_identified_set_sdb", "moderndid/didhonest/delta/sd/sdm.py:compute_identified_set_sdm"]}
{"id": "C50", "title": "Sensitivity intervals are nested in M", "statement": "A larger M gives an interval containing the one for a smaller M.", "quantifier": "all pairs M1 <= M2, coefficient vectors, weights, dimensions", "why_tests_cant": "Monotonicity over a continuum of M.", "anchors": ["moderndid/didhonest/delta/sd/sd.py:compute_identified_set_sd", "moderndid/didhonest/sensitivity.py"]}
{"id": "C51", "title": "Identified sets under relative magnitudes", "statement": "compute_identified_set_rm and compute_identified_set_sdrm return the exact range of l'tau consistent with the pre-treatment coefficients and the restriction.", "quantifier": "all coefficient vectors, weights, Mbar >= 0, dimensions, and any LP solver that meets its contract", "why_tests_cant": "Union over reference periods of LP optima with a fallback on failure.", "anchors": ["moderndid/didhonest/delta/rm/rm.py:compute_identified_set_rm,_compute_identified_set_rm_fixed_s", "moderndid/didhonest/delta/sdrm/sdrm.py:compute_identified_set_sdrm"]}
{"id": "C52", "title": "Pre-period constraints for the lower bound on M", "statement": "The constraint system behind compute_delta_sd_lowerbound_m holds at M exactly when the pre-treatment part of the trend is within smoothness M.", "quantifier": "all numbers of pre-periods, all M and coefficient vectors", "why_tests_cant": "Index arithmetic over every number of pre-periods.", "anchors": ["moderndid/didhonest/conditional.py:_create_pre_period_second_diff_constraints", "moderndid/didhonest/bounds.py:create_pre_period_constraint_matrix,compute_delta_sd_lowerbound_m"]}
{"id": "C53", "title": "The two-period triple difference is the combination of three two-group DiD estimates", "statement": "ddd_panel returns att = att(4 vs 3) + att(4 vs 2) - att(4 vs 1), where each comparison equals what the two-group panel estimator with the same est_method (drdid_panel, reg_did_panel, std_ipw_did_panel) returns when given only the units of subgroup 4 and of the comparison subgroup. Without covariates it is (mean dY_4 - mean dY_3) - (mean dY_2 - mean dY_1), with weighted means. An estimate is returned only if every subgroup has positive total weight, no weight is negative and all subgroup codes are 1..4.", "quantifier": "all samples, weights, covariates, est_methods and all nuisance fits that solve their estimating equations, with propensity scores inside the clipping range", "why_tests_cant": "Ranges over all samples, weights, covariates and fitted nuisance models; tests fix a handful of simulated data sets and compare to tolerance.", "anchors": ["moderndid/didtriple/estimators/ddd_panel.py: ddd_panel, _validate_inputs", "moderndid/didtriple/nuisance.py: compute_all_nuisances, compute_all_did, _compute_did, _compute_pscore, _compute_outcome_regression"]}
{"id": "C54", "title": "Common, state-level and eligibility-level shocks do not move the triple difference", "statement": "Adding to the post-period outcome a common shift, a shift for all treated-state units (subgroups 4 and 3) and a shift for all eligible units (subgroups 4 and 2), and to both periods an arbitrary unit-specific level, leaves ddd_panel's att and influence function unchanged; adding tau to the treated-eligible adds tau to att; rescaling outcomes by c rescales both.", "quantifier": "all samples, methods, shift sizes, unit levels and scale factors", "why_tests_cant": "Ranges over all samples, weights, covariates and fitted nuisance models; tests fix a handful of simulated data sets and compare to tolerance.", "anchors": ["moderndid/didtriple/estimators/ddd_panel.py: ddd_panel", "moderndid/didtriple/nuisance.py: _compute_did, _compute_inf_func"]}
{"id": "C55", "title": "The triple-difference influence function is centred and is the derivative of the estimate", "statement": "The influence function ddd_panel reports has one value per unit, sums to zero, and its average with any direction h is the derivative of att when each unit's weight is multiplied by 1 + e*h at e = 0 (including the effect through the re-estimated propensity scores and outcome regressions).", "quantifier": "all samples, directions, methods and nuisance fits (smooth logit fit near the sample)", "why_tests_cant": "Ranges over all samples, weights, covariates and fitted nuisance models; tests fix a handful of simulated data sets and compare to tolerance.", "anchors": ["moderndid/didtriple/nuisance.py: compute_all_did, _compute_inf_func", "moderndid/didtriple/estimators/ddd_panel.py: ddd_panel"]}
{"id": "C56", "title": "ddd_panel does not depend on weight scale or unit order", "statement": "Multiplying all weights by a positive constant changes nothing in ddd_panel's result or in whether it raises; permuting the units permutes the influence function and keeps every estimate.", "quantifier": "all samples, constants, permutations and methods", "why_tests_cant": "Ranges over all samples, weights, covariates and fitted nuisance models; tests fix a handful of simulated data sets and compare to tolerance.", "anchors": ["moderndid/didtriple/estimators/ddd_panel.py: ddd_panel"]}
{"id": "C57", "title": "Which group-time cells multi-period ddd reports, and what each estimates", "statement": "With more than two periods (panel data) ddd reports, once each, exactly the cells (g, t) of a treated cohort g and an observed period t (other than the first, with base_period='varying') that have a base period and are either the universal reference period or comparable with at least one control cohort; it raises iff there is none. The base period is the last period before g (universal) or the last period before min(g, t) (varying); the control cohorts are the never treated, plus under 'notyettreated' those treated after both t and the base period. The reference cell is 0; with one control cohort the estimate is the two-period triple difference on the units of the two cohorts observed in both periods; with several it is the pooled estimate of C59.", "quantifier": "all long panels with one row per unit and period, both control-group and base-period rules, all methods and nuisance fits", "why_tests_cant": "Ranges over all panels, cohort structures, control-group rules, base-period rules and fitted nuisance models; tests fix a handful of simulated panels and compare to tolerance.", "anchors": ["moderndid/didtriple/estimators/ddd_mp.py: ddd_mp, _process_gt_cell, _get_base_period, _get_cell_data, _process_single_control, _compute_single_ddd"]}
{"id": "C58", "title": "Standard errors and influence columns belong to the cell reported in the same position", "statement": "The j-th standard error and the j-th influence column of a multi-period ddd result are those of the j-th reported (g, t) cell: the column holds the influence values of the cell's comparison scaled to the number of units, zero elsewhere, and the squared standard error is sum(col^2)/n^2 (or the pooled one).", "quantifier": "all panels, including those in which some cells cannot be estimated", "why_tests_cant": "Ranges over all panels, cohort structures, control-group rules, base-period rules and fitted nuisance models; tests fix a handful of simulated panels and compare to tolerance.", "anchors": ["moderndid/didtriple/estimators/ddd_mp.py: ddd_mp, _update_inf_func_matrix, _process_gt_cell"]}
{"id": "C59", "title": "Pooling over control cohorts has minimum variance and ignores their order", "statement": "When a cell has several control cohorts, ddd pools the comparisons with weights that sum to one and minimise the sample variance of the combined influence values, so it is never larger than with any single control cohort; the order in which the control cohorts are listed does not matter.", "quantifier": "all sets of comparisons with invertible covariance matrix", "why_tests_cant": "Ranges over all panels, cohort structures, control-group rules, base-period rules and fitted nuisance models; tests fix a handful of simulated panels and compare to tolerance.", "anchors": ["moderndid/didtriple/estimators/ddd_mp.py: _process_multiple_controls, _gmm_aggregate"]}
{"id": "C60", "title": "The standard error of a pooled cell agrees with its influence column", "statement": "For a cell pooled over several control cohorts, the reported squared standard error is the one implied by the reported influence column, sum(col^2)/n^2, as for the other cells.", "quantifier": "all panels and pooled cells", "why_tests_cant": "Ranges over all panels, cohort structures, control-group rules, base-period rules and fitted nuisance models; tests fix a handful of simulated panels and compare to tolerance.", "anchors": ["moderndid/didtriple/estimators/ddd_mp.py: _process_multiple_controls, _gmm_aggregate, ddd_mp"]}
{"id": "C61", "title": "Multi-period ddd does not depend on the row order of the data", "statement": "Permuting the rows of the data changes nothing in the result: cells, estimates, influence columns and standard errors.", "quantifier": "all panels and permutations", "why_tests_cant": "Ranges over all panels, cohort structures, control-group rules, base-period rules and fitted nuisance models; tests fix a handful of simulated panels and compare to tolerance.", "anchors": ["moderndid/didtriple/estimators/ddd_mp.py: ddd_mp, _compute_single_ddd"]}
{"id": "C62", "title": "Sampling weights are used by ddd with more than two periods", "statement": "The estimates reported for a panel with more than two periods are weighted by the column named in weightsname, as with two periods.", "quantifier": "all panels and weight columns", "why_tests_cant": "Ranges over all panels, cohort structures, control-group rules, base-period rules and fitted nuisance models; tests fix a handful of simulated panels and compare to tolerance.", "anchors": ["moderndid/didtriple/ddd.py: ddd", "moderndid/didtriple/estimators/ddd_mp.py: ddd_mp, _compute_single_ddd"]}
{"id": "C63", "title": "Unit, cohort-period and eligibility-period shocks cancel and treatment effects pass through", "statement": "Adding to the outcomes arbitrary unit effects, cohort-by-period shocks and eligibility-by-period shocks leaves every estimate, influence column and standard error of multi-period ddd unchanged; adding an effect tau(g, t) to the eligible units of each cohort g from period g on adds exactly tau(g, t) to each post-treatment cell and nothing to pre-treatment cells.", "quantifier": "all panels with time-constant cohort and eligibility, all shocks and effects", "why_tests_cant": "Ranges over all panels, cohort structures, control-group rules, base-period rules and fitted nuisance models; tests fix a handful of simulated panels and compare to tolerance.", "anchors": ["moderndid/didtriple/estimators/ddd_mp.py: ddd_mp, _process_gt_cell, _compute_single_ddd, _gmm_aggregate"]}
{"id": "C64", "title": "agg_ddd reports averages of the cells it covers", "statement": "For every table of cell effects, agg_ddd reports under each key (cohort, event time, period) the average of the covered cells' effects: plain for 'group', otherwise weighted by the fraction of units in each cohort; the keys are exactly the documented ones (balance_e and window bounds included), the overall effect is the documented average of them, every value lies between the extremes of the cells averaged, and an error is raised exactly for invalid arguments, missing effects without dropna, or nothing to aggregate.", "quantifier": "all tables, types, windows, balance_e, dropna", "why_tests_cant": "quantifies over all tables of cells, panels, windows, unit populations", "anchors": ["moderndid/didtriple/compute_agg_ddd.py: compute_agg_ddd, _compute_simple, _compute_group, _compute_calendar, _compute_eventstudy", "moderndid/didtriple/agg_ddd.py: agg_ddd"]}
{"id": "C65", "title": "agg_ddd standard errors come from its influence functions", "statement": "Every reported standard error is the root mean square of the corresponding influence function over the root of the number of units (missing below the numerical floor or when there is no effect); the influence functions are the averages, with the same weights, of the cells' columns; they sum to zero when the cells' do.", "quantifier": "all tables and types", "why_tests_cant": "quantifies over all tables of cells, panels, windows, unit populations", "anchors": ["moderndid/didtriple/compute_agg_ddd.py: _compute_se, _get_agg_inf_func, _get_weight_influence"]}
{"id": "C66", "title": "agg_ddd influence functions are those of the reported aggregates", "statement": "The influence function of every aggregate is the derivative of that aggregate with respect to the unit weights, given those of the cells, the estimated cohort shares included.", "quantifier": "all tables, directions of unit weights and paths of cell estimates", "why_tests_cant": "quantifies over all tables of cells, panels, windows, unit populations", "anchors": ["moderndid/didtriple/compute_agg_ddd.py: _get_weight_influence, _compute_simple, _compute_calendar, _compute_eventstudy"]}
{"id": "C67", "title": "A cohort without an effect does not enter the overall group effect", "statement": "The overall effect of type 'group' is the share-weighted average of the cohort effects that exist; cohorts for which nothing could be estimated do not pull it towards zero.", "quantifier": "all tables", "why_tests_cant": "quantifies over all tables of cells, panels, windows, unit populations", "anchors": ["moderndid/didtriple/compute_agg_ddd.py: _compute_group"]}
{"id": "C68", "title": "Event-time windows and balancing of agg_ddd are in event time", "statement": "max_e keeps exactly the cells whose event time t - g is at most max_e, for every aggregation type, and with balance_e = b the event times 0..b average the same cohorts.", "quantifier": "all tables, windows, balance_e", "why_tests_cant": "quantifies over all tables of cells, panels, windows, unit populations", "anchors": ["moderndid/didtriple/compute_agg_ddd.py: compute_agg_ddd, _compute_simple, _compute_group, _compute_eventstudy"]}
{"id": "C69", "title": "From panel data to aggregated triple differences", "statement": "On the output of multi-period ddd, adding unit effects, cohort-by-period and eligibility-by-period shocks to the outcomes changes no aggregate, and a treatment effect tau(g,t) moves every aggregate by exactly the same aggregate of tau; standard errors are those of the cells aggregated.", "quantifier": "all panels with time-constant cohort and eligibility, all shocks and effects, all aggregation types", "why_tests_cant": "quantifies over all tables of cells, panels, windows, unit populations", "anchors": ["moderndid/didtriple/ddd_mp.py: ddd_mp", "moderndid/didtriple/compute_agg_ddd.py: compute_agg_ddd", "moderndid/didtriple/agg_ddd.py: agg_ddd"]}
{"id": "C70", "title": "did_multiplegt effects are the documented DID_l", "statement": "For every panel and horizon l, the reported effect is the (weighted) average over the groups whose treatment changes at F_g and that are observed at F_g-1 and F_g-1+l of S_g times their outcome change minus the weighted average change of the groups with the same baseline treatment that have not changed by F_g-1+l.", "quantifier": "all panels, weights, directions, horizons, only_never_switchers, trends_nonparam", "why_tests_cant": "quantifies over all panels (treatment paths, gaps, outcomes), options and horizons", "anchors": ["moderndid/didinter/did_multiplegt.py: did_multiplegt", "moderndid/didinter/compute_did_multiplegt.py: _compute_did_effects", "moderndid/core/preprocess/transformers.py: SwitcherIdentifier, FgVariationFilter, ControlsTimeFilter, DIDInterPanelBalancer, DIDInterDataPreparer"]}
{"id": "C71", "title": "did_multiplegt placebos are the documented placebo DIDs", "statement": "For every panel, the placebo at horizon l is the same average with the change from F_g-1 to F_g-1-l, over the groups for which it is defined; it is missing otherwise.", "quantifier": "all panels, horizons", "why_tests_cant": "quantifies over all panels (treatment paths, gaps, outcomes), options and horizons", "anchors": ["moderndid/didinter/did_multiplegt.py: did_multiplegt", "moderndid/didinter/compute_did_multiplegt.py: _compute_did_effects"]}
{"id": "C72", "title": "Exactly the estimable horizons are reported", "statement": "An effect is reported for a requested horizon exactly when some group has an estimable effect at that horizon, and never more horizons than requested.", "quantifier": "all panels, numbers of requested effects and placebos", "why_tests_cant": "quantifies over all panels (treatment paths, gaps, outcomes), options and horizons", "anchors": ["moderndid/didinter/did_multiplegt.py: did_multiplegt", "moderndid/didinter/compute_did_multiplegt.py: _compute_did_effects", "moderndid/core/preprocess/transformers.py: DIDInterConfigUpdater"]}
{"id": "C73", "title": "did_multiplegt removes unit effects and is equivariant to the scale of the outcome", "statement": "Replacing every outcome Y_gt by k*Y_gt + a_g multiplies every effect and placebo by k and every standard error by |k|, for every configuration.", "quantifier": "all panels (no regularity assumed), all k and a, all options", "why_tests_cant": "quantifies over all panels (treatment paths, gaps, outcomes), options and horizons", "anchors": ["moderndid/didinter/did_multiplegt.py: did_multiplegt", "moderndid/didinter/compute_did_multiplegt.py: _compute_did_effects", "moderndid/didinter/variance.py: compute_e_hat, compute_dof_scaling, compute_clustered_variance"]}
{"id": "C74", "title": "Shocks common to a baseline group do not matter", "statement": "Adding to the outcomes a period effect common to the units with the same baseline treatment (and the same trends_nonparam values) changes no effect and no placebo.", "quantifier": "all panels, all shocks", "why_tests_cant": "quantifies over all panels (treatment paths, gaps, outcomes), options and horizons", "anchors": ["moderndid/didinter/did_multiplegt.py: did_multiplegt", "moderndid/didinter/compute_did_multiplegt.py: _compute_did_effects"]}
{"id": "C75", "title": "Under common trends did_multiplegt recovers the average effect and placebos vanish", "statement": "If outcomes follow unit effects plus period effects of the baseline group plus tau(g,t) from the first change on, every effect equals the weighted average of tau(g,F_g-1+l) over the groups of that horizon and every placebo is exactly zero.", "quantifier": "all panels, unit effects, trends, heterogeneous dynamic effects", "why_tests_cant": "quantifies over all panels (treatment paths, gaps, outcomes), options and horizons", "anchors": ["moderndid/didinter/did_multiplegt.py: did_multiplegt", "moderndid/didinter/compute_did_multiplegt.py: _compute_did_effects"]}
{"id": "C76", "title": "Row order does not matter for did_multiplegt", "statement": "Reordering the rows of the input changes no estimate and no standard error.", "quantifier": "all panels and permutations, all options", "why_tests_cant": "quantifies over all panels (treatment paths, gaps, outcomes), options and horizons", "anchors": ["moderndid/didinter/did_multiplegt.py: did_multiplegt", "moderndid/core/preprocess/transformers.py: get_didinter_pipeline"]}
{"id": "C77", "title": "trends_lin removes unit-specific linear trends", "statement": "With trends_lin=True, adding a_g + b_g*t to the outcomes changes no estimate and no standard error.", "quantifier": "all panels, all unit trends", "why_tests_cant": "quantifies over all panels (treatment paths, gaps, outcomes), options and horizons", "anchors": ["moderndid/didinter/did_multiplegt.py: did_multiplegt", "moderndid/core/preprocess/transformers.py: TrendsLinTransformer", "moderndid/didinter/compute_did_multiplegt.py: _apply_trends_lin"]}
{"id": "C78", "title": "Normalized effects are effects per unit of cumulative treatment change", "statement": "With normalized=True every effect is divided by the average absolute cumulative change of treatment over the exposure; standard errors stay non-negative.", "quantifier": "all panels, horizons", "why_tests_cant": "quantifies over all panels (treatment paths, gaps, outcomes), options and horizons", "anchors": ["moderndid/didinter/did_multiplegt.py: did_multiplegt", "moderndid/didinter/compute_did_multiplegt.py: _compute_delta_d, _compute_did_effects"]}
{"id": "C79", "title": "The average total effect is total effect over total treatment change", "statement": "The reported ATE equals the sum over horizons and switching groups of their effects divided by the sum of their treatment changes D_{g,F_g-1+l} - D_{g,1}.", "quantifier": "all panels, numbers of effects", "why_tests_cant": "quantifies over all panels (treatment paths, gaps, outcomes), options and horizons", "anchors": ["moderndid/didinter/did_multiplegt.py: did_multiplegt", "moderndid/didinter/compute_did_multiplegt.py: _compute_ate"]}
{"id": "C80", "title": "same_switchers compares the same groups across horizons", "statement": "With same_switchers=True all effect horizons are computed from the same switching groups, with same_switchers_pl=True all placebo horizons, whatever the other options.", "quantifier": "all panels, horizons, combinations of the two options", "why_tests_cant": "quantifies over all panels (treatment paths, gaps, outcomes), options and horizons", "anchors": ["moderndid/didinter/did_multiplegt.py: did_multiplegt", "moderndid/didinter/compute_did_multiplegt.py: compute_same_switchers_mask"]}
{"id": "C81", "title": "No already-changed group serves as a control", "statement": "The outcome of a group after its first treatment change affects the effect of horizon l only through that group's own period F_g-1+l, and affects no placebo.", "quantifier": "all panels (missing treatments included), all modifications of outcomes", "why_tests_cant": "quantifies over all panels (treatment paths, gaps, outcomes), options and horizons", "anchors": ["moderndid/didinter/did_multiplegt.py: did_multiplegt", "moderndid/didinter/compute_did_multiplegt.py: _compute_did_effects", "moderndid/core/preprocess/transformers.py: SwitcherIdentifier"]}
{"id": "C82", "title": "Groups that have not changed yet are controls", "statement": "By default a group whose treatment has not changed by a period is a control in that period for the groups with the same baseline, so effects are estimable without never-changing groups.", "quantifier": "all panels", "why_tests_cant": "quantifies over all panels (treatment paths, gaps, outcomes), options and horizons", "anchors": ["moderndid/didinter/did_multiplegt.py: did_multiplegt", "moderndid/core/preprocess/transformers.py: ControlsTimeFilter"]}
{"id": "C83", "title": "Clustering at the unit level gives the unclustered standard error", "statement": "With one cluster per unit the clustered standard errors of did_multiplegt equal the unclustered ones, in balanced and unbalanced panels.", "quantifier": "all panels", "why_tests_cant": "quantifies over all panels (treatment paths, gaps, outcomes), options and horizons", "anchors": ["moderndid/didinter/compute_did_multiplegt.py: _compute_did_effects", "moderndid/didinter/variance.py: compute_cohort_dof, compute_control_dof, compute_union_dof, compute_clustered_variance"]}
{"id": "C84", "title": "Groups whose treatment goes both above and below its baseline are dropped", "statement": "By default (keep_bidirectional_switchers=False) a group whose treatment goes both above and below its baseline does not contribute to the estimates.", "quantifier": "all panels", "why_tests_cant": "quantifies over all panels (treatment paths, gaps, outcomes), options and horizons", "anchors": ["moderndid/didinter/did_multiplegt.py: did_multiplegt", "moderndid/core/preprocess/transformers.py: SwitcherIdentifier"]}
{"id": "C85", "title": "The numbering of periods does not matter for did_multiplegt", "statement": "Adding a constant to all period numbers changes no estimate and no standard error, and only the order of the periods matters.", "quantifier": "all panels, all shifts", "why_tests_cant": "quantifies over all panels (treatment paths, gaps, outcomes), options and horizons", "anchors": ["moderndid/didinter/did_multiplegt.py: did_multiplegt", "moderndid/didinter/compute_did_multiplegt.py: _compute_did_effects", "moderndid/core/preprocess/transformers.py: SwitcherIdentifier, FgVariationFilter"]}
{"id": "C86", "title": "The scale of the sampling weights does not matter for did_multiplegt", "statement": "Multiplying all sampling weights by a positive constant changes no estimate.", "quantifier": "all weighted panels, all positive constants", "why_tests_cant": "quantifies over all panels (treatment paths, gaps, outcomes), options and horizons", "anchors": ["moderndid/didinter/did_multiplegt.py: did_multiplegt", "moderndid/didinter/compute_did_multiplegt.py: _compute_did_effects"]}
{"id": "C87", "title": "The standard error of did_multiplegt is the two-sample one when there is one experiment", "statement": "In every panel whose used units share the baseline treatment and either switch in the same period f to the same treatment or never switch, all observed at f-1 and f-1+l, with at least two units in each arm and no weights or clusters, the effect (and the placebo) is the difference of the mean outcome changes of the two arms and its squared standard error is s1^2/n1 + s0^2/n0 with the sample variances s^2 (divisor n-1; divisor n with less_conservative_se).", "quantifier": "all panels with one experiment, all horizons, effects and placebos, both variance conventions", "why_tests_cant": "a formula for every panel, arm size and outcome; a test checks single numbers", "anchors": ["moderndid/didinter/compute_did_multiplegt.py: _compute_did_effects", "moderndid/didinter/variance.py: compute_cohort_dof, compute_control_dof, compute_e_hat, compute_dof_scaling, compute_clustered_variance"]}
{"id": "C88", "title": "Clustered standard errors of did_multiplegt are sums of squared cluster totals", "statement": "In the same situation with a cluster column (constant within units, at least two clusters in each arm), every panel unit observed in the first period and less_conservative_se, the squared standard error is the sum over the clusters of the squared total of the contributions of the cluster's units.", "quantifier": "all panels with one experiment and all assignments of units to clusters", "why_tests_cant": "a formula for every panel and every clustering", "anchors": ["moderndid/didinter/compute_did_multiplegt.py: _compute_did_effects", "moderndid/didinter/variance.py: compute_cohort_dof, compute_control_dof, compute_e_hat, compute_dof_scaling, compute_clustered_variance"]}
{"id": "C89", "title": "Without covariates the repeated cross-section estimators are the two-by-two comparison of cell means", "statement": "With an intercept as the only covariate, reg_did_rc, std_ipw_did_rc, drdid_trad_rc and drdid_rc all return (weighted mean of treated post rows - treated pre rows) - (comparison post rows - comparison pre rows). ipw_did_rc returns it only when treatment and period are independent in the weighted sample.", "quantifier": "all repeated cross-section samples, all weights, all cell sizes", "why_tests_cant": "an identity for every sample; a test checks single samples", "anchors": ["moderndid/drdid/estimators/reg_did_rc.py: reg_did_rc", "moderndid/drdid/estimators/std_ipw_did_rc.py: std_ipw_did_rc", "moderndid/drdid/estimators/ipw_did_rc.py: ipw_did_rc", "moderndid/drdid/estimators/drdid_trad_rc.py: drdid_trad_rc", "moderndid/drdid/estimators/drdid_rc.py: drdid_rc", "moderndid/drdid/estimators/wols.py: ols_rc"]}
{"id": "C90", "title": "Invariances of the repeated cross-section estimators", "statement": "Multiplying all weights by a positive constant changes neither the estimate nor any influence value; reordering rows only reorders the influence values; replacing the outcome by c*y + a in the post period and c*y + b in the pre period multiplies the estimate and every influence value by c (not for ipw_did_rc).", "quantifier": "all samples, permutations, weight scales, outcome scales and period shocks", "why_tests_cant": "relates pairs of runs for every transformation", "anchors": ["moderndid/drdid/estimators/reg_did_rc.py: reg_did_rc", "moderndid/drdid/estimators/std_ipw_did_rc.py: std_ipw_did_rc", "moderndid/drdid/estimators/ipw_did_rc.py: ipw_did_rc", "moderndid/drdid/estimators/drdid_trad_rc.py: drdid_trad_rc", "moderndid/drdid/estimators/drdid_rc.py: drdid_rc", "moderndid/drdid/estimators/wols.py: ols_rc"]}
{"id": "C91", "title": "The repeated cross-section estimates are the documented differences of weighted means", "statement": "Each estimate equals the difference of weighted treated and (regression-imputed or odds-weighted) comparison means named in its documentation; if the comparison outcomes follow the linear model exactly in both periods, the doubly robust estimates do not depend on the propensity score.", "quantifier": "all samples, all fits satisfying the normal equations, any propensity score", "why_tests_cant": "an identity for every sample and every fitted propensity score", "anchors": ["moderndid/drdid/estimators/reg_did_rc.py: reg_did_rc", "moderndid/drdid/estimators/std_ipw_did_rc.py: std_ipw_did_rc", "moderndid/drdid/estimators/ipw_did_rc.py: ipw_did_rc", "moderndid/drdid/estimators/drdid_trad_rc.py: drdid_trad_rc", "moderndid/drdid/estimators/drdid_rc.py: drdid_rc", "moderndid/drdid/estimators/wols.py: ols_rc"]}
{"id": "C92", "title": "Influence values of the repeated cross-section estimators average to zero", "statement": "Every estimator returns one influence value per row and they sum to zero, given fits solving their first-order conditions.", "quantifier": "all samples and all fits solving the normal and score equations", "why_tests_cant": "must hold for every sample", "anchors": ["moderndid/drdid/estimators/reg_did_rc.py: reg_did_rc", "moderndid/drdid/estimators/std_ipw_did_rc.py: std_ipw_did_rc", "moderndid/drdid/estimators/ipw_did_rc.py: ipw_did_rc", "moderndid/drdid/estimators/drdid_trad_rc.py: drdid_trad_rc", "moderndid/drdid/estimators/drdid_rc.py: drdid_rc", "moderndid/drdid/estimators/wols.py: ols_rc"]}
{"id": "C93", "title": "Influence values of the repeated cross-section estimators are derivatives of the estimate in the row weights", "statement": "When the weight of every row u is multiplied by 1 + e*h(u) and the estimator is re-run, the derivative of the estimate at e = 0 is the average of h times the returned influence values. (Holds for reg_did_rc and std_ipw_did_rc; for drdid_trad_rc and drdid_rc it is off by a term proportional to the pre-period covariate imbalance, for ipw_did_rc by the effect of the weights on their normalisation.)", "quantifier": "all samples, all directions of reweighting", "why_tests_cant": "a limit statement over all perturbations of every sample", "anchors": ["moderndid/drdid/estimators/reg_did_rc.py: reg_did_rc", "moderndid/drdid/estimators/std_ipw_did_rc.py: std_ipw_did_rc", "moderndid/drdid/estimators/ipw_did_rc.py: ipw_did_rc", "moderndid/drdid/estimators/drdid_trad_rc.py: drdid_trad_rc", "moderndid/drdid/estimators/drdid_rc.py: drdid_rc", "moderndid/drdid/estimators/wols.py: ols_rc"]}
{"id": "C94", "title": "B-spline basis rows are weights", "statement": "BSpline(x, internal_knots, boundary_knots, degree).basis() has one row per point with degree + 1 + number of interior knots columns; every row sums to 1, also for points outside the boundary knots (which are extrapolated), and its entries lie between 0 and 1 for points inside them (always, with the default boundary knots); complete_basis=False drops exactly the first column; it fails exactly when the boundary knots coincide or an interior knot is not strictly inside.", "quantifier": "every degree, every list of points, interior knots (in any order, with repetitions) and boundary knots", "why_tests_cant": "a test evaluates a few points of a few knot sequences; the claim is about every degree and every knot sequence, by induction on the degree", "anchors": ["moderndid/didcont/spline/base.py: SplineBase._simplify_knots, _get_simple_knot_sequence", "moderndid/didcont/spline/bspline.py: BSpline.basis"]}
{"id": "C95", "title": "The derivative matrix is the derivative of the basis", "statement": "For every vector of coefficients, the combination of the columns of BSpline.derivative(derivs=1) is the derivative of the function given by the same combination of the columns of BSpline.basis(): at every point other than an interior knot, including the boundary knots and points outside them, and also at the interior knots when the degree is at least 2 and the interior knots are distinct.", "quantifier": "every degree, knot sequence, coefficient vector and point", "why_tests_cant": "derivatives are limits; a finite-difference test at a few points has no bearing on other points or on what happens at the knots", "anchors": ["moderndid/didcont/spline/bspline.py: BSpline.derivative, BSpline.basis"]}
{"id": "C96", "title": "Polynomials up to the degree are represented exactly", "statement": "For every polynomial of degree at most the degree of the spline there are coefficients, independent of the point, for which the combination of the basis functions equals the polynomial everywhere (inside and outside the boundary knots) and the combination of the derivative columns equals its derivative; likewise with a constant and the basis without its first column, which is the regression that cont_did runs.", "quantifier": "every degree, knot sequence and polynomial of degree at most the degree", "why_tests_cant": "an existence claim over all polynomials and all points", "anchors": ["moderndid/didcont/spline/bspline.py: BSpline.basis, BSpline.derivative", "moderndid/didcont/cont_did.py: cont_did_acrt"]}
{"id": "C97", "title": "The overall level effect of cont_did is a difference in differences, whatever the spline", "statement": "With dose_est_method='parametric' and aggregation='dose', on a balanced panel with a varying base period, every estimated (group, time) cell has as its level effect exactly the mean change of the cohort's outcome minus the mean change of the comparison units (never treated, or not yet treated), between the same two periods; the choice of degree and knots does not matter. If every post-treatment cell is estimated and some unit is never treated, overall_att is the average over cohorts, by their weighted shares among adopters, of the simple average of these over the cohort's post-treatment periods.", "quantifier": "every balanced panel, spline degree, knots, dose grid, anticipation, comparison group, and every least-squares routine that returns residuals orthogonal to the regressors", "why_tests_cant": "a test can only compare a few data sets; the claim that the spline drops out holds for every one", "anchors": ["moderndid/didcont/cont_did.py: cont_did, cont_did_acrt, cont_two_by_two_subset", "moderndid/didcont/estimation/process_dose.py: process_dose_gt, _compute_dose_influence_functions, _weighted_combine_arrays", "moderndid/didcont/estimation/process_panel.py: compute_pte, _process_pte_cell, _build_pte_params", "moderndid/didcont/estimation/process_aggte.py: overall_weights", "moderndid/core/preprocess/transformers.py: TimePeriodRecoder, TreatmentEncoder, EarlyTreatmentGroupFilter, DoseValidatorTransformer, PanelBalancer"]}
{"id": "C98", "title": "Polynomial dose responses are recovered exactly", "statement": "If outcomes are unit effects plus period effects plus, from adoption on, a polynomial of the dose of degree at most the spline degree (the same for all cohorts and periods), then cont_did reports exactly that polynomial at every dose of the grid as att_d and exactly its derivative as acrt_d, and overall_att / overall_acrt are the share-weighted averages of the polynomial / its derivative over the adopters' doses.", "quantifier": "every panel, polynomial, degree, knots, grid, anticipation", "why_tests_cant": "exactness for all polynomials, panels and grids", "anchors": ["moderndid/didcont/cont_did.py: cont_did, cont_did_acrt, cont_two_by_two_subset", "moderndid/didcont/estimation/process_dose.py: process_dose_gt, _compute_dose_influence_functions, _weighted_combine_arrays", "moderndid/didcont/estimation/process_panel.py: compute_pte, _process_pte_cell, _build_pte_params", "moderndid/didcont/estimation/process_aggte.py: overall_weights"]}
{"id": "C99", "title": "Units of measurement; the slope curve is the derivative of the level curve", "statement": "Multiplying all doses (and the evaluation grid) by c > 0 leaves overall_att and att_d and their dose-specific influence values unchanged and divides overall_acrt, acrt_d and theirs by c; replacing outcomes y by a*y + unit constant + period constant multiplies all estimates by a; either way the run fails iff it did before. There are two functions of the dose, independent of the evaluation grid, whose values are the reported att_d and acrt_d for every grid, and the second is the derivative of the first except at the knots (at simple knots too if the degree is at least 2).", "quantifier": "every panel, scale factor, grid, oracle", "why_tests_cant": "equivariance and differentiability are statements about all inputs", "anchors": ["moderndid/didcont/cont_did.py: cont_did, cont_did_acrt, cont_two_by_two_subset", "moderndid/didcont/estimation/process_dose.py: process_dose_gt, _compute_dose_influence_functions, _weighted_combine_arrays"]}
{"id": "C100", "title": "Weights of the overall estimates", "statement": "The weights that combine the cells into overall_att and overall_acrt are non-negative, sum to one, are zero before adoption and equal the cohort's weighted share among adopters divided by its number of post-treatment periods. Expected: overall_att is the weighted average of the estimated cells' effects. Fails: a cohort whose members share a single dose level is not estimated and counts as an effect of zero with its full weight.", "quantifier": "every panel; refuted by a panel in which all effects are 4, the reported att_d is constantly 4 and overall_att is 2", "why_tests_cant": "all panels", "anchors": ["moderndid/didcont/estimation/process_aggte.py: overall_weights", "moderndid/didcont/estimation/process_dose.py: process_dose_gt, _compute_dose_influence_functions, _weighted_combine_arrays", "moderndid/didcont/cont_did.py: cont_did, cont_did_acrt, cont_two_by_two_subset"]}
{"id": "C101", "title": "Influence functions of the dose estimates", "statement": "The influence values behind overall_acrt_se average to zero over units; units that never adopt have zero influence on every estimate; the slope estimates depend on adopters only. Expected of the influence values: that those of overall_att are those of overall_att (they are those of overall_acrt, so doubling the dose unit halves overall_att_se while overall_att does not change, and comparison units do not matter); that adding irrelevant comparison units does not change overall_acrt_se (it shrinks it: scaling by n / all units of the cell); that the dose-specific ones average to zero (true if no treated unit's value is exactly zero; otherwise scores are assigned to the wrong units).", "quantifier": "every panel; refutations by concrete panels", "why_tests_cant": "all panels and all oracles", "anchors": ["moderndid/didcont/estimation/process_dose.py: process_dose_gt, _compute_dose_influence_functions, _weighted_combine_arrays", "moderndid/didcont/estimation/process_panel.py: compute_pte, _process_pte_cell, _build_pte_params", "moderndid/didcont/cont_did.py: cont_did, cont_did_acrt, cont_two_by_two_subset"]}
{"id": "C102", "title": "No comparison with already treated units", "statement": "Changing the outcomes of a cohort in periods from its adoption on changes no cell of another cohort and no cell of its own before adoption (any anticipation, either comparison group, any numerical routine). Expected also with anticipation: from the first anticipating period on. Fails: not-yet-treated comparison groups ignore anticipation.", "quantifier": "every panel and every change of the later outcomes; refuted with anticipation=1", "why_tests_cant": "all pairs of panels", "anchors": ["moderndid/didcont/cont_did.py: cont_did, cont_did_acrt, cont_two_by_two_subset", "moderndid/didcont/estimation/process_panel.py: compute_pte, _process_pte_cell, _build_pte_params"]}
{"id": "C103", "title": "Period labels", "statement": "Expected: moving periods and cohort labels together does not change the estimates. Fails: periods are recoded to 1..T but cohort labels are not, so calendar labels (2001, 2002, ...) make cont_did raise whenever every cohort label exceeds the number of periods, and small shifts silently change the estimates.", "quantifier": "every data set whose cohort labels exceed the number of periods; a concrete shift by one", "why_tests_cant": "the failure is proved for all such data sets", "anchors": ["moderndid/core/preprocess/transformers.py: TimePeriodRecoder, TreatmentEncoder, EarlyTreatmentGroupFilter, DoseValidatorTransformer, PanelBalancer", "moderndid/didcont/estimation/process_panel.py: compute_pte, _process_pte_cell, _build_pte_params"]}
{"id": "C104", "title": "Row order of the continuous-treatment data", "statement": "For data with at most one row per unit and period, the result of cont_did (estimates, influence values, or the fact that it raises) is the same for every order of the rows.", "quantifier": "every data set, permutation of its rows, option and numerical routine", "why_tests_cant": "all permutations of all data sets", "anchors": ["moderndid/didcont/cont_did.py: cont_did, cont_did_acrt", "moderndid/didcont/estimation/process_panel.py: compute_pte, _build_pte_params", "moderndid/core/preprocess/transformers.py"]}
{"id": "C105", "title": "Level cells of the continuous event study", "statement": "With aggregation='eventstudy' and target_parameter='level' (no covariates, varying base): a cohort whose treatment is binary gets, in every period, the weighted difference in differences between it and the comparison units, with the usual influence function, which sums to zero. With some dose above one the cohort's mean change is weighted by dose (so under parallel trends and a dose response f the cell is 0 before adoption and the dose-weighted mean of f after); with doses up to one the cohort itself is part of the comparison with weight 1 - dose. Expected: the mean effect of the cohort (fails), independence of the dose's unit (fails), influence values that sum to zero (fail when a dose exceeds one).", "quantifier": "every balanced panel, sampling weights, anticipation, comparison group, cohort and period; concrete panels for the refutations", "why_tests_cant": "a formula for every panel; the failing claims are exhibited by runs of the model", "anchors": ["moderndid/didcont/cont_did.py: cont_did, cont_did_acrt", "moderndid/didcont/estimation/estimators.py: pte_attgt", "moderndid/didcont/estimation/process_panel.py: pte, compute_pte, _process_pte_cell", "moderndid/drdid/estimators/reg_did_panel.py: reg_did_panel; drdid_panel.py: drdid_panel"]}
{"id": "C106", "title": "Event-time aggregation of the continuous event study", "statement": "The reported event times are, in increasing order and without repetition, those at which some kept cohort is observed within the requested window; each estimate is the average of the cohorts' cells at that event time weighted by the cohorts' sampling weight, the overall estimate is the plain average over event times >= 0 (absent when there are none), and with balance_e the same cohorts with the same weights are behind all event times from 0 to balance_e. With target_parameter='slope' the cells are those of the dose aggregation, polynomial dose responses give 0 before and the weighted mean derivative after adoption, and the influence values sum to zero. Expected of the influence values: the cells' values averaged like the estimates plus each unit's effect on the weights. Fails twice: the second term is multiplied by the adopters' share, and its rows are in order of cohorts rather than of identifiers.", "quantifier": "every balanced panel, window, balancing horizon, oracle; concrete panels for the refutations", "why_tests_cant": "all panels and windows", "anchors": ["moderndid/didcont/cont_did.py: cont_did, cont_did_acrt", "moderndid/didcont/estimation/process_aggte.py: aggregate_att_gt, weight_influence_function_from_att_indices, _compute_event_study", "moderndid/didcont/estimation/process_panel.py: pte, compute_pte, _process_pte_cell"]}
{"id": "C107", "title": "Triple differences for repeated cross-sections: what is estimated", "statement": "ddd_rc reports (4 vs 3) + (4 vs 2) - (4 vs 1), where each comparison is what the two-group repeated cross-section estimator of the same est_method returns on the rows of the two subgroups alone; each row's influence value is the same combination of its two-group values, each times (sample size / comparison size). Without covariates the estimate is the triple difference of changes of weighted mean outcomes. There is no estimate unless every subgroup has positive total weight in both periods; negative weights, codes other than 1-4, no treated-eligible rows or a single period raise.", "quantifier": "every sample, covariates, sampling weights, method, trimming level and numerical fit", "why_tests_cant": "all samples and fits", "anchors": ["moderndid/didtriple/estimators/ddd_rc.py: ddd_rc, _validate_inputs_rc", "moderndid/didtriple/nuisance_rc.py: compute_all_nuisances_rc, compute_all_did_rc, _compute_did_rc, _compute_pscore_rc, _fit_ols_cell", "moderndid/drdid/estimators/drdid_rc.py, reg_did_rc.py, std_ipw_did_rc.py"]}
{"id": "C108", "title": "Triple differences for repeated cross-sections: shocks, weight scale, row order", "statement": "Rescaling the outcome by c, shifting every subgroup by its own constant, and adding a common, a treated-state and an eligible-group shock plus tau for the treated-eligible in the post period turns the estimate into c*att + tau and multiplies the influence values by c. Multiplying all weights by a positive number changes nothing; permuting the rows permutes the influence values and changes nothing else.", "quantifier": "every sample, shock sizes, method; all permutations and scalings", "why_tests_cant": "all samples, shocks and permutations", "anchors": ["moderndid/didtriple/estimators/ddd_rc.py: ddd_rc, _validate_inputs_rc", "moderndid/didtriple/nuisance_rc.py: compute_all_nuisances_rc, compute_all_did_rc, _compute_did_rc, _compute_pscore_rc, _fit_ols_cell"]}
{"id": "C109", "title": "Triple differences for repeated cross-sections: influence function", "statement": "There is one influence value per row and they sum to zero. For 'reg' and 'ipw' their average with any direction h is the derivative of the estimate when row weights are multiplied by 1 + e*h. For 'dr' the same is expected and fails: the derivative differs by twice the pre-period covariate imbalance left by the odds weights times the derivative of the pre-period comparison coefficients, summed over the comparisons as 4v3 + 4v2 - 4v1.", "quantifier": "every sample, direction and smooth fit; a concrete sample for the refutation", "why_tests_cant": "derivatives over all directions and samples", "anchors": ["moderndid/didtriple/estimators/ddd_rc.py: ddd_rc, _validate_inputs_rc", "moderndid/didtriple/nuisance_rc.py: compute_all_nuisances_rc, compute_all_did_rc, _compute_did_rc, _compute_pscore_rc, _fit_ols_cell"]}
{"id": "C110", "title": "A distributed triple-difference cell equals the local estimator", "statement": "For a cell with one control cohort, the Dask DDD cell reports the estimate and, for every unit of the panel, the influence value (times n_units / n_cell) that the local ddd_panel reports on the pooled units, for est_method 'dr', 'reg' and 'ipw', whatever the split into partitions (empty partitions and partitions with one subgroup included), the fan-in of the tree reductions and the order in which the influence tasks finish. It fails when the first partition of the cell is empty (the cell is silently skipped) and when every comparison unit is trimmed (the local estimator refuses, the distributed cell reports an effect).", "quantifier": "all partitionings, fan-ins of at least two, completion orders, samples, weights and covariates for which the local estimator reports an estimate", "why_tests_cant": "the number of partitionings and completion orders is unbounded; tests run one cluster layout", "anchors": ["moderndid/distributed/_ddd_partition.py:12-396", "moderndid/dask/_ddd_streaming.py:36-235, 849-1248"]}
{"id": "C111", "title": "A distributed triple-difference cell with several control cohorts equals the GMM combination of the local estimates", "statement": "With several available control cohorts the Dask DDD cell reports exactly the GMM combination (estimate, standard error, influence column) of the local estimates obtained from the units of the treated cohort and each control cohort, over the control cohorts that have, or whose treated cohort has, a unit in the first partition; so it does not depend on the partitioning, the fan-in or the completion order as long as all of them are visible there. It fails otherwise: a control cohort with no such unit in the first partition is silently dropped and the estimate changes.", "quantifier": "all partitionings, completion orders, fan-ins, cohorts and samples for which the local estimates of the visible control cohorts exist", "why_tests_cant": "depends on how rows are spread over partitions, which tests fix", "anchors": ["moderndid/dask/_ddd_streaming.py:324-481, 1190-1248", "moderndid/distributed/_ddd_partition.py:148-174, 292-396"]}
{"id": "C112", "title": "Distributed and local multi-period triple differences agree cell by cell", "statement": "From the same long panel, cell (g, t) of the Dask multi-period triple-difference estimator reports the estimate, the influence column over all units and the standard-error override that the local ddd_mp reports for that cell, for never- and not-yet-treated controls, varying and universal base periods, and the three estimation methods, whatever way the merged rows are dealt into partitions, the fan-in and the order of task completion: both use the same units (observed in both periods), the same control cohorts and the same GMM combination. Conditions: finite cohort codes, unit weights, eligibility 0/1, every control cohort visible in the first partition. It fails for never-treated units with a non-finite code, which the distributed code does not use as controls.", "quantifier": "all panels, cohorts, periods, partition layouts, completion orders and fan-ins for which every comparison of the cell is estimable", "why_tests_cant": "the layouts and completion orders are unbounded, and agreement must hold for every panel", "anchors": ["moderndid/dask/_ddd_streaming.py:36-481, 849-1248", "moderndid/dask/_ddd_mp.py:960-1060", "moderndid/didtriple/estimators/ddd_mp.py:355-646"]}
{"id": "C113", "title": "Improved doubly robust and Horvitz-Thompson panel estimates: what they are and when they agree", "statement": "drdid_imp_panel reports the treated units' weighted mean residual minus the total of the untrimmed comparison units' residuals weighted by weight times odds, per unit of treated weight; with an intercept and nothing trimmed this is the treated units' mean deviation from the comparison regression weighted by weight times odds. ipw_did_panel reports the same difference for the outcome change itself. If the scores balance the covariate totals and nothing is trimmed, drdid_imp_panel, ipw_did_panel, std_ipw_did_panel and drdid_panel all report one number. If the outcome model is exact for the comparison units, drdid_imp_panel reports the treated units' mean deviation from it whatever the scores; ipw_did_panel does not.", "quantifier": "all two-period samples, weights, covariate matrices, fitted scores, trimming levels", "why_tests_cant": "identities between estimators over arbitrary real data and arbitrary fits", "anchors": ["moderndid/drdid/estimators/drdid_imp_panel.py:13-224 (drdid_imp_panel)", "moderndid/drdid/estimators/ipw_did_panel.py:13-305 (ipw_did_panel)", "moderndid/drdid/estimators/wols.py:158-197 (wols_panel)"]}
{"id": "C114", "title": "Invariances of the improved doubly robust and Horvitz-Thompson panel estimators", "statement": "Rescaling weights by a positive constant changes nothing; permuting units permutes the influence values and keeps the estimate; a common rescaling of the outcomes rescales estimate and influence values; for drdid_imp_panel adding a constant per period changes nothing; with only an intercept both give the weighted difference of mean changes. For ipw_did_panel adding a constant to one period shifts the estimate by that constant times one minus the odds-weighted share: harmless if the scores balance, and not otherwise.", "quantifier": "all two-period samples, weights, scale factors, shifts, permutations", "why_tests_cant": "invariance must hold for every sample and transformation", "anchors": ["moderndid/drdid/estimators/drdid_imp_panel.py:13-224 (drdid_imp_panel)", "moderndid/drdid/estimators/ipw_did_panel.py:13-305 (ipw_did_panel)"]}
{"id": "C115", "title": "Influence values of the improved doubly robust and Horvitz-Thompson panel estimators", "statement": "The reported influence values have one entry per unit and sum to zero (for ipw_did_panel when the logit score equations hold), and their weighted average in any direction is the derivative of the reported estimate when the unit weights move in that direction, with the nuisance fits recomputed; drdid_imp_panel needs no correction for the estimated scores and regression as long as the scores stay calibrated.", "quantifier": "all samples, directions and smooth nuisance fits", "why_tests_cant": "derivative in every direction for every sample", "anchors": ["moderndid/drdid/estimators/drdid_imp_panel.py:13-224 (drdid_imp_panel)", "moderndid/drdid/estimators/ipw_did_panel.py:13-305 (ipw_did_panel)"]}
{"id": "C116", "title": "Inverse probability tilting: the scores behind the improved estimator balance the covariates", "statement": "The gradient and hessian given to the optimiser are those of the tilting objective; every local minimiser yields scores under which the weighted comparison units have exactly the treated units' covariate totals, and every such coefficient vector is a global minimiser, so that drdid_imp_panel is the odds-weighted difference of mean changes. The fallback objective has the right gradient, and with unit weights its stationary points balance too; with sampling weights they balance the comparison units against the unweighted sample and ignore the treated units' weights.", "quantifier": "all samples, weights and coefficient vectors (indices within the clipping range)", "why_tests_cant": "minimisers of an objective over all coefficient vectors and all data", "anchors": ["moderndid/drdid/propensity/pscore_ipt.py:116-261", "moderndid/drdid/estimators/drdid_imp_panel.py:13-224 (drdid_imp_panel)"]}
{"id": "C117", "title": "Two-way fixed effects regression on a panel: covariates have no effect, and what its influence values are", "statement": "With covariates twfe_did_panel reports exactly the weighted difference of mean outcome changes between the groups, the number it reports without covariates; a leading column of ones changes nothing. There are two influence values per unit, summing to zero, whose per-unit average is the unit's influence on that difference. (Refuted: the standard error treats a unit's two rows as independent, so it is positive where every unit's influence is zero and moves with unit-specific outcome levels; without treated units the call with covariates reports 0 with standard error 0 while the call without raises.)", "quantifier": "all two-period panels, weights and covariate matrices", "why_tests_cant": "an algebraic identity of least squares over arbitrary data", "anchors": ["moderndid/drdid/estimators/twfe_did_panel.py:30-297 (twfe_did_panel)", "moderndid/drdid/ordid.py (ordid)"]}
{"id": "C118", "title": "Two-way fixed effects regression on repeated cross-sections: a four-cell comparison with consistent influence values", "statement": "twfe_did_rc reports the difference in differences of the four group-by-period means of the outcome minus its covariate part, whose coefficients solve the pooled within-cell least squares; without covariates, of the outcome itself. A leading column of ones or a rescaling of the weights changes nothing. Influence values, one per row, sum to zero and their weighted average in any direction is the derivative of the estimate when the row weights move in that direction.", "quantifier": "all samples, weights, covariate matrices and weight directions", "why_tests_cant": "least-squares identities and derivatives in every direction for every sample", "anchors": ["moderndid/drdid/estimators/twfe_did_rc.py:28-236 (twfe_did_rc)"]}
{"id": "C119", "title": "Two-period panel calls: which rows count and what does not matter", "statement": "drdid, ordid and ipwdid on a panel accept exactly data without nulls, with two periods, a 0/1 treatment fixed within units and weights fixed within units, and then estimate from exactly the units with one row in each period, with covariates, treatment and weight of the post row. Row order, the labels of the periods, the covariates of the pre period, the scale of the weights and the rows of all other units have no influence on any result; without covariates the estimate is the difference of weighted mean changes. A null raises in every call. (Refuted: that an estimate always compares treated with untreated units; ordid reports 0 when the only treated units are incomplete.) A trimming level outside (0, 1) raises in drdid and ipwdid.", "quantifier": "all data frames, orders, relabelings, scalings and fits", "why_tests_cant": "the set of retained units and the invariances range over all data frames", "anchors": ["moderndid/core/preprocessing.py:11-92 (preprocess_drdid)", "moderndid/core/preprocess/validators.py:338-390,706-718 (PrePostDataValidator, PrePostPanelValidator)", "moderndid/core/preprocess/transformers.py:60-104,404-518,1156-1167 (PrePost transformers)", "moderndid/core/preprocess/builders.py:257-322 (_build_two_period_did_data)", "moderndid/drdid/drdid.py:34-395 (drdid)", "moderndid/drdid/ordid.py (ordid)", "moderndid/drdid/ipwdid.py (ipwdid)"]}
{"id": "C120", "title": "Two-period repeated cross-section calls: which rows count and what does not matter", "statement": "On repeated cross-sections the calls raise on a missing period or treatment, on other than two periods and on treatments other than 0 and 1 both present, and otherwise estimate from exactly the rows complete in the columns used, in order; dropping the incomplete rows beforehand changes nothing. Identifiers, period labels and the scale of the weights have no influence; reordering the rows keeps the estimate and carries each row's influence value along; without covariates the estimate of drdid (all four methods), ordid and normalised ipwdid is the difference in differences of the four weighted cell means of the user's complete rows. A trimming level outside (0, 1) raises in drdid and ipwdid.", "quantifier": "all data frames, orders, relabelings, scalings and fits", "why_tests_cant": "the invariances and the identity range over all data frames", "anchors": ["moderndid/core/preprocessing.py:11-92 (preprocess_drdid)", "moderndid/core/preprocess/validators.py:338-390,706-718 (PrePostDataValidator, PrePostPanelValidator)", "moderndid/core/preprocess/transformers.py:60-104,404-518,1156-1167 (PrePost transformers)", "moderndid/core/preprocess/builders.py:257-322 (_build_two_period_did_data)", "moderndid/drdid/drdid.py:34-395 (drdid)", "moderndid/drdid/ordid.py (ordid)", "moderndid/drdid/ipwdid.py (ipwdid)"]}
{"id": "C121", "title": "Improved repeated cross-section estimators: what is estimated", "statement": "drdid_imp_rc and drdid_imp_local_rc fit the comparison regressions by least squares weighted with sampling weight times odds and return the documented differences of weighted means. With an intercept and no row trimmed they are pure regression imputations; when comparison outcomes follow the linear model exactly the propensity score does not matter; when the odds weights balance the covariates in each period the outcome regressions do not matter; without covariates the estimate is the comparison of the four weighted cell means.", "quantifier": "all samples, weights, covariates, fits and trimming levels", "why_tests_cant": "the identities hold for every sample and every fit, which no finite set of samples can show", "anchors": ["moderndid/drdid/estimators/drdid_imp_rc.py (drdid_imp_rc)", "moderndid/drdid/estimators/drdid_imp_local_rc.py (drdid_imp_local_rc)", "moderndid/drdid/estimators/wols.py:201-330 (wols_rc)"]}
{"id": "C122", "title": "Improved repeated cross-section estimators: invariances and influence values", "statement": "The improved repeated cross-section estimates do not depend on the scale of the weights; reordering the rows only carries the influence values along; rescaling the outcome and shifting all post-period and all pre-period outcomes by constants rescales estimate and influence values; there is one influence value per row and they sum to zero; the influence values are the derivative of the estimate in the row weights when no comparison row is trimmed and the odds weights balance the covariates (for the locally efficient variant also: when the treated covariates have the same means in both periods), and otherwise differ from it exactly by imbalance times the movement of the regression coefficients. The estimators raise exactly for a negative weight, a failed score fit or an empty regression cell, and never estimate from a cell with fewer rows than regressors.", "quantifier": "all samples, orders, scalings, shifts, weight perturbations and fits", "why_tests_cant": "the invariances quantify over all samples and transformations", "anchors": ["moderndid/drdid/estimators/drdid_imp_rc.py (drdid_imp_rc)", "moderndid/drdid/estimators/drdid_imp_local_rc.py (drdid_imp_local_rc)", "moderndid/drdid/estimators/wols.py:201-330 (wols_rc)"]}
{"id": "C123", "title": "The Wald pre-test of parallel trends", "statement": "The pre-test reported by att_gt uses exactly the cells with group > time whose standard error is above the floor; its statistic is n att' V^-1 att with V the average products of influence values, with as many degrees of freedom as tested cells. The statistic is never negative and zero exactly when all tested estimates are zero. With an exact rank test it is reported exactly when some cell is tested and the tested influence functions are linearly independent. Cells at or after treatment, the order of the cells and the units of the outcome have no effect, and the distributed back ends with analytical standard errors report the same test. The pre-test of cont_did is the same test when no pre-treatment cell is below the floor, but it keeps cells with zero influence, so with base_period=\"universal\", where the base period is such a cell, it is never reported.", "quantifier": "all tables of cells, numbers of units, influence values, orders and units", "why_tests_cant": "the characterisation and invariances quantify over all tables and influence functions", "anchors": ["moderndid/did/att_gt.py:391-397,444-486 (att_gt)", "moderndid/dask/_did_mp.py:802-845 (_compute_wald_pretest)", "moderndid/spark/_did_mp.py:819-861 (_compute_wald_pretest)", "moderndid/didcont/estimation/process_attgt.py:47-84 (process_att_gt)"]}
