# Design: a Rocq (Coq 8.16.1) model of moderndid

## Representation choices (apply to every file)

* **Numbers.** Real-valued data (outcomes, weights, effects, influence values, fitted
  propensities, design matrices) are canonical rationals `Qc` from the Coq standard library:
  exact arithmetic, Leibniz equality, decidable order, executable. Floating-point rounding
  and overflow are *not* modelled. Where the code takes a square root (standard errors) the
  model keeps the square (variance); where it calls `exp` (logit) the fitted probability is an input.
* **NaN / None** are `option` values; Python exceptions are error values of a result type.
* **Periods** are integers `Z`; a treatment group is `Fin z` or `Inf` (the code uses `float('inf')`).
* **Data frames** are lists of row records in row order; `sort` is a stable sort on the
  lexicographic key, `group_by`/`unique` are described by what the code uses of them.
* **External numerics** (`np.linalg.solve`, statsmodels GLM, `np.percentile`, RNG draws) are inputs
  to the model: the theorem quantifies over their result, constrained by the equation they solve
  where the property needs it (e.g. normal equations). Never an axiom.
* Proof files use the standard library only. See "Trusted base" below for the axioms of `Coq.Reals` used by the bootstrap theorems.

## File layout (`rocq/theories`)

`Base.v` (sums, rationals), then per area a `*Model.v` (definitions with source citations only),
`*Proofs.v` (lemmas), and `*Props.v` (property theorems, `exact lemma`, `Print Assumptions`,
and a witness `Example` showing hypotheses are met).

## Plan per property

| id | modelled | proof method |
|----|----------|--------------|
| C01 | `parallel_map`: writes `results[idx]` in completion order | induction over any permutation of indices |
| C02 | `tree_reduce` while-loop with fuel = length, `_reduce_group` | strong induction on length; order-preserving fold; non-termination for fan-in 1 shown |
| C03 | `partition_gram`, `_sum_gram_pair`, `_reduce_gram_list` | sums over concatenation / permutation |
| C04 | `weighted_gram` tile loops writing into a matrix function | loop invariant over tiles |
| C05 | `_partition_did_global_stats`, driver aggregation, `_partition_compute_did_if` | additivity of sums over concatenation |
| C06-C09 | DID pipeline transformers on row lists | list filtering lemmas |
| C10-C12 | `DataSorter`, tensors, `get_did_cohort_index` block arithmetic | sortedness + block-offset invariants |
| C13-C15 | `run_att_gt_estimation`, `_process_gt_cell_did`, `compute_att_gt`, `run_drdid` | case analysis, sums |
| C16 | unbalanced path: `np.unique(rowid)` vs first-appearance order | expected refutation: witness by computation |
| C17-C23 | `compute_aggte` and helpers | weighted-average lemmas; refutations expected for C18, C21 (pre-periods), C23 |
| C24 | column bookkeeping of `create_time_invariant_data` and `att_gt` | expected refutation + characterisation |
| C25-C27 | `drdid_panel`, `reg_did_panel`, `std_ipw_did_panel` on rationals | field algebra over sums |
| C28 | `mboot` cluster aggregation and bootstrap sums given the draws | sums over groups |
| C29, C30 | `create_ddd_subgroups`, `get_group` | case analysis, list lemmas |
| C31 | length of the influence matrix for each data layout, from `att_gt`'s preprocessing to `run_drdid` | counting lemmas; refutation by a computed panel |
| C32 | the three ways a cell can fail (`None`, exception, NaN) through `compute_att_gt` | case analysis; refutations by computation |
| C33 | the partial operations (indexing, `max` with `None`, missing tensors) as error results | totality under stated conditions; refutations by computation |
| C34 | empty covers in `compute_aggte` | option values through the averages |
| C35, C36 | aggregated influence functions with the weight-estimation term | linearity of sums; algebraic derivative of a ratio |
| C37 | influence rescaling of `compute_att_gt` followed by `sqrt(mean(psi^2)/n)` | identity between squared standard errors |
| C38, C39 | `compute_att_gt_distributed` driver; per-cell streamed and wide samples | permutation invariance of the task schedule; filter lemmas |
| C40, C41 | `mboot` and distributed bootstrap over the reals | quantile lemmas; Coq.Reals |
| C42-C45 | `core/panel.py` utilities | list counting and sortedness |
| C46-C48, C52 | constraint matrices of `didhonest/delta` built row by row as in the code | membership in the polyhedron iff the textbook difference inequalities |
| C49-C51 | identified sets as linear programmes: the LP answer is an input constrained to be optimal | explicit extremal trends; convexity |
| C53-C56 | `ddd_panel` for dr/reg/ipw | reduction to the drdid model; algebra |
| C57-C63 | `ddd_mp`: cell grid, control cohorts, GMM pooling, influence columns, bookkeeping | loop characterisation; matrix inverse as constrained input; refutations by computation |
| C64-C69 | `agg_ddd`, `compute_agg_ddd` (analytic standard errors), composed with `ddd_mp` | recoding lemmas, one uniform normal form, algebraic derivatives; refutations by computation |
| C70-C86 | `did_multiplegt`: DIDInter preprocessing pipeline, effects, placebos, normalisation, ATE, standard errors (no covariates, no bootstrap, no heterogeneity) | pipeline shown equal to a sample selection on the user's rows; balanced-panel lag lemma; naturality in the outcome; refutations by computation |
| C87-C88 | the standard errors of `did_multiplegt` when there is one experiment: two-sample variance, cluster totals | only the rows of period f-1+h carry a coefficient; degrees of freedom and demeaning computed as counts and means over the two arms |
| C89-C93 | the repeated cross-section estimators reg_did_rc, std_ipw_did_rc, ipw_did_rc, drdid_trad_rc, drdid_rc: closed forms, invariances, centred influence values, influence values as derivatives in the row weights | numerical fits are inputs characterised by their first-order conditions; derivative calculus of `Calc.v` on rationals; correction terms computed exactly and refutations on concrete samples |
| C94-C96 | the B-spline bases behind `cont_did`: knots, interval search, Cox-de Boor recursion, `splder` derivative (scipy's algorithms included) | induction on the degree: local support, Marsden's identity, differentiated in its parameter for the reproduction of polynomials; derivative calculus of `Calc.v` for the derivative, pieces glued at simple knots |
| C97-C104 | `cont_did` (parametric, dose aggregation): preprocessing, cells, spline regression, aggregation, influence functions | least squares and matrix inverse as inputs constrained by orthogonality of residuals / being an inverse; pipeline shown to be the identity on valid panels; polynomial reproduction of C96; relational proof that two runs stay related; refutations by computation |
| C105-C106 | `cont_did(aggregation="eventstudy")`: `pte_attgt` without covariates (regression adjustment or doubly robust with an intercept only), slope cells, `aggregate_att_gt` dynamic with windows, balancing and influence functions | closed forms of the intercept-only estimators; the aggregation as a function of the cell list shown equal to a cohort-weighted mean; refutations by computation |
| C107-C109 | `ddd_rc` with `nuisance_rc.py` (two-period triple differences, repeated cross-sections; all three methods, no bootstrap) | bridge to the two-group estimators of C89-C93 by weight-scale invariance; derivatives carried over with their correction terms; refutation on a fifteen-row sample |
| C110-C111 | one distributed triple-difference cell on panel data, one or several control cohorts (`_ddd_partition.py`, `_ddd_streaming.py`) | pooling lemmas for partition sums with an arbitrary weight factor, equality per comparison, writes by identifier as a lookup; GMM combination of the visible control cohorts; refutations on the samples of C53 and on fifteen rows |
| C112 | one (g, t) cell of the distributed multi-period estimator from the long data: row filters, merge, available controls (`_ddd_mp.py`, `_ddd_streaming.py`) | merged rows are a permutation of the local two-period sample; C56 unit order, C59 control order, C110, C111; refutation on the panel of C57 |
| C113-C115 | `drdid_imp_panel`, `ipw_did_panel`, `wols_panel` (balanced panels, no bootstrap) | the estimates as group means and odds totals; calibration cancels every linear function of the covariates; normal equations of the tilted regression; derivatives by the calculus of `Calc.v`; refutations on a seven-unit sample |
| C116 | the two objectives of `pscore_ipt.py` with gradient and hessian; np.exp as any function with the exponential's derivative and supporting lines | derivative of sums, convexity inequality summed over units, stationarity rewritten as balance; refutation with one treated weight changed |
| C117, C118 | `twfe_did_panel`, `twfe_did_rc` (no bootstrap); least squares as any solution of the normal equations | normal equations of the stacked design split by cell; Frisch-Waugh style elimination of time-constant covariates; inverse Gram matrix identities; derivative of the least-squares coefficient in the weights; refutations on small samples |
| C119, C120 | `preprocess_drdid` and the calls `drdid`, `ordid`, `ipwdid` on the user's rows, nulls included (NaN and stateful formula transforms excluded) | characterisation of the retained units as the unique id-sorted list meeting a row-level specification; invariances follow from uniqueness and the weight-scale theorems; refutation on five rows |
| C121, C122 | `drdid_imp_rc`, `drdid_imp_local_rc`, `wols_rc` (numpy path, no bootstrap, float weights) | ratio-of-sums algebra over the four cells; the odds-weighted normal equations give the regression form and, with uniqueness of the fit, exactness and affine equivariance; derivative calculus (Calc) along weight perturbations with the movement of the fits as hypotheses, corrected by imbalance terms; case analysis of the raising conditions |
| C123 | Wald pre-test of `att_gt`, `_compute_wald_pretest` and cont_did's `process_att_gt` (rank test, linear solver and chi-square distribution are inputs) | V is a Gram matrix, so the statistic is a sum of squares; symmetry of V makes it independent of the solution; kernel of V = kernel of the influence functions. The code ignores `anticipation` here: cells inside the anticipation window are tested, and with an empty set of tested cells the local code only falls through to the zero-norm branch |

## Trusted base

* **Coq's kernel** (8.16.1, with its `vm_compute` reduction machine, used to evaluate closed witnesses).
* **Print Assumptions.** Every theorem of every `*Props.v` file prints its assumptions at build time.
  All are `Closed under the global context`, except the theorems of `MbootProps.v` (C28, C40, C41), which
  are stated over `Coq.Reals` and list the standard library's
  `ClassicalDedekindReals.sig_not_dec`, `ClassicalDedekindReals.sig_forall_dec`,
  `FunctionalExtensionality.functional_extensionality_dep` and, in some, `Classical_Prop.classic`.
  No axiom, parameter or section-less variable is declared in `rocq/theories`.
* **The reading of the Python code.** The model was transcribed by hand from /repo; nothing checks mechanically that it
  agrees with the Python. Each definition cites the lines it models and says where it simplifies. The behaviour of polars, numpy,
  scipy, statsmodels, dask and spark operations the code calls is as documented by those projects
  (stable sorts, `unique` in sorted order, left folds, and so on).

## What is modelled

`core/parallel.py`; `core/preprocess` (DiD pipeline: encoders, filters, balancing, control group, weights, tensors, cohort counts);
`core/panel.py`; `core/utils` used by these; `did/compute_att_gt.py`, `did/att_gt.py` (argument flow),
`did/compute_aggte.py`; `did/mboot.py`; `drdid/estimators` for balanced panels (dr, reg, ipw) and for repeated cross-sections
(`reg_did_rc`, `std_ipw_did_rc`, `ipw_did_rc`, `drdid_trad_rc`, `drdid_rc`; numpy path, no bootstrap; `drdid_rc` with integer weight arrays, which raises, excepted; `TwfeModel.v`: `twfe_did_panel`, `twfe_did_rc` without the bootstrap; `ImpRcModel.v`: `drdid_imp_rc`, `drdid_imp_local_rc`, `wols_rc`; `TwoModel.v`: `preprocess_drdid` and the two-period calls `drdid`, `ordid`, `ipwdid`; `ImpModel.v`: `drdid_imp_panel`, `ipw_did_panel`, `wols_panel` and the objectives of `propensity/pscore_ipt.py`, again without the integer-weight case, which raises in `drdid_imp_panel`, and without the optimiser's iterations and choice between the two objectives); `didtriple/estimators/ddd_panel.py`,
`distributed/_ddd_partition.py` 12-396 and `dask/_ddd_streaming.py` 36-481, 849-1248 (`DistDddModel.v`: merged rows onwards, CPU, panel data; `DistDddMpModel.v`: filters, merge and control cohorts; not the wide-pivot path, not repeated cross-sections); `didtriple/estimators/ddd_rc.py` and `didtriple/nuisance_rc.py` (`DddRcModel.v`; `_ddd_rc_2period` and the bootstrap excepted); `didtriple/estimators/ddd_mp.py`, `didtriple/agg_ddd.py`, `didtriple/compute_agg_ddd.py`; the DIDInter pipeline of
`core/preprocess/transformers.py` and `didinter/compute_did_multiplegt.py`, `didinter/variance.py` (`InterModel.v`; square roots of dof ratios are an arbitrary function); `distributed/_gram.py`, `_utils.py`, `_did_partition.py`, the driver of the multi-period
distributed DiD and its bootstrap; `didcont/spline/bspline.py` and `cont_did` with `dose_est_method="parametric"`, `aggregation="dose"` (`ContModel.v`); `didhonest/delta` and the identified-set computations.

## What is not modelled

Floating point (rounding, overflow, signed zero); the inside of numerical routines (matrix inversion, logistic fit, linear programming,
quantiles of the normal law, random generators: each is an input, constrained by the equation it solves where a theorem needs it);
plotting, printing, result formatting, dataset loading, progress and warning output; GPU back ends (`cupy`); JIT versions (`numba`) unless cited;
dask and spark themselves (replaced by arbitrary partitionings and completion orders); formula parsing by `formulaic`; the interior of the
honest-DiD confidence-set test inversion (ARP, FLCI); covariates, continuous treatments, bootstrap and `predict_het` of `did_multiplegt`; `cont_did` with the CCK estimator; covariates and the universal base period in its event study; estimators listed in no property above.
