# Formal model of rmojab63/LDT in Coq 8.16.1

Source read as text: `/repo` (C++).  Nothing is executed.  The only tie between the
theorems and the code is the reading recorded in the comment of every model definition
(file and lines).

## Conventions

* `Ti` (C++ `int`) is modelled by unbounded `Z` (or `nat` for lengths/indices that the
  code only produces by counting).  32-bit overflow is not modelled, except `std::stoi`.
* C++ integer division/remainder is `Z.quot` / `Z.rem` (truncation), never `Z.div`.
* `Tv` (C++ `double`) is modelled by exact rationals `Qc` (every finite double is a
  rational) so that the models are executable, by `option Qc` where NaN matters
  (`None` = NaN), and by `R` where `exp`, `log`, `pow`, `sqrt` occur.  Rounding, signed
  zero and (unless stated) infinities are not modelled.
* Outcomes are `res A := Ok a | Throw | UB`: a C++ exception is `Throw`, an access outside
  the storage, a null dereference or an endless loop is `UB`.
* Model files (`*_model.v` style content at the top of each file) contain only definitions;
  specifications are separate definitions that do not mention the model; proofs follow; the
  final statements live in `Prop_*.v` files, each closed by `exact`, followed by
  `Print Assumptions`.
* A property that the unchanged code violates is proved as `..._refuted` with a witness,
  next to the strongest version that does hold.

## Plan per property

| id | model | proof method |
|----|-------|--------------|
| C01-C03 | year-based record, Next/Minus/CompareTo with truncating division | linear index: Next adds n to the index; index is injective |
| C04, C11, C12 | strings as `list ascii`; to_string/stoi; Split; GetClass | decimal round trip lemma + split lemmas |
| C05 | 7 days, loops with fuel | finite sweep lifted by forallb |
| C06, C07 | dates as day numbers + Gregorian conversion | day arithmetic; induction on steps |
| C08 | day-based over week-based | linear index |
| C09, C10 | list frequency | index abstraction; refutation of compare |
| C13, C14, C21 | arrays of `option Qc` | list induction |
| C15, C16, C19, C20 | partition/conversion loops | list induction; refutations |
| C17 | variable text | refutation + guarded round trip |
| C18 | Variables | index calculation |
| C22, C23, C49 | single-pass moments | field identities, induction over samples |
| C24, C36 | R | Rpower/ln/exp lemmas |
| C25, C27, C28, C29 | column-major storage with bounds as outcome | index injectivity |
| C26 | in-place transpose with visited vector | permutation cycles, modular arithmetic |
| C30-C33 | row selection, stable sort, split | list induction, Permutation |
| C34 | ROC/AUC | sum over tie groups = pair count |
| C35, C37 | lookups | case analysis; refutation |
| C38 | coefficient lists / matrices | convolution algebra |
| C39-C41, C75, C76 | varma_sizes.cpp, varma_restriction.cpp, differences and OLS arrays of varma.cpp, with the layout of the work arrays | closed forms of the lag loops, lag polynomials as operators on series, index arithmetic |
| C42-C44, C59 | combination generator + odometer with fuel | lexicographic successor; enumeration = spec list |
| C45-C48 | multiset insertion, merge | sorted/permutation arguments; refutation for extreme bounds |
| C50-C54 | nearest-neighbour chain | chain invariant, tree invariant |
| C55 | `fill`, `Compute` (both phases), `ComputeV`; `std::sort` as stable sort; `pow(L,1/3)*r` truncated as integer cube root | invariant of the bin search: exact counts, axis, automatic range and bin number; counterexamples for the documented bins |
| C56 | Newton (dposv as an oracle with a contract), line search, Nelder-Mead, Minimize1; arbitrary objective functions | invariants; relational specification of the Nelder-Mead iterations; Taylor for quadratics |
| C57, C58 | helpers | induction |
| C61, C62 | moments from several searchers, of arrays with NaN | field identities; refutation (null pointer) |
| C63-C65 | frequency construction, variable conversions | case analysis; refutation |
| C66, C67 | MergeR on the dendrogram | monotone heights from reciprocal nearest neighbours, renumbering |
| C68, C69 | distances after Calculate, second Calculate | invariant on every write; refutation |
| C70 | in-place removal of NaN elements and columns | invariant: the kept columns are packed in front, the rest is untouched |
| C71 | products through modelled BLAS contracts (gemm, gemv, syrk, symm, dot) | element-wise equality with the sum over the inner index |
| C72 | element-wise loops | element-wise equality |
| C73 | DatasetTs with its state | fold of range intersections; refutation for empty windows and reuse |
| C74 | AucPoints | induction over the points |
| C77 | xtprime, start columns, forecast loop, UnDiferences | block-wise description of the regressor vector, induction over the columns, undoing of differences |
| C78 | QuantileSorted | floor bounds; interpolation lies between neighbours, monotone |
| C79 | Minimum ... SumOfSquares | one-pass invariants: central sums of a prefix (MomentsProofs), reals for the skewness |
| C80 | FilterAr, FilterMa | loop of assignments as a function; induction for the recursion |
| C81 | SeasonalDecompositionMa | invariant of the season counter; algebra of the parts |
| C82 | RegressionTrend, Inv2x2 | sums of t and t^2, normal equations, completion of squares |
| C83, C84 | Ols, Gls with LAPACK as an oracle with a contract | normal equations, uniqueness by the inverse, minimum by completion of the square |
| C85 | the loops over elements, rows and columns with NaN and infinities | induction over the list: first best element |
| C86 | the single-pass means, variances and covariances with NaN, the matrix functions which call them | invariants of the loops (textbook sums of the prefix), Cauchy-Schwarz |
| C87 | Correlation<., kCovariance, .>: columns minus means, SYRK contract, pairwise loops, ranks | sums by induction, quadratic form as a sum of squares, writes of the two triangles |
| C88 | the single-pass CorrelationColumn (rationals, square roots in R), standardized columns and their product | loop invariant, Cauchy-Schwarz with its equality case, affine maps of sums |
| C89 | Distance::Calculate for the five methods on the packed matrix, with the correlations of C87/C88 | loops to sums, Cauchy-Schwarz and Minkowski over R, angle between unit vectors for sqrt(1-r^2) |
| C90 | Sur::Sur, Calculate, estim_un, calculate_details with storage/work as lists and every member as a block; LAPACK inverse, t tail probability and determinant as parameters | block layout by list induction, normal equations, sum of squares decomposition |
| C91 | Sur::estim_r | Gram matrix of the whitened system, positive semidefinite weights, normal equations of the restricted system |
| C92 | Sur::estim_search loop with its iteration counter | loop invariant (R picks the surviving coefficients), strictly decreasing number of coefficients |
| C93 | SurProjection::Calculate with its blocks, on the results of the model of Sur::Calculate | loop invariant over the rows, Kronecker products as sums over pairs, semidefiniteness of inverses, sandwiches and Kronecker products |
| C94 | R2 and F of sur.cpp on the results of the model of Calculate | column variances of C86, least squares against the constant and against nested models |
| C95 | logL, aic, sic, hqic in real arithmetic (determinant and LAPACK by contract) | trace of the weighted residuals, ln x <= x - 1 for one equation; the maximum over covariances of several equations is not proved |
| C96 | sur_simulation.cpp with the split and the estimation of one draw as input, sqrt, Box-Cox and CRPS as parameters | invariant of the loop: sums over the usable draws so far; permutations |
| C97 | varma_simulation.cpp (both variants) with estimation and forecast as input | invariant of the loop over the origins; sorted horizons make the columns line up |
| C98 | the functions fun, gfun, hfun of EstimateBinary in real arithmetic; the normal distribution function is a parameter with the properties of DcSpec.normal_like (DcNormal constructs one) | calculus (Coquelicot); convexity by tangents, log-concavity of the normal cdf by a tail bound |
| C99 | fun, gfun, hfun of EstimateOrdered, both link functions, entry by entry | one general form of the branches; derivatives by the chain rule; every entry of the Hessian by cases |
| C100 | GetProbabilities row by row | induction over the choices (telescoping) |
| C101 | constructor, the checks of Calculate, the counts at the start of EstimateBinary/EstimateOrdered and the positions of all parts of the two buffers | the exact outcome by cases on the checks; counts by induction over rows; the buffers by arithmetic from any accepted call |
| C102 | constructor and Calculate of DiscreteChoiceExtended; estimation, probabilities and uninitialised memory are parameters; ROC and FrequencyCost by their arguments | reads through the column-wise storage; list induction; arithmetic of the sizes |
| C103 | constructor and Calculate of DiscreteChoiceSim; the outcome of an iteration is an input; ROC and FrequencyCost are parameters | invariant of the loop over the iterations; permutation lemmas |
| C104 | MatrixStandardized, PcaAnalysis::Calculate over R; dgesvd is a parameter with the contract `svd_sound`; unwritten rows of VT are arbitrary (`junk`) | Parseval and Bessel for orthonormal families, then algebra |
| C105 | MatrixStandardized::Calculate over R with NaN | sums; variance is 0 iff constant |
| C106 | GetCutoffColumn, options, CalculateForModel; sizes over Z | loop invariant for the cumulative sums; linear arithmetic for the buffers |
| C107 | SearcherReg::EstimateOne; the estimation is an arbitrary function | invariants of the fold over metrics and targets |
| C108 | EstimateOneReg of systems, SurModelset; estimation and simulation are parameters | list lemmas; induction over the loops of the constructor |
| C109 | the three Update functions | case analysis; position lemmas |
| C110 | SurExtended without principal components; limits over R with infinities and NaN | inversion of the call; linear arithmetic for the buffers |
| C111 | EstimateOneReg of discrete choice models and the constructors of searchers; estimation, probabilities and simulation are parameters; memory behind the data as a function | position lemmas of C109; induction over sizes |
| C112 | EstimateOneReg of VARMA models and the constructor of searchers; estimation, forecasts and simulation are parameters; indexes that are not checked are UB | position lemmas of C109; induction over orders and sizes |
| C113 | VarmaArma with the blocks of its storage (products, inverses and polynomials of C35/C38's model); LAPACK inverse of the identity as a contract | block-wise description of the polynomials, series inverse, uniqueness by induction over time |
| C114 | variance part of VarmaForecast::Calculate, with the split of its work array | loop invariant over the horizons; linearity of the equations of the model |
| C115 | all formulas of distributions_uni.cpp over doubles with infinities and NaN; gamma and log-gamma functions by contracts | factorial moments by infinite series |
| C116 | GetCdf; boost's incomplete gamma and beta functions by contracts (derivative and limits) | equality of the sums with the incomplete functions by derivatives |
| C117 | GetCdf and GetPdfOrPmf; erfc, gamma, beta and incomplete functions by contracts at the parameters of the distribution (derivative and limits) | derivatives of compositions; monotone functions from derivatives; for the example the error function is constructed (Gaussian integral) |
| C118 | GetQuantile for the continuous kinds; inverse functions of boost by contracts | strict monotonicity from the density; the distribution function of t with 1, 2, 4 degrees of freedom in closed form (equal derivatives up to a factor and equal limits); the inverse functions required are shown to exist |
| C119 | GetPdfOrPmfLog and GetPdfOrPmf; the log-gamma function by contract | logarithms of products and powers |
| C120 | GetSandardDeviation, GetMedian | substitution in the distribution function; partial sums of probabilities |
| C121 | GetMode with GetPdfOrPmf | ln t <= t - 1 for the continuous kinds; ratios of successive probabilities for the discrete ones |
| C122 | GetQuantile of discrete kinds | invariants of the two searches for any function that is a number everywhere |
| C123 | empirical103.cpp | position search as an invariant; straight lines with their inverse; the search of C56 for Combine |
| C124 | mixture.cpp | moments as values of an expectation operator, linear on polynomials of degree 4; mixtures of lattice distributions by series; folds for extremes |
| C125 | derivative.cpp | the extrapolation of one entry as elimination of powers of 1/T; quotients of polynomials are polynomials of the step; mean value theorem for convergence; writes of MakeTriangular0 over the pairs i <= j |
| C126 | matrix.cpp comparisons, queries, fills | loops over positions; positions and pairs of row and column correspond one to one |
| C127 | matrix.cpp SortRowsBy, SortColumnsBy | C28 row by row (column by column), induction over the list |
| C128 | matrix.cpp GetRange, Interpolate* | ranges of the series (C30); the loop in the matrix is simulated by that over a list (C14), as the places of a row or column are distinct |
| C129 | matrix.cpp MakeTriangular | the walk of the loop with div is the list of pairs of the triangle |
| C130 | distribution_gld.cpp constructor, GetQuantile, GetDensityQuantile | one formula with the transformed power for all branches; derivative, mean value theorem, limits in the shape |
| C131 | distribution_gld.cpp GetMk, GetMs | improper integrals (Coquelicot is_RInt_gen) of the expanded powers; boost's beta and digamma under the contracts that they are the integral of Euler and its derivative; such functions exist by completeness |
| C132 | distribution_gld.cpp GetFromMoments | integrals of the central moments; the variance is positive by Cauchy-Schwarz with a straight line; the optimizer is a parameter |

The trusted base is listed at the end of this file (kept current with `Print Assumptions`).

## Trusted base

1. The kernel of Coq 8.16.1 (with `vm_compute` used for closed examples and witnesses), and `coqc`'s parser and elaborator.
2. The axioms that `Print Assumptions` lists, all of the standard library (table below, regenerated by `tools/trusted.py`).
   They come with the classical real numbers of `Coq.Reals`, which are used where the code takes square roots, logarithms,
   powers or exponentials.
3. The reading of the C++ code recorded in the comment of every model definition.  Nothing connects the model to compiled code.
4. Contracts that appear as *hypotheses of the theorems*, never as axioms:
   * LAPACK `dgetrf`/`dgetri` as a function with `lapack_sound` (success gives the inverse), `lapack_complete n` (an invertible
     n x n matrix succeeds) and, in `sur_call`, "the array keeps its length";
   * LAPACK `dgesvd` with `svd_sound` (thin singular value decomposition, C104);
   * LAPACK `dposv` with `posv_sound` / `posv_complete n`;
   * the tail probability `pt` of the t distribution and the Cholesky determinant `det_pd` in the systems of equations: arbitrary functions;
   * random numbers: shuffles and draws are arbitrary functions of the state (theorems hold for every one of them);
   * objective functions of optimizers: arbitrary total functions.
5. Contracts built into the model (trusted as documented): BLAS `dgemm`, `dgemv`, `dsyrk`, `dsymm`, `ddot` compute the matrix
   products with exact arithmetic (`MatDotModel`, `CorModel`), `std::sort`/`std::stable_sort` with a strict weak order sort
   (`SortModel`), `std::stoi`, `std::to_string`, `std::round`, `std::floor` as documented.

<!-- assumptions begin -->
* **Closed under the global context** (no axiom): all 551 theorems not listed below.
* `ClassicalDedekindReals.sig_forall_dec` (1 theorems): c109_condition_refuted.
* `ClassicalDedekindReals.sig_forall_dec`, `FunctionalExtensionality.functional_extensionality_dep` (58 theorems): c99_symmetric, c111_metrics_partial, c111_first_refuted, c111_coefficients, c111_thresholds_refuted, c111_checks_partial, c111_missing_refuted, c111_dof_refuted, c111_searchers, c111_brier_refuted, c111_response_refuted, c111_costs_refuted, c125_first_converges, c125_throws, c125_shorter_refuted, c125_count_refuted, c130_constructor, c132_bounds, c124_new, c124_mean_variance, c124_cdf, c124_cdf_order, c124_extremes, c124_chosen, c124_support_size, c106_rate, c106_final, c106_validity_refuted, c109_refused, c109_accepted, c109_positions_partial, c109_reuse_refuted, c109_idempotent, c110_rows, c110_checks_partial, c110_checks_complete, c110_projections, c110_restrictions, c110_nan_refuted, c110_buffers_partial, c110_overlap_refuted, c108_metrics, c108_unsupported_refuted, c108_coefficients, c108_searchers_partial, c108_seeds, c108_groups_refuted, c117_accepted, c115_accepted, c112_metrics, c112_bounds, c112_checks_partial, c112_kept, c112_searchers, c112_dof_refuted, c112_predictions_refuted, c112_horizon_refuted, c112_index_refuted.
* `ClassicalDedekindReals.sig_forall_dec`, `ClassicalDedekindReals.sig_not_dec`, `FunctionalExtensionality.functional_extensionality_dep` (66 theorems): c88_pearson, c88_column, c88_pearson_nan, c88_spearman, c88_spearman_nan, c88_range, c88_extreme, c88_affine, c88_symmetric, c88_diagonal, c88_monotone, c88_constant_refuted, c88_counts_refuted, c88_column_variances_refuted, c98_calibrated, c100_binary, c100_ordered, c89_sums, c89_maximum, c89_correlation, c89_too_small, c89_triangle, c89_zero, c89_disjoint_refuted, c89_triangle_refuted, c89_maximum_nan_refuted, c131_order, c106_cutoff, c106_no_variance_refuted, c106_validity, c106_for_model, c106_constant, c106_too_many_refuted, c104_defined, c104_total_function, c104_directions, c104_uncorrelated, c104_products, c104_maximal, c104_total_variance, c104_ratios, c104_reconstruction, c104_forecast, c104_errors, c104_wide_refuted, c104_uncentered_refuted, c107_records, c107_once, c107_sound, c107_all_nan, c107_cancelled, c107_targets, c107_succeeds, c105_kept, c105_standard, c105_parts, c105_units, c105_override, c105_empty, c105_one_row_refuted, c108_equation, c108_unordered_refuted, c120_deviation, c112_equation, c112_unordered_refuted, c36_default_nan.
* `ClassicalDedekindReals.sig_forall_dec`, `ClassicalDedekindReals.sig_not_dec`, `Classical_Prop.classic`, `FunctionalExtensionality.functional_extensionality_dep` (98 theorems): c98_likelihood, c98_logit_derivatives, c98_probit_derivatives, c98_maximum, c98_weights, c98_row_order, c98_no_solution, c99_likelihood, c99_logit_derivatives, c99_probit_derivatives, c99_negative, c100_range, c100_negative, c125_first, c125_second, c125_second_converges, c125_zero_refuted, c79_skewness, c130_density, c130_increasing, c130_formula, c130_limit_first, c130_limit_second, c130_minus_infinity_refuted, c130_both_infinite_refuted, c131_moment, c131_zero_first_partial, c131_zero_second_partial, c131_contract, c131_all, c132_mean, c132_from_moments, c132_type8_refuted, c124_moments, c124_normal, c124_density, c124_discrete, c124_support, c124_support_throws, c124_nan_refuted, c124_support_refuted, c124_unbounded_refuted, c95_likelihood, c95_coefficients, c95_maximum_partial, c95_order, c95_formulas, c95_restricted_refuted, c116_cdf, c116_order, c116_infinity, c116_bernoulli_refuted, c116_binomial_refuted, c116_geometric_refuted, c117_density, c117_distribution, c117_outside, c117_zero_refuted, c117_point_refuted, c122_search, c122_nan_refuted, c122_bernoulli_refuted, c122_uniform_refuted, c119_continuous, c119_discrete, c119_zero_refuted, c119_certain_refuted, c120_lognormal_refuted, c120_continuous, c120_chi2_refuted, c120_discrete, c120_discrete_refuted, c121_continuous, c121_discrete, c121_beta_refuted, c121_binomial_refuted, c115_moments, c115_constant, c115_poisson_zero_refuted, c115_geometric_zero_refuted, c115_fraction_refuted, c115_properties, c115_maximum_refuted, c118_inverse, c118_round_trip, c118_increasing, c118_ends, c118_inverse_exists, c36_inverse, c36_inverse_weight, c36_order, c36_range, c24_inverse, c24_inverse_image, c24_formula, c24_increasing, c24_limit, c24_nan, c24_array, c24_negative.
<!-- assumptions end -->

### What is not modelled

* Rounding, overflow of `int` (except `std::stoi`), signed zeros, denormals; infinities and NaN only where the comment says so.
* Thread scheduling inside one estimation; the search with several workers is modelled through its merge of results (C13-C20), not
  through the memory model of C++.
* Exponential smoothing (`expsmoothing.cpp`), the generalized lambda distribution (`distribution_gld.cpp`), sampling and the
  empirical distribution of `distributions_uni.cpp` (its other functions are modelled in `UdModel.v`), mixtures, multivariate normal, the optimizer L-BFGS-B (external code),
  the initial values of discrete choice models (`EstimatePriorBinary`, `EstimatePriorOrdered`), principal components inside of extended models (`SurExtended`, `DiscreteChoiceExtended`), `VarmaExtended`, the likelihood of VARMA models, the R packages (`Rpackage*/`), `api.cpp`.
* Modelled files: see the citations; every definition in `*Model.v` names the file and lines.
