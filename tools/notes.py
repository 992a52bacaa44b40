STATUS={}
NOTES={
"C44":"Exact for partitions with sorted items and sorted first items; refuted for partitions whose first items are not sorted (the search stops early).",
"C60":"Exact characterisation proved; the claim that every model with a target is estimated is refuted when partitions are not ordered.",
"C22":"Exact for positive weights; refuted when the first weight is zero (0/0 makes the mean NaN for ever).",
"C48":"Lower bound always exact; upper bound exact when some upper end is at least DBL_MIN; refuted when all upper ends are negative (numeric_limits<double>::min() used as initial value).",
"C62":"Exact with at least one known observation; for every all-missing array the code dereferences a null pointer (refuted).",
"C05":"Membership, outside test and forward distance exact for all ranges; length exact for ranges of two or more days and refuted (8 instead of 1) for one-day ranges; backward distance exact when it does not cross the week end and refuted whenever it does.",
"C07":"Stepping, visiting order and construction proved for all ranges; Minus exact for ranges of two or more days, refuted for every one-day range (8n instead of n).",
"C08":"Proved for every underlying day; the Minus/CompareTo part excludes an underlying one-day daily-in-week range, for which it is refuted.",
"C10":"Proved inside the list; refuted outside: CompareTo ignores OutIndex.",
"C11":"Round trips proved for all other classes (years/days in the range of int / of boost dates; lists through ParseList). Refuted for an empty list and for lists read with the general Parse (items are never set; using the result is undefined).",
"C63":"Refuted: the constructor accepts a zero multiple; Minus then divides by zero.",
"C13":"Exact for every non-empty variable; refuted for an empty one (reads outside the array).",
"C14":"Exact for every non-empty array; refuted for the empty array (reads outside).",
"C15":"Exact from the start, and from the end when the size does not divide the length; otherwise an empty block is added in front (refuted, for every array).",
"C16":"Exact from the start. From the end: exact values, but the dates of the result do not follow the blocks (refuted).",
"C17":"Proved for variables with data and fields and no separator characters in names and keys, data up to half a unit of the 16th decimal; refuted for small numbers, no fields, no data.",
"C18":"Proved for all frequencies but lists; refuted for list frequencies (the order ignores the number of steps outside the list).",
"C20":"Exact for daily-in-week variables that start on the first day of the range and for date lists from their first date; refuted for other starts.",
"C21":"Exact for every non-empty array; refuted for the empty array.",
"C65":"Proved for 2 to 182 parts (exact arithmetic, which agrees with the doubles of the code in this range); refuted for one part a year (all years are merged).",
"C09":"Same place, same text and same list; the stored Value outside the list may differ, so equality is stated up to it.",
"C31":"Sorting proved for all vectors; SortByVector exact for non-empty vectors, refuted for an empty vector and negative positions (undefined behaviour).",
"C53":"Proved: the k-1 merges created last are undone, which is right when heights never fall in creation order; refuted in general with four items.",
"C54":"For single linkage no close pair is left, for complete linkage only close variables are removed; both directions of the full claim are refuted because the clustering overwrites the distances, and Removed has positions, not variables.",
"C66":"Proved for two or more items; one item reads outside an empty vector (refuted).",
"C68":"Refuted; the direction of the change for single and complete linkage is proved.",
"C69":"Groups do not depend on earlier calls; Removed and NaNDistanceFound do (refuted).",
"C25":"Proved for all shapes and indexes; Last() is refuted (reads behind the matrix).",
"C26":"Proved for square matrices and for all others whose index products fit an int; refuted for long row vectors (signed overflow) and empty non-square matrices (error).",
"C28":"Proved for requests that fit (starts not negative); refuted: negative starts, GetSub's storage check is reversed, listed indexes unchecked, SetColumnFromRow of non-square matrices, SetColumnFromColumn with another number of rows, sources too short.",
"C29":"Kronecker products and DiagDot proved; DotDiag proved for square matrices and refuted for others.",
"C71":"Proved relative to the contracts of the BLAS routines (modelled), for non-empty matrices; DotSym reads the other triangle than the caller names (refuted; right for fully stored symmetric matrices).",
"C30":"Proved for all matrices, selections and NaN patterns; column numbers outside the matrix are not checked (refuted).",
"C73":"Window and contents proved; refuted: windows that do not overlap give negative sizes instead of an error, an empty selection overflows, End is not set for a plain copy, marks of earlier data survive a second Data.",
"C33":"Proved: labels are checked, whenever the split succeeds it is a partition with the stated class sizes, and exactly when it succeeds. Refuted: (a) a largest class that is too small to fill the training part makes the test part overflow its storage before the size check throws; (b) the largest class may get no test row.",
"C34":"Proved (pair counting, ties, weights, tolerance, thresholds, costs of observations) for all inputs without the pessimistic option. Refuted: a cost matrix laid out as documented is always rejected; the pessimistic option changes the area even without ties.",
"C35":"Validation, brackets and charges proved for all tables, labels and weights; refuted: an accepted table need not reach 1, so probabilities above its last bound are charged from another column or read outside the table.",
"C36":"Over the real numbers (axioms of Coq's real numbers). The default minimum (NaN) gives NaN weights (c36_default_nan).",
"C24":"Over the real numbers (axioms of Coq's real numbers); includes monotonicity, the limit at lambda 0 and arrays.",
"C37":"Exact description of the accepted strings for ten enumerations; refuted: no string parses to RMSPE, ToString names of most enumerations are rejected by FromString, capital letters are rejected.",
"C38":"Products (scalar, matrix by matrix, matrix by scalar), powers, values, trimming, IsMonic and inversion (relative to the contract of dgetrf/dgetri) proved for all lengths and truncations. Refuted: a power of a polynomial longer than maxLength writes outside its storage; a second Calculate of a matrix-polynomial object appends to the first result; a singular first coefficient is not reported.",
"C39":"Errors, lag sets, parameter counts proved for every specification; order, largest lag and usable observations proved if the seasonal lags are behind the others. Refuted: for s <= p a lag is listed (and counted) twice, for p > s*P the last lag is taken for the largest.",
"C40":"Value at every point, degree and effect on every series, for any content of the work array of the declared size; integers without overflow of the coefficients.",
"C41":"Both forms proved. Refuted: repeated or invalid indexes write outside the storage; with fewer indexes than declared the error comes after zeros were written behind the storage.",
"C75":"Proved over the rationals (no NaN, no rounding).",
"C76":"Proved if no lag exceeds the last one in the list; refuted otherwise (p > s*P: always reads before the data).",
"C77":"The whole path (levels, differences, exogenous time, residual time) proved for every valid specification whose last lag is the largest. Missing: forecast variances. Refuted: MA lags longer than the sample and new exogenous data shorter than the horizon read outside the arrays; without the undifferenced data the path starts with differences taken for levels.",
"C78":"Proved for every non-empty array and level; refuted for an empty array (reads outside).",
"C79":"Minimum, maximum, mean, sums of squares for all lengths; variance, skewness (real numbers, sum of squares positive) and kurtosis up to 46340 observations. Refuted: MeanVariance divides by n for the sample variance and by n-1 otherwise; more than 46340 observations overflow an int.",
"C80":"Both filters proved for all lengths; refuted: a moving average without coefficients writes before its storage.",
"C81":"Additive and multiplicative decompositions proved if every season has a known value (multiplicative: no zero divisors); default coefficients are an error.",
"C82":"Optimality and uniqueness against every other line.",
 "C55": "Proved: every observation is counted exactly once for any data and axis; the exact counts for sorted data and increasing axes (half-open bins, last observation special); axis, range and bin number of Compute. Refuted: an untied largest observation on an inner axis point is counted one bin too low; ties at the last point are split; one bin counts observations outside of the range; negative bincount (documented as automatic) is undefined behaviour; automatic bincount is 0 for small samples; a given minimum above the data is not rejected.",
 "C58": "Proved for all matrices without NaN; Rank has no handling of NaN.",
 "C83": "Proved under the contract of LAPACK (exact inverse or info <> 0). Refuted: the check of the declared sizes is reversed (smaller data are refused, larger data are accepted and leave the arrays).",
 "C84": "Proved under the contract of LAPACK. The size check of Gls has the same defect as that of Ols.",
 "C56": "Proved under the contract of dposv. Exact numbers; minus infinity and NaN inside a gradient are not modelled. Refuted: Newton without line search never re-evaluates the gradient; Nelder-Mead with no number in the first simplex accesses index -1; bounds are soft (documented penalty), Minimize1's penalty vanishes at 0; Minimize1 cycles on ties.",
 "C85": "Defect: the place in a matrix without rows needs a division by zero (c85_empty_refuted). In a line without a number the place is not set.",
 "C86": "Defects: Mean with a check for NaN divides by the index which counts the NaNs (c86_mean_nan_refuted; right if NaNs come last, c86_mean_nan_partial); sample statistics of no observation are 0 instead of NaN (c86_all_nan_refuted, c86_no_rows_refuted); one row gives NaN where one number in several rows gives 0 (c86_one_row_refuted).",
 "C87": "Defects: no rows, or a pair of columns without complete rows for Spearman, is an exception in place of NaN (c87_no_rows_refuted); sample covariances of no pairs are 0 and one row differs between the two branches (c87_no_pairs_refuted).",
 "C88": "Real arithmetic is exact (no rounding). Defects: constant columns give NaN or 1 depending on the check for NaNs (c88_constant_refuted); the counts of the diagonal are never written (c88_counts_refuted); variances of CorrelationColumn with NaNs left out are divided by the number of rows (c88_column_variances_refuted).",
 "C89": "Real arithmetic is exact. Defects: with NaNs left out, two columns without a common observation have distance 0 (Euclidean, Manhattan, correlations) or -INFINITY (maximum) (c89_disjoint_refuted); the triangle inequality fails with NaNs left out (c89_triangle_refuted); the maximum ignores NaNs even without the check (c89_maximum_nan_refuted).",
 "C90": "Exact arithmetic; LAPACK's inverse is a parameter with the contract as hypothesis (sur_call), the tail probability of the t distribution and the Cholesky determinant are parameters. The t distribution has N degrees of freedom. The goodness-of-fit numbers are not in this property.",
 "C91": "Defects: the reported condition number is not that of the matrix that is inverted (c91_condition_refuted); a restricted model without restriction matrix reads a null pointer (c91_null_refuted).",
 "C92": "Defect: if all coefficients pass at once, the restriction matrix is left at zero and all standard errors are zero (c92_all_pass_refuted).",
 "C93": "Defects: after a search in which all coefficients pass, the variances lack the part of the coefficients (c93_all_pass_refuted); SurExtended makes unrestricted projections for a model that the search makes restricted, and then variances are an exception (c93_flag_refuted). Semidefiniteness for restricted models assumes that the first residual covariances are invertible.",
 "C94": "Defects: F divides by m(N-1) instead of m(k-1) (c94_f gives the exact factor, c94_f_refuted a case); without a constant R2 can be negative (c94_no_constant_refuted).",
 "C95": "Real arithmetic. Missing: the maximum over the covariances for several equations (c95_maximum_partial is for one equation; the maximum over the coefficients is proved for all). Defect: the criteria count restricted coefficients (c95_restricted_refuted).",
 "C96": "Defects: no usable draw gives NaN without an exception (c96_none_valid_refuted); the direction metric always fails (c96_direction_refuted); the Box-Cox inverse is applied to standard deviations (c96_boxcox_refuted). Cancellation and the random split are not in this model (the split is C32).",
 "C97": "Defects: with a smallest horizon above 1 the end of the loop counts as a failure (c97_break_refuted); the extended simulation gives NaN if all estimations fail (c97_ext_none_refuted) and does not reset its counts (c97_repeat_refuted); unsorted horizons give NaN (c97_unsorted_refuted); sign and MAPE differ from those of systems (c97_scores_refuted).",
 "C98": "Real arithmetic (no overflow of exp). The hypothesis that the gradient vanishes cannot always be met: data separated by a regressor pass all checks but have no maximum (c98_no_solution). The optimizer is C56.",
 "C99": "Real arithmetic. Cutoffs out of order are not excluded (restrictoffsets is false), then the logarithm of a negative probability is taken (c99_negative).",
 "C100": "Predicted probabilities of ordered models are negative exactly if cutoffs are out of order (c100_negative).",
 "C101": "The values of the dependent variable are not checked against 0, ..., choices - 1: they are accepted with wrong counts or used as indices out of range (c101_values_refuted).",
 "C102": "Without principal components (C104). Defects: with removed rows the Brier score reads other columns and uninitialised memory (c102_brier_nan_refuted); the work array is too short if many rows are predicted (c102_work_refuted); a reused object can write beyond its storage (c102_reuse_refuted); the columns of the new data are not checked (c102_prediction_columns_refuted); ordered models with scores always fail after the estimation (c102_ordered_details_refuted).",
 "C103": "Without principal components and cancellation. Defects: BrierScore is reset in each iteration, so the last one is reported (c103_brier_refuted); weights are used for Brier score and table even if unweighted evaluation is asked for (c103_weights_refuted); a simulation for the Brier score alone is rejected (c103_only_brier_refuted); ordered models are declared but never evaluated (c103_ordered_refuted); small training samples overflow the work array (c103_small_training_refuted).",
 "C104": "dgesvd by its contract. Defects: with fewer rows than columns the last columns of PCs are computed from uninitialised memory (c104_wide_refuted); without centering Stds are not standard deviations (c104_uncentered_refuted).",
 "C105": "Means and variances as formulas (the loops are C86). With a single row nothing is removed and all is NaN (c105_one_row_refuted).",
 "C106": "Defects: data without variance gives one component more than there are (c106_no_variance_refuted); negative counts pass CheckValidity (c106_validity_refuted); an exact count between the number of replaced variables and the number of variables passes the checks of the constructor and reads and writes beyond the matrices (c106_too_many_refuted); the size check is not enough for data with more columns than announced (c106_size_check_refuted).",
 "C107": "Estimation of one model is a parameter (C90-C96 for systems).",
 "C108": "Defects: metrics that systems do not have, or that are asked for twice, are evaluated to zero for every model (c108_unsupported_refuted); if the endogenous variables of a group are not ordered with the targets first, targets get the results of another equation (c108_unordered_refuted); a group whose targets come later is skipped or a group without a target makes the whole search fail (c108_groups_refuted).",
 "C109": "Defects: options that are used again for other metrics keep the old positions (c109_reuse_refuted); the limit of the condition number is ignored unless the estimation with all data was explicitly asked for (c109_condition_refuted).",
 "C110": "Without principal components. Defects: models with NaN as AIC, SIC or R2 pass every check (c110_nan_refuted); for data of another shape than announced the coefficients can be written into the copy of the data (c110_overlap_refuted).",
 "C111": "Defects: a Brier score, cost or AUC that is the first in-sample metric is never computed and all models get zero (c111_first_refuted); with missing values the Brier score uses entries of other variables (c111_missing_refuted); thresholds are never reported (c111_thresholds_refuted); the degrees of freedom are counted too low (c111_dof_refuted); a search with the Brier score as only score is impossible (c111_brier_refuted); the dependent variable is accepted as regressor and then memory is overwritten (c111_response_refuted); a cost metric in the first position needs no cost matrix (c111_costs_refuted).",
 "C112": "Defects: with a target behind another variable the predictions of another equation are recorded (c112_unordered_refuted); the check of the degrees of freedom ignores the coefficients of the lags (c112_dof_refuted); requested predictions are not reported if no option requires the estimation (c112_predictions_refuted); a bound for a later horizon is compared with memory behind the predictions (c112_horizon_refuted); the number of endogenous variables is accepted as an index (c112_index_refuted). c112_checks_partial: a NaN criterion passes its check.",
 "C113": "Defects: for a pure MA model the declared storage is one block too small and the function writes behind it (c113_storage_refuted); if a seasonal lag is also one of the other lags, one of its coefficients is ignored (c113_overlap_refuted).",
 "C114": "Defect: with the uncertainty of the coefficients the function always throws (c114_uncertainty_refuted).",
 "C115": "Defects: a Poisson distribution with mean 0 is accepted, but its probability at 0 is NaN (c115_poisson_zero_refuted); a geometric distribution with p = 0 is accepted, all its probabilities are zero (c115_geometric_zero_refuted); non-integer bounds of the discrete uniform distribution are accepted (c115_fraction_refuted); GetProperty returns the minimum for the property Maximum (c115_maximum_refuted).",
 "C116": "Defects: the Bernoulli distribution function at 0 is 0 instead of 1-p (c116_bernoulli_refuted), the binomial one at the number of trials is NaN (c116_binomial_refuted), the geometric one is not constant between integers (c116_geometric_refuted).",
 "C117": "Defects: a standard deviation of zero is accepted, the distribution function is NaN at the mean and the density is NaN everywhere (c117_zero_refuted); a uniform distribution with equal bounds is accepted (c117_point_refuted).",
 "C118": "c118_inverse_exists shows that the contracts of the inverse functions can be met for all proper distributions.",
 "C119": "Defects at the edges: at 0 the log density of an exponential distribution is minus infinity, of gamma with shape 1, chi-squared with 2 degrees of freedom and beta with first parameter 1 it is NaN, although the densities are positive (c119_zero_refuted); with success probability 1 the log probability of the only possible value is NaN (c119_certain_refuted).",
 "C120": "Defects: the standard deviation of a log-normal distribution is 1 divided by its first parameter (c120_lognormal_refuted); the median of chi-squared is an approximation (c120_chi2_refuted); the median of Poisson with mean 1/100 is -2, of a binomial distribution with one trial and p = 9/10 it is 0, of a geometric one with p = 1 it is 1 (c120_discrete_refuted).",
 "C121": "Defects: the mode of Beta(2, 1/2) is 2, outside of the bounds, of Beta(1, 1/2) it is 0, where the density is smallest (c121_beta_refuted); for binomial with p = 1 it is one more than the number of trials (c121_binomial_refuted).",
 "C122": "Defects: the geometric distribution with p = 1/1000 has no median (NaN: the start uses the variance for the standard deviation and the search stops after 100 steps; c122_nan_refuted); every quantile of a Bernoulli distribution is 1 (c122_bernoulli_refuted); the quantile of 6/10 for the uniform distribution on 0, 1 is 0 (c122_uniform_refuted).",
 "C123": "Defects: to the left of the first quantile the distribution function is decreasing and greater than 1 somewhere, to the right of the last one it is decreasing and negative somewhere, for every table (c123_tail_refuted: the sign of the shift); the argument NaN reads beyond the table (c123_nan_refuted); the combination of a table with itself differs from it when quantiles are more than 50 apart (c123_combine_refuted). Numbers are exact; in doubles floor(p * 100) / 100 may be one step off.",
 "C124": "Defects: a member whose mean does not exist is skipped, the mixture gets the mean of the others (c124_nan_refuted); the search of the largest value starts with the smallest positive double, so a mixture with negative values only gets a wrong size of its support (c124_support_refuted); without a largest value and without a requested one, infinity is converted to an integer (c124_unbounded_refuted). Numbers are exact; sampling from the member that is chosen is not modelled; the statement on the mass function does not cover members with one possible value only.",
 "C125": "Defects: an argument shorter than the announced length throws although the code means to accept it (c125_shorter_refuted); count = 0 uses a vector outside of its range (c125_count_refuted); a first quotient that is zero by chance makes the derivative zero (c125_zero_refuted). Numbers are exact; the work array is not modelled cell by cell.",
 "C126": "Defects: abs_diff of Equals is the difference of the last elements compared, not the largest one (c126_abs_diff_refuted); EqualsValueColumn does not check the column (c126_column_refuted). Numbers are exact.",
 "C127": "Defect: no rows (columns) dereferences the maximum of an empty list (c127_empty_refuted).",
 "C128": "Defects: a matrix without columns has the range 0..2147483647 (c128_no_columns_refuted); without a common time, gaps of later columns are not reported (c128_missing_refuted); an empty row or column is read (c128_empty_refuted). Numbers are exact.",
 "C129": "A symmetric matrix can be given row by row only and a lower triangle column by column only, else an exception (c129_order_refuted).",
 "C130": "Numbers are exact. Defects: a shape of minus infinity is taken for plus infinity (c130_minus_infinity_refuted); with both shapes infinite the quantile is constant and the density infinite (c130_both_infinite_refuted).",
 "C131": "boost's beta and digamma are assumed to be the integral of Euler and its derivative (beta_ok, digamma_ok; c131_contract shows that such functions exist). With a shape that is zero, orders 1 and 2 are proved (c131_zero_first_partial, c131_zero_second_partial; order 2 with both zero, and orders 3 and 4, are missing: polygamma).",
 "C132": "The optimizer is a parameter that honours the lower bounds. Skewness and kurtosis need shapes that are not zero. Defect: the objective of type 8 ignores the kurtosis in the region where its penalty is 0 (c132_type8_refuted).",
}
