import json
P=[]
def p(id,title,statement,quantifier,why,anchors):
    P.append(dict(id=id,title=title,statement=statement,quantifier=quantifier,why_tests_cant=why,anchors=anchors))
FY="src/frequency/f_year_based.cpp"
FH="include/frequency.h"
p("C01","Year-based calendars step exactly",
 "For every valid year-based frequency (yearly, multi-year, quarterly, monthly, x-times-a-year, x-times-z-years), Next(n) moves exactly n periods: Next(n) then Next(m) equals Next(n+m), Next(0) changes nothing, Next(n) then Next(-n) restores the frequency, and Minus between the moved and the original frequency is n.",
 "all valid year-based frequencies (any year, year-multiple >= 1, any partition count, any position) and all integer step counts",
 "a test samples some steps; boundary arithmetic (positions crossing a year in either direction, negative years) must be right for every combination",
 [FY+": FrequencyYearBased::Next, Minus, CompareTo",FH+": FrequencyYearBased"])
p("C02","Year-based comparison agrees with distance",
 "For two year-based frequencies of the same class on a common year grid, CompareTo reports after/equal/before exactly when Minus is positive/zero/negative, Minus is antisymmetric, and the order is total. IsNewerThan/IsOlderThan/IsEqualTo style wrappers agree.",
 "all pairs of comparable year-based frequencies",
 "ordering laws quantify over all pairs and triples",
 [FY+": FrequencyYearBased::CompareTo, Minus","src/frequency/f_base.cpp: Frequency::IsEqualTo, IsNewerThan"])
p("C03","Stepping never leaves the valid calendar",
 "After any sequence of Next calls a year-based (or partitioned-day) frequency still has a position between 1 and its partition count and the same class; constructors reject exactly the invalid positions.",
 "all valid starting frequencies and all finite sequences of step counts",
 "reachability over unbounded histories",
 [FY+": FrequencyYearBased::FrequencyYearBased, Next","src/frequency/f_day_based.cpp: FrequencyDayBased::Next"])
p("C04","Year-based frequencies survive text round trip",
 "Parsing ToString() with the class string ToClassString() of a valid year-based frequency gives back the same frequency (same class, year, multiple, partition and position).",
 "all valid year-based frequencies, any integer year",
 "string round trips must hold for each of infinitely many years/partitions and every class",
 [FY+": ToString, ToClassString, Parse0","src/frequency/f_base.cpp: Frequency::Parse, Frequency::GetClass"])
p("C05","Day-of-week ranges: length, membership, distance",
 "A day-of-week range start-end has as many days as can be visited walking forward from start to end inclusive; a day is inside the range iff the forward walk meets it; day distance forward (backward) is the number of forward (backward) day steps between the two days.",
 "all 49 ranges and all 7 days (finite, exhaustively lifted) and used inside the unbounded DailyInWeek theorems",
 "the existing tests check a handful of ranges; the single-day range and the backward distance are not covered",
 [FH+": DayOfWeekRange","src/frequency/f_base.cpp: DayOfWeekRange::GetLength, IsInRange, IsOutsideRange, Distance, NextDayOfWeek, PreviousDayOfWeek"])
p("C06","Daily/weekly calendars step exactly",
 "For daily, multi-daily(k), weekly and multi-weekly(k) frequencies: Next is additive and invertible, moves the date by n*k*(1 or 7) days, and Minus(Next(n)) = n; comparison agrees with date order.",
 "all dates, all k >= 1, all integer steps",
 "unbounded steps and dates",
 ["src/frequency/f_week_based.cpp: FrequencyWeekBased::Next, Minus, CompareTo"])
p("C07","Daily-in-week calendars visit every working day exactly once",
 "For a daily-in-week frequency with a range of days, Next(n) from a day inside the range is the n-th following (preceding, n<0) day inside the range: always inside the range, no working day skipped or repeated; Next is additive, invertible and Minus(Next(n)) = n. The constructor moves a day outside the range to the nearest later (earlier) working day.",
 "all dates, all ranges, all integer steps",
 "needs an induction over steps and a case analysis over wrap-around ranges such as fri-mon",
 ["src/frequency/f_week_based.cpp: FrequencyWeekBased ctor, Next, Minus","src/frequency/f_base.cpp: DayOfWeekRange"])
p("C08","Partitioned-day (hourly, minutely, secondly, x-times-a-day) calendars step exactly",
 "For a day-based frequency over any underlying week-based day, Next(n) advances n partitions, rolling into the next/previous day of the underlying calendar; it is additive, invertible and Minus(Next(n)) = n; CompareTo agrees with the sign of Minus.",
 "all underlying days, partition counts, positions and integer steps",
 "composition of two calendars over unbounded steps",
 ["src/frequency/f_day_based.cpp: FrequencyDayBased::Next, Minus, CompareTo"])
p("C09","List calendars step exactly, also outside the list",
 "For a list frequency with distinct items, Next(n) is additive, can be undone by Next(-n) and Minus(Next(n)) = n, including walks that leave the list on either side and come back: then the item is the one at the resulting index.",
 "all non-empty duplicate-free item lists, all start items, all sequences of steps",
 "out-of-list bookkeeping depends on history",
 ["src/frequency/f_list.cpp: FrequencyList::Next, Minus, GetIndex"])
p("C10","List calendars order consistently outside the list",
 "Comparison of two frequencies over the same list agrees with the sign of their distance even when one of them lies outside the list.",
 "all pairs of list frequencies on one list",
 "order laws over all pairs; out-of-list states are not compared by any test",
 ["src/frequency/f_list.cpp: FrequencyList::CompareTo, Minus"])
p("C11","Other calendars survive text round trip",
 "Parse(ToString, ToClassString) returns the same frequency for cross-section, daily, multi-daily, weekly, multi-weekly, daily-in-week, day-based and list frequencies with well-formed content.",
 "all such frequencies",
 "codec law over infinite domain",
 ["src/frequency/f_week_based.cpp","src/frequency/f_day_based.cpp","src/frequency/f_list.cpp","src/frequency/f_cross_section.cpp","src/frequency/f_base.cpp: Frequency::Parse"])
p("C12","A class string identifies its class",
 "Frequency::GetClass applied to the class string of a frequency returns the class of that frequency, i.e. the prefix tests in GetClass never send one class's string to another class.",
 "all frequencies of all classes",
 "prefix dispatch with case-insensitive tests; ambiguous for infinitely many strings",
 ["src/frequency/f_base.cpp: Frequency::GetClass"])
p("C13","Trim removes exactly the outer missing values and keeps dates",
 "Variable::Trim drops exactly the leading and trailing NaN observations, keeps every other observation in order, and advances the start frequency so every kept observation keeps its date; a variable whose data are all NaN is left unchanged and an invalid range is returned; an empty variable has no range.",
 "all data vectors and all start frequencies",
 "all NaN patterns",
 ["src/variable/variable.cpp: Variable::Trim","include/array.h: Array::GetRange"])
p("C14","Interpolation fills every interior gap and nothing else",
 "Interpolate replaces each NaN strictly between two known values by the straight line through the nearest known neighbours, leaves known values, leading and trailing NaN untouched, and returns the number of filled cells.",
 "all data vectors with any NaN pattern",
 "all gap patterns",
 ["src/array.cpp: Array::Interpolate","src/variable/variable.cpp: Variable::Interpolate"])
p("C15","Equal partitioning loses no data",
 "PartitionEqual splits an array into consecutive blocks of the given size whose concatenation is the array; only the last (first, when splitting from the end) block may be shorter; no block is empty.",
 "all arrays and all block sizes >= 1, both directions",
 "all lengths and sizes, in particular exact multiples",
 ["include/array.h: Array::PartitionEqual"])
p("C16","Aggregation to multi-day frequency",
 "Converting a daily variable to k-day frequency yields one aggregated value for each block of k consecutive days (from the chosen end), and the start date of the result is consistent with the block of the original data.",
 "all daily variables, all k, any aggregation function",
 "all lengths/remainders",
 ["src/variable/variable.cpp: Variable::ConvertTo_MultiDaily"])
p("C17","Variable text round trip",
 "Variable::Parse(ToString()) returns the same name, frequency, data and fields.",
 "all variables",
 "codec law; empty fields/data edge cases",
 ["src/variable/variable.cpp: Variable::ToString, Variable::Parse"])
p("C18","Variables are aligned by date",
 "Combining variables of one frequency class gives a table covering min start to max end; each observation of each variable sits on the row of its own date, all other cells are NaN; GetRange returns the row range of a variable.",
 "all non-empty collections of variables with arbitrary starts and lengths",
 "all relative offsets",
 ["src/variable/variables.cpp: Variables::Variables, GetRange"])
p("C19","Conversion to weekly keeps observations in their week",
 "Converting a daily variable to weekly puts the observation of each date into the week (starting at the requested day) which contains that date.",
 "all start dates, week-start days and lengths",
 "all offsets",
 ["src/variable/variable.cpp: Variable::ConvertTo_Weekly"])
p("C20","Conversion to daily keeps observations on their date",
 "Converting a daily-in-week variable or a date-list variable to daily puts each observation on its own date and NaN on the dates in between.",
 "all ranges, start dates, lengths; all date lists",
 "all offsets",
 ["src/variable/variable.cpp: Variable::ConvertTo_Daily"])
p("C21","Valid data range",
 "GetRange of an array returns the first and last non-NaN positions (an invalid range when there is none) and correctly reports whether a NaN lies between them; it never reads outside the array.",
 "all arrays including empty and all-NaN",
 "all NaN patterns",
 ["include/array.h: Array::GetRange","include/array.h: IndexRange"])
p("C22","Running moments equal batch moments",
 "Pushing weighted observations one at a time yields exactly the weighted mean and the 2nd, 3rd and 4th central moment sums of the whole sample (exact arithmetic); NaN values are skipped.",
 "all finite sequences of (value, weight) with positive weights",
 "identity over all sequences; tests check a few within tolerance",
 ["include/math/statistics/running.h: RunningMoments::PushNew","include/array.h: update_single_pass"])
p("C23","Combining running moments is concatenation and order-free",
 "Combining two running summaries equals the summary of the concatenated samples, so results do not depend on how a sample is split among searchers or on the order of combination.",
 "all pairs of samples, all merge trees / schedules",
 "schedule independence",
 ["include/math/statistics/running.h: RunningMoments::Combine","include/array.h: update_single_pass_combine","src/ldt_statistics/modeling/search/modelset.cpp: ModelSet::CombineMixture, CombineInclusionWeights, CombineCdfAt"])
p("C24","Box-Cox transform is invertible",
 "BoxCoxInv(BoxCox(x, lambda), lambda) = x for positive x and every lambda (incl. 0); a NaN lambda leaves the value unchanged.",
 "all positive reals x and all lambda",
 "real identity",
 ["include/array.h: Array::BoxCox, BoxCoxInv"])
p("C25","Matrix element access is bounds-checked and isolated",
 "Get/Set accept exactly the in-range (i,j); Set(i,j,v) changes element (i,j) and no other; distinct (i,j) never alias; out of range indices raise an error and change nothing.",
 "all shapes, indices and contents",
 "all shapes",
 ["src/matrix/matrix.cpp: Matrix::Get, Set, Get0, Set0, TranslateIndex"])
p("C26","In-place transpose is the transpose",
 "Matrix::Transpose() without a target swaps the dimensions and moves element (i,j) to (j,i) for every shape, terminates and touches only its own storage.",
 "all row/column counts and contents",
 "cycle-following permutation: correctness depends on number-theoretic properties of each shape",
 ["src/matrix/matrix.cpp: Matrix::Transpose"])
p("C27","Packed symmetric matrices store each unordered pair once",
 "MatrixSym maps {i,j} to a slot inside its storage, distinct pairs to distinct slots, get(i,j)=get(j,i), set then get returns the value and other pairs keep theirs; without diagonal, i=j is rejected.",
 "all sizes and index pairs",
 "index formula injectivity over all sizes",
 ["src/matrix/matrix_sym.cpp: MatrixSym::Get0, Set0, length_array"])
p("C28","Sub-matrix copies move exactly the block",
 "SetSub/GetSub/SetSubRow/SetRowFromRow/SetColumnFromColumn families copy exactly the requested block, leave the rest unchanged, and reject requests that do not fit (no out-of-bounds access).",
 "all shapes and block positions",
 "all geometries",
 ["src/matrix/matrix.cpp: Matrix::SetSub, GetSub, SetSubRow, SetColumnFromColumn, SetColumnFromRow, SetRowFromRow"])
p("C29","Kronecker and elementwise algebra",
 "Kron gives entry a[i,j]*b[k,l] at (i*p+k, j*q+l); KronIden/IdenKron/TrKronIden agree with Kron applied to the identity; DotDiag/DiagDot multiply by the diagonal matrix.",
 "all shapes and contents",
 "all shapes",
 ["src/matrix/matrix_la.cpp: Matrix::Kron, KronIden, IdenKron, TrKronIden, Dot"])
p("C30","Complete-case datasets",
 "Dataset selects exactly the requested columns of exactly the rows with no NaN (optionally infinity) in those columns, in order.",
 "all matrices, all column selections",
 "all missing patterns",
 ["src/matrix/dataset.cpp: Dataset::Calculate","src/matrix/matrix.cpp: Matrix::GetAnyNanRow"])
p("C31","Sorting by index is a stable permutation",
 "SortIndexes returns a permutation of the positions putting the values in ascending (descending) order, equal values in original order; applying it to rows/columns permutes data without loss.",
 "all vectors",
 "all inputs",
 ["include/helpers.h: SortIndexes","src/matrix/matrix.cpp: Matrix::SortIndicesVector, SortByVector"])
p("C32","Train/test split is a partition",
 "DataSplit yields a training part of the configured size N0 (0<N0<N) and a test part with the remaining rows; together they are a permutation of the data rows, for every shuffle outcome; invalid sizes are rejected.",
 "all data sets, sizes, and all random permutations",
 "all random outcomes",
 ["src/ldt_statistics/data_split.cpp: DataSplit::Calculate, Shuffle"])
p("C33","Stratified split keeps every class on both sides",
 "DataSplitDiscrete puts N0 rows into training and the rest into test, each row exactly once, and every class with at least two observations appears in both parts.",
 "all label vectors, ratios and shuffles",
 "all class-count vectors",
 ["src/ldt_statistics/data_split.cpp: DataSplitDiscrete::Calculate, Shuffle"])
p("C34","AUC is the concordance probability",
 "The area computed by ROC equals the (weighted) fraction of positive/negative pairs ranked correctly, ties counting one half; it lies in [0,1] and does not depend on the order of observations.",
 "all score/label/weight vectors with both classes present",
 "all inputs incl. ties",
 ["src/ldt_statistics/scoring/roc.cpp: ROC::Calculate","src/ldt_math/auc.cpp: AucPoints::Calculate"])
p("C35","Frequency cost looks up every probability in the table",
 "FrequencyCost charges each observation the cost in the row of its actual class and the column/row bracket containing its probability, averaged over weights; the cost-table validation guarantees that every probability in [0,1] has a bracket.",
 "all tables accepted by the validation and all probabilities in [0,1]",
 "all tables",
 ["src/ldt_statistics/scoring/frequency_cost.cpp: FrequencyCost::Check, Calculate"])
p("C36","Metric-to-weight transforms are inverse and order preserving",
 "FromWeight(ToWeight(m)) = m for each metric; larger weight means better metric according to IsPositiveOriented.",
 "all metric types, all real metric values and minima",
 "real monotonicity",
 ["src/ldt_statistics/scoring/scoring.cpp: GoodnessOfFit::ToWeight, FromWeight, IsPositiveOriented; Scoring::ToWeight, FromWeight, IsPositiveOriented"])
p("C37","Metric names round trip",
 "FromString_ScoringType(ToString(t)) = t for all scoring types (and likewise for goodness-of-fit, distance, linkage, descriptive and function types), for any case/abbreviation accepted.",
 "all enumeration values and all strings",
 "string dispatch over all strings; order of prefix tests matters",
 ["include/math/statistics/scoring.h: FromString_ScoringType, FromString_GoodnessOfFitType","include/math/statistics/clustering.h","include/array.h"])
p("C38","Polynomial algebra",
 "PolynomialMultiply returns the coefficients of the (truncated) product, PolynomialPower those of the power, and matrix-polynomial inversion returns B with A*B = I up to the requested degree.",
 "all polynomials, powers and truncation lengths",
 "algebraic identity over all degrees",
 ["src/ldt_math/polynomials/polynomial.cpp","src/ldt_math/polynomials/mpolynomial.cpp"])
p("C39","VARMA model sizes",
 "For every valid (p,d,q)x(P,D,Q)_s specification the lag lists are the lags of the model, ArMax/MaMax is the largest lag, the parameter counts equal lags*eqs+exo per equation, and T is the number of usable observations.",
 "all specifications",
 "all orders; overlapping seasonal lags are untested",
 ["src/ldt_statistics/modeling/time_series/varma/varma_sizes.cpp: ExpandPoly, VarmaSizes::VarmaSizes, Calculate, UpdateChanged"])
p("C40","Differencing polynomial",
 "DiffPoly is the expansion of (1-L)^d (1-L^s)^D, of degree d + s*D.",
 "all d, D, s",
 "all orders",
 ["src/ldt_statistics/modeling/time_series/varma/varma_sizes.cpp: ExpandPolyDiff"])
p("C41","VARMA restriction matrices",
 "With general restrictions the full parameter vector R*gamma is 0 at exactly the restricted parameters and carries the elements of gamma, in order, at the others; in the final form the moving average matrix of every lag is one element of gamma times the identity and all other parameters are free; R fits in the declared storage; invalid lists of restrictions are errors.",
 "all model sizes and lists of restricted parameters",
 "all shapes and index lists",
 ["src/ldt_statistics/modeling/time_series/varma/varma_restriction.cpp: VarmaRestriction::VarmaRestriction, Calculate"])
p("C42","The search visits every candidate model exactly once",
 "With no cancellation, a searcher with given partitions estimates every choice of `size` distinct partitions (containing the fixed leading ones) and one item from each, each exactly once, and then terminates.",
 "all lists of non-empty partitions, sizes, numbers of fixed partitions",
 "exhaustiveness of an odometer/combination generator over all shapes",
 ["src/ldt_statistics/modeling/search/searcher.cpp: Searcher::Start, next, move_next, Searcher::UpdateCurrent"])
p("C43","Expected number of models equals estimated number",
 "GetCount() equals the number of models the searcher estimates when not cancelled; without restrictions it is the elementary symmetric sum of partition sizes.",
 "all configurations incl. fixed items and the empty-target check",
 "all configurations",
 ["src/ldt_statistics/modeling/search/searcher.cpp: Searcher::GetCount, Start"])
p("C44","Fixed items restriction is exact",
 "With NumFixItems = m > 0, the models visited are exactly those whose first selected item is one of the first m items.",
 "all partition lists",
 "early termination in the generator is only right for sorted partitions",
 ["src/ldt_statistics/modeling/search/searcher.cpp: move_next"])
p("C45","Best-K list is the K best",
 "After any sequence of pushes, a summary's Bests holds min(K, n) estimations, sorted best first, and no discarded estimation is better than a kept one; ties keep the earlier one.",
 "all push sequences, K, orientation",
 "history property",
 ["src/ldt_statistics/modeling/search/summary.cpp: SearcherSummary::Push","include/math/statistics/inference/searchers.h: EstimationKeepComp"])
p("C46","Merged best-K list is global and schedule independent",
 "CombineBests over the summaries of all searchers gives the K best models of the whole search (by weight), and the resulting list of weights is the same for every order of searchers and every distribution of the models over searchers.",
 "all numbers of searchers, all distributions and orders",
 "schedule independence",
 ["src/ldt_statistics/modeling/search/modelset.cpp: ModelSet::CombineBests"])
p("C47","Search accounting adds up",
 "The searched count equals the number of estimations attempted; the failure table sums to the number of failed estimations, each message counted exactly as often as it occurred, over all searchers.",
 "all outcome sequences, all searchers",
 "history property",
 ["src/ldt_statistics/modeling/search/searcher.cpp: Searcher::AddState, Start","src/ldt_statistics/modeling/search/modelset.cpp: ModelSet::CombineInfo"])
p("C48","Extreme bounds are the true extremes",
 "The extreme bounds of a coefficient are the minimum of mean-m*sd and the maximum of mean+m*sd over all pushed estimations, also after combination over searchers.",
 "all push sequences",
 "sign patterns of all inputs",
 ["src/ldt_statistics/modeling/search/summary.cpp: SearcherSummary::SearcherSummary, Push","src/ldt_statistics/modeling/search/modelset.cpp: CombineExtremeBounds"])
p("C49","Inclusion weights",
 "The inclusion information of variable i is the mean weight of the models containing i, and the count of these models, over all searchers.",
 "all push sequences",
 "history property",
 ["src/ldt_statistics/modeling/search/summary.cpp: SearcherSummary::Push","src/ldt_statistics/modeling/search/modelset.cpp: CombineInclusionWeights"])
p("C50","Hierarchical clustering always finishes with a binary tree",
 "For every finite distance matrix (ties included) and each linkage, Calculate terminates after n-1 merges and never dereferences a missing neighbour; the nodes form a binary tree over the n items in which every non-root node is merged exactly once.",
 "all n >= 1 and all finite distance matrices",
 "termination with ties needs an invariant on the neighbour chain",
 ["src/ldt_statistics/clustering/hcluster.cpp: HCluster::Calculate, GetNearestNeighbor, Merge2"])
p("C51","Linkage distances",
 "The distance recorded at a merge is the minimum / maximum / mean of the pairwise item distances between the two merged clusters for single / complete / UPGMA linkage.",
 "all distance matrices",
 "Lance-Williams identity over all merge histories",
 ["src/ldt_statistics/clustering/hcluster.cpp: HCluster::CalculateDistance, Merge2"])
p("C52","Grouping is a partition into k non-empty groups",
 "Group with k slots (1<=k<=n) assigns every item to exactly one group, no group is empty, and every group is a cluster (subtree) of the dendrogram.",
 "all trees and k",
 "all trees",
 ["src/ldt_statistics/clustering/hcluster.cpp: HCluster::Group, set_group_var"])
p("C53","Grouping cuts the dendrogram at the highest merges",
 "The k groups are obtained by undoing the k-1 merges with the largest heights.",
 "all distance matrices",
 "merge order of the chain algorithm differs from height order",
 ["src/ldt_statistics/clustering/hcluster.cpp: HCluster::Group, Calculate"])
p("C54","Redundant-variable removal uses the data's distances",
 "With a removal threshold, a variable is removed from its group iff its distance to an earlier kept/member variable of the group is below the threshold, and Removed lists the removed variables.",
 "all data",
 "clustering overwrites the distance storage",
 ["src/ldt_statistics/clustering/group_data.cpp: GroupData::Calculate"])
p("C55","Histogram counts",
 "Histogram bin counts add up to the number of observations and each count is the number of observations in its bin (below, between consecutive axis points, above).",
 "all sorted data and axes",
 "boundary cases",
 ["src/ldt_statistics/distributions/histogram.cpp: fill, Histogram::Compute"])
p("C56","Optimizers never return a worse point",
"Newton with the line search returns a point, its value and its gradient, with a value not larger than at the start; a line search that succeeds satisfies the Wolfe conditions; for a quadratic function with a positive definite matrix the result is the minimum. Nelder-Mead adjusts the start to the bounds, performs the documented iterations (reflect, expand, contract, shrink) until the tolerance or the maximum number of iterations, and returns the best point with its value, not larger than at the start; the result respects the bounds. Minimize1 returns a value not larger than at the start, and when it stops before the maximum number of iterations the minimum of a function with a single minimum is within the tolerance.",
"all objective functions (also with NaN, infinity, exceptions), starting points, bounds and options",
"all objective functions",
["src/ldt_math/optimization/newton.cpp","src/ldt_math/optimization/nelder_mead.cpp"])

p("C57","Split and Join are inverse",
 "Splitting a joined list on the separator returns the list when no item contains the separator; number of pieces is the number of separators plus one.",
 "all strings",
 "all strings",
 ["include/helpers.h: Split, SplitMultiple, Join"])
p("C58","Rank correlation ranks",
 "Rank assigns to every value the number of strictly smaller (larger, descending) values, hence equal values share a rank and the ranking is invariant under strictly increasing transforms.",
 "all vectors",
 "all ties patterns",
 ["src/ldt_statistics/statistics/statistics.cpp: Rank::Calculate"])
p("C59","Cancellation is prompt and consistent",
 "If cancellation is requested, a searcher estimates at most the model in progress, and counters/failure tables/best lists describe exactly the models estimated until then (a prefix of the full enumeration).",
 "all cancellation points",
 "every crash/cancel point",
 ["src/ldt_statistics/modeling/search/searcher.cpp: Searcher::Start"])
p("C60","Empty-target check skips exactly the models without a target",
 "With CheckForEmpty, a candidate model is estimated iff it contains at least one target variable (index below LengthTargets).",
 "all partitions and sizes",
 "all partition layouts",
 ["src/ldt_statistics/modeling/search/searcher.cpp: Searcher::Start, GetCount"])
p("C61","Mixture summaries are exact","Combining (mean, variance, weight) of normal estimates one after the other gives exactly the count, total weight, mean, variance, third and fourth central moment of the weighted mixture of these normal distributions.","all non-empty lists of (mean, variance, positive weight)","holds for every sequence; tests check a few",["include/math/statistics/running.h: RunningMoments::Combine","src/ldt_statistics/modeling/search/summary.cpp: SearcherSummary::Push"])
p("C62","Array mean and variance skip missing values","Array mean and variance with NaN-skipping return the (weighted) mean and population variance of the known observations, for every array, NaN when there is none.","all arrays of doubles and NaN, all positive weights","all positions and numbers of missing values",["include/array.h: Array::Moments, Mean, Variance"])
p("C63","Year multiples are validated","A year-based frequency whose year multiple is not positive is rejected, since it cannot count periods: with an accepted multiple Next moves and Minus never divides by zero.","all year multiples","all integers",["src/frequency/f_year_based.cpp: FrequencyYearBased constructor, Minus"])
p("C64","Month-based periods of the year","Converting a daily variable to 1, 2, 3, 4, 6, 12 or 24 month-based periods a year gives, without gaps from the period of the first day, one value for each period met; each value is the aggregate of exactly the observations whose date lies in that period.","all start dates, lengths and data, all aggregate functions","all dates, leap years, year ends and lengths",["include/variable.h: ConvertTo_XxYear_month_based, get_part_month_based"])
p("C65","Equal parts of the year","Converting a daily variable to x equal parts a year gives, without gaps from the part of the first day, one value for each part met; each value is the aggregate of exactly the observations whose date lies in that part.","all start dates, lengths, data and numbers of parts up to 182","all dates, leap years, year ends, numbers of parts",["src/variable/variable.cpp: ConvertTo_XxYear, get_part"])
p("C66","MergeR gives a valid R hclust merge matrix",
 "For n >= 2 items MergeR returns n-1 rows in the order of the heights; every item and every row but the last appears exactly once, a row only refers to earlier rows, and following the entries of a row gives exactly the items of the merge at that height.",
 "all linkages, n and distance matrices",
 "rows are renumbered after sorting by height; correctness needs monotone heights for every input",
 ["src/ldt_statistics/clustering/hcluster.cpp: HCluster::MergeR","Rpackage/src/r_clustering.cpp: ClusterH"])
p("C67","Dendrograms have no inversions",
 "For every linkage the height of a merge is at least the heights of the merges below it.",
 "all linkages, n and distance matrices",
 "all inputs; depends on the neighbour chain only merging reciprocal nearest neighbours",
 ["src/ldt_statistics/clustering/hcluster.cpp: HCluster::Calculate, CalculateDistance"])
p("C68","Clustering leaves the caller's distances alone",
 "Calculate does not change the distance vector the caller passed (from R: the numeric vector).",
 "all linkages, n and distance matrices",
 "all inputs",
 ["src/ldt_statistics/clustering/hcluster.cpp: HCluster::Merge2","Rpackage/src/r_clustering.cpp: ClusterH"])
p("C69","Grouping is independent of earlier calls",
 "Calculate on a GroupData object gives the same groups, removed set and NaN flag as on a new object.",
 "all histories of calls",
 "all histories",
 ["src/ldt_statistics/clustering/group_data.cpp: GroupData::Calculate"])
M1="src/matrix/matrix.cpp"; M2="src/matrix/matrix_la.cpp"
p("C70","Removing NaN or columns in place keeps the rest",
 "RemoveNanVector_in keeps exactly the elements that are not NaN (or infinite, if asked), in order, as a vector; RemoveColumnsIn keeps exactly the columns not listed and RemoveColumnsAnyNan_in exactly the columns without NaN, each unchanged and in order, without touching anything behind the matrix.",
 "all shapes, contents, column lists",
 "the copy happens inside the same storage, so the order of reads and writes must be right for every pattern of removed columns",
 [M1+": RemoveNanVector_in, RemoveColumnsIn, RemoveColumnsAnyNan_in"])
p("C71","Matrix products are the textbook products",
 "Dot, DotTr, TrDot, TrDotTr, DotVector, tDotVector, Dot_AAt, Dot_AtA, SymDot and DotSym set the storage to alpha * op(A) * op(B) + beta * storage, reject matrices whose sizes do not fit, and read a symmetric matrix only from the triangle the caller names; Dot_AtA_nan sums and counts the pairs in which neither value is NaN.",
 "all non-empty shapes, all contents, all alpha and beta",
 "the sizes, transposition flags and leading dimensions handed to BLAS must be right for every shape; square test matrices hide mistakes",
 [M1+": Dot, DotTr, TrDot, TrDotTr, DotVector, tDotVector, Dot_AAt, Dot_AtA, Dot_AtA_nan, SymDot, DotSym",M2+": the same with suffix 0"])
p("C72","Element-wise operations act on every element",
 "Add, Subtract, Multiply, Divide with a number or a matrix, into a storage or in place, apply the operation to every element and change nothing else; Multiply with beta adds beta times the old storage; sizes that differ are errors.",
 "all shapes and contents",
 "every element and every shape",
 [M1+": Add, Multiply, Subtract, Divide, Add_in, Multiply_in, Subtract_in, Divide_in"])
p("C73","Time-series data sets are the common window",
 "DatasetTs::Data marks exactly the variables with a NaN between known values and rejects a variable without known values; Update then returns the window of exactly the times at which no selected variable is before its first or after its last known value, with the selected variables in the order asked for; a window is never of negative length.",
 "all matrices, orientations, selections; every reuse of the object",
 "the window is an intersection over an arbitrary selection of arbitrary NaN patterns, and the object is reused with other data",
 ["src/matrix/dataset.cpp: DatasetTs::Data, DatasetTs::Update, biggestWithoutNaN","src/matrix/matrix.cpp: GetRangeRow, GetRangeColumn"])
p("C74","Area below a polygon of points",
 "AucPoints returns the sum of the signed trapezoids between consecutive points and the base line; the vertical area is the horizontal area of the mirrored points; the two areas of a path add up to the difference of the corner rectangles.",
 "all lists of points and base lines",
 "an identity over all point lists of all lengths",
 ["src/ldt_math/auc.cpp: AucPoints"])
p("C75","Differencing and undoing it",
 "Varma::Difference applies the lag polynomial to every row; Varma::UnDiferences rebuilds the level series from the first observations and the differences, so that it is the inverse of Difference and its output has exactly the given differences.",
 "all lag polynomials, all data sizes",
 "identity for all series, orders and horizons",
 ["src/ldt_statistics/modeling/time_series/varma/varma.cpp: Varma::Difference, Varma::UnDiferences"])
p("C76","Data of the VARMA regression",
 "EstimateOls regresses the differenced data of the usable sample on exactly its lags and the exogenous variables of the same time, for every lag structure, without reading outside the data.",
 "all valid specifications, data and sample ends",
 "index arithmetic over all lag structures",
 ["src/ldt_statistics/modeling/time_series/varma/varma.cpp: Varma::EstimateOls (lines 62-122)"])
p("C77","VARMA forecasts continue the data by the equations of the model",
 "The array of forecasts starts with the last observations of the sample (in levels) and continues with values whose differences satisfy the equations of the estimated model: coefficients times the lagged differences of the path, the exogenous variables of the same time and the past residuals, with zero future errors; a short sample, a horizon above the declared one, missing coefficients or exogenous data that is too short are errors; nothing outside the arrays is read.",
 "all valid specifications, data, coefficients, residuals, horizons and both layouts of exogenous data",
 "a recursion of any length over any lag structure with three time origins",
 ["src/ldt_statistics/modeling/time_series/varma/varma_forecast.cpp: VarmaForecast::Calculate, xtprime (lines 42-179)"])
p("C78","Quantiles of sorted data",
 "QuantileSorted returns, for every level, the linear interpolation of the sorted observations at position (n+1/3) tau + 1/3: never outside the range of the data, never decreasing in the level, and the minimum and maximum at the ends.",
 "all non-empty sorted arrays and levels",
 "monotonicity and bounds for every level and length",
 ["src/ldt_statistics/statistics/descriptive.cpp: Descriptive::QuantileSorted (lines 345-364)"])
p("C79","Descriptive moments",
 "Minimum, maximum, mean, variance, skewness, kurtosis and sum of squares of an array are those of the textbook definitions (sample or population as requested), for arrays of every length.",
 "all arrays",
 "one-pass updates against sums over the whole array, for all lengths",
 ["src/ldt_statistics/statistics/descriptive.cpp: Descriptive::Minimum, Maximum, MeanVariance, MeanVarianceKurtosisSkewness, SumOfSquares (lines 14-155, 314-343)"])
p("C80","Linear filters",
 "FilterAr returns the recursion y(i) = x(i) + sum c(j) y(i-1-j) after copying the first k observations; FilterMa returns the weighted sum of the k observations around (or before) each time exactly where all of them exist and NaN elsewhere; neither reads or writes outside its arrays.",
 "all arrays, coefficients and storages",
 "index arithmetic for all lengths, orders and offsets",
 ["src/ldt_statistics/statistics/descriptive.cpp: Descriptive::FilterAr, FilterMa (lines 157-203)"])
p("C81","Seasonal decomposition",
 "The decomposition by moving averages returns parts that add up (multiply) to the data wherever the trend exists, a seasonal part of period s, and seasonal indexes with sum zero (mean one).",
 "all series, coefficients and numbers of seasons",
 "identities between five passes over arrays of any length",
 ["src/ldt_statistics/statistics/descriptive.cpp: Descriptive::SeasonalDecompositionMa (lines 205-291)"])
p("C82","Regression on a trend",
 "RegressionTrend returns the intercept and slope with the smallest sum of squared errors among all lines; fewer than two observations are an error.",
 "all arrays and all competing lines",
 "optimality against infinitely many lines, for every length",
 ["src/ldt_statistics/statistics/descriptive.cpp: Descriptive::RegressionTrend (lines 293-312)", "src/matrix/matrix_la.cpp: Matrix::Inv2x2 (lines 516-539)"])
p("C83","Ordinary least squares",
 "Ols::Calculate returns the coefficients for which the residuals are orthogonal to every explanatory variable; they are the only ones and no other coefficients have a smaller sum of squared residuals in any equation. It succeeds if X'X is invertible and the data have the declared size; the residuals and their cross products are those of these coefficients. Data larger than the declared size are refused and smaller data are accepted.",
 "all data, all competing coefficients, all declared sizes",
 "optimality against infinitely many coefficients, for every size",
 ["src/ldt_statistics/statistics/statistics.cpp: Ols (lines 72-145)", "src/matrix/matrix_la.cpp: Inv00, Dot0, DotTr0, TrDot0"])
p("C84","Generalized least squares",
 "Gls::Calculate with a matrix of weights (or the covariance matrix, which is then inverted) returns the only solution of X'W(Y-XB)=0, which minimizes the weighted sum of squares; with the identity it returns the same as Ols.",
 "all data, all weights, all competing coefficients",
 "optimality against infinitely many coefficients, for every size",
 ["src/ldt_statistics/statistics/statistics.cpp: Gls (lines 146-231)"])
p("C85","Largest and smallest elements",
 "Matrix Maximum and Minimum return the largest (smallest) number of the matrix, NaN left out, and an infinity if there is none; max and min also return the first place of that number in column order; MaximumInRow, MinimumInRow, MaximumInColumn and MinimumInColumn do so for one row or column.",
 "every matrix, with any NaN elements; every row and column",
 "tests look at a few matrices; ties, NaNs at the start and all-NaN lines matter",
 ["src/matrix/matrix.cpp: Matrix::Maximum, Minimum, max, min, MaximumInRow, MinimumInRow, MaximumInColumn, MinimumInColumn"])
p("C86","Means, variances and covariances of matrices and columns",
 "Sum, Trace, Mean, Variance, VarianceColumn, CovarianceColumn, RowsSum, ColumnsSum, ColumnsMean, ColumnsVariance, ColumnsMeans, ColumnsVariances and ColumnsMeansVariances return the textbook statistics: a NaN makes the result NaN unless NaNs are left out, and then the statistic is that of the numbers (of the complete pairs), with their number as count; covariances are symmetric and bounded by the variances.",
 "every matrix, NaN pattern, list of columns, sample or population",
 "the single-pass updates must equal the definitions for all data; the divisor and the count depend on the NaN pattern",
 ["src/matrix/matrix.cpp: Matrix::Mean, Variance, VarianceColumn, CovarianceColumn, RowsSum, ColumnsSum, ColumnsMean, ColumnsVariance, ColumnsMeans, ColumnsVariances, ColumnsMeansVariances"])
p("C87","Covariance matrices",
 "Correlation with kCovariance fills the result with the covariances of the columns (population or sample): Pearson from the values, Spearman from the ranks, with NaNs left out pairwise if asked, the counts being the numbers of complete pairs; the whole matrix or (without setLower) at least the part on and above the diagonal is written; the matrix is symmetric and, without NaNs, positive semidefinite; Spearman covariances do not change under increasing transformations; StorageSize and WorkSize are enough.",
 "every matrix, NaN pattern, both methods, sample or population, with or without the lower part",
 "the matrix product, the ranks and the pairwise loops must agree with the definition for all data and all NaN patterns; semidefiniteness is a statement about all vectors",
 ["src/ldt_statistics/correlation.cpp","include/math/statistics/correlation.h","Correlation::Calculate","Matrix::CovarianceColumn","Rank::Calculate"])
p("C88","Correlations",
 "Correlation with kCorrelation and Matrix::CorrelationColumn return the correlation coefficients: between -1 and 1, symmetric, 1 on the diagonal, 1 (or -1) exactly when the points lie on an increasing (decreasing) line, unchanged by a change of units; Spearman's are the correlations of the ranks and do not change under increasing transformations; NaNs are left out pairwise if asked and the counts are the numbers of complete pairs; a constant column has no correlation.",
 "every matrix of rational numbers and NaNs, both methods",
 "the coefficient involves square roots, so tests check it on a few values up to rounding; range, equality cases and invariances are statements about all data",
 ["src/ldt_statistics/correlation.cpp","src/matrix/matrix.cpp","Correlation::Calculate","Matrix::CorrelationColumn","Matrix::ColumnsStandard"])
p("C89","Distances of columns",
 "Distance::Calculate fills the symmetric matrix of distances of the columns: Euclidean, Manhattan, maximum, sqrt((1-r)/2) and sqrt(1-r^2) with Pearson's or Spearman's r; NaNs are left out pairwise if asked and make the distance NaN otherwise. For data without NaN (and, for correlations, without constant columns) each is a distance: symmetric, never negative, zero exactly for equal columns (columns on an increasing line, on a line), at most 1 for correlations, and the triangle inequality holds. An object made for fewer columns throws.",
 "every matrix of rational numbers and NaNs, every method, object size and content of the arrays",
 "the triangle inequality and the characterisation of zero range over all triples of columns; sizes of the packed storage and the object's own number of columns interact for every size",
 ["src/ldt_statistics/clustering/distance.cpp","include/math/statistics/clustering.h","Distance::Calculate","Distance::Distance"])
p("C90","Unrestricted systems of equations",
 "Sur::Calculate without restrictions estimates every equation by least squares: no other coefficients have a sum of squared residuals as small; fitted values, residuals and residual covariances (E'E/N) belong to the coefficients; the covariance of the coefficients is that of the residuals times the inverse of X'X; the condition number is the product of the norms of X'X and its inverse and at least 1; standard errors and two-sided probabilities follow from the covariances; the reported array sizes are enough and the parts do not overlap; data that are too large, missing, or restrictions that do not fit are rejected, and a singular X'X is an exception.",
 "every data set, number of equations and variables, content of the arrays, declared object",
 "optimality is against infinitely many coefficients; memory safety is for every size and option",
 ["src/ldt_statistics/modeling/linear/sur.cpp: Sur::Sur, Calculate, estim_un, calculate_details","include/math/statistics/inference/models/sur.h"])
p("C91","Systems with linear restrictions",
 "Sur::Calculate with a matrix R of restrictions estimates the free coefficients g of B = R g by generalised least squares, weighted with the inverse of the residual covariances of a first estimate: they minimise the weighted sum of squares among all B = R g and are the only ones; their covariance is the inverse of the information matrix; if all coefficients are free (R invertible) the result is that of least squares; standard errors follow from R.",
 "every data set, R, content of the arrays",
 "optimality against infinitely many coefficients; equality of two different algorithms for all data",
 ["src/ldt_statistics/modeling/linear/sur.cpp: Sur::estim_r, Calculate, calculate_details"])
p("C92","Search for significant coefficients",
 "Sur::Calculate with a significance search removes coefficients whose probability exceeds the limit until all that are left are significant or the number of iterations is reached: the result of a finished search is a fixed point, at most one iteration per coefficient is needed, R picks the coefficients that are left, removed ones are zero, and those that are left minimise the weighted sum of squares among all coefficients that vanish elsewhere.",
 "every data set, limit and number of iterations",
 "the number of iterations and the sequence of models depend on the data; tests look at one history",
 ["src/ldt_statistics/modeling/linear/sur.cpp: Sur::estim_search, Calculate"])
p("C93","Projections with systems of equations",
 "SurProjection::Calculate returns x'B for every row and, if asked, the variances (residual covariances plus x' Cov(B) x, with Cov(B) = R V R' for restricted models) and the covariance matrix of the last row; covariances are positive semidefinite and variances never below those of the residuals; for the data of the estimation the projections are the fitted values; every estimated model can be projected; the reported sizes are enough, the parts do not overlap, and objects made for less data or another number of variables throw.",
 "every estimated model (unrestricted, restricted, after a search), every new data set, every content of the arrays",
 "semidefiniteness ranges over all vectors, memory safety over all sizes; the model's kind and the projection's flag interact",
 ["src/ldt_statistics/modeling/linear/sur_projection.cpp: SurProjection::SurProjection, Calculate","src/matrix/matrix.cpp: Matrix::SetRow0, GetRow0, SetRowFromDiag0"])
p("C94","Goodness of fit of systems of equations",
 "The R2 that Sur reports is 1 - SSR/SST over all equations, of the reported residuals (NaN without variation or with one observation); without restrictions and with a constant it is between 0 and 1, and 1 only for a perfect fit; more variables never lower it and restrictions never raise it; F is the usual statistic for no effect.",
 "every data set, number of equations and variables, every kind of estimation",
 "inequalities between estimations of nested models range over all data",
 ["src/ldt_statistics/modeling/linear/sur.cpp: R2, F, Sur::calculate_details","src/matrix/matrix.cpp: Matrix::ColumnsVariances"])
p("C95","Likelihood and information criteria of systems of equations",
 "The log-likelihood that Sur reports is that of the reported residuals as independent normal vectors with the reported covariances; the estimated coefficients (and, with one equation, the variance) maximise it; for models of the same size Aic, Sic and Hqic order as the likelihood does, and they count the estimated coefficients.",
 "every data set, all alternative coefficients and variances",
 "a maximum over all coefficients and variances cannot be sampled",
 ["src/ldt_statistics/modeling/linear/sur.cpp: logL, aic, sic, hqic, Sur::calculate_details"])
p("C96","Out-of-sample simulation of systems of equations",
 "Each value SurSimulation reports is the mean score over all test observations of all usable draws (its root for RMSE and RMSPE, in percent for MAPE and RMSPE); failed draws, those with too large a condition number and those with NaN are left out and counted by their reason; the order of the draws does not matter; the call fails exactly if more draws than allowed are unusable.",
 "every sequence of draws, number of equations, metrics and parameters",
 "which draws fail depends on random splits; the means and counts must be right for every sequence of outcomes",
 ["src/ldt_statistics/modeling/linear/sur_simulation.cpp: SurSimulation::Calculate, SurSimulation::AddError, sumScores","src/ldt_statistics/scoring/scoring.cpp: Scoring::RequiresVariance"])
p("C97","Out-of-sample simulation of VARMA models",
 "Each value VarmaSimulation reports is the mean score over all pairs of a successful estimation without the last s observations and a horizon h <= s, comparing the h-step forecast with the observation h steps after the last one used, so nothing is compared with data used in the estimation; failures are counted; previous estimates are used only after a success; direction and sign are in [0, 1].",
 "every data set, list of horizons and metrics, and every pattern of failing estimations",
 "the pattern of failures is not under control of a test; index arithmetic must hold for all sizes",
 ["src/ldt_statistics/modeling/time_series/varma/varma_simulation.cpp: VarmaSimulation::Calculate, VarmaSimulation::CalculateE, GetScore, VarmaSimulation::AddError"])
p("C98","Binary discrete choice: likelihood, derivatives, maximum",
 "The value minimized for a binary logit or probit model is minus the (weighted) log-likelihood of the observed choices; the gradient and Hessian given to the optimizer are its first and second derivatives; coefficients at which the gradient vanishes have the highest likelihood of all; with a constant, the fitted logit probabilities of choice 1 add up to its number of occurrences; a weight of m is the same as m copies of the row and the order of rows does not matter.",
 "every number of rows and regressors, all data with choices 0 and 1, non-negative weights and coefficients",
 "derivatives and global maxima are statements about all coefficients; a test compares a few estimates with another package",
 ["src/ldt_statistics/modeling/discrete/discrete_choice.cpp: DiscreteChoice::EstimateBinary"])
p("C99","Ordered discrete choice: likelihood and derivatives",
 "The value minimized for an ordered logit or probit model with any number of choices is minus the weighted log-likelihood, with cutoff 0 below choice 1 and estimated cutoffs above; the gradient and the (symmetric) Hessian given to the optimizer are its first and second derivatives with respect to slopes and cutoffs wherever the probabilities of the observed choices are positive.",
 "every number of choices, rows and regressors, all data, weights and parameters",
 "each choice has its own branch and entries in the Hessian; all numbers of choices and parameter values are covered",
 ["src/ldt_statistics/modeling/discrete/discrete_choice.cpp: DiscreteChoice::EstimateOrdered, ordermu"])
p("C100","Predicted probabilities of discrete choice models",
 "GetProbabilities gives in column m of a row the probability of choice m that the likelihood uses; every row adds up to 1; binary probabilities lie in (0, 1); those of ordered models are non-negative if the cutoffs do not decrease.",
 "every model, number of choices, row of regressors and parameters",
 "sums and ranges must hold for all parameters an optimizer may return",
 ["src/ldt_statistics/modeling/discrete/discrete_choice.cpp: DiscreteChoice::GetProbabilities"])
p("C101","Discrete choice: checks, counts and buffers",
 "Calculate starts the estimation exactly if the lengths agree, the problem is not larger than declared and every choice has a positive weight; the counts it reports are the weights of the choices; if the number of choices is not given it is the largest value plus 1; the results, the initial values and the estimation stay, without overlap, in the announced storage and work arrays.",
 "both model types, all sizes of the data and of the declaration, all dependent data, weights and numbers of choices",
 "buffer positions and the size check interact for all combinations of sizes, including reuse of an object for other sizes",
 ["src/ldt_statistics/modeling/discrete/discrete_choice.cpp: DiscreteChoice constructor, DiscreteChoice::Calculate, EstimateBinary, EstimateOrdered"])
p("C102","Discrete choice with prediction and in-sample scores",
 "DiscreteChoiceExtended estimates from exactly the complete rows (y, weights, x by column); predicted probabilities of new rows are those of the estimated model at the row's linear predictor; the Brier score is the (weighted, if asked) mean of (y - p)^2 and lies in [0, 1]; AUC and costs use the same rows; the announced arrays are enough.",
 "all data with missing values, weights, numbers of rows to predict, declarations and estimation results",
 "buffer sizes and the effect of removed rows depend on all combinations of sizes; a test has one data set",
 ["src/ldt_statistics/modeling/discrete/discrete_choice_extended.cpp: DiscreteChoiceExtended constructor, DiscreteChoiceExtended::Calculate"])
p("C103","Simulation of discrete choice models",
 "DiscreteChoiceSim succeeds exactly if some iteration succeeded and at most the allowed number failed; the AUC is the mean of those of the successful iterations, the cost ratios are total costs over total weights, the frequency table holds the weight of the test rows per choice and tenth of the predicted probability and adds up to the total weight; none of these depend on the order of the iterations; the Brier score is that of the simulation; the announced arrays are enough.",
 "every number and outcome of iterations, all test samples, weights, predictions, cost tables and options",
 "the iterations are random; the statement is about every sequence of outcomes",
 ["src/ldt_statistics/modeling/discrete/discrete_choice_sim.cpp: DiscreteChoiceSim constructor, DiscreteChoiceSim::Calculate"])
p("C104","Principal components",
 "PcaAnalysis gives perpendicular directions of length one; the components are the data times the directions, uncorrelated with mean zero (centered data), with the announced standard deviations in decreasing order; no combination perpendicular to the earlier directions varies more; variances add up to the total variance (the number of variables, if standardized); the ratios are the shares and sum to one; all components give back the data; rows to forecast use the means, variances and directions of the data, so a row of the data gets its own components.",
 "all data, numbers of rows and columns, options of centering, scaling and removing constants; every decomposition that satisfies the contract of LAPACK's dgesvd",
 "orthogonality and maximality are statements about all weight vectors, and hold for every input matrix",
 ["src/ldt_statistics/pca.cpp: PcaAnalysis::Calculate","src/matrix/decompositions.cpp: MatrixSvd::Calculate0","src/matrix/matrix_la.cpp: Matrix::SVD0"])
p("C105","Standardized columns",
 "MatrixStandardized gives columns with mean 0 and sample variance 1 that are increasing linear functions of the columns of the data; exactly the constant columns are removed (or NaN); units do not matter; other rows are standardized with the given means and variances, and lose the same columns.",
 "all matrices, options and rows",
 "it must hold for every column of every matrix",
 ["src/matrix/dataset.cpp: MatrixStandardized::Calculate","src/matrix/matrix.cpp: Matrix::ColumnsStandard, Matrix::RemoveColumnsIn"])
p("C106","The number of components",
 "The cutoff is the smallest number of components that explain more than the given rate, between 1 and the number of components; rates outside of (0, 1) are refused; an exact count has priority and CutoffCountMax bounds the other; a model gets the first columns unchanged followed by exactly this number of components, for the data to predict as well; constants among the replaced variables are refused; storage and work are enough.",
 "all options, data and sizes",
 "the loop and the buffers must be right for every distribution of variance and every combination of sizes",
 ["src/ldt_statistics/pca.cpp: PcaAnalysis::GetCutoffColumn, PcaAnalysisOptions::CalculateForModel, PcaAnalysisOptions::CheckValidity, PcaAnalysisOptions::GetFinalCount"])
p("C107","What a search over regressions estimates and records",
 "For each combination of variables the data of the model has the columns of its endogenous variables, the weights and its exogenous variables, each once. A model whose estimation succeeds gives exactly one record for each metric that is a number and each target (and for each coefficient), with the right weight; nothing is recorded twice; a failed or cancelled model records nothing; a model without a target is refused.",
 "all combinations, options, results of estimations and moments of cancellation",
 "it must hold for every combination of every search and whatever the estimation gives",
 ["src/ldt_statistics/modeling/search/searcher_reg.cpp: SearcherReg::SearcherReg, SearcherReg::EstimateOne"])
p("C108","Search over systems of equations",
 "The evaluations of a model are its AIC, its SIC and the scores of its simulation, in the rows of these metrics and for the equation of the target; the coefficients are reported for the exogenous variables of the model with the squares of their standard errors; there is a searcher for each acceptable size and group of endogenous variables, with different seeds.",
 "all options, groups, sizes and results",
 "rows and positions must agree for every selection of metrics and variables",
 ["src/ldt_statistics/modeling/linear/sur_modelset.cpp: SurSearcher::EstimateOneReg, SurModelset::SurModelset"])
p("C109","Search options are made consistent",
 "Search options are refused exactly if scores lack simulations, simulations lack a training sample or (time series) horizons and scores do not go together; accepted options have one orientation and one position for each metric, a seed only if the training is random, a fixed training size before the ratio; preparing them twice has no effect; checks enable the estimations they need.",
 "all options",
 "there are many combinations of options, and options can be used again",
 ["src/ldt_statistics/modeling/search/summary.cpp: SearchMetricOptions::Update, SearchModelChecks::Update, SearchItems::Update"])
p("C110","Systems of equations with checks and projections",
 "An accepted call has estimated the complete rows of the data with the first columns as endogenous variables, meets the checks (observations, degrees of freedom, condition number, AIC, SIC, R2), and its projections are those of the estimated model for the given new rows; models that meet all checks are not refused; the parts of the storage do not overlap.",
 "all data, sizes, checks and declared objects",
 "the checks and buffers must be right for every combination of sizes",
 ["src/ldt_statistics/modeling/linear/sur_extended.cpp: SurExtended::SurExtended, SurExtended::Calculate"])
p("C111","Search over discrete choice models",
 "The evaluations of a model are its AIC, SIC, Brier score, frequency cost and area under ROC in and out of sample, each in the row of the metric and of the usable rows; coefficients, variances and thresholds are reported in the rows of the variables; the checks are applied; there is one searcher for each size and distribution, with its own seed; only explanatory variables are accepted as such and cost matrices are required for cost metrics.",
 "all options, data, selections of variables and results of estimations",
 "rows and positions must agree for every selection and order of metrics, also with missing values",
 ["src/ldt_statistics/modeling/discrete/discrete_choice_modelset.cpp: DiscreteChoiceSearcher::EstimateOneReg, DiscreteChoiceModelset::DiscreteChoiceModelset"])
p("C112","Search over VARMA models",
 "The evaluations of a VARMA model are its AIC, its SIC and the scores of its simulation, each in the row of its metric; what is recorded for a target is of the equation of the target, row r being the prediction for horizon r + 1 with its variance; accepted models meet the checks and their predictions are numbers within the given bounds; there is exactly one searcher for each size, combination of orders and group of exogenous variables; the orders are recorded with the model.",
 "all options, data, selections of variables, orders and results of estimations",
 "rows, equations and horizons must agree for every selection and order of metrics and variables; the searchers range over a product of seven sets",
 ["src/ldt_statistics/modeling/time_series/varma/varma_modelset.cpp: VarmaSearcher::EstimateOneReg, VarmaModelset::VarmaModelset"])
p("C113","Polynomials and impulse responses of a VARMA model",
 "After the calculation of the moving average representation, the AR and MA polynomials hold the estimated coefficients at the lags of the model and zero at all other lags, and coefficient t of the infinite MA polynomial is the matrix of the responses of the (undifferenced) variables at time t to unit errors at time 0; the responses are unique.",
 "all specifications (orders, seasonal orders, differences), numbers of variables, coefficients, numbers of terms and contents of the given arrays",
 "lags, differences and dimensions combine without bound; the responses are a recursion over time",
 ["src/ldt_statistics/modeling/time_series/varma/varma_arma.cpp: VarmaArma::VarmaArma, VarmaArma::Calculate"])
p("C114","Variances of VARMA forecasts",
 "The variance of the forecast for step h is the variance of the sum of the responses to the errors of the steps 1, ..., h, zero at the columns before the forecasts; variances are not negative and do not decrease with the step; that of the first step is the variance of the error; these sums are the differences between data which follow the model and its forecasts.",
 "all specifications, coefficients, positive semidefinite covariance matrices, horizons and contents of the given arrays",
 "the sums range over all horizons and responses; a wrong column or transposition shows only for particular models",
 ["src/ldt_statistics/modeling/time_series/varma/varma_forecast.cpp: VarmaForecast::Calculate", "src/ldt_statistics/modeling/time_series/varma/varma_arma.cpp: VarmaArma::Calculate"])
p("C115","Moments of discrete distributions",
 "For a discrete uniform, Bernoulli, Poisson, geometric or binomial distribution the probabilities are not negative and sum to one, and the reported minimum, mean, variance, standard deviation, skewness and excess kurtosis are those of these probabilities (infinite sums); all accepted parameters are covered.",
 "all parameters accepted by the constructor (integer bounds and numbers of trials)",
 "real parameters and infinite sums; a wrong formula may agree with the right one at tested parameters",
 ["src/ldt_statistics/distributions/distributions_uni.cpp: DistributionBase::GetProperty, Distribution<type>::Distribution, Distribution<type>::GetMinimum, Distribution<type>::GetMaximum, Distribution<type>::GetMean, Distribution<type>::GetVariance, Distribution<type>::GetSandardDeviation, Distribution<type>::GetSkewness, Distribution<type>::GetKurtosis, Distribution<type>::GetPdfOrPmf"])
p("C116","Distribution functions of discrete distributions",
 "The distribution function at x is the sum of the probabilities of the values up to x; it lies between 0 and 1 and does not decrease; at minus infinity it is 0 and at infinity 1.",
 "all parameters and arguments",
 "incomplete gamma and beta functions must equal finite sums for all parameters and sizes",
 ["src/ldt_statistics/distributions/distributions_uni.cpp: Distribution<type>::GetCdf, Distribution<type>::GetPdfOrPmf"])
p("C117","Distribution functions and densities of continuous distributions",
 "For a uniform, normal, log-normal, exponential, chi-squared, gamma, beta, F or t distribution the distribution function is a number at every point, does not decrease, is continuous and has the limits 0 and 1; it is 0 at the minimum and 1 at the maximum; between them the density is positive and its derivative; outside the density is 0. The constructor rejects improper parameters.",
 "all parameters and arguments",
 "real parameters and arguments; wrong constants or tails show only for some of them",
 ["src/ldt_statistics/distributions/distributions_uni.cpp: Distribution<type>::Distribution, Distribution<type>::GetCdf, Distribution<type>::GetPdfOrPmf, Distribution<type>::GetMinimum, Distribution<type>::GetMaximum"])
p("C118","Quantiles of continuous distributions",
 "For a uniform, normal, log-normal, exponential, chi-squared, gamma, beta, F or t distribution and a probability p between 0 and 1 the quantile is the only number whose distribution function is p; it is between minimum and maximum; the quantile of the distribution function of such a number is this number; larger probabilities have larger quantiles; probabilities up to 0 give the minimum and from 1 on the maximum. This includes the separate formulas for the t distribution with 1, 2 and 4 degrees of freedom.",
 "all parameters and probabilities",
 "real parameters and probabilities; a wrong formula for one number of degrees of freedom shows only there",
 ["src/ldt_statistics/distributions/distributions_uni.cpp: Distribution<type>::GetQuantile"])
p("C119","Log densities are the logarithms of densities",
 "For a continuous distribution and a number between minimum and maximum the log density is the natural logarithm of the density. For a discrete distribution with more than one possible value this holds for the probabilities of the possible values, with minus infinity for probability 0.",
 "all parameters and arguments",
 "real parameters and arguments; the two functions are written separately for each distribution",
 ["src/ldt_statistics/distributions/distributions_uni.cpp: Distribution<type>::GetPdfOrPmfLog, Distribution<type>::GetPdfOrPmf"])
p("C120","Standard deviations and medians",
 "The standard deviation of a distribution is the square root of its variance. For a uniform, normal, log-normal, exponential or t distribution the distribution function is 1/2 at the median and nowhere else. For a Bernoulli, discrete uniform or geometric distribution values up to the median have probability at least 1/2, and values up to any smaller number at most 1/2.",
 "all parameters",
 "real parameters; wrong medians of discrete distributions show only near jumps",
 ["src/ldt_statistics/distributions/distributions_uni.cpp: Distribution<type>::GetSandardDeviation, Distribution<type>::GetMedian, Distribution<type>::GetVariance, Distribution<type>::GetCdf"])
p("C121","Modes",
 "For a uniform, normal, log-normal, exponential or t distribution, chi-squared from 2 degrees of freedom, F with first parameter above 2, gamma with shape at least 1 and beta with both parameters at least 1 the density at the mode is positive and no density is greater. For Bernoulli, Poisson, geometric and binomial distributions (0 < p < 1) the mode is a possible value and no value has a greater probability.",
 "all parameters, all points at which the density is a number",
 "real parameters; wrong modes show only for some parameters",
 ["src/ldt_statistics/distributions/distributions_uni.cpp: Distribution<type>::GetMode, Distribution<type>::GetPdfOrPmf"])
p("C122","Quantiles of discrete distributions",
 "For a Poisson or geometric distribution (0 < p < 1) and a probability strictly between 0 and 1 the quantile is either NaN or a whole number at which the distribution function is at least the probability, while one before it the distribution function is at most the probability.",
 "all parameters, all probabilities strictly between 0 and 1, all inverse error functions",
 "a search from a start that depends on real parameters; it can stop without an answer for some of them only",
 ["src/ldt_statistics/distributions/distributions_uni.cpp: Distribution<type>::GetQuantile, decrease_quantile, increase_quantile"])
p("C123","Distributions given by 103 quantiles",
 "With 103 strictly increasing quantiles the distribution function and the quantile function are linear between the quantiles, have the given values there, are strictly increasing and inverse to each other; the quantile function is strictly increasing beyond them too. A combination of two or more such distributions has 103 results; at each of them the weighted sum of the distribution functions is at most as far from the probability as at the result before.",
 "all strictly increasing tables, all points, all probabilities, all lists of tables and weights",
 "103 quantiles and a real argument; searches with up to 500 steps for each result",
 ["src/ldt_statistics/distributions/empirical103.cpp: DistributionEmpirical103::GetCDFApprox, GetQuantileApprox, Combine","src/api.cpp: LDT_CombineDistribution103"])
p("C124","Mixtures of distributions",
 "A mixture is accepted exactly with positive weights, one for each distribution. Its mean, variance, skewness and kurtosis are those of the weighted average of the distributions, for any expectation operators with the members' moments and, for Bernoulli, binomial, Poisson, geometric and discrete uniform members, for the mass function that the mixture itself returns; the formulas for normal members agree. The distribution function and density are weighted averages (a mixture of discrete and continuous members has no density); minimum and maximum are the smallest and largest of the members; the table of the mass function lists consecutive integers with their masses; sampling chooses a member with a probability proportional to its weight.",
 "all numbers of members, weights and parameters, all arguments",
 "infinite sums over the integers, real weights and parameters, any number of members",
 ["src/ldt_statistics/distributions/mixture.cpp: DistributionMixture","include/running.h: RunningMoments"])
p("C125","Numerical derivatives",
 "Numerical first derivatives are the partial derivatives, and numerical second derivatives the second partial derivatives (a symmetric matrix, in the array given for it, in either order of the variables), whenever the function is a polynomial of a degree that grows with the number of steps and no difference quotient is taken for zero. For any function with these derivatives the results come as near to them as wanted if the steps are short enough, up to an amplification by the extrapolation. Arrays of the announced sizes suffice; other lengths of the argument and derivatives that were not requested are rejected.",
 "all functions with the derivatives, all arguments, numbers of steps, step lengths and factors greater than 1",
 "all functions and any number of steps; limits",
 ["src/ldt_math/derivative.cpp: Derivative, CalculateFirst, CalculateSecond","src/ldt_math/matrix.cpp: MakeTriangular0"])
p("C126","Comparisons, queries and fills of matrices",
 "Comparing a matrix (or one column) with a value, or two matrices, says yes exactly if every element is within the tolerance, NaN counting as the arguments ask; matrices of different sizes are unequal or rejected, as asked. Searching a matrix for a value gives exactly the places that have it, in order; asking whether any or all elements have it is answered exactly. Filling with a value, with a sequence, on or off the diagonal sets exactly those elements; a diagonal of a matrix that is not square is rejected.",
 "all matrices of all sizes, elements (with NaN), tolerances and options",
 "all elements, all sizes",
 ["src/matrix/matrix.cpp: EqualsValue, EqualsValueColumn, Equals, IndicesOfVector, Any, All, SetValue, SetSequence, SetValueDiag, SetValueOffDiag"])
p("C127","Sorting the rows or columns of a matrix by indexes",
 "Row (column) k of the result is the row (column) of the source that the list gives in place k, for every list of valid numbers; a list of another length, a number outside the matrix or a storage of another size is rejected.",
 "all matrices with a row or column, all lists of numbers",
 "all matrices and all lists",
 ["src/matrix/matrix.cpp: SortRowsBy, SortColumnsBy"])
p("C128","Common range and interpolation of the columns of a matrix with NaN",
 "The common range of the columns is exactly the times at which no column is before its first or after its last known value, and the flag tells of gaps; interpolating a row or column puts every missing value between two known ones on the straight line between them, keeps the known values and the rest of the matrix, and returns the number of values that were filled in.",
 "all matrices with NaN anywhere, all rows and columns",
 "all patterns of NaN",
 ["src/matrix/matrix.cpp: GetRange, GetRangeColumn, InterpolateColumn, InterpolateRow"])
p("C129","Building symmetric and triangular matrices from a list",
 "A list with an element for every pair of a triangle (with or without the diagonal) fills the upper triangle row by row, the lower one column by column, or both, and leaves the other elements; a list of another length, a matrix that is not square or an order that is not supported is rejected.",
 "all square matrices, lists and options",
 "all sizes",
 ["src/matrix/matrix.cpp: MakeTriangular, MakeTriangular0"])
p("C130","Quantile and density of the generalized lambda distribution",
 "For every positive scale and all shapes (numbers or plus infinity, not both infinite), the quantile is increasing in the probability, the density at a quantile is positive and the reciprocal of the slope of the quantile, and the value for a shape that is zero or infinite is the limit of those for shapes close to it; a scale that is zero or negative is rejected by the constructor.",
 "all probabilities between 0 and 1, all parameters",
 "all real parameters and probabilities, limits",
 ["src/ldt_statistics/distributions/distribution_gld.cpp: DistributionGld::DistributionGld, GetQuantile, GetDensityQuantile"])
p("C131","Moments of the generalized lambda distribution",
 "The raw moment of order 1 to 4 that is returned for two shapes is the integral from 0 to 1 of that power of the quantile (without location, scale and constants), for all shapes that have it; another order is rejected; asking for the four moments at once gives the same numbers.",
 "all shapes, all orders",
 "integrals, for all real shapes",
 ["src/ldt_statistics/distributions/distribution_gld.cpp: DistributionGld::GetMk, GetMs"])
p("C132","Parameters of the generalized lambda distribution from moments",
 "The parameters that are returned give a distribution with the requested mean and variance, whatever shapes the search finds; the function that is minimized is the sum of the squared errors of skewness and excess kurtosis, so that a minimum of zero gives the requested ones; symmetric types give equal shapes.",
 "all requested moments with a positive variance, all types, all results of the optimizer within its bounds",
 "integrals, for all real parameters and all optimizers",
 ["src/ldt_statistics/distributions/distribution_gld.cpp: DistributionGld::GetFromMoments"])
with open('/verif/properties.jsonl','w') as f:
    for x in P: f.write(json.dumps(x)+"\n")
print(len(P))
