(** Model of the conversions between enumerations and strings: the ToString and FromString_ functions of
    /repo/include/math/statistics/scoring.h, clustering.h, correlation.h, inference/models/discrete_choice.h,
    /repo/include/array.h and /repo/include/frequency.h. A string is a list of characters. *)
From Verif Require Export StrModel FreqModel.

(** helpers.cpp:15-17 EndsWith (boost::ends_with). *)
Definition ends_with (code s : str) : bool := starts_with (rev code) (rev s).
Local Open Scope bool_scope.

(** include/math/statistics/scoring.h:13-29 GoodnessOfFitType *)
Inductive gof := GAic | GSic | GFrequencyCost | GAuc | GBrier.
(** include/math/statistics/scoring.h:95-127 ScoringType *)
Inductive scoring := SDirection | SSign | SMae | SMape | SRmse | SRmspe | SCrps | SFrequencyCost | SAuc | SBrier.
(** clustering.h:14-36 DistanceMethod *)
Inductive distance_method := DEuclidean | DManhattan | DMaximum | DCorrelation | DAbsCorrelation.
(** clustering.h:131-149 HClusterLinkage *)
Inductive linkage_method := LSingle | LComplete | LAverageU | LAverageW | LWard.
(** correlation.h:19-29 CorrelationMethod *)
Inductive correlation_method := CPearson | CSpearman.
(** discrete_choice.h:26-33, 67-75 DiscreteChoiceDistType, DiscreteChoiceModelType *)
Inductive dist_type := TLogit | TProbit.
Inductive model_type := TBinary | TOrdered.
(** array.h:43-66 FunctionType *)
Inductive function_type := FId | FPow2 | FPow3 | FPow4 | FExp | FLog | FLog10 | FSqrt | FSin | FCos | FTan | FAsin | FAcos | FAtan | FSinh | FCosh | FTanh | FAbs | FCeil | FFloor.
(** array.h:164-184 DescriptiveType *)
Inductive descriptive := DMin | DMax | DMean | DVariance | DVariancePop | DStd | DStdPop | DSkewness | DSkewnessPop | DKurtosis | DKurtosisPop | DLast | DFirst.

(** scoring.h:36-51 ToString(GoodnessOfFitType) *)
Definition gof_name (t : gof) (abr : bool) : str :=
  match t with
  | GAic => if abr then s_ "aic" else s_ "Akaike Information Criterion"
  | GSic => if abr then s_ "sic" else s_ "Schwartz Information Criterion"
  | GFrequencyCost => if abr then s_ "frequencyCostIn" else s_ "Custom Frequency Cost"
  | GAuc => if abr then s_ "aucIn" else s_ "Area Under ROC (In-Sample)"
  | GBrier => if abr then s_ "brierIn" else s_ "Brier Score (In-Sample)"
  end.
(** scoring.h:56-71 FromString_GoodnessOfFitType *)
Definition gof_parse (s : str) : res gof :=
  if starts_with (s_ "aic") s then Ok GAic else
  if starts_with (s_ "sic") s then Ok GSic else
  if starts_with (s_ "freq") s then Ok GFrequencyCost else
  if starts_with (s_ "auc") s then Ok GAuc else
  if starts_with (s_ "bri") s then Ok GBrier else
  Throw.
(** scoring.h:134-168 ToString(ScoringType) *)
Definition scoring_name (t : scoring) (abr : bool) : str :=
  match t with
  | SDirection => s_ "direction"
  | SSign => s_ "sign"
  | SMae => if abr then s_ "mae" else s_ "Mean Absolute Error"
  | SMape => if abr then s_ "mape" else s_ "Mean Absolute Percentage Error"
  | SRmse => if abr then s_ "rmse" else s_ "Root Mean Squared Error"
  | SRmspe => if abr then s_ "rmspe" else s_ "Root Mean Squared Percentage Error"
  | SCrps => if abr then s_ "crps" else s_ "Continuous Ranked Probability Score"
  | SFrequencyCost => if abr then s_ "frequencyCostOut" else s_ "Custom Frequency Cost<Tv> (Out-of-Sample)"
  | SAuc => if abr then s_ "aucOut" else s_ "Area Under ROC (Out-of-Sample)"
  | SBrier => if abr then s_ "brierOut" else s_ "Brier Score (Out-of-Sample)"
  end.
(** scoring.h:173-203 FromString_ScoringType *)
Definition scoring_parse (s : str) : res scoring :=
  if starts_with (s_ "dir") s then Ok SDirection else
  if starts_with (s_ "sig") s then Ok SSign else
  if starts_with (s_ "mae") s then Ok SMae else
  if starts_with (s_ "map") s then Ok SMape else
  if starts_with (s_ "rms") s then Ok SRmse else
  if starts_with (s_ "rmsp") s then Ok SRmspe else
  if starts_with (s_ "crp") s then Ok SCrps else
  if starts_with (s_ "freq") s then Ok SFrequencyCost else
  if starts_with (s_ "auc") s then Ok SAuc else
  if starts_with (s_ "bri") s then Ok SBrier else
  Throw.
(** clustering.h:41-55 ToString(DistanceMethod) *)
Definition distance_name (t : distance_method) : str :=
  match t with
  | DEuclidean => s_ "Euclidean"
  | DManhattan => s_ "Manhattan"
  | DMaximum => s_ "Maximum"
  | DCorrelation => s_ "Correlation"
  | DAbsCorrelation => s_ "Absolute Correlation"
  end.
(** clustering.h:60-74 FromString_DistanceMethod *)
Definition distance_parse (s : str) : res distance_method :=
  if starts_with (s_ "euc") s then Ok DEuclidean else
  if starts_with (s_ "man") s then Ok DManhattan else
  if starts_with (s_ "max") s then Ok DMaximum else
  if starts_with (s_ "abs") s then Ok DAbsCorrelation else
  if starts_with (s_ "cor") s then Ok DCorrelation else
  Throw.
(** clustering.h:154-169 ToString(HClusterLinkage) *)
Definition linkage_name (t : linkage_method) : str :=
  match t with
  | LSingle => s_ "Single"
  | LComplete => s_ "Complete"
  | LAverageU => s_ "AverageU (UPGMA)"
  | LAverageW => s_ "AverageW (WPGMA)"
  | LWard => s_ "Ward"
  end.
(** clustering.h:174-190 FromString_HClusterLinkage *)
Definition linkage_parse (s : str) : res linkage_method :=
  if starts_with (s_ "sin") s then Ok LSingle else
  if starts_with (s_ "com") s then Ok LComplete else
  if iequals (s_ "averageu") s || starts_with (s_ "uav") s || starts_with (s_ "upg") s then Ok LAverageU else
  if iequals (s_ "averagew") s || starts_with (s_ "wav") s || starts_with (s_ "wpg") s then Ok LAverageW else
  if starts_with (s_ "war") s then Ok LWard else
  Throw.
(** correlation.h:33-42 ToString(CorrelationMethod) *)
Definition correlation_name (t : correlation_method) : str :=
  match t with
  | CPearson => s_ "Pearson"
  | CSpearman => s_ "Spearman"
  end.
(** correlation.h:47-55 FromString_CorrelationMethod *)
Definition correlation_parse (s : str) : res correlation_method :=
  if starts_with (s_ "pea") s then Ok CPearson else
  if starts_with (s_ "spe") s then Ok CSpearman else
  Throw.
(** discrete_choice.h:38-47 ToString(DiscreteChoiceDistType) *)
Definition dist_name (t : dist_type) : str :=
  match t with
  | TLogit => s_ "Logit"
  | TProbit => s_ "Probit"
  end.
(** discrete_choice.h:52-61 FromString_DiscreteChoiceDistType *)
Definition dist_parse (s : str) : res dist_type :=
  if starts_with (s_ "log") s then Ok TLogit else
  if starts_with (s_ "pro") s then Ok TProbit else
  Throw.
(** discrete_choice.h:77-86 ToString(DiscreteChoiceModelType) *)
Definition model_name (t : model_type) : str :=
  match t with
  | TBinary => s_ "Binary"
  | TOrdered => s_ "Ordered"
  end.
(** discrete_choice.h:91-100 FromString_DiscreteChoiceModelType *)
Definition model_parse (s : str) : res model_type :=
  if starts_with (s_ "bin") s then Ok TBinary else
  if starts_with (s_ "ord") s then Ok TOrdered else
  Throw.
(** array.h:68-113 ToString(FunctionType) *)
Definition function_name (t : function_type) : str :=
  match t with
  | FId => s_ "Identity"
  | FPow2 => s_ "Power2"
  | FPow3 => s_ "Power3"
  | FPow4 => s_ "Power4"
  | FExp => s_ "Exponential"
  | FLog => s_ "Natural Logarithm"
  | FLog10 => s_ "Base-10 Logarithm"
  | FSqrt => s_ "Square Root"
  | FSin => s_ "Sine"
  | FCos => s_ "Cosine"
  | FTan => s_ "Tangent"
  | FAsin => s_ "Inverse Sine"
  | FAcos => s_ "Inverse Cosine"
  | FAtan => s_ "Inverse Tangent"
  | FSinh => s_ "Hyperbolic Sine"
  | FCosh => s_ "Hyperbolic Cosine"
  | FTanh => s_ "Hyperbolic Tangent"
  | FAbs => s_ "Absolute Value"
  | FCeil => s_ "Ceiling"
  | FFloor => s_ "Floor"
  end.
(** array.h:115-161 FromString_FunctionType *)
Definition function_parse (s : str) : res function_type :=
  if str_eqb s (s_ "id") then Ok FId else
  if str_eqb s (s_ "pow2") then Ok FPow2 else
  if str_eqb s (s_ "pow3") then Ok FPow3 else
  if str_eqb s (s_ "pow4") then Ok FPow4 else
  if str_eqb s (s_ "exp") then Ok FExp else
  if str_eqb s (s_ "log") then Ok FLog else
  if str_eqb s (s_ "log10") then Ok FLog10 else
  if str_eqb s (s_ "sqrt") then Ok FSqrt else
  if str_eqb s (s_ "sin") then Ok FSin else
  if str_eqb s (s_ "cos") then Ok FCos else
  if str_eqb s (s_ "tan") then Ok FTan else
  if str_eqb s (s_ "asin") then Ok FAsin else
  if str_eqb s (s_ "acos") then Ok FAcos else
  if str_eqb s (s_ "atan") then Ok FAtan else
  if str_eqb s (s_ "sinh") then Ok FSinh else
  if str_eqb s (s_ "cosh") then Ok FCosh else
  if str_eqb s (s_ "tanh") then Ok FTanh else
  if str_eqb s (s_ "abs") then Ok FAbs else
  if str_eqb s (s_ "ceil") then Ok FCeil else
  if str_eqb s (s_ "floor") then Ok FFloor else
  Throw.
(** array.h:189-220 ToString(DescriptiveType) *)
Definition descriptive_name (t : descriptive) : str :=
  match t with
  | DMin => s_ "Minimum"
  | DMax => s_ "Maximum"
  | DMean => s_ "Mean"
  | DVariance => s_ "Variance"
  | DStd => s_ "Std"
  | DVariancePop => s_ "Variance (pop)"
  | DStdPop => s_ "Std (pop)"
  | DSkewness => s_ "Skewness"
  | DSkewnessPop => s_ "Skewness (pop)"
  | DKurtosis => s_ "Kurtosis"
  | DKurtosisPop => s_ "Kurtosis (pop)"
  | DFirst => s_ "First"
  | DLast => s_ "Last"
  end.
(** array.h:225-260 FromString_DescriptiveType *)
Definition descriptive_parse (s : str) : res descriptive :=
  if starts_with (s_ "min") s then Ok DMin else
  if starts_with (s_ "max") s then Ok DMax else
  if starts_with (s_ "mea") s || starts_with (s_ "ave") s then Ok DMean else
  if starts_with (s_ "var") s then Ok (if ends_with (s_ "pop") s then DVariancePop else DVariance) else
  if starts_with (s_ "std") s then Ok (if ends_with (s_ "pop") s then DStdPop else DStd) else
  if starts_with (s_ "ske") s then Ok (if ends_with (s_ "pop") s then DSkewnessPop else DSkewness) else
  if starts_with (s_ "kur") s then Ok (if ends_with (s_ "pop") s then DKurtosisPop else DKurtosis) else
  if starts_with (s_ "last") s then Ok DLast else
  if starts_with (s_ "firs") s then Ok DFirst else
  Throw.
(** frequency.h:71-117 ToString(FrequencyClass) *)
Definition class_name (t : fclass) : str :=
  match t with
  | kCrossSection => s_ "Cross-Section"
  | kYearly => s_ "Yearly"
  | kQuarterly => s_ "Quarterly"
  | kMonthly => s_ "Monthly"
  | kMultiYear => s_ "Multi-Yearly"
  | kXTimesAYear => s_ "X-Times-A-Year"
  | kXTimesZYears => s_ "X-Times-Z-Years"
  | kWeekly => s_ "Weekly"
  | kDaily => s_ "Daily"
  | kMultiWeekly => s_ "Multi-Weekly"
  | kMultiDaily => s_ "Multi-Daily"
  | kDailyInWeek => s_ "Daily-In-Week"
  | kHourly => s_ "Hourly"
  | kMinutely => s_ "Minute(ly)"
  | kSecondly => s_ "Second(ly)"
  | kXTimesADay => s_ "X-Times-A-Day"
  | kListString => s_ "List (String)"
  | kListDate => s_ "List (Date)"
  end.
(** frequency.h:122-163 FromString_FrequencyClass *)
Definition class_parse (s : str) : res fclass :=
  if starts_with (s_ "cro") s || iequals (s_ "cs") s then Ok kCrossSection else
  if iequals (s_ "daily") s then Ok kDaily else
  if starts_with (s_ "dailyin") s then Ok kDailyInWeek else
  if starts_with (s_ "hou") s then Ok kHourly else
  if starts_with (s_ "listd") s || starts_with (s_ "datel") s then Ok kListDate else
  if starts_with (s_ "lists") s || starts_with (s_ "stringl") s then Ok kListString else
  if starts_with (s_ "min") s then Ok kMinutely else
  if starts_with (s_ "mont") s then Ok kMonthly else
  if starts_with (s_ "multid") s then Ok kMultiDaily else
  if starts_with (s_ "multiw") s then Ok kMultiWeekly else
  if starts_with (s_ "multiy") s then Ok kMultiYear else
  if starts_with (s_ "qua") s then Ok kQuarterly else
  if starts_with (s_ "sec") s then Ok kSecondly else
  if starts_with (s_ "wee") s then Ok kWeekly else
  if starts_with (s_ "xtimesad") s then Ok kXTimesADay else
  if starts_with (s_ "xtimesay") s then Ok kXTimesAYear else
  if starts_with (s_ "xtimeszy") s then Ok kXTimesZYears else
  if starts_with (s_ "yea") s || starts_with (s_ "anu") s then Ok kYearly else
  Throw.
