(** Specification of the accepted names: each value has its prefixes (case matters). *)
From Coq Require Export String List.
From Verif Require Export StrModel NamesModel.
Export ListNotations.

Definition begins (p s : str) : Prop := exists r, s = p ++ r.
Definition ends (p s : str) : Prop := exists r, s = r ++ p.
(** Equal up to the case of the letters. *)
Definition same_letters (a b : str) : Prop := map upper a = map upper b.
Definition begins_one (ps : list string) (s : str) : Prop := exists p, In p ps /\ begins (s_ p) s.
Local Open Scope string_scope.
Definition gof_prefixes (t : gof) : list string :=
  match t with GAic => ["aic"] | GSic => ["sic"] | GFrequencyCost => ["freq"] | GAuc => ["auc"] | GBrier => ["bri"] end.
(** Intended: "rmsp..." is the percentage error, "rms..." else the error. *)
Definition scoring_prefixes (t : scoring) : list string :=
  match t with SDirection => ["dir"] | SSign => ["sig"] | SMae => ["mae"] | SMape => ["map"] | SRmse => ["rms"] | SRmspe => ["rmsp"] | SCrps => ["crp"]
  | SFrequencyCost => ["freq"] | SAuc => ["auc"] | SBrier => ["bri"] end.
Definition distance_prefixes (t : distance_method) : list string :=
  match t with DEuclidean => ["euc"] | DManhattan => ["man"] | DMaximum => ["max"] | DCorrelation => ["cor"] | DAbsCorrelation => ["abs"] end.
Definition linkage_prefixes (t : linkage_method) : list string :=
  match t with LSingle => ["sin"] | LComplete => ["com"] | LAverageU => ["uav"; "upg"] | LAverageW => ["wav"; "wpg"] | LWard => ["war"] end.
Definition linkage_words (t : linkage_method) : list string := match t with LAverageU => ["averageu"] | LAverageW => ["averagew"] | _ => [] end.
Definition correlation_prefixes (t : correlation_method) : list string := match t with CPearson => ["pea"] | CSpearman => ["spe"] end.
Definition dist_prefixes (t : dist_type) : list string := match t with TLogit => ["log"] | TProbit => ["pro"] end.
Definition model_prefixes (t : model_type) : list string := match t with TBinary => ["bin"] | TOrdered => ["ord"] end.
Definition function_code (t : function_type) : string :=
  match t with FId => "id" | FPow2 => "pow2" | FPow3 => "pow3" | FPow4 => "pow4" | FExp => "exp" | FLog => "log" | FLog10 => "log10" | FSqrt => "sqrt"
  | FSin => "sin" | FCos => "cos" | FTan => "tan" | FAsin => "asin" | FAcos => "acos" | FAtan => "atan" | FSinh => "sinh" | FCosh => "cosh" | FTanh => "tanh"
  | FAbs => "abs" | FCeil => "ceil" | FFloor => "floor" end.
Definition descriptive_prefixes (t : descriptive) : list string :=
  match t with DMin => ["min"] | DMax => ["max"] | DMean => ["mea"; "ave"] | DVariance | DVariancePop => ["var"] | DStd | DStdPop => ["std"]
  | DSkewness | DSkewnessPop => ["ske"] | DKurtosis | DKurtosisPop => ["kur"] | DLast => ["last"] | DFirst => ["firs"] end.
(** Population or sample, where it matters. *)
Definition descriptive_pop (t : descriptive) (pop : Prop) : Prop :=
  match t with DVariancePop | DStdPop | DSkewnessPop | DKurtosisPop => pop | DVariance | DStd | DSkewness | DKurtosis => ~ pop | _ => True end.
Definition class_prefixes (t : fclass) : list string :=
  match t with kCrossSection => ["cro"] | kDaily => [] | kDailyInWeek => ["dailyin"] | kHourly => ["hou"] | kListDate => ["listd"; "datel"] | kListString => ["lists"; "stringl"]
  | kMinutely => ["min"] | kMonthly => ["mont"] | kMultiDaily => ["multid"] | kMultiWeekly => ["multiw"] | kMultiYear => ["multiy"] | kQuarterly => ["qua"] | kSecondly => ["sec"]
  | kWeekly => ["wee"] | kXTimesADay => ["xtimesad"] | kXTimesAYear => ["xtimesay"] | kXTimesZYears => ["xtimeszy"] | kYearly => ["yea"; "anu"] end.
Definition class_words (t : fclass) : list string := match t with kCrossSection => ["cs"] | kDaily => ["daily"] | _ => [] end.
Definition is_one (ws : list string) (s : str) : Prop := exists w, In w ws /\ same_letters (s_ w) s.
(** A conversion accepts exactly the names in [P] and rejects all other strings. *)
Definition accepts_exactly {T} (parse : str -> res T) (P : T -> str -> Prop) : Prop :=
  (forall s t, parse s = Ok t <-> P t s) /\ (forall s, parse s = Throw <-> forall t, ~ P t s).
