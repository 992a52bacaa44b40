(** Property C37 (names of enumeration values). *)
From Verif Require Import NamesSpec NamesModel NamesProofs StrProofs.
From Coq Require Import Lia.
Local Open Scope list_scope.

(** Each conversion from strings accepts exactly the strings that begin with a prefix of a value (or are
    one of its words in any case), gives this value, and throws for every other string. *)
Theorem c37_gof : accepts_exactly gof_parse (fun t => begins_one (gof_prefixes t)).
Proof. exact gof_ok. Qed.
Print Assumptions c37_gof.
Theorem c37_distance : accepts_exactly distance_parse (fun t => begins_one (distance_prefixes t)).
Proof. exact distance_ok. Qed.
Print Assumptions c37_distance.
Theorem c37_linkage : accepts_exactly linkage_parse (fun t s => begins_one (linkage_prefixes t) s \/ is_one (linkage_words t) s).
Proof. exact linkage_ok. Qed.
Print Assumptions c37_linkage.
Theorem c37_correlation : accepts_exactly correlation_parse (fun t => begins_one (correlation_prefixes t)).
Proof. exact correlation_ok. Qed.
Print Assumptions c37_correlation.
Theorem c37_link : accepts_exactly dist_parse (fun t => begins_one (dist_prefixes t)).
Proof. exact dist_ok. Qed.
Print Assumptions c37_link.
Theorem c37_model : accepts_exactly model_parse (fun t => begins_one (model_prefixes t)).
Proof. exact model_ok. Qed.
Print Assumptions c37_model.
Theorem c37_function : accepts_exactly function_parse (fun t s => s = s_ (function_code t)).
Proof. exact function_ok. Qed.
Print Assumptions c37_function.
Theorem c37_descriptive : accepts_exactly descriptive_parse (fun t s => begins_one (descriptive_prefixes t) s /\ descriptive_pop t (ends (s_ "pop") s)).
Proof. exact descriptive_ok. Qed.
Print Assumptions c37_descriptive.
Theorem c37_class : accepts_exactly class_parse (fun t s => begins_one (class_prefixes t) s \/ is_one (class_words t) s).
Proof. exact class_ok. Qed.
Print Assumptions c37_class.
(** The same for scoring rules, except that the percentage error is never found. *)
Theorem c37_scoring_partial (s : str) (t : scoring) : scoring_parse s = Ok t <-> t <> SRmspe /\ begins_one (scoring_prefixes t) s.
Proof. split; [apply scoring_fwd|]. intros (N & B). apply scoring_back; auto. Qed.
Print Assumptions c37_scoring_partial.
(** Refuted: no string at all is the root mean squared percentage error; its own name is taken for another rule. *)
Theorem c37_rmspe_refuted : (forall s, scoring_parse s <> Ok SRmspe) /\ scoring_parse (scoring_name SRmspe true) = Ok SRmse.
Proof. split; [|reflexivity]. intros s H. apply c37_scoring_partial in H as (N & _). apply N. auto. Qed.
Print Assumptions c37_rmspe_refuted.
(** Short names of metrics and of days round trip, with any continuation. *)
Theorem c37_round_trip : (forall t r, gof_parse (gof_name t true ++ r) = Ok t) /\ (forall t r, t <> SRmspe -> scoring_parse (scoring_name t true ++ r) = Ok t) /\
  (forall d, (0 <= d <= 6)%Z -> exists s, dow_name d = Ok s /\ forall r, dow_parse (s ++ r) = Ok d).
Proof.
  split; [intros [] r; reflexivity|]. split; [intros [] r N; try reflexivity; congruence|]. intros d H.
  assert (D : (d = 0 \/ d = 1 \/ d = 2 \/ d = 3 \/ d = 4 \/ d = 5 \/ d = 6)%Z) by lia. repeat (destruct D as [-> |D]; [eexists; split; [reflexivity|]; intros; reflexivity|]). subst. eexists; split; [reflexivity|]; intros; reflexivity.
Qed.
Print Assumptions c37_round_trip.
(** Refuted: the names of all other enumerations, and the long names of the metrics, are rejected by the
    conversion back (only "Daily", "direction" and "sign" are not). *)
Theorem c37_long_names_refuted :
  (forall t, gof_parse (gof_name t false) = Throw) /\ (forall t, t <> SDirection -> t <> SSign -> scoring_parse (scoring_name t false) = Throw) /\
  (forall t, distance_parse (distance_name t) = Throw) /\ (forall t, linkage_parse (linkage_name t) = Throw) /\ (forall t, correlation_parse (correlation_name t) = Throw) /\
  (forall t, dist_parse (dist_name t) = Throw) /\ (forall t, model_parse (model_name t) = Throw) /\ (forall t, function_parse (function_name t) = Throw) /\
  (forall t, descriptive_parse (descriptive_name t) = Throw) /\ (forall t, class_parse (class_name t) = if fclass_eqb t kDaily then Ok kDaily else Throw).
Proof. repeat split; try (intros []; reflexivity). intros [] N1 N2; try reflexivity; congruence. Qed.
Print Assumptions c37_long_names_refuted.
(** Refuted: case matters; whatever begins with a capital letter is rejected. *)
Theorem c37_case_refuted (c : ascii) (s : str) : (65 <= nat_of_ascii c <= 90)%nat ->
  gof_parse (c :: s) = Throw /\ scoring_parse (c :: s) = Throw /\ distance_parse (c :: s) = Throw /\ correlation_parse (c :: s) = Throw /\ dist_parse (c :: s) = Throw /\
  model_parse (c :: s) = Throw /\ function_parse (c :: s) = Throw /\ descriptive_parse (c :: s) = Throw.
Proof.
  intros H. assert (A : forall p a, (97 <= nat_of_ascii a)%nat -> starts_with (a :: p) (c :: s) = false). { intros p a Ha. cbn [starts_with]. destruct (ascii_dec a c) as [-> |]; auto. lia. }
  assert (B : forall p a, (97 <= nat_of_ascii a)%nat -> str_eqb (c :: s) (a :: p) = false). { intros p a Ha. destruct (str_eqb (c :: s) (a :: p)) eqn:E; auto. apply str_eqb_eq in E. injection E as -> _. lia. }
  unfold gof_parse, scoring_parse, distance_parse, correlation_parse, dist_parse, model_parse, function_parse, descriptive_parse, s_. cbn [list_ascii_of_string].
  repeat match goal with
  | |- context [starts_with (?a :: ?p) (c :: s)] => rewrite (A p a) by (apply Nat.leb_le; reflexivity)
  | |- context [str_eqb (c :: s) (?a :: ?p)] => rewrite (B p a) by (apply Nat.leb_le; reflexivity)
  end. repeat split; reflexivity.
Qed.
Print Assumptions c37_case_refuted.
Example c37_case : linkage_parse (s_ "AverageU") = Ok LAverageU /\ descriptive_parse (s_ "varpop") = Ok DVariancePop /\ descriptive_parse (s_ "variance") = Ok DVariance /\
  class_parse (s_ "dailyinweek") = Ok kDailyInWeek /\ scoring_parse (s_ "aucOut") = Ok SAuc /\ function_parse (s_ "log10") = Ok FLog10 /\ distance_parse (s_ "xyz") = Throw.
Proof. repeat split. Qed.
