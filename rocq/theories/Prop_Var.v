(** Properties C13, C16 to C20, C64 and C65: variables and their conversions. *)
From Verif Require Import VarSpec VarTextSpec ArrProofs VarProofs VarProofs2 VarProofs3 VarProofs5 VarProofs6 VarTextProofs DateProofs.
From Coq Require Import Lia ZifyBool.
Local Open Scope Z_scope.

(** A daily frequency. *)
Definition daily (d : Z) : freq := FW {| w_day := d; w_range := rng0; w_fwd := 0; w_multi := 1; w_class := kDaily |}.
Lemma daily_is n d f data fs : is_daily {| v_name := n; v_data := data; v_start := daily d; v_fields := fs |} /\ (f = daily d -> week_freq f).
Proof.
  assert (W : week_freq (daily d)) by (exists d, false, 1; eexists; split; [lia|split; reflexivity]).
  split; [split; [exact W|reflexivity]|]. intros ->. exact W.
Qed.
Definition q (z : Z) : option Qc := Some (qz z).
Definition var (d : Z) (data : cells) : variable := {| v_name := s_ "v"; v_data := data; v_start := daily d; v_fields := [] |}.
Definition total : aggregate := fun l => Some (fold_right (fun x s => match x with Some a => (a + s)%Qc | None => s end) 0%Qc l).
(** Monday 2022-01-03. *)
Definition monday : Z := 2459583.

(** C13: Trim removes exactly the outer missing values; every remaining observation keeps its date. A
    variable without known values is not changed, and the range returned is not valid. *)
Theorem c13_trim_exact v : v_data v <> [] -> valid_freq (v_start v) ->
  (exists r v' a b, trim v = Ok (r, v') /\ is_not_valid r = false /\ i_start r = Z.of_nat a /\ i_end r = Z.of_nat b /\
     first_known (v_data v) a /\ last_known (v_data v) b /\
     v_name v' = v_name v /\ v_fields v' = v_fields v /\ List.length (v_data v') = (b - a + 1)%nat /\
     (forall i, (i <= b - a)%nat -> nth_error (v_data v') i = nth_error (v_data v) (a + i)) /\
     (forall i, exists g h, date v' i = Ok g /\ date v (Z.of_nat a + i) = Ok h /\ same_date g h /\ to_string g = to_string h))
  \/ ((forall j, ~ known (v_data v) j) /\ exists r, trim v = Ok (r, v) /\ is_not_valid r = true).
Proof. exact (trim_exact v). Qed.
Print Assumptions c13_trim_exact.

(** A variable without observations is read outside. *)
Theorem c13_empty_variable_refuted f n fs : trim {| v_name := n; v_data := []; v_start := f; v_fields := fs |} = UB.
Proof. reflexivity. Qed.
Print Assumptions c13_empty_variable_refuted.

Example c13_nonvacuous : let v := var monday [None; None; q 3; None; q 5; None] in
  v_data v <> [] /\ valid_freq (v_start v) /\ trim v = Ok ({| i_start := 2; i_end := 4 |}, var (monday + 2) [q 3; None; q 5]).
Proof.
  split; [discriminate|]. split; [|reflexivity]. left. apply (daily_is [] monday (daily monday) [] []). reflexivity.
Qed.

(** C16: conversion to k-day frequency, counted from the start: one value for each block of k days,
    dated with the first day of the block, and it is the aggregate of the observations of that block. *)
Theorem c16_multi_day_from_start result v k agg : is_daily v -> 1 <= k ->
  exists w, to_multi_daily result v k (Some agg) false = Ok w /\ v_name w = v_name v /\ week_freq (v_start w) /\
    start_day w = start_day v /\ Z.of_nat (List.length (v_data w)) = (len (v_data v) + k - 1) / k /\
    forall b, (b < List.length (v_data w))%nat -> exists g, date w (Z.of_nat b) = Ok g /\
      nth_error (v_data w) b = Some (agg (values v (day_of g) (Z.min (day_of g + k) (end_day v)))).
Proof. exact (multi_daily_forward result v k agg). Qed.
Print Assumptions c16_multi_day_from_start.

(** Counted from the end, the blocks end with the last observation, but the dates of the result do not
    follow them: value [b] is dated [b*k] days after the start. *)
Theorem c16_multi_day_from_end_partial result v k agg : is_daily v -> 1 <= k ->
  exists w, to_multi_daily result v k (Some agg) true = Ok w /\ v_name w = v_name v /\ week_freq (v_start w) /\
    start_day w = start_day v /\ Z.of_nat (List.length (v_data w)) = len (v_data v) / k + 1 /\
    forall b, (b < List.length (v_data w))%nat -> exists g, date w (Z.of_nat b) = Ok g /\ day_of g = start_day v + Z.of_nat b * k /\
      let e := end_day v - k * (Z.of_nat (List.length (v_data w)) - 1 - Z.of_nat b) in
      nth_error (v_data w) b = Some (agg (values v (Z.max (start_day v) (e - k)) e)).
Proof. exact (multi_daily_backward result v k agg). Qed.
Print Assumptions c16_multi_day_from_end_partial.

(** Three days in blocks of two from the end: the value dated with the third day is the sum of the
    second and the third. *)
Theorem c16_dates_from_end_refuted : exists v k w g, is_daily v /\ 1 <= k /\
  to_multi_daily v v k (Some total) true = Ok w /\ date w 1 = Ok g /\ day_of g = start_day v + 2 /\
  nth_error (v_data w) 1 = Some (q 5) /\
  total (values v (day_of g) (Z.min (day_of g + k) (end_day v))) = q 3.
Proof.
  exists (var monday [q 1; q 2; q 3]), 2. do 2 eexists. split; [apply (daily_is _ _ (daily monday))|]. split; [lia|].
  split; [reflexivity|]. split; [reflexivity|]. split; [reflexivity|].
  split; vm_compute; repeat first [apply Qc_is_canon; reflexivity | f_equal].
Qed.
Print Assumptions c16_dates_from_end_refuted.

Example c16_nonvacuous : is_daily (var monday [q 1; q 2; q 3; q 4; q 5]) /\
  exists w, to_multi_daily (var 0 []) (var monday [q 1; q 2; q 3; q 4; q 5]) 2 (Some total) false = Ok w /\
   v_data w = [q 3; q 7; q 5].
Proof.
  split; [apply (daily_is _ _ (daily monday))|]. eexists. split; [reflexivity|].
  vm_compute; repeat first [apply Qc_is_canon; reflexivity | f_equal].
Qed.

(** C17: a variable that can be told apart from its text is read back: same name, start and fields, and
    the same data up to half a unit of the sixteenth decimal. *)
Theorem c17_text_round_trip v0 v : text_ok v -> exists s v', to_text v = Ok s /\ parse_text v0 s = Ok v' /\
  v_name v' = v_name v /\ same_date (v_start v) (v_start v') /\ Forall2 close (v_data v) (v_data v') /\ v_fields v' = v_fields v.
Proof. exact (text_round v0 v). Qed.
Print Assumptions c17_text_round_trip.

(** Whatever the order of the fields in the text, every key has the value of its first field. *)
Theorem c17_fields_any_order v0 s v' : parse_text v0 s = Ok v' ->
  exists parts, StrModel.split [tab] s = Ok parts /\
    forall k, value_of k (v_fields v') = value_of k (map parse_field (skipn 4 parts)).
Proof. exact (parse_fields_any_order v0 s v'). Qed.
Print Assumptions c17_fields_any_order.
Example c17_fields_nonvacuous : exists v', parse_text 0 (s_ "v" ++ tab :: s_ "d" ++ tab :: s_ "20220103" ++ tab :: s_ "1" ++ tab ::
    s_ "b;2" ++ tab :: s_ "a;1" ++ tab :: s_ "b;3") = Ok v' /\ v_fields v' = [(s_ "a", s_ "1"); (s_ "b", s_ "2")].
Proof. eexists. split; [vm_compute; reflexivity|]. reflexivity. Qed.

(** Small numbers are lost; a variable without fields comes back with an empty field; a variable
    without data cannot be read. *)
Definition tiny : Qc := Q2Qc (1 # 100000000000000000).
Theorem c17_small_numbers_refuted : exists v s v', v_data v = [Some tiny] /\ to_text v = Ok s /\ parse_text 0 s = Ok v' /\ v_data v' = [q 0].
Proof.
  exists {| v_name := s_ "v"; v_data := [Some tiny]; v_start := daily monday; v_fields := [(s_ "k", s_ "x")] |}.
  do 2 eexists. split; [reflexivity|]. split; [vm_compute; reflexivity|]. split; [vm_compute; reflexivity|].
  vm_compute; repeat first [apply Qc_is_canon; reflexivity | f_equal].
Qed.
Print Assumptions c17_small_numbers_refuted.
Theorem c17_no_fields_refuted : exists v s v', v_fields v = [] /\ to_text v = Ok s /\ parse_text 0 s = Ok v' /\ v_fields v' = [([], [])].
Proof.
  exists (var monday [q 1]). do 2 eexists. split; [reflexivity|]. split; [vm_compute; reflexivity|]. split; (vm_compute; reflexivity).
Qed.
Print Assumptions c17_no_fields_refuted.
Theorem c17_no_data_refuted : exists v s, v_data v = [] /\ to_text v = Ok s /\ parse_text 0 s = Throw.
Proof.
  exists (var monday []). eexists. split; [reflexivity|]. split; [vm_compute; reflexivity|]. vm_compute. reflexivity.
Qed.
Print Assumptions c17_no_data_refuted.

Definition texty : variable := {| v_name := s_ "my var"; v_data := [q 2; None; Some (Q2Qc (-1 # 8))]; v_start := daily monday;
  v_fields := [(s_ "a", s_ "1;2"); (s_ "b", [])] |}.
Example c17_nonvacuous : text_ok texty /\ exists s, to_text texty = Ok s /\
  s = list_ascii_of_string "my var" ++ tab :: s_ "d" ++ tab :: s_ "20220103" ++ tab ::
      s_ "2.0000000000000000;nan;-0.1250000000000000" ++ tab :: s_ "a;1;2" ++ tab :: s_ "b;".
Proof.
  split; [|eexists; split; (vm_compute; reflexivity)].
  split; [repeat constructor; discriminate|]. split.
  { split; [left; apply (daily_is [] monday (daily monday) [] []); reflexivity|]. split; reflexivity. }
  split; [discriminate|]. split; [discriminate|]. split; [repeat split|].
  repeat constructor; discriminate.
Qed.

(** C18: variables with starts on one timeline (any frequency but lists) are put on the rows of their
    dates; the table covers exactly the earliest start to the latest end. *)
Theorem c18_aligned_by_date vars : one_timeline vars -> (exists v, In v vars /\ v_data v <> []) ->
  exists V, make_variables vars = Ok V /\ vs_names V = map v_name vars /\
    Z.of_nat (List.length (vs_data V)) = vs_nobs V * len vars /\
    (* the table starts with the earliest start and ends with the latest end *)
    (exists v, In v vars /\ vs_start V = v_start v) /\
    (forall v, In v vars -> exists k, 0 <= k /\ k + len (v_data v) <= vs_nobs V /\
        exists g, next k (vs_start V) = Ok g /\ same_date g (v_start v)) /\
    (exists v k g, In v vars /\ next k (vs_start V) = Ok g /\ same_date g (v_start v) /\ k + len (v_data v) = vs_nobs V) /\
    (* every observation is on the row of its date *)
    (forall j v i x, nth_error vars j = Some v -> nth_error (v_data v) i = Some x ->
        exists r g h, cell V j r = Some x /\ next r (vs_start V) = Ok g /\ date v (Z.of_nat i) = Ok h /\ same_date g h) /\
    (* every known cell is an observation of that date *)
    (forall j v r x, nth_error vars j = Some v -> cell V j r = Some (Some x) ->
        exists i g h, nth_error (v_data v) i = Some (Some x) /\ next r (vs_start V) = Ok g /\ date v (Z.of_nat i) = Ok h /\ same_date g h).
Proof. exact (table_exact vars). Qed.
Print Assumptions c18_aligned_by_date.

(** Variables without any observation at one date are rejected. *)
Theorem c18_no_observations vars : one_timeline vars -> (forall v, In v vars -> v_data v = []) ->
  (forall v w, In v vars -> In w vars -> same_date (v_start v) (v_start w)) -> make_variables vars = Throw.
Proof. exact (table_empty vars). Qed.
Print Assumptions c18_no_observations.

(** GetRange: the first and the last known row of a column, and whether a cell is missing between them. *)
Theorem c18_range_of_column V k (j : nat) : 0 < vs_nobs V -> Z.of_nat (List.length (vs_data V)) = vs_nobs V * Z.of_nat k -> (j < k)%nat ->
  exists s e m, vs_range V (Z.of_nat j) = Ok (s, e, m) /\
   ((s <= e /\ (exists x y, cell V j s = Some (Some x) /\ cell V j e = Some (Some y)) /\
      (forall r x, cell V j r = Some (Some x) -> s <= r <= e) /\
      (m = true <-> exists r, s < r < e /\ cell V j r = Some None)) \/
    (e < s /\ m = false /\ forall r x, cell V j r <> Some (Some x))).
Proof. exact (vs_range_exact V k j). Qed.
Print Assumptions c18_range_of_column.

(** For list frequencies the order ignores how far a frequency is outside its list: two variables on the
    same list that start together, and end one and two steps after the list, cannot be combined (in the
    other order they can). *)
Theorem c18_lists_refuted : exists v w V, valid_freq (v_start v) /\ v_start v = v_start w /\
  make_variables [v; w] = Throw /\ make_variables [w; v] = Ok V.
Proof.
  set (f := FLs {| l_value := s_ "a"; l_items := Some [s_ "a"; s_ "b"]; l_out := 0 |}).
  exists {| v_name := s_ "v"; v_data := [q 1; q 2]; v_start := f; v_fields := [] |},
    {| v_name := s_ "w"; v_data := [q 1; q 2; q 3]; v_start := f; v_fields := [] |}.
  eexists. split.
  { exists [s_ "a"; s_ "b"], (s_ "a"), 0. split; [|split; [left; reflexivity|reflexivity]].
    repeat constructor; cbn; intros H; repeat (destruct H as [H|H]; [discriminate|]); contradiction. }
  split; [reflexivity|]. split; (vm_compute; reflexivity).
Qed.
Print Assumptions c18_lists_refuted.

Example c18_nonvacuous : let v := var monday [q 1; None; q 3] in let w := var (monday - 1) [q 5] in
  one_timeline [v; w] /\ (exists v', In v' [v; w] /\ v_data v' <> []) /\
  exists V, make_variables [v; w] = Ok V /\ vs_data V = [None; q 1; None; q 3; q 5; None; None; None] /\
    vs_range V 0 = Ok (1, 3, true) /\ vs_range V 1 = Ok (0, 0, false).
Proof.
  split.
  { exists (daily monday). split. { split; [left; apply (daily_is [] monday (daily monday) [] []); reflexivity|]. intros H; discriminate. }
    intros x [<-|[<-|[]]]; [exists 0|exists (-1)]; eexists; split; reflexivity. }
  split; [eexists; split; [left; reflexivity|discriminate]|]. eexists. repeat split; (vm_compute; reflexivity).
Qed.

(** C19: conversion to weekly: the weeks start on the requested day, cover all observations, and each
    value is the aggregate of the observations in its week. *)
Theorem c19_weekly_exact result v firstDay agg : is_daily v -> dow_ok firstDay ->
  exists w, to_weekly result v firstDay (Some agg) = Ok w /\ v_name w = v_name v /\ week_freq (v_start w) /\ class_of (v_start w) = kWeekly /\
    start_day v - 7 < start_day w <= start_day v /\ dow (start_day w) = firstDay /\
    (v_data v <> [] -> start_day w + 7 * (Z.of_nat (List.length (v_data w)) - 1) < end_day v <= start_day w + 7 * Z.of_nat (List.length (v_data w))) /\
    forall b, (b < List.length (v_data w))%nat -> exists g, date w (Z.of_nat b) = Ok g /\ day_of g = start_day w + 7 * Z.of_nat b /\
      nth_error (v_data w) b = Some (agg (values v (day_of g) (Z.min (day_of g + 7) (end_day v)))).
Proof. exact (weekly_exact result v firstDay agg). Qed.
Print Assumptions c19_weekly_exact.

Example c19_nonvacuous : is_daily (var (monday + 2) (map q (zseq 1 10))) /\ dow_ok 1 /\
  exists w, to_weekly (var 0 []) (var (monday + 2) (map q (zseq 1 10))) 1 (Some total) = Ok w /\ start_day w = monday /\ v_data w = [q 15; q 40].
Proof.
  split; [apply (daily_is _ _ (daily monday))|]. split; [unfold dow_ok; lia|]. eexists. split; [reflexivity|]. split; [reflexivity|].
  vm_compute; repeat first [apply Qc_is_canon; reflexivity | f_equal].
Qed.

(** C20: a daily-in-week variable that starts on the first day of its range, and a date-list variable
    that starts with the first date of its list, keep every observation on its date. *)
Theorem c20_from_weekdays result v r : dw_freq r (v_start v) -> r_start r <> r_end r -> dow (start_day v) = r_start r ->
  exists w, to_daily result v = Ok w /\ start_day w = start_day v /\ daily_copy v w.
Proof. exact (week_daily_exact result v r). Qed.
Print Assumptions c20_from_weekdays.

Theorem c20_from_dates result v x its : v_start v = FLd {| l_value := x; l_items := Some (x :: its); l_out := 0 |} ->
  NoDup (x :: its) -> List.length (v_data v) = List.length (x :: its) ->
  exists w, to_daily result v = Ok w /\ In (start_day w) (x :: its) /\ In (end_day w - 1) (x :: its) /\ daily_copy v w.
Proof. exact (list_daily_exact result v x its). Qed.
Print Assumptions c20_from_dates.

Definition weekdays : rng := {| r_start := 1; r_end := 5 |}.
Definition wday (d : Z) : freq := FW {| w_day := d; w_range := weekdays; w_fwd := 0; w_multi := 1; w_class := kDailyInWeek |}.
Lemma wday_freq d : 1 <= dow d <= 5 -> dw_freq weekdays (wday d).
Proof.
  intros H. exists d, true. assert (E : dow d = 1 \/ dow d = 2 \/ dow d = 3 \/ dow d = 4 \/ dow d = 5) by lia.
  exists {| w_day := d; w_range := weekdays; w_fwd := 0; w_multi := 1; w_class := kDailyInWeek |}, 0.
  split; [repeat split; cbn; lia|]. 
  split; [|reflexivity]. unfold wb_make. destruct E as [E|[E|[E|[E|E]]]];
    cbv -[Z.sub Z.add dow]; rewrite ?E; cbv -[Z.sub Z.add dow]; rewrite ?Z.sub_0_r, ?Z.add_0_r; reflexivity.
Qed.
(** Friday and Monday: the second observation is put on the Saturday. *)
Theorem c20_mid_week_refuted : exists v w g, dw_freq weekdays (v_start v) /\ to_daily v v = Ok w /\
  nth_error (v_data v) 1 = Some (q 2) /\ date v 1 = Ok g /\ day_of g = monday + 7 /\ value_on w (day_of g) = None /\
  value_on w (monday + 5) = q 2.
Proof.
  exists {| v_name := s_ "v"; v_data := [q 1; q 2]; v_start := wday (monday + 4); v_fields := [] |}. do 2 eexists.
  split; [apply wday_freq; vm_compute; split; discriminate|]. repeat split; (vm_compute; reflexivity).
Qed.
Print Assumptions c20_mid_week_refuted.
(** A date-list variable that starts with the second date: its first observation is put on the first. *)
Theorem c20_other_start_refuted : exists v w g, valid_freq (v_start v) /\ to_daily v v = Ok w /\
  nth_error (v_data v) 0 = Some (q 1) /\ date v 0 = Ok g /\ list_date g = Some (monday + 3) /\ value_on w (monday + 3) = q 2 /\ value_on w monday = q 1.
Proof.
  exists {| v_name := s_ "v"; v_data := [q 1; q 2]; v_start := FLd {| l_value := monday + 3; l_items := Some [monday; monday + 3]; l_out := 0 |}; v_fields := [] |}.
  do 2 eexists. split.
  { exists [monday; monday + 3], (monday + 3), 0. split; [|split; [right; left; reflexivity|reflexivity]].
    repeat constructor; cbn; intros H; repeat (destruct H as [H|H]; [discriminate|]); contradiction. }
  repeat split; (vm_compute; reflexivity).
Qed.
Print Assumptions c20_other_start_refuted.

Example c20_nonvacuous : dw_freq weekdays (wday monday) /\ r_start weekdays <> r_end weekdays /\ dow monday = r_start weekdays /\
  exists w, to_daily (var 0 []) {| v_name := s_ "v"; v_data := map q (zseq 1 6); v_start := wday monday; v_fields := [] |} = Ok w /\
    v_data w = [q 1; q 2; q 3; q 4; q 5; None; None; q 6].
Proof.
  split; [apply wday_freq; vm_compute; split; discriminate|]. split; [discriminate|]. split; [reflexivity|]. eexists. split; (vm_compute; reflexivity).
Qed.
Example c20_dates_nonvacuous : exists w,
  to_daily (var 0 []) {| v_name := s_ "v"; v_data := [q 1; q 2]; v_start := FLd {| l_value := monday; l_items := Some [monday; monday + 3]; l_out := 0 |}; v_fields := [] |} = Ok w /\
    NoDup [monday; monday + 3] /\ v_data w = [q 1; None; None; q 2].
Proof.
  eexists. split; [vm_compute; reflexivity|]. split; [|reflexivity].
  repeat constructor; cbn; intros H; repeat (destruct H as [H|H]; [discriminate|]); contradiction.
Qed.

(** C64: conversion of a daily variable to 1, 2, 3, 4, 6, 12 or 24 month-based periods a year: one value
    for each period, without gaps, which aggregates exactly the days of that period. *)
Theorem c64_month_periods result v x agg : is_daily v -> v_data v <> [] -> In x [1; 2; 3; 4; 6; 12; 24] ->
  exists w, to_xx_year_month result v x (Some agg) = Ok w /\ by_period (month_period x) agg v w.
Proof. exact (month_parts_exact result v x agg). Qed.
Print Assumptions c64_month_periods.

Example c64_nonvacuous : is_daily (var (monday + 85) (map q (zseq 1 10))) /\
  exists w, to_xx_year_month (var 0 []) (var (monday + 85) (map q (zseq 1 10))) 4 (Some total) = Ok w /\
    year_period (v_start w) = (2022, 1) /\ v_data w = [q 6; q 49].
Proof.
  split; [apply (daily_is _ _ (daily monday))|]. eexists. split; [vm_compute; reflexivity|]. split; [reflexivity|].
  vm_compute; repeat first [apply Qc_is_canon; reflexivity | f_equal].
Qed.

(** C65: conversion to x equal parts of the year. *)
Theorem c65_equal_parts result v x agg : is_daily v -> v_data v <> [] -> 2 <= x <= 182 ->
  exists w, to_xx_year result v x (Some agg) = Ok w /\ by_period (day_period x) agg v w.
Proof. intros H1 H2 H3. apply (day_parts_exact result v x agg H1 H2). lia. Qed.
Print Assumptions c65_equal_parts.

Example c65_nonvacuous : is_daily (var (monday + 360) (map q (zseq 1 10))) /\
  exists w, to_xx_year (var 0 []) (var (monday + 360) (map q (zseq 1 10))) 73 (Some total) = Ok w /\
    year_period (v_start w) = (2022, 73) /\ v_data w = [q 6; q 30; q 19].
Proof.
  split; [apply (daily_is _ _ (daily monday))|]. eexists. split; [vm_compute; reflexivity|]. split; [vm_compute; reflexivity|].
  vm_compute; repeat first [apply Qc_is_canon; reflexivity | f_equal].
Qed.

(** With one part a year the part number never changes: all years are put together. *)
Theorem c65_one_part_refuted : exists v w, is_daily v /\ to_xx_year v v 1 (Some total) = Ok w /\
  fst (day_period 1 (start_day v)) = 2021 /\ fst (day_period 1 (start_day v + 1)) = 2022 /\
  v_data v = [q 3; q 4] /\ v_data w = [q 7].
Proof.
  exists (var (monday - 3) [q 3; q 4]). eexists. split; [apply (daily_is _ _ (daily monday))|]. split; [vm_compute; reflexivity|].
  split; [vm_compute; reflexivity|]. split; [vm_compute; reflexivity|]. split; [reflexivity|].
  vm_compute; repeat first [apply Qc_is_canon; reflexivity | f_equal].
Qed.
Print Assumptions c65_one_part_refuted.
