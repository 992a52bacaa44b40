(** Properties C01 to C12 and C63: calendars (frequencies). *)
From Verif Require Import StrModel StrProofs DateProofs FreqModel FreqSpec FreqProofs FreqProofs2 FreqProofs3 FreqProofs4.
From Coq Require Import ZifyBool.
Local Open Scope Z_scope.

Ltac cyear := unfold year_freq; do 5 eexists; split; [|split; [vm_compute; reflexivity|reflexivity]]; lia.

(** C01: Next moves a year-based frequency exactly; Minus counts the steps. *)
Theorem c01_year_steps_exact f n m : year_freq f ->
  exists g h, next n f = Ok g /\ next m g = Ok h /\ next (n + m) f = Ok h /\ next 0 f = Ok f /\
    next (- n) g = Ok f /\ minus g f = Ok n /\ year_freq g /\ year_grid g f.
Proof. exact (year_steps f n m). Qed.
Print Assumptions c01_year_steps_exact.

(** The second quarter of 2000. *)
Definition q2 : freq := FY {| yb_year := 2000; yb_multi := 1; yb_part := 4; yb_pos := 2; yb_class := kQuarterly |}.
Example c01_nonvacuous : year_freq q2 /\
  next (-6) q2 = Ok (FY {| yb_year := 1998; yb_multi := 1; yb_part := 4; yb_pos := 4; yb_class := kQuarterly |}).
Proof. split; [exists 2000, 4, 2, 1; eexists; split; [lia|split; reflexivity]|reflexivity]. Qed.

(** C02: on one grid CompareTo is the sign of Minus, Minus is antisymmetric and additive, the order is
    total, and other classes are rejected. *)
Theorem c02_year_order f g : year_freq f -> year_freq g -> year_grid f g ->
  exists d, minus f g = Ok d /\ minus g f = Ok (- d) /\ compare f g = Ok (Z.sgn d) /\ (d = 0 <-> f = g) /\
    is_equal f g = Ok (d =? 0) /\ is_newer f g = Ok (0 <? d) /\ is_older f g = Ok (d <? 0) /\
    is_equal_or_newer f g = Ok (0 <=? d) /\ is_equal_or_older f g = Ok (d <=? 0) /\
    next d g = Ok f.
Proof. exact (year_order f g). Qed.
Print Assumptions c02_year_order.

Theorem c02_year_distance_additive f g h : year_freq f -> year_freq g -> year_freq h -> year_grid f g -> year_grid g h ->
  exists a b, minus f g = Ok a /\ minus g h = Ok b /\ minus f h = Ok (a + b).
Proof. exact (year_minus_additive f g h). Qed.
Print Assumptions c02_year_distance_additive.

Theorem c02_other_class_rejected f g : year_freq f -> year_freq g ->
  ~ (match f, g with FY a, FY b => yb_part a = yb_part b /\ yb_multi a = yb_multi b | _, _ => False end) ->
  compare f g = Throw /\ minus f g = Throw.
Proof. exact (year_other_class f g). Qed.
Print Assumptions c02_other_class_rejected.

Definition y2 (y p : Z) : freq := FY {| yb_year := y; yb_multi := 2; yb_part := 2; yb_pos := p; yb_class := kXTimesZYears |}.
Example c02_nonvacuous : year_freq (y2 2004 1) /\ year_freq (y2 2000 2) /\ year_grid (y2 2004 1) (y2 2000 2) /\
  minus (y2 2004 1) (y2 2000 2) = Ok 3.
Proof.
  split; [exists 2004, 2, 1, 2; eexists; split; [lia|split; reflexivity]|].
  split; [exists 2000, 2, 2, 2; eexists; split; [lia|split; reflexivity]|].
  split; [|reflexivity]. split; [reflexivity|]. split; [reflexivity|]. exists 2. reflexivity.
Qed.
(** Off the grid (which the constructors allow) the two disagree: the newer one is at distance -1. *)
Example c02_off_grid : compare (y2 2001 1) (y2 2000 2) = Ok 1 /\ minus (y2 2001 1) (y2 2000 2) = Ok (-1).
Proof. split; reflexivity. Qed.

(** C03: any sequence of Next calls keeps a year-based or day-based frequency valid; the constructors
    reject exactly the positions outside 1..partitions. *)
Theorem c03_year_stays_valid f ns : year_freq f ->
  exists g, run ns f = Ok g /\ next (zsum ns) f = Ok g /\ year_freq g /\ 1 <= position g <= partitions g /\
    class_of g = class_of f /\ partitions g = partitions f.
Proof. exact (year_run f ns). Qed.
Print Assumptions c03_year_stays_valid.

Theorem c03_day_stays_valid f ns : day_freq f ->
  exists g, run ns f = Ok g /\ next (zsum ns) f = Ok g /\ day_freq g /\ 1 <= position g <= partitions g /\
    class_of g = class_of f /\ partitions g = partitions f.
Proof. exact (day_run f ns). Qed.
Print Assumptions c03_day_stays_valid.

Theorem c03_constructors_exact year part pos multi w :
  ((exists b, yb_make year part pos multi = Ok b) <-> 1 <= pos <= part) /\
  ((exists b, db_make w part pos = Ok b) <-> 1 <= pos <= part).
Proof. exact (constructors_exact year part pos multi w). Qed.
Print Assumptions c03_constructors_exact.

(** Monday 2022-01-03. *)
Definition monday : Z := 2459583.
Definition weekdays : rng := {| r_start := 1; r_end := 5 |}.
Definition dw0 : wb := {| w_day := monday; w_range := weekdays; w_fwd := 0; w_multi := 1; w_class := kDailyInWeek |}.
Definition hourly : freq := FD {| h_day := dw0; h_part := 24; h_pos := 24; h_class := kHourly |}.
Lemma dw0_freq : dw_freq weekdays (FW dw0).
Proof.
  exists monday, true, dw0, 0. split; [split; unfold dow_ok; simpl; lia|]. split; vm_compute; reflexivity.
Qed.
Lemma hourly_freq : day_freq hourly.
Proof. exists dw0, 24, 24. eexists. split; [right; exists weekdays; apply dw0_freq|]. split; reflexivity. Qed.
Example c03_nonvacuous : day_freq hourly /\
  match run [-24; 1; 121] hourly with Ok (FD b) => (w_day (h_day b), h_pos b) = (monday + 7, 2) | _ => False end.
Proof. split; [apply hourly_freq|]. vm_compute. reflexivity. Qed.

(** C04: the text of a year-based frequency determines it. *)
Theorem c04_year_round_trip v0 f details : year_freq f -> year_ints f ->
  exists s c, to_string f = Ok s /\ class_string details f = Ok c /\ parse v0 s c = Ok (class_of f, f).
Proof. exact (year_round_trip v0 f details). Qed.
Print Assumptions c04_year_round_trip.

Example c04_nonvacuous : year_freq (y2 (-30) 2) /\ year_ints (y2 (-30) 2) /\
  to_string (y2 (-30) 2) = Ok (s_ "-30:2") /\ class_string false (y2 (-30) 2) = Ok (s_ "x2z2") /\
  parse 0 (s_ "-30:2") (s_ "x2z2") = Ok (kXTimesZYears, y2 (-30) 2).
Proof.
  split; [exists (-30), 2, 2, 2; eexists; split; [lia|split; reflexivity]|].
  split; [repeat split; reflexivity|]. vm_compute. auto.
Qed.

(** C05: ranges of days of the week. *)
Theorem c05_membership r v : rng_ok r -> dow_ok v -> exists b, in_range r v = Ok b /\ (b = true <-> inside r v).
Proof. exact (in_range_exact r v). Qed.
Print Assumptions c05_membership.

Theorem c05_outside r v forward : rng_ok r -> dow_ok v ->
  exists b k, outside r v forward = Ok (b, k) /\ (b = true <-> ~ inside r v) /\
   (b = true -> k <> 0 /\ (0 < k <-> forward = true) /\ inside r (walk v k) /\
      forall j, Z.abs j < Z.abs k -> 0 <= j * k -> ~ inside r (walk v j)).
Proof. exact (outside_exact r v forward). Qed.
Print Assumptions c05_outside.

Theorem c05_length_partial r : rng_ok r -> r_start r <> r_end r -> r_length r = (r_end r - r_start r) mod 7 + 1.
Proof. exact (length_exact r). Qed.
Print Assumptions c05_length_partial.

(** A range with one day is said to have eight. *)
Theorem c05_length_single_refuted r : rng_ok r -> r_start r = r_end r ->
  r_length r = 8 /\ (r_end r - r_start r) mod 7 + 1 = 1.
Proof. intros _ H. split; [apply length_single; auto|]. rewrite H, Z.sub_diag. reflexivity. Qed.
Print Assumptions c05_length_single_refuted.

Theorem c05_distance_forward a b : dow_ok a -> dow_ok b -> steps_between a b (dow_distance a b true) true.
Proof. exact (distance_forward a b). Qed.
Print Assumptions c05_distance_forward.

Theorem c05_distance_backward_partial a b : dow_ok a -> dow_ok b -> b <= a -> steps_between a b (dow_distance a b false) false.
Proof. exact (distance_backward a b). Qed.
Print Assumptions c05_distance_backward_partial.

(** Backwards over the week end the answer is always wrong: 7 + b - a instead of 7 + a - b. *)
Theorem c05_distance_backward_refuted a b : dow_ok a -> dow_ok b -> a < b ->
  dow_distance a b false = 7 + b - a /\ steps_between a b (7 + a - b) false /\ dow_distance a b false <> 7 + a - b.
Proof. exact (distance_backward_wrong a b). Qed.
Print Assumptions c05_distance_backward_refuted.

Example c05_nonvacuous : in_range {| r_start := 5; r_end := 1 |} 6 = Ok true /\ in_range {| r_start := 5; r_end := 1 |} 3 = Ok false /\
  outside {| r_start := 5; r_end := 1 |} 3 false = Ok (true, -2) /\ r_length {| r_start := 5; r_end := 1 |} = 4.
Proof. vm_compute. auto. Qed.

(** C06: daily, multi-daily, weekly, multi-weekly. *)
Theorem c06_week_steps_exact f n m : week_freq f ->
  exists g h, next n f = Ok g /\ next m g = Ok h /\ next (n + m) f = Ok h /\ next 0 f = Ok f /\
    next (- n) g = Ok f /\ minus g f = Ok n /\ week_freq g /\ week_grid g f /\ day_of g = day_of f + n * step_days f.
Proof. exact (week_steps f n m). Qed.
Print Assumptions c06_week_steps_exact.

Theorem c06_week_order f g : week_freq f -> week_freq g -> week_grid f g ->
  exists d, minus f g = Ok d /\ minus g f = Ok (- d) /\ day_of f - day_of g = d * step_days f /\
    compare f g = Ok (Z.sgn (day_of f - day_of g)) /\ (d = 0 <-> f = g) /\
    is_equal f g = Ok (d =? 0) /\ is_newer f g = Ok (0 <? d) /\ is_older f g = Ok (d <? 0) /\
    is_equal_or_newer f g = Ok (0 <=? d) /\ is_equal_or_older f g = Ok (d <=? 0).
Proof. exact (week_order f g). Qed.
Print Assumptions c06_week_order.

Theorem c06_week_distance_additive f g h : week_freq f -> week_freq g -> week_freq h -> week_grid f g -> week_grid g h ->
  exists a b, minus f g = Ok a /\ minus g h = Ok b /\ minus f h = Ok (a + b).
Proof. exact (week_minus_additive f g h). Qed.
Print Assumptions c06_week_distance_additive.

Definition mw (d : Z) : freq := FW {| w_day := d; w_range := rng0; w_fwd := 0; w_multi := 3; w_class := kMultiWeekly |}.
Example c06_nonvacuous : week_freq (mw monday) /\ week_freq (mw (monday + 42)) /\ week_grid (mw (monday + 42)) (mw monday) /\
  step_days (mw monday) = 21 /\ minus (mw (monday + 42)) (mw monday) = Ok 2.
Proof.
  split; [exists monday, true, 3; eexists; split; [lia|split; reflexivity]|].
  split; [exists (monday + 42), true, 3; eexists; split; [lia|split; reflexivity]|].
  split; [|split; reflexivity]. split; [reflexivity|]. split; [reflexivity|]. exists 2. reflexivity.
Qed.

(** C07: daily-in-week. *)
Theorem c07_daily_in_week_steps r f n m : dw_freq r f ->
  exists g h, next n f = Ok g /\ next m g = Ok h /\ next (n + m) f = Ok h /\ next 0 f = Ok f /\ next (- n) g = Ok f /\
    dw_freq r g /\ inside r (dow (day_of g)) /\ visits r (day_of f) n (day_of g) /\
    (r_start r <> r_end r -> minus g f = Ok n).
Proof. exact (dw_steps r f n m). Qed.
Print Assumptions c07_daily_in_week_steps.

Theorem c07_daily_in_week_order r f g : dw_freq r f -> dw_freq r g ->
  exists d h, next d g = Ok h /\ day_of h = day_of f /\ compare f g = Ok (Z.sgn (day_of f - day_of g)) /\ (d = 0 <-> day_of f = day_of g) /\
    (r_start r <> r_end r -> minus f g = Ok d /\ minus g f = Ok (- d)).
Proof. exact (dw_order r f g). Qed.
Print Assumptions c07_daily_in_week_order.

Theorem c07_constructor_moves_into_range r day forward : rng_ok r ->
  exists b, wb_make day false (Some r) forward 1 = Ok b /\ dw_freq r (FW b) /\
    (inside r (dow day) -> w_day b = day) /\
    (~ inside r (dow day) -> if forward : bool then next_inside r day (w_day b) else prev_inside r day (w_day b)).
Proof. exact (dw_constructor r day forward). Qed.
Print Assumptions c07_constructor_moves_into_range.

(** For every range with one day the distance is eight times the number of steps. *)
Theorem c07_single_day_distance_refuted r f n : dw_freq r f -> r_start r = r_end r ->
  exists g, next n f = Ok g /\ minus g f = Ok (8 * n).
Proof. exact (dw_single_wrong r f n). Qed.
Print Assumptions c07_single_day_distance_refuted.

Example c07_nonvacuous : dw_freq weekdays (FW dw0) /\
  match next 9 (FW dw0) with Ok g => day_of g = monday + 11 /\ minus g (FW dw0) = Ok 9 | _ => False end.
Proof. split; [apply dw0_freq|]. vm_compute. auto. Qed.

(** C08: partitions of a day. *)
Theorem c08_day_steps_exact f n m : day_freq f ->
  exists g h, next n f = Ok g /\ next m g = Ok h /\ next (n + m) f = Ok h /\ next 0 f = Ok f /\ next (- n) g = Ok f /\
    day_freq g /\ partitions g = partitions f /\ class_of g = class_of f /\
    (exists k, next k (day_part f) = Ok (day_part g) /\ position g - position f + k * partitions f = n) /\
    (not_single f -> minus g f = Ok n /\ minus f g = Ok (- n) /\ compare g f = Ok (Z.sgn n) /\
       is_equal g f = Ok (n =? 0) /\ is_newer g f = Ok (0 <? n) /\ is_older g f = Ok (n <? 0) /\
       is_equal_or_newer g f = Ok (0 <=? n) /\ is_equal_or_older g f = Ok (n <=? 0)).
Proof. exact (day_steps f n m). Qed.
Print Assumptions c08_day_steps_exact.

(** Hourly data for Sundays only: 24 steps are said to be 192. *)
Theorem c08_single_day_distance_refuted : exists f g, day_freq f /\ next 24 f = Ok g /\ minus g f = Ok 192.
Proof.
  pose (w := {| w_day := monday - 1; w_range := {| r_start := 0; r_end := 0 |}; w_fwd := 0; w_multi := 1; w_class := kDailyInWeek |}).
  exists (FD {| h_day := w; h_part := 24; h_pos := 5; h_class := kHourly |}). eexists. split; [|split; [vm_compute; reflexivity|vm_compute; reflexivity]].
  exists w, 24, 5. eexists. split; [|split; reflexivity]. right. exists {| r_start := 0; r_end := 0 |}.
  exists (monday - 1), true, w, 0. split; [split; unfold dow_ok; simpl; lia|]. split; vm_compute; reflexivity.
Qed.
Print Assumptions c08_single_day_distance_refuted.

Example c08_nonvacuous : day_freq hourly /\ not_single hourly /\
  match next 100 hourly with Ok (FD b) => (w_day (h_day b), h_pos b) = (monday + 7, 4) | _ => False end.
Proof. split; [apply hourly_freq|]. split; [intros _; simpl; lia|]. vm_compute. auto. Qed.

(** C09: list frequencies, inside and outside their list. *)
Theorem c09_list_steps_exact its f n m i : list_freq its f -> place f i ->
  exists g h h' k, next n f = Ok g /\ next m g = Ok h /\ next (n + m) f = Ok h' /\ next (- n) g = Ok k /\
    place g (i + n) /\ place h (i + n + m) /\ place h' (i + n + m) /\ place k i /\
    to_string h = to_string h' /\ to_string k = to_string f /\ plain h = plain h' /\ plain k = plain f /\
    minus g f = Ok n /\ minus f g = Ok (- n).
Proof. exact (list_steps its f n m i). Qed.
Print Assumptions c09_list_steps_exact.

Theorem c09_date_list_steps_exact its f n m i : list_freq_d its f -> place f i ->
  exists g h h' k, next n f = Ok g /\ next m g = Ok h /\ next (n + m) f = Ok h' /\ next (- n) g = Ok k /\
    place g (i + n) /\ place h (i + n + m) /\ place h' (i + n + m) /\ place k i /\
    to_string h = to_string h' /\ to_string k = to_string f /\ plain h = plain h' /\ plain k = plain f /\
    minus g f = Ok n /\ minus f g = Ok (- n).
Proof. exact (list_steps_d its f n m i). Qed.
Print Assumptions c09_date_list_steps_exact.

Theorem c09_place_unique its f : list_freq its f -> exists i, place f i /\ forall j, place f j -> j = i.
Proof. exact (list_place its f). Qed.
Print Assumptions c09_place_unique.

Definition abc : list str := [s_ "a"; s_ "b"; s_ "c"].
Definition lf (v : str) (o : Z) : freq := FLs {| l_value := v; l_items := Some abc; l_out := o |}.
Lemma abc_nodup : NoDup abc.
Proof. repeat (constructor; [simpl; intuition discriminate|]). constructor. Qed.
Example c09_nonvacuous : list_freq abc (lf (s_ "b") 4) /\ place (lf (s_ "b") 4) 6 /\
  next (-5) (lf (s_ "b") 4) = Ok (lf (s_ "b") 0) /\ next (-8) (lf (s_ "b") 4) = Ok (lf (s_ "b") (-2)).
Proof.
  split; [exists (s_ "b"), 5; split; [apply abc_nodup|]; split; [simpl; auto|]; vm_compute; reflexivity|].
  split; [exists abc; split; [reflexivity|]; right; right; vm_compute; split; [discriminate|reflexivity]|].
  split; vm_compute; reflexivity.
Qed.

(** C10: inside the list the order agrees with the distance; outside it does not. *)
Theorem c10_list_order_inside_partial its f g i j : list_freq its f -> list_freq its g -> place f i -> place g j ->
  0 <= i < Z.of_nat (List.length its) -> 0 <= j < Z.of_nat (List.length its) ->
  minus f g = Ok (i - j) /\ compare f g = Ok (Z.sgn (i - j)).
Proof. exact (list_compare_inside its f g i j). Qed.
Print Assumptions c10_list_order_inside_partial.

Theorem c10_list_order_outside_refuted : exists its f g, list_freq its f /\ list_freq its g /\
  minus g f = Ok 6 /\ compare g f = Ok 0 /\ is_newer g f = Ok false.
Proof.
  exists abc, (lf (s_ "a") 0), (lf (s_ "a") 4). split; [exists (s_ "a"), 0; split; [apply abc_nodup|]; split; [simpl; auto|]; vm_compute; reflexivity|].
  split; [exists (s_ "a"), 6; split; [apply abc_nodup|]; split; [simpl; auto|]; vm_compute; reflexivity|]. vm_compute. auto.
Qed.
Print Assumptions c10_list_order_outside_refuted.

(** C11: the text of the other frequencies determines them, up to the record of how the constructor
    moved a day into its range and the stale value of a list frequency outside its list. *)
Theorem c11_other_round_trip v0 f details : any_freq f -> other_ints f ->
  exists s c, to_string f = Ok s /\ class_string details f = Ok c /\ parse v0 s c = Ok (class_of f, plain f).
Proof. exact (other_round_trip v0 f details). Qed.
Print Assumptions c11_other_round_trip.

Theorem c11_list_round_trip f : list_text f ->
  exists s c, to_string f = Ok s /\ class_string true f = Ok c /\
   match f with FLs _ => parse_list_s s c [] | _ => parse_list_d 0 s c [] end = Ok (class_of f, plain f).
Proof. exact (list_round_trip f). Qed.
Print Assumptions c11_list_round_trip.

(** An empty list comes back with one empty item; and the general Parse gives a list frequency that
    has no items: using it is undefined. *)
Theorem c11_list_text_refuted :
  (exists f s c, f = FLs {| l_value := s_ "a"; l_items := Some []; l_out := 0 |} /\ to_string f = Ok s /\ class_string true f = Ok c /\
     parse_list_s s c [] = Ok (kListString, FLs {| l_value := s_ "a"; l_items := Some [[]]; l_out := 0 |})) /\
  (exists f s c g, list_freq abc f /\ to_string f = Ok s /\ class_string true f = Ok c /\ parse 0 s c = Ok (kListString, g) /\
     forall n, next n g = UB).
Proof.
  split.
  - eexists. exists (s_ "a"), (s_ "Ls:"). split; [reflexivity|]. vm_compute. auto.
  - exists (lf (s_ "b") 0), (s_ "b"), (s_ "Ls:a;b;c"). eexists.
    split; [exists (s_ "b"), 0; split; [apply abc_nodup|]; split; [simpl; auto|]; vm_compute; reflexivity|].
    split; [reflexivity|]. split; [reflexivity|]. split; [vm_compute; reflexivity|]. intros n. reflexivity.
Qed.
Print Assumptions c11_list_text_refuted.

Example c11_nonvacuous : any_freq hourly /\ other_ints hourly /\
  to_string hourly = Ok (s_ "20220103:24") /\ class_string false hourly = Ok (s_ "ho|i:mon-fri") /\
  parse 0 (s_ "20220103:24") (s_ "ho|i:mon-fri") = Ok (kHourly, hourly).
Proof.
  split; [apply hourly_freq|]. split; [split; [split; reflexivity|reflexivity]|]. vm_compute. auto.
Qed.
Example c11_list_nonvacuous : list_text (lf (s_ "c") 0) /\ class_string true (lf (s_ "c") 0) = Ok (s_ "Ls:a;b;c") /\
  parse_list_s (s_ "c") (s_ "Ls:a;b;c") [] = Ok (kListString, lf (s_ "c") 0).
Proof.
  split; [|vm_compute; auto]. exists abc. split; [reflexivity|]. split; [discriminate|]. split; [|split; reflexivity].
  repeat constructor; discriminate.
Qed.

(** C12: the class string identifies the class. *)
Theorem c12_class_string_identifies f details : any_freq f ->
  exists s, class_string details f = Ok s /\ get_class s = Ok (class_of f).
Proof. exact (class_identified f details). Qed.
Print Assumptions c12_class_string_identifies.

Example c12_nonvacuous : any_freq hourly /\ any_freq (y2 2000 1) /\ any_freq (mw monday) /\
  get_class (s_ "ho|i:mon-fri") = Ok kHourly /\ get_class (s_ "x2z2") = Ok kXTimesZYears /\ get_class (s_ "w3") = Ok kMultiWeekly.
Proof.
  split; [apply hourly_freq|]. split; [exists 2000, 2, 1, 2; eexists; split; [lia|split; reflexivity]|].
  split; [left; exists monday, true, 3; eexists; split; [lia|split; reflexivity]|]. vm_compute. auto.
Qed.

(** C63: a year multiple of zero is accepted; then Next does not move the year and Minus divides by zero. *)
Theorem c63_zero_year_multiple_refuted : exists b, yb_make 2000 1 1 0 = Ok b /\
  (forall n, match next n (FY b) with Ok (FY g) => yb_year g = 2000 | _ => False end) /\ minus (FY b) (FY b) = UB.
Proof.
  eexists. split; [reflexivity|]. split; [|reflexivity]. intros n. cbn [next]. rewrite yb_next_eq by (simpl; lia). simpl. lia.
Qed.
Print Assumptions c63_zero_year_multiple_refuted.
