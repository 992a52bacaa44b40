(** Specifications for variables. The dates of observations are those of the frequency: observation [i]
    of a variable is at the frequency reached by [i] steps from its start. *)
From Verif Require Export ArrSpec FreqSpec VarModel.
Local Open Scope Z_scope.

(** Frequencies with a consistent order and distance (everything but lists, and without daily-in-week
    ranges of one day). *)
Definition regular (f : freq) : Prop :=
  match f with
  | FCs _ => True
  | FY _ => year_freq f
  | FW _ => (week_freq f \/ exists r, dw_freq r f) /\ not_single f
  | FD _ => day_freq f /\ not_single f
  | _ => False
  end.
(** Any valid frequency, lists included. *)
Definition valid_freq (f : freq) : Prop :=
  match f with
  | FCs _ => True
  | FY _ => year_freq f
  | FW _ => week_freq f \/ exists r, dw_freq r f
  | FD _ => day_freq f
  | FLs _ => exists its, list_freq its f
  | FLd _ => exists its, list_freq_d its f
  end.
(** The same date: at most the record of how the constructor moved the day differs. *)
Definition same_date (f g : freq) : Prop := plain f = plain g.

(** The frequency of observation [i]. *)
Definition date (v : variable) (i : Z) : res freq := next i (v_start v).

(** Start frequencies on one timeline: all are reached from one frequency by whole steps. *)
Definition one_timeline (vars : list variable) : Prop :=
  exists f0, regular f0 /\ forall v, In v vars -> exists t g, next t f0 = Ok g /\ same_date (v_start v) g.

(** Row [r] of column [j] of a table. *)
Definition cell (V : variables) (j : nat) (r : Z) : option (option Qc) :=
  if (0 <=? r) && (r <? vs_nobs V) then nth_error (vs_data V) (j * Z.to_nat (vs_nobs V) + Z.to_nat r) else None.

(** Daily variables: the day of the first observation, the value on a day. *)
Definition start_day (v : variable) : Z := day_of (v_start v).
Definition is_daily (v : variable) : Prop := week_freq (v_start v) /\ class_of (v_start v) = kDaily.
Definition value_on (v : variable) (day : Z) : option Qc :=
  let i := day - start_day v in
  if i <? 0 then None else match nth_error (v_data v) (Z.to_nat i) with Some x => x | None => None end.
(** The values on the days from [a] to [b] (without [b]). *)
Definition values (v : variable) (a b : Z) : cells :=
  map (value_on v) (map (fun k => a + Z.of_nat k) (seq 0 (Z.to_nat (b - a)))).
(** The day after the last observation. *)
Definition end_day (v : variable) : Z := start_day v + Z.of_nat (length (v_data v)).

(** The date of a date-list frequency inside its list. *)
Definition list_date (f : freq) : option Z := match f with FLd l => if l_out l =? 0 then Some (l_value l) else None | _ => None end.
(** The calendar day of an observation. *)
Definition day_is (f : freq) (d : Z) : Prop :=
  match f with FLd _ => list_date f = Some d | FW b => w_day b = d | _ => False end.
(** [w] is the daily variable with the observations of [v], each on its own day, and nothing else. *)
Definition daily_copy (v w : variable) : Prop :=
  is_daily w /\ v_name w = v_name v /\
  (forall i x, nth_error (v_data v) i = Some x -> exists g d, date v (Z.of_nat i) = Ok g /\ day_is g d /\
      start_day w <= d < end_day w /\ value_on w d = x) /\
  (forall d x, value_on w d = Some x -> exists i g, nth_error (v_data v) i = Some (Some x) /\ date v (Z.of_nat i) = Ok g /\ day_is g d).

(** ** Periods of a year *)
(** The period of a day when the year has [x] month-based periods (24: halves of months, split after
    the 15th). *)
Definition month_period (x n : Z) : Z * Z :=
  let t := from_day_number n in
  (y_ t, if x =? 24 then 2 * (m_ t - 1) + (if 15 <? d_ t then 2 else 1) else (m_ t - 1) * x / 12 + 1).
(** The period of a day when the days of the year are divided in [x] parts of equal length. *)
Definition day_period (x n : Z) : Z * Z :=
  let t := from_day_number n in
  let first := day_number {| y_ := y_ t; m_ := 1; d_ := 1 |} in
  let days := day_number {| y_ := y_ t + 1; m_ := 1; d_ := 1 |} - first in
  (y_ t, (n - first) * x / days + 1).
(** The values on the days of [v] which lie in the period [c]. *)
Definition in_period (period : Z -> Z * Z) (v : variable) (c : Z * Z) : cells :=
  map (value_on v) (filter (fun d => (fst (period d) =? fst c) && (snd (period d) =? snd c))
    (map (fun k => start_day v + Z.of_nat k) (seq 0 (length (v_data v))))).
(** Year and period of a year-based frequency. *)
Definition year_period (f : freq) : Z * Z := match f with FY b => (yb_year b, yb_pos b) | _ => (0, 0) end.
(** [w] has one value for every period of [v] without gaps: the aggregate of all days of that period. *)
Definition by_period (period : Z -> Z * Z) (agg : aggregate) (v w : variable) : Prop :=
  year_freq (v_start w) /\ v_name w = v_name v /\ year_period (v_start w) = period (start_day v) /\
  (forall b, (b < length (v_data w))%nat -> exists g, date w (Z.of_nat b) = Ok g /\
      nth_error (v_data w) b = Some (agg (in_period period v (year_period g))) /\ in_period period v (year_period g) <> []) /\
  (forall d, start_day v <= d < end_day v -> exists b g, (b < length (v_data w))%nat /\ date w (Z.of_nat b) = Ok g /\
      year_period g = period d).
