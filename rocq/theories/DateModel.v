(** Gregorian dates.  boost::gregorian::date is a dependency and not in /repo: a date is modelled by
    its day number; the algorithms are those of boost/date_time/gregorian_calendar.ipp (day_number,
    from_day_number, day_of_week, end_of_month_day) and of to_iso_string / date_from_iso_string.
    Special values (not_a_date_time, infinities) are not modelled. *)
From Verif Require Import StrModel.
Local Open Scope Z_scope.

Record ymd := { y_ : Z; m_ : Z; d_ : Z }.

(** gregorian_calendar::day_number. *)
Definition day_number (t : ymd) : Z :=
  let a := (14 - m_ t) / 12 in
  let y := y_ t + 4800 - a in
  let m := m_ t + 12 * a - 3 in
  d_ t + (153 * m + 2) / 5 + 365 * y + y / 4 - y / 100 + y / 400 - 32045.

(** gregorian_calendar::from_day_number. *)
Definition from_day_number (n : Z) : ymd :=
  let a := n + 32044 in
  let b := (4 * a + 3) / 146097 in
  let c := a - (146097 * b) / 4 in
  let d := (4 * c + 3) / 1461 in
  let e := c - (1461 * d) / 4 in
  let m := (5 * e + 2) / 153 in
  {| d_ := e - (153 * m + 2) / 5 + 1; m_ := m + 3 - 12 * (m / 10); y_ := 100 * b + d - 4800 + m / 10 |}.

(** gregorian_calendar::day_of_week: 0 is Sunday. *)
Definition dow_ymd (t : ymd) : Z :=
  let a := (14 - m_ t) / 12 in
  let y := y_ t - a in
  let m := m_ t + 12 * a - 2 in
  (d_ t + y + y / 4 - y / 100 + y / 400 + 31 * m / 12) mod 7.

(** gregorian_calendar::is_leap_year, end_of_month_day. *)
Definition leap (y : Z) : bool := (y mod 4 =? 0) && (negb (y mod 100 =? 0) || (y mod 400 =? 0)).
Definition end_of_month (y m : Z) : Z :=
  if m =? 2 then (if leap y then 29 else 28)
  else if (m =? 4) || (m =? 6) || (m =? 9) || (m =? 11) then 30 else 31.

Definition valid_ymd (t : ymd) : bool :=
  (1400 <=? y_ t) && (y_ t <=? 9999) && (1 <=? m_ t) && (m_ t <=? 12) && (1 <=? d_ t) && (d_ t <=? end_of_month (y_ t) (m_ t)).

(** Day numbers of 1400-01-01 and 9999-12-31: the dates boost can represent. *)
Definition min_day : Z := 2232400.
Definition max_day : Z := 5373484.
Definition valid_day (n : Z) : bool := (min_day <=? n) && (n <=? max_day).

(** Day of the week of a day number. *)
Definition dow (n : Z) : Z := dow_ymd (from_day_number n).

(** to_iso_string: YYYYMMDD; two and four digits, zero padded. *)
Definition pad2 (n : Z) : str := [digit (n / 10); digit (n mod 10)].
Definition pad4 (n : Z) : str := [digit (n / 1000); digit (n / 100 mod 10); digit (n / 10 mod 10); digit (n mod 10)].
Definition iso (n : Z) : str := let t := from_day_number n in pad4 (y_ t) ++ pad2 (m_ t) ++ pad2 (d_ t).

(** date_from_iso_string, restricted to what it reads from exactly eight digits (any other string is
    taken to throw). *)
Definition iso_parse (s : str) : res Z :=
  match map digit_val s with
  | [Some a; Some b; Some c; Some d; Some e; Some f; Some g; Some h] =>
      let t := {| y_ := 1000 * a + 100 * b + 10 * c + d; m_ := 10 * e + f; d_ := 10 * g + h |} in
      if valid_ymd t then Ok (day_number t) else Throw
  | _ => Throw
  end.
