(** Model of the frequencies: /repo/include/frequency.h and /repo/src/frequency/*.cpp.
    Ti (a 32-bit int) is modelled by unbounded integers, except in std::stoi: overflow of years, day
    counts or positions is not modelled. *)
From Verif Require Export StrModel DateModel.
Local Open Scope Z_scope.

(** frequency.h:20-84 FrequencyClass. *)
Inductive fclass :=
| kCrossSection | kYearly | kQuarterly | kMonthly | kXTimesAYear | kMultiYear | kXTimesZYears
| kWeekly | kMultiWeekly | kDaily | kMultiDaily | kDailyInWeek | kListString | kListDate
| kHourly | kMinutely | kSecondly | kXTimesADay.
Definition fclass_eq_dec (a b : fclass) : {a = b} + {a <> b}. Proof. decide equality. Defined.
Definition fclass_eqb (a b : fclass) : bool := if fclass_eq_dec a b then true else false.

(** ** Year-based: f_year_based.cpp *)
Record yb := { yb_year : Z; yb_multi : Z; yb_part : Z; yb_pos : Z; yb_class : fclass }.

(** f_year_based.cpp:11-45, the constructor (and the named factories 47-75). *)
Definition yb_make (year part pos multi : Z) : res yb :=
  if part <=? 0 then Throw else if pos <=? 0 then Throw else if part <? pos then Throw
  else Ok {| yb_year := year; yb_multi := multi; yb_part := part; yb_pos := pos;
     yb_class := if multi =? 1 then
         (if part =? 1 then kYearly else if part =? 4 then kQuarterly else if part =? 12 then kMonthly else kXTimesAYear)
       else (if part =? 1 then kMultiYear else kXTimesZYears) |}.

Definition yb_set (f : yb) (year pos : Z) : yb :=
  {| yb_year := year; yb_multi := yb_multi f; yb_part := yb_part f; yb_pos := pos; yb_class := yb_class f |}.

(** f_year_based.cpp:81-104 Next. *)
Definition yb_next (steps : Z) (f : yb) : yb :=
  if steps =? 0 then f
  else
    let absCount := Z.abs steps in
    let years := Z.quot absCount (yb_part f) in
    let rem := Z.rem absCount (yb_part f) in
    if 0 <? steps then
      if yb_part f <? yb_pos f + rem then yb_set f (yb_year f + (years + 1) * yb_multi f) (yb_pos f + (rem - yb_part f))
      else yb_set f (yb_year f + years * yb_multi f) (yb_pos f + rem)
    else
      if yb_pos f - rem <=? 0 then yb_set f (yb_year f - (years + 1) * yb_multi f) (yb_pos f - (rem - yb_part f))
      else yb_set f (yb_year f - years * yb_multi f) (yb_pos f - rem).

(** f_year_based.cpp:106-122 CompareTo, after the class check. *)
Definition yb_cmp (f g : yb) : Z :=
  if yb_year f <? yb_year g then -1 else if yb_year g <? yb_year f then 1
  else if yb_pos f <? yb_pos g then -1 else if yb_pos g <? yb_pos f then 1 else 0.

(** f_year_based.cpp:124-141 Minus, after the class check; division by a zero multiple is undefined. *)
Definition yb_minus (f g : yb) : res Z :=
  if yb_multi f =? 0 then UB
  else if 0 <? yb_cmp f g then
    let a := yb_part f in
    Ok (a * (Z.quot (yb_year f - yb_year g) (yb_multi f) - 1) + yb_pos f + (a - yb_pos g))
  else
    let a := yb_part g in
    Ok (- (a * (Z.quot (yb_year g - yb_year f) (yb_multi f) - 1) + yb_pos g + (a - yb_pos f))).

(** f_year_based.cpp:191-208 ToString. *)
Definition yb_string (f : yb) : res str :=
  match yb_class f with
  | kYearly | kMultiYear => Ok (dec (yb_year f))
  | kQuarterly => Ok (dec (yb_year f) ++ s_ "Q" ++ dec (yb_pos f))
  | kMonthly => Ok (dec (yb_year f) ++ s_ "M" ++ dec (yb_pos f))
  | kXTimesAYear | kXTimesZYears => Ok (dec (yb_year f) ++ s_ ":" ++ dec (yb_pos f))
  | _ => Throw
  end.

(** f_year_based.cpp:210-228 ToClassString. *)
Definition yb_class_string (f : yb) : res str :=
  match yb_class f with
  | kYearly => Ok (s_ "y")
  | kMultiYear => Ok (s_ "z" ++ dec (yb_multi f))
  | kQuarterly => Ok (s_ "q")
  | kMonthly => Ok (s_ "m")
  | kXTimesAYear => Ok (s_ "y" ++ dec (yb_part f))
  | kXTimesZYears => Ok (s_ "x" ++ dec (yb_part f) ++ s_ "z" ++ dec (yb_multi f))
  | _ => Throw
  end.

(** f_year_based.cpp:143-189 Parse0. *)
Definition yb_parse (s cls : str) (c : fclass) : res yb :=
  do parts <- split_multiple (s_ "QqMm:") s;
  do p0 <- at_ parts 0;
  do year <- stoi p0;
  let mk multi part pos := Ok {| yb_year := year; yb_multi := multi; yb_part := part; yb_pos := pos; yb_class := c |} in
  match c with
  | kYearly => mk 1 1 1
  | kQuarterly => do p1 <- at_ parts 1; do pos <- stoi p1; mk 1 4 pos
  | kMonthly => do p1 <- at_ parts 1; do pos <- stoi p1; mk 1 12 pos
  | _ =>
      do parts0 <- split_multiple (s_ "z") (skipn 1 cls);
      match c with
      | kXTimesAYear => do p1 <- at_ parts 1; do pos <- stoi p1;
                        do q0 <- at_ parts0 0; do part <- stoi q0; mk 1 part pos
      | kMultiYear => do q0 <- at_ parts0 0; do multi <- stoi q0; mk multi 1 1
      | kXTimesZYears => do p1 <- at_ parts 1; do pos <- stoi p1;
                         do q0 <- at_ parts0 0; do part <- stoi q0;
                         do q1 <- at_ parts0 1; do multi <- stoi q1; mk multi part pos
      | _ => Throw
      end
  end.

(** ** Days of the week: f_base.cpp:213-327, frequency.h:174-262 *)
Record rng := { r_start : Z; r_end : Z }.

(** f_base.cpp:220-227 GetLength. *)
Definition r_length (r : rng) : Z :=
  if r_start r <? r_end r then r_end r - r_start r + 1 else 7 - (r_start r - r_end r) + 1.

(** f_base.cpp:229-243 Distance. *)
Definition dow_distance (s e : Z) (forward : bool) : Z :=
  if forward then (if e <? s then 7 - s + e else e - s)
  else (if e <=? s then s - e else 7 - s + e).

(** f_base.cpp:285-299. *)
Definition next_dow (c : Z) : Z := if c =? 6 then 0 else c + 1.
Definition prev_dow (c : Z) : Z := if c =? 0 then 6 else c - 1.

(** f_base.cpp:245-256 IsInRange; fuel for while(true). *)
Fixpoint in_range_loop (fuel : nat) (r : rng) (v : Z) : res bool :=
  match fuel with
  | O => UB
  | S f => let v := next_dow v in
      if v =? r_start r then Ok false else if v =? r_end r then Ok true else in_range_loop f r v
  end.
Definition in_range (r : rng) (v : Z) : res bool :=
  if (v =? r_start r) || (v =? r_end r) || (r_length r =? 7) then Ok true else in_range_loop 8 r v.

(** f_base.cpp:258-283 IsOutsideRange: the answer and [step]. *)
Fixpoint outside_loop (fuel : nat) (r : rng) (forward : bool) (v step : Z) : res (bool * Z) :=
  match fuel with
  | O => UB
  | S f =>
      if forward then
        let v := next_dow v in let step := step + 1 in
        if v =? r_start r then Ok (true, step) else if v =? r_end r then Ok (false, step) else outside_loop f r forward v step
      else
        let v := prev_dow v in let step := step - 1 in
        if v =? r_end r then Ok (true, step) else if v =? r_start r then Ok (false, step) else outside_loop f r forward v step
  end.
Definition outside (r : rng) (v : Z) (forward : bool) : res (bool * Z) :=
  if (v =? r_start r) || (v =? r_end r) || (r_length r =? 7) then Ok (false, 0) else outside_loop 8 r forward v 0.

(** frequency.h:189-231 ToString / FromString_DayOfWeek (abbreviated). *)
Definition dow_name (d : Z) : res str :=
  match d with
  | 0 => Ok (s_ "sun") | 1 => Ok (s_ "mon") | 2 => Ok (s_ "tue") | 3 => Ok (s_ "wed")
  | 4 => Ok (s_ "thu") | 5 => Ok (s_ "fri") | 6 => Ok (s_ "sat") | _ => Throw
  end.
Definition dow_parse (s : str) : res Z :=
  if starts_with (s_ "sun") s then Ok 0 else if starts_with (s_ "mon") s then Ok 1
  else if starts_with (s_ "tue") s then Ok 2 else if starts_with (s_ "wed") s then Ok 3
  else if starts_with (s_ "thu") s then Ok 4 else if starts_with (s_ "fri") s then Ok 5
  else if starts_with (s_ "sat") s then Ok 6 else Throw.

(** f_base.cpp:301-325. *)
Definition rng_string (r : rng) : res str :=
  do a <- dow_name (r_start r); do b <- dow_name (r_end r); Ok (a ++ s_ "-" ++ b).
Definition rng_parse (s : str) : res rng :=
  do parts <- split_multiple (s_ "-:") s;
  do p0 <- at_ parts 0; do a <- dow_parse p0;
  do p1 <- at_ parts 1; do b <- dow_parse p1;
  Ok {| r_start := a; r_end := b |}.

(** ** Week-based: f_week_based.cpp *)
Record wb := { w_day : Z; w_range : rng; w_fwd : Z; w_multi : Z; w_class : fclass }.

(** frequency.h: the default DayOfWeekRange (Monday to Friday). *)
Definition rng0 : rng := {| r_start := 1; r_end := 5 |}.

(** f_week_based.cpp:11-40, the constructor (and the named factories 42-66). *)
Definition wb_make (day : Z) (isWeek : bool) (range : option rng) (forward : bool) (multi : Z) : res wb :=
  let cls := if isWeek then (if multi =? 1 then kWeekly else kMultiWeekly)
             else match range with Some _ => kDailyInWeek | None => if multi =? 1 then kDaily else kMultiDaily end in
  let mRange := if isWeek then rng0 else match range with Some r => r | None => rng0 end in
  match range with
  | Some _ =>
      if fclass_eqb cls kWeekly || fclass_eqb cls kDaily then Throw
      else
        do o <- outside mRange (dow day) forward;
        if fst o : bool then Ok {| w_day := day + snd o; w_range := mRange; w_fwd := snd o; w_multi := multi; w_class := cls |}
        else Ok {| w_day := day; w_range := mRange; w_fwd := 0; w_multi := multi; w_class := cls |}
  | None => Ok {| w_day := day; w_range := mRange; w_fwd := 0; w_multi := multi; w_class := cls |}
  end.

Definition wb_set (f : wb) (day : Z) : wb :=
  {| w_day := day; w_range := w_range f; w_fwd := w_fwd f; w_multi := w_multi f; w_class := w_class f |}.

(** f_week_based.cpp:84-103: one iteration of the loops of Next for kDailyInWeek. *)
Definition step_fwd (r : rng) (d : Z) : res Z :=
  do o <- outside r (dow (d + 1)) true;
  Ok (if fst o : bool then d + 1 + snd o else d + 1).
Definition step_bwd (r : rng) (d : Z) : res Z :=
  do o <- outside r (dow (d - 1)) false;
  Ok (if fst o : bool then d - 1 - (- snd o) else d - 1).
Fixpoint iter_res {A} (n : nat) (g : A -> res A) (x : A) : res A :=
  match n with O => Ok x | S m => do y <- g x; iter_res m g y end.

(** f_week_based.cpp:72-109 Next. *)
Definition wb_next (steps : Z) (f : wb) : res wb :=
  match w_class f with
  | kWeekly | kMultiWeekly => Ok (wb_set f (w_day f + 7 * steps * w_multi f))
  | kDaily | kMultiDaily => Ok (wb_set f (w_day f + steps * w_multi f))
  | kDailyInWeek =>
      do d <- (if 0 <? steps then iter_res (Z.to_nat steps) (step_fwd (w_range f)) (w_day f)
               else iter_res (Z.to_nat (- steps)) (step_bwd (w_range f)) (w_day f));
      Ok (wb_set f d)
  | _ => Throw
  end.

(** f_week_based.cpp:111-121 CompareTo, after the class check. *)
Definition wb_cmp (f g : wb) : Z :=
  if w_day f <? w_day g then -1 else if w_day g <? w_day f then 1 else 0.

(** f_week_based.cpp:123-162 Minus, after the class check. *)
Definition wb_minus (f g : wb) : res Z :=
  match w_class f with
  | kWeekly => Ok (Z.quot (w_day f - w_day g) 7)
  | kMultiWeekly => if w_multi f =? 0 then UB else Ok (Z.quot (w_day f - w_day g) (7 * w_multi f))
  | kDaily => Ok (w_day f - w_day g)
  | kDailyInWeek =>
      let r := w_range f in
      let c0 := dow_distance (dow (w_day f)) (r_end r) true in
      let c1 := dow_distance (dow (w_day g)) (r_end r) true in
      let span := (w_day f + c0) - (w_day g + c1) in
      let td := Z.quot (span * r_length r) 7 in
      Ok (td - c0 + c1)
  | kMultiDaily =>
      if negb (w_multi f =? w_multi g) then Throw
      else if w_multi f =? 0 then UB else Ok (Z.quot (w_day f - w_day g) (w_multi f))
  | _ => Throw
  end.

(** f_week_based.cpp:201-220 ToString (dates that boost can print), ToClassString. *)
Definition wb_string (f : wb) : res str := if valid_day (w_day f) then Ok (iso (w_day f)) else Throw.
Definition wb_class_string (f : wb) : res str :=
  match w_class f with
  | kWeekly => Ok (s_ "w")
  | kMultiWeekly => Ok (s_ "w" ++ dec (w_multi f))
  | kDaily => Ok (s_ "d")
  | kMultiDaily => Ok (s_ "d" ++ dec (w_multi f))
  | kDailyInWeek => do r <- rng_string (w_range f); Ok (s_ "i:" ++ r)
  | _ => Throw
  end.

(** f_week_based.cpp:164-199 Parse0. *)
Definition wb_parse (s cls : str) (c : fclass) : res wb :=
  do day <- iso_parse s;
  match c with
  | kWeekly | kDaily => Ok {| w_day := day; w_range := rng0; w_fwd := 0; w_multi := 1; w_class := c |}
  | kMultiWeekly | kMultiDaily =>
      do m <- stoi (skipn 1 cls);
      Ok {| w_day := day; w_range := rng0; w_fwd := 0; w_multi := m; w_class := c |}
  | kDailyInWeek =>
      do parts <- split_multiple (s_ ":") cls;
      do p1 <- at_ parts 1;
      do r <- rng_parse p1;
      Ok {| w_day := day; w_range := r; w_fwd := 0; w_multi := 1; w_class := c |}
  | _ => Throw
  end.

(** ** Day-based: f_day_based.cpp *)
Record db := { h_day : wb; h_part : Z; h_pos : Z; h_class : fclass }.

(** f_day_based.cpp:11-36, the constructor. *)
Definition db_make (day : wb) (part pos : Z) : res db :=
  if part <=? 0 then Throw else if pos <=? 0 then Throw else if part <? pos then Throw
  else Ok {| h_day := day; h_part := part; h_pos := pos;
     h_class := if part =? 24 then kHourly else if part =? 1440 then kMinutely
                else if part =? 86400 then kSecondly else kXTimesADay |}.

Definition db_set (f : db) (day : wb) (pos : Z) : db :=
  {| h_day := day; h_part := h_part f; h_pos := pos; h_class := h_class f |}.

(** f_day_based.cpp:62-85 Next. *)
Definition db_next (steps : Z) (f : db) : res db :=
  let absCount := Z.abs steps in
  let days := Z.quot absCount (h_part f) in
  let rem := Z.rem absCount (h_part f) in
  if 0 <? steps then
    if h_part f <? h_pos f + rem then do d <- wb_next (days + 1) (h_day f); Ok (db_set f d (h_pos f + (rem - h_part f)))
    else do d <- wb_next days (h_day f); Ok (db_set f d (h_pos f + rem))
  else
    if h_pos f - rem <=? 0 then do d <- wb_next (- days - 1) (h_day f); Ok (db_set f d (h_pos f - (rem - h_part f)))
    else do d <- wb_next (- days) (h_day f); Ok (db_set f d (h_pos f - rem)).

(** f_day_based.cpp:170-192 and 156-168. *)
Definition db_class_string (f : db) : res str :=
  do d <- wb_class_string (h_day f);
  match h_class f with
  | kHourly => Ok (s_ "ho|" ++ d)
  | kMinutely => Ok (s_ "mi|" ++ d)
  | kSecondly => Ok (s_ "se|" ++ d)
  | kXTimesADay => Ok (s_ "da" ++ dec (h_part f) ++ s_ "|" ++ d)
  | _ => Throw
  end.
Definition db_string (f : db) : res str :=
  match h_class f with
  | kHourly | kMinutely | kSecondly | kXTimesADay => do d <- wb_string (h_day f); Ok (d ++ s_ ":" ++ dec (h_pos f))
  | _ => Throw
  end.

(** f_base.cpp:11-21 CheckClassEquality, for the day inside a day-based frequency. *)
Definition wb_check (f g : wb) : res unit :=
  do a <- wb_class_string f; do b <- wb_class_string g;
  if fclass_eqb (w_class f) (w_class g) && iequals a b then Ok tt else Throw.

(** f_day_based.cpp:87-102 CompareTo, after the class check. *)
Definition db_cmp (f g : db) : res Z :=
  do _ <- wb_check (h_day f) (h_day g);
  let com := wb_cmp (h_day f) (h_day g) in
  if negb (com =? 0) then Ok com
  else Ok (if h_pos f <? h_pos g then -1 else if h_pos g <? h_pos f then 1 else 0).

(** f_day_based.cpp:104-124 Minus, after the class check. *)
Definition db_minus (f g : db) : res Z :=
  do c <- db_cmp f g;
  if 0 <? c then
    do _ <- wb_check (h_day f) (h_day g);
    do ddiff <- wb_minus (h_day f) (h_day g);
    let a := h_part f in
    Ok (a * (ddiff - 1) + h_pos f + (a - h_pos g))
  else
    do _ <- wb_check (h_day g) (h_day f);
    do ddiff <- wb_minus (h_day g) (h_day f);
    let a := h_part g in
    Ok (- (a * (ddiff - 1) + h_pos g + (a - h_pos f))).

(** f_base.cpp:47-97 GetClass. *)
Definition get_class (c : str) : res fclass :=
  if iequals c (s_ "cs") then Ok kCrossSection
  else if starts_with (s_ "ho") c then Ok kHourly
  else if starts_with (s_ "mi") c then Ok kMinutely
  else if starts_with (s_ "se") c then Ok kSecondly
  else if starts_with (s_ "da") c then Ok kXTimesADay
  else if iequals c (s_ "y") then Ok kYearly
  else if starts_with (s_ "z") c then Ok kMultiYear
  else if iequals c (s_ "q") then Ok kQuarterly
  else if iequals c (s_ "m") then Ok kMonthly
  else if starts_with (s_ "y") c then Ok kXTimesAYear
  else if starts_with (s_ "x") c then Ok kXTimesZYears
  else if iequals c (s_ "w") then Ok kWeekly
  else if starts_with (s_ "w") c then Ok kMultiWeekly
  else if iequals c (s_ "d") then Ok kDaily
  else if starts_with (s_ "d") c then Ok kMultiDaily
  else if starts_with (s_ "i") c then Ok kDailyInWeek
  else if starts_with (s_ "Ls") c then Ok kListString
  else if starts_with (s_ "Ld") c then Ok kListDate
  else Throw.

(** f_day_based.cpp:126-154 Parse0. *)
Definition db_parse (s cls : str) (c : fclass) : res db :=
  do parts1 <- split_multiple (s_ ":") s;
  do p1 <- at_ parts1 1;
  do pos <- stoi p1;
  do parts2 <- split_multiple (s_ "|") cls;
  do q1 <- at_ parts2 1;
  do fc <- get_class q1;
  do p0 <- at_ parts1 0;
  do day <- wb_parse p0 q1 fc;
  do part <- match c with
    | kHourly => Ok 24 | kMinutely => Ok 1440 | kSecondly => Ok 86400
    | kXTimesADay => do q0 <- at_ parts2 0;
        (* std::string::substr(2) throws when the string is shorter *)
        if (List.length q0 <? 2)%nat then Throw else stoi (skipn 2 q0)
    | _ => Throw end;
  Ok {| h_day := day; h_part := part; h_pos := pos; h_class := c |}.

(** ** Lists: f_list.cpp *)
Record lst (A : Type) := { l_value : A; l_items : option (list A); l_out : Z }.
Arguments l_value {A} _. Arguments l_items {A} _. Arguments l_out {A} _.

(** f_list.cpp:27-29 GetIndex: dereferences pItems. *)
Definition l_index {A} (eqb : A -> A -> bool) (f : lst A) : res Z :=
  match l_items f with None => UB | Some its => Ok (index_of eqb (l_value f) its) end.

(** f_list.cpp:36-52 Next. *)
Definition l_next {A} (eqb : A -> A -> bool) (steps : Z) (f : lst A) : res (lst A) :=
  match l_items f with
  | None => UB
  | Some its =>
      let size := Z.of_nat (List.length its) in
      let i := if l_out f =? 0 then index_of eqb (l_value f) its else -1 in
      let i := if i =? -1 then (if 0 <? l_out f then l_out f + (size - 1) else l_out f) else i in
      let j := i + steps in
      if (j <? size) && (0 <=? j) then
        do v <- at_ its (Z.to_nat j); Ok {| l_value := v; l_items := Some its; l_out := 0 |}
      else Ok {| l_value := l_value f; l_items := Some its; l_out := if size <=? j then j - size + 1 else j |}
  end.

(** f_list.cpp:54-64 CompareTo, after the class check. *)
Definition l_cmp {A} (eqb : A -> A -> bool) (f g : lst A) : res Z :=
  do i1 <- l_index eqb f; do i2 <- l_index eqb g;
  Ok (if i2 <? i1 then 1 else if i1 <? i2 then -1 else 0).

(** f_list.cpp:66-80 Minus, after the class check (size_t arithmetic is exact modulo 2^64). *)
Definition l_minus {A} (eqb : A -> A -> bool) (f g : lst A) : res Z :=
  match l_items f, l_items g with
  | Some fi, Some gi =>
      let p (h : lst A) (its : list A) :=
        if l_out h =? 0 then index_of eqb (l_value h) its
        else if 0 <? l_out h then l_out h + Z.of_nat (List.length its) - 1 else l_out h in
      Ok (p f fi - p g gi)
  | _, _ => UB
  end.

(** ** All frequencies *)
Inductive freq :=
| FCs (pos : Z)
| FY (f : yb)
| FW (f : wb)
| FD (f : db)
| FLs (f : lst str)
| FLd (f : lst Z).

Definition class_of (f : freq) : fclass :=
  match f with
  | FCs _ => kCrossSection | FY f => yb_class f | FW f => w_class f | FD f => h_class f
  | FLs _ => kListString | FLd _ => kListDate
  end.

(** Frequency::ToClassString(details); f_cross_section.cpp:57-59, f_list.cpp:135-161. *)
Definition class_string (details : bool) (f : freq) : res str :=
  match f with
  | FCs _ => Ok (s_ "cs")
  | FY f => yb_class_string f
  | FW f => wb_class_string f
  | FD f => db_class_string f
  | FLs f => if details then match l_items f with None => Throw | Some its => Ok (s_ "Ls:" ++ join (s_ ";") its) end
             else Ok (s_ "Ls")
  | FLd f => if details then match l_items f with None => Throw | Some its => Ok (s_ "Ld:" ++ join (s_ ";") (map iso its)) end
             else Ok (s_ "Ld")
  end.

(** Frequency::ToString; f_cross_section.cpp:53-55, f_list.cpp:123-133. *)
Definition to_string (f : freq) : res str :=
  match f with
  | FCs p => Ok (dec p)
  | FY f => yb_string f
  | FW f => wb_string f
  | FD f => db_string f
  | FLs f => if negb (l_out f =? 0) then Ok (s_ "out_item:" ++ dec (l_out f)) else Ok (l_value f)
  | FLd f => if negb (l_out f =? 0) then Ok (s_ "out_item:" ++ dec (l_out f))
             else if valid_day (l_value f) then Ok (iso (l_value f)) else Throw
  end.

(** f_base.cpp:11-21 CheckClassEquality (ToClassString without details). *)
Definition check_class (f g : freq) : res unit :=
  do a <- class_string false f; do b <- class_string false g;
  if fclass_eqb (class_of f) (class_of g) && iequals a b then Ok tt else Throw.

(** Frequency::Next. *)
Definition next (steps : Z) (f : freq) : res freq :=
  match f with
  | FCs p => Ok (FCs (p + steps))
  | FY f => Ok (FY (yb_next steps f))
  | FW f => do g <- wb_next steps f; Ok (FW g)
  | FD f => do g <- db_next steps f; Ok (FD g)
  | FLs f => do g <- l_next str_eqb steps f; Ok (FLs g)
  | FLd f => do g <- l_next Z.eqb steps f; Ok (FLd g)
  end.

(** Frequency::CompareTo (a failing dynamic_cast throws). *)
Definition compare (f g : freq) : res Z :=
  do _ <- check_class f g;
  match f, g with
  | FCs p, FCs q => Ok (if q <? p then 1 else if p <? q then -1 else 0)
  | FY f, FY g => Ok (yb_cmp f g)
  | FW f, FW g => Ok (wb_cmp f g)
  | FD f, FD g => db_cmp f g
  | FLs f, FLs g => l_cmp str_eqb f g
  | FLd f, FLd g => l_cmp Z.eqb f g
  | _, _ => Throw
  end.

(** Frequency::Minus. *)
Definition minus (f g : freq) : res Z :=
  do _ <- check_class f g;
  match f, g with
  | FCs p, FCs q => Ok (p - q)
  | FY f, FY g => yb_minus f g
  | FW f, FW g => wb_minus f g
  | FD f, FD g => db_minus f g
  | FLs f, FLs g => l_minus str_eqb f g
  | FLd f, FLd g => l_minus Z.eqb f g
  | _, _ => Throw
  end.

(** f_base.cpp:23-45 IsEqualTo, IsNewerThan, IsEqualOrNewerThan, IsOlderThan, IsEqualOrOlderThan. *)
Definition is_equal f g : res bool := do c <- compare f g; Ok (c =? 0).
Definition is_newer f g : res bool := do c <- compare f g; Ok (0 <? c).
Definition is_equal_or_newer f g : res bool := do c <- compare f g; Ok (0 <=? c).
Definition is_older f g : res bool := do c <- compare f g; Ok (c <? 0).
Definition is_equal_or_older f g : res bool := do c <- compare f g; Ok (c <=? 0).

(** f_list.cpp:82-121 Parse0 for strings; [items] is the vector passed in (or none), the result also
    contains the vector after the call. *)
Definition ls_parse (s cls : str) (items : option (list str)) : res (lst str * option (list str)) :=
  do out <- (if starts_with (s_ "out_item:") s then stoi (skipn 9 s) else Ok 0);
  let v := if out =? 0 then s else [] in
  do items' <- match items with
    | Some its => if (2 <? List.length cls)%nat then do ps <- split_multiple (s_ ";") (skipn 3 cls); Ok (Some (its ++ ps)) else Ok items
    | None => Ok None end;
  Ok ({| l_value := v; l_items := items'; l_out := out |}, items').

Fixpoint map_res {A B} (g : A -> res B) (l : list A) : res (list B) :=
  match l with [] => Ok [] | a :: l' => do b <- g a; do r <- map_res g l'; Ok (b :: r) end.

(** f_list.cpp:82-121 Parse0 for dates. [v0] stands for the default date (not-a-date). pItems is set
    by ParseList only. *)
Definition ld_parse (v0 : Z) (s cls : str) (items : option (list Z)) : res (lst Z * option (list Z)) :=
  do out <- (if starts_with (s_ "out_item:") s then stoi (skipn 9 s) else Ok 0);
  do v <- (if out =? 0 then iso_parse s else Ok v0);
  do items' <- match items with
    | Some its => if (2 <? List.length cls)%nat then
          do ps <- split_multiple (s_ ";") (skipn 3 cls); do ds <- map_res iso_parse ps; Ok (Some (its ++ ds)) else Ok items
    | None => Ok None end;
  Ok ({| l_value := v; l_items := None; l_out := out |}, items').

(** f_list.cpp:163-183 ParseList: strings and dates. *)
Definition parse_list_s (s cls : str) (items : list str) : res (fclass * freq) :=
  do c <- get_class cls;
  do '(f, its) <- ls_parse s cls (Some items);
  Ok (c, FLs {| l_value := l_value f; l_items := its; l_out := l_out f |}).
Definition parse_list_d (v0 : Z) (s cls : str) (items : list Z) : res (fclass * freq) :=
  do c <- get_class cls;
  do '(f, its) <- ld_parse v0 s cls (Some items);
  Ok (c, FLd {| l_value := l_value f; l_items := its; l_out := l_out f |}).

(** f_base.cpp:99-158 Parse. *)
Definition parse (v0 : Z) (s cls : str) : res (fclass * freq) :=
  do c <- get_class cls;
  do f <- match c with
    | kCrossSection => do p <- stoi s; Ok (FCs p)
    | kYearly | kMonthly | kQuarterly | kXTimesAYear | kMultiYear | kXTimesZYears => do f <- yb_parse s cls c; Ok (FY f)
    | kWeekly | kDaily | kDailyInWeek | kMultiWeekly | kMultiDaily => do f <- wb_parse s cls c; Ok (FW f)
    | kListString => do '(f, _) <- ls_parse s cls None; Ok (FLs f)
    | kListDate => do '(f, _) <- ld_parse v0 s cls None; Ok (FLd f)
    | kHourly | kMinutely | kSecondly | kXTimesADay => do f <- db_parse s cls c; Ok (FD f)
    end;
  Ok (c, f).
