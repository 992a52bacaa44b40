(** Model of /repo/src/variable/variable.cpp, variables.cpp and include/variable.h.
    Tv is a rational or NaN ([option Qc]); aggregate functions are arbitrary functions. *)
From Verif Require Export ArrModel FreqModel.
Local Open Scope Z_scope.

(** variable.h:17-31. Fields, a std::map, is the list of its entries in key order. *)
Record variable := { v_name : str; v_data : cells; v_start : freq; v_fields : list (str * str) }.

Definition v_set (v : variable) (d : cells) (f : freq) : variable :=
  {| v_name := v_name v; v_data := d; v_start := f; v_fields := v_fields v |}.

Definition len {A} (l : list A) : Z := Z.of_nat (List.length l).

(** variable.cpp:8-14 GetEndFrequency: the frequency after the last observation. *)
Definition end_freq (v : variable) : res freq := next (len (v_data v)) (v_start v).

(** variable.cpp:189-193 GetRange, :195-208 Trim. *)
Definition trim (v : variable) : res (irange * variable) :=
  do '(r, _) <- get_range_m (v_data v);
  if is_not_valid r then Ok (r, v)
  else
    let count := i_end r - i_start r + 1 in
    if negb (count =? len (v_data v)) then
      let d := slice (v_data v) (i_start r) (i_end r + 1) in
      do f <- next (i_start r) (v_start v);
      Ok (r, v_set v d f)
    else Ok (r, v).

(** variable.cpp:210-220 Interpolate. *)
Definition v_interpolate (v : variable) : res (irange * variable * Z) :=
  do '(r, d, c) <- interpolate (v_data v); Ok (r, v_set v d (v_start v), c).

Definition aggregate := cells -> option Qc.

(** The variable written by a conversion: [result] keeps its own fields. *)
Definition converted (result v : variable) (d : cells) (f : freq) : variable :=
  {| v_name := v_name v; v_data := d; v_start := f; v_fields := v_fields result |}.

(** std::min_element and max_element on dates, std::find: index_of of StrModel. *)
Definition min_list (x : Z) (l : list Z) : Z := fold_left Z.min l x.
Definition max_list (x : Z) (l : list Z) : Z := fold_left Z.max l x.
Definition zseq (s : Z) (n : nat) : list Z := map (fun i => s + Z.of_nat i) (seq 0 n).

(** variable.cpp:241-250: one day of the loop over the dates of a date list. *)
Definition list_day (items : list Z) (data : cells) (day : Z) : res (option Qc) :=
  let i := index_of Z.eqb day items in
  if i =? -1 then Ok None else at_ data (Z.to_nat i).

(** variable.cpp:264-276: the weeks of a daily-in-week variable; [n] is the number of weeks that are
    left, [d] the data that are left. *)
Fixpoint weeks_loop (n : nat) (weekSize weekEnd : Z) (d : cells) : cells :=
  match n with
  | O => []
  | S m =>
      firstn (Z.to_nat weekSize) d ++
      (match m with O => [] | _ => repeat None (Z.to_nat weekEnd) end) ++
      weeks_loop m weekSize weekEnd (skipn (Z.to_nat weekSize) d)
  end.

(** std::map::insert of a new key: entries in key order; an existing key is kept. *)
Fixpoint str_ltb (a b : str) : bool :=
  match a, b with
  | [], _ :: _ => true
  | _, [] => false
  | x :: a', y :: b' =>
      let i := Ascii.nat_of_ascii x in let j := Ascii.nat_of_ascii y in
      if (i <? j)%nat then true else if (j <? i)%nat then false else str_ltb a' b'
  end.
Fixpoint insert_field (k v : str) (l : list (str * str)) : list (str * str) :=
  match l with
  | [] => [(k, v)]
  | (k', v') :: r => if str_ltb k k' then (k, v) :: l else if str_ltb k' k then (k', v') :: insert_field k v r else l
  end.

(** variable.cpp:222-286 ConvertTo_Daily. std::minmax_element of an empty list gives the end iterator,
    dereferencing it is UB. A negative number of week-end days makes the inner loop empty, as
    [Z.to_nat] does here. *)
Definition to_daily (result v : variable) : res variable :=
  match v_start v with
  | FLd l =>
      match l_items l with
      | None => UB
      | Some [] => UB
      | Some (x :: r) =>
          let mn := min_list x r in let mx := max_list x r in
          do d <- map_res (list_day (x :: r) (v_data v)) (zseq mn (Z.to_nat (mx - mn + 1)));
          do w <- wb_make mn false None true 1;
          Ok {| v_name := v_name v; v_data := d; v_start := FW w;
                v_fields := insert_field (s_ "conversion") (s_ "from date-list") (v_fields result) |}
      end
  | FW f =>
      match w_class f with
      | kDailyInWeek =>
          let weekSize := r_length (w_range f) in
          let weekEnd := 7 - weekSize in
          let numWeeks := (len (v_data v) + weekSize - 1) / weekSize in
          let d := weeks_loop (Z.to_nat numWeeks) weekSize weekEnd (v_data v) in
          do w <- wb_make (w_day f) false None true 1;
          Ok {| v_name := v_name v; v_data := d; v_start := FW w;
                v_fields := insert_field (s_ "conversion") (s_ "from date-list") (v_fields result) |}
      | _ => Throw
      end
  | _ => Throw
  end.

(** variable.cpp:288-322 ConvertTo_MultiDaily; [None] is a missing aggregate function. *)
Definition to_multi_daily (result v : variable) (k : Z) (agg : option aggregate) (fromEnd : bool) : res variable :=
  match v_start v with
  | FW f =>
      match w_class f with
      | kDaily =>
          match agg with
          | None => Throw
          | Some agg =>
              do p <- partition_equal (v_data v) k fromEnd;
              do w <- wb_make (w_day f) false None true k;
              Ok (converted result v (map agg p) (FW w))
          end
      | _ => Throw
      end
  | _ => Throw
  end.

(** variable.cpp:324-374 ConvertTo_Weekly. *)
Definition to_weekly (result v : variable) (firstDay : Z) (agg : option aggregate) : res variable :=
  match v_start v with
  | FW f =>
      match w_class f with
      | kDaily =>
          match agg with
          | None => Throw
          | Some agg =>
              let diff := dow_distance firstDay (dow (w_day f)) true in
              let d := if diff =? 0 then v_data v else repeat None (Z.to_nat diff) ++ v_data v in
              do p <- partition_equal d 7 false;
              do w <- wb_make (w_day f - diff) true None true 1;
              Ok (converted result v (map agg p) (FW w))
          end
      | _ => Throw
      end
  | _ => Throw
  end.

(** variable.cpp:376-384 get_part, in exact arithmetic. The code divides and multiplies doubles and
    truncates; the result is the same for every day of both kinds of years when 1 <= x <= 182 (checked
    by running the double expression on all of them). At x = 183, 305, 365, 366 it differs on some days. *)
Definition day_of_year (n : Z) : Z := let t := from_day_number n in n - day_number {| y_ := y_ t; m_ := 1; d_ := 1 |} + 1.
Definition get_part (x n : Z) : Z :=
  let days := if leap (y_ (from_day_number n)) then 366 else 365 in
  (day_of_year n - 1) * x / days + 1.

(** variable.h:153-184 get_part_month_based<x>; [None] when x is not supported (compile-time). *)
Definition get_part_month (x n : Z) : res Z :=
  let t := from_day_number n in let month := m_ t in
  if x =? 1 then Ok (y_ t)
  else if x =? 12 then Ok month
  else if x =? 6 then Ok (Z.quot (month - 1) 2 + 1)
  else if x =? 4 then Ok (if 9 <? month then 4 else if 6 <? month then 3 else if 3 <? month then 2 else 1)
  else if x =? 3 then Ok (if 8 <? month then 3 else if 4 <? month then 2 else 1)
  else if x =? 2 then Ok (if 6 <? month then 2 else 1)
  else if x =? 24 then Ok (2 * (month - 1) + (if 15 <? d_ t then 2 else 1))
  else Throw.

(** variable.cpp:405-423, variable.h:114-134: the loop over the days. [part] gives the part of a day,
    [cur] is current_part, [acc] is partdata. *)
Fixpoint parts_loop (part : Z -> Z) (agg : aggregate) (day : Z) (d : cells) (cur : Z) (acc : cells) : cells :=
  match d with
  | [] => match acc with [] => [] | _ => [agg acc] end
  | x :: r =>
      let p := part day in
      if p =? cur then parts_loop part agg (day + 1) r p (acc ++ [x])
      else agg acc :: parts_loop part agg (day + 1) r p [x]
  end.

(** variable.cpp:386-433 ConvertTo_XxYear. *)
Definition to_xx_year (result v : variable) (x : Z) (agg : option aggregate) : res variable :=
  match v_start v with
  | FW f =>
      match w_class f with
      | kDaily =>
          match agg with
          | None => Throw
          | Some agg =>
              let d := parts_loop (get_part x) agg (w_day f) (v_data v) (get_part x (w_day f)) [] in
              do y <- yb_make (y_ (from_day_number (w_day f))) x (get_part x (w_day f)) 1;
              Ok (converted result v d (FY y))
          end
      | _ => Throw
      end
  | _ => Throw
  end.

(** variable.h:98-150 ConvertTo_XxYear_month_based<x>. *)
Definition part_month (x n : Z) : Z := match get_part_month x n with Ok p => p | _ => 0 end.
Definition to_xx_year_month (result v : variable) (x : Z) (agg : option aggregate) : res variable :=
  match v_start v with
  | FW f =>
      match w_class f with
      | kDaily =>
          match agg with
          | None => Throw
          | Some agg =>
              do p0 <- get_part_month x (w_day f);
              let d := parts_loop (part_month x) agg (w_day f) (v_data v) p0 [] in
              do y <- (if x =? 1 then yb_make (y_ (from_day_number (w_day f))) 1 1 1
                       else yb_make (y_ (from_day_number (w_day f))) x p0 1);
              Ok (converted result v d (FY y))
          end
      | _ => Throw
      end
  | _ => Throw
  end.

(** ** Variables: variables.cpp:7-61 *)
Record variables := { vs_start : freq; vs_nobs : Z; vs_data : cells; vs_names : list str }.

(** variables.cpp:17-37: earliest start and latest end; an exception is thrown again. *)
Fixpoint span_loop (vars : list variable) (s e : freq) : res (freq * freq) :=
  match vars with
  | [] => Ok (s, e)
  | v :: r =>
      do n <- is_newer s (v_start v);
      let s' := if n : bool then v_start v else s in
      do t <- end_freq v;
      do o <- is_older e t;
      let e' := if o : bool then t else e in
      span_loop r s' e'
  end.

(** variables.cpp:46-59: the column of one variable. *)
Definition column (s e : freq) (v : variable) : res cells :=
  do a <- minus (v_start v) s;
  do t <- end_freq v;
  do b <- minus e t;
  Ok (repeat None (Z.to_nat a) ++ v_data v ++ repeat None (Z.to_nat b)).

(** variables.cpp:43-59: all columns are written one after the other in a vector of NumObs*count cells
    ([at] throws outside; cells never written keep the value 0 of resize). *)
Fixpoint columns (s e : freq) (vars : list variable) : res cells :=
  match vars with [] => Ok [] | v :: r => do c <- column s e v; do rest <- columns s e r; Ok (c ++ rest) end.

Definition make_variables (vars : list variable) : res variables :=
  match vars with
  | [] => Throw
  | v0 :: _ =>
      do e0 <- end_freq v0;
      do '(s, e) <- span_loop vars (v_start v0) e0;
      do n <- minus e s;
      if n =? 0 then Throw
      else
        let size := n * len vars in
        if size <? 0 then Throw (* resize with a huge size: length_error *)
        else
          do d <- columns s e vars;
          if size <? len d then Throw
          else Ok {| vs_start := s; vs_nobs := n; vs_data := d ++ repeat (Some 0%Qc) (Z.to_nat (size - len d)); vs_names := map v_name vars |}
  end.

(** variables.cpp:63-96 GetRange: first and last known row of column [j] (not normalised when there is
    none). *)
Definition vs_range (V : variables) (j : Z) : res (Z * Z * bool) :=
  let col := slice (vs_data V) (vs_nobs V * j) (vs_nobs V * (j + 1)) in
  if len col <? vs_nobs V then UB
  else
    let s := start_loop col in let e := end_loop col (List.length col) in
    if (e <? s)%nat then Ok (Z.of_nat s, Z.of_nat e, false)
    else do m <- missing_loop col s (e - s + 1); Ok (Z.of_nat s, Z.of_nat e, m).
