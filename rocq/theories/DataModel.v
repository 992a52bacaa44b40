(** Model of /repo/src/matrix/dataset.cpp:21-188 (Dataset, DatasetTs) and the parts of matrix.cpp it
    uses. The storage given to Calculate and Update is a list; NaN in DatasetTs is [None]. *)
From Verif Require Export MatModel ArrModel.
Local Open Scope Z_scope.

(** matrix.cpp:550-621 GetAnyNanRow: the rows in which no examined element is [skip] (isnan, or isnan
    or isinf). [no_skip] is the inner loop with its break. *)
Fixpoint no_skip {A} (skip : A -> bool) (M : mat A) (i : Z) (js : list Z) : res bool :=
  match js with
  | [] => Ok true
  | k :: t => do x <- rd (data M) (i + k * nrows M); if skip x then Ok false else no_skip skip M i t
  end.
Fixpoint nan_row_loop {A} (skip : A -> bool) (M : mat A) (js : list Z) (is : list Z) (acc : list Z) : res (list Z) :=
  match is with
  | [] => Ok acc
  | i :: t => do b <- no_skip skip M i js; nan_row_loop skip M js t (if b : bool then acc ++ [i] else acc)
  end.
Definition get_any_nan_row {A} (skip : A -> bool) (M : mat A) (js : option (list Z)) : res (list Z) :=
  nan_row_loop skip M (match js with Some l => l | None => zrange 0 (ncols M) end) (zrange 0 (nrows M)) [].

(** matrix_la.cpp:22-36 CopyTo00 (dcopy, or the loop). *)
Definition copy_to00 {A} (M S : mat A) : res (mat A) :=
  mwrites S (map (fun k => (k, rd (data M) k)) (zrange 0 (mlength M))).

(** dataset.cpp:21-31 the constructor's check. *)
Definition dataset_new (r c : Z) : res Z := if (c <=? 0) || (r <=? 0) then Throw else Ok (r * c).
(** dataset.cpp:33-60 Calculate; result.SetData(storage, rows, cols) is [Mat rows cols storage]. *)
Definition dataset_calculate {A} (skip : A -> bool) (has_nan select : bool) (M : mat A) (cix : option (list Z)) (storage : list A) : res (mat A) :=
  if select then
    match cix with
    | None => Throw
    | Some cs =>
        if has_nan then
          do v <- get_any_nan_row skip M (Some cs);
          get_sub_lists M v cs (Mat (length v) (length cs) storage) 0 0
        else get_sub_idx M 0 (nrows M) cs true (Mat (rows M) (length cs) storage) 0 0 false
    end
  else if has_nan then
    do v <- get_any_nan_row skip M None;
    get_sub_idx M 0 (ncols M) v false (Mat (length v) (cols M) storage) 0 0 false
  else copy_to00 M (Mat (rows M) (cols M) storage).

(** ** DatasetTs *)
(** The values of variable i: GetRangeRow (matrix.cpp:437-467) reads them through Get0 and
    GetRangeColumn (422-435) passes the column to Array::GetRange; both compute the same range. *)
Fixpoint rmap {A B} (f : A -> res B) (l : list A) : res (list B) :=
  match l with [] => Ok [] | x :: t => do y <- f x; do r <- rmap f t; Ok (y :: r) end.
Definition ts_series {A} (by_row : bool) (M : mat (option A)) (i : Z) : res (list (option A)) :=
  if by_row then rmap (fun j => get0 M i j) (zrange 0 (ncols M))
  else rmap (fun t => rd (data M) (nrows M * i + t)) (zrange 0 (nrows M)).
Record ts_state := { ts_has_missing : bool; ts_missing : list Z; ts_ranges : list irange }.
(** dataset.cpp:98-112 the loop of Data. *)
Fixpoint ts_data_loop {A} (by_row : bool) (M : mat (option A)) (is : list Z) (st : ts_state) : res ts_state :=
  match is with
  | [] => Ok st
  | i :: t =>
      do s <- ts_series by_row M i; do '(r, m) <- get_range_m s;
      ts_data_loop by_row M t
        {| ts_ranges := ts_ranges st ++ [r];
           ts_has_missing := ts_has_missing st || m;
           ts_missing := if m : bool then ts_missing st ++ [i] else ts_missing st |}
  end.
(** dataset.cpp:84-119 Data: Ranges is cleared, the other members are not. *)
Definition ts_data {A} (by_row has_nan : bool) (M : mat (option A)) (st : ts_state) : res ts_state :=
  let st0 := {| ts_ranges := []; ts_has_missing := ts_has_missing st; ts_missing := ts_missing st |} in
  if has_nan then
    do st' <- ts_data_loop by_row M (zrange 0 (if by_row then nrows M else ncols M)) st0;
    if existsb is_not_valid (ts_ranges st') then Throw else Ok st'
  else Ok st0.

(** dataset.cpp:121-142 biggestWithoutNaN; vector::at throws for an index out of range. *)
Definition narrow (se : Z * Z) (r : irange) : Z * Z :=
  (if fst se <? i_start r then i_start r else fst se, if i_end r <? snd se then i_end r else snd se).
Definition at_range (rs : list irange) (i : Z) : res irange :=
  if i <? 0 then Throw else match nth_error rs (Z.to_nat i) with Some r => Ok r | None => Throw end.
Definition biggest (rs : list irange) (idx : option (list Z)) : res (Z * Z) :=
  do l <- match idx with Some ix => rmap (at_range rs) ix | None => Ok rs end;
  Ok (fold_left narrow l (0, int_max)).

(** dataset.cpp:144-188 Update: Start, End, the dimensions given to Result (they may be negative)
    and the storage. Without storage only the former are computed. *)
Record ts_result (A : Type) := TsR { t_start : Z; t_end : Z; t_rows : Z; t_cols : Z; t_store : option (list A) }.
Arguments TsR {A}. Arguments t_start {A}. Arguments t_end {A}. Arguments t_rows {A}. Arguments t_cols {A}. Arguments t_store {A}.
Definition ts_store {A} (r c : Z) (st : option (list A)) (f : mat A -> res (mat A)) : res (option (list A)) :=
  match st with
  | None => Ok None
  | Some d => if (r <? 0) || (c <? 0) then Ok (Some d) else do R <- f (Mat (Z.to_nat r) (Z.to_nat c) d); Ok (Some (data R))
  end.
Definition window_count (s e : Z) : res Z := if int_max <? e - s + 1 then UB else Ok (e - s + 1).
Definition ts_update {A} (by_row has_nan select : bool) (M : mat (option A)) (st : ts_state) (idx : option (list Z)) (storage : option (list (option A))) : res (ts_result (option A)) :=
  if select then
    do '(s, e) <- (if has_nan then biggest (ts_ranges st) idx else Ok (0, (if by_row then ncols M else nrows M) - 1));
    match idx with
    | None => UB
    | Some ix =>
        do n <- window_count s e;
        let k := Z.of_nat (length ix) in
        let '(r, c) := if by_row then (k, n) else (n, k) in
        do d <- ts_store r c storage (fun S => get_sub_idx M s n ix (negb by_row) S 0 0 false);
        Ok (TsR s e r c d)
    end
  else if has_nan then
    do '(s, e) <- biggest (ts_ranges st) None;
    do n <- window_count s e;
    if by_row : bool then
      do d <- ts_store (nrows M) n storage (fun S => get_sub M 0 s (nrows M) n S 0 0);
      Ok (TsR s e (nrows M) n d)
    else
      do d <- ts_store n (ncols M) storage (fun S => get_sub M s 0 n (ncols M) S 0 0);
      Ok (TsR s e n (ncols M) d)
  else
    do d <- ts_store (nrows M) (ncols M) storage (fun S => copy_to00 M S);
    Ok (TsR 0 0 (nrows M) (ncols M) d).
